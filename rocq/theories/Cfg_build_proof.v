(** The blocks that are cut from the code. *)
From Verif Require Import Base Base_lemmas Cfg_model Cfg_spec Cfg_sim_proof.

Definition ends_well (code : list instr) : Prop := code = [] \/ exists c, code = c ++ [End].
Lemma ends_tail x code : ends_well (x :: code) -> ends_well code /\ (x <> End -> code <> []).
Proof.
  intros [H|[c H]]; [discriminate|]. destruct c as [|y c]; cbn [app] in H; injection H as -> ->.
  - split; [left; reflexivity|congruence].
  - split; [right; exists c; reflexivity|]. intros _. destruct c; discriminate.
Qed.

Definition calm (i : instr) : Prop := match i with Return _ | Plain _ | End => True | _ => False end.

(** ** names *)
Lemma build_names code : forall md n r acc next bs next', build code md n r acc next = Ok (bs, next') ->
  NoDup (map bname acc ++ n :: labels code) -> (forall x, In x (map bname acc ++ n :: labels code) -> (x < next)%nat) ->
  NoDup (map bname bs) /\ (forall x, In x (map bname bs) -> (x < next')%nat) /\ (forall x, In x (map bname acc ++ n :: labels code) -> In x (map bname bs)) /\ (next <= next')%nat /\
  exists l, bs = acc ++ l /\ exists b l', l = b :: l' /\ bname b = n.
Proof.
  induction code as [|i code IH]; intros md n r acc next bs next' E ND L; cbn [build] in E.
  - destruct md; try discriminate. injection E as <- <-. rewrite map_app. cbn [map bname labels flat_map] in *. split; [exact ND|]. split; [exact L|]. split; [auto|]. split; [lia|].
    eexists. split; [reflexivity|]. eexists _, _. split; reflexivity.
  -
    assert (New : forall ops md2 r2, labels (i :: code) = labels code -> build code md2 next r2 (acc ++ [mk_bb n ops [] []]) (S next) = Ok (bs, next') ->
      NoDup (map bname bs) /\ (forall x, In x (map bname bs) -> (x < next')%nat) /\ (forall x, In x (map bname acc ++ n :: labels (i :: code)) -> In x (map bname bs)) /\ (next <= next')%nat /\
      exists l, bs = acc ++ l /\ exists b l', l = b :: l' /\ bname b = n).
    { intros ops md2 r2 El Eb. rewrite El in *. destruct (IH _ _ _ _ _ _ _ Eb) as [H1 [H2 [H3 [H4 [l [H5 H6]]]]]].
      - rewrite map_app. cbn [map bname]. rewrite <- app_assoc. cbn [app]. apply NoDup_Add with (a := next) (l := map bname acc ++ n :: labels code).
        + replace (map bname acc ++ n :: next :: labels code) with ((map bname acc ++ [n]) ++ next :: labels code) by (rewrite <- app_assoc; reflexivity).
          replace (map bname acc ++ n :: labels code) with ((map bname acc ++ [n]) ++ labels code) by (rewrite <- app_assoc; reflexivity). apply Add_app.
        + split; [exact ND|]. intros K. apply L in K. lia.
      - intros x Hx. rewrite map_app in Hx. cbn [map bname] in Hx. rewrite <- app_assoc in Hx. cbn [app] in Hx.
        apply in_app_or in Hx. destruct (Nat.eq_dec x next) as [->|Nx]; [lia|]. assert (K : (x < next)%nat); [|lia].
        apply L. apply in_or_app. cbn [In] in *. destruct Hx as [Hx|[Hx|[Hx|Hx]]]; [auto|auto|congruence|auto].
      - split; [exact H1|]. split; [exact H2|]. split; [|split; [lia|]].
        + intros x Hx. apply H3. rewrite map_app. cbn [map bname]. rewrite <- app_assoc. cbn [app]. apply in_app_or in Hx. apply in_or_app. destruct Hx as [Hx|[Hx|Hx]]; [auto|right; left; exact Hx|right; right; right; exact Hx].
        + rewrite H5, <- app_assoc. eexists. split; [reflexivity|]. eexists _, _. split; reflexivity. }
    destruct i; cbn [is_branch mode_after] in E.
    2-6: assert (El : labels code = labels code) by reflexivity; destruct md; solve [apply (IH _ _ _ _ _ _ _ E ND L)|eapply New; [reflexivity|exact E]].
    destruct (IH _ _ _ _ _ _ _ E) as [H1 [H2 [H3 [H4 [l [H5 H6]]]]]].
    + rewrite map_app. cbn [map bname]. rewrite <- app_assoc. exact ND.
    + intros x Hx. rewrite map_app in Hx. cbn [map bname] in Hx. rewrite <- app_assoc in Hx. apply L. exact Hx.
    + split; [exact H1|]. split; [exact H2|]. split; [|split; [exact H4|]].
      * intros x Hx. apply H3. rewrite map_app. cbn [map bname]. rewrite <- app_assoc. exact Hx.
      * rewrite H5, <- app_assoc. eexists. split; [reflexivity|]. eexists _, _. split; reflexivity.
Qed.

(** ** it comes to an end *)
Lemma build_total code : forall md n r acc next, ends_well code -> (md <> Normal -> code <> []) -> exists bs next', build code md n r acc next = Ok (bs, next').
Proof.
  induction code as [|i code IH]; intros md n r acc next W M; cbn [build].
  - destruct md; [|exfalso; apply M; congruence|exfalso; apply M; congruence]. eexists _, _. reflexivity.
  - destruct (ends_tail _ _ W) as [W' N]. assert (K : forall md, (md <> Normal -> i <> End) -> md <> Normal -> code <> []) by (intros md0 H1 H2; apply N; auto).
    destruct i; cbn [is_branch mode_after].
    1: apply IH; [exact W'|congruence].
    all: destruct md; apply IH; try exact W'; try congruence; intros _; apply N; discriminate.
Qed.

(** ** the blocks do what the code does *)
Section Match.
  Variables (look : nat -> option (list instr)) (bs : list bb).
  Hypothesis ND : NoDup (map bname bs).
  Let blk := code_of bs.
  Notation M := (match_code look bs).

  Definition is_block (n : nat) (ops : list instr) : Prop := In (mk_bb n ops [] []) bs.
  Definition concl (md : mode) (n : nat) (r code : list instr) : Prop :=
    match md with
    | Normal => exists o, is_block n (rev r ++ o) /\ (code <> [] -> M code o)
    | AfterBal => is_block n (rev r)
    | AfterBranch => match r with Branch k t :: r => exists o, is_block n (rev r ++ o) /\ M (Branch k t :: code) o | _ => False end
    end.
  Definition no_jump (r : list instr) : Prop := match r with Bal _ :: _ | Branch _ _ :: _ => False | _ => True end.
  Definition head_ok (md : mode) (r : list instr) : Prop :=
    match md with
    | Normal => no_jump r
    | AfterBal => match r with Bal _ :: _ => True | _ => False end
    | AfterBranch => match r with Branch _ _ :: r => no_jump r | _ => False end
    end.

  Lemma block_code n ops : is_block n ops -> blk n = Some ops.
  Proof. intros H. apply (code_in bs (mk_bb n ops [] []) ND H). Qed.

  Lemma push_one i n r code : is_label i = false -> (i <> End -> code <> []) -> concl (mode_after i) n (i :: r) code -> exists o, is_block n (rev r ++ o) /\ M (i :: code) o.
  Proof.
    intros Hl Hc. destruct i; try discriminate; cbn [mode_after concl rev].
    - intros H. exists [Bal n0]. split; [exact H|apply M_bal].
    - auto.
    - intros [o [H1 H2]]. exists (Return k :: o). rewrite <- app_assoc in H1. split; [exact H1|]. apply M_straight; [exact Logic.I|apply H2; apply Hc; discriminate].
    - intros [o [H1 H2]]. exists (Plain k :: o). rewrite <- app_assoc in H1. split; [exact H1|]. apply M_straight; [exact Logic.I|apply H2; apply Hc; discriminate].
    - intros [o [H1 H2]]. exists (End :: o). rewrite <- app_assoc in H1. split; [exact H1|apply M_end].
  Qed.

  Lemma close_normal m r : no_jump r -> close m r = Bal m :: r.
  Proof. unfold close, no_jump. destruct r as [|[] r]; intros H; try destruct H; reflexivity. Qed.

  Lemma close_branch m k t r : no_jump r -> close m (Branch k t :: r) = if Nat.eqb t m then Bal m :: r else Bal m :: Branch k t :: r.
  Proof. unfold close, no_jump. destruct (Nat.eqb t m); destruct r as [|[] r]; intros H; try destruct H; reflexivity. Qed.
  Lemma mode_head i r : is_label i = false -> no_jump r -> head_ok (mode_after i) (i :: r).
  Proof. destruct i; cbn; auto; discriminate. Qed.

  Lemma build_match code : forall md n r acc next next', build code md n r acc next = Ok (bs, next') -> ends_well code -> NoDup (labels code) ->
    (forall l s, target code l = Some s -> look l = Some s) -> head_ok md r ->
    (forall t, In t (jumps (r ++ code)) -> (t < next)%nat) -> (exists l b l', bs = l ++ b :: l' /\ l = acc /\ bname b = n) ->
    concl md n r code /\ forall l s, target code l = Some s -> exists o, blk l = Some o /\ M s o.
  Proof.
    induction code as [|i code IH]; intros md n r acc next next' E W NL Hl Hh Hj Hacc; cbn [build] in E.
    - split; [|intros l s H; discriminate]. destruct md; try discriminate. cbn [concl]. exists []. rewrite app_nil_r. split; [|congruence].
      injection E as E _. unfold is_block. rewrite <- E. apply in_or_app. right. left. reflexivity.
    - destruct (ends_tail _ _ W) as [W' Wc].
      assert (Mem : forall ops md2 n2 r2 next2, build code md2 n2 r2 (acc ++ [mk_bb n ops [] []]) next2 = Ok (bs, next') -> is_block n ops).
      { intros ops md2 n2 r2 next2 Eb. clear - Eb. unfold is_block. revert Eb. generalize (acc ++ [mk_bb n ops [] []]) (in_or_app acc [mk_bb n ops [] []] _ (or_intror (or_introl (eq_refl (mk_bb n ops [] []))))).
        revert md2 n2 r2 next2. induction code as [|i code IH]; intros md2 n2 r2 next2 l Hin Eb; cbn [build] in Eb.
        - destruct md2; try discriminate. injection Eb as <- _. apply in_or_app. left. exact Hin.
        - destruct i, md2; cbn [is_branch mode_after] in Eb; (eapply IH; [|exact Eb]); try exact Hin; apply in_or_app; left; exact Hin. }
      assert (Nx : forall ops md2 n2 r2 next2, build code md2 n2 r2 (acc ++ [mk_bb n ops [] []]) next2 = Ok (bs, next') -> exists l b l', bs = l ++ b :: l' /\ l = acc ++ [mk_bb n ops [] []] /\ bname b = n2).
      { clear. intros ops md2 n2 r2 next2. generalize (acc ++ [mk_bb n ops [] []]). revert md2 n2 r2 next2. induction code as [|i code IH]; intros md2 n2 r2 next2 l Eb; cbn [build] in Eb.
        - destruct md2; try discriminate. injection Eb as <- _. eexists _, _, _. split; [reflexivity|]. split; reflexivity.
        - assert (K : forall ops2 md3 n3 r3 next3, build code md3 n3 r3 (l ++ [mk_bb n2 ops2 [] []]) next3 = Ok (bs, next') -> exists l0 b l', bs = l0 ++ b :: l' /\ l0 = l /\ bname b = n2).
          { intros ops2 md3 n3 r3 next3 E3. destruct (IH _ _ _ _ _ E3) as [l0 [b [l' [E4 [E5 _]]]]]. subst l0. exists l, (mk_bb n2 ops2 [] []), (b :: l'). split; [rewrite E4, <- app_assoc; reflexivity|]. split; reflexivity. }
          destruct i, md2; cbn [is_branch mode_after] in Eb; first [eapply K; exact Eb|eapply IH; exact Eb]. }
      assert (Lt : forall m, is_label i = false -> target (i :: code) m = target code m) by (intros m H; destruct i; [discriminate| | | | |]; reflexivity).
      assert (Ll : is_label i = false -> labels (i :: code) = labels code) by (intros H; destruct i; [discriminate| | | | |]; reflexivity).
      destruct (is_label i) eqn:Il.
      + destruct i as [m| | | | |]; try discriminate. cbn [labels flat_map app] in NL. inversion NL as [|? ? Nm NL']; subst.
        assert (Hl' : forall l s, target code l = Some s -> look l = Some s).
        { intros l s H. apply Hl. cbn [target]. destruct (Nat.eqb m l) eqn:Em; [|exact H]. apply Nat.eqb_eq in Em. subst l. exfalso. apply Nm.
          revert H. clear. induction code as [|j code IH]; [discriminate|]. cbn [target]. destruct j; cbn [labels flat_map app]; intros H; try (apply IH; exact H).
          destruct (Nat.eqb n m) eqn:E; [apply Nat.eqb_eq in E; left; exact E|right; apply IH; exact H]. }
        destruct (IH _ _ _ _ _ _ E W' NL' Hl' Logic.I) as [C1 C2].
        { intros t Ht. apply Hj. unfold jumps in *. cbn [flat_map app] in *. rewrite flat_map_app. apply in_or_app. right. exact Ht. }
        { eapply Nx. exact E. }
        cbn [concl] in C1. destruct C1 as [o [C1 C3]]. specialize (C3 (Wc ltac:(discriminate))). cbn [rev app] in C1. pose proof (block_code _ _ C1) as Bm.
        pose proof (Mem _ _ _ _ _ E) as Cn. pose proof (M_label look bs m code o C3) as Ml. split.
        * destruct md; cbn [concl].
          -- rewrite close_normal in Cn by exact Hh. cbn [rev] in Cn. exists [Bal m]. split; [exact Cn|]. intros _. apply (M_fall look bs m _ _ Bm Ml).
          -- destruct r as [|[] r]; try (destruct Hh; fail). rewrite close_branch in Cn by exact Hh. destruct (Nat.eqb n0 m) eqn:En.
             ++ apply Nat.eqb_eq in En. subst n0. exists [Bal m]. split; [exact Cn|].
                apply (M_skip look bs k m code (Label m :: o)); [apply Hl; cbn [target]; rewrite Nat.eqb_refl; reflexivity|exact Bm|exact Ml].
             ++ cbn [rev] in Cn. rewrite <- app_assoc in Cn. exists [Branch k n0; Bal m]. split; [exact Cn|]. apply (M_branch look bs k n0 _ m _ Bm Ml).
          -- destruct r as [|[] r]; try (destruct Hh; fail). exact Cn.
        * intros l s H. cbn [target] in H. destruct (Nat.eqb m l) eqn:Em; [|apply C2; exact H]. apply Nat.eqb_eq in Em. subst l. injection H as <-. exists (Label m :: o). split; [exact Bm|exact Ml].
      + rewrite (Ll eq_refl) in NL. assert (Hl' : forall l s, target code l = Some s -> look l = Some s) by (intros l s H; apply Hl; rewrite (Lt l eq_refl); exact H).
        assert (Ht : forall md2 n2 r2 acc2 next2, build code md2 n2 r2 acc2 next2 = Ok (bs, next') -> head_ok md2 r2 -> (forall t, In t (jumps (r2 ++ code)) -> (t < next2)%nat) ->
          (exists l b l', bs = l ++ b :: l' /\ l = acc2 /\ bname b = n2) -> concl md2 n2 r2 code /\ forall l s, target (i :: code) l = Some s -> exists o, blk l = Some o /\ M s o).
        { intros md2 n2 r2 acc2 next2 E2 H2 H3 H4. destruct (IH _ _ _ _ _ _ E2 W' NL Hl' H2 H3 H4) as [C1 C2]. split; [exact C1|]. intros l s H. rewrite (Lt l eq_refl) in H. apply C2. exact H. }
        assert (Hj2 : forall t, In t (jumps ([i; Label next] ++ code)) -> (t < S next)%nat).
        { intros t Hi. assert (K : (t < next)%nat); [|lia]. apply Hj. rewrite jumps_app. apply in_or_app. right. unfold jumps in *. cbn [app flat_map] in *. exact Hi. }
        assert (Hj1 : forall t, In t (jumps ((i :: r) ++ code)) -> (t < next)%nat).
        { intros t Hi. apply Hj. unfold jumps in *. rewrite !flat_map_app in *. cbn [flat_map] in *. rewrite !in_app_iff in *. tauto. }
        (* a new block *)
        assert (New : forall ops, build code (mode_after i) next [i; Label next] (acc ++ [mk_bb n ops [] []]) (S next) = Ok (bs, next') ->
          is_block n ops /\ (exists o, is_block next (Label next :: o) /\ M (i :: code) o) /\ forall l s, target (i :: code) l = Some s -> exists o, blk l = Some o /\ M s o).
        { intros ops Eb. split; [eapply Mem; exact Eb|]. destruct (Ht _ _ _ _ _ Eb (mode_head i [Label next] Il Logic.I) Hj2 (Nx _ _ _ _ _ Eb)) as [C1 C2]. split; [|exact C2].
          apply (push_one i next [Label next] code Il Wc C1). }
        destruct md.
        * assert (E' : build code (mode_after i) n (i :: r) acc next = Ok (bs, next')) by (destruct i; try discriminate; exact E).
          destruct (Ht _ _ _ _ _ E' (mode_head i r Il Hh) Hj1 Hacc) as [C1 C2]. split; [|exact C2]. cbn [concl].
          destruct (push_one i n r code Il Wc C1) as [o [H1 H2]]. exists o. split; [exact H1|auto].
        * assert (E' : build code (mode_after i) next [i; Label next] (acc ++ [mk_bb n (rev (close next r)) [] []]) (S next) = Ok (bs, next')) by (destruct i; try discriminate; exact E).
          destruct (New _ E') as [H1 [[o [H2 H3]] H4]]. split; [|exact H4]. cbn [concl]. destruct r as [|[] r]; try (destruct Hh; fail).
          assert (Nn : Nat.eqb n0 next = false). { apply Nat.eqb_neq. intros ->. assert (K : (next < next)%nat) by (apply Hj; left; reflexivity). lia. }
          rewrite close_branch, Nn in H1 by exact Hh. cbn [rev] in H1. rewrite <- app_assoc in H1. exists [Branch k n0; Bal next]. split; [exact H1|].
          apply (M_branch look bs k n0 _ next _ (block_code _ _ H2)). apply M_temp. exact H3.
        * destruct r as [|[] r]; try (destruct Hh; fail). destruct (is_branch i) eqn:Ib.
          -- assert (E' : build code AfterBal n (Bal n0 :: r) acc next = Ok (bs, next')) by (destruct i; try discriminate; exact E).
             destruct (Ht _ _ _ _ _ E' Logic.I) as [C1 C2].
             { intros t Hi. apply Hj. unfold jumps in *. rewrite !flat_map_app in *. cbn [flat_map] in *. rewrite !in_app_iff in *. tauto. }
             { exact Hacc. }
             split; [exact C1|exact C2].
          -- assert (E' : build code (mode_after i) next [i; Label next] (acc ++ [mk_bb n (rev (close next (Bal n0 :: r))) [] []]) (S next) = Ok (bs, next')) by (destruct i; try discriminate; exact E).
             destruct (New _ E') as [H1 [_ H4]]. split; [|exact H4]. exact H1.
  Qed.
End Match.

(** ** the shape of the blocks *)
Definition shaped (b : bb) : Prop :=
  exists body tail, bops b = Label (bname b) :: body ++ tail /\ Forall calm body /\
    ((tail = [] /\ exists body', body = body' ++ [End]) \/ (exists t, tail = [Bal t]) \/ (exists k t t2, tail = [Branch k t2; Bal t] /\ t2 <> t)).

Lemma build_members code : forall md n r acc next bs next', build code md n r acc next = Ok (bs, next') ->
  incl acc bs /\ In n (map bname bs) /\ incl (labels code) (map bname bs).
Proof.
  induction code as [|i code IH]; intros md n r acc next bs next' E; cbn [build] in E.
  - destruct md; try discriminate. injection E as <- _. split; [apply incl_appl, incl_refl|]. split; [rewrite map_app; apply in_or_app; right; left; reflexivity|intros x []].
  - assert (New : forall ops md2 n2 r2 next2, build code md2 n2 r2 (acc ++ [mk_bb n ops [] []]) next2 = Ok (bs, next') -> incl acc bs /\ In n (map bname bs) /\ In n2 (map bname bs) /\ incl (labels code) (map bname bs)).
    { intros ops md2 n2 r2 next2 Eb. destruct (IH _ _ _ _ _ _ _ Eb) as [H1 [H2 H3]]. split; [intros x Hx; apply H1; apply in_or_app; left; exact Hx|]. split; [|split; assumption].
      apply (in_map bname _ (mk_bb n ops [] [])). apply H1. apply in_or_app. right. left. reflexivity. }
    destruct i; cbn [is_branch mode_after] in E.
    1: destruct (New _ _ _ _ _ E) as [H1 [H2 [H3 H4]]]; split; [exact H1|split; [exact H2|]]; intros x [<-|Hx]; [exact H3|apply H4; exact Hx].
    all: destruct md; first [apply (IH _ _ _ _ _ _ _ E)|destruct (New _ _ _ _ _ E) as [H1 [H2 [H3 H4]]]; split; [exact H1|split; [exact H2|exact H4]]].
Qed.

Definition cur_ok (md : mode) (n : nat) (r : list instr) : Prop :=
  exists body, Forall calm body /\
    match md with
    | Normal => r = rev body ++ [Label n]
    | AfterBal => exists t, r = Bal t :: rev body ++ [Label n]
    | AfterBranch => exists k t, r = Branch k t :: rev body ++ [Label n]
    end.
Lemma calm_no_jump body n : Forall calm body -> no_jump (rev body ++ [Label n]).
Proof.
  intros H. apply Forall_rev in H. destruct (rev body) as [|x l]; [exact Logic.I|]. apply Forall_inv in H. destruct x; try destruct H; exact Logic.I.
Qed.
Lemma close_shape md n r m : cur_ok md n r -> shaped (mk_bb n (rev (close m r)) [] []).
Proof.
  intros [body [C H]]. pose proof (calm_no_jump body n C) as NJ. exists body. cbn [bname bops]. destruct md.
  - subst r. rewrite close_normal by exact NJ. exists [Bal m]. cbn [rev]. rewrite rev_app_distr, rev_involutive. split; [reflexivity|]. split; [exact C|]. right. left. exists m. reflexivity.
  - destruct H as [k [t ->]]. rewrite close_branch by exact NJ. destruct (Nat.eqb t m) eqn:E.
    + exists [Bal m]. cbn [rev]. rewrite rev_app_distr, rev_involutive. split; [reflexivity|]. split; [exact C|]. right. left. exists m. reflexivity.
    + exists [Branch k t; Bal m]. cbn [rev]. rewrite rev_app_distr, rev_involutive, <- app_assoc. cbn [app]. rewrite <- app_assoc. split; [reflexivity|]. split; [exact C|]. right. right. exists k, m, t. split; [reflexivity|]. apply Nat.eqb_neq. exact E.
  - destruct H as [t ->]. exists [Bal t]. cbn [close rev]. rewrite rev_app_distr, rev_involutive. split; [reflexivity|]. split; [exact C|]. right. left. exists t. reflexivity.
Qed.
Lemma cur_push i n r : is_label i = false -> cur_ok Normal n r -> cur_ok (mode_after i) n (i :: r).
Proof.
  intros Hl [body [C ->]]. destruct i; try discriminate; cbn [mode_after].
  - exists body. split; [exact C|]. eexists. reflexivity.
  - exists body. split; [exact C|]. eexists _, _. reflexivity.
  - exists (body ++ [Return k]). split; [apply Forall_app; split; [exact C|repeat constructor]|]. rewrite rev_app_distr. reflexivity.
  - exists (body ++ [Plain k]). split; [apply Forall_app; split; [exact C|repeat constructor]|]. rewrite rev_app_distr. reflexivity.
  - exists (body ++ [End]). split; [apply Forall_app; split; [exact C|repeat constructor]|]. rewrite rev_app_distr. reflexivity.
Qed.

Lemma build_shape code : forall md n r acc next bs next', build code md n r acc next = Ok (bs, next') -> ends_well code -> (code = [] -> exists r', r = End :: r') ->
  Forall shaped acc -> cur_ok md n r -> Forall shaped bs.
Proof.
  induction code as [|i code IH]; intros md n r acc next bs next' E W Hn Sa Cr; cbn [build] in E.
  - destruct md; try discriminate. injection E as <- _. apply Forall_app. split; [exact Sa|]. constructor; [|constructor]. destruct Cr as [body [C ->]]. destruct (Hn eq_refl) as [r' Er].
    exists body, []. cbn [bops bname]. rewrite rev_app_distr, rev_involutive, app_nil_r. split; [reflexivity|]. split; [exact C|]. left. split; [reflexivity|].
    destruct (rev body) as [|x l] eqn:Eb; cbn [app] in Er; [discriminate|]. injection Er as -> _. exists (rev l). rewrite <- (rev_involutive body), Eb. reflexivity.
  - destruct (ends_tail _ _ W) as [W' Wc].
    assert (Sn : forall m, Forall shaped (acc ++ [mk_bb n (rev (close m r)) [] []])) by (intros m; apply Forall_app; split; [exact Sa|constructor; [apply (close_shape md); exact Cr|constructor]]).
    assert (Nl : i <> End -> code = [] -> forall r2, exists r', r2 = End :: r') by (intros H1 H2; exfalso; apply (Wc H1 H2)).
    assert (F0 : cur_ok Normal next [Label next]) by (exists []; split; [constructor|reflexivity]).
    destruct i; cbn [is_branch mode_after] in E.
    1: eapply IH; [exact E|exact W'|intros H; apply Nl; [discriminate|exact H]|apply Sn|exists []; split; [constructor|reflexivity]].
    all: destruct md; (eapply IH; [exact E|exact W'|first [intros H; eexists; reflexivity|intros H; apply Nl; [discriminate|exact H]]|first [exact Sa|apply Sn]|first [exact Cr|eapply (cur_push (Bal _)); [reflexivity|eassumption]|eapply (cur_push (Branch _ _)); [reflexivity|eassumption]|eapply (cur_push (Return _)); [reflexivity|eassumption]|eapply (cur_push (Plain _)); [reflexivity|eassumption]|eapply (cur_push End); [reflexivity|eassumption]]]).
Qed.

Lemma close_jumps m r : incl (jumps (rev (close m r))) (m :: jumps r).
Proof.
  assert (K : incl (jumps (close m r)) (m :: jumps r)).
  { unfold close. assert (K : forall r, incl (jumps (match r with Bal _ :: _ => r | _ => Bal m :: r end)) (m :: jumps r)).
    { intros [|[] r0]; try (apply incl_refl); apply incl_tl, incl_refl. }
    destruct r as [|[u|u|k u|k|k|] r].
    - exact (K []).
    - exact (K (Label u :: r)).
    - exact (K (Bal u :: r)).
    - destruct (Nat.eqb u m); [|exact (K (Branch k u :: r))]. eapply incl_tran; [exact (K r)|]. intros x [<-|H]; [left; reflexivity|right; right; exact H].
    - exact (K (Return k :: r)).
    - exact (K (Plain k :: r)).
    - exact (K (End :: r)). }
  intros x Hx. apply K. unfold jumps in *. apply in_flat_map in Hx. destruct Hx as [i [H1 H2]]. apply in_flat_map. exists i. split; [apply in_rev; exact H1|exact H2].
Qed.
Lemma build_jumps code : forall md n r acc next bs next' S, build code md n r acc next = Ok (bs, next') -> incl (map bname bs) S -> incl (jumps (r ++ code)) S ->
  Forall (fun b => incl (jumps (bops b)) S) acc -> Forall (fun b => incl (jumps (bops b)) S) bs.
Proof.
  induction code as [|i code IH]; intros md n r acc next bs next' S0 E Sn Sj Sa; cbn [build] in E.
  - destruct md; try discriminate. injection E as <- _. apply Forall_app. split; [exact Sa|]. constructor; [|constructor]. cbn [bops]. rewrite app_nil_r in Sj. intros x Hx. apply Sj.
    unfold jumps in *. apply in_flat_map in Hx. destruct Hx as [i [H1 H2]]. apply in_flat_map. exists i. split; [apply in_rev; exact H1|exact H2].
  - assert (Jr : incl (jumps r) S0) by (intros x Hx; apply Sj; rewrite jumps_app; apply in_or_app; left; exact Hx).
    assert (Jc : incl (jumps (i :: code)) S0) by (intros x Hx; apply Sj; rewrite jumps_app; apply in_or_app; right; exact Hx).
    assert (Jc' : incl (jumps code) S0) by (intros x Hx; apply Jc; unfold jumps; cbn [flat_map]; apply in_or_app; right; exact Hx).
    assert (New : forall m, In m S0 -> Forall (fun b => incl (jumps (bops b)) S0) (acc ++ [mk_bb n (rev (close m r)) [] []])).
    { intros m Hm. apply Forall_app. split; [exact Sa|]. constructor; [|constructor]. cbn [bops]. intros x Hx. apply close_jumps in Hx. destruct Hx as [<-|Hx]; [exact Hm|apply Jr; exact Hx]. }
    assert (Ji : incl (jumps ((i :: r) ++ code)) S0).
    { intros x Hx. apply Sj. rewrite jumps_app in *. unfold jumps in *. cbn [flat_map] in *. rewrite !in_app_iff in *. tauto. }
    assert (Jn : forall x, incl (jumps ([i; Label x] ++ code)) S0) by (intros x; unfold jumps in *; cbn [app flat_map] in *; exact Jc).
    assert (Js : incl (jumps (r ++ code)) S0) by (rewrite jumps_app; apply incl_app; assumption).
    assert (Mm : forall md n r acc next, build code md n r acc next = Ok (bs, next') -> In n S0) by (intros md0 n0 r0 acc0 next0 E0; apply Sn; apply (proj1 (proj2 (build_members _ _ _ _ _ _ _ _ E0)))).
    destruct i; cbn [is_branch mode_after] in E.
    1: eapply IH; [exact E|exact Sn|exact Jc'|apply New; eapply Mm; exact E].
    all: destruct md; (eapply IH; [exact E|exact Sn|first [exact Ji|exact Js|apply Jn]|first [exact Sa|apply New; eapply Mm; exact E]]).
Qed.

(** the same for a property of the places jumped to *)
Lemma build_jumps_P (P : nat -> Prop) code : forall md n r acc next bs next', build code md n r acc next = Ok (bs, next') -> (forall x, In x (labels code) -> P x) -> (forall x, (next <= x)%nat -> P x) -> (forall x, In x (jumps (r ++ code)) -> P x) ->
  Forall (fun b => forall x, In x (jumps (bops b)) -> P x) acc -> Forall (fun b => forall x, In x (jumps (bops b)) -> P x) bs.
Proof.
  induction code as [|i code IH]; intros md n r acc next bs next' E Sl Sn Sj Sa; cbn [build] in E.
  - destruct md; try discriminate. injection E as <- _. apply Forall_app. split; [exact Sa|]. constructor; [|constructor]. cbn [bops]. rewrite app_nil_r in Sj. intros x Hx. apply Sj.
    unfold jumps in *. apply in_flat_map in Hx. destruct Hx as [i [H1 H2]]. apply in_flat_map. exists i. split; [apply in_rev; exact H1|exact H2].
  - assert (Jr : forall x, In x (jumps r) -> P x) by (intros x Hx; apply Sj; rewrite jumps_app; apply in_or_app; left; exact Hx).
    assert (Jc : forall x, In x (jumps (i :: code)) -> P x) by (intros x Hx; apply Sj; rewrite jumps_app; apply in_or_app; right; exact Hx).
    assert (Jc' : forall x, In x (jumps code) -> P x) by (intros x Hx; apply Jc; unfold jumps; cbn [flat_map]; apply in_or_app; right; exact Hx).
    assert (Lc : forall x, In x (labels code) -> P x) by (intros x Hx; apply Sl; unfold labels; cbn [flat_map]; apply in_or_app; right; exact Hx).
    assert (New : forall m, P m -> Forall (fun b => forall x, In x (jumps (bops b)) -> P x) (acc ++ [mk_bb n (rev (close m r)) [] []])).
    { intros m Hm. apply Forall_app. split; [exact Sa|]. constructor; [|constructor]. cbn [bops]. intros x Hx. apply close_jumps in Hx. destruct Hx as [<-|Hx]; [exact Hm|apply Jr; exact Hx]. }
    assert (Ji : forall x, In x (jumps ((i :: r) ++ code)) -> P x).
    { intros x Hx. apply Sj. rewrite jumps_app in *. unfold jumps in *. cbn [flat_map] in *. rewrite !in_app_iff in *. tauto. }
    assert (Jn : forall y x, In x (jumps ([i; Label y] ++ code)) -> P x) by (intros y; unfold jumps in *; cbn [app flat_map] in *; exact Jc).
    assert (Js : forall x, In x (jumps (r ++ code)) -> P x) by (intros x; rewrite jumps_app, in_app_iff; intros [H|H]; auto).
    assert (Sn' : forall x, (S next <= x)%nat -> P x) by (intros x Hx; apply Sn; lia).
    destruct i as [u|u|k u|k|k|]; cbn [is_branch mode_after] in E.
    1: eapply IH; [exact E|exact Lc|exact Sn|exact Jc'|apply New; apply Sl; left; reflexivity].
    all: destruct md; (eapply IH; [exact E|exact Lc|first [exact Sn|exact Sn']|first [exact Ji|exact Js|apply Jn]|first [exact Sa|apply New; apply Sn; lia]]).
Qed.

(** where the operations of the blocks come from *)
Lemma close_ops m r i : In i (close m r) -> is_branch i = false -> In i r.
Proof.
  unfold close. assert (K : forall r, In i (match r with Bal _ :: _ => r | _ => Bal m :: r end) -> is_branch i = false -> In i r).
  { intros [|[] q] H N; cbn [In] in *; destruct H as [H|H]; subst; try discriminate; auto. }
  destruct r as [|[u|u|k u|k|k|] r]; intros H N; try (exact (K _ H N)).
  - exact (K [] H N).
  - exact (K (Label u :: r) H N).
  - exact (K (Bal u :: r) H N).
  - destruct (Nat.eqb u m); [right; exact (K r H N)|exact (K (Branch k u :: r) H N)].
  - exact (K (Return k :: r) H N).
  - exact (K (Plain k :: r) H N).
  - exact (K (End :: r) H N).
Qed.
Lemma build_ops (P : instr -> Prop) code : (forall n, P (Label n)) -> forall md n r acc next bs next', build code md n r acc next = Ok (bs, next') ->
  (forall i, In i (r ++ code) -> is_branch i = false -> P i) -> Forall (fun b => forall i, In i (bops b) -> is_branch i = false -> P i) acc -> Forall (fun b => forall i, In i (bops b) -> is_branch i = false -> P i) bs.
Proof.
  intros PL. induction code as [|j code IH]; intros md n r acc next bs next' E Sr Sa; cbn [build] in E.
  - destruct md; try discriminate. injection E as <- _. apply Forall_app. split; [exact Sa|]. constructor; [|constructor]. cbn [bops]. rewrite app_nil_r in Sr. intros i Hi. apply Sr. apply in_rev. exact Hi.
  - assert (New : forall m, Forall (fun b => forall i, In i (bops b) -> is_branch i = false -> P i) (acc ++ [mk_bb n (rev (close m r)) [] []])).
    { intros m. apply Forall_app. split; [exact Sa|]. constructor; [|constructor]. cbn [bops]. intros i Hi N. apply in_rev in Hi. apply Sr; [|exact N]. apply in_or_app. left. apply (close_ops m); assumption. }
    assert (R1 : forall i, In i ((j :: r) ++ code) -> is_branch i = false -> P i) by (intros i Hi; apply Sr; cbn [app In] in Hi; rewrite in_app_iff in *; cbn [In]; tauto).
    assert (R2 : forall x i, In i ([j; Label x] ++ code) -> is_branch i = false -> P i).
    { intros x i [<-|[<-|Hi]] N; [apply Sr; [apply in_or_app; right; left; reflexivity|exact N]|apply PL|apply Sr; [apply in_or_app; right; right; exact Hi|exact N]]. }
    assert (R3 : forall i, In i (r ++ code) -> is_branch i = false -> P i) by (intros i Hi; apply Sr; rewrite in_app_iff in *; cbn [In]; tauto).
    assert (R4 : forall x i, In i ([Label x] ++ code) -> is_branch i = false -> P i) by (intros x i [<-|Hi] N; [apply PL|apply Sr; [apply in_or_app; right; right; exact Hi|exact N]]).
    destruct j as [u|u|k u|k|k|]; cbn [is_branch mode_after] in E.
    1: eapply IH; [exact E|apply R4|apply New].
    all: destruct md; (eapply IH; [exact E|first [exact R1|exact R3|apply R2]|first [exact Sa|apply New]]).
Qed.
(** up to a label *)
Lemma build_to l c rest : forall md n r acc next, (forall i, In i c -> i <> End) -> (forall i, In i r -> i <> End) -> Forall (fun b => ~ In End (bops b)) acc ->
  exists acc' next', build (c ++ Label l :: rest) md n r acc next = build rest Normal l [Label l] acc' next' /\ Forall (fun b => ~ In End (bops b)) acc'.
Proof.
  induction c as [|j c IH]; intros md n r acc next Hc Hr Ha.
  - cbn [app build]. eexists _, _. split; [reflexivity|]. apply Forall_app. split; [exact Ha|]. constructor; [|constructor]. cbn [bops]. intros H. apply in_rev in H. apply close_ops in H; [|reflexivity]. apply (Hr End H eq_refl).
  - assert (Hc' : forall i, In i c -> i <> End) by (intros i Hi; apply Hc; right; exact Hi). assert (Hj : j <> End) by (apply Hc; left; reflexivity).
    assert (New : forall m, Forall (fun b => ~ In End (bops b)) (acc ++ [mk_bb n (rev (close m r)) [] []])).
    { intros m. apply Forall_app. split; [exact Ha|]. constructor; [|constructor]. cbn [bops]. intros H. apply in_rev in H. apply close_ops in H; [|reflexivity]. apply (Hr End H eq_refl). }
    assert (R1 : forall i, In i (j :: r) -> i <> End) by (intros i [<-|Hi]; [exact Hj|apply Hr; exact Hi]).
    assert (R2 : forall x i, In i [j; Label x] -> i <> End) by (intros x i [<-|[<-|[]]]; [exact Hj|discriminate]).
    cbn [app build]. destruct j as [u|u|k u|k|k|]; cbn [is_branch mode_after].
    1: apply IH; [exact Hc'|intros i [<-|[]]; discriminate|apply New].
    all: destruct md; apply IH; first [exact Hc'|exact R1|apply R2|exact Hr|exact Ha|apply New].
Qed.
Lemma build_last d l r acc next : Forall calm d -> build (d ++ [End]) Normal l r acc next = Ok (acc ++ [mk_bb l (rev r ++ d ++ [End]) [] []], next).
Proof.
  revert r. induction d as [|j d IH]; intros r C; [reflexivity|]. pose proof (Forall_inv C) as Cj. apply Forall_inv_tail in C. cbn [app build].
  destruct j; try destruct Cj; cbn [mode_after]; rewrite IH by exact C; cbn [rev]; rewrite <- app_assoc; reflexivity.
Qed.

(** ** together *)
Lemma target_jumps code n s : target code n = Some s -> incl (jumps s) (jumps code) /\ exists s', s = Label n :: s'.
Proof.
  induction code as [|i code IH]; [discriminate|]. cbn [target]. intros H.
  assert (K : target code n = Some s -> incl (jumps s) (jumps (i :: code)) /\ exists s', s = Label n :: s').
  { intros H'. destruct (IH H') as [H1 H2]. split; [|exact H2]. intros x Hx. unfold jumps. cbn [flat_map]. apply in_or_app. right. apply H1. exact Hx. }
  destruct i; try (apply K; exact H). destruct (Nat.eqb n0 n) eqn:E; [|apply K; exact H]. injection H as <-. split; [apply incl_refl|]. apply Nat.eqb_eq in E. subst. eexists. reflexivity.
Qed.
Lemma target_some code n : In n (labels code) -> exists s, target code n = Some s.
Proof.
  induction code as [|i code IH]; [intros []|]. cbn [target]. unfold labels. cbn [flat_map]. intros H. destruct i; try (apply IH; exact H).
  destruct (Nat.eqb n0 n) eqn:E; [eexists; reflexivity|]. destruct H as [H|H]; [apply Nat.eqb_neq in E; congruence|apply IH; exact H].
Qed.

Lemma target_in code n s : target code n = Some s -> In n (labels code).
Proof.
  induction code as [|i code IH]; [discriminate|]. cbn [target]. unfold labels. cbn [flat_map]. destruct i as [u|u|k u|k|k|]; intros H; try (apply IH; exact H).
  destruct (Nat.eqb u n) eqn:E; [apply Nat.eqb_eq in E; left; exact E|right; apply IH; exact H].
Qed.

Lemma cut_ok code next : is_code code next -> exists n c bs next', code = Label n :: c /\ build c Normal n [Label n] [] next = Ok (bs, next') /\
  NoDup (map bname bs) /\ (forall x, In x (map bname bs) -> (x < next')%nat) /\ Forall shaped bs /\ Forall (fun b => incl (jumps (bops b)) (map bname bs)) bs /\
  (exists b l, bs = b :: l /\ bname b = n) /\ Forall (fun b => bsuccs b = [] /\ bpreds b = []) bs /\
  exists o, code_of bs n = Some o /\ equivalent (target code) code (code_of bs) o.
Proof.
  intros [[n [c ->]] [[c' Ec] [NL [J L]]]]. assert (W : ends_well (Label n :: c)) by (right; exists c'; exact Ec). destruct (ends_tail _ _ W) as [W' Wc].
  destruct (build_total c Normal n [Label n] [] next W' ltac:(congruence)) as [bs [next' E]]. exists n, c, bs, next'. split; [reflexivity|]. split; [exact E|].
  assert (En : labels (Label n :: c) = n :: labels c) by reflexivity. rewrite En in *.
  destruct (build_names c Normal n [Label n] [] next bs next' E NL L) as [H1 [H2 [H3 [H4 [l [H5 [b [l' [H6 H7]]]]]]]]]. cbn [app map] in *. subst l.
  split; [exact H1|]. split; [exact H2|]. split; [|split; [|split; [|split]]].
  - eapply build_shape; [exact E|exact W'|intros K; exfalso; apply Wc; [discriminate|exact K]|constructor|exists []; split; [constructor|reflexivity]].
  - eapply build_jumps; [exact E|apply incl_refl| |constructor]. intros x Hx. apply H3. apply J. exact Hx.
  - exists b, l'. auto.
  - clear - E. assert (K : Forall (fun b => bsuccs b = [] /\ bpreds b = []) (@nil bb)) by constructor. revert K E. generalize (@nil bb), Normal, [Label n]. revert n next. induction c as [|i c IH]; intros n next acc md r K E; cbn [build] in E.
    + destruct md; try discriminate. injection E as <- _. apply Forall_app. split; [exact K|repeat constructor].
    + assert (K2 : forall ops, Forall (fun b => bsuccs b = [] /\ bpreds b = []) (acc ++ [mk_bb n ops [] []])) by (intros ops; apply Forall_app; split; [exact K|repeat constructor]).
      destruct i, md; cbn [is_branch mode_after] in E; (eapply IH; [|exact E]); first [exact K|apply K2].
  - destruct (build_match (target (Label n :: c)) bs H1 c Normal n [Label n] [] next next' E W') as [C1 C2].
    + inversion NL; assumption.
    + intros l0 s Hs. cbn [target]. destruct (Nat.eqb n l0) eqn:El; [|exact Hs]. apply Nat.eqb_eq in El. subst l0. exfalso. inversion NL as [|? ? Nn _]; subst. apply Nn.
      apply (target_in _ _ _ Hs).
    + exact Logic.I.
    + intros t Ht. apply L. apply J. exact Ht.
    + exists [], b, l'. auto.
    + cbn [concl rev app] in C1. destruct C1 as [o [C1 C3]]. specialize (C3 (Wc ltac:(discriminate))). pose proof (block_code bs H1 _ _ C1) as Bn. exists (Label n :: o). split; [exact Bn|].
      apply (match_equivalent (target (Label n :: c)) bs) with (known := n :: labels c).
      * intros m s Hs. cbn [target] in Hs. destruct (Nat.eqb n m) eqn:Em; [|apply C2; exact Hs]. apply Nat.eqb_eq in Em. subst m. injection Hs as <-. exists (Label n :: o). split; [exact Bn|]. apply M_label. exact C3.
      * intros m Hm. apply target_some. exact Hm.
      * intros m s Hs. eapply incl_tran; [apply (target_jumps _ _ _ Hs)|]. exact J.
      * apply M_label. exact C3.
      * exact J.
Qed.
