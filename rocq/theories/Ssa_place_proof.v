(** Where the phi functions are placed. *)
From Verif Require Import Base Base_lemmas Dom_model Dom_spec Dom_proof Live_model Live_spec Live_proof Ssa_model Ssa_spec.

(** ** the blocks that define a variable *)
Lemma defs_of_in v o x : In x (defs_of v o) <-> x = v /\ In v (defs o).
Proof.
  unfold defs_of. rewrite filter_In, Nat.eqb_eq. split; [intros [H <-]; auto|intros [-> H]; auto].
Qed.

Lemma var_blocks_in c v b : In b (var_blocks c v) <-> (b < length c)%nat /\ writes (ops (block_of c b)) v.
Proof.
  unfold var_blocks. rewrite in_flat_map. split.
  - intros [x [Hx H]]. apply in_flat_map in H. destruct H as [o [Ho H]]. apply in_map_iff in H. destruct H as [y [<- H]].
    apply defs_of_in in H. apply in_seq in Hx. split; [lia|]. exists o. tauto.
  - intros [L [o [Ho D]]]. exists b. split; [apply in_seq; lia|]. apply in_flat_map. exists o. split; [exact Ho|].
    apply in_map_iff. exists v. split; [reflexivity|]. apply defs_of_in. auto.
Qed.

Lemma globals_in c v : In v (globals c) <-> exists b, In b c /\ reads_first (ops b) v.
Proof.
  unfold globals. assert (H : forall l acc, NoDup acc -> In v (fold_left (fun acc b => add_new (fst (use_def b)) [] acc) l acc) <-> In v acc \/ exists b, In b l /\ reads_first (ops b) v).
  { induction l as [|b l IH]; intros acc ND; cbn [fold_left].
    - split; [auto|intros [H|[b [[] _]]]; exact H].
    - destruct (add_new_spec (fst (use_def b)) [] acc ND) as [A1 A2]. rewrite (IH _ A1), A2. pose proof (use_def_spec b) as U.
      destruct (use_def b) as [use def]. cbn [fst]. destruct U as [U _]. rewrite (U v). cbn [In]. split.
      + intros [[H|[H _]]|[x [H1 H2]]]; [auto|right; exists b; auto|right; exists x; auto].
      + intros [H|[x [[<-|H1] H2]]]; [auto|left; right; tauto|right; exists x; auto]. }
  rewrite H by apply NoDup_nil. cbn [In]. split; [intros [[]|K]; exact K|auto].
Qed.

Lemma globals_nodup c : NoDup (globals c).
Proof.
  unfold globals. assert (H : forall l acc, NoDup acc -> NoDup (fold_left (fun acc b => add_new (fst (use_def b)) [] acc) l acc)).
  { induction l as [|b l IH]; intros acc ND; cbn [fold_left]; [exact ND|]. apply IH. apply add_new_spec. exact ND. }
  apply H. apply NoDup_nil.
Qed.

(** ** the work list *)
Section Place.
  Variables (df inn : sets) (n : nat) (v : var).
  Hypothesis bound : forall x d, In d (get df x) -> (d < n)%nat.

  (** the phi functions for v are those in the blocks inserted, and the others are those of before *)
  Definition holds_phis (ph0 ph : sets) (inserted : list nat) : Prop :=
    length ph = n /\ NoDup inserted /\ (forall d, In d inserted -> (d < n)%nat /\ In v (get inn d) /\ exists x, In d (get df x)) /\
    (forall b, In v (get ph b) <-> In b inserted) /\ (forall b w, w <> v -> In w (get ph b) <-> In w (get ph0 b)) /\
    (forall b, NoDup (get ph b)).

  Lemma place_df_spec ph0 ds : (forall d, In d ds -> (d < n)%nat /\ exists x, In d (get df x)) -> forall work inserted ph, holds_phis ph0 ph inserted ->
    exists more ph', place_df ds inn v work inserted ph = (work ++ rev more, more ++ inserted, ph') /\ holds_phis ph0 ph' (more ++ inserted) /\
      forall d, In d ds -> In v (get inn d) -> In d (more ++ inserted).
  Proof.
    induction ds as [|d ds IH]; intros Hd work inserted ph H; cbn [place_df].
    - exists [], ph. split; [rewrite app_nil_r; reflexivity|]. split; [exact H|]. intros d [].
    - assert (Hd' : forall d, In d ds -> (d < n)%nat /\ exists x, In d (get df x)) by (intros; apply Hd; right; assumption).
      destruct (mem d inserted) eqn:M.
      + destruct (IH Hd' work inserted ph H) as [more [ph' [E [K1 K2]]]]. exists more, ph'. split; [exact E|]. split; [exact K1|].
        intros x [<-|Hx] V; [|apply K2; assumption]. apply in_or_app. right. apply mem_iff. exact M.
      + apply mem_false in M. destruct (mem v (get inn d)) eqn:Mv; cbn [negb].
        * apply mem_iff in Mv. destruct (Hd d (or_introl eq_refl)) as [Ld Xd]. destruct H as [H1 [H2 [H3 [H4 [H5 H6]]]]].
          assert (H' : holds_phis ph0 (put ph d (v :: get ph d)) (d :: inserted)).
          { split; [rewrite put_length; exact H1|]. split; [constructor; assumption|]. split.
            - intros x [<-|Hx]; [auto|apply H3; exact Hx].
            - split; [|split].
              + intros b. destruct (Nat.eq_dec d b) as [<-|N]; [rewrite get_put_same by lia; cbn; tauto|].
                rewrite get_put_other by exact N. rewrite H4. cbn. split; [auto|intros [E|E]; [congruence|exact E]].
              + intros b w Nw. destruct (Nat.eq_dec d b) as [<-|N]; [rewrite get_put_same by lia; rewrite <- H5 by exact Nw; cbn; split; [intros [E|E]; [congruence|exact E]|auto]|].
                rewrite get_put_other by exact N. apply H5. exact Nw.
              + intros b. destruct (Nat.eq_dec d b) as [<-|N]; [rewrite get_put_same by lia; constructor; [rewrite H4; exact M|apply H6]|].
                rewrite get_put_other by exact N. apply H6. }
          destruct (IH Hd' (work ++ [d]) (d :: inserted) _ H') as [more [ph' [E [K1 K2]]]].
          exists (more ++ [d]), ph'. rewrite rev_app_distr. cbn [rev app]. rewrite <- app_assoc in E. cbn [app] in E. rewrite <- app_assoc. cbn [app].
          split; [exact E|]. split; [exact K1|]. intros x [<-|Hx] V; [apply in_or_app; right; left; reflexivity|apply K2; assumption].
        * apply mem_false in Mv. destruct (IH Hd' work inserted ph H) as [more [ph' [E [K1 K2]]]]. exists more, ph'. split; [exact E|]. split; [exact K1|].
          intros x [<-|Hx] V; [contradiction|apply K2; assumption].
  Qed.

  Lemma place_spec ph0 fuel : forall work inserted ph past, holds_phis ph0 ph inserted -> (length work + n <= fuel + length inserted)%nat ->
    (forall x d, In x past -> In d (get df x) -> In v (get inn d) -> In d inserted) -> (forall x, In x inserted -> In x past \/ In x work) ->
    exists inserted' ph', place fuel df inn v work inserted ph = Ok (inserted', ph') /\ holds_phis ph0 ph' inserted' /\
      forall x d, In x past \/ In x work \/ In x inserted' -> In d (get df x) -> In v (get inn d) -> In d inserted'.
  Proof.
    induction fuel as [|fuel IH]; intros work inserted ph past H F C1 C2.
    - destruct work as [|b work]; cbn [place].
      + exists inserted, ph. split; [reflexivity|]. split; [exact H|]. intros x d [K|[[]|K]]; [eapply C1; exact K|].
        destruct (C2 x K) as [K'|[]]. eapply C1; exact K'.
      + exfalso. destruct H as [_ [ND [B _]]]. assert (L : (length inserted <= n)%nat).
        { rewrite <- (seq_length n 0). apply NoDup_incl_length; [exact ND|]. intros x Hx. apply in_seq. destruct (B x Hx). lia. }
        cbn [length] in F. lia.
    - destruct work as [|b work]; cbn [place].
      + exists inserted, ph. split; [reflexivity|]. split; [exact H|]. intros x d [K|[[]|K]]; [eapply C1; exact K|].
        destruct (C2 x K) as [K'|[]]. eapply C1; exact K'.
      + destruct (place_df_spec ph0 (get df b)) with (work := work) (inserted := inserted) (ph := ph) as [more [ph1 [E [K1 K2]]]];
          [intros d Hd; split; [eapply bound; exact Hd|exists b; exact Hd]|exact H|]. rewrite E.
        destruct (IH (work ++ rev more) (more ++ inserted) ph1 (b :: past) K1) as [ins' [ph' [E' [K3 K4]]]].
        * rewrite !app_length, rev_length. cbn [length] in F. lia.
        * intros x d [<-|Hx] Hd V; [apply K2; assumption|]. apply in_or_app. right. eapply C1; eassumption.
        * intros x Hx. apply in_app_or in Hx. destruct Hx as [Hx|Hx]; [right; apply in_or_app; right; rewrite <- in_rev; exact Hx|].
          destruct (C2 x Hx) as [K|[K|K]]; [left; right; exact K|left; left; exact K|right; apply in_or_app; left; exact K].
        * exists ins', ph'. split; [exact E'|]. split; [exact K3|]. intros x d [K|[[K|K]|K]] Hd V.
          -- apply (K4 x d); [left; right; exact K|exact Hd|exact V].
          -- apply (K4 x d); [left; left; exact K|exact Hd|exact V].
          -- apply (K4 x d); [right; left; apply in_or_app; left; exact K|exact Hd|exact V].
          -- apply (K4 x d); [right; right; exact K|exact Hd|exact V].
  Qed.
End Place.

(** ** all variables *)
Definition phis_placed (df inn : sets) (c : program) (vs : list var) (ph : sets) (added : list var) : Prop :=
  length ph = length c /\ (forall b, NoDup (get ph b)) /\
  (forall b v, In v (get ph b) -> In v vs /\ (b < length c)%nat /\ In v (get inn b) /\ exists x, In b (get df x)) /\
  (forall v x d, In v vs -> (x < length c)%nat -> writes (ops (block_of c x)) v \/ In v (get ph x) -> In d (get df x) -> In v (get inn d) -> In v (get ph d)) /\
  (forall v, In v added <-> exists b, In v (get ph b)).

Lemma add_phi_spec df inn c : (forall x d, In d (get df x) -> (d < length c)%nat) ->
  forall vs, (forall v, In v vs -> var_blocks c v <> []) -> forall past ph added, NoDup vs -> (forall v, In v vs -> ~ In v past) -> phis_placed df inn c past ph added ->
  exists ph' added', add_phi c df inn vs ph added = Ok (ph', added') /\ phis_placed df inn c (past ++ vs) ph' added'.
Proof.
  intros B. induction vs as [|v vs IH]; intros NE past ph added ND Fr H; cbn [add_phi].
  - exists ph, added. split; [reflexivity|]. rewrite app_nil_r. exact H.
  - inversion ND as [|? ? Nv ND']; subst. pose proof (NE v (or_introl eq_refl)) as Wne. destruct (var_blocks c v) as [|w0 ws] eqn:Ew; [congruence|].
    destruct H as [H1 [H2 [H3 [H4 H5]]]].
    assert (Z0 : forall b, ~ In v (get ph b)). { intros b K. destruct (H3 b v K) as [K' _]. apply (Fr v (or_introl eq_refl)). exact K'. }
    destruct (place_spec df inn (length c) v B ph (length (w0 :: ws) + length c) (w0 :: ws) [] ph []) as [ins [ph1 [E [[K1 [K2 [K3 [K4 [K5 K6]]]]] K7]]]].
    + split; [exact H1|]. split; [apply NoDup_nil|]. split; [intros d []|]. split; [intros b; split; [intros K; destruct (Z0 b K)|intros []]|].
      split; [intros; tauto|exact H2].
    + cbn [length]. lia.
    + intros x d [].
    + intros x [].
    + rewrite E. cbn [bind]. set (added1 := match ins with [] => added | _ => added ++ [v] end).
      assert (P1 : phis_placed df inn c (past ++ [v]) ph1 added1).
      { split; [exact K1|]. split; [exact K6|]. split; [|split].
        - intros b w Hw. destruct (Nat.eq_dec w v) as [->|N].
          + apply K4 in Hw. destruct (K3 b Hw) as [Q1 [Q2 Q3]]. split; [apply in_or_app; right; left; reflexivity|]. tauto.
          + apply K5 in Hw; [|exact N]. destruct (H3 b w Hw) as [Q1 Q2]. split; [apply in_or_app; left; exact Q1|exact Q2].
        - intros w x d Hw Hx Wx Hd V. destruct (Nat.eq_dec w v) as [->|N].
          + apply K4. apply (K7 x d); [|exact Hd|exact V]. right. destruct Wx as [Wx|Wx]; [left; rewrite <- Ew; apply var_blocks_in; auto|right; apply K4; exact Wx].
          + apply K5; [exact N|]. apply in_app_or in Hw. destruct Hw as [Hw|[Hw|[]]]; [|congruence].
            apply (H4 w x d Hw Hx); [|exact Hd|exact V]. destruct Wx as [Wx|Wx]; [left; exact Wx|right; apply K5 in Wx; [exact Wx|exact N]].
        - intros w. assert (A1 : In w added1 <-> In w added \/ (w = v /\ ins <> [])).
          { unfold added1. destruct ins as [|i ins]; [split; [auto|intros [K|[_ K]]; [exact K|congruence]]|].
            rewrite in_app_iff. cbn [In]. split; [intros [K|[K|[]]]; [auto|right; split; [congruence|discriminate]]|intros [K|[K _]]; auto]. }
          rewrite A1, H5. split.
          + intros [[b Hb]|[-> Ni]].
            * exists b. destruct (Nat.eq_dec w v) as [->|N]; [destruct (Z0 b Hb)|apply K5; assumption].
            * destruct ins as [|i ins]; [congruence|]. exists i. apply K4. left. reflexivity.
          + intros [b Hb]. destruct (Nat.eq_dec w v) as [->|N].
            * right. split; [reflexivity|]. apply K4 in Hb. intros ->. destruct Hb.
            * left. exists b. apply K5 in Hb; assumption. }
      destruct (IH ltac:(intros x Hx; apply NE; right; exact Hx) (past ++ [v]) ph1 added1 ND') as [ph' [added' [E' P']]]; [|exact P1|].
      * intros x Hx K. apply in_app_or in K. destruct K as [K|[<-|[]]]; [apply (Fr x (or_intror Hx)); exact K|contradiction].
      * exists ph', added'. split; [exact E'|]. rewrite <- app_assoc in P'. exact P'.
Qed.

Lemma add_phi_ok df inn c : (forall x d, In d (get df x) -> (d < length c)%nat) -> (forall v, In v (globals c) -> var_blocks c v <> []) ->
  exists ph added, add_phi c df inn (globals c) (repeat [] (length c)) [] = Ok (ph, added) /\ phis_placed df inn c (globals c) ph added.
Proof.
  intros B NE. destruct (add_phi_spec df inn c B (globals c) NE [] (repeat [] (length c)) []) as [ph [added [E P]]].
  - apply globals_nodup.
  - intros v _ [].
  - assert (Z0 : forall b, get (repeat [] (length c)) b = []).
    { intros b. unfold get. destruct (Nat.lt_ge_cases b (length c)) as [L|L]; [apply nth_repeat|apply nth_overflow; rewrite repeat_length; exact L]. }
    split; [apply repeat_length|]. split; [intros b; rewrite Z0; apply NoDup_nil|]. split; [intros b v; rewrite Z0; intros []|]. split.
    + intros v x d [].
    + intros v. split; [intros []|intros [b K]; rewrite Z0 in K; destruct K].
  - exists ph, added. split; [exact E|exact P].
Qed.
