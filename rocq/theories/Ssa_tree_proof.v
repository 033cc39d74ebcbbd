(** Renaming all blocks, along the tree of dominators. *)
From Verif Require Import Base Base_lemmas Dom_model Dom_spec Dom_proof Live_model Live_spec Live_proof Ssa_model Ssa_spec Ssa_graph_proof Ssa_rename_proof.

(** what is known of a block that was renamed: its number, the result, and the numbers of the variables on entry *)
Definition entry := (nat * rblock * (var -> option Z))%type.
Definition eid (e : entry) : nat := fst (fst e).
Definition erb (e : entry) : rblock := snd (fst e).
Definition ein (e : entry) : var -> option Z := snd e.
Definition block_names (rb : rblock) : list (var * Z) := rphis rb ++ flat_map rdefs (rops rb).
Definition eout (e : entry) : var -> option Z := bind_names (ein e) (block_names (erb e)).

Section Tree.
  Variables (g : graph) (c : program) (im : list (option nat)) (ph : sets) (added : list var).
  Hypothesis F : is_function g c.
  Hypothesis small : zlen g <= 65535.
  Hypothesis few_preds : forall b, zlen (preds g b) <= 255.
  Hypothesis strict : assigned_first c.
  Hypothesis T : tree g im.
  Let n := length g.
  Hypothesis ph_nodup : forall b, NoDup (get ph b).
  Hypothesis ph_needed : forall b v, In v (get ph b) -> needed c b v.
  Hypothesis ph_closed : forall x d v, (x < n)%nat -> writes (ops (block_of c x)) v \/ In v (get ph x) -> frontier g x d -> needed c d v -> In v (get ph d).
  Hypothesis added_spec : forall v, In v added <-> exists b, In v (get ph b).
  Hypothesis kinds : forall v, In v added \/ local c v.

  Definition block_defs (b : nat) : list var := get ph b ++ flat_map defs (ops (block_of c b)).
  Definition sum_cnt (v : var) (ids : list nat) : nat := list_sum (map (fun b => cnt v (block_defs b)) ids).
  Hypothesis total : forall v, (sum_cnt v (seq 0 n) <= 128)%nat.

  Let G0 : is_graph g := graph_ok g c F.
  Let P0 : (0 < n)%nat := pos g c F.
  Let reached := reached g c F.
  Let rel := relevant g c (fun v => In v added).

  Lemma sum_cnt_app v a b : sum_cnt v (a ++ b) = (sum_cnt v a + sum_cnt v b)%nat.
  Proof. unfold sum_cnt. rewrite map_app, list_sum_app. reflexivity. Qed.

  Lemma sum_cnt_incl v : forall ids l, NoDup ids -> incl ids l -> (sum_cnt v ids <= sum_cnt v l)%nat.
  Proof.
    induction ids as [|x ids IH]; intros l ND I0; [cbn; lia|]. inversion ND; subst.
    destruct (in_split x l (I0 x (or_introl eq_refl))) as [l1 [l2 ->]].
    assert (Q : incl ids (l1 ++ l2)).
    { intros y Hy. assert (K := I0 y (or_intror Hy)). apply in_app_or in K. apply in_or_app. destruct K as [K|[K|K]]; [auto|subst; contradiction|auto]. }
    specialize (IH (l1 ++ l2) ltac:(assumption) Q). rewrite sum_cnt_app in *. unfold sum_cnt in *. cbn [map list_sum fold_right] in *. unfold list_sum in *. lia.
  Qed.

  Lemma child_iff b x : In x (imm_domees im b) <-> (0 < x < n)%nat /\ immediately_dominates g b x.
  Proof.
    destruct T as [Lt [T0 Tr]]. unfold imm_domees. rewrite filter_In, in_seq, Lt. fold n. split.
    - intros [L E]. destruct x as [|x]; [rewrite T0 in E; discriminate|]. split; [lia|]. destruct (Tr (S x) ltac:(fold n; lia)) as [a [Ea [Ia _]]].
      rewrite Ea in E. apply Nat.eqb_eq in E. subst a. exact Ia.
    - intros [L Ib]. split; [lia|]. destruct (Tr x ltac:(fold n; lia)) as [a [Ea [Ia _]]]. rewrite Ea. apply Nat.eqb_eq.
      apply (imm_unique g G0 P0 a b x ltac:(fold n; lia) Ia Ib).
  Qed.
  Lemma children_nodup b : NoDup (imm_domees im b).
  Proof. unfold imm_domees. apply NoDup_filter, seq_NoDup. Qed.

  Lemma below_child b x : (x < n)%nat -> strictly_dominates g b x -> exists y, In y (imm_domees im b) /\ dominates g y x.
  Proof.
    (* go up from x until the immediate dominator is b *)
    destruct (domers_spec g G0 P0 small) as [d [Ed [_ Hd]]].
    assert (K : forall k x, (length (get d x) <= k)%nat -> (x < n)%nat -> strictly_dominates g b x -> exists y, In y (imm_domees im b) /\ dominates g y x);
      [|intros L S0; apply (K (length (get d x)) x (le_n _) L S0)].
    induction k as [|k IH]; intros y Lk Ly [D N].
    - assert (I0 : In y (get d y)) by (apply Hd; [exact Ly|split; [exact Ly|apply dom_refl]]). destruct (get d y); [destruct I0|cbn in Lk; lia].
    - destruct T as [Lt [T0 Tr]]. assert (Ny : (0 < y < n)%nat). { destruct y as [|y]; [apply dom_entry in D; congruence|lia]. }
      destruct (Tr y Ny) as [a [Ea [Ia La]]]. destruct (Nat.eq_dec a b) as [->|Nab].
      + exists y. split; [apply child_iff; auto|apply dom_refl].
      + destruct Ia as [Sa Im]. pose proof (Im b (conj D N)) as Db. destruct (IH a) as [z [Z1 Z2]].
        * destruct (domers_spec g G0 P0 small) as [d' [Ed' [Sh _]]]. assert (d' = d) by congruence. subst d'.
          assert (Q : (length (get d a) < length (get d y))%nat); [|lia].
          assert (NDa : NoDup (y :: get d a)).
          { constructor; [|destruct Sh as [_ Sh]; apply (part_nodup n); apply Sh; exact La]. intros K. apply Hd in K; [|exact La].
            destruct Sa as [Da Na]. apply Na. apply (dom_antisym g a y); [apply reached; exact Ly|exact Da|apply K]. }
          apply (NoDup_incl_length NDa). intros z [<-|Hz]; apply Hd; try exact Ly; [split; [exact Ly|apply dom_refl]|].
          apply Hd in Hz; [|exact La]. split; [apply Hz|]. eapply dom_trans; [apply Hz|apply Sa].
        * exact La.
        * split; [exact Db|congruence].
        * exists z. split; [exact Z1|]. eapply dom_trans; [exact Z2|apply Sa].
  Qed.

  Lemma subtrees_apart b x y z : In x (imm_domees im b) -> In y (imm_domees im b) -> (z < n)%nat -> dominates g x z -> dominates g y z -> x = y.
  Proof.
    intros Hx Hy Lz Dx Dy. apply child_iff in Hx, Hy. destruct Hx as [Lx [[Sx Nx] Ix]], Hy as [Ly [[Sy Ny] Iy]].
    destruct (Nat.eq_dec x y) as [E|N]; [exact E|]. exfalso.
    destruct (dom_total g x y z (reached z Lz) Dx Dy) as [D|D].
    - assert (K := Iy x (conj D N)). apply Nx. apply (dom_antisym g b x); [apply reached; lia|exact Sx|exact K].
    - assert (K := Ix y (conj D (not_eq_sym N))). apply Ny. apply (dom_antisym g b y); [apply reached; lia|exact Sy|exact K].
  Qed.

  (** ** the state between blocks *)
  Definition ids (st : state) : list nat := map fst (done st).
  Definition good_state (st : state) : Prop :=
    ok st /\ (forall v, number st v = 2 * Z.of_nat (sum_cnt v (ids st))) /\ NoDup (ids st) /\ (forall x, In x (ids st) -> (x < n)%nat) /\
    (forall b v, writes (ops (block_of c b)) v -> stack st v <> None) /\
    NoDup (assigned_names (done st)) /\ (forall v k, In (v, k) (assigned_names (done st)) -> k < number st v) /\
    (forall a, In a (args st) -> In (arg_pred a) (ids st)).

  Definition good_entry (e : entry) (A : list arg) : Prop :=
    map fst (rphis (erb e)) = get ph (eid e) /\ renamed (bind_names (ein e) (rphis (erb e))) (ops (block_of c (eid e))) (rops (erb e)) /\
    (forall s v, In s (succs (block_of c (eid e))) -> In v (get ph s) -> exists k, In (mk_arg s v (eid e) k) A).
  Definition args_from (K : list entry) (A : list arg) : Prop :=
    forall a, In a A -> exists e, In e K /\ arg_pred a = eid e /\ eout e (arg_var a) = Some (arg_number a).
  Definition linked_to (K : list entry) (e : entry) : Prop :=
    exists e', In e' K /\ immediately_dominates g (eid e') (eid e) /\ forall v, rel (eid e') v -> ein e v = eout e' v.

  Lemma good_entry_more e A B : good_entry e A -> good_entry e (A ++ B) /\ good_entry e (B ++ A).
  Proof.
    intros [H1 [H2 H3]]. split; (split; [exact H1|]; split; [exact H2|]); intros s v Hs Hv; destruct (H3 s v Hs Hv) as [k Hk]; exists k; apply in_or_app; auto.
  Qed.
  Lemma linked_more K L e : linked_to K e -> linked_to (K ++ L) e /\ linked_to (L ++ K) e.
  Proof. intros [e' [H1 H2]]. split; exists e'; (split; [apply in_or_app; auto|exact H2]). Qed.

  Definition subtree_result (b : nat) (st st' : state) (K : list entry) (A : list arg) : Prop :=
    good_state st' /\ done st' = done st ++ map fst K /\ args st' = args st ++ A /\
    (forall x, In x (map eid K) <-> (x < n)%nat /\ dominates g b x) /\
    (forall v, In v added \/ (forall x, (x < n)%nat -> dominates g b x -> ~ writes (ops (block_of c x)) v) -> stack st' v = stack st v) /\
    (forall e, In e K -> good_entry e A) /\ args_from K A /\
    (forall e, In e K -> eid e = b -> forall v, ein e v = cur st v) /\
    (forall e, In e K -> eid e <> b -> linked_to K e).

  Definition may_enter (b : nat) (st : state) : Prop := forall v, needed c b v -> ~ In v (get ph b) -> cur st v <> None.

  (** all children *)
  Lemma rename_all_spec (f : nat -> state -> res state) b cs : (b < n)%nat -> incl cs (imm_domees im b) -> NoDup cs ->
    (forall x st, In x cs -> good_state st -> (forall y, (y < n)%nat -> dominates g x y -> ~ In y (ids st)) -> may_enter x st ->
       exists st' K A, f x st = Ok st' /\ subtree_result x st st' K A) ->
    forall st, good_state st -> (forall x y, In x cs -> (y < n)%nat -> dominates g x y -> ~ In y (ids st)) ->
    (forall x v, In x cs -> needed c x v -> ~ In v (get ph x) -> cur st v <> None /\ rel b v) ->
    exists st' K A, rename_all f cs st = Ok st' /\ good_state st' /\ done st' = done st ++ map fst K /\ args st' = args st ++ A /\
      (forall y, In y (map eid K) <-> (y < n)%nat /\ exists x, In x cs /\ dominates g x y) /\
      (forall v, rel b v -> stack st' v = stack st v) /\
      (forall e, In e K -> good_entry e A) /\ args_from K A /\
      (forall e, In e K -> (In (eid e) cs /\ forall v, rel b v -> ein e v = cur st v) \/ linked_to K e).
  Proof.
    intros Lb. induction cs as [|x cs IH]; intros I0 ND Hf st Gs Fr En; cbn [rename_all].
    - exists st, [], []. cbn [map]. rewrite !app_nil_r. split; [reflexivity|]. split; [exact Gs|]. split; [reflexivity|]. split; [reflexivity|].
      split; [intros y; split; [intros []|intros [_ [x [[] _]]]]|]. split; [reflexivity|]. split; [intros e []|]. split; [intros a []|intros e []].
    - inversion ND as [|? ? Nx ND']; subst. pose proof (I0 x (or_introl eq_refl)) as Cx. assert (Ix := Cx). apply child_iff in Ix. destruct Ix as [Lx Ix].
      destruct (Hf x st (or_introl eq_refl) Gs) as [st1 [K1 [A1 [E1 [G1 [D1 [R1 [S1 [T1 [Q1 [W1 [H1 L1]]]]]]]]]]]].
      + intros y Ly Dy. apply (Fr x y (or_introl eq_refl) Ly Dy).
      + intros v Nv Pv. apply (En x v (or_introl eq_refl) Nv Pv).
      + rewrite E1. cbn [bind].
        assert (Keep : forall v, rel b v -> stack st1 v = stack st v).
        { intros v [Av|Rv]; apply T1; [left; exact Av|right]. intros y Ly Dy. apply Rv; [exact Ly|]. destruct Ix as [[Db Nb] _]. split; [eapply dom_trans; eassumption|].
          intros ->. apply Nb. apply (dom_antisym g y x); [apply reached; lia|exact Db|exact Dy]. }
        assert (KeepC : forall v, rel b v -> cur st1 v = cur st v) by (intros v Rv; unfold cur; rewrite (Keep v Rv); reflexivity).
        destruct (IH ltac:(intros y Hy; apply I0; right; exact Hy) ND' ltac:(intros y s0 Hy; apply Hf; right; exact Hy) st1 G1) as [st2 [K2 [A2 [E2 [G2 [D2 [R2 [S2 [T2 [Q2 [W2 H2]]]]]]]]]]].
        * intros x' y Hx' Ly Dy K. unfold ids in K. rewrite D1, map_app in K. apply in_app_or in K. destruct K as [K|K].
          -- apply (Fr x' y (or_intror Hx') Ly Dy K).
          -- rewrite map_map in K. apply (S1 y) in K. destruct K as [_ K].
             assert (x = x') by (apply (subtrees_apart b x x' y Cx (I0 x' (or_intror Hx')) Ly K Dy)). subst x'. contradiction.
        * intros x' v Hx' Nv Pv. destruct (En x' v (or_intror Hx') Nv Pv) as [C1 C2]. split; [rewrite KeepC by exact C2; exact C1|exact C2].
        * exists st2, (K1 ++ K2), (A1 ++ A2). split; [exact E2|]. split; [exact G2|]. split; [rewrite D2, D1, map_app, app_assoc; reflexivity|].
          split; [rewrite R2, R1, app_assoc; reflexivity|]. split.
          { intros y. rewrite map_app, in_app_iff, S1, S2. split.
            - intros [[Ly Dy]|[Ly [x' [Hx' Dy]]]]; (split; [exact Ly|]); [exists x; split; [left; reflexivity|exact Dy]|exists x'; split; [right; exact Hx'|exact Dy]].
            - intros [Ly [x' [[<-|Hx'] Dy]]]; [left; auto|right; split; [exact Ly|exists x'; auto]]. }
          split; [intros v Rv; rewrite T2 by exact Rv; apply Keep; exact Rv|]. split.
          { intros e He. apply in_app_or in He. destruct He as [He|He]; [apply (proj1 (good_entry_more e A1 A2 (Q1 e He)))|apply (proj2 (good_entry_more e A2 A1 (Q2 e He)))]. }
          split.
          { intros a Ha. apply in_app_or in Ha. destruct Ha as [Ha|Ha]; [destruct (W1 a Ha) as [e [He Z]]|destruct (W2 a Ha) as [e [He Z]]]; exists e; (split; [apply in_or_app; auto|exact Z]). }
          intros e He. apply in_app_or in He. destruct He as [He|He].
          { destruct (Nat.eq_dec (eid e) x) as [Ex|Nx'].
            - left. split; [left; congruence|]. intros v _. apply H1; assumption.
            - right. apply (proj1 (linked_more K1 K2 e (L1 e He Nx'))). }
          { destruct (H2 e He) as [[Z1 Z2]|Z]; [left; split; [right; exact Z1|intros v Rv; rewrite Z2 by exact Rv; apply KeepC; exact Rv]|right; apply (proj2 (linked_more K2 K1 e Z))]. }
  Qed.

  Lemma names_map e : In e [e] -> map fst (block_names (erb e)) = map fst (rphis (erb e)) ++ map fst (flat_map rdefs (rops (erb e))).
  Proof. intros _. unfold block_names. apply map_app. Qed.

  Lemma assigned_app a b : assigned_names (a ++ b) = assigned_names a ++ assigned_names b.
  Proof. unfold assigned_names. apply flat_map_app. Qed.

  Lemma NoDup_app_intro {X} (a b : list X) : NoDup a -> NoDup b -> (forall x, In x a -> ~ In x b) -> NoDup (a ++ b).
  Proof.
    induction a as [|x a IH]; intros H1 H2 H3; [exact H2|]. inversion H1; subst. cbn [app]. constructor.
    - intros K. apply in_app_or in K. destruct K as [K|K]; [contradiction|apply (H3 x (or_introl eq_refl)); exact K].
    - apply IH; auto. intros y Hy. apply H3. right. exact Hy.
  Qed.

  (** one block with everything below it *)
  Lemma rename_block_spec d : domers g = Ok d -> forall fuel b st, (b < n)%nat -> (n + 1 <= length (get d b) + fuel)%nat -> good_state st ->
    (forall x, (x < n)%nat -> dominates g b x -> ~ In x (ids st)) -> may_enter b st ->
    exists st' K A, rename_block fuel g c im ph added b st = Ok st' /\ subtree_result b st st' K A.
  Proof.
    intros Ed. destruct (domers_spec g G0 P0 small) as [d' [Ed' [Sh Hd]]]. assert (d' = d) by congruence. subst d'.
    induction fuel as [|fuel IH]; intros b st Lb Fu Gs Fr En.
    - exfalso. assert (Q : (length (get d b) <= n)%nat); [|lia]. rewrite <- (seq_length n 0). apply NoDup_incl_length.
      + destruct Sh as [_ Sh]. apply (part_nodup n). apply Sh. exact Lb.
      + intros x Hx. apply Hd in Hx; [|exact Lb]. apply in_seq. fold n in Hx. lia.
    - cbn [rename_block]. destruct Gs as [O [Nu [NDi [Li [De [NDn [Bn Ap]]]]]]].
      assert (Nb : ~ In b (ids st)) by (apply Fr; [exact Lb|apply dom_refl]).
      assert (Room : forall v, number st v + 2 * Z.of_nat (cnt v (block_defs b)) <= 256).
      { intros v. rewrite Nu. assert (K : (sum_cnt v (ids st ++ [b]) <= sum_cnt v (seq 0 n))%nat).
        { apply sum_cnt_incl.
          - apply NoDup_app_intro; [exact NDi|constructor; [intros []|apply NoDup_nil]|]. intros x Hx [<-|[]]. contradiction.
          - intros x Hx. apply in_seq. apply in_app_or in Hx. destruct Hx as [Hx|[<-|[]]]; [specialize (Li x Hx); lia|lia]. }
        rewrite sum_cnt_app in K. unfold sum_cnt at 2 in K. cbn [map list_sum fold_right] in K. specialize (total v). lia. }
      assert (Def : forall v, In v (block_defs b) -> stack st v <> None).
      { intros v Hv. apply in_app_or in Hv. destruct Hv as [Hv|Hv].
        - apply ph_needed in Hv. destruct (reached b Lb) as [l W]. destruct (way_head _ _ _ W) as [r ->].
          destruct (assigned_before g c F strict b v Hv r W) as [y [_ Wy]]. apply (De y v Wy).
        - apply in_flat_map in Hv. destruct Hv as [o [Ho Hv]]. apply (De b v). exists o. auto. }
      destruct (rename_defs_spec (get ph b) st O) as [ns [st1 [_ [E1 [G1 M1]]]]].
      { intros v. specialize (Room v). unfold block_defs in Room. rewrite cnt_app in Room. lia. }
      { intros v Hv. apply Def. apply in_or_app. left. exact Hv. }
      rewrite E1. cbn [bind].
      destruct (rename_ops_spec (ops (block_of c b)) st1) as [os [st2 [E2 [G2 [M2 Rn]]]]].
      { apply G1. }
      { intros v. destruct G1 as [_ [_ [_ [N1 _]]]]. rewrite N1, M1. specialize (Room v). unfold block_defs in Room. rewrite cnt_app in Room. lia. }
      { intros v Hv. eapply grown_stack; [exact G1|]. apply Def. apply in_or_app. right. exact Hv. }
      { intros v Hv. destruct G1 as [_ [_ [_ [_ [C1 _]]]]]. rewrite C1. destruct (in_dec Nat.eq_dec v (map fst ns)) as [I0|N].
        - destruct (bind_in ns (cur st) v I0) as [k ->]. discriminate.
        - rewrite bind_not by exact N. apply En; [apply needed_here; exact Hv|rewrite <- M1; exact N]. }
      rewrite E2. cbn [bind].
      set (rb := mk_rblock ns os). set (st3 := mk_state _ _ _ _).
      pose proof (grown_trans _ _ _ _ _ G1 G2) as G12. fold (block_names rb) in G12. change (ns ++ flat_map rdefs os) with (block_names rb) in G12.
      assert (M12 : map fst (block_names rb) = block_defs b) by (unfold block_names, rb; cbn [rphis rops]; rewrite map_app, M1, M2; reflexivity).
      destruct G12 as [Dn [Ar [O2 [N2 [C2 [S2 [U2 B2]]]]]]]. rewrite M12 in N2, S2.
      assert (Ids3 : ids st3 = ids st ++ [b]) by (unfold ids, st3; cbn [done]; rewrite map_app, Dn; reflexivity).
      assert (Num3 : forall v, number st3 v = 2 * Z.of_nat (sum_cnt v (ids st3))).
      { intros v. rewrite Ids3, sum_cnt_app. unfold st3. cbn [number]. rewrite N2, Nu. unfold sum_cnt at 3. cbn [map list_sum fold_right]. lia. }
      assert (Num256 : forall v, number st3 v <= 256) by (intros v; unfold st3; cbn [number]; rewrite N2; apply Room).
      assert (Gs3 : good_state st3).
      { split; [exact O2|]. split; [exact Num3|]. split; [rewrite Ids3; apply NoDup_app_intro; [exact NDi|constructor; [intros []|apply NoDup_nil]|intros x Hx [<-|[]]; contradiction]|].
        split; [intros x Hx; rewrite Ids3 in Hx; apply in_app_or in Hx; destruct Hx as [Hx|[<-|[]]]; [apply Li; exact Hx|exact Lb]|].
        split; [intros x v Wx; unfold st3; cbn [stack]; eapply grown_stack; [exact G2|]; eapply grown_stack; [exact G1|]; eapply De; exact Wx|].
        assert (An : assigned_names (done st3) = assigned_names (done st) ++ block_names rb).
        { unfold st3. cbn [done]. rewrite Dn, assigned_app. unfold assigned_names at 2. cbn [flat_map snd]. rewrite app_nil_r. reflexivity. }
        rewrite An. split; [|split].
        - apply NoDup_app_intro; [exact NDn|exact U2|]. intros [v k] H1 H2. apply Bn in H1. apply B2 in H2. lia.
        - intros v k Hk. apply in_app_or in Hk. unfold st3. cbn [number]. destruct Hk as [Hk|Hk]; [apply Bn in Hk; rewrite N2; lia|apply B2 in Hk; lia].
        - intros a Ha. unfold st3 in Ha. cbn [args] in Ha. rewrite Ar in Ha. rewrite Ids3. apply in_or_app. left. apply Ap. exact Ha. }
      assert (Cur3 : forall v, cur st3 v = bind_names (cur st) (block_names rb) v) by (exact C2).
      (* a variable that is needed behind b has a number *)
      assert (Have : forall v, needed_after c b v -> cur st3 v <> None).
      { intros v [s [Hs Nv]]. rewrite Cur3. destruct (in_dec Nat.eq_dec v (map fst (block_names rb))) as [I0|N].
        - destruct (bind_in (block_names rb) (cur st) v I0) as [k ->]. discriminate.
        - rewrite bind_not by exact N. rewrite M12 in N. apply En.
          + apply needed_later with (s := s); [exact Hs| |exact Nv]. intros [o [Ho Dv]]. apply N. apply in_or_app. right. apply in_flat_map. exists o. auto.
          + intros K. apply N. apply in_or_app. left. exact K. }
      destruct (name_args_spec g ph b (succs (block_of c b))) with (st := st3) as [A0 [E3 [A1 A2]]].
      { intros s Hs. split; [apply (edge g c F); exact Hs|apply few_preds]. }
      { exact ph_nodup. }
      { pose proof F as [_ [_ [_ [_ [_ K]]]]]. apply K. }
      { exact O2. }
      { exact Num256. }
      { intros s v Hs Hv. apply Have. exists s. split; [exact Hs|apply ph_needed; exact Hv]. }
      { intros a Ha Ea. exfalso. apply Nb. rewrite <- Ea. apply Ap. unfold st3 in Ha. cbn [args] in Ha. rewrite Ar in Ha. exact Ha. }
      rewrite E3. cbn [bind]. set (st4 := with_args st3 A0).
      assert (Gs4 : good_state st4).
      { destruct Gs3 as [Z1 [Z2 [Z3 [Z4 [Z5 [Z6 [Z7 Z8]]]]]]]. split; [exact Z1|]. split; [exact Z2|]. split; [exact Z3|]. split; [exact Z4|]. split; [exact Z5|]. split; [exact Z6|]. split; [exact Z7|].
        intros a Ha. unfold st4, with_args in Ha. cbn [args] in Ha. apply in_app_or in Ha. destruct Ha as [Ha|Ha]; [apply Z8; exact Ha|].
        destruct (A1 a Ha) as [-> _]. change (ids st4) with (ids st3). rewrite Ids3. apply in_or_app. right. left. reflexivity. }
      destruct (rename_all_spec (rename_block fuel g c im ph added) b (imm_domees im b) Lb (incl_refl _) (children_nodup b)) with (st := st4) as [st5 [K [A [E4 [Gs5 [D5 [R5 [S5 [T5 [Q5 [W5 H5]]]]]]]]]]].
      { intros x s0 Hx Gx Fx Ex. apply child_iff in Hx. destruct Hx as [Lx [[Dx Nx] Ix]]. apply IH; [lia| |exact Gx|exact Fx|exact Ex].
        assert (Q : (length (get d b) < length (get d x))%nat); [|lia].
        assert (NDa : NoDup (x :: get d b)).
        { constructor; [|destruct Sh as [_ Sh]; apply (part_nodup n); apply Sh; exact Lb]. intros K. apply Hd in K; [|exact Lb].
          apply Nx. apply (dom_antisym g b x); [apply reached; lia|exact Dx|apply K]. }
        apply (NoDup_incl_length NDa). intros z [<-|Hz]; apply Hd; try (fold n; lia); [split; [fold n; lia|apply dom_refl]|].
        apply Hd in Hz; [|exact Lb]. split; [apply Hz|]. eapply dom_trans; [apply Hz|exact Dx]. }
      { exact Gs4. }
      { intros x y Hx Ly Dy I0. change (ids st4) with (ids st3) in I0. rewrite Ids3 in I0. apply child_iff in Hx. destruct Hx as [Lx [[Dx Nx] Ix]]. apply in_app_or in I0. destruct I0 as [I0|[<-|[]]].
        - apply (Fr y Ly); [eapply dom_trans; eassumption|exact I0].
        - apply Nx. apply (dom_antisym g b x); [apply reached; lia|exact Dx|exact Dy]. }
      { intros x v Hx Nv Pv. apply child_iff in Hx. destruct Hx as [Lx Ix]. split.
        - change (cur st4 v) with (cur st3 v). apply Have.
          apply (needed_at_dominator g c F small (fun b v => In v (get ph b)) ph_closed b x v Ix Nv Pv).
        - apply (needed_relevant g c F strict (fun v => In v added) kinds b x v Ix Nv). }
      rewrite E4. cbn [bind]. fold (block_defs b).
      assert (Pop : forall v, In v (block_defs b) -> In v added -> exists l s, stack st5 v = Some (l ++ s) /\ length l = cnt v (block_defs b)).
      { intros v Hv Av. rewrite T5 by (left; exact Av). change (stack st4 v) with (stack st2 v). specialize (S2 v). pose proof (Def v Hv) as Dv.
        destruct (stack st v) as [s|]; [|congruence]. destruct S2 as [l [L0 E0]]. exists l, s. auto. }
      destruct Gs5 as [Z1 [Z2 [Z3 [Z4 [Z5 [Z6 [Z7 Z8]]]]]]].
      destruct (pop_spec added (block_defs b) st5 Z1 Pop) as [st6 [E6 [O6 [N6 [D6 [A6 K6]]]]]].
      rewrite E6.
      set (e0 := ((b, rb), cur st) : entry).
      exists st6, (e0 :: K), (A0 ++ A). split; [reflexivity|].
      assert (Ids6 : ids st6 = ids st5) by (unfold ids; rewrite D6; reflexivity).
      split; [|split; [|split; [|split; [|split; [|split; [|split; [|split]]]]]]].
      + split; [exact O6|]. split; [intros v; rewrite N6, Ids6; apply Z2|]. split; [rewrite Ids6; exact Z3|]. split; [intros x; rewrite Ids6; apply Z4|]. split.
        { intros x v Wx. destruct (K6 v) as [K1 [K2 K3]]. destruct (in_dec Nat.eq_dec v added) as [Av|Nv]; [|rewrite K1 by exact Nv; apply (Z5 x v Wx)].
          destruct (in_dec Nat.eq_dec v (block_defs b)) as [Hv|Nv]; [|rewrite K3 by exact Nv; apply (Z5 x v Wx)].
          destruct (Pop v Hv Av) as [l [s [E0 L0]]]. rewrite (K2 Av l s E0 L0). discriminate. }
        split; [rewrite D6; exact Z6|]. split; [intros v k; rewrite D6, N6; apply Z7|]. intros a; rewrite A6, Ids6; apply Z8.
      + rewrite D6, D5. change (done st4) with (done st2 ++ [(b, rb)]). rewrite Dn, <- app_assoc. reflexivity.
      + rewrite A6, R5. change (args st4) with (args st2 ++ A0). rewrite Ar, <- app_assoc. reflexivity.
      + intros x. cbn [map In]. change (eid e0) with b. rewrite S5. split.
        * intros [<-|[Lx [y [Hy Dy]]]]; [split; [exact Lb|apply dom_refl]|]. split; [exact Lx|]. apply child_iff in Hy. destruct Hy as [_ [[Hy _] _]]. apply (dom_trans g b y x Hy Dy).
        * intros [Lx Dx]. destruct (Nat.eq_dec b x) as [E|N]; [left; exact E|right]. split; [exact Lx|]. apply below_child; [exact Lx|]. split; assumption.
      + intros v Hv. destruct (K6 v) as [K1 [K2 K3]]. destruct (in_dec Nat.eq_dec v added) as [Av|Nv].
        * specialize (T5 v (or_introl Av)). change (stack st4 v) with (stack st2 v) in T5. specialize (S2 v).
          destruct (stack st v) as [s|] eqn:Es.
          -- destruct S2 as [l [L0 E0]]. apply (K2 Av l s); [rewrite T5; exact E0|exact L0].
          -- rewrite K3; [rewrite T5; exact S2|]. intros I0. apply (Def v I0). exact Es.
        * destruct Hv as [Hv|Hv]; [contradiction|]. rewrite K1 by exact Nv.
          assert (Rv : rel b v) by (right; intros y Ly [Dy _]; apply Hv; assumption). rewrite (T5 v Rv). change (stack st4 v) with (stack st2 v).
          assert (Nd : ~ In v (block_defs b)).
          { intros I0. apply in_app_or in I0. destruct I0 as [I0|I0]; [apply Nv; apply added_spec; exists b; exact I0|].
            apply in_flat_map in I0. destruct I0 as [o [Ho Dv]]. apply (Hv b Lb (dom_refl g b)). exists o. auto. }
          specialize (S2 v). destruct (stack st v) as [s|] eqn:Es; [|exact S2]. destruct S2 as [l [L0 E0]].
          assert (cnt v (block_defs b) = 0%nat) by (unfold cnt; apply count_occ_not_In; exact Nd). destruct l; [exact E0|cbn in L0; lia].
      + intros e [<-|He].
        * split; [exact M1|]. split; [cbn [erb ein eid fst snd rb rphis rops]; eapply renamed_ext; [|exact Rn]; apply G1|].
          intros s v Hs Hv. destruct (A2 s v Hs Hv) as [k Hk]. exists k. apply in_or_app. left. exact Hk.
        * apply (proj2 (good_entry_more e A A0 (Q5 e He))).
      + intros a Ha. apply in_app_or in Ha. destruct Ha as [Ha|Ha].
        * exists e0. split; [left; reflexivity|]. destruct (A1 a Ha) as [Q1 Q2]. split; [exact Q1|]. rewrite <- Q2. symmetry. apply Cur3.
        * destruct (W5 a Ha) as [e [He Z]]. exists e. split; [right; exact He|exact Z].
      + intros e [<-|He] Ee v; [reflexivity|]. exfalso. assert (K1 : In (eid e) (map eid K)) by (apply in_map; exact He). apply S5 in K1. destruct K1 as [Lx [y [Hy Dy]]].
        apply child_iff in Hy. destruct Hy as [Ly [[Sy Ny] Iy]]. rewrite Ee in Dy. apply Ny. apply (dom_antisym g b y); [apply reached; lia|exact Sy|exact Dy].
      + intros e [<-|He] Ne; [exfalso; apply Ne; reflexivity|]. destruct (H5 e He) as [[Z9 Z10]|Z9].
        * exists e0. split; [left; reflexivity|]. apply child_iff in Z9. split; [apply Z9|]. intros v Rv. rewrite Z10 by exact Rv. change (cur st4 v) with (cur st3 v). apply Cur3.
        * destruct Z9 as [e' [He' Z9]]. exists e'. split; [right; exact He'|exact Z9].
  Qed.
End Tree.
