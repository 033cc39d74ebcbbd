From Coq Require Import Permutation.
From Verif Require Import Base Base_lemmas Regalloc_model Regalloc_spec Regalloc_proof Regalloc_walk_proof.

Section Step.
  Variables (classes : list nat) (blocks : list block) (hint : list ivl -> nat -> nat) (fixeds vars : list ivl).
  Notation Inv := (Inv fixeds vars).
  Hypothesis Hb : blocks_ok blocks.

  Definition class_ok (l : list ivl) : Prop := forall k i, nth_error l k = Some i -> reg i <> 0%nat -> nth_error classes (reg i) = Some (cls i).
  Definition located (l : list ivl) (act ina : list nat) (p : Z) : Prop :=
    forall k i, nth_error l k = Some i -> reg i <> 0%nat -> In k act \/ In k ina \/ forall x, covers (ranges i) x -> x < p.

  Lemma evo_class l l' : evo l l' -> class_ok l -> class_ok l'.
  Proof.
    intros [E1 [E2 E3]] H k i' Hk R. assert (L : (k < length l)%nat) by (destruct (Nat.lt_ge_cases k (length l)) as [K|K]; [exact K|contradiction (R (E3 k i' Hk K))]).
    destruct (nth_ex l k L) as [i Hi]. destruct (E2 k i Hi) as [i2 [Hi2 [S1 [S2 [S3 [S4 S5]]]]]]. rewrite Hk in Hi2. injection Hi2 as <-. destruct S4 as [S4|S4]; [|congruence]. rewrite S4, S2. apply (H k i Hi). congruence.
  Qed.
  Lemma evo_located l l' act ina p : evo l l' -> located l act ina p -> located l' act ina p.
  Proof.
    intros [E1 [E2 E3]] H k i' Hk R. assert (L : (k < length l)%nat) by (destruct (Nat.lt_ge_cases k (length l)) as [K|K]; [exact K|contradiction (R (E3 k i' Hk K))]).
    destruct (nth_ex l k L) as [i Hi]. destruct (E2 k i Hi) as [i2 [Hi2 [S1 [S2 [S3 [S4 S5]]]]]]. rewrite Hk in Hi2. injection Hi2 as <-.
    destruct (H k i Hi ltac:(destruct S4; congruence)) as [K|[K|K]]; [left; exact K|right; left; exact K|right; right; intros x C; apply K, S5, C].
  Qed.
  (** an interval of the new list that has a register was there before *)
  Lemma evo_old l l' j i' : evo l l' -> nth_error l' j = Some i' -> reg i' <> 0%nat -> exists i, nth_error l j = Some i /\ sub i i' /\ reg i = reg i'.
  Proof.
    intros [E1 [E2 E3]] Hk R. assert (L : (j < length l)%nat) by (destruct (Nat.lt_ge_cases j (length l)) as [K|K]; [exact K|contradiction (R (E3 j i' Hk K))]).
    destruct (nth_ex l j L) as [i Hi]. destruct (E2 j i Hi) as [i2 [Hi2 S]]. rewrite Hk in Hi2. injection Hi2 as <-. exists i. split; [exact Hi|]. split; [exact S|]. destruct S as [_ [_ [_ [S _]]]]. destruct S; congruence.
  Qed.

  (** ** Positions *)
  Definition pos_ok (c : nat) (pos : list Z) : Prop :=
    forall r x, r <> 0%nat -> nth_error pos r = Some x -> (nth_error classes r = Some c -> 0 <= x) /\ (nth_error classes r <> Some c -> x = -1).
  Definition desc (pos pos' : list Z) : Prop := forall r x', r <> 0%nat -> nth_error pos' r = Some x' -> exists x, nth_error pos r = Some x /\ x' <= x.
  Lemma desc_refl pos : desc pos pos. Proof. intros r x _ H. exists x. split; [exact H|lia]. Qed.
  Lemma desc_trans a b c : desc a b -> desc b c -> desc a c.
  Proof. intros A B r x N H. destruct (B r x N H) as [y [Hy L]]. destruct (A r y N Hy) as [z [Hz L']]. exists z. split; [exact Hz|lia]. Qed.
  Lemma set_pos_ok c pos r p pos' : pos_ok c pos -> 0 <= p -> (r <> 0%nat -> nth_error classes r = Some c) -> set_pos pos r p = Ok pos' ->
    pos_ok c pos' /\ desc pos pos' /\ (r <> 0%nat -> forall x, nth_error pos' r = Some x -> x <= p).
  Proof.
    intros P Hp Hr H. unfold set_pos in H. bnd H x E. apply get_ok in E. injection H as <-. destruct (negb (x =? -1) && (x <? p)) eqn:Q.
    - split; [exact P|]. split; [apply desc_refl|]. intros N y Hy. rewrite E in Hy. injection Hy as <-. lia.
    - pose proof (nth_lt _ _ _ E) as L. split; [|split].
      + intros r' y N Hy. destruct (Nat.eq_dec r r') as [<-|D]; [rewrite nth_set_same in Hy by exact L; injection Hy as <-; split; [intros _; exact Hp|intros K; contradiction (K (Hr N))]|]. rewrite nth_set_other in Hy by exact D. apply (P r' y N Hy).
      + intros r' y N Hy. destruct (Nat.eq_dec r r') as [<-|D]; [rewrite nth_set_same in Hy by exact L; injection Hy as <-; exists x; split; [exact E|]; destruct (P r x N E) as [P1 _]; specialize (P1 (Hr N)); lia|].
        rewrite nth_set_other in Hy by exact D. exists y. split; [exact Hy|lia].
      + intros N y Hy. rewrite nth_set_same in Hy by exact L. injection Hy as <-. lia.
  Qed.
  Lemma start_pos_ok c : pos_ok c (start_pos classes c).
  Proof.
    intros r x N H. unfold start_pos in H. destruct classes as [|c0 cs]; [destruct r; discriminate|]. destruct r as [|r]; [contradiction|]. cbn [nth_error] in *. rewrite nth_error_map in H.
    destruct (nth_error cs r) as [y|]; [|discriminate]. cbn [option_map] in H. injection H as <-. destruct (y =? c)%nat eqn:E; split; intros K; try (unfold int_max; lia); try reflexivity; exfalso.
    - apply Nat.eqb_eq in E. subst y. apply K. reflexivity.
    - apply Nat.eqb_neq in E. congruence.
  Qed.

  Lemma free_active_ok l c : class_ok l -> forall act pos pos', pos_ok c pos -> free_active l act c pos = Ok pos' ->
    pos_ok c pos' /\ desc pos pos' /\ forall j i x, In j act -> nth_error l j = Some i -> cls i = c -> reg i <> 0%nat -> nth_error pos' (reg i) = Some x -> x <= 0.
  Proof.
    intros CO. induction act as [|k act IH]; intros pos pos' P H; cbn [free_active] in H; [injection H as <-; split; [exact P|]; split; [apply desc_refl|intros ? ? ? []]|].
    bnd H i E. apply get_ok in E. bnd H pos1 E1. destruct (negb (cls i =? c)%nat) eqn:Q.
    - injection E1 as <-. destruct (IH pos pos' P H) as [I1 [I2 I3]]. split; [exact I1|]. split; [exact I2|]. intros j i' x [<-|Hj] Hi C R Hx; [rewrite E in Hi; injection Hi as <-; lia|apply (I3 j i' x Hj Hi C R Hx)].
    - destruct (set_pos_ok c pos (reg i) 0 pos1 P ltac:(lia) ltac:(intros N; rewrite (CO k i E N); f_equal; lia) E1) as [P1 [D1 U1]].
      destruct (IH pos1 pos' P1 H) as [I1 [I2 I3]]. split; [exact I1|]. split; [apply (desc_trans _ _ _ D1 I2)|]. intros j i' x [<-|Hj] Hi C R Hx; [|apply (I3 j i' x Hj Hi C R Hx)].
      rewrite E in Hi. injection Hi as <-. destruct (I2 (reg i) x R Hx) as [y [Hy L]]. specialize (U1 R y Hy). lia.
  Qed.
  Lemma free_inactive_ok l cur : class_ok l -> ordered (ranges cur) -> (forall f, first_from cur = Ok f -> 0 <= f) -> (forall k i, nth_error l k = Some i -> ordered (ranges i)) ->
    forall ina pos pos', pos_ok (cls cur) pos -> free_inactive blocks l ina cur pos = Ok pos' ->
    pos_ok (cls cur) pos' /\ desc pos pos' /\ forall j i x, In j ina -> nth_error l j = Some i -> cls i = cls cur -> reg i <> 0%nat -> nth_error pos' (reg i) = Some x -> exists q, next_intersect blocks cur i = Ok q /\ x <= q.
  Proof.
    intros CO Oc Fc OA. induction ina as [|k act IH]; intros pos pos' P H; cbn [free_inactive] in H; [injection H as <-; split; [exact P|]; split; [apply desc_refl|intros ? ? ? []]|].
    bnd H i E. apply get_ok in E. bnd H pos1 E1. destruct (negb (cls i =? cls cur)%nat) eqn:Q.
    - injection E1 as <-. destruct (IH pos pos' P H) as [I1 [I2 I3]]. split; [exact I1|]. split; [exact I2|]. intros j i' x [<-|Hj] Hi C R Hx; [rewrite E in Hi; injection Hi as <-; lia|apply (I3 j i' x Hj Hi C R Hx)].
    - bnd E1 p E2. destruct (p =? 0); [discriminate|]. destruct (next_intersect_ok blocks cur i p Hb Oc (OA k i E) Fc E2) as [Hp _].
      destruct (set_pos_ok (cls cur) pos (reg i) p pos1 P Hp ltac:(intros N; rewrite (CO k i E N); f_equal; lia) E1) as [P1 [D1 U1]].
      destruct (IH pos1 pos' P1 H) as [I1 [I2 I3]]. split; [exact I1|]. split; [apply (desc_trans _ _ _ D1 I2)|]. intros j i' x [<-|Hj] Hi C R Hx; [|apply (I3 j i' x Hj Hi C R Hx)].
      rewrite E in Hi. injection Hi as <-. exists p. split; [exact E2|]. destruct (I2 (reg i) x R Hx) as [y [Hy L]]. specialize (U1 R y Hy). lia.
  Qed.
  Lemma next_use_nonneg i a : 0 <= a -> 0 <= next_use i a.
  Proof. unfold next_use. intros H. destruct (find (fun u => a <? fst u) (uses i)) as [u|] eqn:E; [|lia]. apply find_some in E. destruct E as [_ E]. lia. Qed.
  Lemma block_active_ok l c from : class_ok l -> 0 <= from -> forall act up bp up' bp', pos_ok c up -> pos_ok c bp -> block_active l act c from up bp = Ok (up', bp') ->
    pos_ok c up' /\ pos_ok c bp' /\ desc up up' /\ desc bp bp' /\ forall j i x, In j act -> nth_error l j = Some i -> cls i = c -> reg i <> 0%nat -> fixed i = true -> nth_error up' (reg i) = Some x -> x <= 0.
  Proof.
    intros CO Hf. induction act as [|k act IH]; intros up bp up' bp' P P' H; cbn [block_active] in H; [injection H as <- <-; split; [exact P|]; split; [exact P'|]; split; [apply desc_refl|]; split; [apply desc_refl|intros ? ? ? []]|].
    bnd H i E. apply get_ok in E. bnd H w E1. destruct w as [up1 bp1]. destruct (negb (cls i =? c)%nat) eqn:Q; [|destruct (fixed i) eqn:Fx].
    - injection E1 as <- <-. destruct (IH up bp up' bp' P P' H) as [I1 [I2 [I3 [I4 I5]]]]. repeat (split; [assumption|]). intros j i' x [<-|Hj] Hi C R F Hx; [rewrite E in Hi; injection Hi as <-; lia|apply (I5 j i' x Hj Hi C R F Hx)].
    - bnd E1 b2 E2. bnd E1 u2 E3. injection E1 as <- <-. assert (CI : reg i <> 0%nat -> nth_error classes (reg i) = Some c) by (intros N; rewrite (CO k i E N); f_equal; lia).
      destruct (set_pos_ok c _ _ _ _ P' (Z.le_refl 0) CI E2) as [B1 [B2 B3]]. destruct (set_pos_ok c _ _ _ _ P (Z.le_refl 0) CI E3) as [U1 [U2 U3]].
      destruct (IH _ _ _ _ U1 B1 H) as [I1 [I2 [I3 [I4 I5]]]]. split; [exact I1|]. split; [exact I2|]. split; [apply (desc_trans _ _ _ U2 I3)|]. split; [apply (desc_trans _ _ _ B2 I4)|].
      intros j i' x [<-|Hj] Hi C R F Hx; [|apply (I5 j i' x Hj Hi C R F Hx)]. rewrite E in Hi. injection Hi as <-. destruct (I3 (reg i) x R Hx) as [y [Hy L]]. specialize (U3 R y Hy). lia.
    - bnd E1 f E2. destruct (from <=? f); [discriminate|]. bnd E1 u2 E3. injection E1 as <- <-. assert (CI : reg i <> 0%nat -> nth_error classes (reg i) = Some c) by (intros N; rewrite (CO k i E N); f_equal; lia).
      assert (NN : 0 <= (if from - f <=? 1 then 0 else next_use i from)) by (destruct (from - f <=? 1); [lia|apply next_use_nonneg; exact Hf]).
      destruct (set_pos_ok c _ _ _ _ P NN CI E3) as [U1 [U2 U3]].
      destruct (IH _ _ _ _ U1 P' H) as [I1 [I2 [I3 [I4 I5]]]]. split; [exact I1|]. split; [exact I2|]. split; [apply (desc_trans _ _ _ U2 I3)|]. split; [exact I4|].
      intros j i' x [<-|Hj] Hi C R F Hx; [congruence|apply (I5 j i' x Hj Hi C R F Hx)].
  Qed.
  Lemma block_inactive_ok l cur from : class_ok l -> 0 <= from -> ordered (ranges cur) -> (forall f, first_from cur = Ok f -> 0 <= f) -> (forall k i, nth_error l k = Some i -> ordered (ranges i)) ->
    forall ina up bp up' bp', pos_ok (cls cur) up -> pos_ok (cls cur) bp -> block_inactive blocks l ina cur from up bp = Ok (up', bp') ->
    pos_ok (cls cur) up' /\ pos_ok (cls cur) bp' /\ desc up up' /\ desc bp bp' /\
    forall j i x, In j ina -> nth_error l j = Some i -> cls i = cls cur -> reg i <> 0%nat -> fixed i = true -> nth_error bp' (reg i) = Some x -> exists q, next_intersect blocks cur i = Ok q /\ x <= q.
  Proof.
    intros CO Hf Oc Fc OA. induction ina as [|k act IH]; intros up bp up' bp' P P' H; cbn [block_inactive] in H; [injection H as <- <-; split; [exact P|]; split; [exact P'|]; split; [apply desc_refl|]; split; [apply desc_refl|intros ? ? ? []]|].
    bnd H i E. apply get_ok in E. bnd H w E1. destruct w as [up1 bp1]. destruct (negb (cls i =? cls cur)%nat) eqn:Q.
    - injection E1 as <- <-. destruct (IH up bp up' bp' P P' H) as [I1 [I2 [I3 [I4 I5]]]]. repeat (split; [assumption|]). intros j i' x [<-|Hj] Hi C R F Hx; [rewrite E in Hi; injection Hi as <-; lia|apply (I5 j i' x Hj Hi C R F Hx)].
    - bnd E1 p E0. destruct (p =? 0); [discriminate|]. destruct (next_intersect_ok blocks cur i p Hb Oc (OA k i E) Fc E0) as [Hp _].
      assert (CI : reg i <> 0%nat -> nth_error classes (reg i) = Some (cls cur)) by (intros N; rewrite (CO k i E N); f_equal; lia). destruct (fixed i) eqn:Fx.
      + bnd E1 b2 E2. bnd E1 u2 E3. injection E1 as <- <-.
        destruct (set_pos_ok _ _ _ _ _ P' Hp CI E2) as [B1 [B2 B3]]. destruct (set_pos_ok _ _ _ _ _ P Hp CI E3) as [U1 [U2 U3]].
        destruct (IH _ _ _ _ U1 B1 H) as [I1 [I2 [I3 [I4 I5]]]]. split; [exact I1|]. split; [exact I2|]. split; [apply (desc_trans _ _ _ U2 I3)|]. split; [apply (desc_trans _ _ _ B2 I4)|].
        intros j i' x [<-|Hj] Hi C R F Hx; [|apply (I5 j i' x Hj Hi C R F Hx)]. rewrite E in Hi. injection Hi as <-. exists p. split; [exact E0|]. destruct (I4 (reg i) x R Hx) as [y [Hy L]]. specialize (B3 R y Hy). lia.
      + bnd E1 u2 E3. injection E1 as <- <-. destruct (set_pos_ok _ _ _ _ _ P (next_use_nonneg i from Hf) CI E3) as [U1 [U2 U3]].
        destruct (IH _ _ _ _ U1 P' H) as [I1 [I2 [I3 [I4 I5]]]]. split; [exact I1|]. split; [exact I2|]. split; [apply (desc_trans _ _ _ U2 I3)|]. split; [exact I4|].
        intros j i' x [<-|Hj] Hi C R F Hx; [congruence|apply (I5 j i' x Hj Hi C R F Hx)].
  Qed.
  Lemma find_free_ok pos from to h : from < to -> forall l x y x' y', (forall i, In i l -> i <> 0%nat) ->
    (x = 0%nat \/ exists p, nth_error pos x = Some p /\ from < p) -> (y = 0%nat \/ exists p, nth_error pos y = Some p /\ from < p) -> find_free l pos from to h x y = Ok (x', y') ->
    (x' = 0%nat \/ exists p, nth_error pos x' = Some p /\ from < p) /\ (y' = 0%nat \/ exists p, nth_error pos y' = Some p /\ from < p).
  Proof.
    intros FT. induction l as [|i l IH]; intros x y x' y' NZ Px Py H; cbn [find_free] in H; [injection H as <- <-; auto|].
    bnd H p E1. apply get_ok in E1. bnd H px E2. bnd H py E3. assert (NZ' : forall j, In j l -> j <> 0%nat) by (intros j Hj; apply NZ; right; exact Hj).
    destruct (to <=? p) eqn:Q1; [|destruct (from + 1 <=? p) eqn:Q2].
    - eapply IH; [exact NZ'| |exact Py|exact H]. destruct ((x =? 0)%nat || (i =? h)%nat || (negb (x =? h)%nat && (px <? p))); [right; exists p; split; [exact E1|lia]|exact Px].
    - eapply IH; [exact NZ'|exact Px| |exact H]. destruct ((y =? 0)%nat || (i =? h)%nat || (negb (y =? h)%nat && (py <? p))); [right; exists p; split; [exact E1|lia]|exact Py].
    - apply (IH x y x' y' NZ' Px Py H).
  Qed.
  Lemma find_block_ok pos from h : forall l x x', (x = 0%nat \/ exists p, nth_error pos x = Some p /\ from < p) -> find_block l pos from h x = Ok x' -> x' = 0%nat \/ exists p, nth_error pos x' = Some p /\ from < p.
  Proof.
    induction l as [|i l IH]; intros x x' Px H; cbn [find_block] in H; [injection H as <-; exact Px|]. bnd H p E1. apply get_ok in E1. bnd H px E2.
    destruct (p <=? from + 1) eqn:Q1; [apply (IH x x' Px H)|]. eapply IH; [|exact H]. destruct ((x =? 0)%nat || (i =? h)%nat || (negb (x =? h)%nat && (px <? p))); [right; exists p; split; [exact E1|lia]|exact Px].
  Qed.

  (** ** One interval *)
  (** the state in which an interval is handled *)
  Record ready (s : st) (k : nat) (i : ivl) (from : Z) : Prop := {
    r_inv : Inv (ivs s) (unhandled s) [k];
    r_not : ~ In k (unhandled s);
    r_nth : nth_error (ivs s) k = Some i;
    r_fresh : fresh i;
    r_class : class_ok (ivs s);
    r_from : first_from i = Ok from
  }.
  (** what has to hold afterwards *)
  Record done (s s' : st) (from : Z) : Prop := {
    d_inv : Inv (ivs s') (unhandled s') [];
    d_class : class_ok (ivs s');
    d_slack : slack (ivs s) (unhandled s) <= slack (ivs s') (unhandled s');
    d_seen : seen s' = seen s;
    d_clash : no_clash (ivs s) -> located (ivs s) (active s) (inactive s) from -> no_clash (ivs s') /\ located (ivs s') (active s') (inactive s') from
  }.
  Lemma ready_from s k i from : ready s k i from -> 0 <= from /\ ordered (ranges i) /\ (forall f, first_from i = Ok f -> 0 <= f).
  Proof.
    intros [V NU Hk [F1 [F2 F3]] CO Ff]. destruct (i_first _ _ _ _ _ V k i Hk F3) as [f [t [m [R P]]]]. assert (E : first_from i = Ok f) by (unfold first_from; rewrite R; reflexivity).
    split; [congruence|]. split; [apply (i_ord _ _ _ _ _ V k i Hk)|]. intros f' E'. congruence.
  Qed.

  Lemma spill0_done s k i from s' : ready s k i from -> spill blocks s k 0 = Ok s' -> done s (handle s' k) from.
  Proof.
    intros RD H. destruct (ready_from _ _ _ _ RD) as [P0 [O _]]. destruct RD as [V NU Hk [F1 [F2 F3]] CO Ff].
    destruct (spill_ok blocks fixeds vars Hb s k 0 s' [k] i V Hk F3 NU H) as [[S1 [S1b [S1c S1d]]] [S2 [S3 [S4 [S5 [i' [S6 [S7 S8]]]]]]]]. unfold handle. constructor; cbn [ivs unhandled active inactive handled seen].
    - apply S8; [intros x [<-|[]] N; contradiction|]. right. destruct S7 as [[_ [_ [pos [L [_ C]]]]]|[_ [S7 _]]]; [|exact S7]. exfalso.
      assert (V' : Inv (ivs s') (unhandled s') [k]) by (apply S8; [auto|left; left; reflexivity]). destruct (i_first _ _ _ _ _ V' k i' S6) as [f' [t' [m' [R' P']]]].
      { destruct S2 as [_ [S2 _]]. destruct (S2 k i Hk) as [i2 [Hi2 [X _]]]. rewrite S6 in Hi2. injection Hi2 as <-. congruence. }
      pose proof (i_ord _ _ _ _ _ V' k i' S6) as O'. rewrite R' in O', C. specialize (C f'). rewrite covers_cons in C. destruct O' as [O' _]. specialize (C ltac:(left; lia)). lia.
    - apply (evo_class _ _ S2 CO).
    - exact S3.
    - exact S1d.
    - intros N L. split; [apply (evo_clash _ _ S2 N)|]. rewrite S1, S1b. apply (evo_located _ _ _ _ _ S2 L).
  Qed.

  (** an interval split off and put back *)
  Lemma back_ok s k i from pos s' l c : ready s k i from -> split_iv (ivs s) k pos = Ok (l, c) -> put_back (with_ivs s l) c = Ok s' ->
    ready s' k (with_ranges i (flat_map (left_part pos) (ranges i)) (uses_left pos (uses i))) from /\ same_lists s s' /\ evo (ivs s) (ivs s') /\ slack (ivs s) (unhandled s) <= slack (ivs s') (unhandled s') /\
    (forall j, j <> k -> (j < length (ivs s))%nat -> nth_error (ivs s') j = nth_error (ivs s) j).
  Proof.
    intros RD E E'. destruct RD as [V NU Hk [F1 [F2 F3]] CO Ff]. destruct (put_back_inv _ _ _ E') as [un' [E3 ->]]. cbn [ivs with_ivs unhandled active inactive handled seen] in *.
    destruct (split_nth _ _ _ _ _ E) as [-> [L1 [NO [i0 [Hk' [_ [[f [Ff' LF]] [Nk Nc]]]]]]]]. rewrite Hk in Hk'. injection Hk' as <-. pose proof (sort_in_perm _ _ _ _ E3) as P. pose proof (nth_lt _ _ _ Hk) as LK.
    assert (NR : ~ In (length (ivs s)) (unhandled s)) by (intros K; destruct (i_un _ _ _ _ _ V _ K) as [x [Hx _]]; apply nth_lt in Hx; lia).
    pose proof (split_Inv _ _ _ _ _ _ _ _ _ V NU E) as V1. pose proof (split_evo _ _ _ _ _ E) as EV.
    split; [|split; [repeat split|split; [exact EV|split; [unfold slack; cbn [ivs unhandled]; rewrite L1, <- (Permutation_length P); cbn [length]; lia|exact NO]]]].
    constructor; cbn [ivs unhandled].
    - apply (put_Inv _ _ _ _ _ _ _ _ V1 NR); [eexists; split; [exact Nc|repeat split]| |exact E3]. intros x [<-|K] N; [contradiction|exact K].
    - intros K. apply (Permutation_in _ (Permutation_sym P)) in K. destruct K as [K|K]; [lia|contradiction].
    - exact Nk.
    - repeat split; assumption.
    - apply (evo_class _ _ EV CO).
    - rewrite Ff in Ff'. injection Ff' as <-. unfold first_from in *. cbn [with_ranges ranges]. destruct (ranges i) as [|[f t] m]; [discriminate|]. injection Ff as ->. destruct (ranges_first_left pos from t m LF) as [t' [m' ->]]. reflexivity.
  Qed.

  (** giving a register to the interval *)
  Lemma assign_done s k i from r s' (Pre : Prop) : ready s k i from -> nth_error classes r = Some (cls i) -> assign blocks s k r = Ok s' ->
    (Pre -> forall j ij x, j <> k -> nth_error (ivs s) j = Some ij -> reg ij = r -> covers (ranges ij) x -> covers (ranges i) x -> False) ->
    Inv (ivs s') (unhandled s') [] /\ class_ok (ivs s') /\ slack (ivs s) (unhandled s) <= slack (ivs s') (unhandled s') /\ seen s' = seen s /\
    (Pre -> no_clash (ivs s) -> located (ivs s) (active s) (inactive s) from -> no_clash (ivs s') /\ located (ivs s') (active (activate s' k)) (inactive s') from).
  Proof.
    intros RD CR H HC. destruct RD as [V NU Hk [F1 [F2 F3]] CO Ff]. pose proof (nth_lt _ _ _ Hk) as LK.
    destruct (assign_ok blocks fixeds vars Hb s k r s' i V Hk F3 F2 NU H) as [R [[S1 [S1b [S1c S1d]]] [S2 [S3 S4]]]].
    assert (N1 : forall j x, nth_error (list_set (ivs s) k (with_reg i r)) j = Some x -> (j = k /\ x = with_reg i r) \/ (j <> k /\ nth_error (ivs s) j = Some x)).
    { intros j x Hx. destruct (Nat.eq_dec k j) as [<-|N]; [rewrite nth_set_same in Hx by exact LK; injection Hx as <-; left; auto|]. rewrite nth_set_other in Hx by exact N. right. split; [congruence|exact Hx]. }
    split; [exact S4|]. split; [|split; [exact S3|split; [exact S1d|]]].
    - apply (evo_class _ _ S2). intros j x Hx Rx. destruct (N1 j x Hx) as [[-> ->]|[_ Hx']]; [exact CR|apply (CO j x Hx' Rx)].
    - intros PR NC L. specialize (HC PR). split.
      + apply (evo_clash _ _ S2). intros a b x y p Ha Hb0 D E E0 C C'. destruct (N1 a x Ha) as [[-> ->]|[Na Ha']], (N1 b y Hb0) as [[-> ->]|[Nb Hb']]; [contradiction| | |].
        * apply (HC b y p Nb Hb'); [cbn in E; congruence|exact C'|exact C].
        * apply (HC a x p Na Ha'); [cbn in E; congruence|exact C|exact C'].
        * apply (NC a b x y p Ha' Hb' D E E0 C C').
      + unfold activate. cbn [active]. rewrite S1, S1b. apply (evo_located _ _ _ _ _ S2). intros j x Hx Rx. destruct (N1 j x Hx) as [[-> ->]|[_ Hx']]; [left; apply in_or_app; right; left; reflexivity|].
        destruct (L j x Hx' Rx) as [K|[K|K]]; [left; apply in_or_app; left; exact K|right; left; exact K|right; right; exact K].
  Qed.
  (** the same after intervals were split or spilled *)
  Lemma finish s s1 k i from r s' : ready s1 k i from -> nth_error classes r = Some (cls i) -> assign blocks s1 k r = Ok s' ->
    same_lists s s1 -> slack (ivs s) (unhandled s) <= slack (ivs s1) (unhandled s1) -> evo (ivs s) (ivs s1) ->
    (no_clash (ivs s) -> located (ivs s) (active s) (inactive s) from -> forall j ij x, j <> k -> nth_error (ivs s1) j = Some ij -> reg ij = r -> covers (ranges ij) x -> covers (ranges i) x -> False) ->
    done s (activate s' k) from.
  Proof.
    intros RD CR H [S1 [S2 [S3 S4]]] L E HC.
    destruct (assign_done s1 k i from r s' (no_clash (ivs s) /\ located (ivs s) (active s) (inactive s) from) RD CR H ltac:(intros [A B]; apply (HC A B))) as [D1 [D2 [D3 [D4 D5]]]].
    constructor; cbn [activate ivs unhandled seen inactive]; [exact D1|exact D2|lia|congruence|]. intros N K. apply D5; [split; assumption|apply (evo_clash _ _ E N)|]. rewrite S1, S2. apply (evo_located _ _ _ _ _ E K).
  Qed.

  Lemma done_trans s s1 s2 from : done s1 s2 from -> seen s1 = seen s -> slack (ivs s) (unhandled s) <= slack (ivs s1) (unhandled s1) ->
    (no_clash (ivs s) -> located (ivs s) (active s) (inactive s) from -> no_clash (ivs s1) /\ located (ivs s1) (active s1) (inactive s1) from) -> done s s2 from.
  Proof. intros [D1 D2 D3 D4 D5] S L H. constructor; [exact D1|exact D2|lia|congruence|]. intros N K. destruct (H N K) as [N' K']. apply (D5 N' K'). Qed.
  Lemma back_done s s1 s2 from : done s1 s2 from -> same_lists s s1 -> slack (ivs s) (unhandled s) <= slack (ivs s1) (unhandled s1) -> evo (ivs s) (ivs s1) -> done s s2 from.
  Proof.
    intros D [S1 [S2 [S3 S4]]] L E. apply (done_trans s s1 s2 from D S4 L). intros N K. split; [apply (evo_clash _ _ E N)|]. rewrite S1, S2. apply (evo_located _ _ _ _ _ E K).
  Qed.

  Lemma allocate_free_done s k i from s' : ready s k i from -> allocate_free classes blocks hint s k = Ok (Some s') -> done s s' from.
  Proof.
    intros RD H. pose proof RD as RD0. destruct (ready_from _ _ _ _ RD) as [P0 [O OF]]. destruct RD as [V NU Hk [F1 [F2 F3]] CO Ff].
    unfold allocate_free in H. rewrite (proj2 (get_ok _ _ _) Hk) in H. cbn [bind] in H. rewrite Ff in H. cbn [bind] in H. bnd H to LTo. bnd H pos1 E1. bnd H pos E2. bnd H xy E3. destruct xy as [x y]. cbv zeta in H.
    set (r := if (0 <? x)%nat then x else y) in *.
    destruct (free_active_ok _ _ CO _ _ _ (start_pos_ok (cls i)) E1) as [Q1 [_ A1]].
    destruct (free_inactive_ok _ i CO O OF (fun j a K => i_ord _ _ _ _ _ V j a K) _ _ _ Q1 E2) as [Q2 [D2 A2]].
    assert (FT : from < to). { unfold first_from in Ff. destruct (ranges i) as [|[f t] m] eqn:R; [discriminate|]. injection Ff as ->. apply (last_bound i to from); [rewrite R; exact O|exact LTo|]. rewrite R, covers_cons. left. destruct O as [O _]. lia. }
    assert (NZ : forall j, In j (seq 1 (length classes - 1)) -> j <> 0%nat) by (intros j Hj; apply in_seq in Hj; lia).
    destruct (find_free_ok pos from to _ FT _ _ _ _ _ NZ (or_introl eq_refl) (or_introl eq_refl) E3) as [X1 X2].
    destruct (r =? 0)%nat eqn:R0; [discriminate|]. apply Nat.eqb_neq in R0. bnd H p E4. apply get_ok in E4. destruct (p =? 0) eqn:P1; [discriminate|].
    assert (PF : from < p). { unfold r in *. destruct (0 <? x)%nat eqn:E; [destruct X1 as [X1|[p' [X1 L]]]; [lia|congruence]|destruct X2 as [X2|[p' [X2 L]]]; [lia|congruence]]. }
    assert (CR : nth_error classes r = Some (cls i)). { destruct (Q2 r p R0 E4) as [_ K]. destruct (nth_error classes r) as [c|] eqn:E; [destruct (Nat.eq_dec c (cls i)) as [->|D]; [reflexivity|]|]; specialize (K ltac:(congruence)); lia. }
    destruct (first_use i) as [[u uk]|] eqn:FU; [|discriminate].
    destruct (negb (is_must uk) && (p - from <? use_min)).
    { bnd H s1 E5. injection H as <-. apply (spill0_done _ _ _ _ _ RD0 E5). }
    destruct (p <? u).
    { bnd H s1 E5. bnd H s2 E6. injection H as <-. destruct (is_must uk).
      - bnd E5 q E7. bnd E5 w E8. destruct w as [l c]. destruct (back_ok _ _ _ _ _ _ _ _ RD0 E8 E5) as [RD1 [B1 [B2 [B3 B4]]]].
        eapply back_done; [apply (spill0_done _ _ _ _ _ RD1 E6)|exact B1|exact B3|exact B2].
      - injection E5 as <-. apply (spill0_done _ _ _ _ _ RD0 E6). }
    bnd H s1 E5. bnd H s2 E6. injection H as <-.
    (* no interval with this register lives where the part before p does *)
    assert (HC : no_clash (ivs s) -> located (ivs s) (active s) (inactive s) from -> forall j ij x, j <> k -> nth_error (ivs s) j = Some ij -> reg ij = r -> covers (ranges ij) x -> covers (ranges i) x -> x < p -> False).
    { intros NC L j ij z D Hj Rj C C' LP. assert (CJ : cls ij = cls i). { pose proof (CO j ij Hj ltac:(congruence)) as K. rewrite Rj, CR in K. congruence. }
      destruct (L j ij Hj ltac:(congruence)) as [K|[K|K]].
      - assert (LE : exists y1, nth_error pos1 r = Some y1 /\ p <= y1) by (apply (D2 r p R0 E4)). destruct LE as [y1 [Y1 Y2]]. pose proof (A1 j ij y1 K Hj CJ ltac:(congruence) ltac:(rewrite Rj; exact Y1)). lia.
      - destruct (A2 j ij p K Hj CJ ltac:(congruence) ltac:(rewrite Rj; exact E4)) as [q [Q LQ]]. destruct (next_intersect_ok blocks i ij q Hb O (i_ord _ _ _ _ _ V j ij Hj) OF Q) as [_ NI]. apply (NI z ltac:(lia) C' C).
      - specialize (K z C). pose proof (first_bound i from z O Ff C'). lia. }
    destruct (p <? to) eqn:PT.
    - bnd E5 q E7. bnd E5 w E8. destruct w as [l c]. set (q' := if q =? from then p else q) in *. destruct (back_ok _ _ _ _ _ _ _ _ RD0 E8 E5) as [RD1 [B1 [B2 [B3 B4]]]].
      assert (LQ : q' <= p) by (pose proof (optimal_split_ok _ _ _ _ Hb E7); unfold q'; destruct (q =? from); lia).
      apply (finish _ _ _ _ _ _ _ RD1 CR E6 B1 B3 B2). intros NC L j ij z D Hj Rj C C'. cbn [with_ranges ranges] in C'. apply left_covers in C'.
      destruct (evo_old _ _ _ _ B2 Hj ltac:(congruence)) as [ij0 [Hj0 [Sj Rj0]]].
      pose proof (nth_lt _ _ _ Hj0) as LJ. rewrite (B4 j D LJ) in Hj. apply (HC NC L j ij z D Hj Rj C (proj1 C')). lia.
    - injection E5 as <-. apply (finish _ _ _ _ _ _ _ RD0 CR E6); [repeat split|lia|apply evo_refl|]. intros NC L j ij z D Hj Rj C C'. apply (HC NC L j ij z D Hj Rj C C'). pose proof (last_bound i to z O LTo C'). lia.
  Qed.

  Lemma evict_ready act sel r from s k i s' f0 : ready s k i f0 -> r <> 0%nat ->
    (forall j a, In j act -> nth_error (ivs s) j = Some a -> reg a = r -> fixed a = true -> forall a1, fixed a1 = true -> sel a1 = Ok true -> False) ->
    evict blocks act sel r from s = Ok s' -> ready s' k i f0.
  Proof.
    intros [V NU Hk [F1 [F2 F3]] CO Ff] R0 Hf H. destruct (evict_ok blocks fixeds vars Hb r from sel R0 act s s' [k] V Hf H) as [E1 [E2 [E3 [E4 [E5 [E6 E7]]]]]]. pose proof (nth_lt _ _ _ Hk) as LK.
    constructor; [exact E7| |apply E4; [exact Hk|congruence]|repeat split; assumption|apply (evo_class _ _ E2 CO)|exact Ff]. intros K. destruct (E5 k K) as [K'|K']; [contradiction|lia].
  Qed.
  Lemma same_trans a b c : same_lists a b -> same_lists b c -> same_lists a c.
  Proof. intros [A1 [A2 [A3 A4]]] [B1 [B2 [B3 B4]]]. repeat split; congruence. Qed.

  Lemma allocate_block_done s k i from b s' : ready s k i from -> allocate_block classes blocks hint s k = Ok (b, s') -> done s (if b then activate s' k else handle s' k) from.
  Proof.
    intros RD H. pose proof RD as RD0. destruct (ready_from _ _ _ _ RD) as [P0 [O OF]]. destruct RD as [V NU Hk [F1 [F2 F3]] CO Ff].
    unfold allocate_block in H. rewrite (proj2 (get_ok _ _ _) Hk) in H. cbn [bind] in H. rewrite Ff in H. cbn [bind] in H. bnd H to LTo. bnd H w E1. destruct w as [up1 bp1]. bnd H w E2. destruct w as [up bp]. bnd H r E3.
    destruct (first_use i) as [[u uk]|]; [|discriminate]. bnd H p E4. apply get_ok in E4. bnd H bl E5. apply get_ok in E5.
    destruct (block_active_ok _ _ _ CO P0 _ _ _ _ _ (start_pos_ok (cls i)) (start_pos_ok (cls i)) E1) as [Q1 [Q1' [_ [_ A1]]]].
    destruct (block_inactive_ok _ i _ CO P0 O OF (fun j a K => i_ord _ _ _ _ _ V j a K) _ _ _ _ _ Q1 Q1' E2) as [Q2 [Q2' [D2 [D2' A2]]]].
    pose proof (find_block_ok _ _ _ _ _ _ (or_introl eq_refl) E3) as FB.
    destruct ((r =? 0)%nat || (p <? u)) eqn:RP.
    { destruct (is_must uk && (u =? from)); [discriminate|]. bnd H s1 E6. injection H as <- <-. apply (spill0_done _ _ _ _ _ RD0 E6). }
    assert (R0 : r <> 0%nat) by lia. assert (PF : from < p) by (destruct FB as [FB|[p' [FB L]]]; [contradiction|congruence]).
    assert (CR : nth_error classes r = Some (cls i)). { destruct (Q2 r p R0 E4) as [_ K]. destruct (nth_error classes r) as [c|] eqn:E; [destruct (Nat.eq_dec c (cls i)) as [->|D]; [reflexivity|]|]; specialize (K ltac:(congruence)); lia. }
    assert (CJ : forall j ij, nth_error (ivs s) j = Some ij -> reg ij = r -> cls ij = cls i). { intros j ij Hj Rj. pose proof (CO j ij Hj ltac:(congruence)) as K. rewrite Rj, CR in K. congruence. }
    assert (NF : forall j ij, In j (active s) -> nth_error (ivs s) j = Some ij -> reg ij = r -> fixed ij = true -> False).
    { intros j ij Hj Hi Rj Fj. destruct (D2 r p R0 E4) as [y [Y1 Y2]]. pose proof (A1 j ij y Hj Hi (CJ j ij Hi Rj) ltac:(congruence) Fj ltac:(rewrite Rj; exact Y1)). lia. }
    assert (IF : forall j ij z, In j (inactive s) -> nth_error (ivs s) j = Some ij -> reg ij = r -> fixed ij = true -> covers (ranges ij) z -> covers (ranges i) z -> z < bl -> False).
    { intros j ij z Hj Hi Rj Fj C C' LB. destruct (A2 j ij bl Hj Hi (CJ j ij Hi Rj) ltac:(congruence) Fj ltac:(rewrite Rj; exact E5)) as [q [Q LQ]].
      destruct (next_intersect_ok blocks i ij q Hb O (i_ord _ _ _ _ _ V j ij Hi) OF Q) as [_ NI]. apply (NI z ltac:(lia) C' C). }
    assert (ZF : forall z, covers (ranges i) z -> from <= z < to) by (intros z C; split; [apply (first_bound i from z O Ff C)|apply (last_bound i to z O LTo C)]).
    assert (NI : forall i1 z, ordered (ranges i1) -> is_intersect i i1 = Ok false -> covers (ranges i1) z -> covers (ranges i) z -> False).
    { intros i1 z O1 HI C C'. destruct (is_intersect_ok i i1 false O1 HI) as [f' [t' [G1 [G2 G3]]]]. assert (false = true); [|discriminate]. apply G3. exists z. split; [|exact C]. specialize (ZF z C'). assert (f' = from /\ t' = to) as [-> ->] by (split; congruence). exact ZF. }
    destruct (to <=? bl) eqn:TB.
    - bnd H s1 E6. bnd H s2 E7. bnd H s3 E8. injection H as <- <-.
      assert (H1 : forall j a, In j (active s) -> nth_error (ivs s) j = Some a -> reg a = r -> fixed a = true -> forall a1, fixed a1 = true -> is_intersect i a1 = Ok true -> False) by (intros j a Hj Ha Ra Fa; destruct (NF j a Hj Ha Ra Fa)).
      assert (H2 : forall j a, In j (inactive s1) -> nth_error (ivs s1) j = Some a -> reg a = r -> fixed a = true -> forall a1, fixed a1 = true -> (b0 <- is_intersect i a1 ;; Ok (b0 && negb (fixed a1))) = Ok true -> False).
      { intros j a _ _ _ _ a1 F HI. bnd HI b0 E. rewrite F, andb_false_r in HI. discriminate. }
      destruct (evict_ok blocks fixeds vars Hb r from _ R0 _ s s1 [k] V H1 E6) as [X1 [X2 [X3 [X4 [X5 [X6 X7]]]]]].
      destruct (evict_ok blocks fixeds vars Hb r from _ R0 _ s1 s2 [k] X7 H2 E7) as [Y1 [Y2 [Y3 [Y4 [Y5 [Y6 Y7]]]]]].
      pose proof (evict_ready _ _ _ _ _ _ _ _ _ (evict_ready _ _ _ _ _ _ _ _ _ RD0 R0 H1 E6) R0 H2 E7) as RD2.
      apply (finish _ _ _ _ _ _ _ RD2 CR E8 (same_trans _ _ _ X1 Y1) ltac:(lia) (evo_trans _ _ _ X2 Y2)).
      intros NC L j ij z D Hj Rj C C'. destruct (evo_old _ _ _ _ Y2 Hj ltac:(congruence)) as [ij1 [Hj1 [Sj1 Rj1]]]. destruct (evo_old _ _ _ _ X2 Hj1 ltac:(congruence)) as [ij0 [Hj0 [Sj0 Rj0]]].
      assert (C1 : covers (ranges ij1) z) by (apply Sj1; exact C). assert (C0 : covers (ranges ij0) z) by (apply Sj0; exact C1).
      destruct (L j ij0 Hj0 ltac:(congruence)) as [K|[K|K]].
      + destruct (X6 j ij0 ij1 K Hj0 Hj1 ltac:(congruence)) as [[i1 [S1 [S2 [S3 S4]]]]|S4]; [|specialize (S4 z C1); specialize (ZF z C'); lia]. apply (NI i1 z S3 S4); [apply S2; exact C1|exact C'].
      + assert (K1 : In j (inactive s1)) by (destruct X1 as [_ [-> _]]; exact K). destruct (Y6 j ij1 ij K1 Hj1 Hj Rj) as [[i1 [S1 [S2 [S3 S4]]]]|S4]; [|specialize (S4 z C); specialize (ZF z C'); lia].
        bnd S4 b0 E. destruct b0; [|apply (NI i1 z S3 E); [apply S2; exact C|exact C']]. cbn [andb] in S4. assert (F1' : fixed i1 = true) by (destruct (fixed i1); [reflexivity|discriminate]).
        assert (F0 : fixed ij0 = true). { destruct S1 as [S1 _], Sj0 as [Sj0 _]. congruence. } specialize (ZF z C'). apply (IF j ij0 z K Hj0 ltac:(congruence) F0 C0 C'). lia.
      + specialize (K z C0). specialize (ZF z C'). lia.
    - bnd H s1 E6. bnd H s2 E7. bnd H q E8. bnd H w E9. destruct w as [l c]. bnd H s3 E10. bnd H s4 E11. injection H as <- <-.
      assert (H1 : forall j a, In j (active s) -> nth_error (ivs s) j = Some a -> reg a = r -> fixed a = true -> forall a1 : ivl, fixed a1 = true -> Ok true = Ok true -> False) by (intros j a Hj Ha Ra Fa; destruct (NF j a Hj Ha Ra Fa)).
      assert (H2 : forall j a, In j (inactive s1) -> nth_error (ivs s1) j = Some a -> reg a = r -> fixed a = true -> forall a1, fixed a1 = true -> Ok (negb (fixed a1)) = Ok true -> False).
      { intros j a _ _ _ _ a1 F HI. rewrite F in HI. discriminate. }
      destruct (evict_ok blocks fixeds vars Hb r from (fun _ => Ok true) R0 _ s s1 [k] V H1 E6) as [X1 [X2 [X3 [X4 [X5 [X6 X7]]]]]].
      destruct (evict_ok blocks fixeds vars Hb r from _ R0 _ s1 s2 [k] X7 H2 E7) as [Y1 [Y2 [Y3 [Y4 [Y5 [Y6 Y7]]]]]].
      pose proof (evict_ready _ (fun _ => Ok true) _ _ _ _ _ _ _ RD0 R0 H1 E6) as RD1.
      pose proof (evict_ready _ _ _ _ _ _ _ _ _ RD1 R0 H2 E7) as RD2.
      destruct (back_ok _ _ _ _ _ _ _ _ RD2 E9 E10) as [RD3 [B1 [B2 [B3 B4]]]]. pose proof (optimal_split_ok _ _ _ _ Hb E8) as LQ.
      apply (finish s s3 _ _ _ _ _ RD3 CR E11 (same_trans _ _ _ (same_trans _ _ _ X1 Y1) B1) ltac:(lia) (evo_trans _ _ _ (evo_trans _ _ _ X2 Y2) B2)).
      intros NC L j ij z D Hj Rj C C'. cbn [with_ranges ranges] in C'. apply left_covers in C'. destruct C' as [C' LZ].
      destruct (evo_old _ _ _ _ B2 Hj ltac:(congruence)) as [ij2 [Hj2 [Sj2 Rj2]]]. destruct (evo_old _ _ _ _ Y2 Hj2 ltac:(congruence)) as [ij1 [Hj1 [Sj1 Rj1]]]. destruct (evo_old _ _ _ _ X2 Hj1 ltac:(congruence)) as [ij0 [Hj0 [Sj0 Rj0]]].
      assert (C2 : covers (ranges ij2) z) by (apply Sj2; exact C). assert (C1 : covers (ranges ij1) z) by (apply Sj1; exact C2). assert (C0 : covers (ranges ij0) z) by (apply Sj0; exact C1).
      destruct (L j ij0 Hj0 ltac:(congruence)) as [K|[K|K]].
      + destruct (X6 j ij0 ij1 K Hj0 Hj1 ltac:(congruence)) as [[i1 [S1 [S2 [S3 S4]]]]|S4]; [discriminate|specialize (S4 z C1); specialize (ZF z C'); lia].
      + assert (K1 : In j (inactive s1)) by (destruct X1 as [_ [-> _]]; exact K). destruct (Y6 j ij1 ij2 K1 Hj1 Hj2 ltac:(congruence)) as [[i1 [S1 [S2 [S3 S4]]]]|S4]; [|specialize (S4 z C2); specialize (ZF z C'); lia].
        assert (F1' : fixed i1 = true) by (destruct (fixed i1); [reflexivity|discriminate]).
        assert (F0 : fixed ij0 = true). { destruct S1 as [S1 _], Sj0 as [Sj0 _]. congruence. } apply (IF j ij0 z K Hj0 ltac:(congruence) F0 C0 C'). lia.
      + specialize (K z C0). specialize (ZF z C'). lia.
  Qed.

  (** ** One round *)
  Lemma expired_ok i p b : ordered (ranges i) -> expired i p false = Ok b -> b = true -> forall x, covers (ranges i) x -> x < p.
  Proof. unfold expired. intros O H B x C. bnd H t E. injection H as <-. pose proof (last_bound i t x O E C). lia. Qed.
  Lemma sift_active_ok l p : (forall k i, nth_error l k = Some i -> ordered (ranges i)) -> forall act stay move dn, sift_active l act p = Ok (stay, move, dn) ->
    forall k i, In k act -> nth_error l k = Some i -> In k stay \/ In k move \/ forall x, covers (ranges i) x -> x < p.
  Proof.
    intros OA. induction act as [|j act IH]; intros stay move dn H k i Hk Hi; [destruct Hk|]. cbn [sift_active] in H. bnd H a E1. apply get_ok in E1. bnd H e E2. bnd H c E3. bnd H w E4. destruct w as [[st mv] d].
    assert (T : forall k i, In k act -> nth_error l k = Some i -> In k st \/ In k mv \/ forall x, covers (ranges i) x -> x < p) by (intros k' i'; apply (IH st mv d eq_refl)).
    destruct e.
    - rewrite orb_true_r in H. injection H as <- <- <-. destruct Hk as [<-|Hk]; [|apply (T k i Hk Hi)]. rewrite E1 in Hi. injection Hi as <-. right. right. apply (expired_ok a p true (OA j a E1) E2 eq_refl).
    - destruct (negb c || false); injection H as <- <- <-; (destruct Hk as [<-|Hk]; [|destruct (T k i Hk Hi) as [K|[K|K]]]); cbn [In]; auto.
  Qed.
  Lemma sift_inactive_ok l p : (forall k i, nth_error l k = Some i -> ordered (ranges i)) -> forall act stay move dn, sift_inactive l act p = Ok (stay, move, dn) ->
    forall k i, In k act -> nth_error l k = Some i -> In k stay \/ In k move \/ forall x, covers (ranges i) x -> x < p.
  Proof.
    intros OA. induction act as [|j act IH]; intros stay move dn H k i Hk Hi; [destruct Hk|]. cbn [sift_inactive] in H. bnd H a E1. apply get_ok in E1. bnd H e E2. bnd H c E3. bnd H w E4. destruct w as [[st mv] d].
    assert (T : forall k i, In k act -> nth_error l k = Some i -> In k st \/ In k mv \/ forall x, covers (ranges i) x -> x < p) by (intros k' i'; apply (IH st mv d eq_refl)).
    destruct e.
    - rewrite orb_true_r in H. injection H as <- <- <-. destruct Hk as [<-|Hk]; [|apply (T k i Hk Hi)]. rewrite E1 in Hi. injection Hi as <-. right. right. apply (expired_ok a p true (OA j a E1) E2 eq_refl).
    - destruct (c || false); injection H as <- <- <-; (destruct Hk as [<-|Hk]; [|destruct (T k i Hk Hi) as [K|[K|K]]]); cbn [In]; auto.
  Qed.

  Lemma step_ok s k un s' : unhandled s = k :: un -> Inv (ivs s) (unhandled s) [] -> class_ok (ivs s) -> step classes blocks hint s = Ok s' ->
    exists from, Inv (ivs s') (unhandled s') [] /\ class_ok (ivs s') /\ slack (ivs s) (unhandled s) + 1 <= slack (ivs s') (unhandled s') /\ seen s' = from :: seen s /\ 0 <= from /\
      forall p, p <= from -> no_clash (ivs s) -> located (ivs s) (active s) (inactive s) p -> no_clash (ivs s') /\ located (ivs s') (active s') (inactive s') from.
  Proof.
    intros U V CO H. unfold step in H. rewrite U in H. cbv zeta in H. cbn [ivs active inactive handled seen unhandled] in H. rewrite U in V. destruct (pop_Inv _ _ _ _ _ V) as [V1 [NU [i [Hk Fr]]]].
    rewrite (proj2 (get_ok _ _ _) Hk) in H. cbn [bind] in H. pose proof Fr as Fr0. destruct Fr as [F1 [F2 F3]]. rewrite F1 in H. cbn [Nat.eqb negb] in H. bnd H from Ff. bnd H w E1. destruct w as [[stay move] dn]. bnd H w E2. destruct w as [[stay' move'] dn'].
    set (s1 := mk_st (ivs s) un (stay ++ move') stay' (handled s ++ dn ++ dn') (from :: seen s)) in *.
    assert (RD : ready s1 k i from) by (constructor; assumption).
    exists from.
    assert (LC : forall p, p <= from -> located (ivs s) (active s) (inactive s) p -> located (ivs s1) (active s1) (inactive s1) from).
    { intros p LP L j ij Hj Rj. cbn [s1 ivs active inactive] in *. pose proof (fun a b (K : nth_error (ivs s) a = Some b) => i_ord _ _ _ _ _ V1 a b K) as OA.
      assert (T : In j (inactive s ++ move) -> In j (stay ++ move') \/ In j stay' \/ forall x, covers (ranges ij) x -> x < from).
      { intros K. destruct (sift_inactive_ok _ _ OA _ _ _ _ E2 j ij K Hj) as [Q|[Q|Q]]; [right; left; exact Q|left; apply in_or_app; right; exact Q|right; right; exact Q]. }
      destruct (L j ij Hj Rj) as [K|[K|K]].
      - destruct (sift_active_ok _ _ OA _ _ _ _ E1 j ij K Hj) as [Q|[Q|Q]]; [left; apply in_or_app; left; exact Q|apply T; apply in_or_app; right; exact Q|right; right; exact Q].
      - apply T. apply in_or_app. left. exact K.
      - right. right. intros x C. specialize (K x C). lia. }
    assert (G : done s1 s' from).
    { assert (GU : forall s'', (s2 <- spill blocks s1 k 0 ;; Ok (handle s2 k)) = Ok s'' -> done s1 s'' from) by (intros s'' E; bnd E s2 E'; injection E as <-; apply (spill0_done _ _ _ _ _ RD E')).
      destruct (first_use i) as [[u uk]|]; [|apply (GU _ H)]. destruct (is_stack uk); [apply (GU _ H)|].
      destruct (negb (is_must uk) && match stack_pos i with Some p => p - u <? use_min | None => false end); [apply (GU _ H)|]. destruct (remat i); [apply (GU _ H)|].
      bnd H o E3. destruct o as [s2|]; [injection H as <-; apply (allocate_free_done _ _ _ _ _ RD E3)|]. bnd H w E4. destruct w as [b s2]. injection H as <-. apply (allocate_block_done _ _ _ _ _ _ RD E4). }
    destruct G as [G1 G2 G3 G4 G5]. split; [exact G1|]. split; [exact G2|]. split; [unfold slack in *; rewrite U; cbn [s1 ivs unhandled] in G3; cbn [length]; lia|]. split; [exact G4|]. split; [exact (proj1 (ready_from _ _ _ _ RD))|].
    intros p LP N L. apply G5; [exact N|apply (LC p LP L)].
  Qed.

  (** ** The walk *)
  Lemma seen_walk : forall fuel s s', walk classes blocks hint fuel s = Ok s' -> Inv (ivs s) (unhandled s) [] -> class_ok (ivs s) ->
    Inv (ivs s') [] [] /\ unhandled s' = [] /\ class_ok (ivs s') /\ (exists more, seen s' = more ++ seen s) /\
    (forward (seen s') -> no_clash (ivs s) -> (exists p, located (ivs s) (active s) (inactive s) p /\ match seen s with q :: _ => p = q | [] => p = 0 end) -> no_clash (ivs s')).
  Proof.
    induction fuel as [|fuel IH]; intros s s' H V CO; cbn [walk] in H; destruct (unhandled s) as [|k un] eqn:U; try discriminate.
    - injection H as <-. split; [exact V|]. split; [exact U|]. split; [exact CO|]. split; [exists []; reflexivity|auto].
    - injection H as <-. split; [exact V|]. split; [exact U|]. split; [exact CO|]. split; [exists []; reflexivity|auto].
    - bnd H s1 E. destruct (step_ok s k un s1 U ltac:(rewrite U; exact V) CO E) as [from [S1 [S2 [S3 [S4 [S0 S5]]]]]]. destruct (IH s1 s' H S1 S2) as [A1 [A2 [A3 [[more A4] A5]]]].
      split; [exact A1|]. split; [exact A2|]. split; [exact A3|]. split; [exists (more ++ [from]); rewrite A4, S4, <- app_assoc; reflexivity|].
      intros FW NC [p [L P]]. assert (LE : p <= from).
      { rewrite A4, S4 in FW. clear -FW P S0.
        assert (F2 : forward (from :: seen s)) by (induction more as [|m more IHm]; [exact FW|]; cbn [app forward] in FW; apply IHm; apply FW).
        destruct (seen s) as [|q sn]; [|cbn [forward] in F2; lia]. subst p.
        exact S0. }
      destruct (S5 p LE NC L) as [N1 L1]. apply A5; [exact FW|exact N1|]. exists from. split; [exact L1|]. rewrite S4. reflexivity.
  Qed.
End Step.
