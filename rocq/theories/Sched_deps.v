(** The dependency graph: which pairs it orders. *)
From Coq Require Import Permutation.
From Verif Require Import Base Sched_model Sched_spec Sched_proof.
Local Open Scope nat_scope.

Lemma has_edge_In : forall a b es, has_edge a b es = true <-> In (a, b) es.
Proof.
  intros a b es. unfold has_edge. rewrite existsb_exists. split.
  - intros ((x & y) & H & E). cbn in E. apply andb_true_iff in E. destruct E as (E1 & E2). apply Nat.eqb_eq in E1, E2. subst. exact H.
  - intros H. exists (a, b). split; [exact H|]. cbn. rewrite !Nat.eqb_refl. reflexivity.
Qed.

(** [es'] has the edges of [es] and some more, into [i] from before. *)
Record ext (i : nat) (es es' : edges) : Prop := mk_ext {
  x_in : forall e, In e es -> In e es';
  x_new : forall e, In e es' -> In e es \/ exists a, a < i /\ e = (a, i);
  x_nd : NoDup es -> NoDup es' }.
Lemma ext_refl : forall i es, ext i es es.
Proof. intros. split; auto. Qed.
Lemma ext_trans : forall i a b c, ext i a b -> ext i b c -> ext i a c.
Proof.
  intros i a b c H1 H2. split.
  - intros e H. apply (x_in _ _ _ H2), (x_in _ _ _ H1), H.
  - intros e H. apply (x_new _ _ _ H2) in H. destruct H as [H|H]; [apply (x_new _ _ _ H1); exact H|right; exact H].
  - intros H. apply (x_nd _ _ _ H2), (x_nd _ _ _ H1), H.
Qed.
Lemma NoDup_snoc : forall {A} (l : list A) x, NoDup l -> ~ In x l -> NoDup (l ++ [x]).
Proof.
  intros A l x H N. apply Permutation_NoDup with (x :: l); [apply Permutation_cons_append|]. constructor; assumption.
Qed.
Lemma add_from_ext : forall i t es, (forall a, t = Some a -> a <= i) -> ext i es (add_from t i es).
Proof.
  intros i [a|] es H; [|apply ext_refl]. cbn [add_from]. unfold add_dep. destruct (Nat.eqb a i) eqn:E; [apply ext_refl|].
  destruct (has_edge a i es) eqn:E2; [apply ext_refl|]. apply Nat.eqb_neq in E. specialize (H a eq_refl). split.
  - intros e He. apply in_app_iff. left. exact He.
  - intros e He. apply in_app_iff in He. destruct He as [He|[<-|[]]]; [left; exact He|right; exists a; split; [lia|reflexivity]].
  - intros Hn. apply NoDup_snoc; [exact Hn|]. intros X. apply has_edge_In in X. congruence.
Qed.
Lemma add_from_In : forall i a es, a <> i -> In (a, i) (add_from (Some a) i es).
Proof.
  intros i a es H. cbn [add_from]. unfold add_dep. destruct (Nat.eqb a i) eqn:E; [apply Nat.eqb_eq in E; contradiction|].
  destruct (has_edge a i es) eqn:E2; [apply has_edge_In; exact E2|]. apply in_app_iff. right. left. reflexivity.
Qed.

Definition upto (i : nat) (t : table) : Prop := forall x a, t x = Some a -> a <= i.
Lemma set_upto : forall i t x, upto i t -> upto i (set t x i).
Proof. intros i t x H y a. unfold set. destruct (Nat.eqb y x); [intros E; injection E as <-; lia|apply H]. Qed.

Lemma fold_var_use : forall i l d, upto i (d_var d) -> let d' := fold_left (dep_var_use i) l d in
  d_var d' = d_var d /\ d_reg d' = d_reg d /\ d_use d' = d_use d /\ d_mem d' = d_mem d /\
  ext i (d_edges d) (d_edges d') /\
  (forall x k, In x l -> d_var d x = Some k -> k <> i -> In (k, i) (d_edges d')).
Proof.
  intros i l. induction l as [|y l IH]; intros d H; cbn [fold_left].
  - repeat (split; [reflexivity|]). split; [apply ext_refl|]. intros x k [].
  - destruct (IH (dep_var_use i d y) H) as (E1 & E2 & E3 & E4 & E5 & E6). cbn [dep_var_use d_var d_reg d_use d_mem d_edges] in *.
    repeat (split; [assumption|]). split.
    + eapply ext_trans; [|exact E5]. apply add_from_ext. intros a. apply H.
    + intros x k [->|Hx] Hk Hn; [|apply E6 with x; assumption].
      apply (x_in _ _ _ E5). rewrite Hk. apply add_from_In. exact Hn.
Qed.
Lemma fold_var_def : forall i l d, let d' := fold_left (dep_var_def i) l d in
  (forall x, d_var d' x = if existsb (Nat.eqb x) l then Some i else d_var d x) /\
  d_reg d' = d_reg d /\ d_use d' = d_use d /\ d_mem d' = d_mem d /\ d_edges d' = d_edges d.
Proof.
  intros i l. induction l as [|y l IH]; intros d; cbn [fold_left].
  - repeat (split; [reflexivity|]). reflexivity.
  - destruct (IH (dep_var_def i d y)) as (E1 & E2 & E3 & E4 & E5). cbn [dep_var_def d_var d_reg d_use d_mem d_edges] in *.
    split; [|repeat (split; [assumption|]); assumption]. intros x. rewrite E1. cbn [existsb]. unfold set.
    destruct (existsb (Nat.eqb x) l); [rewrite orb_true_r; reflexivity|]. rewrite orb_false_r. reflexivity.
Qed.
Lemma fold_reg_use : forall i l d, upto i (d_reg d) -> let d' := fold_left (dep_reg_use i) l d in
  d_var d' = d_var d /\ d_reg d' = d_reg d /\
  (forall x, d_use d' x = if existsb (Nat.eqb x) l then Some i else d_use d x) /\ d_mem d' = d_mem d /\
  ext i (d_edges d) (d_edges d') /\
  (forall x k, In x l -> d_reg d x = Some k -> k <> i -> In (k, i) (d_edges d')).
Proof.
  intros i l. induction l as [|y l IH]; intros d H; cbn [fold_left].
  - repeat (split; [reflexivity|]). split; [apply ext_refl|]. intros x k [].
  - destruct (IH (dep_reg_use i d y) H) as (E1 & E2 & E3 & E4 & E5 & E6). cbn [dep_reg_use d_var d_reg d_use d_mem d_edges] in *.
    split; [exact E1|]. split; [exact E2|]. split; [|split; [exact E4|split]].
    + intros x. rewrite E3. cbn [existsb]. unfold set.
      destruct (existsb (Nat.eqb x) l); [rewrite orb_true_r; reflexivity|]. rewrite orb_false_r. reflexivity.
    + eapply ext_trans; [|exact E5]. apply add_from_ext. intros a. apply H.
    + intros x k [->|Hx] Hk Hn; [|apply E6 with x; assumption].
      apply (x_in _ _ _ E5). rewrite Hk. apply add_from_In. exact Hn.
Qed.
Lemma fold_reg_def : forall i l d, upto i (d_reg d) -> upto i (d_use d) -> let d' := fold_left (dep_reg_def i) l d in
  d_var d' = d_var d /\
  (forall x, d_reg d' x = if existsb (Nat.eqb x) l then Some i else d_reg d x) /\
  d_use d' = d_use d /\ d_mem d' = d_mem d /\
  ext i (d_edges d) (d_edges d') /\
  (forall x k, In x l -> d_reg d x = Some k -> k <> i -> In (k, i) (d_edges d')) /\
  (forall x k, In x l -> d_use d x = Some k -> k <> i -> In (k, i) (d_edges d')).
Proof.
  intros i l. induction l as [|y l IH]; intros d H H2; cbn [fold_left].
  - repeat (split; [reflexivity|]). split; [apply ext_refl|]. split; intros x k [].
  - destruct (IH (dep_reg_def i d y) (set_upto _ _ _ H) H2) as (E1 & E2 & E3 & E4 & E5 & E6 & E7).
    cbn [dep_reg_def d_var d_reg d_use d_mem d_edges] in *.
    assert (X1 : ext i (d_edges d) (add_from (d_reg d y) i (d_edges d))) by (apply add_from_ext; intros a; apply H).
    assert (X2 : ext i (add_from (d_reg d y) i (d_edges d)) (add_from (d_use d y) i (add_from (d_reg d y) i (d_edges d)))) by (apply add_from_ext; intros a; apply H2).
    split; [exact E1|]. split; [|split; [exact E3|split; [exact E4|split; [|split]]]].
    + intros x. rewrite E2. cbn [existsb]. unfold set.
      destruct (existsb (Nat.eqb x) l); [rewrite orb_true_r; reflexivity|]. rewrite orb_false_r. reflexivity.
    + eapply ext_trans; [|exact E5]. eapply ext_trans; eassumption.
    + intros x k Hx Hk Hn. destruct (Nat.eq_dec x y) as [->|N].
      * apply (x_in _ _ _ E5), (x_in _ _ _ X2). rewrite Hk. apply add_from_In. exact Hn.
      * destruct Hx as [->|Hx]; [congruence|]. apply E6 with x; [exact Hx| |exact Hn]. unfold set.
        destruct (Nat.eqb x y) eqn:Q; [apply Nat.eqb_eq in Q; contradiction|exact Hk].
    + intros x k [->|Hx] Hk Hn; [|apply E7 with x; assumption].
      apply (x_in _ _ _ E5). rewrite Hk. apply add_from_In. exact Hn.
Qed.

Section build.
  Variable ops : list op.
  Definition nd (i : nat) : op := nth i ops no_op.
  Definition vdef x i := In x (var_defs (nd i)).
  Definition vuse x i := In x (var_uses (nd i)).
  Definition rdef x i := In x (reg_defs (nd i)).
  Definition ruse x i := In x (reg_uses (nd i)).
  Definition memop i := mem_read (nd i) || mem_write (nd i) = true.

  Definition last (P : nat -> Prop) (n k : nat) : Prop := k < n /\ P k /\ forall m, k < m < n -> ~ P m.
  Definition known (P : nat -> Prop) (n : nat) (t : option nat) : Prop :=
    match t with Some k => last P n k | None => forall m, m < n -> ~ P m end.

  Lemma last_unique : forall P n a b, last P n a -> last P n b -> a = b.
  Proof.
    intros P n a b (A1 & A2 & A3) (B1 & B2 & B3). destruct (Nat.lt_trichotomy a b) as [H|[H|H]]; [|exact H|]; exfalso.
    - apply (A3 b); [lia|exact B2].
    - apply (B3 a); [lia|exact A2].
  Qed.
  Lemma known_last : forall P n t k, known P n t -> last P n k -> t = Some k.
  Proof.
    intros P n [a|] k H L; cbn in H; [f_equal; eapply last_unique; eassumption|]. destruct L as (L1 & L2 & _). exfalso. eapply H; eassumption.
  Qed.
  Lemma known_yes : forall (P : nat -> Prop) n, P n -> known P (S n) (Some n).
  Proof. intros P n H. split; [lia|]. split; [exact H|]. intros m Hm. lia. Qed.
  Lemma known_no : forall (P : nat -> Prop) n t, ~ P n -> known P n t -> known P (S n) t.
  Proof.
    intros P n [k|] N H; cbn in *.
    - destruct H as (H1 & H2 & H3). split; [lia|]. split; [exact H2|]. intros m Hm. destruct (Nat.eq_dec m n) as [->|]; [exact N|apply H3; lia].
    - intros m Hm. destruct (Nat.eq_dec m n) as [->|]; [exact N|apply H; lia].
  Qed.
  Lemma known_upto : forall P n t k, known P n t -> t = Some k -> k < n.
  Proof. intros P n t k H ->. exact (proj1 H). Qed.

  Record binv (n : nat) (d : deps) : Prop := mk_binv {
    b_var : forall x, known (vdef x) n (d_var d x);
    b_reg : forall x, known (rdef x) n (d_reg d x);
    b_use : forall x, known (ruse x) n (d_use d x);
    b_mem : known memop n (d_mem d);
    b_lt : forall a b, In (a, b) (d_edges d) -> a < b < n;
    b_nd : NoDup (d_edges d);
    b_V : forall j x k, j < n -> vuse x j -> last (vdef x) j k -> In (k, j) (d_edges d);
    b_R1 : forall j x k, j < n -> ruse x j -> last (rdef x) j k -> In (k, j) (d_edges d);
    b_R2 : forall j x k, j < n -> rdef x j -> last (rdef x) j k -> In (k, j) (d_edges d);
    b_R3 : forall j x k, j < n -> rdef x j -> ~ ruse x j -> last (ruse x) j k -> In (k, j) (d_edges d);
    b_M : forall j k, j < n -> memop j -> last memop j k -> In (k, j) (d_edges d) }.

  Lemma binv_step : forall n d, binv n d -> binv (S n) (dep_op n (nd n) d).
  Proof.
    intros n d I. unfold dep_op.
    assert (U1 : upto n (d_var d)) by (intros x a E; apply (known_upto _ _ _ _ (b_var _ _ I x)) in E; lia).
    destruct (fold_var_use n (var_uses (nd n)) d U1) as (A1 & A2 & A3 & A4 & A5 & A6).
    set (d1 := fold_left (dep_var_use n) (var_uses (nd n)) d) in *.
    destruct (fold_var_def n (var_defs (nd n)) d1) as (B1 & B2 & B3 & B4 & B5).
    set (d2 := fold_left (dep_var_def n) (var_defs (nd n)) d1) in *.
    assert (U2 : upto n (d_reg d2)) by (intros x a E; rewrite B2, A2 in E; apply (known_upto _ _ _ _ (b_reg _ _ I x)) in E; lia).
    destruct (fold_reg_use n (reg_uses (nd n)) d2 U2) as (C1 & C2 & C3 & C4 & C5 & C6).
    set (d3 := fold_left (dep_reg_use n) (reg_uses (nd n)) d2) in *.
    assert (U3 : upto n (d_reg d3)) by (intros x a E; rewrite C2 in E; apply U2 in E; exact E).
    assert (U4 : upto n (d_use d3)).
    { intros x a E. rewrite C3 in E. destruct (existsb _ _); [injection E as <-; lia|]. rewrite B3, A3 in E.
      apply (known_upto _ _ _ _ (b_use _ _ I x)) in E. lia. }
    destruct (fold_reg_def n (reg_defs (nd n)) d3 U3 U4) as (D1 & D2 & D3 & D4 & D5 & D6 & D7).
    set (d4 := fold_left (dep_reg_def n) (reg_defs (nd n)) d3) in *.
    assert (EM : d_mem d4 = d_mem d) by (rewrite D4, C4, B4, A4; reflexivity).
    assert (T : let d5 := dep_mem n (nd n) d4 in
      d_var d5 = d_var d4 /\ d_reg d5 = d_reg d4 /\ d_use d5 = d_use d4 /\
      d_mem d5 = (if mem_read (nd n) || mem_write (nd n) then Some n else d_mem d4) /\
      ext n (d_edges d4) (d_edges d5) /\
      (forall k, memop n -> d_mem d4 = Some k -> In (k, n) (d_edges d5))).
    { cbn zeta. unfold dep_mem, memop. destruct (mem_read (nd n) || mem_write (nd n)); cbn [d_var d_reg d_use d_mem d_edges].
      - repeat (split; [reflexivity|]). assert (X : forall a, d_mem d4 = Some a -> a < n) by (intros a E; rewrite EM in E; exact (known_upto _ _ _ _ (b_mem _ _ I) E)).
        split; [apply add_from_ext; intros a E; apply X in E; lia|]. intros k _ E. rewrite E. apply add_from_In. apply X in E. lia.
      - repeat (split; [reflexivity|]). split; [apply ext_refl|]. intros k F. discriminate F. }
    cbn zeta in T. destruct T as (F1 & F2 & F3 & F4 & F5 & F6).
    set (d5 := dep_mem n (nd n) d4) in *.
    assert (X5 : ext n (d_edges d3) (d_edges d5)) by (eapply ext_trans; eassumption).
    assert (X4 : ext n (d_edges d1) (d_edges d5)) by (eapply ext_trans; [rewrite <- B5; exact C5|exact X5]).
    assert (XX : ext n (d_edges d) (d_edges d5)) by (eapply ext_trans; eassumption).
    assert (L : forall j (Q : Prop), j < S n -> (j < n -> Q) -> (j = n -> Q) -> Q) by (intros j Q Hj H1 H2; destruct (Nat.eq_dec j n); [auto|apply H1; lia]).
    assert (Y : forall (P : nat -> Prop) k, last P n k -> k <> n) by (intros P k (K & _); lia).
    split.
    - intros x. rewrite F1, D1, C1, B1, A1. destruct (existsb (Nat.eqb x) (var_defs (nd n))) eqn:E.
      + apply known_yes. apply existsb_eqb_In. exact E.
      + apply known_no; [|apply (b_var _ _ I)]. intros X. apply existsb_eqb_In in X. congruence.
    - intros x. rewrite F2, D2, C2, B2, A2. destruct (existsb (Nat.eqb x) (reg_defs (nd n))) eqn:E.
      + apply known_yes. apply existsb_eqb_In. exact E.
      + apply known_no; [|apply (b_reg _ _ I)]. intros X. apply existsb_eqb_In in X. congruence.
    - intros x. rewrite F3, D3, C3, B3, A3. destruct (existsb (Nat.eqb x) (reg_uses (nd n))) eqn:E.
      + apply known_yes. apply existsb_eqb_In. exact E.
      + apply known_no; [|apply (b_use _ _ I)]. intros X. apply existsb_eqb_In in X. congruence.
    - rewrite F4, EM. destruct (mem_read (nd n) || mem_write (nd n)) eqn:E.
      + apply known_yes. exact E.
      + apply known_no; [|apply (b_mem _ _ I)]. unfold memop. congruence.
    - intros a b H. apply (x_new _ _ _ XX) in H. destruct H as [H|(c & Hc & E)].
      + apply (b_lt _ _ I) in H. lia.
      + injection E as -> ->. lia.
    - apply (x_nd _ _ _ XX). exact (b_nd _ _ I).
    - intros j x k Hj Hu Hl. revert Hu Hl. apply (L j); [exact Hj| |].
      + intros H Hu Hl. apply (x_in _ _ _ XX). exact (b_V _ _ I j x k H Hu Hl).
      + intros -> Hu Hl. apply (x_in _ _ _ X4). apply A6 with x; [exact Hu|eapply known_last; [apply (b_var _ _ I)|exact Hl]|eapply Y; exact Hl].
    - intros j x k Hj Hu Hl. revert Hu Hl. apply (L j); [exact Hj| |].
      + intros H Hu Hl. apply (x_in _ _ _ XX). exact (b_R1 _ _ I j x k H Hu Hl).
      + intros -> Hu Hl. apply (x_in _ _ _ X5). apply C6 with x; [exact Hu| |eapply Y; exact Hl].
        rewrite B2, A2. eapply known_last; [apply (b_reg _ _ I)|exact Hl].
    - intros j x k Hj Hu Hl. revert Hu Hl. apply (L j); [exact Hj| |].
      + intros H Hu Hl. apply (x_in _ _ _ XX). exact (b_R2 _ _ I j x k H Hu Hl).
      + intros -> Hu Hl. apply (x_in _ _ _ F5). apply D6 with x; [exact Hu| |eapply Y; exact Hl].
        rewrite C2, B2, A2. eapply known_last; [apply (b_reg _ _ I)|exact Hl].
    - intros j x k Hj Hu Hno Hl. revert Hu Hno Hl. apply (L j); [exact Hj| |].
      + intros H Hu Hno Hl. apply (x_in _ _ _ XX). exact (b_R3 _ _ I j x k H Hu Hno Hl).
      + intros -> Hu Hno Hl. apply (x_in _ _ _ F5). apply D7 with x; [exact Hu| |eapply Y; exact Hl].
        rewrite C3. destruct (existsb (Nat.eqb x) (reg_uses (nd n))) eqn:E; [apply existsb_eqb_In in E; contradiction|].
        rewrite B3, A3. eapply known_last; [apply (b_use _ _ I)|exact Hl].
    - intros j k Hj Hu Hl. revert Hu Hl. apply (L j); [exact Hj| |].
      + intros H Hu Hl. apply (x_in _ _ _ XX). exact (b_M _ _ I j k H Hu Hl).
      + intros -> Hu Hl. apply F6; [exact Hu|]. rewrite EM. eapply known_last; [apply (b_mem _ _ I)|exact Hl].
  Qed.

  Lemma binv_build : forall l n d, (forall i, i < length l -> nth i l no_op = nd (n + i)) -> binv n d -> binv (n + length l) (build n l d).
  Proof.
    induction l as [|o l IH]; intros n d H I; cbn [build length]; [rewrite Nat.add_0_r; exact I|].
    rewrite Nat.add_succ_r. change (S (n + length l)) with (S n + length l). apply IH.
    - intros i Hi. specialize (H (S i)). cbn [nth length] in H. rewrite H by lia. f_equal. lia.
    - specialize (H 0). cbn [nth length] in H. rewrite Nat.add_0_r in H. rewrite H by lia. apply binv_step. exact I.
  Qed.
  Lemma binv_final : binv (length ops) (build 0 ops no_deps).
  Proof.
    apply (binv_build ops 0); [reflexivity|]. split; cbn; try (intros; lia); try (intros x m Hm; lia); try (intros m Hm; lia).
    constructor.
  Qed.
End build.
