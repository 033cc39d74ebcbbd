(** Instructions that clash are ordered by the graph; so the new order does the same. *)
From Coq Require Import Permutation.
From Verif Require Import Base Sched_model Sched_spec Sched_proof Sched_deps.
Local Open Scope nat_scope.

Inductive path (es : edges) : nat -> nat -> Prop :=
| P_edge a b : In (a, b) es -> path es a b
| P_step a b c : path es a b -> In (b, c) es -> path es a c.
Lemma path_trans : forall es a b c, path es a b -> path es b c -> path es a c.
Proof.
  intros es a b c H1 H2. induction H2 as [b c H|b c d H IH E]; [eapply P_step; eassumption|].
  eapply P_step; [apply IH; exact H1|exact E].
Qed.

Lemma exists_last : forall (P : nat -> Prop) j i, (forall m, P m \/ ~ P m) -> i < j -> P i ->
  exists k, last P j k /\ i <= k.
Proof.
  intros P j i Hd. induction j as [|j IH]; intros Hi Pi; [lia|].
  destruct (Hd j) as [Pj|Nj].
  - exists j. split; [|lia]. split; [lia|]. split; [exact Pj|]. intros m Hm. lia.
  - destruct (Nat.eq_dec i j) as [->|N]; [contradiction|]. destruct IH as (k & (K1 & K2 & K3) & Hk); [lia|exact Pi|].
    exists k. split; [|exact Hk]. split; [lia|]. split; [exact K2|]. intros m Hm. destruct (Nat.eq_dec m j) as [->|]; [exact Nj|apply K3; lia].
Qed.
Lemma exists_first : forall (P : nat -> Prop) d i, (forall m, P m \/ ~ P m) -> P (S (i + d)) ->
  exists k, i < k <= S (i + d) /\ P k /\ forall m, i < m < k -> ~ P m.
Proof.
  intros P d. induction d as [|d IH]; intros i Hd H.
  - exists (S (i + 0)). split; [lia|]. split; [exact H|]. intros; lia.
  - destruct (Hd (S i)) as [Y|N].
    + exists (S i). split; [lia|]. split; [exact Y|]. intros; lia.
    + destruct (IH (S i) Hd) as (k & K1 & K2 & K3); [replace (S (S i + d)) with (S (i + S d)) by lia; exact H|].
      exists k. split; [lia|]. split; [exact K2|]. intros m Hm. destruct (Nat.eq_dec m (S i)) as [->|]; [exact N|apply K3; lia].
Qed.

(** ** Places and operands *)
Lemma in_PVar : forall x l, In (PVar x) (map PVar l) <-> In x l.
Proof. intros x l. rewrite in_map_iff. split; [intros (y & E & H); injection E as ->; exact H|intros H; exists x; auto]. Qed.
Lemma in_PReg : forall x l, In (PReg x) (map PReg l) <-> In x l.
Proof. intros x l. rewrite in_map_iff. split; [intros (y & E & H); injection E as ->; exact H|intros H; exists x; auto]. Qed.
Lemma inside_var : forall x o, In (PVar x) (inside o) <-> In x (vars_of o).
Proof.
  intros x [[y|r|rs|z|g|vs]|]; cbn; try tauto.
  - split; intros [E|[]]; left; congruence.
  - split; [intros [E|[]]; discriminate|tauto].
  - rewrite in_map_iff. split; [intros (r & E & _); discriminate|tauto].
  - split; [intros [E|[]]; discriminate|tauto].
  - rewrite in_PVar. split; [intros [E|E]; [discriminate|exact E]|auto].
Qed.
Lemma inside_reg : forall x o, In (PReg x) (inside o) <-> In x (regs_of o).
Proof.
  intros x [[y|r|rs|z|g|vs]|]; cbn; try tauto.
  - split; [intros [E|[]]; discriminate|tauto].
  - split; intros [E|[]]; left; congruence.
  - apply in_PReg.
  - split; [intros [E|[]]; discriminate|tauto].
  - rewrite in_map_iff. split; [intros [E|(r & E & _)]; discriminate|tauto].
Qed.
Lemma reads_var : forall x o, In (PVar x) (reads o) <-> In x (var_uses o).
Proof.
  intros x o. unfold reads, var_uses. rewrite !in_app_iff, !inside_var.
  destruct (o_output o) as [[y|r|rs|z|g|vs]|]; cbn; try tauto.
  - split; [intros [?|[?|[?|[?|[]]]]]; try discriminate; tauto|tauto].
  - rewrite in_PVar. split; [intros [?|[?|[?|[?|?]]]]; try discriminate; tauto|tauto].
Qed.
Lemma reads_reg : forall x o, In (PReg x) (reads o) <-> In x (reg_uses o).
Proof.
  intros x o. unfold reads, reg_uses. rewrite !in_app_iff, !inside_reg.
  destruct (o_output o) as [[y|r|rs|z|g|vs]|]; cbn; try tauto.
  - split; [intros [?|[?|[?|[?|[]]]]]; try discriminate; tauto|tauto].
  - rewrite in_map_iff. split; [intros [?|[?|[?|[?|(? & ? & _)]]]]; try discriminate; tauto|tauto].
Qed.
Lemma writes_var : forall x o, In (PVar x) (writes o) <-> In x (var_defs o).
Proof.
  intros x o. unfold writes, var_defs. destruct (o_output o) as [[y|r|rs|z|g|vs]|]; cbn; try tauto.
  - split; intros [E|[]]; left; congruence.
  - split; [intros [E|[]]; discriminate|tauto].
  - rewrite in_map_iff. split; [intros (r & E & _); discriminate|tauto].
  - split; [intros [E|[]]; discriminate|tauto].
  - split; [intros [E|[]]; discriminate|tauto].
Qed.
Lemma writes_reg : forall x o, In (PReg x) (writes o) <-> In x (reg_defs o).
Proof.
  intros x o. unfold writes, reg_defs. destruct (o_output o) as [[y|r|rs|z|g|vs]|]; cbn; try tauto.
  - split; [intros [E|[]]; discriminate|tauto].
  - split; intros [E|[]]; left; congruence.
  - apply in_PReg.
  - split; [intros [E|[]]; discriminate|tauto].
  - split; [intros [E|[]]; discriminate|tauto].
Qed.

Lemma alone_spec : forall r l q p, alone r l = true -> nth_error l q = Some p -> In r (writes p) ->
  (forall m o, m < q -> nth_error l m = Some o -> ~ In r (writes o)) ->
  forall m o, m <= q -> nth_error l m = Some o -> ~ In r (reads o).
Proof.
  intros r l. induction l as [|a l IH]; intros q p H E Hw Hf m o Hm Eo; [destruct q; discriminate|].
  cbn [alone] in H. destruct q as [|q].
  - cbn in E. injection E as ->. replace m with 0 in Eo by lia. cbn in Eo. injection Eo as ->.
    apply isin_In in Hw. rewrite Hw in H. apply isin_not. destruct (isin r (reads o)); [discriminate|reflexivity].
  - cbn in E. assert (Ha : isin r (writes a) = false) by (apply isin_not; apply (Hf 0 a); [lia|reflexivity]).
    rewrite Ha in H. destruct (isin r (reads a)) eqn:Hr.
    + exfalso. apply negb_true_iff in H. assert (X : existsb (fun q => isin r (writes q)) l = true).
      { apply existsb_exists. exists p. split; [eapply nth_error_In; exact E|apply isin_In; exact Hw]. }
      congruence.
    + destruct m as [|m]; [cbn in Eo; injection Eo as <-; apply isin_not; exact Hr|].
      apply (IH q p H E Hw) with m; [|lia|exact Eo]. intros k u Hk Hu. apply (Hf (S k) u); [lia|exact Hu].
Qed.

Section sound.
  Variable ops : list op.
  Let n := length ops.
  Let es := d_edges (build 0 ops no_deps).
  Hypothesis Hfix : forallb (fun o => negb (stays o)) ops = true.
  Hypothesis Hord : orderly ops = true.

  Notation nd := (nd ops).

  Lemma until_all : forall l, forallb (fun o => negb (stays o)) l = true -> until l = l.
  Proof. induction l as [|o l IH]; cbn; intros H; [reflexivity|]. destruct (stays o); [discriminate|]. rewrite IH by exact H. reflexivity. Qed.
  Lemma orderly_at : forall l i, forallb (fun o => negb (stays o)) l = true -> orderly l = true -> i < length l ->
    let o := nth i l no_op in let r := skipn (S i) l in
    var_after o r = true /\ reg_after o r = true /\ mem_after o r = true.
  Proof.
    induction l as [|o l IH]; intros i Hf Ho Hi; [cbn in Hi; lia|].
    cbn [forallb] in Hf. apply andb_true_iff in Hf. destruct Hf as (Hf1 & Hf2).
    cbn [orderly] in Ho. apply andb_true_iff in Ho. destruct Ho as (H1 & H2).
    destruct i as [|i].
    - cbn [nth skipn]. destruct (stays o); [discriminate|]. rewrite until_all in H1 by exact Hf2.
      apply andb_true_iff in H1. destruct H1 as (H1 & H3). apply andb_true_iff in H1. destruct H1. auto.
    - cbn [nth skipn length] in *. apply IH; [exact Hf2|exact H2|lia].
  Qed.
  Lemma in_rest : forall i j, i < j < n -> In (nd j) (skipn (S i) ops).
  Proof.
    intros i j H. unfold Sched_deps.nd. rewrite <- (firstn_skipn (S i) ops) at 1. rewrite app_nth2; rewrite firstn_length.
    - apply nth_In. rewrite skipn_length. fold n. lia.
    - fold n. lia.
  Qed.
  Lemma rest_nth : forall i m o, nth_error (skipn (S i) ops) m = Some o -> o = nd (S i + m) /\ S i + m < n.
  Proof.
    intros i m o H. assert (L : m < length (skipn (S i) ops)) by (apply nth_error_Some; congruence).
    rewrite skipn_length in L. fold n in L. split; [|lia].
    apply nth_error_nth with (d := no_op) in H. rewrite <- H. unfold Sched_deps.nd.
    rewrite <- (firstn_skipn (S i) ops) at 2. rewrite app_nth2; rewrite firstn_length; fold n; [|lia]. f_equal. lia.
  Qed.
  Lemma nth_rest : forall i m, S i + m < n -> nth_error (skipn (S i) ops) m = Some (nd (S i + m)).
  Proof.
    intros i m H. destruct (nth_error (skipn (S i) ops) m) as [o|] eqn:E.
    - apply rest_nth in E. destruct E as (-> & _). reflexivity.
    - apply nth_error_None in E. rewrite skipn_length in E. fold n in E. lia.
  Qed.
  Lemma dec_in : forall x (l : list nat), In x l \/ ~ In x l.
  Proof. intros x l. destruct (in_dec Nat.eq_dec x l); auto. Qed.

  Let I := binv_final ops.

  (** Variables *)
  Lemma var_pair : forall i j x, i < j < n -> vdef ops x j -> vuse ops x i \/ vdef ops x i -> vdef ops x i /\ vuse ops x j.
  Proof.
    intros i j x H Hd Hm. destruct (orderly_at ops i Hfix Hord ltac:(fold n; lia)) as (A & _ & _).
    unfold var_after in A. rewrite forallb_forall in A. specialize (A _ (in_rest i j H)). rewrite forallb_forall in A.
    specialize (A (PVar x) (proj2 (writes_var _ _) Hd)). cbn beta iota in A.
    assert (X : isin (PVar x) (reads (nd i) ++ writes (nd i)) = true).
    { apply isin_In. apply in_app_iff. rewrite reads_var, writes_var. exact Hm. }
    fold (nd i) in A. rewrite X in A. cbn [negb orb] in A. apply andb_true_iff in A. destruct A as (A1 & A2).
    split; [apply writes_var, isin_In, A1|apply reads_var, isin_In, A2].
  Qed.
  Lemma var_path : forall j i x, i < j < n -> vdef ops x i -> vuse ops x j -> path es i j.
  Proof.
    intros j. induction j as [j IH] using (well_founded_induction lt_wf). intros i x H Hd Hu.
    destruct (exists_last (vdef ops x) j i) as (k & L & Hk); [intros; apply dec_in|lia|exact Hd|].
    pose proof (b_V _ _ _ I j x k ltac:(fold n; lia) Hu L) as E. destruct L as (L1 & L2 & L3).
    destruct (Nat.eq_dec k i) as [->|N]; [apply P_edge; exact E|].
    eapply P_step; [|exact E]. apply (IH k L1 i x); [lia|exact Hd|]. apply (var_pair i k x); [lia|exact L2|right; exact Hd].
  Qed.

  (** Registers *)
  Lemma reg_ww : forall j i x, i < j < n -> rdef ops x i -> rdef ops x j -> path es i j.
  Proof.
    intros j. induction j as [j IH] using (well_founded_induction lt_wf). intros i x H Hd Hu.
    destruct (exists_last (rdef ops x) j i) as (k & L & Hk); [intros; apply dec_in|lia|exact Hd|].
    pose proof (b_R2 _ _ _ I j x k ltac:(fold n; lia) Hu L) as E. destruct L as (L1 & L2 & L3).
    destruct (Nat.eq_dec k i) as [->|N]; [apply P_edge; exact E|].
    eapply P_step; [|exact E]. apply (IH k L1 i x); [lia|exact Hd|exact L2].
  Qed.
  Lemma reg_wr : forall j i x, i < j < n -> rdef ops x i -> ruse ops x j -> path es i j.
  Proof.
    intros j i x H Hd Hu. destruct (exists_last (rdef ops x) j i) as (k & L & Hk); [intros; apply dec_in|lia|exact Hd|].
    pose proof (b_R1 _ _ _ I j x k ltac:(fold n; lia) Hu L) as E. destruct L as (L1 & L2 & L3).
    destruct (Nat.eq_dec k i) as [->|N]; [apply P_edge; exact E|].
    eapply P_step; [|exact E]. apply (reg_ww k i x); [lia|exact Hd|exact L2].
  Qed.
  Lemma reg_rw : forall j i x, i < j < n -> ruse ops x i -> rdef ops x j -> path es i j.
  Proof.
    intros j i x H Hu Hd. destruct (dec_in x (reg_defs (nd i))) as [Hi|Hi]; [apply (reg_ww j i x); assumption|].
    destruct (exists_first (rdef ops x) (j - S i) i) as (k & K1 & K2 & K3); [intros; apply dec_in|replace (S (i + (j - S i))) with j by lia; exact Hd|].
    destruct (orderly_at ops i Hfix Hord ltac:(fold n; lia)) as (_ & A & _).
    unfold reg_after in A. rewrite forallb_forall in A. specialize (A (PReg x) (proj2 (reads_reg _ _) Hu)). cbn beta iota in A.
    assert (X : isin (PReg x) (writes (nd i)) = false) by (apply isin_not; rewrite writes_reg; exact Hi).
    fold (nd i) in A. rewrite X in A. cbn [orb] in A.
    assert (Y : forall m, i < m <= k -> ~ ruse ops x m).
    { intros m Hm Hum. apply (alone_spec _ _ (k - S i) (nd k) A) with (m := m - S i) (o := nd m).
      - rewrite nth_rest by lia. do 2 f_equal. lia.
      - apply writes_reg. exact K2.
      - intros q o Hq Eo. apply rest_nth in Eo. destruct Eo as (-> & _). rewrite writes_reg. apply K3. lia.
      - lia.
      - rewrite nth_rest by lia. do 2 f_equal. lia.
      - apply reads_reg. exact Hum. }
    assert (E : In (i, k) es).
    { apply (b_R3 _ _ _ I k x i); [fold n; lia|exact K2|apply Y; lia|]. split; [lia|]. split; [exact Hu|]. intros m Hm. apply Y. lia. }
    destruct (Nat.eq_dec k j) as [->|N]; [apply P_edge; exact E|].
    eapply path_trans; [apply P_edge; exact E|]. apply (reg_ww j k x); [lia|exact K2|exact Hd].
  Qed.

  (** Memory *)
  Lemma mem_path : forall j i, i < j < n -> memop ops i -> memop ops j -> path es i j.
  Proof.
    intros j. induction j as [j IH] using (well_founded_induction lt_wf). intros i H Hd Hu.
    destruct (exists_last (memop ops) j i) as (k & L & Hk); [intros m; unfold memop; destruct (_ || _); [left|right]; congruence|lia|exact Hd|].
    pose proof (b_M _ _ _ I j k ltac:(fold n; lia) Hu L) as E. destruct L as (L1 & L2 & L3).
    destruct (Nat.eq_dec k i) as [->|N]; [apply P_edge; exact E|].
    eapply P_step; [|exact E]. apply (IH k L1 i); [lia|exact Hd|exact L2].
  Qed.
  Lemma by_address_memop : forall i, by_address (nd i) = true -> memop ops i.
  Proof.
    intros i. unfold by_address, memop, mem_read, mem_write.
    destruct (is_ind (o_first (nd i))), (is_ind (o_second (nd i))), (is_ind (o_output (nd i))), (is_call (nd i)); cbn; congruence.
  Qed.

  Lemma clash_path : forall i j, i < j < n -> clash (nd i) (nd j) -> path es i j.
  Proof.
    intros i j H (p & Hp).
    destruct p as [x|x|].
    - rewrite !in_app_iff, !reads_var, !writes_var in Hp. destruct Hp as [(A & [B|B])|(A & B)].
      + apply (var_path j i x); assumption.
      + destruct (var_pair i j x H B (or_intror A)) as (_ & U). apply (var_path j i x); assumption.
      + destruct (var_pair i j x H A B) as (D & U). apply (var_path j i x); assumption.
    - rewrite !in_app_iff, !reads_reg, !writes_reg in Hp. destruct Hp as [(A & [B|B])|(A & [B|B])].
      + apply (reg_wr j i x); assumption.
      + apply (reg_ww j i x); assumption.
      + apply (reg_rw j i x); assumption.
      + apply (reg_ww j i x); assumption.
    - destruct (orderly_at ops i Hfix Hord ltac:(fold n; lia)) as (_ & _ & A).
      unfold mem_after in A. rewrite forallb_forall in A. specialize (A _ (in_rest i j H)). cbn beta in A. fold (nd i) in A.
      assert (X : isin PMem (reads (nd i) ++ writes (nd i)) && isin PMem (reads (nd j) ++ writes (nd j))
                  && (isin PMem (writes (nd i)) || isin PMem (writes (nd j))) = true).
      { rewrite !andb_true_iff, orb_true_iff, !isin_In, !in_app_iff in *. tauto. }
      rewrite X in A. cbn [negb orb] in A. apply andb_true_iff in A. destruct A as (A1 & A2).
      apply mem_path; [exact H| |]; apply by_address_memop; assumption.
  Qed.
End sound.

Lemma closed_path : forall es out a b, closed es out -> path es a b -> In b out -> before out a b.
Proof.
  intros es out a b Hc Hp. induction Hp as [a b E|a b c Hp IH E]; intros Hb.
  - apply in_split in Hb. destruct Hb as (l1 & l2 & ->). exists l1, (b :: l2). split; [reflexivity|]. split; [|left; reflexivity].
    exact (Hc l1 b l2 eq_refl a E).
  - apply in_split in Hb. destruct Hb as (l1 & l2 & Eo). pose proof (Hc l1 c l2 Eo b E) as X.
    destruct IH as (m1 & m2 & E2 & A & B); [rewrite Eo; apply in_app_iff; left; exact X|].
    exists l1, (c :: l2). split; [exact Eo|]. split; [|left; reflexivity].
    (* a is before b, b is in l1 *)
    apply in_split in X. destruct X as (k1 & k2 & ->).
    clear - Hc Hp Eo. revert k1 k2 l2 Eo.
    assert (G : forall a b, path es a b -> forall k1 k2, out = k1 ++ b :: k2 -> In a k1).
    { clear - Hc. intros a b H. induction H as [a b E|a b c H IH E]; intros k1 k2 Eo; [exact (Hc k1 b k2 Eo a E)|].
      pose proof (Hc k1 c k2 Eo b E) as X. apply in_split in X. destruct X as (p & q & ->).
      rewrite <- app_assoc in Eo. cbn [app] in Eo. apply IH in Eo. apply in_app_iff. left. exact Eo. }
    intros k1 k2 l2 Eo. rewrite <- app_assoc in Eo. cbn [app] in Eo. apply in_app_iff. left. exact (G a b Hp _ _ Eo).
Qed.

(** ** Segments and blocks *)
Lemma order_ok : forall ops, exists out, order ops = Ok out /\ Permutation (seq 0 (length ops)) out /\
  closed (d_edges (build 0 ops no_deps)) out.
Proof.
  intros ops. unfold order. pose proof (binv_final ops) as I.
  set (es := d_edges (build 0 ops no_deps)) in *. cbn zeta.
  match goal with |- context [execute ?f es ?info ?cnt ?r []] =>
    pose proof (fun X Y => execute_ok (length ops) es info (b_lt _ _ _ I) (b_nd _ _ _ I) f cnt r [] X Y) as G end.
  specialize (G (inv_start (length ops) es (fun i => mk_node i 0 0 0) (b_lt _ _ _ I))).
  assert (L : length ops <= length ops + @length nat []) by lia. specialize (G L).
  destruct G as (out & E & P & C).
  exists out. rewrite E. cbn [bind]. rewrite <- (Permutation_length P), seq_length, Nat.eqb_refl. auto.
Qed.
Lemma map_nth_seq : forall (ops : list op), map (fun i => nth i ops no_op) (seq 0 (length ops)) = ops.
Proof.
  intros ops. assert (G : forall l p, map (fun i => nth i (p ++ l) no_op) (seq (length p) (length l)) = l).
  { induction l as [|o l IH]; intros p; [reflexivity|]. cbn [length seq map]. f_equal.
    - rewrite app_nth2, Nat.sub_diag by lia. reflexivity.
    - replace (p ++ o :: l) with ((p ++ [o]) ++ l) by (rewrite <- app_assoc; reflexivity).
      replace (S (length p)) with (length (p ++ [o])) by (rewrite app_length; cbn; lia). apply IH. }
  exact (G ops []).
Qed.

Lemma segment_ok : forall ops, exists out, segment ops = Ok out /\ Permutation ops out /\
  (forallb (fun o => negb (stays o)) ops = true -> orderly ops = true ->
   forall V (W : world V), proper W -> forall s, same (run W out s) (run W ops s)).
Proof.
  intros ops. unfold segment. destruct (Nat.leb (length ops) 2); [exists ops; split; [reflexivity|]; split; [apply Permutation_refl|intros; intros p; reflexivity]|].
  destruct (order_ok ops) as (out & E & P & C). rewrite E. cbn [bind].
  exists (map (fun i => nth i ops no_op) out). split; [reflexivity|]. split.
  - rewrite <- (map_nth_seq ops) at 1. apply Permutation_map. exact P.
  - intros Hf Ho V W HW s. assert (G : same (run W (map (fun i => nth i ops no_op) out) s) (run W (map (fun i => nth i ops no_op) (seq 0 (length ops))) s));
      [|rewrite map_nth_seq in G; exact G].
    apply reorder; [exact HW|apply seq_NoDup|exact P| |].
    + intros a Ha. apply in_seq in Ha. rewrite forallb_forall in Hf. specialize (Hf (nth a ops no_op)).
      apply negb_true_iff. apply Hf. apply nth_In. lia.
    + intros a b B Hc. assert (Hab : a < b < length ops).
      { destruct B as (l1 & l2 & Es & Ha & Hb).
        assert (Hs : In b (seq 0 (length ops))) by (rewrite Es; apply in_app_iff; right; exact Hb). apply in_seq in Hs. split; [|lia].
        clear - Es Ha Hb. revert Es. generalize 0 (length ops). intros s k. revert s k.
        induction l1 as [|x l1 IH]; intros s k Es; [destruct Ha|]. destruct k as [|k]; [discriminate|]. cbn [seq app] in Es. injection Es as <- Es.
        destruct Ha as [<-|Ha]; [|exact (IH Ha _ _ Es)].
        assert (X : In b (seq (S s) k)) by (rewrite Es; apply in_app_iff; right; exact Hb). apply in_seq in X. lia. }
      apply closed_path with (d_edges (build 0 ops no_deps)); [exact C|apply clash_path; assumption|].
      eapply Permutation_in; [exact P|]. apply in_seq. lia.
Qed.

Lemma until_app : forall a l, forallb (fun o => negb (stays o)) a = true -> until (a ++ l) = a ++ until l.
Proof. induction a as [|o a IH]; cbn; intros l H; [reflexivity|]. destruct (stays o); [discriminate|]. rewrite IH by exact H. reflexivity. Qed.
Lemma orderly_split : forall a o l, forallb (fun o => negb (stays o)) a = true -> stays o = true ->
  orderly (a ++ o :: l) = orderly a && orderly l.
Proof.
  induction a as [|x a IH]; intros o l Hf Ho; cbn [app orderly].
  - rewrite Ho. reflexivity.
  - cbn [forallb] in Hf. apply andb_true_iff in Hf. destruct Hf as (Hx & Hf). rewrite IH by assumption.
    rewrite until_app by exact Hf. cbn [until]. rewrite Ho, app_nil_r, (until_all a Hf).
    destruct (stays x); [discriminate|]. rewrite andb_assoc. reflexivity.
Qed.
Lemma forallb_rev : forall {A} (f : A -> bool) l, forallb f l = true -> forallb f (rev l) = true.
Proof. intros A f l H. apply forallb_forall. intros x Hx. rewrite forallb_forall in H. apply H. apply in_rev. exact Hx. Qed.

Lemma fixed_stays : forall o, fixed o = stays o.
Proof. intros o. unfold fixed, stays. now destruct (o_code o). Qed.
Lemma segments_ok : forall ops seg, forallb (fun o => negb (stays o)) seg = true ->
  exists out, segments ops seg = Ok out /\ moved (rev seg ++ ops) out /\
    (orderly (rev seg ++ ops) = true ->
     forall V (W : world V), proper W -> forall s, same (run W out s) (run W (rev seg ++ ops) s)).
Proof.
  induction ops as [|o ops IH]; intros seg Hs; cbn [segments].
  - destruct (segment_ok (rev seg)) as (out & E & P & H). exists out. rewrite app_nil_r. split; [exact E|]. split.
    + apply M_last; [apply forallb_rev; exact Hs|exact P].
    + intros Ho. apply H; [apply forallb_rev; exact Hs|exact Ho].
  - rewrite fixed_stays. destruct (stays o) eqn:Ef.
    + destruct (segment_ok (rev seg)) as (s1 & E1 & P1 & H1). destruct (IH [] eq_refl) as (s2 & E2 & M2 & H2).
      rewrite E1, E2. cbn [bind]. exists (s1 ++ o :: s2). split; [reflexivity|]. cbn [rev app] in *. split.
      * apply M_fixed; [apply forallb_rev; exact Hs|exact P1|exact Ef|exact M2].
      * intros Ho V W HW s. rewrite orderly_split in Ho by (try apply forallb_rev; assumption). apply andb_true_iff in Ho. destruct Ho as (O1 & O2).
        rewrite !run_app. cbn [run]. eapply same_trans; [apply H2; [exact O2|exact HW]|].
        apply run_same; [exact HW|]. apply exec_same; [exact HW|]. apply H1; [apply forallb_rev; exact Hs|exact O1|exact HW].
    + destruct (IH (o :: seg)) as (out & E & M & H); [cbn [forallb]; rewrite Ef; exact Hs|].
      cbn [rev] in M, H. rewrite <- app_assoc in M, H. cbn [app] in M, H. exists out. auto.
Qed.
Lemma moved_refl_short : forall ops, length ops <= 1 -> moved ops ops.
Proof.
  intros [|o [|p l]] H; [apply M_last; [reflexivity|apply Permutation_refl]| |cbn in H; lia].
  destruct (stays o) eqn:E.
  - apply (M_fixed [] [] o [] []); [reflexivity|apply Permutation_refl|exact E|apply M_last; [reflexivity|apply Permutation_refl]].
  - apply M_last; [cbn; rewrite E; reflexivity|apply Permutation_refl].
Qed.
Lemma block_ok : forall ops, exists out, block ops = Ok out /\ moved ops out /\
  (orderly ops = true -> forall V (W : world V), proper W -> forall s, same (run W out s) (run W ops s)).
Proof.
  intros ops. unfold block. destruct (Nat.leb (length ops) 1) eqn:E.
  - apply Nat.leb_le in E. exists ops. split; [reflexivity|]. split; [apply moved_refl_short; exact E|]. intros _ V W HW s p. reflexivity.
  - exact (segments_ok ops [] eq_refl).
Qed.
