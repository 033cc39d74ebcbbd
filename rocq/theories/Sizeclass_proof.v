From Verif Require Import Base Base_lemmas Zlist.
From Verif Require Import Sizeclass_model.

Definition size_of (c : Z) : Z := nth (Z.to_nat c) class_obj_size 0.

Lemma rd_size c : 0 <= c < 68 -> rd class_obj_size c = Ok (size_of c).
Proof.
  intros H. apply rd_ok. unfold znth. destruct (Z.ltb_spec c 0); [lia|].
  apply nth_error_nth'. change (length class_obj_size) with 68%nat. lia.
Qed.

Lemma range_sweep (P : Z -> bool) n : forallb P (map Z.of_nat (seq 0 n)) = true ->
  forall c, 0 <= c < Z.of_nat n -> P c = true.
Proof.
  intros H c Hc. rewrite forallb_forall in H. apply H. apply in_map_iff. exists (Z.to_nat c).
  split; [lia|]. apply in_seq. lia.
Qed.

Lemma size_step c : 0 <= c < 67 -> size_of c < size_of (c + 1).
Proof.
  intros H. apply Z.ltb_lt. revert c H. apply (range_sweep (fun c => size_of c <? size_of (c + 1)) 67). vm_compute. reflexivity.
Qed.

Lemma size_mono c d : 0 <= c -> c <= d -> d < 68 -> size_of c <= size_of d.
Proof.
  intros Hc Hd Hl. replace d with (c + Z.of_nat (Z.to_nat (d - c))) in * by lia.
  generalize dependent (Z.to_nat (d - c)). intros n. induction n as [|n IH]; intros H1 H2.
  - replace (c + Z.of_nat 0) with c by lia. lia.
  - specialize (IH ltac:(lia) ltac:(lia)). pose proof (size_step (c + Z.of_nat n)).
    replace (c + Z.of_nat (S n)) with (c + Z.of_nat n + 1) by lia. lia.
Qed.

Lemma size_strict c d : 0 <= c -> c < d -> d < 68 -> size_of c < size_of d.
Proof.
  intros. pose proof (size_step c). pose proof (size_mono (c + 1) d). lia.
Qed.

Lemma search_spec fuel size left right :
  0 <= left -> right < 68 -> left <= right + 1 ->
  (forall c, 0 <= c < left -> size_of c < size) ->
  (forall c, right < c < 68 -> size <= size_of c) ->
  (exists c, 0 <= c < 68 /\ size <= size_of c /\ (c = 0 \/ size_of (c - 1) < size) /\ left <= c <= right) ->
  (Z.to_nat (right - left + 1) < fuel)%nat ->
  exists c, search fuel size left right = Ok c /\ 0 <= c < 68 /\ size <= size_of c /\
    forall d, 0 <= d < c -> size_of d < size.
Proof.
  revert left right. induction fuel as [|f IH]; intros left right Hl Hr Hlr Hlo Hhi Hex Hf; [lia|].
  cbn [search]. destruct Hex as (c0 & Hc0 & Hs0 & Hm0 & Hb0).
  destruct (Z.leb_spec left right) as [LR|LR]; [|lia].
  set (mid := left + (right - left) / 2).
  assert (M : left <= mid <= right) by (subst mid; Z.to_euclidean_division_equations; lia).
  cbv zeta. rewrite rd_size by lia. cbn [bind].
  destruct (Z.leb_spec size (size_of mid)) as [S1|S1].
  - destruct (Z.eqb_spec mid 0) as [E0|E0].
    + exists mid. repeat split; try lia; auto. 
    + rewrite rd_size by lia. cbn [bind]. destruct (Z.ltb_spec (size_of (mid - 1)) size) as [S2|S2].
      * exists mid. repeat split; try lia; auto. intros d Hd. pose proof (size_mono d (mid - 1)). lia.
      * apply IH; try lia; auto.
        -- intros c Hc. pose proof (size_mono (mid - 1) c). destruct (Z.eq_dec c (mid - 1)); lia.
        -- exists c0. repeat split; auto; try lia.
           destruct (Z.le_gt_cases c0 (mid - 1)); [assumption|]. exfalso.
           destruct Hm0 as [->|Hm0]; [lia|]. pose proof (size_mono (mid - 1) (c0 - 1)). lia.
  - apply IH; try lia; auto.
    + intros c Hc. pose proof (size_mono c mid). lia.
    + exists c0. repeat split; auto; try lia.
      destruct (Z.le_gt_cases (mid + 1) c0); [assumption|]. exfalso.
      pose proof (size_mono c0 mid). lia.
Qed.

(** the first class that is large enough *)
Lemma first_fit size : 1 <= size <= 32768 -> exists c, 0 <= c < 68 /\ size <= size_of c /\ (c = 0 \/ size_of (c - 1) < size) /\ 0 <= c <= 67.
Proof.
  intros H.
  assert (G : forall n, (n <= 67)%nat -> (forall c, 0 <= c <= Z.of_nat n -> size_of c < size) \/
              exists c, 0 <= c < 68 /\ size <= size_of c /\ (c = 0 \/ size_of (c - 1) < size) /\ 0 <= c <= 67).
  { induction n as [|n IH]; intros Hn.
    - left. intros c Hc. replace c with 0 by lia. change (size_of 0) with 0. lia.
    - destruct (IH ltac:(lia)) as [IH'|IH']; [|right; assumption].
      destruct (Z.lt_ge_cases (size_of (Z.of_nat (S n))) size) as [L|L].
      + left. intros c Hc. destruct (Z.eq_dec c (Z.of_nat (S n))) as [->|]; [assumption|]. apply IH'. lia.
      + right. exists (Z.of_nat (S n)). repeat split; try lia. right.
        replace (Z.of_nat (S n) - 1) with (Z.of_nat n) by lia. apply IH'. lia. }
  destruct (G 67%nat ltac:(lia)) as [G'|G']; [|assumption].
  specialize (G' 67 ltac:(lia)). change (size_of 67) with 32768 in G'. lia.
Qed.

Lemma search_total size : 1 <= size <= 32768 ->
  exists c, search 100 size 0 67 = Ok c /\ 0 <= c < 68 /\ size <= size_of c /\
    forall d, 0 <= d < c -> size_of d < size.
Proof.
  intros H. apply search_spec; try lia. 
  destruct (first_fit size H) as (c & Hc). exists c. intuition lia.
Qed.

Lemma calc_cases size : 1 <= size <= 32768 ->
  exists c, calc_sizeclass size = Ok c /\ 1 <= c < 68 /\ size <= size_of c /\
    (size <> 2 -> forall d, 0 <= d < c -> size_of d < size) /\ (size = 2 -> c = 2).
Proof.
  intros H. unfold calc_sizeclass.
  assert (Q : forall s c, size = s -> 1 <= c < 68 -> (s <=? size_of c) = true -> (size_of (c - 1) <? s) = true ->
     exists c', Ok c = Ok c' /\ 1 <= c' < 68 /\ size <= size_of c' /\
    (size <> 2 -> forall d, 0 <= d < c' -> size_of d < size)).
  { intros s c -> Hc H1 H2. exists c. split; [reflexivity|]. repeat split; try lia.
    intros _ d Hd. pose proof (size_mono d (c - 1)). lia. }
  destruct (Z.eqb_spec size 1) as [E|N1];
    [destruct (Q 1 1) as (c & X); auto; try lia; exists c; intuition lia|].
  destruct (Z.eqb_spec size 2) as [E|N2].
  { exists 2. split; [reflexivity|]. split; [lia|]. split; [change (size_of 2) with 16; lia|]. split; [lia|reflexivity]. }
  destruct (Z.eqb_spec size 40) as [E|N3];
    [destruct (Q 40 5) as (c & X); auto; try lia; exists c; intuition lia|].
  destruct (Z.eqb_spec size 48) as [E|N4];
    [destruct (Q 48 5) as (c & X); auto; try lia; exists c; intuition lia|].
  destruct (Z.eqb_spec size 56) as [E|N5];
    [destruct (Q 56 6) as (c & X); auto; try lia; exists c; intuition lia|].
  destruct (Z.eqb_spec size 128) as [E|N6];
    [destruct (Q 128 10) as (c & X); auto; try lia; exists c; intuition lia|].
  destruct (search_total size H) as (c & E & Hc & Hs & Hm). exists c. change (SIZECLASS_COUNT - 1) with 67. split; [rewrite E; reflexivity|].
  split; [|repeat split; auto; lia].
  destruct (Z.eq_dec c 0) as [->|]; [|lia]. change (size_of 0) with 0 in Hs. lia.
Qed.

Lemma spanclass_roundtrip c n : 0 <= c < 128 -> n = 0 \/ n = 1 ->
  take_sizeclass (make_spanclass c n) = c /\ make_spanclass c n mod 2 = n.
Proof.
  intros Hc Hn. unfold take_sizeclass, make_spanclass.
  assert (E : Z.lor (Z.shiftl c 1) n = 2 * c + n).
  { rewrite Z.shiftl_mul_pow2 by lia. change (2 ^ 1) with 2. destruct Hn as [->| ->].
    - rewrite Z.lor_0_r. lia.
    - replace (c * 2) with (2 * c) by lia. destruct c; (reflexivity || lia). }
  rewrite E. unfold u8. rewrite Z.mod_small by lia. rewrite Z.shiftr_div_pow2 by lia. change (2 ^ 1) with 2.
  Z.to_euclidean_division_equations. lia.
Qed.

Lemma span_holds c : 1 <= c < 68 -> exists p, nth_error class_pages_count (Z.to_nat c) = Some p /\
  0 < size_of c <= p * ALLOC_PAGE_SIZE /\ p < 256.
Proof.
  intros H.
  assert (A : (match nth_error class_pages_count (Z.to_nat c) with
              | Some p => (0 <? size_of c) && (size_of c <=? p * ALLOC_PAGE_SIZE) && (p <? 256) | None => false end) = true).
  { replace c with ((c - 1) + 1) by lia. assert (H' : 0 <= c - 1 < Z.of_nat 67) by lia.
    revert H'. generalize (c - 1). apply range_sweep with (P := fun c => match nth_error class_pages_count (Z.to_nat (c + 1)) with
              | Some p => (0 <? size_of (c + 1)) && (size_of (c + 1) <=? p * ALLOC_PAGE_SIZE) && (p <? 256) | None => false end). vm_compute. reflexivity. }
  destruct (nth_error class_pages_count (Z.to_nat c)) as [p|]; [|discriminate]. exists p. split; [reflexivity|]. lia.
Qed.
