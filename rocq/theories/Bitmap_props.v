(** C30: bitmaps. *)
From Verif Require Import Base Base_lemmas Zlist.
From Verif Require Import Bitmap_model Bitmap_spec Bitmap_proof.

(** Setting or clearing one bit changes exactly that bit. *)
Theorem bitmap_set_one : forall bits i, bytes bits -> 0 <= i < capacity bits ->
  exists bits', bitmap_set bits i = Ok bits' /\ updated (fun j => j =? i) true bits bits'.
Proof. exact set_spec. Qed.
Print Assumptions bitmap_set_one.

Theorem bitmap_clear_one : forall bits i, bytes bits -> 0 <= i < capacity bits ->
  exists bits', bitmap_clear bits i = Ok bits' /\ updated (fun j => j =? i) false bits bits'.
Proof. exact clear_spec. Qed.
Print Assumptions bitmap_clear_one.

(** Setting or clearing a range changes exactly the bits of the range, across byte boundaries. *)
Theorem bitmap_set_range : forall bits i n, bytes bits -> 0 <= i -> 0 <= n -> i + n <= capacity bits ->
  exists bits', bitmap_batch_set bits i n = Ok bits' /\
    updated (fun j => (i <=? j) && (j <? i + n)) true bits bits'.
Proof. exact (batch_spec true). Qed.
Print Assumptions bitmap_set_range.

Theorem bitmap_clear_range : forall bits i n, bytes bits -> 0 <= i -> 0 <= n -> i + n <= capacity bits ->
  exists bits', bitmap_batch_clear bits i n = Ok bits' /\
    updated (fun j => (i <=? j) && (j <? i + n)) false bits bits'.
Proof. exact (batch_spec false). Qed.
Print Assumptions bitmap_clear_range.

(** test reports the bit; empty(n) reports whether the first n bits are all clear. *)
Theorem bitmap_test_bit : forall bits i, 0 <= i < capacity bits -> bitmap_test bits i = Ok (bit bits i).
Proof. exact test_spec. Qed.
Print Assumptions bitmap_test_bit.

Theorem bitmap_empty_prefix : forall bits n, bytes bits -> 0 <= n <= capacity bits ->
  exists e, bitmap_empty bits n = Ok e /\ (e = true <-> forall j, 0 <= j < n -> bit bits j = false).
Proof. exact empty_spec. Qed.
Print Assumptions bitmap_empty_prefix.

Example bitmap_ex : bytes [1; 255; 0; 7] /\ capacity [1; 255; 0; 7] = 32 /\
  bitmap_batch_clear [255; 255; 255; 7] 5 13 = Ok [31; 0; 252; 7] /\
  bitmap_batch_set [0; 0; 0; 0] 3 4 = Ok [120; 0; 0; 0] /\
  bitmap_batch_set [0; 0; 0; 0] 4 28 = Ok [240; 255; 255; 255] /\
  bitmap_test [0; 8] 11 = Ok true /\ bitmap_empty [0; 240] 12 = Ok true.
Proof. split; [repeat constructor; unfold is_byte; lia|]. repeat split; reflexivity. Qed.

(** Any sequence of these operations: test reports the last value written to the position. *)
Inductive bop := OSet (i : Z) | OClear (i : Z) | OSetRange (i n : Z) | OClearRange (i n : Z).
Definition in_bounds (cap : Z) (o : bop) : Prop :=
  match o with
  | OSet i | OClear i => 0 <= i < cap
  | OSetRange i n | OClearRange i n => 0 <= i /\ 0 <= n /\ i + n <= cap
  end.
Fixpoint bexec (ops : list bop) (bits : list Z) : res (list Z) :=
  match ops with
  | [] => Ok bits
  | o :: ops =>
      bits <- match o with OSet i => bitmap_set bits i | OClear i => bitmap_clear bits i
                | OSetRange i n => bitmap_batch_set bits i n | OClearRange i n => bitmap_batch_clear bits i n end ;;
      bexec ops bits
  end.
(** the last value written to j, if any *)
Fixpoint last_write (ops : list bop) (j : Z) (before : bool) : bool :=
  match ops with
  | [] => before
  | o :: ops => last_write ops j
      match o with
      | OSet i => if j =? i then true else before
      | OClear i => if j =? i then false else before
      | OSetRange i n => if (i <=? j) && (j <? i + n) then true else before
      | OClearRange i n => if (i <=? j) && (j <? i + n) then false else before
      end
  end.

Theorem bitmap_last_write : forall ops bits, bytes bits -> Forall (in_bounds (capacity bits)) ops ->
  exists bits', bexec ops bits = Ok bits' /\ capacity bits' = capacity bits /\
    forall j, 0 <= j < capacity bits -> bitmap_test bits' j = Ok (last_write ops j (bit bits j)).
Proof.
  induction ops as [|o ops IH]; intros bits Hb Hf; cbn [bexec last_write].
  - exists bits. split; [reflexivity|]. split; [reflexivity|]. intros j Hj. now apply test_spec.
  - pose proof (Forall_inv Hf) as Ho. apply Forall_inv_tail in Hf.
    assert (S : exists P v b1, (match o with OSet i => bitmap_set bits i | OClear i => bitmap_clear bits i
                | OSetRange i n => bitmap_batch_set bits i n | OClearRange i n => bitmap_batch_clear bits i n end) = Ok b1 /\
              updated P v bits b1 /\
              forall j before, match o with
                | OSet i => if j =? i then true else before
                | OClear i => if j =? i then false else before
                | OSetRange i n => if (i <=? j) && (j <? i + n) then true else before
                | OClearRange i n => if (i <=? j) && (j <? i + n) then false else before
                end = if P j then v else before).
    { destruct o; cbn [in_bounds] in Ho.
      - destruct (set_spec bits i) as (b1 & E & U); auto. exists (fun j => j =? i), true, b1. auto.
      - destruct (clear_spec bits i) as (b1 & E & U); auto. exists (fun j => j =? i), false, b1. auto.
      - destruct (batch_spec true bits i n) as (b1 & E & U); try tauto. exists (fun j => (i <=? j) && (j <? i + n)), true, b1. auto.
      - destruct (batch_spec false bits i n) as (b1 & E & U); try tauto. exists (fun j => (i <=? j) && (j <? i + n)), false, b1. auto. }
    destruct S as (P & v & b1 & E & (L & B & U) & HP). rewrite E. cbn [bind].
    assert (C : capacity b1 = capacity bits) by (unfold capacity; lia).
    destruct (IH b1) as (b2 & E2 & C2 & H2); [assumption|now rewrite C|].
    exists b2. split; [assumption|]. split; [lia|]. intros j Hj. rewrite H2 by lia. do 2 f_equal.
    rewrite HP. apply U. lia.
Qed.
Print Assumptions bitmap_last_write.

Example bitmap_last_write_ex : Forall (in_bounds (capacity [0; 0])) [OSetRange 3 10; OClear 5; OSet 0; OClearRange 7 2] /\
  bexec [OSetRange 3 10; OClear 5; OSet 0; OClearRange 7 2] [0; 0] = Ok [89; 30].
Proof. split; [repeat constructor; cbn; lia | reflexivity]. Qed.

(** Growing.  Missing: the bitmap of size 0, for which the write is out of bounds (refuted below). *)
Theorem bitmap_grow_set_partial : forall bits i (t : bool), bytes bits -> bits <> [] -> 0 <= i ->
  exists bits', bitmap_grow_set bits i t = Ok bits' /\ zlen bits <= zlen bits' /\ i < capacity bits' /\
    forall j, 0 <= j -> bit bits' j = if j =? i then t else bit bits j.
Proof. exact grow_set_spec. Qed.
Print Assumptions bitmap_grow_set_partial.

Example bitmap_grow_set_ex : bitmap_grow_set [5] 20 true = Ok [5; 0; 16; 0].
Proof. reflexivity. Qed.

Theorem bitmap_grow_set_refuted : exists bits i, bytes bits /\ 0 <= i /\ bitmap_grow_set bits i true = UB.
Proof. exists [], 3. split; [constructor|]. split; [lia|reflexivity]. Qed.
Print Assumptions bitmap_grow_set_refuted.

(** bitmap_set_count looks at as many bits as the bitmap has bytes: it counts the first eighth. *)
Theorem bitmap_count_first_eighth : forall bits, exists r, bitmap_set_count bits = Ok r /\
  r = population bits (length bits).
Proof.
  intros bits. destruct (set_count_loop_spec bits (length bits) 0 0) as (r & E & H).
  - lia.
  - unfold capacity, zlen. lia.
  - exists r. split; [exact E|]. cbn [Z.to_nat population Nat.add] in H. lia.
Qed.
Print Assumptions bitmap_count_first_eighth.

Theorem bitmap_count_refuted : exists bits r, bytes bits /\ bitmap_set_count bits = Ok r /\
  r <> population bits (8 * length bits).
Proof. exists [2], 0. split; [repeat constructor; unfold is_byte; lia|]. split; [reflexivity|vm_compute; discriminate]. Qed.
Print Assumptions bitmap_count_refuted.
