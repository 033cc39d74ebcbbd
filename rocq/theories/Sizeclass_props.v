(** C23: size classes. *)
From Verif Require Import Base Base_lemmas Zlist.
From Verif Require Import Sizeclass_model Sizeclass_proof.

(** [obj c] is the object size of class c, read from the table. *)
Definition obj (c : Z) (s : Z) : Prop := znth class_obj_size c = Some s.

Lemma obj_size c s : obj c s -> 0 <= c < 68 /\ s = size_of c.
Proof.
  unfold obj. intros H. pose proof (znth_range _ _ _ H) as R. change (zlen class_obj_size) with 68 in R.
  split; [assumption|]. unfold znth in H. destruct (c <? 0); [discriminate|]. unfold size_of.
  symmetry. now apply nth_error_nth.
Qed.
Lemma size_obj c : 0 <= c < 68 -> obj c (size_of c).
Proof. intros H. unfold obj. now apply rd_inv, rd_size. Qed.

(** Every request of 1 byte to 32 KiB gets a class whose objects hold it, and the span built for this
    class (with or without pointers) has the class's object size and holds at least one object. *)
Theorem sizeclass_fits : forall size, 1 <= size <= 32768 ->
  exists c s, calc_sizeclass size = Ok c /\ 1 <= c < 68 /\ obj c s /\ size <= s /\
    forall no_ptr, no_ptr = 0 \/ no_ptr = 1 ->
    exists pages count, take_pages_count (make_spanclass c no_ptr) = Ok pages /\
      span_layout pages (make_spanclass c no_ptr) = Ok (s, count) /\
      1 <= count /\ s * count <= pages * ALLOC_PAGE_SIZE < s * (count + 1).
Proof.
  intros size H. destruct (calc_cases size H) as (c & E & Hc & Hs & _). exists c, (size_of c).
  split; [assumption|]. split; [assumption|]. split; [now apply size_obj; lia|]. split; [assumption|].
  intros n Hn. destruct (spanclass_roundtrip c n) as [T _]; [lia|assumption|].
  destruct (span_holds c Hc) as (p & Hp & Hl & _).
  unfold take_pages_count, span_layout. rewrite T. exists p, (p * ALLOC_PAGE_SIZE / size_of c).
  assert (rd class_pages_count c = Ok p) as ->.
  { apply rd_ok. unfold znth. destruct (Z.ltb_spec c 0); [lia|assumption]. }
  split; [reflexivity|]. destruct (Z.eqb_spec c 0); [lia|]. rewrite rd_size by lia. cbn [bind].
  destruct (Z.ltb_spec 0 (size_of c)); [|lia]. split; [reflexivity|].
  pose proof (Z.div_mod (p * ALLOC_PAGE_SIZE) (size_of c) ltac:(lia)).
  pose proof (Z.mod_pos_bound (p * ALLOC_PAGE_SIZE) (size_of c) ltac:(lia)).
  split; [|lia]. apply Z.div_le_lower_bound; lia.
Qed.
Print Assumptions sizeclass_fits.

Example sizeclass_fits_ex : calc_sizeclass 1000 = Ok 32 /\ obj 32 1024 /\ take_pages_count (make_spanclass 67 1) = Ok 4.
Proof. repeat split; reflexivity. Qed.

(** No smaller class would do.  Missing: size 2, for which the fast path picks a larger class than
    necessary (sizeclass_smallest_refuted). *)
Theorem sizeclass_smallest_partial : forall size, 1 <= size <= 32768 -> size <> 2 ->
  exists c, calc_sizeclass size = Ok c /\ forall d s, 0 <= d < c -> obj d s -> s < size.
Proof.
  intros size H N. destruct (calc_cases size H) as (c & E & Hc & Hs & Hm & _). exists c. split; [assumption|].
  intros d s Hd Ho. apply obj_size in Ho as [_ ->]. auto.
Qed.
Print Assumptions sizeclass_smallest_partial.

Example sizeclass_smallest_ex : calc_sizeclass 129 = Ok 11 /\ calc_sizeclass 32768 = Ok 67 /\ calc_sizeclass 3 = Ok 1.
Proof. repeat split; reflexivity. Qed.

(** A request of 2 bytes takes class 2 (16 bytes) although class 1 (8 bytes) holds it. *)
Theorem sizeclass_smallest_refuted : exists size c d s, 1 <= size <= 32768 /\
  calc_sizeclass size = Ok c /\ 0 <= d < c /\ obj d s /\ size <= s.
Proof. exists 2, 2, 1, 8. repeat split; try lia; reflexivity. Qed.
Print Assumptions sizeclass_smallest_refuted.

(** Packing a size class and a pointer flag into a span class loses nothing. *)
Theorem spanclass_packs : forall c n, 0 <= c < 68 -> n = 0 \/ n = 1 ->
  take_sizeclass (make_spanclass c n) = c /\ make_spanclass c n mod 2 = n /\ 0 <= make_spanclass c n < 136.
Proof.
  intros c n Hc Hn. destruct (spanclass_roundtrip c n) as [H1 H2]; [lia|assumption|]. split; [assumption|].
  split; [assumption|]. unfold take_sizeclass in H1. rewrite Z.shiftr_div_pow2 in H1 by lia.
  change (2 ^ 1) with 2 in H1. Z.to_euclidean_division_equations. lia.
Qed.
Print Assumptions spanclass_packs.

Example spanclass_packs_ex : make_spanclass 32 1 = 65 /\ take_sizeclass 65 = 32.
Proof. split; reflexivity. Qed.
