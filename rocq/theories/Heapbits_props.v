(** C28: the heap bitmap marks exactly the pointer words. *)
From Verif Require Import Base Base_lemmas Zlist Bitmap_model Bitmap_spec Bitmap_proof Heapbits_model Heapbits_spec Heapbits_proof.

(** every allocation of a history has whole words, lies in mapped arenas, and its type either has no
    pointers, or is the storage of a vector, or carries a mask *)
Definition sane (asz : Z) (h : heap) (l : list (Z * Z * rtype)) : Prop :=
  Forall (fun '(addr, size, t) => fits addr size t /\ mapped asz h addr size /\
            (last_ptr t <= 0 \/ is_arr t && inline_bits t = true \/ has_mask size t)) l.

Lemma sane_ok asz h l : sane asz h l -> Forall (ok_alloc asz h) l.
Proof. apply Forall_impl. intros ((addr & size) & t). exact id. Qed.

(** C28, masks: an object stays described by its mask as long as no later object overlaps it, whatever
    was there before.  Partial: the storage of vectors is treated by the next theorems. *)
Theorem pointer_map_exact_partial asz h before addr size t after :
  arena_size asz -> sane asz h (before ++ (addr, size, t) :: after) -> has_mask size t ->
  (forall addr' size' t', In (addr', size', t') after -> addr' + size' <= addr \/ addr + size <= addr') ->
  exists h', mallocs asz h (before ++ (addr, size, t) :: after) = Ok h' /\
    forall k, 0 <= k < size / 8 -> says_pointer asz h' (addr + 8 * k) = bit (mask t) k.
Proof.
  intros A S M D. pose proof M as (M1 & M2 & _).
  assert (F : fits addr size t) by (apply Forall_app in S as (_ & S); inversion S; subst; tauto).
  destruct F as ((F1 & F2) & F3 & F4).
  destruct (history asz A h before after addr size t (sane_ok _ _ _ S)) as (h' & E & _ & P); [lia|assumption|].
  exists h'. split; [exact E|]. intros k Hk.
  rewrite P; [|split; [split; [lia|clear - F2; zdiv]|clear - Hk F4; zdiv]].
  unfold type_says. rewrite M1. f_equal. replace (addr + 8 * k - addr) with (k * 8) by lia. now rewrite Z.div_mul.
Qed.
Print Assumptions pointer_map_exact_partial.

(** C28, no other bit changes: one allocation changes no word outside its block and no arena comes or goes *)
Theorem pointer_map_frame asz h addr size t :
  arena_size asz -> sane asz h [(addr, size, t)] ->
  exists h', malloc_bits asz h addr size t = Ok h' /\ (forall i, h i = None -> h' i = None) /\
    forall a, word a -> ~ (addr <= a < addr + size) -> says_pointer asz h' a = says_pointer asz h a.
Proof.
  intros A S. destruct (malloc_bits_spec asz A h addr size t) as (h' & E & Sh & P).
  { apply sane_ok in S. inversion S; subst. assumption. }
  exists h'. split; [exact E|]. split.
  - intros i Hi. specialize (Sh i). now rewrite Hi in Sh.
  - intros a Wa N. rewrite P by assumption.
    destruct (Z.leb_spec addr a), (Z.ltb_spec a (addr + size)); rewrite ?andb_false_r; cbn [andb]; try reflexivity; lia.
Qed.
Print Assumptions pointer_map_frame.

(** C28, vectors: no pointer of the storage of a vector is missed, for every word is marked *)
Theorem pointer_map_array asz h before addr size e after :
  arena_size asz -> sane asz h (before ++ (addr, size, rtype_array e) :: after) -> 0 < e ->
  (forall addr' size' t', In (addr', size', t') after -> addr' + size' <= addr \/ addr + size <= addr') ->
  exists h', mallocs asz h (before ++ (addr, size, rtype_array e) :: after) = Ok h' /\
    forall k, 0 <= k < size / 8 -> says_pointer asz h' (addr + 8 * k) = true.
Proof.
  intros A S He D.
  assert (F : fits addr size (rtype_array e)) by (apply Forall_app in S as (_ & S); inversion S; subst; tauto).
  destruct F as ((F1 & F2) & F3 & F4).
  destruct (history asz A h before after addr size (rtype_array e) (sane_ok _ _ _ S)) as (h' & E & _ & P).
  - cbn [rtype_array last_ptr]. destruct (Z.ltb_spec 0 e); lia.
  - assumption.
  - exists h'. split; [exact E|]. intros k Hk.
    rewrite P; [|split; [split; [lia|clear - F2; zdiv]|clear - Hk F4; zdiv]]. reflexivity.
Qed.
Print Assumptions pointer_map_array.

(** The bitmap of an empty heap with the given arenas. *)
Definition empty_heap (asz arenas : Z) : heap :=
  fun i => if (0 <=? i) && (i <? arenas) then Some (List.repeat 0 (Z.to_nat (asz / 32))) else None.

Lemma empty_mapped asz n addr size : arena_size asz -> 0 <= addr -> 0 < size -> addr + size <= n * asz ->
  mapped asz (empty_heap asz n) addr size.
Proof.
  intros (P & D) H0 H1 H2 i Hi. unfold empty_heap.
  assert (0 <= i < n).
  { split; [transitivity (addr / asz); [apply Z.div_pos; lia|lia]|].
    apply Z.le_lt_trans with ((addr + size - 1) / asz); [lia|]. apply Z.div_lt_upper_bound; lia. }
  destruct (Z.leb_spec 0 i), (Z.ltb_spec i n); try lia. cbn [andb].
  eexists. split; [reflexivity|]. split.
  - apply Forall_forall. intros x Hx. apply repeat_spec in Hx. subst. unfold is_byte. lia.
  - unfold zlen. rewrite repeat_length, Z2Nat.id; [reflexivity|]. apply Z.div_pos; lia.
Qed.

Definition ARENA_SIZE := 67108864.
Lemma real_arena : arena_size ARENA_SIZE. Proof. split; reflexivity. Qed.

(** C28 fails to be exact for vectors: with elements of two words of which only the second is a pointer
    (last_ptr = 16), the bitmap calls the first word of the storage a pointer *)
Theorem pointer_map_exact_refuted : exists h addr size (element_mask : Z -> bool) e h',
  sane ARENA_SIZE h [(addr, size, rtype_array e)] /\
  mallocs ARENA_SIZE h [(addr, size, rtype_array e)] = Ok h' /\
  (element_mask 0 = false /\ element_mask 1 = true /\ e = 16) /\
  ~ (forall k, 0 <= k < size / 8 -> says_pointer ARENA_SIZE h' (addr + 8 * k) = element_mask (k mod 2)).
Proof.
  pose (m := fun k => k =? 1).
  assert (S : sane ARENA_SIZE (empty_heap ARENA_SIZE 1) [(0, 64, rtype_array 16)]).
  { constructor; [|constructor]. split; [split; [split; [lia|reflexivity]|split; [lia|reflexivity]]|].
    split; [apply empty_mapped; [exact real_arena|lia|lia|unfold ARENA_SIZE; lia]|]. right. left. reflexivity. }
  destruct (pointer_map_array ARENA_SIZE _ [] 0 64 16 [] real_arena S) as (h' & E & P); [lia|intros ? ? ? []|].
  exists (empty_heap ARENA_SIZE 1), 0, 64, m, 16, h'. split; [exact S|]. split; [exact E|]. split; [repeat split|].
  intros Q. assert (R : 0 <= 0 < 64 / 8) by (split; [lia|reflexivity]).
  specialize (Q 0 R). rewrite P in Q by exact R. discriminate Q.
Qed.
Print Assumptions pointer_map_exact_refuted.

(** The collector: it looks at exactly the words the bitmap calls pointers, for an object inside one arena.
    Partial: see the next theorem for objects that cross into another arena. *)
Theorem collector_reads_map_partial asz h addr size t :
  arena_size asz -> fits addr size t -> mapped asz h addr size ->
  addr / asz = (addr + size - 1) / asz ->
  exists l, scan asz h addr size = Ok l /\
    forall a, In a l <-> word_of addr size a /\ says_pointer asz h a = true.
Proof. intros A F. apply scan_spec; [assumption|]. exact F. Qed.
Print Assumptions collector_reads_map_partial.

(** writing and reading together: the collector visits exactly the masked words of a live object *)
Theorem collector_visits_mask asz h before addr size t after :
  arena_size asz -> sane asz h (before ++ (addr, size, t) :: after) -> has_mask size t ->
  (forall addr' size' t', In (addr', size', t') after -> addr' + size' <= addr \/ addr + size <= addr') ->
  addr / asz = (addr + size - 1) / asz ->
  exists h' l, mallocs asz h (before ++ (addr, size, t) :: after) = Ok h' /\ scan asz h' addr size = Ok l /\
    forall a, In a l <-> exists k, 0 <= k < size / 8 /\ a = addr + 8 * k /\ bit (mask t) k = true.
Proof.
  intros A S M D One. pose proof M as (M1 & M2 & _).
  assert (F : fits addr size t /\ mapped asz h addr size) by (apply Forall_app in S as (_ & S); inversion S; subst; tauto).
  destruct F as (F & MP).
  destruct (history asz A h before after addr size t (sane_ok _ _ _ S)) as (h' & E & Sh & P); [lia|assumption|].
  destruct (scan_spec asz A h' addr size) as (l & El & Hl); [exact F|eapply mapped_shape; eassumption|assumption|].
  exists h', l. split; [exact E|]. split; [exact El|]. intros a. rewrite Hl. destruct F as ((F1 & F2) & F3 & F4).
  assert (TS : forall k, type_says t k = bit (mask t) k) by (intros k; unfold type_says; now rewrite M1).
  split.
  - intros (W & Sa). exists ((a - addr) / 8). rewrite P, TS in Sa by assumption. destruct W as ((W1 & W2) & W3).
    split; [clear - W2 F2 F4 W3; zdiv|]. split; [clear - W2 F2; zdiv|assumption].
  - intros (k & Hk & -> & Hb).
    assert (W : word_of addr size (addr + 8 * k)) by (split; [split; [lia|clear - F2; zdiv]|clear - Hk F4; zdiv]).
    split; [exact W|]. rewrite P, TS by exact W. replace (addr + 8 * k - addr) with (k * 8) by lia. now rewrite Z.div_mul.
Qed.
Print Assumptions collector_visits_mask.

(** C28 on the reading side is false for every object that crosses an arena boundary: the collector
    reads past the end of the bitmap of the first arena *)
Theorem collector_crossing_refuted asz h addr size t :
  arena_size asz -> fits addr size t -> mapped asz h addr size ->
  addr / asz < (addr + size - 1) / asz -> scan asz h addr size = UB.
Proof. intros A F. apply scan_crossing; [assumption|]. exact F. Qed.
Print Assumptions collector_crossing_refuted.

(** the hypotheses on concrete cases, with arenas of 64 bytes (8 words, 2 bitmap bytes) *)
Definition t3 : rtype := {| is_arr := false; inline_bits := false; last_ptr := 24; mask := [5] |}.

Example t3_mask : has_mask 32 t3.
Proof.
  split; [reflexivity|]. split; [cbn [last_ptr t3]; lia|]. split; [reflexivity|].
  split; [repeat constructor; unfold is_byte; lia|]. split; [cbn; lia|].
  intros k Hk. change (last_ptr t3 / 8) with 3 in Hk. unfold bit. cbn [mask t3].
  destruct (Z.to_nat (k / 8)) eqn:E; cbn [nth_error]; [|destruct n; reflexivity].
  assert (k / 8 = 0) by (pose proof (Z.div_pos k 8 ltac:(lia) ltac:(lia)); lia).
  assert (k = 3 \/ k = 4 \/ k = 5 \/ k = 6 \/ k = 7) as [->|[->|[->|[->| ->]]]] by (clear - H Hk; zdiv); reflexivity.
Qed.

(** two objects, the second crossing from the first to the second arena *)
Definition two : list (Z * Z * rtype) := [(0, 16, rtype_array 8); (48, 32, t3)].

Example two_sane : sane 64 (empty_heap 64 2) two.
Proof.
  assert (A : arena_size 64) by (split; reflexivity).
  constructor; [|constructor; [|constructor]];
    (split; [split; [split; [lia|reflexivity]|split; [lia|reflexivity]]|split; [apply empty_mapped; [exact A|lia|lia|lia]|]]).
  - right. left. reflexivity.
  - right. right. exact t3_mask.
Qed.

Example two_map : exists h', mallocs 64 (empty_heap 64 2) two = Ok h' /\
  map (says_pointer 64 h') [0; 8; 16; 24; 32; 40; 48; 56; 64; 72; 80]
  = [true; true; false; false; false; false; true; false; true; false; false].
Proof. eexists. split; [vm_compute; reflexivity|vm_compute; reflexivity]. Qed.

Example two_crossing : exists h', mallocs 64 (empty_heap 64 2) two = Ok h' /\
  scan 64 h' 0 16 = Ok [0; 8] /\ scan 64 h' 48 32 = UB.
Proof. eexists. split; [vm_compute; reflexivity|split; vm_compute; reflexivity]. Qed.
