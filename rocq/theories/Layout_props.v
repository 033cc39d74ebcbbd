(** Theorems about the memory layout of types (C82) and the pointer maps of the garbage collector (C83). *)
From Verif Require Import Base Bitmap_model Bitmap_spec Layout_model Layout_spec Layout_proof Layout_gc_proof.

(** ** C82: layout *)
Theorem layout_rule : forall t s a, laid_out t s a <-> s = storage_size t /\ a = alignof t.
Proof.
  intros t s a. split; [|intros [-> ->]; apply laid_out_model].
  intros H. destruct (laid_out_unique t s a H) as [-> ->]. split; reflexivity.
Qed.
Print Assumptions layout_rule.

(** { u8; (u16, u8); [u32; 3]; string; u8 } *)
Example layout_example : laid_out (Struct [([97], Scalar U8); ([98], Tuple [Scalar U16; Scalar U8]); ([99], Arr 3 (Scalar U32));
                                           ([100], String); ([101], Scalar U8)]) 80 8.
Proof. apply layout_rule. split; reflexivity. Qed.

(** the lookup of a field by its name, of a tuple element by its index, the table of fields used for reflection
    and the loops of the code generator agree on where a member is *)
Theorem member_offsets : forall ps os i name t o, NoDup (map fst ps) -> offsets (map snd ps) os ->
  nth_error ps i = Some (name, t) -> nth_error os i = Some o ->
  struct_offset ps name = Ok o /\ tuple_offset (map snd ps) (Z.of_nat i) = o /\
  nth_error (visit_offsets (map snd ps) 0) i = Some o /\ nth_error (reflect_offsets ps) i = Some o.
Proof. exact offset_lookups. Qed.
Print Assumptions member_offsets.

Example member_offsets_example : let ps := [([97], Scalar U8); ([98], Tuple [Scalar U16; Scalar U8]); ([99], Arr 3 (Scalar U32)); ([100], String)] in
  NoDup (map fst ps) /\ offsets (map snd ps) [0; 2; 8; 24] /\ struct_offset ps [99] = Ok 8.
Proof.
  cbv zeta. split; [|split; [|reflexivity]].
  - repeat constructor; cbn [map fst In]; intros H; repeat (destruct H as [H|H]; [discriminate|]); exact H.
  - apply (offsets_model [Scalar U8; Tuple [Scalar U16; Scalar U8]; Arr 3 (Scalar U32); String]).
Qed.

(** members lie in the object, in order, aligned, and do not overlap *)
Theorem members_apart : forall ps os i p o s a size align, offsets (map snd ps) os -> laid_out (Struct ps) size align ->
  nth_error ps i = Some p -> nth_error os i = Some o -> laid_out (snd p) s a ->
  0 <= o /\ o + s <= size /\ (a <> 0 -> (a | o) /\ (a | align) /\ (align | size)) /\
  forall j o', (i < j)%nat -> nth_error os j = Some o' -> o + s <= o'.
Proof. exact members_apart_. Qed.
Print Assumptions members_apart.

Example members_apart_example : let ps := [([97], Scalar U8); ([98], Scalar U64); ([99], Scalar U16)] in
  offsets (map snd ps) [0; 8; 16] /\ laid_out (Struct ps) 24 8 /\ laid_out (Scalar U64) 8 8.
Proof.
  cbv zeta. split; [|split; apply layout_rule; split; reflexivity]. apply (offsets_model [Scalar U8; Scalar U64; Scalar U16]).
Qed.

(** the elements of an array: element i starts i sizes behind the start, is aligned, and lies in the array *)
Theorem elements_apart : forall n e s a size align i, laid_out e s a -> laid_out (Arr n e) size align -> 0 <= i < Z.of_nat n ->
  align = a /\ 0 <= i * s /\ i * s + s <= size /\ (a <> 0 -> (a | i * s)).
Proof. exact elements_apart_. Qed.
Print Assumptions elements_apart.

Example elements_apart_example : laid_out (Struct [([97], Scalar U32); ([98], Scalar U8)]) 8 4 /\
  laid_out (Arr 10 (Struct [([97], Scalar U32); ([98], Scalar U8)])) 80 4.
Proof. split; apply layout_rule; split; reflexivity. Qed.

(** ** C83: pointer maps *)

(** Missing for the full claim, which has no condition on t: `any`, and structs of 64 KiB and more, for which the
    claim is false (below).  For fn, chan and the coroutine handle the description is not that of the value, which
    is a pointer that the collector always follows, but of the object it points to (object_maps). *)
Theorem gc_maps_partial : forall c t s a, laid_out t s a -> ~ In t [Any; Fn; Chan; Coroutine] ->
  (forall ps, t = Struct ps -> s < 65536) ->
  exists r, reflect c t = Ok r /\ right_map t r /\
    gc_heap_size r = (match t with Struct _ => if s =? 0 then 1 else s | _ => s end).
Proof.
  intros c t s a H N ST. apply layout_rule in H. destruct H as [-> _]. destruct (reflect_right c t N ST) as [r [E [R S]]].
  exists r. split; [exact E|]. split; [exact R|]. rewrite S. destruct t; reflexivity.
Qed.
Print Assumptions gc_maps_partial.

Definition node : type_t := Struct [([105], Scalar I32); ([110], Ref); ([116], Tuple [Scalar U8; String; Any]);
                                    ([118], Arr 2 (Tagged_union [Vec; Scalar I64]))].
Example gc_maps_example : laid_out node 200 8 /\ ~ In node [Any; Fn; Chan; Coroutine] /\
  holds false node 8 /\ holds false node 24 /\ holds false node 80 /\ holds false node (32 + 64).
Proof.
  split; [apply layout_rule; split; reflexivity|]. split; [cbn [In]; intros H; repeat (destruct H as [H|H]; [discriminate|]); exact H|].
  assert (O : offsets [Scalar I32; Ref; Tuple [Scalar U8; String; Any]; Arr 2 (Tagged_union [Vec; Scalar I64])] [0; 8; 16; 88]) by apply offsets_model.
  assert (O2 : offsets [Scalar U8; String; Any] [0; 8; 56]) by apply offsets_model.
  split; [|split; [|split]].
  - change 8 with (8 + 0). eapply (holds_struct false _ _ 1); [exact O|reflexivity|reflexivity|]. apply holds_pointer. cbn [In snd]; tauto.
  - change 24 with (16 + (8 + 0)). eapply (holds_struct false _ _ 2); [exact O|reflexivity|reflexivity|]. cbn [snd].
    eapply (holds_tuple false _ _ 1); [exact O2|reflexivity|reflexivity|]. apply holds_data. cbn [In]; tauto.
  - change 80 with (16 + (56 + 8)). eapply (holds_struct false _ _ 2); [exact O|reflexivity|reflexivity|]. cbn [snd].
    eapply (holds_tuple false _ _ 2); [exact O2|reflexivity|reflexivity|]. apply holds_any.
  - change (32 + 64) with (88 + (0 * 56 + (8 + 0))). eapply (holds_struct false _ _ 3); [exact O|reflexivity|reflexivity|]. cbn [snd].
    eapply holds_arr; [apply laid_out_model|lia|]. apply holds_tagged with (t := Vec); [cbn [In]; tauto|]. apply holds_data. cbn [In]; tauto.
Qed.

(** With such a description the collector, scanning a global of the type, fetches the word at every place that may
    hold the address of a heap object, and fetches no word elsewhere. *)
Theorem globals_scanned_partial : forall c t s a, laid_out t s a -> ~ In t [Any; Fn; Chan; Coroutine] ->
  (forall ps, t = Struct ps -> s < 65536) ->
  exists r l, reflect c t = Ok r /\ scan_global r = Ok l /\ (forall o, holds false t o -> In o l) /\ (forall o, In o l -> holds true t o).
Proof.
  intros c t s a H N ST. destruct (gc_maps_partial c t s a H N ST) as [r [E [R _]]]. destruct (scan_right t r R) as [l [L P]].
  exists r, l. split; [exact E|]. split; [exact L|exact P].
Qed.
Print Assumptions globals_scanned_partial.

Example globals_scanned_example : (r <- reflect 0 node ;; scan_global r) = Ok [8; 24; 72; 80; 96; 104; 112; 120; 128; 136; 152; 160; 168; 176; 184; 192].
Proof. vm_compute. reflexivity. Qed.

(** what a chan and a fn point to: a channel keeps the addresses of its lock's and its queues' coroutines and of
    its buffer in its first five words, a function object its environment in the first of two words *)
Theorem object_maps : forall c, 40 <= c -> exists rc rf, reflect c Chan = Ok rc /\ reflect c Fn = Ok rf /\
  scan_global rc = Ok [0; 8; 16; 24; 32] /\ gc_heap_size rc = c /\ scan_global rf = Ok [0] /\ gc_heap_size rf = 16.
Proof. exact object_maps_. Qed.
Print Assumptions object_maps.

(** The value in an `any` is behind its type, in the second word; the description of `any` marks the first word
    only.  So the collector does not see what a global of type any refers to. *)
Theorem gc_map_any_refuted : exists r, reflect 0 Any = Ok r /\ holds false Any 8 /\ scan_global r = Ok [0] /\ ~ right_map Any r.
Proof.
  eexists. split; [reflexivity|]. split; [apply holds_any|]. split; [vm_compute; reflexivity|].
  intros [H _]. destruct (H 8 (holds_any false)) as [i [E [_ [B _]]]]. replace i with 1 in B by lia. vm_compute in B. discriminate.
Qed.
Print Assumptions gc_map_any_refuted.

(** A struct whose last pointer ends at 65536 is described as one without pointers: the end of the last pointer is
    kept in sixteen bits. *)
Theorem gc_map_struct_refuted : exists t r, laid_out t 65536 8 /\ holds false t 65528 /\ reflect 0 t = Ok r /\
  last_ptr r = 0 /\ scan_global r = Ok [] /\ ~ right_map t r.
Proof. exact big_struct. Qed.
Print Assumptions gc_map_struct_refuted.
