(** C122: a value put into a union, `any`, interface or tagged union comes back unchanged. *)
From Verif Require Import Base Box_model Box_spec Box_proof.
Import ListNotations.
Open Scope Z_scope.

(** A union.  The value is taken out after anything at all has happened to the rest of memory, the
    variable it came from included.  Asking for another type panics, and `is` knows. *)
Theorem c122_union : forall find, registered find -> forall m out h r ref bs,
  find h = Some r -> length bs = r_size r -> holds m ref bs ->
  apart (out + 8) (room r) ref (zlen bs) ->
  exists m1, union_casting find m out h ref = Ok m1 /\
    only (out + 8) (room r) m m1 /\
    forall m2, kept (out + 8) (room r) m1 m2 -> word m2 out = word m1 out ->
      (forall h', box_is m2 out h' = true <-> h' = h) /\
      forall dst,
        (exists m3, union_assert find m2 out h dst = Ok m3 /\ holds m3 dst bs /\ only dst (zlen bs) m2 m3) /\
        (forall h', h' <> h -> union_assert find m2 out h' dst = Panic).
Proof.
  intros find Reg m out h r ref bs F L H A.
  destruct (union_stored find Reg m out h r ref bs F L H A) as (m1 & E & I1 & I2 & I3).
  exists m1. split; [exact E|]. split; [exact I3|]. intros m2 K W. rewrite I2 in W. split.
  - intros h'. unfold box_is. rewrite W. lia.
  - intros dst. split.
    + apply (union_taken find m2 out h r dst bs F L); auto. apply (holds_kept m1); auto.
      eapply kept_le; [exact K|]. rewrite <- (max_room r bs L). lia.
    + intros h' N. now apply (wrong_type find m2 out h h' dst W N).
Qed.
Print Assumptions c122_union.

(** `any`.  A value that is no struct, array or the like takes a word at most; the others are
    copied to a block of their own, [blk]. *)
Theorem c122_any : forall find, registered find -> forall m out h r ref blk bs,
  find h = Some r -> length bs = r_size r -> holds m ref bs ->
  (r_kind r <> Ind -> zlen bs <= 8) ->
  apart (out + 8) 8 ref (zlen bs) -> apart blk (zlen bs) (out + 8) 8 -> address blk ->
  exists m1, any_casting find m out h ref false blk = Ok m1 /\
    (forall x, (x < out + 8 \/ out + 8 + 8 <= x) -> (x < blk \/ blk + zlen bs <= x) -> bytes m1 x = bytes m x) /\
    forall m2, kept (out + 8) 8 m1 m2 -> kept blk (zlen bs) m1 m2 -> word m2 out = word m1 out ->
      (forall h', box_is m2 out h' = true <-> h' = h) /\
      forall dst,
        (exists m3, any_assert find m2 out h dst = Ok m3 /\ holds m3 dst bs /\ only dst (zlen bs) m2 m3) /\
        (forall h', h' <> h -> any_assert find m2 out h' dst = Panic).
Proof.
  intros find Reg m out h r ref blk bs F L H Sm A B Ad.
  destruct (any_stored find Reg m out h r ref blk bs F L H Sm A B Ad) as (m1 & E & I1 & I2 & I3).
  exists m1. split; [exact E|]. split; [exact I3|]. intros m2 K1 K2 W. rewrite I2 in W. split.
  - intros h'. unfold box_is. rewrite W. lia.
  - intros dst. split.
    + apply (any_taken find m2 out h r dst blk bs F L); auto. now apply (any_kept r m1).
    + intros h' N. now apply (wrong_type find m2 out h h' dst W N).
Qed.
Print Assumptions c122_any.

(** An interface: only pointers stay in the box, every other value is copied to a block. *)
Theorem c122_interface : forall find, registered find -> forall m out h r ref blk bs,
  find h = Some r -> length bs = r_size r -> holds m ref bs ->
  (r_kind r = Ptr -> zlen bs <= 8) ->
  apart out 8 ref (zlen bs) -> apart blk (zlen bs) out 8 -> address blk ->
  exists m1, interface_casting find m out h ref blk = Ok m1 /\
    (forall x, (x < out \/ out + 8 <= x) -> (x < blk \/ blk + zlen bs <= x) -> bytes m1 x = bytes m x) /\
    forall m2, kept out 8 m1 m2 -> kept blk (zlen bs) m1 m2 -> word m2 out = word m1 out ->
      (forall h', box_is m2 out h' = true <-> h' = h) /\
      forall dst,
        (exists m3, interface_assert find m2 out h dst = Ok m3 /\ holds m3 dst bs /\ only dst (zlen bs) m2 m3) /\
        (forall h', h' <> h -> interface_assert find m2 out h' dst = Panic).
Proof.
  intros find Reg m out h r ref blk bs F L H Sm A B Ad.
  destruct (iface_stored find Reg m out h r ref blk bs F L H Sm A B Ad) as (m1 & E & I1 & I2 & I3).
  exists m1. split; [exact E|]. split; [exact I3|]. intros m2 K1 K2 W. rewrite I2 in W. split.
  - intros h'. unfold box_is. rewrite W. lia.
  - intros dst. split.
    + apply (iface_taken find m2 out h r dst blk bs F L); auto. now apply (iface_kept r m1).
    + intros h' N. now apply (wrong_type find m2 out h h' dst W N).
Qed.
Print Assumptions c122_interface.

(** A union handed on as `any`: what the union held can be taken out of the `any`. *)
Theorem c122_union_to_any : forall find, registered find -> forall m out input h r blk bs m0 dst0,
  find h = Some r -> length bs = r_size r ->
  union_assert find m input h dst0 = Ok m0 -> holds m0 dst0 bs ->
  (r_kind r <> Ind -> zlen bs <= 8) ->
  apart (out + 8) 8 (input + 8) (zlen bs) -> apart blk (zlen bs) (out + 8) 8 -> address blk ->
  exists m1, union_to_any find m out input false blk = Ok m1 /\
    forall m2, kept (out + 8) 8 m1 m2 -> kept blk (zlen bs) m1 m2 -> word m2 out = word m1 out ->
      forall dst,
        (exists m3, any_assert find m2 out h dst = Ok m3 /\ holds m3 dst bs) /\
        (forall h', h' <> h -> any_assert find m2 out h' dst = Panic).
Proof.
  intros find Reg m out input h r blk bs m0 dst0 F L U H0 Sm A B Ad.
  unfold union_assert in U. destruct (word m input =? h) eqn:W0; [|discriminate]. cbn [negb] in U.
  rewrite F in U. injection U as <-.
  assert (H : holds m (input + 8) bs).
  { assert (X : bs = load m (input + 8) (length bs)).
    { rewrite L. rewrite <- (load_holds _ _ _ H0), L. apply nth_error_eq. intros i.
      destruct (Nat.lt_ge_cases i (r_size r)) as [Q|Q].
      - rewrite load_nth by assumption. rewrite (load_nth m) by assumption.
        f_equal. apply store_holds. now rewrite load_nth.
      - rewrite !(proj2 (nth_error_None _ i)); auto; rewrite load_length; lia. }
    intros i b E. rewrite X in E. rewrite load_nth in E; [congruence|].
    rewrite <- (load_length m (input + 8) (length bs)). apply nth_error_Some. congruence. }
  unfold union_to_any. replace (word m input) with h by lia.
  destruct (c122_any find Reg m out h r (input + 8) blk bs F L H Sm A B Ad) as (m1 & E & _ & K).
  exists m1. split; [exact E|]. intros m2 K1 K2 W dst.
  destruct (K m2 K1 K2 W) as (_ & Y). destruct (Y dst) as ((m3 & Y1 & Y2 & _) & Y3). split; eauto.
Qed.
Print Assumptions c122_union_to_any.

(** A tagged union: the payload stands in the box unchanged, under its tag. *)
Theorem c122_tagged : forall find m out tag h r ref bs,
  find h = Some r -> h <> 0 -> length bs = r_size r -> holds m ref bs ->
  apart (out + 8) (room r) ref (zlen bs) ->
  exists m1, tagged_union_casting find m out tag h ref = Ok m1 /\
    only (out + 8) (room r) m m1 /\ holds m1 (out + 8) bs /\
    (forall t, box_is m1 out t = true <-> t = tag).
Proof.
  intros find m out tag h r ref bs F N L H A.
  destruct (in_place m out tag (out + 8) ref bs H) as (I1 & I2 & I3).
  { now rewrite (max_room r bs L). }
  rewrite (max_room r bs L) in I3. eexists. split; [|split; [exact I3|split; [exact I1|]]].
  - unfold tagged_union_casting. destruct (h =? 0) eqn:Z0; [lia|]. now rewrite F, L.
  - intros t. unfold box_is. rewrite I2. lia.
Qed.
Print Assumptions c122_tagged.

(** A tag without a payload. *)
Theorem c122_tagged_bare : forall find m out tag ref,
  exists m1, tagged_union_casting find m out tag 0 ref = Ok m1 /\
    only (out + 8) 8 m m1 /\ (forall t, box_is m1 out t = true <-> t = tag).
Proof.
  intros find m out tag ref. eexists. split; [reflexivity|]. split.
  - intros x Hx. unfold put_word. rewrite store_out; [reflexivity|]. rewrite zlen_le. exact Hx.
  - intros t. unfold box_is, put_word. cbn [store word set_word]. rewrite Z.eqb_refl. lia.
Qed.
Print Assumptions c122_tagged_bare.

(** ** Cases that meet the hypotheses *)

(** Type 7 is a struct of 12 bytes, type 9 an i32, type 11 a pointer. *)
Definition types (h : Z) : option rtype :=
  if h =? 7 then Some (mk_rtype 7 Ind 12)
  else if h =? 9 then Some (mk_rtype 9 Dir 4)
  else if h =? 11 then Some (mk_rtype 11 Ptr 8)
  else None.

Example types_registered : registered types.
Proof.
  intros h r. unfold types. destruct (h =? 7) eqn:E7; [intros [= <-]; cbn; lia|].
  destruct (h =? 9) eqn:E9; [intros [= <-]; cbn; lia|].
  destruct (h =? 11) eqn:E11; [intros [= <-]; cbn; lia|discriminate].
Qed.

Definition text : list Z := [1; 2; 3; 4; 5; 6; 7; 8; 9; 10; 11; 12].
Definition m0 : mem := store (mk_mem (fun _ => 255) (fun _ => 0)) 100 text.

Example union_case : exists m1, union_casting types m0 200 7 100 = Ok m1 /\
  exists m3, union_assert types (store m1 100 [42; 42]) 200 7 300 = Ok m3 /\ holds m3 300 text.
Proof.
  destruct (c122_union types types_registered m0 200 7 _ 100 text eq_refl eq_refl) as (m1 & E & _ & K).
  - apply store_holds.
  - right. cbn. lia.
  - exists m1. split; [exact E|]. destruct (K (store m1 100 [42; 42])) as (_ & Y).
    + apply kept_store. left. cbn. lia.
    + reflexivity.
    + destruct (Y 300) as ((m3 & Y1 & Y2 & _) & _). eauto.
Qed.

Example any_case : exists m1, any_casting types m0 200 7 100 false 4096 = Ok m1 /\
  exists m3, any_assert types (store m1 100 [42; 42]) 200 7 300 = Ok m3 /\ holds m3 300 text.
Proof.
  destruct (c122_any types types_registered m0 200 7 _ 100 4096 text eq_refl eq_refl) as (m1 & E & _ & K).
  - apply store_holds.
  - intros N. now contradiction N.
  - right. cbn. lia.
  - right. cbn. lia.
  - split; cbn; lia.
  - exists m1. split; [exact E|]. destruct (K (store m1 100 [42; 42])) as (_ & Y).
    + apply kept_store. left. cbn. lia.
    + apply kept_store. left. cbn. lia.
    + reflexivity.
    + destruct (Y 300) as ((m3 & Y1 & Y2 & _) & _). eauto.
Qed.

Example interface_case : exists m1, interface_casting types m0 200 9 100 4096 = Ok m1 /\
  exists m3, interface_assert types m1 200 9 300 = Ok m3 /\ holds m3 300 [1; 2; 3; 4] /\
    interface_assert types m1 200 7 300 = Panic.
Proof.
  destruct (c122_interface types types_registered m0 200 9 _ 100 4096 [1; 2; 3; 4] eq_refl eq_refl)
    as (m1 & E & _ & K).
  - intros i b Hi. destruct i as [|[|[|[|i]]]]; cbn in Hi; try (injection Hi as <-; reflexivity).
    destruct i; discriminate.
  - intros N. discriminate.
  - right. cbn. lia.
  - right. cbn. lia.
  - split; cbn; lia.
  - exists m1. split; [exact E|].
    destruct (K m1) as (_ & Y); [now intros x _ | now intros x _ | reflexivity |].
    destruct (Y 300) as ((m3 & Y1 & Y2 & _) & Y4). exists m3. split; [exact Y1|]. split; [exact Y2|].
    apply Y4. discriminate.
Qed.

Example union_to_any_case : exists m1 m4, union_casting types m0 200 7 100 = Ok m1 /\
  union_to_any types m1 400 200 false 4096 = Ok m4.
Proof. do 2 eexists. split; reflexivity. Qed.

(** ** In `fx` code *)

(** An `any` made in `fx` code from a struct refers to the variable: a later write to the variable
    is seen in the box, so the full statement is false there. *)
Theorem c122_any_fx_refuted : exists find m out h r ref bs m1 m2,
  registered find /\ find h = Some r /\ length bs = r_size r /\ holds m ref bs /\
  apart (out + 8) 8 ref (zlen bs) /\ address ref /\
  any_casting find m out h ref true 4096 = Ok m1 /\
  kept (out + 8) 8 m1 m2 /\ word m2 out = word m1 out /\
  exists dst m3, any_assert find m2 out h dst = Ok m3 /\ ~ holds m3 dst bs.
Proof.
  exists types, m0, 200, 7, (mk_rtype 7 Ind 12), 100, text.
  eexists. eexists (store _ 100 [42]).
  split; [apply types_registered|]. do 2 (split; [reflexivity|]).
  split; [apply store_holds|]. split; [right; cbn; lia|]. split; [split; cbn; lia|].
  split; [reflexivity|]. split; [apply kept_store; left; cbn; lia|]. split; [reflexivity|].
  exists 300. eexists. split; [reflexivity|]. intros H. specialize (H 0%nat 1 eq_refl).
  vm_compute in H. discriminate.
Qed.
Print Assumptions c122_any_fx_refuted.

(** What `fx` code does get: the bytes the variable has at the time of the assertion. *)
Theorem c122_any_fx_partial : forall find, registered find -> forall m out h r ref blk bs,
  find h = Some r -> r_kind r = Ind -> length bs = r_size r -> address ref ->
  exists m1, any_casting find m out h ref true blk = Ok m1 /\
    only (out + 8) 8 m m1 /\
    forall m2, kept (out + 8) 8 m1 m2 -> word m2 out = word m1 out -> holds m2 ref bs ->
      forall dst,
        (exists m3, any_assert find m2 out h dst = Ok m3 /\ holds m3 dst bs) /\
        (forall h', h' <> h -> any_assert find m2 out h' dst = Panic).
Proof.
  intros find Reg m out h r ref blk bs F Kd L Ad. unfold any_casting. rewrite F, Kd, (Reg _ _ F).
  eexists. split; [reflexivity|]. split.
  - intros x Hx. unfold put_word. rewrite !store_out; [reflexivity| |]; rewrite zlen_le; exact Hx.
  - intros m2 K W H dst. cbn [put_word store word set_word] in W. rewrite Z.eqb_refl in W. split.
    + destruct (any_taken find m2 out h r dst ref bs F L) as (m3 & Y1 & Y2 & _); auto.
      * unfold any_ready, any_home. rewrite Kd. split; [exact H|]. intros _.
        eapply holds_kept; [|rewrite zlen_le; exact K]. unfold put_word at 1. apply store_holds.
      * eauto.
    + intros h' N. now apply (wrong_type find m2 out h h' dst W N).
Qed.
Print Assumptions c122_any_fx_partial.
