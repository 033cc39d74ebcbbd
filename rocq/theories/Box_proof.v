(** Proofs about boxed values. *)
From Verif Require Import Base Box_model Box_spec.
Import ListNotations.
Open Scope Z_scope.

Lemma load_length m a n : length (load m a n) = n.
Proof. unfold load. now rewrite map_length, seq_length. Qed.

Lemma zlen_load m a n : zlen (load m a n) = Z.of_nat n.
Proof. unfold zlen. now rewrite load_length. Qed.

Lemma load_nth m a n i : (i < n)%nat -> nth_error (load m a n) i = Some (bytes m (a + Z.of_nat i)).
Proof.
  intros L. unfold load. rewrite nth_error_map.
  rewrite (nth_error_nth' (seq 0 n) 0%nat) by now rewrite seq_length.
  now rewrite seq_nth.
Qed.

Lemma nth_error_eq {A} (l1 l2 : list A) : (forall i, nth_error l1 i = nth_error l2 i) -> l1 = l2.
Proof.
  revert l2; induction l1 as [|x l1 IH]; intros [|y l2] E.
  - reflexivity.
  - now specialize (E 0%nat).
  - now specialize (E 0%nat).
  - pose proof (E 0%nat) as E0. injection E0 as ->. f_equal. apply IH. intros i. apply (E (S i)).
Qed.

Lemma load_holds m a bs : holds m a bs -> load m a (length bs) = bs.
Proof.
  intros H. apply nth_error_eq. intros i. destruct (Nat.lt_ge_cases i (length bs)) as [L|L].
  - rewrite load_nth by assumption. destruct (nth_error bs i) as [b|] eqn:E.
    + f_equal. now apply H.
    + apply nth_error_None in E. lia.
  - rewrite (proj2 (nth_error_None bs i)) by lia. apply nth_error_None. rewrite load_length. lia.
Qed.

Lemma store_out m a bs x : x < a \/ a + zlen bs <= x -> bytes (store m a bs) x = bytes m x.
Proof. intros H. cbn [store bytes]. destruct (_ && _) eqn:E; [lia|reflexivity]. Qed.

Lemma store_holds m a bs : holds (store m a bs) a bs.
Proof.
  intros i b E. assert (L : (i < length bs)%nat) by (apply nth_error_Some; congruence).
  cbn [store bytes]. unfold zlen. destruct (_ && _) eqn:C; [|lia].
  replace (Z.to_nat (a + Z.of_nat i - a)) with i by lia. now apply nth_error_nth.
Qed.

Lemma holds_kept m1 m2 a bs : holds m1 a bs -> kept a (zlen bs) m1 m2 -> holds m2 a bs.
Proof.
  intros H K i b E. assert (L : (i < length bs)%nat) by (apply nth_error_Some; congruence).
  rewrite K by (unfold zlen; lia). now apply H.
Qed.

Lemma kept_store m a bs b n : apart a (zlen bs) b n -> kept b n m (store m a bs).
Proof. intros A x Hx. apply store_out. unfold apart in A. lia. Qed.

Lemma kept_trans a n m1 m2 m3 : kept a n m1 m2 -> kept a n m2 m3 -> kept a n m1 m3.
Proof. intros K1 K2 x Hx. rewrite K2, K1; auto. Qed.

Lemma kept_le a n k m1 m2 : kept a n m1 m2 -> k <= n -> kept a k m1 m2.
Proof. intros K L x Hx. apply K. lia. Qed.

Lemma le_length n p : length (le n p) = n.
Proof. revert p; induction n; intros p; cbn [le length]; auto. Qed.

Lemma zlen_le n p : zlen (le n p) = Z.of_nat n.
Proof. unfold zlen. now rewrite le_length. Qed.

Lemma of_le_le n : forall p, 0 <= p -> of_le (le n p) = p mod 256 ^ Z.of_nat n.
Proof.
  induction n as [|n IH]; intros p Hp.
  - cbn. now rewrite Z.mod_1_r.
  - cbn [le of_le]. rewrite IH by (apply Z.div_pos; lia).
    replace (256 ^ Z.of_nat (S n)) with (256 * 256 ^ Z.of_nat n).
    2: { rewrite Nat2Z.inj_succ, Z.pow_succ_r by lia. reflexivity. }
    rewrite Z.rem_mul_r; [lia|lia|]. apply Z.pow_pos_nonneg; lia.
Qed.

Lemma word_round p : address p -> of_le (le 8 p) = p.
Proof.
  intros A. unfold address in A. rewrite of_le_le by lia. apply Z.mod_small.
  change (256 ^ Z.of_nat 8) with (2 ^ 64). lia.
Qed.

Lemma word_at m a p : address p -> holds m a (le 8 p) -> get_word m a = p.
Proof.
  intros A H. unfold get_word.
  pose proof (load_holds _ _ _ H) as E. rewrite le_length in E. rewrite E. now apply word_round.
Qed.

Lemma moved m dst src bs : holds m src bs -> holds (memmove m dst src (length bs)) dst bs.
Proof. intros H. unfold memmove. rewrite (load_holds _ _ _ H). apply store_holds. Qed.

Lemma kept_memmove m dst src n b k : apart dst (Z.of_nat n) b k -> kept b k m (memmove m dst src n).
Proof. intros A. apply kept_store. now rewrite zlen_load. Qed.

Lemma kept_put m a p b k : apart a 8 b k -> kept b k m (put_word m a p).
Proof. intros A. apply kept_store. now rewrite zlen_le. Qed.

Lemma kept_set m a p b k : kept b k m (set_word m a p).
Proof. now intros x Hx. Qed.

Lemma word_set m a w : word (set_word m a w) a = w.
Proof. cbn. now rewrite Z.eqb_refl. Qed.

(** ** Values stored in place *)

Lemma in_place m out w val_at ref bs :
  holds m ref bs -> apart val_at (Z.max 8 (zlen bs)) ref (zlen bs) ->
  let m1 := memmove (put_word (set_word m out w) val_at 0) val_at ref (length bs) in
  holds m1 val_at bs /\ word m1 out = w /\ only val_at (Z.max 8 (zlen bs)) m m1.
Proof.
  intros H A m1. subst m1. split; [|split].
  - apply moved. apply (holds_kept m); auto. eapply kept_trans; [apply kept_set|].
    apply kept_put. unfold apart in *. lia.
  - cbn. now rewrite Z.eqb_refl.
  - intros x Hx. unfold memmove, put_word. rewrite !store_out; [reflexivity| |].
    + rewrite zlen_le. lia.
    + rewrite zlen_load. unfold zlen in Hx. lia.
Qed.

(** ** Values stored in a block of their own *)

Lemma in_block m out w val_at ref blk bs :
  holds m ref bs -> apart val_at 8 ref (zlen bs) -> apart blk (zlen bs) val_at 8 -> address blk ->
  let m1 := put_word (memmove (put_word (set_word m out w) val_at 0) blk ref (length bs)) val_at blk in
  holds m1 blk bs /\ holds m1 val_at (le 8 blk) /\ word m1 out = w /\
  forall x, (x < val_at \/ val_at + 8 <= x) -> (x < blk \/ blk + zlen bs <= x) -> bytes m1 x = bytes m x.
Proof.
  intros H A B Ad m1. subst m1. split; [|split; [|split]].
  - apply (holds_kept (memmove (put_word (set_word m out w) val_at 0) blk ref (length bs))).
    + apply moved. apply (holds_kept m); auto. eapply kept_trans; [apply kept_set|]. now apply kept_put.
    + apply kept_put. unfold apart in *. lia.
  - unfold put_word at 1. apply store_holds.
  - cbn. now rewrite Z.eqb_refl.
  - intros x Hx Hy. unfold memmove, put_word. rewrite !store_out; [reflexivity| | |].
    + rewrite zlen_le. lia.
    + rewrite zlen_load. unfold zlen in Hy. lia.
    + rewrite zlen_le. lia.
Qed.

(** ** The boxes *)

Section Boxes.
  Variable find : Z -> option rtype.
  Hypothesis Reg : registered find.

  Lemma max_room r (bs : list Z) : length bs = r_size r -> Z.max 8 (zlen bs) = room r.
  Proof. unfold room, zlen. now intros ->. Qed.

  Lemma union_stored m out h r ref bs :
    find h = Some r -> length bs = r_size r -> holds m ref bs ->
    apart (value_at out) (room r) ref (zlen bs) ->
    exists m1, union_casting find m out h ref = Ok m1 /\
      holds m1 (value_at out) bs /\ word m1 out = h /\ only (value_at out) (room r) m m1.
  Proof.
    intros F L H A. pose proof (Reg _ _ F) as Hh. rewrite <- (max_room r bs L) in *.
    exists (memmove (put_word (set_word m out h) (value_at out) 0) (value_at out) ref (length bs)).
    split; [|now apply in_place]. unfold union_casting. rewrite F, Hh, L. now destruct (r_kind r).
  Qed.

  Lemma union_taken m box h r dst bs :
    find h = Some r -> length bs = r_size r -> holds m (value_at box) bs -> word m box = h ->
    exists m3, union_assert find m box h dst = Ok m3 /\ holds m3 dst bs /\ only dst (zlen bs) m m3.
  Proof.
    intros F L H W. exists (memmove m dst (value_at box) (length bs)). split; [|split].
    - unfold union_assert. now rewrite W, Z.eqb_refl, F, L.
    - now apply moved.
    - intros x Hx. unfold memmove. apply store_out. rewrite zlen_load. exact Hx.
  Qed.

  Lemma wrong_type m box h h' dst : word m box = h -> h' <> h ->
    union_assert find m box h' dst = Panic /\ any_assert find m box h' dst = Panic /\
    interface_assert find m box h' dst = Panic.
  Proof.
    intros W N. unfold union_assert, any_assert, interface_assert. rewrite W.
    destruct (h =? h') eqn:E; [lia|]. auto.
  Qed.

  (** Where an `any` keeps the bytes of a value. *)
  Definition any_home (r : rtype) (box blk : Z) : Z :=
    match r_kind r with Ind => blk | _ => value_at box end.
  Definition any_ready (r : rtype) (m : mem) (box blk : Z) (bs : list Z) : Prop :=
    holds m (any_home r box blk) bs /\ (r_kind r = Ind -> holds m (value_at box) (le 8 blk)).

  Lemma any_stored m out h r ref blk bs :
    find h = Some r -> length bs = r_size r -> holds m ref bs ->
    (r_kind r <> Ind -> zlen bs <= 8) ->
    apart (value_at out) 8 ref (zlen bs) -> apart blk (zlen bs) (value_at out) 8 -> address blk ->
    exists m1, any_casting find m out h ref false blk = Ok m1 /\
      any_ready r m1 out blk bs /\ word m1 out = h /\
      forall x, (x < value_at out \/ value_at out + 8 <= x) -> (x < blk \/ blk + zlen bs <= x) ->
        bytes m1 x = bytes m x.
  Proof.
    intros F L H Sm A B Ad. pose proof (Reg _ _ F) as Hh.
    unfold any_casting, any_ready, any_home. rewrite F, Hh, <- L.
    destruct (r_kind r); (eexists; split; [reflexivity|]).
    - destruct (in_block m out h (value_at out) ref blk bs H A B Ad) as (I1 & I2 & I3 & I4). auto.
    - assert (E : Z.max 8 (zlen bs) = 8) by (specialize (Sm ltac:(discriminate)); lia).
      destruct (in_place m out h (value_at out) ref bs H) as (I1 & I2 & I3); [now rewrite E|].
      rewrite E in I3. split; [split; [exact I1|discriminate]|]. split; [exact I2|]. intros x Hx _. now apply I3.
    - assert (E : Z.max 8 (zlen bs) = 8) by (specialize (Sm ltac:(discriminate)); lia).
      destruct (in_place m out h (value_at out) ref bs H) as (I1 & I2 & I3); [now rewrite E|].
      rewrite E in I3. split; [split; [exact I1|discriminate]|]. split; [exact I2|]. intros x Hx _. now apply I3.
  Qed.

  Lemma any_taken m box h r dst blk bs :
    find h = Some r -> length bs = r_size r -> any_ready r m box blk bs -> word m box = h -> address blk ->
    exists m3, any_assert find m box h dst = Ok m3 /\ holds m3 dst bs /\ only dst (zlen bs) m m3.
  Proof.
    intros F L (H & P) W Ad. exists (memmove m dst (any_home r box blk) (length bs)). split; [|split].
    - unfold any_assert, any_home in *. rewrite W, Z.eqb_refl, F, L. cbn [negb].
      destruct (r_kind r); try reflexivity. now rewrite (word_at _ _ _ Ad (P eq_refl)).
    - now apply moved.
    - intros x Hx. unfold memmove. apply store_out. rewrite zlen_load. exact Hx.
  Qed.

  Lemma any_kept r m1 m2 box blk bs :
    any_ready r m1 box blk bs -> (r_kind r <> Ind -> zlen bs <= 8) ->
    kept (value_at box) 8 m1 m2 -> kept blk (zlen bs) m1 m2 -> any_ready r m2 box blk bs.
  Proof.
    intros (H & P) Sm K1 K2. unfold any_ready, any_home in *.
    destruct (r_kind r) eqn:K; (split; [|intros X; try discriminate]).
    - now apply (holds_kept m1).
    - apply (holds_kept m1); [now apply P|]. now rewrite zlen_le.
    - apply (holds_kept m1); auto. eapply kept_le; [exact K1|]. apply Sm. discriminate.
    - apply (holds_kept m1); auto. eapply kept_le; [exact K1|]. apply Sm. discriminate.
  Qed.

  (** Where an interface keeps the bytes of a value. *)
  Definition iface_home (r : rtype) (box blk : Z) : Z :=
    match r_kind r with Ptr => ivalue_at box | _ => blk end.
  Definition iface_ready (r : rtype) (m : mem) (box blk : Z) (bs : list Z) : Prop :=
    holds m (iface_home r box blk) bs /\ (r_kind r <> Ptr -> holds m (ivalue_at box) (le 8 blk)).

  Lemma iface_stored m out h r ref blk bs :
    find h = Some r -> length bs = r_size r -> holds m ref bs ->
    (r_kind r = Ptr -> zlen bs <= 8) ->
    apart (ivalue_at out) 8 ref (zlen bs) -> apart blk (zlen bs) (ivalue_at out) 8 -> address blk ->
    exists m1, interface_casting find m out h ref blk = Ok m1 /\
      iface_ready r m1 out blk bs /\ word m1 out = h /\
      forall x, (x < ivalue_at out \/ ivalue_at out + 8 <= x) -> (x < blk \/ blk + zlen bs <= x) ->
        bytes m1 x = bytes m x.
  Proof.
    intros F L H Sm A B Ad. pose proof (Reg _ _ F) as Hh.
    unfold interface_casting, iface_ready, iface_home. rewrite F, Hh, <- L.
    destruct (in_block m out h (ivalue_at out) ref blk bs H A B Ad) as (J1 & J2 & J3 & J4).
    destruct (r_kind r); (eexists; split; [reflexivity|]).
    - auto.
    - assert (E : Z.max 8 (zlen bs) = 8) by (specialize (Sm eq_refl); lia).
      destruct (in_place m out h (ivalue_at out) ref bs H) as (I1 & I2 & I3); [now rewrite E|].
      rewrite E in I3. split; [split; [exact I1|congruence]|]. split; [exact I2|]. intros x Hx _. now apply I3.
    - auto.
  Qed.

  Lemma iface_taken m box h r dst blk bs :
    find h = Some r -> length bs = r_size r -> iface_ready r m box blk bs -> word m box = h -> address blk ->
    exists m3, interface_assert find m box h dst = Ok m3 /\ holds m3 dst bs /\ only dst (zlen bs) m m3.
  Proof.
    intros F L (H & P) W Ad. exists (memmove m dst (iface_home r box blk) (length bs)). split; [|split].
    - unfold interface_assert, iface_home in *. rewrite W, Z.eqb_refl, F, L. cbn [negb].
      destruct (r_kind r); try reflexivity; now rewrite (word_at _ _ _ Ad (P ltac:(discriminate))).
    - now apply moved.
    - intros x Hx. unfold memmove. apply store_out. rewrite zlen_load. exact Hx.
  Qed.

  Lemma iface_kept r m1 m2 box blk bs :
    iface_ready r m1 box blk bs -> (r_kind r = Ptr -> zlen bs <= 8) ->
    kept (ivalue_at box) 8 m1 m2 -> kept blk (zlen bs) m1 m2 -> iface_ready r m2 box blk bs.
  Proof.
    intros (H & P) Sm K1 K2. unfold iface_ready, iface_home in *.
    destruct (r_kind r) eqn:K; (split; [|intros X; try congruence]).
    - now apply (holds_kept m1).
    - apply (holds_kept m1); [now apply P|]. now rewrite zlen_le.
    - apply (holds_kept m1); auto. eapply kept_le; [exact K1|]. now apply Sm.
    - now apply (holds_kept m1).
    - apply (holds_kept m1); [now apply P|]. now rewrite zlen_le.
  Qed.
End Boxes.
