(** Lists by integer position (proof tool, not part of the model). *)
From Verif Require Import Base Base_lemmas.

Definition znth {A} (l : list A) (i : Z) : option A :=
  if i <? 0 then None else nth_error l (Z.to_nat i).

Lemma znth_range {A} (l : list A) i x : znth l i = Some x -> 0 <= i < zlen l.
Proof.
  unfold znth. destruct (i <? 0) eqn:E; [discriminate|]. intros H.
  assert (nth_error l (Z.to_nat i) <> None) as H1 by congruence. apply nth_error_Some in H1. unfold zlen. lia.
Qed.

Lemma znth_Some {A} (l : list A) i : 0 <= i < zlen l -> exists x, znth l i = Some x.
Proof.
  intros H. unfold znth. replace (i <? 0) with false by lia.
  destruct (nth_error l (Z.to_nat i)) eqn:E; [eauto|]. apply nth_error_None in E. unfold zlen in H. lia.
Qed.

Lemma znth_None {A} (l : list A) i : i < 0 \/ zlen l <= i -> znth l i = None.
Proof.
  intros H. destruct (znth l i) eqn:E; [|reflexivity]. apply znth_range in E. lia.
Qed.

Lemma znth_ext {A} (l m : list A) : (forall i, 0 <= i -> znth l i = znth m i) -> l = m.
Proof.
  revert m. induction l as [|x l IH]; intros [|y m] H.
  - reflexivity.
  - specialize (H 0 ltac:(lia)). discriminate.
  - specialize (H 0 ltac:(lia)). discriminate.
  - pose proof (H 0 ltac:(lia)) as H0. cbn in H0. injection H0 as ->. f_equal. apply IH.
    intros i Hi. specialize (H (1 + i) ltac:(lia)). unfold znth in *.
    replace (1 + i <? 0) with false in H by lia. replace (i <? 0) with false by lia.
    replace (Z.to_nat (1 + i)) with (S (Z.to_nat i)) in H by lia. exact H.
Qed.

Lemma znth_ext_len {A} (l m : list A) : zlen l = zlen m ->
  (forall i, 0 <= i < zlen l -> znth l i = znth m i) -> l = m.
Proof.
  intros HL H. apply znth_ext. intros i Hi. destruct (Z_lt_dec i (zlen l)); [apply H; lia|].
  rewrite !znth_None by lia. reflexivity.
Qed.

Lemma znth_nil {A} i : znth (@nil A) i = None.
Proof. apply znth_None. rewrite zlen_nil. lia. Qed.

Lemma znth_app {A} (l m : list A) i : 0 <= i ->
  znth (l ++ m) i = if i <? zlen l then znth l i else znth m (i - zlen l).
Proof.
  intros Hi. unfold znth. replace (i <? 0) with false by lia. destruct (i <? zlen l) eqn:E.
  - apply nth_error_app1. unfold zlen in E. lia.
  - replace (i - zlen l <? 0) with false by lia. rewrite nth_error_app2 by (unfold zlen in E; lia).
    f_equal. unfold zlen. lia.
Qed.

Lemma znth_app_l {A} (l m : list A) i : i < zlen l -> znth (l ++ m) i = znth l i.
Proof.
  intros Hi. destruct (Z_lt_dec i 0); [rewrite !znth_None by lia; reflexivity|].
  rewrite znth_app by lia. now replace (i <? zlen l) with true by lia.
Qed.

Lemma znth_app_r {A} (l m : list A) i : zlen l <= i -> znth (l ++ m) i = znth m (i - zlen l).
Proof.
  intros Hi. pose proof (zlen_nonneg l). rewrite znth_app by lia. now replace (i <? zlen l) with false by lia.
Qed.

Lemma znth_cons_0 {A} (x : A) l : znth (x :: l) 0 = Some x.
Proof. reflexivity. Qed.

Lemma znth_cons {A} (x : A) l i : 0 < i -> znth (x :: l) i = znth l (i - 1).
Proof.
  intros Hi. change (x :: l) with ([x] ++ l). rewrite znth_app_r; [reflexivity|].
  rewrite zlen_cons, zlen_nil. lia.
Qed.

Lemma znth_snoc {A} (l : list A) x i : 0 <= i ->
  znth (l ++ [x]) i = if i <? zlen l then znth l i else if i =? zlen l then Some x else None.
Proof.
  intros Hi. rewrite znth_app by lia. destruct (i <? zlen l) eqn:E; [reflexivity|].
  destruct (Z.eqb_spec i (zlen l)) as [->|]; [now rewrite Z.sub_diag|].
  apply znth_None. rewrite zlen_cons, zlen_nil. lia.
Qed.

Lemma znth_firstn {A} (l : list A) n i : 0 <= i ->
  znth (firstn n l) i = if i <? Z.of_nat n then znth l i else None.
Proof.
  intros Hi. unfold znth. replace (i <? 0) with false by lia.
  destruct (i <? Z.of_nat n) eqn:E.
  - rewrite <- (firstn_skipn n l) at 2. destruct (Nat.lt_ge_cases (Z.to_nat i) (length (firstn n l))) as [H|H].
    + now rewrite nth_error_app1.
    + assert (length l <= Z.to_nat i)%nat by (rewrite firstn_length in H; lia).
      rewrite firstn_skipn. now rewrite !(proj2 (nth_error_None _ _)) by lia.
  - apply nth_error_None. rewrite firstn_length. lia.
Qed.

Lemma znth_skipn {A} (l : list A) n i : 0 <= i -> znth (skipn n l) i = znth l (Z.of_nat n + i).
Proof.
  intros Hi. unfold znth. replace (i <? 0) with false by lia. replace (Z.of_nat n + i <? 0) with false by lia.
  replace (Z.to_nat (Z.of_nat n + i)) with (n + Z.to_nat i)%nat by lia. clear Hi.
  revert n. induction l as [|x l IH]; intros [|n]; cbn [skipn Nat.add nth_error]; auto.
  now destruct (Z.to_nat i).
Qed.

Lemma znth_sub_list {A} (l : list A) a b i : 0 <= a -> 0 <= i ->
  znth (sub_list l a b) i = if i <? b - a then znth l (a + i) else None.
Proof.
  intros Ha Hi. unfold sub_list. rewrite znth_firstn by lia.
  destruct (Z_le_dec 0 (b - a)).
  - rewrite Z2Nat.id by lia. destruct (i <? b - a); [|reflexivity]. rewrite znth_skipn by lia. f_equal. lia.
  - replace (i <? Z.of_nat (Z.to_nat (b - a))) with false by lia. now replace (i <? b - a) with false by lia.
Qed.

Lemma znth_list_set {A} (l : list A) n x i : 0 <= i -> (n < length l)%nat ->
  znth (list_set l n x) i = if i =? Z.of_nat n then Some x else znth l i.
Proof.
  intros Hi Hn. unfold znth. replace (i <? 0) with false by lia. rewrite nth_error_list_set.
  destruct (Nat.eqb_spec n (Z.to_nat i)).
  - replace (Nat.ltb n (length l)) with true by (symmetry; apply Nat.ltb_lt; lia).
    now replace (i =? Z.of_nat n) with true by lia.
  - now replace (i =? Z.of_nat n) with false by lia.
Qed.

Lemma znth_list_set_z {A} (l : list A) k x i : 0 <= k < zlen l ->
  znth (list_set l (Z.to_nat k) x) i = if i =? k then Some x else znth l i.
Proof.
  intros Hk. destruct (Z_lt_dec i 0).
  - rewrite !znth_None by lia. now replace (i =? k) with false by lia.
  - rewrite znth_list_set by (unfold zlen in Hk; lia). now rewrite Z2Nat.id by lia.
Qed.

Lemma znth_repeat {A} (x : A) n i : 0 <= i < Z.of_nat n -> znth (repeat x n) i = Some x.
Proof.
  intros Hi. unfold znth. replace (i <? 0) with false by lia. apply nth_error_repeat. lia.
Qed.

Lemma zlen_repeat {A} (x : A) n : zlen (repeat x n) = Z.of_nat n.
Proof. unfold zlen. now rewrite repeat_length. Qed.

Lemma zlen_firstn {A} (l : list A) n : zlen (firstn n l) = Z.min (Z.of_nat n) (zlen l).
Proof. unfold zlen. rewrite firstn_length. lia. Qed.

Lemma zlen_skipn {A} (l : list A) n : zlen (skipn n l) = Z.max 0 (zlen l - Z.of_nat n).
Proof. unfold zlen. rewrite skipn_length. lia. Qed.

Lemma znth_at {A} (l : list A) i x : znth l i = Some x -> at_ l i = Ok x.
Proof.
  intros H. pose proof (znth_range _ _ _ H). apply nth_at; [lia|]. unfold znth in H.
  now replace (i <? 0) with false in H by lia.
Qed.

Lemma at_znth {A} (l : list A) i x : at_ l i = Ok x -> znth l i = Some x.
Proof.
  intros H. apply at_nth in H as (H & Hi). unfold znth. now replace (i <? 0) with false by lia.
Qed.

Lemma at_out {A} (l : list A) i : i < 0 \/ zlen l <= i -> at_ l i = Panic.
Proof. intros H. unfold at_. now replace ((0 <=? i) && (i <? zlen l)) with false by lia. Qed.

Lemma znth_In {A} (l : list A) i x : znth l i = Some x -> In x l.
Proof. unfold znth. destruct (i <? 0); [discriminate|]. apply nth_error_In. Qed.

Lemma In_znth {A} (l : list A) x : In x l -> exists i, znth l i = Some x.
Proof.
  intros H. apply In_nth_error in H as [n Hn]. exists (Z.of_nat n). unfold znth.
  replace (Z.of_nat n <? 0) with false by lia. now rewrite Nat2Z.id.
Qed.

Lemma znth_map {A B} (f : A -> B) l i : znth (map f l) i = option_map f (znth l i).
Proof. unfold znth. destruct (i <? 0); [reflexivity|]. apply nth_error_map. Qed.

(** C array access: outside the array is undefined behaviour. *)
Definition rd {A} (l : list A) (i : Z) : res A :=
  match znth l i with Some x => Ok x | None => UB end.
Definition wr {A} (l : list A) (i : Z) (x : A) : res (list A) :=
  if (0 <=? i) && (i <? zlen l) then Ok (list_set l (Z.to_nat i) x) else UB.

Lemma wr_ok {A} (l : list A) i x : 0 <= i < zlen l -> wr l i x = Ok (list_set l (Z.to_nat i) x).
Proof. intros H. unfold wr. now replace ((0 <=? i) && (i <? zlen l)) with true by lia. Qed.

Lemma wr_inv {A} (l l' : list A) i x : wr l i x = Ok l' -> 0 <= i < zlen l /\ l' = list_set l (Z.to_nat i) x.
Proof. unfold wr. destruct ((0 <=? i) && (i <? zlen l)) eqn:E; [|discriminate]. intros [= <-]. split; [lia|reflexivity]. Qed.

Lemma rd_ok {A} (l : list A) i x : znth l i = Some x -> rd l i = Ok x.
Proof. intros H. unfold rd. now rewrite H. Qed.

Lemma rd_inv {A} (l : list A) i x : rd l i = Ok x -> znth l i = Some x.
Proof. unfold rd. destruct (znth l i); [|discriminate]. now intros [= ->]. Qed.
