From Verif Require Import Base Base_lemmas Sort_model Sort_spec.
From Coq Require Import Permutation Sorted.

Section sort_proof.
Context {A S : Type}.
Variable less : S -> list A -> Z -> Z -> bool * S.
Variable lt : A -> A -> bool.
Variable d : A.
(** [good]: the comparator decides lt, a strict weak order.  With good := False everything
    below speaks about an arbitrary comparator. *)
Variable good : Prop.
Hypothesis Hswo : good -> strict_weak_order lt.
Hypothesis Hless : good -> compares lt less.

Notation st := (list A * S)%type.
Definition get (v : list A) (i : Z) : A := nth (Z.to_nat i) v d.
Definition le (x y : A) : Prop := lt y x = false.

Lemma le_refl : good -> forall x, le x x.
Proof using Hswo. intros g x. apply (Hswo g). Qed.

Lemma lt_le : good -> forall x y, lt x y = true -> le x y.
Proof using Hswo Hless.
  intros g x y H. unfold le. destruct (lt y x) eqn:E; [|reflexivity].
  pose proof (swo_trans _ (Hswo g) _ _ _ H E) as Hx. now rewrite (swo_irrefl _ (Hswo g)) in Hx.
Qed.

Lemma le_trans : good -> forall x y z, le x y -> le y z -> le x z.
Proof using Hswo Hless.
  unfold le. intros g x y z H1 H2. destruct (lt z x) eqn:E; [|reflexivity].
  destruct (lt x y) eqn:Exy.
  - pose proof (swo_trans _ (Hswo g) _ _ _ E Exy). congruence.
  - destruct (lt y z) eqn:Eyz.
    + pose proof (swo_trans _ (Hswo g) _ _ _ Eyz E). congruence.
    + destruct (swo_incomp _ (Hswo g) x y z) as [_ ?]; congruence.
Qed.

(** ** Range permutations *)

Definition rperm (a b : Z) (v w : list A) : Prop :=
  length v = length w /\ Permutation v w /\
  forall i, 0 <= i -> (i < a \/ b <= i) -> get w i = get v i.

Lemma rperm_refl a b v : rperm a b v v.
Proof using. repeat split; auto. Qed.

Lemma rperm_trans a b u v w : rperm a b u v -> rperm a b v w -> rperm a b u w.
Proof using.
  intros (L1 & P1 & H1) (L2 & P2 & H2). repeat split; [congruence|eapply Permutation_trans; eauto|].
  intros i Hi Ho. rewrite H2, H1; auto.
Qed.

Lemma rperm_widen a b a' b' v w : a' <= a -> b <= b' -> rperm a b v w -> rperm a' b' v w.
Proof using. intros Ha Hb (L & P & H). repeat split; auto. intros i Hi Ho. apply H; lia. Qed.

Lemma rperm_zlen a b v w : rperm a b v w -> zlen w = zlen v.
Proof using. intros (L & _). unfold zlen. now rewrite L. Qed.

Lemma nth_ext_z (v w : list A) : length v = length w ->
  (forall i, 0 <= i < zlen v -> get v i = get w i) -> v = w.
Proof using.
  intros HL H. apply (nth_ext v w d d HL). intros n Hn.
  specialize (H (Z.of_nat n)). unfold get in H. rewrite Nat2Z.id in H. apply H. unfold zlen. lia.
Qed.

Lemma get_app_l (u w : list A) i : 0 <= i < zlen u -> get (u ++ w) i = get u i.
Proof using. intros H. unfold get. apply app_nth1. unfold zlen in H. lia. Qed.

Lemma get_app_r (u w : list A) i : zlen u <= i -> get (u ++ w) i = get w (i - zlen u).
Proof using.
  intros H. unfold get. rewrite app_nth2 by (unfold zlen in H; lia). f_equal. unfold zlen in *. lia.
Qed.

Lemma get_in (v : list A) i : 0 <= i < zlen v -> In (get v i) v.
Proof using. intros H. unfold get. apply nth_In. unfold zlen in H. lia. Qed.

Lemma in_get (v : list A) x : In x v -> exists i, 0 <= i < zlen v /\ get v i = x.
Proof using.
  intros H. apply (In_nth v x d) in H as (n & Hn & He). exists (Z.of_nat n).
  unfold get, zlen. rewrite Nat2Z.id. split; [lia|assumption].
Qed.

(** Split along a range. *)
Lemma range_split (v : list A) a b : 0 <= a <= b -> b <= zlen v ->
  exists p m q, v = p ++ m ++ q /\ zlen p = a /\ zlen m = b - a.
Proof using.
  intros Ha Hb. destruct (split_at v a ltac:(lia)) as (p & r & -> & Hp).
  rewrite zlen_app in Hb. destruct (split_at r (b - a) ltac:(lia)) as (m & q & -> & Hm).
  exists p, m, q. auto.
Qed.

Lemma rperm_segments a b v w : 0 <= a <= b -> b <= zlen v -> rperm a b v w ->
  exists p m m' q, v = p ++ m ++ q /\ w = p ++ m' ++ q /\ zlen p = a /\ zlen m = b - a /\ Permutation m m'.
Proof using.
  intros Ha Hb Hr. pose proof (rperm_zlen _ _ _ _ Hr) as HL. destruct Hr as (L & P & H).
  destruct (range_split v a b Ha Hb) as (p & m & q & -> & Hp & Hm).
  destruct (range_split w a b Ha ltac:(lia)) as (p' & m' & q' & -> & Hp' & Hm').
  rewrite !zlen_app in HL. pose proof (zlen_nonneg p). pose proof (zlen_nonneg m). pose proof (zlen_nonneg q).
  assert (p' = p).
  { apply nth_ext_z; [unfold zlen in *; lia|]. intros i Hi.
    specialize (H i ltac:(lia) ltac:(lia)). rewrite !get_app_l in H by lia. exact H. }
  subst p'.
  assert (q' = q).
  { apply nth_ext_z; [unfold zlen in *; lia|]. intros i Hi.
    specialize (H (b + i) ltac:(lia) ltac:(lia)).
    rewrite !(get_app_r p) in H by lia. rewrite !get_app_r in H by lia.
    replace (b + i - zlen p - zlen m') with i in H by lia.
    replace (b + i - zlen p - zlen m) with i in H by lia. exact H. }
  subst q'. exists p, m, m', q. repeat split; auto.
  apply Permutation_app_inv_l in P. now apply Permutation_app_inv_r in P.
Qed.

Lemma rperm_forall a b v w (P : A -> Prop) : 0 <= a -> b <= zlen v -> rperm a b v w ->
  (forall i, a <= i < b -> P (get v i)) -> forall i, a <= i < b -> P (get w i).
Proof using.
  intros Ha Hb Hr HP i Hi.
  destruct (rperm_segments a b v w ltac:(lia) Hb Hr) as (p & m & m' & q & -> & -> & Hp & Hm & HPm).
  assert (Hlm : zlen m' = zlen m) by (unfold zlen; now rewrite (Permutation_length HPm)).
  rewrite get_app_r, get_app_l by lia.
  assert (Hin : In (get m' (i - zlen p)) m').
  { apply get_in. lia. }
  apply (Permutation_in _ (Permutation_sym HPm)) in Hin. apply in_get in Hin as (k & Hk & <-).
  specialize (HP (zlen p + k) ltac:(lia)). rewrite get_app_r, get_app_l in HP by lia.
  now replace (zlen p + k - zlen p) with k in HP by lia.
Qed.

(** ** Primitive operations *)

Lemma at_get v i : 0 <= i < zlen v -> at_ v i = Ok (get v i).
Proof using.
  intros Hi. apply nth_at; [lia|]. unfold get. apply nth_error_nth'. unfold zlen in Hi. lia.
Qed.

Lemma call_less_spec v s i j : 0 <= i < zlen v -> 0 <= j < zlen v ->
  exists b s', call_less less (v, s) i j = Ok (b, (v, s')) /\ (good -> b = lt (get v i) (get v j)).
Proof using Hswo Hless.
  intros Hi Hj. unfold call_less, in_range.
  replace ((0 <=? i) && (i <? zlen v) && ((0 <=? j) && (j <? zlen v))) with true by lia.
  destruct (less s v i j) as [b s'] eqn:E. exists b, s'. split; [reflexivity|].
  intros g. rewrite <- (Hless g s v i j (get v i) (get v j)) by now apply at_get. now rewrite E.
Qed.

Definition swapped (v w : list A) (i j : Z) : Prop :=
  forall k, 0 <= k -> get w k = if k =? i then get v j else if k =? j then get v i else get v k.

Lemma get_list_set v n x k : 0 <= k -> (n < length v)%nat ->
  get (list_set v n x) k = if k =? Z.of_nat n then x else get v k.
Proof using.
  intros Hk Hn. unfold get. rewrite <- !nth_default_eq. unfold nth_default.
  rewrite nth_error_list_set. destruct (Nat.eqb_spec n (Z.to_nat k)) as [E|E].
  - replace (Nat.ltb n (length v)) with true by (symmetry; apply Nat.ltb_lt; lia).
    now replace (k =? Z.of_nat n) with true by lia.
  - now replace (k =? Z.of_nat n) with false by lia.
Qed.

Lemma two_split (v : list A) m n : (m < n)%nat -> (n < length v)%nat ->
  exists p x k y q, v = p ++ x :: k ++ y :: q /\ length p = m /\ length (p ++ x :: k) = n.
Proof using.
  intros Hmn Hn. destruct (nth_error v n) as [y|] eqn:E; [|apply nth_error_None in E; lia].
  apply nth_error_split in E as (u & q & -> & Hu).
  destruct (nth_error u m) as [x|] eqn:E; [|apply nth_error_None in E; lia].
  apply nth_error_split in E as (p & k & -> & Hp).
  exists p, x, k, y, q. split; [now rewrite <- app_assoc|auto].
Qed.

Lemma swap_spec (v : list A) (s : S) i j a b : 0 <= a -> a <= i < b -> a <= j < b -> b <= zlen v ->
  exists w, swap (v, s) i j = Ok (w, s) /\ swapped v w i j /\ rperm a b v w.
Proof using.
  intros Ha Hi Hj Hb. unfold swap. destruct (Z.eqb_spec i j) as [->|Hne].
  - exists v. split; [reflexivity|]. split; [|apply rperm_refl].
    intros k Hk. destruct (Z.eqb_spec k j) as [->|]; reflexivity.
  - rewrite !at_get by lia. cbn [bind]. unfold set_at.
    replace ((0 <=? i) && (i <? zlen v)) with true by lia. cbn [bind].
    rewrite zlen_list_set. replace ((0 <=? j) && (j <? zlen v)) with true by lia. cbn [bind].
    eexists. split; [reflexivity|].
    assert (Hsw : swapped v (list_set (list_set v (Z.to_nat i) (get v j)) (Z.to_nat j) (get v i)) i j).
    { intros k Hk. rewrite get_list_set; [|lia|rewrite length_list_set; unfold zlen in Hb; lia].
      rewrite get_list_set by (unfold zlen in Hb; lia). rewrite !Z2Nat.id by lia.
      destruct (Z.eqb_spec k j), (Z.eqb_spec k i); congruence. }
    split; [exact Hsw|]. repeat split.
    + now rewrite !length_list_set.
    + (* permutation *)
      assert (Hcase : forall m n, (m < n)%nat -> (n < length v)%nat ->
         Permutation v (list_set (list_set v m (nth n v d)) n (nth m v d))).
      { intros m n Hmn Hn. destruct (two_split v m n Hmn Hn) as (p & x & k & y & q & Hv & Hp & Hpk).
        assert (Hx : nth m v d = x) by (rewrite Hv, app_nth2, Hp, Nat.sub_diag by lia; reflexivity).
        assert (Hy : nth n v d = y).
        { rewrite Hv. replace (p ++ x :: k ++ y :: q) with ((p ++ x :: k) ++ y :: q) by now rewrite <- app_assoc.
          rewrite app_nth2, Hpk, Nat.sub_diag by lia. reflexivity. }
        rewrite Hx, Hy, Hv. rewrite <- Hp, list_set_app_mid.
        replace (p ++ y :: k ++ y :: q) with ((p ++ y :: k) ++ y :: q) by now rewrite <- app_assoc.
        replace n with (length (p ++ y :: k)) by (rewrite app_length in *; cbn [length] in *; lia).
        rewrite list_set_app_mid, <- app_assoc. cbn [app]. apply Permutation_app_head.
        transitivity (y :: x :: k ++ q).
        - rewrite <- Permutation_middle. apply perm_swap.
        - constructor. apply (Permutation_middle k q x). }
      unfold zlen in *. unfold get. destruct (Z_lt_dec i j).
      * apply Hcase; lia.
      *
        assert (Hc : list_set (list_set v (Z.to_nat i) (nth (Z.to_nat j) v d)) (Z.to_nat j) (nth (Z.to_nat i) v d)
                   = list_set (list_set v (Z.to_nat j) (nth (Z.to_nat i) v d)) (Z.to_nat i) (nth (Z.to_nat j) v d)).
        { apply nth_ext_z; [now rewrite !length_list_set|]. intros k Hk.
          rewrite !get_list_set by (rewrite ?length_list_set; lia). rewrite !Z2Nat.id by lia.
          destruct (Z.eqb_spec k j), (Z.eqb_spec k i); congruence. }
        rewrite Hc. apply Hcase; lia.
    + intros k Hk Ho. rewrite Hsw by lia.
      replace (k =? i) with false by lia. now replace (k =? j) with false by lia.
Qed.

Definition sorted (a b : Z) (v : list A) : Prop :=
  forall p q, a <= p -> p < q -> q < b -> le (get v p) (get v q).

(** ** insertion sort *)

Lemma insert_loop_spec fuel : forall v s a j i,
  0 <= a -> a <= j <= i -> i < zlen v -> (Z.to_nat (j - a) < fuel)%nat ->
  exists w s', insert_loop less fuel (v, s) a j = Ok (w, s') /\ rperm a (i + 1) v w /\
    (good ->
      (forall p q, a <= p -> p < q -> q <= i -> p <> j -> q <> j -> le (get v p) (get v q)) ->
      (forall q, j < q -> q <= i -> le (get v j) (get v q)) ->
      sorted a (i + 1) w).
Proof using Hswo Hless.
  induction fuel as [|fuel IH]; intros v s a j i Ha Hj Hi Hf; [lia|]. cbn [insert_loop].
  destruct (a <? j) eqn:E.
  - destruct (call_less_spec v s j (j - 1) ltac:(lia) ltac:(lia)) as (b & s1 & -> & Hb). cbn [bind].
    destruct b.
    + destruct (swap_spec v s1 j (j - 1) a (i + 1) ltac:(lia) ltac:(lia) ltac:(lia) ltac:(lia)) as (v1 & -> & Hsw & Hr).
      cbn [bind].
      destruct (IH v1 s1 a (j - 1) i Ha ltac:(lia) ltac:(rewrite (rperm_zlen _ _ _ _ Hr); lia) ltac:(lia)) as (w & s' & Hw & Hr' & Hso).
      exists w, s'. split; [exact Hw|]. split; [eapply rperm_trans; eauto|].
      intros g H1 H2. apply (Hso g).
      * intros p q Hp Hpq Hq Hp1 Hq1. rewrite !Hsw by lia.
        destruct (Z.eqb_spec p j) as [->|Hpj].
        { replace (q =? j) with false by lia. replace (q =? j - 1) with false by lia. apply H1; lia. }
        replace (p =? j - 1) with false by lia.
        destruct (Z.eqb_spec q j) as [->|Hqj].
        { apply H1; lia. }
        replace (q =? j - 1) with false by lia. apply H1; lia.
      * intros q Hq1 Hq2. rewrite !Hsw by lia. replace (j - 1 =? j) with false by lia.
        rewrite Z.eqb_refl. destruct (Z.eqb_spec q j) as [->|Hqj].
        { apply (lt_le g). now rewrite <- (Hb g). }
        replace (q =? j - 1) with false by lia. apply H2; lia.
    + exists v, s1. split; [reflexivity|]. split; [apply rperm_refl|].
      intros g H1 H2 p q Hp Hpq Hq.
      assert (Hj1 : le (get v (j - 1)) (get v j)) by (symmetry; apply (Hb g)).
      destruct (Z.eq_dec p j) as [->|Hpj]; [apply H2; lia|].
      destruct (Z.eq_dec q j) as [->|Hqj]; [|apply H1; lia].
      destruct (Z.eq_dec p (j - 1)) as [->|Hpj1]; [exact Hj1|].
      apply (le_trans g _ (get v (j - 1))); [apply H1; lia|exact Hj1].
  - exists v, s. split; [reflexivity|]. split; [apply rperm_refl|].
    intros g H1 H2 p q Hp Hpq Hq. assert (j = a) as -> by lia.
    destruct (Z.eq_dec p a) as [->|Hpa]; [apply H2; lia|apply H1; lia].
Qed.

Lemma insertion_loop_spec fuel : forall v s a b i,
  0 <= a -> a < i -> b <= zlen v -> (Z.to_nat (b - i) < fuel)%nat ->
  exists w s', insertion_loop less fuel (v, s) a b i = Ok (w, s') /\ rperm a b v w /\
    (good -> sorted a i v -> i <= b -> sorted a b w).
Proof using Hswo Hless.
  induction fuel as [|fuel IH]; intros v s a b i Ha Hi Hb Hf; [lia|]. cbn [insertion_loop].
  destruct (i <? b) eqn:E.
  - destruct (insert_loop_spec (Datatypes.S (Z.to_nat (i - a))) v s a i i Ha ltac:(lia) ltac:(lia) ltac:(lia))
      as (v1 & s1 & -> & Hr & Hso). cbn [bind].
    destruct (IH v1 s1 a b (i + 1) Ha ltac:(lia) ltac:(rewrite (rperm_zlen _ _ _ _ Hr); lia) ltac:(lia))
      as (w & s' & Hw & Hr' & Hso').
    exists w, s'. split; [exact Hw|]. split.
    + eapply rperm_trans; [|exact Hr']. eapply rperm_widen; [| |exact Hr]; lia.
    + intros g Hs Hib. apply (Hso' g); [|lia]. apply (Hso g).
      * intros p q Hp Hpq Hq Hp1 Hq1. apply Hs; lia.
      * intros q Hq1 Hq2. lia.
  - exists v, s. split; [reflexivity|]. split; [apply rperm_refl|].
    intros g Hs Hib. now replace b with i by lia.
Qed.

Definition sorts_range (op : st -> res st) (a b : Z) : Prop :=
  forall v s, b <= zlen v ->
  exists w s', op (v, s) = Ok (w, s') /\ rperm a b v w /\ (good -> sorted a b w).

Lemma insertion_sort_spec a b : 0 <= a <= b -> sorts_range (fun x => insertion_sort less x a b) a b.
Proof using Hswo Hless.
  intros Ha v s Hb. unfold insertion_sort.
  destruct (insertion_loop_spec (Datatypes.S (Z.to_nat (b - a))) v s a b (a + 1) ltac:(lia) ltac:(lia) Hb ltac:(lia))
    as (w & s' & Hw & Hr & Hso).
  exists w, s'. split; [exact Hw|]. split; [exact Hr|]. intros g.
  destruct (Z.eq_dec a b) as [->|]; [intros p q; lia|].
  apply (Hso g); [intros p q; lia|lia].
Qed.

(** ** heap sort *)

(** child of a node *)
Definition is_child (i c : Z) : Prop := c = 2 * i + 1 \/ c = 2 * i + 2.

Definition heap_from (first r hi : Z) (v : list A) : Prop :=
  forall i c, r <= i -> is_child i c -> c < hi -> le (get v (first + c)) (get v (first + i)).

Lemma sift_down_spec fuel : forall v s root hi first,
  0 <= first -> 0 <= root -> first + hi <= zlen v -> (Z.to_nat (hi - root) < fuel)%nat ->
  exists w s', sift_down less fuel (v, s) root hi first = Ok (w, s') /\ rperm first (first + hi) v w /\
    (good -> forall r0, 0 <= r0 <= root ->
      (forall i c, r0 <= i -> i <> root -> is_child i c -> c < hi -> le (get v (first + c)) (get v (first + i))) ->
      (forall p c, r0 <= p -> is_child p root -> is_child root c -> c < hi -> le (get v (first + c)) (get v (first + p))) ->
      heap_from first r0 hi w).
Proof using Hswo Hless.
  induction fuel as [|fuel IH]; intros v s root hi first Hfi Hro Hhi Hf; [lia|]. cbn [sift_down].
  destruct (hi <=? 2 * root + 1) eqn:E.
  { exists v, s. split; [reflexivity|]. split; [apply rperm_refl|].
    intros g r0 Hr0 H1 H2 i c Hi Hc Hch. destruct (Z.eq_dec i root) as [->|Hne]; [unfold is_child in Hc; lia|].
    now apply H1. }
  match goal with |- exists w s', bind ?e _ = _ /\ _ =>
  assert (Hsel : exists child s1, e = Ok (child, (v, s1)) /\
    is_child root child /\ child < hi /\
    (good -> forall c, is_child root c -> c < hi -> le (get v (first + c)) (get v (first + child)))) end.
  { destruct (2 * root + 1 + 1 <? hi) eqn:E2.
    - destruct (call_less_spec v s (first + (2 * root + 1)) (first + (2 * root + 1) + 1) ltac:(lia) ltac:(lia))
        as (b & s1 & -> & Hb). cbn [bind].
      eexists _, s1. split; [reflexivity|]. unfold is_child. destruct b.
      + split; [lia|]. split; [lia|]. intros g c Hc Hch. destruct Hc as [->| ->].
        * apply (lt_le g). replace (first + (2 * root + 1 + 1)) with (first + (2 * root + 1) + 1) by lia.
          symmetry. apply (Hb g).
        * replace (2 * root + 1 + 1) with (2 * root + 2) by lia. apply (le_refl g).
      + split; [lia|]. split; [lia|]. intros g c Hc Hch. destruct Hc as [->| ->].
        * apply (le_refl g).
        * replace (first + (2 * root + 2)) with (first + (2 * root + 1) + 1) by lia. symmetry. apply (Hb g).
    - eexists _, s. split; [reflexivity|]. unfold is_child. split; [lia|]. split; [lia|].
      intros g c [->| ->] Hch; [apply (le_refl g)|lia]. }
  destruct Hsel as (child & s1 & -> & Hch & Hchi & Hmax). cbn [bind].
  assert (Hcr : root < child) by (unfold is_child in Hch; lia).
  destruct (call_less_spec v s1 (first + root) (first + child) ltac:(lia) ltac:(lia)) as (b & s2 & -> & Hb).
  cbn [bind]. destruct b; cbn [negb].
  - destruct (swap_spec v s2 (first + root) (first + child) first (first + hi) ltac:(lia) ltac:(lia) ltac:(lia) ltac:(lia))
      as (v1 & -> & Hsw & Hr). cbn [bind].
    destruct (IH v1 s2 child hi first Hfi ltac:(lia) ltac:(rewrite (rperm_zlen _ _ _ _ Hr); lia) ltac:(lia))
      as (w & s' & Hw & Hr' & Hh).
    exists w, s'. split; [exact Hw|]. split; [eapply rperm_trans; eauto|].
    intros g r0 Hr0 H1 H2.
    assert (Hg : forall k, 0 <= k -> get v1 (first + k) =
       if k =? root then get v (first + child) else if k =? child then get v (first + root) else get v (first + k)).
    { intros k Hk. rewrite Hsw by lia.
      replace (first + k =? first + root) with (k =? root) by lia.
      now replace (first + k =? first + child) with (k =? child) by lia. }
    assert (Hlt : le (get v (first + root)) (get v (first + child))).
    { apply (lt_le g). symmetry. apply (Hb g). }
    apply (Hh g r0 ltac:(lia)).
    + intros i c Hi Hne Hc Hc2. assert (0 <= c) by (unfold is_child in Hc; lia).
      rewrite !Hg by lia. destruct (Z.eqb_spec i root) as [->|Hir].
      * destruct (Z.eqb_spec c root) as [->|]; [unfold is_child in Hc; lia|].
        destruct (Z.eqb_spec c child) as [->|]; [exact Hlt|]. now apply Hmax.
      * replace (i =? child) with false by lia. destruct (Z.eqb_spec c root) as [->|Hcr'].
        { apply H2; auto. }
        destruct (Z.eqb_spec c child) as [->|]; [unfold is_child in *; lia|]. now apply H1.
    + intros p c Hp Hpc Hc Hc2. assert (p = root) as -> by (unfold is_child in *; lia).
      assert (child < c) by (unfold is_child in *; lia).
      rewrite !Hg by lia. rewrite Z.eqb_refl. replace (c =? root) with false by lia.
      replace (c =? child) with false by lia. apply H1; auto; lia.
  - exists v, s2. split; [reflexivity|]. split; [apply rperm_refl|].
    intros g r0 Hr0 H1 H2 i c Hi Hc Hc2. destruct (Z.eq_dec i root) as [->|Hne]; [|now apply H1].
    apply (le_trans g _ (get v (first + child))); [now apply Hmax|]. symmetry. apply (Hb g).
Qed.

Lemma heapify_loop_spec fuel : forall v s i hi first,
  0 <= first -> -1 <= i -> 0 <= hi -> first + hi <= zlen v -> (Z.to_nat (i + 1) < fuel)%nat ->
  exists w s', heapify_loop less fuel (v, s) i hi first = Ok (w, s') /\ rperm first (first + hi) v w /\
    (good -> heap_from first (i + 1) hi v -> heap_from first 0 hi w).
Proof using Hswo Hless.
  induction fuel as [|fuel IH]; intros v s i hi first Hfi Hi Hh0 Hhi Hf; [lia|]. cbn [heapify_loop].
  destruct (0 <=? i) eqn:E.
  - destruct (sift_down_spec (Datatypes.S (Z.to_nat (hi - i))) v s i hi first Hfi ltac:(lia) Hhi ltac:(lia))
      as (v1 & s1 & -> & Hr & Hh). cbn [bind].
    destruct (IH v1 s1 (i - 1) hi first Hfi ltac:(lia) Hh0 ltac:(rewrite (rperm_zlen _ _ _ _ Hr); lia) ltac:(lia))
      as (w & s' & Hw & Hr' & Hh').
    exists w, s'. split; [exact Hw|]. split; [eapply rperm_trans; eauto|].
    intros g Hv. apply (Hh' g). replace (i - 1 + 1) with i by lia. apply (Hh g i ltac:(lia)).
    + intros k c Hk Hne Hc Hc2. apply Hv; auto. lia.
    + intros p c Hp Hpc. unfold is_child in Hpc. lia.
  - exists v, s. split; [reflexivity|]. split; [apply rperm_refl|].
    intros g Hv. now replace 0 with (i + 1) by lia.
Qed.

Lemma heap_max : good -> forall first hi v, heap_from first 0 hi v ->
  forall k, 0 <= k < hi -> le (get v (first + k)) (get v first).
Proof using Hswo Hless.
  intros g first hi v Hh.
  assert (H : forall n k, (Z.to_nat k <= n)%nat -> 0 <= k < hi -> le (get v (first + k)) (get v first)).
  { induction n as [|n IHn]; intros k Hn Hk.
    - replace k with 0 by lia. rewrite Z.add_0_r. apply (le_refl g).
    - destruct (Z.eq_dec k 0) as [->|Hk0]; [rewrite Z.add_0_r; apply (le_refl g)|].
      set (p := (k - 1) / 2). assert (Hp : 2 * p <= k - 1 < 2 * p + 2).
      { subst p. pose proof (Z.div_mod (k - 1) 2 ltac:(lia)). pose proof (Z.mod_pos_bound (k - 1) 2 ltac:(lia)). lia. }
      apply (le_trans g _ (get v (first + p))); [|apply IHn; lia].
      apply Hh; [lia| |lia]. unfold is_child. lia. }
  intros k Hk. now apply (H (Z.to_nat k)).
Qed.

Lemma extract_loop_spec fuel : forall v s i first n,
  0 <= first -> -1 <= i < n -> first + n <= zlen v -> (Z.to_nat (i + 1) < fuel)%nat ->
  exists w s', extract_loop less fuel (v, s) i first = Ok (w, s') /\ rperm first (first + (i + 1)) v w /\
    (good -> heap_from first 0 (i + 1) v -> sorted (first + (i + 1)) (first + n) v ->
      (forall p q, first <= p < first + (i + 1) -> first + (i + 1) <= q < first + n -> le (get v p) (get v q)) ->
      sorted first (first + n) w).
Proof using Hswo Hless.
  induction fuel as [|fuel IH]; intros v s i first n Hfi Hi Hn Hf; [lia|]. cbn [extract_loop].
  destruct (0 <=? i) eqn:E.
  - destruct (swap_spec v s first (first + i) first (first + (i + 1)) ltac:(lia) ltac:(lia) ltac:(lia) ltac:(lia))
      as (v1 & -> & Hsw & Hr). cbn [bind].
    destruct (sift_down_spec (Datatypes.S (Z.to_nat i)) v1 s 0 i first Hfi ltac:(lia)
       ltac:(rewrite (rperm_zlen _ _ _ _ Hr); lia) ltac:(lia)) as (v2 & s2 & -> & Hr2 & Hh). cbn [bind].
    destruct (IH v2 s2 (i - 1) first n Hfi ltac:(lia)
       ltac:(rewrite (rperm_zlen _ _ _ _ Hr2), (rperm_zlen _ _ _ _ Hr); lia) ltac:(lia)) as (w & s' & Hw & Hr' & Hso).
    replace (i - 1 + 1) with i in * by lia.
    exists w, s'. split; [exact Hw|]. split.
    { eapply rperm_trans; [exact Hr|]. eapply rperm_trans.
      - eapply rperm_widen; [| |exact Hr2]; lia.
      - eapply rperm_widen; [| |exact Hr']; lia. }
    intros g Hheap Hs Hle. apply (Hso g).
    + apply (Hh g 0 ltac:(lia)).
      * intros k c Hk Hne Hc Hc2. assert (0 < k < i /\ 0 < c) by (unfold is_child in Hc; lia).
        rewrite !Hsw by lia.
        replace (first + c =? first) with false by lia. replace (first + c =? first + i) with false by lia.
        replace (first + k =? first) with false by lia. replace (first + k =? first + i) with false by lia.
        apply Hheap; auto; lia.
      * intros p c Hp Hpc. unfold is_child in Hpc. lia.
    + (* sorted (first+i) (first+n) v2 *)
      assert (Hout : forall q, first + i <= q -> get v2 q = get v1 q).
      { intros q Hq. destruct Hr2 as (_ & _ & Ho). apply Ho; lia. }
      intros p q Hp Hpq Hq. rewrite !Hout by lia. rewrite !Hsw by lia.
      replace (q =? first) with false by lia. replace (q =? first + i) with false by lia.
      destruct (Z.eqb_spec p first) as [->|Hpf].
      * assert (i = 0) as -> by lia. replace (first + 0) with first by lia. apply Hle; lia.
      * destruct (Z.eqb_spec p (first + i)) as [->|Hpi]; [apply Hle; lia|]. apply Hs; lia.
    + (* separation *)
      assert (Hout : forall q, first + i <= q -> get v2 q = get v1 q).
      { intros q Hq. destruct Hr2 as (_ & _ & Ho). apply Ho; lia. }
      intros p q Hp Hq. rewrite (Hout q) by lia.
      assert (HP : forall k, first <= k < first + i -> le (get v1 k) (get v1 q)).
      { intros k Hk. rewrite !Hsw by lia. replace (q =? first) with false by lia.
        assert (Hmaxk : forall m, first <= m < first + (i + 1) -> le (get v m) (get v first)).
        { intros m Hm. replace m with (first + (m - first)) by lia. apply (heap_max g first (i + 1)); [assumption|lia]. }
        destruct (Z.eqb_spec q (first + i)) as [->|Hqi].
        - destruct (Z.eqb_spec k first) as [->|]; [apply Hmaxk; lia|].
          replace (k =? first + i) with false by lia. apply Hmaxk; lia.
        - destruct (Z.eqb_spec k first) as [->|]; [apply Hle; lia|].
          replace (k =? first + i) with false by lia. apply Hle; lia. }
      revert p Hp. apply (rperm_forall first (first + i) v1 v2 (fun x => le x (get v1 q))); auto.
      rewrite (rperm_zlen _ _ _ _ Hr). lia.
  - exists v, s. split; [reflexivity|]. split; [apply rperm_refl|].
    intros g _ Hs _. replace i with (-1) in Hs by lia. now replace (first + (-1 + 1)) with first in Hs by lia.
Qed.

Lemma heap_sort_spec a b : 0 <= a < b -> sorts_range (fun x => heap_sort less x a b) a b.
Proof using Hswo Hless.
  intros Ha v s Hb. unfold heap_sort.
  assert (Hq : 0 <= Z.quot (b - a - 1) 2 /\ 2 * Z.quot (b - a - 1) 2 <= b - a - 1 < 2 * Z.quot (b - a - 1) 2 + 2).
  { rewrite Z.quot_div_nonneg by lia. pose proof (Z.div_mod (b - a - 1) 2 ltac:(lia)).
    pose proof (Z.mod_pos_bound (b - a - 1) 2 ltac:(lia)). lia. }
  destruct (heapify_loop_spec (Datatypes.S (Datatypes.S (Z.to_nat (b - a)))) v s (Z.quot (b - a - 1) 2) (b - a) a
    ltac:(lia) ltac:(lia) ltac:(lia) ltac:(lia) ltac:(lia)) as (v1 & s1 & -> & Hr & Hh). cbn [bind].
  destruct (extract_loop_spec (Datatypes.S (Z.to_nat (b - a))) v1 s1 (b - a - 1) a (b - a) ltac:(lia) ltac:(lia)
    ltac:(rewrite (rperm_zlen _ _ _ _ Hr); lia) ltac:(lia)) as (w & s' & Hw & Hr' & Hso).
  replace (a + (b - a)) with b in * by lia. replace (a + (b - a - 1 + 1)) with b in * by lia.
  exists w, s'. split; [exact Hw|]. split; [eapply rperm_trans; eauto|].
  intros g. apply (Hso g).
  - replace (b - a - 1 + 1) with (b - a) by lia. apply (Hh g). intros i c Hi Hc Hc2. unfold is_child in Hc. lia.
  - intros p q; lia.
  - intros p q; lia.
Qed.

(** ** partition *)

Lemma scan_up_spec fuel : forall v s a i j,
  0 <= a < i -> j < zlen v -> (Z.to_nat (j + 1 - i) < fuel)%nat ->
  exists i' s', scan_up less fuel (v, s) a i j = Ok (i', (v, s')) /\ i <= i' <= Z.max i (j + 1) /\
    (good -> (forall k, i <= k < i' -> lt (get v k) (get v a) = true) /\
             (i' <= j -> lt (get v i') (get v a) = false)).
Proof using Hswo Hless.
  induction fuel as [|fuel IH]; intros v s a i j Ha Hj Hf; [lia|]. cbn [scan_up].
  destruct (i <=? j) eqn:E.
  - destruct (call_less_spec v s i a ltac:(lia) ltac:(lia)) as (b & s1 & -> & Hb). cbn [bind].
    destruct b.
    + destruct (IH v s1 a (i + 1) j ltac:(lia) Hj ltac:(lia)) as (i' & s' & Hi' & Hle & Hg).
      exists i', s'. split; [exact Hi'|]. split; [lia|]. intros g. destruct (Hg g) as [H1 H2]. split; [|exact H2].
      intros k Hk. destruct (Z.eq_dec k i) as [->|]; [symmetry; apply (Hb g)|apply H1; lia].
    + exists i, s1. split; [reflexivity|]. split; [lia|]. intros g. split; [intros k; lia|].
      intros _. symmetry. apply (Hb g).
  - exists i, s. split; [reflexivity|]. split; [lia|]. intros g. split; intros; lia.
Qed.

Lemma scan_down_spec fuel : forall v s a i j,
  0 <= a < i -> j < zlen v -> (Z.to_nat (j + 1 - i) < fuel)%nat ->
  exists j' s', scan_down less fuel (v, s) a i j = Ok (j', (v, s')) /\ Z.min j (i - 1) <= j' <= j /\
    (good -> (forall k, j' < k <= j -> lt (get v k) (get v a) = false) /\
             (i <= j' -> lt (get v j') (get v a) = true)).
Proof using Hswo Hless.
  induction fuel as [|fuel IH]; intros v s a i j Ha Hj Hf; [lia|]. cbn [scan_down].
  destruct (i <=? j) eqn:E.
  - destruct (call_less_spec v s j a ltac:(lia) ltac:(lia)) as (b & s1 & -> & Hb). cbn [bind].
    destruct b; cbn [negb].
    + exists j, s1. split; [reflexivity|]. split; [lia|]. intros g. split; [intros k; lia|].
      intros _. symmetry. apply (Hb g).
    + destruct (IH v s1 a i (j - 1) ltac:(lia) ltac:(lia) ltac:(lia)) as (j' & s' & Hj' & Hle & Hg).
      exists j', s'. split; [exact Hj'|]. split; [lia|]. intros g. destruct (Hg g) as [H1 H2]. split; [|exact H2].
      intros k Hk. destruct (Z.eq_dec k j) as [->|]; [symmetry; apply (Hb g)|apply H1; lia].
  - exists j, s. split; [reflexivity|]. split; [lia|]. intros g. split; intros; lia.
Qed.

(** What one round of scanning establishes. *)
Definition parted (v : list A) (a b i j : Z) : Prop :=
  (forall k, a < k < i -> lt (get v k) (get v a) = true) /\
  (forall k, j < k < b -> lt (get v k) (get v a) = false).

Lemma parted_swap v w a b i j : a < i -> i <= j -> j < b -> swapped v w i j -> 0 <= a ->
  lt (get v i) (get v a) = false -> lt (get v j) (get v a) = true ->
  parted v a b i j -> parted w a b (i + 1) (j - 1).
Proof using.
  intros Hi Hij Hj Hsw Ha Hvi Hvj [H1 H2].
  assert (Hwa : get w a = get v a).
  { rewrite Hsw by lia. replace (a =? i) with false by lia. now replace (a =? j) with false by lia. }
  split; intros k Hk; rewrite Hwa, Hsw by lia.
  - destruct (Z.eqb_spec k i); [exact Hvj|]. destruct (Z.eqb_spec k j) as [->|]; [lia|]. apply H1; lia.
  - destruct (Z.eqb_spec k i) as [->|].
    { assert (i = j) by lia. congruence. }
    destruct (Z.eqb_spec k j) as [->|]; [exact Hvi|]. apply H2; lia.
Qed.

Lemma partition_loop_spec fuel : forall v s a b i j,
  0 <= a < i -> a <= j -> j < b -> b <= zlen v -> (Z.to_nat (j + 1 - i) < fuel)%nat ->
  exists j' w s', partition_loop less fuel (v, s) a i j = Ok (j', (w, s')) /\ a <= j' < b /\
    rperm (a + 1) b v w /\
    (good -> i <= j + 1 -> parted v a b i j -> parted w a b (j' + 1) j').
Proof using Hswo Hless.
  induction fuel as [|fuel IH]; intros v s a b i j Ha Haj Hj Hb Hf; [lia|]. cbn [partition_loop].
  destruct (scan_up_spec (Datatypes.S (Datatypes.S (Z.to_nat (j - i)))) v s a i j Ha ltac:(lia) ltac:(lia))
    as (i1 & s1 & -> & Hi1 & Hg1). cbn [bind].
  destruct (scan_down_spec (Datatypes.S (Datatypes.S (Z.to_nat (j - i1)))) v s1 a i1 j ltac:(lia) ltac:(lia) ltac:(lia))
    as (j1 & s2 & -> & Hj1 & Hg2). cbn [bind].
  assert (Hp : good -> i <= j + 1 -> parted v a b i j -> parted v a b i1 j1).
  { intros g Hij [H1 H2]. destruct (Hg1 g) as [Ha1 _]. destruct (Hg2 g) as [Hb1 _]. split; intros k Hk.
    - destruct (Z_lt_dec k i); [apply H1; lia|apply Ha1; lia].
    - destruct (Z_lt_dec j k); [apply H2; lia|apply Hb1; lia]. }
  destruct (j1 <? i1) eqn:E.
  - exists j1, v, s2. split; [reflexivity|]. split; [lia|]. split; [apply rperm_refl|].
    intros g Hij H. replace (j1 + 1) with i1 by lia. now apply Hp.
  - destruct (swap_spec v s2 i1 j1 (a + 1) b ltac:(lia) ltac:(lia) ltac:(lia) ltac:(lia)) as (v1 & -> & Hsw & Hr). cbn [bind].
    destruct (IH v1 s2 a b (i1 + 1) (j1 - 1) ltac:(lia) ltac:(lia) ltac:(lia) ltac:(rewrite (rperm_zlen _ _ _ _ Hr); lia) ltac:(lia))
      as (j' & w & s' & Hw & Hj' & Hr' & Hpa).
    exists j', w, s'. split; [exact Hw|]. split; [lia|]. split; [eapply rperm_trans; eauto|].
    intros g Hij H. destruct (Hg1 g) as [_ Hv1]. destruct (Hg2 g) as [_ Hv2].
    assert (i1 <> j1) by (intros ->; rewrite Hv1 in Hv2 by lia; specialize (Hv2 ltac:(lia)); discriminate).
    apply (Hpa g); [lia|]. eapply parted_swap; [lia|lia|lia|exact Hsw|lia|apply Hv1; lia|apply Hv2; lia|now apply Hp].
Qed.

Lemma partition_final v w a b j : 0 <= a <= j -> j < b -> swapped v w a j -> parted v a b (j + 1) j ->
  (forall k, a <= k < j -> lt (get w k) (get w j) = true) /\
  (forall k, j < k < b -> lt (get w k) (get w j) = false).
Proof using.
  intros Ha Hj Hsw [H1 H2].
  assert (Hwj : get w j = get v a).
  { rewrite Hsw by lia. destruct (Z.eqb_spec j a) as [->|]; [reflexivity|]. now rewrite Z.eqb_refl. }
  split; intros k Hk; rewrite Hwj, Hsw by lia.
  - destruct (Z.eqb_spec k a) as [->|]; [apply H1; lia|]. replace (k =? j) with false by lia. apply H1; lia.
  - replace (k =? a) with false by lia. replace (k =? j) with false by lia. apply H2; lia.
Qed.

Lemma partition_spec v s a b pivot : 0 <= a -> a <= pivot < b -> b <= zlen v ->
  exists mid fl w s', partition less (v, s) a b pivot = Ok (mid, fl, (w, s')) /\ a <= mid < b /\ rperm a b v w /\
    (good -> (forall k, a <= k < mid -> lt (get w k) (get w mid) = true) /\
             (forall k, mid < k < b -> lt (get w k) (get w mid) = false)).
Proof using Hswo Hless.
  intros Ha Hp Hb. unfold partition.
  destruct (swap_spec v s a pivot a b Ha ltac:(lia) Hp Hb) as (v0 & -> & _ & Hr0). cbn [bind].
  pose proof (rperm_zlen _ _ _ _ Hr0) as Hz0.
  destruct (scan_up_spec (Datatypes.S (Datatypes.S (Z.to_nat (b - 1 - (a + 1))))) v0 s a (a + 1) (b - 1) ltac:(lia) ltac:(lia) ltac:(lia))
    as (i1 & s1 & -> & Hi1 & Hg1). cbn [bind].
  destruct (scan_down_spec (Datatypes.S (Datatypes.S (Z.to_nat (b - 1 - i1)))) v0 s1 a i1 (b - 1) ltac:(lia) ltac:(lia) ltac:(lia))
    as (j1 & s2 & -> & Hj1 & Hg2). cbn [bind].
  assert (Hpt : good -> parted v0 a b i1 j1).
  { intros g. destruct (Hg1 g) as [H1 _]. destruct (Hg2 g) as [H2 _]. split; intros k Hk.
    - apply H1; lia.
    - apply H2; lia. }
  destruct (j1 <? i1) eqn:E.
  - destruct (swap_spec v0 s2 a j1 a b Ha ltac:(lia) ltac:(lia) ltac:(lia)) as (w & -> & Hsw & Hr). cbn [bind].
    exists j1, true, w, s2. split; [reflexivity|]. split; [lia|]. split; [eapply rperm_trans; eauto|].
    intros g. apply (partition_final v0 w a b j1); [lia|lia|exact Hsw|].
    replace (j1 + 1) with i1 by lia. now apply Hpt.
  - destruct (swap_spec v0 s2 i1 j1 (a + 1) b ltac:(lia) ltac:(lia) ltac:(lia) ltac:(lia)) as (v1 & -> & Hsw & Hr1). cbn [bind].
    pose proof (rperm_zlen _ _ _ _ Hr1) as Hz1.
    destruct (partition_loop_spec (Datatypes.S (Z.to_nat (b - a))) v1 s2 a b (i1 + 1) (j1 - 1) ltac:(lia) ltac:(lia) ltac:(lia) ltac:(lia) ltac:(lia))
      as (j' & v2 & s3 & -> & Hj' & Hr2 & Hpa). cbn [bind].
    pose proof (rperm_zlen _ _ _ _ Hr2) as Hz2.
    destruct (swap_spec v2 s3 a j' a b Ha ltac:(lia) ltac:(lia) ltac:(lia)) as (w & -> & Hsw2 & Hr3). cbn [bind].
    exists j', false, w, s3. split; [reflexivity|]. split; [lia|]. split.
    { eapply rperm_trans; [exact Hr0|]. eapply rperm_trans; [eapply rperm_widen; [| |exact Hr1]; lia|].
      eapply rperm_trans; [eapply rperm_widen; [| |exact Hr2]; lia|]. exact Hr3. }
    intros g. apply (partition_final v2 w a b j'); [lia|lia|exact Hsw2|].
    destruct (Hg1 g) as [_ Hv1]. destruct (Hg2 g) as [_ Hv2].
    assert (i1 <> j1) by (intros ->; rewrite Hv1 in Hv2 by lia; specialize (Hv2 ltac:(lia)); discriminate).
    apply (Hpa g); [lia|]. eapply parted_swap; [lia|lia|lia|exact Hsw|lia|apply Hv1; lia|apply Hv2; lia|now apply Hpt].
Qed.

Lemma break_patterns_spec (v : list A) (s : S) a b : 0 <= a -> b <= zlen v ->
  exists w, break_patterns (v, s) a b = Ok (w, s) /\ rperm a b v w.
Proof using.
  intros Ha Hb. unfold break_patterns. destruct (8 <=? b - a) eqn:E; [|exists v; split; [reflexivity|apply rperm_refl]].
  assert (Hq : 4 * Z.quot (b - a) 4 <= b - a < 4 * Z.quot (b - a) 4 + 4).
  { rewrite Z.quot_div_nonneg by lia. pose proof (Z.div_mod (b - a) 4 ltac:(lia)).
    pose proof (Z.mod_pos_bound (b - a) 4 ltac:(lia)). lia. }
  destruct (swap_spec v s (a + Z.quot (b - a) 4) (a + Z.quot (b - a) 4 * 3) a b Ha ltac:(lia) ltac:(lia) Hb) as (v1 & -> & _ & Hr).
  cbn [bind].
  destruct (swap_spec v1 s (a + Z.quot (b - a) 4 * 2) (a + Z.quot (b - a) 4 * 3 - 1) a b Ha ltac:(lia) ltac:(lia)
     ltac:(rewrite (rperm_zlen _ _ _ _ Hr); lia)) as (w & -> & _ & Hr2).
  exists w. split; [reflexivity|]. eapply rperm_trans; eauto.
Qed.

(** ** pdqsort *)

Lemma sorted_join v mid a b : good -> a <= mid < b ->
  (forall k, a <= k < mid -> lt (get v k) (get v mid) = true) ->
  (forall k, mid < k < b -> lt (get v k) (get v mid) = false) ->
  sorted a mid v -> sorted (mid + 1) b v -> sorted a b v.
Proof using Hswo Hless.
  intros g Hm H1 H2 S1 S2 p q Hp Hpq Hq.
  destruct (Z_lt_dec q mid); [apply S1; lia|].
  destruct (Z_lt_dec mid p); [apply S2; lia|].
  destruct (Z.eq_dec p mid) as [->|]; [apply H2; lia|].
  assert (Hp1 : le (get v p) (get v mid)) by (apply (lt_le g); apply H1; lia).
  destruct (Z.eq_dec q mid) as [->|]; [exact Hp1|].
  apply (le_trans g _ (get v mid)); [exact Hp1|]. apply H2; lia.
Qed.

Lemma rperm_sorted_outside v w a b c e : rperm c e v w -> 0 <= a -> b <= c \/ e <= a ->
  sorted a b v -> sorted a b w.
Proof using.
  intros (_ & _ & Ho) Ha Hd Hs p q Hp Hpq Hq. rewrite !Ho by lia. now apply Hs.
Qed.

Lemma pdq_loop_spec fuel : forall a b limit bal,
  0 <= a <= b -> (Z.to_nat (b - a) < fuel)%nat ->
  sorts_range (fun x => pdq_loop less fuel x a b limit bal) a b.
Proof using Hswo Hless.
  induction fuel as [|fuel IH]; intros a b limit bal Ha Hf v s Hb; [lia|]. cbn [pdq_loop].
  destruct (b - a <=? 12) eqn:E1; [now apply insertion_sort_spec|].
  destruct (limit =? 0) eqn:E2; [apply heap_sort_spec; [lia|assumption]|].
  match goal with |- exists w s', bind ?e _ = _ /\ _ =>
  assert (Hbp : exists v0, e = Ok (v0, s) /\ rperm a b v v0) end.
  { destruct (negb bal); [apply break_patterns_spec; lia|]. exists v. split; [reflexivity|apply rperm_refl]. }
  destruct Hbp as (v0 & -> & Hr0). cbn [bind]. pose proof (rperm_zlen _ _ _ _ Hr0) as Hz0.
  assert (Hq : 0 <= Z.quot (b - a) 2 < b - a).
  { rewrite Z.quot_div_nonneg by lia. split; [apply Z.div_pos; lia|apply Z.div_lt; lia]. }
  destruct (partition_spec v0 s a b (a + Z.quot (b - a) 2) ltac:(lia) ltac:(lia) ltac:(lia))
    as (mid & fl & v1 & s1 & -> & Hm & Hr1 & Hp). cbn [bind].
  pose proof (rperm_zlen _ _ _ _ Hr1) as Hz1.
  set (lim := if negb bal then limit - 1 else limit).
  destruct (mid - a <? b - mid - 1) eqn:E3.
  - destruct (IH a mid lim true ltac:(lia) ltac:(lia) v1 s1 ltac:(lia)) as (v2 & s2 & -> & Hr2 & Hs2). cbn [bind].
    pose proof (rperm_zlen _ _ _ _ Hr2) as Hz2.
    replace (b <=? mid + 1) with false by lia.
    destruct (IH (mid + 1) b lim (Z.quot (b - a) 8 <=? mid - a) ltac:(lia) ltac:(lia) v2 s2 ltac:(lia)) as (w & s3 & -> & Hr3 & Hs3).
    exists w, s3. split; [reflexivity|]. split.
    { eapply rperm_trans; [exact Hr0|]. eapply rperm_trans; [exact Hr1|].
      eapply rperm_trans; [eapply rperm_widen; [| |exact Hr2]; lia|]. eapply rperm_widen; [| |exact Hr3]; lia. }
    intros g. destruct (Hp g) as [H1 H2].
    assert (Hmid2 : get v2 mid = get v1 mid) by (destruct Hr2 as (_ & _ & Ho); apply Ho; lia).
    assert (Hmid3 : get w mid = get v2 mid) by (destruct Hr3 as (_ & _ & Ho); apply Ho; lia).
    assert (H1' : forall k, a <= k < mid -> lt (get v2 k) (get v1 mid) = true).
    { apply (rperm_forall a mid v1 v2 (fun x => lt x (get v1 mid) = true)); auto; lia. }
    apply (sorted_join w mid a b g Hm).
    + intros k Hk. rewrite Hmid3, Hmid2. destruct Hr3 as (_ & _ & Ho). rewrite Ho by lia. now apply H1'.
    + rewrite Hmid3, Hmid2.

      assert (Hx : forall k, mid + 1 <= k < b -> lt (get w k) (get v1 mid) = false).
      { apply (rperm_forall (mid + 1) b v2 w (fun x => lt x (get v1 mid) = false)); auto; try lia.
        intros k Hk. destruct Hr2 as (_ & _ & Ho). rewrite Ho by lia. apply H2; lia. }
      intros k Hk. apply Hx. lia.
    + eapply rperm_sorted_outside; [exact Hr3|lia|lia|]. now apply Hs2.
    + now apply Hs3.
  - destruct (IH (mid + 1) b lim true ltac:(lia) ltac:(lia) v1 s1 ltac:(lia)) as (v2 & s2 & -> & Hr2 & Hs2). cbn [bind].
    pose proof (rperm_zlen _ _ _ _ Hr2) as Hz2.
    replace (mid <=? a) with false by lia.
    destruct (IH a mid lim (Z.quot (b - a) 8 <=? b - mid - 1) ltac:(lia) ltac:(lia) v2 s2 ltac:(lia)) as (w & s3 & -> & Hr3 & Hs3).
    exists w, s3. split; [reflexivity|]. split.
    { eapply rperm_trans; [exact Hr0|]. eapply rperm_trans; [exact Hr1|].
      eapply rperm_trans; [eapply rperm_widen; [| |exact Hr2]; lia|]. eapply rperm_widen; [| |exact Hr3]; lia. }
    intros g. destruct (Hp g) as [H1 H2].
    assert (Hmid2 : get v2 mid = get v1 mid) by (destruct Hr2 as (_ & _ & Ho); apply Ho; lia).
    assert (Hmid3 : get w mid = get v2 mid) by (destruct Hr3 as (_ & _ & Ho); apply Ho; lia).
    apply (sorted_join w mid a b g Hm).
    + rewrite Hmid3, Hmid2.
      apply (rperm_forall a mid v2 w (fun x => lt x (get v1 mid) = true)); auto; try lia.
      intros k Hk. destruct Hr2 as (_ & _ & Ho). rewrite Ho by lia. apply H1; lia.
    + rewrite Hmid3, Hmid2. intros k Hk. destruct Hr3 as (_ & _ & Ho). rewrite Ho by lia.
      assert (Hx : forall k, mid + 1 <= k < b -> lt (get v2 k) (get v1 mid) = false).
      { apply (rperm_forall (mid + 1) b v1 v2 (fun x => lt x (get v1 mid) = false)); auto; try lia.
        intros k' Hk'. apply H2; lia. }
      apply Hx. lia.
    + now apply Hs3.
    + eapply rperm_sorted_outside; [exact Hr3|lia|lia|]. now apply Hs2.
Qed.

Lemma sorted_ordered v : sorted 0 (zlen v) v -> ordered lt v.
Proof using.
  unfold ordered. intros H. induction v as [|x v IH]; constructor.
  - apply IH. intros p q Hp Hpq Hq. specialize (H (1 + p) (1 + q) ltac:(lia) ltac:(lia)).
    rewrite zlen_cons in H. specialize (H ltac:(lia)).
    unfold get in H. replace (Z.to_nat (1 + p)) with (Datatypes.S (Z.to_nat p)) in H by lia.
    replace (Z.to_nat (1 + q)) with (Datatypes.S (Z.to_nat q)) in H by lia. exact H.
  - apply Forall_forall. intros y Hy. apply in_get in Hy as (i & Hi & <-).
    specialize (H 0 (1 + i) ltac:(lia) ltac:(lia)). rewrite zlen_cons in H. specialize (H ltac:(lia)).
    unfold get in H. replace (Z.to_nat (1 + i)) with (Datatypes.S (Z.to_nat i)) in H by lia. exact H.
Qed.

Lemma sort_spec v s : exists w s', Sort_model.sort less v s = Ok (w, s') /\ Permutation v w /\ (good -> ordered lt w).
Proof using Hswo Hless d.
  unfold Sort_model.sort. destruct (zlen v <=? 1) eqn:E.
  - exists v, s. split; [reflexivity|]. split; [reflexivity|]. intros _.
    destruct v as [|x [|y v]]; [constructor|repeat constructor|].
    rewrite !zlen_cons in E. pose proof (zlen_nonneg v). lia.
  - destruct (pdq_loop_spec (Datatypes.S (length v)) 0 (zlen v) 64 true) with (v := v) (s := s) as (w & s' & Hw & Hr & Hs);
      [pose proof (zlen_nonneg v); lia|unfold zlen; lia|lia|].
    exists w, s'. split; [exact Hw|]. split; [apply Hr|]. intros g. apply sorted_ordered.
    rewrite (rperm_zlen _ _ _ _ Hr). now apply Hs.
Qed.
End sort_proof.

Lemma sort_permutes {A S} (less : S -> list A -> Z -> Z -> bool * S) v s :
  exists w s', Sort_model.sort less v s = Ok (w, s') /\ Permutation v w.
Proof.
  destruct v as [|x v]; [exists [], s; split; [reflexivity|constructor]|].
  destruct (sort_spec less (fun _ _ => false) x False (fun f => match f with end) (fun f => match f with end) (x :: v) s)
    as (w & s' & Hw & Hp & _). eauto.
Qed.

Lemma sort_sorts {A S} (less : S -> list A -> Z -> Z -> bool * S) lt v s :
  strict_weak_order lt -> compares lt less ->
  exists w s', Sort_model.sort less v s = Ok (w, s') /\ Permutation v w /\ ordered lt w.
Proof.
  intros H1 H2. destruct v as [|x v]; [exists [], s; repeat split; constructor|].
  destruct (sort_spec less lt x True (fun _ => H1) (fun _ => H2) (x :: v) s) as (w & s' & Hw & Hp & Ho).
  exists w, s'. auto.
Qed.

(** * search *)
Lemma search_loop_spec (P : Z -> bool) fuel : forall len low high,
  0 <= low <= high -> high <= len -> (Z.to_nat (high - low) < fuel)%nat ->
  (forall i, 0 <= i < low -> P i = false) -> (forall i, high <= i < len -> P i = true) ->
  (forall i j, 0 <= i -> i <= j -> j < len -> P i = true -> P j = true) ->
  exists r, search_loop P fuel len low high = Ok r /\ 0 <= r <= len /\
    (forall i, 0 <= i < r -> P i = false) /\ (forall i, r <= i < len -> P i = true).
Proof.
  induction fuel as [|fuel IH]; intros len low high H1 H2 Hf Hlo Hhi Hmono; [lia|]. cbn [search_loop].
  destruct (low <? high) eqn:E.
  - assert (Hm : 0 <= Z.quot (high - low) 2 < high - low).
    { rewrite Z.quot_div_nonneg by lia. split; [apply Z.div_pos; lia|apply Z.div_lt; lia]. }
    set (mid := low + Z.quot (high - low) 2) in *.
    replace ((0 <=? mid) && (mid <? len)) with true by lia.
    destruct (P mid) eqn:EP; cbn [negb].
    + apply IH; auto; try lia. intros i Hi. apply (Hmono mid); auto; lia.
    + apply IH; auto; try lia. intros i Hi. destruct (P i) eqn:EPi; [|reflexivity].
      rewrite <- EP. symmetry. apply (Hmono i mid); auto; lia.
  - exists low. split; [reflexivity|]. split; [lia|]. split; [exact Hlo|]. intros i Hi. apply Hhi. lia.
Qed.

(** With any predicate at all, the search ends in range. *)
Lemma search_loop_total (P : Z -> bool) fuel : forall len low high,
  0 <= low <= high -> high <= len -> (Z.to_nat (high - low) < fuel)%nat ->
  exists r, search_loop P fuel len low high = Ok r /\ low <= r <= high.
Proof.
  induction fuel as [|fuel IH]; intros len low high H1 H2 Hf; [lia|]. cbn [search_loop].
  destruct (low <? high) eqn:E; [|exists low; split; [reflexivity|lia]].
  assert (Hm : 0 <= Z.quot (high - low) 2 < high - low).
  { rewrite Z.quot_div_nonneg by lia. split; [apply Z.div_pos; lia|apply Z.div_lt; lia]. }
  set (mid := low + Z.quot (high - low) 2) in *.
  replace ((0 <=? mid) && (mid <? len)) with true by lia.
  destruct (P mid); cbn [negb].
  - destruct (IH len low mid ltac:(lia) ltac:(lia) ltac:(lia)) as (r & -> & Hr). exists r. split; [reflexivity|lia].
  - destruct (IH len (mid + 1) high ltac:(lia) ltac:(lia) ltac:(lia)) as (r & -> & Hr). exists r. split; [reflexivity|lia].
Qed.
