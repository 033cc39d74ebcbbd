From Verif Require Import Base Base_lemmas.
From Verif Require Import Strorder_model Strorder_spec.

Lemma before_irrefl a : ~ before a a.
Proof. induction a; intros H; inversion H; subst; [lia|auto]. Qed.

Lemma before_trans a b c : before a b -> before b c -> before a c.
Proof.
  intros H. revert c. induction H; intros c Hc; inversion Hc; subst; try (constructor; (assumption || lia)).
  - apply before_same. auto.
Qed.

Lemma before_total a b : before a b \/ a = b \/ before b a.
Proof.
  revert b. induction a as [|x a IH]; intros [|y b].
  - auto.
  - left. constructor.
  - right. right. constructor.
  - destruct (Z.lt_trichotomy x y) as [H|[->|H]].
    + left. now constructor.
    + destruct (IH b) as [H|[->|H]]; [left; now apply before_same | right; now left | right; right; now apply before_same].
    + right. right. now constructor.
Qed.

Lemma memcmp_eq a b : length a = length b -> exists c, memcmp a b (length a) = Ok c /\ (c = 0 <-> a = b).
Proof.
  revert b. induction a as [|x a IH]; intros [|y b] H; try discriminate; cbn [length memcmp].
  - exists 0. tauto.
  - destruct (Z.eqb_spec x y) as [->|N].
    + destruct (IH b) as (c & E & Hc); [now injection H|]. exists c. split; [assumption|]. rewrite Hc.
      split; [now intros -> | now intros [=]].
    + destruct (Z.ltb_spec x y); [exists (-1)|exists 1]; (split; [reflexivity|split; [lia|intros [=]; congruence]]).
Qed.

Lemma min_length_nil_l b : min_length [] b = 0%nat.
Proof. unfold min_length. destruct (Z.ltb_spec (zlen (@nil Z)) (zlen b)); [reflexivity|]. destruct b; [reflexivity|]. rewrite zlen_cons, zlen_nil in *. pose proof (zlen_nonneg b). lia. Qed.
Lemma min_length_nil_r a : min_length a [] = 0%nat.
Proof. unfold min_length. destruct (Z.ltb_spec (zlen a) (zlen (@nil Z))); [|reflexivity]. rewrite zlen_nil in *. pose proof (zlen_nonneg a). lia. Qed.
Lemma min_length_cons x y a b : min_length (x :: a) (y :: b) = S (min_length a b).
Proof. unfold min_length. rewrite !zlen_cons. destruct (Z.ltb_spec (1 + zlen a) (1 + zlen b)), (Z.ltb_spec (zlen a) (zlen b)); try lia; reflexivity. Qed.

(** the result of the three-way comparison used by lt, le, gt and ge *)
Lemma memcmp_order a b : exists c, memcmp a b (min_length a b) = Ok c /\
  (c < 0 -> before a b) /\ (0 < c -> before b a) /\
  (c = 0 -> (zlen a < zlen b -> before a b) /\ (zlen b < zlen a -> before b a) /\ (zlen a = zlen b -> a = b)).
Proof.
  revert b. induction a as [|x a IH]; intros b.
  - rewrite min_length_nil_l. exists 0. split; [reflexivity|]. split; [lia|]. split; [lia|]. intros _.
    destruct b as [|y b]; rewrite ?zlen_cons, ?zlen_nil.
    + repeat split; lia || reflexivity.
    + pose proof (zlen_nonneg b). repeat split; try lia. constructor.
  - destruct b as [|y b].
    + rewrite min_length_nil_r. exists 0. rewrite zlen_cons, zlen_nil. pose proof (zlen_nonneg a).
      split; [reflexivity|]. repeat split; try lia. constructor.
    + rewrite min_length_cons. cbn [memcmp]. destruct (Z.eqb_spec x y) as [->|N].
      * destruct (IH b) as (c & E & H1 & H2 & H3). exists c. split; [assumption|]. rewrite !zlen_cons.
        repeat split; intros.
        -- apply before_same. auto.
        -- apply before_same. auto.
        -- apply before_same. apply H3; lia.
        -- apply before_same. apply H3; lia.
        -- f_equal. apply H3; lia.
      * destruct (Z.ltb_spec x y); [exists (-1)|exists 1]; (split; [reflexivity|]); repeat split; try lia; intros; constructor; lia.
Qed.

Ltac solve_cmp a b :=
  destruct (memcmp_order a b) as (c & E & H1 & H2 & H3); rewrite E; cbn [bind];
  eexists; split; [reflexivity|];
  pose proof (before_irrefl a) as Ia; pose proof (before_irrefl b) as Ib;
  pose proof (before_trans a b a) as T1; pose proof (before_trans b a b) as T2;
  assert (F : (c < 0 /\ before a b) \/ (0 < c /\ before b a) \/ (c = 0 /\ zlen a < zlen b /\ before a b) \/
              (c = 0 /\ zlen b < zlen a /\ before b a) \/ (c = 0 /\ a = b))
    by (destruct (Z.lt_trichotomy c 0) as [C|[C|C]]; [auto | | auto];
        destruct (H3 C) as (? & ? & ?); destruct (Z.lt_trichotomy (zlen a) (zlen b)) as [L|[L|L]]; auto 10);
  destruct F as [(C & F)|[(C & F)|[(C & L & F)|[(C & L & F)|(C & F)]]]]; [| | | | subst b];
  repeat match goal with |- context [?x <? ?y] => destruct (Z.ltb_spec x y); try lia
                       | |- context [?x <=? ?y] => destruct (Z.leb_spec x y); try lia
                       | |- context [?x =? ?y] => destruct (Z.eqb_spec x y); try lia end; cbn [orb andb];
  split; intros X; try discriminate; try tauto;
  (* a = b is impossible when one is before the other *)
  try (exfalso; destruct X as [X|X]; [tauto|subst b; tauto]).

Lemma lt_decides a b : decides (string_lt a b) (before a b).
Proof. unfold decides, string_lt. solve_cmp a b. Show. Qed.
Lemma le_decides a b : decides (string_le a b) (before a b \/ a = b).
Proof. unfold decides, string_le. solve_cmp a b. Qed.
Lemma gt_decides a b : decides (string_gt a b) (before b a).
Proof. unfold decides, string_gt. solve_cmp a b. Qed.
Lemma ge_decides a b : decides (string_ge a b) (before b a \/ a = b).
Proof. unfold decides, string_ge. solve_cmp a b. Qed.

Lemma ee_decides a b : decides (string_ee a b) (a = b).
Proof.
  unfold decides, string_ee. destruct (Z.eqb_spec (zlen a) (zlen b)) as [E|N].
  - destruct (memcmp_eq a b) as (c & -> & Hc); [unfold zlen in E; lia|]. cbn [bind].
    eexists. split; [reflexivity|]. now rewrite Z.eqb_eq.
  - exists false. split; [reflexivity|]. split; [discriminate|]. now intros ->.
Qed.

Lemma ne_decides a b : decides (string_ne a b) (a <> b).
Proof.
  unfold decides, string_ne. destruct (Z.eqb_spec (zlen a) (zlen b)) as [E|N]; cbn [negb].
  - destruct (memcmp_eq a b) as (c & -> & Hc); [unfold zlen in E; lia|]. cbn [bind].
    eexists. split; [reflexivity|]. rewrite negb_true_iff, Z.eqb_neq. now rewrite Hc.
  - exists true. split; [reflexivity|]. split; [congruence|auto].
Qed.
