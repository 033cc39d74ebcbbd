From Verif Require Import Base Base_lemmas Hex_model Hex_spec.

Lemma hex_char i : 0 <= i < 16 -> exists c, at_ hex_chars i = Ok c /\ digit c = Some i.
Proof.
  intros H. assert (C : forallb (fun i => match at_ hex_chars i with Ok c => match digit c with Some v => v =? i | None => false end | _ => false end) (map Z.of_nat (seq 0 16)) = true) by (vm_compute; reflexivity).
  rewrite forallb_forall in C. specialize (C i). destruct (at_ hex_chars i) as [c| | | | |].
  - exists c. split; [reflexivity|]. destruct (digit c) as [v|].
    + assert (v = i) as -> by (apply Z.eqb_eq, C, in_map_iff; exists (Z.to_nat i); split; [lia|apply in_seq; lia]). reflexivity.
    + exfalso. assert (F : false = true) by (apply C, in_map_iff; exists (Z.to_nat i); split; [lia|apply in_seq; lia]). discriminate F.
  - exfalso. assert (F : false = true) by (apply C, in_map_iff; exists (Z.to_nat i); split; [lia|apply in_seq; lia]). discriminate F.
  - exfalso. assert (F : false = true) by (apply C, in_map_iff; exists (Z.to_nat i); split; [lia|apply in_seq; lia]). discriminate F.
  - exfalso. assert (F : false = true) by (apply C, in_map_iff; exists (Z.to_nat i); split; [lia|apply in_seq; lia]). discriminate F.
  - exfalso. assert (F : false = true) by (apply C, in_map_iff; exists (Z.to_nat i); split; [lia|apply in_seq; lia]). discriminate F.
  - exfalso. assert (F : false = true) by (apply C, in_map_iff; exists (Z.to_nat i); split; [lia|apply in_seq; lia]). discriminate F.
Qed.

Lemma to_hex_ok l : bytes l -> exists t, to_hex l = Ok t /\ zlen t = 2 * zlen l /\ denotes t l.
Proof.
  intros B. induction B as [|v l H B IH]; cbn [to_hex].
  - exists []. split; [reflexivity|]. split; [reflexivity|constructor].
  - unfold is_byte in H.
    assert (E : Z.land (Z.shiftr v 4) 15 = v / 16).
    { rewrite Z.shiftr_div_pow2 by lia. change 15 with (Z.ones 4). rewrite Z.land_ones by lia. change (2 ^ 4) with 16. apply Z.mod_small. Z.to_euclidean_division_equations; lia. }
    assert (E' : Z.land v 15 = v mod 16) by (change 15 with (Z.ones 4); now rewrite Z.land_ones by lia).
    rewrite E, E'.
    destruct (hex_char (v / 16)) as (a & -> & Da); [Z.to_euclidean_division_equations; lia|]. cbn [bind].
    destruct (hex_char (v mod 16)) as (b & -> & Db); [Z.to_euclidean_division_equations; lia|]. cbn [bind].
    destruct IH as (t & -> & L & D). cbn [bind]. exists (a :: b :: t). split; [reflexivity|]. split; [rewrite !zlen_cons; lia|].
    replace (v :: l) with (16 * (v / 16) + v mod 16 :: l) by (f_equal; Z.to_euclidean_division_equations; lia). now constructor.
Qed.

Lemma denotes_fun t l : denotes t l -> forall l', denotes t l' -> l = l'.
Proof.
  induction 1 as [|a b x y s t Da Db D IH]; intros l' H; inversion H; subst; [reflexivity|].
  f_equal; [|now apply IH]. congruence.
Qed.
