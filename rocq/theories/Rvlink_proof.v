(** Relocations. *)
From Coq Require Import ZArith List Bool Lia ZifyBool ZifyNat.
From Verif Require Import Base Rv_model Rv_spec Rv_proof Rv_dec_proof Rvlink_model Rvlink_spec.
Import ListNotations.
Open Scope Z_scope.
Ltac Zify.zify_post_hook ::= Z.div_mod_to_equations.

(** ** Bytes *)
Lemma le4 w : le 4 w = code32 w.
Proof.
  cbn [le]. unfold code32. rewrite Z.land_ones by lia. change (2 ^ 32) with 4294967296.
  set (u := w mod 4294967296).
  assert (E0 : w mod 256 = u mod 256) by (unfold u; lia).
  assert (E1 : (w / 256) mod 256 = (u / 256) mod 256) by (unfold u; lia).
  assert (E2 : (w / 256 / 256) mod 256 = (u / 65536) mod 256) by (unfold u; lia).
  assert (E3 : (w / 256 / 256 / 256) mod 256 = (u / 16777216) mod 256) by (unfold u; lia).
  rewrite E0, E1, E2, E3. reflexivity.
Qed.
Lemma le2 w : le 2 w = code16 w.
Proof.
  cbn [le]. unfold code16. rewrite Z.land_ones by lia. change (2 ^ 16) with 65536.
  set (u := w mod 65536).
  assert (E0 : w mod 256 = u mod 256) by (unfold u; lia).
  assert (E1 : (w / 256) mod 256 = (u / 256) mod 256) by (unfold u; lia).
  rewrite E0, E1. reflexivity.
Qed.
Lemma le_length n w : length (le n w) = n.
Proof. revert w. induction n; intros; cbn [le length]; auto. Qed.
Lemma unle_le n : forall w, unle (le n w) = w mod 2 ^ (8 * Z.of_nat n).
Proof.
  induction n; intros w; cbn [le unle].
  - change (2 ^ (8 * Z.of_nat 0)) with 1. rewrite Z.mod_1_r. reflexivity.
  - rewrite IHn. replace (8 * Z.of_nat (Datatypes.S n)) with (8 + 8 * Z.of_nat n) by lia.
    rewrite Z.pow_add_r by lia. change (2 ^ 8) with 256.
    rewrite Z.rem_mul_r; [reflexivity|lia|apply Z.pow_pos_nonneg; lia].
Qed.
Lemma unle_range b : bytes b -> 0 <= unle b < 2 ^ (8 * Z.of_nat (length b)).
Proof.
  intros H. induction H as [|x b Hx Hb IH]; cbn [unle length].
  - change (2 ^ (8 * Z.of_nat 0)) with 1. lia.
  - replace (8 * Z.of_nat (Datatypes.S (length b))) with (8 + 8 * Z.of_nat (length b)) by lia.
    rewrite Z.pow_add_r by lia. change (2 ^ 8) with 256. lia.
Qed.

Lemma fetch4 b i rest : fetch b = Some (i, 4, rest) ->
  (4 <= length b)%nat /\ rest = skipn 4 b /\ decode32 (field 4 b) = Some i.
Proof.
  intros H. destruct b as [|b0 [|b1 r]]; try discriminate H. cbn [fetch] in H.
  destruct ((b0 + 256 * b1) mod 4 =? 3).
  - destruct r as [|b2 [|b3 r]]; try discriminate H.
    unfold omap in H. destruct (decode32 _) as [j|] eqn:D; [|discriminate H].
    injection H as -> ->. split; [cbn; lia|]. split; [reflexivity|].
    rewrite <- D. f_equal. cbn [field firstn unle]. unfold field. cbn [firstn unle]. lia.
  - unfold omap in H. destruct (decode16 _); discriminate H.
Qed.
Lemma fetch2 b i rest : fetch b = Some (i, 2, rest) ->
  (2 <= length b)%nat /\ rest = skipn 2 b /\ decode16 (field 2 b) = Some i /\ field 2 b mod 4 <> 3.
Proof.
  intros H. destruct b as [|b0 [|b1 r]]; try discriminate H. cbn [fetch] in H.
  destruct (Z.eqb_spec ((b0 + 256 * b1) mod 4) 3).
  - destruct r as [|b2 [|b3 r]]; try discriminate H.
    unfold omap in H. destruct (decode32 _) as [j|]; discriminate H.
  - unfold omap in H. destruct (decode16 _) as [j|] eqn:D; [|discriminate H].
    injection H as -> ->. split; [cbn; lia|]. split; [reflexivity|].
    unfold field. cbn [firstn unle].
    replace (b0 + 256 * (b1 + 256 * 0)) with (b0 + 256 * b1) by lia. auto.
Qed.
Lemma upd_ok n f b : (n <= length b)%nat -> upd n f b = Ok (le n (f (field n b)) ++ skipn n b).
Proof.
  intros H. unfold upd, get. destruct (Nat.ltb_spec (length b) n); [lia|]. reflexivity.
Qed.
Lemma fetch_put4 w i r : fld w 0 7 mod 4 = 3 -> fld w 0 7 <> 0x73 -> decode32 w = Some i ->
  fetch (le 4 w ++ r) = Some (i, 4, r).
Proof. intros. rewrite le4. apply dec32; assumption. Qed.

(** ** Which instructions have which constant *)
Lemma dec_fp_kind f7 rs2 rs1 f3 rd i : dec_fp f7 rs2 rs1 f3 rd = Some i ->
  forall d, with_lo i d = None /\ with_st i d = None /\
  (forall o a b x, i <> IBr o a b x) /\ (forall a x, i <> IJal a x) /\ (forall a x, i <> IAuipc a x)
  /\ (forall a x, i <> ILui a x).
Proof.
  unfold dec_fp. intros H d.
  repeat match type of H with
  | (if ?c then _ else _) = _ => destruct c
  | (match ?c with _ => _ end) = _ => destruct c
  end; try discriminate H; injection H as <-; cbn [with_lo with_st]; repeat split; discriminate.
Qed.

Ltac opc H :=
  repeat match type of H with
  | (if ?c then _ else _) = _ => let E := fresh "E" in destruct c eqn:E
  end.

Lemma dec_i w w' i i' :
  fld w' 0 7 = fld w 0 7 -> fld w' 7 5 = fld w 7 5 -> fld w' 12 3 = fld w 12 3 ->
  fld w' 15 5 = fld w 15 5 ->
  decode32 w = Some i -> with_lo i (iimm w') = Some i' ->
  decode32 w' = Some i' /\ fld w 0 7 mod 4 = 3 /\ fld w 0 7 <> 0x73.
Proof.
  intros Eo Ed E3 E1 D W. unfold decode32 in *. rewrite Eo, Ed, E3, E1. clear Eo Ed E3 E1.
  set (op := fld w 0 7) in *. set (rd := fld w 7 5) in *. set (f3 := fld w 12 3) in *.
  set (rs1 := fld w 15 5) in *. clearbody op rd f3 rs1.
  opc D; try discriminate D; try (injection D as <-; try discriminate W).
  all: try (split; [|lia]).
  - cbn in W. exact W.
  - unfold omap in D. destruct (dec_br _); [injection D as <-; discriminate W|discriminate D].
  - unfold omap in *. destruct (dec_load f3); [|discriminate D]. injection D as <-. cbn in W. exact W.
  - unfold omap in D. destruct (dec_store _); [injection D as <-; discriminate W|discriminate D].
  - unfold dec_imm in *.
    repeat match type of D with
    | (if ?c then _ else _) = _ => destruct c
    | (match ?c with _ => _ end) = _ => destruct c
    end; try discriminate D; injection D as <-; cbn in W; try discriminate W; exact W.
  - unfold dec_imm32 in *.
    repeat match type of D with
    | (if ?c then _ else _) = _ => destruct c
    | (match ?c with _ => _ end) = _ => destruct c
    end; try discriminate D; injection D as <-; cbn in W; try discriminate W; exact W.
  - unfold omap in D. destruct (dec_op _ _); [injection D as <-; discriminate W|discriminate D].
  - unfold omap in D. destruct (dec_op32 _ _); [injection D as <-; discriminate W|discriminate D].
  - cbn in W. exact W.
  - cbn in W. exact W.
  - destruct (dec_fp_kind _ _ _ _ _ _ D (iimm w')) as (K & _). congruence.
Qed.

Ltac oth D W :=
  first
  [ discriminate D
  | injection D as <-; discriminate W
  | unfold omap in D;
    match type of D with match ?c with _ => _ end = _ => destruct c end;
    [injection D as <-; discriminate W | discriminate D]
  | unfold dec_imm in D;
    repeat match type of D with
    | (if ?c then _ else _) = _ => destruct c
    | (match ?c with _ => _ end) = _ => destruct c
    end; try discriminate D; injection D as <-; discriminate W
  | unfold dec_imm32 in D;
    repeat match type of D with
    | (if ?c then _ else _) = _ => destruct c
    | (match ?c with _ => _ end) = _ => destruct c
    end; try discriminate D; injection D as <-; discriminate W ].

Lemma dec_s w w' i i' :
  fld w' 0 7 = fld w 0 7 -> fld w' 12 3 = fld w 12 3 ->
  fld w' 15 5 = fld w 15 5 -> fld w' 20 5 = fld w 20 5 ->
  decode32 w = Some i -> with_st i (simm w') = Some i' ->
  decode32 w' = Some i' /\ fld w 0 7 mod 4 = 3 /\ fld w 0 7 <> 0x73.
Proof.
  intros Eo E3 E1 E2 D W. unfold decode32 in *. rewrite Eo, E3, E1, E2. clear Eo E3 E1 E2.
  set (op := fld w 0 7) in *. set (f3 := fld w 12 3) in *.
  set (rs1 := fld w 15 5) in *. set (rs2 := fld w 20 5) in *. clearbody op f3 rs1 rs2.
  opc D.
  all: try (exfalso; oth D W).
  all: try (split; [|lia]).
  - unfold omap in *. destruct (dec_store f3); [|discriminate D]. injection D as <-. exact W.
  - injection D as <-. exact W.
  - injection D as <-. exact W.
  - destruct (dec_fp_kind _ _ _ _ _ _ D (simm w')) as (_ & K & _). congruence.
Qed.

Lemma dec_b w w' o r1 r2 x :
  fld w' 0 7 = fld w 0 7 -> fld w' 12 3 = fld w 12 3 ->
  fld w' 15 5 = fld w 15 5 -> fld w' 20 5 = fld w 20 5 ->
  decode32 w = Some (IBr o r1 r2 x) ->
  decode32 w' = Some (IBr o r1 r2 (bimm w')) /\ fld w 0 7 mod 4 = 3 /\ fld w 0 7 <> 0x73.
Proof.
  intros Eo E3 E1 E2 D. unfold decode32 in *. rewrite Eo, E3, E1, E2. clear Eo E3 E1 E2.
  set (op := fld w 0 7) in *. set (f3 := fld w 12 3) in *.
  set (rs1 := fld w 15 5) in *. set (rs2 := fld w 20 5) in *. clearbody op f3 rs1 rs2.
  opc D.
  all: try (exfalso; first [discriminate D
    | unfold omap, dec_imm, dec_imm32 in D;
      repeat match type of D with
      | (if ?c then _ else _) = _ => destruct c
      | (match ?c with _ => _ end) = _ => destruct c
      end; discriminate D]).
  all: try (split; [|lia]).
  - unfold omap in *. destruct (dec_br f3); [|discriminate D]. injection D as -> -> -> _. reflexivity.
  - exfalso. destruct (dec_fp_kind _ _ _ _ _ _ D 0) as (_ & _ & K & _). exact (K _ _ _ _ eq_refl).
Qed.

Ltac opk D := exfalso; first [discriminate D
    | unfold omap, dec_imm, dec_imm32 in D;
      repeat match type of D with
      | (if ?c then _ else _) = _ => destruct c
      | (match ?c with _ => _ end) = _ => destruct c
      end; discriminate D].

Lemma dec_jl w w' rd x :
  fld w' 0 7 = fld w 0 7 -> fld w' 7 5 = fld w 7 5 ->
  decode32 w = Some (IJal rd x) ->
  decode32 w' = Some (IJal rd (jimm w')) /\ fld w 0 7 mod 4 = 3 /\ fld w 0 7 <> 0x73.
Proof.
  intros Eo Ed D. unfold decode32 in *. rewrite Eo, Ed. clear Eo Ed.
  set (op := fld w 0 7) in *. set (r := fld w 7 5) in *. clearbody op r.
  opc D. all: try (opk D). all: try (split; [|lia]).
  - injection D as -> _. reflexivity.
  - exfalso. destruct (dec_fp_kind _ _ _ _ _ _ D 0) as (_ & _ & _ & K & _). exact (K _ _ eq_refl).
Qed.
Lemma dec_au w w' rd x :
  fld w' 0 7 = fld w 0 7 -> fld w' 7 5 = fld w 7 5 ->
  decode32 w = Some (IAuipc rd x) ->
  decode32 w' = Some (IAuipc rd (uimm w')) /\ fld w 0 7 mod 4 = 3 /\ fld w 0 7 <> 0x73.
Proof.
  intros Eo Ed D. unfold decode32 in *. rewrite Eo, Ed. clear Eo Ed.
  set (op := fld w 0 7) in *. set (r := fld w 7 5) in *. clearbody op r.
  opc D. all: try (opk D). all: try (split; [|lia]).
  - injection D as -> _. reflexivity.
  - exfalso. destruct (dec_fp_kind _ _ _ _ _ _ D 0) as (_ & _ & _ & _ & K & _). exact (K _ _ eq_refl).
Qed.
Lemma dec_lu w w' rd x :
  fld w' 0 7 = fld w 0 7 -> fld w' 7 5 = fld w 7 5 ->
  decode32 w = Some (ILui rd x) ->
  decode32 w' = Some (ILui rd (uimm w')) /\ fld w 0 7 mod 4 = 3 /\ fld w 0 7 <> 0x73.
Proof.
  intros Eo Ed D. unfold decode32 in *. rewrite Eo, Ed. clear Eo Ed.
  set (op := fld w 0 7) in *. set (r := fld w 7 5) in *. clearbody op r.
  opc D. all: try (opk D). all: try (split; [|lia]).
  - injection D as -> _. reflexivity.
  - exfalso. destruct (dec_fp_kind _ _ _ _ _ _ D 0) as (_ & _ & _ & _ & _ & K). exact (K _ _ eq_refl).
Qed.

(** ** The patched words *)
Ltac bit2 :=
  match goal with
  | |- context [Z.testbit (Z.shiftr ?a ?n) ?i] =>
      rewrite (Z.shiftr_spec a n i) by lia;
      let v := eval compute in (i + n) in change (i + n) with v
  | _ => bit1
  end.
Ltac bits2 :=
  repeat bit2;
  repeat rewrite ?orb_false_l, ?orb_false_r, ?andb_false_r, ?andb_false_l,
          ?andb_true_r, ?andb_true_l;
  try reflexivity.
Ltac pbits :=
  apply wb_fld; [lia|lia|]; split; [apply fld_range; lia|];
  enum;
    match goal with
    | |- Z.testbit ?w ?k = _ => let v := eval compute in k in change k with v
    end; bits2.

Lemma pb_op d w : fld (patch_b d w) 0 7 = fld w 0 7. Proof. unfold patch_b. pbits. Qed.
Lemma pb_f3 d w : fld (patch_b d w) 12 3 = fld w 12 3. Proof. unfold patch_b. pbits. Qed.
Lemma pb_r1 d w : fld (patch_b d w) 15 5 = fld w 15 5. Proof. unfold patch_b. pbits. Qed.
Lemma pb_r2 d w : fld (patch_b d w) 20 5 = fld w 20 5. Proof. unfold patch_b. pbits. Qed.
Lemma pb_12 d w : fld (patch_b d w) 31 1 = fld d 11 1. Proof. unfold patch_b. pbits. Qed.
Lemma pb_11 d w : fld (patch_b d w) 7 1 = fld d 10 1. Proof. unfold patch_b. pbits. Qed.
Lemma pb_5 d w : fld (patch_b d w) 25 6 = fld d 4 6. Proof. unfold patch_b. pbits. Qed.
Lemma pb_1 d w : fld (patch_b d w) 8 4 = fld d 0 4. Proof. unfold patch_b. pbits. Qed.
Lemma pj_op d w : fld (patch_j d w) 0 7 = fld w 0 7. Proof. unfold patch_j. pbits. Qed.
Lemma pj_rd d w : fld (patch_j d w) 7 5 = fld w 7 5. Proof. unfold patch_j. pbits. Qed.
Lemma pj_20 d w : fld (patch_j d w) 31 1 = fld d 20 1. Proof. unfold patch_j. pbits. Qed.
Lemma pj_12 d w : fld (patch_j d w) 12 8 = fld d 12 8. Proof. unfold patch_j. pbits. Qed.
Lemma pj_11 d w : fld (patch_j d w) 20 1 = fld d 11 1. Proof. unfold patch_j. pbits. Qed.
Lemma pj_1 d w : fld (patch_j d w) 21 10 = fld d 1 10. Proof. unfold patch_j. pbits. Qed.
Lemma pi_op d w : fld (patch_i d w) 0 7 = fld w 0 7. Proof. unfold patch_i. pbits. Qed.
Lemma pi_rd d w : fld (patch_i d w) 7 5 = fld w 7 5. Proof. unfold patch_i. pbits. Qed.
Lemma pi_f3 d w : fld (patch_i d w) 12 3 = fld w 12 3. Proof. unfold patch_i. pbits. Qed.
Lemma pi_r1 d w : fld (patch_i d w) 15 5 = fld w 15 5. Proof. unfold patch_i. pbits. Qed.
Lemma pi_im d w : fld (patch_i d w) 20 12 = fld d 0 12. Proof. unfold patch_i. pbits. Qed.
Lemma ps_op d w : fld (patch_s d w) 0 7 = fld w 0 7. Proof. unfold patch_s. pbits. Qed.
Lemma ps_f3 d w : fld (patch_s d w) 12 3 = fld w 12 3. Proof. unfold patch_s. pbits. Qed.
Lemma ps_r1 d w : fld (patch_s d w) 15 5 = fld w 15 5. Proof. unfold patch_s. pbits. Qed.
Lemma ps_r2 d w : fld (patch_s d w) 20 5 = fld w 20 5. Proof. unfold patch_s. pbits. Qed.
Lemma ps_hi d w : fld (patch_s d w) 25 7 = fld d 5 7. Proof. unfold patch_s. pbits. Qed.
Lemma ps_lo d w : fld (patch_s d w) 7 5 = fld d 0 5. Proof. unfold patch_s. pbits. Qed.
Lemma pu_op d w : fld (patch_u d w) 0 7 = fld w 0 7. Proof. unfold patch_u. pbits. Qed.
Lemma pu_rd d w : fld (patch_u d w) 7 5 = fld w 7 5. Proof. unfold patch_u. pbits. Qed.
Lemma pu_im d w : fld (patch_u d w) 12 20 = fld d 12 20. Proof. unfold patch_u. pbits. Qed.
Lemma ph_op d w : fld (patch_hi d w) 0 7 = fld w 0 7. Proof. unfold patch_hi. pbits. Qed.
Lemma ph_rd d w : fld (patch_hi d w) 7 5 = fld w 7 5. Proof. unfold patch_hi. pbits. Qed.
Lemma ph_im d w : fld (patch_hi d w) 12 20 = fld d 0 20. Proof. unfold patch_hi. pbits. Qed.
