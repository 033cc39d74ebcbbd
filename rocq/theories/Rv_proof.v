(** Lemmas for the machine code theorems. *)
From Coq Require Import ZArith List Bool Lia ZifyBool ZifyNat.
From Verif Require Import Base Rv_model Rv_spec.
Import ListNotations.
Open Scope Z_scope.
Ltac Zify.zify_post_hook ::= Z.div_mod_to_equations.

(** ** Bits and fields *)
Lemma tb_hi a b i : 0 <= a < b -> b <= 2 ^ i -> 0 <= i -> Z.testbit a i = false.
Proof.
  intros H1 H2 Hi.
  rewrite <- (Z.mod_small a (2 ^ i)) by lia.
  apply Z.mod_pow2_bits_high. lia.
Qed.
Lemma fld_bits w lo n i : 0 <= lo -> 0 <= i -> 0 <= n ->
  Z.testbit (fld w lo n) i = (i <? n) && Z.testbit w (i + lo).
Proof.
  intros. unfold fld. rewrite Z.land_spec, Z.shiftr_spec by lia.
  rewrite Z.testbit_ones_nonneg by lia. apply andb_comm.
Qed.
Lemma fld_eq w lo n : 0 <= lo -> 0 <= n -> fld w lo n = (w / 2 ^ lo) mod 2 ^ n.
Proof. intros. unfold fld. rewrite Z.land_ones, Z.shiftr_div_pow2 by lia. reflexivity. Qed.
Lemma fld_range w lo n : 0 <= lo -> 0 <= n -> 0 <= fld w lo n < 2 ^ n.
Proof. intros. rewrite fld_eq by lia. apply Z.mod_pos_bound. apply Z.pow_pos_nonneg; lia. Qed.

Definition wb (w lo n v : Z) : Prop :=
  0 <= v < 2 ^ n /\ forall i, 0 <= i < n -> Z.testbit w (i + lo) = Z.testbit v i.
Lemma wb_fld w lo n v : 0 <= lo -> 0 <= n -> wb w lo n v -> fld w lo n = v.
Proof.
  intros Hl Hn [Hv H]. apply Z.bits_inj'. intros i Hi.
  rewrite fld_bits by lia. destruct (Z.ltb_spec i n).
  - cbn [andb]. apply H. lia.
  - cbn [andb]. symmetry. apply (tb_hi v (2 ^ n)); try lia.
    apply Z.pow_le_mono_r; lia.
Qed.
Lemma extract_fld imm t b n : t - b + 1 = n -> 0 <= n -> extract imm t b = fld imm b n.
Proof. intros <- _. reflexivity. Qed.

(** enumerate a number below a literal *)
Lemma lt_cases (P : Z -> Prop) n : 
  P n -> (forall i, 0 <= i < n -> P i) -> forall i, 0 <= i < n + 1 -> P i.
Proof. intros H K i Hi. destruct (Z.eq_dec i n); [subst; assumption|apply K; lia]. Qed.

Ltac znum x :=
  match x with
  | Z0 => idtac
  | Zpos _ => idtac
  | Zneg _ => idtac
  end.
(** evaluate one bit of a word *)
Ltac bit1 :=
  match goal with
  | |- context [Z.testbit (Z.lor ?a ?b) ?i] => rewrite (Z.lor_spec a b i)
  | |- context [Z.testbit (Z.land ?a ?b) ?i] => rewrite (Z.land_spec a b i)
  | |- context [Z.testbit (Z.shiftl ?a ?n) ?i] =>
      rewrite (Z.shiftl_spec a n i) by lia;
      let v := eval compute in (i - n) in change (i - n) with v
  | |- context [Z.testbit (fld ?a ?lo ?n) ?i] =>
      (rewrite (Z.testbit_neg_r (fld a lo n) i) by lia) ||
      (rewrite (fld_bits a lo n i) by lia;
       let v := eval compute in (i <? n) in change (i <? n) with v;
       let v := eval compute in (i + lo) in change (i + lo) with v)
  | |- context [Z.testbit ?a ?i] =>
      znum i;
      (let a' := eval compute in a in znum a';
       let v := eval compute in (Z.testbit a i) in change (Z.testbit a i) with v)
  | |- context [Z.testbit ?a ?i] => znum i; rewrite (Z.testbit_neg_r a i) by lia
  | H : 0 <= ?a < ?b |- context [Z.testbit ?a ?i] =>
      znum i;
      rewrite (tb_hi a b i H) by (try lia; apply Z.leb_le; reflexivity)
  end.
Ltac bits :=
  repeat bit1;
  repeat rewrite ?orb_false_l, ?orb_false_r, ?andb_false_r, ?andb_false_l,
          ?andb_true_r, ?andb_true_l;
  try reflexivity.
Ltac enum_to P n :=
  lazymatch n with
  | 0 => let i := fresh "i" in intros i ?Hi; exfalso; lia
  | _ => let m := eval compute in (n - 1) in
         change n with (m + 1);
         apply (lt_cases P m); [ cbv beta | enum_to P m ]
  end.
Ltac enum :=
  match goal with
  | |- forall i, 0 <= i < ?n -> @?P i => enum_to P n
  end.
Ltac fbits :=
  apply wb_fld; [lia|lia|]; split; [try solve [lia | apply fld_range; lia]|];
  [ .. | enum;
    match goal with
    | |- Z.testbit ?w ?k = _ => let v := eval compute in k in change k with v
    end; bits ].


(** ** Instruction formats *)
Lemma fld_low w lo n k : 0 <= lo -> 0 <= n -> lo + n <= k ->
  fld (Z.land w (Z.ones k)) lo n = fld w lo n.
Proof.
  intros. apply Z.bits_inj'. intros i Hi. rewrite !fld_bits by lia.
  destruct (Z.ltb_spec i n); cbn [andb]; [|reflexivity].
  rewrite Z.land_spec, Z.testbit_ones_nonneg by lia.
  destruct (Z.ltb_spec (i + lo) k); [apply andb_true_r|lia].
Qed.

Section Formats.
Variables (imm rs2 rs1 f3 rd op : Z).
Hypothesis (H1 : 0 <= rs1 < 32) (H3 : 0 <= f3 < 8) (Ho : 0 <= op < 128).

Section R.
Variable f7 : Z.
Hypothesis (H7 : 0 <= f7 < 128) (H2 : 0 <= rs2 < 32) (Hd : 0 <= rd < 32).
Lemma rtype_op : fld (rtype f7 rs2 rs1 f3 rd op) 0 7 = op.
Proof. unfold rtype. fbits. Qed.
Lemma rtype_rd : fld (rtype f7 rs2 rs1 f3 rd op) 7 5 = rd.
Proof. unfold rtype. fbits. Qed.
Lemma rtype_f3 : fld (rtype f7 rs2 rs1 f3 rd op) 12 3 = f3.
Proof. unfold rtype. fbits. Qed.
Lemma rtype_rs1 : fld (rtype f7 rs2 rs1 f3 rd op) 15 5 = rs1.
Proof. unfold rtype. fbits. Qed.
Lemma rtype_rs2 : fld (rtype f7 rs2 rs1 f3 rd op) 20 5 = rs2.
Proof. unfold rtype. fbits. Qed.
Lemma rtype_f7 : fld (rtype f7 rs2 rs1 f3 rd op) 25 7 = f7.
Proof. unfold rtype. fbits. Qed.
End R.

Section I.
Hypothesis (Hd : 0 <= rd < 32).
Lemma itype_op : fld (itype imm rs1 f3 rd op) 0 7 = op.
Proof. unfold itype. rewrite (extract_fld imm 11 0 12) by lia. fbits. Qed.
Lemma itype_rd : fld (itype imm rs1 f3 rd op) 7 5 = rd.
Proof. unfold itype. rewrite (extract_fld imm 11 0 12) by lia. fbits. Qed.
Lemma itype_f3 : fld (itype imm rs1 f3 rd op) 12 3 = f3.
Proof. unfold itype. rewrite (extract_fld imm 11 0 12) by lia. fbits. Qed.
Lemma itype_rs1 : fld (itype imm rs1 f3 rd op) 15 5 = rs1.
Proof. unfold itype. rewrite (extract_fld imm 11 0 12) by lia. fbits. Qed.
Lemma itype_imm : fld (itype imm rs1 f3 rd op) 20 12 = fld imm 0 12.
Proof. unfold itype. rewrite (extract_fld imm 11 0 12) by lia. fbits. Qed.
Lemma itype_sh6 : fld (itype imm rs1 f3 rd op) 20 6 = fld imm 0 6.
Proof. unfold itype. rewrite (extract_fld imm 11 0 12) by lia. fbits. Qed.
Lemma itype_sh5 : fld (itype imm rs1 f3 rd op) 20 5 = fld imm 0 5.
Proof. unfold itype. rewrite (extract_fld imm 11 0 12) by lia. fbits. Qed.
Lemma itype_f6 : fld (itype imm rs1 f3 rd op) 26 6 = fld imm 6 6.
Proof. unfold itype. rewrite (extract_fld imm 11 0 12) by lia. fbits. Qed.
Lemma itype_f7 : fld (itype imm rs1 f3 rd op) 25 7 = fld imm 5 7.
Proof. unfold itype. rewrite (extract_fld imm 11 0 12) by lia. fbits. Qed.
End I.

Ltac sty := unfold stype; rewrite (extract_fld imm 11 5 7), (extract_fld imm 4 0 5) by lia; fbits.
Section S.
Hypothesis (H2 : 0 <= rs2 < 32).
Lemma stype_op : fld (stype imm rs2 rs1 f3 op) 0 7 = op.
Proof. sty. Qed.
Lemma stype_lo : fld (stype imm rs2 rs1 f3 op) 7 5 = fld imm 0 5.
Proof. sty. Qed.
Lemma stype_f3 : fld (stype imm rs2 rs1 f3 op) 12 3 = f3.
Proof. sty. Qed.
Lemma stype_rs1 : fld (stype imm rs2 rs1 f3 op) 15 5 = rs1.
Proof. sty. Qed.
Lemma stype_rs2 : fld (stype imm rs2 rs1 f3 op) 20 5 = rs2.
Proof. sty. Qed.
Lemma stype_hi : fld (stype imm rs2 rs1 f3 op) 25 7 = fld imm 5 7.
Proof. sty. Qed.
Ltac bty := unfold stype, swizzle_bxx; rewrite (extract_fld 0 11 5 7), (extract_fld 0 4 0 5),
  (extract_fld imm 12 12 1), (extract_fld imm 10 5 6), (extract_fld imm 4 1 4),
  (extract_fld imm 11 11 1) by lia; change (fld 0 5 7) with 0; change (fld 0 0 5) with 0; fbits.
Lemma btype_op : fld (Z.lor (stype 0 rs2 rs1 f3 op) (swizzle_bxx imm)) 0 7 = op.
Proof. bty. Qed.
Lemma btype_f3 : fld (Z.lor (stype 0 rs2 rs1 f3 op) (swizzle_bxx imm)) 12 3 = f3.
Proof. bty. Qed.
Lemma btype_rs1 : fld (Z.lor (stype 0 rs2 rs1 f3 op) (swizzle_bxx imm)) 15 5 = rs1.
Proof. bty. Qed.
Lemma btype_rs2 : fld (Z.lor (stype 0 rs2 rs1 f3 op) (swizzle_bxx imm)) 20 5 = rs2.
Proof. bty. Qed.
Lemma btype_12 : fld (Z.lor (stype 0 rs2 rs1 f3 op) (swizzle_bxx imm)) 31 1 = fld imm 12 1.
Proof. bty. Qed.
Lemma btype_11 : fld (Z.lor (stype 0 rs2 rs1 f3 op) (swizzle_bxx imm)) 7 1 = fld imm 11 1.
Proof. bty. Qed.
Lemma btype_5 : fld (Z.lor (stype 0 rs2 rs1 f3 op) (swizzle_bxx imm)) 25 6 = fld imm 5 6.
Proof. bty. Qed.
Lemma btype_1 : fld (Z.lor (stype 0 rs2 rs1 f3 op) (swizzle_bxx imm)) 8 4 = fld imm 1 4.
Proof. bty. Qed.
End S.
End Formats.

Section U.
Variables (imm rd op : Z).
Hypothesis (Ho : 0 <= op < 128) (Hd : 0 <= rd < 32).
Lemma utype_op : fld (utype imm rd op) 0 7 = op.
Proof. unfold utype. rewrite (extract_fld imm 31 12 20) by lia. fbits. Qed.
Lemma utype_rd : fld (utype imm rd op) 7 5 = rd.
Proof. unfold utype. rewrite (extract_fld imm 31 12 20) by lia. fbits. Qed.
Lemma utype_imm : fld (utype imm rd op) 12 20 = fld imm 12 20.
Proof. unfold utype. rewrite (extract_fld imm 31 12 20) by lia. fbits. Qed.
Ltac jty := unfold utype;
  rewrite (extract_fld (swizzle_jal imm) 31 12 20) by lia; unfold swizzle_jal;
  rewrite (extract_fld imm 20 20 1), (extract_fld imm 10 1 10), (extract_fld imm 11 11 1),
    (extract_fld imm 19 12 8) by lia; fbits.
Lemma jtype_20 : fld (utype (swizzle_jal imm) rd op) 31 1 = fld imm 20 1.
Proof. jty. Qed.
Lemma jtype_12 : fld (utype (swizzle_jal imm) rd op) 12 8 = fld imm 12 8.
Proof. jty. Qed.
Lemma jtype_11 : fld (utype (swizzle_jal imm) rd op) 20 1 = fld imm 11 1.
Proof. jty. Qed.
Lemma jtype_1 : fld (utype (swizzle_jal imm) rd op) 21 10 = fld imm 1 10.
Proof. jty. Qed.
End U.
