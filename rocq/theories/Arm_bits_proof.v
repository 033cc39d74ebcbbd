(** The fields of an instruction word, and decoding. *)
From Coq Require Import ZArith List Bool Lia ZifyBool.
From Verif Require Import Base Arm_model Arm_spec.
Import ListNotations.
Open Scope Z_scope.

(** ** Fields *)
Lemma fld_land w lo n : 0 <= lo -> 0 <= n -> fld w lo n = Z.land (Z.shiftr w lo) (Z.ones n).
Proof. intros. unfold fld. rewrite Z.land_ones, Z.shiftr_div_pow2 by lia. reflexivity. Qed.
Lemma fld_bits w lo n i : 0 <= lo -> 0 <= n -> 0 <= i ->
  Z.testbit (fld w lo n) i = Z.testbit w (i + lo) && (i <? n).
Proof.
  intros. rewrite fld_land by lia. rewrite Z.land_spec, Z.shiftr_spec by lia.
  rewrite Z.testbit_ones_nonneg by lia. reflexivity.
Qed.
Lemma fld_lor a b lo n : 0 <= lo -> 0 <= n -> fld (Z.lor a b) lo n = Z.lor (fld a lo n) (fld b lo n).
Proof.
  intros. apply Z.bits_inj'. intros i Hi. rewrite Z.lor_spec, !fld_bits by lia.
  rewrite Z.lor_spec. destruct (Z.testbit a _), (Z.testbit b _), (i <? n); reflexivity.
Qed.
Lemma tb_small v m i : 0 <= v < 2 ^ m -> m <= i -> Z.testbit v i = false.
Proof.
  intros H L.
  assert (0 <= m) by (destruct (Z_lt_le_dec m 0); [rewrite Z.pow_neg_r in H by lia; lia|lia]).
  rewrite <- (Z.mod_small v (2 ^ m)) by lia. apply Z.mod_pow2_bits_high. lia.
Qed.
Lemma fld_shift_other v l m lo n : 0 <= l -> 0 <= lo -> 0 <= n -> 0 <= v < 2 ^ m ->
  lo + n <= l \/ l + m <= lo -> fld (Z.shiftl v l) lo n = 0.
Proof.
  intros. apply Z.bits_inj'. intros i Hi. rewrite fld_bits, Z.bits_0 by lia.
  rewrite Z.shiftl_spec by lia.
  destruct (Z.ltb_spec i n); [|apply andb_false_r]. rewrite andb_true_r.
  destruct (Z_lt_le_dec (i + lo) l).
  - apply Z.testbit_neg_r. lia.
  - apply (tb_small v m); lia.
Qed.
Lemma fld_shift_same v lo n : 0 <= lo -> 0 <= n -> 0 <= v < 2 ^ n -> fld (Z.shiftl v lo) lo n = v.
Proof.
  intros. unfold fld. rewrite Z.shiftl_mul_pow2, Z.div_mul by lia. apply Z.mod_small. lia.
Qed.

(** ** Words made of a constant and fields *)
Fixpoint wd (c : Z) (fs : list (Z * Z * Z)) : Z :=
  match fs with
  | [] => c
  | (lo, _, v) :: fs => wd (Z.lor c (Z.shiftl v lo)) fs
  end.
Definition okf (fs : list (Z * Z * Z)) : Prop :=
  Forall (fun x => let '(lo, n, v) := x in 0 <= lo /\ 0 <= n /\ 0 <= v < 2 ^ n /\ lo + n <= 32) fs.
Lemma wd_lor a c fs : wd (Z.lor a c) fs = Z.lor a (wd c fs).
Proof.
  revert c. induction fs as [|[[lo n] v] fs IH]; intros c; cbn [wd]; [reflexivity|].
  rewrite <- Z.lor_assoc. apply IH.
Qed.
Lemma wd_cons c lo n v fs : wd c ((lo, n, v) :: fs) = Z.lor (Z.shiftl v lo) (wd c fs).
Proof. cbn [wd]. rewrite Z.lor_comm. apply wd_lor. Qed.

Fixpoint known (c : Z) (fs : list (Z * Z * Z)) (lo n : Z) : option Z :=
  match fs with
  | [] => Some (fld c lo n)
  | (l, m, v) :: fs =>
      if (lo + n <=? l) || (l + m <=? lo) then known c fs lo n
      else if (l =? lo) && (m =? n) then
        match known c fs lo n with
        | Some z => if z =? 0 then Some v else None
        | None => None
        end
      else None
  end.
Lemma known_ok c fs lo n u : 0 <= lo -> 0 <= n -> okf fs -> known c fs lo n = Some u ->
  fld (wd c fs) lo n = u.
Proof.
  intros Hl Hn. revert u. induction fs as [|[[l m] v] fs IH]; intros u Hf H; cbn [known] in H.
  - injection H as <-. reflexivity.
  - apply Forall_cons_iff in Hf. destruct Hf as [(A & B & C & D) Hf].
    rewrite wd_cons, fld_lor by lia.
    destruct ((lo + n <=? l) || (l + m <=? lo)) eqn:E.
    + rewrite (fld_shift_other v l m) by (try lia). rewrite (IH u Hf H). apply Z.lor_0_l.
    + destruct ((l =? lo) && (m =? n)) eqn:E2; [|discriminate].
      assert (l = lo) by lia. assert (m = n) by lia. subst l m.
      destruct (known c fs lo n) as [z|]; [|discriminate].
      destruct (Z.eqb_spec z 0) as [->|]; [|discriminate]. injection H as <-.
      rewrite (IH 0 Hf eq_refl), fld_shift_same by lia. apply Z.lor_0_r.
Qed.

Definition getf (c : Z) (fs : list (Z * Z * Z)) (lo n : Z) : Z :=
  if (0 <=? lo) && (0 <=? n) then
    match known c fs lo n with Some u => u | None => fld (wd c fs) lo n end
  else fld (wd c fs) lo n.
Lemma getf_ok c fs lo n : okf fs -> fld (wd c fs) lo n = getf c fs lo n.
Proof.
  intros H. unfold getf. destruct ((0 <=? lo) && (0 <=? n)) eqn:E; [|reflexivity].
  destruct (known c fs lo n) eqn:K; [|reflexivity]. apply known_ok; [lia|lia|assumption|assumption].
Qed.

(** ** Decoding depends on the fields only *)
Section Ext.
Variables f g : Z -> Z -> Z.
Hypothesis H : forall lo n, f lo n = g lo n.
Lemma ext_x : d_x f = d_x g. Proof. unfold d_x. rewrite !H. reflexivity. Qed.
Lemma ext_rd : d_rd f = d_rd g. Proof. unfold d_rd. rewrite !H. reflexivity. Qed.
Lemma ext_rn : d_rn f = d_rn g. Proof. unfold d_rn. rewrite !H. reflexivity. Qed.
Lemma ext_rm : d_rm f = d_rm g. Proof. unfold d_rm. rewrite !H. reflexivity. Qed.
Ltac go := rewrite ?ext_x, ?ext_rd, ?ext_rn, ?ext_rm, ?H; reflexivity.
Lemma ext_imm : dec_imm f = dec_imm g. Proof. unfold dec_imm. cbv zeta. go. Qed.
Lemma ext_branch : dec_branch f = dec_branch g. Proof. unfold dec_branch. cbv zeta. go. Qed.
Lemma ext_reg : dec_reg f = dec_reg g. Proof. unfold dec_reg. cbv zeta. go. Qed.
Lemma ext_mode k : dec_mode f k = dec_mode g k. Proof. unfold dec_mode. cbv zeta. go. Qed.
Lemma ext_pmode k : dec_pmode f k = dec_pmode g k. Proof. unfold dec_pmode. cbv zeta. go. Qed.
Lemma ext_single : dec_single f = dec_single g.
Proof. unfold dec_single. cbv zeta. rewrite !ext_mode. go. Qed.
Lemma ext_pair : dec_pair f = dec_pair g.
Proof. unfold dec_pair. cbv zeta. rewrite !ext_pmode. go. Qed.
Lemma ext_mem : dec_mem f = dec_mem g.
Proof. unfold dec_mem. rewrite ext_single, ext_pair. cbv zeta. go. Qed.
Lemma ext_fp : dec_fp f = dec_fp g. Proof. unfold dec_fp. cbv zeta. go. Qed.
Lemma ext_fields : dec_fields f = dec_fields g.
Proof.
  unfold dec_fields. rewrite ext_imm, ext_branch, ext_reg, ext_mem, ext_fp. cbv zeta. go.
Qed.
End Ext.

(** ** What a word decodes to *)
Definition decodes (w : Z) (i : instr) : Prop := 0 < w < 2 ^ 32 /\ decode w = Some i.

Lemma lor_range a b n : 0 <= n -> 0 <= a < 2 ^ n -> 0 <= b < 2 ^ n -> 0 <= Z.lor a b < 2 ^ n.
Proof.
  intros Hn Ha Hb. assert (0 <= Z.lor a b) by (apply Z.lor_nonneg; lia).
  split; [lia|].
  destruct (Z.eq_dec (Z.lor a b) 0); [rewrite e; apply Z.pow_pos_nonneg; lia|].
  apply Z.log2_lt_pow2; [lia|]. rewrite Z.log2_lor by lia.
  destruct (Z.eq_dec n 0).
  - subst n. change (2 ^ 0) with 1 in *. replace a with 0 in * by lia. replace b with 0 in * by lia.
    contradiction n0. reflexivity.
  - apply Z.max_lub_lt.
    + destruct (Z.eq_dec a 0); [subst; cbn; lia|apply Z.log2_lt_pow2; lia].
    + destruct (Z.eq_dec b 0); [subst; cbn; lia|apply Z.log2_lt_pow2; lia].
Qed.
Lemma wd_range c fs : 0 < c < 2 ^ 32 -> okf fs -> 0 < wd c fs < 2 ^ 32.
Proof.
  intros Hc Hf. induction fs as [|[[l m] v] fs IH]; [exact Hc|].
  apply Forall_cons_iff in Hf. destruct Hf as [(A & B & C & D) Hf]. specialize (IH Hf).
  rewrite wd_cons.
  assert (0 <= Z.shiftl v l < 2 ^ 32).
  { rewrite Z.shiftl_mul_pow2 by lia.
    assert (v * 2 ^ l < 2 ^ m * 2 ^ l) by (apply Z.mul_lt_mono_pos_r; [apply Z.pow_pos_nonneg|]; lia).
    rewrite <- Z.pow_add_r in H by lia.
    assert (2 ^ (m + l) <= 2 ^ 32) by (apply Z.pow_le_mono_r; lia).
    assert (0 < 2 ^ l) by (apply Z.pow_pos_nonneg; lia). nia. }
  pose proof (lor_range (Z.shiftl v l) (wd c fs) 32 ltac:(lia) H ltac:(lia)).
  enough (Z.lor (Z.shiftl v l) (wd c fs) <> 0) by lia.
  intros E. apply Z.lor_eq_0_iff in E. lia.
Qed.

Lemma dec_by c fs w i : w = wd c fs -> (0 <? c) && (c <? 2 ^ 32) = true -> okf fs ->
  dec_fields (getf c fs) = Some i -> decodes w i.
Proof.
  intros -> Hc Hf H. split; [apply wd_range; [lia|assumption]|].
  unfold decode. rewrite <- H. apply ext_fields. intros. apply getf_ok. exact Hf.
Qed.
