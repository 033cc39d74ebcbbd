(** What each instruction word of the encoder decodes to. *)
From Coq Require Import ZArith List Bool Lia ZifyBool.
From Verif Require Import Base Arm_model Arm_spec Arm_bits_proof.
Import ListNotations.
Open Scope Z_scope.

Definition b2 (x : bool) : Z := if x then 1 else 0.
Notation low n v := (Z.land v (Z.ones n)).
Lemma low_range n v : 0 <= n -> 0 <= low n v < 2 ^ n.
Proof. intros. rewrite Z.land_ones by lia. apply Z.mod_pos_bound. apply Z.pow_pos_nonneg; lia. Qed.
Lemma low_id n v : 0 <= v < 2 ^ n -> low n v = v.
Proof.
  intros. assert (0 <= n) by (destruct (Z_lt_le_dec n 0); [rewrite Z.pow_neg_r in H by lia; lia|lia]).
  rewrite Z.land_ones by lia. apply Z.mod_small. lia.
Qed.
Notation R r := (0 <= r < 32).

Ltac okf_ :=
  unfold okf; repeat apply Forall_cons; try apply Forall_nil; cbv beta iota;
  first [ lia
        | match goal with
          | |- context [Z.land ?v (Z.ones ?n)] => pose proof (low_range n v ltac:(lia)); lia
          end ].
Ltac dw fs :=
  eapply (dec_by _ fs); [ cbn [wd]; reflexivity | reflexivity | okf_ | reflexivity ].
(** the same when a condition on the fields is left *)
Lemma if_no {A} (b : bool) (a : A) : b = false -> (if b then None else Some a) = Some a.
Proof. intros ->. reflexivity. Qed.
Lemma if_yes {A} (b : bool) (a : A) : b = true -> (if b then Some a else None) = Some a.
Proof. intros ->. reflexivity. Qed.
Ltac dwno fs c :=
  eapply (dec_by _ fs); [ cbn [wd]; reflexivity | reflexivity | okf_ |
    match goal with |- _ = Some ?i =>
      transitivity (if c then None else Some i); [reflexivity|apply if_no] end ].
Ltac dwyes fs c :=
  eapply (dec_by _ fs); [ cbn [wd]; reflexivity | reflexivity | okf_ |
    match goal with |- _ = Some ?i =>
      transitivity (if c then Some i else None); [reflexivity|apply if_yes] end ].

(** ** Data processing, immediate *)
Lemma D_MOVZ x rd imm : R rd -> decodes (W_MOVZ (b2 x) rd imm 0) (IMovw MovZ x 0 (low 16 imm) rd).
Proof. intros. destruct x; unfold W_MOVZ, b2; dw [(5, 16, low 16 imm); (0, 5, rd)]. Qed.
Lemma D_MOVN x rd imm : R rd -> decodes (W_MOVN (b2 x) rd imm 0) (IMovw MovN x 0 (low 16 imm) rd).
Proof. intros. destruct x; unfold W_MOVN, b2; dw [(5, 16, low 16 imm); (0, 5, rd)]. Qed.
Lemma D_MOVK x rd imm sh : R rd ->
  sh = 0 \/ sh = 1 \/ (x = true /\ (sh = 2 \/ sh = 3)) ->
  decodes (W_MOVK (b2 x) rd imm sh) (IMovw MovK x (sh * 16) (low 16 imm) rd).
Proof.
  intros Hr H. destruct H as [->|[->|[-> [->| ->]]]]; try destruct x; unfold W_MOVK, b2;
    dw [(5, 16, low 16 imm); (0, 5, rd)].
Qed.
Lemma D_ADD_I x rd rn imm : R rd -> R rn ->
  decodes (W_ADD_I (b2 x) rd rn imm) (IAddImm false false x (low 12 imm) rn rd).
Proof. intros. destruct x; unfold W_ADD_I, b2; dw [(10, 12, low 12 imm); (5, 5, rn); (0, 5, rd)]. Qed.
Lemma D_SUB_I x rd rn imm : R rd -> R rn ->
  decodes (W_SUB_I (b2 x) rd rn imm) (IAddImm true false x (low 12 imm) rn rd).
Proof. intros. destruct x; unfold W_SUB_I, b2; dw [(10, 12, low 12 imm); (5, 5, rn); (0, 5, rd)]. Qed.
Lemma D_ADDS_I x rd rn imm : R rd -> R rn ->
  decodes (W_ADDS_I (b2 x) rd rn imm) (IAddImm false true x (low 12 imm) rn rd).
Proof. intros. destruct x; unfold W_ADDS_I, b2; dw [(10, 12, low 12 imm); (5, 5, rn); (0, 5, rd)]. Qed.
Lemma D_SUBS_I x rd rn imm : R rd -> R rn ->
  decodes (W_SUBS_I (b2 x) rd rn imm) (IAddImm true true x (low 12 imm) rn rd).
Proof. intros. destruct x; unfold W_SUBS_I, b2; dw [(10, 12, low 12 imm); (5, 5, rn); (0, 5, rd)]. Qed.

Lemma D_UBFM x rd rn immr imms : R rd -> R rn -> 0 <= immr < ds x -> 0 <= imms < ds x ->
  decodes (W_UBFM (b2 x) rd (b2 x) rn immr imms) (IBfm false x immr imms rn rd).
Proof.
  intros. destruct x; unfold W_UBFM, b2, ds in *.
  - dw [(16, 6, immr); (10, 6, imms); (5, 5, rn); (0, 5, rd)].
  - dwno [(16, 6, immr); (10, 6, imms); (5, 5, rn); (0, 5, rd)] ((32 <=? immr) || (32 <=? imms)).
    lia.
Qed.
Lemma D_SBFM x rd rn immr imms : R rd -> R rn -> 0 <= immr < ds x -> 0 <= imms < ds x ->
  decodes (W_SBFM (b2 x) rd (b2 x) rn immr imms) (IBfm true x immr imms rn rd).
Proof.
  intros. destruct x; unfold W_SBFM, b2, ds in *.
  - dw [(16, 6, immr); (10, 6, imms); (5, 5, rn); (0, 5, rd)].
  - dwno [(16, 6, immr); (10, 6, imms); (5, 5, rn); (0, 5, rd)] ((32 <=? immr) || (32 <=? imms)).
    lia.
Qed.
Lemma D_ADRP rd : R rd -> decodes (W_ADRP rd) (IAdr true 0 rd).
Proof. intros. unfold W_ADRP. dw [(0, 5, rd)]. Qed.

(** ** Data processing, register *)
Lemma low6_W imm : 0 <= imm < 32 -> low 6 imm = imm.
Proof. intros. apply low_id. lia. Qed.
Section AddShift.
Variables (rd rn rm sh amt : Z).
Hypothesis (Hd : R rd) (Hn : R rn) (Hm : R rm) (Hs : 0 <= sh < 3).
Lemma D_ADD_S x : 0 <= amt < ds x ->
  decodes (W_ADD_S (b2 x) rd rn rm sh amt) (IAddSh false false x sh amt rm rn rd).
Proof.
  intros. assert (C : sh = 0 \/ sh = 1 \/ sh = 2) by lia.
  assert (L : low 6 amt = amt) by (apply low_id; destruct x; cbv [ds] in H; lia).
  destruct C as [-> | [-> | ->]], x; unfold W_ADD_S, b2, ds in *; rewrite L;
  first [ dw [(16, 5, rm); (10, 6, amt); (5, 5, rn); (0, 5, rd)]
        | dwno [(16, 5, rm); (10, 6, amt); (5, 5, rn); (0, 5, rd)] (32 <=? amt); lia ].
Qed.
Lemma D_SUB_S x : 0 <= amt < ds x ->
  decodes (W_SUB_S (b2 x) rd rn rm sh amt) (IAddSh true false x sh amt rm rn rd).
Proof.
  intros. assert (C : sh = 0 \/ sh = 1 \/ sh = 2) by lia.
  assert (L : low 6 amt = amt) by (apply low_id; destruct x; cbv [ds] in H; lia).
  destruct C as [-> | [-> | ->]], x; unfold W_SUB_S, b2, ds in *; rewrite L;
  first [ dw [(16, 5, rm); (10, 6, amt); (5, 5, rn); (0, 5, rd)]
        | dwno [(16, 5, rm); (10, 6, amt); (5, 5, rn); (0, 5, rd)] (32 <=? amt); lia ].
Qed.
Lemma D_ADD_E x opt : 0 <= opt < 8 -> 0 <= amt <= 4 ->
  decodes (W_ADD_E (b2 x) rd rn rm opt amt) (IAddExt false false x opt amt rm rn rd).
Proof.
  intros. destruct x; unfold W_ADD_E, b2;
  dwyes [(16, 5, rm); (13, 3, opt); (10, 3, amt); (5, 5, rn); (0, 5, rd)] (amt <=? 4); lia.
Qed.
Lemma D_SUB_E x opt : 0 <= opt < 8 -> 0 <= amt <= 4 ->
  decodes (W_SUB_E (b2 x) rd rn rm opt amt) (IAddExt true false x opt amt rm rn rd).
Proof.
  intros. destruct x; unfold W_SUB_E, b2;
  dwyes [(16, 5, rm); (13, 3, opt); (10, 3, amt); (5, 5, rn); (0, 5, rd)] (amt <=? 4); lia.
Qed.
Ltac d4 x := destruct x; unfold b2; dw [(16, 5, rm); (10, 6, 0); (5, 5, rn); (0, 5, rd)].
Lemma D_ADDS_S x : decodes (W_ADDS_S (b2 x) rd rn rm 0) (IAddSh false true x 0 0 rm rn rd).
Proof. unfold W_ADDS_S. d4 x. Qed.
Lemma D_SUBS_S x : decodes (W_SUBS_S (b2 x) rd rn rm 0) (IAddSh true true x 0 0 rm rn rd).
Proof. unfold W_SUBS_S. d4 x. Qed.
Lemma D_AND_S x : decodes (W_AND_S (b2 x) rd rn rm 0) (ILog LAnd false x 0 0 rm rn rd).
Proof. unfold W_AND_S. d4 x. Qed.
Lemma D_ORR_S x : decodes (W_ORR_S (b2 x) rd rn rm 0) (ILog LOrr false x 0 0 rm rn rd).
Proof. unfold W_ORR_S. d4 x. Qed.
Lemma D_EOR_S x : decodes (W_EOR_S (b2 x) rd rn rm 0) (ILog LEor false x 0 0 rm rn rd).
Proof. unfold W_EOR_S. d4 x. Qed.
Lemma D_EON_S x : decodes (W_EON_S (b2 x) rd rn rm 0) (ILog LEor true x 0 0 rm rn rd).
Proof. unfold W_EON_S. d4 x. Qed.
Lemma D_ORN_S x : decodes (W_ORN_S (b2 x) rd 31 rm 0) (ILog LOrr true true 0 0 rm 31 rd).
Proof.
  unfold W_ORN_S. destruct x; unfold b2;
  (eapply (dec_by _ [(0, 5, rd); (16, 5, rm)]);
   [ cbn [wd]; rewrite (Z.lor_comm _ (Z.shiftl 31 5)), <- (Z.lor_assoc (Z.shiftl 31 5)),
       !(Z.lor_assoc (Z.shiftl 31 5)); change (Z.shiftl 0 10) with 0; rewrite Z.lor_0_r;
     change (Z.shiftl rd 0) with rd; reflexivity
   | reflexivity | okf_ | reflexivity ]).
Qed.
Ltac d5 x := destruct x; unfold b2; dw [(16, 5, rm); (5, 5, rn); (0, 5, rd)].
Lemma D_SDIV x : decodes (W_SDIV (b2 x) rd rn rm) (IDp2 SDiv x rm rn rd).
Proof. unfold W_SDIV. d5 x. Qed.
Lemma D_UDIV x : decodes (W_UDIV (b2 x) rd rn rm) (IDp2 UDiv x rm rn rd).
Proof. unfold W_UDIV. d5 x. Qed.
Lemma D_LSLV x : decodes (W_LSLV (b2 x) rd rn rm) (IDp2 LslV x rm rn rd).
Proof. unfold W_LSLV. d5 x. Qed.
Lemma D_LSRV x : decodes (W_LSRV (b2 x) rd rn rm) (IDp2 LsrV x rm rn rd).
Proof. unfold W_LSRV. d5 x. Qed.
Lemma D_ASRV x : decodes (W_ASRV (b2 x) rd rn rm) (IDp2 AsrV x rm rn rd).
Proof. unfold W_ASRV. d5 x. Qed.
Lemma D_CSINC x c : 0 <= c < 16 -> decodes (W_CSINC (b2 x) rd rn rm c) (ICsinc x rm c rn rd).
Proof.
  intros. unfold W_CSINC. destruct x; unfold b2;
    dw [(16, 5, rm); (12, 4, c); (5, 5, rn); (0, 5, rd)].
Qed.
Section Four.
Variable ra : Z.
Hypothesis Ha : R ra.
Ltac d6 x := destruct x; unfold b2; dw [(16, 5, rm); (10, 5, ra); (5, 5, rn); (0, 5, rd)].
Lemma D_MADD x : decodes (W_MADD (b2 x) rd rn rm ra) (IMadd false x rm ra rn rd).
Proof. unfold W_MADD. d6 x. Qed.
Lemma D_MSUB x : decodes (W_MSUB (b2 x) rd rn rm ra) (IMadd true x rm ra rn rd).
Proof. unfold W_MSUB. d6 x. Qed.
Lemma D_FMADD x : decodes (W_FMADD (b2 x) rd rn rm ra) (IFma false false x rm ra rn rd).
Proof. unfold W_FMADD. d6 x. Qed.
Lemma D_FMSUB x : decodes (W_FMSUB (b2 x) rd rn rm ra) (IFma false true x rm ra rn rd).
Proof. unfold W_FMSUB. d6 x. Qed.
Lemma D_FNMSUB x : decodes (W_FNMSUB (b2 x) rd rn rm ra) (IFma true false x rm ra rn rd).
Proof. unfold W_FNMSUB. d6 x. Qed.
End Four.

(** ** Floating point *)
Lemma D_FADD x : decodes (W_FADD (b2 x) rd rn rm) (IFop OAdd x rm rn rd).
Proof. unfold W_FADD. d5 x. Qed.
Lemma D_FSUB x : decodes (W_FSUB (b2 x) rd rn rm) (IFop OSub x rm rn rd).
Proof. unfold W_FSUB. d5 x. Qed.
Lemma D_FMUL x : decodes (W_FMUL (b2 x) rd rn rm) (IFop OMul x rm rn rd).
Proof. unfold W_FMUL. d5 x. Qed.
Lemma D_FDIV x : decodes (W_FDIV (b2 x) rd rn rm) (IFop ODiv x rm rn rd).
Proof. unfold W_FDIV. d5 x. Qed.
Lemma D_FCMP x : decodes (W_FCMP (b2 x) rn rm) (IFcmp x rm rn).
Proof. unfold W_FCMP. destruct x; unfold b2; dw [(16, 5, rm); (5, 5, rn)]. Qed.
Ltac d7 x := destruct x; unfold b2; dw [(5, 5, rn); (0, 5, rd)].
Lemma D_FMOV x : decodes (W_FMOV (b2 x) rd rn) (IFmov x rn rd).
Proof. unfold W_FMOV. d7 x. Qed.
Lemma D_FMOV_Z x : decodes (W_FMOV_Z (b2 x) rd rn) (IFmovG x rn rd).
Proof. unfold W_FMOV_Z. d7 x. Qed.
Lemma D_FNEG x : decodes (W_FNEG (b2 x) rd rn) (IFneg x rn rd).
Proof. unfold W_FNEG. d7 x. Qed.
Lemma D_FSQRT x : decodes (W_FSQRT (b2 x) rd rn) (IFsqrt x rn rd).
Proof. unfold W_FSQRT. d7 x. Qed.
Lemma D_FCVT x : decodes (W_FCVT (b2 x) rd rn) (IFcvt x rn rd).
Proof. unfold W_FCVT. d7 x. Qed.
Lemma D_SCVTF x d : decodes (W_SCVTF (b2 x) rd (b2 d) rn) (IOfInt true x d rn rd).
Proof. unfold W_SCVTF. destruct d; d7 x. Qed.
Lemma D_UCVTF x d : decodes (W_UCVTF (b2 x) rd (b2 d) rn) (IOfInt false x d rn rd).
Proof. unfold W_UCVTF. destruct d; d7 x. Qed.
Lemma D_FCVTZS x d : decodes (W_FCVTZS (b2 x) rd (b2 d) rn) (IToInt true x d rn rd).
Proof. unfold W_FCVTZS. destruct d; d7 x. Qed.
Lemma D_FCVTZU x d : decodes (W_FCVTZU (b2 x) rd (b2 d) rn) (IToInt false x d rn rd).
Proof. unfold W_FCVTZU. destruct d; d7 x. Qed.
End AddShift.

Lemma lt_cases (P : Z -> Prop) n :
  P n -> (forall i, 0 <= i < n -> P i) -> forall i, 0 <= i < n + 1 -> P i.
Proof. intros H K i Hi. destruct (Z.eq_dec i n); [subst; assumption|apply K; lia]. Qed.
Ltac enum_to P n :=
  lazymatch n with
  | 0 => let i := fresh "i" in intros i ?Hi; exfalso; lia
  | _ => let m := eval compute in (n - 1) in
         change n with (m + 1);
         apply (lt_cases P m); [ cbv beta | enum_to P m ]
  end.
Lemma D_FMOV_I x rd : R rd -> forall v, 0 <= v < 256 ->
  decodes (W_FMOV_I (b2 x) rd v) (IFmovI x v rd).
Proof.
  intros Hr.
  match goal with |- forall v, 0 <= v < ?n -> @?P v => enum_to P n end;
  (unfold W_FMOV_I; destruct x; unfold b2; dw [(0, 5, rd)]).
Qed.

(** ** Branches *)
Lemma D_branch c v i : okf [(0, 26, v)] -> (0 <? c) && (c <? 2 ^ 32) = true ->
  fld c 26 3 = 5 -> fld c 25 1 = 0 ->
  dec_branch (getf c [(0, 26, v)]) = Some i -> decodes (wd c [(0, 26, v)]) i.
Proof.
  intros Hf Hc H5 H1 H. split; [apply wd_range; [lia|assumption]|].
  unfold decode, dec_fields.
  rewrite (ext_branch _ _ (fun lo n => getf_ok c [(0, 26, v)] lo n Hf)), H.
  set (w := wd c [(0, 26, v)]).
  assert (A : fld w 26 3 = 5).
  { unfold w. rewrite (known_ok c [(0, 26, v)] 26 3 5); try lia; [assumption|].
    cbn [known]. change ((26 + 3 <=? 0) || (0 + 26 <=? 26)) with true. cbv iota.
    rewrite H5. reflexivity. }
  assert (B : fld w 25 4 = fld w 25 1 + 2 * 5).
  { rewrite <- A. unfold fld. change (2 ^ 26) with (2 ^ 25 * 2). rewrite <- Z.div_div by lia.
    generalize (w / 2 ^ 25). intros u. change (2 ^ 4) with 16. change (2 ^ 1) with 2.
    change (2 ^ 3) with 8. clear. Z.div_mod_to_equations. lia. }
  assert (C : 0 <= fld w 25 1 < 2) by (unfold fld; apply Z.mod_pos_bound; lia).
  rewrite B. assert (D : fld w 25 1 = 0 \/ fld w 25 1 = 1) by lia.
  destruct D as [-> | ->]; reflexivity.
Qed.
Lemma D_B off : decodes (W_B off) (IB false (4 * sx 26 (low 26 off))).
Proof. apply (D_branch 0x14000000 (low 26 off)); first [okf_ | reflexivity]. Qed.
Lemma D_BL off : decodes (W_BL off) (IB true (4 * sx 26 (low 26 off))).
Proof. apply (D_branch 0x94000000 (low 26 off)); first [okf_ | reflexivity]. Qed.
Lemma D_BCC c off : 0 <= c < 16 -> decodes (W_BCC c off) (IBcond c (4 * sx 19 (low 19 off))).
Proof. intros. unfold W_BCC. dw [(5, 19, low 19 off); (0, 4, c)]. Qed.
Lemma D_CBZ x rt off : R rt ->
  decodes (W_CBZ (b2 x) rt off) (ICb false x (4 * sx 19 (low 19 off)) rt).
Proof. intros. unfold W_CBZ. destruct x; unfold b2; dw [(5, 19, low 19 off); (0, 5, rt)]. Qed.
Lemma D_CBNZ x rt off : R rt ->
  decodes (W_CBNZ (b2 x) rt off) (ICb true x (4 * sx 19 (low 19 off)) rt).
Proof. intros. unfold W_CBNZ. destruct x; unfold b2; dw [(5, 19, low 19 off); (0, 5, rt)]. Qed.
Lemma D_BR rn : R rn -> decodes (W_BR rn) (IBr false rn).
Proof. intros. unfold W_BR. dw [(5, 5, rn)]. Qed.
Lemma D_BLR rn : R rn -> decodes (W_BLR rn) (IBr true rn).
Proof. intros. unfold W_BLR. dw [(5, 5, rn)]. Qed.
Lemma D_RET rn : R rn -> decodes (W_RET rn) (IBr false rn).
Proof. intros. unfold W_RET. dw [(5, 5, rn)]. Qed.
Lemma D_NOP : decodes W_NOP INop.
Proof. split; [unfold W_NOP; lia|vm_compute; reflexivity]. Qed.
Lemma D_SVC imm : 0 <= imm < 2 ^ 16 -> decodes (W_SVC imm) (ISvc imm).
Proof. intros. unfold W_SVC. dw [(5, 16, imm)]. Qed.
Lemma D_MRS rt r : R rt -> 0 <= r < 2 ^ 15 -> decodes (W_MRS rt r) (IMrs r rt).
Proof. intros. unfold W_MRS. dw [(5, 15, r); (0, 5, rt)]. Qed.

(** ** Loads and stores *)
Definition ldopc (b s : Z) (i : amode -> Z -> Z -> instr) : Prop :=
  (b = 0 /\ s = 0 /\ i = ILoad 1 None) \/ (b = 1 /\ s = 0 /\ i = ILoad 2 None) \/
  (b = 2 /\ s = 0 /\ i = ILoad 4 None) \/ (b = 3 /\ s = 0 /\ i = ILoad 8 None) \/
  (b = 0 /\ s = 1 /\ i = ILoad 1 (Some false)) \/ (b = 1 /\ s = 1 /\ i = ILoad 2 (Some false)).
Section Mem.
Variables (rn rt : Z).
Hypothesis (Hn : R rn) (Ht : R rt).
Ltac cs H := destruct H as [(-> & -> & ->)|[(-> & -> & ->)|[(-> & -> & ->)|[(-> & -> & ->)|
  [(-> & -> & ->)|(-> & -> & ->)]]]]].
Lemma D_LDR_UIMM b s i ofs : ldopc b s i ->
  decodes (W_LDR_UIMM b s rt ofs rn) (i (MOff (low 12 ofs * 2 ^ b)) rn rt).
Proof.
  intros H. cs H; unfold W_LDR_UIMM; dw [(10, 12, low 12 ofs); (5, 5, rn); (0, 5, rt)].
Qed.
Lemma D_LDUR b s i ofs : ldopc b s i ->
  decodes (W_LDUR b s rt ofs rn) (i (MOff (sx 9 (low 9 ofs))) rn rt).
Proof.
  intros H. cs H; unfold W_LDUR; dw [(12, 9, low 9 ofs); (5, 5, rn); (0, 5, rt)].
Qed.
Lemma D_LDR_pre b s i ofs : ldopc b s i -> rn = 31 \/ rn <> rt ->
  decodes (W_LDR b s rt ofs rn 3) (i (MPre (sx 9 (low 9 ofs))) rn rt).
Proof.
  intros H C. cs H; unfold W_LDR;
  dwno [(12, 9, low 9 ofs); (10, 2, 3); (5, 5, rn); (0, 5, rt)] ((rn =? rt) && negb (rn =? 31)); lia.
Qed.
Lemma D_LDR_post b s i ofs : ldopc b s i -> rn = 31 \/ rn <> rt ->
  decodes (W_LDR b s rt ofs rn 1) (i (MPost (sx 9 (low 9 ofs))) rn rt).
Proof.
  intros H C. cs H; unfold W_LDR;
  dwno [(12, 9, low 9 ofs); (10, 2, 1); (5, 5, rn); (0, 5, rt)] ((rn =? rt) && negb (rn =? 31)); lia.
Qed.
Lemma b_cases b : 0 <= b < 4 -> b = 0 \/ b = 1 \/ b = 2 \/ b = 3. Proof. lia. Qed.
Lemma D_STR_UIMM b ofs : 0 <= b < 4 ->
  decodes (W_STR_UIMM b rt ofs rn) (IStore (2 ^ b) (MOff (low 12 ofs * 2 ^ b)) rn rt).
Proof.
  intros H. destruct (b_cases b H) as [->|[->|[->| ->]]]; unfold W_STR_UIMM;
    dw [(10, 12, low 12 ofs); (5, 5, rn); (0, 5, rt)].
Qed.
Lemma D_STUR b ofs : 0 <= b < 4 ->
  decodes (W_STUR b rt ofs rn) (IStore (2 ^ b) (MOff (sx 9 (low 9 ofs))) rn rt).
Proof.
  intros H. destruct (b_cases b H) as [->|[->|[->| ->]]]; unfold W_STUR;
    dw [(12, 9, low 9 ofs); (5, 5, rn); (0, 5, rt)].
Qed.
Lemma D_STR_pre b ofs : 0 <= b < 4 -> rn = 31 \/ rn <> rt ->
  decodes (W_STR b rt ofs rn 3) (IStore (2 ^ b) (MPre (sx 9 (low 9 ofs))) rn rt).
Proof.
  intros H C. destruct (b_cases b H) as [->|[->|[->| ->]]]; unfold W_STR;
  dwno [(12, 9, low 9 ofs); (10, 2, 3); (5, 5, rn); (0, 5, rt)] ((rn =? rt) && negb (rn =? 31)); lia.
Qed.
Lemma D_STR_post b ofs : 0 <= b < 4 -> rn = 31 \/ rn <> rt ->
  decodes (W_STR b rt ofs rn 1) (IStore (2 ^ b) (MPost (sx 9 (low 9 ofs))) rn rt).
Proof.
  intros H C. destruct (b_cases b H) as [->|[->|[->| ->]]]; unfold W_STR;
  dwno [(12, 9, low 9 ofs); (10, 2, 1); (5, 5, rn); (0, 5, rt)] ((rn =? rt) && negb (rn =? 31)); lia.
Qed.
(** floating-point registers *)
Lemma D_F_LDR_UIMM d ofs :
  decodes (F_LDR_UIMM (b2 d) 0 rt ofs rn) (ILoadF d (MOff (low 12 ofs * (if d then 8 else 4))) rn rt).
Proof. unfold F_LDR_UIMM. destruct d; unfold b2; dw [(10, 12, low 12 ofs); (5, 5, rn); (0, 5, rt)]. Qed.
Lemma D_F_STR_UIMM d ofs :
  decodes (F_STR_UIMM (b2 d) rt ofs rn) (IStoreF d (MOff (low 12 ofs * (if d then 8 else 4))) rn rt).
Proof. unfold F_STR_UIMM. destruct d; unfold b2; dw [(10, 12, low 12 ofs); (5, 5, rn); (0, 5, rt)]. Qed.
Lemma D_F_LDUR d ofs :
  decodes (F_LDUR (b2 d) 0 rt ofs rn) (ILoadF d (MOff (sx 9 (low 9 ofs))) rn rt).
Proof. unfold F_LDUR. destruct d; unfold b2; dw [(12, 9, low 9 ofs); (5, 5, rn); (0, 5, rt)]. Qed.
Lemma D_F_STUR d ofs :
  decodes (F_STUR (b2 d) rt ofs rn) (IStoreF d (MOff (sx 9 (low 9 ofs))) rn rt).
Proof. unfold F_STUR. destruct d; unfold b2; dw [(12, 9, low 9 ofs); (5, 5, rn); (0, 5, rt)]. Qed.
Lemma D_F_LDR_pre d ofs :
  decodes (W_F_LDR (b2 d) 0 rt ofs rn 3) (ILoadF d (MPre (sx 9 (low 9 ofs))) rn rt).
Proof. unfold W_F_LDR. destruct d; unfold b2; dw [(12, 9, low 9 ofs); (10, 2, 3); (5, 5, rn); (0, 5, rt)]. Qed.
Lemma D_F_LDR_post d ofs :
  decodes (W_F_LDR (b2 d) 0 rt ofs rn 1) (ILoadF d (MPost (sx 9 (low 9 ofs))) rn rt).
Proof. unfold W_F_LDR. destruct d; unfold b2; dw [(12, 9, low 9 ofs); (10, 2, 1); (5, 5, rn); (0, 5, rt)]. Qed.
Lemma D_F_STR_pre d ofs :
  decodes (W_F_STR (b2 d) rt ofs rn 3) (IStoreF d (MPre (sx 9 (low 9 ofs))) rn rt).
Proof. unfold W_F_STR. destruct d; unfold b2; dw [(12, 9, low 9 ofs); (10, 2, 3); (5, 5, rn); (0, 5, rt)]. Qed.
Lemma D_F_STR_post d ofs :
  decodes (W_F_STR (b2 d) rt ofs rn 1) (IStoreF d (MPost (sx 9 (low 9 ofs))) rn rt).
Proof. unfold W_F_STR. destruct d; unfold b2; dw [(12, 9, low 9 ofs); (10, 2, 1); (5, 5, rn); (0, 5, rt)]. Qed.

(** pairs; [pp]: 1 post, 2 offset, 3 pre *)
Variable rt2 : Z.
Hypothesis (Ht2 : R rt2).
Definition pmode (pp o : Z) : amode :=
  if pp =? 1 then MPost o else if pp =? 3 then MPre o else MOff o.
Definition nocl (pp : Z) : Prop := pp = 2 \/ rn = 31 \/ (rn <> rt /\ rn <> rt2).
Lemma pp_cases pp : 1 <= pp < 4 -> pp = 1 \/ pp = 2 \/ pp = 3. Proof. lia. Qed.
Notation pf ofs := [(15, 7, low 7 (Z.shiftr ofs 3)); (10, 5, rt2); (5, 5, rn); (0, 5, rt)].
Notation cl := (((rn =? rt) && negb (rn =? 31)) || ((rn =? rt2) && negb (rn =? 31))).
Lemma D_LDP x ofs pp : 1 <= pp < 4 -> nocl pp -> rt2 <> rt ->
  decodes (W_LDP (b2 x) rt rt2 ofs rn pp)
          (ILdp x (pmode pp (sx 7 (low 7 (Z.shiftr ofs 3)) * (if x then 8 else 4))) rt2 rn rt).
Proof.
  intros H C D. unfold nocl in C. destruct (pp_cases pp H) as [->|[->| ->]], x; unfold W_LDP, b2;
  first [ dwno (pf ofs) (rt2 =? rt); lia | dwno (pf ofs) (cl || (rt2 =? rt)); lia
        | (eapply (dec_by _ (pf ofs)); [ cbn [wd]; reflexivity | reflexivity | okf_ |
           match goal with |- _ = Some ?i =>
             transitivity (if cl then None else if rt2 =? rt then None else Some i);
             [reflexivity|] end;
           replace cl with false by lia; apply if_no; lia ]) ].
Qed.
Lemma D_STP x ofs pp : 1 <= pp < 4 -> nocl pp ->
  decodes (W_STP (b2 x) rt rt2 ofs rn pp)
          (IStp x (pmode pp (sx 7 (low 7 (Z.shiftr ofs 3)) * (if x then 8 else 4))) rt2 rn rt).
Proof.
  intros H C. unfold nocl in C. destruct (pp_cases pp H) as [->|[->| ->]], x; unfold W_STP, b2;
  first [ dw (pf ofs) | dwno (pf ofs) constr:(cl); lia ].
Qed.
Lemma land1016 ofs k : Z.shiftl (Z.land ofs (2 ^ 10 - 2 ^ 3)) k = Z.shiftl (low 7 (Z.shiftr ofs 3)) (k + 3).
Proof.
  replace (Z.land ofs (2 ^ 10 - 2 ^ 3)) with (Z.shiftl (low 7 (Z.shiftr ofs 3)) 3).
  - rewrite Z.shiftl_shiftl by lia. f_equal. lia.
  - change (2 ^ 10 - 2 ^ 3) with (Z.shiftl (Z.ones 7) 3).
    rewrite Z.shiftl_land, <- Z.ldiff_ones_r by lia.
    apply Z.bits_inj'. intros i Hi. rewrite !Z.land_spec, Z.ldiff_spec, Z.shiftl_spec by lia.
    rewrite Z.testbit_ones_nonneg by lia. destruct (Z.ltb_spec i 3).
    + rewrite (Z.testbit_neg_r _ (i - 3)) by lia. rewrite !andb_false_r. reflexivity.
    + rewrite andb_true_r. reflexivity.
Qed.
Lemma D_F_LDP x ofs pp : 1 <= pp < 4 -> rt2 <> rt ->
  decodes (W_F_LDP (b2 x) rt rt2 rn ofs pp)
          (ILdpF x (pmode pp (sx 7 (low 7 (Z.shiftr ofs 3)) * (if x then 8 else 4))) rt2 rn rt).
Proof.
  intros H D. unfold W_F_LDP. rewrite land1016. change (12 + 3) with 15.
  destruct (pp_cases pp H) as [->|[->| ->]], x; unfold b2; dwno (pf ofs) (rt2 =? rt); lia.
Qed.
Lemma D_F_STP x ofs pp : 1 <= pp < 4 ->
  decodes (W_F_STP (b2 x) rt rt2 rn ofs pp)
          (IStpF x (pmode pp (sx 7 (low 7 (Z.shiftr ofs 3)) * (if x then 8 else 4))) rt2 rn rt).
Proof.
  intros H. unfold W_F_STP. rewrite land1016. change (12 + 3) with 15.
  destruct (pp_cases pp H) as [->|[->| ->]], x; unfold b2; dw (pf ofs).
Qed.
End Mem.
