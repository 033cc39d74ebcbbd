(** Running the encoded instructions. *)
From Coq Require Import ZArith List Bool Lia ZifyBool ZifyNat.
From Verif Require Import Base Rv_model Rv_spec Rv_proof Rv_dec_proof Rv_dec16_proof.
Import ListNotations.
Open Scope Z_scope.
Ltac Zify.zify_post_hook ::= Z.div_mod_to_equations.

(** ** Sequences *)
Lemma fetch_rest c i len r : fetch c = Some (i, len, r) -> (length r < length c)%nat.
Proof.
  destruct c as [|b0 [|b1 c]]; cbn [fetch]; try discriminate.
  destruct (_ =? 3).
  - destruct c as [|b2 [|b3 c]]; try discriminate.
    destruct (decode32 _); cbn [omap]; [|discriminate].
    intros H. injection H as _ _ <-. cbn [length]. lia.
  - destruct (decode16 _); cbn [omap]; [|discriminate].
    intros H. injection H as _ _ <-. cbn [length]. lia.
Qed.
Lemma run_fuel E : forall fuel c s, (length c <= fuel)%nat ->
  run_ fuel E c s = run_ (length c) E c s.
Proof.
  intros fuel c. remember (length c) as n eqn:En.
  revert fuel c En. induction n as [n IH] using lt_wf_ind.
  intros fuel c En s Hf.
  destruct c as [|b c]; [destruct fuel, n; reflexivity|].
  destruct n as [|n]; [discriminate|]. destruct fuel as [|fuel]; [lia|].
  cbn [run_]. destruct (fetch (b :: c)) as [[[i len] r]|] eqn:F; [|reflexivity].
  pose proof (fetch_rest _ _ _ _ F) as L. cbn [length] in L, En.
  destruct r as [|b' r]; [reflexivity|].
  destruct (_ =? _); [|reflexivity].
  rewrite (IH (length (b' :: r)) ltac:(lia) fuel (b' :: r) eq_refl) by lia.
  rewrite (IH (length (b' :: r)) ltac:(lia) n (b' :: r) eq_refl) by lia.
  reflexivity.
Qed.
Lemma run_cons E c s i len r : c <> [] -> fetch c = Some (i, len, r) ->
  run E c s = match r with
              | [] => Some (exec E i len s)
              | _ => if pc (exec E i len s) =? ux 64 (pc s + len)
                     then run E r (exec E i len s) else None
              end.
Proof.
  intros Hc F. unfold run. destruct c as [|b c]; [contradiction|].
  cbn [length run_]. rewrite F. destruct r as [|b' r]; [reflexivity|].
  destruct (_ =? _); [|reflexivity]. apply run_fuel.
  pose proof (fetch_rest _ _ _ _ F) as L. cbn [length] in *. lia.
Qed.

(** [c] takes [s] to [t] and goes on with what follows *)
Definition seq (E : env) (c : list Z) (s t : st) : Prop :=
  forall r, run E (c ++ r) s = run E r t.
Lemma seq_nil E s : seq E [] s s.
Proof. intros r. reflexivity. Qed.
Lemma seq_app E a b s t u : seq E a s t -> seq E b t u -> seq E (a ++ b) s u.
Proof. intros H K r. rewrite <- app_assoc, H. apply K. Qed.
Lemma seq_one E c s i len : c <> [] ->
  (forall r, fetch (c ++ r) = Some (i, len, r)) ->
  pc (exec E i len s) = ux 64 (pc s + len) -> seq E c s (exec E i len s).
Proof.
  intros Hc F P r. rewrite (run_cons E (c ++ r) s i len r).
  - destruct r; [reflexivity|]. rewrite P, Z.eqb_refl. reflexivity.
  - destruct c; [contradiction|discriminate].
  - apply F.
Qed.
Lemma seq_run E c s t : seq E c s t -> run E c s = Some t.
Proof. intros H. specialize (H []). rewrite app_nil_r in H. exact H. Qed.

Definition enc_ok (a : asm) : Prop :=
  exists code, encode a = Ok code /\
  forall E s, wf s -> exists t, run E code s = Some t /\
    same t (means E a (Z.of_nat (length code)) s).

Lemma same_refl s : same s s.
Proof. repeat split. Qed.

Lemma one a c i len : handler a = Ok c -> length c = len -> c <> [] -> (len <= 26)%nat ->
  (forall r, fetch (c ++ r) = Some (i, Z.of_nat len, r)) ->
  (forall E s, wf s -> same (exec E i (Z.of_nat len) s) (means E a (Z.of_nat len) s)) ->
  enc_ok a.
Proof.
  intros Ha Hl Hc Hle F Hs. exists c. split.
  - unfold encode. rewrite Ha. cbn [bind]. destruct (Z.ltb_spec 26 (Z.of_nat (length c))); [lia|reflexivity].
  - intros E s Hw. exists (exec E i (Z.of_nat len) s). rewrite Hl. split; [|apply Hs; exact Hw].
    specialize (F []). rewrite app_nil_r in F. rewrite (run_cons E c s _ _ _ Hc F). reflexivity.
Qed.

(** ** States *)
Lemma getx_setx s r v k : getx (setx s r v) k = if k =? 0 then 0 else if k =? r then v else getx s k.
Proof. unfold getx, setx. cbn. destruct (k =? 0), (k =? r); reflexivity. Qed.
Lemma getx_setpc s p k : getx (setpc s p) k = getx s k.
Proof. reflexivity. Qed.
Lemma getx_wf s r : wf s -> - 2 ^ 63 <= getx s r < 2 ^ 63.
Proof. intros [H _]. unfold getx. destruct (r =? 0); [lia|apply H]. Qed.
(** writing the same values gives the same state *)
Lemma same_setx s rd v w p : (rd <> 0 -> v = w) ->
  same (setpc (setx s rd v) p) (setpc (setx s rd w) p).
Proof.
  intros H. repeat split. intros r. rewrite !getx_setpc, !getx_setx.
  destruct (Z.eqb_spec r 0); [reflexivity|]. destruct (Z.eqb_spec r rd); [|reflexivity].
  apply H. lia.
Qed.
Lemma same_setf s rd v w p : v = w -> same (setpc (setf s rd v) p) (setpc (setf s rd w) p).
Proof. intros ->. apply same_refl. Qed.
Lemma same_nop s rd v p : (rd <> 0 -> v = getx s rd) ->
  same (setpc (setx s rd v) p) (setpc s p).
Proof.
  intros H. repeat split. intros r. rewrite !getx_setpc, !getx_setx.
  destruct (Z.eqb_spec r 0); [subst; reflexivity|]. destruct (Z.eqb_spec r rd); [|reflexivity].
  subst. apply H. assumption.
Qed.
Lemma same_setpc s p q : ux 64 p = ux 64 q -> same (setpc s p) (setpc s q).
Proof. intros H. unfold setpc. rewrite H. apply same_refl. Qed.
Lemma same_trans a b c : same a b -> same b c -> same a c.
Proof.
  intros (A1 & A2 & A3 & A4 & A5) (B1 & B2 & B3 & B4 & B5).
  repeat split; intros; congruence.
Qed.

Lemma len32 w : length (code32 w) = 4%nat.
Proof. reflexivity. Qed.
Lemma len16 w : length (code16 w) = 2%nat.
Proof. reflexivity. Qed.

Lemma alu_add0 s r : wf s -> alu ADD 0 (getx s r) = getx s r.
Proof. intros H. cbn [alu]. rewrite Z.add_0_l. apply sx_small; [lia|]. apply getx_wf. exact H. Qed.
Lemma alu_comm o a b : In o [ADD; ADDW; AND; OR; XOR] -> alu o a b = alu o b a.
Proof.
  intros H. repeat destruct H as [<-|H]; [..|destruct H]; cbn [alu];
  [rewrite Z.add_comm|rewrite Z.add_comm|rewrite Z.land_comm|rewrite Z.lor_comm|rewrite Z.lxor_comm];
  reflexivity.
Qed.

(** ** Three registers *)
Lemma c_add_ok o rd r1 r2 x : reg rd -> reg x -> x <> 0 ->
  handler (A3 o rd r1 r2) = Ok (c_add rd x) ->
  (forall s, alu ADD (getx s rd) (getx s x) = alu o (getx s r1) (getx s r2)) ->
  enc_ok (A3 o rd r1 r2).
Proof.
  intros Hd Hx Hn H Ha.
  apply (one _ _ (IOp ADD rd rd x) 2 H); [reflexivity|discriminate|lia| |].
  - intros r. apply dec_c_add; assumption.
  - intros E s _. apply same_setx. intros _. apply Ha.
Qed.
Lemma c_rr_ok o rd r1 r2 x : creg_ok rd -> creg_ok x ->
  In o [SUB; XOR; OR; AND; SUBW; ADDW] ->
  handler (A3 o rd r1 r2) = Ok (c_rr (rr_base o) rd x) ->
  (forall s, alu o (getx s rd) (getx s x) = alu o (getx s r1) (getx s r2)) ->
  enc_ok (A3 o rd r1 r2).
Proof.
  intros Hd Hx Ho H Ha.
  apply (one _ _ (IOp o rd rd x) 2 H); [reflexivity|discriminate|lia| |].
  - intros r. apply dec_c_rr; assumption.
  - intros E s _. apply same_setx. intros _. apply Ha.
Qed.
Lemma w3_ok o rd r1 r2 : reg rd -> reg r1 -> reg r2 ->
  handler (A3 o rd r1 r2) = Ok (w3 o rd r1 r2) -> enc_ok (A3 o rd r1 r2).
Proof.
  intros Hd H1 H2 H.
  apply (one _ _ (IOp o rd r1 r2) 4 H); [destruct o; reflexivity|destruct o; discriminate|lia| |].
  - intros r. apply dec_w3; assumption.
  - intros E s _. apply same_refl.
Qed.

Lemma a3_ok o rd r1 r2 : operands (A3 o rd r1 r2) -> covered (A3 o rd r1 r2) ->
  enc_ok (A3 o rd r1 r2).
Proof.
  intros (Hd & H1 & H2) HC.
  destruct (asm_3r o rd r1 r2) eqn:EA.
  all: assert (HA : handler (A3 o rd r1 r2) = Ok (asm_3r o rd r1 r2)) by reflexivity;
    clear EA.
  all: unfold asm_3r, c3 in HA.
  all: destruct (Z.eqb_spec rd r1) as [E1|E1];
    [destruct (rvc rd && rvc r2) eqn:ER|destruct (Z.eqb_spec rd r2) as [E2|E2];
      [destruct (rvc rd && rvc r1) eqn:ER|]].
  all: try (apply andb_prop in ER; destruct ER as [R1 R2]; apply rvc_ok in R1; apply rvc_ok in R2).
  all: destruct o; cbn [covered] in HC;
    try (apply w3_ok; assumption);
    try (apply (c_rr_ok _ _ _ _ r2 R1 R2); [cbn; tauto|exact HA|intros; subst; reflexivity]);
    try (apply (c_rr_ok _ _ _ _ r1 R1 R2);
         [cbn; tauto|exact HA|intros; subst; apply alu_comm; cbn; tauto]);
    try (apply (c_add_ok _ _ _ _ r2 Hd H2); [tauto|exact HA|intros; subst; reflexivity]);
    try (apply (c_add_ok _ _ _ _ r1 Hd H1); [tauto|exact HA|intros; subst; apply alu_comm; cbn; tauto]).
Qed.

(** ** Register and constant *)
Lemma wi_ok o rd rs imm : reg rd -> reg rs -> ok_imm o imm ->
  handler (AI o rd rs imm) = Ok (wi o rd rs imm) -> enc_ok (AI o rd rs imm).
Proof.
  intros Hd Hs Hi H.
  apply (one _ _ (IOpI (alu_of o) rd rs imm) 4 H); [destruct o; reflexivity|destruct o; discriminate|lia| |].
  - intros r. apply dec_wi; assumption.
  - intros E s _. apply same_refl.
Qed.
Lemma ci_ok o rd imm c : handler (AI o rd rd imm) = Ok c -> length c = 2%nat ->
  (forall r, fetch (c ++ r) = Some (IOpI (alu_of o) rd rd imm, 2, r)) -> enc_ok (AI o rd rd imm).
Proof.
  intros H L F.
  apply (one _ _ (IOpI (alu_of o) rd rd imm) 2 H L); [destruct c; discriminate|lia|exact F|].
  intros E s _. apply same_refl.
Qed.
Lemma mv_fetch rd rs r : reg rd -> reg rs ->
  fetch (asm_mv rd rs ++ r) = Some (if rs =? 0 then IOpI ADD rd 0 0 else IOp ADD rd 0 rs, 2, r).
Proof.
  intros Hd Hs. unfold asm_mv. destruct (Z.eqb_spec rs 0).
  - apply dec_c_li; [assumption|lia].
  - apply dec_c_mv; assumption.
Qed.
Lemma mv_exec E rd rs s : wf s ->
  same (exec E (if rs =? 0 then IOpI ADD rd 0 0 else IOp ADD rd 0 rs) 2 s)
       (setpc (setx s rd (getx s rs)) (pc s + 2)).
Proof.
  intros Hw. destruct (Z.eqb_spec rs 0).
  - subst. apply same_setx. intros _. reflexivity.
  - apply same_setx. intros _. apply (alu_add0 s rs Hw).
Qed.
Lemma mv_len rd rs : length (asm_mv rd rs) = 2%nat.
Proof. unfold asm_mv. destruct (rs =? 0); reflexivity. Qed.
Lemma mv_ok rd rs : operands (AMv rd rs) -> enc_ok (AMv rd rs).
Proof.
  intros [Hd Hs]. eapply (one _ (asm_mv rd rs) _ 2); [reflexivity|apply mv_len| |lia| |].
  - pose proof (mv_len rd rs). destruct (asm_mv rd rs); discriminate.
  - intros r. apply mv_fetch; assumption.
  - intros E s Hw. apply mv_exec. exact Hw.
Qed.
Lemma addi0_ok rd rs : reg rd -> reg rs -> enc_ok (AI ADDI rd rs 0).
Proof.
  intros Hd Hs. destruct (Z.eqb_spec rd rs) as [->|Hn].
  - exists []. split.
    + unfold encode. cbn [handler asm_2ri bind]. change (0 =? 0) with true. cbv iota.
      rewrite Z.eqb_refl. reflexivity.
    + intros E s Hw. exists s. split; [reflexivity|].
      cbn [means alu_of length Z.of_nat]. destruct Hw as (Hw & Hf & Hp).
      repeat split.
      * cbn. unfold ux. rewrite Z.add_0_r, Z.mod_small by lia. reflexivity.
      * intros r. rewrite getx_setpc, getx_setx. unfold getx at 1.
        destruct (Z.eqb_spec r 0); [reflexivity|]. unfold getx.
        destruct (Z.eqb_spec r 0); [contradiction|].
        destruct (Z.eqb_spec r rs); [|reflexivity]. subst.
        destruct (Z.eqb_spec rs 0); [contradiction|]. cbn [alu]. rewrite Z.add_0_r.
        symmetry. apply sx_small; [lia|apply Hw].
  - eapply (one _ (asm_mv rd rs) _ 2); [|apply mv_len| |lia| |].
    + cbn [handler]. unfold asm_2ri. change (0 =? 0) with true. cbv iota.
      destruct (Z.eqb_spec rd rs); [contradiction|reflexivity].
    + pose proof (mv_len rd rs). destruct (asm_mv rd rs); discriminate.
    + intros r. apply mv_fetch; assumption.
    + intros E s Hw. eapply same_trans; [apply mv_exec; exact Hw|].
      cbn [means alu_of]. apply same_setx. intros _. cbn [alu]. rewrite Z.add_0_r.
      symmetry. apply sx_small; [lia|apply getx_wf; exact Hw].
Qed.

Lemma ai_ok o rd rs imm : operands (AI o rd rs imm) -> covered (AI o rd rs imm) ->
  enc_ok (AI o rd rs imm).
Proof.
  intros (Hd & Hs & Hi) HC.
  assert (K : ok_imm o imm) by (destruct o; cbn [covered ok_imm] in *; try tauto; lia).
  destruct (Z.eqb_spec imm 0) as [->|Hn].
  { destruct o; [apply addi0_ok; assumption|..].
    all: destruct (Z.eqb_spec rd rs) as [->|Hr];
      [|apply wi_ok; try assumption; cbn [handler]; unfold asm_2ri;
        change (0 =? 0) with true; cbv iota; destruct (Z.eqb_spec rd rs); [contradiction|reflexivity]].
    all: cbn [covered alu_of] in HC.
    - apply (ci_ok ADDIW rs 0 (c_addiw rs 0)); [|reflexivity|].
      + cbn [handler]. unfold asm_2ri. rewrite !Z.eqb_refl. reflexivity.
      + intros r. apply dec_c_addiw; first [assumption | lia | tauto].
    - destruct (rvc rs) eqn:ER.
      + apply (ci_ok ANDI rs 0 (c_andi rs 0)); [|reflexivity|].
        * cbn [handler]. unfold asm_2ri, ci. rewrite !Z.eqb_refl, ER. reflexivity.
        * intros r. apply dec_c_andi; [apply rvc_ok; assumption|lia].
      + apply wi_ok; try assumption. cbn [handler]. unfold asm_2ri, ci. rewrite !Z.eqb_refl, ER. reflexivity.
    - apply wi_ok; try assumption. cbn [handler]. unfold asm_2ri, ci. rewrite !Z.eqb_refl. reflexivity.
    - apply wi_ok; try assumption. cbn [handler]. unfold asm_2ri, ci. rewrite !Z.eqb_refl. reflexivity.
    - apply wi_ok; try assumption. cbn [handler]. unfold asm_2ri, ci. rewrite !Z.eqb_refl. reflexivity.
    - apply wi_ok; try assumption. cbn [handler]. unfold asm_2ri, ci. rewrite !Z.eqb_refl. reflexivity.
    - apply wi_ok; try assumption. cbn [handler]. unfold asm_2ri, ci. rewrite !Z.eqb_refl.
      cbn [negb]. rewrite andb_false_r. reflexivity.
    - apply wi_ok; try assumption. cbn [handler]. unfold asm_2ri, ci. rewrite !Z.eqb_refl. reflexivity.
    - destruct (rvc rs) eqn:ER.
      + apply (ci_ok SRLI rs 0 (c_srli rs 0)); [|reflexivity|].
        * cbn [handler]. unfold asm_2ri, ci. rewrite !Z.eqb_refl, ER. reflexivity.
        * intros r. apply dec_c_srli; [apply rvc_ok; assumption|lia].
      + apply wi_ok; try assumption. cbn [handler]. unfold asm_2ri, ci. rewrite !Z.eqb_refl, ER. reflexivity.
    - apply wi_ok; try assumption. cbn [handler]. unfold asm_2ri, ci. rewrite !Z.eqb_refl. reflexivity.
    - destruct (rvc rs) eqn:ER.
      + apply (ci_ok SRAI rs 0 (c_srai rs 0)); [|reflexivity|].
        * cbn [handler]. unfold asm_2ri, ci. rewrite !Z.eqb_refl, ER. reflexivity.
        * intros r. apply dec_c_srai; [apply rvc_ok; assumption|lia].
      + apply wi_ok; try assumption. cbn [handler]. unfold asm_2ri, ci. rewrite !Z.eqb_refl, ER. reflexivity.
    - apply wi_ok; try assumption. cbn [handler]. unfold asm_2ri, ci. rewrite !Z.eqb_refl. reflexivity. }
  assert (N0 : (imm =? 0) = false) by lia.
  assert (HU : is_uim6 imm = (0 <=? imm) && (imm <? 64)).
  { unfold is_uim6. destruct (Z.leb_spec 0 imm).
    - rewrite Z.mod_small by lia. lia.
    - cbn [andb]. change (2 ^ 64) with 18446744073709551616 in *. change (2 ^ 63) with 9223372036854775808 in *.
      lia. }
  assert (HH : forall c, asm_2ri o rd rs imm = Ok c -> handler (AI o rd rs imm) = Ok c) by (intros c H; exact H).
  destruct (Z.eqb_spec rd rs) as [->|Hr].
  2:{ apply wi_ok; try assumption. cbn [handler]. unfold asm_2ri. rewrite N0.
      destruct (Z.eqb_spec rd rs); [contradiction|].
      destruct o; cbn [ok_imm] in K; cbv iota;
        match goal with
        | |- (if ?b then _ else _) = _ => let Hb := fresh in destruct b eqn:Hb; [exfalso; lia|reflexivity]
        end. }
  unfold asm_2ri, ci in HH. rewrite N0, Z.eqb_refl, HU in HH. cbn [negb] in HH.
  destruct o; cbn [ok_imm covered] in K, HC.
  - destruct (is_im6 imm) eqn:E6.
    + eapply ci_ok; [apply HH; reflexivity|reflexivity|].
      intros r. unfold is_im6 in E6. apply dec_c_addi; [assumption|lia].
    + destruct ((rs =? 2) && is_im6 (Z.shiftr imm 4) && (Z.land imm 15 =? 0)) eqn:ES.
      * unfold is_im6 in ES. rewrite Z.shiftr_div_pow2 in ES by lia.
        change 15 with (Z.ones 4) in ES. rewrite Z.land_ones in ES by lia. change (2 ^ 4) with 16 in ES.
        eapply ci_ok.
        -- apply HH. destruct ((0 <=? imm) && (imm <? 64)); reflexivity.
        -- reflexivity.
        -- intros r. replace rs with 2 by lia. apply dec_c_addi16sp; lia.
      * apply wi_ok; try assumption. apply HH.
        destruct ((0 <=? imm) && (imm <? 64)); cbn [andb];
          destruct ((2048 <=? imm) || (imm <? -2048)) eqn:EB; try reflexivity; exfalso; lia.
  - destruct (is_im6 imm) eqn:E6.
    + eapply ci_ok; [apply HH; reflexivity|reflexivity|].
      intros r. unfold is_im6 in E6. apply dec_c_addiw; first [assumption | lia | tauto].
    + apply wi_ok; try assumption. apply HH.
      destruct ((0 <=? imm) && (imm <? 64));
      destruct ((2048 <=? imm) || (imm <? -2048)) eqn:EB; try reflexivity; exfalso; lia.
  - destruct (is_im6 imm && rvc rs) eqn:E6.
    + apply andb_prop in E6. destruct E6 as [E6 ER]. rewrite E6, ER in HH.
      eapply ci_ok; [apply HH; reflexivity|reflexivity|].
      intros r. unfold is_im6 in E6. apply dec_c_andi; [apply rvc_ok; assumption|lia].
    + apply wi_ok; try assumption. apply HH.
      destruct (is_im6 imm); [cbn [andb] in E6; rewrite E6|];
      destruct ((0 <=? imm) && (imm <? 64));
      destruct ((2048 <=? imm) || (imm <? -2048)) eqn:EB; try reflexivity; exfalso; lia.
  - apply wi_ok; try assumption. apply HH.
      destruct (is_im6 imm), ((0 <=? imm) && (imm <? 64)), ((2048 <=? imm) || (imm <? -2048)) eqn:EB;
        try reflexivity; exfalso; lia.
  - apply wi_ok; try assumption. apply HH.
      destruct (is_im6 imm), ((0 <=? imm) && (imm <? 64)), ((2048 <=? imm) || (imm <? -2048)) eqn:EB;
        try reflexivity; exfalso; lia.
  - apply wi_ok; try assumption. apply HH.
      destruct (is_im6 imm), ((0 <=? imm) && (imm <? 64)), ((2048 <=? imm) || (imm <? -2048)) eqn:EB;
        try reflexivity; exfalso; lia.
  - apply wi_ok; try assumption. apply HH.
      destruct (is_im6 imm), ((0 <=? imm) && (imm <? 64)), ((2048 <=? imm) || (imm <? -2048)) eqn:EB;
        try reflexivity; exfalso; lia.
  - assert (EU : (0 <=? imm) && (imm <? 64) = true) by lia. rewrite EU in HH.
    destruct (Z.eqb_spec rs 0) as [->|Hz].
    + apply wi_ok; try assumption. apply HH. cbn [negb andb].
      destruct (is_im6 imm), ((64 <=? imm) || (imm <? 0)) eqn:EB; try reflexivity; exfalso; lia.
    + cbn [negb andb] in HH. eapply ci_ok; [apply HH; destruct (is_im6 imm); reflexivity|reflexivity|].
      intros r. apply dec_c_slli; assumption.
  - apply wi_ok; try assumption. apply HH.
      destruct (is_im6 imm), ((0 <=? imm) && (imm <? 64)), ((32 <=? imm) || (imm <? 0)) eqn:EB;
        try reflexivity; exfalso; lia.
  - assert (EU : (0 <=? imm) && (imm <? 64) = true) by lia. rewrite EU in HH.
    destruct (rvc rs) eqn:ER.
    + eapply ci_ok; [apply HH; destruct (is_im6 imm); reflexivity|reflexivity|].
      intros r. apply dec_c_srli; [apply rvc_ok; assumption|assumption].
    + apply wi_ok; try assumption. apply HH.
      destruct (is_im6 imm), ((64 <=? imm) || (imm <? 0)) eqn:EB; try reflexivity; exfalso; lia.
  - apply wi_ok; try assumption. apply HH.
      destruct (is_im6 imm), ((0 <=? imm) && (imm <? 64)), ((64 <=? imm) || (imm <? 0)) eqn:EB;
        try reflexivity; exfalso; lia.
  - assert (EU : (0 <=? imm) && (imm <? 64) = true) by lia. rewrite EU in HH.
    destruct (rvc rs) eqn:ER.
    + eapply ci_ok; [apply HH; destruct (is_im6 imm); reflexivity|reflexivity|].
      intros r. apply dec_c_srai; [apply rvc_ok; assumption|assumption].
    + apply wi_ok; try assumption. apply HH.
      destruct (is_im6 imm), ((64 <=? imm) || (imm <? 0)) eqn:EB; try reflexivity; exfalso; lia.
  - apply wi_ok; try assumption. apply HH.
      destruct (is_im6 imm), ((0 <=? imm) && (imm <? 64)), ((64 <=? imm) || (imm <? 0)) eqn:EB;
        try reflexivity; exfalso; lia.
Qed.
