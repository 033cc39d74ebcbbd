(** Instructions that take several machine instructions, and the rest. *)
From Coq Require Import ZArith List Bool Lia ZifyBool ZifyNat.
From Verif Require Import Base Rv_model Rv_spec Rv_proof Rv_dec_proof Rv_dec16_proof Rv_run_proof.
Import ListNotations.
Open Scope Z_scope.
Ltac Zify.zify_post_hook ::= Z.div_mod_to_equations.

Lemma sx_mod n a : 0 < n -> exists k, sx n a = a + k * 2 ^ n.
Proof.
  intros Hn. unfold sx.
  assert (0 < 2 ^ n) by (apply Z.pow_pos_nonneg; lia).
  exists (- ((a + 2 ^ (n - 1)) / 2 ^ n)).
  pose proof (Z.div_mod (a + 2 ^ (n - 1)) (2 ^ n)). lia.
Qed.
Lemma sx_add n a b : 0 < n -> sx n (sx n a + b) = sx n (a + b).
Proof.
  intros Hn. apply sx_cong; [lia|]. destruct (sx_mod n a Hn) as [k ->].
  replace (a + k * 2 ^ n + b - (a + b)) with (k * 2 ^ n) by lia.
  apply Z.mod_mul. assert (0 < 2 ^ n) by (apply Z.pow_pos_nonneg; lia). lia.
Qed.
Lemma sx_mul n a b : 0 < n -> sx n (sx n a * b) = sx n (a * b).
Proof.
  intros Hn. apply sx_cong; [lia|]. destruct (sx_mod n a Hn) as [k ->].
  replace ((a + k * 2 ^ n) * b - a * b) with (k * b * 2 ^ n) by lia.
  apply Z.mod_mul. assert (0 < 2 ^ n) by (apply Z.pow_pos_nonneg; lia). lia.
Qed.
Lemma ux_add a b : ux 64 (ux 64 a + b) = ux 64 (a + b).
Proof. unfold ux. apply Zplus_mod_idemp_l. Qed.

(** [t] is [s] with [v] in register [rd] and the program counter moved on *)
Definition lds (s t : st) (rd v n : Z) : Prop :=
  pc t = ux 64 (pc s + n) /\ frm t = frm s /\ fr t = fr s /\ mem t = mem s /\
  (rd <> 0 -> xr t rd = v) /\ (forall k, k <> rd -> xr t k = xr s k).
Lemma lds_same s t rd v n : lds s t rd v n -> same t (setpc (setx s rd v) (pc s + n)).
Proof.
  intros (H1 & H2 & H3 & H4 & H5 & H6). repeat split.
  - exact H1.
  - exact H2.
  - intros r. rewrite getx_setpc, getx_setx. unfold getx.
    destruct (Z.eqb_spec r 0); [reflexivity|].
    destruct (Z.eqb_spec r rd) as [->|]; [apply H5; assumption|apply H6; assumption].
  - intros r. rewrite H3. reflexivity.
  - intros a. rewrite H4. reflexivity.
Qed.
Lemma lds_first s o rd rs imm E len :
  lds s (exec E (IOpI o rd rs imm) len s) rd (alu o (getx s rs) imm) len.
Proof.
  repeat split. 
  - intros _. cbn [exec setpc setx xr]. rewrite Z.eqb_refl. reflexivity.
  - intros k Hk. cbn [exec setpc setx xr]. destruct (Z.eqb_spec k rd); [contradiction|reflexivity].
Qed.
Lemma lds_lui s rd v E len : lds s (exec E (ILui rd v) len s) rd v len.
Proof.
  repeat split. 
  - intros _. cbn [exec setpc setx xr]. rewrite Z.eqb_refl. reflexivity.
  - intros k Hk. cbn [exec setpc setx xr]. destruct (Z.eqb_spec k rd); [contradiction|reflexivity].
Qed.
Lemma lds_next s t o rd v imm n E len : lds s t rd v n ->
  lds s (exec E (IOpI o rd rd imm) len t) rd (alu o v imm) (n + len).
Proof.
  intros (H1 & H2 & H3 & H4 & H5 & H6). repeat split.
  - cbn [exec setpc setx pc]. rewrite H1, ux_add. f_equal. lia.
  - exact H2.
  - exact H3.
  - exact H4.
  - intros Hn. cbn [exec setpc setx xr]. rewrite Z.eqb_refl. unfold getx.
    destruct (Z.eqb_spec rd 0); [contradiction|]. rewrite H5 by assumption. reflexivity.
  - intros k Hk. cbn [exec setpc setx xr]. destruct (Z.eqb_spec k rd); [contradiction|].
    apply H6. exact Hk.
Qed.

(** ** Loading a constant *)
Lemma im6 x : is_im6 x = true <-> -32 <= x < 32.
Proof. unfold is_im6. lia. Qed.

Lemma addi_step E s t rd v n l : reg rd -> rd <> 0 -> lds s t rd v n -> -2048 <= l < 2048 ->
  exists u, seq E (if is_im6 l then c_addi rd l else wi ADDI rd rd l) t u /\
    lds s u rd (alu ADD v l)
      (n + Z.of_nat (length (if is_im6 l then c_addi rd l else wi ADDI rd rd l))).
Proof.
  intros Hd Hn H Hl. destruct (is_im6 l) eqn:E6.
  - eexists. split; [|eapply (lds_next _ _ ADD _ _ l _ E 2); exact H].
    apply seq_one; [discriminate| |reflexivity].
    intros r. apply dec_c_addi; [assumption|apply im6; assumption].
  - eexists. split; [|eapply (lds_next _ _ ADD _ _ l _ E 4); exact H].
    apply seq_one; [discriminate| |reflexivity].
    intros r. apply (dec_wi ADDI); cbn [ok_imm]; assumption.
Qed.
Lemma addiw_step E s t rd v n l : reg rd -> rd <> 0 -> lds s t rd v n -> -2048 <= l < 2048 ->
  exists u, seq E (if is_im6 l then c_addiw rd l else wi ADDIW rd rd l) t u /\
    lds s u rd (alu ADDW v l)
      (n + Z.of_nat (length (if is_im6 l then c_addiw rd l else wi ADDIW rd rd l))).
Proof.
  intros Hd Hn H Hl. destruct (is_im6 l) eqn:E6.
  - eexists. split; [|eapply (lds_next _ _ ADDW _ _ l _ E 2); exact H].
    apply seq_one; [discriminate| |reflexivity].
    intros r. apply dec_c_addiw; [assumption|assumption|apply im6; assumption].
  - eexists. split; [|eapply (lds_next _ _ ADDW _ _ l _ E 4); exact H].
    apply seq_one; [discriminate| |reflexivity].
    intros r. apply (dec_wi ADDIW); cbn [ok_imm]; assumption.
Qed.
Lemma lui_step E s rd v : reg rd -> rd <> 0 -> rd <> 2 -> - 2 ^ 31 <= v < 2 ^ 31 + 4096 ->
  Z.shiftr v 12 <> 0 ->
  exists u k, seq E (if is_im6 (Z.shiftr v 12) then c_lui rd v else w_lui rd v) s u /\
    lds s u rd (v - v mod 4096 + k * 2 ^ 32)
      (Z.of_nat (length (if is_im6 (Z.shiftr v 12) then c_lui rd v else w_lui rd v))).
Proof.
  intros Hd Hn H2 Hv Hnz. destruct (is_im6 (Z.shiftr v 12)) eqn:E6.
  - eexists. exists 0. split; [|rewrite Z.add_0_r; apply (lds_lui s rd _ E 2)].
    apply seq_one; [discriminate| |reflexivity].
    intros r. apply dec_c_lui; try assumption. apply im6; assumption.
  - destruct (sx_mod 32 (v - v mod 4096) ltac:(lia)) as [k Hk].
    eexists. exists k. split; [|rewrite <- Hk; apply (lds_lui s rd _ E 4)].
    apply seq_one; [discriminate| |reflexivity].
    intros r. apply dec_lui; assumption.
Qed.

Lemma li_run E rd : reg rd -> rd <> 0 -> rd <> 2 -> forall fuel imm c s,
  - 2 ^ 63 <= imm < 2 ^ 63 -> li_sub fuel rd imm = Ok c ->
  exists t, seq E c s t /\ lds s t rd imm (Z.of_nat (length c)).
Proof.
  intros Hd H0 H2. induction fuel as [|fuel IH]; intros imm c s Hi HC; [discriminate|].
  cbn [li_sub] in HC.
  destruct (is_im6 imm) eqn:E6.
  { injection HC as <-. eexists. split.
    - apply (seq_one E (c_li rd imm) s (IOpI ADD rd 0 imm) 2); [discriminate| |reflexivity].
      intros r. apply dec_c_li; [assumption|apply im6; assumption].
    - replace imm with (alu ADD (getx s 0) imm) at 2; [apply lds_first|].
      cbn [alu]. change (getx s 0) with 0. rewrite Z.add_0_l. apply sx_small; [lia|exact Hi]. }
  destruct (is_im12 imm) eqn:E12.
  { injection HC as <-. unfold is_im12 in E12. eexists. split.
    - apply (seq_one E (wi ADDI rd 0 imm) s (IOpI ADD rd 0 imm) 4); [discriminate| |reflexivity].
      intros r. apply (dec_wi ADDI); [assumption|unfold reg; lia|cbn [ok_imm]; lia].
    - replace imm with (alu ADD (getx s 0) imm) at 2; [apply lds_first|].
      cbn [alu]. change (getx s 0) with 0. rewrite Z.add_0_l. apply sx_small; [lia|exact Hi]. }
  assert (L1 : Z.land imm 4095 = imm mod 4096).
  { change 4095 with (Z.ones 12). rewrite Z.land_ones by lia. reflexivity. }
  unfold is_im12 in E12.
  destruct (is_im32 imm) eqn:E32.
  { unfold is_im32 in E32.
    rewrite L1 in HC.
    assert (K : exists l v, (if 2048 <=? imm mod 4096 then (imm mod 4096 - 4096, imm + 4096)
                             else (imm mod 4096, imm)) = (l, v) /\
              -2048 <= l < 2048 /\ v - v mod 4096 + l = imm /\ - 2 ^ 31 <= v < 2 ^ 31 + 4096 /\
              Z.shiftr v 12 <> 0).
    { change (2 ^ 31) with 2147483648 in *.
      destruct (Z.leb_spec 2048 (imm mod 4096)).
      - eexists _, _. split; [reflexivity|]. rewrite ?Z.shiftr_div_pow2 by lia.
        change (2 ^ 12) with 4096. lia.
      - eexists _, _. split; [reflexivity|]. rewrite ?Z.shiftr_div_pow2 by lia.
        change (2 ^ 12) with 4096. lia. }
    destruct K as (l & v & Kp & Kl & Kv & Kr & Kn). rewrite Kp in HC.
    cbv iota beta in HC.
    assert (HC' : c = (if is_im6 (Z.shiftr v 12) then c_lui rd v else w_lui rd v) ++
          (if is_im6 l then c_addiw rd l else wi ADDIW rd rd l)) by congruence.
    clear HC. subst c.
    destruct (lui_step E s rd v Hd H0 H2 Kr Kn) as (u & k & Su & Lu).
    destruct (addiw_step E s u rd _ _ l Hd H0 Lu Kl) as (t & St & Lt').
    exists t. split; [eapply seq_app; eassumption|].
    rewrite app_length, Nat2Z.inj_add.
    assert (KV : alu ADDW (v - v mod 4096 + k * 2 ^ 32) l = imm).
    { cbn [alu]. rewrite <- (sx_small 32 imm) at 1 by (cbn; lia).
      apply sx_cong; [lia|]. replace (v - v mod 4096 + k * 2 ^ 32 + l - imm) with (k * 2 ^ 32) by lia.
      apply Z.mod_mul. lia. }
    rewrite KV in Lt'. exact Lt'. }
  unfold is_im32 in E32. rewrite L1, Z.shiftr_div_pow2 in HC by lia. change (2 ^ 12) with 4096 in HC.
  assert (K : exists l h, (if 2048 <=? imm mod 4096 then (imm mod 4096 - 4096, imm / 4096 + 1)
                             else (imm mod 4096, imm / 4096)) = (l, h) /\
              -2048 <= l < 2048 /\ h * 4096 + l = imm /\ - 2 ^ 63 <= h < 2 ^ 63).
  { change (2 ^ 63) with 9223372036854775808 in *.
    destruct (Z.leb_spec 2048 (imm mod 4096)).
    - eexists _, _. split; [reflexivity|]. lia.
    - eexists _, _. split; [reflexivity|]. lia. }
  destruct K as (l & h & Kp & Kl & Kv & Kr). rewrite Kp in HC.
  cbv iota beta in HC.
  destruct (li_sub fuel rd h) as [c1| | | | |] eqn:EL; try discriminate.
  cbn [bind] in HC.
  assert (HC' : c = c1 ++ c_slli rd 12 ++ (if is_im6 l then c_addi rd l else wi ADDI rd rd l)) by congruence.
  clear HC. subst c.
  destruct (IH h c1 s Kr EL) as (u & Su & Lu).
  assert (S2 : seq E (c_slli rd 12) u (exec E (IOpI SLL rd rd 12) 2 u)).
  { apply seq_one; [discriminate| |reflexivity]. intros r. apply dec_c_slli; [assumption|lia]. }
  pose proof (lds_next s u SLL rd h 12 _ E 2 Lu) as L2.
  destruct (addi_step E s _ rd _ _ l Hd H0 L2 Kl) as (t & St & Lt').
  exists t. split; [eapply seq_app; [eassumption|eapply seq_app; eassumption]|].
  rewrite !app_length, !Nat2Z.inj_add.
  change (Z.of_nat (length (c_slli rd 12))) with 2.
  assert (KV : alu ADD (alu SLL h 12) l = imm).
  { cbn [alu]. rewrite sx_add by lia. change (2 ^ ux 6 12) with 4096. rewrite Kv.
    apply sx_small; [lia|exact Hi]. }
  rewrite KV, <- Z.add_assoc in Lt'. exact Lt'.
Qed.

(** enough fuel, and the size *)
Lemma li_len1 rd imm fuel : (1 <= fuel)%nat -> - 2 ^ 31 <= imm < 2 ^ 31 ->
  exists c, li_sub fuel rd imm = Ok c /\ (length c <= 8)%nat.
Proof.
  intros Hf Hi. destruct fuel as [|fuel]; [lia|]. cbn [li_sub].
  destruct (is_im6 imm); [eexists; split; [reflexivity|cbn; lia]|].
  destruct (is_im12 imm); [eexists; split; [reflexivity|cbn; lia]|].
  assert (E : is_im32 imm = true) by (unfold is_im32; lia). rewrite E.
  destruct (0x800 <=? _); (eexists; split; [reflexivity|]); rewrite app_length;
  destruct (is_im6 (Z.shiftr _ 12)), (is_im6 _); cbn; lia.
Qed.
Lemma li_len_step rd imm fuel b : (8 <= b)%nat ->
  (forall h, 4096 * h - 2048 <= imm < 4096 * h + 2048 ->
     exists c, li_sub fuel rd h = Ok c /\ (length c <= b)%nat) ->
  exists c, li_sub (Datatypes.S fuel) rd imm = Ok c /\ (length c <= b + 6)%nat.
Proof.
  intros Hb H.
  destruct (is_im32 imm) eqn:E.
  { destruct (li_len1 rd imm (Datatypes.S fuel)) as (c & Hc & Hl); [lia|unfold is_im32 in E; lia|].
    exists c. split; [exact Hc|lia]. }
  assert (E12 : is_im12 imm = false) by (unfold is_im12, is_im32 in *; lia).
  assert (E6 : is_im6 imm = false) by (unfold is_im6, is_im32 in *; lia).
  cbn [li_sub]. rewrite E6, E12, E.
  assert (L1 : Z.land imm 4095 = imm mod 4096).
  { change 4095 with (Z.ones 12). rewrite Z.land_ones by lia. reflexivity. }
  rewrite L1, Z.shiftr_div_pow2 by lia. change (2 ^ 12) with 4096.
  destruct (Z.leb_spec 2048 (imm mod 4096)).
  - destruct (H (imm / 4096 + 1)) as (c & -> & Hl); [lia|]. cbn [bind].
    eexists. split; [reflexivity|]. rewrite !app_length. destruct (is_im6 (imm mod 4096 - 4096)); unfold c_addi, c_slli, wi; rewrite ?len16, ?len32; clear - Hl; lia.
  - destruct (H (imm / 4096)) as (c & -> & Hl); [lia|]. cbn [bind].
    eexists. split; [reflexivity|]. rewrite !app_length. destruct (is_im6 (imm mod 4096)); unfold c_addi, c_slli, wi; rewrite ?len16, ?len32; clear - Hl; lia.
Qed.
Lemma li_total rd imm : - 2 ^ 63 <= imm < 2 ^ 63 ->
  exists c, li_sub 8 rd imm = Ok c /\ (length c <= 26)%nat.
Proof.
  intros Hi. change (2 ^ 63) with 9223372036854775808 in Hi.
  apply (li_len_step rd imm 7 20); [lia|]. intros h Hh.
  apply (li_len_step rd h 6 14); [lia|]. intros h2 Hh2.
  apply (li_len_step rd h2 5 8); [lia|]. intros h3 Hh3.
  apply li_len1; [lia|]. change (2 ^ 31) with 2147483648. lia.
Qed.
Lemma li_ok rd imm : operands (ALi rd imm) -> covered (ALi rd imm) -> enc_ok (ALi rd imm).
Proof.
  intros [Hd Hi] [H0 H2]. destruct (li_total rd imm Hi) as (c & Hc & Hl).
  exists c. split.
  - unfold encode. cbn [handler]. rewrite Hc. cbn [bind].
    destruct (Z.ltb_spec 26 (Z.of_nat (length c))); [lia|reflexivity].
  - intros E s Hw. destruct (li_run E rd Hd H0 H2 8 imm c s Hi Hc) as (t & Ht & Hs).
    exists t. split; [apply seq_run; exact Ht|]. apply lds_same in Hs. exact Hs.
Qed.

(** ** Extending *)
Lemma shl_shr a P Q h : 0 < P -> 0 < h -> Q = 2 * h ->
  ((a * P + P * h) mod (P * Q) - P * h) / P = (a + h) mod Q - h.
Proof.
  intros HP Hh ->. replace (a * P + P * h) with (P * (a + h)) by lia.
  rewrite Z.mul_mod_distr_l by lia.
  replace (P * ((a + h) mod (2 * h)) - P * h) with (((a + h) mod (2 * h) - h) * P) by lia.
  apply Z.div_mul. lia.
Qed.
Lemma shl_shru a P Q : 0 < P -> 0 < Q ->
  ((a * P) mod (P * Q)) / P = a mod Q.
Proof.
  intros HP HQ. rewrite (Z.mul_comm a P), Z.mul_mod_distr_l by lia.
  rewrite Z.mul_comm. apply Z.div_mul. lia.
Qed.
Lemma ux_sx a : ux 64 (sx 64 a) = ux 64 a.
Proof.
  destruct (sx_mod 64 a ltac:(lia)) as [k ->]. unfold ux. apply Z_mod_plus_full.
Qed.
Lemma sext_pair n a : n = 56 \/ n = 48 ->
  alu SRA (alu SLL a n) n = sx (64 - n) a.
Proof.
  intros [->| ->]; cbn [alu].
  - change (ux 6 56) with 56. unfold sx.
    change (2 ^ (64 - 1)) with (2 ^ 56 * 2 ^ 7). change (2 ^ 64) with (2 ^ 56 * 2 ^ 8).
    apply (shl_shr a (2 ^ 56) (2 ^ 8) (2 ^ 7)); reflexivity.
  - change (ux 6 48) with 48. unfold sx.
    change (2 ^ (64 - 1)) with (2 ^ 48 * 2 ^ 15). change (2 ^ 64) with (2 ^ 48 * 2 ^ 16).
    apply (shl_shr a (2 ^ 48) (2 ^ 16) (2 ^ 15)); reflexivity.
Qed.
Lemma zext_pair n a : n = 48 \/ n = 32 ->
  alu SRL (alu SLL a n) n = ux (64 - n) a.
Proof.
  intros [->| ->]; cbn [alu]; rewrite ux_sx; unfold ux.
  - change (48 mod 2 ^ 6) with 48. change (2 ^ 64) with (2 ^ 48 * 2 ^ 16).
    rewrite shl_shru by reflexivity. apply sx_small; [lia|]. change (64 - 48) with 16.
    pose proof (Z.mod_pos_bound a (2 ^ 16) ltac:(lia)).
    change (2 ^ 16) with 65536 in *. change (2 ^ (64 - 1)) with 9223372036854775808. lia.
  - change (32 mod 2 ^ 6) with 32. change (2 ^ 64) with (2 ^ 32 * 2 ^ 32).
    rewrite shl_shru by reflexivity. apply sx_small; [lia|]. change (64 - 32) with 32.
    pose proof (Z.mod_pos_bound a (2 ^ 32) ltac:(lia)).
    change (2 ^ 32) with 4294967296 in *. change (2 ^ (64 - 1)) with 9223372036854775808. lia.
Qed.
Lemma pair_ok o rd rs n (ar : bool) : reg rd -> reg rs -> 0 <= n < 64 ->
  handler (A2 o rd rs) = Ok (shift_pair rd rs n ar) ->
  (forall a, alu (if ar then SRA else SRL) (alu SLL a n) n = un o a) ->
  enc_ok (A2 o rd rs).
Proof.
  intros Hd Hs Hn HH HU. exists (shift_pair rd rs n ar).
  assert (HL : (length (shift_pair rd rs n ar) <= 8)%nat).
  { unfold shift_pair. rewrite app_length. destruct (rd =? rs), ar, (rvc rd); cbn; lia. }
  split.
  { unfold encode. rewrite HH. cbn [bind].
    destruct (Z.ltb_spec 26 (Z.of_nat (length (shift_pair rd rs n ar)))); [lia|reflexivity]. }
  intros E s Hw. unfold shift_pair.
  set (c1 := if rd =? rs then c_slli rd n else wi SLLI rd rs n).
  set (c2 := if ar then if rvc rd then c_srai rd n else wi SRAI rd rd n
             else if rvc rd then c_srli rd n else wi SRLI rd rd n).
  assert (S1 : exists len, Z.of_nat (length c1) = len /\
                 seq E c1 s (exec E (IOpI SLL rd rs n) len s)).
  { subst c1. destruct (Z.eqb_spec rd rs) as [->|].
    - exists 2. split; [reflexivity|]. apply seq_one; [discriminate| |reflexivity].
      intros r. apply dec_c_slli; assumption.
    - exists 4. split; [reflexivity|]. apply seq_one; [discriminate| |reflexivity].
      intros r. apply (dec_wi SLLI); assumption. }
  destruct S1 as (l1 & Hl1 & S1).
  set (u := exec E (IOpI SLL rd rs n) l1 s) in *.
  assert (S2 : exists len, Z.of_nat (length c2) = len /\
     seq E c2 u (exec E (IOpI (if ar then SRA else SRL) rd rd n) len u)).
  { subst c2. destruct ar, (rvc rd) eqn:ER.
    - exists 2. split; [reflexivity|]. apply seq_one; [discriminate| |reflexivity].
      intros r. apply dec_c_srai; [apply rvc_ok|]; assumption.
    - exists 4. split; [reflexivity|]. apply seq_one; [discriminate| |reflexivity].
      intros r. apply (dec_wi SRAI); assumption.
    - exists 2. split; [reflexivity|]. apply seq_one; [discriminate| |reflexivity].
      intros r. apply dec_c_srli; [apply rvc_ok|]; assumption.
    - exists 4. split; [reflexivity|]. apply seq_one; [discriminate| |reflexivity].
      intros r. apply (dec_wi SRLI); assumption. }
  destruct S2 as (l2 & Hl2 & S2).
  eexists. split; [apply seq_run; eapply seq_app; eassumption|].
  rewrite app_length, Nat2Z.inj_add, Hl1, Hl2. cbn [means]. rewrite <- HU.
  apply lds_same. apply lds_next. apply lds_first.
Qed.
