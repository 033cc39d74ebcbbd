(** The patched instructions refer to the right address. *)
From Coq Require Import ZArith List Bool Lia ZifyBool ZifyNat.
From Verif Require Import Base Rv_model Rv_spec Rv_proof Rv_dec_proof Rvlink_model Rvlink_spec Rvlink_proof.
Import ListNotations.
Open Scope Z_scope.
Ltac Zify.zify_post_hook ::= Z.div_mod_to_equations.

(** ** The range checks *)
Lemma chk n x : 0 < n -> 0 <= x ->
  (Z.land x (Z.lnot (2 ^ n - 2)) =? 0) = ((x <? 2 ^ n) && (x mod 2 =? 0)).
Proof.
  intros Hn Hx.
  assert (B : forall i, 0 <= i -> Z.testbit (2 ^ n - 2) i = (1 <=? i) && (i <? n)).
  { intros i Hi. replace (2 ^ n - 2) with (Z.shiftl (Z.ones (n - 1)) 1).
    - rewrite Z.shiftl_spec by lia. destruct (Z.leb_spec 1 i); cbn [andb].
      + rewrite Z.testbit_ones_nonneg by lia. destruct (Z.ltb_spec (i - 1) (n - 1)), (Z.ltb_spec i n); auto; lia.
      + apply Z.testbit_neg_r. lia.
    - rewrite Z.shiftl_mul_pow2, Z.ones_equiv by lia. change (2 ^ 1) with 2.
      replace (2 ^ n) with (2 * 2 ^ (n - 1)); [lia|]. rewrite <- Z.pow_succ_r by lia. f_equal. lia. }
  set (y := Z.shiftl (Z.land (Z.shiftr x 1) (Z.ones (n - 1))) 1).
  assert (Y : forall i, 0 <= i -> Z.testbit y i = Z.testbit x i && Z.testbit (2 ^ n - 2) i).
  { intros i Hi. rewrite B by lia. unfold y. rewrite Z.shiftl_spec by lia.
    destruct (Z.leb_spec 1 i); cbn [andb].
    - rewrite Z.land_spec, Z.shiftr_spec, Z.testbit_ones_nonneg by lia.
      replace (i - 1 + 1) with i by lia. f_equal. destruct (Z.ltb_spec (i - 1) (n - 1)), (Z.ltb_spec i n); auto; lia.
    - rewrite Z.testbit_neg_r by lia. rewrite andb_false_r. reflexivity. }
  assert (Yv : y = 2 * ((x / 2) mod 2 ^ (n - 1))).
  { unfold y. rewrite Z.shiftl_mul_pow2, Z.land_ones, Z.shiftr_div_pow2 by lia.
    change (2 ^ 1) with 2. lia. }
  assert (P : 2 ^ n = 2 * 2 ^ (n - 1)) by (rewrite <- Z.pow_succ_r by lia; f_equal; lia).
  assert (0 < 2 ^ (n - 1)) by (apply Z.pow_pos_nonneg; lia).
  assert (Q : Z.land x (Z.lnot (2 ^ n - 2)) = 0 <-> x = y).
  { split; intros E.
    - apply Z.bits_inj'. intros i Hi. rewrite Y by lia.
      assert (Z.testbit (Z.land x (Z.lnot (2 ^ n - 2))) i = false) by (rewrite E; apply Z.bits_0).
      rewrite Z.land_spec, Z.lnot_spec in H0 by lia.
      destruct (Z.testbit x i), (Z.testbit (2 ^ n - 2) i); try reflexivity; discriminate H0.
    - apply Z.bits_inj'. intros i Hi. rewrite Z.bits_0, Z.land_spec, Z.lnot_spec by lia.
      rewrite E, Y by lia. destruct (Z.testbit x i), (Z.testbit (2 ^ n - 2) i); reflexivity. }
  destruct (Z.eqb_spec (Z.land x (Z.lnot (2 ^ n - 2))) 0) as [E|E].
  - apply Q in E. symmetry. apply andb_true_iff. rewrite Z.ltb_lt, Z.eqb_eq.
    pose proof (Z.mod_pos_bound (x / 2) (2 ^ (n - 1)) ltac:(lia)). rewrite E, Yv. split; [lia|].
    rewrite Z.mul_comm. apply Z.mod_mul. lia.
  - symmetry. apply andb_false_iff. rewrite Z.ltb_ge, Z.eqb_neq.
    destruct (Z.le_gt_cases (2 ^ n) x) as [L|L]; [auto|]. right. intros M. apply E, Q.
    rewrite Yv. rewrite Z.mod_small; [lia|]. split; [apply Z.div_pos; lia|apply Z.div_lt_upper_bound; lia].
Qed.

Lemma dist_mod a v : u64 (v - a) = dist a v mod 2 ^ 64.
Proof. unfold u64, dist, sx. change (2 ^ 64) with 18446744073709551616. change (2 ^ (64 - 1)) with 9223372036854775808. lia. Qed.
Lemma dist_range a v : - 2 ^ 63 <= dist a v < 2 ^ 63.
Proof. unfold dist, sx. change (2 ^ 64) with 18446744073709551616. change (2 ^ (64 - 1)) with 9223372036854775808.
  change (2 ^ 63) with 9223372036854775808. lia. Qed.
Lemma dist_goes a v : addr64 v -> ux 64 (a + dist a v) = v.
Proof.
  unfold addr64, ux, dist, sx. change (2 ^ 64) with 18446744073709551616.
  change (2 ^ (64 - 1)) with 9223372036854775808. lia.
Qed.

Lemma range_check k a v : 0 < k < 62 ->
  (Z.land (u64 (u64 (v - a) + 2 ^ k)) (Z.lnot (2 ^ (k + 1) - 2)) =? 0) = true <->
  even_in (- 2 ^ k) (2 ^ k) (dist a v).
Proof.
  intros Hk.
  assert (0 <= u64 (u64 (v - a) + 2 ^ k) < 2 ^ 64) by (apply Z.mod_pos_bound; lia).
  rewrite chk by lia. rewrite dist_mod. pose proof (dist_range a v) as R. set (d := dist a v) in *. clearbody d.
  assert (P : 2 ^ (k + 1) = 2 * 2 ^ k) by (rewrite Z.pow_add_r by lia; lia).
  assert (P1 : 2 <= 2 ^ k) by (change 2 with (2 ^ 1) at 1; apply Z.pow_le_mono_r; lia).
  assert (P2 : 2 ^ k <= 2 ^ 61) by (apply Z.pow_le_mono_r; lia).
  assert (P3 : (2 ^ k) mod 2 = 0).
  { replace k with (1 + (k - 1)) by lia. rewrite Z.pow_add_r by lia. change (2 ^ 1) with 2.
    rewrite Z.mul_comm. apply Z.mod_mul. lia. }
  unfold u64 in *. rewrite P. set (p := 2 ^ k) in *. clearbody p.
  change (2 ^ 64) with 18446744073709551616 in *. change (2 ^ 63) with 9223372036854775808 in *.
  change (2 ^ 61) with 2305843009213693952 in *.
  rewrite andb_true_iff, Z.ltb_lt, Z.eqb_eq. unfold even_in. clear H.
  rewrite Z.add_mod_idemp_l by lia.
  assert (C : (d + p) mod 18446744073709551616 = d + p /\ 0 <= d + p \/
              (d + p) mod 18446744073709551616 = d + p + 18446744073709551616 /\ d + p < 0) by lia.
  destruct C as [(-> & L)|(-> & L)]; lia.
Qed.

(** ** Fields of the distance *)
Lemma fld_mod v lo n k : 0 <= lo -> 0 <= n -> lo + n <= k -> fld (v mod 2 ^ k) lo n = fld v lo n.
Proof. intros. rewrite <- Z.land_ones by lia. apply fld_low; lia. Qed.
Lemma fld_shiftr v lo n m : 0 <= lo -> 0 <= n -> 0 <= m -> fld (Z.shiftr v m) lo n = fld v (lo + m) n.
Proof.
  intros. apply Z.bits_inj'. intros i Hi. rewrite !fld_bits by lia.
  rewrite Z.shiftr_spec by lia. do 2 f_equal. lia.
Qed.
Lemma fld_land_ones v lo n k : 0 <= lo -> 0 <= n -> lo + n <= k -> fld (Z.land v (Z.ones k)) lo n = fld v lo n.
Proof. intros. apply fld_low; lia. Qed.

Lemma fld_dist32 a v lo n : 0 <= lo -> 0 <= n -> lo + n <= 32 ->
  fld (u32 (u64 (v - a))) lo n = fld (dist a v) lo n.
Proof. intros. unfold u32. rewrite fld_mod, dist_mod, fld_mod by lia. reflexivity. Qed.
Lemma fld_dist64 a v lo n : 0 <= lo -> 0 <= n -> lo + n <= 64 ->
  fld (u64 (v - a)) lo n = fld (dist a v) lo n.
Proof. intros. rewrite dist_mod, fld_mod by lia. reflexivity. Qed.
Lemma fld_distr a v lo n : 0 <= lo -> 0 <= n -> lo + n <= 32 ->
  fld (u32 (Z.shiftr (u64 (v - a)) 1)) lo n = fld (dist a v) (lo + 1) n.
Proof. intros. unfold u32. rewrite fld_mod, fld_shiftr, fld_dist64 by lia. reflexivity. Qed.

(** the two parts of a distance *)
Lemma sx12 d : sx 12 (fld d 0 12) = sx 12 d.
Proof. apply sx_cong; [lia|]. fl. lia. Qed.
Lemma sx12s d : sx 12 (fld d 5 7 * 32 + fld d 0 5) = sx 12 d.
Proof. apply sx_cong; [lia|]. fl. lia. Qed.
Lemma lo_range d : -2048 <= sx 12 d < 2048.
Proof. apply (sx_range 12 d). lia. Qed.
Lemma hi_lo d : - 2 ^ 31 <= d + 0x800 < 2 ^ 31 ->
  sx 32 (fld (d + 0x800) 12 20 * 4096) = d - sx 12 d.
Proof.
  intros H. rewrite uimm20. change (2 ^ 31) with 2147483648 in H.
  rewrite sx_small; [|lia|change (2 ^ (32 - 1)) with 2147483648; lia].
  unfold sx. change (2 ^ (12 - 1)) with 2048. change (2 ^ 12) with 4096. lia.
Qed.

(** ** Branches and jumps *)
Section One.
Variables (tls : Z) (hi : Z * Z) (b : list Z) (addr val : Z).
Hypothesis Hv : addr64 val.

Lemma rel_branch o r1 r2 x rest : fetch b = Some (IBr o r1 r2 x, 4, rest) ->
  even_in (-4096) 4096 (dist addr val) ->
  exists b', relocate RBranch tls hi b addr val = Ok (b', hi) /\
    fetch b' = Some (IBr o r1 r2 (dist addr val), 4, rest).
Proof.
  intros F R. destruct (fetch4 _ _ _ F) as (L & -> & D).
  pose proof (proj2 (range_check 12 addr val ltac:(lia)) R) as C.
  unfold relocate. change (2 ^ (12 + 1) - 2) with 0x1ffe in C. rewrite C. cbn [negb].
  rewrite upd_ok by assumption. cbn [bind]. eexists. split; [reflexivity|].
  set (w := field 4 b) in *. set (u := u32 (Z.shiftr (u64 (val - addr)) 1)).
  destruct (dec_b w (patch_b u w) o r1 r2 x (pb_op _ _) (pb_f3 _ _) (pb_r1 _ _) (pb_r2 _ _) D) as (D' & M & N).
  apply fetch_put4; rewrite ?pb_op; try assumption. rewrite D'. do 2 f_equal.
  unfold bimm. rewrite pb_12, pb_11, pb_5, pb_1. unfold u. rewrite !fld_distr by lia.
  destruct R as (R & E). apply bimm13; assumption.
Qed.
Lemma rel_branch_far : ~ even_in (-4096) 4096 (dist addr val) ->
  relocate RBranch tls hi b addr val = Abort.
Proof.
  intros R. unfold relocate. change 0x1ffe with (2 ^ (12 + 1) - 2).
  destruct (Z.land _ _ =? 0) eqn:C; [|reflexivity].
  destruct R. apply (range_check 12 addr val ltac:(lia)). exact C.
Qed.

Lemma rel_jal rd x rest : fetch b = Some (IJal rd x, 4, rest) ->
  even_in (- 2 ^ 20) (2 ^ 20) (dist addr val) ->
  exists b', relocate RJal tls hi b addr val = Ok (b', hi) /\
    fetch b' = Some (IJal rd (dist addr val), 4, rest).
Proof.
  intros F R. destruct (fetch4 _ _ _ F) as (L & -> & D).
  assert (R' : even_in (- 2 ^ 21) (2 ^ 21) (dist addr val)).
  { unfold even_in in *. change (2 ^ 21) with 2097152. change (2 ^ 20) with 1048576 in R. lia. }
  pose proof (proj2 (range_check 21 addr val ltac:(lia)) R') as C.
  unfold relocate. change (2 ^ (21 + 1) - 2) with (2 ^ 22 - 2) in C. rewrite C. cbn [negb].
  rewrite upd_ok by assumption. cbn [bind]. eexists. split; [reflexivity|].
  set (w := field 4 b) in *. set (u := u32 (u64 (val - addr))).
  destruct (dec_jl w (patch_j u w) rd x (pj_op _ _) (pj_rd _ _) D) as (D' & M & N).
  apply fetch_put4; rewrite ?pj_op; try assumption. rewrite D'. do 2 f_equal.
  unfold jimm. rewrite pj_20, pj_12, pj_11, pj_1. unfold u. rewrite !fld_dist32 by lia.
  destruct R as (R & E). apply jimm21; assumption.
Qed.

(** ** Two instructions *)
Lemma put_i u c i rest i' : fetch c = Some (i, 4, rest) -> with_lo i (sx 12 (fld u 0 12)) = Some i' ->
  exists c', upd 4 (patch_i u) c = Ok c' /\ fetch c' = Some (i', 4, rest).
Proof.
  intros F W. destruct (fetch4 _ _ _ F) as (L & -> & D).
  rewrite upd_ok by assumption. eexists. split; [reflexivity|].
  set (w := field 4 c) in *.
  assert (W' : with_lo i (iimm (patch_i u w)) = Some i') by (unfold iimm; rewrite pi_im; exact W).
  destruct (dec_i w (patch_i u w) i i' (pi_op _ _) (pi_rd _ _) (pi_f3 _ _) (pi_r1 _ _) D W') as (D' & M & N).
  apply fetch_put4; rewrite ?pi_op; assumption.
Qed.
Lemma put_s u c i rest i' : fetch c = Some (i, 4, rest) ->
  with_st i (sx 12 (fld u 5 7 * 32 + fld u 0 5)) = Some i' ->
  exists c', upd 4 (patch_s u) c = Ok c' /\ fetch c' = Some (i', 4, rest).
Proof.
  intros F W. destruct (fetch4 _ _ _ F) as (L & -> & D).
  rewrite upd_ok by assumption. eexists. split; [reflexivity|].
  set (w := field 4 c) in *.
  assert (W' : with_st i (simm (patch_s u w)) = Some i') by (unfold simm; rewrite ps_hi, ps_lo; exact W).
  destruct (dec_s w (patch_s u w) i i' (ps_op _ _) (ps_f3 _ _) (ps_r1 _ _) (ps_r2 _ _) D W') as (D' & M & N).
  apply fetch_put4; rewrite ?ps_op; assumption.
Qed.

Lemma rel_call rd x c i y rest i' :
  fetch b = Some (IAuipc rd x, 4, c) -> fetch c = Some (i, 4, rest) -> with_lo i y = Some i' ->
  y = sx 12 (dist addr val) ->
  - 2 ^ 31 <= dist addr val + 0x800 < 2 ^ 31 ->
  exists b' c', relocate RCall tls hi b addr val = Ok (b', hi) /\
    fetch b' = Some (IAuipc rd (dist addr val - y), 4, c') /\ fetch c' = Some (i', 4, rest).
Proof.
  intros F G W -> R. destruct (fetch4 _ _ _ F) as (L & -> & D).
  unfold relocate. rewrite upd_ok by assumption. cbn [bind].
  set (w := field 4 b) in *. set (u := u64 (u64 (val - addr) + 0x800)).
  set (l4 := le 4 (patch_u u w)). assert (Ll : length l4 = 4%nat) by apply le_length.
  assert (Es : skipn 4 (l4 ++ skipn 4 b) = skipn 4 b).
  { rewrite skipn_app, Ll. rewrite skipn_all2 by lia. reflexivity. }
  assert (Ef : firstn 4 (l4 ++ skipn 4 b) = l4).
  { rewrite firstn_app, Ll, Nat.sub_diag, firstn_O, app_nil_r. rewrite <- Ll. apply firstn_all. }
  rewrite Es, Ef.
  destruct (put_i (u64 (val - addr)) (skipn 4 b) i rest i' G) as (c' & E & Fc).
  { rewrite fld_dist64, sx12 by lia. exact W. }
  rewrite E. cbn [bind]. exists (l4 ++ c'), c'. split; [reflexivity|]. split; [|exact Fc].
  destruct (dec_au w (patch_u u w) rd x (pu_op _ _) (pu_rd _ _) D) as (D' & M & N).
  unfold l4. apply fetch_put4; rewrite ?pu_op; try assumption. rewrite D'. do 2 f_equal.
  unfold uimm. rewrite pu_im. unfold u.
  replace (fld (u64 (u64 (val - addr) + 2048)) 12 20) with (fld (dist addr val + 0x800) 12 20).
  - apply hi_lo. exact R.
  - unfold u64 at 1. rewrite fld_mod by lia. rewrite dist_mod.
    rewrite <- (fld_mod (dist addr val + 2048) 12 20 64) by lia.
    rewrite <- (fld_mod (dist addr val mod 2 ^ 64 + 2048) 12 20 64) by lia.
    rewrite Z.add_mod_idemp_l by lia. reflexivity.
Qed.

Lemma rel_pcrel_hi rd x rest : fetch b = Some (IAuipc rd x, 4, rest) ->
  - 2 ^ 31 <= dist addr val + 0x800 < 2 ^ 31 ->
  exists b', relocate RPcrelHi tls hi b addr val = Ok (b', (addr, val)) /\
    fetch b' = Some (IAuipc rd (dist addr val - sx 12 (dist addr val)), 4, rest).
Proof.
  intros F R. destruct (fetch4 _ _ _ F) as (L & -> & D). unfold relocate.
  assert (I : i64 (val - addr + 0x800) = dist addr val + 0x800).
  { pose proof (dist_range addr val) as Rd. unfold i64. unfold dist, sx in *.
    change (2 ^ 64) with 18446744073709551616 in *. change (2 ^ 63) with 9223372036854775808 in *.
    change (2 ^ (64 - 1)) with 9223372036854775808 in *. change (2 ^ 31) with 2147483648 in R. lia. }
  rewrite I. set (d := dist addr val) in *.
  assert (Q : Z.shiftr (u64 (Z.shiftr (d + 0x800) 12 + 2 ^ 20)) 21 = 0).
  { rewrite !Z.shiftr_div_pow2 by lia. unfold u64. change (2 ^ 12) with 4096. change (2 ^ 20) with 1048576.
    change (2 ^ 21) with 2097152. change (2 ^ 64) with 18446744073709551616.
    change (2 ^ 31) with 2147483648 in R. clearbody d. lia. }
  rewrite Q. cbn [Z.eqb negb]. rewrite upd_ok by assumption. cbn [bind].
  eexists. split; [reflexivity|]. set (w := field 4 b) in *.
  set (u := Z.land (Z.shiftr (d + 0x800) 12) 0xfffff).
  destruct (dec_au w (patch_hi u w) rd x (ph_op _ _) (ph_rd _ _) D) as (D' & M & N).
  apply fetch_put4; rewrite ?ph_op; try assumption. rewrite D'. do 2 f_equal.
  unfold uimm. rewrite ph_im. unfold u. change 0xfffff with (Z.ones 20).
  rewrite fld_land_ones, fld_shiftr by lia. apply hi_lo. exact R.
Qed.
Lemma rel_pcrel_lo_i i y rest i' : fetch b = Some (i, 4, rest) -> val = fst hi ->
  y = sx 12 (dist (fst hi) (snd hi)) -> with_lo i y = Some i' ->
  exists b', relocate RPcrelLoI tls hi b addr val = Ok (b', hi) /\ fetch b' = Some (i', 4, rest).
Proof.
  intros F E -> W. unfold relocate. rewrite (proj2 (Z.eqb_eq _ _) E). cbn [negb].
  destruct (put_i (u64 (snd hi - fst hi)) b i rest i' F) as (b' & U & F').
  { rewrite fld_dist64, sx12 by lia. exact W. }
  rewrite U. cbn [bind]. eauto.
Qed.
Lemma rel_pcrel_lo_s i y rest i' : fetch b = Some (i, 4, rest) -> val = fst hi ->
  y = sx 12 (dist (fst hi) (snd hi)) -> with_st i y = Some i' ->
  exists b', relocate RPcrelLoS tls hi b addr val = Ok (b', hi) /\ fetch b' = Some (i', 4, rest).
Proof.
  intros F E -> W. unfold relocate. rewrite (proj2 (Z.eqb_eq _ _) E). cbn [negb].
  assert (K : u32 (snd hi - fst hi) = u32 (u64 (snd hi - fst hi))).
  { unfold u32, u64. change (2 ^ 32) with 4294967296. change (2 ^ 64) with 18446744073709551616. lia. }
  rewrite K.
  destruct (put_s (u32 (u64 (snd hi - fst hi))) b i rest i' F) as (b' & U & F').
  { rewrite !fld_dist32, sx12s by lia. exact W. }
  rewrite U. cbn [bind]. eauto.
Qed.

(** ** Absolute addresses *)
Lemma fld_hi20 v : 0 <= v < 2 ^ 64 -> fld (u32 (Z.shiftr (u64 (v + 0x800)) 12)) 0 20 = fld (v + 0x800) 12 20.
Proof.
  intros H. unfold u32, u64. rewrite fld_mod, fld_shiftr by lia. change (0 + 12) with 12.
  rewrite fld_mod by lia. reflexivity.
Qed.
(** a number from its low 64 bits *)
Definition sv (v : Z) : Z := sx 64 v.
Lemma fld_sv v lo n : 0 <= lo -> 0 <= n -> lo + n <= 64 -> fld (v + 0x800) lo n = fld (sv v + 0x800) lo n.
Proof.
  intros. rewrite <- (fld_mod (v + _) _ _ 64), <- (fld_mod (sv v + _) _ _ 64) by lia. f_equal.
  unfold sv, sx. change (2 ^ 64) with 18446744073709551616. change (2 ^ (64 - 1)) with 9223372036854775808. lia.
Qed.
Lemma sx12_sv v : sx 12 v = sx 12 (sv v).
Proof.
  apply sx_cong; [lia|]. unfold sv, sx. change (2 ^ 64) with 18446744073709551616.
  change (2 ^ (64 - 1)) with 9223372036854775808. change (2 ^ 12) with 4096. lia.
Qed.
Lemma put_hi v rd x rest : 0 <= v < 2 ^ 64 -> fetch b = Some (ILui rd x, 4, rest) ->
  - 2 ^ 31 <= sv v + 0x800 < 2 ^ 31 ->
  exists b', upd 4 (patch_hi (u32 (Z.shiftr (u64 (v + 0x800)) 12))) b = Ok b' /\
    fetch b' = Some (ILui rd (sv v - sx 12 (sv v)), 4, rest).
Proof.
  intros Rv F R. destruct (fetch4 _ _ _ F) as (L & -> & D).
  rewrite upd_ok by assumption. eexists. split; [reflexivity|]. set (w := field 4 b) in *.
  set (u := u32 _).
  destruct (dec_lu w (patch_hi u w) rd x (ph_op _ _) (ph_rd _ _) D) as (D' & M & N).
  apply fetch_put4; rewrite ?ph_op; try assumption. rewrite D'. do 2 f_equal.
  unfold uimm. rewrite ph_im. unfold u. rewrite fld_hi20 by assumption.
  rewrite fld_sv by lia. apply hi_lo. exact R.
Qed.
End One.
