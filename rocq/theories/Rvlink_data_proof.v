(** Compressed jumps, numbers in data, ULEB128. *)
From Coq Require Import ZArith List Bool Lia ZifyBool ZifyNat.
From Verif Require Import Base Rv_model Rv_spec Rv_proof Rv_dec_proof Rv_dec16_proof
  Rvlink_model Rvlink_spec Rvlink_proof Rvlink_reloc_proof.
Import ListNotations.
Open Scope Z_scope.
Ltac Zify.zify_post_hook ::= Z.div_mod_to_equations.

(** ** Compressed branches and jumps *)
Lemma lor_add k a x : 0 <= k -> 0 <= x < 2 ^ k -> Z.lor x (a * 2 ^ k) = x + a * 2 ^ k.
Proof.
  intros Hk Hx. rewrite <- Z.shiftl_mul_pow2 by lia.
  assert (E : Z.land x (Z.shiftl a k) = 0).
  { apply Z.bits_inj'. intros i Hi. rewrite Z.land_spec, Z.bits_0, Z.shiftl_spec by lia.
    destruct (Z.lt_ge_cases i k).
    - rewrite (Z.testbit_neg_r a) by lia. apply andb_false_r.
    - rewrite (tb_hi x (2 ^ k) i Hx); [reflexivity| |lia]. apply Z.pow_le_mono_r; lia. }
  rewrite <- Z.lxor_lor by exact E. symmetry. apply Z.add_nocarry_lxor. exact E.
Qed.
Lemma pcb_q d w : fld (patch_cb d w) 0 2 = fld w 0 2. Proof. unfold patch_cb. pbits. Qed.
Lemma pcb_f d w : fld (patch_cb d w) 13 3 = fld w 13 3. Proof. unfold patch_cb. pbits. Qed.
Lemma pcb_r d w : fld (patch_cb d w) 7 3 = fld w 7 3. Proof. unfold patch_cb. pbits. Qed.
Lemma pcb_8 d w : fld (patch_cb d w) 12 1 = fld d 8 1. Proof. unfold patch_cb. pbits. Qed.
Lemma pcb_6 d w : fld (patch_cb d w) 5 2 = fld d 6 2. Proof. unfold patch_cb. pbits. Qed.
Lemma pcb_5 d w : fld (patch_cb d w) 2 1 = fld d 5 1. Proof. unfold patch_cb. pbits. Qed.
Lemma pcb_3 d w : fld (patch_cb d w) 10 2 = fld d 3 2. Proof. unfold patch_cb. pbits. Qed.
Lemma pcb_1 d w : fld (patch_cb d w) 3 2 = fld d 1 2. Proof. unfold patch_cb. pbits. Qed.
Lemma pcj_q d w : fld (patch_cj d w) 0 2 = fld w 0 2. Proof. unfold patch_cj. pbits. Qed.
Lemma pcj_f d w : fld (patch_cj d w) 13 3 = fld w 13 3. Proof. unfold patch_cj. pbits. Qed.
Lemma pcj_11 d w : fld (patch_cj d w) 12 1 = fld d 11 1. Proof. unfold patch_cj. pbits. Qed.
Lemma pcj_10 d w : fld (patch_cj d w) 8 1 = fld d 10 1. Proof. unfold patch_cj. pbits. Qed.
Lemma pcj_8 d w : fld (patch_cj d w) 9 2 = fld d 8 2. Proof. unfold patch_cj. pbits. Qed.
Lemma pcj_7 d w : fld (patch_cj d w) 6 1 = fld d 7 1. Proof. unfold patch_cj. pbits. Qed.
Lemma pcj_6 d w : fld (patch_cj d w) 7 1 = fld d 6 1. Proof. unfold patch_cj. pbits. Qed.
Lemma pcj_5 d w : fld (patch_cj d w) 2 1 = fld d 5 1. Proof. unfold patch_cj. pbits. Qed.
Lemma pcj_4 d w : fld (patch_cj d w) 11 1 = fld d 4 1. Proof. unfold patch_cj. pbits. Qed.
Lemma pcj_1 d w : fld (patch_cj d w) 3 3 = fld d 1 3. Proof. unfold patch_cj. pbits. Qed.

Ltac kill H :=
  repeat match type of H with
  | (if ?c then _ else _) = _ => destruct c
  | (match ?c with _ => _ end) = _ => destruct c
  end; discriminate H.

Lemma q1_br w o r1 r2 x : fld w 0 2 <> 3 -> decode16 w = Some (IBr o r1 r2 x) ->
  fld w 0 2 = 1 /\ r1 = creg w 7 /\ r2 = 0 /\
  ((fld w 13 3 = 6 /\ o = BEQ) \/
   (fld w 13 3 <> 0 /\ fld w 13 3 <> 1 /\ fld w 13 3 <> 2 /\ fld w 13 3 <> 3 /\ fld w 13 3 <> 4 /\
    fld w 13 3 <> 5 /\ fld w 13 3 <> 6 /\ o = BNE)).
Proof.
  intros N D. unfold decode16 in D.
  pose proof (fld_range w 0 2 ltac:(lia) ltac:(lia)) as R. change (2 ^ 2) with 4 in R.
  assert (C : fld w 0 2 = 0 \/ fld w 0 2 = 1 \/ fld w 0 2 = 2) by lia.
  destruct C as [C|[C|C]]; rewrite C in D.
  - exfalso. unfold decode16_q0 in D. kill D.
  - split; [exact C|]. unfold decode16_q1 in D.
    pose proof (fld_range w 13 3 ltac:(lia) ltac:(lia)) as R3. change (2 ^ 3) with 8 in R3.
    assert (K : fld w 13 3 = 0 \/ fld w 13 3 = 1 \/ fld w 13 3 = 2 \/ fld w 13 3 = 3 \/ fld w 13 3 = 4
             \/ fld w 13 3 = 5 \/ fld w 13 3 = 6 \/ fld w 13 3 = 7) by lia.
    destruct K as [K|[K|[K|[K|[K|[K|[K|K]]]]]]]; rewrite K in *; try (exfalso; kill D).
    + injection D as <- <- <- _. auto.
    + injection D as <- <- <- _. repeat split; try reflexivity. right. repeat split; lia.
  - exfalso. unfold decode16_q2 in D. kill D.
Qed.
Lemma q1_j w rd x : fld w 0 2 <> 3 -> decode16 w = Some (IJal rd x) ->
  fld w 0 2 = 1 /\ rd = 0 /\ fld w 13 3 = 5.
Proof.
  intros N D. unfold decode16 in D.
  pose proof (fld_range w 0 2 ltac:(lia) ltac:(lia)) as R. change (2 ^ 2) with 4 in R.
  assert (C : fld w 0 2 = 0 \/ fld w 0 2 = 1 \/ fld w 0 2 = 2) by lia.
  destruct C as [C|[C|C]]; rewrite C in D.
  - exfalso. unfold decode16_q0 in D. kill D.
  - split; [exact C|]. unfold decode16_q1 in D.
    pose proof (fld_range w 13 3 ltac:(lia) ltac:(lia)) as R3. change (2 ^ 3) with 8 in R3.
    assert (K : fld w 13 3 = 0 \/ fld w 13 3 = 1 \/ fld w 13 3 = 2 \/ fld w 13 3 = 3 \/ fld w 13 3 = 4
             \/ fld w 13 3 = 5 \/ fld w 13 3 = 6 \/ fld w 13 3 = 7) by lia.
    destruct K as [K|[K|[K|[K|[K|[K|[K|K]]]]]]]; rewrite K in *; try (exfalso; kill D).
    injection D as <- _. auto.
  - exfalso. unfold decode16_q2 in D. kill D.
Qed.

Lemma cb9 d : -256 <= d < 256 -> d mod 2 = 0 ->
  sx 9 (fld d 8 1 * 256 + fld d 6 2 * 64 + fld d 5 1 * 32 + fld d 3 2 * 8 + fld d 1 2 * 2) = d.
Proof.
  intros. rewrite <- (sx_small 9 d) at 6 by (cbn; lia).
  apply sx_cong; [lia|]. fl. lia.
Qed.
Lemma cj12 d : -2048 <= d < 2048 -> d mod 2 = 0 ->
  sx 12 (fld d 11 1 * 2048 + fld d 10 1 * 1024 + fld d 8 2 * 256 + fld d 7 1 * 128
         + fld d 6 1 * 64 + fld d 5 1 * 32 + fld d 4 1 * 16 + fld d 1 3 * 2) = d.
Proof.
  intros. rewrite <- (sx_small 12 d) at 9 by (cbn; lia).
  apply sx_cong; [lia|]. fl. lia.
Qed.

Section Two.
Variables (tls : Z) (hi : Z * Z) (b : list Z) (addr val : Z).

Lemma rel_rvc_branch o r1 r2 x rest : fetch b = Some (IBr o r1 r2 x, 2, rest) ->
  even_in (-256) 256 (dist addr val) ->
  exists b', relocate RRvcBranch tls hi b addr val = Ok (b', hi) /\
    fetch b' = Some (IBr o r1 r2 (dist addr val), 2, rest).
Proof.
  intros F R. destruct (fetch2 _ _ _ F) as (L & -> & D & M).
  pose proof (proj2 (range_check 8 addr val ltac:(lia)) R) as C.
  unfold relocate. change (2 ^ (8 + 1) - 2) with 0x1fe in C. rewrite C. cbn [negb].
  rewrite upd_ok by assumption. cbn [bind]. eexists. split; [reflexivity|].
  set (w := field 2 b) in *. set (u := u32 (u64 (val - addr))).
  assert (Q : fld w 0 2 <> 3) by (rewrite fld02; exact M).
  destruct (q1_br _ _ _ _ _ Q D) as (Q1 & -> & -> & K).
  rewrite le2. apply dec16; [rewrite pcb_q; exact Q|].
  unfold decode16. rewrite pcb_q, Q1. unfold decode16_q1. rewrite pcb_f.
  assert (E : cb (patch_cb u w) = dist addr val).
  { unfold cb. rewrite pcb_8, pcb_6, pcb_5, pcb_3, pcb_1. unfold u. rewrite !fld_dist32 by lia.
    destruct R. apply cb9; assumption. }
  rewrite E. unfold creg. rewrite pcb_r.
  destruct K as [(K & ->)|(K0 & K1 & K2 & K3 & K4 & K5 & K6 & ->)].
  - rewrite K. reflexivity.
  - pose proof (fld_range w 13 3 ltac:(lia) ltac:(lia)) as R3. change (2 ^ 3) with 8 in R3.
    replace (fld w 13 3) with 7 by lia. reflexivity.
Qed.
Lemma rel_rvc_jump rd x rest : fetch b = Some (IJal rd x, 2, rest) ->
  even_in (-2048) 2048 (dist addr val) ->
  exists b', relocate RRvcJump tls hi b addr val = Ok (b', hi) /\
    fetch b' = Some (IJal rd (dist addr val), 2, rest).
Proof.
  intros F R. destruct (fetch2 _ _ _ F) as (L & -> & D & M).
  pose proof (proj2 (range_check 11 addr val ltac:(lia)) R) as C.
  unfold relocate. change (2 ^ (11 + 1) - 2) with 0xffe in C. rewrite C. cbn [negb].
  rewrite upd_ok by assumption. cbn [bind]. eexists. split; [reflexivity|].
  set (w := field 2 b) in *. set (u := u32 (u64 (val - addr))).
  assert (Q : fld w 0 2 <> 3) by (rewrite fld02; exact M).
  destruct (q1_j _ _ _ Q D) as (Q1 & -> & K).
  rewrite le2. apply dec16; [rewrite pcj_q; exact Q|].
  unfold decode16. rewrite pcj_q, Q1. unfold decode16_q1. rewrite pcj_f, K.
  do 2 f_equal. unfold cj.
  rewrite pcj_11, pcj_10, pcj_8, pcj_7, pcj_6, pcj_5, pcj_4, pcj_1. unfold u. rewrite !fld_dist32 by lia.
  destruct R. apply cj12; assumption.
Qed.
Lemma rel_rvc_branch_far : ~ even_in (-256) 256 (dist addr val) ->
  relocate RRvcBranch tls hi b addr val = Abort.
Proof.
  intros R. unfold relocate. change 0x1fe with (2 ^ (8 + 1) - 2).
  destruct (Z.land _ _ =? 0) eqn:C; [|reflexivity].
  destruct R. apply (range_check 8 addr val ltac:(lia)). exact C.
Qed.
Lemma rel_rvc_jump_far : ~ even_in (-2048) 2048 (dist addr val) ->
  relocate RRvcJump tls hi b addr val = Abort.
Proof.
  intros R. unfold relocate. change 0xffe with (2 ^ (11 + 1) - 2).
  destruct (Z.land _ _ =? 0) eqn:C; [|reflexivity].
  destruct R. apply (range_check 11 addr val ltac:(lia)). exact C.
Qed.

(** ** Numbers *)
Lemma field_le n w r : field n (le n w ++ r) = w mod 2 ^ (8 * Z.of_nat n).
Proof.
  unfold field. rewrite firstn_app, le_length, Nat.sub_diag, firstn_O, app_nil_r.
  rewrite firstn_all2 by (rewrite le_length; lia). apply unle_le.
Qed.
Lemma skipn_le n w r : skipn n (le n w ++ r) = r.
Proof.
  rewrite skipn_app, le_length, Nat.sub_diag. rewrite skipn_all2 by (rewrite le_length; lia). reflexivity.
Qed.
Lemma upd_field n f : (n <= length b)%nat -> exists b', upd n f b = Ok b' /\
  field n b' = f (field n b) mod 2 ^ (8 * Z.of_nat n) /\ skipn n b' = skipn n b.
Proof.
  intros L. rewrite upd_ok by assumption. eexists. split; [reflexivity|].
  rewrite field_le, skipn_le. auto.
Qed.
Lemma field1_range : bytes b -> (1 <= length b)%nat -> 0 <= field 1 b < 256.
Proof.
  intros B L. destruct b as [|x r]; [cbn in L; lia|]. unfold field. cbn [firstn unle].
  apply Forall_inv in B. cbn in B. lia.
Qed.
Lemma low6 w v : 0 <= w < 256 ->
  let x := Z.lor (Z.land w (Z.lnot 0x3f)) (Z.land v 0x3f) mod 256 in
  x mod 64 = v mod 64 /\ x / 64 = w / 64.
Proof.
  intros H x.
  assert (E : Z.land w (Z.lnot 0x3f) = 64 * (w / 64)).
  { replace (64 * (w / 64)) with (Z.shiftl (Z.shiftr w 6) 6)
      by (rewrite Z.shiftl_mul_pow2, Z.shiftr_div_pow2 by lia; change (2 ^ 6) with 64; lia).
    apply Z.bits_inj'. intros i Hi. rewrite Z.land_spec, Z.lnot_spec, Z.shiftl_spec by lia.
    change 0x3f with (Z.ones 6). rewrite Z.testbit_ones_nonneg by lia.
    destruct (Z.ltb_spec i 6); cbn [negb].
    - rewrite andb_false_r. symmetry. apply Z.testbit_neg_r. lia.
    - rewrite andb_true_r, Z.shiftr_spec by lia. f_equal. lia. }
  assert (E2 : Z.land v 0x3f = v mod 64) by (change 0x3f with (Z.ones 6); rewrite Z.land_ones by lia; reflexivity).
  assert (E3 : Z.lor (64 * (w / 64)) (v mod 64) = 64 * (w / 64) + v mod 64).
  { rewrite Z.lor_comm, (Z.mul_comm 64). change 64 with (2 ^ 6) at 3 4.
    rewrite lor_add by (change (2 ^ 6) with 64; lia). change (2 ^ 6) with 64. lia. }
  unfold x. rewrite E, E2, E3. lia.
Qed.
End Two.

(** ** ULEB128 *)
Lemma uleb_groups : forall fuel v, (0 < fuel)%nat -> 0 <= v < 2 ^ (7 * Z.of_nat fuel) -> groups v (uleb fuel v).
Proof.
  induction fuel as [|fuel IH]; intros v F H; [lia|]. cbn [uleb].
  change 0x7f with (Z.ones 7). rewrite Z.land_ones by lia. change (2 ^ 7) with 128.
  destruct (Z.leb_spec 0x80 v).
  - assert (E : Z.lor (v mod 128) 0x80 = v mod 128 + 128).
    { change 0x80 with (1 * 2 ^ 7). rewrite lor_add by (change (2 ^ 7) with 128; lia). reflexivity. }
    rewrite E. rewrite Z.shiftr_div_pow2 by lia. change (2 ^ 7) with 128.
    replace v with (v mod 128 + 128 * (v / 128)) at 1 by lia.
    assert (P : 2 ^ (7 * Z.of_nat (Datatypes.S fuel)) = 128 * 2 ^ (7 * Z.of_nat fuel)).
    { replace (7 * Z.of_nat (Datatypes.S fuel)) with (7 + 7 * Z.of_nat fuel) by lia.
      rewrite Z.pow_add_r by lia. reflexivity. }
    rewrite P in H.
    destruct fuel as [|fuel]; [exfalso; change (2 ^ (7 * Z.of_nat 0)) with 1 in H; lia|].
    apply G_more; [lia|]. apply IH; [lia|]. split; [lia|]. apply Z.div_lt_upper_bound; lia.
  - rewrite Z.mod_small by lia. apply G_last. lia.
Qed.

Lemma put_uleb_ok v b : 0 <= v < 2 ^ 64 -> exists c, groups v c /\
  ((length c <= length b)%nat -> put_uleb v b = Ok (c ++ skipn (length c) b)) /\
  ((length b < length c)%nat -> put_uleb v b = UB).
Proof.
  intros H. exists (uleb 10 v). split.
  - apply uleb_groups; [lia|]. assert (2 ^ 64 <= 2 ^ (7 * Z.of_nat 10)) by (apply Z.pow_le_mono_r; lia). lia.
  - unfold put_uleb. split; intros L; destruct (Nat.ltb_spec (length b) (length (uleb 10 v))); auto; lia.
Qed.

Lemma groups_len_uniq v c : groups v c -> 0 <= v.
Proof. induction 1; lia. Qed.

Lemma read_uleb_ok v c : groups v c -> forall s r, 0 <= s -> s + 7 * (Z.of_nat (length c) - 1) < 64 ->
  read_uleb s (c ++ r) = Ok (u64 (Z.shiftl v s)).
Proof.
  induction 1 as [v Hv|v x c Hx G IH]; intros s r Hs L; cbn [app read_uleb length] in *.
  - destruct (Z.leb_spec 64 s); [lia|].
    assert (E : Z.land v 0x80 = 0).
    { apply Z.bits_inj'. intros i Hi. rewrite Z.land_spec, Z.bits_0. change 0x80 with (2 ^ 7).
      rewrite Z.pow2_bits_eqb by lia. destruct (Z.eqb_spec 7 i); [|apply andb_false_r].
      subst i. rewrite (tb_hi v 128 7 Hv) by (cbn; lia). reflexivity. }
    rewrite E. cbn [Z.eqb]. change 0x7f with (Z.ones 7). rewrite Z.land_ones by lia.
    change (2 ^ 7) with 128. rewrite Z.mod_small by lia. reflexivity.
  - assert (Lc : (0 < length c)%nat) by (inversion G; cbn; lia).
    destruct (Z.leb_spec 64 s); [lia|].
    assert (E : Z.land (x + 128) 0x80 = 128).
    { replace (x + 128) with (Z.lor x 128).
      - rewrite Z.land_lor_distr_l. change 0x80 with 128. rewrite Z.land_diag.
        assert (Z.land x 128 = 0).
        { apply Z.bits_inj'. intros i Hi. rewrite Z.land_spec, Z.bits_0. change 128 with (2 ^ 7).
          rewrite Z.pow2_bits_eqb by lia. destruct (Z.eqb_spec 7 i); [|apply andb_false_r].
          subst i. rewrite (tb_hi x 128 7 Hx) by (cbn; lia). reflexivity. }
        rewrite H0. reflexivity.
      - change 128 with (1 * 2 ^ 7). apply lor_add; [lia|exact Hx]. }
    rewrite E. cbn [Z.eqb Pos.eqb]. rewrite IH by lia. cbn [bind].
    change 0x7f with (Z.ones 7). rewrite Z.land_ones by lia. change (2 ^ 7) with 128.
    replace ((x + 128) mod 128) with x by lia.
    f_equal. unfold u64. rewrite <- !Z.land_ones by lia. rewrite <- Z.land_lor_distr_l. f_equal.
    replace (x + 128 * v) with (Z.lor x (Z.shiftl v 7)).
    + rewrite Z.shiftl_lor, Z.shiftl_shiftl by lia. rewrite (Z.add_comm 7 s). reflexivity.
    + rewrite Z.shiftl_mul_pow2 by lia. rewrite lor_add by (change (2 ^ 7) with 128; lia).
      change (2 ^ 7) with 128. lia.
Qed.

Lemma groups_pos v c : groups v c -> last c 0 <> 0 -> 0 < v.
Proof.
  induction 1 as [v H|v x c H G IH]; intros N.
  - cbn in N. lia.
  - assert (E : last (x + 128 :: c) 0 = last c 0) by (inversion G; reflexivity).
    rewrite E in N. specialize (IH N). lia.
Qed.
Lemma uleb_shortest v c : groups v c -> shortest c -> forall fuel, (length c <= fuel)%nat -> uleb fuel v = c.
Proof.
  induction 1 as [v H|v x c H G IH]; intros Sh fuel L; (destruct fuel as [|fuel]; [cbn in L; lia|]);
    cbn [uleb]; change 0x7f with (Z.ones 7); rewrite Z.land_ones by lia; change (2 ^ 7) with 128.
  - destruct (Z.leb_spec 0x80 v); [lia|]. rewrite Z.mod_small by lia. reflexivity.
  - assert (Lc : (0 < length c)%nat) by (inversion G; cbn; lia).
    assert (N : last c 0 <> 0).
    { destruct Sh as [Sh|Sh]; [cbn in Sh; lia|].
      assert (E : last (x + 128 :: c) 0 = last c 0) by (inversion G; reflexivity). congruence. }
    pose proof (groups_pos v c G N).
    destruct (Z.leb_spec 0x80 (x + 128 * v)); [|lia].
    replace ((x + 128 * v) mod 128) with x by lia.
    assert (E : Z.lor x 0x80 = x + 128).
    { change 0x80 with (1 * 2 ^ 7). rewrite lor_add by (change (2 ^ 7) with 128; lia). reflexivity. }
    rewrite E, Z.shiftr_div_pow2 by lia. change (2 ^ 7) with 128.
    replace ((x + 128 * v) / 128) with v by lia. f_equal. cbn [length] in L. apply IH; [right; exact N|lia].
Qed.
Lemma put_uleb_same v c b0 b : groups v c -> shortest c -> length c = length b0 -> (length b0 <= 10)%nat ->
  put_uleb v (b0 ++ b) = Ok (c ++ b).
Proof.
  intros G Sh L L10. unfold put_uleb. rewrite (uleb_shortest v c G Sh) by lia.
  rewrite app_length. destruct (Nat.ltb_spec (length b0 + length b) (length c)); [lia|].
  rewrite skipn_app, L, Nat.sub_diag. rewrite skipn_all2 by lia. reflexivity.
Qed.
