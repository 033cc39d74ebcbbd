(** One chunk: its summary and the search for a run inside it. *)
From Verif Require Import Base Base_lemmas Zlist.
From Verif Require Import Bitmap_spec Bitmap_proof Pages_model Pages_spec Pages_runs_proof.

Lemma le_bit l j : bytes l -> 0 <= j -> Z.testbit (le l) j = bit l j.
Proof.
  intros H. revert j. induction l as [|b l IH]; intros j Hj.
  - cbn [le]. rewrite Z.bits_0. unfold bit. now destruct (Z.to_nat (j / 8)).
  - unfold bytes in H. inversion H as [|? ? Hb Hl]; subst. unfold is_byte in Hb. cbn [le].
    destruct (Z.lt_ge_cases j 8).
    + rewrite <- (Z.mod_pow2_bits_low _ 8) by lia. change (2 ^ 8) with 256. replace ((b + 256 * le l) mod 256) with b by zdiv.
      unfold bit. replace (j / 8) with 0 by zdiv. cbn [Z.to_nat nth_error]. replace (j mod 8) with j by zdiv. reflexivity.
    + replace j with (j - 8 + 8) at 1 by lia. rewrite <- Z.div_pow2_bits by lia. change (2 ^ 8) with 256.
      replace ((b + 256 * le l) / 256) with (le l) by zdiv.
      rewrite IH by (auto; lia). unfold bit.
      replace (Z.to_nat (j / 8)) with (S (Z.to_nat ((j - 8) / 8))) by zdiv. cbn [nth_error].
      replace ((j - 8) mod 8) with (j mod 8) by zdiv. reflexivity.
Qed.

Lemma le_range l : bytes l -> 0 <= le l < 2 ^ (8 * zlen l).
Proof.
  intros H. induction l as [|b l IH]; [rewrite zlen_nil; cbn [le]; lia|].
  unfold bytes in H. inversion H as [|? ? Hb Hl]; subst. unfold is_byte in Hb. specialize (IH Hl). cbn [le]. rewrite zlen_cons.
  pose proof (zlen_nonneg l).
  replace (8 * (1 + zlen l)) with (8 + 8 * zlen l) by ring. rewrite Z.pow_add_r by lia. change (2 ^ 8) with 256. lia.
Qed.

Section Chunk.
Variable c : list Z.
Hypothesis Hlen : zlen c = 64.
Hypothesis Hbytes : bytes c.

Definition g (i : Z) : bool := negb (bit c i).

Lemma bytes_sub a b : bytes (sub_list c a b).
Proof.
  unfold bytes, sub_list in *. rewrite Forall_forall in *. intros x Hx. apply Hbytes.
  rewrite <- (firstn_skipn (Z.to_nat a) c), in_app_iff. right.
  rewrite <- (firstn_skipn (Z.to_nat (b - a)) (skipn (Z.to_nat a) c)), in_app_iff. now left.
Qed.

Lemma block_bit k j : 0 <= k < 8 -> 0 <= j < 64 -> Z.testbit (block c k) j = bit c (64 * k + j).
Proof.
  intros Hk Hj. unfold block. rewrite le_bit by (try apply bytes_sub; lia).
  rewrite !bit_znth by lia. rewrite znth_sub_list by zdiv.
  replace (8 * k + 8 - 8 * k) with 8 by lia. destruct (Z.ltb_spec (j / 8) 8); [|zdiv].
  replace (8 * k + j / 8) with ((64 * k + j) / 8) by zdiv. replace (j mod 8) with ((64 * k + j) mod 8) by zdiv. reflexivity.
Qed.

Lemma block_range k : 0 <= k < 8 -> 0 <= block c k < 2 ^ 64.
Proof.
  intros Hk. unfold block. pose proof (le_range (sub_list c (8 * k) (8 * k + 8)) (bytes_sub _ _)) as H.
  assert (E : zlen (sub_list c (8 * k) (8 * k + 8)) = 8) by (unfold sub_list; rewrite zlen_firstn, zlen_skipn; lia).
  rewrite E in H. exact H.
Qed.

Lemma block_zero k : 0 <= k < 8 -> block c k = 0 -> all_in g (64 * k) 64.
Proof.
  intros Hk E i Hi. unfold g. replace i with (64 * k + (i - 64 * k)) by lia. rewrite <- block_bit by lia. now rewrite E, Z.bits_0.
Qed.

Lemma block_ones k i : 0 <= k < 8 -> block c k = 18446744073709551615 -> 64 * k <= i < 64 * k + 64 -> g i = false.
Proof.
  intros Hk E Hi. unfold g. replace i with (64 * k + (i - 64 * k)) by lia. rewrite <- block_bit by lia. rewrite E.
  change 18446744073709551615 with (Z.ones 64). rewrite Z.ones_spec_low by lia. reflexivity.
Qed.

Lemma block_nonzero k : 0 <= k < 8 -> block c k <> 0 -> exists j, 0 <= j < 64 /\ Z.testbit (block c k) j = true.
Proof.
  intros Hk N. pose proof (block_range k Hk) as R. exists (Z.log2 (block c k)).
  assert (0 < block c k) by lia. split; [|now apply Z.bit_log2].
  split; [apply Z.log2_nonneg|]. apply Z.log2_lt_pow2; lia.
Qed.

Lemma trailing_spec n b i : (exists j, i <= j < i + Z.of_nat n /\ Z.testbit b j = true) ->
  i <= trailing n b i < i + Z.of_nat n /\ Z.testbit b (trailing n b i) = true /\ (forall j, i <= j < trailing n b i -> Z.testbit b j = false).
Proof.
  revert i. induction n as [|n IH]; intros i (j & Hj & Tj); [lia|]. cbn [trailing]. destruct (Z.testbit b i) eqn:E.
  - split; [lia|]. split; [assumption|]. intros k Hk. lia.
  - destruct (IH (i + 1)) as (R & T & F).
    { exists j. split; [|assumption]. destruct (Z.eq_dec j i) as [->|]; [congruence|lia]. }
    split; [lia|]. split; [assumption|]. intros k Hk. destruct (Z.eq_dec k i) as [->|]; [assumption|]. apply F. lia.
Qed.

Lemma leading_spec n b i : (exists j, i - Z.of_nat n < j <= i /\ Z.testbit b j = true) ->
  0 <= leading n b i < Z.of_nat n /\ Z.testbit b (i - leading n b i) = true /\ (forall j, i - leading n b i < j <= i -> Z.testbit b j = false).
Proof.
  revert i. induction n as [|n IH]; intros i (j & Hj & Tj); [lia|]. cbn [leading]. destruct (Z.testbit b i) eqn:E.
  - rewrite Z.sub_0_r. split; [lia|]. split; [assumption|]. intros k Hk. lia.
  - destruct (IH (i - 1)) as (R & T & F).
    { exists j. split; [|assumption]. destruct (Z.eq_dec j i) as [->|]; [congruence|lia]. }
    split; [lia|]. split; [now replace (i - (1 + leading n b (i - 1))) with (i - 1 - leading n b (i - 1)) by lia|].
    intros k Hk. destruct (Z.eq_dec k i) as [->|]; [assumption|]. apply F. lia.
Qed.

Lemma start_loop_spec n k : 0 <= k -> k + Z.of_nat n = 8 -> all_in g 0 (64 * k) ->
  (exists j, k <= j < 8 /\ block c j <> 0) -> lead g 0 512 (start_loop c n k).
Proof.
  revert k. induction n as [|n IH]; intros k H0 Hn HA (j & Hj & Nj); [lia|]. cbn [start_loop].
  destruct (Z.eqb_spec (block c k) 0) as [E|N]; cbn [negb].
  - apply IH; try lia.
    + replace (64 * (k + 1)) with (64 * k + 64) by ring. apply (all_in_cat g 0 (64 * k) (64 * k) 64); [assumption|apply block_zero; [lia|assumption]|lia].
    + exists j. split; [|assumption]. destruct (Z.eq_dec j k) as [->|]; [contradiction|lia].
  - destruct (block_nonzero k ltac:(lia) N) as (x & Hx & Tx).
    destruct (trailing_spec 64 (block c k) 0 ltac:(exists x; split; [lia|assumption])) as (R & T & F). fold (ctz (block c k)) in *.
    rewrite u16_small by lia. split; [lia|]. split.
    + rewrite Z.add_comm. rewrite Z.add_comm. replace (k * 64) with (64 * k) by ring.
      apply (all_in_cat g 0 (64 * k) (64 * k)); [assumption| |lia].
      intros i Hi. unfold g. replace i with (64 * k + (i - 64 * k)) by lia. rewrite <- block_bit by lia. now rewrite F by lia.
    + intros _. unfold g. replace (0 + (k * 64 + ctz (block c k))) with (64 * k + ctz (block c k)) by ring.
      rewrite <- block_bit by lia. now rewrite T.
Qed.

Lemma last_loop_spec n k : k + 1 = Z.of_nat n -> k < 8 -> all_in g (64 * (k + 1)) (512 - 64 * (k + 1)) ->
  (exists j, 0 <= j <= k /\ block c j <> 0) -> 0 <= last_loop c n k < 512 /\ trail g 0 512 (511 - last_loop c n k).
Proof.
  revert k. induction n as [|n IH]; intros k Hn H8 HA (j & Hj & Nj); [lia|]. cbn [last_loop].
  destruct (Z.eqb_spec (block c k) 0) as [E|N]; cbn [negb].
  - apply IH; try lia.
    + replace (k - 1 + 1) with k by lia. replace (512 - 64 * k) with (64 + (512 - 64 * (k + 1))) by ring.
      apply (all_in_cat g (64 * k) 64 (64 * (k + 1))); [apply block_zero; [lia|assumption]|assumption|lia].
    + exists j. split; [|assumption]. destruct (Z.eq_dec j k) as [->|]; [contradiction|lia].
  - destruct (block_nonzero k ltac:(lia) N) as (x & Hx & Tx).
    destruct (leading_spec 64 (block c k) 63 ltac:(exists x; split; [lia|assumption])) as (R & T & F). fold (clz (block c k)) in *.
    rewrite u16_small by lia. split; [lia|]. split; [lia|]. split.
    + intros i Hi. destruct (Z.lt_ge_cases i (64 * (k + 1))).
      * unfold g. replace i with (64 * k + (i - 64 * k)) by lia. rewrite <- block_bit by lia. now rewrite F by lia.
      * apply HA. lia.
    + intros _. unfold g.
      replace (0 + 512 - (511 - (k * 64 + (63 - clz (block c k)))) - 1) with (64 * k + (63 - clz (block c k))) by ring.
      rewrite <- block_bit by lia. now rewrite T.
Qed.

Lemma used_bit_testbit b j : 0 <= j -> used_bit b j = Z.testbit b j.
Proof.
  intros H. unfold used_bit. replace (Z.land (Z.shiftr b j) 1) with (Z.b2z (Z.testbit b j)).
  - now destruct (Z.testbit b j).
  - change 1 with (Z.ones 1). rewrite Z.land_ones by lia. change (2 ^ 1) with 2. rewrite <- Z.bit0_mod, Z.shiftr_spec by lia. reflexivity.
Qed.

Lemma lead_none b P : 0 < P -> (forall i, b <= i < b + P -> g i = false) -> lead g b P 0.
Proof. intros HP H. split; [lia|]. split; [intros i Hi; lia|]. intros _. apply H. lia. Qed.
Lemma trail_none b P : 0 < P -> (forall i, b <= i < b + P -> g i = false) -> trail g b P 0.
Proof. intros HP H. split; [lia|]. split; [intros i Hi; lia|]. intros _. apply H. lia. Qed.
Lemma longest_none b P : 0 < P -> (forall i, b <= i < b + P -> g i = false) -> longest g b P 0.
Proof.
  intros HP H. split; [lia|]. split; [exists b; split; [lia|]; split; [lia|intros i Hi; lia]|].
  intros a n Hn Ha Hb HA. destruct (Z.eq_dec n 0); [lia|]. pose proof (HA a ltac:(lia)). rewrite H in H0 by lia. discriminate.
Qed.
Lemma lead_all b P : 0 <= P -> all_in g b P -> lead g b P P.
Proof. intros HP H. split; [lia|]. split; [assumption|lia]. Qed.
Lemma trail_all b P : 0 <= P -> all_in g b P -> trail g b P P.
Proof. intros HP H. split; [lia|]. split; [now replace (b + P - P) with b by lia|lia]. Qed.
Lemma longest_all b P : 0 <= P -> all_in g b P -> longest g b P P.
Proof. intros HP H. split; [lia|]. split; [exists b; split; [lia|]; split; [lia|assumption]|]. intros; lia. Qed.

(** the state (max, current_free) of the max loop after x bits *)
Definition maxed (x max cur : Z) : Prop := 0 <= max /\ trail g 0 x cur /\ longest g 0 x (Z.max max cur).

Lemma maxed_used x P max cur : 0 < P -> maxed x max cur -> (forall i, x <= i < x + P -> g i = false) ->
  maxed (x + P) (if max <? cur then cur else max) 0.
Proof.
  intros HP (H0 & HT & HL) H. assert (0 <= cur) by apply HT. split; [destruct (Z.ltb_spec max cur); lia|].
  pose proof (trail_cat g 0 x P cur 0 HT (trail_none x P HP H)) as T. destruct (Z.eqb_spec 0 P); [lia|]. split; [exact T|].
  pose proof (longest_cat g 0 x P _ _ _ _ HL HT (lead_none x P HP H) (longest_none x P HP H)) as L.
  replace (Z.max (if max <? cur then cur else max) 0) with (Z.max (Z.max (Z.max max cur) 0) (cur + 0)); [exact L|].
  destruct (Z.ltb_spec max cur); lia.
Qed.

Lemma maxed_free x P max cur : 0 < P -> maxed x max cur -> all_in g x P -> maxed (x + P) max (cur + P).
Proof.
  intros HP (H0 & HT & HL) H. assert (0 <= cur) by apply HT. split; [assumption|].
  pose proof (trail_cat g 0 x P cur P HT (trail_all x P ltac:(lia) H)) as T. rewrite Z.eqb_refl in T. split; [exact T|].
  pose proof (longest_cat g 0 x P _ _ _ _ HL HT (lead_all x P ltac:(lia) H) (longest_all x P ltac:(lia) H)) as L.
  replace (Z.max max (cur + P)) with (Z.max (Z.max (Z.max max cur) P) (cur + P)) by lia. exact L.
Qed.

Lemma max_bits_spec k n : forall j max cur, 0 <= k < 8 -> 0 <= j -> j + Z.of_nat n = 64 -> maxed (64 * k + j) max cur ->
  maxed (64 * k + 64) (fst (max_bits (block c k) n j max cur)) (snd (max_bits (block c k) n j max cur)).
Proof.
  induction n as [|n IH]; intros j max cur Hk Hj Hn HM; cbn [max_bits].
  - cbn [fst snd]. replace j with 64 in HM by lia. exact HM.
  - rewrite used_bit_testbit, block_bit by lia.
    assert (B : 0 <= cur <= 64 * k + j) by apply HM.
    destruct (bit c (64 * k + j)) eqn:E.
    + apply IH; try lia. rewrite Z.add_assoc. apply (maxed_used _ 1); [lia|exact HM|]. intros i Hi.
      unfold g. replace i with (64 * k + j) by lia. now rewrite E.
    + rewrite u32_small by lia. apply IH; try lia. rewrite Z.add_assoc. apply (maxed_free _ 1); [lia|exact HM|]. intros i Hi.
      unfold g. replace i with (64 * k + j) by lia. now rewrite E.
Qed.

Lemma max_blocks_spec n : forall k max cur, 0 <= k -> k + Z.of_nat n = 8 -> maxed (64 * k) max cur ->
  maxed 512 (fst (max_blocks c n k max cur)) (snd (max_blocks c n k max cur)).
Proof.
  induction n as [|n IH]; intros k max cur Hk Hn HM; cbn [max_blocks].
  - replace 512 with (64 * k) by lia. exact HM.
  - assert (B : 0 <= cur <= 64 * k) by apply HM.
    destruct (Z.eqb_spec (block c k) 0) as [E|N].
    { rewrite u32_small by lia. apply IH; try lia. replace (64 * (k + 1)) with (64 * k + 64) by ring.
      apply maxed_free; [lia|assumption|]. apply block_zero; [lia|assumption]. }
    destruct (Z.eqb_spec (block c k) 18446744073709551615) as [E|N2].
    { apply IH; try lia. replace (64 * (k + 1)) with (64 * k + 64) by ring. apply maxed_used; [lia|assumption|].
      intros i Hi. apply (block_ones k); [lia|assumption|lia]. }
    pose proof (max_bits_spec k 64 0 max cur ltac:(lia) ltac:(lia) ltac:(lia)) as M. rewrite Z.add_0_r in M. specialize (M HM).
    destruct (max_bits (block c k) 64 0 max cur) as [m2 c2]. cbn [fst snd] in M. apply IH; try lia.
    now replace (64 * (k + 1)) with (64 * k + 64) by ring.
Qed.

Lemma combine_spec n : forall k acc, 0 <= k -> k + Z.of_nat n = 8 -> 0 <= acc ->
  (combine c n k acc = 0 <-> acc = 0 /\ forall j, k <= j < 8 -> block c j = 0).
Proof.
  induction n as [|n IH]; intros k acc Hk Hn Ha; cbn [combine].
  - split; [intros ->; split; [reflexivity|intros; lia]|tauto].
  - pose proof (block_range k ltac:(lia)) as [R _]. rewrite IH by (try lia; apply Z.lor_nonneg; lia).
    rewrite Z.lor_eq_0_iff. split.
    + intros ((E1 & E2) & H). split; [assumption|]. intros j Hj. destruct (Z.eq_dec j k) as [->|]; [assumption|]. apply H. lia.
    + intros (E & H). split; [split; [assumption|apply H; lia]|]. intros j Hj. apply H. lia.
Qed.

Lemma chunk_summarize_spec : exact g 0 512 (chunk_summarize c).
Proof.
  unfold chunk_summarize. pose proof (combine_spec 8 0 0 ltac:(lia) ltac:(lia) ltac:(lia)) as HC.
  destruct (Z.eqb_spec (combine c 8 0 0) 0) as [E|N].
  - apply HC in E. destruct E as [_ E]. assert (A : all_in g 0 512).
    { intros i Hi. apply (block_zero (i / 64)); [zdiv|apply E; zdiv|zdiv]. }
    split; [|split]; cbn [s_start s_max s_end]; [apply lead_all|apply longest_all|apply trail_all]; unfold CHUNK_BITS; auto; lia.
  - assert (Ex : exists j, 0 <= j < 8 /\ block c j <> 0).
    { destruct (Z.eq_dec (block c 0) 0); [|exists 0; split; [lia|assumption]].
      destruct (Z.eq_dec (block c 1) 0); [|exists 1; split; [lia|assumption]].
      destruct (Z.eq_dec (block c 2) 0); [|exists 2; split; [lia|assumption]].
      destruct (Z.eq_dec (block c 3) 0); [|exists 3; split; [lia|assumption]].
      destruct (Z.eq_dec (block c 4) 0); [|exists 4; split; [lia|assumption]].
      destruct (Z.eq_dec (block c 5) 0); [|exists 5; split; [lia|assumption]].
      destruct (Z.eq_dec (block c 6) 0); [|exists 6; split; [lia|assumption]].
      destruct (Z.eq_dec (block c 7) 0); [|exists 7; split; [lia|assumption]].
      exfalso. apply N. apply HC. split; [reflexivity|]. intros j Hj.
      assert (j = 0 \/ j = 1 \/ j = 2 \/ j = 3 \/ j = 4 \/ j = 5 \/ j = 6 \/ j = 7) as D by lia.
      repeat (destruct D as [->|D]; [assumption|]). now subst. }
    pose proof (start_loop_spec 8 0 ltac:(lia) ltac:(lia) ltac:(intros i Hi; lia) Ex) as S.
    destruct (last_loop_spec 8 7 ltac:(lia) ltac:(lia) ltac:(intros i Hi; lia)) as [R T].
    { destruct Ex as (j & Hj & Nj). exists j. split; [lia|assumption]. }
    pose proof (max_blocks_spec 8 0 0 0 ltac:(lia) ltac:(lia)) as M.
    assert (M0 : maxed (64 * 0) 0 0) by (split; [lia|]; split; [apply trail_zero|apply longest_zero]).
    specialize (M M0). destruct (max_blocks c 8 0 0 0) as [m cur]. cbn [fst snd] in M.
    split; [|split]; cbn [s_start s_max s_end].
    + exact S.
    + destruct M as (_ & _ & L). replace (if m <? cur then cur else m) with (Z.max m cur); [exact L|]. destruct (Z.ltb_spec m cur); lia.
    + rewrite u16_small by (unfold CHUNK_BITS; lia). exact T.
Qed.

(** ** The search inside the chunk *)
Definition scanned (count x fs fc : Z) : Prop :=
  trail g 0 x fc /\ fc < count /\ (0 < fc -> fs = x - fc) /\ exists m, longest g 0 x m /\ m < count.

Lemma scanned_used count x P fs fc : 0 < P -> 0 < count -> scanned count x fs fc -> (forall i, x <= i < x + P -> g i = false) ->
  scanned count (x + P) fs 0.
Proof.
  intros HP Hc (HT & H1 & H2 & m & HL & Hm) H.
  pose proof (trail_cat g 0 x P fc 0 HT (trail_none x P HP H)) as T. destruct (Z.eqb_spec 0 P); [lia|].
  pose proof (longest_cat g 0 x P _ _ _ _ HL HT (lead_none x P HP H) (longest_none x P HP H)) as L.
  split; [exact T|]. split; [lia|]. split; [lia|]. eexists. split; [exact L|]. lia.
Qed.

Lemma scanned_free count x P fs fc : 0 < P -> scanned count x fs fc -> all_in g x P -> fc + P < count ->
  scanned count (x + P) (if fc =? 0 then x else fs) (fc + P).
Proof.
  intros HP (HT & H1 & H2 & m & HL & Hm) H Hlt. assert (0 <= fc) by apply HT.
  pose proof (trail_cat g 0 x P fc P HT (trail_all x P ltac:(lia) H)) as T. rewrite Z.eqb_refl in T.
  pose proof (longest_cat g 0 x P _ _ _ _ HL HT (lead_all x P ltac:(lia) H) (longest_all x P ltac:(lia) H)) as L.
  split; [exact T|]. split; [lia|]. split; [intros _; destruct (Z.eqb_spec fc 0); [lia|]; specialize (H2 ltac:(lia)); lia|].
  eexists. split; [exact L|]. lia.
Qed.

Lemma scanned_hit count x P fs fc : 0 < P -> 0 < count -> scanned count x fs fc -> all_in g x P -> count <= fc + P ->
  x + P <= 512 ->
  let r := if fc =? 0 then x else fs in 0 <= r /\ r + count <= 512 /\ all_in g r count.
Proof.
  intros HP Hc ((R & A & _) & H1 & H2 & _) H Hge Hx r.
  assert (E : r = x - fc) by (subst r; destruct (Z.eqb_spec fc 0); [lia|]; specialize (H2 ltac:(lia)); lia).
  rewrite E. split; [lia|]. split; [lia|]. apply (all_in_sub g (x - fc) (fc + P)); [|lia|lia].
  apply (all_in_cat g (x - fc) fc x P); [|assumption|lia]. eapply all_in_sub; [exact A|lia|lia].
Qed.

Lemma scan_bits_spec k count n : 0 < count -> 0 <= k < 8 -> forall j fs fc, 0 <= j -> j + Z.of_nat n = 64 ->
  scanned count (64 * k + j) fs fc ->
  match scan_bits (block c k) (k * 64) count n j fs fc with
  | (Some r, _, _) => 0 <= r /\ r + count <= 512 /\ all_in g r count
  | (None, fs, fc) => scanned count (64 * k + 64) fs fc
  end.
Proof.
  intros Hc Hk. induction n as [|n IH]; intros j fs fc Hj Hn HS; cbn [scan_bits].
  - replace j with 64 in HS by lia. exact HS.
  - rewrite used_bit_testbit, block_bit by lia. destruct (bit c (64 * k + j)) eqn:E.
    + apply IH; try lia. rewrite Z.add_assoc. apply (scanned_used count _ 1 fs fc); [lia|lia|exact HS|]. intros i Hi.
      unfold g. replace i with (64 * k + j) by lia. now rewrite E.
    + assert (A1 : all_in g (64 * k + j) 1) by (intros i Hi; unfold g; replace i with (64 * k + j) by lia; now rewrite E).
      replace (k * 64 + j) with (64 * k + j) by ring.
      destruct (Z.leb_spec count (fc + 1)) as [Hit|Miss].
      * apply (scanned_hit count (64 * k + j) 1 fs fc); auto; lia.
      * apply IH; try lia. rewrite Z.add_assoc. apply (scanned_free count (64 * k + j) 1 fs fc); [lia|exact HS|exact A1|lia].
Qed.

Lemma scan_blocks_spec count n : 0 < count -> (exists a, 0 <= a /\ a + count <= 512 /\ all_in g a count) ->
  forall k fs fc, 0 <= k -> k + Z.of_nat n = 8 -> scanned count (64 * k) fs fc ->
  let r := scan_blocks c count n k fs fc in 0 <= r /\ r + count <= 512 /\ all_in g r count.
Proof.
  intros Hc (a & Ha & Hac & HA). induction n as [|n IH]; intros k fs fc Hk Hn HS; cbn [scan_blocks].
  - exfalso. destruct HS as (_ & _ & _ & m & (_ & _ & M) & Hm). replace (64 * k) with 512 in M by lia.
    pose proof (M a count ltac:(lia) ltac:(lia) ltac:(lia) HA). lia.
  - destruct (Z.eqb_spec (block c k) 0) as [E|N].
    { pose proof (block_zero k ltac:(lia) E) as AZ. replace (k * 64) with (64 * k) by ring.
      destruct (Z.leb_spec count (fc + 64)).
      - apply (scanned_hit count (64 * k) 64 fs fc); auto; lia.
      - apply IH; try lia. replace (64 * (k + 1)) with (64 * k + 64) by ring. apply scanned_free; auto; lia. }
    destruct (Z.eqb_spec (block c k) 18446744073709551615) as [E|N2].
    { apply IH; try lia. replace (64 * (k + 1)) with (64 * k + 64) by ring. apply (scanned_used count _ 64 fs fc); auto; [lia|].
      intros i Hi. apply (block_ones k); [lia|assumption|lia]. }
    pose proof (scan_bits_spec k count 64 Hc ltac:(lia) 0 fs fc ltac:(lia) ltac:(lia)) as S.
    rewrite Z.add_0_r in S. specialize (S HS).
    destruct (scan_bits (block c k) (k * 64) count 64 0 fs fc) as [[[r|] fs2] fc2]; [exact S|].
    apply IH; try lia. now replace (64 * (k + 1)) with (64 * k + 64) by ring.
Qed.

Lemma scan_spec count : 0 < count -> (exists a, 0 <= a /\ a + count <= 512 /\ all_in g a count) ->
  let r := scan_blocks c count 8 0 0 0 in 0 <= r /\ r + count <= 512 /\ all_in g r count.
Proof.
  intros Hc Ex. apply scan_blocks_spec; auto; [lia|]. split; [apply trail_zero|]. split; [lia|]. split; [lia|].
  exists 0. split; [apply longest_zero|lia].
Qed.

End Chunk.
