(** Proofs about the heap bitmap. *)
From Verif Require Import Base Base_lemmas Zlist Bitmap_model Bitmap_spec Bitmap_proof Heapbits_model Heapbits_spec.

Lemma index_eq w : 0 <= w -> ptr_bit_index w = 8 * (w / 4) + w mod 4.
Proof.
  intros H. unfold ptr_bit_index.
  replace (Z.land w 3) with (w mod 4) by (change 3 with (Z.ones 2); rewrite Z.land_ones by lia; reflexivity).
  replace (Z.land w (Z.lnot 3)) with (4 * (w / 4)).
  - rewrite Z.shiftl_mul_pow2 by lia. lia.
  - change (Z.land w (Z.lnot 3)) with (Z.ldiff w (Z.ones 2)). rewrite Z.ldiff_ones_r by lia.
    rewrite Z.shiftr_div_pow2, Z.shiftl_mul_pow2 by lia. change (2 ^ 2) with 4. lia.
Qed.

Lemma index_mono w v : 0 <= w -> 0 <= v -> (ptr_bit_index w <? ptr_bit_index v) = (w <? v).
Proof. intros H1 H2. rewrite !index_eq by lia. zdiv. Qed.

Lemma index_mono_le w v : 0 <= w -> 0 <= v -> (ptr_bit_index w <=? ptr_bit_index v) = (w <=? v).
Proof. intros H1 H2. rewrite !index_eq by lia. zdiv. Qed.

Lemma index_inj w v : 0 <= w -> 0 <= v -> (ptr_bit_index w =? ptr_bit_index v) = (w =? v).
Proof. intros H1 H2. rewrite !index_eq by lia. zdiv. Qed.

Lemma shr3 x : Z.shiftr x 3 = x / 8.
Proof. rewrite Z.shiftr_div_pow2 by lia. reflexivity. Qed.

Section S.
Variable asz : Z.
Hypothesis HA : arena_size asz.

(** the word number of a in its arena *)
Definition wno (a : Z) := (a mod asz) / 8.

Lemma wno_range a : 0 <= wno a < asz / 8.
Proof.
  destruct HA as (P & D). pose proof (Z.mod_pos_bound a asz P). unfold wno. split; [zdiv|].
  apply Z.div_lt_upper_bound; [lia|]. clear - D H. zdiv.
Qed.

Lemma says_eq h a : says_pointer asz h a =
  match h (a / asz) with Some bits => bit bits (ptr_bit_index (wno a)) | None => false end.
Proof. unfold says_pointer. fold (wno a). rewrite index_eq by apply wno_range. reflexivity. Qed.

Lemma wno_base a i : a / asz = i -> wno a = (a - i * asz) / 8.
Proof. intros <-. destruct HA. unfold wno. rewrite Z.mod_eq by lia. now rewrite (Z.mul_comm asz). Qed.

Definition good (bits : list Z) := bytes bits /\ zlen bits = asz / 32.

(** h' has the same arenas as h *)
Definition same_shape (h h' : heap) := forall i,
  match h i with Some b => good b -> exists b', h' i = Some b' /\ good b' | None => h' i = None end.

Lemma same_shape_refl h : same_shape h h.
Proof. intros i. destruct (h i) eqn:E; eauto. Qed.

Lemma same_shape_good h h' i b : same_shape h h' -> h i = Some b -> good b -> exists b', h' i = Some b' /\ good b'.
Proof. intros S E G. specialize (S i). rewrite E in S. auto. Qed.

Lemma mapped_shape h h' addr size : same_shape h h' -> mapped asz h addr size -> mapped asz h' addr size.
Proof.
  intros S M i Hi. destruct (M i Hi) as (b & E & G1 & G2).
  destruct (same_shape_good _ _ _ _ S E) as (b' & E' & G'); [split; assumption|]. destruct G'. eauto.
Qed.

Lemma shape_put h i b b' : h i = Some b -> good b' -> same_shape h (put h i b').
Proof.
  intros E G j. unfold put. destruct (Z.eqb_spec j i) as [E1|N].
  - subst. rewrite E. eauto.
  - destruct (h j) eqn:Ej; eauto.
Qed.

Lemma says_put h i b b' (P : Z -> bool) v a : h i = Some b -> updated P v b b' ->
  says_pointer asz (put h i b') a =
  if (a / asz =? i) && P (ptr_bit_index (wno a)) then v else says_pointer asz h a.
Proof.
  intros E (_ & _ & U). rewrite !says_eq. unfold put. destruct (Z.eqb_spec (a / asz) i) as [E1|N]; cbn [andb].
  - rewrite E1, E. rewrite U; [reflexivity|]. pose proof (wno_range a). rewrite index_eq by lia. zdiv.
  - reflexivity.
Qed.

Lemma same_shape_trans h1 h2 h3 : same_shape h1 h2 -> same_shape h2 h3 -> same_shape h1 h3.
Proof.
  intros A B i. specialize (A i). specialize (B i). destruct (h1 i) as [b|].
  - intros G. destruct (A G) as (b2 & E2 & G2). rewrite E2 in B. auto.
  - now rewrite A in B.
Qed.

Lemma asz_pos : 0 < asz. Proof. apply HA. Qed.

Lemma div_range a i : a / asz = i <-> i * asz <= a < i * asz + asz.
Proof.
  pose proof asz_pos. split.
  - intros <-. pose proof (Z.mul_div_le a asz H). pose proof (Z.mul_succ_div_gt a asz H). lia.
  - intros R. symmetry. apply (Z.div_unique a asz i (a - i * asz)); lia.
Qed.

Lemma base8 i : (i * asz) mod 8 = 0.
Proof. destruct HA as (_ & D). replace asz with (8 * (4 * (asz / 32))) by (clear - D; zdiv).
  rewrite Z.mul_comm, <- Z.mul_assoc, Z.mul_comm. apply Z.mod_mul. lia. Qed.

Lemma batch_loop_spec c fuel : forall h start stop,
  word start -> stop mod 8 = 0 -> start <= stop -> stop - start <= Z.of_nat fuel ->
  (start < stop -> mapped asz h start (stop - start)) ->
  exists h', batch_loop fuel asz h start stop c = Ok h' /\ same_shape h h' /\
    forall a, word a -> says_pointer asz h' a = if (start <=? a) && (a <? stop) then negb c else says_pointer asz h a.
Proof.
  pose proof asz_pos as AP.
  induction fuel as [|fuel IH]; intros h start stop Hs He Hle Hf HM; cbn [batch_loop];
    destruct (Z.ltb_spec start stop) as [L|L]; try lia.
  - exists h. split; [reflexivity|]. split; [apply same_shape_refl|]. intros a Ha.
    destruct (Z.leb_spec start a), (Z.ltb_spec a stop); cbn [andb]; try reflexivity; lia.
  - set (i := arena_index asz start) in *. unfold arena_index in i.
    destruct (HM L i) as (bits & E & Gb & Gl).
    { subst i. split; [lia|]. apply Z.div_le_mono; lia. }
    rewrite E. set (base := arena_base asz i). unfold arena_base in base.
    pose proof (proj1 (div_range start i) eq_refl) as R. pose proof (base8 i) as B8. fold base in R, B8.
    set (te := if base + asz <? stop then base + asz else stop).
    assert (T : start < te /\ te <= stop /\ te <= base + asz /\ te mod 8 = 0 /\ (te < stop -> te = base + asz)).
    { destruct HA as (_ & D). subst te. destruct (Z.ltb_spec (base + asz) stop); repeat split; try lia; clear - D B8; zdiv. }
    destruct T as (T1 & T2 & T3 & T4 & T5). clearbody te.
    rewrite !shr3. set (ws := (start - base) / 8). set (we := (te - base) / 8).
    destruct Hs as (Hs1 & Hs2).
    assert (W : 0 <= ws /\ ws < we /\ we <= asz / 8).
    { destruct HA as (_ & D). subst ws we. clearbody base. clear - R B8 T1 T2 T3 T4 Hs2 D. zdiv. }
    destruct W as (W1 & W2 & W3).
    pose proof (index_mono ws we W1 ltac:(lia)) as IM.
    assert (IC : ptr_bit_index we <= capacity bits).
    { unfold capacity. rewrite Gl. rewrite index_eq by lia. destruct HA as (_ & D). clear - W1 W2 W3 D. zdiv. }
    assert (I0 : 0 <= ptr_bit_index ws) by (rewrite index_eq by lia; zdiv).
    destruct (batch_spec (negb c) bits (ptr_bit_index ws) (ptr_bit_index we - ptr_bit_index ws)) as (b' & Eb & U);
      [assumption|assumption|lia|lia|].
    assert (Eb' : (if c then bitmap_batch_clear bits (ptr_bit_index ws) (ptr_bit_index we - ptr_bit_index ws)
                   else bitmap_batch_set bits (ptr_bit_index ws) (ptr_bit_index we - ptr_bit_index ws)) = Ok b').
    { rewrite <- Eb. destruct c; reflexivity. }
    rewrite Eb'. cbn [bind].
    pose proof U as (U1 & U2 & _).
    assert (SH : same_shape h (put h i b')).
    { eapply shape_put; [exact E|]. split; [assumption|]. lia. }
    destruct (IH (put h i b') te stop) as (h' & E' & S' & P').
    { split; [lia|assumption]. }
    { assumption. }
    { assumption. }
    { lia. }
    { intros L2. apply (mapped_shape _ _ _ _ SH). intros j Hj. apply HM; [assumption|].
      replace (start + (stop - start) - 1) with (te + (stop - te) - 1) by lia. split; [|lia].
      transitivity (te / asz); [|lia]. apply Z.div_le_mono; lia. }
    exists h'. split; [exact E'|]. split; [eapply same_shape_trans; eassumption|].
    intros a Ha. rewrite P' by assumption. rewrite (says_put h i bits b' _ _ a E U). cbn beta.
    destruct (Z.leb_spec te a) as [La|La].
    + (* later arenas *)
      destruct (Z.ltb_spec a stop) as [Lb|Lb]; cbn [andb].
      * destruct (Z.leb_spec start a); [reflexivity|lia].
      * rewrite andb_false_r. destruct (Z.eqb_spec (a / asz) i) as [E1|N]; cbn [andb]; [|reflexivity].
        assert (te = stop) by (destruct (Z.ltb_spec te stop) as [Q|Q]; [|lia]; apply T5 in Q; apply div_range in E1; fold base in E1; lia).
        pose proof (wno_base a i E1) as Ew. fold base in Ew. pose proof (wno_range a).
        replace (ptr_bit_index ws + (ptr_bit_index we - ptr_bit_index ws)) with (ptr_bit_index we) by lia.
        rewrite (index_mono (wno a) we) by lia.
        destruct (Z.ltb_spec (wno a) we) as [Q|Q]; [|now rewrite andb_false_r].
        exfalso. rewrite Ew in Q. subst we. destruct Ha as (_ & Ha). clearbody base. clear - Q La Ha T4 B8. zdiv.
    + cbn [andb]. destruct (Z.ltb_spec a stop) as [Lb|Lb]; [|lia]. rewrite andb_true_r.
      destruct (Z.eqb_spec (a / asz) i) as [E1|N]; cbn [andb].
      * pose proof (wno_base a i E1) as Ew. fold base in Ew. pose proof (wno_range a).
        replace (ptr_bit_index ws + (ptr_bit_index we - ptr_bit_index ws)) with (ptr_bit_index we) by lia.
        rewrite (index_mono (wno a) we), (index_mono_le ws (wno a)) by lia.
        replace (wno a <? we) with true.
        2:{ symmetry. apply Z.ltb_lt. rewrite Ew. subst we. destruct Ha as (_ & Ha). clearbody base. clear - La Ha T4 B8. zdiv. }
        rewrite andb_true_r.
        replace (ws <=? wno a) with (start <=? a); [reflexivity|].
        rewrite Ew. subst ws. destruct Ha as (_ & Ha). clearbody base. clear - Ha Hs2 B8.
        destruct (Z.leb_spec start a), (Z.leb_spec ((start - base) / 8) ((a - base) / 8)); try reflexivity; exfalso; zdiv.
      * destruct (Z.leb_spec start a) as [Q|Q]; [|reflexivity]. exfalso. apply N. apply div_range. fold base. lia.
  - exists h. split; [reflexivity|]. split; [apply same_shape_refl|]. intros a Ha.
    destruct (Z.leb_spec start a), (Z.ltb_spec a stop); cbn [andb]; try reflexivity; lia.
Qed.

Lemma batch_handle_spec c h start stop : word start -> stop mod 8 = 0 -> start <= stop ->
  (start < stop -> mapped asz h start (stop - start)) ->
  exists h', batch_handle asz h start stop c = Ok h' /\ same_shape h h' /\
    forall a, word a -> says_pointer asz h' a = if (start <=? a) && (a <? stop) then negb c else says_pointer asz h a.
Proof. intros. unfold batch_handle. apply batch_loop_spec; try assumption. lia. Qed.

Lemma word_loop_spec m n : forall h addr k,
  bytes m -> word addr -> 0 <= k -> k + Z.of_nat n <= capacity m ->
  ((0 < n)%nat -> mapped asz h addr (8 * Z.of_nat n)) ->
  exists h', word_loop n asz h addr k m = Ok h' /\ same_shape h h' /\
    forall a, word a -> says_pointer asz h' a =
      if (addr <=? a) && (a <? addr + 8 * Z.of_nat n) then bit m (k + (a - addr) / 8) else says_pointer asz h a.
Proof.
  pose proof asz_pos as AP.
  induction n as [|n IH]; intros h addr k Bm Ha Hk Hc HM; cbn [word_loop].
  - exists h. split; [reflexivity|]. split; [apply same_shape_refl|]. intros a _.
    destruct (Z.leb_spec addr a), (Z.ltb_spec a (addr + 8 * Z.of_nat 0)); cbn [andb]; try reflexivity; lia.
  - set (i := arena_index asz addr). unfold arena_index in i.
    destruct (HM ltac:(lia) i) as (bits & E & Gb & Gl).
    { subst i. split; [lia|]. apply Z.div_le_mono; lia. }
    rewrite E. rewrite test_spec by lia. cbn [bind].
    unfold arena_bits_index. rewrite shr3. unfold arena_base.
    rewrite <- (wno_base addr i eq_refl).
    pose proof (wno_range addr) as WR.
    assert (IR : 0 <= ptr_bit_index (wno addr) < capacity bits).
    { unfold capacity. rewrite Gl, index_eq by lia. destruct HA as (_ & D). clear - WR D. generalize dependent (wno addr). intros w WR. zdiv. }
    assert (exists b', (if bit m k then bitmap_set bits (ptr_bit_index (wno addr)) else bitmap_clear bits (ptr_bit_index (wno addr))) = Ok b' /\
      updated (fun j => j =? ptr_bit_index (wno addr)) (bit m k) bits b') as (b' & Eb & U).
    { destruct (bit m k); [apply set_spec|apply clear_spec]; assumption. }
    rewrite Eb. cbn [bind]. pose proof U as (U1 & U2 & _).
    assert (SH : same_shape h (put h i b')).
    { eapply shape_put; [exact E|]. split; [assumption|]. lia. }
    destruct Ha as (Ha1 & Ha2).
    destruct (IH (put h i b') (addr + 8) (k + 1)) as (h' & E' & S' & P').
    { assumption. }
    { split; [lia|]. clear - Ha2. zdiv. }
    { lia. }
    { lia. }
    { intros Hn. apply (mapped_shape _ _ _ _ SH). intros j Hj. apply HM; [lia|].
      split; [transitivity ((addr + 8) / asz); [apply Z.div_le_mono; lia|lia]|].
      replace (addr + 8 * Z.of_nat (S n) - 1) with (addr + 8 + 8 * Z.of_nat n - 1) by lia. lia. }
    exists h'. split; [exact E'|]. split; [eapply same_shape_trans; eassumption|].
    intros a Wa. rewrite P' by assumption. rewrite (says_put h i bits b' _ _ a E U).
    assert (EQ : (a / asz =? i) && (ptr_bit_index (wno a) =? ptr_bit_index (wno addr)) = (a =? addr)).
    { pose proof (wno_range a). rewrite index_inj by lia. destruct (Z.eqb_spec a addr) as [Q|Q].
      - subst a. fold i. rewrite !Z.eqb_refl. reflexivity.
      - destruct (Z.eqb_spec (a / asz) i) as [E1|N]; [|reflexivity]. cbn [andb]. apply Z.eqb_neq. intros W.
        rewrite (wno_base a i E1), (wno_base addr i eq_refl) in W. pose proof (base8 i) as B8. destruct Wa as (_ & Wa).
        generalize dependent (i * asz). intros b W B8. clear - Wa Ha2 Q W B8. zdiv. }
    rewrite EQ. destruct (Z.eqb_spec a addr) as [Q|Q].
    + subst a. destruct (Z.leb_spec (addr + 8) addr); [lia|]. cbn [andb].
      destruct (Z.leb_spec addr addr); [|lia]. destruct (Z.ltb_spec addr (addr + 8 * Z.of_nat (S n))); [|lia]. cbn [andb].
      f_equal. replace (addr - addr) with 0 by lia. rewrite Z.div_0_l; lia.
    + destruct Wa as (_ & Wa).
      replace (addr + 8 <=? a) with (addr <=? a).
      2:{ destruct (Z.leb_spec addr a), (Z.leb_spec (addr + 8) a); try reflexivity; exfalso; clear - Wa Ha2 Q H H0; zdiv. }
      replace (addr + 8 + 8 * Z.of_nat n) with (addr + 8 * Z.of_nat (S n)) by lia.
      destruct ((addr <=? a) && (a <? addr + 8 * Z.of_nat (S n))); [|reflexivity].
      f_equal. replace (a - addr) with (a - (addr + 8) + 1 * 8) by lia. rewrite Z.div_add by lia. lia.
Qed.

(** what a type says about word k of an object *)
Definition type_says (t : rtype) (k : Z) : bool := if is_arr t && inline_bits t then true else bit (mask t) k.

Lemma set_bits_spec h addr size t : fits addr size t -> mapped asz h addr size ->
  (is_arr t && inline_bits t = true /\ 0 < last_ptr t \/ has_mask size t) ->
  exists h', heap_arena_bits_set asz h addr size t = Ok h' /\ same_shape h h' /\
    forall a, word a -> says_pointer asz h' a =
      if (addr <=? a) && (a <? addr + size) then type_says t ((a - addr) / 8) else says_pointer asz h a.
Proof.
  intros ((Fa & Fb) & F2 & F3) M T. unfold heap_arena_bits_set, type_says.
  assert (LP : 0 <? last_ptr t = true) by (destruct T as [(_ & T)|(_ & T & _)]; apply Z.ltb_lt; lia).
  rewrite LP. cbn [negb]. rewrite andb_true_r.
  assert (A8 : (addr + size) mod 8 = 0) by (clear - Fb F3; zdiv).
  destruct T as [(T & _)|(T & TL & T8 & TB & TC & TZ)]; rewrite T.
  - destruct (batch_handle_spec false h addr (addr + size)) as (h' & E & S & P); [split; lia|assumption|lia| |].
    + intros _. replace (addr + size - addr) with size by lia. exact M.
    + exists h'. split; [exact E|]. split; [exact S|]. intros a Wa. rewrite P by assumption. reflexivity.
  - destruct (batch_handle_spec true h (addr + last_ptr t) (addr + size)) as (h1 & E1 & S1 & P1).
    + split; [lia|]. clear - Fb T8. zdiv.
    + assumption.
    + lia.
    + intros L i Hi. apply M. split; [transitivity ((addr + last_ptr t) / asz); [apply Z.div_le_mono; [apply asz_pos|lia]|lia]|].
      replace (addr + size - 1) with (addr + last_ptr t + (addr + size - (addr + last_ptr t)) - 1) by lia. lia.
    + rewrite E1. cbn [bind].
      assert (TN : Z.of_nat (turns (last_ptr t)) = last_ptr t / 8 /\ 8 * (last_ptr t / 8) = last_ptr t).
      { unfold turns. split; [|clear - T8; zdiv]. rewrite Z2Nat.id by (clear - TL; zdiv). clear - T8. zdiv. }
      destruct TN as (TN & TN8).
      destruct (word_loop_spec (mask t) (turns (last_ptr t)) h1 addr 0) as (h2 & E2 & S2 & P2).
      { assumption. } { split; lia. } { lia. } { lia. }
      { intros _. apply (mapped_shape _ _ _ _ S1). rewrite TN, TN8. intros i Hi. apply M. split; [lia|].
        transitivity ((addr + last_ptr t - 1) / asz); [lia|]. apply Z.div_le_mono; [apply asz_pos|lia]. }
      exists h2. split; [exact E2|]. split; [eapply same_shape_trans; eassumption|].
      intros a Wa. rewrite P2 by assumption. rewrite P1 by assumption. rewrite TN, TN8, Z.add_0_l. cbn [negb].
      destruct (Z.leb_spec addr a) as [L1|L1]; cbn [andb].
      * destruct (Z.ltb_spec a (addr + last_ptr t)) as [L2|L2].
        -- destruct (Z.ltb_spec a (addr + size)); [reflexivity|lia].
        -- destruct (Z.leb_spec (addr + last_ptr t) a) as [_|]; [|lia]. cbn [andb].
           destruct (Z.ltb_spec a (addr + size)); [|reflexivity]. rewrite TZ; [reflexivity|].
           destruct Wa as (_ & Wa). clear - L2 T8 Fb Wa. zdiv.
      * destruct (Z.leb_spec (addr + last_ptr t) a); [lia|]. reflexivity.
Qed.

(** ** reading *)
Lemma scan_loop_spec h n : forall addr temp, word addr -> word temp -> addr <= temp ->
  (exists b, h (addr / asz) = Some b /\ good b) ->
  (temp + 8 * Z.of_nat n - 1) / asz <= addr / asz ->
  exists l, scan_loop n asz h addr temp = Ok l /\
    forall a, In a l <-> word a /\ temp <= a < temp + 8 * Z.of_nat n /\ says_pointer asz h a = true.
Proof.
  pose proof asz_pos as AP.
  induction n as [|n IH]; intros addr temp Wa Wt Hle (b & E & G) HB; cbn [scan_loop].
  - exists []. split; [reflexivity|]. intros a. split; [intros []|]. lia.
  - unfold arena_index. rewrite E.
    assert (TI : temp / asz = addr / asz).
    { apply Z.le_antisymm.
      - transitivity ((temp + 8 * Z.of_nat (S n) - 1) / asz); [apply Z.div_le_mono; lia|assumption].
      - apply Z.div_le_mono; lia. }
    unfold arena_bits_index. rewrite shr3. unfold arena_base. rewrite <- (wno_base temp _ TI).
    pose proof (wno_range temp) as WR. destruct G as (G1 & G2).
    rewrite test_spec.
    2:{ unfold capacity. rewrite G2, index_eq by lia. destruct HA as (_ & D). clear - WR D. generalize dependent (wno temp). intros w WR. zdiv. }
    cbn [bind].
    destruct Wt as (Wt1 & Wt2).
    destruct (IH addr (temp + 8)) as (l & El & Hl).
    { assumption. } { split; [lia|]. clear - Wt2. zdiv. } { lia. } { exists b. split; [assumption|split; assumption]. }
    { replace (temp + 8 + 8 * Z.of_nat n - 1) with (temp + 8 * Z.of_nat (S n) - 1) by lia. assumption. }
    rewrite El. cbn [bind].
    assert (SE : says_pointer asz h temp = bit b (ptr_bit_index (wno temp))) by (rewrite says_eq, TI, E; reflexivity).
    assert (K : forall a, word a -> (temp <= a < temp + 8 * Z.of_nat (S n) <-> a = temp \/ temp + 8 <= a < temp + 8 + 8 * Z.of_nat n)).
    { intros a (_ & A8). split; [|lia]. intros R. destruct (Z.eq_dec a temp); [now left|right].
      split; [|lia]. clear - A8 Wt2 n0 R. zdiv. }
    eexists. split; [reflexivity|]. intros a. destruct (bit b (ptr_bit_index (wno temp))) eqn:Eb; cbn [In].
    + split.
      * intros [<-|I]; [split; [split; assumption|split; [lia|congruence]]|]. apply Hl in I as (I1 & I2 & I3). split; [assumption|].
        split; [|assumption]. apply K; auto.
      * intros (I1 & I2 & I3). apply K in I2; [|assumption]. destruct I2 as [->|I2]; [now left|right]. apply Hl. auto.
    + split.
      * intros I. apply Hl in I as (I1 & I2 & I3). split; [assumption|]. split; [|assumption]. apply K; auto.
      * intros (I1 & I2 & I3). apply K in I2; [|assumption]. destruct I2 as [->|I2]; [congruence|]. apply Hl. auto.
Qed.

Lemma scan_spec h addr size : fits addr size (rtype_array 0) -> mapped asz h addr size ->
  addr / asz = (addr + size - 1) / asz ->
  exists l, scan asz h addr size = Ok l /\
    forall a, In a l <-> word_of addr size a /\ says_pointer asz h a = true.
Proof.
  intros (F1 & F2 & F3) M One.
  assert (TN : 8 * Z.of_nat (turns size) = size).
  { unfold turns. rewrite Z2Nat.id by (clear - F2; zdiv). clear - F3. zdiv. }
  destruct (scan_loop_spec h (turns size) addr addr) as (l & E & H).
  - assumption.
  - assumption.
  - lia.
  - destruct (M (addr / asz)) as (b & Eb & G); [split; [lia|rewrite One; lia]|]. exists b. split; [assumption|exact G].
  - rewrite TN. lia.
  - exists l. split; [exact E|]. intros a. rewrite H, TN. unfold word_of. tauto.
Qed.

(** ** histories *)
Definition ok_alloc (h : heap) (o : Z * Z * rtype) : Prop :=
  let '(addr, size, t) := o in
  fits addr size t /\ mapped asz h addr size /\
  (last_ptr t <= 0 \/ is_arr t && inline_bits t = true \/ has_mask size t).

Lemma ok_alloc_shape h h' o : same_shape h h' -> ok_alloc h o -> ok_alloc h' o.
Proof. destruct o as ((addr & size) & t). intros S (A & B & C). split; [assumption|]. split; [|assumption]. eapply mapped_shape; eassumption. Qed.

Lemma malloc_bits_spec h addr size t : ok_alloc h (addr, size, t) ->
  exists h', malloc_bits asz h addr size t = Ok h' /\ same_shape h h' /\
    forall a, word a -> says_pointer asz h' a =
      if (0 <? last_ptr t) && (addr <=? a) && (a <? addr + size) then type_says t ((a - addr) / 8) else says_pointer asz h a.
Proof.
  intros (F & M & T). unfold malloc_bits. destruct (Z.ltb_spec 0 (last_ptr t)) as [L|L]; cbn [andb].
  - apply set_bits_spec; [assumption|assumption|]. destruct T as [T|[T|T]]; [lia|left; auto|right; auto].
  - exists h. split; [reflexivity|]. split; [apply same_shape_refl|]. reflexivity.
Qed.

Lemma mallocs_spec l : forall h, Forall (ok_alloc h) l ->
  exists h', mallocs asz h l = Ok h' /\ same_shape h h' /\
    forall a, word a -> (forall addr size t, In (addr, size, t) l -> ~ (addr <= a < addr + size)) ->
      says_pointer asz h' a = says_pointer asz h a.
Proof.
  induction l as [|((addr & size) & t) l IH]; intros h F; cbn [mallocs].
  - exists h. split; [reflexivity|]. split; [apply same_shape_refl|]. reflexivity.
  - inversion F as [|? ? F1 F2]; subst. destruct (malloc_bits_spec h addr size t F1) as (h1 & E1 & S1 & P1).
    rewrite E1. cbn [bind]. destruct (IH h1) as (h2 & E2 & S2 & P2).
    { eapply Forall_impl; [|exact F2]. intros o. apply ok_alloc_shape; assumption. }
    exists h2. split; [exact E2|]. split; [eapply same_shape_trans; eassumption|].
    intros a Wa D. rewrite P2; [|assumption|intros; apply (D _ _ t0); now right]. rewrite P1 by assumption.
    assert (~ (addr <= a < addr + size)) by (apply (D _ _ t); now left).
    destruct (Z.leb_spec addr a), (Z.ltb_spec a (addr + size)); rewrite ?andb_false_r; cbn [andb]; try reflexivity; lia.
Qed.

Lemma mallocs_app l1 : forall h l2, mallocs asz h (l1 ++ l2) = (h <- mallocs asz h l1 ;; mallocs asz h l2).
Proof.
  induction l1 as [|((addr & size) & t) l1 IH]; intros h l2; cbn [app mallocs bind]; [reflexivity|].
  destruct (malloc_bits asz h addr size t); cbn [bind]; auto.
Qed.

Lemma history h l1 l2 addr size t : Forall (ok_alloc h) (l1 ++ (addr, size, t) :: l2) -> 0 < last_ptr t ->
  (forall addr' size' t', In (addr', size', t') l2 -> addr' + size' <= addr \/ addr + size <= addr') ->
  exists h', mallocs asz h (l1 ++ (addr, size, t) :: l2) = Ok h' /\ same_shape h h' /\
    forall a, word_of addr size a -> says_pointer asz h' a = type_says t ((a - addr) / 8).
Proof.
  intros F L D. apply Forall_app in F as (F1 & F2). inversion F2 as [|? ? F3 F4]; subst.
  rewrite mallocs_app. destruct (mallocs_spec l1 h F1) as (h1 & E1 & S1 & _). rewrite E1. cbn [bind mallocs].
  destruct (malloc_bits_spec h1 addr size t) as (h2 & E2 & S2 & P2); [eapply ok_alloc_shape; eassumption|].
  rewrite E2. cbn [bind].
  assert (S12 : same_shape h h2) by (eapply same_shape_trans; eassumption).
  destruct (mallocs_spec l2 h2) as (h3 & E3 & S3 & P3).
  { eapply Forall_impl; [|exact F4]. intros o. apply ok_alloc_shape; assumption. }
  exists h3. split; [exact E3|]. split; [eapply same_shape_trans; eassumption|].
  intros a (Wa & Ra). rewrite P3; [|assumption|intros a' s' t' I; apply D in I; lia].
  rewrite P2 by assumption. destruct (Z.ltb_spec 0 (last_ptr t)); [|lia].
  destruct (Z.leb_spec addr a); [|lia]. destruct (Z.ltb_spec a (addr + size)); [|lia]. reflexivity.
Qed.
End S.

Section Crossing.
Variable asz : Z.
Hypothesis HA : arena_size asz.

Lemma scan_loop_crossing h n : forall addr temp, word addr -> word temp -> addr <= temp ->
  temp <= (addr / asz) * asz + asz ->
  (exists b, h (addr / asz) = Some b /\ good asz b) ->
  (addr / asz) * asz + asz < temp + 8 * Z.of_nat n ->
  scan_loop n asz h addr temp = UB.
Proof.
  pose proof (asz_pos asz HA) as AP.
  induction n as [|n IH]; intros addr temp Wa Wt Hle Hb (b & E & G) HB; cbn [scan_loop]; [lia|].
  unfold arena_index. rewrite E. set (i := addr / asz) in *. unfold arena_bits_index, arena_base. rewrite shr3.
  destruct Wt as (Wt1 & Wt2). pose proof (base8 asz HA i) as B8. destruct G as (G1 & G2). destruct HA as (_ & D).
  pose proof (proj1 (div_range asz HA addr i) eq_refl) as R.
  remember (i * asz) as base eqn:EB.
  assert (W0 : 0 <= (temp - base) / 8) by (clear - R Hle; zdiv).
  destruct (Z.ltb_spec temp (base + asz)) as [L|L].
  - rewrite test_spec.
    2:{ unfold capacity. rewrite G2, index_eq by assumption. clear - W0 L D B8 Wt2. set (w := (temp - base) / 8) in *.
        assert (w < asz / 8) by (subst w; zdiv). clearbody w. zdiv. }
    cbn [bind]. rewrite IH; [reflexivity|assumption|split; [lia|clear - Wt2; zdiv]|lia| |exists b; split; [exact E|split; assumption]|].
    + fold i. rewrite <- EB. clear - L Wt2 B8 D. zdiv.
    + fold i. rewrite <- EB. lia.
  - unfold bitmap_test.
    replace (rd b (ptr_bit_index ((temp - base) / 8) / 8)) with (@UB Z); [reflexivity|].
    symmetry. unfold rd. rewrite (znth_None b); [reflexivity|]. rewrite G2, index_eq by assumption.
    clear - L D B8 Wt2. set (w := (temp - base) / 8).
    assert (asz / 8 <= w) by (subst w; zdiv). clearbody w. zdiv.
Qed.

Lemma scan_crossing h addr size : fits addr size (rtype_array 0) -> mapped asz h addr size ->
  addr / asz < (addr + size - 1) / asz -> scan asz h addr size = UB.
Proof.
  intros (F1 & F2 & F3) M C. pose proof (asz_pos asz HA) as AP.
  assert (TN : 8 * Z.of_nat (turns size) = size).
  { unfold turns. rewrite Z2Nat.id by (clear - F2; zdiv). clear - F3. zdiv. }
  pose proof (proj1 (div_range asz HA addr _) eq_refl) as R.
  apply scan_loop_crossing; try assumption; try lia.
  - destruct (M (addr / asz)) as (b & Eb & G); [lia|]. exists b. split; [assumption|exact G].
  - rewrite TN. pose proof (proj1 (div_range asz HA (addr + size - 1) _) eq_refl) as R2.
    assert ((addr / asz + 1) * asz <= (addr + size - 1) / asz * asz) by (apply Z.mul_le_mono_nonneg_r; lia). lia.
Qed.
End Crossing.
