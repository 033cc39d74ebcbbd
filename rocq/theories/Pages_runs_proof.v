(** Runs of free pages: concatenation, merging and searching of summaries. *)
From Verif Require Import Base Base_lemmas Zlist.
From Verif Require Import Pages_model Pages_spec.

Lemma u32_small x : 0 <= x < 4294967296 -> u32 x = x.
Proof. intros H. unfold u32. now apply Z.mod_small. Qed.
Lemma u16_small x : 0 <= x < 65536 -> u16 x = x.
Proof. intros H. unfold u16. now apply Z.mod_small. Qed.

Section Runs.
Variable f : Z -> bool.

Lemma all_in_sub a n a' n' : all_in f a n -> a <= a' -> a' + n' <= a + n -> all_in f a' n'.
Proof. intros H H1 H2 i Hi. apply H. lia. Qed.

Lemma all_in_cat a n b m : all_in f a n -> all_in f b m -> b = a + n -> all_in f a (n + m).
Proof. intros H1 H2 -> i Hi. destruct (Z.lt_ge_cases i (a + n)); [apply H1; lia|apply H2; lia]. Qed.

Lemma lead_unique b P s t : lead f b P s -> lead f b P t -> s = t.
Proof.
  intros (R1 & A1 & F1) (R2 & A2 & F2). destruct (Z.lt_trichotomy s t) as [L|[E|L]]; [|assumption|].
  - assert (f (b + s) = true) by (apply A2; lia). rewrite F1 in H by lia. discriminate.
  - assert (f (b + t) = true) by (apply A1; lia). rewrite F2 in H by lia. discriminate.
Qed.

Lemma trail_unique b P s t : trail f b P s -> trail f b P t -> s = t.
Proof.
  intros (R1 & A1 & F1) (R2 & A2 & F2). destruct (Z.lt_trichotomy s t) as [L|[E|L]]; [|assumption|].
  - assert (f (b + P - s - 1) = true) by (apply A2; lia). rewrite F1 in H by lia. discriminate.
  - assert (f (b + P - t - 1) = true) by (apply A1; lia). rewrite F2 in H by lia. discriminate.
Qed.

Lemma lead_zero b : lead f b 0 0.
Proof. split; [lia|]. split; [intros i Hi; lia|lia]. Qed.
Lemma trail_zero b : trail f b 0 0.
Proof. split; [lia|]. split; [intros i Hi; lia|lia]. Qed.
Lemma longest_zero b : longest f b 0 0.
Proof. split; [lia|]. split; [exists b; split; [lia|]; split; [lia|intros i Hi; lia]|]. intros; lia. Qed.

Lemma lead_cat b P Q s t : lead f b P s -> lead f (b + P) Q t -> lead f b (P + Q) (if s =? P then P + t else s).
Proof.
  intros (R1 & A1 & F1) (R2 & A2 & F2). destruct (Z.eqb_spec s P) as [->|N].
  - split; [lia|]. split; [now apply (all_in_cat b P (b + P) t)|]. intros H. rewrite Z.add_assoc. apply F2. lia.
  - split; [lia|]. split; [assumption|]. intros _. apply F1. lia.
Qed.

Lemma trail_cat b P Q e u : trail f b P e -> trail f (b + P) Q u -> trail f b (P + Q) (if u =? Q then e + Q else u).
Proof.
  intros (R1 & A1 & F1) (R2 & A2 & F2). destruct (Z.eqb_spec u Q) as [->|N].
  - split; [lia|]. split.
    + apply (all_in_cat _ e (b + P) Q).
      * eapply all_in_sub; [exact A1|lia|lia].
      * eapply all_in_sub; [exact A2|lia|lia].
      * lia.
    + intros H. replace (b + (P + Q) - (e + Q) - 1) with (b + P - e - 1) by lia. apply F1. lia.
  - split; [lia|]. split.
    + eapply all_in_sub; [exact A2|lia|lia].
    + intros _. replace (b + (P + Q) - u - 1) with (b + P + Q - u - 1) by lia. apply F2. lia.
Qed.

Lemma longest_cat b P Q m e t m2 : longest f b P m -> trail f b P e -> lead f (b + P) Q t -> longest f (b + P) Q m2 ->
  longest f b (P + Q) (Z.max (Z.max m m2) (e + t)).
Proof.
  intros (R1 & (a1 & L1 & U1 & A1) & M1) (Re & Ae & Fe) (Rt & At & Ft) (R2 & (a2 & L2 & U2 & A2) & M2).
  split; [lia|]. split.
  - destruct (Z.max_spec (Z.max m m2) (e + t)) as [[H ->]|[H ->]].
    + exists (b + P - e). split; [lia|]. split; [lia|]. apply (all_in_cat _ e (b + P) t); [assumption|assumption|lia].
    + destruct (Z.max_spec m m2) as [[H' ->]|[H' ->]].
      * exists a2. split; [lia|]. split; [lia|assumption].
      * exists a1. split; [lia|]. split; [lia|assumption].
  - intros a n Hn Ha Hb HA.
    destruct (Z.le_gt_cases (a + n) (b + P)).
    { pose proof (M1 a n Hn Ha ltac:(lia) HA). lia. }
    destruct (Z.le_gt_cases (b + P) a).
    { pose proof (M2 a n Hn ltac:(lia) ltac:(lia) HA). lia. }
    assert (b + P - a <= e).
    { destruct (Z.le_gt_cases (b + P - a) e); [assumption|]. exfalso.
      assert (E : f (b + P - e - 1) = true) by (apply HA; lia). rewrite Fe in E by lia. discriminate. }
    assert (a + n - (b + P) <= t).
    { destruct (Z.le_gt_cases (a + n - (b + P)) t); [assumption|]. exfalso.
      assert (E : f (b + P + t) = true) by (apply HA; lia). rewrite Ft in E by lia. discriminate. }
    lia.
Qed.

Lemma exact_bounds b P s : exact f b P s -> 0 <= s_start s <= P /\ 0 <= s_max s <= P /\ 0 <= s_end s <= P.
Proof. intros (L & M & T). split; [apply L|]. split; [apply M|apply T]. Qed.

Lemma exact_le b P s : exact f b P s -> s_start s <= s_max s /\ s_end s <= s_max s.
Proof.
  intros ((R1 & A1 & _) & (R2 & _ & M) & (R3 & A3 & _)). split.
  - apply (M b); [lia|lia|lia|assumption].
  - apply (M (b + P - s_end s)); [lia|lia|lia|assumption].
Qed.

Lemma exact_full b P s : exact f b P s -> s_end s = P -> s_start s = P /\ s_max s = P.
Proof.
  intros E H. pose proof (exact_le b P s E). pose proof (exact_bounds b P s E). split; [|lia].
  destruct E as (L & _ & (R3 & A3 & _)). apply (lead_unique b P); [assumption|].
  split; [lia|]. split; [|lia]. rewrite H in A3. eapply all_in_sub; [exact A3|lia|lia].
Qed.

(** ** Merging *)
Fixpoint exacts (b P : Z) (l : list summary) : Prop :=
  match l with
  | [] => True
  | s :: l => exact f b P s /\ exacts (b + P) P l
  end.

Lemma exacts_app b P l1 l2 : exacts b P (l1 ++ l2) <-> exacts b P l1 /\ exacts (b + P * zlen l1) P l2.
Proof.
  revert b. induction l1 as [|s l1 IH]; intros b; cbn [app exacts].
  - rewrite zlen_nil, Z.mul_0_r, Z.add_0_r. tauto.
  - rewrite IH, zlen_cons. replace (b + P + P * zlen l1) with (b + P * (1 + zlen l1)) by ring. tauto.
Qed.

Lemma merge_max_spec P l : 0 <= P -> forall b K max cont, longest f b K max -> trail f b K cont -> 0 <= K ->
  exacts (b + K) P l -> K + P * zlen l < 4294967296 -> longest f b (K + P * zlen l) (merge_max P l max cont).
Proof.
  intros HP. induction l as [|s l IH]; intros b K max cont HM HT HK HE HB.
  - rewrite zlen_nil, Z.mul_0_r, Z.add_0_r. exact HM.
  - cbn [merge_max exacts] in *. destruct HE as [Es El]. rewrite zlen_cons in *. pose proof (zlen_nonneg l).
    pose proof (exact_bounds _ _ _ Es) as (B1 & B2 & B3). pose proof (exact_le _ _ _ Es) as (L1 & L2).
    pose proof (longest_cat b K P max cont (s_start s) (s_max s) HM HT (proj1 Es) (proj1 (proj2 Es))) as HM'.
    pose proof (trail_cat b K P cont (s_end s) HT (proj2 (proj2 Es))) as HT'.
    replace (K + P * (1 + zlen l)) with (K + P + P * zlen l) by ring.
    assert (Bm : 0 <= max <= K) by apply HM. assert (Bt : 0 <= cont <= K) by apply HT.
    set (c2 := if cont + s_start s <? s_max s then s_max s else cont + s_start s).
    assert (Ec2 : c2 = Z.max (s_max s) (cont + s_start s)) by (subst c2; destruct (Z.ltb_spec (cont + s_start s) (s_max s)); lia).
    set (m2 := if max <? c2 then c2 else max).
    assert (Em2 : m2 = Z.max (Z.max max (s_max s)) (cont + s_start s)) by (subst m2; destruct (Z.ltb_spec max c2); lia).
    assert (0 <= P * zlen l) by (apply Z.mul_nonneg_nonneg; lia).
    rewrite u32_small by lia.
    apply IH; try lia.
    + rewrite Em2. exact HM'.
    + destruct (Z.eqb_spec (s_end s) P) as [E|N]; cbn [negb]; [|exact HT'].
      destruct (exact_full _ _ _ Es E). replace c2 with (cont + P) by lia. exact HT'.
    + replace (b + (K + P)) with (b + K + P) by ring. exact El.
Qed.

Lemma merge_start_spec P l : 0 <= P -> forall b K, all_in f b K -> 0 <= K -> exacts (b + K) P l -> K + P * zlen l < 4294967296 ->
  lead f b (K + P * zlen l) (merge_start P l K).
Proof.
  intros HP. induction l as [|s l IH]; intros b K HA HK HE HB.
  - rewrite zlen_nil, Z.mul_0_r, Z.add_0_r. split; [cbn [merge_start]; lia|]. split; [exact HA|]. cbn [merge_start]. lia.
  - cbn [merge_start exacts] in *. destruct HE as [Es El]. rewrite zlen_cons in *. pose proof (zlen_nonneg l).
    pose proof (exact_bounds _ _ _ Es) as (B1 & _). assert (0 <= P * zlen l) by (apply Z.mul_nonneg_nonneg; lia).
    replace (K + P * (1 + zlen l)) with (K + P + P * zlen l) in * by ring.
    rewrite u32_small by lia. destruct Es as ((_ & A1 & F1) & _).
    destruct (Z.eqb_spec (s_start s) P) as [E|N]; cbn [negb].
    + rewrite E in *. apply IH; try lia; [now apply (all_in_cat b K (b + K) P)|]. now replace (b + (K + P)) with (b + K + P) by ring.
    + split; [lia|]. split; [now apply (all_in_cat b K (b + K) (s_start s))|]. intros _.
      replace (b + (K + s_start s)) with (b + K + s_start s) by ring. apply F1. lia.
Qed.

Lemma merge_end_spec P l : 0 <= P -> forall b K, all_in f (b + P * zlen l) K -> 0 <= K -> exacts b P l -> K + P * zlen l < 4294967296 ->
  trail f b (P * zlen l + K) (merge_end P (rev l) K).
Proof.
  intros HP. induction l as [|s l IH] using rev_ind; intros b K HA HK HE HB.
  - rewrite zlen_nil, Z.mul_0_r, Z.add_0_l in *. cbn [rev merge_end]. split; [lia|]. rewrite Z.add_0_r in HA. split; [|lia].
    eapply all_in_sub; [exact HA|lia|lia].
  - rewrite rev_app_distr. cbn [rev app merge_end]. rewrite zlen_app, zlen_cons, zlen_nil, Z.add_0_r in *.
    apply exacts_app in HE. destruct HE as [El [Es _]]. pose proof (zlen_nonneg l).
    pose proof (exact_bounds _ _ _ Es) as (_ & _ & B1). assert (0 <= P * zlen l) by (apply Z.mul_nonneg_nonneg; lia).
    rewrite Z.mul_add_distr_l, Z.mul_1_r in *.
    rewrite u32_small by lia. destruct Es as (_ & _ & (_ & A1 & F1)).
    destruct (Z.eqb_spec (s_end s) P) as [E|N]; cbn [negb].
    + rewrite E in *. replace (P * zlen l + P + K) with (P * zlen l + (K + P)) by ring. apply IH; try lia; [|assumption].
      replace (K + P) with (P + K) by ring.
      apply (all_in_cat _ P (b + P * zlen l + P) K); [|eapply all_in_sub; [exact HA|lia|lia]|reflexivity].
      eapply all_in_sub; [exact A1|lia|lia].
    + split; [lia|]. split.
      * replace (K + s_end s) with (s_end s + K) by ring.
        apply (all_in_cat _ (s_end s) (b + P * zlen l + P) K); [|eapply all_in_sub; [exact HA|lia|lia]|lia].
        eapply all_in_sub; [exact A1|lia|lia].
      * intros _. replace (b + (P * zlen l + P + K) - (K + s_end s) - 1) with (b + P * zlen l + P - s_end s - 1) by ring. apply F1. lia.
Qed.

Lemma page_count_8 level : 0 <= level < 4 -> page_count level = 8 * page_count (level + 1).
Proof.
  intros H. assert (level = 0 \/ level = 1 \/ level = 2 \/ level = 3) as [->|[->|[->| ->]]] by lia; reflexivity.
Qed.
Lemma page_count_range level : 512 <= page_count level <= 2097152.
Proof. unfold page_count. repeat (destruct (_ =? _); [lia|]). lia. Qed.

Lemma merge_summarize_spec level b l : 0 <= level < 4 -> length l = 8%nat -> exacts b (page_count (level + 1)) l ->
  exists s, merge_summarize level l = Ok s /\ exact f b (page_count level) s.
Proof.
  intros HL HN HE. unfold merge_summarize. set (P := page_count (level + 1)) in *.
  pose proof (page_count_range (level + 1)). fold P in H.
  assert (Z8 : zlen l = 8) by (unfold zlen; rewrite HN; reflexivity).
  assert (E : page_count level = P * zlen l) by (rewrite page_count_8 by assumption; fold P; rewrite Z8; ring).
  pose proof (merge_max_spec P l ltac:(lia) b 0 0 0 (longest_zero b) (trail_zero b) ltac:(lia)) as M.
  rewrite Z.add_0_r in M. specialize (M HE ltac:(lia)).
  pose proof (merge_start_spec P l ltac:(lia) b 0 ltac:(intros i Hi; lia) ltac:(lia)) as S1.
  rewrite Z.add_0_r in S1. specialize (S1 HE ltac:(lia)).
  pose proof (merge_end_spec P l ltac:(lia) b 0 ltac:(intros i Hi; lia) ltac:(lia) HE ltac:(lia)) as T.
  rewrite Z.add_0_l, ?Z.add_0_r in *. rewrite <- E in *.
  destruct (Z.leb_spec (merge_start P l 0) (page_count level)); [|destruct S1; lia].
  destruct (Z.leb_spec (merge_max P l 0 0) (page_count level)); [|destruct M; lia].
  destruct (Z.leb_spec (merge_end P (rev l) 0) (page_count level)); [|destruct T; lia].
  cbn [andb]. eexists. split; [reflexivity|]. split; [exact S1|]. split; [exact M|exact T].
Qed.

(** ** Searching *)
Definition no_run (a b count : Z) : Prop := forall x, a <= x -> x + count <= b -> ~ all_in f x count.

(** what a successful search tells *)
Definition hit (h : heap) (level count fs fe : Z) : Prop :=
  let P := page_count level in
  fs <= fe /\
  if fs =? fe then exists a, fs * P <= a /\ a + count <= (fs + 1) * P /\ all_in f a count
  else let a := (fs + 1) * P - s_end (summ h level fs) in fs * P <= a /\ a + count <= (fe + 1) * P /\ all_in f a count.

Lemma longest_no_run a b m count : longest f a (b - a) m -> m < count -> no_run a b count.
Proof.
  intros (R & _ & M) H x Hx Hc HA. pose proof (M x count ltac:(lia) Hx ltac:(lia) HA). lia.
Qed.

Lemma find_loop_spec h level count start n : 0 < count ->
  forall i fs fm m, 0 <= start <= i -> i + Z.of_nat n <= sum_count level ->
  (forall j, start <= j < i + Z.of_nat n -> exact f (j * page_count level) (page_count level) (summ h level j)) ->
  trail f (start * page_count level) ((i - start) * page_count level) fm -> fm < count ->
  longest f (start * page_count level) ((i - start) * page_count level) m -> m < count ->
  (fm = 0 -> fs = i) -> (0 < fm -> start <= fs < i /\ fs * page_count level <= i * page_count level - fm < (fs + 1) * page_count level) ->
  exists found fs' fe, find_loop h level count n i fs fm = Ok (found, fs', fe) /\
    if (found : bool) then start <= fs' <= fe /\ fe < i + Z.of_nat n /\ hit h level count fs' fe
    else no_run (start * page_count level) ((i + Z.of_nat n) * page_count level) count.
Proof.
  intros Hc. pose proof (page_count_range level) as HP. set (P := page_count level) in *.
  induction n as [|n IH]; intros i fs fm m Hi Hn HE HT Hfm HM Hm H0 H1; cbn [find_loop].
  - eexists. eexists. eexists. split; [reflexivity|]. cbn iota. rewrite Z.add_0_r.
    apply (longest_no_run _ _ m); [|assumption]. replace (i * P - start * P) with ((i - start) * P) by ring. exact HM.
  - unfold rd_sum. destruct (Z.leb_spec 0 i); [|lia]. destruct (Z.ltb_spec i (sum_count level)); [|lia]. cbn [andb bind]. fold P.
    pose proof (HE i ltac:(lia)) as Es. set (s := summ h level i) in *.
    pose proof (exact_bounds _ _ _ Es) as (B1 & B2 & B3). pose proof (exact_le _ _ _ Es) as (L1 & L2).
    assert (Bf : 0 <= fm <= (i - start) * P) by apply HT.
    replace (i * P) with (start * P + (i - start) * P) in Es by ring.
    pose proof (longest_cat _ _ _ _ _ _ _ HM HT (proj1 Es) (proj1 (proj2 Es))) as HM'.
    pose proof (trail_cat _ _ _ _ _ HT (proj2 (proj2 Es))) as HT'.
    replace ((i - start) * P + P) with ((i + 1 - start) * P) in HM', HT' by ring.
    destruct (Z.leb_spec count (fm + s_start s)) as [Hit|Miss].
    + eexists. eexists. eexists. split; [reflexivity|]. cbn iota.
      assert (Hrun : all_in f (i * P - fm) count).
      { destruct HT as (_ & A1 & _). destruct Es as ((_ & A2 & _) & _).
        apply (all_in_sub (i * P - fm) (fm + s_start s)); [|lia|lia].
        apply (all_in_cat _ fm (i * P) (s_start s)); [| |lia].
        - eapply all_in_sub; [exact A1|lia|lia].
        - eapply all_in_sub; [exact A2|lia|lia]. }
      destruct (Z.eq_dec fm 0) as [E|N].
      * rewrite (H0 E) in *. split; [lia|]. split; [lia|]. unfold hit. fold P. split; [lia|]. rewrite Z.eqb_refl.
        exists (i * P). replace (i * P - fm) with (i * P) in Hrun by lia. split; [lia|]. split; [lia|exact Hrun].
      * destruct (H1 ltac:(lia)) as (F1 & F2 & F3). split; [lia|]. split; [lia|]. unfold hit. fold P. split; [lia|].
        destruct (Z.eqb_spec fs i); [lia|].
        assert (Ee : s_end (summ h level fs) = (fs + 1) * P - (i * P - fm)).
        { pose proof (HE fs ltac:(lia)) as (_ & _ & Tf). eapply trail_unique; [exact Tf|].
          destruct HT as (_ & A1 & F4). split; [lia|]. split.
          - eapply all_in_sub; [exact A1|lia|]. replace (start * P + (i - start) * P) with (i * P) by ring.
            assert ((fs + 1) * P <= i * P) by (apply Z.mul_le_mono_nonneg_r; lia). lia.
          - intros Hlt. replace (fs * P + P - ((fs + 1) * P - (i * P - fm)) - 1) with (start * P + (i - start) * P - fm - 1) by ring.
            apply F4. assert (start * P <= fs * P) by (apply Z.mul_le_mono_nonneg_r; lia). lia. }
        cbv zeta. rewrite Ee. replace ((fs + 1) * P - ((fs + 1) * P - (i * P - fm))) with (i * P - fm) by ring.
        split; [lia|]. split; [lia|exact Hrun].
    + destruct (Z.ltb_spec (fm + s_start s) (s_max s)) as [G|NG].
      * destruct (Z.leb_spec count (s_max s)) as [Hit|Miss2].
        { eexists. eexists. eexists. split; [reflexivity|]. cbn iota. split; [lia|]. split; [lia|]. unfold hit. fold P. split; [lia|].
          rewrite Z.eqb_refl. destruct Es as (_ & (_ & (a & A1 & A2 & A3) & _) & _). exists a. split; [lia|]. split; [lia|].
          eapply all_in_sub; [exact A3|lia|lia]. }
        destruct (Z.eqb_spec (s_end s) P) as [E|N]; cbn [negb].
        { destruct (exact_full _ _ _ Es E). lia. }
        destruct (Z.ltb_spec 0 (s_end s)).
        -- destruct (IH (i + 1) i (s_end s) _ ltac:(lia) ltac:(lia) ltac:(intros j Hj; apply HE; lia) HT' ltac:(lia) HM') as (fo & a & b & Q1 & Q2); try lia.
           exists fo, a, b. split; [exact Q1|]. replace (i + Z.of_nat (S n)) with (i + 1 + Z.of_nat n) by lia. exact Q2.
        -- replace (s_end s) with 0 in HT' by lia.
           destruct (IH (i + 1) (i + 1) 0 _ ltac:(lia) ltac:(lia) ltac:(intros j Hj; apply HE; lia) HT' ltac:(lia) HM') as (fo & a & b & Q1 & Q2); try lia.
           exists fo, a, b. split; [exact Q1|]. replace (i + Z.of_nat (S n)) with (i + 1 + Z.of_nat n) by lia. exact Q2.
      * destruct (Z.leb_spec count (fm + s_start s)); [lia|].
        destruct (Z.eqb_spec (s_end s) P) as [E|N]; cbn [negb].
        { destruct (exact_full _ _ _ Es E) as [E1 E2]. rewrite E1 in *.
          destruct (IH (i + 1) fs (fm + P) _ ltac:(lia) ltac:(lia) ltac:(intros j Hj; apply HE; lia) HT' ltac:(lia) HM') as (fo & a & b & Q1 & Q2); try lia.
          exists fo, a, b. split; [exact Q1|]. replace (i + Z.of_nat (S n)) with (i + 1 + Z.of_nat n) by lia. exact Q2. }
        destruct (Z.ltb_spec 0 (s_end s)).
        -- destruct (IH (i + 1) i (s_end s) _ ltac:(lia) ltac:(lia) ltac:(intros j Hj; apply HE; lia) HT' ltac:(lia) HM') as (fo & a & b & Q1 & Q2); try lia.
           exists fo, a, b. split; [exact Q1|]. replace (i + Z.of_nat (S n)) with (i + 1 + Z.of_nat n) by lia. exact Q2.
        -- replace (s_end s) with 0 in HT' by lia.
           destruct (IH (i + 1) (i + 1) 0 _ ltac:(lia) ltac:(lia) ltac:(intros j Hj; apply HE; lia) HT' ltac:(lia) HM') as (fo & a & b & Q1 & Q2); try lia.
           exists fo, a, b. split; [exact Q1|]. replace (i + Z.of_nat (S n)) with (i + 1 + Z.of_nat n) by lia. exact Q2.
Qed.

Lemma find_continuous_spec h level start e count : 0 < count -> 0 <= start <= e -> e <= sum_count level ->
  (forall j, start <= j < e -> exact f (j * page_count level) (page_count level) (summ h level j)) ->
  exists found fs fe, summary_find_continuous h level start e count = Ok (found, fs, fe) /\
    if (found : bool) then start <= fs <= fe /\ fe < e /\ hit h level count fs fe
    else no_run (start * page_count level) (e * page_count level) count.
Proof.
  intros Hc Hs He HE. unfold summary_find_continuous.
  destruct (find_loop_spec h level count start (Z.to_nat (e - start)) Hc start start 0 0) as (fo & a & b & Q1 & Q2); try lia.
  - intros j Hj. apply HE. lia.
  - rewrite Z.sub_diag. apply trail_zero.
  - rewrite Z.sub_diag. apply longest_zero.
  - exists fo, a, b. split; [exact Q1|]. rewrite Z2Nat.id in Q2 by lia. replace (start + (e - start)) with e in Q2 by lia. exact Q2.
Qed.

Lemma hit_run h level count fs fe : 0 < count -> hit h level count fs fe ->
  exists a, fs * page_count level <= a /\ a + count <= (fe + 1) * page_count level /\ all_in f a count.
Proof.
  intros Hc (L & H). destruct (Z.eqb_spec fs fe) as [->|N]; [exact H|]. eexists. exact H.
Qed.

End Runs.

Lemma all_in_ext f g a n : (forall i, a <= i < a + n -> f i = g i) -> all_in f a n -> all_in g a n.
Proof. intros E H i Hi. rewrite <- E by assumption. now apply H. Qed.

Lemma exact_ext f g b P s : (forall i, b <= i < b + P -> f i = g i) -> exact f b P s -> exact g b P s.
Proof.
  intros E ((R1 & A1 & F1) & (R2 & (a & L & U & A2) & M) & (R3 & A3 & F3)). split; [|split].
  - split; [assumption|]. split; [apply (all_in_ext f); [|assumption]; intros i Hi; apply E; lia|]. intros H. rewrite <- E by lia. auto.
  - split; [assumption|]. split.
    + exists a. split; [assumption|]. split; [assumption|]. apply (all_in_ext f); [|assumption]. intros i Hi. apply E. lia.
    + intros x n Hn Hx Hxn HA. apply (M x n Hn Hx Hxn). apply (all_in_ext g); [|assumption]. intros i Hi. symmetry. apply E. lia.
  - split; [assumption|]. split; [apply (all_in_ext f); [|assumption]; intros i Hi; apply E; lia|]. intros H. rewrite <- E by lia. auto.
Qed.
