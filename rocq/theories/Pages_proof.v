(** The heap: summaries stay exact, searches are sound and complete. *)
From Verif Require Import Base Base_lemmas Zlist.
From Verif Require Import Bitmap_spec Bitmap_model Bitmap_proof Pages_model Pages_spec Pages_runs_proof Pages_chunk_proof.

Definition chunks_wf (h : heap) : Prop := forall i, zlen (chunk h i) = 64 /\ bytes (chunk h i).
Definition sums_exact (h : heap) (f : Z -> bool) : Prop :=
  forall L i, 0 <= L <= 4 -> 0 <= i < sum_count L -> exact f (i * page_count L) (page_count L) (summ h L i).

Lemma exact_shift f g b P s : (forall j, 0 <= j < P -> f (b + j) = g j) -> exact g 0 P s -> exact f b P s.
Proof.
  intros E X.
  assert (A : forall a n, 0 <= a -> a + n <= P -> all_in g a n <-> all_in f (b + a) n).
  { intros a n Ha Hn. split; intros H i Hi.
    - replace i with (b + (i - b)) by lia. rewrite E by lia. apply H. lia.
    - rewrite <- E by lia. apply H. lia. }
  destruct X as ((R1 & A1 & F1) & (R2 & (a & L & U & A2) & M) & (R3 & A3 & F3)). split; [|split].
  - split; [assumption|]. split.
    + replace b with (b + 0) by lia. apply A; [lia|lia|assumption].
    + intros H. rewrite E by lia. now apply F1.
  - split; [assumption|]. split.
    + exists (b + a). split; [lia|]. split; [lia|]. apply A; [lia|lia|assumption].
    + intros x n Hn Hx Hxn HA. apply (M (x - b) n); [lia|lia|lia|]. apply A; [lia|lia|]. now replace (b + (x - b)) with x by lia.
  - split; [assumption|]. split.
    + replace (b + P - s_end s) with (b + (0 + P - s_end s)) by lia. apply A; [lia|lia|assumption].
    + intros H. replace (b + P - s_end s - 1) with (b + (0 + P - s_end s - 1)) by lia. rewrite E by lia. now apply F3.
Qed.

Lemma sum_count_8 level : 0 <= level < 4 -> sum_count (level + 1) = 8 * sum_count level.
Proof.
  intros H. assert (level = 0 \/ level = 1 \/ level = 2 \/ level = 3) as [->|[->|[->| ->]]] by lia; reflexivity.
Qed.
Lemma sum_count_pos level : 0 < sum_count level.
Proof. unfold sum_count. repeat (destruct (_ =? _); [lia|]). lia. Qed.

Definition level_exact (h : heap) (f : Z -> bool) (L : Z) : Prop :=
  forall i, 0 <= i < sum_count L -> exact f (i * page_count L) (page_count L) (summ h L i).

Lemma update_lowest_spec f n : forall index h, chunks_wf h -> 0 <= index -> index + Z.of_nat n <= sum_count 4 ->
  (forall i, index <= i < index + Z.of_nat n -> present h (i / SPLIT) = true /\
     forall j, 0 <= j < 512 -> f (i * 512 + j) = negb (bit (chunk h i) j)) ->
  exists sm, update_lowest h n index = Ok (set_summ h sm) /\
    (forall L i, L <> 4 \/ ~ (index <= i < index + Z.of_nat n) -> sm L i = summ h L i) /\
    (forall i, index <= i < index + Z.of_nat n -> exact f (i * 512) 512 (sm 4 i)).
Proof.
  induction n as [|n IH]; intros index h W H0 Hn HP; cbn [update_lowest].
  - exists (summ h). split; [destruct h; reflexivity|]. split; [reflexivity|]. intros i Hi. lia.
  - change (sum_count 4) with 33554432 in *.
    destruct (HP index ltac:(lia)) as [P1 P2]. unfold SPLIT in *.
    destruct (Z.leb_spec 0 index); [|lia]. destruct (Z.ltb_spec (index / 8192) 8192); [|exfalso; zdiv]. cbn [andb negb].
    rewrite P1. cbn [negb]. unfold wr_sum. change (sum_count 4) with 33554432.
    destruct (Z.leb_spec 0 index); [|lia]. destruct (Z.ltb_spec index 33554432); [|lia]. cbn [andb bind].
    destruct (IH (index + 1) (set_summ h (fun l j => if (l =? 4) && (j =? index) then chunk_summarize (chunk h index) else summ h l j)))
      as (sm & E & Fr & Ex); [exact W|lia|lia|intros i Hi; apply HP; lia|].
    exists sm. split; [exact E|]. split.
    + intros L i Hi. rewrite Fr by lia. cbn [summ set_summ].
      destruct (Z.eqb_spec L 4); destruct (Z.eqb_spec i index); cbn [andb]; try reflexivity. lia.
    + intros i Hi. destruct (Z.eq_dec i index) as [->|N].
      * rewrite Fr by lia. cbn [summ set_summ]. rewrite !Z.eqb_refl. cbn [andb].
        apply exact_shift with (g := g (chunk h index)); [exact P2|]. apply chunk_summarize_spec; apply W.
      * apply Ex. lia.
Qed.

Lemma rd_sums_spec h L n : forall i, 0 <= i -> i + Z.of_nat n <= sum_count L ->
  exists l, rd_sums h L n i = Ok l /\ length l = n /\
    forall f, (forall j, i <= j < i + Z.of_nat n -> exact f (j * page_count L) (page_count L) (summ h L j)) ->
      exacts f (i * page_count L) (page_count L) l.
Proof.
  induction n as [|n IH]; intros i Hi Hn; cbn [rd_sums].
  - exists []. split; [reflexivity|]. split; [reflexivity|]. intros f H. exact I.
  - unfold rd_sum. destruct (Z.leb_spec 0 i); [|lia]. destruct (Z.ltb_spec i (sum_count L)); [|lia]. cbn [andb bind].
    destruct (IH (i + 1) ltac:(lia) ltac:(lia)) as (l & E & Len & X). rewrite E. cbn [bind].
    eexists. split; [reflexivity|]. split; [cbn [length]; lia|]. intros f HX. cbn [exacts]. split; [apply HX; lia|].
    replace (i * page_count L + page_count L) with ((i + 1) * page_count L) by ring. apply X. intros j Hj. apply HX. lia.
Qed.

Lemma update_level_spec f L n : 0 <= L < 4 -> forall i h, 0 <= i -> i + Z.of_nat n <= sum_count L -> level_exact h f (L + 1) ->
  exists sm, update_level h L n i = Ok (set_summ h sm) /\
    (forall l j, l <> L \/ ~ (i <= j < i + Z.of_nat n) -> sm l j = summ h l j) /\
    (forall j, i <= j < i + Z.of_nat n -> exact f (j * page_count L) (page_count L) (sm L j)).
Proof.
  intros HL. induction n as [|n IH]; intros i h Hi Hn HE; cbn [update_level].
  - exists (summ h). split; [destruct h; reflexivity|]. split; [reflexivity|]. intros j Hj. lia.
  - pose proof (sum_count_8 L HL) as S8. pose proof (page_count_8 (fun _ => true) L HL) as P8.
    destruct (rd_sums_spec h (L + 1) 8 (i * 8) ltac:(lia) ltac:(lia)) as (l & E & Len & X). rewrite E. cbn [bind].
    specialize (X f ltac:(intros j Hj; apply HE; lia)).
    replace (i * 8 * page_count (L + 1)) with (i * page_count L) in X by (rewrite P8; ring).
    destruct (merge_summarize_spec f L (i * page_count L) l HL Len X) as (s & Em & Es). rewrite Em. cbn [bind].
    unfold wr_sum. destruct (Z.leb_spec 0 i); [|lia]. destruct (Z.ltb_spec i (sum_count L)); [|lia]. cbn [andb bind].
    destruct (IH (i + 1) (set_summ h (fun l0 j => if (l0 =? L) && (j =? i) then s else summ h l0 j))) as (sm & E2 & Fr & Ex); [lia|lia| |].
    { intros j Hj. cbn [summ set_summ]. destruct (Z.eqb_spec (L + 1) L); [lia|]. cbn [andb]. now apply HE. }
    exists sm. split; [exact E2|]. split.
    + intros l0 j Hj. rewrite Fr by lia. cbn [summ set_summ].
      destruct (Z.eqb_spec l0 L); destruct (Z.eqb_spec j i); cbn [andb]; try reflexivity. lia.
    + intros j Hj. destruct (Z.eq_dec j i) as [->|N]; [|apply Ex; lia].
      rewrite Fr by lia. cbn [summ set_summ]. rewrite !Z.eqb_refl. exact Es.
Qed.

(** one level of page_summary_update, from the chunks lo..hi with D chunks per entry *)
Lemma level_step f f' L D lo hi h h0 : 0 <= L < 4 -> 0 < D -> page_count L = D * 512 -> sum_count L * D = 33554432 ->
  0 <= lo <= hi -> hi < 33554432 ->
  (forall l i, l <= L -> summ h l i = summ h0 l i) -> level_exact h0 f L -> level_exact h f' (L + 1) ->
  (forall p, ~ (lo * 512 <= p < (hi + 1) * 512) -> f' p = f p) ->
  exists sm, update_level h L (iters (lo / D) (hi / D)) (lo / D) = Ok (set_summ h sm) /\
    (forall l i, l <> L -> sm l i = summ h l i) /\ level_exact (set_summ h sm) f' L.
Proof.
  intros HL HD HP HS Hlo Hhi Hsame Hold Hnext Hf.
  assert (D1 : lo / D <= hi / D) by (apply Z.div_le_mono; lia).
  assert (D2 : hi / D < sum_count L) by (apply Z.div_lt_upper_bound; lia).
  assert (D0 : 0 <= lo / D) by (apply Z.div_pos; lia).
  unfold iters. destruct (update_level_spec f' L (Z.to_nat (hi / D - lo / D + 1)) HL (lo / D) h ltac:(lia) ltac:(lia) Hnext) as (sm & E & Fr & Ex).
  rewrite Z2Nat.id in * by lia. exists sm. split; [exact E|]. split; [intros l i Hl; apply Fr; tauto|].
  intros i Hi. cbn [summ set_summ].
  destruct (Z_lt_dec i (lo / D)) as [A|A]; [|destruct (Z_lt_dec (hi / D) i) as [B|B]; [|apply Ex; lia]].
  - rewrite Fr by lia. rewrite Hsame by lia. apply (exact_ext f); [|now apply Hold].
    intros p Hp. symmetry. apply Hf. rewrite HP in Hp.
    assert (i + 1 <= lo / D) by lia. assert ((i + 1) * D <= lo) by (pose proof (Z.mul_div_le lo D ltac:(lia)); nia). lia.
  - rewrite Fr by lia. rewrite Hsame by lia. apply (exact_ext f); [|now apply Hold].
    intros p Hp. symmetry. apply Hf. rewrite HP in Hp.
    assert (hi < i * D). { pose proof (Z.mul_succ_div_gt hi D ltac:(lia)). nia. } lia.
Qed.

Lemma page_summary_update_spec h f f' base size lo hi : chunks_wf h -> sums_exact h f ->
  chunk_index base = lo -> chunk_index (base + size - 1) = hi -> 0 <= lo <= hi -> hi < 33554432 ->
  (forall p, ~ (lo * 512 <= p < (hi + 1) * 512) -> f' p = f p) ->
  (forall i, lo <= i <= hi -> present h (i / SPLIT) = true /\ forall j, 0 <= j < 512 -> f' (i * 512 + j) = negb (bit (chunk h i) j)) ->
  exists sm, page_summary_update h base size = Ok (set_summ h sm) /\ sums_exact (set_summ h sm) f'.
Proof.
  intros W SE Elo Ehi Hlo Hhi Hf Hin. unfold page_summary_update. rewrite Elo, Ehi. cbv zeta.
  destruct (update_lowest_spec f' (iters lo hi) lo h W ltac:(lia)) as (s4 & E4 & Fr4 & Ex4).
  { unfold iters. rewrite Z2Nat.id by lia. change (sum_count 4) with 33554432. lia. }
  { unfold iters. rewrite Z2Nat.id by lia. intros i Hi. apply Hin. lia. }
  rewrite E4. cbn [bind]. unfold iters in Fr4, Ex4. rewrite Z2Nat.id in Fr4, Ex4 by lia.
  assert (L4 : level_exact (set_summ h s4) f' 4).
  { intros i Hi. cbn [summ set_summ]. change (page_count 4) with 512. destruct (Z_le_dec lo i); [destruct (Z_le_dec i hi)|].
    - apply Ex4. lia.
    - rewrite Fr4 by lia. apply (exact_ext f); [|apply (SE 4 i); lia]. intros p Hp. symmetry. apply Hf. lia.
    - rewrite Fr4 by lia. apply (exact_ext f); [|apply (SE 4 i); lia]. intros p Hp. symmetry. apply Hf. lia. }
  assert (Old : forall L, 0 <= L <= 3 -> level_exact h f L) by (intros L HL i Hi; apply SE; lia).
  destruct (level_step f f' 3 8 lo hi (set_summ h s4) h ltac:(lia) ltac:(lia) eq_refl eq_refl Hlo Hhi) as (s3 & E3 & Fr3 & L3);
    [intros l i Hl; cbn [summ set_summ]; apply Fr4; lia|apply Old; lia|exact L4|exact Hf|].
  rewrite E3. cbn [bind].
  destruct (level_step f f' 2 64 lo hi (set_summ (set_summ h s4) s3) h ltac:(lia) ltac:(lia) eq_refl eq_refl Hlo Hhi) as (s2 & E2 & Fr2 & L2);
    [intros l i Hl; cbn [summ set_summ]; rewrite Fr3 by lia; apply Fr4; lia|apply Old; lia|exact L3|exact Hf|].
  rewrite E2. cbn [bind].
  destruct (level_step f f' 1 512 lo hi (set_summ (set_summ (set_summ h s4) s3) s2) h ltac:(lia) ltac:(lia) eq_refl eq_refl Hlo Hhi) as (s1 & E1 & Fr1 & L1);
    [intros l i Hl; cbn [summ set_summ]; rewrite Fr2 by lia; cbn [summ set_summ]; rewrite Fr3 by lia; apply Fr4; lia|apply Old; lia|exact L2|exact Hf|].
  rewrite E1. cbn [bind].
  destruct (level_step f f' 0 4096 lo hi (set_summ (set_summ (set_summ (set_summ h s4) s3) s2) s1) h ltac:(lia) ltac:(lia) eq_refl eq_refl Hlo Hhi) as (s0 & E0 & Fr0 & L0);
    [intros l i Hl; cbn [summ set_summ]; rewrite Fr1 by lia; cbn [summ set_summ]; rewrite Fr2 by lia; cbn [summ set_summ]; rewrite Fr3 by lia; apply Fr4; lia|apply Old; lia|exact L1|exact Hf|].
  rewrite E0. exists s0. split; [reflexivity|].
  intros L i HL Hi. cbn [summ set_summ].
  assert (L = 0 \/ L = 1 \/ L = 2 \/ L = 3 \/ L = 4) as [->|[->|[->|[->| ->]]]] by lia.
  - now apply L0.
  - rewrite Fr0 by lia. now apply L1.
  - rewrite Fr0, Fr1 by lia. now apply L2.
  - rewrite Fr0, Fr1, Fr2 by lia. now apply L3.
  - rewrite Fr0, Fr1, Fr2, Fr3 by lia. now apply L4.
Qed.

(** ** chunks_set *)
Definition inr (p cnt q : Z) : bool := (p <=? q) && (q <? p + cnt).

Lemma chunks_loop_spec p cnt value n : 0 <= p -> 0 < cnt -> forall index h, chunks_wf h -> p / 512 <= index ->
  index + Z.of_nat n = (p + cnt - 1) / 512 + 1 -> (forall i, index <= i < index + Z.of_nat n -> chunk_ok h i = true) ->
  exists ch, chunks_loop h (BASE + p * PAGE) (BASE + (p + cnt) * PAGE) value n index = Ok (set_chunk h ch) /\
    (forall i, zlen (ch i) = 64 /\ bytes (ch i)) /\
    forall q, 0 <= q -> bit (ch (q / 512)) (q mod 512) = if (index * 512 <=? q) && inr p cnt q then value else marked h q.
Proof.
  intros Hp Hc. induction n as [|n IH]; intros index h W Hi Hn HO; cbn [chunks_loop].
  - exists (chunk h). split; [destruct h; reflexivity|]. split; [exact W|]. intros q Hq. unfold marked, inr.
    destruct (Z.leb_spec (index * 512) q); [|reflexivity]. destruct (Z.ltb_spec q (p + cnt)); [|now rewrite andb_false_r].
    exfalso. clear - H H0 Hn. zdiv.
  - rewrite HO by lia. cbn [negb]. unfold chunk_base, CHUNK_BYTES, CHUNK_BITS, PAGE in *.
    assert (I0 : 0 <= index) by (clear - Hp Hi; zdiv).
    set (bs := if index * 4194304 + BASE <? BASE + p * 8192 then (BASE + p * 8192 - (index * 4194304 + BASE)) / 8192 else 0).
    assert (Ebs : bs = Z.max 0 (p - index * 512)).
    { subst bs. destruct (Z.ltb_spec (index * 4194304 + BASE) (BASE + p * 8192)); [|lia].
      replace (BASE + p * 8192 - (index * 4194304 + BASE)) with ((p - index * 512) * 8192) by ring. rewrite Z.div_mul by lia. lia. }
    replace (BASE + (p + cnt) * 8192 - (index * 4194304 + BASE)) with ((p + cnt - index * 512) * 8192) by ring. rewrite Z.div_mul by lia.
    set (be := if 512 - 1 <? p + cnt - index * 512 - 1 then 512 - 1 else p + cnt - index * 512 - 1).
    assert (Ebe : be = Z.min 511 (p + cnt - index * 512 - 1)) by (subst be; destruct (Z.ltb_spec (512 - 1) (p + cnt - index * 512 - 1)); lia).
    assert (Hend : index * 512 <= p + cnt - 1) by (clear - Hn; zdiv).
    assert (Hst : p < (index + 1) * 512) by (clear - Hi; zdiv).
    destruct (W index) as [W1 W2].
    destruct (batch_spec value (chunk h index) bs (be - bs + 1) W2) as (c & Ec & (Lc & Bc & Hbit)); [lia|lia|unfold capacity; lia|].
    unfold batch in Ec. rewrite Ec. cbn [bind].
    set (h1 := set_chunk h (fun i => if i =? index then c else chunk h i)).
    destruct (IH (index + 1) h1) as (ch & E & Wc & Hb); [|lia|lia|intros i Hx; apply (HO i); lia|].
    { intros i. cbn [chunk set_chunk h1]. destruct (Z.eqb_spec i index); [|apply W]. split; [lia|assumption]. }
    exists ch. split; [exact E|]. split; [exact Wc|]. intros q Hq. rewrite Hb by assumption. unfold marked, h1. cbn [chunk set_chunk].
    assert (Q1 : 0 <= q mod 512 < 512 /\ q = 512 * (q / 512) + q mod 512) by (clear - Hq; zdiv).
    destruct (Z.eqb_spec (q / 512) index) as [Eq|Nq].
    + rewrite Hbit by lia. destruct (Z.leb_spec ((index + 1) * 512) q); [lia|]. destruct (Z.leb_spec (index * 512) q); [|lia]. cbn [andb].
      assert (F : (bs <=? q mod 512) && (q mod 512 <? bs + (be - bs + 1)) = inr p cnt q).
      { rewrite Eq in Q1. clear - Q1 Ebs Ebe. unfold inr. generalize dependent (q mod 512). intros m [R ->].
        rewrite Ebe. replace (bs + (Z.min 511 (p + cnt - index * 512 - 1) - bs + 1)) with (Z.min 511 (p + cnt - index * 512 - 1) + 1) by ring.
        rewrite Ebs. clear Ebs Ebe.
        destruct (Z.leb_spec p (512 * index + m)); destruct (Z.ltb_spec (512 * index + m) (p + cnt)); cbn [andb];
          destruct (Z.leb_spec (Z.max 0 (p - index * 512)) m); destruct (Z.ltb_spec m (Z.min 511 (p + cnt - index * 512 - 1) + 1)); cbn [andb];
          try reflexivity; exfalso; lia. }
      rewrite F. destruct (inr p cnt q); [reflexivity|]. now rewrite Eq.
    + destruct (Z.leb_spec ((index + 1) * 512) q); destruct (Z.leb_spec (index * 512) q); try reflexivity; lia.
Qed.

Definition same (h h' : heap) : Prop :=
  present h' = present h /\ hints h' = hints h /\ cursor h' = cursor h /\ end_ h' = end_ h /\ reserved h' = reserved h /\ grown h' = grown h.

Lemma same_refl h : same h h.
Proof. repeat split. Qed.

Lemma chunk_index_page p : chunk_index (BASE + p * PAGE) = p / 512.
Proof.
  unfold chunk_index, PAGE, CHUNK_BYTES. replace (BASE + p * 8192 - BASE) with (p * 8192) by ring.
  change 4194304 with (512 * 8192). rewrite Z.div_mul_cancel_r by lia. reflexivity.
Qed.
Lemma chunk_index_end p cnt : 0 < cnt -> chunk_index (BASE + p * PAGE + cnt * PAGE - 1) = (p + cnt - 1) / 512.
Proof.
  intros H. unfold chunk_index, PAGE, CHUNK_BYTES. replace (BASE + p * 8192 + cnt * 8192 - 1 - BASE) with ((p + cnt) * 8192 - 1) by ring.
  zdiv.
Qed.

Lemma chunks_set_spec h G p cnt value : chunks_wf h -> 0 <= p -> 0 < cnt ->
  (forall c, G c = true -> chunk_ok h c = true /\ c < 33554432) ->
  (forall q, p <= q < p + cnt -> G (q / 512) = true) ->
  sums_exact h (fun q => G (q / 512) && negb (marked h q)) ->
  exists h', chunks_set h (BASE + p * PAGE) (cnt * PAGE) value = Ok h' /\ same h h' /\ chunks_wf h' /\
    (forall q, 0 <= q -> marked h' q = if inr p cnt q then value else marked h q) /\
    sums_exact h' (fun q => G (q / 512) && negb (marked h' q)).
Proof.
  intros W Hp Hc HG Hin SE. unfold chunks_set. rewrite chunk_index_page.
  replace (BASE + p * PAGE + cnt * PAGE - 1) with (BASE + p * PAGE + cnt * PAGE - 1) by reflexivity.
  rewrite (chunk_index_end p cnt Hc).
  assert (D : 0 <= p / 512 <= (p + cnt - 1) / 512) by (clear - Hp Hc; zdiv).
  assert (Gr : forall i, p / 512 <= i <= (p + cnt - 1) / 512 -> G i = true).
  { intros i Hi. destruct (Z.le_gt_cases (i * 512) p).
    - replace i with (p / 512) by (clear - Hi H; zdiv). apply Hin. lia.
    - replace i with (i * 512 / 512) by (rewrite Z.div_mul; lia). apply Hin. clear - Hi H. zdiv. }
  replace (BASE + p * PAGE + cnt * PAGE) with (BASE + (p + cnt) * PAGE) by ring.
  unfold iters. set (n := Z.to_nat ((p + cnt - 1) / 512 - p / 512 + 1)).
  destruct (chunks_loop_spec p cnt value n Hp Hc (p / 512) h W) as (ch & E & Wc & Hb); [lia|lia| |].
  { intros i Hi. apply HG, Gr. lia. }
  rewrite E. cbn [bind].
  assert (Hb' : forall q, 0 <= q -> marked (set_chunk h ch) q = if inr p cnt q then value else marked h q).
  { intros q Hq. unfold marked at 1. cbn [chunk set_chunk]. rewrite Hb by assumption.
    unfold inr. destruct (Z.leb_spec p q); cbn [andb]; [|now rewrite andb_false_r].
    destruct (Z.leb_spec (p / 512 * 512) q); [reflexivity|]. exfalso. clear - H H0. zdiv. }
  destruct (page_summary_update_spec (set_chunk h ch) (fun q => G (q / 512) && negb (marked h q))
     (fun q => if q <? 0 then G (q / 512) && negb (marked h q) else G (q / 512) && negb (marked (set_chunk h ch) q)) (BASE + p * PAGE) (cnt * PAGE) (p / 512) ((p + cnt - 1) / 512)) as (sm & E2 & SE2).
  - exact Wc.
  - exact SE.
  - apply chunk_index_page.
  - apply chunk_index_end. assumption.
  - lia.
  - destruct (HG ((p + cnt - 1) / 512) ltac:(apply Gr; lia)). lia.
  - intros q Hq. destruct (Z.ltb_spec q 0); [reflexivity|]. rewrite Hb' by assumption. unfold inr.
    destruct (Z.leb_spec p q); cbn [andb]; [|reflexivity]. destruct (Z.ltb_spec q (p + cnt)); [|reflexivity]. exfalso. clear - Hq H0 H1. zdiv.
  - intros i Hi. destruct (HG i (Gr i Hi)) as [O _]. unfold chunk_ok in O. apply andb_true_iff in O. split; [apply O|].
    intros j Hj. assert (0 <= i) by lia. destruct (Z.ltb_spec (i * 512 + j) 0); [lia|]. unfold marked. cbn [chunk set_chunk].
    replace ((i * 512 + j) / 512) with i by (clear - Hj; zdiv). replace ((i * 512 + j) mod 512) with j by (clear - Hj; zdiv). now rewrite Gr.
  - rewrite E2. eexists. split; [reflexivity|]. split; [repeat split|]. split; [exact Wc|]. split; [exact Hb'|].
    intros L i HL Hi. eapply exact_ext; [|apply (SE2 L i HL Hi)]. intros q Hq. cbn beta.
    assert (0 <= i * page_count L) by (pose proof (page_count_range (fun _ => true) L); apply Z.mul_nonneg_nonneg; lia).
    destruct (Z.ltb_spec q 0); [lia|reflexivity].
Qed.

(** ** page_alloc_find *)
Lemma find_levels_spec h f count n : 0 < count -> sums_exact h f ->
  forall level start e, level + Z.of_nat n = 5 -> 1 <= level -> 0 <= start <= e -> e < sum_count (level - 1) ->
  hit f h (level - 1) count start e ->
  exists s e', find_levels h count n level start e = Ok (s, e') /\ hit f h 4 count s e' /\ 0 <= s <= e' /\ e' < sum_count 4 /\ (e' + 1) * 512 <= (e + 1) * page_count (level - 1).
Proof.
  intros Hc SE. induction n as [|n IH]; intros level start e Hn HL Hse He HH; cbn [find_levels].
  - replace (level - 1) with 4 in * by lia. exists start, e. change (page_count 4) with 512. split; [reflexivity|]. split; [assumption|]. lia.
  - pose proof (sum_count_8 (level - 1) ltac:(lia)) as S8. pose proof (page_count_8 f (level - 1) ltac:(lia)) as P8.
    replace (level - 1 + 1) with level in * by lia.
    destruct (hit_run f h _ _ _ _ Hc HH) as (a & A1 & A2 & A3).
    destruct (find_continuous_spec f h level (start * 8) ((e + 1) * 8) count Hc) as (found & fs & fe & E & R); [lia|lia| |].
    { intros j Hj. apply SE; lia. }
    rewrite E. cbn [bind]. destruct found; cbn [negb].
    + destruct R as (R1 & R2 & R3).
      destruct (IH (level + 1) fs fe) as (s & e' & E' & HH' & S1 & S2 & S3); try lia;
        [replace (level + 1 - 1) with level by lia; lia|replace (level + 1 - 1) with level by lia; exact R3|].
      replace (level + 1 - 1) with level in S3 by lia. pose proof (page_count_range f level).
      exists s, e'. split; [exact E'|]. split; [assumption|]. split; [assumption|]. split; [assumption|]. rewrite P8. nia.
    + exfalso. apply (R a); [|lia|assumption].
      rewrite P8 in A1. lia.
Qed.

(** the number of level-0 summaries searched *)
Definition window (h : heap) : Z := (hd 0 (hints h) - BASE) / (32 * 1024 * 1024 * 1024) + 1.

Lemma find_spec h G count must a l : chunks_wf h -> 0 < count ->
  hints h = a :: l -> BASE <= a <= USER_TOP ->
  (forall c, G c = true -> chunk_ok h c = true /\ c < 33554432) ->
  sums_exact h (fun q => G (q / 512) && negb (marked h q)) ->
  let f := fun q => G (q / 512) && negb (marked h q) in
  (exists h' p, page_alloc_find h count must = Ok (h', BASE + p * PAGE) /\ 0 <= p /\ p + count <= window h * 2097152 /\
     all_in f p count /\ same h h' /\ chunks_wf h' /\
     (forall q, 0 <= q -> marked h' q = if inr p count q then true else marked h q) /\
     sums_exact h' (fun q => G (q / 512) && negb (marked h' q))) \/
  (page_alloc_find h count must = (if must then Abort else Ok (h, 0)) /\ no_run f 0 (window h * 2097152) count).
Proof.
  intros W Hc Hh Ha HG SE f. unfold page_alloc_find, window. rewrite Hh. cbn [hd].
  destruct (Z.ltb_spec (a - BASE) 0); [lia|].
  set (e := (a - BASE) / (32 * 1024 * 1024 * 1024) + 1).
  assert (He : 1 <= e <= 8192) by (subst e; unfold BASE, USER_TOP in *; zdiv).
  destruct (Z.eqb_spec 0 e); [lia|].
  destruct (find_continuous_spec f h 0 0 e count Hc) as (found & fs & fe & E & R); [lia|exact (proj2 He)| |].
  { intros j Hj. apply SE; [lia|]. change (sum_count 0) with 8192. lia. }
  rewrite E. cbn [bind]. destruct found; cbn [negb]; [left|right].
  2: { change (page_count 0) with 2097152 in R. split; [reflexivity|exact R]. }
  destruct R as (R1 & R2 & R3).
  destruct (find_levels_spec h f count 4 Hc SE 1 fs fe) as (s & e' & E4 & HH & Hs & He' & HW); [lia|lia|lia|change (sum_count (1 - 1)) with 8192; lia|exact R3|].
  rewrite E4. cbn [bind]. change (sum_count 4) with 33554432 in He'. change (page_count (1 - 1)) with 2097152 in HW.
  assert (Hp : exists p, (if s =? e' then if negb (chunk_ok h s) then UB else Ok (chunk_base s + scan_blocks (chunk h s) count 8 0 0 0 * PAGE)
      else s0 <- rd_sum h 4 s;; Ok (chunk_base s + (CHUNK_BITS - s_end s0) * PAGE)) = Ok (BASE + p * PAGE) /\ 0 <= p /\ p + count <= e * 2097152 /\ all_in f p count).
  { destruct HH as (_ & HH). change (page_count 4) with 512 in HH. destruct (Z.eqb_spec s e') as [<-|N].
    - destruct HH as (x & X1 & X2 & X3).
      assert (Gs : G s = true).
      { pose proof (X3 x ltac:(lia)) as T. unfold f in T. apply andb_true_iff in T. destruct T as [T _].
        replace (x / 512) with s in T; [exact T|]. clear - X1 X2 Hc. zdiv. }
      rewrite (proj1 (HG s Gs)). cbn [negb].
      assert (Eg : forall j, 0 <= j < 512 -> f (s * 512 + j) = g (chunk h s) j).
      { intros j Hj. unfold f, marked, g. replace ((s * 512 + j) / 512) with s by (clear - Hj; zdiv).
        replace ((s * 512 + j) mod 512) with j by (clear - Hj; zdiv). now rewrite Gs. }
      destruct (scan_spec (chunk h s) (proj2 (W s)) count Hc) as (P1 & P2 & P3).
      { exists (x - s * 512). split; [lia|]. split; [lia|]. intros i Hi. rewrite <- Eg by lia. apply X3. lia. }
      set (r := scan_blocks (chunk h s) count 8 0 0 0) in *.
      exists (s * 512 + r). split; [unfold chunk_base, CHUNK_BYTES, PAGE; f_equal; ring|]. split; [lia|]. split; [lia|].
      intros i Hi. replace i with (s * 512 + (i - s * 512)) by lia. rewrite Eg by lia. apply P3. lia.
    - unfold rd_sum. change (sum_count 4) with 33554432. destruct (Z.leb_spec 0 s); [|lia]. destruct (Z.ltb_spec s 33554432); [|lia].
      cbn [andb bind]. cbv zeta in HH. destruct HH as (X1 & X2 & X3).
      exists ((s + 1) * 512 - s_end (summ h 4 s)). split; [unfold chunk_base, CHUNK_BYTES, CHUNK_BITS, PAGE; f_equal; ring|].
      split; [lia|]. split; [lia|exact X3]. }
  destruct Hp as (p & Ep & P0 & PW & PA). rewrite Ep. cbn [bind].
  assert (Em : (BASE + p * PAGE) mod PAGE = 0) by (unfold PAGE, BASE; zdiv). rewrite Em. cbn [Z.eqb negb].
  assert (Gp : forall q, p <= q < p + count -> G (q / 512) = true).
  { intros q Hq. specialize (PA q Hq). unfold f in PA. apply andb_true_iff in PA. apply PA. }
  destruct (chunks_set_spec h G p count true W P0 Hc HG Gp SE) as (h' & E5 & Sm & W' & M' & SE').
  rewrite E5. cbn [bind]. exists h', p. auto 10.
Qed.
