(** Every span lies below the end of the current arena: memory reserved out of order is never searched. *)
From Verif Require Import Base Base_lemmas Zlist Bitmap_model Bitmap_spec Bitmap_proof.
From Verif Require Import Sizeclass_model Sizeclass_proof Pages_model Pages_spec Pages_proof Pages_heap_proof.

(** the regions are below the first hint, or above it and beyond the first terabyte; the other hints are
    beyond the first terabyte, and not below the first hint unless taken *)
Definition hinted (h : heap) : Prop :=
  exists a l, hints h = a :: l /\ BASE <= a /\
    (forall b, In b l -> BASE + HINT_SIZE <= b /\ (a <= b \/ exists r, In r (reserved h) /\ fst r <= b < fst r + snd r)) /\
    (forall r, In r (reserved h) -> fst r + snd r <= a \/ (a <= fst r /\ BASE + HINT_SIZE <= fst r)) /\
    (reserved h = [] \/ a <= end_ h).
Definition below (h : heap) (live : list (Z * Z)) : Prop := Forall (fun r => fst r + snd r * PAGE <= hd 0 (hints h)) live.

Lemma hints_from_far n : forall a b, In b (hints_from n a) -> a <= b.
Proof. induction n as [|n IH]; intros a b; cbn [hints_from In]; [intros []|]. intros [<-|H]; [lia|]. apply IH in H. unfold HINT_SIZE in H. lia. Qed.

Lemma hinted_init : hinted Pages_model.init.
Proof.
  exists BASE, (hints_from 127 (BASE + HINT_SIZE)). split; [reflexivity|]. split; [lia|]. split; [|split; [intros r []|now left]].
  intros b H. apply hints_from_far in H. split; [assumption|]. left. unfold HINT_SIZE in *. lia.
Qed.

Lemma taken_refused grant h b size r : 0 < size -> In r (reserved h) -> fst r <= b < fst r + snd r -> reserve grant h b size = false.
Proof.
  intros S I R. unfold reserve. apply andb_false_iff. right. unfold free_range. apply not_true_iff_false. intros F. rewrite forallb_forall in F. specialize (F r I).
  apply orb_true_iff in F as [F|F]; apply Z.leb_le in F; lia.
Qed.

(** what one reservation does to the hints *)
Lemma try_hints_rest grant h size : 0 < size -> forall l a, (forall b, In b l -> BASE + HINT_SIZE <= b /\ (a <= b \/ exists r, In r (reserved h) /\ fst r <= b < fst r + snd r)) ->
  forall v l', try_hints grant h size l = Ok (v, l') ->
  a <= v /\ BASE + HINT_SIZE <= v /\
  (forall b, In b l' -> BASE + HINT_SIZE <= b /\ (a <= b \/ exists r, In r (reserved h) /\ fst r <= b < fst r + snd r)).
Proof.
  intros S. induction l as [|x l IH]; intros a H v l' E; cbn [try_hints] in E; [discriminate|].
  destruct (reserve grant h x size) eqn:R.
  - injection E as <- <-. destruct (H x (or_introl eq_refl)) as (H1 & [H2|(r & Ir & Rr)]).
    + split; [assumption|]. split; [assumption|]. intros b [<-|Ib]; [split; [lia|left; lia]|]. apply H. now right.
    + rewrite (taken_refused grant h x size r S Ir Rr) in R. discriminate.
  - destruct (try_hints grant h size l) as [(v1 & l1)| | | | |] eqn:E1; cbn [bind] in E; try discriminate. injection E as <- <-.
    destruct (IH a (fun b Ib => H b (or_intror Ib)) v1 l1 eq_refl) as (A & B & C). split; [assumption|]. split; [assumption|].
    intros b [<-|Ib]; [apply H; now left|now apply C].
Qed.

Lemma pick_hinted grant h size h1 cur e : 0 < size -> Forall aligned (reserved h) -> hinted h -> region_pick grant h size = Ok (h1, cur, e) ->
  exists a l, hints h1 = a :: l /\ BASE <= a /\
    (forall b, In b l -> BASE + HINT_SIZE <= b /\ (a <= b \/ exists r, In r (reserved h1) /\ fst r <= b < fst r + snd r)) /\
    (forall r, In r (reserved h1) -> fst r + snd r <= a \/ (a <= fst r /\ BASE + HINT_SIZE <= fst r)) /\
    (reserved h1 = [] \/ a <= e) /\ hd 0 (hints h) <= a.
Proof.
  intros S FA (a & l & E & Ba & Hl & Hr & He). unfold region_pick. destruct (_ <? size).
  2:{ intros X. injection X as <- <- <-. exists a, l. repeat (split; [assumption|]). rewrite E. cbn [hd]. lia. }
  unfold mheap_sys_alloc. destruct (align_arena size) as (n & En & Nn). rewrite En. set (sz := n * ARENA_SIZE) in *. clearbody sz.
  assert (S' : 0 < sz) by lia. rewrite E. cbn [try_hints].
  destruct (reserve grant h a sz) eqn:R.
  - cbn [bind]. destruct (a =? 0); [discriminate|]. intros X.
    assert (X' : hints h1 = a + sz :: l /\ reserved h1 = (a, sz) :: reserved h /\ e = a + sz).
    { destruct (Z.eqb_spec a (end_ h)) as [Q|Q]; cbn [bind] in X; injection X as <- <- <-; cbn [hints reserved]; (split; [reflexivity|]); (split; [reflexivity|]); lia. }
    destruct X' as (-> & -> & ->). exists (a + sz), l. split; [reflexivity|]. split; [lia|]. split; [|split; [|split]].
    + intros b Ib. destruct (Hl b Ib) as (H1 & H2). split; [assumption|]. destruct H2 as [H2|(r & Ir & Rr)]; [|right; exists r; split; [now right|assumption]].
      destruct (Z.le_gt_cases (a + sz) b); [now left|right]. exists (a, sz). split; [now left|]. cbn [fst snd]. lia.
    + intros r [<-|Ir]; [left; cbn [fst snd]; lia|]. destruct (Hr r Ir) as [H|(H1 & H2)]; [left; lia|]. right. split; [|assumption].
      unfold reserve in R. apply andb_true_iff in R as (_ & R). unfold free_range in R. rewrite forallb_forall in R. specialize (R r Ir). apply orb_true_iff in R as [R|R]; apply Z.leb_le in R; [assumption|].
      (* no region is empty *) rewrite Forall_forall in FA. destruct (FA r Ir) as (k & m & _ & K2 & _ & K4 & _). unfold CHUNK_BYTES in K2. lia.
    + right. lia.
    + cbn [hd]. lia.
  - destruct (try_hints grant h sz l) as [(v & l')| | | | |] eqn:Et; cbn [bind]; try discriminate. destruct (v =? 0); [discriminate|]. intros X.
    destruct (try_hints_rest grant h sz S' l a Hl v l' Et) as (A & B & C).
    assert (X' : hints h1 = a :: l' /\ reserved h1 = (v, sz) :: reserved h /\ e = v + sz).
    { destruct (Z.eqb_spec v (end_ h)) as [Q|Q]; cbn [bind] in X; injection X as <- <- <-; cbn [hints reserved]; (split; [reflexivity|]); (split; [reflexivity|]); lia. }
    destruct X' as (-> & -> & ->). exists a, l'. split; [reflexivity|]. split; [assumption|]. split; [|split; [|split]].
    + intros b Ib. destruct (C b Ib) as (H1 & H2). split; [assumption|]. destruct H2 as [H2|(r & Ir & Rr)]; [now left|]. right. exists r. split; [now right|assumption].
    + intros r [<-|Ir]; [right; cbn [fst snd]; lia|auto].
    + right. lia.
    + cbn [hd]. lia.
Qed.

(** the window of the search does not reach a region above the first hint *)
Lemma in_window h live p count : inv h live -> hinted h -> 0 <= p -> 0 < count -> p + count <= window h * 2097152 ->
  (forall q, p <= q < p + count -> cov (grown h) (q / 512) = true) -> BASE + (p + count) * PAGE <= hd 0 (hints h).
Proof.
  intros I (a & l & E & Ba & Hl & Hr & He) P0 C0 W C. rewrite E. cbn [hd]. unfold window in W. rewrite E in W. cbn [hd] in W.
  set (q := p + count - 1). assert (Q : p <= q < p + count) by lia. specialize (C q Q). apply (i_sub h live I) in C. apply cov_true in C as (r & Ir & Rr).
  pose proof (i_resv h live I) as F. rewrite Forall_forall in F. destruct (F r Ir) as (k & n & K1 & K2 & K3 & K4 & _).
  destruct (Hr r Ir) as [H|(H1 & H2)].
  - rewrite K1, K2 in *. replace (p + count) with (q + 1) by lia. clear - H Rr. unfold BASE, CHUNK_BYTES, PAGE in *. zdiv.
  - exfalso. clearbody q. clear F Hr Hl He I E. rewrite K1 in *. assert (Wq : q < ((a - BASE) / (32 * 1024 * 1024 * 1024) + 1) * 2097152) by lia.
    clear W. unfold BASE, CHUNK_BYTES, PAGE, HINT_SIZE in *. change (32 * 1024 * 1024 * 1024) with 34359738368 in *. clear - Ba H1 H2 Rr Wq. zdiv.
Qed.

Lemma alloc_hinted grant h live count h' base : inv h live -> hinted h -> below h live -> alloc_pages grant h count = Ok (h', base) ->
  hinted h' /\ below h' (live ++ [(base, count)]).
Proof.
  intros I H B. unfold alloc_pages. destruct (Z.leb_spec count 0); [discriminate|].
  assert (Last : forall h2 h3 p, inv h2 live -> hinted h2 -> below h2 live -> 0 <= p -> same h2 h3 -> all_in (free_page h2 live) p count -> p + count <= window h2 * 2097152 ->
    hinted h3 /\ below h3 (live ++ [(BASE + p * PAGE, count)])).
  { intros h2 h3 p I2 H2 B2 P0 (S1 & S2 & S3 & S4 & S5 & S6) A W. split.
    - destruct H2 as (a & l & E & X). exists a, l. rewrite S2, S4, S5. auto.
    - unfold below. rewrite S2. apply Forall_app. split; [exact B2|]. constructor; [|constructor]. cbn [fst snd].
      pose proof (in_window h2 live p count I2 H2 P0 H0 W) as X. enough (BASE + (p + count) * PAGE <= hd 0 (hints h2)) by lia. apply X. intros q Hq. specialize (A q Hq). cbn beta in A. unfold free_page in A.
      apply andb_true_iff in A as (A & _). now rewrite <- (in_heap_cov h2 q (i_grown h2 live I2)). }
  destruct (find_inv h live count false I H0) as [(h1 & p & E & P0 & I' & Sm & A & W)|[E _]]; rewrite E; cbn [bind].
  - destruct (Z.eqb_spec (BASE + p * PAGE) 0); [unfold BASE, PAGE in *; lia|]. pose proof (Last h h1 p I H B P0 Sm A W) as X. generalize dependent (BASE + p * PAGE). intros z _ _ _ X Y. injection Y as <- <-. exact X.
  - cbn [Z.eqb]. destruct (mheap_grow_spec grant h live count I H0) as [[E2 _]|(h1 & h2 & a & n & b & E2 & I2 & Pk & G1 & G2 & G3 & _)]; rewrite E2; cbn [bind]; [discriminate|].
    destruct (0 <? s_max (summ h2 0 0)); cbn [bind]; [|discriminate].
    destruct (align_chunk count H0) as (m & Em & M0 & _).
    assert (Sz : 0 < align_up count CHUNK_BITS * PAGE) by (rewrite Em; clear - M0; unfold CHUNK_BYTES; lia).
    destruct (pick_hinted grant h _ h1 _ _ Sz (i_resv h live I) H Pk) as (a1 & l1 & E1 & B1 & X1 & X2 & X3 & X4).
    assert (H2 : hinted h2) by (exists a1, l1; rewrite G1, G2, G3; auto).
    assert (B2 : below h2 live). { unfold below in *. rewrite G1, E1. cbn [hd]. eapply Forall_impl; [|exact B]. intros r Hr. cbv beta in Hr. lia. }
    destruct (find_inv h2 live count true I2 H0) as [(h3 & p & E3 & P0 & I' & Sm & A & W)|[E3 _]]; rewrite E3; cbn [bind]; [|discriminate].
    destruct (Z.eqb_spec (BASE + p * PAGE) 0); [unfold BASE, PAGE in *; lia|]. pose proof (Last h2 h3 p I2 H2 B2 P0 Sm A W) as X. generalize dependent (BASE + p * PAGE). intros z _ _ _ X Y. injection Y as <- <-. exact X.
Qed.

(** ** Freeing changes neither hints nor regions *)
Definition shape (h h' : heap) : Prop := hints h' = hints h /\ end_ h' = end_ h /\ reserved h' = reserved h.
Lemma shape_refl h : shape h h.
Proof. split; [|split]; reflexivity. Qed.
Lemma shape_trans a b c : shape a b -> shape b c -> shape a c.
Proof. intros (A1 & A2 & A3) (B1 & B2 & B3). split; [|split]; congruence. Qed.

Ltac unbind H x :=
  match type of H with
  | bind ?e _ = Ok _ => let E := fresh "E" in destruct e as [x| | | | |] eqn:E; cbn [bind] in H; try discriminate H
  end.

Lemma wr_sum_shape h L i s h' : wr_sum h L i s = Ok h' -> shape h h'.
Proof. unfold wr_sum. destruct (_ && _); [|discriminate]. intros E. injection E as <-. split; [|split]; reflexivity. Qed.

Lemma lowest_shape n : forall h i h', update_lowest h n i = Ok h' -> shape h h'.
Proof.
  induction n as [|n IH]; intros h i h' E; cbn [update_lowest] in E; [injection E as <-; apply shape_refl|].
  destruct (negb _); [discriminate|]. destruct (negb _); [discriminate|]. unbind E h1. eapply shape_trans; [eapply wr_sum_shape; exact E0|eapply IH; exact E].
Qed.
Lemma level_shape L n : forall h i h', update_level h L n i = Ok h' -> shape h h'.
Proof.
  induction n as [|n IH]; intros h i h' E; cbn [update_level] in E; [injection E as <-; apply shape_refl|].
  unbind E l. unbind E s. unbind E h1. eapply shape_trans; [eapply wr_sum_shape; exact E2|eapply IH; exact E].
Qed.
Lemma update_shape h base size h' : page_summary_update h base size = Ok h' -> shape h h'.
Proof.
  unfold page_summary_update. intros E. unbind E h1. unbind E h2. unbind E h3. unbind E h4.
  apply lowest_shape in E0. apply level_shape in E1, E2, E3, E. eauto using shape_trans.
Qed.
Lemma chunks_shape base e v n : forall h i h', chunks_loop h base e v n i = Ok h' -> shape h h'.
Proof.
  induction n as [|n IH]; intros h i h' E; cbn [chunks_loop] in E; [injection E as <-; apply shape_refl|].
  destruct (negb _); [discriminate|]. unbind E c. apply IH in E. eapply shape_trans; [|exact E]. split; [|split]; reflexivity.
Qed.
Lemma free_shape h base count h' : free_pages h base count = Ok h' -> shape h h'.
Proof.
  unfold free_pages, chunks_set. intros E. unbind E h1. apply chunks_shape in E0. apply update_shape in E. eauto using shape_trans.
Qed.

Lemma hinted_shape h h' : shape h h' -> hinted h -> hinted h'.
Proof. intros (A & B & C) (a & l & X). exists a, l. now rewrite A, B, C. Qed.

(** ** Spans *)
From Verif Require Import Spans_model Spans_spec Spans_proof Spans_alloc_proof Spans_malloc_proof Spans_mark_proof Spans_sweep_proof Spans_cycle_proof Spans_world_proof.

Definition tops (st : state) : Prop := hinted (ph st) /\ below (ph st) (map run (spans st)).

Lemma tops_ext st st' : ph st' = ph st -> spans st' = spans st -> tops st -> tops st'.
Proof. unfold tops. now intros -> ->. Qed.

Lemma alloc_span_tops grant st pages class st' s : coreof st -> tops st -> mheap_alloc_span grant st pages class = Ok (st', s) -> tops st'.
Proof.
  unfold mheap_alloc_span. intros Co (T1 & T2) H. unbind H pr. destruct pr as (h & base). unbind H sp. unbind H tb. injection H as <- <-.
  destruct (alloc_hinted grant (ph st) _ pages h base (c_pages _ _ _ _ Co) T1 T2 E) as (H1 & H2).
  unfold mspan_new in E0. unbind E0 pr. destruct pr as (osize & ocount). injection E0 as <-.
  split; [exact H1|]. cbn [upd_mem upd_heap spans ph]. rewrite map_app. exact H2.
Qed.

Lemma put_tops st s s0 : In s0 (spans st) -> run s = run s0 -> tops st -> tops (put st s).
Proof.
  intros I E (T1 & T2). split; [exact T1|]. unfold below in *. cbn [put upd_spans upd_heap ph spans]. fold (subst_span s (spans st)).
  rewrite Forall_map in *. unfold subst_span. rewrite Forall_map. rewrite Forall_forall in *. intros t It. destruct (s_base t =? s_base s); [|auto].
  rewrite E. auto.
Qed.

Lemma get_in st b s : get st b = Ok s -> In s (spans st).
Proof. unfold get. destruct (find _ _) as [t|] eqn:F; [|discriminate]. intros E. injection E as <-. now apply find_some in F. Qed.

Definition alike (st st' : state) : Prop := ph st' = ph st /\ spans st' = spans st /\ table st' = table st /\ mem st' = mem st.
Lemma alike_core st st' : alike st st' -> coreof st -> coreof st'.
Proof. intros (A & B & C & D) Co. unfold coreof. rewrite A, B, C, D. exact Co. Qed.
Lemma alike_tops st st' : alike st st' -> tops st -> tops st'.
Proof. intros (A & B & _). now apply tops_ext. Qed.

Lemma uncache_alike st c b st' : uncache_span st c b = Ok st' -> alike st st'.
Proof. unfold uncache_span. intros H. unbind H s. injection H as <-. destruct (_ =? 0); split; [|split; [|split]| |split; [|split]]; reflexivity. Qed.

Lemma cache_span_tops grant st c st' b : coreof st -> tops st -> cache_span grant st c = Ok (st', b) -> tops st'.
Proof.
  intros Co T. unfold cache_span. intros H. unbind H st1.
  assert (T1 : tops st1).
  { destruct (partial st c); [|now injection E as <-]. unfold mcentral_grow in E. unbind E pg. unbind E pr. destruct pr as (st2 & s).
    apply alloc_span_tops in E1; [|assumption|assumption]. destruct (0 <? s_ocount s); [|discriminate]. now injection E as <-. }
  destruct (partial st1 c); [discriminate|]. unbind H s. destruct (_ =? 0); [discriminate|]. now injection H as <- _.
Qed.

Lemma refill_tops grant st p c st' b : coreof st -> tops st -> mcache_refill grant st p c = Ok (st', b) -> tops st'.
Proof.
  intros Co T. unfold mcache_refill. intros H. unbind H st1.
  assert (A : alike st st1) by (destruct (cache st p c); [eapply uncache_alike; exact E|injection E as <-; repeat split]).
  unbind H pr. destruct pr as (st2 & b2). injection H as <- <-. exact (cache_span_tops grant st1 c st2 b2 (alike_core _ _ A Co) (alike_tops _ _ A T) E0).
Qed.

Lemma mcache_alloc_tops grant st p c st' addr s : coreof st -> tops st -> mcache_alloc grant st p c = Ok (st', addr, s) -> tops st'.
Proof.
  intros Co T. unfold mcache_alloc. intros H. unbind H a. unbind H pr. destruct pr as (st1 & b).
  assert (T1 : tops st1).
  { destruct a; [exact (refill_tops grant st p c st1 b Co T E0)|]. destruct (cache st p c); [|discriminate]. now injection E0 as <- _. }
  unbind H sp. unbind H i. unbind H bits. injection H as <- _ _. apply (put_tops st1 _ sp); [eapply get_in; exact E1|reflexivity|exact T1].
Qed.

Lemma mark_tops st a st' : tops st -> mark st a = Ok st' -> tops st'.
Proof.
  intros T. unfold mark. destruct (span_of st a); [|discriminate]. intros H. unbind H s. unbind H bits. injection H as <-.
  apply (put_tops st _ s); [eapply get_in; exact E|reflexivity|exact T].
Qed.

Lemma malloc_tops grant st p size hp br st' addr : coreof st -> tops st -> gc_malloc grant st p size hp br = Ok (st', addr) -> tops st'.
Proof.
  intros Co T. unfold gc_malloc. intros H. unbind H pr. destruct pr as (st1 & a1).
  assert (T1 : tops st1).
  { destruct (size <=? 32768).
    - unfold std_malloc in E. destruct (size <=? 0); [discriminate|]. unbind E c. unbind E pr. destruct pr as ((st2 & a2) & s). apply mcache_alloc_tops in E1; [|assumption|assumption].
      destruct (span_of _ _); [|discriminate]. destruct (_ =? _); [|discriminate]. now injection E as <- _.
    - unfold large_malloc in E. unbind E pr. destruct pr as (st2 & s). pose proof (alloc_span_tops _ _ _ _ _ _ Co T E0) as T2.
      destruct (negb _); [discriminate|]. unbind E bits. injection E as <- _.
      apply (put_tops (push_full st2 _ (s_base s)) _ s); [|reflexivity|exact T2].
      unfold mheap_alloc_span in E0. unbind E0 pr. destruct pr as (h & base). unbind E0 sp. unbind E0 tb. injection E0 as <- <-. apply in_app_iff. right. now left. }
  destruct br; [|now injection H as <- _]. unbind H st2. injection H as <- _. eapply mark_tops; [exact T1|exact E0].
Qed.

(** the sweep *)
Lemma flush_one_ph st p j st' : flush_one st p j = Ok st' -> ph st' = ph st.
Proof.
  unfold flush_one. destruct (cache st p j); [|intros E; now injection E as <-]. intros H. unbind H s. apply uncache_alike in H as (A & _). exact A.
Qed.
Lemma flush_classes_ph n : forall st p j st', flush_classes st p n j = Ok st' -> ph st' = ph st.
Proof. induction n as [|n IH]; intros st p j st' H; cbn [flush_classes] in H; [now injection H as <-|]. unbind H st1. apply flush_one_ph in E. apply IH in H. congruence. Qed.
Lemma flush_procs_ph n : forall st p st', flush_procs st n p = Ok st' -> ph st' = ph st.
Proof. induction n as [|n IH]; intros st p st' H; cbn [flush_procs] in H; [now injection H as <-|]. unbind H st1. apply flush_classes_ph in E. apply IH in H. congruence. Qed.
Lemma sweep_span_shape st c b st' : sweep_span st c b = Ok st' -> shape (ph st) (ph st').
Proof.
  unfold sweep_span. intros H. unbind H s. destruct (_ && _); [|discriminate]. unbind H acc. destruct acc as (((count & free) & freed) & total).
  destruct (count =? 0).
  - unfold mheap_free_span in H. unbind H h. unbind H t. injection H as <-. apply free_shape in E1. exact E1.
  - injection H as <-. destruct (_ =? _); split; [|split| |split]; reflexivity.
Qed.
Lemma sweep_list_shape l : forall st c st', sweep_list st c l = Ok st' -> shape (ph st) (ph st').
Proof.
  induction l as [|b l IH]; intros st c st' H; cbn [sweep_list] in H; [injection H as <-; apply shape_refl|]. unbind H st1. apply sweep_span_shape in E. apply IH in H. eauto using shape_trans.
Qed.
Lemma sweep_classes_shape n : forall st c st', sweep_classes st n c = Ok st' -> shape (ph st) (ph st').
Proof.
  induction n as [|n IH]; intros st c st' H; cbn [sweep_classes] in H; [injection H as <-; apply shape_refl|]. unbind H st1. unbind H st2.
  apply sweep_list_shape in E, E0. apply IH in H. cbn [upd_full upd_partial ph] in E. eauto using shape_trans.
Qed.
Lemma sweep_shape st st' : sweep st = Ok st' -> shape (ph st) (ph st').
Proof. unfold sweep, flush_mcache. intros H. unbind H st1. apply flush_procs_ph in E. apply sweep_classes_shape in H. now rewrite E in H. Qed.

Lemma sweep_tops st st' : inv st nod -> tops st -> sweep st = Ok st' -> tops st'.
Proof.
  intros I (T1 & T2) E. pose proof (sweep_shape _ _ E) as S. destruct (sweep_spec st I) as [E'|(st1 & E' & _ & Sp & _)]; [congruence|]. assert (st1 = st') as -> by congruence.
  split; [eapply hinted_shape; eauto|]. unfold below in *. destruct S as (-> & _). rewrite Sp. clear - T2.
  induction (spans st) as [|s l IH]; cbn [flat_map map]; [constructor|]. cbn [map] in T2. apply Forall_cons_iff in T2 as (H & T2). rewrite map_app. apply Forall_app. split; [|auto].
  unfold sw. destruct (_ =? 0); cbn [map]; constructor; [exact H|constructor].
Qed.

Lemma step_tops procs w o w' : winv w -> nprocs (fst w) = procs -> hop_ok procs o -> hstep w o = Ok w' -> tops (fst w) -> tops (fst w').
Proof.
  destruct w as (st & objs). intros Iw Np Ho E T. pose proof (proj1 Iw) as I. cbn [fst] in *. destruct o as [p size hp br grant|k off v|addr|]; cbn [hstep] in *.
  - unbind E pr. destruct pr as (st1 & a). injection E as <-. cbn [fst]. exact (malloc_tops _ _ _ _ _ _ _ _ (proj1 I) T E0).
  - destruct (nth_error objs k) as [(a & n)|]; [|now injection E as <-]. destruct (_ && _); now injection E as <-.
  - destruct (span_of st addr); [|now injection E as <-]. unbind E st1. injection E as <-. cbn [fst]. exact (mark_tops _ _ _ T E0).
  - unbind E st1. injection E as <-. cbn [fst]. exact (sweep_tops _ _ I T E0).
Qed.

Lemma tops_init procs junk : tops (init procs junk).
Proof. split; [exact hinted_init|constructor]. Qed.

(** every span lies below the end of the current arena *)
Lemma tops_known st s : coreof st -> tops st -> In s (spans st) -> s_base s + s_pages s * PAGE <= end_ (ph st).
Proof.
  intros Co (T1 & T2) Is. unfold below in T2. rewrite Forall_forall in T2. specialize (T2 (run s) (in_map run _ s Is)). unfold run in T2. cbn [fst snd] in T2.
  destruct T1 as (a & l & E & _ & _ & _ & H). rewrite E in T2. cbn [hd] in T2. destruct H as [H|H]; [|lia]. exfalso.
  pose proof (c_pages _ _ _ _ Co) as P. pose proof (i_live _ _ P) as L. rewrite Forall_forall in L. destruct (L (run s) (in_map run _ s Is)) as (p & _ & _ & N & C).
  pose proof (i_sub _ _ P _ (C p ltac:(lia))) as S. rewrite H in S. discriminate.
Qed.
