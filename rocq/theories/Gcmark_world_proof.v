(** Collections in the course of a history. *)
From Verif Require Import Base Base_lemmas Zlist Bitmap_model Bitmap_spec Bitmap_proof Heapbits_model Heapbits_spec Heapbits_proof.
From Verif Require Import Sizeclass_model Sizeclass_proof Pages_model Pages_spec Pages_heap_proof.
From Verif Require Import Spans_model Spans_spec Spans_proof Spans_alloc_proof Spans_malloc_proof Spans_mark_proof Spans_sweep_proof Spans_cycle_proof Spans_world_proof.
From Verif Require Import Gcmark_arena_proof Gcmark_model Gcmark_spec Gcmark_proof Gcmark_run_proof.

(** whole words, no marks *)
Definition fine (s : span) : Prop := s_osize s mod 8 = 0 /\ forall i, bit (s_mbits s) i = false.
Notation all_fine st := (Forall fine (spans st)).

Lemma new_fine base pages class s : mspan_new base pages class = Ok s -> fine s.
Proof.
  unfold mspan_new, span_layout. intros H. unbind H pr. destruct pr as (osize & ocount). injection H as <-.
  split; cbn [s_osize s_mbits]; [|intros i; apply zeros_bit].
  destruct (take_sizeclass class =? 0).
  - injection E as <- _. change ALLOC_PAGE_SIZE with (1024 * 8). rewrite Z.mul_assoc. apply Z.mod_mul. lia.
  - unbind E z. destruct (0 <? z); [|discriminate]. injection E as <- _. unfold rd in E0. destruct (znth class_obj_size (take_sizeclass class)) as [y|] eqn:Z; [|discriminate]. injection E0 as <-.
    apply znth_In in Z. assert (F : Forall (fun z => z mod 8 = 0) class_obj_size) by (unfold class_obj_size; repeat constructor). rewrite Forall_forall in F. auto.
Qed.

Lemma alloc_span_fine grant st pages class st' s : mheap_alloc_span grant st pages class = Ok (st', s) -> all_fine st -> all_fine st' /\ fine s.
Proof.
  unfold mheap_alloc_span. intros H F. unbind H pr. destruct pr as (h & base). unbind H sp. unbind H tb. injection H as <- <-. apply new_fine in E0.
  cbn [upd_mem upd_heap spans]. split; [|assumption]. apply Forall_app. auto.
Qed.

Lemma get_fine st b s : get st b = Ok s -> all_fine st -> fine s.
Proof. unfold get. destruct (find _ _) as [t|] eqn:E; [|discriminate]. intros H F. injection H as <-. apply find_some in E as (I & _). rewrite Forall_forall in F. auto. Qed.

Lemma put_fine st s : fine s -> all_fine st -> all_fine (put st s).
Proof.
  intros Fs F. rewrite put_spans. unfold subst_span. rewrite Forall_map. eapply Forall_impl; [|exact F]. intros t Ft. cbv beta. now destruct (s_base t =? s_base s).
Qed.

Lemma uncache_fine st c b st' : uncache_span st c b = Ok st' -> all_fine st -> all_fine st'.
Proof. unfold uncache_span. intros H F. unbind H s. injection H as <-. now destruct (_ =? 0). Qed.

Lemma cache_span_fine grant st c st' b : cache_span grant st c = Ok (st', b) -> all_fine st -> all_fine st'.
Proof.
  unfold cache_span. intros H F. unbind H st1.
  assert (F1 : all_fine st1).
  { destruct (partial st c); [|now injection E as <-]. unfold mcentral_grow in E. unbind E pg. unbind E pr. destruct pr as (st2 & s). apply alloc_span_fine in E1 as (F2 & _); [|assumption].
    destruct (0 <? s_ocount s); [|discriminate]. now injection E as <-. }
  destruct (partial st1 c); [discriminate|]. unbind H s. destruct (_ =? 0); [discriminate|]. now injection H as <- _.
Qed.

Lemma refill_fine grant st p c st' b : mcache_refill grant st p c = Ok (st', b) -> all_fine st -> all_fine st'.
Proof.
  unfold mcache_refill. intros H F. unbind H st1.
  assert (F1 : all_fine st1) by (destruct (cache st p c); [eapply uncache_fine; eauto|now injection E as <-]).
  unbind H pr. destruct pr as (st2 & b2). injection H as <- <-. apply (cache_span_fine _ _ _ _ _ E0 F1).
Qed.

Lemma mcache_alloc_fine grant st p c st' addr s : mcache_alloc grant st p c = Ok (st', addr, s) -> all_fine st -> all_fine st'.
Proof.
  unfold mcache_alloc. intros H F. unbind H a. unbind H pr. destruct pr as (st1 & b).
  assert (F1 : all_fine st1).
  { destruct a; [eapply refill_fine; eauto|]. destruct (cache st p c); [|discriminate]. now injection E0 as <- _. }
  unbind H sp. unbind H i. unbind H bits. injection H as <- _ _. apply put_fine; [|assumption]. pose proof (get_fine _ _ _ E1 F1) as G. exact G.
Qed.

Lemma malloc_fine grant st p size hp st' addr : gc_malloc grant st p size hp false = Ok (st', addr) -> all_fine st -> all_fine st'.
Proof.
  unfold gc_malloc. intros H F. unbind H pr. destruct pr as (st1 & a1). injection H as <- _. destruct (size <=? 32768).
  - unfold std_malloc in E. destruct (size <=? 0); [discriminate|]. unbind E c. unbind E pr. destruct pr as ((st2 & a2) & s). apply mcache_alloc_fine in E1; [|assumption].
    destruct (span_of _ _); [|discriminate]. destruct (_ =? _); [|discriminate]. now injection E as <- _.
  - unfold large_malloc in E. unbind E pr. destruct pr as (st2 & s). apply alloc_span_fine in E0 as (F2 & Fs); [|assumption].
    destruct (negb _); [discriminate|]. unbind E bits. injection E as <- _. cbn [upd_allocated spans]. apply put_fine; [exact Fs|exact F2].
Qed.

Lemma sweep_fine st st' : inv st nod -> Forall (fun s => s_osize s mod 8 = 0) (spans st) -> sweep st = Ok st' -> all_fine st'.
Proof.
  intros I F E. destruct (sweep_spec st I) as [E'|(st1 & E' & _ & Sp & _)]; [congruence|]. assert (st1 = st') as -> by congruence. rewrite Sp.
  clear - F. induction F as [|s l H _ IH]; cbn [flat_map]; [constructor|]. apply Forall_app. split; [|assumption].
  unfold sw. destruct (_ =? 0); constructor; [|constructor]. split; [exact H|]. intros i. apply zeros_bit.
Qed.

Lemma step_fine procs w o w' : winv w -> nprocs (fst w) = procs -> hop_ok procs o -> calm o -> hstep w o = Ok w' -> all_fine (fst w) -> all_fine (fst w').
Proof.
  destruct w as (st & objs). intros Iw Np Ho C E F. destruct o as [p size hp br grant|k off v|addr|]; cbn [hstep calm fst] in *.
  - subst br. unbind E pr. destruct pr as (st1 & a). injection E as <-. cbn [fst]. eapply malloc_fine; eauto.
  - destruct (nth_error objs k) as [(a & n)|]; [|now injection E as <-]. destruct (_ && _); now injection E as <-.
  - destruct C.
  - unbind E st1. injection E as <-. cbn [fst]. eapply sweep_fine; [apply Iw| |exact E0]. eapply Forall_impl; [|exact F]. intros s Fs. apply Fs.
Qed.

Lemma fine_unmarked st : all_fine st -> unmarked st.
Proof. intros F x. unfold is_marked. destruct (span_at st x) as [s|] eqn:E; [|reflexivity]. apply span_at_some in E as (I & _). rewrite Forall_forall in F. apply F. assumption. Qed.

Lemma winv_marked st objs st' : winv (st, objs) -> inv st' nod -> slots (spans st') = slots (spans st) -> winv (st', objs).
Proof. intros (I & N & O) I' S. split; [exact I'|]. split; [exact N|]. cbn [fst snd] in *. rewrite S. exact O. Qed.

Lemma geo_words st st0 : geo st st0 -> Forall (fun s => s_osize s mod 8 = 0) (spans st0) -> Forall (fun s => s_osize s mod 8 = 0) (spans st).
Proof.
  intros (G & _) F. apply Forall_forall. intros s Is. assert (I : In (bare s) (map bare (spans st0))) by (rewrite <- G; now apply in_map).
  apply in_map_iff in I as (t & E & It). rewrite Forall_forall in F. specialize (F t It). injection E as _ _ _ E4 _ _ _ _. now rewrite <- E4.
Qed.

Lemma geo_tops st st0 : geo st st0 -> tops st0 -> tops st.
Proof.
  intros (G & _ & P & _) (T1 & T2). split; [now rewrite P|]. rewrite P. replace (map run (spans st)) with (map run (spans st0)); [exact T2|].
  assert (E : forall l, map run l = map run (map bare l)) by (intros l; rewrite map_map; reflexivity). now rewrite (E (spans st0)), <- G, <- E.
Qed.

(** ** One collection *)
Lemma collect_spec procs st objs hb n roots turns :
  winv (st, objs) -> nprocs st = procs -> all_fine st -> tops st -> collectable st hb n roots ->
  exists g, grun hb (seed st n roots) turns = Ok g /\ minv st hb roots n g /\ winv (gst g, objs) /\ nprocs (gst g) = procs /\
    (quiet g -> forall st' objs', hstep (gst g, objs) HSweep = Ok (st', objs') ->
      winv (st', objs') /\ nprocs st' = procs /\ all_fine st' /\ tops st' /\
      (forall a z, In (a, z) objs' <-> In (a, z) objs /\ reach st hb roots a) /\
      (forall a z x, In (a, z) objs' -> a <= x < a + z -> mem st' x = mem st x)).
Proof.
  intros Iw Np F T (S & V & R). pose proof (proj1 Iw) as I. cbn [fst] in I. assert (K : arenas_known st) by (intros s Is; now apply tops_known; [apply I| |]).
  assert (W8 : Forall (fun s => s_osize s mod 8 = 0) (spans st)) by (eapply Forall_impl; [|exact F]; intros s Fs; apply Fs).
  pose proof (seed_minv st hb roots n I K V (fine_unmarked st F) R) as M.
  destruct (grun_spec st hb roots n I K S V W8 turns _ M) as (g & E & Mg). exists g. split; [assumption|]. split; [assumption|].
  assert (Iw' : winv (gst g, objs)) by (eapply winv_marked; [exact Iw|apply Mg|apply Mg]).
  assert (Np' : nprocs (gst g) = procs) by (rewrite (m_np _ _ _ _ _ Mg); exact Np).
  split; [assumption|]. split; [assumption|]. intros Q st' objs' Es.
  destruct (step_ok procs (gst g, objs) HSweep Iw' Np' Logic.I) as [X|(w' & X & Iw2 & Np2 & Eo & Ek)]; [congruence|]. assert (w' = (st', objs')) as -> by congruence. cbn [fst snd] in *.
  split; [assumption|]. split; [assumption|]. split.
  { cbn [hstep] in Es. unbind Es st1. injection Es as -> _. eapply sweep_fine; [apply Iw'| |exact E0]. eapply geo_words; [apply Mg|exact W8]. }
  split.
  { cbn [hstep] in Es. unbind Es st1. injection Es as -> _. eapply sweep_tops; [apply Iw'| |exact E0]. eapply geo_tops; [apply Mg|exact T]. }
  split.
  - intros a z. rewrite (Eo (a, z)). cbn [fst]. split; (intros (H1 & H2); split; [assumption|]).
    all: destruct (proj2 (proj2 Iw) a z H1) as (_ & y & Iy & _); cbn [fst] in Iy; apply in_slots in Iy; destruct Iy as (s & i & Is & Hi & B & Ei & _).
    all: assert (Ea : slot_start st a = Some a).
    1,3: pose proof (c_wf _ _ _ _ (proj1 I)) as W; rewrite Forall_forall in W; pose proof (W s Is) as Ws; destruct (slot_range s i Ws Hi) as (R1 & R2); pose proof (w_osize s Ws) as Oz;
      unfold slot_start; rewrite (span_at_in st s a (proj1 I) Is) by lia; rewrite Ei; rewrite (slot_index s i (slot s i) Oz) by lia; reflexivity.
    + now apply (quiet_exact st hb roots n I g Mg Q a a Ea).
    + now apply (quiet_exact st hb roots n I g Mg Q a a Ea).
  - intros a z x Ia Hx. rewrite (Ek a z x Ia Hx). destruct (m_geo _ _ _ _ _ Mg) as (_ & _ & _ & G). now rewrite G.
Qed.

Lemma history_inv procs w : history procs w -> winv w /\ nprocs (fst w) = procs /\ all_fine (fst w) /\ tops (fst w).
Proof.
  induction 1 as [junk|w o w' H (I1 & I2 & I3 & I4) C Ho E|st objs hb n roots turns g w' H (I1 & I2 & I3 & I4) C E Q Es].
  - split; [apply winv_init|]. split; [reflexivity|]. split; [constructor|apply tops_init].
  - destruct (step_ok procs w o I1 I2 Ho) as [X|(w1 & X & I1' & I2' & _)]; [congruence|]. assert (w1 = w') as -> by congruence.
    split; [assumption|]. split; [assumption|]. split; [exact (step_fine procs w o w' I1 I2 Ho C E I3)|]. exact (step_tops procs w o w' I1 I2 Ho E I4).
  - destruct (collect_spec procs st objs hb n roots turns I1 I2 I3 I4 C) as (g' & E' & _ & _ & _ & P). assert (g' = g) as -> by congruence.
    destruct w' as (st' & objs'). destruct (P Q st' objs' Es) as (P1 & P2 & P3 & P4 & _). auto.
Qed.
