(** Marking with the program paused: geometry of the spans, the effect of one mark. *)
From Verif Require Import Base Base_lemmas Zlist Bitmap_model Bitmap_spec Bitmap_proof Heapbits_model Heapbits_spec Heapbits_proof.
From Verif Require Import Sizeclass_model Sizeclass_proof Pages_model Pages_spec Pages_heap_proof.
From Verif Require Import Spans_model Spans_spec Spans_proof Spans_alloc_proof Spans_malloc_proof Spans_mark_proof Spans_sweep_proof Spans_cycle_proof Spans_world_proof.
From Verif Require Import Gcmark_model Gcmark_spec.

(** no span lies above the end of the current arena *)
Definition arenas_known (st : state) : Prop :=
  forall s, In s (spans st) -> s_base s + s_pages s * PAGE <= end_ (ph st).

(** a span without its marks *)
Definition bare (s : span) : span :=
  mk_span (s_base s) (s_pages s) (s_class s) (s_osize s) (s_ocount s) (s_acount s) (s_findex s) (s_abits s) [] (s_nz s).

(** st differs from st0 in the marks only *)
Definition geo (st st0 : state) : Prop :=
  map bare (spans st) = map bare (spans st0) /\ table st = table st0 /\ ph st = ph st0 /\ mem st = mem st0.

Lemma geo_refl st : geo st st.
Proof. split; [|split; [|split]]; reflexivity. Qed.
Lemma geo_trans a b c : geo a b -> geo b c -> geo a c.
Proof. intros (A1 & A2 & A3 & A4) (B1 & B2 & B3 & B4). split; [congruence|]. split; [congruence|]. split; congruence. Qed.

Lemma find_bare (p : span -> bool) l : (forall s, p (bare s) = p s) -> option_map bare (find p l) = find p (map bare l).
Proof. intros H. induction l as [|s l IH]; cbn [find map option_map]; [reflexivity|]. rewrite H. destruct (p s); [reflexivity|exact IH]. Qed.

Lemma span_at_geo st st0 v : geo st st0 -> option_map bare (span_at st v) = option_map bare (span_at st0 v).
Proof. intros (G & _). unfold span_at. rewrite !find_bare by reflexivity. now rewrite G. Qed.

Lemma slot_start_geo st st0 v : geo st st0 -> slot_start st v = slot_start st0 v.
Proof.
  intros G. pose proof (span_at_geo st st0 v G) as E. unfold slot_start.
  destruct (span_at st v) as [s|], (span_at st0 v) as [t|]; cbn [option_map] in E; try discriminate; [|reflexivity].
  injection E as E1 E2 E3 E4 E5 E6 E7 E8 E9. now rewrite E1, E4.
Qed.

Lemma span_of_geo st st0 v : geo st st0 -> span_of st v = span_of st0 v.
Proof. intros (_ & T & P & _). unfold span_of. now rewrite T, P. Qed.

Lemma known_geo st st0 : geo st st0 -> arenas_known st0 -> arenas_known st.
Proof.
  intros (G & _ & P & _) K s Is. rewrite P. assert (I : In (bare s) (map bare (spans st0))) by (rewrite <- G; now apply in_map).
  apply in_map_iff in I as (t & E & It). specialize (K t It). injection E as E1 E2 _. now rewrite <- E1, <- E2.
Qed.

Lemma span_at_some st v s : span_at st v = Some s -> In s (spans st) /\ s_base s <= v < s_base s + s_pages s * PAGE.
Proof. unfold span_at. intros E. apply find_some in E as (I & B). apply andb_true_iff in B as (B1 & B2). apply Z.leb_le in B1. apply Z.ltb_lt in B2. auto. Qed.

Lemma span_base st s : coreof st -> In s (spans st) -> exists p, s_base s = BASE + p * PAGE /\ 0 <= p.
Proof.
  intros Co Is. pose proof (i_live _ _ (c_pages _ _ _ _ Co)) as L. rewrite Forall_forall in L.
  destruct (L (run s) (in_map run _ s Is)) as (p & E & P0 & _). exists p. exact (conj E P0).
Qed.

(** an address is given a span by the tables of the allocator exactly when it lies in one *)
Lemma span_of_at st v : coreof st -> arenas_known st -> span_of st v = option_map s_base (span_at st v).
Proof.
  intros Co K. destruct (span_at st v) as [s|] eqn:Ev; cbn [option_map].
  - apply span_at_some in Ev as (Is & R). destruct (span_base st s Co Is) as (p & Ep & P0). specialize (K s Is).
    unfold span_of. destruct (Z.leb_spec v 0); [exfalso; clear - R Ep P0 H; unfold BASE, PAGE in *; lia|].
    destruct (inv_granted _ _ (run s) v (c_pages _ _ _ _ Co) (in_map run _ _ Is)) as (_ & g & Ig & Rg); [exact R|].
    replace (has_arena (ph st) v) with true.
    + exact (c_tab1 _ _ _ _ Co s _ Is (page_in_span _ _ _ _ s v Co Is R)).
    + symmetry. unfold has_arena. rewrite !andb_true_iff, Z.leb_le, Z.ltb_lt, existsb_exists. split; [clear - R Ep P0 K; unfold PAGE in *; lia|].
      exists g. split; [assumption|]. rewrite andb_true_iff, Z.leb_le, Z.ltb_lt. clear - Rg; lia.
  - unfold span_of. destruct (v <=? 0); [reflexivity|]. destruct (has_arena (ph st) v) eqn:Ha; [|reflexivity].
    destruct (table st (page_no v)) as [b|] eqn:Et; [|reflexivity]. exfalso.
    destruct (c_tab2 _ _ _ _ Co _ _ Et) as (s & Is & _ & Ps). unfold has_arena in Ha. rewrite !andb_true_iff, Z.leb_le in Ha.
    rewrite (span_at_in st s v Co Is) in Ev; [discriminate|]. eapply span_of_page; eauto. tauto.
Qed.

(** the slot of a slot start is itself; a mark is a matter of the slot *)
Lemma slot_facts st v a : coreof st -> slot_start st v = Some a ->
  exists s, In s (spans st) /\ span_at st v = Some s /\ span_at st a = Some s /\ s_base s <= v < s_base s + s_pages s * PAGE /\ 0 < s_osize s /\
    a = s_base s + (v - s_base s) / s_osize s * s_osize s /\ (a - s_base s) / s_osize s = (v - s_base s) / s_osize s /\ 0 <= (v - s_base s) / s_osize s.
Proof.
  intros Co E. unfold slot_start in E. destruct (span_at st v) as [s|] eqn:Ev; [|discriminate]. injection E as <-.
  pose proof (span_at_some _ _ _ Ev) as (Is & R). pose proof (c_wf _ _ _ _ Co) as W. rewrite Forall_forall in W. pose proof (w_osize s (W s Is)) as Oz.
  assert (Q : 0 <= (v - s_base s) / s_osize s) by (apply Z.div_pos; lia). pose proof (Z.mul_div_le (v - s_base s) (s_osize s) Oz) as L.
  exists s. repeat (split; [solve [auto]|]). split.
  - apply span_at_in; [assumption|assumption|]. nia.
  - split; [assumption|]. split; [assumption|]. split; [reflexivity|]. split; [|assumption].
    replace (s_base s + (v - s_base s) / s_osize s * s_osize s - s_base s) with ((v - s_base s) / s_osize s * s_osize s) by ring. apply Z.div_mul. lia.
Qed.

Lemma slot_idem st v a : coreof st -> slot_start st v = Some a -> slot_start st a = Some a.
Proof. intros Co E. destruct (slot_facts st v a Co E) as (s & _ & _ & Ea & _ & _ & A & D & _). unfold slot_start. rewrite Ea, D. now rewrite <- A. Qed.

Lemma marked_start st v a : coreof st -> slot_start st v = Some a -> is_marked st a = is_marked st v.
Proof. intros Co E. destruct (slot_facts st v a Co E) as (s & _ & Ev & Ea & _ & _ & A & D & _). unfold is_marked. now rewrite Ev, Ea, D. Qed.

Lemma marked_in st v : is_marked st v = true -> exists a, slot_start st v = Some a.
Proof. unfold is_marked, slot_start. destruct (span_at st v); [eauto|discriminate]. Qed.

Lemma put_spans st s : spans (put st s) = subst_span s (spans st).
Proof. reflexivity. Qed.

(** ** The effect of a mark *)
Lemma mark_effect st v a : inv st nod -> arenas_known st -> slot_start st v = Some a ->
  exists s bits, span_at st v = Some s /\ In s (spans st) /\ updated (fun j => j =? (v - s_base s) / s_osize s) true (s_mbits s) bits /\
  mark st v = Ok (put st (set_mark s bits)) /\ inv (put st (set_mark s bits)) nod /\ geo (put st (set_mark s bits)) st /\
  slots (spans (put st (set_mark s bits))) = slots (spans st) /\
  (forall x, is_marked (put st (set_mark s bits)) x = true <-> is_marked st x = true \/ slot_start st x = Some a).
Proof.
  intros I K Ea. pose proof (proj1 I) as Co. destruct (slot_facts st v a Co Ea) as (s & Is & Ev & _ & R & Oz & A & _ & Q).
  assert (Es : span_of st v = Some (s_base s)) by (rewrite span_of_at by assumption; now rewrite Ev).
  destruct (mark_spec st nod v (s_base s) I Es) as (s' & bits & Is' & Eb & R' & _ & U & M & I' & Sl).
  pose proof (spans_nodup _ _ _ _ Co) as N. assert (s' = s) as -> by (eapply base_inj; eauto).
  exists s, bits. split; [assumption|]. split; [assumption|]. split; [assumption|]. split; [assumption|]. split; [assumption|].
  assert (G : geo (put st (set_mark s bits)) st).
  { split; [|split; [|split]]; try reflexivity. rewrite put_spans. destruct (in_split _ _ Is) as (l1 & l2 & El). rewrite El in *.
    rewrite (subst_split s (set_mark s bits) l1 l2 N eq_refl). rewrite !map_app. reflexivity. }
  split; [assumption|]. split; [assumption|]. pose proof (proj1 I') as Co'. destruct U as (_ & _ & U).
  assert (In' : forall t, In t (spans (put st (set_mark s bits))) <-> t = set_mark s bits \/ In t (spans st) /\ s_base t <> s_base s).
  { intros t. rewrite put_spans. exact (subst_in (set_mark s bits) (spans st) s N Is eq_refl t). }
  intros x. pose proof (span_at_geo _ _ x G) as Gx. unfold is_marked, slot_start.
  destruct (span_at st x) as [t|] eqn:Et; destruct (span_at (put st (set_mark s bits)) x) as [t'|] eqn:Et'; cbn [option_map] in Gx; try discriminate; [|split; [discriminate|intros [?|?]; discriminate]].
  pose proof (span_at_some _ _ _ Et) as (It & Rt). pose proof (span_at_some _ _ _ Et') as (It' & Rt').
  injection Gx as G1 G2 G3 G4 G5 _ _ _ _. rewrite G1, G4.
  assert (Qx : 0 <= (x - s_base t) / s_osize t).
  { apply Z.div_pos; [lia|]. pose proof (c_wf _ _ _ _ Co) as W. rewrite Forall_forall in W. apply (w_osize t (W t It)). }
  apply In' in It' as [E'|(It' & Nt)].
  - subst t'. cbn [set_mark s_base s_osize s_mbits] in *. assert (t = s) as -> by (eapply base_inj; eauto).
    rewrite U by assumption. destruct (Z.eqb_spec ((x - s_base s) / s_osize s) ((v - s_base s) / s_osize s)) as [E|E].
    + rewrite E. split; [intros _; right; now rewrite A|reflexivity].
    + split; [now left|]. intros [H|H]; [assumption|]. exfalso. injection H as H. apply E. rewrite A in H. nia.
  - assert (t' = t) as -> by (eapply base_inj; eauto). split; [now left|]. intros [H|H]; [assumption|]. exfalso. injection H as H.
    assert (Ra : s_base t <= a < s_base t + s_pages t * PAGE).
    { rewrite <- H. pose proof (c_wf _ _ _ _ Co) as W. rewrite Forall_forall in W. pose proof (w_osize t (W t It)) as Ot. pose proof (Z.mul_div_le (x - s_base t) (s_osize t) Ot). nia. }
    assert (Rs : s_base s <= a < s_base s + s_pages s * PAGE).
    { rewrite A. pose proof (Z.mul_div_le (v - s_base s) (s_osize s) Oz). nia. }
    exact (spans_disjoint _ _ _ _ t s a Co It Is Nt Ra Rs).
Qed.
