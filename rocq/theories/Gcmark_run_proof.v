(** The invariant of marking, and why marking ends. *)
From Verif Require Import Base Base_lemmas Zlist Bitmap_model Bitmap_spec Bitmap_proof Heapbits_model Heapbits_spec Heapbits_proof.
From Verif Require Import Sizeclass_model Sizeclass_proof Pages_model Pages_spec Pages_heap_proof Linkco_proof.
From Verif Require Import Spans_model Spans_spec Spans_proof Spans_alloc_proof Spans_malloc_proof Spans_mark_proof Spans_sweep_proof Spans_cycle_proof Spans_world_proof.
From Verif Require Import Gcmark_model Gcmark_spec Gcmark_proof.
From Coq Require Import Permutation.

(** all pending values *)
Definition pending (w : gc) : list Z := concat (lists w) ++ glob w.

Definition valid (n : nat) (p : option nat) : Prop := match p with Some p => (p < n)%nat | None => True end.

Lemma insert_pending w p v : valid (length (lists w)) p ->
  Permutation (pending (insert w p v)) (v :: pending w) /\ gst (insert w p v) = gst w /\ length (lists (insert w p v)) = length (lists w).
Proof.
  destruct p as [p|]; cbn [valid insert]; intros V; unfold pending; cbn [gst lists glob].
  - destruct (nth_error (lists w) p) as [o|] eqn:E; [|apply nth_error_None in E; lia]. rewrite (nth_error_nth _ _ _ E).
    split; [|split; [reflexivity|apply length_list_set]].
    apply (Permutation_app_tail (glob w) (l := concat (list_set (lists w) p (o ++ [v]))) (l' := v :: concat (lists w))).
    apply (concat_give (lists w) p o (o ++ [v]) [v] E). apply Permutation_app_comm.
  - split; [|split; reflexivity]. rewrite app_assoc. symmetry. apply Permutation_cons_append.
Qed.

Lemma offer_pending w p v : valid (length (lists w)) p ->
  gst (offer w p v) = gst w /\ length (lists (offer w p v)) = length (lists w) /\
  Permutation (pending (offer w p v)) (match span_of (gst w) v with Some _ => v :: pending w | None => pending w end).
Proof.
  intros V. unfold offer. destruct (span_of (gst w) v); [|auto]. destruct (insert_pending w p v V) as (A & B & C). auto.
Qed.

Lemma word_value m a : word_at m a = value_of m a.
Proof. unfold word_at, value_of. cbn [fold_right]. rewrite (Z.add_0_r a). lia. Qed.

Lemma offer_words_pending p ws : forall w, valid (length (lists w)) p ->
  gst (offer_words w p ws) = gst w /\ length (lists (offer_words w p ws)) = length (lists w) /\
  (forall v, In v (pending (offer_words w p ws)) <-> In v (pending w) \/ exists a, In a ws /\ v = value_of (mem (gst w)) a /\ span_of (gst w) v <> None) /\
  (length (pending (offer_words w p ws)) <= length (pending w) + length ws)%nat.
Proof.
  induction ws as [|a ws IH]; intros w V; cbn [offer_words].
  - split; [reflexivity|]. split; [reflexivity|]. split; [|cbn [List.length]; lia]. intros v. split; [now left|]. intros [H|(a & [] & _)]. assumption.
  - rewrite word_value. destruct (offer_pending w p (value_of (mem (gst w)) a) V) as (O1 & O2 & O3).
    destruct (IH (offer w p (value_of (mem (gst w)) a))) as (I1 & I2 & I3 & I4); [now rewrite O2|]. rewrite O1 in *. rewrite O2 in *.
    split; [assumption|]. split; [assumption|]. split.
    + intros v. rewrite I3. clear I1 I2 I3 I4.
      assert (Q : In v (pending (offer w p (value_of (mem (gst w)) a))) <-> In v (pending w) \/ (v = value_of (mem (gst w)) a /\ span_of (gst w) v <> None)).
      { split; intros H.
        - apply (Permutation_in _ O3) in H. destruct (span_of (gst w) (value_of (mem (gst w)) a)) eqn:E; [|now left].
          destruct H as [<-|H]; [right; split; [reflexivity|congruence]|now left].
        - apply (Permutation_in _ (Permutation_sym O3)). destruct H as [H|(-> & H)].
          + destruct (span_of _ _); [now right|assumption].
          + destruct (span_of _ _); [now left|contradiction]. }
      rewrite Q. cbn [In]. split.
      * intros [[H|(E & H)]|(b & Ib & E & H)]; [now left|right; exists a; auto|right; exists b; auto].
      * intros [H|(b & [<-|Ib] & E & H)]; [now left; left|left; right; auto|right; exists b; auto].
    + apply Permutation_length in O3. destruct (span_of (gst w) (value_of (mem (gst w)) a)); cbn [List.length] in *; lia.
Qed.

Lemma offer_roots_pending roots : forall w, (forall p v, In (p, v) roots -> (p < length (lists w))%nat) ->
  gst (offer_roots w roots) = gst w /\ length (lists (offer_roots w roots)) = length (lists w) /\
  (forall v, In v (pending (offer_roots w roots)) <-> In v (pending w) \/ exists p, In (p, v) roots /\ span_of (gst w) v <> None).
Proof.
  induction roots as [|(q & r) roots IH]; intros w V; cbn [offer_roots].
  - split; [reflexivity|]. split; [reflexivity|]. intros v. split; [now left|]. intros [H|(a & [] & _)]. assumption.
  - destruct (offer_pending w (Some q) r) as (O1 & O2 & O3); [apply (V q r); now left|].
    destruct (IH (offer w (Some q) r)) as (I1 & I2 & I3); [intros p v I; rewrite O2; apply (V p v); now right|]. rewrite O1 in *. rewrite O2 in *.
    split; [assumption|]. split; [assumption|].
    intros v. rewrite I3. clear I1 I2 I3.
    assert (Q : In v (pending (offer w (Some q) r)) <-> In v (pending w) \/ (v = r /\ span_of (gst w) v <> None)).
    { split; intros H.
      - apply (Permutation_in _ O3) in H. destruct (span_of (gst w) r) eqn:E; [|now left].
        destruct H as [<-|H]; [right; split; [reflexivity|congruence]|now left].
      - apply (Permutation_in _ (Permutation_sym O3)). destruct H as [H|(-> & H)].
        + destruct (span_of _ _); [now right|assumption].
        + destruct (span_of _ _); [now left|contradiction]. }
    rewrite Q. cbn [In]. split.
    * intros [[H|(E & H)]|(b & Ib & H)]; [now left|right; exists q; subst v; auto|right; exists b; auto].
    * intros [H|(b & [E|Ib] & H)]; [now left; left|injection E as -> ->; left; right; auto|right; exists b; auto].
Qed.

Lemma has_ptr_odd c : has_ptr c = negb (Z.odd c).
Proof. unfold has_ptr. change 1 with (Z.ones 1). rewrite Z.land_ones by lia. change (2 ^ 1) with 2. rewrite Zmod_odd. now destruct (Z.odd c). Qed.

Lemma pointer_word_geo st st0 hb a x : geo st st0 -> pointer_word st hb a x -> pointer_word st0 hb a x.
Proof.
  intros G (s & Es & H1 & H2 & H3). pose proof (span_at_geo _ _ a G) as E. rewrite Es in E. destruct (span_at st0 a) as [t|] eqn:Et; [|discriminate].
  cbn [option_map] in E. injection E as E1 E2 E3 E4 _ _ _ _ _. exists t. rewrite <- E3, <- E4. auto.
Qed.
Lemma geo_sym a b : geo a b -> geo b a.
Proof. intros (A1 & A2 & A3 & A4). split; [|split; [|split]]; congruence. Qed.

(** what is left to mark, weighted by what each slot can still offer *)
Definition weight (s : span) : Z := (1 + Z.of_nat (turns (s_osize s))) * (s_ocount s - population (s_mbits s) (Z.to_nat (s_ocount s))).
Definition weights (l : list span) : Z := fold_right (fun s t => weight s + t) 0 l.
Definition measure (w : gc) : Z := weights (spans (gst w)) + zlen (pending w).

Lemma weights_app a b : weights (a ++ b) = weights a + weights b.
Proof. induction a as [|s a IH]; cbn [app weights fold_right]; [reflexivity|]. unfold weights in *. rewrite IH. lia. Qed.

Lemma weights_put st s s' : NoDup (map s_base (spans st)) -> In s (spans st) -> s_base s = s_base s' ->
  weights (spans (put st s')) = weights (spans st) - weight s + weight s'.
Proof.
  intros N I E. rewrite put_spans. destruct (in_split _ _ I) as (l1 & l2 & El). rewrite El in *. rewrite (subst_split s s' l1 l2 N E).
  rewrite !weights_app. cbn [weights fold_right]. fold (weights l2). lia.
Qed.

Lemma weights_nonneg st : coreof st -> 0 <= weights (spans st).
Proof.
  intros Co. pose proof (c_wf _ _ _ _ Co) as W. induction (spans st) as [|s l IH]; cbn [weights fold_right]; [lia|].
  apply Forall_cons_iff in W as (Ws & W). specialize (IH W). unfold weights in IH. pose proof (population_bounds (s_mbits s) (Z.to_nat (s_ocount s))) as B.
  pose proof (w_ocount s Ws). rewrite Z2Nat.id in B by lia.
  assert (0 <= weight s) by (unfold weight; apply Z.mul_nonneg_nonneg; lia). lia.
Qed.

Section Marking.
Variables (st0 : state) (hb : Heapbits_model.heap) (roots : list (nat * Z)) (n : nat).
Hypothesis I0 : inv st0 nod.
Hypothesis K0 : arenas_known st0.
Hypothesis S0 : scannable st0 hb.
Hypothesis V0 : values_ok st0 hb roots.
Hypothesis W0 : Forall (fun s => s_osize s mod 8 = 0) (spans st0).

Let reached := reach st0 hb roots.

(** the slot is marked, or a pointer to it is pending *)
Definition covered (w : gc) (b : Z) : Prop := is_marked (gst w) b = true \/ exists v, In v (pending w) /\ slot_start st0 v = Some b.

Record minv (w : gc) : Prop := mk_minv {
  m_inv : inv (gst w) nod;
  m_geo : geo (gst w) st0;
  m_slots : slots (spans (gst w)) = slots (spans st0);
  m_np : nprocs (gst w) = nprocs st0;
  m_len : length (lists w) = n;
  m_pend : forall v, In v (pending w) -> in_slot st0 v /\ exists a, slot_start st0 v = Some a /\ reached a;
  m_mark : forall x, is_marked (gst w) x = true -> exists a, slot_start st0 x = Some a /\ reached a;
  m_root : forall p v a, In (p, v) roots -> slot_start st0 v = Some a -> covered w a;
  m_edge : forall a x b, is_marked (gst w) a = true -> slot_start st0 a = Some a -> pointer_word st0 hb a x ->
    slot_start st0 (value_of (mem st0) x) = Some b -> covered w b }.

Lemma handle_spec w p v l : valid n p -> minv w -> Permutation (pending w) (v :: l) ->
  forall w1, gst w1 = gst w -> length (lists w1) = n -> pending w1 = l ->
  exists w', handle_gc_ptr hb w1 p v = Ok w' /\ minv w' /\ measure w' < measure w.
Proof.
  intros V M P w1 G1 L1 P1. destruct (m_pend w M v) as (Iv & a & Ea & Ra); [apply (Permutation_in v (Permutation_sym P)); now left|].
  pose proof (m_inv w M) as Iw. pose proof (proj1 Iw) as Co. pose proof (m_geo w M) as Gw. pose proof (known_geo _ _ Gw K0) as Kw.
  assert (Ea' : slot_start (gst w) v = Some a) by (rewrite (slot_start_geo _ _ v Gw); exact Ea).
  destruct (slot_facts (gst w) v a Co Ea') as (s & Is & Ev & Esa & R & Oz & A & D & Q).
  pose proof (c_wf _ _ _ _ Co) as W. rewrite Forall_forall in W. pose proof (W s Is) as Ws.
  (* the same span before marking *)
  assert (T : exists t, span_at st0 v = Some t /\ In t (spans st0) /\ bare s = bare t).
  { pose proof (span_at_geo _ _ v Gw) as E. rewrite Ev in E. destruct (span_at st0 v) as [t|] eqn:Et; [|discriminate]. exists t. split; [reflexivity|]. split; [apply (span_at_some _ _ _ Et)|].
    cbn [option_map] in E. injection E. intros. unfold bare. congruence. }
  destruct T as (t & Et & It & Eb). injection Eb as B1 B2 B3 B4 B5 _ _ _ _.
  pose proof (Iv t Et) as Hi. rewrite <- B1, <- B4, <- B5 in Hi.
  unfold handle_gc_ptr. rewrite G1. rewrite (span_of_at _ _ Co Kw), Ev. cbn [option_map].
  rewrite (get_ok (gst w) s (spans_nodup _ _ _ _ Co) Is). cbn [bind]. rewrite <- A.
  rewrite (test_spec (s_mbits s)).
  2:{ unfold capacity. rewrite (w_ml s Ws). pose proof (words_cap (s_ocount s)). pose proof (w_ocount s Ws). lia. }
  cbn [bind]. destruct (bit (s_mbits s) ((v - s_base s) / s_osize s)) eqn:Bt.
  - (* marked before *)
    exists w1. split; [reflexivity|].
    assert (Ma : is_marked (gst w) a = true) by (rewrite (marked_start _ v a Co Ea'); unfold is_marked; now rewrite Ev).
    assert (Cv : forall b, covered w b -> covered w1 b).
    { intros b [H|(u & Iu & Eu)]; [left; now rewrite G1|]. apply (Permutation_in u P) in Iu as [<-|Iu].
      - left. rewrite G1. assert (b = a) as -> by congruence. exact Ma.
      - right. exists u. rewrite P1. auto. }
    split.
    + constructor; rewrite ?G1; try apply M; auto.
      * intros u Iu. rewrite P1 in Iu. apply (m_pend w M). apply (Permutation_in u (Permutation_sym P)). now right.
      * intros q u b I1 I2. apply Cv. eapply (m_root w M); eauto.
      * intros b x c H1 H2 H3 H4. apply Cv. eapply (m_edge w M); eauto.
    + unfold measure. rewrite G1, P1. apply Permutation_length in P. unfold zlen. rewrite P. cbn [List.length]. lia.
  - (* marked now *)
    assert (Ea2 : slot_start (gst w) a = Some a) by (eapply slot_idem; eauto).
    destruct (mark_effect (gst w) a a Iw Kw Ea2) as (s1 & bits & Es1 & _ & U & Em & Im & Gm & Sm & Km).
    assert (s1 = s) as -> by congruence. rewrite Em. cbn [bind]. rewrite D in U.
    set (st' := put (gst w) (set_mark s bits)) in *.
    assert (G' : geo st' st0) by (eapply geo_trans; eauto).
    assert (Np : nprocs st' = nprocs st0) by apply (m_np w M).
    (* the words of the object *)
    assert (X : exists w', (if has_ptr (s_class s) then words <- scan ARENA_SIZE hb (a - BASE) (s_osize s) ;; Ok (offer_words (mk_gc st' (lists w1) (glob w1)) p (map (fun x => x + BASE) words))
                   else Ok (mk_gc st' (lists w1) (glob w1))) = Ok w' /\ gst w' = st' /\ length (lists w') = n /\
               (forall u, In u (pending w') <-> In u l \/ exists x, pointer_word st0 hb a x /\ u = value_of (mem st0) x /\ span_of st0 u <> None) /\
               (length (pending w') <= length l + turns (s_osize s))%nat).
    { assert (Sa : span_at st0 a = Some t).
      { pose proof (span_at_geo _ _ a Gw) as E. rewrite Esa in E. destruct (span_at st0 a) as [t'|] eqn:Et'; [|discriminate]. cbn [option_map] in E. injection E as E1 _.
        f_equal. apply (base_inj (spans st0)); [apply (spans_nodup _ _ _ _ (proj1 I0))|apply (span_at_some _ _ _ Et')|assumption|congruence]. }
      rewrite has_ptr_odd. destruct (Z.odd (s_class s)) eqn:Od; cbn [negb].
      - exists (mk_gc st' (lists w1) (glob w1)). split; [reflexivity|]. split; [reflexivity|]. split; [exact L1|]. unfold pending at 1 2. cbn [lists glob]. fold (pending w1). rewrite P1.
        split; [|lia]. intros u. split; [now left|]. intros [H|(x & (t' & Et' & Od' & _) & _)]; [assumption|]. exfalso. rewrite Sa in Et'. injection Et' as <-. congruence.
      - destruct (S0 t ((v - s_base s) / s_osize s) It) as (S1 & S2); [congruence|rewrite <- B5; lia|]. cbv zeta in S1, S2.
        rewrite <- B1, <- B4, <- A in S1, S2. rewrite Forall_forall in W0. pose proof (W0 t It) as Z8. rewrite <- B4 in Z8.
        assert (Fa : fits (a - BASE) (s_osize s) (rtype_array 0)).
        { split; [|split; assumption]. destruct (span_base (gst w) s Co Is) as (pg & Ep & Pg0). rewrite A. rewrite Ep. set (i := (v - (BASE + pg * PAGE)) / s_osize s).
          assert (0 <= i) by (subst i; rewrite <- Ep; exact Q). clear - Pg0 H Z8 Oz. unfold word, PAGE. replace (BASE + pg * 8192 + i * s_osize s - BASE) with (pg * 8192 + i * s_osize s) by ring. split; [nia|].
          rewrite Z.add_mod, Z.mul_mod, (Z.mul_mod i), Z8 by lia. change (8192 mod 8) with 0. now rewrite !Z.mul_0_r. }
        destruct (scan_spec ARENA_SIZE ltac:(split; reflexivity) hb (a - BASE) (s_osize s) Fa S1 S2) as (ws & Ew & Hw). rewrite Ew. cbn [bind].
        destruct (offer_words_pending p (map (fun x => x + BASE) ws) (mk_gc st' (lists w1) (glob w1))) as (O1 & O2 & O3 & O4); [cbn [lists]; now rewrite L1|].
        eexists. split; [reflexivity|]. split; [exact O1|]. split; [rewrite O2; exact L1|]. cbn [gst] in *. unfold pending in O3 at 2, O4 at 2. cbn [lists glob] in O3, O4. fold (pending w1) in O3, O4. rewrite P1 in O3, O4. split.
        + intros u. rewrite O3. rewrite (span_of_geo _ _ u G'). destruct G' as (_ & _ & _ & Gm'). rewrite Gm'. split; (intros [H|(x & H1 & H2 & H3)]; [now left|right]).
          * apply in_map_iff in H1 as (y & <- & Iy). apply Hw in Iy as (Y1 & Y2). exists (y + BASE). split; [|auto]. exists t. split; [assumption|]. split; [congruence|]. rewrite <- B4.
            replace (y + BASE - BASE) with y by ring. auto.
          * destruct H1 as (t' & Et' & Od' & Y1 & Y2). rewrite Sa in Et'. injection Et' as <-. rewrite <- B4 in Y1. exists x. split; [|auto]. apply in_map_iff. exists (x - BASE). split; [ring|]. apply Hw. auto.
        + rewrite map_length in O4. assert (LW : (length ws <= turns (s_osize s))%nat); [|lia]. clear - Ew. unfold scan in Ew. revert Ew. generalize (a - BASE) at 2 as temp. generalize (turns (s_osize s)) as k. intros k temp. revert temp ws.
          induction k as [|k IH]; intros temp ws; cbn [scan_loop]; [intros E; injection E as <-; cbn; lia|].
          destruct (hb _) as [bb|]; [|discriminate]. destruct (bitmap_test _ _) as [i| | | | |]; cbn [bind]; try discriminate.
          destruct (scan_loop k _ _ _ _) as [rest| | | | |] eqn:Er; cbn [bind]; try discriminate. apply IH in Er. intros E. injection E as <-. destruct i; cbn [List.length]; lia. }
    destruct X as (w' & Ew' & G2 & L2 & P2 & LP). exists w'. split; [exact Ew'|].
    assert (Mx : forall x, is_marked (gst w') x = true <-> is_marked (gst w) x = true \/ slot_start st0 x = Some a).
    { intros x. rewrite G2. rewrite Km. now rewrite (slot_start_geo _ _ x Gw). }
    assert (Cv : forall b, covered w b -> covered w' b).
    { intros b [H|(u & Iu & Eu)]; [left; apply Mx; now left|]. apply (Permutation_in u P) in Iu as [<-|Iu].
      - left. apply Mx. right. assert (b = a) as -> by congruence. eapply slot_idem; [exact (proj1 I0)|exact Eu].
      - right. exists u. split; [|assumption]. apply P2. now left. }
    split.
    + constructor; rewrite ?G2; auto.
      * rewrite Sm. apply M.
      * intros u Iu. apply P2 in Iu as [Iu|(x & Px & -> & Hx)].
        -- apply (m_pend w M). apply (Permutation_in u (Permutation_sym P)). now right.
        -- split; [now apply (proj2 V0) with a|]. rewrite (span_of_at _ _ (proj1 I0) K0) in Hx.
           destruct (slot_start st0 (value_of (mem st0) x)) as [b|] eqn:Ex; [|exfalso; unfold slot_start in Ex; destruct (span_at st0 (value_of (mem st0) x)); [discriminate|now apply Hx]].
           exists b. split; [reflexivity|]. eapply reach_word; eauto.
      * intros x Hx. rewrite <- G2 in Hx. apply Mx in Hx as [Hx|Hx]; [now apply (m_mark w M)|]. exists a. auto.
      * intros q u b J1 J2. apply Cv. eapply (m_root w M); eauto.
      * intros b x c H1 H2 H3 H4. rewrite <- G2 in H1. apply Mx in H1 as [H1|H1]; [apply Cv; eapply (m_edge w M); eauto|]. assert (b = a) as -> by congruence.
        right. exists (value_of (mem st0) x). split; [|assumption]. apply P2. right. exists x. split; [assumption|]. split; [reflexivity|].
        rewrite (span_of_at _ _ (proj1 I0) K0). unfold slot_start in H4. destruct (span_at st0 (value_of (mem st0) x)); [discriminate|discriminate].
    + unfold measure. rewrite G2. subst st'. rewrite (weights_put (gst w) s (set_mark s bits) (spans_nodup _ _ _ _ Co) Is eq_refl).
      unfold weight at 2. cbn [set_mark s_osize s_ocount s_mbits]. rewrite (population_set (s_mbits s) bits ((v - s_base s) / s_osize s) (Z.to_nat (s_ocount s)) ltac:(lia) Bt U).
      unfold weight. apply Permutation_length in P. unfold zlen. rewrite P. cbn [List.length]. lia.
Qed.

Lemma nth_nil_valid (l : list (list Z)) p v r : nth p l [] = v :: r -> (p < length l)%nat /\ nth_error l p = Some (v :: r).
Proof.
  intros E. destruct (nth_error l p) as [o|] eqn:Eo.
  - split; [apply nth_error_Some; congruence|]. rewrite (nth_error_nth _ _ _ Eo) in E. congruence.
  - exfalso. apply nth_error_None in Eo. rewrite nth_overflow in E by assumption. discriminate.
Qed.

Definition works (w : gc) (t : turn) : Prop := match t with Proc p => nth p (lists w) [] <> [] | Final => glob w <> [] end.

Lemma gstep_spec w t : minv w -> exists w', gstep hb w t = Ok w' /\ minv w' /\ (works w t -> measure w' < measure w).
Proof.
  intros M. destruct t as [p|]; cbn [gstep works].
  - destruct (nth p (lists w) []) as [|v l] eqn:E; [exists w; split; [reflexivity|]; split; [assumption|congruence]|].
    destruct (nth_nil_valid _ _ _ _ E) as (Hp & En).
    destruct (handle_spec w (Some p) v (concat (list_set (lists w) p l) ++ glob w)) with (w1 := mk_gc (gst w) (list_set (lists w) p l) (glob w)) as (w' & E' & M' & D).
    + cbn [valid]. now rewrite <- (m_len w M).
    + assumption.
    + unfold pending. symmetry. apply (Permutation_app_tail (glob w) (l := v :: concat (list_set (lists w) p l))).
      apply (concat_take (lists w) p (v :: l) l [v] En). reflexivity.
    + reflexivity.
    + cbn [lists]. rewrite length_list_set. apply M.
    + reflexivity.
    + exists w'. auto.
  - destruct (glob w) as [|v l] eqn:E; [exists w; split; [reflexivity|]; split; [assumption|congruence]|].
    destruct (handle_spec w None v (concat (lists w) ++ l)) with (w1 := mk_gc (gst w) (lists w) l) as (w' & E' & M' & D).
    + exact Logic.I.
    + assumption.
    + unfold pending. rewrite E. symmetry. apply Permutation_middle.
    + reflexivity.
    + apply M.
    + reflexivity.
    + exists w'. auto.
Qed.

Lemma grun_spec turns : forall w, minv w -> exists w', grun hb w turns = Ok w' /\ minv w'.
Proof.
  induction turns as [|t turns IH]; intros w M; cbn [grun]; [eauto|]. destruct (gstep_spec w t M) as (w' & E & M' & _). rewrite E. cbn [bind]. auto.
Qed.

Lemma measure_nonneg w : minv w -> 0 <= measure w.
Proof. intros M. unfold measure. pose proof (weights_nonneg (gst w) (proj1 (m_inv w M))). unfold zlen. lia. Qed.

Lemma busy_bound turns : forall w, minv w -> busy hb w turns -> zlen turns <= measure w.
Proof.
  induction turns as [|t turns IH]; intros w M B; [unfold zlen; cbn [List.length]; pose proof (measure_nonneg w M); lia|].
  cbn [busy] in B. destruct B as (B1 & B2). destruct (gstep_spec w t M) as (w' & E & M' & D). rewrite E in B2. specialize (IH w' M' B2).
  assert (measure w' < measure w) by (apply D; exact B1). unfold zlen in *. cbn [List.length]. lia.
Qed.

Lemma quiet_dec w : quiet w \/ exists t, works w t.
Proof.
  destruct (glob w) as [|v l] eqn:E; [|right; exists Final; cbn [works]; congruence].
  assert (H : Forall (fun l => l = []) (lists w) \/ exists p, nth p (lists w) [] <> []).
  { induction (lists w) as [|x xs IH]; [left; constructor|]. destruct x as [|y ys]; [|right; exists 0%nat; cbn; congruence].
    destruct IH as [IH|(p & Hp)]; [left; now constructor|right; exists (S p); exact Hp]. }
  destruct H as [H|(p & H)]; [left; split; assumption|right; exists (Proc p); exact H].
Qed.

(** a schedule that works as long as there is work ends, and ends quiet *)
Lemma busy_ends k : forall w, minv w -> measure w <= Z.of_nat k -> exists turns w', busy hb w turns /\ grun hb w turns = Ok w' /\ quiet w'.
Proof.
  induction k as [|k IH]; intros w M K; (destruct (quiet_dec w) as [Q|(t & T)]; [exists [], w; cbn [busy grun]; auto|]);
    destruct (gstep_spec w t M) as (w' & E & M' & D); specialize (D T); pose proof (measure_nonneg w' M').
  - lia.
  - destruct (IH w' M') as (turns & w2 & B & R & Q); [lia|]. exists (t :: turns), w2. cbn [busy grun]. rewrite E. cbn [bind]. split; [split; assumption|auto].
Qed.

Lemma quiet_exact w : minv w -> quiet w -> forall v a, slot_start st0 v = Some a -> (is_marked (gst w) v = true <-> reached a).
Proof.
  intros M (Q1 & Q2).
  assert (P : pending w = []).
  { unfold pending. rewrite Q2, app_nil_r. clear - Q1. induction Q1 as [|x l H _ IH]; cbn [concat]; [reflexivity|]. now rewrite H. }
  assert (C : forall b, covered w b -> is_marked (gst w) b = true) by (intros b [H|(u & Iu & _)]; [assumption|rewrite P in Iu; destruct Iu]).
  assert (A : forall a, reached a -> is_marked (gst w) a = true /\ slot_start st0 a = Some a).
  { intros a R. unfold reached in R. induction R as [p v a Ip Ea|a x b R (IH1 & IH2) Px Eb].
    - split; [|eapply slot_idem; [exact (proj1 I0)|exact Ea]]. apply C. eapply (m_root w M); eauto.
    - split; [|eapply slot_idem; [exact (proj1 I0)|exact Eb]]. apply C. eapply (m_edge w M); eauto. }
  intros v a Ea. pose proof (m_geo w M) as G. pose proof Ea as Ea'. rewrite <- (slot_start_geo _ _ v G) in Ea'. rewrite <- (marked_start (gst w) v a (proj1 (m_inv w M)) Ea'). split.
  - intros H. destruct (m_mark w M a H) as (b & Eb & Rb). rewrite (slot_idem st0 v a (proj1 I0) Ea) in Eb. now injection Eb as ->.
  - intros R. now apply A.
Qed.
End Marking.

Lemma seed_minv st0 hb roots n : inv st0 nod -> arenas_known st0 -> values_ok st0 hb roots -> unmarked st0 ->
  (forall p v, In (p, v) roots -> (p < n)%nat) -> minv st0 hb roots n (seed st0 n roots).
Proof.
  intros I K V U R. unfold seed. destruct (offer_roots_pending roots (mk_gc st0 (repeat [] n) [])) as (O1 & O2 & O3).
  { intros p v Ip. cbn [lists]. rewrite repeat_length. eauto. }
  cbn [gst lists] in *. rewrite repeat_length in O2.
  assert (P : forall v, In v (pending (offer_roots (mk_gc st0 (repeat [] n) []) roots)) <-> exists p, In (p, v) roots /\ span_of st0 v <> None).
  { intros v. rewrite O3. unfold pending. cbn [lists glob]. rewrite app_nil_r. split; [|now right]. intros [H|H]; [|assumption]. exfalso. apply in_concat in H as (x & Ix & Iv). apply repeat_spec in Ix. now subst x. }
  constructor; rewrite ?O1; auto using geo_refl.
  - intros v Iv. apply P in Iv as (p & Ip & Hs). split; [eapply (proj1 V); eauto|]. rewrite (span_of_at _ _ (proj1 I) K) in Hs.
    destruct (slot_start st0 v) as [a|] eqn:E; [exists a; split; [reflexivity|econstructor; eauto]|]. exfalso. unfold slot_start in E. destruct (span_at st0 v); [discriminate|now apply Hs].
  - intros x Hx. rewrite U in Hx. discriminate.
  - intros p v a Ip Ea. right. exists v. split; [|assumption]. apply P. exists p. split; [assumption|]. rewrite (span_of_at _ _ (proj1 I) K). unfold slot_start in Ea. destruct (span_at st0 v); discriminate.
  - intros a x b Hx. rewrite U in Hx. discriminate.
Qed.
