(** Histories of allocations, writes, marks and sweeps keep every object in a taken slot of its own. *)
From Coq Require Import ZArith List Bool Lia Permutation.
From Verif Require Import Base Base_lemmas Zlist Bitmap_model Bitmap_spec Bitmap_proof Sizeclass_model Sizeclass_proof Pages_model Pages_spec Pages_heap_proof.
From Verif Require Import Spans_model Spans_spec Spans_proof Spans_alloc_proof Spans_malloc_proof Spans_mark_proof Spans_sweep_proof Spans_cycle_proof.
Import ListNotations.
Open Scope Z_scope.

Lemma span_at_in st s x : coreof st -> In s (spans st) -> s_base s <= x < s_base s + s_pages s * PAGE -> span_at st x = Some s.
Proof.
  intros Co Is R. unfold span_at. destruct (find _ (spans st)) as [t|] eqn:E.
  - apply find_some in E. destruct E as [It Rt]. rewrite andb_true_iff, Z.leb_le, Z.ltb_lt in Rt. f_equal.
    destruct (Z.eq_dec (s_base t) (s_base s)) as [Eb|Nb]; [eapply base_inj; eauto; eapply spans_nodup; exact Co|]. exfalso. apply (spans_disjoint _ _ _ _ t s x Co It Is Nb Rt R).
  - exfalso. pose proof (find_none _ _ E s Is) as F. cbv beta in F. apply not_true_iff_false in F. apply F. apply andb_true_iff. split; [apply Z.leb_le|apply Z.ltb_lt]; lia.
Qed.

Lemma marked_slot st s i x : coreof st -> In s (spans st) -> 0 <= i < s_ocount s -> slot s i <= x < slot s i + s_osize s -> is_marked st x = bit (s_mbits s) i.
Proof.
  intros Co Is Hi Hx. pose proof (c_wf _ _ _ _ Co) as W. rewrite Forall_forall in W. pose proof (W s Is) as Ws. destruct (slot_range s i Ws Hi) as [R1 R2].
  unfold is_marked. rewrite (span_at_in st s x Co Is) by lia. now rewrite (slot_index s i x (w_osize s Ws) Hx).
Qed.

Lemma live_count_pos s i : 0 <= i < s_ocount s -> bit (s_mbits s) i = true -> live_count s <> 0.
Proof.
  intros Hi B E. unfold live_count in E. assert (A : forall n, population (s_mbits s) n = 0 -> forall j, 0 <= j < Z.of_nat n -> bit (s_mbits s) j = false).
  { induction n as [|n IH]; cbn [population]; intros P j Hj; [lia|]. pose proof (population_bounds (s_mbits s) n) as Pb. destruct (bit (s_mbits s) (Z.of_nat n)) eqn:Bn; [lia|].
    destruct (Z.eq_dec j (Z.of_nat n)); [now subst|]. apply IH; lia. }
  rewrite (A _ E i) in B by lia. discriminate.
Qed.

(** a marked slot that was taken is still taken after the sweep *)
Lemma marked_stays st a z : coreof st -> In (a, z) (slots (spans st)) -> is_marked st a = true -> In (a, z) (slots (flat_map sw (spans st))).
Proof.
  intros Co I M. apply in_slots in I. destruct I as (s & i & Is & Hi & B & -> & ->). pose proof (c_wf _ _ _ _ Co) as W. rewrite Forall_forall in W. pose proof (w_osize s (W s Is)) as Oz.
  rewrite (marked_slot st s i _ Co Is Hi) in M by lia. apply in_slots. exists (swept s), i. split; [|auto]. apply in_flat_map. exists s. split; [assumption|].
  unfold sw. destruct (Z.eqb_spec (live_count s) 0) as [L|L]; [exfalso; eapply live_count_pos; eauto|now left].
Qed.

(** when only taken slots are marked, the slots taken after the sweep are the marked ones *)
Lemma filter_map_comm {A B} (f : A -> B) (P : B -> bool) l : filter P (map f l) = map f (filter (fun x => P (f x)) l).
Proof. induction l as [|a l IH]; cbn [map filter]; [reflexivity|]. destruct (P (f a)); cbn [map]; now rewrite IH. Qed.
Lemma filter_filter {A} (P Q : A -> bool) l : filter P (filter Q l) = filter (fun x => Q x && P x) l.
Proof. induction l as [|a l IH]; cbn [filter]; [reflexivity|]. destruct (Q a); cbn [filter andb]; [destruct (P a)|]; now rewrite IH. Qed.
Lemma filter_flat {A B} (f : A -> list B) P l : filter P (flat_map f l) = flat_map (fun x => filter P (f x)) l.
Proof. induction l as [|a l IH]; cbn [flat_map]; [reflexivity|]. rewrite filter_app. now rewrite IH. Qed.
Lemma Permutation_filter' {A} (P : A -> bool) l l' : Permutation l l' -> Permutation (filter P l) (filter P l').
Proof.
  induction 1 as [|a l l' _ IH|a b l|l1 l2 l3 _ IH1 _ IH2]; cbn [filter].
  - constructor.
  - destruct (P a); auto.
  - destruct (P a), (P b); auto. constructor.
  - eapply Permutation_trans; eauto.
Qed.

Lemma clean_slots st : coreof st -> clean (spans st) -> slots (flat_map sw (spans st)) = filter (fun o => is_marked st (fst o)) (slots (spans st)).
Proof.
  intros Co Cl. unfold slots. rewrite flat_map_flat_map, filter_flat. apply flat_map_ext_in. intros s Is. pose proof (c_wf _ _ _ _ Co) as W. rewrite Forall_forall in W. pose proof (W s Is) as Ws.
  pose proof (w_osize s Ws) as Oz. unfold taken, picked. rewrite filter_map_comm, filter_filter.
  transitivity (map (fun i => (slot s i, s_osize s)) (filter (bit (s_mbits s)) (upto (s_ocount s)))).
  - unfold sw. destruct (Z.eqb_spec (live_count s) 0) as [L|L].
    + cbn [flat_map]. rewrite (filter_ext_in _ (fun _ => false)); [induction (upto (s_ocount s)); [reflexivity|assumption]|]. intros i Hi. apply in_upto in Hi.
      destruct (bit (s_mbits s) i) eqn:B; [exfalso; eapply live_count_pos; eauto|reflexivity].
    + cbn [flat_map]. now rewrite app_nil_r.
  - f_equal. apply filter_ext_in. intros i Hi. apply in_upto in Hi. cbn [fst]. rewrite (marked_slot st s i _ Co Is Hi) by lia.
    destruct (bit (s_mbits s) i) eqn:B; [now rewrite (Cl s i Is Hi B)|now rewrite andb_false_r].
Qed.

(** ** Marks and writes *)
Lemma subst_clean s s' l : NoDup (map s_base l) -> In s l -> s_base s = s_base s' -> clean l ->
  (forall i, 0 <= i < s_ocount s' -> bit (s_mbits s') i = true -> bit (s_abits s') i = true) -> clean (subst_span s' l).
Proof. intros N I E C H t i It. apply (subst_in s' l s N I E) in It. destruct It as [->|[It _]]; [apply H|now apply C]. Qed.

Lemma mark_clean st a z x b : inv st nod -> span_of st x = Some b -> In (a, z) (slots (spans st)) -> a <= x < a + z -> exists st', mark st x = Ok st' /\ inv st' nod /\
  slots (spans st') = slots (spans st) /\ mem st' = mem st /\ nprocs st' = nprocs st /\ allocated st' = allocated st /\ (clean (spans st) -> clean (spans st')).
Proof.
  intros I Es It Hx. pose proof (proj1 I) as Co. destruct (mark_spec st nod x b I Es) as (s & bits & Is & Eb & R & Hi & U & E & I' & Sl).
  exists (put st (set_mark s bits)). do 6 (split; [solve [auto]|]). intros Cl. apply (subst_clean s (set_mark s bits)); auto; [eapply spans_nodup; exact Co|].
  intros j Hj B. change (s_ocount (set_mark s bits)) with (s_ocount s) in Hj. change (s_abits (set_mark s bits)) with (s_abits s). change (s_mbits (set_mark s bits)) with bits in B.
  destruct U as (_ & _ & U). pose proof (c_wf _ _ _ _ Co) as W. rewrite Forall_forall in W. pose proof (W s Is) as Ws. pose proof (words_cap (s_ocount s)) as Cp. pose proof (w_ml s Ws) as Ml.
  rewrite U in B by (unfold capacity; lia). destruct (Z.eqb_spec j ((x - s_base s) / s_osize s)) as [Ej|Nj]; [|now apply (Cl s j Is Hj)].
  apply in_slots in It. destruct It as (t & i & It & Hti & Bt & -> & ->). destruct (slot_range t i (W t It) Hti) as [R1 R2].
  assert (s = t) as <-. { pose proof (span_at_in st s x Co Is R). pose proof (span_at_in st t x Co It ltac:(lia)). congruence. }
  rewrite Ej. rewrite (slot_index s i x (w_osize s Ws) Hx). assumption.
Qed.

Lemma mark_any st x b : inv st nod -> span_of st x = Some b -> exists st', mark st x = Ok st' /\ inv st' nod /\
  slots (spans st') = slots (spans st) /\ mem st' = mem st /\ nprocs st' = nprocs st /\ allocated st' = allocated st.
Proof.
  intros I Es. destruct (mark_spec st nod x b I Es) as (s & bits & Is & Eb & R & Hi & U & E & I' & Sl). exists (put st (set_mark s bits)). repeat (split; [solve [auto]|]). auto.
Qed.

Lemma write_inv st a z x v : inv st nod -> In (a, z) (slots (spans st)) -> a <= x < a + z -> inv (upd_mem st (fun y => if y =? x then v else mem st y)) nod.
Proof.
  intros [Co Ow] I Hx. split; [|exact Ow]. constructor; try apply Co. intros s Is Nz i Hi Bi y Hy. cbn [upd_mem mem]. destruct (Z.eqb_spec y x) as [->|]; [|now apply (c_zero _ _ _ _ Co s Is Nz i Hi Bi)].
  exfalso. apply in_slots in I. destruct I as (t & j & It & Hj & B & -> & ->). pose proof (c_wf _ _ _ _ Co) as W. rewrite Forall_forall in W.
  destruct (slot_range t j (W t It) Hj) as [R1 R2]. destruct (slot_range s i (W s Is) Hi) as [R3 R4].
  assert (s = t) as <-. { pose proof (span_at_in st s x Co Is ltac:(lia)). pose proof (span_at_in st t x Co It ltac:(lia)). congruence. }
  pose proof (slot_index s i x (w_osize s (W s Is)) Hy). pose proof (slot_index s j x (w_osize s (W s Is)) Hx). congruence.
Qed.

(** ** Allocation *)
Definition slot_size (n : Z) : Z := if n <=? 32768 then class_size n else large_pages n * PAGE.

Lemma gc_malloc_spec grant st p size has_ptr barrier : inv st nod -> (p < nprocs st)%nat -> size <= 2147483648 ->
  gc_malloc grant st p size has_ptr barrier = Abort \/
  exists st' addr, gc_malloc grant st p size has_ptr barrier = Ok (st', addr) /\ 0 < size <= slot_size size /\ alloc_effect st st' addr (slot_size size) /\
    allocated st' = u64 (allocated st + (if size <=? 32768 then class_size size else size)).
Proof.
  intros I Hp Hs. unfold gc_malloc, slot_size.
  assert (A : (if size <=? 32768 then std_malloc grant st p size has_ptr else large_malloc grant st size has_ptr) = Abort \/
    exists st' addr, (if size <=? 32768 then std_malloc grant st p size has_ptr else large_malloc grant st size has_ptr) = Ok (st', addr) /\ 0 < size <= slot_size size /\
      alloc_effect st st' addr (slot_size size) /\ allocated st' = u64 (allocated st + (if size <=? 32768 then class_size size else size))).
  { unfold slot_size. destruct (Z.leb_spec size 32768) as [Sm|La].
    - destruct (std_malloc_spec grant st p size has_ptr I Hp Sm) as [E|(st' & addr & E & Hz & Ef & Ea & _)]; [now left|right]. exists st', addr. auto.
    - destruct (large_malloc_spec grant st size has_ptr I ltac:(lia)) as [E|(st' & addr & E & Ef & Ea)]; [now left|right]. exists st', addr. pose proof (large_pages_spec size ltac:(lia)).
      split; [assumption|]. split; [lia|]. auto. }
  fold (slot_size size). destruct A as [->|(st' & addr & -> & Hz & Ef & Ea)]; cbn [bind]; [now left|]. destruct barrier; [|right; exists st', addr; auto].
  destruct Ef as (I' & Pm & Zm & Om & Np & Cl). assert (It : In (addr, slot_size size) (slots (spans st'))) by (rewrite Pm; now left).
  destruct (span_of st' addr) as [b|] eqn:Es.
  - destruct (mark_clean st' addr _ addr b I' Es It ltac:(lia)) as (st2 & E2 & I2 & S2 & M2 & N2 & A2 & C2). rewrite E2. cbn [bind]. right. exists st2, addr.
    split; [reflexivity|]. split; [assumption|]. split; [|congruence]. unfold alloc_effect. rewrite S2, M2, N2. auto 10.
  - left. unfold mark. rewrite Es. reflexivity.
Qed.

(** ** The invariant of a world *)
Definition winv (w : world) : Prop :=
  inv (fst w) nod /\ NoDup (map fst (snd w)) /\
  (forall a n, In (a, n) (snd w) -> 0 < n /\ exists z, In (a, z) (slots (spans (fst w))) /\ n <= z).

Lemma winv_init procs junk : winv (init procs junk, []).
Proof.
  split; [split|split].
  - constructor; cbn.
    + apply inv_init.
    + constructor.
    + intros s q [].
    + discriminate.
    + intros s [].
  - exists (fun _ => LD 0). cbn. split; [|split].
    + intros [c|c|p c|c]; constructor.
    + intros [c|c|p c|c] b; cbn; tauto.
    + intros s [].
  - constructor.
  - intros a n [].
Qed.

Lemma in_objects st objs k a n : winv (st, objs) -> nth_error objs k = Some (a, n) -> exists z, In (a, z) (slots (spans st)) /\ n <= z.
Proof. intros (_ & _ & O) E. apply nth_error_In in E. destruct (O a n E) as (_ & H). exact H. Qed.

(** the bytes of the objects of w are in w' what they were in w *)
Definition keeps (objs : list (Z * Z)) (m m' : Z -> Z) : Prop := forall a n x, In (a, n) objs -> a <= x < a + n -> m' x = m x.

Definition step_effect (w w' : world) (o : hop) : Prop :=
  match o with
  | HMalloc _ size _ _ _ => exists addr, snd w' = snd w ++ [(addr, size)] /\ 0 < size /\ (forall x, addr <= x < addr + size -> mem (fst w') x = 0) /\ keeps (snd w) (mem (fst w)) (mem (fst w'))
  | HWrite _ _ _ => snd w' = snd w
  | HMark _ => snd w' = snd w /\ mem (fst w') = mem (fst w)
  | HSweep => (forall x, In x (snd w') <-> In x (snd w) /\ is_marked (fst w) (fst x) = true) /\ keeps (snd w') (mem (fst w)) (mem (fst w'))
  end.

Lemma step_ok procs w o : winv w -> nprocs (fst w) = procs -> hop_ok procs o ->
  hstep w o = Abort \/ exists w', hstep w o = Ok w' /\ winv w' /\ nprocs (fst w') = procs /\ step_effect w w' o.
Proof.
  destruct w as [st objs]. intros (I & Nd & O) Hp Ho. cbn [fst snd] in *. destruct o as [p size hp br grant|k off v|addr|]; cbn [hstep hop_ok] in *.
  - destruct Ho as [Ho1 Ho2]. destruct (gc_malloc_spec grant st p size hp br I ltac:(lia) Ho2) as [E|(st' & addr & E & Hz & (I' & Pm & Zm & Om & Np & Cl) & Ea)]; rewrite E; cbn [bind]; [now left|right].
    exists (st', objs ++ [(addr, size)]). split; [reflexivity|]. split; [split; [exact I'|split]|split; [cbn; congruence|]].
    + cbn [snd]. rewrite map_app. cbn [map fst]. apply NoDup_app2; [assumption|constructor; [intros []|constructor]|]. intros x Hx [<-|[]]. apply in_map_iff in Hx. destruct Hx as ((a & n) & Ex & Ix). cbn [fst] in Ex. subst a.
      destruct (O addr n Ix) as (_ & z & Iz & _). pose proof (slots_nodup _ _ _ _ (proj1 I')) as Ns. rewrite Pm in Ns. cbn [map fst] in Ns. inversion Ns as [|? ? N1 N2]; subst. apply N1.
      change addr with (fst (addr, z)). now apply in_map.
    + intros a n Ia. cbn [fst snd] in *. apply in_app_iff in Ia. destruct Ia as [Ia|[Ia|[]]].
      * destruct (O a n Ia) as (Hn & z & Iz & Hz'). split; [assumption|]. exists z. split; [rewrite Pm; now right|assumption].
      * injection Ia as <- <-. split; [lia|]. exists (slot_size size). split; [rewrite Pm; now left|lia].
    + exists addr. cbn [fst snd]. split; [reflexivity|]. split; [lia|]. split.
      * intros x Hx. apply Zm. lia.
      * intros a n x Ia Hx. apply Om. destruct (O a n Ia) as (_ & z & Iz & Hz'). exists a, z. split; [assumption|lia].
  - right. destruct (nth_error objs k) as [[a n]|] eqn:Ek.
    + destruct (in_objects st objs k a n (conj I (conj Nd O)) Ek) as (z & Iz & Hz). destruct ((0 <=? off) && (off <? n)) eqn:C.
      * rewrite andb_true_iff, Z.leb_le, Z.ltb_lt in C. eexists. split; [reflexivity|]. split; [|split; [exact Hp|reflexivity]]. split; [|split; assumption].
        apply (write_inv st a z); auto. lia.
      * exists (st, objs). split; [reflexivity|]. split; [exact (conj I (conj Nd O))|]. split; [exact Hp|reflexivity].
    + exists (st, objs). split; [reflexivity|]. split; [exact (conj I (conj Nd O))|]. split; [exact Hp|reflexivity].
  - right. destruct (span_of st addr) as [b|] eqn:Es.
    + destruct (mark_any st addr b I Es) as (st' & E & I' & Sl & Mm & Np & Al). rewrite E. cbn [bind]. exists (st', objs). split; [reflexivity|]. split; [|split; [cbn; congruence|split; [reflexivity|exact Mm]]].
      split; [exact I'|]. split; [assumption|]. cbn [fst snd]. rewrite Sl. exact O.
    + exists (st, objs). split; [reflexivity|]. split; [exact (conj I (conj Nd O))|]. split; [exact Hp|split; reflexivity].
  - destruct (sweep_spec st I) as [E|(st' & E & I' & Sp & Np & Mm & Cl)]; rewrite E; cbn [bind]; [now left|right]. eexists. split; [reflexivity|].
    assert (O' : forall a n, In (a, n) (filter (fun o => is_marked st (fst o)) objs) -> 0 < n /\ exists z, In (a, z) (slots (spans st')) /\ n <= z).
    { intros a n Ia. apply filter_In in Ia. destruct Ia as [Ia Ma]. destruct (O a n Ia) as (Hn & z & Iz & Hz). split; [assumption|]. exists z. split; [|assumption]. rewrite Sp. apply marked_stays; auto. exact (proj1 I). }
    split; [split; [exact I'|split; [|exact O']]|split; [cbn; congruence|split]].
    + cbn [snd]. clear - Nd. induction objs as [|x l IH]; cbn [filter]; [constructor|]. cbn [map] in Nd. inversion Nd as [|? ? N1 N2]; subst. destruct (is_marked st (fst x)); [|auto]. cbn [map]. constructor; [|auto].
      intros J. apply N1. apply in_map_iff in J. destruct J as (y & Ey & Iy). apply filter_In in Iy. rewrite <- Ey. now apply in_map.
    + intros x. apply filter_In.
    + intros a n x Ia Hx. cbn [fst snd] in *. apply Mm. destruct (O' a n Ia) as (_ & z & Iz & Hz). eapply in_slots_spans; [exact (proj1 I')|]. exists a, z. split; [assumption|lia].
Qed.

Lemma run_ok_all procs ops : forall w, winv w -> nprocs (fst w) = procs -> Forall (hop_ok procs) ops ->
  hrun w ops = Abort \/ exists w', hrun w ops = Ok w' /\ winv w' /\ nprocs (fst w') = procs.
Proof.
  induction ops as [|o ops IH]; intros w Iw Np F; cbn [hrun].
  - right. exists w. auto.
  - inversion F as [|? ? Fo Fs]; subst x l. destruct (step_ok procs w o Iw Np Fo) as [E|(w' & E & Iw' & Np' & _)]; rewrite E in *; cbn [bind]; [now left|auto].
Qed.

Lemma objs_apart w : winv w -> apart_objs (snd w).
Proof.
  intros (I & Nd & O) i j a n b m Nij Ei Ej x [Ha Hb]. destruct w as [st objs]. cbn [fst snd] in *.
  assert (Nab : a <> b). { intros ->. apply Nij. rewrite NoDup_nth_error in Nd. apply Nd; [apply nth_error_Some; rewrite nth_error_map, Ei; discriminate|]. now rewrite !nth_error_map, Ei, Ej. }
  apply nth_error_In in Ei. apply nth_error_In in Ej. destruct (O a n Ei) as (_ & z & Iz & Hz). destruct (O b m Ej) as (_ & z' & Iz' & Hz').
  apply (slots_apart _ _ _ _ a z b z' (proj1 I) Iz Iz' Nab x). lia.
Qed.

(** ** The counter *)
Definition ranged (st : state) : Prop := 0 <= allocated st < 18446744073709551616.
Lemma u64_range x : 0 <= u64 x < 18446744073709551616.
Proof. unfold u64. apply Z.mod_pos_bound. lia. Qed.

Definition cinv (w : world) : Prop :=
  winv w /\ clean (spans (fst w)) /\ Permutation (map (fun o => (fst o, class_size (snd o))) (snd w)) (slots (spans (fst w))) /\ counted (fst w).

Lemma total_sumz objs : sumz (map (fun o => (fst o, class_size (snd o))) objs) = total class_size objs.
Proof. induction objs as [|[a n] l IH]; cbn [map sumz fold_right total snd fst]; [reflexivity|]. unfold sumz, total in *. now rewrite IH. Qed.
Lemma sumz_perm l l' : Permutation l l' -> sumz l = sumz l'.
Proof. induction 1; cbn [sumz fold_right]; unfold sumz in *; try lia. Qed.

Lemma counted_total w : cinv w -> u64 (allocated (fst w)) = u64 (total class_size (snd w)).
Proof. intros (_ & _ & P & C). unfold counted in C. rewrite C, <- total_sumz. f_equal. symmetry. now apply sumz_perm. Qed.

Definition small (o : hop) : Prop := match o with HMalloc _ size _ _ _ => size <= 32768 | _ => True end.

Lemma cstep_ok procs w o : cinv w -> nprocs (fst w) = procs -> hop_ok procs o -> small o -> (match o with HMark a => in_object (snd w) a | _ => True end) ->
  hstep w o = Abort \/ exists w', hstep w o = Ok w' /\ cinv w' /\ nprocs (fst w') = procs.
Proof.
  intros (Iw & Cl & Pm & Ct) Np Ho Hs Hm.
  destruct (step_ok procs w o Iw Np Ho) as [E|(w' & E & Iw' & Np' & _)]; [now left|right]. exists w'. split; [assumption|]. split; [|assumption]. split; [assumption|].
  destruct w as [st objs]. pose proof Iw as (I & Nd & O). cbn [fst snd] in *. destruct o as [p size hp br grant|k off v|addr|]; cbn [hstep hop_ok small] in *.
  - destruct Ho as [Ho1 Ho2]. destruct (gc_malloc_spec grant st p size hp br I ltac:(lia) Ho2) as [E'|(st' & addr & E' & Hz & (I' & Pm' & Zm & Om & Np2 & Cl') & Ea)]; rewrite E' in E; cbn [bind] in E; [discriminate|].
    assert (w' = (st', objs ++ [(addr, size)])) as -> by congruence. cbn [fst snd]. split; [auto|]. unfold slot_size in *. destruct (Z.leb_spec size 32768); [|lia]. split.
    + rewrite map_app. cbn [map fst snd]. rewrite Pm'. rewrite <- Pm. symmetry. apply Permutation_cons_append.
    + unfold counted in *. rewrite Ea, (sumz_perm _ _ Pm'). cbn [sumz fold_right snd]. fold (sumz (slots (spans st))). unfold u64 in *. rewrite Z.mod_mod by lia.
      rewrite <- Zplus_mod_idemp_l, Ct, Zplus_mod_idemp_l. f_equal. ring.
  - destruct (nth_error objs k) as [[a n]|] eqn:Ek; [|assert (w' = (st, objs)) as -> by congruence; auto].
    destruct ((0 <=? off) && (off <? n)) eqn:C; [|assert (w' = (st, objs)) as -> by congruence; auto].
    injection E as <-. cbn [fst snd upd_mem spans allocated]. auto.
  - destruct (span_of st addr) as [b|] eqn:Es; [|assert (w' = (st, objs)) as -> by congruence; auto].
    destruct Hm as (a & n & Ia & Ra). destruct (O a n Ia) as (_ & z & Iz & Hz).
    destruct (mark_clean st a z addr b I Es Iz ltac:(lia)) as (st2 & E2 & I2 & S2 & M2 & N2 & A2 & C2). rewrite E2 in E. cbn [bind] in E. assert (w' = (st2, objs)) as -> by congruence. cbn [fst snd].
    unfold counted in *. rewrite S2, A2. auto.
  - destruct (sweep_spec st I) as [E'|(st' & E' & I' & Sp & Np2 & Mm & Cl')]; rewrite E' in E; cbn [bind] in E; [discriminate|]. injection E as <-. cbn [fst snd]. destruct (Cl' Cl) as [Cl2 Ct2].
    split; [assumption|]. split; [|auto]. rewrite Sp, (clean_slots st (proj1 I) Cl). rewrite <- (Permutation_filter' _ _ _ Pm). now rewrite filter_map_comm.
Qed.

Lemma crun_ok procs ops : forall w, cinv w -> nprocs (fst w) = procs -> Forall (hop_ok procs) ops -> Forall small ops -> marks_ok (fun w a => in_object (snd w) a) w ops ->
  hrun w ops = Abort \/ exists w', hrun w ops = Ok w' /\ cinv w'.
Proof.
  induction ops as [|o ops IH]; intros w Iw Np F S M; cbn [hrun].
  - right. exists w. auto.
  - inversion F as [|? ? Fo Fs]; subst x l. inversion S as [|? ? So Ss]; subst x l. cbn [marks_ok] in M. destruct M as [M1 M2].
    destruct (cstep_ok procs w o Iw Np Fo So) as [E|(w' & E & Iw' & Np')]; [destruct o; auto| |]; rewrite E in *; cbn [bind]; [now left|auto].
Qed.

Lemma cinv_init procs junk : cinv (init procs junk, []).
Proof. split; [apply winv_init|]. split; [intros s i []|]. split; [constructor|reflexivity]. Qed.
