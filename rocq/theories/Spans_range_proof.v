(** The counter stays within 64 bits; objects above 2 GiB; example histories. *)
From Coq Require Import ZArith List Bool Lia Permutation.
From Verif Require Import Base Base_lemmas Zlist Bitmap_model Bitmap_spec Sizeclass_model Pages_model Pages_spec Pages_heap_proof.
From Verif Require Import Spans_model Spans_spec Spans_proof Spans_alloc_proof Spans_malloc_proof Spans_mark_proof Spans_sweep_proof Spans_cycle_proof Spans_world_proof.
Import ListNotations.
Open Scope Z_scope.

Ltac binds := repeat match goal with
  | H : bind ?e _ = Ok _ |- _ => let E := fresh "E" in destruct e eqn:E; cbn [bind] in H; try discriminate
  | H : (let '(_, _) := ?p in _) = Ok _ |- _ => destruct p
  | H : (if ?b then _ else _) = Ok _ |- _ => destruct b; try discriminate
  end.

Lemma loop_range a m z n : forall i c f fr t c' f' fr' t', 0 <= t < 18446744073709551616 ->
  sweep_loop a m z n i (c, f, fr, t) = Ok (c', f', fr', t') -> 0 <= t' < 18446744073709551616.
Proof.
  induction n as [|n IH]; intros i c f fr t c' f' fr' t' Ht; cbn [sweep_loop].
  - intros E. assert (t' = t) as -> by congruence. assumption.
  - destruct (bitmap_test m i) as [b| | | | |]; cbn [bind]; try discriminate. destruct b; [now apply IH|]. cbv zeta. destruct (bitmap_test a i) as [b| | | | |]; cbn [bind]; try discriminate.
    destruct b; apply IH; [apply u64_range|assumption].
Qed.

Lemma span_range st c b st' : ranged st -> sweep_span st c b = Ok st' -> ranged st'.
Proof.
  unfold ranged. intros R E. unfold sweep_span in E. destruct (get st b) as [s| | | | |]; cbn [bind] in E; try discriminate. destruct (_ && _); [|discriminate].
  destruct (sweep_loop _ _ _ _ _ _) as [[[[count free] freed] total]| | | | |] eqn:L; cbn [bind] in E; try discriminate. apply loop_range in L; [|assumption].
  cbv zeta in E. destruct (count =? 0).
  - unfold mheap_free_span in E. destruct (free_pages _ _ _) as [h| | | | |]; cbn [bind] in E; try discriminate. destruct (clear_spans _ _ _ _ _) as [t| | | | |]; cbn [bind] in E; try discriminate.
    injection E as <-. exact L.
  - destruct (count =? s_ocount s); injection E as <-; exact L.
Qed.
Lemma list_range c l : forall st st', ranged st -> sweep_list st c l = Ok st' -> ranged st'.
Proof.
  induction l as [|b l IH]; intros st st' R; cbn [sweep_list]; [congruence|]. destruct (sweep_span st c b) as [st1| | | | |] eqn:E; cbn [bind]; try discriminate. apply IH. eapply span_range; eauto.
Qed.
Lemma classes_range n : forall c st st', ranged st -> sweep_classes st n c = Ok st' -> ranged st'.
Proof.
  induction n as [|n IH]; intros c st st' R; cbn [sweep_classes]; [congruence|]. cbv zeta. destruct (sweep_list _ c (full st c)) as [st1| | | | |] eqn:E1; cbn [bind]; try discriminate.
  destruct (sweep_list st1 c (partial st c)) as [st2| | | | |] eqn:E2; cbn [bind]; try discriminate. apply IH. eapply list_range; [|eassumption]. eapply list_range; [|eassumption]. exact R.
Qed.

Lemma step_range procs w o w' : winv w -> ranged (fst w) -> nprocs (fst w) = procs -> hop_ok procs o ->
  hstep w o = Ok w' -> ranged (fst w').
Proof.
  destruct w as [st objs]. intros (I & Nd & O) R Hp Ho. cbn [fst snd] in *. destruct o as [p size hp br grant|k off v|addr|]; cbn [hstep hop_ok] in *; intros E.
  - destruct Ho as [Ho1 Ho2]. destruct (gc_malloc_spec grant st p size hp br I ltac:(lia) Ho2) as [E'|(st' & addr & E' & _ & _ & Ea)]; rewrite E' in E; cbn [bind] in E; [discriminate|].
    assert (w' = (st', objs ++ [(addr, size)])) as -> by congruence. cbn [fst]. unfold ranged. rewrite Ea. apply u64_range.
  - destruct (nth_error objs k) as [[a n]|]; [destruct (_ && _)|]; injection E as <-; exact R.
  - destruct (span_of st addr) as [b|] eqn:Es; [|injection E as <-; exact R]. destruct (mark_any st addr b I Es) as (st' & E' & _ & _ & _ & _ & A). rewrite E' in E. cbn [bind] in E.
    injection E as <-. cbn [fst]. unfold ranged. now rewrite A.
  - unfold sweep in E. unfold flush_mcache in E. destruct (flush_procs_spec (nprocs st) 0 st I) as (st1 & E1 & I1 & (S1 & S2 & S3 & S4) & _ & _). rewrite E1 in E. cbn [bind] in E.
    destruct (sweep_classes st1 136 0) as [st2| | | | |] eqn:E2; cbn [bind] in E; try discriminate. injection E as <-. cbn [fst]. eapply classes_range; [|exact E2]. unfold ranged. now rewrite S3.
Qed.

Lemma crun_range procs ops : forall w w', cinv w -> ranged (fst w) -> nprocs (fst w) = procs -> Forall (hop_ok procs) ops -> Forall small ops -> marks_ok (fun w a => in_object (snd w) a) w ops ->
  hrun w ops = Ok w' -> ranged (fst w').
Proof.
  induction ops as [|o ops IH]; intros w w' Iw R Np F S M; cbn [hrun]; [congruence|].
  inversion F as [|? ? Fo Fs]; subst x l. inversion S as [|? ? So Ss]; subst x l. cbn [marks_ok] in M. destruct M as [M1 M2].
  destruct (cstep_ok procs w o Iw Np Fo So) as [E|(w1 & E & Iw1 & Np1)]; [destruct o; auto| |]; rewrite E in *; cbn [bind]; [discriminate|].
  apply (IH w1 w'); auto. eapply step_range; eauto. apply Iw.
Qed.

(** ** Objects above 2 GiB *)
Lemma set_spans_ub h p n : forall i t, 0 <= i <= 262144 -> 262144 < i + Z.of_nat n ->
  (forall q, p + i <= q < p + i + Z.of_nat n -> has_arena h (BASE + q * PAGE) = true) ->
  (forall q, p + i <= q < p + i + Z.of_nat n -> t q = None) ->
  set_spans h (BASE + p * PAGE) n i t = UB.
Proof.
  induction n as [|n IH]; intros i t Hi Hn Ha Ht; cbn [set_spans]; [lia|]. unfold page_offset. destruct (Z.ltb_spec (i * PAGE) 2147483648) as [L|L]; [|reflexivity]. cbn [bind]. unfold PAGE in L.
  replace (BASE + p * PAGE + i * PAGE) with (BASE + (p + i) * PAGE) by ring. rewrite Ha by lia.
  replace (page_no (BASE + (p + i) * PAGE)) with (p + i). 2: { replace (BASE + (p + i) * PAGE) with (BASE + p * PAGE + i * PAGE) by ring. now rewrite page_no_page. }
  rewrite Ht by lia. apply IH; try lia.
  - intros q Hq. apply Ha. lia.
  - intros q Hq. unfold set_page. destruct (Z.eqb_spec q (p + i)); [lia|]. apply Ht. lia.
Qed.

Lemma huge_ub procs junk size has_ptr barrier : 2147483648 < size -> need (large_pages size) <= GIB16 ->
  gc_malloc (fun _ _ => true) (init procs junk) 0 size has_ptr barrier = UB.
Proof.
  intros Hs Hn. unfold gc_malloc. destruct (Z.leb_spec size 32768); [lia|]. unfold large_malloc. fold (large_pages size). pose proof (large_pages_spec size ltac:(lia)) as Hp.
  unfold mheap_alloc_span. change (ph (init procs junk)) with Pages_model.init.
  assert (Hc : 262144 < large_pages size) by (unfold PAGE in Hp; lia).
  destruct (alloc_granted Pages_model.init [] 0 (large_pages size) inv_init cont_init ltac:(lia) ltac:(lia)) as (h & base & R & E & I & C & HR). rewrite E. cbn [bind].
  set (n := large_pages size) in *. set (class := make_spanclass 0 _).
  assert (Ec : take_sizeclass class = 0) by (unfold class; destruct has_ptr; reflexivity). unfold mspan_new. unfold span_layout at 1. rewrite Ec. cbn [Z.eqb bind].
  cbn [app] in I. pose proof (i_live _ _ I) as L. inversion L as [|? ? (p & Eb & P0 & N & Cv) _]; subst. cbn [fst snd] in *. rewrite Eb.
  change (table (init procs junk)) with (fun _ : Z => @None Z). rewrite (set_spans_ub h p (Z.to_nat n) 0 (fun _ => None)); [reflexivity|lia|lia| |auto].
  intros q Hq. rewrite Z2Nat.id in Hq by lia.
  assert (Q : BASE + p * PAGE <= BASE + q * PAGE < BASE + p * PAGE + n * PAGE) by (unfold PAGE; lia).
  rewrite <- Eb in Q. destruct (inv_granted h _ (base, n) (BASE + q * PAGE) I (or_introl eq_refl)) as [_ (r & Ir & Hr)].
  { cbn [fst snd]. exact Q. }
  unfold has_arena. destruct C as (_ & _ & Hb & He). pose proof (Hb r Ir) as Hb'.
  rewrite !andb_true_iff, Z.leb_le, Z.ltb_lt. split; [split|].
  - unfold PAGE. lia.
  - destruct He as [(R0 & _)| ->]; [|lia]. subst R. unfold PAGE in *. lia.
  - apply existsb_exists. exists r. split; [assumption|]. rewrite andb_true_iff, Z.leb_le, Z.ltb_lt. lia.
Qed.
