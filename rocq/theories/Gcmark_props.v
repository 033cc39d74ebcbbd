(** C22 and C67: collections with the program paused. *)
From Verif Require Import Base Base_lemmas Zlist Bitmap_model Bitmap_spec Bitmap_proof Heapbits_model Heapbits_spec Heapbits_proof.
From Verif Require Import Sizeclass_model Sizeclass_proof Pages_model Pages_spec Pages_heap_proof.
From Verif Require Import Spans_model Spans_spec Spans_proof Spans_alloc_proof Spans_malloc_proof Spans_mark_proof Spans_sweep_proof Spans_cycle_proof Spans_world_proof.
From Verif Require Import Gcmark_arena_proof Gcmark_model Gcmark_spec Gcmark_proof Gcmark_run_proof Gcmark_world_proof.

(** ** C22 *)
(** Take any history of allocations and writes on any number of processors, with any number of earlier
    collections.  Pause the program, hand the root values to the processors in any way, and let processors and
    the final pass take turns in any order until no list has anything left.  The sweep then keeps exactly the
    objects reachable from the roots through pointer words, and does not change a byte of them.
    Missing from C22: objects that cross an arena (see [gc_crossing_refuted]), and how the roots are found:
    stacks and globals are an argument. *)
Theorem gc_paused_exact_partial procs st objs hb n roots turns g st' objs' :
  history procs (st, objs) -> collectable st hb n roots ->
  grun hb (seed st n roots) turns = Ok g -> quiet g -> hstep (gst g, objs) HSweep = Ok (st', objs') ->
  (forall a z, In (a, z) objs' <-> In (a, z) objs /\ reach st hb roots a) /\
  (forall a z x, In (a, z) objs' -> a <= x < a + z -> mem st' x = mem st x).
Proof.
  intros H C E Q Es. destruct (history_inv _ _ H) as (I1 & I2 & I3 & I4).
  destruct (collect_spec procs st objs hb n roots turns I1 I2 I3 I4 C) as (g' & E' & _ & _ & _ & P). assert (g' = g) as -> by congruence.
  destruct (P Q st' objs' Es) as (_ & _ & _ & _ & P1 & P2). auto.
Qed.
Print Assumptions gc_paused_exact_partial.

(** Marking never stops on an assertion and never reads outside a bitmap, whatever the turns. *)
Theorem gc_paused_runs procs st objs hb n roots turns :
  history procs (st, objs) -> collectable st hb n roots -> exists g, grun hb (seed st n roots) turns = Ok g.
Proof.
  intros H C. destruct (history_inv _ _ H) as (I1 & I2 & I3 & I4).
  destruct (collect_spec procs st objs hb n roots turns I1 I2 I3 I4 C) as (g & E & _). eauto.
Qed.
Print Assumptions gc_paused_runs.

(** Marking ends.  The number of turns that find something to do is bounded, whatever their order, and a
    schedule that cannot be extended by such a turn has emptied all lists. *)
Theorem gc_paused_ends procs st objs hb n roots :
  history procs (st, objs) -> collectable st hb n roots ->
  (exists bound, forall turns, busy hb (seed st n roots) turns -> zlen turns <= bound) /\
  (exists turns g, busy hb (seed st n roots) turns /\ grun hb (seed st n roots) turns = Ok g /\ quiet g) /\
  (forall turns g, grun hb (seed st n roots) turns = Ok g ->
     quiet g \/ exists t, match t with Proc p => nth p (lists g) [] <> [] | Final => glob g <> [] end).
Proof.
  intros H (S & V & R). destruct (history_inv _ _ H) as (I1 & I2 & I3 & I4). cbn [fst] in *. pose proof (proj1 I1) as I. cbn [fst] in I.
  assert (K : arenas_known st) by (intros s Is; now apply tops_known; [apply I| |]).
  assert (W8 : Forall (fun s => s_osize s mod 8 = 0) (spans st)) by (eapply Forall_impl; [|exact I3]; intros s Fs; apply Fs).
  pose proof (seed_minv st hb roots n I K V (fine_unmarked st I3) R) as M. split; [|split].
  - exists (measure (seed st n roots)). intros turns. now apply (busy_bound st hb roots n I K S V W8).
  - apply (busy_ends st hb roots n I K S V W8 (Z.to_nat (measure (seed st n roots)))); [assumption|lia].
  - intros turns g E. exact (quiet_dec g).
Qed.
Print Assumptions gc_paused_ends.

(** A collection begins with no mark left over from the one before. *)
Theorem gc_starts_unmarked procs st objs : history procs (st, objs) -> unmarked st.
Proof. intros H. destruct (history_inv _ _ H) as (_ & _ & I3 & _). now apply fine_unmarked. Qed.
Print Assumptions gc_starts_unmarked.

(** *** A concrete collection *)
Lemma scannable_one st hb bits : hb 0 = Some bits -> bytes bits -> zlen bits = ARENA_SIZE / 32 -> coreof st ->
  (forall s, In s (spans st) -> s_base s + s_pages s * PAGE <= BASE + ARENA_SIZE) -> scannable st hb.
Proof.
  intros E B L Co H s i Is Od Hi a. pose proof (c_wf _ _ _ _ Co) as W. rewrite Forall_forall in W. pose proof (slot_range s i (W s Is) Hi) as (R1 & R2). pose proof (w_osize s (W s Is)) as Oz.
  specialize (H s Is). destruct (span_base st s Co Is) as (p & Ep & P0). unfold slot in *. fold a.
  assert (A : 0 <= a /\ a + s_osize s <= ARENA_SIZE) by (subst a; unfold PAGE in *; lia). clearbody a. assert (Z1 : a / ARENA_SIZE = 0) by (apply Z.div_small; lia).
  assert (Z2 : (a + s_osize s - 1) / ARENA_SIZE = 0) by (apply Z.div_small; lia). split; [|congruence]. intros j. rewrite Z1, Z2. intros Hj. assert (j = 0) as -> by lia. eauto.
Qed.

Lemma no_tail st : coreof st -> (forall s, In s (spans st) -> s_ocount s * s_osize s = s_pages s * PAGE) -> forall v, in_slot st v.
Proof.
  intros Co H v s E. apply span_at_some in E as (Is & R). pose proof (c_wf _ _ _ _ Co) as W. rewrite Forall_forall in W. pose proof (w_osize s (W s Is)) as Oz.
  apply Z.div_lt_upper_bound; [assumption|]. specialize (H s Is). lia.
Qed.

Definition yes : Z -> Z -> bool := fun _ _ => true.
(** a little-endian store of the address BASE + off, as seven writes above a byte *)
Definition store (k : nat) (at_ off : Z) : list hop :=
  map (fun i => HWrite k (at_ + i) ((BASE + off) / 256 ^ i mod 256)) [0; 1; 2; 3; 4; 5; 6; 7].

(** Four objects of 32 bytes with pointers (A, B, D, E) and one of 64 bytes without (C).  A points to B, B into
    the middle of C; D points to E and to A, E points to D. *)
Definition story : list hop :=
  [HMalloc 0 32 true false yes; HMalloc 0 32 true false yes; HMalloc 1 64 false false yes; HMalloc 0 32 true false yes; HMalloc 0 32 true false yes]
  ++ store 0 0 32 ++ store 1 8 8240 ++ store 3 0 96 ++ store 3 8 0 ++ store 4 0 64 ++ store 2 0 64.
(** every byte of the bitmap describes four words; the first two words of each of the four slots are pointers *)
Definition map_bits : list Z := [3; 3; 3; 3] ++ repeat 0 (Z.to_nat 2097148).
Definition hbits : Heapbits_model.heap := fun i => if i =? 0 then Some map_bits else None.

Definition st_of (r : res world) : state := match r with Ok w => fst w | _ => init 1 (fun _ => 0) end.
Definition objs_of (r : res world) : list (Z * Z) := match r with Ok w => snd w | _ => [] end.
Notation w1 := (hrun (init 2 (fun _ => 0), []) story).
Definition offs (l : list (Z * Z)) := map (fun o => (fst o - BASE, snd o)) l.

Example story_objects : offs (objs_of w1) = [(0, 32); (32, 32); (8192, 64); (64, 32); (96, 32)].
Proof. vm_compute. reflexivity. Qed.

Lemma hrun_history procs ops : forall w w', history procs w -> Forall (hop_ok procs) ops -> Forall calm ops -> hrun w ops = Ok w' -> history procs w'.
Proof.
  induction ops as [|o ops IH]; intros w w' H F C E; cbn [hrun] in E; [now injection E as <-|].
  destruct (hstep w o) as [v| | | | |] eqn:E1; cbn [bind] in E; try discriminate. apply Forall_cons_iff in F as (F1 & F2). apply Forall_cons_iff in C as (C1 & C2).
  apply (IH v w'); auto. exact (h_step procs w o v H C1 F1 E1).
Qed.

Definition plain (s : span) : bool := (s_ocount s * s_osize s =? s_pages s * PAGE) && (s_base s + s_pages s * PAGE <=? BASE + ARENA_SIZE).

(** a root in the middle of A, found by processor 0 *)
Definition roots1 : list (nat * Z) := [(0%nat, BASE + 5)].
Example gc_paused_meets : exists st objs,
  w1 = Ok (st, objs) /\ history 2 (st, objs) /\ collectable st hbits 2 roots1 /\
  exists g st' objs', grun hbits (seed st 2 roots1) [Proc 0; Proc 1; Proc 0; Proc 0; Final] = Ok g /\ quiet g /\
    hstep (gst g, objs) HSweep = Ok (st', objs') /\ offs objs' = [(0, 32); (32, 32); (8192, 64)].
Proof.
  assert (A : match w1 with Ok (st, objs) => forallb plain (spans st) = true /\
     match grun hbits (seed st 2 roots1) [Proc 0; Proc 1; Proc 0; Proc 0; Final] with
     | Ok g => (match lists g, glob g with [[]; []], [] => true | _, _ => false end) = true /\ match hstep (gst g, objs) HSweep with Ok w => offs (snd w) = [(0, 32); (32, 32); (8192, 64)] | _ => False end
     | _ => False end | _ => False end) by (vm_compute; repeat split; reflexivity).
  destruct w1 as [(st & objs)| | | | |] eqn:E; try contradiction. destruct A as (A1 & A2). exists st, objs. split; [reflexivity|].
  assert (H : history 2 (st, objs)).
  { eapply hrun_history; [apply (h_start 2 (fun _ => 0))| | |exact E]; repeat constructor; cbn [hop_ok]; lia. }
  split; [assumption|]. destruct (history_inv _ _ H) as (I1 & _ & _). pose proof (proj1 (proj1 I1)) as Co. cbn [fst] in Co.
  assert (P : forall s, In s (spans st) -> s_ocount s * s_osize s = s_pages s * PAGE /\ s_base s + s_pages s * PAGE <= BASE + ARENA_SIZE).
  { intros s Is. rewrite forallb_forall in A1. specialize (A1 s Is). unfold plain in A1. apply andb_true_iff in A1 as (X & Y). apply Z.eqb_eq in X. apply Z.leb_le in Y. auto. }
  split.
  - split; [|split; [split|]].
    + apply (scannable_one st hbits map_bits); [reflexivity| | |assumption|apply P].
      * apply Forall_app. split; [repeat constructor; unfold is_byte; lia|]. apply Forall_forall. intros x Ix. apply repeat_spec in Ix. subst x. split; [apply Z.le_refl|reflexivity].
      * unfold map_bits. rewrite zlen_app. unfold zlen at 2. rewrite repeat_length. rewrite Z2Nat.id by lia. reflexivity.
    + intros p v _. apply no_tail; [assumption|apply P].
    + intros a x _ _. apply no_tail; [assumption|apply P].
    + intros p v [X|[]]. injection X as <- _. lia.
  - destruct (grun hbits (seed st 2 roots1) _) as [g| | | | |]; try contradiction. destruct A2 as (Q & R). exists g.
    destruct (hstep (gst g, objs) HSweep) as [(st' & objs')| | | | |]; try contradiction. exists st', objs'. split; [reflexivity|]. split; [|split; [reflexivity|exact R]].
    destruct (lists g) as [|[|? ?] [|[|? ?] [|? ?]]] eqn:EL; try discriminate Q. destruct (glob g) eqn:EG; try discriminate Q. split; rewrite ?EL, ?EG; repeat constructor.
Qed.

(** *** Objects that cross an arena *)
(** C22 is false of them: the collector looks every word up in the bitmap of the arena of the first word. *)
Theorem gc_crossing_refuted : exists st objs a z,
  history 1 (st, objs) /\ In (a, z) objs /\
  forall hb, (forall i, 0 <= i <= 1 -> exists bits, hb i = Some bits /\ bytes bits /\ zlen bits = ARENA_SIZE / 32) ->
    grun hb (seed st 1 [(0%nat, a)]) [Proc 0] = UB.
Proof.
  set (ops := [HMalloc 0 67108865 true false yes]).
  assert (A : match hrun (init 1 (fun _ => 0), []) ops with Ok (st, objs) => objs = [(BASE, 67108865)] /\ map (fun s => (s_base s, s_class s, s_osize s)) (spans st) = [(BASE, 0, 67117056)] | _ => False end) by (vm_compute; split; reflexivity).
  destruct (hrun _ ops) as [(st & objs)| | | | |] eqn:E; try contradiction. destruct A as (Eo & Es).
  assert (H : history 1 (st, objs)) by (eapply hrun_history; [apply (h_start 1 (fun _ => 0))| | |exact E]; repeat constructor; cbn [hop_ok]; lia). clear E.
  exists st, objs, BASE, 67108865. split; [assumption|]. split; [rewrite Eo; now left|]. intros hb Hb.
  destruct (history_inv _ _ H) as (I1 & _ & I3 & I4). cbn [fst] in *. pose proof (proj1 I1) as I. cbn [fst] in I. pose proof (proj1 I) as Co.
  assert (K : arenas_known st) by (intros s Is; now apply tops_known; [apply I| |]).
  destruct (spans st) as [|s [|? ?]] eqn:Esp; try discriminate Es. cbn [map] in Es. injection Es as B1 B2 B3.
  assert (Is : In s (spans st)) by (rewrite Esp; now left).
  pose proof (c_wf _ _ _ _ Co) as W. rewrite Forall_forall in W. pose proof (W s Is) as Ws.
  assert (Pg : 67117056 <= s_pages s * PAGE). { pose proof (w_fit s Ws). pose proof (w_ocount s Ws). rewrite B3 in *. clear - H0 H1. nia. }
  assert (Sa : span_at st BASE = Some s) by (apply span_at_in; [assumption|assumption|]; rewrite B1; lia).
  assert (St : slot_start st BASE = Some BASE) by (unfold slot_start; rewrite Sa, B1, Z.sub_diag, Z.div_0_l, Z.mul_0_l, Z.add_0_r by lia; reflexivity).
  assert (So : span_of st BASE = Some (s_base s)) by (rewrite (span_of_at _ _ Co K), Sa; reflexivity).
  unfold seed. cbn [repeat offer_roots]. unfold offer. cbn [gst]. rewrite So. cbn [insert gst lists glob grun gstep nth list_set app].
  unfold handle_gc_ptr. cbn [gst lists glob]. rewrite So. rewrite (get_ok st s (spans_nodup _ _ _ _ Co) Is). cbn [bind].
  replace ((BASE - s_base s) / s_osize s) with 0 by (rewrite B1, Z.sub_diag; reflexivity).
  pose proof (w_ocount s Ws) as Oc. rewrite (test_spec (s_mbits s) 0) by (unfold capacity; rewrite (w_ml s Ws); pose proof (words_cap (s_ocount s)); lia).
  cbn [bind]. apply Forall_cons_iff in I3 as (Fs & _). rewrite (proj2 Fs 0). rewrite Z.mul_0_l, Z.add_0_r, B1.
  destruct (mark_effect st BASE BASE I K St) as (s1 & bits & _ & _ & _ & Em & _). rewrite Em. cbn [bind]. rewrite B2. change (has_ptr 0) with true. cbv iota. rewrite Z.sub_diag, B3.
  rewrite scan_crossing; [reflexivity|split; reflexivity| | |].
  - split; [split; [lia|reflexivity]|split; [lia|reflexivity]].
  - intros i Hi. apply Hb. change (0 / ARENA_SIZE) with 0 in Hi. change ((0 + 67117056 - 1) / ARENA_SIZE) with 1 in Hi. exact Hi.
  - reflexivity.
Qed.
Print Assumptions gc_crossing_refuted.

(** ** C67 *)
(** After any history, marks included, whatever the kernel grants or refuses, the lookup the collector uses
    finds the span of every byte of every object the program holds; no object is invisible to it. *)
Theorem lookup_finds_objects procs junk ops st objs a n x :
  Forall (hop_ok procs) ops -> hrun (init procs junk, []) ops = Ok (st, objs) -> In (a, n) objs -> a <= x < a + n ->
  exists s, In s (spans st) /\ s_base s <= a /\ a + n <= s_base s + s_pages s * PAGE /\ span_of st x = Some (s_base s).
Proof.
  intros F E Ia Hx.
  assert (G : forall ops w w', winv w -> nprocs (fst w) = procs -> tops (fst w) -> Forall (hop_ok procs) ops -> hrun w ops = Ok w' -> winv w' /\ tops (fst w')).
  { clear. induction ops as [|o ops IH]; intros w w' I N T F E; cbn [hrun] in E; [injection E as <-; auto|]. apply Forall_cons_iff in F as (F1 & F2).
    destruct (step_ok procs w o I N F1) as [X|(v & X & I' & N' & _)]; rewrite X in E; cbn [bind] in E; [discriminate|]. exact (IH v w' I' N' (step_tops procs w o v I N F1 X T) F2 E). }
  destruct (G ops _ _ (winv_init procs junk) eq_refl (tops_init procs junk) F E) as (Iw & T). cbn [fst] in T.
  destruct Iw as (I & _ & O). cbn [fst snd] in *. destruct (O a n Ia) as (Hn & z & Iz & Hz). apply in_slots in Iz. destruct Iz as (s & i & Is & Hi & B & -> & ->).
  pose proof (proj1 I) as Co. pose proof (c_wf _ _ _ _ Co) as W. rewrite Forall_forall in W. destruct (slot_range s i (W s Is) Hi) as [R1 R2].
  exists s. split; [assumption|]. split; [assumption|]. split; [lia|]. rewrite (span_of_at st x Co); [|intros t It; now apply tops_known]. rewrite (span_at_in st s x Co Is) by lia. reflexivity.
Qed.
Print Assumptions lookup_finds_objects.

(** the history above meets the hypotheses; byte 58 of C, the third object, is found in the second span *)
Example lookup_meets : Forall (hop_ok 2) story /\ match w1 with Ok (st, _) => span_of st (BASE + 8250) = Some (BASE + 8192) | _ => False end.
Proof. split; [repeat constructor; cbn [hop_ok]; lia|vm_compute; reflexivity]. Qed.
