(** C27, C29 and C57 for spans, caches and the sweep (Spans_model.v). *)
From Coq Require Import ZArith List Bool Lia Permutation.
From Verif Require Import Base Base_lemmas Zlist Bitmap_model Bitmap_spec Sizeclass_model Pages_model Pages_spec Pages_heap_proof.
From Verif Require Import Spans_model Spans_spec Spans_proof Spans_alloc_proof Spans_malloc_proof Spans_mark_proof Spans_sweep_proof Spans_cycle_proof Spans_world_proof Spans_range_proof.
Import ListNotations.
Open Scope Z_scope.

(** what a history leaves: the objects, and the counter *)
Definition objs_of (r : res world) : list (Z * Z) := match r with Ok w => snd w | _ => [] end.
Definition bytes_of (r : res world) : Z := match r with Ok w => allocated (fst w) | _ => -1 end.
Definition yes : Z -> Z -> bool := fun _ _ => true.
Definition junk : Z -> Z := fun _ => 255.

(** Two processors allocate small and large objects, write to them, keep two of them over a collection and
    allocate again: one object reuses the slot of a reclaimed one. *)
Definition story : list hop :=
  [HMalloc 0 24 true false yes; HMalloc 0 24 true false yes; HMalloc 1 100 false false yes; HMalloc 0 40000 false false yes;
   HWrite 0 3 7; HWrite 1 23 9; HMark BASE; HMark (BASE + 16384); HSweep; HMalloc 0 20 true true yes; HMalloc 1 24 true false yes].
Example story_runs :
  objs_of (hrun (init 2 junk, []) story) = [(BASE, 24); (BASE + 16384, 40000); (BASE + 24, 20); (BASE + 8192, 24)].
Proof. vm_compute. reflexivity. Qed.

(** ** C27 *)
(** Whatever the history of allocations, writes, marks and sweeps, on any number of processors and whatever
    the kernel grants, it either stops at one of the runtime's own assertions (out of memory, or a request of
    no bytes), or ends in a state where no two live objects share a byte and every live object lies within
    one span, in memory the kernel granted.  No table or bitmap is accessed outside its bounds. *)
Theorem objects_apart procs junk ops :
  Forall (hop_ok procs) ops ->
  match hrun (init procs junk, []) ops with
  | Ok (st, objs) =>
      apart_objs objs /\
      (forall a n, In (a, n) objs -> 0 < n /\
         exists s, In s (spans st) /\ s_base s <= a /\ a + n <= s_base s + s_pages s * PAGE /\ (a - s_base s) mod s_osize s = 0 /\ n <= s_osize s) /\
      (forall a n x, In (a, n) objs -> a <= x < a + n -> exists g, In g (reserved (ph st)) /\ fst g <= x < fst g + snd g)
  | Abort => True
  | _ => False
  end.
Proof.
  intros F. destruct (run_ok_all procs ops (init procs junk, []) (winv_init procs junk) eq_refl F) as [E|([st objs] & E & Iw & _)]; rewrite E; [exact Logic.I|].
  split; [exact (objs_apart _ Iw)|]. destruct Iw as (I & Nd & O). cbn [fst snd] in *. destruct I as [Co Ow]. pose proof (c_wf _ _ _ _ Co) as W. rewrite Forall_forall in W.
  assert (A : forall a n, In (a, n) objs -> 0 < n /\
         exists s, In s (spans st) /\ s_base s <= a /\ a + n <= s_base s + s_pages s * PAGE /\ (a - s_base s) mod s_osize s = 0 /\ n <= s_osize s).
  { intros a n Ia. destruct (O a n Ia) as (Hn & z & Iz & Hz). split; [assumption|]. apply in_slots in Iz. destruct Iz as (s & i & Is & Hi & B & -> & ->).
    destruct (slot_range s i (W s Is) Hi) as [R1 R2]. exists s. split; [assumption|]. split; [assumption|]. split; [lia|]. split; [|assumption].
    unfold slot. replace (s_base s + i * s_osize s - s_base s) with (i * s_osize s) by ring. apply Z.mod_mul. pose proof (w_osize s (W s Is)). lia. }
  split; [exact A|]. intros a n x Ia Hx. destruct (A a n Ia) as (_ & s & Is & R1 & R2 & _). apply (inv_granted _ _ (run s) x (c_pages _ _ _ _ Co) (in_map run _ _ Is)). unfold run. cbn [fst snd]. lia.
Qed.
Print Assumptions objects_apart.

(** An allocation gives an object that overlaps none of those alive. *)
Theorem malloc_apart procs junk ops st objs p size has_ptr barrier grant st' objs' :
  Forall (hop_ok procs) ops ->
  hrun (init procs junk, []) ops = Ok (st, objs) -> hop_ok procs (HMalloc p size has_ptr barrier grant) ->
  hstep (st, objs) (HMalloc p size has_ptr barrier grant) = Ok (st', objs') ->
  exists addr, objs' = objs ++ [(addr, size)] /\ forall a n, In (a, n) objs -> disjoint a n addr size.
Proof.
  intros F E Ho Es. destruct (run_ok_all procs ops (init procs junk, []) (winv_init procs junk) eq_refl F) as [E'|(w & E' & Iw & Np)]; [congruence|]. assert (w = (st, objs)) as -> by congruence.
  destruct (step_ok procs _ _ Iw Np Ho) as [X|(w' & X & Iw' & _ & (addr & Ea & _))]; [congruence|]. assert (w' = (st', objs')) as -> by congruence. cbn [fst snd] in *.
  exists addr. split; [assumption|]. intros a n Ia. destruct (In_nth_error _ _ Ia) as (i & Ei). assert (Hi : (i < List.length objs)%nat) by (apply nth_error_Some; congruence).
  apply (objs_apart _ Iw' i (List.length objs)); [lia| |]; cbn [snd]; subst objs'.
  - now rewrite nth_error_app1.
  - rewrite nth_error_app2 by lia. now rewrite Nat.sub_diag.
Qed.
Print Assumptions malloc_apart.

(** The sweep keeps exactly the objects whose slot is marked. *)
Theorem sweep_keeps_marked procs junk ops st objs st' objs' :
  Forall (hop_ok procs) ops ->
  hrun (init procs junk, []) ops = Ok (st, objs) -> hstep (st, objs) HSweep = Ok (st', objs') ->
  forall a n, In (a, n) objs -> is_marked st a = true ->
    exists s, In s (spans st') /\ s_base s <= a /\ a + n <= s_base s + s_pages s * PAGE /\ bit (s_abits s) ((a - s_base s) / s_osize s) = true.
Proof.
  intros F E Es a n Ia Ma. destruct (run_ok_all procs ops (init procs junk, []) (winv_init procs junk) eq_refl F) as [E'|(w & E' & Iw & Np)]; [congruence|]. assert (w = (st, objs)) as -> by congruence.
  destruct (step_ok procs _ HSweep Iw Np Logic.I) as [X|(w' & X & Iw' & _ & (Eo & _))]; [congruence|]. assert (w' = (st', objs')) as -> by congruence. cbn [fst snd] in *.
  pose proof (proj2 (Eo (a, n)) (conj Ia Ma)) as Ia'. destruct Iw' as (I & _ & O). cbn [fst snd] in *. destruct (O a n Ia') as (Hn & z & Iz & Hz).
  apply in_slots in Iz. destruct Iz as (s & i & Is & Hi & B & -> & ->). pose proof (c_wf _ _ _ _ (proj1 I)) as W. rewrite Forall_forall in W. destruct (slot_range s i (W s Is) Hi) as [R1 R2].
  exists s. split; [assumption|]. split; [assumption|]. split; [lia|]. rewrite (slot_index s i (slot s i)); [assumption|exact (w_osize s (W s Is))|]. pose proof (w_osize s (W s Is)). lia.
Qed.
Print Assumptions sweep_keeps_marked.

Example story_meets : Forall (hop_ok 2) story.
Proof. repeat constructor; cbn [hop_ok]; lia. Qed.

(** ** C57 *)
(** Every byte of a new object is zero, whatever was in its slot before, and the bytes of the objects alive
    do not change. *)
Theorem malloc_zeroed procs junk ops st objs p size has_ptr barrier grant st' objs' :
  Forall (hop_ok procs) ops ->
  hrun (init procs junk, []) ops = Ok (st, objs) -> hop_ok procs (HMalloc p size has_ptr barrier grant) ->
  hstep (st, objs) (HMalloc p size has_ptr barrier grant) = Ok (st', objs') ->
  exists addr, objs' = objs ++ [(addr, size)] /\ (forall x, addr <= x < addr + size -> mem st' x = 0) /\
    (forall a n x, In (a, n) objs -> a <= x < a + n -> mem st' x = mem st x).
Proof.
  intros F E Ho Es. destruct (run_ok_all procs ops (init procs junk, []) (winv_init procs junk) eq_refl F) as [E'|(w & E' & Iw & Np)]; [congruence|]. assert (w = (st, objs)) as -> by congruence.
  destruct (step_ok procs _ _ Iw Np Ho) as [X|(w' & X & Iw' & _ & (addr & Ea & _ & Hz & Hk))]; [congruence|]. assert (w' = (st', objs')) as -> by congruence. exists addr. auto.
Qed.
Print Assumptions malloc_zeroed.

(** A collection does not change the bytes of the objects it keeps. *)
Theorem sweep_preserves procs junk ops st objs st' objs' :
  Forall (hop_ok procs) ops ->
  hrun (init procs junk, []) ops = Ok (st, objs) -> hstep (st, objs) HSweep = Ok (st', objs') ->
  (forall a n, In (a, n) objs' <-> In (a, n) objs /\ is_marked st a = true) /\
  (forall a n x, In (a, n) objs' -> a <= x < a + n -> mem st' x = mem st x).
Proof.
  intros F E Es. destruct (run_ok_all procs ops (init procs junk, []) (winv_init procs junk) eq_refl F) as [E'|(w & E' & Iw & Np)]; [congruence|]. assert (w = (st, objs)) as -> by congruence.
  destruct (step_ok procs _ HSweep Iw Np Logic.I) as [X|(w' & X & Iw' & _ & (Eo & Ek))]; [congruence|]. assert (w' = (st', objs')) as -> by congruence. cbn [fst snd] in *. split.
  - intros a n. exact (Eo (a, n)).
  - exact Ek.
Qed.
Print Assumptions sweep_preserves.

(** In the story the second object wrote a 9 to its last byte, BASE + 47; the slot is then reclaimed. *)
Definition byte_of (r : res world) (x : Z) : Z := match r with Ok w => mem (fst w) x | _ => -1 end.
Example story_bytes :
  map (fun k => byte_of (hrun (init 2 junk, []) (firstn k story)) (BASE + 47)) [6%nat; 9%nat; 10%nat] = [9; 9; 0] /\
  byte_of (hrun (init 2 junk, []) story) (BASE + 3) = 7.
Proof. split; vm_compute; reflexivity. Qed.

(** ** C29 *)
(** For histories of objects up to 32 KiB whose marks fall in live objects, the counter is the total of the
    sizes of the live objects, each rounded to its size class (modulo 2^64, its width). *)
Theorem counter_small_partial procs junk ops st objs :
  Forall (hop_ok procs) ops -> Forall small ops -> marks_ok (fun w a => in_object (snd w) a) (init procs junk, []) ops ->
  hrun (init procs junk, []) ops = Ok (st, objs) -> allocated st = total class_size objs mod 2 ^ 64.
Proof.
  intros F S M E. destruct (crun_ok procs ops _ (cinv_init procs junk) eq_refl F S M) as [X|([st1 objs1] & X & C)]; [congruence|]. assert (st1 = st /\ objs1 = objs) as [-> ->] by (split; congruence).
  pose proof (counted_total _ C) as T. assert (R : ranged (fst (init procs junk, @nil (Z * Z)))) by (cbn; unfold ranged; cbn; lia).
  pose proof (crun_range procs ops _ _ (cinv_init procs junk) R eq_refl F S M E) as Q. cbn [fst snd] in *. unfold u64 in T. unfold ranged in Q. rewrite Z.mod_small in T by assumption. exact T.
Qed.
Print Assumptions counter_small_partial.

Fixpoint marks_in (w : world) (ops : list hop) : bool :=
  match ops with
  | [] => true
  | o :: ops =>
      (match o with HMark addr => existsb (fun o => (fst o <=? addr) && (addr <? fst o + snd o)) (snd w) | _ => true end) &&
      (match hstep w o with Ok w' => marks_in w' ops | _ => true end)
  end.
Lemma marks_in_ok ops : forall w, marks_in w ops = true -> marks_ok (fun w a => in_object (snd w) a) w ops.
Proof.
  induction ops as [|o ops IH]; intros w; cbn [marks_in marks_ok]; [auto|]. rewrite andb_true_iff. intros [A B]. split.
  - destruct o; auto. apply existsb_exists in A. destruct A as ((a & n) & I & R). rewrite andb_true_iff, Z.leb_le, Z.ltb_lt in R. exists a, n. auto.
  - destruct (hstep w o) as [w'| | | | |]; auto.
Qed.
Definition small_story : list hop :=
  [HMalloc 0 24 true false yes; HMalloc 0 24 true true yes; HMalloc 1 100 false false yes; HMalloc 1 1 false false yes; HMark (BASE + 23); HSweep; HMalloc 1 1000 true false yes].
Example counter_meets :
  Forall (hop_ok 2) small_story /\ Forall small small_story /\ marks_ok (fun w a => in_object (snd w) a) (init 2 junk, []) small_story /\
  bytes_of (hrun (init 2 junk, []) small_story) = 1072 /\ map snd (objs_of (hrun (init 2 junk, []) small_story)) = [24; 24; 1000].
Proof.
  split; [repeat constructor; cbn [hop_ok]; lia|]. split; [repeat constructor; cbn [small]; lia|]. split; [apply marks_in_ok; vm_compute; reflexivity|]. split; vm_compute; reflexivity.
Qed.

(** C29 as stated is false.  A large object adds the bytes asked for (allocator.c:1204) and the sweep takes
    away the bytes of its pages (collector.c:197): after one object of 32769 bytes has come and gone the
    counter has wrapped below zero, with no object alive. *)
Theorem counter_refuted : exists ops st,
  Forall (hop_ok 1) ops /\ hrun (init 1 junk, []) ops = Ok (st, []) /\ allocated st = 2 ^ 64 - 8191.
Proof.
  assert (A : objs_of (hrun (init 1 junk, []) [HMalloc 0 32769 false false yes; HSweep]) = [] /\
              bytes_of (hrun (init 1 junk, []) [HMalloc 0 32769 false false yes; HSweep]) = 2 ^ 64 - 8191) by (split; vm_compute; reflexivity).
  exists [HMalloc 0 32769 false false yes; HSweep]. destruct (hrun (init 1 junk, []) [HMalloc 0 32769 false false yes; HSweep]) as [[st objs]| | | | |]; cbn [objs_of bytes_of fst snd] in A; try (destruct A; discriminate).
  destruct A as [-> A]. exists st. split; [|split; [reflexivity|exact A]]. repeat constructor; cbn [hop_ok]; lia.
Qed.
Print Assumptions counter_refuted.

(** The hypothesis that requests are at most 2 GiB is needed: above it the offset of a page within its span
    (an int, allocator.c:707) overflows, which is undefined behaviour in C. *)
Theorem huge_object_refuted : exists size, hrun (init 1 junk, []) [HMalloc 0 size false false yes] = UB.
Proof.
  exists 2147483649. cbn [hrun hstep]. unfold yes. rewrite (huge_ub 1 junk 2147483649 false false); [reflexivity|lia|].
  unfold large_pages, need, rounded. vm_compute. discriminate.
Qed.
Print Assumptions huge_object_refuted.

(** Small objects alone do not save it: the collector marks the slot of any address found on a stack, taken
    or not (collector.c:641-685).  A free slot that is marked becomes taken, and the next sweep takes away
    bytes that were never added. *)
Theorem counter_stray_refuted : exists ops st,
  Forall (hop_ok 1) ops /\ Forall small ops /\ hrun (init 1 junk, []) ops = Ok (st, []) /\ allocated st = 2 ^ 64 - 24.
Proof.
  set (ops := [HMalloc 0 24 false false yes; HMark BASE; HMark (BASE + 24); HSweep; HSweep]).
  assert (A : objs_of (hrun (init 1 junk, []) ops) = [] /\ bytes_of (hrun (init 1 junk, []) ops) = 2 ^ 64 - 24) by (split; vm_compute; reflexivity).
  exists ops. destruct (hrun (init 1 junk, []) ops) as [[st objs]| | | | |]; cbn [objs_of bytes_of fst snd] in A; try (destruct A; discriminate).
  destruct A as [-> A]. exists st. split; [repeat constructor; cbn [hop_ok]; lia|]. split; [repeat constructor; cbn [small]; lia|]. split; [reflexivity|exact A].
Qed.
Print Assumptions counter_stray_refuted.
