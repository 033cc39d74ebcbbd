(** C18, first half: the locks of a select. *)
From Verif Require Import Base Zlist Sellock_model Sellock_spec Sellock_proof.

(** A select over any list of channels (up to the 16384 for which the int16_t indices of its heap do not
    overflow) and whatever rand() gives: it locks every channel of the list once, in the order of the addresses,
    and the exits that go through selunlock unlock exactly those, in the reverse order. *)
Theorem select_locks : forall cases rnd, zlen cases <= 16384 -> Forall (fun c => 0 < c) cases ->
  exists ls, locking cases rnd = Ok (ls, rev ls) /\ rising ls /\ forall a, In a ls <-> In a cases.
Proof. exact locking_ok. Qed.
Print Assumptions select_locks.
Example select_locks_case : exists ls, locking [48; 16; 48; 32; 16; 64] (fun i => 7 * i + 3) = Ok (ls, rev ls) /\ ls = [16; 32; 48; 64].
Proof. exists [16; 32; 48; 64]. split; vm_compute; reflexivity. Qed.

(** Locks taken in one global order: whatever tasks are taking locks, one of them has all it needs or can
    take its next one.  So selects never wait for each other in a circle. *)
Theorem select_no_deadlock : forall ts, ts <> [] -> Forall (fun t => rising (fst t ++ snd t)) ts ->
  exists t, In t ts /\ (finished t \/ can_go ts t).
Proof. exact deadlock_free. Qed.
Print Assumptions select_no_deadlock.
Example select_no_deadlock_case : Forall (fun t : list Z * list Z => rising (fst t ++ snd t)) [([16], [32; 48]); ([32], [48]); ([], [16; 32])].
Proof. repeat constructor; lia. Qed.

(** Parking, when equal channels stand side by side in the list: the commit unlocks exactly what was locked.
    Missing for the full claim: other lists, where it fails (below). *)
Theorem select_park_unlocks_partial : forall cases rnd ls us, zlen cases <= 16384 -> Forall (fun c => 0 < c) cases ->
  side_by_side cases -> locking cases rnd = Ok (ls, us) -> Permutation (park_commit 0 cases) ls.
Proof.
  intros cases rnd ls us Hb Hz Hs E. destruct (select_locks cases rnd Hb Hz) as (ls' & E' & Hr & Hin).
  rewrite E' in E. injection E as <- _. apply NoDup_Permutation.
  - now apply park_NoDup0.
  - clear - Hr. induction Hr as [|a l Hr IH Ha]; constructor; auto. intros H. rewrite Forall_forall in Ha. specialize (Ha a H). lia.
  - intros x. rewrite Hin. rewrite park_In by exact Hz. intuition.
Qed.
Print Assumptions select_park_unlocks_partial.
Example select_park_case : side_by_side [48; 48; 16; 32; 32] /\ park_commit 0 [48; 48; 16; 32; 32] = [48; 16; 32].
Proof.
  split; [|reflexivity]. intros i j d x y Hij Hjd H1 H2 H3. apply at_znth in H1, H2, H3. pose proof (znth_range _ _ _ H3) as R. unfold zlen in R. cbn in R.
  assert (i = 0 \/ i = 1 \/ i = 2) as Hi by lia. assert (j = 1 \/ j = 2 \/ j = 3) as Hj by lia. assert (d = 2 \/ d = 3 \/ d = 4) as Hd by lia.
  destruct Hi as [->|[->| ->]], Hj as [->|[->| ->]], Hd as [->|[->| ->]]; try lia; vm_compute in H1, H2, H3; congruence.
Qed.

(** A list that names a channel, another one, and the first again: parking unlocks the first channel twice. *)
Theorem select_park_double_unlock_refuted : exists cases ls,
  locking cases (fun _ => 0) = Ok (ls, rev ls) /\ ~ NoDup (park_commit 0 cases) /\ ~ Permutation (park_commit 0 cases) ls.
Proof.
  exists [16; 32; 16], [16; 32]. split; [vm_compute; reflexivity|]. split.
  - vm_compute. intros H. inversion H as [|? ? N _]; subst. apply N. cbn. auto.
  - intros H. apply Permutation_length in H. vm_compute in H. discriminate.
Qed.
Print Assumptions select_park_double_unlock_refuted.
