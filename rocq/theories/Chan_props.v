(** C15, C16, C17, C18 (second half), C63: channels. *)
From Verif Require Import Base Base_lemmas Zlist Chan_model Chan_spec Chan_proof Chan_queue_proof Chan_step_proof Chan_op_proof Chan_hist_proof.
From Coq Require Import ZifyBool ZifyNat.

(** the runs used as examples: channel 0 has capacity 1, channel 1 has none *)
Definition caps01 (c : nat) : Z := match c with O => 1 | S O => 0 | _ => 2 end.
Definition run01 : list label :=
  [LSend 0 0 10 false; LSend 1 0 20 false; LSend 2 0 30 false; LRecv 3 0 false; LResume 1; LRecv 3 0 false;
   LRecv 4 1 false; LSelect 5 1 [(1%nat, 40); (0%nat, 0)] false; LResume 4; LSelect 6 1 [(1%nat, 50); (2%nat, 0)] false;
   LRecv 3 1 false; LResume 6; LResume 2; LClose 0 0; LRecv 7 0 false; LRecv 7 0 false; LSend 0 0 60 true].
Definition outs (r : res (state * list out)) : list out := match r with Ok (_, os) => os | _ => [] end.
Definition tidyb (l : label) : bool := match l with LSelect _ _ cases _ => distinct (map fst cases) | _ => true end.

(** C15.  Whatever is called, by however many coroutines, in whatever order: for every channel, the sends that
    were accepted and the receives that were served are each in the order of the calls, the values received are
    the values sent, in order, up to at most the capacity still held, and they are exactly the values of the
    calls that returned, or of blocked calls about to return. *)
Theorem channel_fifo : forall caps ls st os, run (init caps) ls = Ok (st, os) ->
  forall c, exists acc rcv, fifo (history_of ls os) c (caps c) acc rcv.
Proof.
  intros caps ls st os R c. exists (accepted c (log st)), (received c (log st)). apply fifo_holds. now apply run_inv.
Qed.
Print Assumptions channel_fifo.
Example channel_fifo_case : outs (run (init caps01) run01) =
  [OSent; OParked; OParked; OGot 10; OSent; OGot 20; OParked; OChosen 0 true None; OGot 40; OParked; OGot 50;
   OChosen 0 true None; OSent; OClosed; OGot 30; OThrow; OThrow].
Proof. vm_compute. reflexivity. Qed.

(** C16.  In every reachable state: a channel holds at most the capacity asked for; a send on an open channel goes
    through exactly when somebody is waiting to receive from it or it holds less than its capacity, and otherwise
    blocks (or gives false for the try form). *)
Theorem channel_capacity : forall caps ls st os, run (init caps) ls = Ok (st, os) ->
  forall c, zlen (held st c) <= Z.max 0 (caps c) /\
  forall k v try, cos st k = Idle -> closed (chans st c) = false ->
  exists st' o, step st (LSend k c v try) = Ok (st', o) /\
    (o = OSent <-> (exists j, receiving st j c) \/ zlen (held st c) < Z.max 0 (caps c)) /\
    (o <> OSent -> o = if try then OFalse else OParked).
Proof.
  intros caps ls st os R c. pose proof (hi_inv _ _ _ (run_inv _ _ _ _ R)) as I.
  split; [now apply held_full, I|]. intros k v try Hk Hc. destruct (inv_tick caps st I) as [I1 F1].
  destruct (chan_send_ok caps (tick st) k c v try I1 F1 Hk) as (st' & o & E & _ & _ & H).
  exists st', o. split. { unfold step. cbn [do_step]. unfold when_idle. change (cos (tick st) k) with (cos st k). rewrite Hk. exact E. }
  specialize (H Hc). change (held (tick st) c) with (held st c) in H. change (receiving (tick st)) with (receiving st) in H.
  destruct H as [[H ->]|[[H1 H2] ->]]; [tauto|]. split; [|reflexivity]. split; [destruct try; discriminate|intros [X|X]; [contradiction|lia]].
Qed.
Print Assumptions channel_capacity.

(** From a new channel: exactly as many sends as the capacity go through, the next one does not. *)
Theorem channel_capacity_new : forall caps k c vs, zlen vs = Z.max 0 (caps c) ->
  exists st, run (init caps) (map (fun v => LSend k c v true) vs) = Ok (st, repeat OSent (length vs)) /\
  forall v, (exists st', step st (LSend k c v true) = Ok (st', OFalse)) /\ (exists st', step st (LSend k c v false) = Ok (st', OParked)).
Proof. exact fill_new. Qed.
Print Assumptions channel_capacity_new.
Example channel_capacity_case :
  outs (run (init (fun _ => 2)) [LSend 0 0 1 true; LSend 0 0 2 true; LSend 0 0 3 true; LRecv 1 0 true; LSend 0 0 4 true; LSend 0 0 5 false]) =
  [OSent; OSent; OFalse; OGot 1; OSent; OParked] /\
  outs (run (init (fun _ => 0)) [LSend 0 0 1 true; LRecv 1 0 false; LSend 0 0 2 true; LSend 0 0 3 true]) = [OFalse; OParked; OSent; OFalse].
Proof. split; vm_compute; reflexivity. Qed.

(** C17.  Closing an open channel: it succeeds, and everybody blocked on the channel (in a send, a receive or a
    select) is woken with failure: a send or receive throws, a select gives a case on this channel without a value. *)
Theorem channel_close_wakes : forall caps ls st os k c, run (init caps) ls = Ok (st, os) ->
  cos st k = Idle -> closed (chans st c) = false ->
  exists st', step st (LClose k c) = Ok (st', OClosed) /\ closed (chans st' c) = true /\ held st' c = held st c /\
  forall j, sending st j c \/ receiving st j c ->
    exists st'' o, step st' (LResume j) = Ok (st'', o) /\ cos st'' j = Idle /\
      match cos st j with
      | Parked (WSelect cases _) _ => exists i v, o = OChosen i false None /\ nth_error cases i = Some (c, v)
      | _ => o = OThrow
      end.
Proof.
  intros caps ls st os k c R Hk Hc. pose proof (hi_inv _ _ _ (run_inv _ _ _ _ R)) as I. destruct (inv_tick caps st I) as [I1 F1].
  destruct (chan_close_result caps (tick st) k c I1) as (st' & o & E & Rs & _ & H). destruct (H Hc) as (-> & Hcl & Hall).
  assert (step st (LClose k c) = Ok (st', OClosed)) as Es.
  { unfold step. cbn [do_step]. unfold when_idle. change (cos (tick st) k) with (cos st k). rewrite Hk. exact E. }
  exists st'. split; [exact Es|]. split; [exact Hcl|]. split.
  { unfold chan_close in E. change (closed (chans (tick st) c)) with (closed (chans st c)) in E. rewrite Hc in E.
    unfold held. enough (log st' = log st) as -> by reflexivity. eapply close_log; [exact Hc|]. exact Es. }
  intros j Hj.
  assert (exists w s i v, cos st j = Parked w s /\ nth_error (w_cases w) i = Some (c, v)) as (w & s & i & v & Ew & En).
  { unfold sending, receiving in Hj. destruct (cos st j) as [|w s|]; [tauto| |tauto]. exists w, s.
    destruct w as [d x|d|cases sends]; cbn [w_cases] in *.
    - exists O, x. destruct Hj as [->|[]]. split; reflexivity.
    - exists O, 0. destruct Hj as [[]| ->]. split; reflexivity.
    - destruct Hj as [(i & v & _ & Hn)|(i & v & _ & Hn)]; eauto. }
  destruct (Hall j w s i v Ew En) as (i' & v' & Ew' & En'). rewrite Ew.
  unfold step. cbn [do_step]. unfold resume. change (cos (tick st') j) with (cos st' j). rewrite Ew'.
  destruct w as [d x|d|cases sends].
  - eexists _, OThrow. split; [reflexivity|]. split; [cbn; now rewrite Nat.eqb_refl|reflexivity].
  - eexists _, OThrow. split; [reflexivity|]. split; [cbn; now rewrite Nat.eqb_refl|reflexivity].
  - eexists _, _. split; [reflexivity|]. split; [cbn; now rewrite Nat.eqb_refl|]. exists i', v'. auto.
Qed.
Print Assumptions channel_close_wakes.

(** After that: the channel stays closed whatever happens; sends and a second close throw; what the channel still
    holds is received, oldest first, and then receives throw (the try form gives false). *)
Theorem channel_closed : forall caps ls st os c, run (init caps) ls = Ok (st, os) -> closed (chans st c) = true ->
  (forall ls' st' os', run st ls' = Ok (st', os') -> closed (chans st' c) = true) /\
  forall k, cos st k = Idle ->
    (forall v try, exists st', step st (LSend k c v try) = Ok (st', OThrow) /\ held st' c = held st c) /\
    (exists st', step st (LClose k c) = Ok (st', OThrow) /\ held st' c = held st c) /\
    (forall try, exists st' o, step st (LRecv k c try) = Ok (st', o) /\
       match held st c with
       | v :: rest => o = OGot v /\ held st' c = rest
       | [] => o = (if try then OFalse else OThrow) /\ held st' c = []
       end).
Proof.
  intros caps ls st os c R Hc. split. { intros ls' st' os' R'. eapply closed_run; eauto. }
  intros k Hk. pose proof (hi_inv _ _ _ (run_inv _ _ _ _ R)) as I. now apply closed_ops with (caps := caps).
Qed.
Print Assumptions channel_closed.
Example channel_close_case :
  outs (run (init caps01) [LSend 0 0 1 false; LSend 1 0 2 false; LSelect 3 1 [(0%nat, 5); (1%nat, 0)] false;
     LClose 4 0; LResume 1; LResume 3; LClose 4 0; LSend 0 0 3 true; LRecv 5 0 false; LRecv 5 0 true; LRecv 5 0 false]) =
  [OSent; OParked; OParked; OClosed; OThrow; OChosen 0 false None; OThrow; OThrow; OGot 1; OFalse; OThrow].
Proof. vm_compute. reflexivity. Qed.

(** C18, second half.  Runs whose selects have equal channels side by side only (see Sellock_props.v for the others)
    never panic and never unlock a lock twice. *)
Theorem channel_runs : forall caps ls, Forall tidy ls -> exists st os, run (init caps) ls = Ok (st, os).
Proof. intros caps ls T. destruct (run_total caps ls T (init caps) (inv_init caps)) as (st & os & E & _). eauto. Qed.
Print Assumptions channel_runs.

(** Every call takes effect at most once: at most one value is sent or received on its behalf, on any channel
    (a select takes at most one of its cases). *)
Theorem select_one_case : forall caps ls st os, run (init caps) ls = Ok (st, os) ->
  forall t, (length (filter (fun e => match e with Accepted _ _ s | Received _ _ s => (s =? t)%Z end) (log st)) <= 1)%nat.
Proof.
  intros caps ls st os R t. pose proof (one_event caps (history_of ls os) st t (run_inv _ _ _ _ R)) as H. unfold evs in H.
  rewrite (filter_ext _ (fun e => match e with Accepted _ _ s | Received _ _ s => (s =? t)%Z end)) in H by (intros []; reflexivity). exact H.
Qed.
Print Assumptions select_one_case.

(** A select that names a channel, another, and the first again, and has to wait: its commit unlocks a mutex twice. *)
Theorem select_repeated_channel_refuted : exists caps ls, run (init caps) ls = UB /\
  exists k sends cases, ls = [LSelect k sends cases false].
Proof.
  exists (fun _ => 0), [LSelect 0 0 [(0%nat, 0); (1%nat, 0); (0%nat, 0)] false]. split; [vm_compute; reflexivity|]. eauto.
Qed.
Print Assumptions select_repeated_channel_refuted.

(** C63.  A channel on which everything went well, never closed, says it was not successful. *)
Theorem channel_successful_refuted : exists caps ls st os, run (init caps) ls = Ok (st, os) /\ os = [OSent; OGot 7] /\
  closed (chans st 0) = false /\ successful (chans st 0) = false.
Proof.
  exists (fun _ => 1), [LSend 0 0 7 false; LRecv 1 0 false]. eexists _, _. split; [reflexivity|]. repeat split.
Qed.
Print Assumptions channel_successful_refuted.
