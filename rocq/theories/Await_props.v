(** C20 (await), C66 (an error of the awaited coroutine reaches the one that awaits it). *)
From Verif Require Import Base Base_lemmas Await_model Await_spec Await_proof.

(** C20, for a coroutine [t] that nobody else starts to wait for later.  In every history (any number of processors and
    coroutines, any interleaving, [tr1]) in which [c] runs and [t] has not ended, let [c] wait for [t] and let anything
    happen afterwards ([tr2]) except that [c] gives up its processor again.  Then the times [c] has been put on a
    processor and the times it stands in a run queue add up to one if [t] has ended, and to none if not: it is made
    runnable by the end of [t], once, and not before.
    Full statement: without the restriction that nobody else waits for [t]; that is false, see below. *)
Theorem await_exactly_once_partial np tr1 w1 c t w2 tr2 w3 :
  run (init np) tr1 = Ok w1 -> pc (G w1 c) = Run -> (t < length (cos w1))%nat -> ended w1 t = false ->
  step w1 (Await c t) = Ok w2 ->
  forallb (fun a => negb (awaits t a)) tr2 = true -> forallb (fun a => negb (sleeps_again c a)) tr2 = true ->
  run w2 tr2 = Ok w3 ->
  (resumed w2 tr2 c + queued w3 c = if ended w3 t then 1 else 0)%nat.
Proof.
  intros E1 R Lt D E2 A B E3.
  pose proof (run_inv _ _ _ (inv_init np) E1) as I1. pose proof (inv_await _ _ _ _ I1 E2) as I2.
  destruct (run_facts w1 c I1 R) as (F1 & F2 & F3 & _).
  assert (E2' := E2). cbn [step] in E2. unfold is_run in E2. rewrite R in E2. cbn [andb] in E2.
  pose proof Lt as Lt'. apply Nat.ltb_lt in Lt'. rewrite Lt' in E2.
  change (is_dead (G w1 t)) with (ended w1 t) in E2. rewrite D in E2. injection E2 as E2.
  assert (P : phase w2 c t 0).
  { left. split; [|auto]. subst w2. unfold waits_for.
    set (w := set_co w1 t (set_slot (G w1 t) (Some c))).
    assert (Gt : G w t = set_slot (G w1 t) (Some c)) by (apply G_set_eq; auto).
    rewrite G_set. destruct ((t =? c) && _)%nat%bool eqn:Bq.
    - apply andb_prop in Bq as (Bq & _). apply Nat.eqb_eq in Bq. subst t. cbn [slot st set_pc set_st]. rewrite Gt.
      split; [reflexivity|discriminate].
    - rewrite Gt. split; [reflexivity|]. cbn. unfold ended in D. destruct (st (G w1 t)); congruence. }
  pose proof (len_mono _ _ _ E2') as LM.
  destruct (run_phase c t tr2 w2 w3 0 I2 ltac:(lia) ltac:(lia) A B E3 P) as (I3 & P3).
  apply (phase_count w3 c t); auto.
Qed.
Print Assumptions await_exactly_once_partial.

(** In every history: a coroutine stands in the run queues at most once; none is resumed while its stack is still in
    use (UB) or when it is not runnable (Panic); the only abnormal end is the exit for an error nobody waits for. *)
Theorem scheduler_sound np tr :
  (exists w, run (init np) tr = Ok w /\ forall c, (queued w c <= 1)%nat) \/
  (exists tr1 c tr2 w, tr = tr1 ++ End c :: tr2 /\ run (init np) tr1 = Ok w /\
     pc (G w c) = Run /\ slot (G w c) = None /\ fails (G w c) = true).
Proof.
  assert (H : forall tr w, inv w ->
    (exists w', run w tr = Ok w' /\ inv w') \/
    (exists tr1 c tr2 w', tr = tr1 ++ End c :: tr2 /\ run w tr1 = Ok w' /\
     pc (G w' c) = Run /\ slot (G w' c) = None /\ fails (G w' c) = true)).
  { clear. induction tr as [|a tr IH]; intros w I; [left; eexists; split; [reflexivity|auto]|].
    destruct (step_inv w a I) as [(w1 & S & I1)|(S & c & ->)].
    - destruct (IH w1 I1) as [(w' & E & I')|(tr1 & c & tr2 & w' & E1 & E2 & E3)].
      + left. exists w'. cbn [run]. rewrite S. auto.
      + right. exists (a :: tr1), c, tr2, w'. subst tr. split; [auto|]. cbn [run]. rewrite S. auto.
    - right. exists [], c, tr, w. split; [auto|split; [auto|]].
      destruct (inv_end w c I) as [(w' & E & _)|(_ & K)]; [congruence|auto]. }
  destruct (H tr _ (inv_init np)) as [(w & E & I)|K]; [left|right; auto].
  exists w. split; auto. intro c. rewrite (i_q _ I). destruct (st (G w c)); cbn; lia.
Qed.
Print Assumptions scheduler_sound.

(** The full statement of C20 is false: when a second coroutine starts to wait for the same one, the first one is
    forgotten.  Here 1 and 2 both wait for 3, and 3 ends; 1 is not made runnable, nor will it be whatever follows. *)
Definition two_awaiters : list act :=
  [Resume 0; Spawn 0 false; Spawn 1 false; Spawn 2 false; Resume 1; Resume 2; Block 0; Switch 0; Resume 0].
Theorem await_two_awaiters_refuted : exists tr1 w1 w2 tr2 w3,
  run (init 2) tr1 = Ok w1 /\ pc (G w1 1) = Run /\ ended w1 3 = false /\ step w1 (Await 1 3) = Ok w2 /\
  run w2 tr2 = Ok w3 /\ ended w3 3 = true /\ resumed w2 tr2 1 = 0%nat /\ queued w3 1 = 0%nat /\
  forall tr w4, run w3 tr = Ok w4 -> resumed w3 tr 1 = 0%nat /\ queued w4 1 = 0%nat.
Proof.
  destruct (run (init 2) two_awaiters) as [w1| | | | |] eqn:E1; try (vm_compute in E1; discriminate).
  destruct (step w1 (Await 1 3)) as [w2| | | | |] eqn:E2; try (vm_compute in E1; injection E1 as <-; vm_compute in E2; discriminate).
  set (tr2 := [Switch 1; Await 2 3; End 3]).
  destruct (run w2 tr2) as [w3| | | | |] eqn:E3;
    try (vm_compute in E1; injection E1 as <-; vm_compute in E2; injection E2 as <-; vm_compute in E3; discriminate).
  exists two_awaiters, w1, w2, tr2, w3.
  assert (I3 : inv w3).
  { apply (run_inv tr2 w2); auto. apply (inv_await w1 1 3); auto. apply (run_inv _ _ _ (inv_init 2) E1). }
  assert (C : pc (G w1 1) = Run /\ ended w1 3 = false /\ ended w3 3 = true /\ resumed w2 tr2 1 = 0%nat /\ queued w3 1 = 0%nat /\
     st (G w3 1) = WAITING /\ ext (G w3 1) = false /\ map slot (cos w3) = [None; None; None; Some 2%nat] /\ map st (cos w3) = [WAITING; WAITING; RUNNABLE; DEAD]).
  { vm_compute in E1. injection E1 as <-. vm_compute in E2. injection E2 as <-. vm_compute in E3. injection E3 as <-.
    vm_compute. auto 20. }
  destruct C as (C1 & C2 & C3 & C4 & C5 & C6 & C7 & C8 & C9).
  repeat (split; [assumption||reflexivity|]).
  assert (LO : lost w3 1).
  { split; [auto|split; [auto|]]. intros t S. unfold G in *.
    assert (M : nth t (map slot (cos w3)) None = Some 1%nat) by (change None with (slot nobody); rewrite map_nth; auto).
    rewrite C8 in M. destruct t as [|[|[|[|t]]]]; cbn in M; try discriminate. destruct t; discriminate. }
  intros tr w4 E4. destruct (run_lost tr w3 w4 1 I3 LO E4) as (A & (B & _)). split; auto.
  rewrite (i_q _ (run_inv _ _ _ I3 E4)), B. reflexivity.
Qed.
Print Assumptions await_two_awaiters_refuted.

(** C66: a coroutine that fails and is awaited: the program does not exit and the awaiter is made runnable (it then
    finds the error in the future).  Provided the wait began before the failure. *)
Theorem await_error_delivered_partial np tr w c t w' :
  run (init np) tr = Ok w -> pc (G w t) = Run -> slot (G w t) = Some c -> step w (End t) = w' ->
  exists w2, w' = Ok w2 /\ queued w2 c = 1%nat /\ ended w2 t = true.
Proof.
  intros E R S <-. pose proof (run_inv _ _ _ (inv_init np) E) as I.
  destruct (run_facts w t I R) as (F1 & _).
  destruct (inv_end w t I) as [(w2 & E2 & I2)|(_ & _ & K & _)]; [|congruence].
  exists w2. split; [auto|].
  destruct (step_asleep w (End t) w2 c t I E2) as (_ & [(A & B)|(A & B)]); auto.
  - split; auto. congruence.
  - exfalso. cbn [step] in E2. unfold is_run in E2. rewrite R, S in E2. injection E2 as <-.
    revert B. change (G (set_cur ?a ?r ?s)) with (G a). rewrite G_set_eq; [cbn; congruence|].
    rewrite mr_cos. apply G_live. congruence.
  - unfold ended. rewrite (i_q _ I2), B, A. auto.
Qed.
Print Assumptions await_error_delivered_partial.

(** If the coroutine fails before anybody waits for it, the program exits, although main was about to await it. *)
Theorem await_error_refuted : exists tr, run (init 1) tr = Abort /\
  exists tr1, tr = tr1 ++ [End 1] /\ exists w, run (init 1) tr1 = Ok w /\ is_run (G w 0) = true.
Proof.
  exists [Resume 0; Spawn 1 true; Resume 1; End 1]. split; [vm_compute; reflexivity|].
  exists [Resume 0; Spawn 1 true; Resume 1]. split; [reflexivity|].
  destruct (run (init 1) [Resume 0; Spawn 1 true; Resume 1]) as [w| | | | |] eqn:E; try (vm_compute in E; discriminate).
  exists w. split; auto. vm_compute in E. injection E as <-. reflexivity.
Qed.
Print Assumptions await_error_refuted.

(** the hypotheses are met: main starts 1 on another processor, waits, 1 ends, main runs again *)
Example await_ex :
  match run (init 1) [Resume 0; Spawn 1 true; Resume 1] with
  | Ok w1 => match step w1 (Await 0 1) with
    | Ok w2 =>
        let tr := [End 1; Switch 0; Resume 0] in
        match run w2 tr with Ok w3 => (ended w1 1, ended w3 1, resumed w2 tr 0, queued w3 0, is_run (G w3 0)) | _ => (true, true, 9, 9, false)%nat end
    | _ => (true, true, 9, 9, false)%nat end
  | _ => (true, true, 9, 9, false)%nat end = (false, true, 1, 0, true)%nat.
Proof. vm_compute. reflexivity. Qed.
