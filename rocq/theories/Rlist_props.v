(** The scheduler's queues keep the order (C56). *)
From Coq Require Import Permutation.
From Verif Require Import Base Rlist_model Rlist_spec Rlist_proof Rlist_run_proof.

(** C56: for every history, a queue answers what a plain list of values would, and never touches a node it gave back. *)
Theorem runq_order : forall a os, a <> 0 -> ops_ok (init a) [] os ->
  exists l', run (init a) os = Ok (fst (spec_run [] os), l').
Proof.
  intros a os Ha O. destruct (run_ok os (init a) [] (R_init a Ha) O) as (l' & ps' & E & _). eauto.
Qed.
Print Assumptions runq_order.

(** the nodes in use afterwards: one per queued value, and the empty one *)
Theorem runq_no_leak : forall a os outs l', a <> 0 -> ops_ok (init a) [] os -> run (init a) os = Ok (outs, l') ->
  zlen (live l') = zlen (snd (spec_run [] os)) + 1 /\ count l' = zlen (snd (spec_run [] os)).
Proof.
  intros a os outs l' Ha O E. destruct (run_ok os (init a) [] (R_init a Ha) O) as (l2 & ps & E2 & H & V).
  change (vals []) with (@nil Z) in *. rewrite E in E2. injection E2 as _ <-. rewrite <- V. unfold vals.
  assert (L : zlen (map snd ps) = zlen ps) by (unfold zlen; now rewrite map_length). rewrite L. split; [|exact (r_count _ _ H)].
  unfold zlen. rewrite (Permutation_length (r_live _ _ H)). unfold addrs. rewrite app_length, map_length. cbn. lia.
Qed.
Print Assumptions runq_no_leak.

(** Example: nodes 1.. ; push 10, 20, 30, push 5 in front, pop, remove 20, sweep 30, and so on. *)
Definition ex_ops : list op :=
  [Push 2 10; Push 3 20; Push 4 30; PushHead 5 5; Pop; RemoveAt 1; Push 6 40; Last; First; Sweep (Z.eqb 30); Pop; Pop; Pop].
Definition outs_of (r : res (list (list Z) * rlist)) : option (list (list Z)) :=
  match r with Ok (o, _) => Some o | _ => None end.
Example runq_ex : outs_of (run (init 1) ex_ops) =
  Some [[]; []; []; []; [5]; []; []; [40]; [10]; [10; 40]; [10]; [40]; [0]].
Proof. vm_compute. reflexivity. Qed.
Ltac ops_tac := repeat (split; [try exact I; try (cbn; lia); try (vm_compute; intuition discriminate)|];
  let out := fresh in let l := fresh in let E := fresh in intros out l E; vm_compute in E; injection E as <- <-).
Example runq_ex_ok : ops_ok (init 1) [] ex_ops.
Proof. unfold ex_ops. ops_tac; exact I. Qed.
