(** C21 and C68: collection while coroutines run. *)
From Verif Require Import Base Gcconc_model Gcconc_spec Gcconc_proof.

(** ** C21 *)
(** Full statement: when marking is over, every object the program can reach is marked, whatever the
    interleaving.  It is false, see [gc_concurrent_refuted].  It holds for every interleaving in which no store
    overwrites the reference in a field while the collector has not yet found the object referred to.
    Missing: the other stores. *)
Theorem gc_concurrent_partial w ops w' :
  at_start w -> gentle_run w ops -> run w ops = Some w' -> over w' = true ->
  forall o, reachable w' o -> marked w' o = true.
Proof.
  intros A G E O. destruct (start_inv w A) as (S & H). destruct (run_inv ops w w' S H G E) as (S' & H'). now apply over_marked.
Qed.
Print Assumptions gc_concurrent_partial.

(** In particular it holds for programs that during marking only fill fields that are nil, however the
    barriers of several processors interleave with marking.  Globals and variables may be overwritten freely. *)
Theorem gc_concurrent_filling_partial w ops w' :
  at_start w -> filling_run w ops -> run w ops = Some w' -> over w' = true ->
  forall o, reachable w' o -> marked w' o = true.
Proof. intros A F. apply gc_concurrent_partial; [assumption|now apply filling_gentle]. Qed.
Print Assumptions gc_concurrent_filling_partial.

(** ** C68 *)
(** Whatever the program does meanwhile, an object that could not be reached when the cycle began is not
    marked when marking is over, and is freed. *)
Theorem gc_garbage_freed w ops w' :
  at_start w -> run w ops = Some w' -> forall o, (o < next w)%nat -> ~ reachable w o -> marked w' o = false.
Proof.
  intros A E o L N. destruct (start_inv w A) as (_ & H). pose proof (run_within _ ops w w' (start_within w A) H E) as W.
  destruct (marked w' o) eqn:M; [|reflexivity]. apply (n_marked _ _ W) in M as [M|M]; [contradiction|lia].
Qed.
Print Assumptions gc_garbage_freed.

(** *** A world to start from *)
(** Two processors with a coroutine each.  Objects 0 -> 1 -> 2, object 3 is garbage and points to 1, object 4
    is in a global.  Coroutine 0 has 0 in a variable, coroutine 1 has 4. *)
Definition fields0 (o : nat) : list ref :=
  match o with 0 => [Some 1%nat; None] | 1 => [Some 2%nat] | 2 => [None] | 3 => [Some 1%nat] | 4 => [None; None] | _ => [] end%nat.
Definition coro0 (c : nat) : coro :=
  match c with
  | 0 => mk_coro 0 true false [Some 0%nat; None; None] []
  | _ => mk_coro 1 true false [Some 4%nat; None] []
  end%nat.
Definition w0 : world := {|
  procs := 2; next := 5; field := fields0; marked := fun _ => false;
  globals := fun g => match g with 0%nat => Some 4%nat | _ => None end;
  nco := 2; co := coro0;
  work := fun p => match p with 0%nat => [4%nat] | _ => [] end;
  todo := fun p => match p with 0 => [0] | 1 => [1] | _ => [] end%nat;
  walking := fun _ => true; scan := fun _ => None; fin := fun _ => false; stopped := false |}.

Example w0_start : at_start w0.
Proof.
  constructor; cbn [w0 procs next field marked globals nco co work todo walking scan fin stopped]; auto.
  - intros o Ho. do 5 (destruct o as [|o]; [lia|]). reflexivity.
  - intros [|g] o E; [|discriminate]. injection E as <-. exists 0%nat. now left.
  - intros [|p] o I; [|destruct I]. split; [lia|]. exists 0%nat. destruct I as [->|[]]. reflexivity.
  - intros [|[|c]] Hc; [| |lia]; cbn; auto 7.
  - intros [|[|p]] c I; [| |destruct I]; destruct I as [<-|[]]; lia.
Qed.

(** Coroutine 0 is scanned, then loads 1 from 0, fills the second field of 0 with a new object that refers to
    1 and publishes 1 in a global; coroutine 1 reads the global before it is scanned and spawns a coroutine. *)
Definition m4 (c : nat) : list op := [Micro c; Micro c; Micro c; Micro c].
Definition story : list op :=
  [Walk 0; EndWalk 0; Mut 0 (Load 1 0 0); Mut 0 (Alloc 2 1); Mut 0 (Store 2 0 (Some 1))]%nat ++ m4 0 ++ [Mut 0 (Store 0 1 (Some 2))]%nat ++ m4 0 ++
  [Mut 0 (GStore 1 (Some 1)); Micro 0; Micro 0; Mut 1 (GLoad 1 1); Mut 1 (Copy 0 1 (Some 1))]%nat ++ m4 1 ++ m4 1 ++
  [Pop 0; Scan 0; Scan 0; Scan 0; Walk 1; EndWalk 1; Mut 1 (Spawn 0 [1]); Micro 1; Micro 1; Micro 1; Mut 2 Start;
   Pop 0; Scan 0; Scan 0; Scan 0; Pop 0; Scan 0; Scan 0; Pop 0; Pop 0; Scan 0; Scan 0; Pop 0; Pop 0; Pop 0; Pop 0; Scan 0; Scan 0; Finish 0;
   Pop 1; Pop 1; Pop 1; Pop 1; Pop 1; Finish 1; Stop]%nat.

Example gc_concurrent_meets : filling_run w0 story /\
  match run w0 story with Some w => over w = true /\ map (marked w) (seq 0 (next w)) = [true; true; true; false; true; true] /\ nco w = 3%nat | None => False end.
Proof. split; [cbv; repeat split; auto|vm_compute; repeat split; reflexivity]. Qed.

Example gc_garbage_meets : (3 < next w0)%nat /\ ~ reachable w0 3.
Proof.
  split; [cbn; lia|]. intros R. assert (G : forall o, reachable w0 o -> o <> 3%nat); [|now apply (G 3%nat R)]. clear R. intros o R. induction R as [g o E|c o Hc I|u o R IH I].
  - destruct g; [|discriminate]. now injection E as <-.
  - destruct c as [|[|c]]; [| |cbn in Hc; lia]; cbn in I; repeat destruct I as [I|I]; try discriminate; try (now injection I as <-); destruct I.
  - do 5 (destruct u as [|u]; [cbn in I; repeat destruct I as [I|I]; try discriminate; try (now injection I as <-); try destruct I|]). destruct I.
Qed.

(** *** The store that loses an object *)
(** Coroutine 0 has been scanned.  It loads 1 from object 0, which is queued but not scanned yet, and sets that
    field to nil.  The barrier queues object 0 once more, not the object 1 whose only reference is overwritten.
    Object 1 is in a variable of coroutine 0 when marking is over, and is freed. *)
Definition lost : list op :=
  [Walk 0; EndWalk 0; Mut 0 (Load 1 0 0); Mut 0 (Store 0 0 None)]%nat ++ m4 0 ++
  [Pop 0; Scan 0; Scan 0; Scan 0; Pop 0; Scan 0; Scan 0; Scan 0; Pop 0; Finish 0; Walk 1; EndWalk 1; Pop 1; Finish 1; Stop]%nat.

Theorem gc_concurrent_refuted : exists w ops w' o,
  at_start w /\ run w ops = Some w' /\ over w' = true /\ reachable w' o /\ marked w' o = false.
Proof.
  assert (A : match run w0 lost with Some w => over w = true /\ nth 1 (vars (co w 0%nat)) None = Some 1%nat /\ nco w = 2%nat /\ marked w 1%nat = false | None => False end) by (vm_compute; repeat split; reflexivity).
  destruct (run w0 lost) as [w'|] eqn:E; [|contradiction]. destruct A as (A1 & A2 & A3 & A4). exists w0, lost, w', 1%nat. split; [exact w0_start|]. split; [exact E|]. split; [exact A1|]. split; [|exact A4].
  apply (from_var w' 0); [lia|]. now apply nth_in in A2.
Qed.
Print Assumptions gc_concurrent_refuted.
