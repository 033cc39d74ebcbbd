(** Specification of waiting for a coroutine, by what an observer of the run queues and processors sees. *)
From Verif Require Import Base Await_model.

(** how often [c] stands in the run queues *)
Definition queued (w : world) (c : nat) : nat := count_occ Nat.eq_dec (concat (runqs w)) c.
(** the processors running [c] *)
Definition running (w : world) (c : nat) : nat :=
  count_occ Nat.eq_dec (flat_map (fun o => match o with Some d => [d] | None => [] end) (cur w)) c.
Definition ended (w : world) (t : nat) : bool := match st (G w t) with DEAD => true | _ => false end.
(** this step puts [c] on a processor *)
Definition resumes (w : world) (a : act) (c : nat) : nat :=
  match a with
  | Resume p => match nth_error (cur w) p, nth p (runqs w) [] with
                | Some None, d :: _ => if (d =? c)%nat then 1 else 0
                | _, _ => 0 end
  | _ => 0
  end.
Fixpoint resumed (w : world) (tr : list act) (c : nat) : nat :=
  match tr with
  | [] => 0
  | a :: tr => resumes w a c + match step w a with Ok w' => resumed w' tr c | _ => 0 end
  end.
(** [c] does not give up its processor again of its own accord *)
Definition sleeps_again (c : nat) (a : act) : bool :=
  match a with Await d _ | YieldRun d | Block d => (d =? c)%nat | _ => false end.
(** somebody (else) waits for [t] *)
Definition awaits (t : nat) (a : act) : bool := match a with Await _ u => (u =? t)%nat | _ => false end.
