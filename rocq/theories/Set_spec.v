(** Finite sets, as lists of keys. *)
From Verif Require Import Base Hash_model Set_model.

Section spec.
Context {K : Type}.
(** When two keys count as the same key. *)
Variable same : K -> K -> bool.

Definition mem (s : list K) (k : K) : bool := existsb (fun x => same x k) s.

Definition spec_step (s : list K) (o : op K) : list K :=
  match o with
  | SAdd k => k :: s
  | SDelete k => filter (fun x => negb (same x k)) s
  | SContains _ => s
  end.

Definition spec_obs (s : list K) (o : op K) : obs :=
  match o with
  | SAdd k => Added (negb (mem s k))
  | SDelete _ => Done
  | SContains k => Yes (mem s k)
  end.

Fixpoint spec_run (s : list K) (l : list (op K)) : list obs :=
  match l with
  | [] => []
  | o :: l => spec_obs s o :: spec_run (spec_step s o) l
  end.

Definition no_delete (o : op K) : Prop := match o with SDelete _ => False | _ => True end.
Definition op_key (o : op K) : K := match o with SAdd k | SDelete k | SContains k => k end.
End spec.

Definition empty_set {K} (zk : K) (s : nset K) : Prop := s = set_new zk \/ s = set_zero.
