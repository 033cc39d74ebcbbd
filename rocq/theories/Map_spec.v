(** Finite maps, as lists of distinct keys with their values. *)
From Verif Require Import Base Hash_model Map_model.
From Coq Require Export Permutation.

Section spec.
Context {K V : Type}.
(** When two keys count as the same key. *)
Variable same : K -> K -> bool.

Definition lookup (m : list (K * V)) (k : K) : option V :=
  match List.find (fun e => same (fst e) k) m with Some e => Some (snd e) | None => None end.

Definition remove (m : list (K * V)) (k : K) : list (K * V) := filter (fun e => negb (same (fst e) k)) m.

Definition put (m : list (K * V)) (k : K) (v : V) : list (K * V) := (k, v) :: remove m k.

Definition spec_step (m : list (K * V)) (o : op K V) : list (K * V) :=
  match o with
  | MAssign k v => put m k v
  | MDelete k => remove m k
  | _ => m
  end.

(** What an operation must report in state [m].  A loop over the map may visit it in any order. *)
Definition spec_obs (m : list (K * V)) (o : op K V) (x : obs K V) : Prop :=
  match o with
  | MAssign _ _ | MDelete _ => x = Done
  | MGet k => match lookup m k with Some v => x = Val v | None => x = Thrown end
  | MContains k => x = Yes (match lookup m k with Some _ => true | None => false end)
  | MLen => x = Num (zlen m)
  | MIter => exists l, x = Items l /\ Permutation l m
  end.

Fixpoint spec_run (m : list (K * V)) (l : list (op K V)) (xs : list (obs K V)) : Prop :=
  match l, xs with
  | [], [] => True
  | o :: l, x :: xs => spec_obs m o x /\ spec_run (spec_step m o) l xs
  | _, _ => False
  end.

Definition is_delete (o : op K V) : bool := match o with MDelete _ => true | _ => false end.
Definition deletes (l : list (op K V)) : Z := zlen (filter is_delete l).
End spec.

(** A map just created, by a literal `{}` or by declaring the variable only. *)
Definition empty_map {K V} (zk : K) (zv : V) (m : nmap K V) : Prop := m = map_new zk zv \/ m = map_zero.

(** The keys a history mentions all satisfy [P]. *)
Definition keys_in {K V} (P : K -> Prop) (l : list (op K V)) : Prop :=
  Forall (fun o => match o with MAssign k _ | MDelete k | MGet k | MContains k => P k | _ => True end) l.

(** The values of a signed or unsigned integer type of [size] bytes. *)
Definition int_of_size (signed : bool) (size v : Z) : Prop :=
  if signed then - 2 ^ (8 * size - 1) <= v < 2 ^ (8 * size - 1) else 0 <= v < 2 ^ (8 * size).
Definition int_size (size : Z) : Prop := size = 1 \/ size = 2 \/ size = 4 \/ size = 8.

(** Strings as bytes. *)
Fixpoint same_bytes (a b : list Z) : bool :=
  match a, b with
  | [], [] => true
  | x :: a, y :: b => (x =? y) && same_bytes a b
  | _, _ => false
  end.
