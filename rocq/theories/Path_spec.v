(** What a path denotes: whether it starts at the root, and the names to follow.  Empty names (from
    doubled slashes) and "." do not move. *)
From Verif Require Import Base.

(** the pieces between the slashes *)
Fixpoint pieces (p : list Z) : list (list Z) :=
  match p with
  | [] => [[]]
  | c :: p =>
      if c =? 47 then [] :: pieces p
      else match pieces p with f :: fs => (c :: f) :: fs | [] => [[c]] end
  end.

Definition moves (name : list Z) : bool :=
  match name with [] => false | [c] => negb (c =? 46) | _ => true end.

Definition names (p : list Z) : list (list Z) := filter moves (pieces p).

Definition absolute (p : list Z) : bool :=
  match p with c :: _ => c =? 47 | [] => false end.

(** p and q lead to the same place from any directory *)
Definition same_path (p q : list Z) : Prop := absolute p = absolute q /\ names p = names q.

(** where following q from the place (a, ns) leads *)
Definition follow (place : bool * list (list Z)) (q : list Z) : bool * list (list Z) :=
  if absolute q then (true, names q) else (fst place, snd place ++ names q).

Definition place (p : list Z) : bool * list (list Z) := (absolute p, names p).

Definition slashes (p : list Z) : Prop := Forall (fun c => c = 47) p.
