(** Vectors as sequences. *)
From Verif Require Import Base Vec_model.

Section spec.
Context {A : Type}.

(** ** Value semantics: each variable is a list.  Slices and plain assignment share storage
    and are not part of this fragment. *)

Definition get_list (s : list (list A)) (v : nat) : option (list A) := nth_error s v.

(** None: a variable that does not exist.  [capacity] is not described by the values. *)
Definition spec_step (s : list (list A)) (o : op A) : option (list (list A) * obs A) :=
  match o with
  | ONew n x => if n <? 0 then Some (s, Thrown) else Some (s ++ [repeat x (Z.to_nat n)], Done)
  | OCap n => if n <? 0 then Some (s, Thrown) else Some (s ++ [[]], Done)
  | OPush v x =>
      match get_list s v with Some l => Some (list_set s v (l ++ [x]), Done) | None => None end
  | OAppend v w =>
      match get_list s v, get_list s w with
      | Some l, Some m => Some (list_set s v (l ++ m), Done)
      | _, _ => None
      end
  | OGet v i =>
      match get_list s v with
      | Some l => match at_ l i with Ok x => Some (s, Val x) | _ => Some (s, Thrown) end
      | None => None
      end
  | OSet v i x =>
      match get_list s v with
      | Some l => match set_at l i x with Ok l' => Some (list_set s v l', Done) | _ => Some (s, Thrown) end
      | None => None
      end
  | OConcat v w =>
      match get_list s v, get_list s w with
      | Some l, Some m => Some (s ++ [l ++ m], Done)
      | _, _ => None
      end
  | OCopy v w =>
      match get_list s v, get_list s w with
      | Some l, Some m =>
          let n := Nat.min (length l) (length m) in
          Some (list_set s v (firstn n m ++ skipn n l), Num (Z.of_nat n))
      | _, _ => None
      end
  | OLen v => match get_list s v with Some l => Some (s, Num (zlen l)) | None => None end
  | OSlice _ _ _ | OAssign _ | OCapacity _ => None
  end.

Fixpoint spec_run (s : list (list A)) (l : list (op A)) : option (list (list A) * list (obs A)) :=
  match l with
  | [] => Some (s, [])
  | o :: t =>
      match spec_step s o with
      | Some (s, x) =>
          match spec_run s t with Some (s, xs) => Some (s, x :: xs) | None => None end
      | None => None
      end
  end.

(** No list along the way exceeds [bound] elements. *)
Fixpoint sizes_within (bound : Z) (s : list (list A)) (l : list (op A)) : Prop :=
  Forall (fun x => zlen x <= bound) s /\
  match l with
  | [] => True
  | o :: t => match spec_step s o with Some (s, _) => sizes_within bound s t | None => True end
  end.

(** The default element of vec.new is only well defined for elements of at most 8 bytes. *)
Definition new_ok (element_size : Z) (o : op A) : Prop :=
  match o with ONew n _ => n <= 0 \/ element_size <= 8 | _ => True end.

(** ** Who may share storage with whom, from the history alone: a slice or an assigned copy
    belongs to the group of its source, everything else starts a group of its own. *)
Definition group_step (g : list nat) (o : op A) (x : obs A) : list nat :=
  match o, x with
  | _, Thrown => g
  | (OSlice v _ _ | OAssign v), _ => g ++ [nth v g O]
  | (ONew _ _ | OCap _ | OConcat _ _), _ => g ++ [length g]
  | _, _ => g
  end.

Fixpoint groups (g : list nat) (l : list (op A)) (xs : list (obs A)) : list nat :=
  match l, xs with
  | o :: l, x :: xs => groups (group_step g o x) l xs
  | _, _ => g
  end.

(** The variable an operation writes through. *)
Definition target (o : op A) : option nat :=
  match o with
  | OPush v _ | OAppend v _ | OSet v _ _ | OCopy v _ => Some v
  | _ => None
  end.

(** ** A slice and its parent, in terms of what both can see: contents and capacities. *)
Record pair_state := mk_pair {
  parent : list A;
  parent_cap : Z;
  child : list A;
  child_cap : Z;
  start : Z;
  linked : bool         (* do they still share storage? *)
}.

(** What push does to the capacity: double it when full, 8 from nothing. *)
Definition pushed_cap (l : list A) (c : Z) : Z :=
  if zlen l =? c then (if 0 <? c then c * 2 else 8) else c.

Inductive pair_op := PPush (x : A) | PSet (i : Z) (x : A) | CPush (x : A) | CSet (i : Z) (x : A).

Definition put (l : list A) (i : Z) (x : A) : list A := list_set l (Z.to_nat i) x.

Definition inside (l : list A) (i : Z) : bool := (0 <=? i) && (i <? zlen l).

Definition pair_step (p : pair_state) (o : pair_op) : pair_state :=
  match o with
  | PPush x =>
      (* a full parent moves to new storage *)
      mk_pair (parent p ++ [x]) (pushed_cap (parent p) (parent_cap p)) (child p) (child_cap p) (start p)
        (linked p && negb (zlen (parent p) =? parent_cap p))
  | PSet i x =>
      if inside (parent p) i then
        mk_pair (put (parent p) i x) (parent_cap p)
          (if linked p && inside (child p) (i - start p) then put (child p) (i - start p) x else child p)
          (child_cap p) (start p) (linked p)
      else p
  | CPush x =>
      (* the child never pushes into the parent *)
      mk_pair (parent p) (parent_cap p) (child p ++ [x]) (pushed_cap (child p) (child_cap p)) (start p) false
  | CSet i x =>
      if inside (child p) i then
        mk_pair (if linked p then put (parent p) (start p + i) x else parent p) (parent_cap p)
          (put (child p) i x) (child_cap p) (start p) (linked p)
      else p
  end.

Definition as_op (v w : nat) (o : pair_op) : op A :=
  match o with
  | PPush x => OPush v x
  | PSet i x => OSet v i x
  | CPush x => OPush w x
  | CSet i x => OSet w i x
  end.
End spec.
Arguments pair_op : clear implicits.
Arguments pair_state : clear implicits.
