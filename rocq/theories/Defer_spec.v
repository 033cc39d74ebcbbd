(** What defer, throw, catch, return, break, continue and ret mean. *)
From Verif Require Import Base Defer_model.
Import ListNotations.
Open Scope Z_scope.

Section Meaning.
  Variable st : Type.
  Variable act : Z -> st -> st.
  Variable cond : Z -> st -> bool.
  Variable call : Z -> st -> st * option Z.
  Variable in_range : Z -> st -> bool.
  Variable range_error : Z.
  Variable val : Z -> st -> Z.
  Variable var : Z -> st -> Z.
  Variable bindv : Z -> st -> st.

  (** How a statement ends. *)
  Inductive end_ :=
  | ONorm (s : st) | OBrk (s : st) | OCont (s : st) | ORet (s : st)
  | OReturn (v : option Z) (s : st)
  | OErr (x : Z) (s : st)          (* an error is on its way *)
  | ODead (s : st).                (* the program is stopped *)

  (** Run [d] whatever way the rest ended, then go on that way. *)
  Definition finally (o : option end_) (d : st -> option end_) : option end_ :=
    let after s (k : st -> end_) := match d s with Some (ONorm s') => Some (k s') | o => o end in
    match o with
    | None => None
    | Some (ONorm s) => after s ONorm
    | Some (OBrk s) => after s OBrk
    | Some (OCont s) => after s OCont
    | Some (ORet s) => after s ORet
    | Some (OReturn v s) => after s (OReturn v)
    | Some (OErr x s) => after s (OErr x)
    | Some (ODead s) => Some (ODead s)
    end.

  Definition out_of_block (o : option end_) : option end_ :=
    match o with Some (ORet s) => Some (ONorm s) | o => o end.

  Fixpoint rounds (m : nat) (c : st -> bool) (u : st -> st) (once : st -> option end_) (s : st) : option end_ :=
    match m with
    | O => None
    | S m =>
        if c s then
          match once s with
          | Some (ONorm s) | Some (OCont s) => rounds m c u once (u s)
          | Some (OBrk s) => Some (ONorm s)
          | o => o
          end
        else Some (ONorm s)
    end.

  Definition value (r : ret) (s : st) : option Z :=
    match r with RNone => None | RVal a => Some (val a s) | RVar a => Some (var a s) end.

  (** [m] bounds the rounds of every loop; [caught] says whether the statement is inside a try or a
      catch expression of its function: an index out of range is an error there, and stops the
      program elsewhere. *)
  Fixpoint exec (m : nat) (caught : bool) (t : stmt) (s : st) : option end_ :=
    match t with
    | Act a => Some (ONorm (act a s))
    | Call a => let '(s', r) := call a s in Some (match r with Some x => OErr x s' | None => ONorm s' end)
    | Chk a => Some (if in_range a s then ONorm s else if caught then OErr range_error s else ODead s)
    | Defer _ => Some (ONorm s)
    | If c b1 b2 => if cond c s then exec_body m caught b1 s else exec_body m caught b2 s
    | For c u b => rounds m (cond c) (act u) (exec_body m caught b) s
    | Break => Some (OBrk s)
    | Continue => Some (OCont s)
    | Ret => Some (ORet s)
    | Return r => Some (OReturn (value r s) s)
    | Throw a => Some (OErr (val a s) s)
    | Try b1 b2 =>
        match exec_body m true b1 s with
        | Some (OErr x s') => out_of_block (exec_body m caught b2 (bindv x s'))
        | o => o
        end
    | Catch a b =>
        let '(s', r) := call a s in
        match r with
        | Some x => out_of_block (exec_body m caught b (bindv x s'))
        | None => Some (ONorm s')
        end
    | BlockE b => out_of_block (exec_body m caught b s)
    end
  with exec_body (m : nat) (caught : bool) (b : body) (s : st) : option end_ :=
    match b with
    | Nil => Some (ONorm s)
    (* the block of a defer is run when the rest of the block it stands in is left *)
    | Cons (Defer d) b => finally (exec_body m caught b s) (exec_body m caught d)
    | Cons t b =>
        match exec m caught t s with
        | Some (ONorm s') => exec_body m caught b s'
        | o => o
        end
    end.

  Definition exec_fn (m : nat) (b : body) (s : st) : option (fres st) :=
    match exec_body m false b s with
    | None => None
    | Some (ONorm s) => Some (Returned _ None s)
    | Some (OReturn v s) => Some (Returned _ v s)
    | Some (OErr x s) => Some (Threw _ x s)
    | Some (ODead s) => Some (Died _ s)
    | Some _ => Some (Bad _)
    end.
End Meaning.

(** A deferred block that cannot fail: actions, if, loops, blocks and defer. *)
Fixpoint quiet (t : stmt) : bool :=
  match t with
  | Act _ => true
  | Defer b | For _ _ b | BlockE b => quiet_body b
  | If _ b1 b2 => quiet_body b1 && quiet_body b2
  | _ => false
  end
with quiet_body (b : body) : bool :=
  match b with Nil => true | Cons t b => quiet t && quiet_body b end.

(** What the front end accepts (break and continue in loops, ret in blocks), with three
    restrictions: the blocks of defer are among [D] and cannot fail, the variables returned by name
    are among [K], and throw does not stand inside a try of its function. *)
Fixpoint fine (D : body -> Prop) (K : Z -> Prop) (loop block tried : bool) (t : stmt) : Prop :=
  match t with
  | Act _ | Call _ | Chk _ => True
  | Defer b => D b /\ quiet_body b = true
  | If _ b1 b2 => fine_body D K loop block tried b1 /\ fine_body D K loop block tried b2
  | For _ _ b => fine_body D K true block tried b
  | Break | Continue => loop = true
  | Ret => block = true
  | Return r => match r with RVar x => K x | _ => True end
  | Throw _ => tried = false
  | Try b1 b2 => fine_body D K loop block true b1 /\ fine_body D K loop true tried b2
  | Catch _ b => fine_body D K loop true tried b
  | BlockE b => fine_body D K loop true tried b
  end
with fine_body (D : body -> Prop) (K : Z -> Prop) (loop block tried : bool) (b : body) : Prop :=
  match b with Nil => True | Cons t b => fine D K loop block tried t /\ fine_body D K loop block tried b end.
