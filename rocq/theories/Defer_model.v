(** defer, throw, catch, return, break, continue and ret: the code that is made of them.

    Source: src/linear.c:53-167 (the scopes of defer and what is run on the way out), 200-245 and
    294-350 (index checks), 903-933 (linear_has_error), 1703-1801 (loops, continue, break, ret,
    return), 1803-1833 (if), 2168-2172 (calls), 3709-3732 (linear_block_expr), 3734-3778
    (linear_catch_expr), 3780-3813 (linear_try_catch_stmt), 4026-4057 (linear_throw), 4258-4271
    (linear_body), 4280-4350 (linear_fndef); runtime/nutils/nutils.c:650-674 (co_throw_error),
    676-710 (throw_index_out_error), 712-724 (co_remove_error), 765-790 (co_has_error);
    src/semantic/analyzer.c:2280-2288.

    Simplifications: the control flow inside one statement stays a tree (labels and jumps that do
    not leave a statement are those of Match_model.v and Forin_model.v); a label that is jumped to
    from inside is named by its kind and by how many of the kind are open around it, which is what
    the stacks of labels hold.  What an expression or a called function does is an argument.  An
    expression that can throw stands as a statement of its own in front of the one that uses it. *)
From Verif Require Import Base.
Import ListNotations.
Open Scope Z_scope.

(** ast.h: what a return statement gives: nothing, the value of an expression, or a variable. *)
Inductive ret := RNone | RVal (a : Z) | RVar (a : Z).

Inductive stmt :=
| Act (a : Z)                      (* anything that cannot fail *)
| Call (a : Z)                     (* a call of a function declared with ! *)
| Chk (a : Z)                      (* an index that is checked *)
| Defer (b : body)
| If (c : Z) (b1 b2 : body)
| For (c u : Z) (b : body)         (* a condition and a step *)
| Break | Continue
| Ret                              (* ret, out of a block with a value or a catch body *)
| Return (r : ret)
| Throw (a : Z)
| Try (b1 b2 : body)               (* try { } catch e { } *)
| Catch (a : Z) (b : body)         (* f() catch e { } *)
| BlockE (b : body)                (* a block with a value *)
with body := Nil | Cons (s : stmt) (b : body).

Inductive label := LBrk (d : nat) | LCont (d : nat) | LRet (d : nat) | LCatch (d : nat) | LError | LEnd.

Inductive code :=
| Skip
| Seq (c1 c2 : code)
| TAct (a : Z)
| TCall (a : Z)                         (* the error is left in the coroutine *)
| THasError (c : code)                  (* co_has_error, then [c] if it says so *)
| TChk (a : Z) (be_catch : bool) (c : code)
| TIf (c : Z) (c1 c2 : code)
| TLoop (db dc : nat) (c u : Z) (b : code)
| TCatch (d : nat) (c h : code)
| TRetBlock (d : nat) (c : code)
| TBal (l : label)
| TThrow (a : Z)                        (* co_throw_error *)
| TRemove                               (* co_remove_error, into the variable of the catch *)
| TRet (r : ret) (c : code).            (* the operand, the blocks on the way out, RETURN and BAL end *)

(** linear.c:53-59, with the blocks of defer last first. *)
Record scope := Scope { defers : list body; break_depth : nat; continue_depth : nat; ret_depth : nat; catch_depth : nat }.
(** The stacks of closure_t (types.h:574-585): the scopes, top first, and the counts of the labels. *)
Record ctx := Ctx { scopes : list scope; nbreak : nat; ncontinue : nat; nret : nat; ncatch : nat }.

Inductive mode := MAll | MBreak | MContinue | MRet | MCatch.

(** linear.c:69-77, 88-91. *)
Definition defer_scope_enter (k : ctx) : ctx :=
  Ctx (Scope [] (nbreak k) (ncontinue k) (nret k) (ncatch k) :: scopes k) (nbreak k) (ncontinue k) (nret k) (ncatch k).
(** linear.c:93-99. *)
Definition defer_scope_pop (k : ctx) : ctx := Ctx (tl (scopes k)) (nbreak k) (ncontinue k) (nret k) (ncatch k).
(** linear.c:101-105. *)
Definition defer_register (k : ctx) (d : body) : ctx :=
  match scopes k with
  | [] => k
  | sc :: r => Ctx (Scope (d :: defers sc) (break_depth sc) (continue_depth sc) (ret_depth sc) (catch_depth sc) :: r)
                   (nbreak k) (ncontinue k) (nret k) (ncatch k)
  end.

(** linear.c:111-132. *)
Definition scope_need_unwind (m : mode) (depth : nat) (sc : scope) : bool :=
  match m with
  | MAll => true
  | MBreak => Nat.leb depth (break_depth sc)
  | MContinue => Nat.leb depth (continue_depth sc)
  | MRet => Nat.leb depth (ret_depth sc)
  | MCatch => Nat.leb depth (catch_depth sc)
  end.

(** linear.c:134-147: the blocks that are run on the way out, in order. *)
Definition unwind_scopes (m : mode) (depth : nat) (k : ctx) : list body :=
  flat_map defers (filter (scope_need_unwind m depth) (scopes k)).

(** linear.c:81-86, 107-109: each is compiled again, in place. *)
Fixpoint emit (lb : body -> option code) (ds : list body) : option code :=
  match ds with
  | [] => Some Skip
  | d :: ds => match lb d, emit lb ds with Some c1, Some c2 => Some (Seq c1 c2) | _, _ => None end
  end.

Definition seq (a b : option code) : option code :=
  match a, b with Some x, Some y => Some (Seq x y) | _, _ => None end.

(** The label stacks after a push. *)
Definition in_loop (k : ctx) : ctx := Ctx (scopes k) (S (nbreak k)) (S (ncontinue k)) (nret k) (ncatch k).
Definition in_ret (k : ctx) : ctx := Ctx (scopes k) (nbreak k) (ncontinue k) (S (nret k)) (ncatch k).
Definition in_catch (k : ctx) : ctx := Ctx (scopes k) (nbreak k) (ncontinue k) (nret k) (S (ncatch k)).

(** linear.c:904-912: the label an error goes to. *)
Definition error_target (k : ctx) : label := match ncatch k with O => LError | d => LCatch d end.

(** None: the compiler reports an error, or does not come back ([f] is the depth of its calls). *)
Fixpoint linear_stmt (f : nat) (k : ctx) (s : stmt) : option code :=
  match f with
  | O => None
  | S f =>
      let unwind m depth := emit (linear_body f k) (unwind_scopes m depth k) in
      (* linear.c:164-167 *)
      let bal_error := seq (unwind MCatch (ncatch k)) (Some (TBal (error_target k))) in
      let call a := seq (Some (TCall a)) (option_map THasError bal_error) in
      match s with
      | Act a => Some (TAct a)
      | Call a => call a
      | Chk a => option_map (TChk a (Nat.ltb 0 (ncatch k))) bal_error
      | Defer _ => Some Skip (* linear.c:4148-4151, in linear_stmts below *)
      | If c b1 b2 =>
          match linear_body f k b1, linear_body f k b2 with
          | Some c1, Some c2 => Some (TIf c c1 c2)
          | _, _ => None
          end
      | For c u b => option_map (TLoop (S (nbreak k)) (S (ncontinue k)) c u) (linear_body f (in_loop k) b)
      | Break => if Nat.ltb 0 (nbreak k) then seq (unwind MBreak (nbreak k)) (Some (TBal (LBrk (nbreak k)))) else None
      | Continue =>
          if Nat.ltb 0 (ncontinue k) then seq (unwind MContinue (ncontinue k)) (Some (TBal (LCont (ncontinue k)))) else None
      | Ret => if Nat.ltb 0 (nret k) then seq (unwind MRet (nret k)) (Some (TBal (LRet (nret k)))) else None
      | Return r => option_map (TRet r) (unwind MAll 0%nat)
      | Throw a => seq (Some (TThrow a)) (seq (unwind MAll 0%nat) (Some (TBal LEnd)))
      | Try b1 b2 =>
          match linear_body f (in_catch k) b1, linear_body f (in_ret k) b2 with
          | Some c1, Some c2 => Some (TCatch (S (ncatch k)) c1 (TRetBlock (S (nret k)) (Seq TRemove c2)))
          | _, _ => None
          end
      | Catch a b =>
          match linear_stmt f (in_catch k) (Call a), linear_body f (in_ret k) b with
          | Some c1, Some c2 => Some (TCatch (S (ncatch k)) c1 (TRetBlock (S (nret k)) (Seq TRemove c2)))
          | _, _ => None
          end
      | BlockE b => option_map (TRetBlock (S (nret k))) (linear_body f (in_ret k) b)
      end
  end
with linear_body (f : nat) (k : ctx) (b : body) : option code :=
  match f with
  | O => None
  | S f => linear_stmts f (defer_scope_enter k) b
  end
(** The loop of linear_body (linear.c:4261-4268) and what follows it (4270). *)
with linear_stmts (f : nat) (k : ctx) (b : body) : option code :=
  match f with
  | O => None
  | S f =>
      match b with
      | Nil => emit (linear_body f (defer_scope_pop k)) (match scopes k with [] => [] | sc :: _ => defers sc end)
      | Cons (Defer d) b => linear_stmts f (defer_register k d) b
      | Cons s b => seq (linear_stmt f k s) (linear_stmts f k b)
      end
  end.

(** linear.c:4280-4350. *)
Definition linear_fndef (f : nat) (b : body) : option code := linear_body f (Ctx [] 0 0 0 0) b.

(** ** The machine *)

Definition label_eqb (a b : label) : bool :=
  match a, b with
  | LBrk x, LBrk y | LCont x, LCont y | LRet x, LRet y | LCatch x, LCatch y => Nat.eqb x y
  | LError, LError | LEnd, LEnd => true
  | _, _ => false
  end.

Section Defer.
  Variable st : Type.
  Variable act : Z -> st -> st.
  Variable cond : Z -> st -> bool.
  (** What a called function does, and the error it leaves, if any. *)
  Variable call : Z -> st -> st * option Z.
  Variable in_range : Z -> st -> bool.
  Variable range_error : Z.
  Variable val : Z -> st -> Z.
  Variable var : Z -> st -> Z.
  (** The variable of a catch is set. *)
  Variable bindv : Z -> st -> st.

  (** [e] is co->error with co->has_error, [v] the operand of the last RETURN. *)
  Inductive rout :=
  | RNorm (s : st) (e v : option Z)
  | RGoto (l : label) (s : st) (e v : option Z)
  | RDead (s : st).

  Fixpoint rloop (m db dc : nat) (c : st -> bool) (u : st -> st) (once : st -> option Z -> option Z -> option rout)
           (s : st) (e v : option Z) : option rout :=
    match m with
    | O => None
    | S m =>
        if c s then
          match once s e v with
          | Some (RNorm s e v) => rloop m db dc c u once (u s) e v
          | Some (RGoto l s e v) =>
              if label_eqb l (LBrk db) then Some (RNorm s e v)
              else if label_eqb l (LCont dc) then rloop m db dc c u once (u s) e v
              else Some (RGoto l s e v)
          | o => o
          end
        else Some (RNorm s e v)
    end.

  Definition ret_value (r : ret) (s : st) : option Z :=
    match r with RNone => None | RVal a => Some (val a s) | RVar a => Some (var a s) end.

  (** [m] bounds the rounds of every loop. *)
  Fixpoint run (m : nat) (c : code) (s : st) (e v : option Z) : option rout :=
    match c with
    | Skip => Some (RNorm s e v)
    | Seq c1 c2 =>
        match run m c1 s e v with
        | Some (RNorm s e v) => run m c2 s e v
        | o => o
        end
    | TAct a => Some (RNorm (act a s) e v)
    | TCall a =>
        let '(s', r) := call a s in
        Some (RNorm s' (match r with Some x => Some x | None => e end) v)
    | THasError c => match e with Some _ => run m c s e v | None => Some (RNorm s e v) end
    | TChk a be_catch c =>
        if in_range a s then Some (RNorm s e v)
        else if be_catch then run m c s (Some range_error) v
        else Some (RDead s)
    | TIf c c1 c2 => if cond c s then run m c1 s e v else run m c2 s e v
    | TLoop db dc c u b => rloop m db dc (cond c) (act u) (run m b) s e v
    | TCatch d c h =>
        match run m c s e v with
        | Some (RGoto l s e v) => if label_eqb l (LCatch d) then run m h s e v else Some (RGoto l s e v)
        | o => o
        end
    | TRetBlock d c =>
        match run m c s e v with
        | Some (RGoto l s e v) => if label_eqb l (LRet d) then Some (RNorm s e v) else Some (RGoto l s e v)
        | o => o
        end
    (* linear.c:4338-4340: the error label leads to the end *)
    | TBal LError => Some (RGoto LEnd s e v)
    | TBal l => Some (RGoto l s e v)
    | TThrow a => Some (RNorm s (Some (val a s)) v)
    (* an empty error when there is none; the assertion is off in a release build *)
    | TRemove => Some (RNorm (bindv (match e with Some x => x | None => 0 end) s) None v)
    (* linear.c:1792-1801: an expression has a temporary of its own, a variable is its own operand
       (1095-1097) and is read by RETURN, behind the blocks of defer *)
    | TRet r c =>
        match run m c s e v with
        | Some (RNorm s' e _) =>
            Some (RGoto LEnd s' e (match r with RVar _ => ret_value r s' | _ => ret_value r s end))
        | o => o
        end
    end.

  Inductive fres := Returned (v : option Z) (s : st) | Threw (x : Z) (s : st) | Died (s : st) | Bad.

  (** What the caller sees: the error in the coroutine, or the result. *)
  Definition run_fn (m : nat) (c : code) (s : st) : option fres :=
    match run m c s None None with
    | None => None
    | Some (RNorm s e v) | Some (RGoto LEnd s e v) =>
        Some (match e with Some x => Threw x s | None => Returned v s end)
    | Some (RGoto _ _ _ _) => Some Bad
    | Some (RDead s) => Some (Died s)
    end.
End Defer.
