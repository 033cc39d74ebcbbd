(** From statements to the compiler's linear code: src/linear.c.

    Modelled: expressions over words (literals, variables, binary operators, comparisons, && || !,
    ?:, calls), assignment, if, both kinds of `for` with a condition, break, continue, return,
    try/catch statements, throw, defer.
    Simplifications: every value is one word; a call takes one argument; local variables are not
    captured; the first and last part of `for i = 0; c; i += 1` are assignments; labels and
    temporaries are numbers taken from one counter; FN_BEGIN, safepoints, lines and columns are
    left out.  Not modelled: match, catch expressions, iteration over containers, select. *)
From Verif Require Import Base.

(** * Source (ast.h) *)
Inductive var := Loc (x : nat) | Glob (g : nat).
Inductive kind := KSigned | KUnsigned | KFloat.
Inductive cmp := EQ | NE | LT | LE | GT | GE.

Inductive expr :=
| EInt (z : Z)
| EVar (x : var)
| EBin (o : nat) (a b : expr)                  (* an arithmetic operator, by number *)
| ECmp (k : kind) (c : cmp) (a b : expr)
| EAnd (a b : expr)
| EOr (a b : expr)
| ENot (a : expr)
| ECond (c a b : expr)
| ECall (f : nat) (errable : bool) (a : expr).

Inductive stmt :=
| SExpr (e : expr)
| SAssign (x : var) (e : expr)                 (* also a definition with a value *)
| SIf (c : expr) (a b : block)
| SFor (c : expr) (body : block)
| SForT (x : var) (e : expr) (c : expr) (y : var) (u : expr) (body : block)
| SBreak
| SContinue
| SReturn (e : option expr)
| STry (body : block) (x : nat) (handler : block)
| SThrow (e : expr)
| SDefer (body : block)
with block := BNil | BCons (s : stmt) (b : block).

(** * Linear code (src/lir.h) *)
Inductive operand := OImm (z : Z) | OLoc (x : nat) | OTemp (t : nat) | OGlob (g : nat).
Inductive op :=
| Move (dst src : operand)
| Bin (o : nat) (a b dst : operand)
| SetCmp (k : kind) (c : cmp) (a b dst : operand)
| Xor (a b dst : operand)
| Label (l : nat)
| Bal (l : nat)
| Bcc (k : kind) (c : cmp) (a b : operand) (l : nat)
| Call (f : nat) (a dst : operand)
| HasError (dst : operand)                      (* RT_CALL_CO_HAS_ERROR *)
| RemoveError (dst : operand)                   (* RT_CALL_CO_REMOVE_ERROR *)
| ThrowError (a : operand)                      (* RT_CALL_CO_THROW_ERROR *)
| Return (a : option operand)
| FnEnd.

(** linear.c:53-59: the deferred bodies of one lexical scope, newest first, and how many labels of
    each kind were open when the scope was entered. *)
Record scope := mk_scope {
  s_defers : list block;
  s_cont : nat; s_brk : nat; s_catch : nat }.

(** The stacks of closure_t (src/types.h) that linear.c uses; innermost first. *)
Record ctx := mk_ctx {
  c_cont : list nat; c_brk : list nat; c_catch : list nat; c_scopes : list scope }.

Definition end_label : nat := 0.     (* closure_t end_label *)
Definition error_label : nat := 1.   (* closure_t error_label *)

(** linear.c:69-77, 88-91 *)
Definition enter (c : ctx) : ctx :=
  mk_ctx (c_cont c) (c_brk c) (c_catch c)
    (mk_scope [] (length (c_cont c)) (length (c_brk c)) (length (c_catch c)) :: c_scopes c).
(** linear.c:93-99: the scope is popped before its deferred bodies are compiled. *)
Definition leave (c : ctx) : ctx :=
  mk_ctx (c_cont c) (c_brk c) (c_catch c) (tl (c_scopes c)).
(** linear.c:81-86, the list it walks *)
Definition top_defers (c : ctx) : list block :=
  match c_scopes c with [] => [] | s :: _ => s_defers s end.
(** linear.c:101-105 *)
Definition register (c : ctx) (d : block) : ctx :=
  match c_scopes c with
  | [] => c
  | s :: t => mk_ctx (c_cont c) (c_brk c) (c_catch c)
                (mk_scope (d :: s_defers s) (s_cont s) (s_brk s) (s_catch s) :: t)
  end.

(** linear.c:61-67 *)
Inductive mode := MAll | MBreak | MContinue | MCatch.

(** linear.c:111-132 *)
Definition need_unwind (m : mode) (depth : nat) (s : scope) : bool :=
  match m with
  | MAll => true
  | MBreak => Nat.leb depth (s_brk s)
  | MContinue => Nat.leb depth (s_cont s)
  | MCatch => Nat.leb depth (s_catch s)
  end.
Definition depth_of (m : mode) (c : ctx) : nat :=
  match m with
  | MAll => 0
  | MBreak => length (c_brk c)
  | MContinue => length (c_cont c)
  | MCatch => length (c_catch c)
  end.
(** linear.c:134-147 with 81-86: the deferred bodies an exit has to run, in the order compiled. *)
Definition pending (c : ctx) (m : mode) : list block :=
  flat_map s_defers (filter (need_unwind m (depth_of m c)) (c_scopes c)).

(** linear.c:1709-1710, 1738-1739 *)
Definition push_loop (c : ctx) (cont brk : nat) : ctx :=
  mk_ctx (cont :: c_cont c) (brk :: c_brk c) (c_catch c) (c_scopes c).
(** linear.c:3792 *)
Definition push_catch (c : ctx) (l : nat) : ctx :=
  mk_ctx (c_cont c) (c_brk c) (l :: c_catch c) (c_scopes c).

(** linear.c:1050-1116, for a variable that is not captured *)
Definition var_operand (x : var) : operand := match x with Loc x => OLoc x | Glob g => OGlob g end.
(** LIR_OPERAND_VAR *)
Definition is_var (o : operand) : bool := match o with OLoc _ | OTemp _ => true | _ => false end.

(** linear.c:44-51 (ast_op_to_if_alert) *)
Definition negate (c : cmp) : cmp :=
  match c with LT => GE | LE => GT | GT => LE | GE => LT | EQ => NE | NE => EQ end.

Section compile.
  (** linear_body on a deferred body (linear.c:107-109), the recursive call of the compiler. *)
  Variable emit : ctx -> block -> nat -> res (list op * nat).

  (** linear.c:81-86 *)
  Fixpoint emit_all (c : ctx) (ds : list block) (n : nat) : res (list op * nat) :=
    match ds with
    | [] => Ok ([], n)
    | d :: ds' =>
        r1 <- emit c d n ;; let '(c1, n1) := r1 in
        r2 <- emit_all c ds' n1 ;; let '(c2, n2) := r2 in
        Ok (c1 ++ c2, n2)
    end.

  (** linear.c:134-167: the scopes stay on the stack while their deferred bodies are compiled. *)
  Definition unwind (c : ctx) (m : mode) (n : nat) : res (list op * nat) :=
    emit_all c (pending c m) n.

  (** linear.c:903-937 with 169-172 *)
  Definition has_error (c : ctx) (n : nat) : res (list op * nat) :=
    r <- unwind c MCatch (n + 3) ;; let '(cu, n1) := r in
    Ok ([HasError (OTemp n); Bcc KSigned EQ (OImm 1) (OTemp n) (n + 1); Bal (n + 2); Label (n + 1)]
        ++ cu ++ [Bal (hd error_label (c_catch c)); Label (n + 2)], n1).

  (** linear_expr (linear.c:4212-4257) and the functions it calls, as marked; [n] is the next free number *)
  Fixpoint cexpr (c : ctx) (e : expr) (n : nat) : res (list op * operand * nat) :=
    match e with
    | EInt z => Ok ([], OImm z, n)                                  (* linear.c:3823-3886 *)
    | EVar x => Ok ([], var_operand x, n)                           (* linear.c:1050-1116 *)
    | EBin o a b =>                                                 (* linear.c:2227-2318 *)
        r1 <- cexpr c a (S n) ;; let '(ca, oa, n1) := r1 in
        r2 <- cexpr c b n1 ;; let '(cb, ob, n2) := r2 in
        Ok (ca ++ cb ++ [Bin o oa ob (OTemp n)], OTemp n, n2)
    | ECmp k o a b =>                                               (* the same *)
        r1 <- cexpr c a (S n) ;; let '(ca, oa, n1) := r1 in
        r2 <- cexpr c b n1 ;; let '(cb, ob, n2) := r2 in
        Ok (ca ++ cb ++ [SetCmp k o oa ob (OTemp n)], OTemp n, n2)
    | EOr a b =>                                                    (* linear.c:2181-2201 *)
        r1 <- cexpr c a (n + 2) ;; let '(ca, oa, n1) := r1 in
        r2 <- cexpr c b n1 ;; let '(cb, ob, n2) := r2 in
        Ok (ca ++ [Move (OTemp n) oa; Bcc KSigned EQ (OImm 1) (OTemp n) (n + 1)]
            ++ cb ++ [Move (OTemp n) ob; Label (n + 1)], OTemp n, n2)
    | EAnd a b =>                                                   (* linear.c:2203-2225 *)
        r1 <- cexpr c a (n + 2) ;; let '(ca, oa, n1) := r1 in
        r2 <- cexpr c b n1 ;; let '(cb, ob, n2) := r2 in
        Ok (ca ++ [Move (OTemp n) oa; Bcc KSigned EQ (OImm 0) (OTemp n) (n + 1)]
            ++ cb ++ [Move (OTemp n) ob; Label (n + 1)], OTemp n, n2)
    | ENot a =>                                                     (* linear.c:2344, 2361-2376 *)
        r1 <- cexpr c a n ;; let '(ca, oa, n1) := r1 in
        match oa with
        | OImm z => Ok (ca, OImm (if z =? 0 then 1 else 0), n1)
        | _ => Ok (ca ++ [Xor oa (OImm 1) (OTemp n1)], OTemp n1, S n1)
        end
    | ECond q a b =>                                                (* linear.c:4171-4208 *)
        r0 <- cexpr c q (n + 3) ;; let '(cq, oq, n0) := r0 in
        r1 <- cexpr c a n0 ;; let '(ca, oa, n1) := r1 in
        r2 <- cexpr c b n1 ;; let '(cb, ob, n2) := r2 in
        Ok (cq ++ [Bcc KSigned EQ (OImm 0) oq (n + 1)]
            ++ ca ++ [Move (OTemp n) oa; Bal (n + 2); Label (n + 1)]
            ++ cb ++ [Move (OTemp n) ob; Label (n + 2)], OTemp n, n2)
    | ECall f errable a =>                                          (* linear.c:2115-2124, 2160-2174 *)
        r1 <- cexpr c a n ;; let '(ca, oa, n1) := r1 in
        let '(cm, arg, n2) := if is_var oa then ([], oa, n1) else ([Move (OTemp n1) oa], OTemp n1, S n1) in
        let call := ca ++ cm ++ [Call f arg (OTemp n2)] in
        if errable then
          r2 <- has_error c (S n2) ;; let '(ch, n3) := r2 in
          Ok (call ++ ch, OTemp n2, n3)
        else Ok (call, OTemp n2, S n2)
    end.

  (** linear.c:1545-1601 (linear_cmp_neg) *)
  Definition ccond (c : ctx) (q : expr) (l : nat) (is_if : bool) (n : nat) : res (list op * nat) :=
    match q with
    | ECmp k o a b =>
        r1 <- cexpr c a n ;; let '(ca, oa, n1) := r1 in
        r2 <- cexpr c b n1 ;; let '(cb, ob, n2) := r2 in
        Ok (ca ++ cb ++ [Bcc k (if is_if then negate o else o) oa ob l], n2)
    | _ =>
        r1 <- cexpr c q n ;; let '(cq, oq, n1) := r1 in
        Ok (cq ++ [Bcc KSigned EQ (OImm (if is_if then 0 else 1)) oq l], n1)
    end.

  (** linear.c:1334-1345, 1472-1484 *)
  Definition cassign (c : ctx) (x : var) (e : expr) (n : nat) : res (list op * nat) :=
    r1 <- cexpr c e n ;; let '(ce, oe, n1) := r1 in
    Ok (ce ++ [Move (var_operand x) oe], n1).

  (** linear.c:1811, the test for an else *)
  Definition is_empty (b : block) : bool := match b with BNil => true | _ => false end.

  (** linear_stmt (linear.c:4060-4169) and the functions it calls, as marked *)
  Fixpoint cstmt (c : ctx) (s : stmt) (n : nat) {struct s} : res (list op * nat) :=
    match s with
    | SExpr e => r <- cexpr c e n ;; let '(ce, _, n1) := r in Ok (ce, n1)
    | SAssign x e => cassign c x e n
    | SIf q a b =>                                                  (* linear.c:1804-1833 *)
        r0 <- ccond c q (if is_empty b then n else n + 1)%nat true (n + 3) ;; let '(cq, n0) := r0 in
        r1 <- clist (enter c) a n0 ;; let '(ca, n1) := r1 in
        if is_empty b then
          Ok (cq ++ [Label (n + 2)] ++ ca ++ [Bal n; Label n], n1)
        else
          r2 <- clist (enter c) b n1 ;; let '(cb, n2) := r2 in
          Ok (cq ++ [Label (n + 2)] ++ ca ++ [Bal n; Label (n + 1)] ++ cb ++ [Label n], n2)
    | SFor q body =>                                                (* linear.c:1703-1729 *)
        (* n start, n+1 continue (the body), n+2 cond, n+3 end *)
        let c' := push_loop c (n + 2) (n + 3) in
        r1 <- clist (enter c') body (n + 4) ;; let '(cb, n1) := r1 in
        r2 <- ccond c' q (n + 1) false n1 ;; let '(cq, n2) := r2 in
        Ok ([Label n; Bal (n + 2); Label (n + 1)] ++ cb ++ [Label (n + 2)] ++ cq ++ [Label (n + 3)], n2)
    | SForT x e q y u body =>                                       (* linear.c:1731-1759 *)
        (* n start, n+1 continue (the body), n+2 cond, n+3 end, n+4 update *)
        let c' := push_loop c (n + 4) (n + 3) in
        r0 <- cassign c' x e (n + 5) ;; let '(ci, n0) := r0 in
        r1 <- clist (enter c') body n0 ;; let '(cb, n1) := r1 in
        r2 <- cassign c' y u n1 ;; let '(cu, n2) := r2 in
        r3 <- ccond c' q (n + 1) false n2 ;; let '(cq, n3) := r3 in
        Ok ([Label n] ++ ci ++ [Bal (n + 2); Label (n + 1)] ++ cb ++ [Label (n + 4)] ++ cu
            ++ [Label (n + 2)] ++ cq ++ [Label (n + 3)], n3)
    | SBreak =>                                                     (* linear.c:1769-1775 *)
        match c_brk c with
        | [] => Throw
        | l :: _ => r <- unwind c MBreak n ;; let '(cu, n1) := r in Ok (cu ++ [Bal l], n1)
        end
    | SContinue =>                                                  (* linear.c:1761-1767 *)
        match c_cont c with
        | [] => Throw
        | l :: _ => r <- unwind c MContinue n ;; let '(cu, n1) := r in Ok (cu ++ [Bal l], n1)
        end
    | SReturn None =>                                               (* linear.c:1793-1802 *)
        r <- unwind c MAll n ;; let '(cu, n1) := r in
        Ok (cu ++ [Return None; Bal end_label], n1)
    | SReturn (Some e) =>
        r0 <- cexpr c e n ;; let '(ce, oe, n0) := r0 in
        r <- unwind c MAll n0 ;; let '(cu, n1) := r in
        Ok (ce ++ cu ++ [Return (Some oe); Bal end_label], n1)
    | STry body x handler =>                                        (* linear.c:3784-3814 *)
        (* n catch, n+1 end *)
        r1 <- clist (enter (push_catch c n)) body (n + 2) ;; let '(cb, n1) := r1 in
        r2 <- clist (enter c) handler n1 ;; let '(ch, n2) := r2 in
        Ok (cb ++ [Bal (n + 1); Label n; RemoveError (OLoc x)] ++ ch ++ [Label (n + 1)], n2)
    | SThrow e =>                                                   (* linear.c:4031-4058 *)
        r0 <- cexpr c e n ;; let '(ce, oe, n0) := r0 in
        r <- unwind c MAll (S n0) ;; let '(cu, n1) := r in
        Ok (ce ++ [Move (OTemp n0) oe; ThrowError (OTemp n0)] ++ cu ++ [Return None; Bal end_label], n1)
    | SDefer _ => Ok ([], n)                                        (* registered by [clist] *)
    end
  (** linear.c:4259-4271 (linear_body) after entering the scope: the statements in turn, then
      leaving the scope. *)
  with clist (c : ctx) (b : block) (n : nat) {struct b} : res (list op * nat) :=
    match b with
    | BNil => emit_all (leave c) (top_defers c) n
    | BCons s b' =>
        r1 <- cstmt c s n ;; let '(c1, n1) := r1 in
        r2 <- clist (match s with SDefer d => register c d | _ => c end) b' n1 ;; let '(c2, n2) := r2 in
        Ok (c1 ++ c2, n2)
    end.
End compile.

(** linear_body; [depth] bounds how deep deferred bodies are compiled inside deferred bodies. *)
Fixpoint cbody (depth : nat) (c : ctx) (b : block) (n : nat) : res (list op * nat) :=
  match depth with
  | O => NoFuel
  | S k => clist (cbody k) (enter c) b n
  end.

(** linear.c:4279-4349 (linear_fndef), after the parameters. *)
Definition cfun (depth : nat) (b : block) : res (list op) :=
  r <- cbody depth (mk_ctx [] [] [] []) b 2 ;;
  Ok (fst r ++ [Bal end_label; Label error_label; Return None; Bal end_label; Label end_label; FnEnd]).
