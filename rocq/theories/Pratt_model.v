(* Model of the expression parser of the compiler: src/syntax/parser.c,
   parser_expr (3921-3947) and what it calls.  See DESIGN.md, row C109.

   Simplifications.
   - A token is its kind and, for literals, names and built-in type names, its
     text; lines and columns are left out.  The token list ends where the
     scanner's TOKEN_EOF would be: the empty list behaves as TOKEN_EOF, which
     has no rule.
   - The forms of expression with their own leading keyword or with a body in
     curly braces are left out: struct literals, `go`, `match`, `fn`, `new`,
     `catch`, `is`, macro calls, map and set literals.  Their tokens are not in
     the type [tok] below, so the tests for them at the head of parser_expr and
     the rule rows 3371, 3375, 3403, 3404 and 3410 never apply.
   - The type after `as` is one built-in type name (parser_single_type,
     511-524); any other type is reported as [Throw].
   - Whether a `<` after a name opens type arguments is decided in the code by
     trying to read types (parser_left_angle_is_type_args, 1231-1309).  Here it
     is a parameter, [type_args]. *)
From Coq Require Import ZArith List Bool.
From Verif Require Import Base.
Import ListNotations.
Local Open Scope Z_scope.

(* token_to_kind (src/ast.h) on the literal tokens: the kind a literal has *)
Inductive lkind := KInt | KFloat | KString | KBool | KNull.

(* src/syntax/token.h 8-71: the tokens expressions are made of.  T_OTHER stands
   for the tokens that have no row in the table of rules (3369-3414):
   assignment operators, `}` and so on. *)
Inductive tok :=
| TLit (k : lkind) (s : list Z)
| TIdent (s : list Z)
| TType (s : list Z)
| T_LPAREN | T_RPAREN | T_LSQUARE | T_RSQUARE
| T_LANGLE | T_LESS | T_RANGLE
| T_COMMA | T_DOT | T_MINUS | T_PLUS | T_ELLIPSIS | T_RANGE | T_COLON | T_SEMI
| T_SLASH | T_STAR | T_PERSON | T_QUESTION
| T_NOT | T_NE | T_EE | T_GE | T_LE | T_ANDAND | T_OROR
| T_TILDE | T_AND | T_OR | T_XOR | T_LSHIFT | T_RSHIFT
| T_AS
| T_OTHER (k : Z).

(* src/ast.h, ast_expr_op_t: unary and binary operators *)
Inductive uop := UNot | UNeg | UBnot | UAddr | UDeref.
Inductive bop :=
| BAdd | BSub | BMul | BDiv | BRem
| BAnd | BOr | BXor | BShl | BShr
| BLt | BLe | BGt | BGe | BEe | BNe
| BAndAnd | BOrOr.

(* src/ast.h: the expression nodes built by the functions below.  [Gen] is a
   name with type arguments (generics_args of ast_call_t and type_args of
   ast_expr_select_t). *)
Inductive tree :=
| Lit (k : lkind) (s : list Z)
| Id (s : list Z)
| Un (u : uop) (t : tree)
| Bin (b : bop) (x y : tree)
| Tern (c x y : tree)
| As (t : tree) (ty : list Z)
| Sel (t : tree) (key : list Z)
| Idx (t i : tree)
| Slice (t a b : tree)
| Call (f : tree) (args : list tree) (spread : bool)
| Tup (es : list tree)
| Vec (es : list tree)
| Rep (e n : tree)
| Gen (t : tree) (ty : list Z).

(* src/syntax/parser.h 12-31 *)
Definition PREC_NULL := 0.
Definition PREC_ASSIGN := 1.
Definition PREC_CATCH := 2.
Definition PREC_TERNARY := 3.
Definition PREC_OR_OR := 4.
Definition PREC_AND_AND := 5.
Definition PREC_OR := 6.
Definition PREC_XOR := 7.
Definition PREC_AND := 8.
Definition PREC_CMP_EQUAL := 9.
Definition PREC_COMPARE := 10.
Definition PREC_SHIFT := 11.
Definition PREC_TERM := 12.
Definition PREC_FACTOR := 13.
Definition PREC_TYPE_CAST := 14.
Definition PREC_UNARY := 15.
Definition PREC_CALL := 16.
Definition PREC_SELECT := 17.

(* parser.c 3369-3414, the column infix_precedence of the table of rules;
   tokens without a row have all fields zero *)
Definition prec_tok (t : tok) : Z :=
  match t with
  | T_LPAREN => PREC_CALL
  | T_LSQUARE => PREC_SELECT
  | T_LESS => PREC_COMPARE
  | T_LANGLE => PREC_SELECT
  | T_DOT => PREC_SELECT
  | T_MINUS => PREC_TERM
  | T_PLUS => PREC_TERM
  | T_NOT => PREC_UNARY
  | T_TILDE => PREC_UNARY
  | T_AND => PREC_AND
  | T_OR => PREC_OR
  | T_XOR => PREC_XOR
  | T_LSHIFT => PREC_SHIFT
  | T_PERSON => PREC_FACTOR
  | T_STAR => PREC_FACTOR
  | T_SLASH => PREC_FACTOR
  | T_OROR => PREC_OR_OR
  | T_ANDAND => PREC_AND_AND
  | T_NE => PREC_CMP_EQUAL
  | T_EE => PREC_CMP_EQUAL
  | T_RSHIFT => PREC_SHIFT
  | T_RANGLE => PREC_COMPARE
  | T_GE => PREC_COMPARE
  | T_LE => PREC_COMPARE
  | T_AS => PREC_TYPE_CAST
  | T_QUESTION => PREC_TERNARY
  | _ => PREC_NULL
  end.

(* parser.c 3420-3422 find_rule of the current token *)
Definition prec (ts : list tok) : Z :=
  match ts with [] => PREC_NULL | t :: _ => prec_tok t end.

(* parser.c 3369-3414, the column `prefix` of the table of rules: parser_literal
   with the kind and text of the literal (1587-1599), parser_ident_expr (1656-1671),
   parser_left_paren_expr, parser_left_square_expr, and parser_unary with the
   operator it finds in the token (1385-1423) *)
Inductive prefix_rule :=
| PLiteral (k : lkind) (s : list Z) | PIdent (s : list Z) | PParen | PSquare
| PUnary (u : uop) | PNone.
Definition prefix_of (t : tok) : prefix_rule :=
  match t with
  | TLit k s => PLiteral k s
  | TIdent s => PIdent s
  | T_LPAREN => PParen
  | T_LSQUARE => PSquare
  | T_NOT => PUnary UNot
  | T_MINUS => PUnary UNeg
  | T_TILDE => PUnary UBnot
  | T_AND => PUnary UAddr
  | T_STAR => PUnary UDeref
  | _ => PNone
  end.

(* parser.c 3369-3414, the column `infix`: parser_binary with the operator that
   token_to_ast_op (src/ast.h) gives for the token, parser_ternary,
   parser_as_expr, parser_unknown_select, parser_access, parser_call_expr,
   parser_type_args_expr; [INone] is a null pointer *)
Inductive infix_rule :=
| IBinary (b : bop) | ITernary | IAs | ISelect | IAccess | ICall | ITypeArgs | INone.
Definition infix_of (t : tok) : infix_rule :=
  match t with
  | T_LPAREN => ICall
  | T_LSQUARE => IAccess
  | T_LESS => IBinary BLt
  | T_LANGLE => ITypeArgs
  | T_DOT => ISelect
  | T_MINUS => IBinary BSub
  | T_PLUS => IBinary BAdd
  | T_AND => IBinary BAnd
  | T_OR => IBinary BOr
  | T_XOR => IBinary BXor
  | T_LSHIFT => IBinary BShl
  | T_PERSON => IBinary BRem
  | T_STAR => IBinary BMul
  | T_SLASH => IBinary BDiv
  | T_OROR => IBinary BOrOr
  | T_ANDAND => IBinary BAndAnd
  | T_NE => IBinary BNe
  | T_EE => IBinary BEe
  | T_RSHIFT => IBinary BShr
  | T_RANGLE => IBinary BGt
  | T_GE => IBinary BGe
  | T_LE => IBinary BLe
  | T_AS => IAs
  | T_QUESTION => ITernary
  | _ => INone
  end.

(* parser_consume (parser.c 152-161) for the punctuation used below: the tokens
   after the given one, if it is there *)
Inductive punct := QRparen | QRsquare | QComma | QColon | QSemi | QRange | QDot | QLparen | QRangle
  | QEllipsis.
Definition is_punct (k : punct) (t : tok) : bool :=
  match k, t with
  | QRparen, T_RPAREN | QRsquare, T_RSQUARE | QComma, T_COMMA | QColon, T_COLON
  | QSemi, T_SEMI | QRange, T_RANGE | QDot, T_DOT | QLparen, T_LPAREN
  | QRangle, T_RANGLE | QEllipsis, T_ELLIPSIS => true
  | _, _ => false
  end.
Definition eat (k : punct) (ts : list tok) : option (list tok) :=
  match ts with
  | t :: r => if is_punct k t then Some r else None
  | [] => None
  end.

(* parser_must (TOKEN_IDENT) (parser.c 1739) and a built-in type name
   (parser_is_basic_type, 511-524) *)
Definition eat_ident (ts : list tok) : option (list Z * list tok) :=
  match ts with TIdent s :: r => Some (s, r) | _ => None end.
Definition eat_type (ts : list tok) : option (list Z * list tok) :=
  match ts with TType s :: r => Some (s, r) | _ => None end.

(* parser.c 1391, 1401: an integer or a floating-point literal *)
Definition eat_number (ts : list tok) : option (lkind * list Z * list tok) :=
  match ts with
  | TLit KInt s :: r => Some (KInt, s, r)
  | TLit KFloat s :: r => Some (KFloat, s, r)
  | _ => None
  end.

(* str_connect("-", text), parser.c 1395 and 1405 *)
Definition minus_text (s : list Z) : list Z := 45 :: s.

(* ast_int_expr(0) and ast_int_expr(-1), src/ast.h 834-844: the bounds of a
   slice that are not written *)
Definition zero_lit : tree := Lit KInt [48].
Definition minus_one_lit : tree := Lit KInt [45; 49].

Section Parser.
Variable type_args : tree -> list tok -> bool.

(* parser.c 3424-3442 parser_infix_token: the rewritten token list; the rewrite
   is done in place in the code, so it stays *)
Definition infix_token (e : tree) (ts : list tok) : list tok :=
  match ts with
  | T_LANGLE :: r => if type_args e r then ts else T_LESS :: r
  | T_RANGLE :: T_RANGLE :: r => T_RSHIFT :: r
  | _ => ts
  end.

(* parser.c 3444-3473 parser_precedence_expr (no caller modelled here excludes a
   token) is [expr] and, for its loop, [loop].  parser_expr (3921-3947) and
   parser_expr_with_precedence (3597-3599) are [expr] at PREC_ASSIGN.
   [prefix] and [infix] are the functions of the table of rules:
   - parser_left_paren_expr 1550-1585, parser_left_square_expr 2501-2552,
     parser_unary 1379-1432, parser_literal, parser_ident_expr; a token without
     a prefix function is an error (3448);
   - parser_binary 1211-1229, parser_ternary 1462-1486, parser_as_expr
     1488-1497, parser_unknown_select 1734-1750, parser_access 1679-1726 (with
     [slice_end], the common end of 1688-1698 and 1706-1716),
     parser_call_expr 1786-1799, parser_type_args_expr 1326-1370 (here for one
     type written as one name; its assert at 1367 is [Abort]); a token with a
     precedence but no infix function makes the code call a null pointer, [UB].
   [seq] is the loop of parser_arg (1752-1784, [sp] = true) and the same loop in
   tuples (1564-1573) and vector literals (2533-2546).  The fuel is the depth
   of calls. *)
Fixpoint expr (n : nat) (p : Z) (ts : list tok) {struct n} : res (tree * list tok) :=
  match n with
  | O => NoFuel
  | S n =>
    bind (prefix n ts) (fun q => loop n p (fst q) (snd q))
  end
with loop (n : nat) (p : Z) (e : tree) (ts : list tok) {struct n} : res (tree * list tok) :=
  match n with
  | O => NoFuel
  | S n =>
    let ts := infix_token e ts in
    if p <=? prec ts
    then bind (infix n e ts) (fun q => loop n p (fst q) (snd q))
    else Ok (e, ts)
  end
with prefix (n : nat) (ts : list tok) {struct n} : res (tree * list tok) :=
  match n with
  | O => NoFuel
  | S n =>
    match ts with
    | [] => Throw
    | t :: r =>
      match prefix_of t with
      | PNone => Throw
      | PLiteral k s => Ok (Lit k s, r)
      | PIdent s => Ok (Id s, r)
      | PUnary u =>
        match (match u with UNeg => eat_number r | _ => None end) with
        | Some (k, s, r) => Ok (Lit k (minus_text s), r)
        | None => bind (expr n PREC_UNARY r) (fun q => Ok (Un u (fst q), snd q))
        end
      | PParen =>
        bind (expr n PREC_ASSIGN r) (fun q =>
        match eat QRparen (snd q) with
        | Some r => Ok (fst q, r)
        | None =>
          match eat QComma (snd q) with
          | None => Throw
          | Some r =>
            match eat QRparen r with
            | Some _ => Throw
            | None => bind (seq n QRparen false r) (fun a => Ok (Tup (fst q :: fst (fst a)), snd a))
            end
          end
        end)
      | PSquare =>
        match eat QRsquare r with
        | Some r => Ok (Vec [], r)
        | None =>
          bind (expr n PREC_ASSIGN r) (fun q =>
          match eat QSemi (snd q) with
          | Some r =>
            bind (expr n PREC_ASSIGN r) (fun l =>
            match eat QRsquare (snd l) with
            | Some r => Ok (Rep (fst q) (fst l), r)
            | None => Throw
            end)
          | None =>
            match eat QRsquare (snd q) with
            | Some r => Ok (Vec [fst q], r)
            | None =>
              match eat QComma (snd q) with
              | None => Throw
              | Some r => bind (seq n QRsquare false r) (fun a => Ok (Vec (fst q :: fst (fst a)), snd a))
              end
            end
          end)
        end
      end
    end
  end
with infix (n : nat) (e : tree) (ts : list tok) {struct n} : res (tree * list tok) :=
  match n with
  | O => NoFuel
  | S n =>
    match ts with
    | [] => UB
    | t :: r =>
      match infix_of t with
      | INone => UB
      | IBinary b => bind (expr n (prec_tok t + 1) r) (fun q => Ok (Bin b e (fst q), snd q))
      | ITernary =>
        bind (expr n PREC_ASSIGN r) (fun c =>
        match eat QColon (snd c) with
        | None => Throw
        | Some r => bind (expr n PREC_TERNARY r) (fun a => Ok (Tern e (fst c) (fst a), snd a))
        end)
      | IAs =>
        match eat_type r with
        | None => Throw
        | Some (s, r) => Ok (As e s, r)
        end
      | ISelect =>
        match eat_ident r with
        | None => Throw
        | Some (s, r) => Ok (Sel e s, r)
        end
      | IAccess =>
        match eat QRange r with
        | Some r => slice_end n e zero_lit r
        | None =>
          bind (expr n PREC_ASSIGN r) (fun a =>
          match eat QRange (snd a) with
          | Some r => slice_end n e (fst a) r
          | None =>
            match eat QRsquare (snd a) with
            | None => Throw
            | Some r => Ok (Idx e (fst a), r)
            end
          end)
        end
      | ICall =>
        bind (seq n QRparen true r) (fun a => Ok (Call e (fst (fst a)) (snd (fst a)), snd a))
      | ITypeArgs =>
        match (match eat_ident r with None => eat_type r | x => x end) with
        | None => Throw
        | Some (s, r) =>
          match eat QRangle r with
          | None => Throw
          | Some r =>
            match eat QLparen r with
            | Some r =>
              bind (seq n QRparen true r) (fun a =>
              Ok (Call (Gen e s) (fst (fst a)) (snd (fst a)), snd a))
            | None =>
              match eat QDot r with
              | Some r =>
                match eat_ident r with
                | None => Throw
                | Some (key, r) => Ok (Sel (Gen e s) key, r)
                end
              | None => Abort
              end
            end
          end
        end
      end
    end
  end
with slice_end (n : nat) (e a : tree) (ts : list tok) {struct n} : res (tree * list tok) :=
  match n with
  | O => NoFuel
  | S n =>
    match eat QRsquare ts with
    | Some r => Ok (Slice e a minus_one_lit, r)
    | None =>
      bind (expr n PREC_ASSIGN ts) (fun b =>
      match eat QRsquare (snd b) with
      | None => Throw
      | Some r => Ok (Slice e a (fst b), r)
      end)
    end
  end
with seq (n : nat) (c : punct) (sp : bool) (ts : list tok) {struct n}
    : res (list tree * bool * list tok) :=
  match n with
  | O => NoFuel
  | S n =>
    match eat c ts with
    | Some r => Ok ([], false, r)
    | None =>
      match (if sp then eat QEllipsis ts else None) with
      | Some r =>
        bind (expr n PREC_ASSIGN r) (fun q =>
        match eat c (snd q) with
        | None => Throw
        | Some r => Ok ([fst q], true, r)
        end)
      | None =>
        bind (expr n PREC_ASSIGN ts) (fun q =>
        match eat c (snd q) with
        | Some r => Ok ([fst q], false, r)
        | None =>
          match eat QComma (snd q) with
          | None => Throw
          | Some r =>
            bind (seq n c sp r) (fun a => Ok (fst q :: fst (fst a), snd (fst a), snd a))
          end
        end)
      end
    end
  end.

(* parser.c 3921-3947 parser_expr, with enough fuel for any input of this
   length (Pratt_proof.v shows that it never runs out) *)
Definition parse (ts : list tok) : res (tree * list tok) :=
  expr (8 * S (length ts))%nat PREC_ASSIGN ts.

End Parser.
