(* What an expression means, as a grammar with levels, independent of the
   parser: a table of operators from loosest to tightest and one rule per form
   of expression. *)
From Coq Require Import ZArith List Bool.
From Verif Require Import Base Pratt_model.
Import ListNotations.
Local Open Scope Z_scope.

(* The levels, loosest first:
     0  c ? x : y
     1  ||        2  &&       3  |       4  ^      5  &
     6  == !=     7  < <= > >=           8  << >>
     9  + -      10  * / %   11  as
    12  - ! ~ & * before an operand
    13  calls, indexing, selection
   A number says how loose an expression may be at a place. *)
Definition blevel (b : bop) : Z :=
  match b with
  | BOrOr => 1
  | BAndAnd => 2
  | BOr => 3
  | BXor => 4
  | BAnd => 5
  | BEe | BNe => 6
  | BLt | BLe | BGt | BGe => 7
  | BShl | BShr => 8
  | BAdd | BSub => 9
  | BMul | BDiv | BRem => 10
  end.

(* How operators are written.  The scanner writes `<` as one token and `>>` as
   two `>`; the parser has its own tokens for them, which are allowed too. *)
Inductive bspell : bop -> list tok -> Prop :=
| S_add : bspell BAdd [T_PLUS]
| S_sub : bspell BSub [T_MINUS]
| S_mul : bspell BMul [T_STAR]
| S_div : bspell BDiv [T_SLASH]
| S_rem : bspell BRem [T_PERSON]
| S_and : bspell BAnd [T_AND]
| S_or : bspell BOr [T_OR]
| S_xor : bspell BXor [T_XOR]
| S_shl : bspell BShl [T_LSHIFT]
| S_shr : bspell BShr [T_RANGLE; T_RANGLE]
| S_shr' : bspell BShr [T_RSHIFT]
| S_lt : bspell BLt [T_LANGLE]
| S_lt' : bspell BLt [T_LESS]
| S_le : bspell BLe [T_LE]
| S_gt : bspell BGt [T_RANGLE]
| S_ge : bspell BGe [T_GE]
| S_ee : bspell BEe [T_EE]
| S_ne : bspell BNe [T_NE]
| S_andand : bspell BAndAnd [T_ANDAND]
| S_oror : bspell BOrOr [T_OROR].

Definition uspell (u : uop) : tok :=
  match u with
  | UNot => T_NOT | UNeg => T_MINUS | UBnot => T_TILDE | UAddr => T_AND | UDeref => T_STAR
  end.

(* a list of tokens that begins with a number *)
Definition number_first (ts : list tok) : Prop :=
  exists k s r, ts = TLit k s :: r /\ (k = KInt \/ k = KFloat).

Inductive closer := CParen | CSquare.
Definition closing (c : closer) : tok :=
  match c with CParen => T_RPAREN | CSquare => T_RSQUARE end.

(* After the type of a cast comes no operand, so a call, an indexing or a
   selection written there applies to the cast: `x as int (1)` calls the cast.
   [postfix_left m t]: what may stand before a call, an indexing or a selection
   is an expression of level 13, or such a cast. *)
Fixpoint cast_ended (t : tree) : Prop :=
  match t with
  | As _ _ => True
  | Sel t _ | Idx t _ | Slice t _ _ | Call t _ _ => cast_ended t
  | _ => False
  end.
Definition postfix_left (m : Z) (t : tree) : Prop := m = 13 \/ (m = 11 /\ cast_ended t).

(* [reads l t ts]: at a place that takes level [l], the tokens [ts] are the
   expression [t]. *)
Inductive reads : Z -> tree -> list tok -> Prop :=
| R_lit l k s : l <= 13 -> reads l (Lit k s) [TLit k s]
| R_neg_lit l k s : l <= 13 -> k = KInt \/ k = KFloat ->
    reads l (Lit k (45 :: s)) [T_MINUS; TLit k s]
| R_id l s : l <= 13 -> reads l (Id s) [TIdent s]
| R_paren l t ts : l <= 13 -> reads 0 t ts -> reads l t (T_LPAREN :: ts ++ [T_RPAREN])
| R_tuple l t ts es us : l <= 13 -> reads 0 t ts ->
    items CParen es us -> es <> [] ->
    reads l (Tup (t :: es)) (T_LPAREN :: ts ++ T_COMMA :: us)
| R_vec l es us : l <= 13 -> items CSquare es us -> reads l (Vec es) (T_LSQUARE :: us)
| R_rep l t ts n ns : l <= 13 -> reads 0 t ts -> reads 0 n ns ->
    reads l (Rep t n) (T_LSQUARE :: ts ++ T_SEMI :: ns ++ [T_RSQUARE])
| R_un l u t ts : l <= 12 -> reads 12 t ts -> (u = UNeg -> ~ number_first ts) ->
    reads l (Un u t) (uspell u :: ts)
| R_bin l b x y xs os ys : l <= blevel b ->
    reads (blevel b) x xs -> bspell b os -> reads (blevel b + 1) y ys ->
    reads l (Bin b x y) (xs ++ os ++ ys)
| R_tern l c x y cs xs ys : l <= 0 ->
    reads 1 c cs -> reads 0 x xs -> reads 0 y ys ->
    reads l (Tern c x y) (cs ++ T_QUESTION :: xs ++ T_COLON :: ys)
| R_as l t ts ty : l <= 11 -> reads 11 t ts ->
    reads l (As t ty) (ts ++ [T_AS; TType ty])
| R_sel l m t ts key : postfix_left m t -> l <= m -> reads m t ts ->
    reads l (Sel t key) (ts ++ [T_DOT; TIdent key])
| R_idx l m t ts i is_ : postfix_left m t -> l <= m -> reads m t ts -> reads 0 i is_ ->
    reads l (Idx t i) (ts ++ T_LSQUARE :: is_ ++ [T_RSQUARE])
| R_slice l m t ts a als b bs_ : postfix_left m t -> l <= m -> reads m t ts ->
    bound [48] a als -> bound [45; 49] b bs_ ->
    reads l (Slice t a b) (ts ++ T_LSQUARE :: als ++ T_RANGE :: bs_ ++ [T_RSQUARE])
| R_call l m t ts es us : postfix_left m t -> l <= m -> reads m t ts -> items CParen es us ->
    reads l (Call t es false) (ts ++ T_LPAREN :: us)
| R_spread l m t ts es us : postfix_left m t -> l <= m -> reads m t ts -> spread_items es us ->
    reads l (Call t es true) (ts ++ T_LPAREN :: us)
(* the elements up to and including the closing token; a comma may stand before
   the closing token *)
with items : closer -> list tree -> list tok -> Prop :=
| I_nil c : items c [] [closing c]
| I_last c t ts : reads 0 t ts -> items c [t] (ts ++ [closing c])
| I_cons c t ts es us : reads 0 t ts -> items c es us ->
    items c (t :: es) (ts ++ T_COMMA :: us)
(* arguments whose last one is written with `...` *)
with spread_items : list tree -> list tok -> Prop :=
| P_last t ts : reads 0 t ts -> spread_items [t] (T_ELLIPSIS :: ts ++ [T_RPAREN])
| P_cons t ts es us : reads 0 t ts -> spread_items es us ->
    spread_items (t :: es) (ts ++ T_COMMA :: us)
(* a bound of a slice, or the text of its default *)
with bound : list Z -> tree -> list tok -> Prop :=
| B_none d : bound d (Lit KInt d) []
| B_some d t ts : reads 0 t ts -> bound d t ts.

(* tokens after which an expression cannot go on *)
Definition ends (ts : list tok) : Prop :=
  match ts with
  | [] => True
  | t :: _ =>
    match t with
    | TLit _ _ | TIdent _ | TType _ | T_RPAREN | T_RSQUARE | T_COMMA | T_ELLIPSIS
    | T_RANGE | T_COLON | T_SEMI | T_OTHER _ => True
    | _ => False
    end
  end.

(* no `<` in these tokens opens type arguments *)
Definition no_type_args (type_args : tree -> list tok -> bool) (ts : list tok) : Prop :=
  forall pre r e, ts = pre ++ T_LANGLE :: r -> type_args e r = false.
