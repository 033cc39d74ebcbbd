(** Compile-time evaluation of integer and string constants: from the tree the parser built
    to the 64-bit immediate the code generator loads.

    Covers src/semantic/analyzer.c:1682-1917 (constant folding), 1029-1032, 2080-2106 and
    2394-2400 (named constants), src/semantic/infer.c:3259-3309 (range check of a literal),
    utils/type.h:1084-1105, src/linear.c:3821-3886 (reading a literal).
    Not modelled: floating-point constants, boolean negation, `as` casts, scopes (a
    named constant is given by its number), the text of error messages. *)
From Verif Require Import Base.

(** * The C library number readers

    The texts are those the compiler builds: an optional '-' and decimal digits
    (scanner.c:449-460 rewrites other bases to decimal, parser.c:1391-1399 prepends '-'). *)

(** Longest prefix of digits of a base up to ten; the number read so far and the rest. *)
Fixpoint scan_digits (base acc : Z) (s : list Z) : Z * list Z :=
  match s with
  | c :: t =>
      if (48 <=? c) && (c <? 48 + base) then scan_digits base (acc * base + (c - 48)) t
      else (acc, s)
  | [] => (acc, [])
  end.

(** C: base 0 means octal after a leading '0', decimal otherwise.  (The text never contains
    'x', so the hexadecimal case cannot arise.) *)
Definition base_of (base : Z) (s : list Z) : Z :=
  if base =? 0 then match s with 48 :: _ => 8 | _ => 10 end else base.

(** sign, magnitude, unread rest *)
Definition scan_number (base : Z) (s : list Z) : bool * Z * list Z :=
  match s with
  | 45 :: t => let '(n, r) := scan_digits (base_of base t) 0 t in (true, n, r)
  | _ => let '(n, r) := scan_digits (base_of base s) 0 s in (false, n, r)
  end.

(** C: strtoll clamps to the range of a 64-bit integer. *)
Definition clamp64 (v : Z) : Z := Z.max (-2^63) (Z.min (2^63 - 1) v).
Definition strtoll (base : Z) (s : list Z) : Z * list Z :=
  let '(neg, n, r) := scan_number base s in (clamp64 (if neg then - n else n), r).
(** C: strtoull clamps the magnitude and negates modulo 2^64. *)
Definition strtoull (base : Z) (s : list Z) : Z * list Z :=
  let '(neg, n, r) := scan_number base s in
  (if 2^64 <=? n then 2^64 - 1 else if neg then (- n) mod 2^64 else n, r).
(** C: atoll reads base ten and, in glibc, is strtoll. *)
Definition atoll (s : list Z) : Z := fst (strtoll 10 s).

(** snprintf("%ld"): decimal digits, least significant produced first. *)
Fixpoint print_digits (fuel : nat) (n : Z) (acc : list Z) : list Z :=
  match fuel with
  | O => acc
  | S f => let acc' := (48 + n mod 10) :: acc in
           if n <? 10 then acc' else print_digits f (n / 10) acc'
  end.
Definition print_ld (v : Z) : list Z :=
  if v <? 0 then 45 :: print_digits 20 (- v) [] else print_digits 20 v [].

(** * Expressions (ast.h): the operators the folder treats, and one for all the others *)
Inductive binop := OAdd | OSub | OMul | ODiv | ORem | OAnd | OOr | OXor | OShl | OShr | OOther.
Inductive expr :=
| Lit (s : list Z)             (* AST_EXPR_LITERAL of integer kind; the text may start with '-' *)
| Const (x : nat)              (* an identifier that names a constant *)
| Neg (e : expr)               (* AST_OP_NEG *)
| Bnot (e : expr)              (* AST_OP_BNOT *)
| Bin (o : binop) (a b : expr).

(** Signed 64-bit arithmetic of the folder: overflow is undefined in C. *)
Definition i64 (v : Z) : res Z := if (-2^63 <=? v) && (v <? 2^63) then Ok v else UB.
(** Two's-complement value of the low 64 bits. *)
Definition wrap64 (v : Z) : Z := (v + 2^63) mod 2^64 - 2^63.

(** analyzer.c:1767-1809.  [None] = can_fold is false.  Shifts: the count must be 0..63, a
    left shift drops the high bits and a right shift copies the sign (as gcc documents). *)
Definition fold_bin (o : binop) (a b : Z) : res (option Z) :=
  match o with
  | OAdd => v <- i64 (a + b) ;; Ok (Some v)
  | OSub => v <- i64 (a - b) ;; Ok (Some v)
  | OMul => v <- i64 (a * b) ;; Ok (Some v)
  | ODiv => if b =? 0 then Ok None else v <- i64 (Z.quot a b) ;; Ok (Some v)
  | ORem => if b =? 0 then Ok None
            else v <- i64 (Z.quot a b) ;; Ok (Some (Z.rem a b))
  | OAnd => Ok (Some (Z.land a b))
  | OOr => Ok (Some (Z.lor a b))
  | OXor => Ok (Some (Z.lxor a b))
  | OShl => if (0 <=? b) && (b <? 64) then Ok (Some (wrap64 (Z.shiftl a b))) else UB
  | OShr => if (0 <=? b) && (b <? 64) then Ok (Some (Z.shiftr a b)) else UB
  | OOther => Ok None
  end.

(** analyzer.c:1682-1902, binary expressions on integer literals: 1684-1688, 1764-1824. *)
Definition fold_binary (o : binop) (a b : expr) : res expr :=
  match a, b with
  | Lit s, Lit t =>
      r <- fold_bin o (fst (strtoll 0 s)) (fst (strtoll 0 t)) ;;
      match r with Some v => Ok (Lit (print_ld v)) | None => Ok (Bin o a b) end
  | _, _ => Ok (Bin o a b)
  end.

(** analyzer.c:1859-1887, unary expressions on integer literals. *)
Definition fold_neg (e : expr) : res expr :=
  match e with
  | Lit s => v <- i64 (- fst (strtoll 0 s)) ;; Ok (Lit (print_ld v))
  | _ => Ok (Neg e)
  end.
Definition fold_bnot (e : expr) : res expr :=
  match e with
  | Lit s => Ok (Lit (print_ld (Z.lnot (fst (strtoll 0 s)))))
  | _ => Ok (Bnot e)
  end.

Definition is_lit (e : expr) : bool := match e with Lit _ => true | _ => false end.

(** analyzer.c:2108-2214 (analyzer_expr) on these expressions: 1904-1910 and 1912-1917 fold
    after analysing the operands; an identifier goes to 2080-2106: an error if the constant is
    already being processed, otherwise its definition is analysed and must become a literal.
    [busy] are the constants whose `processing` flag is set.  Simplification: the definition is
    overwritten by its literal in the C code, here it is folded afresh at each use (folding a
    literal leaves it alone).  [depth] only bounds the recursion of the model. *)
Fixpoint analyze (depth : nat) (defs : list expr) (busy : list nat) (e : expr) {struct depth} : res expr :=
  let fix go (e : expr) : res expr :=
    match e with
    | Lit s => Ok (Lit s)
    | Const x =>
        if existsb (Nat.eqb x) busy then Throw
        else match nth_error defs x with
             | None => Throw
             | Some d =>
                 match depth with
                 | O => NoFuel
                 | S k => r <- analyze k defs (x :: busy) d ;;
                          if is_lit r then Ok r else Throw
                 end
             end
    | Neg a => a' <- go a ;; fold_neg a'
    | Bnot a => a' <- go a ;; fold_bnot a'
    | Bin o a b => a' <- go a ;; b' <- go b ;; fold_binary o a' b'
    end in
  go e.

(** * Types and the range check *)
Inductive ity := I8 | U8 | I16 | U16 | I32 | U32 | I64 | U64.

(** utils/type.h:1084-1105 (integer_range_check); [i] is an int64_t.  TYPE_INT and TYPE_UINT
    are the same numbers as TYPE_INT64 and TYPE_UINT64 (type.h:81-84). *)
Definition range_check (t : ity) (i : Z) : bool :=
  match t with
  | U8 => (0 <=? i) && (i <=? 255)
  | I8 => (-128 <=? i) && (i <=? 127)
  | U16 => (0 <=? i) && (i <=? 65535)
  | I16 => (-32768 <=? i) && (i <=? 32767)
  | U32 => (0 <=? i) && (i <=? 2^32 - 1)
  | I32 => (-2^31 <=? i) && (i <=? 2^31 - 1)
  | U64 => (0 <=? i mod 2^64) && (i mod 2^64 <=? 2^64 - 1)
  | I64 => (-2^63 <=? i) && (i <=? 2^63 - 1)
  end.

(** infer.c:3293-3306: the literal takes the target type if its value is in range, otherwise
    compilation fails. *)
Definition infer_literal (t : ity) (s : list Z) : res unit :=
  if range_check t (atoll s) then Ok tt else Throw.

Definition is_unsigned (t : ity) : bool :=
  match t with U8 | U16 | U32 | U64 => true | _ => false end.

(** linear.c:3854-3885 (linear_literal): the value of the immediate; text left over is an error. *)
Definition linear_literal (t : ity) (s : list Z) : res Z :=
  let '(v, rest) := if is_unsigned t then strtoull 0 s else strtoll 0 s in
  match rest with [] => Ok v | _ => Throw end.

(** A constant expression used where a value of type [t] is wanted: the value the program
    gets, or [None] when the expression is left to be computed when the program runs. *)
Definition constant (defs : list expr) (t : ity) (e : expr) : res (option Z) :=
  r <- analyze (length defs) defs [] e ;;
  match r with
  | Lit s => _ <- infer_literal t s ;; v <- linear_literal t s ;; Ok (Some v)
  | _ => Ok None
  end.

(** * Strings: a literal is the bytes and their number (ast_literal_t value, len); the bytes
    are stored with a NUL after them *)
Inductive sexpr := SLit (s : list Z) | SCat (a b : sexpr).

(** C strlen/strcpy/strcat see the bytes before the first NUL. *)
Fixpoint c_string (s : list Z) : list Z :=
  match s with [] => [] | c :: t => if c =? 0 then [] else c :: c_string t end.

(** analyzer.c:1692-1712 applied bottom up (1904-1910); 3825-3827 of linear.c then makes a
    string of all [len] bytes. *)
Fixpoint fold_string (e : sexpr) : list Z :=
  match e with
  | SLit s => s
  | SCat a b => c_string (fold_string a) ++ c_string (fold_string b)
  end.
