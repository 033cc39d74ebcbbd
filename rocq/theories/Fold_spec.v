(** What constant expressions mean, independently of the compiler. *)
From Verif Require Import Base Fold_model.

(** Decimal numerals with an optional minus sign. *)
Definition digit (c : Z) : Prop := 48 <= c <= 57.
Definition dec_value (s : list Z) : Z := fold_left (fun a c => 10 * a + (c - 48)) s 0.
Definition number (s : list Z) (v : Z) : Prop :=
  (s <> [] /\ Forall digit s /\ v = dec_value s) \/
  (exists t, s = 45 :: t /\ t <> [] /\ Forall digit t /\ v = - dec_value t).
(** No superfluous leading zero. *)
Definition plain (s : list Z) : Prop :=
  let d := match s with 45 :: t => t | _ => s end in hd 48 d <> 48 \/ d = [48].

(** Mathematical meaning of the operators; division truncates, shifts multiply and divide by
    powers of two, the bit operations act on the infinite two's-complement form. *)
Inductive op_means : binop -> Z -> Z -> Z -> Prop :=
| M_add a b : op_means OAdd a b (a + b)
| M_sub a b : op_means OSub a b (a - b)
| M_mul a b : op_means OMul a b (a * b)
| M_div a b : b <> 0 -> op_means ODiv a b (Z.quot a b)
| M_rem a b : b <> 0 -> op_means ORem a b (a - b * Z.quot a b)
| M_and a b v : (forall i, 0 <= i -> Z.testbit v i = Z.testbit a i && Z.testbit b i) -> op_means OAnd a b v
| M_or a b v : (forall i, 0 <= i -> Z.testbit v i = Z.testbit a i || Z.testbit b i) -> op_means OOr a b v
| M_xor a b v : (forall i, 0 <= i -> Z.testbit v i = xorb (Z.testbit a i) (Z.testbit b i)) -> op_means OXor a b v
| M_shl a b : 0 <= b -> op_means OShl a b (a * 2 ^ b)
| M_shr a b : 0 <= b -> op_means OShr a b (a / 2 ^ b).

(** [means defs e v]: the expression stands for the integer [v].  A named constant stands for
    its definition; being inductive, the relation gives no meaning to circular definitions. *)
Inductive means (defs : list expr) : expr -> Z -> Prop :=
| V_lit s v : number s v -> means defs (Lit s) v
| V_const x d v : nth_error defs x = Some d -> means defs d v -> means defs (Const x) v
| V_neg e v : means defs e v -> means defs (Neg e) (- v)
| V_bnot e v : means defs e v -> means defs (Bnot e) (- v - 1)
| V_bin o a b va vb v : means defs a va -> means defs b vb -> op_means o va vb v -> means defs (Bin o a b) v.

Definition int64 (v : Z) : Prop := -2^63 <= v < 2^63.

(** Every literal is written plainly, every intermediate value is a 64-bit signed integer, shift
    counts are below 64. *)
Inductive calm (defs : list expr) : expr -> Prop :=
| K_lit s v : number s v -> plain s -> int64 v -> calm defs (Lit s)
| K_const x d : nth_error defs x = Some d -> calm defs d -> calm defs (Const x)
| K_neg e : calm defs e -> (forall v, means defs (Neg e) v -> int64 v) -> calm defs (Neg e)
| K_bnot e : calm defs e -> calm defs (Bnot e)
| K_bin o a b :
    calm defs a -> calm defs b ->
    (forall v, means defs (Bin o a b) v -> int64 v) ->
    (o = OShl \/ o = OShr -> forall n, means defs b n -> n < 64) ->
    (o = ORem -> forall va vb, means defs a va -> means defs b vb -> int64 (Z.quot va vb)) ->
    calm defs (Bin o a b).

(** The values of a type. *)
Definition lowest (t : ity) : Z :=
  match t with
  | I8 => -2^7 | I16 => -2^15 | I32 => -2^31 | I64 => -2^63
  | U8 | U16 | U32 | U64 => 0
  end.
Definition highest (t : ity) : Z :=
  match t with
  | I8 => 2^7 - 1 | I16 => 2^15 - 1 | I32 => 2^31 - 1 | I64 => 2^63 - 1
  | U8 => 2^8 - 1 | U16 => 2^16 - 1 | U32 => 2^32 - 1 | U64 => 2^64 - 1
  end.
Definition in_range (t : ity) (v : Z) : Prop := lowest t <= v <= highest t.

(** Constants used by an expression, and by the definitions of those. *)
Fixpoint mentions (x : nat) (e : expr) : Prop :=
  match e with
  | Lit _ => False
  | Const y => x = y
  | Neg a | Bnot a => mentions x a
  | Bin _ a b => mentions x a \/ mentions x b
  end.
Inductive needs (defs : list expr) : nat -> nat -> Prop :=
| N_one x y d : nth_error defs x = Some d -> mentions y d -> needs defs x y
| N_more x y z : needs defs x y -> needs defs y z -> needs defs x z.

(** The text a string constant stands for. *)
Fixpoint string_means (e : sexpr) : list Z :=
  match e with SLit s => s | SCat a b => string_means a ++ string_means b end.
Fixpoint literals (e : sexpr) : list (list Z) :=
  match e with SLit s => [s] | SCat a b => literals a ++ literals b end.
