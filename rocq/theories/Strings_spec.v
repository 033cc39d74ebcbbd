(** What the string functions are supposed to do, in terms of positions and decompositions
    only. *)
From Verif Require Import Base.

(** [t] occurs in [s] at index [i]. *)
Definition occurs_at (t s : list Z) (i : Z) : Prop :=
  exists pre suf, s = pre ++ t ++ suf /\ zlen pre = i.

(** No byte of [s] is NUL. *)
Definition nul_free (s : list Z) : Prop := ~ In 0 s.

(** [i] is the answer of a search for the first occurrence of [t] at or after [from]. *)
Definition first_occurrence (t s : list Z) (from i : Z) : Prop :=
  (occurs_at t s i /\ from <= i /\ (forall j, occurs_at t s j -> from <= j -> i <= j))
  \/ (i = -1 /\ forall j, occurs_at t s j -> j < from).

Definition last_occurrence (t s : list Z) (i : Z) : Prop :=
  (occurs_at t s i /\ forall j, occurs_at t s j -> j <= i)
  \/ (i = -1 /\ forall j, ~ occurs_at t s j).

(** [r] is [s] with the leftmost non-overlapping occurrences of [a] replaced by [b]. *)
Inductive replaced (a b : list Z) : list Z -> list Z -> Prop :=
| replaced_none s : (forall j, ~ occurs_at a s j) -> replaced a b s s
| replaced_one pre suf r :
    (forall j, occurs_at a (pre ++ a ++ suf) j -> zlen pre <= j) ->
    replaced a b suf r ->
    replaced a b (pre ++ a ++ suf) (pre ++ b ++ r).

(** Fields separated by [sep]. *)
Fixpoint joined (sep : list Z) (fields : list (list Z)) : list Z :=
  match fields with
  | [] => []
  | [f] => f
  | f :: rest => f ++ sep ++ joined sep rest
  end.

(** Decimal numerals. *)
Definition is_digit (c : Z) : Prop := 48 <= c <= 57.
Definition dec_value (ds : list Z) : Z := fold_left (fun a d => 10 * a + (d - 48)) ds 0.

(** [s] is an optional minus sign, blanks, and at least one digit, denoting [n]. *)
Definition int_text (s : list Z) (n : Z) : Prop :=
  exists sign sp ds,
    s = sign ++ sp ++ ds /\
    (sign = [] \/ sign = [45]) /\
    Forall (fun c => c = 32) sp /\
    ds <> [] /\ Forall is_digit ds /\
    n = (if sign then dec_value ds else - dec_value ds).

(** Upper and lower case ASCII letters. *)
Definition upper_ascii (c : Z) : Prop := 65 <= c <= 90.
Definition lower_ascii (c : Z) : Prop := 97 <= c <= 122.
