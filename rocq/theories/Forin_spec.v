(** What a loop over a container, a channel or a range means. *)
From Verif Require Import Base Forin_model.
Import ListNotations.
Open Scope Z_scope.

Section Meaning.
  Variable st : Type.
  Variable len : st -> Z.
  Variable key : Z -> st -> Z.
  Variable elem : Z -> st -> Z.
  Variable recv : st -> option (Z * st).
  Variable start stop : st -> Z * st.
  Variable body : Z -> option Z -> st -> bd st.

  (** The variables of round [i]: `for v in` a vector or a string gives the element, `for i, v in`
      the position and the element, `for k in` and `for k, v in` a map the key (and the value). *)
  Definition first_var (k : kind) (second : bool) (i : Z) (s : st) : Z :=
    match k with
    | KMap => key i s
    | _ => if second then i else elem i s
    end.
  Definition second_var (second : bool) (i : Z) (s : st) : option Z :=
    if second then Some (elem i s) else None.

  (** A loop from position [i] on: a round for every position below the length, as it is then. *)
  Inductive visits (k : kind) (second : bool) : Z -> st -> out st -> Prop :=
  | V_end i s : len s <= i -> visits k second i s (Finished _ s)
  | V_next i s x s' r : i < len s ->
      body (first_var k second i s) (second_var second i s) s = Falls _ x s' \/
      body (first_var k second i s) (second_var second i s) s = Continues _ x s' ->
      visits k second (i + 1) s' r -> visits k second i s r
  | V_break i s s' : i < len s ->
      body (first_var k second i s) (second_var second i s) s = Breaks _ s' ->
      visits k second i s (Finished _ s')
  | V_leave i s s' : i < len s ->
      body (first_var k second i s) (second_var second i s) s = Leaves _ s' ->
      visits k second i s (Left _ s').

  (** A loop over a channel: a round for every message.  It is left by the body only; what should
      happen on a closed channel is said beside the theorems. *)
  Inductive receives : st -> out st -> Prop :=
  | R_next s v s1 x s' r : recv s = Some (v, s1) ->
      body v None s1 = Falls _ x s' \/ body v None s1 = Continues _ x s' ->
      receives s' r -> receives s r
  | R_break s v s1 s' : recv s = Some (v, s1) -> body v None s1 = Breaks _ s' -> receives s (Finished _ s')
  | R_leave s v s1 s' : recv s = Some (v, s1) -> body v None s1 = Leaves _ s' -> receives s (Left _ s').

  (** The numbers a, a + 1, .. below b. *)
  Definition upto (a b : Z) : list Z := map (fun j => a + Z.of_nat j) (seq 0 (Z.to_nat (b - a))).
End Meaning.
