(** What lifetime intervals and the registers given to them mean. *)
From Verif Require Import Base Regalloc_model.

(** a position lies in one of the ranges; a range ends before its second number *)
Definition covers (l : list (Z * Z)) (p : Z) : Prop := exists f t, In (f, t) l /\ f <= p < t.
(** the ranges are not empty, do not overlap and are in order *)
Fixpoint ordered (l : list (Z * Z)) : Prop :=
  match l with
  | [] => True
  | (f, t) :: l' => f < t /\ match l' with (f', _) :: _ => t <= f' | [] => True end /\ ordered l'
  end.
(** the blocks follow each other, and there is room before the branches of each *)
Definition block_ok (b : block) : Prop := 0 <= first_id b /\ (nsucc b = 1%nat -> first_id b < last_id b) /\ (nsucc b = 2%nat -> first_id b + 3 < last_id b).
Fixpoint blocks_ok (l : list block) : Prop :=
  match l with
  | [] => True
  | b :: l' => block_ok b /\ match l' with b' :: _ => last_id b < first_id b' | [] => True end /\ blocks_ok l'
  end.

(** a problem: one interval for each register, which has that register, then the variables *)
Definition is_fixed (classes : list nat) (fixeds : list ivl) : Prop :=
  length fixeds = (length classes - 1)%nat
  /\ forall k i, nth_error fixeds k = Some i -> ordered (ranges i) /\ fixed i = true /\ reg i = S k /\ nth_error classes (S k) = Some (cls i).
Definition is_vars (n : nat) (vars : list ivl) : Prop :=
  forall k i, nth_error vars k = Some i ->
    ordered (ranges i) /\ (exists f t l, ranges i = (f, t) :: l /\ 0 <= f) /\ fixed i = false /\ reg i = 0%nat /\ spilled i = false /\ owner i = (n + k)%nat.
Definition is_problem (classes : list nat) (blocks : list block) (fixeds vars : list ivl) : Prop :=
  blocks_ok blocks /\ is_fixed classes fixeds /\ is_vars (length fixeds) vars.

(** the number of positions in which some variable lives, counted for each variable *)
Definition size (l : list (Z * Z)) : Z := fold_right (fun r a => snd r - fst r + a) 0 l.
Definition total (vars : list ivl) : Z := fold_right (fun i a => size (ranges i) + a) 0 vars.

(** no two intervals with the same register live at the same position *)
Definition no_clash (l : list ivl) : Prop :=
  forall j k i i' p, nth_error l j = Some i -> nth_error l k = Some i' -> j <> k -> reg i = reg i' -> reg i <> 0%nat -> covers (ranges i) p -> covers (ranges i') p -> False.

(** an interval has a place: a register, and then it has no use that must be on the stack, or a stack slot, and then it
    has no use that must be in a register *)
Definition placed (i : ivl) : Prop :=
  (reg i <> 0%nat /\ spilled i = false /\ forall u, In u (uses i) -> is_stack (snd u) = false) \/
  (reg i = 0%nat /\ spilled i = true /\ forall u, In u (uses i) -> is_must (snd u) = false).

(** the interval k of the result is a part of variable o *)
Definition is_part (n : nat) (l : list ivl) (o k : nat) (i : ivl) : Prop := nth_error l k = Some i /\ (n <= k)%nat /\ owner i = (n + o)%nat.

(** the positions at which intervals were handled, the last one first, never went back *)
Fixpoint forward (l : list Z) : Prop := match l with [] => True | a :: l' => match l' with b :: _ => b <= a | [] => True end /\ forward l' end.
