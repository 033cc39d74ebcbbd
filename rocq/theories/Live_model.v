(** Model of the liveness analysis of the compiler (src/ssa.c:208-235, 287-380, 388-456).

    A variable is known by a number that stands for its ident; an operation by its opcode and the operands that are
    no variables (code), the variables it uses and the variables it defines, in the order of
    extract_var_operands (src/lir.h:1422-1424).  The tables that only remember which idents were seen are lists. *)
From Verif Require Import Base Dom_model.

Notation var := nat (only parsing).
Record op := mk_op { code : Z; uses : list var; defs : list var }.

(** the blocks of a function: the operations behind the label, and the successors (basic_block_t.succs) *)
Record block := mk_block { ops : list op; succs : list nat }.
Definition program := list block.
Definition block_of (c : program) (b : nat) : block := nth b c (mk_block [] []).

(** table_exist, and ssa_var_belong (src/ssa.c:705-714) *)
Definition mem (v : var) (l : list var) : bool := existsb (Nat.eqb v) l.

(** the variables an operation uses (src/ssa.c:408-423): the lists use, def and exist_use *)
Fixpoint use_loop (vs : list var) (use def exist_use : list var) : list var * list var :=
  match vs with
  | [] => (use, exist_use)
  | v :: vs =>
      if negb (mem v def) && negb (mem v exist_use) then use_loop vs (use ++ [v]) def (v :: exist_use)
      else use_loop vs use def exist_use
  end.

(** the variables it defines (src/ssa.c:426-452); exist_def is never written to, so that the lookup in it never
    finds anything, and def can name a variable twice *)
Fixpoint def_loop (vs : list var) (def exist_use : list var) : list var * list var :=
  match vs with
  | [] => (def, exist_use)
  | v :: vs => def_loop vs (def ++ [v]) (v :: exist_use)
  end.

(** ssa_use_def for one block (src/ssa.c:388-456) *)
Fixpoint use_def_loop (l : list op) (use def exist_use : list var) : list var * list var :=
  match l with
  | [] => (use, def)
  | o :: l =>
      let (use, exist_use) := use_loop (uses o) use def exist_use in
      let (def, exist_use) := def_loop (defs o) def exist_use in
      use_def_loop l use def exist_use
  end.
Definition use_def (b : block) : list var * list var := use_def_loop (ops b) [] [] [].

(** push the variables of l that are not there yet (src/ssa.c:296-303 and, with skip, 330-343) *)
Fixpoint add_new (l : list var) (skip : list var) (acc : list var) : list var :=
  match l with
  | [] => acc
  | v :: l => if mem v acc || mem v skip then add_new l skip acc else add_new l skip (acc ++ [v])
  end.

(** ssa_calc_live_out (src/ssa.c:287-307) *)
Definition calc_live_out (b : block) (live_in : sets) : list var :=
  fold_left (fun acc s => add_new (get live_in s) [] acc) (succs b) [].

(** ssa_calc_live_in (src/ssa.c:312-347) *)
Definition calc_live_in (b : block) (live_out : list var) : list var :=
  let (use, def) := use_def b in add_new live_out def (add_new use [] []).

(** ssa_live_changed (src/ssa.c:355-387); double_count is a uint8_t *)
Definition live_changed (old new : list var) : bool :=
  if negb (Nat.eqb (length old) (length new)) then true
  else if negb (forallb (fun v => mem v old) new) then true
  else negb (u8 (zlen new) =? zlen new).

(** one round of the loop of ssa_live over the blocks ids (src/ssa.c:219-234): live_out, live_in and changed *)
Fixpoint live_round (c : program) (ids : list nat) (out inn : sets) (changed : bool) : sets * sets * bool :=
  match ids with
  | [] => (out, inn, changed)
  | id :: ids =>
      let b := block_of c id in
      let new_out := calc_live_out b inn in
      let '(out, changed) := if live_changed (get out id) new_out then (put out id new_out, true) else (out, changed) in
      let new_in := calc_live_in b (get out id) in
      let '(inn, changed) := if live_changed (get inn id) new_in then (put inn id new_in, true) else (inn, changed) in
      live_round c ids out inn changed
  end.
Fixpoint live_rounds (fuel : nat) (c : program) (out inn : sets) : res (sets * sets) :=
  match fuel with
  | O => NoFuel
  | S fuel =>
      let '(out, inn, changed) := live_round c (rev (seq 0 (length c))) out inn false in
      if changed : bool then live_rounds fuel c out inn else Ok (out, inn)
  end.

(** ssa_live (src/ssa.c:208-235), with a bound on the number of rounds that the code does not have *)
Definition live (fuel : nat) (c : program) : res (sets * sets) :=
  live_rounds fuel c (repeat [] (length c)) (repeat [] (length c)).
