(** Model of how the compiler brings moves that belong to one point of a function into an order: the arguments of a
    call with the moves at the same point (parallel_moves, src/register/interval.c:1643-1876), and the moves on an
    edge between blocks (resolve_mappings, src/register/interval.c:1516-1594).

    Simplified: base and index of an address are registers; what else an operand is made of stands in a number; the
    size of operands is left out.  Not modelled: constants that are computed again instead of moved
    (is_const_float), and where in the block the moves are put. *)
From Verif Require Import Base.

(** a place: register of the integer or the float bank (reg_equals, src/lir.h:1221-1229), or stack slot *)
Inductive loc := IReg (n : nat) | FReg (n : nat) | Slot (z : Z).
Definition loc_eqb (a b : loc) : bool :=
  match a, b with
  | IReg x, IReg y | FReg x, FReg y => Nat.eqb x y
  | Slot x, Slot y => x =? y
  | _, _ => false
  end.
Definition is_reg (l : loc) : bool := match l with Slot _ => false | _ => true end.

(** LIR_OPERAND_REG and LIR_OPERAND_STACK; LIR_OPERAND_INDIRECT_ADDR with the registers of base and index;
    immediates, symbols *)
Inductive operand := Place (l : loc) | Mem (regs : list loc) (k : Z) | Other (k : Z).

(** an operation that may stand among the moves (lir_can_mov_eliminable, src/lir.h:1346-1373): code 0 is MOVE *)
Record op := mk_op { code : Z; first : option operand; second : option operand; out : loc }.

(** operand_conflicts_with_dst (src/register/interval.c:1689-1724); null conflicts with nothing *)
Definition conflicts (src : option operand) (dst : loc) : bool :=
  match src with
  | Some (Place l) => loc_eqb l dst
  | Some (Mem regs _) => is_reg dst && existsb (fun r => loc_eqb r dst) regs
  | _ => false
  end.

(** move_status_e, src/register/interval.c:1651-1655 *)
Inductive status := To_move | Being_moved | Moved.
(** src, src2, status and new_ops *)
Record st := mk_st { srcs : list (option operand); srcs2 : list (option operand); stat : list status; code_out : list op }.

Definition get {A} (l : list A) (i : nat) : res A := match nth_error l i with Some x => Ok x | None => UB end.

(** the register that takes the value of an operand: one of the two that are never allocated (src/register/interval.c:1767-1810) *)
Definition tmp_of (ti tf : nat) (float : operand -> bool) (o : operand) : loc := if float o then FReg tf else IReg ti.

(** the loop over all moves *)
Fixpoint each (f : nat -> st -> res st) (l : list nat) (s : st) : res st :=
  match l with
  | [] => Ok s
  | j :: l => s <- f j s ;; each f l s
  end.

(** a cycle is broken: the value of the operand of j that conflicts goes to a register (src/register/interval.c:1747-1829) *)
Definition break_cycle (ti tf : nat) (float : operand -> bool) (o : op) (j : nat) (fc sc : bool) (s : st) : res st :=
  match (if fc then first o else second o) with
  | None => UB
  | Some orig =>
      let t := tmp_of ti tf float orig in
      Ok (mk_st (if fc then list_set (srcs s) j (Some (Place t)) else srcs s) (if sc then list_set (srcs2 s) j (Some (Place t)) else srcs2 s)
            (stat s) (code_out s ++ [mk_op 0 (Some orig) None t]))
  end.

(** move_one (src/register/interval.c:1726-1846) *)
Fixpoint move_one (fuel : nat) (ti tf : nat) (float : operand -> bool) (moves : list op) (i : nat) (s : st) : res st :=
  match fuel with
  | O => NoFuel
  | S fuel =>
      o <- get moves i ;;
      a <- get (srcs s) i ;;
      if (code o =? 0) && match a with Some (Place l) => loc_eqb l (out o) | _ => false end then Ok s
      else
        let s := mk_st (srcs s) (srcs2 s) (list_set (stat s) i Being_moved) (code_out s) in
        s <- each (fun j s =>
               if Nat.eqb j i then Ok s
               else
                 a <- get (srcs s) j ;; b <- get (srcs2 s) j ;;
                 let fc := conflicts a (out o) in let sc := conflicts b (out o) in
                 if fc || sc then
                   x <- get (stat s) j ;;
                   match x with
                   | To_move => move_one fuel ti tf float moves j s
                   | Being_moved => oj <- get moves j ;; break_cycle ti tf float oj j fc sc s
                   | Moved => Ok s
                   end
                 else Ok s) (seq 0 (length moves)) s ;;
        a <- get (srcs s) i ;; b <- get (srcs2 s) i ;;
        Ok (mk_st (srcs s) (srcs2 s) (list_set (stat s) i Moved) (code_out s ++ [mk_op (code o) a b (out o)]))
  end.

(** parallel_moves (src/register/interval.c:1851-1876); a single move is left alone (1908-1912) *)
Definition parallel_moves (fuel : nat) (ti tf : nat) (float : operand -> bool) (moves : list op) : res (list op) :=
  match moves with
  | [o] => Ok [o]
  | _ =>
      s <- each (fun i s =>
             x <- get (stat s) i ;;
             match x with To_move => move_one fuel ti tf float moves i s | _ => Ok s end) (seq 0 (length moves))
             (mk_st (map first moves) (map second moves) (map (fun _ => To_move) moves) []) ;;
      Ok (code_out s)
  end.

(** ** resolve_mappings *)
(** an interval at an edge: its variable, and its register, or none if it is in the stack slot of the variable *)
Record ivl := mk_ivl { var : nat; assigned : option nat }.
(** block_regs, an array of int8_t *)
Definition i8 (z : Z) : Z := (z + 128) mod 256 - 128.
Definition add_at (l : list Z) (i : nat) (d : Z) : res (list Z) := x <- get l i ;; Ok (list_set l i (i8 (x + d))).

(** resolve_blocked (src/register/interval.c:366-380) *)
Definition blocked (regs : list Z) (from to : ivl) : res bool :=
  match assigned to with
  | None => Ok false
  | Some r =>
      x <- get regs r ;;
      Ok (if x =? 0 then false else if (x =? 1) && match assigned from with Some r' => Nat.eqb r r' | None => false end then false else true)
  end.

Fixpoint count_regs (l : list (ivl * ivl)) (regs : list Z) : res (list Z) :=
  match l with
  | [] => Ok regs
  | (from, _) :: l =>
      regs <- match assigned from with Some r => add_at regs r 1 | None => Ok regs end ;;
      count_regs l regs
  end.

Fixpoint remove_at {A} (l : list A) (i : nat) : list A :=
  match l, i with
  | [], _ => []
  | _ :: l, O => l
  | x :: l, S i => x :: remove_at l i
  end.

(** one round over the pairs that are left (src/register/interval.c:1539-1579): regs, moves so far, candidate,
    whether anything was done *)
Fixpoint round (fuel : nat) (i : nat) (l : list (ivl * ivl)) (regs : list Z) (acc : list (ivl * ivl)) (cand : option nat) (done : bool)
  : res (list (ivl * ivl) * list Z * list (ivl * ivl) * option nat * bool) :=
  match nth_error l i with
  | None => Ok (l, regs, acc, cand, done)
  | Some (from, to) =>
      match fuel with
      | O => NoFuel
      | S fuel =>
          match assigned from, assigned to with
          | None, None => Abort
          | _, _ =>
              b <- blocked regs from to ;;
              if b then round fuel (S i) l regs acc (Some i) done
              else
                regs <- match assigned from with Some r => add_at regs r (-1) | None => Ok regs end ;;
                round fuel (S i) (remove_at l i) regs (acc ++ [(from, to)]) cand true
          end
      end
  end.

(** the loop (src/register/interval.c:1536-1593) *)
Fixpoint resolve (fuel : nat) (l : list (ivl * ivl)) (regs : list Z) (acc : list (ivl * ivl)) (cand : option nat) : res (list (ivl * ivl)) :=
  match l with
  | [] => Ok acc
  | _ =>
      match fuel with
      | O => NoFuel
      | S fuel =>
          ' (l, regs, acc, cand, done) <- round (length l) 0 l regs acc cand false ;;
          if done then resolve fuel l regs acc cand
          else
            match cand with
            | None => Abort
            | Some i =>
                ' (from, to) <- get l i ;;
                let child := mk_ivl (var from) None in
                regs <- match assigned from with Some r => add_at regs r (-1) | None => add_at regs 0 (-1) end ;;
                resolve fuel (list_set l i (child, to)) regs (acc ++ [(from, child)]) cand
            end
      end
  end.

(** resolve_mappings (src/register/interval.c:1516-1594) *)
Definition resolve_mappings (fuel : nat) (l : list (ivl * ivl)) : res (list (ivl * ivl)) :=
  regs <- count_regs l (repeat 0 255) ;;
  resolve fuel l regs [] None.
