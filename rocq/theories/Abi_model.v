(** How calls hand over arguments and results on amd64 outside Windows: src/lower/amd64_abi.c.

    Modelled: amd64_type_classify, amd64_lower_params, amd64_lower_args, the hidden parameter of
    amd64_lower_fn_begin and amd64_lower_call, amd64_lower_return.  The model says which part of which value is
    moved where; the moves themselves, the choice of the operand kinds and the register allocation behind the
    hints (lower_temp_var_with_hint) are not modelled.  Not modelled: the Windows functions. *)
From Verif Require Import Base.

(** type_t as these functions see it: map_imm_kind is a float or not, storage_size, align, abi_struct
    (is_abi_struct_like, utils/type.h:1024-1026), TYPE_ARR *)
Inductive ty :=
| Scalar (float : bool) (sz : Z)
| Struct (es : list ty) (sz al : Z)
| Arr (sz al : Z).
(** storage_size *)
Definition size (t : ty) : Z := match t with Scalar _ s | Struct _ s _ | Arr s _ => s end.
(** align; that of a scalar is its size *)
Definition align (t : ty) : Z := match t with Scalar _ s => s | Struct _ _ a | Arr _ a => a end.

(** utils/helper.h:486-492 *)
Definition align_up (n a : Z) : Z := if a =? 0 then n else Z.land (n + a - 1) (Z.lnot (a - 1)).

(** amd64_abi.h:6-12 *)
Inductive class := NO | MEMORY | INTEGER | SSE.
(** == on amd64_class_t *)
Definition class_eqb (a b : class) : bool :=
  match a, b with NO, NO | MEMORY, MEMORY | INTEGER, INTEGER | SSE, SSE => true | _, _ => false end.

(** amd64_abi.c:916-938 *)
Definition merge (a b : class) : class :=
  if class_eqb a b then a
  else if class_eqb a NO then b
  else if class_eqb b NO then a
  else if class_eqb a MEMORY || class_eqb b MEMORY then MEMORY
  else if class_eqb a INTEGER || class_eqb b INTEGER then INTEGER
  else SSE.

(** the two halves of a value: *lo and *hi; amd64_abi.c:953-958, 983-988 *)
Definition put (lh : class * class) (off : Z) (c : class) : class * class :=
  if off <? 8 then (merge (fst lh) c, snd lh) else (fst lh, merge (snd lh) c).

(** amd64_abi.c:940-992; None: the function returns 0 *)
Fixpoint type_classify (t : ty) (lh : class * class) (off : Z) : option (class * class) :=
  if 16 <? size t then None
  else
    match t with
    | Arr _ _ => None
    | Scalar true _ => Some (put lh off SSE)
    | Struct es _ al =>
        (fix go (es : list ty) (off : Z) (lh : class * class) : option (class * class) :=
           match es with
           | [] => Some lh
           | e :: es =>
               let off := align_up off (align e) in
               match type_classify e lh off with
               | None => None
               | Some lh => go es (off + size e) lh
               end
           end) es (align_up off al) lh
    | Scalar false _ => Some (put lh off INTEGER)
    end.
(** a call from outside: lo and hi start as AMD64_CLASS_NO, and the count returned (amd64_abi.c:991) *)
Definition classify (t : ty) : nat * class * class :=
  match type_classify t (NO, NO) 0 with
  | None => (0%nat, NO, NO)
  | Some (lo, hi) => (if class_eqb hi NO then 1%nat else 2%nat, lo, hi)
  end.

(** (not in the source, the operands of the moves) where a part of a value is: an integer register or an sse register by number, or the stack *)
Inductive loc := IReg (r : Z) | XReg (r : Z) | Stk (off : Z).
(** (not in the source) the whole value, its first eight bytes, or the rest *)
Inductive part := Whole | Low | High.
(** (not in the source) argument number, part, place *)
Definition move : Type := nat * part * loc.

(** amd64_abi.c:297-298, 701-702 *)
Definition int_reg_indices : list Z := [7; 6; 2; 1; 8; 9].
Definition sse_reg_indices : list Z := [0; 1; 2; 3; 4; 5; 6; 7].

(** is_abi_struct_like, utils/type.h:1024-1026 *)
Definition is_struct (t : ty) : bool := match t with Struct _ _ _ => true | _ => false end.

(** * The caller: amd64_lower_args *)
(** amd64_abi.c:607-658: onstack, and stack_offset at the end *)
Fixpoint args_onstack (ts : list ty) (sse int : nat) (stack_offset : Z) : list bool * Z :=
  match ts with
  | [] => ([], stack_offset)
  | t :: ts =>
      let '(count, lo, hi) := classify t in
      let on_stack := let '(l, o) := args_onstack ts sse int (stack_offset + align_up (size t) 8) in (true :: l, o) in
      let in_regs s i := let '(l, o) := args_onstack ts (sse + s) (int + i) stack_offset in (false :: l, o) in
      match count with
      | O => on_stack
      | 1%nat =>
          if class_eqb lo SSE && Nat.leb (sse + 1) 8 then in_regs 1%nat 0%nat
          else if class_eqb lo INTEGER && Nat.leb (int + 1) 6 then in_regs 0%nat 1%nat
          else on_stack
      | _ =>
          if class_eqb lo hi then
            if class_eqb lo SSE && Nat.leb (sse + 2) 8 then in_regs 2%nat 0%nat
            else if class_eqb lo INTEGER && Nat.leb (int + 2) 6 then in_regs 0%nat 2%nat
            else on_stack
          else if Nat.leb (sse + 1) 8 && Nat.leb (int + 1) 6 then in_regs 1%nat 1%nat
          else on_stack
      end
  end.

(** amd64_abi.c:668-698 *)
Fixpoint args_stack (i : nat) (ts : list ty) (onstack : list bool) (rsp_offset : Z) : list move :=
  match ts, onstack with
  | t :: ts, true :: onstack => (i, Whole, Stk rsp_offset) :: args_stack (S i) ts onstack (rsp_offset + align_up (size t) 8)
  | _ :: ts, false :: onstack => args_stack (S i) ts onstack rsp_offset
  | _, _ => []
  end.

(** amd64_abi.c:722-735, 744-757, 766-776 and 336-347, 357-368, 380-389: the register for one half; None: assert(false), or no register left in the array *)
Definition arg_reg (c : class) (int sse : nat) : option (loc * nat * nat) :=
  match c with
  | INTEGER => match nth_error int_reg_indices int with Some r => Some (IReg r, S int, sse) | None => None end
  | SSE => match nth_error sse_reg_indices sse with Some r => Some (XReg r, int, S sse) | None => None end
  | _ => None
  end.
(** amd64_abi.c:703-780 *)
Fixpoint args_regs (i : nat) (ts : list ty) (onstack : list bool) (int sse : nat) : option (list move) :=
  match ts, onstack with
  | t :: ts, false :: onstack =>
      let '(count, lo, hi) := classify t in
      match arg_reg lo int sse with
      | None => None
      | Some (l, int, sse) =>
          if is_struct t && Nat.eqb count 2 then
            match arg_reg hi int sse with
            | None => None
            | Some (h, int, sse) =>
                match args_regs (S i) ts onstack int sse with
                | None => None
                | Some ms => Some ((i, Low, l) :: (i, High, h) :: ms)
                end
            end
          else
            match args_regs (S i) ts onstack int sse with
            | None => None
            | Some ms => Some ((i, Low, l) :: ms)
            end
      end
  | _ :: ts, true :: onstack => args_regs (S i) ts onstack int sse
  | _, _ => Some []
  end.
(** amd64_abi.c:590-785: the moves, and the stack reserved for them (660-663) *)
Definition lower_args (ts : list ty) : option (list move * Z) :=
  let '(onstack, stack_offset) := args_onstack ts 0 0 0 in
  match args_regs 0 ts onstack 0 0 with
  | None => None
  | Some ms => Some (args_stack 0 ts onstack 0 ++ ms, stack_offset)
  end.

(** * The function called: amd64_lower_params *)
(** amd64_abi.c:251-295 *)
Fixpoint params_onstack (ts : list ty) (sse int : nat) : list bool :=
  match ts with
  | [] => []
  | t :: ts =>
      let '(count, lo, hi) := classify t in
      match count with
      | O => true :: params_onstack ts sse int
      | 1%nat =>
          if class_eqb lo SSE && Nat.leb (sse + 1) 8 then false :: params_onstack ts (sse + 1) int
          else if class_eqb lo INTEGER && Nat.leb (int + 1) 6 then false :: params_onstack ts sse (int + 1)
          else true :: params_onstack ts sse int
      | _ =>
          if class_eqb lo hi then
            if class_eqb lo SSE && Nat.leb (sse + 2) 8 then false :: params_onstack ts (sse + 2) int
            else if class_eqb lo INTEGER && Nat.leb (int + 2) 6 then false :: params_onstack ts sse (int + 2)
            else true :: params_onstack ts sse int
          else if Nat.leb (sse + 1) 8 && Nat.leb (int + 1) 6 then false :: params_onstack ts (sse + 1) (int + 1)
          else true :: params_onstack ts sse int
      end
  end.
(** amd64_abi.c:299-394; stack places are offsets from rbp *)
Fixpoint params_moves (i : nat) (ts : list ty) (onstack : list bool) (int sse : nat) (slot : Z) : option (list move) :=
  match ts, onstack with
  | t :: ts, true :: onstack =>
      match params_moves (S i) ts onstack int sse (slot + align_up (size t) 8) with
      | None => None
      | Some ms => Some ((i, Whole, Stk slot) :: ms)
      end
  | t :: ts, false :: onstack =>
      let '(count, lo, hi) := classify t in
      match arg_reg lo int sse with
      | None => None
      | Some (l, int, sse) =>
          if is_struct t && Nat.eqb count 2 then
            match arg_reg hi int sse with
            | None => None
            | Some (h, int, sse) =>
                match params_moves (S i) ts onstack int sse slot with
                | None => None
                | Some ms => Some ((i, Low, l) :: (i, High, h) :: ms)
                end
            end
          else
            match params_moves (S i) ts onstack int sse slot with
            | None => None
            | Some ms => Some ((i, Low, l) :: ms)
            end
      end
  | _, _ => Some []
  end.
(** amd64_abi.c:238-397; 16: the return address and the saved rbp (249) *)
Definition lower_params (ts : list ty) : option (list move) :=
  params_moves 0 ts (params_onstack ts 0 0) 0 0 16.

(** * Results *)
(** amd64_lower_return, amd64_abi.c:80-155; None: through the hidden pointer *)
Definition lower_return (t : ty) : option (list (part * loc)) :=
  let '(count, lo, hi) := classify t in
  match count with
  | O => None
  | _ =>
      let lo_reg := match lo with INTEGER => IReg 0 | _ => XReg 0 end in
      if is_struct t && Nat.eqb count 2 then
        Some [(Low, lo_reg); (High, match hi with INTEGER => IReg 2 | _ => XReg 1 end)]
      else Some [(Low, lo_reg)]
  end.
(** amd64_lower_call, amd64_abi.c:857-913 *)
Definition call_result (t : ty) : option (list (part * loc)) :=
  let '(count, lo, hi) := classify t in
  match count with
  | O => None
  | _ =>
      let lo_src := match lo with INTEGER => IReg 0 | _ => XReg 0 end in
      if is_struct t && Nat.eqb count 2 then
        Some [(Low, lo_src); (High, match hi with INTEGER => IReg 2 | _ => XReg 1 end)]
      else Some [(Low, lo_src)]
  end.

(** type_refof of the result at the call (832), TYPE_ANYPTR in the function called (417) *)
Definition pointer : ty := Scalar false 8.
(** amd64_lower_call, amd64_abi.c:787-837: the place for the result goes in front (819-834); None: the call has
    no result *)
Definition lower_call (ret : option ty) (ts : list ty) : option (list move * Z) :=
  lower_args (match ret with
              | Some t => let '(count, _, _) := classify t in if Nat.eqb count 0 then pointer :: ts else ts
              | None => ts
              end).
(** amd64_lower_fn_begin, amd64_abi.c:399-425 *)
Definition lower_fn_begin (ret : option ty) (ts : list ty) : option (list move) :=
  lower_params (match ret with
                | Some t => let '(count, _, _) := classify t in if Nat.eqb count 0 then pointer :: ts else ts
                | None => ts
                end).
