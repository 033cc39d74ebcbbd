(** The peephole passes: src/peephole/amd64.c, src/peephole/arm64.c, src/peephole/peephole.h.

    Simplifications: variables and registers are numbers (lir_operand_equal on a variable compares its
    name); opcodes the passes do not name are [Elim k], those lir_can_mov_eliminable lists, and [Any k];
    a variable flagged as float constant carries its value in the operand ([OConst]); whether an
    operand is floating point, a question to its type in the code, is a field of the instruction;
    operand lists of calls and phis are the variables in them ([o_args]).  Instructions changed in
    place are replaced by the changed instruction.  Where amd64.c:131-136 would read a register as if
    it were a variable (MOVE to a register before the ADD), the model says it cannot be removed. *)
From Verif Require Import Base.
Local Open Scope nat_scope.

Inductive opcode :=
| Move | Add | Sub | Mul
| Elim (k : nat)                     (* divisions, shifts, bit operations, comparisons: lir.h:1346-1373 *)
| Lea
| Madd | Msub | Fmadd | Fmsub | Fnmsub
| Any (k : nat).                     (* calls, branches, labels, phi, conversions, ... *)

Inductive operand :=
| OVar (x : nat)
| OConst (x : nat) (v : Z)           (* variable flagged LIR_FLAG_CONST, and its value *)
| OReg (r : nat)
| OImm (z : Z)                       (* integer immediate *)
| OFimm (v : Z)                      (* float immediate, by its bits *)
| OInd (base index : option nat) (scale offset : Z)
| OStack (k : nat)                   (* stack slot *)
| OOther (k : nat).                  (* symbols, labels *)

Record op := mk_op {
  o_code : opcode;
  o_first : option operand; o_second : option operand; o_addend : option operand;
  o_output : option operand;
  o_args : list nat;
  o_float : bool }.

(** ** Operands *)
Definition var_of (o : operand) : option nat := match o with OVar x | OConst x _ => Some x | _ => None end.
Definition is_var (o : option operand) : bool := match o with Some (OVar _) | Some (OConst _ _) => true | _ => false end.
Definition is_reg (o : option operand) : bool := match o with Some (OReg _) => true | _ => false end.
Definition opt_eqb (a b : option nat) : bool :=
  match a, b with Some x, Some y => Nat.eqb x y | None, None => true | _, _ => false end.
(** lir.h:1231-1270 lir_operand_equal *)
Definition operand_equal (a b : option operand) : bool :=
  match a, b with
  | None, None => true
  | Some a, Some b =>
      match a, b with
      | (OVar x | OConst x _), (OVar y | OConst y _) => Nat.eqb x y
      | OReg r, OReg q => Nat.eqb r q
      | OInd b1 i1 s1 o1, OInd b2 i2 s2 o2 => opt_eqb b1 b2 && Z.eqb o1 o2 && opt_eqb i1 i2 && Z.eqb s1 s2
      | OStack k, OStack l => Nat.eqb k l
      | _, _ => false
      end
  | _, _ => false
  end.

(** The variables an operand reads when it is a source (lir.h:456-521). *)
Definition opt_list (o : option nat) : list nat := match o with Some x => [x] | None => [] end.
Definition vars_of (o : option operand) : list nat :=
  match o with
  | Some (OVar x) | Some (OConst x _) => [x]
  | Some (OInd b i _ _) => opt_list b ++ opt_list i
  | _ => []
  end.
Definition out_uses (o : option operand) : list nat := match o with Some (OInd b i _ _) => opt_list b ++ opt_list i | _ => [] end.
Definition uses (o : op) : list nat :=
  out_uses (o_output o) ++ vars_of (o_first o) ++ vars_of (o_second o) ++ vars_of (o_addend o) ++ o_args o.

(** ** peephole.h *)
(** peephole.h:28-50 *)
Definition occ (x : nat) (ops : list op) : nat := count_occ Nat.eq_dec (flat_map uses ops) x.
(** peephole.h:11-22, 73-90; [count] is the table built before the first round *)
Definition can_remove (live_out : list nat) (count : nat -> nat) (x : nat) : bool :=
  negb (existsb (Nat.eqb x) live_out) && Nat.leb (count x) 1.

(** ** amd64.c *)
(** amd64.c:8-10 *)
Definition lea_scale (s : Z) : bool := (Z.eqb s 1 || Z.eqb s 2 || Z.eqb s 4 || Z.eqb s 8)%bool.
Definition is_code (a b : opcode) : bool :=
  match a, b with
  | Move, Move | Add, Add | Sub, Sub | Mul, Mul => true
  | _, _ => false
  end.
Definition is_add_sub (o : op) : bool := is_code (o_code o) Add || is_code (o_code o) Sub.

(** amd64.c:124-176: the checks on the ADD or SUB, and the new instruction.  [tmp] is what it reads. *)
Definition lea_of (rm : nat -> bool) (a : operand) (scale : Z) (tmp : option operand) (p : op) : option op :=
  match o_second p with
  | Some (OImm d) =>
      if is_var (o_output p) then
        if operand_equal tmp (o_output p) || match tmp with Some t => match var_of t with Some x => rm x | None => false end | None => false end then
          let disp := if is_code (o_code p) Sub then (- d)%Z else d in
          if ((disp <? -2147483648) || (2147483647 <? disp))%Z then None
          else
            let x := match var_of a with Some x => x | None => 0 end in
            let addr := if Z.eqb scale 2 then OInd (Some x) (Some x) 1 disp else OInd None (Some x) scale disp in
            Some (mk_op Lea (Some addr) None None (o_output p) [] (o_float p))
        else None
      else None
  | _ => None
  end.
(** amd64.c:26-180 peephole_lea_fusion: the new instruction and the rest of the block *)
Definition lea_fusion (rm : nat -> bool) (ops : list op) : option (op * list op) :=
  match ops with
  | mul :: next :: rest =>
      match o_code mul, o_second mul, o_first mul with
      | Mul, Some (OImm scale), Some a =>
          if is_var (Some a) && is_var (o_output mul) && lea_scale scale && negb (o_float mul) then
            if is_add_sub next then
              if operand_equal (o_first next) (o_output mul) then
                match lea_of rm a scale (o_output mul) next with Some l => Some (l, rest) | None => None end
              else None
            else if is_code (o_code next) Move then
              if operand_equal (o_first next) (o_output mul) then
                if match o_output mul with Some t => match var_of t with Some x => rm x | None => false end | None => false end then
                  match rest with
                  | third :: rest =>
                      if is_add_sub third && operand_equal (o_first third) (o_output next) then
                        match lea_of rm a scale (o_output next) third with Some l => Some (l, rest) | None => None end
                      else None
                  | [] => None
                  end
                else None
              else None
            else None
          else None
      | _, _, _ => None
      end
  | _ => None
  end.

(** amd64.c:198-217, one round over the block: the new block and whether anything changed.
    [fuel] bounds the position of the cursor, which only moves forward. *)
Fixpoint amd64_round (rm : nat -> bool) (fuel : nat) (ops : list op) : list op * bool :=
  match fuel with
  | O => (ops, false)
  | S fuel =>
      match lea_fusion rm ops with
      | Some (l, rest) => let '(r, _) := amd64_round rm fuel rest in (l :: r, true)
      | None =>
          match ops with
          | [] => ([], false)
          | o :: rest => let '(r, c) := amd64_round rm fuel rest in (o :: r, c)
          end
      end
  end.
(** amd64.c:194-221 *)
Fixpoint amd64_rounds (rm : nat -> bool) (n : nat) (ops : list op) : list op :=
  match n with
  | O => ops
  | S n => let '(r, c) := amd64_round rm (length ops) ops in if c then amd64_rounds rm n r else r
  end.
(** amd64.c:183-233 *)
Definition amd64_block (live_out : list nat) (ops : list op) : list op :=
  amd64_rounds (can_remove live_out (fun x => occ x ops)) 5 ops.

(** ** arm64.c *)
(** lir.h:1346-1373 *)
Definition eliminable (o : op) : bool :=
  match o_code o with Move | Add | Sub | Mul | Elim _ => true | _ => false end.
Definition rm_out (rm : nat -> bool) (o : op) : bool :=
  match o_output o with Some t => match var_of t with Some x => rm x | None => false end | None => false end.
Definition is_const (o : option operand) : bool := match o with Some (OConst _ _) => true | _ => false end.

(** arm64.c:82-126 *)
Definition match1 (rm : nat -> bool) (a b : op) : option op :=
  if eliminable a && is_code (o_code b) Move
     && (is_var (o_output b) || is_reg (o_output b)) && is_var (o_first b) && is_var (o_output a)
     && negb (is_const (o_output a)) && operand_equal (o_output a) (o_first b) && rm_out rm a
  then Some (mk_op (o_code a) (o_first a) (o_second a) (o_addend a) (o_output b) (o_args a) (o_float a))
  else None.
(** arm64.c:22-71 *)
Definition match2 (rm : nat -> bool) (a b : op) : option op :=
  match o_first a with
  | Some x =>
      if is_code (o_code a) Move && eliminable b && is_var (o_output a) && rm_out rm a then
        if match o_second b with Some _ => operand_equal (o_second b) (o_output a) | None => false end then
          if operand_equal (o_output b) (Some x)
          then Some (mk_op (o_code b) (o_first b) (Some x) (o_addend b) (o_output b) (o_args b) (o_float b))
          else None
        else if match o_first b with Some _ => operand_equal (o_first b) (o_output a) | None => false end then
          if operand_equal (o_output b) (Some x)
          then Some (mk_op (o_code b) (Some x) (o_second b) (o_addend b) (o_output b) (o_args b) (o_float b))
          else None
        else None
      else None
  | None => None
  end.
(** arm64.c:138-163 *)
Definition move_elimination (rm : nat -> bool) (a b : op) : option op :=
  match match1 rm a b with Some o => Some o | None => match2 rm a b end.

(** 2.0 as a double; the code compares with the f32 constant for f32 variables *)
Definition two_bits : Z := 4611686018427387904.
(** arm64.c:178-197 *)
Definition const_two (o : option operand) : bool := match o with Some (OConst _ v) => Z.eqb v two_bits | _ => false end.
(** arm64.c:202-225 *)
Definition mov_two (o : op) : bool :=
  is_code (o_code o) Move && match o_first o with Some (OImm z) => Z.eqb z 2 | _ => false end && is_var (o_output o).
(** arm64.c:238-299: what is emitted and the rest *)
Definition strength (rm : nat -> bool) (ops : list op) : option (list op * list op) :=
  match ops with
  | [] => None
  | o :: rest =>
      let floats :=
        if is_code (o_code o) Mul then
          if const_two (o_first o) then
            Some ([mk_op Add (o_second o) (o_second o) (o_addend o) (o_output o) (o_args o) (o_float o)], rest)
          else if const_two (o_second o) then
            Some ([mk_op Add (o_first o) (o_first o) (o_addend o) (o_output o) (o_args o) (o_float o)], rest)
          else None
        else None in
      if mov_two o then
        match rest with
        | [] => None
        | m :: rest' =>
            if is_code (o_code m) Mul then
              let other := if operand_equal (o_first m) (o_output o) then o_second m
                           else if operand_equal (o_second m) (o_output o) then o_first m else None in
              match other with
              | Some x =>
                  let m' := mk_op Add (Some x) (Some x) (o_addend m) (o_output m) (o_args m) (o_float m) in
                  Some ((if rm_out rm o then [] else [o]) ++ [m'], rest')
              | None => floats
              end
            else None
        end
      else floats
  end.

(** arm64.c:355-373: SUB of an immediate becomes ADD of its negation.  [fneg] negates the bits of a float. *)
Definition fneg (v : Z) : Z := Z.lxor v 9223372036854775808.
Definition neg_imm (o : op) : op :=
  if is_code (o_code o) Sub then
    match o_second o with
    | Some (OImm z) => mk_op Add (o_first o) (Some (OImm (- z))) (o_addend o) (o_output o) (o_args o) (o_float o)
    | Some (OFimm v) => mk_op Add (o_first o) (Some (OFimm (fneg v))) (o_addend o) (o_output o) (o_args o) (o_float o)
    | _ => o
    end
  else o.
Inductive fused :=
| F_no (ops : list op)                          (* not applied; the block, where neg_imm may have struck *)
| F_yes (emit rest : list op) (fresh : nat)
| F_abort.                                      (* an assert of the compiler fails *)
(** arm64.c:326-461 peephole_fma_recognition; [fresh] is the next temporary *)
Definition fma (rm : nat -> bool) (fresh : nat) (ops : list op) : fused :=
  match ops with
  | mul :: next0 :: rest =>
      if is_code (o_code mul) Mul && is_var (o_output mul) && is_add_sub next0 && rm_out rm mul then
        let next := neg_imm next0 in
        let out := o_output mul in
        let isadd := is_code (o_code next) Add in
        let fl := o_float mul in
        let no := F_no (mul :: next :: rest) in
        let '(other, first) :=
          if operand_equal (o_first next) out then (o_second next, true)
          else if operand_equal (o_second next) out then (o_first next, false)
          else (None, false) in
        match other with
        | None => no
        | Some x =>
            if negb isadd && first && negb fl then no
            else
              let code := if isadd then (if fl then Fmadd else Madd)
                          else if first then Fnmsub else if fl then Fmsub else Msub in
              if is_var (o_first mul) && is_var (o_second mul) then
                if is_var (Some x) then
                  F_yes [mk_op code (o_first mul) (o_second mul) (Some x) (o_output next) (o_args next) (o_float next)] rest fresh
                else if negb fl then no
                else
                  F_yes [mk_op Move (Some x) None None (Some (OVar fresh)) [] true;
                         mk_op code (o_first mul) (o_second mul) (Some (OVar fresh)) (o_output next) (o_args next) (o_float next)]
                        rest (S fresh)
              else F_abort
        end
      else F_no ops
  | _ => F_no ops
  end.

(** arm64.c:482-507, one round: the new block, whether anything changed, the next temporary *)
Fixpoint arm64_round (rm : nat -> bool) (fuel fresh : nat) (ops : list op) : res (list op * bool * nat) :=
  match fuel with
  | O => match ops with [] => Ok ([], false, fresh) | _ => NoFuel end
  | S fuel =>
      match fma rm fresh ops with
      | F_abort => Abort
      | F_yes emit rest fresh' =>
          r <- arm64_round rm fuel fresh' rest ;; let '(l, _, f) := r in Ok (emit ++ l, true, f)
      | F_no ops =>
          match strength rm ops with
          | Some (emit, rest) => r <- arm64_round rm fuel fresh rest ;; let '(l, _, f) := r in Ok (emit ++ l, true, f)
          | None =>
              match ops with
              | [] => Ok ([], false, fresh)
              | a :: rest =>
                  match match rest with b :: rest' => match move_elimination rm a b with Some o => Some (o, rest') | None => None end | [] => None end with
                  | Some (o, rest') => r <- arm64_round rm fuel fresh rest' ;; let '(l, _, f) := r in Ok (o :: l, true, f)
                  | None => r <- arm64_round rm fuel fresh rest ;; let '(l, c, f) := r in Ok (a :: l, c, f)
                  end
              end
          end
      end
  end.
(** arm64.c:475-511 *)
Fixpoint arm64_rounds (rm : nat -> bool) (n fresh : nat) (ops : list op) : res (list op) :=
  match n with
  | O => Ok ops
  | S n => r <- arm64_round rm (length ops) fresh ops ;;
           let '(l, c, f) := r in if c then arm64_rounds rm n f l else Ok l
  end.
(** arm64.c:464-521 *)
Definition arm64_block (live_out : list nat) (fresh : nat) (ops : list op) : res (list op) :=
  arm64_rounds (can_remove live_out (fun x => occ x ops)) 5 fresh ops.
