(** The order of instructions inside a basic block: src/schedule.c.

    Simplifications: opcodes the file treats alike are one constructor with a number; variables,
    registers (the full register a name is part of: schedule.c:19-29) and global symbols are numbers;
    the base and the index of an indirect address are variables (an address based on the stack
    register, which no instruction of a block writes, has none); whether the result is floating point
    is part of the instruction; tables are functions, nodes are their position in the segment. *)
From Verif Require Import Base.
Local Open Scope nat_scope.

Inductive opcode :=
| Label | Phi | Safepoint | FnBegin | FnEnd
| Call | RtCall
| Branch (k : nat)                    (* BAL and the compare-and-branch codes *)
| Ret | Return
| Div (k : nat)                       (* SDIV UDIV SREM UREM *)
| Mul (k : nat)                       (* MUL, MADD and its relatives *)
| AddSub (k : nat)
| Neg
| Convert (k : nat)                   (* FTOSI FTOUI SITOF UITOF FTRUNC FEXT *)
| Bits (k : nat)                      (* AND OR XOR NOT and shifts *)
| SetCmp (k : nat)                    (* SLT ... USGE *)
| Nop
| Other (k : nat).                    (* MOVE, LEA, CLR, extensions, ... *)

Inductive operand :=
| OVar (x : nat)
| OReg (r : nat)
| ORegs (rs : list nat)
| OImm (z : Z)
| OSym (g : nat)
| OInd (vs : list nat).               (* indirect address; its base and index *)

Record op := mk_op {
  o_code : opcode;
  o_first : option operand; o_second : option operand; o_addend : option operand;
  o_output : option operand;
  o_float : bool }.

(** ** Operands (lir.h:456-521, 632-694, 1384-1428) *)
Definition is_ind (o : option operand) : bool := match o with Some (OInd _) => true | _ => false end.
Definition vars_of (o : option operand) : list nat :=
  match o with Some (OVar x) => [x] | Some (OInd vs) => vs | _ => [] end.
Definition regs_of (o : option operand) : list nat :=
  match o with Some (OReg r) => [r] | Some (ORegs rs) => rs | _ => [] end.
(** Everything is used except a variable or register in the place of the result. *)
Definition var_uses (o : op) : list nat :=
  match o_output o with Some (OInd vs) => vs | _ => [] end
  ++ vars_of (o_first o) ++ vars_of (o_second o) ++ vars_of (o_addend o).
Definition var_defs (o : op) : list nat := match o_output o with Some (OVar x) => [x] | _ => [] end.
Definition reg_uses (o : op) : list nat :=
  regs_of (o_first o) ++ regs_of (o_second o) ++ regs_of (o_addend o).
Definition reg_defs (o : op) : list nat := regs_of (o_output o).

Definition is_call (o : op) : bool := match o_code o with Call | RtCall => true | _ => false end.
(** schedule.c:34-47 *)
Definition mem_read (o : op) : bool := is_ind (o_first o) || is_ind (o_second o) || is_call o.
(** schedule.c:52-62 *)
Definition mem_write (o : op) : bool := is_ind (o_output o) || is_call o.
(** schedule.c:68-88 *)
Definition fixed (o : op) : bool :=
  match o_code o with
  | Label | Phi | Safepoint | FnBegin | FnEnd | Call | RtCall | Branch _ | Ret | Return => true
  | _ => false
  end.

(** schedule.c:129-207 *)
Definition latency (o : op) : nat :=
  match o_code o with
  | Div _ => if o_float o then 15 else 20
  | Mul _ => 4
  | AddSub _ | Neg => if o_float o then 3 else 1
  | Call | RtCall => 10
  | Convert _ => 3
  | Bits _ => 1
  | SetCmp _ => if o_float o then 2 else 1
  | _ => if mem_read o then 4 else 1
  end.
(** schedule.c:213-277 with schedule.h:13-26 *)
Definition score (o : op) : nat :=
  match o_code o with
  | Phi => 1
  | Label => 0
  | FnBegin => 2
  | FnEnd => 11
  | Safepoint => 3
  | Branch _ | Ret | Return => 10
  | SetCmp _ => 9
  | Call | RtCall => 7
  | Nop => 4
  | _ => if mem_write o then 7 else if mem_read o then 6 else 8
  end.

(** ** Dependencies: pairs (before, after), oldest first *)
Definition edges := list (nat * nat).
Definition has_edge (a b : nat) (es : edges) : bool :=
  existsb (fun e => Nat.eqb (fst e) a && Nat.eqb (snd e) b) es.
(** schedule.c:299-311 *)
Definition add_dep (a b : nat) (es : edges) : edges :=
  if Nat.eqb a b then es else if has_edge a b es then es else es ++ [(a, b)].
(** The same where the first node comes from a table: schedule.c:378-380, 401-403, ... *)
Definition add_from (t : option nat) (b : nat) (es : edges) : edges :=
  match t with Some a => add_dep a b es | None => es end.

Definition table := nat -> option nat.
Definition set (t : table) (k v : nat) : table := fun x => if Nat.eqb x k then Some v else t x.

(** schedule_ctx_t (schedule.h:46-55) *)
Record deps := mk_deps {
  d_var : table; d_reg : table; d_use : table; d_mem : option nat; d_edges : edges }.
Definition no_deps : deps := mk_deps (fun _ => None) (fun _ => None) (fun _ => None) None [].

(** schedule.c:374-382 *)
Definition dep_var_use (i : nat) (d : deps) (x : nat) : deps :=
  mk_deps (d_var d) (d_reg d) (d_use d) (d_mem d) (add_from (d_var d x) i (d_edges d)).
(** schedule.c:385-389 *)
Definition dep_var_def (i : nat) (d : deps) (x : nat) : deps :=
  mk_deps (set (d_var d) x i) (d_reg d) (d_use d) (d_mem d) (d_edges d).
(** schedule.c:394-406 *)
Definition dep_reg_use (i : nat) (d : deps) (r : nat) : deps :=
  mk_deps (d_var d) (d_reg d) (set (d_use d) r i) (d_mem d) (add_from (d_reg d r) i (d_edges d)).
(** schedule.c:410-429 *)
Definition dep_reg_def (i : nat) (d : deps) (r : nat) : deps :=
  mk_deps (d_var d) (set (d_reg d) r i) (d_use d) (d_mem d)
    (add_from (d_use d r) i (add_from (d_reg d r) i (d_edges d))).
(** schedule.c:432-439 *)
Definition dep_mem (i : nat) (o : op) (d : deps) : deps :=
  if mem_read o || mem_write o
  then mk_deps (d_var d) (d_reg d) (d_use d) (Some i) (add_from (d_mem d) i (d_edges d))
  else d.
Definition dep_op (i : nat) (o : op) (d : deps) : deps :=
  dep_mem i o
    (fold_left (dep_reg_def i) (reg_defs o)
      (fold_left (dep_reg_use i) (reg_uses o)
        (fold_left (dep_var_def i) (var_defs o)
          (fold_left (dep_var_use i) (var_uses o) d)))).
(** schedule.c:367-441 *)
Fixpoint build (i : nat) (ops : list op) (d : deps) : deps :=
  match ops with
  | [] => d
  | o :: ops' => build (S i) ops' (dep_op i o d)
  end.

Definition succs (es : edges) (i : nat) : list nat := map snd (filter (fun e => Nat.eqb (fst e) i) es).
Definition preds (es : edges) (i : nat) : list nat := map fst (filter (fun e => Nat.eqb (snd e) i) es).

(** schedule.c:447-480; the numbers the recursion with memory arrives at.  Edges go forward, so the
    number of nodes is enough. *)
Fixpoint priority (fuel : nat) (es : edges) (lat : nat -> nat) (i : nat) : nat :=
  match fuel with
  | O => lat i
  | S f => lat i + fold_right Nat.max 0 (map (priority f es lat) (succs es i))
  end.

(** What is compared: schedule_node_t *)
Record node := mk_node { n_id : nat; n_score : nat; n_prio : nat; n_lat : nat }.
(** schedule.c:317-333 *)
Definition less (a b : node) : bool :=
  if negb (Nat.eqb (n_score a) (n_score b)) then Nat.ltb (n_score a) (n_score b)
  else if negb (Nat.eqb (n_prio a) (n_prio b)) then Nat.ltb (n_prio b) (n_prio a)
  else if negb (Nat.eqb (n_lat a) (n_lat b)) then Nat.ltb (n_lat b) (n_lat a)
  else Nat.ltb (n_id a) (n_id b).

(** schedule.c:338-361; [info] gives the node of an index. *)
Fixpoint best (info : nat -> node) (b : nat) (l : list nat) : nat :=
  match l with
  | [] => b
  | x :: l' => best info (if less (info x) (info b) then x else b) l'
  end.
Fixpoint remove_first (x : nat) (l : list nat) : list nat :=
  match l with
  | [] => []
  | y :: l' => if Nat.eqb y x then l' else y :: remove_first x l'
  end.

(** schedule.c:503-509: the loop over the successors; [cnt] is dep_count. *)
Fixpoint release (done : list nat) (ss : list nat) (cnt : nat -> nat) (ready : list nat) : (nat -> nat) * list nat :=
  match ss with
  | [] => (cnt, ready)
  | s :: ss' =>
      let c := pred (cnt s) in
      release done ss' (fun x => if Nat.eqb x s then c else cnt x)
        (if Nat.eqb c 0 && negb (existsb (Nat.eqb s) done) then ready ++ [s] else ready)
  end.
(** schedule.c:496-510; [done] is the result, latest first. *)
Fixpoint execute (fuel : nat) (es : edges) (info : nat -> node) (cnt : nat -> nat) (ready done : list nat) : res (list nat) :=
  match ready with
  | [] => Ok (rev done)
  | r :: ready' =>
      match fuel with
      | O => NoFuel
      | S f =>
          let b := best info r ready' in
          let '(cnt', ready2) := release (b :: done) (succs es b) cnt (remove_first b ready) in
          execute f es info cnt' ready2 (b :: done)
      end
  end.

Definition no_op : op := mk_op Nop None None None None false.
(** schedule.c:486-516 *)
Definition order (ops : list op) : res (list nat) :=
  let n := length ops in
  let es := d_edges (build 0 ops no_deps) in
  let lat i := latency (nth i ops no_op) in
  let prios := map (priority n es lat) (seq 0 n) in
  let info i := mk_node i (score (nth i ops no_op)) (nth i prios 0) (lat i) in
  let cnt i := length (preds es i) in
  out <- execute n es info cnt (filter (fun i => Nat.eqb (cnt i) 0) (seq 0 n)) [] ;;
  if Nat.eqb (length out) n then Ok out else Abort.

(** schedule.c:525-566 *)
Definition segment (ops : list op) : res (list op) :=
  if Nat.leb (length ops) 2 then Ok ops
  else out <- order ops ;; Ok (map (fun i => nth i ops no_op) out).

(** schedule.c:579-606; [seg] is the segment collected so far, latest first. *)
Fixpoint segments (ops seg : list op) : res (list op) :=
  match ops with
  | [] => segment (rev seg)
  | o :: ops' =>
      if fixed o then
        s <- segment (rev seg) ;; r <- segments ops' [] ;; Ok (s ++ o :: r)
      else segments ops' (o :: seg)
  end.
(** schedule.c:574-613 *)
Definition block (ops : list op) : res (list op) :=
  if Nat.leb (length ops) 1 then Ok ops else segments ops [].
