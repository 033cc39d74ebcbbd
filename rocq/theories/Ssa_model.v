(** Model of the construction of the static single assignment form in the compiler: placing the phi functions and
    renaming the variables (src/ssa.c:237-285, 388-456, 515-697, 716-730).

    A function is given by its blocks (Live_model) and by the predecessors of each of them (Dom_model).  A variable
    is known by a number that stands for its old ident; the ident it is given, "x.s4", is the pair of the variable
    and the number behind the s.  Simplified: every operand is an object of its own, so that renaming one does not
    rename another, and the idents in the lists ssa_live_in and live_out, which only the debug output and the
    scheduler of instructions read, are not renamed here. *)
From Verif Require Import Base Dom_model Live_model.

(** ** placing the phi functions *)

(** the blocks that define v, once for every definition (ssa_var_blocks, src/ssa.c:438-449; the lookup that is to
    avoid duplicates asks another table than the one that is written) *)
Definition defs_of (v : var) (o : op) : list var := filter (Nat.eqb v) (defs o).
Definition var_blocks (c : program) (v : var) : list nat :=
  flat_map (fun b => flat_map (fun o => map (fun _ => b) (defs_of v o)) (ops (block_of c b))) (seq 0 (length c)).

(** the variables read in some block before they are defined there (ssa_globals, src/ssa.c:417-421) *)
Definition globals (c : program) : list var :=
  fold_left (fun acc b => add_new (fst (use_def b)) [] acc) c [].

(** the blocks of the frontier of one block (src/ssa.c:250-277): the list of work, the blocks that have a phi for
    v, and the variables with a phi in every block, the first phi of the block first *)
Fixpoint place_df (ds : list nat) (inn : sets) (v : var) (work inserted : list nat) (ph : sets) : list nat * list nat * sets :=
  match ds with
  | [] => (work, inserted, ph)
  | d :: ds =>
      if mem d inserted then place_df ds inn v work inserted ph
      else if negb (mem v (get inn d)) then place_df ds inn v work inserted ph
      else place_df ds inn v (work ++ [d]) (d :: inserted) (put ph d (v :: get ph d))
  end.

(** the work list of one variable (src/ssa.c:248-279) *)
Fixpoint place (fuel : nat) (df inn : sets) (v : var) (work inserted : list nat) (ph : sets) : res (list nat * sets) :=
  match work with
  | [] => Ok (inserted, ph)
  | b :: work =>
      match fuel with
      | O => NoFuel
      | S fuel => let '(work, inserted, ph) := place_df (get df b) inn v work inserted ph in place fuel df inn v work inserted ph
      end
  end.

(** ssa_add_phi (src/ssa.c:237-285): the variables with a phi in every block, and the variables that got one
    anywhere (added_phi_globals); a variable that is read and never defined aborts *)
Fixpoint add_phi (c : program) (df inn : sets) (vs : list var) (ph : sets) (added : list var) : res (sets * list var) :=
  match vs with
  | [] => Ok (ph, added)
  | v :: vs =>
      match var_blocks c v with
      | [] => Abort
      | work =>
          ' (inserted, ph) <- place (length work + length c) df inn v work [] ph ;;
          add_phi c df inn vs ph (match inserted with [] => added | _ => added ++ [v] end)
      end
  end.

(** ** renaming *)

(** an operation with renamed operands *)
Record rop := mk_rop { rcode : Z; ruses : list (var * Z); rdefs : list (var * Z) }.
(** a block: the outputs of its phi functions, and the other operations *)
Record rblock := mk_rblock { rphis : list (var * Z); rops : list rop }.

(** var_number_table, stack_table (a variable without a stack is not defined anywhere; the top of a stack first),
    the blocks renamed so far, and the arguments named so far: the phi for v in block s has for its predecessor p
    the argument v.k *)
Record arg := mk_arg { arg_block : nat; arg_var : var; arg_pred : nat; arg_number : Z }.
Record state := mk_state { number : var -> Z; stack : var -> option (list Z); done : list (nat * rblock); args : list arg }.
Definition update {A} (f : var -> A) (v : var) (x : A) : var -> A := fun w => if Nat.eqb w v then x else f w.

(** ssa_new_var_number (src/ssa.c:669-682): the number goes up by two; the numbers of a stack are bytes, and there
    is room for 255 (src/ssa.h:25-28) *)
Definition new_number (v : var) (st : state) : res (Z * state) :=
  match stack st v with
  | None => Abort
  | Some l =>
      if 255 <=? zlen l then UB
      else
        let k := number st v in
        Ok (k, mk_state (update (number st) v (u64 (k + 2))) (update (stack st) v (Some (u8 k :: l))) (done st) (args st))
  end.

(** ssa_rename_var (src/ssa.c:684-693) *)
Definition rename_var (v : var) (k : Z) : res (var * Z) := if k <? 255 then Ok (v, k) else Abort.

(** the phi functions of a block (src/ssa.c:557-563) *)
Fixpoint rename_phis (vs : list var) (st : state) : res (list (var * Z) * state) :=
  match vs with
  | [] => Ok ([], st)
  | v :: vs =>
      ' (k, st) <- new_number v st ;;
      n <- rename_var v k ;;
      ' (ns, st) <- rename_phis vs st ;;
      Ok (n :: ns, st)
  end.

(** the variables an operation uses (src/ssa.c:566-574); an empty stack is read before its beginning *)
Fixpoint rename_uses (vs : list var) (st : state) : res (list (var * Z)) :=
  match vs with
  | [] => Ok []
  | v :: vs =>
      match stack st v with
      | None => Abort
      | Some [] => UB
      | Some (k :: _) => n <- rename_var v k ;; ns <- rename_uses vs st ;; Ok (n :: ns)
      end
  end.

(** the variables an operation defines (src/ssa.c:576-582); the number becomes a byte *)
Fixpoint rename_defs (vs : list var) (st : state) : res (list (var * Z) * state) :=
  match vs with
  | [] => Ok ([], st)
  | v :: vs =>
      ' (k, st) <- new_number v st ;;
      n <- rename_var v (u8 k) ;;
      ' (ns, st) <- rename_defs vs st ;;
      Ok (n :: ns, st)
  end.

(** the operations of a block (src/ssa.c:554-585) *)
Fixpoint rename_ops (l : list op) (st : state) : res (list rop * state) :=
  match l with
  | [] => Ok ([], st)
  | o :: l =>
      us <- rename_uses (uses o) st ;;
      ' (ds, st) <- rename_defs (defs o) st ;;
      ' (os, st) <- rename_ops l st ;;
      Ok (mk_rop (code o) us ds :: os, st)
  end.

(** ssa_phi_body_of (src/ssa.c:716-730): the last place of block b among the predecessors *)
Fixpoint place_of (ps : list nat) (b : nat) (i : nat) (found : option nat) : option nat :=
  match ps with
  | [] => found
  | p :: ps => place_of ps b (S i) (if Nat.eqb p b then Some i else found)
  end.

(** the phi functions of a successor s of block b (src/ssa.c:612-625); an argument that has a name already is not
    found in the table; a phi has as many arguments as the number of predecessors says, which is a byte
    (lir_new_phi_body, src/lir.h:1181-1192) *)
Definition named (l : list arg) (s : nat) (v : var) (p : nat) : bool :=
  existsb (fun a => Nat.eqb (arg_block a) s && Nat.eqb (arg_var a) v && Nat.eqb (arg_pred a) p) l.
Fixpoint name_phis (g : graph) (b s : nat) (vs : list var) (st : state) : res state :=
  match vs with
  | [] => Ok st
  | v :: vs =>
      match place_of (preds g s) b 0 None with
      | None => Abort
      | Some i =>
          if u8 (zlen (preds g s)) <=? Z.of_nat i then Abort
          else if named (args st) s v b then Abort
          else
            match stack st v with
            | None => Abort
            | Some [] => Abort
            | Some (k :: _) =>
                n <- rename_var v k ;;
                name_phis g b s vs (mk_state (number st) (stack st) (done st) (args st ++ [mk_arg s v b (snd n)]))
            end
      end
  end.
(** the successors of block b (src/ssa.c:606-626) *)
Fixpoint name_args (g : graph) (ph : sets) (b : nat) (ss : list nat) (st : state) : res state :=
  match ss with
  | [] => Ok st
  | s :: ss => st <- name_phis g b s (get ph s) st ;; name_args g ph b ss st
  end.

(** the stacks are popped for the variables that got a phi anywhere (src/ssa.c:638-657); the number of elements is
    a byte that is not checked *)
Fixpoint pop (vs : list var) (added : list var) (st : state) : res state :=
  match vs with
  | [] => Ok st
  | v :: vs =>
      if mem v added then
        match stack st v with
        | None => Abort
        | Some [] => UB
        | Some (_ :: l) => pop vs added (mk_state (number st) (update (stack st) v (Some l)) (done st) (args st))
        end
      else pop vs added st
  end.

(** the children of a block in the tree of dominators (src/ssa.c:629-631) *)
Fixpoint rename_all (f : nat -> state -> res state) (l : list nat) (st : state) : res state :=
  match l with
  | [] => Ok st
  | b :: l => st <- f b st ;; rename_all f l st
  end.

(** ssa_rename_block (src/ssa.c:538-658) *)
Fixpoint rename_block (fuel : nat) (g : graph) (c : program) (im : list (option nat)) (ph : sets) (added : list var) (b : nat) (st : state) : res state :=
  match fuel with
  | O => NoFuel
  | S fuel =>
      ' (ns, st) <- rename_phis (get ph b) st ;;
      ' (os, st) <- rename_ops (ops (block_of c b)) st ;;
      let st := mk_state (number st) (stack st) (done st ++ [(b, mk_rblock ns os)]) (args st) in
      st <- name_args g ph b (succs (block_of c b)) st ;;
      st <- rename_all (rename_block fuel g c im ph added) (imm_domees im b) st ;;
      pop (get ph b ++ flat_map defs (ops (block_of c b))) added st
  end.

(** ssa_rename (src/ssa.c:517-536): a variable that is defined somewhere has an empty stack *)
Definition rename (g : graph) (c : program) (im : list (option nat)) (ph : sets) (added : list var) : res state :=
  let defined v := existsb (fun b => existsb (fun o => mem v (defs o)) (ops b)) c in
  rename_block (S (length c)) g c im ph added 0 (mk_state (fun _ => 0) (fun v => if defined v then Some [] else None) [] []).

(** the passes in their order (ssa, src/ssa.c:68-95): the renamed blocks and the arguments of the phi functions *)
Definition ssa (fuel : nat) (g : graph) (c : program) : res (list (nat * rblock) * list arg) :=
  d <- domers g ;;
  im <- imm_domers g d ;;
  df <- dominance_frontiers g im ;;
  ' (_, inn) <- live fuel c ;;
  ' (ph, added) <- add_phi c df inn (globals c) (repeat [] (length c)) [] ;;
  st <- rename g c im ph added ;;
  Ok (done st, args st).
