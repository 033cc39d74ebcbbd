(** Model of the construction of the control flow graph in the compiler (src/cfg.c): cutting the linear code of a
    function into blocks, removing blocks that cannot be reached, merging blocks, splitting critical edges, and the
    check that every way through the function returns.

    A label is known by a number that stands for its ident; idents made by label_ident_with_unique are the numbers
    from a counter on.  A block is known by the name of its label (in C by its address; the names are different).
    Simplified: every operand of a jump is an object of its own.  Not modelled: ret_check (src/cfg.c:131-193), the
    same kind of check for match and catch. *)
From Verif Require Import Base.

(** an operation; k stands for everything that is not looked at here *)
Inductive instr :=
| Label (n : nat)            (* LIR_OPCODE_LABEL *)
| Bal (n : nat)              (* LIR_OPCODE_BAL: jump *)
| Branch (k : Z) (n : nat)   (* LIR_OPCODE_BEE .. BULE: jump if a comparison holds (lir_op_branch_cmp, src/lir.h:1200-1206) *)
| Return (k : Z)             (* LIR_OPCODE_RETURN: sets the result, does not jump (src/types.h:499) *)
| Plain (k : Z)              (* everything else *)
| End.                       (* LIR_OPCODE_FN_END: leaves the function *)

(** lir_op_branch (src/lir.h:1208-1210) *)
Definition is_branch (i : instr) : bool := match i with Bal _ | Branch _ _ => true | _ => false end.
Definition is_label (i : instr) : bool := match i with Label _ => true | _ => false end.

(** basic_block_t: name, operations, succs, preds *)
Record bb := mk_bb { bname : nat; bops : list instr; bsuccs : list nat; bpreds : list nat }.

(** ** cfg_build *)

(** a block ends where the label n begins (src/cfg.c:262-284): a comparison that jumps to n is removed, and
    if the last operation is not a jump, one is added.  The operations of the block come last first. *)
Definition close (n : nat) (r : list instr) : list instr :=
  let r := match r with Branch _ t :: r' => if Nat.eqb t n then r' else r | _ => r end in
  match r with Bal _ :: _ => r | _ => Bal n :: r end.

(** what the operation before was: after a jump, the next operation must be a label, or one is inserted
    (src/cfg.c:294-322); jumps right after an unconditional jump are removed *)
Inductive mode := Normal | AfterBranch | AfterBal.
Definition mode_after (i : instr) : mode := match i with Bal _ => AfterBal | Branch _ _ => AfterBranch | _ => Normal end.

(** the loop over the operations (src/cfg.c:244-327): n and r are the current block and its operations, last
    first, acc the blocks before; next is the number of the next unique ident.  A jump at the end of the code looks
    at the operation of the empty node behind it. *)
Fixpoint build (code : list instr) (md : mode) (n : nat) (r : list instr) (acc : list bb) (next : nat) : res (list bb * nat) :=
  match code with
  | [] => match md with Normal => Ok (acc ++ [mk_bb n (rev r) [] []], next) | _ => UB end
  | Label m :: code => build code Normal m [Label m] (acc ++ [mk_bb n (rev (close m r)) [] []]) next
  | i :: code =>
      match md with
      | Normal => build code (mode_after i) n (i :: r) acc next
      | AfterBranch => build code (mode_after i) next [i; Label next] (acc ++ [mk_bb n (rev (close next r)) [] []]) (S next)
      | AfterBal =>
          if is_branch i then build code AfterBal n r acc next
          else build code (mode_after i) next [i; Label next] (acc ++ [mk_bb n (rev (close next r)) [] []]) (S next)
      end
  end.

(** a block changes *)
Definition upd (bs : list bb) (n : nat) (f : bb -> bb) : list bb := map (fun b => if Nat.eqb (bname b) n then f b else b) bs.
Definition find_bb (bs : list bb) (n : nat) : option bb := find (fun b => Nat.eqb (bname b) n) bs.
Definition set_succs (b : bb) (l : list nat) : bb := mk_bb (bname b) (bops b) l (bpreds b).
Definition set_preds (b : bb) (l : list nat) : bb := mk_bb (bname b) (bops b) (bsuccs b) l.
Definition set_ops (b : bb) (l : list instr) : bb := mk_bb (bname b) l (bsuccs b) (bpreds b).

(** an edge (src/cfg.c:339-343, 349-353) *)
Definition add_edge (bs : list bb) (b t : nat) : res (list bb) :=
  match find_bb bs t with
  | None => Abort
  | Some _ => Ok (upd (upd bs b (fun x => set_succs x (bsuccs x ++ [t]))) t (fun x => set_preds x (bpreds x ++ [b])))
  end.

(** the edges of all blocks (src/cfg.c:331-354) *)
Fixpoint link (todo : list bb) (bs : list bb) : res (list bb) :=
  match todo with
  | [] => Ok bs
  | b :: todo =>
      match rev (bops b) with
      | Bal t :: rest =>
          bs <- add_edge bs (bname b) t ;;
          match rest with
          | (Branch _ t2 | Bal t2) :: _ => bs <- add_edge bs (bname b) t2 ;; link todo bs
          | _ => link todo bs
          end
      | _ => link todo bs
      end
  end.

(** cfg_build (src/cfg.c:234-355) *)
Definition cfg_build (code : list instr) (next : nat) : res (list bb * nat) :=
  match code with
  | [] => UB
  | Label n :: code =>
      ' (bs, next) <- build code Normal n [Label n] [] next ;;
      bs <- link bs bs ;;
      Ok (bs, next)
  | _ => Abort
  end.

(** ** cfg_pruning (src/cfg.c:8-65) *)
Definition has (n : nat) (l : list nat) : bool := existsb (Nat.eqb n) l.
Definition succs_of (bs : list bb) (n : nat) : list nat := match find_bb bs n with Some b => bsuccs b | None => [] end.
Definition preds_of (bs : list bb) (n : nat) : list nat := match find_bb bs n with Some b => bpreds b | None => [] end.
(** the successors of a block that have not been seen (src/cfg.c:19-25) *)
Fixpoint visit (ss : list nat) (q seen : list nat) : list nat * list nat :=
  match ss with
  | [] => (q, seen)
  | s :: ss => if has s seen then visit ss q seen else visit ss (q ++ [s]) (seen ++ [s])
  end.
Fixpoint reach (fuel : nat) (bs : list bb) (q seen : list nat) : res (list nat) :=
  match q with
  | [] => Ok seen
  | b :: q =>
      match fuel with
      | O => NoFuel
      | S fuel => let (q, seen) := visit (succs_of bs b) q seen in reach fuel bs q seen
      end
  end.

(** slice_remove of the first place that holds n (src/cfg.c:39-44, 51-56) *)
Fixpoint remove_first (n : nat) (l : list nat) : list nat :=
  match l with
  | [] => []
  | x :: l => if Nat.eqb x n then l else x :: remove_first n l
  end.
(** a block that is not reached is taken out of the lists of its neighbours (src/cfg.c:33-57) *)
Definition unlink (bs : list bb) (n : nat) : list bb :=
  let bs := fold_left (fun bs p => upd bs p (fun x => set_succs x (remove_first n (bsuccs x)))) (preds_of bs n) bs in
  fold_left (fun bs s => upd bs s (fun x => set_preds x (remove_first n (bpreds x)))) (succs_of bs n) bs.
Definition prune (bs : list bb) : res (list bb) :=
  match bs with
  | [] => UB
  | entry :: _ =>
      seen <- reach (S (length bs)) bs [bname entry] [bname entry] ;;
      let bs' := fold_left (fun bs b => if has (bname b) seen then bs else unlink bs (bname b)) bs bs in
      Ok (filter (fun b => has (bname b) seen) bs')
  end.

(** ** cfg_merge_blocks (src/cfg.c:362-425) *)
Definition drop_bal (l : list instr) : list instr := match rev l with Bal _ :: r => rev r | _ => l end.
(** src/cfg.c:371-383: end is the label of the end of the function, keep the labels of match *)
Definition can_merge (fn_end : nat) (keep : nat -> bool) (b next : bb) : bool :=
  match bsuccs b with [s] => Nat.eqb s (bname next) | _ => false end &&
  Nat.eqb (length (bpreds next)) 1 && negb (Nat.eqb (bname next) fn_end) && negb (keep (bname next)).
(** the first pair that can be merged (src/cfg.c:366-421) *)
Fixpoint merge_one (fn_end : nat) (keep : nat -> bool) (pre rest : list bb) : option (list bb) :=
  match rest with
  | b :: ((next :: rest') as tl) =>
      if can_merge fn_end keep b next then
        let b' := mk_bb (bname b) (drop_bal (bops b) ++ filter (fun i => negb (is_label i)) (bops next)) (bsuccs next) (bpreds b) in
        Some (fold_left (fun bs s => upd bs s (fun x => set_preds x (map (fun p => if Nat.eqb p (bname next) then bname b else p) (bpreds x))))
                (bsuccs next) (pre ++ b' :: rest'))
      else merge_one fn_end keep (pre ++ [b]) tl
  | _ => None
  end.
Fixpoint merge (fuel : nat) (fn_end : nat) (keep : nat -> bool) (bs : list bb) : res (list bb) :=
  match merge_one fn_end keep [] bs with
  | None => Ok bs
  | Some bs => match fuel with O => NoFuel | S fuel => merge fuel fn_end keep bs end
  end.

(** ** broken_critical_edges (src/cfg.c:67-122) *)
(** the jump of p to b goes to n (src/cfg.c:103-117) *)
Definition turn (b n : nat) (i : instr) : instr :=
  match i with
  | Bal t => if Nat.eqb t b then Bal n else i
  | Branch k t => if Nat.eqb t b then Branch k n else i
  | _ => i
  end.
Definition retarget (b n : nat) (l : list instr) : res (list instr) :=
  match rev l with
  | Bal t :: x :: r => Ok (rev (turn b n (Bal t) :: turn b n x :: r))
  | Bal t :: r => Ok (rev (turn b n (Bal t) :: r))
  | _ => Abort
  end.
Definition split_edge (bs : list bb) (p b n : nat) : res (list bb) :=
  let bs := bs ++ [mk_bb n [Label n; Bal b] [b] [p]] in
  let bs := upd bs b (fun x => set_preds x (bpreds x ++ [n])) in
  let bs := upd bs p (fun x => set_succs x (bsuccs x ++ [n])) in
  let bs := upd bs p (fun x => set_succs x (remove_first b (bsuccs x))) in
  let bs := upd bs b (fun x => set_preds x (remove_first p (bpreds x))) in
  match find_bb bs p with
  | None => UB
  | Some x => ops <- retarget b n (bops x) ;; Ok (upd bs p (fun x => set_ops x ops))
  end.
(** the loop over the predecessors of b, which changes the list it goes through (src/cfg.c:70-119) *)
Fixpoint split_preds (fuel : nat) (i : nat) (b : nat) (bs : list bb) (next : nat) : res (list bb * nat) :=
  match nth_error (preds_of bs b) i with
  | None => Ok (bs, next)
  | Some p =>
      match fuel with
      | O => NoFuel
      | S fuel =>
          if (1 <? zlen (preds_of bs b)) && (1 <? zlen (succs_of bs p)) then
            bs <- split_edge bs p b next ;; split_preds fuel (S i) b bs (S next)
          else split_preds fuel (S i) b bs next
      end
  end.
(** the loop over the blocks, to which new ones are added (src/cfg.c:68-69) *)
Fixpoint split_blocks (fuel : nat) (i : nat) (bs : list bb) (next : nat) : res (list bb * nat) :=
  match nth_error bs i with
  | None => Ok (bs, next)
  | Some b =>
      match fuel with
      | O => NoFuel
      | S fuel =>
          ' (bs, next) <- split_preds (length (bpreds b)) 0 (bname b) bs next ;;
          split_blocks fuel (S i) bs next
      end
  end.
Definition split (bs : list bb) (next : nat) : res (list bb * nat) :=
  split_blocks (length bs + length (flat_map bpreds bs)) 0 bs next.

(** ** return_check (src/cfg.c:201-232); the labels handled so far are shared; Throw is the compile error *)
Definition has_return (l : list instr) : bool := existsb (fun i => match i with Return _ => true | _ => false end) l.
Fixpoint check_all (f : nat -> list nat -> res (list nat)) (l : list nat) (handled : list nat) : res (list nat) :=
  match l with
  | [] => Ok handled
  | s :: l => handled <- f s handled ;; check_all f l handled
  end.
Fixpoint return_check (fuel : nat) (bs : list bb) (fn_end : nat) (b : nat) (handled : list nat) : res (list nat) :=
  match fuel with
  | O => NoFuel
  | S fuel =>
      if has b handled then Ok handled
      else
        match find_bb bs b with
        | None => UB
        | Some x =>
            if has_return (bops x) then Ok (b :: handled)
            else if Nat.eqb b fn_end then Throw
            else check_all (return_check fuel bs fn_end) (bsuccs x) (b :: handled)
        end
  end.

(** cfg (src/cfg.c:464-491); a function without a result is not checked *)
Definition cfg (void : bool) (fn_end : nat) (keep : nat -> bool) (code : list instr) (next : nat) : res (list bb) :=
  ' (bs, next) <- cfg_build code next ;;
  bs <- prune bs ;;
  bs <- merge (length bs) fn_end keep bs ;;
  ' (bs, _) <- split bs next ;;
  match bs with
  | [] => UB
  | entry :: _ =>
      _ <- (if void then Ok [] else return_check (S (length bs)) bs fn_end (bname entry) []) ;;
      Ok bs
  end.
