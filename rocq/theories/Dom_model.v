(** Model of the dominator analysis of the compiler (src/ssa.c:28-200, 464-518).

    The blocks of a function are numbered from 0 in the order of c->blocks (src/cfg.c:476-480), block 0 is the
    entry.  A basic_block_t is known here by its number; a graph gives the list of predecessors of every block
    (basic_block_t.preds), in the order of the slice.  A slice of blocks is a list of numbers. *)
From Verif Require Import Base.

Definition graph := list (list nat).
Definition preds (g : graph) (b : nat) : list nat := nth b g [].

(** the domers of every block *)
Definition sets := list (list nat).
Definition get (d : sets) (b : nat) : list nat := nth b d [].
Fixpoint put (d : sets) (b : nat) (s : list nat) : sets :=
  match d, b with
  | [], _ => []
  | _ :: d, O => s :: d
  | x :: d, S b => x :: put d b s
  end.

(** block_label_count[id]++ (src/ssa.c:501-503) *)
Fixpoint bump (counts : list nat) (id : nat) : list nat :=
  match counts, id with
  | [], _ => []
  | c :: counts, O => S c :: counts
  | c :: counts, S id => c :: bump counts id
  end.

(** src/ssa.c:485-518; block_label_count has UINT16_MAX entries, so that more blocks write behind it *)
Definition calc_dom_blocks (g : graph) (d : sets) (b : nat) : res (list nat) :=
  if 65535 <? zlen g then UB
  else
    let counts := fold_left (fun counts p => fold_left bump (get d p) counts) (preds g b) (repeat O (length g)) in
    Ok (filter (fun id => Nat.eqb (nth id counts O) (length (preds g b)) || Nat.eqb id b) (seq 0 (length g))).

(** src/ssa.c:464-476 *)
Fixpoint dom_changed (old new : list nat) : bool :=
  match old, new with
  | [], [] => false
  | x :: old, y :: new => negb (Nat.eqb x y) || dom_changed old new
  | _, _ => true
  end.

(** one round of the loop of ssa_domers over the blocks ids (src/ssa.c:123-133) *)
Fixpoint dom_round (g : graph) (ids : list nat) (d : sets) (changed : bool) : res (sets * bool) :=
  match ids with
  | [] => Ok (d, changed)
  | id :: ids =>
      new <- calc_dom_blocks g d id ;;
      if dom_changed (get d id) new then dom_round g ids (put d id new) true else dom_round g ids d changed
  end.
Fixpoint dom_rounds (fuel : nat) (g : graph) (d : sets) : res sets :=
  match fuel with
  | O => NoFuel
  | S fuel =>
      ' (d, changed) <- dom_round g (seq 1 (length g - 1)) d false ;;
      if changed : bool then dom_rounds fuel g d else Ok d
  end.

(** ssa_domers (src/ssa.c:101-135) *)
Definition domers (g : graph) : res sets :=
  dom_rounds (S (length g * length g)) g ([O] :: repeat (seq 0 (length g)) (length g - 1)).

(** self_is_imm_dom (src/ssa.c:28-42) *)
Definition self_is_imm_dom (d : sets) (be_doms : list nat) (self await : nat) : bool :=
  forallb (fun item => Nat.eqb item self || Nat.eqb item await || existsb (Nat.eqb item) (get d self)) be_doms.

(** calc_imm_domer (src/ssa.c:50-65): no immediate dominator aborts *)
Definition calc_imm_domer (d : sets) (self : nat) : res nat :=
  match find (fun dom => negb (Nat.eqb dom self) && self_is_imm_dom d (get d self) dom self) (get d self) with
  | Some dom => Ok dom
  | None => Abort
  end.

(** ssa_imm_domer (src/ssa.c:144-155) for the blocks ids; the entry has none *)
Fixpoint imm_domers_loop (d : sets) (ids : list nat) : res (list (option nat)) :=
  match ids with
  | [] => Ok []
  | id :: ids => x <- calc_imm_domer d id ;; l <- imm_domers_loop d ids ;; Ok (Some x :: l)
  end.
Definition imm_domers (g : graph) (d : sets) : res (list (option nat)) :=
  l <- imm_domers_loop d (seq 1 (length g - 1)) ;; Ok (None :: l).
Definition imm_domer (im : list (option nat)) (b : nat) : option nat := nth b im None.

(** imm_domees (src/ssa.c:153), in the order they are pushed *)
Definition imm_domees (im : list (option nat)) (b : nat) : list nat :=
  filter (fun x => match imm_domer im x with Some y => Nat.eqb y b | None => false end) (seq 0 (length im)).

(** the while loop of ssa_df (src/ssa.c:187-197): the blocks visited, for block current with immediate dominator
    stop; a block without one is a null pointer *)
Fixpoint df_runner (fuel : nat) (im : list (option nat)) (runner stop : nat) : res (list nat) :=
  if Nat.eqb runner stop then Ok []
  else
    match fuel with
    | O => NoFuel
    | S fuel =>
        match imm_domer im runner with
        | None => UB
        | Some up => if Nat.eqb up runner then Abort else l <- df_runner fuel im up stop ;; Ok (runner :: l)
        end
    end.

(** push current to the df of every block of l *)
Definition df_push (df : sets) (l : list nat) (current : nat) : sets :=
  fold_left (fun df r => put df r (get df r ++ [current])) l df.

(** the loop of ssa_df over the predecessors (src/ssa.c:178-198) *)
Fixpoint df_preds (im : list (option nat)) (current : nat) (ps : list nat) (df : sets) : res sets :=
  match ps with
  | [] => Ok df
  | p :: ps =>
      match imm_domer im current with
      | None => UB
      | Some stop => l <- df_runner (length im) im p stop ;; df_preds im current ps (df_push df l current)
      end
  end.

(** ssa_df (src/ssa.c:168-200) for the blocks ids *)
Fixpoint df_loop (g : graph) (im : list (option nat)) (ids : list nat) (df : sets) : res sets :=
  match ids with
  | [] => Ok df
  | id :: ids =>
      if Nat.ltb (length (preds g id)) 2 then df_loop g im ids df
      else df <- df_preds im id (preds g id) df ;; df_loop g im ids df
  end.
Definition dominance_frontiers (g : graph) (im : list (option nat)) : res sets :=
  df_loop g im (seq 0 (length g)) (repeat [] (length g)).
