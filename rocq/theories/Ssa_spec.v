(** What it means to execute a function, before and after the construction of the static single assignment form. *)
From Verif Require Import Base Dom_model Dom_spec Live_model Live_spec Ssa_model.

(** What the operations do and where the jumps go is left open: an operation takes the values of the variables it
    uses and changes the rest of the world, and the world decides which successor comes next.  The world may
    remember everything that happened, so that equal worlds mean that every operation was executed with equal
    values. *)
Record machine (V W : Type) := mk_machine {
  effect : Z -> list V -> W -> (nat -> V) * W;
  branch : nat -> W -> nat }.
Arguments effect {V W}. Arguments branch {V W}.

(** one operation is a code, the names it reads and the names it assigns *)
Fixpoint exec_assign {N V} (eqb : N -> N -> bool) (ds : list N) (f : nat -> V) (env : N -> V) : N -> V :=
  match ds with
  | [] => env
  | d :: ds => exec_assign eqb ds (fun i => f (S i)) (fun n => if eqb n d then f O else env n)
  end.
Fixpoint exec {N V W} (eqb : N -> N -> bool) (m : machine V W) (l : list (Z * list N * list N)) (env : N -> V) (w : W) : (N -> V) * W :=
  match l with
  | [] => (env, w)
  | (k, us, ds) :: l =>
      let (f, w) := effect m k (map env us) w in
      exec eqb m l (exec_assign eqb ds f env) w
  end.

(** the function as it is written: the block, the variables and the world after k + 1 blocks *)
Definition source_ops (l : list op) := map (fun o => (code o, uses o, defs o)) l.
Fixpoint run {V W} (m : machine V W) (c : program) (env : var -> V) (w : W) (k : nat) : option (nat * (var -> V) * W) :=
  match k with
  | O => let (env, w) := exec Nat.eqb m (source_ops (ops (block_of c 0))) env w in Some (O, env, w)
  | S k =>
      match run m c env w k with
      | None => None
      | Some (b, env, w) =>
          match nth_error (succs (block_of c b)) (branch m b w) with
          | None => None
          | Some s => let (env, w) := exec Nat.eqb m (source_ops (ops (block_of c s))) env w in Some (s, env, w)
          end
      end
  end.

(** the function in single assignment form: on entry of a block from b, all its phi functions at once take the
    argument that belongs to b *)
Definition name_eqb (x y : var * Z) : bool := Nat.eqb (fst x) (fst y) && (snd x =? snd y).
Definition renamed_ops (l : list rop) := map (fun o => (rcode o, ruses o, rdefs o)) l.
Definition find_block (r : list (nat * rblock)) (b : nat) : option rblock :=
  option_map snd (find (fun x => Nat.eqb (fst x) b) r).
Definition find_arg (l : list arg) (s : nat) (v : var) (p : nat) : option Z :=
  option_map arg_number (find (fun a => Nat.eqb (arg_block a) s && Nat.eqb (arg_var a) v && Nat.eqb (arg_pred a) p) l).
Fixpoint phi_values {V} (l : list arg) (s p : nat) (phis : list (var * Z)) (env : var * Z -> V) : option (list V) :=
  match phis with
  | [] => Some []
  | (v, _) :: phis =>
      match find_arg l s v p, phi_values l s p phis env with
      | Some k, Some xs => Some (env (v, k) :: xs)
      | _, _ => None
      end
  end.
Definition enter {V} (l : list arg) (s p : nat) (phis : list (var * Z)) (env : var * Z -> V) : option (var * Z -> V) :=
  match phi_values l s p phis env with
  | None => None
  | Some xs => Some (exec_assign name_eqb phis (fun i => nth i xs (env (O, 0))) env)
  end.
Fixpoint run_ssa {V W} (m : machine V W) (c : program) (r : list (nat * rblock)) (l : list arg) (env : var * Z -> V) (w : W) (k : nat) : option (nat * (var * Z -> V) * W) :=
  match k with
  | O =>
      match find_block r 0 with
      | None => None
      | Some rb => let (env, w) := exec name_eqb m (renamed_ops (rops rb)) env w in Some (O, env, w)
      end
  | S k =>
      match run_ssa m c r l env w k with
      | None => None
      | Some (b, env, w) =>
          match nth_error (succs (block_of c b)) (branch m b w) with
          | None => None
          | Some s =>
              match find_block r s with
              | None => None
              | Some rb =>
                  match enter l s b (rphis rb) env with
                  | None => None
                  | Some env => let (env, w) := exec name_eqb m (renamed_ops (rops rb)) env w in Some (s, env, w)
                  end
              end
          end
      end
  end.

(** what can be seen from outside: which block, and the world *)
Definition seen {E W} (x : option (nat * E * W)) : option (nat * W) :=
  match x with None => None | Some (b, _, w) => Some (b, w) end.

(** the predecessors and successors of the blocks of a function fit together *)
Definition is_function (g : graph) (c : program) : Prop :=
  is_graph g /\ length g = length c /\ c <> [] /\
  (forall p b, In p (preds g b) <-> In b (succs (block_of c p))) /\
  (forall b, NoDup (preds g b)) /\ (forall b, NoDup (succs (block_of c b))).

(** no variable is read before it is assigned *)
Definition assigned_first (c : program) : Prop := forall v, ~ needed c 0 v.

(** the sizes the code has room for: 65535 blocks, 255 predecessors of a block, 255 variables, and 128
    definitions of every variable, where each place at which two ways meet and v is needed counts as one *)
Definition definitions (c : program) (v : var) : nat :=
  length (filter (Nat.eqb v) (flat_map (fun b => flat_map defs (ops b)) c)).
Definition few (g : graph) (c : program) : Prop :=
  zlen g <= 65535 /\ (forall b, zlen (preds g b) <= 255) /\ (length (nodup Nat.eq_dec (variables c)) < 256)%nat /\
  forall v, exists js, (forall b, (2 <= length (preds g b))%nat -> needed c b v -> In b js) /\ (definitions c v + length js <= 128)%nat.

(** a variable for which a phi is needed somewhere: it is assigned in a block whose influence ends where v is needed *)
Definition merged (g : graph) (c : program) (v : var) : Prop :=
  exists b m, writes (ops (block_of c b)) v /\ frontier g b m /\ needed c m v.
(** a variable that is assigned in one block only *)
Definition local (c : program) (v : var) : Prop :=
  exists d, forall b, writes (ops (block_of c b)) v -> b = d.

(** the names assigned in a function in single assignment form, once for every place *)
Definition assigned_names (r : list (nat * rblock)) : list (var * Z) :=
  flat_map (fun x => rphis (snd x) ++ flat_map rdefs (rops (snd x))) r.
