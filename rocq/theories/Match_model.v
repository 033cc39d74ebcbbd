(** `match`: the check that the cases are complete, and the code that is made of them.

    Source: src/semantic/analyzer.c:736-782 (auto_as_stmt), 837-902 (analyzer_match);
    src/semantic/infer.c:1407-1535 (infer_match); src/linear.c:3145-3195 (linear_is_expr), 3593-3707
    (linear_match_expr), 1777-1791 (linear_ret).

    Simplifications: an expression is a number, and what its evaluation does is an argument, [eval];
    so is what a body does, [body].  A value is one number; the type or the tag it was made with is
    [carry].  Types and tags are numbers, and [hash] is type_hash or hash_string.  Comparison with
    `==` is equality of the numbers.  Type checks other than those of infer_match itself, the target
    of `ret` and defers are left out. *)
From Verif Require Import Base.
Import ListNotations.
Open Scope Z_scope.

(** ast.h:411-440.  [CSel key e] is an expression that ends in `.key`, [CWild] is `_`. *)
Inductive cond := CIs (t : Z) | CSel (key : Z) (e : nat) | CExp (e : nat) | CWild.
Record case := mk_case { conds : list cond; binding : bool; handle : nat }.

(** The kind of the type of the subject, with the elements of a union, the tags of a tagged union,
    the names and values of an enum. *)
Inductive skind :=
| KUnion (els : list Z) | KTagged (tags : list Z) | KEnum (props : list (Z * Z)) | KAny | KIface | KOther.
(** [call]: the subject is a call expression. *)
Record mtch := mk_match { subject : option nat; call : bool; kind : skind; cases : list case }.

Definition is_wild (c : cond) : bool := match c with CWild => true | _ => false end.

(** analyzer.c:848-863: `_` makes a case the default. *)
Definition is_default (c : case) : bool := existsb is_wild (conds c).

(** analyzer.c:844-863: `_` stands alone and comes last. *)
Fixpoint analyzer_cases (cs : list case) : bool :=
  match cs with
  | [] => true
  | c :: rest =>
      (if is_default c
       then (length (conds c) =? 1)%nat && match rest with [] => true | _ => false end
       else true) && analyzer_cases rest
  end.

(** analyzer.c:876-894: `var v = subject as T` is put in front of the body of `is T v`. *)
Definition insert_auto_as (m : mtch) (c : case) : option Z :=
  match subject m, conds c with
  | Some _, [CIs t] => if binding c then Some t else None
  | _, _ => None
  end.

(** infer.c:1436-1475. *)
Definition infer_cond (k : skind) (c : cond) : bool :=
  match k, c with
  | (KUnion _ | KTagged _ | KAny), CIs _ => true
  | (KUnion _ | KTagged _ | KAny), _ => false
  | KIface, _ => true
  | _, CIs _ => false
  | _, _ => true
  end.

Section Match.
  Variable hash : Z -> Z.

  (** infer.c:1425-1475: the conditions entered in exhaustive_table. *)
  Definition table (cs : list case) : list cond :=
    flat_map (fun c => if is_default c then [] else conds c) cs.

  (** infer.c:1485-1531: for a union the key is the hash, for a tagged union and an enum the name. *)
  Definition exhaustive (k : skind) (tb : list cond) : bool :=
    match k with
    | KUnion els =>
        forallb (fun t => existsb (fun c => match c with CIs t' => hash t' =? hash t | _ => false end) tb) els
    | KTagged tags =>
        forallb (fun t => existsb (fun c => match c with CIs t' => t' =? t | _ => false end) tb) tags
    | KEnum props =>
        forallb (fun p => existsb (fun c => match c with CSel key _ => key =? fst p | _ => false end) tb) props
    | _ => false
    end.

  (** infer.c:1407-1535. *)
  Definition infer_match (m : mtch) : bool :=
    forallb (infer_cond (kind m)) (table (cases m)) &&
    (existsb is_default (cases m) || exhaustive (kind m) (table (cases m))).

  (** The two checks together.  Without a subject the conditions are of type bool (infer.c:1412). *)
  Definition accepted (m : mtch) : bool :=
    analyzer_cases (cases m) && infer_match m &&
    match subject m with None => match kind m with KOther => true | _ => false end | Some _ => true end.

  (** ** Code *)

  (** The labels of one match, by their suffix. *)
  Inductive label := LMatch | LMatchEnd | LCase (i : nat) | LCaseEnd (i : nat).
  Inductive instr :=
  | Lab (l : label)
  | Subj (e : nat)            (* linear_expr(subject, subject_operand) *)
  | Cond (c : cond)           (* linear_expr of `is` or of cond == subject *)
  | Bee (l : label)           (* BEE true, cond_target, l *)
  | Bal (l : label)
  | Auto (e : option nat) (t : Z)   (* var v = subject as T; None: the subject's temporary *)
  | Body (k : nat).

  (** linear.c:3635-3663, 3664: the conditions of a case. *)
  Definition linear_conds (i : nat) (cs : list cond) : list instr :=
    flat_map (fun c => [Cond c; Bee (LCase i)]) cs ++ [Bal (LCaseEnd i)].

  (** linear.c:3667-3689: the subject is read from its temporary when it is a call. *)
  Definition linear_auto (m : mtch) (c : case) : list instr :=
    match insert_auto_as m c with
    | None => []
    | Some t => [Auto (if call m then None else subject m) t]
    end.

  (** linear.c:3620-3696: the default and the last case are not tested. *)
  Definition linear_case (m : mtch) (i : nat) (last : bool) (c : case) : list instr :=
    (if is_default c || last then [] else linear_conds i (conds c)) ++
    [Lab (LCase i)] ++ linear_auto m c ++ [Body (handle c); Bal LMatchEnd; Lab (LCaseEnd i)].

  Fixpoint linear_cases (m : mtch) (i : nat) (cs : list case) : list instr :=
    match cs with
    | [] => []
    | c :: rest =>
        linear_case m i (match rest with [] => true | _ => false end) c ++ linear_cases m (S i) rest
    end.

  (** linear.c:3593-3707. *)
  Definition linear_match (m : mtch) : list instr :=
    [Lab LMatch] ++ match subject m with Some e => [Subj e] | None => [] end ++
    linear_cases m 0 (cases m) ++ [Lab LMatchEnd].

  (** ** Running the code *)

  Variable st : Type.
  (** An evaluation gives a value, or leaves the function (a throw, a panic). *)
  Inductive ev := Val (v : Z) (s : st) | Gone (s : st).
  Variable eval : nat -> st -> ev.
  (** A body runs to its end, ends in `ret`, or leaves the match (return, break, throw). *)
  Inductive bd := Falls (s : st) | Rets (s : st) | Leaves (s : st).
  Variable body : nat -> option Z -> st -> bd.
  Variable carry : Z -> Z.

  Inductive out := Finished (s : st) | Left (s : st) | WrongType (s : st) | Stuck.

  (** linear.c:3640-3660 with 3145-3195: `is` compares the numbers of the types; otherwise
      cond == subject, or cond itself, a bool, when there is no subject. *)
  Definition test (m : mtch) (c : cond) (sv : Z) (s : st) : ev :=
    match c with
    | CIs t => Val (if hash (carry sv) =? hash t then 1 else 0) s
    | CSel _ e | CExp e =>
        match eval e s with
        | Val v s' => match subject m with
                      | Some _ => Val (if v =? sv then 1 else 0) s'
                      | None => Val v s'
                      end
        | Gone s' => Gone s'
        end
    | CWild => Gone s
    end.

  Definition label_eqb (a b : label) : bool :=
    match a, b with
    | LMatch, LMatch | LMatchEnd, LMatchEnd => true
    | LCase i, LCase j | LCaseEnd i, LCaseEnd j => (i =? j)%nat
    | _, _ => false
    end.

  Definition is_lab (l : label) (i : instr) : bool := match i with Lab k => label_eqb k l | _ => false end.

  Fixpoint find_label (code : list instr) (l : label) : option nat :=
    match code with
    | [] => None
    | i :: code' => if is_lab l i then Some 0%nat else option_map S (find_label code' l)
    end.

  (** [sv] is the subject's temporary, [fl] the last condition, [bn] the variable bound by `is T v`. *)
  Fixpoint run (fuel : nat) (m : mtch) (code : list instr) (pc : nat)
           (sv fl : Z) (bn : option Z) (s : st) : option out :=
    match fuel with
    | O => None
    | S f =>
        let goto l :=
          match find_label code l with Some p => run f m code p sv fl bn | None => fun _ => Some Stuck end in
        match nth_error code pc with
        | None => Some (Finished s)
        | Some (Lab _) => run f m code (S pc) sv fl bn s
        | Some (Subj e) =>
            match eval e s with Val v s' => run f m code (S pc) v fl bn s' | Gone s' => Some (Left s') end
        | Some (Cond c) =>
            match test m c sv s with Val v s' => run f m code (S pc) sv v bn s' | Gone s' => Some (Left s') end
        | Some (Bee l) => if fl =? 1 then goto l s else run f m code (S pc) sv fl bn s
        | Some (Bal l) => goto l s
        | Some (Auto None t) =>
            if hash (carry sv) =? hash t then run f m code (S pc) sv fl (Some sv) s else Some (WrongType s)
        | Some (Auto (Some e) t) =>
            match eval e s with
            | Val v s' =>
                if hash (carry v) =? hash t then run f m code (S pc) sv fl (Some v) s' else Some (WrongType s')
            | Gone s' => Some (Left s')
            end
        | Some (Body k) =>
            match body k bn s with
            | Falls s' => run f m code (S pc) sv fl bn s'
            | Rets s' => goto LMatchEnd s'
            | Leaves s' => Some (Left s')
            end
        end
    end.
End Match.
