(** What `match` means. *)
From Verif Require Import Base Match_model.
Import ListNotations.
Open Scope Z_scope.

Section Meaning.
  Variable st : Type.
  Variable eval : nat -> st -> ev st.
  Variable body : nat -> option Z -> st -> bd st.
  (** The type, or the tag, a value was made with. *)
  Variable carry : Z -> Z.

  (** Trying a condition: it fits, it does not, or it leaves the function. *)
  Inductive tried := Yes (s : st) | No (s : st) | Out (s : st).

  Definition fits (has_subject : bool) (v : Z) (c : cond) (s : st) : tried :=
    match c with
    | CIs t => if Z.eq_dec (carry v) t then Yes s else No s
    | CWild => Yes s
    | CSel _ e | CExp e =>
        match eval e s with
        | Val _ w s' => if Z.eq_dec w (if has_subject then v else 1) then Yes s' else No s'
        | Gone _ s' => Out s'
        end
    end.

  (** One of the conditions `c1 | c2 | ..` of a case, tried from left to right. *)
  Fixpoint any_fits (has_subject : bool) (v : Z) (cs : list cond) (s : st) : tried :=
    match cs with
    | [] => No s
    | c :: cs' => match fits has_subject v c s with
                  | Yes s' => Yes s'
                  | No s' => any_fits has_subject v cs' s'
                  | Out s' => Out s'
                  end
    end.

  (** `is T v` gives the body the value that was tested. *)
  Definition bound (has_subject : bool) (v : Z) (c : case) : option Z :=
    match conds c with
    | [CIs _] => if has_subject && binding c then Some v else None
    | _ => None
    end.

  (** The first case that fits is run, and no other. *)
  Fixpoint first_case (has_subject : bool) (v : Z) (cs : list case) (s : st) : out st :=
    match cs with
    | [] => Finished _ s
    | c :: rest =>
        match any_fits has_subject v (conds c) s with
        | Yes s' => match body (handle c) (bound has_subject v c) s' with
                    | Falls _ s'' | Rets _ s'' => Finished _ s''
                    | Leaves _ s'' => Left _ s''
                    end
        | No s' => first_case has_subject v rest s'
        | Out s' => Left _ s'
        end
    end.

  (** The subject is evaluated once, then the cases are tried in order. *)
  Definition meaning (m : mtch) (s : st) : out st :=
    match subject m with
    | None => first_case false 0 (cases m) s
    | Some e => match eval e s with
                | Val _ v s' => first_case true v (cases m) s'
                | Gone _ s' => Left _ s'
                end
    end.

  (** The types or tags a match asks for. *)
  Definition asked (m : mtch) : list Z :=
    flat_map (fun c => flat_map (fun d => match d with CIs t => [t] | _ => [] end) (conds c)) (cases m).

  (** A value of the type of the subject. *)
  Definition belongs (k : skind) (v : Z) : Prop :=
    match k with
    | KUnion els => In (carry v) els
    | KTagged tags => In (carry v) tags
    | KEnum props => exists n, In (n, v) props
    | _ => True
    end.

  (** Every condition `.key` is the enum's own constant [key]. *)
  Definition constants (props : list (Z * Z)) (c : cond) : Prop :=
    match c with
    | CSel key e => forall v s, In (key, v) props -> eval e s = Val _ v s
    | _ => True
    end.

  Definition is_member (props : list (Z * Z)) (c : cond) : Prop :=
    match c with CSel key _ => exists v, In (key, v) props | _ => False end.

  (** The conditions of an enum match that has no default: constants of the enum where they are
      written as such, and nothing else in the last case. *)
  Definition plain_enum (m : mtch) : Prop :=
    match kind m with
    | KEnum props =>
        (forall c d, In c (cases m) -> In d (conds c) -> constants props d) /\
        (forall c cs, cases m = cs ++ [c] -> ~ In CWild (conds c) -> forall d, In d (conds c) -> is_member props d)
    | _ => True
    end.

  (** The value bound by `is T v` is that of the subject: the subject is a call, or evaluating it
      again changes nothing and there are only types to test. *)
  Definition rebinds_well (m : mtch) : Prop :=
    forall e c, subject m = Some e -> In c (cases m) -> binding c = true -> call m = false ->
      (forall s v s', eval e s = Val _ v s' -> s' = s) /\
      (forall c' d, In c' (cases m) -> In d (conds c') -> d = CWild \/ exists t, d = CIs t).
End Meaning.
