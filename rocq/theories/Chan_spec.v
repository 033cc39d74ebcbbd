(** What channels promise, in terms of the calls made, when they were made and what they returned. *)
From Verif Require Import Base Chan_model.

(** ** Histories: the calls that have returned, and those still blocked.  A call is named by its time (the
    number of the step in which it was made). *)
Record history := mk_history { h_time : Z; h_blocked : nat -> option (Z * label); h_done : list (Z * label * out) }.

Definition caller (l : label) : nat :=
  match l with LSend k _ _ _ | LRecv k _ _ | LClose k _ | LSelect k _ _ _ | LResume k => k end.

Definition block (b : nat -> option (Z * label)) (k : nat) (x : option (Z * label)) : nat -> option (Z * label) :=
  fun j => if Nat.eqb j k then x else b j.

(** one step: the label tried and what came out *)
Definition h_step (h : history) (lo : label * out) : history :=
  let '(l, o) := lo in
  let t := h_time h + 1 in
  let k := caller l in
  match l, o with
  | _, ODisabled => mk_history t (h_blocked h) (h_done h)
  | LResume _, _ =>
      match h_blocked h k with
      | Some (t0, call) => mk_history t (block (h_blocked h) k None) (h_done h ++ [(t0, call, o)])
      | None => mk_history t (h_blocked h) (h_done h)
      end
  | _, OParked => mk_history t (block (h_blocked h) k (Some (t, l))) (h_done h)
  | _, _ => mk_history t (h_blocked h) (h_done h ++ [(t, l, o)])
  end.
Definition h_init : history := mk_history 0 (fun _ => None) [].
Definition history_of (ls : list label) (os : list out) : history := fold_left h_step (combine ls os) h_init.

(** ** What a finished call did *)
(** the channel and value it sent *)
Definition sent (l : label) (o : out) : option (nat * Z) :=
  match l, o with
  | LSend _ c v _, OSent => Some (c, v)
  | LSelect _ sends cases _, OChosen i true _ => if Nat.ltb i sends then nth_error cases i else None
  | _, _ => None
  end.
(** the channel and the value it received *)
Definition got (l : label) (o : out) : option (nat * Z) :=
  match l, o with
  | LRecv _ c _, OGot v => Some (c, v)
  | LSelect _ sends cases _, OChosen i true (Some v) =>
      if Nat.ltb i sends then None else match nth_error cases i with Some (c, _) => Some (c, v) | None => None end
  | _, _ => None
  end.

(** ** What a blocked call is waiting for *)
Definition offers (l : label) (c : nat) (v : Z) : Prop :=
  match l with
  | LSend _ d x _ => d = c /\ x = v
  | LSelect _ sends cases _ => exists i, (i < sends)%nat /\ nth_error cases i = Some (c, v)
  | _ => False
  end.
Definition wants (l : label) (c : nat) : Prop :=
  match l with
  | LRecv _ d _ => d = c
  | LSelect _ sends cases _ => exists i v, (sends <= i)%nat /\ nth_error cases i = Some (c, v)
  | _ => False
  end.

Fixpoint increasing (l : list Z) : Prop :=
  match l with [] => True | x :: l => Forall (Z.lt x) l /\ increasing l end.

(** ** Order: [acc] are the sends on channel [c] whose value was taken, [rcv] the receives that were given a
    value, both as (time of the call, value).  A blocked call may already be among them: its partner has come
    and it has not been scheduled since. *)
Record fifo (h : history) (c : nat) (cap : Z) (acc rcv : list (Z * Z)) : Prop := {
  f_acc : increasing (map fst acc);                 (* senders are served in the order of their calls *)
  f_rcv : increasing (map fst rcv);                 (* and so are receivers *)
  f_prefix : exists rest, map snd acc = map snd rcv ++ rest /\ zlen rest <= Z.max 0 cap;
  f_sent : forall t l o, In (t, l, o) (h_done h) -> forall v, sent l o = Some (c, v) <-> In (t, v) acc;
  f_got : forall t l o, In (t, l, o) (h_done h) -> forall v, got l o = Some (c, v) <-> In (t, v) rcv;
  f_acc_from : forall t v, In (t, v) acc ->
    (exists l o, In (t, l, o) (h_done h)) \/ (exists k l, h_blocked h k = Some (t, l) /\ offers l c v);
  f_rcv_from : forall t v, In (t, v) rcv ->
    (exists l o, In (t, l, o) (h_done h)) \/ (exists k l, h_blocked h k = Some (t, l) /\ wants l c);
}.

(** ** Blocked coroutines *)
(** blocked and not yet woken, with an offer for c, or wanting to receive from c *)
Definition sending (st : state) (j c : nat) : Prop :=
  match cos st j with
  | Parked (WSend d _) _ => d = c
  | Parked (WSelect cases sends) _ => exists i v, (i < sends)%nat /\ nth_error cases i = Some (c, v)
  | _ => False
  end.
Definition receiving (st : state) (j c : nat) : Prop :=
  match cos st j with
  | Parked (WRecv d) _ => d = c
  | Parked (WSelect cases sends) _ => exists i v, (sends <= i)%nat /\ nth_error cases i = Some (c, v)
  | _ => False
  end.

(** the events of the log on one channel *)
Definition accepted (c : nat) (es : list event) : list (Z * Z) :=
  flat_map (fun e => match e with Accepted d v s => if Nat.eqb d c then [(s, v)] else [] | _ => [] end) es.
Definition received (c : nat) (es : list event) : list (Z * Z) :=
  flat_map (fun e => match e with Received d v s => if Nat.eqb d c then [(s, v)] else [] | _ => [] end) es.
(** the values taken from senders and not yet given to a receiver, oldest first *)
Definition held (st : state) (c : nat) : list Z :=
  skipn (length (received c (log st))) (map snd (accepted c (log st))).

(** a select whose list of channels has equal channels side by side only *)
Definition tidy (l : label) : Prop :=
  match l with
  | LSelect _ _ cases _ => forall i j d x y z, (i < j)%nat -> (j < d)%nat ->
      nth_error (map fst cases) i = Some x -> nth_error (map fst cases) j = Some y ->
      nth_error (map fst cases) d = Some z -> x = z -> y = x
  | _ => True
  end.
