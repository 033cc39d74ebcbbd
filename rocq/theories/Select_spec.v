(** What a select means, written from its English description. *)
From Verif Require Import Base Select_model.

(** One operation the select offers: which way, the channel, where the message is or goes, the body. *)
Record offer := mk_offer { o_recv : bool; o_chan : word; o_place : place; o_body : nat }.

Section spec.
  Context {W : Type}.
  Variable ev : nat -> @ext W -> @ext W * word.
  Variable bd : nat -> @ext W -> @ext W * bool.
  Variable rt : list (word * place) -> Z -> Z -> bool -> @ext W -> ended (@ext W).

  Definition value (e : expr) (x : ext) : ext * word :=
    match e with EVar y => (x, fst x y) | EImm z => (x, WInt z) | ECode e => ev e x end.

  (** A message that is a variable stays there until it is sent; any other is computed now. *)
  Definition message (e : expr) (x : ext) : ext * place :=
    match e with
    | EVar y => (x, PVar y)
    | _ => let '(x, v) := value e x in (x, PVal v)
    end.

  (** the cases, in the order they are written: the channel, then the message *)
  Fixpoint offers (cs : list scase) (x : ext) : ext * list offer :=
    match cs with
    | [] => (x, [])
    | c :: cs =>
        if is_default c then (x, [])
        else
          let '(x, ch) := value (chan c) x in
          let '(x, p) := if is_recv c then (x, match recv_var c with Some y => PVar y | None => PNull end)
                         else message (msg c) x in
          let '(x, os) := offers cs x in
          (x, mk_offer (is_recv c) ch p (body c) :: os)
    end.
  Definition sends (os : list offer) : list offer := filter (fun o => negb (o_recv o)) os.
  Definition recvs (os : list offer) : list offer := filter o_recv os.

  Inductive result := Falls (x : @ext W) | Leaves (x : @ext W) | Waits | Aborts.
  Definition do_body (b : nat) (x : ext) : result :=
    let '(x, falls) := bd b x in if falls then Falls x else Leaves x.

  (** The runtime is asked once, with all sends and then all receives.  The body of the operation it names
      is run; if it names none, the default. *)
  Definition select (cs : list scase) (x : ext) : result :=
    match cs with
    | [] => Waits
    | _ =>
        let '(x, os) := offers cs x in
        let asked := sends os ++ recvs os in
        match rt (map (fun o => (o_chan o, o_place o)) asked) (Z.of_nat (length (sends os))) (Z.of_nat (length (recvs os)))
                 (existsb is_default cs) x with
        | Never => Waits
        | Failed => Aborts
        | Chosen x i =>
            match (if i <? 0 then None else nth_error asked (Z.to_nat i)) with
            | Some o => do_body (o_body o) x
            | None => match find is_default cs with Some d => do_body (body d) x | None => Falls x end
            end
        end
    end.

  (** The same with every message looked at when its case is reached: the value the select means to send. *)
  Fixpoint meant (cs : list scase) (x : ext) : list word :=
    match cs with
    | [] => []
    | c :: cs =>
        if is_default c then []
        else
          let '(x, _) := value (chan c) x in
          if is_recv c then meant cs x
          else let '(x, v) := value (msg c) x in v :: meant cs x
    end.
  (** and what is there when the runtime is asked *)
  Definition there (x : @ext W) (o : offer) : option word :=
    match o_place o with PVar y => Some (fst x y) | PVal v => Some v | PNull => None end.
End spec.

(** labels of a piece of code *)
Definition labels (code : list op) : list nat :=
  flat_map (fun o => match o with Label l => [l] | _ => [] end) code.

(** The code does what the meaning says and goes on behind the select. *)
Definition follows {W} ev bd rt (prog code post : list op) (s : @state W) (r : result) : Prop :=
  match r with
  | Falls x => exists k s', env s' = x /\ forall f, exec ev bd rt (k + f) prog (code ++ post) s = exec ev bd rt f prog post s'
  | Leaves x => exists k, forall f, exec ev bd rt (k + f) prog (code ++ post) s = Left x
  | Waits => exists k, forall f, exec ev bd rt (k + f) prog (code ++ post) s = Blocked
  | Aborts => exists k, forall f, exec ev bd rt (k + f) prog (code ++ post) s = Aborted
  end.

(** when an operation on a channel need not wait *)
Definition can_go (ch : rchan) (recv : bool) : Prop :=
  if recv then sendq ch <> [] \/ buf ch <> [] \/ closed ch = true
  else closed ch = true \/ (0 < recvq ch)%nat \/ (length (buf ch) < cap ch)%nat.
