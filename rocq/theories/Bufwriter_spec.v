(** What a program that writes through the buffered writer sees. *)
From Verif Require Import Base Bufwriter_model.

Inductive wcall := Write (b : list Z) | WriteByte (c : Z) | Flush.

(** The bytes a call hands over. *)
Definition handed (c : wcall) : list Z := match c with Write b => b | WriteByte c => [c] | Flush => [] end.

(** The call returned (with a count of bytes), threw, or crashed. *)
Inductive wseen := Returned (n : Z) | Threw | Crashed.

Definition wserve (wr : writer) (c : wcall) : writer * wseen :=
  match c with
  | Write b => match write wr b with (wr, WRet n) => (wr, Returned n) | (wr, WExc) => (wr, Threw) | (wr, WPan) => (wr, Crashed) end
  | WriteByte c => match write_byte wr c with (wr, WRet _) => (wr, Returned 1) | (wr, WExc) => (wr, Threw) | (wr, WPan) => (wr, Crashed) end
  | Flush => match flush wr with (wr, WRet _) => (wr, Returned 0) | (wr, WExc) => (wr, Threw) | (wr, WPan) => (wr, Crashed) end
  end.

Fixpoint wserve_all (wr : writer) (cs : list wcall) : writer * list wseen :=
  match cs with
  | [] => (wr, [])
  | c :: cs => let '(wr, s) := wserve wr c in let '(wr, ss) := wserve_all wr cs in (wr, s :: ss)
  end.

(** The bytes accepted and not yet passed on. *)
Definition held (wr : writer) : list Z := sub_list (wbuf wr) 0 (wn wr).

(** The bytes handed over by a list of calls. *)
Definition all_handed (cs : list wcall) : list Z := concat (map handed cs).

(** Every call returned the number of bytes it was given. *)
Definition all_returned (cs : list wcall) : list wseen := map (fun c => Returned (zlen (handed c))) cs.
