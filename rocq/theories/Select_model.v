(** The select statement: parser_select_stmt (src/syntax/parser.c:2193-2266), analyzer_select
    (src/semantic/analyzer.c:904-921), infer_select (src/semantic/infer.c:3092-3114), linear_select
    (src/linear.c:1835-1973), and pass 1 of rt_chan_select (runtime/rt_chan.c:562-602).

    Simplifications: a message is one word; a body is a number (what it does is an oracle, and its
    labels are its own); temporaries and labels are numbers taken from one counter; the int that
    rt_chan_select returns is not widened; lines and safepoints are left out.  A temporary whose
    address is handed to the runtime is read there and never written. *)
From Verif Require Import Base.

(** a machine word: a number or channel, or the address of a variable or of a temporary *)
Inductive word := WInt (z : Z) | WVar (x : nat) | WTmp (t : nat).

(** An expression as linear_expr (src/linear.c:4212-4257) returns it: a variable (linear_ident,
    1050-1116), a literal (3823-3886), or code that leaves its value in a temporary. *)
Inductive expr := EVar (x : nat) | EImm (z : Z) | ECode (e : nat).

(** ast_select_case_t (src/ast.h:568-574) *)
Record scase := mk_case {
  is_default : bool; is_recv : bool;
  recv_var : option nat; chan : expr; msg : expr; body : nat }.

(** parser.c:2201-2232: send_count, recv_count, has_default *)
Definition send_count (cs : list scase) : nat := length (filter (fun c => negb (is_default c) && negb (is_recv c)) cs).
Definition recv_count (cs : list scase) : nat := length (filter (fun c => negb (is_default c) && is_recv c) cs).
Definition has_default (cs : list scase) : bool := existsb is_default cs.

(** analyzer.c:916-919: the default is the last case *)
Fixpoint default_last (cs : list scase) : bool :=
  match cs with
  | [] => true
  | c :: cs' => (negb (is_default c) || match cs' with [] => true | _ => false end) && default_last cs'
  end.
(** What the front end lets through: "select must contains on_call case" (parser.c:2259-2261),
    the analyzer's check, and infer.c:3101-3107: on_send is void, so only a receive has a variable *)
Definition accepted (cs : list scase) : bool :=
  negb (has_default cs && Nat.eqb (length cs) 1) && default_last cs
  && forallb (fun c => match recv_var c with Some _ => is_recv c | None => true end) cs.

(** * Linear code (src/lir.h) *)
Inductive operand := OVar (x : nat) | OTmp (t : nat) | OImm (z : Z).
Inductive op :=
| Label (l : nat)
| NopDef (x : nat)
| Eval (e t : nat)
| Move (t : nat) (o : operand)
| Lea (t : nat) (o : operand)
| Store (off : Z) (o : operand)               (* into the array of scase, at a byte offset *)
| Call (t : nat) (sends recvs : Z) (try : bool) (* RT_CALL_CHAN_SELECT *)
| SelectBlock                                 (* RT_CALL_SELECT_BLOCK *)
| Bee (o : operand) (i : Z) (l : nat)
| Bal (l : nat)
| Body (b : nat).

(** linear.c:4212-4257 *)
Definition linear_expr (e : expr) (n : nat) : list op * operand * nat :=
  match e with
  | EVar x => ([], OVar x, n)
  | EImm z => ([], OImm z, n)
  | ECode e => ([Eval e n], OTmp n, S n)
  end.
(** lir.h:1107-1135 *)
Definition lea_operand_pointer (o : operand) (n : nat) : list op * operand * nat :=
  match o with
  | OImm _ => ([Move n o; Lea (S n) (OTmp n)], OTmp (S n), S (S n))
  | _ => ([Lea n o], OTmp n, S n)
  end.
(** POINTER_SIZE, utils/type.h:16 *)
Definition ptr_size : Z := 8.
(** cases_map[i] = v, linear.c:1927 *)
Fixpoint list_set (l : list nat) (i v : nat) : list nat :=
  match l, i with
  | [], _ => []
  | _ :: l, O => v :: l
  | a :: l, S i => a :: list_set l i v
  end.

(** linear.c:1864-1928: the code that fills the array, and cases_map *)
Fixpoint fill (i : nat) (cs : list scase) (send_off recv_off : Z) (map : list nat) (n : nat) : list op * list nat * nat :=
  match cs with
  | [] => ([], map, n)
  | c :: cs' =>
      if is_default c then ([], map, n)
      else
        let decl := match recv_var c with Some x => [NopDef x] | None => [] end in
        let '(cc, oc, n1) := linear_expr (chan c) n in
        if is_recv c then
          let '(cp, p, n2) := match recv_var c with Some x => lea_operand_pointer (OVar x) n1 | None => ([], OImm 0, n1) end in
          let casi := Z.to_nat (recv_off / (ptr_size * 2)) in
          let '(rest, map', n3) := fill (S i) cs' send_off (recv_off + ptr_size + ptr_size) (list_set map casi i) n2 in
          (decl ++ cc ++ [Store recv_off oc] ++ cp ++ [Store (recv_off + ptr_size) p] ++ rest, map', n3)
        else
          let casi := Z.to_nat (send_off / (ptr_size * 2)) in
          let '(cm, om, n2) := linear_expr (msg c) n1 in
          let '(cp, p, n3) := lea_operand_pointer om n2 in
          let '(rest, map', n4) := fill (S i) cs' (send_off + ptr_size + ptr_size) recv_off (list_set map casi i) n3 in
          (decl ++ cc ++ [Store send_off oc] ++ cm ++ cp ++ [Store (send_off + ptr_size) p] ++ rest, map', n4)
  end.

(** linear.c:1950-1965, [k] cases from number [i] on; None: cases->take out of range *)
Fixpoint dispatch (k i : nat) (cs : list scase) (map : list nat) (t end_l n : nat) : option (list op * nat) :=
  match k with
  | O => Some ([], n)
  | S k =>
      match nth_error cs (nth i map 0%nat) with
      | None => None
      | Some c =>
          match dispatch k (S i) cs map t end_l (S (S n)) with
          | None => None
          | Some (rest, n') =>
              Some ([Bee (OTmp t) (Z.of_nat i) n; Bal (S n); Label n; Body (body c); Bal end_l; Label (S n)] ++ rest, n')
          end
      end
  end.

(** conversion to int16_t, the type of sends_count and recvs_count (rt_chan.c:490) *)
Definition i16 (z : Z) : Z := (z + 32768) mod 65536 - 32768.

(** linear.c:1835-1973; [n] is the next free number *)
Definition linear_select (cs : list scase) (n : nat) : option (list op * nat) :=
  let count := (send_count cs + recv_count cs)%nat in
  if Nat.eqb count 0 then Some ([Label n; SelectBlock], S (S n))
  else
    let recv_off := Z.of_nat (send_count cs) * ptr_size * 2 in
    let '(cf, map, n1) := fill 0 cs 0 recv_off (repeat 0%nat count) (S (S n)) in
    match dispatch count 0 cs map n1 (S n) (S n1) with
    | None => None
    | Some (cd, n2) =>
        let def := if has_default cs then
                     match nth_error cs (length cs - 1) with Some c => [Body (body c)] | None => [] end
                   else [] in
        Some ([Label n] ++ cf
              ++ [Call n1 (i16 (Z.of_nat (send_count cs))) (i16 (Z.of_nat (recv_count cs))) (has_default cs)]
              ++ cd ++ def ++ [Label (S n)], n2)
    end.

(** * Running the code *)
(** what msg_ptr of a case points to: a variable, a value nobody changes, or NULL *)
Inductive place := PVar (x : nat) | PVal (v : word) | PNull.
(** how rt_chan_select ends: with the number of a case, never, or with a failed assertion *)
Inductive ended (A : Type) := Chosen (x : A) (i : Z) | Never | Failed.
Arguments Chosen {A}. Arguments Never {A}. Arguments Failed {A}.

Section run.
  Context {W : Type}.
  (** the variables and the rest of the world *)
  Definition ext : Type := (nat -> word) * W.
  Variable ev : nat -> ext -> ext * word.                 (* the code of an expression *)
  Variable bd : nat -> ext -> ext * bool.                 (* a body; false: it leaves the select by itself *)
  Variable rt : list (word * place) -> Z -> Z -> bool -> ext -> ended ext. (* rt_chan_select *)

  Record state := mk_state { env : ext; tmps : nat -> word; arr : Z -> word }.
  Inductive outcome := Done (s : state) | Left (x : ext) | Blocked | Aborted | Bad | OutOfFuel.

  (** operands of LIR (lir_operand_t, src/types.h; lir.h:426, 948): reading one, writing a temporary, the array, the environment *)
  Definition get (s : state) (o : operand) : word :=
    match o with OVar x => fst (env s) x | OTmp t => tmps s t | OImm z => WInt z end.
  Definition set_tmp (s : state) (t : nat) (v : word) : state :=
    mk_state (env s) (fun u => if Nat.eqb u t then v else tmps s u) (arr s).
  Definition set_arr (s : state) (off : Z) (v : word) : state :=
    mk_state (env s) (tmps s) (fun o => if o =? off then v else arr s o).
  Definition set_env (s : state) (x : ext) : state := mk_state x (tmps s) (arr s).
  (** LIR_OPCODE_LEA *)
  Definition addr (o : operand) : option word :=
    match o with OVar x => Some (WVar x) | OTmp t => Some (WTmp t) | OImm _ => None end.

  (** what the runtime finds behind a pointer *)
  Definition deref (s : state) (p : word) : option place :=
    match p with
    | WVar x => Some (PVar x)
    | WTmp t => Some (PVal (tmps s t))
    | WInt z => if z =? 0 then Some PNull else None
    end.
  (** the scase array as rt_chan_select reads it (rt_chan.c:490 on, linear.c:1847-1850): [k] cases from number [i] on *)
  Fixpoint read_cases (s : state) (i : Z) (k : nat) : option (list (word * place)) :=
    match k with
    | O => Some []
    | S k =>
        match deref s (arr s (i * 16 + 8)), read_cases s (i + 1) k with
        | Some p, Some l => Some ((arr s (i * 16), p) :: l)
        | _, _ => None
        end
    end.

  (** the code behind a label *)
  Fixpoint goto (l : nat) (code : list op) : option (list op) :=
    match code with
    | [] => None
    | Label l' :: code => if Nat.eqb l l' then Some code else goto l code
    | _ :: code => goto l code
    end.
  (** LIR_OPCODE_BEE (src/types.h:490) with a number *)
  Definition is_int (v : word) (i : Z) : bool := match v with WInt z => z =? i | _ => false end.

  (** The machine for the operations linear_select emits (src/linear.c:1835-1973).
      [prog] is the code of the function, [rest] what is left from here on *)
  Fixpoint exec (fuel : nat) (prog rest : list op) (s : state) : outcome :=
    match fuel with
    | O => OutOfFuel
    | S fuel =>
        match rest with
        | [] => Done s
        | o :: rest =>
            match o with
            | Label _ | NopDef _ => exec fuel prog rest s
            | Eval e t => let '(x, v) := ev e (env s) in exec fuel prog rest (set_tmp (set_env s x) t v)
            | Move t o => exec fuel prog rest (set_tmp s t (get s o))
            | Lea t o => match addr o with Some v => exec fuel prog rest (set_tmp s t v) | None => Bad end
            | Store off o => exec fuel prog rest (set_arr s off (get s o))
            | Call t sends recvs try =>
                match read_cases s 0 (Z.to_nat (sends + recvs)) with
                | None => Bad
                | Some l =>
                    match rt l sends recvs try (env s) with
                    | Never => Blocked
                    | Failed => Aborted
                    | Chosen x i => exec fuel prog rest (set_tmp (set_env s x) t (WInt i))
                    end
                end
            | SelectBlock => Blocked
            | Bee o i l => if is_int (get s o) i then match goto l prog with Some r => exec fuel prog r s | None => Bad end
                           else exec fuel prog rest s
            | Bal l => match goto l prog with Some r => exec fuel prog r s | None => Bad end
            | Body b => let '(x, falls) := bd b (env s) in
                        if falls then exec fuel prog rest (set_env s x) else Left x
            end
        end
    end.
End run.

(** * Pass 1 of rt_chan_select on plain channels *)
(** n_chan_t (utils/type.h:490-514): the messages of the waiting senders, how many receivers wait (outside a
    select, with room for the message), the buffer with its capacity, closed *)
Record rchan := mk_rchan { sendq : list word; recvq : nat; buf : list word; cap : nat; closed : bool }.
Definition chans : Type := Z -> rchan.
Definition set_chan (w : chans) (c : Z) (ch : rchan) : chans := fun d => if d =? c then ch else w d.

(** memmove to or from msg_ptr, rt_chan.c:152-180; a message can be put into a variable only *)
Definition put (x : @ext chans) (p : place) (v : word) : option ext :=
  match p with
  | PVar y => Some (fun z => if Nat.eqb z y then v else fst x z, snd x)
  | _ => None
  end.
Definition take (x : @ext chans) (p : place) : option word :=
  match p with PVar y => Some (fst x y) | PVal v => Some v | PNull => None end.

(** one case, rt_chan.c:563-597 with the labels at 697-738; None: not ready, look at the next.
    A message on its way to a waiting receiver ends in that receiver's memory, not modelled. *)
Definition ready (x : @ext chans) (i sends : Z) (c : Z) (p : place) : option (ended ext) :=
  let ch := snd x c in
  let upd ch := (fst x, set_chan (snd x) c ch) in
  if sends <=? i then
    match sendq ch with
    | v :: q =>                                     (* RECV: rt_recv, rt_chan.c:304-334 *)
        match p with
        | PNull => Some Failed                      (* assert(msg_ptr), rt_chan.c:305 *)
        | _ =>
            match buf ch with
            | [] => match put (upd (mk_rchan q (recvq ch) [] (cap ch) (closed ch))) p v with
                    | Some x => Some (Chosen x i) | None => Some Failed end
            | b :: bs => match put (upd (mk_rchan q (recvq ch) (bs ++ [v]) (cap ch) (closed ch))) p b with
                         | Some x => Some (Chosen x i) | None => Some Failed end
            end
        end
    | [] =>
        match buf ch with
        | b :: bs =>                                (* BUFRECV: buf_pop, rt_chan.c:26-34 *)
            let x' := upd (mk_rchan [] (recvq ch) bs (cap ch) (closed ch)) in
            match p with
            | PNull => Some (Chosen x' i)
            | _ => match put x' p b with Some x => Some (Chosen x i) | None => Some Failed end
            end
        | [] => if closed ch then Some (Chosen x i) else None   (* RCLOSE *)
        end
    end
  else if closed ch then Some (Chosen x i)                      (* SCLOSE *)
  else
    match recvq ch with
    | S r => Some (Chosen (upd (mk_rchan (sendq ch) r (buf ch) (cap ch) false)) i)  (* SEND: rt_send *)
    | O =>
        if Nat.ltb (length (buf ch)) (cap ch) then              (* BUFSEND *)
          match take x p with
          | Some v => Some (Chosen (upd (mk_rchan (sendq ch) 0 (buf ch ++ [v]) (cap ch) false)) i)
          | None => Some Failed
          end
        else None
    end.
(** rt_chan.c:562-602; a select without a default and without a ready case is taken never to be woken *)
Fixpoint pass1 (l : list (word * place)) (i sends : Z) (try : bool) (x : @ext chans) : ended ext :=
  match l with
  | [] => if try then Chosen x (-1) else Never
  | (WInt c, p) :: l => match ready x i sends c p with Some r => r | None => pass1 l (i + 1) sends try x end
  | _ :: _ => Failed
  end.
(** rt_chan_select *)
Definition chan_select (l : list (word * place)) (sends recvs : Z) (try : bool) (x : @ext chans) : ended ext :=
  pass1 l 0 sends try x.
