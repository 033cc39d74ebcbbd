(** What a request is, and what the parser's callbacks say about it. *)
From Verif Require Import Base Httpmsg_model Httpserve_model.

(** A piece of a request. *)
Inductive piece := PUrl (s : list Z) | PField (s : list Z) | PValue (s : list Z) | PBody (s : list Z) | PDone (method : Z).

Definition piece_of (d : list Z) (e : callback) : piece :=
  match e with
  | OnUrl o n => PUrl (sub_list d o (o + n)) | OnField o n => PField (sub_list d o (o + n))
  | OnValue o n => PValue (sub_list d o (o + n)) | OnBody o n => PBody (sub_list d o (o + n)) | OnComplete m => PDone m
  end.

Definition pieces_of (r : netread) : list piece := map (piece_of (data r)) (callbacks r).

(** The parser reports ranges of the bytes of the read, and libuv fills no more than the 4096 bytes
    it was offered. *)
Definition in_read (d : list Z) (e : callback) : Prop :=
  match e with OnUrl o n | OnField o n | OnValue o n | OnBody o n => 0 <= o /\ 0 <= n /\ o + n <= zlen d | OnComplete _ => True end.

Definition read_ok (r : netread) : Prop := zlen (data r) <= 4096 /\ Forall (in_read (data r)) (callbacks r).

(** A request: method, target, header fields and body. *)
Record sent := mk_sent { s_method : Z; s_target : list Z; s_fields : list (list Z * list Z); s_body : list Z }.

Definition message (q : sent) : list piece :=
  [PUrl (s_target q)] ++ flat_map (fun nv => [PField (fst nv); PValue (snd nv)]) (s_fields q) ++
  (if s_body q then [] else [PBody (s_body q)]) ++ [PDone (s_method q)].

(** A piece cut into consecutive pieces of the same kind. *)
Definition cut_piece (p : piece) (l : list piece) : Prop :=
  match p with
  | PUrl s => exists ss, ss <> [] /\ concat ss = s /\ l = map PUrl ss
  | PField s => exists ss, ss <> [] /\ concat ss = s /\ l = map PField ss
  | PValue s => exists ss, ss <> [] /\ concat ss = s /\ l = map PValue ss
  | PBody s => exists ss, ss <> [] /\ concat ss = s /\ l = map PBody ss
  | PDone m => l = [PDone m]
  end.

(** The reads deliver the request: the parser reports its pieces in order, each cut as the network
    cut it. *)
Definition delivers (l : list netread) (q : sent) : Prop :=
  exists ls, Forall2 cut_piece (message q) ls /\ concat (map pieces_of l) = concat ls.

(** The last field called [k] has the value [v]. *)
Definition last_field (l : list (list Z * list Z)) (k v : list Z) : Prop :=
  exists a b, l = a ++ (k, v) :: b /\ forall nv, In nv b -> fst nv <> k.

(** The request as the handler should see it. *)
Definition faithful (q : sent) (r : request) : Prop :=
  q_method r = s_method q /\ q_url r = s_target q /\
  (q_url r = q_path r ++ 63 :: q_query r \/ q_url r = q_path r /\ q_query r = []) /\ ~ In 63 (q_path r) /\
  (forall k v, In (k, v) (q_headers r) <-> last_field (s_fields q) k v) /\
  (forall v, last_field (s_fields q) (bs "Host") v -> q_host r = v) /\
  q_body r = s_body q /\ q_length r = zlen (s_body q).
