(** C74, C75: requests arriving at the HTTP server (runtime/nutils/http.c). *)
From Verif Require Import Base Base_lemmas Strings_spec Httpmsg_model Httpserve_model Httpserve_spec Httpserve_proof.

(** C74.  The handler sees the request that was sent, if every part of it (target, each header name,
    each value, the body) arrives within one network read, there are at most 100 headers, and realloc
    does not move the buffer (it is not called before the third read).  Without the first condition
    this is [handler_sees_request_refuted]. *)
Theorem handler_sees_request_partial : forall l q,
  Forall read_ok l -> Forall (fun r => moved r = false) (skipn 2 l) -> zlen (s_fields q) <= 100 -> Forall (fun nv => nul_free (fst nv)) (s_fields q) ->
  concat (map pieces_of l) = message q -> exists r, serve new_sconn l = Ok (Some r) /\ faithful q r.
Proof. intros l q F M L _. exact (handler_sees l q F M L). Qed.
Print Assumptions handler_sees_request_partial.

Definition req1 : list Z := bs "POST /a?b=1 HTTP/1.1" ++ [13; 10] ++ bs "Host: h" ++ [13; 10] ++ bs "X: y" ++ [13; 10; 13; 10].
Definition head1 : netread := mk_netread false req1 [OnUrl 5 6; OnField 22 4; OnValue 28 1; OnField 31 1; OnValue 34 1].
Definition sent1 : sent := mk_sent 3 (bs "/a?b=1") [(bs "Host", bs "h"); (bs "X", bs "y")] (bs "hello world").

Example handler_sees_case :
  let l := [head1; mk_netread true (bs "hello world") [OnBody 0 11; OnComplete 3]] in
  Forall read_ok l /\ concat (map pieces_of l) = message sent1 /\
  serve new_sconn l = Ok (Some (mk_request 3 [(bs "Host", bs "h"); (bs "X", bs "y")] 11 (bs "h") (bs "/a?b=1") (bs "/a") (bs "b=1") (bs "hello world"))).
Proof.
  cbv zeta. split; [|split; vm_compute; reflexivity].
  repeat constructor; vm_compute; try discriminate; try reflexivity.
Qed.

(** C74: a body that arrives in two reads; the handler is started with its second half only.  And
    two requests in one read; the first one is never handled, and the second one is handled with the
    headers of both. *)
Theorem handler_sees_request_refuted :
  (exists l r, Forall read_ok l /\ delivers l sent1 /\ serve new_sconn l = Ok (Some r) /\ q_body r = bs "world" /\ ~ faithful sent1 r) /\
  (exists l q1 q2 r, Forall read_ok l /\ concat (map pieces_of l) = message q1 ++ message q2 /\ serve new_sconn l = Ok (Some r) /\
     ~ faithful q1 r /\ ~ faithful q2 r).
Proof.
  split.
  - exists [head1; mk_netread false (bs "hello ") [OnBody 0 6]; mk_netread false (bs "world") [OnBody 0 5; OnComplete 3]].
    exists (mk_request 3 [(bs "Host", bs "h"); (bs "X", bs "y")] 5 (bs "h") (bs "/a?b=1") (bs "/a") (bs "b=1") (bs "world")).
    split; [repeat constructor; vm_compute; try discriminate; try reflexivity|]. split; [|split; [vm_compute; reflexivity|split; [reflexivity|]]].
    + exists [[PUrl (bs "/a?b=1")]; [PField (bs "Host")]; [PValue (bs "h")]; [PField (bs "X")]; [PValue (bs "y")]; [PBody (bs "hello "); PBody (bs "world")]; [PDone 3]].
      split; [|vm_compute; reflexivity]. unfold message, sent1. cbn [s_target s_fields s_body s_method flat_map app fst snd].
      constructor; [exists [bs "/a?b=1"]; split; [discriminate|split; reflexivity]|].
      constructor; [exists [bs "Host"]; split; [discriminate|split; reflexivity]|].
      constructor; [exists [bs "h"]; split; [discriminate|split; reflexivity]|].
      constructor; [exists [bs "X"]; split; [discriminate|split; reflexivity]|].
      constructor; [exists [bs "y"]; split; [discriminate|split; reflexivity]|].
      constructor; [exists [bs "hello "; bs "world"]; split; [discriminate|split; reflexivity]|].
      constructor; [reflexivity|constructor].
    + intros (_ & _ & _ & _ & _ & _ & E & _). discriminate E.
  - exists [mk_netread false (bs "GET /a HTTP/1.1__A: 1____GET /b HTTP/1.1__B: 2____")
              [OnUrl 4 2; OnField 17 1; OnValue 20 1; OnComplete 1; OnUrl 29 2; OnField 42 1; OnValue 45 1; OnComplete 1]].
    exists (mk_sent 1 (bs "/a") [(bs "A", bs "1")] []), (mk_sent 1 (bs "/b") [(bs "B", bs "2")] []).
    exists (mk_request 1 [(bs "A", bs "1"); (bs "B", bs "2")] 0 [] (bs "/b") (bs "/b") [] []).
    split; [repeat constructor; vm_compute; try discriminate; try reflexivity|]. split; [vm_compute; reflexivity|]. split; [vm_compute; reflexivity|]. split.
    + intros (_ & E & _). discriminate E.
    + intros (_ & _ & _ & _ & H & _). destruct (H (bs "A") (bs "1")) as (H1 & _). specialize (H1 (or_introl eq_refl)). apply last_field_in in H1 as [E|[]]. discriminate E.
Qed.
Print Assumptions handler_sees_request_refuted.

(** C75.  Whatever arrives, the reads stay inside the buffers, as long as there are fewer than 100
    headers. *)
Theorem server_reads_in_bounds_partial : forall l, Forall read_ok l ->
  zlen (filter (fun p => match p with PValue _ => true | _ => false end) (concat (map pieces_of l))) < 100 -> exists c, read_all new_sconn l = Ok c.
Proof. intros l F B. apply (reads_safe l new_sconn new_sound F). cbn [new_sconn fields]. rewrite zlen_nil. exact B. Qed.
Print Assumptions server_reads_in_bounds_partial.

Example server_reads_case : exists l, Forall read_ok l /\ length l = 3%nat /\
  zlen (filter (fun p => match p with PValue _ => true | _ => false end) (concat (map pieces_of l))) = 2.
Proof.
  exists [head1; mk_netread false (bs "hello ") [OnBody 0 6]; mk_netread true (bs "world") [OnBody 0 5; OnComplete 3]].
  split; [repeat constructor; vm_compute; try discriminate; try reflexivity|]. split; vm_compute; reflexivity.
Qed.

(** C75: the 101st header is written past the end of the array; and once realloc has moved the
    buffer, the handler reads the header from memory that was given back. *)
Theorem server_memory_safe_refuted :
  (exists r, read_ok r /\ zlen (data r) < 4096 /\ on_read new_sconn r = UB) /\
  (exists l q, Forall read_ok l /\ concat (map pieces_of l) = message q /\ serve new_sconn l = UB).
Proof.
  split.
  - exists (mk_netread false (bs "GET / HTTP/1.1__" ++ concat (repeat (bs "A:b__") 101) ++ bs "__")
      (OnUrl 4 1 :: flat_map (fun i => [OnField (16 + 5 * Z.of_nat i) 1; OnValue (18 + 5 * Z.of_nat i) 1]) (seq 0 101))).
    split; [|split; vm_compute; reflexivity]. split; [vm_compute; discriminate|]. cbn [data callbacks].
    assert (zlen (bs "GET / HTTP/1.1__" ++ concat (repeat (bs "A:b__") 101) ++ bs "__") = 523) as L by (vm_compute; reflexivity).
    constructor; [unfold in_read; rewrite L; lia|]. apply Forall_forall. intros e I. apply in_flat_map in I as (i & I & [<-|[<-|[]]]); apply in_seq in I; unfold in_read; rewrite L; lia.
  - exists [mk_netread false (bs "GET ") []; mk_netread false (bs "/x HTTP/1.1__") [OnUrl 0 2]; mk_netread true (bs "__") [OnComplete 1]], (mk_sent 1 (bs "/x") [] []).
    split; [repeat constructor; vm_compute; try discriminate; try reflexivity|]. split; vm_compute; reflexivity.
Qed.
Print Assumptions server_memory_safe_refuted.
