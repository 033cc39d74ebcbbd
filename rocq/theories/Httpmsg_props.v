(** C55, C71, C72, C73: HTTP messages (std/http). *)
From Verif Require Import Base Base_lemmas Strings_spec Bufio_model Bufio_spec Bufio_proof Bufio_line_proof
  Chunked_model Chunked_spec Chunked_proof Httpmsg_model Httpmsg_spec Httpmsg_proof Httpmsg_read_proof.

(** C55.  The response the server sends for [msg] announces exactly the bytes that follow its empty
    line.  The headers set by the program must be single lines and must not announce a length
    themselves; the statement without that condition is refuted below. *)
Theorem server_response_framed_partial : forall r msg,
  Forall header_ok (sr_headers r) -> 0 <= sr_status r < 1000 -> ~ In 10 (sr_message r) -> ~ In 10 (sr_type r) -> zlen msg < 2 ^ 63 ->
  exists t, to_str (send r msg) = Ok t /\ framed t msg.
Proof. exact to_str_framed. Qed.
Print Assumptions server_response_framed_partial.

Definition r1 : sresponse := mk_sresponse [(bs "Connection", bs "close"); (bs "X-A", bs "1")] 404 (bs "Not Found") 0 [] (bs "text/plain").

Example server_response_case :
  Forall header_ok (sr_headers r1) /\
  to_str (send r1 [104; 10; 13; 10; 0]) = Ok (bs "HTTP/1.1 404 Not Found" ++ crlf ++ bs "Connection: close" ++ crlf ++ bs "X-A: 1" ++ crlf ++
    bs "Content-Length: 5" ++ crlf ++ bs "Content-Type: text/plain; charset=utf-8" ++ crlf ++ crlf ++ [104; 10; 13; 10; 0]).
Proof.
  split; [|vm_compute; reflexivity]. repeat constructor; try (cbn; lia); vm_compute; discriminate.
Qed.

(** C55: a Content-Length set by the program stands beside the computed one, and a line break in a
    header's value moves the empty line. *)
Theorem server_response_framed_refuted :
  (exists r msg t l m, to_str (send r msg) = Ok t /\ Forall (fun kv => ~ In 10 (snd kv)) (sr_headers r) /\
     t = bs "HTTP/1.1 200 OK" ++ crlf ++ bs "Content-Length: " ++ l ++ crlf ++ bs "Content-Length: " ++ m ++ crlf ++
         bs "Content-Type: text/plain; charset=utf-8" ++ crlf ++ crlf ++ msg /\ decimal l 9 /\ decimal m 5 /\ zlen msg = 5) /\
  (exists r msg t rest, to_str (send r msg) = Ok t /\
     t = bs "HTTP/1.1 200 OK" ++ crlf ++ bs "X: a" ++ crlf ++ crlf ++ rest /\ zlen rest <> zlen msg).
Proof.
  split.
  - exists (mk_sresponse [(bs "Content-Length", bs "9")] 200 (bs "OK") 0 [] (bs "text/plain")), (bs "hello"). do 1 eexists. exists (bs "9"), (bs "5").
    split; [vm_compute; reflexivity|]. split; [repeat constructor; cbn; lia|]. split; [reflexivity|].
    split; [|split; [|reflexivity]]; (split; [discriminate|split; [apply Forall_cons; [vm_compute; split; discriminate|apply Forall_nil]|reflexivity]]).
  - exists (mk_sresponse [(bs "X", [97; 13; 10; 13; 10])] 200 (bs "OK") 0 [] (bs "text/plain")), (bs "hello"). do 1 eexists.
    exists (crlf ++ bs "Content-Length: 5" ++ crlf ++ bs "Content-Type: text/plain; charset=utf-8" ++ crlf ++ crlf ++ bs "hello").
    split; [vm_compute; reflexivity|]. split; [reflexivity|vm_compute; discriminate].
Qed.
Print Assumptions server_response_framed_refuted.

(** C73.  The request the client sends announces exactly the bytes of its body, also when the
    program has set a Content-Length of its own. *)
Theorem client_request_framed_partial : forall method uri authority h body,
  NoDup (map fst h) -> Forall (fun kv => nul_free (fst kv)) h -> (forall kv, In kv h -> fst kv = bs "Content-Length" \/ header_ok kv) ->
  ~ In 10 method -> ~ In 10 uri -> ~ In 10 authority -> zlen body < 2 ^ 63 ->
  exists t, request_text method uri authority h body = Ok t /\ framed t body.
Proof. intros method uri authority h body N _. exact (request_framed method uri authority h body N). Qed.
Print Assumptions client_request_framed_partial.

Example client_request_case :
  request_text (bs "POST") (bs "/a?b=c") (bs "h:80") [(bs "Content-Length", bs "9"); (bs "A", bs "b")] (bs "body") =
  Ok (bs "POST /a?b=c HTTP/1.1" ++ crlf ++ bs "Content-Length: 4" ++ crlf ++ bs "A: b" ++ crlf ++ bs "Host: h:80" ++ crlf ++
      bs "User-Agent: Nature-HTTP-Client/1.0" ++ crlf ++ crlf ++ bs "body") /\
  (forall kv, In kv [(bs "Content-Length", bs "9"); (bs "A", bs "b")] -> fst kv = bs "Content-Length" \/ header_ok kv).
Proof.
  split; [vm_compute; reflexivity|]. intros kv [<-|[<-|[]]]; [now left|right]. repeat split; try (cbn; lia). vm_compute. discriminate.
Qed.

(** C73: the name in other letters gives a second length, and a line feed in the URI a request of
    its own. *)
Theorem client_request_framed_refuted :
  exists t rest, request_text (bs "GET") (bs "/") (bs "h") [(bs "content-length", bs "9")] [] = Ok t /\
    t = bs "GET / HTTP/1.1" ++ crlf ++ bs "content-length: 9" ++ crlf ++ bs "Host: h" ++ crlf ++ bs "User-Agent: Nature-HTTP-Client/1.0" ++ crlf ++
        bs "Content-Length: 0" ++ crlf ++ crlf ++ rest /\ rest = [] /\ same_name (bs "content-length") (bs "Content-Length").
Proof. do 1 eexists. exists []. split; [vm_compute; reflexivity|]. split; [reflexivity|]. split; reflexivity. Qed.
Print Assumptions client_request_framed_refuted.

(** What a program sees that sends a request and asks for the text. *)
Definition fetch (s : list event) : ans (list Z) :=
  match receive (new_reader (Z.to_nat 4096) s) with Ret p => text p | Exc e => Exc e | Pan => Pan end.

(** The response to read: lines that fit the buffer, a status that to_int accepts, and lengths,
    where announced, likewise. *)
Definition sound_head (limit : Z) (ver code : list Z) (c : Z) (reason : list Z) (fields : list field) : Prop :=
  ~ In 32 ver /\ decimal code c /\ c <= 2147483649 /\ ~ In 10 reason /\ zlen reason + 2 <= limit /\ Forall (field_ok limit) fields /\
  (forall f, In f fields -> f_name f = bs "Content-Length" -> exists d, decimal (f_value f) d /\ d <= 2147483649).

Definition chunked_announced (fields : list field) : Prop :=
  exists f, In f fields /\ f_name f = bs "Transfer-Encoding" /\ within (bs "chunked") (f_value f).

(** C72.  The client reports version, status, reason and, under each header name, the value of the
    last field of that name; and text returns the body, for every body announced by Content-Length
    or sent in chunks, however the network delivers it. *)
Theorem client_reads_response_partial : forall size s ver code c reason fields body wire rest,
  (2 <= size)%nat -> steady s -> stream s = head ver code reason fields ++ wire ++ rest -> sound_head (Z.of_nat size) ver code c reason fields ->
  (~ chunked_announced fields /\ (exists v, last_value fields (bs "Content-Length") v /\ decimal v (zlen body)) /\ wire = body \/
   chunked_announced fields /\ chunked (Z.of_nat size) body wire /\ zlen body < 2 ^ 63) ->
  exists p, receive (new_reader size s) = Ret p /\ version p = ver /\ status p = c /\ message p = reason /\
    (forall k v, In (k, v) (r_headers p) <-> last_value fields k v) /\ NoDup (map fst (r_headers p)) /\
    text p = Ret body.
Proof.
  intros size s ver code c reason fields body wire rest N St E (Nv & Dc & Bc & Nr & Lr & Fo & Fl) B.
  assert (Fl' : Forall length_ok fields) by (apply Forall_forall; intros f I; exact (Fl f I)).
  destruct (receive_ready (new_reader size s) [] (Z.of_nat size) ver code c reason fields (wire ++ rest) (new_holds size s) ltac:(lia)) as (y & rd & m & Er & Le & H & Q & P); auto.
  { split; [exact St|discriminate]. }
  eexists. split; [exact Er|]. cbn [version status message r_headers]. split; [reflexivity|]. split; [reflexivity|]. split; [reflexivity|].
  destruct (learned_headers fields ([], 0, false) y (NoDup_nil _) Le) as (Nd & Hh). split; [|split; [exact Nd|]].
  { intros k v. rewrite Hh. cbn [fst]. split; [intros [X|([] & _)]; exact X|auto]. }
  destruct (learned_length _ _ _ Le) as (L1 & _). pose proof (learned_chunked _ _ _ Le) as Lc. cbn [snd] in Lc.
  unfold text. cbn [r_length is_chunked conn]. destruct B as [(Nc & (v & Lv & Dv) & ->)|(Yc & Wc & Bb)].
  - destruct (snd y) eqn:Sy; [exfalso; apply Nc; destruct (proj1 Lc eq_refl) as [X|X]; [exact X|discriminate]|].
    assert (snd (fst y) = zlen body) as -> by (destruct (L1 v Lv) as (_ & _ & <-); apply Dv). pose proof (zlen_nonneg body).
    destruct (Z.eqb_spec (zlen body) 0) as [Z0|Z0]; cbn [andb negb].
    + f_equal. destruct body as [|x b]; [reflexivity|rewrite zlen_cons in Z0; pose proof (zlen_nonneg b); lia].
    + replace (zlen body <? 0) with false by lia. destruct (read_exact_ready rd m _ body rest H ltac:(lia) Q P) as (rd' & u & ->). reflexivity.
  - rewrite (proj2 Lc (or_introl Yc)). rewrite Bool.andb_false_r. apply (text_ready rd m (Z.of_nat size) _ body wire rest); auto; lia.
Qed.
Print Assumptions client_reads_response_partial.

Definition fields1 : list field :=
  [mk_field (bs "Server") [32] (bs "a b c") [32; 32]; mk_field (bs "Content-Length") [] (bs "12") []; mk_field (bs "Server") [] (bs "n: x") []].

Lemma tight_of s : match s, rev s with c :: _, d :: _ => c <> 32 /\ d <> 32 | _, _ => True end -> tight s.
Proof.
  intro H. split; intros c r E.
  - subst s. destruct (rev (c :: r)) eqn:R; [cbn [rev] in R; apply app_eq_nil in R as (_ & R); discriminate|tauto].
  - destruct s as [|d s]; [destruct r; discriminate E|].
    assert (R : rev (d :: s) = c :: rev r) by (rewrite E; now rewrite rev_app_distr). rewrite R in H. tauto.
Qed.

Example client_reads_response_case :
  sound_head 4096 (bs "HTTP/1.1") (bs "200") 200 (bs "All right") fields1 /\ last_value fields1 (bs "Content-Length") (bs "12") /\
  last_value fields1 (bs "Server") (bs "n: x") /\ ~ chunked_announced fields1 /\
  let s := [Data (head (bs "HTTP/1.1") (bs "200") (bs "All right") fields1); Data (bs "hello "); Data (bs "world!x")] in
  match receive (new_reader (Z.to_nat 4096) s) with Ret p => r_headers p = [(bs "Server", bs "n: x"); (bs "Content-Length", bs "12")] | _ => False end /\
  fetch s = Ret (bs "hello world!").
Proof.
  assert (D : forall s n, dec_value s = n -> s <> [] -> forallb (fun c => (48 <=? c) && (c <=? 57)) s = true -> decimal s n).
  { intros s n E Ne F. split; [exact Ne|]. split; [|exact E]. apply Forall_forall. intros c I. rewrite forallb_forall in F. specialize (F c I). unfold is_digit. lia. }
  split; [|split; [|split; [|split]]].
  - split; [cbn; lia|]. split; [apply D; [reflexivity|discriminate|reflexivity]|]. split; [lia|]. split; [cbn; lia|]. split; [vm_compute; discriminate|]. split.
    + repeat constructor; try discriminate; try (cbn; lia); try (repeat constructor; fail); try (vm_compute; discriminate);
        try (apply tight_of; vm_compute; split; discriminate).
    + intros f [<-|[<-|[<-|[]]]]; cbn [f_name f_value]; intro X; try discriminate X. exists 12. split; [apply D; [reflexivity|discriminate|reflexivity]|lia].
  - exists [mk_field (bs "Server") [32] (bs "a b c") [32; 32]]. do 2 eexists. split; [reflexivity|]. split; [reflexivity|]. split; [reflexivity|]. intros g [<-|[]]. vm_compute. discriminate.
  - exists [mk_field (bs "Server") [32] (bs "a b c") [32; 32]; mk_field (bs "Content-Length") [] (bs "12") []]. do 2 eexists. split; [reflexivity|]. split; [reflexivity|]. split; [reflexivity|]. intros g [].
  - intros (f & [<-|[<-|[<-|[]]]] & E & _); vm_compute in E; discriminate E.
  - cbv zeta. split; vm_compute; reflexivity.
Qed.

(** C72: a length announced in other letters, a body that ends with the connection, and a body
    beyond two gigabytes. *)
Theorem client_reads_response_refuted :
  (fetch [Data (bs "HTTP/1.1 200 OK" ++ crlf ++ bs "content-length: 5" ++ crlf ++ crlf ++ bs "hello")] = Ret [] /\
   same_name (bs "content-length") (bs "Content-Length")) /\
  fetch [Data (bs "HTTP/1.1 200 OK" ++ crlf ++ bs "Connection: close" ++ crlf ++ crlf ++ bs "hello")] = Ret [] /\
  fetch [Data (bs "HTTP/1.1 200 OK" ++ crlf ++ bs "Content-Length: 3000000000" ++ crlf ++ crlf)] = Exc false.
Proof. split; [split|split]; vm_compute; reflexivity. Qed.
Print Assumptions client_reads_response_refuted.

(** C71.  A body that is not sent in chunks is never returned short: whatever the connection does,
    what text returns has the announced length and stands in this order on the connection.  For
    chunked bodies this is refuted ([truncation_reported_refuted]). *)
Theorem truncation_reported_partial : forall size s p b, (0 < size)%nat ->
  receive (new_reader size s) = Ret p -> is_chunked p = false -> text p = Ret b ->
  zlen b = r_length p /\ exists before after, stream s = before ++ b ++ after.
Proof. exact text_complete. Qed.
Print Assumptions truncation_reported_partial.

Example truncation_case :
  let s := [Data (bs "HTTP/1.1 200 OK" ++ crlf ++ bs "Content-Length: 5" ++ crlf ++ crlf ++ bs "hel"); Fail; Data (bs "lo")] in
  match receive (new_reader (Z.to_nat 4096) s) with Ret p => is_chunked p = false /\ r_length p = 5 | _ => False end /\ fetch s = Exc false.
Proof. cbv zeta. split; [vm_compute; split|vm_compute]; reflexivity. Qed.

(** C55 with C72: the client reads back what the server sent. *)
Theorem server_to_client : forall r msg s rest,
  Forall header_ok (sr_headers r) -> 0 <= sr_status r < 1000 -> ~ In 10 (sr_message r) -> zlen (sr_message r) + 2 <= 4096 ->
  Forall (fun kv => field_ok 4096 (mk_field (fst kv) [32] (snd kv) [])) (sr_headers r) ->
  (forall kv, In kv (sr_headers r) -> fst kv = bs "Transfer-Encoding" -> ~ within (bs "chunked") (snd kv)) ->
  field_ok 4096 (mk_field (bs "Content-Type") [32] (sr_type r ++ bs "; charset=utf-8") []) -> zlen msg <= 2147483649 ->
  steady s -> (exists t, to_str (send r msg) = Ok t /\ stream s = t ++ rest) ->
  exists p, receive (new_reader (Z.to_nat 4096) s) = Ret p /\ status p = sr_status r /\ message p = sr_message r /\ text p = Ret msg.
Proof.
  intros r msg s rest Hh Hs Hm Lm Hf Ht Hc Hl St (t & Et & Es). pose proof (zlen_nonneg msg).
  destruct (http_utos_spec (zlen msg)) as (n & En & Dn); [lia|].
  rewrite (to_str_head (send r msg) n) in Et by (cbn [send sr_length]; unfold u64; rewrite Z.mod_small by lia; exact En).
  match type of Et with Ok ?u = Ok _ => assert (t = u) as -> by congruence end. clear Et.
  rewrite <- app_assoc in Es. change (sr_body (send r msg)) with msg in Es.
  assert (Dc := status_decimal _ Hs).
  assert (Ln : Forall is_digit n) by apply Dn.
  assert (Nn : forall x, In x n -> 48 <= x <= 57) by (intros x I; apply (proj1 (Forall_forall _ _) Ln) in I; exact I).
  assert (Zn := http_utos_len _ _ En).
  assert (Fcl : field_ok 4096 (mk_field (bs "Content-Length") [32] n [])).
  { split; [discriminate|]. split; [cbn; lia|]. split; [apply tight_of; vm_compute; split; discriminate|]. split.
    { split; intros c q Eq; cbn [f_value] in Eq; rewrite Eq in Nn; [specialize (Nn c (or_introl eq_refl)); lia|].
      specialize (Nn c ltac:(apply in_or_app; right; now left)). lia. }
    split; [repeat constructor|]. split; [constructor|]. split.
    { unfold field_line. cbn [f_name f_before f_value f_after]. rewrite app_nil_r. intro I. apply in_app_or in I as [I|[I|[I|I]]]; [cbn in I; lia|lia|lia|]. apply Nn in I. lia. }
    split; [cbn [f_name f_value]; intro I; apply in_app_or in I as [I|I]; [cbn in I; lia|apply Nn in I; lia]|]. unfold field_line. cbn [f_name f_before f_value f_after]. rewrite app_nil_r. cbn [app]. rewrite zlen_app, !zlen_cons.
    change (zlen (bs "Content-Length")) with 14. lia. }
  destruct (client_reads_response_partial (Z.to_nat 4096) s (bs "HTTP/1.1") (status_to_str (sr_status r)) (sr_status r) (sr_message r) (fields_of (send r msg) n) msg msg rest)
    as (p & Er & _ & E1 & E2 & _ & _ & E3).
  - lia.
  - exact St.
  - exact Es.
  - rewrite Z2Nat.id by lia. split; [cbn; lia|]. split; [exact Dc|]. split; [lia|]. split; [exact Hm|]. split; [exact Lm|]. split.
    + unfold fields_of. cbn [send sr_headers sr_type]. apply Forall_app. split; [|constructor; [exact Fcl|constructor; [exact Hc|constructor]]].
      clear -Hf. induction Hf as [|kv l Hk _ IH]; cbn [map]; constructor; auto.
    + intros f I K. unfold fields_of in I. cbn [send sr_headers sr_type] in I. apply in_app_or in I as [I|[<-|[<-|[]]]].
      * apply in_map_iff in I as (kv & <- & I). cbn [f_name] in K. apply (proj1 (Forall_forall _ _) Hh) in I. destruct I as (_ & _ & _ & D). exfalso. apply D. now rewrite K.
      * exists (zlen msg). split; [exact Dn|lia].
      * discriminate K.
  - left. split; [|split; [|reflexivity]].
    + intros (f & I & K & W). unfold fields_of in I. cbn [send sr_headers sr_type] in I. apply in_app_or in I as [I|[<-|[<-|[]]]]; [|discriminate K|discriminate K].
      apply in_map_iff in I as (kv & <- & I). cbn [f_name f_value] in *. exact (Ht kv I K W).
    + exists n. split; [|exact Dn]. unfold fields_of. cbn [send sr_headers sr_type]. eexists _, _, _. split; [reflexivity|]. split; [reflexivity|]. split; [reflexivity|].
      intros g [<-|[]]. discriminate.
  - exists p. auto.
Qed.
Print Assumptions server_to_client.

Example server_to_client_case :
  match to_str (send r1 (bs "gone")) with
  | Ok t => let s := map (fun c => Data [c]) (t ++ bs "next") in
      match receive (new_reader (Z.to_nat 4096) s) with Ret p => status p = 404 /\ message p = bs "Not Found" | _ => False end /\ fetch s = Ret (bs "gone")
  | _ => False
  end.
Proof. vm_compute. split; [split|]; reflexivity. Qed.
