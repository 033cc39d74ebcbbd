(** C01-C04: std/net/url. *)
From Verif Require Import Base Base_lemmas Strings_model Strings_spec Url_model Url_spec Url_proof.

(** C01. *)
Theorem url_decode_encode : forall s, bytes s -> decode (encode s) = Ok s.
Proof. exact decode_encode. Qed.
Print Assumptions url_decode_encode.

Theorem url_encode_alphabet : forall s, bytes s -> encoded_text (encode s).
Proof. intros s H. rewrite encode_enc. now apply enc_encoded. Qed.
Print Assumptions url_encode_alphabet.

Example url_encode_example :
  encode ([0; 255] ++ bs "a b%+/") = bs "%00%FFa+b%25%2B%2F" /\ bytes ([0; 255] ++ bs "a b%+/").
Proof. split; [reflexivity|]. repeat constructor; unfold is_byte; cbn; lia. Qed.

(** C02.  [unescaped] is functional (second theorem), so this fixes the result. *)
Theorem url_decode_exact : forall s, bytes s -> exists t, decode s = Ok t /\ unescaped s t.
Proof. exact decode_spec. Qed.
Print Assumptions url_decode_exact.

Theorem unescaped_functional : forall s t1 t2, unescaped s t1 -> unescaped s t2 -> t1 = t2.
Proof. exact unescaped_det. Qed.
Print Assumptions unescaped_functional.

Example url_decode_example :
  decode (bs "%41+%4%zz%") = Ok (bs "A %4%zz%") /\ decode (bs "%2525") = Ok (bs "%25").
Proof. split; reflexivity. Qed.

(** C03: parse succeeds exactly on texts of the form scheme "://" rest and then returns the
    parts; [url_text] and [host_port] determine the parts (next two theorems). *)
Theorem url_parse_exact : forall u,
  (exists sc rest, u = sc ++ bs "://" ++ rest /\ none_of (bs ":") sc) ->
  exists r, parse u = Ok r /\
    url_text u {| u_scheme := scheme r; u_authority := authority r; u_path := path r;
                  u_query := raw_query r; u_fragment := fragment r |} /\
    exists pt, host_port (authority r) (hostname r) pt /\
      ((int_text pt (port r) /\ Z.abs (port r) <= 2147483649) \/
       ((~ exists n, int_text pt n /\ Z.abs n <= 2147483649) /\ port r = 0)).
Proof. intros u H. destruct (parse_spec u) as [(r & Hr & Hp)|[_ Hn]]; [now exists r|contradiction]. Qed.
Print Assumptions url_parse_exact.

Theorem url_parse_rejects : forall u,
  (~ exists sc rest, u = sc ++ bs "://" ++ rest /\ none_of (bs ":") sc) -> parse u = Throw.
Proof.
  intros u H. destruct (parse_spec u) as [(r & Hr & Ht & _)|[He _]]; [|assumption].
  exfalso. apply H. destruct Ht as (p & q & f & He & Hs & _). 
  exists (scheme r), (authority r ++ p ++ q ++ f). split; [exact He|exact Hs].
Qed.
Print Assumptions url_parse_rejects.

Theorem url_text_functional : forall u x y, url_text u x -> url_text u y -> x = y.
Proof. exact url_text_unique. Qed.
Print Assumptions url_text_functional.

Theorem host_port_functional : forall a h1 p1 h2 p2,
  host_port a h1 p1 -> host_port a h2 p2 -> h1 = h2 /\ p1 = p2.
Proof. exact host_port_unique. Qed.
Print Assumptions host_port_functional.

Example url_parse_example :
  parse (bs "http://[::1]:80?x=/y#z?") =
    Ok (mk_url (bs "http") (bs "[::1]:80") (bs "[::1]") 80 (bs "/") (bs "z?") (bs "x=/y")) /\
  parse (bs "mailto:a@b") = Throw.
Proof. split; reflexivity. Qed.

(** C04, full statement (every list of byte-string pairs with distinct keys) is false: keys
    "\0a" and "\0b" are one key of the result. *)
Theorem url_query_round_trip_refuted :
  exists data r q, Forall good_pair data /\ NoDup (map fst data) /\ raw_query r = form data /\
    query r = Ok q /\ exists k v, In (k, v) data /\ query_get q k <> Ok v.
Proof.
  exists [([0; 97], bs "1"); ([0; 98], bs "2")].
  exists (set_raw_query empty_url (bs "%00a=1&%00b=2")).
  eexists. split.
  { repeat constructor; unfold is_byte; cbn; lia. }
  split.
  { repeat constructor; cbn; [|tauto]. intros [H|[]]. discriminate. }
  split; [reflexivity|]. split; [vm_compute; reflexivity|].
  exists [0; 98], (bs "2"). split; [now right; left|]. vm_compute. discriminate.
Qed.
Print Assumptions url_query_round_trip_refuted.

(** C04, what holds: keys without NUL bytes (values arbitrary).  Missing: keys with NUL. *)
Theorem url_query_round_trip_partial : forall r data,
  Forall (fun kv => bytes (fst kv) /\ bytes (snd kv)) data ->
  Forall (fun kv => nul_free (fst kv)) data ->
  NoDup (map fst data) -> raw_query r = form data ->
  exists q, query r = Ok q /\
    (forall k v, In (k, v) data -> query_get q k = Ok v) /\
    (forall k, nul_free k -> ~ In k (map fst data) -> query_get q k = Ok []).
Proof. exact query_get_spec. Qed.
Print Assumptions url_query_round_trip_partial.

(** Repeated keys collect their values in order. *)
Theorem url_query_multi_partial : forall r data,
  Forall (fun kv => bytes (fst kv) /\ bytes (snd kv)) data ->
  Forall (fun kv => nul_free (fst kv)) data -> raw_query r = form data ->
  exists q, query r = Ok q /\ forall k, nul_free k ->
    let vs := map snd (filter (fun kv => if list_eq_dec Z.eq_dec (fst kv) k then true else false) data) in
    smap_get q k = match vs with [] => None | _ => Some vs end.
Proof.
  intros r data Hd Hn Hr. destruct (query_spec r data Hd Hr) as (q & Hq & Hg).
  exists q. split; [assumption|]. intros k Hk. cbv zeta.
  rewrite <- (values_of_nul_free data k Hn Hk). destruct (Hg k) as [Ha Hb]. unfold get_or in Ha.
  destruct (values_of data k) eqn:E.
  - now apply Hb.
  - destruct (smap_get q k); [now subst|]. destruct Hb as [Hb _]. specialize (Hb eq_refl). discriminate.
Qed.
Print Assumptions url_query_multi_partial.

Example url_query_example :
  let data := [(bs "a b", bs "1&2=3"); ([], []); (bs "k", [0; 200])] in
  form data = bs "a+b=1%262%3D3&=&k=%00%C8" /\
  Forall (fun kv => bytes (fst kv) /\ bytes (snd kv)) data /\
  Forall (fun kv => nul_free (fst kv)) data /\ NoDup (map fst data) /\
  (q <- query (set_raw_query empty_url (form data)) ;; query_get q (bs "a b")) = Ok (bs "1&2=3").
Proof.
  cbv zeta. split; [reflexivity|]. split; [|split; [|split]].
  - repeat constructor; unfold is_byte; cbn; lia.
  - unfold nul_free. repeat constructor; cbn; intros H;
      repeat (destruct H as [H|H]; try discriminate H); try contradiction.
  - repeat constructor; cbn; intros H; repeat (destruct H as [H|H]; try discriminate H); try contradiction.
  - reflexivity.
Qed.
