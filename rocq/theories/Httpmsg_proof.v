(** Messages are framed, and a framed response is read back. *)
From Verif Require Import Base Base_lemmas Strings_model Strings_spec Strings_proof Fmt_model Fmt_spec Fmt_proof
  Bufio_model Bufio_spec Bufio_proof Bufio_line_proof Bufio_end_proof Chunked_model Chunked_spec Chunked_proof Httpmsg_model Httpmsg_spec.

(** ** Numbers *)

Lemma utos_loop_spec f : forall junk s value, zlen junk + zlen s = 20 -> 0 <= value < 10 ^ zlen junk -> (length junk < f)%nat ->
  exists d, utos_loop f (junk ++ s) (zlen junk - 1) value = Ok (d ++ s) /\ Forall is_digit d /\ dec_value d = value /\ (0 < value -> d <> []).
Proof.
  induction f as [|f IH]; intros junk s value L V F; [lia|]. cbn [utos_loop]. destruct (Z.ltb_spec 0 value) as [P|P].
  - destruct junk as [|x junk] using rev_ind; [rewrite zlen_nil in V; cbn in V; lia|]. clear IHjunk.
    rewrite zlen_app, zlen_cons, zlen_nil in *. replace (zlen junk + (1 + 0) - 1) with (zlen junk) by lia.
    rewrite <- app_assoc. cbn [app]. rewrite set_at_mid. cbn [bind]. set (c := u8 (value mod 10 + 48)).
    assert (C : c = value mod 10 + 48) by (unfold c, u8; lia).
    replace (junk ++ c :: s) with (junk ++ (c :: s)) by reflexivity.
    destruct (IH junk (c :: s) (value / 10)) as (d & E & Fd & Vd & _).
    + rewrite zlen_cons. lia.
    + pose proof (zlen_nonneg junk). replace (zlen junk + (1 + 0)) with (Z.succ (zlen junk)) in V by lia. rewrite Z.pow_succ_r in V by lia. lia.
    + rewrite app_length in F. cbn [length] in F. lia.
    + exists (d ++ [c]). rewrite E. split; [now rewrite <- app_assoc|]. split; [|split].
      * apply Forall_app. split; [exact Fd|]. constructor; [unfold is_digit; lia|constructor].
      * rewrite dec_value_snoc, Vd, C. lia.
      * intros _ E0. apply app_eq_nil in E0 as (_ & E0). discriminate.
  - exists []. split; [|split; [constructor|split; [cbn; lia|lia]]]. replace (zlen junk - 1 + 1) with (zlen junk) by lia.
    rewrite <- L. rewrite <- (zlen_app junk s). apply slice_tail.
Qed.

Lemma http_utos_spec n : 0 <= n < 2 ^ 64 -> exists s, http_utos n = Ok s /\ decimal s n.
Proof.
  intro N. unfold http_utos. destruct (Z.eqb_spec n 0) as [->|N0].
  - exists [48]. split; [reflexivity|]. split; [discriminate|]. split; [|reflexivity]. constructor; [unfold is_digit; lia|constructor].
  - destruct (utos_loop_spec 21 (repeat 0 20) [] n) as (d & E & Fd & Vd & Nd).
    + reflexivity.
    + change (zlen (repeat 0 20)) with 20. lia.
    + rewrite repeat_length. lia.
    + rewrite !app_nil_r in E. change (zlen (repeat 0 20) - 1) with 19 in E. exists d. split; [exact E|]. split; [apply Nd; lia|]. auto.
Qed.

Lemma sprintf_d n : 0 <= n < 2 ^ 63 -> exists s, sprintf (fun _ _ _ _ _ => []) (bs "%d") [ASigned 64 n] = Ok s /\ int_numeral s n.
Proof.
  intro N. destruct (sprintf_items (fun _ _ _ _ _ => []) [Dir false [] 100] [ASigned 64 n]) as (out & E & P).
  - constructor; [|constructor]. cbn [printable]. change (64 - 1) with 63. split; [unfold int_width; cbn; auto|]. split; [lia|]. split; [cbn; auto|]. split; [lia|]. auto.
  - constructor; [|constructor]. cbn. repeat split; auto; try constructor; try lia; cbn; auto.
  - exists out. split; [exact E|]. inversion P as [| | |? ? ? ? ? ? o out' Sh P']; subst. inversion P'; subst. rewrite app_nil_r.
    cbn in Sh. destruct Sh as [(_ & s & Hs & Hp)|[(X & _)|[(X & _)|(X & _)]]]; try discriminate.
    apply padded_0 in Hp. now subst.
Qed.

(** ** Framing *)

Definition kv_line (kv : list Z * list Z) : list Z := fst kv ++ bs ": " ++ snd kv.

Lemma header_lines_lines h : header_lines h = concat (map (fun l => l ++ crlf) (map kv_line h)).
Proof.
  unfold header_lines. rewrite map_map. f_equal. apply map_ext. intros [k v]. unfold kv_line, sep, crlf. cbn [fst snd]. now rewrite <- !app_assoc.
Qed.

Lemma lower_58 c : lower c = 58 -> c = 58.
Proof. unfold lower. destruct ((65 <=? c) && (c <=? 90)) eqn:E; lia. Qed.

Lemma names_key k v x : ~ In 58 k -> ~ In 58 (map lower x) -> names (k ++ 58 :: v) x -> same_name k x.
Proof.
  intros Nk Nx (n & v' & E & S). assert (Nn : ~ In 58 n).
  { intro I. apply Nx. rewrite <- S. change 58 with (lower 58). now apply in_map. }
  apply split_unique in E as (-> & _); auto.
Qed.

Lemma no_colon_cl : ~ In 58 (map lower (bs "Content-Length")).
Proof. vm_compute. intuition discriminate. Qed.

Lemma kv_line_ok kv : header_ok kv -> (kv_line kv <> [] /\ ~ In 10 (kv_line kv)) /\ ~ names (kv_line kv) (bs "Content-Length").
Proof.
  intros (A & B & C & D). split.
  - unfold kv_line. split; [intro E; apply app_eq_nil in E as (_ & E); discriminate|].
    intro I. apply in_app_or in I as [I|I]; [auto|]. cbn in I. destruct I as [I|[I|I]]; [lia|lia|auto].
  - intro Nm. apply D. unfold kv_line in Nm. exact (names_key (fst kv) (32 :: snd kv) _ C no_colon_cl Nm).
Qed.

Lemma kv_lines_ok h : Forall header_ok h ->
  Forall (fun l => l <> [] /\ ~ In 10 l) (map kv_line h) /\ Forall (fun l => ~ names l (bs "Content-Length")) (map kv_line h).
Proof.
  induction 1 as [|kv h H _ (A & B)]; cbn [map]; [auto|]. apply kv_line_ok in H as (H1 & H2). auto.
Qed.

Lemma decimal_no_lf s n : decimal s n -> ~ In 10 s.
Proof. intros (_ & F & _) I. apply (proj1 (Forall_forall _ _) F) in I. unfold is_digit in I. lia. Qed.

Lemma status_no_lf st : 0 <= st < 1000 -> ~ In 10 (status_to_str st).
Proof.
  intro B. unfold status_to_str. rewrite !Z.quot_div_nonneg, !Z.rem_mod_nonneg by lia. unfold u8. cbn [In]. lia.
Qed.

Lemma to_str_framed r msg : Forall header_ok (sr_headers r) -> 0 <= sr_status r < 1000 -> ~ In 10 (sr_message r) -> ~ In 10 (sr_type r) -> zlen msg < 2 ^ 63 ->
  exists t, to_str (send r msg) = Ok t /\ framed t msg.
Proof.
  intros Hh Hs Hm Ht Hl. pose proof (zlen_nonneg msg). unfold to_str. cbn [send sr_length sr_headers sr_status sr_message sr_type sr_body].
  unfold u64. rewrite Z.mod_small by lia. destruct (http_utos_spec (zlen msg)) as (n & -> & Dn); [lia|]. cbn [bind].
  eexists. split; [reflexivity|]. apply kv_lines_ok in Hh as (H1 & H2).
  exists (bs "HTTP/1.1" ++ [32] ++ status_to_str (sr_status r) ++ [32] ++ sr_message r), (map kv_line (sr_headers r)), n, [bs "Content-Type: " ++ sr_type r ++ bs "; charset=utf-8"].
  cbv zeta. split; [|split; [|split; [exact Dn|]]].
  - rewrite header_lines_lines. cbn [map concat]. rewrite map_app, concat_app. cbn [map concat]. unfold sep, crlf2, crlf. rewrite <- ?app_assoc. reflexivity.
  - constructor; [|apply Forall_app; split; [exact H1|]].
    + split; [discriminate|]. intro I. apply in_app_or in I as [I|I]; [cbn in I; lia|]. apply in_app_or in I as [I|I]; [cbn in I; lia|].
      apply in_app_or in I as [I|I]; [now apply status_no_lf in I|]. apply in_app_or in I as [I|I]; [cbn in I; lia|auto].
    + constructor; [split; [discriminate|]|constructor; [split; [discriminate|]|constructor]].
      * intro I. apply in_app_or in I as [I|I]; [cbn in I; lia|]. now apply decimal_no_lf in Dn.
      * intro I. apply in_app_or in I as [I|I]; [cbn in I; lia|]. apply in_app_or in I as [I|I]; [auto|cbn in I; lia].
  - apply Forall_app. split; [exact H2|]. constructor; [|constructor]. intro Nm.
    apply (names_key (bs "Content-Type") (32 :: sr_type r ++ bs "; charset=utf-8")) in Nm; [vm_compute in Nm; discriminate|cbn; lia|exact no_colon_cl].
Qed.

Lemma assign_split h k v : NoDup (map fst h) ->
  exists h1 h2, assign h k v = h1 ++ (k, v) :: h2 /\ (forall kv, In kv (h1 ++ h2) -> In kv h /\ fst kv <> k) /\ NoDup (map fst (assign h k v)).
Proof.
  induction h as [|[k' v'] h IH]; intro N; cbn [assign map fst] in *.
  - exists [], []. split; [reflexivity|]. split; [intros kv []|]. constructor; [intros []|constructor].
  - apply NoDup_cons_iff in N as (Nk & N). destruct (list_eq_dec Z.eq_dec k k') as [<-|D].
    + exists [], h. split; [reflexivity|]. split; [|constructor; assumption].
      intros kv I. cbn [app] in I. split; [now right|]. intros <-. apply Nk. now apply in_map.
    + destruct (IH N) as (h1 & h2 & E & A & B). exists ((k', v') :: h1), h2. split; [now rewrite E|]. split.
      * intros kv [<-|I]; [split; [now left|cbn; auto]|]. destruct (A kv I). split; [now right|auto].
      * cbn [map fst]. constructor; [|exact B]. rewrite E. rewrite map_app. cbn [map fst]. intro I. apply in_app_or in I as [I|[I|I]]; [|congruence|].
        -- apply in_map_iff in I as (kv & <- & I). destruct (A kv) as (A1 & _); [apply in_or_app; now left|]. apply Nk. now apply in_map.
        -- apply in_map_iff in I as (kv & <- & I). destruct (A kv) as (A1 & _); [apply in_or_app; now right|]. apply Nk. now apply in_map.
Qed.

Lemma int_numeral_decimal s n : 0 <= n -> int_numeral s n -> decimal s n.
Proof.
  intros N [(_ & H)|(H & _)]; [|lia]. apply numeral_digits in H as (A & B & C). split; auto.
Qed.

Lemma request_framed method uri authority h body : NoDup (map fst h) -> (forall kv, In kv h -> fst kv = bs "Content-Length" \/ header_ok kv) ->
  ~ In 10 method -> ~ In 10 uri -> ~ In 10 authority -> zlen body < 2 ^ 63 ->
  exists t, request_text method uri authority h body = Ok t /\ framed t body.
Proof.
  intros N Hh Nm Nu Na L. pose proof (zlen_nonneg body). unfold request_text, fill_headers.
  destruct (sprintf_d (zlen body)) as (n & -> & Dn); [lia|]. apply int_numeral_decimal in Dn; [|lia]. cbn [bind].
  destruct (assign_split h (bs "Host") authority N) as (a1 & a2 & E1 & A1 & N1).
  destruct (assign_split (assign h (bs "Host") authority) (bs "User-Agent") (bs "Nature-HTTP-Client/1.0") N1) as (b1 & b2 & E2 & A2 & N2).
  destruct (assign_split _ (bs "Content-Length") n N2) as (c1 & c2 & E3 & A3 & N3). rewrite E3.
  assert (K : Forall header_ok (c1 ++ c2)).
  { apply Forall_forall. intros kv I. apply A3 in I as (I & Nc). rewrite E2 in I. apply in_app_or in I as [I|[<-|I]].
    - destruct (A2 kv) as (I2 & _); [apply in_or_app; now left|]. rewrite E1 in I2. apply in_app_or in I2 as [I2|[<-|I2]].
      + destruct (A1 kv) as (I3 & _); [apply in_or_app; now left|]. destruct (Hh kv I3); [contradiction|assumption].
      + split; [cbn; lia|]. split; [exact Na|]. split; [cbn; lia|vm_compute; discriminate].
      + destruct (A1 kv) as (I3 & _); [apply in_or_app; now right|]. destruct (Hh kv I3); [contradiction|assumption].
    - split; [cbn; lia|]. split; [cbn; lia|]. split; [cbn; lia|vm_compute; discriminate].
    - destruct (A2 kv) as (I2 & _); [apply in_or_app; now right|]. rewrite E1 in I2. apply in_app_or in I2 as [I2|[<-|I2]].
      + destruct (A1 kv) as (I3 & _); [apply in_or_app; now left|]. destruct (Hh kv I3); [contradiction|assumption].
      + split; [cbn; lia|]. split; [exact Na|]. split; [cbn; lia|vm_compute; discriminate].
      + destruct (A1 kv) as (I3 & _); [apply in_or_app; now right|]. destruct (Hh kv I3); [contradiction|assumption]. }
  eexists. split; [reflexivity|]. apply Forall_app in K as (K1 & K2). apply kv_lines_ok in K1 as (P1 & Q1). apply kv_lines_ok in K2 as (P2 & Q2).
  exists (method ++ [32] ++ uri ++ [32] ++ bs "HTTP/1.1"), (map kv_line c1), n, (map kv_line c2). cbv zeta. split; [|split; [|split; [exact Dn|]]].
  - rewrite header_lines_lines, map_app. cbn [map]. change (kv_line (bs "Content-Length", n)) with (bs "Content-Length: " ++ n).
    cbn [concat]. unfold sep. fold crlf. rewrite <- ?app_assoc. reflexivity.
  - constructor; [|apply Forall_app; split; [exact P1|constructor; [|exact P2]]].
    + split; [intro E; apply app_eq_nil in E as (_ & E); discriminate|]. intro I. apply in_app_or in I as [I|I]; [auto|]. cbn [app In] in I. destruct I as [I|I]; [lia|].
      apply in_app_or in I as [I|I]; [auto|cbn in I; lia].
    + split; [discriminate|]. intro I. apply in_app_or in I as [I|I]; [cbn in I; lia|]. now apply decimal_no_lf in Dn.
  - apply Forall_app. auto.
Qed.
