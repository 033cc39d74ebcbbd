(** serialize_string writes, and parser_string reads, exactly the strings of the grammar. *)
From Verif Require Import Base Base_lemmas Bitmap_proof Json_type Json_spec Json_model Json_utf8_proof Fmt_model.

(** ** Hexadecimal digits *)

Lemma hex_digit_spec c : (hex_digit c = -1 /\ forall d, ~ hexdigit c d) \/ (0 <= hex_digit c <= 15 /\ hexdigit c (hex_digit c)).
Proof.
  unfold hex_digit, hexdigit.
  destruct ((48 <=? c) && (c <=? 57)) eqn:A; [right; lia|].
  destruct ((97 <=? c) && (c <=? 102)) eqn:B; [right; lia|].
  destruct ((65 <=? c) && (c <=? 70)) eqn:C; [right; lia|].
  left. split; [reflexivity|]. intros d D. lia.
Qed.

Lemma hexdigit_eq c d : hexdigit c d -> hex_digit c = d.
Proof.
  intro H. destruct (hex_digit_spec c) as [(_ & N)|(_ & X)]; [now destruct (N d)|].
  unfold hexdigit in *. lia.
Qed.

Lemma hexdigit_range c d : hexdigit c d -> 48 <= c <= 102 /\ 0 <= d <= 15 /\ c <> 92.
Proof. unfold hexdigit. lia. Qed.

Lemma hex4_range h n : hex4 h n -> 0 <= n <= 65535.
Proof.
  intros (a & b & c & d & da & db & dc & dd & -> & A & B & C & D & ->).
  apply hexdigit_range in A, B, C, D. lia.
Qed.

Lemma hex4_fun h n n' : hex4 h n -> hex4 h n' -> n = n'.
Proof.
  intros (a & b & c & d & da & db & dc & dd & -> & A & B & C & D & ->).
  intros (a' & b' & c' & d' & da' & db' & dc' & dd' & E & A' & B' & C' & D' & ->).
  injection E as <- <- <- <-.
  apply hexdigit_eq in A, B, C, D, A', B', C', D'. lia.
Qed.

(** parser_hex4 accepts four hexadecimal digits and nothing else. *)
Lemma parser_hex4_spec data :
  (parser_hex4 data = Throw /\ forall h n r, hex4 h n -> data <> h ++ r) \/
  (exists h n r, hex4 h n /\ data = h ++ r /\ parser_hex4 data = Ok (n, r) /\ hex4_loop 4 data 0 = Ok (n, r)).
Proof.
  unfold parser_hex4.
  destruct data as [|a [|b [|c [|d r]]]];
    try (left; split; [reflexivity|]; intros h n r' (? & ? & ? & ? & ? & ? & ? & ? & -> & _); discriminate).
  rewrite zlen4. cbn [hex4_loop].
  assert (X : forall h n r', hex4 h n -> a :: b :: c :: d :: r = h ++ r' ->
    exists da db dc dd, hexdigit a da /\ hexdigit b db /\ hexdigit c dc /\ hexdigit d dd).
  { intros h n r' (? & ? & ? & ? & da & db & dc & dd & -> & A & B & C & D & _) E. cbn [app] in E.
    injection E as <- <- <- <- _. exists da, db, dc, dd. auto. }
  destruct (hex_digit_spec a) as [(Ea & N)|(Ra & Ha)].
  { left. rewrite Ea. split; [reflexivity|]. intros h n r' H E. destruct (X _ _ _ H E) as (da & db & dc & dd & A & B & C & D). now apply (N da). }
  destruct (Z.eqb_spec (hex_digit a) (-1)); [lia|].
  destruct (hex_digit_spec b) as [(Eb & N)|(Rb & Hb)].
  { left. rewrite Eb. split; [reflexivity|]. intros h n' r' H E. destruct (X _ _ _ H E) as (da & db & dc & dd & A & B & C & D). now apply (N db). }
  destruct (Z.eqb_spec (hex_digit b) (-1)); [lia|].
  destruct (hex_digit_spec c) as [(Ec & N)|(Rc & Hc)].
  { left. rewrite Ec. split; [reflexivity|]. intros h n' r' H E. destruct (X _ _ _ H E) as (da & db & dc & dd & A & B & C & D). now apply (N dc). }
  destruct (Z.eqb_spec (hex_digit c) (-1)); [lia|].
  destruct (hex_digit_spec d) as [(Ed & N)|(Rd & Hd)].
  { left. rewrite Ed. split; [reflexivity|]. intros h n' r' H E. destruct (X _ _ _ H E) as (da & db & dc & dd & A & B & C & D). now apply (N dd). }
  destruct (Z.eqb_spec (hex_digit d) (-1)); [lia|].
  right. exists [a; b; c; d], (4096 * hex_digit a + 256 * hex_digit b + 16 * hex_digit c + hex_digit d), r.
  split; [exists a, b, c, d, (hex_digit a), (hex_digit b), (hex_digit c), (hex_digit d); auto 10|].
  split; [reflexivity|].
  replace ((((0 * 16 + hex_digit a) * 16 + hex_digit b) * 16 + hex_digit c) * 16 + hex_digit d)
    with (4096 * hex_digit a + 256 * hex_digit b + 16 * hex_digit c + hex_digit d) by lia.
  auto.
Qed.

Lemma hex4_len h n : hex4 h n -> length h = 4%nat.
Proof. intros (? & ? & ? & ? & ? & ? & ? & ? & -> & _). reflexivity. Qed.

Lemma hex4_app_inj h n h' n' r r' : hex4 h n -> hex4 h' n' -> h ++ r = h' ++ r' -> n = n' /\ r = r'.
Proof.
  intros H H' E.
  assert (Q : h = h' /\ r = r').
  { apply app_zlen_inj; [exact E|]. unfold zlen. now rewrite (hex4_len _ _ H), (hex4_len _ _ H'). }
  destruct Q as [Q1 Q2]. subst h'. split; [now apply (hex4_fun h)|exact Q2].
Qed.

(** The four outcomes of a `\u` escape. *)
Lemma unicode_escape_spec data :
  (unicode_escape data = Throw /\ forall h n r, hex4 h n -> data <> h ++ r) \/
  (exists h n r, hex4 h n /\ data = h ++ r /\
    ((scalar n /\ unicode_escape data = Ok (n, r)) \/
     (low n /\ unicode_escape data = Ok (65533, r)) \/
     (high n /\ exists h' n' u, hex4 h' n' /\ low n' /\ r = 92 :: 117 :: h' ++ u /\
        unicode_escape data = Ok (65536 + 1024 * (n - 55296) + (n' - 56320), u)) \/
     (high n /\ (forall h' n' u, hex4 h' n' -> low n' -> r <> 92 :: 117 :: h' ++ u) /\
        unicode_escape data = Ok (65533, r)))).
Proof.
  unfold unicode_escape.
  destruct (parser_hex4_spec data) as [(E & N)|(h & n & r & H & D & E & _)]; [left; rewrite E; auto|].
  right. exists h, n, r. split; [exact H|]. split; [exact D|]. rewrite E. cbn [bind].
  pose proof (hex4_range _ _ H) as R.
  destruct ((55296 <=? n) && (n <=? 56319)) eqn:Hi.
  2:{ destruct ((56320 <=? n) && (n <=? 57343)) eqn:Lo.
      - right; left. split; [unfold low; lia|reflexivity].
      - left. split; [unfold scalar; lia|reflexivity]. }
  assert (Hh : high n) by (unfold high; lia). clear Hi.
  right; right.
  assert (Case : (exists h' n' u, hex4 h' n' /\ r = 92 :: 117 :: h' ++ u /\ low n') \/ (forall h' n' u, hex4 h' n' -> low n' -> r <> 92 :: 117 :: h' ++ u)).
  { destruct r as [|x [|y r']]; [right; intros; discriminate..|].
    destruct (Z.eq_dec x 92) as [->|]; [|right; intros; congruence].
    destruct (Z.eq_dec y 117) as [->|]; [|right; intros; congruence].
    destruct (parser_hex4_spec r') as [(_ & N)|(h' & n' & u & H' & -> & _)].
    - right. intros h' n' u H' _ Q. injection Q as Q. now apply (N h' n' u).
    - destruct (Z_le_dec 56320 n') as [|]; [destruct (Z_le_dec n' 57343) as [|]|].
      + left. exists h', n', u. repeat split; auto; lia.
      + right. intros h2 n2 u2 H2 L2 Q. injection Q as Q. destruct (hex4_app_inj _ _ _ _ _ _ H' H2 Q). subst. unfold low in L2. lia.
      + right. intros h2 n2 u2 H2 L2 Q. injection Q as Q. destruct (hex4_app_inj _ _ _ _ _ _ H' H2 Q). subst. unfold low in L2. lia. }
  destruct Case as [(h' & n' & u & H' & -> & L')|N].
  - left. split; [exact Hh|]. exists h', n', u. split; [exact H'|]. split; [exact L'|]. split; [reflexivity|].
    assert (Ln : (6 <=? zlen (92 :: 117 :: h' ++ u)) = true).
    { rewrite !zlen_cons, zlen_app. pose proof (zlen_nonneg u). pose proof (hex4_len _ _ H') as Hl. unfold zlen at 1. rewrite Hl. lia. }
    rewrite Ln, at_cons_0. cbn [bind Z.eqb Pos.eqb]. rewrite at_cons_1. cbn [bind Z.eqb Pos.eqb skipn].
    destruct (parser_hex4_spec (h' ++ u)) as [(_ & Q)|(h2 & n2 & u2 & H2 & Q & P & L)]; [exfalso; now apply (Q h' n' u)|].
    destruct (hex4_app_inj _ _ _ _ _ _ H' H2 Q) as [<- <-]. rewrite P.
    assert (Pk : hex4_peek (h' ++ u) = Ok n').
    { unfold hex4_peek. rewrite L. replace (zlen (h' ++ u) <? 4) with false; [reflexivity|].
      rewrite zlen_app. pose proof (zlen_nonneg u). pose proof (hex4_len _ _ H') as Hl. unfold zlen at 1. rewrite Hl. lia. }
    rewrite Pk. cbn [bind]. unfold low in L'. replace ((56320 <=? n') && (n' <=? 57343)) with true by lia.
    f_equal. f_equal. rewrite Z.shiftl_mul_pow2 by lia. change (2 ^ 10) with 1024. lia.
  - right. split; [exact Hh|]. split; [exact N|].
    match goal with |- bind ?e _ = _ => assert (Q : exists low, e = Ok low /\ ~ (56320 <= low <= 57343)) end.
    { destruct (Z.leb_spec 6 (zlen r)) as [L6|]; [|exists (-1); split; [reflexivity|lia]].
      destruct r as [|x [|y r']]; [rewrite zlen_nil in L6; lia|rewrite zlen_cons, zlen_nil in L6; lia|].
      rewrite at_cons_0. cbn [bind]. destruct (Z.eqb_spec x 92) as [->|]; [|exists (-1); split; [reflexivity|lia]].
      rewrite at_cons_1. cbn [bind]. destruct (Z.eqb_spec y 117) as [->|]; [|exists (-1); split; [reflexivity|lia]].
      cbn [skipn]. unfold hex4_peek. rewrite !zlen_cons in L6. replace (zlen r' <? 4) with false by lia.
      destruct (parser_hex4_spec r') as [(P & _)|(h2 & n2 & u2 & H2 & Q & _ & P)].
      - unfold parser_hex4 in P. replace (zlen r' <? 4) with false in P by lia. rewrite P. exists (-1). split; [reflexivity|lia].
      - rewrite P. exists n2. split; [reflexivity|]. intro L. apply (N h2 n2 u2 H2); [exact L|]. now rewrite Q. }
    destruct Q as (lo & Q & L). rewrite Q. cbn [bind]. replace ((56320 <=? lo) && (lo <=? 57343)) with false by lia.
    reflexivity.
Qed.

(** ** Reading a string *)

Lemma utf8_high_bytes cp : scalar cp -> 128 <= cp -> Forall (fun b => 128 <= b) (utf8 cp).
Proof.
  intros S L. destruct (utf8_cases cp S) as [(X & Q)|[(_ & x & y & Q & A & B & V)|[(_ & x & y & z & Q & A & B & C & _ & _ & V)|(_ & x & y & z & w & Q & A & B & C & D & _ & _ & V)]]];
  rewrite Q; repeat constructor; lia.
Qed.

Lemma app_before (a b c d : list Z) x : a ++ b = c ++ x :: d -> ~ In x a -> exists e, c = a ++ e /\ b = e ++ x :: d.
Proof.
  revert c. induction a as [|y a IH]; intros c E N; [exists c; auto|].
  destruct c as [|z c]; cbn [app] in E; injection E as E1 E2.
  - destruct N. now left.
  - subst z. destruct (IH c E2) as (e & -> & ->); [intro I; apply N; now right|]. exists e. auto.
Qed.

Lemma no_scalar_quote b t rest : 128 <= b -> no_scalar (b :: t) -> no_scalar (b :: t ++ 34 :: rest).
Proof.
  intros B N cp r S E. change (b :: t ++ 34 :: rest) with ((b :: t) ++ 34 :: rest) in E. symmetry in E.
  assert (L : 128 <= cp) by (destruct (utf8_head _ _ _ _ S E) as [(X & _)|(_ & L)]; lia).
  destruct (app_before _ _ _ _ _ E) as (e & Q & _).
  - intro I. apply utf8_high_bytes in S; [|exact L]. rewrite Forall_forall in S. apply S in I. lia.
  - now apply (N cp e S).
Qed.

Lemma hex4_no_quote h n x : hex4 h n -> In x h -> 48 <= x <= 102 /\ x <> 92.
Proof.
  intros (a & b & c & d & da & db & dc & dd & -> & A & B & C & D & _) I.
  apply hexdigit_range in A, B, C, D. cbn [In] in I. destruct I as [<-|[<-|[<-|[<-|[]]]]]; lia.
Qed.

Definition escaped_byte (c : Z) : Z :=
  if c =? 98 then 8 else if c =? 102 then 12 else if c =? 110 then 10
  else if c =? 114 then 13 else if c =? 116 then 9 else c.

Definition simple_escape (c : Z) : bool :=
  (c =? 34) || (c =? 92) || (c =? 47) || (c =? 98) || (c =? 102) || (c =? 110) || (c =? 114) || (c =? 116).

(** One round of the loop. *)
Lemma loop_escape f c rest result : simple_escape c = true ->
  string_loop (S f) (92 :: c :: rest) result = string_loop f rest (result ++ [escaped_byte c]).
Proof.
  intro S. unfold simple_escape in S. cbn [string_loop Z.eqb Pos.eqb]. unfold escaped_byte.
  destruct (Z.eqb_spec c 34); [subst; reflexivity|]. destruct (Z.eqb_spec c 92); [subst; reflexivity|].
  destruct (Z.eqb_spec c 47); [subst; reflexivity|]. destruct (Z.eqb_spec c 98); [subst; reflexivity|].
  destruct (Z.eqb_spec c 102); [subst; reflexivity|]. destruct (Z.eqb_spec c 110); [subst; reflexivity|].
  destruct (Z.eqb_spec c 114); [subst; reflexivity|]. destruct (Z.eqb_spec c 116); [subst; reflexivity|].
  discriminate S.
Qed.

Lemma loop_unicode f rest result :
  string_loop (S f) (92 :: 117 :: rest) result =
  (' (cp, rest) <- unicode_escape rest ;; string_loop f rest (append_utf8 result cp)).
Proof. reflexivity. Qed.

Lemma loop_bad_escape f c rest result : simple_escape c = false -> c <> 117 ->
  string_loop (S f) (92 :: c :: rest) result = Throw.
Proof.
  intros S U. unfold simple_escape in S. cbn [string_loop Z.eqb Pos.eqb].
  destruct (Z.eqb_spec c 34); [discriminate S|]. destruct (Z.eqb_spec c 92); [discriminate S|].
  destruct (Z.eqb_spec c 47); [discriminate S|]. destruct (Z.eqb_spec c 98); [discriminate S|].
  destruct (Z.eqb_spec c 102); [discriminate S|]. destruct (Z.eqb_spec c 110); [discriminate S|].
  destruct (Z.eqb_spec c 114); [discriminate S|]. destruct (Z.eqb_spec c 116); [discriminate S|].
  destruct (Z.eqb_spec c 117); [contradiction|]. reflexivity.
Qed.

Lemma loop_control f c rest result : c < 32 -> string_loop (S f) (c :: rest) result = Throw.
Proof.
  intro L. cbn [string_loop]. destruct (Z.eqb_spec c 34); [lia|]. destruct (Z.eqb_spec c 92); [lia|].
  destruct (Z.ltb_spec c 32); [reflexivity|lia].
Qed.

Lemma loop_ascii f c rest result : 32 <= c < 128 -> c <> 34 -> c <> 92 ->
  string_loop (S f) (c :: rest) result = string_loop f rest (result ++ [c]).
Proof.
  intros L Q B. cbn [string_loop]. destruct (Z.eqb_spec c 34); [lia|]. destruct (Z.eqb_spec c 92); [lia|].
  destruct (Z.ltb_spec c 32); [lia|]. destruct (Z.ltb_spec c 128); [reflexivity|lia].
Qed.

Lemma loop_bad f c rest result : 128 <= c -> utf8_len (c :: rest) = Ok 0 ->
  string_loop (S f) (c :: rest) result = string_loop f rest (result ++ utf8 65533).
Proof.
  intros L E. cbn [string_loop]. destruct (Z.eqb_spec c 34); [lia|]. destruct (Z.eqb_spec c 92); [lia|].
  destruct (Z.ltb_spec c 32); [lia|]. destruct (Z.ltb_spec c 128); [lia|]. rewrite E. reflexivity.
Qed.

Lemma loop_rune f cp rest result : scalar cp -> 128 <= cp ->
  string_loop (S f) (utf8 cp ++ rest) result = string_loop f rest (result ++ utf8 cp).
Proof.
  intros S L. pose proof (utf8_len_complete cp rest S L) as E.
  pose proof (utf8_slice cp rest) as Sl. pose proof (utf8_skip cp rest) as Sk.
  pose proof (utf8_pos cp) as P.
  remember (utf8 cp ++ rest) as d eqn:D. destruct d as [|c d]; [symmetry in D; now apply utf8_ne in D|].
  symmetry in D. destruct (utf8_head _ _ _ _ S D) as [(X & X' & _)|(Lc & _)]; [lia|].
  cbn [string_loop]. destruct (Z.eqb_spec c 34); [lia|]. destruct (Z.eqb_spec c 92); [lia|].
  destruct (Z.ltb_spec c 32); [lia|]. destruct (Z.ltb_spec c 128); [lia|].
  rewrite E. cbn [bind]. destruct (Z.eqb_spec (zlen (utf8 cp)) 0); [lia|]. rewrite Sl. cbn [bind]. now rewrite Sk.
Qed.

Lemma escape_eq c v : escape c v <-> simple_escape c = true /\ v = escaped_byte c.
Proof.
  unfold escape, simple_escape, escaped_byte. split.
  - cbn [In]. intros H. repeat destruct H as [H|H]; try contradiction; injection H as <- <-; auto.
  - intros [S ->]. cbn [In].
    destruct (Z.eqb_spec c 34); [subst; cbn; tauto|]. destruct (Z.eqb_spec c 92); [subst; cbn; tauto|].
    destruct (Z.eqb_spec c 47); [subst; cbn; tauto|]. destruct (Z.eqb_spec c 98); [subst; cbn; tauto|].
    destruct (Z.eqb_spec c 102); [subst; cbn; tauto|]. destruct (Z.eqb_spec c 110); [subst; cbn; tauto|].
    destruct (Z.eqb_spec c 114); [subst; cbn; tauto|]. destruct (Z.eqb_spec c 116); [subst; cbn; tauto|].
    discriminate S.
Qed.

Lemma utf8_short cp : (1 <= length (utf8 cp))%nat.
Proof. pose proof (utf8_pos cp). unfold zlen in *. lia. Qed.

Theorem string_complete t s : chars t s -> forall f rest result, (length t < f)%nat ->
  string_loop f (t ++ 34 :: rest) result = Ok (result ++ s, rest).
Proof.
  induction 1 as [|cp t s S L32 N34 N92 C IH|c v t s E C IH|h n t s H S C IH|h n h' n' t s H Hi H' Lo C IH|b t s B N C IH|h n t s H Hi N C IH|h n t s H Lo C IH];
    intros f rest result F; (destruct f as [|f]; [lia|]).
  - cbn [app string_loop Z.eqb Pos.eqb]. now rewrite app_nil_r.
  - rewrite app_length in F. rewrite <- app_assoc. destruct (Z_lt_dec cp 128).
    + rewrite (utf8_1 cp) in * by lia. cbn [app]. rewrite loop_ascii by lia. rewrite IH by (cbn [length] in F; lia).
      now rewrite <- app_assoc.
    + rewrite loop_rune by (assumption || lia). pose proof (utf8_short cp). rewrite IH by lia. now rewrite <- app_assoc.
  - apply escape_eq in E as [E ->]. cbn [app]. rewrite loop_escape by exact E. cbn [length] in F.
    rewrite IH by lia. now rewrite <- app_assoc.
  - cbn [app]. rewrite loop_unicode. rewrite <- app_assoc. cbn [length] in F. rewrite app_length in F.
    destruct (unicode_escape_spec (h ++ t ++ 34 :: rest)) as [(_ & Q)|(h2 & n2 & r & H2 & Q & K)]; [now destruct (Q h n (t ++ 34 :: rest))|].
    destruct (hex4_app_inj _ _ _ _ _ _ H H2 Q) as [<- <-].
    destruct K as [(_ & K)|[(L & _)|[(L & _)|(L & _)]]]; [|unfold low, high, scalar in *; lia..].
    rewrite K. cbn [bind]. rewrite append_utf8_scalar by exact S. rewrite IH by lia. now rewrite <- app_assoc.
  - cbn [app]. rewrite loop_unicode. rewrite <- app_assoc. cbn [app]. rewrite <- app_assoc. cbn [length] in F. rewrite app_length in F. cbn [length] in F. rewrite app_length in F.
    destruct (unicode_escape_spec (h ++ 92 :: 117 :: h' ++ t ++ 34 :: rest)) as [(_ & Q)|(h2 & n2 & r & H2 & Q & K)]; [now destruct (Q h n (92 :: 117 :: h' ++ t ++ 34 :: rest))|].
    destruct (hex4_app_inj _ _ _ _ _ _ H H2 Q) as [<- <-].
    destruct K as [(K & _)|[(L & _)|[(_ & h3 & n3 & u & H3 & L3 & R & K)|(_ & K & _)]]]; [unfold high, low, scalar in *; lia..| |].
    + injection R as R. destruct (hex4_app_inj _ _ _ _ _ _ H' H3 R) as [<- <-]. rewrite K. cbn [bind].
      rewrite append_utf8_scalar by (unfold scalar, high, low in *; lia). rewrite IH by lia. now rewrite <- app_assoc.
    + exfalso. now apply (K h' n' (t ++ 34 :: rest)).
  - cbn [app]. pose proof (no_scalar_quote b t rest B N) as N'. rewrite loop_bad; [|exact B|].
    + cbn [length] in F. rewrite IH by lia. now rewrite <- app_assoc.
    + now apply (no_scalar_len _ b (t ++ 34 :: rest)).
  - cbn [app]. rewrite loop_unicode. rewrite <- app_assoc. cbn [length] in F. rewrite app_length in F.
    destruct (unicode_escape_spec (h ++ t ++ 34 :: rest)) as [(_ & Q)|(h2 & n2 & r & H2 & Q & K)]; [now destruct (Q h n (t ++ 34 :: rest))|].
    destruct (hex4_app_inj _ _ _ _ _ _ H H2 Q) as [<- <-].
    destruct K as [(K & _)|[(L & _)|[(_ & h3 & n3 & u & H3 & L3 & R & K)|(_ & _ & K)]]]; [unfold high, low, scalar in *; lia..| |].
    + exfalso. change (92 :: 117 :: h3 ++ u) with ((92 :: 117 :: h3) ++ u) in R. symmetry in R. destruct (app_before _ _ _ _ _ R) as (e & Q' & _).
      * intros [Q'|[Q'|I]]; [discriminate..|]. apply (hex4_no_quote _ _ _ H3) in I. lia.
      * apply (N h3 n3 e); assumption.
    + rewrite K. cbn [bind]. rewrite append_utf8_scalar by exact scalar_fffd. rewrite IH by lia. now rewrite <- app_assoc.
  - cbn [app]. rewrite loop_unicode. rewrite <- app_assoc. cbn [length] in F. rewrite app_length in F.
    destruct (unicode_escape_spec (h ++ t ++ 34 :: rest)) as [(_ & Q)|(h2 & n2 & r & H2 & Q & K)]; [now destruct (Q h n (t ++ 34 :: rest))|].
    destruct (hex4_app_inj _ _ _ _ _ _ H H2 Q) as [<- <-].
    destruct K as [(K & _)|[(_ & K)|[(L & _)|(L & _)]]]; [unfold high, low, scalar in *; lia| |unfold high, low, scalar in *; lia..].
    rewrite K. cbn [bind]. rewrite append_utf8_scalar by exact scalar_fffd. rewrite IH by lia. now rewrite <- app_assoc.
Qed.

(** Either the loop throws, or it stopped at a closing quote after the text of a string. *)
Theorem string_sound f : forall data result, (length data < f)%nat ->
  string_loop f data result = Throw \/
  exists t s rest, data = t ++ 34 :: rest /\ chars t s /\ string_loop f data result = Ok (result ++ s, rest).
Proof.
  induction f as [|f IH]; intros data result F; [lia|].
  destruct data as [|c d]; [left; reflexivity|]. cbn [length] in F.
  destruct (Z.eq_dec c 34) as [->|N34].
  { right. exists [], [], d. split; [reflexivity|]. split; [constructor|]. cbn [string_loop Z.eqb Pos.eqb]. now rewrite app_nil_r. }
  destruct (Z.eq_dec c 92) as [->|N92].
  { destruct d as [|e d]; [left; reflexivity|]. cbn [length] in F.
    destruct (simple_escape e) eqn:E.
    - rewrite loop_escape by exact E. destruct (IH d (result ++ [escaped_byte e])) as [->|(t & s & rest & -> & C & ->)]; [lia|now left|].
      right. exists (92 :: e :: t), (escaped_byte e :: s), rest. split; [reflexivity|]. split; [constructor; [now apply escape_eq|exact C]|].
      now rewrite <- app_assoc.
    - destruct (Z.eq_dec e 117) as [->|]; [|left; now apply loop_bad_escape].
      rewrite loop_unicode.
      destruct (unicode_escape_spec d) as [(-> & _)|(h & n & r & H & -> & K)]; [now left|].
      rewrite app_length in F. pose proof (hex4_len _ _ H) as Hl.
      destruct K as [(S & ->)|[(L & ->)|[(Hh & h' & n' & u & H' & Lo & -> & ->)|(Hh & N & ->)]]]; cbn [bind].
      + rewrite append_utf8_scalar by exact S. destruct (IH r (result ++ utf8 n)) as [->|(t & s & rest & -> & C & ->)]; [lia|now left|].
        right. exists (92 :: 117 :: h ++ t), (utf8 n ++ s), rest. split; [cbn [app]; now rewrite <- app_assoc|].
        split; [now apply chars_u|now rewrite <- app_assoc].
      + rewrite append_utf8_scalar by exact scalar_fffd. destruct (IH r (result ++ utf8 65533)) as [->|(t & s & rest & -> & C & ->)]; [lia|now left|].
        right. exists (92 :: 117 :: h ++ t), (utf8 65533 ++ s), rest. split; [cbn [app]; now rewrite <- app_assoc|].
        split; [now apply (chars_lone_low h n)|now rewrite <- app_assoc].
      + rewrite append_utf8_scalar by (unfold scalar, high, low in *; lia).
        cbn [length] in F. rewrite app_length in F.
        destruct (IH u (result ++ utf8 (65536 + 1024 * (n - 55296) + (n' - 56320)))) as [->|(t & s & rest & -> & C & ->)]; [lia|now left|].
        right. exists (92 :: 117 :: h ++ 92 :: 117 :: h' ++ t), (utf8 (65536 + 1024 * (n - 55296) + (n' - 56320)) ++ s), rest.
        split; [cbn [app]; rewrite <- app_assoc; cbn [app]; now rewrite <- app_assoc|].
        split; [now apply chars_pair|now rewrite <- app_assoc].
      + rewrite append_utf8_scalar by exact scalar_fffd. destruct (IH r (result ++ utf8 65533)) as [->|(t & s & rest & -> & C & ->)]; [lia|now left|].
        right. exists (92 :: 117 :: h ++ t), (utf8 65533 ++ s), rest. split; [cbn [app]; now rewrite <- app_assoc|].
        split; [|now rewrite <- app_assoc]. apply (chars_lone_high h n); auto.
        intros h' n' u' H' L' Q. subst t. apply (N h' n' (u' ++ 34 :: rest)); auto. cbn [app]. now rewrite <- app_assoc. }
  destruct (Z_lt_dec c 32); [left; now apply loop_control|].
  destruct (Z_lt_dec c 128).
  { rewrite loop_ascii by lia. destruct (IH d (result ++ [c])) as [->|(t & s & rest & -> & C & ->)]; [lia|now left|].
    right. exists (c :: t), (c :: s), rest. split; [reflexivity|]. split; [|now rewrite <- app_assoc].
    pose proof (chars_raw c t s) as K. rewrite (utf8_1 c) in K by lia. apply K; auto; [split; lia|lia]. }
  destruct (utf8_len_total (c :: d)) as (len & E & K).
  destruct (Z.eq_dec len 0) as [->|Nz].
  - rewrite loop_bad by (exact E || lia). destruct (IH d (result ++ utf8 65533)) as [->|(t & s & rest & -> & C & ->)]; [lia|now left|].
    right. exists (c :: t), (utf8 65533 ++ s), rest. split; [reflexivity|]. split; [|now rewrite <- app_assoc].
    apply chars_bad_byte; [lia| |exact C].
    assert (N : no_scalar (c :: t ++ 34 :: rest)) by (apply utf8_len_none; [exact E|intros b r Q; injection Q as <- _; lia]).
    intros cp r S Q. apply (N cp (r ++ 34 :: rest) S). change (c :: t ++ 34 :: rest) with ((c :: t) ++ 34 :: rest). now rewrite Q, <- app_assoc.
  - destruct K as [K|(cp & r & S & L & Q & _)]; [contradiction|]. rewrite Q. rewrite loop_rune by assumption.
    assert (Ln : (length r <= length d)%nat).
    { apply (f_equal (@List.length Z)) in Q. rewrite app_length in Q. cbn [length] in Q. pose proof (utf8_short cp). lia. }
    destruct (IH r (result ++ utf8 cp)) as [->|(t & s & rest & -> & C & ->)]; [lia|now left|].
    right. exists (utf8 cp ++ t), (utf8 cp ++ s), rest. split; [now rewrite <- app_assoc|].
    split; [apply chars_raw; auto; lia|now rewrite <- app_assoc].
Qed.

(** The bytes of a string that was read are UTF-8. *)
Lemma chars_valid t s : chars t s -> valid_utf8 s.
Proof.
  assert (A : forall c v s, escape c v -> valid_utf8 s -> valid_utf8 (v :: s)).
  { intros c v u E V. assert (R : 0 <= v < 128).
    { unfold escape in E. cbn [In] in E. repeat destruct E as [E|E]; try contradiction; injection E as <- <-; lia. }
    pose proof (valid_cons v u) as K. rewrite utf8_1 in K by lia. apply K; [unfold scalar; lia|exact V]. }
  induction 1; [constructor|apply valid_cons; auto|eapply A; eauto|apply valid_cons; auto| |apply valid_cons; auto using scalar_fffd..].
  apply valid_cons; auto. unfold scalar, high, low in *. lia.
Qed.

(** ** Writing a string *)

Definition hex_char (d : Z) : Z := if d <? 10 then 48 + d else 87 + d.

Lemma control_hex c : 0 <= c < 32 ->
  sprintf no_float (bs "%04x") [ASigned 64 c] = Ok [48; 48; hex_char (c / 16); hex_char (c mod 16)].
Proof.
  intro R.
  assert (K : (fun c => if c <? 32 then
     match sprintf no_float (bs "%04x") [ASigned 64 c] with
     | Ok [a; b; x; y] => (a =? 48) && (b =? 48) && (x =? hex_char (c / 16)) && (y =? hex_char (c mod 16))
     | _ => false end else true) c = true).
  { apply (byte_sweep (fun c => if c <? 32 then
     match sprintf no_float (bs "%04x") [ASigned 64 c] with
     | Ok [a; b; x; y] => (a =? 48) && (b =? 48) && (x =? hex_char (c / 16)) && (y =? hex_char (c mod 16))
     | _ => false end else true)); [vm_compute; reflexivity|unfold is_byte; lia]. }
  cbv beta in K. destruct (Z.ltb_spec c 32); [|lia].
  destruct (sprintf no_float (bs "%04x") [ASigned 64 c]) as [l| | | | |]; try discriminate K.
  destruct l as [|a [|b [|x [|y [|]]]]]; try discriminate K.
  apply andb_prop in K as [K K4]. apply andb_prop in K as [K K3]. apply andb_prop in K as [K1 K2].
  apply Z.eqb_eq in K1, K2, K3, K4. now subst.
Qed.

Lemma hex_char_ok d : 0 <= d <= 15 -> hexdigit (hex_char d) d /\ 48 <= hex_char d <= 102.
Proof. intro R. unfold hex_char, hexdigit. destruct (Z.ltb_spec d 10); lia. Qed.

Definition printable (t : list Z) : Prop := valid_utf8 t /\ Forall (fun c => 32 <= c) t.

Lemma printable_ascii l : Forall (fun c => 32 <= c < 128) l -> printable l.
Proof.
  induction 1 as [|c l C L (V & P)]; [split; constructor|]. split; [|constructor; [lia|exact P]].
  pose proof (valid_cons c l) as K. rewrite utf8_1 in K by lia. apply K; [unfold scalar; lia|exact V].
Qed.

Lemma printable_app s t : printable s -> printable t -> printable (s ++ t).
Proof. intros [V P] [V' P']. split; [now apply valid_app|]. apply Forall_app. auto. Qed.

Theorem serialize_bytes_ok f : forall s result, (length s < f)%nat -> bytes s ->
  exists t u, serialize_bytes f s result = Ok (result ++ t) /\ repaired s u /\ chars t u /\ printable t.
Proof.
  induction f as [|f IH]; intros s result F B; [lia|].
  destruct s as [|c s].
  { exists [], []. cbn [serialize_bytes]. rewrite app_nil_r. repeat split; constructor. }
  cbn [length] in F. unfold bytes in B. pose proof B as B0. apply Forall_cons_iff in B as [Bc Bs]. red in Bc.
  assert (Short : forall e v, escape e v -> 32 <= e < 128 -> v = c -> c < 128 ->
    exists t u, serialize_bytes f s (result ++ [92; e]) = Ok (result ++ t) /\ repaired (c :: s) u /\ chars t u /\ printable t).
  { intros e v E R -> Cc. destruct (IH s (result ++ [92; e])) as (t & u & -> & Rp & C & P); [lia|exact Bs|].
    exists (92 :: e :: t), (c :: u). split; [now rewrite <- app_assoc|].
    split; [pose proof (repaired_good c s u) as K; rewrite utf8_1 in K by lia; apply K; [unfold scalar; lia|exact Rp]|].
    split; [now constructor|]. change (92 :: e :: t) with ([92; e] ++ t). apply printable_app; [|exact P].
    apply printable_ascii. repeat constructor; lia. }
  cbn [serialize_bytes].
  destruct (Z.eqb_spec c 34); [apply (Short 34 34); unfold escape; cbn [In]; auto; lia|].
  destruct (Z.eqb_spec c 92); [apply (Short 92 92); unfold escape; cbn [In]; auto; lia|].
  destruct (Z.eqb_spec c 8); [apply (Short 98 8); unfold escape; cbn [In]; auto; lia|].
  destruct (Z.eqb_spec c 12); [apply (Short 102 12); unfold escape; cbn [In]; auto 10; lia|].
  destruct (Z.eqb_spec c 10); [apply (Short 110 10); unfold escape; cbn [In]; auto 10; lia|].
  destruct (Z.eqb_spec c 13); [apply (Short 114 13); unfold escape; cbn [In]; auto 10; lia|].
  destruct (Z.eqb_spec c 9); [apply (Short 116 9); unfold escape; cbn [In]; auto 10; lia|].
  destruct (Z.ltb_spec c 32).
  { rewrite control_hex by lia. cbn [bind app].
    destruct (IH s (result ++ [92; 117; 48; 48; hex_char (c / 16); hex_char (c mod 16)])) as (t & u & -> & Rp & C & P); [lia|exact Bs|].
    exists (92 :: 117 :: [48; 48; hex_char (c / 16); hex_char (c mod 16)] ++ t), (utf8 c ++ u).
    split; [now rewrite <- app_assoc|]. split; [pose proof (repaired_good c s u) as K; rewrite (utf8_1 c) in * by lia; apply K; [unfold scalar; lia|exact Rp]|].
    assert (H16 : 0 <= c / 16 <= 15 /\ 0 <= c mod 16 <= 15 /\ c = 16 * (c / 16) + c mod 16) by zdiv.
    destruct H16 as (A1 & A2 & A3). destruct (hex_char_ok _ A1) as [D1 R1], (hex_char_ok _ A2) as [D2 R2].
    split.
    - apply chars_u; [|unfold scalar; lia|exact C].
      exists 48, 48, (hex_char (c / 16)), (hex_char (c mod 16)), 0, 0, (c / 16), (c mod 16).
      split; [reflexivity|]. split; [unfold hexdigit; lia|]. split; [unfold hexdigit; lia|]. split; [exact D1|]. split; [exact D2|]. lia.
    - change (92 :: 117 :: [48; 48; hex_char (c / 16); hex_char (c mod 16)] ++ t) with ([92; 117; 48; 48; hex_char (c / 16); hex_char (c mod 16)] ++ t).
      apply printable_app; [|exact P]. apply printable_ascii. repeat constructor; lia. }
  destruct (Z.ltb_spec c 128).
  { destruct (IH s (result ++ [c])) as (t & u & -> & Rp & C & P); [lia|exact Bs|].
    exists ([c] ++ t), ([c] ++ u). split; [now rewrite <- app_assoc|].
    split; [pose proof (repaired_good c s u) as K; rewrite utf8_1 in K by lia; apply K; [unfold scalar; lia|exact Rp]|].
    rewrite <- (utf8_1 c) by lia. split; [apply chars_raw; auto; unfold scalar; lia|]. apply printable_app; [|exact P].
    rewrite utf8_1 by lia. apply printable_ascii. repeat constructor; lia. }
  destruct (utf8_len_total (c :: s)) as (len & E & K). rewrite E. cbn [bind].
  destruct (Z.eqb_spec len 0) as [->|Nz].
  - destruct (IH s (result ++ [92; 117; 102; 102; 102; 100])) as (t & u & -> & Rp & C & P); [lia|exact Bs|].
    exists (92 :: 117 :: [102; 102; 102; 100] ++ t), (utf8 65533 ++ u). split; [now rewrite <- app_assoc|].
    split; [apply repaired_bad; [|exact Rp]|].
    { apply utf8_len_none; [exact E|]. intros b r Q. injection Q as <- _. lia. }
    split.
    + apply chars_u; [|exact scalar_fffd|exact C].
      exists 102, 102, 102, 100, 15, 15, 15, 13. unfold hexdigit. repeat split; lia.
    + change (92 :: 117 :: [102; 102; 102; 100] ++ t) with ([92; 117; 102; 102; 102; 100] ++ t).
      apply printable_app; [|exact P]. apply printable_ascii. repeat constructor; lia.
  - destruct K as [K|(cp & r & S & L & Q & ->)]; [contradiction|]. rewrite Q, utf8_slice, utf8_skip. cbn [bind].
    assert (Ln : (length r <= length s)%nat).
    { apply (f_equal (@List.length Z)) in Q. rewrite app_length in Q. cbn [length] in Q. pose proof (utf8_short cp). lia. }
    assert (Br : bytes r) by (rewrite Q in B0; now apply Forall_bytes_app in B0).
    destruct (IH r (result ++ utf8 cp)) as (t & u & -> & Rp & C & P); [lia|exact Br|].
    exists (utf8 cp ++ t), (utf8 cp ++ u). split; [now rewrite <- app_assoc|].
    split; [now apply repaired_good|]. split; [apply chars_raw; auto; lia|].
    apply printable_app; [|exact P]. split; [now apply valid_one|].
    eapply Forall_impl; [|apply (utf8_high_bytes cp S L)]. cbn. lia.
Qed.

Theorem serialize_string_ok s : bytes s ->
  exists t u, serialize_string s = Ok (34 :: t ++ [34]) /\ repaired s u /\ chars t u /\ printable t.
Proof.
  intro B. destruct (serialize_bytes_ok (S (length s)) s [34]) as (t & u & E & R & C & P); [lia|exact B|].
  exists t, u. unfold serialize_string. rewrite E. cbn [bind]. repeat split; try assumption; apply P.
Qed.
