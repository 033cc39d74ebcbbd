From Verif Require Import Base Base_lemmas Scanner_spec Scanner_chars_proof Scanner_lex_proof Scanner_proof Scanner_loop_proof.
From Coq Require Import ZifyBool.

Definition eof (n : Z) : token := mk_token EOF (bs "EOF") n.

(** ** Helpers *)

Lemma final_nil : final [].
Proof. exists false, [], []. split; [reflexivity|]. split; [constructor|auto]. Qed.

(** A source of one token. *)
Lemma scan_one t l text : source_text text -> lexeme t l text [] -> t <> STAR -> newlines text = 0 ->
  scan text = Ok [mk_token t l 1; eof 1].
Proof.
  intros S L N NL. apply scan_is_reads; [exact S|].
  pose proof (reads_token None 1 false [] text [] t t l [] [eof 1]) as R. cbn [app] in R. rewrite app_nil_r, NL, Z.add_0_r in R.
  apply R; [constructor|exact L|right; split; [intros (X & _); contradiction|reflexivity]|reflexivity|].
  pose proof (reads_end (Some (mk_token t l 1)) 1 [] final_nil) as E. rewrite newlines_nil, Z.add_0_r in E. exact E.
Qed.

Lemma identifier_source w : identifier w -> source_text w.
Proof.
  intros (c & t & -> & L & F). constructor; [unfold letter in L; lia|]. apply Forall_impl with (2 := F). intros x. unfold word_char, letter, digit. lia.
Qed.

Lemma no_prefix_nil c : ~ prefix [c] [].
Proof. intros (r & E). discriminate E. Qed.

(** ** C76 *)

(** A word is a keyword exactly if it is one of the language, apart from eleven words. *)
Theorem words_partial : forall w, identifier w -> ~ In w (List.map fst accidents) ->
  exists t, word_type keywords w t /\ scan w = Ok [mk_token t w 1; eof 1].
Proof.
  intros w I N. pose proof (ident_word w) as T. exists (ident_type w). split.
  - destruct T as [i|(n & E)].
    + unfold reserved in i. apply in_app_or in i. destruct i as [i|i]; [left; exact i|]. exfalso. apply N. apply in_map_iff. eexists. split; [|exact i]. reflexivity.
    + right. split; [|exact E]. intros i. apply n. unfold reserved. rewrite map_app. apply in_or_app. left. exact i.
  - apply scan_one; [apply identifier_source, I| |exact (word_not_star _ _ T)|].
    + apply lex_word; [exact I|exact T|]. intros c _. apply no_prefix_nil.
    + destruct I as (c & t & -> & L & F). apply word_no_newline. constructor; [left; exact L|exact F].
Qed.
Print Assumptions words_partial.

Example words_partial_ok : identifier (bs "returned") /\ ~ In (bs "returned") (List.map fst accidents) /\ word_type keywords (bs "returned") IDENT /\
  identifier (bs "return") /\ word_type keywords (bs "return") RETURN.
Proof.
  split; [exists 114, (bs "eturned"); split; [reflexivity|]; split; [left; lia|]; cbv [bs Z.of_N N_of_ascii]; repeat (apply Forall_cons; [left; left; vm_compute; split; discriminate|]); constructor|].
  split; [vm_compute; intuition discriminate|]. split; [right; split; [vm_compute; intuition discriminate|reflexivity]|].
  split; [exists 114, (bs "eturn"); split; [reflexivity|]; split; [left; lia|]; cbv [bs Z.of_N N_of_ascii]; repeat (apply Forall_cons; [left; left; vm_compute; split; discriminate|]); constructor|].
  left. unfold keywords. repeat (first [left; reflexivity|right]).
Qed.

(** The name v8 is not a name but the type u8. *)
Theorem words_refuted : exists w t, identifier w /\ ~ In w (List.map fst keywords) /\ scan w = Ok [mk_token t w 1; eof 1] /\ t <> IDENT.
Proof.
  exists (bs "v8"), T_U8. split; [exists 118, (bs "8"); split; [reflexivity|]; split; [left; lia|]; constructor; [right; vm_compute; split; discriminate|constructor]|].
  split; [vm_compute; intuition discriminate|]. split; [reflexivity|discriminate].
Qed.
Print Assumptions words_refuted.

(** ** C77 *)

(** The scanner reads exactly the texts of the grammar, and reads them as the grammar says. *)
Theorem scan_grammar : forall s toks, source_text s -> (scan s = Ok toks <-> reads None 1 s toks).
Proof. intros s toks. apply scan_is_reads. Qed.
Print Assumptions scan_grammar.

Example scan_grammar_ok : source_text (bs "var a=0x1f//x") /\
  scan (bs "var a=0x1f//x" ++ 10 :: bs ".b() as *" ++ [10; 99]) =
  Ok [mk_token VAR (bs "var") 1; mk_token IDENT (bs "a") 1; mk_token EQUAL (bs "=") 1; mk_token LITERAL_INT (bs "31") 1;
      mk_token DOT (bs ".") 2; mk_token IDENT (bs "b") 2; mk_token LEFT_PAREN (bs "(") 2; mk_token RIGHT_PAREN (bs ")") 2;
      mk_token K_AS (bs "as") 2; mk_token IMPORT_STAR (bs "*") 2; mk_token STMT_EOF (bs ";") 2; mk_token IDENT (bs "c") 3; eof 3].
Proof. split; [unfold source_text; cbv [bs Z.of_N N_of_ascii]; repeat (apply Forall_cons; [vm_compute; split; discriminate|]); constructor|reflexivity]. Qed.

(** A text can be read in one way only. *)
Theorem grammar_unambiguous : forall s toks toks', source_text s -> reads None 1 s toks -> reads None 1 s toks' -> toks = toks'.
Proof. intros s toks toks' S R R'. apply (scan_is_reads s) in R; [|exact S]. apply (scan_is_reads s) in R'; [|exact S]. congruence. Qed.
Print Assumptions grammar_unambiguous.

Example grammar_unambiguous_ok : exists toks, reads None 1 (bs "a<<=b") toks.
Proof.
  assert (S : source_text (bs "a<<=b")) by (unfold source_text; cbv [bs Z.of_N N_of_ascii]; repeat (apply Forall_cons; [vm_compute; split; discriminate|]); constructor).
  eexists. apply (scan_is_reads _ _ S). vm_compute. reflexivity.
Qed.

(** ** C78 *)

Lemma hex_char_value d : 0 <= d <= 15 -> digit_value (hex_char d) d.
Proof. unfold hex_char, digit_value. intros B. destruct (d <? 10) eqn:E; lia. Qed.

Lemma spell_byte_spells s : bytes s -> spells 34 s (flat_map spell_byte s).
Proof.
  induction 1 as [|c s B F IH]; [constructor|]. unfold is_byte in B. cbn [flat_map]. unfold spell_byte at 1.
  destruct ((32 <=? c) && (c <=? 126) && negb (c =? 34) && negb (c =? 92)) eqn:E.
  - cbn [app]. apply spells_plain; [lia|lia|exact IH].
  - cbn [app]. pose proof (Z.div_mod c 16 ltac:(lia)) as D. pose proof (Z.mod_pos_bound c 16 ltac:(lia)) as M.
    assert (0 <= c / 16 <= 15) by (split; [apply Z.div_pos; lia|]; assert (c / 16 < 16) by (apply Z.div_lt_upper_bound; lia); lia).
    rewrite D at 1. apply spells_hex; [lia|apply hex_char_value; lia|apply hex_char_value; lia|exact IH].
Qed.

Lemma spell_byte_source s : bytes s -> source_text (flat_map spell_byte s) /\ newlines (flat_map spell_byte s) = 0.
Proof.
  intros B. assert (X : Forall (fun c => 32 <= c <= 126) (flat_map spell_byte s)).
  { induction B as [|c s B F IH]; [constructor|]. unfold is_byte in B. cbn [flat_map]. apply Forall_app. split; [|exact IH]. unfold spell_byte.
    destruct ((32 <=? c) && (c <=? 126) && negb (c =? 34) && negb (c =? 92)) eqn:E.
    - constructor; [lia|constructor].
    - pose proof (Z.mod_pos_bound c 16 ltac:(lia)) as M.
      assert (0 <= c / 16 <= 15) by (split; [apply Z.div_pos; lia|]; assert (c / 16 < 16) by (apply Z.div_lt_upper_bound; lia); lia).
      assert (HC : forall d, 0 <= d <= 15 -> 32 <= hex_char d <= 126) by (intros d; unfold hex_char; destruct (d <? 10) eqn:E'; lia).
      constructor; [lia|]. constructor; [lia|]. constructor; [apply HC; lia|]. constructor; [apply HC; lia|]. constructor. }
  split; [apply Forall_impl with (2 := X); intros; lia|]. apply newlines_none. intros i. rewrite Forall_forall in X. specialize (X _ i). lia.
Qed.

(** Every byte string can be written as a literal, and the scanner reads the literal as that string. *)
Theorem string_literals : forall s, bytes s -> scan (string_literal s) = Ok [mk_token LITERAL_STRING s 1; eof 1].
Proof.
  intros s B. destruct (spell_byte_source s B) as (S & NL). unfold string_literal. apply scan_one.
  - constructor; [lia|]. apply Forall_app. split; [exact S|]. constructor; [lia|constructor].
  - apply lex_string; [left; reflexivity|apply spell_byte_spells, B].
  - discriminate.
  - cbn [app]. rewrite newlines_cons, newlines_app, NL. reflexivity.
Qed.
Print Assumptions string_literals.

Example string_literals_ok : bytes [104; 34; 0; 255; 10] /\ string_literal [104; 34; 0; 255; 10] = [34] ++ bs "h\x22\x00\xff\x0a" ++ [34].
Proof. split; [repeat (apply Forall_cons; [unfold is_byte; lia|]); constructor|reflexivity]. Qed.

(** However a string is spelled, between any of the quotes, the literal stands for its bytes. *)
Theorem string_spellings : forall q s text, quote q -> spells q s text -> source_text text ->
  scan (q :: text ++ [q]) = Ok [mk_token LITERAL_STRING s (1 + newlines text); eof (1 + newlines text)].
Proof.
  intros q s text Q S T.
  assert (St : source_text (q :: text ++ [q])) by (constructor; [unfold quote in Q; lia|]; apply Forall_app; split; [exact T|]; constructor; [unfold quote in Q; lia|constructor]).
  apply scan_is_reads; [exact St|].
  assert (NL : newlines (q :: text ++ [q]) = newlines text).
  { rewrite newlines_cons, newlines_app, newlines_cons, newlines_nil. unfold quote in Q. replace (q =? 10) with false by lia. lia. }
  pose proof (reads_token None 1 false [] (q :: text ++ [q]) [] LITERAL_STRING LITERAL_STRING s [] [eof (1 + newlines text)]) as R.
  cbn [app] in R. rewrite app_nil_r, NL in R. apply R; [constructor|apply lex_string; assumption|right; split; [intros (X & _); discriminate X|reflexivity]|reflexivity|].
  pose proof (reads_end (Some (mk_token LITERAL_STRING s (1 + newlines text))) (1 + newlines text) [] final_nil) as E. rewrite newlines_nil, Z.add_0_r in E. exact E.
Qed.
Print Assumptions string_spellings.

Example string_spellings_ok : quote 39 /\ spells 39 [97; 39; 10; 171] (bs "a\'\n\xaB") /\ source_text (bs "a\'\n\xaB").
Proof.
  split; [right; left; reflexivity|]. split.
  - change (bs "a\'\n\xaB") with [97; 92; 39; 92; 110; 92; 120; 97; 66].
    apply spells_plain; [lia|lia|]. apply spells_escape; [lia|unfold escapes; repeat (first [left; reflexivity|right])|].
    apply spells_escape; [lia|unfold escapes; repeat (first [left; reflexivity|right])|].
    apply (spells_hex 39 97 66 10 11); [lia|unfold digit_value; lia|unfold digit_value; lia|constructor].
  - unfold source_text. cbv [bs Z.of_N N_of_ascii]. repeat (apply Forall_cons; [vm_compute; split; discriminate|]). constructor.
Qed.

(** ** C79 *)

Lemma radix_source mark base w v : radix mark base -> denotes base w v -> source_text (48 :: mark :: w) /\ newlines (48 :: mark :: w) = 0.
Proof.
  intros R D. pose proof (denotes_chars _ _ _ D) as F. assert (X : Forall (fun c => 48 <= c <= 120) (48 :: mark :: w)).
  { constructor; [lia|]. constructor; [unfold radix in R; lia|]. apply Forall_impl with (2 := F). intros c (d & V & _). unfold digit_value in V. lia. }
  split; [apply Forall_impl with (2 := X); intros; lia|]. apply newlines_none. intros i. rewrite Forall_forall in X. specialize (X _ i). lia.
Qed.

(** A hexadecimal, octal or binary literal that fits in 64 bits is read as the number it denotes. *)
Theorem radix_literals : forall mark base w v l, radix mark base -> denotes base w v -> v < 2 ^ 64 -> numeral l v ->
  scan (48 :: mark :: w) = Ok [mk_token LITERAL_INT l 1; eof 1].
Proof.
  intros mark base w v l R D L N. destruct (radix_source _ _ _ _ R D) as (S & NL). apply scan_one; [exact S| |discriminate|exact NL].
  apply (lex_radix mark base w v); try assumption. intros c d _ _. apply no_prefix_nil.
Qed.
Print Assumptions radix_literals.

Example radix_literals_ok : radix 120 16 /\ denotes 16 (bs "fF") 255 /\ numeral (bs "255") 255.
Proof.
  split; [left; auto|]. split.
  - apply (denotes_more 16 [102] 70 15 15); [apply (denotes_more 16 [] 102 0 15); [constructor|unfold digit_value; lia|lia]|unfold digit_value; lia|lia].
  - apply (decimal_numeral 2 255). cbn. lia.
Qed.

(** One that does not is refused. *)
Theorem radix_overflow : forall mark base w v, radix mark base -> denotes base w v -> 2 ^ 64 <= v -> scan (48 :: mark :: w) = Throw.
Proof.
  intros mark base w v R D L. destruct (radix_source _ _ _ _ R D) as (S & _). apply source_nul_free in S.
  unfold scan. rewrite scan_loop_step; [|discriminate|exact S].
  assert (TS : token_start (48 :: mark :: w)) by (apply simple_start; lia).
  rewrite skip_stop by exact TS. cbn [bind]. rewrite peek0. cbn [bind behind hd]. change (48 =? 0) with false. cbv iota.
  pose proof (radix_item mark base w [] (option_map ty None) 1 R (denotes_chars _ _ _ D)) as X. rewrite app_nil_r in X. rewrite X; [reflexivity| |].
  - intros c d _ _. apply no_prefix_nil.
  - rewrite (denotes_value _ _ _ D). exact L.
Qed.
Print Assumptions radix_overflow.

Example radix_overflow_ok : radix 120 16 /\ denotes 16 (bs "10000000000000000") (2 ^ 64).
Proof.
  split; [left; auto|]. change (2 ^ 64) with (number_value 16 (bs "10000000000000000")). apply denotes_ex.
  cbv [bs Z.of_N N_of_ascii]. repeat (apply Forall_cons; [first [exists 1; split; [left; vm_compute; split; [reflexivity|split; discriminate]|reflexivity] | exists 0; split; [left; vm_compute; split; [reflexivity|split; discriminate]|reflexivity]]|]). constructor.
Qed.

(** ** C80 *)

(** The scanner looks beyond the end of the source only if the source ends in a string that is not closed. *)
Theorem scan_safe_partial : forall s, source_text s ->
  (exists toks, scan s = Ok toks) \/ scan s = Throw \/
  (scan s = UB /\ exists pre toks q body v, s = pre ++ q :: body /\ scan pre = Ok toks /\ quote q /\ spells q v body).
Proof.
  intros s S. destruct (scan_outcome s S) as [E|[E|(E & pre & toks & q & body & v & -> & R & Q & Sp)]]; [auto|auto|]. right. right.
  split; [exact E|]. exists pre, toks, q, body, v. split; [reflexivity|]. split; [|auto].
  apply scan_is_reads; [|exact R]. apply Forall_app in S. apply S.
Qed.
Print Assumptions scan_safe_partial.

Lemma spells_no_newline q v body : q <> 96 -> spells q v body -> ~ In 10 body.
Proof.
  intros N. induction 1 as [|c s text Hq Hc S IH|e x s text Hq i S IH|h1 h2 d1 d2 s text Hq D1 D2 S IH]; cbn [In].
  - tauto.
  - intros [->|i]; [lia|exact (IH i)].
  - destruct (escape_value _ _ i) as (_ & E & _). intros [j|[j|j]]; [discriminate j|congruence|exact (IH j)].
  - unfold digit_value in D1, D2. intros [j|[j|[j|[j|j]]]]; [discriminate j|discriminate j|lia|lia|exact (IH j)].
Qed.

(** So a source that ends with a line feed and has no back quote is safe. *)
Theorem scan_safe_lines_partial : forall s, source_text (s ++ [10]) -> ~ In 96 s -> exists r, (r = Throw \/ exists toks, r = Ok toks) /\ scan (s ++ [10]) = r.
Proof.
  intros s S N. eexists. split; [|reflexivity]. destruct (scan_safe_partial _ S) as [E|[E|(_ & pre & toks & q & body & v & E & _ & Q & Sp)]]; [auto|auto|]. exfalso.
  assert (Nq : q <> 96).
  { intros ->. assert (i : In 96 (s ++ [10])) by (rewrite E; apply in_or_app; right; left; reflexivity). apply in_app_or in i. destruct i as [i|[i|[]]]; [exact (N i)|discriminate i]. }
  destruct (snoc_or_nil body) as [->|(b & c & ->)].
  - apply app_inj_tail in E. destruct E as (_ & E). unfold quote in Q. lia.
  - change (pre ++ q :: b ++ [c]) with (pre ++ (q :: b) ++ [c]) in E. rewrite app_assoc in E. apply app_inj_tail in E. destruct E as (_ & <-).
    apply (spells_no_newline _ _ _ Nq Sp). apply in_or_app. right. left. reflexivity.
Qed.
Print Assumptions scan_safe_lines_partial.

Example scan_safe_lines_partial_ok : scan ((34 :: bs "abc") ++ [10]) = Throw /\ scan (bs "x /* y" ++ [10]) = Throw.
Proof. split; reflexivity. Qed.

(** The source consisting of one quote. *)
Theorem scan_safe_refuted : exists s, source_text s /\ scan s = UB.
Proof. exists [34]. split; [constructor; [lia|constructor]|reflexivity]. Qed.
Print Assumptions scan_safe_refuted.

(** ** C81 *)

(** A comment between two words is passed over, unless it begins with a slash. *)
Theorem comments_partial : forall w body w', identifier w -> identifier w' -> source_text body ->
  (forall a r, body <> a ++ bs "*/" ++ r) -> ~ prefix [47] body ->
  exists t t', word_type reserved w t /\ word_type reserved w' t' /\
  scan (w ++ bs " /*" ++ body ++ bs "*/ " ++ w') = Ok [mk_token t w 1; mk_token t' w' (1 + newlines body); eof (1 + newlines body)].
Proof.
  intros w body w' I I' B N N47. exists (ident_type w), (ident_type w'). pose proof (ident_word w) as T. pose proof (ident_word w') as T'.
  split; [exact T|]. split; [exact T'|].
  assert (NLw : newlines w = 0) by (destruct I as (c & t & -> & L & F); apply word_no_newline; constructor; [left; exact L|exact F]).
  assert (NLw' : newlines w' = 0) by (destruct I' as (c & t & -> & L & F); apply word_no_newline; constructor; [left; exact L|exact F]).
  apply scan_is_reads.
  { apply Forall_app. split; [apply identifier_source, I|]. repeat (apply Forall_cons; [cbn; lia|]). cbn [app].
    apply Forall_app. split; [exact B|]. repeat (apply Forall_cons; [cbn; lia|]). cbn [app]. apply identifier_source, I'. }
  set (mid := bs " /*" ++ body ++ bs "*/ ").
  assert (Em : bs " /*" ++ body ++ bs "*/ " ++ w' = mid ++ w' ++ []) by (unfold mid; rewrite app_nil_r, <- !app_assoc; reflexivity). rewrite Em.
  assert (Ly : layout false mid).
  { unfold mid. change (bs " /*" ++ body ++ bs "*/ ") with (32 :: bs "/*" ++ body ++ bs "*/" ++ [32]). apply lay_blank; [auto|]. apply lay_block; [exact N47|exact N|]. apply lay_blank; [auto|constructor]. }
  assert (NLm : newlines mid = newlines body).
  { unfold mid. rewrite !newlines_app. change (newlines (bs " /*")) with 0. change (newlines (bs "*/ ")) with 0. lia. }
  pose proof (reads_token None 1 false [] w (mid ++ w' ++ []) (ident_type w) (ident_type w) w [] [mk_token (ident_type w') w' (1 + newlines body); eof (1 + newlines body)]) as R.
  cbn [app] in R. rewrite NLw, Z.add_0_r in R. apply R; clear R.
  - constructor.
  - apply lex_word; [exact I|exact T|]. intros c C (r & E). unfold mid in E. injection E as E _. unfold word_char, letter, digit in C. subst c. cbn in C. lia.
  - right. split; [|reflexivity]. intros (_ & X). discriminate X.
  - reflexivity.
  - pose proof (reads_token (Some (mk_token (ident_type w) w 1)) 1 false mid w' [] (ident_type w') (ident_type w') w' [] [eof (1 + newlines body)]) as R.
    cbn [app] in R. rewrite newlines_app, NLw', NLm, Z.add_0_r in R. apply R; clear R.
    + exact Ly.
    + apply lex_word; [exact I'|exact T'|]. intros c _. apply no_prefix_nil.
    + right. split; [|reflexivity]. intros (X & _). exact (word_not_star _ _ T' X).
    + right. split; [|reflexivity]. intros (X & _). discriminate X.
    + pose proof (reads_end (Some (mk_token (ident_type w') w' (1 + newlines body))) (1 + newlines body) [] final_nil) as E. rewrite newlines_nil, Z.add_0_r in E. exact E.
Qed.
Print Assumptions comments_partial.

Example comments_partial_ok : (forall a r, bs "* b *" <> a ++ bs "*/" ++ r) /\ ~ prefix [47] (bs "* b *").
Proof.
  split; [|intros (r & E); discriminate E]. intros a r E. change (bs "* b *") with [42; 32; 98; 32; 42] in E. change (bs "*/") with [42; 47] in E.
  destruct a as [|? [|? [|? [|? [|? [|? a]]]]]]; cbn [app] in E; discriminate E.
Qed.

(** Behind slash-star-slash the text of the comment is part of the program. *)
Theorem comments_refuted : exists w body w', identifier w /\ identifier w' /\ source_text body /\ (forall a r, body <> a ++ bs "*/" ++ r) /\
  exists toks, scan (w ++ bs " /*" ++ body ++ bs "*/ " ++ w') = Ok toks /\ In (mk_token IDENT (bs "hidden") 1) toks.
Proof.
  exists (bs "a"), (bs "/ hidden "), (bs "b").
  split; [exists 97, []; split; [reflexivity|]; split; [left; lia|constructor]|]. split; [exists 98, []; split; [reflexivity|]; split; [left; lia|constructor]|].
  split; [unfold source_text; cbv [bs Z.of_N N_of_ascii]; repeat (apply Forall_cons; [vm_compute; split; discriminate|]); constructor|]. split.
  - intros a r E. change (bs "*/") with [42; 47] in E. assert (i : In 42 (bs "/ hidden ")) by (rewrite E; apply in_or_app; right; left; reflexivity).
    vm_compute in i. intuition discriminate.
  - eexists. split; [vm_compute; reflexivity|]. right. left. reflexivity.
Qed.
Print Assumptions comments_refuted.
