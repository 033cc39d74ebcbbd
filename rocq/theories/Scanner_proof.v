From Verif Require Import Base Base_lemmas Scanner_model Scanner_spec Scanner_chars_proof Scanner_lex_proof.
From Coq Require Import ZifyBool.

(** ** One token *)

Lemma in_place_fun last t t' : in_place last t t' <-> t' = match t, option_map ty last with STAR, Some K_AS => IMPORT_STAR | _, _ => t end.
Proof.
  unfold in_place. split.
  - intros [(-> & -> & ->)|(N & ->)]; [reflexivity|]. destruct t; try reflexivity. destruct (option_map ty last) as [u|]; [|reflexivity].
    destruct u; try reflexivity. exfalso. apply N. auto.
  - intros ->. destruct t; try (right; split; [intros (X & _); discriminate X|reflexivity]).
    destruct (option_map ty last) as [u|]; [destruct u|]; try (right; split; [intros (_ & X); discriminate X|reflexivity]). left. auto.
Qed.

Lemma in_place_other last t t' : in_place last t t' -> t <> STAR -> t' = t.
Proof. intros [(-> & _)|(_ & ->)] N; congruence. Qed.

Lemma in_place_ex last t : exists t', in_place last t t'.
Proof. eexists. apply in_place_fun. reflexivity. Qed.

Lemma word_not_star w t : word_type reserved w t -> t <> STAR.
Proof.
  intros [i|(_ & ->)]; [|discriminate]. unfold reserved, keywords, accidents in i. cbn [app In] in i.
  repeat (destruct i as [i|i]; [injection i as _ <-; discriminate|]). destruct i.
Qed.

Lemma word_no_newline w : Forall word_char w -> newlines w = 0.
Proof. intros F. apply newlines_none. intros i. rewrite Forall_forall in F. specialize (F _ i). unfold word_char, letter, digit in F. lia. Qed.

Lemma digits_no_newline w : Forall digit w -> newlines w = 0.
Proof. intros F. apply word_no_newline. apply Forall_impl with (2 := F). intros c H. right. exact H. Qed.

Lemma fraction_no_newline f : fraction f -> newlines f = 0.
Proof. intros (g & -> & _ & G). rewrite newlines_cons, digits_no_newline by exact G. reflexivity. Qed.
Lemma exponent_no_newline e : exponent e -> newlines e = 0.
Proof.
  intros (c & sg & g & -> & Hc & Hs & _ & G). rewrite newlines_cons, newlines_app, (digits_no_newline g G).
  replace (c =? 10) with false by lia. destruct Hs as [->|[->| ->]]; reflexivity.
Qed.

Lemma operator_no_newline t op : In (t, op) operators -> newlines op = 0.
Proof.
  unfold operators. cbn [In]. intros i. repeat (destruct i as [i|i]; [injection i as _ <-; reflexivity|]). destruct i.
Qed.

(** How a token can begin. *)
Definition token_start (s : list Z) : Prop :=
  (exists c t, s = c :: t /\ c <> 32 /\ c <> 13 /\ c <> 9 /\ c <> 10) /\ ~ prefix (bs "//") s /\ ~ prefix (bs "/*") s.

Lemma no_comment c s : c <> 47 -> ~ prefix (bs "//") (c :: s) /\ ~ prefix (bs "/*") (c :: s).
Proof. intros N. split; intros (r & E); injection E as E _; congruence. Qed.

Lemma simple_start c s : c <> 32 -> c <> 13 -> c <> 9 -> c <> 10 -> c <> 47 -> token_start (c :: s).
Proof. intros. split; [exists c, s; auto|]. apply no_comment. assumption. Qed.

Lemma operator_head t op : In (t, op) operators -> exists c r, op = c :: r /\ c <> 32 /\ c <> 13 /\ c <> 9 /\ c <> 10 /\
  is_alpha c = false /\ c <> 64 /\ c <> 35 /\ is_number c = false /\ is_quote c = false.
Proof.
  let o := eval vm_compute in operators in change operators with o. cbn [In]. intros i.
  repeat (destruct i as [i|i]; [injection i as _ <-; eexists _, _; split; [reflexivity|]; repeat split; first [discriminate|reflexivity]|]). destruct i.
Qed.

Lemma digits_head w : digits w -> exists c t, w = c :: t /\ digit c.
Proof. intros (N & F). destruct w as [|c t]; [congruence|]. exists c, t. split; [reflexivity|exact (Forall_inv F)]. Qed.

Lemma lexeme_start t l text rest : lexeme t l text rest -> token_start (text ++ rest) /\ text <> [].
Proof.
  intros H. destruct H as [w t rest (c & tl & -> & L & _) _ _|w rest _ _|w rest _ _|w rest D _ _ _ _|w f rest D _ _ _|w f e rest D _ _ _|mark base w v l rest _ _ _ _ _|q s text rest Q _|t op rest i (_ & N1 & N2)].
  all: try (destruct (digits_head _ D) as (c & tl & -> & L)); cbn [app].
  all: try (split; [apply simple_start; try discriminate; unfold letter, digit, quote in *; lia|discriminate]).
  destruct (operator_head _ _ i) as (c & r & -> & ? & ? & ? & ? & _). split; [|discriminate]. split; [exists c, (r ++ rest); auto|]. split; assumption.
Qed.

(** ** Taking one token *)

Lemma item_word c w r prev ln : letter c -> Forall word_char w -> ~ word_char (behind r) ->
  item prev ((c :: w ++ r) ++ [0]) ln = Ok (mk_token (ident_type (c :: w)) (c :: w) ln, r ++ [0], ln).
Proof.
  intros L F N. unfold item. rewrite peek0. cbn [bind behind hd]. pose proof L as L'. apply is_alpha_spec in L'. rewrite L'.
  change ((c :: w ++ r) ++ [0]) with (((c :: w) ++ r) ++ [0]). rewrite <- app_assoc. unfold ident_advance. rewrite span_ok.
  - reflexivity.
  - constructor; [apply is_word_spec; left; exact L|]. apply Forall_impl with (2 := F). intros x. apply is_word_spec.
  - rewrite <- is_word_spec in N. destruct (is_alpha (behind r) || is_number (behind r)); [congruence|reflexivity].
Qed.

Lemma item_marked c t w r prev ln : c = 64 /\ t = MACRO_IDENT \/ c = 35 /\ t = LABEL -> Forall word_char w -> ~ word_char (behind r) ->
  item prev ((c :: w ++ r) ++ [0]) ln = Ok (mk_token t w ln, r ++ [0], ln).
Proof.
  intros C F N. unfold item. rewrite peek0. cbn [bind behind hd].
  assert (S : ident_advance (tl ((c :: w ++ r) ++ [0])) = Ok (w, r ++ [0])).
  { cbn [app tl]. rewrite <- app_assoc. unfold ident_advance. rewrite span_ok; [reflexivity| |].
    - apply Forall_impl with (2 := F). intros x. apply is_word_spec.
    - rewrite <- is_word_spec in N. destruct (is_alpha (behind r) || is_number (behind r)); [congruence|reflexivity]. }
  destruct C as [(-> & ->)|(-> & ->)]; rewrite S; reflexivity.
Qed.

Lemma item_radix mark base w v l r prev ln : radix mark base -> denotes base w v -> v < 2 ^ 64 -> numeral l v ->
  (forall c d, digit_value c d -> d < base -> ~ prefix [c] r) ->
  item prev ((48 :: mark :: w ++ r) ++ [0]) ln = Ok (mk_token LITERAL_INT l ln, r ++ [0], ln).
Proof.
  intros R D L N X. unfold item. rewrite peek0. cbn [bind behind hd]. change (is_alpha 48) with false. change (48 =? 64) with false.
  change (48 =? 35) with false. change (is_number 48) with true. change (48 =? 48) with true. cbv iota.
  rewrite peek1. cbn [bind behind hd app tl].
  assert (Fl : is_float l = Ok false).
  { apply is_float_int. destruct N as (_ & F & C). split; [|exact F]. destruct C as [->|(c & t & -> & _)]; discriminate. }
  pose proof (denotes_chars _ _ _ D) as Fw.
  assert (Nr : ~ exists d, digit_value (behind r) d /\ d < base).
  { intros (d & V & B). destruct r as [|c r]; [destruct (digit_value_fun _ _ V) as (H0 & _); discriminate H0|]. apply (X c d V B). exists r. reflexivity. }
  rewrite <- app_assoc.
  destruct R as [(-> & ->)|[(-> & ->)|(-> & ->)]].
  - change (120 =? 120) with true. cbv iota. rewrite span_ok.
    + cbn [bind]. rewrite (number_convert_ok _ _ _ _ D ltac:(lia) L N). cbn [bind]. rewrite Fl. reflexivity.
    + apply Forall_impl with (2 := Fw). intros c. apply hex_digits.
    + rewrite <- hex_digits in Nr. destruct (is_hex (behind r)); [congruence|reflexivity].
  - change (111 =? 120) with false. change (111 =? 111) with true. cbv iota. rewrite span_ok.
    + cbn [bind]. rewrite (number_convert_ok _ _ _ _ D ltac:(lia) L N). cbn [bind]. rewrite Fl. reflexivity.
    + apply Forall_impl with (2 := Fw). intros c. apply oct_digits.
    + rewrite <- oct_digits in Nr. destruct (is_oct (behind r)); [congruence|reflexivity].
  - change (98 =? 120) with false. change (98 =? 111) with false. change (98 =? 98) with true. cbv iota. rewrite span_ok.
    + cbn [bind]. rewrite (number_convert_ok _ _ _ _ D ltac:(lia) L N). cbn [bind]. rewrite Fl. reflexivity.
    + apply Forall_impl with (2 := Fw). intros c. apply bin_digits.
    + rewrite <- bin_digits in Nr. destruct (is_bin (behind r)); [congruence|reflexivity].
Qed.

Lemma item_decimal w f e r prev ln b : digits w -> (f = [] \/ fraction f) -> (e = [] \/ exponent e) -> number_ends f e r ->
  (f = [] -> e = [] -> w = [48] -> behind r <> 120 /\ behind r <> 111 /\ behind r <> 98) ->
  nul_free (w ++ f ++ e ++ r) -> is_float (w ++ f ++ e) = Ok b ->
  item prev ((w ++ f ++ e ++ r) ++ [0]) ln = Ok (mk_token (if b then LITERAL_FLOAT else LITERAL_INT) (w ++ f ++ e) ln, r ++ [0], ln).
Proof.
  intros D Hf He E M NF Fl. pose proof (number_ok _ _ _ _ D Hf He E NF) as A.
  destruct (digits_head _ D) as (c & t & -> & Hc).
  unfold item. rewrite peek0. cbn [bind behind hd app]. unfold digit in Hc.
  replace (is_alpha c) with false by (unfold is_alpha; lia). replace (c =? 64) with false by lia. replace (c =? 35) with false by lia.
  replace (is_number c) with true by (unfold is_number; lia).
  cbn [app] in A.
  assert (P : peek (c :: (t ++ f ++ e ++ r) ++ [0]) 1 = Ok (behind (t ++ f ++ e ++ r))) by apply (peek1 c).
  assert (B : c = 48 -> behind (t ++ f ++ e ++ r) <> 120 /\ behind (t ++ f ++ e ++ r) <> 111 /\ behind (t ++ f ++ e ++ r) <> 98).
  { intros ->. destruct t as [|d t].
    - cbn [app]. destruct Hf as [->|Hf]; [|destruct (fraction_head _ Hf) as (x & ->); cbn [app behind hd]; lia].
      destruct He as [->|He]; [|destruct (exponent_head _ He) as (x & [->| ->]); cbn [app behind hd]; lia].
      apply M; reflexivity.
    - cbn [app behind hd]. destruct D as (_ & D). apply Forall_inv_tail, Forall_inv in D. unfold digit in D. lia. }
  destruct (Z.eqb_spec c 48) as [E48|E48].
  - rewrite P. cbn [bind]. destruct (B E48) as (B1 & B2 & B3). apply Z.eqb_neq in B1, B2, B3. rewrite B1, B2, B3, A. cbn [bind]. cbn [app] in Fl. rewrite Fl. reflexivity.
  - rewrite A. cbn [bind]. cbn [app] in Fl. rewrite Fl. reflexivity.
Qed.

Lemma item_string q v text r prev ln : quote q -> spells q v text -> nul_free text ->
  item prev ((q :: text ++ q :: r) ++ [0]) ln = Ok (mk_token LITERAL_STRING v (ln + newlines text), r ++ [0], ln + newlines text).
Proof.
  intros Q S F. unfold item. rewrite peek0. cbn [bind behind hd]. pose proof Q as Q'. apply is_quote_spec in Q'. unfold quote in Q.
  replace (is_alpha q) with false by (unfold is_alpha; lia). replace (q =? 64) with false by lia. replace (q =? 35) with false by lia.
  replace (is_number q) with false by (unfold is_number; lia). rewrite Q'. cbn [app tl]. rewrite <- app_assoc. cbn [app].
  rewrite (string_ok q v text) by assumption. reflexivity.
Qed.

Lemma item_operator t op r last t' ln : In (t, op) operators -> nul_free (op ++ r) ->
  (forall u op', In (u, op') operators -> prefix op' (op ++ r) -> zlen op' <= zlen op) -> in_place last t t' ->
  item (option_map ty last) ((op ++ r) ++ [0]) ln = Ok (mk_token t' op ln, r ++ [0], ln).
Proof.
  intros i F M P. destruct (operator_head _ _ i) as (c & o & -> & _ & _ & _ & _ & Ea & E64 & E35 & En & Eq).
  unfold item. rewrite peek0. cbn [app] in F, M |- *. cbn [bind behind hd]. apply Z.eqb_neq in E64, E35. rewrite Ea, E64, E35, En, Eq. cbn [tl].
  rewrite (special_ok t) by assumption. apply in_place_fun in P. subst t'.
  change (c :: (o ++ r) ++ [0]) with (((c :: o) ++ r) ++ [0]). rewrite <- app_assoc.
  change (S (length o)) with (length (c :: o)). rewrite firstn_app, Nat.sub_diag, firstn_all, firstn_O, app_nil_r.
  rewrite skipn_app, Nat.sub_diag, skipn_all. reflexivity.
Qed.

(** The text of a token is taken as that token. *)
Lemma item_ok t l text rest last t' ln : lexeme t l text rest -> nul_free (text ++ rest) -> in_place last t t' ->
  item (option_map ty last) ((text ++ rest) ++ [0]) ln = Ok (mk_token t' l (ln + newlines text), rest ++ [0], ln + newlines text).
Proof.
  intros H F P.
  assert (W0 : ~ word_char 0) by (unfold word_char, letter, digit; lia).
  destruct H as [w t rest (c & tl & -> & L & Ft) T N|w rest Fw N|w rest Fw N|w rest D N1 N2 N3 N4|w f rest D Hf N1 N2|w f e rest D Hf He N1|mark base w v l rest R D L N X|q s text rest Q S|t op rest i (M & _ & _)].
  - rewrite (in_place_other _ _ _ P (word_not_star _ _ T)). rewrite word_no_newline, Z.add_0_r by (constructor; [left; exact L|exact Ft]).
    rewrite <- (word_type_fun _ _ T). change ((c :: tl) ++ rest) with (c :: tl ++ rest). apply item_word; [exact L|exact Ft|]. apply behind_not; assumption.
  - rewrite (in_place_other _ _ _ P) by discriminate. rewrite newlines_cons, word_no_newline by exact Fw. rewrite Z.add_0_r.
    change ((64 :: w) ++ rest) with (64 :: w ++ rest). apply item_marked; [auto|exact Fw|]. apply behind_not; assumption.
  - rewrite (in_place_other _ _ _ P) by discriminate. rewrite newlines_cons, word_no_newline by exact Fw. rewrite Z.add_0_r.
    change ((35 :: w) ++ rest) with (35 :: w ++ rest). apply item_marked; [auto|exact Fw|]. apply behind_not; assumption.
  - rewrite (in_place_other _ _ _ P) by discriminate. rewrite digits_no_newline, Z.add_0_r by apply D.
    pose proof (item_decimal w [] [] rest (option_map ty last) ln false) as A. cbn [app] in A. rewrite app_nil_r in A. apply A; try assumption; auto.
    + split; [apply behind_not; [exact not_digit0|exact N1]|]. split; intros; auto.
    + intros _ _ E. pose proof (N4 120 16 (or_introl (conj eq_refl eq_refl)) E) as Y1.
      pose proof (N4 111 8 (or_intror (or_introl (conj eq_refl eq_refl))) E) as Y2.
      pose proof (N4 98 2 (or_intror (or_intror (conj eq_refl eq_refl))) E) as Y3.
      repeat split; intros B; (destruct rest as [|x rest]; [discriminate B|cbn [behind hd] in B; subst x]); [apply Y1|apply Y2|apply Y3]; exists rest; reflexivity.
    + apply is_float_int, D.
  - rewrite (in_place_other _ _ _ P) by discriminate. rewrite newlines_app, digits_no_newline, fraction_no_newline by (exact Hf || apply D). rewrite !Z.add_0_r.
    pose proof (item_decimal w f [] rest (option_map ty last) ln true) as A. cbn [app] in A. rewrite app_nil_r in A.
    assert (Ea : (w ++ f) ++ rest = w ++ f ++ rest) by (symmetry; apply app_assoc). rewrite Ea in F |- *.
    destruct (fraction_head _ Hf) as (ft & Ef). apply A; try assumption; auto.
    + split; [apply behind_not; [exact not_digit0|exact N1]|]. split; intros; auto. rewrite Ef in *. discriminate.
    + rewrite Ef. discriminate.
    + apply is_float_fraction; assumption.
  - rewrite (in_place_other _ _ _ P) by discriminate.
    replace (newlines (w ++ f ++ e)) with 0 by (rewrite !newlines_app, digits_no_newline, (exponent_no_newline e He) by apply D; destruct Hf as [->|Hf]; [reflexivity|rewrite fraction_no_newline by exact Hf; reflexivity]).
    rewrite Z.add_0_r.
    pose proof (item_decimal w f e rest (option_map ty last) ln true) as A.
    assert (Ea : (w ++ f ++ e) ++ rest = w ++ f ++ e ++ rest) by (rewrite <- !app_assoc; reflexivity). rewrite Ea in F |- *.
    destruct (exponent_head _ He) as (et & Ee). apply A; try assumption; auto.
    + split; [apply behind_not; [exact not_digit0|exact N1]|]. destruct Ee as [-> | ->]; split; discriminate.
    + destruct Ee as [-> | ->]; discriminate.
    + apply is_float_exponent; assumption.
  - rewrite (in_place_other _ _ _ P) by discriminate.
    replace (newlines (48 :: mark :: w)) with 0.
    + rewrite Z.add_0_r. change ((48 :: mark :: w) ++ rest) with (48 :: mark :: w ++ rest). apply (item_radix mark base w v l); assumption.
    + symmetry. apply newlines_none. intros i. pose proof (denotes_chars _ _ _ D) as Fw. destruct i as [i|[i|i]]; [discriminate i| |].
      * unfold radix in R. lia.
      * rewrite Forall_forall in Fw. destruct (Fw _ i) as (d & V & _). unfold digit_value in V. lia.
  - rewrite (in_place_other _ _ _ P) by discriminate.
    assert (NL : newlines (q :: text ++ [q]) = newlines text).
    { rewrite newlines_cons, newlines_app, newlines_cons, newlines_nil. unfold quote in Q. replace (q =? 10) with false by lia. lia. }
    rewrite NL. change ((q :: text ++ [q]) ++ rest) with (q :: (text ++ [q]) ++ rest) in F |- *. rewrite <- app_assoc in F |- *. cbn [app] in F |- *.
    apply item_string; [exact Q|exact S|]. apply Forall_inv_tail in F. apply Forall_app in F. apply F.
  - rewrite (operator_no_newline _ _ i), Z.add_0_r. apply (item_operator t); assumption.
Qed.
