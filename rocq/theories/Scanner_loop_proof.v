From Verif Require Import Base Base_lemmas Scanner_model Scanner_spec Scanner_chars_proof Scanner_lex_proof Scanner_proof.
From Coq Require Import ZifyBool.

(** ** What can be taken is a token *)

Lemma words_behind r : ~ word_char (behind r) -> forall c, word_char c -> ~ prefix [c] r.
Proof. intros N c. apply behind_only. exact N. Qed.

Lemma ident_span s : nul_free s -> exists w r, s = w ++ r /\ Forall word_char w /\ ~ word_char (behind r).
Proof.
  intros F. destruct (span_inv (fun c => is_alpha c || is_number c) s eq_refl F) as (w & r & -> & _ & Fw & Er). exists w, r.
  split; [reflexivity|]. split; [apply Forall_impl with (2 := Fw); intros c; apply is_word_spec|]. rewrite <- is_word_spec. congruence.
Qed.

Lemma radix_item mark base w r prev ln : radix mark base -> 
  Forall (fun c => exists d, digit_value c d /\ d < base) w -> (forall c d, digit_value c d -> d < base -> ~ prefix [c] r) ->
  2 ^ 64 <= number_value base w -> item prev ((48 :: mark :: w ++ r) ++ [0]) ln = Throw.
Proof.
  intros R Fw X L. unfold item. rewrite peek0. cbn [bind behind hd]. change (is_alpha 48) with false. change (48 =? 64) with false.
  change (48 =? 35) with false. change (is_number 48) with true. change (48 =? 48) with true. cbv iota.
  rewrite peek1. cbn [bind behind hd app tl].
  assert (C : number_convert base w = Throw).
  { unfold number_convert. change (2 ^ 64) with 18446744073709551616 in L. replace (18446744073709551615 <? number_value base w) with true by lia. reflexivity. }
  assert (Nr : ~ exists d, digit_value (behind r) d /\ d < base).
  { intros (d & V & B). destruct r as [|c r]; [destruct (digit_value_fun _ _ V) as (H0 & _); discriminate H0|]. apply (X c d V B). exists r. reflexivity. }
  rewrite <- app_assoc.
  destruct R as [(-> & ->)|[(-> & ->)|(-> & ->)]].
  - change (120 =? 120) with true. cbv iota. rewrite span_ok; [cbn [bind]; rewrite C; reflexivity| |].
    + apply Forall_impl with (2 := Fw). intros c. apply hex_digits.
    + rewrite <- hex_digits in Nr. destruct (is_hex (behind r)); [congruence|reflexivity].
  - change (111 =? 120) with false. change (111 =? 111) with true. cbv iota. rewrite span_ok; [cbn [bind]; rewrite C; reflexivity| |].
    + apply Forall_impl with (2 := Fw). intros c. apply oct_digits.
    + rewrite <- oct_digits in Nr. destruct (is_oct (behind r)); [congruence|reflexivity].
  - change (98 =? 120) with false. change (98 =? 111) with false. change (98 =? 98) with true. cbv iota. rewrite span_ok; [cbn [bind]; rewrite C; reflexivity| |].
    + apply Forall_impl with (2 := Fw). intros c. apply bin_digits.
    + rewrite <- bin_digits in Nr. destruct (is_bin (behind r)); [congruence|reflexivity].
Qed.

Lemma radix_dec c : (exists base, radix c base) \/ (forall base, ~ radix c base).
Proof.
  unfold radix. destruct (Z.eq_dec c 120) as [->|]; [left; exists 16; lia|]. destruct (Z.eq_dec c 111) as [->|]; [left; exists 8; lia|].
  destruct (Z.eq_dec c 98) as [->|]; [left; exists 2; lia|]. right. intros b. lia.
Qed.

Lemma radix_span mark base s : radix mark base -> nul_free s ->
  exists w r, s = w ++ r /\ Forall (fun c => exists d, digit_value c d /\ d < base) w /\ (forall c d, digit_value c d -> d < base -> ~ prefix [c] r).
Proof.
  intros R F.
  assert (K : exists kind, kind 0 = false /\ forall c, kind c = true <-> exists d, digit_value c d /\ d < base).
  { destruct R as [(_ & ->)|[(_ & ->)|(_ & ->)]]; [exists is_hex|exists is_oct|exists is_bin]; split; try reflexivity; [apply hex_digits|apply oct_digits|apply bin_digits]. }
  destruct K as (kind & K0 & K). destruct (span_inv kind s K0 F) as (w & r & -> & _ & Fw & Er). exists w, r. split; [reflexivity|].
  split; [apply Forall_impl with (2 := Fw); intros c; apply K|]. intros c d V L (t & ->). cbn [app behind hd] in Er.
  assert (X : kind c = true) by (apply K; eauto). congruence.
Qed.

(** Every text that can begin with a token does, or is refused, or is a string that is not closed. *)
Lemma item_inv s last ln : nul_free s -> token_start s ->
  item (option_map ty last) (s ++ [0]) ln = Throw \/
  (exists t l text rest, s = text ++ rest /\ lexeme t l text rest) \/
  (exists q body v tok ln', s = q :: body /\ quote q /\ spells q v body /\ item (option_map ty last) (s ++ [0]) ln = Ok (tok, [], ln')).
Proof.
  intros NF ((c & s' & -> & _ & _ & _ & _) & C1 & C2). pose proof NF as NF'. apply Forall_cons_iff in NF'. destruct NF' as (N0 & NF').
  destruct (is_alpha c) eqn:Ea.
  { right. left. destruct (ident_span s' NF') as (w & r & -> & Fw & Nr). apply is_alpha_spec in Ea.
    exists (ident_type (c :: w)), (c :: w), (c :: w), r. split; [reflexivity|]. apply lex_word; [exists c, w; auto|apply ident_word|apply words_behind, Nr]. }
  destruct (Z.eq_dec c 64) as [->|N64].
  { right. left. destruct (ident_span s' NF') as (w & r & -> & Fw & Nr). exists MACRO_IDENT, w, (64 :: w), r. split; [reflexivity|].
    apply lex_macro; [exact Fw|apply words_behind, Nr]. }
  destruct (Z.eq_dec c 35) as [->|N35].
  { right. left. destruct (ident_span s' NF') as (w & r & -> & Fw & Nr). exists LABEL, w, (35 :: w), r. split; [reflexivity|].
    apply lex_label; [exact Fw|apply words_behind, Nr]. }
  destruct (is_number c) eqn:En.
  { apply is_number_spec in En.
    assert (Dec : (forall mark base, radix mark base -> c = 48 -> ~ prefix [mark] s') ->
      exists t l text rest, c :: s' = text ++ rest /\ lexeme t l text rest).
    { intros Nm. destruct (number_inv (c :: s') NF En) as (w & f & e & r & E & D & Hf & He & (Nd & Ne & Nf)).
      destruct He as [->|He]; [destruct Hf as [->|Hf]|].
      - exists LITERAL_INT, w, w, r. split; [exact E|]. apply lex_int; [exact D| | | |].
        + intros x. apply behind_only. exact Nd.
        + apply Nf; reflexivity.
        + apply Ne; reflexivity.
        + intros mark base R ->. cbn [app] in E. injection E as -> ->. apply (Nm _ _ R eq_refl).
      - exists LITERAL_FLOAT, (w ++ f), (w ++ f), r. cbn [app] in E. rewrite <- app_assoc. split; [exact E|]. apply lex_fraction; [exact D|exact Hf| |].
        + intros x. apply behind_only. exact Nd.
        + apply Ne; reflexivity.
      - exists LITERAL_FLOAT, (w ++ f ++ e), (w ++ f ++ e), r. rewrite <- !app_assoc. split; [exact E|]. apply lex_exponent; [exact D|exact Hf|exact He|].
        intros x. apply behind_only. exact Nd. }
    destruct (Z.eq_dec c 48) as [->|N48]; [|right; left; apply Dec; intros; congruence].
    destruct s' as [|m s']; [right; left; apply Dec; intros mark base _ _ (t & E); discriminate E|].
    destruct (radix_dec m) as [(base & R)|Nm]; [|right; left; apply Dec; intros mark base R _ (t & E); injection E as -> _; exact (Nm _ R)].
    apply Forall_inv_tail in NF'. destruct (radix_span _ _ _ R NF') as (w & r & -> & Fw & X).
    destruct (Z_lt_le_dec (number_value base w) (2 ^ 64)) as [L|L].
    - right. left. pose proof (denotes_ex _ _ Fw) as D.
      assert (B : 0 <= number_value base w) by (apply (denotes_nonneg base w); [unfold radix in R; lia|exact D]).
      exists LITERAL_INT, (decimal 20 (number_value base w)), (48 :: m :: w), r. split; [reflexivity|].
      apply (lex_radix m base w (number_value base w)); [exact R|exact D|exact L| |exact X].
      apply decimal_numeral. change (10 ^ Z.of_nat 20) with 100000000000000000000. change (2 ^ 64) with 18446744073709551616 in L. lia.
    - left. apply (radix_item m base); assumption. }
  destruct (is_quote c) eqn:Eq.
  { apply is_quote_spec in Eq.
    assert (I : forall l, item (option_map ty last) ((c :: s') ++ [0]) ln = l <-> (' (s, l, ln) <- string_body c (s' ++ [0]) ln ;; Ok (mk_token LITERAL_STRING s ln, l, ln)) = l).
    { intros l. unfold item. rewrite peek0. cbn [bind behind hd app tl]. rewrite Ea, En. apply Z.eqb_neq in N64, N35. rewrite N64, N35.
      apply is_quote_spec in Eq. rewrite Eq. reflexivity. }
    destruct (string_inv c (length s') s' ln Eq (le_n _) NF') as [E|[(v & text & r & -> & S & E)|(v & S & E)]].
    - left. apply I. rewrite E. reflexivity.
    - right. left. exists LITERAL_STRING, v, (c :: text ++ [c]), r. split; [cbn [app]; rewrite <- app_assoc; reflexivity|]. apply lex_string; assumption.
    - right. right. exists c, s', v. eexists _, _. split; [reflexivity|]. split; [exact Eq|]. split; [exact S|]. apply I. rewrite E. reflexivity. }
  destruct (special_char c (s' ++ [0])) as [(t & k)|] eqn:Es.
  - right. left. destruct (special_takes _ _ _ _ Es NF) as (op & r & E & _ & i & M). exists t, op, op, r. split; [exact E|].
    apply lex_operator; [exact i|]. unfold operator_ends. rewrite <- E. auto.
  - left. unfold item. rewrite peek0. cbn [bind behind hd app tl]. apply Z.eqb_neq in N64, N35. rewrite Ea, En, Eq, N64, N35, Es. reflexivity.
Qed.

(** ** Blanks and comments *)

Definition no_close (body : list Z) : Prop := forall a r, body <> a ++ bs "*/" ++ r.

Lemma no_close_tail c body : no_close (c :: body) -> no_close body.
Proof. intros H a r E. apply (H (c :: a) r). rewrite E. reflexivity. Qed.

Lemma skip_block_ok body r ln : no_close body -> nul_free body -> skip_block (body ++ 42 :: 47 :: r) ln = Ok (r, ln + newlines body).
Proof.
  intros H F. revert ln. induction F as [|c body N F IH]; intros ln.
  - cbn [app skip_block next_is tl]. change ((42 =? 42) && (47 =? 47)) with true. cbv iota. rewrite newlines_nil, Z.add_0_r. reflexivity.
  - cbn [app skip_block].
    assert (E : (c =? 42) && next_is (body ++ 42 :: 47 :: r) 47 = false).
    { destruct (Z.eqb_spec c 42) as [->|]; [|reflexivity]. cbn [andb]. destruct body as [|d body]; [reflexivity|]. cbn [app next_is].
      destruct (Z.eqb_spec d 47) as [->|]; [|reflexivity]. exfalso. apply (H [] body). reflexivity. }
    rewrite E. replace (c =? 0) with false by lia. rewrite IH by (apply no_close_tail in H; exact H). rewrite newlines_cons. do 2 f_equal. destruct (c =? 10); lia.
Qed.

Lemma skip_block_inv s : nul_free s -> (forall ln, skip_block (s ++ [0]) ln = Throw) \/ exists body r, s = body ++ 42 :: 47 :: r /\ no_close body.
Proof.
  intros F. induction F as [|c s N F IH].
  - left. reflexivity.
  - destruct ((c =? 42) && next_is s 47) eqn:E.
    + right. apply andb_prop in E. destruct E as (E1 & E2). destruct s as [|d s]; [discriminate E2|]. cbn [next_is] in E2. exists [], s.
      split; [cbn [app]; f_equal; [lia|f_equal; lia]|]. intros a r X. destruct a; discriminate X.
    + destruct IH as [IH|(body & r & -> & H)].
      * left. intros ln. cbn [app skip_block].
        assert (E' : (c =? 42) && next_is (s ++ [0]) 47 = false) by (destruct s as [|d s]; [cbn [app next_is]; change (0 =? 47) with false; lia|exact E]).
        rewrite E'. replace (c =? 0) with false by lia. apply IH.
      * right. exists (c :: body), r. split; [reflexivity|]. intros a r' X. destruct a as [|x a].
        -- cbn [app bs] in X. change (bs "*/") with [42; 47] in X. cbn [app] in X. injection X as -> ->. cbn [app next_is] in E. discriminate E.
        -- cbn [app] in X. injection X as -> X. exact (H _ _ X).
Qed.

Lemma skip_line_ok body r : ~ In 10 body -> nul_free body -> skip_line (body ++ 10 :: r) = Ok (10 :: r).
Proof.
  intros H F. induction F as [|c body N F IH]; [reflexivity|]. cbn [app skip_line].
  assert (c <> 10) by (intros ->; apply H; left; reflexivity). replace ((c =? 10) || (c =? 0)) with false by lia. apply IH. intros i. apply H. right. exact i.
Qed.

Lemma skip_line_end body : ~ In 10 body -> nul_free body -> skip_line (body ++ [0]) = Ok [0].
Proof.
  intros H F. induction F as [|c body N F IH]; [reflexivity|]. cbn [app skip_line].
  assert (c <> 10) by (intros ->; apply H; left; reflexivity). replace ((c =? 10) || (c =? 0)) with false by lia. apply IH. intros i. apply H. right. exact i.
Qed.

Lemma line_dec s : (exists body r, s = body ++ 10 :: r /\ ~ In 10 body) \/ ~ In 10 s.
Proof.
  induction s as [|c s IH]; [right; intros []|]. destruct (Z.eq_dec c 10) as [->|N]; [left; exists [], s; auto|].
  destruct IH as [(body & r & -> & H)|H]; [left; exists (c :: body), r; split; [reflexivity|]|right]; intros [i|i]; auto.
Qed.

(** One step of skip_space. *)
Lemma skip_blank f h c s ln : c = 32 \/ c = 9 \/ c = 13 -> skip_space (S f) h ((c :: s) ++ [0]) ln = skip_space f h (s ++ [0]) ln.
Proof. intros C. cbn [skip_space]. rewrite peek0. cbn [bind behind hd]. replace ((c =? 32) || (c =? 13) || (c =? 9)) with true by lia. reflexivity. Qed.
Lemma skip_newline f h s ln : skip_space (S f) h ((10 :: s) ++ [0]) ln = skip_space f true (s ++ [0]) (ln + 1).
Proof. reflexivity. Qed.
Lemma skip_line_step f h s ln : skip_space (S f) h ((47 :: 47 :: s) ++ [0]) ln = (l <- skip_line ((47 :: 47 :: s) ++ [0]) ;; skip_space f h l ln).
Proof. reflexivity. Qed.
Lemma skip_block_step f h s ln : skip_space (S f) h ((47 :: 42 :: s) ++ [0]) ln = (' (l, ln) <- skip_block ((47 :: 42 :: s) ++ [0]) ln ;; skip_space f h l ln).
Proof. reflexivity. Qed.
Lemma skip_stop f h s ln : token_start s -> skip_space (S f) h (s ++ [0]) ln = Ok (h, s ++ [0], ln).
Proof.
  intros ((c & t & -> & A & B & C & D) & C1 & C2). cbn [skip_space]. rewrite peek0. cbn [bind behind hd].
  replace ((c =? 32) || (c =? 13) || (c =? 9)) with false by lia. replace (c =? 10) with false by lia.
  destruct (Z.eqb_spec c 47) as [->|]; [|reflexivity]. rewrite peek1. cbn [bind].
  destruct (Z.eqb_spec (behind t) 47) as [E|].
  { exfalso. destruct t as [|d t]; [discriminate E|]. cbn [behind hd] in E. subst d. apply C1. exists t. reflexivity. }
  destruct (Z.eqb_spec (behind t) 42) as [E|]; [|reflexivity].
  exfalso. destruct t as [|d t]; [discriminate E|]. cbn [behind hd] in E. subst d. apply C2. exists t. reflexivity.
Qed.
Lemma skip_end f h ln : skip_space (S f) h [0] ln = Ok (h, [0], ln).
Proof. reflexivity. Qed.

Lemma skip_layout b sep rest f h ln : layout b sep -> nul_free (sep ++ rest) -> (length sep < f)%nat ->
  exists f', (0 < f')%nat /\ (length rest < f -> length rest + length sep < f -> length rest < f')%nat /\
    skip_space f h ((sep ++ rest) ++ [0]) ln = skip_space f' (h || b) (rest ++ [0]) (ln + newlines sep).
Proof.
  intros L. revert f h ln. induction L as [|c b s C L IH|b s L IH|body b s Nb L IH|body b s N47 Nb L IH|b s L IH]; intros f h ln F B.
  - exists f. rewrite orb_false_r, newlines_nil, Z.add_0_r. cbn [app length] in *. repeat split; lia.
  - destruct f as [|f]; [lia|]. cbn [length app] in *. apply Forall_inv_tail in F.
    destruct (IH f h ln F ltac:(lia)) as (f' & P & Q & E). exists f'. split; [exact P|]. split; [lia|].
    change (c :: (s ++ rest) ++ [0]) with ((c :: s ++ rest) ++ [0]). rewrite skip_blank by exact C. rewrite E, newlines_cons.
    replace (c =? 10) with false by lia. reflexivity.
  - destruct f as [|f]; [lia|]. cbn [length app] in *. apply Forall_inv_tail in F.
    destruct (IH f true (ln + 1) F ltac:(lia)) as (f' & P & Q & E). exists f'. split; [exact P|]. split; [lia|].
    change (10 :: (s ++ rest) ++ [0]) with ((10 :: s ++ rest) ++ [0]). rewrite skip_newline, E, newlines_cons, orb_true_r.
    change (10 =? 10) with true. cbv iota. cbn [orb]. f_equal. lia.
  - replace ((bs "//" ++ body ++ 10 :: s) ++ rest) with (47 :: 47 :: body ++ 10 :: s ++ rest) in F |- * by (change (bs "//") with [47; 47]; cbn [app]; repeat (rewrite <- app_assoc; cbn [app]); reflexivity).
    assert (LE : length (bs "//" ++ body ++ 10 :: s) = (3 + length body + length s)%nat) by (clear; rewrite !app_length; change (length (bs "//")) with 2%nat; cbn [length]; lia). rewrite LE in *.
    do 2 apply Forall_inv_tail in F. apply Forall_app in F. destruct F as (Fb & F). apply Forall_inv_tail in F.
    destruct f as [|[|f]]; [lia..|]. destruct (IH f true (ln + 1) F ltac:(lia)) as (f' & P & Q & E). exists f'. split; [exact P|].
    split; [lia|]. rewrite skip_line_step.
    replace ((47 :: 47 :: body ++ 10 :: s ++ rest) ++ [0]) with ((47 :: 47 :: body) ++ 10 :: (s ++ rest) ++ [0]) by (cbn [app]; repeat (rewrite <- app_assoc; cbn [app]); reflexivity).
    rewrite skip_line_ok; [cbn [bind]| |].
    + change (10 :: (s ++ rest) ++ [0]) with ((10 :: s ++ rest) ++ [0]).
      rewrite skip_newline, E. rewrite orb_true_r. cbn [orb]. f_equal. rewrite !newlines_app, newlines_cons, (newlines_none body Nb).
      change (newlines (bs "//")) with 0. change (10 =? 10) with true. cbv iota. lia.
    + intros [i|[i|i]]; [discriminate i..|exact (Nb i)].
    + constructor; [discriminate|]. constructor; [discriminate|exact Fb].
  - replace ((bs "/*" ++ body ++ bs "*/" ++ s) ++ rest) with (47 :: 42 :: body ++ 42 :: 47 :: s ++ rest) in F |- * by (change (bs "/*") with [47; 42]; change (bs "*/") with [42; 47]; cbn [app]; repeat (rewrite <- app_assoc; cbn [app]); reflexivity).
    assert (LE : length (bs "/*" ++ body ++ bs "*/" ++ s) = (4 + length body + length s)%nat) by (clear; rewrite !app_length; change (length (bs "/*")) with 2%nat; change (length (bs "*/")) with 2%nat; lia). rewrite LE in *.
    do 2 apply Forall_inv_tail in F. apply Forall_app in F. destruct F as (Fb & F). do 2 apply Forall_inv_tail in F.
    destruct f as [|f]; [lia|]. destruct (IH f h (ln + newlines body) F ltac:(lia)) as (f' & P & Q & E). exists f'. split; [exact P|].
    split; [lia|]. rewrite skip_block_step.
    replace ((47 :: 42 :: body ++ 42 :: 47 :: s ++ rest) ++ [0]) with ((47 :: 42 :: body) ++ 42 :: 47 :: (s ++ rest) ++ [0]) by (cbn [app]; repeat (rewrite <- app_assoc; cbn [app]); reflexivity).
    rewrite skip_block_ok; [cbn [bind]| |].
    + rewrite !newlines_cons. change (47 =? 10) with false. change (42 =? 10) with false. cbv iota. rewrite !Z.add_0_l.
      rewrite E. f_equal. rewrite !newlines_app. change (newlines (bs "/*")) with 0. change (newlines (bs "*/")) with 0. lia.
    + intros a r X. change (bs "*/") with [42; 47] in X. cbn [app] in X. destruct a as [|x a]; [discriminate X|]. cbn [app] in X. injection X as _ X.
      destruct a as [|y a].
      * cbn [app] in X. injection X as X. apply N47. exists r. exact X.
      * cbn [app] in X. injection X as _ X. exact (Nb _ _ X).
    + constructor; [discriminate|]. constructor; [discriminate|exact Fb].
  - change (bs "/*/") with [47; 42; 47] in *. cbn [app length] in *. do 3 apply Forall_inv_tail in F.
    destruct f as [|f]; [lia|]. destruct (IH f h ln F ltac:(lia)) as (f' & P & Q & E). exists f'. split; [exact P|]. split; [lia|].
    change (47 :: 42 :: 47 :: (s ++ rest) ++ [0]) with ((47 :: 42 :: 47 :: s ++ rest) ++ [0]). rewrite skip_block_step.
    change ((47 :: 42 :: 47 :: s ++ rest) ++ [0]) with ([47] ++ 42 :: 47 :: (s ++ rest) ++ [0]).
    rewrite skip_block_ok; [cbn [bind]| |].
    + rewrite !newlines_cons, newlines_nil. change (47 =? 10) with false. change (42 =? 10) with false. cbv iota. rewrite !Z.add_0_l, Z.add_0_r. exact E.
    + intros a r X. change (bs "*/") with [42; 47] in X. destruct a as [|x [|y a]]; discriminate X.
    + constructor; [discriminate|constructor].
Qed.

Lemma skip_final s f h ln : final s -> nul_free s -> (length s < f)%nat ->
  exists h', skip_space f h (s ++ [0]) ln = Ok (h', [0], ln + newlines s).
Proof.
  intros (b & s1 & s2 & -> & L & C) F B. rewrite app_length in B.
  destruct (skip_layout b s1 s2 f h ln L F ltac:(lia)) as (f' & P & Q & E). exists (h || b). rewrite E. specialize (Q ltac:(lia) ltac:(lia)).
  destruct C as [->|(body & -> & N)].
  - destruct f' as [|f']; [lia|]. rewrite app_nil_r. apply skip_end.
  - change (bs "//") with [47; 47] in *. cbn [app length] in *. destruct f' as [|[|f']]; [lia..|].
    change (47 :: 47 :: body ++ [0]) with ((47 :: 47 :: body) ++ [0]). rewrite skip_line_step.
    apply Forall_app in F. destruct F as (_ & F).
    rewrite skip_line_end; [|intros [i|[i|i]]; [discriminate i..|exact (N i)]|exact F]. cbn [bind]. rewrite skip_end. rewrite newlines_app, !newlines_cons, (newlines_none body N).
    change (47 =? 10) with false. cbv iota. do 2 f_equal. lia.
Qed.

Lemma layout_dec n s : (length s <= n)%nat -> nul_free s ->
  (forall f h ln, (length s < f)%nat -> skip_space f h (s ++ [0]) ln = Throw) \/ final s \/
  exists b sep rest, s = sep ++ rest /\ layout b sep /\ token_start rest.
Proof.
  revert s. induction n as [|n IH]; intros s L F.
  { destruct s; [|cbn [length] in L; lia]. right. left. exists false, [], []. split; [reflexivity|]. split; [constructor|auto]. }
  destruct s as [|c s]; [right; left; exists false, [], []; split; [reflexivity|]; split; [constructor|auto]|].
  cbn [length] in L. pose proof F as F0. apply Forall_inv_tail in F0.
  assert (D : (c = 32 \/ c = 9 \/ c = 13) \/ c = 10 \/ prefix (bs "//") (c :: s) \/ prefix (bs "/*") (c :: s) \/ token_start (c :: s)).
  { destruct (Z.eq_dec c 32); [auto|]. destruct (Z.eq_dec c 9); [auto|]. destruct (Z.eq_dec c 13); [auto|]. destruct (Z.eq_dec c 10); [auto|]. right. right.
    destruct (starts (bs "//") (c :: s)) eqn:E1; [left; apply starts_spec, E1|]. destruct (starts (bs "/*") (c :: s)) eqn:E2; [right; left; apply starts_spec, E2|].
    right. right. split; [exists c, s; auto|]. split; intros X; apply starts_spec in X; congruence. }
  destruct D as [D|[->|[D|[D|D]]]].
  - destruct (IH s ltac:(lia) F0) as [T|[(b & s1 & s2 & -> & Ly & X)|(b & sep & rest & -> & Ly & X)]].
    + left. intros f h ln B. cbn [length] in B. destruct f as [|f]; [lia|]. rewrite skip_blank by exact D. apply T. lia.
    + right. left. exists b, (c :: s1), s2. split; [reflexivity|]. split; [constructor; assumption|exact X].
    + right. right. exists b, (c :: sep), rest. split; [reflexivity|]. split; [constructor; assumption|exact X].
  - destruct (IH s ltac:(lia) F0) as [T|[(b & s1 & s2 & -> & Ly & X)|(b & sep & rest & -> & Ly & X)]].
    + left. intros f h ln B. cbn [length] in B. destruct f as [|f]; [lia|]. rewrite skip_newline. apply T. lia.
    + right. left. exists true, (10 :: s1), s2. split; [reflexivity|]. split; [econstructor; eassumption|exact X].
    + right. right. exists true, (10 :: sep), rest. split; [reflexivity|]. split; [econstructor; eassumption|exact X].
  - destruct D as (s' & E). change (bs "//") with [47; 47] in E. cbn [app] in E. injection E as -> ->. cbn [length] in L.
    destruct (line_dec s') as [(body & r & -> & N)|N].
    + apply Forall_inv_tail in F0. apply Forall_app in F0. destruct F0 as (Fb & F0). apply Forall_inv_tail in F0.
      rewrite app_length in L. cbn [length] in L.
      destruct (IH r ltac:(lia) F0) as [T|[(b & s1 & s2 & -> & Ly & X)|(b & sep & rest & -> & Ly & X)]].
      * left. intros f h ln B. cbn [length] in B. rewrite app_length in B. cbn [length] in B. destruct f as [|[|f]]; [lia..|]. rewrite skip_line_step.
        replace ((47 :: 47 :: body ++ 10 :: r) ++ [0]) with ((47 :: 47 :: body) ++ 10 :: r ++ [0]) by (cbn [app]; repeat (rewrite <- app_assoc; cbn [app]); reflexivity).
        rewrite skip_line_ok; [|intros [i|[i|i]]; [discriminate i..|exact (N i)]|constructor; [discriminate|constructor; [discriminate|exact Fb]]]. cbn [bind].
        change (10 :: r ++ [0]) with ((10 :: r) ++ [0]). rewrite skip_newline. apply T. lia.
      * right. left. exists true, (bs "//" ++ body ++ 10 :: s1), s2. change (bs "//") with [47; 47]. cbn [app]. rewrite <- app_assoc. split; [reflexivity|]. split; [|exact X].
        exact (lay_line body b s1 N Ly).
      * right. right. exists true, (bs "//" ++ body ++ 10 :: sep), rest. change (bs "//") with [47; 47]. cbn [app]. rewrite <- app_assoc. split; [reflexivity|]. split; [|exact X].
        exact (lay_line body b sep N Ly).
    + right. left. exists false, [], (47 :: 47 :: s'). split; [reflexivity|]. split; [constructor|]. right. exists s'. split; [reflexivity|exact N].
  - destruct D as (s' & E). change (bs "/*") with [47; 42] in E. cbn [app] in E. injection E as -> ->. cbn [length] in L.
    destruct (skip_block_inv _ F) as [T|(body & r & E & N)].
    { left. intros f h ln B. destruct f as [|f]; [lia|]. rewrite skip_block_step, T. reflexivity. }
    assert (Fr : nul_free r /\ nul_free body) by (rewrite E in F; apply Forall_app in F; destruct F as (Fb & F); do 2 apply Forall_inv_tail in F; auto). destruct Fr as (Fr & Fb).
    assert (Lr : (length r <= n)%nat /\ (length r + length body + 2 = S (S (length s')))%nat).
    { apply (f_equal (@length Z)) in E. rewrite app_length in E. cbn [length] in E. lia. } destruct Lr as (Lr & Lr2).
    assert (Lay : forall b s0, layout b s0 -> exists x, layout b (x ++ s0) /\ body ++ [42; 47] = x).
    { intros b s0 Ly. exists (body ++ [42; 47]). split; [|reflexivity]. destruct body as [|a body]; [discriminate E|]. cbn [app] in E. injection E as <- E.
      destruct body as [|a' body].
      - exact (lay_short b s0 Ly).
      - cbn [app] in E. injection E as <- E. cbn [app]. rewrite <- app_assoc. cbn [app].
        apply (lay_block body b s0); [|intros a r' X; apply (N (47 :: 42 :: a) r'); rewrite X; reflexivity|exact Ly].
        intros (t & ->). apply (N [47] t). reflexivity. }
    destruct (IH r Lr Fr) as [T|[(b & s1 & s2 & -> & Ly & X)|(b & sep & rest & -> & Ly & X)]].
    + left. intros f h ln B. cbn [length] in B. destruct f as [|f]; [lia|]. rewrite skip_block_step, E, <- app_assoc. cbn [app]. rewrite skip_block_ok by assumption. cbn [bind]. apply T. lia.
    + right. left. destruct (Lay _ _ Ly) as (x & Lx & Ex). exists b, (x ++ s1), s2. split; [rewrite E, <- Ex; repeat (rewrite <- app_assoc; cbn [app]); reflexivity|]. split; [exact Lx|exact X].
    + right. right. destruct (Lay _ _ Ly) as (x & Lx & Ex). exists b, (x ++ sep), rest. split; [rewrite E, <- Ex; repeat (rewrite <- app_assoc; cbn [app]); reflexivity|]. split; [exact Lx|exact X].
  - right. right. exists false, [], (c :: s). split; [reflexivity|]. split; [constructor|exact D].
Qed.

(** ** The ends of statements *)

Lemma need_next p t : t <> DOT -> need_stmt_end p t = need_stmt_end p EOF.
Proof. intros T. destruct t; try reflexivity. exfalso. apply T. reflexivity. Qed.

Lemma ender_spec p : need_stmt_end p EOF = true <-> In p enders.
Proof.
  split.
  - intros H. destruct p; try discriminate H; unfold enders; repeat (first [left; reflexivity|right]).
  - unfold enders. cbn [In]. intros i. repeat (destruct i as [i|i]; [subst p; reflexivity|]). destruct i.
Qed.

Lemma need_spec p t : need_stmt_end p t = true <-> In p enders /\ t <> DOT.
Proof.
  split.
  - intros H. assert (T : t <> DOT) by (intros ->; discriminate H). split; [|exact T]. rewrite need_next in H by exact T. apply ender_spec, H.
  - intros (i & T). rewrite need_next by exact T. apply ender_spec, i.
Qed.

Definition stmt_end_of (last : option token) (b : bool) (t : ttype) : list token :=
  match last with
  | Some p => if b && need_stmt_end (ty p) t then [mk_token STMT_EOF (bs ";") (line p)] else []
  | None => []
  end.

Lemma separated_fun last b t ends : separated last b t ends <-> ends = stmt_end_of last b t.
Proof.
  unfold separated, stmt_end_of. destruct last as [p|]; [|reflexivity].
  destruct (b && need_stmt_end (ty p) t) eqn:E.
  - apply andb_prop in E. destruct E as (-> & E). apply need_spec in E. destruct E as (E1 & E2). split.
    + intros [(_ & _ & _ & ->)|(N & _)]; [reflexivity|]. exfalso. apply N. auto.
    + intros ->. left. auto.
  - assert (N : ~ (b = true /\ In (ty p) enders /\ t <> DOT)).
    { intros (-> & E1 & E2). cbn [andb] in E. assert (need_stmt_end (ty p) t = true) by (apply need_spec; auto). congruence. }
    split; [intros [(A & B & C & _)|(_ & ->)]; [exfalso; apply N; auto|reflexivity]|]. intros ->. right. auto.
Qed.

(** ** The loop *)

Lemma scan_loop_step f last s n : s <> [] -> nul_free s ->
  scan_loop (S f) last (s ++ [0]) n =
  (' (has_new, l, ln) <- skip_space (S (length (s ++ [0]))) false (s ++ [0]) n ;;
   c <- peek l 0 ;;
   if c =? 0 then Ok [mk_token EOF (bs "EOF") ln]
   else ' (next, l, ln) <- item (option_map ty last) l ln ;;
        more <- scan_loop f (Some next) l ln ;; Ok (stmt_end_of last has_new (ty next) ++ next :: more)).
Proof.
  intros N F. cbn [scan_loop]. rewrite peek0. cbn [bind]. destruct s as [|c s]; [congruence|]. cbn [behind hd]. apply Forall_inv in F. replace (c =? 0) with false by lia. reflexivity.
Qed.

Lemma scan_loop_nil f last n : scan_loop (S f) last [0] n = Ok [mk_token EOF (bs "EOF") n].
Proof. reflexivity. Qed.

Lemma token_start_char s : token_start s -> nul_free s -> s <> [] /\ exists c, peek (s ++ [0]) 0 = Ok c /\ (c =? 0) = false.
Proof. intros ((c & t & -> & _) & _) F. split; [discriminate|]. exists c. split; [reflexivity|]. apply Forall_inv in F. lia. Qed.

Lemma reads_ok last n s toks : reads last n s toks -> forall f, nul_free s -> (length s < f)%nat -> scan_loop f last (s ++ [0]) n = Ok toks.
Proof.
  induction 1 as [last n s Fi|last n b sep text rest t t' l ends toks L X P S R IH]; intros f F B; (destruct f as [|f]; [lia|]).
  - destruct s as [|c s]; [rewrite newlines_nil, Z.add_0_r; reflexivity|].
    rewrite scan_loop_step by (exact F || discriminate).
    destruct (skip_final _ (Datatypes.S (length ((c :: s) ++ [0]))) false n Fi F ltac:(rewrite app_length; lia)) as (h' & E). rewrite E. reflexivity.
  - destruct (lexeme_start _ _ _ _ X) as (TS & Nt).
    assert (Ne : sep ++ text ++ rest <> []) by (intros E; apply app_eq_nil in E; destruct E as (_ & E); apply app_eq_nil in E; destruct E; congruence).
    rewrite scan_loop_step by assumption. pose proof F as F2. apply Forall_app in F2. destruct F2 as (Fs & F2).
    destruct (skip_layout b sep (text ++ rest) (Datatypes.S (length ((sep ++ text ++ rest) ++ [0]))) false n L F ltac:(rewrite !app_length; lia)) as (f' & P' & _ & E).
    destruct f' as [|f']; [lia|]. rewrite E, skip_stop by exact TS. cbn [bind orb].
    destruct (token_start_char _ TS F2) as (_ & c & E1 & E2). rewrite E1. cbn [bind]. rewrite E2.
    rewrite (item_ok t l text rest last t') by assumption. cbn [bind].
    rewrite newlines_app, Z.add_assoc in IH. rewrite newlines_app, Z.add_assoc.
    rewrite IH; [|apply Forall_app in F2; apply F2|rewrite !app_length in B; destruct text; [congruence|cbn [length] in B; lia]].
    cbn [bind ty]. apply separated_fun in S. rewrite S. reflexivity.
Qed.

Lemma prefix_cut p a b : prefix p a -> prefix p (a ++ b).
Proof. intros (r & ->). exists (r ++ b). rewrite app_assoc. reflexivity. Qed.

Lemma lexeme_cut t l text a b : lexeme t l text (a ++ b) -> lexeme t l text a.
Proof.
  intros H. remember (a ++ b) as r eqn:Er.
  destruct H as [w t rest I T N|w rest Fw N|w rest Fw N|w rest D N1 N2 N3 N4|w f rest D Hf N1 N2|w f e rest D Hf He N1|mark base w v l rest R D L N X|q s text rest Q S|t op rest i (M & N1 & N2)]; subst rest.
  - apply lex_word; [exact I|exact T|]. intros c C Y. exact (N c C (prefix_cut _ _ _ Y)).
  - apply lex_macro; [exact Fw|]. intros c C Y. exact (N c C (prefix_cut _ _ _ Y)).
  - apply lex_label; [exact Fw|]. intros c C Y. exact (N c C (prefix_cut _ _ _ Y)).
  - apply lex_int; [exact D| | | |].
    + intros c C Y. exact (N1 c C (prefix_cut _ _ _ Y)).
    + intros c C Y. exact (N2 c C (prefix_cut _ _ _ Y)).
    + intros c C Y. exact (N3 c C (prefix_cut _ _ _ Y)).
    + intros m base R E Y. exact (N4 m base R E (prefix_cut _ _ _ Y)).
  - apply lex_fraction; [exact D|exact Hf| |].
    + intros c C Y. exact (N1 c C (prefix_cut _ _ _ Y)).
    + intros c C Y. exact (N2 c C (prefix_cut _ _ _ Y)).
  - apply lex_exponent; [exact D|exact Hf|exact He|]. intros c C Y. exact (N1 c C (prefix_cut _ _ _ Y)).
  - apply (lex_radix mark base w v); [exact R|exact D|exact L|exact N|]. intros c d V Ld Y. exact (X c d V Ld (prefix_cut _ _ _ Y)).
  - apply lex_string; assumption.
  - apply lex_operator; [exact i|]. split; [|split].
    + intros t' op' i' X. apply (M _ _ i'). rewrite app_assoc. apply prefix_cut, X.
    + intros X. apply N1. rewrite app_assoc. apply prefix_cut, X.
    + intros X. apply N2. rewrite app_assoc. apply prefix_cut, X.
Qed.

Lemma scan_loop_inv f last s n : nul_free s -> (length s < f)%nat ->
  scan_loop f last (s ++ [0]) n = Throw \/ (exists toks, reads last n s toks) \/
  (scan_loop f last (s ++ [0]) n = UB /\
   exists pre toks q body v, s = pre ++ q :: body /\ reads last n pre toks /\ quote q /\ spells q v body).
Proof.
  revert last s n. induction f as [|f IH]; intros last s n F B; [lia|].
  assert (D0 : s = [] \/ s <> []) by (destruct s; [left; reflexivity|right; discriminate]).
  destruct D0 as [->|Ns].
  { right. left. eexists. apply reads_end. exists false, [], []. split; [reflexivity|]. split; [constructor|auto]. }
  rewrite scan_loop_step by assumption.
  destruct (layout_dec _ s (le_n _) F) as [T|[Fi|(b & sep & rest & -> & L & TS)]].
  - left. rewrite T by (rewrite app_length; lia). reflexivity.
  - right. left. eexists. apply reads_end. exact Fi.
  - pose proof F as F2. apply Forall_app in F2. destruct F2 as (Fs & F2).
    destruct (skip_layout b sep rest (S (length ((sep ++ rest) ++ [0]))) false n L F ltac:(rewrite !app_length; lia)) as (f' & P' & _ & E).
    destruct f' as [|f']; [lia|]. rewrite E, skip_stop by exact TS. cbn [bind orb].
    destruct (token_start_char _ TS F2) as (_ & c & E1 & E2). rewrite E1. cbn [bind]. rewrite E2.
    destruct (item_inv rest last (n + newlines sep) F2 TS) as [T|[(t & l & text & r & -> & X)|(q & body & v & tok & ln' & -> & Q & S & T)]].
    + left. rewrite T. reflexivity.
    + destruct (in_place_ex last t) as (t' & P). rewrite (item_ok t l text r last t') by assumption. cbn [bind].
      destruct (lexeme_start _ _ _ _ X) as (_ & Nt). apply Forall_app in F2. destruct F2 as (_ & Fr).
      destruct (IH (Some (mk_token t' l (n + newlines sep + newlines text))) r (n + newlines sep + newlines text) Fr) as [T|[(toks & R)|(T & pre & toks & q & body & v & -> & R & Q & S)]].
      * rewrite !app_length in B. destruct text; [congruence|cbn [length] in B; lia].
      * left. rewrite T. reflexivity.
      * right. left. rewrite <- Z.add_assoc, <- newlines_app in R. eexists. eapply reads_token; [exact L|exact X|exact P|apply separated_fun; reflexivity|exact R].
      * right. right. rewrite T. split; [reflexivity|]. rewrite <- Z.add_assoc, <- newlines_app in R. exists (sep ++ text ++ pre). eexists. exists q, body, v.
        split; [rewrite <- !app_assoc; reflexivity|]. split; [|split; assumption].
        eapply reads_token; [exact L|exact (lexeme_cut _ _ _ _ _ X)|exact P|apply separated_fun; reflexivity|exact R].
    + right. right. rewrite T. cbn [bind]. destruct f as [|f]; [rewrite app_length in B; cbn [length] in B; lia|]. split; [reflexivity|].
      exists sep. eexists. exists q, body, v. split; [reflexivity|]. split; [|split; assumption]. apply reads_end. exists b, sep, []. split; [rewrite app_nil_r; reflexivity|]. auto.
Qed.

Lemma scan_is_reads s toks : source_text s -> scan s = Ok toks <-> reads None 1 s toks.
Proof.
  intros T. apply source_nul_free in T. split.
  - intros E. destruct (scan_loop_inv (S (S (length s))) None s 1 T ltac:(lia)) as [X|[(toks' & R)|(X & _)]]; unfold scan in E; [congruence| |congruence].
    pose proof (reads_ok _ _ _ _ R (S (S (length s))) T ltac:(lia)). congruence.
  - intros R. apply (reads_ok _ _ _ _ R); [exact T|lia].
Qed.

Lemma scan_outcome s : source_text s ->
  scan s = Throw \/ (exists toks, scan s = Ok toks) \/
  (scan s = UB /\ exists pre toks q body v, s = pre ++ q :: body /\ reads None 1 pre toks /\ quote q /\ spells q v body).
Proof.
  intros T. apply source_nul_free in T. destruct (scan_loop_inv (S (S (length s))) None s 1 T ltac:(lia)) as [X|[(toks' & R)|X]]; [left; exact X| |right; right; exact X].
  right. left. exists toks'. apply (reads_ok _ _ _ _ R); [exact T|lia].
Qed.
