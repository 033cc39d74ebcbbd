From Verif Require Import Base Base_lemmas Scanner_model Scanner_spec Scanner_chars_proof.
From Coq Require Import ZifyBool.

Lemma newlines_app a b : newlines (a ++ b) = newlines a + newlines b.
Proof. unfold newlines. rewrite filter_app, zlen_app. reflexivity. Qed.
Lemma newlines_cons c s : newlines (c :: s) = (if c =? 10 then 1 else 0) + newlines s.
Proof. unfold newlines. cbn [filter]. rewrite Z.eqb_sym. destruct (c =? 10); [rewrite zlen_cons|]; lia. Qed.
Lemma newlines_nil : newlines [] = 0.
Proof. reflexivity. Qed.
Lemma newlines_none s : ~ In 10 s -> newlines s = 0.
Proof.
  induction s as [|c s IH]; intros H; [reflexivity|]. rewrite newlines_cons, IH by (intros i; apply H; right; exact i).
  destruct (Z.eqb_spec c 10) as [->|]; [|reflexivity]. exfalso. apply H. left. reflexivity.
Qed.

(** ** Strings *)

Lemma escape_value e v : In (e, v) escapes -> simple_escape e = Some v /\ e <> 10 /\ e <> 0.
Proof.
  unfold escapes. cbn [In]. intros H. repeat (destruct H as [H|H]; [injection H as <- <-; repeat split; discriminate|]). destruct H.
Qed.
Lemma escape_in e v : simple_escape e = Some v -> In (e, v) escapes.
Proof.
  unfold simple_escape, escapes. intros H.
  repeat match type of H with context [if ?b then _ else _] => let E := fresh in destruct b eqn:E; [injection H as <-|] end; try discriminate H.
  all: match goal with E : (_ || _) = true |- _ => idtac | E : (_ =? _) = true |- _ => apply Z.eqb_eq in E; subst e; repeat (first [left; reflexivity|right]) end.
  assert (X : e = 92 \/ e = 39 \/ e = 34) by lia. destruct X as [->|[->| ->]]; repeat (first [left; reflexivity|right]).
Qed.

Lemma hex_byte d1 d2 : 0 <= d1 <= 15 -> 0 <= d2 <= 15 -> Z.lor (Z.shiftl d1 4) d2 = 16 * d1 + d2.
Proof.
  intros H1 H2. rewrite Z.shiftl_mul_pow2 by lia. change (2 ^ 4) with 16.
  assert (X : In d1 [0;1;2;3;4;5;6;7;8;9;10;11;12;13;14;15]) by (cbn [In]; lia).
  assert (Y : In d2 [0;1;2;3;4;5;6;7;8;9;10;11;12;13;14;15]) by (cbn [In]; lia).
  cbn [In] in X, Y. decompose [or] X; try contradiction; subst d1; decompose [or] Y; try contradiction; subst d2; reflexivity.
Qed.

Lemma string_ok q s text r ln : quote q -> spells q s text -> nul_free text ->
  string_body q (text ++ q :: r) ln = Ok (s, r, ln + newlines text).
Proof.
  intros Q S. revert ln. induction S as [|c s text Hq Hc S IH|e v s text Hq i S IH|h1 h2 d1 d2 s text Hq D1 D2 S IH]; intros ln F.
  - cbn [app string_body]. rewrite Z.eqb_refl. cbn [orb]. rewrite newlines_nil, Z.add_0_r. reflexivity.
  - apply Forall_cons_iff in F. destruct F as (N & F). cbn [app string_body].
    replace ((c =? q) || (c =? 0)) with false by lia.
    replace (negb (q =? 96) && (c =? 10)) with false by lia. replace (negb (q =? 96) && (c =? 92)) with false by lia.
    rewrite IH by exact F. cbn [bind]. rewrite newlines_cons. do 2 f_equal. destruct (c =? 10); lia.
  - apply Forall_cons_iff in F. destruct F as (N & F). apply Forall_cons_iff in F. destruct F as (N2 & F).
    destruct (escape_value _ _ i) as (E & E10 & _). unfold quote in Q. cbn [app string_body].
    replace ((92 =? q) || (92 =? 0)) with false by lia.
    replace (negb (q =? 96) && (92 =? 10)) with false by lia. replace (negb (q =? 96) && (92 =? 92)) with true by lia.
    rewrite E, IH by exact F. cbn [bind]. rewrite !newlines_cons. do 2 f_equal. destruct (92 =? 10) eqn:X; [discriminate X|]. destruct (e =? 10) eqn:X2; lia.
  - do 2 (apply Forall_cons_iff in F; destruct F as (_ & F)). apply Forall_cons_iff in F; destruct F as (N1 & F). apply Forall_cons_iff in F; destruct F as (N2 & F).
    destruct (digit_value_fun _ _ D1) as (H1 & V1 & B1). destruct (digit_value_fun _ _ D2) as (H2 & V2 & B2).
    unfold quote in Q. cbn [app string_body].
    replace ((92 =? q) || (92 =? 0)) with false by lia.
    replace (negb (q =? 96) && (92 =? 10)) with false by lia. replace (negb (q =? 96) && (92 =? 92)) with true by lia.
    change (simple_escape 120) with (@None Z). change (120 =? 120) with true. cbv iota.
    replace ((h1 =? 0) || (h2 =? 0)) with false by lia. rewrite H1, H2. cbn [andb].
    rewrite IH by exact F. cbn [bind]. rewrite V1, V2, hex_byte by assumption. rewrite !newlines_cons.
    do 2 f_equal. unfold is_hex in H1, H2. destruct (92 =? 10) eqn:X; [discriminate X|]. destruct (120 =? 10) eqn:X1; [discriminate X1|].
    destruct (h1 =? 10) eqn:X2; [lia|]. destruct (h2 =? 10) eqn:X3; lia.
Qed.

Lemma string_inv q n s ln : quote q -> (length s <= n)%nat -> nul_free s ->
  string_body q (s ++ [0]) ln = Throw \/
  (exists v text r, s = text ++ q :: r /\ spells q v text /\ string_body q (s ++ [0]) ln = Ok (v, r ++ [0], ln + newlines text)) \/
  (exists v, spells q v s /\ string_body q (s ++ [0]) ln = Ok (v, [], ln + newlines s)).
Proof.
  intros Q. revert s ln. induction n as [|n IH]; intros s ln L F.
  { destruct s; cbn [length] in L; [|lia]. right. right. exists []. split; [constructor|]. cbn [app string_body].
    replace (0 =? 0) with true by reflexivity. rewrite orb_true_r, newlines_nil, Z.add_0_r. reflexivity. }
  destruct s as [|c s].
  { right. right. exists []. split; [constructor|]. cbn [app string_body].
    replace (0 =? 0) with true by reflexivity. rewrite orb_true_r, newlines_nil, Z.add_0_r. reflexivity. }
  apply Forall_cons_iff in F. destruct F as (N & F). cbn [length] in L.
  cbn [app string_body]. destruct (Z.eqb_spec c q) as [->|Nq]; cbn [orb].
  { right. left. exists [], [], s. split; [reflexivity|]. split; [constructor|]. rewrite newlines_nil, Z.add_0_r. reflexivity. }
  replace (c =? 0) with false by lia.
  destruct (negb (q =? 96) && (c =? 10)) eqn:E10; [left; reflexivity|].
  destruct (negb (q =? 96) && (c =? 92)) eqn:E92.
  - assert (Ec : c = 92) by lia. assert (Eq96 : q <> 96) by lia. subst c.
    destruct s as [|e s]; cbn [app].
    { change (simple_escape 0) with (@None Z). change (0 =? 120) with false. left. reflexivity. }
    apply Forall_cons_iff in F. destruct F as (N2 & F). cbn [length] in L.
    destruct (simple_escape e) as [x|] eqn:Es.
    + pose proof (escape_in _ _ Es) as i. destruct (escape_value _ _ i) as (_ & e10 & _).
      assert (NL : forall t, newlines (92 :: e :: t) = newlines t).
      { intros t. rewrite !newlines_cons. change (92 =? 10) with false. replace (e =? 10) with false by lia. lia. }
      destruct (IH s ln ltac:(lia) F) as [E|[(v & text & r & Es' & S & E)|(v & S & E)]]; rewrite E; cbn [bind].
      * left. reflexivity.
      * right. left. exists (x :: v), (92 :: e :: text), r. subst s. split; [reflexivity|]. split; [constructor; assumption|].
        rewrite NL. reflexivity.
      * right. right. exists (x :: v). split; [constructor; assumption|]. rewrite NL. reflexivity.
    + destruct (Z.eqb_spec e 120) as [->|Ne]; [|left; reflexivity].
      destruct s as [|h1 s]; cbn [app]; [change (0 =? 0) with true; left; reflexivity|].
      apply Forall_cons_iff in F. destruct F as (N3 & F). cbn [length] in L.
      destruct s as [|h2 s]; cbn [app]; [replace (0 =? 0) with true by reflexivity; rewrite orb_true_r; left; reflexivity|].
      apply Forall_cons_iff in F. destruct F as (N4 & F). cbn [length] in L.
      replace ((h1 =? 0) || (h2 =? 0)) with false by lia.
      destruct (is_hex h1 && is_hex h2) eqn:H; [|left; reflexivity]. apply andb_prop in H. destruct H as (H1 & H2).
      pose proof (digit_value_ex _ H1) as D1. pose proof (digit_value_ex _ H2) as D2.
      destruct (digit_value_fun _ _ D1) as (_ & _ & B1). destruct (digit_value_fun _ _ D2) as (_ & _ & B2).
      rewrite hex_byte by assumption.
      assert (NL : forall t, newlines (92 :: 120 :: h1 :: h2 :: t) = newlines t).
      { intros t. rewrite !newlines_cons. change (92 =? 10) with false. change (120 =? 10) with false. unfold is_hex in H1, H2.
        replace (h1 =? 10) with false by lia. replace (h2 =? 10) with false by lia. lia. }
      destruct (IH s ln ltac:(lia) F) as [E|[(v & text & r & Es' & S & E)|(v & S & E)]]; rewrite E; cbn [bind].
      * left. reflexivity.
      * right. left. exists (16 * hex_value h1 + hex_value h2 :: v), (92 :: 120 :: h1 :: h2 :: text), r. subst s. split; [reflexivity|].
        split; [constructor; assumption|]. rewrite NL. reflexivity.
      * right. right. exists (16 * hex_value h1 + hex_value h2 :: v). split; [constructor; assumption|]. rewrite NL. reflexivity.
  - assert (NL : forall t, (if c =? 10 then ln + 1 else ln) + newlines t = ln + newlines (c :: t)).
    { intros t. rewrite newlines_cons. destruct (c =? 10); lia. }
    assert (Hc : q = 96 \/ c <> 10 /\ c <> 92) by lia.
    destruct (IH s (if c =? 10 then ln + 1 else ln) ltac:(lia) F) as [E|[(v & text & r & Es' & S & E)|(v & S & E)]]; rewrite E; cbn [bind].
    + left. reflexivity.
    + right. left. exists (c :: v), (c :: text), r. subst s. split; [reflexivity|]. split; [constructor; assumption|]. rewrite NL. reflexivity.
    + right. right. exists (c :: v). split; [constructor; assumption|]. rewrite NL. reflexivity.
Qed.

(** ** Numbers *)

Lemma number_value_app base w c : number_value base (w ++ [c]) = number_value base w * base + hex_value c.
Proof. unfold number_value. rewrite fold_left_app. reflexivity. Qed.

Lemma denotes_value base w v : denotes base w v -> number_value base w = v.
Proof.
  induction 1 as [|w c v d D IH V L]; [reflexivity|]. rewrite number_value_app, IH. destruct (digit_value_fun _ _ V) as (_ & -> & _). reflexivity.
Qed.

Lemma denotes_chars base w v : denotes base w v -> Forall (fun c => exists d, digit_value c d /\ d < base) w.
Proof.
  induction 1 as [|w c v d D IH V L]; [constructor|]. apply Forall_app. split; [exact IH|]. constructor; [eauto|constructor].
Qed.

Lemma denotes_ex base w : Forall (fun c => exists d, digit_value c d /\ d < base) w -> denotes base w (number_value base w).
Proof.
  intros F. induction w as [|c w IH] using rev_ind; [constructor|].
  apply Forall_app in F. destruct F as (Fw & Fc). apply Forall_inv in Fc. destruct Fc as (d & V & L).
  rewrite number_value_app. destruct (digit_value_fun _ _ V) as (_ & -> & _). constructor; auto.
Qed.

Lemma denotes_nonneg base w v : 0 <= base -> denotes base w v -> 0 <= v.
Proof. intros B. induction 1 as [|w c v d D IH V L]; [lia|]. destruct (digit_value_fun _ _ V) as (_ & _ & H). nia. Qed.

Lemma digit_ten c d : digit c -> digit_value c d -> c = 48 + d.
Proof. unfold digit, digit_value. lia. Qed.

Lemma digit_digit_value c : digit c -> digit_value c (c - 48).
Proof. unfold digit, digit_value. lia. Qed.

Lemma denotes_snoc base w c v : denotes base (w ++ [c]) v -> exists u d, denotes base w u /\ digit_value c d /\ d < base /\ v = u * base + d.
Proof.
  intros D. inversion D as [E|w' c' u d D' V L E Ev].
  - destruct w; discriminate.
  - apply app_inj_tail in E. destruct E as (-> & ->). exists u, d. auto.
Qed.

Lemma denotes_positive c t v : digit c -> c <> 48 -> Forall digit t -> denotes 10 (c :: t) v -> 1 <= v.
Proof.
  intros H N F. revert v. induction t as [|x t IH] using rev_ind; intros v D.
  - apply (denotes_snoc 10 []) in D. destruct D as (u & d & Du & V & _ & ->). pose proof (denotes_nonneg 10 _ _ ltac:(lia) Du). pose proof (digit_ten _ _ H V). unfold digit in H. lia.
  - apply Forall_app in F. destruct F as (F & _). change (c :: t ++ [x]) with ((c :: t) ++ [x]) in D. apply denotes_snoc in D.
    destruct D as (u & d & Du & V & _ & ->). specialize (IH F u Du). destruct (digit_value_fun _ _ V) as (_ & _ & B). lia.
Qed.

Lemma snoc_or_nil (l : list Z) : l = [] \/ exists w c, l = w ++ [c].
Proof. destruct l as [|c w] using rev_ind; [left; reflexivity|right; eauto]. Qed.

Lemma numeral_decimal f v l : numeral l v -> 0 <= v < 10 ^ Z.of_nat (S f) -> decimal (S f) v = l.
Proof.
  revert v l. induction f as [|f IH]; intros v l (D & F & C) B.
  all: destruct (snoc_or_nil l) as [->|(w & c & ->)]; [exfalso; destruct C as [C|(c & t & C & _)]; discriminate C|].
  all: apply denotes_snoc in D; destruct D as (u & d & Du & V & L & ->).
  all: apply Forall_app in F; destruct F as (Fw & Fc); apply Forall_inv in Fc.
  all: pose proof (digit_ten _ _ Fc V) as Ec; destruct (digit_value_fun _ _ V) as (_ & _ & Bd); pose proof (denotes_nonneg 10 _ _ ltac:(lia) Du) as Bu.
  all: assert (M : (u * 10 + d) mod 10 = d) by (rewrite Z.add_comm, Z.mod_add by lia; apply Z.mod_small; lia).
  all: assert (Q : (u * 10 + d) / 10 = u) by (rewrite Z.add_comm, Z.div_add, Z.div_small by lia; lia).
  all: assert (W : w = [] \/ exists x t, w = x :: t /\ x <> 48) by
    (destruct w as [|x t]; [left; reflexivity|right; destruct C as [C|(x' & t' & C & Nx)];
       [exfalso; destruct t; discriminate C|injection C as -> _; exists x', t; auto]]).
  all: cbn [decimal]; rewrite M, <- Ec.
  - rewrite Z.mul_comm in B. change (10 ^ Z.of_nat 1) with 10 in B. replace (u * 10 + d <? 10) with true by lia.
    destruct W as [->|(x & t & -> & Nx)]; [reflexivity|]. apply Forall_cons_iff in Fw. destruct Fw as (Fx & Ft).
    pose proof (denotes_positive _ _ _ Fx Nx Ft Du). lia.
  - destruct (u * 10 + d <? 10) eqn:E.
    + destruct W as [->|(x & t & -> & Nx)]; [reflexivity|]. apply Forall_cons_iff in Fw. destruct Fw as (Fx & Ft).
      pose proof (denotes_positive _ _ _ Fx Nx Ft Du). lia.
    + rewrite Q. change (if u <? 10 then [] else decimal f (u / 10)) with (if u <? 10 then [] else decimal f (u / 10)).
      change ((if u <? 10 then [] else decimal f (u / 10)) ++ [48 + u mod 10]) with (decimal (S f) u).
      f_equal. apply IH.
      * split; [exact Du|]. split; [exact Fw|]. destruct W as [->|W]; [|right; exact W].
        exfalso. apply denotes_value in Du. cbn in Du. lia.
      * rewrite Nat2Z.inj_succ, Z.pow_succ_r in B by lia. lia.
Qed.

Lemma decimal_numeral f v : 0 <= v < 10 ^ Z.of_nat (S f) -> numeral (decimal (S f) v) v.
Proof.
  revert v. induction f as [|f IH]; intros v B.
  all: assert (Bm : 0 <= v mod 10 <= 9) by (pose proof (Z.mod_pos_bound v 10 ltac:(lia)); lia).
  all: assert (V : digit_value (48 + v mod 10) (v mod 10)) by (left; lia).
  all: pose proof (Z.div_mod v 10 ltac:(lia)) as DM.
  - change (10 ^ Z.of_nat 1) with 10 in B. cbn [decimal]. replace (v <? 10) with true by lia. cbn [app].
    rewrite Z.mod_small by lia. unfold numeral. split; [|split].
    + replace v with (0 * 10 + v) at 2 by lia. apply (denotes_more 10 [] _ 0); [constructor|left; lia|lia].
    + constructor; [unfold digit; lia|constructor].
    + destruct (Z.eq_dec v 0) as [->|]; [left; reflexivity|]. right. exists (48 + v), []. split; [reflexivity|lia].
  - change (decimal (S (S f)) v) with ((if v <? 10 then [] else decimal (S f) (v / 10)) ++ [48 + v mod 10]).
    destruct (v <? 10) eqn:E.
    + cbn [app]. rewrite Z.mod_small by lia. unfold numeral. split; [|split].
      * replace v with (0 * 10 + v) at 2 by lia. apply (denotes_more 10 [] _ 0); [constructor|left; lia|lia].
      * constructor; [unfold digit; lia|constructor].
      * destruct (Z.eq_dec v 0) as [->|]; [left; reflexivity|]. right. exists (48 + v), []. split; [reflexivity|lia].
    + rewrite Nat2Z.inj_succ, Z.pow_succ_r in B by lia.
      assert (Bq : 0 <= v / 10 < 10 ^ Z.of_nat (S f)) by (split; [apply Z.div_pos; lia|apply Z.div_lt_upper_bound; lia]).
      destruct (IH _ Bq) as (D & F & C). unfold numeral. split; [|split].
      * replace v with (v / 10 * 10 + v mod 10) at 3 by lia. constructor; [exact D|exact V|lia].
      * apply Forall_app. split; [exact F|]. constructor; [unfold digit; lia|constructor].
      * right. assert (1 <= v / 10) by (apply Z.div_le_lower_bound; lia).
        destruct C as [C|(c & t & C & N)].
        -- exfalso. rewrite C in D. apply denotes_value in D. cbn in D. lia.
        -- rewrite C. exists c, (t ++ [48 + v mod 10]). split; [reflexivity|exact N].
Qed.

Lemma number_convert_ok base w v l : denotes base w v -> 0 <= base -> v < 2 ^ 64 -> numeral l v -> number_convert base w = Ok l.
Proof.
  intros D B L N. unfold number_convert. rewrite (denotes_value _ _ _ D). cbv zeta.
  pose proof (denotes_nonneg _ _ _ B D). change (2 ^ 64) with 18446744073709551616 in L.
  replace (18446744073709551615 <? v) with false by lia. f_equal. apply numeral_decimal; [exact N|].
  change (10 ^ Z.of_nat 20) with 100000000000000000000. lia.
Qed.

(** The digits of the three bases. *)
Lemma hex_digits c : is_hex c = true <-> exists d, digit_value c d /\ d < 16.
Proof.
  split; [intros H; exists (hex_value c); split; [apply digit_value_ex, H|]|intros (d & V & _); apply (digit_value_fun _ _ V)].
  pose proof (digit_value_fun _ _ (digit_value_ex _ H)). lia.
Qed.
Lemma oct_digits c : is_oct c = true <-> exists d, digit_value c d /\ d < 8.
Proof.
  unfold is_oct. split; [intros H; exists (c - 48); unfold digit_value; lia|intros (d & V & L)]. unfold digit_value in V. lia.
Qed.
Lemma bin_digits c : is_bin c = true <-> exists d, digit_value c d /\ d < 2.
Proof.
  unfold is_bin. split; [intros H; exists (c - 48); unfold digit_value; lia|intros (d & V & L)]. unfold digit_value in V. lia.
Qed.

(** ** Decimal numbers *)

Lemma peek0 r : peek (r ++ [0]) 0 = Ok (behind r).
Proof. destruct r; reflexivity. Qed.
Lemma peek1 c r : peek ((c :: r) ++ [0]) 1 = Ok (behind r).
Proof. destruct r; reflexivity. Qed.
Lemma peek2 c d r : peek ((c :: d :: r) ++ [0]) 2 = Ok (behind r).
Proof. destruct r; reflexivity. Qed.

Lemma is_number_false c : ~ digit c -> is_number c = false.
Proof. rewrite <- is_number_spec. destruct (is_number c); [intros H; exfalso; apply H; reflexivity|reflexivity]. Qed.
Lemma is_number_false_inv c : is_number c = false -> ~ digit c.
Proof. rewrite <- is_number_spec. congruence. Qed.
Lemma digits_kind w : Forall digit w <-> Forall (fun c => is_number c = true) w.
Proof. split; apply Forall_impl; intros c; apply is_number_spec. Qed.
Lemma not_digit0 : ~ digit 0.
Proof. unfold digit. lia. Qed.

Definition frac_stage (w l : list Z) : res (list Z * list Z) :=
  c <- peek l 0 ;;
  if c =? 46 then
    d <- peek l 1 ;;
    if is_number d then ' (f, l) <- span is_number (tl l) ;; Ok (w ++ 46 :: f, l) else Ok (w, l)
  else Ok (w, l).

Definition exp_stage (w l : list Z) : res (list Z * list Z) :=
  c <- peek l 0 ;;
  if (c =? 101) || (c =? 69) then
    d <- peek l 1 ;;
    if is_number d then ' (e, l) <- span is_number (tl l) ;; Ok (w ++ c :: e, l)
    else if (d =? 43) || (d =? 45) then
      d2 <- peek l 2 ;;
      if is_number d2 then ' (e, l) <- span is_number (tl (tl l)) ;; Ok (w ++ c :: d :: e, l) else Ok (w, l)
    else Ok (w, l)
  else Ok (w, l).

Lemma number_stages l : number_advance l = (' (w, l) <- span is_number l ;; ' (w, l) <- frac_stage w l ;; exp_stage w l).
Proof.
  unfold number_advance, frac_stage, exp_stage. destruct (span is_number l) as [(w & l1)| | | | |]; cbn [bind]; [|reflexivity..].
  destruct (peek l1 0) as [c| | | | |]; cbn [bind]; reflexivity.
Qed.

Lemma frac_some w f r : fraction f -> ~ digit (behind r) -> frac_stage w (f ++ r ++ [0]) = Ok (w ++ f, r ++ [0]).
Proof.
  intros (g & -> & (Ng & Fg)) Nr. destruct g as [|d g]; [congruence|]. unfold frac_stage. cbn [app].
  change (peek (46 :: d :: g ++ r ++ [0]) 0) with (Ok 46). change (peek (46 :: d :: g ++ r ++ [0]) 1) with (Ok d). cbn [bind].
  change (46 =? 46) with true. pose proof (Forall_inv Fg) as Hd. apply is_number_spec in Hd. rewrite Hd.
  change (tl (46 :: d :: g ++ r ++ [0])) with ((d :: g) ++ r ++ [0]).
  rewrite span_ok; [|apply digits_kind, Fg|apply is_number_false, Nr]. reflexivity.
Qed.

Lemma frac_none w s : nul_free s -> (forall f, fraction f -> ~ prefix f s) -> frac_stage w (s ++ [0]) = Ok (w, s ++ [0]).
Proof.
  intros F N. unfold frac_stage. rewrite peek0. cbn [bind]. destruct (Z.eqb_spec (behind s) 46) as [E|E]; [|reflexivity].
  destruct s as [|c s]; [discriminate E|]. cbn [behind hd] in E. subst c. rewrite peek1. cbn [bind].
  destruct (is_number (behind s)) eqn:D; [|reflexivity]. exfalso. apply is_number_spec in D.
  destruct s as [|d s]; [exact (not_digit0 D)|]. cbn [behind hd] in D.
  apply (N [46; d]); [exists [d]; split; [reflexivity|]; split; [discriminate|constructor; [exact D|constructor]]|exists s; reflexivity].
Qed.

Lemma fraction_dec s : nul_free s ->
  (forall f, fraction f -> ~ prefix f s) \/ exists f r, s = f ++ r /\ fraction f /\ ~ digit (behind r).
Proof.
  intros F. destruct s as [|c s]; [left; intros f (g & -> & _) (r & E); discriminate E|].
  destruct (Z.eq_dec c 46) as [->|N]; [|left; intros f (g & -> & _) (r & E); injection E as -> _; congruence].
  apply Forall_cons_iff in F. destruct F as (_ & F).
  destruct (span_inv is_number s eq_refl F) as (w & r & -> & _ & Fw & Er).
  destruct w as [|d w].
  - left. intros f (g & -> & Ng & Fg) (r' & E). injection E as E. destruct g as [|x g]; [congruence|]. cbn [app] in E. subst r.
    cbn [behind hd] in Er. apply is_number_false_inv in Er. exact (Er (Forall_inv Fg)).
  - right. exists (46 :: d :: w), r. split; [reflexivity|]. split; [|apply is_number_false_inv, Er].
    exists (d :: w). split; [reflexivity|]. split; [discriminate|apply digits_kind, Fw].
Qed.

Lemma exp_some w e r : exponent e -> ~ digit (behind r) -> exp_stage w (e ++ r ++ [0]) = Ok (w ++ e, r ++ [0]).
Proof.
  intros (c & sg & g & -> & Hc & Hs & (Ng & Fg)) Nr. destruct g as [|d g]; [congruence|]. unfold exp_stage.
  pose proof (Forall_inv Fg) as Hd. apply is_number_spec in Hd.
  assert (Ec : (c =? 101) || (c =? 69) = true) by lia.
  assert (Sp : span is_number ((d :: g) ++ r ++ [0]) = Ok (d :: g, r ++ [0])) by (apply span_ok; [apply digits_kind, Fg|apply is_number_false, Nr]).
  destruct Hs as [->|Hs].
  - cbn [app]. change (peek (c :: d :: g ++ r ++ [0]) 0) with (Ok c). change (peek (c :: d :: g ++ r ++ [0]) 1) with (Ok d). cbn [bind].
    rewrite Ec, Hd. change (tl (c :: d :: g ++ r ++ [0])) with ((d :: g) ++ r ++ [0]). rewrite Sp. reflexivity.
  - assert (X : exists sc, sg = [sc] /\ (sc =? 43) || (sc =? 45) = true /\ is_number sc = false) by (destruct Hs as [->| ->]; [exists 43|exists 45]; auto).
    destruct X as (sc & -> & E1 & E2). cbn [app].
    change (peek (c :: sc :: d :: g ++ r ++ [0]) 0) with (Ok c). change (peek (c :: sc :: d :: g ++ r ++ [0]) 1) with (Ok sc).
    change (peek (c :: sc :: d :: g ++ r ++ [0]) 2) with (Ok d). cbn [bind].
    rewrite Ec, E2, E1, Hd. change (tl (tl (c :: sc :: d :: g ++ r ++ [0]))) with ((d :: g) ++ r ++ [0]). rewrite Sp. reflexivity.
Qed.

Lemma exp_none w s : nul_free s -> (forall e, exponent e -> ~ prefix e s) -> exp_stage w (s ++ [0]) = Ok (w, s ++ [0]).
Proof.
  intros F N. unfold exp_stage. rewrite peek0. cbn [bind]. destruct ((behind s =? 101) || (behind s =? 69)) eqn:E; [|reflexivity].
  destruct s as [|c s]; [discriminate E|]. cbn [behind hd] in E. rewrite peek1. cbn [bind].
  destruct (is_number (behind s)) eqn:D.
  - exfalso. apply is_number_spec in D. destruct s as [|d s]; [exact (not_digit0 D)|]. cbn [behind hd] in D.
    apply (N [c; d]); [|exists s; reflexivity]. exists c, [], [d]. split; [reflexivity|]. split; [lia|]. split; [left; reflexivity|].
    split; [discriminate|constructor; [exact D|constructor]].
  - destruct ((behind s =? 43) || (behind s =? 45)) eqn:Es; [|reflexivity].
    destruct s as [|sc s]; [discriminate Es|]. cbn [behind hd] in Es. rewrite peek2. cbn [bind].
    destruct (is_number (behind s)) eqn:D2; [|reflexivity]. exfalso. apply is_number_spec in D2.
    destruct s as [|d s]; [exact (not_digit0 D2)|]. cbn [behind hd] in D2.
    apply (N [c; sc; d]); [|exists s; reflexivity]. exists c, [sc], [d]. split; [reflexivity|]. split; [lia|].
    split; [right; assert (X : sc = 43 \/ sc = 45) by lia; destruct X as [->| ->]; auto|].
    split; [discriminate|constructor; [exact D2|constructor]].
Qed.

Lemma exponent_dec s : nul_free s ->
  (forall e, exponent e -> ~ prefix e s) \/ exists e r, s = e ++ r /\ exponent e /\ ~ digit (behind r).
Proof.
  intros F.
  destruct s as [|c s]; [left; intros e (x & sg & g & -> & _) (r & E); discriminate E|].
  destruct ((c =? 101) || (c =? 69)) eqn:Ec; [|left; intros e (x & sg & g & -> & Hx & _) (r & E); injection E as -> _; lia].
  apply Forall_cons_iff in F. destruct F as (_ & F).
  destruct s as [|d s].
  { left. intros e (x & sg & g & -> & Hx & Hs & (Ng & _)) (r & E). injection E as _ E. destruct sg; [destruct g; [congruence|discriminate E]|discriminate E]. }
  destruct (is_number d) eqn:D.
  - right. destruct (span_inv is_number (d :: s) eq_refl F) as (w & r & Es & _ & Fw & Er).
    destruct w as [|x w]; [cbn [app] in Es; subst r; cbn [behind hd] in Er; congruence|].
    exists (c :: x :: w), r. rewrite Es. split; [reflexivity|]. split; [|apply is_number_false_inv, Er].
    exists c, [], (x :: w). split; [reflexivity|]. split; [lia|]. split; [auto|]. split; [discriminate|apply digits_kind, Fw].
  - destruct ((d =? 43) || (d =? 45)) eqn:Es.
    + apply Forall_cons_iff in F. destruct F as (_ & F).
      destruct (span_inv is_number s eq_refl F) as (w & r & -> & _ & Fw & Er). destruct w as [|x w].
      * left. intros e (y & sg & g & -> & Hx & Hs & (Ng & Fg)) (r' & E). injection E as _ E. cbn [app] in E.
        destruct g as [|z g]; [congruence|]. apply Forall_inv in Fg.
        destruct Hs as [->|[->| ->]]; cbn [app] in E.
        -- injection E as -> _. apply is_number_false_inv in D. exact (D Fg).
        -- injection E as _ ->. apply is_number_false_inv in Er. exact (Er Fg).
        -- injection E as _ ->. apply is_number_false_inv in Er. exact (Er Fg).
      * right. exists (c :: d :: x :: w), r. split; [reflexivity|]. split; [|apply is_number_false_inv, Er].
        exists c, [d], (x :: w). split; [reflexivity|]. split; [lia|].
        split; [assert (X : d = 43 \/ d = 45) by lia; destruct X as [->| ->]; auto|]. split; [discriminate|apply digits_kind, Fw].
    + left. intros e (y & sg & g & -> & Hx & Hs & (Ng & Fg)) (r' & E). injection E as _ E.
      destruct g as [|z g]; [congruence|]. apply Forall_inv in Fg.
      destruct Hs as [->|[->| ->]]; cbn [app] in E; injection E as -> _; [apply is_number_false_inv in D; exact (D Fg)|discriminate Es..].
Qed.

(** The three parts of a number are taken when nothing longer is there. *)
Definition number_ends (f e r : list Z) : Prop :=
  ~ digit (behind r) /\ (e = [] -> forall x, exponent x -> ~ prefix x r) /\ (f = [] -> e = [] -> forall x, fraction x -> ~ prefix x r).

Lemma exponent_head e : exponent e -> exists t, e = 101 :: t \/ e = 69 :: t.
Proof. intros (c & sg & g & -> & [->| ->] & _); eauto. Qed.
Lemma fraction_head f : fraction f -> exists t, f = 46 :: t.
Proof. intros (g & -> & _). eauto. Qed.

Lemma number_ok w f e r : digits w -> (f = [] \/ fraction f) -> (e = [] \/ exponent e) -> number_ends f e r -> nul_free (w ++ f ++ e ++ r) ->
  number_advance ((w ++ f ++ e ++ r) ++ [0]) = Ok (w ++ f ++ e, r ++ [0]).
Proof.
  intros (Nw & Fw) Hf He (Er & Xe & Xf) NF. rewrite number_stages.
  apply Forall_app in NF. destruct NF as (_ & NF). pose proof NF as NF1. apply Forall_app in NF1. destruct NF1 as (_ & NF1).
  pose proof NF1 as NF2. apply Forall_app in NF2. destruct NF2 as (_ & NF2).
  assert (He' : ~ digit (behind (e ++ r))).
  { destruct He as [->|He]; [exact Er|]. destruct (exponent_head _ He) as (t & [->| ->]); cbn [app behind hd]; unfold digit; lia. }
  assert (Hf' : ~ digit (behind (f ++ e ++ r))).
  { destruct Hf as [->|Hf]; [exact He'|]. destruct (fraction_head _ Hf) as (t & ->); cbn [app behind hd]; unfold digit; lia. }
  rewrite <- app_assoc, span_ok; [|apply digits_kind, Fw|apply is_number_false, Hf']. cbn [bind].
  assert (F1 : frac_stage w ((f ++ e ++ r) ++ [0]) = Ok (w ++ f, (e ++ r) ++ [0])).
  { destruct Hf as [->|Hf].
    - cbn [app]. rewrite app_nil_r. apply frac_none; [exact NF|]. destruct He as [->|He]; [apply Xf; reflexivity|].
      intros x Hx (y & E). destruct (fraction_head _ Hx) as (t & ->). destruct (exponent_head _ He) as (t' & [->| ->]); discriminate E.
    - rewrite <- app_assoc. apply frac_some; [exact Hf|exact He']. }
  rewrite F1. cbn [bind]. destruct He as [->|He].
  - cbn [app] in *. rewrite app_nil_r. apply exp_none; [exact NF2|]. apply Xe. reflexivity.
  - rewrite <- app_assoc, exp_some by assumption. rewrite <- app_assoc. reflexivity.
Qed.

Lemma digit_span_dec s : nul_free s -> digit (behind s) -> exists w r, s = w ++ r /\ digits w /\ ~ digit (behind r).
Proof.
  intros F D. destruct (span_inv is_number s eq_refl F) as (w & r & -> & _ & Fw & Er). exists w, r. split; [reflexivity|].
  apply is_number_false_inv in Er. split; [|exact Er]. split; [|apply digits_kind, Fw]. intros ->. exact (Er D).
Qed.

Lemma number_inv s : nul_free s -> digit (behind s) ->
  exists w f e r, s = w ++ f ++ e ++ r /\ digits w /\ (f = [] \/ fraction f) /\ (e = [] \/ exponent e) /\ number_ends f e r.
Proof.
  intros NF D. destruct (digit_span_dec s NF D) as (w & s1 & -> & Hw & N1).
  apply Forall_app in NF. destruct NF as (_ & NF1).
  destruct (fraction_dec s1 NF1) as [Nf|(f & s2 & -> & Hf & N2)].
  - destruct (exponent_dec s1 NF1) as [Ne|(e & r & -> & He & N3)].
    + exists w, [], [], s1. repeat split; auto; apply Hw.
    + exists w, [], e, r. split; [reflexivity|]. split; [exact Hw|]. split; [auto|]. split; [auto|].
      split; [exact N3|]. destruct (exponent_head _ He) as (t & [->| ->]); split; discriminate.
  - apply Forall_app in NF1. destruct NF1 as (_ & NF2). destruct (fraction_head _ Hf) as (t & Et).
    destruct (exponent_dec s2 NF2) as [Ne|(e & r & -> & He & N3)].
    + exists w, f, [], s2. split; [reflexivity|]. split; [exact Hw|]. split; [auto|]. split; [auto|].
      split; [exact N2|]. split; [intros _; exact Ne|]. rewrite Et. discriminate.
    + exists w, f, e, r. split; [reflexivity|]. split; [exact Hw|]. split; [auto|]. split; [auto|].
      split; [exact N3|]. destruct (exponent_head _ He) as (t' & [->| ->]); split; try discriminate; rewrite Et; discriminate.
Qed.

(** Which numbers have a fraction or an exponent. *)
Lemma digits_last w x : digits w -> last (x ++ w) 0 <> 46.
Proof.
  intros (N & F). destruct (snoc_or_nil w) as [->|(v & c & ->)]; [congruence|]. rewrite app_assoc, last_last.
  apply Forall_app in F. destruct F as (_ & F). apply Forall_inv in F. unfold digit in F. lia.
Qed.

Lemma exists_e_digits w : Forall digit w -> existsb (fun c => (c =? 101) || (c =? 69)) w = false.
Proof. induction 1 as [|c w H F IH]; [reflexivity|]. cbn [existsb]. rewrite IH. unfold digit in H. lia. Qed.
Lemma dots_digits w : Forall digit w -> filter (Z.eqb 46) w = [].
Proof. induction 1 as [|c w H F IH]; [reflexivity|]. cbn [filter]. rewrite IH. destruct (Z.eqb_spec 46 c); [unfold digit in H; lia|reflexivity]. Qed.

Lemma zlen_pos (c : Z) w : (zlen (c :: w) =? 0) = false.
Proof. rewrite zlen_cons. pose proof (zlen_nonneg w). lia. Qed.

Lemma is_float_int w : digits w -> is_float w = Ok false.
Proof.
  intros H. pose proof H as (N & F). destruct w as [|c w]; [congruence|]. unfold is_float. rewrite zlen_pos.
  pose proof (digits_last _ [] H) as L. cbn [app] in L. apply Z.eqb_neq in L. rewrite L.
  rewrite exists_e_digits, dots_digits by exact F. reflexivity.
Qed.

Lemma is_float_fraction w f : digits w -> fraction f -> is_float (w ++ f) = Ok true.
Proof.
  intros (N & F) (g & -> & G). unfold is_float. destruct w as [|c w]; [congruence|].
  change ((c :: w) ++ 46 :: g) with (c :: w ++ 46 :: g) at 1. rewrite zlen_pos.
  pose proof (digits_last _ ((c :: w) ++ [46]) G) as L. rewrite <- app_assoc in L. cbn [app] in L. apply Z.eqb_neq in L. cbn [app]. rewrite L.
  change (c :: w ++ 46 :: g) with ((c :: w) ++ 46 :: g).
  rewrite existsb_app. rewrite exists_e_digits by exact F. cbn [orb existsb]. rewrite exists_e_digits by apply G.
  change ((46 =? 101) || (46 =? 69) || false) with false. cbv iota zeta.
  rewrite filter_app, dots_digits by exact F. cbn [app filter]. rewrite Z.eqb_refl, dots_digits by apply G. reflexivity.
Qed.

Lemma is_float_exponent w f e : digits w -> exponent e -> is_float (w ++ f ++ e) = Ok true.
Proof.
  intros (N & F) (c & sg & g & -> & Hc & _ & G). unfold is_float. destruct w as [|x w]; [congruence|].
  change ((x :: w) ++ f ++ c :: sg ++ g) with (x :: w ++ f ++ c :: sg ++ g) at 1. rewrite zlen_pos.
  pose proof (digits_last _ ((x :: w) ++ f ++ c :: sg) G) as L. rewrite <- !app_assoc in L. cbn [app] in L |- *. apply Z.eqb_neq in L. rewrite L.
  change (x :: w ++ f ++ c :: sg ++ g) with ((x :: w) ++ f ++ c :: sg ++ g). rewrite !existsb_app. cbn [existsb].
  replace ((c =? 101) || (c =? 69)) with true by lia. cbn [orb]. rewrite !orb_true_r. reflexivity.
Qed.
