(* The expression parser reads exactly the expressions of the grammar. *)
From Coq Require Import ZArith List Bool Lia.
From Verif Require Import Base Pratt_model Pratt_spec Pratt_eqs Pratt_fuel_proof.
Import ListNotations.
Local Open Scope Z_scope.

Scheme reads_mi := Induction for reads Sort Prop
  with items_mi := Induction for items Sort Prop
  with spread_mi := Induction for spread_items Sort Prop
  with bound_mi := Induction for bound Sort Prop.
Combined Scheme reads_ind4 from reads_mi, items_mi, spread_mi, bound_mi.

Definition norm (ts : list tok) : list tok :=
  match ts with
  | T_LANGLE :: r => T_LESS :: r
  | T_RANGLE :: T_RANGLE :: r => T_RSHIFT :: r
  | _ => ts
  end.

Lemma norm_idem ts : norm (norm ts) = norm ts.
Proof. destruct ts as [|[] r]; try reflexivity. destruct r as [|[] r]; reflexivity. Qed.

Definition lvl (k : Z) : Z := Z.min 13 (k - 3).
Notation nx ts := (lvl (prec (norm ts))).

Definition qtok (k : punct) : tok :=
  match k with
  | QRparen => T_RPAREN | QRsquare => T_RSQUARE | QComma => T_COMMA | QColon => T_COLON
  | QSemi => T_SEMI | QRange => T_RANGE | QDot => T_DOT | QLparen => T_LPAREN
  | QRangle => T_RANGLE | QEllipsis => T_ELLIPSIS
  end.

Lemma eat_inv k ts r : eat k ts = Some r -> ts = qtok k :: r.
Proof.
  destruct ts as [|t ts]; [discriminate|]. cbn [eat].
  destruct (is_punct k t) eqn:E; [|discriminate]. injection 1 as <-.
  destruct k, t; try discriminate E; reflexivity.
Qed.
Lemma eat_same k r : eat k (qtok k :: r) = Some r.
Proof. destruct k; reflexivity. Qed.
Lemma eat_none k t r : prefix_of t <> PNone -> prefix_of (qtok k) = PNone -> eat k (t :: r) = None.
Proof. intros H1 H2. destruct k, t; try reflexivity; try discriminate H2; contradiction. Qed.

Lemma norm_inv ts t r : norm ts = t :: r -> t <> T_LESS -> t <> T_RSHIFT -> ts = t :: r.
Proof.
  intros H H1 H2. destruct ts as [|[] ts]; cbn [norm] in H; try exact H.
  - injection H as <- _. contradiction.
  - destruct ts as [|[] ts]; try exact H. injection H as <- _. contradiction.
Qed.
Lemma eat_norm_inv k ts r : eat k (norm ts) = Some r -> ts = qtok k :: r.
Proof. intros H. apply eat_inv in H. apply norm_inv in H; auto; destruct k; discriminate. Qed.

Lemma reads_weaken l t ts : reads l t ts -> forall l', l' <= l -> reads l' t ts.
Proof.
  intros H l' Hl. inversion H; subst; try (econstructor; eauto; lia).
Qed.

Lemma reads_head :
  (forall l t ts, reads l t ts -> exists h r, ts = h :: r /\ prefix_of h <> PNone) /\
  (forall c es us, items c es us -> True) /\
  (forall es us, spread_items es us -> True) /\
  (forall d t ts, bound d t ts -> True).
Proof.
  apply reads_ind4; intros; auto;
    try solve [eexists _, _; split; [reflexivity|]; cbn; try (destruct u); discriminate];
    repeat match goal with H : exists h r, ?x = h :: r /\ _ |- _ => destruct H as (? & ? & -> & ?) end;
    try solve [eexists _, _; split; [reflexivity|assumption]].
Qed.
Lemma head_of l t ts : reads l t ts -> exists h r, ts = h :: r /\ prefix_of h <> PNone.
Proof. apply reads_head. Qed.

Section P.
Variable ta : tree -> list tok -> bool.
Notation plain := (no_type_args ta).

Lemma plain_app a b : plain (a ++ b) -> plain b.
Proof. intros H pre r e E. apply (H (a ++ pre) r e). rewrite E. apply app_assoc. Qed.
Lemma plain_cons t b : plain (t :: b) -> plain b.
Proof. apply (plain_app [t]). Qed.

Lemma infix_token_norm e ts : plain ts -> infix_token ta e ts = norm ts.
Proof.
  intros H. destruct ts as [|[] r]; try reflexivity.
  cbn [infix_token norm]. rewrite (H [] r e eq_refl). reflexivity.
Qed.
Lemma plain_norm ts : plain ts -> plain (norm ts).
Proof.
  intros H. destruct ts as [|[] r]; try exact H.
  - cbn [norm]. intros pre r' e E. destruct pre as [|x pre]; [discriminate|].
    injection E as _ ->. apply (plain_cons _ _ H pre r' e eq_refl).
  - destruct r as [|[] r]; try exact H. cbn [norm]. intros pre r' e E.
    destruct pre as [|x pre]; [discriminate|]. injection E as _ ->.
    apply (plain_cons _ _ (plain_cons _ _ H) pre r' e eq_refl).
Qed.

(* either form of the tokens that are left *)
Definition form (r raw : list tok) : Prop := r = raw \/ r = norm raw.
Lemma form_infix_token e r raw : plain raw -> form r raw -> infix_token ta e r = norm raw.
Proof.
  intros H [-> | ->]; [apply infix_token_norm; exact H|].
  rewrite infix_token_norm by (apply plain_norm; exact H). apply norm_idem.
Qed.
Lemma form_eat k r raw r' : form r raw -> eat k r = Some r' -> raw = qtok k :: r'.
Proof. intros [-> | ->]; [apply eat_inv|apply eat_norm_inv]. Qed.

(* ------------------------------------------------------------------ *)
(* what the parser returns is in the grammar *)

Definition inv (e : tree) (L k : Z) : Prop :=
  k < 0 \/ (1 <= L /\ k <= L) \/ (cast_ended e /\ L = 11).
Definition lev (p : Z) : Z := Z.max 0 (p - 3).

Definition cl_of (c : closer) : punct := match c with CParen => QRparen | CSquare => QRsquare end.

Definition S_expr n := forall p ts t r, 1 <= p <= 15 -> plain ts -> expr ta n p ts = Ok (t, r) ->
  exists used raw, ts = used ++ raw /\ r = norm raw /\ reads (lev p) t used /\ prec r < p.
Definition S_loop n := forall p e ts raw0 t r L u, 1 <= p <= 15 -> plain raw0 -> form ts raw0 ->
  loop ta n p e ts = Ok (t, r) -> reads L e u -> lev p <= L -> inv e L (nx raw0) ->
  exists used raw, raw0 = used ++ raw /\ r = norm raw /\ reads (lev p) t (u ++ used) /\ prec r < p.
Definition S_prefix n := forall ts t r, plain ts -> prefix ta n ts = Ok (t, r) ->
  exists L used raw, ts = used ++ raw /\ form r raw /\ reads L t used /\ 12 <= L /\ inv t L (nx raw).
Definition S_infix n := forall e raw0 t r L u, plain raw0 ->
  infix ta n e (norm raw0) = Ok (t, r) -> reads L e u -> inv e L (nx raw0) ->
  exists L' used raw, raw0 = used ++ raw /\ form r raw /\ reads L' t (u ++ used) /\
    inv t L' (nx raw) /\ (L' = nx raw0 \/ L' = L).
Definition S_seq n := forall c sp ts es s r, plain ts -> seq ta n (cl_of c) sp ts = Ok (es, s, r) ->
  exists used, ts = used ++ r /\
    (if s then sp = true /\ (c = CParen -> spread_items es used) else items c es used).
Definition S_slice n := forall e a ts t r, plain ts -> slice_end ta n e a ts = Ok (t, r) ->
  exists b bs, t = Slice e a b /\ ts = bs ++ T_RSQUARE :: r /\ bound [45; 49] b bs.

Lemma nx_cast raw : nx raw <= 13. Proof. unfold lvl. lia. Qed.

Lemma inv13 e raw : inv e 13 (nx raw).
Proof. right; left. pose proof (nx_cast raw). lia. Qed.

Lemma binary_spelling raw t r b : norm raw = t :: r -> infix_of t = IBinary b ->
  exists os, raw = os ++ r /\ bspell b os /\ prec_tok t = blevel b + 3.
Proof.
  intros E Hb.
  destruct raw as [|t0 raw]; [discriminate|].
  assert (C : t0 = T_LANGLE /\ t = T_LESS /\ r = raw \/
              (exists q, t0 = T_RANGLE /\ raw = T_RANGLE :: q /\ t = T_RSHIFT /\ r = q) \/
              (t0 = t /\ raw = r)).
  { destruct t0; cbn [norm] in E; try (right; right; injection E as <- <-; auto; fail).
    - left. injection E as <- <-. auto.
    - destruct raw as [|t1 q]; [right; right; injection E as <- <-; auto|].
      destruct t1; try (right; right; injection E as <- <-; auto; fail).
      right; left. injection E as <- <-. exists q. auto. }
  destruct C as [(-> & -> & ->) | [(q & -> & -> & -> & ->) | (-> & ->)]].
  - injection Hb as <-. exists [T_LANGLE]. split; [reflexivity|]. split; [constructor|reflexivity].
  - injection Hb as <-. exists [T_RANGLE; T_RANGLE]. split; [reflexivity|]. split; [constructor|reflexivity].
  - exists [t]. split; [reflexivity|].
    destruct t; try discriminate Hb; injection Hb as <-; split; try constructor; reflexivity.
Qed.

Lemma other_spelling raw t r : norm raw = t :: r -> (forall b, infix_of t <> IBinary b) -> raw = t :: r.
Proof.
  intros E H. apply norm_inv; [exact E|intros ->; exact (H _ eq_refl)|intros ->; exact (H _ eq_refl)].
Qed.

Lemma app_cons_assoc {A} (a : list A) x b : a ++ x :: b = (a ++ [x]) ++ b.
Proof. rewrite <- app_assoc. reflexivity. Qed.

Ltac bnd H q E := match type of H with bind ?x _ = _ =>
  destruct x as [q| | | | |] eqn:E; try discriminate H; cbn [bind] in H end.
Ltac alist := cbn [app]; repeat (rewrite <- app_assoc; cbn [app]); reflexivity.

Lemma sound : forall n,
  S_expr n /\ S_loop n /\ S_prefix n /\ S_infix n /\ S_seq n /\ S_slice n.
Proof.
  induction n as [|n (I1 & I2 & I3 & I4 & I5 & I6)].
  { repeat split; intros ?; intros; discriminate. }
  assert (X : forall ts t r, plain ts -> expr ta n PREC_ASSIGN ts = Ok (t, r) ->
     exists used raw, ts = used ++ raw /\ r = norm raw /\ reads 0 t used /\ plain raw).
  { intros ts t r Hp E. destruct (I1 1 ts t r ltac:(lia) Hp E) as (us & raw & -> & -> & Hr & _).
    exists us, raw. repeat split; auto. apply (plain_app us); exact Hp. }
  repeat match goal with |- _ /\ _ => split end.
  - (* expr *)
    intros p ts t r Hp Pl E. rewrite expr_S in E. bnd E q E1. destruct q as [e r1]. cbn [fst snd] in E.
    destruct (I3 ts e r1 Pl E1) as (L & us & raw & -> & Hf & Hr & HL & Hi).
    destruct (I2 p e r1 raw t r L us Hp (plain_app _ _ Pl) Hf E Hr ltac:(unfold lev; lia) Hi)
      as (us2 & raw2 & -> & -> & Hr2 & Hs).
    exists (us ++ us2), raw2. rewrite <- app_assoc. auto.
  - (* loop *)
    intros p e ts raw0 t r L u Hp Pl Hf E Hr HL Hi. rewrite loop_S in E. cbv zeta in E.
    rewrite (form_infix_token e ts raw0 Pl Hf) in E.
    destruct (p <=? prec (norm raw0)) eqn:Hc.
    + apply Z.leb_le in Hc. bnd E q E1. destruct q as [e1 r1]. cbn [fst snd] in E.
      destruct (I4 e raw0 e1 r1 L u Pl E1 Hr Hi) as (L' & us & raw & -> & Hf' & Hr' & Hi' & HL').
      assert (lev p <= L').
      { destruct HL' as [-> | ->]; [|exact HL].
        assert (3 <= prec (norm (us ++ raw))); [|unfold lev, lvl; lia].
        clear - E1. destruct n; [discriminate|]. rewrite infix_S in E1.
        destruct (norm (us ++ raw)) as [|t0 r0]; [discriminate|].
        cbn [prec] in *. destruct t0; cbn in *; try discriminate; lia. }
      destruct (I2 p e1 r1 raw t r L' (u ++ us) Hp (plain_app _ _ Pl) Hf' E Hr' H Hi')
        as (us2 & raw2 & -> & -> & Hr2 & Hs).
      exists (us ++ us2), raw2. rewrite <- !app_assoc in *. auto.
    + apply Z.leb_gt in Hc. injection E as <- <-. exists [], raw0. rewrite app_nil_r.
      repeat split; auto. apply (reads_weaken L); auto.
  - (* prefix *)
    intros ts t r Pl E. rewrite prefix_S in E. destruct ts as [|h ts]; [discriminate|].
    pose proof (plain_cons _ _ Pl) as Pt.
    destruct (prefix_of h) as [k s|s| | |u|] eqn:Eh; try discriminate E.
    + injection E as <- <-. exists 13, [h], ts. destruct h; try discriminate Eh. injection Eh as -> ->.
      repeat split; try lia; [left; reflexivity|constructor; lia|apply inv13].
    + injection E as <- <-. exists 13, [h], ts. destruct h; try discriminate Eh. injection Eh as ->.
      repeat split; try lia; [left; reflexivity|constructor; lia|apply inv13].
    + (* paren *)
      destruct h; try discriminate Eh. bnd E q E1. destruct q as [e r1]. cbn [fst snd] in E.
      destruct (X ts e r1 Pt E1) as (us & raw & -> & -> & Hr & Pr).
      destruct (eat QRparen (norm raw)) as [r2|] eqn:Q1.
      * apply eat_norm_inv in Q1. cbn [qtok] in Q1. subst raw. injection E as <- <-.
        exists 13, (T_LPAREN :: us ++ [T_RPAREN]), r2. repeat split; try lia.
        -- alist.
        -- left; reflexivity.
        -- constructor; [lia|exact Hr].
        -- apply inv13.
      * destruct (eat QComma (norm raw)) as [r2|] eqn:Q2; [|discriminate].
        apply eat_norm_inv in Q2. cbn [qtok] in Q2. subst raw.
        destruct (eat QRparen r2) eqn:Q3; [discriminate|].
        bnd E a E2. destruct a as [[es s] r3]. cbn [fst snd] in E. injection E as <- <-.
        destruct (I5 CParen false r2 es s r3 (plain_cons _ _ Pr) E2) as (us2 & -> & Hit).
        destruct s; [destruct Hit as (Hit & _); discriminate|].
        assert (es <> []).
        { intros ->. inversion Hit; subst. discriminate Q3. }
        exists 13, (T_LPAREN :: us ++ T_COMMA :: us2), r3. repeat split; try lia.
        -- alist.
        -- left; reflexivity.
        -- constructor; auto; lia.
        -- apply inv13.
    + (* square *)
      destruct h; try discriminate Eh.
      destruct (eat QRsquare ts) as [r0|] eqn:Q0.
      { apply eat_inv in Q0. cbn [qtok] in Q0. subst ts. injection E as <- <-.
        exists 13, [T_LSQUARE; T_RSQUARE], r0. repeat split; try lia.
        - left; reflexivity.
        - constructor; [lia|]. exact (I_nil CSquare).
        - apply inv13. }
      bnd E q E1. destruct q as [e r1]. cbn [fst snd] in E.
      destruct (X ts e r1 Pt E1) as (us & raw & -> & -> & Hr & Pr).
      destruct (eat QSemi (norm raw)) as [r2|] eqn:Q1.
      { apply eat_norm_inv in Q1. cbn [qtok] in Q1. subst raw.
        bnd E l E2. destruct l as [l r3]. cbn [fst snd] in E.
        destruct (X r2 l r3 (plain_cons _ _ Pr) E2) as (us2 & raw2 & -> & -> & Hr2 & Pr2).
        destruct (eat QRsquare (norm raw2)) as [r4|] eqn:Q2; [|discriminate].
        apply eat_norm_inv in Q2. cbn [qtok] in Q2. subst raw2. injection E as <- <-.
        exists 13, (T_LSQUARE :: us ++ T_SEMI :: us2 ++ [T_RSQUARE]), r4. repeat split; try lia.
        - alist.
        - left; reflexivity.
        - constructor; auto; lia.
        - apply inv13. }
      destruct (eat QRsquare (norm raw)) as [r2|] eqn:Q2.
      { apply eat_norm_inv in Q2. cbn [qtok] in Q2. subst raw. injection E as <- <-.
        exists 13, (T_LSQUARE :: us ++ [T_RSQUARE]), r2. repeat split; try lia.
        - alist.
        - left; reflexivity.
        - constructor; [lia|]. exact (I_last CSquare _ _ Hr).
        - apply inv13. }
      destruct (eat QComma (norm raw)) as [r2|] eqn:Q3; [|discriminate].
      apply eat_norm_inv in Q3. cbn [qtok] in Q3. subst raw.
      bnd E a E2. destruct a as [[es s] r3]. cbn [fst snd] in E. injection E as <- <-.
      destruct (I5 CSquare false r2 es s r3 (plain_cons _ _ Pr) E2) as (us2 & -> & Hit).
      destruct s; [destruct Hit as (Hit & _); discriminate|].
      exists 13, (T_LSQUARE :: us ++ T_COMMA :: us2), r3. repeat split; try lia.
      * alist.
      * left; reflexivity.
      * constructor; [lia|]. constructor; auto.
      * apply inv13.
    + (* unary *)
      assert (Hh : h = uspell u) by (destruct h; try discriminate Eh; injection Eh as <-; reflexivity).
      subst h.
      destruct (match u with UNeg => eat_number ts | _ => None end) as [[[k s] r0]|] eqn:Q.
      * destruct u; try discriminate Q.
        injection E as <- <-. exists 13, [T_MINUS; TLit k s], r0.
        assert (ts = TLit k s :: r0 /\ (k = KInt \/ k = KFloat)) as (-> & Hk).
        { destruct ts as [|[] ts]; try discriminate Q. cbn [eat_number] in Q.
          destruct k0; try discriminate Q; injection Q as <- <- <-; auto. }
        repeat split; try lia; [left; reflexivity|constructor; [lia|exact Hk]|apply inv13].
      * bnd E q E1. destruct q as [e r1]. cbn [fst snd] in E. injection E as <- <-.
        destruct (I1 PREC_UNARY ts e r1 ltac:(unfold PREC_UNARY; lia) Pt E1) as (us & raw & -> & -> & Hr & Hs).
        change (lev PREC_UNARY) with 12 in Hr.
        exists 12, (uspell u :: us), raw. repeat split; try lia.
        -- right; reflexivity.
        -- constructor; [lia|exact Hr|]. intros -> (k & s & r & -> & Hk).
           destruct Hk as [-> | ->]; discriminate Q.
        -- right; left. unfold lvl. unfold PREC_UNARY in Hs. lia.
  - (* infix *)
    intros e raw0 t r L u Pl E Hr Hi. rewrite infix_S in E.
    destruct (norm raw0) as [|h ts] eqn:En; [discriminate|]. cbn [prec] in *.
    assert (PL : 16 <= prec_tok h -> exists m, postfix_left m e /\ reads m e u /\ (m = lvl (prec_tok h) \/ m = L)
        /\ (m = 13 \/ cast_ended e /\ m = 11)).
    { intros Hh. unfold lvl in *. destruct Hi as [Hi | [(Ha & Hb) | (Ha & Hb)]].
      - lia.
      - exists 13. split; [left; reflexivity|]. split; [apply (reads_weaken L); [exact Hr|lia]|]. split; [left; lia|left; reflexivity].
      - exists 11. subst L. split; [right; split; auto|]. split; [exact Hr|]. split; [right; reflexivity|right; split; auto]. }
    destruct (infix_of h) as [b| | | | | | |] eqn:Eh; try discriminate E.
    + (* binary *)
      destruct (binary_spelling raw0 h ts b En Eh) as (os & -> & Hos & Hpr).
      assert (Hb : 1 <= blevel b <= 10) by (destruct b; cbn; lia).
      bnd E q E1. destruct q as [y r1]. cbn [fst snd] in E. injection E as <- <-.
      destruct (I1 (prec_tok h + 1) ts y r1 ltac:(lia) (plain_app _ _ Pl) E1) as (us & raw & -> & -> & Hry & Hs).
      exists (blevel b), (os ++ us), raw. unfold lvl in *.
      split; [alist|]. split; [right; reflexivity|]. split.
      { apply R_bin; [lia| |exact Hos|].
        - destruct Hi as [Hi | [(Ha & Hc) | (Ha & Hc)]]; [lia| |]; apply (reads_weaken L); auto; lia.
        - revert Hry. unfold lev. replace (Z.max 0 (prec_tok h + 1 - 3)) with (blevel b + 1) by lia. auto. }
      split; [right; left; lia|]. left. lia.
    + (* ternary *)
      assert (raw0 = h :: ts) by (apply other_spelling; [exact En|intros b; rewrite Eh; discriminate]). subst raw0.
      destruct h; try discriminate Eh. pose proof (plain_cons _ _ Pl) as Pt.
      bnd E q E1. destruct q as [x r1]. cbn [fst snd] in E.
      destruct (X ts x r1 Pt E1) as (us & raw & -> & -> & Hrx & Pr).
      destruct (eat QColon (norm raw)) as [r2|] eqn:Q; [|discriminate].
      apply eat_norm_inv in Q. cbn [qtok] in Q. subst raw.
      bnd E a E2. destruct a as [y r3]. cbn [fst snd] in E. injection E as <- <-.
      destruct (I1 PREC_TERNARY r2 y r3 ltac:(unfold PREC_TERNARY; lia) (plain_cons _ _ Pr) E2)
        as (us2 & raw2 & -> & -> & Hry & Hs).
      exists 0, (T_QUESTION :: us ++ T_COLON :: us2), raw2.
      split; [alist|]. split; [right; reflexivity|]. split.
      { change (lev PREC_TERNARY) with 0 in Hry.
        apply R_tern; [lia| |exact Hrx|exact Hry]. apply (reads_weaken L); [exact Hr|].
        revert Hi. unfold inv, lvl. cbn. lia. }
      split; [left; unfold lvl; unfold PREC_TERNARY in Hs; lia|left; reflexivity].
    + (* as *)
      assert (raw0 = h :: ts) by (apply other_spelling; [exact En|intros b; rewrite Eh; discriminate]). subst raw0.
      destruct h; try discriminate Eh.
      destruct (eat_type ts) as [[s r0]|] eqn:Q; [|discriminate]. injection E as <- <-.
      assert (ts = TType s :: r0).
      { destruct ts as [|[] ts]; try discriminate Q. injection Q as -> ->. reflexivity. } subst ts.
      exists 11, [T_AS; TType s], r0.
      split; [reflexivity|]. split; [left; reflexivity|]. split.
      { apply R_as; [lia|]. apply (reads_weaken L); [exact Hr|]. revert Hi. unfold inv, lvl. cbn. lia. }
      split; [right; right; split; [exact Logic.I|reflexivity]|left; reflexivity].
    + (* select *)
      assert (raw0 = h :: ts) by (apply other_spelling; [exact En|intros b; rewrite Eh; discriminate]). subst raw0.
      destruct h; try discriminate Eh.
      destruct (eat_ident ts) as [[s r0]|] eqn:Q; [|discriminate]. injection E as <- <-.
      assert (ts = TIdent s :: r0).
      { destruct ts as [|[] ts]; try discriminate Q. injection Q as -> ->. reflexivity. } subst ts.
      destruct (PL ltac:(vm_compute; discriminate)) as (m & Pm & Rm & Lm & Cm).
      exists m, [T_DOT; TIdent s], r0.
      split; [reflexivity|]. split; [left; reflexivity|]. split.
      { apply (R_sel m m); [exact Pm|lia|exact Rm]. }
      split; [destruct Cm as [-> | (Cm & ->)]; [apply inv13|right; right; split; auto]|exact Lm].
    + (* access *)
      assert (raw0 = h :: ts) by (apply other_spelling; [exact En|intros b; rewrite Eh; discriminate]). subst raw0.
      destruct h; try discriminate Eh. pose proof (plain_cons _ _ Pl) as Pt.
      destruct (PL ltac:(vm_compute; discriminate)) as (m & Pm & Rm & Lm & Cm).
      assert (Fin : forall t raw, (cast_ended e -> cast_ended t) -> inv t m (nx raw)).
      { intros t' raw' Ht. destruct Cm as [-> | (Cm & ->)]; [apply inv13|right; right; split; auto]. }
      destruct (eat QRange ts) as [r0|] eqn:Q0.
      { apply eat_inv in Q0. cbn [qtok] in Q0. subst ts.
        destruct (I6 e zero_lit r0 t r (plain_cons _ _ Pt) E) as (b & bs & -> & -> & Hb).
        exists m, (T_LSQUARE :: [] ++ T_RANGE :: bs ++ [T_RSQUARE]), r.
        split; [alist|]. split; [left; reflexivity|]. split.
        { apply (R_slice m m); [exact Pm|lia|exact Rm| |exact Hb]. exact (B_none [48]). }
        split; [apply Fin; auto|exact Lm]. }
      bnd E q E1. destruct q as [a r1]. cbn [fst snd] in E.
      destruct (X ts a r1 Pt E1) as (us & raw & -> & -> & Hra & Pr).
      destruct (eat QRange (norm raw)) as [r0|] eqn:Q1.
      { apply eat_norm_inv in Q1. cbn [qtok] in Q1. subst raw.
        destruct (I6 e a r0 t r (plain_cons _ _ Pr) E) as (b & bs & -> & -> & Hb).
        exists m, (T_LSQUARE :: us ++ T_RANGE :: bs ++ [T_RSQUARE]), r.
        split; [alist|]. split; [left; reflexivity|]. split.
        { apply (R_slice m m); [exact Pm|lia|exact Rm| |exact Hb]. apply B_some. exact Hra. }
        split; [apply Fin; auto|exact Lm]. }
      destruct (eat QRsquare (norm raw)) as [r0|] eqn:Q2; [|discriminate].
      apply eat_norm_inv in Q2. cbn [qtok] in Q2. subst raw. injection E as <- <-.
      exists m, (T_LSQUARE :: us ++ [T_RSQUARE]), r0.
      split; [alist|]. split; [left; reflexivity|]. split.
      { apply (R_idx m m); [exact Pm|lia|exact Rm|exact Hra]. }
      split; [apply Fin; auto|exact Lm].
    + (* call *)
      assert (raw0 = h :: ts) by (apply other_spelling; [exact En|intros b; rewrite Eh; discriminate]). subst raw0.
      destruct h; try discriminate Eh. pose proof (plain_cons _ _ Pl) as Pt.
      destruct (PL ltac:(vm_compute; discriminate)) as (m & Pm & Rm & Lm & Cm).
      bnd E a E2. destruct a as [[es s] r3]. cbn [fst snd] in E. injection E as <- <-.
      destruct (I5 CParen true ts es s r3 Pt E2) as (us2 & -> & Hit).
      exists m, (T_LPAREN :: us2), r3.
      split; [alist|]. split; [left; reflexivity|]. split.
      { destruct s.
        - apply (R_spread m m); [exact Pm|lia|exact Rm|apply Hit; reflexivity].
        - apply (R_call m m); [exact Pm|lia|exact Rm|exact Hit]. }
      split; [destruct Cm as [-> | (Cm & ->)]; [apply inv13|right; right; split; auto]|exact Lm].
    + (* type arguments: the token has been rewritten *)
      exfalso. destruct h; try discriminate Eh. clear - En.
      destruct raw0 as [|[] raw0]; try discriminate En. cbn [norm] in En.
      destruct raw0 as [|[] raw0]; discriminate En.
  - (* seq *)
    intros c sp ts es s r Pl E. rewrite seq_S in E.
    assert (Hc : forall r, qtok (cl_of c) :: r = closing c :: r) by (destruct c; reflexivity).
    destruct (eat (cl_of c) ts) as [r0|] eqn:Q0.
    { apply eat_inv in Q0. rewrite Hc in Q0. subst ts. injection E as <- <- <-.
      exists [closing c]. split; [reflexivity|constructor]. }
    destruct (if sp then eat QEllipsis ts else None) as [r0|] eqn:Q1.
    { destruct sp; [|discriminate]. apply eat_inv in Q1. cbn [qtok] in Q1. subst ts.
      bnd E q E1. destruct q as [e r1]. cbn [fst snd] in E.
      destruct (X r0 e r1 (plain_cons _ _ Pl) E1) as (us & raw & -> & -> & Hr & Pr).
      destruct (eat (cl_of c) (norm raw)) as [r2|] eqn:Q2; [|discriminate].
      apply eat_norm_inv in Q2. rewrite Hc in Q2. subst raw. injection E as <- <- <-.
      exists (T_ELLIPSIS :: us ++ [closing c]). split; [alist|]. split; [reflexivity|].
      intros ->. apply P_last. exact Hr. }
    bnd E q E1. destruct q as [e r1]. cbn [fst snd] in E.
    destruct (X ts e r1 Pl E1) as (us & raw & -> & -> & Hr & Pr).
    destruct (eat (cl_of c) (norm raw)) as [r2|] eqn:Q2.
    { apply eat_norm_inv in Q2. rewrite Hc in Q2. subst raw. injection E as <- <- <-.
      exists (us ++ [closing c]). split; [alist|]. apply I_last. exact Hr. }
    destruct (eat QComma (norm raw)) as [r2|] eqn:Q3; [|discriminate].
    apply eat_norm_inv in Q3. cbn [qtok] in Q3. subst raw.
    bnd E a E2. destruct a as [[es2 s2] r3]. cbn [fst snd] in E. injection E as <- <- <-.
    destruct (I5 c sp r2 es2 s2 r3 (plain_cons _ _ Pr) E2) as (us2 & -> & Hit).
    exists (us ++ T_COMMA :: us2). split; [alist|].
    destruct s2.
    + split; [apply Hit|]. intros Hcp. apply P_cons; [exact Hr|apply Hit; exact Hcp].
    + apply I_cons; auto.
  - (* slice_end *)
    intros e a ts t r Pl E. rewrite slice_end_S in E.
    destruct (eat QRsquare ts) as [r0|] eqn:Q0.
    { apply eat_inv in Q0. cbn [qtok] in Q0. subst ts. injection E as <- <-.
      exists minus_one_lit, []. split; [reflexivity|]. split; [reflexivity|]. exact (B_none [45; 49]). }
    bnd E q E1. destruct q as [b r1]. cbn [fst snd] in E.
    destruct (X ts b r1 Pl E1) as (us & raw & -> & -> & Hr & Pr).
    destruct (eat QRsquare (norm raw)) as [r2|] eqn:Q2; [|discriminate].
    apply eat_norm_inv in Q2. cbn [qtok] in Q2. subst raw. injection E as <- <-.
    exists b, us. split; [reflexivity|]. split; [reflexivity|]. apply B_some. exact Hr.
Qed.

Lemma parse_sound ts t rest : plain ts -> parse ta ts = Ok (t, rest) ->
  exists used, ts = used ++ rest /\ reads 0 t used.
Proof.
  intros Pl E. unfold parse in E.
  destruct (proj1 (sound _) PREC_ASSIGN ts t rest ltac:(unfold PREC_ASSIGN; lia) Pl E)
    as (us & raw & -> & -> & Hr & Hs).
  exists us. split; [|exact Hr]. f_equal.
  unfold PREC_ASSIGN in Hs. destruct raw as [|[] raw]; try reflexivity.
  - vm_compute in Hs. discriminate.
  - destruct raw as [|[] raw]; try reflexivity. vm_compute in Hs. discriminate.
Qed.
End P.
