(* Every expression of the grammar is read by the parser as the grammar says. *)
From Coq Require Import ZArith List Bool Lia.
From Verif Require Import Base Pratt_model Pratt_spec Pratt_eqs Pratt_fuel_proof Pratt_proof.
Import ListNotations.
Local Open Scope Z_scope.

Section C.
Variable ta : tree -> list tok -> bool.
Notation plain := (no_type_args ta).
Notation nx ts := (lvl (prec (norm ts))).

Definition fol (l : Z) (t : tree) (k : Z) : Prop := k < 0 \/ (1 <= l /\ k <= l) \/ cast_ended t.

Lemma ends_norm rest : ends rest -> norm rest = rest /\ prec rest = 0.
Proof. destruct rest as [|[] r]; cbn; intros H; try contradiction; split; reflexivity. Qed.

Lemma loop_stop p e rest : plain rest -> prec (norm rest) < p ->
  loop ta 1 p e rest = Ok (e, norm rest).
Proof.
  intros Pl H. rewrite loop_S. cbv zeta. rewrite (infix_token_norm ta e rest Pl).
  rewrite (proj2 (Z.leb_gt _ _) H). reflexivity.
Qed.

(* the loop does not care whether the next token has been rewritten *)
Lemma loop_form n p e r raw : plain raw -> form r raw -> loop ta n p e r = loop ta n p e raw.
Proof.
  intros Pl Hf. destruct n; [reflexivity|]. rewrite !loop_S. cbv zeta.
  rewrite (form_infix_token ta e r raw Pl Hf), (infix_token_norm ta e raw Pl). reflexivity.
Qed.

Lemma after_prefix n m p ts t r rest q : plain rest -> form r rest ->
  prefix ta n ts = Ok (t, r) -> loop ta m p t rest = Ok q -> exists k, expr ta k p ts = Ok q.
Proof.
  intros Pl Hf Hp Hl. exists (S (max n m)). rewrite expr_S.
  rewrite (prefix_up ta n (max n m) _ _ (Nat.le_max_l n m) Hp). cbn [bind fst snd].
  rewrite (loop_form _ _ _ _ _ Pl Hf). apply (loop_up ta m); [lia|exact Hl].
Qed.

Lemma after_infix n m p e ts t r rest q : plain ts -> plain rest -> form r rest ->
  p <= prec (norm ts) ->
  infix ta n e (norm ts) = Ok (t, r) -> loop ta m p t rest = Ok q -> exists k, loop ta k p e ts = Ok q.
Proof.
  intros Pt Pl Hf Hc Hi Hl. exists (S (max n m)). rewrite loop_S. cbv zeta.
  rewrite (infix_token_norm ta e ts Pt). rewrite (proj2 (Z.leb_le _ _) Hc).
  rewrite (infix_up ta n (max n m) _ _ _ (Nat.le_max_l n m) Hi). cbn [bind fst snd].
  rewrite (loop_form _ _ _ _ _ Pl Hf). apply (loop_up ta m); [lia|exact Hl].
Qed.

Lemma loop_no_15 m p e rest q : plain rest -> p <= 15 -> loop ta m p e rest = Ok q ->
  prec (norm rest) <> 15.
Proof.
  intros Pl Hp H E. destruct m; [discriminate|]. rewrite loop_S in H. cbv zeta in H.
  rewrite (infix_token_norm ta e rest Pl) in H. rewrite (proj2 (Z.leb_le _ _)) in H by lia.
  destruct m; [discriminate|]. rewrite infix_S in H.
  destruct (norm rest) as [|t r]; [discriminate|].
  destruct t; try discriminate E; discriminate H.
Qed.

Lemma bop_norm b os ys rest y : bspell b os -> reads (blevel b + 1) y ys ->
  exists h, norm (os ++ ys ++ rest) = h :: ys ++ rest /\ infix_of h = IBinary b /\ prec_tok h = blevel b + 3.
Proof.
  intros Hb Hy. destruct (head_of _ _ _ Hy) as (h & r & -> & Hh).
  destruct Hb; cbn [app norm]; try (eexists; split; [reflexivity|]; split; reflexivity).
  exists T_RANGLE. split; [|split; reflexivity]. destruct h; try reflexivity. contradiction.
Qed.

Definition C_reads (l : Z) (t : tree) (ts : list tok) : Prop :=
  forall p rest m r, plain (ts ++ rest) -> 1 <= p <= l + 3 -> fol l t (nx rest) ->
  loop ta m p t rest = Ok r -> exists n, expr ta n p (ts ++ rest) = Ok r.
Definition C_items (c : closer) (es : list tree) (us : list tok) : Prop :=
  forall rest sp, plain (us ++ rest) ->
  exists n, seq ta n (cl_of c) sp (us ++ rest) = Ok (es, false, rest).
Definition C_spread (es : list tree) (us : list tok) : Prop :=
  forall rest, plain (us ++ rest) ->
  exists n, seq ta n QRparen true (us ++ rest) = Ok (es, true, rest).
Definition C_bound (d : list Z) (t : tree) (ts : list tok) : Prop :=
  (ts = [] /\ t = Lit KInt d) \/
  ((exists h r, ts = h :: r /\ prefix_of h <> PNone) /\
   forall rest, plain (ts ++ rest) -> ends rest ->
   exists n, expr ta n PREC_ASSIGN (ts ++ rest) = Ok (t, rest)).

Lemma whole t ts p rest : C_reads 0 t ts -> plain (ts ++ rest) -> 1 <= p <= 3 -> prec (norm rest) < 3 ->
  prec (norm rest) < p ->
  exists n, expr ta n p (ts ++ rest) = Ok (t, norm rest).
Proof.
  intros H Pl Hp He Hep. apply (H p rest 1%nat); auto; try lia.
  - left. unfold lvl. lia.
  - apply loop_stop; [exact (plain_app _ _ _ Pl)|lia].
Qed.
Lemma whole_ends t ts rest : C_reads 0 t ts -> plain (ts ++ rest) -> ends rest ->
  exists n, expr ta n PREC_ASSIGN (ts ++ rest) = Ok (t, rest).
Proof.
  intros H Pl He. destruct (ends_norm rest He) as (E1 & E2).
  destruct (whole t ts 1 rest H Pl ltac:(lia)) as (n & E); [rewrite E1, E2; lia|rewrite E1, E2; lia|].
  rewrite E1 in E. exists n. exact E.
Qed.

Lemma eat_head k ts r : (exists h q, ts = h :: q /\ prefix_of h <> PNone) ->
  prefix_of (qtok k) = PNone -> eat k (ts ++ r) = None.
Proof. intros (h & q & -> & H) Hk. cbn [app]. apply eat_none; auto. Qed.

Ltac alist := cbn [app]; repeat (rewrite <- app_assoc; cbn [app]); reflexivity.
Ltac plain_tac := match goal with H : plain ?a |- plain ?b =>
  first [exact H | apply (plain_app ta []) ; exact H
        | let E := fresh in assert (E : exists x, a = x ++ b);
            [ | destruct E as (? & E); rewrite E in H; exact (plain_app _ _ _ H)]] end.

Lemma post_prec l m p t : postfix_left m t -> l <= m -> 1 <= p <= l + 3 -> p <= 16 /\ 1 <= p <= m + 3.
Proof. unfold postfix_left. lia. Qed.
Lemma post_fol m t k : postfix_left m t -> k <= 13 -> fol m t k.
Proof. intros [-> | (-> & H)] Hk; [right; left; lia|right; right; exact H]. Qed.

Lemma closing_ends c r : ends (closing c :: r). Proof. destruct c; exact Logic.I. Qed.

Lemma complete :
  (forall l t ts, reads l t ts -> C_reads l t ts) /\
  (forall c es us, items c es us -> C_items c es us) /\
  (forall es us, spread_items es us -> C_spread es us) /\
  (forall d t ts, bound d t ts -> C_bound d t ts).
Proof.
  apply reads_ind4.
  - (* lit *)
    intros l k s Hl p rest m r Pl Hp Hf Hr.
    apply (after_prefix 1 m p _ (Lit k s) rest rest); auto; [exact (plain_app _ _ _ Pl)|left; reflexivity].
  - (* neg lit *)
    intros l k s Hl Hk p rest m r Pl Hp Hf Hr.
    apply (after_prefix 1 m p _ (Lit k (45 :: s)) rest rest); auto;
      [exact (plain_app _ _ _ Pl)|left; reflexivity|].
    destruct Hk as [-> | ->]; reflexivity.
  - (* id *)
    intros l s Hl p rest m r Pl Hp Hf Hr.
    apply (after_prefix 1 m p _ (Id s) rest rest); auto; [exact (plain_app _ _ _ Pl)|left; reflexivity].
  - (* paren *)
    intros l t ts Hl Ht IH p rest m r Pl Hp Hf Hr.
    replace ((T_LPAREN :: ts ++ [T_RPAREN]) ++ rest) with (T_LPAREN :: ts ++ T_RPAREN :: rest) in * by alist.
    destruct (whole_ends t ts (T_RPAREN :: rest) IH (plain_cons _ _ _ Pl) Logic.I) as (n & E).
    apply (after_prefix (S n) m p _ t rest rest); auto.
    + exact (plain_cons _ _ _ (plain_app _ _ _ (plain_cons _ _ _ Pl))).
    + left; reflexivity.
    + rewrite prefix_S. cbn [prefix_of]. rewrite E. cbn [bind fst snd].
      rewrite (eat_same QRparen rest : eat QRparen (T_RPAREN :: rest) = Some rest). reflexivity.
  - (* tuple *)
    intros l t ts es us Hl Ht IH Hi IHi Hne p rest m r Pl Hp Hf Hr.
    replace ((T_LPAREN :: ts ++ T_COMMA :: us) ++ rest) with (T_LPAREN :: ts ++ T_COMMA :: us ++ rest) in * by alist.
    pose proof (plain_cons _ _ _ Pl) as P1. pose proof (plain_cons _ _ _ (plain_app _ _ _ P1)) as P2.
    destruct (whole_ends t ts (T_COMMA :: us ++ rest) IH P1 Logic.I) as (n1 & E1).
    destruct (IHi rest false P2) as (n2 & E2).
    apply (after_prefix (S (max n1 n2)) m p _ (Tup (t :: es)) rest rest); auto.
    + exact (plain_app _ _ _ P2).
    + left; reflexivity.
    + rewrite prefix_S. cbn [prefix_of].
      rewrite (expr_up ta n1 (max n1 n2) _ _ _ (Nat.le_max_l _ _) E1). cbn [bind fst snd].
      cbn [eat is_punct].
      assert (Q : eat QRparen (us ++ rest) = None).
      { destruct Hi as [c|c t0 ts0 Ht0|c t0 ts0 es0 us0 Ht0 Hi0]; [contradiction| |];
          rewrite <- app_assoc; apply eat_head; try reflexivity; apply (head_of _ _ _ Ht0). }
      rewrite Q. cbn [cl_of] in E2.
      rewrite (seq_up ta n2 (max n1 n2) _ _ _ _ (Nat.le_max_r _ _) E2). reflexivity.
  - (* vec *)
    intros l es us Hl Hi IHi p rest m r Pl Hp Hf Hr.
    pose proof (plain_cons _ _ _ Pl) as P1. fold (us ++ rest) in P1.
    destruct (IHi rest false P1) as (n1 & E1).
    apply (after_prefix (S n1) m p _ (Vec es) rest rest); auto.
    + exact (plain_app _ _ _ P1).
    + left; reflexivity.
    + cbn [app]. rewrite prefix_S. cbn [prefix_of].
      destruct n1 as [|n1]; [discriminate E1|]. rewrite seq_S in E1. cbn [cl_of] in E1.
      destruct (eat QRsquare (us ++ rest)) as [r0|] eqn:Q.
      * injection E1 as <- <-. reflexivity.
      * cbv iota in E1.
        destruct (expr ta n1 PREC_ASSIGN (us ++ rest)) as [[e r1]| | | | |] eqn:Ee; try discriminate E1.
        rewrite (expr_up ta n1 (S n1) _ _ _ ltac:(lia) Ee).
        cbn [bind fst snd] in E1 |- *.
        destruct (eat QRsquare r1) as [r2|] eqn:Q2.
        -- injection E1 as <- <-.
           destruct (eat QSemi r1) eqn:Q3; [|reflexivity].
           apply eat_inv in Q2. apply eat_inv in Q3. rewrite Q2 in Q3. discriminate Q3.
        -- destruct (eat QComma r1) as [r2|] eqn:Q4; [|discriminate E1].
           destruct (eat QSemi r1) eqn:Q3.
           { apply eat_inv in Q4. apply eat_inv in Q3. rewrite Q4 in Q3. discriminate Q3. }
           destruct (seq ta n1 QRsquare false r2) as [[[es2 s2] r3]| | | | |] eqn:Es; try discriminate E1.
           rewrite (seq_up ta n1 (S n1) _ _ _ _ ltac:(lia) Es).
           cbn [bind fst snd] in E1 |- *. injection E1 as <- _ <-. reflexivity.
  - (* rep *)
    intros l t ts e es Hl Ht IH He IHe p rest m r Pl Hp Hf Hr.
    replace ((T_LSQUARE :: ts ++ T_SEMI :: es ++ [T_RSQUARE]) ++ rest)
      with (T_LSQUARE :: ts ++ T_SEMI :: es ++ T_RSQUARE :: rest) in * by alist.
    pose proof (plain_cons _ _ _ Pl) as P1. pose proof (plain_cons _ _ _ (plain_app _ _ _ P1)) as P2.
    destruct (whole_ends t ts (T_SEMI :: es ++ T_RSQUARE :: rest) IH P1 Logic.I) as (n1 & E1).
    destruct (whole_ends e es (T_RSQUARE :: rest) IHe P2 Logic.I) as (n2 & E2).
    apply (after_prefix (S (max n1 n2)) m p _ (Rep t e) rest rest); auto.
    + exact (plain_cons _ _ _ (plain_app _ _ _ P2)).
    + left; reflexivity.
    + rewrite prefix_S. cbn [prefix_of].
      rewrite (eat_head QRsquare ts (T_SEMI :: es ++ T_RSQUARE :: rest) (head_of _ _ _ Ht) eq_refl).
      rewrite (expr_up ta n1 (max n1 n2) _ _ _ (Nat.le_max_l _ _) E1). cbn [bind fst snd eat is_punct].
      rewrite (expr_up ta n2 (max n1 n2) _ _ _ (Nat.le_max_r _ _) E2). reflexivity.
  - (* unary *)
    intros l u t ts Hl Ht IH Hnum p rest m r Pl Hp Hf Hr.
    cbn [app] in *. pose proof (plain_cons _ _ _ Pl) as P1. fold (ts ++ rest) in P1.
    pose proof (plain_app _ _ _ P1) as P2.
    pose proof (loop_no_15 m p _ rest r P2 ltac:(lia) Hr) as H15.
    assert (Hk : prec (norm rest) < 15).
    { destruct Hf as [Hf | [(Ha & Hf) | []]]; unfold lvl in Hf; lia. }
    destruct (IH 15 rest 1%nat (t, norm rest) P1 ltac:(lia)) as (n & E).
    { right; left. unfold lvl. lia. }
    { apply loop_stop; [exact P2|lia]. }
    apply (after_prefix (S n) m p _ (Un u t) (norm rest) rest); auto; [right; reflexivity|].
    rewrite prefix_S.
    replace (prefix_of (uspell u)) with (PUnary u) by (destruct u; reflexivity).
    assert (Q : match u with UNeg => eat_number (ts ++ rest) | _ => None end = None).
    { destruct u; try reflexivity. specialize (Hnum eq_refl).
      destruct (head_of _ _ _ Ht) as (h & q & -> & _). cbn [app].
      destruct h; try reflexivity. cbn [eat_number]. destruct k; try reflexivity; exfalso; apply Hnum.
      - exists KInt, s, q. auto.
      - exists KFloat, s, q. auto. }
    rewrite Q. change PREC_UNARY with 15. rewrite E. reflexivity.
  - (* binary *)
    intros l b x y xs os ys Hl Hx IHx Hos Hy IHy p rest m r Pl Hp Hf Hr.
    assert (Hb : 1 <= blevel b <= 10) by (destruct b; cbn; lia).
    rewrite <- !app_assoc in *.
    pose proof (plain_app _ _ _ Pl) as P1. pose proof (plain_app _ _ _ P1) as P2.
    pose proof (plain_app _ _ _ P2) as P3.
    assert (Hk : nx rest <= blevel b).
    { destruct Hf as [Hf | [(Ha & Hf) | []]]; lia. }
    destruct (bop_norm b os ys rest y Hos Hy) as (h & En & Eh & Ep).
    destruct (IHy (blevel b + 4) rest 1%nat (y, norm rest) P2 ltac:(lia)) as (n & E).
    { right; left. lia. }
    { apply loop_stop; [exact P3|]. unfold lvl in Hk. lia. }
    destruct (after_infix (S n) m p x (os ++ ys ++ rest) (Bin b x y) (norm rest) rest r) as (k & Ek); auto.
    { right; reflexivity. }
    { rewrite En. cbn [prec]. lia. }
    { rewrite En, infix_S, Eh, Ep. replace (blevel b + 3 + 1) with (blevel b + 4) by lia.
      rewrite E. reflexivity. }
    apply (IHx p (os ++ ys ++ rest) k r); auto; [lia|].
    right; left. rewrite En. cbn [prec]. unfold lvl. lia.
  - (* ternary *)
    intros l c x y cs xs ys Hl Hc IHc Hx IHx Hy IHy p rest m r Pl Hp Hf Hr.
    replace ((cs ++ T_QUESTION :: xs ++ T_COLON :: ys) ++ rest)
      with (cs ++ T_QUESTION :: xs ++ T_COLON :: ys ++ rest) in * by alist.
    pose proof (plain_app _ _ _ Pl) as P0.
    pose proof (plain_cons _ _ _ P0) as P1. pose proof (plain_cons _ _ _ (plain_app _ _ _ P1)) as P2.
    pose proof (plain_app _ _ _ P2) as P3.
    assert (Hk : nx rest < 0).
    { destruct Hf as [Hf | [(Ha & Hf) | []]]; lia. }
    destruct (whole_ends x xs (T_COLON :: ys ++ rest) IHx P1 Logic.I) as (n1 & E1).
    destruct (whole y ys 3 rest IHy P2 ltac:(lia)) as (n2 & E2); [unfold lvl in Hk; lia|unfold lvl in Hk; lia|].
    destruct (after_infix (S (max n1 n2)) m p c (T_QUESTION :: xs ++ T_COLON :: ys ++ rest)
       (Tern c x y) (norm rest) rest r) as (k & Ek); auto.
    { right; reflexivity. }
    { cbn [norm prec prec_tok]. unfold PREC_TERNARY. lia. }
    { cbn [norm]. rewrite infix_S. cbn [infix_of].
      rewrite (expr_up ta n1 (max n1 n2) _ _ _ (Nat.le_max_l _ _) E1). cbn [bind fst snd eat is_punct].
      change PREC_TERNARY with 3.
      rewrite (expr_up ta n2 (max n1 n2) _ _ _ (Nat.le_max_r _ _) E2). reflexivity. }
    apply (IHc p (T_QUESTION :: xs ++ T_COLON :: ys ++ rest) k r); auto; [lia|].
    right; left. cbn. lia.
  - (* as *)
    intros l t ts ty Hl Ht IH p rest m r Pl Hp Hf Hr.
    replace ((ts ++ [T_AS; TType ty]) ++ rest) with (ts ++ T_AS :: TType ty :: rest) in * by alist.
    pose proof (plain_app _ _ _ Pl) as P0.
    pose proof (plain_cons _ _ _ (plain_cons _ _ _ P0)) as P1.
    destruct (after_infix 1 m p t (T_AS :: TType ty :: rest) (As t ty) rest rest r) as (k & Ek); auto.
    { left; reflexivity. }
    { cbn [norm prec prec_tok]. unfold PREC_TYPE_CAST. lia. }
    apply (IH p (T_AS :: TType ty :: rest) k r); auto; [lia|].
    right; left. cbn. lia.
  - (* select *)
    intros l m0 t ts key Hpl Hl Ht IH p rest m r Pl Hp Hf Hr.
    destruct (post_prec _ _ _ _ Hpl Hl Hp) as (Hp16 & Hpm).
    replace ((ts ++ [T_DOT; TIdent key]) ++ rest) with (ts ++ T_DOT :: TIdent key :: rest) in * by alist.
    pose proof (plain_app _ _ _ Pl) as P0.
    pose proof (plain_cons _ _ _ (plain_cons _ _ _ P0)) as P1.
    destruct (after_infix 1 m p t (T_DOT :: TIdent key :: rest) (Sel t key) rest rest r) as (k & Ek); auto.
    { left; reflexivity. }
    { cbn [norm prec prec_tok]. unfold PREC_SELECT. lia. }
    apply (IH p (T_DOT :: TIdent key :: rest) k r); [exact Pl|exact Hpm|apply post_fol; [exact Hpl|apply (nx_cast ta)]|exact Ek].
  - (* index *)
    intros l m0 t ts i is_ Hpl Hl Ht IH Hi IHi p rest m r Pl Hp Hf Hr.
    destruct (post_prec _ _ _ _ Hpl Hl Hp) as (Hp16 & Hpm).
    replace ((ts ++ T_LSQUARE :: is_ ++ [T_RSQUARE]) ++ rest) with (ts ++ T_LSQUARE :: is_ ++ T_RSQUARE :: rest) in * by alist.
    pose proof (plain_app _ _ _ Pl) as P0. pose proof (plain_cons _ _ _ P0) as P1.
    pose proof (plain_cons _ _ _ (plain_app _ _ _ P1)) as P2.
    destruct (whole_ends i is_ (T_RSQUARE :: rest) IHi P1 Logic.I) as (n1 & E1).
    destruct (after_infix (S n1) m p t (T_LSQUARE :: is_ ++ T_RSQUARE :: rest) (Idx t i) rest rest r) as (k & Ek); auto.
    { left; reflexivity. }
    { cbn [norm prec prec_tok]. unfold PREC_SELECT. lia. }
    { cbn [norm]. rewrite infix_S. cbn [infix_of].
      rewrite (eat_head QRange is_ (T_RSQUARE :: rest) (head_of _ _ _ Hi) eq_refl).
      rewrite E1. reflexivity. }
    apply (IH p (T_LSQUARE :: is_ ++ T_RSQUARE :: rest) k r); [exact Pl|exact Hpm|apply post_fol; [exact Hpl|apply (nx_cast ta)]|exact Ek].
  - (* slice *)
    intros l m0 t ts a als b bs_ Hpl Hl Ht IH Ha IHa Hb IHb p rest m r Pl Hp Hf Hr.
    destruct (post_prec _ _ _ _ Hpl Hl Hp) as (Hp16 & Hpm).
    replace ((ts ++ T_LSQUARE :: als ++ T_RANGE :: bs_ ++ [T_RSQUARE]) ++ rest)
      with (ts ++ T_LSQUARE :: als ++ T_RANGE :: bs_ ++ T_RSQUARE :: rest) in * by alist.
    pose proof (plain_app _ _ _ Pl) as P0. pose proof (plain_cons _ _ _ P0) as P1.
    pose proof (plain_cons _ _ _ (plain_app _ _ _ P1)) as P2.
    pose proof (plain_cons _ _ _ (plain_app _ _ _ P2)) as P3.
    assert (E2 : exists n, slice_end ta n t a (bs_ ++ T_RSQUARE :: rest) = Ok (Slice t a b, rest)).
    { destruct IHb as [(-> & ->) | (Hh & IHb)].
      - exists 1%nat. reflexivity.
      - destruct (IHb (T_RSQUARE :: rest) P2 Logic.I) as (n & E). exists (S n).
        rewrite slice_end_S, (eat_head QRsquare bs_ _ Hh eq_refl), E. reflexivity. }
    destruct E2 as (n2 & E2).
    assert (U : forall n k e a ts, le_res (slice_end ta n e a ts) (slice_end ta (n + k) e a ts)).
    { clear. intros n k e a ts. induction k; [replace (n + 0)%nat with n by lia; apply le_refl|].
      replace (n + S k)%nat with (S (n + k)) by lia.
      destruct IHk as [IH | IH]; [left; exact IH|]. rewrite IH. apply (mono ta (n + k)). }
    assert (E3 : exists n, infix ta n t (T_LSQUARE :: als ++ T_RANGE :: bs_ ++ T_RSQUARE :: rest) = Ok (Slice t a b, rest)).
    { destruct IHa as [(-> & ->) | (Hh & IHa)].
      - exists (S n2). rewrite infix_S. cbn [infix_of app eat is_punct]. exact E2.
      - destruct (IHa (T_RANGE :: bs_ ++ T_RSQUARE :: rest) P1 Logic.I) as (n1 & E1).
        exists (S (n2 + n1)). rewrite infix_S. cbn [infix_of].
        rewrite (eat_head QRange als _ Hh eq_refl).
        rewrite (expr_up ta n1 (n2 + n1) _ _ _ ltac:(lia) E1). cbn [bind fst snd eat is_punct].
        destruct (U n2 n1 t a (bs_ ++ T_RSQUARE :: rest)) as [E4 | E4]; [congruence|].
        rewrite <- E4. exact E2. }
    destruct E3 as (n3 & E3).
    destruct (after_infix n3 m p t (T_LSQUARE :: als ++ T_RANGE :: bs_ ++ T_RSQUARE :: rest) (Slice t a b) rest rest r) as (k & Ek); auto.
    { left; reflexivity. }
    { cbn [norm prec prec_tok]. unfold PREC_SELECT. lia. }
    apply (IH p (T_LSQUARE :: als ++ T_RANGE :: bs_ ++ T_RSQUARE :: rest) k r); [exact Pl|exact Hpm|apply post_fol; [exact Hpl|apply (nx_cast ta)]|exact Ek].
  - (* call *)
    intros l m0 t ts es us Hpl Hl Ht IH Hi IHi p rest m r Pl Hp Hf Hr.
    destruct (post_prec _ _ _ _ Hpl Hl Hp) as (Hp16 & Hpm).
    replace ((ts ++ T_LPAREN :: us) ++ rest) with (ts ++ T_LPAREN :: us ++ rest) in * by alist.
    pose proof (plain_app _ _ _ Pl) as P0. pose proof (plain_cons _ _ _ P0) as P1.
    destruct (IHi rest true P1) as (n1 & E1).
    destruct (after_infix (S n1) m p t (T_LPAREN :: us ++ rest) (Call t es false) rest rest r) as (k & Ek); auto.
    { exact (plain_app _ _ _ P1). }
    { left; reflexivity. }
    { cbn [norm]. rewrite infix_S. cbn [infix_of]. cbn [cl_of] in E1. rewrite E1. reflexivity. }
    apply (IH p (T_LPAREN :: us ++ rest) k r); [exact Pl|exact Hpm|apply post_fol; [exact Hpl|apply (nx_cast ta)]|exact Ek].
  - (* spread call *)
    intros l m0 t ts es us Hpl Hl Ht IH Hi IHi p rest m r Pl Hp Hf Hr.
    destruct (post_prec _ _ _ _ Hpl Hl Hp) as (Hp16 & Hpm).
    replace ((ts ++ T_LPAREN :: us) ++ rest) with (ts ++ T_LPAREN :: us ++ rest) in * by alist.
    pose proof (plain_app _ _ _ Pl) as P0. pose proof (plain_cons _ _ _ P0) as P1.
    destruct (IHi rest P1) as (n1 & E1).
    destruct (after_infix (S n1) m p t (T_LPAREN :: us ++ rest) (Call t es true) rest rest r) as (k & Ek); auto.
    { exact (plain_app _ _ _ P1). }
    { left; reflexivity. }
    { cbn [norm]. rewrite infix_S. cbn [infix_of]. rewrite E1. reflexivity. }
    apply (IH p (T_LPAREN :: us ++ rest) k r); [exact Pl|exact Hpm|apply post_fol; [exact Hpl|apply (nx_cast ta)]|exact Ek].
  - (* items: none *)
    intros c rest sp Pl. exists 1%nat. destruct c; reflexivity.
  - (* items: last *)
    intros c t ts Ht IH rest sp Pl. rewrite <- app_assoc in *. cbn [app] in *.
    destruct (whole_ends t ts (closing c :: rest) IH Pl (closing_ends c rest)) as (n & E).
    exists (S n). rewrite seq_S.
    rewrite (eat_head (cl_of c) ts _ (head_of _ _ _ Ht)) by (destruct c; reflexivity).
    rewrite (eat_head QEllipsis ts _ (head_of _ _ _ Ht) eq_refl).
    replace (if sp then None else None) with (@None (list tok)) by (destruct sp; reflexivity).
    rewrite E. destruct c; reflexivity.
  - (* items: more *)
    intros c t ts es us Ht IH Hi IHi rest sp Pl. rewrite <- app_assoc in *. cbn [app] in *.
    pose proof (plain_cons _ _ _ (plain_app _ _ _ Pl)) as P1.
    destruct (whole_ends t ts (T_COMMA :: us ++ rest) IH Pl Logic.I) as (n1 & E1).
    destruct (IHi rest sp P1) as (n2 & E2).
    exists (S (max n1 n2)). rewrite seq_S.
    rewrite (eat_head (cl_of c) ts _ (head_of _ _ _ Ht)) by (destruct c; reflexivity).
    rewrite (eat_head QEllipsis ts _ (head_of _ _ _ Ht) eq_refl).
    replace (if sp then None else None) with (@None (list tok)) by (destruct sp; reflexivity).
    rewrite (expr_up ta n1 (max n1 n2) _ _ _ (Nat.le_max_l _ _) E1). cbn [bind fst snd].
    replace (eat (cl_of c) (T_COMMA :: us ++ rest)) with (@None (list tok)) by (destruct c; reflexivity).
    cbn [eat is_punct].
    rewrite (seq_up ta n2 (max n1 n2) _ _ _ _ (Nat.le_max_r _ _) E2). reflexivity.
  - (* spread: last *)
    intros t ts Ht IH rest Pl. cbn [app] in *. rewrite <- app_assoc in *. cbn [app] in *.
    destruct (whole_ends t ts (T_RPAREN :: rest) IH (plain_cons _ _ _ Pl) Logic.I) as (n & E).
    exists (S n). rewrite seq_S. cbn [eat is_punct]. rewrite E. reflexivity.
  - (* spread: more *)
    intros t ts es us Ht IH Hi IHi rest Pl. rewrite <- app_assoc in *. cbn [app] in *.
    pose proof (plain_cons _ _ _ (plain_app _ _ _ Pl)) as P1.
    destruct (whole_ends t ts (T_COMMA :: us ++ rest) IH Pl Logic.I) as (n1 & E1).
    destruct (IHi rest P1) as (n2 & E2).
    exists (S (max n1 n2)). rewrite seq_S.
    rewrite (eat_head QRparen ts _ (head_of _ _ _ Ht) eq_refl).
    rewrite (eat_head QEllipsis ts _ (head_of _ _ _ Ht) eq_refl).
    rewrite (expr_up ta n1 (max n1 n2) _ _ _ (Nat.le_max_l _ _) E1). cbn [bind fst snd eat is_punct].
    rewrite (seq_up ta n2 (max n1 n2) _ _ _ _ (Nat.le_max_r _ _) E2). reflexivity.
  - (* bound: none *)
    intros d. left. auto.
  - (* bound: some *)
    intros d t ts Ht IH. right. split; [apply (head_of _ _ _ Ht)|].
    intros rest Pl He. apply whole_ends; auto.
Qed.

Lemma parse_complete t ts rest : plain (ts ++ rest) -> reads 0 t ts -> ends rest ->
  parse ta (ts ++ rest) = Ok (t, rest).
Proof.
  intros Pl H He. destruct (whole_ends t ts rest (proj1 complete 0 t ts H) Pl He) as (n & E).
  exact (parse_of_expr ta n _ _ E).
Qed.
End C.
