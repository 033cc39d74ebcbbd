(* Without `!` and `~`, and where no `<` opens type arguments, the parser
   returns a tree or reports an error. *)
From Coq Require Import ZArith List Bool Lia.
From Verif Require Import Base Pratt_model Pratt_spec Pratt_eqs Pratt_fuel_proof Pratt_proof.
Import ListNotations.
Local Open Scope Z_scope.

Section S.
Variable ta : tree -> list tok -> bool.
Notation plain := (no_type_args ta).

Definition good (ts : list tok) : Prop := plain ts /\ ~ In T_NOT ts /\ ~ In T_TILDE ts.
Lemma good_app a b : good (a ++ b) -> good b.
Proof.
  intros (H1 & H2 & H3). split; [exact (plain_app _ _ _ H1)|].
  split; intros H; [apply H2|apply H3]; apply in_or_app; right; exact H.
Qed.
Lemma good_cons t b : good (t :: b) -> good b. Proof. apply (good_app [t]). Qed.

Definition safe {A} (x : res A) : Prop :=
  match x with Ok _ | Throw | NoFuel => True | _ => False end.
Lemma safe_bind {A B} (x : res A) (k : A -> res B) :
  safe x -> (forall a, x = Ok a -> safe (k a)) -> safe (bind x k).
Proof. destruct x; cbn [bind safe]; intros; auto. Qed.

Lemma eat_good k r raw r' : good raw -> form r raw -> eat k r = Some r' -> good r'.
Proof. intros H F E. rewrite (form_eat _ _ _ _ F E) in H. exact (good_cons _ _ H). Qed.
Lemma eat_good' k raw r' : good raw -> eat k raw = Some r' -> good r'.
Proof. intros H. apply (eat_good k raw raw r' H); left; reflexivity. Qed.

Lemma safe_all : forall n,
  (forall p ts, 1 <= p <= 15 -> good ts -> safe (expr ta n p ts)) /\
  (forall p e ts raw, 1 <= p <= 15 -> form ts raw -> good raw -> safe (loop ta n p e ts)) /\
  (forall ts, good ts -> safe (prefix ta n ts)) /\
  (forall e raw, 1 <= prec (norm raw) -> good raw -> safe (infix ta n e (norm raw))) /\
  (forall c sp ts, good ts -> safe (seq ta n (cl_of c) sp ts)) /\
  (forall e a ts, good ts -> safe (slice_end ta n e a ts)).
Proof.
  induction n as [|n (I1 & I2 & I3 & I4 & I5 & I6)]; [repeat split; intros; exact Logic.I|].
  destruct (sound ta n) as (S1 & S2 & S3 & S4 & S5 & S6).
  assert (X : forall ts q, good ts -> expr ta n PREC_ASSIGN ts = Ok q ->
     exists raw, snd q = norm raw /\ good raw).
  { intros ts [t r] Hg E.
    destruct (S1 1 ts t r ltac:(lia) (proj1 Hg) E) as (us & raw & -> & -> & _).
    exists raw. split; [reflexivity|exact (good_app _ _ Hg)]. }
  assert (E1 : forall ts, good ts -> safe (expr ta n PREC_ASSIGN ts)).
  { intros ts Hg. apply I1; [unfold PREC_ASSIGN; lia|exact Hg]. }
  repeat match goal with |- _ /\ _ => split end.
  - intros p ts Hp Hg. rewrite expr_S. apply safe_bind; [apply I3; exact Hg|].
    intros [e r] E. cbn [fst snd].
    destruct (S3 ts e r (proj1 Hg) E) as (L & us & raw & -> & Hf & _).
    exact (I2 p e r raw Hp Hf (good_app _ _ Hg)).
  - intros p e ts raw Hp Hf Hg. rewrite loop_S. cbv zeta.
    rewrite (form_infix_token ta e ts raw (proj1 Hg) Hf).
    destruct (p <=? prec (norm raw)) eqn:Hc; [|exact Logic.I]. apply Z.leb_le in Hc.
    apply safe_bind; [apply I4; [lia|exact Hg]|].
    intros [e1 r1] E. cbn [fst snd].
    assert (exists raw1 us, raw = us ++ raw1 /\ form r1 raw1) as (raw1 & us & -> & Hf1).
    { clear - E S1 S5 S6 Hg I1 I5 X. destruct n as [|n']; [discriminate|]. rewrite infix_S in E.
      (* the tokens left by an operator are the end of the tokens before it *)
      assert (X' : forall p ts q, good ts -> expr ta n' p ts = Ok q -> 1 <= p <= 15 ->
         exists us raw, ts = us ++ raw /\ snd q = norm raw /\ good raw).
      { intros p0 ts0 [t0 r0] Hg0 E0 Hp0.
        destruct (proj1 (sound ta n') p0 ts0 t0 r0 Hp0 (proj1 Hg0) E0) as (us & raw' & -> & -> & _).
        exists us, raw'. split; [reflexivity|]. split; [reflexivity|exact (good_app _ _ Hg0)]. }
      assert (Hsuf : forall h ts, norm raw = h :: ts -> exists os, raw = os ++ ts).
      { intros h ts Hn. destruct raw as [|t0 raw]; [discriminate|].
        destruct t0; cbn [norm] in Hn;
          try (injection Hn as <- <-; eexists [_]; reflexivity).
        destruct raw as [|t1 raw]; [injection Hn as <- <-; eexists [_]; reflexivity|].
        destruct t1; injection Hn as <- <-;
          first [ exists [T_RANGLE; T_RANGLE]; reflexivity | exists [T_RANGLE]; reflexivity ]. }
      destruct (norm raw) as [|h ts] eqn:En; [discriminate|].
      destruct (Hsuf h ts eq_refl) as (os & ->).
      assert (Gt : good ts) by exact (good_app _ _ Hg).
      assert (Seq : forall sp ts2 q, good ts2 -> seq ta n' QRparen sp ts2 = Ok q -> exists us, ts2 = us ++ snd q).
      { intros sp ts2 [[es s] r2] Hg2 E2. destruct (sound ta n') as (_ & _ & _ & _ & S5' & _).
        destruct (S5' CParen sp ts2 es s r2 (proj1 Hg2) E2) as (us & -> & _). exists us. reflexivity. }
      assert (Sl : forall a ts2 q, good ts2 -> slice_end ta n' e a ts2 = Ok q -> exists us, ts2 = us ++ snd q).
      { intros a ts2 [t2 r2] Hg2 E2. destruct (sound ta n') as (_ & _ & _ & _ & _ & S6').
        destruct (S6' e a ts2 t2 r2 (proj1 Hg2) E2) as (b & bs & _ & -> & _).
        exists (bs ++ [T_RSQUARE]). cbn [snd]. rewrite <- app_assoc. reflexivity. }
      destruct (infix_of h) as [b| | | | | | |] eqn:Eh; try discriminate E.
      - destruct (expr ta n' (prec_tok h + 1) ts) as [q| | | | |] eqn:Eq; try discriminate E.
        cbn [bind] in E. injection E as <- <-.
        destruct (X' _ ts q Gt Eq) as (us & raw' & -> & -> & _).
        { destruct h; try discriminate Eh; cbn; lia. }
        exists raw', (os ++ us). split; [rewrite <- app_assoc; reflexivity|right; reflexivity].
      - destruct (expr ta n' PREC_ASSIGN ts) as [q| | | | |] eqn:Eq; try discriminate E.
        cbn [bind] in E. destruct (X' _ ts q Gt Eq ltac:(unfold PREC_ASSIGN; lia)) as (us & raw' & -> & Hq & Gr).
        rewrite Hq in E. destruct (eat QColon (norm raw')) as [r2|] eqn:Q; [|discriminate].
        apply eat_norm_inv in Q. cbn [qtok] in Q. subst raw'.
        destruct (expr ta n' PREC_TERNARY r2) as [q2| | | | |] eqn:Eq2; try discriminate E.
        cbn [bind] in E. injection E as <- <-.
        destruct (X' _ r2 q2 (good_cons _ _ Gr) Eq2 ltac:(unfold PREC_TERNARY; lia)) as (us2 & raw2 & -> & -> & _).
        exists raw2, (os ++ us ++ T_COLON :: us2). split; [|right; reflexivity].
        repeat (rewrite <- app_assoc; cbn [app]). reflexivity.
      - destruct ts as [|[] ts]; try discriminate E. cbn [eat_type] in E. injection E as <- <-.
        exists ts, (os ++ [TType s]). split; [rewrite <- app_assoc; reflexivity|left; reflexivity].
      - destruct ts as [|[] ts]; try discriminate E. cbn [eat_ident] in E. injection E as <- <-.
        exists ts, (os ++ [TIdent s]). split; [rewrite <- app_assoc; reflexivity|left; reflexivity].
      - destruct (eat QRange ts) as [r2|] eqn:Q.
        { apply eat_inv in Q. cbn [qtok] in Q. subst ts.
          destruct (Sl _ r2 (e1, r1) (good_cons _ _ Gt) E) as (us & ->).
          exists r1, (os ++ T_RANGE :: us). split; [rewrite <- app_assoc; reflexivity|left; reflexivity]. }
        destruct (expr ta n' PREC_ASSIGN ts) as [q| | | | |] eqn:Eq; try discriminate E.
        cbn [bind] in E. destruct (X' _ ts q Gt Eq ltac:(unfold PREC_ASSIGN; lia)) as (us & raw' & -> & Hq & Gr).
        rewrite Hq in E. destruct (eat QRange (norm raw')) as [r2|] eqn:Q1.
        { apply eat_norm_inv in Q1. cbn [qtok] in Q1. subst raw'.
          destruct (Sl _ r2 (e1, r1) (good_cons _ _ Gr) E) as (us2 & ->).
          exists r1, (os ++ us ++ T_RANGE :: us2). split; [|left; reflexivity].
          repeat (rewrite <- app_assoc; cbn [app]). reflexivity. }
        destruct (eat QRsquare (norm raw')) as [r2|] eqn:Q2; [|discriminate].
        apply eat_norm_inv in Q2. cbn [qtok] in Q2. subst raw'. injection E as <- <-.
        exists r2, (os ++ us ++ [T_RSQUARE]). split; [|left; reflexivity].
        repeat (rewrite <- app_assoc; cbn [app]). reflexivity.
      - destruct (seq ta n' QRparen true ts) as [q| | | | |] eqn:Eq; try discriminate E.
        cbn [bind] in E. injection E as <- <-.
        destruct (Seq _ ts q Gt Eq) as (us & Hu).
        exists (snd q), (os ++ us). split; [rewrite <- app_assoc, <- Hu; reflexivity|left; reflexivity].
      - exfalso. destruct h; try discriminate Eh. clear - En.
        destruct (os ++ ts) as [|[] z]; try discriminate En. cbn [norm] in En.
        destruct z as [|[] z]; discriminate En. }
    exact (I2 p e1 r1 raw1 Hp Hf1 (good_app _ _ Hg)).
  - intros ts Hg. rewrite prefix_S. destruct ts as [|h ts]; [exact Logic.I|].
    pose proof (good_cons _ _ Hg) as Gt.
    destruct (prefix_of h) as [k s|s| | |u|]; try exact Logic.I.
    + apply safe_bind; [apply E1; exact Gt|]. intros q Eq.
      destruct (X ts q Gt Eq) as (raw & -> & Gr).
      destruct (eat QRparen (norm raw)); [exact Logic.I|].
      destruct (eat QComma (norm raw)) as [r2|] eqn:Q; [|exact Logic.I].
      pose proof (eat_good _ _ _ _ Gr (or_intror eq_refl) Q) as G2.
      destruct (eat QRparen r2); [exact Logic.I|].
      apply safe_bind; [exact (I5 CParen false r2 G2)|]. intros; exact Logic.I.
    + destruct (eat QRsquare ts); [exact Logic.I|].
      apply safe_bind; [apply E1; exact Gt|]. intros q Eq.
      destruct (X ts q Gt Eq) as (raw & -> & Gr).
      destruct (eat QSemi (norm raw)) as [r2|] eqn:Q.
      { pose proof (eat_good _ _ _ _ Gr (or_intror eq_refl) Q) as G2.
        apply safe_bind; [apply E1; exact G2|]. intros l El. destruct (eat QRsquare (snd l)); exact Logic.I. }
      destruct (eat QRsquare (norm raw)); [exact Logic.I|].
      destruct (eat QComma (norm raw)) as [r2|] eqn:Q1; [|exact Logic.I].
      pose proof (eat_good _ _ _ _ Gr (or_intror eq_refl) Q1) as G2.
      apply safe_bind; [exact (I5 CSquare false r2 G2)|]. intros; exact Logic.I.
    + destruct (match u with UNeg => eat_number ts | _ => None end) as [[[k s] r]|]; [exact Logic.I|].
      apply safe_bind; [apply I1; [unfold PREC_UNARY; lia|exact Gt]|]. intros; exact Logic.I.
  - intros e raw Hc Hg. rewrite infix_S.
    destruct (norm raw) as [|h ts] eqn:En; [cbn in Hc; unfold PREC_NULL in Hc; lia|].
    assert (Gt : good ts /\ h <> T_NOT /\ h <> T_TILDE /\ h <> T_LANGLE).
    { clear - Hg En. destruct raw as [|t0 raw]; [discriminate|].
      destruct Hg as (P & H1 & H2).
      assert (G : good raw).
      { apply (good_cons t0). split; [exact P|split; assumption]. }
      destruct t0; cbn [norm] in En;
        try (injection En as <- <-; repeat split; try apply G; try discriminate; fail).
      - destruct raw as [|t1 raw]; [injection En as <- <-; repeat split; try apply G; discriminate|].
        destruct t1; injection En as <- <-;
          repeat split; try discriminate; try apply G; try apply (good_cons _ _ G).
      - exfalso. apply H1. left. reflexivity.
      - exfalso. apply H2. left. reflexivity. }
    destruct Gt as (Gt & N1 & N2 & N3).
    destruct (infix_of h) as [b| | | | | | |] eqn:Eh.
    + apply safe_bind; [apply I1; [|exact Gt]|intros; exact Logic.I].
      destruct h; try discriminate Eh; cbn; lia.
    + apply safe_bind; [apply E1; exact Gt|]. intros q Eq.
      destruct (X ts q Gt Eq) as (raw2 & -> & Gr).
      destruct (eat QColon (norm raw2)) as [r2|] eqn:Q; [|exact Logic.I].
      pose proof (eat_good _ _ _ _ Gr (or_intror eq_refl) Q) as G2.
      apply safe_bind; [apply I1; [unfold PREC_TERNARY; lia|exact G2]|intros; exact Logic.I].
    + destruct (eat_type ts) as [[? ?]|]; exact Logic.I.
    + destruct (eat_ident ts) as [[? ?]|]; exact Logic.I.
    + destruct (eat QRange ts) as [r2|] eqn:Q; [apply I6; exact (eat_good' _ _ _ Gt Q)|].
      apply safe_bind; [apply E1; exact Gt|]. intros q Eq.
      destruct (X ts q Gt Eq) as (raw2 & -> & Gr).
      destruct (eat QRange (norm raw2)) as [r2|] eqn:Q1.
      { apply I6. exact (eat_good _ _ _ _ Gr (or_intror eq_refl) Q1). }
      destruct (eat QRsquare (norm raw2)); exact Logic.I.
    + apply safe_bind; [exact (I5 CParen true ts Gt)|intros; exact Logic.I].
    + destruct h; try discriminate Eh. contradiction.
    + exfalso. clear - Eh Hc N1 N2. destruct h; try discriminate Eh; try contradiction; vm_compute in Hc; apply Hc; reflexivity.
  - intros c sp ts Hg. rewrite seq_S. destruct (eat (cl_of c) ts); [exact Logic.I|].
    destruct (if sp then eat QEllipsis ts else None) as [r0|] eqn:Q0.
    { destruct sp; [|discriminate]. pose proof (eat_good' _ _ _ Hg Q0) as G0.
      apply safe_bind; [apply E1; exact G0|]. intros q Eq. destruct (eat (cl_of c) (snd q)); exact Logic.I. }
    apply safe_bind; [apply E1; exact Hg|]. intros q Eq.
    destruct (X ts q Hg Eq) as (raw2 & -> & Gr).
    destruct (eat (cl_of c) (norm raw2)); [exact Logic.I|].
    destruct (eat QComma (norm raw2)) as [r2|] eqn:Q1; [|exact Logic.I].
    apply safe_bind; [apply I5; exact (eat_good _ _ _ _ Gr (or_intror eq_refl) Q1)|intros; exact Logic.I].
  - intros e a ts Hg. rewrite slice_end_S. destruct (eat QRsquare ts); [exact Logic.I|].
    apply safe_bind; [apply E1; exact Hg|]. intros q Eq. destruct (eat QRsquare (snd q)); exact Logic.I.
Qed.

Lemma parse_safe ts : plain ts -> ~ In T_NOT ts -> ~ In T_TILDE ts ->
  parse ta ts = Throw \/ exists r, parse ta ts = Ok r.
Proof.
  intros H1 H2 H3.
  pose proof (proj1 (safe_all (8 * S (length ts))) PREC_ASSIGN ts ltac:(unfold PREC_ASSIGN; lia)
    (conj H1 (conj H2 H3))) as H.
  pose proof (parse_not_out ta ts) as Hn. fold (parse ta ts) in H.
  destruct (parse ta ts) as [r| | | | |]; cbn [safe] in H; try contradiction; [right; exists r; reflexivity|left; reflexivity].
Qed.
End S.
