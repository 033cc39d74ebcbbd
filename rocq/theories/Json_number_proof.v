(** parser_number_token accepts exactly the numbers of the grammar. *)
From Verif Require Import Base Base_lemmas Json_type Json_spec Json_model.

(** ** White space *)

Definition starts (P : Z -> Prop) (s : list Z) : Prop := exists c r, s = c :: r /\ P c.
Definition no_start (P : Z -> Prop) (s : list Z) : Prop := forall c r, s = c :: r -> ~ P c.

Lemma space_eq c : ((c =? 32) || (c =? 9) || (c =? 10) || (c =? 13)) = true <-> space c.
Proof. unfold space. lia. Qed.

Lemma skip_ws w s : ws w -> no_start space s -> skip_whitespace (w ++ s) = s.
Proof.
  induction 1 as [|c w C W IH]; intro N.
  - cbn [app]. destruct s as [|c s]; [reflexivity|]. cbn [skip_whitespace].
    destruct ((c =? 32) || (c =? 9) || (c =? 10) || (c =? 13)) eqn:E; [|reflexivity].
    apply space_eq in E. now destruct (N c s eq_refl).
  - cbn [app skip_whitespace]. apply space_eq in C. rewrite C. now apply IH.
Qed.

Lemma skip_ws_spec s : exists w, s = w ++ skip_whitespace s /\ ws w /\ no_start space (skip_whitespace s).
Proof.
  induction s as [|c s (w & E & W & N)].
  - exists []. split; [reflexivity|]. split; [constructor|]. intros c r Q. discriminate Q.
  - cbn [skip_whitespace]. destruct ((c =? 32) || (c =? 9) || (c =? 10) || (c =? 13)) eqn:Q.
    + exists (c :: w). split; [cbn [app]; now f_equal|]. split; [|exact N]. constructor; [now apply space_eq|exact W].
    + exists []. split; [reflexivity|]. split; [constructor|]. intros c' r X. injection X as <- <-.
      intro C. apply space_eq in C. congruence.
Qed.

Lemma skip_ws_le s : (length (skip_whitespace s) <= length s)%nat.
Proof. destruct (skip_ws_spec s) as (w & E & _). rewrite E at 2. rewrite app_length. lia. Qed.

Lemma skip_ws_id s : no_start space s -> skip_whitespace s = s.
Proof. intro N. apply (skip_ws [] s); [constructor|exact N]. Qed.

(** ** Digits *)

Lemma is_digit_eq c : is_digit c = true <-> digit c.
Proof. unfold is_digit, digit. lia. Qed.

Lemma skip_digits_app ds s : Forall digit ds -> no_start digit s -> skip_digits (ds ++ s) = s.
Proof.
  induction 1 as [|c ds C D IH]; intro N.
  - cbn [app]. destruct s as [|c s]; [reflexivity|]. cbn [skip_digits]. destruct (is_digit c) eqn:E; [|reflexivity].
    apply is_digit_eq in E. now destruct (N c s eq_refl).
  - cbn [app skip_digits]. apply is_digit_eq in C. rewrite C. now apply IH.
Qed.

Lemma skip_digits_spec s : exists ds, s = ds ++ skip_digits s /\ Forall digit ds /\ no_start digit (skip_digits s).
Proof.
  induction s as [|c s (w & E & W & N)].
  - exists []. split; [reflexivity|]. split; [constructor|]. intros c r Q. discriminate Q.
  - cbn [skip_digits]. destruct (is_digit c) eqn:Q.
    + exists (c :: w). split; [cbn [app]; now f_equal|]. split; [|exact N]. constructor; [now apply is_digit_eq|exact W].
    + exists []. split; [reflexivity|]. split; [constructor|]. intros c' r X. injection X as <- <-.
      intro C. apply is_digit_eq in C. congruence.
Qed.

Lemma skip_digits_some d s : is_digit d = true -> exists ds, d :: s = ds ++ skip_digits (d :: s) /\ digits ds /\ no_start digit (skip_digits (d :: s)).
Proof.
  intro D. destruct (skip_digits_spec (d :: s)) as (ds & E & F & N). exists ds. split; [exact E|]. split; [|exact N].
  split; [|exact F]. intros ->. cbn [app] in E. symmetry in E. apply (N d s E). now apply is_digit_eq.
Qed.

(** ** The three parts *)

(** A byte that could go on a number. *)
Definition numeric (c : Z) : Prop := digit c \/ c = 46 \/ c = 101 \/ c = 69.

Definition int_part (int : list Z) : Prop :=
  int = [48] \/ exists d ds, int = d :: ds /\ 49 <= d <= 57 /\ Forall digit ds.
Definition frac_part (frac : list Z) : Prop := frac = [] \/ exists ds, frac = 46 :: ds /\ digits ds.
Definition exp_part (exp : list Z) : Prop :=
  exp = [] \/ exists e sg ds, exp = e :: sg ++ ds /\ (e = 101 \/ e = 69) /\
                   (sg = [] \/ sg = [43] \/ sg = [45]) /\ digits ds.

Lemma integer_complete int s : int_part int -> no_start digit s -> number_integer (int ++ s) = Ok s.
Proof.
  intros [->|(d & ds & -> & D & F)] N.
  - cbn [app number_integer Z.eqb Pos.eqb]. destruct s as [|c s]; [reflexivity|].
    destruct (is_digit c) eqn:E; [|reflexivity]. apply is_digit_eq in E. now destruct (N c s eq_refl).
  - cbn [app number_integer]. destruct (Z.eqb_spec d 48); [lia|]. replace ((49 <=? d) && (d <=? 57)) with true by lia.
    f_equal. change (d :: ds ++ s) with ((d :: ds) ++ s). apply skip_digits_app; [|exact N]. constructor; [unfold digit; lia|exact F].
Qed.

Lemma integer_sound s : number_integer s = Throw \/
  exists int r, s = int ++ r /\ int_part int /\ no_start digit r /\ number_integer s = Ok r.
Proof.
  destruct s as [|c s]; [now left|]. cbn [number_integer]. destruct (Z.eqb_spec c 48) as [->|N].
  - destruct s as [|d s].
    + right. exists [48], []. split; [reflexivity|]. split; [now left|]. split; [intros ? ? Q; discriminate Q|reflexivity].
    + destruct (is_digit d) eqn:D; [now left|]. right. exists [48], (d :: s). split; [reflexivity|]. split; [now left|].
      split; [|reflexivity]. intros c r Q C. injection Q as <- _. apply is_digit_eq in C. congruence.
  - destruct ((49 <=? c) && (c <=? 57)) eqn:D; [|now left]. right.
    assert (Dc : is_digit c = true) by (unfold is_digit; lia).
    cbn [skip_digits]. rewrite Dc. destruct (skip_digits_spec s) as (ds & E & F & Nd).
    exists (c :: ds), (skip_digits s). split; [cbn [app]; now f_equal|]. split; [|auto].
    right. exists c, ds. split; [reflexivity|]. split; [lia|exact F].
Qed.

Lemma fraction_complete frac s : frac_part frac -> no_start digit s -> (frac = [] -> no_start (fun c => c = 46) s) ->
  number_fraction (frac ++ s) = Ok s.
Proof.
  intros [->|(ds & -> & D)] N X.
  - cbn [app]. unfold number_fraction. destruct s as [|c s]; [reflexivity|].
    destruct (Z.eqb_spec c 46); [now destruct (X eq_refl c s eq_refl)|reflexivity].
  - cbn [app number_fraction Z.eqb Pos.eqb]. destruct D as [Dn D]. destruct ds as [|d ds]; [contradiction|].
    cbn [app]. inversion D as [|? ? Dd Ds]; subst. apply is_digit_eq in Dd as Dd'. rewrite Dd'.
    f_equal. change (d :: ds ++ s) with ((d :: ds) ++ s). now apply skip_digits_app.
Qed.

Lemma fraction_sound s : no_start digit s -> number_fraction s = Throw \/
  exists frac r, s = frac ++ r /\ frac_part frac /\ no_start digit r /\ (frac = [] -> no_start (fun c => c = 46) r) /\ number_fraction s = Ok r.
Proof.
  intro N. destruct s as [|c s].
  - right. exists [], []. repeat split; auto; [now left|intros ? ? ? Q; discriminate Q].
  - cbn [number_fraction]. destruct (Z.eqb_spec c 46) as [->|E].
    + destruct s as [|d s]; [now left|]. destruct (is_digit d) eqn:D; [|now left]. right.
      destruct (skip_digits_some d s D) as (ds & Q & F & Nd). exists (46 :: ds), (skip_digits (d :: s)).
      split; [cbn [app]; now f_equal|]. split; [right; now exists ds|]. split; [exact Nd|]. split; [discriminate|reflexivity].
    + right. exists [], (c :: s). split; [reflexivity|]. split; [now left|]. split; [exact N|]. split; [|reflexivity].
      intros _ x r Q. injection Q as <- _. exact E.
Qed.

Lemma exponent_complete exp s : exp_part exp -> no_start digit s -> (exp = [] -> no_start (fun c => c = 101 \/ c = 69) s) ->
  number_exponent (exp ++ s) = Ok s.
Proof.
  intros [->|(e & sg & ds & -> & E & Sg & Dn & D)] N X.
  - cbn [app]. unfold number_exponent. destruct s as [|c s]; [reflexivity|].
    destruct ((c =? 101) || (c =? 69)) eqn:Q; [|reflexivity]. exfalso. apply (X eq_refl c s eq_refl). lia.
  - cbn [app]. unfold number_exponent. replace ((e =? 101) || (e =? 69)) with true by lia.
    destruct ds as [|d ds]; [contradiction|]. inversion D as [|? ? Dd Ds]; subst. apply is_digit_eq in Dd as Dd'.
    assert (K : forall l, l = (d :: ds) ++ s -> match l with [] => Throw | d0 :: _ => if is_digit d0 then Ok (skip_digits l) else Throw end = Ok s).
    { intros l ->. cbn [app]. rewrite Dd'. f_equal. change (d :: ds ++ s) with ((d :: ds) ++ s). now apply skip_digits_app. }
    destruct Sg as [->|[->| ->]]; cbn [app].
    + unfold digit in Dd. replace ((d =? 43) || (d =? 45)) with false by lia. exact (K _ eq_refl).
    + cbn [Z.eqb Pos.eqb orb]. exact (K _ eq_refl).
    + cbn [Z.eqb Pos.eqb orb]. exact (K _ eq_refl).
Qed.

Lemma exponent_sound s : no_start digit s -> number_exponent s = Throw \/
  exists exp r, s = exp ++ r /\ exp_part exp /\ no_start digit r /\ (exp = [] -> no_start (fun c => c = 101 \/ c = 69) r) /\ number_exponent s = Ok r.
Proof.
  intro N. destruct s as [|c s].
  - right. exists [], []. repeat split; auto; [now left|intros ? ? ? Q; discriminate Q].
  - unfold number_exponent. destruct ((c =? 101) || (c =? 69)) eqn:E.
    + set (l := match s with [] => s | x :: rest' => if (x =? 43) || (x =? 45) then rest' else s end).
      assert (K : exists sg, s = sg ++ l /\ (sg = [] \/ sg = [43] \/ sg = [45])).
      { unfold l. destruct s as [|x s]; [exists []; auto|]. destruct ((x =? 43) || (x =? 45)) eqn:Q; [|exists []; auto].
        exists [x]. split; [reflexivity|]. assert (x = 43 \/ x = 45) as [->| ->] by lia; auto. }
      clearbody l. destruct K as (sg & -> & Sg). destruct l as [|d l]; [now left|]. destruct (is_digit d) eqn:D; [|now left]. right.
      destruct (skip_digits_some d l D) as (ds & Q & F & Nd). exists (c :: sg ++ ds), (skip_digits (d :: l)).
      split; [cbn [app]; rewrite <- app_assoc; now rewrite <- Q|]. split; [|split; [exact Nd|split; [discriminate|reflexivity]]].
      right. exists c, sg, ds. split; [reflexivity|]. split; [lia|]. auto.
    + right. exists [], (c :: s). split; [reflexivity|]. split; [now left|]. split; [exact N|]. split; [|reflexivity].
      intros _ x r Q. injection Q as <- _. lia.
Qed.

(** ** The whole number *)

Definition unsign (s : list Z) : list Z := match s with c :: rest => if c =? 45 then rest else s | [] => s end.

Lemma token_slice (t rest : list Z) : slice (t ++ rest) 0 (zlen (t ++ rest) - zlen rest) = Ok t.
Proof. rewrite zlen_app. replace (zlen t + zlen rest - zlen rest) with (zlen t) by lia. apply slice_head. Qed.

Lemma number_start t : number t -> starts (fun c => c = 45 \/ digit c) t.
Proof.
  intros [sign int frac exp [->| ->] I _ _]; cbn [app].
  - destruct I as [->|(d & ds & -> & D & _)]; cbn [app]; eexists; eexists; (split; [reflexivity|]); right; unfold digit; lia.
  - eexists; eexists; (split; [reflexivity|]). now left.
Qed.

Lemma start_weaken (P Q : Z -> Prop) s : (forall c, P c -> Q c) -> no_start Q s -> no_start P s.
Proof. intros H N c r E X. apply (N c r E). auto. Qed.

Lemma no_start_app (P : Z -> Prop) a s : no_start P s -> (forall c r, a = c :: r -> ~ P c) -> no_start P (a ++ s).
Proof. intros N H c r E. destruct a as [|x a]; cbn [app] in E; [now apply (N c r)|]. injection E as <- _. now apply (H x a). Qed.

Theorem number_complete w t rest : ws w -> number t -> no_start numeric rest ->
  parser_number_token (w ++ t ++ rest) = Ok (t, rest).
Proof.
  intros W Nt R. unfold parser_number_token.
  assert (St : skip_whitespace (w ++ t ++ rest) = t ++ rest).
  { apply skip_ws; [exact W|]. destruct (number_start t Nt) as (c & r & -> & C). intros x r' E. cbn [app] in E. injection E as <- _.
    unfold space, digit in *. lia. }
  rewrite St. pose proof (token_slice t rest) as Sl.
  assert (Nt' : exists sign int frac exp, t = sign ++ int ++ frac ++ exp /\ (sign = [] \/ sign = [45]) /\ int_part int /\ frac_part frac /\ exp_part exp) by (destruct Nt as [sign int frac exp Sg I F X]; exists sign, int, frac, exp; auto 10).
  destruct Nt' as (sign & int & frac & exp & E & Sg & I & F & X).
  assert (U : match t ++ rest with [] => t ++ rest | c :: rest0 => if c =? 45 then rest0 else t ++ rest end = int ++ frac ++ exp ++ rest).
  { rewrite E. destruct Sg as [->| ->]; cbn [app]; rewrite <- !app_assoc.
    - destruct I as [->|(d & ds & -> & D & _)]; [reflexivity|]. cbn [app]. destruct (Z.eqb_spec d 45); [lia|reflexivity].
    - reflexivity. }
  cbv zeta. rewrite U. clear U E.
  assert (Rd : no_start digit rest) by (eapply start_weaken; [|exact R]; unfold numeric; auto).
  assert (Nx : forall P : Z -> Prop, (forall c, P c -> digit c \/ c = 46) -> no_start P rest -> no_start P (exp ++ rest)).
  { intros P HP NP. apply no_start_app; [exact NP|]. intros c r Q C. apply HP in C.
    destruct X as [->|(e & sg & ds & -> & Ee & _)]; [discriminate Q|]. injection Q as Q _. subst c. unfold digit in C. lia. }
  assert (Nf : no_start digit (frac ++ exp ++ rest)).
  { apply no_start_app; [apply Nx; auto|]. intros c r Q C. destruct F as [->|(ds & -> & _)]; [discriminate Q|]. injection Q as Q _. subst c. unfold digit in C. lia. }
  rewrite integer_complete by assumption. cbn [bind].
  rewrite fraction_complete; [|exact F|apply Nx; auto|].
  2:{ intros ->. apply Nx; [auto|]. eapply start_weaken; [|exact R]. unfold numeric. auto. }
  cbn [bind]. rewrite exponent_complete; [|exact X|exact Rd|].
  2:{ intros _. eapply start_weaken; [|exact R]. unfold numeric. tauto. }
  cbn [bind]. rewrite Sl. reflexivity.
Qed.

Theorem number_sound data : parser_number_token data = Throw \/
  exists w t rest, data = w ++ t ++ rest /\ ws w /\ number t /\ no_start digit rest /\ parser_number_token data = Ok (t, rest).
Proof.
  unfold parser_number_token. destruct (skip_ws_spec data) as (w & E & W & N).
  set (start := skip_whitespace data) in *.
  set (d := match start with [] => start | c :: rest => if c =? 45 then rest else start end).
  assert (Sg : exists sign, start = sign ++ d /\ (sign = [] \/ sign = [45])).
  { unfold d. destruct start as [|c r]; [exists []; auto|]. destruct (Z.eqb_spec c 45); [subst; exists [45]; auto|exists []; auto]. }
  clearbody start d. destruct Sg as (sign & -> & Sg).
  destruct (integer_sound d) as [->|(int & r1 & -> & I & N1 & ->)]; [now left|]. cbn [bind].
  destruct (fraction_sound r1 N1) as [->|(frac & r2 & -> & F & N2 & _ & ->)]; [now left|]. cbn [bind].
  destruct (exponent_sound r2 N2) as [->|(exp & r3 & -> & X & N3 & _ & ->)]; [now left|]. cbn [bind].
  right. exists w, (sign ++ int ++ frac ++ exp), r3.
  assert (Q : sign ++ int ++ frac ++ exp ++ r3 = (sign ++ int ++ frac ++ exp) ++ r3) by (now rewrite <- !app_assoc).
  rewrite Q in E |- *. split; [exact E|]. split; [exact W|]. split; [now constructor|]. split; [exact N3|].
  now rewrite token_slice.
Qed.
