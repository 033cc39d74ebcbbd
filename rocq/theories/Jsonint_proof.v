(** Integers up to 2^53 in absolute value survive the way through f64. *)
From Coq Require Import Reals Lra.
From Flocq Require Import Core IEEE754.BinarySingleNaN.
From Verif Require Import Base Base_lemmas Fmt_model Fmt_spec Fmt_proof Json_model Json_spec Json_number_proof Jsonint_model.
Local Open Scope Z_scope.

Definition small (n : Z) : Prop := Z.abs n <= 2 ^ 53.

(** [x] is the number [n]. *)
Definition is_int (x : f64) (n : Z) : Prop := is_finite x = true /\ B2R x = IZR n.

Lemma small_format n : small n -> generic_format radix2 (SpecFloat.fexp 53 1024) (IZR n).
Proof.
  intro S. change (SpecFloat.fexp 53 1024) with (FLT_exp (-1074) 53). apply generic_format_FLT.
  destruct (Z.eq_dec (Z.abs n) (2 ^ 53)) as [E|E].
  - exists (Float radix2 (Z.sgn n) 53).
    + unfold F2R. cbn [Fnum Fexp]. change (bpow radix2 53) with (IZR (2 ^ 53)). rewrite <- mult_IZR. f_equal. lia.
    + cbn [Fnum]. change (Zpower radix2 53) with (2 ^ 53). lia.
    + cbn [Fexp]. lia.
  - exists (Float radix2 n 0).
    + unfold F2R. cbn [Fnum Fexp]. cbn. lra.
    + cbn [Fnum]. change (Zpower radix2 53) with (2 ^ 53). unfold small in S. lia.
    + cbn [Fexp]. lia.
Qed.

Lemma small_round n : small n -> round radix2 (SpecFloat.fexp 53 1024) (round_mode mode_NE) (IZR n) = IZR n.
Proof. intro S. apply round_generic; [apply valid_rnd_round_mode|now apply small_format]. Qed.

Lemma small_lt n : small n -> Rlt_bool (Rabs (IZR n)) (bpow radix2 1024) = true.
Proof.
  intro S. apply Rlt_bool_true. rewrite <- abs_IZR. apply Rle_lt_trans with (IZR (2 ^ 53)); [now apply IZR_le|].
  change (IZR (2 ^ 53)) with (bpow radix2 53). apply bpow_lt. lia.
Qed.

Lemma of_int_is n : small n -> is_int (of_int n) n.
Proof.
  intro S. pose proof (binary_normalize_correct 53 1024 prec_gt_0 prec_lt_emax mode_NE n 0 false) as K. cbv zeta in K.
  replace (F2R {| Fnum := n; Fexp := 0 |}) with (IZR n) in K by (unfold F2R; cbn; lra).
  rewrite small_round, small_lt in K by exact S. destruct K as (A & B & _). split; assumption.
Qed.

Lemma mul_is a b x y : is_int a x -> is_int b y -> small (x * y) -> is_int (f_mul a b) (x * y).
Proof.
  intros [Fa Ra] [Fb Rb] S. pose proof (Bmult_correct 53 1024 prec_gt_0 prec_lt_emax mode_NE a b) as K.
  rewrite Ra, Rb, <- mult_IZR in K. rewrite small_round, small_lt in K by exact S. destruct K as (A & B & _).
  split; [|exact A]. change (f_mul a b) with (Bmult mode_NE a b). rewrite B, Fa, Fb. reflexivity.
Qed.

Lemma add_is a b x y : is_int a x -> is_int b y -> small (x + y) -> is_int (f_add a b) (x + y).
Proof.
  intros [Fa Ra] [Fb Rb] S. pose proof (Bplus_correct 53 1024 prec_gt_0 prec_lt_emax mode_NE a b Fa Fb) as K.
  rewrite Ra, Rb, <- plus_IZR in K. rewrite small_round, small_lt in K by exact S. destruct K as (A & B & _).
  split; assumption.
Qed.

Lemma opp_is a x : is_int a x -> is_int (Bopp a) (- x).
Proof. intros [Fa Ra]. split; [now rewrite is_finite_Bopp|]. now rewrite B2R_Bopp, Ra, opp_IZR. Qed.

Lemma trunc_is a x : is_int a x -> Btrunc a = x.
Proof.
  intros [Fa Ra]. apply eq_IZR. rewrite (Btrunc_correct 53 1024 prec_lt_emax), Ra. apply round_generic; [apply valid_rnd_ZR|].
  apply generic_format_FIX. exists (Float radix2 x 0); [unfold F2R; cbn; lra|reflexivity].
Qed.

Lemma as_is (signed : bool) w a x : is_int a x ->
  (if signed : bool then - 2 ^ (w - 1) <= x < 2 ^ (w - 1) else 0 <= x < 2 ^ w) -> f64_as signed w a = Ok x.
Proof.
  intros I R. unfold f64_as. rewrite (trunc_is a x I). destruct I as [-> _]. cbv zeta. destruct signed.
  - destruct (Z.leb_spec (- 2 ^ (w - 1)) x); [|lia]. destruct (Z.ltb_spec x (2 ^ (w - 1))); [|lia]. reflexivity.
  - destruct (Z.leb_spec 0 x); [|lia]. destruct (Z.ltb_spec x (2 ^ w)); [|lia]. reflexivity.
Qed.

(** ** The digits of a numeral *)

Lemma value_in_mono ds : Forall (fun d => 0 <= d <= 9) ds -> forall a, 0 <= a -> a <= fold_left (fun a d => 10 * a + d) ds a.
Proof.
  induction 1 as [|d ds D F IH]; intros a A; cbn [fold_left]; [lia|]. specialize (IH (10 * a + d)). lia.
Qed.

Lemma dec_digits s ds : Forall2 dec_char s ds -> Forall (fun d => 0 <= d <= 9) ds.
Proof. induction 1 as [|c d s ds C F IH]; constructor; [apply C|exact IH]. Qed.

Lemma digit_loop_is s ds rest : Forall2 dec_char s ds -> (forall c r, rest = c :: r -> Json_model.is_digit c = false) ->
  forall a x, is_int a x -> 0 <= x -> fold_left (fun a d => 10 * a + d) ds x <= 2 ^ 53 ->
  exists f, digit_loop (s ++ rest) a = (f, rest) /\ is_int f (fold_left (fun a d => 10 * a + d) ds x).
Proof.
  intros F R. induction F as [|c d s ds [-> D] F IH]; intros a x I X B; cbn [fold_left app].
  - exists a. split; [|exact I]. destruct rest as [|c r]; [reflexivity|]. cbn [digit_loop]. now rewrite (R c r eq_refl).
  - cbn [fold_left] in B. pose proof (value_in_mono ds (dec_digits _ _ F) (10 * x + d) ltac:(lia)) as M.
    cbn [digit_loop]. replace (Json_model.is_digit (48 + d)) with true by (unfold Json_model.is_digit; lia).
    apply IH; [|lia|exact B].
    replace (10 * x + d) with (x * 10 + (48 + d - 48)) by lia.
    apply add_is; [apply mul_is; [exact I|apply of_int_is; unfold small; lia|unfold small; lia]|apply of_int_is; unfold small; lia|unfold small; lia].
Qed.

Lemma parser_number_is s n : numeral 10 dec_char s n -> 0 <= n <= 2 ^ 53 -> forall neg,
  exists f, parser_number ((if neg : bool then [45] else []) ++ s) = Ok (f, []) /\ is_int f (if neg then - n else n).
Proof.
  intros (ds & F & Ne & V & H) B neg.
  assert (Hd : exists c d s' ds', s = c :: s' /\ ds = d :: ds' /\ dec_char c d /\ Forall2 dec_char s' ds').
  { destruct F as [|c d s ds C F]; [contradiction|]. exists c, d, s, ds. auto. }
  destruct Hd as (c & d & s' & ds' & Es & Ed & [Ec D] & F').
  assert (W : skip_whitespace ((if neg : bool then [45] else []) ++ s) = (if neg : bool then [45] else []) ++ s).
  { rewrite Es. destruct neg; cbn [app]; [reflexivity|]. cbn [skip_whitespace]. destruct (_ || _) eqn:Q; [lia|reflexivity]. }
  assert (Cn : consume [45] ((if neg : bool then [45] else []) ++ s) = Ok (neg, s)).
  { unfold consume. rewrite W. cbv zeta. destruct neg; cbn [app].
    - rewrite !zlen_cons, zlen_nil. pose proof (zlen_nonneg s).
      destruct (Z.ltb_spec (1 + zlen s) (1 + 0)); [lia|]. reflexivity.
    - rewrite Es. rewrite !zlen_cons, zlen_nil. pose proof (zlen_nonneg s').
      destruct (Z.ltb_spec (1 + zlen s') (1 + 0)); [lia|]. cbn [same_bytes]. destruct (Z.eqb_spec c 45); [lia|]. reflexivity. }
  unfold parser_number. rewrite W, Cn. cbn [bind].
  assert (Dg : Json_model.is_digit c = true) by (unfold Json_model.is_digit; lia).
  assert (K : exists f, (if c =? 48 then
              match s' with
              | d :: _ => if Json_model.is_digit d then Throw
                          else Ok (f_add (f_mul (of_int 0) (of_int 10)) (of_int (c - 48)), s')
              | [] => Ok (f_add (f_mul (of_int 0) (of_int 10)) (of_int (c - 48)), s')
              end
            else Ok (digit_loop (c :: s') (of_int 0))) = Ok (f, []) /\ is_int f n).
  { destruct (Z.eqb_spec c 48) as [C0|C0].
    - destruct H as [H|H]; [rewrite Ed in H; cbn [hd] in H; lia|]. rewrite H in F, Ed, V. injection Ed as Ed0 Ed1. rewrite <- Ed1 in F'. inversion F'; subst s'.
      eexists. split; [reflexivity|]. clear Ec. rewrite <- V, C0.
      change (value_in 10 [0]) with (0 * 10 + (48 - 48)). apply add_is; [apply mul_is|..]; try apply of_int_is; unfold small; lia.
    - destruct (digit_loop_is s ds [] F ltac:(discriminate) (of_int 0) 0) as (f & E & I); [apply of_int_is; unfold small; lia|lia|fold (value_in 10 ds); lia|].
      rewrite app_nil_r in E. rewrite <- Es, E. exists f. split; [reflexivity|]. fold (value_in 10 ds) in I. now rewrite V in I. }
  destruct K as (f & K & I). rewrite Es. rewrite Dg. rewrite K. cbn [bind fraction exponent].
  destruct neg; eexists; (split; [reflexivity|]); [now apply opp_is|exact I].
Qed.

(** ** What serialize writes *)

Lemma printed_one zero width conv arg out : printed [Dir zero width conv] [arg] out -> shown zero (digit_value width) conv arg out.
Proof. intro P. inversion P as [| | |? ? ? ? ? ? o out' Sh P']; subst. inversion P'; subst. now rewrite app_nil_r. Qed.

Lemma padded_zero c s t : padded c 0 s t -> t = s.
Proof. intros (k & -> & K). pose proof (zlen_nonneg s). destruct k; [reflexivity|lia]. Qed.

Lemma serialize_signed w n : int_width w -> - 2 ^ (w - 1) < n < 2 ^ (w - 1) ->
  exists s, serialize_int true w n = Ok s /\ int_numeral s n.
Proof.
  intros W N. destruct (sprintf_items no_float [Dir false [] 100] [ASigned w n]) as (out & E & P).
  - constructor; [|constructor]. cbn [printable]. repeat split; try tauto; try lia; cbn; tauto.
  - constructor; [|constructor]. cbn. repeat split; try tauto; try lia; constructor.
  - apply printed_one in P. cbn [shown] in P. destruct P as [(_ & s & Hs & Pd)|[(Q & _)|[(Q & _)|(Q & _)]]]; try lia.
    apply padded_zero in Pd. subst out. exists s. split; [exact E|exact Hs].
Qed.

Lemma serialize_unsigned w n : int_width w -> 0 <= n < 2 ^ w ->
  exists s, serialize_int false w n = Ok s /\ numeral 10 dec_char s n.
Proof.
  intros W N. destruct (sprintf_items no_float [Dir false [] 100] [AUnsigned w n]) as (out & E & P).
  - constructor; [|constructor]. cbn [printable]. repeat split; try tauto; try lia; cbn; tauto.
  - constructor; [|constructor]. cbn. repeat split; try tauto; try lia; constructor.
  - apply printed_one in P. cbn [shown] in P. destruct P as [(_ & s & Hs & Pd)|[(Q & _)|[(Q & _)|[(Q & _)|(Q & _)]]]]; try lia.
    apply padded_zero in Pd. subst out. exists s. split; [exact E|exact Hs].
Qed.

Lemma numeral_len s n : numeral 10 dec_char s n -> 0 <= n <= 2 ^ 53 -> zlen s <= 17.
Proof.
  intros (ds & F & Ne & V & H) B. assert (L : length s = length ds) by (clear - F; induction F; cbn; congruence).
  unfold zlen. rewrite L. pose proof (dec_digits _ _ F) as D. clear F L.
  destruct H as [H| ->]; [|cbn; lia]. destruct ds as [|d ds]; [contradiction|]. cbn [hd] in H.
  inversion D as [|? ? D0 D1]; subst. unfold value_in in B. cbn [fold_left] in B.
  assert (M : forall l, Forall (fun d => 0 <= d <= 9) l -> forall a, 1 <= a -> 10 ^ Z.of_nat (length l) * a <= fold_left (fun a d => 10 * a + d) l a).
  { clear. induction 1 as [|x l X Fl IH]; intros a A; cbn [fold_left length]; [change (Z.of_nat 0) with 0; rewrite Z.pow_0_r; lia|].
    specialize (IH (10 * a + x) ltac:(lia)). rewrite Nat2Z.inj_succ, Z.pow_succ_r by lia.
    pose proof (Z.pow_nonneg 10 (Z.of_nat (length l)) ltac:(lia)). nia. }
  specialize (M ds D1 (10 * 0 + d) ltac:(lia)). cbn [length]. rewrite Nat2Z.inj_succ.
  destruct (Z_le_dec (Z.of_nat (length ds)) 16); [lia|].
  assert (10 ^ 17 <= 10 ^ Z.of_nat (length ds)) by (apply Z.pow_le_mono_r; lia).
  assert (2 ^ 53 < 10 ^ 17) by reflexivity. nia.
Qed.

Lemma skip_ws_minus neg c s : (neg : bool) = true \/ 48 <= c <= 57 ->
  skip_whitespace ((if neg then [45] else []) ++ c :: s) = (if neg then [45] else []) ++ c :: s.
Proof.
  intro H. destruct neg; cbn [app skip_whitespace]; [reflexivity|]. destruct (_ || _) eqn:Q; [lia|reflexivity].
Qed.

Lemma deserialize_numeral signed w s n neg : numeral 10 dec_char s n -> 0 <= n <= 2 ^ 53 ->
  (let x := if neg : bool then - n else n in if signed : bool then - 2 ^ (w - 1) <= x < 2 ^ (w - 1) else 0 <= x < 2 ^ w) ->
  deserialize_int signed w ((if neg then [45] else []) ++ s) = Ok (if neg then - n else n).
Proof.
  intros N B R. unfold deserialize_int. pose proof (numeral_len s n N B) as L.
  destruct (Z.ltb_spec DEFAULT_MAX_BYTES (zlen ((if neg then [45] else []) ++ s))) as [Q|_].
  { rewrite zlen_app in Q. unfold DEFAULT_MAX_BYTES in Q. destruct neg; rewrite ?zlen_cons, ?zlen_nil in Q; lia. }
  assert (Hs : exists c s', s = c :: s' /\ 48 <= c <= 57).
  { destruct N as (ds & F & Ne & _). destruct F as [|c d s ds [-> C] F]; [contradiction|]. exists (48 + d), s. split; [reflexivity|lia]. }
  destruct Hs as (c & s' & -> & C). rewrite skip_ws_minus by auto.
  destruct (parser_number_is _ n N B neg) as (f & E & I). rewrite E. cbn [bind].
  rewrite (as_is signed w f _ I R). reflexivity.
Qed.
