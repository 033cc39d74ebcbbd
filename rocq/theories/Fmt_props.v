(** C36 (round trip), C37, C60: integer formatting and sprintf. *)
From Verif Require Import Base Base_lemmas Strings_model Strings_spec Strings_proof Url_model Fmt_model Fmt_spec Fmt_proof.

(** C36, full statement (for every int n the round trip gives n) is false in two ways:
    the minimum is not formatted as a numeral, and to_int rejects everything above 2147483649. *)
Theorem int_round_trip_refuted :
  exists n s, -9223372036854775808 <= n < 9223372036854775808 /\ itos 64 n = Ok s /\ to_int s = Throw.
Proof. exists 3000000000, (bs "3000000000"). repeat split; try lia; reflexivity. Qed.
Print Assumptions int_round_trip_refuted.

(** C36, what holds.  Missing: magnitudes above 2147483649 (they throw, second theorem) and the
    minimum of the type. *)
Theorem int_round_trip_partial : forall n,
  Z.abs n <= 2147483649 -> exists s, itos 64 n = Ok s /\ to_int s = Ok n.
Proof. intros n H. apply to_int_itos; [cbn; tauto|lia|lia]. Qed.
Print Assumptions int_round_trip_partial.

Theorem int_round_trip_large_throws : forall n,
  - 2 ^ 63 < n < 2 ^ 63 -> 2147483649 < Z.abs n -> exists s, itos 64 n = Ok s /\ to_int s = Throw.
Proof. intros n Hn H. apply to_int_itos_large; [cbn; tauto|exact Hn|exact H]. Qed.
Print Assumptions int_round_trip_large_throws.

Example int_round_trip_example :
  itos 64 (-1200) = Ok (bs "-1200") /\ to_int (bs "-1200") = Ok (-1200).
Proof. split; reflexivity. Qed.

(** C37, full statement is false: the least i8 does not print as "-128", and 0 padded with
    blanks prints no digit. *)
Theorem itos_min_refuted :
  exists s, itos 8 (-128) = Ok s /\ ~ int_numeral s (-128).
Proof.
  exists (bs "-/.("). split; [reflexivity|].
  intros [[H _]|(_ & s' & He & (ds & Hf & _))]; [lia|].
  injection He as <-. inversion Hf as [|c d ? ? Hc]; subst. destruct Hc as [Hc ?]. lia.
Qed.
Print Assumptions itos_min_refuted.

Theorem itos_min_i64_refuted :
  exists s, itos 64 (- 2 ^ 63) = Ok s /\ ~ int_numeral s (- 2 ^ 63).
Proof.
  eexists. split; [vm_compute; reflexivity|].
  intros [[H _]|(_ & s' & He & (ds & Hf & _))]; [lia|].
  injection He as <-. inversion Hf as [|c d ? ? Hc]; subst. destruct Hc as [Hc ?]. lia.
Qed.
Print Assumptions itos_min_i64_refuted.

Theorem itos_blank_zero_refuted :
  exists t, itos_with 64 0 [32] 3 = Ok t /\ ~ exists s, int_numeral s 0 /\ padded 32 3 s t.
Proof.
  exists (bs "   "). split; [reflexivity|]. intros (s & Hs & k & Ht & _).
  apply int_numeral_text in Hs. destruct Hs as (sg & sp & ds & -> & _ & _ & Hne & Hds & _).
  destruct ds as [|d ds _] using rev_ind; [congruence|].
  apply Forall_app in Hds as [_ Hd]. inversion Hd as [|? ? Hdig _]; subst. unfold is_digit in Hdig.
  assert (He : rev (bs "   ") = d :: rev (repeat 32 k ++ sg ++ sp ++ ds)).
  { rewrite Ht. rewrite !app_assoc, rev_app_distr. reflexivity. }
  cbn in He. injection He as He _. lia.
Qed.
Print Assumptions itos_blank_zero_refuted.

(** C37, what holds: every value of every signed type except its minimum, every unsigned value;
    padded to any width up to 255, except 0 padded with blanks.
    Missing: exactly the cases refuted above. *)
Theorem itos_with_numeral_partial : forall w v fill width,
  int_width w -> - 2 ^ (w - 1) < v < 2 ^ (w - 1) -> 0 <= width <= 255 ->
  fill = [32] \/ fill = [48] -> (v <> 0 \/ width = 0 \/ fill = [48]) ->
  exists s t, itos_with w v fill width = Ok t /\ int_numeral s v /\
    ((fill = [32] /\ padded 32 width s t) \/ (fill = [48] /\ zero_padded 48 width s t)).
Proof.
  intros w v fill width Hw Hv Hwd Hf Hok.
  destruct (itos_with_spec w v fill width Hw Hv Hwd) as (s & t & Ht & Hs & Hp).
  - destruct Hok as [?|[?| ->]]; tauto.
  - exists s, t. repeat split; auto. destruct Hf as [->| ->]; cbn in Hp; auto.
Qed.
Print Assumptions itos_with_numeral_partial.

Theorem utos_with_numeral_partial : forall w v fill width,
  int_width w -> 0 <= v < 2 ^ w -> 0 <= width <= 255 ->
  fill = [32] \/ fill = [48] -> (v <> 0 \/ width = 0 \/ fill = [48]) ->
  exists s t, utos_with w v fill width = Ok t /\ numeral 10 dec_char s v /\ padded (hd 0 fill) width s t.
Proof.
  intros w v fill width Hw Hv Hwd Hf Hok.
  pose proof (pow_bound w (int_width_bound w Hw)) as (H1 & H2 & H3).
  unfold utos_with, uwrap. rewrite Z.mod_small by lia.
  destruct (utos_spec v fill width) as (s & t & Ht & Hs & Hp); [lia|lia| |].
  - destruct Hok as [?|[?| ->]]; tauto.
  - exists s, t. repeat split; auto.
Qed.
Print Assumptions utos_with_numeral_partial.

(** Hexadecimal prints the two's-complement value of the type. *)
Theorem hex_numeral_partial : forall w v fill width,
  int_width w -> 0 <= width <= 255 ->
  fill = [32] \/ fill = [48] -> (v mod 2 ^ w <> 0 \/ width = 0 \/ fill = [48]) ->
  exists s t s' t',
    utos_hex_with w v fill width = Ok t /\ numeral 16 lower_hex_char s (v mod 2 ^ w) /\ padded (hd 0 fill) width s t /\
    utos_hex_upper_with w v fill width = Ok t' /\ numeral 16 upper_hex_char s' (v mod 2 ^ w) /\ padded (hd 0 fill) width s' t'.
Proof.
  intros w v fill width Hw Hwd Hf Hok.
  pose proof (pow_bound w (int_width_bound w Hw)) as (H1 & H2 & H3).
  pose proof (Z.mod_pos_bound v (2 ^ w) ltac:(lia)) as Hm.
  assert (Hs : v mod 2 ^ w <> 0 \/ width = 0 \/ ascii1 fill = 48) by (destruct Hok as [?|[?| ->]]; tauto).
  destruct (hex_lo_spec (v mod 2 ^ w) fill width ltac:(lia) Hwd Hs) as (s & t & Ht & Hn & Hp).
  destruct (hex_up_spec (v mod 2 ^ w) fill width ltac:(lia) Hwd Hs) as (s' & t' & Ht' & Hn' & Hp').
  exists s, t, s', t'. repeat split; auto.
Qed.
Print Assumptions hex_numeral_partial.

(** The specification determines the text. *)
Theorem numerals_functional : forall s s' n,
  (int_numeral s n -> int_numeral s' n -> s = s') /\
  (numeral 10 dec_char s n -> numeral 10 dec_char s' n -> s = s') /\
  (numeral 16 lower_hex_char s n -> numeral 16 lower_hex_char s' n -> s = s') /\
  (numeral 16 upper_hex_char s n -> numeral 16 upper_hex_char s' n -> s = s').
Proof.
  intros s s' n. repeat split.
  - apply int_numeral_unique.
  - apply dec_numeral_unique.
  - apply lower_numeral_unique.
  - apply upper_numeral_unique.
Qed.
Print Assumptions numerals_functional.

Example itos_examples :
  itos_with 32 (-42) [48] 6 = Ok (bs "-00042") /\ itos_with 32 (-42) [32] 6 = Ok (bs "   -42") /\
  utos_with 8 200 [32] 2 = Ok (bs "200") /\ utos_hex_with 16 (-1) [48] 8 = Ok (bs "0000ffff") /\
  int_width 32 /\ - 2 ^ (32 - 1) < -42 < 2 ^ (32 - 1).
Proof. repeat split; try reflexivity. right; right; now left. Qed.

(** C60: for every format made of literal text, "%%" and directives with matching arguments,
    sprintf returns the concatenation of the literal text and of what each directive shows.
    [ftos] (the float conversion) is arbitrary.
    Missing: floating-point directives, a precision, the two values C37 excludes, directives
    whose argument has the wrong type. *)
Theorem sprintf_concatenates_partial : forall ftos its args,
  all_printable its args -> Forall item_ok its ->
  exists out, sprintf ftos (concat (map item_text its)) args = Ok out /\ printed its args out.
Proof. exact sprintf_items. Qed.
Print Assumptions sprintf_concatenates_partial.

Example sprintf_example :
  let its := [Lit (bs "x="); Dir true (bs "5") 100; Percent; Dir false [] 115; Dir false (bs "4") 120] in
  let args := [ASigned 64 (-7); AString (bs "hi"); AUnsigned 8 255] in
  concat (map item_text its) = bs "x=%05d%%%s%4x" /\
  all_printable its args /\ Forall item_ok its /\
  sprintf (fun _ _ _ _ _ => []) (bs "x=%05d%%%s%4x") args = Ok (bs "x=-0007%hi  ff").
Proof.
  cbv zeta. split; [reflexivity|]. split; [|split; [|reflexivity]].
  - constructor. constructor.
    { cbn. repeat split; try tauto; try lia. }
    constructor. constructor; [cbn; tauto|]. constructor.
    { cbn. repeat split; try tauto; try lia. }
    constructor.
  - repeat apply Forall_cons; try apply Forall_nil; cbn; unfold digit_text.
    + intros H. repeat (destruct H as [H|H]; try discriminate H). contradiction.
    + split; [apply Forall_cons; [lia|apply Forall_nil]|]; split; [lia|split; [tauto|discriminate]].
    + exact I.
    + split; [apply Forall_nil|]; split; [lia|split; [tauto|lia]].
    + split; [apply Forall_cons; [lia|apply Forall_nil]|]; split; [lia|split; [tauto|lia]].
Qed.

(** A format that ends inside a directive makes sprintf panic (index out of range). *)
Theorem sprintf_total_refuted : forall ftos, sprintf ftos (bs "%5") [] = Panic.
Proof. reflexivity. Qed.
Print Assumptions sprintf_total_refuted.
