(** Properties of std/strings: C33 (search), C34 (replace), C35 (split/join),
    C36 (to_int, parsing half), C38 (trim, case, reverse). *)
From Verif Require Import Base Strings_model Strings_spec Strings_proof.

(** C33, full statement (false of the code): for every non-empty t, find s t returns the
    first occurrence of t in s.  Witness: s = "a\0bc", t = "bc" occurs at 2, find says -1. *)
Definition find_correct_full : Prop :=
  forall s t, bytes s -> bytes t -> t <> [] ->
    exists i, find s t = Ok i /\ first_occurrence t s 0 i.

Theorem find_first_occurrence_refuted :
  exists s t, bytes s /\ bytes t /\ t <> [] /\ find s t = Ok (-1) /\ occurs_at t s 2.
Proof.
  exists [97; 0; 98; 99], [98; 99].
  repeat split; try (repeat constructor; unfold is_byte; lia); try discriminate.
  now exists [97; 0], [].
Qed.
Print Assumptions find_first_occurrence_refuted.

(** C33, what holds: NUL-free strings, or a one-byte pattern in any string.
    Missing: patterns of two or more bytes when either string contains a NUL byte. *)
Theorem find_after_first_occurrence_partial : forall s t after,
  t <> [] -> 0 <= after <= zlen s -> (zlen t = 1 \/ (nul_free s /\ nul_free t)) ->
  exists i, find_after s t after = Ok i /\ first_occurrence t s after i.
Proof. exact find_after_spec. Qed.
Print Assumptions find_after_first_occurrence_partial.

Example find_after_example :
  find_after (bs "abcabc") (bs "bc") 2 = Ok 4 /\ nul_free (bs "abcabc") /\ nul_free (bs "bc").
Proof. repeat split; cbv; intuition discriminate. Qed.

Theorem find_first_occurrence_partial : forall s t,
  t <> [] -> (zlen t = 1 \/ (nul_free s /\ nul_free t)) ->
  exists i, find s t = Ok i /\ first_occurrence t s 0 i.
Proof. exact find_spec. Qed.
Print Assumptions find_first_occurrence_partial.

Theorem contains_iff_occurs_partial : forall s t,
  t <> [] -> (zlen t = 1 \/ (nul_free s /\ nul_free t)) ->
  exists b, contains s t = Ok b /\ (b = true <-> exists i, occurs_at t s i).
Proof. exact contains_spec. Qed.
Print Assumptions contains_iff_occurs_partial.

Example contains_example : contains (bs "hello world") (bs "o w") = Ok true
  /\ contains (bs "hello") (bs "xy") = Ok false.
Proof. split; reflexivity. Qed.

Theorem starts_with_iff_prefix : forall s t,
  exists b, starts_with s t = Ok b /\ (b = true <-> exists r, s = t ++ r).
Proof. exact starts_with_spec. Qed.
Print Assumptions starts_with_iff_prefix.

Theorem ends_with_iff_suffix : forall s t,
  exists b, ends_with s t = Ok b /\ (b = true <-> exists r, s = r ++ t).
Proof. exact ends_with_spec. Qed.
Print Assumptions ends_with_iff_suffix.

Theorem rfind_last_occurrence : forall s t,
  t <> [] -> exists i, rfind s t = Ok i /\ last_occurrence t s i.
Proof. exact rfind_spec. Qed.
Print Assumptions rfind_last_occurrence.

Example rfind_example : rfind (bs "a:b:c") (bs ":") = Ok 3.
Proof. reflexivity. Qed.

(** C34.  Missing: patterns of two or more bytes when a string contains NUL. *)
Theorem replace_all_occurrences_partial : forall s a b,
  a <> [] -> (zlen a = 1 \/ (nul_free s /\ nul_free a)) ->
  exists r, replace s a b = Ok r /\ replaced a b s r.
Proof. exact replace_spec. Qed.
Print Assumptions replace_all_occurrences_partial.

(** The specification determines the result. *)
Theorem replaced_deterministic : forall a b s r1 r2,
  a <> [] -> replaced a b s r1 -> replaced a b s r2 -> r1 = r2.
Proof. exact replaced_det. Qed.
Print Assumptions replaced_deterministic.

Example replace_example : replace (bs "aaa-aa") (bs "aa") (bs "b") = Ok (bs "ba-b").
Proof. reflexivity. Qed.

(** C34, full statement (for every s and non-empty a) is false: "x\0ab" with "ab". *)
Theorem replace_all_occurrences_refuted :
  exists s a b r, a <> [] /\ replace s a b = Ok r /\ ~ replaced a b s r.
Proof.
  exists [120; 0; 97; 98], [97; 98], [], [120; 0; 97; 98].
  repeat split; [discriminate|].
  intros H. assert (Hr : replaced [97; 98] [] [120; 0; 97; 98] [120; 0]).
  { apply (replaced_one [97; 98] [] [120; 0] [] []).
    - intros j Hj. pose proof (occurs_at_range _ _ _ Hj) as Hg. cbn in Hg.
      destruct Hj as (pre & suf & He & Hp). cbn [app] in He.
      destruct pre as [|x [|y pre]]; cbn in He; try discriminate.
      injection He as _ _ He. apply (f_equal zlen) in He. rewrite <- Hp. unfold zlen in *.
      cbn [length] in *. lia.
    - apply replaced_none. intros j Hj. apply occurs_at_range in Hj. cbn in Hj. lia. }
  assert ([97; 98] <> []) as Hne by discriminate.
  pose proof (replaced_det _ _ _ _ _ Hne H Hr). discriminate.
Qed.
Print Assumptions replace_all_occurrences_refuted.

(** C35, full statement (false of the code): joining the fields of a split gives back s.
    Witness "a," split on ",": the trailing empty field is dropped. *)
Theorem join_split_refuted :
  exists s sep l, sep <> [] /\ split s sep = Ok l /\ join l sep <> s.
Proof. exists (bs "a,"), (bs ","), [bs "a"]. repeat split; discriminate. Qed.
Print Assumptions join_split_refuted.

(** C35, what holds: the join gives s back, up to one separator missing at the very end;
    no field contains the separator.
    Missing: strings ending in a separator; NUL bytes with separators of two or more bytes. *)
Theorem join_split_partial : forall s sep,
  sep <> [] -> (zlen sep = 1 \/ (nul_free s /\ nul_free sep)) ->
  exists l, split s sep = Ok l /\
    Forall (fun f => forall j, ~ occurs_at sep f j) l /\
    (s = join l sep \/ s = join l sep ++ sep).
Proof.
  intros s sep H1 H2. destruct (split_spec s sep H1 H2) as (l & Ha & Hb & Hc).
  exists l. now rewrite join_spec.
Qed.
Print Assumptions join_split_partial.

(** The converse direction: for a one-byte separator, splitting a join of fields that do not
    contain it gives back the fields, provided the last one is not empty. *)
Theorem split_join_single_partial : forall x l,
  Forall (fun f => ~ In x f) l -> last l [x] <> [] -> split (join l [x]) [x] = Ok l.
Proof. intros x l. rewrite join_spec. exact (split_joined x l). Qed.
Print Assumptions split_join_single_partial.

Example split_join_example :
  split (join [bs "a"; []; bs "bc"] (bs ",")) (bs ",") = Ok [bs "a"; []; bs "bc"].
Proof. reflexivity. Qed.

Theorem join_is_joined : forall l sep, join l sep = joined sep l.
Proof. exact join_spec. Qed.
Print Assumptions join_is_joined.

(** C36, parsing half: to_int accepts exactly the optionally signed decimal numerals (blanks
    allowed after the sign) of magnitude at most 2147483649 and returns the number denoted;
    everything else throws.  It never panics. *)
Theorem to_int_accepts_exactly : forall s,
  (exists n, int_text s n /\ Z.abs n <= 2147483649 /\ to_int s = Ok n) \/
  ((~ exists n, int_text s n /\ Z.abs n <= 2147483649) /\ to_int s = Throw).
Proof. exact to_int_spec. Qed.
Print Assumptions to_int_accepts_exactly.

Example to_int_example : to_int (bs "-0042") = Ok (-42) /\ to_int (bs "12a") = Throw
  /\ to_int (bs "2147483649") = Ok 2147483649.
Proof. repeat split; reflexivity. Qed.

(** C36, full statement (false of the code): every decimal numeral of a 64-bit int is accepted. *)
Theorem to_int_all_ints_refuted :
  exists n s, int_text s n /\ -9223372036854775808 <= n < 9223372036854775808 /\ to_int s = Throw.
Proof.
  exists 2147483650, (bs "2147483650"). repeat split; try lia.
  exists [], [], (bs "2147483650"). repeat split; auto; try discriminate.
  cbn; repeat (apply Forall_cons; [unfold is_digit; lia|]); apply Forall_nil.
Qed.
Print Assumptions to_int_all_ints_refuted.

(** C38. *)
Theorem ltrim_maximal_prefix : forall s l, Forall (fun t => t <> []) l ->
  exists a b, ltrim s l = Ok b /\ s = a ++ b /\
    Forall (fun c => exists t, In (c :: t) l) a /\
    (forall c r, b = c :: r -> ~ exists t, In (c :: t) l).
Proof. exact ltrim_spec. Qed.
Print Assumptions ltrim_maximal_prefix.

Theorem rtrim_maximal_suffix : forall s l, Forall (fun t => t <> []) l ->
  exists a b, rtrim s l = Ok a /\ s = a ++ b /\
    Forall (fun c => exists t, In (c :: t) l) b /\
    (forall c r, a = r ++ [c] -> ~ exists t, In (c :: t) l).
Proof. exact rtrim_spec. Qed.
Print Assumptions rtrim_maximal_suffix.

Theorem trim_both_ends : forall s l, Forall (fun t => t <> []) l ->
  exists a m b, trim s l = Ok m /\ s = a ++ m ++ b /\
    Forall (fun c => exists t, In (c :: t) l) a /\ Forall (fun c => exists t, In (c :: t) l) b /\
    (forall c r, m = c :: r -> ~ exists t, In (c :: t) l) /\
    (forall c r, m = r ++ [c] -> ~ exists t, In (c :: t) l).
Proof. exact trim_spec. Qed.
Print Assumptions trim_both_ends.

Example trim_example : trim (bs " 	x y ") [bs " "; bs "	"] = Ok (bs "x y")
  /\ Forall (fun t => t <> []) [bs " "; bs "	"].
Proof. split; [reflexivity|]. repeat constructor; discriminate. Qed.

Theorem to_lower_letters : forall s i c, nth_error s i = Some c ->
  exists d, nth_error (to_lower s) i = Some d /\
    (upper_ascii c -> d = c + 32) /\ (~ upper_ascii c -> d = c).
Proof. exact to_lower_pointwise. Qed.
Print Assumptions to_lower_letters.

Theorem to_upper_letters : forall s i c, nth_error s i = Some c ->
  exists d, nth_error (to_upper s) i = Some d /\
    (lower_ascii c -> d = c - 32) /\ (~ lower_ascii c -> d = c).
Proof. exact to_upper_pointwise. Qed.
Print Assumptions to_upper_letters.

Theorem case_preserves_length : forall s,
  length (to_lower s) = length s /\ length (to_upper s) = length s.
Proof. intros s. exact (conj (to_lower_length s) (to_upper_length s)). Qed.
Print Assumptions case_preserves_length.

Theorem case_idempotent : forall s,
  to_lower (to_lower s) = to_lower s /\ to_upper (to_upper s) = to_upper s.
Proof. intros s. exact (conj (to_lower_idem s) (to_upper_idem s)). Qed.
Print Assumptions case_idempotent.

Theorem reverse_involution : forall s, exists r,
  reverse s = Ok r /\ r = rev s /\ reverse r = Ok s.
Proof.
  intros s. exists (rev s). rewrite !reverse_spec, rev_involutive. auto.
Qed.
Print Assumptions reverse_involution.

Example case_example : to_lower (bs "aB[Z`") = bs "ab[z`" /\ to_upper (bs "az{") = bs "AZ{"
  /\ reverse (bs "abc") = Ok (bs "cba").
Proof. repeat split; reflexivity. Qed.
