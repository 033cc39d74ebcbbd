(** C41-C43: std/json on dynamic values. *)
From Verif Require Import Base Base_lemmas Json_type Json_spec Json_model Json_utf8_proof Json_string_proof
  Json_number_proof Json_value_proof.

(** ** C41 *)

(** For every byte string: the text written for it is a quoted string of printable UTF-8, and
    reading it back gives the string with its invalid bytes replaced. *)
Theorem json_string_round_trip : forall s, bytes s ->
  exists t u, serialize (JStr s) = Ok (34 :: t ++ [34]) /\ parse (34 :: t ++ [34]) = Ok (JStr u) /\
    repaired s u /\ valid_utf8 t /\ Forall (fun c => 32 <= c) t.
Proof.
  intros s B. destruct (serialize_string_ok s B) as (t & u & E & R & C & V & P). exists t, u.
  split; [exact E|]. split; [|split; [exact R|split; [exact V|exact P]]].
  apply parse_exact; [reflexivity|]. apply text_document. now constructor.
Qed.
Print Assumptions json_string_round_trip.

(** [repaired] leaves valid UTF-8 alone and has only one result. *)
Theorem repaired_valid : forall s u, valid_utf8 s -> repaired s u -> u = s.
Proof. intros s u V R. exact (valid_repaired s V u R). Qed.
Print Assumptions repaired_valid.

Theorem json_valid_string_round_trip : forall s, valid_utf8 s ->
  exists t, serialize (JStr s) = Ok t /\ parse t = Ok (JStr s).
Proof.
  intros s V. destruct (json_string_round_trip s (utf8_valid_bytes s V)) as (t & u & E & P & R & _).
  rewrite (repaired_valid s u V R) in P. eauto.
Qed.
Print Assumptions json_valid_string_round_trip.

(** Whatever bytes the text of a string contains, the string read is valid UTF-8. *)
Theorem json_strings_read_are_utf8 : forall s u, parse s = Ok (JStr u) -> valid_utf8 u.
Proof.
  intros s u P. apply parse_exact in P; [|reflexivity]. destruct P as (w1 & t & w2 & _ & _ & T & _).
  inversion T; subst. eapply chars_valid; eauto.
Qed.
Print Assumptions json_strings_read_are_utf8.

(** Escaped surrogate pairs, an unpaired surrogate, an overlong form and a cut sequence. *)
Example json_string_examples :
  let q s := 34 :: s ++ [34] in
  let u h := [92; 117] ++ bs h in
  parse (q (u "d83d"%string ++ u "De00"%string ++ [92; 110; 92; 47])) = Ok (JStr [240; 159; 152; 128; 10; 47]) /\
  parse (q (u "d83d"%string ++ [120])) = Ok (JStr [239; 191; 189; 120]) /\
  parse (q [192; 128]) = Ok (JStr [239; 191; 189; 239; 191; 189]) /\
  serialize (JStr [1; 34; 226; 130; 172; 226; 130]) =
    Ok (q (u "0001"%string ++ [92; 34; 226; 130; 172] ++ u "fffd"%string ++ u "fffd"%string)) /\
  valid_utf8 [65; 226; 130; 172] /\ bytes [1; 34; 226; 130; 172; 226; 130].
Proof.
  cbv zeta. repeat split; try reflexivity.
  - apply (valid_cons 65 [226; 130; 172]); [unfold scalar; lia|]. apply (valid_cons 8364 []); [unfold scalar; lia|constructor].
  - repeat constructor; unfold is_byte; lia.
Qed.

(** ** C42 *)

(** parse accepts exactly the documents nested at most 256 deep and returns the value they
    denote; on everything else it throws. *)
Theorem json_parse_exact : forall s v, parse s = Ok v <-> document 256 s v.
Proof. intros s v. apply (parse_exact 256). reflexivity. Qed.
Print Assumptions json_parse_exact.

Theorem json_parse_total : forall s, parse s = Throw \/ exists v, parse s = Ok v.
Proof. intro s. destruct (parse_sound 256 s) as [H|(v & H & _)]; [now left|right; now exists v]. Qed.
Print Assumptions json_parse_total.

(** A text denotes at most one value, whatever the depth allowed. *)
Theorem json_document_functional : forall n n' s v v', document n s v -> document n' s v' -> v = v'.
Proof. exact document_fun. Qed.
Print Assumptions json_document_functional.

Theorem json_value_round_trip : forall v, proper v -> (depth v <= 256)%nat ->
  exists t, serialize v = Ok t /\ parse t = Ok v.
Proof.
  intros v P D. destruct (serialize_text v P 256%nat D) as (t & E & T). exists t. split; [exact E|].
  apply json_parse_exact. now apply text_document.
Qed.
Print Assumptions json_value_round_trip.

(** Too deep: rejected, both for text and for the serialisation of a value. *)
Theorem json_too_deep : forall n s v, document n s v -> (256 < depth v)%nat -> parse s = Throw.
Proof.
  intros n s v D L. destruct (json_parse_total s) as [H|(v' & H)]; [exact H|]. exfalso.
  apply json_parse_exact in H. pose proof (document_fun _ _ _ _ _ D H) as E. subst v'.
  destruct H as (w1 & t & w2 & _ & _ & T & _). pose proof (proj1 text_depth _ _ _ T). lia.
Qed.
Print Assumptions json_too_deep.

Theorem json_deep_value_rejected : forall v, proper v -> (256 < depth v)%nat ->
  exists t, serialize v = Ok t /\ parse t = Throw.
Proof.
  intros v P D. destruct (serialize_text v P (depth v) (le_n _)) as (t & E & T). exists t. split; [exact E|].
  apply (json_too_deep (depth v) t v); [now apply text_document|exact D].
Qed.
Print Assumptions json_deep_value_rejected.

(** An object with a repeated key, white space and nesting; a value with every constructor. *)
Example json_value_examples :
  parse (bs " { ""a"" : [ 1 , -2.5e+3, null ] , ""b"":{}, ""a"":true } ") =
    Ok (JObj [(bs "a", JBool true); (bs "b", JObj [])]) /\
  parse (bs "[1,]") = Throw /\ parse (bs "01") = Throw /\ parse (bs "[1] 2") = Throw /\
  (let v := JObj [(bs "k", JArr [JNull; JBool false; JNum (bs "10"); JStr (bs "x")]); (bs "l", JObj [])] in
   proper v /\ depth v = 2%nat /\
   serialize v = Ok (bs "{""k"":[null,false,10,""x""],""l"":{}}")).
Proof.
  repeat split; try reflexivity.
  - apply NoDup_cons; [cbn; intros [H|[]]; discriminate H|]. apply NoDup_cons; [intros []|apply NoDup_nil].
  - assert (V : forall c, 0 <= c < 128 -> valid_utf8 [c]).
    { intros c C. replace [c] with (utf8 c ++ []) by (unfold utf8; destruct (Z.ltb_spec c 128); [reflexivity|lia]).
      constructor; [unfold scalar; lia|constructor]. }
    apply Forall_cons; [apply (V 107); lia|]. apply Forall_cons; [apply (V 108); lia|]. apply Forall_nil.
  - apply (number_intro [] (bs "10") [] []); auto. right. exists 49, [48]. repeat split; try lia. apply Forall_cons; [unfold digit; lia|]. apply Forall_nil.
  - apply (valid_cons 120 []); [unfold scalar; lia|constructor].
  - apply NoDup_nil.
  - apply Forall_nil.
Qed.

(** A tower of 257 arrays meets the hypotheses of the last two theorems. *)
Fixpoint tower (n : nat) : json := match n with O => JNull | S n => JArr [tower n] end.
Example json_deep_example : proper (tower 257) /\ depth (tower 257) = 257%nat /\ parse (repeat 91 257 ++ repeat 93 257) = Throw.
Proof. split; [cbn; tauto|]. split; vm_compute; reflexivity. Qed.

(** ** C43 *)

(** parse gives a number exactly for a number of the grammar between white space. *)
Theorem json_number_exact : forall s t,
  parse s = Ok (JNum t) <-> exists w1 w2, s = w1 ++ t ++ w2 /\ ws w1 /\ number t /\ ws w2.
Proof.
  intros s t. rewrite json_parse_exact. split.
  - intros (w1 & t' & w2 & E & W1 & T & W2). inversion T; subst. eauto 6.
  - intros (w1 & w2 & E & W1 & N & W2). exists w1, t, w2. repeat split; auto. now constructor.
Qed.
Print Assumptions json_number_exact.

(** The scanner for number tokens takes a number that is followed by a byte which cannot go on
    a number, and exactly it. *)
Theorem json_number_token_taken : forall w t rest, ws w -> number t ->
  (forall c r, rest = c :: r -> ~ digit c /\ c <> 46 /\ c <> 101 /\ c <> 69) ->
  parser_number_token (w ++ t ++ rest) = Ok (t, rest).
Proof.
  intros w t rest W N R. apply number_complete; auto. intros c r E. specialize (R c r E). unfold numeric, digit in *. lia.
Qed.
Print Assumptions json_number_token_taken.

(** What it returns is a number, followed by no further digit; otherwise it throws. *)
Theorem json_number_token_only : forall data, parser_number_token data = Throw \/
  exists w t rest, data = w ++ t ++ rest /\ ws w /\ number t /\ (forall c r, rest = c :: r -> ~ digit c) /\
    parser_number_token data = Ok (t, rest).
Proof.
  intro data. destruct (number_sound data) as [H|(w & t & rest & E & W & N & D & P)]; [now left|right].
  exists w, t, rest. repeat split; auto.
Qed.
Print Assumptions json_number_token_only.

Example json_number_examples :
  number (bs "-0.5E-07") /\ parse (bs "-0.5E-07") = Ok (JNum (bs "-0.5E-07")) /\
  parser_number_token (bs " 12,3") = Ok (bs "12", bs ",3") /\
  parse (bs "+1") = Throw /\ parse (bs "1.") = Throw /\ parse (bs ".5") = Throw /\ parse (bs "1e") = Throw /\
  parse (bs "-") = Throw /\ parse (bs "00") = Throw /\ parse (bs "- 1") = Throw.
Proof.
  split; [|repeat split; reflexivity].
  apply (number_intro [45] [48] (46 :: [53]) (69 :: [45] ++ [48; 55])); [now right|now left|right|right].
  - exists [53]. repeat split; [discriminate|]. repeat constructor; unfold digit; lia.
  - exists 69, [45], [48; 55]. repeat split; auto; [discriminate|]. repeat constructor; unfold digit; lia.
Qed.
