(** C44: integers through json.serialize and json.deserialize. *)
From Verif Require Import Base Base_lemmas Fmt_spec Json_model Jsonint_model Jsonint_proof.

(** Deserialising what serialising an integer gives.  Full statement: for every n of the type it
    is n.  False: 2^53 + 1 comes back as 2^53, the largest i64 leaves the range of the type, and
    the smallest i64 is not written as a number. *)
Theorem json_i64_round_trip_refuted :
  (exists n s m, - 2 ^ 63 <= n < 2 ^ 63 /\ serialize_int true 64 n = Ok s /\ deserialize_int true 64 s = Ok m /\ m <> n) /\
  (exists s, serialize_int true 64 (2 ^ 63 - 1) = Ok s /\ deserialize_int true 64 s = UB) /\
  (exists s, serialize_int true 64 (- 2 ^ 63) = Ok s /\ deserialize_int true 64 s = Throw).
Proof.
  split; [|split].
  - exists 9007199254740993, (bs "9007199254740993"), 9007199254740992. split; [lia|]. split; [reflexivity|]. split; [vm_compute; reflexivity|lia].
  - exists (bs "9223372036854775807"). split; [reflexivity|vm_compute; reflexivity].
  - eexists. split; [vm_compute; reflexivity|vm_compute; reflexivity].
Qed.
Print Assumptions json_i64_round_trip_refuted.

(** Signed types of 8 to 64 bits, up to 2^53 in absolute value and not the smallest value of the
    type; for 8, 16 and 32 bits the bound is no restriction.  Missing: beyond 2^53. *)
Theorem json_signed_round_trip_partial : forall w n, int_width w ->
  - 2 ^ (w - 1) < n < 2 ^ (w - 1) -> - 2 ^ 53 <= n <= 2 ^ 53 ->
  exists s, serialize_int true w n = Ok s /\ deserialize_int true w s = Ok n.
Proof.
  intros w n W N B. destruct (serialize_signed w n W N) as (s & E & [[P Nu]|[P (s' & -> & Nu)]]).
  - exists s. split; [exact E|]. apply (deserialize_numeral true w s n false Nu); [lia|]. cbn. lia.
  - exists (45 :: s'). split; [exact E|]. pose proof (deserialize_numeral true w s' (- n) true Nu) as K. cbn [app] in K.
    rewrite Z.opp_involutive in K. apply K; cbv zeta; lia.
Qed.
Print Assumptions json_signed_round_trip_partial.

Theorem json_unsigned_round_trip_partial : forall w n, int_width w -> 0 <= n < 2 ^ w -> n <= 2 ^ 53 ->
  exists s, serialize_int false w n = Ok s /\ deserialize_int false w s = Ok n.
Proof.
  intros w n W N B. destruct (serialize_unsigned w n W N) as (s & E & Nu). exists s. split; [exact E|].
  apply (deserialize_numeral false w s n false Nu); [lia|]. cbn. lia.
Qed.
Print Assumptions json_unsigned_round_trip_partial.

(** The smallest value of every signed type is lost. *)
Theorem json_smallest_lost_refuted : forall w, int_width w ->
  exists s, serialize_int true w (- 2 ^ (w - 1)) = Ok s /\ deserialize_int true w s = Throw.
Proof.
  intros w [<-|[<-|[<-|[<-|[]]]]]; eexists; (split; [vm_compute; reflexivity|vm_compute; reflexivity]).
Qed.
Print Assumptions json_smallest_lost_refuted.

Example json_int_examples :
  int_width 64 /\ - 2 ^ 63 < - 2 ^ 53 < 2 ^ 63 /\
  serialize_int true 64 (- 2 ^ 53) = Ok (bs "-9007199254740992") /\
  deserialize_int true 64 (bs "-9007199254740992") = Ok (- 2 ^ 53) /\
  deserialize_int false 8 (bs " 255 ") = Ok 255 /\ deserialize_int true 32 (bs "1.5e2") = Ok 150 /\
  deserialize_int true 32 (bs "012") = Throw.
Proof. repeat split; try (vm_compute; reflexivity). right; right; right; now left. Qed.
