(** * Theorems about to_hex (C53) *)
From Verif Require Import Base Base_lemmas Hex_model Hex_spec Hex_proof.

(** C53.  to_hex prints twice as many lower-case hexadecimal digits, which denote the bytes. *)
Theorem to_hex_denotes : forall l, bytes l -> exists t, to_hex l = Ok t /\ zlen t = 2 * zlen l /\ denotes t l.
Proof. apply to_hex_ok. Qed.
Print Assumptions to_hex_denotes.

(** C53.  Different strings of bytes give different texts. *)
Theorem to_hex_injective : forall l m, bytes l -> bytes m -> to_hex l = to_hex m -> l = m.
Proof.
  intros l m L M E. destruct (to_hex_ok l L) as (t & T & _ & D). destruct (to_hex_ok m M) as (u & U & _ & D').
  assert (u = t) as -> by congruence. now apply (denotes_fun t).
Qed.
Print Assumptions to_hex_injective.

Example to_hex_case : bytes [0; 15; 16; 171; 255] /\ to_hex [0; 15; 16; 171; 255] = Ok (bs "000f10abff").
Proof. split; [repeat constructor; unfold is_byte; lia|reflexivity]. Qed.
