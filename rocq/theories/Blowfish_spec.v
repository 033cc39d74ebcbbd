(** What it means for a cipher to have the tables Blowfish needs: 18 and four times 256 words of 32
    bits. *)
From Verif Require Import Base Blowfish_model.

Definition word (x : Z) : Prop := 0 <= x < 4294967296.

Definition schedule (c : cipher) : Prop :=
  (length (p c) = 18%nat /\ length (s0 c) = 256%nat /\ length (s1 c) = 256%nat /\ length (s2 c) = 256%nat /\ length (s3 c) = 256%nat) /\
  Forall word (p c) /\ Forall word (s0 c) /\ Forall word (s1 c) /\ Forall word (s2 c) /\ Forall word (s3 c).

(** A block: eight bytes *)
Definition block (b : list Z) : Prop := bytes b /\ length b = 8%nat.
