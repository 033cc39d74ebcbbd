(** * Theorems about the Blowfish cipher (C50) *)
From Verif Require Import Base Base_lemmas Blowfish_tables Blowfish_model Blowfish_spec Blowfish_proof.

(** C50.  For every cipher with the tables Blowfish needs and every block: what encrypt stores, decrypt
    takes back to the block, and the other way round.  Both read the first eight bytes of the source and write
    the first eight of the destination. *)
Theorem blowfish_inverse : forall c b, schedule c -> block b ->
  (exists out, block out /\
     (forall dst t, (8 <= length dst)%nat -> encrypt c dst (b ++ t) = Ok (out ++ skipn 8 dst)) /\
     (forall dst t, (8 <= length dst)%nat -> decrypt c dst (out ++ t) = Ok (b ++ skipn 8 dst))) /\
  (exists out, block out /\
     (forall dst t, (8 <= length dst)%nat -> decrypt c dst (b ++ t) = Ok (out ++ skipn 8 dst)) /\
     (forall dst t, (8 <= length dst)%nat -> encrypt c dst (out ++ t) = Ok (b ++ skipn 8 dst))).
Proof. intros c b S B. split; [now apply encrypt_ok|now apply decrypt_ok]. Qed.
Print Assumptions blowfish_inverse.

(** C50.  Every key of 1 to 56 bytes gives such a cipher, with or without salt; every other key is refused. *)
Theorem blowfish_keys : forall key, bytes key ->
  (1 <= zlen key <= 56 -> exists c, new_cipher key = Ok (Some c) /\ schedule c) /\
  (~ 1 <= zlen key <= 56 -> new_cipher key = Ok None) /\
  (forall salt, bytes salt -> salt <> [] -> key <> [] -> exists c, new_salted_cipher key salt = Ok (Some c) /\ schedule c).
Proof.
  intros key B. split; [now apply new_cipher_ok|]. split.
  - intros H. unfold new_cipher. now replace ((zlen key <? 1) || (56 <? zlen key)) with true by (symmetry; lia).
  - intros salt BS NS NK. unfold new_salted_cipher.
    assert (1 <= zlen salt) by (destruct salt as [|x t]; [congruence|rewrite zlen_cons; pose proof (zlen_nonneg t); lia]).
    assert (1 <= zlen key) by (destruct key as [|x t]; [congruence|rewrite zlen_cons; pose proof (zlen_nonneg t); lia]).
    replace (zlen salt =? 0) with false by (symmetry; lia). replace (zlen key <? 1) with false by (symmetry; lia).
    destruct (expand_ok key (Some salt) init_cipher B) as (c & -> & S); [lia|split; [exact BS|lia]|apply init_schedule|]. cbn [bind]. eauto.
Qed.
Print Assumptions blowfish_keys.

(** C50.  Encryption never maps two blocks to one. *)
Theorem blowfish_injective : forall c b b' d d' out, schedule c -> block b -> block b' ->
  (8 <= length d)%nat -> (8 <= length d')%nat ->
  encrypt c d b = Ok (out ++ skipn 8 d) -> encrypt c d' b' = Ok (out ++ skipn 8 d') -> b = b'.
Proof.
  intros c b b' d d' out S B B' L L' E E'.
  destruct (encrypt_ok c b S B) as (o & _ & G & D). destruct (encrypt_ok c b' S B') as (o' & _ & G' & D').
  specialize (G d [] L). specialize (G' d' [] L'). rewrite app_nil_r in G, G'. rewrite E in G. rewrite E' in G'.
  assert (o = out) as -> by (apply (app_inv_tail (skipn 8 d)); congruence).
  assert (o' = out) as -> by (apply (app_inv_tail (skipn 8 d')); congruence).
  specialize (D d [] L). specialize (D' d [] L). rewrite D in D'. apply (app_inv_tail (skipn 8 d)). congruence.
Qed.
Print Assumptions blowfish_injective.

(** A key, and a block with every bit pattern of interest, meet the hypotheses; so does the schedule
    every other one is computed from. *)
Example blowfish_case : bytes (bs "TESTKEY") /\ 1 <= zlen (bs "TESTKEY") <= 56 /\
  block [1; 35; 69; 103; 137; 171; 205; 239] /\ schedule init_cipher.
Proof.
  split; [|split; [vm_compute; split; discriminate|split; [split; [|reflexivity]|apply init_schedule]]].
  - cbv [bs Z.of_N N_of_ascii]. unfold bytes. repeat (apply Forall_cons; [vm_compute; split; [discriminate|reflexivity]|]). constructor.
  - repeat constructor; unfold is_byte; lia.
Qed.
