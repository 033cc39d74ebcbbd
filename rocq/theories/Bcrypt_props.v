(** * Theorems about bcrypt (C51, C52) *)
From Verif Require Import Base Base_lemmas Blowfish_tables Blowfish_model Bcrypt_model Bcrypt_spec Bcrypt_proof.

(** C51.  Every password of at most 72 bytes and every cost of at most 31 gives a hash (a cost below 4
    stands for 10), in the usual printed form; parsing it gives back version, cost, salt and digest, and
    verify accepts the password.  Longer passwords and larger costs are refused. *)
Theorem bcrypt_accepts : forall salt password cost, bytes salt -> zlen salt = 16 -> bytes password ->
  (zlen password <= 72 -> cost <= 31 ->
   exists n s d, n = (if cost <? 4 then 10 else cost) /\ base64_decode s = Ok salt /\ zlen s = 22 /\ zlen d = 31 /\
     hash salt password cost = Ok (printed n s d) /\
     new_from_hash (printed n s d) = Ok (mk_hash d s n 50 97) /\ cost_of (printed n s d) = Ok n /\
     verify (printed n s d) password = Ok tt) /\
  (72 < zlen password \/ 31 < cost -> hash salt password cost = Throw).
Proof.
  intros salt password cost BS LS BP. split.
  - intros LP HC. destruct (hash_ok salt password cost BS LS BP LP HC) as (s & d & _ & D & _ & Ls & B & _ & Ld & H & P). cbv zeta in *.
    exists (if cost <? 4 then 10 else cost), s, d. split; [reflexivity|]. split; [exact D|]. split; [exact Ls|]. split; [exact Ld|].
    split; [exact H|]. split; [exact P|]. split; [unfold cost_of; now rewrite P|].
    now apply (same_text_accepted salt password password cost).
  - intros H. unfold hash, new_from_password. destruct (Z.ltb_spec 72 (zlen password)); [reflexivity|].
    destruct H as [H|H]; [lia|]. replace (cost <? 4) with false by (symmetry; lia). cbv zeta. unfold check_cost.
    now replace ((cost <? 4) || (31 <? cost)) with true by (symmetry; lia).
Qed.
Print Assumptions bcrypt_accepts.

(** C51.  The base64 code loses nothing. *)
Theorem base64_lossless : forall l, bytes l ->
  exists e, base64_encode l = Ok e /\ bytes e /\ base64_decode e = Ok l /\ zlen e = (4 * zlen l + 2) / 3.
Proof. apply encode_decode. Qed.
Print Assumptions base64_lossless.

(** C52, partial: verify answers or throws, whatever it is given; on the hash of [password] it throws for
    every [other] with a different digest.  Digests are equal whenever the texts of 72 bytes that enter the
    cipher are, and those differ for different passwords of at most 72 bytes without NUL.  Missing: that
    different texts have different digests, which is a matter of cryptography, and the passwords of the two
    refutations below. *)
Theorem bcrypt_rejects_partial :
  (forall hashed password, bytes password -> verify hashed password = Ok tt \/ verify hashed password = Throw) /\
  (forall salt password cost h, bytes salt -> zlen salt = 16 -> bytes password -> hash salt password cost = Ok h ->
   exists n s d, base64_decode s = Ok salt /\ bcrypt password n s = Ok d /\
     forall other, bytes other -> exists d', bcrypt other n s = Ok d' /\
       (d' = d -> verify h other = Ok tt) /\ (d' <> d -> verify h other = Throw)) /\
  (forall a b n s, s <> [] -> key_text a = key_text b -> bcrypt a n s = bcrypt b n s) /\
  (forall a b, zlen a <= 72 -> zlen b <= 72 -> no_nul a -> no_nul b -> a <> b -> key_text a <> key_text b).
Proof.
  split; [|split; [|split]].
  - intros hashed password B. destruct (parse_total hashed) as [E|(h & E & _ & L)]; [right; unfold verify; now rewrite E|].
    destruct (decode_total (h_salt h)) as [D|(c & D & BC & LC)].
    + right. unfold verify. rewrite E. cbn [bind]. unfold bcrypt, expensive_setup. now rewrite D.
    + assert (N : h_salt h <> []) by (intros N; rewrite N in L; discriminate L).
      destruct (bcrypt_ok password (h_cost h) (h_salt h) c B BC (LC N) D) as (o & O & _).
      rewrite (verify_iff hashed password h E o O). destruct (list_eq_dec Z.eq_dec o (h_hash h)); auto.
  - intros salt password cost h BS LS BP H.
    assert (LA : zlen password <= 72) by (unfold hash, new_from_password in H; destruct (Z.ltb_spec 72 (zlen password)); [discriminate H|lia]).
    assert (HC : cost <= 31).
    { destruct (Z.le_gt_cases cost 31); [assumption|]. exfalso.
      destruct (bcrypt_accepts salt password cost BS LS BP) as [_ T]. rewrite T in H by lia. discriminate H. }
    destruct (hash_ok salt password cost BS LS BP LA HC) as (s & d & _ & D & _ & Ls & B & _ & _ & H' & P). cbv zeta in *.
    set (n := if cost <? 4 then 10 else cost) in *. exists n, s, d. split; [exact D|]. split; [exact B|].
    intros other BO. destruct (bcrypt_ok other n s salt BO BS) as (d' & E & _); [lia|exact D|]. exists d'. split; [exact E|].
    assert (h = printed n s d) as -> by congruence.
    rewrite (verify_iff _ other _ P d' E). cbn [h_hash]. split; intros Q; destruct (list_eq_dec Z.eq_dec d' d); congruence.
  - intros a b n s. apply bcrypt_text.
  - intros a b La Lb Na Nb N E. apply N. now apply key_text_inj.
Qed.
Print Assumptions bcrypt_rejects_partial.

(** C52, refuted: another password of at most 72 bytes is accepted, whatever the cost and the salt.  The
    cipher is given the password with a NUL byte behind it, again and again. *)
Theorem bcrypt_rejects_refuted : exists password other, password <> other /\ zlen password <= 72 /\ zlen other <= 72 /\
  bytes password /\ bytes other /\
  forall salt cost h, bytes salt -> zlen salt = 16 -> hash salt password cost = Ok h -> verify h other = Ok tt.
Proof.
  exists (bs "secret"), (bs "secret" ++ [0] ++ bs "secret").
  assert (B : bytes (bs "secret")).
  { unfold bytes. cbv [bs Z.of_N N_of_ascii]. repeat (apply Forall_cons; [vm_compute; split; [discriminate|reflexivity]|]). constructor. }
  assert (B0 : bytes [0]) by (repeat constructor; unfold is_byte; lia).
  split; [discriminate|]. split; [vm_compute; discriminate|]. split; [vm_compute; discriminate|]. split; [exact B|].
  split; [apply Forall_bytes_app; split; [exact B|]; apply Forall_bytes_app; auto|].
  intros salt cost h BS LS H. apply (same_text_accepted salt (bs "secret") (bs "secret" ++ [0] ++ bs "secret") cost h BS LS B); [apply doubled_text|exact H].
Qed.
Print Assumptions bcrypt_rejects_refuted.

(** C52, refuted: hash refuses a password of more than 72 bytes, but verify accepts it if its first 72
    bytes are the password. *)
Theorem bcrypt_long_refuted : exists password other, password <> other /\ zlen password = 72 /\ bytes password /\ bytes other /\
  forall salt cost h, bytes salt -> zlen salt = 16 -> hash salt password cost = Ok h -> verify h other = Ok tt.
Proof.
  exists (repeat 97 72), (repeat 97 72 ++ bs "!").
  assert (B : bytes (repeat 97 72)) by (apply Forall_forall; intros x Hx; apply repeat_spec in Hx; subst; unfold is_byte; lia).
  split; [intros E; apply (f_equal (@List.length Z)) in E; rewrite app_length in E; cbn in E; lia|]. split; [reflexivity|]. split; [exact B|].
  split; [apply Forall_bytes_app; split; [exact B|]; apply Forall_cons; [vm_compute; split; [discriminate|reflexivity]|constructor]|].
  intros salt cost h BS LS H. apply (same_text_accepted salt (repeat 97 72) (repeat 97 72 ++ bs "!") cost h BS LS B); [now apply long_text|exact H].
Qed.
Print Assumptions bcrypt_long_refuted.

(** A salt, passwords and costs that meet the hypotheses: the hash exists, so the refutations are about
    hashes that are really handed out; and two passwords the last part of the partial theorem tells apart. *)
Example bcrypt_case :
  (exists h, hash (map Z.of_nat (seq 0 16)) (bs "secret") 12 = Ok h) /\
  (bytes (map Z.of_nat (seq 0 16)) /\ zlen (map Z.of_nat (seq 0 16)) = 16) /\
  (no_nul (bs "secret") /\ no_nul (bs "Secret") /\ key_text (bs "secret") <> key_text (bs "Secret")).
Proof.
  assert (BS : bytes (map Z.of_nat (seq 0 16))) by (apply Forall_forall; intros x Hx; apply in_map_iff in Hx; destruct Hx as (n & <- & Hn); apply in_seq in Hn; unfold is_byte; lia).
  assert (B : bytes (bs "secret")).
  { unfold bytes. cbv [bs Z.of_N N_of_ascii]. repeat (apply Forall_cons; [vm_compute; split; [discriminate|reflexivity]|]). constructor. }
  assert (N1 : no_nul (bs "secret")) by (unfold no_nul; vm_compute; intuition discriminate).
  assert (N2 : no_nul (bs "Secret")) by (unfold no_nul; vm_compute; intuition discriminate).
  split; [|split; [split; [exact BS|reflexivity]|split; [exact N1|split; [exact N2|]]]].
  - destruct (bcrypt_accepts _ (bs "secret") 12 BS eq_refl B) as [(n & s & d & _ & _ & _ & _ & H & _) _]; [vm_compute; discriminate|lia|]. eauto.
  - intros E. assert (X : bs "secret" = bs "Secret") by (apply key_text_inj; [vm_compute; discriminate|vm_compute; discriminate|exact N1|exact N2|exact E]). discriminate X.
Qed.
