(** C129: the SHA-256 of the linker. *)
From Verif Require Import Base Sha_model Sha_spec Sha_proof.

(** However a message is cut into pieces, the digest is the one of the standard. *)
Theorem c129_digest : forall junk chunks, length junk = 64%nat -> Forall bytes chunks ->
  8 * Z.of_nat (length (concat chunks)) < 2 ^ 64 ->
  exists c d, updates (init junk) chunks = Some c /\ final c = Some d /\ sha256 (concat chunks) d.
Proof.
  intros junk chunks J B L.
  destruct (updates_ok chunks (init junk) [] (Forall_nil _) B (rep_init junk J) eq_refl) as (c & E & R & N).
  cbn [app] in *.
  assert (M : bytes (concat chunks)).
  { clear - B. induction B; [constructor|]. cbn. now apply Forall_app. }
  destruct (final_ok c _ M R N L) as (d & F & S). now exists c, d.
Qed.
Print Assumptions c129_digest.

(** The same for the call that hashes at once. *)
Theorem c129_once : forall junk m, length junk = 64%nat -> bytes m -> 8 * Z.of_nat (length m) < 2 ^ 64 ->
  exists d, sha256_once junk m = Some d /\ sha256 m d.
Proof.
  intros junk m J B L. unfold sha256_once.
  destruct (update_ok (init junk) m [] (Forall_nil _) B (rep_init junk J) eq_refl) as (c & -> & R & N).
  exact (final_ok c m B R N L).
Qed.
Print Assumptions c129_once.

(** The standard gives every message one digest, so the pieces do not matter. *)
Theorem c129_one_digest : forall m d d', sha256 m d -> sha256 m d' -> d = d'.
Proof. exact sha256_unique. Qed.
Print Assumptions c129_one_digest.

(** "abc", in one piece and in two: the first example of the standard *)
Definition junk : list Z := repeat 170 64.
Definition abc_digest : list Z :=
  [186; 120; 22; 191; 143; 1; 207; 234; 65; 65; 64; 222; 93; 174; 34; 35;
   176; 3; 97; 163; 150; 23; 122; 156; 180; 16; 255; 97; 242; 0; 21; 173].
Example abc : sha256_once junk [97; 98; 99] = Some abc_digest.
Proof. vm_compute. reflexivity. Qed.
Example abc_pieces : match updates (init junk) [[97]; []; [98; 99]] with Some c => final c | None => None end = Some abc_digest.
Proof. vm_compute. reflexivity. Qed.
Example abc_meets : length junk = 64%nat /\ Forall bytes [[97]; []; [98; 99]].
Proof. split; [reflexivity|]. repeat constructor; discriminate. Qed.
