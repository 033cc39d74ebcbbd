(** C31: the runtime's fixed-size allocator. *)
From Verif Require Import Base Base_lemmas Zlist.
From Verif Require Import Fixalloc_model Fixalloc_spec Fixalloc_proof.

(** For block sizes up to 8192 and every history of requests and returns: no step fails, the blocks
    held by the client never overlap, each lies inside one chunk obtained from the system, and the
    in-use counter is their total size modulo 2^64.
    The only hypothesis is that the system hands out chunks that do not overlap.
    Missing: sizes 8193 to 16384, which init accepts and for which the claim is false (below). *)
Theorem fixalloc_disjoint_partial : forall s sys ops, 0 <= s <= 8192 ->
  (forall i j, i <> j -> disjoint (sys i) CHUNK_LIMIT (sys j) CHUNK_LIMIT) ->
  exists f f' live, init s = Ok f /\ s <= size f /\ run sys ops (f, []) = Ok (f', live) /\
    no_overlap (size f) live /\
    (forall a, In a live -> exists i, (i < calls f')%nat /\ within a (size f) (sys i) (chunk_size f)) /\
    chunk_size f <= CHUNK_LIMIT /\
    inuse f' = u64 (size f * zlen live).
Proof.
  intros s sys ops Hs Hd. destruct (init_spec s Hs) as (f & n & E & Hn & Hsz & Hlo & Hhi & Hinv).
  assert (Hd' : forall i j, i <> j -> disjoint (sys i) (chunk_size f) (sys j) (chunk_size f)).
  { intros i j N x [X Y]. apply (Hd i j N x). lia. }
  assert (Hc : chunk_size f < 2 ^ 32) by (unfold CHUNK_LIMIT in Hhi; lia).
  assert (H8 : 8 <= n) by lia.
  destruct (run_inv sys n (chunk_size f) H8 Hlo Hc Hd' ops f [] (Hinv sys)) as (f' & live & R & I).
  exists f, f', live. rewrite Hsz.
  destruct (inv_sound sys n (chunk_size f) H8 Hd' f' live I) as [S1 S2].
  repeat split; auto; try lia. apply I.
Qed.
Print Assumptions fixalloc_disjoint_partial.

(** chunks at multiples of 16384 satisfy the hypothesis *)
Example fixalloc_disjoint_ex :
  let sys := fun i => 100000 + 16384 * Z.of_nat i in
  (forall i j, i <> j -> disjoint (sys i) CHUNK_LIMIT (sys j) CHUNK_LIMIT) /\
  exists f f', init 6000 = Ok f /\ run sys [OAlloc; OAlloc; OFree 0; OAlloc; OFree 5] (f, []) = Ok (f', [116392; 100008]).
Proof.
  cbv zeta. split.
  - intros i j N x. unfold CHUNK_LIMIT. lia.
  - do 2 eexists. split; reflexivity.
Qed.

(** C31 is false for a block size init accepts: with 8200-byte blocks the first block already ends
    outside its chunk. *)
Theorem fixalloc_disjoint_refuted : exists s sys ops f f' live,
  (forall i j, i <> j -> disjoint (sys i) CHUNK_LIMIT (sys j) CHUNK_LIMIT) /\
  init s = Ok f /\ run sys ops (f, []) = Ok (f', live) /\
  exists a, In a live /\ forall i, ~ within a (size f) (sys i) (chunk_size f).
Proof.
  exists 8200, (fun i => 100000 + 16384 * Z.of_nat i), [OAlloc], (mk 8200 [] 0 0 8200 0 O). do 2 eexists.
  split; [intros i j N x; unfold CHUNK_LIMIT; lia|]. split; [reflexivity|]. split; [reflexivity|].
  exists 100008. split; [now left|]. intros i H. cbn [size chunk_size] in H.
  pose proof (H 100008 ltac:(lia)). pose proof (H 108207 ltac:(lia)). lia.
Qed.
Print Assumptions fixalloc_disjoint_refuted.
