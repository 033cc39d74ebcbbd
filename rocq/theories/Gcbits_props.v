(** C58: the bitmaps of spans across collections. *)
From Verif Require Import Base Base_lemmas Gcbits_model Gcbits_spec Gcbits_proof.

(** For every history of span creations, bitmap writes and collections, with any choice of surviving spans,
    the two bitmaps of every live span hold exactly what that span would see if nobody else had bitmaps:
    zero when handed out, then its own writes; after a collection the old mark bits are the alloc bits and
    the mark bits are zero.  So no bitmap is handed out, or cleared, while a span uses it. *)
Theorem gcbits_private :
  forall sys, (forall i j, i <> j -> disjoint (sys i) CHUNK (sys j) CHUNK) ->
  forall ops, Forall op_ok ops ->
  exists s l, run sys (init, []) ops = Ok (s, l) /\ Forall2 (shows (mem s)) l (spec_run ops).
Proof.
  intros sys Hs ops H. destruct (run_inv sys Hs ops (init, []) [] (init_inv sys) H) as ([s l] & E & _ & _ & _ & F).
  exists s, l. auto.
Qed.
Print Assumptions gcbits_private.

(** The same, as addresses: at any time the bitmaps of all live spans are pairwise disjoint pieces of memory. *)
Theorem gcbits_disjoint :
  forall sys, (forall i j, i <> j -> disjoint (sys i) CHUNK (sys j) CHUNK) ->
  forall ops s l, Forall op_ok ops -> run sys (init, []) ops = Ok (s, l) -> apart (regs l).
Proof.
  intros sys Hs ops s l H E. destruct (run_inv sys Hs ops (init, []) [] (init_inv sys) H) as (w & E' & I).
  rewrite E in E'. injection E' as <-. apply I.
Qed.
Print Assumptions gcbits_disjoint.

(** Three spans, two collections: the second span dies in the first collection. *)
Definition sys_ex (n : nat) : Z := 4294967296 + 65536 * Z.of_nat n.

Definition history : list gop :=
  [GNew 1024; GNew 512; GNew 128; GWrite 0 true 3 255; GWrite 2 true 0 7; GWrite 1 false 9 1;
   GCollect [true; false; true]; GWrite 1 true 15 4; GNew 64; GCollect []; GWrite 2 true 1 2].

Example gcbits_private_ex :
  (forall i j, i <> j -> disjoint (sys_ex i) CHUNK (sys_ex j) CHUNK) /\ Forall op_ok history /\
  map (fun a => (hd 0 (fst a), nth 15 (fst a) 0, nth 1 (snd a) 0)) (spec_run history) =
    [(0, 0, 0); (0, 4, 0); (0, 0, 2)].
Proof.
  split; [|split].
  - intros i j N x Hx. unfold sys_ex, CHUNK in Hx. lia.
  - repeat constructor; unfold op_ok, PAYLOAD, CHUNK, HEADER; lia.
  - vm_compute. reflexivity.
Qed.

(** A request for more bits than an arena holds aborts the program; spans have at most 1024 slots. *)
Example gcbits_too_many : run sys_ex (init, []) [GNew 524161] = Abort.
Proof. vm_compute. reflexivity. Qed.
