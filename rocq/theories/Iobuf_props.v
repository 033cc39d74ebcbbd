(** C49: io.buffer is a queue of bytes. *)
From Verif Require Import Base Base_lemmas Vec_model Iobuf_model Iobuf_spec Iobuf_proof.

(** C49.  A program that writes its vectors into the buffer, reads into them, takes everything,
    truncates, and meanwhile changes its vectors, sees a queue: every observation is the one the
    queue gives, the bytes left are the queue, and the program's vectors, those that read_all
    returned included, hold what they would hold if nothing were shared. *)
Theorem buffer_is_a_queue : forall ops q ys, qrun qinit ops = Some (q, ys) ->
  exists s xs, brun binit ops = Ok (s, xs) /\ Forall2 fits xs ys /\
    map (view (bmem s)) (bvars s) = vecs q /\ blen s = zlen (queue q) /\
    skipn (Z.to_nat (boffset s)) (view (bmem s) (bbuf s)) = queue q.
Proof.
  intros ops q ys E. destruct (brun_ok ops binit qinit q ys binv_init E) as (s & xs & R & H & F).
  exists s, xs. split; [exact R|]. split; [exact F|]. split; [symmetry; apply (i_vecs _ _ H)|]. split; [symmetry; exact (queue_len _ _ H)|symmetry; apply (i_queue _ _ H)].
Qed.
Print Assumptions buffer_is_a_queue.

Definition buffer_program : list bop :=
  [BMake [1; 2; 3; 4]; BMake [0; 0]; BWrite 0; BRead 1; BSet 0 0 9; BWriteByte 7; BTruncate 2; BWrite 0;
   BReadAll; BWrite 1; BSet 2 1 8; BLen; BRead 0; BRead 0; BEmpty].

Example buffer_program_runs :
  qrun qinit buffer_program =
    Some (mk_q [] [[1; 2; 3; 4]; [1; 2]; [3; 8; 9; 2; 3; 4]] 11,
      [Some BDone; Some BDone; Some (BNum 4); Some (BNum 2); Some BDone; None; Some BDone; Some (BNum 4);
       Some BDone; Some (BNum 2); Some BDone; Some (BNum 2); Some (BNum 2); Some BThrown; Some (BNum 1)]).
Proof. vm_compute. reflexivity. Qed.

(** C49: write_byte, which takes one byte, answers with the number of bytes in the vector. *)
Theorem buffer_write_byte_count_refuted : exists ops s n,
  brun binit ops = Ok (s, [BDone; BNum 3; BNum n]) /\ last ops BLen = BWriteByte 5 /\ n = 4.
Proof. exists [BMake [1; 2; 3]; BWrite 0; BWriteByte 5]. eexists _, 4. split; [vm_compute; reflexivity|]. split; reflexivity. Qed.
Print Assumptions buffer_write_byte_count_refuted.
