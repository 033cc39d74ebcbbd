(** C48: the buffered writer of std/io/buf.n. *)
From Verif Require Import Base Base_lemmas Bufwriter_model Bufwriter_spec Bufwriter_proof.

(** C48.  Whatever the underlying writer does: either every call returns the number of bytes it
    was given, and what has reached the underlying writer followed by what is held is exactly
    what was handed over; or some call throws, what has reached the underlying writer is the
    beginning of what was handed over up to and including that call, and every later call throws
    and changes nothing. *)
Theorem writer_passes_on_what_it_accepts : forall size o cs, (0 < size)%nat ->
  let wr := fst (wserve_all (new_writer size o) cs) in
  (snd (wserve_all (new_writer size o) cs) = all_returned cs /\ sink wr ++ held wr = all_handed cs) \/
  (exists good c later rest, cs = good ++ c :: later /\
     snd (wserve_all (new_writer size o) cs) = all_returned good ++ repeat Threw (S (length later)) /\
     sink wr ++ rest = all_handed (good ++ [c]) /\
     fst (wserve_all (new_writer size o) (good ++ [c])) = wr).
Proof.
  intros size o cs N wr. destruct (wserve_all_spec cs _ [] (Z.of_nat size) (new_wholds size o) ltac:(lia) eq_refl)
    as [(X1 & X2 & X3 & X4 & m' & X5 & X6)|(good & c & later & X1 & X2 & X3 & X4 & (rest & X5) & X6)].
  - left. split; [exact X1|]. unfold wr. rewrite (wholds_held _ _ _ X5). exact X6.
  - right. exists good, c, later, rest. auto.
Qed.
Print Assumptions writer_passes_on_what_it_accepts.

Example writer_history :
  let '(wr, ss) := wserve_all (new_writer 4 [Accept 1; Accept 0; Accept 2; Accept 9])
     [Write [1; 2; 3]; WriteByte 4; WriteByte 5; Write [6; 7; 8; 9; 10; 11]; Write []] in
  ss = [Returned 3; Returned 1; Returned 1; Returned 6; Returned 0] /\
  sink wr = [1; 2; 3; 4; 5; 6; 7; 8] /\ held wr = [9; 10; 11].
Proof. vm_compute. auto. Qed.

Example writer_error :
  let '(wr, ss) := wserve_all (new_writer 4 [Accept 1; Refuse 1]) [Write [1; 2; 3; 4]; WriteByte 5; Write [6]; Flush] in
  ss = [Returned 4; Returned 1; Threw; Threw] /\ sink wr = [1; 2].
Proof. vm_compute. auto. Qed.

(** C48.  After a flush that returned, everything handed over has reached the underlying writer
    and nothing is held. *)
Theorem writer_flush_leaves_nothing : forall size o cs, (0 < size)%nat ->
  let '(wr, s) := wserve (fst (wserve_all (new_writer size o) cs)) Flush in
  s <> Threw -> s = Returned 0 /\ sink wr = all_handed cs /\ held wr = [].
Proof.
  intros size o cs N. destruct (wserve_all_spec cs _ [] (Z.of_nat size) (new_wholds size o) ltac:(lia) eq_refl)
    as [(X1 & X2 & X3 & X4 & m' & X5 & X6)|(good & c & later & X1 & X2 & X3 & X4 & _)].
  - destruct (wserve_spec _ m' (Z.of_nat size) Flush X5 ltac:(lia) X2) as (_ & _ & [(A & E1 & m1 & Y1 & Y2 & Y3)|(A & _)]);
      destruct (wserve (fst (wserve_all (new_writer size o) cs)) Flush) as [w1 s]; cbn [fst snd] in *; subst s; [|congruence]. intros _.
    rewrite (Y3 eq_refl) in *. split; [reflexivity|]. split; [|exact (wholds_held _ _ _ Y1)]. cbn [handed] in Y2. rewrite !app_nil_r in Y2. rewrite Y2, X6. reflexivity.
  - rewrite (wserve_broken _ _ X4). congruence.
Qed.
Print Assumptions writer_flush_leaves_nothing.

Example writer_flush_case :
  let '(wr, s) := wserve (fst (wserve_all (new_writer 4 [Accept 1; Accept 0]) [Write [1; 2; 3]])) Flush in
  s = Returned 0 /\ sink wr = [1; 2; 3].
Proof. vm_compute. auto. Qed.

(** C48.  A call throws only if the underlying writer refused. *)
Theorem writer_throws_only_when_refused : forall size o cs, (0 < size)%nat -> (forall k, ~ In (Refuse k) o) ->
  snd (wserve_all (new_writer size o) cs) = all_returned cs.
Proof.
  intros size o cs N No. destruct (wserve_all_spec cs _ [] (Z.of_nat size) (new_wholds size o) ltac:(lia) eq_refl)
    as [(X1 & _)|(good & c & later & X1 & X2 & X3 & X4 & X5 & k & X6)]; [exact X1|]. destruct (No k X6).
Qed.
Print Assumptions writer_throws_only_when_refused.

Example writer_not_refused_case : forall k, ~ In (Refuse k) [Accept 1; Accept 0; Accept 5].
Proof. intros k [|[|[|[]]]]; discriminate. Qed.
