(** C46, C47, C70: the buffered reader of std/io/buf.n. *)
From Verif Require Import Base Base_lemmas Bufio_model Bufio_spec Bufio_proof Bufio_line_proof Bufio_end_proof.

Lemma unread_is rd m n : holds rd m n -> unread rd = m.
Proof. apply holds_sub. Qed.

(** C46.  Whatever the underlying reader answers and whatever the calls are, the answers account
    for consecutive pieces of the stream, starting at its first byte, and the rest of the stream
    is what is still buffered followed by what the underlying reader still has.  No call panics. *)
Theorem reader_delivers_the_stream : forall size s cs, (0 < size)%nat -> Forall call_ok cs ->
  exists delivered, history cs (snd (serve_all (new_reader size s) cs)) delivered /\
    let rd := fst (serve_all (new_reader size s) cs) in stream s = delivered ++ unread rd ++ stream (src rd).
Proof.
  intros size s cs N Ok. destruct (serve_all_spec cs _ [] (Z.of_nat size) (new_holds size s) ltac:(lia) Ok) as (m' & p & H & A & P).
  exists p. split; [exact A|]. cbv zeta. rewrite (unread_is _ _ _ H). exact P.
Qed.
Print Assumptions reader_delivers_the_stream.

Example reader_history :
  snd (serve_all (new_reader 4 [Data [1; 2; 10]; Fail; Data []; Data [3; 13; 10; 4; 5; 6; 7; 8; 9]; End; Data [77]])
    [CByte; CUntil 10; CByte; CLine; CRead 2; CExact 3; CRead 9; CByte; CLine])
  = [Bytes [1]; Bytes [2; 10]; Error []; Bytes [3]; Bytes [4]; Bytes [5; 6; 7]; Bytes [8]; Bytes [9]; Error []].
Proof. vm_compute. reflexivity. Qed.

(** C46.  When the underlying reader always answers with bytes until its stream ends, and no call
    asks for zero bytes, an error is reported only when every byte has been delivered. *)
Theorem reader_error_only_at_the_end : forall size s cs c got, (0 < size)%nat -> Forall proper cs -> proper c -> steady s ->
  let rd := fst (serve_all (new_reader size s) cs) in
  snd (serve rd c) = Error got -> unread rd ++ stream (src rd) = got.
Proof.
  intros size s cs c got N Ok Oc St rd E.
  destruct (serve_all_quiet cs _ [] (Z.of_nat size) (new_holds size s) ltac:(lia)) as (m' & H & Q); [split; [exact St|discriminate]|exact Ok|].
  fold rd in H, Q. rewrite (unread_is _ _ _ H). destruct Q as (Sr & Qe). apply (error_at_end rd m' (Z.of_nat size) c got H ltac:(lia) Sr); [|exact E].
  destruct c; auto.
Qed.
Print Assumptions reader_error_only_at_the_end.

Example reader_error_at_end :
  let rd := fst (serve_all (new_reader 4 [Data [1; 2; 3; 10; 5]; Data [6]]) [CByte; CLine]) in
  snd (serve rd (CExact 9)) = Error [5; 6].
Proof. vm_compute. reflexivity. Qed.

(** C46: asking for zero bytes when nothing is buffered is answered with the end of the stream,
    and from then on read_line finds no line although the stream goes on. *)
Theorem reader_error_only_at_the_end_refuted : exists s cs,
  steady s /\ Forall call_ok cs /\
  snd (serve_all (new_reader (Z.to_nat 4096) s) cs) = [Error []; Error []] /\
  stream (src (fst (serve_all (new_reader (Z.to_nat 4096) s) cs))) = [97; 10].
Proof.
  exists [Data [97; 10]], [CRead 0; CLine]. split; [constructor; [eexists; split; [reflexivity|discriminate]|constructor]|].
  split; [repeat constructor; cbn; lia|]. split; vm_compute; reflexivity.
Qed.
Print Assumptions reader_error_only_at_the_end_refuted.

(** C70.  On a stream that is answered with bytes until it ends, whose runs of bytes between line
    feeds are shorter than the buffer, read_line returns the lines of the stream in order, and
    after the last one only errors. *)
Theorem read_line_returns_the_lines_partial : forall size s ls k, (0 < size)%nat -> steady s ->
  short_lines (Z.of_nat size) (stream s) -> lines (stream s) ls ->
  read_lines (length ls + k) (new_reader size s) = map Some ls ++ repeat None k.
Proof.
  intros size s ls k N St Sh L. apply (read_lines_spec ls _ [] (Z.of_nat size)); auto; [apply new_holds|lia|]. split; [exact St|discriminate].
Qed.
Print Assumptions read_line_returns_the_lines_partial.

Example read_line_case :
  let s := [Data [97; 98]; Data [10; 13]; Data [10; 99; 13; 100]] in
  steady s /\ short_lines 5 (stream s) /\ lines (stream s) [[97; 98]; []; [99; 13; 100]] /\
  read_lines 5 (new_reader 5 s) = [Some [97; 98]; Some []; Some [99; 13; 100]; None; None].
Proof.
  cbv zeta. split; [repeat constructor; eexists; split; try reflexivity; discriminate|]. split; [|split].
  - cbn. intros a b c E Nb. apply (f_equal (@length Z)) in E as El. rewrite !app_length in El. cbn [length] in El.
    destruct (Z.lt_ge_cases (zlen b) 5) as [|G]; [assumption|exfalso]. unfold zlen in G.
    do 4 (destruct a as [|? a]; cbn [length app] in *;
      [do 5 (destruct b as [|? b]; cbn [length app] in *; [lia|]); injection E; intros; subst; apply Nb; cbn; tauto|injection E as <- E]). 
    lia.
  - cbn. apply (lines_lf [97; 98]); [cbn; lia|intros l E; destruct l as [|? [|? [|? ?]]]; discriminate|].
    apply (lines_crlf []); [intros []|]. apply lines_last; [discriminate|cbn; lia].
  - vm_compute. reflexivity.
Qed.

(** C70: a line as long as the buffer comes back as two lines. *)
Theorem read_line_returns_the_lines_refuted : exists s line,
  steady s /\ lines (stream s) [line] /\
  read_lines 2 (new_reader (Z.to_nat 4096) s) = [Some line; Some []].
Proof.
  exists [Data (repeat 97 (Z.to_nat 4096) ++ [10])], (repeat 97 (Z.to_nat 4096)).
  assert (Ni : ~ In 10 (repeat 97 (Z.to_nat 4096))) by (intro I; apply repeat_spec in I; discriminate).
  split; [constructor; [eexists; split; [reflexivity|]|constructor]; intro E; apply app_eq_nil in E as (_ & E); discriminate|].
  split; [|vm_compute; reflexivity].
  unfold stream. cbn [map concat]. rewrite app_nil_r. apply lines_lf; [exact Ni| |constructor].
  intros l' E. assert (I : In 13 (repeat 97 (Z.to_nat 4096))) by (rewrite E; apply in_or_app; right; now left). apply repeat_spec in I. discriminate.
Qed.
Print Assumptions read_line_returns_the_lines_refuted.

(** C47.  The vector returned by read_until keeps its bytes as long as every later call can be
    answered from the bytes already fetched. *)
Theorem until_bytes_stay_partial : forall size s before d cs, (0 < size)%nat -> Forall call_ok before -> Forall call_ok cs ->
  let rd := fst (serve_all (new_reader size s) before) in
  forall rd' bounds, read_until rd d = (rd', Ret bounds) -> all_answered_from_buffer rd' cs ->
  view (buf (fst (serve_all rd' cs))) bounds = view (buf rd') bounds.
Proof.
  intros size s before d cs N Ob Oc rd rd' bounds E A.
  destruct (serve_all_spec before _ [] (Z.of_nat size) (new_holds size s) ltac:(lia) Ob) as (m & p & H & _). fold rd in H.
  destruct (read_until_spec rd m (Z.of_nat size) d H ltac:(lia) _ _ E) as (bd & m' & _ & H' & _).
  now rewrite (serve_all_keeps_buffer cs rd' m' (Z.of_nat size) H' ltac:(lia) Oc A).
Qed.
Print Assumptions until_bytes_stay_partial.

Example until_bytes_stay_case :
  let '(rd, x) := read_until (new_reader 8 [Data [1; 2; 10; 3; 4; 10; 5; 6; 7]]) 10 in
  x = Ret (0, 3) /\ all_answered_from_buffer rd [CByte; CLine; CExact 2].
Proof. vm_compute. intuition discriminate. Qed.

(** C47: another read replaces the bytes of the vector read_until returned. *)
Theorem until_bytes_stay_refuted : exists s rd bounds,
  read_until (new_reader (Z.to_nat 4096) s) 10 = (rd, Ret bounds) /\
  view (buf rd) bounds = [97; 98; 10] /\
  view (buf (fst (serve rd CLine))) bounds = [120; 121; 10].
Proof.
  exists [Data [97; 98; 10]; Data [120; 121; 10]],
    (mk_reader [Data [120; 121; 10]] ([97; 98; 10] ++ repeat 0 (Z.to_nat 4093)) 3 3 false), (0, 3).
  repeat split; vm_compute; reflexivity.
Qed.
Print Assumptions until_bytes_stay_refuted.
