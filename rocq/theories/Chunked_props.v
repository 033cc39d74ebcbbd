(** C54, C71: chunked response bodies (std/http/client.n). *)
From Verif Require Import Base Base_lemmas Bufio_model Bufio_spec Bufio_line_proof Chunked_model Chunked_spec Chunked_proof.

(** C54.  A body sent in chunks, with lines that fit the buffer of the connection's reader, comes
    back piece by piece, in order and complete, whatever the chunks, the network reads and the
    sizes the caller asks for; after it every call reports the end, and the bytes that follow the
    body on the connection have not been touched. *)
Theorem chunked_body_delivered_partial : forall size k s body wire rest ns, (2 <= size)%nat -> (0 < k)%nat -> steady s ->
  stream s = wire ++ rest -> chunked (Z.of_nat size) body wire -> zlen body < 2 ^ 63 -> Forall (fun n => 0 < n) ns ->
  let '(c, l) := creads (new_chunked k (new_reader size s)) ns in
  delivers body ns l /\ (In (Exc true) l -> unread (br c) ++ stream (src (br c)) = rest).
Proof.
  intros size k s body wire rest ns N K St E C B F.
  destruct (like_ready (length body) _ body rest (Z.of_nat size) (Z.of_nat k) ltac:(lia) ltac:(lia) B ltac:(lia) (new_ready s body wire rest size k St E C) eq_refl) as (pieces & Fp & <- & L).
  destruct (L ns F) as (A1 & A2). destruct (creads (new_chunked k (new_reader size s)) ns) as [c l]. cbn [fst snd] in A1, A2.
  split; [|exact A2]. rewrite A1. now apply sreads_delivers.
Qed.
Print Assumptions chunked_body_delivered_partial.

(** C54.  To any caller the chunked reader is a plain source that holds the body: this is what the
    buffered reader handed to the program reads from, so that C46 and C70 apply to it. *)
Theorem chunked_reader_is_a_source_partial : forall size k s body wire rest, (2 <= size)%nat -> (0 < k)%nat -> steady s ->
  stream s = wire ++ rest -> chunked (Z.of_nat size) body wire -> zlen body < 2 ^ 63 ->
  exists source, steady source /\ stream source = body /\
    forall ns, Forall (fun n => 0 < n) ns -> snd (creads (new_chunked k (new_reader size s)) ns) = snd (sreads source ns).
Proof.
  intros size k s body wire rest N K St E C B.
  destruct (like_ready (length body) _ body rest (Z.of_nat size) (Z.of_nat k) ltac:(lia) ltac:(lia) B ltac:(lia) (new_ready s body wire rest size k St E C) eq_refl) as (pieces & Fp & <- & L).
  exists (map Data pieces). split; [|split; [|intros ns F; now apply L]].
  - clear L C B. induction Fp as [|b pieces Nb _ IH]; [constructor|]. constructor; [now exists b|exact IH].
  - unfold stream. now rewrite map_map, map_id.
Qed.
Print Assumptions chunked_reader_is_a_source_partial.

(** C54.  text returns the body. *)
Theorem chunked_text_partial : forall size k s body wire rest, (2 <= size)%nat -> (0 < k)%nat -> steady s ->
  stream s = wire ++ rest -> chunked (Z.of_nat size) body wire -> zlen body < 2 ^ 63 ->
  text_chunked (new_chunked k (new_reader size s)) = Ret body.
Proof.
  intros size k s body wire rest N K St E C B.
  apply (text_ready (new_reader size s) [] (Z.of_nat size) k body wire rest); auto; [apply new_holds|lia|split; [exact St|discriminate]].
Qed.
Print Assumptions chunked_text_partial.

Definition wire1 : list Z := bs "5;x=y" ++ crlf ++ bs "hello" ++ crlf ++ bs " 00C	" ++ crlf ++ [32; 10; 13; 119; 111; 114; 108; 100; 13; 10; 0; 33] ++ crlf ++ bs "0" ++ crlf ++ bs "T: v" ++ crlf ++ crlf.

Example chunked_case :
  chunked 4096 (bs "hello" ++ [32; 10; 13; 119; 111; 114; 108; 100; 13; 10; 0; 33]) wire1 /\
  snd (creads (new_chunked 8 (new_reader 16 [Data (firstn 9 wire1); Data (skipn 9 wire1 ++ [77])])) [2; 9; 3; 1; 100; 100; 100; 5])
  = [Ret (bs "he"); Ret (bs "llo"); Ret [32; 10; 13]; Ret [119]; Ret [111; 114; 108; 100; 13; 10; 0; 33]; Exc true; Exc true; Exc true].
Proof.
  split; [|vm_compute; reflexivity].
  assert (H5 : hex_text (bs "5") 5) by (apply (hex_more [] 0 53 5); [constructor|left; lia]).
  assert (H0 : hex_text (bs "0") 0) by (apply (hex_more [] 0 48 0); [constructor|left; lia]).
  assert (HC : hex_text (bs "00C") 12).
  { apply (hex_more [48; 48] 0 67 12); [|right; right; lia]. apply (hex_more [48] 0 48 0); [exact H0|left; lia]. }
  unfold wire1. apply (chunked_more 4096 (bs "5;x=y")); [| |discriminate|].
  - exists [], (bs "5"), [], (bs ";x=y"). repeat split; try constructor; auto; [discriminate|exists (bs "x=y"); reflexivity|cbn; lia].
  - vm_compute. discriminate.
  - rewrite <- (app_nil_r [32; 10; 13; 119; 111; 114; 108; 100; 13; 10; 0; 33]) at 1. apply (chunked_more 4096 (bs " 00C	")); [| |discriminate|].
    + exists (bs " "), (bs "00C"), [9], []. repeat split; auto; try (repeat constructor; auto; fail); [discriminate|cbn; lia].
    + vm_compute. discriminate.
    + apply (chunked_last 4096 (bs "0")); [|vm_compute; discriminate|].
      * exists [], (bs "0"), [], []. repeat split; try constructor; auto; [discriminate|cbn; lia].
      * apply (trailers_more 4096 (bs "T: v")); [discriminate|cbn; lia|vm_compute; discriminate|constructor].
Qed.

(** C54: a chunk extension that makes the size line longer than the buffer becomes part of the body. *)
Theorem chunked_body_refuted : exists s wire got,
  steady s /\ stream s = wire /\ chunked 10000 (bs "hi") wire /\
  text_chunked (new_chunked (Z.to_nat 4096) (new_reader (Z.to_nat 4096) s)) = Ret got /\ got <> bs "hi".
Proof.
  set (ext := repeat 120 (Z.to_nat 4094)).
  set (wire := (50 :: 59 :: ext ++ bs "abc") ++ crlf ++ bs "hi" ++ crlf ++ bs "0" ++ crlf ++ crlf).
  exists [Data wire], wire, (bs "ab"). split; [repeat constructor; eexists; split; [reflexivity|discriminate]|].
  split; [unfold stream; cbn [map concat]; apply app_nil_r|]. split; [|split; [vm_compute; reflexivity|discriminate]].
  unfold wire. rewrite <- (app_nil_r (bs "hi")) at 1. apply (chunked_more 10000 (50 :: 59 :: ext ++ bs "abc")); [| |discriminate|].
  - exists [], [50], [], (59 :: ext ++ bs "abc"). split; [reflexivity|]. split; [constructor|]. split; [constructor|]. split; [discriminate|].
    split; [apply (hex_more [] 0 50 2); [constructor|left; lia]|]. split; [right; eauto|].
    intro I. cbn [app In] in I. destruct I as [I|[I|I]]; try lia. apply in_app_or in I as [I|I]; [apply repeat_spec in I; lia|cbn in I; lia].
  - vm_compute. discriminate.
  - apply (chunked_last 10000 (bs "0")); [|vm_compute; discriminate|constructor].
    exists [], (bs "0"), [], []. repeat split; try constructor; auto; [discriminate|apply (hex_more [] 0 48 0); [constructor|left; lia]|cbn; lia].
Qed.
Print Assumptions chunked_body_refuted.

(** C71: a chunked response cut off in the middle of a chunk is returned as a complete, shorter
    body; so is one whose connection fails, and one with a size line that is no number. *)
Theorem truncation_reported_refuted :
  exists wire extra more, chunked 4096 (bs "hello world") (wire ++ extra) /\ extra <> [] /\
    text_chunked (new_chunked (Z.to_nat 4096) (new_reader (Z.to_nat 4096) [Data wire])) = Ret (bs "hello") /\
    text_chunked (new_chunked (Z.to_nat 4096) (new_reader (Z.to_nat 4096) [Data wire; Fail; Data extra])) = Ret (bs "hello") /\
    text_chunked (new_chunked (Z.to_nat 4096) (new_reader (Z.to_nat 4096) [Data (bs "zz" ++ crlf ++ more)])) = Ret [].
Proof.
  exists (bs "5" ++ crlf ++ bs "hello" ++ crlf ++ bs "6" ++ crlf), (bs " world" ++ crlf ++ bs "0" ++ crlf ++ crlf), (bs "body" ++ crlf).
  split; [|split; [discriminate|split; [vm_compute; reflexivity|split; vm_compute; reflexivity]]].
  assert (H0 : size_line (bs "0") 0).
  { exists [], (bs "0"), [], []. repeat split; try constructor; auto; [discriminate|apply (hex_more [] 0 48 0); [constructor|left; lia]|cbn; lia]. }
  assert (H5 : size_line (bs "5") 5).
  { exists [], (bs "5"), [], []. repeat split; try constructor; auto; [discriminate|apply (hex_more [] 0 53 5); [constructor|left; lia]|cbn; lia]. }
  assert (H6 : size_line (bs "6") 6).
  { exists [], (bs "6"), [], []. repeat split; try constructor; auto; [discriminate|apply (hex_more [] 0 54 6); [constructor|left; lia]|cbn; lia]. }
  assert (C0 : chunked 4096 [] (bs "0" ++ crlf ++ crlf)) by (apply chunked_last; [exact H0|vm_compute; discriminate|constructor]).
  pose proof (chunked_more 4096 (bs "6") (bs " world") [] _ H6 ltac:(vm_compute; discriminate) ltac:(discriminate) C0) as C1.
  exact (chunked_more 4096 (bs "5") (bs "hello") _ _ H5 ltac:(vm_compute; discriminate) ltac:(discriminate) C1).
Qed.
Print Assumptions truncation_reported_refuted.
