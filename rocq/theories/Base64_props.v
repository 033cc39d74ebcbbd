(** C116, C117: base64. *)
From Verif Require Import Base Base_lemmas Base64_model Base64_spec Base64_proof.

(** The text written is the one RFC 4648 prescribes, and there is only one. *)
Theorem c116_encode : forall bs, bytes bs -> zlen bs <= 2 ^ 62 ->
  exists t, encode bs = Ok t /\ written bs t /\ forall t', written bs t' -> t' = t.
Proof.
  intros bs Hb Hl. destruct (encode_ok bs Hb Hl) as (t & E & W). exists t. split; [exact E|]. split; [exact W|].
  intros t' W'. exact (written_fun _ _ W' _ W).
Qed.
Print Assumptions c116_encode.

(** What was encoded is got back, also when the text was broken into lines on its way. *)
Theorem c116_round_trip : forall bs t, bytes bs -> encode bs = Ok t -> zlen bs <= 2 ^ 62 ->
  decode t = Ok bs /\ forall text, laid text t -> decode text = Ok bs.
Proof.
  intros bs t Hb E Hl. destruct (encode_ok bs Hb Hl) as (t' & E' & W). rewrite E in E'. injection E' as <-.
  pose proof (written_b64 _ _ W Hb) as B.
  split; [|intros text HL; exact (decode_complete _ _ _ HL B)].
  apply (decode_complete t t); [|exact B]. apply plain_laid. exact (b64_plain _ _ B).
Qed.
Print Assumptions c116_round_trip.

(** [decode] answers with what the text stands for, and throws when it is not base64. *)
Theorem c117_decode : forall text, bytes text ->
  (exists cs bs, laid text cs /\ b64 cs bs /\ decode text = Ok bs) \/
  (decode text = Throw /\ forall cs bs, laid text cs -> ~ b64 cs bs).
Proof.
  intros text Hb. destruct (decode_sound text Hb) as [H|H]; [left; exact H|right]. split; [exact H|].
  intros cs bs HL B. rewrite (decode_complete _ _ _ HL B) in H. discriminate.
Qed.
Print Assumptions c117_decode.

(** A text stands for one sequence of bytes only. *)
Theorem c117_unique : forall text cs bs cs' bs', bytes text ->
  laid text cs -> b64 cs bs -> laid text cs' -> b64 cs' bs' -> bs = bs'.
Proof.
  intros text cs bs cs' bs' Hb L1 B1 L2 B2. pose proof (decode_complete _ _ _ L1 B1) as E1. rewrite (decode_complete _ _ _ L2 B2) in E1. congruence.
Qed.
Print Assumptions c117_unique.

(** Text that no encoder writes is accepted: "QQ==" and "QR==" both give "A". *)
Theorem c117_canonical_refuted : exists text bs,
  decode text = Ok bs /\ bytes text /\ Forall (fun c => c <> 32 /\ c <> 10 /\ c <> 13) text /\ encode bs <> Ok text.
Proof.
  exists [81; 82; 61; 61], [65]. split; [vm_compute; reflexivity|]. split; [repeat constructor; lia|]. split; [repeat constructor; lia|].
  vm_compute. discriminate.
Qed.
Print Assumptions c117_canonical_refuted.

(** "Hi!?" is "SGkhPw==", also with a blank and line breaks in it. *)
Example encode_hi : bytes [72; 105; 33; 63] /\ encode [72; 105; 33; 63] = Ok [83; 71; 107; 104; 80; 119; 61; 61].
Proof. split; [repeat constructor; lia|vm_compute; reflexivity]. Qed.
Example laid_hi : laid [83; 71; 107; 32; 13; 10; 104; 80; 119; 10; 61; 61; 10] [83; 71; 107; 104; 80; 119; 61; 61].
Proof.
  do 3 (apply L_char; [lia|lia|lia|]). apply (L_crlf 1). do 3 (apply L_char; [lia|lia|lia|]). apply (L_lf 0).
  do 2 (apply L_char; [lia|lia|lia|]). apply (L_lf 0). apply (L_end 0).
Qed.
Example decode_bad : bytes [83; 71; 107] /\ decode [83; 71; 107] = Throw /\ decode [83; 32; 71; 107; 104] = Throw.
Proof. split; [repeat constructor; lia|]. split; vm_compute; reflexivity. Qed.
