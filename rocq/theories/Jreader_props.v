(** C45, C69: the incremental JSON reader. *)
From Verif Require Import Base Base_lemmas Json_type Json_spec Json_model Json_value_proof Jreader_model Jreader_proof.

(** ** C45 *)

(** Writing the chunks one after the other, stopping at the first error, ends like writing their
    concatenation in one go: the same answer or error, and (unless there was an error) the same
    reader, so everything later is the same too.  On an error the two readers have come to the
    same byte and differ only in the input they were given. *)
Theorem json_reader_chunking : forall chunks,
  let many := writes reader chunks in
  let one := write reader (concat chunks) in
  snd many = snd one /\
  (forall b, snd one = Ok b -> fst many = fst one) /\
  set_data (fst many) [] = set_data (fst one) [] /\ scan_cursor (fst many) = scan_cursor (fst one).
Proof.
  intro chunks. cbv zeta. destruct (writes_concat chunks reader reader_caught_up) as (A & B & C).
  split; [exact A|]. split; [intros b E; rewrite E in C; exact C|]. split; [exact B|].
  apply (f_equal scan_cursor) in B. exact B.
Qed.
Print Assumptions json_reader_chunking.

(** The same at any moment: after any chunks written without error, what comes next may be cut
    in any way. *)
Theorem json_reader_chunking_later : forall before r b chunks,
  writes reader before = (r, Ok b) ->
  snd (writes r chunks) = snd (write r (concat chunks)) /\
  (forall b', snd (write r (concat chunks)) = Ok b' -> fst (writes r chunks) = fst (write r (concat chunks))).
Proof.
  intros before r b chunks E.
  assert (C : caught_up r).
  { assert (K : forall l q, caught_up q -> forall r b, writes q l = (r, Ok b) -> caught_up r).
    { clear. induction l as [|c l IH]; intros q Q r b E; cbn [writes] in E; [injection E as <- _; exact Q|].
      destruct (write q c) as [q' e] eqn:W. destruct e as [x| | | | |]; try discriminate E.
      eapply IH; [|exact E]. eapply write_caught_up; eauto. }
    exact (K before reader reader_caught_up r b E). }
  destruct (writes_concat chunks r C) as (A & _ & B). split; [exact A|]. intros b' E'. rewrite E' in B. exact B.
Qed.
Print Assumptions json_reader_chunking_later.

(** write never panics: it answers or throws. *)
Theorem json_reader_total : forall chunks, snd (writes reader chunks) = Throw \/ exists b, snd (writes reader chunks) = Ok b.
Proof.
  intro chunks. destruct (writes_run chunks) as (E & _). rewrite E. pose proof (run_fine reader (concat chunks)) as F.
  destruct (snd (run reader (concat chunks))); try contradiction; eauto.
Qed.
Print Assumptions json_reader_total.

Example json_reader_examples :
  let one := bs " {""a"":[1,""]}""]} " in
  let cut := [bs " {"; bs """"; []; bs "a"":[1,"; bs """]}"""; bs "]"; bs "} "] in
  concat cut = one /\ snd (write reader one) = Ok true /\ snd (writes reader cut) = Ok true /\
  snd (writes reader (firstn 6 cut)) = Ok false /\
  snd (writes reader [bs "[1"; bs "}"; bs "]"]) = Throw.
Proof. repeat split; reflexivity. Qed.

(** ** C69 *)

(** The full statement would be: writing a document (cut anyhow) makes write answer true exactly
    when the document has ended, and value then gives what parse gives.  A document that is a
    bare number or literal with no white space behind it breaks it: parse accepts it, the reader
    never reports it complete. *)
Theorem json_reader_agrees_refuted : exists s v, parse s = Ok v /\
  forall chunks, concat chunks = s -> snd (writes reader chunks) = Ok false /\ value (fst (writes reader chunks)) = Throw.
Proof.
  exists (bs "1"), (JNum (bs "1")). split; [reflexivity|]. intros chunks E. destruct (writes_run chunks) as (A & B). rewrite E in A.
  change (snd (run reader (bs "1"))) with (@Ok bool false) in A. split; [exact A|]. destruct (B false A) as (C & _).
  unfold value. now rewrite C.
Qed.
Print Assumptions json_reader_agrees_refuted.

(** Every document of at most 256 levels whose root is a string, an array or an object, or
    which ends in white space.  Missing: numbers and literals at the very end of the input, where
    the statement is false. *)
Theorem json_reader_agrees_partial : forall s v chunks,
  document 256 s v -> concat chunks = s ->
  (~ is_scalar v \/ exists s' c, s = s' ++ [c] /\ space c) ->
  snd (writes reader chunks) = Ok true /\ value (fst (writes reader chunks)) = Ok v /\ parse s = Ok v.
Proof.
  intros s v chunks D E H. pose proof (proj2 (parse_exact 256 s v ltac:(reflexivity)) D) as P.
  destruct (writes_run chunks) as (A & B). rewrite E in A.
  destruct D as (w1 & t & w2 & Es & W1 & T & W2).
  assert (R : snd (run reader s) = Ok true).
  { rewrite Es. apply (document_run 256 w1 t w2 v); auto; [unfold DEFAULT_MAX_DEPTH; lia|]. destruct H as [H|(s' & c & Ec & C)]; [now left|].
    assert (Dv : is_scalar v \/ ~ is_scalar v) by (destruct v; cbn; auto). destruct Dv as [Sv|Sv]; [right|now left].
    intros ->. rewrite app_nil_r in Es. rewrite Ec in Es.
    pose proof (scalar_chars _ _ _ T Sv) as F. destruct (exists_last (l := t)) as (t' & x & Et); [destruct (text_start _ _ _ T) as (a & r & -> & _); discriminate|].
    rewrite Et in F. apply Forall_app in F as [_ F]. inversion F as [|? ? [Nx _] _]; subst x0.
    rewrite Et, app_assoc in Es. apply app_inj_tail in Es as [_ <-]. contradiction. }
  rewrite R in A. split; [exact A|]. destruct (B true A) as (C & Dt). split; [|exact P].
  unfold value. rewrite C, Dt, E. exact P.
Qed.
Print Assumptions json_reader_agrees_partial.

(** It does not answer true too early: not before the last byte of the value. *)
Theorem json_reader_not_early : forall w t v chunks rest,
  ws w -> text 256 t v -> concat chunks ++ rest = w ++ t -> rest <> [] ->
  snd (writes reader chunks) = Ok false.
Proof.
  intros w t v chunks rest W T E N. destruct (writes_run chunks) as (A & _). rewrite A.
  apply (document_early 256 w t v _ rest); auto. unfold DEFAULT_MAX_DEPTH; lia.
Qed.
Print Assumptions json_reader_not_early.

(** And whenever it answers true, value gives what parse makes of the whole input. *)
Theorem json_reader_value_is_parse : forall chunks,
  snd (writes reader chunks) = Ok true -> value (fst (writes reader chunks)) = parse (concat chunks).
Proof. intros chunks E. destruct (writes_run chunks) as (_ & B). destruct (B true E) as (C & D). unfold value. now rewrite C, D. Qed.
Print Assumptions json_reader_value_is_parse.

Example json_reader_agrees_example :
  document 256 (bs " [1, ""x""] ") (JArr [JNum (bs "1"); JStr (bs "x")]) /\
  ~ is_scalar (JArr [JNum (bs "1"); JStr (bs "x")]) /\
  value (fst (writes reader [bs " [1,"; bs " ""x"; bs """] "])) = Ok (JArr [JNum (bs "1"); JStr (bs "x")]).
Proof. split; [apply (parse_exact 256); reflexivity|]. split; [cbn; tauto|reflexivity]. Qed.
