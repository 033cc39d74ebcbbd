(** On a steady stream the reader learns of the end only at the end. *)
From Verif Require Import Base Base_lemmas Bufio_model Bufio_spec Bufio_proof Bufio_line_proof.

Lemma steady_stream_nil s : steady s -> stream s = [] -> s = [].
Proof.
  intros St E. destruct s as [|e s]; [reflexivity|]. inversion St as [|? ? (b & -> & Nb) _]; subst. rewrite stream_cons in E.
  apply app_eq_nil in E as (-> & _). contradiction.
Qed.

Lemma quiet_keep rd m rd' m' p : quiet rd m -> steady (src rd') -> eof rd' = eof rd -> pending rd m = p ++ pending rd' m' -> quiet rd' m'.
Proof.
  intros (St & Q) St' Ee P. split; [exact St'|]. intro E. rewrite Ee in E. destruct (Q E) as (S0 & ->). unfold pending in P. rewrite S0 in P. cbn in P.
  symmetry in P. apply app_eq_nil in P as (_ & P). apply app_eq_nil in P as (-> & P). split; [|reflexivity]. now apply steady_stream_nil.
Qed.

Lemma exact_quiet f : forall rd m n k got, holds rd m n -> 0 < n -> steady (src rd) ->
  forall rd' x got', exact_loop f rd k got = (rd', x, got') -> zlen got <= k -> steady (src rd') /\ eof rd' = eof rd.
Proof.
  induction f as [|f IH]; intros rd m n k got H N St rd' x got' E L; cbn [exact_loop] in E; [injection E as <- <- <-; auto|].
  destruct (Z.ltb_spec (zlen got) k); [|injection E as <- <- <-; auto]. destruct (read rd (k - zlen got)) as [rd1 y] eqn:Q.
  destruct (read_spec rd m n (k - zlen got) H N ltac:(lia) _ _ Q) as (m1 & H1 & _ & Y).
  destruct (read_steady rd m n (k - zlen got) H N ltac:(lia) St _ _ Q) as (St1 & Z1). destruct y as [b|e1|]; [| |contradiction].
  - destruct Y as (_ & Lb & _). destruct (IH rd1 m1 n k (got ++ b) H1 N St1 _ _ _ E) as (A & B); [rewrite zlen_app; lia|]. split; [exact A|congruence].
  - injection E as <- <- <-. split; [exact St1|apply Z1].
Qed.

Lemma until_quiet rd m n d rd' bd : holds rd m n -> 0 < n -> quiet rd m -> read_until rd d = (rd', Ret bd) ->
  exists m', holds rd' m' n /\ quiet rd' m'.
Proof.
  intros H N Q E. pose proof Q as (St & Qe). destruct (read_until_spec rd m n d H N _ _ E) as (bd' & m' & Eb & H' & P & he & _ & A & B).
  destruct (until_steady _ rd m n d false H N St ltac:(discriminate) _ _ E) as (St' & Es). exists m'. split; [exact H'|].
  destruct (eof rd) eqn:Eo.
  - assert (Ee : eof rd' = eof rd) by (destruct he; [destruct (A eq_refl); congruence|now rewrite Eo, (B eq_refl)]).
    exact (quiet_keep rd m rd' m' _ Q St' Ee P).
  - split; [exact St'|]. intro E1. split; [now apply Es|]. destruct he; [now apply A|]. rewrite (B eq_refl) in E1. discriminate.
Qed.

(** Calls other than reading into a vector of length zero. *)
Definition proper (c : call) : Prop := match c with CRead n => 0 < n | CExact n => 0 <= n | _ => True end.

Lemma proper_ok c : proper c -> call_ok c.
Proof. destruct c; cbn; auto; lia. Qed.

Lemma serve_quiet rd m n c : holds rd m n -> 0 < n -> quiet rd m -> proper c ->
  exists m', holds (fst (serve rd c)) m' n /\ quiet (fst (serve rd c)) m'.
Proof.
  intros H N Q Ok. pose proof Q as (St & Qe). destruct c as [k|k| |d|]; cbn [serve proper] in *.
  - destruct (read rd k) as [rd' x] eqn:E. destruct (read_spec rd m n k H N ltac:(lia) _ _ E) as (m' & H' & _ & X).
    destruct (read_steady rd m n k H N Ok St _ _ E) as (St' & Y). exists m'. destruct x as [b|e|]; cbn [answer fst]; [| |contradiction]; (split; [exact H'|]).
    + exact (quiet_keep _ _ _ _ _ Q St' Y (proj1 X)).
    + destruct Y as (_ & _ & _ & Ee). exact (quiet_keep _ _ _ _ [] Q St' Ee (proj1 X)).
  - destruct (read_exact rd k) as [[rd' x] got] eqn:E. destruct (read_exact_spec rd m n k H N Ok _ _ _ E) as (m' & H' & P & _).
    destruct (exact_quiet _ rd m n k [] H N St _ _ _ E) as (St' & Ee); [now rewrite zlen_nil|]. exists m'.
    pose proof (quiet_keep _ _ _ _ _ Q St' Ee P). destruct x; cbn [fst]; auto.
  - destruct (read_byte rd) as [rd' x] eqn:E. destruct (read_byte_spec rd m n H N _ _ E) as (m' & H' & X).
    replace (fst (answer (fun c => [c]) (rd', x))) with rd' by (now destruct x). exists m'. split; [exact H'|].
    unfold read_byte in E. destruct (r rd =? w rd) eqn:Rw.
    + pose proof (holds_len _ _ _ H) as (Lm & _). destruct (fill rd) as [rd1 y] eqn:F.
      destruct (fill_steady rd m n H ltac:(lia) St _ _ F) as (St1 & Y1). destruct (fill_spec rd m n H ltac:(lia) _ _ F) as (m1 & P1 & Pe & _ & Y).
      destruct y as [u|e1|]; [| |contradiction].
      * destruct Y as (_ & _ & Ee). destruct (at_ (buf rd1) (r rd1)); injection E as <- <-; try contradiction.
        apply (quiet_keep rd m _ m' [a] Q); [exact St1|exact Ee|exact X].
      * injection E as <- <-. destruct X as (_ & ->). split; [exact St1|]. auto.
    + destruct (at_ (buf rd) (r rd)); injection E as <- <-; try contradiction. apply (quiet_keep rd m _ m' [a] Q); [exact St|reflexivity|exact X].
  - destruct (read_until rd d) as [rd' x] eqn:E. destruct (read_until_spec rd m n d H N _ _ E) as (bd & m0 & -> & _). cbn [fst]. exact (until_quiet _ _ _ _ _ _ H N Q E).
  - unfold read_line. destruct (eof rd) eqn:Eo; [exists m; auto|]. destruct (read_until rd 10) as [rd' x] eqn:E.
    destruct (read_until_spec rd m n 10 H N _ _ E) as (bd & m0 & -> & _). destruct (until_quiet _ _ _ _ _ _ H N Q E) as (m' & H' & Q').
    exists m'. destruct (eof rd' && _); [auto|]. destruct (chop 10 _). auto.
Qed.

Lemma serve_all_quiet cs : forall rd m n, holds rd m n -> 0 < n -> quiet rd m -> Forall proper cs ->
  exists m', holds (fst (serve_all rd cs)) m' n /\ quiet (fst (serve_all rd cs)) m'.
Proof.
  induction cs as [|c cs IH]; intros rd m n H N Q Ok; [exists m; auto|]. inversion Ok as [|? ? Oc Os]; subst.
  destruct (serve_quiet rd m n c H N Q Oc) as (m1 & H1 & Q1). cbn [serve_all]. destruct (serve rd c) as [rd1 s]. cbn [fst] in *.
  destruct (IH rd1 m1 n H1 N Q1 Os) as (m2 & H2 & Q2). destruct (serve_all rd1 cs). exists m2. auto.
Qed.
