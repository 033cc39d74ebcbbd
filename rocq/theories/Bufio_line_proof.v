(** Histories of calls, lines, and the vector that read_until returns. *)
From Verif Require Import Base Base_lemmas Bufio_model Bufio_spec Bufio_proof.

Lemma read_exact_spec rd m n k : holds rd m n -> 0 < n -> 0 <= k -> forall rd' x got', read_exact rd k = (rd', x, got') ->
  exists m', holds rd' m' n /\ pending rd m = got' ++ pending rd' m' /\
    match x with Ret _ => zlen got' = k | Exc _ => zlen got' < k /\ m' = [] | Pan => False end.
Proof.
  intros H N K rd' x got' E. unfold read_exact in E.
  assert (F : (Z.to_nat (k - zlen (@nil Z)) + length (src rd) + 1 <= Z.to_nat k + length (src rd) + 1)%nat) by (rewrite zlen_nil, Z.sub_0_r; lia).
  destruct (exact_loop_spec _ rd m n k [] H N ltac:(now rewrite zlen_nil) F _ _ _ E) as (m' & more & H' & -> & P & X).
  exists m'. auto.
Qed.

Lemma serve_spec rd m n c : holds rd m n -> 0 < n -> call_ok c ->
  exists m' p, holds (fst (serve rd c)) m' n /\ accounts c (snd (serve rd c)) p /\ pending rd m = p ++ pending (fst (serve rd c)) m'.
Proof.
  intros H N Ok. destruct c as [k|k| |d|]; cbn [serve call_ok] in *.
  - destruct (read rd k) as [rd' x] eqn:E. destruct (read_spec rd m n k H N Ok _ _ E) as (m' & H' & _ & X). exists m'.
    destruct x as [b|e|]; cbn [answer fst snd]; [|exists []|contradiction].
    + destruct X as (P & L & _). exists b. split; [exact H'|]. split; [now constructor|exact P].
    + destruct X as (P & _). split; [exact H'|]. split; [constructor|exact P].
  - destruct (read_exact rd k) as [[rd' x] got] eqn:E.
    destruct (read_exact_spec rd m n k H N Ok _ _ _ E) as (m' & H' & P & X). exists m', got. destruct x as [u|e|]; cbn [fst snd]; [| |contradiction].
    + split; [exact H'|]. split; [now constructor|exact P].
    + split; [exact H'|]. destruct X. split; [now constructor|exact P].
  - destruct (read_byte rd) as [rd' x] eqn:E. destruct (read_byte_spec rd m n H N _ _ E) as (m' & H' & X). exists m'.
    destruct x as [c|e|]; cbn [answer fst snd]; [exists [c]|exists []|contradiction].
    + split; [exact H'|]. split; [constructor|exact X].
    + split; [exact H'|]. split; [constructor|exact (proj1 X)].
  - destruct (read_until rd d) as [rd' x] eqn:E. destruct (read_until_spec rd m n d H N _ _ E) as (bd & m' & -> & H' & P & he & St & _).
    cbn [fst snd]. exists m', (view (buf rd') bd). split; [exact H'|]. split; [|exact P].
    destruct St as [p -> Np|Nb _ _|Nb _]; now constructor.
  - destruct (read_line rd) as [rd' x] eqn:E. destruct (read_line_spec rd m n H N _ _ E) as (m' & H' & X). exists m'.
    destruct x as [l|e|]; cbn [answer fst snd]; [|exists []|contradiction].
    + destruct X as (raw & P & A). exists raw. auto.
    + split; [exact H'|]. split; [constructor|exact X].
Qed.

Lemma serve_all_spec cs : forall rd m n, holds rd m n -> 0 < n -> Forall call_ok cs ->
  exists m' p, holds (fst (serve_all rd cs)) m' n /\ history cs (snd (serve_all rd cs)) p /\ pending rd m = p ++ pending (fst (serve_all rd cs)) m'.
Proof.
  induction cs as [|c cs IH]; intros rd m n H N Ok.
  - exists m, []. split; [exact H|]. split; [constructor|reflexivity].
  - inversion Ok as [|? ? Oc Os]; subst. destruct (serve_spec rd m n c H N Oc) as (m1 & p1 & H1 & A1 & P1).
    cbn [serve_all]. destruct (serve rd c) as [rd1 s]. cbn [fst snd] in *.
    destruct (IH rd1 m1 n H1 N Os) as (m2 & p2 & H2 & A2 & P2). destruct (serve_all rd1 cs) as [rd2 ss]. cbn [fst snd] in *.
    exists m2, (p1 ++ p2). split; [exact H2|]. split; [now constructor|]. rewrite P1, P2. apply app_assoc.
Qed.

Lemma new_holds n s : holds (new_reader n s) [] (Z.of_nat n).
Proof.
  exists [], (repeat 0 n). cbn [new_reader buf r w app]. repeat split. unfold zlen. now rewrite repeat_length.
Qed.

(** ** A steady underlying reader *)

Lemma src_read_steady s c s' x : 0 < c -> steady s -> src_read s c = (s', x) ->
  steady s' /\ match x with Ret b => b <> [] | Exc e => e = true /\ s = [] /\ s' = [] | Pan => False end.
Proof.
  intros C St E. destruct s as [|e s]; cbn [src_read] in E; [injection E as <- <-; auto|].
  inversion St as [|? ? (b & -> & Nb) St']; subst. destruct (Z.leb_spec (zlen b) c).
  - injection E as <- <-. auto.
  - injection E as <- <-. split.
    + constructor; [|exact St']. eexists. split; [reflexivity|]. intro Z0. apply (f_equal (@length Z)) in Z0. rewrite skipn_length in Z0. unfold zlen in *. cbn [length] in Z0. lia.
    + intro Z0. apply (f_equal (@length Z)) in Z0. rewrite firstn_length in Z0. unfold zlen in *. cbn [length] in Z0. lia.
Qed.

Lemma fill_steady rd m n : holds rd m n -> zlen m < n -> steady (src rd) -> forall rd' x, fill rd = (rd', x) ->
  steady (src rd') /\ match x with Ret _ => True | Exc _ => src rd' = [] | Pan => False end.
Proof.
  intros H L St rd' x E. pose proof (holds_len _ _ _ H) as (Lm & R0 & Wn). unfold fill in E.
  set (rd1 := if 0 <? r rd then _ else rd) in E.
  assert (P : packed rd1 m n /\ src rd1 = src rd).
  { unfold rd1. destruct (Z.ltb_spec 0 (r rd)).
    - rewrite (holds_sub _ _ _ H). destruct H as (a & c & B & R & W & N).
      destruct (put_front (buf rd) m) as (c' & -> & Lc); [lia|]. split; [|auto]. exists c'. cbn [buf r w set_buf]. repeat split; auto; lia.
    - destruct H as (a & c & B & R & W & N). assert (a = []) as -> by (destruct a; [reflexivity|rewrite zlen_cons in R; pose proof (zlen_nonneg a); lia]).
      rewrite zlen_nil in *. split; [|auto]. exists c. repeat split; auto. }
  clearbody rd1. destruct P as ((c & B & R & W & N) & Es). destruct (Z.leb_spec (zlen (buf rd1)) (w rd1)); [lia|].
  assert (exists k, 100%nat = S k) as (k & K) by (now exists 99%nat). rewrite K in E. clear K. cbn [fill_loop] in E. destruct (src_read (src rd1) (zlen (buf rd1) - w rd1)) as [s y] eqn:Q.
  apply src_read_steady in Q; [|lia|now rewrite Es]. destruct Q as (St' & Y). destruct y as [b|e|]; [| |contradiction].
  - destruct (Z.ltb_spec 0 (zlen b)); [injection E as <- <-; auto|]. exfalso. destruct b; [now apply Y|]. rewrite zlen_cons in *. pose proof (zlen_nonneg b). lia.
  - destruct Y as (-> & Y1 & ->). injection E as <- <-. auto.
Qed.

Lemma read_steady rd m n k : holds rd m n -> 0 < n -> 0 < k -> steady (src rd) -> forall rd' x, read rd k = (rd', x) ->
  steady (src rd') /\ match x with Ret b => eof rd' = eof rd | Exc _ => m = [] /\ src rd = [] /\ src rd' = [] /\ eof rd' = eof rd | Pan => False end.
Proof.
  intros H N K St rd' x E. pose proof (holds_len _ _ _ H) as (Lm & R0 & Wn). unfold read in E.
  destruct (Z.eqb_spec k 0); [lia|]. destruct (Z.eqb_spec (r rd) (w rd)) as [Q|Q].
  - assert (m = []) as -> by (destruct m; [reflexivity|rewrite zlen_cons in Lm; pose proof (zlen_nonneg m); lia]).
    destruct (Z.leb_spec (zlen (buf rd)) k).
    + destruct (src_read (src rd) k) as [s a] eqn:S. injection E as <- <-. apply src_read_steady in S as (St' & Y); [|lia|exact St].
      split; [exact St'|]. destruct a; [reflexivity| |contradiction]. destruct Y as (_ & Y1 & Y2). auto.
    + cbn [buf src set_buf] in E. pose proof H as (_ & _ & _ & _ & _ & Nn).
      destruct (src_read (src rd) (zlen (buf rd))) as [s y] eqn:S. apply src_read_steady in S as (St' & Y); [|lia|exact St].
      destruct y as [b|e|]; [| |contradiction].
      * destruct (Z.eqb_spec (zlen b) 0) as [Zb|Zb]; [exfalso; destruct b; [now apply Y|]; rewrite zlen_cons in *; pose proof (zlen_nonneg b); lia|].
        unfold take in E. injection E as <- <-. auto.
      * injection E as <- <-. destruct Y as (_ & Y1 & Y2). auto.
  - unfold take in E. injection E as <- <-. auto.
Qed.

Lemma until_steady f : forall rd m n d (he : bool), holds rd m n -> 0 < n -> steady (src rd) -> (he = true -> src rd = []) ->
  forall rd' bd, until_loop f rd d he = (rd', Ret bd) ->
  steady (src rd') /\ (eof rd = false -> eof rd' = true -> src rd' = []).
Proof.
  induction f as [|f IH]; intros rd m n d he H N St Hh rd' bd E; [discriminate|]. cbn [until_loop] in E.
  destruct (index_of d (sub_list (buf rd) (r rd) (w rd))) as [i|].
  { injection E as <- <-. cbn. split; [exact St|congruence]. }
  destruct he; [injection E as <- <-; cbn; split; [exact St|congruence]|].
  destruct (Z.leb_spec (zlen (buf rd)) (buffered rd)) as [Q|Q]; [injection E as <- <-; cbn; split; [exact St|congruence]|].
  unfold buffered in Q. pose proof H as (_ & _ & _ & _ & _ & Nn). pose proof (holds_len _ _ _ H) as (Lm & _).
  destruct (fill rd) as [rd1 y] eqn:F.
  destruct (fill_steady rd m n H ltac:(lia) St _ _ F) as (St1 & Y1). destruct (fill_spec rd m n H ltac:(lia) _ _ F) as (m1 & P1 & _ & _ & Y).
  apply packed_holds in P1. destruct y as [u|e|]; [| |discriminate].
  - destruct Y as (_ & _ & Ee). destruct (IH rd1 m1 n d false P1 N St1 ltac:(discriminate) _ _ E) as (A & B). split; [exact A|]. intro E0. apply B. congruence.
  - destruct (IH (set_eof rd1) m1 n d true P1 N St1 ltac:(auto) _ _ E) as (A & B). split; [exact A|]. intros _ _.
    destruct f as [|f]; [discriminate|]. cbn [until_loop] in E. destruct (index_of d _); injection E as <- _; exact Y1.
Qed.

(** An end that was reported is the end. *)
Definition quiet (rd : reader) (m : list Z) : Prop := steady (src rd) /\ (eof rd = true -> src rd = [] /\ m = []).

(** ** Lines *)

Lemma split_unique (d : Z) p q p' q' : ~ In d p -> ~ In d p' -> p ++ d :: q = p' ++ d :: q' -> p = p' /\ q = q'.
Proof.
  revert p'. induction p as [|x p IH]; intros [|y p'] N N' E; cbn [app] in E.
  - injection E as ->. auto.
  - injection E as -> E. destruct N'. now left.
  - injection E as -> E. destruct N. now left.
  - injection E as -> E. destruct (IH p') as [-> ->]; auto; intro; [apply N|apply N']; now right.
Qed.

Lemma lines_found p t ls : ~ In 10 p -> lines (p ++ 10 :: t) ls -> exists l ls', ls = l :: ls' /\ lines t ls' /\ l = snd (chop 13 p).
Proof.
  intros N L. inversion L as [E|l Nl Ni E|l t' ls' Ni Nc L' E|l t' ls' Ni L' E]; subst.
  - destruct p; discriminate.
  - destruct Ni. apply in_or_app. right. now left.
  - apply split_unique in E as [-> ->]; auto. exists p, ls'. split; [reflexivity|]. split; [exact L'|]. now rewrite chop_no.
  - change (l ++ 13 :: 10 :: t') with (l ++ [13] ++ 10 :: t') in E. rewrite app_assoc in E.
    apply split_unique in E as [<- ->]; auto; [|intro I; apply in_app_or in I as [I|[I|[]]]; [auto|lia]].
    exists l, ls'. split; [reflexivity|]. split; [exact L'|]. now rewrite chop_yes.
Qed.

Lemma lines_rest b ls : ~ In 10 b -> lines b ls -> (b = [] /\ ls = []) \/ (b <> [] /\ ls = [b]).
Proof.
  intros N L. inversion L as [E|l Nl Ni E|l t' ls' Ni Nc L' E|l t' ls' Ni L' E]; subst; auto.
  - destruct N. apply in_or_app. right. now left.
  - destruct N. apply in_or_app. right. right. now left.
Qed.

(** Every run of bytes without a line feed is shorter than the buffer. *)
Definition short_lines (n : Z) (t : list Z) : Prop := forall a b c, t = a ++ b ++ c -> ~ In 10 b -> zlen b < n.

Lemma short_tail n a t : short_lines n (a ++ t) -> short_lines n t.
Proof. intros S x b c -> N. apply (S (a ++ x) b c); [now rewrite <- app_assoc|exact N]. Qed.

Lemma read_lines_eof k : forall rd, eof rd = true -> read_lines k rd = repeat None k.
Proof.
  induction k as [|k IH]; intros rd E; [reflexivity|]. cbn [read_lines repeat]. unfold read_line. rewrite E. now rewrite IH.
Qed.

Lemma read_lines_spec ls : forall rd m n k, holds rd m n -> 0 < n -> quiet rd m -> short_lines n (pending rd m) ->
  lines (pending rd m) ls -> read_lines (length ls + k) rd = map Some ls ++ repeat None k.
Proof.
  induction ls as [|l ls IH]; intros rd m n k H N (St & Qu) Sh L.
  - destruct (eof rd) eqn:Eo; [now apply read_lines_eof|]. destruct k as [|k]; [reflexivity|]. cbn [length Nat.add read_lines map app repeat].
    unfold read_line. rewrite Eo. destruct (read_until rd 10) as [rd1 y] eqn:Q.
    destruct (read_until_spec rd m n 10 H N _ _ Q) as (bd & m' & -> & H' & P' & he & Sp & A & B).
    assert (P0 : pending rd m = []) by (inversion L as [E| | |]; auto). rewrite P0 in P'. symmetry in P'. apply app_eq_nil in P' as (V & P').
    rewrite V in *. destruct Sp as [p Ep _|_ Lb _|_ ->]; [destruct p; discriminate|rewrite zlen_nil in Lb; lia|].
    destruct (A eq_refl) as (_ & Ee). rewrite Ee. cbn [andb]. change (zlen [] =? 0) with true. cbv iota. f_equal. now apply read_lines_eof.
  - assert (Eo : eof rd = false).
    { destruct (eof rd) eqn:Eo; [|reflexivity]. destruct (Qu eq_refl) as (Es & ->). unfold pending in L. rewrite Es in L. cbn in L.
      inversion L as [| l0 E0|l0 t0 ls0 ? ? ? E|l0 t0 ls0 ? ? E]; subst; [contradiction|destruct l; discriminate|destruct l; discriminate]. }
    cbn [length Nat.add read_lines map app]. unfold read_line. rewrite Eo. destruct (read_until rd 10) as [rd1 y] eqn:Q.
    destruct (read_until_spec rd m n 10 H N _ _ Q) as (bd & m' & -> & H' & P' & he & Sp & A & B).
    destruct (until_steady _ rd m n 10 false H N St ltac:(discriminate) _ _ Q) as (St1 & Es1). specialize (Es1 Eo).
    destruct Sp as [p Ep Np|Nb Lb _|Nb ->].
    + rewrite Ep in *. assert (Z0 : eof rd1 && (zlen (p ++ [10]) =? 0) = false).
      { rewrite zlen_app, zlen_cons, zlen_nil. pose proof (zlen_nonneg p). replace (zlen p + (1 + 0) =? 0) with false by lia. apply andb_false_r. }
      rewrite Z0, chop_yes. rewrite <- app_assoc in P'. cbn [app] in P'. rewrite P' in L. apply lines_found in L as (l0 & ls' & E & L' & El); [|exact Np].
      injection E as <- <-. rewrite <- El. f_equal. apply (IH rd1 m' n k H' N); [split; [exact St1|]| |exact L'].
      * intro E1. split; [now apply Es1|]. destruct he; [now apply A|]. rewrite (B eq_refl), Eo in E1. discriminate.
      * rewrite P' in Sh. change (p ++ 10 :: pending rd1 m') with (p ++ [10] ++ pending rd1 m') in Sh. rewrite app_assoc in Sh. exact (short_tail _ _ _ Sh).
    + exfalso. specialize (Sh [] _ _ P' Nb). lia.
    + destruct (A eq_refl) as (-> & Ee). specialize (Es1 Ee). assert (P0 : pending rd1 [] = []) by (unfold pending; now rewrite Es1).
      rewrite P0, app_nil_r in P'. rewrite P' in L. apply lines_rest in L as [(_ & E)|(Nv & E)]; [discriminate| |exact Nb]. injection E as -> ->.
      assert (Z0 : eof rd1 && (zlen (view (buf rd1) bd) =? 0) = false).
      { destruct (view (buf rd1) bd); [contradiction|]. rewrite zlen_cons. pose proof (zlen_nonneg l). replace (1 + zlen l =? 0) with false by lia. apply andb_false_r. }
      rewrite Z0, chop_no by (intros l' El; rewrite El in Nb; apply Nb; apply in_or_app; right; now left). cbn [length Nat.add map app]. f_equal. now apply read_lines_eof.
Qed.

(** ** Errors come only at the end of a steady stream *)

Lemma exact_steady f : forall rd m n k got, holds rd m n -> 0 < n -> steady (src rd) ->
  forall rd' e got', exact_loop f rd k got = (rd', Exc e, got') -> zlen got <= k -> src rd' = [].
Proof.
  induction f as [|f IH]; intros rd m n k got H N St rd' e got' E L; [discriminate|]. cbn [exact_loop] in E.
  destruct (Z.ltb_spec (zlen got) k); [|discriminate]. destruct (read rd (k - zlen got)) as [rd1 y] eqn:Q.
  destruct (read_spec rd m n (k - zlen got) H N ltac:(lia) _ _ Q) as (m1 & H1 & _ & Y).
  destruct (read_steady rd m n (k - zlen got) H N ltac:(lia) St _ _ Q) as (St1 & Z1). destruct y as [b|e1|]; [| |discriminate].
  - destruct Y as (_ & Lb & _). apply (IH rd1 m1 n k (got ++ b) H1 N St1 _ _ _ E). rewrite zlen_app. lia.
  - injection E as <- <- <-. apply Z1.
Qed.

Lemma error_at_end rd m n c got : holds rd m n -> 0 < n -> steady (src rd) ->
  match c with CRead k => 0 < k | CLine => eof rd = true -> src rd = [] /\ m = [] | _ => call_ok c end -> snd (serve rd c) = Error got ->
  pending rd m = got.
Proof.
  intros H N St Ok E. destruct c as [k|k| |d|]; cbn [serve call_ok] in *.
  - destruct (read rd k) as [rd' x] eqn:Q. destruct (read_steady rd m n k H N Ok St _ _ Q) as (St' & X).
    destruct x as [b|e|]; cbn [answer snd] in E; [discriminate| |discriminate]. injection E as <-. destruct X as (-> & Es & _). unfold pending. now rewrite Es.
  - destruct (read_exact rd k) as [[rd' x] g] eqn:Q.
    destruct (read_exact_spec rd m n k H N Ok _ _ _ Q) as (m' & H' & P & X).
    destruct x as [u|e|]; cbn [snd] in E; [discriminate| |discriminate]. injection E as <-.
    assert (S0 : src rd' = []) by (apply (exact_steady _ rd m n k [] H N St _ _ _ Q); now rewrite zlen_nil).
    destruct X as (_ & ->). rewrite P. unfold pending. rewrite S0. cbn. apply app_nil_r.
  - destruct (read_byte rd) as [rd' x] eqn:Q. destruct (read_byte_spec rd m n H N _ _ Q) as (m' & H' & X).
    destruct x as [c|e|]; cbn [answer snd] in E; [discriminate| |discriminate]. injection E as <-. destruct X as (P & ->). rewrite P. unfold pending. cbn [app].
    unfold read_byte in Q. destruct (r rd =? w rd) eqn:Rw; [|destruct (at_ (buf rd) (r rd)); discriminate].
    pose proof (holds_len _ _ _ H) as (Lm & _). destruct (fill rd) as [rd1 y] eqn:F. destruct (fill_steady rd m n H ltac:(lia) St _ _ F) as (St1 & Y).
    destruct y as [u|e1|]; [destruct (at_ (buf rd1) (r rd1)); discriminate| |discriminate]. injection Q as <- <-. now rewrite Y.
  - destruct (read_until rd d) as [rd' x] eqn:Q. destruct (read_until_spec rd m n d H N _ _ Q) as (bd & m' & -> & _). discriminate.
  - unfold read_line in E. destruct (eof rd) eqn:Eo.
    + injection E as <-. destruct (Ok eq_refl) as (Es & ->). unfold pending. now rewrite Es.
    + destruct (read_until rd 10) as [rd1 y] eqn:Q. destruct (read_until_spec rd m n 10 H N _ _ Q) as (bd & m' & -> & H' & P' & he & Sp & A & B).
      destruct (until_steady _ rd m n 10 false H N St ltac:(discriminate) _ _ Q) as (St1 & Es1). specialize (Es1 Eo).
      destruct (eof rd1 && (zlen (view (buf rd1) bd) =? 0)) eqn:Z0.
      * injection E as <-. apply andb_true_iff in Z0 as (Ee & Z0). apply Z.eqb_eq in Z0.
        assert (V : view (buf rd1) bd = []) by (destruct (view (buf rd1) bd); [reflexivity|rewrite zlen_cons in Z0; pose proof (zlen_nonneg l); lia]).
        rewrite V in *. assert (he = true) as -> by (destruct he; [reflexivity|rewrite (B eq_refl), Eo in Ee; discriminate]).
        destruct (A eq_refl) as (-> & _). rewrite P'. unfold pending. now rewrite (Es1 Ee).
      * destruct (chop 10 (view (buf rd1) bd)). discriminate.
Qed.

(** ** The vector returned by read_until *)

Lemma serve_keeps_buffer rd m n c : holds rd m n -> 0 < n -> call_ok c -> answered_from_buffer rd c -> buf (fst (serve rd c)) = buf rd.
Proof.
  intros H N Ok A. pose proof (holds_len _ _ _ H) as (Lm & R0 & Wn). unfold answered_from_buffer, unread in A. rewrite (holds_sub _ _ _ H) in A.
  assert (U : forall d, In d m -> buf (fst (read_until rd d)) = buf rd).
  { intros d I. unfold read_until. rewrite Nat.add_comm. cbn [Nat.add until_loop]. rewrite (holds_sub _ _ _ H). destruct (index_of_in d m I) as (i & ->). reflexivity. }
  destruct c as [k|k| |d|]; cbn [serve call_ok] in *.
  - unfold read. destruct (k =? 0); [destruct (0 <? buffered rd); reflexivity|]. destruct (Z.eqb_spec (r rd) (w rd)); [|reflexivity].
    destruct m; [contradiction|]. rewrite zlen_cons in Lm. pose proof (zlen_nonneg m). lia.
  - unfold read_exact. rewrite Nat.add_comm. cbn [Nat.add exact_loop]. rewrite zlen_nil, Z.sub_0_r. destruct (Z.ltb_spec 0 k); [|reflexivity].
    unfold read. destruct (Z.eqb_spec k 0); [lia|]. destruct (Z.eqb_spec (r rd) (w rd)); [lia|].
    destruct (take rd k) as [rd1 y] eqn:Q. destruct (take_spec rd m n k H ltac:(lia) _ _ Q) as (b & m' & -> & D & Lb & _). cbn [app].
    assert (B1 : buf rd1 = buf rd) by (unfold take in Q; injection Q as <- _; reflexivity).
    assert (Zk : zlen b = k) by lia. destruct (Z.to_nat k + length (src rd))%nat as [|f]; cbn [exact_loop]; [exact B1|].
    rewrite Zk, Z.ltb_irrefl. exact B1.
  - unfold read_byte. destruct (Z.eqb_spec (r rd) (w rd)); [destruct m; [contradiction|rewrite zlen_cons in Lm; pose proof (zlen_nonneg m); lia]|].
    destruct (at_ (buf rd) (r rd)); reflexivity.
  - specialize (U d A). destruct (read_until rd d) as [rd1 [bd|e|]]; exact U.
  - unfold read_line. destruct (eof rd) eqn:Eo; [reflexivity|]. destruct A as [A|A]; [|discriminate]. specialize (U 10 A).
    destruct (read_until rd 10) as [rd1 [bd|e|]]; [|exact U|exact U]. destruct (eof rd1 && _); [exact U|]. destruct (chop 10 _). exact U.
Qed.

Lemma serve_all_keeps_buffer cs : forall rd m n, holds rd m n -> 0 < n -> Forall call_ok cs -> all_answered_from_buffer rd cs ->
  buf (fst (serve_all rd cs)) = buf rd.
Proof.
  induction cs as [|c cs IH]; intros rd m n H N Ok A; [reflexivity|]. inversion Ok as [|? ? Oc Os]; subst. destruct A as (A1 & A2).
  pose proof (serve_keeps_buffer rd m n c H N Oc A1) as B. destruct (serve_spec rd m n c H N Oc) as (m1 & p1 & H1 & _ & _).
  cbn [serve_all]. destruct (serve rd c) as [rd1 s]. cbn [fst] in *. specialize (IH rd1 m1 n H1 N Os A2).
  destruct (serve_all rd1 cs) as [rd2 ss]. cbn [fst] in *. congruence.
Qed.
