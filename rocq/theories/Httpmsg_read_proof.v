(** A response on the wire is read back. *)
From Verif Require Import Base Base_lemmas Strings_model Strings_spec Strings_proof Fmt_model Fmt_spec Fmt_proof
  Bufio_model Bufio_spec Bufio_proof Bufio_line_proof Bufio_end_proof Chunked_model Chunked_spec Chunked_proof Httpmsg_model Httpmsg_spec Httpmsg_proof.

Lemma read_byte_ready rd m n c t : holds rd m n -> 0 < n -> quiet rd m -> pending rd m = c :: t ->
  exists rd' m', read_byte rd = (rd', Ret c) /\ holds rd' m' n /\ quiet rd' m' /\ pending rd' m' = t.
Proof.
  intros H N Q P. destruct (serve_quiet rd m n CByte H N Q) as (m2 & H2 & Q2); [exact Logic.I|].
  pose proof (error_at_end rd m n CByte [] H N (proj1 Q) Logic.I) as Er. cbn [serve] in *.
  destruct (read_byte rd) as [rd' x] eqn:E. destruct (read_byte_spec rd m n H N _ _ E) as (m' & H' & X).
  destruct x as [b|e|]; cbn [answer fst snd] in *; [| |contradiction].
  - assert (m2 = m') as -> by (rewrite <- (holds_sub _ _ _ H2); exact (holds_sub _ _ _ H')).
    rewrite P in X. injection X as -> ->. eauto 8.
  - rewrite Er in P by reflexivity. discriminate.
Qed.

Lemma space_loop_ready l : forall f rd m n got t, holds rd m n -> 0 < n -> quiet rd m -> pending rd m = l ++ 32 :: t -> ~ In 32 l -> (length l < f)%nat ->
  exists rd' m', space_loop f rd got = (rd', Ret (got ++ l)) /\ holds rd' m' n /\ quiet rd' m' /\ pending rd' m' = t.
Proof.
  induction l as [|c l IH]; intros f rd m n got t H N Q P Ni F; (destruct f as [|f]; [cbn [length] in F; lia|]); cbn [app] in P;
    destruct (read_byte_ready rd m n _ _ H N Q P) as (rd1 & m1 & E & H1 & Q1 & P1); cbn [space_loop]; rewrite E.
  - cbn [Z.eqb Pos.eqb]. rewrite app_nil_r. eauto 8.
  - assert (c <> 32) by (intros ->; apply Ni; now left). replace (c =? 32) with false by lia.
    destruct (IH f rd1 m1 n (got ++ [c]) t H1 N Q1 P1) as (rd' & m' & E' & R).
    + intro I. apply Ni. now right.
    + cbn [length] in F. lia.
    + rewrite <- app_assoc in E'. exists rd', m'. auto.
Qed.

Lemma read_until_space_ready rd m n l t : holds rd m n -> 0 < n -> quiet rd m -> pending rd m = l ++ 32 :: t -> ~ In 32 l ->
  exists rd' m', read_until_space rd = (rd', Ret l) /\ holds rd' m' n /\ quiet rd' m' /\ pending rd' m' = t.
Proof.
  intros H N Q P Ni. unfold read_until_space. apply (space_loop_ready l (bytes_left rd + 2) rd m n [] t H N Q P Ni).
  rewrite (bytes_left_pending rd m n H), P, app_length. lia.
Qed.

Lemma cut_space c : (exists t, In (c :: t) [[32]]) <-> c = 32.
Proof. split; [intros (t & [E|[]]); congruence|intros ->; exists []; now left]. Qed.

Lemma spaces_cut a : spaces a <-> Forall (fun c => exists t, In (c :: t) [[32]]) a.
Proof. unfold spaces. rewrite !Forall_forall. split; intros H c I; apply cut_space; auto. Qed.

Lemma rtrim_none s : ~ In 32 s -> rtrim s [[32]] = Ok s.
Proof.
  intro N. destruct (rtrim_spec s [[32]]) as (a & b & -> & E & Fb & _); [repeat constructor; discriminate|].
  apply spaces_cut in Fb. destruct b as [|c b]; [now rewrite app_nil_r in E; subst|]. apply Forall_inv in Fb. subst c.
  exfalso. apply N. rewrite E. apply in_or_app. right. now left.
Qed.

Lemma span_unique (P : Z -> Prop) (x y u v : list Z) : Forall P x -> Forall P u -> (forall c r, y = c :: r -> ~ P c) -> (forall c r, v = c :: r -> ~ P c) ->
  x ++ y = u ++ v -> x = u /\ y = v.
Proof.
  revert y u v. induction x as [|c x IH]; intros y u v Fx Fu Hy Hv E.
  - destruct u as [|d u]; [auto|]. cbn [app] in E. exfalso. apply Forall_inv in Fu. now apply (Hy _ _ E).
  - destruct u as [|d u]; cbn [app] in E.
    + exfalso. apply Forall_inv in Fx. now apply (Hv _ _ (eq_sym E)).
    + injection E as -> E. apply Forall_inv_tail in Fx, Fu. destruct (IH y u v) as (-> & ->); auto.
Qed.

Lemma tight_rev s : tight s -> tight (rev s).
Proof.
  intros (A & B). split; intros c r E; apply (f_equal (@rev Z)) in E; rewrite rev_involutive in E.
  - cbn [rev] in E. eauto.
  - rewrite rev_app_distr in E. cbn [rev app] in E. eauto.
Qed.

Lemma trim_spaces a v b : spaces a -> spaces b -> tight v -> trim (a ++ v ++ b) [[32]] = Ok v.
Proof.
  intros Ha Hb Hv. destruct (trim_spec (a ++ v ++ b) [[32]]) as (a' & m & b' & -> & E & Fa & Fb & M1 & M2); [repeat constructor; discriminate|]. f_equal.
  apply spaces_cut in Fa, Fb. unfold spaces in *.
  assert (Hm : tight m) by (split; intros c r Er Ec; [apply (M1 c r Er)|apply (M2 c r Er)]; apply cut_space; exact Ec). clear M1 M2.
  assert (Gen : forall a v b a' m b' : list Z, Forall (fun c => c = 32) a -> Forall (fun c => c = 32) b -> tight v ->
     a ++ v ++ b = a' ++ m ++ b' -> v = [] -> tight m -> m = []).
  { clear. intros a v b a' m b' Fa Fb _ E -> (M & _). destruct m as [|c m]; [reflexivity|]. exfalso. apply (M c m eq_refl).
    assert (I : In c (a ++ [] ++ b)) by (rewrite E; apply in_or_app; right; now left). cbn [app] in I. apply in_app_or in I as [I|I].
    - now apply (proj1 (Forall_forall _ _) Fa) in I.
    - now apply (proj1 (Forall_forall _ _) Fb) in I. }
  destruct v as [|c v]; [exact (Gen a [] b a' m b' Ha Hb Hv E eq_refl Hm)|].
  destruct m as [|d m]; [symmetry; exact (Gen a' [] b' a (c :: v) b Fa Fb Hm (eq_sym E) eq_refl Hv)|].
  apply (span_unique (fun c => c = 32)) in E as (_ & E); auto.
  2:{ intros x r Er. cbn [app] in Er. injection Er as <- _. exact (proj1 Hv c v eq_refl). }
  2:{ intros x r Er. cbn [app] in Er. injection Er as <- _. exact (proj1 Hm d m eq_refl). }
  apply (f_equal (@rev Z)) in E. rewrite !rev_app_distr in E.
  apply (span_unique (fun c => c = 32)) in E as (_ & E).
  - rewrite <- (rev_involutive (d :: m)), <- E. apply rev_involutive.
  - now apply Forall_rev.
  - now apply Forall_rev.
  - exact (proj1 (tight_rev _ Hv)).
  - exact (proj1 (tight_rev _ Hm)).
Qed.

Lemma to_int_decimal s n : decimal s n -> n <= 2147483649 -> to_int s = Ok n.
Proof.
  intros (Ne & F & E) B. assert (T : int_text s n) by (exists [], [], s; cbn [app]; auto 8).
  assert (0 <= n) by (subst n; now apply dec_value_nonneg).
  destruct (to_int_spec s) as [(n' & T' & _ & ->)|(X & _)]; [f_equal; exact (int_text_fun _ _ _ T' T)|].
  exfalso. apply X. exists n. split; [exact T|lia].
Qed.

(** What one header field adds to what is known. *)
Definition learn (x : headers * Z * bool) (f : field) : headers * Z * bool -> Prop :=
  fun y => fst (fst y) = assign (fst (fst x)) (f_name f) (f_value f) /\
    (f_name f = bs "Content-Length" -> decimal (f_value f) (snd (fst y))) /\
    (f_name f <> bs "Content-Length" -> snd (fst y) = snd (fst x)) /\
    (snd y = true <-> (f_name f = bs "Transfer-Encoding" /\ within (bs "chunked") (f_value f)) \/ snd x = true).

Definition length_ok (f : field) : Prop := f_name f = bs "Content-Length" -> exists d, decimal (f_value f) d /\ d <= 2147483649.

Lemma header_line_field limit h n ch f : field_ok limit f -> length_ok f ->
  exists y, header_line h n ch (field_line f) = Ok y /\ learn (h, n, ch) f y.
Proof.
  intros (Ne & Nc & Tn & Tv & Sb & Sa & _ & Nul & _) Lok. unfold header_line, field_line.
  destruct (find_single (f_name f ++ 58 :: f_before f ++ f_value f ++ f_after f) 58) as [(_ & Ni)|(p & q & E & Np & ->)].
  { exfalso. apply Ni. apply in_or_app. right. now left. }
  apply split_unique in E as (<- & <-); auto. cbn [bind].
  assert (0 < zlen (f_name f)) by (destruct (f_name f); [contradiction|rewrite zlen_cons; pose proof (zlen_nonneg l); lia]).
  replace (0 <? zlen (f_name f)) with true by lia.
  rewrite slice_head. cbn [bind]. pose proof (trim_spaces [] (f_name f) [] (Forall_nil _) (Forall_nil _) Tn) as Tk. cbn [app] in Tk. rewrite app_nil_r in Tk. rewrite Tk. clear Tk. cbn [bind].
  replace (f_name f ++ 58 :: f_before f ++ f_value f ++ f_after f) with ((f_name f ++ [58]) ++ f_before f ++ f_value f ++ f_after f) by (rewrite <- app_assoc; reflexivity).
  replace (zlen (f_name f) + 1) with (zlen (f_name f ++ [58])) by (rewrite zlen_app, zlen_cons, zlen_nil; lia).
  rewrite slice_tail. cbn [bind]. rewrite trim_spaces by auto. cbn [bind].
  destruct (contains_spec (f_value f) (bs "chunked")) as (b & -> & B); [discriminate|right; split; [intro I; apply Nul, in_or_app; now right|vm_compute; intuition discriminate]|]. fold (within (bs "chunked") (f_value f)) in B.
  unfold learn. destruct (list_eq_dec Z.eq_dec (f_name f) (bs "Content-Length")) as [K|K].
  - destruct (Lok K) as (d & D & Bd). rewrite (to_int_decimal _ _ D Bd). cbn [bind]. eexists. split; [reflexivity|]. cbn [fst snd]. rewrite K in *.
    split; [reflexivity|]. split; [intros _; exact D|]. split; [intro X; now contradiction X|].
    destruct (list_eq_dec Z.eq_dec (bs "Content-Length") (bs "Transfer-Encoding")) as [X|X]; [discriminate X|]. cbn [orb]. intuition.
  - cbn [bind]. eexists. split; [reflexivity|]. cbn [fst snd]. split; [reflexivity|]. split; [intro X; contradiction|]. split; [reflexivity|].
    rewrite Bool.orb_true_iff. destruct (list_eq_dec Z.eq_dec (f_name f) (bs "Transfer-Encoding")) as [X|X]; [rewrite B; tauto|intuition discriminate].
Qed.

Fixpoint learned (x : headers * Z * bool) (fs : list field) (y : headers * Z * bool) : Prop :=
  match fs with [] => y = x | f :: fs => exists z, learn x f z /\ learned z fs y end.

Lemma header_loop_ready fs : forall f rd m n h k ch t, holds rd m n -> 2 <= n -> quiet rd m ->
  pending rd m = concat (map (fun f => field_line f ++ crlf) fs) ++ crlf ++ t -> Forall (field_ok n) fs -> Forall length_ok fs -> (length fs < f)%nat ->
  exists rd' m' y, header_loop f rd h k ch = (rd', Ret y) /\ learned (h, k, ch) fs y /\ holds rd' m' n /\ quiet rd' m' /\ pending rd' m' = t.
Proof.
  induction fs as [|fl fs IH]; intros f rd m n h k ch t H N Q P Fo Fl F; (destruct f as [|f]; [lia|]); cbn [map concat app] in P; cbn [header_loop].
  - destruct (read_line_crlf rd m n [] t H ltac:(lia) Q) as (rd1 & m1 & -> & H1 & Q1 & P1); [exact P|intros []|rewrite zlen_nil; lia|].
    exists rd1, m1, (h, k, ch). cbn [learned]. auto.
  - pose proof (Forall_inv Fo) as O1. pose proof (Forall_inv Fl) as L1. apply Forall_inv_tail in Fo, Fl.
    pose proof O1 as (Ne & _ & _ & _ & _ & _ & N10 & _ & Ll).
    rewrite <- !app_assoc in P. destruct (read_line_crlf rd m n (field_line fl) _ H ltac:(lia) Q P N10 Ll) as (rd1 & m1 & -> & H1 & Q1 & P1).
    destruct (header_line_field n h k ch fl O1 L1) as ([[h' k'] ch'] & E & Le). rewrite E. cbn [of_res].
    destruct (field_line fl) eqn:Fe; [unfold field_line in Fe; destruct (f_name fl); discriminate|].
    destruct (IH f rd1 m1 n h' k' ch' t H1 N Q1 P1 Fo Fl) as (rd' & m' & y & Ey & Ly & R); [cbn [length] in F; lia|].
    exists rd', m', y. split; [exact Ey|]. split; [cbn [learned]; eauto|exact R].
Qed.

Lemma receive_ready rd m n ver code c reason fs t : holds rd m n -> 2 <= n -> quiet rd m -> pending rd m = head ver code reason fs ++ t ->
  ~ In 32 ver -> decimal code c -> c <= 2147483649 -> ~ In 10 reason -> zlen reason + 2 <= n -> Forall (field_ok n) fs -> Forall length_ok fs ->
  exists y rd' m', receive rd = Ret (mk_response ver (fst (fst y)) c reason (snd (fst y)) (snd y) rd') /\ learned ([], 0, false) fs y /\
    holds rd' m' n /\ quiet rd' m' /\ pending rd' m' = t.
Proof.
  intros H N Q P Nv Dc Bc Nr Lr Fo Fl. unfold head in P. rewrite <- !app_assoc in P. cbn [app] in P. rewrite <- !app_assoc in P. cbn [app] in P. rewrite <- !app_assoc in P.
  assert (Nc : ~ In 32 code) by (destruct Dc as (_ & Dc & _); intro I; apply (proj1 (Forall_forall _ _) Dc) in I; unfold is_digit in I; lia).
  unfold receive. destruct (read_until_space_ready rd m n ver _ H ltac:(lia) Q P Nv) as (rd1 & m1 & -> & H1 & Q1 & P1).
  rewrite (rtrim_none _ Nv). cbn [of_res].
  destruct (read_until_space_ready rd1 m1 n code _ H1 ltac:(lia) Q1 P1 Nc) as (rd2 & m2 & -> & H2 & Q2 & P2).
  rewrite (rtrim_none _ Nc). cbn [bind]. rewrite (to_int_decimal _ _ Dc Bc). cbn [catch of_res].
  destruct (read_line_crlf rd2 m2 n reason _ H2 ltac:(lia) Q2 P2 Nr Lr) as (rd3 & m3 & -> & H3 & Q3 & P3).
  destruct (header_loop_ready fs (bytes_left rd3 + 2) rd3 m3 n [] 0 false t H3 N Q3) as (rd4 & m4 & [[h k] ch] & E & Le & H4 & Q4 & P4); auto.
  { rewrite (bytes_left_pending _ _ _ H3), P3, app_length. clear. enough (length fs <= length (concat (map (fun f => field_line f ++ crlf) fs)))%nat by lia.
    induction fs as [|f fs IH]; [cbn; lia|]. cbn [map concat length]. rewrite !app_length. cbn [crlf length]. lia. }
  rewrite E. exists (h, k, ch), rd4, m4. auto.
Qed.

(** ** What the fields say *)

Lemma assign_in h k v k' v' : NoDup (map fst h) -> (In (k', v') (assign h k v) <-> (k' = k /\ v' = v) \/ (k' <> k /\ In (k', v') h)).
Proof.
  intro N. induction h as [|[a b] h IH]; cbn [assign map fst] in *.
  - cbn [In]. split; [intros [E|[]]; injection E as -> ->; auto|intros [(-> & ->)|(_ & [])]; now left].
  - apply NoDup_cons_iff in N as (Na & N). specialize (IH N). destruct (list_eq_dec Z.eq_dec k a) as [<-|D]; cbn [In].
    + split.
      * intros [E|I]; [injection E as -> ->; auto|]. right. split; [|now right]. intros ->. apply Na. change k with (fst (k, v')). now apply in_map.
      * intros [(-> & ->)|(Dk & [E|I])]; [now left|injection E as -> ->; contradiction|now right].
    + rewrite IH. split.
      * intros [E|[E|(X & I)]]; [injection E as -> ->; right; split; [congruence|now left]|now left|right; split; [exact X|now right]].
      * intros [E|(X & [E|I])]; [right; now left|now left|right; right; auto].
Qed.

Lemma last_value_cons f fs k v : last_value (f :: fs) k v <-> last_value fs k v \/ (f_name f = k /\ f_value f = v /\ forall g, In g fs -> f_name g <> k).
Proof.
  split.
  - intros (l & g & r & E & K & V & H). destruct l as [|x l]; cbn [app] in E; injection E as -> ->; [right; auto|left]. exists l, g, r. auto.
  - intros [(l & g & r & -> & K & V & H)|(K & V & H)]; [exists (f :: l), g, r; auto|exists [], f, fs; auto].
Qed.

Lemma last_value_in fs k v : last_value fs k v -> exists g, In g fs /\ f_name g = k /\ f_value g = v.
Proof. intros (l & g & r & -> & K & V & _). exists g. split; [apply in_or_app; right; now left|auto]. Qed.

Lemma named_dec fs k : (exists g, In g fs /\ f_name g = k) \/ (forall g, In g fs -> f_name g <> k).
Proof.
  induction fs as [|f fs [(g & I & E)|N]]; [right; intros g []|left; exists g; split; [now right|exact E]|].
  destruct (list_eq_dec Z.eq_dec (f_name f) k) as [E|D]; [left; exists f; split; [now left|exact E]|right; intros g [<-|I]; auto].
Qed.

Lemma learned_headers fs : forall x y, NoDup (map fst (fst (fst x))) -> learned x fs y ->
  NoDup (map fst (fst (fst y))) /\
  forall k v, In (k, v) (fst (fst y)) <-> last_value fs k v \/ (In (k, v) (fst (fst x)) /\ forall g, In g fs -> f_name g <> k).
Proof.
  induction fs as [|f fs IH]; intros x y N L; cbn [learned] in L.
  - subst y. split; [exact N|]. intros k v. split; [intro I; right; split; [exact I|intros g []]|intros [H|(I & _)]; [|exact I]].
    apply last_value_in in H as (g & [] & _).
  - destruct L as (z & (Lh & _) & L). destruct (assign_split (fst (fst x)) (f_name f) (f_value f) N) as (_ & _ & _ & _ & Nz). rewrite <- Lh in Nz.
    destruct (IH z y Nz L) as (Ny & I). split; [exact Ny|]. intros k v. rewrite I, Lh, (assign_in _ _ _ _ _ N), last_value_cons. split.
    + intros [A|([(-> & ->)|(D & B)] & C)]; [auto|auto 6|]. right. split; [exact B|]. intros g [<-|J]; auto.
    + intros [[A|(<- & <- & C)]|(A & C)]; [auto|auto 6|]. right. split; [|intros g J; apply C; now right]. right. split; [|exact A]. intros ->. apply (C f); [now left|reflexivity].
Qed.

Lemma learned_length fs : forall x y, learned x fs y ->
  (forall v, last_value fs (bs "Content-Length") v -> decimal v (snd (fst y))) /\
  ((forall g, In g fs -> f_name g <> bs "Content-Length") -> snd (fst y) = snd (fst x)).
Proof.
  induction fs as [|f fs IH]; intros x y L; cbn [learned] in L.
  - subst y. split; [|auto]. intros v H. apply last_value_in in H as (g & [] & _).
  - destruct L as (z & (_ & L1 & L2 & _) & L). destruct (IH z y L) as (A & B). split.
    + intros v H. apply last_value_cons in H as [H|(K & V & H)]; [auto|]. rewrite (B H), <- V. auto.
    + intro H. rewrite B by (intros g I; apply H; now right). apply L2. apply H. now left.
Qed.

Lemma learned_chunked fs : forall x y, learned x fs y ->
  (snd y = true <-> (exists f, In f fs /\ f_name f = bs "Transfer-Encoding" /\ within (bs "chunked") (f_value f)) \/ snd x = true).
Proof.
  induction fs as [|f fs IH]; intros x y L; cbn [learned] in L.
  - subst y. split; [auto|]. intros [(f & [] & _)|H]; exact H.
  - destruct L as (z & (_ & _ & _ & L1) & L). rewrite (IH z y L), L1. split.
    + intros [(g & I & K)|[K|K]]; [left; exists g; split; [now right|exact K]|left; exists f; split; [now left|exact K]|auto].
    + intros [(g & [<-|I] & K)|K]; [auto|left; eauto|auto].
Qed.

(** ** The body *)

Lemma app_same_zlen (a b c d : list Z) : a ++ c = b ++ d -> zlen a = zlen b -> a = b.
Proof.
  revert b. induction a as [|x a IH]; intros [|y b] E L; rewrite ?zlen_cons, ?zlen_nil in L; [reflexivity|pose proof (zlen_nonneg b); lia|pose proof (zlen_nonneg a); lia|].
  cbn [app] in E. injection E as -> E. f_equal. apply IH; [exact E|lia].
Qed.

Lemma read_exact_ready rd m n body t : holds rd m n -> 0 < n -> quiet rd m -> pending rd m = body ++ t ->
  exists rd' u, read_exact rd (zlen body) = (rd', Ret u, body).
Proof.
  intros H N Q P. pose proof (zlen_nonneg body). destruct (read_exact rd (zlen body)) as [[rd' x] got] eqn:E.
  destruct (read_exact_spec rd m n (zlen body) H N ltac:(lia) _ _ _ E) as (m' & H' & P' & X). destruct x as [u|e|]; [| |contradiction].
  - exists rd', u. rewrite P in P'. f_equal. symmetry. apply (app_same_zlen body got t _ P'). lia.
  - pose proof (error_at_end rd m n (CExact (zlen body)) got H N (proj1 Q)) as Er. cbn [serve call_ok] in Er. rewrite E in Er. cbn [snd] in Er.
    rewrite P in Er. specialize (Er ltac:(lia) eq_refl). subst got. rewrite zlen_app in X. pose proof (zlen_nonneg t). lia.
Qed.

(** Nothing but the bytes of the stream, in their order. *)
Definition after_some (rd rd' : reader) (n : Z) : Prop :=
  forall m, holds rd m n -> exists m' used, holds rd' m' n /\ pending rd m = used ++ pending rd' m'.

Lemma after_trans a b c n : after_some a b n -> after_some b c n -> after_some a c n.
Proof.
  intros A B m H. destruct (A m H) as (m1 & u1 & H1 & P1). destruct (B m1 H1) as (m2 & u2 & H2 & P2).
  exists m2, (u1 ++ u2). split; [exact H2|]. now rewrite P1, P2, app_assoc.
Qed.

Lemma space_loop_after f : forall rd n got rd' x, 0 < n -> space_loop f rd got = (rd', x) -> after_some rd rd' n.
Proof.
  induction f as [|f IH]; intros rd n got rd' x N E; cbn [space_loop] in E.
  - injection E as <- <-. intros m H. exists m, []. auto.
  - destruct (read_byte rd) as [rd1 y] eqn:Q.
    assert (A : after_some rd rd1 n).
    { intros m H. destruct (read_byte_spec rd m n H N _ _ Q) as (m' & H' & Y). exists m'. destruct y as [c|e|]; [exists [c]; auto|exists []; split; [exact H'|apply Y]|contradiction]. }
    destruct y as [c|e|]; [destruct (c =? 32); [injection E as <- <-; exact A|exact (after_trans _ _ _ _ A (IH _ _ _ _ _ N E))]|injection E as <- <-; exact A|injection E as <- <-; exact A].
Qed.

Lemma read_line_after rd n rd' x : 0 < n -> read_line rd = (rd', x) -> after_some rd rd' n.
Proof.
  intros N E m H. destruct (read_line_spec rd m n H N _ _ E) as (m' & H' & Y). exists m'.
  destruct x as [l|e|]; [destruct Y as (raw & P & _); exists raw; auto|exists []; auto|contradiction].
Qed.

Lemma header_loop_after f : forall rd n h k ch rd' x, 0 < n -> header_loop f rd h k ch = (rd', x) -> after_some rd rd' n.
Proof.
  induction f as [|f IH]; intros rd n h k ch rd' x N E; cbn [header_loop] in E.
  - injection E as <- <-. intros m H. exists m, []. auto.
  - destruct (read_line rd) as [rd1 y] eqn:Q. pose proof (read_line_after rd n rd1 y N Q) as A.
    destruct y as [[|c l]|e|]; try (injection E as <- <-; exact A).
    destruct (of_res (header_line h k ch (c :: l))) as [[[h' k'] ch']|e|]; [exact (after_trans _ _ _ _ A (IH _ _ _ _ _ _ _ N E))| |]; injection E as <- <-; exact A.
Qed.

Lemma receive_after rd n p : 0 < n -> receive rd = Ret p -> after_some rd (conn p) n.
Proof.
  intros N E. unfold receive in E. destruct (read_until_space rd) as [rd1 [v|e|]] eqn:E1; [|discriminate E|discriminate E].
  pose proof (space_loop_after _ _ _ _ _ _ N E1) as A1.
  destruct (of_res (rtrim v [[32]])) as [v'|e|]; [|discriminate E|discriminate E].
  destruct (read_until_space rd1) as [rd2 [st|e|]] eqn:E2; [|discriminate E|discriminate E].
  pose proof (space_loop_after _ _ _ _ _ _ N E2) as A2.
  destruct (of_res (st <- rtrim st [[32]];; catch (to_int st) 0)) as [c|e|]; [|discriminate E|discriminate E].
  destruct (read_line rd2) as [rd3 [msg|e|]] eqn:E3; [|discriminate E|discriminate E].
  pose proof (read_line_after _ _ _ _ N E3) as A3.
  destruct (header_loop (bytes_left rd3 + 2) rd3 [] 0 false) as [rd4 [[[h k] ch]|e|]] eqn:E4; [|discriminate E|discriminate E].
  pose proof (header_loop_after _ _ _ _ _ _ _ _ N E4) as A4. injection E as <-. cbn [conn].
  exact (after_trans _ _ _ _ A1 (after_trans _ _ _ _ A2 (after_trans _ _ _ _ A3 A4))).
Qed.

Lemma text_complete n s p b : (0 < n)%nat -> receive (new_reader n s) = Ret p -> is_chunked p = false -> text p = Ret b ->
  zlen b = r_length p /\ exists before after, stream s = before ++ b ++ after.
Proof.
  intros N E Ch T. pose proof (receive_after _ (Z.of_nat n) p ltac:(lia) E) as A. destruct (A [] (new_holds n s)) as (m & used & H & P).
  cbn [pending app new_reader src] in P. change (pending (new_reader n s) []) with (stream s) in P.
  unfold text in T. rewrite Ch in T. destruct (Z.eqb_spec (r_length p) 0) as [Z0|Z0]; cbn [andb negb] in T.
  - injection T as <-. split; [now rewrite Z0, zlen_nil|]. exists used, (pending (conn p) m). exact P.
  - destruct (Z.ltb_spec (r_length p) 0); [discriminate|]. destruct (read_exact (conn p) (r_length p)) as [[rd' x] got] eqn:Q.
    destruct (read_exact_spec (conn p) m _ (r_length p) H ltac:(lia) ltac:(lia) _ _ _ Q) as (m' & H' & P' & X).
    destruct x as [u|e|]; [|discriminate T|discriminate T]. injection T as <-. split; [exact X|]. exists used, (pending rd' m'). now rewrite P, P'.
Qed.

(** ** The server's own responses *)

Definition fields_of (r : sresponse) (n : list Z) : list field :=
  map (fun kv => mk_field (fst kv) [32] (snd kv) []) (sr_headers r) ++
  [mk_field (bs "Content-Length") [32] n []; mk_field (bs "Content-Type") [32] (sr_type r ++ bs "; charset=utf-8") []].

Lemma status_decimal st : 0 <= st < 1000 -> decimal (status_to_str st) st.
Proof.
  intro B. unfold status_to_str. rewrite !Z.quot_div_nonneg, !Z.rem_mod_nonneg by lia. unfold u8.
  assert (Bq : 0 <= st / 100 < 10) by (split; [apply Z.div_pos; lia|apply Z.div_lt_upper_bound; lia]).
  rewrite !(Z.mod_small (_ + 48)) by lia. split; [discriminate|]. split.
  - repeat constructor; unfold is_digit; lia.
  - unfold dec_value. cbn [fold_left]. lia.
Qed.

Lemma to_str_head r n : http_utos (u64 (sr_length r)) = Ok n ->
  to_str r = Ok (head (bs "HTTP/1.1") (status_to_str (sr_status r)) (sr_message r) (fields_of r n) ++ sr_body r).
Proof.
  intro E. unfold to_str. rewrite E. cbn [bind]. f_equal. unfold head, fields_of, header_lines.
  rewrite map_app, concat_app, map_map.
  replace (map (fun x : list Z * list Z => field_line (mk_field (fst x) [32] (snd x) []) ++ crlf) (sr_headers r)) with (map (fun kv => fst kv ++ bs ": " ++ snd kv ++ sep) (sr_headers r)).
  2:{ apply map_ext. intros [k v]. unfold field_line. cbn [fst snd f_name f_before f_value f_after]. rewrite app_nil_r, <- app_assoc. reflexivity. }
  cbn [map concat]. unfold field_line. cbn [f_name f_before f_value f_after]. rewrite !app_nil_r. unfold crlf2, crlf, sep. do 8 (rewrite <- ?app_assoc; cbn [app]). reflexivity.
Qed.

Lemma utos_len f : forall buf idx v s, utos_loop f buf idx v = Ok s -> zlen s <= 20.
Proof.
  induction f as [|f IH]; intros buf idx v s E; [discriminate|]. cbn [utos_loop] in E. destruct (0 <? v).
  - destruct (set_at buf idx (u8 (v mod 10 + 48))) as [b'| | | | |]; try discriminate E. exact (IH _ _ _ _ E).
  - unfold slice in E. cbv zeta in E. change (20 =? -1) with false in E. cbv iota in E.
    destruct ((zlen buf <? idx + 1) || (zlen buf <? 20) || (idx + 1 <? 0) || (20 <? 0)) eqn:B; [discriminate|].
    destruct (20 <? idx + 1); [discriminate|]. injection E as <-. unfold sub_list, zlen. rewrite firstn_length. lia.
Qed.

Lemma http_utos_len v s : http_utos v = Ok s -> zlen s <= 20.
Proof. unfold http_utos. destruct (v =? 0); [intro E; injection E as <-; vm_compute; discriminate|apply utos_len]. Qed.
