(** The buffered reader neither loses nor repeats bytes. *)
From Verif Require Import Base Base_lemmas Bufio_model Bufio_spec.

(** ** The underlying reader *)

Lemma stream_cons e s : stream (e :: s) = (match e with Data b => b | _ => [] end) ++ stream s.
Proof. reflexivity. Qed.

Lemma src_read_spec s c s' x : 0 <= c -> src_read s c = (s', x) ->
  match x with
  | Ret b => stream s = b ++ stream s' /\ zlen b <= c /\
      ((length s' < length s)%nat \/ (length s' = length s /\ zlen b = c))
  | Exc _ => stream s = stream s' /\ (length s' <= length s)%nat
  | Pan => False
  end.
Proof.
  intros C E. destruct s as [|[b| |] s]; cbn [src_read] in E.
  - injection E as <- <-. auto.
  - destruct (Z.leb_spec (zlen b) c); injection E as <- <-.
    + split; [reflexivity|]. split; [lia|]. left. cbn [length]. lia.
    + rewrite !stream_cons, app_assoc, firstn_skipn. split; [reflexivity|].
      assert (L : zlen (firstn (Z.to_nat c) b) = c) by (unfold zlen in *; rewrite firstn_length; lia).
      split; [lia|]. right. split; [reflexivity|exact L].
  - injection E as <- <-. split; [reflexivity|cbn [length]; lia].
  - injection E as <- <-. split; [reflexivity|cbn [length]; lia].
Qed.

(** ** The buffer *)

(** The unread bytes are [m] and the buffer is [n] bytes long. *)
Definition holds (rd : reader) (m : list Z) (n : Z) : Prop :=
  exists a c, buf rd = a ++ m ++ c /\ r rd = zlen a /\ w rd = zlen a + zlen m /\ zlen (buf rd) = n.

Lemma holds_sub rd m n : holds rd m n -> sub_list (buf rd) (r rd) (w rd) = m.
Proof. intros (a & c & -> & -> & -> & _). apply sub_list_mid. Qed.

Lemma holds_len rd m n : holds rd m n -> zlen m = w rd - r rd /\ 0 <= r rd /\ w rd <= n.
Proof.
  intros (a & c & E & R & W & N). rewrite R, W. pose proof (zlen_nonneg a). pose proof (zlen_nonneg c).
  rewrite E, !zlen_app in N. lia.
Qed.

Lemma put_front (l d : list Z) : zlen d <= zlen l -> exists c, put_bytes l 0 d = d ++ c /\ zlen (d ++ c) = zlen l.
Proof.
  intro H. unfold put_bytes. change (Z.to_nat 0) with 0%nat. cbn [firstn app]. eexists. split; [reflexivity|].
  rewrite zlen_app. unfold zlen in *. rewrite skipn_length. lia.
Qed.

Lemma put_after (m c d : list Z) : zlen d <= zlen c ->
  exists c', put_bytes (m ++ c) (zlen m) d = (m ++ d) ++ c' /\ zlen c' = zlen c - zlen d.
Proof.
  intro H. unfold put_bytes, zlen. rewrite Nat2Z.id, firstn_app, firstn_all, Nat.sub_diag. cbn [firstn]. rewrite app_nil_r.
  eexists. rewrite <- app_assoc. split; [reflexivity|]. rewrite skipn_length, app_length. unfold zlen in H. lia.
Qed.

Definition pending (rd : reader) (m : list Z) : list Z := m ++ stream (src rd).

(** A buffer that starts with the unread bytes. *)
Definition packed (rd : reader) (m : list Z) (n : Z) : Prop :=
  exists c, buf rd = m ++ c /\ r rd = 0 /\ w rd = zlen m /\ zlen (buf rd) = n.

Lemma packed_holds rd m n : packed rd m n -> holds rd m n.
Proof. intros (c & E & R & W & N). exists [], c. cbn [app]. rewrite zlen_nil. repeat split; auto; lia. Qed.

Lemma fill_loop_spec k : forall rd m n, packed rd m n -> zlen m < n -> forall rd' x, fill_loop k rd = (rd', x) ->
  exists m', packed rd' m' n /\ pending rd' m' = pending rd m /\ (length (src rd') <= length (src rd))%nat /\
    match x with
    | Ret _ => zlen m < zlen m' /\ (exists b, m' = m ++ b) /\ eof rd' = eof rd
    | Exc _ => m' = m
    | Pan => False
    end.
Proof.
  induction k as [|k IH]; intros rd m n P L rd' x E; cbn [fill_loop] in E.
  - injection E as <- <-. exists m. auto.
  - pose proof P as (c & B & R & W & N).
    destruct (src_read (src rd) (zlen (buf rd) - w rd)) as [s [b|e|]] eqn:Q.
    + apply src_read_spec in Q as (S1 & S2 & S3); [|lia].
      assert (C : zlen c = n - zlen m) by (rewrite B, zlen_app in N; lia).
      destruct (put_after m c b) as (c' & Ec & Lc); [lia|].
      set (rd1 := set_buf (set_src rd s) (put_bytes (buf rd) (w rd) b) (r rd) (w rd + zlen b)) in *.
      assert (P1 : packed rd1 (m ++ b) n).
      { exists c'. unfold rd1, set_buf. cbn [buf r w src set_src]. rewrite W, B, Ec. repeat split; auto; [now rewrite zlen_app|].
        rewrite !zlen_app. lia. }
      assert (Pe : pending rd1 (m ++ b) = pending rd m) by (unfold pending, rd1; cbn [src set_buf set_src]; now rewrite S1, app_assoc).
      assert (Ln : (length (src rd1) <= length (src rd))%nat) by (unfold rd1; cbn [src set_buf set_src]; lia).
      destruct (Z.ltb_spec 0 (zlen b)).
      * injection E as <- <-. exists (m ++ b). split; [exact P1|]. split; [exact Pe|]. split; [exact Ln|].
        split; [rewrite zlen_app; lia|]. split; [now exists b|reflexivity].
      * assert (b = []) as -> by (destruct b; [reflexivity|rewrite zlen_cons in *; pose proof (zlen_nonneg b); lia]).
        rewrite app_nil_r in *. destruct (IH rd1 m n P1 L rd' x E) as (m' & A1 & A2 & A3 & A4). exists m'.
        split; [exact A1|]. split; [congruence|]. split; [lia|]. exact A4.
    + apply src_read_spec in Q as (S1 & S2); [|lia]. injection E as <- <-. exists m.
      assert (P1 : packed (if e then set_eof (set_src rd s) else set_src rd s) m n) by (destruct e; exists c; auto).
      split; [exact P1|]. split; [unfold pending; destruct e; cbn [src set_eof set_src]; now rewrite S1|].
      split; [destruct e; cbn [src set_eof set_src]; lia|reflexivity].
    + apply src_read_spec in Q; [destruct Q|lia].
Qed.

Lemma fill_spec rd m n : holds rd m n -> zlen m < n -> forall rd' x, fill rd = (rd', x) ->
  exists m', packed rd' m' n /\ pending rd' m' = pending rd m /\ (length (src rd') <= length (src rd))%nat /\
    match x with
    | Ret _ => zlen m < zlen m' /\ (exists b, m' = m ++ b) /\ eof rd' = eof rd
    | Exc _ => m' = m
    | Pan => False
    end.
Proof.
  intros H L rd' x E. unfold fill in E.
  set (rd1 := if 0 <? r rd then _ else rd) in E.
  assert (P : packed rd1 m n /\ src rd1 = src rd /\ eof rd1 = eof rd).
  { unfold rd1. pose proof (holds_len _ _ _ H) as (Lm & R0 & Wn). destruct (Z.ltb_spec 0 (r rd)).
    - rewrite (holds_sub _ _ _ H). destruct H as (a & c & B & R & W & N).
      destruct (put_front (buf rd) m) as (c' & -> & Lc); [lia|]. split; [|auto]. exists c'. cbn [buf r w set_buf]. repeat split; auto; lia.
    - destruct H as (a & c & B & R & W & N). assert (a = []) as -> by (destruct a; [reflexivity|rewrite zlen_cons in R; pose proof (zlen_nonneg a); lia]).
      rewrite zlen_nil in *. split; [|auto]. exists c. repeat split; auto. }
  clearbody rd1. destruct P as (P & Es & Ee).
  destruct (Z.leb_spec (zlen (buf rd1)) (w rd1)) as [Q|Q].
  { destruct P as (c & B & R & W & N). lia. }
  destruct (fill_loop_spec 100 rd1 m n P L rd' x E) as (m' & A1 & A2 & A3 & A4). exists m'.
  split; [exact A1|]. split; [unfold pending in *; congruence|]. split; [congruence|]. destruct x; auto.
  destruct A4 as (X & Y & Z'). repeat split; auto. congruence.
Qed.

Lemma take_spec rd m n k : holds rd m n -> 0 <= k -> forall rd' x, take rd k = (rd', x) ->
  exists b m', x = Ret b /\ m = b ++ m' /\ zlen b = Z.min k (zlen m) /\ holds rd' m' n /\ src rd' = src rd /\ eof rd' = eof rd.
Proof.
  intros H K rd' x E. pose proof (holds_len _ _ _ H) as (Lm & R0 & Wn). pose proof H as (a & c & B & R & W & N). pose proof (zlen_nonneg m).
  unfold take in E. set (j := if w rd - r rd <? k then w rd - r rd else k) in E.
  assert (J : 0 <= j <= zlen m /\ j = Z.min k (zlen m)) by (unfold j; destruct (Z.ltb_spec (w rd - r rd) k); lia). clearbody j.
  assert (D : exists b m', m = b ++ m' /\ zlen b = j).
  { exists (firstn (Z.to_nat j) m), (skipn (Z.to_nat j) m). split; [symmetry; apply firstn_skipn|]. unfold zlen in *; rewrite firstn_length; lia. }
  destruct D as (b & m' & -> & Lb). injection E as <- <-. exists b, m'.
  split; [|split; [reflexivity|split; [lia|split; [|auto]]]].
  - f_equal. rewrite R, B, <- app_assoc. rewrite <- Lb. apply sub_list_mid.
  - exists (a ++ b), c. cbn [buf r w set_buf]. rewrite zlen_app, Lb. split; [rewrite B; now rewrite <- !app_assoc|].
    rewrite zlen_app in W. split; [lia|]. split; [lia|exact N].
Qed.

Lemma read_spec rd m n k : holds rd m n -> 0 < n -> 0 <= k -> forall rd' x, read rd k = (rd', x) ->
  exists m', holds rd' m' n /\ (length (src rd') <= length (src rd))%nat /\
    match x with
    | Ret b => pending rd m = b ++ pending rd' m' /\ zlen b <= k /\
        (0 < k -> b <> [] \/ (length (src rd') < length (src rd))%nat)
    | Exc _ => pending rd m = pending rd' m' /\ (k = 0 \/ m = [])
    | Pan => False
    end.
Proof.
  intros H N K rd' x E. pose proof (holds_len _ _ _ H) as (Lm & R0 & Wn). unfold read in E.
  assert (T : forall q m0, holds q m0 n -> m0 <> [] -> 0 < k -> take q k = (rd', x) -> src q = src q ->
     exists m', holds rd' m' n /\ src rd' = src q /\ match x with Ret b => m0 = b ++ m' /\ zlen b <= k /\ b <> [] | _ => False end).
  { intros q m0 Hq Ne Kp Et _. destruct (take_spec q m0 n k Hq ltac:(lia) _ _ Et) as (b & m' & -> & D & Lb & H' & S' & _).
    exists m'. split; [exact H'|]. split; [exact S'|]. split; [exact D|]. split; [lia|]. intros ->.
    rewrite zlen_nil in Lb. destruct m0; [contradiction|]. rewrite zlen_cons in Lb. pose proof (zlen_nonneg m0). lia. }
  destruct (Z.eqb_spec k 0) as [K0|K0].
  { unfold buffered in E. destruct (Z.ltb_spec 0 (w rd - r rd)); injection E as <- <-; exists m.
    - split; [exact H|]. split; [lia|]. split; [reflexivity|]. split; [rewrite zlen_nil; lia|lia].
    - split; [exact H|]. split; [cbn; lia|]. split; [reflexivity|now left]. }
  destruct (Z.eqb_spec (r rd) (w rd)) as [Q|Q].
  - assert (m = []) as -> by (destruct m; [reflexivity|rewrite zlen_cons in Lm; pose proof (zlen_nonneg m); lia]).
    destruct (Z.leb_spec (zlen (buf rd)) k).
    + destruct (src_read (src rd) k) as [s a] eqn:S. injection E as <- <-. apply src_read_spec in S; [|lia]. exists [].
      assert (H' : holds (set_src rd s) [] n) by exact H. split; [exact H'|]. unfold pending. cbn [src set_src app].
      destruct a as [b|e|]; [|destruct S; auto|contradiction]. destruct S as (S1 & S2 & S3).
      split; [destruct S3; lia|]. split; [exact S1|]. split; [lia|]. intros _. destruct S3 as [S3|[S3 S4]]; [now right|left].
      intros ->. rewrite zlen_nil in S4. lia.
    + cbn [buf src set_buf] in E. destruct (src_read (src rd) (zlen (buf rd))) as [s [b|e|]] eqn:S; apply src_read_spec in S; try lia.
      * destruct S as (S1 & S2 & S3). destruct (Z.eqb_spec (zlen b) 0) as [Zb|Zb].
        -- injection E as <- <-. assert (b = []) as -> by (destruct b; [reflexivity|rewrite zlen_cons in Zb; pose proof (zlen_nonneg b); lia]).
           exists []. split; [|split; [cbn [src set_eof set_src set_buf]; destruct S3; lia|split; [exact S1|now right]]].
           destruct H as (a & c & B & R & W & Nn). exists [], (buf rd). cbn. repeat split; auto.
        -- destruct H as (a & c & B & R & W & Nn). destruct (put_front (buf rd) b ltac:(lia)) as (c' & Ep & Lc).
           match type of E with take ?q _ = _ => set (rd2 := q) in * end.
           assert (H2 : holds rd2 b n).
           { exists [], c'. unfold rd2, set_buf, set_src. cbn [buf r w app]. rewrite Ep, zlen_nil. repeat split; auto; lia. }
           destruct (T rd2 b H2) as (m' & H' & Es & Tx); [intros ->; apply Zb; reflexivity|lia|exact E|reflexivity|].
           exists m'. split; [exact H'|]. rewrite Es. split; [unfold rd2; cbn; destruct S3; lia|]. destruct x as [b0| |]; try contradiction.
           destruct Tx as (D & Lb & Nb). split; [unfold pending; rewrite Es, S1, D; unfold rd2; cbn; now rewrite <- app_assoc|].
           split; [lia|]. intros _. now left.
      * injection E as <- <-. exists []. destruct S as (S1 & S2). split; [|split; [exact S2|split; [exact S1|now right]]].
        destruct H as (a & c & B & R & W & Nn). exists [], (buf rd). cbn. repeat split; auto.
  - assert (Ne : m <> []) by (intros ->; rewrite zlen_nil in Lm; lia).
    destruct (T rd m H Ne ltac:(lia) E eq_refl) as (m' & H' & Es & Tx). exists m'. split; [exact H'|]. rewrite Es. split; [lia|].
    destruct x as [b| |]; try contradiction. destruct Tx as (D & Lb & Nb). split; [unfold pending; rewrite Es, D; now rewrite <- app_assoc|].
    split; [lia|]. intros _. now left.
Qed.

(** ** read_exact *)

Lemma exact_loop_spec f : forall rd m n k got, holds rd m n -> 0 < n -> zlen got <= k ->
  (Z.to_nat (k - zlen got) + length (src rd) + 1 <= f)%nat ->
  forall rd' x got', exact_loop f rd k got = (rd', x, got') ->
  exists m' more, holds rd' m' n /\ got' = got ++ more /\ pending rd m = more ++ pending rd' m' /\
    match x with
    | Ret _ => zlen got' = k
    | Exc _ => zlen got' < k /\ m' = []
    | Pan => False
    end.
Proof.
  induction f as [|f IH]; intros rd m n k got H N L F rd' x got' E; [lia|]. cbn [exact_loop] in E.
  destruct (Z.ltb_spec (zlen got) k).
  - destruct (read rd (k - zlen got)) as [rd1 y] eqn:Q. destruct (read_spec rd m n (k - zlen got) H N ltac:(lia) _ _ Q) as (m1 & H1 & S1 & Y).
    destruct y as [b|e|].
    + destruct Y as (P1 & Lb & Pr). specialize (Pr ltac:(lia)).
      destruct (IH rd1 m1 n k (got ++ b) H1 N) with (rd' := rd') (x := x) (got' := got') as (m' & more & A1 & A2 & A3 & A4); [rewrite zlen_app; lia| |exact E|].
      { rewrite zlen_app. pose proof (zlen_nonneg b). destruct Pr as [Nb|Pr]; [|lia]. assert (0 < zlen b) by (destruct b; [contradiction|rewrite zlen_cons; pose proof (zlen_nonneg b); lia]). lia. }
      exists m', (b ++ more). split; [exact A1|]. split; [now rewrite A2, <- app_assoc|]. split; [rewrite P1, A3; now rewrite <- app_assoc|exact A4].
    + injection E as <- <- <-. destruct Y as (P1 & Em). exists m1, []. rewrite app_nil_r. split; [exact H1|]. split; [reflexivity|]. split; [exact P1|].
      split; [lia|]. destruct Em as [Em|Em]; [lia|].
      (* an error leaves the buffer empty *)
      clear IH. unfold read in Q. destruct (Z.eqb_spec (k - zlen got) 0); [lia|]. pose proof (holds_len _ _ _ H) as (Lm & _). subst m. rewrite zlen_nil in Lm.
      replace (r rd =? w rd) with true in Q by lia. pose proof (holds_len _ _ _ H1) as (Lm1 & _).
      assert (W1 : w rd1 = r rd1).
      { destruct (zlen (buf rd) <=? k - zlen got).
        - destruct (src_read (src rd) (k - zlen got)) as [s a]. injection Q as <- _. cbn. lia.
        - cbn [buf src set_buf] in Q. destruct (src_read (src rd) (zlen (buf rd))) as [s [b|e'|]].
          + destruct (zlen b =? 0); [injection Q as <- _; reflexivity|discriminate Q].
          + injection Q as <- _. reflexivity.
          + discriminate Q. }
      destruct m1; [reflexivity|]. rewrite zlen_cons in Lm1. pose proof (zlen_nonneg m1). lia.
    + contradiction.
  - injection E as <- <- <-. exists m, []. rewrite app_nil_r. split; [exact H|]. split; [reflexivity|]. split; [reflexivity|]. lia.
Qed.

(** ** read_byte *)

Lemma read_byte_spec rd m n : holds rd m n -> 0 < n -> forall rd' x, read_byte rd = (rd', x) ->
  exists m', holds rd' m' n /\
    match x with
    | Ret c => pending rd m = c :: pending rd' m'
    | Exc _ => pending rd m = pending rd' m' /\ m' = []
    | Pan => False
    end.
Proof.
  intros H N rd' x E. pose proof (holds_len _ _ _ H) as (Lm & R0 & Wn). unfold read_byte in E.
  assert (Nx : forall q c m0, holds q (c :: m0) n ->
     (match at_ (buf q) (r q) with Ok b => (set_buf q (buf q) (r q + 1) (w q), Ret b) | _ => (q, Pan) end) = (rd', x) ->
     holds rd' m0 n /\ src rd' = src q /\ x = Ret c).
  { intros q c m0 (a & z & B & R & W & Nn) Eq. rewrite R, B in Eq. cbn [app] in Eq. rewrite at_app_mid in Eq. injection Eq as <- <-.
    split; [|auto]. exists (a ++ [c]), z. cbn [buf r w set_buf]. rewrite zlen_app, zlen_cons, zlen_nil, <- app_assoc. rewrite zlen_cons in W.
    repeat split; auto; try lia. rewrite B in Nn. exact Nn. }
  destruct (Z.eqb_spec (r rd) (w rd)) as [Q|Q].
  - assert (m = []) as -> by (destruct m; [reflexivity|rewrite zlen_cons in Lm; pose proof (zlen_nonneg m); lia]).
    destruct (fill rd) as [rd1 y] eqn:F. destruct (fill_spec rd [] n H ltac:(rewrite zlen_nil; lia) _ _ F) as (m1 & P1 & Pe & _ & Y).
    destruct y as [u|e|]; [|injection E as <- <-|contradiction].
    + destruct Y as (L1 & _). destruct m1 as [|c m1]; [rewrite !zlen_nil in L1; lia|].
      destruct (Nx rd1 c m1 (packed_holds _ _ _ P1) E) as (H' & Es & ->). exists m1. split; [exact H'|].
      unfold pending in *. rewrite Es. rewrite <- Pe. reflexivity.
    + subst m1. exists []. split; [now apply packed_holds|]. split; [now symmetry|reflexivity].
  - destruct m as [|c m]; [rewrite zlen_nil in Lm; lia|]. destruct (Nx rd c m H E) as (H' & Es & ->). exists m. split; [exact H'|].
    unfold pending. rewrite Es. reflexivity.
Qed.

(** ** read_until *)

Lemma index_of_some d l i : index_of d l = Some i -> exists p q, l = p ++ d :: q /\ ~ In d p /\ i = zlen p.
Proof.
  revert i. induction l as [|c l IH]; intros i E; cbn [index_of] in E; [discriminate|].
  destruct (Z.eqb_spec c d) as [->|Ne].
  - injection E as <-. exists [], l. split; [reflexivity|]. split; [intros []|reflexivity].
  - destruct (index_of d l) as [j|]; [|discriminate]. injection E as <-. destruct (IH j eq_refl) as (p & q & -> & Np & ->).
    exists (c :: p), q. split; [reflexivity|]. split; [intros [|]; auto|]. rewrite zlen_cons. lia.
Qed.

Lemma index_of_none d l : index_of d l = None -> ~ In d l.
Proof.
  induction l as [|c l IH]; intros E; cbn [index_of] in E; [intros []|].
  destruct (Z.eqb_spec c d) as [->|Ne]; [discriminate|]. destruct (index_of d l); [discriminate|]. intros [|]; [auto|]. now apply IH.
Qed.

Lemma index_of_in d l : In d l -> exists i, index_of d l = Some i.
Proof. intro I. destruct (index_of d l) eqn:E; [eauto|]. now apply index_of_none in E. Qed.

Lemma sub_list_all (l : list Z) : sub_list l 0 (zlen l) = l.
Proof. unfold sub_list, zlen. change (Z.to_nat 0) with 0%nat. cbn [skipn]. rewrite Z.sub_0_r, Nat2Z.id. apply firstn_all. Qed.

(** Why read_until stopped. *)
Inductive stopped (d : Z) (n : Z) (erred : bool) (b : list Z) : Prop :=
| stop_found p : b = p ++ [d] -> ~ In d p -> stopped d n erred b
| stop_full : ~ In d b -> zlen b = n -> erred = false -> stopped d n erred b
| stop_error : ~ In d b -> erred = true -> stopped d n erred b.

Lemma until_loop_spec f : forall rd m n d (he : bool), holds rd m n -> 0 < n ->
  (Z.to_nat (n - zlen m) + (if he then 0 else 1) + 2 <= f)%nat ->
  (he = true -> ~ In d m /\ eof rd = true) ->
  forall rd' x, until_loop f rd d he = (rd', x) ->
  exists bounds m', x = Ret bounds /\ holds rd' m' n /\ pending rd m = view (buf rd') bounds ++ pending rd' m' /\
    exists he', stopped d n he' (view (buf rd') bounds) /\ (he' = true -> m' = [] /\ eof rd' = true) /\ (he' = false -> eof rd' = eof rd).
Proof.
  induction f as [|f IH]; intros rd m n d he H N F Hh rd' x E; [lia|]. cbn [until_loop] in E.
  rewrite (holds_sub _ _ _ H) in E. pose proof (holds_len _ _ _ H) as (Lm & R0 & Wn).
  destruct (index_of d m) as [i|] eqn:I.
  - apply index_of_some in I as (p & q & -> & Np & ->). injection E as <- <-.
    destruct H as (a & c & B & R & W & Nn). eexists _, q. split; [reflexivity|].
    assert (V : view (buf rd) (r rd, r rd + zlen p + 1) = p ++ [d]).
    { unfold view. cbn [fst snd]. rewrite R, B. replace (zlen a + zlen p + 1) with (zlen a + zlen (p ++ [d])) by (rewrite zlen_app, zlen_cons, zlen_nil; lia).
      change (a ++ (p ++ d :: q) ++ c) with (a ++ (p ++ [d] ++ q) ++ c). replace (a ++ (p ++ [d] ++ q) ++ c) with (a ++ (p ++ [d]) ++ (q ++ c)) by (now rewrite <- !app_assoc).
      apply sub_list_mid. }
    cbn [buf set_buf]. rewrite V. split.
    { exists (a ++ p ++ [d]), c. cbn [buf r w set_buf]. rewrite !zlen_app, zlen_cons, zlen_nil. rewrite zlen_app, zlen_cons in W.
      split; [rewrite B; cbn [app]; now rewrite <- !app_assoc|]. repeat split; auto; lia. }
    split; [unfold pending; cbn [src set_buf]; now rewrite <- !app_assoc|].
    exists he. split; [now apply (stop_found _ _ _ _ p)|]. split; [|reflexivity].
    intros ->. destruct (Hh eq_refl) as (Ni & _). destruct Ni. apply in_or_app. right. now left.
  - apply index_of_none in I. destruct he.
    + injection E as <- <-. destruct (Hh eq_refl) as (_ & Ee). eexists _, []. split; [reflexivity|].
      cbn [buf set_buf]. unfold view. cbn [fst snd]. rewrite (holds_sub _ _ _ H). split.
      { destruct H as (a & c & B & R & W & Nn). exists (a ++ m), c. cbn [buf r w set_buf app]. rewrite zlen_app, zlen_nil, <- app_assoc. repeat split; auto; lia. }
      split; [reflexivity|]. exists true. split; [now apply stop_error|]. split; [auto|discriminate].
    + destruct (Z.leb_spec (zlen (buf rd)) (buffered rd)) as [Q|Q].
      * injection E as <- <-. unfold buffered in Q. destruct H as (a & c & B & R & W & Nn).
        assert (A0 : a = [] /\ c = []).
        { rewrite B, !zlen_app in Nn. rewrite B, !zlen_app in Q. pose proof (zlen_nonneg a). pose proof (zlen_nonneg c). assert (zlen a = 0 /\ zlen c = 0) as [Za Zc] by lia.
          split; [destruct a; [reflexivity|rewrite zlen_cons in Za; pose proof (zlen_nonneg a); lia]|destruct c; [reflexivity|rewrite zlen_cons in Zc; pose proof (zlen_nonneg c); lia]]. }
        destruct A0 as [-> ->]. cbn [app] in B. rewrite app_nil_r in B. eexists _, []. split; [reflexivity|].
        cbn [buf set_buf]. unfold view. cbn [fst snd]. rewrite B, sub_list_all. split.
        { exists m, []. cbn [buf r w set_buf app]. rewrite ?app_nil_r, ?B, ?zlen_nil. rewrite zlen_nil in W. rewrite B in Nn. repeat split; auto; lia. }
        split; [reflexivity|]. exists false. split; [apply stop_full; auto; now rewrite B in Nn|]. split; [discriminate|reflexivity].
      * destruct (fill rd) as [rd1 y] eqn:Fl. unfold buffered in Q. pose proof H as (_ & _ & _ & _ & _ & Nn).
        destruct (fill_spec rd m n H ltac:(lia) _ _ Fl) as (m1 & P1 & Pe & _ & Y). destruct y as [u|e|]; [| |contradiction].
        -- destruct Y as (L1 & _ & Ee). pose proof (holds_len _ _ _ (packed_holds _ _ _ P1)) as (L1' & R1 & W1).
           destruct (IH rd1 m1 n d false (packed_holds _ _ _ P1) N ltac:(cbv iota in *; lia) ltac:(discriminate) rd' x E) as (bd & m' & -> & H' & P' & he' & St & A & Bf).
           exists bd, m'. split; [reflexivity|]. split; [exact H'|]. split; [congruence|]. exists he'. split; [exact St|]. split; [exact A|]. intro Hf. rewrite (Bf Hf). exact Ee.
        -- subst m1. assert (H1 : holds (set_eof rd1) m n) by (apply packed_holds in P1; exact P1).
           destruct (IH (set_eof rd1) m n d true H1 N ltac:(cbv iota in *; lia) ltac:(auto) rd' x E) as (bd & m' & -> & H' & P' & he' & St & A & Bf).
           exists bd, m'. split; [reflexivity|]. split; [exact H'|]. split; [rewrite <- P'; unfold pending in *; cbn [src set_eof]; now symmetry|].
           exists true. destruct he'.
           ++ split; [exact St|]. split; [exact A|discriminate].
           ++ (* a delimiter or a full buffer after an error is impossible: the bytes are [m] *)
              destruct f as [|f]; [lia|]. cbn [until_loop] in E. rewrite (holds_sub _ _ _ H1) in E.
              destruct (index_of d m) as [i|] eqn:I'; [apply index_of_some in I' as (p & q & -> & _); destruct I; apply in_or_app; right; now left|].
              injection E as <- <-. destruct St as [p Ep Np|Nb Lb _|Nb]; [exfalso|exfalso|discriminate].
              ** pose proof (holds_sub _ _ _ H1) as V. cbn [buf set_eof r w] in V. unfold view in Ep. cbn [fst snd buf set_buf set_eof r w] in Ep.
                 rewrite V in Ep. apply I. rewrite Ep. apply in_or_app. right. now left.
              ** pose proof (holds_sub _ _ _ H1) as V. cbn [buf set_eof r w] in V. unfold view in Lb. cbn [fst snd buf set_buf set_eof r w] in Lb.
                 rewrite V in Lb. lia.
Qed.

Lemma read_until_spec rd m n d : holds rd m n -> 0 < n -> forall rd' x, read_until rd d = (rd', x) ->
  exists bounds m', x = Ret bounds /\ holds rd' m' n /\ pending rd m = view (buf rd') bounds ++ pending rd' m' /\
    exists he', stopped d n he' (view (buf rd') bounds) /\ (he' = true -> m' = [] /\ eof rd' = true) /\ (he' = false -> eof rd' = eof rd).
Proof.
  intros H N rd' x E. unfold read_until in E. pose proof H as (_ & _ & _ & _ & _ & Nn). pose proof (zlen_nonneg m).
  apply (until_loop_spec (length (buf rd) + 3) rd m n d false H N); auto; [|discriminate]. unfold zlen in *. lia.
Qed.

(** ** read_line *)

Lemma chop_yes c l : chop c (l ++ [c]) = (true, l).
Proof. unfold chop. rewrite rev_app_distr. cbn [rev app]. rewrite Z.eqb_refl. now rewrite removelast_last. Qed.

Lemma chop_no c l : (forall l', l <> l' ++ [c]) -> chop c l = (false, l).
Proof.
  intro H. unfold chop. destruct (rev l) as [|x q] eqn:E; [reflexivity|]. destruct (Z.eqb_spec x c) as [->|]; [|reflexivity].
  exfalso. apply (H (rev q)). rewrite <- (rev_involutive l), E. reflexivity.
Qed.

Lemma ends_dec (c : Z) l : (exists l', l = l' ++ [c]) \/ (forall l', l <> l' ++ [c]).
Proof.
  destruct l as [|x l] using rev_ind; [right; intros l' E; now destruct l'|]. destruct (Z.eq_dec x c) as [->|N]; [left; now exists l|].
  right. intros l' E. apply app_inj_tail in E as [_ ->]. contradiction.
Qed.

Lemma read_line_spec rd m n : holds rd m n -> 0 < n -> forall rd' x, read_line rd = (rd', x) ->
  exists m', holds rd' m' n /\
    match x with
    | Ret l => exists raw, pending rd m = raw ++ pending rd' m' /\ accounts CLine (Bytes l) raw
    | Exc _ => pending rd m = pending rd' m'
    | Pan => False
    end.
Proof.
  intros H N rd' x E. unfold read_line in E. destruct (eof rd) eqn:Eo.
  { injection E as <- <-. exists m. auto. }
  destruct (read_until rd 10) as [rd1 y] eqn:Q. destruct (read_until_spec rd m n 10 H N _ _ Q) as (bd & m' & -> & H' & P' & he & St & A & B).
  destruct (eof rd1 && (zlen (view (buf rd1) bd) =? 0)) eqn:Z0.
  - injection E as <- <-. exists m'. split; [exact H'|]. assert (view (buf rd1) bd = []) as V.
    { destruct (view (buf rd1) bd); [reflexivity|]. rewrite zlen_cons in Z0. pose proof (zlen_nonneg l). lia. }
    now rewrite V in P'.
  - exists m'. destruct St as [p Ep Np|Nb _ _|Nb _].
    + rewrite Ep in *. rewrite chop_yes in E. injection E as <- <-. split; [exact H'|]. exists (p ++ [10]). split; [exact P'|].
      destruct (ends_dec 13 p) as [(p' & ->)|Nc].
      * rewrite chop_yes. cbn [snd]. rewrite <- app_assoc. cbn [app]. apply acc_line_crlf. intro I. apply Np. apply in_or_app. now left.
      * rewrite (chop_no _ _ Nc). cbn [snd]. now apply acc_line_lf.
    + rewrite chop_no in E by (intros l' El; rewrite El in Nb; apply Nb; apply in_or_app; right; now left).
      injection E as <- <-. split; [exact H'|]. exists (view (buf rd1) bd). split; [exact P'|now apply acc_line_none].
    + rewrite chop_no in E by (intros l' El; rewrite El in Nb; apply Nb; apply in_or_app; right; now left).
      injection E as <- <-. split; [exact H'|]. exists (view (buf rd1) bd). split; [exact P'|now apply acc_line_none].
Qed.
