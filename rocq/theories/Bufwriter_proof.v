(** The buffered writer passes on what it accepted. *)
From Verif Require Import Base Base_lemmas Bufwriter_model Bufwriter_spec.

(** The buffer holds [m] and is [n] bytes long. *)
Definition wholds (wr : writer) (m : list Z) (n : Z) : Prop :=
  exists c, wbuf wr = m ++ c /\ wn wr = zlen m /\ zlen (wbuf wr) = n.

Lemma wholds_held wr m n : wholds wr m n -> held wr = m.
Proof. intros (c & E & W & _). unfold held. rewrite E, W. change (m ++ c) with ([] ++ m ++ c). exact (sub_list_mid [] m c). Qed.

Lemma wholds_len wr m n : wholds wr m n -> 0 <= wn wr <= n /\ available wr = n - zlen m.
Proof.
  intros (c & E & W & N). unfold available. rewrite E, zlen_app in *. pose proof (zlen_nonneg m). pose proof (zlen_nonneg c). lia.
Qed.

(** A call of the underlying writer. *)
Lemma sink_write_spec wr b wr' x : sink_write wr b = (wr', x) ->
  exists p q, b = p ++ q /\ sink wr' = sink wr ++ p /\ wbuf wr' = wbuf wr /\ wn wr' = wn wr /\ werr wr' = werr wr /\
    (length (plan wr') <= length (plan wr))%nat /\
    match x with
    | WRet k => k = zlen p /\ ((length (plan wr') < length (plan wr))%nat \/ q = [])
    | WExc => exists k, In (Refuse k) (plan wr)
    | WPan => False
    end /\ (forall e, In e (plan wr') -> In e (plan wr)).
Proof.
  intro E. unfold sink_write in E. destruct (plan wr) as [|[k|k] o]; injection E as <- <-; cbn [sink wbuf wn werr plan].
  - exists b, []. rewrite app_nil_r. repeat split; auto.
  - exists (firstn k b), (skipn k b). rewrite firstn_skipn. do 5 (split; [reflexivity|]). split; [cbn [length]; lia|]. split; [split; [reflexivity|left; cbn [length]; lia]|intros; now right].
  - exists (firstn k b), (skipn k b). rewrite firstn_skipn. do 5 (split; [reflexivity|]). split; [cbn [length]; lia|]. split; [exists k; now left|intros; now right].
Qed.

Lemma flush_loop_spec f : forall wr m1 m2 n, wholds wr (m1 ++ m2) n -> werr wr = false ->
  (length m2 + length (plan wr) + 1 <= f)%nat -> forall wr' x, flush_loop f wr (zlen m1) = (wr', x) ->
  zlen (wbuf wr') = n /\ (length (plan wr') <= length (plan wr))%nat /\ (forall e, In e (plan wr') -> In e (plan wr)) /\
  match x with
  | WRet _ => wholds wr' [] n /\ sink wr' = sink wr ++ m2 /\ werr wr' = false
  | WExc => werr wr' = true /\ (exists p q, m2 = p ++ q /\ sink wr' = sink wr ++ p) /\ exists k, In (Refuse k) (plan wr)
  | WPan => False
  end.
Proof.
  induction f as [|f IH]; intros wr m1 m2 n H Er F wr' x E; [lia|]. cbn [flush_loop] in E. pose proof H as (c & B & W & N). rewrite zlen_app in W.
  destruct (Z.ltb_spec (zlen m1) (wn wr)) as [L|L].
  - assert (Sb : sub_list (wbuf wr) (zlen m1) (wn wr) = m2) by (rewrite B, W, <- app_assoc; apply sub_list_mid). rewrite Sb in E.
    destruct (sink_write wr m2) as [wr1 y] eqn:Q. apply sink_write_spec in Q as (p & q & -> & S1 & B1 & W1 & E1 & P1 & Y & Pl).
    destruct y as [k| |]; [| |contradiction].
    + destruct Y as (-> & Pr). rewrite <- zlen_app in E.
      destruct (IH wr1 (m1 ++ p) q n) with (wr' := wr') (x := x) as (A1 & A2 & A3 & A4); auto.
      * exists c. rewrite B1, W1. split; [rewrite B; now rewrite <- !app_assoc|]. split; [rewrite W, !zlen_app; lia|exact N].
      * congruence.
      * rewrite app_length in F. destruct Pr as [Pr| ->]; [lia|]. assert (0 < length p)%nat by (rewrite app_nil_r in *; unfold zlen in *; lia). cbn [length]. lia.
      * split; [exact A1|]. split; [lia|]. split; [auto|]. destruct x as [u| |]; [| |contradiction].
        -- destruct A4 as (X1 & X2 & X3). split; [exact X1|]. split; [rewrite X2, S1; now rewrite <- app_assoc|exact X3].
        -- destruct A4 as (X1 & (p' & q' & -> & X2) & k & X3). split; [exact X1|]. split; [exists (p ++ p'), q'; split; [apply app_assoc|rewrite X2, S1; now rewrite <- app_assoc]|].
           exists k. auto.
    + injection E as <- <-. split; [cbn; now rewrite B1|]. split; [exact P1|]. split; [exact Pl|]. split; [reflexivity|]. split; [exists p, q; auto|exact Y].
  - assert (m2 = []) as -> by (destruct m2; [reflexivity|rewrite zlen_cons in W; pose proof (zlen_nonneg m2); lia]).
    injection E as <- <-. cbn [set_wbuf wbuf plan sink werr]. split; [exact N|]. split; [lia|]. split; [auto|].
    split; [|rewrite app_nil_r; auto]. exists (wbuf wr). cbn. auto.
Qed.

Lemma flush_spec wr m n : wholds wr m n -> werr wr = false -> forall wr' x, flush wr = (wr', x) ->
  zlen (wbuf wr') = n /\ (length (plan wr') <= length (plan wr))%nat /\ (forall e, In e (plan wr') -> In e (plan wr)) /\
  match x with
  | WRet _ => wholds wr' [] n /\ sink wr' = sink wr ++ m /\ werr wr' = false
  | WExc => werr wr' = true /\ (exists p q, m = p ++ q /\ sink wr' = sink wr ++ p) /\ exists k, In (Refuse k) (plan wr)
  | WPan => False
  end.
Proof.
  intros H Er wr' x E. unfold flush in E. rewrite Er in E. pose proof H as (c & B & W & N). destruct (Z.eqb_spec (wn wr) 0) as [Z0|Z0].
  - injection E as <- <-. assert (m = []) as -> by (destruct m; [reflexivity|rewrite zlen_cons in W; pose proof (zlen_nonneg m); lia]).
    rewrite app_nil_r. repeat split; auto.
  - assert (F : (length m + length (plan wr) + 1 <= Z.to_nat (wn wr) + length (plan wr) + 1)%nat) by (rewrite W; unfold zlen; lia).
    exact (flush_loop_spec _ wr [] m n H Er F _ _ E).
Qed.

Lemma store_spec (m c d : list Z) : zlen d <= zlen c -> exists c', store (m ++ c) (zlen m) d = (m ++ d) ++ c' /\ zlen c' = zlen c - zlen d.
Proof.
  intro H. unfold store, zlen. rewrite Nat2Z.id, firstn_app, firstn_all, Nat.sub_diag. cbn [firstn]. rewrite app_nil_r.
  eexists. rewrite <- app_assoc. split; [reflexivity|]. rewrite skipn_length, app_length. unfold zlen in H. lia.
Qed.

Lemma take_n (b : list Z) k : 0 <= k <= zlen b -> exists p q, b = p ++ q /\ firstn (Z.to_nat k) b = p /\ skipn (Z.to_nat k) b = q /\ zlen p = k.
Proof.
  intro H. exists (firstn (Z.to_nat k) b), (skipn (Z.to_nat k) b). rewrite firstn_skipn. repeat split; auto. unfold zlen in *. rewrite firstn_length. lia.
Qed.

Lemma skip_all (p q : list Z) : skipn (Z.to_nat (zlen p)) (p ++ q) = q.
Proof. unfold zlen. rewrite Nat2Z.id, skipn_app, skipn_all, Nat.sub_diag. reflexivity. Qed.

(** What a finished call leaves: everything accepted so far is passed on or held. *)
Definition wafter (wr : writer) (m : list Z) (n : Z) (b : list Z) (wr' : writer) {A} (x : wans A) : Prop :=
  zlen (wbuf wr') = n /\ (forall e, In e (plan wr') -> In e (plan wr)) /\
  match x with
  | WRet _ => werr wr' = false /\ exists m', wholds wr' m' n /\ sink wr' ++ m' = sink wr ++ m ++ b
  | WExc => werr wr' = true /\ (exists rest, sink wr' ++ rest = sink wr ++ m ++ b) /\ exists k, In (Refuse k) (plan wr)
  | WPan => False
  end.

Lemma write_loop_spec f : forall wr m n b, wholds wr m n -> 0 < n -> werr wr = false ->
  (length b + length (plan wr) + 1 <= f)%nat -> forall wr' x, write_loop f wr b = (wr', x) -> wafter wr m n b wr' x.
Proof.
  induction f as [|f IH]; intros wr m n b H N Er F wr' x E; [lia|]. cbn [write_loop] in E. destruct b as [|b0 b1].
  { injection E as <- <-. pose proof H as (c & B & W & Nn). split; [exact Nn|]. split; [auto|]. split; [exact Er|]. exists m. rewrite app_nil_r. auto. }
  set (b := b0 :: b1) in *. assert (Lb : 0 < zlen b) by (unfold b; rewrite zlen_cons; pose proof (zlen_nonneg b1); lia). clearbody b.
  destruct (if available wr =? 0 then flush wr else (wr, WRet tt)) as [wr1 y] eqn:Q.
  assert (Fl : zlen (wbuf wr1) = n /\ (length (plan wr1) <= length (plan wr))%nat /\ (forall e, In e (plan wr1) -> In e (plan wr)) /\
    match y with
    | WRet _ => werr wr1 = false /\ exists m1, wholds wr1 m1 n /\ sink wr1 ++ m1 = sink wr ++ m /\ zlen m1 < n
    | WExc => werr wr1 = true /\ (exists p q, m = p ++ q /\ sink wr1 = sink wr ++ p) /\ exists k, In (Refuse k) (plan wr)
    | WPan => False
    end).
  { pose proof (wholds_len _ _ _ H) as (Wn & Av). destruct (Z.eqb_spec (available wr) 0) as [Z0|Z0].
    - destruct (flush_spec wr m n H Er _ _ Q) as (A1 & A2 & A3 & A4). split; [exact A1|]. split; [exact A2|]. split; [exact A3|].
      destruct y; auto. destruct A4 as (X1 & X2 & X3). split; [exact X3|]. exists []. rewrite app_nil_r, zlen_nil. auto.
    - injection Q as <- <-. pose proof H as (c & B & W & Nn). repeat split; auto. exists m. repeat split; auto. lia. }
  destruct Fl as (N1 & P1 & Pi & Y). destruct y as [u| |]; [|injection E as <- <-|contradiction].
  2: { destruct Y as (X1 & (p & q & -> & X2) & X3). split; [exact N1|]. split; [exact Pi|]. split; [exact X1|]. split; [|exact X3].
       exists (q ++ b). rewrite X2. now rewrite <- !app_assoc. }
  destruct Y as (Er1 & m1 & H1 & S1 & L1). destruct (wholds_len _ _ _ H1) as (Wn1 & Av1). pose proof H1 as (c1 & B1 & W1 & _).
  (* any continuation that has moved the front of [b] *)
  assert (Go : forall wr2 m2 p q, b = p ++ q -> wholds wr2 m2 n -> werr wr2 = false -> sink wr2 ++ m2 = sink wr1 ++ m1 ++ p ->
     (length (plan wr2) <= length (plan wr1))%nat -> (forall e, In e (plan wr2) -> In e (plan wr1)) ->
     ((length (plan wr2) < length (plan wr1))%nat \/ p <> []) -> write_loop f wr2 q = (wr', x) -> wafter wr m n b wr' x).
  { intros wr2 m2 p q Eb H2 Er2 S2 Pl2 Pi2 Pr E2.
    destruct (IH wr2 m2 n q H2 N Er2) with (wr' := wr') (x := x) as (A1 & A2 & A3); [|exact E2|].
    { rewrite Eb, app_length in F. destruct Pr as [Pr|Pr]; [lia|]. destruct p; [contradiction|]. cbn [length] in F. lia. }
    assert (T : sink wr2 ++ m2 ++ q = sink wr ++ m ++ b) by (rewrite app_assoc, S2, Eb, app_assoc, S1, <- !app_assoc; reflexivity).
    split; [exact A1|]. split; [auto|]. destruct x as [v| |]; [| |exact A3].
    - destruct A3 as (X1 & m' & X2 & X3). split; [exact X1|]. exists m'. split; [exact X2|congruence].
    - destruct A3 as (X1 & (rest & X2) & k & X3). split; [exact X1|]. split; [exists rest; congruence|]. exists k. auto. }
  destruct ((zlen (wbuf wr1) <=? zlen b) && (wn wr1 =? 0)) eqn:D.
  - assert (m1 = []) as -> by (destruct m1; [reflexivity|rewrite zlen_cons in W1; pose proof (zlen_nonneg m1); lia]).
    destruct (sink_write wr1 b) as [wr2 y] eqn:S. apply sink_write_spec in S as (p & q & Eb & S2 & B2 & W2 & Er2 & Pl2 & Y & Pi2).
    destruct y as [k| |]; [| |contradiction].
    + destruct Y as (-> & Pr). rewrite Eb, skip_all in E.
      apply (Go wr2 [] p q Eb); auto; [exists (wbuf wr2); rewrite W2, B2; rewrite zlen_nil in W1; cbn; auto|congruence|rewrite S2, app_nil_r; reflexivity|].
      destruct Pr as [Pr|Pr]; [now left|right]. intros ->. rewrite Pr in Eb. subst b. rewrite zlen_nil in Lb. lia.
    + injection E as <- <-. split; [cbn; now rewrite B2|]. split; [cbn; auto|]. split; [reflexivity|]. split.
      * exists q. cbn. rewrite S2. rewrite app_nil_r in S1. rewrite S1, Eb, <- !app_assoc. reflexivity.
      * destruct Y as (k & Y). exists k. auto.
  - clear D. set (k := if available wr1 <? zlen b then available wr1 else zlen b) in E.
    assert (K : 0 < k <= zlen b /\ k <= available wr1) by (unfold k; destruct (Z.ltb_spec (available wr1) (zlen b)); lia). clearbody k.
    destruct (take_n b k ltac:(lia)) as (p & q & Eb & Ep & Eq & Lp). rewrite Ep, Eq in E.
    rewrite W1, B1 in E. destruct (store_spec m1 c1 p) as (c2 & Es & Lc).
    { rewrite B1, zlen_app in N1. lia. }
    rewrite Es in E. apply (Go _ (m1 ++ p) p q Eb) in E; auto.
    + exists c2. cbn [set_wbuf wbuf wn]. rewrite B1, zlen_app in N1. rewrite !zlen_app. repeat split; lia.
    + right. intros ->. rewrite zlen_nil in Lp. lia.
Qed.

Lemma write_byte_spec wr m n c : wholds wr m n -> 0 < n -> werr wr = false -> forall wr' x, write_byte wr c = (wr', x) -> wafter wr m n [c] wr' x.
Proof.
  intros H N Er wr' x E. unfold write_byte in E. rewrite Er in E. pose proof (wholds_len _ _ _ H) as (Wn & Av).
  assert (Go : forall wr1 m1, wholds wr1 m1 n -> zlen m1 < n -> werr wr1 = false -> sink wr1 ++ m1 = sink wr ++ m -> (forall e, In e (plan wr1) -> In e (plan wr)) ->
     match set_at (wbuf wr1) (wn wr1) c with Ok b => (set_wbuf wr1 b (wn wr1 + 1), WRet tt) | _ => (wr1, WPan) end = (wr', x) -> wafter wr m n [c] wr' x).
  { intros wr1 m1 (c1 & B1 & W1 & N1) L1 Er1 S1 Pi E1. destruct c1 as [|z c1]; [rewrite B1, app_nil_r in N1; lia|].
    rewrite B1, W1 in E1. assert (Es : set_at (m1 ++ z :: c1) (zlen m1) c = Ok (m1 ++ c :: c1)).
    { unfold set_at. replace ((0 <=? zlen m1) && (zlen m1 <? zlen (m1 ++ z :: c1))) with true by (rewrite zlen_app, zlen_cons; pose proof (zlen_nonneg m1); pose proof (zlen_nonneg c1); lia).
      f_equal. unfold zlen. rewrite Nat2Z.id. clear. induction m1; cbn; [reflexivity|now f_equal]. }
    rewrite Es in E1. injection E1 as <- <-. split; [cbn; rewrite B1 in N1; rewrite zlen_app, zlen_cons in *; lia|]. split; [exact Pi|]. split; [exact Er1|].
    exists (m1 ++ [c]). split; [|cbn; now rewrite app_assoc, S1, <- app_assoc].
    exists c1. cbn. rewrite <- app_assoc. rewrite zlen_app, zlen_cons, zlen_nil. rewrite B1 in N1. rewrite zlen_app, zlen_cons in *. cbn [app]. repeat split; lia. }
  destruct (Z.eqb_spec (available wr) 0) as [Z0|Z0].
  - destruct (flush wr) as [wr1 y] eqn:Q. destruct (flush_spec wr m n H Er _ _ Q) as (A1 & A2 & A3 & A4). destruct y as [u| |]; [| |contradiction].
    + destruct A4 as (X1 & X2 & X3). apply (Go wr1 [] X1); auto; [rewrite app_nil_r; exact X2].
    + injection E as <- <-. destruct A4 as (X1 & (p & q & -> & X2) & X3). split; [exact A1|]. split; [exact A3|]. split; [exact X1|]. split; [|exact X3].
      exists (q ++ [c]). rewrite X2. now rewrite <- !app_assoc.
  - pose proof H as (cc & _ & Wm & _). apply (Go wr m H); auto. lia.
Qed.

Lemma wserve_spec wr m n c : wholds wr m n -> 0 < n -> werr wr = false ->
  let wr' := fst (wserve wr c) in
  zlen (wbuf wr') = n /\ (forall e, In e (plan wr') -> In e (plan wr)) /\
  ((snd (wserve wr c) = Returned (zlen (handed c)) /\ werr wr' = false /\
     (exists m', wholds wr' m' n /\ sink wr' ++ m' = sink wr ++ m ++ handed c /\ (c = Flush -> m' = []))) \/
   (snd (wserve wr c) = Threw /\ werr wr' = true /\ (exists rest, sink wr' ++ rest = sink wr ++ m ++ handed c) /\ exists k, In (Refuse k) (plan wr))).
Proof.
  intros H N Er wr'. unfold wr'. destruct c as [b|c|]; cbn [wserve handed].
  - unfold write. rewrite Er. destruct (write_loop (length b + length (plan wr) + 1) wr b) as [w1 x] eqn:Q.
    destruct (write_loop_spec _ wr m n b H N Er (Nat.le_refl _) _ _ Q) as (A1 & A2 & A3). destruct x as [u| |]; cbn [fst snd]; [| |contradiction]; (split; [exact A1|]; split; [exact A2|]).
    + left. destruct A3 as (X1 & m' & X2 & X3). split; [reflexivity|]. split; [exact X1|]. exists m'. split; [exact X2|]. split; [exact X3|discriminate].
    + right. destruct A3 as (X1 & X2 & X3). auto.
  - destruct (write_byte wr c) as [w1 x] eqn:Q. destruct (write_byte_spec wr m n c H N Er _ _ Q) as (A1 & A2 & A3).
    destruct x as [u| |]; cbn [fst snd]; [| |contradiction]; (split; [exact A1|]; split; [exact A2|]).
    + left. destruct A3 as (X1 & m' & X2 & X3). split; [reflexivity|]. split; [exact X1|]. exists m'. split; [exact X2|]. split; [exact X3|discriminate].
    + right. destruct A3 as (X1 & X2 & X3). auto.
  - destruct (flush wr) as [w1 x] eqn:Q. destruct (flush_spec wr m n H Er _ _ Q) as (A1 & A2 & A3 & A4).
    destruct x as [u| |]; cbn [fst snd]; [| |contradiction]; (split; [exact A1|]; split; [exact A3|]).
    + left. destruct A4 as (X1 & X2 & X3). split; [reflexivity|]. split; [exact X3|]. exists []. rewrite !app_nil_r. auto.
    + right. destruct A4 as (X1 & (p & q & -> & X2) & X3). split; [reflexivity|]. split; [exact X1|]. split; [|exact X3].
      exists q. rewrite X2, app_nil_r. now rewrite <- app_assoc.
Qed.

Lemma wserve_broken wr c : werr wr = true -> wserve wr c = (wr, Threw).
Proof. intro E. destruct c; cbn [wserve]; unfold write, write_byte, flush; rewrite E; reflexivity. Qed.

Lemma wserve_all_broken cs : forall wr, werr wr = true -> wserve_all wr cs = (wr, repeat Threw (length cs)).
Proof. induction cs as [|c cs IH]; intros wr E; [reflexivity|]. cbn [wserve_all]. rewrite (wserve_broken _ _ E), (IH _ E). reflexivity. Qed.

(** Either every call returned, or one threw and so did all later ones. *)
Lemma wserve_all_spec cs : forall wr m n, wholds wr m n -> 0 < n -> werr wr = false ->
  let wr' := fst (wserve_all wr cs) in
  (snd (wserve_all wr cs) = all_returned cs /\ werr wr' = false /\ zlen (wbuf wr') = n /\ (forall e, In e (plan wr') -> In e (plan wr)) /\
     exists m', wholds wr' m' n /\ sink wr' ++ m' = sink wr ++ m ++ all_handed cs) \/
  (exists good c later, cs = good ++ c :: later /\ snd (wserve_all wr cs) = all_returned good ++ repeat Threw (S (length later)) /\
     fst (wserve_all wr (good ++ [c])) = wr' /\ werr wr' = true /\
     (exists rest, sink wr' ++ rest = sink wr ++ m ++ all_handed (good ++ [c])) /\ exists k, In (Refuse k) (plan wr)).
Proof.
  induction cs as [|c cs IH]; intros wr m n H N Er wr'; unfold wr'.
  - left. pose proof H as (d & B & W & Nn). cbn. repeat split; auto. exists m. rewrite app_nil_r. auto.
  - destruct (wserve_spec wr m n c H N Er) as (A1 & A2 & A3). cbn [wserve_all]. destruct (wserve wr c) as [w1 s] eqn:Sv. cbn [fst snd] in *.
    destruct A3 as [(-> & E1 & m1 & H1 & S1 & _)|(-> & E1 & R1 & K1)].
    + destruct (IH w1 m1 n H1 N E1) as [(X1 & X2 & X3 & X4 & m' & X5 & X6)|(good & c' & later & -> & X2 & X3 & X4 & (rest & X5) & k & X6)].
      * left. destruct (wserve_all w1 cs) as [w2 ss]. cbn [fst snd] in *. rewrite X1. repeat split; auto. exists m'. split; [exact X5|].
        rewrite X6. change (all_handed (c :: cs)) with (handed c ++ all_handed cs). rewrite app_assoc, S1, <- !app_assoc. reflexivity.
      * right. exists (c :: good), c', later. destruct (wserve_all w1 (good ++ c' :: later)) as [w2 ss]. cbn [fst snd] in *.
        split; [reflexivity|]. split; [rewrite X2; reflexivity|]. split.
        { cbn [app wserve_all]. rewrite Sv. destruct (wserve_all w1 (good ++ [c'])). exact X3. }
        split; [exact X4|]. split; [|exists k; auto]. exists rest. rewrite X5. change (all_handed ((c :: good) ++ [c'])) with (handed c ++ all_handed (good ++ [c'])).
        rewrite app_assoc, S1, <- !app_assoc. reflexivity.
    + right. exists [], c, cs. rewrite (wserve_all_broken cs w1 E1). cbn [fst snd app]. split; [reflexivity|]. split; [reflexivity|]. split; [cbn [wserve_all]; now rewrite Sv|].
      split; [exact E1|]. split; [|exact K1]. unfold all_handed. cbn [map concat]. now rewrite app_nil_r.
Qed.

Lemma new_wholds size o : wholds (new_writer size o) [] (Z.of_nat size).
Proof. exists (repeat 0 size). cbn. repeat split. unfold zlen. now rewrite repeat_length. Qed.
