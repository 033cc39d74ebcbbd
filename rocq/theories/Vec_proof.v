From Verif Require Import Base Base_lemmas Zlist Vec_model Vec_spec.

Section vec_proof.
Context {A : Type}.
Variable zero : A.
Variable esz : Z.
Notation heap := (list (list A)).

Definition cell (h : heap) (b : nat) (k : Z) : option A :=
  match nth_error h b with Some block => znth block k | None => None end.

Definition wf_vec (h : heap) (v : vec) : Prop :=
  0 <= len v <= cap v /\ 0 <= off v /\
  (forall b, blk v = Some b -> (b < length h)%nat) /\
  (0 < cap v -> exists b block, blk v = Some b /\ nth_error h b = Some block /\ off v + cap v <= zlen block).

Definition hext (h h' : heap) : Prop :=
  (length h <= length h')%nat /\
  forall b block, nth_error h b = Some block ->
    exists block', nth_error h' b = Some block' /\ zlen block' = zlen block.

Lemma hext_refl h : hext h h.
Proof using zero esz. split; [lia|eauto]. Qed.

Lemma hext_trans h1 h2 h3 : hext h1 h2 -> hext h2 h3 -> hext h1 h3.
Proof using zero esz.
  intros [L1 H1] [L2 H2]. split; [lia|]. intros b block Hb.
  destruct (H1 _ _ Hb) as (b2 & Hb2 & E2). destruct (H2 _ _ Hb2) as (b3 & Hb3 & E3).
  exists b3. split; [assumption|congruence].
Qed.

Lemma wf_hext h h' v : hext h h' -> wf_vec h v -> wf_vec h' v.
Proof using zero esz.
  intros [L H] (W1 & W2 & W3 & W4). split; [assumption|]. split; [assumption|]. split.
  - intros b Hb. specialize (W3 b Hb). lia.
  - intros Hc. destruct (W4 Hc) as (b & block & Hb & Hn & Hl). destruct (H _ _ Hn) as (block' & Hn' & He).
    exists b, block'. split; [assumption|]. split; [assumption|lia].
Qed.

(** load *)
Lemma load_ok h b block o n : nth_error h b = Some block -> 0 <= o -> 0 <= n -> o + n <= zlen block ->
  exists d, load h (Some b) o n = Ok d /\ zlen d = n /\ forall i, 0 <= i < n -> znth d i = cell h b (o + i).
Proof using zero esz.
  intros Hb Ho Hn Hl. unfold load. destruct (Z.eqb_spec n 0) as [->|Hn0].
  { exists []. split; [reflexivity|]. split; [reflexivity|]. lia. }
  rewrite Hb. replace ((0 <=? o) && (0 <=? n) && (o + n <=? zlen block)) with true by lia.
  exists (sub_list block o (o + n)). split; [reflexivity|]. split; [rewrite zlen_sub_list; lia|].
  intros i Hi. rewrite znth_sub_list by lia. replace (i <? o + n - o) with true by lia.
  unfold cell. now rewrite Hb.
Qed.

Lemma load_vec h v i n : wf_vec h v -> 0 <= i -> 0 <= n -> i + n <= cap v ->
  exists d, load h (blk v) (off v + i) n = Ok d /\ zlen d = n /\
    forall k, 0 <= k < n -> forall b, blk v = Some b -> znth d k = cell h b (off v + i + k).
Proof using zero esz.
  intros (W1 & W2 & W3 & W4) Hi Hn Hin. destruct (Z.eq_dec n 0) as [->|Hn0].
  { exists []. split; [reflexivity|]. split; [reflexivity|]. lia. }
  destruct (W4 ltac:(lia)) as (b & block & Hb & Hnb & Hl). rewrite Hb.
  destruct (load_ok h b block (off v + i) n Hnb ltac:(lia) ltac:(lia) ltac:(lia)) as (d & Hd & Hz & Hc).
  exists d. split; [exact Hd|]. split; [exact Hz|]. intros k Hk b' [= <-]. now apply Hc.
Qed.

Lemma load_view h v : wf_vec h v -> load h (blk v) (off v) (len v) = Ok (view h v).
Proof using zero esz.
  intros W. destruct (load_vec h v 0 (len v) W) as (d & Hd & _); try (destruct W; lia).
  rewrite Z.add_0_r in Hd. unfold view. now rewrite Hd.
Qed.

Lemma view_len h v : wf_vec h v -> zlen (view h v) = len v.
Proof using zero esz.
  intros W. destruct (load_vec h v 0 (len v) W) as (d & Hd & Hz & _); try (destruct W; lia).
  rewrite Z.add_0_r in Hd. unfold view. now rewrite Hd.
Qed.

Lemma view_nth h v i b : wf_vec h v -> 0 <= i < len v -> blk v = Some b ->
  znth (view h v) i = cell h b (off v + i).
Proof using zero esz.
  intros W Hi Hb. destruct (load_vec h v 0 (len v) W) as (d & Hd & Hz & Hc); try (destruct W; lia).
  rewrite Z.add_0_r in Hd, Hc. unfold view. rewrite Hd. apply Hc; auto.
Qed.

Lemma wf_blk h v : wf_vec h v -> 0 < len v -> exists b, blk v = Some b.
Proof using zero esz. intros (W1 & _ & _ & W4) Hl. destruct (W4 ltac:(lia)) as (b & _ & Hb & _). eauto. Qed.

Lemma view_same h h' v : hext h h' -> wf_vec h v ->
  (forall b k, blk v = Some b -> off v <= k < off v + len v -> cell h' b k = cell h b k) ->
  view h' v = view h v.
Proof using zero esz.
  intros He W Hc. pose proof (wf_hext _ _ _ He W) as W'.
  apply znth_ext_len; rewrite view_len; auto.
  - now rewrite view_len.
  - intros i Hi. destruct (wf_blk h v W ltac:(lia)) as [b Hb].
    rewrite (view_nth h' v i b W' Hi Hb), (view_nth h v i b W Hi Hb). apply Hc; auto. lia.
Qed.

(** store *)
Lemma zlen_splice (block : list A) o d : 0 <= o -> o + zlen d <= zlen block -> zlen (splice block o d) = zlen block.
Proof using zero esz.
  intros Ho Hl. pose proof (zlen_nonneg d). unfold splice. rewrite !zlen_app, zlen_firstn, zlen_skipn. lia.
Qed.

Lemma znth_splice (block : list A) o d k : 0 <= o -> o + zlen d <= zlen block ->
  znth (splice block o d) k = if (o <=? k) && (k <? o + zlen d) then znth d (k - o) else znth block k.
Proof using zero esz.
  intros Ho Hl. pose proof (zlen_nonneg d). destruct (Z_lt_dec k 0).
  { rewrite !(znth_None _ k) by lia. now replace (o <=? k) with false by lia. }
  unfold splice. rewrite znth_app, zlen_firstn by lia. rewrite znth_firstn by lia. rewrite Z2Nat.id by lia.
  destruct (k <? Z.min o (zlen block)) eqn:E1.
  - replace (k <? o) with true by lia. now replace (o <=? k) with false by lia.
  - replace (Z.min o (zlen block)) with o by lia. rewrite znth_app by lia.
    replace (o <=? k) with true by lia. destruct (k - o <? zlen d) eqn:E2.
    + now replace (k <? o + zlen d) with true by lia.
    + replace (k <? o + zlen d) with false by lia. rewrite znth_skipn by lia. cbn [andb]. f_equal. lia.
Qed.

Lemma store_ok h b block o d : nth_error h b = Some block -> 0 <= o -> o + zlen d <= zlen block ->
  exists h', store h (Some b) o d = Ok h' /\ hext h h' /\ length h' = length h /\
    forall b' k, cell h' b' k =
      if Nat.eqb b' b && (o <=? k) && (k <? o + zlen d) then znth d (k - o) else cell h b' k.
Proof using zero esz.
  intros Hb Ho Hl. pose proof (zlen_nonneg d). unfold store. destruct (Z.eqb_spec (zlen d) 0) as [E|E].
  { exists h. split; [reflexivity|]. split; [apply hext_refl|]. split; [reflexivity|]. intros b' k.
    rewrite E. replace ((o <=? k) && (k <? o + 0)) with false by lia.
    rewrite <- andb_assoc. replace ((o <=? k) && (k <? o + 0)) with false by lia. now rewrite andb_false_r. }
  rewrite Hb. replace ((0 <=? o) && (o + zlen d <=? zlen block)) with true by lia.
  assert (Hlt : (b < length h)%nat) by (apply nth_error_Some; congruence).
  exists (list_set h b (splice block o d)). split; [reflexivity|]. split; [|split].
  - split; [rewrite length_list_set; lia|]. intros b' block' Hb'. rewrite nth_error_list_set.
    destruct (Nat.eqb_spec b b') as [<-|]; [|eauto].
    replace (Nat.ltb b (length h)) with true by (symmetry; apply Nat.ltb_lt; lia).
    exists (splice block o d). split; [reflexivity|]. rewrite Hb in Hb'. injection Hb' as <-. now apply zlen_splice.
  - apply length_list_set.
  - intros b' k. unfold cell. rewrite nth_error_list_set. destruct (Nat.eqb_spec b b') as [<-|Hne].
    + replace (Nat.ltb b (length h)) with true by (symmetry; apply Nat.ltb_lt; lia).
      rewrite Nat.eqb_refl, Hb, znth_splice by lia. reflexivity.
    + replace (Nat.eqb b' b) with false; [reflexivity|]. symmetry. apply Nat.eqb_neq. lia.
Qed.

(** Changes confined to a window of one vector's block. *)
Definition only_at (h h' : heap) (b : option nat) (lo hi : Z) : Prop :=
  forall b' k, (b' < length h)%nat -> ~ (b = Some b' /\ lo <= k < hi) -> cell h' b' k = cell h b' k.

Lemma store_vec h v i d : wf_vec h v -> 0 <= i -> i + zlen d <= cap v ->
  exists h', store h (blk v) (off v + i) d = Ok h' /\ hext h h' /\ length h' = length h /\
    (forall b k, blk v = Some b -> off v + i <= k < off v + i + zlen d -> cell h' b k = znth d (k - (off v + i))) /\
    only_at h h' (blk v) (off v + i) (off v + i + zlen d).
Proof using zero esz.
  intros (W1 & W2 & W3 & W4) Hi Hd. pose proof (zlen_nonneg d). destruct (Z.eq_dec (zlen d) 0) as [E|E].
  { exists h. unfold store. rewrite E. split; [reflexivity|]. split; [apply hext_refl|]. split; [reflexivity|].
    split; [lia|]. intros b' k Hb' Hn. reflexivity. }
  destruct (W4 ltac:(lia)) as (b & block & Hb & Hnb & Hl). rewrite Hb.
  destruct (store_ok h b block (off v + i) d Hnb ltac:(lia) ltac:(lia)) as (h' & Hs & He & HL & Hc).
  exists h'. split; [exact Hs|]. split; [exact He|]. split; [exact HL|]. split.
  - intros b' k [= <-] Hk. rewrite Hc, Nat.eqb_refl.
    now replace (true && (off v + i <=? k) && (k <? off v + i + zlen d)) with true by lia.
  - intros b' k Hb' Hn. rewrite Hc. destruct (Nat.eqb_spec b' b) as [->|]; [|reflexivity].
    replace (true && (off v + i <=? k) && (k <? off v + i + zlen d)) with false; [reflexivity|].
    symmetry. apply not_true_is_false. intros Ht. apply Hn. split; [reflexivity|lia].
Qed.

(** array_new *)
Lemma array_new_ok h n : 0 <= n ->
  exists h', array_new zero h n = Ok (h', length h) /\ hext h h' /\ length h' = S (length h) /\
    (exists block, nth_error h' (length h) = Some block /\ zlen block = n) /\
    (forall b k, (b < length h)%nat -> cell h' b k = cell h b k).
Proof using zero esz.
  intros Hn. unfold array_new. replace (n <? 0) with false by lia. eexists. split; [reflexivity|].
  split; [|split; [|split]].
  - split; [rewrite app_length; cbn; lia|]. intros b block Hb. exists block. split; [|reflexivity].
    rewrite nth_error_app1; [assumption|]. apply nth_error_Some. congruence.
  - rewrite app_length. cbn. lia.
  - eexists. split; [rewrite nth_error_app2, Nat.sub_diag by lia; reflexivity|]. rewrite zlen_repeat. lia.
  - intros b k Hb. unfold cell. now rewrite nth_error_app1.
Qed.

Definition fresh_cells (h h' : heap) : Prop :=
  forall b k, (b < length h)%nat -> cell h' b k = cell h b k.

Lemma grow_ok h v custom : wf_vec h v -> custom = 0 \/ (0 < custom /\ len v <= custom) ->
  exists h' v', grow zero h v custom = Ok (h', v') /\ hext h h' /\ wf_vec h' v' /\
    blk v' = Some (length h) /\ off v' = 0 /\ len v' = len v /\
    cap v' = (if custom =? 0 then if 0 <? cap v then cap v * 2 else 8 else custom) /\
    (0 < cap v' /\ (custom = 0 -> len v = cap v -> len v < cap v')) /\
    view h' v' = view h v /\ fresh_cells h h'.
Proof using zero esz.
  intros W Hc. pose proof W as (W1 & W2 & W3 & W4). unfold grow.
  set (c := if negb (custom =? 0) then custom else if 0 <? cap v then cap v * 2 else 8).
  assert (Hcc : 0 < c /\ len v <= c /\ (custom = 0 -> len v = cap v -> len v < c))
    by (subst c; destruct (Z.eqb_spec custom 0); cbn [negb]; [destruct (Z.ltb_spec 0 (cap v))|]; lia).
  destruct (array_new_ok h c ltac:(lia)) as (h1 & -> & He1 & HL1 & (block & Hb1 & Hz1) & Hc1). cbn [bind].
  assert (Hc' : c = (if custom =? 0 then if 0 <? cap v then cap v * 2 else 8 else custom))
    by (subst c; destruct (custom =? 0); reflexivity).
  destruct (0 <? len v) eqn:E.
  - pose proof (wf_hext _ _ _ He1 W) as Wv1.
    rewrite (load_view h1 v Wv1). cbn [bind].
    assert (Hz : zlen (view h1 v) = len v) by now apply view_len.
    destruct (store_ok h1 (length h) block 0 (view h1 v) Hb1 ltac:(lia) ltac:(lia)) as (h2 & -> & He2 & HL2 & Hc2).
    cbn [bind].
    assert (Hsame : view h1 v = view h v).
    { apply view_same; [assumption|assumption|]. intros b k Hb Hk. apply Hc1. now apply W3. }
    assert (Hwf : wf_vec h2 (mk_vec (Some (length h)) 0 (len v) c)).
    { split; [cbn; lia|]. split; [cbn; lia|]. split; [cbn; intros b [= <-]; lia|].
      cbn. intros _. destruct He2 as [_ He2]. destruct (He2 _ _ Hb1) as (block' & Hb2 & Hz2).
      exists (length h), block'. split; [reflexivity|]. split; [assumption|lia]. }
    eexists _, _. split; [reflexivity|]. split; [eapply hext_trans; eauto|]. split; [exact Hwf|].
    cbn [blk off len cap]. split; [reflexivity|]. split; [reflexivity|]. split; [reflexivity|].
    split; [exact Hc'|]. split; [lia|]. split.
    + rewrite <- Hsame. apply znth_ext_len; rewrite (view_len h2 _ Hwf); cbn [len]; [lia|].
      intros i Hi. rewrite (view_nth h2 _ i (length h) Hwf); [|cbn; lia|reflexivity]. cbn [off].
      rewrite Hc2, Nat.eqb_refl. replace (true && (0 <=? 0 + i) && (0 + i <? 0 + zlen (view h1 v))) with true by lia.
      f_equal. lia.
    + intros b k Hb. rewrite Hc2. replace (Nat.eqb b (length h)) with false by (symmetry; apply Nat.eqb_neq; lia).
      now apply Hc1.
  - cbn [bind].
    assert (Hwf : wf_vec h1 (mk_vec (Some (length h)) 0 (len v) c)).
    { split; [cbn; lia|]. split; [cbn; lia|]. split; [cbn; intros b [= <-]; lia|].
      cbn. intros _. exists (length h), block. split; [reflexivity|]. split; [assumption|lia]. }
    eexists _, _. split; [reflexivity|]. split; [exact He1|]. split; [exact Hwf|].
    cbn [blk off len cap]. split; [reflexivity|]. split; [reflexivity|]. split; [reflexivity|].
    split; [exact Hc'|]. split; [lia|]. split; [|exact Hc1].
    rewrite (zlen_0_nil (view h v)) by (rewrite view_len by assumption; lia).
    apply zlen_0_nil. rewrite view_len by assumption. cbn. lia.
Qed.

Lemma view_extend h h' v d : wf_vec h v -> len v + zlen d <= cap v -> hext h h' ->
  (forall b k, blk v = Some b -> off v + len v <= k < off v + len v + zlen d -> cell h' b k = znth d (k - (off v + len v))) ->
  only_at h h' (blk v) (off v + len v) (off v + len v + zlen d) ->
  wf_vec h' (mk_vec (blk v) (off v) (len v + zlen d) (cap v)) /\
  view h' (mk_vec (blk v) (off v) (len v + zlen d) (cap v)) = view h v ++ d.
Proof using zero esz.
  intros W Hcap He Hin Hout. pose proof (zlen_nonneg d).
  pose proof (wf_hext _ _ _ He W) as W'. pose proof W as (W1 & W2 & W3 & W4).
  assert (Hwf : wf_vec h' (mk_vec (blk v) (off v) (len v + zlen d) (cap v))).
  { destruct W' as (V1 & V2 & V3 & V4). split; [cbn; lia|]. split; [assumption|]. split; assumption. }
  split; [exact Hwf|]. apply znth_ext_len; rewrite (view_len _ _ Hwf); cbn [len].
  - rewrite zlen_app, view_len by assumption. lia.
  - intros i Hi. destruct (wf_blk _ _ Hwf ltac:(cbn; lia)) as [b Hb]. cbn in Hb.
    rewrite (view_nth h' _ i b Hwf ltac:(cbn; lia) Hb). cbn [off]. rewrite znth_app by lia. rewrite view_len by assumption.
    destruct (i <? len v) eqn:E.
    + rewrite (view_nth h v i b W ltac:(lia) Hb). apply Hout; [now apply W3|]. intros [_ Hk]. lia.
    + rewrite Hin by (auto; lia). f_equal. lia.
Qed.

Lemma push_ok h v x : wf_vec h v ->
  exists h' v', vec_push zero h v x = Ok (h', v') /\ hext h h' /\ wf_vec h' v' /\
    view h' v' = view h v ++ [x] /\ len v' = len v + 1 /\
    cap v' = pushed_cap (view h v) (cap v) /\
    (len v = cap v -> blk v' = Some (length h) /\ fresh_cells h h') /\
    (len v <> cap v -> blk v' = blk v /\ off v' = off v /\
       only_at h h' (blk v) (off v + len v) (off v + len v + 1)).
Proof using zero esz.
  intros W. pose proof W as (W1 & W2 & W3 & W4). unfold vec_push, pushed_cap.
  rewrite (view_len h v W). destruct (Z.eqb_spec (len v) (cap v)) as [E|E].
  - destruct (grow_ok h v 0 W ltac:(auto)) as (h1 & v1 & -> & He & Wv & Hb & Ho & Hl & Hc & (Hp & Hlt) & Hview & Hfr).
    cbn [bind]. specialize (Hlt eq_refl E).
    destruct (store_vec h1 v1 (len v1) [x] Wv ltac:(destruct Wv; lia) ltac:(rewrite zlen_cons, zlen_nil; lia))
      as (h2 & -> & He2 & HL2 & Hin & Hout). cbn [bind].
    destruct (view_extend h1 h2 v1 [x] Wv ltac:(rewrite zlen_cons, zlen_nil; lia) He2 Hin Hout) as [Wf Hv].
    replace (zlen [x]) with 1 in * by reflexivity.
    eexists _, _. split; [reflexivity|]. split; [eapply hext_trans; eauto|]. split; [exact Wf|].
    split; [now rewrite Hv, Hview|]. cbn [len cap blk off]. split; [lia|]. split; [rewrite Hc; reflexivity|].
    split; [|congruence]. intros _. split; [exact Hb|]. intros b k Hbk. rewrite Hout; [now apply Hfr| |].
    + destruct He as [HL _]. lia.
    + rewrite Hb. intros [Hx _]. injection Hx. lia.
  - cbn [bind].
    destruct (store_vec h v (len v) [x] W ltac:(lia) ltac:(rewrite zlen_cons, zlen_nil; lia))
      as (h2 & -> & He2 & HL2 & Hin & Hout). cbn [bind].
    destruct (view_extend h h2 v [x] W ltac:(rewrite zlen_cons, zlen_nil; lia) He2 Hin Hout) as [Wf Hv].
    replace (zlen [x]) with 1 in * by reflexivity.
    eexists _, _. split; [reflexivity|]. split; [exact He2|]. split; [exact Wf|]. split; [exact Hv|].
    cbn [len cap blk off]. split; [lia|]. split; [reflexivity|]. split; [congruence|]. intros _. auto.
Qed.

Lemma i32_id z : -2147483648 <= z < 2147483648 -> i32 z = z.
Proof using zero esz. intros H. unfold i32. rewrite Z.mod_small; lia. Qed.

Lemma append_ok h v w : wf_vec h v -> wf_vec h w -> len v + len w < 2147483647 ->
  exists h' v', vec_append zero h v w = Ok (h', v') /\ hext h h' /\ wf_vec h' v' /\
    view h' v' = view h v ++ view h w /\ len v' = len v + len w /\
    (cap v < len v + len w -> blk v' = Some (length h) /\ fresh_cells h h') /\
    (len v + len w <= cap v -> blk v' = blk v /\ off v' = off v /\
       only_at h h' (blk v) (off v + len v) (off v + len v + len w)).
Proof using zero esz.
  intros W Ww Hsz. pose proof W as (W1 & W2 & W3 & W4). pose proof Ww as (Y1 & Y2 & Y3 & Y4).
  unfold vec_append. destruct (cap v <? len v + len w) eqn:E.
  - rewrite i32_id by lia.
    destruct (grow_ok h v (len v + len w + 1) W ltac:(lia)) as (h1 & v1 & -> & He & Wv & Hb & Ho & Hl & Hc & _ & Hview & Hfr).
    cbn [bind]. pose proof (wf_hext _ _ _ He Ww) as Ww1. rewrite (load_view h1 w Ww1). cbn [bind].
    assert (Hsw : view h1 w = view h w).
    { apply view_same; [assumption|assumption|]. intros b k Hbw Hk. apply Hfr. now apply Y3. }
    replace (len v + len w + 1 =? 0) with false in Hc by lia.
    assert (Hz : zlen (view h1 w) = len w) by now apply view_len.
    destruct (store_vec h1 v1 (len v1) (view h1 w) Wv ltac:(destruct Wv; lia) ltac:(lia))
      as (h2 & -> & He2 & HL2 & Hin & Hout). cbn [bind].
    destruct (view_extend h1 h2 v1 (view h1 w) Wv ltac:(lia) He2 Hin Hout) as [Wf Hv].
    rewrite Hz in *.
    eexists _, _. split; [reflexivity|]. split; [eapply hext_trans; eauto|]. split; [exact Wf|].
    split; [now rewrite Hv, Hview, Hsw|]. cbn [len cap blk off]. split; [lia|]. split; [|lia].
    intros _. split; [exact Hb|]. intros b k Hbk. rewrite Hout; [now apply Hfr| |].
    + destruct He as [HL _]. lia.
    + rewrite Hb. intros [Hx _]. injection Hx. lia.
  - cbn [bind]. rewrite (load_view h w Ww). cbn [bind].
    assert (Hz : zlen (view h w) = len w) by now apply view_len.
    destruct (store_vec h v (len v) (view h w) W ltac:(lia) ltac:(lia)) as (h2 & -> & He2 & HL2 & Hin & Hout). cbn [bind].
    destruct (view_extend h h2 v (view h w) W ltac:(lia) He2 Hin Hout) as [Wf Hv].
    rewrite Hz in *.
    eexists _, _. split; [reflexivity|]. split; [exact He2|]. split; [exact Wf|]. split; [exact Hv|].
    cbn [len cap blk off]. split; [lia|]. split; [lia|]. intros _. auto.
Qed.

Lemma cap_ok h n : 0 <= n ->
  exists h' v, vec_cap zero h n = Ok (h', v) /\ hext h h' /\ wf_vec h' v /\ len v = 0 /\ cap v = n /\ off v = 0 /\
    (blk v = None \/ blk v = Some (length h)) /\ (0 < n -> blk v = Some (length h)) /\ fresh_cells h h'.
Proof using zero esz.
  intros Hn. unfold vec_cap. replace (n <? 0) with false by lia. destruct (0 <? n) eqn:E.
  - destruct (array_new_ok h n Hn) as (h1 & -> & He & HL & (block & Hb & Hz) & Hc). cbn [bind].
    eexists _, _. split; [reflexivity|]. split; [exact He|]. split.
    + split; [cbn; lia|]. split; [cbn; lia|]. split; [cbn; intros b [= <-]; lia|].
      cbn. intros _. exists (length h), block. split; [reflexivity|]. split; [assumption|lia].
    + cbn. split; [reflexivity|]. split; [reflexivity|]. split; [reflexivity|]. split; [auto|]. split; auto.
  - eexists _, _. split; [reflexivity|]. split; [apply hext_refl|]. split.
    + split; [cbn; lia|]. split; [cbn; lia|]. split; [discriminate|]. cbn. lia.
    + cbn. split; [reflexivity|]. split; [lia|]. split; [reflexivity|]. split; [auto|]. split; [lia|]. intros b k _. reflexivity.
Qed.

Lemma new_ok_spec h n x : 0 <= n -> n = 0 \/ esz <= 8 ->
  exists h' v, vec_new zero esz h n x = Ok (h', v) /\ hext h h' /\ wf_vec h' v /\ view h' v = repeat x (Z.to_nat n) /\
    blk v = Some (length h) /\ fresh_cells h h'.
Proof using zero esz.
  intros Hn He8. unfold vec_new. replace (n <? 0) with false by lia.
  set (c := if n =? 0 then 8 else n). assert (Hc : 0 < c /\ n <= c) by (subst c; destruct (Z.eqb_spec n 0); lia).
  destruct (array_new_ok h c ltac:(lia)) as (h1 & -> & He & HL & (block & Hb & Hz) & Hcell). cbn [bind].
  assert (Hwf1 : wf_vec h1 (mk_vec (Some (length h)) 0 n c)).
  { split; [cbn; lia|]. split; [cbn; lia|]. split; [cbn; intros b [= <-]; lia|].
    cbn. intros _. exists (length h), block. split; [reflexivity|]. split; [assumption|lia]. }
  destruct (0 <? n) eqn:E.
  - replace (8 <? esz) with false by lia.
    assert (Hzr : zlen (repeat x (Z.to_nat n)) = n) by (rewrite zlen_repeat; lia).
    destruct (store_ok h1 (length h) block 0 (repeat x (Z.to_nat n)) Hb ltac:(lia) ltac:(lia)) as (h2 & -> & He2 & HL2 & Hc2).
    cbn [bind]. pose proof (wf_hext _ _ _ He2 Hwf1) as Hwf2.
    eexists _, _. split; [reflexivity|]. split; [eapply hext_trans; eauto|]. split; [exact Hwf2|]. split.
    + apply znth_ext_len; rewrite (view_len _ _ Hwf2); cbn [len]; [lia|]. intros i Hi.
      rewrite (view_nth _ _ i (length h) Hwf2 ltac:(cbn; lia) eq_refl). cbn [off]. rewrite Hc2, Nat.eqb_refl.
      replace (true && (0 <=? 0 + i) && (0 + i <? 0 + zlen (repeat x (Z.to_nat n)))) with true by lia. f_equal. lia.
    + split; [reflexivity|]. intros b k Hbk. rewrite Hc2.
      replace (Nat.eqb b (length h)) with false by (symmetry; apply Nat.eqb_neq; lia). now apply Hcell.
  - cbn [bind]. eexists _, _. split; [reflexivity|]. split; [exact He|]. split; [exact Hwf1|]. split.
    + replace (Z.to_nat n) with O by lia. apply zlen_0_nil. rewrite (view_len _ _ Hwf1). cbn. lia.
    + split; [reflexivity|]. exact Hcell.
Qed.

Lemma get_ok h v i : wf_vec h v ->
  vec_get h v i = match at_ (view h v) i with Ok x => Ok x | _ => Throw end.
Proof using zero esz.
  intros W. pose proof W as (W1 & _). unfold vec_get. pose proof (view_len h v W) as Hz.
  destruct ((0 <=? i) && (i <? len v)) eqn:E.
  - destruct (znth_Some (view h v) i ltac:(lia)) as [x Hx]. rewrite (znth_at _ _ _ Hx).
    destruct (load_vec h v i 1 W ltac:(lia) ltac:(lia) ltac:(lia)) as (d & -> & Hzd & Hd). cbn [bind].
    destruct (wf_blk h v W ltac:(lia)) as [b Hb]. apply znth_at.
    rewrite (Hd 0 ltac:(lia) b Hb), Z.add_0_r, <- Hx. symmetry. apply view_nth; auto. lia.
  - rewrite at_out by lia. reflexivity.
Qed.

Lemma set_ok h v i x : wf_vec h v -> 0 <= i < len v ->
  exists h', vec_set h v i x = Ok h' /\ hext h h' /\ length h' = length h /\
    only_at h h' (blk v) (off v + i) (off v + i + 1) /\
    (forall b, blk v = Some b -> cell h' b (off v + i) = Some x) /\
    view h' v = put (view h v) i x.
Proof using zero esz.
  intros W Hi. pose proof W as (W1 & W2 & W3 & W4). unfold vec_set.
  replace ((0 <=? i) && (i <? len v)) with true by lia.
  destruct (store_vec h v i [x] W ltac:(lia) ltac:(rewrite zlen_cons, zlen_nil; lia)) as (h' & -> & He & HL & Hin & Hout).
  replace (zlen [x]) with 1 in * by reflexivity.
  exists h'. split; [reflexivity|]. split; [exact He|]. split; [exact HL|]. split; [exact Hout|].
  assert (Hcx : forall b, blk v = Some b -> cell h' b (off v + i) = Some x).
  { intros b Hb. rewrite Hin by (auto; lia). now rewrite Z.sub_diag. }
  split; [exact Hcx|].
  pose proof (wf_hext _ _ _ He W) as W'. unfold put.
  pose proof (view_len h v W) as Hz.
  apply znth_ext_len; rewrite (view_len _ _ W'); [rewrite zlen_list_set; lia|].
  intros k Hk. destruct (wf_blk h v W ltac:(lia)) as [b Hb].
  rewrite (view_nth _ _ k b W' Hk Hb), znth_list_set_z by lia.
  destruct (Z.eqb_spec k i) as [->|Hne]; [now apply Hcx|].
  rewrite (view_nth _ _ k b W Hk Hb). apply Hout; [now apply W3|]. lia.
Qed.

Lemma set_out (h : heap) v i x : i < 0 \/ len v <= i -> vec_set h v i x = Throw.
Proof using zero esz. intros H. unfold vec_set. now replace ((0 <=? i) && (i <? len v)) with false by lia. Qed.

Lemma slice_ok h v s e : wf_vec h v ->
  match vec_slice v s e with
  | Ok w => exists e', e' = (if e =? -1 then len v else e) /\ 0 <= s <= e' /\ e' <= len v /\
      w = mk_vec (blk v) (off v + s) (e' - s) (e' - s) /\ wf_vec h w /\
      view h w = sub_list (view h v) s e'
  | Panic => let e' := (if e =? -1 then len v else e) in ~ (0 <= s <= e' /\ e' <= len v)
  | _ => False
  end.
Proof using zero esz.
  intros W. pose proof W as (W1 & W2 & W3 & W4). unfold vec_slice.
  set (e' := if e =? -1 then len v else e).
  destruct ((len v <? s) || (len v <? e') || (s <? 0) || (e' <? 0)) eqn:E1; [cbn zeta; lia|].
  destruct (e' <? s) eqn:E2; [cbn zeta; lia|].
  exists e'. split; [reflexivity|]. split; [lia|]. split; [lia|]. split; [reflexivity|].
  assert (Hwf : wf_vec h (mk_vec (blk v) (off v + s) (e' - s) (e' - s))).
  { split; [cbn; lia|]. split; [cbn; lia|]. split; [assumption|]. cbn. intros Hp.
    destruct (W4 ltac:(lia)) as (b & block & Hb & Hn & Hl). exists b, block. split; [assumption|]. split; [assumption|lia]. }
  split; [exact Hwf|].
  apply znth_ext_len; rewrite (view_len _ _ Hwf); cbn [len].
  - pose proof (view_len h v W). rewrite zlen_sub_list by lia. lia.
  - intros i Hi. destruct (wf_blk h v W ltac:(lia)) as [b Hb].
    rewrite (view_nth _ _ i b Hwf ltac:(cbn; lia) Hb). cbn [off]. rewrite znth_sub_list by lia.
    replace (i <? e' - s) with true by lia. rewrite (view_nth _ _ (s + i) b W ltac:(lia) Hb). f_equal. lia.
Qed.

Lemma copy_ok h v w : wf_vec h v -> wf_vec h w ->
  exists h' n, vec_copy h v w = Ok (h', Z.of_nat n) /\ n = Nat.min (length (view h v)) (length (view h w)) /\
    hext h h' /\ length h' = length h /\
    view h' v = firstn n (view h w) ++ skipn n (view h v) /\
    only_at h h' (blk v) (off v) (off v + Z.of_nat n).
Proof using zero esz.
  intros W Ww. pose proof W as (W1 & W2 & W3 & W4). pose proof Ww as (Y1 & Y2 & Y3 & Y4).
  pose proof (view_len h v W) as Hz. pose proof (view_len h w Ww) as Hzw. unfold vec_copy.
  set (m := if len w <? len v then len w else len v).
  set (n := Nat.min (length (view h v)) (length (view h w))).
  assert (Hmn : m = Z.of_nat n) by (subst m n; unfold zlen in Hz, Hzw; destruct (Z.ltb_spec (len w) (len v)); lia).
  assert (Hm : 0 <= m /\ m <= len w /\ m <= len v) by (subst m; destruct (Z.ltb_spec (len w) (len v)); lia).
  assert (Hn : n = Nat.min (length (view h v)) (length (view h w))) by reflexivity. clearbody m n.
  destruct (0 <? m) eqn:E.
  - destruct (load_vec h w 0 m Ww ltac:(lia) ltac:(lia) ltac:(lia)) as (d & Hd & Hzd & Hcd).
    rewrite Z.add_0_r in Hd. rewrite Hd. cbn [bind].
    destruct (store_vec h v 0 d W ltac:(lia) ltac:(lia)) as (h' & Hs & He & HL & Hin & Hout).
    rewrite Z.add_0_r in Hs, Hin, Hout. rewrite Hs. cbn [bind]. exists h', n.
    split; [now rewrite Hmn|]. split; [reflexivity|]. split; [exact He|]. split; [exact HL|]. split.
    + pose proof (wf_hext _ _ _ He W) as W'.
      apply znth_ext_len; rewrite (view_len _ _ W').
      * rewrite zlen_app, zlen_firstn, zlen_skipn. lia.
      * intros i Hi. destruct (wf_blk h v W ltac:(lia)) as [b Hb]. destruct (wf_blk h w Ww ltac:(lia)) as [bw Hbw].
        rewrite (view_nth _ _ i b W' Hi Hb). rewrite znth_app, zlen_firstn by lia.
        destruct (i <? Z.min (Z.of_nat n) (zlen (view h w))) eqn:E2.
        -- rewrite Hin by (auto; lia). replace (off v + i - off v) with (i + off v - off v) by lia. rewrite (Hcd (i + off v - off v) ltac:(lia) bw Hbw), Z.add_0_r.
           rewrite znth_firstn by lia. replace (i <? Z.of_nat n) with true by lia.
           rewrite (view_nth h w i bw Ww ltac:(lia) Hbw). f_equal. lia.
        -- rewrite Hout; [|now apply W3|lia]. rewrite znth_skipn by lia.
           match goal with |- _ = znth _ ?e => replace e with i by lia end.
           rewrite (view_nth h v i b W ltac:(lia) Hb). reflexivity.
    + now rewrite Hzd, Hmn in Hout.
  - exists h, n. split; [now rewrite Hmn|]. split; [reflexivity|]. split; [apply hext_refl|]. split; [reflexivity|]. split.
    + replace n with O by lia. reflexivity.
    + intros b k _ _. reflexivity.
Qed.

Lemma concat_ok h v w : wf_vec h v -> wf_vec h w ->
  exists h' u, vec_concat zero h v w = Ok (h', u) /\ hext h h' /\ wf_vec h' u /\
    view h' u = view h v ++ view h w /\ (blk u = None \/ blk u = Some (length h)) /\ fresh_cells h h'.
Proof using zero esz.
  intros W Ww. pose proof W as (W1 & W2 & W3 & W4). pose proof Ww as (Y1 & Y2 & Y3 & Y4).
  unfold vec_concat.
  destruct (cap_ok h (len v + len w) ltac:(lia)) as (h1 & u & -> & He & Wu & Hlu & Hcu & Hou & Hbu & Hbp & Hfr). cbn [bind].
  pose proof (wf_hext _ _ _ He W) as Wv1. rewrite (load_view h1 v Wv1). cbn [bind].
  assert (Hsv : view h1 v = view h v) by (apply view_same; [assumption|assumption|]; intros b k Hb Hk; apply Hfr; now apply W3).
  assert (Hzv : zlen (view h1 v) = len v) by now apply view_len.
  destruct (store_vec h1 u 0 (view h1 v) Wu ltac:(lia) ltac:(lia)) as (h2 & Hs2 & He2 & HL2 & Hin2 & Hout2).
  rewrite Hou in *. cbn [Z.add] in Hs2. rewrite Hs2. cbn [bind].
  assert (Hvis : forall b, blk u = Some b -> b = length h) by (intros b Hb; destruct Hbu; congruence).
  assert (Hfr2 : fresh_cells h h2).
  { intros b k Hb. rewrite Hout2; [now apply Hfr|destruct He; lia|]. intros [Hx _]. apply Hvis in Hx. lia. }
  pose proof (wf_hext _ _ _ (hext_trans _ _ _ He He2) Ww) as Ww2. rewrite (load_view h2 w Ww2). cbn [bind].
  assert (Hsw : view h2 w = view h w).
  { apply view_same; [eapply hext_trans; eauto|assumption|]. intros b k Hb Hk. apply Hfr2. now apply Y3. }
  assert (Hzw : zlen (view h2 w) = len w) by now apply view_len.
  pose proof (wf_hext _ _ _ He2 Wu) as Wu2.
  destruct (store_vec h2 u (len v) (view h2 w) Wu2 ltac:(lia) ltac:(lia)) as (h3 & Hs3 & He3 & HL3 & Hin3 & Hout3).
  rewrite Hou in *. cbn [Z.add] in Hs3. replace (0 + len v) with (len v) in Hs3 by lia. rewrite Hs3. cbn [bind].
  assert (Hwf : wf_vec h3 (mk_vec (blk u) 0 (len v + len w) (cap u))).
  { pose proof (wf_hext _ _ _ He3 Wu2) as (U1 & U2 & U3 & U4). split; [cbn; lia|]. split; [cbn; lia|].
    split; [assumption|]. cbn. intros Hp. destruct (U4 Hp) as (b & block & Hb & Hn & Hl). exists b, block.
    split; [assumption|]. split; [assumption|lia]. }
  eexists _, _. split; [reflexivity|]. split; [eapply hext_trans; [exact He|]; eapply hext_trans; eauto|].
  split; [exact Hwf|]. split; [|split; [exact Hbu|]].
  - rewrite <- Hsv, <- Hsw. apply znth_ext_len; rewrite (view_len _ _ Hwf); cbn [len].
    + rewrite zlen_app. lia.
    + intros i Hi. destruct (wf_blk _ _ Hwf ltac:(cbn; lia)) as [b Hb]. cbn in Hb.
      rewrite (view_nth _ _ i b Hwf ltac:(cbn; lia) Hb). cbn [off]. rewrite znth_app by lia.
      pose proof (Hvis b Hb) as ->.
      destruct (i <? zlen (view h1 v)) eqn:E.
      * rewrite Hout3; [|destruct He2, He; destruct Wu as (_ & _ & U3 & _); specialize (U3 _ Hb); lia|lia].
        rewrite Hin2 by (auto; lia). f_equal. lia.
      * rewrite Hin3 by (auto; lia). f_equal. lia.
  - intros b k Hb. rewrite Hout3; [now apply Hfr2|destruct He, He2; lia|]. intros [Hx _]. apply Hvis in Hx. lia.
Qed.

(** ** Whole states *)

Definition wf (s : state A) : Prop := Forall (wf_vec (mem s)) (vars s).

Lemma wf_init : wf (init (A := A)).
Proof using zero esz. constructor. Qed.

Lemma wf_var s v a : wf s -> nth_error (vars s) v = Some a -> wf_vec (mem s) a.
Proof using zero esz. intros H Hv. apply nth_error_In in Hv. unfold wf in H. rewrite Forall_forall in H. now apply H. Qed.

Lemma wf_add s h a : wf s -> hext (mem s) h -> wf_vec h a -> wf (add_var (h, a) s).
Proof using zero esz.
  intros W He Wa. unfold wf, add_var; cbn. apply Forall_app. split; [|auto].
  eapply Forall_impl; [|exact W]. intros b. now apply wf_hext.
Qed.

Lemma Forall_list_set {B} (P : B -> Prop) l n x : Forall P l -> P x -> Forall P (list_set l n x).
Proof using zero esz.
  intros H Hx. revert n. induction H as [|y l Hy H IH]; intros [|n]; cbn; constructor; auto.
Qed.

Lemma wf_set s v h a : wf s -> hext (mem s) h -> wf_vec h a -> wf (set_var v (h, a) s).
Proof using zero esz.
  intros W He Wa. unfold wf, set_var; cbn. apply Forall_list_set; [|assumption].
  eapply Forall_impl; [|exact W]. intros b. now apply wf_hext.
Qed.

Lemma wf_mem s h : wf s -> hext (mem s) h -> wf (mk_state h (vars s)).
Proof using zero esz. intros W He. eapply Forall_impl; [|exact W]. intros b. now apply wf_hext. Qed.

(** ** Value semantics for programs that neither slice nor assign *)

(** Distinct variables have distinct blocks. *)
Definition apart (s : state A) : Prop :=
  forall i j a b x, nth_error (vars s) i = Some a -> nth_error (vars s) j = Some b ->
    blk a = Some x -> blk b = Some x -> i = j.

Lemma apart_init : apart (init (A := A)).
Proof using zero esz. intros i j a b x H. destruct i; discriminate. Qed.

Lemma nth_error_snoc {B} (l : list B) x i y : nth_error (l ++ [x]) i = Some y ->
  nth_error l i = Some y \/ (i = length l /\ y = x).
Proof using zero esz.
  destruct (Nat.lt_ge_cases i (length l)) as [H|H].
  - rewrite nth_error_app1 by assumption. auto.
  - rewrite nth_error_app2 by assumption. destruct (i - length l)%nat as [|k] eqn:E; cbn.
    + intros [= ->]. right. split; [lia|reflexivity].
    + destruct k; discriminate.
Qed.

Lemma apart_add s h a : wf s -> apart s -> (blk a = None \/ blk a = Some (length (mem s))) -> apart (add_var (h, a) s).
Proof using zero esz.
  intros W Hap Ha i j x y b Hi Hj Hx Hy. cbn in Hi, Hj.
  assert (Hold : forall k c, nth_error (vars s) k = Some c -> blk c <> Some (length (mem s))).
  { intros k c Hk Hc. destruct (wf_var _ _ _ W Hk) as (_ & _ & W3 & _). specialize (W3 _ Hc). lia. }
  apply nth_error_snoc in Hi as [Hi|[-> ->]]; apply nth_error_snoc in Hj as [Hj|[-> ->]].
  - eapply Hap; eauto.
  - specialize (Hold _ _ Hi). destruct Ha; congruence.
  - specialize (Hold _ _ Hj). destruct Ha; congruence.
  - reflexivity.
Qed.

Lemma nth_error_set {B} (l : list B) n x i y : nth_error (list_set l n x) i = Some y ->
  (i = n /\ y = x) \/ (i <> n /\ nth_error l i = Some y).
Proof using zero esz.
  rewrite nth_error_list_set. destruct (Nat.eqb_spec n i) as [->|]; [|auto].
  destruct (Nat.ltb i (length l)); [|discriminate]. intros [= ->]. auto.
Qed.

Lemma apart_set s h v a a' : wf s -> apart s -> nth_error (vars s) v = Some a ->
  (blk a' = blk a \/ blk a' = Some (length (mem s))) -> apart (set_var v (h, a') s).
Proof using zero esz.
  intros W Hap Hv Ha i j x y b Hi Hj Hx Hy. cbn in Hi, Hj.
  assert (Hold : forall k c, nth_error (vars s) k = Some c -> blk c <> Some (length (mem s))).
  { intros k c Hk Hc. destruct (wf_var _ _ _ W Hk) as (_ & _ & W3 & _). specialize (W3 _ Hc). lia. }
  apply nth_error_set in Hi as [[-> ->]|[Hni Hi]]; apply nth_error_set in Hj as [[-> ->]|[Hnj Hj]]; auto.
  - destruct Ha as [Ha|Ha]; [|specialize (Hold _ _ Hj); congruence]. rewrite Ha in Hx. eapply Hap; eauto.
  - destruct Ha as [Ha|Ha]; [|specialize (Hold _ _ Hi); congruence]. rewrite Ha in Hy. eapply Hap; eauto.
  - eapply Hap; eauto.
Qed.

(** Contents after an update of one variable. *)
Lemma contents_add s h a : wf s -> hext (mem s) h -> fresh_cells (mem s) h ->
  contents (add_var (h, a) s) = contents s ++ [view h a].
Proof using zero esz.
  intros W He Hf. unfold contents, add_var; cbn. rewrite map_app. cbn. f_equal.
  apply map_ext_in. intros b Hb. unfold wf in W. rewrite Forall_forall in W. pose proof (W _ Hb) as Wb.
  apply view_same; [assumption|assumption|]. intros x k Hx _. apply Hf. destruct Wb as (_ & _ & W3 & _). now apply W3.
Qed.

Lemma contents_set s h v a a' lo hi : wf s -> apart s -> nth_error (vars s) v = Some a -> hext (mem s) h ->
  only_at (mem s) h (blk a) lo hi ->
  map (view h) (list_set (vars s) v a') = list_set (contents s) v (view h a').
Proof using zero esz.
  intros W Hap Hv He Ho. unfold contents. apply znth_ext_len.
  - now rewrite zlen_map, !zlen_list_set, zlen_map.
  - intros i Hi. unfold znth. replace (i <? 0) with false by lia. rewrite nth_error_map, !nth_error_list_set, nth_error_map.
    rewrite map_length. destruct (Nat.eqb_spec v (Z.to_nat i)) as [E|E].
    + destruct (Nat.ltb v (length (vars s))); reflexivity.
    + destruct (nth_error (vars s) (Z.to_nat i)) as [b|] eqn:Eb; [|reflexivity]. cbn. f_equal.
      pose proof (wf_var _ _ _ W Eb) as Wb. apply view_same; [assumption|assumption|]. intros x k Hx _. apply Ho.
      * destruct Wb as (_ & _ & W3 & _). now apply W3.
      * intros [Hax _]. pose proof (Hap _ _ _ _ _ Hv Eb Hax Hx). congruence.
Qed.

Lemma fresh_only h h' b : fresh_cells h h' -> only_at h h' b 0 0.
Proof using zero esz. intros H b' k Hb _. now apply H. Qed.

Lemma contents_nth (s : state A) v a : nth_error (vars s) v = Some a -> nth_error (contents s) v = Some (view (mem s) a).
Proof using zero esz. intros H. unfold contents. rewrite nth_error_map, H. reflexivity. Qed.

Lemma contents_nth_inv (s : state A) v l : nth_error (contents s) v = Some l ->
  exists a, nth_error (vars s) v = Some a /\ l = view (mem s) a.
Proof using zero esz.
  unfold contents. rewrite nth_error_map. destruct (nth_error (vars s) v) as [a|]; [|discriminate].
  intros [= <-]. eauto.
Qed.

Lemma list_set_same {B} (l : list B) n x : nth_error l n = Some x -> list_set l n x = l.
Proof using zero esz. revert n. induction l as [|y l IH]; intros [|n]; cbn; intros H; try discriminate; [congruence|]. f_equal. auto. Qed.

Definition bound : Z := 1073741823.

Theorem step_values s o c x : wf s -> apart s -> new_ok esz o ->
  spec_step (contents s) o = Some (c, x) -> Forall (fun l => zlen l <= bound) (contents s) ->
  exists s', step zero esz s o = Ok (s', x) /\ wf s' /\ apart s' /\ contents s' = c.
Proof using zero esz.
  intros W Hap Hnew Hspec Hsz.
  assert (Hb : forall v a, nth_error (vars s) v = Some a -> 0 <= len a <= bound).
  { intros v a Hv. pose proof (wf_var _ _ _ W Hv) as Wa. rewrite Forall_forall in Hsz.
    pose proof (Hsz _ (nth_error_In _ _ (contents_nth _ _ _ Hv))) as Hl. cbn beta in Hl.
    rewrite view_len in Hl by assumption. destruct Wa; lia. }
  assert (Hvar : forall v a, nth_error (vars s) v = Some a -> var s v = Ok a) by (intros v a Hv; unfold var; now rewrite Hv).
  destruct o as [n y|n|v y|v w|v i|v i y|v b e|v w|v w|v|v|v]; cbn [spec_step step] in *; unfold get_list in Hspec.
  - (* new *) destruct (n <? 0) eqn:E.
    + injection Hspec as <- <-. exists s. unfold vec_new. rewrite E. auto.
    + injection Hspec as <- <-. cbn in Hnew.
      destruct (new_ok_spec (mem s) n y ltac:(lia) ltac:(lia)) as (h' & a & -> & He & Wa & Hv & Hbl & Hf). cbn [bind guard].
      eexists. split; [reflexivity|]. split; [now apply wf_add|]. split; [apply apart_add; auto|].
      rewrite contents_add by assumption. now rewrite Hv.
  - (* cap *) destruct (n <? 0) eqn:E.
    + injection Hspec as <- <-. exists s. unfold vec_cap. rewrite E. auto.
    + injection Hspec as <- <-.
      destruct (cap_ok (mem s) n ltac:(lia)) as (h' & a & -> & He & Wa & Hl & _ & _ & Hbl & _ & Hf). cbn [bind guard].
      eexists. split; [reflexivity|]. split; [now apply wf_add|]. split; [apply apart_add; auto|].
      rewrite contents_add by assumption. f_equal. f_equal. apply zlen_0_nil. now rewrite view_len.
  - (* push *) destruct (nth_error (contents s) v) as [l|] eqn:El; [|discriminate]. injection Hspec as <- <-.
    apply contents_nth_inv in El as (a & Ha & ->). rewrite (Hvar _ _ Ha). cbn [bind].
    pose proof (wf_var _ _ _ W Ha) as Wa.
    destruct (push_ok (mem s) a y Wa) as (h' & a' & -> & He & Wa' & Hv & Hl & Hc & Hfull & Hroom). cbn [bind guard].
    eexists. split; [reflexivity|]. split; [now apply wf_set|].
    destruct (Z.eq_dec (len a) (cap a)) as [E|E].
    + destruct (Hfull E) as [Hbl Hf]. split; [eapply apart_set; eauto|].
      unfold contents, set_var; cbn [mem vars fst snd]. erewrite contents_set by (eauto using fresh_only). now rewrite Hv.
    + destruct (Hroom E) as (Hbl & _ & Ho). split; [eapply apart_set; eauto|].
      unfold contents, set_var; cbn [mem vars fst snd]. erewrite contents_set by eauto. now rewrite Hv.
  - (* append *) destruct (nth_error (contents s) v) as [l|] eqn:El; [|discriminate].
    destruct (nth_error (contents s) w) as [m|] eqn:Em; [|discriminate]. injection Hspec as <- <-.
    apply contents_nth_inv in El as (a & Ha & ->). apply contents_nth_inv in Em as (b & Hbb & ->).
    rewrite (Hvar _ _ Ha), (Hvar _ _ Hbb). cbn [bind].
    pose proof (Hb _ _ Ha). pose proof (Hb _ _ Hbb). unfold bound in *.
    destruct (append_ok (mem s) a b (wf_var _ _ _ W Ha) (wf_var _ _ _ W Hbb) ltac:(lia))
      as (h' & a' & -> & He & Wa' & Hv & Hl & Hfull & Hroom). cbn [bind guard].
    eexists. split; [reflexivity|]. split; [now apply wf_set|].
    destruct (Z_lt_dec (cap a) (len a + len b)) as [E|E].
    + destruct (Hfull E) as [Hbl Hf]. split; [eapply apart_set; eauto|].
      unfold contents, set_var; cbn [mem vars fst snd]. erewrite contents_set by (eauto using fresh_only). now rewrite Hv.
    + destruct (Hroom ltac:(lia)) as (Hbl & _ & Ho). split; [eapply apart_set; eauto|].
      unfold contents, set_var; cbn [mem vars fst snd]. erewrite contents_set by eauto. now rewrite Hv.
  - (* get *) destruct (nth_error (contents s) v) as [l|] eqn:El; [|discriminate].
    apply contents_nth_inv in El as (a & Ha & ->). rewrite (Hvar _ _ Ha). cbn [bind].
    rewrite get_ok by (eapply wf_var; eauto).
    destruct (at_ (view (mem s) a) i); injection Hspec as <- <-; exists s; auto.
  - (* set *) destruct (nth_error (contents s) v) as [l|] eqn:El; [|discriminate].
    apply contents_nth_inv in El as (a & Ha & ->). rewrite (Hvar _ _ Ha). cbn [bind].
    pose proof (wf_var _ _ _ W Ha) as Wa. unfold set_at in Hspec. rewrite (view_len _ _ Wa) in Hspec.
    destruct ((0 <=? i) && (i <? len a)) eqn:E.
    + injection Hspec as <- <-.
      destruct (set_ok (mem s) a i y Wa ltac:(lia)) as (h' & -> & He & _ & Ho & _ & Hv). cbn [bind guard].
      eexists. split; [reflexivity|]. split; [now apply wf_mem|]. split; [exact Hap|].
      unfold contents at 1. cbn [mem vars]. unfold put in Hv. rewrite <- Hv.
      erewrite <- (contents_set s h' v a a) by eauto. now rewrite list_set_same.
    + injection Hspec as <- <-. rewrite set_out by lia. exists s. auto.
  - discriminate.
  - (* concat *) destruct (nth_error (contents s) v) as [l|] eqn:El; [|discriminate].
    destruct (nth_error (contents s) w) as [m|] eqn:Em; [|discriminate]. injection Hspec as <- <-.
    apply contents_nth_inv in El as (a & Ha & ->). apply contents_nth_inv in Em as (b & Hbb & ->).
    rewrite (Hvar _ _ Ha), (Hvar _ _ Hbb). cbn [bind].
    destruct (concat_ok (mem s) a b (wf_var _ _ _ W Ha) (wf_var _ _ _ W Hbb)) as (h' & u & -> & He & Wu & Hv & Hbl & Hf).
    cbn [bind guard]. eexists. split; [reflexivity|]. split; [now apply wf_add|]. split; [apply apart_add; auto|].
    rewrite contents_add by assumption. now rewrite Hv.
  - (* copy *) destruct (nth_error (contents s) v) as [l|] eqn:El; [|discriminate].
    destruct (nth_error (contents s) w) as [m|] eqn:Em; [|discriminate]. injection Hspec as <- <-.
    apply contents_nth_inv in El as (a & Ha & ->). apply contents_nth_inv in Em as (b & Hbb & ->).
    rewrite (Hvar _ _ Ha), (Hvar _ _ Hbb). cbn [bind].
    destruct (copy_ok (mem s) a b (wf_var _ _ _ W Ha) (wf_var _ _ _ W Hbb)) as (h' & n & -> & -> & He & _ & Hv & Ho).
    cbn [bind guard fst snd]. eexists. split; [reflexivity|]. split; [now apply wf_mem|]. split; [exact Hap|].
    unfold contents at 1. cbn [mem vars]. rewrite <- Hv.
    erewrite <- (contents_set s h' v a a) by eauto. now rewrite list_set_same.
  - discriminate.
  - (* len *) destruct (nth_error (contents s) v) as [l|] eqn:El; [|discriminate]. injection Hspec as <- <-.
    apply contents_nth_inv in El as (a & Ha & ->). rewrite (Hvar _ _ Ha). cbn [bind].
    rewrite view_len by (eapply wf_var; eauto). exists s. auto.
  - discriminate.
Qed.

Theorem run_values l : forall s c xs, wf s -> apart s -> Forall (new_ok esz) l ->
  spec_run (contents s) l = Some (c, xs) -> sizes_within bound (contents s) l ->
  exists s', run zero esz s l = Ok (s', xs) /\ wf s' /\ apart s' /\ contents s' = c.
Proof using zero esz.
  induction l as [|o l IH]; intros s c xs W Hap Hn Hspec Hsz; cbn [spec_run run] in *.
  - injection Hspec as <- <-. exists s. auto.
  - destruct Hsz as [Hs1 Hs2]. inversion Hn as [|? ? Hn1 Hn2]; subst.
    destruct (spec_step (contents s) o) as [[c1 x]|] eqn:E; [|discriminate].
    destruct (spec_run c1 l) as [[c2 ys]|] eqn:E2; [|discriminate]. injection Hspec as <- <-.
    destruct (step_values s o c1 x W Hap Hn1 E Hs1) as (s1 & -> & W1 & Hap1 & <-). cbn [bind].
    destruct (IH s1 c2 ys W1 Hap1 Hn2 E2 Hs2) as (s2 & -> & W2 & Hap2 & Hc2). cbn [bind]. exists s2. auto.
Qed.

(** ** What one step can do to the storage, for any program *)

Lemma store_inv (h : heap) b o d h' : store h b o d = Ok h' -> zlen d <> 0 ->
  exists x block, b = Some x /\ nth_error h x = Some block /\ 0 <= o /\ o + zlen d <= zlen block.
Proof using zero esz.
  unfold store. intros H Hd. replace (zlen d =? 0) with false in H by lia.
  destruct b as [x|]; [|discriminate]. destruct (nth_error h x) as [block|] eqn:E; [|discriminate].
  destruct ((0 <=? o) && (o + zlen d <=? zlen block)) eqn:E2; [|discriminate]. exists x, block.
  split; [reflexivity|]. split; [exact E|]. lia.
Qed.

Definition updates (h h' : heap) (a a' : vec) : Prop :=
  hext h h' /\ wf_vec h' a' /\ (blk a' = blk a \/ blk a' = Some (length h)) /\
  exists lo hi, only_at h h' (blk a) lo hi.

Lemma grow_block h v custom h' v' : wf_vec h v -> grow zero h v custom = Ok (h', v') ->
  (custom = 0 \/ (0 < custom /\ len v <= custom)) /\
  exists block, nth_error h' (length h) = Some block /\ zlen block = cap v'.
Proof using zero esz.
  intros W H. pose proof W as (W1 & W2 & W3 & W4). unfold grow in H.
  set (c := if negb (custom =? 0) then custom else if 0 <? cap v then cap v * 2 else 8) in H.
  assert (Hcc : custom = 0 \/ c = custom).
  { subst c. destruct (Z.eqb_spec custom 0); auto. }
  assert (Hc0 : custom = 0 -> 0 < c).
  { intros ->. subst c. cbn. destruct (Z.ltb_spec 0 (cap v)); lia. }
  clearbody c. destruct (Z_lt_dec c 0) as [Hn|Hn].
  { unfold array_new in H. replace (c <? 0) with true in H by lia. discriminate. }
  destruct (array_new_ok h c ltac:(lia)) as (h1 & E1 & He1 & HL1 & (block & Hb1 & Hz1) & Hc1). rewrite E1 in H. cbn [bind] in H.
  destruct (0 <? len v) eqn:E.
  - pose proof (wf_hext _ _ _ He1 W) as Wv1. rewrite (load_view h1 v Wv1) in H. cbn [bind] in H.
    assert (Hz : zlen (view h1 v) = len v) by now apply view_len.
    destruct (store h1 (Some (length h)) 0 (view h1 v)) as [h3| | | | |] eqn:E3; try discriminate.
    cbn [bind] in H. injection H as <- <-.
    destruct (store_inv _ _ _ _ _ E3 ltac:(lia)) as (y & bl & [= <-] & Hbl & H0 & Hbf).
    rewrite Hb1 in Hbl. injection Hbl as <-.
    split; [destruct Hcc; [auto|right; lia]|].
    destruct (store_ok _ _ _ _ _ Hb1 H0 Hbf) as (h4 & E4 & [_ He4] & _). rewrite E3 in E4. injection E4 as <-.
    destruct (He4 _ _ Hb1) as (bl' & Hbl' & Hzz). exists bl'. cbn. split; [assumption|lia].
  - cbn [bind] in H. injection H as <- <-. split; [lia|]. exists block. auto.
Qed.

Lemma append_inv h v w h' v' : wf_vec h v -> wf_vec h w -> vec_append zero h v w = Ok (h', v') ->
  updates h h' v v'.
Proof using zero esz.
  intros W Ww H. pose proof W as (W1 & W2 & W3 & W4). pose proof Ww as (Y1 & Y2 & Y3 & Y4).
  unfold vec_append in H. destruct (cap v <? len v + len w) eqn:Hle.
  - set (custom := i32 (len v + len w + 1)) in H. clearbody custom.
    destruct (grow zero h v custom) as [[h1 v1]| | | | |] eqn:Hg; try discriminate. cbn [bind] in H.
    destruct (grow_block _ _ _ _ _ W Hg) as [Hcu (block & Hblock & Hzb)].
    destruct (grow_ok h v custom W Hcu) as (h1' & v1' & Hg' & He & Wv & Hb & Ho & Hl & Hc & _ & Hview & Hfr).
    rewrite Hg in Hg'. injection Hg' as <- <-.
    pose proof (wf_hext _ _ _ He Ww) as Ww1. rewrite (load_view h1 w Ww1) in H. cbn [bind] in H.
    assert (Hz : zlen (view h1 w) = len w) by now apply view_len.
    destruct (store h1 (blk v1) (off v1 + len v1) (view h1 w)) as [h2| | | | |] eqn:Es; try discriminate.
    cbn [bind] in H. injection H as <- <-.
    assert (Hfit : len v1 + len w <= cap v1).
    { destruct (Z.eq_dec (len w) 0); [destruct Wv; lia|].
      destruct (store_inv _ _ _ _ _ Es ltac:(lia)) as (b & block' & Hb1 & Hn & _ & Hfit).
      rewrite Hb in Hb1. injection Hb1 as <-. rewrite Hblock in Hn. injection Hn as <-. lia. }
    destruct (store_vec h1 v1 (len v1) (view h1 w) Wv ltac:(destruct Wv; lia) ltac:(lia)) as (h3 & Hs & He2 & HL2 & Hin & Hout).
    rewrite Hs in Es. injection Es as ->.
    destruct (view_extend h1 h2 v1 (view h1 w) Wv ltac:(lia) He2 Hin Hout) as [Wf _]. rewrite Hz in *.
    split; [eapply hext_trans; eauto|]. split; [exact Wf|]. split; [right; exact Hb|].
    exists 0, 0. intros b k Hbk _. rewrite Hout; [now apply Hfr| |].
    + destruct He as [HL _]. lia.
    + rewrite Hb. intros [Hx _]. injection Hx. lia.
  - cbn [bind] in H. rewrite (load_view h w Ww) in H. cbn [bind] in H.
    assert (Hz : zlen (view h w) = len w) by now apply view_len.
    destruct (store_vec h v (len v) (view h w) W ltac:(lia) ltac:(lia)) as (h2 & Hs & He2 & HL2 & Hin & Hout).
    rewrite Hs in H. cbn [bind] in H. injection H as <- <-.
    destruct (view_extend h h2 v (view h w) W ltac:(lia) He2 Hin Hout) as [Wf _]. rewrite Hz in *.
    split; [exact He2|]. split; [exact Wf|]. split; [left; reflexivity|]. eauto.
Qed.

Inductive effect (s : state A) (o : op A) (s' : state A) (x : obs A) : Prop :=
| e_none : s' = s -> (x = Thrown \/ (forall g, group_step g o x = g)) -> effect s o s' x
| e_fresh a h : s' = add_var (h, a) s -> hext (mem s) h -> fresh_cells (mem s) h -> wf_vec h a ->
    (blk a = None \/ blk a = Some (length (mem s))) -> target o = None ->
    (forall g, group_step g o x = g ++ [length g]) -> effect s o s' x
| e_share v a b : s' = add_var (mem s, b) s -> nth_error (vars s) v = Some a -> wf_vec (mem s) b -> blk b = blk a ->
    target o = None -> (forall g, group_step g o x = g ++ [nth v g O]) -> effect s o s' x
| e_write v a a' h : s' = set_var v (h, a') s -> nth_error (vars s) v = Some a -> updates (mem s) h a a' ->
    target o = Some v -> (forall g, group_step g o x = g) -> effect s o s' x.

Lemma var_inv (s : state A) v a : var s v = Ok a -> nth_error (vars s) v = Some a.
Proof using zero esz. unfold var. destruct (nth_error (vars s) v); congruence. Qed.

Lemma step_effect s o s' x : wf s -> step zero esz s o = Ok (s', x) -> effect s o s' x.
Proof using zero esz.
  intros W H.
  destruct o as [n y|n|v y|v w|v i|v i y|v b e|v w|v w|v|v|v]; cbn [step] in H;
    try (destruct (var s v) as [a| | | | |] eqn:Ha; try discriminate; cbn [bind] in H; apply var_inv in Ha;
         pose proof (wf_var _ _ _ W Ha) as Wa);
    try (destruct (var s w) as [c| | | | |] eqn:Hc; try discriminate; cbn [bind] in H; apply var_inv in Hc;
         pose proof (wf_var _ _ _ W Hc) as Wc).
  - destruct (n <? 0) eqn:E.
    { unfold vec_new in H. rewrite E in H. injection H as <- <-. apply e_none; auto. }
    destruct (Z.eq_dec n 0) as [En|En]; [|destruct (Z_le_dec esz 8) as [E8|E8]].
    + destruct (new_ok_spec (mem s) n y ltac:(lia) ltac:(lia)) as (h' & a & Ea & He & Wa & Hv & Hbl & Hf).
      rewrite Ea in H. cbn [bind guard] in H. injection H as <- <-. eapply e_fresh; eauto.
    + destruct (new_ok_spec (mem s) n y ltac:(lia) ltac:(lia)) as (h' & a & Ea & He & Wa & Hv & Hbl & Hf).
      rewrite Ea in H. cbn [bind guard] in H. injection H as <- <-. eapply e_fresh; eauto.
    + unfold vec_new in H. rewrite E in H. replace (n =? 0) with false in H by lia.
      destruct (array_new_ok (mem s) n ltac:(lia)) as (h1 & E1 & _). rewrite E1 in H. cbn [bind] in H.
      replace (0 <? n) with true in H by lia. replace (8 <? esz) with true in H by lia. discriminate.
  - destruct (n <? 0) eqn:E.
    { unfold vec_cap in H. rewrite E in H. injection H as <- <-. apply e_none; auto. }
    destruct (cap_ok (mem s) n ltac:(lia)) as (h' & a & Ea & He & Wa & Hl & _ & _ & Hbl & _ & Hf).
    rewrite Ea in H. cbn [bind guard] in H. injection H as <- <-. eapply e_fresh; eauto.
  - destruct (push_ok (mem s) a y Wa) as (h' & a' & Ea & He & Wa' & Hv & Hl & Hc & Hfull & Hroom).
    rewrite Ea in H. cbn [bind guard] in H. injection H as <- <-. eapply e_write; eauto.
    split; [exact He|]. split; [exact Wa'|].
    destruct (Z.eq_dec (len a) (cap a)) as [E|E].
    + destruct (Hfull E) as [Hbl Hf]. split; [auto|]. exists 0, 0. now apply fresh_only.
    + destruct (Hroom E) as (Hbl & _ & Ho). split; [auto|]. eauto.
  - destruct (vec_append zero (mem s) a c) as [[h' a']| | | | |] eqn:Ea; try discriminate;
      cbn [bind guard] in H; injection H as <- <-; try (apply e_none; auto; fail).
    eapply e_write; eauto. eapply append_inv; eauto.
  - destruct (vec_get (mem s) a i) as [y| | | | |] eqn:Ea; try discriminate;
      cbn [bind guard] in H; injection H as <- <-; apply e_none; auto.
  - destruct ((0 <=? i) && (i <? len a)) eqn:E.
    + destruct (set_ok (mem s) a i y Wa ltac:(lia)) as (h' & Ea & He & _ & Ho & _ & Hv).
      rewrite Ea in H. cbn [bind guard] in H. injection H as <- <-. eapply (e_write _ _ _ _ v a a h'); eauto.
      * unfold set_var. cbn. now rewrite list_set_same.
      * split; [exact He|]. split; [eapply wf_hext; eauto|]. split; [auto|]. eauto.
    + rewrite set_out in H by lia. cbn [bind guard] in H. injection H as <- <-. apply e_none; auto.
  - pose proof (slice_ok (mem s) a b e Wa) as Hs.
    destruct (vec_slice a b e) as [w| | | | |]; try contradiction; cbn [bind guard] in H; injection H as <- <-.
    + destruct Hs as (e' & _ & _ & _ & -> & Ww & _). eapply (e_share _ _ _ _ v a); eauto.
    + apply e_none; auto.
  - destruct (concat_ok (mem s) a c Wa Wc) as (h' & u & Eu & He & Wu & Hv & Hbl & Hf).
    rewrite Eu in H. cbn [bind guard] in H. injection H as <- <-. eapply e_fresh; eauto.
  - destruct (copy_ok (mem s) a c Wa Wc) as (h' & n & Ea & -> & He & _ & Hv & Ho).
    rewrite Ea in H. cbn [bind guard fst snd] in H. injection H as <- <-. eapply (e_write _ _ _ _ v a a h'); eauto.
    + unfold set_var. cbn. now rewrite list_set_same.
    + split; [exact He|]. split; [eapply wf_hext; eauto|]. split; [auto|]. eauto.
  - injection H as <- <-. eapply (e_share _ _ _ _ v a a); eauto.
  - injection H as <- <-. apply e_none; auto.
  - injection H as <- <-. apply e_none; auto.
Qed.

Lemma effect_wf s o s' x : wf s -> effect s o s' x -> wf s'.
Proof using zero esz.
  intros W [-> _|a h -> He _ Wa _ _ _|v a b -> _ Wb _ _ _|v a a' h -> _ (He & Wa & _) _ _]; auto.
  - now apply wf_add.
  - apply wf_add; auto. apply hext_refl.
  - now apply wf_set.
Qed.

(** Variables that share a block are in one group. *)
Definition grouped (s : state A) (g : list nat) : Prop :=
  length g = length (vars s) /\
  forall i j a b x, nth_error (vars s) i = Some a -> nth_error (vars s) j = Some b ->
    blk a = Some x -> blk b = Some x -> nth_error g i = nth_error g j.

Lemma old_block s i a : wf s -> nth_error (vars s) i = Some a -> blk a <> Some (length (mem s)).
Proof using zero esz. intros W Hi Hb. destruct (wf_var _ _ _ W Hi) as (_ & _ & W3 & _). specialize (W3 _ Hb). lia. Qed.

Lemma nth_error_lt {B} (l : list B) i x : nth_error l i = Some x -> (i < length l)%nat.
Proof using zero esz. intros H. apply nth_error_Some. congruence. Qed.

Lemma effect_grouped s o s' x g : wf s -> effect s o s' x -> grouped s g -> grouped s' (group_step g o x).
Proof using zero esz.
  intros W E [HL HG].
  destruct E as [-> Hg|a h -> He _ Wa Hb _ Hg|v a b -> Hv Wb Hb _ Hg|v a a' h -> Hv (He & Wa & Hb & _) _ Hg].
  - destruct Hg as [->|Hg]; [|now rewrite Hg]. replace (group_step g o Thrown) with g by (destruct o; reflexivity). now split.
  - rewrite Hg. split; [cbn; rewrite !app_length; cbn; lia|]. cbn.
    intros i j c d y Hi Hj Hc Hd.
    apply nth_error_snoc in Hi as [Hi|[-> ->]]; apply nth_error_snoc in Hj as [Hj|[-> ->]].
    + rewrite !nth_error_app1 by (rewrite HL; eapply nth_error_lt; eauto). eapply HG; eauto.
    + exfalso. pose proof (old_block _ _ _ W Hi). destruct Hb; congruence.
    + exfalso. pose proof (old_block _ _ _ W Hj). destruct Hb; congruence.
    + reflexivity.
  - rewrite Hg. split; [cbn; rewrite !app_length; cbn; lia|]. cbn.
    assert (Hnew : nth_error (g ++ [nth v g O]) (length (vars s)) = nth_error g v).
    { rewrite nth_error_app2, HL, Nat.sub_diag by lia. cbn. symmetry. apply nth_error_nth'. rewrite HL. eapply nth_error_lt; eauto. }
    intros i j c d y Hi Hj Hc Hd.
    apply nth_error_snoc in Hi as [Hi|[-> ->]]; apply nth_error_snoc in Hj as [Hj|[-> ->]].
    + rewrite !nth_error_app1 by (rewrite HL; eapply nth_error_lt; eauto). eapply HG; eauto.
    + rewrite Hnew. rewrite !nth_error_app1 by (rewrite HL; eapply nth_error_lt; eauto). eapply HG; eauto. congruence.
    + rewrite Hnew. rewrite !nth_error_app1 by (rewrite HL; eapply nth_error_lt; eauto). eapply HG; eauto. congruence.
    + reflexivity.
  - rewrite Hg. split; [cbn; now rewrite length_list_set|]. cbn.
    intros i j c d y Hi Hj Hc Hd.
    apply nth_error_set in Hi as [[-> ->]|[Hni Hi]]; apply nth_error_set in Hj as [[-> ->]|[Hnj Hj]]; auto.
    + destruct Hb as [Hb|Hb]; [eapply HG; eauto; congruence|]. pose proof (old_block _ _ _ W Hj). congruence.
    + destruct Hb as [Hb|Hb]; [eapply HG; eauto; congruence|]. pose proof (old_block _ _ _ W Hi). congruence.
    + eapply HG; eauto.
Qed.

Lemma run_inv l : forall s g s' xs, wf s -> grouped s g -> run zero esz s l = Ok (s', xs) ->
  wf s' /\ grouped s' (groups g l xs).
Proof using zero esz.
  induction l as [|o l IH]; intros s g s' xs W G H; cbn [run] in H.
  - injection H as <- <-. auto.
  - destruct (step zero esz s o) as [[s1 x]| | | | |] eqn:E; try discriminate. cbn [bind] in H.
    destruct (run zero esz s1 l) as [[s2 ys]| | | | |] eqn:E2; try discriminate. cbn [bind] in H.
    injection H as <- <-. pose proof (step_effect _ _ _ _ W E) as F. cbn [groups].
    exact (IH _ _ _ _ (effect_wf _ _ _ _ W F) (effect_grouped _ _ _ _ _ W F G) E2).
Qed.

Lemma grouped_init : grouped (init (A := A)) [].
Proof using zero esz. split; [reflexivity|]. intros i j a b x Hi. destruct i; discriminate. Qed.

Lemma contents_len (s : state A) : length (contents s) = length (vars s).
Proof using zero esz. unfold contents. apply map_length. Qed.

Theorem isolation l s xs o s' x w :
  run zero esz (init (A := A)) l = Ok (s, xs) -> step zero esz s o = Ok (s', x) ->
  (w < length (contents s))%nat ->
  match target o with
  | None => True
  | Some v => nth_error (groups [] l xs) w <> nth_error (groups [] l xs) v
  end ->
  nth_error (contents s') w = nth_error (contents s) w.
Proof using zero esz.
  intros Hr Hs Hw Ht. destruct (run_inv _ _ _ _ _ wf_init grouped_init Hr) as [W [HL HG]].
  rewrite contents_len in Hw. destruct (nth_error (vars s) w) as [c|] eqn:Hc; [|apply nth_error_None in Hc; lia].
  rewrite (contents_nth _ _ _ Hc). pose proof (wf_var _ _ _ W Hc) as Wc.
  destruct (step_effect _ _ _ _ W Hs) as [-> Hg|a h -> He Hf Wa Hb _ Hg|v a b -> Hv Wb Hb _ Hg|v a a' h -> Hv (He & Wa & Hb & lo & hi & Ho) Ht' Hg].
  - now apply contents_nth.
  - unfold contents, add_var. cbn. rewrite nth_error_map, nth_error_app1, Hc by assumption. cbn. f_equal.
    apply view_same; [assumption|assumption|]. intros b k Hb' _. apply Hf. destruct Wc as (_ & _ & W3 & _). now apply W3.
  - unfold contents, add_var. cbn. rewrite nth_error_map, nth_error_app1, Hc by assumption. reflexivity.
  - rewrite Ht' in Ht. unfold contents, set_var. cbn. rewrite nth_error_map, nth_error_list_set.
    destruct (Nat.eqb_spec v w) as [->|Hne]; [congruence|]. rewrite Hc. cbn. f_equal.
    apply view_same; [assumption|assumption|]. intros b k Hb' _. apply Ho.
    + destruct Wc as (_ & _ & W3 & _). now apply W3.
    + intros [Hab _]. apply Ht. eapply HG; eauto.
Qed.

Theorem out_of_range_no_change s o s' : wf s -> step zero esz s o = Ok (s', Thrown) -> s' = s.
Proof using zero esz.
  intros W H. destruct o as [n y|n|v y|v w|v i|v i y|v b e|v w|v w|v|v|v]; cbn [step] in H;
    try (destruct (var s v) as [a| | | | |]; try discriminate; cbn [bind] in H);
    try (destruct (var s w) as [c| | | | |]; try discriminate; cbn [bind] in H);
    match goal with
    | H : guard _ (bind ?e _) = _ |- _ => destruct e as [?| | | | |]; cbn [bind guard] in H; congruence
    | _ => congruence
    end.
Qed.

(** ** A slice and its parent *)

Definition related (p : pair_state A) (s : state A) (v w : nat) : Prop :=
  v <> w /\ exists a b, nth_error (vars s) v = Some a /\ nth_error (vars s) w = Some b /\
    wf_vec (mem s) a /\ wf_vec (mem s) b /\
    view (mem s) a = parent p /\ cap a = parent_cap p /\ view (mem s) b = child p /\ cap b = child_cap p /\
    (linked p = true -> blk b = blk a /\ off b = off a + start p /\ 0 <= start p /\ start p + len b <= len a /\ len b = cap b) /\
    (linked p = false -> forall x, blk a = Some x -> blk b <> Some x).

Lemma view_put h h' c k x : hext h h' -> wf_vec h c -> 0 <= k < len c ->
  (forall b, blk c = Some b -> cell h' b (off c + k) = Some x) ->
  only_at h h' (blk c) (off c + k) (off c + k + 1) -> view h' c = put (view h c) k x.
Proof using zero esz.
  intros He Wc Hk Hx Ho. pose proof (wf_hext _ _ _ He Wc) as W'. unfold put.
  pose proof (view_len h c Wc) as Hz.
  apply znth_ext_len; rewrite (view_len _ _ W'); [rewrite zlen_list_set; lia|].
  intros j Hj. destruct (wf_blk h c Wc ltac:(lia)) as [b Hb].
  rewrite (view_nth _ _ j b W' Hj Hb), znth_list_set_z by lia.
  destruct (Z.eqb_spec j k) as [->|Hne]; [now apply Hx|].
  rewrite (view_nth _ _ j b Wc Hj Hb). apply Ho; [|lia]. destruct Wc as (_ & _ & W3 & _). now apply W3.
Qed.

Lemma pair_step_ok p s v w o : related p s v w ->
  exists s' x, step zero esz s (as_op v w o) = Ok (s', x) /\ related (pair_step p o) s' v w.
Proof using zero esz.
  intros [Hne (a & b & Ha & Hb & Wa & Wb & Pa & Ca & Pb & Cb & Hlk & Hun)].
  pose proof (view_len _ _ Wa) as Za. pose proof (view_len _ _ Wb) as Zb. rewrite Pa in Za. rewrite Pb in Zb.
  pose proof Wa as (A1 & A2 & A3 & A4). pose proof Wb as (B1 & B2 & B3 & B4).
  assert (Va : var s v = Ok a) by (unfold var; now rewrite Ha).
  assert (Vb : var s w = Ok b) by (unfold var; now rewrite Hb).
  destruct o as [x|i x|x|i x]; cbn [as_op step pair_step].
  - (* parent push *)
    rewrite Va. cbn [bind].
    destruct (push_ok (mem s) a x Wa) as (h' & a' & -> & He & Wa' & Hv & Hl & Hc & Hfull & Hroom). cbn [bind guard].
    eexists _, _. split; [reflexivity|]. split; [assumption|]. exists a', b. cbn [vars mem set_var fst snd].
    split; [rewrite nth_error_list_set, Nat.eqb_refl; replace (Nat.ltb v (length (vars s))) with true; [reflexivity|]; symmetry; apply Nat.ltb_lt; eapply nth_error_lt; eauto|].
    split; [rewrite nth_error_list_set; replace (Nat.eqb v w) with false by (symmetry; now apply Nat.eqb_neq); exact Hb|].
    split; [exact Wa'|]. split; [eapply wf_hext; eauto|]. cbn [parent parent_cap child child_cap start linked].
    split; [now rewrite Hv, Pa|]. split; [now rewrite Hc, Pa, Ca|].
    destruct (Z.eq_dec (len a) (cap a)) as [E|E].
    + destruct (Hfull E) as [Hbl Hf].
      split; [rewrite <- Pb; apply view_same; [assumption|assumption|]; intros y k Hy _; apply Hf; now apply B3|].
      split; [assumption|]. replace (zlen (parent p) =? parent_cap p) with true by lia. cbn [negb]. rewrite andb_false_r.
      split; [discriminate|]. intros _ y Hy Hy'. rewrite Hbl in Hy. injection Hy as <-. specialize (B3 _ Hy'). lia.
    + destruct (Hroom E) as (Hbl & Hof & Ho).
      split.
      { rewrite <- Pb. apply view_same; [assumption|assumption|]. intros y k Hy Hk. apply Ho; [now apply B3|].
        intros [Hay Hr]. destruct (linked p) eqn:El.
        - destruct (Hlk eq_refl) as (_ & Hoff & _ & Hin & _). lia.
        - exact (Hun eq_refl _ Hay Hy). }
      split; [assumption|]. replace (zlen (parent p) =? parent_cap p) with false by lia. cbn [negb]. rewrite andb_true_r.
      split.
      * intros El. destruct (Hlk El) as (? & ? & ? & ? & ?). rewrite Hbl, Hof. split; [assumption|]. lia.
      * intros El. rewrite Hbl. now apply Hun.
  - (* parent set *)
    rewrite Va. cbn [bind]. unfold inside at 1. rewrite Za. destruct ((0 <=? i) && (i <? len a)) eqn:E.
    + destruct (set_ok (mem s) a i x Wa ltac:(lia)) as (h' & -> & He & _ & Ho & Hcx & Hv). cbn [bind guard].
      eexists _, _. split; [reflexivity|]. split; [assumption|]. exists a, b. cbn [vars mem].
      split; [assumption|]. split; [assumption|]. split; [eapply wf_hext; eauto|]. split; [eapply wf_hext; eauto|].
      cbn [parent parent_cap child child_cap start linked].
      split; [now rewrite Hv, Pa|]. split; [assumption|]. split; [|split; [assumption|split; assumption]].
      rewrite <- Pb. unfold inside. rewrite (view_len _ _ Wb).
      destruct (linked p) eqn:El; cbn [andb].
      * destruct (Hlk eq_refl) as (Hbb & Hoff & ? & ? & ?).
        destruct ((0 <=? i - start p) && (i - start p <? len b)) eqn:E2.
        -- apply view_put; [assumption|assumption|lia| |].
           ++ intros y Hy. replace (off b + (i - start p)) with (off a + i) by lia. apply Hcx. congruence.
           ++ rewrite Hbb. replace (off b + (i - start p)) with (off a + i) by lia. exact Ho.
        -- apply view_same; [assumption|assumption|]. intros y k Hy Hk. apply Ho; [now apply B3|]. lia.
      * apply view_same; [assumption|assumption|]. intros y k Hy Hk. apply Ho; [now apply B3|].
        intros [Hay _]. exact (Hun eq_refl _ Hay Hy).
    + rewrite set_out by lia. cbn [bind guard]. eexists _, _. split; [reflexivity|]. split; [assumption|].
      exists a, b. repeat (split; [assumption|]). assumption.
  - (* child push *)
    rewrite Vb. cbn [bind].
    destruct (push_ok (mem s) b x Wb) as (h' & b' & -> & He & Wb' & Hv & Hl & Hc & Hfull & Hroom). cbn [bind guard].
    eexists _, _. split; [reflexivity|]. split; [assumption|]. exists a, b'. cbn [vars mem set_var fst snd].
    split; [rewrite nth_error_list_set; replace (Nat.eqb w v) with false by (symmetry; apply Nat.eqb_neq; auto); exact Ha|].
    split; [rewrite nth_error_list_set, Nat.eqb_refl; replace (Nat.ltb w (length (vars s))) with true; [reflexivity|]; symmetry; apply Nat.ltb_lt; eapply nth_error_lt; eauto|].
    split; [eapply wf_hext; eauto|]. split; [exact Wb'|]. cbn [parent parent_cap child child_cap start linked].
    destruct (Z.eq_dec (len b) (cap b)) as [E|E].
    + destruct (Hfull E) as [Hbl Hf].
      split; [rewrite <- Pa; apply view_same; [assumption|assumption|]; intros y k Hy _; apply Hf; now apply A3|].
      split; [assumption|]. split; [now rewrite Hv, Pb|]. split; [now rewrite Hc, Pb, Cb|]. split; [discriminate|].
      intros _ y Hy Hy'. rewrite Hbl in Hy'. injection Hy' as <-. specialize (A3 _ Hy). lia.
    + destruct (Hroom E) as (Hbl & Hof & Ho).
      assert (El : linked p = false). { destruct (linked p); [|reflexivity]. destruct (Hlk eq_refl) as (_ & _ & _ & _ & ?). lia. }
      split.
      { rewrite <- Pa. apply view_same; [assumption|assumption|]. intros y k Hy Hk. apply Ho; [now apply A3|].
        intros [Hby _]. exact (Hun El _ Hy Hby). }
      split; [assumption|]. split; [now rewrite Hv, Pb|]. split; [now rewrite Hc, Pb, Cb|]. split; [discriminate|].
      intros _. rewrite Hbl. now apply Hun.
  - (* child set *)
    rewrite Vb. cbn [bind]. unfold inside. rewrite Zb. destruct ((0 <=? i) && (i <? len b)) eqn:E.
    + destruct (set_ok (mem s) b i x Wb ltac:(lia)) as (h' & -> & He & _ & Ho & Hcx & Hv). cbn [bind guard].
      eexists _, _. split; [reflexivity|]. split; [assumption|]. exists a, b. cbn [vars mem].
      split; [assumption|]. split; [assumption|]. split; [eapply wf_hext; eauto|]. split; [eapply wf_hext; eauto|].
      cbn [parent parent_cap child child_cap start linked].
      split; [|split; [assumption|split; [now rewrite Hv, Pb|split; [assumption|split; assumption]]]].
      rewrite <- Pa. destruct (linked p) eqn:El.
      * destruct (Hlk eq_refl) as (Hbb & Hoff & ? & ? & ?). apply view_put; [assumption|assumption|lia| |].
        -- intros y Hy. replace (off a + (start p + i)) with (off b + i) by lia. apply Hcx. congruence.
        -- rewrite <- Hbb. replace (off a + (start p + i)) with (off b + i) by lia. exact Ho.
      * apply view_same; [assumption|assumption|]. intros y k Hy Hk. apply Ho; [now apply A3|].
        intros [Hby _]. exact (Hun eq_refl _ Hy Hby).
    + rewrite set_out by lia. cbn [bind guard]. eexists _, _. split; [reflexivity|]. split; [assumption|].
      exists a, b. repeat (split; [assumption|]). assumption.
Qed.

Lemma pair_run_ok l : forall p s v w, related p s v w ->
  exists s' xs, run zero esz s (map (as_op v w) l) = Ok (s', xs) /\ related (fold_left pair_step l p) s' v w.
Proof using zero esz.
  induction l as [|o l IH]; intros p s v w R; cbn [map run fold_left].
  - exists s, []. auto.
  - destruct (pair_step_ok p s v w o R) as (s1 & x & -> & R1). cbn [bind].
    destruct (IH _ _ _ _ R1) as (s2 & xs & -> & R2). cbn [bind]. eauto.
Qed.

Theorem slice_pair hist s xs v st e s1 a c l :
  run zero esz (init (A := A)) hist = Ok (s, xs) ->
  step zero esz s (OSlice v st e) = Ok (s1, Done) ->
  step zero esz s (OCapacity v) = Ok (s, Num c) ->
  nth_error (contents s) v = Some a ->
  let w := length (contents s) in
  let e' := if e =? -1 then zlen a else e in
  0 <= st <= e' /\ e' <= zlen a /\
  exists s' ys, run zero esz s1 (map (as_op v w) l) = Ok (s', ys) /\
    let p := fold_left pair_step l (mk_pair a c (sub_list a st e') (e' - st) st true) in
    nth_error (contents s') v = Some (parent p) /\
    nth_error (contents s') w = Some (child p).
Proof using zero esz.
  intros Hr Hs Hcap Ha w e'. destruct (run_inv _ _ _ _ _ wf_init grouped_init Hr) as [W _].
  apply contents_nth_inv in Ha as (va & Hva & ->). pose proof (wf_var _ _ _ W Hva) as Wa.
  cbn [step] in Hs, Hcap. assert (Hv : var s v = Ok va) by (unfold var; now rewrite Hva).
  rewrite Hv in Hs, Hcap. cbn [bind] in Hs, Hcap. injection Hcap as <-.
  pose proof (slice_ok (mem s) va st e Wa) as Hsl.
  destruct (vec_slice va st e) as [vw| | | | |]; try contradiction; cbn [bind guard] in Hs; [|discriminate].
  injection Hs as <-. destruct Hsl as (e0 & He0 & Hr1 & Hr2 & -> & Ww & Hvw).
  assert (Ee : e' = e0) by (subst e' e0; now rewrite view_len).
  rewrite (view_len _ _ Wa), Ee. split; [exact Hr1|]. split; [exact Hr2|].
  assert (R : related (mk_pair (view (mem s) va) (cap va) (sub_list (view (mem s) va) st e0) (e0 - st) st true)
                (add_var (mem s, mk_vec (blk va) (off va + st) (e0 - st) (e0 - st)) s) v w).
  { assert (Hlt : (v < length (vars s))%nat) by (eapply nth_error_lt; eauto).
    split; [subst w; rewrite contents_len; lia|]. eexists _, _. cbn [vars mem add_var fst snd].
    split; [rewrite nth_error_app1 by lia; exact Hva|].
    split; [subst w; rewrite contents_len, nth_error_app2, Nat.sub_diag by lia; reflexivity|].
    split; [exact Wa|]. split; [exact Ww|]. cbn. split; [reflexivity|]. split; [reflexivity|].
    split; [exact Hvw|]. split; [reflexivity|]. split; [|discriminate]. intros _.
    split; [reflexivity|]. split; [reflexivity|]. lia. }
  destruct (pair_run_ok l _ _ _ _ R) as (s' & ys & Hrun & [_ (a' & b' & Ha' & Hb' & _ & _ & Pa & _ & Pb & _)]).
  exists s', ys. split; [exact Hrun|]. cbn zeta.
  rewrite (contents_nth _ _ _ Ha'), (contents_nth _ _ _ Hb'), Pa, Pb. auto.
Qed.
End vec_proof.
