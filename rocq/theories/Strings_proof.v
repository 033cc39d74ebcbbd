From Verif Require Import Base Base_lemmas Strings_model Strings_spec.

(** ** Occurrences *)

Lemma occurs_at_range t s i : occurs_at t s i -> 0 <= i <= zlen s - zlen t.
Proof.
  intros (pre & suf & -> & <-). rewrite !zlen_app.
  pose proof (zlen_nonneg pre); pose proof (zlen_nonneg suf); lia.
Qed.

Lemma occurs_at_app pre s t j :
  zlen pre <= j -> (occurs_at t (pre ++ s) j <-> occurs_at t s (j - zlen pre)).
Proof.
  intros Hj. split.
  - intros (a & b & He & Ha).
    destruct (split_at a (zlen pre)) as (a1 & a2 & -> & Ha1);
      [pose proof (zlen_nonneg pre); lia|].
    rewrite <- app_assoc in He.
    apply app_zlen_inj in He as [-> ->]; [|lia].
    exists a2, b. split; [reflexivity|]. rewrite zlen_app in Ha. lia.
  - intros (a & b & -> & Ha). exists (pre ++ a), b.
    split; [now rewrite <- app_assoc|]. rewrite zlen_app. lia.
Qed.

Lemma occurs_at_0 t s : occurs_at t s 0 <-> exists r, s = t ++ r.
Proof.
  split.
  - intros (a & b & -> & Ha). apply zlen_0_nil in Ha as ->. now exists b.
  - intros (r & ->). now exists [], r.
Qed.

Lemma occurs_at_cons x s t j :
  1 <= j -> (occurs_at t (x :: s) j <-> occurs_at t s (j - 1)).
Proof. intros Hj. apply (occurs_at_app [x] s t j). exact Hj. Qed.

Lemma occurs_single c s i : occurs_at [c] s i <-> at_ s i = Ok c.
Proof.
  split.
  - intros (a & b & -> & <-). apply (at_app_mid a b c).
  - intros H. apply at_Ok_inv in H as (a & b & -> & ->). now exists a, b.
Qed.

Lemma is_prefix_spec p s : is_prefix p s = true <-> exists r, s = p ++ r.
Proof.
  revert s; induction p as [|a p IH]; intros s; cbn [is_prefix].
  - split; [intros _; now exists s|reflexivity].
  - destruct s as [|b s].
    + split; [discriminate|intros (r & Hr); discriminate Hr].
    + rewrite andb_true_iff, IH, Z.eqb_eq. split.
      * intros [-> (r & ->)]. now exists r.
      * intros (r & Hr). cbn in Hr. injection Hr as -> ->. split; [reflexivity|now exists r].
Qed.

Lemma strstr_spec hay needle :
  match strstr hay needle with
  | Some k => occurs_at needle hay k /\ forall j, occurs_at needle hay j -> k <= j
  | None => forall j, ~ occurs_at needle hay j
  end.
Proof.
  induction hay as [|x hay IH]; cbn [strstr].
  - destruct (is_prefix needle []) eqn:E.
    + rewrite is_prefix_spec in E. split; [now apply occurs_at_0|].
      intros j Hj. apply occurs_at_range in Hj. lia.
    + intros j Hj. pose proof (occurs_at_range _ _ _ Hj) as Hr.
      rewrite zlen_nil in Hr. pose proof (zlen_nonneg needle).
      assert (j = 0) as -> by lia. apply occurs_at_0 in Hj.
      rewrite <- is_prefix_spec in Hj. congruence.
  - destruct (is_prefix needle (x :: hay)) eqn:E.
    + rewrite is_prefix_spec in E. split; [now apply occurs_at_0|].
      intros j Hj. apply occurs_at_range in Hj. lia.
    + assert (H0 : ~ occurs_at needle (x :: hay) 0).
      { rewrite occurs_at_0, <- is_prefix_spec. congruence. }
      destruct (strstr hay needle) as [k|].
      * destruct IH as [Hk Hmin]. pose proof (occurs_at_range _ _ _ Hk).
        split.
        -- apply occurs_at_cons; [lia|]. now replace (1 + k - 1) with k by lia.
        -- intros j Hj. pose proof (occurs_at_range _ _ _ Hj).
           assert (j <> 0) by (intros ->; now apply H0).
           apply occurs_at_cons in Hj; [|lia]. apply Hmin in Hj. lia.
      * intros j Hj. pose proof (occurs_at_range _ _ _ Hj).
        assert (j <> 0) by (intros ->; now apply H0).
        apply occurs_at_cons in Hj; [|lia]. now apply IH in Hj.
Qed.

Lemma cstr_nul_free s : nul_free s -> cstr s = s.
Proof.
  unfold nul_free. induction s as [|b s IH]; cbn [cstr]; [reflexivity|].
  intros H. cbn in H. destruct (Z.eqb_spec b 0) as [->|Hb]; [tauto|].
  rewrite IH; tauto.
Qed.

Lemma nul_free_app s t : nul_free (s ++ t) <-> nul_free s /\ nul_free t.
Proof. unfold nul_free. rewrite in_app_iff. tauto. Qed.

(** ** find *)

Lemma find_char_loop_spec fuel pre suf c :
  (length suf < fuel)%nat ->
  exists i, find_char_loop fuel (pre ++ suf) c (zlen pre) = Ok i /\
            first_occurrence [c] (pre ++ suf) (zlen pre) i.
Proof.
  revert pre suf; induction fuel as [|fuel IH]; intros pre suf Hf; [lia|].
  cbn [find_char_loop]. rewrite zlen_app.
  destruct suf as [|x suf].
  - rewrite zlen_nil. replace (zlen pre <? zlen pre + 0) with false by lia.
    exists (-1). split; [reflexivity|]. right. split; [reflexivity|].
    intros j Hj. apply occurs_at_range in Hj. rewrite app_nil_r in Hj.
    change (zlen [c]) with 1 in Hj. lia.
  - rewrite zlen_cons. pose proof (zlen_nonneg suf).
    replace (zlen pre <? zlen pre + (1 + zlen suf)) with true by lia.
    rewrite at_app_mid. cbn [bind].
    destruct (Z.eqb_spec x c) as [->|Hx].
    + exists (zlen pre). split; [reflexivity|]. left. repeat split; [|lia|intros; lia].
      apply occurs_single, at_app_mid.
    + specialize (IH (pre ++ [x]) suf). rewrite <- app_assoc in IH. cbn [app] in IH.
      rewrite zlen_app in IH. change (zlen [x]) with 1 in IH.
      destruct IH as (i & Hi & Hfo); [cbn in Hf; lia|].
      exists i. split; [exact Hi|].
      assert (Hne : ~ occurs_at [c] (pre ++ x :: suf) (zlen pre)).
      { rewrite occurs_single, at_app_mid. congruence. }
      destruct Hfo as [(H1 & H2 & H3)|(-> & H1)].
      * left. repeat split; [exact H1|lia|]. intros j Hj Hjp.
        destruct (Z.eq_dec j (zlen pre)) as [->|Hd]; [tauto|]. apply H3; [exact Hj|lia].
      * right. split; [reflexivity|]. intros j Hj.
        destruct (Z.eq_dec j (zlen pre)) as [->|Hd]; [tauto|]. apply H1 in Hj. lia.
Qed.

Lemma find_char_spec s c after :
  0 <= after <= zlen s ->
  exists i, find_char s c after = Ok i /\ first_occurrence [c] s after i.
Proof.
  intros Ha. destruct (split_at s after Ha) as (pre & suf & -> & <-).
  unfold find_char. apply find_char_loop_spec. rewrite zlen_app. unfold zlen. lia.
Qed.

Lemma find_after_spec s t after :
  t <> [] -> 0 <= after <= zlen s -> (zlen t = 1 \/ (nul_free s /\ nul_free t)) ->
  exists i, find_after s t after = Ok i /\ first_occurrence t s after i.
Proof.
  intros Ht Ha Hn. unfold find_after.
  assert (1 <= zlen t) as Hl.
  { destruct t as [|c t]; [congruence|]. rewrite zlen_cons. pose proof (zlen_nonneg t). lia. }
  replace (zlen t =? 0) with false by lia.
  destruct (Z.eqb_spec (zlen t) 1) as [H1|H1].
  - destruct t as [|c [|d t]].
    + congruence.
    + rewrite at_cons_0. cbn [bind]. now apply find_char_spec.
    + rewrite !zlen_cons in H1. pose proof (zlen_nonneg t). lia.
  - destruct Hn as [Hn|[Hs Hnt]]; [lia|].
    replace ((after <? 0) || (zlen s <? after)) with false by lia.
    destruct (split_at s after Ha) as (pre & suf & -> & <-).
    replace (Z.to_nat (zlen pre)) with (length pre) by (unfold zlen; lia).
    rewrite skipn_app, skipn_all, Nat.sub_diag. cbn [skipn app].
    apply nul_free_app in Hs as [_ Hs].
    rewrite (cstr_nul_free _ Hs), (cstr_nul_free _ Hnt).
    pose proof (strstr_spec suf t) as Hspec.
    destruct (strstr suf t) as [k|].
    + destruct Hspec as [Hk Hmin]. pose proof (occurs_at_range _ _ _ Hk).
      exists (zlen pre + k). split; [reflexivity|]. left. split; [|split; [lia|]].
      * apply occurs_at_app; [lia|]. now replace (zlen pre + k - zlen pre) with k by lia.
      * intros j Hj Hjp. apply occurs_at_app in Hj; [|lia]. apply Hmin in Hj. lia.
    + exists (-1). split; [reflexivity|]. right. split; [reflexivity|].
      intros j Hj. destruct (Z.lt_ge_cases j (zlen pre)) as [?|Hge]; [assumption|].
      apply occurs_at_app in Hj; [|lia]. now apply Hspec in Hj.
Qed.

Lemma find_spec s t :
  t <> [] -> (zlen t = 1 \/ (nul_free s /\ nul_free t)) ->
  exists i, find s t = Ok i /\ first_occurrence t s 0 i.
Proof. intros Ht Hn. apply find_after_spec; auto. pose proof (zlen_nonneg s). lia. Qed.

Lemma contains_spec s t :
  t <> [] -> (zlen t = 1 \/ (nul_free s /\ nul_free t)) ->
  exists b, contains s t = Ok b /\ (b = true <-> exists i, occurs_at t s i).
Proof.
  intros Ht Hn. destruct (find_spec s t Ht Hn) as (i & Hi & Hfo).
  unfold contains. rewrite Hi. cbn [bind]. eexists; split; [reflexivity|].
  destruct Hfo as [(H1 & H2 & H3)|(-> & H1)].
  - split; [eauto|]. intros _. destruct (Z.eqb_spec i (-1)); [lia|reflexivity].
  - split; [discriminate|]. intros (j & Hj). pose proof (occurs_at_range _ _ _ Hj).
    apply H1 in Hj. lia.
Qed.

(** ** starts_with / ends_with *)

Lemma same_from_spec self other k pre suf :
  self = pre ++ suf -> zlen pre = k -> zlen other <= zlen suf ->
  exists b, same_from self other k = Ok b /\ (b = true <-> exists r, suf = other ++ r).
Proof.
  revert self k pre suf; induction other as [|c t IH]; intros self k pre suf He Hk Hl;
    cbn [same_from].
  - exists true. split; [reflexivity|]. split; [intros _; now exists suf|reflexivity].
  - destruct suf as [|x suf].
    { rewrite zlen_cons, zlen_nil in Hl. pose proof (zlen_nonneg t). lia. }
    subst self k. rewrite at_app_mid. cbn [bind].
    destruct (Z.eqb_spec x c) as [->|Hx]; cbn [negb].
    + destruct (IH (pre ++ c :: suf) (zlen pre + 1) (pre ++ [c]) suf) as (b & Hb & Hiff).
      * now rewrite <- app_assoc.
      * rewrite zlen_app. reflexivity.
      * rewrite !zlen_cons in Hl. lia.
      * exists b. split; [exact Hb|]. rewrite Hiff. split; intros (r & Hr); exists r.
        -- now rewrite Hr.
        -- cbn in Hr. now injection Hr.
    + exists false. split; [reflexivity|]. split; [discriminate|].
      intros (r & Hr). cbn in Hr. injection Hr as Hr _. congruence.
Qed.

Lemma starts_with_spec s t :
  exists b, starts_with s t = Ok b /\ (b = true <-> exists r, s = t ++ r).
Proof.
  unfold starts_with. destruct (Z.ltb_spec (zlen s) (zlen t)) as [H|H].
  - exists false. split; [reflexivity|]. split; [discriminate|].
    intros (r & ->). rewrite zlen_app in H. pose proof (zlen_nonneg r). lia.
  - apply (same_from_spec s t 0 [] s); auto.
Qed.

Lemma ends_with_spec s t :
  exists b, ends_with s t = Ok b /\ (b = true <-> exists r, s = r ++ t).
Proof.
  unfold ends_with. destruct (Z.ltb_spec (zlen s) (zlen t)) as [H|H].
  - exists false. split; [reflexivity|]. split; [discriminate|].
    intros (r & ->). rewrite zlen_app in H. pose proof (zlen_nonneg r). lia.
  - destruct (split_at s (zlen s - zlen t)) as (pre & suf & He & Hp);
      [pose proof (zlen_nonneg t); lia|].
    assert (zlen suf = zlen t) as Hlen.
    { apply (f_equal zlen) in He. rewrite zlen_app in He. lia. }
    destruct (same_from_spec s t (zlen s - zlen t) pre suf He Hp) as (b & Hb & Hiff); [lia|].
    exists b. split; [exact Hb|]. rewrite Hiff. split.
    + intros (r & ->). exists pre. rewrite zlen_app in Hlen.
      assert (r = []) as -> by (apply zlen_0_nil; lia). now rewrite app_nil_r in He.
    + intros (r & Hr). exists []. rewrite app_nil_r.
      assert (Hx : pre ++ suf = r ++ t) by congruence.
      apply app_zlen_inj in Hx as [_ ->]; [reflexivity|].
      rewrite Hp, Hr, zlen_app. lia.
Qed.

(** ** rfind *)

Lemma match_at_loop_spec fuel self pre mid suf d t :
  self = pre ++ mid ++ suf -> zlen mid = zlen d + zlen t ->
  (exists m, mid = d ++ m) ->
  (length t < fuel)%nat ->
  exists b, match_at_loop fuel self (d ++ t) (zlen pre) (zlen d) = Ok b /\
            (b = true <-> mid = d ++ t).
Proof.
  revert d t; induction fuel as [|fuel IH]; intros d t He Hl Hd Hf; [lia|].
  destruct Hd as (m & ->). cbn [match_at_loop]. rewrite zlen_app.
  rewrite zlen_app in Hl.
  destruct t as [|c t].
  - rewrite zlen_nil in *. replace (zlen d <? zlen d + 0) with false by lia.
    exists true. split; [reflexivity|]. split; [|reflexivity].
    intros _. assert (m = []) as -> by (apply zlen_0_nil; lia). reflexivity.
  - rewrite zlen_cons in *. pose proof (zlen_nonneg t).
    replace (zlen d <? zlen d + (1 + zlen t)) with true by lia.
    destruct m as [|x m]; [rewrite zlen_nil in Hl; lia|].
    assert (Hat : at_ self (zlen pre + zlen d) = Ok x).
    { subst self. rewrite at_app_r by apply zlen_nonneg.
      replace ((d ++ x :: m) ++ suf) with (d ++ x :: (m ++ suf)) by (now rewrite <- app_assoc).
      apply at_app_mid. }
    rewrite Hat. cbn [bind]. rewrite at_app_mid. cbn [bind].
    destruct (Z.eqb_spec x c) as [->|Hx]; cbn [negb].
    + specialize (IH (d ++ [c]) t). rewrite <- !app_assoc in IH. cbn [app] in IH.
      rewrite !zlen_app in IH. change (zlen [c]) with 1 in IH.
      destruct IH as (b & Hb & Hiff).
      * subst self. now rewrite <- app_assoc.
      * rewrite ?zlen_app, ?zlen_cons in *. lia.
      * exists m. now rewrite <- app_assoc.
      * cbn in Hf. lia.
      * exists b. split; [exact Hb|]. exact Hiff.
    + exists false. split; [reflexivity|]. split; [discriminate|].
      intros Heq. apply app_inv_head in Heq. congruence.
Qed.

Lemma match_at_spec self t i :
  0 <= i <= zlen self - zlen t ->
  exists b, match_at_loop (S (length t)) self t i 0 = Ok b /\ (b = true <-> occurs_at t self i).
Proof.
  intros Hi. destruct (split_at self i) as (pre & rest & He & Hp);
    [pose proof (zlen_nonneg t); lia|].
  destruct (split_at rest (zlen t)) as (mid & suf & He2 & Hm).
  { apply (f_equal zlen) in He. rewrite zlen_app in He. pose proof (zlen_nonneg t). lia. }
  subst rest. subst i.
  destruct (match_at_loop_spec (S (length t)) self pre mid suf [] t) as (b & Hb & Hiff); auto.
  { now exists mid. }
  cbn [app] in *. exists b. split; [exact Hb|]. rewrite Hiff. subst self. split.
  - intros ->. now exists pre, suf.
  - intros (a & r & Heq & Ha). apply app_zlen_inj in Heq as [-> Heq]; [|lia].
    now apply app_zlen_inj in Heq as [-> _].
Qed.

Lemma rfind_loop_spec fuel s t i :
  t <> [] -> i <= zlen s - zlen t -> (Z.to_nat (i + 1) < fuel)%nat -> -1 <= i ->
  (forall j, occurs_at t s j -> j <= i) ->
  exists r, rfind_loop fuel s t i = Ok r /\ last_occurrence t s r.
Proof.
  intros Ht. revert i; induction fuel as [|fuel IH]; intros i Hi Hf Hlo Hmax; [lia|].
  cbn [rfind_loop]. destruct (Z.leb_spec 0 i) as [H0|H0].
  - destruct (match_at_spec s t i) as (b & Hb & Hiff); [lia|].
    rewrite Hb. cbn [bind]. destruct b.
    + exists i. split; [reflexivity|]. left. split; [now apply Hiff|exact Hmax].
    + apply IH; try lia. intros j Hj. pose proof (Hmax j Hj).
      destruct (Z.eq_dec j i) as [->|?]; [|lia].
      apply Hiff in Hj. discriminate.
  - exists (-1). split; [reflexivity|]. right. split; [reflexivity|].
    intros j Hj. pose proof (Hmax j Hj). apply occurs_at_range in Hj. lia.
Qed.

Lemma rfind_spec s t : t <> [] -> exists i, rfind s t = Ok i /\ last_occurrence t s i.
Proof.
  intros Ht. unfold rfind.
  assert (1 <= zlen t) as Hl.
  { destruct t as [|c t]; [congruence|]. rewrite zlen_cons. pose proof (zlen_nonneg t). lia. }
  replace (zlen t =? 0) with false by lia.
  destruct (Z.ltb_spec (zlen s) (zlen t)) as [H|H].
  - exists (-1). split; [reflexivity|]. right. split; [reflexivity|].
    intros j Hj. apply occurs_at_range in Hj. lia.
  - apply rfind_loop_spec; auto; try lia.
    + unfold zlen in *. lia.
    + intros j Hj. apply occurs_at_range in Hj. lia.
Qed.

(** ** replace *)

Lemma no_occurs_app_suffix a pre s :
  (forall j, ~ occurs_at a (pre ++ s) (zlen pre + j)) -> forall j, ~ occurs_at a s j.
Proof.
  intros H j Hj. apply (H j). pose proof (occurs_at_range _ _ _ Hj).
  apply occurs_at_app; [lia|]. now replace (zlen pre + j - zlen pre) with j by lia.
Qed.

Lemma find_after_split pre suf t :
  t <> [] -> (zlen t = 1 \/ (nul_free (pre ++ suf) /\ nul_free t)) ->
  (find_after (pre ++ suf) t (zlen pre) = Ok (-1) /\ (forall j, ~ occurs_at t suf j)) \/
  (exists p q, suf = p ++ t ++ q /\
     find_after (pre ++ suf) t (zlen pre) = Ok (zlen pre + zlen p) /\
     forall j, occurs_at t suf j -> zlen p <= j).
Proof.
  intros Ht Hn. destruct (find_after_spec (pre ++ suf) t (zlen pre) Ht) as (i & Hi & Hfo); auto.
  { rewrite zlen_app. pose proof (zlen_nonneg pre); pose proof (zlen_nonneg suf); lia. }
  destruct Hfo as [(H1 & H2 & H3)|(-> & H1)].
  - right. apply occurs_at_app in H1; [|lia]. destruct H1 as (p & q & -> & Hp).
    exists p, q. split; [reflexivity|]. split.
    + rewrite Hi. f_equal. lia.
    + intros j Hj. pose proof (occurs_at_range _ _ _ Hj).
      assert (i <= zlen pre + j); [|lia]. apply H3; [|lia].
      apply occurs_at_app; [lia|]. now replace (zlen pre + j - zlen pre) with j by lia.
  - left. split; [exact Hi|]. intros j Hj. pose proof (occurs_at_range _ _ _ Hj).
    assert (zlen pre + j < zlen pre); [|lia]. apply H1.
    apply occurs_at_app; [lia|]. now replace (zlen pre + j - zlen pre) with j by lia.
Qed.

Lemma replace_loop_spec fuel a b pre suf result :
  a <> [] -> (zlen a = 1 \/ (nul_free (pre ++ suf) /\ nul_free a)) ->
  (length suf < fuel)%nat ->
  exists r, replace_loop fuel (pre ++ suf) a b (zlen pre) result = Ok (result ++ r) /\
            replaced a b suf r.
Proof.
  intros Ha. revert pre suf result; induction fuel as [|fuel IH]; intros pre suf result Hn Hf; [lia|].
  cbn [replace_loop]. rewrite zlen_app.
  assert (1 <= zlen a) as Hla.
  { destruct a as [|c a]; [congruence|]. rewrite zlen_cons. pose proof (zlen_nonneg a). lia. }
  destruct suf as [|x suf'] eqn:Es.
  - rewrite zlen_nil. replace (zlen pre <? zlen pre + 0) with false by lia.
    exists []. split; [now rewrite app_nil_r|]. apply replaced_none.
    intros j Hj. apply occurs_at_range in Hj. rewrite zlen_nil in Hj. lia.
  - rewrite <- Es in *. replace (zlen pre <? zlen pre + zlen suf) with true
      by (rewrite Es, zlen_cons; pose proof (zlen_nonneg suf'); lia).
    destruct (find_after_split pre suf a Ha Hn) as [[Hf1 Hno]|(p & q & He & Hf1 & Hmin)];
      rewrite Hf1; cbn [bind].
    + change (-1 =? -1) with true. cbn iota. rewrite <- zlen_app, slice_tail. cbn [bind].
      exists suf. split; [reflexivity|]. now apply replaced_none.
    + pose proof (zlen_nonneg pre); pose proof (zlen_nonneg p).
      replace (zlen pre + zlen p =? -1) with false by lia.
      replace (slice (pre ++ suf) (zlen pre) (zlen pre + zlen p)) with (Ok p)
        by (rewrite He; symmetry; apply slice_mid).
      cbn [bind].
      replace (pre ++ suf) with ((pre ++ p ++ a) ++ q) in *
        by (rewrite He, <- !app_assoc; reflexivity).
      replace (zlen pre + zlen p + zlen a) with (zlen (pre ++ p ++ a))
        by (rewrite !zlen_app; lia).
      destruct (IH (pre ++ p ++ a) q ((result ++ p) ++ b)) as (r & Hr & Hrep); auto.
      { apply (f_equal (@length Z)) in He. rewrite !app_length in He.
        unfold zlen in Hla. lia. }
      exists (p ++ b ++ r). split.
      * rewrite Hr. now rewrite <- !app_assoc.
      * rewrite He. apply replaced_one; [|exact Hrep]. intros j Hj. apply Hmin. now rewrite He.
Qed.

Lemma replace_spec s a b :
  a <> [] -> (zlen a = 1 \/ (nul_free s /\ nul_free a)) ->
  exists r, replace s a b = Ok r /\ replaced a b s r.
Proof.
  intros Ha Hn. unfold replace.
  assert (1 <= zlen a) as Hla.
  { destruct a as [|c a]; [congruence|]. rewrite zlen_cons. pose proof (zlen_nonneg a). lia. }
  replace (zlen a =? 0) with false by lia. cbn [orb].
  destruct (Z.ltb_spec (zlen s) (zlen a)) as [H|H].
  - exists s. split; [reflexivity|]. apply replaced_none. intros j Hj.
    apply occurs_at_range in Hj. lia.
  - destruct (replace_loop_spec (S (length s)) a b [] s [] Ha Hn) as (r & Hr & Hrep); [lia|].
    exists r. auto.
Qed.

Lemma replaced_det a b s r1 r2 : a <> [] -> replaced a b s r1 -> replaced a b s r2 -> r1 = r2.
Proof.
  intros Ha H1. revert r2. induction H1 as [s Hno|pre suf r Hmin Hrep IH]; intros r2 H2.
  - inversion H2 as [? ?|pre suf r ? ? He Hr]; subst; auto.
    exfalso. apply (Hno (zlen pre)). now exists pre, suf.
  - remember (pre ++ a ++ suf) as s eqn:Es. destruct H2 as [s Hno|pre2 suf2 r2 Hmin2 Hrep2].
    + exfalso. apply (Hno (zlen pre)). subst. now exists pre, suf.
    + assert (Hl : zlen pre = zlen pre2).
      { apply Z.le_antisymm.
        - apply Hmin. now exists pre2, suf2.
        - apply Hmin2. rewrite Es. now exists pre, suf. }
      apply app_zlen_inj in Es as [-> Es]; [|lia]. apply app_inv_head in Es as ->.
      now rewrite (IH r2 Hrep2).
Qed.

(** ** split and join *)

Lemma join_loop_spec rest sep result i n :
  i + zlen rest = n ->
  join_loop rest i n sep result = result ++ joined sep rest.
Proof.
  revert result i; induction rest as [|x t IH]; intros result i Hi; cbn [join_loop joined].
  - now rewrite app_nil_r.
  - rewrite zlen_cons in Hi. destruct t as [|y t].
    + rewrite zlen_nil in Hi. replace (i <? n - 1) with false by lia. cbn [join_loop].
      reflexivity.
    + rewrite zlen_cons in Hi. pose proof (zlen_nonneg t).
      replace (i <? n - 1) with true by lia. rewrite IH by (rewrite zlen_cons; lia).
      now rewrite <- !app_assoc.
Qed.

Lemma join_spec l sep : join l sep = joined sep l.
Proof.
  unfold join. destruct (Z.eqb_spec (zlen l) 0) as [H|H].
  - apply zlen_0_nil in H as ->. reflexivity.
  - rewrite join_loop_spec by lia. reflexivity.
Qed.

Lemma joined_app sep l f : l <> [] -> joined sep (l ++ [f]) = joined sep l ++ sep ++ f.
Proof.
  induction l as [|x l IH]; intros H; [congruence|].
  destruct l as [|y l].
  - reflexivity.
  - cbn [app joined] in *. rewrite IH by discriminate. now rewrite <- !app_assoc.
Qed.

(** The text produced so far, with the separator after every field. *)
Definition terminated (sep : list Z) (l : list (list Z)) : list Z :=
  flat_map (fun f => f ++ sep) l.

Lemma terminated_app sep l1 l2 : terminated sep (l1 ++ l2) = terminated sep l1 ++ terminated sep l2.
Proof. unfold terminated. now rewrite flat_map_app. Qed.

Lemma terminated_joined sep l f : terminated sep l ++ f = joined sep (l ++ [f]).
Proof.
  induction l as [|x l IH]; [reflexivity|]. cbn [terminated flat_map app].
  fold (terminated sep l). rewrite <- !app_assoc, IH.
  destruct (l ++ [f]) eqn:E; [now destruct l|]. reflexivity.
Qed.

Lemma terminated_joined' sep l : l <> [] -> terminated sep l = joined sep l ++ sep.
Proof.
  induction l as [|x l IH]; intros H; [congruence|]. cbn [terminated flat_map].
  fold (terminated sep l). destruct l as [|y l].
  - cbn. now rewrite app_nil_r.
  - rewrite IH by discriminate. cbn [joined]. now rewrite <- !app_assoc.
Qed.

Lemma split_loop_spec fuel sep pre suf result :
  sep <> [] -> (zlen sep = 1 \/ (nul_free (pre ++ suf) /\ nul_free sep)) ->
  (length suf < fuel)%nat ->
  terminated sep result = pre ->
  Forall (fun f => forall j, ~ occurs_at sep f j) result ->
  exists l, split_loop fuel (pre ++ suf) sep (zlen pre) result = Ok l /\
    Forall (fun f => forall j, ~ occurs_at sep f j) l /\
    (terminated sep l = pre ++ suf \/
     exists l' last, l = l' ++ [last] /\ last <> [] /\ terminated sep l' ++ last = pre ++ suf).
Proof.
  intros Ha. revert pre suf result; induction fuel as [|fuel IH];
    intros pre suf result Hn Hf Ht Hall; [lia|].
  cbn [split_loop]. rewrite zlen_app.
  assert (1 <= zlen sep) as Hla.
  { destruct sep as [|c a]; [congruence|]. rewrite zlen_cons. pose proof (zlen_nonneg a). lia. }
  destruct suf as [|x suf'] eqn:Es.
  - rewrite zlen_nil. replace (zlen pre <? zlen pre + 0) with false by lia.
    exists result. repeat split; auto. left. now rewrite app_nil_r.
  - rewrite <- Es in *. replace (zlen pre <? zlen pre + zlen suf) with true
      by (rewrite Es, zlen_cons; pose proof (zlen_nonneg suf'); lia).
    destruct (find_after_split pre suf sep Ha Hn) as [[Hf1 Hno]|(p & q & He & Hf1 & Hmin)];
      rewrite Hf1; cbn [bind].
    + change (-1 =? -1) with true. cbn iota. rewrite <- zlen_app, slice_tail. cbn [bind].
      exists (result ++ [suf]). split; [reflexivity|]. split.
      * apply Forall_app. split; auto.
      * right. exists result, suf. repeat split; [congruence|now rewrite Ht].
    + pose proof (zlen_nonneg pre); pose proof (zlen_nonneg p).
      replace (zlen pre + zlen p =? -1) with false by lia.
      replace (slice (pre ++ suf) (zlen pre) (zlen pre + zlen p)) with (Ok p)
        by (rewrite He; symmetry; apply slice_mid).
      cbn [bind].
      replace (pre ++ suf) with ((pre ++ p ++ sep) ++ q) in *
        by (rewrite He, <- !app_assoc; reflexivity).
      replace (zlen pre + zlen p + zlen sep) with (zlen (pre ++ p ++ sep))
        by (rewrite !zlen_app; lia).
      apply IH; auto.
      * apply (f_equal (@length Z)) in He. rewrite !app_length in He.
        unfold zlen in Hla. lia.
      * rewrite terminated_app, Ht. cbn. now rewrite app_nil_r.
      * apply Forall_app. split; [assumption|]. constructor; [|constructor].
        intros j (u & v & Hu & Hj).
        assert (zlen p <= j).
        { apply Hmin. subst j. exists u, (v ++ sep ++ q). split; [|reflexivity].
          rewrite He, Hu, <- !app_assoc. reflexivity. }
        apply (f_equal zlen) in Hu. rewrite !zlen_app in Hu. pose proof (zlen_nonneg v). lia.
Qed.

Lemma split_spec s sep :
  sep <> [] -> (zlen sep = 1 \/ (nul_free s /\ nul_free sep)) ->
  exists l, split s sep = Ok l /\
    Forall (fun f => forall j, ~ occurs_at sep f j) l /\
    (s = joined sep l \/ s = joined sep l ++ sep).
Proof.
  intros Ha Hn. unfold split.
  assert (1 <= zlen sep) as Hla.
  { destruct sep as [|c a]; [congruence|]. rewrite zlen_cons. pose proof (zlen_nonneg a). lia. }
  replace (zlen sep =? 0) with false by lia.
  destruct (Z.eqb_spec (zlen s) 0) as [H|H].
  { apply zlen_0_nil in H as ->. exists []. repeat split; auto. }
  destruct (Z.ltb_spec (zlen s) (zlen sep)) as [H2|H2].
  { exists [s]. repeat split; auto. constructor; [|constructor]. intros j Hj.
    apply occurs_at_range in Hj. lia. }
  destruct (split_loop_spec (S (length s)) sep [] s [] Ha Hn) as (l & Hl & Hall & Hd);
    auto; try lia.
  exists l. split; [exact Hl|]. split; [exact Hall|]. cbn [app] in Hd.
  destruct Hd as [Hd|(l' & last & -> & _ & Hd)].
  - destruct l as [|f l].
    + cbn in Hd. subst s. now rewrite zlen_nil in H.
    + right. rewrite <- Hd. apply terminated_joined'. discriminate.
  - left. rewrite <- Hd. apply terminated_joined.
Qed.

(** Splitting on one character inverts joining. *)
Lemma find_char_first pre f x q :
  ~ In x f ->
  find_after (pre ++ f ++ x :: q) [x] (zlen pre) = Ok (zlen pre + zlen f).
Proof.
  intros Hf. destruct (find_after_split pre (f ++ x :: q) [x]) as [[_ Hno]|(p & q' & He & Hfa & Hmin)].
  - discriminate.
  - now left.
  - exfalso. apply (Hno (zlen f)). now exists f, q.
  - rewrite Hfa. f_equal. f_equal.
    assert (zlen p <= zlen f) by (apply Hmin; now exists f, q).
    destruct (Z.eq_dec (zlen p) (zlen f)) as [?|Hd]; [assumption|].
    exfalso. apply Hf. destruct (split_at f (zlen p)) as (f1 & f2 & -> & Hl);
      [pose proof (zlen_nonneg p); lia|].
    rewrite <- app_assoc in He. apply app_zlen_inj in He as [-> He]; [|lia].
    apply in_app_iff. right. destruct f2 as [|y f2].
    + rewrite app_nil_r in Hd. lia.
    + cbn in He. injection He as -> _. now left.
Qed.

Lemma find_char_none pre f x :
  ~ In x f -> find_after (pre ++ f) [x] (zlen pre) = Ok (-1).
Proof.
  intros Hf. destruct (find_after_split pre f [x]) as [[H _]|(p & q & -> & _)].
  - discriminate.
  - now left.
  - exact H.
  - exfalso. apply Hf. rewrite in_app_iff. right. now left.
Qed.

Lemma split_loop_joined fuel x pre l result :
  l <> [] -> Forall (fun f => ~ In x f) l -> last l [] <> [] ->
  (length (joined [x] l) < fuel)%nat ->
  split_loop fuel (pre ++ joined [x] l) [x] (zlen pre) result = Ok (result ++ l).
Proof.
  revert pre l result; induction fuel as [|fuel IH]; intros pre l result Hne Hall Hlast Hf; [lia|].
  destruct l as [|f l]; [congruence|]. inversion Hall as [|? ? Hfx Hall']; subst.
  cbn [split_loop]. rewrite zlen_app. destruct l as [|g l].
  - cbn [joined last] in *. pose proof (zlen_nonneg f).
    assert (0 < zlen f). { destruct f as [|y f]; [congruence|]. rewrite zlen_cons in *. pose proof (zlen_nonneg f). lia. }
    replace (zlen pre <? zlen pre + zlen f) with true by lia.
    rewrite find_char_none by assumption. cbn [bind]. change (-1 =? -1) with true. cbn iota.
    rewrite <- zlen_app, slice_tail. reflexivity.
  - change (joined [x] (f :: g :: l)) with (f ++ x :: joined [x] (g :: l)) in *.
    pose proof (zlen_nonneg f); pose proof (zlen_nonneg pre).
    pose proof (zlen_nonneg (joined [x] (g :: l))).
    rewrite zlen_app, zlen_cons.
    replace (zlen pre <? zlen pre + (zlen f + (1 + zlen (joined [x] (g :: l))))) with true by lia.
    rewrite find_char_first by assumption. cbn [bind].
    replace (zlen pre + zlen f =? -1) with false by lia.
    rewrite slice_mid. cbn [bind]. change (zlen [x]) with 1.
    replace (pre ++ f ++ x :: joined [x] (g :: l)) with ((pre ++ f ++ [x]) ++ joined [x] (g :: l))
      by (rewrite <- !app_assoc; reflexivity).
    replace (zlen pre + zlen f + 1) with (zlen (pre ++ f ++ [x]))
      by (rewrite !zlen_app; change (zlen [x]) with 1; lia).
    rewrite IH; auto.
    + now rewrite <- app_assoc.
    + discriminate.
    + rewrite app_length in Hf. cbn [length] in Hf. lia.
Qed.

Lemma split_joined x l :
  Forall (fun f => ~ In x f) l -> last l [x] <> [] ->
  split (joined [x] l) [x] = Ok l.
Proof.
  intros Hall Hlast. destruct l as [|f l]; [reflexivity|].
  assert (Hlast' : last (f :: l) [] <> []).
  { clear Hall. revert f Hlast. induction l as [|g l IH]; intros f Hlast; [exact Hlast|].
    apply (IH g). exact Hlast. }
  assert (Hpos : 0 < zlen (joined [x] (f :: l))).
  { destruct l as [|g l].
    - cbn in *. destruct f as [|y f]; [congruence|]. rewrite zlen_cons. pose proof (zlen_nonneg f). lia.
    - change (joined [x] (f :: g :: l)) with (f ++ x :: joined [x] (g :: l)).
      rewrite zlen_app, zlen_cons. pose proof (zlen_nonneg f).
      pose proof (zlen_nonneg (joined [x] (g :: l))). lia. }
  unfold split. change (zlen [x]) with 1. change (1 =? 0) with false. cbn iota.
  replace (zlen (joined [x] (f :: l)) =? 0) with false by lia.
  replace (zlen (joined [x] (f :: l)) <? 1) with false by lia.
  pose proof (split_loop_joined (S (length (joined [x] (f :: l)))) x [] (f :: l) []) as H.
  cbn [app] in H. change (zlen (@nil Z)) with 0 in H. rewrite H; auto. discriminate.
Qed.

(** ** Trimming *)

Lemma in_cut_spec cut c : in_cut cut c = true <-> In c cut.
Proof.
  unfold in_cut. rewrite existsb_exists. split.
  - intros (x & Hx & He). apply Z.eqb_eq in He. now subst.
  - intros H. exists c. split; [assumption|apply Z.eqb_refl].
Qed.

Lemma cut_set_spec l : Forall (fun t => t <> []) l ->
  exists cut, cut_set l = Ok cut /\ forall c, In c cut <-> exists t, In (c :: t) l.
Proof.
  induction l as [|s l IH]; intros H; cbn [cut_set].
  - exists []. split; [reflexivity|]. intros c. split; [contradiction|]. intros (t & []).
  - inversion H as [|? ? Hs Hl]; subst. destruct s as [|a s]; [congruence|].
    rewrite at_cons_0. cbn [bind]. destruct (IH Hl) as (cut & -> & Hcut). cbn [bind].
    exists (a :: cut). split; [reflexivity|]. intros c. cbn. rewrite Hcut. split.
    + intros [->|(t & Ht)]; eauto.
    + intros (t & [Ht|Ht]); [left; congruence|right; eauto].
Qed.

Lemma ltrim_loop_spec cut pre rest :
  Forall (fun c => In c cut) pre ->
  exists a b, pre ++ rest = a ++ b /\ ltrim_loop rest (pre ++ rest) cut (zlen pre) = Ok b /\
    Forall (fun c => In c cut) a /\ (forall c t, b = c :: t -> ~ In c cut).
Proof.
  revert pre; induction rest as [|c rest IH]; intros pre Hpre; cbn [ltrim_loop].
  - exists pre, []. repeat split; auto. discriminate.
  - destruct (in_cut cut c) eqn:E; cbn [negb].
    + destruct (IH (pre ++ [c])) as (a & b & He & Hl & Ha & Hb).
      { apply Forall_app. split; [assumption|]. constructor; [now apply in_cut_spec|constructor]. }
      rewrite <- app_assoc in He, Hl. cbn [app] in He, Hl.
      rewrite zlen_app in Hl. change (zlen [c]) with 1 in Hl.
      exists a, b. auto.
    + exists pre, (c :: rest). repeat split; auto.
      * apply slice_tail.
      * intros c' t [= <- <-] Hin. apply in_cut_spec in Hin. congruence.
Qed.

Lemma ltrim_spec s l : Forall (fun t => t <> []) l ->
  exists a b, ltrim s l = Ok b /\ s = a ++ b /\
    Forall (fun c => exists t, In (c :: t) l) a /\
    (forall c r, b = c :: r -> ~ exists t, In (c :: t) l).
Proof.
  intros Hl. destruct (cut_set_spec l Hl) as (cut & Hc & Hcut).
  unfold ltrim. rewrite Hc. cbn [bind].
  destruct (ltrim_loop_spec cut [] s (Forall_nil _)) as (a & b & He & Hr & Ha & Hb).
  exists a, b. repeat split; auto.
  - eapply Forall_impl; [|exact Ha]. intros c. apply Hcut.
  - intros c r Hbc. rewrite <- Hcut. now apply (Hb c r).
Qed.

Lemma rtrim_loop_spec cut fuel pre suf :
  Forall (fun c => In c cut) suf -> (length pre < fuel)%nat ->
  exists a b, pre ++ suf = a ++ b /\ rtrim_loop fuel (pre ++ suf) cut (zlen pre - 1) = Ok a /\
    Forall (fun c => In c cut) b /\ (forall c t, a = t ++ [c] -> ~ In c cut).
Proof.
  revert pre suf; induction fuel as [|fuel IH]; intros pre suf Hsuf Hf; [lia|].
  cbn [rtrim_loop].
  destruct pre as [|z pre'] eqn:Ep.
  - rewrite zlen_nil. replace (0 <=? 0 - 1) with false by lia. exists [], suf.
    repeat split; auto. intros c t H. now destruct t.
  - destruct (@exists_last _ (z :: pre')) as (p & c & Hp); [discriminate|].
    rewrite Hp in *. clear Ep Hp. rewrite zlen_app. change (zlen [c]) with 1.
    replace (zlen p + 1 - 1) with (zlen p) by lia. pose proof (zlen_nonneg p).
    replace (0 <=? zlen p) with true by lia.
    rewrite <- app_assoc. cbn [app]. rewrite at_app_mid. cbn [bind].
    destruct (in_cut cut c) eqn:E; cbn [negb].
    + destruct (IH p (c :: suf)) as (a & b & He & Hr & Hb & Ha).
      * constructor; [now apply in_cut_spec|assumption].
      * rewrite app_length in Hf. cbn in Hf. lia.
      * exists a, b. auto.
    + exists (p ++ [c]), suf. repeat split; auto.
      * now rewrite <- app_assoc.
      * replace (zlen p + 1) with (zlen (p ++ [c])) by (rewrite zlen_app; reflexivity).
        replace (p ++ c :: suf) with ((p ++ [c]) ++ suf) by (now rewrite <- app_assoc).
        apply slice_head.
      * intros c' t Heq Hin. apply app_inj_tail in Heq as [_ ->].
        apply in_cut_spec in Hin. congruence.
Qed.

Lemma rtrim_spec s l : Forall (fun t => t <> []) l ->
  exists a b, rtrim s l = Ok a /\ s = a ++ b /\
    Forall (fun c => exists t, In (c :: t) l) b /\
    (forall c r, a = r ++ [c] -> ~ exists t, In (c :: t) l).
Proof.
  intros Hl. destruct (cut_set_spec l Hl) as (cut & Hc & Hcut).
  unfold rtrim. rewrite Hc. cbn [bind].
  destruct (rtrim_loop_spec cut (S (length s)) s [] (Forall_nil _)) as (a & b & He & Hr & Hb & Ha);
    [lia|].
  rewrite app_nil_r in *.
  exists a, b. repeat split; auto.
  - eapply Forall_impl; [|exact Hb]. intros c. apply Hcut.
  - intros c r Hbc. rewrite <- Hcut. now apply (Ha c r).
Qed.

Lemma trim_spec s l : Forall (fun t => t <> []) l ->
  exists a m b, trim s l = Ok m /\ s = a ++ m ++ b /\
    Forall (fun c => exists t, In (c :: t) l) a /\ Forall (fun c => exists t, In (c :: t) l) b /\
    (forall c r, m = c :: r -> ~ exists t, In (c :: t) l) /\
    (forall c r, m = r ++ [c] -> ~ exists t, In (c :: t) l).
Proof.
  intros Hl. destruct (ltrim_spec s l Hl) as (a & b & H1 & H2 & H3 & H4).
  destruct (rtrim_spec b l Hl) as (m & d & H5 & H6 & H7 & H8).
  exists a, m, d. unfold trim. rewrite H1. cbn [bind]. subst. repeat split; auto.
  intros c r ->. now apply (H4 c (r ++ d)).
Qed.

(** ** Case and reversal *)

Lemma to_lower_pointwise s i c : nth_error s i = Some c ->
  exists d, nth_error (to_lower s) i = Some d /\
    (upper_ascii c -> d = c + 32) /\ (~ upper_ascii c -> d = c).
Proof.
  intros H. unfold to_lower. rewrite nth_error_map, H. cbn [option_map].
  eexists; split; [reflexivity|]. unfold upper_ascii, u8.
  destruct ((65 <=? c) && (c <=? 90)) eqn:E; split; intros; try lia.
Qed.

Lemma to_upper_pointwise s i c : nth_error s i = Some c ->
  exists d, nth_error (to_upper s) i = Some d /\
    (lower_ascii c -> d = c - 32) /\ (~ lower_ascii c -> d = c).
Proof.
  intros H. unfold to_upper. rewrite nth_error_map, H. cbn [option_map].
  eexists; split; [reflexivity|]. unfold lower_ascii, u8.
  destruct ((97 <=? c) && (c <=? 122)) eqn:E; split; intros; try lia.
Qed.

Lemma to_lower_length s : length (to_lower s) = length s.
Proof. apply map_length. Qed.
Lemma to_upper_length s : length (to_upper s) = length s.
Proof. apply map_length. Qed.

Lemma to_lower_idem s : to_lower (to_lower s) = to_lower s.
Proof.
  unfold to_lower. rewrite map_map. apply map_ext. intros c. unfold u8.
  destruct ((65 <=? c) && (c <=? 90)) eqn:E.
  - rewrite Z.mod_small by lia.
    destruct ((65 <=? c + (97 - 65)) && (c + (97 - 65) <=? 90)) eqn:E2; lia.
  - now rewrite E.
Qed.

Lemma to_upper_idem s : to_upper (to_upper s) = to_upper s.
Proof.
  unfold to_upper. rewrite map_map. apply map_ext. intros c. unfold u8.
  destruct ((97 <=? c) && (c <=? 122)) eqn:E.
  - rewrite Z.mod_small by lia.
    destruct ((97 <=? c - (97 - 65)) && (c - (97 - 65) <=? 122)) eqn:E2; lia.
  - now rewrite E.
Qed.

Lemma reverse_loop_spec rest done :
  reverse_loop rest (zlen done) (zlen done + zlen rest)
     (repeat 0 (length rest) ++ rev done) = Ok (rev rest ++ rev done).
Proof.
  revert done; induction rest as [|c rest IH]; intros done; cbn [reverse_loop].
  - reflexivity.
  - rewrite zlen_cons. cbn [length]. replace (S (length rest)) with (length rest + 1)%nat by lia.
    rewrite repeat_app. cbn [repeat]. rewrite <- app_assoc. cbn [app].
    replace (zlen done + (1 + zlen rest) - 1 - zlen done) with (zlen (repeat 0 (length rest)))
      by (unfold zlen; rewrite repeat_length; lia).
    rewrite set_at_mid. cbn [bind].
    specialize (IH (done ++ [c])). rewrite rev_app_distr in IH. cbn [rev app] in IH.
    rewrite zlen_app in IH. change (zlen [c]) with 1 in IH.
    replace (zlen done + (1 + zlen rest)) with (zlen done + 1 + zlen rest) by lia.
    rewrite IH. cbn [rev]. now rewrite <- app_assoc.
Qed.

Lemma reverse_spec s : reverse s = Ok (rev s).
Proof.
  unfold reverse. pose proof (reverse_loop_spec s []) as H. cbn [rev] in H.
  rewrite !app_nil_r in H. exact H.
Qed.

(** ** to_int *)

Lemma dec_value_acc ds a :
  fold_left (fun a d => 10 * a + (d - 48)) ds a = a * 10 ^ zlen ds + dec_value ds.
Proof.
  unfold dec_value. revert a; induction ds as [|d ds IH]; intros a; cbn [fold_left].
  - rewrite zlen_nil. lia.
  - rewrite IH. rewrite (IH (10 * 0 + (d - 48))). rewrite zlen_cons.
    rewrite Z.pow_add_r by (pose proof (zlen_nonneg ds); lia). lia.
Qed.

Lemma dec_value_snoc ds d : dec_value (ds ++ [d]) = 10 * dec_value ds + (d - 48).
Proof. unfold dec_value. now rewrite fold_left_app. Qed.

Lemma dec_value_nonneg ds : Forall is_digit ds -> 0 <= dec_value ds.
Proof.
  induction ds as [|d ds IH] using rev_ind; intros H; [cbn; lia|].
  apply Forall_app in H as [H1 H2]. inversion H2 as [|? ? H3 _]; subst.
  rewrite dec_value_snoc. unfold is_digit in H3. specialize (IH H1). lia.
Qed.

Lemma dec_value_mono ds es : Forall is_digit ds -> Forall is_digit es ->
  dec_value ds <= dec_value (ds ++ es).
Proof.
  intros Hd. induction es as [|e es IH] using rev_ind; intros He; [rewrite app_nil_r; lia|].
  apply Forall_app in He as [H1 H2]. inversion H2 as [|? ? H3 _]; subst.
  rewrite app_assoc, dec_value_snoc. unfold is_digit in H3. specialize (IH H1).
  pose proof (dec_value_nonneg ds Hd). lia.
Qed.

Lemma skip_blanks_spec fuel self start pre suf :
  self = pre ++ suf -> (length suf < fuel)%nat ->
  (Forall (fun c => c = 32) suf /\ skip_blanks fuel self start (zlen pre) = Ok start) \/
  (exists sp c r, suf = sp ++ c :: r /\ Forall (fun c => c = 32) sp /\ c <> 32 /\
     skip_blanks fuel self start (zlen pre) = Ok (zlen pre + zlen sp)).
Proof.
  revert pre suf; induction fuel as [|fuel IH]; intros pre suf -> Hf; [lia|].
  cbn [skip_blanks]. rewrite zlen_app. destruct suf as [|c suf].
  - rewrite zlen_nil. replace (zlen pre <? zlen pre + 0) with false by lia. left; auto.
  - rewrite zlen_cons. pose proof (zlen_nonneg suf).
    replace (zlen pre <? zlen pre + (1 + zlen suf)) with true by lia.
    rewrite at_app_mid. cbn [bind]. destruct (Z.eqb_spec c 32) as [->|Hc]; cbn [negb].
    + destruct (IH (pre ++ [32]) suf) as [[Ha Hb]|(sp & d & r & He & Hsp & Hd & Hr)].
      * now rewrite <- app_assoc.
      * cbn in Hf. lia.
      * left. split; [constructor; auto|]. rewrite zlen_app in Hb. exact Hb.
      * right. exists (32 :: sp), d, r. rewrite He. repeat split; auto.
        rewrite zlen_app in Hr. change (zlen [32]) with 1 in Hr. rewrite <- He, Hr.
        f_equal. rewrite zlen_cons. lia.
    + right. exists [], c, suf. repeat split; auto. f_equal. rewrite zlen_nil. lia.
Qed.

Lemma digits_loop_spec fuel self pre ds rest :
  self = pre ++ ds ++ rest -> Forall is_digit ds ->
  (length rest < fuel)%nat ->
  (Forall is_digit rest /\
     digits_loop fuel self (zlen pre + zlen ds) (dec_value ds) =
       (if (dec_value (ds ++ rest) <=? 2147483649) || (match rest with [] => true | _ => false end)
        then Ok (dec_value (ds ++ rest)) else Throw)) \/
  (~ Forall is_digit rest /\ digits_loop fuel self (zlen pre + zlen ds) (dec_value ds) = Throw).
Proof.
  revert ds rest; induction fuel as [|fuel IH]; intros ds rest -> Hds Hf; [lia|].
  cbn [digits_loop]. rewrite !zlen_app. destruct rest as [|c rest].
  - rewrite zlen_nil. replace (zlen pre + zlen ds <? zlen pre + (zlen ds + 0)) with false by lia.
    left. split; [constructor|]. rewrite app_nil_r, orb_true_r. reflexivity.
  - rewrite zlen_cons. pose proof (zlen_nonneg rest).
    replace (zlen pre + zlen ds <? zlen pre + (zlen ds + (1 + zlen rest))) with true by lia.
    replace (at_ (pre ++ ds ++ c :: rest) (zlen pre + zlen ds)) with (Ok c)
      by (rewrite <- zlen_app, app_assoc; symmetry; apply at_app_mid).
    cbn [bind]. destruct ((c <? 48) || (57 <? c)) eqn:Ec.
    + right. split; [|reflexivity]. intros HF. inversion HF as [|? ? Hc _]; subst.
      unfold is_digit in Hc. lia.
    + assert (Hc : is_digit c) by (unfold is_digit; lia).
      change (2147483647 / 10) with 214748364.
      destruct (Z.ltb_spec 214748364 (dec_value ds)) as [Hbig|Hsmall].
      * destruct (Forall_dec is_digit) with (l := rest) as [Hr|Hr].
        { intros x. unfold is_digit. destruct (Z_le_dec 48 x), (Z_le_dec x 57); [left|right..]; lia. }
        -- left. split; [constructor; auto|].
           assert (dec_value (ds ++ [c]) <= dec_value ((ds ++ [c]) ++ rest)) as Hm.
           { apply dec_value_mono; auto. apply Forall_app; auto. }
           rewrite <- app_assoc in Hm. cbn [app] in Hm. rewrite dec_value_snoc in Hm.
           unfold is_digit in Hc.
           replace (dec_value (ds ++ c :: rest) <=? 2147483649) with false by lia. reflexivity.
        -- right. split; [|reflexivity]. intros HF. inversion HF; subst. tauto.
      * specialize (IH (ds ++ [c]) rest). rewrite <- !app_assoc in IH. cbn [app] in IH.
        rewrite zlen_app in IH. change (zlen [c]) with 1 in IH.
        rewrite dec_value_snoc in IH.
        replace (zlen pre + zlen ds + 1) with (zlen pre + (zlen ds + 1)) by lia.
        replace (dec_value ds * 10 + (c - 48)) with (10 * dec_value ds + (c - 48)) by lia.
        destruct IH as [[Hr IH]|[Hr IH]]; [reflexivity|apply Forall_app; auto|cbn in Hf; lia| |].
        -- left. split; [constructor; auto|]. rewrite IH.
           destruct rest as [|e rest]; [|reflexivity].
           rewrite orb_true_r, orb_false_r. rewrite dec_value_snoc.
           unfold is_digit in Hc.
           replace (10 * dec_value ds + (c - 48) <=? 2147483649) with true by lia. reflexivity.
        -- right. split; [|exact IH]. intros HF. inversion HF; subst. tauto.
Qed.

Lemma int_text_nonempty s n : int_text s n -> s <> [].
Proof.
  intros (sg & sp & ds & -> & _ & _ & Hne & _) H. apply Hne.
  apply app_eq_nil in H as [_ H]. now apply app_eq_nil in H as [_ H].
Qed.

Lemma blanks_digits_unique sp ds sp' c r :
  Forall (fun x => x = 32) sp -> Forall is_digit ds -> ds <> [] ->
  sp ++ ds = sp' ++ c :: r -> Forall (fun x => x = 32) sp' -> c <> 32 -> sp = sp' /\ ds = c :: r.
Proof.
  intros Hsp Hds Hne. revert sp'; induction sp as [|x sp IH]; intros sp' He Hsp' Hc.
  - destruct sp' as [|y sp']; [auto|]. cbn in He. subst ds.
    inversion Hds as [|? ? Hd _]; subst. inversion Hsp'; subst. unfold is_digit in Hd. lia.
  - inversion Hsp as [|? ? Hx Hsp2]; subst. destruct sp' as [|y sp'].
    + cbn in He. congruence.
    + cbn in He. injection He as He1 He. inversion Hsp'; subst.
      destruct (IH Hsp2 sp' He) as [-> ->]; auto.
Qed.

(** Tail of to_int, from the first position after the sign. *)
Lemma to_int_tail self pre suf :
  self = pre ++ suf ->
  let r := (start <- skip_blanks (S (length self)) self (zlen pre) (zlen pre) ;;
            digits_loop (S (length self)) self start 0) in
  (exists sp ds, suf = sp ++ ds /\ Forall (fun c => c = 32) sp /\ ds <> [] /\ Forall is_digit ds /\
     r = if dec_value ds <=? 2147483649 then Ok (dec_value ds) else Throw) \/
  ((~ exists sp ds, suf = sp ++ ds /\ Forall (fun c => c = 32) sp /\ ds <> [] /\ Forall is_digit ds) /\
     (r = Throw \/ (suf = [] /\ r = Ok 0))).
Proof.
  intros He r. subst r.
  destruct (skip_blanks_spec (S (length self)) self (zlen pre) pre suf He)
    as [[Hall Hr]|(sp & c & q & Hq & Hsp & Hc & Hr)].
  { subst self. rewrite app_length. lia. }
  - rewrite Hr. cbn [bind]. right. split.
    + intros (sp & ds & Hs & Hsp & Hne & Hds). destruct ds as [|d ds]; [congruence|].
      subst suf. apply Forall_app in Hall as [_ Hall]. inversion Hall; subst.
      inversion Hds as [|? ? Hd _]; subst. unfold is_digit in Hd. lia.
    + pose proof (digits_loop_spec (S (length self)) self pre [] suf) as H.
      cbn [app] in H. rewrite zlen_nil in H. change (dec_value []) with 0 in H.
      replace (zlen pre + 0) with (zlen pre) in H by lia.
      destruct H as [[Hd H]|[_ H]]; auto.
      { subst self. rewrite app_length. lia. }
      destruct suf as [|c suf]; [right; auto|].
      inversion Hall; subst. inversion Hd as [|? ? Hd1 _]; subst. unfold is_digit in Hd1. lia.
  - rewrite Hr. cbn [bind].
    pose proof (digits_loop_spec (S (length self)) self (pre ++ sp) [] (c :: q)) as H.
    cbn [app] in H. rewrite zlen_nil, zlen_app in H. change (dec_value []) with 0 in H.
    replace (zlen pre + zlen sp + 0) with (zlen pre + zlen sp) in H by lia.
    destruct H as [[Hd H]|[Hnd H]].
    + subst self suf. now rewrite <- app_assoc.
    + constructor.
    + subst self suf. rewrite !app_length. lia.
    + left. exists sp, (c :: q). repeat split; auto; [discriminate|].
      rewrite H. now rewrite orb_false_r.
    + right. split; [|left; exact H]. intros (sp' & ds & Hs & Hsp' & Hne & Hds).
      rewrite Hs in Hq. destruct (blanks_digits_unique _ _ _ _ _ Hsp' Hds Hne Hq Hsp Hc) as [-> ->].
      tauto.
Qed.

Lemma bind_assoc {A B C} (x : res A) (f : A -> res B) (g : B -> res C) :
  (b <- (a <- x ;; f a) ;; g b) = (a <- x ;; b <- f a ;; g b).
Proof. now destruct x. Qed.

Lemma to_int_spec s :
  (exists n, int_text s n /\ Z.abs n <= 2147483649 /\ to_int s = Ok n) \/
  ((~ exists n, int_text s n /\ Z.abs n <= 2147483649) /\ to_int s = Throw).
Proof.
  unfold to_int. destruct s as [|c0 s0].
  { right. split; [|reflexivity]. intros (n & H & _). now apply int_text_nonempty in H. }
  rewrite zlen_cons. pose proof (zlen_nonneg s0).
  replace (1 + zlen s0 =? 0) with false by lia. rewrite at_cons_0. cbn [bind].
  destruct (Z.eqb_spec c0 45) as [->|Hc0]; cbn [andb].
  - (* a leading minus sign: every reading of s as a number takes it as the sign *)
    assert (Hsign : forall n, int_text (45 :: s0) n ->
              exists sp ds, s0 = sp ++ ds /\ Forall (fun c => c = 32) sp /\ ds <> [] /\
                            Forall is_digit ds /\ n = - dec_value ds).
    { intros n (sg & sp & ds & He & Hsg & Hsp & Hne & Hds & Hn).
      destruct Hsg as [->| ->]; cbn in He.
      - destruct sp as [|x sp].
        + cbn in He. subst ds. inversion Hds as [|? ? Hd _]; subst. unfold is_digit in Hd. lia.
        + cbn in He. injection He as <- He. inversion Hsp; discriminate.
      - injection He as He. exists sp, ds. auto. }
    destruct (Z.eqb_spec (1 + zlen s0) 1) as [H1|H1].
    + assert (s0 = []) as -> by (apply zlen_0_nil; lia). right. split; [|reflexivity].
      intros (n & Hn & _). apply Hsign in Hn as (sp & ds & He & _ & Hne & _).
      symmetry in He. apply app_eq_nil in He as [_ ->]. congruence.
    + rewrite <- bind_assoc.
      destruct (to_int_tail (45 :: s0) [45] s0 eq_refl)
        as [(sp & ds & He & Hsp & Hne & Hds & Hr)|(Hno & Hr)];
        change (zlen [45]) with 1 in Hr.
      * rewrite Hr. pose proof (dec_value_nonneg ds Hds) as Hnn.
        destruct (Z.leb_spec (dec_value ds) 2147483649) as [Hle|Hgt]; cbn [bind].
        -- left. exists (- dec_value ds). split; [|split; [lia|reflexivity]].
           exists [45], sp, ds. subst s0. repeat split; auto.
        -- right. split; [|reflexivity]. intros (n & Hn & Habs).
           apply Hsign in Hn as (sp' & ds' & He' & Hsp' & Hne' & Hds' & ->).
           destruct ds as [|d ds]; [congruence|]. rewrite He in He'.
           destruct (blanks_digits_unique sp' ds' sp d ds) as [_ ->]; auto.
           { inversion Hds as [|? ? Hd _]; subst. unfold is_digit in Hd. lia. }
           lia.
      * destruct Hr as [Hr|[-> _]]; [|rewrite zlen_nil in H1; lia].
        rewrite Hr. right. split; [|reflexivity]. intros (n & Hn & _). apply Hno.
        apply Hsign in Hn as (sp & ds & Hx). exists sp, ds. tauto.
  - assert (Hsign : forall n, int_text (c0 :: s0) n ->
              exists sp ds, c0 :: s0 = sp ++ ds /\ Forall (fun c => c = 32) sp /\ ds <> [] /\
                            Forall is_digit ds /\ n = dec_value ds).
    { intros n (sg & sp & ds & He & Hsg & Hsp & Hne & Hds & Hn).
      destruct Hsg as [->| ->]; cbn in He.
      - exists sp, ds. auto.
      - congruence. }
    rewrite <- bind_assoc.
    destruct (to_int_tail (c0 :: s0) [] (c0 :: s0) eq_refl)
        as [(sp & ds & He & Hsp & Hne & Hds & Hr)|(Hno & Hr)];
        change (zlen (@nil Z)) with 0 in Hr.
    + rewrite Hr. pose proof (dec_value_nonneg ds Hds) as Hnn.
      destruct (Z.leb_spec (dec_value ds) 2147483649) as [Hle|Hgt]; cbn [bind].
      * left. exists (dec_value ds). split; [|split; [lia|reflexivity]].
        exists [], sp, ds. rewrite He. repeat split; auto.
      * right. split; [|reflexivity]. intros (n & Hn & Habs).
        apply Hsign in Hn as (sp' & ds' & He' & Hsp' & Hne' & Hds' & ->).
        destruct ds as [|d ds]; [congruence|]. rewrite He in He'.
        destruct (blanks_digits_unique sp' ds' sp d ds) as [_ ->]; auto.
        { inversion Hds as [|? ? Hd _]; subst. unfold is_digit in Hd. lia. }
        lia.
    + destruct Hr as [Hr|[? _]]; [|discriminate].
      rewrite Hr. right. split; [|reflexivity]. intros (n & Hn & _). apply Hno.
      apply Hsign in Hn as (sp & ds & Hx). exists sp, ds. tauto.
Qed.
