From Verif Require Import Base Base_lemmas.
From Verif Require Import Strings_model Strings_spec Strings_proof Path_model Path_spec.

Lemma str_eq_spec a b : str_eq a b = true <-> a = b.
Proof.
  revert b. induction a as [|x a IH]; intros [|y b]; cbn [str_eq]; try (split; congruence).
  rewrite andb_true_iff, Z.eqb_eq, IH. split; [intros [-> ->]; reflexivity | intros H; injection H as -> ->; auto].
Qed.

Lemma str_eq_neq a b : a <> b -> str_eq a b = false.
Proof. intros H. destruct (str_eq a b) eqn:E; [|reflexivity]. now apply str_eq_spec in E. Qed.

Lemma pieces_nonempty p : pieces p <> [].
Proof. destruct p as [|c p]; cbn [pieces]; [discriminate|]. destruct (c =? 47); [discriminate|]. destruct (pieces p); discriminate. Qed.

Lemma pieces_slash a b : pieces (a ++ 47 :: b) = pieces a ++ pieces b.
Proof.
  induction a as [|c a IH]; cbn [app pieces].
  - reflexivity.
  - rewrite IH. destruct (c =? 47); [reflexivity|].
    pose proof (pieces_nonempty a). destruct (pieces a); [congruence|reflexivity].
Qed.

Lemma names_slash a b : names (a ++ 47 :: b) = names a ++ names b.
Proof. unfold names. now rewrite pieces_slash, filter_app. Qed.

Lemma names_cons_slash b : names (47 :: b) = names b.
Proof. change (47 :: b) with ([] ++ 47 :: b). now rewrite names_slash. Qed.

Lemma names_end_slash a : names (a ++ [47]) = names a.
Proof. rewrite names_slash. change (names []) with (@nil (list Z)). apply app_nil_r. Qed.

Lemma pieces_flat s : ~ In 47 s -> pieces s = [s].
Proof.
  induction s as [|c s IH]; intros H; [reflexivity|]. cbn [pieces].
  destruct (Z.eqb_spec c 47) as [->|N]; [cbn in H; tauto|]. rewrite IH; [reflexivity|]. cbn in H. tauto.
Qed.

Lemma absolute_app a b : a <> [] -> absolute (a ++ b) = absolute a.
Proof. destruct a; [congruence|reflexivity]. Qed.

Lemma push_loop_spec fuel dst pre suf : (length suf < fuel)%nat ->
  push_loop fuel dst (pre ++ suf) (zlen pre) = Ok (dst ++ suf).
Proof.
  revert dst pre suf. induction fuel as [|f IH]; intros dst pre suf H; [lia|]. cbn [push_loop].
  destruct suf as [|c suf].
  - rewrite !app_nil_r. replace (zlen pre <? zlen pre) with false by lia. reflexivity.
  - rewrite zlen_app, zlen_cons. pose proof (zlen_nonneg suf).
    destruct (Z.ltb_spec (zlen pre) (zlen pre + (1 + zlen suf))); [|lia].
    rewrite at_app_mid. cbn [bind].
    change (pre ++ c :: suf) with (pre ++ [c] ++ suf). rewrite app_assoc.
    replace (zlen pre + 1) with (zlen (pre ++ [c])) by (rewrite zlen_app; reflexivity).
    rewrite IH by (cbn [length] in H; lia). now rewrite <- app_assoc.
Qed.

Lemma snoc_cases {A} (l : list A) : l = [] \/ exists r x, l = r ++ [x].
Proof. destruct l using rev_ind; eauto. Qed.

(** ** join *)
Lemma strip_spec dst : dst <> [] ->
  exists last d, at_ dst (zlen dst - 1) = Ok last /\
    (if last =? 47 then slice dst 0 (zlen dst - 1) else Ok dst) = Ok d /\
    ((d = [] /\ dst = [47]) \/ (d <> [] /\ names d = names dst /\ absolute d = absolute dst)).
Proof.
  intros H. destruct (snoc_cases dst) as [->|(r & x & ->)]; [congruence|].
  exists x. replace (zlen (r ++ [x]) - 1) with (zlen r) by (rewrite zlen_app, zlen_cons, zlen_nil; lia).
  rewrite at_app_mid. destruct (Z.eqb_spec x 47) as [->|N].
  - exists r. rewrite slice_head. split; [reflexivity|]. split; [reflexivity|].
    destruct r as [|c r]; [left; auto|right]. split; [discriminate|]. now rewrite names_end_slash.
  - exists (r ++ [x]). repeat split. right. auto.
Qed.

Lemma join1_spec dst src : exists r, join1 dst src = Ok r /\ place r = follow (place dst) src.
Proof.
  unfold join1. destruct (Z.eqb_spec (zlen src) 0) as [E|E].
  { apply zlen_0_nil in E. subst src. exists dst. split; [reflexivity|].
    unfold follow, place. cbn [absolute]. change (names []) with (@nil (list Z)). now rewrite app_nil_r. }
  destruct src as [|c src]; [cbn in E; lia|]. clear E.
  destruct (Z.eqb_spec (zlen dst) 0) as [E|E].
  { apply zlen_0_nil in E. subst dst. eexists. split; [reflexivity|].
    unfold follow, place. cbn [absolute fst snd app]. destruct (Z.eqb_spec c 47); reflexivity. }
  assert (Hd : dst <> []) by (intros ->; cbn in E; lia).
  destruct (str_eq (c :: src) [46]) eqn:Es.
  { apply str_eq_spec in Es. rewrite Es. exists dst. split; [reflexivity|].
    unfold follow, place. cbn [absolute]. change (46 =? 47) with false.
    change (names [46]) with (@nil (list Z)). now rewrite app_nil_r. }
  rewrite at_cons_0. cbn [bind]. destruct (Z.eqb_spec c 47) as [->|N].
  { eexists. split; [reflexivity|]. unfold follow, place. cbn [absolute]. reflexivity. }
  destruct (strip_spec dst Hd) as (last & d & H1 & H2 & H3). rewrite H1. cbn [bind]. rewrite H2. cbn [bind].
  assert (F : follow (place dst) (c :: src) = (absolute dst, names dst ++ names (c :: src))).
  { unfold follow, place. cbn [absolute]. destruct (Z.eqb_spec c 47); [congruence|reflexivity]. }
  rewrite F.
  assert (P : forall tl, place (d ++ 47 :: tl) = (absolute dst, names dst ++ names tl)).
  { intros tl. unfold place. rewrite names_slash. destruct H3 as [[-> ->]|(Hn & -> & <-)]; [reflexivity|].
    now rewrite absolute_app. }
  destruct (Z.eqb_spec c 46) as [->|N2]; cbn [bind].
  - destruct src as [|c1 src]; [discriminate|]. rewrite at_cons_1. cbn [bind].
    destruct (Z.eqb_spec c1 47) as [->|N3].
    + change (46 :: 47 :: src) with ([46] ++ 47 :: src).
      rewrite (push_loop_spec _ d [46]) by (cbn [app length]; lia). eexists. split; [reflexivity|]. rewrite P.
      rewrite names_slash. reflexivity.
    + eexists. split; [reflexivity|]. apply P.
  - eexists. split; [reflexivity|]. apply P.
Qed.

Lemma join_spec dst l : exists r, join dst l = Ok r /\ place r = fold_left follow l (place dst).
Proof.
  revert dst. induction l as [|s l IH]; intros dst; cbn [join fold_left].
  - eauto.
  - destruct (join1_spec dst s) as (r & E & Hp). rewrite E. cbn [bind].
    destruct (IH r) as (r' & E' & Hp'). exists r'. split; [assumption|]. now rewrite Hp', Hp.
Qed.

(** ** base and dir *)
Lemma last_slash_cases s : exists i, rfind s [47] = Ok i /\
  ((i = -1 /\ ~ In 47 s) \/
   (exists a b, s = a ++ 47 :: b /\ ~ In 47 b /\ i = zlen a)).
Proof.
  destruct (rfind_spec s [47]) as (i & E & H); [discriminate|]. exists i. split; [assumption|].
  destruct H as [[(a & b & -> & Ha) Hm]|[-> Hn]].
  - right. exists a, b. cbn [app]. repeat split; auto. intros Hin.
    apply in_split in Hin as (b1 & b2 & ->).
    specialize (Hm (zlen (a ++ 47 :: b1))).
    rewrite zlen_app, zlen_cons in Hm. pose proof (zlen_nonneg b1).
    assert (zlen a + (1 + zlen b1) <= i); [|lia]. apply Hm.
    exists (a ++ 47 :: b1), b2. split; [now rewrite <- app_assoc|]. rewrite zlen_app, zlen_cons. lia.
  - left. split; [reflexivity|]. intros Hin. apply in_split in Hin as (b1 & b2 & ->).
    apply (Hn (zlen b1)). exists b1, b2. auto.
Qed.

Lemma rtrim_slash s : exists a b, rtrim s [[47]] = Ok a /\ s = a ++ b /\ slashes b /\
  (forall r, a <> r ++ [47]).
Proof.
  destruct (rtrim_spec s [[47]]) as (a & b & H1 & H2 & H3 & H4).
  { repeat constructor. discriminate. }
  exists a, b. repeat split; auto.
  - unfold slashes. eapply Forall_impl; [|exact H3]. cbn. intros c (t & [E|[]]). congruence.
  - intros r ->. apply (H4 47 r eq_refl). exists []. now left.
Qed.

(** p = pre ++ b ++ trailing slashes with b the last name *)
Lemma base_spec p : exists b, base p = Ok b /\
  ((p = [] /\ b = [46]) \/ (p <> [] /\ slashes p /\ b = [47]) \/
   (exists pre tail, p = pre ++ b ++ tail /\ slashes tail /\ b <> [] /\ ~ In 47 b /\
      (pre = [] \/ exists q, pre = q ++ [47]))).
Proof.
  unfold base. destruct p as [|c p0].
  { exists [46]. split; [reflexivity|]. auto. }
  set (p := c :: p0). assert (Hp : p <> []) by discriminate.
  rewrite str_eq_neq by assumption.
  destruct (rtrim_slash p) as (a & t & H1 & H2 & H3 & H4). rewrite H1. cbn [bind].
  destruct (str_eq a []) eqn:E.
  - apply str_eq_spec in E. subst a. exists [47]. split; [reflexivity|]. right. left.
    repeat split; auto. rewrite H2. exact H3.
  - assert (Ha : a <> []) by (intros ->; discriminate).
    destruct (last_slash_cases a) as (i & Ei & [[-> Hn]|(u & b & -> & Hn & ->)]); rewrite Ei; cbn [bind].
    + exists a. split; [reflexivity|]. right. right. exists [], t. cbn [app]. repeat split; auto.
    + pose proof (zlen_nonneg u). destruct (Z.eqb_spec (zlen u) (-1)); [lia|].
      change (u ++ 47 :: b) with (u ++ [47] ++ b) in *. rewrite app_assoc in *.
      replace (zlen u + 1) with (zlen (u ++ [47])) by (rewrite zlen_app; reflexivity).
      rewrite slice_tail. exists b. split; [reflexivity|]. right. right.
      exists (u ++ [47]), t. rewrite H2, <- !app_assoc. repeat split; auto.
      * intros ->. rewrite app_nil_r in H4. now apply (H4 u).
      * right. eauto.
Qed.

Lemma dir_trailing p : exists d, dir (p ++ [47]) = Ok d /\ same_path d (p ++ [47]).
Proof.
  unfold dir. rewrite str_eq_neq by (now destruct p).
  destruct p as [|c p].
  { exists [47]. split; [reflexivity|]. split; reflexivity. }
  set (q := c :: p). rewrite str_eq_neq by (subst q; now destruct p).
  replace (zlen (q ++ [47]) - 1) with (zlen q) by (rewrite zlen_app, zlen_cons, zlen_nil; lia).
  rewrite at_app_mid. cbn [bind]. change (47 =? 47) with true. cbv iota.
  rewrite slice_head. exists q. split; [reflexivity|]. split; [reflexivity|]. now rewrite names_end_slash.
Qed.

Lemma dir_base p : (forall q, p <> q ++ [47]) \/ slashes p ->
  exists d b j, dir p = Ok d /\ base p = Ok b /\ join d [b] = Ok j /\ same_path j p.
Proof.
  intros H. destruct p as [|c p0].
  { exists [46], [46], [46]. repeat split; reflexivity. }
  set (p := c :: p0) in *.
  destruct (snoc_cases p) as [?|(r & x & Er)]; [discriminate|].
  destruct (Z.eq_dec x 47) as [->|Nx].
  - destruct H as [H|H]; [now apply H in Er|].
    (* all slashes *)
    destruct (dir_trailing r) as (d & Hd & Ha & Hn). rewrite <- Er in *.
    destruct (base_spec p) as (b & Hb & [[E _]|[(_ & _ & ->)|(pre & tl & E & _ & Nb & Ib & _)]]).
    + discriminate.
    + destruct (join_spec d [[47]]) as (j & Hj & Hp). exists d, [47], j. repeat split; auto.
      * unfold place in Hp. cbn in Hp. injection Hp as -> _. subst p. inversion H. subst. reflexivity.
      * unfold place in Hp. cbn in Hp. injection Hp as _ ->.
        clear -H. subst p. induction H as [|y l Hy _ IH]; [reflexivity|]. subst y. now rewrite names_cons_slash.
    + exfalso. destruct b as [|y b]; [congruence|]. apply Ib. left.
      unfold slashes in H. rewrite Forall_forall in H. apply H. rewrite E. apply in_app_iff. right. now left.
  - clear H. unfold dir, base.
    assert (Hp0 : p <> []) by discriminate.
    assert (Hp1 : p <> [47]).
    { intros E. rewrite Er in E. destruct r as [|? [|]]; cbn in E; congruence. }
    rewrite !str_eq_neq by assumption.
    replace (at_ p (zlen p - 1)) with (@Ok Z x)
      by (rewrite Er, zlen_app, zlen_cons, zlen_nil; replace (zlen r + (1 + 0) - 1) with (zlen r) by lia; now rewrite at_app_mid).
    cbn [bind]. destruct (Z.eqb_spec x 47); [congruence|].
    destruct (rtrim_slash p) as (a & t & H1 & H2 & H3 & H4).
    assert (t = []) as ->.
    { destruct (snoc_cases t) as [|(t' & y & ->)]; [assumption|]. exfalso.
      apply Forall_app in H3 as [_ H3]. apply Forall_inv in H3. subst y.
      rewrite Er, app_assoc in H2. apply app_inj_tail in H2 as [_ ?]. congruence. }
    rewrite app_nil_r in H2. rewrite H1. cbn [bind]. rewrite <- H2. clear a H1 H2 H4.
    rewrite str_eq_neq by assumption.
    destruct (last_slash_cases p) as (i & Ei & [[-> Hn]|(u & b & Eu & Hn & ->)]); rewrite Ei; cbn [bind].
    + destruct (join_spec [46] [p]) as (j & Hj & Hp). exists [46], p, j. repeat split; auto.
      * assert (absolute p = false) as A.
        { subst p. cbn [absolute]. destruct (Z.eqb_spec c 47); [|reflexivity]. exfalso. apply Hn. now left. }
        unfold place, follow in Hp. cbn [fold_left fst snd] in Hp. rewrite A in *. cbn in Hp. now injection Hp.
      * assert (absolute p = false) as A.
        { subst p. cbn [absolute]. destruct (Z.eqb_spec c 47); [|reflexivity]. exfalso. apply Hn. now left. }
        unfold place, follow in Hp. cbn [fold_left fst snd] in Hp. rewrite A in *.
        change (names [46]) with (@nil (list Z)) in Hp. cbn [app] in Hp. now injection Hp.
    + pose proof (zlen_nonneg u). destruct (Z.eqb_spec (zlen u) (-1)); [lia|].
      assert (Sl : slice p (zlen u + 1) (zlen p) = Ok b).
      { rewrite Eu. change (u ++ 47 :: b) with (u ++ [47] ++ b). rewrite app_assoc.
        replace (zlen u + 1) with (zlen (u ++ [47])) by (rewrite zlen_app; reflexivity). apply slice_tail. }
      rewrite Sl. clear Sl.
      assert (A : absolute b = false).
      { destruct b as [|y b]; [reflexivity|]. cbn [absolute]. destruct (Z.eqb_spec y 47); [|reflexivity].
        exfalso. apply Hn. now left. }
      destruct (Z.eqb_spec (zlen u) 0) as [E0|E0].
      * apply zlen_0_nil in E0. subst u.
        destruct (join_spec [47] [b]) as (j & Hj & Hp). exists [47], b, j.
        unfold place, follow in Hp. cbn [fold_left fst snd] in Hp. rewrite A in Hp.
        injection Hp as Ha Hnm. repeat split; auto.
        -- rewrite Ha, Eu. reflexivity.
        -- rewrite Hnm, Eu. cbn [app]. now rewrite names_cons_slash.
      * replace (slice p 0 (zlen u)) with (Ok u) by (rewrite Eu; now rewrite slice_head).
        destruct (join_spec u [b]) as (j & Hj & Hp). exists u, b, j.
        unfold place, follow in Hp. cbn [fold_left fst snd] in Hp. rewrite A in Hp.
        injection Hp as Ha Hnm. repeat split; auto.
        -- rewrite Ha, Eu. rewrite absolute_app; [reflexivity|]. intros ->. cbn in E0. lia.
        -- rewrite Hnm, Eu. now rewrite names_slash.
Qed.
