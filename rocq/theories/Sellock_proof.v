(** Proofs about the lock order of a select. *)
From Verif Require Import Base Base_lemmas Zlist Sort_model Sort_proof Sellock_model Sellock_spec.
From Coq Require Import ZifyBool ZifyNat.

Local Notation G := (get 0).

Lemma get_znth (l : list Z) i x : znth l i = Some x -> G l i = x.
Proof.
  intros H. pose proof (znth_range _ _ _ H). unfold znth in H. replace (i <? 0) with false in H by lia.
  unfold get. now apply nth_error_nth.
Qed.
Lemma znth_get (l : list Z) i : 0 <= i < zlen l -> znth l i = Some (G l i).
Proof. intros H. destruct (znth_Some l i H) as (x & Hx). rewrite Hx. f_equal. symmetry. now apply get_znth. Qed.
Lemma rd_get (l : list Z) i : 0 <= i < zlen l -> rd l i = Ok (G l i).
Proof. intros H. apply rd_ok. now apply znth_get. Qed.
Lemma get_set (l : list Z) j x k : 0 <= j < zlen l -> 0 <= k -> G (list_set l (Z.to_nat j) x) k = if k =? j then x else G l k.
Proof. intros Hj Hk. rewrite get_list_set by (unfold zlen in Hj; lia). now replace (Z.of_nat (Z.to_nat j)) with j by lia. Qed.
Lemma zlen_set {A} (l : list A) j x : zlen (list_set l j x) = zlen l.
Proof. unfold zlen. now rewrite length_list_set. Qed.

(** exchanging two positions *)
Lemma exchange (l : list Z) a b i j : 0 <= a -> a <= i < b -> a <= j < b -> b <= zlen l ->
  rperm 0 a b l (list_set (list_set l (Z.to_nat i) (G l j)) (Z.to_nat j) (G l i)).
Proof.
  intros Ha Hi Hj Hb. destruct (swap_spec 0 l tt i j a b Ha Hi Hj Hb) as (w & _ & Hs & Hr).
  replace (list_set _ _ _) with w; [exact Hr|]. apply (nth_ext_z 0).
  - destruct Hr as (HL & _). rewrite !length_list_set. congruence.
  - intros k Hk. rewrite Hs by lia. rewrite get_set by (rewrite ?zlen_set; lia). rewrite get_set by lia.
    destruct (Z.eqb_spec k j) as [->|]; [|reflexivity]. destruct (Z.eqb_spec j i) as [->|]; reflexivity.
Qed.

Section order.
Variable cases : list Z.
Let n := zlen cases.
Let key (o : Z) : Z := G cases o.
Let valid (o : Z) : Prop := 0 <= o < n.

Definition heap (hi : Z) (v : list Z) : Prop := forall p c, 0 <= p -> is_child p c -> c < hi -> key (G v c) <= key (G v p).

Lemma valid_get l i : Forall valid l -> 0 <= i < zlen l -> valid (G l i).
Proof. intros H Hi. rewrite Forall_forall in H. apply H. now apply get_in. Qed.
Lemma valid_set l j x : Forall valid l -> valid x -> Forall valid (list_set l j x).
Proof. intros H Hx. revert j. induction H as [|y l Hy H IH]; intros [|j]; cbn [list_set]; constructor; auto. Qed.
Lemma rd_case o : valid o -> rd cases o = Ok (key o).
Proof. apply rd_get. Qed.

Lemma up_spec fuel : forall l j i x, 0 <= j <= i -> i < zlen l -> Forall valid l -> valid x -> (Z.to_nat j < fuel)%nat ->
  let L := list_set l (Z.to_nat j) x in
  (forall p c, 0 <= p -> is_child p c -> c <> j -> c <= i -> key (G L c) <= key (G L p)) ->
  (forall p c, 0 <= p -> is_child p j -> is_child j c -> c <= i -> key (G L c) <= key (G L p)) ->
  exists l' j', up fuel cases l j (key x) = Ok (l', j') /\ 0 <= j' < zlen l' /\ zlen l' = zlen l /\ Forall valid l' /\
    let w := list_set l' (Z.to_nat j') x in rperm 0 0 (i + 1) L w /\ heap (i + 1) w.
Proof.
  induction fuel as [|fuel IH]; intros l j i x Hj Hi Hv Hx Hf L H1 H2; [lia|]. cbn [up].
  assert (forall m, 0 <= m -> G L m = if m =? j then x else G l m) as GL by (intros m Hm; apply get_set; lia).
  destruct (Z.ltb_spec 0 j) as [Hp|Hp].
  - set (k := (j - 1) / 2). assert (is_child k j /\ 0 <= k < j) as [Hc Hk].
    { unfold is_child. subst k. pose proof (Z.div_mod (j - 1) 2 ltac:(lia)). pose proof (Z.mod_pos_bound (j - 1) 2 ltac:(lia)). lia. }
    rewrite rd_get by lia. cbn [bind]. rewrite rd_case by (apply valid_get; auto; lia). cbn [bind].
    assert (G L k = G l k) as Ek by (rewrite GL by lia; now replace (k =? j) with false by lia).
    assert (G L j = x) as Ej by (rewrite GL by lia; now rewrite Z.eqb_refl).
    destruct (Z.ltb_spec (key (G l k)) (key x)) as [Hlt|Hge].
    + rewrite wr_ok by lia. cbn [bind]. set (l1 := list_set l (Z.to_nat j) (G l k)).
      assert (zlen l1 = zlen l) as E1 by apply zlen_set.
      assert (Forall valid l1) as Hv1 by (apply valid_set; [auto|apply valid_get; auto; lia]).
      assert (list_set l1 (Z.to_nat k) x = list_set (list_set L (Z.to_nat j) (G L k)) (Z.to_nat k) (G L j)) as EL.
      { rewrite Ek, Ej. unfold L, l1. apply (nth_ext_z 0); [now rewrite !length_list_set|]. intros m Hm.
        repeat rewrite get_set by (rewrite ?zlen_set; lia). destruct (m =? k), (m =? j); reflexivity. }
      assert (forall m, 0 <= m -> G (list_set l1 (Z.to_nat k) x) m = if m =? k then x else if m =? j then G L k else G L m) as GL1.
      { intros m Hm. rewrite EL. repeat rewrite get_set by (unfold L; rewrite ?zlen_set; lia). now rewrite Ej. }
      destruct (IH l1 k i x ltac:(lia) ltac:(lia) Hv1 Hx ltac:(lia)) as (l' & j' & E & A1 & A2 & A3 & A4 & A5).
      * intros p c Hp' Hpc Hck Hci. assert (0 <= c) by (unfold is_child in Hpc; lia). rewrite !GL1 by lia.
        destruct (Z.eqb_spec c k) as [|_]; [lia|].
        destruct (Z.eqb_spec c j) as [->|Hcj].
        -- replace p with k by (unfold is_child in *; lia). rewrite Z.eqb_refl, Ek. lia.
        -- destruct (Z.eqb_spec p k) as [->|Hpk].
           ++ specialize (H1 k c ltac:(lia) Hpc Hcj Hci). rewrite Ek in H1. lia.
           ++ destruct (Z.eqb_spec p j) as [->|Hpj]; [now apply H2|now apply H1].
      * intros p c Hp' Hpk Hkc Hci. assert (0 <= c /\ p < k /\ c <> k) as (Hc0 & Hpk' & Hck) by (unfold is_child in *; lia). rewrite !GL1 by lia.
        replace (c =? k) with false by lia. replace (p =? k) with false by lia. replace (p =? j) with false by lia.
        pose proof (H1 p k Hp' Hpk ltac:(lia) ltac:(lia)) as H3.
        destruct (Z.eqb_spec c j) as [->|Hcj]; [exact H3|]. specialize (H1 k c ltac:(lia) Hkc Hcj Hci). lia.
      * exists l', j'. split; [exact E|]. split; [exact A1|]. split; [lia|]. split; [exact A3|]. split; [|exact A5].
        eapply rperm_trans; [|exact A4]. fold l1. rewrite EL. apply exchange; unfold L; rewrite ?zlen_set; lia.
    + exists l, j. split; [reflexivity|]. split; [lia|]. split; [reflexivity|]. split; [exact Hv|]. cbn zeta. split; [apply rperm_refl|].
      intros p c Hp' Hpc Hci. destruct (Z.eq_dec c j) as [->|Hn]; [|apply H1; auto; lia].
      fold L. replace p with k by (unfold is_child in *; lia). rewrite Ek, Ej. exact Hge.
  - assert (j = 0) as -> by lia. exists l, 0. split; [reflexivity|]. split; [lia|]. split; [reflexivity|]. split; [exact Hv|]. cbn zeta.
    split; [apply rperm_refl|]. intros p c Hp' Hpc Hci. apply H1; auto; unfold is_child in *; lia.
Qed.

Lemma i16_small z : 0 <= z < 32768 -> i16 z = z.
Proof. intros H. unfold i16. rewrite Z.mod_small by lia. lia. Qed.

Lemma down_spec fuel : forall l j i o, i < zlen l -> 0 <= j -> (j < i \/ j = 0 /\ i = 0) -> i <= 16384 -> Forall valid l -> valid o ->
  (Z.to_nat (i - j) < fuel)%nat ->
  let L := list_set l (Z.to_nat j) o in
  (forall p c, 0 <= p -> p <> j -> is_child p c -> c < i -> key (G L c) <= key (G L p)) ->
  (forall p c, 0 <= p -> is_child p j -> is_child j c -> c < i -> key (G L c) <= key (G L p)) ->
  exists l' j', down fuel cases l j i (key o) = Ok (l', j') /\ 0 <= j' < zlen l' /\ zlen l' = zlen l /\ Forall valid l' /\
    let w := list_set l' (Z.to_nat j') o in rperm 0 0 i L w /\ heap i w.
Proof.
  induction fuel as [|fuel IH]; intros l j i o Hi Hj Hji Hb Hv Ho Hf L H1 H2; [lia|]. cbn [down].
  assert (forall m, 0 <= m -> G L m = if m =? j then o else G l m) as GL by (intros m Hm; apply get_set; lia).
  assert (G L j = o) as Ej by (rewrite GL by lia; now rewrite Z.eqb_refl).
  rewrite i16_small by lia. set (k0 := j * 2 + 1).
  assert (forall l1 : list Z, l1 = l -> heap i (list_set l1 (Z.to_nat j) o) ->
    exists l' j', Ok (l1, j) = Ok (l', j') /\ 0 <= j' < zlen l' /\ zlen l' = zlen l /\ Forall valid l' /\
    let w := list_set l' (Z.to_nat j') o in rperm 0 0 i L w /\ heap i w) as Stop.
  { intros l1 -> Hh. exists l, j. split; [reflexivity|]. split; [lia|]. split; [reflexivity|]. split; [exact Hv|]. split; [apply rperm_refl|exact Hh]. }
  destruct (Z.leb_spec i k0) as [Hk0|Hk0].
  - apply Stop; [reflexivity|]. intros p c Hp Hc Hci. apply H1; auto. intros ->. unfold is_child in Hc. lia.
  - match goal with |- exists l' j', bind ?e _ = _ /\ _ =>
    assert (exists k, e = Ok k /\ is_child j k /\ k < i /\ forall c, is_child j c -> c < i -> key (G l c) <= key (G l k)) as (k & -> & Hk & Hki & Hmax) end.
    { destruct (Z.ltb_spec (k0 + 1) i) as [H|H].
      - rewrite rd_get by lia. cbn [bind]. rewrite rd_case by (apply valid_get; auto; lia). cbn [bind].
        rewrite rd_get by lia. cbn [bind]. rewrite rd_case by (apply valid_get; auto; lia). cbn [bind].
        eexists. split; [reflexivity|]. unfold is_child. destruct (Z.ltb_spec (key (G l k0)) (key (G l (k0 + 1)))) as [E|E].
        + split; [lia|]. split; [lia|]. intros c [->| ->] Hc; [replace (2 * j + 1) with k0 by lia; lia|replace (2 * j + 2) with (k0 + 1) by lia; lia].
        + split; [lia|]. split; [lia|]. intros c [->| ->] Hc; [replace (2 * j + 1) with k0 by lia; lia|replace (2 * j + 2) with (k0 + 1) by lia; lia].
      - exists k0. split; [reflexivity|]. unfold is_child. split; [lia|]. split; [lia|]. intros c [->| ->] Hc; [replace (2 * j + 1) with k0 by lia; lia|lia]. }
    assert (j < k) as Hjk by (unfold is_child in Hk; lia).
    cbn [bind]. rewrite rd_get by lia. cbn [bind]. rewrite rd_case by (apply valid_get; auto; lia). cbn [bind].
    assert (G L k = G l k) as Ek by (rewrite GL by lia; now replace (k =? j) with false by lia).
    destruct (Z.ltb_spec (key o) (key (G l k))) as [Hlt|Hge].
    + rewrite wr_ok by lia. cbn [bind]. set (l1 := list_set l (Z.to_nat j) (G l k)).
      assert (zlen l1 = zlen l) as E1 by apply zlen_set.
      assert (Forall valid l1) as Hv1 by (apply valid_set; [auto|apply valid_get; auto; lia]).
      assert (list_set l1 (Z.to_nat k) o = list_set (list_set L (Z.to_nat j) (G L k)) (Z.to_nat k) (G L j)) as EL.
      { rewrite Ek, Ej. unfold L, l1. apply (nth_ext_z 0); [now rewrite !length_list_set|]. intros m Hm.
        repeat rewrite get_set by (rewrite ?zlen_set; lia). destruct (m =? k), (m =? j); reflexivity. }
      assert (forall m, 0 <= m -> G (list_set l1 (Z.to_nat k) o) m = if m =? k then o else if m =? j then G L k else G L m) as GL1.
      { intros m Hm. rewrite EL. repeat rewrite get_set by (unfold L; rewrite ?zlen_set; lia). now rewrite Ej. }
      destruct (IH l1 k i o ltac:(lia) ltac:(lia) ltac:(lia) Hb Hv1 Ho ltac:(lia)) as (l' & j' & E & A1 & A2 & A3 & A4 & A5).
      * intros p c Hp Hpk Hpc Hci. assert (p < c) by (unfold is_child in Hpc; lia). rewrite !GL1 by lia.
        replace (p =? k) with false by lia.
        destruct (Z.eqb_spec p j) as [->|Hpj].
        -- replace (c =? j) with false by lia. rewrite Ek. destruct (Z.eqb_spec c k) as [->|Hck]; [lia|].
           rewrite GL by lia. replace (c =? j) with false by lia. now apply Hmax.
        -- destruct (Z.eqb_spec c k) as [->|Hck]; [unfold is_child in *; lia|].
           destruct (Z.eqb_spec c j) as [->|Hcj]; [now apply H2|]. apply H1; auto.
      * intros p c Hp Hpk Hkc Hci. assert (p = j) as -> by (unfold is_child in *; lia). assert (k < c) by (unfold is_child in *; lia). rewrite !GL1 by lia.
        replace (c =? k) with false by lia. replace (c =? j) with false by lia. replace (j =? k) with false by lia. rewrite Z.eqb_refl.
        apply H1; auto; lia.
      * exists l', j'. split; [exact E|]. split; [exact A1|]. split; [lia|]. split; [exact A3|]. split; [|exact A5].
        eapply rperm_trans; [|exact A4]. fold l1. rewrite EL. apply exchange; unfold L; rewrite ?zlen_set; lia.
    + apply Stop; [reflexivity|]. intros p c Hp Hpc Hci. destruct (Z.eq_dec p j) as [->|Hn]; [|apply H1; auto].
      fold L. rewrite Ej. rewrite GL by (unfold is_child in Hpc; lia). replace (c =? j) with false by (unfold is_child in Hpc; lia).
      specialize (Hmax c Hpc Hci). lia.
Qed.

Lemma firstn_rperm i (v w : list Z) : 0 <= i <= zlen v -> rperm 0 0 i v w -> Permutation (firstn (Z.to_nat i) v) (firstn (Z.to_nat i) w).
Proof.
  intros Hi H. destruct (rperm_segments 0 0 i v w ltac:(lia) ltac:(lia) H) as (p & m & m' & q & -> & -> & Hp & Hm & P).
  destruct p; [|unfold zlen in Hp; cbn in Hp; lia]. cbn [app].
  assert (length m = Z.to_nat i) as L1 by (unfold zlen in Hm; lia). assert (length m' = Z.to_nat i) as L2 by (rewrite <- (Permutation_length P); exact L1).
  rewrite <- L1 at 1. rewrite <- L2. rewrite !firstn_app, !Nat.sub_diag, !firstn_all. cbn. now rewrite !app_nil_r.
Qed.
Lemma firstn_set_snoc (l : list Z) i x : 0 <= i < zlen l ->
  firstn (Z.to_nat (i + 1)) (list_set l (Z.to_nat i) x) = firstn (Z.to_nat i) l ++ [x].
Proof.
  intros Hi. apply znth_ext_len; [rewrite zlen_app, !zlen_firstn, zlen_set; unfold zlen at 3; cbn; lia|].
  rewrite zlen_firstn, zlen_set. intros k Hk. rewrite znth_firstn by lia. replace (k <? Z.of_nat (Z.to_nat (i + 1))) with true by lia.
  rewrite znth_list_set_z by lia. destruct (Z.eqb_spec k i) as [->|].
  - rewrite znth_app_r by (rewrite zlen_firstn; lia). rewrite zlen_firstn. replace (i - _) with 0 by lia. reflexivity.
  - rewrite znth_app_l by (rewrite zlen_firstn; lia). rewrite znth_firstn by lia. now replace (k <? Z.of_nat (Z.to_nat i)) with true by lia.
Qed.

Lemma build_spec m : forall po lo i, 0 <= i -> i + Z.of_nat m = n -> zlen po = n -> zlen lo = n -> Forall valid po -> Forall valid lo ->
  heap i lo -> Permutation (firstn (Z.to_nat i) lo) (firstn (Z.to_nat i) po) ->
  exists lo', build cases po lo i m = Ok lo' /\ zlen lo' = n /\ Forall valid lo' /\ heap n lo' /\ Permutation lo' po.
Proof.
  induction m as [|m IH]; intros po lo i Hi Hm Hpo Hlo Vp Vl Hh P; cbn [build].
  - exists lo. assert (i = n) as -> by lia. repeat (split; [solve [auto]|]).
    rewrite !firstn_all2 in P by (unfold zlen in *; lia). exact P.
  - rewrite rd_get by lia. cbn [bind]. set (p := G po i). assert (valid p) as Hp by (apply valid_get; auto; lia).
    rewrite rd_case by exact Hp. cbn [bind].
    assert (forall k, 0 <= k -> G (list_set lo (Z.to_nat i) p) k = if k =? i then p else G lo k) as GL by (intros k Hk; apply get_set; lia).
    destruct (up_spec (S (Z.to_nat i)) lo i i p ltac:(lia) ltac:(lia) Vl Hp ltac:(lia)) as (l' & j' & -> & A1 & A2 & A3 & A4 & A5).
    + intros q c Hq Hc Hne Hle. assert (0 <= c /\ q < c) by (unfold is_child in Hc; lia). rewrite !GL by lia.
      replace (c =? i) with false by lia. replace (q =? i) with false by lia. apply Hh; auto; lia.
    + intros q c Hq Hc Hc' Hle. unfold is_child in Hc'. lia.
    + cbn [bind]. rewrite wr_ok by lia. cbn [bind].
      apply (IH po (list_set l' (Z.to_nat j') p) (i + 1)); [lia|lia|exact Hpo|rewrite zlen_set; lia|exact Vp|now apply valid_set|exact A5|].
      apply Permutation_trans with (firstn (Z.to_nat (i + 1)) (list_set lo (Z.to_nat i) p)).
      * apply Permutation_sym. apply firstn_rperm; [rewrite zlen_set; lia|exact A4].
      * rewrite firstn_set_snoc by lia. replace (firstn (Z.to_nat (i + 1)) po) with (firstn (Z.to_nat i) po ++ [p]).
        { now apply Permutation_app_tail. }
        rewrite <- firstn_set_snoc by lia. f_equal. apply (nth_ext_z 0); [apply length_list_set|].
        rewrite zlen_set. intros k Hk. rewrite get_set by lia. destruct (Z.eqb_spec k i) as [->|]; reflexivity.
Qed.

Lemma heap_top hi v : heap hi v -> forall k, 0 <= k < hi -> key (G v k) <= key (G v 0).
Proof.
  intros Hh. assert (forall m k, (Z.to_nat k <= m)%nat -> 0 <= k < hi -> key (G v k) <= key (G v 0)) as H.
  { induction m as [|m IHm]; intros k Hn Hk.
    - replace k with 0 by lia. lia.
    - destruct (Z.eq_dec k 0) as [->|Hk0]; [lia|].
      set (p := (k - 1) / 2). assert (Hp : 2 * p <= k - 1 < 2 * p + 2).
      { subst p. pose proof (Z.div_mod (k - 1) 2 ltac:(lia)). pose proof (Z.mod_pos_bound (k - 1) 2 ltac:(lia)). lia. }
      specialize (Hh p k ltac:(lia) ltac:(unfold is_child; lia) ltac:(lia)). specialize (IHm p ltac:(lia) ltac:(lia)). lia. }
  intros k Hk. now apply (H (Z.to_nat k)).
Qed.

Definition srt (a b : Z) (v : list Z) : Prop := forall p q, a <= p -> p < q -> q < b -> key (G v p) <= key (G v q).

Lemma extract_spec m : forall lo, Z.of_nat m <= n -> n <= 16384 -> zlen lo = n -> Forall valid lo ->
  heap (Z.of_nat m) lo -> srt (Z.of_nat m) n lo ->
  (forall p q, 0 <= p < Z.of_nat m -> Z.of_nat m <= q < n -> key (G lo p) <= key (G lo q)) ->
  exists lo', extract cases lo m = Ok lo' /\ zlen lo' = n /\ Forall valid lo' /\ srt 0 n lo' /\ Permutation lo lo'.
Proof.
  induction m as [|m IH]; intros lo Hm Hb Hlo Vl Hh Hs Hle.
  - cbn [extract]. exists lo. repeat (split; [solve [auto]|]). apply Permutation_refl.
  - assert (exists lo1, extract cases lo (S m) = extract cases lo1 m /\ zlen lo1 = n /\ Forall valid lo1 /\ Permutation lo lo1 /\
      heap (Z.of_nat m) lo1 /\ srt (Z.of_nat m) n lo1 /\ (forall p q, 0 <= p < Z.of_nat m -> Z.of_nat m <= q < n -> key (G lo1 p) <= key (G lo1 q)))
      as (lo1 & E & B1 & B2 & B3 & B4 & B5 & B6).
    2:{ rewrite E. destruct (IH lo1 ltac:(lia) Hb B1 B2 B4 B5 B6) as (lo' & E' & C1 & C2 & C3 & C4). exists lo'.
        repeat (split; [solve [auto]|]). eapply Permutation_trans; eauto. }
    cbn [extract]. set (i := Z.of_nat m). rewrite (rd_get lo i) by lia. cbn [bind]. set (o := G lo i).
    assert (valid o) as Ho by (apply valid_get; auto; lia). rewrite rd_case by exact Ho. cbn [bind].
    rewrite rd_get by lia. cbn [bind]. rewrite wr_ok by lia. cbn [bind].
    set (l := list_set lo (Z.to_nat i) (G lo 0)). assert (zlen l = n) as El by (unfold l; rewrite zlen_set; lia).
    assert (Forall valid l) as Vl1 by (apply valid_set; [auto|apply valid_get; auto; lia]).
    set (L := list_set l (Z.to_nat 0) o).
    assert (forall k, 0 <= k -> G L k = if k =? 0 then o else if k =? i then G lo 0 else G lo k) as GL.
    { intros k Hk. unfold L, l. repeat rewrite get_set by (rewrite ?zlen_set; lia). reflexivity. }
    assert (rperm 0 0 (i + 1) lo L) as RL.
    { unfold L, l. unfold o. apply exchange; lia. }
    destruct (down_spec (S m) l 0 i o ltac:(lia) ltac:(lia) ltac:(lia) ltac:(lia) Vl1 Ho ltac:(lia)) as (l' & j' & -> & A1 & A2 & A3 & A4 & A5).
    + fold L. intros p c Hp Hp0 Hpc Hci. assert (p < c) by (unfold is_child in Hpc; lia). rewrite !GL by lia.
      replace (c =? 0) with false by lia. replace (c =? i) with false by lia. replace (p =? 0) with false by lia. replace (p =? i) with false by lia.
      apply Hh; auto; lia.
    + intros p c Hp Hpc. unfold is_child in Hpc. lia.
    + cbn [bind]. rewrite wr_ok by lia. cbn [bind]. fold L in A4. cbn zeta in A4, A5. set (w := list_set l' (Z.to_nat j') o) in *.
      assert (zlen L = n) as ELn by (unfold L; rewrite zlen_set; exact El).
      assert (forall q, i <= q -> G w q = G L q) as Out by (intros q Hq; destruct A4 as (_ & _ & H); apply H; lia).
      assert (G L i = G lo 0) as Gi.
      { rewrite GL by lia. destruct (Z.eqb_spec i 0) as [E0|]; [unfold o; now rewrite E0|]. now rewrite Z.eqb_refl. }
      assert (forall q, i < q -> G L q = G lo q) as Gq.
      { intros q Hq. rewrite GL by lia. replace (q =? 0) with false by lia. now replace (q =? i) with false by lia. }
      assert (forall p, 0 <= p < i + 1 -> forall q, i + 1 <= q < n -> key (G w p) <= key (G lo q)) as Below.
      { intros p Hp q Hq. revert p Hp. apply (rperm_forall 0 0 (i + 1) lo w (fun x => key x <= key (G lo q))); [lia|lia| |].
        - eapply rperm_trans; [exact RL|]. eapply rperm_widen; [| |exact A4]; lia.
        - intros p Hp. apply Hle; lia. }
      exists w. split; [reflexivity|]. split; [unfold w; rewrite zlen_set; lia|]. split; [unfold w; now apply valid_set|].
      split; [destruct RL as (_ & R1 & _), A4 as (_ & R2 & _); eapply Permutation_trans; eauto|].
      split; [exact A5|]. split.
      * intros p q Hp Hpq Hq. rewrite !Out by lia. rewrite (Gq q) by lia. destruct (Z.eq_dec p i) as [->|].
        -- rewrite Gi. apply Hle; lia.
        -- rewrite Gq by lia. apply Hs; lia.
      * intros p q Hp Hq. destruct (Z.eq_dec q i) as [->|].
        -- rewrite (Out i), Gi by lia. revert p Hp. apply (rperm_forall 0 0 i L w (fun x => key x <= key (G lo 0))); [lia|lia|exact A4|].
           intros p Hp. rewrite GL by lia. destruct (Z.eqb_spec p 0) as [->|].
           ++ apply (heap_top _ _ Hh). lia.
           ++ replace (p =? i) with false by lia. apply (heap_top _ _ Hh). lia.
        -- rewrite (Out q), (Gq q) by lia. apply Below; lia.
Qed.

Definition upto (m : nat) : list Z := map Z.of_nat (seq 0 m).
Lemma upto_S m : upto (S m) = upto m ++ [Z.of_nat m].
Proof. unfold upto. rewrite seq_S, map_app. reflexivity. Qed.

Lemma poll_spec rnd m : forall po i, 0 <= i -> i + Z.of_nat m = n -> zlen po = n ->
  Permutation (firstn (Z.to_nat i) po) (upto (Z.to_nat i)) ->
  exists po', poll rnd po i m = Ok po' /\ zlen po' = n /\ Permutation po' (upto (length cases)).
Proof.
  induction m as [|m IH]; intros po i Hi Hm Hpo P; cbn [poll].
  - exists po. split; [reflexivity|]. split; [exact Hpo|]. replace (Z.to_nat i) with (length cases) in P by (unfold n, zlen in *; lia).
    rewrite firstn_all2 in P; [exact P|]. unfold n, zlen in *. lia.
  - set (j := rnd i mod (i + 1)). assert (0 <= j <= i) as Hj by (subst j; pose proof (Z.mod_pos_bound (rnd i) (i + 1) ltac:(lia)); lia).
    rewrite rd_get by lia. cbn [bind]. rewrite wr_ok by lia. cbn [bind]. rewrite wr_ok by (rewrite zlen_set; lia). cbn [bind].
    set (po' := list_set (list_set po (Z.to_nat i) (G po j)) (Z.to_nat j) i).
    assert (rperm 0 0 (i + 1) (list_set po (Z.to_nat i) i) po') as R.
    { set (q := list_set po (Z.to_nat i) i).
      assert (po' = list_set (list_set q (Z.to_nat i) (G q j)) (Z.to_nat j) (G q i)) as ->.
      { unfold po'. apply (nth_ext_z 0); [unfold q; now rewrite !length_list_set|]. intros k Hk. rewrite !zlen_set in Hk.
        unfold q. repeat rewrite get_set by (rewrite ?zlen_set; lia). rewrite Z.eqb_refl.
        destruct (Z.eqb_spec k j); [reflexivity|]. destruct (Z.eqb_spec k i); [|reflexivity]. replace (j =? i) with false by lia. reflexivity. }
      apply exchange; unfold q; rewrite ?zlen_set; lia. }
    apply (IH po' (i + 1)); [lia|lia|unfold po'; rewrite !zlen_set; lia|].
    apply Permutation_trans with (firstn (Z.to_nat (i + 1)) (list_set po (Z.to_nat i) i)).
    + apply Permutation_sym. apply firstn_rperm; [rewrite zlen_set; lia|exact R].
    + rewrite firstn_set_snoc by lia. replace (Z.to_nat (i + 1)) with (S (Z.to_nat i)) by lia. rewrite upto_S.
      replace (Z.of_nat (Z.to_nat i)) with i by lia. now apply Permutation_app_tail.
Qed.

Lemma lockorder_spec rnd : n <= 16384 -> exists lo, lockorder cases rnd = Ok lo /\ Permutation lo (upto (length cases)) /\
  Forall valid lo /\ zlen lo = n /\ srt 0 n lo.
Proof.
  intros Hb. unfold lockorder.
  assert (zlen (repeat 0 (length cases)) = n) as Hr by (rewrite zlen_repeat; reflexivity).
  destruct (poll_spec rnd (length cases) (repeat 0 (length cases)) 0 ltac:(lia) ltac:(unfold n, zlen; lia) Hr) as (po & -> & Hpo & P); [exact (perm_nil _)|].
  cbn [bind].
  assert (Forall valid po) as Vp.
  { rewrite Forall_forall. intros x Hx. apply (Permutation_in _ P) in Hx. unfold upto in Hx. apply in_map_iff in Hx as (k & <- & Hk).
    apply in_seq in Hk. unfold valid, n, zlen. lia. }
  assert (Forall valid (repeat 0 (length cases))) as Vr.
  { rewrite Forall_forall. intros x Hx. pose proof (repeat_spec _ _ _ Hx) as ->. unfold valid, n, zlen. destruct cases; [destruct Hx|cbn; lia]. }
  destruct (build_spec (length cases) po (repeat 0 (length cases)) 0 ltac:(lia) ltac:(unfold n, zlen; lia) Hpo Hr Vp Vr) as (lo & -> & A1 & A2 & A3 & A4).
  { intros p c Hp Hc. unfold is_child in Hc. lia. }
  { exact (perm_nil _). }
  cbn [bind]. destruct (extract_spec (length cases) lo ltac:(unfold n, zlen; lia) Hb A1 A2 A3) as (lo' & -> & B1 & B2 & B3 & B4).
  { intros p q Hp Hpq Hq. unfold n, zlen in Hq. lia. }
  { intros p q Hp Hq. unfold n, zlen in Hq. lia. }
  exists lo'. split; [reflexivity|]. split; [|auto].
  apply (Permutation_trans (Permutation_sym B4)). apply (Permutation_trans A4 P).
Qed.

(** the keys in the order of lockorder *)
Lemma keys_perm lo : Permutation lo (upto (length cases)) -> Permutation (map key lo) cases.
Proof.
  intros P. apply (Permutation_map key) in P. eapply Permutation_trans; [exact P|].
  replace (map key (upto (length cases))) with cases; [apply Permutation_refl|].
  apply znth_ext_len; [unfold zlen, upto; rewrite !map_length, seq_length; reflexivity|]. intros i Hi.
  unfold upto. rewrite map_map, znth_map. unfold znth at 2. replace (i <? 0) with false by lia.
  unfold zlen in Hi. rewrite (nth_error_nth' _ 0%nat) by (rewrite seq_length; lia). rewrite seq_nth by lia. cbn [option_map Nat.add].
  replace (Z.of_nat (Z.to_nat i)) with i by lia. now apply znth_get.
Qed.
Lemma keys_sorted lo : zlen lo = n -> srt 0 n lo -> StronglySorted Z.le (map key lo).
Proof.
  intros Hl Hs. assert (forall p q, 0 <= p -> p < q -> q < zlen lo -> key (G lo p) <= key (G lo q)) as H by (intros; apply Hs; lia).
  clear Hs Hl. induction lo as [|x lo IH]; [constructor|]. cbn [map]. constructor.
  - apply IH. intros p q Hp Hpq Hq. assert (zlen (x :: lo) = 1 + zlen lo) as E by apply zlen_cons.
    specialize (H (1 + p) (1 + q) ltac:(lia) ltac:(lia) ltac:(lia)).
    unfold get in H. replace (Z.to_nat (1 + p)) with (S (Z.to_nat p)) in H by lia. replace (Z.to_nat (1 + q)) with (S (Z.to_nat q)) in H by lia. exact H.
  - rewrite Forall_forall. intros k Hk. apply in_map_iff in Hk as (y & <- & Hy). apply (in_get 0) in Hy as (q & Hq & <-).
    assert (zlen (x :: lo) = 1 + zlen lo) as E by apply zlen_cons.
    specialize (H 0 (1 + q) ltac:(lia) ltac:(lia) ltac:(lia)). unfold get in H. replace (Z.to_nat (1 + q)) with (S (Z.to_nat q)) in H by lia. exact H.
Qed.

(** keep the first of each run of equal entries *)
Fixpoint firsts (c : Z) (ks : list Z) : list Z :=
  match ks with [] => [] | k :: ks => if k =? c then firsts c ks else k :: firsts k ks end.
Lemma sellock_spec lo : Forall valid lo -> forall c, sellock cases lo c = Ok (firsts c (map key lo)).
Proof.
  induction 1 as [|o lo Ho _ IH]; intros c; cbn [sellock map firsts]; [reflexivity|].
  rewrite rd_case by exact Ho. cbn [bind]. destruct (key o =? c); [apply IH|]. rewrite IH. reflexivity.
Qed.
Lemma firsts_snoc ks : forall c x, firsts c (ks ++ [x]) = firsts c ks ++ (if x =? last ks c then [] else [x]).
Proof.
  induction ks as [|k ks IH]; intros c x; cbn [app firsts].
  - cbn. destruct (x =? c); reflexivity.
  - replace (last (k :: ks) c) with (last ks k) by (destruct ks; [reflexivity|cbn [last]; clear; revert z k c; induction ks; [reflexivity|cbn in *; auto]]).
    destruct (Z.eqb_spec k c) as [->|]; [apply IH|]. rewrite IH. reflexivity.
Qed.
Lemma firstn_S_get (l : list Z) m : (m < length l)%nat -> firstn (S m) l = firstn m l ++ [G l (Z.of_nat m)].
Proof.
  intros H. unfold get. rewrite Nat2Z.id. revert l H. induction m as [|m IH]; intros [|x l] H; cbn in *; try lia; [reflexivity|].
  f_equal. apply IH. lia.
Qed.
Lemma selunlock_spec lo : Forall valid lo -> Forall (fun c => c <> 0) cases -> forall m, (m <= length lo)%nat ->
  selunlock cases lo m = Ok (rev (firsts 0 (map key (firstn m lo)))).
Proof.
  intros Hv Hz. induction m as [|m IH]; intros Hm; [reflexivity|]. cbn [selunlock].
  assert (zlen lo = Z.of_nat (length lo)) as El by reflexivity.
  rewrite rd_get by lia. cbn [bind]. rewrite rd_case by (apply valid_get; auto; lia). cbn [bind].
  rewrite firstn_S_get by lia. rewrite map_app. cbn [map]. rewrite firsts_snoc, rev_app_distr.
  set (x := key (G lo (Z.of_nat m))).
  match goal with |- bind ?e _ = _ => assert (e = Ok (x =? last (map key (firstn m lo)) 0)) as -> end.
  { destruct (Z.ltb_spec 0 (Z.of_nat m)) as [H|H].
    - rewrite rd_get by lia. cbn [bind]. rewrite rd_case by (apply valid_get; auto; lia). cbn [bind].
      destruct m as [|m]; [lia|]. rewrite firstn_S_get by lia. rewrite map_app. cbn [map]. rewrite last_last.
      now replace (Z.of_nat (S m) - 1) with (Z.of_nat m) by lia.
    - destruct m; [|lia]. cbn. f_equal. symmetry. apply Z.eqb_neq. unfold x. rewrite Forall_forall in Hz. apply Hz.
      apply get_in. fold n. apply valid_get; auto. lia. }
  cbn [bind]. rewrite IH by lia. cbn [bind]. destruct (x =? _); [|reflexivity]. reflexivity.
Qed.

Lemma firsts_rising ks : StronglySorted Z.le ks -> forall c, Forall (Z.le c) ks -> rising (firsts c ks) /\ Forall (Z.lt c) (firsts c ks).
Proof.
  induction 1 as [|k ks Hs IH Hk]; intros c Hc; cbn [firsts].
  - split; constructor.
  - inversion Hc as [|? ? Hck Hc']; subst. destruct (Z.eqb_spec k c) as [->|Hne].
    + apply IH. exact Hc'.
    + destruct (IH k Hk) as [I1 I2]. split; [constructor; assumption|]. constructor; [lia|].
      rewrite Forall_forall in *. intros y Hy. specialize (I2 y Hy). lia.
Qed.
Lemma firsts_In ks : forall c x, x <> c -> (In x (firsts c ks) <-> In x ks).
Proof.
  induction ks as [|k ks IH]; intros c x Hx; cbn [firsts]; [tauto|].
  destruct (Z.eqb_spec k c) as [->|].
  - rewrite IH by exact Hx. cbn. intuition congruence.
  - cbn. destruct (Z.eq_dec k x) as [->|]; [tauto|]. rewrite IH by auto. tauto.
Qed.

Lemma locking_ok rnd : n <= 16384 -> Forall (fun c => 0 < c) cases ->
  exists ls, locking cases rnd = Ok (ls, rev ls) /\ rising ls /\ forall a, In a ls <-> In a cases.
Proof.
  intros Hb Hz. unfold locking. destruct (lockorder_spec rnd Hb) as (lo & -> & P & Hv & Hl & Hs). cbn [bind].
  rewrite sellock_spec by exact Hv. cbn [bind].
  rewrite selunlock_spec; [|exact Hv|eapply Forall_impl; [|exact Hz]; cbn; lia|lia]. rewrite firstn_all. cbn [bind].
  exists (firsts 0 (map key lo)). split; [reflexivity|].
  pose proof (keys_perm lo P) as P'. assert (Forall (fun c => 0 < c) (map key lo)) as Hz'.
  { rewrite Forall_forall in *. intros x Hx. apply Hz. eapply Permutation_in; eauto. }
  split.
  - apply firsts_rising; [now apply keys_sorted|]. eapply Forall_impl; [|exact Hz']. cbn. lia.
  - intros a. destruct (Z.eq_dec a 0) as [->|].
    + rewrite Forall_forall in Hz. split; intros H; [|specialize (Hz _ H); lia].
      exfalso. assert (Forall (Z.lt 0) (firsts 0 (map key lo))) as X.
      { apply firsts_rising; [now apply keys_sorted|]. eapply Forall_impl; [|exact Hz']. cbn. lia. }
      rewrite Forall_forall in X. specialize (X 0 H). lia.
    + rewrite firsts_In by assumption. split; intros H; [eapply Permutation_in; eauto|eapply Permutation_in; [apply Permutation_sym|]; eauto].
Qed.
End order.

(** ** Parking *)
Lemma park_In : forall cs last x, Forall (fun c => 0 < c) cs -> In x (park_commit last cs) <-> (x <> 0 /\ x = last) \/ In x cs.
Proof.
  induction cs as [|c cs IH]; intros last x H; cbn [park_commit].
  - destruct (Z.eqb_spec last 0); cbn; intuition congruence.
  - inversion H; subst. rewrite in_app_iff, IH by assumption. cbn [In].
    destruct (Z.eqb_spec c last), (Z.eqb_spec last 0); cbn; intuition (subst; auto; try lia; try congruence).
Qed.
Lemma side_tail c cs : side_by_side (c :: cs) -> side_by_side cs.
Proof.
  intros H i j d x y Hij Hjd H1 H2 H3. apply at_znth in H1, H2, H3.
  assert (forall k v, 0 <= k -> znth cs k = Some v -> at_ (c :: cs) (1 + k) = Ok v) as A.
  { intros k v Hk E. apply znth_at. rewrite znth_cons by lia. now replace (1 + k - 1) with k by lia. }
  apply (H (1 + i) (1 + j) (1 + d) x y); try lia; apply A; auto; lia.
Qed.
Lemma side_head c d cs : side_by_side (c :: d :: cs) -> c <> d -> ~ In c cs.
Proof.
  intros H Hne Hin. apply In_znth in Hin as (i & Hi). pose proof (znth_range _ _ _ Hi).
  apply Hne. symmetry. apply (H 0 1 (2 + i) c d); [lia|lia|apply znth_at; reflexivity|apply znth_at; reflexivity|].
  apply znth_at. rewrite !znth_cons by lia. now replace (2 + i - 1 - 1) with i by lia.
Qed.
Lemma park_NoDup : forall cs last, Forall (fun c => 0 < c) cs -> 0 < last -> side_by_side (last :: cs) -> NoDup (park_commit last cs).
Proof.
  induction cs as [|c cs IH]; intros last H Hl Hs; cbn [park_commit].
  - replace (last =? 0) with false by lia. repeat constructor. intros [].
  - inversion H; subst. assert (NoDup (park_commit c cs)) as N by (apply IH; auto; eapply side_tail; eauto).
    replace (last =? 0) with false by lia. destruct (Z.eqb_spec c last) as [->|Hne]; cbn; [exact N|].
    constructor; [|exact N]. rewrite park_In by assumption. intros [[_ X]|X]; [congruence|]. eapply side_head; [exact Hs| |exact X]. congruence.
Qed.
Lemma park_NoDup0 cs : Forall (fun c => 0 < c) cs -> side_by_side cs -> NoDup (park_commit 0 cs).
Proof.
  intros H Hs. destruct cs as [|c cs]; cbn [park_commit]; [constructor|]. rewrite andb_false_r. cbn [app]. inversion H; subst. now apply park_NoDup.
Qed.

(** ** Deadlock *)
Lemma deadlock_free (ts : list (list Z * list Z)) : ts <> [] -> Forall (fun t => rising (fst t ++ snd t)) ts ->
  exists t, In t ts /\ (finished t \/ can_go ts t).
Proof.
  intros Hne Hr.
  assert (forall us : list (list Z * list Z), us <> [] -> (forall u, In u us -> exists a r, snd u = a :: r) ->
    exists u a r, In u us /\ snd u = a :: r /\ forall u' a' r', In u' us -> snd u' = a' :: r' -> a' <= a) as Max.
  { induction us as [|u us IH]; intros Hn Hu; [congruence|]. destruct (Hu u) as (a & r & E); [cbn; auto|].
    destruct us as [|u1 us].
    - exists u, a, r. split; [cbn; auto|]. split; [exact E|]. intros u' a' r' [->|[]] E'. rewrite E in E'. injection E' as <- _. lia.
    - destruct IH as (v & b & s & I1 & I2 & I3); [discriminate|intros w Hw; apply Hu; cbn; cbn in Hw; tauto|].
      destruct (Z_le_dec a b).
      + exists v, b, s. split; [cbn; cbn in I1; tauto|]. split; [exact I2|]. intros u' a' r' [<-|H] E'; [rewrite E in E'; injection E' as <- _; lia|eauto].
      + exists u, a, r. split; [cbn; auto|]. split; [exact E|]. intros u' a' r' [<-|H] E'; [rewrite E in E'; injection E' as <- _; lia|].
        specialize (I3 _ _ _ H E'). lia. }
  destruct (existsb (fun t => match snd t with [] => true | _ => false end) ts) eqn:Ef.
  - apply existsb_exists in Ef as (t & Ht & E). exists t. split; [exact Ht|]. left. unfold finished. destruct (snd t); [reflexivity|discriminate].
  - destruct (Max ts Hne) as (u & a & r & I1 & I2 & I3).
    { intros u Hu. destruct (snd u) as [|a r] eqn:E; [|eauto]. exfalso.
      assert (existsb (fun t => match snd t with [] => true | _ => false end) ts = true) as X; [|congruence].
      apply existsb_exists. exists u. split; [exact Hu|]. now rewrite E. }
    exists u. split; [exact I1|]. right. exists a, r. split; [exact I2|]. intros t' Ht' Hin.
    destruct (snd t') as [|a' r'] eqn:E.
    + assert (existsb (fun t => match snd t with [] => true | _ => false end) ts = true) as X; [|congruence].
      apply existsb_exists. exists t'. split; [exact Ht'|]. now rewrite E.
    + specialize (I3 t' a' r' Ht' E). rewrite Forall_forall in Hr. specialize (Hr t' Ht'). rewrite E in Hr.
      apply in_split in Hin as (p & q & Ep). rewrite Ep in Hr. rewrite <- app_assoc in Hr. cbn in Hr.
      assert (rising (a :: q ++ a' :: r')) as X. { clear - Hr. unfold rising in *. induction p; [exact Hr|]. inversion Hr; subst. auto. }
      inversion X as [|? ? _ Y]; subst. rewrite Forall_forall in Y. specialize (Y a'). rewrite in_app_iff in Y. cbn in Y. specialize (Y ltac:(auto)). lia.
Qed.
