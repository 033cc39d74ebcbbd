(** Proofs about sets without deletions. *)
From Verif Require Import Base Base_lemmas Zlist Hash_model Hash_proof Map_proof Set_model Set_spec.

Section set_proof.
Context {K : Type}.
Variable key_str : K -> list Z.
Variable hash : list Z -> Z.
Variable zk : K.
Notation keq := (key_equal key_str).
Notation nset := (nset K).
Notation find := (find key_str hash).
Notation step := (step key_str hash zk).
Notation run := (run key_str hash zk).

Definition sinv (s : nset) : Prop :=
  tinv key_str hash (hash_table s) (key_data s) (length_ s) (capacity s) /\
  4 * length_ s <= 3 * capacity s /\ 100 <= capacity s /\
  (forall p v, znth (hash_table s) p = Some v -> hash_value_deleted v = false) /\
  used (hash_table s) <= length_ s.

Definition elems (s : nset) : list K := firstn (Z.to_nat (length_ s)) (key_data s).

Lemma znth_elems s i : sinv s -> 0 <= i -> znth (elems s) i = if i <? length_ s then znth (key_data s) i else None.
Proof using.
  intros (I & _) Hi. pose proof (t_len _ _ _ _ _ _ I). unfold elems. rewrite znth_firstn by lia. now rewrite Z2Nat.id by lia.
Qed.

Lemma elems_len s : sinv s -> zlen (elems s) = length_ s.
Proof using.
  intros (I & _). pose proof (t_len _ _ _ _ _ _ I). pose proof (t_keys _ _ _ _ _ _ I). unfold elems. rewrite zlen_firstn. lia.
Qed.

Lemma mem_cases s k : sinv s ->
  (mem keq (elems s) k = true /\ exists i k', 0 <= i < length_ s /\ znth (key_data s) i = Some k' /\ keq k' k = true) \/
  (mem keq (elems s) k = false /\ absent key_str (key_data s) (length_ s) k).
Proof using.
  intros Hs. unfold mem. destruct (existsb _ _) eqn:E.
  - left. split; [reflexivity|]. apply existsb_exists in E as (k' & Hin & Hk). apply In_znth in Hin as [i Hi].
    pose proof (znth_range _ _ _ Hi) as Hr. rewrite elems_len in Hr by assumption. rewrite znth_elems in Hi by (auto; lia).
    replace (i <? length_ s) with true in Hi by lia. eauto.
  - right. split; [reflexivity|]. intros i k' Hi Hk. destruct (keq k' k) eqn:Ek; [|reflexivity].
    assert (existsb (fun x => keq x k) (elems s) = true); [|congruence]. apply existsb_exists. exists k'. split; [|exact Ek].
    apply (znth_In _ i). rewrite znth_elems by (auto; lia). now replace (i <? length_ s) with true by lia.
Qed.

Lemma find_cases s k : sinv s ->
  (mem keq (elems s) k = true /\ exists p i k', find s k = Ok p /\ znth (hash_table s) p = Some (live_entry i) /\
      0 <= i < length_ s /\ znth (key_data s) i = Some k' /\ keq k' k = true) \/
  (mem keq (elems s) k = false /\ exists d v, 0 <= d < capacity s /\
      find s k = Ok (pos (capacity s) (home key_str hash (capacity s) k) d) /\
      znth (hash_table s) (pos (capacity s) (home key_str hash (capacity s) k) d) = Some v /\ hash_value_empty v = true /\
      hash_value_deleted v = false /\ absent key_str (key_data s) (length_ s) k /\
      forall d', 0 <= d' < d -> nonempty (hash_table s) (pos (capacity s) (home key_str hash (capacity s) k) d')).
Proof using.
  intros Hs. pose proof Hs as (I & Hld & Hcap & Hnd & Hu). unfold Set_model.find.
  destruct (mem_cases s k Hs) as [(Hm & i & k' & Hi & Hk & Hkk)|(Hm & Ha)].
  - left. split; [exact Hm|]. destruct (find_present key_str hash _ _ _ _ i k k' I Hi Hk Hkk) as (p & Hf & Hp). exists p, i, k'. auto.
  - right. split; [exact Hm|]. destruct (find_absent key_str hash _ _ _ _ k I Ha) as [[_ Hall]|(d & v & Hd & Hf & Hv & Hfree & Hch)].
    + pose proof (used_all _ _ (t_table _ _ _ _ _ _ I) Hall). lia.
    + exists d, v. specialize (Hnd _ _ Hv). rewrite Hnd, Bool.orb_false_r in Hfree. auto 10.
Qed.

Lemma add_slot_spec s k : sinv s -> 4 * (length_ s + 1) <= 3 * capacity s -> length_ s + 1 < max_index ->
  exists s', add_slot key_str hash s k = Ok (s', negb (mem keq (elems s) k)) /\ sinv s' /\ capacity s' = capacity s /\
    (elems s' = (if mem keq (elems s) k then elems s' else elems s ++ [k])) /\
    length_ s' = length_ s + (if mem keq (elems s) k then 0 else 1) /\
    (mem keq (elems s) k = true -> forall x, mem keq (elems s') x = mem keq (elems s) x).
Proof using.
  intros Hs Hroom Hsm. pose proof Hs as (I & Hld & Hcap & Hnd & Hu).
  pose proof (t_len _ _ _ _ _ _ I) as Hlen. pose proof (t_keys _ _ _ _ _ _ I) as Hkl. pose proof (t_small _ _ _ _ _ _ I) as Hsm0.
  unfold add_slot.
  destruct (find_cases s k Hs) as [(Hm & p & i & k' & -> & Hp & Hi & Hk & Hkk)|(Hm & d & v & Hd & -> & Hv & He & Hde & Ha & Hch)];
    rewrite Hm; cbn [bind negb].
  - rewrite (rd_ok _ _ _ Hp). cbn [bind]. rewrite live_nonempty, live_not_deleted, live_index by lia.
    rewrite !wr_ok by (try apply (znth_range _ _ _ Hp); lia). cbn [bind].
    rewrite (list_set_same (hash_table s) p) by assumption.
    eexists. split; [reflexivity|].
    assert (Hs' : sinv (mk_set (hash_table s) (list_set (key_data s) (Z.to_nat i) k) (length_ s) (capacity s))).
    { split; [|cbn [hash_table length_ capacity]; auto]. cbn [hash_table key_data length_ capacity]. now apply tinv_rekey with (k' := k'). }
    split; [exact Hs'|]. split; [reflexivity|]. split; [reflexivity|]. split; [cbn [length_]; lia|].
    intros _ x. assert (G : forall a b, keq a b = true -> keq a x = keq b x).
    { intros a b Hab. apply keq_iff in Hab. unfold key_equal. now rewrite Hab. }
    unfold mem. apply Bool.eq_true_iff_eq. rewrite !existsb_exists. split; intros (y & Hin & Hy).
    + apply In_znth in Hin as [j Hj]. pose proof (znth_range _ _ _ Hj) as Hr. rewrite elems_len in Hr by assumption. cbn [length_] in Hr.
      rewrite znth_elems in Hj by (auto; lia). cbn [length_ key_data] in Hj. replace (j <? length_ s) with true in Hj by lia.
      rewrite znth_list_set_z in Hj by lia. destruct (Z.eqb_spec j i) as [Eji|].
      * injection Hj as <-. exists k'. split; [|now rewrite (G k' k)]. apply (znth_In _ i). rewrite znth_elems by (auto; lia).
        now replace (i <? length_ s) with true by lia.
      * exists y. split; [|exact Hy]. apply (znth_In _ j). rewrite znth_elems by (auto; lia). now replace (j <? length_ s) with true by lia.
    + apply In_znth in Hin as [j Hj]. pose proof (znth_range _ _ _ Hj) as Hr. rewrite elems_len in Hr by assumption.
      rewrite znth_elems in Hj by (auto; lia). replace (j <? length_ s) with true in Hj by lia.
      destruct (Z.eq_dec j i) as [Eji|]; [subst j|].
      * rewrite Hk in Hj. injection Hj as <-. exists k. split; [|now rewrite <- (G k' k)].
        apply (znth_In _ i). rewrite znth_elems by (auto; lia). cbn [length_ key_data]. replace (i <? length_ s) with true by lia.
        rewrite znth_list_set_z by lia. now rewrite Z.eqb_refl.
      * exists y. split; [|exact Hy]. apply (znth_In _ j). rewrite znth_elems by (auto; lia). cbn [length_ key_data].
        replace (j <? length_ s) with true by lia. rewrite znth_list_set_z by lia. now replace (j =? i) with false by lia.
  - rewrite (rd_ok _ _ _ Hv). cbn [bind]. rewrite He. rewrite !wr_ok by (try apply (znth_range _ _ _ Hv); lia). cbn [bind].
    eexists. split; [reflexivity|].
    assert (Hlen1 : u64 (length_ s + 1) = length_ s + 1) by (unfold u64; unfold max_index in Hsm; lia). rewrite Hlen1.
    match goal with |- sinv ?x /\ _ => assert (Hs' : sinv x) end.
    { split; [|split; [|split; [|split]]]; cbn [hash_table key_data length_ capacity].
      - apply tinv_insert with (v := v); auto; [lia|]. now rewrite He.
      - lia.
      - lia.
      - intros q w Hw. rewrite znth_list_set_z in Hw by (apply (znth_range _ _ _ Hv)). destruct (q =? _); [|eauto].
        injection Hw as <-. apply live_not_deleted. lia.
      - rewrite (used_set _ _ v) by assumption. rewrite He, live_nonempty by lia. lia. }
    split; [exact Hs'|]. split; [reflexivity|]. split; [|split; [reflexivity|discriminate]].
    apply znth_ext. intros j Hj. rewrite znth_elems by assumption. cbn [length_ key_data]. rewrite znth_snoc by lia.
    rewrite elems_len by assumption. rewrite znth_list_set_z by lia. rewrite znth_elems by (auto; lia).
    destruct (Z.eqb_spec j (length_ s)) as [Ej|].
    + replace (j <? length_ s + 1) with true by lia. now replace (j <? length_ s) with false by lia.
    + destruct (Z.ltb_spec j (length_ s)); destruct (Z.ltb_spec j (length_ s + 1)); try lia; reflexivity.
Qed.

Lemma fresh_sinv c : 100 <= c -> sinv (fresh zk c) /\ elems (fresh zk c) = [].
Proof using.
  intros H. split; [|reflexivity]. unfold fresh. split; [|split; [|split; [|split]]]; cbn [hash_table key_data length_ capacity].
  - apply tinv_fresh. lia.
  - lia.
  - lia.
  - intros p v Hv. pose proof (znth_range _ _ _ Hv) as Hr. rewrite zlen_repeat in Hr. rewrite znth_repeat in Hv by lia.
    injection Hv as <-. reflexivity.
  - rewrite used_fresh. lia.
Qed.

Lemma grow_spec s : sinv s -> exists s', grow key_str hash zk s = Ok s' /\ sinv s' /\ elems s' = elems s /\ capacity s' = 2 * capacity s.
Proof using.
  intros Hs. pose proof Hs as (I & Hld & Hcap & Hnd & Hu). unfold grow.
  pose proof (t_len _ _ _ _ _ _ I) as Hlen. pose proof (t_keys _ _ _ _ _ _ I) as Hkl. pose proof (t_small _ _ _ _ _ _ I) as Hsm.
  assert (G : forall n new i, 0 <= i <= length_ s -> length_ s < i + Z.of_nat n -> sinv new ->
     elems new = firstn (Z.to_nat i) (elems s) -> capacity new = 2 * capacity s ->
     exists s', rehash key_str hash n s new i = Ok s' /\ sinv s' /\ elems s' = elems s /\ capacity s' = 2 * capacity s).
  { induction n as [|n IH]; intros new i Hi Hn Hnew He Hc; [lia|]. cbn [rehash].
    destruct (Z.ltb_spec i (length_ s)).
    - destruct (znth_Some (key_data s) i ltac:(lia)) as [k Hk]. rewrite (rd_ok _ _ _ Hk). cbn [bind].
      destruct (find_present key_str hash _ _ _ _ i k k I ltac:(lia) Hk (keq_refl _ _)) as (p & Hf & Hp).
      unfold Set_model.find at 1. rewrite Hf. cbn [bind]. rewrite (rd_ok _ _ _ Hp). cbn [bind]. rewrite live_not_deleted by lia.
      assert (Hnl : length_ new = i) by (rewrite <- (elems_len new Hnew), He, zlen_firstn, elems_len by assumption; lia).
      assert (Hm : mem keq (elems new) k = false).
      { destruct (mem_cases new k Hnew) as [(_ & j & kj & Hj & Hkj & Hjk)|[Hm _]]; [|exact Hm]. exfalso.
        assert (Hj' : znth (elems new) j = Some kj) by (rewrite znth_elems by (auto; lia); now replace (j <? length_ new) with true by lia).
        rewrite He, znth_firstn in Hj' by lia. replace (j <? Z.of_nat (Z.to_nat i)) with true in Hj' by lia.
        rewrite znth_elems in Hj' by (auto; lia). replace (j <? length_ s) with true in Hj' by lia.
        assert (j = i); [|lia]. apply (t_dist _ _ _ _ _ _ I _ _ kj k); auto; lia. }
      destruct (add_slot_spec new k Hnew ltac:(lia) ltac:(lia)) as (s' & Ea & Hs' & Hc' & He' & Hl' & _).
      rewrite Ea. cbn [bind fst]. rewrite Hm in *. apply IH; auto; try lia.
      rewrite He', He. apply znth_ext. intros j Hj. rewrite znth_snoc by lia. rewrite zlen_firstn, elems_len by assumption.
      replace (Z.min (Z.of_nat (Z.to_nat i)) (length_ s)) with i by lia. rewrite !znth_firstn, !Z2Nat.id by lia.
      rewrite znth_elems by (auto; lia).
      destruct (Z.eqb_spec j i) as [Ej|].
      + subst j. replace (i <? i + 1) with true by lia. replace (i <? length_ s) with true by lia. now replace (i <? i) with false by lia.
      + destruct (Z.ltb_spec j i); destruct (Z.ltb_spec j (i + 1)); try lia; reflexivity.
    - exists new. split; [reflexivity|]. split; [exact Hnew|]. split; [|exact Hc]. rewrite He. apply firstn_all2.
      pose proof (elems_len s Hs) as Hl. unfold zlen in Hl. lia. }
  destruct (fresh_sinv (capacity s * 2) ltac:(lia)) as (F1 & F2).
  apply G; auto; try lia. cbn [fresh capacity]. lia.
Qed.

Definition gsinv (s : nset) : Prop := sinv s \/ s = set_zero.

Lemma add_spec s k : sinv s -> length_ s + 1 < max_index ->
  exists s', set_add key_str hash zk s k = Ok (s', negb (mem keq (elems s) k)) /\ sinv s' /\ length_ s' <= length_ s + 1 /\
    forall x, mem keq (elems s') x = mem keq (k :: elems s) x.
Proof using.
  intros Hs Hsm. unfold set_add. pose proof Hs as (_ & Hld & Hcap & _). replace (capacity s =? 0) with false by lia.
  assert (E : exists s1, (if need_grow s then grow key_str hash zk s else Ok s) = Ok s1 /\ sinv s1 /\ elems s1 = elems s /\
                4 * (length_ s1 + 1) <= 3 * capacity s1).
  { unfold need_grow. destruct (Z.ltb_spec (3 * capacity s) (4 * (length_ s + 1))).
    - destruct (grow_spec s Hs) as (s1 & E1 & Hs1 & He1 & Hc1). exists s1. split; [exact E1|]. split; [exact Hs1|]. split; [exact He1|].
      rewrite <- (elems_len s1), He1, elems_len by assumption. lia.
    - exists s. auto. }
  destruct E as (s1 & -> & Hs1 & He1 & Hroom). cbn [bind].
  assert (Hl1 : length_ s1 = length_ s) by (rewrite <- (elems_len s1), He1, elems_len by assumption; reflexivity).
  destruct (add_slot_spec s1 k Hs1 Hroom ltac:(lia)) as (s' & Ea & Hs' & _ & He' & Hl' & Hm').
  rewrite He1 in *. exists s'. split; [exact Ea|]. split; [exact Hs'|]. split; [destruct (mem _ _ _); lia|].
  intros x. destruct (mem keq (elems s) k) eqn:Em.
  - rewrite Hm' by reflexivity. cbn. destruct (keq k x) eqn:Ekx; [|reflexivity]. cbn.
    unfold mem in *. apply existsb_exists in Em as (y & Hin & Hy). apply existsb_exists. exists y. split; [exact Hin|].
    apply keq_iff in Hy. apply keq_iff in Ekx. apply keq_iff. congruence.
  - rewrite He'. unfold mem. rewrite existsb_app. cbn. rewrite Bool.orb_false_r. apply Bool.orb_comm.
Qed.

Lemma contains_spec s k : sinv s -> set_contains key_str hash s k = Ok (mem keq (elems s) k).
Proof using.
  intros Hs. pose proof Hs as (I & Hld & Hcap & _). pose proof (t_small _ _ _ _ _ _ I). unfold set_contains. replace (capacity s =? 0) with false by lia.
  destruct (find_cases s k Hs) as [(Hm & p & i & k' & -> & Hp & Hi & Hk & Hkk)|(Hm & d & v & Hd & -> & Hv & He & Hde & Ha & Hch)];
    rewrite Hm; cbn [bind].
  - rewrite (rd_ok _ _ _ Hp). cbn [bind]. now rewrite live_nonempty, live_not_deleted by lia.
  - rewrite (rd_ok _ _ _ Hv). cbn [bind]. now rewrite He.
Qed.

Lemma run_spec l : forall s a, gsinv s -> (forall x, mem keq (elems s) x = mem keq a x) -> Forall no_delete l ->
  length_ s + zlen l < max_index ->
  exists s', run s l = Ok (s', spec_run keq a l).
Proof using.
  assert (Hnew : sinv (set_new zk) /\ elems (set_new zk) = []).
  { apply fresh_sinv. unfold SET_DEFAULT_CAPACITY. lia. }
  induction l as [|o l IH]; intros s a Hs Ha Hl Hsm.
  - exists s. reflexivity.
  - inversion Hl as [|? ? Ho Hl']; subst. rewrite zlen_cons in Hsm. pose proof (zlen_nonneg l). cbn [Set_model.run].
    destruct o as [k|k|k]; [|destruct Ho|].
    + cbn [Set_model.step].
      assert (E : exists s', set_add key_str hash zk s k = Ok (s', negb (mem keq (elems s) k)) /\ sinv s' /\ length_ s' <= length_ s + 1 /\
          forall x, mem keq (elems s') x = mem keq (k :: elems s) x).
      { destruct Hs as [Hs| ->]; [apply add_spec; [exact Hs|lia]|].
        change (set_add key_str hash zk set_zero k) with (set_add key_str hash zk (set_new zk) k).
        change (elems set_zero) with (elems (set_new zk)). change (length_ set_zero) with (length_ (set_new zk)).
        apply add_spec; [apply Hnew|]. cbn [set_new fresh length_]. cbn [set_zero length_] in Hsm. lia. }
      destruct E as (s' & -> & Hs' & Hl1 & Hm'). cbn [bind fst snd].
      destruct (IH s' (k :: a)) as (s'' & ->); [now left| |assumption|lia|].
      { intros x. rewrite Hm'. specialize (Ha x). unfold mem in *. cbn [existsb]. now rewrite Ha. }
      cbn [bind]. exists s''. cbn [spec_run spec_obs spec_step]. now rewrite Ha.
    + cbn [Set_model.step].
      assert (E : set_contains key_str hash s k = Ok (mem keq (elems s) k)).
      { destruct Hs as [Hs| ->]; [now apply contains_spec|reflexivity]. }
      rewrite E. cbn [bind]. destruct (IH s a Hs Ha Hl' ltac:(lia)) as (s'' & ->). cbn [bind]. exists s''.
      cbn [spec_run spec_obs spec_step]. now rewrite Ha.
Qed.

Lemma empty_gsinv s : empty_set zk s -> gsinv s /\ elems s = [] /\ length_ s = 0.
Proof using.
  intros [->| ->]; [|split; [now right|auto]]. destruct (fresh_sinv SET_DEFAULT_CAPACITY ltac:(unfold SET_DEFAULT_CAPACITY; lia)) as [H1 H2].
  split; [now left|]. split; [exact H2|reflexivity].
Qed.
End set_proof.

(** The specification only depends on which of the history's keys are the same. *)
Lemma set_spec_ext {K} (same same' : K -> K -> bool) (P : K -> Prop) :
  (forall a b, P a -> P b -> same a b = same' a b) ->
  forall l a, Forall P a -> Forall (fun o => P (op_key o)) l -> spec_run same a l = spec_run same' a l.
Proof.
  intros Hag. assert (M : forall a k, Forall P a -> P k -> mem same a k = mem same' a k).
  { intros a k Ha Hk. unfold mem. induction Ha as [|x a Hx Ha IH]; [reflexivity|]. cbn. now rewrite Hag, IH. }
  induction l as [|o l IH]; intros a Ha Hl; [reflexivity|]. inversion Hl as [|? ? Ho Hl']; subst. cbn [spec_run].
  f_equal.
  - destruct o; cbn in *; rewrite ?M; auto.
  - destruct o as [k|k|k]; cbn [op_key spec_step] in *.
    + apply IH; auto.
    + replace (filter (fun x => negb (same x k)) a) with (filter (fun x => negb (same' x k)) a).
      * apply IH; auto. rewrite Forall_forall in *. intros x Hx. apply filter_In in Hx. now apply Ha.
      * apply filter_ext_in. intros x Hx. rewrite Forall_forall in Ha. now rewrite Hag by auto.
    + apply IH; auto.
Qed.
