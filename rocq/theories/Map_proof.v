(** Proofs about maps: the table refines a finite map. *)
From Verif Require Import Base Base_lemmas Zlist Hash_model Hash_proof Map_model Map_spec.
From Coq Require Import Permutation.

Lemma list_set_twice {A} (l : list A) n x y : list_set (list_set l n x) n y = list_set l n y.
Proof. revert n; induction l as [|a l IH]; intros [|n]; cbn; congruence. Qed.

Lemma list_set_same {A} (l : list A) i x : znth l i = Some x -> list_set l (Z.to_nat i) x = l.
Proof.
  intros H. pose proof (znth_range _ _ _ H). apply znth_ext. intros j Hj. rewrite znth_list_set_z by lia.
  destruct (Z.eqb_spec j i) as [->|]; congruence.
Qed.

Lemma znth_combine {A B} (l : list A) (m : list B) i :
  znth (combine l m) i =
  match znth l i, znth m i with Some a, Some b => Some (a, b) | _, _ => None end.
Proof.
  unfold znth. destruct (i <? 0); [reflexivity|]. generalize (Z.to_nat i). clear i. intros n.
  revert l m; induction n as [|n IH]; intros [|a l] [|b m]; cbn; auto.
  destruct (nth_error l n); auto.
Qed.

Lemma split_znth {A} (l : list A) i x : znth l i = Some x ->
  exists a b, l = a ++ x :: b /\ zlen a = i.
Proof.
  intros H. pose proof (znth_range _ _ _ H). unfold znth in H. replace (i <? 0) with false in H by lia.
  apply nth_error_split in H as (a & b & -> & Ha). exists a, b. split; [reflexivity|]. unfold zlen. lia.
Qed.

Lemma list_set_app {A} (a b : list A) x y : list_set (a ++ x :: b) (Z.to_nat (zlen a)) y = a ++ y :: b.
Proof. unfold zlen. rewrite Nat2Z.id. induction a; cbn; congruence. Qed.

Lemma Permutation_filter' {A} (f : A -> bool) l m : Permutation l m -> Permutation (filter f l) (filter f m).
Proof.
  induction 1 as [|x l m H IH|x y l|l m n _ IH1 _ IH2]; cbn.
  - constructor.
  - destruct (f x); auto.
  - destruct (f x), (f y); auto. constructor.
  - etransitivity; eauto.
Qed.

(** ** The specification does not depend on the order of the pairs *)
Section spec_proof.
Context {K V : Type}.
Variable key_str : K -> list Z.
Notation keq := (key_equal key_str).

Definition distinct (s : list (K * V)) : Prop := NoDup (map (fun e => key_str (fst e)) s).

Lemma distinct_perm s s' : Permutation s s' -> distinct s -> distinct s'.
Proof using. intros H. apply Permutation_NoDup. now apply Permutation_map. Qed.

Lemma lookup_In s e k : distinct s -> In e s -> keq (fst e) k = true -> lookup keq s k = Some (snd e).
Proof using.
  unfold distinct, lookup. induction s as [|x s IH]; [intros _ []|]. cbn. intros Hd Hin Hk. inversion Hd; subst.
  destruct (keq (fst x) k) eqn:Ex.
  - destruct Hin as [->|Hin]; [reflexivity|]. exfalso. apply H1.
    apply keq_iff in Hk. apply keq_iff in Ex. apply in_map_iff. exists e. split; [congruence|exact Hin].
  - destruct Hin as [->|Hin]; [congruence|]. now apply IH.
Qed.

Lemma lookup_None (s : list (K * V)) k : (forall e, In e s -> keq (fst e) k = false) -> lookup keq s k = None.
Proof using.
  intros H. unfold lookup. destruct (List.find _ s) eqn:E; [|reflexivity]. apply find_some in E as [Hin Hk].
  rewrite H in Hk by assumption. discriminate.
Qed.

Lemma remove_absent (s : list (K * V)) k : (forall e, In e s -> keq (fst e) k = false) -> remove keq s k = s.
Proof using.
  intros H. unfold remove. induction s as [|x s IH]; [reflexivity|]. cbn. rewrite H by now left. cbn.
  f_equal. apply IH. intros e He. apply H. now right.
Qed.

Lemma remove_mid (a b : list (K * V)) e k : distinct (a ++ e :: b) -> keq (fst e) k = true ->
  remove keq (a ++ e :: b) k = a ++ b.
Proof using.
  intros Hd Hk. unfold distinct in Hd. rewrite map_app in Hd. cbn in Hd. apply NoDup_remove_2 in Hd.
  assert (Hn : forall x, In x (a ++ b) -> keq (fst x) k = false).
  { intros x Hx. destruct (keq (fst x) k) eqn:Ex; [|reflexivity]. exfalso. apply Hd. rewrite <- map_app.
    apply in_map_iff. exists x. split; [|exact Hx]. apply keq_iff in Ex. apply keq_iff in Hk. congruence. }
  unfold remove. rewrite filter_app. cbn. rewrite Hk. cbn. rewrite <- filter_app. now apply remove_absent.
Qed.

Lemma remove_perm (s s' : list (K * V)) k : Permutation s s' -> Permutation (remove keq s k) (remove keq s' k).
Proof using. apply Permutation_filter'. Qed.

Lemma remove_distinct (s : list (K * V)) k : distinct s -> distinct (remove keq s k).
Proof using.
  unfold distinct, remove. induction s as [|x s IH]; cbn; auto. intros H. inversion H; subst.
  destruct (negb (keq (fst x) k)); cbn; auto. constructor; auto. intros Hin. apply H2.
  apply in_map_iff in Hin as (y & Hy & Hin). apply filter_In in Hin as [Hin _]. apply in_map_iff. eauto.
Qed.

Lemma put_distinct (s : list (K * V)) k v : distinct s -> distinct (put keq s k v).
Proof using.
  intros H. unfold put, distinct. cbn. constructor; [|now apply remove_distinct].
  intros Hin. apply in_map_iff in Hin as (y & Hy & Hin). apply filter_In in Hin as [Hin Hk].
  assert (keq (fst y) k = true) by (now apply keq_iff). rewrite H0 in Hk. discriminate.
Qed.

Lemma remove_len (s : list (K * V)) k : zlen (remove keq s k) <= zlen s.
Proof using.
  unfold remove. induction s as [|x s IH]; [cbn; lia|]. cbn [filter]. destruct (negb _); rewrite ?zlen_cons; lia.
Qed.
End spec_proof.

Section map_proof.
Context {K V : Type}.
Variable key_str : K -> list Z.
Variable hash : list Z -> Z.
Variable zk : K.
Variable zv : V.
Notation keq := (key_equal key_str).
Notation nmap := (nmap K V).
Notation find := (find key_str hash).
Notation assign := (assign key_str hash zk zv).
Notation map_assign := (map_assign key_str hash zk zv).
Notation map_delete := (map_delete key_str hash zk zv).
Notation run := (run key_str hash zk zv).
Notation step := (step key_str hash zk zv).

Definition minv (m : nmap) : Prop :=
  tinv key_str hash (hash_table m) (key_data m) (length_ m) (capacity m) /\
  zlen (value_data m) = capacity m /\ 4 * length_ m <= 3 * capacity m /\ 16 <= capacity m.

Definition pairs (m : nmap) : list (K * V) :=
  combine (firstn (Z.to_nat (length_ m)) (key_data m)) (firstn (Z.to_nat (length_ m)) (value_data m)).

Lemma znth_pairs m i : minv m -> 0 <= i ->
  znth (pairs m) i = if i <? length_ m
                     then match znth (key_data m) i, znth (value_data m) i with Some a, Some b => Some (a, b) | _, _ => None end
                     else None.
Proof using.
  intros (I & _) Hi. pose proof (t_len _ _ _ _ _ _ I). unfold pairs. rewrite znth_combine, !znth_firstn by lia.
  destruct (Z.ltb_spec i (length_ m)).
  - replace (i <? Z.of_nat (Z.to_nat (length_ m))) with true by lia. reflexivity.
  - replace (i <? Z.of_nat (Z.to_nat (length_ m))) with false by lia. reflexivity.
Qed.

Lemma pairs_len m : minv m -> zlen (pairs m) = length_ m.
Proof using.
  intros (I & Hv & _). pose proof (t_len _ _ _ _ _ _ I). pose proof (t_keys _ _ _ _ _ _ I). unfold pairs, zlen in *.
  rewrite combine_length, !firstn_length. lia.
Qed.

Lemma pairs_get m i : minv m -> 0 <= i < length_ m ->
  exists k v, znth (key_data m) i = Some k /\ znth (value_data m) i = Some v /\ znth (pairs m) i = Some (k, v).
Proof using.
  intros Hm Hi. pose proof Hm as (I & Hv & _). pose proof (t_len _ _ _ _ _ _ I). pose proof (t_keys _ _ _ _ _ _ I).
  destruct (znth_Some (key_data m) i ltac:(lia)) as [k Hk]. destruct (znth_Some (value_data m) i ltac:(lia)) as [v Hvv].
  exists k, v. split; [assumption|]. split; [assumption|]. rewrite znth_pairs by (auto; lia).
  replace (i <? length_ m) with true by lia. now rewrite Hk, Hvv.
Qed.

Lemma pairs_key m i k v : minv m -> znth (pairs m) i = Some (k, v) ->
  0 <= i < length_ m /\ znth (key_data m) i = Some k /\ znth (value_data m) i = Some v.
Proof using.
  intros Hm H. pose proof (znth_range _ _ _ H) as Hr. rewrite pairs_len in Hr by assumption. split; [lia|].
  rewrite znth_pairs in H by (auto; lia). replace (i <? length_ m) with true in H by lia.
  destruct (znth (key_data m) i); [|discriminate]. destruct (znth (value_data m) i); [|discriminate].
  injection H as <- <-. auto.
Qed.

Lemma pairs_distinct m : minv m -> distinct key_str (pairs m).
Proof using.
  intros Hm. unfold distinct. apply NoDup_nth_error. intros i j Hi Hij. rewrite List.map_length in Hi.
  assert (Hlen := pairs_len m Hm). unfold zlen in Hlen.
  rewrite !nth_error_map in Hij.
  destruct (nth_error (pairs m) i) as [[ki vi]|] eqn:Ei; [|apply nth_error_None in Ei; lia].
  destruct (nth_error (pairs m) j) as [[kj vj]|] eqn:Ej; [|discriminate].
  cbn in Hij. injection Hij as Hij.
  assert (Zi : znth (pairs m) (Z.of_nat i) = Some (ki, vi)).
  { unfold znth. replace (Z.of_nat i <? 0) with false by lia. now rewrite Nat2Z.id. }
  assert (Zj : znth (pairs m) (Z.of_nat j) = Some (kj, vj)).
  { unfold znth. replace (Z.of_nat j <? 0) with false by lia. now rewrite Nat2Z.id. }
  apply pairs_key in Zi as (Hir & Hki & _); [|assumption]. apply pairs_key in Zj as (Hjr & Hkj & _); [|assumption].
  destruct Hm as (I & _).
  assert (Z.of_nat i = Z.of_nat j); [|lia].
  apply (t_dist _ _ _ _ _ _ I _ _ ki kj); auto. now apply keq_iff.
Qed.

(** Is key [k] stored, and where? *)
Lemma present_or_absent m k : minv m ->
  (exists i k' v, znth (pairs m) i = Some (k', v) /\ keq k' k = true) \/ absent key_str (key_data m) (length_ m) k.
Proof using.
  intros Hm. destruct (existsb (fun e => keq (fst e) k) (pairs m)) eqn:E.
  - left. apply existsb_exists in E as ([k' v] & Hin & Hk). apply In_znth in Hin as [i Hi]. now exists i, k', v.
  - right. intros i k' Hi Hk'. destruct (keq k' k) eqn:Ek; [|reflexivity]. exfalso.
    destruct (pairs_get m i Hm Hi) as (k'' & v & Hk'' & _ & Hp). rewrite Hk' in Hk''. injection Hk'' as <-.
    assert (existsb (fun e => keq (fst e) k) (pairs m) = true); [|congruence].
    apply existsb_exists. exists (k', v). split; [now apply (znth_In _ i)|exact Ek].
Qed.

Lemma absent_pairs m k : minv m -> absent key_str (key_data m) (length_ m) k ->
  forall e, In e (pairs m) -> keq (fst e) k = false.
Proof using.
  intros Hm Ha [k' v] Hin. apply In_znth in Hin as [i Hi]. apply pairs_key in Hi as (Hr & Hk & _); [|assumption].
  now apply (Ha i).
Qed.

(** ** Storing without growth *)
Lemma assign_present m k v i k' v' : minv m -> znth (pairs m) i = Some (k', v') -> keq k' k = true ->
  exists m', assign_slot key_str hash m k v = Ok m' /\ minv m' /\ pairs m' = list_set (pairs m) (Z.to_nat i) (k, v) /\
    used (hash_table m') = used (hash_table m) /\ length_ m' = length_ m /\ capacity m' = capacity m.
Proof using.
  intros Hm Hi Hk. pose proof Hm as (I & Hvl & Hload & Hcap). pose proof (pairs_key _ _ _ _ Hm Hi) as (Hir & Hki & Hvi).
  pose proof (t_len _ _ _ _ _ _ I) as Hlen. pose proof (t_keys _ _ _ _ _ _ I) as Hkl. pose proof (t_small _ _ _ _ _ _ I) as Hsm.
  destruct (find_present key_str hash _ _ _ _ i k k' I Hir Hki Hk) as (p & Hf & Hp).
  unfold assign_slot, Map_model.find. rewrite Hf. cbn [bind]. rewrite (rd_ok _ _ _ Hp). cbn [bind].
  rewrite live_nonempty, live_not_deleted, live_index by lia. cbn [orb].
  rewrite !wr_ok by (try apply (znth_range _ _ _ Hp); lia). cbn [bind].
  rewrite (list_set_same (hash_table m) p) by assumption.
  eexists. split; [reflexivity|].
  assert (Hm' : minv (mk_map (hash_table m) (list_set (key_data m) (Z.to_nat i) k) (list_set (value_data m) (Z.to_nat i) v) (length_ m) (capacity m))).
  { split; [|cbn; rewrite zlen_list_set; auto]. cbn. now apply tinv_rekey with (k' := k'). }
  split; [exact Hm'|]. split; [|cbn; auto].
  apply znth_ext. intros j Hj. rewrite znth_pairs by assumption. cbn.
  rewrite (znth_list_set_z (pairs m)) by (rewrite pairs_len by assumption; lia).
  rewrite !znth_list_set_z by lia. rewrite znth_pairs by (assumption || lia).
  destruct (Z.eqb_spec j i) as [->|]; [|reflexivity]. now replace (i <? length_ m) with true by lia.
Qed.

Lemma assign_absent m k v : minv m -> absent key_str (key_data m) (length_ m) k ->
  4 * (length_ m + 1) <= 3 * capacity m -> length_ m + 1 < max_index ->
  (assign_slot key_str hash m k v = Abort /\ used (hash_table m) = capacity m) \/
  exists m', assign_slot key_str hash m k v = Ok m' /\ minv m' /\ pairs m' = pairs m ++ [(k, v)] /\
    used (hash_table m') <= used (hash_table m) + 1 /\ length_ m' = length_ m + 1 /\ capacity m' = capacity m.
Proof using.
  intros Hm Ha Hroom Hsmall. pose proof Hm as (I & Hvl & Hload & Hcap).
  pose proof (t_len _ _ _ _ _ _ I) as Hlen. pose proof (t_keys _ _ _ _ _ _ I) as Hkl. pose proof (t_table _ _ _ _ _ _ I) as Htl.
  unfold assign_slot, Map_model.find.
  destruct (find_absent key_str hash _ _ _ _ k I Ha) as [[-> Hall]|(d & x & Hd & -> & Hx & Hfree & Hchain)].
  { left. split; [reflexivity|]. now apply used_all. }
  right. cbn [bind]. rewrite (rd_ok _ _ _ Hx). cbn [bind]. rewrite Hfree.
  rewrite !wr_ok by (try apply (znth_range _ _ _ Hx); lia). cbn [bind].
  eexists. split; [reflexivity|].
  match goal with |- minv ?m' /\ _ => assert (Hm' : minv m') end.
  { split; [|cbn [value_data length_ capacity]; rewrite zlen_list_set; split; [assumption|lia]].
    cbn [hash_table key_data length_ capacity]. apply tinv_insert with (v := x); auto. lia. }
  split; [exact Hm'|]. split; [|cbn [hash_table length_ capacity]; split; [|auto]].
  - apply znth_ext. intros j Hj. rewrite znth_pairs by assumption. cbn [value_data key_data length_]. rewrite znth_snoc by lia. rewrite pairs_len by assumption.
    rewrite !znth_list_set_z by lia. rewrite znth_pairs by (assumption || lia).
    destruct (Z.eqb_spec j (length_ m)) as [->|].
    + replace (length_ m <? length_ m + 1) with true by lia. rewrite ?Z.eqb_refl. now replace (length_ m <? length_ m) with false by lia.
    + destruct (Z.ltb_spec j (length_ m)); destruct (Z.ltb_spec j (length_ m + 1)); try lia; try reflexivity.
  - rewrite (used_set _ _ x) by assumption. rewrite live_nonempty by (pose proof (t_small _ _ _ _ _ _ I); lia).
    destruct (hash_value_empty x); lia.
Qed.

(** ** Growth *)
Lemma fresh_minv c : 16 <= c -> minv (fresh zk zv c) /\ pairs (fresh zk zv c) = [] /\ used (hash_table (fresh zk zv c)) = 0.
Proof using.
  intros H. split; [|split].
  - unfold fresh. split; cbn [hash_table key_data value_data length_ capacity]; [|rewrite zlen_repeat; lia]. apply tinv_fresh. lia.
  - reflexivity.
  - apply used_fresh.
Qed.

Lemma assign_nogrow f m k v : minv m -> 4 * (length_ m + 1) <= 3 * capacity m ->
  assign (S f) m k v = assign_slot key_str hash m k v.
Proof using.
  intros (I & _ & _ & Hc) H. cbn [Map_model.assign]. unfold init_if_needed. replace (capacity m =? 0) with false by lia.
  unfold need_grow. replace (3 * capacity m <? 4 * (length_ m + 1)) with false by lia. reflexivity.
Qed.

Lemma assign_grow f m k v : minv m -> 3 * capacity m < 4 * (length_ m + 1) ->
  exists m', minv m' /\ pairs m' = pairs m /\ used (hash_table m') <= length_ m' /\ length_ m' = length_ m /\ capacity m' = 2 * capacity m /\
    assign (S (S f)) m k v = assign_slot key_str hash m' k v.
Proof using.
  intros Hm Hg. pose proof Hm as (I & Hvl & Hload & Hcap). pose proof (t_len _ _ _ _ _ _ I) as Hlen.
  pose proof (t_small _ _ _ _ _ _ I) as Hsm.
  remember (S f) as f1 eqn:Ef. cbn [Map_model.assign].
  replace (init_if_needed zk zv m) with m by (unfold init_if_needed; now replace (capacity m =? 0) with false by lia).
  unfold need_grow at 1. replace (3 * capacity m <? 4 * (length_ m + 1)) with true by lia.
  match goal with |- context [bind (?F (Z.to_nat (length_ m)) m (fresh zk zv (capacity m * 2)) 0) _] => set (rehash := F) end.
  assert (G : forall n new i, 0 <= i -> i + Z.of_nat n = length_ m -> minv new -> pairs new = firstn (Z.to_nat i) (pairs m) ->
    capacity new = 2 * capacity m -> used (hash_table new) <= i ->
    exists m', rehash n m new i = Ok m' /\ minv m' /\ pairs m' = pairs m /\ used (hash_table m') <= length_ m /\ capacity m' = 2 * capacity m).
  { induction n as [|n IH]; intros new i Hi Hn Hnew Hp Hc Hu.
    - exists new. split; [reflexivity|]. split; [assumption|]. split; [|split; [lia|assumption]].
      rewrite Hp. apply firstn_all2. assert (Hpl := pairs_len m Hm). unfold zlen in Hpl. lia.
    - change (rehash (S n) m new i) with
        (k <- rd (key_data m) i ;; v <- rd (value_data m) i ;; hash_index <- find m k ;; hv <- rd (hash_table m) hash_index ;;
         if hash_value_deleted hv then rehash n m new (i + 1) else new <- assign f1 new k v ;; rehash n m new (i + 1)).
      destruct (pairs_get m i Hm ltac:(lia)) as (ki & vi & Hki & Hvi & Hpi).
      rewrite (rd_ok _ _ _ Hki), (rd_ok _ _ _ Hvi). cbn [bind].
      destruct (find_present key_str hash _ _ _ _ i ki ki I ltac:(lia) Hki (keq_refl _ _)) as (p & Hf & Hps).
      unfold Map_model.find. rewrite Hf. cbn [bind]. rewrite (rd_ok _ _ _ Hps). cbn [bind].
      rewrite live_not_deleted by lia.
      assert (Hnl : length_ new = i).
      { rewrite <- (pairs_len new Hnew), Hp, zlen_firstn, pairs_len by assumption. lia. }
      assert (Habs : absent key_str (key_data new) (length_ new) ki).
      { intros j kj Hj Hkj. destruct (keq kj ki) eqn:E; [|reflexivity]. exfalso.
        destruct (pairs_get new j Hnew Hj) as (kj' & vj & Hkj' & _ & Hpj). rewrite Hkj in Hkj'. injection Hkj' as <-.
        rewrite Hp, znth_firstn in Hpj by lia. replace (j <? Z.of_nat (Z.to_nat i)) with true in Hpj by lia.
        apply pairs_key in Hpj as (_ & Hkjm & _); [|assumption].
        assert (j = i); [|lia]. apply (t_dist _ _ _ _ _ _ I _ _ kj ki); auto; lia. }
      destruct (assign_absent new ki vi Hnew Habs ltac:(lia) ltac:(lia)) as [[_ Hfull]|(m' & Ha & Hm' & Hp' & Hu' & Hl' & Hc')].
      { lia. }
      replace (assign f1 new ki vi) with (Ok m') by (rewrite Ef, assign_nogrow by (auto; lia); now rewrite Ha).
      cbn [bind]. apply IH; try lia; auto.
      rewrite Hp', Hp. apply znth_ext. intros j Hj. rewrite znth_snoc by lia. rewrite zlen_firstn, pairs_len by assumption.
      replace (Z.min (Z.of_nat (Z.to_nat i)) (length_ m)) with i by lia. rewrite !znth_firstn by lia.
      rewrite !Z2Nat.id by lia.
      destruct (Z.eqb_spec j i) as [Eji|]; [subst j|].
      + replace (i <? i + 1) with true by lia. replace (i <? i) with false by lia. now rewrite Hpi.
      + destruct (Z.ltb_spec j i); destruct (Z.ltb_spec j (i + 1)); try lia; reflexivity. }
  destruct (fresh_minv (capacity m * 2) ltac:(lia)) as (F1 & F2 & F3).
  destruct (G (Z.to_nat (length_ m)) (fresh zk zv (capacity m * 2)) 0) as (m' & E & Hm' & Hp' & Hu' & Hc'); auto; try lia.
  { cbn [fresh capacity]. lia. }
  exists m'. split; [assumption|]. split; [assumption|].
  assert (length_ m' = length_ m) by (rewrite <- (pairs_len m'), Hp', pairs_len by assumption; reflexivity).
  split; [lia|]. split; [lia|]. split; [assumption|].
  rewrite E. reflexivity.
Qed.

(** ** The operations against the specification *)
Lemma minv_room m : minv m -> need_grow m = false -> 4 * (length_ m + 1) <= 3 * capacity m.
Proof using. unfold need_grow. lia. Qed.

Lemma put_pairs_absent m k v : minv m -> absent key_str (key_data m) (length_ m) k ->
  Permutation (pairs m ++ [(k, v)]) (put keq (pairs m) k v).
Proof using.
  intros Hm Ha. unfold put. rewrite remove_absent by (now apply absent_pairs). symmetry. apply Permutation_cons_append.
Qed.

Lemma put_pairs_present m i k k' v v' : minv m -> znth (pairs m) i = Some (k', v') -> keq k' k = true ->
  Permutation (list_set (pairs m) (Z.to_nat i) (k, v)) (put keq (pairs m) k v).
Proof using.
  intros Hm Hi Hk. pose proof (pairs_distinct m Hm) as Hd. destruct (split_znth _ _ _ Hi) as (a & b & E & <-).
  rewrite E in *. rewrite list_set_app. unfold put. rewrite remove_mid by assumption. symmetry. apply Permutation_middle.
Qed.

(** Slots in use beyond the live ones are paid for by deletions. *)
Definition inv (m : nmap) (s : list (K * V)) (d : Z) : Prop :=
  minv m /\ Permutation (pairs m) s /\ used (hash_table m) <= length_ m + d.

Lemma inv_len m s d : inv m s d -> length_ m = zlen s.
Proof using.
  intros (Hm & Hp & _). rewrite <- pairs_len by assumption. unfold zlen. now rewrite (Permutation_length Hp).
Qed.

Lemma inv_distinct m s d : inv m s d -> distinct key_str s.
Proof using. intros (Hm & Hp & _). eapply distinct_perm; [exact Hp|]. now apply pairs_distinct. Qed.

Lemma slot_spec m s d k v : inv m s d -> 0 <= d -> 4 * (length_ m + 1) <= 3 * capacity m -> zlen s + 1 < max_index ->
  (assign_slot key_str hash m k v = Abort /\ 4 <= d) \/
  exists m', assign_slot key_str hash m k v = Ok m' /\ inv m' (put keq s k v) d.
Proof using.
  intros Hi Hd0 Hroom Hs. pose proof (inv_len _ _ _ Hi) as Hlen. destruct Hi as (Hm & Hp & Hu).
  assert (Hput : Permutation (put keq (pairs m) k v) (put keq s k v)).
  { unfold put. constructor. now apply remove_perm. }
  destruct (present_or_absent m k Hm) as [(i & k' & v' & Hpi & Hk)|Ha].
  - right. destruct (assign_present m k v i k' v' Hm Hpi Hk) as (m' & E & Hm' & Hp' & Hu' & Hl' & _).
    exists m'. split; [exact E|]. split; [exact Hm'|]. split; [|lia].
    rewrite Hp'. etransitivity; [|exact Hput]. now apply put_pairs_present with (k' := k') (v' := v').
  - destruct (assign_absent m k v Hm Ha Hroom ltac:(lia)) as [[E Hfull]|(m' & E & Hm' & Hp' & Hu' & Hl' & Hc')].
    + left. split; [exact E|]. destruct Hm as (_ & _ & _ & Hc). lia.
    + right. exists m'. split; [exact E|]. split; [exact Hm'|]. split; [|lia].
      rewrite Hp'. etransitivity; [|exact Hput]. now apply put_pairs_absent.
Qed.

Lemma assign_spec m s d k v : inv m s d -> 0 <= d -> zlen s + 1 < max_index ->
  (map_assign m k v = Abort /\ 4 <= d) \/
  exists m', map_assign m k v = Ok m' /\ inv m' (put keq s k v) d.
Proof using.
  intros Hi Hd0 Hs. pose proof Hi as (Hm & Hp & Hu). unfold Map_model.map_assign.
  destruct (Z_lt_dec (3 * capacity m) (4 * (length_ m + 1))) as [Hg|Hg].
  - destruct (assign_grow 0 m k v Hm Hg) as (m1 & Hm1 & Hp1 & Hu1 & Hl1 & Hc1 & ->).
    destruct Hm as (_ & _ & Hld & Hc). apply slot_spec; auto; [|lia].
    split; [assumption|]. split; [now rewrite Hp1|lia].
  - rewrite assign_nogrow by (auto; lia). apply slot_spec; auto. lia.
Qed.

Lemma find_spec m s d k : inv m s d ->
  (find m k = Abort /\ 4 <= d /\ absent key_str (key_data m) (length_ m) k) \/
  (exists p x, find m k = Ok p /\ znth (hash_table m) p = Some x /\ hash_value_empty x || hash_value_deleted x = true /\
     absent key_str (key_data m) (length_ m) k) \/
  (exists p i k' v, find m k = Ok p /\ znth (hash_table m) p = Some (live_entry i) /\ znth (pairs m) i = Some (k', v) /\ keq k' k = true).
Proof using.
  intros (Hm & Hp & Hu). pose proof Hm as (I & Hvl & Hload & Hcap). unfold Map_model.find.
  destruct (present_or_absent m k Hm) as [(i & k' & v & Hpi & Hk)|Ha].
  - right. right. destruct (pairs_key _ _ _ _ Hm Hpi) as (Hir & Hki & _).
    destruct (find_present key_str hash _ _ _ _ i k k' I Hir Hki Hk) as (p & Hf & Hps). exists p, i, k', v. auto.
  - destruct (find_absent key_str hash _ _ _ _ k I Ha) as [[-> Hall]|(e & x & Hd & -> & Hx & Hfree & _)].
    + left. split; [reflexivity|]. split; [|exact Ha]. pose proof (used_all _ _ (t_table _ _ _ _ _ _ I) Hall). lia.
    + right. left. eauto 10.
Qed.

Lemma lookup_absent m s d k : inv m s d -> absent key_str (key_data m) (length_ m) k ->
  forall e, In e s -> keq (fst e) k = false.
Proof using.
  intros (Hm & Hp & _) Ha e He. apply (absent_pairs m k Hm Ha). eapply Permutation_in; [symmetry; exact Hp|exact He].
Qed.

Lemma lookup_present m s d k i k' v : inv m s d -> znth (pairs m) i = Some (k', v) -> keq k' k = true ->
  lookup keq s k = Some v.
Proof using.
  intros Hi Hpi Hk. change v with (snd (k', v)). apply lookup_In; [eapply inv_distinct; eauto| |exact Hk].
  destruct Hi as (_ & Hp & _). eapply Permutation_in; [exact Hp|]. now apply znth_In in Hpi.
Qed.

Lemma delete_spec m s d k : inv m s d ->
  (map_delete m k = Abort /\ 4 <= d) \/
  exists m', map_delete m k = Ok m' /\ inv m' (remove keq s k) (d + 1).
Proof using.
  intros Hi. pose proof Hi as (Hm & Hp & Hu). pose proof Hm as (I & Hvl & Hload & Hcap).
  pose proof (t_len _ _ _ _ _ _ I) as Hlen. pose proof (t_keys _ _ _ _ _ _ I) as Hkl.
  pose proof (t_small _ _ _ _ _ _ I) as Hsm.
  unfold Map_model.map_delete. replace (capacity m =? 0) with false by lia.
  destruct (find_spec m s d k Hi) as [(-> & H4 & _)|[(p & x & -> & Hx & Hfree & Ha)|(p & i & k' & v & Hf & Hps & Hpi & Hk)]].
  - left. auto.
  - right. cbn [bind]. rewrite (rd_ok _ _ _ Hx). cbn [bind]. rewrite Hfree. exists m. split; [reflexivity|].
    rewrite remove_absent by (eapply lookup_absent; eauto). split; [exact Hm|]. split; [exact Hp|lia].
  - right. rewrite Hf. cbn [bind]. rewrite (rd_ok _ _ _ Hps). cbn [bind].
    destruct (pairs_key _ _ _ _ Hm Hpi) as (Hir & Hki & Hvi).
    rewrite live_nonempty, live_not_deleted, live_index by lia. cbn [orb].
    destruct (pairs_get m (length_ m - 1) Hm ltac:(lia)) as (kl & vl & Hkl' & Hvl' & Hpl).
    destruct (find_present key_str hash _ _ _ _ (length_ m - 1) kl kl I ltac:(lia) Hkl' (keq_refl _ _)) as (pl & Hfl & Hpls).
    pose proof (znth_range _ _ _ Hps) as Hpr. pose proof (znth_range _ _ _ Hpls) as Hplr.
    set (T := list_set (list_set (hash_table m) (Z.to_nat pl) (live_entry i)) (Z.to_nat p) tombstone).
    set (KS := list_set (list_set (key_data m) (Z.to_nat i) kl) (Z.to_nat (length_ m - 1)) zk).
    set (VS := list_set (list_set (value_data m) (Z.to_nat i) vl) (Z.to_nat (length_ m - 1)) zv).
    assert (E : (m0 <- (if negb (i =? length_ m - 1) then
              last_key <- rd (key_data m) (length_ m - 1) ;;
              last_value <- rd (value_data m) (length_ m - 1) ;;
              last_hash_index <- find m last_key ;;
              ks <- wr (key_data m) i last_key ;;
              vs <- wr (value_data m) i last_value ;;
              t <- wr (hash_table m) last_hash_index (live_entry i) ;;
              Ok (mk_map t ks vs (length_ m) (capacity m))
            else Ok m) ;;
      t <- wr (hash_table m0) p tombstone ;;
      ks <- wr (key_data m0) (length_ m - 1) zk ;;
      vs <- wr (value_data m0) (length_ m - 1) zv ;;
      Ok (mk_map t ks vs (length_ m0 - 1) (capacity m0))) = Ok (mk_map T KS VS (length_ m - 1) (capacity m))).
    { destruct (Z.eqb_spec i (length_ m - 1)) as [El|El]; cbn [negb].
      - cbn [bind]. rewrite !wr_ok by lia. cbn [bind].
        assert (Epl : pl = p) by (apply (t_uniq _ _ _ _ _ _ I pl p i); auto; rewrite El; auto).
        assert (kl = k' /\ vl = v) as [-> ->]. { rewrite <- El in *. split; congruence. }
        subst T KS VS. rewrite Epl, list_set_twice. rewrite <- El, !list_set_twice. reflexivity.
      - rewrite (rd_ok _ _ _ Hkl'), (rd_ok _ _ _ Hvl'). cbn [bind]. unfold Map_model.find. rewrite Hfl. cbn [bind].
        rewrite !wr_ok by lia. cbn [bind hash_table key_data value_data length_ capacity].
        rewrite !wr_ok by (rewrite zlen_list_set; lia). reflexivity. }
    rewrite E. clear E. eexists. split; [reflexivity|].
    assert (Hm' : minv (mk_map T KS VS (length_ m - 1) (capacity m))).
    { split; cbn [hash_table key_data value_data length_ capacity].
      - eapply tinv_delete; eauto.
      - subst VS. rewrite !zlen_list_set. lia. }
    split; [exact Hm'|]. split; cbn [hash_table length_].
    + (* the remaining pairs *)
      transitivity (remove keq (pairs m) k); [|now apply remove_perm].
      pose proof (pairs_distinct m Hm) as Hd.
      destruct (split_znth _ _ _ Hpi) as (a & b & Eab & Hza). rewrite Eab in Hd |- *.
      rewrite remove_mid by assumption.
      assert (Hpm : forall j, 0 <= j -> znth (pairs (mk_map T KS VS (length_ m - 1) (capacity m))) j =
                if j <? length_ m - 1 then if j =? i then Some (kl, vl) else znth (pairs m) j else None).
      { intros j Hj. rewrite znth_pairs by assumption. cbn [hash_table key_data value_data length_ capacity].
        destruct (Z.ltb_spec j (length_ m - 1)); [|reflexivity]. subst KS VS.
        rewrite !znth_list_set_z by (rewrite ?zlen_list_set; lia).
        replace (j =? length_ m - 1) with false by lia.
        destruct (Z.eqb_spec j i) as [->|]; [reflexivity|]. rewrite znth_pairs by (auto; lia).
        now replace (j <? length_ m) with true by lia. }
      assert (Hzl : zlen a + 1 + zlen b = length_ m).
      { rewrite <- (pairs_len m Hm), Eab, zlen_app, zlen_cons. lia. }
      assert (Hbd : b = [] \/ b <> []) by (destruct b; [now left|now right]).
      destruct Hbd as [->|Hb].
      * rewrite app_nil_r. replace (pairs (mk_map T KS VS (length_ m - 1) (capacity m))) with a; [reflexivity|].
        rewrite (zlen_nil (K * V)) in Hzl. apply znth_ext. intros j Hj. rewrite Hpm, Eab by assumption.
        destruct (Z.ltb_spec j (length_ m - 1)).
        -- replace (j =? i) with false by lia. rewrite znth_app_l by lia. reflexivity.
        -- apply znth_None. lia.
      * destruct (exists_last Hb) as (b' & [kb vb] & ->).
        rewrite zlen_app, zlen_cons, (zlen_nil (K * V)) in Hzl. pose proof (zlen_nonneg b'). pose proof (zlen_nonneg a).
        assert ((kb, vb) = (kl, vl)).
        { rewrite Eab in Hpl. rewrite znth_app_r in Hpl by lia. rewrite znth_cons in Hpl by lia.
          rewrite znth_app_r in Hpl by lia. replace (length_ m - 1 - zlen a - 1 - zlen b') with 0 in Hpl by lia.
          rewrite znth_cons_0 in Hpl. congruence. }
        replace (pairs (mk_map T KS VS (length_ m - 1) (capacity m))) with (a ++ (kb, vb) :: b').
        { apply Permutation_app_head. apply Permutation_cons_append. }
        apply znth_ext. intros j Hj. rewrite Hpm, Eab by assumption.
        rewrite !znth_app by lia.
        destruct (Z.ltb_spec j (length_ m - 1)).
        -- destruct (Z.eqb_spec j i) as [Eji|Eji].
           ++ replace (j <? zlen a) with false by lia. replace (j - zlen a) with 0 by lia. rewrite znth_cons_0. congruence.
           ++ destruct (Z.ltb_spec j (zlen a)); [reflexivity|]. rewrite !znth_cons by lia. rewrite znth_app_l by lia. reflexivity.
        -- replace (j <? zlen a) with false by lia. rewrite znth_cons by lia. apply znth_None. lia.
    + subst T. rewrite (used_set _ p (live_entry i)).
      2:{ rewrite znth_list_set_z by lia. destruct (Z.eqb_spec p pl); [reflexivity|assumption]. }
      rewrite (used_set _ pl (live_entry (length_ m - 1))) by assumption.
      rewrite !live_nonempty by lia. rewrite tombstone_nonempty. lia.
Qed.

Lemma iterate_spec m : minv m -> map_iterate m = Ok (pairs m).
Proof using.
  intros Hm. pose proof Hm as (I & _). pose proof (t_len _ _ _ _ _ _ I) as Hlen. unfold map_iterate.
  assert (G : forall n c, -1 <= c -> c + 1 + Z.of_nat n = length_ m -> iterate (S n) m c = Ok (skipn (Z.to_nat (c + 1)) (pairs m))).
  { induction n as [|n IH]; intros c Hc Hn; cbn [iterate].
    - replace (length_ m <=? c + 1) with true by lia. rewrite skipn_all2; [reflexivity|].
      pose proof (pairs_len m Hm) as Hl. unfold zlen in Hl. lia.
    - replace (length_ m <=? c + 1) with false by lia.
      destruct (pairs_get m (c + 1) Hm ltac:(lia)) as (k & v & Hk & Hv & Hpi).
      rewrite (rd_ok _ _ _ Hk), (rd_ok _ _ _ Hv). cbn [bind].
      specialize (IH (c + 1) ltac:(lia) ltac:(lia)). cbn [iterate] in IH. rewrite IH. cbn [bind]. f_equal.
      destruct (split_znth _ _ _ Hpi) as (a & b & -> & Hz). unfold zlen in Hz.
      rewrite !skipn_app. rewrite !(skipn_all2 a) by lia.
      replace (Z.to_nat (c + 1) - length a)%nat with O by lia. replace (Z.to_nat (c + 1 + 1) - length a)%nat with 1%nat by lia.
      reflexivity. }
  rewrite G by lia. reflexivity.
Qed.

(** A map variable is initialised, or zero. *)
Definition ginv (m : nmap) (s : list (K * V)) (d : Z) : Prop :=
  inv m s d \/ (m = map_zero /\ s = []).

Lemma new_inv : inv (map_new zk zv) [] 0.
Proof using.
  destruct (fresh_minv MAP_DEFAULT_CAPACITY ltac:(unfold MAP_DEFAULT_CAPACITY; lia)) as (H1 & H2 & H3).
  split; [exact H1|]. unfold map_new. rewrite H2, H3. split; [constructor|]. cbn. lia.
Qed.

Lemma assign_zero k v : map_assign map_zero k v = map_assign (map_new zk zv) k v.
Proof using.
  unfold Map_model.map_assign. generalize 1%nat. intros f. cbn [Map_model.assign].
  now replace (init_if_needed zk zv map_zero) with (init_if_needed zk zv (map_new zk zv)) by reflexivity.
Qed.

Lemma step_spec m s d o : ginv m s d -> 0 <= d -> zlen s + 1 < max_index ->
  (step m o = Abort /\ 4 <= d) \/
  exists m' x, step m o = Ok (m', x) /\ spec_obs keq s o x /\
    ginv m' (spec_step keq s o) (d + if is_delete o then 1 else 0).
Proof using.
  intros [Hi|[-> ->]] Hd Hs.
  - pose proof Hi as (Hm & Hp & Hu). pose proof Hm as (_ & Hvl & _ & Hcap). destruct o as [k v|k|k|k| |]; cbn [Map_model.step is_delete].
    + destruct (assign_spec m s d k v Hi Hd Hs) as [[-> H4]|(m' & -> & Hi')]; [left; auto|right].
      exists m', Done. split; [reflexivity|]. split; [reflexivity|]. rewrite Z.add_0_r. now left.
    + destruct (delete_spec m s d k Hi) as [[-> H4]|(m' & -> & Hi')]; [left; auto|right].
      exists m', Done. split; [reflexivity|]. split; [reflexivity|]. now left.
    + unfold map_access. replace (capacity m =? 0) with false by lia.
      destruct (find_spec m s d k Hi) as [(-> & H4 & _)|[(p & x & -> & Hx & Hfree & Ha)|(p & i & k' & v & -> & Hps & Hpi & Hk)]].
      * left. auto.
      * right. cbn [bind]. rewrite (rd_ok _ _ _ Hx). cbn [bind]. rewrite Hfree. exists m, Thrown. split; [reflexivity|].
        split; [cbn; rewrite lookup_None by (eapply lookup_absent; eauto); reflexivity|]. rewrite Z.add_0_r. now left.
      * right. cbn [bind]. rewrite (rd_ok _ _ _ Hps). cbn [bind].
        destruct (pairs_key _ _ _ _ Hm Hpi) as (Hir & _ & Hv). pose proof Hm as (I & _). pose proof (t_small _ _ _ _ _ _ I).
        rewrite live_nonempty, live_not_deleted, live_index by lia. cbn [orb]. rewrite (rd_ok _ _ _ Hv). cbn [bind].
        exists m, (Val v). split; [reflexivity|]. split; [cbn; rewrite (lookup_present m s d k i k' v) by assumption; reflexivity|].
        rewrite Z.add_0_r. now left.
    + unfold map_contains. replace (capacity m =? 0) with false by lia.
      destruct (find_spec m s d k Hi) as [(-> & H4 & _)|[(p & x & -> & Hx & Hfree & Ha)|(p & i & k' & v & -> & Hps & Hpi & Hk)]].
      * left. auto.
      * right. cbn [bind]. rewrite (rd_ok _ _ _ Hx). cbn [bind]. rewrite Hfree. exists m, (Yes false). split; [reflexivity|].
        split; [cbn; rewrite lookup_None by (eapply lookup_absent; eauto); reflexivity|]. rewrite Z.add_0_r. now left.
      * right. cbn [bind]. rewrite (rd_ok _ _ _ Hps). cbn [bind].
        destruct (pairs_key _ _ _ _ Hm Hpi) as (Hir & _ & Hv). pose proof Hm as (I & _). pose proof (t_small _ _ _ _ _ _ I).
        rewrite live_nonempty, live_not_deleted by lia. cbn [orb negb].
        exists m, (Yes true). split; [reflexivity|]. split; [cbn; rewrite (lookup_present m s d k i k' v) by assumption; reflexivity|].
        rewrite Z.add_0_r. now left.
    + right. exists m, (Num (length_ m)). split; [reflexivity|]. split; [cbn; f_equal; eapply inv_len; eauto|]. rewrite Z.add_0_r. now left.
    + right. rewrite iterate_spec by assumption. exists m, (Items (pairs m)). split; [reflexivity|]. split; [cbn; eauto|]. rewrite Z.add_0_r. now left.
  - right. destruct o as [k v|k|k|k| |]; cbn [Map_model.step is_delete].
    + destruct (assign_spec (map_new zk zv) [] 0 k v new_inv ltac:(lia) Hs) as [[_ H4]|(m' & E & Hi')]; [lia|].
      assert (E' : map_assign map_zero k v = Ok m') by (rewrite <- E; apply assign_zero).
      rewrite E'. exists m', Done. split; [reflexivity|]. split; [reflexivity|]. left. destruct Hi' as (H1 & H2 & H3).
      split; [assumption|]. split; [assumption|lia].
    + exists map_zero, Done. split; [reflexivity|]. split; [reflexivity|]. right. auto.
    + exists map_zero, Thrown. split; [reflexivity|]. split; [reflexivity|]. right. auto.
    + exists map_zero, (Yes false). split; [reflexivity|]. split; [reflexivity|]. right. auto.
    + exists map_zero, (Num 0). split; [reflexivity|]. split; [reflexivity|]. right. auto.
    + exists map_zero, (Items []). split; [reflexivity|]. split; [cbn; eauto|]. right. auto.
Qed.

Lemma step_len (s : list (K * V)) o : zlen (spec_step keq s o) <= zlen s + 1.
Proof using.
  clear hash zk zv. destruct o; cbn [spec_step]; try lia.
  - unfold put. rewrite zlen_cons. pose proof (remove_len key_str s k). lia.
  - pose proof (remove_len key_str s k). lia.
Qed.

Lemma run_spec l : forall m s d, ginv m s d -> 0 <= d -> zlen s + zlen l < max_index ->
  (run m l = Abort /\ 4 <= d + deletes l) \/
  exists m' xs, run m l = Ok (m', xs) /\ spec_run keq s l xs /\
    ginv m' (fold_left (spec_step keq) l s) (d + deletes l).
Proof using.
  induction l as [|o l IH]; intros m s d Hg Hd Hs.
  - right. exists m, []. split; [reflexivity|]. split; [exact I|]. change (deletes []) with 0. now rewrite Z.add_0_r.
  - rewrite zlen_cons in Hs. pose proof (zlen_nonneg l) as Hl. cbn [Map_model.run].
    assert (Hdel : deletes (o :: l) = (if is_delete o then 1 else 0) + deletes l).
    { unfold deletes. cbn [filter]. destruct (is_delete o); rewrite ?zlen_cons; lia. }
    assert (Hdl : 0 <= deletes l) by apply zlen_nonneg.
    destruct (step_spec m s d o Hg Hd ltac:(lia)) as [[-> H4]|(m' & x & -> & Hx & Hg')].
    + left. split; [reflexivity|]. destruct (is_delete o); lia.
    + cbn [bind]. pose proof (step_len s o).
      destruct (IH m' _ _ Hg' ltac:(destruct (is_delete o); lia) ltac:(lia)) as [[-> H4]|(m'' & xs & -> & Hxs & Hg'')].
      * left. split; [reflexivity|]. lia.
      * right. exists m'', (x :: xs). split; [reflexivity|]. split; [split; assumption|].
        cbn [fold_left]. rewrite Hdel, Z.add_assoc. exact Hg''.
Qed.

Lemma ginv_iterate m s d : ginv m s d -> exists l, map_iterate m = Ok l /\ Permutation l s /\ distinct key_str s /\
  (forall e, In e l -> map_access key_str hash m (fst e) = Ok (snd e)) /\
  (forall k v, map_access key_str hash m k = Ok v -> exists k', keq k' k = true /\ In (k', v) l).
Proof using.
  intros [Hi|[-> ->]].
  - pose proof Hi as (Hm & Hp & _). exists (pairs m). split; [now apply iterate_spec|]. split; [assumption|].
    split; [eapply inv_distinct; eauto|]. pose proof Hm as (I & _ & _ & Hcap). pose proof (t_small _ _ _ _ _ _ I).
    assert (Hacc : forall k i k' v p, find m k = Ok p -> znth (hash_table m) p = Some (live_entry i) -> znth (pairs m) i = Some (k', v) ->
        map_access key_str hash m k = Ok v).
    { intros k i k' v p Hf Hps Hpi. unfold map_access. replace (capacity m =? 0) with false by lia. rewrite Hf. cbn [bind].
      rewrite (rd_ok _ _ _ Hps). cbn [bind]. destruct (pairs_key _ _ _ _ Hm Hpi) as (Hir & _ & Hv).
      rewrite live_nonempty, live_not_deleted, live_index by lia. cbn [orb]. now apply rd_ok. }
    split.
    + intros [k v] Hin. cbn [fst snd]. apply In_znth in Hin as [i Hi']. pose proof (pairs_key _ _ _ _ Hm Hi') as (Hir & Hk & _).
      destruct (find_present key_str hash _ _ _ _ i k k I Hir Hk (keq_refl _ _)) as (p & Hf & Hps).
      eapply Hacc; eauto.
    + intros k v Ha.
      destruct (find_spec m s d k Hi) as [(Hf & _)|[(p & x & Hf & Hx & Hfree & _)|(p & i & k' & v' & Hf & Hps & Hpi & Hk)]].
      * unfold map_access in Ha. replace (capacity m =? 0) with false in Ha by lia. rewrite Hf in Ha. discriminate.
      * unfold map_access in Ha. replace (capacity m =? 0) with false in Ha by lia. rewrite Hf in Ha. cbn [bind] in Ha.
        rewrite (rd_ok _ _ _ Hx) in Ha. cbn [bind] in Ha. rewrite Hfree in Ha. discriminate.
      * exists k'. split; [exact Hk|]. rewrite (Hacc k i k' v' p) in Ha by assumption. injection Ha as <-. now apply znth_In in Hpi.
  - exists []. split; [reflexivity|]. split; [constructor|]. split; [constructor|]. split; [intros e []|].
    intros k v Ha. discriminate.
Qed.
End map_proof.

(** ** Keys: which key texts coincide *)
Definition dval (s : list Z) : Z := fold_left (fun a c => 10 * a + (c - 48)) s 0.

Lemma dval_gen s : forall a, fold_left (fun a c => 10 * a + (c - 48)) s a = a * 10 ^ zlen s + dval s.
Proof.
  unfold dval. induction s as [|c s IH]; intros a.
  - cbn [fold_left]. rewrite (zlen_nil Z). cbn. lia.
  - cbn [fold_left]. rewrite (IH (10 * a + _)), (IH (10 * 0 + _)), zlen_cons.
    pose proof (zlen_nonneg s). rewrite Z.pow_add_r by lia. change (10 ^ 1) with 10. lia.
Qed.

Lemma dec_digits_val f : forall n acc, 0 <= n < 10 ^ Z.of_nat f ->
  dval (dec_digits f n acc) = n * 10 ^ zlen acc + dval acc.
Proof.
  induction f as [|f IH]; intros n acc Hn.
  - cbn in Hn. cbn [dec_digits]. replace n with 0 by lia. lia.
  - cbn [dec_digits]. destruct (Z.ltb_spec n 10).
    + unfold dval at 1. cbn [fold_left]. rewrite dval_gen. lia.
    + rewrite IH.
      * unfold dval at 1. cbn [fold_left]. rewrite dval_gen, zlen_cons. pose proof (zlen_nonneg acc).
        rewrite Z.pow_add_r by lia. change (10 ^ 1) with 10. pose proof (Z.div_mod n 10 ltac:(lia)). nia.
      * rewrite Nat2Z.inj_succ, Z.pow_succ_r in Hn by lia. split; [apply Z.div_pos; lia|].
        apply Z.div_lt_upper_bound; lia.
Qed.

Lemma dec_digits_head f n acc : 0 <= n < 10 ^ Z.of_nat (S f) -> exists c t, dec_digits (S f) n acc = c :: t /\ 48 <= c.
Proof.
  revert n acc; induction f as [|f IH]; intros n acc Hn.
  - cbn [dec_digits]. change (10 ^ Z.of_nat 1) with 10 in Hn. replace (n <? 10) with true by lia. exists (48 + n), acc. split; [reflexivity|lia].
  - cbn [dec_digits]. destruct (Z.ltb_spec n 10); [exists (48 + n), acc; split; [reflexivity|lia]|].
    apply IH. rewrite (Nat2Z.inj_succ (S f)), Z.pow_succ_r in Hn by lia. split; [apply Z.div_pos; lia|].
    apply Z.div_lt_upper_bound; lia.
Qed.

Lemma itoa_inj a b : - 2 ^ 63 <= a < 2 ^ 63 -> - 2 ^ 63 <= b < 2 ^ 63 -> itoa a = itoa b -> a = b.
Proof.
  intros Ha Hb. unfold itoa.
  assert (P : 2 ^ 63 < 10 ^ Z.of_nat 20) by reflexivity.
  destruct (Z.ltb_spec a 0); destruct (Z.ltb_spec b 0); intros E.
  - apply (f_equal (@tl Z)) in E. cbn [tl] in E. apply (f_equal dval) in E. rewrite !dec_digits_val in E by lia. change (zlen (@nil Z)) with 0 in E. lia.
  - destruct (dec_digits_head 19 b [] ltac:(lia)) as (c & t & Et & Hc). rewrite Et in E. injection E as E _. lia.
  - destruct (dec_digits_head 19 a [] ltac:(lia)) as (c & t & Et & Hc). rewrite Et in E. injection E as E _. lia.
  - apply (f_equal dval) in E. rewrite !dec_digits_val in E by lia. change (zlen (@nil Z)) with 0 in E. lia.
Qed.

Lemma i64_inj a b : 0 <= a < 2 ^ 64 -> 0 <= b < 2 ^ 64 -> i64 a = i64 b -> a = b.
Proof. unfold i64. intros. lia. Qed.

Lemma num_inj size a b : (size = 1 \/ size = 2 \/ size = 4 \/ size = 8) ->
  (0 <= a < 2 ^ (8 * size) /\ 0 <= b < 2 ^ (8 * size) \/
   - 2 ^ (8 * size - 1) <= a < 2 ^ (8 * size - 1) /\ - 2 ^ (8 * size - 1) <= b < 2 ^ (8 * size - 1)) ->
  rtype_value_to_str (KNum size a) = rtype_value_to_str (KNum size b) -> a = b.
Proof.
  intros Hs Hr E. cbn [rtype_value_to_str] in E.
  assert (Hm : forall x, 0 <= x mod 2 ^ (8 * size) < 2 ^ 64).
  { intros x. assert (0 < 2 ^ (8 * size)) by (apply Z.pow_pos_nonneg; destruct Hs as [->|[->|[->| ->]]]; lia).
    pose proof (Z.mod_pos_bound x (2 ^ (8 * size)) H). assert (2 ^ (8 * size) <= 2 ^ 64); [|lia].
    apply Z.pow_le_mono_r; lia. }
  apply itoa_inj in E; [|unfold i64; specialize (Hm a); lia|unfold i64; specialize (Hm b); lia].
  apply i64_inj in E; [|apply Hm|apply Hm].
  destruct Hs as [->|[->|[->| ->]]]; cbn in E, Hr; lia.
Qed.

Lemma c_string_id s : ~ In 0 s -> c_string s = s.
Proof.
  induction s as [|x s IH]; intros H; [reflexivity|]. cbn. destruct (Z.eqb_spec x 0); [exfalso; apply H; now left|].
  f_equal. apply IH. intros Hi. apply H. now right.
Qed.

(** Changing the notion of sameness on keys that never occur does not matter. *)
Section ext.
Context {K V : Type}.
Variables same same' : K -> K -> bool.
Variable P : K -> Prop.
Hypothesis agree : forall a b, P a -> P b -> same a b = same' a b.

Definition op_key (o : op K V) : option K :=
  match o with MAssign k _ | MDelete k | MGet k | MContains k => Some k | _ => None end.
Definition op_in (o : op K V) : Prop := match op_key o with Some k => P k | None => True end.

Lemma remove_ext s k : Forall (fun e : K * V => P (fst e)) s -> P k -> remove same s k = remove same' s k.
Proof using agree.
  intros Hs Hk. unfold remove. apply filter_ext_in. intros e He. rewrite Forall_forall in Hs. now rewrite agree by auto.
Qed.

Lemma lookup_ext s k : Forall (fun e : K * V => P (fst e)) s -> P k -> lookup same s k = lookup same' s k.
Proof using agree.
  intros Hs Hk. unfold lookup. induction Hs as [|e s He Hs IH]; [reflexivity|]. cbn. rewrite agree by assumption.
  destruct (same' (fst e) k); auto.
Qed.

Lemma remove_in s k : Forall (fun e : K * V => P (fst e)) s -> Forall (fun e : K * V => P (fst e)) (remove same' s k).
Proof using.
  rewrite !Forall_forall. intros Hs e He. apply filter_In in He. now apply Hs.
Qed.

Lemma spec_run_ext l : forall s xs, Forall (fun e : K * V => P (fst e)) s -> Forall op_in l ->
  spec_run same s l xs -> spec_run same' s l xs.
Proof using agree.
  induction l as [|o l IH]; intros s [|x xs] Hs Hl; cbn; auto. inversion Hl as [|? ? Ho Hl']; subst. intros [Hx Hr].
  split.
  - destruct o; cbn in *; auto; now rewrite <- lookup_ext.
  - apply IH; auto.
    + destruct o; cbn in *; auto; [|now apply remove_in]. unfold put. constructor; [assumption|]. now apply remove_in.
    + destruct o; cbn in *; auto; unfold put in *; now rewrite <- remove_ext.
Qed.

Lemma fold_in l : forall s, Forall (fun e : K * V => P (fst e)) s -> Forall op_in l ->
  Forall (fun e : K * V => P (fst e)) (fold_left (spec_step same) l s).
Proof using.
  assert (G : forall s k, Forall (fun e : K * V => P (fst e)) s -> Forall (fun e : K * V => P (fst e)) (remove same s k)).
  { intros s k. rewrite !Forall_forall. intros Hs e He. apply filter_In in He. now apply Hs. }
  induction l as [|o l IH]; intros s Hs Hl; cbn [fold_left]; [assumption|]. inversion Hl as [|? ? Ho Hl']; subst.
  apply IH; [|assumption]. destruct o; cbn in *; auto. unfold put. constructor; auto.
Qed.
End ext.
