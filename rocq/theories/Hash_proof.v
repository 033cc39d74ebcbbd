From Verif Require Import Base Base_lemmas Zlist Hash_model.

(** ** Table entries *)

Definition max_index : Z := 4611686018427387904. (* 2^62 *)

Lemma high_bit_0 i n : 0 <= i < max_index -> 62 <= n -> Z.testbit i n = false.
Proof.
  intros Hi Hn. replace i with (i mod 2 ^ 62) by (apply Z.mod_small; exact Hi). apply Z.mod_pow2_bits_high. lia.
Qed.

Lemma live_add i : 0 <= i < max_index -> live_entry i = i + 2 ^ 63.
Proof.
  intros Hi. unfold live_entry, HASH_SET. rewrite Z.shiftl_1_l.
  assert (Hl : Z.land i (2 ^ 63) = 0).
  { apply Z.bits_inj'. intros n Hn. rewrite Z.land_spec, Z.bits_0, Z.pow2_bits_eqb by lia.
    destruct (Z.eqb_spec 63 n) as [<-|]; [|apply andb_false_r]. now rewrite high_bit_0 by (auto; lia). }
  rewrite <- Z.lxor_lor by exact Hl. now rewrite <- Z.add_nocarry_lxor by exact Hl.
Qed.

Lemma live_nonempty i : 0 <= i < max_index -> hash_value_empty (live_entry i) = false.
Proof.
  intros Hi. unfold hash_value_empty, hash_value_set, live_entry, HASH_SET. rewrite Z.shiftl_1_l, Z.lor_spec, Z.pow2_bits_true by lia.
  now rewrite orb_true_r.
Qed.

Lemma live_not_deleted i : 0 <= i < max_index -> hash_value_deleted (live_entry i) = false.
Proof.
  intros Hi. unfold hash_value_deleted, live_entry, HASH_SET, HASH_DELETED. rewrite Z.shiftl_1_l, Z.lor_spec, Z.pow2_bits_false by lia.
  rewrite orb_false_r. apply high_bit_0; lia.
Qed.

Lemma live_index i : 0 <= i < max_index -> extract_data_index (live_entry i) = i.
Proof.
  intros Hi. unfold extract_data_index. rewrite live_add by exact Hi. rewrite Z.shiftl_mul_pow2, Z.shiftr_div_pow2 by lia.
  unfold u64, max_index in *. replace ((i + 2 ^ 63) * 2 ^ 2) with (i * 4 + 2 * 18446744073709551616) by lia.
  rewrite Z.mod_add, Z.mod_small by lia. change (2 ^ 2) with 4. apply Z.div_mul. lia.
Qed.

Lemma live_inj i j : 0 <= i < max_index -> 0 <= j < max_index -> live_entry i = live_entry j -> i = j.
Proof. intros Hi Hj H. rewrite !live_add in H by assumption. lia. Qed.

Lemma tombstone_nonempty : hash_value_empty tombstone = false. Proof. reflexivity. Qed.
Lemma tombstone_deleted : hash_value_deleted tombstone = true. Proof. reflexivity. Qed.

Lemma list_eqb_eq a : forall b, list_eqb a b = true <-> a = b.
Proof.
  induction a as [|x a IH]; intros [|y b]; cbn; split; try discriminate; try reflexivity.
  - intros H. apply andb_true_iff in H as [H1 H2]. apply IH in H2. f_equal; [lia|assumption].
  - intros [= -> ->]. rewrite Z.eqb_refl. now apply IH.
Qed.

Section find_proof.
Context {K : Type}.
Variable key_str : K -> list Z.

Notation keq := (key_equal key_str).

Lemma keq_iff a b : keq a b = true <-> key_str a = key_str b.
Proof using. apply list_eqb_eq. Qed.
Lemma keq_refl a : keq a a = true.
Proof using. now apply keq_iff. Qed.
Lemma keq_sym a b : keq a b = keq b a.
Proof using.
  destruct (keq a b) eqn:E1, (keq b a) eqn:E2; auto.
  - apply keq_iff in E1. symmetry in E1. apply keq_iff in E1. congruence.
  - apply keq_iff in E2. symmetry in E2. apply keq_iff in E2. congruence.
Qed.
Lemma keq_trans a b c : keq a b = true -> keq b c = keq a c.
Proof using.
  intros H. apply keq_iff in H. unfold key_equal. now rewrite H.
Qed.

Definition pos (cap h d : Z) : Z := (h + d) mod cap.

Lemma pos_range cap h d : 0 < cap -> 0 <= pos cap h d < cap.
Proof using. intros H. apply Z.mod_pos_bound. exact H. Qed.

Lemma pos_next cap h d : 0 < cap -> (pos cap h d + 1) mod cap = pos cap h (d + 1).
Proof using. intros H. unfold pos. rewrite Zplus_mod_idemp_l. f_equal. lia. Qed.

Lemma pos_inj cap h d d' : 0 < cap -> 0 <= d < cap -> 0 <= d' < cap -> pos cap h d = pos cap h d' -> d = d'.
Proof using.
  intros Hc Hd Hd' H. unfold pos in H.
  pose proof (Z.div_mod (h + d) cap ltac:(lia)) as E1. pose proof (Z.div_mod (h + d') cap ltac:(lia)) as E2.
  rewrite H in E1. assert (E : d - d' = cap * ((h + d) / cap - (h + d') / cap)) by lia.
  assert ((h + d) / cap - (h + d') / cap = 0) by nia. lia.
Qed.

Lemma pos_onto cap h p : 0 < cap -> 0 <= h < cap -> 0 <= p < cap -> exists d, 0 <= d < cap /\ pos cap h d = p.
Proof using.
  intros Hc Hh Hp. destruct (Z_le_dec h p).
  - exists (p - h). split; [lia|]. unfold pos. replace (h + (p - h)) with p by lia. apply Z.mod_small. lia.
  - exists (p - h + cap). split; [lia|]. unfold pos. replace (h + (p - h + cap)) with (p + 1 * cap) by lia.
    rewrite Z.mod_add by lia. apply Z.mod_small. lia.
Qed.

(** Entries that a table may hold: every live entry names one of the first [len] keys. *)
Definition entry_ok (len v : Z) : Prop :=
  hash_value_empty v = true \/ (hash_value_empty v = false /\ hash_value_deleted v = true) \/
  exists i, v = live_entry i /\ 0 <= i < len.

Definition nonempty (table : list Z) (p : Z) : Prop := exists v, znth table p = Some v /\ hash_value_empty v = false.

(** No live entry at [p] has the key [k]. *)
Definition no_match (table : list Z) (keys : list K) (len : Z) (k : K) (p : Z) : Prop :=
  forall i k', 0 <= i < len -> znth table p = Some (live_entry i) -> znth keys i = Some k' -> keq k' k = false.

Lemma find_loop_spec table cap keys len k h :
  0 < cap -> zlen table = cap -> len <= zlen keys -> len <= max_index ->
  (forall p v, znth table p = Some v -> entry_ok len v) ->
  forall n d fd, 0 <= d -> Z.of_nat n + d = cap ->
  (forall d', 0 <= d' < d -> nonempty table (pos cap h d') /\ no_match table keys len k (pos cap h d')) ->
  fd = -1 \/ (exists d1 v, 0 <= d1 < d /\ fd = pos cap h d1 /\ znth table fd = Some v /\ hash_value_deleted v = true) ->
  (find_loop key_str n table cap keys k (pos cap h d) fd = Abort /\
     forall d', 0 <= d' < cap -> nonempty table (pos cap h d') /\ no_match table keys len k (pos cap h d')) \/
  (exists d0 i k', 0 <= d0 < cap /\ find_loop key_str n table cap keys k (pos cap h d) fd = Ok (pos cap h d0) /\
     0 <= i < len /\ znth table (pos cap h d0) = Some (live_entry i) /\ znth keys i = Some k' /\ keq k' k = true /\
     forall d', 0 <= d' < d0 -> nonempty table (pos cap h d') /\ no_match table keys len k (pos cap h d')) \/
  (exists d0 de v, 0 <= d0 <= de /\ de < cap /\ find_loop key_str n table cap keys k (pos cap h d) fd = Ok (pos cap h d0) /\
     znth table (pos cap h d0) = Some v /\ hash_value_empty v || hash_value_deleted v = true /\
     (exists ve, znth table (pos cap h de) = Some ve /\ hash_value_empty ve = true) /\
     forall d', 0 <= d' < de -> nonempty table (pos cap h d') /\ no_match table keys len k (pos cap h d')).
Proof using.
  intros Hcap Ht Hk Hlen Hent. induction n as [|n IH]; intros d fd Hd Hn Hbelow Hfd.
  - left. cbn. split; [reflexivity|]. intros d' Hd'. apply Hbelow. lia.
  - cbn [find_loop].
    destruct (znth_Some table (pos cap h d)) as [v Hv]; [rewrite Ht; now apply pos_range|].
    rewrite (rd_ok _ _ _ Hv). cbn [bind].
    destruct (hash_value_empty v) eqn:Ee.
    { right. right. destruct Hfd as [->|(d1 & v1 & Hd1 & -> & Hv1 & Hdel)].
      - exists d, d, v. rewrite Z.eqb_refl. split; [lia|]. split; [lia|]. split; [reflexivity|]. split; [exact Hv|].
        split; [now rewrite Ee|]. split; [eauto|]. exact Hbelow.
      - exists d1, d, v1. replace (pos cap h d1 =? -1) with false by (pose proof (pos_range cap h d1 Hcap); lia).
        split; [lia|]. split; [lia|]. split; [reflexivity|]. split; [exact Hv1|].
        split; [now rewrite Hdel, orb_true_r|]. split; [eauto|]. exact Hbelow. }
    destruct (Hent _ _ Hv) as [He|[[_ Hdel]|(i & -> & Hi)]]; [congruence| |].
    + rewrite Hdel. rewrite pos_next by assumption. apply IH; [lia|lia| |].
      * intros d' Hd'. destruct (Z.eq_dec d' d) as [->|]; [|apply Hbelow; lia]. split; [exists v; auto|].
        intros i k' Hi Hl _. rewrite Hv in Hl. injection Hl as ->. rewrite live_not_deleted in Hdel by lia. discriminate.
      * right. destruct Hfd as [->|(d1 & v1 & Hd1 & -> & Hv1 & Hdel1)].
        -- exists d, v. rewrite Z.eqb_refl. split; [lia|]. auto.
        -- exists d1, v1. replace (pos cap h d1 =? -1) with false by (pose proof (pos_range cap h d1 Hcap); lia).
           split; [lia|]. auto.
    + rewrite live_not_deleted by lia. rewrite live_index by lia.
      destruct (znth_Some keys i) as [ki Hki]; [lia|]. rewrite (rd_ok _ _ _ Hki). cbn [bind].
      destruct (keq ki k) eqn:Ek.
      * right. left. exists d, i, ki. split; [lia|]. split; [reflexivity|]. split; [exact Hi|].
        split; [exact Hv|]. split; [exact Hki|]. split; [exact Ek|]. exact Hbelow.
      * rewrite pos_next by assumption. apply IH; [lia|lia| |].
        -- intros d' Hd'. destruct (Z.eq_dec d' d) as [->|]; [|apply Hbelow; lia]. split; [exists (live_entry i); auto|].
           intros j k' Hj Hl Hkj. rewrite Hv in Hl. injection Hl as Hl. apply live_inj in Hl; [|lia|lia]. subst j. congruence.
        -- destruct Hfd as [->|(d1 & v1 & Hd1 & -> & Hv1 & Hdel1)]; [auto|]. right. exists d1, v1. split; [lia|]. auto.
Qed.
End find_proof.

Section table_proof.
Context {K : Type}.
Variable key_str : K -> list Z.
Variable hash : list Z -> Z.
Notation keq := (key_equal key_str).

Definition home (cap : Z) (k : K) : Z := hash (key_str k) mod cap.

(** The invariant of a table over the first [len] keys. *)
Record tinv (table : list Z) (keys : list K) (len cap : Z) : Prop := mk_tinv {
  t_cap : 0 < cap;
  t_table : zlen table = cap;
  t_keys : zlen keys = cap;
  t_len : 0 <= len <= cap;
  t_small : len < max_index;
  t_entry : forall p v, znth table p = Some v -> entry_ok len v;
  t_pos : forall i k, 0 <= i < len -> znth keys i = Some k ->
    exists d, 0 <= d < cap /\ znth table (pos cap (home cap k) d) = Some (live_entry i) /\
      forall d', 0 <= d' < d -> nonempty table (pos cap (home cap k) d');
  t_uniq : forall p q i, 0 <= i < len -> znth table p = Some (live_entry i) -> znth table q = Some (live_entry i) -> p = q;
  t_dist : forall i j ki kj, 0 <= i < len -> 0 <= j < len -> znth keys i = Some ki -> znth keys j = Some kj ->
    keq ki kj = true -> i = j
}.

Definition absent (keys : list K) (len : Z) (k : K) : Prop :=
  forall i k', 0 <= i < len -> znth keys i = Some k' -> keq k' k = false.

Lemma home_eq cap a b : keq a b = true -> home cap a = home cap b.
Proof using. intros H. apply keq_iff in H. unfold home. now rewrite H. Qed.

Lemma home_range cap k : 0 < cap -> 0 <= home cap k < cap.
Proof using. intros H. now apply Z.mod_pos_bound. Qed.

Lemma find_start table cap keys k : 0 < cap ->
  find_hash_slot key_str hash table cap keys k =
  find_loop key_str (Z.to_nat cap) table cap keys k (pos cap (home cap k) 0) (-1).
Proof using.
  intros H. unfold find_hash_slot, pos, home. now rewrite Z.add_0_r, Z.mod_mod by lia.
Qed.

Lemma find_present table keys len cap i k k' : tinv table keys len cap ->
  0 <= i < len -> znth keys i = Some k' -> keq k' k = true ->
  exists p, find_hash_slot key_str hash table cap keys k = Ok p /\ znth table p = Some (live_entry i).
Proof using.
  intros I Hi Hk Hkeq. pose proof I as [Hcap Ht Hks Hl Hsm Hent Hpos Huniq Hdist].
  destruct (Hpos i k' Hi Hk) as (d & Hd & Hlive & Hchain). rewrite (home_eq cap _ _ Hkeq) in Hlive, Hchain.
  rewrite find_start by assumption.
  destruct (find_loop_spec key_str table cap keys len k (home cap k) Hcap Ht ltac:(lia) ltac:(lia) Hent
              (Z.to_nat cap) 0 (-1) ltac:(lia) ltac:(lia) ltac:(lia) ltac:(auto))
    as [[_ Hall]|[(d0 & j & kj & Hd0 & -> & Hj & Hlj & Hkj & Hm & _)|(d0 & de & v & Hd0 & Hde & _ & _ & _ & (ve & Hve & Hee) & Hall)]].
  - destruct (Hall d Hd) as [_ Hnm]. rewrite (Hnm i k' Hi Hlive Hk) in Hkeq. discriminate.
  - exists (pos cap (home cap k) d0). split; [reflexivity|].
    assert (i = j); [|now subst j]. eapply (Hdist i j k' kj); eauto. rewrite (keq_trans key_str k' k); [|exact Hkeq] || idtac.
    apply keq_iff in Hkeq. apply keq_iff in Hm. apply keq_iff. congruence.
  - exfalso. destruct (Z_lt_dec d de) as [Hlt|Hge].
    + destruct (Hall d ltac:(lia)) as [_ Hnm]. rewrite (Hnm i k' Hi Hlive Hk) in Hkeq. discriminate.
    + destruct (Z.eq_dec d de) as [->|Hne].
      * rewrite Hlive in Hve. injection Hve as <-. rewrite live_nonempty in Hee by lia. discriminate.
      * destruct (Hchain de ltac:(lia)) as (v' & Hv' & He'). rewrite Hve in Hv'. congruence.
Qed.

Lemma find_absent table keys len cap k : tinv table keys len cap -> absent keys len k ->
  (find_hash_slot key_str hash table cap keys k = Abort /\ forall p, 0 <= p < cap -> nonempty table p) \/
  exists d v, 0 <= d < cap /\ find_hash_slot key_str hash table cap keys k = Ok (pos cap (home cap k) d) /\
    znth table (pos cap (home cap k) d) = Some v /\ hash_value_empty v || hash_value_deleted v = true /\
    forall d', 0 <= d' < d -> nonempty table (pos cap (home cap k) d').
Proof using.
  intros I Habs. pose proof I as [Hcap Ht Hks Hl Hsm Hent Hpos Huniq Hdist]. rewrite find_start by assumption.
  destruct (find_loop_spec key_str table cap keys len k (home cap k) Hcap Ht ltac:(lia) ltac:(lia) Hent
              (Z.to_nat cap) 0 (-1) ltac:(lia) ltac:(lia) ltac:(lia) ltac:(auto))
    as [[-> Hall]|[(d0 & j & kj & Hd0 & -> & Hj & Hlj & Hkj & Hm & _)|(d0 & de & v & Hd0 & Hde & -> & Hv & Hk & (ve & Hve & Hee) & Hall)]].
  - left. split; [reflexivity|]. intros p Hp.
    destruct (pos_onto cap (home cap k) p Hcap (home_range cap k Hcap) Hp) as (d & Hd & <-). now apply Hall.
  - rewrite (Habs _ _ Hj Hkj) in Hm. discriminate.
  - right. exists d0, v. split; [lia|]. split; [reflexivity|]. split; [exact Hv|]. split; [exact Hk|].
    intros d' Hd'. apply Hall. lia.
Qed.

Lemma entry_ok_mono len len' v : len <= len' -> entry_ok len v -> entry_ok len' v.
Proof using. intros H [He|[He|(i & -> & Hi)]]; [left; auto|right; left; auto|right; right; exists i; split; [reflexivity|lia]]. Qed.

Lemma tinv_insert table keys len cap k d v :
  tinv table keys len cap -> absent keys len k -> len < cap -> len + 1 < max_index ->
  0 <= d < cap -> znth table (pos cap (home cap k) d) = Some v -> hash_value_empty v || hash_value_deleted v = true ->
  (forall d', 0 <= d' < d -> nonempty table (pos cap (home cap k) d')) ->
  tinv (list_set table (Z.to_nat (pos cap (home cap k) d)) (live_entry len)) (list_set keys (Z.to_nat len) k) (len + 1) cap.
Proof using.
  intros I Habs Hroom Hsmall Hd Hv Hfree Hchain. pose proof I as [Hcap Ht Hks Hl Hsm Hent Hpos Huniq Hdist].
  set (q := pos cap (home cap k) d) in *. assert (Hq : 0 <= q < cap) by (now apply pos_range).
  assert (Hnl : forall i, 0 <= i < len -> znth table q <> Some (live_entry i)).
  { intros i Hi Hli. rewrite Hv in Hli. injection Hli as ->. rewrite live_nonempty, live_not_deleted in Hfree by lia. discriminate. }
  assert (HT : forall p, znth (list_set table (Z.to_nat q) (live_entry len)) p = if p =? q then Some (live_entry len) else znth table p).
  { intros p. rewrite znth_list_set_z by lia. destruct (Z.eqb_spec p q) as [->|]; reflexivity. }
  assert (HK : forall i, znth (list_set keys (Z.to_nat len) k) i = if i =? len then Some k else znth keys i).
  { intros i. rewrite znth_list_set_z by lia. destruct (Z.eqb_spec i len) as [->|]; reflexivity. }
  assert (Hne : forall p, nonempty table p -> nonempty (list_set table (Z.to_nat q) (live_entry len)) p).
  { intros p (w & Hw & He). unfold nonempty. rewrite HT. destruct (p =? q); [|eauto].
    exists (live_entry len). split; [reflexivity|]. apply live_nonempty. lia. }
  split.
  - exact Hcap.
  - now rewrite zlen_list_set.
  - now rewrite zlen_list_set.
  - lia.
  - lia.
  - intros p w Hw. rewrite HT in Hw. destruct (p =? q).
    + injection Hw as <-. right. right. exists len. split; [reflexivity|lia].
    + apply (entry_ok_mono len); [lia|]. eapply Hent; eauto.
  - intros i k' Hi Hk'. rewrite HK in Hk'. destruct (Z.eqb_spec i len) as [->|Hil].
    + injection Hk' as <-. exists d. split; [exact Hd|]. split; [fold q; rewrite HT; now rewrite Z.eqb_refl|].
      intros d' Hd'. apply Hne. now apply Hchain.
    + destruct (Hpos i k' ltac:(lia) Hk') as (di & Hdi & Hli & Hci). exists di. split; [exact Hdi|]. split.
      * rewrite HT. destruct (Z.eqb_spec (pos cap (home cap k') di) q) as [E|E]; [|exact Hli].
        exfalso. rewrite E in Hli. exact (Hnl i ltac:(lia) Hli).
      * intros d' Hd'. apply Hne. now apply Hci.
  - intros p p' i Hi Hp Hp'. rewrite HT in Hp, Hp'.
    assert (Hx : forall x, znth table x = Some (live_entry i) -> i <> len).
    { intros x Hx ->. destruct (Hent _ _ Hx) as [He|[[He Hde]|(j & Hj & Hjl)]].
      - rewrite live_nonempty in He by lia. discriminate.
      - rewrite live_not_deleted in Hde by lia. discriminate.
      - apply live_inj in Hj; lia. }
    destruct (Z.eqb_spec p q) as [->|Hpq]; destruct (Z.eqb_spec p' q) as [->|Hpq']; auto.
    + injection Hp as Hp. apply live_inj in Hp; [|lia|lia]. exfalso. now apply (Hx p').
    + injection Hp' as Hp'. apply live_inj in Hp'; [|lia|lia]. exfalso. now apply (Hx p).
    + apply (Huniq p p' i); auto. specialize (Hx p Hp). lia.
  - intros i j ki kj Hi Hj Hki Hkj Heq. rewrite HK in Hki, Hkj.
    destruct (Z.eqb_spec i len) as [->|Hil]; destruct (Z.eqb_spec j len) as [->|Hjl]; auto.
    + injection Hki as <-. rewrite keq_sym, (Habs j kj ltac:(lia) Hkj) in Heq. discriminate.
    + injection Hkj as <-. rewrite (Habs i ki ltac:(lia) Hki) in Heq. discriminate.
    + apply (Hdist i j ki kj); auto; lia.
Qed.

Lemma tinv_rekey table keys len cap i k k' : tinv table keys len cap ->
  0 <= i < len -> znth keys i = Some k' -> keq k' k = true ->
  tinv table (list_set keys (Z.to_nat i) k) len cap.
Proof using.
  intros I Hi Hk Hkeq. pose proof I as [Hcap Ht Hks Hl Hsm Hent Hpos Huniq Hdist].
  assert (HK : forall j, znth (list_set keys (Z.to_nat i) k) j = if j =? i then Some k else znth keys j).
  { intros j. rewrite znth_list_set_z by lia. destruct (Z.eqb_spec j i) as [->|]; reflexivity. }
  split; auto.
  - now rewrite zlen_list_set.
  - intros j kj Hj Hkj. rewrite HK in Hkj. destruct (Z.eqb_spec j i) as [->|]; [|auto].
    injection Hkj as <-. rewrite <- (home_eq cap _ _ Hkeq). auto.
  - intros j j' kj kj' Hj Hj' Hkj Hkj' Heq. rewrite HK in Hkj, Hkj'.
    destruct (Z.eqb_spec j i) as [->|Hji]; destruct (Z.eqb_spec j' i) as [->|Hj'i]; auto.
    + injection Hkj as <-. apply (Hdist i j' k' kj'); auto. apply keq_iff in Hkeq. apply keq_iff in Heq. apply keq_iff. congruence.
    + injection Hkj' as <-. apply (Hdist j i kj k'); auto. apply keq_iff in Hkeq. apply keq_iff in Heq. apply keq_iff. congruence.
    + eauto.
Qed.

(** Removing index [i], found at slot [p]: the last key moves into its place and the slot
    becomes a tombstone. *)
Lemma tinv_delete table keys len cap i p k zk klast plast :
  tinv table keys len cap -> 0 <= i < len -> znth keys i = Some k -> znth table p = Some (live_entry i) ->
  znth keys (len - 1) = Some klast -> znth table plast = Some (live_entry (len - 1)) ->
  tinv (list_set (list_set table (Z.to_nat plast) (live_entry i)) (Z.to_nat p) tombstone)
       (list_set (list_set keys (Z.to_nat i) klast) (Z.to_nat (len - 1)) zk) (len - 1) cap.
Proof using.
  intros I Hi Hk Hp Hkl Hpl. pose proof I as [Hcap Ht Hks Hl Hsm Hent Hpos Huniq Hdist].
  pose proof (znth_range _ _ _ Hp) as Hpr. pose proof (znth_range _ _ _ Hpl) as Hplr.
  assert (HT : forall x, znth (list_set (list_set table (Z.to_nat plast) (live_entry i)) (Z.to_nat p) tombstone) x =
             if x =? p then Some tombstone else if x =? plast then Some (live_entry i) else znth table x).
  { intros x. rewrite znth_list_set_z by (rewrite zlen_list_set; lia). destruct (Z.eqb_spec x p) as [->|]; [reflexivity|].
    rewrite znth_list_set_z by lia. destruct (Z.eqb_spec x plast) as [->|]; reflexivity. }
  assert (HK : forall x, znth (list_set (list_set keys (Z.to_nat i) klast) (Z.to_nat (len - 1)) zk) x =
             if x =? len - 1 then Some zk else if x =? i then Some klast else znth keys x).
  { intros x. rewrite znth_list_set_z by (rewrite zlen_list_set; lia). destruct (Z.eqb_spec x (len - 1)) as [->|]; [reflexivity|].
    rewrite znth_list_set_z by lia. destruct (Z.eqb_spec x i) as [->|]; reflexivity. }
  set (T := list_set (list_set table (Z.to_nat plast) (live_entry i)) (Z.to_nat p) tombstone) in *.
  set (KK := list_set (list_set keys (Z.to_nat i) klast) (Z.to_nat (len - 1)) zk) in *.
  assert (HzT : zlen T = zlen table) by (subst T; now rewrite !zlen_list_set).
  assert (HzK : zlen KK = zlen keys) by (subst KK; now rewrite !zlen_list_set).
  clearbody T KK.
  assert (Hne : forall x, nonempty table x -> nonempty T x).
  { intros x (w & Hw & He). unfold nonempty. rewrite HT. destruct (x =? p); [exists tombstone; auto|].
    destruct (x =? plast); [|eauto]. exists (live_entry i). split; [reflexivity|]. apply live_nonempty. lia. }
  assert (Hplast : i <> len - 1 -> p <> plast).
  { intros Hil E. rewrite E in Hp. rewrite Hpl in Hp. injection Hp as Hp. apply live_inj in Hp; lia. }
  split.
  - exact Hcap.
  - lia.
  - lia.
  - lia.
  - lia.
  - intros x v Hv. rewrite HT in Hv. destruct (Z.eqb_spec x p) as [->|Hxp].
    { injection Hv as <-. right. left. auto. }
    destruct (Z.eqb_spec x plast) as [->|Hxl].
    { injection Hv as <-. right. right. exists i. split; [reflexivity|]. split; [lia|].
      destruct (Z.eq_dec i (len - 1)) as [E|]; [|lia]. exfalso. apply Hxp. apply (Huniq plast p (len - 1)); [lia|assumption|]. now rewrite E in Hp. }
    destruct (Hent _ _ Hv) as [He|[He|(j & -> & Hj)]]; [left; auto|right; left; auto|].
    right. right. exists j. split; [reflexivity|]. split; [lia|].
    destruct (Z.eq_dec j (len - 1)) as [->|]; [|lia]. exfalso. apply Hxl. now apply (Huniq x plast (len - 1)).
  - intros j kj Hj Hkj. rewrite HK in Hkj. replace (j =? len - 1) with false in Hkj by lia.
    destruct (Z.eqb_spec j i) as [->|Hji].
    + injection Hkj as <-. destruct (Hpos (len - 1) klast ltac:(lia) Hkl) as (d & Hd & Hld & Hc).
      exists d. split; [exact Hd|]. split; [|intros d' Hd'; apply Hne; auto].
      assert (E : pos cap (home cap klast) d = plast) by (apply (Huniq _ _ (len - 1)); auto; lia).
      rewrite HT, E. replace (plast =? p) with false by (assert (p <> plast) by (apply Hplast; lia); lia).
      now rewrite Z.eqb_refl.
    + destruct (Hpos j kj ltac:(lia) Hkj) as (d & Hd & Hld & Hc).
      exists d. split; [exact Hd|]. split; [|intros d' Hd'; apply Hne; auto]. rewrite HT.
      destruct (Z.eqb_spec (pos cap (home cap kj) d) p) as [E|E].
      { exfalso. rewrite E, Hp in Hld. injection Hld as Hld. apply live_inj in Hld; lia. }
      destruct (Z.eqb_spec (pos cap (home cap kj) d) plast) as [E2|E2]; [|exact Hld].
      exfalso. rewrite E2, Hpl in Hld. injection Hld as Hld. apply live_inj in Hld; lia.
  - intros x y j Hj Hx Hy. rewrite HT in Hx, Hy.
    assert (Ht1 : tombstone <> live_entry j).
    { intros E. pose proof (live_not_deleted j ltac:(lia)) as E2. rewrite <- E in E2. discriminate. }
    destruct (Z.eqb_spec x p); [congruence|]. destruct (Z.eqb_spec y p); [congruence|].
    destruct (Z.eqb_spec x plast) as [->|Hxl]; destruct (Z.eqb_spec y plast) as [->|Hyl]; auto.
    + injection Hx as Hx. apply live_inj in Hx; [|lia|lia]. subst j. exfalso. apply n0. now apply (Huniq y p i).
    + injection Hy as Hy. apply live_inj in Hy; [|lia|lia]. subst j. exfalso. apply n. now apply (Huniq x p i).
    + apply (Huniq x y j); auto. lia.
  - intros a b ka kb Ha Hb Hka Hkb Heq. rewrite HK in Hka, Hkb.
    replace (a =? len - 1) with false in Hka by lia. replace (b =? len - 1) with false in Hkb by lia.
    destruct (Z.eqb_spec a i) as [->|Hai]; destruct (Z.eqb_spec b i) as [->|Hbi]; auto.
    + injection Hka as <-. assert (len - 1 = b) by (apply (Hdist (len - 1) b klast kb); auto; lia). lia.
    + injection Hkb as <-. assert (a = len - 1) by (apply (Hdist a (len - 1) ka klast); auto; lia). lia.
    + apply (Hdist a b ka kb); auto; lia.
Qed.

Lemma tinv_fresh (zk : K) cap : 0 < cap -> tinv (repeat 0 (Z.to_nat cap)) (repeat zk (Z.to_nat cap)) 0 cap.
Proof using.
  intros H. split.
  - exact H.
  - rewrite zlen_repeat. lia.
  - rewrite zlen_repeat. lia.
  - lia.
  - reflexivity.
  - intros p v Hv. pose proof (znth_range _ _ _ Hv) as Hr. rewrite zlen_repeat in Hr. rewrite znth_repeat in Hv by lia.
    injection Hv as <-. left. reflexivity.
  - lia.
  - lia.
  - lia.
Qed.
End table_proof.

(** How many slots have ever been used. *)
Definition used (table : list Z) : Z := zlen (filter (fun v => negb (hash_value_empty v)) table).

Lemma used_set table p v w : znth table p = Some v ->
  used (list_set table (Z.to_nat p) w) =
  used table - (if hash_value_empty v then 0 else 1) + (if hash_value_empty w then 0 else 1).
Proof.
  intros H. pose proof (znth_range _ _ _ H) as Hr. unfold znth in H. replace (p <? 0) with false in H by lia.
  assert (G : forall n t, nth_error t n = Some v -> used (list_set t n w) =
     used t - (if hash_value_empty v then 0 else 1) + (if hash_value_empty w then 0 else 1)).
  { unfold used. induction n as [|n IH]; intros [|x t] Hn; cbn in Hn; try discriminate; cbn [list_set filter].
    - injection Hn as ->. destruct (hash_value_empty v), (hash_value_empty w); cbn [negb]; rewrite ?zlen_cons; lia.
    - specialize (IH _ Hn). destruct (hash_value_empty x); cbn [negb]; rewrite ?zlen_cons; lia. }
  now apply G.
Qed.

Lemma used_fresh n : used (repeat 0 n) = 0.
Proof. unfold used. induction n; cbn; auto. Qed.

Lemma used_all table cap : zlen table = cap -> (forall p, 0 <= p < cap -> nonempty table p) -> used table = cap.
Proof.
  intros Hz Hall. unfold used. rewrite <- Hz. f_equal.
  assert (Hf : forall x, In x table -> negb (hash_value_empty x) = true).
  { intros x Hx. apply In_znth in Hx as [i Hi]. pose proof (znth_range _ _ _ Hi).
    destruct (Hall i ltac:(lia)) as (v & Hv & He). rewrite Hi in Hv. injection Hv as <-. now rewrite He. }
  clear -Hf. induction table as [|x t IH]; [reflexivity|]. cbn. rewrite Hf by now left. f_equal. apply IH. intros y Hy. apply Hf. now right.
Qed.
