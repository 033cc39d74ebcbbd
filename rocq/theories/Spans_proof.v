(** Lemmas about spans: bitmaps and counts, the page table, ownership. *)
From Coq Require Import Permutation.
From Verif Require Import Base Base_lemmas Zlist Bitmap_spec Bitmap_model Bitmap_proof Sizeclass_model Sizeclass_proof Pages_model Pages_spec Pages_heap_proof
  Spans_model Spans_spec.
Notation pinv := Pages_heap_proof.inv.

(** ** Populations *)
Lemma population_bounds bits n : 0 <= population bits n <= Z.of_nat n.
Proof. induction n as [|n IH]; cbn [population]; [lia|]. destruct (bit bits _); lia. Qed.

Lemma population_full bits n : population bits n = Z.of_nat n -> forall i, 0 <= i < Z.of_nat n -> bit bits i = true.
Proof.
  induction n as [|n IH]; cbn [population]; intros E i Hi; [lia|]. pose proof (population_bounds bits n).
  destruct (bit bits (Z.of_nat n)) eqn:B; [|lia]. destruct (Z.eq_dec i (Z.of_nat n)) as [->|]; [assumption|]. apply IH; lia.
Qed.

Lemma population_all bits n : (forall i, 0 <= i < Z.of_nat n -> bit bits i = true) -> population bits n = Z.of_nat n.
Proof.
  induction n as [|n IH]; cbn [population]; intros H; [lia|]. rewrite (H (Z.of_nat n)) by lia. rewrite IH; [lia|]. intros i Hi. apply H. lia.
Qed.

Lemma population_ext a b n : (forall i, 0 <= i < Z.of_nat n -> bit a i = bit b i) -> population a n = population b n.
Proof.
  induction n as [|n IH]; cbn [population]; intros H; [reflexivity|]. rewrite (H (Z.of_nat n)) by lia. rewrite IH; [lia|]. intros i Hi. apply H. lia.
Qed.

Lemma population_set a b i n : 0 <= i < Z.of_nat n -> bit a i = false -> updated (fun j => j =? i) true a b ->
  population b n = population a n + 1.
Proof.
  intros Hi Ha (_ & _ & U). revert Hi. induction n as [|n IH]; cbn [population]; intros Hi; [lia|]. rewrite (U (Z.of_nat n)) by lia.
  destruct (Z.eqb_spec (Z.of_nat n) i) as [E|N].
  - rewrite E, Ha. rewrite (population_ext b a n); [lia|]. intros j Hj. rewrite U by lia. destruct (Z.eqb_spec j i); [lia|reflexivity].
  - rewrite IH by lia. lia.
Qed.

Lemma find_free_spec bits n : forall i, 0 <= i -> i + Z.of_nat n <= capacity bits -> (forall j, 0 <= j < i -> bit bits j = true) ->
  population bits (Z.to_nat (i + Z.of_nat n)) < i + Z.of_nat n ->
  exists k, find_free bits n i = Ok k /\ i <= k < i + Z.of_nat n /\ bit bits k = false /\ (forall j, 0 <= j < k -> bit bits j = true).
Proof.
  induction n as [|n IH]; intros i Hi Hc Hu Hp.
  - exfalso. rewrite population_all in Hp; [lia|]. intros j Hj. apply Hu. lia.
  - cbn [find_free]. rewrite test_spec by lia. cbn [bind]. destruct (bit bits i) eqn:B.
    + destruct (IH (i + 1)) as (k & E & Hk & Bk & Ub); try lia.
      * intros j Hj. destruct (Z.eq_dec j i) as [->|]; [assumption|]. apply Hu. lia.
      * replace (i + 1 + Z.of_nat n) with (i + Z.of_nat (S n)) by lia. assumption.
      * exists k. split; [assumption|]. split; [lia|]. auto.
    + exists i. split; [reflexivity|]. split; [lia|]. auto.
Qed.

(** ** Well-formed spans *)
Definition words (count : Z) : Z := (count + 63) / 64 * 8.

Record swf (s : span) : Prop := mk_swf {
  w_class : 0 <= s_class s < 136; w_pages : 0 < s_pages s; w_osize : 0 < s_osize s; w_ocount : 0 < s_ocount s <= 1024;
  w_fit : s_ocount s * s_osize s <= s_pages s * PAGE; w_2g : s_pages s * PAGE <= 2147483648;
  w_room : s_pages s * PAGE <= 8 * words (s_ocount s) * s_osize s;
  w_ab : bytes (s_abits s); w_al : zlen (s_abits s) = words (s_ocount s);
  w_mb : bytes (s_mbits s); w_ml : zlen (s_mbits s) = words (s_ocount s);
  w_size : take_sizeclass (s_class s) <> 0 -> s_osize s = size_of (take_sizeclass (s_class s));
  w_pop : s_acount s = population (s_abits s) (Z.to_nat (s_ocount s));
  w_fi : 0 <= s_findex s <= s_ocount s; w_used : forall i, 0 <= i < s_findex s -> bit (s_abits s) i = true }.

Lemma words_cap c : 0 < c -> c <= 8 * words c.
Proof. unfold words. intros H. zdiv. Qed.

Lemma zeros_bit n i : bit (repeat 0 n) i = false.
Proof. unfold bit. destruct (nth_error _ _) as [x|] eqn:E; [|reflexivity]. apply nth_error_In, repeat_spec in E. subst x. apply Z.bits_0. Qed.
Lemma new_bits_bytes c : bytes (new_bits c).
Proof. unfold bytes, new_bits. apply Forall_forall. intros x Hx. apply repeat_spec in Hx. subst x. unfold is_byte. lia. Qed.
Lemma new_bits_len c : 0 < c -> zlen (new_bits c) = words c.
Proof. intros H. unfold new_bits, zlen. rewrite repeat_length. unfold words. rewrite Z2Nat.id; [reflexivity|zdiv]. Qed.
Lemma new_bits_pop c n : population (new_bits c) n = 0.
Proof. induction n as [|n IH]; cbn [population]; [reflexivity|]. unfold new_bits at 2. rewrite zeros_bit, IH. reflexivity. Qed.

Definition run (s : span) : Z * Z := (s_base s, s_pages s).
(** the address of slot i *)
Definition slot (s : span) (i : Z) : Z := s_base s + i * s_osize s.
Definition upto (n : Z) : list Z := map Z.of_nat (seq 0 (Z.to_nat n)).
(** the slots selected by a bitmap, as (address, size) *)
Definition picked (bits : list Z) (s : span) : list (Z * Z) :=
  map (fun i => (slot s i, s_osize s)) (filter (bit bits) (upto (s_ocount s))).
Definition taken (s : span) : list (Z * Z) := picked (s_abits s) s.
Definition slots (l : list span) : list (Z * Z) := flat_map taken l.

Lemma in_upto i n : In i (upto n) <-> 0 <= i < n.
Proof.
  unfold upto. rewrite in_map_iff. split.
  - intros (k & E & I). apply in_seq in I. lia.
  - intros H. exists (Z.to_nat i). split; [lia|]. apply in_seq. lia.
Qed.
Lemma upto_nodup n : NoDup (upto n).
Proof. unfold upto. apply FinFun.Injective_map_NoDup; [|apply seq_NoDup]. intros a b E. lia. Qed.

Lemma in_picked bits s x : In x (picked bits s) <-> exists i, 0 <= i < s_ocount s /\ bit bits i = true /\ x = (slot s i, s_osize s).
Proof.
  unfold picked. rewrite in_map_iff. split.
  - intros (i & E & I). apply filter_In in I. destruct I as [I B]. apply in_upto in I. eauto.
  - intros (i & H & B & E). exists i. split; [now symmetry|]. apply filter_In. split; [now apply in_upto|assumption].
Qed.

Lemma slot_inj s i j : 0 < s_osize s -> slot s i = slot s j -> i = j.
Proof. unfold slot. intros H E. assert (i * s_osize s = j * s_osize s) by lia. apply Z.mul_reg_r in H0; lia. Qed.

Lemma picked_nodup bits s : 0 < s_osize s -> NoDup (map fst (picked bits s)).
Proof.
  intros H. unfold picked. rewrite map_map. cbn [fst]. apply FinFun.Injective_map_NoDup; [|apply NoDup_filter, upto_nodup].
  intros i j E. now apply (slot_inj s).
Qed.

Lemma slot_index s i x : 0 < s_osize s -> slot s i <= x < slot s i + s_osize s -> (x - s_base s) / s_osize s = i.
Proof. unfold slot. intros H X. symmetry. apply Z.div_unique_pos with (x - s_base s - i * s_osize s); [lia|ring]. Qed.

Lemma slot_range s i : swf s -> 0 <= i < s_ocount s -> s_base s <= slot s i /\ slot s i + s_osize s <= s_base s + s_pages s * PAGE.
Proof.
  intros W Hi. unfold slot. pose proof (w_osize s W). pose proof (w_fit s W).
  assert (0 <= i * s_osize s) by nia. assert ((i + 1) * s_osize s <= s_ocount s * s_osize s) by nia. lia.
Qed.

(** ** The part of the state made of pages, spans, table and memory *)
Record core (h : heap) (l : list span) (t : Z -> option Z) (m : Z -> Z) : Prop := mk_core {
  c_pages : pinv h (map run l);
  c_wf : Forall swf l;
  c_tab1 : forall s p, In s l -> page_in p (run s) = true -> t p = Some (s_base s);
  c_tab2 : forall p b, t p = Some b -> exists s, In s l /\ s_base s = b /\ page_in p (run s) = true;
  c_zero : forall s, In s l -> s_nz s = false -> forall i, 0 <= i < s_ocount s -> bit (s_abits s) i = false ->
    forall x, slot s i <= x < slot s i + s_osize s -> m x = 0 }.

Lemma page_in_base h r : run_ok h r -> page_in (page_of (fst r)) r = true.
Proof. intros (p & E & P0 & N & _). unfold page_in. destruct (Z.leb_spec (page_of (fst r)) (page_of (fst r))); [|lia]. destruct (Z.ltb_spec (page_of (fst r)) (page_of (fst r) + snd r)); [reflexivity|lia]. Qed.

Lemma bases_nodup h l : pinv h l -> NoDup (map fst l).
Proof.
  intros I. pose proof (i_apart h l I) as A. pose proof (i_live h l I) as L. clear I.
  induction A as [|r l Hr A IH]; cbn [map]; constructor.
  - rewrite in_map_iff. intros (q & E & Iq). rewrite Forall_forall in Hr. apply (Hr q Iq (page_of (fst r))).
    inversion L as [|? ? Lr Ll]; subst. rewrite Forall_forall in Ll. split; [now apply (page_in_base h)|]. rewrite <- E. apply (page_in_base h). now apply Ll.
  - inversion L; subst. auto.
Qed.

Lemma spans_nodup h l t m : core h l t m -> NoDup (map s_base l).
Proof. intros C. pose proof (bases_nodup h _ (c_pages _ _ _ _ C)) as N. rewrite map_map in N. exact N. Qed.

Lemma base_inj l s s' : NoDup (map s_base l) -> In s l -> In s' l -> s_base s = s_base s' -> s = s'.
Proof.
  induction l as [|x l IH]; cbn [map In]; intros N H H' E; [contradiction|]. inversion N as [|? ? N1 N2]; subst.
  destruct H as [->|H], H' as [->|H']; auto; exfalso; apply N1; [rewrite E|rewrite <- E]; now apply in_map.
Qed.

Lemma get_ok st s : NoDup (map s_base (spans st)) -> In s (spans st) -> get st (s_base s) = Ok s.
Proof.
  intros N I. unfold get. destruct (find (fun t => s_base t =? s_base s) (spans st)) as [x|] eqn:F.
  - apply find_some in F. destruct F as [Ix Ex]. apply Z.eqb_eq in Ex. f_equal. now apply (base_inj (spans st)).
  - pose proof (find_none _ _ F s I) as X. cbn beta in X. rewrite Z.eqb_refl in X. discriminate.
Qed.

Definition subst_span (s' : span) (l : list span) : list span := map (fun t => if s_base t =? s_base s' then s' else t) l.

Lemma subst_in s' l s : NoDup (map s_base l) -> In s l -> s_base s = s_base s' -> forall t, In t (subst_span s' l) <-> t = s' \/ (In t l /\ s_base t <> s_base s').
Proof.
  intros N I E t. unfold subst_span. rewrite in_map_iff. split.
  - intros (x & Ex & Ix). destruct (Z.eqb_spec (s_base x) (s_base s')); [now left|right; now subst t].
  - intros [->|[It Nt]].
    + exists s. rewrite E, Z.eqb_refl. auto.
    + exists t. destruct (Z.eqb_spec (s_base t) (s_base s')); [contradiction|auto].
Qed.

Lemma subst_bases s' l : map s_base (subst_span s' l) = map s_base l.
Proof. unfold subst_span. rewrite map_map. apply map_ext. intros t. destruct (Z.eqb_spec (s_base t) (s_base s')); auto. Qed.

Lemma subst_run s s' l : NoDup (map s_base l) -> In s l -> run s' = run s -> map run (subst_span s' l) = map run l.
Proof.
  intros N I E. unfold subst_span. rewrite map_map. apply map_ext_in. intros t It.
  destruct (Z.eqb_spec (s_base t) (s_base s')) as [Et|]; [|reflexivity]. rewrite E. f_equal. apply (base_inj l); auto. unfold run in E. congruence.
Qed.

(** changing a span without touching its pages *)
Lemma core_subst h l t m m' s s' : core h l t m -> In s l -> run s' = run s -> swf s' ->
  (forall x, m' x = m x \/ (s_base s <= x < s_base s + s_pages s * PAGE)) ->
  (s_nz s' = false -> forall i, 0 <= i < s_ocount s' -> bit (s_abits s') i = false -> forall x, slot s' i <= x < slot s' i + s_osize s' -> m' x = 0) ->
  core h (subst_span s' l) t m'.
Proof.
  intros C I E W Hm Hz. pose proof (spans_nodup _ _ _ _ C) as N. assert (Eb : s_base s = s_base s') by (unfold run in E; congruence).
  constructor.
  - rewrite (subst_run s s' l N I E). apply C.
  - apply Forall_forall. intros x Hx. apply (subst_in s' l s N I Eb) in Hx. destruct Hx as [->|[Hx _]]; [assumption|]. pose proof (c_wf _ _ _ _ C) as F. rewrite Forall_forall in F. auto.
  - intros x p Hx Hp. apply (subst_in s' l s N I Eb) in Hx. destruct Hx as [->|[Hx _]].
    + rewrite E in Hp. rewrite <- Eb. now apply (c_tab1 _ _ _ _ C).
    + now apply (c_tab1 _ _ _ _ C).
  - intros p b Hb. destruct (c_tab2 _ _ _ _ C p b Hb) as (x & Ix & Ex & Px). destruct (Z.eq_dec (s_base x) (s_base s')) as [Exs|Nx].
    + exists s'. split; [apply (subst_in s' l s N I Eb); now left|]. split; [congruence|]. rewrite E. assert (x = s) as <- by (apply (base_inj l); congruence || auto). assumption.
    + exists x. split; [apply (subst_in s' l s N I Eb); now right|auto].
  - intros x Hx Hn i Hi Bi y Hy. apply (subst_in s' l s N I Eb) in Hx. destruct Hx as [->|[Hx Nx]]; [now apply (Hz Hn i)|].
    destruct (Hm y) as [->|R]; [now apply (c_zero _ _ _ _ C x Hx Hn i)|]. exfalso.
    pose proof (c_wf _ _ _ _ C) as F. rewrite Forall_forall in F. destruct (slot_range x i (F x Hx) Hi) as [A B].
    destruct (In_nth_error _ _ I) as (a & Ea). destruct (In_nth_error _ _ Hx) as (b & Eb').
    assert (a <> b) by (intros ->; rewrite Ea in Eb'; injection Eb' as ->; congruence).
    refine (inv_disjoint h (map run l) a b (run s) (run x) (c_pages _ _ _ _ C) H _ _ y _); [now apply map_nth_error|now apply map_nth_error|].
    unfold run. cbn [fst snd]. lia.
Qed.

(** ** Slots *)
Lemma spans_disjoint h l t m s s' x : core h l t m -> In s l -> In s' l -> s_base s <> s_base s' ->
  s_base s <= x < s_base s + s_pages s * PAGE -> s_base s' <= x < s_base s' + s_pages s' * PAGE -> False.
Proof.
  intros C I I' N R R'. destruct (In_nth_error _ _ I) as (a & Ea). destruct (In_nth_error _ _ I') as (b & Eb).
  assert (a <> b) by (intros ->; rewrite Ea in Eb; injection Eb as ->; congruence).
  refine (inv_disjoint h (map run l) a b (run s) (run s') (c_pages _ _ _ _ C) H _ _ x _); [now apply map_nth_error|now apply map_nth_error|].
  unfold run. cbn [fst snd]. lia.
Qed.

Lemma in_slots l a z : In (a, z) (slots l) <-> exists s i, In s l /\ 0 <= i < s_ocount s /\ bit (s_abits s) i = true /\ a = slot s i /\ z = s_osize s.
Proof.
  unfold slots. rewrite in_flat_map. split.
  - intros (s & I & H). apply in_picked in H. destruct H as (i & Hi & B & E). injection E as -> ->. exists s, i. auto.
  - intros (s & i & I & Hi & B & -> & ->). exists s. split; [assumption|]. apply in_picked. exists i. auto.
Qed.

Lemma slots_apart h l t m a z a' z' : core h l t m -> In (a, z) (slots l) -> In (a', z') (slots l) -> a <> a' -> disjoint a z a' z'.
Proof.
  intros C H H' N x [X X']. apply in_slots in H. apply in_slots in H'. destruct H as (s & i & I & Hi & _ & -> & ->). destruct H' as (s' & i' & I' & Hi' & _ & -> & ->).
  pose proof (c_wf _ _ _ _ C) as F. rewrite Forall_forall in F. destruct (slot_range s i (F s I) Hi). destruct (slot_range s' i' (F s' I') Hi').
  destruct (Z.eq_dec (s_base s) (s_base s')) as [E|E].
  - assert (s = s') as <- by (apply (base_inj l); auto; eapply spans_nodup; eauto).
    pose proof (slot_index s i x (w_osize s (F s I)) X). pose proof (slot_index s i' x (w_osize s (F s I)) X'). congruence.
  - apply (spans_disjoint h l t m s s' x C I I' E); lia.
Qed.

Lemma slots_sub_range h l t m a z : core h l t m -> In (a, z) (slots l) -> exists s, In s l /\ s_base s <= a /\ a + z <= s_base s + s_pages s * PAGE /\ 0 < z.
Proof.
  intros C H. apply in_slots in H. destruct H as (s & i & I & Hi & _ & -> & ->). pose proof (c_wf _ _ _ _ C) as F. rewrite Forall_forall in F.
  exists s. split; [assumption|]. destruct (slot_range s i (F s I) Hi). pose proof (w_osize s (F s I)). auto.
Qed.

Lemma NoDup_app2 {A} (a b : list A) : NoDup a -> NoDup b -> (forall x, In x a -> ~ In x b) -> NoDup (a ++ b).
Proof.
  induction 1 as [|x a Hx N IH]; intros Nb D; cbn [app]; [assumption|]. constructor.
  - rewrite in_app_iff. intros [H|H]; [contradiction|]. apply (D x); [now left|assumption].
  - apply IH; [assumption|]. intros y Hy. apply D. now right.
Qed.

Lemma slots_nodup h l t m : core h l t m -> NoDup (map fst (slots l)).
Proof.
  intros C. pose proof (spans_nodup _ _ _ _ C) as N. pose proof (c_wf _ _ _ _ C) as F.
  assert (D : forall s s' x, In s l -> In s' l -> s_base s <> s_base s' -> In x (map fst (taken s)) -> In x (map fst (taken s')) -> False).
  { intros s s' x I I' Ns H H'. rewrite Forall_forall in F. apply in_map_iff in H. destruct H as ((a & z) & <- & H). apply in_map_iff in H'. destruct H' as ((a' & z') & E & H').
    cbn [fst] in *. apply in_picked in H. apply in_picked in H'. destruct H as (i & Hi & _ & E1). destruct H' as (j & Hj & _ & E2). injection E1 as -> ->. injection E2 as -> ->.
    destruct (slot_range s i (F s I) Hi). destruct (slot_range s' j (F s' I') Hj). pose proof (w_osize s (F s I)). apply (spans_disjoint h l t m s s' (slot s i) C I I' Ns); pose proof (w_osize s' (F s' I')); lia. }
  clear C. induction l as [|s l IH]; cbn [slots flat_map map]; [constructor|]. rewrite map_app. cbn [map] in N. inversion N as [|? ? N1 N2]; subst. inversion F as [|? ? Fs Fl]; subst.
  apply NoDup_app2.
  - apply picked_nodup. apply Fs.
  - apply IH; auto. intros s1 s2 x I1 I2. apply D; now right.
  - intros x Hx Hy. apply in_map_iff in Hy. destruct Hy as ((a & z) & <- & Hy). apply in_flat_map in Hy. destruct Hy as (s' & I' & Hy).
    apply (D s s' a); [now left|now right| | |].
    + intros E. apply N1. rewrite E. now apply in_map.
    + exact Hx.
    + change a with (fst (a, z)). now apply in_map.
Qed.
