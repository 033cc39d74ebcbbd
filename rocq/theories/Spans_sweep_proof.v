(** The sweep: every span becomes its marked part, empty spans go back to the page heap. *)
From Coq Require Import Permutation.
From Verif Require Import Base Base_lemmas Zlist Bitmap_spec Bitmap_model Bitmap_proof Sizeclass_model Sizeclass_proof Pages_model Pages_spec Pages_heap_proof
  Spans_model Spans_spec Spans_proof Spans_alloc_proof Spans_malloc_proof Spans_mark_proof.

(** ** The loop over the slots of a span *)
Fixpoint freed_count (a m : list Z) (n : nat) : Z :=
  match n with O => 0 | S n => freed_count a m n + (if bit a (Z.of_nat n) && negb (bit m (Z.of_nat n)) then 1 else 0) end.

Definition loop_inv (a m : list Z) (z t0 : Z) (i : Z) (acc : Z * Z * bool * Z) : Prop :=
  let '(count, free, freed, total) := acc in
  count = population m (Z.to_nat i) /\
  ((free = -1 /\ forall j, 0 <= j < i -> bit m j = true) \/ (0 <= free < i /\ bit m free = false /\ forall j, 0 <= j < free -> bit m j = true)) /\
  (freed = true <-> exists j, 0 <= j < i /\ bit a j = true /\ bit m j = false) /\
  u64 total = u64 (t0 - z * freed_count a m (Z.to_nat i)).

Lemma u64_sub x y k : u64 x = u64 y -> u64 (x - k) = u64 (y - k).
Proof. unfold u64. intros E. rewrite (Zminus_mod x), (Zminus_mod y), E. reflexivity. Qed.
Lemma u64_add x y k : u64 x = u64 y -> u64 (x + k) = u64 (y + k).
Proof. unfold u64. intros E. rewrite (Zplus_mod x), (Zplus_mod y), E. reflexivity. Qed.
Lemma u64_u64 x : u64 (u64 x) = u64 x.
Proof. unfold u64. now rewrite Zmod_mod. Qed.

Lemma sweep_loop_spec a m z t0 n : forall i acc, 0 <= i -> i + Z.of_nat n <= capacity a -> i + Z.of_nat n <= capacity m -> loop_inv a m z t0 i acc ->
  exists acc', sweep_loop a m z n i acc = Ok acc' /\ loop_inv a m z t0 (i + Z.of_nat n) acc'.
Proof.
  induction n as [|n IH]; intros i acc Hi Ca Cm L.
  - exists acc. rewrite Z.add_0_r. auto.
  - cbn [sweep_loop]. destruct acc as [[[count free] freed] total]. rewrite (test_spec m i) by lia. cbn [bind].
    replace (i + Z.of_nat (S n)) with (i + 1 + Z.of_nat n) by lia. destruct L as (L1 & L2 & L3 & L4).
    assert (Ei : Z.to_nat (i + 1) = S (Z.to_nat i)) by lia. assert (Eo : Z.of_nat (Z.to_nat i) = i) by lia.
    destruct (bit m i) eqn:Bm.
    + apply IH; try lia. unfold loop_inv. rewrite Ei. cbn [population freed_count]. rewrite Eo, Bm, andb_false_r.
      split; [lia|]. split; [|split].
      * destruct L2 as [[-> L2]|(F1 & F2 & F3)].
        -- left. split; [reflexivity|]. intros j Hj. destruct (Z.eq_dec j i) as [->|]; [assumption|]. apply L2. lia.
        -- right. split; [lia|]. auto.
      * rewrite L3. split; intros (j & Hj & B1 & B2); exists j; (split; [|auto]); [lia|]. destruct (Z.eq_dec j i) as [->|]; [congruence|lia].
      * now rewrite Z.add_0_r.
    + rewrite (test_spec a i) by lia. cbn [bind].
      assert (F' : ((if free =? -1 then i else free) = -1 /\ forall j, 0 <= j < i + 1 -> bit m j = true) \/
        (0 <= (if free =? -1 then i else free) < i + 1 /\ bit m (if free =? -1 then i else free) = false /\ forall j, 0 <= j < (if free =? -1 then i else free) -> bit m j = true)).
      { right. destruct L2 as [[-> L2]|(F1 & F2 & F3)].
        - cbn [Z.eqb Pos.eqb]. split; [lia|]. auto.
        - destruct (Z.eqb_spec free (-1)); [lia|]. split; [lia|]. auto. }
      destruct (bit a i) eqn:Ba.
      * apply IH; try lia. unfold loop_inv. rewrite Ei. cbn [population freed_count]. rewrite Eo, Bm, Ba. cbn [andb negb]. split; [lia|]. split; [exact F'|]. split.
        -- split; [|reflexivity]. intros _. exists i. split; [lia|auto].
        -- rewrite u64_u64. replace (t0 - z * (freed_count a m (Z.to_nat i) + 1)) with (t0 - z * freed_count a m (Z.to_nat i) - z) by ring. now apply u64_sub.
      * apply IH; try lia. unfold loop_inv. rewrite Ei. cbn [population freed_count]. rewrite Eo, Bm, Ba. cbn [andb negb]. split; [lia|]. split; [exact F'|]. split.
        -- rewrite L3. split; intros (j & Hj & B1 & B2); exists j; (split; [|auto]); [lia|]. destruct (Z.eq_dec j i) as [->|]; [congruence|lia].
        -- now rewrite Z.add_0_r.
Qed.

(** ** What a span becomes *)
Definition first_free (s : span) : Z := match find (fun i => negb (bit (s_mbits s) i)) (upto (s_ocount s)) with Some i => i | None => 0 end.
Definition any_freed (s : span) : bool := existsb (fun i => bit (s_abits s) i && negb (bit (s_mbits s) i)) (upto (s_ocount s)).
Definition live_count (s : span) : Z := population (s_mbits s) (Z.to_nat (s_ocount s)).
Definition swept (s : span) : span :=
  mk_span (s_base s) (s_pages s) (s_class s) (s_osize s) (s_ocount s) (live_count s) (first_free s) (s_mbits s) (new_bits (s_ocount s)) (s_nz s || any_freed s).
Definition sw (s : span) : list span := if live_count s =? 0 then [] else [swept s].
Definition freed_of (s : span) : Z := freed_count (s_abits s) (s_mbits s) (Z.to_nat (s_ocount s)).

Lemma find_first (P : Z -> bool) n k : 0 <= k < n -> P k = true -> (forall j, 0 <= j < k -> P j = false) -> find P (upto n) = Some k.
Proof.
  intros Hk Pk Hj. unfold upto. replace (Z.to_nat n) with (Z.to_nat k + S (Z.to_nat (n - k - 1)))%nat by lia. rewrite seq_app, map_app. cbn [seq map].
  assert (A : forall l r, (forall x, In x l -> P x = false) -> find P (l ++ r) = find P r).
  { induction l as [|x l IH]; intros r H; [reflexivity|]. cbn [app find]. rewrite (H x) by now left. apply IH. intros y Hy. apply H. now right. }
  rewrite A.
  - cbn [find]. replace (Z.of_nat (0 + Z.to_nat k)) with k by lia. now rewrite Pk.
  - intros x Hx. apply in_map_iff in Hx. destruct Hx as (y & <- & Hy). apply in_seq in Hy. apply Hj. lia.
Qed.
Lemma find_nothing (P : Z -> bool) n : (forall j, 0 <= j < n -> P j = false) -> find P (upto n) = None.
Proof.
  intros H. destruct (find P (upto n)) as [k|] eqn:E; [|reflexivity]. apply find_some in E. destruct E as [I E]. apply in_upto in I. rewrite H in E by assumption. discriminate.
Qed.

Lemma sweep_loop_swept s t : swf s -> exists total,
  sweep_loop (s_abits s) (s_mbits s) (s_osize s) (Z.to_nat (s_ocount s)) 0 (0, -1, false, t) =
    Ok (live_count s, (if first_free s =? 0 then if bit (s_mbits s) 0 then -1 else 0 else first_free s), any_freed s, total) /\
  u64 total = u64 (t - s_osize s * freed_of s) /\ 0 <= first_free s <= s_ocount s /\ (forall j, 0 <= j < first_free s -> bit (s_mbits s) j = true).
Proof.
  intros W. pose proof (w_ocount s W) as Hn. pose proof (words_cap (s_ocount s) ltac:(lia)) as Cp.
  destruct (sweep_loop_spec (s_abits s) (s_mbits s) (s_osize s) t (Z.to_nat (s_ocount s)) 0 (0, -1, false, t)) as ([[[count free] freed] total] & E & L1 & L2 & L3 & L4); try lia.
  - unfold capacity. rewrite (w_al s W). lia.
  - unfold capacity. rewrite (w_ml s W). lia.
  - unfold loop_inv. split; [reflexivity|]. split; [left; split; [reflexivity|intros; lia]|]. split; [|cbn [Z.to_nat freed_count]; f_equal; ring].
    split; [discriminate|]. intros (j & Hj & _). lia.
  - exists total. rewrite E. rewrite Z.add_0_l in *. rewrite Z2Nat.id in * by lia.
    assert (Fr : freed = any_freed s).
    { apply Bool.eq_iff_eq_true. rewrite L3. unfold any_freed. rewrite existsb_exists. split; intros (j & A & B); exists j.
      - rewrite in_upto. split; [assumption|]. destruct B as [-> ->]. reflexivity.
      - rewrite in_upto in A. apply andb_true_iff in B. rewrite negb_true_iff in B. tauto. }
    assert (Ff : first_free s = (if free =? -1 then 0 else free) /\ free = (if first_free s =? 0 then if bit (s_mbits s) 0 then -1 else 0 else first_free s) /\
       0 <= first_free s <= s_ocount s /\ (forall j, 0 <= j < first_free s -> bit (s_mbits s) j = true)).
    { destruct L2 as [[-> H]|(F1 & F2 & F3)].
      - unfold first_free. rewrite find_nothing by (intros j Hj; rewrite H by assumption; reflexivity). rewrite (H 0) by lia. cbn. repeat split; try lia.
      - unfold first_free. rewrite (find_first _ _ free); [|lia|now rewrite F2|intros j Hj; now rewrite F3].
        destruct (Z.eqb_spec free (-1)); [lia|]. split; [reflexivity|]. split; [|split; [lia|auto]]. destruct (Z.eqb_spec free 0) as [->|]; [now rewrite F2|reflexivity]. }
    destruct Ff as (Ff1 & Ff2 & Ff3 & Ff4). rewrite <- Ff2, <- Fr, L1. repeat split; auto; lia.
Qed.

Lemma swept_wf s : swf s -> swf (swept s).
Proof.
  intros W. destruct (sweep_loop_swept s 0 W) as (_ & _ & _ & H3 & H4). pose proof (w_ocount s W).
  constructor; cbn [swept s_class s_pages s_osize s_ocount s_abits s_mbits s_acount s_findex]; try apply W; auto.
  - apply new_bits_bytes.
  - apply new_bits_len. lia.
Qed.

(** ** Lists of spans *)
Definition g (b : Z) (t : span) : list span := if s_base t =? b then sw t else [t].
Definition gl (L : list Z) (t : span) : list span := if existsb (Z.eqb (s_base t)) L then sw t else [t].

Lemma flat_map_other (f : span -> list span) l : (forall t, In t l -> f t = [t]) -> flat_map f l = l.
Proof. induction l as [|t l IH]; intros H; cbn [flat_map]; [reflexivity|]. rewrite (H t) by now left. rewrite IH; [reflexivity|]. intros x Hx. apply H. now right. Qed.

Lemma nodup_split l1 s l2 : NoDup (map s_base (l1 ++ s :: l2)) -> (forall t, In t l1 \/ In t l2 -> s_base t <> s_base s).
Proof.
  intros N t H E. rewrite map_app in N. cbn [map] in N. apply NoDup_remove_2 in N. apply N. rewrite <- E. apply in_app_iff. destruct H; [left|right]; now apply in_map.
Qed.

Lemma flat_g l1 s l2 : NoDup (map s_base (l1 ++ s :: l2)) -> flat_map (g (s_base s)) (l1 ++ s :: l2) = l1 ++ sw s ++ l2.
Proof.
  intros N. pose proof (nodup_split l1 s l2 N) as H. rewrite flat_map_app. cbn [flat_map]. unfold g at 2. rewrite Z.eqb_refl.
  rewrite !flat_map_other; [reflexivity| |]; intros t Ht; unfold g; destruct (Z.eqb_spec (s_base t) (s_base s)) as [E|]; try reflexivity; exfalso; apply (H t); auto.
Qed.

Lemma filter_split l1 s s' l2 : NoDup (map s_base (l1 ++ s :: l2)) -> s_base s' = s_base s -> filter (fun t => negb (s_base t =? s_base s)) (l1 ++ s' :: l2) = l1 ++ l2.
Proof.
  intros N E. pose proof (nodup_split l1 s l2 N) as H. rewrite filter_app. cbn [filter]. rewrite E, Z.eqb_refl. cbn [negb].
  assert (A : forall l, (forall t, In t l -> s_base t <> s_base s) -> filter (fun t => negb (s_base t =? s_base s)) l = l).
  { induction l as [|t l IH]; intros Hl; [reflexivity|]. cbn [filter]. destruct (Z.eqb_spec (s_base t) (s_base s)) as [Et|]; [exfalso; apply (Hl t); [now left|assumption]|].
    cbn [negb]. f_equal. apply IH. intros x Hx. apply Hl. now right. }
  rewrite !A; auto.
Qed.

Lemma flat_map_flat_map {A B C} (f : A -> list B) (h : B -> list C) l : flat_map h (flat_map f l) = flat_map (fun x => flat_map h (f x)) l.
Proof. induction l as [|a l IH]; cbn [flat_map]; [reflexivity|]. now rewrite flat_map_app, IH. Qed.

Lemma existsb_base b L : existsb (Z.eqb b) L = true <-> In b L.
Proof.
  rewrite existsb_exists. split; [intros (x & I & E); apply Z.eqb_eq in E; now subst x|]. intros I. exists b. split; [assumption|apply Z.eqb_refl].
Qed.

Lemma sw_gl L s : ~ In (s_base s) L -> flat_map (gl L) (sw s) = sw s.
Proof.
  intros N. unfold sw. destruct (live_count s =? 0); [reflexivity|]. cbn [flat_map]. unfold gl. change (s_base (swept s)) with (s_base s).
  destruct (existsb (Z.eqb (s_base s)) L) eqn:E; [apply existsb_base in E; contradiction|reflexivity].
Qed.

Lemma gl_app L1 L2 l : (forall b, In b L1 -> ~ In b L2) -> flat_map (gl L2) (flat_map (gl L1) l) = flat_map (gl (L1 ++ L2)) l.
Proof.
  intros D. rewrite flat_map_flat_map. apply flat_map_ext. intros s. unfold gl at 2 3. rewrite existsb_app.
  destruct (existsb (Z.eqb (s_base s)) L1) eqn:E1; cbn [orb].
  - apply existsb_base in E1. apply sw_gl. auto.
  - cbn [flat_map]. rewrite app_nil_r. reflexivity.
Qed.

Lemma g_gl b l : flat_map (g b) l = flat_map (gl [b]) l.
Proof. apply flat_map_ext. intros s. unfold g, gl. cbn [existsb]. now rewrite orb_false_r. Qed.

(** ** Sums *)
Definition sumz (l : list (Z * Z)) : Z := fold_right (fun o t => snd o + t) 0 l.
Lemma sumz_app a b : sumz (a ++ b) = sumz a + sumz b.
Proof. induction a as [|x a IH]; cbn [app sumz fold_right]; [reflexivity|]. fold (sumz (a ++ b)) (sumz a). rewrite IH. ring. Qed.

Lemma picked_sum bits s : sumz (picked bits s) = s_osize s * population bits (Z.to_nat (s_ocount s)).
Proof.
  unfold picked, upto. induction (Z.to_nat (s_ocount s)) as [|n IH]; [cbn; ring|]. cbn [population]. rewrite seq_S, map_app, filter_app, map_app, sumz_app, IH.
  cbn [seq map filter Nat.add]. destruct (bit bits (Z.of_nat n)); cbn [map sumz fold_right snd]; ring.
Qed.

Lemma clean_freed s : (forall i, 0 <= i < s_ocount s -> bit (s_mbits s) i = true -> bit (s_abits s) i = true) ->
  freed_of s = population (s_abits s) (Z.to_nat (s_ocount s)) - population (s_mbits s) (Z.to_nat (s_ocount s)).
Proof.
  unfold freed_of. intros H. assert (H' : forall i, 0 <= i < Z.of_nat (Z.to_nat (s_ocount s)) -> bit (s_mbits s) i = true -> bit (s_abits s) i = true) by (intros i Hi; apply H; lia).
  clear H. revert H'. induction (Z.to_nat (s_ocount s)) as [|n IH]; intros H; cbn [freed_count population]; [reflexivity|]. rewrite IH by (intros i Hi; apply H; lia).
  specialize (H (Z.of_nat n) ltac:(lia)). destruct (bit (s_mbits s) (Z.of_nat n)); destruct (bit (s_abits s) (Z.of_nat n)); cbn [andb negb]; lia.
Qed.

(** ** One span *)
Definition counted (st : state) : Prop := u64 (allocated st) = u64 (sumz (slots (spans st))).
(** what a piece of the sweep does, [L] being the spans it sweeps *)
Definition sweep_effect (st st' : state) (L : list Z) : Prop :=
  spans st' = flat_map (gl L) (spans st) /\ cache st' = cache st /\ nprocs st' = nprocs st /\
  (forall x, in_spans (spans st') x -> mem st' x = mem st x) /\
  (clean (spans st) -> clean (spans st') /\ (counted st -> counted st')).

Lemma remove_nth_app {A} (a b : list A) x : remove_nth (List.length a) (a ++ x :: b) = a ++ b.
Proof.
  unfold remove_nth. rewrite firstn_app, Nat.sub_diag, firstn_all. cbn [firstn]. rewrite app_nil_r. f_equal.
  rewrite skipn_app. rewrite skipn_all2 by lia. replace (S (List.length a) - List.length a)%nat with 1%nat by lia. reflexivity.
Qed.

Lemma clean_swept l1 s l2 : clean (l1 ++ s :: l2) -> clean (l1 ++ sw s ++ l2).
Proof.
  intros C t i It Hi B. rewrite !in_app_iff in It. destruct It as [It|[It|It]].
  - apply (C t i); auto. apply in_app_iff. now left.
  - unfold sw in It. destruct (live_count s =? 0); [destruct It|]. destruct It as [<-|[]]. cbn [swept s_mbits] in B. unfold new_bits in B. rewrite zeros_bit in B. discriminate.
  - apply (C t i); auto. apply in_app_iff. right. now right.
Qed.

Lemma counted_swept t t' l1 s l2 : clean (l1 ++ s :: l2) -> u64 t' = u64 (t - s_osize s * freed_of s) ->
  u64 t = u64 (sumz (slots (l1 ++ s :: l2))) -> u64 t' = u64 (sumz (slots (l1 ++ sw s ++ l2))).
Proof.
  intros C E E0. rewrite E. rewrite (u64_sub _ _ (s_osize s * freed_of s) E0). f_equal. unfold slots. rewrite !flat_map_app. cbn [flat_map]. rewrite !sumz_app.
  rewrite (clean_freed s) by (intros i; apply C; apply in_app_iff; right; now left). unfold taken at 2. rewrite picked_sum.
  assert (S : sumz (flat_map taken (sw s)) = s_osize s * population (s_mbits s) (Z.to_nat (s_ocount s))).
  { unfold sw. destruct (Z.eqb_spec (live_count s) 0) as [L|L].
    - unfold live_count in L. rewrite L. cbn. ring.
    - cbn [flat_map]. rewrite app_nil_r. exact (picked_sum (s_mbits s) (swept s)). }
  rewrite S. ring.
Qed.

Lemma sweep_span_spec st D c b tl : inv st D -> 0 <= c < 136 -> D c = b :: tl ->
  sweep_span st c b = Abort \/
  exists st', sweep_span st c b = Ok st' /\ inv st' (set_hand D c tl) /\ sweep_effect st st' [b] /\
    (forall c', c' <> c -> partial st' c' = partial st c' /\ full st' c' = full st c').
Proof.
  intros [Co Ow] Hc Dc. destruct (own_span _ _ _ (LD c) b Ow) as (s & Is & Es & K). { cbn [at_]. rewrite Dc. now left. } cbn [loc_ok] in K. subst b.
  unfold sweep_span. pose proof (spans_nodup _ _ _ _ Co) as N. rewrite (get_ok st s N Is). cbn [bind].
  pose proof (c_wf _ _ _ _ Co) as W. rewrite Forall_forall in W. pose proof (W s Is) as Ws. pose proof (w_ocount s Ws) as Hn.
  replace ((0 <? s_ocount s) && (s_ocount s <=? 1024)) with true by (symmetry; apply andb_true_iff; split; [apply Z.ltb_lt|apply Z.leb_le]; lia).
  destruct (sweep_loop_swept s (allocated st) Ws) as (total & E & Et & Hf & Hm). rewrite E. cbn [bind].
  set (s' := mk_span _ _ _ _ _ _ _ _ _ _).
  assert (s' = swept s) as Es'.
  { unfold s', swept. f_equal. destruct (Z.eqb_spec (first_free s) 0) as [F|F]; [rewrite F; destruct (bit (s_mbits s) 0); reflexivity|].
    destruct (Z.eqb_spec (first_free s) (-1)); [lia|reflexivity]. }
  clearbody s'. subst s'. destruct (in_split _ _ Is) as (l1 & l2 & El).
  assert (N' : NoDup (map s_base (l1 ++ s :: l2))) by (now rewrite <- El).
  assert (Fl : flat_map (gl [s_base s]) (spans st) = l1 ++ sw s ++ l2) by (rewrite <- g_gl, El; now apply flat_g).
  assert (Sb : subst_span (swept s) (spans st) = l1 ++ swept s :: l2) by (rewrite El; now apply subst_split).
  assert (Uq : forall x, In (s_base s) (at_ (partial st) (full st) (cache st) D x) -> x = LD c).
  { intros x Ix. apply (own_unique _ _ _ x (LD c) (s_base s) Ow Ix). cbn [at_]. rewrite Dc. now left. }
  destruct (Z.eqb_spec (live_count s) 0) as [L0|L0].
  - (* the span goes back to the heap *)
    assert (Esw : sw s = []) by (unfold sw; now rewrite L0). unfold mheap_free_span.
    change (ph (put (upd_allocated st total) (swept s))) with (ph st). change (table (put (upd_allocated st total) (swept s))) with (table st).
    change (s_base (swept s)) with (s_base s). change (s_pages (swept s)) with (s_pages s).
    change (spans (put (upd_allocated st total) (swept s))) with (subst_span (swept s) (spans st)). change (mem (put (upd_allocated st total) (swept s))) with (mem st).
    assert (Nk : nth_error (map run (spans st)) (List.length (map run l1)) = Some (run s)).
    { rewrite El, map_app. rewrite nth_error_app2 by lia. rewrite Nat.sub_diag. reflexivity. }
    destruct (free_inv _ _ _ _ (c_pages _ _ _ _ Co) Nk) as (h & Eh & Ih & _). change (fst (run s)) with (s_base s) in Eh. change (snd (run s)) with (s_pages s) in Eh. rewrite Eh. cbn [bind].
    rewrite El, map_app in Ih. cbn [map] in Ih. rewrite remove_nth_app, <- map_app in Ih.
    pose proof (i_live _ _ (c_pages _ _ _ _ Co)) as Lv. rewrite Forall_forall in Lv. destruct (Lv (run s) (in_map run _ _ Is)) as (p & Ep & P0 & _ & _). unfold run in Ep. cbn [fst] in Ep.
    assert (PI : forall q, page_in q (run s) = in_range p (s_pages s) q). { intros q. unfold page_in, run. cbn [fst snd]. rewrite Ep, page_of_page. reflexivity. }
    rewrite Ep. pose proof (w_pages s Ws) as Wp. pose proof (w_2g s Ws) as W2. destruct (clear_spans_spec h p (Z.to_nat (s_pages s)) 0 (table st)) as [E'|(t & E' & Ett)]; try lia.
    { intros q Hq. rewrite (c_tab1 _ _ _ _ Co s q Is); [discriminate|]. rewrite PI. apply in_range_true. lia. }
    { rewrite E'. now left. }
    rewrite E'. cbn [bind]. rewrite <- Ep. right. eexists. split; [reflexivity|]. rewrite Z2Nat.id in Ett by lia. rewrite Z.add_0_r in Ett.
    rewrite Sb. rewrite (filter_split l1 s (swept s) l2 N' eq_refl).
    set (st' := upd_mem _ _). assert (Sp' : spans st' = l1 ++ l2) by reflexivity.
    assert (In' : forall x, In x (l1 ++ l2) -> In x (spans st) /\ s_base x <> s_base s).
    { intros x Hx. split; [rewrite El; rewrite in_app_iff in *; cbn [In]; tauto|]. apply (nodup_split l1 s l2 N'). now rewrite in_app_iff in Hx. }
    assert (Dj : forall x q, In x (l1 ++ l2) -> page_in q (run x) = true -> page_in q (run s) = true -> False).
    { intros x q Hx Q1 Q2. destruct (In' x Hx) as [Ix Nx]. pose proof (c_tab1 _ _ _ _ Co x q Ix Q1). pose proof (c_tab1 _ _ _ _ Co s q Is Q2). congruence. }
    split; [split|split].
    + constructor.
      * exact Ih.
      * apply Forall_forall. intros x Hx. apply W. now apply In'.
      * intros x q Hx Q. change (t q = Some (s_base x)). rewrite Ett. destruct (in_range p (s_pages s) q) eqn:R; [exfalso; rewrite <- PI in R; eauto|]. apply (c_tab1 _ _ _ _ Co); [now apply In'|assumption].
      * intros q b. change (table st' q) with (t q). rewrite Ett. destruct (in_range p (s_pages s) q) eqn:R; [discriminate|]. intros Tb.
        destruct (c_tab2 _ _ _ _ Co q b Tb) as (x & Ix & Ex & Qx). exists x. split; [|auto]. change (spans st') with (l1 ++ l2). rewrite El in Ix. apply in_app_iff in Ix. apply in_app_iff.
        destruct Ix as [Ix|[<-|Ix]]; [now left| |now right]. exfalso. rewrite PI in Qx. congruence.
      * intros x Hx Nz i Hi Bi y Hy. change (zero (mem st) (s_base s) (s_pages s * PAGE) y = 0). unfold zero. destruct (_ && _); [reflexivity|].
        apply (c_zero _ _ _ _ Co x) with (i := i); auto. now apply In'.
    + assert (Of : own (at_ (partial st) (full st) (cache st) (set_hand D c tl)) (filter (fun t => negb (s_base t =? s_base s)) (spans st)) (nprocs st)).
      { apply (own_drop (at_ (partial st) (full st) (cache st) D) _ _ _ (s_base s) (LD c) tl Ow).
        - cbn [at_]. assumption.
        - cbn [at_]. unfold set_hand. now rewrite Z.eqb_refl.
        - intros [d|d|q d|d] Z1; cbn [at_]; try reflexivity. unfold set_hand. destruct (Z.eqb_spec d c); [subst d; contradiction|reflexivity]. }
      rewrite El in Of. rewrite (filter_split l1 s s l2 N' eq_refl) in Of. exact Of.
    + split; [rewrite Fl, Esw; exact Sp'|]. split; [reflexivity|]. split; [reflexivity|]. split.
      * intros x (s0 & I0 & R0). rewrite Sp' in I0. destruct (In' s0 I0) as [I0' N0]. change (zero (mem st) (s_base s) (s_pages s * PAGE) x = mem st x). unfold zero.
        destruct ((s_base s <=? x) && (x <? s_base s + s_pages s * PAGE)) eqn:Z; [|reflexivity]. exfalso. rewrite andb_true_iff, Z.leb_le, Z.ltb_lt in Z.
        apply (spans_disjoint _ _ _ _ s0 s x Co I0' Is N0 R0). lia.
      * intros Cl. unfold counted. rewrite Sp'. rewrite El in Cl. pose proof (clean_swept _ _ _ Cl) as Cl'. rewrite Esw in Cl'. split; [exact Cl'|]. intros Ct.
        pose proof (counted_swept (allocated st) total l1 s l2 Cl Et) as X. rewrite Esw in X. apply X. rewrite <- El. exact Ct.
    + intros c' _. split; reflexivity.
  - (* the span stays *)
    assert (Esw : sw s = [swept s]) by (unfold sw; destruct (Z.eqb_spec (live_count s) 0); [contradiction|reflexivity]).
    set (st1 := put (upd_allocated st total) (swept s)). right.
    assert (Sp1 : spans st1 = subst_span (swept s) (spans st)) by reflexivity.
    assert (Co1 : core (ph st) (subst_span (swept s) (spans st)) (table st) (mem st)).
    { apply (core_subst _ _ _ (mem st) (mem st) s (swept s) Co Is); auto.
      - now apply swept_wf.
      - intros Nz i Hi Bi x Hx. change (s_nz s || any_freed s = false) in Nz. apply orb_false_iff in Nz. destruct Nz as [Nz Af].
        change (s_ocount (swept s)) with (s_ocount s) in Hi. change (s_abits (swept s)) with (s_mbits s) in Bi. change (slot (swept s) i) with (slot s i) in Hx. change (s_osize (swept s)) with (s_osize s) in Hx.
        apply (c_zero _ _ _ _ Co s Is Nz i Hi); [|assumption]. destruct (bit (s_abits s) i) eqn:Ba; [|reflexivity]. exfalso. apply not_true_iff_false in Af. apply Af. unfold any_freed.
        apply existsb_exists. exists i. rewrite in_upto, Ba, Bi. auto. }
    assert (Ow1 : own (at_ (partial st) (full st) (cache st) D) (subst_span (swept s) (spans st)) (nprocs st)).
    { apply (own_subst _ _ _ s (swept s)); auto. intros x Ix _. rewrite (Uq x Ix). exact K. }
    pose proof (spans_nodup _ _ _ _ Co1) as N1. assert (I1 : In (swept s) (subst_span (swept s) (spans st))) by (rewrite Sb; apply in_app_iff; right; now left).
    assert (Ef : forall st', spans st' = spans st1 -> cache st' = cache st -> nprocs st' = nprocs st -> mem st' = mem st -> allocated st' = total -> sweep_effect st st' [s_base s]).
    { intros st' E1 E2 E3 E4 E5. split; [rewrite E1, Sp1, Fl, Esw, Sb; reflexivity|]. split; [assumption|]. split; [assumption|]. split; [intros x _; now rewrite E4|].
      intros Cl. unfold counted. rewrite E1, Sp1, Sb, E5. rewrite El in Cl. pose proof (clean_swept _ _ _ Cl) as Cl'. rewrite Esw in Cl'. split; [exact Cl'|]. intros Ct.
      pose proof (counted_swept (allocated st) total l1 s l2 Cl Et) as X. rewrite Esw in X. apply X. rewrite <- El. exact Ct. }
    destruct (Z.eqb_spec (live_count s) (s_ocount s)) as [Lf|Lf].
    + exists (push_full st1 c (s_base s)). split; [reflexivity|]. split; [split|split].
      * exact Co1.
      * apply (own_move _ _ _ _ (swept s) (LD c) (LF c) tl Ow1 N1 I1); auto.
        -- discriminate.
        -- cbn [at_]. unfold set_hand. now rewrite Z.eqb_refl.
        -- cbn [at_ push_full upd_full full]. unfold set_list. now rewrite Z.eqb_refl.
        -- intros [d|d|q d|d] Z1 Z2; cbn [at_ push_full upd_full full partial cache]; try reflexivity; [unfold set_list|unfold set_hand]; (destruct (Z.eqb_spec d c); [subst d; contradiction|reflexivity]).
      * apply Ef; reflexivity.
      * intros c' Nc. split; [reflexivity|]. cbn [push_full upd_full full]. unfold set_list. destruct (Z.eqb_spec c' c); [contradiction|reflexivity].
    + exists (push_partial st1 c (s_base s)). split; [reflexivity|]. split; [split|split].
      * exact Co1.
      * apply (own_move _ _ _ _ (swept s) (LD c) (LP c) tl Ow1 N1 I1); auto.
        -- discriminate.
        -- cbn [at_]. unfold set_hand. now rewrite Z.eqb_refl.
        -- cbn [at_ push_partial upd_partial partial]. unfold set_list. now rewrite Z.eqb_refl.
        -- intros [d|d|q d|d] Z1 Z2; cbn [at_ push_partial upd_partial full partial cache]; try reflexivity; [unfold set_list|unfold set_hand]; (destruct (Z.eqb_spec d c); [subst d; contradiction|reflexivity]).
        -- cbn [loc_ok]. split; [exact K|]. change (live_count s < s_ocount s). pose proof (population_bounds (s_mbits s) (Z.to_nat (s_ocount s))). unfold live_count in *. lia.
      * apply Ef; reflexivity.
      * intros c' Nc. split; [|reflexivity]. cbn [push_partial upd_partial partial]. unfold set_list. destruct (Z.eqb_spec c' c); [contradiction|reflexivity].
Qed.
