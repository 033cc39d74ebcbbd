(** Allocation of objects preserves the invariant and takes exactly one free slot. *)
From Coq Require Import Permutation.
From Verif Require Import Base Base_lemmas Zlist Bitmap_spec Bitmap_model Bitmap_proof Sizeclass_model Sizeclass_proof Pages_model Pages_spec Pages_heap_proof
  Spans_model Spans_spec Spans_proof Spans_alloc_proof.

Definition coreof (st : state) : Prop := core (ph st) (spans st) (table st) (mem st).
Definition nod : Z -> list Z := fun _ => [].
Definition inv (st : state) (D : Z -> list Z) : Prop :=
  coreof st /\ own (at_ (partial st) (full st) (cache st) D) (spans st) (nprocs st).

Definition in_spans (l : list span) (x : Z) : Prop := exists s, In s l /\ s_base s <= x < s_base s + s_pages s * PAGE.
Definition in_slots_of (l : list span) (x : Z) : Prop := exists a z, In (a, z) (slots l) /\ a <= x < a + z.
(** st' has new spans, all free, and the old memory *)
Definition ext (st st' : state) : Prop :=
  (exists l, spans st' = spans st ++ l /\ Forall fresh_span l) /\ (forall x, in_spans (spans st) x -> mem st' x = mem st x) /\
  allocated st' = allocated st /\ nprocs st' = nprocs st.

Lemma class_facts class : 2 <= class < 136 -> exists pages z n, take_pages_count class = Ok pages /\ span_layout pages class = Ok (z, n) /\
  0 < z /\ 0 < n <= 1024 /\ n * z <= pages * PAGE /\ pages * PAGE <= 8 * words n * z /\ pages * PAGE <= 2147483648 /\ z = size_of (take_sizeclass class).
Proof.
  intros H.
  assert (A : (match take_pages_count class with
               | Ok pages => match span_layout pages class with
                             | Ok (z, n) => (0 <? z) && (0 <? n) && (n <=? 1024) && (n * z <=? pages * PAGE) && (pages * PAGE <=? 8 * words n * z) && (pages * PAGE <=? 2147483648) && (z =? size_of (take_sizeclass class))
                             | _ => false end
               | _ => false end) = true).
  { replace class with ((class - 2) + 2) by lia. assert (H' : 0 <= class - 2 < Z.of_nat 134) by lia. revert H'. generalize (class - 2).
    apply range_sweep with (P := fun class => match take_pages_count (class + 2) with
               | Ok pages => match span_layout pages (class + 2) with
                             | Ok (z, n) => (0 <? z) && (0 <? n) && (n <=? 1024) && (n * z <=? pages * PAGE) && (pages * PAGE <=? 8 * words n * z) && (pages * PAGE <=? 2147483648) && (z =? size_of (take_sizeclass (class + 2)))
                             | _ => false end
               | _ => false end). vm_compute. reflexivity. }
  destruct (take_pages_count class) as [pages| | | | |]; try discriminate. destruct (span_layout pages class) as [[z n]| | | | |] eqn:L; try discriminate.
  exists pages, z, n. rewrite !andb_true_iff, !Z.ltb_lt, !Z.leb_le, Z.eqb_eq in A. split; [reflexivity|]. split; [assumption|]. tauto.
Qed.

Definition set_hand (D : Z -> list Z) (c : Z) (l : list Z) : Z -> list Z := fun x => if x =? c then l else D x.

Lemma cache_span_spec grant st class C D : coreof st -> own (at_ (partial st) (full st) C D) (spans st) (nprocs st) -> 2 <= class < 136 -> D class = [] ->
  cache_span grant st class = Abort \/
  exists st' s, cache_span grant st class = Ok (st', s_base s) /\ In s (spans st') /\ s_acount s < s_ocount s /\ s_class s = class /\
    coreof st' /\ own (at_ (partial st') (full st') C (set_hand D class [s_base s])) (spans st') (nprocs st') /\ cache st' = cache st /\ ext st st'.
Proof.
  intros Co Ow Hc Dn.
  (* the state in which the list is known not to be empty *)
  assert (A : forall st1, coreof st1 -> own (at_ (partial st1) (full st1) C D) (spans st1) (nprocs st1) -> ext st st1 -> cache st1 = cache st -> partial st1 class <> [] ->
    exists st' s, match partial st1 class with
       | [] => Panic
       | b :: l => let st := upd_partial st1 (set_list (partial st1) class l) in
                   s <- get st b ;; if s_ocount s - s_acount s =? 0 then Panic else Ok (st, b)
       end = Ok (st', s_base s) /\ In s (spans st') /\ s_acount s < s_ocount s /\ s_class s = class /\
      coreof st' /\ own (at_ (partial st') (full st') C (set_hand D class [s_base s])) (spans st') (nprocs st') /\ cache st' = cache st /\ ext st st').
  { intros st1 Co1 Ow1 Ex Ec Ne. destruct (partial st1 class) as [|b tl] eqn:P; [contradiction|].
    destruct (own_span _ _ _ (LP class) b Ow1) as (s & Is & Es & K). { cbn [at_]. rewrite P. now left. }
    cbn [loc_ok] in K. destruct K as [K1 K2]. exists (upd_partial st1 (set_list (partial st1) class tl)), s. cbv zeta.
    rewrite <- Es. rewrite (get_ok (upd_partial st1 (set_list (partial st1) class tl)) s); [|exact (spans_nodup _ _ _ _ Co1)|exact Is]. cbn [bind].
    destruct (Z.eqb_spec (s_ocount s - s_acount s) 0); [lia|]. split; [reflexivity|]. split; [exact Is|]. split; [assumption|]. split; [assumption|].
    split; [exact Co1|]. split; [|split; [exact Ec|exact Ex]]. cbn [upd_partial partial full spans nprocs].
    apply (own_move (at_ (partial st1) (full st1) C D) _ _ _ s (LP class) (LD class) tl Ow1); auto.
    - exact (spans_nodup _ _ _ _ Co1).
    - discriminate.
    - cbn [at_]. now rewrite P, Es.
    - cbn [at_]. unfold set_list. now rewrite Z.eqb_refl.
    - cbn [at_]. unfold set_hand. now rewrite Z.eqb_refl, Dn.
    - intros [c|c|p c|c] Z1 Z2; cbn [at_]; try reflexivity; [unfold set_list|unfold set_hand]; (destruct (Z.eqb_spec c class); [subst c; contradiction|reflexivity]). }
  assert (Erefl : ext st st). { split; [exists []; rewrite app_nil_r; auto|auto]. }
  unfold cache_span. destruct (partial st class) as [|b tl] eqn:P.
  - unfold mcentral_grow. destruct (class_facts class Hc) as (pages & z & n & E1 & E2 & Z0 & N0 & Fit & Rm & G2 & Sz). rewrite E1. cbn [bind].
    destruct (alloc_span_spec grant st pages class Co ltac:(lia) G2) as [E|(h & t & s & E & C' & Fr & Sp & Sc & SL)].
    { exists z, n. auto 10. }
    { rewrite E. now left. }
    rewrite E. cbn [bind]. assert (On : s_ocount s = n) by congruence. rewrite On. destruct (Z.ltb_spec 0 n); [|lia]. cbn [bind].
    set (st1 := push_partial _ class (s_base s)). right. apply A.
    + exact C'.
    + unfold st1, push_partial. cbn [upd_partial upd_mem upd_heap partial full spans nprocs].
      apply (own_new (at_ (partial st) (full st) C D) _ (spans st) _ s (LP class) Ow).
      * eapply new_span_base. exact C'.
      * cbn [at_]. unfold set_list. now rewrite Z.eqb_refl.
      * intros [c|c|p c|c] Z1; cbn [at_]; try reflexivity. unfold set_list. destruct (Z.eqb_spec c class); [subst c; contradiction|reflexivity].
      * cbn [loc_ok]. split; [assumption|]. destruct Fr as (-> & _). lia.
    + split; [exists [s]; split; [reflexivity|now constructor]|]. split; [|split; reflexivity]. intros x (s0 & I0 & R0). unfold st1. cbn [push_partial upd_partial upd_mem upd_heap mem]. unfold zero.
      destruct ((s_base s <=? x) && (x <? s_base s + s_pages s * PAGE)) eqn:Z; [|reflexivity]. exfalso. rewrite andb_true_iff, Z.leb_le, Z.ltb_lt in Z.
      apply (spans_disjoint _ _ _ _ s0 s x C'); [apply in_app_iff; now left|apply in_app_iff; right; now left| |exact R0|lia].
      intros Eb. apply (new_span_base _ _ _ _ _ C'). rewrite <- Eb. now apply in_map.
    + reflexivity.
    + unfold st1. cbn [push_partial upd_partial partial]. unfold set_list. rewrite Z.eqb_refl. discriminate.
  - cbn [bind]. right. apply A; auto. rewrite P. discriminate.
Qed.

Lemma uncache_own st p class b C D s : own (at_ (partial st) (full st) C D) (spans st) (nprocs st) -> coreof st ->
  C p class = Some b -> In s (spans st) -> s_base s = b -> s_class s = class ->
  exists st', uncache_span st class b = Ok st' /\ ph st' = ph st /\ spans st' = spans st /\ table st' = table st /\ mem st' = mem st /\ cache st' = cache st /\
    allocated st' = allocated st /\ nprocs st' = nprocs st /\
    own (at_ (partial st') (full st') (set_cache C p class None) D) (spans st) (nprocs st).
Proof.
  intros Ow Co Ec Is Es Kc. pose proof (spans_nodup _ _ _ _ Co) as N. unfold uncache_span. rewrite <- Es. rewrite (get_ok st s N Is). cbn [bind].
  destruct (own_span _ _ _ (LC p class) b Ow) as (s1 & I1 & Es1 & K). { cbn [at_]. rewrite Ec. now left. }
  assert (s1 = s) as -> by (apply (base_inj (spans st)); congruence).
  destruct (Z.eqb_spec (s_ocount s - s_acount s) 0) as [F|F].
  - exists (push_full st class (s_base s)). do 8 (split; [reflexivity|]). cbn [push_full upd_full partial full].
    apply (own_move _ _ _ _ s (LC p class) (LF class) [] Ow N Is); auto.
    + discriminate.
    + cbn [at_]. now rewrite Ec, Es.
    + cbn [at_]. unfold set_cache. now rewrite Nat.eqb_refl, Z.eqb_refl.
    + cbn [at_]. unfold set_list. now rewrite Z.eqb_refl.
    + intros [c|c|q c|c] Z1 Z2; cbn [at_]; try reflexivity.
      * unfold set_list. destruct (Z.eqb_spec c class); [subst c; contradiction|reflexivity].
      * unfold set_cache. destruct (Nat.eqb_spec q p); destruct (Z.eqb_spec c class); try reflexivity. subst. contradiction.
  - exists (push_partial st class (s_base s)). do 8 (split; [reflexivity|]). cbn [push_partial upd_partial partial full].
    apply (own_move _ _ _ _ s (LC p class) (LP class) [] Ow N Is); auto.
    + discriminate.
    + cbn [at_]. now rewrite Ec, Es.
    + cbn [at_]. unfold set_cache. now rewrite Nat.eqb_refl, Z.eqb_refl.
    + cbn [at_]. unfold set_list. now rewrite Z.eqb_refl.
    + intros [c|c|q c|c] Z1 Z2; cbn [at_]; try reflexivity.
      * unfold set_list. destruct (Z.eqb_spec c class); [subst c; contradiction|reflexivity].
      * unfold set_cache. destruct (Nat.eqb_spec q p); destruct (Z.eqb_spec c class); try reflexivity. subst. contradiction.
    + cbn [loc_ok]. split; [assumption|]. pose proof (c_wf _ _ _ _ Co) as W. rewrite Forall_forall in W. pose proof (w_pop s (W s Is)).
      pose proof (population_bounds (s_abits s) (Z.to_nat (s_ocount s))). pose proof (w_ocount s (W s Is)). lia.
Qed.

Lemma coreof_eq st st' : ph st' = ph st -> spans st' = spans st -> table st' = table st -> mem st' = mem st -> coreof st -> coreof st'.
Proof. unfold coreof. intros -> -> -> ->. auto. Qed.

Lemma refill_spec grant st p class : inv st nod -> (p < nprocs st)%nat -> 2 <= class < 136 ->
  mcache_refill grant st p class = Abort \/
  exists st' s, mcache_refill grant st p class = Ok (st', s_base s) /\ In s (spans st') /\ s_acount s < s_ocount s /\
    inv st' nod /\ ext st st' /\ In (s_base s) (at_ (partial st') (full st') (cache st') nod (LC p class)) /\ s_class s = class.
Proof.
  intros [Co Ow] Hp Hc. unfold mcache_refill.
  assert (A : exists st1, (match cache st p class with Some b => uncache_span st class b | None => Ok st end) = Ok st1 /\
    ph st1 = ph st /\ spans st1 = spans st /\ table st1 = table st /\ mem st1 = mem st /\ cache st1 = cache st /\ allocated st1 = allocated st /\ nprocs st1 = nprocs st /\
    own (at_ (partial st1) (full st1) (set_cache (cache st) p class None) nod) (spans st1) (nprocs st1)).
  { destruct (cache st p class) as [b|] eqn:Ec.
    - destruct (own_span _ _ _ (LC p class) b Ow) as (s & Is & Es & K). { cbn [at_]. rewrite Ec. now left. }
      destruct (uncache_own st p class b (cache st) nod s Ow Co Ec Is Es) as (st1 & E & E1 & E2 & E3 & E4 & E5 & E6 & E7 & O). { apply K. }
      exists st1. rewrite E2, E7. repeat (split; [assumption || reflexivity|]). assumption.
    - exists st. do 8 (split; [reflexivity|]). eapply own_ext; [|exact Ow]. intros [c|c|q c|c]; cbn [at_]; try reflexivity.
      unfold set_cache. destruct (Nat.eqb_spec q p); destruct (Z.eqb_spec c class); cbn [andb]; try reflexivity. subst. now rewrite Ec. }
  destruct A as (st1 & E & E1 & E2 & E3 & E4 & E5 & E6 & E7 & O). rewrite E. cbn [bind].
  destruct (cache_span_spec grant st1 class (set_cache (cache st) p class None) nod) as [E'|(st2 & s & E' & Is & Hs & Cs & Co2 & O2 & Ec2 & ((l & El & Fl) & Em & Ea & En))]; auto.
  { eapply coreof_eq; eauto. }
  { rewrite E'. now left. }
  rewrite E'. cbn [bind]. right. exists (upd_cache st2 (set_cache (cache st2) p class (Some (s_base s)))), s. split; [reflexivity|]. split; [exact Is|]. split; [assumption|].
  split; [|split; [|split; [|assumption]]].
  - split; [exact Co2|]. cbn [upd_cache partial full cache spans nprocs].
    apply (own_move _ _ _ _ s (LD class) (LC p class) [] O2 (spans_nodup _ _ _ _ Co2) Is); auto.
    + discriminate.
    + cbn [at_]. unfold set_hand. now rewrite Z.eqb_refl.
    + cbn [at_]. unfold set_cache. now rewrite Nat.eqb_refl, Z.eqb_refl.
    + rewrite Ec2, E5. intros [c|c|q c|c] Z1 Z2; cbn [at_]; try reflexivity.
      * unfold set_cache. destruct (Nat.eqb_spec q p); destruct (Z.eqb_spec c class); cbn [andb]; try reflexivity. subst. contradiction.
      * unfold set_hand. destruct (Z.eqb_spec c class); [subst c; contradiction|reflexivity].
    + cbn [loc_ok]. split; [assumption|]. now rewrite En, E7.
  - split; [exists l; split; [cbn [upd_cache spans]; congruence|assumption]|]. cbn [upd_cache mem allocated nprocs]. split; [|split; congruence].
    intros x Hx. rewrite Em by (now rewrite E2). now rewrite E4.
  - cbn [at_ upd_cache cache]. unfold set_cache. rewrite Nat.eqb_refl, Z.eqb_refl. now left.
Qed.

(** ** Taking a slot *)
Lemma subst_split s s' l1 l2 : NoDup (map s_base (l1 ++ s :: l2)) -> s_base s = s_base s' -> subst_span s' (l1 ++ s :: l2) = l1 ++ s' :: l2.
Proof.
  intros N E. unfold subst_span. rewrite map_app. cbn [map]. rewrite E, Z.eqb_refl. rewrite map_app in N. cbn [map] in N. apply NoDup_remove_2 in N.
  f_equal; [|f_equal]; rewrite <- (map_id l1) at 2 || rewrite <- (map_id l2) at 2; apply map_ext_in; intros t It; destruct (Z.eqb_spec (s_base t) (s_base s')) as [Et|]; try reflexivity;
    exfalso; apply N; rewrite E, <- Et; apply in_app_iff; [left|right]; now apply in_map.
Qed.

Lemma slots_subst_perm s s' l x : NoDup (map s_base l) -> In s l -> s_base s = s_base s' -> Permutation (taken s') (x :: taken s) ->
  Permutation (slots (subst_span s' l)) (x :: slots l).
Proof.
  intros N I E P. destruct (in_split _ _ I) as (l1 & l2 & ->). rewrite (subst_split s s' l1 l2 N E). unfold slots. rewrite !flat_map_app. cbn [flat_map].
  rewrite P. cbn [app]. symmetry. apply Permutation_middle.
Qed.

Lemma picked_perm bits bits' s i : 0 < s_osize s -> 0 <= i < s_ocount s -> bit bits i = false -> updated (fun j => j =? i) true bits bits' ->
  Permutation (picked bits' s) ((slot s i, s_osize s) :: picked bits s).
Proof.
  intros Hz Hi Hb (_ & _ & U). apply NoDup_Permutation.
  - eapply NoDup_map_inv, picked_nodup, Hz.
  - constructor; [|eapply NoDup_map_inv, picked_nodup, Hz]. rewrite in_picked. intros (j & Hj & Bj & E). injection E as E. apply slot_inj in E; [congruence|assumption].
  - intros x. cbn [In]. rewrite !in_picked. split.
    + intros (j & Hj & Bj & ->). rewrite U in Bj by lia. destruct (Z.eqb_spec j i) as [->|]; [now left|right; eauto].
    + intros [<-|(j & Hj & Bj & ->)].
      * exists i. rewrite U by lia. rewrite Z.eqb_refl. auto.
      * exists j. rewrite U by lia. destruct (j =? i); auto.
Qed.

Definition take_slot (s : span) (i : Z) (bits : list Z) : span :=
  mk_span (s_base s) (s_pages s) (s_class s) (s_osize s) (s_ocount s) (s_acount s + 1) (i + 1) bits (s_mbits s) (s_nz s && negb (s_acount s + 1 =? s_ocount s)).

Lemma take_slot_spec s : swf s -> s_acount s < s_ocount s ->
  exists i bits, find_free (s_abits s) (Z.to_nat (s_ocount s - s_findex s)) (s_findex s) = Ok i /\ bitmap_set (s_abits s) i = Ok bits /\
    0 <= i < s_ocount s /\ bit (s_abits s) i = false /\ updated (fun j => j =? i) true (s_abits s) bits /\ swf (take_slot s i bits) /\
    Permutation (taken (take_slot s i bits)) ((slot s i, s_osize s) :: taken s).
Proof.
  intros W Ha. pose proof (w_fi s W) as Hf. pose proof (w_ocount s W) as Hn. pose proof (words_cap (s_ocount s) ltac:(lia)) as Cp.
  destruct (find_free_spec (s_abits s) (Z.to_nat (s_ocount s - s_findex s)) (s_findex s)) as (i & E & Hi & Bi & Ub); try lia.
  - unfold capacity. rewrite (w_al s W). lia.
  - apply (w_used s W).
  - rewrite Z2Nat.id by lia. replace (s_findex s + (s_ocount s - s_findex s)) with (s_ocount s) by ring. rewrite <- (w_pop s W). assumption.
  - destruct (set_spec (s_abits s) i (w_ab s W)) as (bits & Eb & U). { unfold capacity. rewrite (w_al s W). lia. }
    exists i, bits. split; [assumption|]. split; [assumption|]. split; [lia|]. split; [assumption|]. split; [assumption|]. pose proof U as (UL & UB & UU).
    split; [|apply (picked_perm (s_abits s) bits s i (w_osize s W)); auto; lia].
    constructor; cbn [take_slot s_class s_pages s_osize s_ocount s_abits s_mbits s_acount s_findex]; try apply W; auto.
    + rewrite UL. apply W.
    + rewrite (w_pop s W). symmetry. apply population_set with i; auto. lia.
    + lia.
    + intros j Hj. rewrite UU by lia. destruct (Z.eqb_spec j i); [reflexivity|]. apply Ub. lia.
Qed.

Lemma slots_ext l l' : Forall fresh_span l' -> slots (l ++ l') = slots l.
Proof.
  intros F. unfold slots. rewrite flat_map_app. replace (flat_map taken l') with (@nil (Z * Z)); [apply app_nil_r|].
  induction F as [|s l' Hs F IH]; [reflexivity|]. cbn [flat_map]. rewrite <- IH, app_nil_r. unfold taken, picked. destruct Hs as (_ & _ & _ & -> & _).
  replace (filter (bit (new_bits (s_ocount s))) (upto (s_ocount s))) with (@nil Z); [reflexivity|]. generalize (upto (s_ocount s)) as u.
  induction u as [|a u IHu]; [reflexivity|]. cbn [filter]. unfold new_bits at 1. rewrite zeros_bit. exact IHu.
Qed.

Lemma in_slots_spans h l t m x : core h l t m -> in_slots_of l x -> in_spans l x.
Proof.
  intros C (a & z & I & R). destruct (slots_sub_range h l t m a z C I) as (s & Is & A & B & _). exists s. split; [assumption|lia].
Qed.

(** the marks of a span stay inside its taken slots *)
Definition clean (l : list span) : Prop :=
  forall s i, In s l -> 0 <= i < s_ocount s -> bit (s_mbits s) i = true -> bit (s_abits s) i = true.

(** what an allocation does to the objects *)
Definition alloc_effect (st st' : state) (addr z : Z) : Prop :=
  inv st' nod /\ Permutation (slots (spans st')) ((addr, z) :: slots (spans st)) /\ (forall x, addr <= x < addr + z -> mem st' x = 0) /\
  (forall x, in_slots_of (spans st) x -> mem st' x = mem st x) /\ nprocs st' = nprocs st /\ (clean (spans st) -> clean (spans st')).

Lemma clean_fresh l l' : Forall fresh_span l' -> clean l -> clean (l ++ l').
Proof.
  intros F Cl s i I Hi B. apply in_app_iff in I. destruct I as [I|I]; [now apply Cl|]. rewrite Forall_forall in F. destruct (F s I) as (_ & _ & _ & _ & E).
  rewrite E in B. unfold new_bits in B. rewrite zeros_bit in B. discriminate.
Qed.

Lemma mcache_alloc_spec grant st p class : inv st nod -> (p < nprocs st)%nat -> 2 <= class < 136 ->
  mcache_alloc grant st p class = Abort \/
  exists st' addr s', mcache_alloc grant st p class = Ok (st', addr, s') /\ alloc_effect st st' addr (s_osize s') /\ In s' (spans st') /\
    s_base s' <= addr < s_base s' + s_pages s' * PAGE /\ s_class s' = class /\ allocated st' = allocated st.
Proof.
  intros Iv Hp Hc. unfold mcache_alloc.
  assert (A : forall st1 s, inv st1 nod -> ext st st1 -> In s (spans st1) -> s_acount s < s_ocount s -> s_class s = class ->
     In (s_base s) (at_ (partial st1) (full st1) (cache st1) nod (LC p class)) ->
     exists st' addr s', (s0 <- get st1 (s_base s) ;;
       i <- find_free (s_abits s0) (Z.to_nat (s_ocount s0 - s_findex s0)) (s_findex s0) ;;
       bits <- bitmap_set (s_abits s0) i ;;
       Ok (upd_mem (put st1 (take_slot s0 i bits)) (if s_nz s0 then zero (mem st1) (s_base s0 + i * s_osize s0) (s_osize s0) else mem st1),
           s_base s0 + i * s_osize s0, take_slot s0 i bits)) = Ok (st', addr, s') /\
       alloc_effect st st' addr (s_osize s') /\ In s' (spans st') /\
       s_base s' <= addr < s_base s' + s_pages s' * PAGE /\ s_class s' = class /\ allocated st' = allocated st).
  { intros st1 s [Co1 Ow1] ((l & El & Fl) & Em & Ea & En) Is Hs Cs Lc. pose proof (spans_nodup _ _ _ _ Co1) as N. rewrite (get_ok st1 s N Is). cbn [bind].
    pose proof (c_wf _ _ _ _ Co1) as W. rewrite Forall_forall in W. pose proof (W s Is) as Ws.
    destruct (take_slot_spec s Ws Hs) as (i & bits & E1 & E2 & Hi & Bi & U & W' & P'). rewrite E1. cbn [bind]. rewrite E2. cbn [bind].
    set (s' := take_slot s i bits) in *. set (m' := if s_nz s then _ else _).
    destruct (slot_range s i Ws Hi) as [R1 R2]. pose proof (w_osize s Ws) as Oz.
    assert (Zm : forall x, slot s i <= x < slot s i + s_osize s -> m' x = 0).
    { intros x Hx. unfold m'. destruct (s_nz s) eqn:Nz.
      - unfold zero. change (s_base s + i * s_osize s) with (slot s i). destruct ((slot s i <=? x) && (x <? slot s i + s_osize s)) eqn:Z; [reflexivity|].
        apply not_true_iff_false in Z. exfalso. apply Z. apply andb_true_iff. split; [apply Z.leb_le|apply Z.ltb_lt]; lia.
      - apply (c_zero _ _ _ _ Co1 s Is Nz i Hi Bi x Hx). }
    assert (Km : forall x, m' x = mem st1 x \/ slot s i <= x < slot s i + s_osize s).
    { intros x. unfold m'. destruct (s_nz s); [|now left]. unfold zero. change (s_base s + i * s_osize s) with (slot s i).
      destruct ((slot s i <=? x) && (x <? slot s i + s_osize s)) eqn:Z; [|now left]. right. rewrite andb_true_iff, Z.leb_le, Z.ltb_lt in Z. lia. }
    exists (upd_mem (put st1 s') m'), (slot s i), s'. split; [reflexivity|].
    assert (P : Permutation (slots (subst_span s' (spans st1))) ((slot s i, s_osize s) :: slots (spans st))).
    { rewrite <- (slots_ext (spans st) l Fl), <- El. apply (slots_subst_perm s s'); auto. }
    assert (Co' : core (ph st1) (subst_span s' (spans st1)) (table st1) m').
    { apply (core_subst _ _ _ (mem st1) m' s s' Co1 Is); auto.
      + intros x. destruct (Km x) as [->|K]; [now left|right; lia].
      + intros Nz j Hj Bj x Hx. change (s_nz s' = false) with (s_nz s && negb (s_acount s + 1 =? s_ocount s) = false) in Nz.
        change (s_ocount s') with (s_ocount s) in Hj. change (slot s' j) with (slot s j) in Hx. change (s_osize s') with (s_osize s) in Hx. change (s_abits s') with bits in Bj.
        destruct U as (_ & _ & U). rewrite U in Bj by lia. destruct (Z.eqb_spec j i) as [->|Nj]; [discriminate|].
        destruct (s_nz s) eqn:Nz0.
        * cbn [andb] in Nz. apply negb_false_iff, Z.eqb_eq in Nz. exfalso.
          pose proof (w_pop s' W') as Wp. change (s_acount s') with (s_acount s + 1) in Wp. change (s_ocount s') with (s_ocount s) in Wp. change (s_abits s') with bits in Wp.
          rewrite Nz in Wp. assert (B : bit bits j = true) by (apply population_full with (Z.to_nat (s_ocount s)); lia). rewrite U in B by lia.
          destruct (Z.eqb_spec j i); [contradiction|congruence].
        * unfold m'. now apply (c_zero _ _ _ _ Co1 s Is Nz0 j). }
    split; [|split; [|split; [|split]]].
    - split; [split|].
      + exact Co'.
      + cbn [upd_mem put upd_spans upd_heap partial full cache spans nprocs]. apply (own_subst _ _ _ s s'); auto. intros x Ix K.
        assert (x = LC p class) as -> by (eapply own_unique; eauto). exact K.
      + split; [exact P|]. split; [exact Zm|]. split; [|split].
        * intros x Hx. change (m' x = mem st x). rewrite <- Em by (eapply in_slots_spans; [|exact Hx]; exact (proj1 Iv)). destruct (Km x) as [K|K]; [exact K|]. exfalso.
          destruct Hx as (a & z & Ia & Ra). assert (Na : a <> slot s i).
          { intros ->. pose proof (slots_nodup _ _ _ _ Co') as Nd. rewrite P in Nd. cbn [map fst] in Nd. inversion Nd as [|? ? Nd1 Nd2]; subst. apply Nd1.
            change (slot s i) with (fst (slot s i, z)). now apply in_map. }
          apply (slots_apart _ _ _ _ a z (slot s i) (s_osize s) Co') with (x := x); [rewrite P; now right|rewrite P; now left|assumption|lia].
        * cbn. now rewrite En.
        * intros Cl. change (clean (subst_span s' (spans st1))). rewrite El in *. apply clean_fresh with (l' := l) in Cl; [|assumption].
          intros t j It Hj Bj. apply (subst_in s' _ s N Is eq_refl) in It. destruct It as [->|[It _]]; [|now apply Cl].
          change (s_abits s') with bits. destruct U as (_ & _ & U). rewrite U by (cbn in Hj; lia). destruct (j =? i); [reflexivity|]. now apply (Cl s j Is).
    - apply (subst_in s' _ s N Is eq_refl). now left.
    - change (s_base s <= slot s i < s_base s + s_pages s * PAGE). lia.
    - exact Cs.
    - cbn. now rewrite Ea. }

  destruct (cache st p class) as [b|] eqn:Ec; cbn [bind].
  - destruct (own_span _ _ _ (LC p class) b (proj2 Iv)) as (s & Is & Es & K). { cbn [at_]. rewrite Ec. now left. }
    cbn [loc_ok] in K. rewrite <- Es. rewrite (get_ok st s (spans_nodup _ _ _ _ (proj1 Iv)) Is). cbn [bind].
    destruct (Z.eqb_spec (s_acount s) (s_ocount s)) as [F|F].
    + destruct (refill_spec grant st p class Iv Hp Hc) as [E|(st1 & s1 & E & I1 & H1 & Iv1 & X1 & L1 & C1)]; rewrite E; cbn [bind]; [now left|]. right. now apply A.
    + cbn [bind]. right. apply A; auto.
      * split; [exists []; rewrite app_nil_r; auto|auto].
      * pose proof (c_wf _ _ _ _ (proj1 Iv)) as W. rewrite Forall_forall in W. pose proof (w_pop s (W s Is)).
        pose proof (population_bounds (s_abits s) (Z.to_nat (s_ocount s))). pose proof (w_ocount s (W s Is)). lia.
      * tauto.
      * cbn [at_]. rewrite Ec, Es. now left.
  - destruct (refill_spec grant st p class Iv Hp Hc) as [E|(st1 & s1 & E & I1 & H1 & Iv1 & X1 & L1 & C1)]; rewrite E; cbn [bind]; [now left|]. right. now apply A.
Qed.
