(** std_malloc, large_malloc and marking. *)
From Coq Require Import Permutation.
From Verif Require Import Base Base_lemmas Zlist Bitmap_spec Bitmap_model Bitmap_proof Sizeclass_model Sizeclass_proof Pages_model Pages_spec Pages_heap_proof
  Spans_model Spans_spec Spans_proof Spans_alloc_proof Spans_malloc_proof.

Lemma page_in_span h l t m s x : core h l t m -> In s l -> s_base s <= x < s_base s + s_pages s * PAGE -> page_in (page_no x) (run s) = true.
Proof.
  intros C I R. pose proof (i_live _ _ (c_pages _ _ _ _ C)) as L. rewrite Forall_forall in L. apply (page_in_addr h (run s) x); [|exact R].
  apply L. now apply in_map.
Qed.

Lemma span_of_page h l t m s x : core h l t m -> In s l -> BASE <= x -> page_in (page_no x) (run s) = true -> s_base s <= x < s_base s + s_pages s * PAGE.
Proof.
  intros C I B P. pose proof (i_live _ _ (c_pages _ _ _ _ C)) as L. rewrite Forall_forall in L. destruct (L (run s) (in_map run l s I)) as (p & E & P0 & N & _).
  unfold page_in, run in *. cbn [fst snd] in *. rewrite E in P. rewrite page_of_page in P. rewrite andb_true_iff, Z.leb_le, Z.ltb_lt in P. rewrite E.
  unfold page_no, PAGE, BASE in *. clear - P B. zdiv.
Qed.

Lemma make_class c n : 0 <= c < 68 -> n = 0 \/ n = 1 -> make_spanclass c n = 2 * c + n.
Proof.
  intros Hc Hn. destruct (spanclass_roundtrip c n ltac:(lia) Hn) as [A B]. unfold take_sizeclass in A. rewrite Z.shiftr_div_pow2 in A by lia. change (2 ^ 1) with 2 in A.
  pose proof (Z.div_mod (make_spanclass c n) 2). lia.
Qed.

Lemma effect_allocated st st' addr z v : alloc_effect st st' addr z -> alloc_effect st (upd_allocated st' v) addr z.
Proof. exact (fun H => H). Qed.

Lemma std_malloc_spec grant st p size has_ptr : inv st nod -> (p < nprocs st)%nat -> size <= 32768 ->
  std_malloc grant st p size has_ptr = Abort \/
  exists st' addr, std_malloc grant st p size has_ptr = Ok (st', addr) /\ 0 < size <= class_size size /\
    alloc_effect st st' addr (class_size size) /\ allocated st' = u64 (allocated st + class_size size) /\ span_of st' addr <> None.
Proof.
  intros Iv Hp Hs. unfold std_malloc. destruct (Z.leb_spec size 0); [now left|].
  destruct (calc_cases size ltac:(lia)) as (c & Ec & Hc & Hz & _). rewrite Ec. cbn [bind].
  set (n := if has_ptr then 0 else 1). assert (Hn : n = 0 \/ n = 1) by (unfold n; destruct has_ptr; auto).
  assert (Cz : class_size size = size_of c). { unfold class_size. rewrite Ec. reflexivity. }
  destruct (mcache_alloc_spec grant st p (make_spanclass c n) Iv Hp) as [E|(st' & addr & s & E & Ef & Is & R & Cs & Ea)].
  { rewrite make_class; lia. }
  { rewrite E. now left. }
  rewrite E. cbn [bind]. pose proof Ef as ((Co & _) & _). pose proof (c_wf _ _ _ _ Co) as W. rewrite Forall_forall in W.
  assert (Oz : s_osize s = size_of c).
  { pose proof (w_size s (W s Is)) as Ws. rewrite Cs in Ws. destruct (spanclass_roundtrip c n ltac:(lia) Hn) as [A _]. rewrite A in Ws. apply Ws. lia. }
  set (st1 := upd_allocated st' _).
  assert (A0 : 0 < addr). { destruct (inv_aligned _ _ (run s) (c_pages _ _ _ _ Co) (in_map run _ _ Is)) as (_ & B & _). unfold run, BASE in B. cbn [fst] in B. lia. }
  destruct (has_arena (ph st1) addr) eqn:Ha.
  2: { left. unfold span_of. rewrite Ha. destruct (addr <=? 0); reflexivity. }
  assert (So : span_of st1 addr = Some (s_base s)).
  { unfold span_of. rewrite Ha. destruct (Z.leb_spec addr 0); [lia|].
    change (table st1) with (table st'). apply (c_tab1 _ _ _ _ Co s (page_no addr) Is). eapply page_in_span; eauto. }
  rewrite So, Z.eqb_refl.
  right. exists st1, addr. split; [reflexivity|]. rewrite Cz, <- Oz. split; [lia|]. split; [now apply effect_allocated|]. split; [unfold st1; cbn; now rewrite Ea|]. rewrite So. discriminate.
Qed.

Definition large_pages (size : Z) : Z := size / PAGE + (if Z.land size (PAGE - 1) =? 0 then 0 else 1).
Lemma large_pages_spec size : 0 < size -> size <= large_pages size * PAGE < size + PAGE.
Proof.
  intros H. unfold large_pages, PAGE. change (8192 - 1) with (Z.ones 13). rewrite Z.land_ones by lia. change (2 ^ 13) with 8192.
  destruct (Z.eqb_spec (size mod 8192) 0); zdiv.
Qed.

Lemma large_malloc_spec grant st size has_ptr : inv st nod -> 32768 < size <= 2147483648 ->
  large_malloc grant st size has_ptr = Abort \/
  exists st' addr, large_malloc grant st size has_ptr = Ok (st', addr) /\
    alloc_effect st st' addr (large_pages size * PAGE) /\ allocated st' = u64 (allocated st + size).
Proof.
  intros [Co Ow] Hs. unfold large_malloc. fold (large_pages size). set (class := make_spanclass 0 (if has_ptr then 0 else 1)).
  assert (Hc : class = 0 \/ class = 1) by (unfold class; destruct has_ptr; [left|right]; reflexivity).
  assert (Ec : take_sizeclass class = 0) by (unfold class; destruct has_ptr; reflexivity).
  pose proof (large_pages_spec size ltac:(lia)) as Hp.
  assert (SL : span_layout (large_pages size) class = Ok (large_pages size * PAGE, 1)). { unfold span_layout. rewrite Ec. reflexivity. }
  destruct (alloc_span_spec grant st (large_pages size) class Co) as [E|(h & t & s & E & C' & Fr & Sp & Sc & SL')].
  - lia.
  - clear - Hs Hp. unfold PAGE in *. lia.
  - exists (large_pages size * PAGE), 1. split; [assumption|]. repeat split; try lia. unfold words. change ((1 + 63) / 64 * 8) with 8. unfold PAGE in *. lia.
  - rewrite E. now left.
  - rewrite E. cbn [bind]. assert (On : s_ocount s = 1) by congruence. assert (Oz : s_osize s = large_pages size * PAGE) by congruence.
    replace (s_ocount s =? 1) with true by (now rewrite On). cbn [negb].
    destruct Fr as (F1 & F2 & F3 & F4 & F5). pose proof (c_wf _ _ _ _ C') as W. rewrite Forall_forall in W.
    assert (Is : In s (spans st ++ [s])) by (apply in_app_iff; right; now left). pose proof (W s Is) as Ws.
    destruct (set_spec (s_abits s) 0 (w_ab s Ws)) as (bits & Eb & U). { unfold capacity. rewrite (w_al s Ws), On. unfold words. change (8 * ((1 + 63) / 64 * 8)) with 64. lia. }
    rewrite Eb. cbn [bind]. rewrite F3.
    set (s' := mk_span _ _ _ _ _ _ _ _ _ _). set (m1 := zero (mem st) (s_base s) (s_pages s * PAGE)).
    right. set (st1 := upd_allocated _ _). exists st1, (s_base s). split; [reflexivity|]. split; [|reflexivity].
    assert (B0 : bit (s_abits s) 0 = false) by (rewrite F4; unfold new_bits; apply zeros_bit).
    pose proof U as (UL & UB & UU). pose proof (spans_nodup _ _ _ _ C') as N.
    assert (W' : swf s').
    { constructor; cbn [s' s_class s_pages s_osize s_ocount s_abits s_mbits s_acount s_findex]; try apply Ws; auto.
      - rewrite UL. apply Ws.
      - rewrite (w_pop s Ws). symmetry. apply population_set with 0; auto. rewrite On. lia.
      - rewrite F2. intros i Hi. lia. }
    assert (P : Permutation (slots (subst_span s' (spans st ++ [s]))) ((s_base s, large_pages size * PAGE) :: slots (spans st))).
    { rewrite <- (slots_ext (spans st) [s]) by (constructor; [repeat split; auto|constructor]). apply (slots_subst_perm s s'); auto. rewrite <- Oz.
      replace (s_base s) with (slot s 0) by (unfold slot; ring). apply (picked_perm (s_abits s) bits s 0 (w_osize s Ws)); auto; lia. }
    assert (Co' : core h (subst_span s' (spans st ++ [s])) t m1).
    { apply (core_subst _ _ _ m1 m1 s s' C' Is); auto. intros _ i Hi Bi x Hx. change (s_ocount s') with (s_ocount s) in Hi. assert (i = 0) as -> by lia.
      change (s_abits s') with bits in Bi. rewrite UU in Bi by lia. discriminate. }
    split; [split|].
    + exact Co'.
    + change (own (at_ (partial st) (set_list (full st) class (s_base s :: full st class)) (cache st) nod) (subst_span s' (spans st ++ [s])) (nprocs st)).
      apply (own_subst _ _ _ s s'); auto.
      * apply (own_new (at_ (partial st) (full st) (cache st) nod) _ (spans st) _ s (LF class) Ow).
        -- eapply new_span_base. exact C'.
        -- cbn [at_]. unfold set_list. now rewrite Z.eqb_refl.
        -- intros [c|c|q c|c] Z1; cbn [at_]; try reflexivity. unfold set_list. destruct (Z.eqb_spec c class); [subst c; contradiction|reflexivity].
        -- exact Sc.
      * intros x Ix K. assert (x = LF class) as ->; [|exact K].
        destruct x as [c|c|q c|c]; cbn [at_] in Ix.
        -- exfalso. destruct (own_span _ _ _ (LP c) (s_base s) Ow) as (s2 & I2 & E2 & _); [exact Ix|]. apply (new_span_base _ _ _ _ _ C'). rewrite <- E2. now apply in_map.
        -- unfold set_list in Ix. destruct (Z.eqb_spec c class) as [Ex|]; [now rewrite Ex|]. exfalso.
           destruct (own_span _ _ _ (LF c) (s_base s) Ow) as (s2 & I2 & E2 & _); [exact Ix|]. apply (new_span_base _ _ _ _ _ C'). rewrite <- E2. now apply in_map.
        -- exfalso. destruct (own_span _ _ _ (LC q c) (s_base s) Ow) as (s2 & I2 & E2 & _); [exact Ix|]. apply (new_span_base _ _ _ _ _ C'). rewrite <- E2. now apply in_map.
        -- destruct Ix.
    + split; [exact P|]. split; [|split; [|split]].
      * intros x Hx. change (m1 x = 0). unfold m1, zero. rewrite Sp. destruct ((s_base s <=? x) && (x <? s_base s + large_pages size * PAGE)) eqn:Z; [reflexivity|].
        apply not_true_iff_false in Z. exfalso. apply Z. apply andb_true_iff. split; [apply Z.leb_le|apply Z.ltb_lt]; lia.
      * intros x Hx. change (m1 x = mem st x). unfold m1, zero. destruct ((s_base s <=? x) && (x <? s_base s + s_pages s * PAGE)) eqn:Z; [|reflexivity].
        exfalso. rewrite andb_true_iff, Z.leb_le, Z.ltb_lt in Z. destruct (in_slots_spans _ _ _ _ x Co Hx) as (s0 & I0 & R0).
        apply (spans_disjoint _ _ _ _ s0 s x C'); [apply in_app_iff; now left|exact Is| |exact R0|lia].
        intros E'. apply (new_span_base _ _ _ _ _ C'). rewrite <- E'. now apply in_map.
      * reflexivity.
      * intros Cl. change (clean (subst_span s' (spans st ++ [s]))). intros x j It Hj Bj. apply (subst_in s' _ s N Is eq_refl) in It. destruct It as [->|[It _]].
        -- change (s_mbits s') with (s_mbits s) in Bj. rewrite F5 in Bj. unfold new_bits in Bj. rewrite zeros_bit in Bj. discriminate.
        -- apply (clean_fresh _ [s]) in Cl; [now apply Cl|]. constructor; [repeat split; auto|constructor].
Qed.

(** ** Marking *)
Definition set_mark (s : span) (bits : list Z) : span :=
  mk_span (s_base s) (s_pages s) (s_class s) (s_osize s) (s_ocount s) (s_acount s) (s_findex s) (s_abits s) bits (s_nz s).

Lemma mark_spec st D addr b : inv st D -> span_of st addr = Some b ->
  exists s bits, In s (spans st) /\ s_base s = b /\ s_base s <= addr < s_base s + s_pages s * PAGE /\ 0 <= (addr - s_base s) / s_osize s /\
    updated (fun j => j =? (addr - s_base s) / s_osize s) true (s_mbits s) bits /\
    mark st addr = Ok (put st (set_mark s bits)) /\ inv (put st (set_mark s bits)) D /\ slots (spans (put st (set_mark s bits))) = slots (spans st).
Proof.
  intros [Co Ow] Es. unfold mark. rewrite Es. unfold span_of in Es. destruct (addr <=? 0); [discriminate|]. destruct (has_arena (ph st) addr) eqn:Ha; [|discriminate].
  destruct (c_tab2 _ _ _ _ Co _ _ Es) as (s & Is & Eb & Ps). rewrite <- Eb. pose proof (spans_nodup _ _ _ _ Co) as N. rewrite (get_ok st s N Is). cbn [bind].
  assert (R : s_base s <= addr < s_base s + s_pages s * PAGE).
  { eapply span_of_page; eauto. unfold has_arena in Ha. rewrite !andb_true_iff, Z.leb_le in Ha. tauto. }
  pose proof (c_wf _ _ _ _ Co) as W. rewrite Forall_forall in W. pose proof (W s Is) as Ws. pose proof (w_osize s Ws) as Oz.
  set (i := (addr - s_base s) / s_osize s) in *. assert (I0 : 0 <= i) by (apply Z.div_pos; lia).
  destruct (set_spec (s_mbits s) i (w_mb s Ws)) as (bits & E & U).
  { unfold capacity. rewrite (w_ml s Ws). split; [assumption|]. apply Z.div_lt_upper_bound; [assumption|]. pose proof (w_room s Ws). lia. }
  exists s, bits. rewrite E. cbn [bind]. pose proof U as (UL & UB & UU). split; [assumption|]. split; [reflexivity|]. split; [assumption|]. split; [lia|]. split; [assumption|].
  split; [reflexivity|]. split; [split|].
  - apply (core_subst _ _ _ (mem st) (mem st) s (set_mark s bits) Co Is); auto.
    + constructor; cbn [set_mark s_class s_pages s_osize s_ocount s_abits s_mbits s_acount s_findex]; try apply Ws; auto. rewrite UL. apply Ws.
    + intros Nz j Hj Bj x Hx. exact (c_zero _ _ _ _ Co s Is Nz j Hj Bj x Hx).
  - cbn [put upd_spans upd_heap partial full cache spans nprocs]. apply (own_subst _ _ _ s (set_mark s bits)); auto.
  - cbn [put upd_spans upd_heap spans]. fold (subst_span (set_mark s bits) (spans st)). destruct (in_split _ _ Is) as (l1 & l2 & El). rewrite El in *.
    rewrite (subst_split s (set_mark s bits) l1 l2 N eq_refl). unfold slots. rewrite !flat_map_app. reflexivity.
Qed.
