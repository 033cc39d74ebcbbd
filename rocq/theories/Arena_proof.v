From Verif Require Import Base Base_lemmas Zlist.
From Verif Require Import Arena_model Arena_spec.

Lemma i64_id x : - 2 ^ 63 <= x < 2 ^ 63 -> i64 x = x.
Proof.
  intros H. unfold i64. rewrite Z.mod_small by lia. lia.
Qed.

Lemma align_up_spec x : 0 <= x < 2 ^ 62 -> exists k, align_up x = 8 * k /\ x <= 8 * k < x + 8.
Proof.
  intros H. unfold align_up, ALIGN. rewrite (i64_id (x + 8)) by lia. rewrite (i64_id (x + 8 - 1)) by lia.
  change (Z.lnot (8 - 1)) with (Z.lnot (Z.ones 3)). rewrite <- Z.ldiff_land, Z.ldiff_ones_r by lia.
  rewrite Z.shiftl_mul_pow2, Z.shiftr_div_pow2 by lia. exists ((x + 8 - 1) / 2 ^ 3).
  change (2 ^ 3) with 8. split; [lia|]. Z.to_euclidean_division_equations; lia.
Qed.

Definition LIM : Z := 2 ^ 62.

Definition block_wf (b : block) : Prop :=
  0 < base b /\ base b mod 8 = 0 /\ base b + HEADER + capacity b < 2 ^ 63 /\
  0 <= used b <= capacity b /\ 0 < capacity b < LIM.

Definition reg (b : block) : region := (base b, HEADER + capacity b).

Definition inside (r : region) (b : block) : Prop :=
  block_data b <= fst r /\ fst r + snd r <= block_data b + used b.

Record inv (w : world) : Prop := {
  i_wf : Forall block_wf (blocks (ar w));
  i_bs : 0 < block_size (ar w) < LIM;
  i_heap : heap w = map reg (blocks (ar w));
  i_apart : apart (heap w);
  i_live : forall r, In r (live w) -> 0 < snd r /\ fst r mod 8 = 0 /\ exists b, In b (blocks (ar w)) /\ inside r b;
  i_dis : apart (live w);
  i_last : last_alloc (ar w) = 0 /\ last_alloc_size (ar w) = 0 \/
    (let a := ar w in let b := current a in
     0 < last_alloc a /\ 0 < last_alloc_size a /\
     In (last_alloc a, last_alloc_size a) (live w) /\
     last_alloc a + last_alloc_size a = block_data b + used b /\ block_data b <= last_alloc a)
}.

Lemma block_alloc_spec b size : block_wf b -> 0 < size < LIM ->
  match block_alloc b size with
  | None => capacity b < align_up (used b) + size
  | Some (b', p) => base b' = base b /\ capacity b' = capacity b /\ block_wf b' /\ p mod 8 = 0 /\
      block_data b + used b <= p /\ p + size = block_data b + used b' /\
      p = block_data b + align_up (used b)
  end.
Proof.
  intros (Hb & Hm & Hc & Hu & Hl) Hs. unfold block_alloc. unfold LIM in *.
  destruct (align_up_spec (used b)) as (k & E & Hk); [lia|]. rewrite E.
  rewrite (i64_id (8 * k + size)) by lia. destruct (Z.ltb_spec (capacity b) (8 * k + size)) as [L|L].
  - rewrite <- E in L. lia.
  - unfold block_data, HEADER in *. rewrite i64_id by lia.
    cbn [base capacity used]. unfold block_wf, HEADER, LIM. cbn [base capacity used].
    repeat split; lia.
Qed.

Lemma block_new_spec heap malloc cap b : malloc_ok heap malloc -> 0 < cap < LIM -> block_new malloc cap = Ok b ->
  block_wf b /\ used b = 0 /\ capacity b = cap /\ forall q m, In (q, m) heap -> disjoint (base b) (HEADER + cap) q m.
Proof.
  intros M H E. unfold block_new in E. unfold LIM, HEADER in *. rewrite i64_id in E by lia.
  unfold u64 in E. rewrite Z.mod_small in E by lia.
  destruct (Z.eqb_spec (malloc (24 + cap)) 0) as [Z0|Z0]; [discriminate|]. assert (b = mk_block (malloc (24 + cap)) cap 0) as -> by congruence. clear E.
  destruct (M (24 + cap)) as [|(H1 & H2 & H3 & H4)]; [lia|].
  unfold block_wf, HEADER, LIM. cbn [base capacity used]. repeat split; auto; lia.
Qed.

Lemma filter_id {A} (f : A -> bool) l : (forall x, In x l -> f x = true) -> filter f l = l.
Proof.
  induction l as [|a l IH]; intros H; [reflexivity|]. cbn [filter]. rewrite (H a (or_introl eq_refl)).
  rewrite IH; [reflexivity|]. intros x Hx. apply H. now right.
Qed.

Lemma blocks_mk f b s l ls : blocks (mk_arena f b s l ls) = f ++ [b].
Proof. reflexivity. Qed.

Lemma skipn_app_exact {A} (l1 l2 : list A) : skipn (length l1) (l1 ++ l2) = l2.
Proof. rewrite skipn_app, skipn_all, Nat.sub_diag. reflexivity. Qed.

(** the live regions seen when only [current] changed, growing *)
Lemma inside_grow r b b' : base b' = base b -> used b <= used b' -> inside r b -> inside r b'.
Proof. unfold inside, block_data. intros -> H. lia. Qed.

Lemma apart_cons p n l : apart l -> 0 < n -> (forall q m, In (q, m) l -> disjoint p n q m) ->
  apart ((p, n) :: l).
Proof.
  intros [N A] Hn H. split.
  - constructor; [|assumption]. intros I. apply (H p n I p). lia.
  - intros a m b k [Ea|Ia] [Eb|Ib].
    + left. congruence.
    + right. injection Ea as <- <-. auto.
    + right. injection Eb as <- <-. intros x Hx. apply (H a m Ia x). tauto.
    + auto.
Qed.

Lemma apart_snoc p n l : apart l -> 0 < n -> (forall q m, In (q, m) l -> disjoint p n q m) ->
  apart (l ++ [(p, n)]).
Proof.
  intros H Hn Hd. destruct (apart_cons p n l H Hn Hd) as [N A]. split.
  - apply NoDup_Add with (a := (p, n)) (l := l). { pose proof (Add_app (p, n) l []) as X. now rewrite app_nil_r in X. }
    inversion N; auto.
  - intros a m b k Ia Ib. apply A; rewrite in_app_iff in *; cbn [In] in *; tauto.
Qed.

Lemma apart_incl (f : region -> bool) l : apart l -> apart (filter f l).
Proof.
  intros [N A]. split; [now apply NoDup_filter|]. intros a m b k Ia Ib. apply filter_In in Ia, Ib. apply A; tauto.
Qed.

(** two blocks of the arena that share an address are the same *)
Lemma blocks_apart w r b1 b2 : inv w -> In b1 (blocks (ar w)) -> In b2 (blocks (ar w)) ->
  0 < snd r -> inside r b1 -> block_data b2 <= fst r < base b2 + HEADER + capacity b2 -> reg b1 = reg b2.
Proof.
  intros I H1 H2 Hp [Ha Hb] Hc. destruct (i_apart w I) as [_ A].
  pose proof (i_wf w I) as W. rewrite Forall_forall in W.
  destruct (W b1 H1) as (? & ? & ? & ? & ?). destruct (W b2 H2) as (? & ? & ? & ? & ?).
  destruct (A (base b1) (HEADER + capacity b1) (base b2) (HEADER + capacity b2)) as [E|D].
  - rewrite (i_heap w I). now apply (in_map reg) in H1.
  - rewrite (i_heap w I). now apply (in_map reg) in H2.
  - exact E.
  - exfalso. apply (D (fst r)). unfold block_data, HEADER in *. lia.
Qed.

Lemma reg_inj w b1 b2 : inv w -> In b1 (blocks (ar w)) -> In b2 (blocks (ar w)) -> reg b1 = reg b2 -> b1 = b2.
Proof.
  intros I H1 H2 E. pose proof (proj1 (i_apart w I)) as N. rewrite (i_heap w I) in N.
  revert N H1 H2 E. generalize (blocks (ar w)). intros l. induction l as [|b l IH]; intros N H1 H2 E; [contradiction|].
  cbn [map] in N. inversion N as [|x y Hn Hd]; subst. destruct H1 as [->|H1], H2 as [->|H2]; auto.
  - exfalso. apply Hn. rewrite E. now apply in_map.
  - exfalso. apply Hn. rewrite <- E. now apply in_map.
Qed.

Lemma start_inv malloc cap w : cap < LIM -> start malloc cap w -> inv w.
Proof.
  intros Hc (M & a & E & ->). unfold init in E.
  set (size := if cap <=? 0 then 4096 else cap) in *.
  assert (Hs : 0 < size < LIM) by (subst size; unfold LIM in *; destruct (Z.leb_spec cap 0); lia).
  destruct (block_new malloc size) as [b| | | | |] eqn:B; try discriminate. cbn [bind] in E. injection E as <-.
  destruct (block_new_spec [] malloc size b M Hs B) as (W & U & C & _).
  constructor; cbn [ar live heap blocks full current app block_size last_alloc last_alloc_size]; auto.
  - split; [apply NoDup_cons; [auto|constructor]|]. intros p n q m [Ea|[]] [Eb|[]]. left. congruence.
  - intros r [].
  - split; [constructor|]. intros p n q m [].
Qed.

Lemma step_inv w op w' : inv w -> op_small op -> wstep w op w' -> inv w'.
Proof.
  intros I Hop S. destruct S as [w malloc size a p M E|w p|w a ps E].
  - (* alloc *)
    unfold op_small in Hop. unfold alloc in E. destruct (Z.leb_spec size 0) as [L|L]; [discriminate|].
    assert (Hs : 0 < size < LIM) by (unfold LIM; lia).
    pose proof (i_wf w I) as W. unfold blocks in W. rewrite Forall_app in W. destruct W as [Wf Wc].
    apply Forall_inv in Wc as Wc'.
    pose proof (block_alloc_spec (current (ar w)) size Wc' Hs) as B.
    destruct (block_alloc (current (ar w)) size) as [[b q]|].
    + injection E as <- <-. destruct B as (B1 & B2 & B3 & B4 & B5 & B6 & _).
      assert (Hu : used (current (ar w)) <= used b) by lia.
      assert (R : reg b = reg (current (ar w))) by (unfold reg; now rewrite B1, B2).
      assert (Hcur : In (current (ar w)) (blocks (ar w))) by (unfold blocks; rewrite in_app_iff; right; now left).
      assert (NR : new_regions (ar w) (mk_arena (full (ar w)) b (block_size (ar w)) q size) = []).
      { unfold new_regions. rewrite blocks_mk. unfold blocks. rewrite skipn_all2; [reflexivity|]. rewrite !app_length. cbn [length]. lia. }
      constructor; cbn [ar live heap]; rewrite ?NR, ?app_nil_r, ?blocks_mk; cbn [block_size last_alloc last_alloc_size current].
      * rewrite Forall_app. split; [assumption|]. constructor; [assumption|constructor].
      * apply I.
      * rewrite (i_heap w I). unfold blocks. rewrite !map_app. cbn [map]. now rewrite R.
      * apply I.
      * intros r [<-|Hr].
        -- cbn [fst snd]. split; [lia|]. split; [assumption|]. exists b. split; [rewrite in_app_iff; right; now left|].
           destruct B3 as (? & ? & ? & ? & ?). try destruct Wc' as (? & ? & ? & ? & ?). unfold inside, block_data in *. cbn [fst snd]. rewrite B1. lia.
        -- destruct (i_live w I r Hr) as (H1 & H2 & b0 & H3 & H4). repeat split; auto.
           unfold blocks in H3. rewrite in_app_iff in H3. destruct H3 as [H3|[<-|[]]].
           ++ exists b0. split; [rewrite in_app_iff; now left|assumption].
           ++ exists b. split; [rewrite in_app_iff; right; now left|]. eapply inside_grow; eauto.
      * apply apart_cons; [apply I|lia|]. intros x m Hx z [Hz1 Hz2].
        destruct (i_live w I _ Hx) as (H1 & H2 & b0 & H3 & H4). cbn [fst snd] in *.
        destruct B3 as (? & ? & ? & ? & ?).
        assert (b0 = current (ar w)) as ->.
        { apply (reg_inj w); auto. apply (blocks_apart w (z, 1)); auto; cbn [fst snd].
          - lia.
          - unfold inside, block_data in *. cbn [fst snd] in *. lia.
          - destruct Wc' as (? & ? & ? & ? & ?). unfold block_data, HEADER in *. rewrite B1, B2 in *. lia. }
        unfold inside in H4. cbn [fst snd] in H4. lia.
      * right. repeat split; try lia.
        -- unfold block_data, HEADER in *. destruct Wc' as (? & ? & ? & ? & ?). lia.
        -- now left.
        -- unfold block_data in *. rewrite B1. lia.
        -- unfold block_data in *. rewrite B1. destruct Wc' as (? & ? & ? & ? & ?). lia.
    + clear B. set (nc := if block_size (ar w) <? size then size else block_size (ar w)) in *.
      pose proof (i_bs w I) as Hbs.
      assert (Hnc : 0 < nc < LIM) by (subst nc; destruct (Z.ltb_spec (block_size (ar w)) size); lia).
      destruct (block_new malloc nc) as [b| | | | |] eqn:BN; try discriminate. cbn [bind] in E.
      destruct (block_new_spec (heap w) malloc nc b M Hnc BN) as (Wb & Ub & Cb & Fb).
      pose proof (block_alloc_spec b size Wb Hs) as B.
      destruct (block_alloc b size) as [[b' q]|]; [|discriminate]. injection E as <- <-.
      destruct B as (B1 & B2 & B3 & B4 & B5 & B6 & _).
      assert (R : reg b' = (base b, HEADER + nc)) by (unfold reg; now rewrite B1, B2, Cb).
      assert (NR : new_regions (ar w) (mk_arena (full (ar w) ++ [current (ar w)]) b' (block_size (ar w)) q size) = [reg b']).
      { unfold new_regions. rewrite blocks_mk. change (full (ar w) ++ [current (ar w)]) with (blocks (ar w)).
        rewrite skipn_app_exact. reflexivity. }
      constructor; cbn [ar live heap]; rewrite ?NR, ?blocks_mk; cbn [block_size last_alloc last_alloc_size current];
        change (full (ar w) ++ [current (ar w)]) with (blocks (ar w)).
      * rewrite Forall_app. split; [apply I|]. constructor; [assumption|constructor].
      * apply I.
      * rewrite (i_heap w I). rewrite !map_app. reflexivity.
      * rewrite R. apply apart_snoc; [apply I|unfold HEADER; lia|assumption].
      * intros r [<-|Hr].
        -- cbn [fst snd]. split; [lia|]. split; [assumption|]. exists b'. split; [rewrite in_app_iff; right; now left|].
           destruct B3 as (? & ? & ? & ? & ?). try destruct Wc' as (? & ? & ? & ? & ?). unfold inside, block_data in *. cbn [fst snd]. rewrite B1. lia.
        -- destruct (i_live w I r Hr) as (H1 & H2 & b0 & H3 & H4). repeat split; auto.
           exists b0. split; [rewrite in_app_iff; now left|assumption].
      * apply apart_cons; [apply I|lia|]. intros x m Hx z [Hz1 Hz2].
        destruct (i_live w I _ Hx) as (H1 & H2 & b0 & H3 & H4). cbn [fst snd] in *.
        pose proof (i_wf w I) as W. rewrite Forall_forall in W. destruct (W b0 H3) as (? & ? & ? & ? & ?).
        destruct B3 as (? & ? & ? & ? & ?).
        apply (Fb (base b0) (HEADER + capacity b0)) with (x := z).
        -- rewrite (i_heap w I). change (base b0, HEADER + capacity b0) with (reg b0). now apply in_map.
        -- unfold inside, block_data, HEADER in *. cbn [fst snd] in *. lia.
      * destruct Wb as (? & ? & ? & ? & ?). right. repeat split; try lia.
        -- unfold block_data, HEADER in *. lia.
        -- now left.
        -- unfold block_data in *. rewrite B1. lia.
        -- unfold block_data in *. rewrite B1. lia.
  - (* dealloc *)
    unfold dealloc. destruct (Z.eqb_spec p (last_alloc (ar w))) as [->|N].
    + pose proof (i_wf w I) as W. unfold blocks in W. rewrite Forall_app in W. destruct W as [Wf Wc].
      apply Forall_inv in Wc as Wc'. destruct Wc' as (C1 & C2 & C3 & C4 & C5).
      assert (Hcur : In (current (ar w)) (blocks (ar w))) by (unfold blocks; rewrite in_app_iff; right; now left).
      set (u := used (current (ar w)) - last_alloc_size (ar w)).
      assert (Hu : 0 <= u <= used (current (ar w))).
      { destruct (i_last w I) as [[_ L0]|(L1 & L2 & L3 & L4 & L5)]; subst u; lia. }
      rewrite i64_id by (fold u; unfold LIM in *; lia). fold u.
      set (b := mk_block (base (current (ar w))) (capacity (current (ar w))) u).
      assert (R : reg b = reg (current (ar w))) by reflexivity.
      constructor; cbn [ar live heap]; rewrite ?blocks_mk; cbn [block_size last_alloc last_alloc_size current].
      * rewrite Forall_app. split; [assumption|]. constructor; [|constructor]. unfold b, block_wf. cbn [base capacity used]. lia.
      * apply I.
      * rewrite (i_heap w I). unfold blocks. rewrite !map_app. cbn [map]. now rewrite R.
      * apply I.
      * intros r Hr. unfold free_one in Hr. apply filter_In in Hr. destruct Hr as [Hr Hne].
        destruct (i_live w I r Hr) as (H1 & H2 & b0 & H3 & H4). repeat split; auto.
        unfold blocks in H3. rewrite in_app_iff in H3. destruct H3 as [H3|[<-|[]]].
        -- exists b0. split; [rewrite in_app_iff; now left|assumption].
        -- exists b. split; [rewrite in_app_iff; right; now left|].
           destruct r as [x m]. unfold inside in *. cbn [fst snd] in *.
           change (block_data b) with (block_data (current (ar w))). change (used b) with u.
           destruct (i_last w I) as [[_ L]|(L1 & L2 & L3 & L4 & L5)]; [subst u; lia|].
           destruct (proj2 (i_dis w I) x m _ _ Hr L3) as [Eq|D].
           { injection Eq as -> ->. rewrite Z.eqb_refl in Hne. discriminate. }
           subst u. destruct (Z.lt_ge_cases (last_alloc (ar w)) (x + m)) as [Lt|]; [|lia]. exfalso.
           destruct (Z.le_gt_cases x (last_alloc (ar w))).
           ++ apply (D (last_alloc (ar w))). lia.
           ++ apply (D x). lia.
      * unfold free_one. apply apart_incl. apply I.
      * left. auto.
    + constructor; cbn [ar live heap]; try apply I.
      * intros r Hr. apply filter_In in Hr. apply I. tauto.
      * unfold free_one. apply apart_incl. apply I.
      * destruct (i_last w I) as [L|(L1 & L2 & L3 & L4 & L5)]; [now left|right].
        repeat split; auto. unfold free_one. apply filter_In. split; [assumption|]. cbn [fst].
        destruct (Z.eqb_spec (last_alloc (ar w)) p); [lia|reflexivity].
  - (* reset *)
    unfold reset in E. pose proof (i_wf w I) as W. pose proof (i_heap w I) as Hh. pose proof (i_apart w I) as Ha.
    destruct (blocks (ar w)) as [|h rest] eqn:Bl.
    { unfold blocks in Bl. destruct (full (ar w)); discriminate. }
    injection E as <- <-. inversion W as [|x y Wh Wr]; subst.
    assert (F : free_all (map base rest) (heap w) = [reg h]).
    { rewrite Hh in *. cbn [map] in *. clear - Ha Wh Wr.
      assert (G : forall done : list region, (forall r b, In r done -> In b rest -> fst r <> base b) ->
                  free_all (map base rest) (done ++ map reg rest) = done).
      { assert (Ha' : NoDup (map base rest)).
        { destruct Ha as [Hn Hd]. inversion Hn as [|x y Hn1 Hn2]; subst. clear Hn Hn1 Wh.
          induction rest as [|b rest IH]; [constructor|]. cbn [map] in *. inversion Hn2; subst. inversion Wr; subst.
          constructor; [|apply IH; auto].
          - intros Hin. apply in_map_iff in Hin. destruct Hin as (b' & Eb & Hb').
            destruct (Hd (base b) (HEADER + capacity b) (base b') (HEADER + capacity b')) as [Eq|D].
            + right. now left.
            + right. right. change (In (reg b') (map reg rest)). now apply in_map.
            + apply H1. 
              unfold reg at 1. rewrite Eq. change (In (reg b') (map reg rest)). now apply in_map.
            + rewrite Eb in D. rewrite Forall_forall in H4. destruct (H4 b' Hb') as (? & ? & ? & ? & ?).
              destruct H3 as (? & ? & ? & ? & ?). apply (D (base b)). unfold HEADER. lia.
          - intros p n q m Hp Hq. apply Hd; cbn [In] in *; tauto. }
        clear - Ha'. induction rest as [|b rest IH]; intros done Hdone.
        - cbn [map free_all fold_left]. now rewrite app_nil_r.
        - cbn [map] in *. inversion Ha'; subst. unfold free_all. cbn [fold_left].
          replace (free_one (base b) (done ++ reg b :: map reg rest)) with (done ++ map reg rest).
          + apply IH; auto. intros r b' Hr Hb'. apply Hdone; auto. now right.
          + unfold free_one. rewrite filter_app. cbn [filter fst reg]. rewrite Z.eqb_refl. cbn [negb].
            f_equal; symmetry; apply filter_id; intros r Hr.
            * assert (fst r <> base b) by (apply Hdone; [assumption|now left]).
              destruct (Z.eqb_spec (fst r) (base b)); [lia|reflexivity].
            * apply in_map_iff in Hr. destruct Hr as (b' & <- & Hb'). cbn [reg fst].
              destruct (Z.eqb_spec (base b') (base b)) as [Eb|]; [|reflexivity]. exfalso.
              apply H1. rewrite <- Eb. now apply in_map. }
      apply (G [reg h]). intros r b [<-|[]] Hb Eb. cbn [reg fst] in Eb.
      destruct Ha as [Hn Hd]. inversion Hn as [|x y Hn1 Hn2]; subst.
      rewrite Forall_forall in Wr. destruct (Wr b Hb) as (? & ? & ? & ? & ?). destruct Wh as (? & ? & ? & ? & ?).
      destruct (Hd (base h) (HEADER + capacity h) (base b) (HEADER + capacity b)) as [Eq|D].
      - now left.
      - right. change (In (reg b) (map reg rest)). now apply in_map.
      - apply Hn1. unfold reg at 1. rewrite Eq. change (In (reg b) (map reg rest)). now apply in_map.
      - apply (D (base h)). unfold HEADER. lia. }
    constructor; cbn [ar live heap]; rewrite ?F, ?blocks_mk; cbn [block_size last_alloc last_alloc_size current app map].
    + constructor; [|constructor]. destruct Wh as (? & ? & ? & ? & ?). unfold block_wf. cbn [base capacity used]. lia.
    + apply I.
    + reflexivity.
    + split; [repeat constructor; auto|]. intros p n q m [Ea|[]] [Eb|[]]. left. congruence.
    + intros r [].
    + split; [constructor|]. intros p n q m [].
    + now left.
Qed.

Lemma run_inv w ops w' : inv w -> Forall op_small ops -> wrun w ops w' -> inv w'.
Proof.
  intros I H R. induction R as [|w op w1 ops w2 S R IH]; [assumption|].
  inversion H; subst. apply IH; [|assumption]. eapply step_inv; eauto.
Qed.

Lemma reset_step w : wstep w AReset (mk_world (fst (reset (ar w))) [] (free_all (snd (reset (ar w))) (heap w))).
Proof. apply step_reset. now destruct (reset (ar w)). Qed.

Lemma align_up_fix k : 0 <= 8 * k < 2 ^ 62 -> align_up (8 * k) = 8 * k.
Proof.
  intros H. destruct (align_up_spec (8 * k) H) as (j & -> & Hj). lia.
Qed.

Lemma alloc_total w malloc size : inv w -> malloc_ok (heap w) malloc -> 0 < size < LIM ->
  (forall n, malloc n <> 0) -> exists a p, alloc malloc (ar w) size = Ok (a, p).
Proof.
  intros I M Hs Hn. unfold alloc. destruct (Z.leb_spec size 0); [lia|].
  destruct (block_alloc (current (ar w)) size) as [[b q]|]; [eauto|].
  set (nc := if block_size (ar w) <? size then size else block_size (ar w)).
  pose proof (i_bs w I) as Hbs.
  assert (Hnc : 0 < nc < LIM /\ size <= nc) by (subst nc; destruct (Z.ltb_spec (block_size (ar w)) size); lia).
  destruct (block_new malloc nc) as [b| | | | |] eqn:BN;
    try (exfalso; unfold block_new in BN; destruct (Z.eqb_spec (malloc (u64 (i64 (HEADER + nc)))) 0) as [E|E]; [now apply Hn in E|discriminate]).
  cbn [bind]. destruct (block_new_spec (heap w) malloc nc b M (proj1 Hnc) BN) as (Wb & Ub & Cb & _).
  pose proof (block_alloc_spec b size Wb Hs) as B. destruct (block_alloc b size) as [[b' q]|]; [eauto|].
  exfalso. rewrite Ub in B. change 0 with (8 * 0) in B. rewrite align_up_fix in B by lia. lia.
Qed.

Lemma alloc_fits a malloc size : block_wf (current a) -> 0 < size < LIM ->
  align_up (used (current a)) + size <= capacity (current a) ->
  exists a', alloc malloc a size = Ok (a', block_data (current a) + align_up (used (current a))).
Proof.
  intros W Hs H. unfold alloc. destruct (Z.leb_spec size 0); [lia|].
  pose proof (block_alloc_spec (current a) size W Hs) as B.
  destruct (block_alloc (current a) size) as [[b q]|]; [|lia].
  destruct B as (_ & _ & _ & _ & _ & _ & ->). eauto.
Qed.

Lemma cur_wf w : inv w -> block_wf (current (ar w)).
Proof. intros I. pose proof (i_wf w I) as W. unfold blocks in W. rewrite Forall_app in W. now apply Forall_inv with (l := []). Qed.

Lemma last_spec malloc a size a1 p : alloc malloc a size = Ok (a1, p) -> last_alloc a1 = p /\ last_alloc_size a1 = size /\ 0 < size.
Proof.
  unfold alloc. destruct (Z.leb_spec size 0); [discriminate|].
  destruct (block_alloc (current a) size) as [[b q]|].
  - intros [= <- <-]. auto.
  - destruct (block_new _ _) as [b| | | | |]; try discriminate. cbn [bind].
    destruct (block_alloc b size) as [[b' q]|]; [|discriminate]. intros [= <- <-]. auto.
Qed.

Lemma realloc_same w malloc size a1 p n malloc' : inv w -> malloc_ok (heap w) malloc -> size < LIM ->
  alloc malloc (ar w) size = Ok (a1, p) -> 0 < n <= size ->
  exists a2, alloc malloc' (dealloc a1 p) n = Ok (a2, p).
Proof.
  intros I M Hs E Hn. destruct (last_spec _ _ _ _ _ E) as (L1 & L2 & L3).
  pose proof (step_inv w _ _ I (Hs : op_small (AAlloc malloc size)) (step_alloc w malloc size a1 p M E)) as I1.
  pose proof (step_inv _ _ _ I1 (Logic.I : op_small (ADealloc p)) (step_dealloc _ p)) as I2. cbn [ar live heap] in I2.
  pose proof (cur_wf _ I1) as W1. pose proof (cur_wf _ I2) as W2. cbn [ar] in W1, W2.
  assert (Hp : p mod 8 = 0) by (apply (i_live _ I1 (p, size)); now left).
  destruct (i_last _ I1) as [[La Lb]|(La & Lb & Lc & Ld & Le)]; cbn [ar] in *; [lia|].
  assert (Ec : current (dealloc a1 p) = mk_block (base (current a1)) (capacity (current a1)) (p - block_data (current a1))).
  { unfold dealloc. rewrite L1, Z.eqb_refl. cbn [current]. rewrite L2. f_equal. rewrite i64_id; [lia|].
    destruct W1 as (? & ? & ? & ? & ?). unfold LIM in *. lia. }
  destruct W1 as (V1 & V2 & V3 & V4 & V5). unfold LIM, block_data, HEADER in *.
  assert (A : align_up (p - (base (current a1) + 24)) = p - (base (current a1) + 24)).
  { assert (Ek : exists k, p - (base (current a1) + 24) = 8 * k).
    { exists ((p - (base (current a1) + 24)) / 8). Z.to_euclidean_division_equations; lia. }
    destruct Ek as (k & Ek). rewrite Ek. apply align_up_fix. lia. }
  destruct (alloc_fits (dealloc a1 p) malloc' n) as (a2 & E2); [assumption|unfold LIM; lia| |].
  - rewrite Ec. cbn [used capacity]. rewrite A. lia.
  - exists a2. rewrite E2. do 2 f_equal. rewrite Ec. unfold block_data, HEADER. cbn [used base]. rewrite A. lia.
Qed.
