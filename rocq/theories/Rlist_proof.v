(** The linked list behaves like a list. *)
From Coq Require Import Permutation.
From Verif Require Import Base Base_lemmas Rlist_model Rlist_spec.

Definition ptr (ps : list (Z * Z)) (r : Z) : Z := match ps with [] => r | (a, _) :: _ => a end.
Fixpoint linked (m : Z -> node) (ps : list (Z * Z)) (r : Z) : Prop :=
  match ps with
  | [] => value (m r) = 0
  | (a, v) :: ps => value (m a) = v /\ succ (m a) = ptr ps r /\ prev (m (ptr ps r)) = a /\ linked m ps r
  end.
Definition addrs (ps : list (Z * Z)) (r : Z) : list Z := map fst ps ++ [r].
Record R (l : rlist) (ps : list (Z * Z)) : Prop := mk_R {
  r_head : head l = ptr ps (rear l);
  r_link : linked (mem l) ps (rear l);
  r_nodup : NoDup (addrs ps (rear l));
  r_live : Permutation (live l) (addrs ps (rear l));
  r_count : count l = zlen ps;
  r_null : ~ In 0 (live l);
  r_vals : Forall (fun p => snd p <> 0) ps
}.

Lemma ptr_in ps r : In (ptr ps r) (addrs ps r).
Proof. destruct ps as [|[a v] ps]; cbn; auto. Qed.
Lemma ptr_app p1 p2 r : ptr (p1 ++ p2) r = ptr p1 (ptr p2 r).
Proof. destruct p1 as [|[a v] p1]; reflexivity. Qed.
Lemma addrs_app p1 p2 r : addrs (p1 ++ p2) r = map fst p1 ++ addrs p2 r.
Proof. unfold addrs. now rewrite map_app, app_assoc. Qed.

Lemma linked_cong m m' ps r : (forall b, In b (map fst ps) -> value (m' b) = value (m b) /\ succ (m' b) = succ (m b)) ->
  value (m' r) = value (m r) -> (forall b, In b (tl (addrs ps r)) -> prev (m' b) = prev (m b)) ->
  linked m ps r -> linked m' ps r.
Proof.
  induction ps as [|[a v] ps IH]; intros A B C L; cbn [linked] in *; [congruence|].
  destruct L as (L1 & L2 & L3 & L4). destruct (A a) as (Va & Sa); [now left|]. repeat split.
  - congruence.
  - congruence.
  - rewrite C; [exact L3|]. cbn. apply ptr_in.
  - apply IH; [intros b Hb; apply A; now right|exact B| |exact L4].
    intros b Hb. apply C. cbn. destruct ps as [|[c w] ps]; cbn in *; [destruct Hb|]. now right.
Qed.
Lemma linked_push m m' ps r a v : (forall b, In b (map fst ps) -> m' b = m b) -> prev (m' r) = prev (m r) ->
  value (m' r) = v -> succ (m' r) = a -> prev (m' a) = r -> value (m' a) = 0 -> linked m ps r ->
  linked m' (ps ++ [(r, v)]) a.
Proof.
  intros A B C D E F. induction ps as [|[b w] ps IH]; intros L; cbn [app linked] in *.
  - cbn. auto.
  - destruct L as (L1 & L2 & L3 & L4). rewrite (A b) by now left. rewrite ptr_app. cbn [ptr]. repeat split; try assumption.
    + destruct ps as [|[c x] ps]; cbn [ptr] in *; [congruence|]. rewrite (A c); [exact L3|]. right. now left.
    + apply IH; [|exact L4]. intros c Hc. apply A. now right.
Qed.
Lemma linked_mid m p1 a v p2 r : linked m (p1 ++ (a, v) :: p2) r ->
  value (m a) = v /\ succ (m a) = ptr p2 r /\ prev (m (ptr p2 r)) = a.
Proof.
  induction p1 as [|[b w] p1 IH]; cbn [app linked]; intros L; [tauto|]. apply IH. tauto.
Qed.
Lemma linked_tail m p1 p2 r : linked m (p1 ++ p2) r -> linked m p2 r.
Proof. induction p1 as [|[b w] p1 IH]; cbn [app linked]; intros L; [exact L|]. apply IH. tauto. Qed.
Lemma linked_remove m m' p1 c x b w p2 r : linked m (p1 ++ (c, x) :: (b, w) :: p2) r ->
  NoDup (addrs (p1 ++ (c, x) :: (b, w) :: p2) r) ->
  (forall d, d <> b -> value (m' d) = value (m d)) ->
  (forall d, d <> b -> d <> c -> succ (m' d) = succ (m d)) ->
  (forall d, d <> b -> d <> ptr p2 r -> prev (m' d) = prev (m d)) ->
  succ (m' c) = ptr p2 r -> prev (m' (ptr p2 r)) = c ->
  linked m' (p1 ++ (c, x) :: p2) r.
Proof.
  intros L N V S P Sc Pp. induction p1 as [|[d y] p1 IH]; cbn [app linked] in *.
  - destruct L as (L1 & L2 & L3 & (L4 & L5 & L6 & L7)). unfold addrs in N. cbn in N.
    apply NoDup_cons_iff in N as (N1 & N2). apply NoDup_cons_iff in N2 as (N3 & N4).
    repeat split; try assumption.
    + rewrite V; [exact L1|]. intros ->. apply N1. now left.
    + apply (linked_cong m).
      * intros e He. assert (e <> b) by (intros ->; apply N3; apply in_app_iff; now left).
        assert (e <> c) by (intros ->; apply N1; right; apply in_app_iff; now left). split; [now apply V|now apply S].
      * apply V. intros ->. apply N3. apply in_app_iff. right. now left.
      * intros e He. apply P.
        -- intros ->. apply N3. destruct p2 as [|[f z] p2]; cbn in *; [destruct He|]. now right.
        -- intros ->. destruct p2 as [|[f z] p2]; cbn in *; [destruct He|]. inversion N4; subst. contradiction.
      * exact L7.
  - destruct L as (L1 & L2 & L3 & L4). unfold addrs in N. cbn [map app fst] in N. apply NoDup_cons_iff in N as (N1 & N2).
    fold (addrs (p1 ++ (c, x) :: (b, w) :: p2) r) in N1, N2. rewrite addrs_app in N1.
    assert (d <> b) by (intros ->; apply N1; apply in_app_iff; right; right; now left).
    assert (d <> c) by (intros ->; apply N1; apply in_app_iff; right; now left).
    repeat split.
    + now rewrite V.
    + rewrite S by assumption. rewrite L2. now rewrite !ptr_app.
    + rewrite ptr_app in L3 |- *. cbn [ptr] in *. rewrite P; [exact L3| |].
      * rewrite addrs_app in N2. destruct p1 as [|[f z] p1]; cbn [ptr map fst app] in *.
        -- intros ->. apply NoDup_cons_iff in N2 as (H3 & _). apply H3. now left.
        -- intros ->. apply NoDup_cons_iff in N2 as (H3 & _). apply H3. apply in_app_iff. right. right. now left.
      * assert (K : In (ptr p2 r) (addrs p2 r)) by apply ptr_in.
        rewrite addrs_app in N2. destruct p1 as [|[f z] p1]; cbn [ptr map fst app] in *.
        -- intros Hc. rewrite <- Hc in K. apply NoDup_cons_iff in N2 as (H3 & _). apply H3. now right.
        -- intros Hc. rewrite <- Hc in K. apply NoDup_cons_iff in N2 as (H3 & _). apply H3. apply in_app_iff. right. right. now right.
    + apply IH; [exact L4|exact N2].
Qed.

Lemma nodup_app_r {A} (l1 l2 : list A) : NoDup (l1 ++ l2) -> NoDup l2.
Proof. induction l1 as [|x l1 IH]; cbn; [auto|]. intros N. apply NoDup_cons_iff in N as (_ & N). auto. Qed.
Lemma live_in l a : is_live l a = true <-> In a (live l).
Proof.
  unfold is_live. rewrite existsb_exists. split.
  - intros (x & Hx & E). apply Z.eqb_eq in E. now subst.
  - intros H. exists a. now rewrite Z.eqb_refl.
Qed.
Lemma ld_ok l a : In a (live l) -> ld l a = Ok (mem l a).
Proof. intros H. apply live_in in H. unfold ld. now rewrite H. Qed.
Lemma st_ok l a n : In a (live l) -> st l a n = Ok (mk_rlist (upd (mem l) a n) (live l) (head l) (rear l) (count l)).
Proof. intros H. apply live_in in H. unfold st. now rewrite H. Qed.
Lemma free_ok l a : In a (live l) -> free l a =
  Ok (mk_rlist (upd (mem l) a (mk_node 1 (succ (mem l a)) (prev (mem l a)))) (remove Z.eq_dec a (live l))
      (head l) (rear l) (count l)).
Proof. intros H. apply live_in in H. unfold free. now rewrite H. Qed.
Lemma upd_eq m a n : upd m a n a = n.
Proof. unfold upd. now rewrite Z.eqb_refl. Qed.
Lemma upd_ne m a n b : b <> a -> upd m a n b = m b.
Proof. intros D. unfold upd. destruct (Z.eqb_spec b a); [contradiction|reflexivity]. Qed.

Lemma remove_perm a (l l' : list Z) : NoDup l -> Permutation l (a :: l') -> Permutation (remove Z.eq_dec a l) l'.
Proof.
  intros N P. assert (N' : NoDup (a :: l')) by exact (Permutation_NoDup P N). apply NoDup_cons_iff in N' as (Na & Nl).
  apply NoDup_Permutation.
  - clear - N. induction l as [|b l IH]; cbn; [constructor|]. inversion N; subst.
    destruct (Z.eq_dec a b); [auto|]. constructor; [|auto]. intros K. apply in_remove in K. tauto.
  - exact Nl.
  - intros x. split; intros H.
    + apply in_remove in H as (H & D). apply (Permutation_in _ P) in H. destruct H as [->|H]; [now destruct D|exact H].
    + apply in_in_remove; [intros ->; contradiction|]. apply (Permutation_in _ (Permutation_sym P)). now right.
Qed.

Lemma R_init a : a <> 0 -> R (init a) [].
Proof.
  intros A. constructor; cbn [init set_count set_rear set_head alloc head rear mem live count ptr linked addrs map app].
  - reflexivity.
  - rewrite upd_eq. reflexivity.
  - constructor; [intros []|constructor].
  - apply Permutation_refl.
  - reflexivity.
  - intros [E|[]]. auto.
  - constructor.
Qed.

Lemma rear_live l ps : R l ps -> In (rear l) (live l).
Proof. intros H. apply (Permutation_in _ (Permutation_sym (r_live _ _ H))). apply in_app_iff. right. now left. Qed.
Lemma addr_live l ps a : R l ps -> In a (addrs ps (rear l)) -> In a (live l).
Proof. intros H. apply (Permutation_in _ (Permutation_sym (r_live _ _ H))). Qed.
Lemma live_nodup l ps : R l ps -> NoDup (live l).
Proof. intros H. exact (Permutation_NoDup (Permutation_sym (r_live _ _ H)) (r_nodup _ _ H)). Qed.

Lemma push_ok l ps a v : R l ps -> v <> 0 -> a <> 0 -> ~ In a (live l) ->
  exists l', push l a v = Ok l' /\ R l' (ps ++ [(rear l, v)]).
Proof.
  intros H Hv Ha Fa. pose proof (rear_live _ _ H) as Rl.
  assert (D : rear l <> a) by (intros E; rewrite E in Rl; contradiction).
  unfold push. cbn [alloc rear]. unfold set_prev, set_succ, set_value.
  rewrite ld_ok by now left. cbn [bind]. rewrite st_ok by now left. cbn [bind rear alloc].
  rewrite ld_ok by now right. cbn [bind]. rewrite st_ok by now right. cbn [bind rear alloc].
  rewrite ld_ok by now right. cbn [bind]. rewrite st_ok by now right. cbn [bind rear alloc].
  eexists. split; [reflexivity|].
  constructor; cbn [set_count set_rear alloc head rear mem live count].
  - rewrite ptr_app. cbn [ptr]. exact (r_head _ _ H).
  - eapply linked_push; [| | | | | |exact (r_link _ _ H)].
    + intros b Hb. assert (In b (live l)) by (apply (addr_live _ _ _ H); apply in_app_iff; now left).
      assert (b <> a) by (intros ->; contradiction).
      assert (b <> rear l).
      { intros ->. pose proof (r_nodup _ _ H) as N. unfold addrs in N. apply NoDup_remove_2 in N. apply N.
        rewrite app_nil_r. exact Hb. }
      now rewrite !upd_ne by assumption.
    + rewrite upd_eq. cbn [prev]. rewrite upd_eq. cbn [prev]. rewrite !upd_ne by assumption. reflexivity.
    + rewrite upd_eq. reflexivity.
    + rewrite upd_eq. cbn [succ]. rewrite upd_eq. reflexivity.
    + rewrite (upd_ne _ (rear l)) by auto. rewrite (upd_ne _ (rear l)) by auto. rewrite upd_eq. reflexivity.
    + rewrite (upd_ne _ (rear l)) by auto. rewrite (upd_ne _ (rear l)) by auto. rewrite !upd_eq. reflexivity.
  - rewrite addrs_app. cbn [addrs map app fst].
    assert (P : Permutation (a :: addrs ps (rear l)) (map fst ps ++ [rear l; a])).
    { unfold addrs. rewrite (Permutation_cons_append (map fst ps ++ [rear l]) a). rewrite <- app_assoc. reflexivity. }
    apply (Permutation_NoDup P). constructor; [|exact (r_nodup _ _ H)].
    intros K. apply Fa. exact (addr_live _ _ _ H K).
  - rewrite addrs_app. cbn [addrs map app fst]. rewrite (r_live _ _ H). unfold addrs.
    rewrite (Permutation_cons_append (map fst ps ++ [rear l]) a). rewrite <- app_assoc. reflexivity.
  - rewrite zlen_app, (r_count _ _ H). reflexivity.
  - intros [E|K]; [auto|]. exact (r_null _ _ H K).
  - apply Forall_app. split; [exact (r_vals _ _ H)|]. repeat constructor. exact Hv.
Qed.

Lemma push_head_ok l ps a v : R l ps -> v <> 0 -> a <> 0 -> ~ In a (live l) ->
  exists l', push_head l a v = Ok l' /\ R l' ((a, v) :: ps).
Proof.
  intros H Hv Ha Fa.
  assert (Hl : In (head l) (live l)) by (rewrite (r_head _ _ H); apply (addr_live _ _ _ H); apply ptr_in).
  assert (D : head l <> a) by (intros E; rewrite E in Hl; contradiction).
  unfold push_head, set_prev, set_succ, set_value.
  rewrite ld_ok by now left. cbn [bind]. rewrite st_ok by now left. cbn [bind head alloc].
  rewrite ld_ok by now left. cbn [bind]. rewrite st_ok by now left. cbn [bind head alloc].
  rewrite ld_ok by now right. cbn [bind]. rewrite st_ok by now right. cbn [bind head alloc].
  eexists. split; [reflexivity|].
  constructor; cbn [set_count set_head alloc head rear mem live count].
  - reflexivity.
  - cbn [linked]. rewrite (upd_ne _ (head l)) by auto. rewrite upd_eq. cbn [value succ]. rewrite upd_eq. cbn [value].
    split; [reflexivity|]. split; [exact (r_head _ _ H)|]. split.
    + rewrite <- (r_head _ _ H). rewrite upd_eq. reflexivity.
    + apply (linked_cong (mem l)); [| | |exact (r_link _ _ H)].
      * intros b Hb. assert (In b (live l)) by (apply (addr_live _ _ _ H); apply in_app_iff; now left).
        assert (b <> a) by (intros ->; contradiction).
        destruct (Z.eq_dec b (head l)) as [->|Db].
        -- rewrite upd_eq. cbn [value succ]. now rewrite !upd_ne by assumption.
        -- now rewrite !upd_ne by assumption.
      * pose proof (rear_live _ _ H). assert (rear l <> a) by (intros E; rewrite E in *; contradiction).
        destruct (Z.eq_dec (rear l) (head l)) as [->|Db].
        -- rewrite upd_eq. cbn [value succ]. now rewrite !upd_ne by assumption.
        -- now rewrite !upd_ne by assumption.
      * intros b Hb. assert (In b (live l)).
        { apply (addr_live _ _ _ H). destruct ps as [|[c w] ps]; cbn in *; [destruct Hb|now right]. }
        assert (b <> a) by (intros ->; contradiction).
        assert (b <> head l).
        { intros ->. rewrite (r_head _ _ H) in Hb. pose proof (r_nodup _ _ H) as N.
          destruct ps as [|[c w] ps]; cbn in *; [destruct Hb|]. inversion N; contradiction. }
        now rewrite !upd_ne by assumption.
  - change (addrs ((a, v) :: ps) (rear l)) with (a :: addrs ps (rear l)). constructor; [|exact (r_nodup _ _ H)].
    intros K. apply Fa. exact (addr_live _ _ _ H K).
  - change (addrs ((a, v) :: ps) (rear l)) with (a :: addrs ps (rear l)). apply perm_skip. exact (r_live _ _ H).
  - rewrite zlen_cons, (r_count _ _ H). lia.
  - intros [E|K]; [auto|]. exact (r_null _ _ H K).
  - constructor; [exact Hv|exact (r_vals _ _ H)].
Qed.

Lemma pop_ok l a v ps : R l ((a, v) :: ps) ->
  exists l', pop l = Ok (v, l') /\ R l' ps /\ rear l' = rear l.
Proof.
  intros H. unfold pop. rewrite (r_count _ _ H). rewrite zlen_cons. pose proof (zlen_nonneg ps).
  replace (1 + zlen ps =? 0) with false by lia. rewrite (r_head _ _ H). cbn [ptr].
  assert (La : In a (live l)) by (apply (addr_live _ _ _ H); now left).
  rewrite ld_ok by exact La. cbn [bind].
  destruct (r_link _ _ H) as (L1 & L2 & L3 & L4).
  assert (Ls : In (ptr ps (rear l)) (live l)) by (apply (addr_live _ _ _ H); right; apply ptr_in).
  pose proof (r_nodup _ _ H) as N. change (NoDup (a :: addrs ps (rear l))) in N.
  apply NoDup_cons_iff in N as (Na & Nr).
  assert (Da : ptr ps (rear l) <> a) by (intros E; apply Na; rewrite <- E; apply ptr_in).
  destruct (Z.eqb_spec (succ (mem l a)) 0) as [E|E]; [exfalso; apply (r_null _ _ H); rewrite <- E, L2; exact Ls|].
  cbn [set_head head]. unfold set_prev. rewrite L2. rewrite ld_ok by exact Ls. cbn [bind mem set_head].
  rewrite st_ok by exact Ls. cbn [bind set_head set_count]. rewrite free_ok by exact La. cbn [bind]. rewrite L1.
  eexists. split; [reflexivity|]. cbn [rear]. split; [|reflexivity].
  constructor; cbn [head rear mem live count set_head set_count].
  - reflexivity.
  - apply (linked_cong (mem l)); [| | |exact L4].
    + intros b Hb. assert (b <> a) by (intros ->; apply Na; apply in_app_iff; now left). rewrite (upd_ne _ a) by assumption.
      unfold upd. destruct (Z.eqb_spec b (ptr ps (rear l))) as [->|]; cbn [value succ]; split; reflexivity.
    + assert (rear l <> a) by (intros E'; apply Na; rewrite <- E'; apply in_app_iff; right; now left).
      rewrite (upd_ne _ a) by assumption. unfold upd. destruct (Z.eqb_spec (rear l) (ptr ps (rear l))) as [E'|]; cbn [value]; congruence.
    + intros b Hb.
      assert (b <> a) by (intros ->; apply Na; destruct ps as [|[c w] ps]; cbn in *; [destruct Hb|now right]).
      assert (b <> ptr ps (rear l)).
      { intros ->. destruct ps as [|[c w] ps]; cbn in *; [destruct Hb|]. inversion Nr; contradiction. }
      now rewrite !upd_ne by assumption.
  - exact Nr.
  - apply remove_perm; [exact (live_nodup _ _ H)|]. exact (r_live _ _ H).
  - rewrite (r_count _ _ H), zlen_cons. lia.
  - intros K. apply in_remove in K as (K & _). exact (r_null _ _ H K).
  - pose proof (r_vals _ _ H) as V. now inversion V.
Qed.
Lemma pop_empty l : R l [] -> pop l = Ok (0, l).
Proof. intros H. unfold pop. now rewrite (r_count _ _ H). Qed.

Lemma remove_ok l p1 a v p2 : R l (p1 ++ (a, v) :: p2) ->
  exists l', remove_node l a = Ok l' /\ R l' (p1 ++ p2) /\ rear l' = rear l.
Proof.
  intros H. unfold remove_node.
  assert (La : In a (live l)) by (apply (addr_live _ _ _ H); rewrite addrs_app; apply in_app_iff; right; now left).
  destruct (Z.eqb_spec a 0) as [->|_]; [exfalso; exact (r_null _ _ H La)|].
  destruct p1 as [|[d y] p1] using rev_ind.
  - cbn [app] in *. rewrite (r_head _ _ H). cbn [ptr]. rewrite Z.eqb_refl.
    destruct (pop_ok _ _ _ _ H) as (l' & E & Rl & Rr). rewrite E. cbn [bind]. eauto.
  - clear IHp1. rewrite <- app_assoc in *. cbn [app] in *.
    pose proof (r_nodup _ _ H) as N.
    assert (Dh : a <> head l).
    { rewrite (r_head _ _ H). rewrite addrs_app in N. destruct p1 as [|[f z] p1]; cbn [app ptr map fst addrs] in *.
      - intros ->. apply NoDup_cons_iff in N as (H2 & _). apply H2. now left.
      - intros ->. apply NoDup_cons_iff in N as (H2 & _). apply H2. apply in_app_iff. right. right. now left. }
    destruct (Z.eqb_spec a (head l)) as [E|_]; [contradiction|].
    rewrite ld_ok by exact La. cbn [bind].
    pose proof (linked_mid _ _ _ _ _ _ (r_link _ _ H)) as (D1 & D2 & D3). cbn [ptr] in D2, D3.
    pose proof (linked_mid _ (p1 ++ [(d, y)]) _ _ _ _ (eq_ind _ (fun x => linked (mem l) x (rear l)) (r_link _ _ H) _
      (app_assoc p1 [(d, y)] ((a, v) :: p2)))) as (A1 & A2 & A3).
    assert (Ld : In d (live l)) by (apply (addr_live _ _ _ H); rewrite addrs_app; apply in_app_iff; right; now left).
    assert (Ls : In (ptr p2 (rear l)) (live l)).
    { apply (addr_live _ _ _ H). rewrite addrs_app. apply in_app_iff. right. right. right. apply ptr_in. }
    assert (Nad : NoDup (d :: a :: addrs p2 (rear l))) by (rewrite addrs_app in N; exact (nodup_app_r _ _ N)).
    apply NoDup_cons_iff in Nad as (Nd & Na'). apply NoDup_cons_iff in Na' as (Na & Np).
    assert (d <> a) by (intros ->; apply Nd; now left).
    assert (ptr p2 (rear l) <> d) by (intros E; apply Nd; right; rewrite <- E; apply ptr_in).
    assert (ptr p2 (rear l) <> a) by (intros E; apply Na; rewrite <- E; apply ptr_in).
    unfold set_succ, set_prev. rewrite D3. rewrite ld_ok by exact Ld. cbn [bind]. rewrite st_ok by exact Ld. cbn [bind].
    rewrite A2. rewrite ld_ok by exact Ls. cbn [bind mem]. rewrite st_ok by exact Ls. cbn [bind].
    rewrite free_ok by exact La. eexists. split; [reflexivity|]. cbn [rear set_count]. split; [|reflexivity].
    constructor; cbn [head rear mem live count set_count].
    + rewrite (r_head _ _ H). now rewrite !ptr_app.
    + apply (linked_remove (mem l) _ p1 d y a v p2 (rear l) (r_link _ _ H) N).
      * intros e He. rewrite (upd_ne _ a) by exact He. unfold upd.
        destruct (Z.eqb_spec e (ptr p2 (rear l))) as [->|]; cbn [value].
        -- destruct (Z.eqb_spec (ptr p2 (rear l)) d); [contradiction|reflexivity].
        -- destruct (Z.eqb_spec e d) as [->|]; reflexivity.
      * intros e He Hd. rewrite (upd_ne _ a) by exact He. unfold upd.
        destruct (Z.eqb_spec e (ptr p2 (rear l))) as [->|]; cbn [succ].
        -- destruct (Z.eqb_spec (ptr p2 (rear l)) d); [contradiction|reflexivity].
        -- destruct (Z.eqb_spec e d) as [->|]; [contradiction|reflexivity].
      * intros e He Hp. rewrite (upd_ne _ a) by exact He. rewrite (upd_ne _ (ptr p2 (rear l))) by exact Hp. unfold upd.
        destruct (Z.eqb_spec e d) as [->|]; reflexivity.
      * rewrite (upd_ne _ a) by assumption. rewrite (upd_ne _ (ptr p2 (rear l))) by auto. rewrite upd_eq. reflexivity.
      * rewrite (upd_ne _ a) by assumption. rewrite upd_eq. reflexivity.
    + rewrite addrs_app in N |- *. cbn [map fst app addrs] in N |- *.
      change (NoDup (map fst p1 ++ d :: a :: addrs p2 (rear l))) in N.
      change (NoDup (map fst p1 ++ [d] ++ addrs p2 (rear l))). rewrite app_assoc.
      apply (NoDup_remove_1 _ _ a). rewrite <- app_assoc. exact N.
    + apply remove_perm; [exact (live_nodup _ _ H)|].
      rewrite (r_live _ _ H). rewrite !addrs_app. cbn [map fst app addrs].
      change (Permutation (map fst p1 ++ [d] ++ a :: addrs p2 (rear l)) (a :: map fst p1 ++ [d] ++ addrs p2 (rear l))).
      rewrite !(app_assoc (map fst p1) [d]). symmetry. apply Permutation_middle.
    + rewrite (r_count _ _ H), !zlen_app, !zlen_cons. lia.
    + intros K. apply in_remove in K as (K & _). exact (r_null _ _ H K).
    + pose proof (r_vals _ _ H) as V. apply Forall_app in V as (V1 & V2). inversion V2 as [|? ? V3 V4]; subst.
      inversion V4; subst. apply Forall_app. split; [exact V1|]. now constructor.
Qed.
