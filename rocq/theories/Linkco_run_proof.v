(** The lists refine plain queues, for every history. *)
From Verif Require Import Base Base_lemmas Zlist Linkco_model Linkco_spec Linkco_proof Linkco_pool_proof.
From Coq Require Import Permutation.

Lemma lists_set m m' l' n' : forall ls ns i n, Forall2 (lrep m) ls ns -> nth_error ns i = Some n -> NoDup (concat ns) ->
  (forall a, In a (concat ns) -> ~ In a n -> m' a = m a) -> lrep m' l' n' ->
  Forall2 (lrep m') (list_set ls i l') (list_set ns i n').
Proof.
  intros ls ns i n H. revert i. induction H as [|l k ls ns H1 H2 IH]; intros [|i] E ND F L; cbn [nth_error] in E; try discriminate.
  - injection E as ->. cbn [list_set concat] in *. apply nodup_app in ND as (N1 & N2 & N3). constructor; auto.
    eapply lists_frame; [|eauto]. intros a A. apply F; [apply in_or_app; auto|]. intro B. eapply N3; eauto.
  - cbn [list_set concat] in *. apply nodup_app in ND as (N1 & N2 & N3). constructor.
    + eapply lrep_frame; [|eauto]. intros a A. apply F; [apply in_or_app; auto|]. intro B.
      apply (N3 a); auto. apply in_concat. exists n. split; auto. eapply nth_error_In; eauto.
    + apply IH; auto. intros a A. apply F. apply in_or_app; auto.
Qed.

Lemma relist s held gl ns used i n m' l' n' held' :
  inv s held gl ns used -> nth_error ns i = Some n ->
  (forall a, ~ In a n -> ~ In a held -> m' a = mem s a) ->
  lrep m' l' n' -> Permutation (held' ++ n') (held ++ n) ->
  inv (set_list (set_mem s m') i l') held' gl (list_set ns i n') used.
Proof.
  intros I E F L P.
  destruct (owned_split _ _ _ _ (i_nodup _ _ _ _ _ I)) as (_ & _ & _ & O1 & O2 & O3 & O4).
  assert (IN : forall a, In a n -> In a (concat ns)).
  { intros a A. apply in_concat. exists n. split; auto. eapply nth_error_In; eauto. }
  assert (Q : Permutation (owned (set_list (set_mem s m') i l') held' gl (list_set ns i n')) (owned s held gl ns)).
  { unfold owned. cbn [caches set_list set_mem].
    pose proof (concat_set ns i n n' E) as C.
    apply Permutation_app_inv_r with n.
    rewrite <- !app_assoc. rewrite C. rewrite (Permutation_app_comm (concat ns) n').
    rewrite (Permutation_app_comm (concat ns) n).
    rewrite !(app_assoc gl). set (r := gl ++ concat (caches s)). 
    rewrite (app_assoc r n'). rewrite (Permutation_app_comm r n'). rewrite <- (app_assoc n').
    rewrite (app_assoc r n). rewrite (Permutation_app_comm r n). rewrite <- (app_assoc n).
    rewrite (app_assoc held'). rewrite (app_assoc held). apply Permutation_app_tail. auto. }
  destruct (owned_perm _ _ _ _ _ _ _ _ _ I Q) as (N & U). destruct I as [I1 I2 I3 I4 I5 I6].
  constructor; cbn [caches set_list set_mem global mem lists]; auto.
  - eapply gchain_frame; [|eauto]. intros a A. apply F; intro B; [destruct (O3 a A)|destruct (O2 a B) as (? & ? & ?)]; auto.
  - eapply caches_frame; [|eauto]. intros a A. apply F; intro B; [apply (O4 a A)|destruct (O2 a B) as (? & ? & ?)]; auto.
  - eapply lists_set; eauto. intros a A B. apply F; auto. intro C. destruct (O2 a C) as (? & ? & ?); auto.
Qed.

Definition vals (m : Z -> lk) (ns : list (list Z)) : list (list Z) := map (map (fun a => co (m a))) ns.

Lemma map_list_set (A B : Type) (f : A -> B) l : forall i x, map f (list_set l i x) = list_set (map f l) i (f x).
Proof. induction l as [|h l IH]; intros [|i] x; cbn [list_set map]; auto. now rewrite IH. Qed.
Lemma vals_ext m m' ns : (forall a, In a (concat ns) -> co (m' a) = co (m a)) -> vals m' ns = vals m ns.
Proof.
  intro F. unfold vals. apply map_ext_in. intros n N. apply map_ext_in. intros a A. apply F. apply in_concat. eauto.
Qed.
Lemma vals_set m m' ns i n' : (forall a, In a (concat ns) -> co (m' a) = co (m a)) ->
  vals m' (list_set ns i n') = list_set (vals m ns) i (map (fun a => co (m' a)) n').
Proof. intro F. unfold vals at 1. rewrite map_list_set. f_equal. apply vals_ext; auto. Qed.

Record rel (np nl : nat) (s : pool) (gl : list Z) (ns : list (list Z)) (used : list Z) (qs : list (list Z)) : Prop := mk_rel {
  r_inv : inv s [] gl ns used;
  r_vals : qs = vals (mem s) ns;
  r_nz : Forall (Forall (fun v => v <> 0)) qs;
  r_np : length (caches s) = np;
  r_nl : length (lists s) = nl
}.

Lemma Forall2_nth (A B : Type) (R : A -> B -> Prop) l l' : Forall2 R l l' -> forall i, (i < length l)%nat ->
  exists x y, nth_error l i = Some x /\ nth_error l' i = Some y /\ R x y.
Proof.
  induction 1; intros [|i] L; cbn [length] in L; try lia; [cbn; eauto|]. cbn [nth_error]. apply IHForall2. lia.
Qed.
Lemma rel_list np nl s gl ns used qs i : rel np nl s gl ns used qs -> (i < nl)%nat ->
  exists l n, nth_error (lists s) i = Some l /\ nth_error ns i = Some n /\ lrep (mem s) l n /\
    queue_of qs i = map (fun a => co (mem s a)) n.
Proof.
  intros [I V Z1 Np Nl] L. destruct (Forall2_nth _ _ _ _ _ (i_lists _ _ _ _ _ I) i ltac:(lia)) as (l & n & A & B & C).
  exists l, n. split; [auto|split; [auto|split; [auto|]]]. subst qs. unfold queue_of.
  apply nth_error_nth. unfold vals. now apply map_nth_error.
Qed.
Lemma nz_in (ns : list (list Z)) i n s held gl used a : inv s held gl ns used -> nth_error ns i = Some n -> In a n -> a <> 0.
Proof.
  intros I E A. apply (i_used _ _ _ _ _ I). unfold owned. rewrite !in_app_iff. right; right; right.
  apply in_concat. exists n. split; auto. eapply nth_error_In; eauto.
Qed.

Lemma nodup_nth (ns : list (list Z)) : forall i n, NoDup (concat ns) -> nth_error ns i = Some n -> NoDup n.
Proof.
  induction ns as [|k ns IH]; intros [|i] n D E; cbn [nth_error] in E; try discriminate;
    cbn [concat] in D; apply nodup_app in D as (D1 & D2 & _); [injection E as <-; auto|eapply IH; eauto].
Qed.
Lemma set_list_mem s m i l : set_list (set_mem s m) i l = mk_pool m (caches s) (global s) (list_set (lists s) i l).
Proof. reflexivity. Qed.

(** after acquiring a node and storing the value in it *)
Lemma take_node np nl s p i fresh v gl ns used qs :
  rel np nl s gl ns used qs -> (p < np)%nat -> (i < nl)%nat -> fresh <> 0 -> ~ In fresh used ->
  exists x s1 gl' l n,
    acquire s p fresh = Ok (x, s1) /\ x <> 0 /\
    let s2 := set_mem s1 (upd (mem s1) x (mk_lk v 0 0)) in
    set_co s1 x v = Ok s2 /\ inv s2 [x] gl' ns (fresh :: used) /\
    (forall a, In a (concat ns) -> mem s2 a = mem s a) /\ ~ In x (concat ns) /\
    length (caches s2) = np /\ length (lists s2) = nl /\
    list_of s2 i = Ok l /\ nth_error ns i = Some n /\ lrep (mem s2) l n /\
    queue_of qs i = map (fun a => co (mem s a)) n.
Proof.
  intros R Lp Li F NF. pose proof R as [I V Z1 Np Nl].
  destruct (acquire_inv s p fresh gl ns used I ltac:(lia) F NF) as (x & s1 & gl' & A1 & A2 & (A3 & A4 & A5) & A6 & A7).
  assert (X : x <> 0) by (apply (i_used _ _ _ _ _ A2); left; auto).
  destruct (rel_list _ _ _ _ _ _ _ i R Li) as (l & n & B1 & B2 & B3 & B4).
  assert (NX : ~ In x (concat ns)).
  { destruct (owned_split _ _ _ _ (i_nodup _ _ _ _ _ A2)) as (_ & _ & _ & _ & D & _ & _). apply (D x). left; auto. }
  exists x, s1, gl', l, n. split; [auto|split; [auto|]]. cbn zeta.
  assert (FR : forall a, In a (concat ns) -> mem (set_mem s1 (upd (mem s1) x (mk_lk v 0 0))) a = mem s a).
  { intros a A. cbn [mem set_mem]. rewrite upd_ne by congruence. auto. }
  split; [rewrite set_co_ok by auto; now rewrite A6, A7|].
  split; [apply inv_write; auto; left; auto|]. split; [auto|]. split; [auto|].
  split; [cbn [caches set_mem]; congruence|]. split; [cbn [lists set_mem]; congruence|].
  split; [unfold list_of; cbn [lists set_mem]; rewrite A3, B1; auto|]. split; [auto|]. split; [|auto].
  eapply lrep_frame; [|exact B3]. intros a A. apply FR. apply in_concat. exists n. split; auto. eapply nth_error_In; eauto.
Qed.

(** putting the new list in place *)
Lemma put_list np nl s2 x gl ns used qs i n m' l' n' s :
  inv s2 [x] gl ns used -> nth_error ns i = Some n -> ~ In x (concat ns) ->
  qs = vals (mem s) ns -> Forall (Forall (fun v => v <> 0)) qs ->
  (forall a, In a (concat ns) -> mem s2 a = mem s a) ->
  (forall a, ~ In a n -> a <> x -> m' a = mem s2 a) ->
  (forall a, In a n -> co (m' a) = co (mem s2 a)) ->
  lrep m' l' n' -> Permutation n' (x :: n) -> length (caches s2) = np -> length (lists s2) = nl ->
  Forall (fun v => v <> 0) (map (fun a => co (m' a)) n') ->
  rel np nl (set_list (set_mem s2 m') i l') gl (list_set ns i n') used (list_set qs i (map (fun a => co (m' a)) n')).
Proof.
  intros I E NX V Z1 FR M1 M2 L P Np Nl Z2.
  constructor; cbn [mem set_list set_mem caches lists]; auto.
  - eapply relist; [exact I|exact E| |exact L|].
    + intros a A B. apply M1; auto. intros ->. apply B. left; auto.
    + cbn [app]. auto.
  - rewrite V. symmetry. apply vals_set. intros a A. 
    destruct (in_dec Z.eq_dec a n) as [B|B].
    + rewrite M2, FR; auto.
    + rewrite M1, FR; auto. intros ->; auto.
  - apply Forall_list_set; auto.
  - rewrite len_list_set. auto.
Qed.

Lemma queue_nz qs i : Forall (Forall (fun v => v <> 0)) qs -> Forall (fun v => v <> 0) (queue_of qs i).
Proof.
  intro F. unfold queue_of. destruct (nth_in_or_default i qs []) as [I| ->]; [|constructor].
  rewrite Forall_forall in F. apply F; auto.
Qed.

Lemma push_rel np nl s p i fresh v gl ns used qs :
  rel np nl s gl ns used qs -> (p < np)%nat -> (i < nl)%nat -> v <> 0 -> fresh <> 0 -> ~ In fresh used ->
  exists s' gl' ns', push s p i fresh v = Ok s' /\
    rel np nl s' gl' ns' (fresh :: used) (list_set qs i (queue_of qs i ++ [v])).
Proof.
  intros R Lp Li NV F NF.
  destruct (take_node np nl s p i fresh v gl ns used qs R Lp Li F NF)
    as (x & s1 & gl' & l & n & A1 & X & H). cbn zeta in H.
  set (s2 := set_mem s1 (upd (mem s1) x (mk_lk v 0 0))) in *.
  destruct H as (A2 & A3 & FR & NX & Np & Nl & A4 & A5 & (L1 & L2 & L3 & L4) & Q).
  unfold push. rewrite A1. cbn [bind]. rewrite A2. cbn [bind]. rewrite A4. cbn [bind].
  pose proof (queue_nz qs i (r_nz _ _ _ _ _ _ _ R)) as QZ.
  assert (MX : mem s2 x = mk_lk v 0 0) by (subst s2; cbn [mem set_mem]; apply upd_eq).
  assert (INn : forall a, In a n -> In a (concat ns)).
  { intros a A. apply in_concat. exists n. split; auto. eapply nth_error_In; eauto. }
  destruct n as [|y n].
  - cbn [hd last] in L1, L2. rewrite L1, L2. cbn [Z.eqb].
    exists (set_list s2 i (mk_lst x x (lcount l + 1))), gl', (list_set ns i [x]). split; [auto|].
    rewrite Q. cbn [map app].
    assert (SE : set_mem s2 (mem s2) = s2) by (destruct s2; reflexivity).
    pose proof (put_list np nl s2 x gl' ns (fresh :: used) qs i [] (mem s2) (mk_lst x x (lcount l + 1)) [x] s) as PL.
    cbn [map] in PL. rewrite MX in PL. cbn [co] in PL. rewrite SE in PL. apply PL; auto; try apply R.
    split; [auto|split; [auto|split; [|]]].
    + cbn [lcount]. rewrite L3. reflexivity.
    + cbn [dll hd]. rewrite MX. auto.
  - cbn [hd] in L1. rewrite L1.
    assert (Y : y <> 0) by (eapply (nz_in ns i (y :: n)); eauto; left; auto).
    destruct (Z.eqb_spec y 0) as [?|_]; [contradiction|].
    pose proof (last_in y n) as T. rewrite L2. set (r := last (y :: n) 0) in *.
    assert (R0 : r <> 0) by (eapply (nz_in ns i (y :: n)); eauto).
    assert (RX : r <> x) by (intros E; apply NX; rewrite <- E; auto).
    destruct (Z.eqb_spec r 0) as [?|_]; [contradiction|].
    rewrite set_nx_ok by auto. cbn [bind]. rewrite set_pv_ok by auto. cbn [bind].
    cbn [mem set_mem]. rewrite (upd_ne _ r _ x) by auto. rewrite MX. cbn [co nx].
    set (m' := upd (upd (mem s2) r _) x _).
    exists (set_list (set_mem s2 m') i (mk_lst y x (lcount l + 1))), gl', (list_set ns i ((y :: n) ++ [x])).
    split; [rewrite ?L1; reflexivity|].
    assert (ND : NoDup (y :: n)).
    { destruct (owned_split _ _ _ _ (i_nodup _ _ _ _ _ A3)) as (_ & _ & _ & D & _). exact (nodup_nth ns i _ D A5). }
    assert (CO : forall a, In a (y :: n) -> co (m' a) = co (mem s2 a)).
    { intros a A. subst m'. rewrite upd_ne by (intros ->; apply NX; auto).
      unfold upd. destruct (Z.eqb_spec a r) as [->|]; auto. }
    assert (QE : map (fun a => co (m' a)) ((y :: n) ++ [x]) = queue_of qs i ++ [v]).
    { rewrite map_app. f_equal.
      - rewrite Q. apply map_ext_in. intros a A. rewrite CO by auto. rewrite FR by auto. auto.
      - cbn [map]. subst m'. rewrite upd_eq. auto. }
    rewrite <- QE. eapply put_list with (n := y :: n) (s := s); eauto; try apply R.
    + intros a A B. subst m'. rewrite upd_ne by auto. rewrite upd_ne by (intros ->; auto). auto.
    + split; [reflexivity|split; [|split]]. { cbn [lrear]. now rewrite last_snoc. }
      { cbn [lcount]. rewrite L3. unfold zlen. rewrite app_length. cbn [length]. lia. }
      apply (dll_snoc (mem s2) x v n 0 y ND); auto.
    + apply Permutation_sym, Permutation_cons_append.
    + rewrite QE. apply Forall_app. split; auto.
Qed.

Lemma push_head_rel np nl s p i fresh v gl ns used qs :
  rel np nl s gl ns used qs -> (p < np)%nat -> (i < nl)%nat -> v <> 0 -> fresh <> 0 -> ~ In fresh used ->
  exists s' gl' ns', push_head s p i fresh v = Ok s' /\
    rel np nl s' gl' ns' (fresh :: used) (list_set qs i (v :: queue_of qs i)).
Proof.
  intros R Lp Li NV F NF.
  destruct (take_node np nl s p i fresh v gl ns used qs R Lp Li F NF)
    as (x & s1 & gl' & l & n & A1 & X & H). cbn zeta in H.
  set (s2 := set_mem s1 (upd (mem s1) x (mk_lk v 0 0))) in *.
  destruct H as (A2 & A3 & FR & NX & Np & Nl & A4 & A5 & (L1 & L2 & L3 & L4) & Q).
  unfold push_head. rewrite A1. cbn [bind]. rewrite A2. cbn [bind]. rewrite A4. cbn [bind].
  pose proof (queue_nz qs i (r_nz _ _ _ _ _ _ _ R)) as QZ.
  assert (MX : mem s2 x = mk_lk v 0 0) by (subst s2; cbn [mem set_mem]; apply upd_eq).
  assert (INn : forall a, In a n -> In a (concat ns)).
  { intros a A. apply in_concat. exists n. split; auto. eapply nth_error_In; eauto. }
  destruct n as [|y n].
  - cbn [hd last] in L1, L2. rewrite L1, L2. cbn [Z.eqb].
    exists (set_list s2 i (mk_lst x x (lcount l + 1))), gl', (list_set ns i [x]). split; [auto|].
    rewrite Q. cbn [map].
    assert (SE : set_mem s2 (mem s2) = s2) by (destruct s2; reflexivity).
    pose proof (put_list np nl s2 x gl' ns (fresh :: used) qs i [] (mem s2) (mk_lst x x (lcount l + 1)) [x] s) as PL.
    cbn [map] in PL. rewrite MX in PL. cbn [co] in PL. rewrite SE in PL. apply PL; auto; try apply R.
    split; [auto|split; [auto|split; [|]]].
    + cbn [lcount]. rewrite L3. reflexivity.
    + cbn [dll hd]. rewrite MX. auto.
  - cbn [hd] in L1. rewrite L1.
    assert (Y : y <> 0) by (eapply (nz_in ns i (y :: n)); eauto; left; auto).
    destruct (Z.eqb_spec y 0) as [?|_]; [contradiction|].
    assert (YX : y <> x) by (intros E; apply NX; rewrite <- E; apply INn; left; auto).
    rewrite set_nx_ok by auto. cbn [bind]. rewrite set_pv_ok by auto. cbn [bind].
    cbn [mem set_mem]. rewrite (upd_ne _ x _ y) by auto. rewrite MX. cbn [co nx pv].
    set (m' := upd (upd (mem s2) x _) y _).
    exists (set_list (set_mem s2 m') i (mk_lst x (lrear l) (lcount l + 1))), gl', (list_set ns i (x :: y :: n)).
    split; [reflexivity|].
    assert (ND : NoDup (y :: n)).
    { destruct (owned_split _ _ _ _ (i_nodup _ _ _ _ _ A3)) as (_ & _ & _ & D & _). exact (nodup_nth ns i _ D A5). }
    apply NoDup_cons_iff in ND as (ND1 & ND2).
    assert (CO : forall a, In a (y :: n) -> co (m' a) = co (mem s2 a)).
    { intros a A. subst m'. unfold upd at 1. destruct (Z.eqb_spec a y) as [->|]; auto.
      rewrite upd_ne by (intros ->; apply NX; auto). auto. }
    assert (MX' : m' x = mk_lk v y 0) by (subst m'; rewrite upd_ne by auto; apply upd_eq).
    assert (QE : map (fun a => co (m' a)) (x :: y :: n) = v :: queue_of qs i).
    { change (map (fun a => co (m' a)) (x :: y :: n)) with (co (m' x) :: map (fun a => co (m' a)) (y :: n)). f_equal.
      - rewrite MX'. auto.
      - rewrite Q. apply map_ext_in. intros a A. rewrite CO by auto. rewrite FR by auto. auto. }
    rewrite <- QE. eapply put_list with (n := y :: n) (s := s); eauto; try apply R.
    + intros a A B. subst m'. rewrite upd_ne by (intros ->; apply A; left; auto). rewrite upd_ne by auto. auto.
    + split; [auto|split; [|split]]. { cbn [lrear]. rewrite last_cons2. auto. }
      { cbn [lcount]. rewrite L3. unfold zlen. cbn [length]. lia. }
      cbn [dll hd] in L4. destruct L4 as (P1 & P2 & P3).
      assert (MY : m' y = mk_lk (co (mem s2 y)) (nx (mem s2 y)) x) by (subst m'; apply upd_eq).
      cbn [dll hd]. rewrite MX', MY. cbn [nx pv]. split; [auto|split; [auto|split; [auto|split; [auto|]]]].
      eapply dll_frame; [|exact P3]. intros a A. subst m'. rewrite upd_ne by (intros ->; auto).
      apply upd_ne. intros ->. apply NX, INn. right; auto.
    + rewrite QE. constructor; auto.
Qed.

Lemma pop_rel np nl s p i gl ns used qs :
  rel np nl s gl ns used qs -> (p < np)%nat -> (i < nl)%nat ->
  exists s' gl' ns', pop s p i = Ok (hd 0 (queue_of qs i), s') /\
    rel np nl s' gl' ns' used (match queue_of qs i with [] => qs | _ :: q => list_set qs i q end).
Proof.
  intros R Lp Li. destruct (rel_list _ _ _ _ _ _ _ i R Li) as (l & n & B1 & B2 & B3 & Q).
  pose proof R as [I V Z1 Np Nl]. unfold pop, list_of. rewrite B1. cbn [bind].
  pose proof B3 as (L1 & L2 & L3 & L4).
  destruct n as [|h n].
  - cbn [hd last] in L1, L2. rewrite L1, L2. cbn [Z.eqb]. rewrite Q. cbn [map hd]. exists s, gl, ns. auto.
  - cbn [hd] in L1. rewrite L1.
    assert (H0 : h <> 0) by (eapply (nz_in ns i (h :: n)); eauto; left; auto).
    destruct (Z.eqb_spec h 0) as [?|_]; [contradiction|]. rewrite get_ok by auto. cbn [bind].
    pose proof (queue_nz qs i Z1) as QZ. rewrite Q in QZ. cbn [map] in QZ. inversion QZ as [|? ? QZ1 QZ2]; subst x l0.
    destruct (Z.eqb_spec (co (mem s h)) 0) as [?|_]; [contradiction|].
    cbn [dll hd] in L4. destruct L4 as (P1 & P2 & P3).
    rewrite Q. cbn [map hd]. rewrite P2.
    assert (ND : NoDup (h :: n)).
    { destruct (owned_split _ _ _ _ (i_nodup _ _ _ _ _ I)) as (_ & _ & _ & D & _). exact (nodup_nth ns i _ D B2). }
    apply NoDup_cons_iff in ND as (ND1 & ND2).
    assert (INn : forall a, In a (h :: n) -> In a (concat ns)).
    { intros a A. apply in_concat. exists (h :: n). split; auto. eapply nth_error_In; eauto. }
    assert (G : exists m' l', 
      (s0 <- (if hd 0 n =? 0 then if lcount l =? 1 then Ok (set_list s i (mk_lst 0 0 (lcount l - 1))) else Panic
              else s0 <- set_pv s (hd 0 n) 0 ;; Ok (set_list s0 i (mk_lst (hd 0 n) (lrear l) (lcount l - 1)))) ;;
       n' <- get s0 h ;; s0 <- set_nx s0 h 0 ;; Ok (co n', s0)) = Ok (co (mem s h), set_list (set_mem s m') i l') /\
      lrep m' l' n /\ clean m' h /\ (forall a, ~ In a (h :: n) -> m' a = mem s a) /\
      (forall a, In a (h :: n) -> co (m' a) = co (mem s a))).
    { destruct n as [|k n]; cbn [hd].
      - cbn [Z.eqb]. rewrite L3. change (zlen [h]) with 1. cbn [Z.eqb Pos.eqb bind].
        rewrite get_ok by auto. cbn [bind]. rewrite set_nx_ok by auto. cbn [bind mem set_list].
        exists (upd (mem s) h (mk_lk (co (mem s h)) 0 (pv (mem s h)))), (mk_lst 0 0 (1 - 1)).
        split; [reflexivity|]. split; [split; [auto|split; [auto|split; [auto|exact Logic.I]]]|].
        split; [rewrite upd_eq; auto|]. split.
        + intros a A. apply upd_ne. intros ->. apply A. left; auto.
        + intros a A. unfold upd. destruct (Z.eqb_spec a h) as [->|]; auto.
      - assert (K0 : k <> 0) by (eapply (nz_in ns i (h :: k :: n)); eauto; right; left; auto).
        destruct (Z.eqb_spec k 0) as [?|_]; [contradiction|].
        assert (HK : h <> k) by (intros ->; apply ND1; left; auto).
        rewrite set_pv_ok by auto. cbn [bind]. rewrite get_ok by auto. cbn [bind]. rewrite set_nx_ok by auto.
        cbn [bind mem set_list set_mem]. rewrite !(upd_ne _ k _ h) by auto.
        set (m' := upd (upd (mem s) k _) h _).
        exists m', (mk_lst k (lrear l) (lcount l - 1)). split; [reflexivity|].
        destruct P3 as (P3 & P4 & P5).
        assert (MK : m' k = mk_lk (co (mem s k)) (nx (mem s k)) 0) by (subst m'; rewrite upd_ne by auto; apply upd_eq).
        split; [split; [auto|split; [|split]]|].
        + cbn [lrear]. rewrite L2. apply last_cons2.
        + cbn [lcount]. rewrite L3. unfold zlen. cbn [length]. lia.
        + cbn [dll]. rewrite MK. cbn [nx pv]. split; [auto|split; [auto|]].
          eapply dll_frame; [|exact P5]. intros a A. subst m'. apply NoDup_cons_iff in ND2 as (ND2 & _).
          rewrite upd_ne by (intros ->; apply ND1; right; auto). apply upd_ne. intros ->. auto.
        + split; [subst m'; rewrite upd_eq; auto|]. split.
          * intros a A. subst m'. rewrite upd_ne by (intros ->; apply A; left; auto).
            apply upd_ne. intros ->. apply A. right; left; auto.
          * intros a A. subst m'. unfold upd. destruct (Z.eqb_spec a h) as [->|]; auto.
            destruct (Z.eqb_spec a k) as [->|]; auto. }
    destruct G as (m' & l' & G1 & G2 & G3 & G4 & G5).
    assert (I2 : inv (set_list (set_mem s m') i l') [h] gl (list_set ns i n) used).
    { eapply relist; eauto. }
    destruct (release_inv (set_list (set_mem s m') i l') p h gl (list_set ns i n) used I2) as (s' & gl' & R1 & R2 & R3 & R4 & R5).
    { cbn [caches set_list set_mem]. lia. } { exact G3. }
    exists s', gl', (list_set ns i n). split.
    + destruct (if hd 0 n =? 0 then _ else _) as [s3| | | | |] eqn:ES; cbn [bind] in G1 |- *; try discriminate.
      destruct (get s3 h) as [n3| | | | |]; cbn [bind] in G1 |- *; try discriminate.
      destruct (set_nx s3 h 0) as [s4| | | | |]; cbn [bind] in G1 |- *; try discriminate.
      injection G1 as G1 ->. rewrite R1. cbn [bind]. now rewrite G1.
    + constructor; auto.
      * rewrite V. symmetry. rewrite (vals_ext (mem s) (mem s')).
        -- unfold vals. apply map_list_set.
        -- intros a A. rewrite R5 by auto. cbn [mem set_list set_mem].
           destruct (in_dec Z.eq_dec a (h :: n)) as [B|B]; [auto|now rewrite G4].
      * apply Forall_list_set; auto.
      * rewrite R4. cbn [caches set_list set_mem]. auto.
      * rewrite R3. cbn [lists set_list set_mem]. rewrite len_list_set. auto.
Qed.

Lemma step_rel np nl s gl ns used qs o : rel np nl s gl ns used qs -> op_ok np nl used o ->
  exists s' gl' ns', step s o = Ok (fst (spec qs o), s') /\ rel np nl s' gl' ns' (new_addr o ++ used) (snd (spec qs o)).
Proof.
  intros R K. destruct o as [p i a v|p i a v|p i]; cbn [op_ok step spec new_addr app fst snd] in *.
  - destruct K as (K1 & K2 & K3 & K4 & K5).
    destruct (push_rel np nl s p i a v gl ns used qs R K1 K2 K3 K4 K5) as (s' & gl' & ns' & A & B).
    exists s', gl', ns'. rewrite A. auto.
  - destruct K as (K1 & K2 & K3 & K4 & K5).
    destruct (push_head_rel np nl s p i a v gl ns used qs R K1 K2 K3 K4 K5) as (s' & gl' & ns' & A & B).
    exists s', gl', ns'. rewrite A. auto.
  - destruct K as (K1 & K2). destruct (pop_rel np nl s p i gl ns used qs R K1 K2) as (s' & gl' & ns' & A & B).
    exists s', gl', ns'. rewrite A. cbn [bind]. destruct (queue_of qs i); cbn [hd fst snd]; auto.
Qed.

Lemma run_rel np nl os : forall s gl ns used qs, rel np nl s gl ns used qs -> ops_ok np nl used os ->
  exists s' gl' ns' used', run s os = Ok (fst (spec_run qs os), s') /\ rel np nl s' gl' ns' used' (snd (spec_run qs os)).
Proof.
  induction os as [|o os IH]; intros s gl ns used qs R K; cbn [run spec_run ops_ok] in *.
  - exists s, gl, ns, used. auto.
  - destruct K as (K1 & K2). destruct (step_rel _ _ _ _ _ _ _ _ R K1) as (s1 & gl1 & ns1 & A & B).
    destruct (IH _ _ _ _ _ B K2) as (s2 & gl2 & ns2 & u2 & C & D).
    rewrite A. cbn [bind]. rewrite C. cbn [bind].
    destruct (spec qs o) as [v qs1]. cbn [fst snd] in *. destruct (spec_run qs1 os) as [vs qs2]. cbn [fst snd] in *.
    exists s2, gl2, ns2, u2. auto.
Qed.

Lemma concat_nils n : concat (repeat (@nil Z) n) = [].
Proof. induction n; auto. Qed.
Lemma init_rel np nl : rel np nl (init np nl) [] (repeat [] nl) [] (repeat [] nl).
Proof.
  constructor; cbn [init caches lists mem]; try apply repeat_length.
  - constructor; cbn [init caches lists mem global]; auto.
    + unfold owned. cbn [init caches app]. rewrite !concat_nils. constructor.
    + intros a A. unfold owned in A. cbn [init caches app] in A. rewrite !concat_nils in A. destruct A.
    + exact Logic.I.
    + rewrite Forall_forall. intros c C. apply repeat_spec in C. subst c. split; [cbn; unfold CACHE_MAX; lia|constructor].
    + induction nl; cbn [repeat]; constructor; auto. split; [auto|split; [auto|split; [auto|exact Logic.I]]].
  - induction nl; cbn [repeat vals map]; auto. f_equal. auto.
  - rewrite Forall_forall. intros c C. apply repeat_spec in C. subst c. constructor.
Qed.
