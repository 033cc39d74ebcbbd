(** Histories of the linked list. *)
From Coq Require Import Permutation.
From Verif Require Import Base Base_lemmas Rlist_model Rlist_spec Rlist_proof.

Definition vals (ps : list (Z * Z)) : list Z := map snd ps.

Lemma ld_ptr l p1 p2 : R l (p1 ++ p2) -> ld l (ptr p2 (rear l)) = Ok (mem l (ptr p2 (rear l))).
Proof.
  intros H. apply ld_ok. apply (addr_live _ _ _ H). rewrite addrs_app. apply in_app_iff. right. apply ptr_in.
Qed.
Lemma walk_ok dead p2 : forall fuel l p1, R l (p1 ++ p2) -> (length p2 < fuel)%nat ->
  exists l', walk fuel dead l (ptr p2 (rear l)) = Ok (filter (fun v => negb (dead v)) (vals p2), l') /\
    R l' (p1 ++ filter (fun p => negb (dead (snd p))) p2).
Proof.
  induction p2 as [|[a v] p2 IH]; intros fuel l p1 H F; (destruct fuel as [|fuel]; [cbn in F; lia|]); cbn [walk].
  - rewrite (ld_ptr l p1 [] H). cbn [bind ptr]. rewrite app_nil_r in H.
    assert (V : value (mem l (rear l)) = 0).
    { pose proof (r_link _ _ H) as L. rewrite <- (app_nil_r p1) in L. exact (linked_tail _ _ _ _ L). }
    rewrite V. cbn [Z.eqb]. exists l. cbn. rewrite app_nil_r. auto.
  - rewrite (ld_ptr l p1 ((a, v) :: p2) H). cbn [bind ptr].
    pose proof (linked_mid _ _ _ _ _ _ (r_link _ _ H)) as (V & S & _). rewrite V, S.
    pose proof (r_vals _ _ H) as Fv. apply Forall_app in Fv as (_ & Fv). inversion Fv as [|? ? Hv _]; subst. cbn [snd] in Hv.
    destruct (Z.eqb_spec (value (mem l a)) 0) as [E|_]; [contradiction|].
    cbn [vals map filter snd]. destruct (dead (value (mem l a))) eqn:D; cbn [negb].
    + destruct (remove_ok _ _ _ _ _ H) as (l1 & E1 & R1 & Rr). rewrite E1. cbn [bind]. rewrite <- Rr.
      apply IH; [exact R1|]. cbn in F. lia.
    + replace (p1 ++ (a, value (mem l a)) :: p2) with ((p1 ++ [(a, value (mem l a))]) ++ p2) in H
        by now rewrite <- app_assoc.
      destruct (IH fuel l _ H) as (l1 & E1 & R1); [cbn in F; lia|]. rewrite E1. cbn [bind].
      exists l1. split; [reflexivity|]. rewrite <- app_assoc in R1. exact R1.
Qed.
Lemma node_at_ok p2 : forall l p1 i, R l (p1 ++ p2) -> (i < length p2)%nat ->
  exists q1 a v q2, p2 = q1 ++ (a, v) :: q2 /\ length q1 = i /\ node_at l (ptr p2 (rear l)) i = Ok a.
Proof.
  induction p2 as [|[a v] p2 IH]; intros l p1 i H Hi; cbn in Hi; [lia|]. destruct i as [|i].
  - exists [], a, v, p2. auto.
  - cbn [node_at]. rewrite (ld_ptr l p1 ((a, v) :: p2) H). cbn [bind ptr].
    pose proof (linked_mid _ _ _ _ _ _ (r_link _ _ H)) as (_ & S & _). rewrite S.
    replace (p1 ++ (a, v) :: p2) with ((p1 ++ [(a, v)]) ++ p2) in H by now rewrite <- app_assoc.
    destruct (IH l _ i H) as (q1 & b & w & q2 & E & L & N); [lia|].
    exists ((a, v) :: q1), b, w, q2. subst p2. cbn. auto.
Qed.
Lemma drop_at_app q1 x q2 : drop_at (q1 ++ x :: q2) (length q1) = q1 ++ q2.
Proof. induction q1 as [|y q1 IH]; cbn; [reflexivity|]. now rewrite IH. Qed.
Lemma filter_vals (f : Z -> bool) ps : vals (filter (fun p => f (snd p)) ps) = filter f (vals ps).
Proof. unfold vals. induction ps as [|[a v] ps IH]; cbn; [reflexivity|]. destruct (f v); cbn; now rewrite IH. Qed.

Lemma step_ok l ps o : R l ps -> op_ok l (vals ps) o ->
  exists l' ps', step l o = Ok (fst (spec (vals ps) o), l') /\ R l' ps' /\ vals ps' = snd (spec (vals ps) o).
Proof.
  intros H O. destruct o as [a v|a v| |i| | |dead]; cbn [step spec fst snd op_ok] in *.
  - destruct O as (Hv & Ha & Fa). destruct (push_ok l ps a v H Hv Ha Fa) as (l' & E & R'). rewrite E. cbn [bind].
    eexists. eexists. split; [reflexivity|]. split; [exact R'|]. unfold vals. now rewrite map_app.
  - destruct O as (Hv & Ha & Fa). destruct (push_head_ok l ps a v H Hv Ha Fa) as (l' & E & R'). rewrite E. cbn [bind].
    eexists. eexists. split; [reflexivity|]. split; [exact R'|]. reflexivity.
  - destruct ps as [|[a v] ps].
    + rewrite (pop_empty l H). cbn. eexists. eexists. split; [reflexivity|]. split; [exact H|]. reflexivity.
    + destruct (pop_ok l a v ps H) as (l' & E & R' & _). rewrite E. cbn. eexists. eexists. split; [reflexivity|].
      split; [exact R'|]. reflexivity.
  - unfold vals in O. rewrite map_length in O. rewrite (r_head _ _ H).
    destruct (node_at_ok ps l [] i H O) as (q1 & a & v & q2 & E & L & N). rewrite N. cbn [bind]. subst ps i.
    destruct (remove_ok l q1 a v q2 H) as (l' & E & R' & _). rewrite E. cbn [bind].
    eexists. eexists. split; [reflexivity|]. split; [exact R'|]. unfold vals. rewrite !map_app. cbn [map].
    rewrite <- (map_length snd q1). now rewrite drop_at_app.
  - unfold first, val_of. rewrite (r_count _ _ H). destruct ps as [|[a v] ps].
    + cbn. eexists. eexists. split; [reflexivity|]. split; [exact H|]. reflexivity.
    + rewrite zlen_cons. pose proof (zlen_nonneg ps). replace (1 + zlen ps =? 0) with false by lia.
      rewrite (r_head _ _ H). cbn [ptr].
      assert (La : In a (live l)) by (apply (addr_live _ _ _ H); now left).
      destruct (Z.eqb_spec a 0) as [->|_]; [exfalso; exact (r_null _ _ H La)|].
      rewrite (ld_ok _ _ La). cbn [bind]. destruct (r_link _ _ H) as (V & _). rewrite V.
      eexists. eexists. split; [reflexivity|]. split; [exact H|]. reflexivity.
  - unfold last, val_of. rewrite (r_count _ _ H). destruct ps as [|[a v] ps] using rev_ind.
    + cbn. eexists. eexists. split; [reflexivity|]. split; [exact H|]. reflexivity.
    + clear IHps. rewrite zlen_app, zlen_cons, zlen_nil. pose proof (zlen_nonneg ps).
      replace (zlen ps + (1 + 0) =? 0) with false by lia. rewrite (ld_ok _ _ (rear_live _ _ H)). cbn [bind].
      pose proof (linked_mid _ _ _ _ _ _ (r_link _ _ H)) as (V & _ & P). cbn [ptr] in P. rewrite P.
      assert (La : In a (live l)) by (apply (addr_live _ _ _ H); rewrite addrs_app; apply in_app_iff; right; now left).
      destruct (Z.eqb_spec a 0) as [->|_]; [exfalso; exact (r_null _ _ H La)|].
      rewrite (ld_ok _ _ La). cbn [bind]. rewrite V.
      eexists. eexists. split; [|split; [exact H|reflexivity]]. unfold last0, vals. rewrite map_app. cbn [map snd].
      now rewrite last_last.
  - rewrite (r_head _ _ H).
    destruct (walk_ok dead ps (S (Z.to_nat (count l))) l [] H) as (l' & E & R').
    { rewrite (r_count _ _ H). unfold zlen. lia. }
    rewrite E. cbn [app] in R'. eexists. eexists. split; [reflexivity|]. split; [exact R'|]. apply (filter_vals (fun v => negb (dead v))).
Qed.

Lemma run_ok os : forall l ps, R l ps -> ops_ok l (vals ps) os ->
  exists l' ps', run l os = Ok (fst (spec_run (vals ps) os), l') /\ R l' ps' /\ vals ps' = snd (spec_run (vals ps) os).
Proof.
  induction os as [|o os IH]; intros l ps H O.
  - cbn. eauto.
  - destruct O as (O1 & O2). cbn [run spec_run]. destruct (step_ok l ps o H O1) as (l1 & p1 & E & R1 & V1). rewrite E.
    cbn [bind]. destruct (spec (vals ps) o) as [out q]. cbn [fst snd] in *.
    specialize (O2 out l1 E). rewrite <- V1 in O2.
    destruct (IH l1 p1 R1 O2) as (l2 & p2 & E2 & R2 & V2). rewrite E2. cbn [bind]. rewrite V1 in *.
    destruct (spec_run q os) as [outs q2]. cbn [fst snd] in *. eauto.
Qed.
