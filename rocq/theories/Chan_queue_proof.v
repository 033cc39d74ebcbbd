(** Proofs about channels: parking, resuming and closing keep the queues in order. *)
From Verif Require Import Base Base_lemmas Zlist Chan_model Chan_spec Chan_proof.
From Coq Require Import Sorting.Sorted.
From Coq Require Import ZifyBool ZifyNat.

Lemma invq_ext st st' : (forall r c, q st' r c = q st r c) -> (forall k, cos st' k = cos st k) -> invq st -> invq st'.
Proof.
  intros Hq Hc [I1 I2 I3 I4].
  assert (forall k w s, busy st' k w s <-> busy st k w s) as B by (intros; unfold busy; now rewrite Hc).
  split.
  - intros r c l Hl. rewrite Hq in Hl. destruct (I1 r c l Hl) as (w & H). exists w. unfold busy in *. now rewrite !Hc.
  - intros r c. rewrite Hq. apply I2.
  - intros k w s i c v Hk Hn. rewrite Hq. apply I3; [now rewrite <- Hc|exact Hn].
  - intros k k' w w' s H1 H2. apply B in H1, H2. eauto.
Qed.

(** *** Parking *)
Fixpoint ents (w : wait) (k : nat) (s : Z) (r : bool) (c i : nat) (cases : list (nat * Z)) : list lk :=
  match cases with
  | [] => []
  | (d, v) :: cases =>
      (if Nat.eqb d c && Bool.eqb (side w i) r then [mk_lk k i (w_sel w) v s] else []) ++ ents w k s r c (S i) cases
  end.
Lemma ents_In w k s r c i cases l :
  In l (ents w k s r c i cases) <->
  exists j v, nth_error cases j = Some (c, v) /\ side w (i + j) = r /\ l = mk_lk k (i + j) (w_sel w) v s.
Proof.
  revert i. induction cases as [|[d x] cases IH]; intros i; cbn [ents].
  - split; [contradiction|]. intros ([|j] & v & H & _); discriminate.
  - rewrite in_app_iff, IH. split.
    + intros [H|(j & v & H1 & H2 & H3)].
      * destruct (Nat.eqb_spec d c) as [->|]; [|contradiction]. destruct (Bool.eqb_spec (side w i) r); [|contradiction].
        destruct H as [<-|[]]. exists 0%nat, x. rewrite Nat.add_0_r. auto.
      * exists (S j), v. rewrite Nat.add_succ_r. auto.
    + intros ([|j] & v & H1 & H2 & H3).
      * injection H1 as -> ->. rewrite Nat.add_0_r in *. left. rewrite Nat.eqb_refl, H2, Bool.eqb_reflx. cbn. auto.
      * right. exists j, v. rewrite Nat.add_succ_r in *. auto.
Qed.
Lemma ents_nodup w k s r c i cases : NoDup (map key (ents w k s r c i cases)).
Proof.
  revert i. induction cases as [|[d x] cases IH]; intros i; cbn [ents]; [constructor|].
  rewrite map_app. destruct (Nat.eqb d c && Bool.eqb (side w i) r); [|apply IH]. cbn. constructor; [|apply IH].
  intros H. apply in_map_iff in H as (l & Hk & Hl). apply ents_In in Hl as (j & v & _ & _ & ->).
  unfold key in Hk. cbn in Hk. injection Hk as Hk. lia.
Qed.

Lemma NoDup_app_intro {A} (a b : list A) : NoDup a -> NoDup b -> (forall x, In x a -> In x b -> False) -> NoDup (a ++ b).
Proof.
  intros Ha Hb Hd. induction a as [|y a IH]; [exact Hb|]. inversion Ha; subst. cbn. constructor.
  - rewrite in_app_iff. intros [H|H]; [auto|]. apply (Hd y); cbn; auto.
  - apply IH; [assumption|]. intros x Hx. apply Hd. cbn. auto.
Qed.

Lemma invq_park st st' k w s :
  invq st -> cos st k = Idle -> (forall j w' s', busy st j w' s' -> s' < s) ->
  (forall r c, q st' r c = q st r c ++ ents w k s r c 0 (w_cases w)) ->
  (forall j, cos st' j = if Nat.eqb j k then Parked w s else cos st j) ->
  invq st'.
Proof.
  intros [I1 I2 I3 I4] Hk Hs Q C.
  assert (forall j w' s', busy st' j w' s' -> (j = k /\ w' = w /\ s' = s) \/ (j <> k /\ busy st j w' s')) as B.
  { intros j w' s' Hb. unfold busy in Hb. rewrite C in Hb. destruct (Nat.eqb_spec j k) as [->|n]; [|right; split; auto].
    left. destruct Hb as [Hb|(i & o & m & Hb)]; inversion Hb. auto. }
  assert (forall r c l, In l (q st r c) -> lk_co l <> k) as Nk.
  { intros r c l Hl Ek. destruct (I1 r c l Hl) as (w' & [Hb|(i & o & m & Hb)] & _); rewrite Ek in Hb; congruence. }
  split.
  - intros r c l Hl. rewrite Q in Hl. apply in_app_or in Hl as [Hl|Hl].
    + destruct (I1 r c l Hl) as (w' & Hw'). exists w'. unfold busy in *. rewrite !C.
      destruct (Nat.eqb_spec (lk_co l) k) as [E|n]; [|exact Hw']. exfalso. eapply Nk; eauto.
    + apply ents_In in Hl as (j & v & Hn & Hr & ->). exists w. cbn [lk_co lk_stamp lk_sel lk_case lk_val Nat.add] in *.
      unfold busy. rewrite !C, Nat.eqb_refl. repeat split; auto; discriminate.
  - intros r c. rewrite Q, map_app. apply NoDup_app_intro; [apply I2|apply ents_nodup|].
    intros x H1 H2. apply in_map_iff in H1 as (l & <- & H1), H2 as (l' & Hkey & H2).
    apply ents_In in H2 as (j & v & _ & _ & ->). unfold key in Hkey. cbn in Hkey. eapply Nk; [exact H1|]. congruence.
  - intros j w' s' i c v Hj Hn. rewrite Q, in_app_iff. rewrite C in Hj. destruct (Nat.eqb_spec j k) as [->|n].
    + injection Hj as <- <-. right. apply ents_In. exists i, v. auto.
    + left. apply I3; auto.
  - intros j j' w1 w2 s' H1 H2. apply B in H1 as [(-> & -> & ->)|[N1 H1]]; apply B in H2 as [(-> & -> & E)|[N2 H2]]; auto.
    + apply Hs in H2. lia.
    + subst s'. apply Hs in H1. lia.
    + eauto.
Qed.

Lemma q_enqueue st k i sends cases w r c : w_sends w = sends -> w_sel w = true ->
  q (enqueue st k i sends cases) r c = q st r c ++ ents w k (clock st) r c i cases.
Proof.
  intros Hw Hs. revert st i. induction cases as [|[d v] cases IH]; intros st i; cbn [enqueue ents].
  - now rewrite app_nil_r.
  - rewrite IH. cbn [clock set_chan]. rewrite app_assoc. f_equal. unfold q. rewrite chans_set_chan.
    rewrite (Nat.eqb_sym d c). destruct (Nat.eqb_spec c d) as [->|n]; cbn [andb]; [|now rewrite app_nil_r].
    unfold side. rewrite Hw, Hs. destruct (Nat.leb sends i), r; cbn; rewrite ?app_nil_r; reflexivity.
Qed.
Lemma enqueue_cos st k i sends cases j : cos (enqueue st k i sends cases) j = cos st j.
Proof. revert st i. induction cases as [|[d v] cases IH]; intros st i; cbn [enqueue]; [reflexivity|]. now rewrite IH. Qed.
Lemma enqueue_log st k i sends cases : log (enqueue st k i sends cases) = log st.
Proof. revert st i. induction cases as [|[d v] cases IH]; intros st i; cbn [enqueue]; [reflexivity|]. now rewrite IH. Qed.
Lemma enqueue_clock st k i sends cases : clock (enqueue st k i sends cases) = clock st.
Proof. revert st i. induction cases as [|[d v] cases IH]; intros st i; cbn [enqueue]; [reflexivity|]. now rewrite IH. Qed.
Definition same_ring (ch ch' : chan) : Prop := buf ch' = buf ch /\ front ch' = front ch /\ rear ch' = rear ch /\ closed ch' = closed ch.
Lemma enqueue_ring st k i sends cases c : same_ring (chans st c) (chans (enqueue st k i sends cases) c).
Proof.
  revert st i. induction cases as [|[d v] cases IH]; intros st i; cbn [enqueue]; [repeat split|].
  specialize (IH (set_chan st d (if Nat.leb sends i then set_recvq (chans st d) (recvq (chans st d) ++ [mk_lk k i true v (clock st)])
       else set_sendq (chans st d) (sendq (chans st d) ++ [mk_lk k i true v (clock st)]))) (S i)).
  unfold same_ring in *. rewrite chans_set_chan in IH. destruct (Nat.eqb_spec c d) as [->|n]; [|exact IH].
  destruct (Nat.leb sends i); exact IH.
Qed.

(** *** Resuming *)
Lemma filter_filter {A} (f g : A -> bool) l : filter f (filter g l) = filter (fun x => g x && f x) l.
Proof. induction l as [|x l IH]; [reflexivity|]. cbn. destruct (g x); cbn; [destruct (f x)|]; now rewrite IH. Qed.
Lemma filter_true {A} (l : list A) : l = filter (fun _ => true) l.
Proof. induction l as [|x l IH]; [reflexivity|]. cbn. now rewrite <- IH. Qed.

Lemma q_dequeue st k i sends win cases r c :
  exists P, q (dequeue st k i sends win cases) r c = filter P (q st r c) /\
  (forall l, lk_co l <> k -> P l = true) /\
  (forall l j v, lk_co l = k -> nth_error cases j = Some (c, v) -> Nat.leb sends (i + j) = r -> (i + j)%nat <> win ->
     lk_case l = (i + j)%nat -> P l = false).
Proof.
  revert st i. induction cases as [|[d v] cases IH]; intros st i; cbn [dequeue].
  - exists (fun _ => true). split; [apply filter_true|]. split; [reflexivity|]. intros l [|j] x _ H; discriminate.
  - match goal with |- context [dequeue ?s k (S i) _ _ _] => destruct (IH s (S i)) as (P & HP & P1 & P2) end.
    set (st1 := if Nat.eqb i win then st else _) in *.
    set (f := fun l => negb (Nat.eqb (lk_co l) k && Nat.eqb (lk_case l) i)).
    assert (q st1 r c = if negb (Nat.eqb i win) && Nat.eqb c d && Bool.eqb (Nat.leb sends i) r then filter f (q st r c) else q st r c) as Q1.
    { unfold st1. destruct (Nat.eqb i win); cbn [negb andb]; [reflexivity|]. unfold q. rewrite chans_set_chan.
      destruct (Nat.eqb_spec c d) as [->|n]; cbn [andb]; [|reflexivity].
      destruct (Nat.leb sends i), r; reflexivity. }
    exists (if negb (Nat.eqb i win) && Nat.eqb c d && Bool.eqb (Nat.leb sends i) r then fun l => f l && P l else P).
    split; [|split].
    + rewrite HP, Q1. destruct (negb (Nat.eqb i win) && Nat.eqb c d && Bool.eqb (Nat.leb sends i) r); [|reflexivity].
      apply filter_filter.
    + intros l Hl. destruct (negb (Nat.eqb i win) && Nat.eqb c d && Bool.eqb (Nat.leb sends i) r); rewrite (P1 l Hl); [|reflexivity].
      unfold f. destruct (Nat.eqb_spec (lk_co l) k); [contradiction|reflexivity].
    + intros l [|j] x Hl Hn Hr Hw Hc.
      * injection Hn as -> ->. rewrite Nat.add_0_r in *.
        destruct (Nat.eqb_spec i win); [contradiction|]. rewrite Nat.eqb_refl, Hr, Bool.eqb_reflx. cbn [negb andb].
        unfold f. rewrite Hl, Hc, !Nat.eqb_refl. reflexivity.
      * rewrite Nat.add_succ_r in *. pose proof (P2 l j x Hl Hn Hr Hw Hc) as E.
        destruct (negb (Nat.eqb i win) && Nat.eqb c d && Bool.eqb (Nat.leb sends i) r); rewrite E; [apply andb_false_r|reflexivity].
Qed.
Lemma dequeue_cos st k i sends win cases j : cos (dequeue st k i sends win cases) j = cos st j.
Proof.
  revert st i. induction cases as [|[d v] cases IH]; intros st i; cbn [dequeue]; [reflexivity|].
  rewrite IH. now destruct (Nat.eqb i win).
Qed.
Lemma dequeue_log st k i sends win cases : log (dequeue st k i sends win cases) = log st.
Proof.
  revert st i. induction cases as [|[d v] cases IH]; intros st i; cbn [dequeue]; [reflexivity|].
  rewrite IH. now destruct (Nat.eqb i win).
Qed.
Lemma dequeue_clock st k i sends win cases : clock (dequeue st k i sends win cases) = clock st.
Proof.
  revert st i. induction cases as [|[d v] cases IH]; intros st i; cbn [dequeue]; [reflexivity|].
  rewrite IH. now destruct (Nat.eqb i win).
Qed.
Lemma dequeue_ring st k i sends win cases c : same_ring (chans st c) (chans (dequeue st k i sends win cases) c).
Proof.
  revert st i. induction cases as [|[d v] cases IH]; intros st i; cbn [dequeue]; [repeat split|].
  match goal with |- context [dequeue ?s k (S i) _ _ _] => specialize (IH s (S i)) end.
  destruct (Nat.eqb i win); [exact IH|]. unfold same_ring in *. rewrite chans_set_chan in IH.
  destruct (Nat.eqb_spec c d) as [->|n]; [|exact IH]. destruct (Nat.leb sends i); exact IH.
Qed.

Lemma NoDup_map_filter {A B} (f : A -> B) (p : A -> bool) l : NoDup (map f l) -> NoDup (map f (filter p l)).
Proof.
  induction l as [|x l IH]; [auto|]. cbn. intros H. inversion H; subst. destruct (p x); cbn; [|auto].
  constructor; [|auto]. intros Hx. apply in_map_iff in Hx as (y & Hy & Hi). apply filter_In in Hi as [Hi _].
  apply H2. rewrite <- Hy. now apply in_map.
Qed.

Lemma invq_leave st st' k w s i ok msg :
  invq st -> cos st k = Woken w s i ok msg ->
  (forall r c, exists P, q st' r c = filter P (q st r c) /\ (forall l, lk_co l <> k -> P l = true)) ->
  (forall r c l, In l (q st' r c) -> lk_co l <> k) ->
  (forall j, cos st' j = if Nat.eqb j k then Idle else cos st j) ->
  invq st'.
Proof.
  intros [I1 I2 I3 I4] Hk Q Nk C.
  assert (forall r c l, In l (q st' r c) -> In l (q st r c)) as Sub.
  { intros r c l Hl. destruct (Q r c) as (P & HP & _). rewrite HP in Hl. now apply filter_In in Hl. }
  split.
  - intros r c l Hl. destruct (I1 r c l (Sub _ _ _ Hl)) as (w' & Hw'). exists w'. unfold busy in *. rewrite !C.
    destruct (Nat.eqb_spec (lk_co l) k) as [E|n]; [|exact Hw']. exfalso. eapply Nk; eauto.
  - intros r c. destruct (Q r c) as (P & -> & _). apply NoDup_map_filter, I2.
  - intros j w' s' i' c v Hj Hn. rewrite C in Hj. destruct (Nat.eqb_spec j k); [discriminate|].
    destruct (Q (side w' i') c) as (P & -> & HP). apply filter_In. split; [apply I3; auto|]. apply HP. exact n.
  - intros j j' w1 w2 s' H1 H2. unfold busy in H1, H2. rewrite C in H1, H2.
    destruct (Nat.eqb_spec j k); [destruct H1 as [H1|(? & ? & ? & H1)]; discriminate|].
    destruct (Nat.eqb_spec j' k); [destruct H2 as [H2|(? & ? & ? & H2)]; discriminate|]. eapply I4; eauto.
Qed.

Lemma resume_ok st k st' o : invq st -> resume st k = Ok (st', o) ->
  invq st' /\ log st' = log st /\ clock st' = clock st /\ (forall c, same_ring (chans st c) (chans st' c)) /\
  (forall r c, exists P, q st' r c = filter P (q st r c)) /\
  ((o = ODisabled /\ st' = st /\ forall w s i ok msg, cos st k <> Woken w s i ok msg) \/
   (forall j, cos st' j = if Nat.eqb j k then Idle else cos st j) /\
   exists w s i ok msg, cos st k = Woken w s i ok msg /\
     o = match w with
         | WSend _ _ => if ok then OSent else OThrow
         | WRecv _ => match ok, msg with true, Some v => OGot v | _, _ => OThrow end
         | WSelect _ _ => OChosen i ok msg
         end).
Proof.
  intros I. unfold resume. destruct (cos st k) as [|w s|w s i ok msg] eqn:Hk.
  1,2: intros E; injection E as <- <-; (split; [exact I|]); (split; [reflexivity|]); (split; [reflexivity|]);
       (split; [intros; repeat split|]); (split; [intros r c; exists (fun _ => true); apply filter_true|]);
       left; repeat split; intros; discriminate.
  assert (forall st1, (forall j, cos st1 j = cos st j) -> log st1 = log st -> clock st1 = clock st ->
          (forall c, same_ring (chans st c) (chans st1 c)) ->
          (forall r c, exists P, q st1 r c = filter P (q st r c) /\ (forall l, lk_co l <> k -> P l = true) /\
             forall l, In l (q st r c) -> lk_co l = k -> P l = false) ->
          invq (set_co st1 k Idle) /\ log (set_co st1 k Idle) = log st /\ clock (set_co st1 k Idle) = clock st /\
          (forall c, same_ring (chans st c) (chans (set_co st1 k Idle) c)) /\
          (forall r c, exists P, q (set_co st1 k Idle) r c = filter P (q st r c)) /\
          (forall j, cos (set_co st1 k Idle) j = if Nat.eqb j k then Idle else cos st j)) as G.
  { intros st1 Hc Hl Hcl Hrg HQ.
    assert (forall j, cos (set_co st1 k Idle) j = if Nat.eqb j k then Idle else cos st j) as C.
    { intros j. rewrite cos_set_co, Hc. reflexivity. }
    split; [|repeat (split; [assumption|]); split; [|exact C]].
    - eapply invq_leave; [exact I|exact Hk| | |exact C].
      + intros r c. destruct (HQ r c) as (P & HP & H1 & H2). exists P. auto.
      + intros r c l Hi Ek. destruct (HQ r c) as (P & HP & H1 & H2). unfold q in Hi, HP. cbn [chans set_co] in Hi.
        rewrite HP in Hi. apply filter_In in Hi as [Hi1 Hi2]. rewrite (H2 l Hi1 Ek) in Hi2. discriminate.
    - intros r c. destruct (HQ r c) as (P & HP & _). exists P. exact HP. }
  destruct w as [c v|c|cases sends].
  1,2: intros E; injection E as <- <-;
    (destruct (G st) as (G1 & G2 & G3 & G4 & G5 & G6); auto;
      [intros; repeat split
      |intros r d; exists (fun l => negb (Nat.eqb (lk_co l) k)); split; [|split];
        [ symmetry; rewrite (filter_true (q st r d)) at 2; apply filter_ext_in; intros l Hl;
          destruct (q_ok _ I _ _ _ Hl) as (w' & Hb & _ & _ & _ & Hp & _);
          destruct (Nat.eqb_spec (lk_co l) k) as [Ek|]; [|reflexivity]; exfalso;
          destruct Hb as [Hb|(? & ? & ? & Hb)]; rewrite Ek, Hk in Hb; inversion Hb; subst w';
          rewrite Ek in Hp; specialize (Hp eq_refl); congruence
        | intros l Hl; destruct (Nat.eqb_spec (lk_co l) k); [contradiction|reflexivity]
        | intros l _ Hl; rewrite Hl, Nat.eqb_refl; reflexivity ]
      |]; split; [exact G1|]; repeat (split; [assumption|]); right; split; [exact G6|];
      do 5 eexists; split; reflexivity).
  intros E. injection E as <- <-.
  destruct (G (dequeue st k 0 sends i cases)) as (G1 & G2 & G3 & G4 & G5 & G6).
  - intros j. apply dequeue_cos.
  - apply dequeue_log.
  - apply dequeue_clock.
  - intros c. apply dequeue_ring.
  - intros r c. destruct (q_dequeue st k 0 sends i cases r c) as (P & HP & P1 & P2). exists P. split; [exact HP|]. split; [exact P1|].
    intros l Hl Ek. destruct (q_ok _ I _ _ _ Hl) as (w' & Hb & _ & Hn & Hr & _ & Hw).
    destruct Hb as [Hb|(? & ? & ? & Hb)]; rewrite Ek, Hk in Hb; inversion Hb; subst.
    rewrite Hk in Hw. specialize (Hw _ _ _ eq_refl). cbn [w_cases] in Hn.
    apply (P2 l (lk_case l) (lk_val l)); cbn [Nat.add]; auto.
  - split; [exact G1|]; repeat (split; [assumption|]). right. split; [exact G6|]. do 5 eexists. split; reflexivity.
Qed.

(** *** Closing *)
Definition with_q (st : state) (c : nat) (r : bool) (x : list lk) : state := set_chan st c (set_q (chans st c) r x).
Lemma q_with_q st c r x r' d : q (with_q st c r x) r' d = if Nat.eqb d c && Bool.eqb r' r then x else q st r' d.
Proof.
  unfold q, with_q. rewrite chans_set_chan. destruct (Nat.eqb_spec d c) as [->|n]; [|reflexivity].
  rewrite qs_set_q. cbn. reflexivity.
Qed.

Lemma close_loop_ok st c r x : invq (with_q st c r x) ->
  exists st', close_loop st x = Ok st' /\ chans st' = chans st /\ log st' = log st /\ clock st' = clock st /\
  invq (with_q st' c r []) /\
  (forall j, cos st' j = cos st j \/
     exists w s i v, cos st j = Parked w s /\ cos st' j = Woken w s i false None /\
       nth_error (w_cases w) i = Some (c, v) /\ side w i = r) /\
  (forall e, In e x -> ~ live st' e).
Proof.
  revert st. induction x as [|e x IH]; intros st I; cbn [close_loop].
  - exists st. repeat (split; [solve [auto]|]). intros e [].
  - assert (entry_ok (with_q st c r (e :: x)) r c e) as He.
    { apply (q_ok _ I). rewrite q_with_q, Nat.eqb_refl, Bool.eqb_reflx. cbn. auto. }
    destruct (lk_sel e && select_done st e) eqn:E.
    + apply andb_true_iff in E as [E1 E2].
      assert (~ live st e) as Nl. { intros (w & s & Hw). unfold select_done in E2. now rewrite Hw in E2. }
      destruct (IH st) as (st' & H1 & H2 & H3 & H4 & H5 & H6 & H7).
      * eapply invq_ext; [| |eapply (invq_drop (with_q st c r (e :: x)) r c (set_q (chans st c) r x) [e] x I)].
        -- intros r' d. rewrite q_with_q. unfold q at 2. rewrite chans_set_chan. unfold with_q, q. rewrite chans_set_chan.
           destruct (Nat.eqb_spec d c) as [->|n]; cbn [andb]; [|reflexivity]. rewrite qs_set_q. reflexivity.
        -- reflexivity.
        -- rewrite q_with_q, Nat.eqb_refl, Bool.eqb_reflx. reflexivity.
        -- constructor; [|constructor]. split; [|exact E1]. exact Nl.
        -- intros r'. rewrite qs_set_q, q_with_q, Nat.eqb_refl. cbn [andb]. destruct (Bool.eqb r' r); reflexivity.
      * exists st'. repeat (split; [solve [auto]|]). intros e' [<-|He']; [|auto].
        intros (w & s & Hw). apply Nl. destruct (H6 (lk_co e)) as [Ec|(w' & s' & i & v & _ & Ec & _)]; rewrite Ec in Hw; [|discriminate].
        exists w, s. exact Hw.
    + assert (lk_sel e = true -> live (with_q st c r (e :: x)) e) as Hl.
      { intros Hs. rewrite Hs in E. cbn in E. unfold select_done in E. unfold live. cbn.
        destruct (cos st (lk_co e)); try discriminate. eauto. }
      destruct (entry_live _ _ _ _ He Hl) as (w & Hw & Hsel & Hn & Hr). cbn in Hw.
      unfold wake. rewrite Hw. cbn [bind].
      set (st1 := set_co st (lk_co e) (Woken w (lk_stamp e) (lk_case e) false None)).
      destruct (IH st1) as (st' & H1 & H2 & H3 & H4 & H5 & H6 & H7).
      * eapply invq_ext; [| |eapply (invq_serve (with_q st c r (e :: x)) r c (set_q (chans st c) r x) [] e x false None w I)].
        -- intros r' d. rewrite q_with_q. unfold q at 2. cbn [chans set_co]. rewrite chans_set_chan. unfold with_q, q, st1. cbn [chans set_co].
           rewrite chans_set_chan.
           destruct (Nat.eqb_spec d c) as [->|n]; cbn [andb]; [|reflexivity]. rewrite qs_set_q. reflexivity.
        -- intros j. reflexivity.
        -- rewrite q_with_q, Nat.eqb_refl, Bool.eqb_reflx. reflexivity.
        -- constructor.
        -- exact Hw.
        -- intros r'. rewrite qs_set_q, q_with_q, Nat.eqb_refl. cbn [andb]. destruct (Bool.eqb r' r); reflexivity.
      * exists st'. repeat (split; [solve [auto]|]). split.
        -- intros j. destruct (Nat.eq_dec j (lk_co e)) as [->|n].
           ++ right. exists w, (lk_stamp e), (lk_case e), (lk_val e). destruct (H6 (lk_co e)) as [Ec|(w' & s' & i & v & Ec & _)].
              ** rewrite Ec. unfold st1. rewrite cos_set_co, Nat.eqb_refl. auto.
              ** unfold st1 in Ec. rewrite cos_set_co, Nat.eqb_refl in Ec. discriminate.
           ++ destruct (H6 j) as [Ec|(w' & s' & i & v & Ec & Ec' & Hi)]; unfold st1 in Ec; rewrite cos_set_co in Ec;
                (destruct (Nat.eqb_spec j (lk_co e)); [contradiction|]); [auto|]. right. exists w', s', i, v. auto.
        -- intros e' [<-|He']; [|auto]. intros (w' & s' & Hw').
           destruct (H6 (lk_co e)) as [Ec|(w'' & s'' & i & v & _ & Ec & _)]; rewrite Ec in Hw'; [|discriminate].
           unfold st1 in Hw'. rewrite cos_set_co, Nat.eqb_refl in Hw'. discriminate.
Qed.

(** the whole of closing *)
Lemma chan_close_ok st c : invq st -> closed (chans st c) = false ->
  exists st', chan_close st c = Ok (st', OClosed) /\ log st' = log st /\ clock st' = clock st /\ invq st' /\
  (forall d, chans st' d = if Nat.eqb d c then set_closed (set_sendq (set_recvq (chans st c) []) []) else chans st d) /\
  (forall j, cos st' j = cos st j \/
     exists w s i v, cos st j = Parked w s /\ cos st' j = Woken w s i false None /\
       nth_error (w_cases w) i = Some (c, v)) /\
  (forall j w s i v, cos st j = Parked w s -> nth_error (w_cases w) i = Some (c, v) ->
     exists i' v', cos st' j = Woken w s i' false None /\ nth_error (w_cases w) i' = Some (c, v')).
Proof.
  intros I Hc. unfold chan_close. rewrite Hc.
  destruct (close_loop_ok st c true (recvq (chans st c))) as (st1 & -> & A2 & A3 & A4 & A5 & A6 & A7).
  { eapply invq_ext; [| |exact I]; [|reflexivity]. intros r d. rewrite q_with_q.
    destruct (Nat.eqb_spec d c) as [->|n]; [|reflexivity]. destruct r; reflexivity. }
  cbn [bind]. set (st1' := with_q st1 c true []) in *.
  (* the second loop runs on st1; the emptied queue makes no difference to it *)
  assert (invq (with_q st1' c false (sendq (chans st c)))) as I2.
  { eapply invq_ext; [| |exact A5]; [|reflexivity]. intros r d. rewrite q_with_q.
    destruct (Nat.eqb_spec d c) as [->|n]; [|reflexivity]. unfold st1'. rewrite q_with_q, Nat.eqb_refl.
    destruct r; cbn; [reflexivity|]. unfold q. rewrite A2. reflexivity. }
  assert (forall x sa sb, (forall j, cos sa j = cos sb j) -> clock sa = clock sb ->
     match close_loop sa x, close_loop sb x with
     | Ok a, Ok b => (forall j, cos a j = cos b j) /\ chans b = chans sb /\ log b = log sb /\ clock b = clock sb
     | Ok _, _ => False | _, _ => True end) as Sim.
  { induction x as [|e x IH]; intros sa sb Hab Hcl; cbn [close_loop]; [auto|].
    unfold select_done, wake. rewrite <- Hab. destruct (cos sa (lk_co e)) as [|w s|w s i o m].
    - destruct (lk_sel e && true); [|exact Logic.I]. now apply IH.
    - rewrite andb_false_r. cbn [bind]. specialize (IH (set_co sa (lk_co e) (Woken w s (lk_case e) false None)) (set_co sb (lk_co e) (Woken w s (lk_case e) false None))).
      apply IH; [|exact Hcl]. intros j. rewrite !cos_set_co, Hab. reflexivity.
    - destruct (lk_sel e && true); [|exact Logic.I]. now apply IH. }
  destruct (close_loop_ok st1' c false (sendq (chans st c)) I2) as (st2 & B1 & B2 & B3 & B4 & B5 & B6 & B7).
  pose proof (Sim (sendq (chans st c)) st1' st1 (fun j => eq_refl) eq_refl) as S. rewrite B1 in S.
  destruct (close_loop st1 (sendq (chans st c))) as [st3| | | | |]; try contradiction. destruct S as (S1 & S2 & S3 & S4).
  cbn [bind]. eexists. split; [reflexivity|]. cbn [log clock set_chan].
  assert (forall j, cos st3 j = cos st j \/
     exists w s i v, cos st j = Parked w s /\ cos st3 j = Woken w s i false None /\ nth_error (w_cases w) i = Some (c, v)) as CC.
  { intros j. rewrite <- S1. destruct (B6 j) as [Eb|(w & s & i & v & Eb & Eb' & Hn & _)].
    - rewrite Eb. change (cos st1' j) with (cos st1 j). destruct (A6 j) as [Ea|(w & s & i & v & Ea & Ea' & Hn & _)]; [auto|].
      right. exists w, s, i, v. auto.
    - right. exists w, s, i, v. change (cos st1' j) with (cos st1 j) in Eb.
      destruct (A6 j) as [Ea|(w' & s' & i' & v' & Ea & Ea' & _)]; [rewrite Ea in Eb; auto|congruence]. }
  repeat (split; [solve [congruence]|]). split; [|split; [|split]].
  - eapply invq_ext; [| |exact B5].
    + intros r d. rewrite q_with_q. unfold q. rewrite chans_set_chan. rewrite B2. unfold st1', with_q. rewrite chans_set_chan.
      rewrite S2, A2. destruct (Nat.eqb_spec d c) as [->|n]; [|reflexivity]. destruct r; reflexivity.
    + intros j. symmetry. apply S1.
  - intros d. rewrite chans_set_chan, S2, A2. reflexivity.
  - exact CC.
  - intros j w s i v Hj Hn. pose proof (q_all _ I _ _ _ _ _ _ Hj Hn) as He.
    assert (~ exists w' s', cos st3 j = Parked w' s') as Nl.
    { rewrite <- S1. destruct (side w i).
      - specialize (A7 _ He). intros (w' & s' & Hp). apply A7. unfold live. cbn.
        destruct (B6 j) as [Eb|(w1 & s1 & i1 & v1 & Eb & Eb' & _)]; [|congruence]. rewrite Eb in Hp. eauto.
      - apply (B7 _ He). }
    cbn [cos]. destruct (CC j) as [E|(w' & s' & i' & v' & E & E' & Hn')].
    + exfalso. apply Nl. rewrite E. eauto.
    + rewrite Hj in E. injection E as <- <-. eauto.
Qed.
