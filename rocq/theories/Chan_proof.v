(** Proofs about channels: the ring and the queues. *)
From Verif Require Import Base Base_lemmas Zlist Chan_model Chan_spec.
From Coq Require Import Sorting.Sorted.
From Coq Require Import ZifyBool ZifyNat.

(** ** The ring *)
Definition ring (ch : chan) (xs : list Z) : Prop :=
  let L := zlen (buf ch) in
  (L = 0 /\ front ch = 0 /\ rear ch = 0 /\ xs = []) \/
  (2 <= L /\ 0 <= front ch < L /\ 0 <= rear ch < L /\ zlen xs = (rear ch - front ch) mod L /\
   forall i, 0 <= i < zlen xs -> znth (buf ch) ((front ch + i) mod L) = znth xs i).

Lemma mod_cases a b L : 0 <= a < L -> 0 <= b < L ->
  (a - b) mod L = if b <=? a then a - b else a - b + L.
Proof.
  intros Ha Hb. destruct (Z.leb_spec b a).
  - apply Z.mod_small. lia.
  - symmetry. apply (Z.mod_unique_pos _ _ (-1)); lia.
Qed.
Lemma mod_next a L : 0 <= a < L -> (a + 1) mod L = if a + 1 =? L then 0 else a + 1.
Proof.
  intros Ha. destruct (Z.eqb_spec (a + 1) L).
  - rewrite e. apply Z.mod_same. lia.
  - apply Z.mod_small. lia.
Qed.
Lemma mod_wrap a i L : 0 <= a < L -> 0 <= i <= L -> (a + i) mod L = if a + i <? L then a + i else a + i - L.
Proof.
  intros Ha Hi. destruct (Z.ltb_spec (a + i) L).
  - apply Z.mod_small. lia.
  - symmetry. apply (Z.mod_unique_pos _ _ 1); lia.
Qed.

Lemma ring_empty ch xs : ring ch xs -> buf_empty ch = (zlen xs =? 0).
Proof.
  unfold ring, buf_empty. intros [(HL & -> & -> & ->)|(HL & Hf & Hr & Hx & _)]; [reflexivity|].
  rewrite Hx, mod_cases by lia. destruct (Z.leb_spec (front ch) (rear ch)); lia.
Qed.
Lemma ring_full ch xs : ring ch xs -> buf_full ch = (zlen xs =? Z.max 0 (zlen (buf ch) - 1)).
Proof.
  unfold ring, buf_full. intros [(HL & _ & _ & ->)|(HL & Hf & Hr & Hx & _)].
  - rewrite HL. reflexivity.
  - destruct (Z.eqb_spec (zlen (buf ch)) 0); [lia|]. rewrite Hx, mod_cases, mod_next by lia.
    destruct (Z.leb_spec (front ch) (rear ch)), (Z.eqb_spec (rear ch + 1) (zlen (buf ch))); lia.
Qed.
Lemma ring_len ch xs : ring ch xs -> zlen xs <= Z.max 0 (zlen (buf ch) - 1).
Proof.
  unfold ring. intros [(HL & _ & _ & ->)|(HL & Hf & Hr & Hx & _)].
  - rewrite HL, zlen_nil. lia.
  - rewrite Hx. pose proof (Z.mod_pos_bound (rear ch - front ch) (zlen (buf ch))). lia.
Qed.
Lemma ring_pop ch x xs : ring ch (x :: xs) ->
  exists f, buf_pop ch = Ok (set_ring ch (buf ch) f (rear ch), x) /\ ring (set_ring ch (buf ch) f (rear ch)) xs.
Proof.
  intros H. pose proof (ring_empty _ _ H) as E. rewrite zlen_cons in E. pose proof (zlen_nonneg xs) as Hxs.
  destruct H as [(HL & _ & _ & HX)|(HL & Hf & Hr & Hx & Hi)]; [discriminate|].
  exists ((front ch + 1) mod zlen (buf ch)). unfold buf_pop. rewrite E.
  replace (1 + zlen xs =? 0) with false by lia.
  rewrite zlen_cons in Hx. pose proof (Hi 0) as H0. rewrite zlen_cons, Z.add_0_r, Z.mod_small, znth_cons_0 in H0 by lia.
  rewrite (znth_at _ _ _ (H0 ltac:(lia))). cbn [bind]. unfold capacity. replace (zlen (buf ch) =? 0) with false by lia.
  split; [reflexivity|]. right. cbn [buf front rear set_ring].
  split; [lia|]. rewrite mod_cases in Hx by lia. rewrite mod_next by lia.
  destruct (Z.eqb_spec (front ch + 1) (zlen (buf ch))) as [e|n].
  - split; [lia|]. split; [lia|]. split.
    + rewrite mod_cases by lia. destruct (Z.leb_spec (front ch) (rear ch)), (Z.leb_spec 0 (rear ch)); lia.
    + intros i Hi'. specialize (Hi (1 + i)). rewrite zlen_cons in Hi. rewrite znth_cons in Hi by lia.
      replace (1 + i - 1) with i in Hi by lia. rewrite <- Hi by lia. f_equal.
      replace (front ch + (1 + i)) with (0 + i + 1 * zlen (buf ch)) by lia. now rewrite Z.mod_add by lia.
  - split; [lia|]. split; [lia|]. split.
    + rewrite mod_cases by lia. destruct (Z.leb_spec (front ch) (rear ch)), (Z.leb_spec (front ch + 1) (rear ch)); lia.
    + intros i Hi'. specialize (Hi (1 + i)). rewrite zlen_cons in Hi. rewrite znth_cons in Hi by lia.
      replace (1 + i - 1) with i in Hi by lia. rewrite <- Hi by lia. f_equal. f_equal. lia.
Qed.
Lemma ring_push ch xs v : ring ch xs -> buf_full ch = false ->
  exists b r, buf_push ch v = Ok (set_ring ch b (front ch) r) /\ zlen b = zlen (buf ch) /\
  ring (set_ring ch b (front ch) r) (xs ++ [v]).
Proof.
  intros H E. pose proof (ring_full _ _ H) as F. rewrite E in F.
  destruct H as [(HL & _ & _ & ->)|(HL & Hf & Hr & Hx & Hi)].
  { rewrite HL, zlen_nil in F. cbn in F. discriminate. }
  exists (list_set (buf ch) (Z.to_nat (rear ch)) v), ((rear ch + 1) mod zlen (buf ch)).
  unfold buf_push. rewrite E. unfold set_at. replace ((0 <=? rear ch) && (rear ch <? zlen (buf ch))) with true by lia.
  cbn [bind]. split; [reflexivity|]. rewrite zlen_list_set. split; [reflexivity|].
  right. cbn [buf front rear set_ring]. rewrite zlen_list_set.
  split; [lia|]. split; [lia|]. rewrite mod_cases in Hx by lia. split; [apply Z.mod_pos_bound; lia|].
  rewrite zlen_app, zlen_cons, zlen_nil.
  assert (zlen xs < zlen (buf ch) - 1) as Hlt. { destruct (Z.leb_spec (front ch) (rear ch)); lia. }
  pose proof (zlen_nonneg xs) as Hxs. split.
  - rewrite mod_next by lia. destruct (Z.eqb_spec (rear ch + 1) (zlen (buf ch))) as [e|n]; rewrite mod_cases by lia.
    + destruct (Z.leb_spec (front ch) (rear ch)), (Z.leb_spec (front ch) 0); lia.
    + destruct (Z.leb_spec (front ch) (rear ch)), (Z.leb_spec (front ch) (rear ch + 1)); lia.
  - intros i Hi'. rewrite znth_list_set_z by lia. rewrite mod_wrap by lia.
    destruct (Z.eq_dec i (zlen xs)) as [->|Hn].
    + rewrite znth_app_r by lia. rewrite Z.sub_diag, znth_cons_0.
      destruct (Z.ltb_spec (front ch + zlen xs) (zlen (buf ch))), (Z.leb_spec (front ch) (rear ch)); try lia.
      * now replace (front ch + zlen xs =? rear ch) with true by lia.
      * now replace (front ch + zlen xs - zlen (buf ch) =? rear ch) with true by lia.
    + rewrite znth_app_l by lia. rewrite <- Hi by lia. rewrite mod_wrap by lia.
      destruct (Z.ltb_spec (front ch + i) (zlen (buf ch))), (Z.leb_spec (front ch) (rear ch)); try lia.
      * now replace (front ch + i =? rear ch) with false by lia.
      * now replace (front ch + i =? rear ch) with false by lia.
      * now replace (front ch + i - zlen (buf ch) =? rear ch) with false by lia.
Qed.
Lemma ring_new n : ring (chan_new n) [] /\ Z.max 0 (zlen (buf (chan_new n)) - 1) = Z.max 0 n.
Proof.
  unfold chan_new, ring. cbn [buf front rear]. destruct (Z.ltb_spec 0 n).
  - rewrite zlen_repeat, Z2Nat.id by lia. split; [|lia]. right. rewrite zlen_nil.
    repeat split; lia.
  - cbn. split; [|lia]. left. auto.
Qed.

(** ** The queues *)
Definition w_cases (w : wait) : list (nat * Z) := match w with WSend c v => [(c, v)] | WRecv c => [(c, 0)] | WSelect cs _ => cs end.
Definition w_sends (w : wait) : nat := match w with WSend _ _ => 1%nat | WRecv _ => 0%nat | WSelect _ n => n end.
Definition w_sel (w : wait) : bool := match w with WSelect _ _ => true | _ => false end.
(** true: case i receives *)
Definition side (w : wait) (i : nat) : bool := Nat.leb (w_sends w) i.
Definition qs (ch : chan) (r : bool) : list lk := if r then recvq ch else sendq ch.
Definition q (st : state) (r : bool) (c : nat) : list lk := qs (chans st c) r.
Definition set_q (ch : chan) (r : bool) (x : list lk) : chan := if r then set_recvq ch x else set_sendq ch x.

Definition busy (st : state) (k : nat) (w : wait) (s : Z) : Prop :=
  cos st k = Parked w s \/ exists i ok msg, cos st k = Woken w s i ok msg.
Definition live (st : state) (l : lk) : Prop := exists w s, cos st (lk_co l) = Parked w s.
Definition key (l : lk) : nat * nat := (lk_co l, lk_case l).

Definition entry_ok (st : state) (r : bool) (c : nat) (l : lk) : Prop :=
  exists w, busy st (lk_co l) w (lk_stamp l) /\ lk_sel l = w_sel w /\
    nth_error (w_cases w) (lk_case l) = Some (c, lk_val l) /\ side w (lk_case l) = r /\
    (w_sel w = false -> cos st (lk_co l) = Parked w (lk_stamp l)) /\
    (forall i ok msg, cos st (lk_co l) = Woken w (lk_stamp l) i ok msg -> lk_case l <> i).

Record invq (st : state) : Prop := {
  q_ok : forall r c l, In l (q st r c) -> entry_ok st r c l;
  q_nodup : forall r c, NoDup (map key (q st r c));
  q_all : forall k w s i c v, cos st k = Parked w s -> nth_error (w_cases w) i = Some (c, v) ->
    In (mk_lk k i (w_sel w) v s) (q st (side w i) c);
  q_uniq : forall k k' w w' s, busy st k w s -> busy st k' w' s -> k = k';
}.

Lemma busy_fun st k w w' s s' : busy st k w s -> busy st k w' s' -> w = w' /\ s = s'.
Proof. intros [H|(i & ok & m & H)] [H'|(i' & ok' & m' & H')]; rewrite H in H'; inversion H'; auto. Qed.

Lemma qs_set_q ch r x r' : qs (set_q ch r x) r' = if Bool.eqb r' r then x else qs ch r'.
Proof. destruct r, r'; reflexivity. Qed.

Lemma waitq_pop_spec st x l x' : waitq_pop st x = (l, x') ->
  exists stale, Forall (fun e => ~ live st e /\ lk_sel e = true) stale /\
  match l with
  | Some l => x = stale ++ l :: x' /\ (lk_sel l = true -> live st l)
  | None => x = stale /\ x' = []
  end.
Proof.
  revert l x'. induction x as [|e x IH]; intros l x' H; cbn [waitq_pop] in H.
  - injection H as <- <-. exists []. auto.
  - destruct (lk_sel e && select_done st e) eqn:E.
    + destruct (IH _ _ H) as (stale & Hs & Hl). exists (e :: stale). split.
      * constructor; [|exact Hs]. apply andb_true_iff in E as [E1 E2]. split; [|exact E1].
        intros (w & s & Hw). unfold select_done in E2. now rewrite Hw in E2.
      * destruct l; cbn; destruct Hl as [-> Hl]; auto.
    + injection H as <- <-. exists []. split; [constructor|]. split; [reflexivity|].
      intros Hsel. rewrite Hsel in E. cbn in E. unfold select_done in E. unfold live.
      destruct (cos st (lk_co e)); try discriminate. eauto.
Qed.

(** an entry of a queue whose select is not done, or that is not of a select, is live *)
Lemma entry_live st r c l : entry_ok st r c l -> (lk_sel l = true -> live st l) ->
  exists w, cos st (lk_co l) = Parked w (lk_stamp l) /\ lk_sel l = w_sel w /\
    nth_error (w_cases w) (lk_case l) = Some (c, lk_val l) /\ side w (lk_case l) = r.
Proof.
  intros (w & Hb & Hs & Hn & Hr & Hp & _) Hl. exists w. repeat split; auto.
  destruct (w_sel w) eqn:E; [|auto]. destruct (Hl Hs) as (w' & s' & Hw').
  destruct Hb as [Hb|(i & ok & m & Hb)]; [exact Hb|congruence].
Qed.

Lemma cos_set_co st k x j : cos (set_co st k x) j = if Nat.eqb j k then x else cos st j.
Proof. reflexivity. Qed.
Lemma chans_set_chan st c ch d : chans (set_chan st c ch) d = if Nat.eqb d c then ch else chans st d.
Proof. reflexivity. Qed.

(** *** Stale entries leave a queue *)
Lemma NoDup_app_r {A} (a b : list A) : NoDup (a ++ b) -> NoDup b.
Proof. induction a; [auto|]. inversion 1. auto. Qed.

Lemma invq_drop st r c ch stale x :
  invq st -> q st r c = stale ++ x -> Forall (fun e => ~ live st e /\ lk_sel e = true) stale ->
  (forall r', qs ch r' = if Bool.eqb r' r then x else q st r' c) ->
  invq (set_chan st c ch).
Proof.
  intros I Hq Hs Hch. destruct I as [I1 I2 I3 I4].
  assert (forall r' d, q (set_chan st c ch) r' d = if Nat.eqb d c && Bool.eqb r' r then x else q st r' d) as Q.
  { intros r' d. unfold q at 1. rewrite chans_set_chan. destruct (Nat.eqb_spec d c) as [->|n]; [|reflexivity].
    rewrite Hch. reflexivity. }
  split.
  - intros r' d l Hl. rewrite Q in Hl. apply I1. destruct (Nat.eqb_spec d c) as [->|n]; [|exact Hl].
    destruct (Bool.eqb_spec r' r) as [->|n]; cbn in Hl; [|exact Hl]. rewrite Hq. apply in_or_app. auto.
  - intros r' d. rewrite Q. specialize (I2 r' d). destruct (Nat.eqb_spec d c) as [->|n]; [|exact I2].
    destruct (Bool.eqb_spec r' r) as [->|n]; cbn; [|exact I2]. rewrite Hq, map_app in I2. eapply NoDup_app_r; eauto.
  - intros k w s i d v Hp Hn. specialize (I3 k w s i d v Hp Hn). rewrite Q.
    destruct (Nat.eqb_spec d c) as [->|n]; [|exact I3].
    destruct (Bool.eqb_spec (side w i) r) as [Er|n]; cbn; [|exact I3]. rewrite Er, Hq in I3.
    apply in_app_or in I3 as [I3|I3]; [|exact I3]. rewrite Forall_forall in Hs. apply Hs in I3 as [I3 _].
    exfalso. apply I3. unfold live. cbn. eauto.
  - exact I4.
Qed.

(** *** A waiter is served *)
Lemma invq_serve st r c ch stale l x ok msg w :
  invq st -> q st r c = stale ++ l :: x -> Forall (fun e => ~ live st e /\ lk_sel e = true) stale ->
  cos st (lk_co l) = Parked w (lk_stamp l) -> 
  (forall r', qs ch r' = if Bool.eqb r' r then x else q st r' c) ->
  invq (set_co (set_chan st c ch) (lk_co l) (Woken w (lk_stamp l) (lk_case l) ok msg)).
Proof.
  intros I Hq Hs Hp Hch. pose proof I as [I1 I2 I3 I4].
  set (st' := set_co _ _ _).
  assert (forall r' d, q st' r' d = if Nat.eqb d c && Bool.eqb r' r then x else q st r' d) as Q.
  { intros r' d. unfold q at 1, st'. cbn [chans set_co]. rewrite chans_set_chan.
    destruct (Nat.eqb_spec d c) as [->|n]; [|reflexivity]. rewrite Hch. reflexivity. }
  assert (forall j, cos st' j = if Nat.eqb j (lk_co l) then Woken w (lk_stamp l) (lk_case l) ok msg else cos st j) as C by reflexivity.
  assert (forall r' d e, In e (q st' r' d) -> In e (q st r' d)) as Sub.
  { intros r' d e He. rewrite Q in He. destruct (Nat.eqb_spec d c) as [->|n]; [|exact He].
    destruct (Bool.eqb_spec r' r) as [->|n]; cbn in He; [|exact He]. rewrite Hq. apply in_or_app. cbn. auto. }
  assert (In l (q st r c)) as Hl by (rewrite Hq; apply in_or_app; cbn; auto).
  assert (forall j w' s', busy st' j w' s' -> busy st j w' s') as Bu.
  { intros j w' s' Hb. unfold busy in *. rewrite C in Hb. destruct (Nat.eqb_spec j (lk_co l)) as [->|n]; [|exact Hb].
    destruct Hb as [Hb|(i & o & m & Hb)]; [discriminate|]. injection Hb as <- <- _ _ _. auto. }
  assert (NoDup (map key (q st r c))) as ND by apply I2. rewrite Hq, map_app in ND. cbn [map] in ND.
  apply NoDup_remove in ND as [_ ND].
  split.
  - intros r' d e He. destruct (I1 r' d e (Sub _ _ _ He)) as (w' & Hb & Hsel & Hn & Hr & Hns & Hwk).
    exists w'. destruct (Nat.eq_dec (lk_co e) (lk_co l)) as [Ec|Nc].
    2: { unfold busy. rewrite C. destruct (Nat.eqb_spec (lk_co e) (lk_co l)); [contradiction|]. repeat split; auto. }
    assert (w' = w /\ lk_stamp e = lk_stamp l) as [-> Es].
    { apply (busy_fun st (lk_co e)); [exact Hb|]. rewrite Ec. left. exact Hp. }
    (* e is another entry of the same coroutine *)
    assert (lk_case e <> lk_case l) as Nk.
    { intros Ek. destruct (I1 r c l Hl) as (w' & Hb' & _ & Hn' & Hr' & _).
      assert (w' = w) as -> by (eapply busy_fun; [exact Hb'|left; exact Hp]).
      rewrite Ek in Hn, Hr. assert (d = c) as -> by congruence. assert (r' = r) as -> by congruence.
      rewrite Q, Nat.eqb_refl, Bool.eqb_reflx in He. cbn in He. apply ND. apply in_or_app. right.
      apply in_map_iff. exists e. split; [|exact He]. unfold key. congruence. }
    assert (w_sel w = true) as Sel.
    { destruct (I1 r c l Hl) as (w' & Hb' & _ & Hn' & _).
      assert (w' = w) as -> by (eapply busy_fun; [exact Hb'|left; exact Hp]).
      destruct w; [| |reflexivity]; cbn in Hn, Hn';
        destruct (lk_case e), (lk_case l); cbn in Hn, Hn'; try congruence;
        (destruct n; discriminate || destruct n0; discriminate). }
    unfold busy. rewrite C. rewrite Ec, Nat.eqb_refl. rewrite Es.
    split; [right; eauto|]. repeat split; auto.
    + rewrite Sel. discriminate.
    + intros i o m Hw. injection Hw as <- _ _. exact Nk.
  - intros r' d. rewrite Q. specialize (I2 r' d). destruct (Nat.eqb_spec d c) as [->|n]; [|exact I2].
    destruct (Bool.eqb_spec r' r) as [->|n]; cbn; [|exact I2]. rewrite Hq, map_app in I2. cbn in I2.
    apply NoDup_app_r in I2. now inversion I2.
  - intros k w' s i d v Hk Hn. rewrite C in Hk. destruct (Nat.eqb_spec k (lk_co l)) as [->|nk]; [discriminate|].
    specialize (I3 k w' s i d v Hk Hn). rewrite Q.
    destruct (Nat.eqb_spec d c) as [->|n]; [|exact I3].
    destruct (Bool.eqb_spec (side w' i) r) as [Er|n]; cbn; [|exact I3]. rewrite Er, Hq in I3.
    apply in_app_or in I3 as [I3|[I3|I3]]; [|subst l; cbn in nk; congruence|exact I3].
    rewrite Forall_forall in Hs. apply Hs in I3 as [I3 _]. exfalso. apply I3. unfold live. cbn. eauto.
  - intros k k' w1 w2 s H1 H2. eapply I4; eauto.
Qed.
