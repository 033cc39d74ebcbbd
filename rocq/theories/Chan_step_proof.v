(** Proofs about channels: every operation keeps the invariant. *)
From Verif Require Import Base Base_lemmas Zlist Chan_model Chan_spec Chan_proof Chan_queue_proof.
From Coq Require Import Sorting.Sorted.
From Coq Require Import ZifyBool ZifyNat.

(** ** Events *)
Definition ev (r : bool) (c : nat) (es : list event) : list (Z * Z) := if r then received c es else accepted c es.
Lemma ev_app r c a b : ev r c (a ++ b) = ev r c a ++ ev r c b.
Proof. destruct r; apply flat_map_app. Qed.
Definition ev_stamp (e : event) : Z := match e with Accepted _ _ s | Received _ _ s => s end.
(** the events of the call made at time s *)
Definition evs (s : Z) (es : list event) : list event := filter (fun e => ev_stamp e =? s) es.
Lemma evs_app s a b : evs s (a ++ b) = evs s a ++ evs s b.
Proof. apply filter_app. Qed.

(** what a woken call will report *)
Definition wexp (s : Z) (w : wait) (i : nat) (ok : bool) (msg : option Z) : list event :=
  if ok then
    match nth_error (w_cases w) i with
    | Some (c, v) => if side w i then match msg with Some x => [Received c x s] | None => [] end else [Accepted c v s]
    | None => []
    end
  else [].

Lemma increasing_snoc l t : increasing (map fst l) -> (forall s (v : Z), In (s, v) l -> s < t) -> forall v, increasing (map fst (l ++ [(t, v)])).
Proof.
  induction l as [|[s x] l IH]; cbn; intros H Hl v; [auto|]. destruct H as [H1 H2]. split.
  - rewrite map_app. apply Forall_app. split; [exact H1|]. constructor; [|constructor]. cbn. eapply Hl. eauto.
  - apply IH; [exact H2|]. intros s' v' Hs. eapply Hl. eauto.
Qed.

Record invb (caps : nat -> Z) (st : state) : Prop := {
  b_ring : forall c, exists xs, ring (chans st c) xs /\ map snd (ev false c (log st)) = map snd (ev true c (log st)) ++ xs;
  b_len : forall c, Z.max 0 (zlen (buf (chans st c)) - 1) = Z.max 0 (caps c);
  b_empty : forall c l, In l (q st true c) -> live st l -> buf_empty (chans st c) = true;
  b_full : forall c l, In l (q st false c) -> live st l -> buf_full (chans st c) = true;
  b_same : forall r c l1 l2, In l1 (q st r c) -> In l2 (q st (negb r) c) -> live st l1 -> live st l2 -> lk_co l1 = lk_co l2;
  b_closed : forall r c, closed (chans st c) = true -> q st r c = [];
  b_sorted : forall r c, increasing (map fst (ev r c (log st)));
  b_qsorted : forall r c, StronglySorted (fun a b => lk_stamp a <= lk_stamp b) (q st r c);
  b_later : forall r c l t v, In l (q st r c) -> live st l -> In (t, v) (ev r c (log st)) -> t < lk_stamp l;
  b_le : forall e, In e (log st) -> ev_stamp e <= clock st;
  b_busy : forall k w s, busy st k w s -> s <= clock st;
}.

Definition fresh (st : state) : Prop :=
  (forall e, In e (log st) -> ev_stamp e < clock st) /\ (forall k w s, busy st k w s -> s < clock st).

Lemma ev_In r c es t v : In (t, v) (ev r c es) -> exists e, In e es /\ ev_stamp e = t.
Proof.
  destruct r; cbn [ev]; intros H; apply in_flat_map in H as (e & He & H); exists e; (split; [exact He|]);
    destruct e as [d x s|d x s]; try contradiction; destruct (Nat.eqb d c); try contradiction; destruct H as [H|[]]; injection H as <- _; reflexivity.
Qed.

(** *** Only queues shrink *)
Lemma invb_sub caps st st' :
  invb caps st -> log st' = log st -> clock st <= clock st' ->
  (forall c, same_ring (chans st c) (chans st' c)) ->
  (forall r c l, In l (q st' r c) -> In l (q st r c)) ->
  (forall r c, StronglySorted (fun a b => lk_stamp a <= lk_stamp b) (q st' r c)) ->
  (forall r c, q st r c = [] -> q st' r c = []) ->
  (forall l, live st' l -> live st l) ->
  (forall k w s, busy st' k w s -> busy st k w s) ->
  invb caps st'.
Proof.
  intros [B1 B2 B3 B4 B5 B6 B7 B8 B9 B10 B11] Hl Hc Hr Hq Hs Hn Hv Hb.
  assert (forall c, buf_empty (chans st' c) = buf_empty (chans st c)) as Ee.
  { intros c. destruct (Hr c) as (_ & E2 & E3 & _). unfold buf_empty. congruence. }
  assert (forall c, buf_full (chans st' c) = buf_full (chans st c)) as Ef.
  { intros c. destruct (Hr c) as (E1 & E2 & E3 & _). unfold buf_full. now rewrite E1, E2, E3. }
  split.
  - intros c. destruct (B1 c) as (xs & X1 & X2). exists xs. rewrite Hl. split; [|exact X2].
    destruct (Hr c) as (E1 & E2 & E3 & _). unfold ring in *. now rewrite E1, E2, E3.
  - intros c. destruct (Hr c) as (E1 & _). rewrite E1. apply B2.
  - intros c l H1 H2. rewrite Ee. eauto.
  - intros c l H1 H2. rewrite Ef. eauto.
  - intros r c l1 l2 H1 H2 H3 H4. eapply B5; eauto.
  - intros r c H. apply Hn, B6. destruct (Hr c) as (_ & _ & _ & E). congruence.
  - intros r c. rewrite Hl. apply B7.
  - exact Hs.
  - intros r c l t v H1 H2 H3. rewrite Hl in H3. eauto.
  - intros e He. rewrite Hl in He. apply B10 in He. lia.
  - intros k w s H. apply Hb, B11 in H. lia.
Qed.

Lemma StronglySorted_app_r {A} (R : A -> A -> Prop) a b : StronglySorted R (a ++ b) -> StronglySorted R b.
Proof. induction a; [auto|]. inversion 1. auto. Qed.
Lemma StronglySorted_filter {A} (R : A -> A -> Prop) p l : StronglySorted R l -> StronglySorted R (filter p l).
Proof.
  induction 1 as [|x l Hl IH Hx]; cbn; [constructor|]. destruct (p x); [|exact IH]. constructor; [exact IH|].
  rewrite Forall_forall in *. intros y Hy. apply filter_In in Hy as [Hy _]. auto.
Qed.

(** *** Dropping stale entries *)
Record dropped (caps : nat -> Z) (st st' : state) : Prop := {
  d_invq : invq st'; d_invb : invb caps st';
  d_log : log st' = log st; d_clock : clock st' = clock st; d_cos : forall j, cos st' j = cos st j;
  d_ring : forall c, same_ring (chans st c) (chans st' c);
  d_nil : forall r c, q st r c = [] -> q st' r c = [];
  d_in : forall r c l, In l (q st' r c) -> In l (q st r c);
}.
Lemma dropped_refl caps st : invq st -> invb caps st -> dropped caps st st.
Proof. intros I B. split; auto. intros; repeat split. Qed.
Lemma dropped_trans caps a b c : dropped caps a b -> dropped caps b c -> dropped caps a c.
Proof.
  intros [A1 A2 A3 A4 A5 A6 A7 A8] [B1 B2 B3 B4 B5 B6 B7 B8]. split; auto; try congruence.
  - intros d. destruct (A6 d) as (?&?&?&?), (B6 d) as (?&?&?&?). repeat split; congruence.
Qed.
Lemma dropped_fresh caps a b : dropped caps a b -> fresh a -> fresh b.
Proof.
  intros D [F1 F2]. destruct D as [_ _ A3 A4 A5 _ _ _]. split.
  - intros e He. rewrite A3 in He. rewrite A4. auto.
  - intros k w s Hb. rewrite A4. eapply F2. unfold busy in *. rewrite <- A5. eauto.
Qed.

Lemma same_ring_refl ch : same_ring ch ch.
Proof. repeat split. Qed.

Lemma pop_none caps st r c : invq st -> invb caps st ->
  forall x, waitq_pop st (q st r c) = (None, x) ->
  let st' := set_chan st c (set_q (chans st c) r x) in
  dropped caps st st' /\ q st' r c = [] /\ x = [].
Proof.
  intros I B x H. cbn zeta. apply waitq_pop_spec in H as (stale & Hs & Hq & ->).
  assert (forall r' d, q (set_chan st c (set_q (chans st c) r [])) r' d = if Nat.eqb d c && Bool.eqb r' r then [] else q st r' d) as Q
    by (intros; apply (q_with_q st c r [])).
  split; [|split; [|reflexivity]].
  2: { rewrite Q, Nat.eqb_refl, Bool.eqb_reflx. reflexivity. }
  assert (invq (set_chan st c (set_q (chans st c) r []))) as I'.
  { eapply (invq_drop st r c _ stale []); [exact I|now rewrite app_nil_r|exact Hs|].
    intros r'. rewrite qs_set_q. reflexivity. }
  assert (forall d, same_ring (chans st d) (chans (set_chan st c (set_q (chans st c) r [])) d)) as SR.
  { intros d. rewrite chans_set_chan. destruct (Nat.eqb_spec d c) as [->|n]; [|apply same_ring_refl]. destruct r; repeat split. }
  assert (forall r0 c0 l, In l (q (set_chan st c (set_q (chans st c) r [])) r0 c0) -> In l (q st r0 c0)) as Sub.
  { intros r0 c0 l Hl. rewrite Q in Hl. destruct (Nat.eqb c0 c && Bool.eqb r0 r); [contradiction|exact Hl]. }
  assert (forall r0 c0, q st r0 c0 = [] -> q (set_chan st c (set_q (chans st c) r [])) r0 c0 = []) as Nil.
  { intros r0 c0 E. rewrite Q. destruct (Nat.eqb c0 c && Bool.eqb r0 r); auto. }
  split; auto.
  eapply invb_sub; [exact B|reflexivity|cbn; lia|exact SR|exact Sub| |exact Nil|auto|auto].
  intros r0 c0. rewrite Q. destruct (Nat.eqb c0 c && Bool.eqb r0 r); [constructor|apply (b_qsorted _ _ B)].
Qed.

(** *** Effects on the log and on other coroutines *)
Record eff (st st' : state) (mine : list event) : Prop := {
  e_clock : clock st' = clock st;
  e_es : exists es, log st' = log st ++ es /\ evs (clock st) es = mine /\
    (forall e, In e es -> ev_stamp e = clock st \/ exists j w, cos st j = Parked w (ev_stamp e)) /\
    forall j, (cos st' j = cos st j /\ forall w s, busy st j w s -> evs s es = []) \/
      (exists w s i ok msg, cos st j = Parked w s /\ cos st' j = Woken w s i ok msg /\
         nth_error (w_cases w) i <> None /\ evs s es = wexp s w i ok msg);
}.
Lemma eff_none st st' : clock st' = clock st -> log st' = log st -> (forall j, cos st' j = cos st j) -> eff st st' [].
Proof.
  intros H1 H2 H3. split; [exact H1|]. exists []. rewrite app_nil_r. split; [exact H2|]. split; [reflexivity|].
  split; [contradiction|]. intros j. left. auto.
Qed.
Lemma eff_after caps a b c mine : dropped caps a b -> eff b c mine -> eff a c mine.
Proof.
  intros D [E1 (es & E2 & E3 & E4 & E5)]. destruct D as [_ _ D3 D4 D5 _ _ _]. split; [congruence|].
  exists es. rewrite D3, D4 in *. split; [exact E2|]. split; [exact E3|]. split.
  - intros e He. destruct (E4 e He) as [H|(j & w & H)]; [auto|]. rewrite D5 in H. eauto.
  - intros j. destruct (E5 j) as [[H H']|(w & s & i & ok & msg & H)].
    + left. rewrite D5 in H. split; [exact H|]. intros w s Hb. apply (H' w s). unfold busy in *. rewrite D5. exact Hb.
    + right. exists w, s, i, ok, msg. rewrite D5 in H. exact H.
Qed.

(** *** A waiter is served *)
Definition es_of (r : bool) (c : nat) (v t : Z) : event := if r then Received c v t else Accepted c v t.
Lemma ev_one r c v t r' d : ev r' d [es_of r c v t] = if Nat.eqb d c && Bool.eqb r' r then [(t, v)] else [].
Proof. destruct r, r'; cbn; rewrite ?(Nat.eqb_sym c d); destruct (Nat.eqb d c); reflexivity. Qed.

Lemma ev_two r c vl t v now r' d es :
  (es = [es_of r c vl t; es_of (negb r) c v now] \/ es = [es_of (negb r) c v now; es_of r c vl t]) ->
  ev r' d es = if Nat.eqb d c then if Bool.eqb r' r then [(t, vl)] else [(now, v)] else [].
Proof.
  intros [->| ->]; destruct r, r'; cbn; rewrite ?(Nat.eqb_sym c d); destruct (Nat.eqb d c); reflexivity.
Qed.

Lemma serve_ok caps st r c ch l x vl v w msg es stale :
  invq st -> invb caps st -> fresh st ->
  q st r c = stale ++ l :: x -> Forall (fun e => ~ live st e /\ lk_sel e = true) stale ->
  cos st (lk_co l) = Parked w (lk_stamp l) ->
  nth_error (w_cases w) (lk_case l) = Some (c, lk_val l) -> side w (lk_case l) = r ->
  (forall r', qs ch r' = if Bool.eqb r' r then x else q st r' c) ->
  closed ch = closed (chans st c) -> zlen (buf ch) = zlen (buf (chans st c)) ->
  buf_empty ch = buf_empty (chans st c) -> buf_full ch = buf_full (chans st c) ->
  (es = [es_of r c vl (lk_stamp l); es_of (negb r) c v (clock st)] \/
   es = [es_of (negb r) c v (clock st); es_of r c vl (lk_stamp l)]) ->
  (exists xs, ring ch xs /\ map snd (ev false c (log st ++ es)) = map snd (ev true c (log st ++ es)) ++ xs) ->
  (r = false -> vl = lk_val l) -> (r = true -> msg = Some vl) ->
  let st' := record (set_co (set_chan st c ch) (lk_co l) (Woken w (lk_stamp l) (lk_case l) true msg)) es in
  invq st' /\ invb caps st' /\ eff st st' [es_of (negb r) c v (clock st)].
Proof.
  intros I B [F1 F2] Hq Hs Hp Hn Hr Hch Hcl Hlen Hem Hfu Hes Hring Hvl Hmsg st'.
  assert (invq (set_co (set_chan st c ch) (lk_co l) (Woken w (lk_stamp l) (lk_case l) true msg))) as I'
    by (eapply invq_serve; eauto).
  assert (invq st') as I'' by (eapply invq_ext; [| |exact I']; reflexivity).
  split; [exact I''|].
  assert (In l (q st r c)) as Hl by (rewrite Hq; apply in_or_app; cbn; auto).
  assert (live st l) as Ll by (unfold live; eauto).
  assert (forall r' d, q st' r' d = if Nat.eqb d c && Bool.eqb r' r then x else q st r' d) as Q.
  { intros r' d. unfold q at 1, st'. cbn [chans record set_co]. rewrite chans_set_chan.
    destruct (Nat.eqb_spec d c) as [->|n]; [|reflexivity]. rewrite Hch. reflexivity. }
  assert (forall r' d e, In e (q st' r' d) -> In e (q st r' d)) as Sub.
  { intros r' d e He. rewrite Q in He. destruct (Nat.eqb_spec d c) as [->|n]; [|exact He].
    destruct (Bool.eqb_spec r' r) as [->|n]; cbn in He; [|exact He]. rewrite Hq. apply in_or_app. cbn. auto. }
  assert (forall j, cos st' j = if Nat.eqb j (lk_co l) then Woken w (lk_stamp l) (lk_case l) true msg else cos st j) as C by reflexivity.
  assert (forall e, live st' e -> live st e /\ lk_co e <> lk_co l) as Lv.
  { intros e (w' & s' & He). rewrite C in He. destruct (Nat.eqb_spec (lk_co e) (lk_co l)); [discriminate|].
    split; [unfold live; eauto|exact n]. }
  assert (forall j w' s', busy st' j w' s' -> busy st j w' s') as Bu.
  { intros j w' s' Hb. unfold busy in *. rewrite C in Hb. destruct (Nat.eqb_spec j (lk_co l)) as [->|n]; [|exact Hb].
    destruct Hb as [Hb|(i & o & m & Hb)]; [discriminate|]. injection Hb as <- <- _ _ _. auto. }
  assert (forall r' d, ev r' d es = if Nat.eqb d c then if Bool.eqb r' r then [(lk_stamp l, vl)] else [(clock st, v)] else []) as E
    by (intros; eapply ev_two; eauto).
  assert (lk_stamp l < clock st) as Hlc by (eapply F2; left; exact Hp).
  assert (log st' = log st ++ es) as Hlog by reflexivity.
  assert (forall d, chans st' d = if Nat.eqb d c then ch else chans st d) as CH by reflexivity.
  destruct B as [B1 B2 B3 B4 B5 B6 B7 B8 B9 B10 B11].
  split.
  - split.
    + intros d. rewrite CH, Hlog. destruct (Nat.eqb_spec d c) as [->|n]; [exact Hring|].
      rewrite !ev_app, !E. destruct (Nat.eqb_spec d c); [contradiction|]. rewrite !app_nil_r. apply B1.
    + intros d. rewrite CH. destruct (Nat.eqb_spec d c) as [->|n]; [rewrite Hlen|]; apply B2.
    + intros d e H1 H2. rewrite CH. apply Lv in H2 as [H2 _]. apply Sub in H1. destruct (Nat.eqb_spec d c) as [->|n]; [rewrite Hem|]; eauto.
    + intros d e H1 H2. rewrite CH. apply Lv in H2 as [H2 _]. apply Sub in H1. destruct (Nat.eqb_spec d c) as [->|n]; [rewrite Hfu|]; eauto.
    + intros r' d l1 l2 H1 H2 H3 H4. apply Sub in H1, H2. apply Lv in H3 as [H3 _], H4 as [H4 _]. eapply B5; eauto.
    + intros r' d H. rewrite CH in H. destruct (Nat.eqb_spec d c) as [Ed|n]; [subst d|].
      * rewrite Hcl in H. apply (B6 r) in H. rewrite H in Hl. contradiction.
      * rewrite Q. destruct (Nat.eqb_spec d c); [contradiction|]. cbn. auto.
    + intros r' d. rewrite Hlog, ev_app, E. destruct (Nat.eqb_spec d c) as [->|n]; [|rewrite app_nil_r; apply B7].
      destruct (Bool.eqb_spec r' r) as [->|nr]; apply increasing_snoc; try apply B7; intros s x' Hx.
      * eapply B9; eauto.
      * apply ev_In in Hx as (e & He & <-). auto.
    + intros r' d. rewrite Q. specialize (B8 r' d). destruct (Nat.eqb_spec d c) as [->|n]; [|exact B8].
      destruct (Bool.eqb_spec r' r) as [->|nr]; cbn; [|exact B8]. rewrite Hq in B8. apply StronglySorted_app_r in B8. now inversion B8.
    + intros r' d e t v' He Le Ht. apply Lv in Le as [Le Ne]. rewrite Hlog, ev_app, E in Ht.
      apply in_app_or in Ht as [Ht|Ht]; [eapply B9; eauto|].
      destruct (Nat.eqb_spec d c) as [->|n]; [|contradiction].
      destruct (Bool.eqb_spec r' r) as [->|nr]; destruct Ht as [Ht|[]]; injection Ht as <- <-.
      * rewrite Q, Nat.eqb_refl, Bool.eqb_reflx in He. cbn in He.
        assert (lk_stamp l <= lk_stamp e) as Hle.
        { specialize (B8 r c). rewrite Hq in B8. apply StronglySorted_app_r in B8. inversion B8 as [|? ? _ HF]; subst.
          rewrite Forall_forall in HF. auto. }
        assert (lk_stamp l <> lk_stamp e); [|lia]. intros Es. apply Ne.
        destruct (q_ok _ I r c e) as (w' & Hb & _); [rewrite Hq; apply in_or_app; cbn; auto|].
        eapply (q_uniq _ I); [exact Hb|]. rewrite <- Es. left. exact Hp.
      * exfalso. apply Ne. apply (B5 r' c e l); auto. destruct r', r; auto; congruence.
    + intros e He. rewrite Hlog in He. apply in_app_or in He as [He|He]; [apply B10 in He; exact He|].
      change (clock st') with (clock st). destruct Hes as [->| ->]; destruct r; destruct He as [<-|[<-|[]]]; cbn; lia.
    + intros k w' s' Hb. apply Bu, B11 in Hb. exact Hb.
  - split; [reflexivity|]. exists es. split; [exact Hlog|].
    assert (evs (clock st) es = [es_of (negb r) c v (clock st)] /\ evs (lk_stamp l) es = [es_of r c vl (lk_stamp l)] /\
            forall s, s <> clock st -> s <> lk_stamp l -> evs s es = []) as (X1 & X2 & X3).
    { unfold evs. assert (lk_stamp l =? clock st = false) as Y1 by lia. assert (clock st =? lk_stamp l = false) as Y2 by lia.
      destruct Hes as [->| ->]; destruct r; cbn [es_of negb filter ev_stamp]; rewrite ?Y1, ?Y2, ?Z.eqb_refl; repeat split; intros s S1 S2;
        (destruct (Z.eqb_spec (clock st) s); [lia|]); (destruct (Z.eqb_spec (lk_stamp l) s); [lia|]); reflexivity. }
    split; [exact X1|]. split.
    + intros e He. assert (e = es_of r c vl (lk_stamp l) \/ e = es_of (negb r) c v (clock st)) as [->| ->].
      { destruct Hes as [->| ->]; destruct He as [<-|[<-|[]]]; auto. }
      * right. exists (lk_co l), w. destruct r; exact Hp.
      * left. destruct r; reflexivity.
    + intros j. destruct (Nat.eq_dec j (lk_co l)) as [->|nj].
      * right. exists w, (lk_stamp l), (lk_case l), true, msg. split; [exact Hp|]. split; [rewrite C, Nat.eqb_refl; reflexivity|].
        split; [congruence|]. rewrite X2. unfold wexp. rewrite Hn, Hr. destruct r; cbn [es_of].
        -- rewrite Hmsg by reflexivity. reflexivity.
        -- rewrite Hvl by reflexivity. reflexivity.
      * left. rewrite C. destruct (Nat.eqb_spec j (lk_co l)); [contradiction|]. split; [reflexivity|].
        intros w' s' Hb. apply X3.
        -- apply F2 in Hb. lia.
        -- intros ->. apply nj. eapply (q_uniq _ I); [exact Hb|left; exact Hp].
Qed.

(** *** The caller uses the buffer *)
Lemma buffer_ok caps st r c ch v :
  invq st -> invb caps st -> fresh st ->
  (forall r' l, In l (q st r' c) -> ~ live st l) ->
  (forall r', qs ch r' = q st r' c) -> closed ch = closed (chans st c) -> zlen (buf ch) = zlen (buf (chans st c)) ->
  (exists xs, ring ch xs /\ map snd (ev false c (log st ++ [es_of r c v (clock st)])) = map snd (ev true c (log st ++ [es_of r c v (clock st)])) ++ xs) ->
  let st' := record (set_chan st c ch) [es_of r c v (clock st)] in
  invq st' /\ invb caps st' /\ eff st st' [es_of r c v (clock st)].
Proof.
  intros I B [F1 F2] Hnl Hch Hcl Hlen Hring st'.
  assert (forall r' d, q st' r' d = q st r' d) as Q.
  { intros r' d. unfold q at 1, st'. cbn [chans record]. rewrite chans_set_chan. destruct (Nat.eqb_spec d c) as [->|]; auto. }
  assert (log st' = log st ++ [es_of r c v (clock st)]) as Hlog by reflexivity.
  assert (forall d, chans st' d = if Nat.eqb d c then ch else chans st d) as CH by reflexivity.
  assert (invq st') as I' by (eapply invq_ext; [exact Q| |exact I]; reflexivity).
  split; [exact I'|].
  destruct B as [B1 B2 B3 B4 B5 B6 B7 B8 B9 B10 B11]. split.
  - split.
    + intros d. rewrite CH, Hlog. destruct (Nat.eqb_spec d c) as [->|n]; [exact Hring|].
      rewrite !ev_app, !ev_one. destruct (Nat.eqb_spec d c); [contradiction|]. cbn [andb]. rewrite !app_nil_r. apply B1.
    + intros d. rewrite CH. destruct (Nat.eqb_spec d c) as [->|n]; [rewrite Hlen|]; apply B2.
    + intros d e H1 H2. rewrite Q in H1. rewrite CH. destruct (Nat.eqb_spec d c) as [->|n]; [|eapply B3; eauto].
      exfalso. eapply Hnl; eauto.
    + intros d e H1 H2. rewrite Q in H1. rewrite CH. destruct (Nat.eqb_spec d c) as [->|n]; [|eapply B4; eauto].
      exfalso. eapply Hnl; eauto.
    + intros r' d l1 l2 H1 H2 H3 H4. rewrite Q in H1, H2. eapply B5; eauto.
    + intros r' d H. rewrite Q. rewrite CH in H. apply B6. destruct (Nat.eqb_spec d c) as [Ed|n]; [subst d|]; congruence.
    + intros r' d. rewrite Hlog, ev_app, ev_one. destruct (Nat.eqb d c && Bool.eqb r' r); [|rewrite app_nil_r; apply B7].
      apply increasing_snoc; [apply B7|]. intros s x' Hx. apply ev_In in Hx as (e & He & <-). auto.
    + intros r' d. rewrite Q. apply B8.
    + intros r' d e t v' He Le Ht. rewrite Q in He. rewrite Hlog, ev_app, ev_one in Ht.
      apply in_app_or in Ht as [Ht|Ht]; [eapply B9; eauto|].
      destruct (Nat.eqb_spec d c) as [->|n]; [|contradiction]. exfalso. eapply Hnl; eauto.
    + intros e He. rewrite Hlog in He. apply in_app_or in He as [He|[<-|[]]]; [apply B10 in He; exact He|].
      destruct r; cbn; lia.
    + exact B11.
  - split; [reflexivity|]. exists [es_of r c v (clock st)]. split; [exact Hlog|]. split; [|split].
    + unfold evs. cbn [filter]. replace (ev_stamp (es_of r c v (clock st))) with (clock st) by (destruct r; reflexivity).
      now rewrite Z.eqb_refl.
    + intros e [<-|[]]. left. destruct r; reflexivity.
    + intros j. left. split; [reflexivity|]. intros w s Hb. apply F2 in Hb. unfold evs. cbn [filter].
      replace (ev_stamp (es_of r c v (clock st))) with (clock st) by (destruct r; reflexivity).
      destruct (Z.eqb_spec (clock st) s); [lia|reflexivity].
Qed.

(** *** The caller parks *)
Lemma invb_park caps st st' k w :
  invq st -> invb caps st -> fresh st -> cos st k = Idle ->
  (forall r c, q st' r c = q st r c ++ ents w k (clock st) r c 0 (w_cases w)) ->
  (forall j, cos st' j = if Nat.eqb j k then Parked w (clock st) else cos st j) ->
  log st' = log st -> clock st' = clock st -> (forall c, same_ring (chans st c) (chans st' c)) ->
  (forall i c v, nth_error (w_cases w) i = Some (c, v) ->
     closed (chans st c) = false /\ q st (negb (side w i)) c = [] /\
     (if side w i then buf_empty (chans st c) else buf_full (chans st c)) = true) ->
  invb caps st'.
Proof.
  intros I B [F1 F2] Hk Q C Hlog Hclk Hr Hcase.
  assert (forall c, buf_empty (chans st' c) = buf_empty (chans st c)) as Ee.
  { intros c. destruct (Hr c) as (_ & E2 & E3 & _). unfold buf_empty. congruence. }
  assert (forall c, buf_full (chans st' c) = buf_full (chans st c)) as Ef.
  { intros c. destruct (Hr c) as (E1 & E2 & E3 & _). unfold buf_full. now rewrite E1, E2, E3. }
  assert (forall r c l, In l (q st' r c) ->
     (In l (q st r c) /\ lk_co l <> k /\ (live st' l -> live st l)) \/
     (lk_co l = k /\ lk_stamp l = clock st /\ exists i v, nth_error (w_cases w) i = Some (c, v) /\ side w i = r)) as In'.
  { intros r c l Hl. rewrite Q in Hl. apply in_app_or in Hl as [Hl|Hl].
    - left. assert (lk_co l <> k) as Nk.
      { intros E. destruct (q_ok _ I _ _ _ Hl) as (w' & [Hb|(? & ? & ? & Hb)] & _); rewrite E in Hb; congruence. }
      split; [exact Hl|]. split; [exact Nk|]. intros (w' & s' & H). rewrite C in H.
      destruct (Nat.eqb_spec (lk_co l) k); [contradiction|]. unfold live. eauto.
    - right. apply ents_In in Hl as (j & v & H1 & H2 & ->). cbn. split; [reflexivity|]. split; [reflexivity|]. exists j, v. auto. }
  destruct B as [B1 B2 B3 B4 B5 B6 B7 B8 B9 B10 B11]. split.
  - intros c. destruct (B1 c) as (xs & X1 & X2). exists xs. rewrite Hlog. split; [|exact X2].
    destruct (Hr c) as (E1 & E2 & E3 & _). unfold ring in *. now rewrite E1, E2, E3.
  - intros c. destruct (Hr c) as (E1 & _). rewrite E1. apply B2.
  - intros c l Hl Lv. rewrite Ee. apply In' in Hl as [(Hl & _ & Hv)|(_ & _ & i & v & Hn & Hs)]; [eauto|].
    destruct (Hcase i c v Hn) as (_ & _ & H). now rewrite Hs in H.
  - intros c l Hl Lv. rewrite Ef. apply In' in Hl as [(Hl & _ & Hv)|(_ & _ & i & v & Hn & Hs)]; [eauto|].
    destruct (Hcase i c v Hn) as (_ & _ & H). now rewrite Hs in H.
  - intros r c l1 l2 H1 H2 L1 L2. apply In' in H1 as [(H1 & _ & V1)|(K1 & _ & i & v & Hn & Hs)];
      apply In' in H2 as [(H2 & _ & V2)|(K2 & _ & i' & v' & Hn' & Hs')].
    + eapply B5; eauto.
    + exfalso. destruct (Hcase i' c v' Hn') as (_ & H & _). rewrite Hs', Bool.negb_involutive in H. rewrite H in H1. contradiction.
    + exfalso. destruct (Hcase i c v Hn) as (_ & H & _). rewrite Hs in H. rewrite H in H2. contradiction.
    + congruence.
  - intros r c H. destruct (Hr c) as (_ & _ & _ & E). rewrite E in H. rewrite Q, (B6 r c H). cbn.
    destruct (ents w k (clock st) r c 0 (w_cases w)) as [|l es] eqn:Ents; [reflexivity|]. exfalso.
    assert (In l (ents w k (clock st) r c 0 (w_cases w))) as Hl by (rewrite Ents; cbn; auto).
    apply ents_In in Hl as (j & v & H1 & _). apply Hcase in H1. destruct H1; congruence.
  - intros r c. rewrite Hlog. apply B7.
  - intros r c. rewrite Q.
    assert (forall e, In e (ents w k (clock st) r c 0 (w_cases w)) -> lk_stamp e = clock st) as He.
    { intros e H. apply ents_In in H as (? & ? & _ & _ & ->). reflexivity. }
    assert (forall e, In e (q st r c) -> lk_stamp e < clock st) as Ho.
    { intros e H. destruct (q_ok _ I _ _ _ H) as (w' & Hb & _). eauto. }
    specialize (B8 r c). revert B8 Ho. generalize (q st r c). intros y Sy. induction Sy as [|e y Sy IH Fy]; intros Ho; cbn [app].
    + clear -He. revert He. generalize (ents w k (clock st) r c 0 (w_cases w)). intros y. induction y as [|e y IH]; intros He; [constructor|].
      constructor; [apply IH; intros; apply He; cbn; auto|]. apply Forall_forall. intros e' He'.
      rewrite (He e), (He e') by (cbn; auto). lia.
    + constructor; [apply IH; intros; apply Ho; cbn; auto|]. apply Forall_app. split; [exact Fy|]. apply Forall_forall.
      intros e' He'. rewrite (He e' He'). specialize (Ho e (or_introl eq_refl)). lia.
  - intros r c l t v Hl Lv Ht. rewrite Hlog in Ht. apply In' in Hl as [(Hl & _ & V)|(_ & Es & _)]; [eauto|].
    rewrite Es. apply ev_In in Ht as (e & He & <-). auto.
  - intros e He. rewrite Hlog in He. rewrite Hclk. auto.
  - intros j w' s Hb. unfold busy in Hb. rewrite C in Hb. rewrite Hclk. destruct (Nat.eqb_spec j k) as [->|n].
    + destruct Hb as [Hb|(? & ? & ? & Hb)]; inversion Hb. lia.
    + apply Z.lt_le_incl. eapply F2. exact Hb.
Qed.

(** ** Waiting coroutines and queue entries *)
Lemma receiving_q st c : invq st -> ((exists j, receiving st j c) <-> exists l, In l (q st true c) /\ live st l).
Proof.
  intros I. split.
  - intros (j & H). unfold receiving in H. destruct (cos st j) as [|w s|w s i ok m] eqn:E; try contradiction.
    destruct w as [d x|d|cases sends]; [contradiction| |].
    + subst d. pose proof (q_all _ I _ _ _ 0%nat c 0 E eq_refl) as Hl. exists (mk_lk j 0 false 0 s). split; [exact Hl|]. unfold live. eauto.
    + destruct H as (i & v & Hi & Hn). pose proof (q_all _ I _ _ _ i c v E Hn) as Hl.
      replace (side (WSelect cases sends) i) with true in Hl by (unfold side; cbn [w_sends]; symmetry; apply Nat.leb_le; lia).
      exists (mk_lk j i true v s). split; [exact Hl|]. unfold live. eauto.
  - intros (l & Hl & w & s & Hw). exists (lk_co l). unfold receiving. rewrite Hw.
    destruct (q_ok _ I _ _ _ Hl) as (w' & Hb & _ & Hn & Hs & _).
    assert (w' = w) as -> by (eapply busy_fun; [exact Hb|left; exact Hw]).
    destruct w as [d x|d|cases sends]; cbn [w_cases] in Hn; unfold side in Hs; cbn [w_sends] in Hs.
    + apply Nat.leb_le in Hs. destruct (lk_case l) as [|n]; [lia|]. destruct n; discriminate.
    + destruct (lk_case l) as [|[|n]]; cbn in Hn; congruence.
    + exists (lk_case l), (lk_val l). split; [now apply Nat.leb_le|exact Hn].
Qed.
Lemma sending_q st c : invq st -> ((exists j, sending st j c) <-> exists l, In l (q st false c) /\ live st l).
Proof.
  intros I. split.
  - intros (j & H). unfold sending in H. destruct (cos st j) as [|w s|w s i ok m] eqn:E; try contradiction.
    destruct w as [d x|d|cases sends]; [|contradiction|].
    + subst d. pose proof (q_all _ I _ _ _ 0%nat c x E eq_refl) as Hl. exists (mk_lk j 0 false x s). split; [exact Hl|]. unfold live. eauto.
    + destruct H as (i & v & Hi & Hn). pose proof (q_all _ I _ _ _ i c v E Hn) as Hl.
      replace (side (WSelect cases sends) i) with false in Hl by (unfold side; cbn [w_sends]; symmetry; apply Nat.leb_gt; lia).
      exists (mk_lk j i true v s). split; [exact Hl|]. unfold live. eauto.
  - intros (l & Hl & w & s & Hw). exists (lk_co l). unfold sending. rewrite Hw.
    destruct (q_ok _ I _ _ _ Hl) as (w' & Hb & _ & Hn & Hs & _).
    assert (w' = w) as -> by (eapply busy_fun; [exact Hb|left; exact Hw]).
    destruct w as [d x|d|cases sends]; cbn [w_cases] in Hn; unfold side in Hs; cbn [w_sends] in Hs.
    + destruct (lk_case l) as [|[|n]]; cbn in Hn; congruence.
    + discriminate.
    + exists (lk_case l), (lk_val l). split; [now apply Nat.leb_gt|exact Hn].
Qed.

Definition good (caps : nat -> Z) (st st' : state) (mine : list event) : Prop :=
  invq st' /\ invb caps st' /\ eff st st' mine.

Lemma set_q_recv ch x : set_recvq ch x = set_q ch true x. Proof. reflexivity. Qed.
Lemma set_q_send ch x : set_sendq ch x = set_q ch false x. Proof. reflexivity. Qed.

Lemma pop_some st r c : invq st -> forall l x, waitq_pop st (q st r c) = (Some l, x) ->
  exists stale w, q st r c = stale ++ l :: x /\ Forall (fun e => ~ live st e /\ lk_sel e = true) stale /\
    cos st (lk_co l) = Parked w (lk_stamp l) /\ nth_error (w_cases w) (lk_case l) = Some (c, lk_val l) /\ side w (lk_case l) = r /\
    In l (q st r c).
Proof.
  intros I l x H. apply waitq_pop_spec in H as (stale & Hs & Hq & Hl).
  assert (In l (q st r c)) as Hin by (rewrite Hq; apply in_or_app; cbn; auto).
  destruct (entry_live _ _ _ _ (q_ok _ I _ _ _ Hin) Hl) as (w & Hw & _ & Hn & Hr). exists stale, w. auto 10.
Qed.

(** *** Sending: to a waiting receiver, into the buffer, or not at all *)
Lemma send_try caps st c v : invq st -> invb caps st -> fresh st -> closed (chans st c) = false ->
  let '(l, x) := waitq_pop st (recvq (chans st c)) in
  let st1 := set_chan st c (set_recvq (chans st c) x) in
  match l with
  | Some l => (exists st2, rt_send st1 c l v = Ok st2 /\ good caps st st2 [Accepted c v (clock st)]) /\ (exists j, receiving st j c)
  | None => dropped caps st st1 /\ q st1 true c = [] /\ ~ (exists j, receiving st j c) /\
      (buf_full (chans st1 c) = false -> exists ch, buf_push (chans st1 c) v = Ok ch /\
         good caps st (record (set_chan st1 c ch) [Accepted c v (clock st)]) [Accepted c v (clock st)])
  end.
Proof.
  intros I B F Hc. destruct (waitq_pop st (recvq (chans st c))) as [[l|] x] eqn:P.
  - change (recvq (chans st c)) with (q st true c) in P.
    destruct (pop_some st true c I l x P) as (stale & w & Hq & Hs & Hp & Hn & Hr & Hin).
    cbn zeta. split.
    2: { apply receiving_q; [exact I|]. exists l. split; [exact Hin|]. unfold live. eauto. }
    unfold rt_send, wake. change (cos (set_chan st c (set_recvq (chans st c) x))) with (cos st). rewrite Hp. cbn [bind].
    eexists. split; [reflexivity|]. unfold good.
    eapply (serve_ok caps st true c (set_recvq (chans st c) x) l x v v w (Some v) _ stale I B F Hq Hs Hp Hn Hr);
      try reflexivity; try discriminate.
    + intros r'. rewrite set_q_recv, qs_set_q. reflexivity.
    + right. reflexivity.
    + destruct (b_ring _ _ B c) as (xs & X1 & X2). exists xs. split; [exact X1|].
      pose proof (b_empty _ _ B c l Hin ltac:(unfold live; eauto)) as E. rewrite (ring_empty _ _ X1) in E.
      assert (xs = []) as -> by (apply zlen_0_nil; lia). rewrite !ev_app, !map_app, X2.
      cbn [log clock record set_co set_chan]. cbn. rewrite !Nat.eqb_refl. cbn. now rewrite !app_nil_r.
  - change (recvq (chans st c)) with (q st true c) in P. cbn zeta.
    destruct (pop_none caps st true c I B x P) as (D & Hnil & ->). rewrite set_q_recv. split; [exact D|]. split; [exact Hnil|].
    set (st1 := set_chan st c (set_q (chans st c) true [])) in *.
    assert (forall l, In l (q st true c) -> ~ live st l) as Nl.
    { intros l Hl. apply waitq_pop_spec in P as (stale & Hs & Hq & _). rewrite Hq, Forall_forall in *. apply Hs in Hl. apply Hl. }
    split. { intros H. apply receiving_q in H; [|exact I]. destruct H as (l & Hl & Lv). eapply Nl; eauto. }
    intros Hf. pose proof (dropped_fresh _ _ _ D F) as F1. destruct D as [I1 B1 D3 D4 D5 D6 D7 D8].
    destruct (b_ring _ _ B1 c) as (xs & X1 & X2). destruct (ring_push _ _ v X1 Hf) as (b & r & E1 & E2 & E3).
    eexists. split; [exact E1|]. unfold good.
    destruct (buffer_ok caps st1 false c (set_ring (chans st1 c) b (front (chans st1 c)) r) v I1 B1 F1) as (G1 & G2 & G3).
    + intros r' l Hl Lv. destruct r'; [rewrite Hnil in Hl; contradiction|].
      pose proof (b_full _ _ B1 c l Hl Lv). congruence.
    + intros r'. destruct r'; reflexivity.
    + reflexivity.
    + exact E2.
    + exists (xs ++ [v]). split; [exact E3|]. rewrite !ev_app, !map_app, X2. cbn. rewrite !Nat.eqb_refl. cbn.
      now rewrite app_nil_r, app_assoc.
    + split; [exact G1|]. split; [exact G2|]. apply (eff_after caps _ st1); [|exact G3]. split; auto.
Qed.

(** *** Receiving *)
Lemma recv_try caps st c : invq st -> invb caps st -> fresh st ->
  let '(l, x) := waitq_pop st (sendq (chans st c)) in
  let st1 := set_chan st c (set_sendq (chans st c) x) in
  exists xs, ring (chans st c) xs /\ map snd (ev false c (log st)) = map snd (ev true c (log st)) ++ xs /\
  match l with
  | Some l => exists st2, rt_recv st1 c l = Ok (st2, hd (lk_val l) xs) /\ good caps st st2 [Received c (hd (lk_val l) xs) (clock st)]
  | None => dropped caps st st1 /\ q st1 false c = [] /\ ~ (exists j, sending st j c) /\
      (forall v xs', xs = v :: xs' -> exists ch, buf_pop (chans st1 c) = Ok (ch, v) /\
         good caps st (record (set_chan st1 c ch) [Received c v (clock st)]) [Received c v (clock st)])
  end.
Proof.
  intros I B F. destruct (waitq_pop st (sendq (chans st c))) as [[l|] x] eqn:P.
  - change (sendq (chans st c)) with (q st false c) in P.
    destruct (pop_some st false c I l x P) as (stale & w & Hq & Hs & Hp & Hn & Hr & Hin).
    cbn zeta. destruct (b_ring _ _ B c) as (xs & X1 & X2). exists xs. split; [exact X1|]. split; [exact X2|].
    pose proof (b_full _ _ B c l Hin ltac:(unfold live; eauto)) as E. 
    unfold rt_recv. rewrite chans_set_chan, Nat.eqb_refl.
    change (buf_empty (set_sendq (chans st c) x)) with (buf_empty (chans st c)).
    change (buf_full (set_sendq (chans st c) x)) with (buf_full (chans st c)). rewrite E. cbn [negb].
    rewrite (ring_empty _ _ X1). destruct xs as [|y xs].
    + rewrite zlen_nil. cbn [Z.eqb]. unfold wake. change (cos (set_chan st c (set_sendq (chans st c) x))) with (cos st). rewrite Hp. cbn [bind hd].
      eexists. split; [reflexivity|]. unfold good.
      eapply (serve_ok caps st false c (set_sendq (chans st c) x) l x (lk_val l) (lk_val l) w None _ stale I B F Hq Hs Hp Hn Hr);
        try reflexivity; try discriminate.
      * intros r'. rewrite set_q_send, qs_set_q. reflexivity.
      * left. reflexivity.
      * exists []. split; [exact X1|]. rewrite !ev_app, !map_app, X2.
        cbn [log clock record set_co set_chan]. cbn. rewrite !Nat.eqb_refl. cbn. now rewrite !app_nil_r.
    + rewrite zlen_cons. pose proof (zlen_nonneg xs) as Hnn. replace (1 + zlen xs =? 0) with false by lia. cbn [hd].
      assert (ring (set_sendq (chans st c) x) (y :: xs)) as X1' by exact X1.
      destruct (ring_pop _ _ _ X1') as (f & -> & X3). cbn [bind].
      set (ch1 := set_ring (set_sendq (chans st c) x) (buf (set_sendq (chans st c) x)) f (rear (set_sendq (chans st c) x))) in *.
      assert (zlen (buf ch1) = zlen (buf (chans st c))) as L1 by reflexivity.
      pose proof (ring_len _ _ X1) as Hlen. rewrite (ring_full _ _ X1) in E. rewrite zlen_cons in E, Hlen.
      assert (buf_full ch1 = false) as Hf1. { rewrite (ring_full _ _ X3), L1. lia. }
      destruct (ring_push _ _ (lk_val l) X3 Hf1) as (b & r & -> & Lb & X4). cbn [bind].
      set (ch2 := set_ring ch1 b (front ch1) r) in *. assert (zlen (buf ch2) = zlen (buf (chans st c))) as L2 by (rewrite <- L1; exact Lb).
      unfold wake. cbn [cos set_chan]. rewrite Hp. cbn [bind]. eexists. split; [reflexivity|]. unfold good.
      assert (forall a b' d, set_chan (set_chan a c b') c d = set_chan a c d -> True) as _ by auto.
      destruct (serve_ok caps st false c ch2 l x (lk_val l) y w None [Received c y (clock st); Accepted c (lk_val l) (lk_stamp l)] stale I B F Hq Hs Hp Hn Hr)
        as (G1 & G2 & G3); try reflexivity; try discriminate.
      * intros r'. destruct r'; reflexivity.
      * exact L2.
      * rewrite (ring_empty _ _ X4), (ring_empty _ _ X1), zlen_app, !zlen_cons, zlen_nil. lia.
      * rewrite (ring_full _ _ X4), (ring_full _ _ X1), zlen_app, !zlen_cons, zlen_nil, L2. lia.
      * right. reflexivity.
      * exists (xs ++ [lk_val l]). split; [exact X4|]. rewrite !ev_app, !map_app, X2. cbn. rewrite !Nat.eqb_refl. cbn.
        rewrite <- !app_assoc. reflexivity.
      * set (sa := record (set_co (set_chan st c ch2) _ _) _) in *.
        match goal with |- invq ?s /\ _ => set (sb := s) end.
        assert (forall d, chans sb d = chans sa d) as CS.
        { intros d. unfold sa, sb. cbn [chans record set_co set_chan]. destruct (Nat.eqb d c); reflexivity. }
        assert (forall r' d, q sb r' d = q sa r' d) as QS by (intros; unfold q; now rewrite CS).
        split; [eapply invq_ext; [exact QS| |exact G1]; reflexivity|]. split.
        -- eapply invb_sub; [exact G2|reflexivity|reflexivity| | | | |auto|auto].
           ++ intros d. rewrite CS. repeat split.
           ++ intros r' d e He. now rewrite QS in He.
           ++ intros r' d. rewrite QS. apply (b_qsorted _ _ G2).
           ++ intros r' d. now rewrite QS.
        -- destruct G3 as [G3 G4]. split; [exact G3|exact G4].
  - change (sendq (chans st c)) with (q st false c) in P. cbn zeta.
    destruct (pop_none caps st false c I B x P) as (D & Hnil & ->). rewrite set_q_send.
    set (st1 := set_chan st c (set_q (chans st c) false [])) in *.
    destruct (b_ring _ _ B c) as (xs & X1 & X2). exists xs. split; [exact X1|]. split; [exact X2|].
    split; [exact D|]. split; [exact Hnil|].
    assert (forall l, In l (q st false c) -> ~ live st l) as Nl.
    { intros l Hl. apply waitq_pop_spec in P as (stale & Hs & Hq & _). rewrite Hq, Forall_forall in *. apply Hs in Hl. apply Hl. }
    split. { intros H. apply sending_q in H; [|exact I]. destruct H as (l & Hl & Lv). eapply Nl; eauto. }
    intros v xs' ->. pose proof (dropped_fresh _ _ _ D F) as F1. destruct D as [I1 B1 D3 D4 D5 D6 D7 D8].
    assert (ring (chans st1 c) (v :: xs')) as X1'.
    { unfold st1. rewrite chans_set_chan, Nat.eqb_refl. exact X1. }
    destruct (ring_pop _ _ _ X1') as (f & E1 & E3).
    eexists. split; [exact E1|]. unfold good.
    destruct (buffer_ok caps st1 true c (set_ring (chans st1 c) (buf (chans st1 c)) f (rear (chans st1 c))) v I1 B1 F1) as (G1 & G2 & G3).
    + intros r' l Hl Lv. destruct r'; [|rewrite Hnil in Hl; contradiction].
      pose proof (b_empty _ _ B1 c l Hl Lv) as E. rewrite (ring_empty _ _ X1'), zlen_cons in E. pose proof (zlen_nonneg xs'). lia.
    + intros r'. destruct r'; reflexivity.
    + reflexivity.
    + reflexivity.
    + exists xs'. split; [exact E3|]. rewrite !ev_app, !map_app. change (log st1) with (log st). rewrite X2. cbn. rewrite !Nat.eqb_refl. cbn.
      rewrite app_nil_r, <- app_assoc. reflexivity.
    + split; [exact G1|]. split; [exact G2|]. apply (eff_after caps _ st1); [|exact G3]. split; auto.
Qed.
