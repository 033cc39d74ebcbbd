(** Proofs about channels: the operations. *)
From Verif Require Import Base Base_lemmas Zlist Chan_model Chan_spec Chan_proof Chan_queue_proof Chan_step_proof.
From Coq Require Import Sorting.Sorted.
From Coq Require Import ZifyBool ZifyNat.

Definition inv (caps : nat -> Z) (st : state) : Prop := invq st /\ invb caps st.

Lemma inv_init caps : inv caps (init caps).
Proof.
  split; split; cbn [q qs chans init log clock chan_new recvq sendq].
  - intros [] c l [].
  - intros [] c; constructor.
  - discriminate.
  - intros k k' w w' s [H|(? & ? & ? & H)]; discriminate.
  - intros c. exists []. split; [apply ring_new|reflexivity].
  - intros c. apply ring_new.
  - intros c l [].
  - intros c l [].
  - intros [] c l1 l2 [].
  - intros [] c; discriminate.
  - intros [] c; exact Logic.I.
  - intros [] c; constructor.
  - intros [] c l t v [].
  - intros e [].
  - intros k w s [H|(? & ? & ? & H)]; discriminate.
Qed.

Lemma inv_tick caps st : inv caps st -> inv caps (tick st) /\ fresh (tick st).
Proof.
  intros [I B]. split; [split|].
  - eapply invq_ext; [| |exact I]; reflexivity.
  - eapply invb_sub; [exact B|reflexivity|cbn; lia| | | | |auto|auto].
    + intros c. apply same_ring_refl.
    + auto.
    + apply (b_qsorted _ _ B).
    + auto.
  - split; cbn [tick log clock].
    + intros e He. apply (b_le _ _ B) in He. lia.
    + intros k w s Hb. apply (b_busy _ _ B) in Hb. lia.
Qed.

Lemma held_ring caps st c : invb caps st -> ring (chans st c) (held st c) /\
  map snd (accepted c (log st)) = map snd (received c (log st)) ++ held st c.
Proof.
  intros B. destruct (b_ring _ _ B c) as (xs & X1 & X2). cbn [ev] in X2. unfold held. rewrite X2.
  replace (length (received c (log st))) with (length (map snd (received c (log st)))) by apply map_length.
  rewrite skipn_app, skipn_all, Nat.sub_diag. cbn. auto.
Qed.
Lemma ring_fun ch xs ys : ring ch xs -> ring ch ys -> xs = ys.
Proof.
  intros [(A1 & _ & _ & ->)|(A1 & A2 & A3 & A4 & A5)] [(B1 & _ & _ & ->)|(B1 & B2 & B3 & B4 & B5)]; try reflexivity; try lia.
  apply znth_ext_len; [congruence|]. intros i Hi. rewrite <- A5, <- B5 by lia. reflexivity.
Qed.
Lemma held_full caps st c : invb caps st -> buf_full (chans st c) = (zlen (held st c) =? Z.max 0 (caps c)) /\ zlen (held st c) <= Z.max 0 (caps c).
Proof.
  intros B. destruct (held_ring caps st c B) as [H _]. rewrite <- (b_len _ _ B c). split; [now apply ring_full|now apply ring_len].
Qed.

(** ** What a step does to the log and to the caller *)
Definition wait_of (l : label) : wait :=
  match l with LSend _ c v _ => WSend c v | LRecv _ c _ => WRecv c | LSelect _ n cs _ => WSelect cs n | _ => WRecv 0 end.
(** the events of a call that has returned *)
Definition expd (t : Z) (l : label) (o : out) : list event :=
  match sent l o with
  | Some (c, v) => [Accepted c v t]
  | None => match got l o with Some (c, v) => [Received c v t] | None => [] end
  end.

Record result (caps : nat -> Z) (st : state) (l : label) (st' : state) (o : out) : Prop := {
  r_inv : inv caps st';
  r_eff : exists st1, eff st st1 (expd (clock st) l o) /\ log st' = log st1 /\ clock st' = clock st /\
    forall j, cos st' j = if match o with OParked => Nat.eqb j (caller l) | _ => false end then Parked (wait_of l) (clock st) else cos st1 j;
}.

Lemma result_same caps st st' l o : inv caps st' -> o <> OParked -> eff st st' (expd (clock st) l o) -> result caps st l st' o.
Proof.
  intros I No E. split; [exact I|]. exists st'. split; [exact E|]. split; [reflexivity|]. split; [apply E|].
  intros j. destruct o; congruence.
Qed.
Lemma result_good caps st st' l o mine : good caps st st' mine -> o <> OParked -> mine = expd (clock st) l o -> result caps st l st' o.
Proof. intros (G1 & G2 & G3) No ->. apply result_same; [split| |]; auto. Qed.
Lemma result_dropped caps st st' l o : dropped caps st st' -> o <> OParked -> expd (clock st) l o = [] -> result caps st l st' o.
Proof.
  intros D No E. apply result_same; [split; apply D|exact No|]. rewrite E. apply eff_none; apply D.
Qed.

Lemma result_park caps st st1 st' l : dropped caps st st1 -> fresh st -> cos st (caller l) = Idle ->
  match l with LSend _ _ _ _ | LRecv _ _ _ | LSelect _ _ _ _ => True | _ => False end ->
  (forall r c, q st' r c = q st1 r c ++ ents (wait_of l) (caller l) (clock st) r c 0 (w_cases (wait_of l))) ->
  (forall j, cos st' j = if Nat.eqb j (caller l) then Parked (wait_of l) (clock st) else cos st1 j) ->
  log st' = log st1 -> clock st' = clock st1 -> (forall c, same_ring (chans st1 c) (chans st' c)) ->
  (forall i c v, nth_error (w_cases (wait_of l)) i = Some (c, v) ->
     closed (chans st1 c) = false /\ q st1 (negb (side (wait_of l) i)) c = [] /\
     (if side (wait_of l) i then buf_empty (chans st1 c) else buf_full (chans st1 c)) = true) ->
  result caps st l st' OParked.
Proof.
  intros D F Hk Hl Q C Hlog Hclk Hr Hcase. pose proof (dropped_fresh _ _ _ D F) as F1. pose proof D as [I1 B1 D3 D4 D5 D6 D7 D8].
  assert (cos st1 (caller l) = Idle) as Hk1 by (rewrite D5; exact Hk).
  rewrite <- D4 in Q, C. split; [split|].
  - eapply (invq_park st1 st' (caller l) (wait_of l) (clock st1)); eauto. apply F1.
  - eapply (invb_park caps st1 st' (caller l) (wait_of l)); eauto.
  - exists st1. split; [|split; [exact Hlog|split; [congruence|]]].
    + destruct l; try contradiction; cbn; apply eff_none; auto.
    + intros j. rewrite C, D4. reflexivity.
Qed.

(** ** send *)
Lemma chan_send_ok caps st k c v try : inv caps st -> fresh st -> cos st k = Idle ->
  exists st' o, chan_send st k c v try = Ok (st', o) /\ result caps st (LSend k c v try) st' o /\
  o = (if closed (chans st c) then OThrow else o) /\
  (closed (chans st c) = false ->
    ((exists j, receiving st j c) \/ zlen (held st c) < Z.max 0 (caps c)) /\ o = OSent \/
    (~ (exists j, receiving st j c) /\ zlen (held st c) = Z.max 0 (caps c)) /\ o = if try then OFalse else OParked).
Proof.
  intros [I B] F Hk. unfold chan_send. destruct (closed (chans st c)) eqn:Hc.
  - exists st, OThrow. split; [reflexivity|]. split; [|split; [reflexivity|discriminate]].
    apply result_dropped; [now apply dropped_refl|discriminate|reflexivity].
  - pose proof (send_try caps st c v I B F Hc) as H. destruct (waitq_pop st (recvq (chans st c))) as [[l|] x]; cbn zeta in H |- *.
    + destruct H as [(st2 & -> & G) R]. cbn [bind]. exists st2, OSent. split; [reflexivity|].
      split; [eapply result_good; [exact G|discriminate|reflexivity]|]. split; [reflexivity|]. auto.
    + destruct H as (D & Hn & NR & Hp).
      set (st1 := set_chan st c (set_recvq (chans st c) x)) in *.
      assert (buf_full (chans st1 c) = buf_full (chans st c)) as Ef.
      { destruct (d_ring _ _ _ D c) as (E1 & E2 & E3 & _). unfold buf_full. now rewrite E1, E2, E3. }
      destruct (held_full caps st c B) as [Hf1 Hf2].
      destruct (buf_full (chans st1 c)) eqn:Hf; cbn [negb].
      * assert (zlen (held st c) = Z.max 0 (caps c)) as Hh by lia. destruct try.
        -- exists st1, OFalse. split; [reflexivity|]. split; [apply result_dropped; [exact D|discriminate|reflexivity]|].
           split; [reflexivity|]. auto.
        -- eexists _, OParked. split; [reflexivity|]. split; [|split; [reflexivity|auto]].
           eapply (result_park caps st st1 _ (LSend k c v false)); eauto; try reflexivity.
           ++ intros r d. unfold q. cbn [chans set_co]. rewrite chans_set_chan. cbn [wait_of w_cases ents].
              rewrite app_nil_r. rewrite (Nat.eqb_sym c d). destruct (Nat.eqb_spec d c) as [->|n]; cbn [andb]; [|now rewrite app_nil_r].
              destruct r; cbn; [now rewrite app_nil_r|]. reflexivity.
           ++ intros d. cbn [chans set_co]. rewrite chans_set_chan. destruct (Nat.eqb_spec d c) as [->|n]; repeat split.
           ++ intros [|[|i]] d y Hi; cbn in Hi; try discriminate. injection Hi as <- <-. cbn [wait_of side w_sends Nat.leb negb].
              destruct (d_ring _ _ _ D c) as (_ & _ & _ & E4). rewrite E4. auto.
      * destruct (Hp eq_refl) as (ch & -> & G). cbn [bind]. eexists _, OSent. split; [reflexivity|].
        assert (clock st1 = clock st) as Ec by apply D. rewrite Ec.
        split; [eapply result_good; [exact G|discriminate|reflexivity]|]. split; [reflexivity|]. intros _. left. split; [|reflexivity]. right. lia.
Qed.

(** ** recv *)
Lemma chan_recv_ok caps st k c try : inv caps st -> fresh st -> cos st k = Idle ->
  exists st' o, chan_recv st k c try = Ok (st', o) /\ result caps st (LRecv k c try) st' o /\
  match held st c with
  | v :: _ => o = OGot v
  | [] => ((exists j, sending st j c) /\ exists v, o = OGot v) \/
          (~ (exists j, sending st j c) /\ o = if try then OFalse else if closed (chans st c) then OThrow else OParked)
  end.
Proof.
  intros [I B] F Hk. unfold chan_recv. pose proof (recv_try caps st c I B F) as H.
  destruct (waitq_pop st (sendq (chans st c))) as [[l|] x] eqn:P; cbn zeta in H |- *.
  - destruct H as (xs & X1 & X2 & st2 & -> & G). cbn [bind].
    destruct (held_ring caps st c B) as [HR _]. rewrite (ring_fun _ _ _ HR X1).
    eexists st2, _. split; [reflexivity|]. split; [eapply result_good; [exact G|discriminate|reflexivity]|].
    destruct xs as [|y xs]; [|reflexivity]. left. split; [|eauto].
    destruct (pop_some st false c I l x P) as (stale & w & _ & _ & Hp & _ & _ & Hin).
    apply sending_q; [exact I|]. exists l. split; [exact Hin|]. unfold live. eauto.
  - destruct H as (xs & X1 & X2 & D & Hn & NS & Hp).
    destruct (held_ring caps st c B) as [HR _]. rewrite (ring_fun _ _ _ HR X1).
    set (st1 := set_chan st c (set_sendq (chans st c) x)) in *.
    assert (buf_empty (chans st1 c) = buf_empty (chans st c)) as Ee.
    { destruct (d_ring _ _ _ D c) as (E1 & E2 & E3 & _). unfold buf_empty. congruence. }
    assert (closed (chans st1 c) = closed (chans st c)) as Ec by apply (d_ring _ _ _ D c).
    assert (clock st1 = clock st) as Ek by apply D.
    rewrite Ee, (ring_empty _ _ X1). destruct xs as [|y xs].
    + rewrite zlen_nil. cbn [Z.eqb negb]. destruct try.
      * exists st1, OFalse. split; [reflexivity|]. split; [apply result_dropped; [exact D|discriminate|reflexivity]|]. auto.
      * rewrite Ec. destruct (closed (chans st c)) eqn:Hc.
        -- exists st1, OThrow. split; [reflexivity|]. split; [apply result_dropped; [exact D|discriminate|reflexivity]|]. auto.
        -- eexists _, OParked. split; [reflexivity|]. split; [|auto].
           eapply (result_park caps st st1 _ (LRecv k c false)); eauto; try reflexivity.
           ++ intros r d. unfold q. cbn [chans set_co]. rewrite chans_set_chan. cbn [wait_of w_cases ents].
              rewrite app_nil_r. rewrite (Nat.eqb_sym c d). destruct (Nat.eqb_spec d c) as [->|n]; cbn [andb]; [|now rewrite app_nil_r].
              destruct r; cbn; [reflexivity|]. now rewrite app_nil_r.
           ++ intros d. cbn [chans set_co]. rewrite chans_set_chan. destruct (Nat.eqb_spec d c) as [->|n]; repeat split.
           ++ intros [|[|i]] d y Hi; cbn in Hi; try discriminate. injection Hi as <- <-. cbn [wait_of side w_sends Nat.leb negb].
              rewrite Ec. split; [reflexivity|]. split; [exact Hn|]. rewrite Ee, (ring_empty _ _ X1). reflexivity.
    + rewrite zlen_cons. pose proof (zlen_nonneg xs). replace (1 + zlen xs =? 0) with false by lia. cbn [negb].
      unfold q, qs in Hn. rewrite Hn. destruct (Hp y xs eq_refl) as (ch & -> & G). cbn [bind].
      eexists _, _. split; [reflexivity|]. rewrite Ek. split; [eapply result_good; [exact G|discriminate|reflexivity]|]. reflexivity.
Qed.

(** ** close *)
Lemma chan_close_result caps st k c : inv caps st ->
  exists st' o, chan_close st c = Ok (st', o) /\ result caps st (LClose k c) st' o /\
  (closed (chans st c) = true -> o = OThrow /\ st' = st) /\
  (closed (chans st c) = false -> o = OClosed /\ closed (chans st' c) = true /\
     forall j w s i v, cos st j = Parked w s -> nth_error (w_cases w) i = Some (c, v) ->
       exists i' v', cos st' j = Woken w s i' false None /\ nth_error (w_cases w) i' = Some (c, v')).
Proof.
  intros [I B]. destruct (closed (chans st c)) eqn:Hc.
  - exists st, OThrow. unfold chan_close. rewrite Hc. split; [reflexivity|].
    split; [apply result_dropped; [now apply dropped_refl|discriminate|reflexivity]|]. split; [auto|discriminate].
  - destruct (chan_close_ok st c I Hc) as (st' & E & Hlog & Hclk & I' & Hch & Hcos & Hall).
    exists st', OClosed. split; [exact E|].
    assert (forall d, same_ring (chans st d) (chans st' d) \/ (d = c /\ closed (chans st' d) = true)) as SR.
    { intros d. rewrite Hch. destruct (Nat.eqb_spec d c) as [->|n]; [right; auto|left; apply same_ring_refl]. }
    assert (forall d, buf (chans st' d) = buf (chans st d) /\ front (chans st' d) = front (chans st d) /\ rear (chans st' d) = rear (chans st d)) as RG.
    { intros d. rewrite Hch. destruct (Nat.eqb_spec d c) as [->|n]; auto. }
    assert (forall r d, q st' r d = if Nat.eqb d c then [] else q st r d) as Q.
    { intros r d. unfold q. rewrite Hch. destruct (Nat.eqb d c); [destruct r|]; reflexivity. }
    assert (forall e, live st' e -> live st e) as Lv.
    { intros e (w & s & H). destruct (Hcos (lk_co e)) as [E'|(w' & s' & i & v & _ & E' & _)]; rewrite E' in H; [|discriminate].
      unfold live. eauto. }
    assert (forall j w s, busy st' j w s -> busy st j w s) as Bu.
    { intros j w s Hb. destruct (Hcos j) as [E'|(w' & s' & i & v & E1 & E2 & _)]; unfold busy in *; [now rewrite <- E'|].
      rewrite E2 in Hb. destruct Hb as [Hb|(? & ? & ? & Hb)]; inversion Hb; subst. auto. }
    split.
    + apply result_same; [|discriminate|].
      * split; [exact I'|]. destruct B as [B1 B2 B3 B4 B5 B6 B7 B8 B9 B10 B11].
        assert (forall d, buf_empty (chans st' d) = buf_empty (chans st d)) as Ee.
        { intros d. destruct (RG d) as (E1 & E2 & E3). unfold buf_empty. congruence. }
        assert (forall d, buf_full (chans st' d) = buf_full (chans st d)) as Ef.
        { intros d. destruct (RG d) as (E1 & E2 & E3). unfold buf_full. now rewrite E1, E2, E3. }
        assert (forall r d l, In l (q st' r d) -> In l (q st r d)) as Sub.
        { intros r d l Hl. rewrite Q in Hl. destruct (Nat.eqb d c); [contradiction|exact Hl]. }
        split.
        -- intros d. destruct (B1 d) as (xs & X1 & X2). exists xs. rewrite Hlog. split; [|exact X2].
           destruct (RG d) as (E1 & E2 & E3). unfold ring in *. now rewrite E1, E2, E3.
        -- intros d. destruct (RG d) as (E1 & _). rewrite E1. apply B2.
        -- intros d l H1 H2. rewrite Ee. eauto.
        -- intros d l H1 H2. rewrite Ef. eauto.
        -- intros r d l1 l2 H1 H2 H3 H4. eapply B5; eauto.
        -- intros r d H. rewrite Q. rewrite Hch in H. destruct (Nat.eqb d c); auto.
        -- intros r d. rewrite Hlog. apply B7.
        -- intros r d. rewrite Q. destruct (Nat.eqb d c); [constructor|apply B8].
        -- intros r d l t v H1 H2 H3. rewrite Hlog in H3. eauto.
        -- intros e He. rewrite Hlog in He. rewrite Hclk. auto.
        -- intros j w s H. rewrite Hclk. eauto.
      * cbn. split; [exact Hclk|]. exists []. rewrite app_nil_r. split; [exact Hlog|]. split; [reflexivity|]. split; [contradiction|].
        intros j. destruct (Hcos j) as [E'|(w & s & i & v & E1 & E2 & Hn)]; [left; auto|].
        right. exists w, s, i, false, None. split; [exact E1|]. split; [exact E2|]. split; [congruence|]. reflexivity.
    + split; [discriminate|]. intros _. split; [reflexivity|]. split; [rewrite Hch, Nat.eqb_refl; reflexivity|exact Hall].
Qed.

(** ** select *)
Definition sel_events (now : Z) (sends n c : nat) (v : Z) (ok : bool) (msg : option Z) : list event :=
  if ok then if Nat.leb sends n then match msg with Some x => [Received c x now] | None => [] end else [Accepted c v now] else [].

Lemma dropped_unsuccessful caps st c : invq st -> invb caps st -> dropped caps st (set_chan st c (unsuccessful (chans st c))).
Proof.
  intros I B. set (st' := set_chan _ _ _).
  assert (forall r d, q st' r d = q st r d) as Q.
  { intros r d. unfold q, st'. rewrite chans_set_chan. destruct (Nat.eqb_spec d c) as [->|n]; destruct r; reflexivity. }
  assert (forall d, same_ring (chans st d) (chans st' d)) as SR.
  { intros d. unfold st'. rewrite chans_set_chan. destruct (Nat.eqb_spec d c) as [->|n]; repeat split. }
  split; try reflexivity; auto.
  - eapply invq_ext; [exact Q| |exact I]. reflexivity.
  - eapply invb_sub; [exact B|reflexivity|reflexivity|exact SR| | | |auto|auto]; intros; rewrite ?Q in *; auto. apply (b_qsorted _ _ B).
  - intros r d H. now rewrite Q.
  - intros r d l Hl. now rewrite Q in Hl.
Qed.

Lemma try_case_ok caps st i sends c v : inv caps st -> fresh st ->
  exists st' o, try_case st i sends c v = Ok (st', o) /\
  match o with
  | Some o => exists ok msg, o = OChosen i ok msg /\ good caps st st' (sel_events (clock st) sends i c v ok msg)
       /\ (ok = true -> Nat.leb sends i = true -> msg <> None) 
  | None => dropped caps st st' /\ closed (chans st c) = false /\ q st' (negb (Nat.leb sends i)) c = [] /\
      (if Nat.leb sends i then buf_empty (chans st c) else buf_full (chans st c)) = true
  end.
Proof.
  intros [I B] F. unfold try_case. destruct (Nat.leb sends i) eqn:Hi.
  - pose proof (recv_try caps st c I B F) as H.
    destruct (waitq_pop st (sendq (chans st c))) as [[l|] x] eqn:P; cbn zeta in H |- *.
    + destruct H as (xs & X1 & X2 & st2 & -> & G). cbn [bind]. eexists st2, _. split; [reflexivity|].
      exists true, (Some (hd (lk_val l) xs)). split; [reflexivity|]. unfold sel_events. rewrite Hi. split; [exact G|]. discriminate.
    + destruct H as (xs & X1 & X2 & D & Hn & NS & Hp).
      set (st1 := set_chan st c (set_sendq (chans st c) x)) in *.
      assert (buf_empty (chans st1 c) = buf_empty (chans st c)) as Ee.
      { destruct (d_ring _ _ _ D c) as (E1 & E2 & E3 & _). unfold buf_empty. congruence. }
      assert (closed (chans st1 c) = closed (chans st c)) as Ec by apply (d_ring _ _ _ D c).
      assert (clock st1 = clock st) as Ek by apply D.
      rewrite Ee, Ec, (ring_empty _ _ X1). destruct xs as [|y xs].
      * rewrite zlen_nil. cbn [Z.eqb negb]. destruct (closed (chans st c)) eqn:Hc.
        -- eexists _, _. split; [reflexivity|]. exists false, None. split; [reflexivity|]. split; [|discriminate].
           assert (dropped caps st (set_chan st1 c (unsuccessful (chans st1 c)))) as D'.
           { eapply dropped_trans; [exact D|]. apply dropped_unsuccessful; apply D. }
           split; [apply D'|]. split; [apply D'|]. apply eff_none; apply D'.
        -- exists st1, None. split; [reflexivity|]. auto.
      * rewrite zlen_cons. pose proof (zlen_nonneg xs). replace (1 + zlen xs =? 0) with false by lia. cbn [negb].
        destruct (Hp y xs eq_refl) as (ch & -> & G). cbn [bind]. eexists _, _. split; [reflexivity|].
        exists true, (Some y). split; [reflexivity|]. unfold sel_events. rewrite Hi, Ek. split; [exact G|discriminate].
  - destruct (closed (chans st c)) eqn:Hc.
    + eexists _, _. split; [reflexivity|]. exists false, None. split; [reflexivity|]. split; [|discriminate].
      pose proof (dropped_unsuccessful caps st c I B) as D'. split; [apply D'|]. split; [apply D'|]. apply eff_none; apply D'.
    + pose proof (send_try caps st c v I B F Hc) as H. destruct (waitq_pop st (recvq (chans st c))) as [[l|] x]; cbn zeta in H |- *.
      * destruct H as [(st2 & -> & G) R]. cbn [bind]. eexists st2, _. split; [reflexivity|]. exists true, None. split; [reflexivity|].
        unfold sel_events. rewrite Hi. split; [exact G|]. discriminate.
      * destruct H as (D & Hn & NR & Hp). set (st1 := set_chan st c (set_recvq (chans st c) x)) in *.
        assert (buf_full (chans st1 c) = buf_full (chans st c)) as Ef.
        { destruct (d_ring _ _ _ D c) as (E1 & E2 & E3 & _). unfold buf_full. now rewrite E1, E2, E3. }
        assert (clock st1 = clock st) as Ek by apply D.
        destruct (buf_full (chans st1 c)) eqn:Hf; cbn [negb].
        -- exists st1, None. split; [reflexivity|]. auto.
        -- destruct (Hp eq_refl) as (ch & -> & G). cbn [bind]. eexists _, _. split; [reflexivity|]. exists true, None. split; [reflexivity|].
           unfold sel_events. rewrite Hi, Ek. split; [exact G|discriminate].
Qed.

Lemma good_after caps a b c mine : dropped caps a b -> good caps b c mine -> good caps a c mine.
Proof. intros D (G1 & G2 & G3). split; [exact G1|]. split; [exact G2|]. eapply eff_after; eauto. Qed.

Lemma try_cases_ok caps i sends cases st : inv caps st -> fresh st ->
  exists st' o, try_cases st i sends cases = Ok (st', o) /\
  match o with
  | Some o => exists j c v ok msg, o = OChosen (i + j) ok msg /\ nth_error cases j = Some (c, v) /\
      good caps st st' (sel_events (clock st) sends (i + j) c v ok msg) /\ (ok = true -> Nat.leb sends (i + j) = true -> msg <> None)
  | None => dropped caps st st' /\
      forall j c v, nth_error cases j = Some (c, v) -> closed (chans st c) = false /\ q st' (negb (Nat.leb sends (i + j))) c = [] /\
      (if Nat.leb sends (i + j) then buf_empty (chans st c) else buf_full (chans st c)) = true
  end.
Proof.
  revert i st. induction cases as [|[c v] cases IH]; intros i st I F; cbn [try_cases].
  - exists st, None. split; [reflexivity|]. split; [apply dropped_refl; apply I|]. intros [|j] c v H; discriminate.
  - destruct (try_case_ok caps st i sends c v I F) as (st1 & o & -> & H). cbn [bind]. destruct o as [o|].
    + destruct H as (ok & msg & -> & G & M). eexists st1, _. split; [reflexivity|]. exists 0%nat, c, v, ok, msg.
      rewrite Nat.add_0_r. auto.
    + destruct H as (D & Hc & Hq & Hb). pose proof (dropped_fresh _ _ _ D F) as F1.
      destruct (IH (S i) st1 (conj (d_invq _ _ _ D) (d_invb _ _ _ D)) F1) as (st2 & o & -> & H).
      exists st2, o. split; [reflexivity|]. destruct o as [o|].
      * destruct H as (j & d & x & ok & msg & -> & Hn & G & M). exists (S j), d, x, ok, msg. rewrite Nat.add_succ_r. 
        split; [reflexivity|]. split; [exact Hn|]. split; [|exact M]. eapply good_after; [exact D|].
        replace (clock st) with (clock st1) by apply D. exact G.
      * destruct H as (D' & H). split; [eapply dropped_trans; eauto|]. intros [|j] d x Hn.
        -- injection Hn as <- <-. rewrite Nat.add_0_r. split; [exact Hc|]. split; [|exact Hb]. apply (d_nil _ _ _ D'). exact Hq.
        -- rewrite Nat.add_succ_r. destruct (H j d x Hn) as (H1 & H2 & H3).
           destruct (d_ring _ _ _ D d) as (E1 & E2 & E3 & E4). rewrite E4 in H1. split; [exact H1|]. split; [exact H2|].
           unfold buf_empty, buf_full in *. rewrite E1, E2, E3 in H3. exact H3.
Qed.

(** the unlocking of a parked select *)
Definition tidyL (cs : list nat) : Prop :=
  forall i j d x y z, (i < j)%nat -> (j < d)%nat -> nth_error cs i = Some x -> nth_error cs j = Some y -> nth_error cs d = Some z -> x = z -> y = x.
Lemma tidyL_tail c cs : tidyL (c :: cs) -> tidyL cs.
Proof. intros H i j d x y z Hi Hj H1 H2 H3 E. apply (H (S i) (S j) (S d) x y z); auto; lia. Qed.
Lemma park_unlocks_In last cs x : In x (park_unlocks last cs) -> last = Some x \/ In x cs.
Proof.
  revert last. induction cs as [|c cs IH]; intros [d|]; cbn [park_unlocks].
  - intros [->|[]]. auto.
  - intros [].
  - destruct (Nat.eqb c d).
    + intros H. apply IH in H as [H|H]; [injection H as ->; cbn; auto|cbn; auto].
    + intros [->|H]; [auto|]. apply IH in H as [H|H]; [injection H as ->; cbn; auto|cbn; auto].
  - intros H. apply IH in H as [H|H]; [injection H as ->; cbn; auto|cbn; auto].
Qed.
Lemma park_unlocks_distinct cs d : tidyL (d :: cs) -> distinct (park_unlocks (Some d) cs) = true.
Proof.
  revert d. induction cs as [|c cs IH]; intros d T; cbn [park_unlocks]; [reflexivity|].
  destruct (Nat.eqb_spec c d) as [->|n].
  - apply IH. eapply tidyL_tail; eauto.
  - cbn [distinct]. rewrite IH by (eapply tidyL_tail; eauto). rewrite andb_true_r.
    apply negb_true_iff. destruct (existsb (Nat.eqb d) (park_unlocks (Some c) cs)) eqn:E; [|reflexivity]. exfalso.
    apply existsb_exists in E as (x & Hx & E). apply Nat.eqb_eq in E. subst x.
    apply park_unlocks_In in Hx as [Hx|Hx]; [congruence|]. apply In_nth_error in Hx as (m & Hm).
    apply n. apply (T 0%nat 1%nat (S (S m)) d c d); auto; lia.
Qed.
Lemma tidy_distinct cs : tidyL cs -> distinct (park_unlocks None cs) = true.
Proof. destruct cs as [|c cs]; [reflexivity|]. cbn [park_unlocks]. apply park_unlocks_distinct. Qed.

Lemma chan_select_ok caps st k sends cases try : inv caps st -> fresh st -> cos st k = Idle ->
  (chan_select st k sends cases try = UB /\ distinct (park_unlocks None (map fst cases)) = false) \/
  exists st' o, chan_select st k sends cases try = Ok (st', o) /\ result caps st (LSelect k sends cases try) st' o /\ o <> ODisabled.
Proof.
  intros I F Hk. unfold chan_select. destruct (try_cases_ok caps 0 sends cases st I F) as (st1 & o & -> & H). cbn [bind].
  destruct o as [o|].
  - right. destruct H as (j & c & v & ok & msg & -> & Hn & G & M). eexists st1, _. split; [reflexivity|]. split; [|discriminate].
    eapply result_good; [exact G|discriminate|]. cbn [Nat.add]. unfold sel_events, expd, sent, got. cbn [Nat.add] in M.
    rewrite Hn. destruct ok; [|reflexivity]. destruct (Nat.leb_spec sends j), (Nat.ltb_spec j sends); try lia; [|reflexivity].
    destruct msg; [reflexivity|]. exfalso. now apply M.
  - destruct H as (D & H). destruct try.
    + right. exists st1, ODefault. split; [reflexivity|]. split; [|discriminate]. apply result_dropped; [exact D|discriminate|reflexivity].
    + destruct (distinct (park_unlocks None (map fst cases))) eqn:T; [|left; split; reflexivity].
      right. eexists _, OParked. split; [reflexivity|]. split; [|discriminate].
      assert (clock st1 = clock st) as Ek by apply D.
      eapply (result_park caps st st1 _ (LSelect k sends cases false)); eauto.
      * intros r c. unfold q at 1. cbn [chans set_co]. fold (q (enqueue st1 k 0 sends cases) r c).
        rewrite (q_enqueue st1 k 0 sends cases (WSelect cases sends)) by reflexivity. rewrite Ek. reflexivity.
      * intros j. rewrite cos_set_co. rewrite enqueue_cos. rewrite enqueue_clock, Ek. reflexivity.
      * apply enqueue_log.
      * apply enqueue_clock.
      * intros c. apply enqueue_ring.
      * intros i c v Hn. cbn [wait_of w_cases] in Hn. destruct (H i c v Hn) as (H1 & H2 & H3). cbn [Nat.add] in H2, H3.
        destruct (d_ring _ _ _ D c) as (E1 & E2 & E3 & E4). rewrite E4. split; [exact H1|]. split; [exact H2|].
        unfold side. cbn [w_sends wait_of]. unfold buf_empty, buf_full in *. rewrite E1, E2, E3. exact H3.
Qed.

(** ** One step *)
Definition step_eff (caps : nat -> Z) (st : state) (l : label) (st' : state) (o : out) : Prop :=
  (o = ODisabled /\ st' = tick st) \/
  (exists k, l = LResume k /\ log st' = log st /\ clock st' = clock st + 1 /\
     (forall j, cos st' j = if Nat.eqb j k then Idle else cos st j) /\
     exists w s i ok msg, cos st k = Woken w s i ok msg /\
       o = match w with
           | WSend _ _ => if ok then OSent else OThrow
           | WRecv _ => match ok, msg with true, Some v => OGot v | _, _ => OThrow end
           | WSelect _ _ => OChosen i ok msg
           end) \/
  (match l with LResume _ => False | _ => True end /\ o <> ODisabled /\ cos st (caller l) = Idle /\ result caps (tick st) l st' o /\
   (o = OParked -> match l with LSend _ _ _ _ | LRecv _ _ _ | LSelect _ _ _ _ => True | _ => False end)).

Lemma step_ok caps st l : inv caps st ->
  (step st l = UB /\ ~ tidy l) \/
  exists st' o, step st l = Ok (st', o) /\ inv caps st' /\ step_eff caps st l st' o.
Proof.
  intros I. destruct (inv_tick caps st I) as [I1 F1]. unfold step.
  assert (forall k r, caller l = k -> match l with LResume _ => False | _ => True end ->
    (cos st k = Idle -> exists st' o, r = Ok (st', o) /\ result caps (tick st) l st' o /\ o <> ODisabled /\
       (o = OParked -> match l with LSend _ _ _ _ | LRecv _ _ _ | LSelect _ _ _ _ => True | _ => False end)) ->
    exists st' o, when_idle (tick st) k r = Ok (st', o) /\ inv caps st' /\ step_eff caps st l st' o) as W.
  { intros k r Hk Hl H. unfold when_idle. change (cos (tick st) k) with (cos st k). destruct (cos st k) eqn:Ek.
    - destruct (H eq_refl) as (st' & o & -> & R & No & Hp). exists st', o. split; [reflexivity|]. split; [apply R|].
      right. right. rewrite Hk. auto.
    - exists (tick st), ODisabled. split; [reflexivity|]. split; [exact I1|]. left. auto.
    - exists (tick st), ODisabled. split; [reflexivity|]. split; [exact I1|]. left. auto. }
  destruct l as [k c v try|k c try|k c|k sends cases try|k]; cbn [do_step].
  - right. apply W; [reflexivity|exact Logic.I|]. intros Hk.
    destruct (chan_send_ok caps (tick st) k c v try I1 F1 Hk) as (st' & o & E & R & H1 & H2). exists st', o. split; [exact E|]. split; [exact R|].
    split; [|auto]. change (closed (chans (tick st) c)) with (closed (chans st c)) in *. destruct (closed (chans st c)); [congruence|].
    destruct (H2 eq_refl) as [[_ ->]|[_ ->]]; [discriminate|destruct try; discriminate].
  - right. apply W; [reflexivity|exact Logic.I|]. intros Hk.
    destruct (chan_recv_ok caps (tick st) k c try I1 F1 Hk) as (st' & o & E & R & H1). exists st', o. split; [exact E|]. split; [exact R|].
    split; [|auto]. destruct (held (tick st) c); [|subst o; discriminate].
    destruct H1 as [[_ (v & ->)]|[_ ->]]; [discriminate|]. destruct try, (closed (chans (tick st) c)); discriminate.
  - right. apply W; [reflexivity|exact Logic.I|]. intros Hk.
    destruct (chan_close_result caps (tick st) k c I1) as (st' & o & E & R & H1 & H2). exists st', o. split; [exact E|]. split; [exact R|].
    destruct (closed (chans (tick st) c)); [destruct (H1 eq_refl) as [-> _]|destruct (H2 eq_refl) as [-> _]]; split; discriminate.
  - assert ((when_idle (tick st) k (chan_select (tick st) k sends cases try) = UB /\ ~ tidy (LSelect k sends cases try)) \/
      (cos st k = Idle -> exists st' o, chan_select (tick st) k sends cases try = Ok (st', o) /\
         result caps (tick st) (LSelect k sends cases try) st' o /\ o <> ODisabled /\ (o = OParked -> True))) as S.
    { destruct (cos st k) eqn:Hk; [|right; discriminate|right; discriminate].
      destruct (chan_select_ok caps (tick st) k sends cases try I1 F1 Hk) as [[E D]|(st' & o & E & R & No)].
      - left. split.
        + unfold when_idle. change (cos (tick st) k) with (cos st k). rewrite Hk. exact E.
        + intros T. cbn in T. rewrite tidy_distinct in D by exact T. discriminate.
      - right. intros _. exists st', o. auto. }
    destruct S as [S|S]; [left; exact S|right].
    apply W; [reflexivity|exact Logic.I|]. intros Hk.
    exact (S Hk).
  - right. destruct (resume (tick st) k) as [[st' o]| | | | |] eqn:E.
    2-6: exfalso; unfold resume in E; destruct (cos (tick st) k) as [| |[] ? ? ? ?]; discriminate.
    destruct (resume_ok (tick st) k st' o (proj1 I1) E) as (I' & Hlog & Hclk & Hr & HQ & H).
    exists st', o. split; [reflexivity|].
    assert (forall j, cos st' j = cos st j \/ cos st' j = Idle) as CC.
    { destruct H as [(_ & -> & _)|[H _]]; intros j; [left; reflexivity|]. rewrite H. change (cos (tick st) j) with (cos st j). destruct (Nat.eqb j k); auto. }
    split.
    + split; [exact I'|]. destruct I1 as [_ B1]. eapply invb_sub; [exact B1|exact Hlog|lia|exact Hr| | | | |].
      * intros r c l Hl. destruct (HQ r c) as (P & HP). rewrite HP in Hl. now apply filter_In in Hl.
      * intros r c. destruct (HQ r c) as (P & ->). apply StronglySorted_filter, (b_qsorted _ _ B1).
      * intros r c En. destruct (HQ r c) as (P & ->). now rewrite En.
      * intros l (w & s & Hw). destruct (CC (lk_co l)) as [Ec|Ec]; rewrite Ec in Hw; [|discriminate]. unfold live. eauto.
      * intros j w s Hb. destruct (CC j) as [Ec|Ec]; unfold busy in *; rewrite Ec in Hb; [exact Hb|].
        destruct Hb as [Hb|(? & ? & ? & Hb)]; discriminate.
    + destruct H as [(-> & -> & _)|(H1 & w & s & i & ok & msg & H2 & H3)]; [left; auto|]. right. left. exists k.
      split; [reflexivity|]. split; [exact Hlog|]. split; [exact Hclk|]. split; [exact H1|]. exists w, s, i, ok, msg. auto.
Qed.
