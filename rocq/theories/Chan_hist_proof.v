(** Proofs about channels: what the calls returned and what the log says agree. *)
From Verif Require Import Base Base_lemmas Zlist Chan_model Chan_spec Chan_proof Chan_queue_proof Chan_step_proof Chan_op_proof.
From Coq Require Import Sorting.Sorted.
From Coq Require Import ZifyBool ZifyNat.

Definition blocking (l : label) : Prop := match l with LSend _ _ _ _ | LRecv _ _ _ | LSelect _ _ _ _ => True | _ => False end.

Record hinv (caps : nat -> Z) (h : history) (st : state) : Prop := {
  hi_inv : inv caps st;
  hi_time : h_time h = clock st;
  hi_done : forall t l o, In (t, l, o) (h_done h) -> evs t (log st) = expd t l o /\ t <= clock st;
  hi_cos : forall k, match cos st k with
    | Idle => h_blocked h k = None
    | Parked w s => exists l, h_blocked h k = Some (s, l) /\ blocking l /\ wait_of l = w /\ evs s (log st) = []
    | Woken w s i ok msg => exists l, h_blocked h k = Some (s, l) /\ blocking l /\ wait_of l = w /\
        evs s (log st) = wexp s w i ok msg /\ nth_error (w_cases w) i <> None
    end;
  hi_sep : forall t l o k w s, In (t, l, o) (h_done h) -> busy st k w s -> t <> s;
  hi_from : forall e, In e (log st) -> (exists l o, In (ev_stamp e, l, o) (h_done h)) \/ exists k w, busy st k w (ev_stamp e);
}.

Lemma evs_nil s es : (forall e, In e es -> ev_stamp e <> s) -> evs s es = [].
Proof.
  intros H. unfold evs. induction es as [|e es IH]; [reflexivity|]. cbn [filter]. destruct (Z.eqb_spec (ev_stamp e) s) as [E|_].
  - exfalso. apply (H e); cbn; auto.
  - apply IH. intros e' He'. apply H. cbn. auto.
Qed.

Lemma wexp_expd l s w i ok msg : blocking l -> wait_of l = w -> nth_error (w_cases w) i <> None ->
  wexp s w i ok msg = expd s l match w with
         | WSend _ _ => if ok then OSent else OThrow
         | WRecv _ => match ok, msg with true, Some v => OGot v | _, _ => OThrow end
         | WSelect _ _ => OChosen i ok msg
         end.
Proof.
  intros Hb <- Hn. destruct l as [k c v try|k c try|k c|k sends cases try|k]; try contradiction; cbn [wait_of w_cases w_sends] in *;
    unfold wexp, expd; cbn [w_cases side w_sends].
  - destruct i as [|[|i]]; [|exfalso; now apply Hn|exfalso; now apply Hn]. destruct ok; reflexivity.
  - destruct i as [|[|i]]; [|exfalso; now apply Hn|exfalso; now apply Hn]. destruct ok, msg; reflexivity.
  - cbn [wait_of]. destruct ok; [|reflexivity]. unfold side. cbn [w_sends sent got].
    destruct (nth_error cases i) as [[d x]|]; [|contradiction].
    destruct (Nat.leb_spec sends i), (Nat.ltb_spec i sends); try lia; [|reflexivity]. destruct msg; reflexivity.
Qed.

Lemma hinv_step caps h st l st' o : hinv caps h st -> step st l = Ok (st', o) -> hinv caps (h_step h (l, o)) st'.
Proof.
  intros H E. destruct H as [Hi Ht Hd Hc Hs Hf].
  destruct (step_ok caps st l Hi) as [[E2 _]|(st2 & o2 & E2 & I' & SE)]; [congruence|]. rewrite E in E2. injection E2 as <- <-.
  destruct SE as [(-> & ->)|[(k & -> & Hlog & Hclk & HC & w & s & i & ok & msg & Hw & Ho)|(Hnl & No & Hidle & R & Hpk)]].
  - (* nothing happened *)
    assert (h_step h (l, ODisabled) = mk_history (h_time h + 1) (h_blocked h) (h_done h)) as -> by (destruct l; reflexivity).
    split; cbn [h_time h_blocked h_done]; auto.
    + cbn. lia.
    + intros t l' o' Hin. destruct (Hd _ _ _ Hin) as [H1 H2]. split; [exact H1|]. cbn. lia.
  - (* a woken call returns *)
    pose proof (Hc k) as Hk. rewrite Hw in Hk. destruct Hk as (l & Hb & Hbl & Hwl & Hev & Hn).
    assert (h_step h (LResume k, o) = mk_history (h_time h + 1) (block (h_blocked h) k None) (h_done h ++ [(s, l, o)])) as ->.
    { unfold h_step. cbn [caller]. rewrite Hb. rewrite Ho. destruct w; destruct ok; try destruct msg; reflexivity. }
    split; cbn [h_time h_blocked h_done].
    + exact I'.
    + lia.
    + intros t l' o' Hin. rewrite Hlog. apply in_app_or in Hin as [Hin|[Hin|[]]].
      * destruct (Hd _ _ _ Hin) as [H1 H2]. split; [exact H1|lia].
      * injection Hin as <- <- <-. split.
        -- rewrite Hev, Ho. now apply wexp_expd.
        -- pose proof (b_busy _ _ (proj2 Hi) k w s) as X. specialize (X (or_intror (ex_intro _ i (ex_intro _ ok (ex_intro _ msg Hw))))). lia.
    + intros j. rewrite HC. unfold block. destruct (Nat.eqb_spec j k) as [->|n]; [reflexivity|]. rewrite Hlog. apply Hc.
    + intros t l' o' j w' s' Hin Hbu. assert (j <> k /\ busy st j w' s') as [Nj Hbu'].
      { unfold busy in *. rewrite HC in Hbu. destruct (Nat.eqb_spec j k); [destruct Hbu as [Hbu|(? & ? & ? & Hbu)]; discriminate|auto]. }
      apply in_app_or in Hin as [Hin|[Hin|[]]]; [eapply Hs; eauto|]. injection Hin as <- <- <-. intros ->.
      apply Nj. eapply (q_uniq _ (proj1 Hi)); [exact Hbu'|]. right. eauto.
    + intros e He. rewrite Hlog in He. destruct (Hf e He) as [(l' & o' & Hin)|(j & w' & Hbu)].
      * left. exists l', o'. apply in_or_app. auto.
      * destruct (Nat.eq_dec j k) as [->|n].
        -- left. exists l, o. apply in_or_app. right. left.
           destruct (busy_fun st k w' w (ev_stamp e) s Hbu) as [_ ->]; [right; eauto|]. reflexivity.
        -- right. exists j, w'. unfold busy in *. rewrite HC. destruct (Nat.eqb_spec j k); [contradiction|exact Hbu].
  - (* a call *)
    destruct R as [_ (st1 & [Ec (es & Hes & Hmine & Hwho & Hcs)] & Hlog & Hclk & HC)].
    set (now := clock (tick st)) in *. set (k := caller l) in *.
    assert (now = clock st + 1) as Enow by reflexivity.
    change (log (tick st)) with (log st) in Hes. change (cos (tick st)) with (cos st) in *.
    assert (forall j w s, busy (tick st) j w s <-> busy st j w s) as BT by (intros; reflexivity).
    assert (forall j w s, busy st j w s -> s < now) as Bn by (intros j w s Hb; apply (b_busy _ _ (proj2 Hi)) in Hb; lia).
    assert (cos st1 k = Idle) as Hk1.
    { destruct (Hcs k) as [[H1 _]|(w & s & i & ok & msg & H1 & _)]; congruence. }
    (* times of finished calls are untouched *)
    assert (forall t l' o', In (t, l', o') (h_done h) -> evs t es = []) as Hold.
    { intros t l' o' Hin. apply evs_nil. intros e He Et. destruct (Hwho e He) as [H1|(j & w & H1)].
      - destruct (Hd _ _ _ Hin) as [_ H2]. lia.
      - apply (Hs t l' o' j w (ev_stamp e)); [exact Hin|left; exact H1|congruence]. }
    assert (evs now (log st) = []) as Hnow.
    { apply evs_nil. intros e He Et. apply (b_le _ _ (proj2 Hi)) in He. lia. }
    assert (forall j w s, busy st1 j w s -> busy st j w s) as B1.
    { intros j w s Hb. unfold busy in *. destruct (Hcs j) as [[H1 _]|(w' & s' & i & ok & msg & H1 & H2 & _)]; [now rewrite H1 in Hb|].
      rewrite H2 in Hb. destruct Hb as [Hb|(? & ? & ? & Hb)]; inversion Hb; subst; auto. }
    assert (forall j w s, busy st j w s -> busy st1 j w s) as B2.
    { intros j w s Hb. unfold busy in *. destruct (Hcs j) as [[H1 _]|(w' & s' & i & ok & msg & H1 & H2 & _)]; [now rewrite H1|].
      rewrite H1 in Hb. destruct Hb as [Hb|(? & ? & ? & Hb)]; inversion Hb; subst. right. eauto. }
    assert (forall j, j <> k -> match cos st1 j with
      | Idle => h_blocked h j = None
      | Parked w s => exists l', h_blocked h j = Some (s, l') /\ blocking l' /\ wait_of l' = w /\ evs s (log st') = []
      | Woken w s i ok msg => exists l', h_blocked h j = Some (s, l') /\ blocking l' /\ wait_of l' = w /\
          evs s (log st') = wexp s w i ok msg /\ nth_error (w_cases w) i <> None
      end) as Hothers.
    { intros j Nj. specialize (Hc j). rewrite Hlog, Hes. destruct (Hcs j) as [[H1 H2]|(w & s & i & ok & msg & H1 & H2 & H3 & H4)].
      - rewrite H1. destruct (cos st j) as [|w s|w s i ok msg] eqn:Ej; [exact Hc| |].
        + destruct Hc as (l' & X1 & X2 & X3 & X4). exists l'. rewrite evs_app, X4, (H2 w s) by (left; exact Ej). auto.
        + destruct Hc as (l' & X1 & X2 & X3 & X4 & X5). exists l'. rewrite evs_app, X4, (H2 w s) by (right; exists i, ok, msg; exact Ej).
          rewrite app_nil_r. auto.
      - rewrite H1 in Hc. rewrite H2. destruct Hc as (l' & X1 & X2 & X3 & X4). exists l'. rewrite evs_app, X4, H4. auto. }
    assert (o = OParked -> evs now (log st') = []) as HevP.
    { intros ->. rewrite Hlog, Hes, evs_app, Hnow, Hmine. destruct l; try contradiction; reflexivity. }
    assert (evs now (log st') = expd now l o) as Hev by (rewrite Hlog, Hes, evs_app, Hnow, Hmine; reflexivity).
    assert (o = OParked \/ o <> OParked) as [->|Np] by (destruct o; auto; right; discriminate).
    + (* it parks *)
      assert (h_step h (l, OParked) = mk_history (h_time h + 1) (block (h_blocked h) k (Some (h_time h + 1, l))) (h_done h)) as ->.
      { destruct l; try contradiction; reflexivity. }
      specialize (Hpk eq_refl).
      split; cbn [h_time h_blocked h_done]; rewrite ?Ht.
      * exact I'.
      * lia.
      * intros t l' o' Hin. destruct (Hd _ _ _ Hin) as [H1 H2]. rewrite Hlog, Hes, evs_app, (Hold _ _ _ Hin), app_nil_r.
        split; [exact H1|lia].
      * intros j. rewrite HC. unfold block. destruct (Nat.eqb_spec j k) as [->|n]; [|now apply Hothers].
        exists l. rewrite Enow at 1. split; [reflexivity|]. split; [exact Hpk|]. split; [reflexivity|]. auto.
      * intros t l' o' j w s Hin Hb. unfold busy in Hb. rewrite HC in Hb. destruct (Nat.eqb_spec j k) as [->|n].
        -- destruct Hb as [Hb|(? & ? & ? & Hb)]; inversion Hb. subst s. destruct (Hd _ _ _ Hin) as [_ H2]. lia.
        -- eapply Hs; [exact Hin|]. apply B1. exact Hb.
      * intros e He. rewrite Hlog, Hes in He.
        assert (forall j w, busy st j w (ev_stamp e) -> exists k0 w0, busy st' k0 w0 (ev_stamp e)) as Up.
        { intros j w Hb. assert (j <> k) as Nj. { intros ->. destruct Hb as [Hb|(? & ? & ? & Hb)]; congruence. }
          apply B2 in Hb. exists j, w. unfold busy in *. rewrite HC. destruct (Nat.eqb_spec j k); [contradiction|exact Hb]. }
        apply in_app_or in He as [He|He].
        -- destruct (Hf e He) as [X|(j & w & Hb)]; [left; exact X|]. right. eauto.
        -- right. destruct (Hwho e He) as [X|(j & w & X)]; [|eapply Up; left; exact X].
           exfalso. specialize (HevP eq_refl). rewrite Hlog, Hes, evs_app in HevP. apply app_eq_nil in HevP as [_ HevP].
           assert (In e (evs now es)) as Y by (apply filter_In; split; [exact He|apply Z.eqb_eq; exact X]). rewrite HevP in Y. exact Y.
    + (* it returns *)
      assert (h_step h (l, o) = mk_history (h_time h + 1) (h_blocked h) (h_done h ++ [(h_time h + 1, l, o)])) as ->.
      { destruct l; try contradiction; destruct o; try reflexivity; congruence. }
      assert (forall j, cos st' j = cos st1 j) as HC'.
      { intros j. rewrite HC. destruct o; try reflexivity. congruence. }
      split; cbn [h_time h_blocked h_done]; rewrite ?Ht.
      * exact I'.
      * lia.
      * intros t l' o' Hin. apply in_app_or in Hin as [Hin|[Hin|[]]].
        -- destruct (Hd _ _ _ Hin) as [H1 H2]. rewrite Hlog, Hes, evs_app, (Hold _ _ _ Hin), app_nil_r. split; [exact H1|lia].
        -- injection Hin as <- <- <-. rewrite <- Enow. split; [exact Hev|lia].
      * intros j. rewrite HC'. destruct (Nat.eq_dec j k) as [->|n]; [|now apply Hothers].
        rewrite Hk1. specialize (Hc k). rewrite Hidle in Hc. exact Hc.
      * intros t l' o' j w s Hin Hb. unfold busy in Hb. rewrite HC' in Hb. apply B1 in Hb.
        apply in_app_or in Hin as [Hin|[Hin|[]]]; [eapply Hs; eauto|]. injection Hin as <- <- <-. apply Bn in Hb. lia.
      * intros e He. rewrite Hlog, Hes in He.
        assert (forall j w, busy st j w (ev_stamp e) -> exists k0 w0, busy st' k0 w0 (ev_stamp e)) as Up.
        { intros j w Hb. apply B2 in Hb. exists j, w. unfold busy in *. now rewrite HC'. }
        apply in_app_or in He as [He|He].
        -- destruct (Hf e He) as [(l' & o' & X)|(j & w & Hb)]; [left; exists l', o'; apply in_or_app; auto|]. right. eauto.
        -- destruct (Hwho e He) as [X|(j & w & X)]; [|right; eapply Up; left; exact X].
           left. exists l, o. apply in_or_app. right. left. rewrite X, Enow. reflexivity.
Qed.

Lemma hinv_init caps : hinv caps h_init (init caps).
Proof.
  split; cbn [h_time h_blocked h_done h_init].
  - apply inv_init.
  - reflexivity.
  - intros t l o [].
  - intros k. reflexivity.
  - intros t l o k w s [].
  - intros e [].
Qed.

Lemma hinv_run caps ls : forall h st st' os, hinv caps h st -> run st ls = Ok (st', os) ->
  hinv caps (fold_left h_step (combine ls os) h) st'.
Proof.
  induction ls as [|l ls IH]; intros h st st' os H R; cbn [run] in R.
  - injection R as <- <-. exact H.
  - destruct (step st l) as [[st1 o]| | | | |] eqn:E; try discriminate. cbn [bind] in R.
    destruct (run st1 ls) as [[st2 os2]| | | | |] eqn:E2; try discriminate. cbn [bind] in R. injection R as <- <-.
    cbn [combine fold_left]. eapply IH; [|exact E2]. eapply hinv_step; eauto.
Qed.

Lemma run_total caps ls : Forall tidy ls -> forall st, inv caps st -> exists st' os, run st ls = Ok (st', os) /\ inv caps st'.
Proof.
  induction 1 as [|l ls T _ IH]; intros st H; cbn [run].
  - eauto.
  - destruct (step_ok caps st l H) as [[_ N]|(st1 & o & -> & H1 & _)]; [contradiction|]. cbn [bind].
    destruct (IH st1 H1) as (st2 & os & -> & H2). cbn [bind]. eauto.
Qed.

Lemma In_accepted c es t v : In (t, v) (accepted c es) <-> In (Accepted c v t) es.
Proof.
  unfold accepted. rewrite in_flat_map. split.
  - intros (e & He & H). destruct e as [d x s|d x s]; [|contradiction]. destruct (Nat.eqb_spec d c) as [->|]; [|contradiction].
    destruct H as [H|[]]. injection H as -> ->. exact He.
  - intros H. exists (Accepted c v t). split; [exact H|]. rewrite Nat.eqb_refl. cbn. auto.
Qed.
Lemma In_received c es t v : In (t, v) (received c es) <-> In (Received c v t) es.
Proof.
  unfold received. rewrite in_flat_map. split.
  - intros (e & He & H). destruct e as [d x s|d x s]; [contradiction|]. destruct (Nat.eqb_spec d c) as [->|]; [|contradiction].
    destruct H as [H|[]]. injection H as -> ->. exact He.
  - intros H. exists (Received c v t). split; [exact H|]. rewrite Nat.eqb_refl. cbn. auto.
Qed.
Lemma evs_In e es : In e es <-> In e (evs (ev_stamp e) es).
Proof. unfold evs. rewrite filter_In, Z.eqb_refl. intuition. Qed.

Lemma sent_got l o : sent l o <> None -> got l o = None.
Proof.
  intros H. destruct l as [k c v try|k c try|k c|k sends cases try|k]; try (destruct o; reflexivity).
  - exfalso. apply H. destruct o; reflexivity.
  - destruct o as [| | | | | |i [] [v|]| |]; try reflexivity. cbn [sent got] in *. destruct (Nat.ltb i sends); [reflexivity|]. exfalso. now apply H.
Qed.

Theorem fifo_holds caps h st c : hinv caps h st -> fifo h c (caps c) (accepted c (log st)) (received c (log st)).
Proof.
  intros H. destruct H as [[I B] Ht Hd Hc Hs Hf]. split.
  - apply (b_sorted _ _ B false).
  - apply (b_sorted _ _ B true).
  - destruct (held_ring caps st c B) as [R X]. exists (held st c). split; [exact X|]. apply held_full. exact B.
  - intros t l o Hin v. destruct (Hd _ _ _ Hin) as [E _]. rewrite In_accepted, evs_In. cbn [ev_stamp]. rewrite E. unfold expd.
    destruct (sent l o) as [[d x]|] eqn:Es.
    + cbn. split; [intros X; injection X as <- <-; auto|]. intros [X|[]]. injection X as <- <-. reflexivity.
    + split; [discriminate|]. destruct (got l o) as [[d x]|]; [|intros []]. intros [X|[]]. discriminate.
  - intros t l o Hin v. destruct (Hd _ _ _ Hin) as [E _]. rewrite In_received, evs_In. cbn [ev_stamp]. rewrite E. unfold expd.
    destruct (sent l o) as [[d x]|] eqn:Es.
    + rewrite (sent_got l o) by congruence. split; [discriminate|]. intros [X|[]]. discriminate.
    + destruct (got l o) as [[d x]|]; cbn; split.
      * intros X. injection X as <- <-. auto.
      * intros [X|[]]. injection X as <- <-. reflexivity.
      * discriminate.
      * intros [].
  - intros t v Hin. apply In_accepted in Hin. pose proof (Hf _ Hin) as F. cbn [ev_stamp] in F.
    destruct F as [X|(k & w & Hb)]; [left; exact X|]. right. exists k. specialize (Hc k).
    destruct Hb as [Hb|(i & ok & msg & Hb)]; rewrite Hb in Hc.
    + destruct Hc as (l & _ & _ & _ & E). apply evs_In in Hin. cbn [ev_stamp] in Hin. rewrite E in Hin. contradiction.
    + destruct Hc as (l & Hbl & Hk & Hw & E & Hn). exists l. split; [exact Hbl|].
      apply evs_In in Hin. cbn [ev_stamp] in Hin. rewrite E in Hin. unfold wexp in Hin. destruct ok; [|contradiction].
      destruct (nth_error (w_cases w) i) as [[d x]|] eqn:En; [|contradiction].
      destruct (side w i) eqn:Esd; [destruct msg; [|contradiction]; destruct Hin as [Hin|[]]; discriminate|].
      destruct Hin as [Hin|[]]. injection Hin as -> ->. unfold side in Esd. apply Nat.leb_gt in Esd.
      destruct l as [k0 d y try|k0 d try|k0 d|k0 sends cases try|k0]; try contradiction; subst w; cbn [wait_of w_cases w_sends] in *.
      * destruct i as [|[|i]]; cbn in En; try discriminate. injection En as -> ->. cbn. auto.
      * lia.
      * cbn. exists i. auto.
  - intros t v Hin. apply In_received in Hin. pose proof (Hf _ Hin) as F. cbn [ev_stamp] in F.
    destruct F as [X|(k & w & Hb)]; [left; exact X|]. right. exists k. specialize (Hc k).
    destruct Hb as [Hb|(i & ok & msg & Hb)]; rewrite Hb in Hc.
    + destruct Hc as (l & _ & _ & _ & E). apply evs_In in Hin. cbn [ev_stamp] in Hin. rewrite E in Hin. contradiction.
    + destruct Hc as (l & Hbl & Hk & Hw & E & Hn). exists l. split; [exact Hbl|].
      apply evs_In in Hin. cbn [ev_stamp] in Hin. rewrite E in Hin. unfold wexp in Hin. destruct ok; [|contradiction].
      destruct (nth_error (w_cases w) i) as [[d x]|] eqn:En; [|contradiction].
      destruct (side w i) eqn:Esd; [|destruct Hin as [Hin|[]]; discriminate]. destruct msg; [|contradiction].
      destruct Hin as [Hin|[]]. injection Hin as -> ->. unfold side in Esd. apply Nat.leb_le in Esd.
      destruct l as [k0 d y try|k0 d try|k0 d|k0 sends cases try|k0]; try contradiction; subst w; cbn [wait_of w_cases w_sends] in *.
      * destruct i as [|[|i]]; cbn in En; try discriminate. lia.
      * destruct i as [|[|i]]; cbn in En; try discriminate. injection En as -> _. reflexivity.
      * cbn. exists i, x. auto.
Qed.

(** at most one event for each call *)
Lemma one_event caps h st t : hinv caps h st -> (length (evs t (log st)) <= 1)%nat.
Proof.
  intros [_ _ Hd Hc _ Hf]. destruct (evs t (log st)) as [|e es] eqn:E; [cbn; lia|].
  assert (In e (log st) /\ ev_stamp e = t) as [He Et].
  { assert (In e (evs t (log st))) as X by (rewrite E; cbn; auto). apply filter_In in X as [X Y]. apply Z.eqb_eq in Y. auto. }
  rewrite <- E. subst t. destruct (Hf e He) as [(l & o & Hin)|(k & w & Hb)].
  - destruct (Hd _ _ _ Hin) as [-> _]. unfold expd. destruct (sent l o) as [[]|]; [cbn; lia|]. destruct (got l o) as [[]|]; cbn; lia.
  - specialize (Hc k). destruct Hb as [Hb|(i & ok & msg & Hb)]; rewrite Hb in Hc.
    + destruct Hc as (l & _ & _ & _ & ->). cbn. lia.
    + destruct Hc as (l & _ & _ & _ & -> & _). unfold wexp. destruct ok; [|cbn; lia].
      destruct (nth_error (w_cases w) i) as [[]|]; [|cbn; lia]. destruct (side w i); [destruct msg; cbn; lia|cbn; lia].
Qed.

Lemma run_inv caps ls st os : run (init caps) ls = Ok (st, os) -> hinv caps (history_of ls os) st.
Proof. intros R. unfold history_of. eapply hinv_run; [apply hinv_init|exact R]. Qed.

(** a closed channel stays closed *)
Definition keeps (st st' : state) : Prop := forall c, closed (chans st c) = true -> closed (chans st' c) = true.
Lemma keeps_refl st : keeps st st. Proof. intros c H. exact H. Qed.
Lemma keeps_trans a b c : keeps a b -> keeps b c -> keeps a c. Proof. intros H1 H2 d H. auto. Qed.
Lemma keeps_set st c ch : (closed (chans st c) = true -> closed ch = true) -> keeps st (set_chan st c ch).
Proof. intros H d Hd. rewrite chans_set_chan. destruct (Nat.eqb_spec d c) as [->|]; auto. Qed.
Lemma keeps_wake st l ok msg st' : wake st l ok msg = Ok st' -> keeps st st'.
Proof. unfold wake. destruct (cos st (lk_co l)); try discriminate. intros E. injection E as <-. intros c H. exact H. Qed.
Lemma buf_push_closed ch v ch' : buf_push ch v = Ok ch' -> closed ch' = closed ch.
Proof. unfold buf_push. destruct (buf_full ch); [discriminate|]. destruct (set_at _ _ _); try discriminate. intros E. injection E as <-. reflexivity. Qed.
Lemma buf_pop_closed ch v ch' : buf_pop ch = Ok (ch', v) -> closed ch' = closed ch.
Proof. unfold buf_pop. destruct (buf_empty ch); [discriminate|]. destruct (at_ _ _); try discriminate. intros E. injection E as <- _. reflexivity. Qed.
Lemma keeps_rt_send st c l v st' : rt_send st c l v = Ok st' -> keeps st st'.
Proof.
  unfold rt_send. destruct (wake st l true (Some v)) eqn:E; try discriminate. cbn [bind]. intros X. injection X as <-.
  apply keeps_wake in E. exact E.
Qed.
Lemma keeps_rt_recv st c l st' v : rt_recv st c l = Ok (st', v) -> keeps st st'.
Proof.
  unfold rt_recv. destruct (buf_empty (chans st c)).
  - destruct (wake st l true None) eqn:E; try discriminate. cbn [bind]. intros X. injection X as <- _. apply keeps_wake in E. exact E.
  - destruct (negb (buf_full (chans st c))); [discriminate|].
    destruct (buf_pop (chans st c)) as [[ch x]| | | | |] eqn:E1; try discriminate. cbn [bind].
    destruct (buf_push ch (lk_val l)) as [ch'| | | | |] eqn:E2; try discriminate. cbn [bind].
    destruct (wake (set_chan st c ch') l true None) eqn:E3; try discriminate. cbn [bind]. intros X. injection X as <- _.
    apply keeps_wake in E3. eapply keeps_trans; [|exact E3]. apply keeps_set. rewrite (buf_push_closed _ _ _ E2), (buf_pop_closed _ _ _ E1). auto.
Qed.
Lemma keeps_try_case st i sends c v st' o : try_case st i sends c v = Ok (st', o) -> keeps st st'.
Proof.
  unfold try_case. destruct (Nat.leb sends i).
  - destruct (waitq_pop st (sendq (chans st c))) as [[l|] x].
    + destruct (rt_recv _ c l) as [[st2 y]| | | | |] eqn:E; try discriminate. cbn [bind]. intros X. injection X as <- _.
      apply keeps_rt_recv in E. eapply keeps_trans; [|exact E]. apply keeps_set. auto.
    + destruct (negb _).
      * destruct (buf_pop _) as [[ch y]| | | | |] eqn:E; try discriminate. cbn [bind]. intros X. injection X as <- _.
        apply buf_pop_closed in E. rewrite chans_set_chan, Nat.eqb_refl in E. intros d Hd. cbn [chans record]. rewrite !chans_set_chan.
        destruct (Nat.eqb_spec d c) as [->|]; [|exact Hd]. rewrite E. exact Hd.
      * destruct (closed _); intros X; injection X as <- _; [|apply keeps_set; auto].
        intros d Hd. rewrite !chans_set_chan. destruct (Nat.eqb_spec d c) as [->|]; [|exact Hd]. rewrite Nat.eqb_refl. exact Hd.
  - destruct (closed (chans st c)) eqn:Hc; [intros X; injection X as <- _; apply keeps_set; auto|].
    destruct (waitq_pop st (recvq (chans st c))) as [[l|] x].
    + destruct (rt_send _ c l v) as [st2| | | | |] eqn:E; try discriminate. cbn [bind]. intros X. injection X as <- _.
      apply keeps_rt_send in E. eapply keeps_trans; [|exact E]. apply keeps_set. auto.
    + destruct (negb _).
      * destruct (buf_push _ _) as [ch| | | | |] eqn:E; try discriminate. cbn [bind]. intros X. injection X as <- _.
        apply buf_push_closed in E. rewrite chans_set_chan, Nat.eqb_refl in E. intros d Hd. cbn [chans record]. rewrite !chans_set_chan.
        destruct (Nat.eqb_spec d c) as [->|]; [|exact Hd]. rewrite E. exact Hd.
      * intros X. injection X as <- _. apply keeps_set. auto.
Qed.
Lemma keeps_try_cases cases : forall st i sends st' o, try_cases st i sends cases = Ok (st', o) -> keeps st st'.
Proof.
  induction cases as [|[c v] cases IH]; intros st i sends st' o; cbn [try_cases].
  - intros X. injection X as <- _. apply keeps_refl.
  - destruct (try_case st i sends c v) as [[st1 o1]| | | | |] eqn:E; try discriminate. cbn [bind]. apply keeps_try_case in E.
    destruct o1; [intros X; injection X as <- _; exact E|]. intros X. apply IH in X. eapply keeps_trans; eauto.
Qed.
Lemma keeps_close_loop q0 : forall st st', close_loop st q0 = Ok st' -> keeps st st'.
Proof.
  induction q0 as [|e q0 IH]; intros st st'; cbn [close_loop].
  - intros X. injection X as <-. apply keeps_refl.
  - destruct (lk_sel e && select_done st e); [apply IH|]. destruct (wake st e false None) as [st1| | | | |] eqn:E; try discriminate. cbn [bind].
    intros X. apply IH in X. apply keeps_wake in E. eapply keeps_trans; eauto.
Qed.

Lemma closed_step st l st' o : step st l = Ok (st', o) -> keeps st st'.
Proof.
  unfold step. assert (keeps st (tick st)) as K0 by (intros c H; exact H).
  assert (forall k r, when_idle (tick st) k r = Ok (st', o) -> (r = Ok (st', o) -> keeps (tick st) st') -> keeps st st') as W.
  { intros k r. unfold when_idle. destruct (cos (tick st) k).
    - intros H H'. eapply keeps_trans; [exact K0|]. auto.
    - intros X _. injection X as <- _. exact K0.
    - intros X _. injection X as <- _. exact K0. }
  destruct l as [k c v try|k c try|k c|k sends cases try|k]; cbn [do_step]; try (intros H; apply (W _ _ H); clear H).
  - unfold chan_send. destruct (closed (chans (tick st) c)); [intros X; injection X as <- _; apply keeps_refl|].
    destruct (waitq_pop (tick st) (recvq (chans (tick st) c))) as [[l|] x].
    + destruct (rt_send _ c l v) as [st2| | | | |] eqn:E; try discriminate. cbn [bind]. intros X. injection X as <- _.
      apply keeps_rt_send in E. eapply keeps_trans; [|exact E]. apply keeps_set. auto.
    + destruct (negb _).
      * destruct (buf_push _ _) as [ch| | | | |] eqn:E; try discriminate. cbn [bind]. intros X. injection X as <- _.
        apply buf_push_closed in E. rewrite chans_set_chan, Nat.eqb_refl in E. intros d Hd. cbn [chans record]. rewrite !chans_set_chan.
        destruct (Nat.eqb_spec d c) as [->|]; [|exact Hd]. rewrite E. exact Hd.
      * destruct try; intros X; injection X as <- _; [apply keeps_set; auto|].
        intros d Hd. cbn [chans set_co]. rewrite !chans_set_chan. destruct (Nat.eqb_spec d c) as [->|]; [|exact Hd]. rewrite Nat.eqb_refl. exact Hd.
  - unfold chan_recv. destruct (waitq_pop (tick st) (sendq (chans (tick st) c))) as [[l|] x].
    + destruct (rt_recv _ c l) as [[st2 y]| | | | |] eqn:E; try discriminate. cbn [bind]. intros X. injection X as <- _.
      apply keeps_rt_recv in E. eapply keeps_trans; [|exact E]. apply keeps_set. auto.
    + destruct (negb _).
      * destruct (sendq _); [|discriminate]. destruct (buf_pop _) as [[ch y]| | | | |] eqn:E; try discriminate. cbn [bind]. intros X. injection X as <- _.
        apply buf_pop_closed in E. rewrite chans_set_chan, Nat.eqb_refl in E. intros d Hd. cbn [chans record]. rewrite !chans_set_chan.
        destruct (Nat.eqb_spec d c) as [->|]; [|exact Hd]. rewrite E. exact Hd.
      * destruct try; [intros X; injection X as <- _; apply keeps_set; auto|].
        destruct (closed (chans (set_chan _ _ _) c)); intros X; injection X as <- _; [apply keeps_set; auto|].
        intros d Hd. cbn [chans set_co]. rewrite !chans_set_chan. destruct (Nat.eqb_spec d c) as [->|]; [|exact Hd]. rewrite Nat.eqb_refl. exact Hd.
  - unfold chan_close. destruct (closed (chans (tick st) c)); [intros X; injection X as <- _; apply keeps_refl|].
    destruct (close_loop (tick st) _) as [s1| | | | |] eqn:E1; try discriminate. cbn [bind].
    destruct (close_loop s1 _) as [s2| | | | |] eqn:E2; try discriminate. cbn [bind]. intros X. injection X as <- _.
    apply keeps_close_loop in E1, E2. eapply keeps_trans; [exact E1|]. eapply keeps_trans; [exact E2|]. apply keeps_set. auto.
  - unfold chan_select. destruct (try_cases (tick st) 0 sends cases) as [[s1 o1]| | | | |] eqn:E; try discriminate. cbn [bind].
    apply keeps_try_cases in E. destruct o1; [intros X; injection X as <- _; exact E|].
    destruct try; [intros X; injection X as <- _; exact E|]. destruct (distinct _); [|discriminate]. intros X. injection X as <- _.
    intros d Hd. cbn [chans set_co]. destruct (enqueue_ring s1 k 0 sends cases d) as (_ & _ & _ & ->). auto.
  - unfold resume. destruct (cos (tick st) k) as [| |[] ? ? ? ?]; intros X; injection X as <- _; try exact K0.
    intros d Hd. cbn [chans set_co]. match goal with |- closed (chans (dequeue ?a ?b ?c ?d' ?e ?f) ?g) = _ => destruct (dequeue_ring a b c d' e f g) as (_ & _ & _ & ->) end. exact Hd.
Qed.
Lemma closed_run ls : forall st st' os, run st ls = Ok (st', os) -> keeps st st'.
Proof.
  induction ls as [|l ls IH]; intros st st' os R; cbn [run] in R.
  - injection R as <- _. apply keeps_refl.
  - destruct (step st l) as [[st1 o]| | | | |] eqn:E; try discriminate. cbn [bind] in R.
    destruct (run st1 ls) as [[st2 os2]| | | | |] eqn:E2; try discriminate. cbn [bind] in R. injection R as <- _.
    apply closed_step in E. apply IH in E2. eapply keeps_trans; eauto.
Qed.

(** ** Filling a new channel *)
Lemma send_push st k c v try xs : cos st k = Idle -> closed (chans st c) = false -> recvq (chans st c) = [] -> ring (chans st c) xs ->
  buf_full (chans st c) = false ->
  exists st', step st (LSend k c v try) = Ok (st', OSent) /\ cos st' = cos st /\ closed (chans st' c) = false /\ recvq (chans st' c) = [] /\
    ring (chans st' c) (xs ++ [v]) /\ zlen (buf (chans st' c)) = zlen (buf (chans st c)).
Proof.
  intros Hk Hc Hq Hr Hf. unfold step. cbn [do_step]. unfold when_idle. change (cos (tick st) k) with (cos st k). rewrite Hk.
  unfold chan_send. change (chans (tick st)) with (chans st). rewrite Hc, Hq. cbn [waitq_pop].
  rewrite chans_set_chan, Nat.eqb_refl. cbn zeta.
  change (buf_full (set_recvq (chans st c) [])) with (buf_full (chans st c)). rewrite Hf. cbn [negb].
  assert (ring (set_recvq (chans st c) []) xs) as Hr' by exact Hr.
  destruct (ring_push _ _ v Hr') as (b & r & E & Lb & R'); [exact Hf|]. rewrite E. cbn [bind].
  eexists. split; [reflexivity|]. cbn [cos record set_chan chans]. rewrite Nat.eqb_refl.
  split; [reflexivity|]. split; [exact Hc|]. split; [reflexivity|]. split; [exact R'|exact Lb].
Qed.
Lemma fill k c : forall vs st xs, cos st k = Idle -> closed (chans st c) = false -> recvq (chans st c) = [] -> ring (chans st c) xs ->
  zlen xs + zlen vs = Z.max 0 (zlen (buf (chans st c)) - 1) ->
  exists st', run st (map (fun v => LSend k c v true) vs) = Ok (st', repeat OSent (length vs)) /\ cos st' k = Idle /\
    closed (chans st' c) = false /\ recvq (chans st' c) = [] /\ buf_full (chans st' c) = true.
Proof.
  induction vs as [|v vs IH]; intros st xs Hk Hc Hq Hr Hl; cbn [map run repeat length].
  - exists st. repeat (split; [solve [auto]|]). rewrite (ring_full _ _ Hr). change (zlen (@nil Z)) with 0 in Hl. lia.
  - rewrite zlen_cons in Hl. pose proof (zlen_nonneg vs).
    destruct (send_push st k c v true xs Hk Hc Hq Hr) as (st1 & -> & A1 & A2 & A3 & A4 & A5).
    { rewrite (ring_full _ _ Hr). lia. }
    cbn [bind]. destruct (IH st1 (xs ++ [v])) as (st' & -> & B); [congruence|exact A2|exact A3|exact A4| |].
    { rewrite zlen_app, A5. change (zlen [v]) with 1. lia. }
    cbn [bind]. exists st'. split; [reflexivity|exact B].
Qed.
Lemma fill_new caps k c vs : zlen vs = Z.max 0 (caps c) ->
  exists st, run (init caps) (map (fun v => LSend k c v true) vs) = Ok (st, repeat OSent (length vs)) /\
  forall v, (exists st', step st (LSend k c v true) = Ok (st', OFalse)) /\ (exists st', step st (LSend k c v false) = Ok (st', OParked)).
Proof.
  intros H. destruct (fill k c vs (init caps) []) as (st & E & Hk & Hc & Hq & Hf); try reflexivity.
  - apply ring_new.
  - change (zlen (@nil Z)) with 0. pose proof (b_len _ _ (proj2 (inv_init caps)) c). lia.
  - exists st. split; [exact E|]. intros v.
    assert (forall try, exists st', step st (LSend k c v try) = Ok (st', if try then OFalse else OParked)) as S.
    { intros try. unfold step. cbn [do_step]. unfold when_idle. change (cos (tick st) k) with (cos st k). rewrite Hk.
      unfold chan_send. change (chans (tick st)) with (chans st). rewrite Hc, Hq. cbn [waitq_pop].
      rewrite chans_set_chan, Nat.eqb_refl. cbn zeta.
      change (buf_full (set_recvq (chans st c) [])) with (buf_full (chans st c)). rewrite Hf. cbn [negb].
      destruct try; eauto. }
    split; [apply (S true)|apply (S false)].
Qed.

(** ** Operations on a closed channel *)
Lemma close_log st k c st' o : closed (chans st c) = false -> step st (LClose k c) = Ok (st', o) -> log st' = log st.
Proof.
  intros Hc. unfold step. cbn [do_step]. unfold when_idle. destruct (cos (tick st) k); [|intros X; injection X as <- _; reflexivity..].
  unfold chan_close. change (chans (tick st)) with (chans st). rewrite Hc.
  assert (forall x s s', close_loop s x = Ok s' -> log s' = log s) as L.
  { induction x as [|e x IH]; intros s s'; cbn [close_loop]; [intros X; injection X as <-; reflexivity|].
    destruct (lk_sel e && select_done s e); [apply IH|]. unfold wake. destruct (cos s (lk_co e)); try discriminate. cbn [bind].
    intros X. apply IH in X. exact X. }
  destruct (close_loop (tick st) _) as [s1| | | | |] eqn:E1; try discriminate. cbn [bind].
  destruct (close_loop s1 _) as [s2| | | | |] eqn:E2; try discriminate. cbn [bind]. intros X. injection X as <- _.
  apply L in E1, E2. cbn [log set_chan]. rewrite E2, E1. reflexivity.
Qed.

Lemma closed_ops caps st c k : inv caps st -> closed (chans st c) = true -> cos st k = Idle ->
    (forall v try, exists st', step st (LSend k c v try) = Ok (st', OThrow) /\ held st' c = held st c) /\
    (exists st', step st (LClose k c) = Ok (st', OThrow) /\ held st' c = held st c) /\
    (forall try, exists st' o, step st (LRecv k c try) = Ok (st', o) /\
       match held st c with
       | v :: rest => o = OGot v /\ held st' c = rest
       | [] => o = (if try then OFalse else OThrow) /\ held st' c = []
       end).
Proof.
  intros I Hc Hk. unfold step. cbn [do_step]. unfold when_idle. change (cos (tick st) k) with (cos st k). rewrite Hk.
  split; [|split].
  - intros v try. exists (tick st). unfold chan_send. change (chans (tick st)) with (chans st). rewrite Hc. split; reflexivity.
  - exists (tick st). unfold chan_close. change (chans (tick st)) with (chans st). rewrite Hc. split; reflexivity.
  - intros try. destruct I as [Iq Ib].
    assert (sendq (chans st c) = []) as Hs by (apply (b_closed _ _ Ib false c Hc)).
    destruct (held_ring caps st c Ib) as [Hr Hh].
    unfold chan_recv. change (chans (tick st)) with (chans st). rewrite Hs. cbn [waitq_pop]. rewrite chans_set_chan, Nat.eqb_refl. cbn zeta.
    change (buf_empty (set_sendq (chans st c) [])) with (buf_empty (chans st c)).
    change (closed (set_sendq (chans st c) [])) with (closed (chans st c)). rewrite Hc.
    assert (ring (set_sendq (chans st c) []) (held st c)) as Hr' by exact Hr.
    destruct (held st c) as [|v rest] eqn:Eh.
    + rewrite (ring_empty _ _ Hr). change (zlen (@nil Z) =? 0) with true. cbn [negb].
      destruct try; (eexists _, _; split; [reflexivity|]; split; [reflexivity|]; exact Eh).
    + assert (buf_empty (chans st c) = false) as -> by (rewrite (ring_empty _ _ Hr), zlen_cons; pose proof (zlen_nonneg rest); lia).
      cbn [negb set_sendq sendq]. destruct (ring_pop _ _ _ Hr') as (f & E & R').
      replace (mk_chan _ _ _ _ _ _ _) with (set_sendq (chans st c) []) by reflexivity. rewrite E. cbn [bind].
      eexists _, _. split; [reflexivity|]. split; [reflexivity|].
      unfold held in Eh |- *. cbn [log record set_chan tick].
      assert (forall t, accepted c (log st ++ [Received c v t]) = accepted c (log st)) as Ea.
      { intros t. unfold accepted. rewrite flat_map_app. cbn. now rewrite app_nil_r. }
      assert (forall t, length (received c (log st ++ [Received c v t])) = S (length (received c (log st)))) as Er.
      { intros t. unfold received. rewrite flat_map_app, app_length. cbn. rewrite Nat.eqb_refl. cbn. lia. }
      rewrite Ea, Er.
      revert Eh. generalize (length (received c (log st))) as m, (map snd (accepted c (log st))) as xs. clear.
      induction m as [|m IH]; intros [|x xs] E; cbn [skipn] in *; try discriminate; [congruence|]. destruct xs; [now destruct m|]. exact (IH _ E).
Qed.
