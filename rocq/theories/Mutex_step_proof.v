(** Every step keeps the invariant. *)
From Coq Require Import Zify ZifyBool.
From Verif Require Import Base Base_lemmas Mutex_model Mutex_spec Mutex_proof.

Definition good (debug : bool) (r : res state) : Prop :=
  match r with Ok st => inv st | Abort => debug = true | _ => False end.

Ltac frame E H p' :=
  match type of E with nth_error (pcs ?st) ?k = Some ?p => eapply (inv_goto st _ k p p' H E) end;
  [reflexivity|reflexivity|reflexivity|now intros|now intros []|now intros []|..].
Ltac open H := let A := fresh "A" in let P := fresh "P" in let Hd := fresh "Hd" in let Q := fresh "Q" in
  pose proof H as ((l & w & s & n & Ew & A) & P & Hd & Q).
Ltac give l w s n := exists l, w, s, n; split; cbn [word sema wcount queue locker pcs set_word set_sema set_wcount set_queue set_locker goto].
Ltac same := match goal with Ew : word ?st = enc ?l ?w ?s ?n |- exists _ _ _ _, ainv _ _ _ _ _ => give l w s n; [exact Ew|] end.

Lemma step_lock st k : inv st -> nth_error (pcs st) k = Some Idle -> inv (goto st k LFast).
Proof.
  intros H E. frame E H LFast; [exact I|apply keeps_refl|]. open H. same. count E. arith.
Qed.
Lemma step_trylock st k : inv st -> nth_error (pcs st) k = Some Idle -> inv (goto st k TLoad).
Proof.
  intros H E. frame E H TLoad; [exact I|apply keeps_refl|]. open H. same. count E. arith.
Qed.
Lemma step_LFast st k b d : inv st -> nth_error (pcs st) k = Some LFast -> good d (micro d st k LFast b).
Proof.
  intros H E. cbn [micro]. destruct (Z.eqb_spec (word st) 0) as [E0|E0]; cbn [good].
  - frame E H Crit; [exact I|..].
    + intros n Hn. rewrite E0 in Hn. change 0 with (enc false false false 0) in Hn. apply enc_inj in Hn as (_ & _ & [=] & _).
    + open H. rewrite E0 in Ew. change 0 with (enc false false false 0) in Ew. apply enc_inj in Ew as (<- & <- & <- & <-).
      give true false false 0; [reflexivity|]. count E. arith.
  - frame E H (LLoad (mk_loc false false false)); [discriminate|apply keeps_refl|]. open H. same. count E. arith.
Qed.
Lemma step_LLoad st k x b d : inv st -> nth_error (pcs st) k = Some (LLoad x) -> good d (micro d st k (LLoad x) b).
Proof.
  intros H E. cbn [micro good]. open H. frame E H (LLoop (word st) x); [|apply keeps_refl|].
  - split; [exact (P _ _ E)|]. exists l, w, s, n. split; [exact Ew|]. split; [now destruct A|].
    intros W. count E. destruct A. rewrite W in *. destruct s; [|destruct w; cbn [Z.b2z] in *; lia].
    destruct (a_s1 eq_refl). lia.
  - same. count E. arith.
Qed.
Ltac bits := rewrite ?enc_land1, ?enc_land2, ?enc_land3, ?enc_land4, ?enc_land5, ?enc_land7, ?enc_lor1, ?enc_lor2,
  ?enc_lor4, ?enc_ldiff2, ?enc_waiters, ?enc_add8, ?enc_sub8.
Ltac bits_in H := rewrite ?enc_land1, ?enc_land2, ?enc_land3, ?enc_land4, ?enc_land5, ?enc_land7, ?enc_lor1, ?enc_lor2,
  ?enc_lor4, ?enc_ldiff2, ?enc_waiters, ?enc_add8, ?enc_sub8 in H.
Ltac flags := unfold LOCKED, WOKEN, STARVING, WAITER; change (Z.lor 1 4) with 5; change (Z.lor 1 2) with 3;
  change (Z.lor 1 (Z.lor 2 4)) with 7.

(** the word a coroutine tries to install, in fields *)
Definition next_enc (l w s : bool) (n : Z) (x : loc) : Z :=
  enc (l || negb s) (w && negb (awoke x)) (s || (starving x && l)) (if l || s then n + 1 else n).
Lemma next_word_enc l w s n x : (awoke x = true -> w = true) ->
  next_word (enc l w s n) x = Some (next_enc l w s n x).
Proof.
  intros W. unfold next_word, next_enc. flags. bits.
  destruct l, s; cbn [Z.b2z Z.mul Z.add Z.eqb Pos.mul Pos.add negb orb andb]; bits;
    destruct (starving x); cbn [andb]; bits; destruct (awoke x) eqn:Ea;
    try (rewrite W by reflexivity); bits; cbn [Z.b2z Z.mul Z.eqb Pos.mul andb negb]; bits;
    rewrite ?Bool.andb_true_r; reflexivity.
Qed.

Lemma step_LLoop st k old x b d : inv st -> nth_error (pcs st) k = Some (LLoop old x) ->
  good d (micro d st k (LLoop old x) b).
Proof.
  intros H E. open H. destruct (P _ _ E) as (Wl & l0 & w0 & s0 & n0 & Eo & Hn0 & Wo). cbn [micro].
  flags. rewrite Eo. bits. rewrite next_word_enc by exact Wo.
  destruct ((Z.b2z l0 + 4 * Z.b2z s0 =? 1) && b) eqn:Sp.
  - destruct (negb (awoke x) && (2 * Z.b2z w0 =? 0) && negb (n0 =? 0) && (word st =? enc l0 w0 s0 n0)) eqn:C; cbn [good].
    + apply andb_true_iff in C as (C & C4). apply andb_true_iff in C as (C & C3). apply andb_true_iff in C as (C1 & C2).
      apply Z.eqb_eq in C4. rewrite C4 in Ew. apply enc_inj in Ew as (<- & <- & <- & <-).
      assert (Aw : awoke x = false) by (destruct (awoke x); [discriminate|reflexivity]).
      destruct w0; [discriminate|]. destruct l0, s0; try discriminate.
      frame E H (LLoad (mk_loc (waited x) (starving x) true)).
      * intros _. reflexivity.
      * intros m Hm. rewrite C4 in Hm. apply enc_inj in Hm as ([=] & _).
      * give true true false n0; [reflexivity|]. count E. rewrite Aw in *. arith.
    + clear C. frame E H (LLoad x); [exact Wl|apply keeps_refl|]. same. count E. clear Sp. arith.
  - cbn [good]. clear Sp. frame E H (LCas (enc l0 w0 s0 n0) (next_enc l0 w0 s0 n0 x) x); [|apply keeps_refl|].
    + split; [exact Wl|]. split; [now apply next_word_enc|]. exists l0, w0, s0, n0. auto.
    + same. count E. arith.
Qed.
Lemma step_LCas st k old new x b d : inv st -> nth_error (pcs st) k = Some (LCas old new x) ->
  good d (micro d st k (LCas old new x) b).
Proof.
  intros H E. open H. destruct (P _ _ E) as (Wl & Nw & l0 & w0 & s0 & n0 & Eo & Hn0 & Wo). cbn [micro].
  flags. rewrite Eo in *. rewrite next_word_enc in Nw by exact Wo. injection Nw as <-. bits.
  destruct (Z.eqb_spec (word st) (enc l0 w0 s0 n0)) as [C|C].
  - rewrite C in Ew. apply enc_inj in Ew as (<- & <- & <- & <-). unfold next_enc.
    destruct (Z.eqb_spec (Z.b2z l0 + 4 * Z.b2z s0) 0) as [Z0|Z0]; cbn [good].
    + destruct l0, s0; cbn [Z.b2z] in Z0; try lia. cbn [negb orb andb].
      rewrite Bool.andb_false_r.
      frame E H Crit; [exact I| |].
      * intros m Hm. rewrite C in Hm. apply enc_inj in Hm as (_ & _ & [=] & _).
      * give true (w0 && negb (awoke x)) false n0; [reflexivity|]. count E.
        destruct (awoke x); [rewrite Wo in * by reflexivity|]; cbn [negb]; rewrite ?Bool.andb_true_r, ?Bool.andb_false_r;
          arith.
    + assert (Z1 : l0 || s0 = true) by (destruct l0, s0; cbn [Z.b2z] in Z0; try lia; reflexivity). rewrite Z1.
      frame E H (A1 x); [exact I| |].
      * intros m Hm. rewrite C in Hm. apply enc_inj in Hm as (-> & -> & -> & ->).
        exists (m + 1). split; [|lia]. cbn [word set_word goto]. reflexivity.
      * give (l0 || negb s0) (w0 && negb (awoke x)) (s0 || starving x && l0) (n0 + 1); [reflexivity|]. count E.
        destruct s0.
        -- rewrite Bool.orb_false_r, Bool.orb_true_l. arith.
        -- destruct l0; [|discriminate]. cbn [negb orb andb]. rewrite Bool.andb_true_r.
           destruct (starving x) eqn:Sx.
           ++ assert (Ax := Wl Sx). assert (w0 = true) by auto. subst w0. rewrite Ax in *. cbn [andb negb]. arith.
           ++ destruct (awoke x); [rewrite Wo in * by reflexivity|]; cbn [negb];
                rewrite ?Bool.andb_true_r, ?Bool.andb_false_r; arith.
  - cbn [good]. frame E H (LLoad x); [exact Wl|apply keeps_refl|]. same. count E. arith.
Qed.
Lemma step_LWoken st k x b d : inv st -> nth_error (pcs st) k = Some (LWoken x) -> good d (micro d st k (LWoken x) b).
Proof.
  intros H E. open H. cbn [micro]. flags. rewrite Ew. bits. cbn [awoke starving].
  destruct (Z.eqb_spec (4 * Z.b2z s) 0) as [S0|S0].
  - destruct s; cbn [Z.b2z] in S0; [lia|]. cbn [good].
    frame E H (LLoop (enc l w false n) (mk_loc true (starving x || b) true)); [|apply keeps_refl|].
    + split; [intros _; reflexivity|]. exists l, w, false, n. split; [reflexivity|]. split; [now destruct A|].
      intros _. count E. destruct A. destruct w; [reflexivity|]. cbn [Z.b2z] in *. lia.
    + same. count E. arith.
  - destruct s; cbn [Z.b2z] in S0; [|lia].
    assert (l = false /\ w = false /\ 1 <= n) as (-> & -> & Hn).
    { count E. destruct A. destruct l, w; cbn [Z.b2z] in *; repeat split; lia. }
    cbn [Z.b2z]. replace (n =? 0) with false by lia. cbn [Z.mul Z.add Z.eqb negb orb]. cbn [good].
    destruct H as (_ & _ & _ & _). split; [|split; [|split]].
    + same. count E. arith.
    + intros j pj Hj. cbn [pcs goto] in Hj. destruct (Nat.eq_dec j k) as [->|D].
      * rewrite (nth_set_eq _ _ _ _ E) in Hj. injection Hj as <-. exact I.
      * rewrite nth_set_ne in Hj by exact D. eauto.
    + intros j old y Hj. cbn [pcs goto word] in *. destruct (Nat.eq_dec j k) as [->|D].
      * rewrite (nth_set_eq _ _ _ _ E) in Hj. injection Hj as <- <-. exists n, n. repeat split; try assumption; lia.
      * rewrite nth_set_ne in Hj by exact D. eauto.
    + cbn [queue pcs goto]. apply (qinv_frame _ _ k _ _ Q E); [reflexivity|now intros|now intros []].
Qed.
Lemma step_LHand st k old x b d : inv st -> nth_error (pcs st) k = Some (LHand old x) ->
  good d (micro d st k (LHand old x) b).
Proof.
  intros H E. open H. destruct (Hd _ _ _ E) as (n0 & m & Ew' & -> & Hn). rewrite Ew' in Ew.
  apply enc_inj in Ew as (<- & <- & <- & <-). cbn [micro good]. flags. bits.
  match goal with |- inv (goto (set_word st (word st + ?dl)) k Crit) => set (delta := dl) end.
  assert (X : exists s', word st + delta = enc true false s' (m - 1) /\ (s' = true -> 1 <= m - 1)).
  { unfold delta. rewrite Ew'. destruct (negb (starving x) || (n0 =? 1)) eqn:C.
    - exists false. split; [unfold enc; cbn [Z.b2z]; lia|discriminate].
    - exists true. apply orb_false_iff in C as (_ & C). apply Z.eqb_neq in C.
      split; [unfold enc; cbn [Z.b2z]; lia|lia]. }
  destruct X as (s' & Es & Hs). rewrite Es.
  split; [|split; [|split]].
  + give true false s' (m - 1); [reflexivity|]. count E. destruct s'; arith.
  + intros j pj Hj. cbn [pcs goto set_word] in Hj. destruct (Nat.eq_dec j k) as [->|D].
    * rewrite (nth_set_eq _ _ _ _ E) in Hj. injection Hj as <-. exact I.
    * rewrite nth_set_ne in Hj by exact D. eauto.
  + intros j old' y Hj. cbn [pcs goto set_word word] in *. exfalso. destruct (Nat.eq_dec j k) as [->|D].
    * rewrite (nth_set_eq _ _ _ _ E) in Hj. discriminate.
    * rewrite nth_set_ne in Hj by exact D.
      pose proof (tot_two fG _ _ _ _ _ (fun p => proj2 (proj2 (proj2 (proj1 (f_nonneg p))))) D Hj E) as T2.
      count E. destruct A. cbn [Z.b2z] in *. lia.
  + cbn [queue pcs goto set_word]. apply (qinv_frame _ _ k _ _ Q E); [reflexivity|now intros|now intros []].
Qed.
Lemma step_A1 st k x b d : inv st -> nth_error (pcs st) k = Some (A1 x) -> good d (micro d st k (A1 x) b).
Proof.
  intros H E. open H. cbn [micro]. destruct (Z.ltb_spec 0 (sema st)) as [S|S]; cbn [good].
  - frame E H (LWoken x); [exact I|apply keeps_refl|]. same. count E. arith.
  - frame E H (A2 x); [exact I|apply keeps_refl|]. same. count E. arith.
Qed.
Lemma step_A2 st k x b d : inv st -> nth_error (pcs st) k = Some (A2 x) -> good d (micro d st k (A2 x) b).
Proof.
  intros H E. open H. cbn [micro]. destruct (locker st) eqn:L; cbn [good]; [exact H|].
  frame E H (A3 x); [exact I|apply keeps_refl|]. same. count E. arith.
Qed.
Lemma step_A3 st k x b d : inv st -> nth_error (pcs st) k = Some (A3 x) -> good d (micro d st k (A3 x) b).
Proof.
  intros H E. open H. cbn [micro good].
  frame E H (A4 x); [exact I|apply keeps_refl|]. same. count E. arith.
Qed.
Lemma step_A4 st k x b d : inv st -> nth_error (pcs st) k = Some (A4 x) -> good d (micro d st k (A4 x) b).
Proof.
  intros H E. open H. cbn [micro]. destruct (Z.ltb_spec 0 (sema st)) as [S|S]; cbn [good].
  - frame E H (A5 x); [exact I|apply keeps_refl|]. same. count E. arith.
  - frame E H (A7 x); [exact I|apply keeps_refl|]. same. count E. arith.
Qed.
Lemma step_A5 st k x b d : inv st -> nth_error (pcs st) k = Some (A5 x) -> good d (micro d st k (A5 x) b).
Proof.
  intros H E. open H. cbn [micro good].
  frame E H (A6 x); [exact I|apply keeps_refl|]. same. count E. arith.
Qed.
Lemma step_A6 st k x b d : inv st -> nth_error (pcs st) k = Some (A6 x) -> good d (micro d st k (A6 x) b).
Proof.
  intros H E. open H. cbn [micro].
  assert (L : wcount st = zlen (queue st) /\ locker st = true)
    by (count E; destruct A; destruct (locker st); cbn [Z.b2z] in *; split; try reflexivity; lia).
  destruct L as (L & Lk). rewrite L, Z.eqb_refl. cbn [good].
  frame E H (LWoken x); [exact I|apply keeps_refl|]. same. count E. rewrite Lk in *. arith.
Qed.
Lemma step_A8 st k t x b d : inv st -> nth_error (pcs st) k = Some (A8 t x) -> good d (micro d st k (A8 t x) b).
Proof.
  intros H E. open H. cbn [micro]. destruct t; [|destruct (Z.ltb_spec 0 (sema st)) as [S|S]]; cbn [good].
  - frame E H (LWoken x); [exact I|apply keeps_refl|]. same. count E. arith.
  - frame E H (LWoken x); [exact I|apply keeps_refl|]. same. count E. arith.
  - frame E H (A2 x); [exact I|apply keeps_refl|]. same. count E. arith.
Qed.
Lemma step_TLoad st k b d : inv st -> nth_error (pcs st) k = Some TLoad -> good d (micro d st k TLoad b).
Proof.
  intros H E. open H. cbn [micro]. flags. rewrite Ew. bits.
  destruct (Z.eqb_spec (Z.b2z l + 4 * Z.b2z s) 0) as [Z0|Z0]; cbn [good].
  - destruct l, s; cbn [Z.b2z] in Z0; try lia.
    frame E H (TCas (enc false w false n)); [|apply keeps_refl|].
    + exists w, n. split; [reflexivity|now destruct A].
    + same. count E. arith.
  - frame E H Idle; [exact I|apply keeps_refl|]. same. count E. arith.
Qed.
Lemma step_TCas st k old b d : inv st -> nth_error (pcs st) k = Some (TCas old) -> good d (micro d st k (TCas old) b).
Proof.
  intros H E. open H. destruct (P _ _ E) as (w0 & n0 & -> & Hn). cbn [micro]. flags. bits.
  destruct (Z.eqb_spec (word st) (enc false w0 false n0)) as [C|C]; cbn [good].
  - rewrite C in Ew. apply enc_inj in Ew as (<- & <- & <- & <-).
    frame E H Crit; [exact I| |].
    + intros m Hm. rewrite C in Hm. apply enc_inj in Hm as (_ & _ & [=] & _).
    + give true w0 false n0; [reflexivity|]. count E. arith.
  - frame E H Idle; [exact I|apply keeps_refl|]. same. count E. arith.
Qed.
Lemma stops_enc l w s n : stops (enc l w s n) = (n =? 0) || l || w || s.
Proof. unfold stops. bits. destruct (n =? 0), l, w, s; reflexivity. Qed.
Lemma step_ULoop st k old b d : inv st -> nth_error (pcs st) k = Some (ULoop old) -> good d (micro d st k (ULoop old) b).
Proof.
  intros H E. open H. destruct (P _ _ E) as (l0 & w0 & s0 & n0 & -> & Hn). cbn [micro]. flags.
  fold (stops (enc l0 w0 s0 n0)). destruct (stops (enc l0 w0 s0 n0)) eqn:S; cbn [good].
  - frame E H Idle; [exact I|apply keeps_refl|]. same. count E. rewrite S in *. cbn [negb Z.b2z] in *. arith.
  - frame E H (UCas (enc l0 w0 s0 n0)); [|apply keeps_refl|].
    + rewrite stops_enc in S. destruct l0, w0, s0; rewrite ?Bool.orb_true_r in S; try discriminate.
      exists n0. split; [reflexivity|lia].
    + same. count E. rewrite S in *. cbn [negb Z.b2z] in *. arith.
Qed.
Lemma step_UCas st k old b d : inv st -> nth_error (pcs st) k = Some (UCas old) -> good d (micro d st k (UCas old) b).
Proof.
  intros H E. open H. destruct (P _ _ E) as (n0 & -> & Hn). cbn [micro]. flags. bits.
  destruct (Z.eqb_spec (word st) (enc false false false n0)) as [C|C]; cbn [good].
  - rewrite C in Ew. apply enc_inj in Ew as (<- & <- & <- & <-).
    frame E H (R0 false); [exact I| |].
    + intros m Hm. rewrite C in Hm. apply enc_inj in Hm as (_ & _ & [=] & _).
    + give false true false (n0 - 1); [bits; reflexivity|]. count E. arith.
  - frame E H ULoad; [exact I|apply keeps_refl|]. same. count E. arith.
Qed.
Lemma step_ULoad st k b d : inv st -> nth_error (pcs st) k = Some ULoad -> good d (micro d st k ULoad b).
Proof.
  intros H E. open H. cbn [micro good]. rewrite Ew.
  frame E H (ULoop (enc l w s n)); [|apply keeps_refl|].
  - exists l, w, s, n. split; [reflexivity|now destruct A].
  - same. count E. rewrite stops_enc in *. destruct l, w, s, (Z.eqb_spec n 0); cbn [orb negb Z.b2z] in *; arith.
Qed.
Lemma step_R0 st k h b d : inv st -> nth_error (pcs st) k = Some (R0 h) -> good d (micro d st k (R0 h) b).
Proof.
  intros H E. open H. cbn [micro good]. frame E H R1; [exact I|apply keeps_refl|]. same. count E. arith.
Qed.
Lemma zlen_pos {A} (q : list A) : 0 <= zlen q.
Proof. unfold zlen. lia. Qed.
Lemma step_R1 st k b d : inv st -> nth_error (pcs st) k = Some R1 -> good d (micro d st k R1 b).
Proof.
  intros H E. open H. cbn [micro]. pose proof (zlen_pos (queue st)).
  destruct (Z.eqb_spec (wcount st) 0) as [C|C]; cbn [good].
  - frame E H R1a; [exact I|apply keeps_refl|]. same. count E. destruct s; arith.
  - frame E H R2; [exact I|apply keeps_refl|]. same. count E. arith.
Qed.
Lemma step_R1a st k b d : inv st -> nth_error (pcs st) k = Some R1a -> good d (micro d st k R1a b).
Proof.
  intros H E. open H. cbn [micro]. destruct d, (zlen (queue st) =? 0); cbn [andb negb good]; try reflexivity;
    (frame E H Idle; [exact I|apply keeps_refl|]; same; count E; arith).
Qed.
Lemma step_R2 st k b d : inv st -> nth_error (pcs st) k = Some R2 -> good d (micro d st k R2 b).
Proof.
  intros H E. open H. cbn [micro]. destruct (locker st) eqn:L; cbn [good]; [exact H|].
  frame E H R3; [exact I|apply keeps_refl|]. same. count E. arith.
Qed.
Lemma step_R3 st k b d : inv st -> nth_error (pcs st) k = Some R3 -> good d (micro d st k R3 b).
Proof.
  intros H E. open H. cbn [micro]. pose proof (zlen_pos (queue st)).
  assert (Lk : locker st = true) by (count E; destruct A; destruct (locker st); cbn [Z.b2z] in *; [reflexivity|lia]).
  destruct (Z.eqb_spec (wcount st) 0) as [C|C].
  - replace (zlen (queue st) =? 0) with true by (count E; destruct A; lia). cbn [good].
    frame E H Idle; [exact I|apply keeps_refl|]. same. count E. rewrite Lk in *. destruct s; arith.
  - cbn [good]. frame E H R4; [exact I|apply keeps_refl|]. same. count E. rewrite Lk in *. arith.
Qed.
Lemma step_R5 st k u b d : inv st -> nth_error (pcs st) k = Some (R5 u) -> good d (micro d st k (R5 u) b).
Proof.
  intros H E. open H. cbn [micro good]. frame E H (R6 u); [exact I|apply keeps_refl|]. same. count E. arith.
Qed.
Lemma step_R6 st k u b d : inv st -> nth_error (pcs st) k = Some (R6 u) -> good d (micro d st k (R6 u) b).
Proof.
  intros H E. open H. cbn [micro good]. frame E H (R7 u); [exact I|apply keeps_refl|].
  assert (Lk : locker st = true) by (count E; destruct A; destruct (locker st); cbn [Z.b2z] in *; [reflexivity|lia]).
  same. count E. rewrite Lk in *. arith.
Qed.
Lemma step_unlock st k d : inv st -> nth_error (pcs st) k = Some Crit -> good d (step d st (Unlock k)).
Proof.
  intros H E. open H. cbn [step]. rewrite E. flags. assert (L : l = true).
  { count E. destruct A. destruct l; [reflexivity|]. cbn [Z.b2z] in *. lia. }
  subst l. rewrite Ew. replace (enc true w s n - 1) with (enc false w s n) by (unfold enc; cbn [Z.b2z]; lia).
  replace (enc false w s n + 1) with (enc true w s n) by (unfold enc; cbn [Z.b2z]; lia). bits.
  assert (K : forall p, keeps (word st) p).
  { intros p m Hm. rewrite Ew in Hm. apply enc_inj in Hm as ([=] & _). }
  destruct (Z.eqb_spec (enc false w s n) 0) as [Z0|Z0].
  - change 0 with (enc false false false 0) in Z0. apply enc_inj in Z0 as (_ & -> & -> & ->). cbn [good].
    frame E H Idle; [exact I|apply K|]. give false false false 0; [reflexivity|]. count E. arith.
  - cbn [Z.b2z Z.eqb]. destruct (Z.eqb_spec (4 * Z.b2z s) 0) as [S|S]; cbn [good].
    + destruct s; cbn [Z.b2z] in S; [lia|].
      frame E H (ULoop (enc false w false n)); [|apply K|].
      * exists false, w, false, n. split; [reflexivity|now destruct A].
      * give false w false n; [reflexivity|]. count E. rewrite stops_enc in *.
        destruct w, (Z.eqb_spec n 0); cbn [orb negb Z.b2z] in *; arith.
    + destruct s; cbn [Z.b2z] in S; [|lia].
      frame E H (R0 true); [exact I|apply K|]. give false w true n; [reflexivity|]. count E. arith.
Qed.

