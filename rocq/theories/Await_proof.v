(** Invariant of coroutines, run queues and processors, for every interleaving. *)
From Verif Require Import Base Base_lemmas Await_model Await_spec.

Lemma len_ls (A : Type) (l : list A) i x : length (list_set l i x) = length l.
Proof. revert i. induction l as [|h l IH]; intros [|i]; cbn [list_set length]; rewrite ?IH; auto. Qed.
Lemma nth_ls (A : Type) (l : list A) x d : forall i j, nth j (list_set l i x) d =
  if ((j =? i) && (i <? length l))%nat%bool then x else nth j l d.
Proof.
  induction l as [|h l IH]; intros [|i] [|j]; cbn [list_set nth length]; auto.
  - replace (S i <? 0)%nat with false by reflexivity. rewrite andb_false_r. auto.
  - rewrite IH. reflexivity.
Qed.
Lemma ne_ls (A : Type) (l : list A) x : forall i j, nth_error (list_set l i x) j =
  if ((j =? i) && (i <? length l))%nat%bool then Some x else nth_error l j.
Proof.
  induction l as [|h l IH]; intros [|i] [|j]; cbn [list_set nth_error length]; auto.
  - replace (S i <? 0)%nat with false by reflexivity. rewrite andb_false_r. auto.
  - rewrite IH. reflexivity.
Qed.

Lemma G_set w c x d : G (set_co w c x) d = if ((d =? c) && (c <? length (cos w)))%nat%bool then x else G w d.
Proof. unfold G. cbn [cos set_co]. apply nth_ls. Qed.
Lemma G_live w c : st (G w c) <> DEAD -> (c < length (cos w))%nat.
Proof.
  intro H. destruct (Nat.ltb_spec c (length (cos w))) as [L|L]; auto.
  exfalso. apply H. unfold G. rewrite nth_overflow by auto. reflexivity.
Qed.
Lemma G_set_eq w c x : (c < length (cos w))%nat -> G (set_co w c x) c = x.
Proof. intro L. rewrite G_set, Nat.eqb_refl. apply Nat.ltb_lt in L. now rewrite L. Qed.
Lemma G_set_ne w c x d : d <> c -> G (set_co w c x) d = G w d.
Proof. intro N. rewrite G_set. apply Nat.eqb_neq in N. now rewrite N. Qed.
Lemma Q_set w p q r : Q (set_q w p q) r = if ((r =? p) && (p <? length (runqs w)))%nat%bool then q else Q w r.
Proof. unfold Q. cbn [runqs set_q]. apply nth_ls. Qed.

Notation cnt l c := (count_occ Nat.eq_dec l c).
Lemma cnt_app l1 l2 c : cnt (l1 ++ l2) c = (cnt l1 c + cnt l2 c)%nat.
Proof. apply count_occ_app. Qed.
Lemma cnt_one d c : cnt [d] c = (if (d =? c)%nat then 1 else 0)%nat.
Proof. cbn. destruct (Nat.eq_dec d c), (Nat.eqb_spec d c); congruence. Qed.
Lemma cnt_cons d l c : cnt (d :: l) c = ((if (d =? c)%nat then 1 else 0) + cnt l c)%nat.
Proof. change (d :: l) with ([d] ++ l). rewrite cnt_app, cnt_one. reflexivity. Qed.
Lemma cnt_concat_set (L : list (list nat)) q c : forall p, (p < length L)%nat ->
  (cnt (concat (list_set L p q)) c + cnt (nth p L []) c = cnt (concat L) c + cnt q c)%nat.
Proof.
  induction L as [|h L IH]; intros [|p] Lp; cbn [length] in Lp; try lia; cbn [list_set concat nth]; rewrite !cnt_app.
  - lia.
  - specialize (IH p). lia.
Qed.
Lemma queued_set w p q c : (p < length (runqs w))%nat ->
  (queued (set_q w p q) c + cnt (Q w p) c = queued w c + cnt q c)%nat.
Proof. intro L. unfold queued, Q. cbn [runqs set_q]. now apply cnt_concat_set. Qed.
Lemma queued_in w p c : In c (Q w p) -> (queued w c >= 1)%nat.
Proof.
  intro I. unfold queued. assert (In c (concat (runqs w))).
  { apply in_concat. exists (Q w p). split; auto. unfold Q in *. destruct (nth_in_or_default p (runqs w) []) as [H|H]; auto.
    rewrite H in I. destruct I. }
  apply (count_occ_In Nat.eq_dec) in H. lia.
Qed.

Definition okc (x : coroutine) : Prop :=
  match pc x with
  | Run => st x = RUNNING
  | Leaving | Off => st x = RUNNABLE \/ st x = WAITING
  | Dead => st x = DEAD
  end /\ (ext x = true -> st x = WAITING).
Definition on_cpu (x : coroutine) : Prop := pc x = Run \/ pc x = Leaving.
Definition bit (s : status) : nat := match s with RUNNABLE => 1 | _ => 0 end.

Record inv (w : world) : Prop := mk_inv {
  i_len : length (cur w) = length (runqs w);
  i_q : forall c, queued w c = bit (st (G w c));
  i_home : forall p c, In c (Q w p) -> home (G w c) = p;
  i_cur : forall p c, nth_error (cur w) p = Some (Some c) <-> on_cpu (G w c) /\ home (G w c) = p;
  i_ok : forall c, okc (G w c);
  i_slot : forall t a, slot (G w t) = Some a -> st (G w t) <> DEAD ->
    st (G w a) = WAITING /\ ext (G w a) = false /\
    forall u, slot (G w u) = Some a -> st (G w u) <> DEAD -> u = t;
  i_cpus : forall c, st (G w c) <> DEAD -> (home (G w c) < length (runqs w))%nat
}.

(** ** making a coroutine ready *)
Lemma mr_G w c d : (c < length (cos w))%nat ->
  G (make_ready w c) d = if (d =? c)%nat then set_st (G w c) RUNNABLE else G w d.
Proof.
  intro L. unfold make_ready. change (G (set_q ?a ?b ?c) d) with (G a d). rewrite G_set.
  apply Nat.ltb_lt in L. rewrite L, andb_true_r. reflexivity.
Qed.
Lemma mr_cur w c : cur (make_ready w c) = cur w.
Proof. reflexivity. Qed.
Lemma mr_len w c : length (runqs (make_ready w c)) = length (runqs w).
Proof. unfold make_ready. cbn [runqs set_q set_co]. apply len_ls. Qed.
Lemma mr_cos w c : length (cos (make_ready w c)) = length (cos w).
Proof. unfold make_ready. cbn [cos set_q set_co]. apply len_ls. Qed.
Lemma mr_queued w c d : (home (G w c) < length (runqs w))%nat ->
  queued (make_ready w c) d = (queued w d + (if (d =? c)%nat then 1 else 0))%nat.
Proof.
  intro L. unfold make_ready.
  pose proof (queued_set (set_co w c (set_st (G w c) RUNNABLE)) (home (G w c)) (Q w (home (G w c)) ++ [c]) d) as H.
  cbn [runqs set_co] in H. specialize (H L).
  change (Q (set_co w c (set_st (G w c) RUNNABLE)) (home (G w c))) with (Q w (home (G w c))) in H.
  change (queued (set_co w c (set_st (G w c) RUNNABLE)) d) with (queued w d) in H.
  rewrite cnt_app, cnt_one in H. rewrite (Nat.eqb_sym d c). lia.
Qed.
Lemma mr_Q w c p : (home (G w c) < length (runqs w))%nat ->
  Q (make_ready w c) p = if (p =? home (G w c))%nat then Q w p ++ [c] else Q w p.
Proof.
  intro L. unfold make_ready. rewrite Q_set. cbn [runqs set_co]. apply Nat.ltb_lt in L. rewrite L, andb_true_r.
  destruct (Nat.eqb_spec p (home (G w c))) as [->|]; auto.
Qed.

Ltac break := repeat match goal with
  | |- context [(?a =? ?b)%nat] => destruct (Nat.eqb_spec a b); subst
  end.
Ltac breakh := repeat match goal with
  | |- context [(?a =? ?b)%nat] => destruct (Nat.eqb_spec a b); subst
  | H : context [(?a =? ?b)%nat] |- _ => destruct (Nat.eqb_spec a b); subst
  end.

Lemma inv_init np : inv (init np).
Proof.
  assert (R : forall n p, nth p (repeat (@nil nat) n) [] = []).
  { induction n; intros [|p]; cbn; auto. }
  assert (N : forall n p, nth_error (repeat (@None nat) n) p <> Some (Some 0%nat) /\ forall c, nth_error (repeat (@None nat) n) p <> Some (Some c)).
  { intros n p. assert (forall c, nth_error (repeat (@None nat) n) p <> Some (Some c)).
    { intros c E. apply nth_error_In, repeat_spec in E. discriminate. } auto. }
  assert (GG : forall c, G (init np) c = match c with O => mk_co Off RUNNABLE 0 None false false | _ => nobody end).
  { intros [|[|c]]; reflexivity. }
  constructor.
  - cbn. now rewrite !repeat_length.
  - intro c. rewrite GG. unfold queued. cbn [runqs init concat]. rewrite cnt_app, cnt_one.
    assert (E : concat (repeat (@nil nat) np) = []) by (clear; induction np; auto). rewrite E. cbn [count_occ].
    destruct c; reflexivity.
  - intros [|p] c; unfold Q; cbn [runqs init nth].
    + intros [<-|[]]. reflexivity.
    + rewrite R. intros [].
  - intros p c. rewrite GG. unfold on_cpu. split.
    + destruct p as [|p]; cbn [init cur nth_error]; [discriminate|]. intro E. exfalso. eapply N; eauto.
    + intros ([H|H] & _); destruct c; discriminate.
  - intro c. rewrite GG. destruct c; split; cbn; auto; discriminate.
  - intros t a. rewrite GG. destruct t; discriminate.
  - intros c. rewrite GG. destruct c; cbn; [lia|congruence].
Qed.

(** a coroutine that runs is not queued, nor does anybody's slot name it while the other lives *)
Lemma run_facts w c : inv w -> pc (G w c) = Run ->
  st (G w c) = RUNNING /\ queued w c = 0%nat /\ (c < length (cos w))%nat /\ (home (G w c) < length (runqs w))%nat /\
  ext (G w c) = false /\
  (forall t, slot (G w t) = Some c -> st (G w t) = DEAD) /\ (forall p, ~ In c (Q w p)).
Proof.
  intros I R. pose proof (i_ok _ I c) as (O & OE). rewrite R in O.
  split; [auto|]. split; [rewrite (i_q _ I), O; auto|]. split; [apply G_live; congruence|].
  split; [apply (i_cpus _ I); congruence|]. split; [destruct (ext (G w c)); auto; rewrite OE in O by auto; discriminate|]. split.
  - intros t S. destruct (st (G w t)) eqn:E; auto; exfalso;
      destruct (i_slot _ I t c S) as (W & _); congruence.
  - intros p H. pose proof (queued_in _ _ _ H). rewrite (i_q _ I), O in H0. cbn in H0. lia.
Qed.

Lemma inv_spawn w p f w' : inv w -> step w (Spawn p f) = Ok w' -> inv w'.
Proof.
  intros I. cbn [step]. destruct (Nat.ltb_spec p (length (runqs w))) as [L|L]; [|intros [= <-]; auto]. intros [= <-].
  set (n := length (cos w)). set (x := mk_co Off RUNNABLE p None f false).
  set (w' := mk_world _ _ _).
  assert (GN : G w n = nobody) by (unfold G; apply nth_overflow; subst n; auto).
  assert (GG : forall c, G w' c = if (c =? n)%nat then x else G w c).
  { intro c. unfold G. subst w'. cbn [cos]. destruct (Nat.eqb_spec c n) as [->|N].
    - rewrite app_nth2 by (subst n; lia). subst n. now rewrite Nat.sub_diag.
    - destruct (Nat.ltb_spec c n); [now rewrite app_nth1|].
      rewrite !nth_overflow; auto. rewrite app_length. cbn [length]. subst n. lia. }
  assert (QU : forall c, queued w' c = (queued w c + (if (c =? n)%nat then 1 else 0))%nat).
  { intro c. pose proof (queued_set w p (Q w p ++ [n]) c L) as H. rewrite cnt_app, cnt_one in H.
    change (queued w' c) with (queued (set_q w p (Q w p ++ [n])) c). rewrite (Nat.eqb_sym c n). lia. }
  assert (NS : forall t, slot (G w t) = Some n -> st (G w t) = DEAD).
  { intros t S. destruct (st (G w t)) eqn:E; auto; exfalso; destruct (i_slot _ I t n S) as (W & _); try congruence; rewrite GN in W; discriminate. }
  constructor.
  - subst w'. cbn [cur runqs]. rewrite len_ls. apply (i_len _ I).
  - intro c. rewrite QU, GG, (i_q _ I). destruct (Nat.eqb_spec c n) as [->|N]; [rewrite GN; reflexivity|lia].
  - intros r c H. change (Q w' r) with (Q (set_q w p (Q w p ++ [n])) r) in H. rewrite Q_set in H. rewrite GG.
    assert (NQ : forall r, ~ In n (Q w r)).
    { intros r0 H0. pose proof (queued_in _ _ _ H0). rewrite (i_q _ I), GN in H1. cbn in H1. lia. }
    destruct (Nat.eqb_spec c n) as [->|N].
    + destruct (Nat.eqb_spec r p) as [Er|Nr]; cbn [andb] in H; auto. exfalso. eapply NQ; eauto.
    + apply (i_home _ I). destruct (Nat.eqb_spec r p) as [Er|Nr]; cbn [andb] in H; auto.
      destruct (p <? length (runqs w))%nat; subst; auto. apply in_app_iff in H as [H|[H|[]]]; auto. congruence.
  - intros r c. change (cur w') with (cur w). rewrite (i_cur _ I), GG. destruct (Nat.eqb_spec c n) as [->|N]; [|tauto].
    rewrite GN. unfold on_cpu. cbn. split; intros ([?|?] & _); discriminate.
  - intro c. rewrite GG. destruct (c =? n)%nat; [|apply (i_ok _ I)]. split; cbn; auto. discriminate.
  - intros t a. rewrite !GG. destruct (Nat.eqb_spec t n) as [->|N]; [discriminate|]. intros S D.
    destruct (Nat.eqb_spec a n) as [->|Na]; [exfalso; apply D, NS; auto|].
    destruct (i_slot _ I t a S D) as (A1 & A2 & A3). split; [auto|split; [auto|]].
    intros u. rewrite GG. destruct (Nat.eqb_spec u n); [discriminate|]. auto.
  - intros c. rewrite GG. subst w'. cbn [runqs]. rewrite len_ls. destruct (Nat.eqb_spec c n) as [->|N]; [cbn; auto|apply (i_cpus _ I)].
Qed.

(** one coroutine changes place/status/ext; queues and slots stay; neither the old nor the new status is RUNNABLE *)
Lemma inv_change w c x : inv w -> pc (G w c) = Run ->
  home x = home (G w c) -> slot x = slot (G w c) -> okc x -> pc x = Leaving -> st x = WAITING ->
  inv (set_co w c x).
Proof.
  intros I R Hh Hs Ho Hp Hst. destruct (run_facts w c I R) as (F1 & F2 & F3 & F4 & F5 & F6 & F7).
  assert (GG : forall d, G (set_co w c x) d = if (d =? c)%nat then x else G w d).
  { intro d. rewrite G_set. apply Nat.ltb_lt in F3. now rewrite F3, andb_true_r. }
  constructor; auto.
  - apply (i_len _ I).
  - intro d. change (queued (set_co w c x) d) with (queued w d). rewrite GG. break; [|apply (i_q _ I)].
    rewrite F2, Hst. auto.
  - intros p d H. change (Q (set_co w c x) p) with (Q w p) in H. rewrite GG. break; [exfalso; eapply F7; eauto|apply (i_home _ I); auto].
  - intros p d. change (cur (set_co w c x)) with (cur w). rewrite (i_cur _ I), GG. break; [|tauto].
    unfold on_cpu. rewrite R, Hp, Hh. intuition auto.
  - intro d. rewrite GG. break; [auto|apply (i_ok _ I)].
  - intros t a S D.
    assert (S' : slot (G w t) = Some a) by (rewrite GG in S; breakh; congruence).
    assert (D' : st (G w t) <> DEAD) by (rewrite GG in D; breakh; congruence).
    destruct (i_slot _ I t a S' D') as (A1 & A2 & A3).
    assert (a <> c) by (intros ->; apply D'; auto).
    rewrite GG. break; [congruence|]. split; [auto|split; [auto|]]. intros u Su Du.
    apply A3; [rewrite GG in Su; breakh; congruence|rewrite GG in Du; breakh; congruence].
  - intros d. rewrite GG. cbn [runqs set_co]. break; [rewrite Hh; auto|apply (i_cpus _ I)].
Qed.

Lemma inv_await w c t w' : inv w -> step w (Await c t) = Ok w' -> inv w'.
Proof.
  intros I. cbn [step]. destruct (is_run (G w c)) eqn:R; cbn [andb]; [|intros [= <-]; auto].
  destruct (Nat.ltb_spec t (length (cos w))) as [L|L]; [|intros [= <-]; auto].
  assert (R' : pc (G w c) = Run) by (unfold is_run in R; destruct (pc (G w c)); congruence).
  destruct (is_dead (G w t)) eqn:D; [intros [= <-]; auto|].
  assert (D' : st (G w t) <> DEAD) by (unfold is_dead in D; destruct (st (G w t)); congruence).
  intros [= <-]. set (w1 := set_co w t (set_slot (G w t) (Some c))).
  destruct (run_facts w c I R') as (F1 & F2 & F3 & F4 & F5 & F6 & F7).
  set (x := set_pc (set_st (G w1 c) WAITING) Leaving).
  assert (G1 : forall d, G w1 d = if (d =? t)%nat then set_slot (G w t) (Some c) else G w d).
  { intro d. subst w1. rewrite G_set. apply Nat.ltb_lt in L. now rewrite L, andb_true_r. }
  assert (L1 : length (cos w1) = length (cos w)) by (subst w1; cbn [cos set_co]; apply len_ls).
  assert (GG : forall d, G (set_co w1 c x) d = if (d =? c)%nat then x else G w1 d).
  { intro d. rewrite G_set. rewrite L1. apply Nat.ltb_lt in F3. now rewrite F3, andb_true_r. }
  assert (X : home x = home (G w c) /\ st x = WAITING /\ pc x = Leaving /\ ext x = false /\
     slot x = (if (c =? t)%nat then Some c else slot (G w c))).
  { subst x. rewrite G1. break; cbn; auto. }
  destruct X as (X1 & X2 & X3 & X4 & X5).
  assert (P1 : forall d, d <> c -> st (G w1 d) = st (G w d) /\ home (G w1 d) = home (G w d) /\ pc (G w1 d) = pc (G w d) /\ ext (G w1 d) = ext (G w d)).
  { intros d N. rewrite G1. break; cbn; auto. }
  constructor.
  - apply (i_len _ I).
  - intro d. change (queued (set_co w1 c x) d) with (queued w d). rewrite GG. break.
    + rewrite F2, X2. auto.
    + destruct (P1 d n) as (P & _). rewrite P. apply (i_q _ I).
  - intros p d H. change (Q (set_co w1 c x) p) with (Q w p) in H. rewrite GG. break; [exfalso; eapply F7; eauto|].
    destruct (P1 d n) as (_ & P & _). rewrite P. apply (i_home _ I); auto.
  - intros p d. change (cur (set_co w1 c x)) with (cur w). rewrite (i_cur _ I), GG. break.
    + unfold on_cpu. rewrite R', X3, X1. intuition auto.
    + destruct (P1 d n) as (_ & P & P' & _). unfold on_cpu. rewrite P, P'. tauto.
  - intro d. rewrite GG. break; [split; [rewrite X3, X2; auto|auto]|].
    destruct (P1 d n) as (P & P' & P'' & P'''). unfold okc. rewrite P, P'', P'''. apply (i_ok _ I).
  - assert (SL : forall u a, slot (G (set_co w1 c x) u) = Some a -> st (G (set_co w1 c x) u) <> DEAD ->
       (u = t /\ a = c) \/ (u <> t /\ slot (G w u) = Some a /\ st (G w u) <> DEAD /\ a <> c)).
    { intros u a S Du. rewrite GG in S, Du. destruct (Nat.eq_dec u t) as [Et|Et].
      - left. subst u. split; auto. destruct (Nat.eqb_spec t c) as [->|N].
        + rewrite X5, Nat.eqb_refl in S. congruence.
        + rewrite G1, Nat.eqb_refl in S. cbn in S. congruence.
      - right. destruct (Nat.eqb_spec u c) as [->|N].
        + rewrite X5 in S. apply Nat.eqb_neq in Et. rewrite Et in S. apply Nat.eqb_neq in Et.
          split; [auto|split; [auto|]]. split; [congruence|]. intros ->. pose proof (F6 c S). congruence.
        + rewrite G1 in S, Du. apply Nat.eqb_neq in Et. rewrite Et in S, Du. apply Nat.eqb_neq in Et.
          split; [auto|split; [auto|split; [auto|]]]. intros ->. apply Du, F6. auto. }
    intros u a S Du. destruct (SL u a S Du) as [(-> & ->)|(E1 & E2 & E3 & E4)].
    + rewrite !GG, Nat.eqb_refl. split; [auto|split; [auto|]]. intros u' S' D''.
      destruct (SL u' c S' D'') as [(-> & _)|(_ & _ & _ & N)]; auto. congruence.
    + destruct (i_slot _ I u a E2 E3) as (A1 & A2 & A3). rewrite !GG. apply Nat.eqb_neq in E4. rewrite E4. apply Nat.eqb_neq in E4.
      destruct (P1 a E4) as (P & _ & _ & P'). rewrite P, P'. split; [auto|split; [auto|]].
      intros u' S' D''. destruct (SL u' a S' D'') as [(-> & ->)|(_ & S2 & D2 & _)]; [congruence|]. apply A3; auto.
  - intros d. rewrite GG. change (runqs (set_co w1 c x)) with (runqs w). break; [rewrite X1; auto|].
    destruct (P1 d n) as (P & P' & _). rewrite P, P'. apply (i_cpus _ I).
Qed.

Lemma inv_ready w a : inv w -> st (G w a) = WAITING ->
  (forall t, slot (G w t) = Some a -> st (G w t) = DEAD) -> ext (G w a) = false -> inv (make_ready w a).
Proof.
  intros I W NS X. assert (L : (a < length (cos w))%nat) by (apply G_live; congruence).
  assert (H : (home (G w a) < length (runqs w))%nat) by (apply (i_cpus _ I); congruence).
  pose proof (mr_G w a) as GG.
  constructor.
  - rewrite mr_cur, mr_len. apply (i_len _ I).
  - intro d. rewrite mr_queued, GG by auto. rewrite (i_q _ I). break; [rewrite W; auto|lia].
  - intros p d K. rewrite mr_Q in K by auto. rewrite GG by auto.
    destruct (Nat.eqb_spec p (home (G w a))) as [Ep|Np].
    + destruct (Nat.eqb_spec d a) as [Ed|Nd]; [cbn [home set_st]; auto|].
      apply in_app_iff in K as [K|[K|[]]]; [apply (i_home _ I); auto|congruence].
    + destruct (Nat.eqb_spec d a) as [Ed|Nd]; [|apply (i_home _ I); auto].
      subst d. exfalso. pose proof (queued_in _ _ _ K) as B. rewrite (i_q _ I), W in B. cbn in B. lia.
  - intros p d. rewrite mr_cur, (i_cur _ I), GG by auto. break; [|tauto]. unfold on_cpu. cbn [pc home set_st]. tauto.
  - intro d. rewrite GG by auto. break; [|apply (i_ok _ I)]. pose proof (i_ok _ I a) as (O & O').
    split; cbn [pc st ext set_st]; [|congruence]. destruct (pc (G w a)); auto; congruence.
  - intros t b. rewrite !GG by auto. intros S D.
    assert (S' : slot (G w t) = Some b) by (breakh; auto).
    assert (D' : st (G w t) <> DEAD) by (breakh; congruence).
    destruct (i_slot _ I t b S' D') as (A1 & A2 & A3). assert (b <> a) by (intros ->; apply D', NS; auto).
    break; [congruence|]. split; [auto|split; [auto|]]. intros u. rewrite GG by auto. intros Su Du. apply A3; breakh; auto; congruence.
  - intros d. rewrite GG, mr_len by auto. break; [cbn [home set_st]; auto|apply (i_cpus _ I)].
Qed.

Lemma ls_ls (A : Type) (l : list A) i x y : list_set (list_set l i x) i y = list_set l i y.
Proof. revert i. induction l as [|h l IH]; intros [|i]; cbn [list_set]; rewrite ?IH; auto. Qed.
Lemma ls_comm (A : Type) (l : list A) x y : forall i j, i <> j ->
  list_set (list_set l i x) j y = list_set (list_set l j y) i x.
Proof.
  induction l as [|h l IH]; intros [|i] [|j] N; cbn [list_set]; auto; try congruence.
  rewrite IH; auto.
Qed.

Lemma inv_yield w c w' : inv w -> step w (YieldRun c) = Ok w' -> inv w'.
Proof.
  intros I. cbn [step]. destruct (is_run (G w c)) eqn:R; [|intros [= <-]; auto].
  assert (R' : pc (G w c) = Run) by (unfold is_run in R; destruct (pc (G w c)); congruence).
  destruct (run_facts w c I R') as (F1 & F2 & F3 & F4 & F5 & F6 & F7).
  intros [= <-]. set (x := set_pc (set_st (G w c) WAITING) Leaving).
  assert (I1 : inv (set_co w c x)).
  { apply inv_change; auto. split; cbn; auto. }
  assert (E : set_co (make_ready w c) c (set_pc (G (make_ready w c) c) Leaving) = make_ready (set_co w c x) c).
  { rewrite mr_G by auto. rewrite Nat.eqb_refl. unfold make_ready. rewrite G_set_eq by auto.
    unfold set_q, set_co, Q. cbn [cos runqs cur home set_pc set_st x]. rewrite !ls_ls. reflexivity. }
  rewrite E. apply inv_ready; auto.
  - rewrite G_set_eq by auto. reflexivity.
  - intros t S. destruct (Nat.eq_dec t c) as [->|N].
    + rewrite G_set_eq in S by auto. cbn in S. pose proof (F6 c S). congruence.
    + rewrite G_set_ne in S |- * by auto. auto.
  - rewrite G_set_eq by auto. cbn. auto.
Qed.

Lemma inv_block w c w' : inv w -> step w (Block c) = Ok w' -> inv w'.
Proof.
  intros I. cbn [step]. destruct (is_run (G w c)) eqn:R; [|intros [= <-]; auto].
  assert (R' : pc (G w c) = Run) by (unfold is_run in R; destruct (pc (G w c)); congruence).
  intros [= <-]. apply inv_change; auto. split; cbn; auto.
Qed.

Lemma inv_ext w c : inv w -> ext (G w c) = true -> inv (set_co w c (set_ext (G w c) false)) /\
  forall t, slot (G w t) = Some c -> st (G w t) = DEAD.
Proof.
  intros I X. pose proof (i_ok _ I c) as (O & O'). specialize (O' X).
  assert (L : (c < length (cos w))%nat) by (apply G_live; congruence).
  assert (NS : forall t, slot (G w t) = Some c -> st (G w t) = DEAD).
  { intros t S. destruct (st (G w t)) eqn:E; auto; exfalso; destruct (i_slot _ I t c S) as (_ & W & _); congruence. }
  split; auto.
  assert (GG : forall d, G (set_co w c (set_ext (G w c) false)) d = if (d =? c)%nat then set_ext (G w c) false else G w d).
  { intro d. rewrite G_set. apply Nat.ltb_lt in L. now rewrite L, andb_true_r. }
  assert (SAME : forall d, let g := G (set_co w c (set_ext (G w c) false)) d in
    pc g = pc (G w d) /\ st g = st (G w d) /\ home g = home (G w d) /\ slot g = slot (G w d)).
  { intro d. cbn zeta. rewrite GG. break; cbn; auto. }
  constructor.
  - apply (i_len _ I).
  - intro d. destruct (SAME d) as (_ & S & _). rewrite S. apply (i_q _ I).
  - intros p d H. destruct (SAME d) as (_ & _ & S & _). rewrite S. apply (i_home _ I). auto.
  - intros p d. destruct (SAME d) as (S1 & _ & S2 & _). unfold on_cpu. rewrite S1, S2. apply (i_cur _ I).
  - intro d. destruct (SAME d) as (S1 & S2 & _ & _). unfold okc. rewrite S1, S2. rewrite GG.
    break; [split; [exact O|cbn; discriminate]|apply (i_ok _ I)].
  - intros t a. destruct (SAME t) as (_ & S2 & _ & S3). rewrite S2, S3. intros S D.
    destruct (i_slot _ I t a S D) as (A1 & A2 & A3). destruct (SAME a) as (_ & S4 & _ & _). rewrite S4.
    split; [auto|split]. { rewrite GG. break; auto. }
    intros u. destruct (SAME u) as (_ & S5 & _ & S6). rewrite S5, S6. auto.
  - intros d. destruct (SAME d) as (_ & S1 & S2 & _). rewrite S1, S2. apply (i_cpus _ I).
Qed.

Lemma inv_readystep w c w' : inv w -> step w (Ready c) = Ok w' -> inv w'.
Proof.
  intros I. cbn [step]. destruct (pc (G w c)) eqn:P; try (intros [= <-]; auto; fail).
  destruct (ext (G w c)) eqn:X; [|intros [= <-]; auto]. intros [= <-].
  destruct (inv_ext w c I X) as (I1 & NS). pose proof (i_ok _ I c) as (O & O'). specialize (O' X).
  assert (L : (c < length (cos w))%nat) by (apply G_live; congruence).
  apply inv_ready; auto.
  - rewrite G_set_eq by auto. auto.
  - intros t S. destruct (Nat.eq_dec t c) as [->|N].
    + rewrite G_set_eq in S |- * by auto. cbn in *. auto.
    + rewrite G_set_ne in S |- * by auto. auto.
  - rewrite G_set_eq by auto. auto.
Qed.

(** leaving a processor: place Off or Dead, the processor becomes idle *)
Lemma inv_leave w c x : inv w -> on_cpu (G w c) -> (c < length (cos w))%nat ->
  home x = home (G w c) -> slot x = slot (G w c) -> okc x -> ext x = ext (G w c) ->
  (pc x = Off /\ st x = st (G w c)) \/ (pc (G w c) = Run /\ pc x = Dead /\ st x = DEAD) ->
  inv (set_cur (set_co w c x) (home (G w c)) None).
Proof.
  intros I C L Hh Hs Ho He K.
  set (w' := set_cur _ _ _).
  assert (LC : (home (G w c) < length (cur w))%nat).
  { apply nth_error_Some. assert (nth_error (cur w) (home (G w c)) = Some (Some c)) by (apply (i_cur _ I); auto). congruence. }
  assert (GG : forall d, G w' d = if (d =? c)%nat then x else G w d).
  { intro d. subst w'. change (G (set_cur ?a ?b ?e) d) with (G a d). rewrite G_set. apply Nat.ltb_lt in L. now rewrite L, andb_true_r. }
  assert (BIT : bit (st x) = bit (st (G w c))).
  { destruct K as [(_ & K)|(K1 & _ & K2)]; [congruence|]. pose proof (i_ok _ I c) as (O & _). rewrite K1 in O. rewrite O, K2. auto. }
  assert (NC : ~ on_cpu x) by (unfold on_cpu; destruct K as [(K & _)|(_ & K & _)]; rewrite K; intros [?|?]; discriminate).
  constructor.
  - subst w'. cbn [cur runqs set_cur set_co]. rewrite len_ls. apply (i_len _ I).
  - intro d. change (queued w' d) with (queued w d). rewrite GG, (i_q _ I). break; auto.
  - intros p d H. change (Q w' p) with (Q w p) in H. rewrite GG. break; [rewrite Hh|]; apply (i_home _ I); auto.
  - intros p d. subst w'. cbn [cur set_cur set_co]. rewrite ne_ls. apply Nat.ltb_lt in LC. rewrite LC, andb_true_r. rewrite GG.
    destruct (Nat.eqb_spec p (home (G w c))) as [Ep|Np].
    + split; [discriminate|]. intros (A & B). exfalso. destruct (Nat.eqb_spec d c) as [->|N]; [auto|].
      assert (E1 : nth_error (cur w) p = Some (Some d)) by (apply (i_cur _ I); auto).
      assert (E2 : nth_error (cur w) p = Some (Some c)) by (apply (i_cur _ I); auto). congruence.
    + rewrite (i_cur _ I). destruct (Nat.eqb_spec d c) as [->|N]; [|tauto].
      split; [intros (_ & E); congruence|intros (E & _); contradiction].
  - intro d. rewrite GG. break; [auto|apply (i_ok _ I)].
  - intros t a S D.
    assert (S' : slot (G w t) = Some a) by (rewrite GG in S; breakh; congruence).
    assert (D' : st (G w t) <> DEAD).
    { rewrite GG in D. destruct (Nat.eqb_spec t c) as [->|N]; auto.
      destruct K as [(_ & K)|(_ & _ & K)]; congruence. }
    destruct (i_slot _ I t a S' D') as (A1 & A2 & A3).
    rewrite !GG. assert (KA : a = c -> st x = WAITING).
    { intros ->. destruct K as [(_ & K)|(K1 & _)]; [congruence|]. pose proof (i_ok _ I c) as (O & _). rewrite K1 in O. congruence. }
    split; [break; auto|split; [break; congruence|]]. intros u Su Du.
    apply A3; [rewrite GG in Su; breakh; congruence|].
    rewrite GG in Du. destruct (Nat.eqb_spec u c) as [->|N]; auto.
    destruct K as [(_ & K)|(_ & _ & K)]; congruence.
  - intros d. rewrite GG. change (runqs w') with (runqs w). break; [|apply (i_cpus _ I)].
    intros _. rewrite Hh. rewrite <- (i_len _ I). auto.
Qed.

Lemma inv_switch w c : inv w -> exists w', step w (Switch c) = Ok w' /\ inv w'.
Proof.
  intros I. cbn [step]. destruct (pc (G w c)) eqn:P; eauto.
  pose proof (i_ok _ I c) as (O & OE). rewrite P in O.
  assert (L : (c < length (cos w))%nat) by (apply G_live; destruct O; congruence).
  assert (J : inv (set_cur (set_co w c (set_pc (G w c) Off)) (home (G w c)) None)).
  { apply inv_leave; auto; try reflexivity.
    - right; auto.
    - split; cbn; auto. }
  destruct (st (G w c)) eqn:S; eauto. destruct O; discriminate.
Qed.

Lemma inv_end w c : inv w -> (exists w', step w (End c) = Ok w' /\ inv w') \/
  (step w (End c) = Abort /\ pc (G w c) = Run /\ slot (G w c) = None /\ fails (G w c) = true).
Proof.
  intros I. cbn [step]. destruct (is_run (G w c)) eqn:R; [|eauto].
  assert (R' : pc (G w c) = Run) by (unfold is_run in R; destruct (pc (G w c)); congruence).
  destruct (run_facts w c I R') as (F1 & F2 & F3 & F4 & F5 & F6 & F7).
  set (x := set_pc (set_st (G w c) DEAD) Dead).
  assert (J : inv (set_cur (set_co w c x) (home (G w c)) None)).
  { apply inv_leave; auto; try reflexivity.
    - left; auto.
    - split; cbn; auto. congruence. }
  destruct (slot (G w c)) as [a|] eqn:S.
  - left. destruct (i_slot _ I c a S) as (A1 & A2 & A3); [congruence|].
    assert (N : a <> c) by (intros ->; congruence).
    assert (La : (a < length (cos w))%nat) by (apply G_live; congruence).
    eexists. split; [reflexivity|].
    set (w1 := set_cur (set_co w c x) (home (G w c)) None) in *.
    assert (Ga : G w1 a = G w a) by (subst w1; change (G (set_cur ?p ?b ?e) a) with (G p a); apply G_set_ne; auto).
    assert (E : set_cur (set_co (make_ready w a) c (set_pc (set_st (G (make_ready w a) c) DEAD) Dead)) (home (G (make_ready w a) c)) None = make_ready w1 a).
    { rewrite mr_G by auto. destruct (Nat.eqb_spec c a) as [?|_]; [congruence|]. fold x.
      unfold make_ready. rewrite Ga. unfold w1, set_q, set_co, set_cur, Q. cbn [cos runqs cur].
      rewrite (ls_comm _ (cos w)) by auto. reflexivity. }
    rewrite E. apply inv_ready; auto; try (rewrite Ga; auto).
    intros t St. destruct (Nat.eq_dec t c) as [->|Nt].
    + subst w1. change (G (set_cur ?p ?b ?e) c) with (G p c). rewrite G_set_eq by auto. reflexivity.
    + assert (Gt : G w1 t = G w t) by (subst w1; change (G (set_cur ?p ?b ?e) t) with (G p t); apply G_set_ne; auto).
      rewrite Gt in *. destruct (st (G w t)) eqn:Es; auto; exfalso; apply Nt, A3; auto; congruence.
  - destruct (fails (G w c)) eqn:Fa; [right; auto|left]. eauto.
Qed.

Lemma inv_resume w p : inv w -> exists w', step w (Resume p) = Ok w' /\ inv w'.
Proof.
  intros I. cbn [step]. destruct (nth_error (cur w) p) as [[?|]|] eqn:EC; eauto. destruct (Q w p) as [|c q] eqn:EQ; eauto.
  assert (INc : In c (Q w p)) by (rewrite EQ; left; auto).
  pose proof (queued_in _ _ _ INc) as B. rewrite (i_q _ I) in B.
  assert (S : st (G w c) = RUNNABLE) by (destruct (st (G w c)); cbn in B; auto; lia). rewrite S.
  pose proof (i_home _ I _ _ INc) as H. pose proof (i_ok _ I c) as (O & OE).
  destruct (pc (G w c)) eqn:P; try congruence.
  2: { exfalso. assert (nth_error (cur w) p = Some (Some c)) by (apply (i_cur _ I); unfold on_cpu; auto). congruence. }
  eexists. split; [reflexivity|].
  set (x := set_pc (set_st (set_home (G w c) p) RUNNING) Run). set (w' := set_cur _ _ _).
  assert (L : (c < length (cos w))%nat) by (apply G_live; congruence).
  assert (Lp : (p < length (runqs w))%nat) by (rewrite <- H; apply (i_cpus _ I); congruence).
  assert (GG : forall d, G w' d = if (d =? c)%nat then x else G w d).
  { intro d. subst w'. change (G (set_cur (set_q ?a ?r ?s) ?b ?e) d) with (G a d). rewrite G_set. apply Nat.ltb_lt in L. now rewrite L, andb_true_r. }
  assert (QU : forall d, (queued w' d + (if (c =? d)%nat then 1 else 0) = queued w d)%nat).
  { intro d. pose proof (queued_set w p q d Lp) as A. rewrite EQ, cnt_cons in A.
    change (queued w' d) with (queued (set_q w p q) d). lia. }
  assert (NIN : forall r, ~ In c (Q w' r)).
  { intros r K. pose proof (queued_in _ _ _ K) as C. specialize (QU c). rewrite Nat.eqb_refl, (i_q _ I), S in QU. cbn [bit] in QU. lia. }
  assert (NS : forall t, slot (G w t) = Some c -> st (G w t) = DEAD).
  { intros t St. destruct (st (G w t)) eqn:E; auto; exfalso; destruct (i_slot _ I t c St) as (W & _); congruence. }
  constructor.
  - subst w'. cbn [cur runqs set_cur set_q set_co]. rewrite !len_ls. apply (i_len _ I).
  - intro d. specialize (QU d). rewrite GG. rewrite (i_q _ I) in QU. rewrite (Nat.eqb_sym d c).
    destruct (Nat.eqb_spec c d) as [->|N]; [rewrite S in QU; cbn in *; lia|lia].
  - intros r d K. rewrite GG. destruct (Nat.eqb_spec d c) as [->|N]; [exfalso; eapply NIN; eauto|].
    apply (i_home _ I). change (Q w' r) with (Q (set_q w p q) r) in K. rewrite Q_set in K.
    destruct (Nat.eqb_spec r p) as [->|Nr]; cbn [andb] in K; auto. rewrite EQ.
    apply Nat.ltb_lt in Lp. rewrite Lp in K. right; auto.
  - intros r d. subst w'. cbn [cur set_cur set_q set_co]. rewrite ne_ls. rewrite (i_len _ I).
    assert (Lp' := Lp). apply Nat.ltb_lt in Lp'. rewrite Lp', andb_true_r. rewrite GG.
    destruct (Nat.eqb_spec r p) as [Er|Nr].
    + subst r. destruct (Nat.eqb_spec d c) as [->|N].
      * unfold on_cpu. cbn. split; auto.
      * split; [congruence|]. intro K. apply (i_cur _ I) in K. congruence.
    + rewrite (i_cur _ I). destruct (Nat.eqb_spec d c) as [->|N]; [|tauto].
      split; [intros (K & _); unfold on_cpu in K; rewrite P in K; destruct K; discriminate|].
      intros (_ & K). cbn in K. congruence.
  - intro d. rewrite GG. break; [|apply (i_ok _ I)]. split; cbn; auto. intro X. rewrite OE in S by auto. discriminate.
  - intros t a St D.
    assert (S' : slot (G w t) = Some a) by (rewrite GG in St; breakh; auto).
    assert (D' : st (G w t) <> DEAD) by (rewrite GG in D; breakh; congruence).
    destruct (i_slot _ I t a S' D') as (A1 & A2 & A3).
    assert (a <> c) by (intros ->; apply D', NS; auto).
    rewrite !GG. apply Nat.eqb_neq in H0. rewrite H0. split; [auto|split; [auto|]]. intros u Su Du.
    apply A3; [rewrite GG in Su; breakh; auto|rewrite GG in Du; breakh; congruence].
  - intros d. rewrite GG. subst w'. cbn [runqs set_cur set_q set_co]. rewrite len_ls.
    break; [cbn; auto|apply (i_cpus _ I)].
Qed.

(** No assertion fails and no coroutine is resumed while its stack is in use; only the deliberate exit remains. *)
Lemma step_inv w a : inv w -> (exists w', step w a = Ok w' /\ inv w') \/ (step w a = Abort /\ exists c, a = End c).
Proof.
  intro I. destruct a as [p f|p|c t|c|c|c|c|c].
  - left. destruct (step w (Spawn p f)) eqn:E; try (cbn [step] in E; destruct (p <? length (runqs w))%nat; discriminate).
    eexists. split; eauto. eapply inv_spawn; eauto.
  - left. apply inv_resume; auto.
  - left. destruct (step w (Await c t)) eqn:E;
      try (cbn [step] in E; destruct (is_run (G w c) && (t <? length (cos w))%nat)%bool; [destruct (is_dead (G w t))|]; discriminate).
    eexists. split; eauto. eapply inv_await; eauto.
  - left. destruct (step w (YieldRun c)) eqn:E; try (cbn [step] in E; destruct (is_run (G w c)); discriminate).
    eexists. split; eauto. eapply inv_yield; eauto.
  - left. apply inv_switch; auto.
  - left. destruct (step w (Block c)) eqn:E; try (cbn [step] in E; destruct (is_run (G w c)); discriminate).
    eexists. split; eauto. eapply inv_block; eauto.
  - left. destruct (step w (Ready c)) eqn:E; try (cbn [step] in E; destruct (pc (G w c)); try destruct (ext (G w c)); discriminate).
    eexists. split; eauto. eapply inv_readystep; eauto.
  - destruct (inv_end w c I) as [H|(H & _)]; [left; auto|right; eauto].
Qed.

Lemma run_inv tr : forall w w', inv w -> run w tr = Ok w' -> inv w'.
Proof.
  induction tr as [|a tr IH]; intros w w' I E; cbn [run] in E; [congruence|].
  destruct (step_inv w a I) as [(w1 & S & I1)|(S & _)]; rewrite S in E; cbn [bind] in E; [eauto|discriminate].
Qed.

(** ** The life of one wait *)
(** What a step does to a coroutine that is not the one acting. *)
Definition waits_for (w : world) (c t : nat) : Prop := slot (G w t) = Some c /\ st (G w t) <> DEAD.
(** phases after [c] started to wait for [t] *)
Definition asleep (w : world) (c t : nat) : Prop := waits_for w c t.
Definition woken (w : world) (c t : nat) : Prop := st (G w t) = DEAD /\ st (G w c) = RUNNABLE.
Definition back (w : world) (c t : nat) : Prop := st (G w t) = DEAD /\ (pc (G w c) = Run \/ pc (G w c) = Dead).

Lemma step_dead w a w' t : inv w -> step w a = Ok w' -> (t < length (cos w))%nat ->
  st (G w t) = DEAD -> st (G w' t) = DEAD /\ (t < length (cos w'))%nat.
Proof.
  intros I E L D. pose proof (i_ok _ I t) as (O & _).
  assert (NP : pc (G w t) = Dead) by (destruct (pc (G w t)); auto; try (destruct O as [O|O]); congruence).
  destruct a as [p f|p|c u|c|c|c|c|c]; cbn [step] in E.
  - destruct (p <? length (runqs w))%nat; injection E as <-; auto. unfold G. cbn [cos]. rewrite app_nth1 by auto.
    rewrite app_length. split; [exact D|lia].
  - destruct (nth_error (cur w) p) as [[?|]|]; try (injection E as <-; auto; fail).
    destruct (Q w p) as [|c q]; [injection E as <-; auto|]. destruct (st (G w c)) eqn:S; try discriminate.
    destruct (pc (G w c)); try discriminate. injection E as <-.
    change (G (set_cur (set_q ?a ?r ?s) ?b ?e) t) with (G a t). rewrite G_set_ne by congruence.
    cbn [cos set_cur set_q set_co]. rewrite len_ls. auto.
  - destruct (is_run (G w c)) eqn:R; cbn [andb] in E; [|injection E as <-; auto].
    destruct (u <? length (cos w))%nat; [|injection E as <-; auto].
    destruct (is_dead (G w u)) eqn:Du; injection E as <-; auto.
    assert (t <> c) by (intros ->; unfold is_run in R; rewrite NP in R; discriminate).
    assert (t <> u) by (intros ->; unfold is_dead in Du; rewrite D in Du; discriminate).
    rewrite !G_set_ne by auto. cbn [cos set_co]. rewrite !len_ls. auto.
  - destruct (is_run (G w c)) eqn:R; injection E as <-; auto.
    assert (N : t <> c) by (intros ->; unfold is_run in R; rewrite NP in R; discriminate).
    rewrite G_set_ne by auto. unfold make_ready. change (G (set_q ?a ?r ?s) t) with (G a t). rewrite G_set_ne by auto.
    cbn [cos set_q set_co]. rewrite !len_ls. auto.
  - destruct (pc (G w c)) eqn:P; try (injection E as <-; auto; fail).
    assert (t <> c) by congruence.
    destruct (st (G w c)); try discriminate; injection E as <-; change (G (set_cur ?a ?r ?s) t) with (G a t);
      rewrite G_set_ne by auto; cbn [cos set_cur set_co]; rewrite !len_ls; auto.
  - destruct (is_run (G w c)) eqn:R; injection E as <-; auto.
    assert (N : t <> c) by (intros ->; unfold is_run in R; rewrite NP in R; discriminate).
    rewrite G_set_ne by auto. cbn [cos set_co]. rewrite !len_ls. auto.
  - destruct (pc (G w c)) eqn:P; try (injection E as <-; auto; fail).
    assert (N : t <> c) by congruence. destruct (ext (G w c)); injection E as <-; auto.
    unfold make_ready. change (G (set_q ?a ?r ?s) t) with (G a t). rewrite !G_set_ne by auto.
    cbn [cos set_q set_co]. rewrite !len_ls. auto.
  - destruct (is_run (G w c)) eqn:R; [|injection E as <-; auto].
    assert (N : t <> c) by (intros ->; unfold is_run in R; rewrite NP in R; discriminate).
    assert (R' : st (G w c) <> DEAD).
    { pose proof (i_ok _ I c) as (O2 & _). unfold is_run in R. destruct (pc (G w c)); congruence. }
    destruct (slot (G w c)) as [x|] eqn:S.
    + destruct (i_slot _ I c x S R') as (A & _). assert (t <> x) by congruence.
      injection E as <-. change (G (set_cur ?a ?r ?s) t) with (G a t). rewrite G_set_ne by auto.
      unfold make_ready. change (G (set_q ?a ?r ?s) t) with (G a t). rewrite G_set_ne by auto.
      cbn [cos set_cur set_q set_co]. rewrite !len_ls. auto.
    + destruct (fails (G w c)); [discriminate|]. injection E as <-. change (G (set_cur ?a ?r ?s) t) with (G a t).
      rewrite G_set_ne by auto. cbn [cos set_cur set_q set_co]. rewrite !len_ls. auto.
Qed.

Lemma resumes_runnable w a c : inv w -> st (G w c) <> RUNNABLE -> resumes w a c = 0%nat.
Proof.
  intros I N. destruct a; cbn [resumes]; auto. destruct (nth_error (cur w) p) as [[?|]|]; auto.
  destruct (nth p (runqs w) []) as [|d q] eqn:E; auto. destruct (Nat.eqb_spec d c) as [->|]; auto.
  exfalso. assert (H : In c (Q w p)) by (unfold Q; rewrite E; left; auto).
  apply queued_in in H. rewrite (i_q _ I) in H. destruct (st (G w c)); cbn in H; try lia; congruence.
Qed.

Lemma is_run_pc x : is_run x = true -> pc x = Run.
Proof. unfold is_run. destruct (pc x); congruence. Qed.

(** what can happen to one coroutine in one step: its own moves apart *)
Lemma step_asleep w a w' c t : inv w -> step w a = Ok w' -> waits_for w c t -> awaits t a = false ->
  resumes w a c = 0%nat /\ (waits_for w' c t \/ woken w' c t).
Proof.
  intros I E (S & D) NA. destruct (i_slot _ I t c S D) as (W & X & U).
  split; [apply resumes_runnable; congruence|].
  assert (Lc : (c < length (cos w))%nat) by (apply G_live; congruence).
  assert (Lt : (t < length (cos w))%nat) by (apply G_live; congruence).
  destruct a as [p f|p|d u|d|d|d|d|d]; cbn [step] in E.
  - left. destruct (p <? length (runqs w))%nat; injection E as <-; [|split; auto].
    unfold waits_for, G. cbn [cos]. rewrite app_nth1 by auto. split; auto.
  - left. destruct (nth_error (cur w) p) as [[?|]|]; try (injection E as <-; split; auto; fail).
    destruct (Q w p) as [|d q]; [injection E as <-; split; auto|]. destruct (st (G w d)) eqn:Sd; try discriminate.
    destruct (pc (G w d)); try discriminate. injection E as <-.
    unfold waits_for. change (G (set_cur (set_q ?a ?r ?s) ?b ?e) t) with (G a t).
    destruct (Nat.eq_dec t d) as [->|N]; [rewrite G_set_eq by auto; cbn; split; [auto|discriminate]|].
    rewrite G_set_ne by auto. auto.
  - left. cbn [awaits] in NA. apply Nat.eqb_neq in NA.
    destruct (is_run (G w d)) eqn:R; cbn [andb] in E; [|injection E as <-; split; auto].
    destruct (Nat.ltb_spec u (length (cos w))) as [Lu|_]; [|injection E as <-; split; auto].
    destruct (is_dead (G w u)); injection E as <-; [split; auto|].
    unfold waits_for. set (w1 := set_co w u _). assert (E1 : G w1 t = G w t) by (apply G_set_ne; auto).
    destruct (Nat.eq_dec t d) as [->|N].
    + rewrite G_set_eq by (subst w1; cbn [cos set_co]; rewrite len_ls; auto). cbn [slot st set_pc set_st]. rewrite E1. split; [auto|discriminate].
    + rewrite G_set_ne by auto. rewrite E1. auto.
  - left. destruct (is_run (G w d)) eqn:R; injection E as <-; [|split; auto].
    apply is_run_pc in R. assert (Ld : (d < length (cos w))%nat) by (apply (run_facts w d I R)).
    unfold waits_for. destruct (Nat.eq_dec t d) as [->|N].
    + rewrite G_set_eq by (rewrite mr_cos; auto). rewrite mr_G by auto. rewrite Nat.eqb_refl. cbn. split; [auto|discriminate].
    + rewrite G_set_ne by auto. rewrite mr_G by auto. apply Nat.eqb_neq in N. rewrite N. auto.
  - left. destruct (pc (G w d)) eqn:P; try (injection E as <-; split; auto; fail).
    assert (E' : w' = set_cur (set_co w d (set_pc (G w d) Off)) (home (G w d)) None) by (destruct (st (G w d)); congruence).
    subst w'. unfold waits_for. change (G (set_cur ?a ?r ?s) t) with (G a t).
    destruct (Nat.eq_dec t d) as [->|N]; [rewrite G_set_eq by auto; cbn; auto|rewrite G_set_ne by auto; auto].
  - left. destruct (is_run (G w d)) eqn:R; injection E as <-; [|split; auto].
    unfold waits_for. destruct (Nat.eq_dec t d) as [->|N].
    + rewrite G_set_eq by auto. cbn. split; [auto|discriminate].
    + rewrite G_set_ne by auto. auto.
  - left. destruct (pc (G w d)) eqn:P; try (injection E as <-; split; auto; fail).
    destruct (ext (G w d)) eqn:Xd; injection E as <-; [|split; auto].
    assert (Ld : (d < length (cos w))%nat).
    { apply G_live. pose proof (i_ok _ I d) as (O & _). rewrite P in O. destruct O; congruence. }
    unfold waits_for. rewrite mr_G by (cbn [cos set_co]; rewrite len_ls; auto).
    destruct (Nat.eqb_spec t d) as [->|N]; [rewrite G_set_eq by auto; cbn; split; [auto|discriminate]|].
    rewrite G_set_ne by auto. auto.
  - destruct (is_run (G w d)) eqn:R; [|left; injection E as <-; split; auto].
    apply is_run_pc in R. destruct (run_facts w d I R) as (F1 & F2 & F3 & F4 & F5 & F6 & F7).
    destruct (Nat.eq_dec d t) as [->|N].
    + right. rewrite S in E. injection E as <-.
      assert (N : c <> t) by (intros ->; congruence).
      unfold woken. change (G (set_cur ?a ?r ?s)) with (G a).
      rewrite G_set_eq by (rewrite mr_cos; auto). rewrite (G_set_ne _ _ _ c) by auto. rewrite (mr_G w c c) by auto.
      rewrite Nat.eqb_refl. auto.
    + left. unfold waits_for. destruct (slot (G w d)) as [x|] eqn:Sd.
      * injection E as <-. change (G (set_cur ?a ?r ?s)) with (G a). rewrite G_set_ne by auto.
        destruct (i_slot _ I d x Sd) as (A1 & _); [congruence|].
        rewrite mr_G by (apply G_live; congruence). destruct (Nat.eqb_spec t x) as [->|]; cbn; split; auto; discriminate.
      * destruct (fails (G w d)); [discriminate|]. injection E as <-. change (G (set_cur ?a ?r ?s)) with (G a).
        rewrite G_set_ne by auto. auto.
Qed.

(** moves of others do not touch the status and place of [c], unless they make it ready from waiting *)
Lemma step_other w a w' c : inv w -> step w a = Ok w' -> (c < length (cos w))%nat ->
  (st (G w c) <> WAITING) ->
  match a with Resume p => resumes w a c = 0%nat | Await d _ | YieldRun d | Block d | End d => d = c -> pc (G w c) <> Run | _ => True end ->
  st (G w' c) = st (G w c) /\ (pc (G w c) <> Leaving -> pc (G w' c) = pc (G w c)).
Proof.
  intros I E L W NA. destruct a as [p f|p|d u|d|d|d|d|d]; cbn [step] in E.
  - destruct (p <? length (runqs w))%nat; injection E as <-; auto. unfold G. cbn [cos]. rewrite app_nth1 by auto. auto.
  - cbn [resumes] in NA. destruct (nth_error (cur w) p) as [[?|]|]; try (injection E as <-; auto; fail).
    unfold Q in *. destruct (nth p (runqs w) []) as [|d q]; [injection E as <-; auto|].
    destruct (st (G w d)) eqn:Sd; try discriminate. destruct (pc (G w d)); try discriminate. injection E as <-.
    destruct (Nat.eqb_spec d c) as [->|N]; [discriminate|].
    change (G (set_cur (set_q ?a ?r ?s) ?b ?e) c) with (G a c). rewrite G_set_ne by auto. auto.
  - destruct (is_run (G w d)) eqn:R; cbn [andb] in E; [|injection E as <-; auto].
    assert (N : c <> d) by (intros ->; apply (NA eq_refl), is_run_pc; auto).
    destruct (Nat.ltb_spec u (length (cos w))) as [Lu|_]; [|injection E as <-; auto].
    destruct (is_dead (G w u)); injection E as <-; [auto|]. rewrite G_set_ne by auto.
    rewrite G_set. destruct ((c =? u) && (u <? length (cos w)))%nat%bool eqn:B; auto.
    apply andb_prop in B as (B & _). apply Nat.eqb_eq in B. subst u. auto.
  - destruct (is_run (G w d)) eqn:R; injection E as <-; [|auto].
    assert (N : c <> d) by (intros ->; apply (NA eq_refl), is_run_pc; auto). rewrite G_set_ne by auto.
    apply is_run_pc in R. rewrite mr_G by (apply (run_facts w d I R)). assert (B : (c =? d)%nat = false) by (apply Nat.eqb_neq; auto).
    rewrite B. auto.
  - destruct (pc (G w d)) eqn:P; try (injection E as <-; auto; fail).
    assert (E' : w' = set_cur (set_co w d (set_pc (G w d) Off)) (home (G w d)) None) by (destruct (st (G w d)); congruence).
    subst w'. change (G (set_cur ?a ?r ?s)) with (G a). destruct (Nat.eq_dec c d) as [->|N]; [rewrite G_set_eq by auto; cbn; split; [auto|congruence]|].
    rewrite G_set_ne by auto. auto.
  - destruct (is_run (G w d)) eqn:R; injection E as <-; [|auto].
    assert (N : c <> d) by (intros ->; apply (NA eq_refl), is_run_pc; auto). rewrite G_set_ne by auto. auto.
  - destruct (pc (G w d)) eqn:P; try (injection E as <-; auto; fail).
    destruct (ext (G w d)) eqn:Xd; injection E as <-; [|auto].
    pose proof (i_ok _ I d) as (_ & O). specialize (O Xd).
    rewrite mr_G by (cbn [cos set_co]; rewrite len_ls; apply G_live; congruence).
    destruct (Nat.eqb_spec c d) as [->|N]; [congruence|]. rewrite G_set_ne by auto. auto.
  - destruct (is_run (G w d)) eqn:R; [|injection E as <-; auto].
    assert (N : c <> d) by (intros ->; apply (NA eq_refl), is_run_pc; auto).
    apply is_run_pc in R. destruct (run_facts w d I R) as (F1 & _).
    destruct (slot (G w d)) as [x|] eqn:Sd.
    + injection E as <-. change (G (set_cur ?a ?r ?s)) with (G a). rewrite G_set_ne by auto.
      destruct (i_slot _ I d x Sd) as (A1 & _); [congruence|].
      rewrite mr_G by (apply G_live; congruence). destruct (Nat.eqb_spec c x) as [->|]; [congruence|auto].
    + destruct (fails (G w d)); [discriminate|]. injection E as <-. change (G (set_cur ?a ?r ?s)) with (G a).
      rewrite G_set_ne by auto. auto.
Qed.

Lemma step_woken w a w' c t : inv w -> step w a = Ok w' -> (t < length (cos w))%nat -> woken w c t ->
  (woken w' c t /\ resumes w a c = 0%nat) \/ (back w' c t /\ resumes w a c = 1%nat).
Proof.
  intros I E Lt (D & R). destruct (step_dead w a w' t I E Lt D) as (D' & _).
  assert (L : (c < length (cos w))%nat) by (apply G_live; congruence).
  pose proof (i_ok _ I c) as (O & _).
  destruct (resumes w a c) as [|k] eqn:RS.
  - left. split; [|auto]. split; [auto|]. destruct (step_other w a w' c I E L) as (S & _); [congruence| |congruence].
    destruct a as [p f|p|d u|d|d|d|d|d]; auto; intros -> P; rewrite P in O; congruence.
  - right. destruct a as [p f|p|d u|d|d|d|d|d]; cbn [resumes] in RS; try discriminate.
    cbn [step] in E. unfold Q in E. destruct (nth_error (cur w) p) as [[?|]|]; try discriminate.
    destruct (nth p (runqs w) []) as [|d q]; [discriminate|]. destruct (Nat.eqb_spec d c) as [->|]; [|discriminate].
    split; [|congruence]. split; [auto|]. rewrite R in E. destruct (pc (G w c)); try discriminate. injection E as <-.
    left. change (G (set_cur (set_q ?a ?r ?s) ?b ?e) c) with (G a c). rewrite G_set_eq by auto. reflexivity.
Qed.

Lemma step_back w a w' c t : inv w -> step w a = Ok w' -> (t < length (cos w))%nat -> (c < length (cos w))%nat ->
  back w c t -> sleeps_again c a = false -> back w' c t /\ resumes w a c = 0%nat.
Proof.
  intros I E Lt L (D & P) NS. destruct (step_dead w a w' t I E Lt D) as (D' & _).
  pose proof (i_ok _ I c) as (O & _).
  assert (NR : st (G w c) <> RUNNABLE) by (destruct P as [P|P]; rewrite P in O; congruence).
  pose proof (resumes_runnable w a c I NR) as RS. split; [|auto]. split; [auto|].
  destruct (match a with End d => (d =? c)%nat | _ => false end) eqn:EC.
  - destruct a as [p f|p|d u|d|d|d|d|d]; try discriminate. apply Nat.eqb_eq in EC. subst d. cbn [step] in E.
    destruct (is_run (G w c)) eqn:R; [|injection E as <-; auto].
    apply is_run_pc in R. right. destruct (slot (G w c)) as [x|] eqn:S.
    + injection E as <-. change (G (set_cur ?a ?r ?s)) with (G a).
      destruct (run_facts w c I R) as (F1 & F2 & F3 & F4 & F5 & F6 & F7).
      destruct (i_slot _ I c x S) as (A1 & _); [congruence|].
      rewrite G_set_eq by (rewrite mr_cos; auto). reflexivity.
    + destruct (fails (G w c)); [discriminate|]. injection E as <-. change (G (set_cur ?a ?r ?s)) with (G a).
      rewrite G_set_eq by auto. reflexivity.
  - destruct (step_other w a w' c I E L) as (_ & S).
    + destruct P as [P|P]; rewrite P in O; congruence.
    + destruct a as [p f|p|d u|d|d|d|d|d]; auto; intros ->; cbn in NS, EC; rewrite ?Nat.eqb_refl in *; discriminate.
    + rewrite S; [auto|]. destruct P as [P|P]; rewrite P; discriminate.
Qed.

Lemma len_mono w a w' : step w a = Ok w' -> (length (cos w) <= length (cos w'))%nat.
Proof.
  destruct a as [p f|p|d u|d|d|d|d|d]; cbn [step]; intro E.
  - destruct (p <? length (runqs w))%nat; injection E as <-; auto. cbn [cos]. rewrite app_length. lia.
  - destruct (nth_error (cur w) p) as [[?|]|]; try (injection E as <-; auto; fail).
    destruct (Q w p) as [|d q]; [injection E as <-; auto|]. destruct (st (G w d)); try discriminate.
    destruct (pc (G w d)); try discriminate. injection E as <-. cbn [cos set_cur set_q set_co]. rewrite len_ls. auto.
  - destruct (is_run (G w d) && (u <? length (cos w))%nat)%bool; [|injection E as <-; auto].
    destruct (is_dead (G w u)); injection E as <-; auto. cbn [cos set_co]. rewrite !len_ls. auto.
  - destruct (is_run (G w d)); injection E as <-; auto. cbn [cos set_co]. rewrite len_ls, mr_cos. auto.
  - destruct (pc (G w d)); try (injection E as <-; auto; fail).
    destruct (st (G w d)); try discriminate; injection E as <-; cbn [cos set_cur set_co]; rewrite len_ls; auto.
  - destruct (is_run (G w d)); injection E as <-; auto. cbn [cos set_co]. rewrite len_ls. auto.
  - destruct (pc (G w d)); try (injection E as <-; auto; fail). destruct (ext (G w d)); injection E as <-; auto.
    rewrite mr_cos. cbn [cos set_co]. rewrite len_ls. auto.
  - destruct (is_run (G w d)); [|injection E as <-; auto]. destruct (slot (G w d)).
    + injection E as <-. cbn [cos set_cur set_co]. rewrite len_ls, mr_cos. auto.
    + destruct (fails (G w d)); [discriminate|]. injection E as <-. cbn [cos set_cur set_co]. rewrite len_ls. auto.
Qed.

Definition phase (w : world) (c t k : nat) : Prop :=
  (waits_for w c t /\ k = 0%nat) \/ (woken w c t /\ k = 0%nat) \/ (back w c t /\ k = 1%nat).

Lemma run_phase c t tr : forall w w' k, inv w -> (c < length (cos w))%nat -> (t < length (cos w))%nat ->
  forallb (fun a => negb (awaits t a)) tr = true -> forallb (fun a => negb (sleeps_again c a)) tr = true ->
  run w tr = Ok w' -> phase w c t k -> inv w' /\ phase w' c t (k + resumed w tr c).
Proof.
  induction tr as [|a tr IH]; intros w w' k I Lc Lt A B E P; cbn [run resumed forallb] in *.
  - injection E as <-. rewrite Nat.add_0_r. auto.
  - apply andb_prop in A as (A1 & A2). apply andb_prop in B as (B1 & B2). apply negb_true_iff in A1, B1.
    destruct (step w a) as [w1| | | | |] eqn:S; cbn [bind] in E; try discriminate.
    destruct (step_inv w a I) as [(w2 & S2 & I2)|(S2 & _)]; [|congruence]. rewrite S in S2. injection S2 as <-.
    pose proof (len_mono _ _ _ S) as LM.
    assert (P1 : phase w1 c t (k + resumes w a c)).
    { destruct P as [(P & ->)|[(P & ->)|(P & ->)]].
      - destruct (step_asleep w a w1 c t I S P A1) as (R & [Q1|Q1]); rewrite R; [left|right; left]; auto.
      - destruct (step_woken w a w1 c t I S Lt P) as [(Q1 & R)|(Q1 & R)]; rewrite R; [right; left|right; right]; auto.
      - destruct (step_back w a w1 c t I S Lt Lc P B1) as (Q1 & R). rewrite R. right; right; auto. }
    destruct (IH w1 w' _ I2 ltac:(lia) ltac:(lia) A2 B2 E P1) as (I' & P').
    split; auto. rewrite Nat.add_assoc. auto.
Qed.

Lemma phase_count w c t k : inv w -> phase w c t k -> (k + queued w c = if ended w t then 1 else 0)%nat.
Proof.
  intros I P. unfold ended. rewrite (i_q _ I). destruct P as [((P1 & P2) & ->)|[((P1 & P2) & ->)|((P1 & P2) & ->)]].
  - destruct (i_slot _ I t c P1 P2) as (W & _). rewrite W. destruct (st (G w t)); cbn; congruence.
  - rewrite P1, P2. reflexivity.
  - rewrite P1. pose proof (i_ok _ I c) as (O & _). destruct P2 as [P2|P2]; rewrite P2 in O; rewrite O; reflexivity.
Qed.

(** ** A wait whose registration was overwritten *)
Definition lost (w : world) (c : nat) : Prop :=
  st (G w c) = WAITING /\ ext (G w c) = false /\ forall t, slot (G w t) = Some c -> st (G w t) = DEAD.

Lemma step_slot_new w a w' c t : inv w -> step w a = Ok w' -> slot (G w' t) = Some c ->
  slot (G w t) = Some c \/ pc (G w c) = Run.
Proof.
  intros I E S. destruct a as [p f|p|d u|d|d|d|d|d]; cbn [step] in E.
  - left. destruct (p <? length (runqs w))%nat; injection E as <-; auto. unfold G in *. cbn [cos] in S.
    destruct (Nat.ltb_spec t (length (cos w))) as [L|L]; [now rewrite app_nth1 in S|].
    rewrite app_nth2 in S by auto. destruct (t - length (cos w))%nat as [|[|?]]; discriminate.
  - left. destruct (nth_error (cur w) p) as [[?|]|]; try (injection E as <-; auto; fail).
    destruct (Q w p) as [|d q]; [injection E as <-; auto|]. destruct (st (G w d)); try discriminate.
    destruct (pc (G w d)); try discriminate. injection E as <-.
    change (G (set_cur (set_q ?a ?r ?s) ?b ?e) t) with (G a t) in S. rewrite G_set in S.
    destruct ((t =? d) && _)%nat%bool eqn:B; auto. apply andb_prop in B as (B & _). apply Nat.eqb_eq in B. subst t. auto.
  - destruct (is_run (G w d)) eqn:R; cbn [andb] in E; [|injection E as <-; auto].
    destruct (Nat.ltb_spec u (length (cos w))) as [Lu|_]; [|injection E as <-; auto].
    destruct (is_dead (G w u)); injection E as <-; [auto|].
    assert (K : forall x, slot (G (set_co w u (set_slot (G w u) (Some d))) x) = Some c -> slot (G w x) = Some c \/ d = c).
    { intros x H. rewrite G_set in H. destruct ((x =? u) && _)%nat%bool eqn:B; auto. cbn in H. right. congruence. }
    rewrite G_set in S. destruct ((t =? d) && _)%nat%bool eqn:B.
    + apply andb_prop in B as (B & _). apply Nat.eqb_eq in B. subst t. cbn [slot set_pc set_st] in S.
      destruct (K d S) as [?| ->]; auto. right. apply is_run_pc; auto.
    + destruct (K t S) as [?| ->]; auto. right. apply is_run_pc; auto.
  - left. destruct (is_run (G w d)) eqn:R; injection E as <-; [|auto]. apply is_run_pc in R.
    assert (L : (d < length (cos w))%nat) by (apply (run_facts w d I R)).
    assert (K : forall x, slot (G (make_ready w d) x) = slot (G w x)).
    { intro x. rewrite mr_G by auto. break; auto. }
    rewrite G_set in S. destruct ((t =? d) && _)%nat%bool eqn:B; rewrite <- K; auto.
    apply andb_prop in B as (B & _). apply Nat.eqb_eq in B. subst t. auto.
  - left. destruct (pc (G w d)) eqn:P; try (injection E as <-; auto; fail).
    assert (E' : w' = set_cur (set_co w d (set_pc (G w d) Off)) (home (G w d)) None) by (destruct (st (G w d)); congruence).
    subst w'. change (G (set_cur ?a ?r ?s)) with (G a) in S. rewrite G_set in S.
    destruct ((t =? d) && _)%nat%bool eqn:B; auto. apply andb_prop in B as (B & _). apply Nat.eqb_eq in B. subst t. auto.
  - left. destruct (is_run (G w d)) eqn:R; injection E as <-; [|auto]. rewrite G_set in S.
    destruct ((t =? d) && _)%nat%bool eqn:B; auto. apply andb_prop in B as (B & _). apply Nat.eqb_eq in B. subst t. auto.
  - left. destruct (pc (G w d)) eqn:P; try (injection E as <-; auto; fail).
    destruct (ext (G w d)) eqn:Xd; injection E as <-; [|auto].
    pose proof (i_ok _ I d) as (_ & O). specialize (O Xd).
    assert (L : (d < length (cos w))%nat) by (apply G_live; congruence).
    rewrite mr_G in S by (cbn [cos set_co]; rewrite len_ls; auto).
    destruct (Nat.eqb_spec t d) as [->|N]; [rewrite G_set_eq in S by auto; auto|]. rewrite G_set_ne in S by auto. auto.
  - left. destruct (is_run (G w d)) eqn:R; [|injection E as <-; auto]. apply is_run_pc in R.
    destruct (run_facts w d I R) as (F1 & F2 & F3 & _).
    destruct (slot (G w d)) as [x|] eqn:Sd.
    + injection E as <-. change (G (set_cur ?a ?r ?s)) with (G a) in S.
      destruct (i_slot _ I d x Sd) as (A1 & _); [congruence|].
      assert (L : (x < length (cos w))%nat) by (apply G_live; congruence).
      assert (K : forall y, slot (G (make_ready w x) y) = slot (G w y)).
      { intro y. rewrite mr_G by auto. break; auto. }
      rewrite G_set in S. destruct ((t =? d) && _)%nat%bool eqn:B; rewrite <- K; auto.
      apply andb_prop in B as (B & _). apply Nat.eqb_eq in B. subst t. auto.
    + destruct (fails (G w d)); [discriminate|]. injection E as <-. change (G (set_cur ?a ?r ?s)) with (G a) in S.
      rewrite G_set in S. destruct ((t =? d) && _)%nat%bool eqn:B; auto.
      apply andb_prop in B as (B & _). apply Nat.eqb_eq in B. subst t. auto.
Qed.

Lemma step_waiting w a w' c : inv w -> step w a = Ok w' -> lost w c ->
  st (G w' c) = WAITING /\ ext (G w' c) = false.
Proof.
  intros I E (W & X & NS). pose proof (i_ok _ I c) as (O & _).
  assert (L : (c < length (cos w))%nat) by (apply G_live; congruence).
  assert (NR : is_run (G w c) = false) by (unfold is_run; destruct (pc (G w c)); auto; congruence).
  destruct a as [p f|p|d u|d|d|d|d|d]; cbn [step] in E.
  - destruct (p <? length (runqs w))%nat; injection E as <-; auto. unfold G. cbn [cos]. rewrite app_nth1 by auto. auto.
  - destruct (nth_error (cur w) p) as [[?|]|]; try (injection E as <-; auto; fail).
    destruct (Q w p) as [|d q]; [injection E as <-; auto|]. destruct (st (G w d)) eqn:S; try discriminate.
    destruct (pc (G w d)); try discriminate. injection E as <-.
    change (G (set_cur (set_q ?a ?r ?s) ?b ?e) c) with (G a c). rewrite G_set_ne by congruence. auto.
  - destruct (is_run (G w d)) eqn:R; cbn [andb] in E; [|injection E as <-; auto].
    assert (N : c <> d) by congruence.
    destruct (Nat.ltb_spec u (length (cos w))) as [Lu|_]; [|injection E as <-; auto].
    destruct (is_dead (G w u)); injection E as <-; [auto|]. rewrite G_set_ne by auto. rewrite G_set.
    destruct ((c =? u) && _)%nat%bool eqn:B; auto. apply andb_prop in B as (B & _). apply Nat.eqb_eq in B. subst u. auto.
  - destruct (is_run (G w d)) eqn:R; injection E as <-; [|auto]. assert (N : c <> d) by congruence.
    rewrite G_set_ne by auto. apply is_run_pc in R. rewrite mr_G by (apply (run_facts w d I R)).
    apply Nat.eqb_neq in N. rewrite N. auto.
  - destruct (pc (G w d)) eqn:P; try (injection E as <-; auto; fail).
    assert (E' : w' = set_cur (set_co w d (set_pc (G w d) Off)) (home (G w d)) None) by (destruct (st (G w d)); congruence).
    subst w'. change (G (set_cur ?a ?r ?s)) with (G a).
    destruct (Nat.eq_dec c d) as [->|N]; [rewrite G_set_eq by auto; auto|rewrite G_set_ne by auto; auto].
  - destruct (is_run (G w d)) eqn:R; injection E as <-; [|auto]. rewrite G_set_ne by congruence. auto.
  - destruct (pc (G w d)) eqn:P; try (injection E as <-; auto; fail).
    destruct (ext (G w d)) eqn:Xd; injection E as <-; [|auto]. assert (N : c <> d) by congruence.
    pose proof (i_ok _ I d) as (_ & O2). specialize (O2 Xd).
    rewrite mr_G by (cbn [cos set_co]; rewrite len_ls; apply G_live; congruence).
    assert (B : (c =? d)%nat = false) by (apply Nat.eqb_neq; auto). rewrite B. rewrite G_set_ne by auto. auto.
  - destruct (is_run (G w d)) eqn:R; [|injection E as <-; auto]. assert (N : c <> d) by congruence. apply is_run_pc in R.
    destruct (run_facts w d I R) as (F1 & _).
    destruct (slot (G w d)) as [x|] eqn:Sd.
    + injection E as <-. change (G (set_cur ?a ?r ?s)) with (G a). rewrite G_set_ne by auto.
      destruct (i_slot _ I d x Sd) as (A1 & _); [congruence|].
      rewrite mr_G by (apply G_live; congruence). destruct (Nat.eqb_spec c x) as [->|]; [|auto].
      pose proof (NS d Sd). congruence.
    + destruct (fails (G w d)); [discriminate|]. injection E as <-. change (G (set_cur ?a ?r ?s)) with (G a).
      rewrite G_set_ne by auto. auto.
Qed.

Lemma step_lost w a w' c : inv w -> step w a = Ok w' -> lost w c -> lost w' c.
Proof.
  intros I E H. destruct (step_waiting w a w' c I E H) as (A & B). split; [auto|split; [auto|]].
  intros t S. destruct H as (W & X & NS).
  destruct (step_slot_new w a w' c t I E S) as [K|K].
  - assert (L : (t < length (cos w))%nat).
    { destruct (Nat.ltb_spec t (length (cos w))); auto. unfold G in K. rewrite nth_overflow in K by auto. discriminate. }
    apply (step_dead w a w' t I E L). auto.
  - pose proof (i_ok _ I c) as (O & _). rewrite K in O. congruence.
Qed.

Lemma run_lost tr : forall w w' c, inv w -> lost w c -> run w tr = Ok w' -> resumed w tr c = 0%nat /\ lost w' c.
Proof.
  induction tr as [|a tr IH]; intros w w' c I H E; cbn [run resumed] in *; [split; auto; congruence|].
  destruct (step w a) as [w1| | | | |] eqn:S; cbn [bind] in E; try discriminate.
  destruct (step_inv w a I) as [(w2 & S2 & I2)|(S2 & _)]; [|congruence]. rewrite S in S2. injection S2 as <-.
  destruct (IH w1 w' c I2 (step_lost _ _ _ _ I S H) E) as (A & B).
  rewrite resumes_runnable; auto. destruct H as (W & _). congruence.
Qed.
