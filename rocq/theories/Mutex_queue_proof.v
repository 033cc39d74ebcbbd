(** Every step keeps the invariant: the steps on the list of waiters, and the conclusion. *)
From Coq Require Import Zify ZifyBool.
From Verif Require Import Base Base_lemmas Mutex_model Mutex_spec Mutex_proof Mutex_step_proof.

Lemma place_set ts k p p' : (forall j q, nth_error ts j = Some q -> place q) -> nth_error ts k = Some p -> place p' ->
  forall j q, nth_error (list_set ts k p') j = Some q -> place q.
Proof.
  intros P E Pl j q Hj. destruct (Nat.eq_dec j k) as [->|D].
  - rewrite (nth_set_eq _ _ _ p E) in Hj. now injection Hj as <-.
  - rewrite nth_set_ne in Hj by exact D. eauto.
Qed.
Lemma hand_set ts k p p' (R : Z -> Prop) : (forall j old x, nth_error ts j = Some (LHand old x) -> R old) ->
  nth_error ts k = Some p -> ~ is_hand p' -> forall j old x, nth_error (list_set ts k p') j = Some (LHand old x) -> R old.
Proof.
  intros P E Pl j old x Hj. destruct (Nat.eq_dec j k) as [->|D].
  - rewrite (nth_set_eq _ _ _ p E) in Hj. injection Hj as ->. now destruct Pl.
  - rewrite nth_set_ne in Hj by exact D. eauto.
Qed.

Lemma nodup_push (to_head : bool) (k : nat) q : NoDup q -> ~ In k q -> NoDup (if to_head then k :: q else q ++ [k]).
Proof.
  intros N K. destruct to_head; [now constructor|].
  apply NoDup_rev in N. rewrite <- (rev_involutive (q ++ [k])). apply NoDup_rev. rewrite rev_app_distr. cbn.
  constructor; [now rewrite <- in_rev|exact N].
Qed.
Lemma in_push (to_head : bool) (k u : nat) q : In u (if to_head then k :: q else q ++ [k]) <-> u = k \/ In u q.
Proof. destruct to_head; [cbn; intuition|]. rewrite in_app_iff. cbn. intuition. Qed.
Lemma zlen_push {A} (to_head : bool) (k : A) q : zlen (if to_head then k :: q else q ++ [k]) = zlen q + 1.
Proof. destruct to_head; [|rewrite zlen_app]; unfold zlen; cbn [List.length]; lia. Qed.

Lemma step_A7 st k x b d : inv st -> nth_error (pcs st) k = Some (A7 x) -> good d (micro d st k (A7 x) b).
Proof.
  intros H E. open H. cbn [micro good].
  assert (Lk : locker st = true) by (count E; destruct A; destruct (locker st); cbn [Z.b2z] in *; [reflexivity|lia]).
  split; [|split; [|split]]; cbn [word sema wcount queue locker pcs set_word set_sema set_wcount set_queue set_locker goto].
  - same. rewrite zlen_push. count E. rewrite Lk in *. arith.
  - now apply (place_set _ k _ _ P E).
  - unfold hand; cbn [word pcs set_queue set_locker goto]. intros j old y. revert j old y.
    refine (fun j old y Hj => hand_set _ k _ _ (fun old => exists n0 n, word st = enc false false true n /\ old = enc false false true n0 /\ 1 <= n0 <= n) Hd E _ j old y Hj).
    now intros [].
  - destruct Q as [N B C D].
    assert (Kq : ~ In k (queue st)) by (intros K; destruct (B k K) as (y & Hy); congruence).
    constructor.
    + now apply nodup_push.
    + intros u Hu. apply in_push in Hu as [->|Hu].
      * exists x. now apply (nth_set_eq _ _ _ _ E).
      * destruct (B u Hu) as (y & Hy). exists y. rewrite nth_set_ne; [exact Hy|]. intros ->. now apply Kq.
    + intros j pj u Hj Ho. assert (Dj : j <> k).
      { intros ->. rewrite (nth_set_eq _ _ _ _ E) in Hj. injection Hj as <-. discriminate. }
      rewrite nth_set_ne in Hj by exact Dj. destruct (C j pj u Hj Ho) as (Nq & t & y & Hy & Ft).
      assert (u <> k) by (intros ->; congruence).
      split; [rewrite in_push; intuition|]. exists t, y. split; [|exact Ft]. now rewrite nth_set_ne.
    + intros j j' pj pj' u Hj Hj' Ho Ho'.
      assert (X : forall j pj, nth_error (list_set (pcs st) k (Parked false x)) j = Some pj -> owns pj = Some u ->
        nth_error (pcs st) j = Some pj).
      { intros i pi Hi Hoi. destruct (Nat.eq_dec i k) as [->|Di].
        - rewrite (nth_set_eq _ _ _ _ E) in Hi. injection Hi as <-. discriminate.
        - now rewrite nth_set_ne in Hi by exact Di. }
      exact (D j j' pj pj' u (X _ _ Hj Ho) (X _ _ Hj' Ho') Ho Ho').
Qed.

Lemma step_R4 st k b d : inv st -> nth_error (pcs st) k = Some R4 -> good d (micro d st k R4 b).
Proof.
  intros H E. open H. cbn [micro].
  destruct (queue st) as [|u q] eqn:Eq.
  { count E. destruct A. change (zlen (@nil nat)) with 0 in *. cbn [good]. lia. }
  cbn [good].
  destruct Q as [N B C D]. inversion N as [|? ? Nu Nq]; subst.
  destruct (B u (or_introl eq_refl)) as (xu & Hu).
  split; [|split; [|split]]; cbn [word sema wcount queue locker pcs set_word set_sema set_wcount set_queue set_locker goto].
  - same. assert (Zq : zlen (u :: q) = zlen q + 1) by (unfold zlen; cbn [List.length]; lia). rewrite Zq in A.
    pose proof (zlen_pos q). count E. arith.
    all: destruct (locker st); cbn [Z.b2z] in *; lia.
  - now apply (place_set _ k _ _ P E).
  - unfold hand; cbn [word pcs set_queue set_locker goto].
    refine (fun j old y Hj => hand_set _ k _ _ (fun old => exists n0 n, word st = enc false false true n /\ old = enc false false true n0 /\ 1 <= n0 <= n) Hd E _ j old y Hj).
    now intros [].
  - constructor.
    + exact Nq.
    + intros v Hv. destruct (B v (or_intror Hv)) as (y & Hy). exists y. rewrite nth_set_ne; [exact Hy|]. intros ->. congruence.
    + intros j pj v Hj Ho. destruct (Nat.eq_dec j k) as [->|Dj].
      * rewrite (nth_set_eq _ _ _ _ E) in Hj. injection Hj as <-. injection Ho as <-. split; [exact Nu|].
        exists false, xu. split; [|auto]. rewrite nth_set_ne; [exact Hu|]. intros ->. congruence.
      * rewrite nth_set_ne in Hj by exact Dj. destruct (C j pj v Hj Ho) as (Nv & t & y & Hy & Ft).
        split; [intros K; apply Nv; now right|]. exists t, y. split; [|exact Ft]. rewrite nth_set_ne; [exact Hy|].
        intros ->. congruence.
    + intros j j' pj pj' v Hj Hj' Ho Ho'.
      assert (X : forall i pi, i <> k -> nth_error (list_set (pcs st) k (R5 u)) i = Some pi -> owns pi = Some u -> False).
      { intros i pi Di Hi Hoi. rewrite nth_set_ne in Hi by exact Di. destruct (C i pi u Hi Hoi) as (Nv & _).
        apply Nv. now left. }
      destruct (Nat.eq_dec j k) as [->|Dj], (Nat.eq_dec j' k) as [->|Dj']; [reflexivity|exfalso..|].
      * rewrite (nth_set_eq _ _ _ _ E) in Hj. injection Hj as <-. injection Ho as <-. exact (X j' pj' Dj' Hj' Ho').
      * rewrite (nth_set_eq _ _ _ _ E) in Hj'. injection Hj' as <-. injection Ho' as <-. exact (X j pj Dj Hj Ho).
      * rewrite nth_set_ne in Hj, Hj' by assumption. exact (D j j' pj pj' v Hj Hj' Ho Ho').
Qed.

Lemma list_set_idem {A} (l : list A) k x : nth_error l k = Some x -> list_set l k x = l.
Proof. revert k. induction l as [|a l IH]; intros [|k] E; cbn in *; try discriminate; [congruence|]. f_equal. auto. Qed.

(** another coroutine's ticket *)
Lemma step_R7 st k u b d : inv st -> nth_error (pcs st) k = Some (R7 u) -> good d (micro d st k (R7 u) b).
Proof.
  intros H E. open H. cbn [micro].
  destruct (Z.ltb_spec 0 (sema st)) as [S|S]; cbn [good];
    [|frame E H (R8 u); [exact I|apply keeps_refl|]; same; count E; arith].
  destruct (q_own _ _ Q k _ u E eq_refl) as (Nq & t & x & Hu & Ft). specialize (Ft I). subst t. rewrite Hu. cbn [good].
  assert (Duk : k <> u) by (intros ->; congruence).
  assert (E' : nth_error (list_set (pcs st) u (Parked true x)) k = Some (R7 u)) by (rewrite nth_set_ne; assumption).
  split; [|split; [|split]]; cbn [word sema wcount queue locker pcs set_word set_sema set_wcount set_queue set_locker goto].
  - same. count E'. rewrite ?(fun f p' => tot_set f (pcs st) u _ p' Hu) in *.
    cbn [fCrit fTok fT8 fG fChk fA7 fPF fPT fAw fLk fCnt fOwn fRel fR4 fLoop] in *. arith.
  - apply (place_set _ k _ (R8 u) (place_set _ u _ (Parked true x) P Hu I) E' I).
  - unfold hand; cbn [word pcs set_sema goto]. set (R := fun old => exists n0 n, word st = enc false false true n /\ old = enc false false true n0 /\ 1 <= n0 <= n).
    refine (fun j old y Hj => hand_set _ k _ _ R _ E' _ j old y Hj); [|now intros []].
    refine (fun j old y Hj => hand_set _ u _ _ R Hd Hu _ j old y Hj). now intros [].
  - destruct Q as [N B C D]. set (ts := list_set (list_set (pcs st) u (Parked true x)) k (R8 u)).
    assert (Tk : nth_error ts k = Some (R8 u)) by (apply (nth_set_eq _ _ _ _ E')).
    assert (Tu : nth_error ts u = Some (Parked true x))
      by (unfold ts; rewrite nth_set_ne by congruence; apply (nth_set_eq _ _ _ _ Hu)).
    assert (To : forall j, j <> k -> j <> u -> nth_error ts j = nth_error (pcs st) j)
      by (intros j D1 D2; unfold ts; rewrite nth_set_ne by exact D1; now rewrite nth_set_ne by exact D2).
    assert (X : forall j pj v, nth_error ts j = Some pj -> owns pj = Some v ->
      exists p0, nth_error (pcs st) j = Some p0 /\ owns p0 = Some v /\ (fresh_own pj -> fresh_own p0)).
    { intros i pi v Hi Ho. destruct (Nat.eq_dec i k) as [->|D1].
      - rewrite Tk in Hi. injection Hi as <-. injection Ho as <-. exists (R7 u). split; [exact E|]. split; [reflexivity|now intros].
      - destruct (Nat.eq_dec i u) as [->|D2]; [rewrite Tu in Hi; injection Hi as <-; discriminate|].
        rewrite To in Hi by assumption. eauto. }
    constructor; [exact N| | |].
    + intros v Hv. destruct (B v Hv) as (y & Hy). exists y. rewrite To; [exact Hy|congruence|].
      intros ->. exact (Nq Hv).
    + intros j pj v Hj Ho. destruct (X j pj v Hj Ho) as (p0 & E0 & O0 & F0).
      destruct (C j p0 v E0 O0) as (Nv & t & y & Hy & Ft). split; [exact Nv|].
      destruct (Nat.eq_dec v u) as [->|D2].
      * exists true, x. split; [exact Tu|]. intros F. exfalso.
        assert (j = k) by (apply (D j k p0 (R7 u) u E0 E O0 eq_refl)). subst j. rewrite Tk in Hj. injection Hj as <-. exact F.
      * exists t, y. split; [|auto]. rewrite To; [exact Hy| |exact D2]. intros ->. congruence.
    + intros j j' pj pj' v Hj Hj' Ho Ho'. destruct (X _ _ _ Hj Ho) as (a & Ea & Oa & _).
      destruct (X _ _ _ Hj' Ho') as (c & Ec & Oc & _). exact (D j j' a c v Ea Ec Oa Oc).
Qed.

Lemma step_R8 st k u b d : inv st -> nth_error (pcs st) k = Some (R8 u) -> good d (micro d st k (R8 u) b).
Proof.
  intros H E. open H. cbn [micro].
  destruct (q_own _ _ Q k _ u E eq_refl) as (Nq & t & x & Hu & _). rewrite Hu. cbn [good].
  assert (Duk : k <> u) by (intros ->; congruence).
  assert (E' : nth_error (list_set (pcs st) u (A8 t x)) k = Some (R8 u)) by (rewrite nth_set_ne; assumption).
  split; [|split; [|split]]; cbn [word sema wcount queue locker pcs set_word set_sema set_wcount set_queue set_locker goto].
  - same. count E'. rewrite ?(fun f p' => tot_set f (pcs st) u _ p' Hu) in *.
    nonneg (list_set (pcs st) u Idle). rewrite ?(fun f p' => tot_set f (pcs st) u _ p' Hu) in *.
    cbn [fCrit fTok fT8 fG fChk fA7 fPF fPT fAw fLk fCnt fOwn fRel fR4 fLoop] in *.
    destruct t, s, l, w; arith.
  - apply (place_set _ k _ Idle (place_set _ u _ (A8 t x) P Hu I) E' I).
  - unfold hand; cbn [word pcs set_sema goto]. set (R := fun old => exists n0 n, word st = enc false false true n /\ old = enc false false true n0 /\ 1 <= n0 <= n).
    refine (fun j old y Hj => hand_set _ k _ _ R _ E' _ j old y Hj); [|now intros []].
    refine (fun j old y Hj => hand_set _ u _ _ R Hd Hu _ j old y Hj). now intros [].
  - destruct Q as [N B C D]. set (ts := list_set (list_set (pcs st) u (A8 t x)) k Idle).
    assert (Tk : nth_error ts k = Some Idle) by (apply (nth_set_eq _ _ _ _ E')).
    assert (Tu : nth_error ts u = Some (A8 t x))
      by (unfold ts; rewrite nth_set_ne by congruence; apply (nth_set_eq _ _ _ _ Hu)).
    assert (To : forall j, j <> k -> j <> u -> nth_error ts j = nth_error (pcs st) j)
      by (intros j D1 D2; unfold ts; rewrite nth_set_ne by exact D1; now rewrite nth_set_ne by exact D2).
    assert (X : forall j pj v, nth_error ts j = Some pj -> owns pj = Some v ->
      nth_error (pcs st) j = Some pj /\ v <> u).
    { intros i pi v Hi Ho. destruct (Nat.eq_dec i k) as [->|D1]; [rewrite Tk in Hi; injection Hi as <-; discriminate|].
      destruct (Nat.eq_dec i u) as [->|D2]; [rewrite Tu in Hi; injection Hi as <-; discriminate|].
      rewrite To in Hi by assumption. split; [exact Hi|]. intros ->.
      apply D1. exact (D i k pi (R8 u) u Hi E Ho eq_refl). }
    constructor; [exact N| | |].
    + intros v Hv. destruct (B v Hv) as (y & Hy). exists y. rewrite To; [exact Hy|congruence|].
      intros ->. exact (Nq Hv).
    + intros j pj v Hj Ho. destruct (X j pj v Hj Ho) as (E0 & Dv).
      destruct (C j pj v E0 Ho) as (Nv & t' & y & Hy & Ft). split; [exact Nv|].
      exists t', y. split; [|auto]. rewrite To; [exact Hy| |exact Dv]. intros ->. congruence.
    + intros j j' pj pj' v Hj Hj' Ho Ho'. destruct (X _ _ _ Hj Ho) as (Ea & _).
      destruct (X _ _ _ Hj' Ho') as (Ec & _). exact (D j j' pj pj' v Ea Ec Ho Ho').
Qed.

Theorem step_good d st lab : inv st -> good d (step d st lab).
Proof.
  intros H. destruct lab as [k|k|k|k b]; cbn [step].
  - destruct (nth_error (pcs st) k) as [[]|] eqn:E; try exact H. now apply step_lock.
  - destruct (nth_error (pcs st) k) as [[]|] eqn:E; try exact H. now apply step_trylock.
  - destruct (nth_error (pcs st) k) as [p|] eqn:E; [|exact H]. destruct p; try exact H.
    pose proof (step_unlock st k d H E) as U. cbn [step] in U. rewrite E in U. exact U.
  - destruct (nth_error (pcs st) k) as [p|] eqn:E; [|exact H]. destruct p;
      [exact H|exact H|now apply step_LFast|now apply step_LLoad|now apply step_LLoop|now apply step_LCas|
       now apply step_LWoken|now apply step_LHand|now apply step_A1|now apply step_A2|now apply step_A3|
       now apply step_A4|now apply step_A5|now apply step_A6|now apply step_A7|exact H|now apply step_A8|
       now apply step_TLoad|now apply step_TCas|now apply step_ULoop|now apply step_UCas|now apply step_ULoad|
       now apply step_R0|now apply step_R1|now apply step_R1a|now apply step_R2|now apply step_R3|now apply step_R4|
       now apply step_R5|now apply step_R6|now apply step_R7|now apply step_R8].
Qed.

Lemma tot_repeat f n : f Idle = 0 -> tot f (repeat Idle n) = 0.
Proof. intros F. induction n as [|n IH]; [reflexivity|]. unfold tot in *. cbn [repeat fold_right]. lia. Qed.
Lemma nth_repeat_idle n k p : nth_error (repeat Idle n) k = Some p -> p = Idle.
Proof. intros E. apply nth_error_In, repeat_spec in E. exact E. Qed.
Lemma inv_init n : inv (init n).
Proof.
  split; [|split; [|split]]; cbn [init word sema wcount queue locker pcs].
  - exists false, false, false, 0. split; [reflexivity|]. cbn [init word sema wcount queue locker pcs].
    rewrite !tot_repeat by reflexivity. change (zlen (@nil nat)) with 0. constructor; cbn [Z.b2z]; lia.
  - intros k p E. apply nth_repeat_idle in E. now subst p.
  - intros k old x E. apply nth_repeat_idle in E. discriminate.
  - constructor.
    + constructor.
    + intros u [].
    + intros k p u E. apply nth_repeat_idle in E. subst p. discriminate.
    + intros k k' p p' u E. apply nth_repeat_idle in E. subst p. discriminate.
Qed.
Lemma run_good d ls st : inv st -> good d (run d st ls).
Proof.
  revert st. induction ls as [|lab ls IH]; intros st H; [exact H|]. cbn [run].
  pose proof (step_good d st lab H) as G. destruct (step d st lab); cbn [bind good] in *; auto.
Qed.
Lemma inv_reach d n st : reach d n st -> inv st.
Proof. intros (ls & E). pose proof (run_good d ls _ (inv_init n)) as G. rewrite E in G. exact G. Qed.
