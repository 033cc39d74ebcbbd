(** The invariant of the mutex. *)
From Coq Require Import Zify ZifyBool.
From Verif Require Import Base Base_lemmas Mutex_model Mutex_spec.

(** ** The word *)
Definition enc (l w s : bool) (n : Z) : Z := Z.b2z l + 2 * Z.b2z w + 4 * Z.b2z s + 8 * n.
Lemma enc_mod l w s n : enc l w s n mod 8 = Z.b2z l + 2 * Z.b2z w + 4 * Z.b2z s.
Proof. unfold enc. rewrite (Z.mul_comm 8 n), Z_mod_plus_full. destruct l, w, s; reflexivity. Qed.
Lemma land_enc l w s n m : Z.land 7 m = m -> Z.land (enc l w s n) m = Z.land (Z.b2z l + 2 * Z.b2z w + 4 * Z.b2z s) m.
Proof.
  intros E. rewrite <- E at 1. rewrite Z.land_assoc. change 7 with (Z.ones 3). rewrite Z.land_ones by lia.
  change (2 ^ 3) with 8. now rewrite enc_mod.
Qed.
Lemma add_disjoint a b : Z.land a b = 0 -> Z.lor a b = a + b.
Proof. intros E. rewrite Z.add_nocarry_lxor by exact E. symmetry. now apply Z.lxor_lor. Qed.
Lemma ldiff_sub a b : Z.ldiff a b = a - Z.land a b.
Proof.
  rewrite <- (Z.lor_ldiff_and a b) at 2. rewrite add_disjoint; [lia|].
  rewrite (Z.land_comm a b), Z.land_assoc, Z.land_ldiff. reflexivity.
Qed.
Lemma lor_add a b : Z.lor a b = a + (b - Z.land a b).
Proof.
  rewrite (Z.land_comm a b), <- ldiff_sub. rewrite <- add_disjoint.
  - apply Z.bits_inj'. intros i _. rewrite !Z.lor_spec, Z.ldiff_spec.
    destruct (Z.testbit a i), (Z.testbit b i); reflexivity.
  - rewrite Z.land_comm. apply Z.land_ldiff.
Qed.
Lemma enc_land1 l w s n : Z.land (enc l w s n) 1 = Z.b2z l.
Proof. rewrite land_enc by reflexivity. destruct l, w, s; reflexivity. Qed.
Lemma enc_land2 l w s n : Z.land (enc l w s n) 2 = 2 * Z.b2z w.
Proof. rewrite land_enc by reflexivity. destruct l, w, s; reflexivity. Qed.
Lemma enc_land3 l w s n : Z.land (enc l w s n) 3 = Z.b2z l + 2 * Z.b2z w.
Proof. rewrite land_enc by reflexivity. destruct l, w, s; reflexivity. Qed.
Lemma enc_land4 l w s n : Z.land (enc l w s n) 4 = 4 * Z.b2z s.
Proof. rewrite land_enc by reflexivity. destruct l, w, s; reflexivity. Qed.
Lemma enc_land5 l w s n : Z.land (enc l w s n) 5 = Z.b2z l + 4 * Z.b2z s.
Proof. rewrite land_enc by reflexivity. destruct l, w, s; reflexivity. Qed.
Lemma enc_land7 l w s n : Z.land (enc l w s n) 7 = Z.b2z l + 2 * Z.b2z w + 4 * Z.b2z s.
Proof. rewrite land_enc by reflexivity. destruct l, w, s; reflexivity. Qed.
Lemma enc_lor1 l w s n : Z.lor (enc l w s n) 1 = enc true w s n.
Proof. rewrite lor_add, enc_land1. unfold enc. destruct l; cbn [Z.b2z]; lia. Qed.
Lemma enc_lor2 l w s n : Z.lor (enc l w s n) 2 = enc l true s n.
Proof. rewrite lor_add, enc_land2. unfold enc. destruct w; cbn [Z.b2z]; lia. Qed.
Lemma enc_lor4 l w s n : Z.lor (enc l w s n) 4 = enc l w true n.
Proof. rewrite lor_add, enc_land4. unfold enc. destruct s; cbn [Z.b2z]; lia. Qed.
Lemma enc_ldiff2 l w s n : Z.ldiff (enc l w s n) 2 = enc l false s n.
Proof. rewrite ldiff_sub, enc_land2. unfold enc. destruct w; cbn [Z.b2z]; lia. Qed.
Lemma enc_waiters l w s n : waiters_of (enc l w s n) = n.
Proof.
  unfold waiters_of. rewrite Z.shiftr_div_pow2 by lia. change (2 ^ 3) with 8. symmetry.
  apply (Z.div_unique _ _ _ (Z.b2z l + 2 * Z.b2z w + 4 * Z.b2z s)); unfold enc; destruct l, w, s; cbn [Z.b2z]; lia.
Qed.
Lemma enc_add8 l w s n : enc l w s n + 8 = enc l w s (n + 1).
Proof. unfold enc. lia. Qed.
Lemma enc_sub8 l w s n : enc l w s n - 8 = enc l w s (n - 1).
Proof. unfold enc. lia. Qed.
Lemma enc_inj l w s n l' w' s' n' : enc l w s n = enc l' w' s' n' -> l = l' /\ w = w' /\ s = s' /\ n = n'.
Proof.
  unfold enc. destruct l, w, s, l', w', s'; cbn [Z.b2z]; intros E; repeat split; lia.
Qed.

(** ** Counting coroutines *)
Definition tot (f : pc -> Z) (l : list pc) : Z := fold_right (fun p a => f p + a) 0 l.
Lemma tot_set f l k p p' : nth_error l k = Some p -> tot f (list_set l k p') = tot f l - f p + f p'.
Proof.
  revert k. induction l as [|a l IH]; intros [|k] E; cbn in E; try discriminate; cbn [list_set tot fold_right].
  - injection E as ->. unfold tot; cbn [fold_right]. lia.
  - specialize (IH k E). unfold tot in *; cbn [fold_right]. lia.
Qed.
Lemma tot_ge f l k p : (forall q, 0 <= f q) -> nth_error l k = Some p -> f p <= tot f l.
Proof.
  intros P. assert (N : forall l, 0 <= tot f l)
    by (induction l0 as [|a t IH]; cbn; [lia|unfold tot in *; specialize (P a); lia]).
  revert k. induction l as [|a l IH]; intros [|k] E; cbn in E; try discriminate; unfold tot in *; cbn [fold_right].
  - injection E as ->. specialize (N l). lia.
  - specialize (IH k E). specialize (P a). lia.
Qed.
Lemma tot_nonneg f l : (forall q, 0 <= f q) -> 0 <= tot f l.
Proof. intros P. induction l as [|a t IH]; cbn; [lia|]. unfold tot in *. specialize (P a). lia. Qed.
Lemma tot_ex f l : (forall q, 0 <= f q) -> 1 <= tot f l -> exists k p, nth_error l k = Some p /\ 1 <= f p.
Proof.
  intros P. induction l as [|a t IH]; cbn; [lia|]. intros H.
  destruct (Z_le_gt_dec 1 (f a)) as [Ha|Ha]; [exists 0%nat, a; auto|].
  destruct IH as (k & p & E & Hp); [unfold tot; specialize (P a); lia|]. exists (S k), p. auto.
Qed.
Lemma tot_two f l j k p q : (forall q, 0 <= f q) -> j <> k -> nth_error l j = Some p -> nth_error l k = Some q ->
  f p + f q <= tot f l.
Proof.
  intros P. revert j k. induction l as [|a t IH]; intros [|j] [|k] D Ej Ek; cbn in Ej, Ek; try discriminate; try congruence.
  - injection Ej as ->. unfold tot; cbn [fold_right]. fold (tot f t). pose proof (tot_ge f t k q P Ek). lia.
  - injection Ek as ->. unfold tot; cbn [fold_right]. fold (tot f t). pose proof (tot_ge f t j p P Ej). lia.
  - unfold tot; cbn [fold_right]. fold (tot f t). assert (j <> k) by congruence.
    specialize (IH j k H Ej Ek). specialize (P a). lia.
Qed.

Definition fCrit (p : pc) := match p with Crit => 1 | _ => 0 end.
Definition fTok (p : pc) := match p with R0 _ => 1 | _ => 0 end.
Definition fT8 (p : pc) := match p with A8 true _ => 1 | _ => 0 end.
Definition fG (p : pc) := match p with LWoken _ | LHand _ _ | A5 _ | A6 _ => 1 | _ => 0 end.
Definition fChk (p : pc) := match p with A1 _ | A2 _ | A3 _ | A4 _ | A8 false _ => 1 | _ => 0 end.
Definition fA7 (p : pc) := match p with A7 _ => 1 | _ => 0 end.
Definition fPF (p : pc) := match p with Parked false _ => 1 | _ => 0 end.
Definition fPT (p : pc) := match p with Parked true _ => 1 | _ => 0 end.
Definition fAw (p : pc) := match p with LLoad x | LLoop _ x | LCas _ _ x => Z.b2z (awoke x) | _ => 0 end.
Definition fLk (p : pc) := match p with A3 _ | A4 _ | A5 _ | A6 _ | A7 _ | R3 | R4 | R5 _ | R6 _ => 1 | _ => 0 end.
Definition fCnt (p : pc) := match p with A4 _ | A5 _ | A7 _ | R5 _ => 1 | _ => 0 end.
Definition fOwn (p : pc) := match p with R5 _ | R6 _ | R7 _ | R8 _ => 1 | _ => 0 end.
Definition fRel (p : pc) := match p with R1 | R2 | R3 | R4 | R5 _ | R6 _ | R7 _ | R8 _ => 1 | _ => 0 end.
Definition fR4 (p : pc) := match p with R4 => 1 | _ => 0 end.
Definition stops (old : Z) : bool := (waiters_of old =? 0) || negb (Z.land old 7 =? 0).
Definition fLoop (p : pc) := match p with ULoad | UCas _ => 1 | ULoop old => Z.b2z (negb (stops old)) | _ => 0 end.

Lemma f_nonneg p : (0 <= fCrit p /\ 0 <= fTok p /\ 0 <= fT8 p /\ 0 <= fG p) /\
  (0 <= fChk p /\ 0 <= fA7 p /\ 0 <= fPF p /\ 0 <= fPT p /\ 0 <= fAw p /\ 0 <= fLk p) /\
  (0 <= fCnt p /\ 0 <= fOwn p /\ 0 <= fRel p /\ 0 <= fR4 p /\ 0 <= fLoop p).
Proof.
  repeat split; destruct p; cbn [fCrit fTok fT8 fG fChk fA7 fPF fPT fAw fLk fCnt fOwn fRel fR4 fLoop];
    try destruct ticket; try lia; try (destruct (awoke x); cbn [Z.b2z]; lia);
    try (destruct (stops old); cbn [negb Z.b2z]; lia).
Qed.

Record counts := mk_counts { nCrit : Z; nTok : Z; nT8 : Z; nG : Z; nChk : Z; nA7 : Z; nPF : Z; nPT : Z; nAw : Z;
  nLk : Z; nCnt : Z; nOwn : Z; nRel : Z; nR4 : Z; nLoop : Z }.

Record arith (l w s : bool) (n sem wc lq : Z) (lk : bool)
    (crit tok t8 g chk a7 pf pt aw lkc cnt own rel r4 loop : Z) : Prop := mk_arith {
  a_n : 0 <= n; a_sem : 0 <= sem;
  a_crit : crit = Z.b2z l;
  a_s1 : s = true -> w = false /\ aw = 0 /\ tok + sem + t8 + pt + g = 1 - Z.b2z l /\ 1 <= n /\
           chk + a7 + pf + t8 + pt + g = n;
  a_s0 : s = false -> tok + sem + t8 + pt + g + aw = Z.b2z w /\ chk + a7 + pf = n + tok + sem;
  a_lk : lkc = Z.b2z lk;
  a_wc : wc = lq + cnt;
  a_park : pf + pt = lq + own;
  a_r4 : 1 <= r4 -> 1 <= lq;
  a_sema : 1 <= sem -> 1 <= rel + chk;
  a_loop : l = false -> s = false -> w = false -> 1 <= n -> 1 <= loop
}.

Definition ainv (st : state) (l w s : bool) (n : Z) : Prop :=
  word st = enc l w s n /\
  arith l w s n (sema st) (wcount st) (zlen (queue st)) (locker st)
    (tot fCrit (pcs st)) (tot fTok (pcs st)) (tot fT8 (pcs st)) (tot fG (pcs st)) (tot fChk (pcs st)) (tot fA7 (pcs st))
    (tot fPF (pcs st)) (tot fPT (pcs st)) (tot fAw (pcs st)) (tot fLk (pcs st)) (tot fCnt (pcs st)) (tot fOwn (pcs st))
    (tot fRel (pcs st)) (tot fR4 (pcs st)) (tot fLoop (pcs st)).

(** what is true of each place by itself *)
Definition well (old : Z) : Prop := exists l w s n, old = enc l w s n /\ 0 <= n.
Definition wl (x : loc) : Prop := starving x = true -> awoke x = true.
Definition place (p : pc) : Prop :=
  match p with
  | LLoad x => wl x
  | LLoop old x => wl x /\ exists l w s n, old = enc l w s n /\ 0 <= n /\ (awoke x = true -> w = true)
  | LCas old new x => wl x /\ next_word old x = Some new /\
      exists l w s n, old = enc l w s n /\ 0 <= n /\ (awoke x = true -> w = true)
  | TCas old => exists w n, old = enc false w false n /\ 0 <= n
  | ULoop old => well old
  | UCas old => exists n, old = enc false false false n /\ 1 <= n
  | _ => True
  end.

(** the lock is being handed over *)
Definition hand (st : state) : Prop := forall k old x, nth_error (pcs st) k = Some (LHand old x) ->
  exists n0 n, word st = enc false false true n /\ old = enc false false true n0 /\ 1 <= n0 <= n.

(** the list of waiters, and the coroutines taken from it but not yet runnable *)
Definition owns (p : pc) : option nat := match p with R5 u | R6 u | R7 u | R8 u => Some u | _ => None end.
Definition fresh_own (p : pc) : Prop := match p with R8 _ => False | _ => True end.
Record qinv (q : list nat) (ts : list pc) : Prop := mk_qinv {
  q_nodup : NoDup q;
  q_parked : forall u, In u q -> exists x, nth_error ts u = Some (Parked false x);
  q_own : forall k p u, nth_error ts k = Some p -> owns p = Some u ->
    ~ In u q /\ exists t x, nth_error ts u = Some (Parked t x) /\ (fresh_own p -> t = false);
  q_one : forall k k' p p' u, nth_error ts k = Some p -> nth_error ts k' = Some p' ->
    owns p = Some u -> owns p' = Some u -> k = k'
}.

Definition inv (st : state) : Prop :=
  (exists l w s n, ainv st l w s n) /\ (forall k p, nth_error (pcs st) k = Some p -> place p) /\ hand st /\
  qinv (queue st) (pcs st).

(** ** Tactics *)
Ltac nonneg ts :=
  pose proof (tot_nonneg fCrit ts (fun p => proj1 (proj1 (f_nonneg p))));
  pose proof (tot_nonneg fTok ts (fun p => proj1 (proj2 (proj1 (f_nonneg p)))));
  pose proof (tot_nonneg fT8 ts (fun p => proj1 (proj2 (proj2 (proj1 (f_nonneg p))))));
  pose proof (tot_nonneg fG ts (fun p => proj2 (proj2 (proj2 (proj1 (f_nonneg p))))));
  pose proof (tot_nonneg fChk ts (fun p => proj1 (proj1 (proj2 (f_nonneg p)))));
  pose proof (tot_nonneg fA7 ts (fun p => proj1 (proj2 (proj1 (proj2 (f_nonneg p))))));
  pose proof (tot_nonneg fPF ts (fun p => proj1 (proj2 (proj2 (proj1 (proj2 (f_nonneg p)))))));
  pose proof (tot_nonneg fPT ts (fun p => proj1 (proj2 (proj2 (proj2 (proj1 (proj2 (f_nonneg p))))))));
  pose proof (tot_nonneg fAw ts (fun p => proj1 (proj2 (proj2 (proj2 (proj2 (proj1 (proj2 (f_nonneg p)))))))));
  pose proof (tot_nonneg fLk ts (fun p => proj2 (proj2 (proj2 (proj2 (proj2 (proj1 (proj2 (f_nonneg p)))))))));
  pose proof (tot_nonneg fCnt ts (fun p => proj1 (proj2 (proj2 (f_nonneg p)))));
  pose proof (tot_nonneg fOwn ts (fun p => proj1 (proj2 (proj2 (proj2 (f_nonneg p))))));
  pose proof (tot_nonneg fRel ts (fun p => proj1 (proj2 (proj2 (proj2 (proj2 (f_nonneg p)))))));
  pose proof (tot_nonneg fR4 ts (fun p => proj1 (proj2 (proj2 (proj2 (proj2 (proj2 (f_nonneg p))))))));
  pose proof (tot_nonneg fLoop ts (fun p => proj2 (proj2 (proj2 (proj2 (proj2 (proj2 (f_nonneg p)))))))).
Lemma tot_sub3 f g h l : tot (fun p => f p - g p - h p) l = tot f l - tot g l - tot h l.
Proof. induction l as [|a t IH]; [reflexivity|]. unfold tot in *. cbn [fold_right]. lia. Qed.
Lemma lk_split p : 0 <= fLk p - fCnt p - fR4 p.
Proof. destruct p; cbn; lia. Qed.

Lemma cnt_split p : 0 <= fCnt p - fA7 p - 0.
Proof. destruct p; cbn; lia. Qed.
Lemma rel_split p : 0 <= fRel p - fOwn p - 0.
Proof. destruct p; cbn; lia. Qed.
Lemma tot_zero l : tot (fun _ => 0) l = 0.
Proof. induction l as [|a t IH]; [reflexivity|]. unfold tot in *. cbn [fold_right]. lia. Qed.

Ltac count E :=
  match type of E with
  | nth_error ?ts ?k = Some ?p =>
      nonneg (list_set ts k Idle);
      pose proof (tot_nonneg _ (list_set ts k Idle) lk_split);
      pose proof (tot_nonneg _ (list_set ts k Idle) cnt_split);
      pose proof (tot_nonneg _ (list_set ts k Idle) rel_split);
      rewrite ?tot_sub3, ?tot_zero in *;
      rewrite ?(fun f p' => tot_set f ts k p p' E) in *
  end;
  cbn [fCrit fTok fT8 fG fChk fA7 fPF fPT fAw fLk fCnt fOwn fRel fR4 fLoop awoke Z.b2z] in *.
Ltac arith := match goal with A : arith _ _ _ _ _ _ _ _ _ _ _ _ _ _ _ _ _ _ _ _ _ _ _ |- _ => destruct A end;
  constructor; cbn [Z.b2z] in *; try lia.

Lemma nth_set_eq {A} (l : list A) k x p : nth_error l k = Some p -> nth_error (list_set l k x) k = Some x.
Proof. revert k. induction l as [|a l IH]; intros [|k] E; cbn in *; try discriminate; auto. Qed.
Lemma nth_set_ne {A} (l : list A) k j x : j <> k -> nth_error (list_set l k x) j = nth_error l j.
Proof.
  revert k j. induction l as [|a l IH]; intros [|k] [|j] D; cbn; try reflexivity; try congruence.
  apply IH. congruence.
Qed.

Definition is_parked (p : pc) : Prop := match p with Parked _ _ => True | _ => False end.

Lemma qinv_frame q ts k p p' : qinv q ts -> nth_error ts k = Some p -> owns p' = owns p ->
  (fresh_own p' -> fresh_own p) -> ~ is_parked p -> qinv q (list_set ts k p').
Proof.
  intros [A B C D] E O F P. constructor; [exact A| | |].
  - intros u Hu. destruct (B u Hu) as (x & Hx). exists x. rewrite nth_set_ne; [exact Hx|].
    intros ->. rewrite E in Hx. injection Hx as ->. now apply P.
  - intros j pj u Hj Ho.
    assert (X : exists p0, nth_error ts j = Some p0 /\ owns p0 = Some u /\ (fresh_own pj -> fresh_own p0)).
    { destruct (Nat.eq_dec j k) as [->|Dj].
      - rewrite (nth_set_eq _ _ _ p E) in Hj. injection Hj as <-. exists p. rewrite <- O. auto.
      - rewrite nth_set_ne in Hj by exact Dj. eauto. }
    destruct X as (p0 & E0 & O0 & F0). destruct (C j p0 u E0 O0) as (Nq & t & x & Hx & Ft).
    split; [exact Nq|]. exists t, x. split; [|auto]. rewrite nth_set_ne; [exact Hx|].
    intros ->. rewrite E in Hx. injection Hx as ->. now apply P.
  - intros j j' pj pj' u Hj Hj' Ho Ho'.
    assert (X : forall j pj, nth_error (list_set ts k p') j = Some pj -> owns pj = Some u ->
      exists p0, nth_error ts j = Some p0 /\ owns p0 = Some u).
    { intros i pi Hi Hoi. destruct (Nat.eq_dec i k) as [->|Di].
      - rewrite (nth_set_eq _ _ _ p E) in Hi. injection Hi as <-. exists p. rewrite <- O. auto.
      - rewrite nth_set_ne in Hi by exact Di. eauto. }
    destruct (X j pj Hj Ho) as (a & Ea & Oa). destruct (X j' pj' Hj' Ho') as (b & Eb & Ob).
    exact (D j j' a b u Ea Eb Oa Ob).
Qed.

Definition is_hand (p : pc) : Prop := match p with LHand _ _ => True | _ => False end.
Definition keeps (w w' : Z) : Prop :=
  forall n, w = enc false false true n -> exists n', w' = enc false false true n' /\ n <= n'.
Lemma keeps_refl w : keeps w w.
Proof. intros n E. exists n. split; [exact E|lia]. Qed.

Lemma inv_goto st st' k p p' : inv st -> nth_error (pcs st) k = Some p -> pcs st' = list_set (pcs st) k p' ->
  queue st' = queue st -> owns p' = owns p -> (fresh_own p' -> fresh_own p) -> ~ is_parked p -> ~ is_hand p' ->
  place p' -> keeps (word st) (word st') ->
  (exists l w s n, ainv st' l w s n) -> inv st'.
Proof.
  intros (A & P & H & Q) E T Qe O F NP NH Pl K A'. split; [exact A'|]. split; [|split].
  - intros j pj Hj. rewrite T in Hj. destruct (Nat.eq_dec j k) as [->|D].
    + rewrite (nth_set_eq _ _ _ p E) in Hj. now injection Hj as <-.
    + rewrite nth_set_ne in Hj by exact D. eauto.
  - intros j old x Hj. rewrite T in Hj. destruct (Nat.eq_dec j k) as [->|D].
    + rewrite (nth_set_eq _ _ _ p E) in Hj. injection Hj as ->. now destruct NH.
    + rewrite nth_set_ne in Hj by exact D. destruct (H j old x Hj) as (n0 & n & Hw & Ho & Hn).
      destruct (K n Hw) as (n' & Hw' & Hn'). exists n0, n'. repeat split; try assumption; lia.
  - rewrite T, Qe. exact (qinv_frame _ _ k p p' Q E O F NP).
Qed.
