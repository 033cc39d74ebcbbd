(** A waiting coroutine is never forgotten. *)
From Coq Require Import Zify ZifyBool.
From Verif Require Import Base Base_lemmas Mutex_model Mutex_spec Mutex_proof Mutex_step_proof Mutex_queue_proof.

Definition is_active (p : pc) : Prop := match p with Idle | Crit | Parked _ _ => False | _ => True end.

Lemma tot_set_drop f ts u p : nth_error ts u = Some p -> f p = 1 -> f Idle = 0 -> tot f (list_set ts u Idle) = tot f ts - 1.
Proof. intros E F I0. rewrite (tot_set f ts u p Idle E). lia. Qed.
Lemma queue_pf q ts : NoDup q -> (forall u, In u q -> exists x, nth_error ts u = Some (Parked false x)) ->
  zlen q <= tot fPF ts.
Proof.
  revert ts. induction q as [|u q IH]; intros ts N H.
  - change (zlen (@nil nat)) with 0. apply tot_nonneg. intros p. destruct p; cbn; try lia. destruct ticket; lia.
  - inversion N as [|? ? Nu Nq]; subst. destruct (H u (or_introl eq_refl)) as (x & Hx).
    assert (R : zlen q <= tot fPF (list_set ts u Idle)).
    { apply IH; [exact Nq|]. intros v Hv. destruct (H v (or_intror Hv)) as (y & Hy). exists y.
      rewrite nth_set_ne; [exact Hy|]. intros ->. now apply Nu. }
    rewrite (tot_set_drop fPF ts u _ Hx) in R by reflexivity. unfold zlen in *. cbn [List.length]. lia.
Qed.

Lemma tot_zero_all f ts : (forall q, 0 <= f q) -> (forall k p, nth_error ts k = Some p -> f p = 0) -> tot f ts = 0.
Proof.
  intros P H. destruct (Z_le_gt_dec 1 (tot f ts)) as [T|T].
  - destruct (tot_ex f ts P T) as (k & p & E & F). specialize (H k p E). lia.
  - pose proof (tot_nonneg f ts P). lia.
Qed.

Lemma dec_active ts : (exists k p, nth_error ts k = Some p /\ is_active p) \/
  (forall k p, nth_error ts k = Some p -> ~ is_active p).
Proof.
  induction ts as [|a ts IH].
  - right. intros [|k] p E; discriminate.
  - destruct a; try (left; eexists 0%nat, _; split; [reflexivity|exact I]);
      (destruct IH as [(k & p & E & P)|N]; [left; exists (S k), p; auto|right; intros [|k] p E; cbn in E;
        [injection E as <-; now intros []|eauto]]).
Qed.

Lemma waits_cause st k : inv st -> waits st k ->
  (exists j, holds st j) \/ (exists j p, at_pc st j p /\ is_active p).
Proof.
  intros H (t & x & E). unfold at_pc in E. destruct (dec_active (pcs st)) as [(j & p & Ej & Pj)|N]; [right; exists j, p; auto|].
  destruct H as ((l & w & s & n & Ew & A) & P & Hd & Q).
  pose proof (queue_pf _ _ (q_nodup _ _ Q) (q_parked _ _ Q)) as Qp.
  assert (Z0 : forall f, (forall q, 0 <= f q) -> (forall q, ~ is_active q -> f q = 0) -> tot f (pcs st) = 0).
  { intros f Pf Hf. apply tot_zero_all; [exact Pf|]. intros j p Ej. apply Hf. exact (N j p Ej). }
  assert (X : tot fTok (pcs st) = 0 /\ tot fT8 (pcs st) = 0 /\ tot fG (pcs st) = 0 /\ tot fChk (pcs st) = 0 /\
    tot fA7 (pcs st) = 0 /\ tot fAw (pcs st) = 0 /\ tot fOwn (pcs st) = 0 /\ tot fRel (pcs st) = 0 /\ tot fLoop (pcs st) = 0).
  { repeat split; apply Z0; try (intros q Hq; destruct q; try reflexivity; exfalso; apply Hq; exact I);
      intros q; pose proof (f_nonneg q) as F; tauto. }
  destruct X as (X1 & X2 & X3 & X4 & X5 & X6 & X7 & X8 & X9). rewrite X1, X2, X3, X4, X5, X6, X7, X8, X9 in A.
  left. assert (C : 1 <= tot fCrit (pcs st)).
  { pose proof (tot_ge fPF _ _ _ (fun p => proj1 (proj2 (proj2 (proj1 (proj2 (f_nonneg p)))))) E) as G1.
    pose proof (tot_ge fPT _ _ _ (fun p => proj1 (proj2 (proj2 (proj2 (proj1 (proj2 (f_nonneg p))))))) E) as G2.
    nonneg (pcs st). destruct A. destruct t; cbn [fPF fPT] in *; destruct l, w, s; cbn [Z.b2z] in *; lia. }
  destruct (tot_ex fCrit _ (fun p => proj1 (proj1 (f_nonneg p))) C) as (j & p & Ej & Pj).
  exists j. unfold holds, at_pc. rewrite Ej. destruct p; cbn in Pj; try lia. reflexivity.
Qed.

Lemma goto_moves st st' k p p' : nth_error (pcs st) k = Some p -> pcs st' = list_set (pcs st) k p' -> p' <> p -> st' <> st.
Proof.
  intros E T D ->. apply D. apply (f_equal (fun l => nth_error l k)) in T. rewrite E in T.
  rewrite (nth_set_eq _ _ _ p E) in T. congruence.
Qed.
Lemma goto2_moves st st' k u p p' pu : nth_error (pcs st) k = Some p -> pcs st' = list_set (list_set (pcs st) u pu) k p' ->
  k <> u -> p' <> p -> st' <> st.
Proof.
  intros E T D1 D ->. apply D. apply (f_equal (fun l => nth_error l k)) in T. rewrite E in T.
  rewrite (nth_set_eq _ _ _ p) in T; [congruence|]. now rewrite nth_set_ne.
Qed.

Lemma active_goes st k p : inv st -> at_pc st k p -> is_active p -> (fLk p = 1 \/ locker st = false) -> can_go false st k.
Proof.
  intros H E Pa Lk. unfold at_pc in E. exists false. cbn [step]. pose proof (step_good false st (Go k false) H) as G.
  cbn [step] in G. rewrite E in G. rewrite E.
  destruct (micro false st k p false) as [st'| | | | |] eqn:M; cbn [good] in G; try discriminate; try (now destruct G).
  exists st'. split; [reflexivity|].
  destruct p; cbn [is_active] in Pa; try (now destruct Pa); cbn [micro fLk] in M, Lk;
    try (destruct Lk as [Lk|Lk]; [discriminate|rewrite Lk in M]);
    repeat match type of M with
    | context [match ?e with _ => _ end] => destruct e eqn:?; try discriminate M
    end;
    try (injection M as <-; eapply (goto_moves _ _ _ _ _ E); [reflexivity|discriminate]);
    injection M as <-; (eapply (goto2_moves _ _ _ _ _ _ _ E); [reflexivity| |discriminate]); intros ->; congruence.
Qed.

Lemma waits_served st k : inv st -> waits st k -> (exists j, holds st j) \/ (exists j, active st j /\ can_go false st j).
Proof.
  intros H W. destruct (waits_cause st k H W) as [C|(j & p & Ej & Pj)]; [now left|right].
  destruct (locker st) eqn:L.
  - pose proof H as ((l & w & s & n & Ew & A) & _).
    assert (C : 1 <= tot fLk (pcs st)) by (destruct A; rewrite L in *; cbn [Z.b2z] in *; lia).
    destruct (tot_ex fLk _ (fun p => proj2 (proj2 (proj2 (proj2 (proj2 (proj1 (proj2 (f_nonneg p)))))))) C) as (i & q & Ei & Pi).
    exists i. assert (Aq : is_active q) by (destruct q; cbn in Pi; try lia; exact I).
    split; [exists q; split; [exact Ei|exact Aq]|].
    apply (active_goes st i q H Ei Aq). left. destruct q; cbn in Pi |- *; try lia.
  - exists j. split; [exists p; split; [exact Ej|exact Pj]|]. apply (active_goes st j p H Ej Pj). now right.
Qed.

Lemma one_holder st i j : inv st -> holds st i -> holds st j -> i = j.
Proof.
  intros H Hi Hj. destruct (Nat.eq_dec i j) as [->|D]; [reflexivity|exfalso].
  pose proof H as ((l & w & s & n & Ew & A) & _).
  pose proof (tot_two fCrit _ _ _ _ _ (fun p => proj1 (proj1 (f_nonneg p))) D Hi Hj) as T. cbn [fCrit] in T.
  destruct A. destruct l; cbn [Z.b2z] in *; lia.
Qed.
