(** Simulations between pieces of code; cutting code into blocks. *)
From Verif Require Import Base Base_lemmas Cfg_model Cfg_spec.
From Coq Require Import Permutation.

(** ** simulations *)
Section Sim.
  Variables (look1 look2 : nat -> option (list instr)) (R : list instr -> list instr -> Prop).
  Definition simulates : Prop := forall W (m : machine W) r1 r2 w, R r1 r2 ->
    (forall r1' w', step m look1 r1 w = Some (r1', w') -> exists k r2', steps m look2 k r2 w = Some (r2', w') /\ R r1' r2') /\
    (forall r1', r1 = End :: r1' -> exists k r2', steps m look2 k r2 w = Some (End :: r2', w)).
End Sim.

Lemma steps_app {W} (m : machine W) look a : forall b r w r' w', steps m look a r w = Some (r', w') -> steps m look (a + b) r w = steps m look b r' w'.
Proof.
  induction a as [|a IH]; intros b r w r' w' H; cbn [steps Nat.add] in *; [injection H as -> ->; reflexivity|].
  destruct (step m look r w) as [[r1 w1]|]; [|discriminate]. apply IH. exact H.
Qed.

Lemma sim_steps look1 look2 R : simulates look1 look2 R -> forall W (m : machine W) k r1 r2 w r1' w', R r1 r2 ->
  steps m look1 k r1 w = Some (r1', w') -> exists k2 r2', steps m look2 k2 r2 w = Some (r2', w') /\ R r1' r2'.
Proof.
  intros S W m. induction k as [|k IH]; intros r1 r2 w r1' w' H E; cbn [steps] in E.
  - injection E as <- <-. exists O, r2. split; [reflexivity|exact H].
  - destruct (step m look1 r1 w) as [[ra wa]|] eqn:E1; [|discriminate]. destruct (S W m r1 r2 w H) as [S1 _]. destruct (S1 _ _ E1) as [k2 [r2a [E2 Ha]]].
    destruct (IH _ _ _ _ _ Ha E) as [k3 [r2' [E3 H3]]]. exists (k2 + k3)%nat, r2'. split; [|exact H3]. rewrite (steps_app m look2 k2 k3 r2 w r2a wa E2). exact E3.
Qed.

Definition comes {W} (m : machine W) look (r : list instr) (w w' : W) : Prop := exists k r', steps m look k r w = Some (r', w').
Definition ends {W} (m : machine W) look (r : list instr) (w w' : W) : Prop := exists k r', steps m look k r w = Some (End :: r', w').
Lemma sim_comes look1 look2 R : simulates look1 look2 R -> forall W (m : machine W) r1 r2 w w', R r1 r2 -> comes m look1 r1 w w' -> comes m look2 r2 w w'.
Proof. intros S W m r1 r2 w w' H [k [r' E]]. destruct (sim_steps _ _ _ S W m k r1 r2 w r' w' H E) as [k2 [r2' [E2 _]]]. exists k2, r2'. exact E2. Qed.
Lemma sim_ends look1 look2 R : simulates look1 look2 R -> forall W (m : machine W) r1 r2 w w', R r1 r2 -> ends m look1 r1 w w' -> ends m look2 r2 w w'.
Proof.
  intros S W m r1 r2 w w' H [k [r' E]]. destruct (sim_steps _ _ _ S W m k r1 r2 w _ w' H E) as [k2 [r2' [E2 H2]]].
  destruct (S W m _ _ w' H2) as [_ Se]. destruct (Se _ eq_refl) as [k3 [r3 E3]]. exists (k2 + k3)%nat, r3. rewrite (steps_app m look2 k2 k3 _ _ _ _ E2). exact E3.
Qed.

Definition equivalent (look1 : nat -> option (list instr)) (r1 : list instr) (look2 : nat -> option (list instr)) (r2 : list instr) : Prop :=
  forall W (m : machine W) w w', (comes m look1 r1 w w' <-> comes m look2 r2 w w') /\ (ends m look1 r1 w w' <-> ends m look2 r2 w w').
Lemma equivalent_sim look1 look2 R r1 r2 : simulates look1 look2 R -> simulates look2 look1 (fun b a => R a b) -> R r1 r2 -> equivalent look1 r1 look2 r2.
Proof.
  intros S1 S2 H W m w w'. split; split.
  - apply (sim_comes _ _ _ S1); exact H.
  - apply (sim_comes _ _ _ S2); exact H.
  - apply (sim_ends _ _ _ S1); exact H.
  - apply (sim_ends _ _ _ S2); exact H.
Qed.
Lemma equivalent_trans la ra lb rb lc rc : equivalent la ra lb rb -> equivalent lb rb lc rc -> equivalent la ra lc rc.
Proof.
  intros H1 H2 W m w w'. destruct (H1 W m w w') as [A1 A2], (H2 W m w w') as [B1 B2]. split; [rewrite A1; exact B1|rewrite A2; exact B2].
Qed.

(** ** the code of the blocks *)
Definition code_of (bs : list bb) (n : nat) : option (list instr) := option_map bops (find_bb bs n).

Lemma find_in bs b : NoDup (map bname bs) -> In b bs -> find_bb bs (bname b) = Some b.
Proof.
  induction bs as [|x bs IH]; intros ND H; [destruct H|]. cbn [map] in ND. inversion ND as [|? ? Nx ND']; subst. cbn [find_bb find].
  destruct H as [->|H]; [rewrite Nat.eqb_refl; reflexivity|]. destruct (Nat.eqb (bname x) (bname b)) eqn:E; [|apply IH; assumption].
  apply Nat.eqb_eq in E. exfalso. apply Nx. rewrite E. apply in_map. exact H.
Qed.
Lemma find_some_in bs n b : find_bb bs n = Some b -> In b bs /\ bname b = n.
Proof. intros H. apply find_some in H. destruct H as [H1 H2]. apply Nat.eqb_eq in H2. auto. Qed.
Lemma code_in bs b : NoDup (map bname bs) -> In b bs -> code_of bs (bname b) = Some (bops b).
Proof. intros ND H. unfold code_of. rewrite find_in by assumption. reflexivity. Qed.
Lemma find_ex bs n : In n (map bname bs) -> exists b, find_bb bs n = Some b.
Proof.
  induction bs as [|x bs IH]; intros H; [destruct H|]. cbn [find_bb find]. destruct (Nat.eqb (bname x) n) eqn:E; [exists x; reflexivity|].
  destruct H as [H|H]; [apply Nat.eqb_neq in E; congruence|apply IH; exact H].
Qed.

(** ** cutting *)
Lemma labels_app a b : labels (a ++ b) = labels a ++ labels b. Proof. apply flat_map_app. Qed.
Lemma jumps_app a b : jumps (a ++ b) = jumps a ++ jumps b. Proof. apply flat_map_app. Qed.

Definition straight (i : instr) : Prop := match i with Return _ | Plain _ => True | _ => False end.

Section Cut.
  Variables (look : nat -> option (list instr)) (bs : list bb).
  Let blk := code_of bs.

  (** code and the rest of a block that does the same *)
  Inductive match_code : list instr -> list instr -> Prop :=
  | M_straight x c o : straight x -> match_code c o -> match_code (x :: c) (x :: o)
  | M_end c o : match_code (End :: c) (End :: o)
  | M_bal t c o : match_code (Bal t :: c) (Bal t :: o)
  | M_branch k t c n o : blk n = Some o -> match_code c o -> match_code (Branch k t :: c) [Branch k t; Bal n]
  | M_label n c o : match_code c o -> match_code (Label n :: c) (Label n :: o)
  | M_temp n c o : match_code c o -> match_code c (Label n :: o)
  | M_fall n c o : blk n = Some o -> match_code c o -> match_code c [Bal n]
  | M_skip k n c o : look n = Some (Label n :: c) -> blk n = Some o -> match_code (Label n :: c) o -> match_code (Branch k n :: Label n :: c) [Bal n].

  Hypothesis targets : forall n s, look n = Some s -> exists o, blk n = Some o /\ match_code s o.
  Variable known : list nat.
  Hypothesis defined : forall n, In n known -> exists s, look n = Some s.
  Hypothesis jumps_known : forall n s, look n = Some s -> incl (jumps s) known.

  Lemma match_forward W (m : machine W) c o : match_code c o -> incl (jumps c) known -> forall w,
    (forall c' w', step m look c w = Some (c', w') -> exists k o', steps m blk k o w = Some (o', w') /\ match_code c' o') /\
    (forall c', c = End :: c' -> exists k o', steps m blk k o w = Some (End :: o', w)).
  Proof.
    induction 1 as [x c o Sx M IH|c o|t c o|k t c n o B M IH|n c o M IH|n c o M IH|n c o B M IH|k n c o L B M IH]; intros J w.
    - split; [|intros c' E; subst; injection E as -> _; destruct Sx]. intros c' w' E. destruct x; try destruct Sx; cbn [step] in E; injection E as <- <-; exists 1%nat, o; split; try reflexivity; exact M.
    - split; [intros c' w' E; discriminate|]. intros c' _. exists O, o. reflexivity.
    - split; [|intros c' E; discriminate]. intros c' w' E. cbn [step] in E. destruct (look t) as [s|] eqn:Lt; [|discriminate]. injection E as <- <-.
      destruct (targets t s Lt) as [o' [B' M']]. exists 1%nat, o'. split; [cbn [steps step]; rewrite B'; reflexivity|exact M'].
    - split; [|intros c' E; discriminate]. intros c' w' E. cbn [step] in E. destruct (taken m k w) eqn:T.
      + destruct (look t) as [s|] eqn:Lt; [|discriminate]. injection E as <- <-. destruct (targets t s Lt) as [o' [B' M']].
        exists 1%nat, o'. split; [cbn [steps step]; rewrite T, B'; reflexivity|exact M'].
      + injection E as <- <-. exists 2%nat, o. split; [cbn [steps step]; rewrite T; cbn [steps step]; rewrite B; reflexivity|exact M].
    - split; [|intros c' E; discriminate]. intros c' w' E. cbn [step] in E. injection E as <- <-. exists 1%nat, o. split; [reflexivity|exact M].
    - destruct (IH J w) as [I1 I2]. split.
      + intros c' w' E. destruct (I1 c' w' E) as [k [o' [E1 M1]]]. exists (S k), o'. split; [exact E1|exact M1].
      + intros c' E. destruct (I2 c' E) as [k [o' E1]]. exists (S k), o'. exact E1.
    - destruct (IH J w) as [I1 I2]. split.
      + intros c' w' E. destruct (I1 c' w' E) as [k [o' [E1 M1]]]. exists (S k), o'. split; [cbn [steps step]; rewrite B; exact E1|exact M1].
      + intros c' E. destruct (I2 c' E) as [k [o' E1]]. exists (S k), o'. cbn [steps step]. rewrite B. exact E1.
    - split; [|intros c' E; discriminate]. intros c' w' E. cbn [step] in E. rewrite L in E.
      assert (E' : (c', w') = (Label n :: c, w)) by (destruct (taken m k w); cbn [option_map] in E; congruence). injection E' as -> ->.
      exists 1%nat, o. split; [cbn [steps step]; rewrite B; reflexivity|exact M].
  Qed.

  Lemma match_backward W (m : machine W) c o : match_code c o -> incl (jumps c) known -> forall w,
    (forall o' w', step m blk o w = Some (o', w') -> exists k c', steps m look k c w = Some (c', w') /\ match_code c' o' /\ incl (jumps c') known) /\
    (forall o', o = End :: o' -> exists k c', steps m look k c w = Some (End :: c', w)).
  Proof.
    assert (Hj : forall x c, incl (jumps (x :: c)) known -> incl (jumps c) known).
    { intros x c0 J y Hy. apply J. unfold jumps. cbn [flat_map]. apply in_or_app. right. exact Hy. }
    destruct 1 as [x c o Sx M|c o|t c o|k t c n o B M|n c o M|n c o M|n c o B M|k n c o L B M]; intros J w.
    - split; [|intros o' E; injection E as -> _; destruct Sx]. intros o' w' E. destruct x; try destruct Sx; cbn [step] in E; injection E as <- <-; exists 1%nat, c; (split; [reflexivity|]; split; [exact M|exact (Hj _ _ J)]).
    - split; [intros o' w' E; discriminate|]. intros o' _. exists O, c. reflexivity.
    - split; [|intros o' E; discriminate]. intros o' w' E. cbn [step] in E. destruct (defined t) as [s Lt]; [apply J; left; reflexivity|]. destruct (targets t s Lt) as [o2 [B' M']].
      rewrite B' in E. injection E as <- <-. exists 1%nat, s. split; [cbn [steps step]; rewrite Lt; reflexivity|]. split; [exact M'|apply (jumps_known t); exact Lt].
    - split; [|intros o' E; discriminate]. intros o' w' E. cbn [step] in E. destruct (taken m k w) eqn:T.
      + destruct (defined t) as [s Lt]; [apply J; left; reflexivity|]. destruct (targets t s Lt) as [o2 [B' M']].
        rewrite B' in E. injection E as <- <-. exists 1%nat, s. split; [cbn [steps step]; rewrite T, Lt; reflexivity|]. split; [exact M'|apply (jumps_known t); exact Lt].
      + injection E as <- <-. exists 1%nat, c. split; [cbn [steps step]; rewrite T; reflexivity|]. split; [apply (M_fall n c o B M)|exact (Hj _ _ J)].
    - split; [|intros o' E; discriminate]. intros o' w' E. cbn [step] in E. injection E as <- <-. exists 1%nat, c. split; [reflexivity|]. split; [exact M|exact (Hj _ _ J)].
    - split; [|intros o' E; discriminate]. intros o' w' E. cbn [step] in E. injection E as <- <-. exists O, c. split; [reflexivity|]. split; [exact M|exact J].
    - split; [|intros o' E; discriminate]. intros o' w' E. cbn [step] in E. rewrite B in E. injection E as <- <-. exists O, c. split; [reflexivity|]. split; [exact M|exact J].
    - split; [|intros o' E; discriminate]. intros o' w' E. cbn [step] in E. rewrite B in E. injection E as <- <-. exists 1%nat, (Label n :: c). split; [|split; [exact M|exact (Hj _ _ J)]].
      cbn [steps step]. rewrite L. destruct (taken m k w); reflexivity.
  Qed.

  Lemma jumps_step W (m : machine W) c w c' w' : incl (jumps c) known -> step m look c w = Some (c', w') -> incl (jumps c') known.
  Proof.
    intros J E. assert (Hj : forall x c, incl (jumps (x :: c)) known -> incl (jumps c) known).
    { intros x c0 J0 y Hy. apply J0. unfold jumps. cbn [flat_map]. apply in_or_app. right. exact Hy. }
    destruct c as [|x c]; [discriminate|]. pose proof (Hj _ _ J) as J'. destruct x; cbn [step] in E; try (injection E as <- _; exact J'); try discriminate.
    - destruct (look n) as [s|] eqn:L; [|discriminate]. injection E as <- _. apply (jumps_known n). exact L.
    - destruct (taken m k w); [|injection E as <- _; exact J']. destruct (look n) as [s|] eqn:L; [|discriminate]. injection E as <- _. apply (jumps_known n). exact L.
  Qed.

  Lemma match_equivalent c o : match_code c o -> incl (jumps c) known -> equivalent look c blk o.
  Proof.
    intros M J. apply (equivalent_sim look blk (fun c o => match_code c o /\ incl (jumps c) known)); [| |split; assumption].
    - intros W m r1 r2 w [M1 J1]. destruct (match_forward W m r1 r2 M1 J1 w) as [H1 H2]. split; [|exact H2]. intros r1' w' E. destruct (H1 r1' w' E) as [k [o' [E1 M2]]].
      exists k, o'. split; [exact E1|]. split; [exact M2|]. eapply jumps_step; eassumption.
    - intros W m r1 r2 w [M1 J1]. apply (match_backward W m r2 r1 M1 J1 w).
  Qed.
End Cut.
