(** Merging a block with the only block that jumps to it. *)
From Verif Require Import Base Base_lemmas Cfg_model Cfg_spec Cfg_sim_proof Cfg_build_proof Cfg_graph_proof.

Definition joined (b nx : bb) : bb := mk_bb (bname b) (drop_bal (bops b) ++ filter (fun i => negb (is_label i)) (bops nx)) (bsuccs nx) (bpreds b).
Definition subst_pred (b nx : bb) (x : bb) : bb := set_preds x (map (fun p => if Nat.eqb p (bname nx) then bname b else p) (bpreds x)).

Lemma merge_one_spec fe keep rest : forall pre new, merge_one fe keep pre rest = Some new ->
  exists p b nx q, pre ++ rest = p ++ b :: nx :: q /\ can_merge fe keep b nx = true /\
    new = fold_left (fun bs s => upd bs s (subst_pred b nx)) (bsuccs nx) (p ++ joined b nx :: q).
Proof.
  induction rest as [|b rest IH]; intros pre new E; [discriminate|]. cbn [merge_one] in E. destruct rest as [|nx q]; [discriminate|].
  destruct (can_merge fe keep b nx) eqn:Em.
  - injection E as <-. exists pre, b, nx, q. split; [reflexivity|]. split; [exact Em|]. reflexivity.
  - destruct (IH _ _ E) as [p [b0 [nx0 [q0 [H1 H2]]]]]. exists p, b0, nx0, q0. split; [|exact H2]. rewrite <- H1, <- app_assoc. reflexivity.
Qed.

Lemma filter_tail body tail : Forall calm body -> labels tail = [] -> filter (fun i => negb (is_label i)) (body ++ tail) = body ++ tail.
Proof.
  intros C T. apply filter_all. intros x Hx. apply in_app_or in Hx. destruct Hx as [Hx|Hx].
  - rewrite Forall_forall in C. specialize (C x Hx). destruct x; try destruct C; reflexivity.
  - destruct x as [u|u|k u|k|k|]; try reflexivity. exfalso. assert (K : In u (labels tail)) by (unfold labels; apply in_flat_map; exists (Label u); split; [exact Hx|left; reflexivity]). rewrite T in K. destruct K.
Qed.

Lemma entry_not_nx (p q : list bb) b nx e l : NoDup (map bname (p ++ b :: nx :: q)) -> p ++ b :: nx :: q = e :: l -> bname e <> bname nx.
Proof.
  intros N El K. destruct p as [|x0 p0]; cbn [app] in *; injection El as E1 E2; subst e; cbn [map] in N; inversion N as [|? ? N1 _]; subst; apply N1; rewrite K.
  - left. reflexivity.
  - rewrite map_app. apply in_or_app. right. right. left. reflexivity.
Qed.

Section Join.
  Variables (p q : list bb) (b nx : bb).
  Let bs := p ++ b :: nx :: q.
  Hypothesis Gd : good bs.
  Hypothesis Hs : bsuccs b = [bname nx].
  Hypothesis Hp : length (bpreds nx) = 1%nat.
  Definition new := map (subst_pred b nx) (p ++ joined b nx :: q).

  Lemma b_in : In b bs. Proof. apply in_or_app. right. left. reflexivity. Qed.
  Lemma nx_in : In nx bs. Proof. apply in_or_app. right. right. left. reflexivity. Qed.
  Lemma ND : NoDup (map bname bs). Proof. apply Gd. Qed.
  Lemma b_nx : bname b <> bname nx.
  Proof.
    intros E. pose proof ND as N. unfold bs in N. rewrite map_app in N. cbn [map] in N. apply NoDup_remove_2 in N. apply N. apply in_or_app. right. left. symmetry. exact E.
  Qed.
  Lemma nx_preds : bpreds nx = [bname b].
  Proof.
    destruct (proj2 (proj1 Gd) nx nx_in) as [_ [_ [_ [_ [G _]]]]]. assert (H : In (bname b) (bpreds nx)) by (apply G; exists b; split; [exact b_in|split; [reflexivity|rewrite Hs; left; reflexivity]]).
    destruct (bpreds nx) as [|x [|y l]]; cbn [length] in Hp; try lia. destruct H as [->|[]]. reflexivity.
  Qed.
  Lemma only_b x : In x bs -> In (bname nx) (bsuccs x) -> x = b.
  Proof.
    intros Hx H. destruct (proj2 (proj1 Gd) nx nx_in) as [_ [_ [_ [_ [G _]]]]]. assert (K : In (bname x) (bpreds nx)) by (apply G; exists x; auto). rewrite nx_preds in K.
    destruct K as [K|[]]. apply (name_inj bs); [exact ND|exact Hx|exact b_in|symmetry; exact K].
  Qed.
  Lemma only_nx x : In x bs -> In (bname b) (bpreds x) -> x = nx.
  Proof.
    intros Hx H. destruct (proj2 (proj1 Gd) x Hx) as [_ [_ [_ [_ [G _]]]]]. apply G in H. destruct H as [y [Y1 [Y2 Y3]]].
    assert (y = b) by (apply (name_inj bs); [exact ND|exact Y1|exact b_in|exact Y2]). subst y. rewrite Hs in Y3. destruct Y3 as [Y3|[]]. apply (name_inj bs); [exact ND|exact Hx|exact nx_in|symmetry; exact Y3].
  Qed.
  Lemma nx_not_nx : ~ In (bname nx) (bsuccs nx).
  Proof. intros H. apply b_nx. f_equal. symmetry. apply (only_b nx nx_in H). Qed.

  (** the members of the new list *)
  Lemma in_new y : In y new <-> y = subst_pred b nx (joined b nx) \/ exists x, In x bs /\ x <> b /\ x <> nx /\ y = subst_pred b nx x.
  Proof.
    unfold new. rewrite in_map_iff. pose proof ND as N. unfold bs in N. rewrite map_app in N. cbn [map] in N. split.
    - intros [x [<- H]]. apply in_app_or in H. destruct H as [H|[<-|H]]; [right; exists x| left; reflexivity|right; exists x].
      + split; [apply in_or_app; left; exact H|]. apply NoDup_remove in N. destruct N as [N1 N2]. apply NoDup_remove in N1. destruct N1 as [N1 N3]. split; [|split; [|reflexivity]].
        * intros ->. apply N2. apply in_or_app. left. apply in_map. exact H.
        * intros ->. apply N3. apply in_or_app. left. apply in_map. exact H.
      + split; [apply in_or_app; right; right; right; exact H|]. apply NoDup_remove in N. destruct N as [N1 N2]. apply NoDup_remove in N1. destruct N1 as [N1 N3]. split; [|split; [|reflexivity]].
        * intros ->. apply N2. apply in_or_app. right. right. apply in_map. exact H.
        * intros ->. apply N3. apply in_or_app. right. apply in_map. exact H.
    - intros [->|[x [H1 [H2 [H3 ->]]]]]; [exists (joined b nx); split; [reflexivity|apply in_or_app; right; left; reflexivity]|]. exists x. split; [reflexivity|].
      apply in_app_or in H1. apply in_or_app. destruct H1 as [H1|[H1|[H1|H1]]]; [left; exact H1|congruence|congruence|right; right; exact H1].
  Qed.
  Lemma new_names : map bname new = map bname (p ++ b :: q).
  Proof. unfold new. rewrite map_map. cbn [subst_pred set_preds bname]. rewrite !map_app. reflexivity. Qed.
  Lemma in_new_names n : In n (map bname new) <-> In n (map bname bs) /\ n <> bname nx.
  Proof.
    rewrite new_names. unfold bs. rewrite !map_app. cbn [map]. rewrite !in_app_iff. cbn [In]. pose proof ND as N. unfold bs in N. rewrite map_app in N. cbn [map] in N.
    assert (N' : ~ In (bname nx) (map bname p ++ bname b :: map bname q)).
    { change (bname b :: bname nx :: map bname q) with ([bname b] ++ bname nx :: map bname q) in N. rewrite app_assoc in N. apply NoDup_remove_2 in N. rewrite <- app_assoc in N. exact N. }
    rewrite in_app_iff in N'. cbn [In] in N'. split; [|intros [[H|[H|[H|H]]] K]; [tauto|tauto|congruence|tauto]]. intros H. split; [tauto|]. intros ->. tauto.
  Qed.
  Lemma new_nodup : NoDup (map bname new).
  Proof.
    rewrite new_names. pose proof ND as N. unfold bs in N. rewrite map_app in *. cbn [map] in *. change (bname b :: bname nx :: map bname q) with ([bname b] ++ bname nx :: map bname q) in N.
    rewrite app_assoc in N. apply NoDup_remove_1 in N. rewrite <- app_assoc in N. exact N.
  Qed.

  Lemma fold_new : fold_left (fun bs s => upd bs s (subst_pred b nx)) (bsuccs nx) (p ++ joined b nx :: q) = new.
  Proof.
    pose proof Gd as [[_ G] _]. rewrite fold_upd; [|reflexivity|apply (G nx nx_in)].
    unfold new. apply map_ext_in. intros x Hx. destruct (has (bname x) (bsuccs nx)) eqn:E; [reflexivity|]. apply has_not in E. unfold subst_pred.
    assert (K : forall y, In y bs -> bname y = bname x -> bpreds y = bpreds x -> ~ In (bname nx) (bpreds x)).
    { intros y Hy Hn <- H. apply E. rewrite <- Hn. apply (G y Hy) in H. destruct H as [z [Z1 [Z2 Z3]]]. rewrite (name_inj bs nx z ND nx_in Z1 (eq_sym Z2)). exact Z3. }
    assert (K2 : ~ In (bname nx) (bpreds x)).
    { apply in_app_or in Hx. destruct Hx as [Hx|[<-|Hx]].
      - apply (K x); [apply in_or_app; left; exact Hx|reflexivity|reflexivity].
      - apply (K b); [apply b_in|reflexivity|reflexivity].
      - apply (K x); [apply in_or_app; right; right; right; exact Hx|reflexivity|reflexivity]. }
    rewrite <- (bb_eta x) at 1. unfold set_preds. f_equal. rewrite <- (map_id (bpreds x)) at 1. apply map_ext_in. intros t Ht. destruct (Nat.eqb t (bname nx)) eqn:Et; [|reflexivity].
    apply Nat.eqb_eq in Et. subst t. contradiction.
  Qed.

  (** the operations *)
  Lemma join_ops : exists body1 body2 tail2, bops b = Label (bname b) :: body1 ++ [Bal (bname nx)] /\ Forall calm body1 /\ bops nx = Label (bname nx) :: body2 ++ tail2 /\ Forall calm body2 /\
    labels tail2 = [] /\ bops (joined b nx) = Label (bname b) :: body1 ++ body2 ++ tail2 /\ shaped (joined b nx).
  Proof.
    pose proof Gd as [[_ G] Sh]. rewrite Forall_forall in Sh. destruct (Sh b b_in) as [body1 [tail1 [E1 [C1 T1]]]]. destruct (Sh nx nx_in) as [body2 [tail2 [E2 [C2 T2]]]].
    destruct (G b b_in) as [_ [J _]]. rewrite Hs, E1 in J.
    assert (J' : forall t, In t [bname nx] <-> In t (jumps tail1)).
    { intros t. rewrite J. change (Label (bname b) :: body1 ++ tail1) with ([Label (bname b)] ++ body1 ++ tail1). rewrite !jumps_app, (proj2 (calm_none _ C1)). reflexivity. }
    assert (ET : tail1 = [Bal (bname nx)]).
    { destruct T1 as [[-> _]|[[t ->]|[k [t [t2 [-> N]]]]]].
      - exfalso. destruct (proj1 (J' (bname nx)) ltac:(left; reflexivity)).
      - destruct (proj1 (J' (bname nx)) ltac:(left; reflexivity)) as [<-|[]]. reflexivity.
      - exfalso. pose proof (proj2 (J' t) ltac:(right; left; reflexivity)) as [A1|[]]. pose proof (proj2 (J' t2) ltac:(left; reflexivity)) as [A2|[]]. congruence. }
    subst tail1. assert (L2 : labels tail2 = []) by (destruct T2 as [[-> _]|[[t ->]|[k [t [t2 [-> N]]]]]]; reflexivity).
    assert (EJ : bops (joined b nx) = Label (bname b) :: body1 ++ body2 ++ tail2).
    { unfold joined. cbn [bops]. rewrite E1, E2. unfold drop_bal. change (Label (bname b) :: body1 ++ [Bal (bname nx)]) with ((Label (bname b) :: body1) ++ [Bal (bname nx)]). rewrite rev_app_distr. cbn [rev app]. rewrite rev_app_distr, rev_involutive. cbn [rev app].
      cbn [filter is_label negb]. rewrite filter_tail by assumption. reflexivity. }
    exists body1, body2, tail2. split; [exact E1|]. split; [exact C1|]. split; [exact E2|]. split; [exact C2|]. split; [exact L2|]. split; [exact EJ|].
    exists (body1 ++ body2), tail2. split; [rewrite EJ; cbn [joined bname]; rewrite app_assoc; reflexivity|]. split; [apply Forall_app; split; assumption|].
    destruct T2 as [[-> [body' ->]]|T2]; [left; split; [reflexivity|exists (body1 ++ body'); rewrite app_assoc; reflexivity]|right; exact T2].
  Qed.

  Lemma new_good : good new.
  Proof.
    pose proof Gd as [[_ G] Sh]. rewrite Forall_forall in Sh. destruct join_ops as [body1 [body2 [tail2 [E1 [C1 [E2 [C2 [L2 [EJ SJ]]]]]]]]].
    assert (Sh' : forall y, In y new -> shaped y).
    { intros y Hy. apply in_new in Hy. destruct Hy as [->|[x [X1 [X2 [X3 ->]]]]]; [exact SJ|exact (Sh x X1)]. }
    split; [|apply Forall_forall; exact Sh']. split; [exact new_nodup|].
    assert (Sub : forall x, In x bs -> x <> b -> ~ In (bname nx) (bsuccs x)) by (intros x Hx N H; apply N; apply only_b; assumption).
    (* predecessors, for a block y that was x before *)
    assert (Pr : forall x, In x bs -> x <> nx -> (forall pd, In pd (map (fun p => if Nat.eqb p (bname nx) then bname b else p) (bpreds x)) <-> exists y, In y new /\ bname y = pd /\ In (bname x) (bsuccs y)) /\
      NoDup (map (fun p => if Nat.eqb p (bname nx) then bname b else p) (bpreds x))).
    { intros x Hx N. destruct (G x Hx) as [_ [_ [_ [_ [G5 G6]]]]]. assert (Nb : ~ In (bname b) (bpreds x)) by (intros H; apply N; apply only_nx; assumption). split.
      - intros pd. rewrite in_map_iff. split.
        + intros [t [Et Ht]]. pose proof (proj1 (G5 t) Ht) as [z [Z1 [Z2 Z3]]]. destruct (Nat.eqb t (bname nx)) eqn:En.
          * apply Nat.eqb_eq in En. subst pd. exists (subst_pred b nx (joined b nx)). split; [apply in_new; left; reflexivity|]. split; [reflexivity|]. cbn [subst_pred set_preds joined bsuccs].
            rewrite (name_inj bs nx z ND nx_in Z1) by congruence. exact Z3.
          * apply Nat.eqb_neq in En. subst pd. exists (subst_pred b nx z). split; [|split; [exact Z2|exact Z3]]. apply in_new. right. exists z. split; [exact Z1|]. split; [intros ->; apply Nb; rewrite Z2; exact Ht|]. split; [intros ->; congruence|reflexivity].
        + intros [y [Y1 [Y2 Y3]]]. apply in_new in Y1. destruct Y1 as [->|[z [Z1 [Z2 [Z3 ->]]]]]; cbn [subst_pred set_preds joined bname bsuccs] in *.
          * exists (bname nx). rewrite Nat.eqb_refl. split; [exact Y2|]. apply G5. exists nx. split; [exact nx_in|]. split; [reflexivity|exact Y3].
          * exists (bname z). destruct (Nat.eqb (bname z) (bname nx)) eqn:En; [apply Nat.eqb_eq in En; exfalso; apply Z3; apply (name_inj bs); [exact ND|exact Z1|exact nx_in|exact En]|]. split; [exact Y2|]. apply G5. exists z. auto.
      - apply NoDup_map_in; [exact G6|]. intros t u Ht Hu. destruct (Nat.eqb t (bname nx)) eqn:Et, (Nat.eqb u (bname nx)) eqn:Eu; try apply Nat.eqb_eq in Et; try apply Nat.eqb_eq in Eu; intros K; subst; congruence. }
    intros y Hy. split; [apply shaped_label; apply Sh'; exact Hy|]. apply in_new in Hy. destruct Hy as [->|[x [X1 [X2 [X3 ->]]]]].
    - destruct (G nx nx_in) as [_ [G2 [G3 [G4 _]]]]. cbn [subst_pred set_preds bname bops bsuccs bpreds]. rewrite EJ. cbn [joined bsuccs bname bpreds]. split; [|split; [exact G3|split; [|]]].
      + intros t. rewrite G2, E2. change (Label (bname nx) :: body2 ++ tail2) with ([Label (bname nx)] ++ body2 ++ tail2). change (Label (bname b) :: body1 ++ body2 ++ tail2) with ([Label (bname b)] ++ body1 ++ body2 ++ tail2).
        rewrite !jumps_app, (proj2 (calm_none _ C1)). reflexivity.
      + intros t Ht. apply in_new_names. split; [apply G4; exact Ht|]. intros ->. apply nx_not_nx. exact Ht.
      + apply (Pr b b_in). intros E. apply b_nx. congruence.
    - destruct (G x X1) as [_ [G2 [G3 [G4 _]]]]. cbn [subst_pred set_preds bname bops bsuccs bpreds]. split; [exact G2|]. split; [exact G3|]. split; [|apply Pr; assumption].
      intros t Ht. apply in_new_names. split; [apply G4; exact Ht|]. intros ->. apply (Sub x X1 X2 Ht).
  Qed.

  Lemma new_find n : n <> bname nx -> n <> bname b -> code_of new n = code_of bs n.
  Proof.
    intros H1 H2. unfold code_of. assert (F : forall l, option_map bops (find_bb (map (subst_pred b nx) l) n) = option_map bops (find_bb l n)).
    { induction l as [|x l IH]; [reflexivity|]. cbn [map find_bb find subst_pred set_preds bname]. destruct (Nat.eqb (bname x) n); [reflexivity|exact IH]. }
    unfold new. rewrite F. unfold bs. clear F. generalize p as l. induction l as [|x l IH].
    - cbn [app find_bb find joined bname]. replace (Nat.eqb (bname b) n) with false by (symmetry; apply Nat.eqb_neq; congruence). replace (Nat.eqb (bname nx) n) with false by (symmetry; apply Nat.eqb_neq; congruence). reflexivity.
    - cbn [app find_bb find]. destruct (Nat.eqb (bname x) n); [reflexivity|exact IH].
  Qed.
  Lemma new_find_b : code_of new (bname b) = Some (bops (joined b nx)).
  Proof.
    change (bname b) with (bname (subst_pred b nx (joined b nx))). change (bops (joined b nx)) with (bops (subst_pred b nx (joined b nx))). apply code_in; [exact new_nodup|]. apply in_new. left. reflexivity.
  Qed.

  Lemma new_reachable : all_reachable bs -> all_reachable new.
  Proof.
    intros A. assert (K : forall n, reachable bs n -> (n <> bname nx -> reachable new n) /\ (n = bname nx -> reachable new (bname b))).
    { intros n R. induction R as [e l El|x n Hx Rx [IH1 IH2] Hn].
      - assert (Re : reachable new (bname e)).
        { unfold bs in El. destruct p as [|x0 p0] eqn:Ep; cbn [app] in El; injection El as <- _.
          - change (bname b) with (bname (subst_pred b nx (joined b nx))). eapply reach_entry. unfold new. rewrite Ep. cbn [app map]. reflexivity.
          - change (bname x0) with (bname (subst_pred b nx x0)). eapply reach_entry. unfold new. rewrite Ep. cbn [app map]. reflexivity. }
        split; [intros _; exact Re|]. intros E. exfalso. assert (He : In e bs) by (rewrite El; left; reflexivity).
        apply (entry_not_nx p q b nx e l ND El E).
      - split.
        + intros Nn. destruct (Nat.eq_dec (bname x) (bname nx)) as [E|N].
          * assert (x = nx) by (apply (name_inj bs); [exact ND|exact Hx|exact nx_in|exact E]). subst x. specialize (IH2 eq_refl). apply (reach_succ new (subst_pred b nx (joined b nx))); [apply in_new; left; reflexivity|exact IH2|exact Hn].
          * specialize (IH1 N). apply (reach_succ new (subst_pred b nx x)); [|exact IH1|exact Hn]. apply in_new. right. exists x. split; [exact Hx|]. split; [|split; [congruence|reflexivity]]. intros ->. rewrite Hs in Hn. destruct Hn as [Hn|[]]. congruence.
        + intros ->. assert (x = b) by (apply only_b; assumption). subst x. apply IH1. exact b_nx. }
    intros y Hy. apply in_new in Hy. destruct Hy as [->|[x [X1 [X2 [X3 ->]]]]]; cbn [subst_pred set_preds bname joined].
    - apply (proj1 (K (bname b) (A b b_in))). exact b_nx.
    - apply (proj1 (K (bname x) (A x X1))). intros E. apply X3. apply (name_inj bs); [exact ND|exact X1|exact nx_in|exact E].
  Qed.
  Lemma new_entry e l : bs = e :: l -> exists e' l', new = e' :: l' /\ bname e' = bname e.
  Proof.
    unfold bs, new. destruct p as [|x0 p0]; cbn [app map]; intros E; injection E as <- _; eexists _, _; split; reflexivity.
  Qed.

  (** the same behaviour *)
  Inductive rel : list instr -> list instr -> Prop :=
  | Rel_same r : ~ In (bname nx) (jumps r) -> rel r r
  | Rel_join s r2 o : jumps s = [] -> bops nx = Label (bname nx) :: o -> r2 = s ++ o -> rel (s ++ [Bal (bname nx)]) r2
  | Rel_label o : bops nx = Label (bname nx) :: o -> rel (bops nx) o.

  Lemma nx_code : code_of bs (bname nx) = Some (bops nx).
  Proof. apply code_in; [exact ND|exact nx_in]. Qed.
  Lemma nx_clean o : bops nx = Label (bname nx) :: o -> ~ In (bname nx) (jumps o).
  Proof. intros E H. apply nx_not_nx. pose proof Gd as [[_ G] _]. apply (G nx nx_in). rewrite E. exact H. Qed.
  Lemma rel_look n c : n <> bname nx -> code_of bs n = Some c -> exists c', code_of new n = Some c' /\ rel c c'.
  Proof.
    intros Nn E. destruct join_ops as [body1 [body2 [tail2 [E1 [C1 [E2 [C2 [L2 [EJ SJ]]]]]]]]]. destruct (Nat.eq_dec n (bname b)) as [->|Nb].
    - rewrite (code_in bs b ND b_in) in E. injection E as <-. exists (bops (joined b nx)). split; [exact new_find_b|]. rewrite E1, EJ.
      change (Label (bname b) :: body1 ++ [Bal (bname nx)]) with ((Label (bname b) :: body1) ++ [Bal (bname nx)]). apply Rel_join with (o := body2 ++ tail2); [exact (proj2 (calm_none _ C1))|exact E2|reflexivity].
    - exists c. split; [rewrite new_find by assumption; exact E|]. apply Rel_same. unfold code_of in E. destruct (find_bb bs n) as [x|] eqn:Ex; [|discriminate]. injection E as <-.
      apply find_some_in in Ex. destruct Ex as [X1 X2]. intros H. apply Nb. rewrite <- X2. f_equal. apply only_b; [exact X1|]. pose proof Gd as [[_ G] _]. apply (G x X1). exact H.
  Qed.
  Lemma rel_look_back n c' : n <> bname nx -> code_of new n = Some c' -> exists c, code_of bs n = Some c /\ rel c c'.
  Proof.
    intros Nn E. assert (K : exists c, code_of bs n = Some c).
    { destruct (Nat.eq_dec n (bname b)) as [->|Nb]; [rewrite (code_in bs b ND b_in); eexists; reflexivity|]. rewrite new_find in E by assumption. eexists. exact E. }
    destruct K as [c Ec]. exists c. split; [exact Ec|]. destruct (rel_look n c Nn Ec) as [c2 [E2 R]]. congruence.
  Qed.

  Lemma clean_step {W} (m : machine W) r w r' w' : ~ In (bname nx) (jumps r) -> step m (code_of bs) r w = Some (r', w') -> exists r2, step m (code_of new) r w = Some (r2, w') /\ rel r' r2.
  Proof.
    intros N E. assert (Nt : forall x l, r = x :: l -> ~ In (bname nx) (jumps l)) by (intros x l -> H; apply N; unfold jumps; cbn [flat_map]; apply in_or_app; right; exact H).
    destruct r as [|[u|u|k u|k|k|] r]; cbn [step] in E; try discriminate.
    - injection E as <- <-. exists r. split; [reflexivity|]. apply Rel_same. apply (Nt _ _ eq_refl).
    - destruct (code_of bs u) as [c|] eqn:Ec; [|discriminate]. injection E as <- <-. destruct (rel_look u c) as [c' [E2 R]]; [intros ->; apply N; left; reflexivity|exact Ec|]. exists c'. cbn [step]. rewrite E2. split; [reflexivity|exact R].
    - cbn [step]. destruct (taken m k w).
      + destruct (code_of bs u) as [c|] eqn:Ec; [|discriminate]. injection E as <- <-. destruct (rel_look u c) as [c' [E2 R]]; [intros ->; apply N; left; reflexivity|exact Ec|]. exists c'. rewrite E2. split; [reflexivity|exact R].
      + injection E as <- <-. exists r. split; [reflexivity|]. apply Rel_same. apply (Nt _ _ eq_refl).
    - injection E as <- <-. exists r. split; [reflexivity|]. apply Rel_same. apply (Nt _ _ eq_refl).
    - injection E as <- <-. exists r. split; [reflexivity|]. apply Rel_same. apply (Nt _ _ eq_refl).
  Qed.
  Lemma clean_step_back {W} (m : machine W) r w r' w' : ~ In (bname nx) (jumps r) -> step m (code_of new) r w = Some (r', w') -> exists r1, step m (code_of bs) r w = Some (r1, w') /\ rel r1 r'.
  Proof.
    intros N E. assert (Nt : forall x l, r = x :: l -> ~ In (bname nx) (jumps l)) by (intros x l -> H; apply N; unfold jumps; cbn [flat_map]; apply in_or_app; right; exact H).
    destruct r as [|[u|u|k u|k|k|] r]; cbn [step] in E; try discriminate.
    - injection E as <- <-. exists r. split; [reflexivity|]. apply Rel_same. apply (Nt _ _ eq_refl).
    - destruct (code_of new u) as [c|] eqn:Ec; [|discriminate]. injection E as <- <-. destruct (rel_look_back u c) as [c' [E2 R]]; [intros ->; apply N; left; reflexivity|exact Ec|]. exists c'. cbn [step]. rewrite E2. split; [reflexivity|exact R].
    - cbn [step]. destruct (taken m k w).
      + destruct (code_of new u) as [c|] eqn:Ec; [|discriminate]. injection E as <- <-. destruct (rel_look_back u c) as [c' [E2 R]]; [intros ->; apply N; left; reflexivity|exact Ec|]. exists c'. rewrite E2. split; [reflexivity|exact R].
      + injection E as <- <-. exists r. split; [reflexivity|]. apply Rel_same. apply (Nt _ _ eq_refl).
    - injection E as <- <-. exists r. split; [reflexivity|]. apply Rel_same. apply (Nt _ _ eq_refl).
    - injection E as <- <-. exists r. split; [reflexivity|]. apply Rel_same. apply (Nt _ _ eq_refl).
  Qed.
  Lemma jumps_cons_nil x s : jumps (x :: s) = [] -> (match x with Bal _ | Branch _ _ => False | _ => True end) /\ jumps s = [].
  Proof. destruct x; unfold jumps; cbn [flat_map app]; intros H; try discriminate; split; auto. Qed.

  Lemma join_equivalent n c : n <> bname nx -> code_of bs n = Some c -> exists c', code_of new n = Some c' /\ equivalent (code_of bs) c (code_of new) c'.
  Proof.
    intros Nn E. destruct (rel_look n c Nn E) as [c' [E' R]]. exists c'. split; [exact E'|]. apply (equivalent_sim _ _ rel); [| |exact R].
    - clear R. intros W m r1 r2 w R. destruct R as [r N|s r2 o Js Eo ->|o Eo].
      + split; [|intros r' ->; exists O, r'; reflexivity]. intros r' w' E1. destruct (clean_step m r w r' w' N E1) as [r2 [E2 R]]. exists 1%nat, r2. cbn [steps]. rewrite E2. split; [reflexivity|exact R].
      + destruct s as [|x s]; cbn [app].
        * split; [|discriminate]. intros r' w' E1. cbn [step] in E1. rewrite nx_code in E1. injection E1 as <- <-. exists O, o. split; [reflexivity|]. apply Rel_label. exact Eo.
        * destruct (jumps_cons_nil _ _ Js) as [Hx Js']. split.
          -- intros r' w' E1. destruct x as [u|u|k u|k|k|]; try destruct Hx; cbn [step] in E1; try discriminate; injection E1 as <- <-; (exists 1%nat, (s ++ o); split; [reflexivity|]; apply Rel_join with (o := o); auto).
          -- intros r' Er. injection Er as -> _. exists O, (s ++ o). reflexivity.
      + rewrite Eo. split; [|discriminate]. intros r' w' E1. cbn [step] in E1. injection E1 as <- <-. exists O, o. split; [reflexivity|]. apply Rel_same. apply nx_clean. exact Eo.
    - clear R. intros W m r2 r1 w R. destruct R as [r N|s r2 o Js Eo ->|o Eo].
      + split; [|intros r' ->; exists O, r'; reflexivity]. intros r' w' E1. destruct (clean_step_back m r w r' w' N E1) as [r2 [E2 R]]. exists 1%nat, r2. cbn [steps]. rewrite E2. split; [reflexivity|exact R].
      + destruct s as [|x s]; cbn [app].
        * split.
          -- intros r' w' E1. destruct (clean_step_back m o w r' w' (nx_clean o Eo) E1) as [r2 [E2 R]]. exists 3%nat, r2. cbn [steps step]. rewrite nx_code. cbn [option_map]. rewrite Eo. cbn [step]. rewrite E2. split; [reflexivity|exact R].
          -- intros r' ->. exists 2%nat, r'. cbn [steps step]. rewrite nx_code. cbn [option_map]. rewrite Eo. reflexivity.
        * destruct (jumps_cons_nil _ _ Js) as [Hx Js']. split.
          -- intros r' w' E1. destruct x as [u|u|k u|k|k|]; try destruct Hx; cbn [step] in E1; try discriminate; injection E1 as <- <-; (exists 1%nat, (s ++ [Bal (bname nx)]); split; [reflexivity|]; apply Rel_join with (o := o); auto).
          -- intros r' Er. injection Er as -> _. exists O, (s ++ [Bal (bname nx)]). reflexivity.
      + split.
        * intros r' w' E1. destruct (clean_step_back m o w r' w' (nx_clean o Eo) E1) as [r2 [E2 R]]. exists 2%nat, r2. cbn [steps]. rewrite Eo. cbn [step]. rewrite E2. split; [reflexivity|exact R].
        * intros r' ->. exists 1%nat, r'. cbn [steps]. rewrite Eo. reflexivity.
  Qed.
End Join.

(** ** the whole pass; what holds before and after *)
Definition ends_at (fe : nat) (bs : list bb) : Prop := forall x, In x bs -> In End (bops x) -> bname x = fe /\ exists c, bops x = c ++ [End] /\ ~ In End c.

Definition keeps (fe : nat) (bs bs' : list bb) : Prop :=
  good bs' /\ all_reachable bs' /\
  (forall e l, bs = e :: l -> exists e' l', bs' = e' :: l' /\ bname e' = bname e /\ equivalent (code_of bs) (bops e) (code_of bs') (bops e')) /\
  (forall i, In i (flat_map bops bs') -> is_branch i = false -> is_label i = false -> In i (flat_map bops bs)) /\
  (ends_at fe bs -> ends_at fe bs') /\
  (forall e l e' l', bs = e :: l -> bpreds e = [] -> bs' = e' :: l' -> bpreds e' = []).

Lemma keeps_refl fe bs : good bs -> all_reachable bs -> keeps fe bs bs.
Proof.
  intros G A. split; [exact G|]. split; [exact A|]. split; [|split; [auto|split; [auto|congruence]]]. intros e l E. exists e, l. split; [exact E|]. split; [reflexivity|]. intros W m w w'. split; split; auto.
Qed.
Lemma keeps_trans fe a b c : keeps fe a b -> keeps fe b c -> keeps fe a c.
Proof.
  intros [G1 [A1 [E1 [I1 [N1 P1]]]]] [G2 [A2 [E2 [I2 [N2 P2]]]]]. split; [exact G2|]. split; [exact A2|]. split; [|split; [|split; [auto|]]].
  - intros e l E. destruct (E1 e l E) as [e' [l' [X1 [X2 X3]]]]. destruct (E2 e' l' X1) as [e2 [l2 [Y1 [Y2 Y3]]]]. exists e2, l2. split; [exact Y1|]. split; [congruence|]. eapply equivalent_trans; eassumption.
  - intros i H1 H2 H3. apply I1; auto.
  - intros e l e' l' E Pe E'. destruct (E1 e l E) as [e1 [l1 [X1 _]]]. apply (P2 e1 l1 e' l' X1); [apply (P1 e l e1 l1 E Pe X1)|exact E'].
Qed.

Lemma merge_step fe keep bs bs' : good bs -> all_reachable bs -> merge_one fe keep [] bs = Some bs' ->
  keeps fe bs bs' /\ length bs = S (length bs') /\ incl (map bname bs') (map bname bs).
Proof.
  intros G A E. destruct (merge_one_spec _ _ _ _ _ E) as [p [b [nx [q [Eb [Cm ->]]]]]]. cbn [app] in Eb. subst bs. unfold can_merge in Cm.
  apply andb_true_iff in Cm. destruct Cm as [Cm K4]. apply andb_true_iff in Cm. destruct Cm as [Cm K3]. apply andb_true_iff in Cm. destruct Cm as [K1 K2].
  assert (Hs : bsuccs b = [bname nx]) by (destruct (bsuccs b) as [|s [|? ?]]; try discriminate; apply Nat.eqb_eq in K1; subst; reflexivity).
  apply Nat.eqb_eq in K2. apply negb_true_iff, Nat.eqb_neq in K3. rewrite fold_new by assumption.
  destruct (join_ops p q b nx G Hs) as [body1 [body2 [tail2 [E1 [C1 [E2 [C2 [L2 [EJ SJ]]]]]]]]].
  split; [split; [|split; [|split; [|split; [|split]]]]|split].
  - apply new_good; assumption.
  - apply new_reachable; assumption.
  - intros e l El. assert (X : exists e' l', new p q b nx = e' :: l' /\ bname e' = bname e) by (eapply new_entry; eassumption). destruct X as [e' [l' [X1 X2]]]. exists e', l'. split; [exact X1|]. split; [exact X2|].
    assert (Ne : bname e <> bname nx).
    { apply (entry_not_nx p q b nx e l); [apply G|exact El]. }
    assert (Ce : code_of (p ++ b :: nx :: q) (bname e) = Some (bops e)) by (apply code_in; [apply G|rewrite El; left; reflexivity]).
    destruct (join_equivalent p q b nx G Hs K2 (bname e) (bops e) Ne Ce) as [c' [Y1 Y2]].
    assert (Ce' : code_of (new p q b nx) (bname e') = Some (bops e')) by (apply code_in; [apply new_nodup; exact G|rewrite X1; left; reflexivity]).
    rewrite X2 in Ce'. rewrite Y1 in Ce'. injection Ce' as <-. exact Y2.
  - intros i Hi Nb Nl. apply in_flat_map in Hi. destruct Hi as [y [Y1 Y2]]. apply (in_new p q b nx G) in Y1. apply in_flat_map. destruct Y1 as [->|[x [X1 [X2 [X3 ->]]]]]; [|exists x; auto].
    change (In i (bops (joined b nx))) in Y2. rewrite EJ in Y2. destruct Y2 as [<-|Y2]; [discriminate|]. apply in_app_or in Y2. destruct Y2 as [Y2|Y2].
    + exists b. split; [apply b_in|]. rewrite E1. right. apply in_or_app. left. exact Y2.
    + exists nx. split; [apply nx_in|]. rewrite E2. right. exact Y2.
  - intros En y Hy HE. apply (in_new p q b nx G) in Hy. destruct Hy as [->|[x [X1 [X2 [X3 ->]]]]]; [|apply (En x X1 HE)].
    exfalso. change (In End (bops (joined b nx))) in HE. rewrite EJ in HE. destruct HE as [HE|HE]; [discriminate|]. apply in_app_or in HE. destruct HE as [HE|HE].
    + destruct (En b) as [_ [c [Ec _]]]; [apply b_in|rewrite E1; right; apply in_or_app; left; exact HE|]. rewrite E1 in Ec. change (Label (bname b) :: body1 ++ [Bal (bname nx)]) with ((Label (bname b) :: body1) ++ [Bal (bname nx)]) in Ec. apply app_inj_tail in Ec. destruct Ec as [_ Ec]. discriminate.
    + destruct (En nx) as [K _]; [apply nx_in|rewrite E2; right; exact HE|]. contradiction.
  - intros e l e' l' El Pe En. unfold new in En. destruct p as [|x0 p0]; cbn [app map] in *; injection El as <- _; injection En as <- _; cbn [subst_pred set_preds bpreds joined]; rewrite Pe; reflexivity.
  - unfold new. rewrite map_length, !app_length. cbn [length]. lia.
  - intros n Hn. apply (in_new_names p q b nx G) in Hn. apply Hn.
Qed.

Lemma merge_ok fe keep : forall fuel bs, good bs -> all_reachable bs -> (length bs <= fuel)%nat -> exists bs', merge fuel fe keep bs = Ok bs' /\ keeps fe bs bs' /\ incl (map bname bs') (map bname bs) /\ merge_one fe keep [] bs' = None.
Proof.
  induction fuel as [|fuel IH]; intros bs G A L; cbn [merge]; destruct (merge_one fe keep [] bs) as [bs1|] eqn:E.
  1: destruct bs; cbn [length] in L; [discriminate E|lia].
  1, 3: exists bs; split; [reflexivity|]; split; [apply keeps_refl; assumption|]; split; [apply incl_refl|exact E].
  destruct (merge_step fe keep bs bs1 G A E) as [K [L1 I1]]. destruct (IH bs1) as [bs2 [E2 [K2 [I2 N2]]]]; [apply K|apply K|lia|].
  exists bs2. split; [exact E2|]. split; [eapply keeps_trans; eassumption|]. split; [eapply incl_tran; eassumption|exact N2].
Qed.
