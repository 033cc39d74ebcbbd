(** The whole construction. *)
From Verif Require Import Base Base_lemmas Cfg_model Cfg_spec Cfg_sim_proof Cfg_build_proof Cfg_graph_proof Cfg_merge_proof Cfg_split_proof Cfg_loops_proof.
From Coq Require Import Permutation.

(** ** before the check *)
Definition shape_of (fe : nat) (code : list instr) : Prop :=
  exists c d, code = c ++ Label fe :: d ++ [End] /\ ~ In End c /\ Forall calm d /\ ~ In End d.

Lemma built code next fe : is_code code next -> exists bs next', cfg_build code next = Ok (bs, next') /\ good bs /\ fits bs next' /\
  (forall n c, code = Label n :: c -> exists e l, bs = e :: l /\ bname e = n /\ equivalent (target code) code (code_of bs) (bops e) /\ (~ In n (jumps code) -> bpreds e = [])) /\
  (forall i, In i (flat_map bops bs) -> is_branch i = false -> is_label i = false -> In i code) /\ (shape_of fe code -> ends_at fe bs).
Proof.
  intros IC. destruct (cut_ok code next IC) as [n [c [bs0 [next' [Ec [E0 [ND [Lt [Sh [J [[b [l [Eb En]]] [Em [o [Co Eq]]]]]]]]]]]]]]. destruct (link_good bs0 ND Sh J Em) as [bs [E1 [G [N1 O1]]]].
  exists bs, next'. assert (Eb1 : cfg_build code next = Ok (bs, next')) by (rewrite Ec; cbn [cfg_build]; rewrite E0; cbn [bind]; rewrite E1; reflexivity).
  split; [exact Eb1|]. split; [exact G|]. split; [intros x Hx; rewrite N1 in Hx; apply Lt; exact Hx|].
  assert (Cd : forall m, code_of bs m = code_of bs0 m).
  { intros m. unfold code_of. revert N1 O1. clear. revert bs0. induction bs as [|x bs IH]; intros [|y bs0] N1 O1; try discriminate; [reflexivity|]. cbn [map] in N1, O1. injection N1 as N1 N2. injection O1 as O1 O2.
    cbn [find_bb find]. rewrite N1. destruct (Nat.eqb (bname y) m); [cbn [option_map]; rewrite O1; reflexivity|apply IH; assumption]. }
  assert (Eqb : forall o, equivalent (target code) code (code_of bs0) o -> equivalent (target code) code (code_of bs) o).
  { intros o' H. eapply equivalent_trans; [exact H|]. destruct IC as [_ [_ [_ _]]].
    apply (agree_equivalent _ _ (map bname bs0 ++ jumps o')); [intros m _; symmetry; apply Cd| |intros x Hx; apply in_or_app; right; exact Hx].
    intros m q _ Hq. unfold code_of in Hq. destruct (find_bb bs0 m) as [z|] eqn:Ez; [|discriminate]. injection Hq as <-. apply find_some_in in Ez. rewrite Forall_forall in J. intros x Hx. apply in_or_app. left. apply (J z (proj1 Ez)). exact Hx. }
  split; [|split].
  - intros n' c' Ec'. rewrite Ec in Ec'. injection Ec' as <- <-. destruct bs as [|e l'] eqn:Ebs; [rewrite Eb in N1; discriminate|]. exists e, l'. split; [reflexivity|].
    assert (Ne : bname e = n) by (rewrite Eb in N1; cbn [map] in N1; injection N1 as N1 _; congruence). split; [exact Ne|]. rewrite <- Ebs in *. assert (He : In e bs) by (rewrite Ebs; left; reflexivity). split.
    + assert (Eo : o = bops e). { rewrite <- Cd, <- Ne, (code_in bs e) in Co; [congruence|apply G|exact He]. } rewrite <- Eo. apply Eqb. exact Eq.
    + intros Nj. destruct (bpreds e) as [|p ps] eqn:Ep; [reflexivity|]. exfalso. pose proof G as [[_ Gc] _]. assert (Hp : In p (bpreds e)) by (rewrite Ep; left; reflexivity). apply (Gc e He) in Hp. destruct Hp as [x [X1 [X2 X3]]]. apply (proj1 (proj2 (Gc x X1))) in X3. rewrite Ne in X3.
      assert (K : Forall (fun b => forall x, In x (jumps (bops b)) -> x <> n) bs0).
      { destruct IC as [_ [_ [NL [Jl L]]]]. rewrite Ec in NL, L, Nj. change (labels (Label n :: c)) with (n :: labels c) in NL, L. eapply (build_jumps_P (fun x => x <> n)); [exact E0| | |intros y Hy ->; apply Nj; exact Hy|constructor].
        - intros y Hy ->. inversion NL; contradiction.
        - intros y Hy ->. specialize (L n ltac:(left; reflexivity)). lia. }
      assert (Hx : In (bops x) (map bops bs0)) by (rewrite <- O1; apply in_map; exact X1). apply in_map_iff in Hx. destruct Hx as [z [Z1 Z2]]. rewrite Forall_forall in K. apply (K z Z2 n); [rewrite Z1; exact X3|reflexivity].
  - intros i Hi Nb Nl. rewrite flat_map_concat_map, O1, <- flat_map_concat_map in Hi.
    assert (K : Forall (fun b => forall i, In i (bops b) -> is_branch i = false -> is_label i = true \/ In i code) bs0).
    { eapply (build_ops (fun i => is_label i = true \/ In i code)); [intros m; left; reflexivity|exact E0| |constructor]. intros j Hj _. right. rewrite Ec. exact Hj. }
    apply in_flat_map in Hi. destruct Hi as [z [Z1 Z2]]. rewrite Forall_forall in K. destruct (K z Z1 i Z2 Nb) as [K1|K1]; [congruence|exact K1].
  - intros [c1 [d [Es [Nc [Cd' Nd]]]]]. rewrite Ec in Es.
    assert (K : forall x, In x bs0 -> In End (bops x) -> bname x = fe /\ exists c, bops x = c ++ [End] /\ ~ In End c).
    { destruct c1 as [|i0 c2]; cbn [app] in Es; injection Es as E2 E3.
      - rewrite E2 in E0. rewrite E3, build_last in E0 by exact Cd'. injection E0 as E0 _. cbn [app rev] in E0. rewrite <- E0. intros x [<-|[]] _. cbn [bname bops]. split; [reflexivity|]. exists (Label fe :: d). split; [reflexivity|]. intros [H|H]; [discriminate|apply Nd; exact H].
      - subst i0. destruct (build_to fe c2 (d ++ [End]) Normal n [Label n] [] next) as [acc' [next2 [E4 Ha]]].
        + intros i Hi ->. apply Nc. right. exact Hi.
        + intros i [<-|[]]. discriminate.
        + constructor.
        + rewrite E3, E4, build_last in E0 by exact Cd'. injection E0 as E0 _. rewrite <- E0. intros x Hx HE. apply in_app_or in Hx. destruct Hx as [Hx|[<-|[]]].
          * exfalso. rewrite Forall_forall in Ha. apply (Ha x Hx HE).
          * cbn [bname bops]. split; [reflexivity|]. exists (Label fe :: d). split; [reflexivity|]. intros [H|H]; [discriminate|apply Nd; exact H]. }
    intros x Hx HE. assert (Hxx : exists z, In z bs0 /\ bname z = bname x /\ bops z = bops x).
    { revert N1 O1 Hx. clear. revert bs0. induction bs as [|y bs IH]; intros [|z bs0] N1 O1 Hx; try discriminate; [destruct Hx|]. cbn [map] in *. injection N1 as N1 N2. injection O1 as O1 O2.
      destruct Hx as [<-|Hx]; [exists z; split; [left; reflexivity|auto]|]. destruct (IH bs0 N2 O2 Hx) as [q [Q1 Q2]]. exists q. split; [right; exact Q1|exact Q2]. }
    destruct Hxx as [z [Z1 [Z2 Z3]]]. rewrite <- Z2, <- Z3. apply (K z Z1). rewrite Z3. exact HE.
Qed.

Lemma pruned fe bs e l : good bs -> bs = e :: l -> exists bs', prune bs = Ok bs' /\ keeps fe bs bs' /\ incl (map bname bs') (map bname bs).
Proof.
  intros G E. destruct (prune_ok bs e l G E) as [bs' [H1 [H2 [H3 [H4 [H5 [[e' [l' [H6 H7]]] [H8 H9]]]]]]]]. exists bs'. split; [exact H1|]. split; [|exact H3].
  assert (He : In e bs) by (rewrite E; left; reflexivity). assert (He' : In e' bs') by (rewrite H6; left; reflexivity).
  split; [exact H2|]. split; [exact H5|]. split; [|split; [|split]].
  - intros e0 l0 E0. rewrite E in E0. injection E0 as <- _. exists e', l'. split; [exact H6|]. split; [exact H7|].
    assert (Ce : code_of bs (bname e) = Some (bops e)) by (apply code_in; [apply G|exact He]). assert (Ce' : code_of bs' (bname e) = Some (bops e')) by (rewrite <- H7; apply code_in; [apply H2|exact He']).
    assert (Eo : bops e' = bops e) by congruence. rewrite Eo. apply H9. exact Ce.
  - intros i Hi _ _. apply in_flat_map in Hi. destruct Hi as [x [X1 X2]]. destruct (H4 x X1) as [b [B1 [B2 [B3 _]]]]. apply in_flat_map. exists b. rewrite <- B3. auto.
  - intros En x Hx HE. destruct (H4 x Hx) as [b [B1 [B2 [B3 _]]]]. rewrite B2, B3 in *. apply (En b B1 HE).
  - intros e0 l0 e1 l1 E0 Pe E1. rewrite E in E0. injection E0 as <- _. rewrite H6 in E1. injection E1 as <- _. destruct (H4 e' He') as [b [B1 [B2 [_ B4]]]].
    assert (b = e) by (apply (name_inj bs); [apply G|exact B1|exact He|congruence]). subst b. rewrite Pe in B4. destruct (bpreds e') as [|q qs]; [reflexivity|]. destruct (B4 q ltac:(left; reflexivity)).
Qed.

(** what one gets without the check *)
Lemma cfg_void fe keep code next : is_code code next -> exists bs bs1 next1, cfg true fe keep code next = Ok bs /\ good bs /\ all_reachable bs /\
  (forall n c, code = Label n :: c -> exists e l, bs = e :: l /\ bname e = n /\ equivalent (target code) code (code_of bs) (bops e) /\ (~ In n (jumps code) -> bpreds e = [])) /\
  (forall i, In i (flat_map bops bs) -> is_branch i = false -> is_label i = false -> In i code) /\ (shape_of fe code -> ends_at fe bs) /\
  (cfg false fe keep code next = match bs with [] => UB | e :: _ => _ <- return_check (S (length bs)) bs fe (bname e) [] ;; Ok bs end) /\
  good bs1 /\ all_reachable bs1 /\ fits bs1 next1 /\ (exists n2, split bs1 next1 = Ok (bs, n2)).
Proof.
  intros IC. destruct (built code next fe IC) as [bs0 [next0 [E0 [G0 [F0 [En0 [O0 S0]]]]]]]. pose proof IC as [[n [c Ec]] _]. destruct (En0 n c Ec) as [e0 [l0 [X1 [X2 [X3 X4]]]]].
  destruct (pruned fe bs0 e0 l0 G0 X1) as [bs1 [E1 [K1 I1]]]. destruct (merge_ok fe keep (length bs1) bs1) as [bs2 [E2 [K2 [I2 _]]]]; [apply K1|apply K1|lia|].
  assert (F2 : fits bs2 next0) by (intros x Hx; apply F0, I1, I2; exact Hx).
  destruct (split_ok fe bs2 next0) as [bs3 [next3 [E3 [K3 _]]]]; [apply K2|apply K2|exact F2|].
  pose proof (keeps_trans _ _ _ _ K1 (keeps_trans _ _ _ _ K2 K3)) as [G3 [A3 [En3 [O3 [S3 P3]]]]]. destruct (En3 e0 l0 X1) as [e3 [l3 [Y1 [Y2 Y3]]]].
  exists bs3, bs2, next0. split; [unfold cfg; rewrite E0; cbn [bind]; rewrite E1; cbn [bind]; rewrite E2; cbn [bind]; rewrite E3; cbn [bind]; rewrite Y1; reflexivity|].
  split; [exact G3|]. split; [exact A3|]. split; [|split; [|split; [|split; [|split; [apply K2|split; [apply K2|split; [exact F2|exists next3; exact E3]]]]]]].
  - intros n' c' Ec'. assert (n' = n) by congruence. subst n'. exists e3, l3. split; [exact Y1|]. split; [congruence|]. split; [eapply equivalent_trans; eassumption|]. intros Nj. apply (P3 e0 l0 e3 l3 X1 (X4 Nj) Y1).
  - intros i H1 H2 H3. apply O0; auto.
  - intros Hs. apply S3, S0. exact Hs.
  - unfold cfg. rewrite E0. cbn [bind]. rewrite E1. cbn [bind]. rewrite E2. cbn [bind]. rewrite E3. cbn [bind]. reflexivity.
Qed.

(** ** writing the blocks one after the other *)
Lemma target_skip a c n : ~ In n (labels a) -> target (a ++ c) n = target c n.
Proof.
  induction a as [|i a IH]; intros H; [reflexivity|]. cbn [app target]. unfold labels in H. cbn [flat_map] in H. rewrite in_app_iff in H. destruct i as [u|u|k u|k|k|]; try (apply IH; tauto).
  destruct (Nat.eqb u n) eqn:E; [apply Nat.eqb_eq in E; exfalso; apply H; left; left; exact E|apply IH; tauto].
Qed.
Lemma target_flat l n : Forall (fun b => exists r, bops b = Label (bname b) :: r /\ labels r = []) l ->
  match find_bb l n with Some b => exists rest, target (flat_map bops l) n = Some (bops b ++ rest) | None => target (flat_map bops l) n = None end.
Proof.
  induction 1 as [|b l [r [E L]] _ IH]; [reflexivity|]. cbn [find_bb find flat_map]. destruct (Nat.eqb (bname b) n) eqn:En.
  - exists (flat_map bops l). rewrite E at 1. cbn [app target]. rewrite En. rewrite E. reflexivity.
  - assert (K : target (bops b ++ flat_map bops l) n = target (flat_map bops l) n).
    { apply target_skip. rewrite E. unfold labels in *. cbn [flat_map]. rewrite L. intros [H|[]]. apply Nat.eqb_neq in En. contradiction. }
    rewrite K. exact IH.
Qed.
Definition closing (r : list instr) : Prop := exists s i, r = s ++ [i] /\ (i = End \/ exists t, i = Bal t).
Lemma closing_tail x r : closing (x :: r) -> closing r \/ (r = [] /\ (x = End \/ exists t, x = Bal t)).
Proof.
  intros [s [i [E H]]]. destruct s as [|y s]; cbn [app] in E; injection E as -> ->; [right; auto|left; exists s, i; auto].
Qed.
Lemma shaped_closing b : shaped b -> closing (bops b).
Proof.
  intros [body [tail [E [C T]]]]. rewrite E. destruct T as [[-> [body' ->]]|[[t ->]|[k [t [t2 [-> N]]]]]].
  - rewrite app_nil_r. exists (Label (bname b) :: body'), End. split; [reflexivity|left; reflexivity].
  - exists (Label (bname b) :: body), (Bal t). split; [reflexivity|right; exists t; reflexivity].
  - exists (Label (bname b) :: body ++ [Branch k t2]), (Bal t). split; [cbn [app]; rewrite <- app_assoc; reflexivity|right; exists t; reflexivity].
Qed.
Lemma flat_equivalent bs l : good bs -> Permutation bs l -> forall b, In b bs -> forall rest, equivalent (code_of bs) (bops b) (target (flat_map bops l)) (bops b ++ rest).
Proof.
  intros [[ND G] Sh] P b0 Hb0 rest0. rewrite Forall_forall in Sh.
  assert (ND' : NoDup (map bname l)) by (eapply Permutation_NoDup; [apply Permutation_map; exact P|exact ND]).
  assert (Tl : forall n, match code_of bs n with Some c => closing c /\ exists rest, target (flat_map bops l) n = Some (c ++ rest) | None => target (flat_map bops l) n = None end).
  { intros n. pose proof (target_flat l n) as T. assert (Hl : Forall (fun b => exists r, bops b = Label (bname b) :: r /\ labels r = []) l).
    { apply Forall_forall. intros b Hb. apply shaped_label. apply Sh. apply Permutation_sym in P. apply (Permutation_in _ P Hb). }
    specialize (T Hl). unfold code_of. destruct (find_bb bs n) as [b|] eqn:Eb; cbn [option_map].
    - apply find_some_in in Eb. destruct Eb as [B1 B2]. split; [apply shaped_closing, Sh; exact B1|]. rewrite <- B2 in T. rewrite (find_in l b ND' (Permutation_in _ P B1)) in T. rewrite B2 in T. exact T.
    - destruct (find_bb l n) as [b|] eqn:Eb2; [|exact T]. exfalso. apply find_some_in in Eb2. destruct Eb2 as [B1 B2]. apply Permutation_sym in P. assert (Hb : In n (map bname bs)) by (rewrite <- B2; apply in_map; apply (Permutation_in _ P B1)).
      destruct (find_ex bs n Hb) as [z Ez]. congruence. }
  apply (equivalent_sim _ _ (fun r1 r2 => closing r1 /\ exists rest, r2 = r1 ++ rest)).
  - intros W m r1 r2 w [Cl [rest ->]]. split; [|intros r' ->; exists O, (r' ++ rest); reflexivity]. intros r' w' E. exists 1%nat. cbn [steps]. destruct r1 as [|x r1]; [discriminate|]. pose proof (closing_tail x r1 Cl) as Ct.
    destruct x as [u|u|k u|k|k|]; cbn [step app] in *; try discriminate.
    + injection E as <- <-. eexists. split; [reflexivity|]. split; [|exists rest; reflexivity]. destruct Ct as [Ct|[_ [H|[t H]]]]; [exact Ct|discriminate|discriminate].
    + pose proof (Tl u) as T. destruct (code_of bs u) as [c|]; [|discriminate]. injection E as <- <-. destruct T as [T1 [rest2 T2]]. rewrite T2. eexists. split; [reflexivity|]. split; [exact T1|exists rest2; reflexivity].
    + destruct (taken m k w).
      * pose proof (Tl u) as T. destruct (code_of bs u) as [c|]; [|discriminate]. injection E as <- <-. destruct T as [T1 [rest2 T2]]. rewrite T2. eexists. split; [reflexivity|]. split; [exact T1|exists rest2; reflexivity].
      * injection E as <- <-. eexists. split; [reflexivity|]. split; [|exists rest; reflexivity]. destruct Ct as [Ct|[_ [H|[t H]]]]; [exact Ct|discriminate|discriminate].
    + injection E as <- <-. eexists. split; [reflexivity|]. split; [|exists rest; reflexivity]. destruct Ct as [Ct|[_ [H|[t H]]]]; [exact Ct|discriminate|discriminate].
    + injection E as <- <-. eexists. split; [reflexivity|]. split; [|exists rest; reflexivity]. destruct Ct as [Ct|[_ [H|[t H]]]]; [exact Ct|discriminate|discriminate].
  - intros W m r2 r1 w [Cl [rest ->]]. destruct r1 as [|x r1]; [destruct Cl as [[|] [i [E _]]]; discriminate|]. pose proof (closing_tail x r1 Cl) as Ct. split; [|intros r' E; injection E as -> _; exists O, r1; reflexivity].
    intros r' w' E. exists 1%nat. cbn [steps].
    destruct x as [u|u|k u|k|k|]; cbn [step app] in *; try discriminate.
    + injection E as <- <-. eexists. split; [reflexivity|]. split; [|exists rest; reflexivity]. destruct Ct as [Ct|[_ [H|[t H]]]]; [exact Ct|discriminate|discriminate].
    + pose proof (Tl u) as T. destruct (code_of bs u) as [c|]; [|rewrite T in E; discriminate]. destruct T as [T1 [rest2 T2]]. rewrite T2 in E. injection E as <- <-. eexists. split; [reflexivity|]. split; [exact T1|exists rest2; reflexivity].
    + destruct (taken m k w).
      * pose proof (Tl u) as T. destruct (code_of bs u) as [c|]; [|rewrite T in E; discriminate]. destruct T as [T1 [rest2 T2]]. rewrite T2 in E. injection E as <- <-. eexists. split; [reflexivity|]. split; [exact T1|exists rest2; reflexivity].
      * injection E as <- <-. eexists. split; [reflexivity|]. split; [|exists rest; reflexivity]. destruct Ct as [Ct|[_ [H|[t H]]]]; [exact Ct|discriminate|discriminate].
    + injection E as <- <-. eexists. split; [reflexivity|]. split; [|exists rest; reflexivity]. destruct Ct as [Ct|[_ [H|[t H]]]]; [exact Ct|discriminate|discriminate].
    + injection E as <- <-. eexists. split; [reflexivity|]. split; [|exists rest; reflexivity]. destruct Ct as [Ct|[_ [H|[t H]]]]; [exact Ct|discriminate|discriminate].
  - split; [apply shaped_closing, Sh; exact Hb0|exists rest0; reflexivity].
Qed.

Lemma meaning fe keep code next bs e l l' : is_code code next -> cfg true fe keep code next = Ok bs -> bs = e :: l -> Permutation l l' -> same_behaviour code (flat_map bops (e :: l')).
Proof.
  intros IC E Eb P. destruct (cfg_void fe keep code next IC) as [bs2 [_ [_ [E2 [G [A [En _]]]]]]]. rewrite E in E2. injection E2 as <-. pose proof IC as [[n [c Ec]] _]. destruct (En n c Ec) as [e2 [l2 [X1 [X2 [X3 _]]]]].
  rewrite Eb in X1. injection X1 as <- <-. assert (P' : Permutation bs (e :: l')) by (rewrite Eb; constructor; exact P).
  intros W m w w'. apply (equivalent_trans _ _ _ _ _ _ X3). apply (flat_equivalent bs (e :: l') G P' e ltac:(rewrite Eb; left; reflexivity) (flat_map bops l')).
Qed.

(** ** every execution returns *)

Lemma all_return {W} (m : machine W) fe keep code next bs : is_code code next -> shape_of fe code -> cfg false fe keep code next = Ok bs ->
  forall w w' tr, finishes (traced m) code (w, []) (w', tr) -> exists k, In k tr /\ In (Return k) code.
Proof.
  intros IC Hs E w w' tr F. destruct (cfg_void fe keep code next IC) as [bs2 [_ [_ [E2 [G [A [En [Op [Ea [Ec _]]]]]]]]]]. specialize (Ea Hs). pose proof IC as [[n [c Ecd]] _]. destruct (En n c Ecd) as [e [l [X1 [X2 [X3 _]]]]].
  assert (Nb : ~ bad bs2 fe /\ bs2 = bs).
  { rewrite Ec in E. destruct (check_entry bs2 fe (proj1 G) e l X1) as [[h [K1 K2]]|[K1 K2]]; rewrite X1 in E at 1; rewrite K1 in E; cbn [bind] in E; [|discriminate]. split; [exact K2|congruence]. }
  destruct Nb as [Nb ->]. clear E Ec. destruct (proj2 (X3 _ (traced m) (w, []) (w', tr))) as [X3' _]. specialize (X3' F). destruct X3' as [k [r X3']]. clear F X3 E2.
  pose proof G as [[ND Gc] Sh]. rewrite Forall_forall in Sh.
  (* invariant *)
  set (inv := fun (r : list instr) (tr : list Z) => (exists k, In k tr /\ In (Return k) code) \/ exists x q, In x bs /\ bops x = q ++ r /\ (forall k, ~ In (Return k) q) /\ (returns x \/ without_return bs x)).
  assert (St : forall r w tr r' w' tr', inv r tr -> step (traced m) (code_of bs) r (w, tr) = Some (r', (w', tr')) -> inv r' tr').
  { intros r0 w0 tr0 r' w1 tr' [[k0 [H1 H2]]|[x [q [X4 [X5 [X6 X7]]]]]] Es.
    - left. exists k0. split; [|exact H2]. destruct r0 as [|[u|u|j u|j|j|] r0]; cbn [step traced effect taken] in Es; try discriminate.
      + injection Es as _ _ <-. exact H1.
      + destruct (code_of bs u); [|discriminate]. injection Es as _ _ <-. exact H1.
      + destruct (taken m j w0); [destruct (code_of bs u); [|discriminate]|]; injection Es as _ _ <-; exact H1.
      + injection Es as _ _ <-. right. exact H1.
      + injection Es as _ _ <-. right. exact H1.
    - assert (Mv : forall i, r0 = i :: r' -> (forall k, i <> Return k) -> exists q, bops x = q ++ r' /\ forall k, ~ In (Return k) q).
      { intros i -> Ni. exists (q ++ [i]). split; [rewrite <- app_assoc; exact X5|]. intros k0 Hk. apply in_app_or in Hk. destruct Hk as [Hk|[Hk|[]]]; [apply (X6 k0 Hk)|apply (Ni k0 Hk)]. }
      assert (Jm : forall u c0 s i, r0 = i :: s -> (i = Bal u \/ exists j, i = Branch j u) -> code_of bs u = Some c0 -> inv c0 tr0).
      { intros u c0 s i Er Hi Ec0. right. unfold code_of in Ec0. destruct (find_bb bs u) as [y|] eqn:Ey; [|discriminate]. injection Ec0 as <-. apply find_some_in in Ey. destruct Ey as [Y1 Y2].
        exists y, []. split; [exact Y1|]. split; [reflexivity|]. split; [intros k0 []|].
        assert (Nr : ~ returns x).
        { destruct (Sh x X4) as [body [tail [Eo [C T]]]]. intros [k0 Hk]. rewrite X5, Er in Hk. apply in_app_or in Hk. destruct Hk as [Hk|Hk]; [apply (X6 k0 Hk)|]. rewrite Er in X5. rewrite Eo in X5.
          assert (Ht : exists t0, i :: s = t0 /\ In (Return k0) tail \/ In (Return k0) (i :: s) /\ exists a, tail = a ++ i :: s).
          { exists (i :: s). right. split; [exact Hk|]. change (Label (bname x) :: body ++ tail) with ((Label (bname x) :: body) ++ tail) in X5.
            assert (Sp : forall (a b q s : list instr) i, a ++ b = q ++ i :: s -> ~ In i a -> exists z, b = z ++ i :: s).
            { clear. induction a as [|y a IH]; intros b q s i E N; [exists q; exact E|]. destruct q as [|z q]; cbn [app] in E; injection E as E1 E2; [exfalso; apply N; left; exact E1|]. apply (IH b q s i E2). intros H. apply N. right. exact H. }
            apply (Sp (Label (bname x) :: body) tail q s i X5). intros Hin. assert (Hj : In u (jumps (Label (bname x) :: body))).
            { unfold jumps. apply in_flat_map. exists i. split; [exact Hin|]. destruct Hi as [->|[j ->]]; left; reflexivity. }
            assert (J0 : jumps (Label (bname x) :: body) = []) by (exact (proj2 (calm_none _ C))). rewrite J0 in Hj. destruct Hj. }
          destruct Ht as [t0 [[_ Ht]|[_ [a Ea0]]]].
          - destruct T as [[-> _]|[[t ->]|[k1 [t [t2 [-> _]]]]]]; cbn [In] in Ht; intuition discriminate.
          - assert (Ht : In (Return k0) tail) by (rewrite Ea0; apply in_or_app; right; exact Hk). destruct T as [[-> _]|[[t ->]|[k1 [t [t2 [-> _]]]]]]; cbn [In] in Ht; intuition discriminate. }
        destruct X7 as [X7|X7]; [contradiction|]. destruct (has_return (bops y)) eqn:Er2; [left; apply has_return_spec; exact Er2|right]. apply (wr_succ bs x y X7 Y1); [|intros R; apply has_return_spec in R; congruence].
        apply (proj1 (proj2 (Gc x X4))). rewrite Y2. rewrite X5, Er. rewrite jumps_app. apply in_or_app. right. destruct Hi as [->|[j ->]]; left; reflexivity. }
      destruct r0 as [|i r0]; [discriminate|]. destruct i as [u|u|j u|j|j|]; cbn [step traced effect taken] in Es; try discriminate.
      + injection Es as <- <- <-. right. destruct (Mv (Label u) eq_refl ltac:(intros ? Hd; discriminate Hd)) as [q' [Q1 Q2]]. exists x, q'. auto.
      + destruct (code_of bs u) as [c0|] eqn:Ec0; [|discriminate]. injection Es as <- <- <-. apply (Jm u c0 r0 (Bal u)); auto.
      + destruct (taken m j w0).
        * destruct (code_of bs u) as [c0|] eqn:Ec0; [|discriminate]. injection Es as <- <- <-. apply (Jm u c0 r0 (Branch j u)); auto. right. exists j. reflexivity.
        * injection Es as <- <- <-. right. destruct (Mv (Branch j u) eq_refl ltac:(intros ? Hd; discriminate Hd)) as [q' [Q1 Q2]]. exists x, q'. auto.
      + injection Es as <- <- <-. left. exists j. split; [left; reflexivity|]. apply Op; [|reflexivity|reflexivity]. apply in_flat_map. exists x. split; [exact X4|]. rewrite X5. apply in_or_app. right. left. reflexivity.
      + injection Es as <- <- <-. right. destruct (Mv (Plain j) eq_refl ltac:(intros ? Hd; discriminate Hd)) as [q' [Q1 Q2]]. exists x, q'. auto. }
  assert (Ss : forall k r w tr r' w' tr', inv r tr -> steps (traced m) (code_of bs) k r (w, tr) = Some (r', (w', tr')) -> inv r' tr').
  { intros k2. induction k2 as [|k2 IH]; intros r0 w0 tr0 r' w1 tr' H Es; cbn [steps] in Es; [injection Es as <- <- <-; exact H|].
    destruct (step (traced m) (code_of bs) r0 (w0, tr0)) as [[r1 [w2 tr2]]|] eqn:E1; [|discriminate]. apply (IH r1 w2 tr2 r' w1 tr'); [|exact Es]. apply (St r0 w0 tr0 r1 w2 tr2 H E1). }
  assert (He : In e bs) by (rewrite X1; left; reflexivity).
  assert (I0 : inv (bops e) []).
  { right. exists e, []. split; [exact He|]. split; [reflexivity|]. split; [intros k0 []|]. destruct (has_return (bops e)) eqn:Er; [left; apply has_return_spec; exact Er|right]. apply (wr_entry bs e l X1). intros R. apply has_return_spec in R. congruence. }
  destruct (Ss k (bops e) w [] (End :: r) w' tr I0 X3') as [H|[x [q [X4 [X5 [X6 X7]]]]]]; [exact H|]. exfalso.
  assert (HE : In End (bops x)) by (rewrite X5; apply in_or_app; right; left; reflexivity). destruct (Ea x X4 HE) as [Ef [c0 [Ec0 Nc0]]].
  assert (Nr : ~ returns x).
  { rewrite X5 in Ec0. assert (Hq : q = c0 /\ r = []).
    { clear -Ec0 Nc0. revert c0 Ec0 Nc0. induction q as [|y q IH]; intros c0 E N.
      - destruct c0 as [|z c0]; cbn [app] in E; [injection E as E1; auto|injection E as E1 E2; exfalso; apply N; left; congruence].
      - destruct c0 as [|z c0]; cbn [app] in E; injection E as E1 E2; [destruct q; discriminate|]. destruct (IH c0 E2) as [-> ->]; [intros H; apply N; right; exact H|subst; auto]. }
    destruct Hq as [-> ->]. intros [k0 Hk]. rewrite X5 in Hk. apply in_app_or in Hk. destruct Hk as [Hk|[Hk|[]]]; [apply (X6 k0 Hk)|discriminate]. }
  destruct X7 as [X7|X7]; [contradiction|]. apply Nb. exists x. auto.
Qed.

Lemma leaves_shape fe code : leaves_at fe code -> shape_of fe code.
Proof.
  intros [c [d [E [N F]]]]. exists c, d. split; [exact E|]. split; [exact N|]. rewrite Forall_forall in F. split; [apply Forall_forall; intros i Hi; destruct (F i Hi) as [k ->]; exact Logic.I|]. intros H. destruct (F End H) as [k Hk]. discriminate.
Qed.

(** ** the two forms of the critical edges *)
Lemma crit_critical bs p b : is_cfg bs -> critical bs p b -> crit bs (bname p) (bname b).
Proof.
  intros [ND G] [H1 [H2 [H3 [H4 H5]]]]. unfold crit. rewrite (succs_in bs p ND H1), (preds_in bs b ND H2). split; [|split; assumption]. apply (proj1 (proj2 (proj2 (proj2 (proj2 (G b H2)))))). exists p. auto.
Qed.
Lemma critical_crit bs x y : is_cfg bs -> crit bs x y -> exists p b, critical bs p b /\ bname p = x /\ bname b = y.
Proof.
  intros [ND G] [H1 [H2 H3]]. destruct (find_bb bs y) as [b|] eqn:Eb; [|unfold preds_of in H1; rewrite Eb in H1; destruct H1]. apply find_some_in in Eb. destruct Eb as [B1 <-]. rewrite (preds_in bs b ND B1) in *.
  pose proof H1 as H. apply (proj1 (proj2 (proj2 (proj2 (proj2 (G b B1)))))) in H. destruct H as [p [P1 [P2 P3]]]. exists p, b. rewrite <- P2, (succs_in bs p ND P1) in H2. split; [|auto]. repeat split; assumption.
Qed.

Lemma edges_gone fe keep code next b0 n0 b1 b2 b3 n3 : is_code code next -> cfg_build code next = Ok (b0, n0) -> prune b0 = Ok b1 -> merge (length b1) fe keep b1 = Ok b2 -> split b2 n0 = Ok (b3, n3) ->
  (forall p b, critical b3 p b -> exists p' b', critical b2 p' b' /\ bname p' = bname p /\ bname b' = bname b) /\
  ((forall p p' b, critical b2 p b -> critical b2 p' b -> p = p') -> forall p b, ~ critical b3 p b).
Proof.
  intros IC E0 E1 E2 E3. destruct (built code next fe IC) as [bs0 [next0 [E0' [G0 [F0 [En0 _]]]]]]. rewrite E0 in E0'. injection E0' as <- <-. pose proof IC as [[n [c Ec]] _]. destruct (En0 n c Ec) as [e0 [l0 [X1 _]]].
  destruct (pruned fe b0 e0 l0 G0 X1) as [b1' [E1' [K1 I1]]]. rewrite E1 in E1'. injection E1' as <-. destruct (merge_ok fe keep (length b1) b1) as [b2' [E2' [K2 [I2 _]]]]; [apply K1|apply K1|lia|]. rewrite E2 in E2'. injection E2' as <-.
  assert (F2 : fits b2 n0) by (intros x Hx; apply F0, I1, I2; exact Hx).
  destruct (split_ok fe b2 n0) as [b3' [n3' [E3' [K3 [S1 S2]]]]]; [apply K2|apply K2|exact F2|]. rewrite E3 in E3'. injection E3' as <- <-.
  assert (C2 : is_cfg b2) by apply K2. assert (C3 : is_cfg b3) by apply K3. split.
  - intros p b H. apply (crit_critical b3 p b C3) in H. apply S1 in H. apply (critical_crit b2 _ _ C2) in H. exact H.
  - intros U p b H. apply (crit_critical b3 p b C3) in H. apply (S2 ltac:(idtac; intros x y z Hx Hy; destruct (critical_crit b2 x z C2 Hx) as [p1 [q1 [A1 [A2 A3]]]]; destruct (critical_crit b2 y z C2 Hy) as [p2 [q2 [A4 [A5 A6]]]];
      assert (q1 = q2) by (apply (name_inj b2); [apply C2|apply A1|apply A4|congruence]); subst q2; rewrite <- A2, <- A5; f_equal; apply (U p1 p2 q1); assumption) _ _ H).
Qed.

(** ** the check *)
Lemma check_graph fe keep code next bs : is_code code next -> cfg true fe keep code next = Ok bs ->
  (cfg false fe keep code next = Ok bs /\ ~ exists b, without_return bs b /\ bname b = fe) \/ (cfg false fe keep code next = Throw /\ exists b, without_return bs b /\ bname b = fe).
Proof.
  intros IC E. destruct (cfg_void fe keep code next IC) as [bs2 [_ [_ [E2 [G [_ [En [_ [_ [Ec _]]]]]]]]]]. rewrite E in E2. injection E2 as <-. pose proof IC as [[n [c Ecd]] _]. destruct (En n c Ecd) as [e [l [X1 _]]].
  destruct (check_entry bs fe (proj1 G) e l X1) as [[h [K1 K2]]|[K1 K2]].
  - left. split; [|exact K2]. rewrite Ec. rewrite X1 at 1. rewrite K1. reflexivity.
  - right. split; [|exact K2]. rewrite Ec. rewrite X1 at 1. rewrite K1. reflexivity.
Qed.
