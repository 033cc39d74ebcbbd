(** Splitting edges. *)
From Verif Require Import Base Base_lemmas Cfg_model Cfg_spec Cfg_sim_proof Cfg_build_proof Cfg_graph_proof Cfg_merge_proof.

Lemma remove_app n l x : In n l -> remove_first n (l ++ [x]) = remove_first n l ++ [x].
Proof.
  induction l as [|y l IH]; intros H; [destruct H|]. cbn [app remove_first]. destruct (Nat.eqb y n) eqn:E; [reflexivity|]. cbn [app]. f_equal. apply IH. destruct H as [H|H]; [apply Nat.eqb_neq in E; congruence|exact H].
Qed.
Lemma remove_length n l : In n l -> S (length (remove_first n l)) = length l.
Proof.
  induction l as [|y l IH]; intros H; [destruct H|]. cbn [remove_first]. destruct (Nat.eqb y n) eqn:E; [reflexivity|]. cbn [length]. f_equal. apply IH. destruct H as [H|H]; [apply Nat.eqb_neq in E; congruence|exact H].
Qed.
Lemma turn_calm b n body : Forall calm body -> map (turn b n) body = body.
Proof. intros H. rewrite <- (map_id body) at 2. apply map_ext_in. intros x Hx. rewrite Forall_forall in H. specialize (H x Hx). destruct x; try destruct H; reflexivity. Qed.
Lemma in_jumps_turn b n l t : ~ In n (jumps l) -> (In t (jumps (map (turn b n) l)) <-> (t = n /\ In b (jumps l)) \/ (t <> b /\ In t (jumps l))).
Proof.
  intros N. unfold jumps in *. rewrite in_flat_map. split.
  - intros [i [H1 H2]]. apply in_map_iff in H1. destruct H1 as [j [<- H1]]. destruct j as [u|u|k u|k|k|]; cbn [turn] in H2; try contradiction.
    all: destruct (Nat.eqb u b) eqn:E; destruct H2 as [<-|[]]; [left; split; [reflexivity|]; apply Nat.eqb_eq in E; subst u; apply in_flat_map; eexists; split; [exact H1|left; reflexivity]|].
    all: right; apply Nat.eqb_neq in E; split; [exact E|]; apply in_flat_map; eexists; split; [exact H1|left; reflexivity].
  - intros [[-> H]|[Nt H]]; apply in_flat_map in H; destruct H as [j [H1 H2]].
    + exists (turn b n j). split; [apply in_map; exact H1|]. destruct j as [u|u|k u|k|k|]; try contradiction; destruct H2 as [<-|[]]; cbn [turn]; rewrite Nat.eqb_refl; left; reflexivity.
    + exists (turn b n j). split; [apply in_map; exact H1|]. destruct j as [u|u|k u|k|k|]; try contradiction; destruct H2 as [<-|[]]; cbn [turn]; (destruct (Nat.eqb u b) eqn:E; [apply Nat.eqb_eq in E; congruence|left; reflexivity]).
Qed.

Section Edge.
  Variables (bs : list bb) (pb tb : bb) (n : nat).
  Let p := bname pb.
  Let b := bname tb.
  Hypothesis Gd : good bs.
  Hypothesis Hp : In pb bs.
  Hypothesis Hb : In tb bs.
  Hypothesis Hn : forall x, In x (map bname bs) -> (x < n)%nat.
  Hypothesis He : In b (bsuccs pb).
  Hypothesis Hl : (1 < length (bsuccs pb))%nat.

  Definition fresh : bb := mk_bb n [Label n; Bal b] [b] [p].
  Definition g (x : bb) : bb := mk_bb (bname x) (if Nat.eqb (bname x) p then map (turn b n) (bops x) else bops x)
    (if Nat.eqb (bname x) p then remove_first b (bsuccs x) ++ [n] else bsuccs x) (if Nat.eqb (bname x) b then remove_first p (bpreds x) ++ [n] else bpreds x).
  Definition bs' : list bb := map g bs ++ [fresh].

  Lemma NDs : NoDup (map bname bs). Proof. apply Gd. Qed.
  Lemma known x : In x bs -> bname x <> n.
  Proof. intros H E. assert (K : (bname x < n)%nat) by (apply Hn; apply in_map; exact H). lia. Qed.
  Lemma not_n x : In x bs -> ~ In n (bsuccs x) /\ ~ In n (bpreds x).
  Proof.
    intros H. destruct (proj2 (proj1 Gd) x H) as [_ [_ [_ [G4 [G5 _]]]]]. split; intros K.
    - apply G4, Hn in K. lia.
    - apply G5 in K. destruct K as [y [Y1 [Y2 _]]]. apply (known y Y1 Y2).
  Qed.
  Lemma p_pred : In p (bpreds tb).
  Proof. destruct (proj2 (proj1 Gd) tb Hb) as [_ [_ [_ [_ [G5 _]]]]]. apply G5. exists pb. auto. Qed.
  Lemma is_p x : In x bs -> bname x = p -> x = pb. Proof. intros H E. apply (name_inj bs); [exact NDs|exact H|exact Hp|exact E]. Qed.
  Lemma is_b x : In x bs -> bname x = b -> x = tb. Proof. intros H E. apply (name_inj bs); [exact NDs|exact H|exact Hb|exact E]. Qed.

  Lemma p_shape : exists body k t t2, bops pb = Label p :: body ++ [Branch k t2; Bal t] /\ Forall calm body /\ t2 <> t /\ In t (map bname bs) /\ In t2 (map bname bs).
  Proof.
    pose proof Gd as [[_ G] Sh]. rewrite Forall_forall in Sh. destruct (Sh pb Hp) as [body [tail [E [C T]]]]. destruct (G pb Hp) as [_ [G2 [G3 [G4 _]]]].
    assert (J : jumps (bops pb) = jumps tail) by (rewrite E; change (Label (bname pb) :: body ++ tail) with ([Label (bname pb)] ++ body ++ tail); rewrite !jumps_app, (proj2 (calm_none _ C)); reflexivity).
    assert (L : (length (bsuccs pb) <= length (jumps tail))%nat) by (apply NoDup_incl_length; [exact G3|]; intros t Ht; rewrite <- J; apply G2; exact Ht).
    destruct T as [[-> _]|[[t ->]|[k [t [t2 [-> N]]]]]]; cbn in L; try lia. exists body, k, t, t2. split; [exact E|]. split; [exact C|]. split; [exact N|].
    split; apply G4, G2; rewrite J; [right; left; reflexivity|left; reflexivity].
  Qed.
  Lemma p_retarget : retarget b n (bops pb) = Ok (map (turn b n) (bops pb)).
  Proof.
    destruct p_shape as [body [k [t [t2 [E [C [N _]]]]]]]. rewrite E. unfold retarget. change (Label p :: body ++ [Branch k t2; Bal t]) with ((Label p :: body) ++ [Branch k t2; Bal t]). rewrite rev_app_distr.
    cbn [rev app map]. rewrite map_app. cbn [map]. f_equal. rewrite rev_app_distr, rev_involutive. cbn [rev app]. rewrite turn_calm by exact C. change (turn b n (Label p)) with (Label p). rewrite <- !app_assoc. reflexivity.
  Qed.

  Lemma split_edge_ok : split_edge bs p b n = Ok bs'.
  Proof.
    unfold split_edge. set (h := fun x => mk_bb (bname x) (bops x) (if Nat.eqb (bname x) p then remove_first b (bsuccs x) ++ [n] else bsuccs x) (if Nat.eqb (bname x) b then remove_first p (bpreds x) ++ [n] else bpreds x)).
    assert (Np : Nat.eqb n p = false) by (apply Nat.eqb_neq; intros E; apply (known pb Hp); symmetry; exact E).
    assert (Nb : Nat.eqb n b = false) by (apply Nat.eqb_neq; intros E; apply (known tb Hb); symmetry; exact E).
    match goal with |- context [find_bb ?l p] => assert (E : l = map h bs ++ [fresh]) end.
    { unfold upd. rewrite !map_app. cbn [map bname]. rewrite Nb. cbn [bname]. rewrite Np. cbn [bname]. rewrite Np. cbn [bname]. rewrite Nb. f_equal. rewrite !map_map. apply map_ext_in. intros x Hx. unfold h.
      destruct (Nat.eqb (bname x) b) eqn:Eb, (Nat.eqb (bname x) p) eqn:Ep; do 5 (cbn [set_preds set_succs bname bops bsuccs bpreds]; rewrite ?Eb, ?Ep); cbn [set_preds set_succs bname bops bsuccs bpreds].
      4: symmetry; apply bb_eta.
      all: try (apply Nat.eqb_eq in Ep; rewrite (is_p x Hx Ep)); try (rewrite (remove_app b) by exact He).
      - apply Nat.eqb_eq in Eb. rewrite (is_p x Hx Ep) in Eb. assert (Etp : tb = pb) by (symmetry; apply is_b; assumption). rewrite remove_app; [reflexivity|]. rewrite <- Etp. apply p_pred.
      - apply Nat.eqb_eq in Eb. rewrite (is_b x Hx Eb). rewrite remove_app by exact p_pred. reflexivity.
      - reflexivity. }
    rewrite E. clear E.
    assert (Fp : find_bb (map h bs ++ [fresh]) p = Some (h pb)).
    { change p with (bname (h pb)). apply find_in; [|apply in_or_app; left; apply in_map; exact Hp]. rewrite map_app, map_map. cbn [map h bname fresh]. apply NoDup_app_intro; [exact NDs|repeat constructor; intros []|].
      intros x H1 [<-|[]]. apply Hn in H1. lia. }
    rewrite Fp. cbn [h bops]. rewrite p_retarget. cbn [bind]. f_equal. unfold upd, bs'. rewrite map_app. cbn [map fresh bname]. rewrite Np. f_equal. rewrite map_map. apply map_ext_in. intros x Hx. unfold g. cbn [h bname].
    destruct (Nat.eqb (bname x) p) eqn:Ep; [|unfold h; rewrite Ep; reflexivity]. unfold set_ops, h. cbn [bname bops bsuccs bpreds]. rewrite Ep. apply Nat.eqb_eq in Ep. rewrite (is_p x Hx Ep). reflexivity.
  Qed.

  Lemma in_bs' y : In y bs' <-> y = fresh \/ exists x, In x bs /\ y = g x.
  Proof.
    unfold bs'. rewrite in_app_iff, in_map_iff. split; [intros [[x [<- H]]|[<-|[]]]; [right; exists x; auto|left; reflexivity]|]. intros [->|[x [H ->]]]; [right; left; reflexivity|left; exists x; auto].
  Qed.
  Lemma names' : map bname bs' = map bname bs ++ [n].
  Proof. unfold bs'. rewrite map_app, map_map. reflexivity. Qed.
  Lemma nodup' : NoDup (map bname bs').
  Proof. rewrite names'. apply NoDup_app_intro; [exact NDs|repeat constructor; intros []|]. intros x H1 [<-|[]]. apply Hn in H1. lia. Qed.

  (** the lists of the new graph *)
  Lemma in_succs' x t : In x bs -> (In t (bsuccs (g x)) <-> (In t (bsuccs x) /\ ~ (x = pb /\ t = b)) \/ (x = pb /\ t = n)).
  Proof.
    intros Hx. destruct (proj2 (proj1 Gd) x Hx) as [_ [_ [G3 _]]]. cbn [g bsuccs]. destruct (Nat.eqb (bname x) p) eqn:E.
    - apply Nat.eqb_eq in E. rewrite (is_p x Hx E) in *. rewrite in_app_iff, in_remove by exact G3. cbn [In]. split; [intros [[H1 H2]|[<-|[]]]; [left; split; [exact H1|tauto]|right; auto]|]. intros [[H1 H2]|[_ ->]]; [left; split; [exact H1|]; intros ->; apply H2; auto|right; left; reflexivity].
    - apply Nat.eqb_neq in E. assert (x <> pb) by (intros ->; apply E; reflexivity). tauto.
  Qed.
  Lemma in_preds' x t : In x bs -> (In t (bpreds (g x)) <-> (In t (bpreds x) /\ ~ (x = tb /\ t = p)) \/ (x = tb /\ t = n)).
  Proof.
    intros Hx. destruct (proj2 (proj1 Gd) x Hx) as [_ [_ [_ [_ [_ G6]]]]]. cbn [g bpreds]. destruct (Nat.eqb (bname x) b) eqn:E.
    - apply Nat.eqb_eq in E. rewrite (is_b x Hx E) in *. rewrite in_app_iff, in_remove by exact G6. cbn [In]. split; [intros [[H1 H2]|[<-|[]]]; [left; split; [exact H1|tauto]|right; auto]|]. intros [[H1 H2]|[_ ->]]; [left; split; [exact H1|]; intros ->; apply H2; auto|right; left; reflexivity].
    - apply Nat.eqb_neq in E. assert (x <> tb) by (intros ->; apply E; reflexivity). tauto.
  Qed.
  Lemma len_succs' x : In x bs -> length (bsuccs (g x)) = length (bsuccs x).
  Proof.
    intros Hx. cbn [g bsuccs]. destruct (Nat.eqb (bname x) p) eqn:E; [|reflexivity]. apply Nat.eqb_eq in E. rewrite (is_p x Hx E). rewrite app_length, <- (remove_length b (bsuccs pb)) by exact He. cbn [length]. lia.
  Qed.
  Lemma len_preds' x : In x bs -> length (bpreds (g x)) = length (bpreds x).
  Proof.
    intros Hx. cbn [g bpreds]. destruct (Nat.eqb (bname x) b) eqn:E; [|reflexivity]. apply Nat.eqb_eq in E. rewrite (is_b x Hx E). rewrite app_length, <- (remove_length p (bpreds tb)) by exact p_pred. cbn [length]. lia.
  Qed.
  Lemma nodup_add m l : NoDup l -> ~ In n l -> NoDup (remove_first m l ++ [n]).
  Proof. intros H N. apply NoDup_app_intro; [apply remove_nodup; exact H|repeat constructor; intros []|]. intros x H1 [<-|[]]. apply in_remove in H1; [|exact H]. tauto. Qed.

  Lemma no_jump_n x : In x bs -> ~ In n (jumps (bops x)).
  Proof. intros Hx H. apply (proj2 (proj1 Gd) x Hx) in H. apply (proj1 (not_n x Hx)). exact H. Qed.
  Lemma shaped' y : In y bs' -> shaped y.
  Proof.
    intros Hy. apply in_bs' in Hy. destruct Hy as [->|[x [Hx ->]]].
    - exists [], [Bal b]. cbn. split; [reflexivity|]. split; [constructor|]. right. left. exists b. reflexivity.
    - pose proof Gd as [_ Sh]. rewrite Forall_forall in Sh. unfold g. destruct (Nat.eqb (bname x) p) eqn:E; [|exact (Sh x Hx)]. apply Nat.eqb_eq in E. rewrite (is_p x Hx E) in *.
      destruct p_shape as [body [k [t [t2 [Eo [C [N [T1 T2]]]]]]]]. exists body, [turn b n (Branch k t2); turn b n (Bal t)]. cbn [bops bname]. rewrite Eo. cbn [map]. rewrite map_app, turn_calm by exact C. split; [reflexivity|]. split; [exact C|].
      right. right. apply Hn in T1, T2. cbn [turn]. destruct (Nat.eqb t2 b) eqn:E2, (Nat.eqb t b) eqn:E1; try apply Nat.eqb_eq in E2; try apply Nat.eqb_eq in E1; eexists k, _, _; (split; [reflexivity|]); try lia.
  Qed.

  Lemma good' : good bs'.
  Proof.
    split; [|apply Forall_forall; exact shaped']. split; [exact nodup'|]. intros y Hy. split; [apply shaped_label; apply shaped'; exact Hy|]. pose proof Gd as [[_ G] _].
    assert (B : In b (map bname bs)) by (apply in_map; exact Hb). assert (Bn : b <> n) by (apply known; exact Hb).
    apply in_bs' in Hy. destruct Hy as [->|[x [Hx ->]]].
    - cbn [fresh bsuccs bpreds bname bops]. split; [intros t; reflexivity|]. split; [repeat constructor; intros []|]. split; [intros t [<-|[]]; rewrite names'; apply in_or_app; left; exact B|]. split; [|repeat constructor; intros []].
      intros q. split.
      + intros [<-|[]]. exists (g pb). split; [apply in_bs'; right; exists pb; auto|]. split; [reflexivity|]. apply (in_succs' pb n Hp). right. auto.
      + intros [y [Y1 [Y2 Y3]]]. apply in_bs' in Y1. destruct Y1 as [->|[z [Hz ->]]]; [destruct Y3 as [Y3|[]]; congruence|]. apply (in_succs' z n Hz) in Y3. destruct Y3 as [[Y3 _]|[-> _]]; [exfalso; apply (proj1 (not_n z Hz)); exact Y3|]. left. exact Y2.
    - destruct (G x Hx) as [_ [G2 [G3 [G4 [G5 G6]]]]]. split; [|split; [|split; [|split]]].
      + intros t. rewrite (in_succs' x t Hx). cbn [g bops]. destruct (Nat.eqb (bname x) p) eqn:E.
        * apply Nat.eqb_eq in E. rewrite (is_p x Hx E) in *. rewrite in_jumps_turn by (apply no_jump_n; exact Hp). rewrite G2. assert (J : In b (jumps (bops pb))) by (apply G2; exact He). intuition congruence.
        * apply Nat.eqb_neq in E. assert (x <> pb) by (intros ->; apply E; reflexivity). rewrite G2. tauto.
      + cbn [g bsuccs]. destruct (Nat.eqb (bname x) p); [|exact G3]. apply nodup_add; [exact G3|exact (proj1 (not_n x Hx))].
      + intros t Ht. rewrite names'. apply in_or_app. apply (in_succs' x t Hx) in Ht. destruct Ht as [[Ht _]|[_ ->]]; [left; apply G4; exact Ht|right; left; reflexivity].
      + intros q. rewrite (in_preds' x q Hx). rewrite G5. cbn [g bname]. split.
        * intros [[[y [Y1 [Y2 Y3]]] K]|[-> ->]].
          -- exists (g y). split; [apply in_bs'; right; exists y; auto|]. split; [exact Y2|]. apply (in_succs' y _ Y1). left. split; [exact Y3|]. intros [-> E]. apply K. split; [apply is_b; [exact Hx|exact E]|symmetry; exact Y2].
          -- exists fresh. split; [apply in_bs'; left; reflexivity|]. split; [reflexivity|left; reflexivity].
        * intros [y [Y1 [Y2 Y3]]]. apply in_bs' in Y1. destruct Y1 as [->|[z [Hz ->]]].
          -- destruct Y3 as [Y3|[]]. right. split; [apply is_b; [exact Hx|symmetry; exact Y3]|symmetry; exact Y2].
          -- apply (in_succs' z _ Hz) in Y3. destruct Y3 as [[Y3 K]|[_ Y3]]; [|exfalso; apply (known x Hx Y3)]. left. cbn [g bname] in Y2. split; [exists z; auto|]. intros [-> ->]. apply K. split; [apply is_p; assumption|reflexivity].
      + cbn [g bpreds]. destruct (Nat.eqb (bname x) b); [|exact G6]. apply nodup_add; [exact G6|exact (proj2 (not_n x Hx))].
  Qed.

  Lemma reachable' : all_reachable bs -> all_reachable bs'.
  Proof.
    intros A. assert (K : forall m, reachable bs m -> reachable bs' m).
    { induction 1 as [e l El|x m Hx Rx IH Hm].
      - change (bname e) with (bname (g e)). eapply reach_entry. unfold bs'. rewrite El. cbn [map app]. reflexivity.
      - destruct (Nat.eq_dec (bname x) p) as [Ex|Ex]; [destruct (Nat.eq_dec m b) as [->|Em]|].
        + assert (Rn : reachable bs' n).
          { rewrite (is_p x Hx Ex) in *. apply (reach_succ bs' (g pb)); [apply in_bs'; right; exists pb; auto|exact IH|]. apply (in_succs' pb n Hp). right. auto. }
          apply (reach_succ bs' fresh); [apply in_bs'; left; reflexivity|exact Rn|left; reflexivity].
        + apply (reach_succ bs' (g x)); [apply in_bs'; right; exists x; auto|exact IH|]. apply (in_succs' x m Hx). left. split; [exact Hm|tauto].
        + apply (reach_succ bs' (g x)); [apply in_bs'; right; exists x; auto|exact IH|]. apply (in_succs' x m Hx). left. split; [exact Hm|]. intros [-> _]. apply Ex. reflexivity. }
    intros y Hy. apply in_bs' in Hy. destruct Hy as [->|[x [Hx ->]]].
    - apply (reach_succ bs' (g pb)); [apply in_bs'; right; exists pb; auto|exact (K _ (A pb Hp))|]. apply (in_succs' pb n Hp). right. auto.
    - exact (K _ (A x Hx)).
  Qed.

  (** the same behaviour *)
  Inductive same : list instr -> list instr -> Prop :=
  | S_same r : ~ In n (jumps r) -> same r r
  | S_turn r : ~ In n (jumps r) -> same r (map (turn b n) r).
  Inductive relr : list instr -> list instr -> Prop :=
  | R_same r r' : same r r' -> relr r r'
  | R_new1 : relr (bops tb) [Label n; Bal b]
  | R_new2 : relr (bops tb) [Bal b].
  Lemma look' x : In x bs -> code_of bs (bname x) = Some (bops x) /\ exists c', code_of bs' (bname x) = Some c' /\ same (bops x) c'.
  Proof.
    intros Hx. split; [apply code_in; [exact NDs|exact Hx]|]. exists (bops (g x)). split; [change (bname x) with (bname (g x)); apply code_in; [exact nodup'|apply in_bs'; right; exists x; auto]|].
    cbn [g bops]. destruct (Nat.eqb (bname x) p); [apply S_turn|apply S_same]; apply no_jump_n; exact Hx.
  Qed.
  Lemma look_fwd t c : code_of bs t = Some c -> exists c', code_of bs' t = Some c' /\ same c c'.
  Proof. intros E. unfold code_of in E. destruct (find_bb bs t) as [x|] eqn:Ex; [|discriminate]. injection E as <-. apply find_some_in in Ex. destruct Ex as [X1 <-]. apply (look' x X1). Qed.
  Lemma look_bwd t c' : t <> n -> code_of bs' t = Some c' -> exists c, code_of bs t = Some c /\ same c c'.
  Proof.
    intros Nt E. unfold code_of in E. destruct (find_bb bs' t) as [y|] eqn:Ey; [|discriminate]. injection E as <-. apply find_some_in in Ey. destruct Ey as [Y1 <-]. apply in_bs' in Y1. destruct Y1 as [->|[x [Hx ->]]]; [exfalso; apply Nt; reflexivity|].
    destruct (look' x Hx) as [L1 [c [L2 L3]]]. exists (bops x). split; [exact L1|]. change (bname x) with (bname (g x)) in L2. rewrite (code_in bs' (g x)) in L2; [|exact nodup'|apply in_bs'; right; exists x; auto]. congruence.
  Qed.
  Lemma look_n : code_of bs' n = Some [Label n; Bal b].
  Proof. change n with (bname fresh) at 1. rewrite code_in; [reflexivity|exact nodup'|apply in_bs'; left; reflexivity]. Qed.
  Lemma look_b : code_of bs b = Some (bops tb). Proof. apply code_in; [exact NDs|exact Hb]. Qed.

  Lemma same_tail x r r' : same (x :: r) r' -> exists x' s', r' = x' :: s' /\ same r s' /\ (x' = x \/ x' = turn b n x) /\ ~ In n (jumps [x]).
  Proof.
    intros H. assert (N : forall q, ~ In n (jumps (x :: q)) -> ~ In n (jumps q) /\ ~ In n (jumps [x])).
    { intros q K. change (x :: q) with ([x] ++ q) in K. rewrite jumps_app in K. split; intros Z; apply K; apply in_or_app; [right|left]; exact Z. }
    inversion H as [q Nq E1 E2|q Nq E1 E2]; subst; destruct (N r Nq) as [N1 N2].
    - exists x, r. split; [reflexivity|]. split; [apply S_same; exact N1|]. auto.
    - exists (turn b n x), (map (turn b n) r). split; [reflexivity|]. split; [apply S_turn; exact N1|]. auto.
  Qed.
  (** a jump *)
  Lemma jump_fwd t t' c : (t' = t \/ (t = b /\ t' = n)) -> code_of bs t = Some c -> exists c', code_of bs' t' = Some c' /\ relr c c'.
  Proof.
    intros [->|[-> ->]] E.
    - destruct (look_fwd t c E) as [c' [E' S1]]. exists c'. split; [exact E'|apply R_same; exact S1].
    - rewrite look_b in E. injection E as <-. exists [Label n; Bal b]. split; [exact look_n|apply R_new1].
  Qed.
  Lemma jump_bwd t t' c' : t <> n -> (t' = t \/ (t = b /\ t' = n)) -> code_of bs' t' = Some c' -> exists c, code_of bs t = Some c /\ relr c c'.
  Proof.
    intros Nt [->|[-> ->]] E.
    - destruct (look_bwd t c' Nt E) as [c [E' S1]]. exists c. split; [exact E'|apply R_same; exact S1].
    - rewrite look_n in E. injection E as <-. exists (bops tb). split; [exact look_b|apply R_new1].
  Qed.
  Lemma turned x x' : x' = x \/ x' = turn b n x ->
    match x with
    | Bal t => exists t', x' = Bal t' /\ (t' = t \/ (t = b /\ t' = n))
    | Branch k t => exists t', x' = Branch k t' /\ (t' = t \/ (t = b /\ t' = n))
    | _ => x' = x
    end.
  Proof.
    intros [->| ->]; destruct x as [u|u|k u|k|k|]; try reflexivity; try (eexists; split; [reflexivity|left; reflexivity]); cbn [turn]; destruct (Nat.eqb u b) eqn:E; eexists; (split; [reflexivity|]); auto; right; apply Nat.eqb_eq in E; auto.
  Qed.
  Lemma same_fwd {W} (m : machine W) r1 r2 w r1' w' : same r1 r2 -> step m (code_of bs) r1 w = Some (r1', w') -> exists r2', step m (code_of bs') r2 w = Some (r2', w') /\ relr r1' r2'.
  Proof.
    intros S1 E. destruct r1 as [|x r]; [discriminate|]. destruct (same_tail x r r2 S1) as [x' [s' [-> [S2 [Hx N]]]]]. pose proof (turned x x' Hx) as T. destruct x as [u|u|k u|k|k|]; cbn [step] in E; try discriminate.
    - subst x'. injection E as <- <-. exists s'. split; [reflexivity|apply R_same; exact S2].
    - destruct T as [t' [-> T]]. destruct (code_of bs u) as [c|] eqn:Ec; [|discriminate]. injection E as <- <-. destruct (jump_fwd u t' c T Ec) as [c' [E' R]]. exists c'. cbn [step]. rewrite E'. split; [reflexivity|exact R].
    - destruct T as [t' [-> T]]. cbn [step]. destruct (taken m k w).
      + destruct (code_of bs u) as [c|] eqn:Ec; [|discriminate]. injection E as <- <-. destruct (jump_fwd u t' c T Ec) as [c' [E' R]]. exists c'. rewrite E'. split; [reflexivity|exact R].
      + injection E as <- <-. exists s'. split; [reflexivity|apply R_same; exact S2].
    - subst x'. injection E as <- <-. exists s'. split; [reflexivity|apply R_same; exact S2].
    - subst x'. injection E as <- <-. exists s'. split; [reflexivity|apply R_same; exact S2].
  Qed.
  Lemma same_bwd {W} (m : machine W) r1 r2 w r2' w' : same r1 r2 -> step m (code_of bs') r2 w = Some (r2', w') -> exists r1', step m (code_of bs) r1 w = Some (r1', w') /\ relr r1' r2'.
  Proof.
    intros S1 E. destruct r1 as [|x r]; [inversion S1; subst; discriminate|]. destruct (same_tail x r r2 S1) as [x' [s' [-> [S2 [Hx N]]]]]. pose proof (turned x x' Hx) as T. destruct x as [u|u|k u|k|k|]; try subst x'; cbn [step] in E; try discriminate.
    - injection E as <- <-. exists r. split; [reflexivity|apply R_same; exact S2].
    - destruct T as [t' [-> T]]. cbn [step] in E. destruct (code_of bs' t') as [c|] eqn:Ec; [|discriminate]. injection E as <- <-. destruct (jump_bwd u t' c) as [c' [E' R]]; [intros ->; apply N; left; reflexivity|exact T|exact Ec|]. exists c'. cbn [step]. rewrite E'. split; [reflexivity|exact R].
    - destruct T as [t' [-> T]]. cbn [step] in *. destruct (taken m k w).
      + destruct (code_of bs' t') as [c|] eqn:Ec; [|discriminate]. injection E as <- <-. destruct (jump_bwd u t' c) as [c' [E' R]]; [intros ->; apply N; left; reflexivity|exact T|exact Ec|]. exists c'. rewrite E'. split; [reflexivity|exact R].
      + injection E as <- <-. exists r. split; [reflexivity|apply R_same; exact S2].
    - injection E as <- <-. exists r. split; [reflexivity|apply R_same; exact S2].
    - injection E as <- <-. exists r. split; [reflexivity|apply R_same; exact S2].
  Qed.
  Lemma same_end r1 r2 : same r1 r2 -> (forall s, r1 = End :: s -> exists s', r2 = End :: s') /\ (forall s, r2 = End :: s -> exists s', r1 = End :: s').
  Proof.
    intros [r N|r N]; split; intros s E; subst; try (eexists; reflexivity). destruct r as [|[u|u|k u|k|k|] r]; cbn [map turn] in E; try discriminate; try (destruct (Nat.eqb u b); discriminate). eexists. reflexivity.
  Qed.
  Lemma tb_label : exists o, bops tb = Label b :: o.
  Proof. destruct (proj2 (proj1 Gd) tb Hb) as [[r [E _]] _]. exists r. exact E. Qed.

  Lemma edge_equivalent x : In x bs -> equivalent (code_of bs) (bops x) (code_of bs') (bops (g x)).
  Proof.
    intros Hx. destruct (look' tb Hb) as [_ [cb [Lb Sb]]]. fold b in Lb. apply (equivalent_sim _ _ relr).
    - intros W m r1 r2 w R. destruct R as [r1 r2 S1| |].
      + split.
        * intros r' w' E. destruct (same_fwd m r1 r2 w r' w' S1 E) as [r2' [E2 R]]. exists 1%nat, r2'. cbn [steps]. rewrite E2. split; [reflexivity|exact R].
        * intros r' E. destruct (proj1 (same_end r1 r2 S1) r' E) as [s' ->]. exists O, s'. reflexivity.
      + split; [|intros r' E; destruct tb_label as [o Eo]; congruence]. intros r' w' E. destruct (same_fwd m (bops tb) cb w r' w' Sb E) as [r2' [E2 R]]. exists 3%nat, r2'. cbn [steps step]. rewrite Lb. cbn [option_map]. rewrite E2. split; [reflexivity|exact R].
      + split; [|intros r' E; destruct tb_label as [o Eo]; congruence]. intros r' w' E. destruct (same_fwd m (bops tb) cb w r' w' Sb E) as [r2' [E2 R]]. exists 2%nat, r2'. cbn [steps step]. rewrite Lb. cbn [option_map]. rewrite E2. split; [reflexivity|exact R].
    - intros W m r2 r1 w R. destruct R as [r1 r2 S1| |].
      + split.
        * intros r' w' E. destruct (same_bwd m r1 r2 w r' w' S1 E) as [r2' [E2 R]]. exists 1%nat, r2'. cbn [steps]. rewrite E2. split; [reflexivity|exact R].
        * intros r' E. destruct (proj2 (same_end r1 r2 S1) r' E) as [s' ->]. exists O, s'. reflexivity.
      + split; [|discriminate]. intros r' w' E. cbn [step] in E. injection E as <- <-. exists O, (bops tb). split; [reflexivity|apply R_new2].
      + split; [|discriminate]. intros r' w' E. cbn [step] in E. rewrite Lb in E. injection E as <- <-. exists O, (bops tb). split; [reflexivity|apply R_same; exact Sb].
    - apply R_same. destruct (look' x Hx) as [_ [c [L1 L2]]]. change (bname x) with (bname (g x)) in L1. rewrite (code_in bs' (g x)) in L1; [|exact nodup'|apply in_bs'; right; exists x; auto]. injection L1 as <-. exact L2.
  Qed.

  Lemma edge_keeps fe : all_reachable bs -> keeps fe bs bs'.
  Proof.
    intros A. split; [exact good'|]. split; [exact (reachable' A)|]. split; [|split; [|split]].
    - intros e l E. exists (g e), (map g l ++ [fresh]). split; [unfold bs'; rewrite E; reflexivity|]. split; [reflexivity|]. apply edge_equivalent. rewrite E. left. reflexivity.
    - intros i Hi Nb Nl. apply in_flat_map in Hi. destruct Hi as [y [Y1 Y2]]. apply in_bs' in Y1. destruct Y1 as [->|[x [Hx ->]]]; [destruct Y2 as [<-|[<-|[]]]; discriminate|]. apply in_flat_map. exists x. split; [exact Hx|].
      cbn [g bops] in Y2. destruct (Nat.eqb (bname x) p); [|exact Y2]. apply in_map_iff in Y2. destruct Y2 as [j [<- Hj]]. destruct j as [u|u|k u|k|k|]; try exact Hj; cbn [turn] in Nb; destruct (Nat.eqb u b); discriminate.
    - intros En y Hy HE. apply in_bs' in Hy. destruct Hy as [->|[x [Hx ->]]]; [destruct HE as [HE|[HE|[]]]; discriminate|]. cbn [g bops bname] in *. destruct (Nat.eqb (bname x) p); [|apply (En x Hx HE)].
      apply in_map_iff in HE. destruct HE as [j [Ej Hj]]. assert (Ke : forall j, turn b n j = End -> j = End) by (intros j0 Ej0; destruct j0 as [u|u|k u|k|k|]; try discriminate Ej0; try reflexivity; cbn [turn] in Ej0; destruct (Nat.eqb u b); discriminate). apply Ke in Ej. subst j.
      destruct (En x Hx Hj) as [E1 [c [Ec Nc]]]. split; [exact E1|]. exists (map (turn b n) c). split; [rewrite Ec, map_app; reflexivity|]. intros Hi. apply in_map_iff in Hi. destruct Hi as [i [Ei Hi]]. apply Ke in Ei. subst i. contradiction.
    - intros e l e' l' El Pe En. unfold bs' in En. rewrite El in En. cbn [map app] in En. injection En as <- _. cbn [g bpreds]. destruct (Nat.eqb (bname e) b) eqn:E; [|exact Pe]. exfalso. apply Nat.eqb_eq in E.
      assert (Ee : e = tb) by (apply is_b; [rewrite El; left; reflexivity|exact E]). pose proof p_pred as K. rewrite <- Ee, Pe in K. destruct K.
  Qed.

  Lemma edge_counts : map (fun x => length (bpreds x)) bs' = map (fun x => length (bpreds x)) bs ++ [1%nat].
  Proof. unfold bs'. rewrite map_app, map_map. cbn [map fresh bpreds length]. f_equal. apply map_ext_in. exact len_preds'. Qed.

  (** critical edges *)
  Lemma lists' x : In x bs -> preds_of bs' (bname x) = bpreds (g x) /\ succs_of bs' (bname x) = bsuccs (g x).
  Proof. intros Hx. change (bname x) with (bname (g x)). split; [apply preds_in|apply succs_in]; try exact nodup'; apply in_bs'; right; exists x; auto. Qed.
End Edge.
