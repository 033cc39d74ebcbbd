From Coq Require Import Permutation.
From Verif Require Import Base Sched_model Sched_spec.
Local Open Scope nat_scope.

(** * Commuting instructions *)
Lemma place_eqb_true : forall a b, place_eqb a b = true <-> a = b.
Proof. intros [x|x|] [y|y|]; cbn; try rewrite Nat.eqb_eq; split; congruence. Qed.
Lemma isin_In : forall p l, isin p l = true <-> In p l.
Proof.
  intros p l. unfold isin. rewrite existsb_exists. split.
  - intros (q & Hq & E). apply place_eqb_true in E. subst. exact Hq.
  - intros H. exists p. split; [exact H|]. apply place_eqb_true. reflexivity.
Qed.
Lemma isin_not : forall p l, isin p l = false <-> ~ In p l.
Proof. intros p l. rewrite <- isin_In. destruct (isin p l); split; congruence. Qed.

(** Two instructions that may not change places. *)
Definition clash (a b : op) : Prop :=
  exists p, (In p (writes a) /\ In p (reads b ++ writes b)) \/ (In p (writes b) /\ In p (reads a ++ writes a)).

Section run.
  Context {V : Type} (W : world V).
  Hypothesis HW : proper W.

  Lemma exec_same : forall o s t, same s t -> same (exec W o s) (exec W o t).
  Proof.
    intros o s t H. unfold exec. destruct (stays o); [apply HW; exact H|]. intros p.
    destruct (isin p (writes o)); [|apply H]. f_equal. apply map_ext. exact H.
  Qed.
  Lemma run_same : forall l s t, same s t -> same (run W l s) (run W l t).
  Proof. induction l as [|o l IH]; intros s t H; cbn [run]; [exact H|]. apply IH, exec_same, H. Qed.
  Lemma run_app : forall a b s, run W (a ++ b) s = run W b (run W a s).
  Proof. induction a as [|o a IH]; intros b s; cbn [run app]; [reflexivity|apply IH]. Qed.
  Lemma same_trans : forall (s t u : place -> V), same s t -> same t u -> same s u.
  Proof. intros s t u H1 H2 p. rewrite H1. apply H2. Qed.
  Lemma same_sym : forall (s t : place -> V), same s t -> same t s.
  Proof. intros s t H p. symmetry. apply H. Qed.

  Lemma exec_swap : forall a b s, stays a = false -> stays b = false -> ~ clash a b ->
    same (exec W b (exec W a s)) (exec W a (exec W b s)).
  Proof.
    intros a b s Ha Hb Hc p. unfold exec. rewrite Ha, Hb.
    assert (Ra : map (fun p => if isin p (writes b) then w_sem W b (map s (reads b)) p else s p) (reads a) = map s (reads a)).
    { apply map_ext_in. intros q Hq. destruct (isin q (writes b)) eqn:E; [|reflexivity].
      apply isin_In in E. exfalso. apply Hc. exists q. right. split; [exact E|]. apply in_app_iff. left. exact Hq. }
    assert (Rb : map (fun p => if isin p (writes a) then w_sem W a (map s (reads a)) p else s p) (reads b) = map s (reads b)).
    { apply map_ext_in. intros q Hq. destruct (isin q (writes a)) eqn:E; [|reflexivity].
      apply isin_In in E. exfalso. apply Hc. exists q. left. split; [exact E|]. apply in_app_iff. left. exact Hq. }
    rewrite Ra, Rb. destruct (isin p (writes a)) eqn:Ea, (isin p (writes b)) eqn:Eb; try reflexivity.
    exfalso. apply isin_In in Ea, Eb. apply Hc. exists p. left. split; [exact Ea|]. apply in_app_iff. right. exact Eb.
  Qed.
  Lemma run_front : forall p h s, stays h = false -> (forall a, In a p -> stays a = false /\ ~ clash a h) ->
    same (run W (p ++ [h]) s) (run W (h :: p) s).
  Proof.
    induction p as [|a p IH]; intros h s Hh H; [intros q; reflexivity|].
    cbn [app run]. destruct (H a (or_introl eq_refl)) as (Ha & Hc).
    eapply same_trans; [apply IH; [exact Hh|intros b Hb; apply H; right; exact Hb]|].
    cbn [run]. apply run_same. apply exec_swap; assumption.
  Qed.
End run.

Definition before {A} (l : list A) (a b : A) : Prop := exists l1 l2, l = l1 ++ l2 /\ In a l1 /\ In b l2.

Section reorder.
  Context {V : Type} (W : world V) (HW : proper W) (f : nat -> op).

  Lemma before_cons : forall (l : list nat) h a b, before l a b -> before (h :: l) a b.
  Proof. intros l h a b (l1 & l2 & -> & Ha & Hb). exists (h :: l1), l2. split; [reflexivity|]. split; [right; exact Ha|exact Hb]. Qed.
  Lemma before_uncons : forall (l : list nat) h a b, before (h :: l) a b -> a <> h -> before l a b.
  Proof.
    intros l h a b (l1 & l2 & E & Ha & Hb) Hn. destruct l1 as [|x l1]; [destruct Ha|].
    cbn [app] in E. injection E as <- ->. exists l1, l2. split; [reflexivity|]. split; [|exact Hb].
    destruct Ha as [->|Ha]; [congruence|exact Ha].
  Qed.
  Lemma before_skip : forall (p q : list nat) h a b, before (p ++ q) a b -> before (p ++ h :: q) a b.
  Proof.
    induction p as [|x p IH]; intros q h a b H; [apply before_cons; exact H|].
    cbn [app] in *. destruct (Nat.eq_dec a x) as [->|Hn].
    - destruct H as (l1 & l2 & E & Ha & Hb). exists [x], (p ++ h :: q). split; [reflexivity|]. split; [left; reflexivity|].
      destruct l1 as [|y l1]; [destruct Ha|]. cbn [app] in E. injection E as <- E.
      assert (X : In b (p ++ q)) by (rewrite E; apply in_app_iff; right; exact Hb).
      apply in_app_iff in X. apply in_app_iff. destruct X; [left|right; right]; assumption.
    - apply before_cons. apply IH. eapply before_uncons; eassumption.
  Qed.

  Lemma reorder : forall out orig s, NoDup orig -> Permutation orig out ->
    (forall a, In a orig -> stays (f a) = false) ->
    (forall a b, before orig a b -> clash (f a) (f b) -> before out a b) ->
    same (run W (map f out) s) (run W (map f orig) s).
  Proof.
    induction out as [|h t IH]; intros orig s Hnd Hp Hf Hb.
    - apply Permutation_sym, Permutation_nil in Hp. subst. intros p. reflexivity.
    - assert (Hin : In h orig) by (eapply Permutation_in; [apply Permutation_sym; exact Hp|left; reflexivity]).
      apply in_split in Hin. destruct Hin as (p & q & ->).
      assert (Hp' : Permutation (p ++ q) t) by (apply Permutation_sym, Permutation_cons_app_inv with h, Permutation_sym; exact Hp).
      assert (Hnd' : NoDup (p ++ q) /\ ~ In h (p ++ q)) by (split; [eapply NoDup_remove_1; exact Hnd|apply NoDup_remove_2; exact Hnd]).
      destruct Hnd' as (Hnd' & Hh).
      assert (Ht : ~ In h t) by (intros X; apply Hh; eapply Permutation_in; [apply Permutation_sym; exact Hp'|exact X]).
      replace (p ++ h :: q) with ((p ++ [h]) ++ q) by (rewrite <- app_assoc; reflexivity).
      rewrite map_app, run_app.
      assert (X : same (run W (map f (p ++ [h])) s) (run W (f h :: map f p) s)).
      { rewrite map_app. cbn [map]. apply run_front; [exact HW|apply Hf; apply in_app_iff; right; left; reflexivity|].
        intros a Ha. apply in_map_iff in Ha. destruct Ha as (i & <- & Hi). split; [apply Hf; apply in_app_iff; left; exact Hi|].
        intros Hc. assert (B : before (h :: t) i h).
        { apply Hb; [|exact Hc]. exists p, (h :: q). split; [reflexivity|]. split; [exact Hi|left; reflexivity]. }
        destruct B as (l1 & l2 & E & B1 & B2). destruct l1 as [|y l1]; [destruct B1|]. cbn [app] in E. injection E as <- ->.
        apply Ht. apply in_app_iff. right. exact B2. }
      eapply same_trans; [|apply run_same; [exact HW|apply same_sym; exact X]].
      cbn [map run]. rewrite <- run_app, <- map_app. apply IH; [exact Hnd'|exact Hp'| |].
      + intros a Ha. apply Hf. apply in_app_iff in Ha. apply in_app_iff. destruct Ha; [left|right; right]; assumption.
      + intros a b B Hc. eapply before_uncons; [apply Hb; [apply before_skip; exact B|exact Hc]|].
        destruct B as (l1 & l2 & E & B1 & _). intros ->. apply Hh. rewrite E. apply in_app_iff. left. exact B1.
  Qed.
End reorder.

(** * The list scheduler *)
Section execute.
  Variables (n : nat) (es : edges) (info : nat -> node).
  Hypothesis Hes : forall a b, In (a, b) es -> a < b < n.
  Hypothesis Hnd : NoDup es.

  Definition left_preds (done : list nat) (i : nat) : nat :=
    length (filter (fun a => negb (existsb (Nat.eqb a) done)) (preds es i)).

  Lemma existsb_eqb_In : forall x l, existsb (Nat.eqb x) l = true <-> In x l.
  Proof.
    intros x l. rewrite existsb_exists. split.
    - intros (y & Hy & E). apply Nat.eqb_eq in E. subst. exact Hy.
    - intros H. exists x. split; [exact H|apply Nat.eqb_refl].
  Qed.
  Lemma in_preds : forall a i, In a (preds es i) <-> In (a, i) es.
  Proof.
    intros a i. unfold preds. rewrite in_map_iff. split.
    - intros ((x & y) & E & H). apply filter_In in H. destruct H as (H & Q). cbn in *. apply Nat.eqb_eq in Q. subst. exact H.
    - intros H. exists (a, i). split; [reflexivity|]. apply filter_In. split; [exact H|]. cbn. apply Nat.eqb_refl.
  Qed.
  Lemma in_succs : forall a i, In i (succs es a) <-> In (a, i) es.
  Proof.
    intros a i. unfold succs. rewrite in_map_iff. split.
    - intros ((x & y) & E & H). apply filter_In in H. destruct H as (H & Q). cbn in *. apply Nat.eqb_eq in Q. subst. exact H.
    - intros H. exists (a, i). split; [reflexivity|]. apply filter_In. split; [exact H|]. cbn. apply Nat.eqb_refl.
  Qed.
  Lemma NoDup_map_inj : forall {A B} (f : A -> B) l, (forall x y, In x l -> In y l -> f x = f y -> x = y) -> NoDup l -> NoDup (map f l).
  Proof.
    intros A B f l. induction l as [|x l IH]; intros Hi H; [constructor|]. inversion H; subst. cbn [map]. constructor.
    - intros X. apply in_map_iff in X. destruct X as (y & E & Hy).
      assert (y = x) by (apply Hi; [right; exact Hy|left; reflexivity|exact E]). subst. contradiction.
    - apply IH; [|assumption]. intros a b Ha Hb. apply Hi; right; assumption.
  Qed.
  Lemma NoDup_succs : forall i, NoDup (succs es i).
  Proof.
    intros i. apply NoDup_map_inj; [|apply NoDup_filter; exact Hnd].
    intros (a & b) (c & d) Ha Hc E. apply filter_In in Ha, Hc. cbn in *. destruct Ha as (_ & Ha), Hc as (_ & Hc).
    apply Nat.eqb_eq in Ha, Hc. congruence.
  Qed.
  Lemma NoDup_preds : forall i, NoDup (preds es i).
  Proof.
    intros i. apply NoDup_map_inj; [|apply NoDup_filter; exact Hnd].
    intros (a & b) (c & d) Ha Hc E. apply filter_In in Ha, Hc. cbn in *. destruct Ha as (_ & Ha), Hc as (_ & Hc).
    apply Nat.eqb_eq in Ha, Hc. congruence.
  Qed.

  Lemma best_in : forall l b, In (best info b l) (b :: l).
  Proof.
    induction l as [|x l IH]; intros b; [left; reflexivity|]. cbn [best].
    destruct (IH (if less (info x) (info b) then x else b)) as [E|E].
    - rewrite <- E. destruct (less _ _); [right; left|left]; reflexivity.
    - right. right. exact E.
  Qed.
  Lemma remove_first_perm : forall x l, In x l -> Permutation l (x :: remove_first x l).
  Proof.
    intros x l. induction l as [|y l IH]; intros H; [destruct H|]. cbn [remove_first].
    destruct (Nat.eqb y x) eqn:E; [apply Nat.eqb_eq in E; subst; apply Permutation_refl|].
    destruct H as [->|H]; [rewrite Nat.eqb_refl in E; discriminate|].
    eapply perm_trans; [apply perm_skip, IH, H|]. apply perm_swap.
  Qed.

  Lemma filter_one : forall (p q : nat -> bool) b l, NoDup l -> In b l -> p b = true -> q b = false ->
    (forall x, x <> b -> q x = p x) -> length (filter p l) = S (length (filter q l)).
  Proof.
    intros p q b l. induction l as [|x l IH]; intros Hl Hb Hp Hq H; [destruct Hb|].
    inversion Hl; subst. cbn [filter]. destruct (Nat.eq_dec x b) as [->|N].
    - rewrite Hp, Hq. cbn [length]. f_equal. f_equal. apply filter_ext_in. intros y Hy. symmetry. apply H. intros ->. contradiction.
    - destruct Hb as [->|Hb]; [congruence|]. rewrite H by exact N. destruct (p x); cbn [length]; [f_equal|]; apply IH; assumption.
  Qed.

  (** Numbers of predecessors left, and the ready list, after [b] has been taken. *)
  Lemma release_ok : forall done ss cnt ready cnt' ready', release done ss cnt ready = (cnt', ready') ->
    NoDup ss -> (forall s, In s ss -> 0 < cnt s) -> (forall s, In s ss -> ~ In s done) ->
    (forall i, cnt' i = if existsb (Nat.eqb i) ss then pred (cnt i) else cnt i) /\
    ready' = ready ++ filter (fun i => Nat.eqb (pred (cnt i)) 0) ss.
  Proof.
    intros done ss. induction ss as [|s ss IH]; intros cnt ready cnt' ready' E Hn Hc Hd; cbn [release] in E.
    - injection E as <- <-. split; [intros; reflexivity|]. rewrite app_nil_r. reflexivity.
    - inversion Hn as [|? ? Hs Hn']; subst.
      assert (Hds : existsb (Nat.eqb s) done = false).
      { destruct (existsb (Nat.eqb s) done) eqn:Q; [|reflexivity]. apply existsb_eqb_In in Q. exfalso. exact (Hd s (or_introl eq_refl) Q). }
      apply IH in E; [|exact Hn'| |].
      + destruct E as (E1 & E2). split.
        * intros i. rewrite E1. cbn [existsb]. destruct (Nat.eqb i s) eqn:Q; cbn [orb]; [|reflexivity].
          apply Nat.eqb_eq in Q. subst i. destruct (existsb (Nat.eqb s) ss) eqn:Q2; [|reflexivity].
          apply existsb_eqb_In in Q2. contradiction.
        * rewrite E2, Hds. cbn [negb filter]. rewrite andb_true_r.
          assert (X : filter (fun i => Nat.eqb (pred (if Nat.eqb i s then pred (cnt s) else cnt i)) 0) ss
                      = filter (fun i => Nat.eqb (pred (cnt i)) 0) ss).
          { apply filter_ext_in. intros i Hi. destruct (Nat.eqb i s) eqn:Q; [|reflexivity]. apply Nat.eqb_eq in Q. subst. contradiction. }
          rewrite X. destruct (Nat.eqb (pred (cnt s)) 0); [rewrite <- app_assoc|]; reflexivity.
      + intros i Hi. cbn beta. destruct (Nat.eqb i s) eqn:Q; [apply Nat.eqb_eq in Q; subst; contradiction|]. apply Hc. right. exact Hi.
      + intros i Hi. apply Hd. right. exact Hi.
  Qed.

  Definition closed (out : list nat) : Prop := forall l1 b l2, out = l1 ++ b :: l2 -> forall a, In (a, b) es -> In a l1.

  Record inv (cnt : nat -> nat) (ready done : list nat) : Prop := mk_inv {
    i_cnt : forall i, cnt i = left_preds done i;
    i_nd : NoDup (ready ++ done);
    i_lt : forall i, In i (ready ++ done) -> i < n;
    i_ready : forall i, i < n -> ~ In i done -> (In i ready <-> left_preds done i = 0);
    i_closed : closed (rev done) }.

  Lemma left_zero : forall done i, left_preds done i = 0 <-> (forall a, In (a, i) es -> In a done).
  Proof.
    intros done i. unfold left_preds. split.
    - intros H a Ha. apply in_preds in Ha. destruct (existsb (Nat.eqb a) done) eqn:E; [apply existsb_eqb_In; exact E|].
      exfalso. assert (X : In a (filter (fun a => negb (existsb (Nat.eqb a) done)) (preds es i))) by (apply filter_In; rewrite E; auto).
      destruct (filter _ _); [destruct X|discriminate H].
    - intros H. destruct (filter (fun a => negb (existsb (Nat.eqb a) done)) (preds es i)) as [|a l] eqn:E; [reflexivity|exfalso].
      assert (X : In a (filter (fun a => negb (existsb (Nat.eqb a) done)) (preds es i))) by (rewrite E; left; reflexivity).
      apply filter_In in X. destruct X as (X & Y). apply in_preds, H, existsb_eqb_In in X. rewrite X in Y. discriminate.
  Qed.

  Lemma inv_step : forall cnt r ready done cnt' ready2, inv cnt (r :: ready) done ->
    let b := best info r ready in
    release (b :: done) (succs es b) cnt (remove_first b (r :: ready)) = (cnt', ready2) ->
    inv cnt' ready2 (b :: done).
  Proof.
    intros cnt r ready done cnt' ready2 I b E.
    assert (Hb : In b (r :: ready)) by apply best_in.
    pose proof (remove_first_perm b (r :: ready) Hb) as Hperm. set (rest := remove_first b (r :: ready)) in *.
    assert (Hnd1 : NoDup (b :: rest ++ done)).
    { eapply Permutation_NoDup; [|exact (i_nd _ _ _ I)]. change (b :: rest ++ done) with ((b :: rest) ++ done). apply Permutation_app_tail. exact Hperm. }
    inversion Hnd1 as [|? ? Hb1 Hnd2]; subst.
    assert (Hbd : ~ In b done) by (intros X; apply Hb1; apply in_app_iff; right; exact X).
    assert (Hbn : b < n) by (apply (i_lt _ _ _ I); apply in_app_iff; left; exact Hb).
    assert (Hb0 : left_preds done b = 0) by (apply (i_ready _ _ _ I); assumption).
    assert (Hsd : forall s, In s (succs es b) -> ~ In s (b :: done)).
    { intros s Hs. apply in_succs in Hs. intros [->|X]; [apply Hes in Hs; lia|].
      apply in_rev in X. apply in_split in X. destruct X as (l1 & l2 & X).
      pose proof (i_closed _ _ _ I l1 s l2 X b Hs) as Y. apply Hbd. apply in_rev. rewrite X. apply in_app_iff. left. exact Y. }
    assert (Hcp : forall s, In s (succs es b) -> left_preds done s = S (left_preds (b :: done) s)).
    { intros s Hs. apply filter_one with b; [apply NoDup_preds|apply in_preds, in_succs, Hs| | |].
      - destruct (existsb (Nat.eqb b) done) eqn:Q; [|reflexivity]. apply existsb_eqb_In in Q. contradiction.
      - cbn [existsb]. rewrite Nat.eqb_refl. reflexivity.
      - intros x Hx. cbn [existsb]. destruct (Nat.eqb x b) eqn:Q; [apply Nat.eqb_eq in Q; contradiction|reflexivity]. }
    assert (Hco : forall s, ~ In s (succs es b) -> left_preds (b :: done) s = left_preds done s).
    { intros s Hs. unfold left_preds. f_equal. apply filter_ext_in. intros x Hx. cbn [existsb].
      destruct (Nat.eqb x b) eqn:Q; [|reflexivity]. apply Nat.eqb_eq in Q. subst x. apply in_preds, in_succs in Hx. contradiction. }
    apply release_ok in E; [|apply NoDup_succs| |exact Hsd].
    2:{ intros s Hs. rewrite (i_cnt _ _ _ I), Hcp by exact Hs. lia. }
    destruct E as (E1 & ->).
    assert (Hrdy : forall i, In i (filter (fun i => Nat.eqb (pred (cnt i)) 0) (succs es b)) <-> In i (succs es b) /\ left_preds (b :: done) i = 0).
    { intros i. rewrite filter_In, Nat.eqb_eq. split; intros (A & B); (split; [exact A|]); rewrite (i_cnt _ _ _ I), Hcp in * by exact A; exact B. }
    assert (Hrest : forall i, i < n -> ~ In i (b :: done) -> (In i rest <-> left_preds done i = 0)).
    { intros i Hi Hd. rewrite <- (i_ready _ _ _ I i Hi) by (intros X; apply Hd; right; exact X).
      split; intros X; [eapply Permutation_in; [apply Permutation_sym; exact Hperm|right; exact X]|].
      apply (Permutation_in _ Hperm) in X. destruct X as [->|X]; [exfalso; apply Hd; left; reflexivity|exact X]. }
    assert (Hsn : forall s, In s (succs es b) -> s < n) by (intros s Hs; apply in_succs, Hes in Hs; lia).
    split.
    - intros i. rewrite E1, (i_cnt _ _ _ I). destruct (existsb (Nat.eqb i) (succs es b)) eqn:Q.
      + apply existsb_eqb_In in Q. rewrite Hcp by exact Q. reflexivity.
      + symmetry. apply Hco. intros X. apply existsb_eqb_In in X. congruence.
    - rewrite <- app_assoc. apply NoDup_Add with b (rest ++ (filter (fun i => Nat.eqb (pred (cnt i)) 0) (succs es b)) ++ done).
      { rewrite !app_assoc. apply Add_app. }
      split.
      + apply Permutation_NoDup with (filter (fun i => Nat.eqb (pred (cnt i)) 0) (succs es b) ++ (rest ++ done)).
        { rewrite !app_assoc. apply Permutation_app_tail. apply Permutation_app_comm. }
        assert (Hf : forall i, In i (filter (fun i => Nat.eqb (pred (cnt i)) 0) (succs es b)) -> ~ In i (rest ++ done)).
        { intros i Hi X. apply Hrdy in Hi. destruct Hi as (Hs & _). apply in_app_iff in X. destruct X as [X|X].
          - apply Hrest in X; [rewrite Hcp in X by exact Hs; discriminate|apply Hsn; exact Hs|apply Hsd; exact Hs].
          - apply (Hsd _ Hs). right. exact X. }
        assert (Hn2 : NoDup (filter (fun i => Nat.eqb (pred (cnt i)) 0) (succs es b))) by (apply NoDup_filter, NoDup_succs).
        revert Hf Hn2. generalize (filter (fun i => Nat.eqb (pred (cnt i)) 0) (succs es b)) as l. clear - Hnd2.
        induction l as [|x l IH]; intros Hf Hn; [exact Hnd2|]. inversion Hn; subst. cbn [app]. constructor.
        * intros X. apply in_app_iff in X. destruct X as [X|X]; [contradiction|]. apply (Hf x); [left; reflexivity|exact X].
        * apply IH; [|assumption]. intros i Hi. apply Hf. right. exact Hi.
      + intros X. rewrite app_assoc in X. rewrite !in_app_iff in X. destruct X as [[X|X]|X].
        * apply Hb1. apply in_app_iff. left. exact X.
        * apply Hrdy in X. destruct X as (X & _). apply (Hsd _ X). left. reflexivity.
        * contradiction.
    - intros i Hi. rewrite !in_app_iff in Hi. destruct Hi as [[Hi|Hi]|[<-|Hi]]; [| |exact Hbn|].
      + apply (i_lt _ _ _ I). apply in_app_iff. left. eapply Permutation_in; [apply Permutation_sym; exact Hperm|right; exact Hi].
      + apply Hrdy in Hi. apply Hsn. exact (proj1 Hi).
      + apply (i_lt _ _ _ I). apply in_app_iff. right. exact Hi.
    - intros i Hi Hd. rewrite in_app_iff, Hrdy, (Hrest i Hi Hd).
      destruct (existsb (Nat.eqb i) (succs es b)) eqn:Q.
      + apply existsb_eqb_In in Q. rewrite (Hcp _ Q). split; [intros [X|X]; [discriminate|exact (proj2 X)]|auto].
      + assert (Q' : ~ In i (succs es b)) by (intros X; apply existsb_eqb_In in X; congruence).
        rewrite (Hco _ Q'). split; [intros [X|X]; [exact X|destruct X; contradiction]|auto].
    - cbn [rev]. intros l1 x l2 E a Ha. destruct (rev l2) as [|y l3] eqn:R.
      + apply (f_equal (@rev nat)) in R. rewrite rev_involutive in R. cbn [rev] in R. subst l2.
        apply app_inj_tail in E. destruct E as (<- & <-). rewrite left_zero in Hb0. apply in_rev. rewrite rev_involutive. apply Hb0. exact Ha.
      + apply (f_equal (@rev nat)) in R. rewrite rev_involutive in R. cbn [rev] in R. subst l2.
        change (x :: rev l3 ++ [y]) with ((x :: rev l3) ++ [y]) in E. rewrite app_assoc in E. apply app_inj_tail in E.
        destruct E as (E & <-). exact (i_closed _ _ _ I l1 x (rev l3) E a Ha).
  Qed.

  Lemma inv_end : forall cnt done, inv cnt [] done -> forall i, i < n -> In i done.
  Proof.
    intros cnt done I i. induction i as [i IH] using (well_founded_induction lt_wf). intros Hi.
    destruct (in_dec Nat.eq_dec i done) as [X|X]; [exact X|exfalso].
    apply (i_ready _ _ _ I i Hi X). apply left_zero. intros a Ha. apply Hes in Ha. apply IH; lia.
  Qed.

  Lemma execute_ok : forall fuel cnt ready done, inv cnt ready done -> n <= fuel + length done ->
    exists out, execute fuel es info cnt ready done = Ok out /\ Permutation (seq 0 n) out /\ closed out.
  Proof.
    induction fuel as [|f IH]; intros cnt ready done I Hf.
    - assert (Hl : length (ready ++ done) <= n).
      { replace n with (length (seq 0 n)) by apply seq_length. apply NoDup_incl_length; [exact (i_nd _ _ _ I)|].
        intros i Hi. apply in_seq. pose proof (i_lt _ _ _ I i Hi). lia. }
      rewrite app_length in Hl. destruct ready as [|r ready]; [|cbn [length] in Hl; lia]. cbn [execute].
      exists (rev done). split; [reflexivity|]. split; [|exact (i_closed _ _ _ I)].
      apply NoDup_Permutation; [apply seq_NoDup|apply NoDup_rev; exact (i_nd _ _ _ I)|]. intros i. rewrite in_seq, <- in_rev. split.
      + intros Hi. eapply inv_end; [exact I|lia].
      + intros Hi. pose proof (i_lt _ _ _ I i Hi). lia.
    - destruct ready as [|r ready]; cbn [execute].
      + exists (rev done). split; [reflexivity|]. split; [|exact (i_closed _ _ _ I)].
        apply NoDup_Permutation; [apply seq_NoDup|apply NoDup_rev; exact (i_nd _ _ _ I)|]. intros i. rewrite in_seq, <- in_rev. split.
        * intros Hi. eapply inv_end; [exact I|lia].
        * intros Hi. pose proof (i_lt _ _ _ I i Hi). lia.
      + destruct (release _ _ _ _) as (cnt' & ready2) eqn:E. apply IH; [eapply inv_step; [exact I|exact E]|]. cbn [length]. lia.
  Qed.

  Lemma inv_start : inv (fun i => length (preds es i)) (filter (fun i => Nat.eqb (length (preds es i)) 0) (seq 0 n)) [].
  Proof.
    assert (H : forall i, left_preds [] i = length (preds es i)).
    { intros i. unfold left_preds. f_equal. induction (preds es i) as [|a l IH]; [reflexivity|]. cbn in *. f_equal. exact IH. }
    split.
    - intros i. symmetry. apply H.
    - rewrite app_nil_r. apply NoDup_filter, seq_NoDup.
    - intros i Hi. rewrite app_nil_r in Hi. apply filter_In in Hi. destruct Hi as (Hi & _). apply in_seq in Hi. lia.
    - intros i Hi _. rewrite H, filter_In, in_seq, Nat.eqb_eq. split; [intros (_ & X); exact X|intros X; split; [lia|exact X]].
    - intros l1 b l2 E. destruct l1; discriminate.
  Qed.
End execute.
