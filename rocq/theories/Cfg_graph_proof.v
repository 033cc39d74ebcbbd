(** The lists of neighbours: edges, and removing blocks that cannot be reached. *)
From Verif Require Import Base Base_lemmas Cfg_model Cfg_spec Cfg_sim_proof Cfg_build_proof.

Definition good (bs : list bb) : Prop := is_cfg bs /\ Forall shaped bs.

Lemma has_in n l : has n l = true <-> In n l.
Proof.
  unfold has. rewrite existsb_exists. split; [intros [x [H E]]; apply Nat.eqb_eq in E; subst; exact H|intros H; exists n; split; [exact H|apply Nat.eqb_refl]].
Qed.
Lemma has_not n l : has n l = false <-> ~ In n l.
Proof. rewrite <- has_in. destruct (has n l); split; congruence. Qed.

(** ** shapes *)
Lemma calm_none body : Forall calm body -> labels body = [] /\ jumps body = [].
Proof.
  induction 1 as [|x l H _ [IH1 IH2]]; [split; reflexivity|]. unfold labels, jumps in *. cbn [flat_map]. rewrite IH1, IH2. destruct x; try destruct H; split; reflexivity.
Qed.
Lemma shaped_label b : shaped b -> exists r, bops b = Label (bname b) :: r /\ labels r = [].
Proof.
  intros [body [tail [E [C T]]]]. exists (body ++ tail). split; [exact E|]. rewrite labels_app, (proj1 (calm_none _ C)).
  destruct T as [[-> _]|[[t ->]|[k [t [t2 [-> _]]]]]]; reflexivity.
Qed.

Definition outs (ops : list instr) : list nat :=
  match rev ops with
  | Bal t :: rest => t :: match rest with (Branch _ t2 | Bal t2) :: _ => [t2] | _ => [] end
  | _ => []
  end.
Lemma outs_shaped b : shaped b -> NoDup (outs (bops b)) /\ (forall t, In t (outs (bops b)) <-> In t (jumps (bops b))).
Proof.
  intros [body [tail [E [C T]]]]. rewrite E. change (Label (bname b) :: body ++ tail) with ((Label (bname b) :: body) ++ tail). rewrite jumps_app. unfold outs. rewrite rev_app_distr.
  assert (J : jumps (Label (bname b) :: body) = []) by (exact (proj2 (calm_none _ C))). rewrite J. cbn [app].
  destruct T as [[-> [body' ->]]|[[t ->]|[k [t [t2 [-> N]]]]]].
  - cbn [rev app]. rewrite rev_app_distr. cbn [rev app]. split; [constructor|]. intros t. cbn. tauto.
  - cbn [rev app]. assert (K : match rev body ++ [Label (bname b)] with (Branch _ t2 | Bal t2) :: _ => [t2] | _ => [] end = @nil nat).
    { pose proof (calm_no_jump body (bname b) C) as NJ. destruct (rev body ++ [Label (bname b)]) as [|[] l]; try reflexivity; destruct NJ. }
    rewrite K. split; [repeat constructor; intros []|]. intros x. reflexivity.
  - cbn [rev app]. split; [constructor; [intros [H|[]]; congruence|repeat constructor; intros []]|]. intros x. cbn. tauto.
Qed.

(** ** edges *)
Definition edge (e : nat * nat) (x : bb) : bb :=
  mk_bb (bname x) (bops x) (bsuccs x ++ (if Nat.eqb (bname x) (fst e) then [snd e] else [])) (bpreds x ++ (if Nat.eqb (bname x) (snd e) then [fst e] else [])).
Definition sel1 (n : nat) (es : list (nat * nat)) : list nat := map snd (filter (fun e => Nat.eqb n (fst e)) es).
Definition sel2 (n : nat) (es : list (nat * nat)) : list nat := map fst (filter (fun e => Nat.eqb n (snd e)) es).
Definition with_edges (es : list (nat * nat)) (bs : list bb) : list bb :=
  map (fun x => mk_bb (bname x) (bops x) (bsuccs x ++ sel1 (bname x) es) (bpreds x ++ sel2 (bname x) es)) bs.

Lemma with_names es bs : map bname (with_edges es bs) = map bname bs.
Proof. unfold with_edges. rewrite map_map. reflexivity. Qed.
Lemma bb_eta x : mk_bb (bname x) (bops x) (bsuccs x) (bpreds x) = x. Proof. destruct x; reflexivity. Qed.
Lemma with_nil bs : with_edges [] bs = bs.
Proof. unfold with_edges. rewrite <- (map_id bs) at 2. apply map_ext. intros x. unfold sel1, sel2. cbn [filter map]. rewrite !app_nil_r. apply bb_eta. Qed.
Lemma with_app e1 e2 bs : with_edges e2 (with_edges e1 bs) = with_edges (e1 ++ e2) bs.
Proof.
  unfold with_edges. rewrite map_map. apply map_ext. intros x. cbn [bname bops bsuccs bpreds]. unfold sel1, sel2. rewrite !filter_app, !map_app, !app_assoc. reflexivity.
Qed.
Lemma add_edge_ok bs b t : In t (map bname bs) -> add_edge bs b t = Ok (with_edges [(b, t)] bs).
Proof.
  intros H. unfold add_edge. destruct (find_ex bs t H) as [x Ex]. rewrite Ex. f_equal. unfold upd, with_edges. rewrite map_map. apply map_ext. intros y.
  unfold sel1, sel2. cbn [filter fst snd]. destruct (Nat.eqb (bname y) b); cbn [bname set_succs]; destruct (Nat.eqb (bname y) t); cbn [set_preds set_succs map bname bops bsuccs bpreds fst snd]; rewrite ?app_nil_r; try reflexivity. symmetry. apply bb_eta.
Qed.
Definition edges (bs : list bb) : list (nat * nat) := flat_map (fun b => map (pair (bname b)) (outs (bops b))) bs.
Lemma link_ok todo : forall bs, (forall b, In b todo -> incl (outs (bops b)) (map bname bs)) -> link todo bs = Ok (with_edges (edges todo) bs).
Proof.
  induction todo as [|b todo IH]; intros bs H.
  - cbn [link]. unfold edges. cbn [flat_map]. rewrite with_nil. reflexivity.
  - assert (Hb : incl (outs (bops b)) (map bname bs)) by (apply H; left; reflexivity).
    assert (Hs : forall es, forall x, In x todo -> incl (outs (bops x)) (map bname (with_edges es bs))) by (intros es x Hx; rewrite with_names; apply H; right; exact Hx).
    assert (E0 : edges (b :: todo) = map (pair (bname b)) (outs (bops b)) ++ edges todo) by reflexivity. rewrite E0. clear E0. cbn [link]. unfold outs in *.
    assert (Z : link todo bs = Ok (with_edges (edges todo) bs)) by (apply IH; intros x Hx; apply H; right; exact Hx).
    destruct (rev (bops b)) as [|[u|t|k u|k|k|] rest]; try exact Z.
    rewrite add_edge_ok by (apply Hb; left; reflexivity). cbn [bind].
    assert (Z1 : link todo (with_edges [(bname b, t)] bs) = Ok (with_edges ([(bname b, t)] ++ edges todo) bs)) by (rewrite IH by apply Hs; rewrite with_app; reflexivity).
    destruct rest as [|[u|u|k u|k|k|] rest]; try exact Z1.
    all: rewrite add_edge_ok by (rewrite with_names; apply Hb; right; left; reflexivity); cbn [bind]; rewrite with_app, IH by apply Hs; rewrite with_app; reflexivity.
Qed.
Lemma in_edges bs n t : In (n, t) (edges bs) <-> exists b, In b bs /\ bname b = n /\ In t (outs (bops b)).
Proof.
  unfold edges. rewrite in_flat_map. split.
  - intros [b [H1 H2]]. apply in_map_iff in H2. destruct H2 as [x [H2 H3]]. injection H2 as H2 ->. exists b. auto.
  - intros [b [H1 [H2 H3]]]. exists b. split; [exact H1|]. apply in_map_iff. exists t. subst n. auto.
Qed.
Lemma NoDup_app_intro {A} (a b : list A) : NoDup a -> NoDup b -> (forall x, In x a -> In x b -> False) -> NoDup (a ++ b).
Proof.
  intros Ha Hb H. induction Ha as [|x a Nx Ha IH]; [exact Hb|]. cbn [app]. constructor.
  - rewrite in_app_iff. intros [K|K]; [contradiction|apply (H x); [left; reflexivity|exact K]].
  - apply IH. intros y H1 H2. apply (H y); [right; exact H1|exact H2].
Qed.
Lemma NoDup_map_in {A B} (f : A -> B) l : NoDup l -> (forall x y, In x l -> In y l -> f x = f y -> x = y) -> NoDup (map f l).
Proof.
  induction 1 as [|x l Nx ND IH]; intros H; [constructor|]. cbn [map]. constructor.
  - rewrite in_map_iff. intros [y [E Hy]]. apply Nx. rewrite (H x y); [exact Hy|left; reflexivity|right; exact Hy|symmetry; exact E].
  - apply IH. intros a b Ha Hb. apply H; right; assumption.
Qed.
Lemma edges_nodup bs : NoDup (map bname bs) -> Forall shaped bs -> NoDup (edges bs).
Proof.
  induction bs as [|b bs IH]; intros ND Sh; [constructor|]. cbn [map] in ND. inversion ND as [|? ? Nb ND']; subst. pose proof (Forall_inv Sh) as Sb. apply Forall_inv_tail in Sh.
  unfold edges. cbn [flat_map]. apply NoDup_app_intro.
  - apply NoDup_map_in; [apply (outs_shaped b Sb)|]. intros x y _ _ E. congruence.
  - apply IH; assumption.
  - intros [n t] H1 H2. apply in_map_iff in H1. destruct H1 as [z [H1 _]]. injection H1 as <- _. apply in_edges in H2. destruct H2 as [x [H2 [H3 _]]]. apply Nb. rewrite <- H3. apply in_map. exact H2.
Qed.
Lemma in_sel1 n t es : In t (sel1 n es) <-> In (n, t) es.
Proof.
  unfold sel1. rewrite in_map_iff. split.
  - intros [[a b] [H1 H2]]. apply filter_In in H2. destruct H2 as [H2 H3]. cbn [fst snd] in *. apply Nat.eqb_eq in H3. subst. exact H2.
  - intros H. exists (n, t). split; [reflexivity|]. apply filter_In. split; [exact H|apply Nat.eqb_refl].
Qed.
Lemma in_sel2 n t es : In t (sel2 n es) <-> In (t, n) es.
Proof.
  unfold sel2. rewrite in_map_iff. split.
  - intros [[a b] [H1 H2]]. apply filter_In in H2. destruct H2 as [H2 H3]. cbn [fst snd] in *. apply Nat.eqb_eq in H3. subst. exact H2.
  - intros H. exists (t, n). split; [reflexivity|]. apply filter_In. split; [exact H|apply Nat.eqb_refl].
Qed.
Lemma sel1_nodup n es : NoDup es -> NoDup (sel1 n es).
Proof.
  intros H. apply NoDup_map_in; [apply NoDup_filter; exact H|]. intros [a b] [c d] H1 H2 E. apply filter_In in H1, H2. cbn [fst snd] in *. destruct H1 as [_ H1], H2 as [_ H2]. apply Nat.eqb_eq in H1, H2. congruence.
Qed.
Lemma sel2_nodup n es : NoDup es -> NoDup (sel2 n es).
Proof.
  intros H. apply NoDup_map_in; [apply NoDup_filter; exact H|]. intros [a b] [c d] H1 H2 E. apply filter_In in H1, H2. cbn [fst snd] in *. destruct H1 as [_ H1], H2 as [_ H2]. apply Nat.eqb_eq in H1, H2. congruence.
Qed.
Lemma name_inj bs x y : NoDup (map bname bs) -> In x bs -> In y bs -> bname x = bname y -> x = y.
Proof. intros ND Hx Hy E. pose proof (find_in bs x ND Hx) as F1. pose proof (find_in bs y ND Hy) as F2. rewrite E in F1. congruence. Qed.

Lemma link_good bs : NoDup (map bname bs) -> Forall shaped bs -> Forall (fun b => incl (jumps (bops b)) (map bname bs)) bs -> Forall (fun b => bsuccs b = [] /\ bpreds b = []) bs ->
  exists bs', link bs bs = Ok bs' /\ good bs' /\ map bname bs' = map bname bs /\ map bops bs' = map bops bs.
Proof.
  intros ND Sh J Em. rewrite Forall_forall in Sh, J, Em. exists (with_edges (edges bs) bs).
  split; [apply link_ok; intros b Hb t Ht; apply (J b Hb); apply (outs_shaped b (Sh b Hb)); exact Ht|].
  assert (NE : NoDup (edges bs)) by (apply edges_nodup; [exact ND|apply Forall_forall; exact Sh]).
  split; [|split; [apply with_names|unfold with_edges; rewrite map_map; reflexivity]].
  assert (Ss : forall y t, In y bs -> (In t (sel1 (bname y) (edges bs)) <-> In t (jumps (bops y)))).
  { intros y t Hy. rewrite in_sel1, in_edges, <- (proj2 (outs_shaped y (Sh y Hy))). split; [|intros H; exists y; auto]. intros [z [H1 [H2 H3]]]. rewrite <- (name_inj bs z y ND H1 Hy H2). exact H3. }
  split.
  - split; [rewrite with_names; exact ND|]. intros b Hb. unfold with_edges in Hb. apply in_map_iff in Hb. destruct Hb as [x [<- Hx]]. cbn [bname bops bsuccs bpreds]. destruct (Em x Hx) as [-> ->]. cbn [app].
    split; [apply (shaped_label x (Sh x Hx))|]. split; [intros t; apply Ss; exact Hx|]. split; [apply sel1_nodup; exact NE|].
    split; [intros t Ht; rewrite with_names; apply (J x Hx); apply Ss; assumption|]. split; [|apply sel2_nodup; exact NE].
    intros p. rewrite in_sel2. unfold with_edges. split.
    + intros H. apply in_edges in H. destruct H as [z [H1 [H2 H3]]]. eexists. split; [apply in_map_iff; exists z; split; [reflexivity|exact H1]|]. cbn [bname bsuccs]. split; [exact H2|].
      destruct (Em z H1) as [-> _]. cbn [app]. apply Ss; [exact H1|]. apply (outs_shaped z (Sh z H1)). exact H3.
    + intros [z' [H1 [H2 H3]]]. apply in_map_iff in H1. destruct H1 as [z [<- H1]]. cbn [bname bsuccs] in *. destruct (Em z H1) as [Ez _]. rewrite Ez in H3. cbn [app] in H3. apply in_sel1 in H3. rewrite <- H2. exact H3.
  - apply Forall_forall. intros b Hb. unfold with_edges in Hb. apply in_map_iff in Hb. destruct Hb as [x [<- Hx]]. apply (Sh x Hx).
Qed.

(** ** reaching *)
Lemma visit_spec ss : forall q seen q' seen', visit ss q seen = (q', seen') -> NoDup seen ->
  exists new, q' = q ++ new /\ seen' = seen ++ new /\ NoDup seen' /\ incl new ss /\ incl ss seen'.
Proof.
  induction ss as [|s ss IH]; intros q seen q' seen' E ND; cbn [visit] in E.
  - injection E as <- <-. exists []. rewrite !app_nil_r. split; [reflexivity|]. split; [reflexivity|]. split; [exact ND|]. split; intros x [].
  - destruct (has s seen) eqn:Hs.
    + destruct (IH _ _ _ _ E ND) as [new [H1 [H2 [H3 [H4 H5]]]]]. exists new. split; [exact H1|]. split; [exact H2|]. split; [exact H3|]. split; [apply incl_tl; exact H4|].
      intros x [<-|Hx]; [subst seen'; apply in_or_app; left; apply has_in; exact Hs|apply H5; exact Hx].
    + apply has_not in Hs. destruct (IH _ _ _ _ E) as [new [H1 [H2 [H3 [H4 H5]]]]].
      { apply NoDup_app_intro; [exact ND|repeat constructor; intros []|]. intros x H1 [<-|[]]. contradiction. }
      exists (s :: new). rewrite <- app_assoc in H1, H2. split; [exact H1|]. split; [exact H2|]. split; [exact H3|]. split; [intros x [<-|Hx]; [left; reflexivity|right; apply H4; exact Hx]|].
      intros x [<-|Hx]; [subst seen'; apply in_or_app; right; left; reflexivity|apply H5; exact Hx].
Qed.
Lemma succs_in bs b : NoDup (map bname bs) -> In b bs -> succs_of bs (bname b) = bsuccs b.
Proof. intros ND H. unfold succs_of. rewrite find_in by assumption. reflexivity. Qed.
Lemma preds_in bs b : NoDup (map bname bs) -> In b bs -> preds_of bs (bname b) = bpreds b.
Proof. intros ND H. unfold preds_of. rewrite find_in by assumption. reflexivity. Qed.
Lemma succs_known bs n s : is_cfg bs -> In s (succs_of bs n) -> In s (map bname bs).
Proof.
  intros [ND G] H. unfold succs_of in H. destruct (find_bb bs n) as [b|] eqn:E; [|destruct H]. apply find_some_in in E. destruct (G b (proj1 E)) as [_ [_ [_ [K _]]]]. apply K. exact H.
Qed.

Lemma reach_ok bs : is_cfg bs -> forall fuel q seen, NoDup seen -> incl seen (map bname bs) -> incl q seen -> (exists done, seen = done ++ q /\ forall n, In n done -> incl (succs_of bs n) seen) ->
  (length bs < fuel + (length seen - length q))%nat -> (forall n, In n seen -> reachable bs n) ->
  exists seen', reach fuel bs q seen = Ok seen' /\ incl seen seen' /\ incl seen' (map bname bs) /\ (forall n, In n seen' -> incl (succs_of bs n) seen') /\ (forall n, In n seen' -> reachable bs n).
Proof.
  intros C. induction fuel as [|fuel IH]; intros q seen ND Hk Hq [done [Hd Hs]] Hf Hr; destruct q as [|b q]; cbn [reach].
  1, 3: exists seen; split; [reflexivity|]; split; [apply incl_refl|]; split; [exact Hk|]; split; [|exact Hr]; rewrite app_nil_r in Hd; subst done; exact Hs.
  - exfalso. pose proof (NoDup_incl_length ND Hk) as L. rewrite map_length in L. subst seen. rewrite app_length in *. cbn [length] in *. lia.
  - destruct (visit (succs_of bs b) q seen) as [q' seen'] eqn:E. destruct (visit_spec _ _ _ _ _ E ND) as [new [H1 [H2 [H3 [H4 H5]]]]].
    assert (Hb : In b (map bname bs)) by (apply Hk, Hq; left; reflexivity).
    assert (Hsub : incl seen seen') by (subst seen'; apply incl_appl, incl_refl).
    destruct (IH q' seen') as [seen2 [K1 [K2 K3]]].
    + exact H3.
    + subst seen'. apply incl_app; [exact Hk|]. intros x Hx. apply (succs_known bs b); [exact C|]. apply H4. exact Hx.
    + subst q' seen'. intros x Hx. apply in_or_app. apply in_app_or in Hx. destruct Hx as [Hx|Hx]; [left; apply Hq; right; exact Hx|right; exact Hx].
    + exists (done ++ [b]). split; [subst; rewrite <- !app_assoc; reflexivity|]. intros n Hn. apply in_app_or in Hn. destruct Hn as [Hn|[<-|[]]]; [eapply incl_tran; [apply Hs; exact Hn|exact Hsub]|exact H5].
    + subst q' seen'. rewrite !app_length in *. subst seen. rewrite !app_length in *. cbn [length] in *. lia.
    + intros n Hn. subst seen'. apply in_app_or in Hn. destruct Hn as [Hn|Hn]; [apply Hr; exact Hn|]. apply H4 in Hn. unfold succs_of in Hn. destruct (find_bb bs b) as [x|] eqn:Ex; [|destruct Hn].
      apply find_some_in in Ex. destruct Ex as [Ex1 Ex2]. apply (reach_succ bs x); [exact Ex1|rewrite Ex2; apply Hr, Hq; left; reflexivity|exact Hn].
    + exists seen2. split; [exact K1|]. split; [eapply incl_tran; [exact Hsub|exact K2]|exact K3].
Qed.
Lemma reach_spec bs e l : is_cfg bs -> bs = e :: l -> exists seen, reach (S (length bs)) bs [bname e] [bname e] = Ok seen /\ incl seen (map bname bs) /\ (forall n, In n seen <-> reachable bs n).
Proof.
  intros C E. assert (He : In (bname e) (map bname bs)) by (rewrite E; left; reflexivity).
  destruct (reach_ok bs C (S (length bs)) [bname e] [bname e]) as [seen [H1 [H2 [H3 [H4 H5]]]]].
  - repeat constructor. intros [].
  - intros x [<-|[]]. exact He.
  - apply incl_refl.
  - exists []. split; [reflexivity|]. intros n [].
  - cbn [length]. lia.
  - intros n [<-|[]]. apply (reach_entry bs e l E).
  - exists seen. split; [exact H1|]. split; [exact H3|]. intros n. split; [apply H5|]. intros R.
    induction R as [b l' Eb|b n Hb Rb IHR Hn].
    + apply H2. rewrite E in Eb. injection Eb as -> _. left. reflexivity.
    + apply (H4 (bname b) IHR). rewrite succs_in; [exact Hn|apply C|exact Hb].
Qed.

(** ** removing *)
Lemma in_remove n x l : NoDup l -> (In x (remove_first n l) <-> In x l /\ x <> n).
Proof.
  induction 1 as [|y l Ny ND IH]; cbn [remove_first]; [tauto|]. destruct (Nat.eqb y n) eqn:E.
  - apply Nat.eqb_eq in E. subst y. split; [intros H; split; [right; exact H|intros ->; contradiction]|]. intros [[H|H] K]; [congruence|exact H].
  - apply Nat.eqb_neq in E. cbn [In]. rewrite IH. split; [intros [H|[H K]]; [split; [left; exact H|congruence]|split; [right; exact H|exact K]]|]. intros [[H|H] K]; [left; exact H|right; split; assumption].
Qed.
Lemma remove_nodup n l : NoDup l -> NoDup (remove_first n l).
Proof.
  induction 1 as [|y l Ny ND IH]; cbn [remove_first]; [constructor|]. destruct (Nat.eqb y n); [exact ND|]. constructor; [|exact IH]. rewrite in_remove by exact ND. tauto.
Qed.
Lemma remove_filter n l : NoDup l -> remove_first n l = filter (fun x => negb (Nat.eqb x n)) l.
Proof.
  induction 1 as [|y l Ny ND IH]; [reflexivity|]. cbn [remove_first filter]. destruct (Nat.eqb y n) eqn:E; cbn [negb]; [|rewrite IH; reflexivity].
  apply Nat.eqb_eq in E. subst y. clear IH ND. induction l as [|z l IH]; [reflexivity|]. cbn [filter]. destruct (Nat.eqb z n) eqn:E; cbn [negb].
  - apply Nat.eqb_eq in E. exfalso. apply Ny. left. exact E.
  - f_equal. apply IH. intros H. apply Ny. right. exact H.
Qed.
Lemma filter_all {A} (f : A -> bool) l : (forall x, In x l -> f x = true) -> filter f l = l.
Proof. induction l as [|x l IH]; intros H; [reflexivity|]. cbn [filter]. rewrite (H x) by (left; reflexivity). f_equal. apply IH. intros y Hy. apply H. right. exact Hy. Qed.
Lemma filter_filter {A} (f g : A -> bool) l : filter f (filter g l) = filter (fun x => g x && f x) l.
Proof. induction l as [|x l IH]; [reflexivity|]. cbn [filter]. destruct (g x); cbn [filter andb]; [destruct (f x); rewrite IH; reflexivity|exact IH]. Qed.

Lemma fold_upd f l : (forall x, bname (f x) = bname x) -> NoDup l -> forall bs, fold_left (fun bs p => upd bs p f) l bs = map (fun x => if has (bname x) l then f x else x) bs.
Proof.
  intros Hf. induction 1 as [|p l Np ND IH]; intros bs; cbn [fold_left].
  - rewrite <- (map_id bs) at 1. apply map_ext. intros x. reflexivity.
  - rewrite IH. unfold upd. rewrite map_map. apply map_ext. intros x. unfold has in *. cbn [existsb]. destruct (Nat.eqb (bname x) p) eqn:E; cbn [orb].
    + rewrite Hf. destruct (existsb (Nat.eqb (bname x)) l) eqn:K; [|reflexivity]. exfalso. apply (has_in (bname x) l) in K. apply Nat.eqb_eq in E. congruence.
    + reflexivity.
Qed.

Section Prune.
  Variables (bs0 : list bb) (seen : list nat).
  Definition pr (done : list nat) (x0 x : bb) : Prop :=
    bname x = bname x0 /\ bops x = bops x0 /\ NoDup (bsuccs x) /\ NoDup (bpreds x) /\ incl (bpreds x) (bpreds x0) /\
    (forall s, In s seen -> In s (bsuccs x0) -> In s (bsuccs x)) /\
    (In (bname x0) seen -> bsuccs x = bsuccs x0 /\ bpreds x = filter (fun p => negb (has p done)) (bpreds x0)).

  Lemma forall2_find done l0 bs n : Forall2 (pr done) l0 bs -> match find_bb l0 n with None => find_bb bs n = None | Some x0 => exists x, find_bb bs n = Some x /\ pr done x0 x end.
  Proof.
    induction 1 as [|x0 x l0 l H _ IH]; [reflexivity|]. cbn [find_bb find]. rewrite (proj1 H). destruct (Nat.eqb (bname x0) n); [exists x; auto|exact IH].
  Qed.
  Lemma forall2_map (f : bb -> bb) (P Q : bb -> bb -> Prop) l0 l : Forall2 P l0 l -> (forall x0 x, In x0 l0 -> P x0 x -> Q x0 (f x)) -> Forall2 Q l0 (map f l).
  Proof. induction 1 as [|x0 x l0 l H _ IH]; intros K; [constructor|]. cbn [map]. constructor; [apply K; [left; reflexivity|exact H]|]. apply IH. intros y0 y H1. apply K. right. exact H1. Qed.

  Hypothesis C : is_cfg bs0.
  Hypothesis closed : forall b, In b bs0 -> In (bname b) seen -> incl (bsuccs b) seen.

  Lemma unlink_step done bs b0 : Forall2 (pr done) bs0 bs -> In b0 bs0 -> ~ In (bname b0) seen -> Forall2 (pr (bname b0 :: done)) bs0 (unlink bs (bname b0)).
  Proof.
    intros F Hb Hn. pose proof C as [ND G]. set (n := bname b0) in *. unfold unlink.
    assert (Fn : find_bb bs0 n = Some b0) by (apply find_in; assumption).
    pose proof (forall2_find done bs0 bs n F) as Kb. rewrite Fn in Kb. destruct Kb as [b [Eb Pb]].
    assert (Ep : preds_of bs n = bpreds b) by (unfold preds_of; rewrite Eb; reflexivity). rewrite Ep. clear Ep.
    rewrite (fold_upd _ (bpreds b)) by (try reflexivity; apply Pb).
    (* first the lists of successors *)
    set (f1 := fun x => if has (bname x) (bpreds b) then set_succs x (remove_first n (bsuccs x)) else x).
    assert (F1 : Forall2 (pr done) bs0 (map f1 bs)).
    { eapply forall2_map; [exact F|]. intros x0 x H0 [P1 [P2 [P3 [P4 [P5 [P6 P7]]]]]]. unfold f1. destruct (has (bname x) (bpreds b)) eqn:Hx; [|repeat split; auto; apply P7; assumption].
      apply has_in in Hx. rewrite P1 in Hx. assert (Hx0 : In (bname x0) (bpreds b0)) by (apply Pb; exact Hx).
      unfold pr. cbn [set_succs bname bops bsuccs bpreds]. split; [exact P1|]. split; [exact P2|]. split; [apply remove_nodup; exact P3|]. split; [exact P4|]. split; [exact P5|].
      split.
      - intros s H1 H2. apply in_remove; [exact P3|]. split; [apply P6; assumption|]. intros ->. contradiction.
      - intros H1. exfalso. apply Hn. apply (closed x0 H0 H1). apply (G b0 Hb) in Hx0. destruct Hx0 as [y [Y1 [Y2 Y3]]]. rewrite (name_inj bs0 x0 y ND H0 Y1 (eq_sym Y2)). exact Y3. }
    pose proof (forall2_find done bs0 _ n F1) as Kb. rewrite Fn in Kb. destruct Kb as [b1 [Eb1 Pb1]].
    assert (Es : succs_of (map f1 bs) n = bsuccs b1) by (unfold succs_of; rewrite Eb1; reflexivity). rewrite Es. clear Es.
    rewrite fold_upd by (try reflexivity; apply Pb1).
    eapply forall2_map; [exact F1|]. intros x0 x H0 [P1 [P2 [P3 [P4 [P5 [P6 P7]]]]]]. unfold pr.
    destruct (has (bname x) (bsuccs b1)) eqn:Hx.
    - cbn [set_preds bname bops bsuccs bpreds]. split; [exact P1|]. split; [exact P2|]. split; [exact P3|]. split; [apply remove_nodup; exact P4|].
      split; [intros p Hp; apply P5; apply in_remove in Hp; [apply Hp|exact P4]|]. split; [exact P6|]. intros H1. destruct (P7 H1) as [Q1 Q2]. split; [exact Q1|].
      rewrite remove_filter by exact P4. rewrite Q2, filter_filter. apply filter_ext. intros p. unfold has. cbn [existsb]. rewrite negb_orb. apply andb_comm.
    - split; [exact P1|]. split; [exact P2|]. split; [exact P3|]. split; [exact P4|]. split; [exact P5|]. split; [exact P6|]. intros H1. destruct (P7 H1) as [Q1 Q2]. split; [exact Q1|].
      rewrite Q2. apply filter_ext_in. intros p Hp. unfold has. cbn [existsb]. assert (Np : Nat.eqb p n = false); [|rewrite Np; reflexivity]. apply Nat.eqb_neq. intros ->. apply has_not in Hx. apply Hx. rewrite P1.
      apply Pb1; [exact H1|]. apply (G x0 H0) in Hp. destruct Hp as [y [Y1 [Y2 Y3]]]. rewrite (name_inj bs0 b0 y ND Hb Y1 (eq_sym Y2)). exact Y3.
  Qed.

  Lemma unlink_all todo : forall done bs, Forall2 (pr done) bs0 bs -> incl todo bs0 ->
    exists done', Forall2 (pr done') bs0 (fold_left (fun bs b => if has (bname b) seen then bs else unlink bs (bname b)) todo bs) /\
      (forall n, In n done' <-> In n done \/ (In n (map bname todo) /\ ~ In n seen)).
  Proof.
    induction todo as [|b todo IH]; intros done bs F Hi; cbn [fold_left].
    - exists done. split; [exact F|]. intros n. cbn. tauto.
    - assert (Hi' : incl todo bs0) by (intros x Hx; apply Hi; right; exact Hx). destruct (has (bname b) seen) eqn:Hb.
      + destruct (IH done bs F Hi') as [d [D1 D2]]. exists d. split; [exact D1|]. intros n. rewrite D2. cbn [map In]. apply has_in in Hb. split; [tauto|]. intros [H|[[<-|H] K]]; [tauto|contradiction|tauto].
      + apply has_not in Hb. destruct (IH (bname b :: done) (unlink bs (bname b))) as [d [D1 D2]]; [apply unlink_step; [exact F|apply Hi; left; reflexivity|exact Hb]|exact Hi'|].
        exists d. split; [exact D1|]. intros n. rewrite D2. cbn [map In]. split; [intros [[<-|H]|[H K]]; tauto|]. intros [H|[[H|H] K]]; tauto.
  Qed.

  Definition kept : list bb := map (fun b => set_preds b (filter (fun p => has p seen) (bpreds b))) (filter (fun b => has (bname b) seen) bs0).
  Lemma unlinked : filter (fun b => has (bname b) seen) (fold_left (fun bs b => if has (bname b) seen then bs else unlink bs (bname b)) bs0 bs0) = kept.
  Proof.
    pose proof C as [ND G]. destruct (unlink_all bs0 [] bs0) as [done [F D]].
    - clear closed. assert (K : Forall (fun b => NoDup (bsuccs b) /\ NoDup (bpreds b)) bs0) by (apply Forall_forall; intros b Hb; split; apply (G b Hb)).
      clear C ND G. induction K as [|b l [H1 H2] _ IH]; constructor; [|exact IH]. unfold pr. repeat split; auto using incl_refl. symmetry. apply filter_all. reflexivity.
    - apply incl_refl.
    - unfold kept. assert (Gp : Forall (fun b => incl (bpreds b) (map bname bs0)) bs0).
      { apply Forall_forall. intros b Hb p Hp. apply (G b Hb) in Hp. destruct Hp as [y [Y1 [Y2 _]]]. subst p. apply in_map. exact Y1. }
      assert (D' : forall p, In p (map bname bs0) -> negb (has p done) = has p seen).
      { intros p Hp. specialize (D p). destruct (has p seen) eqn:E.
        - apply has_in in E. apply negb_true_iff. apply has_not. rewrite D. cbn [In]. tauto.
        - apply has_not in E. apply negb_false_iff. apply has_in. apply D. right. split; assumption. }
      clear D G ND C closed. revert F Gp D'. generalize (fold_left (fun bs b => if has (bname b) seen then bs else unlink bs (bname b)) bs0 bs0). intros bs F Gp D'.
      assert (K : forall l0 l, Forall2 (pr done) l0 l -> Forall (fun b => incl (bpreds b) (map bname bs0)) l0 ->
        filter (fun b => has (bname b) seen) l = map (fun b => set_preds b (filter (fun p => has p seen) (bpreds b))) (filter (fun b => has (bname b) seen) l0)); [|apply K; assumption].
      clear F Gp bs. induction 1 as [|x0 x l0 l H _ IH]; intros Gp; [reflexivity|]. pose proof (Forall_inv Gp) as Gx. apply Forall_inv_tail in Gp. specialize (IH Gp). cbn [filter].
      destruct H as [P1 [P2 [_ [_ [_ [_ P7]]]]]]. rewrite P1. destruct (has (bname x0) seen) eqn:E; [|exact IH]. cbn [map]. rewrite IH. f_equal. apply has_in in E. destruct (P7 E) as [Q1 Q2].
      destruct x as [xn xo xs xp]. cbn [bname bops bsuccs bpreds] in *. unfold set_preds. subst. f_equal. apply filter_ext_in. intros p Hp. apply D'. apply Gx. exact Hp.
  Qed.
End Prune.

Lemma in_kept bs seen x : In x (kept bs seen) <-> exists b, In b bs /\ In (bname b) seen /\ x = set_preds b (filter (fun p => has p seen) (bpreds b)).
Proof.
  unfold kept. rewrite in_map_iff. split.
  - intros [b [<- H]]. apply filter_In in H. exists b. rewrite <- has_in. tauto.
  - intros [b [H1 [H2 ->]]]. exists b. split; [reflexivity|]. apply filter_In. split; [exact H1|apply has_in; exact H2].
Qed.
Lemma kept_names bs seen : map bname (kept bs seen) = filter (fun n => has n seen) (map bname bs).
Proof.
  unfold kept. rewrite map_map. cbn [set_preds bname]. induction bs as [|b bs IH]; [reflexivity|]. cbn [filter map]. destruct (has (bname b) seen); cbn [map filter]; rewrite IH; reflexivity.
Qed.
Lemma kept_find bs seen n : In n seen -> find_bb (kept bs seen) n = option_map (fun b => set_preds b (filter (fun p => has p seen) (bpreds b))) (find_bb bs n).
Proof.
  intros H. apply has_in in H. unfold kept. induction bs as [|b bs IH]; [reflexivity|]. cbn [filter]. destruct (has (bname b) seen) eqn:E; cbn [map].
  - cbn [find_bb find set_preds bname]. destruct (Nat.eqb (bname b) n); [reflexivity|]. exact IH.
  - cbn [find_bb find]. destruct (Nat.eqb (bname b) n) eqn:E2; [|exact IH]. apply Nat.eqb_eq in E2. congruence.
Qed.

Definition all_reachable (bs : list bb) : Prop := forall b, In b bs -> reachable bs (bname b).

Lemma jumps_tail x r (s : list nat) : incl (jumps (x :: r)) s -> incl (jumps r) s.
Proof. intros H t Ht. apply H. unfold jumps. cbn [flat_map]. apply in_or_app. right. exact Ht. Qed.
Lemma step_agree {W} (m : machine W) la lb s r w : (forall n, In n s -> la n = lb n) -> incl (jumps r) s -> step m la r w = step m lb r w.
Proof.
  intros A H. destruct r as [|[u|u|k u|k|k|] r]; try reflexivity; cbn [step]; rewrite (A u) by (apply H; left; reflexivity); reflexivity.
Qed.
Lemma step_jumps {W} (m : machine W) la s r w r' w' : (forall n c, In n s -> la n = Some c -> incl (jumps c) s) -> incl (jumps r) s -> step m la r w = Some (r', w') -> incl (jumps r') s.
Proof.
  intros J H E. pose proof (fun x q (K : r = x :: q) => jumps_tail x q s) as T. destruct r as [|[u|u|k u|k|k|] r]; cbn [step] in E; try discriminate.
  - injection E as <- _. apply (jumps_tail _ _ _ H).
  - destruct (la u) as [q|] eqn:Eq; [|discriminate]. injection E as <- _. apply (J u); [apply H; left; reflexivity|exact Eq].
  - destruct (taken m k w); [|injection E as <- _; apply (jumps_tail _ _ _ H)]. destruct (la u) as [q|] eqn:Eq; [|discriminate]. injection E as <- _. apply (J u); [apply H; left; reflexivity|exact Eq].
  - injection E as <- _. apply (jumps_tail _ _ _ H).
  - injection E as <- _. apply (jumps_tail _ _ _ H).
Qed.
Lemma agree_equivalent la lb s o : (forall n, In n s -> la n = lb n) -> (forall n r, In n s -> la n = Some r -> incl (jumps r) s) -> incl (jumps o) s -> equivalent la o lb o.
Proof.
  intros A J Ho. apply (equivalent_sim _ _ (fun r1 r2 => r1 = r2 /\ incl (jumps r1) s)); [| |split; [reflexivity|exact Ho]].
  - intros W m r1 r2 w [<- Hj]. split; [|intros r1' ->; exists O, r1'; reflexivity]. intros r' w' E. exists 1%nat, r'. cbn [steps]. rewrite <- (step_agree m la lb s) by assumption. rewrite E.
    split; [reflexivity|]. split; [reflexivity|]. apply (step_jumps m la s r1 w r' w'); assumption.
  - intros W m r1 r2 w [-> Hj]. split; [|intros r1' ->; exists O, r1'; reflexivity]. intros r' w' E. exists 1%nat, r'. cbn [steps]. rewrite (step_agree m la lb s) by assumption. rewrite E.
    split; [reflexivity|]. split; [reflexivity|]. rewrite <- (step_agree m la lb s) in E by assumption. apply (step_jumps m la s r1 w r' w'); assumption.
Qed.

Lemma prune_ok bs e l : good bs -> bs = e :: l -> exists bs', prune bs = Ok bs' /\ good bs' /\ incl (map bname bs') (map bname bs) /\
  (forall b', In b' bs' -> exists b, In b bs /\ bname b' = bname b /\ bops b' = bops b /\ incl (bpreds b') (bpreds b)) /\ all_reachable bs' /\ (exists e' l', bs' = e' :: l' /\ bname e' = bname e) /\ code_of bs' (bname e) = code_of bs (bname e) /\
  forall o, code_of bs (bname e) = Some o -> equivalent (code_of bs) o (code_of bs') o.
Proof.
  intros [C Sh] E. pose proof C as [ND G]. destruct (reach_spec bs e l C E) as [seen [H1 [H2 H3]]].
  assert (Cl : forall b, In b bs -> In (bname b) seen -> incl (bsuccs b) seen).
  { intros b Hb Hs s Hss. apply H3. apply (reach_succ bs b); [exact Hb|apply H3; exact Hs|exact Hss]. }
  assert (Hse : In (bname e) seen) by (apply H3; apply (reach_entry bs e l E)).
  exists (kept bs seen). split.
  { assert (Ep : prune bs = (seen <- reach (S (length bs)) bs [bname e] [bname e] ;;
      Ok (filter (fun b => has (bname b) seen) (fold_left (fun bs b => if has (bname b) seen then bs else unlink bs (bname b)) bs bs)))) by (rewrite E; reflexivity).
    rewrite Ep, H1. cbn [bind]. f_equal. apply unlinked; assumption. }
  assert (Sh' : Forall shaped (kept bs seen)).
  { apply Forall_forall. intros x Hx. apply in_kept in Hx. destruct Hx as [b [B1 [B2 ->]]]. rewrite Forall_forall in Sh. apply (Sh b B1). }
  split; [split; [|exact Sh']|split; [|split; [|split; [|split; [|split]]]]].
  - split; [rewrite kept_names; apply NoDup_filter; exact ND|]. intros x Hx. apply in_kept in Hx. destruct Hx as [b [B1 [B2 ->]]]. cbn [set_preds bname bops bsuccs bpreds].
    destruct (G b B1) as [G1 [G2 [G3 [G4 [G5 G6]]]]]. split; [exact G1|]. split; [exact G2|]. split; [exact G3|]. split; [|split; [|apply NoDup_filter; exact G6]].
    + intros s Hs. rewrite kept_names. apply filter_In. split; [apply G4; exact Hs|]. apply has_in. apply (Cl b B1 B2 s Hs).
    + intros p. rewrite filter_In, has_in, G5. split.
      * intros [[y [Y1 [Y2 Y3]]] Hp]. exists (set_preds y (filter (fun p => has p seen) (bpreds y))). cbn [set_preds bname bsuccs]. split; [|split; [exact Y2|exact Y3]]. apply in_kept. exists y. subst p. auto.
      * intros [z [Z1 [Z2 Z3]]]. apply in_kept in Z1. destruct Z1 as [y [Y1 [Y2 ->]]]. cbn [set_preds bname bsuccs] in *. split; [exists y; auto|subst p; exact Y2].
  - rewrite kept_names. intros x Hx. apply filter_In in Hx. apply Hx.
  - intros x Hx. apply in_kept in Hx. destruct Hx as [b [B1 [B2 ->]]]. exists b. split; [exact B1|]. split; [reflexivity|]. split; [reflexivity|]. intros y Hy. cbn [set_preds bpreds] in Hy. apply filter_In in Hy. apply Hy.
  - assert (Re : forall n, reachable bs n -> reachable (kept bs seen) n).
    { induction 1 as [b l' Eb|b n Hb Rb IHR Hn].
      - rewrite Eb in E. injection E as -> ->. unfold kept. rewrite Eb. cbn [filter]. assert (Hh : has (bname e) seen = true) by (apply has_in; exact Hse). rewrite Hh. cbn [map].
        change (bname e) with (bname (set_preds e (filter (fun p => has p seen) (bpreds e)))). eapply reach_entry. reflexivity.
      - apply (reach_succ _ (set_preds b (filter (fun p => has p seen) (bpreds b)))); [apply in_kept; exists b; split; [exact Hb|split; [apply H3; exact Rb|reflexivity]]|exact IHR|exact Hn]. }
    intros x Hx. apply in_kept in Hx. destruct Hx as [b [B1 [B2 ->]]]. cbn [set_preds bname]. apply Re. apply H3. exact B2.
  - unfold kept. rewrite E. cbn [filter]. assert (Hh : has (bname e) seen = true) by (apply has_in; exact Hse). rewrite Hh. cbn [map]. eexists _, _. split; reflexivity.
  - unfold code_of. rewrite kept_find by exact Hse. destruct (find_bb bs (bname e)); reflexivity.
  - intros o Ho.
    assert (Lk : forall n, In n seen -> code_of (kept bs seen) n = code_of bs n) by (intros n Hn; unfold code_of; rewrite kept_find by exact Hn; destruct (find_bb bs n); reflexivity).
    assert (Jk : forall n r, In n seen -> code_of bs n = Some r -> incl (jumps r) seen).
    { intros n r Hn Hr. unfold code_of in Hr. destruct (find_bb bs n) as [b|] eqn:Eb; [|discriminate]. injection Hr as <-. apply find_some_in in Eb. destruct Eb as [Eb <-]. intros t Ht. apply (Cl b Eb Hn). apply (G b Eb). exact Ht. }
    apply (agree_equivalent _ _ seen).
    + intros n Hn. symmetry. apply Lk. exact Hn.
    + exact Jk.
    + apply (Jk (bname e)); [exact Hse|exact Ho].
Qed.
