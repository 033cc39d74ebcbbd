(** The invariant behind C21: everything a scanned stack, a global or a marked object refers to is marked or can
    still be reached by the collector. *)
From Verif Require Import Base Base_lemmas Gcconc_model Gcconc_spec.

(** the collector will come by o: it is queued and not marked, or a coroutine is about to shade it *)
Definition src (w : world) (o : nat) : Prop :=
  (marked w o = false /\ ((exists p, In o (work w p)) \/ exists c, (c < nco w)%nat /\ In (Push o) (doing (co w c)))) \/
  exists c, (c < nco w)%nat /\ (In (Clear o) (doing (co w c)) \/ exists k, In (Again o k) (doing (co w c))).

(** field j of u is still to be read by a scan in progress *)
Definition rest (w : world) (u j : nat) : Prop := exists p k, scan w p = Some (u, k) /\ (k <= j)%nat.

Inductive cov (w : world) : nat -> Prop :=
| cov_marked o : marked w o = true -> cov w o
| cov_src o : src w o -> cov w o
| cov_rest u j o : rest w u j -> nth_error (field w u) j = Some (Some o) -> cov w o
| cov_child u o : cov w u -> marked w u = false \/ src w u -> In (Some o) (field w u) -> cov w o.

Definition covr (w : world) (v : ref) : Prop := match v with Some o => cov w o | None => True end.

(** what a coroutine in the middle of a runtime call is about to do *)
Fixpoint okd (w : world) (b : bool) (pre : list ref) (l : list micro) : Prop :=
  match l with
  | [] => True
  | m :: l =>
    match m with
    | Clear o => In (Push o) l /\ okd w b pre l
    | IfGrey v => (b = true -> covr w v) /\ okd w b (v :: pre) l
    | Write o k v => (covr w v \/ In v pre \/ In (Again o k) l) /\ okd w b pre l
    | GWrite g v => (covr w v \/ In v pre) /\ okd w b pre l
    | New p args => (p < procs w)%nat /\ Forall (covr w) args /\ okd w b pre l
    | _ => okd w b pre l
    end
  end.

Definition settled (w : world) (c : nat) : Prop := black (co w c) = true \/ forall p, ~ In c (todo w p).

Record safe (w : world) : Prop := {
  f_marked : forall u o, marked w u = true -> In (Some o) (field w u) -> cov w o;
  f_global : forall g o, globals w g = Some o -> cov w o;
  f_vars : forall c, (c < nco w)%nat -> settled w c -> forall o, In (Some o) (vars (co w c)) -> cov w o;
  f_doing : forall c, (c < nco w)%nat -> okd w (black (co w c)) [] (doing (co w c)) }.

Record shape (w : world) : Prop := {
  h_fin : forall p, fin w p = true -> (p < procs w)%nat /\ work w p = [] /\ scan w p = None /\ walking w p = false;
  h_walk : forall p, walking w p = false -> todo w p = [];
  h_work : forall p o, In o (work w p) -> (p <= procs w)%nat;
  h_scan : forall p s, scan w p = Some s -> (p <= procs w)%nat;
  h_todo : forall p c, In c (todo w p) -> (p < procs w)%nat /\ (c < nco w)%nat;
  h_home : forall c, (c < nco w)%nat -> (home (co w c) < procs w)%nat;
  h_fresh : forall o, (next w <= o)%nat -> field w o = [];
  h_stop : stopped w = true -> (forall p, (p < procs w)%nat -> fin w p = true) /\ forall c, (c < nco w)%nat -> doing (co w c) = [] }.

(** ** General facts *)
Lemma upd_eq {A} (f : nat -> A) i v : upd f i v i = v.
Proof. unfold upd. now rewrite Nat.eqb_refl. Qed.
Lemma upd_ne {A} (f : nat -> A) i v j : j <> i -> upd f i v j = f j.
Proof. intros N. unfold upd. destruct (Nat.eqb_spec j i); [contradiction|reflexivity]. Qed.

Lemma cov_map w w' :
  (forall o, marked w o = true -> cov w' o) -> (forall o, src w o -> cov w' o) ->
  (forall u j o, rest w u j -> nth_error (field w u) j = Some (Some o) -> cov w' o) ->
  (forall u o, cov w' u -> marked w u = false \/ src w u -> In (Some o) (field w u) -> cov w' o) ->
  forall o, cov w o -> cov w' o.
Proof. intros A B C D o H. induction H as [o H|o H|u j o H1 H2|u o H1 IH H2 H3]; eauto. Qed.

Lemma cov_same w w' : (forall o, marked w' o = marked w o) -> (forall u, field w' u = field w u) ->
  (forall u j, rest w u j -> rest w' u j) -> (forall o, src w o -> src w' o) -> forall o, cov w o -> cov w' o.
Proof.
  intros M F R S. apply cov_map.
  - intros o H. apply cov_marked. now rewrite M.
  - intros o H. apply cov_src. auto.
  - intros u j o H E. apply (cov_rest w' u j); [auto|]. now rewrite F.
  - intros u o H [X|X] I; (apply (cov_child w' u); [assumption| |now rewrite F]); [left; now rewrite M|right; auto].
Qed.

(** what the collector can reach is closed under fields *)
Lemma cov_closed w : safe w -> forall u o, cov w u -> In (Some o) (field w u) -> cov w o.
Proof.
  intros S u o H I. destruct (marked w u) eqn:E; [now apply (f_marked w S u)|]. apply (cov_child w u); auto.
Qed.

Lemma okd_mono w w' b : procs w' = procs w -> (forall o, cov w o -> cov w' o) -> forall l pre pre', (forall v, In v pre -> In v pre' \/ covr w' v) -> okd w b pre l -> okd w' b pre' l.
Proof.
  intros Pr H. assert (Hr : forall v, covr w v -> covr w' v) by (intros [o|]; cbn [covr]; auto).
  induction l as [|m l IH]; intros pre pre' P O; cbn [okd] in *; [exact I|].
  destruct m as [o|o|v|o k v|g v|o k|p args].
  - destruct O as [O1 O2]. split; [assumption|eauto].
  - eauto.
  - destruct O as [O1 O2]. split; [auto|]. apply (IH (v :: pre)); [|assumption]. intros u [->|Iu]; [left; now left|]. destruct (P u Iu); [left; now right|now right].
  - destruct O as [O1 O2]. split; [|eauto]. destruct O1 as [O1|[O1|O1]]; [left; auto| |now right; right]. destruct (P v O1); [right; now left|now left].
  - destruct O as [O1 O2]. split; [|eauto]. destruct O1 as [O1|O1]; [left; auto|]. destruct (P v O1); [now right|now left].
  - eauto.
  - destruct O as (O1 & O2 & O3). split; [now rewrite Pr|]. split; [|eauto]. eapply Forall_impl; [|exact O2]. exact Hr.
Qed.

Lemma okd_up w w' b l pre : procs w' = procs w -> (forall o, cov w o -> cov w' o) -> okd w b pre l -> okd w' b pre l.
Proof. intros P H. apply okd_mono; auto. Qed.

Lemma nth_some {A} (l : list (option A)) k v : nth k l None = Some v -> nth_error l k = Some (Some v).
Proof.
  intros H. destruct (nth_error l k) as [x|] eqn:E; [rewrite (nth_error_nth l k None E) in H; now subst|].
  apply nth_error_None in E. rewrite nth_overflow in H by assumption. discriminate.
Qed.
Lemma nth_in {A} (l : list (option A)) k v : nth k l None = Some v -> In (Some v) l.
Proof. intros H. now apply nth_some, nth_error_In in H. Qed.

Lemma in_list_set {A} (l : list A) k v x : In x (list_set l k v) -> x = v \/ In x l.
Proof.
  intros H. apply In_nth_error in H as (j & H). rewrite nth_error_list_set in H. destruct (Nat.eqb k j).
  - destruct (Nat.ltb k _); [|discriminate]. injection H as <-. now left.
  - right. now apply nth_error_In in H.
Qed.

Lemma in_refs l o : In o (refs l) <-> In (Some o) l.
Proof.
  unfold refs. rewrite in_flat_map. split.
  - intros ([x|] & I & H); [|destruct H]. destruct H as [->|[]]. assumption.
  - intros H. exists (Some o). split; [assumption|now left].
Qed.

Lemma empty_nil {A} (l : list A) : empty l = true -> l = [].
Proof. destruct l; [reflexivity|discriminate]. Qed.

(** ** A step that changes at most the coroutine c and adds none *)
Lemma safe_map w w' c : safe w -> procs w' = procs w -> nco w' = nco w -> (forall o, cov w o -> cov w' o) ->
  (forall u o, marked w' u = true -> In (Some o) (field w' u) -> cov w' o) ->
  (forall g o, globals w' g = Some o -> globals w g = Some o \/ cov w' o) ->
  (forall d, d <> c -> co w' d = co w d /\ (settled w' d -> settled w d)) ->
  ((c < nco w)%nat -> (settled w' c -> forall o, In (Some o) (vars (co w' c)) -> cov w' o) /\ okd w' (black (co w' c)) [] (doing (co w' c))) ->
  safe w'.
Proof.
  intros S P N M A B C D. constructor.
  - exact A.
  - intros g o H. destruct (B g o H) as [X|X]; [|assumption]. apply M. exact (f_global w S g o X).
  - intros d Hd St o I. rewrite N in Hd. destruct (Nat.eq_dec d c) as [E|E]; [subst; now apply (proj1 (D Hd))|].
    destruct (C d E) as (C1 & C2). rewrite C1 in I. apply M. exact (f_vars w S d Hd (C2 St) o I).
  - intros d Hd. rewrite N in Hd. destruct (Nat.eq_dec d c) as [E|E]; [subst; now apply (proj2 (D Hd))|].
    destruct (C d E) as (C1 & _). rewrite C1. apply (okd_up w w'); auto. exact (f_doing w S d Hd).
Qed.

(** the shading a coroutine has still to do *)
Definition keeps (l l' : list micro) : Prop :=
  forall o, (In (Push o) l -> In (Push o) l') /\ (In (Clear o) l -> In (Clear o) l') /\ (forall k, In (Again o k) l -> In (Again o k) l' \/ In (Clear o) l').

Lemma src_with_co w c x : keeps (doing (co w c)) (doing x) -> forall o, src w o -> src (with_co w c x) o.
Proof.
  intros K o H. unfold src in *. cbn [with_co marked work nco co] in *.
  assert (Q : forall d, upd (co w) c x d = if Nat.eqb d c then x else co w d) by reflexivity.
  destruct H as [(H1 & H2)|(d & Hd & H)].
  - left. split; [assumption|]. destruct H2 as [H2|(d & Hd & H2)]; [now left|right]. exists d. split; [assumption|]. rewrite Q. destruct (Nat.eqb_spec d c) as [E|E]; [subst; now apply K|assumption].
  - right. exists d. split; [assumption|]. rewrite Q. destruct (Nat.eqb_spec d c) as [E|E]; [subst|assumption].
    destruct H as [H|(k & H)]; [left; now apply K|]. destruct (proj2 (proj2 (K o)) k H); [right; eauto|now left].
Qed.

Lemma cov_with_co w c x : keeps (doing (co w c)) (doing x) -> forall o, cov w o -> cov (with_co w c x) o.
Proof. intros K. apply cov_same; [reflexivity|reflexivity|auto|now apply src_with_co]. Qed.

Lemma safe_with_co w c x : safe w -> keeps (doing (co w c)) (doing x) -> let w' := with_co w c x in
  ((c < nco w)%nat -> (settled w' c -> forall o, In (Some o) (vars x) -> cov w' o) /\ okd w' (black x) [] (doing x)) -> safe w'.
Proof.
  intros S K w' D. pose proof (cov_with_co w c x K) as M. apply (safe_map w w' c); auto.
  - intros u o H I. apply M. exact (f_marked w S u o H I).
  - intros d Nd. cbn [w' with_co co settled todo]. split; [now apply upd_ne|]. unfold settled, w'. cbn [with_co co todo]. now rewrite upd_ne by assumption.
  - intros Hc. specialize (D Hc). unfold w' in *. cbn [with_co co] in *. rewrite upd_eq. exact D.
Qed.

Lemma keeps_refl l : keeps l l.
Proof. intros o. auto. Qed.
Lemma keeps_nil l : keeps [] l.
Proof. intros o. split; [intros []|]. split; [intros []|intros k []]. Qed.

Lemma settled_same w c x : black x = black (co w c) -> settled (with_co w c x) c -> settled w c.
Proof. intros B H. unfold settled in *. cbn [with_co co todo] in H. now rewrite upd_eq, B in H. Qed.

(** a coroutine changes one variable *)
Lemma safe_set_var w c d v : safe w -> (c < nco w)%nat -> doing (co w c) = [] -> (settled w c -> covr w v) ->
  safe (with_co w c (set_vars (co w c) (list_set (vars (co w c)) d v))).
Proof.
  intros S Hc Dc V. apply safe_with_co; [assumption|apply keeps_refl|]. intros _. cbn [set_vars vars black doing]. split.
  - intros St o I. apply settled_same in St; [|reflexivity]. apply cov_with_co; [apply keeps_refl|]. apply in_list_set in I as [E|I]; [|exact (f_vars w S c Hc St o I)].
    specialize (V St). now rewrite <- E in V.
  - rewrite Dc. exact Logic.I.
Qed.

(** a coroutine enters a runtime call *)
Lemma safe_set_doing w c l : safe w -> (c < nco w)%nat -> doing (co w c) = [] -> let w' := with_co w c (set_doing (co w c) l) in
  ((forall o, cov w o -> cov w' o) -> (black (co w c) = true -> forall o, In (Some o) (vars (co w c)) -> cov w o) -> okd w' (black (co w c)) [] l) -> safe w'.
Proof.
  intros S Hc Dc w' O. assert (K : keeps (doing (co w c)) (doing (set_doing (co w c) l))) by (rewrite Dc; apply keeps_nil).
  apply safe_with_co; [assumption|assumption|]. intros _. cbn [set_doing vars black doing]. split.
  - intros St o I. apply settled_same in St; [|reflexivity]. apply cov_with_co; [assumption|]. exact (f_vars w S c Hc St o I).
  - apply O; [now apply cov_with_co|]. intros B. apply (f_vars w S c Hc). now left.
Qed.

Lemma clear_src w c o : (c < nco w)%nat -> In (Clear o) (doing (co w c)) -> cov w o.
Proof. intros Hc I. apply cov_src. right. exists c. auto. Qed.

Lemma var_in x y o : var x y = Some o -> In (Some o) (vars x).
Proof. apply nth_in. Qed.
Lemma val_in x y o : val x y = Some o -> In (Some o) (vars x).
Proof. destruct y; [apply nth_in|discriminate]. Qed.

Lemma do_op_safe w c m w' : safe w -> shape w -> (c < nco w)%nat -> doing (co w c) = [] -> do_op w c m = Some w' -> safe w'.
Proof.
  intros S H Hc Dc E. assert (V : settled w c -> forall y, covr w (val (co w c) y)).
  { intros St y. destruct (val (co w c) y) as [o|] eqn:Ev; [|exact I]. exact (f_vars w S c Hc St o (val_in _ _ _ Ev)). }
  destruct m as [|d y k|d g|d y|d n|y k v|g v|y k v|p args]; cbn [do_op] in E.
  - injection E as <-. apply safe_with_co; [assumption|apply keeps_refl|]. intros _. cbn [set_inited vars black doing]. split; [|rewrite Dc; exact I].
    intros St o Io. apply settled_same in St; [|reflexivity]. apply cov_with_co; [apply keeps_refl|]. exact (f_vars w S c Hc St o Io).
  - destruct (var (co w c) y) as [u|] eqn:Ey; [|discriminate]. injection E as <-. apply safe_set_var; auto. intros St. destruct (nth k (field w u) None) as [o|] eqn:Eo; [|exact I].
    apply (cov_closed w S u); [|now apply nth_in in Eo]. exact (f_vars w S c Hc St u (var_in _ _ _ Ey)).
  - injection E as <-. apply safe_set_var; auto. intros St. destruct (globals w g) as [o|] eqn:Eo; [|exact I]. exact (f_global w S g o Eo).
  - injection E as <-. apply safe_set_var; auto.
  - injection E as <-. set (w' := mk_world _ _ _ _ _ _ _ _ _ _ _ _ _).
    assert (Fr : field w (next w) = []) by (apply (h_fresh w H); lia).
    assert (Sr : forall o, src w o -> o <> next w -> src w' o).
    { intros o Hs No. unfold src in *. cbn [w' with_co marked work nco co] in *. rewrite (upd_ne (marked w)) by assumption.
      destruct Hs as [(H1 & [H2|(e & He & H2)])|(e & He & H2)].
      - left. split; [assumption|]. now left.
      - left. split; [assumption|]. right. exists e. split; [assumption|]. destruct (Nat.eq_dec e c) as [Q|Q]; [subst; now rewrite upd_eq|now rewrite upd_ne].
      - right. exists e. split; [assumption|]. destruct (Nat.eq_dec e c) as [Q|Q]; [subst; now rewrite upd_eq|now rewrite upd_ne]. }
    assert (New : cov w' (next w)) by (apply cov_marked; cbn [w' marked]; now rewrite upd_eq).
    assert (M : forall o, cov w o -> cov w' o).
    { apply cov_map.
      - intros o Ho. apply cov_marked. cbn [w' marked]. unfold upd. destruct (Nat.eqb o (next w)); auto.
      - intros o Ho. destruct (Nat.eq_dec o (next w)) as [Q|Q]; [now subst|]. apply cov_src; auto.
      - intros u j o R E. destruct (Nat.eq_dec u (next w)) as [Q|Q]; [subst; rewrite Fr in E; destruct j; discriminate|]. apply (cov_rest w' u j); [exact R|]. cbn [w' field]. now rewrite upd_ne.
      - intros u o Cu X I. destruct (Nat.eq_dec u (next w)) as [Q|Q]; [subst; rewrite Fr in I; destruct I|]. apply (cov_child w' u); [assumption| |cbn [w' field]; now rewrite upd_ne].
        destruct X as [X|X]; [left; cbn [w' marked]; now rewrite upd_ne|right; auto]. }
    apply (safe_map w w' c); auto.
    + intros u o Mu I. cbn [w' marked field] in *. destruct (Nat.eq_dec u (next w)) as [Q|Q]; [subst; rewrite upd_eq in I; apply repeat_spec in I; discriminate|].
      rewrite upd_ne in Mu by assumption. rewrite upd_ne in I by assumption. apply M. exact (f_marked w S u o Mu I).
    + intros e Ne. unfold settled. cbn [w' with_co co todo]. rewrite upd_ne by assumption. auto.
    + intros _. unfold settled. cbn [w' with_co co todo]. rewrite upd_eq. cbn [set_vars vars black doing]. split; [|rewrite Dc; exact I].
      intros St o Io. apply in_list_set in Io as [Q|Io]; [now injection Q as ->|]. apply M. exact (f_vars w S c Hc St o Io).
  - destruct (var (co w c) y) as [u|] eqn:Ey; [|discriminate]. injection E as <-. apply safe_set_doing; auto. intros M Bl. cbn [barrier shade app okd]. split; [now left|]. split; [|split; [right; left; now left|exact I]].
    intros B. specialize (V (or_introl B) v). destruct (val (co w c) v); cbn [covr] in *; auto.
  - injection E as <-. apply safe_set_doing; auto. intros M Bl. cbn [okd]. split; [|split; [right; now left|exact I]].
    intros B. specialize (V (or_introl B) v). destruct (val (co w c) v); cbn [covr] in *; auto.
  - destruct (var (co w c) y) as [u|] eqn:Ey; [|discriminate]. injection E as <-. apply safe_set_doing; auto. intros M Bl. cbn [okd In]. auto.
  - destruct (Nat.ltb_spec p (procs w)) as [Lp|]; [|discriminate]. injection E as <-. apply safe_set_doing; auto. intros M Bl.
    set (l := map (var (co w c)) args) in *. set (w' := with_co _ _ _).
    assert (Cl : Forall (covr w') l).
    { apply Forall_forall. intros [o|] Io; [|exact I]. apply (clear_src w' c); [exact Hc|]. cbn [w' with_co co]. rewrite upd_eq. cbn [set_doing doing]. apply in_or_app. left. apply in_flat_map. exists (Some o). split; [assumption|]. now left. }
    assert (Pr : procs w' = procs w) by reflexivity. clearbody w'. assert (Pw : (p < procs w')%nat -> okd w' (black (co w c)) [] (flat_map shade l ++ [New p l])).
    { intros Pw. assert (G : forall l0, okd w' (black (co w c)) [] (flat_map shade l0 ++ [New p l])).
      { induction l0 as [|[o|] l0 IH]; cbn [flat_map shade app okd]; auto. split; [now left|exact IH]. }
      apply G. }
    apply Pw. rewrite Pr. exact Lp.
Qed.

(** ** The steps of a runtime call *)
Lemma keeps_tail m l : match m with Clear _ | Push _ | Again _ _ => False | _ => True end -> keeps (m :: l) l.
Proof. intros H o. destruct m; try contradiction; (split; [intros [X|X]; [discriminate|assumption]|split; [intros [X|X]; [discriminate|assumption]|intros j [X|X]; [discriminate|auto]]]). Qed.

Lemma okd_tail w b m l : okd w b [] (m :: l) -> (forall v, m = IfGrey v -> covr w v) -> okd w b [] l.
Proof.
  intros O G. destruct m; cbn [okd] in O; try apply O; auto. destruct O as (_ & O). apply (okd_mono w w b eq_refl (fun _ H => H) l [v]); [|assumption].
  intros u [<-|[]]. right. auto.
Qed.

Lemma do_micro_safe w c w' : safe w -> shape w -> (c < nco w)%nat -> gentle w (Micro c) -> do_micro w c = Some w' -> safe w'.
Proof.
  intros S H Hc G E. unfold do_micro in E. cbn [gentle] in G. pose proof (f_doing w S c Hc) as O. pose proof (f_vars w S c Hc) as V.
  destruct (doing (co w c)) as [|m l] eqn:Dc; [discriminate|]. destruct m as [o|o|v|o k v|g v|o k|p args].
  - (* Clear *) injection E as <-. set (w' := with_marked _ _ _).
    assert (Sr : forall u, src w u -> u <> o -> src w' u).
    { intros u Hs Nu. unfold src in *. cbn [w' with_marked with_co marked work nco co] in *. rewrite (upd_ne (marked w)) by assumption.
      destruct Hs as [(H1 & [H2|(e & He & H2)])|(e & He & H2)].
      - left. auto.
      - left. split; [assumption|]. right. exists e. split; [assumption|]. destruct (Nat.eq_dec e c) as [Q|Q]; [subst; rewrite upd_eq; rewrite Dc in H2; destruct H2 as [H2|H2]; [discriminate|exact H2]|now rewrite upd_ne].
      - right. exists e. split; [assumption|]. destruct (Nat.eq_dec e c) as [Q|Q]; [subst; rewrite upd_eq; rewrite Dc in H2|now rewrite upd_ne].
        destruct H2 as [[H2|H2]|(k & [H2|H2])]; [congruence|left; exact H2|discriminate|right; exists k; exact H2]. }
    assert (So : src w' o). { left. cbn [w' with_marked with_co marked work nco co]. rewrite upd_eq. split; [reflexivity|]. right. exists c. split; [assumption|]. rewrite upd_eq. apply O. }
    assert (M : forall u, cov w u -> cov w' u).
    { apply cov_map.
      - intros u Hu. destruct (Nat.eq_dec u o) as [Q|Q]; [subst; now apply cov_src|]. apply cov_marked. cbn [w' with_marked with_co marked]. now rewrite upd_ne.
      - intros u Hu. destruct (Nat.eq_dec u o) as [Q|Q]; [subst; now apply cov_src|]. apply cov_src. auto.
      - intros u j x R E. now apply (cov_rest w' u j).
      - intros u x Cu X I. apply (cov_child w' u); [assumption| |exact I]. destruct (Nat.eq_dec u o) as [Q|Q]; [subst; now right|].
        destruct X as [X|X]; [left; cbn [w' with_marked with_co marked]; now rewrite upd_ne|right; auto]. }
    apply (safe_map w w' c); auto.
    + intros u x Mu I. cbn [w' with_marked with_co marked field] in *. destruct (Nat.eq_dec u o) as [Q|Q]; [subst; rewrite upd_eq in Mu; discriminate|]. rewrite upd_ne in Mu by assumption. apply M. exact (f_marked w S u x Mu I).
    + intros e Ne. unfold settled. cbn [w' with_marked with_co co todo]. rewrite upd_ne by assumption. auto.
    + intros _. unfold settled. cbn [w' with_marked with_co co todo]. rewrite upd_eq. cbn [set_doing vars black doing]. split; [intros St x Ix; apply M; exact (V St x Ix)|].
      apply (okd_up w w'); auto. apply O.
  - (* Push *) injection E as <-. set (q := target w (co w c)). set (w' := with_work _ _ _).
    assert (M : forall u, cov w u -> cov w' u).
    { apply cov_same; [reflexivity|reflexivity|auto|]. intros u Hs. unfold src in *. cbn [w' with_work with_co marked work nco co] in *.
      assert (Q : forall e, (e < nco w)%nat -> In (Push u) (doing (co w e)) -> In u (upd (work w) q (work w q ++ [o]) q) \/ exists e, (e < nco w)%nat /\ In (Push u) (doing (upd (co w) c (set_doing (co w c) l) e))).
      { intros e He I. destruct (Nat.eq_dec e c) as [Q|Q]; [subst e; rewrite Dc in I; destruct I as [I|I]; [injection I as ->; left; rewrite upd_eq; apply in_or_app; right; now left|right; exists c; now rewrite upd_eq]|right; exists e; now rewrite upd_ne]. }
      destruct Hs as [(H1 & [(p & H2)|(e & He & H2)])|(e & He & H2)].
      - left. split; [assumption|]. left. exists p. destruct (Nat.eq_dec p q) as [X|X]; [subst p; rewrite upd_eq; apply in_or_app; now left|now rewrite upd_ne].
      - left. split; [assumption|]. destruct (Q e He H2); [left; now exists q|now right].
      - right. exists e. split; [assumption|]. destruct (Nat.eq_dec e c) as [X|X]; [subst e; rewrite upd_eq; rewrite Dc in H2|now rewrite upd_ne].
        destruct H2 as [[H2|H2]|(k & [H2|H2])]; [discriminate|left; exact H2|discriminate|right; exists k; exact H2]. }
    apply (safe_map w w' c); auto.
    + intros u x Mu I. apply M. exact (f_marked w S u x Mu I).
    + intros e Ne. unfold settled. cbn [w' with_work with_co co todo]. rewrite upd_ne by assumption. auto.
    + intros _. unfold settled. cbn [w' with_work with_co co todo]. rewrite upd_eq. cbn [set_doing vars black doing]. split; [intros St x Ix; apply M; exact (V St x Ix)|].
      apply (okd_up w w'); auto.
  - (* IfGrey *) injection E as <-. set (l' := (if black (co w c) then [] else shade v) ++ l).
    assert (K : keeps (doing (co w c)) (doing (set_doing (co w c) l'))).
    { rewrite Dc. cbn [set_doing doing]. intros u. assert (J : forall m, In m (IfGrey v :: l) -> m <> IfGrey v -> In m l') by (intros m [X|X] N; [congruence|apply in_or_app; now right]).
      split; [intros I; apply J; [exact I|discriminate]|]. split; [intros I; apply J; [exact I|discriminate]|]. intros k I. left. apply J; [exact I|discriminate]. }
    apply safe_with_co; [assumption|assumption|]. intros _. cbn [set_doing vars black doing]. pose proof (cov_with_co _ _ _ K) as M. split.
    + intros St x Ix. apply M. apply V; [|assumption]. revert St. now apply settled_same.
    + set (w' := with_co _ _ _) in *. destruct O as (O1 & O2).
      assert (Cv : covr w' v).
      { unfold l' in w'. destruct v as [o|]; [|exact I]. destruct (black (co w c)) eqn:B; [apply M; now apply O1|]. apply (clear_src w' c); [exact Hc|]. cbn [w' with_co co]. rewrite upd_eq. now left. }
      assert (O3 : okd w' (black (co w c)) [] l). { apply (okd_mono w w' _ eq_refl M l [v]); [|assumption]. intros u [<-|[]]. now right. }
      unfold l' in *. clearbody w'. destruct (black (co w c)); [exact O3|]. destruct v as [o|]; [|exact O3]. cbn [shade app okd]. split; [now left|exact O3].
  - (* Write *) injection E as <-. set (w' := with_field _ _ _). assert (K : keeps (Write o k v :: l) l) by (now apply keeps_tail).
    assert (Sr : forall u, src w u -> src w' u). { intros u Hs. assert (Q : src (with_co w c (set_doing (co w c) l)) u) by (apply src_with_co; [rewrite Dc; exact K|assumption]). exact Q. }
    assert (Old : forall j x, nth_error (field w o) j = Some (Some x) -> (nth_error (list_set (field w o) k v) j = Some (Some x)) \/ cov w' x).
    { intros j x Ej. rewrite nth_error_list_set. destruct (Nat.eqb_spec k j) as [Q|Q]; [subst j|now left]. assert (Nk : nth k (field w o) None = Some x) by (apply nth_error_nth; exact Ej). rewrite Nk in G. destruct G as [G|G].
      - right. destruct G as [G|(p & G)]; [now apply cov_marked|]. destruct (marked w x) eqn:Mx; [now apply cov_marked|]. apply cov_src. left. split; [exact Mx|]. left. now exists p.
      - left. rewrite G. assert ((k < List.length (field w o))%nat) as Lk by (apply nth_error_Some; congruence). apply Nat.ltb_lt in Lk. now rewrite Lk. }
    assert (Fo : field w' o = list_set (field w o) k v) by (cbn [w' with_field field]; now rewrite upd_eq).
    assert (Fn : forall u, u <> o -> field w' u = field w u) by (intros u Nu; cbn [w' with_field with_co field]; now rewrite upd_ne).
    assert (M : forall u, cov w u -> cov w' u).
    { apply cov_map.
      - intros u Hu. now apply cov_marked.
      - intros u Hu. apply cov_src. auto.
      - intros u j x R E. destruct (Nat.eq_dec u o) as [Q|Q]; [subst u; destruct (Old j x E) as [Y|Y]; [|assumption]; apply (cov_rest w' o j); [exact R|now rewrite Fo]|].
        apply (cov_rest w' u j); [exact R|now rewrite Fn].
      - intros u x Cu X I. assert (X' : marked w' u = false \/ src w' u) by (destruct X; auto). destruct (Nat.eq_dec u o) as [Q|Q].
        + subst u. apply In_nth_error in I as (j & I). destruct (Old j x I) as [Y|Y]; [|assumption]. apply (cov_child w' o); [assumption|assumption|]. rewrite Fo. now apply nth_error_In in Y.
        + apply (cov_child w' u); [assumption|assumption|]. now rewrite Fn. }
    destruct O as (O1 & O2). apply (safe_map w w' c); auto.
    + intros u x Mu I. destruct (Nat.eq_dec u o) as [Q|Q]; [subst u|rewrite Fn in I by assumption; apply M; exact (f_marked w S u x Mu I)].
      rewrite Fo in I. apply in_list_set in I as J. destruct J as [J|J]; [|apply M; exact (f_marked w S o x Mu J)]. subst v. destruct O1 as [O1|[[]|O1]]; [now apply M|].
      assert (So : src w' o). { right. exists c. split; [exact Hc|]. right. exists k. cbn [w' with_field with_co co]. rewrite upd_eq. exact O1. }
      apply (cov_child w' o); [now apply cov_src|now right|]. now rewrite Fo.
    + intros e Ne. unfold settled. cbn [w' with_field with_co co todo]. rewrite upd_ne by assumption. auto.
    + intros _. unfold settled. cbn [w' with_field with_co co todo]. rewrite upd_eq. cbn [set_doing vars black doing]. split; [intros St x Ix; apply M; exact (V St x Ix)|].
      apply (okd_up w w'); auto.
  - (* GWrite *) injection E as <-. set (w' := with_global _ _ _). assert (K : keeps (GWrite g v :: l) l) by (now apply keeps_tail).
    assert (M : forall u, cov w u -> cov w' u).
    { apply cov_same; [reflexivity|reflexivity|auto|]. intros u Hs. assert (Q : src (with_co w c (set_doing (co w c) l)) u) by (apply src_with_co; [rewrite Dc; exact K|assumption]). exact Q. }
    destruct O as (O1 & O2). apply (safe_map w w' c); auto.
    + intros u x Mu I. apply M. exact (f_marked w S u x Mu I).
    + intros h x Eh. cbn [w' with_global with_co globals] in Eh. destruct (Nat.eq_dec h g) as [Q|Q]; [subst h; rewrite upd_eq in Eh|rewrite upd_ne in Eh by assumption; now left]. right. subst v. destruct O1 as [O1|[]]. now apply M.
    + intros e Ne. unfold settled. cbn [w' with_global with_co co todo]. rewrite upd_ne by assumption. auto.
    + intros _. unfold settled. cbn [w' with_global with_co co todo]. rewrite upd_eq. cbn [set_doing vars black doing]. split; [intros St x Ix; apply M; exact (V St x Ix)|].
      apply (okd_up w w'); auto.
  - (* Again *) injection E as <-. set (l' := barrier o k (nth k (field w o) None) ++ l).
    assert (K : keeps (doing (co w c)) (doing (set_doing (co w c) l'))).
    { rewrite Dc. cbn [set_doing doing]. intros u. assert (J : forall m, In m l -> In m l') by (intros m X; apply in_or_app; now right).
      split; [intros [X|X]; [discriminate|auto]|]. split; [intros [X|X]; [discriminate|auto]|]. intros j [X|X]; [injection X as -> ->; right; now left|left; auto]. }
    assert (Cc : covr w (nth k (field w o) None)).
    { destruct (nth k (field w o) None) as [x|] eqn:Ex; [|exact I]. assert (So : src w o) by (right; exists c; split; [assumption|]; right; exists k; rewrite Dc; now left).
      apply (cov_child w o); [now apply cov_src|now right|now apply nth_in in Ex]. }
    pose proof (cov_with_co _ _ _ K) as M. apply safe_with_co; [assumption|assumption|]. intros _. cbn [set_doing vars black doing]. split.
    + intros St x Ix. apply M. apply V; [|assumption]. revert St. now apply settled_same.
    + set (w' := with_co _ _ _) in *. assert (Cv : covr w' (nth k (field w o) None)) by (destruct (nth k (field w o) None); cbn [covr] in *; auto).
      unfold l'. cbn [barrier shade app okd]. split; [now left|]. split; [auto|]. split; [now left|]. apply (okd_mono w w' _ eq_refl M l []); [intros ? []|exact O].
  - (* New *) injection E as <-. destruct O as (O1 & O2 & O3). set (n := nco w) in *. set (w' := mk_world _ _ _ _ _ _ _ _ _ _ _ _ _).
    assert (M : forall u, cov w u -> cov w' u).
    { apply cov_same; [reflexivity|reflexivity|auto|]. intros u Hs. unfold src in *. cbn [w' with_co marked work nco co] in *.
      assert (Q : forall m e, (e < n)%nat -> m <> New p args -> In m (doing (co w e)) -> In m (doing (upd (upd (co w) c (set_doing (co w c) l)) n (mk_coro p false false args []) e))).
      { intros m e He Nm I. rewrite upd_ne by lia. destruct (Nat.eq_dec e c) as [Q|Q]; [subst e; rewrite upd_eq; rewrite Dc in I; destruct I as [I|I]; [congruence|exact I]|now rewrite upd_ne]. }
      destruct Hs as [(H1 & [H2|(e & He & H2)])|(e & He & [H2|(k & H2)])].
      - left. auto.
      - left. split; [assumption|]. right. exists e. split; [lia|]. apply Q; [assumption|discriminate|assumption].
      - right. exists e. split; [lia|]. left. apply Q; [assumption|discriminate|assumption].
      - right. exists e. split; [lia|]. right. exists k. apply Q; [assumption|discriminate|assumption]. }
    constructor.
    + intros u x Mu I. apply M. exact (f_marked w S u x Mu I).
    + intros g x Eg. apply M. exact (f_global w S g x Eg).
    + intros e He St x Ix. cbn [w' nco co with_co] in *. destruct (Nat.eq_dec e n) as [Q|Q].
      * subst e. rewrite upd_eq in Ix. cbn [vars] in Ix. rewrite Forall_forall in O2. apply M. exact (O2 _ Ix).
      * rewrite upd_ne in Ix by assumption. assert (Se : settled w e).
        { unfold settled in *. cbn [w' co todo with_co] in St. rewrite upd_ne in St by assumption. destruct St as [St|St].
          - left. destruct (Nat.eq_dec e c) as [X|X]; [subst e; now rewrite upd_eq in St|now rewrite upd_ne in St].
          - right. intros q Iq. apply (St q). destruct (walking w p); [|assumption]. destruct (Nat.eq_dec q p) as [X|X]; [subst q; rewrite upd_eq; apply in_or_app; now left|now rewrite upd_ne]. }
        apply M. apply (f_vars w S e ltac:(lia) Se). destruct (Nat.eq_dec e c) as [X|X]; [subst e; now rewrite upd_eq in Ix|now rewrite upd_ne in Ix].
    + intros e He. cbn [w' nco co with_co] in *. destruct (Nat.eq_dec e n) as [Q|Q]; [subst e; rewrite upd_eq; exact Logic.I|]. rewrite upd_ne by assumption. apply (okd_up w w'); [reflexivity|exact M|].
      destruct (Nat.eq_dec e c) as [X|X]; [subst e; rewrite upd_eq; exact O3|]. rewrite upd_ne by assumption. apply (f_doing w S). lia.
Qed.

(** ** The steps of the collector *)
Lemma src_queue w w' : (forall o, marked w' o = marked w o) -> nco w' = nco w -> (forall c, doing (co w' c) = doing (co w c)) ->
  forall o, src w o -> (marked w o = false -> (exists p, In o (work w p)) -> exists p, In o (work w' p)) -> src w' o.
Proof.
  intros M N D o H Q. unfold src in *. rewrite M, N. destruct H as [(H1 & [H2|(c & Hc & H2)])|(c & Hc & H2)].
  - left. auto.
  - left. split; [assumption|]. right. exists c. now rewrite D.
  - right. exists c. now rewrite D.
Qed.

Lemma step_safe w o w' : safe w -> shape w -> gentle w o -> step w o = Some w' -> safe w'.
Proof.
  intros S H G E. destruct o as [c m|c|p|p|p|p|p|]; cbn [step] in E.
  - destruct (negb (stopped w) && Nat.ltb c (nco w) && empty (doing (co w c)) && _) eqn:C; [|discriminate]. rewrite !andb_true_iff in C. destruct C as (((_ & C1) & C2) & _).
    apply Nat.ltb_lt in C1. apply empty_nil in C2. exact (do_op_safe w c m w' S H C1 C2 E).
  - destruct (negb (stopped w) && Nat.ltb c (nco w)) eqn:C; [|discriminate]. apply andb_true_iff in C as (_ & C1). apply Nat.ltb_lt in C1. exact (do_micro_safe w c w' S H C1 G E).
  - destruct (negb (stopped w) && Nat.ltb p (procs w) && walking w p); [|discriminate]. destruct (todo w p) as [|c r] eqn:Et; [discriminate|].
    destruct (empty (doing (co w c))) eqn:Ed; [|discriminate]. apply empty_nil in Ed. injection E as <-. set (w' := if inited (co w c) then _ else _).
    assert (Hc : (c < nco w)%nat) by (apply (h_todo w H p); rewrite Et; now left).
    assert (P1 : procs w' = procs w /\ nco w' = nco w /\ globals w' = globals w) by (unfold w'; destruct (inited (co w c)); auto). destruct P1 as (P1 & P2 & P3).
    assert (P4 : forall d, doing (co w' d) = doing (co w d) /\ vars (co w' d) = vars (co w d) /\ (d <> c -> co w' d = co w d)).
    { intros d. unfold w'. destruct (inited (co w c)); [|auto]. cbn [with_co with_todo with_work co]. destruct (Nat.eq_dec d c) as [Q|Q]; [subst; rewrite upd_eq; cbn [set_black doing vars]; easy|now rewrite upd_ne]. }
    assert (P5 : work w' = upd (work w) p (work w p ++ refs (vars (co w c)))) by (unfold w'; destruct (inited (co w c)); reflexivity).
    assert (P6 : todo w' = upd (todo w) p r) by (unfold w'; destruct (inited (co w c)); reflexivity).
    assert (P7 : marked w' = marked w /\ field w' = field w /\ scan w' = scan w) by (unfold w'; destruct (inited (co w c)); auto). destruct P7 as (P7 & P8 & P9).
    clearbody w'.
    assert (M : forall u, cov w u -> cov w' u).
    { apply cov_same; [now rewrite P7|now rewrite P8|unfold rest; now rewrite P9|]. intros u Hs. apply (src_queue w w'); [now rewrite P7|assumption|intros d; apply P4|assumption|].
      intros _ (q & I). exists q. rewrite P5. destruct (Nat.eq_dec q p) as [Q|Q]; [subst; rewrite upd_eq; apply in_or_app; now left|now rewrite upd_ne]. }
    apply (safe_map w w' c); auto.
    + intros u x. rewrite P7, P8. intros Mu I. apply M. exact (f_marked w S u x Mu I).
    + intros g x. rewrite P3. auto.
    + intros d Nd. split; [now apply P4|]. unfold settled. rewrite (proj2 (proj2 (P4 d)) Nd). intros [X|X]; [now left|right]. intros q I. apply (X q). rewrite P6.
      destruct (Nat.eq_dec q p) as [Q|Q]; [subst q; rewrite upd_eq; rewrite Et in I; destruct I as [I|I]; [congruence|assumption]|now rewrite upd_ne].
    + intros _. split; [|rewrite (proj1 (P4 c)), Ed; exact I]. intros _ x Ix. rewrite (proj1 (proj2 (P4 c))) in Ix. destruct (marked w x) eqn:Mx; [apply cov_marked; now rewrite P7|].
      apply cov_src. left. rewrite P7. split; [assumption|]. left. exists p. rewrite P5, upd_eq. apply in_or_app. right. now apply in_refs.
  - destruct (_ && _); [|discriminate]. injection E as <-. set (w' := mk_world _ _ _ _ _ _ _ _ _ _ _ _ _). assert (M : forall u, cov w u -> cov w' u) by (apply cov_same; auto).
    apply (safe_map w w' (nco w)); auto; [|intros X; lia]. intros u x Mu I. apply M. exact (f_marked w S u x Mu I).
  - destruct (if stopped w then _ else _); [|discriminate]. destruct (scan w p) as [s|] eqn:Es; [discriminate|]. destruct (work w p) as [|o r] eqn:Ew; [discriminate|]. injection E as <-.
    cbn [with_work marked]. destruct (marked w o) eqn:Mo.
    + set (w' := with_work _ _ _).
      assert (M : forall u, cov w u -> cov w' u).
      { apply cov_same; [reflexivity|reflexivity|auto|]. intros u Hs. apply (src_queue w w'); auto. intros Mu (q & I). exists q. cbn [w' with_work work].
        destruct (Nat.eq_dec q p) as [Q|Q]; [subst; rewrite upd_eq; rewrite Ew in I; destruct I as [I|I]; [congruence|assumption]|now rewrite upd_ne]. }
      apply (safe_map w w' (nco w)); auto.
      * intros u x Mu I. apply M. exact (f_marked w S u x Mu I).
      * intros X. lia.
    + set (w' := with_scan _ _ _).
      assert (R : forall j, rest w' o j). { intros j. exists p, 0%nat. cbn [w' with_scan scan]. rewrite upd_eq. split; [reflexivity|lia]. }
      assert (Fo : forall x, In (Some x) (field w o) -> cov w' x). { intros x I. apply In_nth_error in I as (j & I). now apply (cov_rest w' o j). }
      assert (Sr : forall u, src w u -> u <> o -> src w' u).
      { intros u Hs Nu. assert (Mu : marked w' u = marked w u) by (cbn [w' with_scan with_marked with_work marked]; now rewrite upd_ne). unfold src in *. rewrite Mu. destruct Hs as [(H1 & [(q & H2)|H2])|H2].
        - left. split; [assumption|]. left. exists q. cbn [w' with_scan with_marked with_work work]. destruct (Nat.eq_dec q p) as [Q|Q]; [subst; rewrite upd_eq; rewrite Ew in H2; destruct H2 as [H2|H2]; [congruence|assumption]|now rewrite upd_ne].
        - left. split; [assumption|]. now right.
        - right. exact H2. }
      assert (Co : cov w' o) by (apply cov_marked; cbn [w' with_scan with_marked marked]; now rewrite upd_eq).
      assert (M : forall u, cov w u -> cov w' u).
      { apply cov_map.
        - intros u Hu. destruct (Nat.eq_dec u o) as [Q|Q]; [now subst|]. apply cov_marked. cbn [w' with_scan with_marked with_work marked]. now rewrite upd_ne.
        - intros u Hu. destruct (Nat.eq_dec u o) as [Q|Q]; [now subst|]. apply cov_src. auto.
        - intros u j x (q & k & Eq & Lk) I. apply (cov_rest w' u j); [|exact I]. exists q, k. split; [|assumption]. cbn [w' with_scan with_marked with_work scan]. rewrite upd_ne; [assumption|]. intros ->. congruence.
        - intros u x Cu X I. destruct (Nat.eq_dec u o) as [Q|Q]; [subst; auto|]. apply (cov_child w' u); [assumption| |exact I].
          destruct X as [X|X]; [left; cbn [w' with_scan with_marked with_work marked]; now rewrite upd_ne|right; auto]. }
      apply (safe_map w w' (nco w)); auto.
      * intros u x Mu I. destruct (Nat.eq_dec u o) as [Q|Q]; [subst; auto|]. cbn [w' with_scan with_marked with_work marked] in Mu. rewrite upd_ne in Mu by assumption. apply M. exact (f_marked w S u x Mu I).
      * intros X. lia.
  - destruct (scan w p) as [(o & k)|] eqn:Es; [|discriminate]. destruct (Nat.ltb_spec k (List.length (field w o))) as [Lk|Lk]; injection E as <-; set (w' := with_scan _ _ _).
    + assert (Wk : forall q x, In x (work w q) -> In x (work w' q)).
      { intros q x I. cbn [w' with_scan with_work work]. destruct (Nat.eq_dec q p) as [Q|Q]; [subst; rewrite upd_eq; apply in_or_app; now left|now rewrite upd_ne]. }
      assert (Cx : forall x, nth_error (field w o) k = Some (Some x) -> cov w' x).
      { intros x Ex. destruct (marked w x) eqn:Mx; [now apply cov_marked|]. apply cov_src. left. split; [exact Mx|]. left. exists p. cbn [w' with_scan with_work work]. rewrite upd_eq. apply in_or_app. right.
        assert (Nk : nth k (field w o) None = Some x) by (apply nth_error_nth; exact Ex). rewrite Nk. now left. }
      assert (Sr : forall u, src w u -> src w' u) by (intros u Hs; apply (src_queue w w'); auto; intros _ (q & I); exists q; auto).
      assert (M : forall u, cov w u -> cov w' u).
      { apply cov_map.
        - intros u Hu. now apply cov_marked.
        - intros u Hu. apply cov_src. auto.
        - intros u j x (q & k' & Eq & Lj) I. destruct (Nat.eq_dec q p) as [Q|Q].
          + subst q. rewrite Es in Eq. injection Eq as <- <-. destruct (Nat.eq_dec j k) as [->|Nj]; [auto|]. apply (cov_rest w' o j); [|exact I]. exists p, (Datatypes.S k). cbn [w' with_scan scan]. rewrite upd_eq. split; [reflexivity|lia].
          + apply (cov_rest w' u j); [|exact I]. exists q, k'. cbn [w' with_scan with_work scan]. now rewrite upd_ne.
        - intros u x Cu X I. apply (cov_child w' u); [assumption| |exact I]. destruct X; auto. }
      apply (safe_map w w' (nco w)); auto.
      * intros u x Mu I. apply M. exact (f_marked w S u x Mu I).
      * intros X. lia.
    + assert (M : forall u, cov w u -> cov w' u).
      { apply cov_map.
        - intros u Hu. now apply cov_marked.
        - intros u Hu. now apply cov_src.
        - intros u j x (q & k' & Eq & Lj) I. destruct (Nat.eq_dec q p) as [Q|Q].
          + subst q. rewrite Es in Eq. injection Eq as <- <-. exfalso. assert (j < List.length (field w o))%nat by (apply nth_error_Some; congruence). lia.
          + apply (cov_rest w' u j); [|exact I]. exists q, k'. cbn [w' with_scan scan]. now rewrite upd_ne.
        - intros u x Cu X I. now apply (cov_child w' u). }
      apply (safe_map w w' (nco w)); auto.
      * intros u x Mu I. apply M. exact (f_marked w S u x Mu I).
      * intros X. lia.
  - destruct (_ && _); [|discriminate]. injection E as <-. set (w' := mk_world _ _ _ _ _ _ _ _ _ _ _ _ _). assert (M : forall u, cov w u -> cov w' u) by (apply cov_same; auto).
    apply (safe_map w w' (nco w)); auto; [|intros X; lia]. intros u x Mu I. apply M. exact (f_marked w S u x Mu I).
  - destruct (_ && _); [|discriminate]. injection E as <-. set (w' := mk_world _ _ _ _ _ _ _ _ _ _ _ _ _). assert (M : forall u, cov w u -> cov w' u) by (apply cov_same; auto).
    apply (safe_map w w' (nco w)); auto; [|intros X; lia]. intros u x Mu I. apply M. exact (f_marked w S u x Mu I).
Qed.

Lemma step_shape w o w' : shape w -> step w o = Some w' -> (forall c, (c < nco w)%nat -> forall p l, In (New p l) (doing (co w c)) -> (p < procs w)%nat) -> shape w'.
Proof.
  intros H E N. destruct H as [A1 A2 A3 A4 A5 A6 A7 A8]. destruct o as [c m|c|p|p|p|p|p|]; cbn [step] in E.
  - destruct (negb (stopped w) && Nat.ltb c (nco w) && empty (doing (co w c)) && _) eqn:C; [|discriminate]. rewrite !andb_true_iff, negb_true_iff, Nat.ltb_lt in C. destruct C as (((C0 & C1) & C2) & _).
    assert (Q : forall x, home x = home (co w c) -> shape (with_co w c x)).
    { intros x Hx. constructor; cbn [with_co procs nco work scan todo field fin walking stopped co next]; auto; [|congruence].
      intros d Hd. destruct (Nat.eq_dec d c) as [X|X]; [subst; rewrite upd_eq, Hx; auto|rewrite upd_ne by assumption; auto]. }
    destruct m as [|d y k|d g|d y|d n|y k v|g v|y k v|p args]; cbn [do_op] in E; try (destruct (var (co w c) y); [|discriminate]); try (destruct (Nat.ltb p (procs w)); [|discriminate]); injection E as <-; try (apply Q; reflexivity).
    pose proof (Q (set_vars (co w c) (list_set (vars (co w c)) d (Some (next w)))) eq_refl) as Q'. destruct Q' as [B1 B2 B3 B4 B5 B6 B7 B8]. constructor; cbn [procs nco work scan todo field fin walking stopped co next]; auto.
    intros o Ho. rewrite upd_ne by lia. apply A7. lia.
  - destruct (negb (stopped w) && Nat.ltb c (nco w)) eqn:C; [|discriminate]. rewrite andb_true_iff, negb_true_iff, Nat.ltb_lt in C. destruct C as (C0 & C1).
    assert (Q : forall l, shape (with_co w c (set_doing (co w c) l))).
    { intros l. constructor; cbn [with_co procs nco work scan todo field fin walking stopped co next]; auto; [|congruence].
      intros d Hd. destruct (Nat.eq_dec d c) as [X|X]; [subst; rewrite upd_eq; cbn [set_doing home]; auto|rewrite upd_ne by assumption; auto]. }
    unfold do_micro in E. destruct (doing (co w c)) as [|m l] eqn:Dc; [discriminate|]. destruct m as [o|o|v|o k v|g v|o k|p args]; injection E as <-; try apply Q.
    + destruct (Q l) as [B1 B2 B3 B4 B5 B6 B7 B8]. constructor; auto.
    + destruct (Q l) as [B1 B2 B3 B4 B5 B6 B7 B8]. constructor; auto.
      * intros p Fp. cbn [with_work with_co fin work scan walking] in *. destruct (A1 p Fp) as (W & X & Y & Z). split; [assumption|]. split; [|auto]. rewrite upd_ne; [assumption|]. unfold target.
        destruct (fin w (home (co w c))) eqn:Fh; [cbn [with_work with_co procs] in W; lia|congruence].
      * intros p u I. cbn [with_work with_co work procs] in *. destruct (Nat.eq_dec p (target w (co w c))) as [X|X]; [|rewrite upd_ne in I by assumption; eauto].
        subst p. unfold target. specialize (A6 c C1). destruct (fin w (home (co w c))); lia.
    + destruct (Q l) as [B1 B2 B3 B4 B5 B6 B7 B8]. constructor; auto. intros u Hu. cbn [with_field with_co field next] in *. destruct (Nat.eq_dec u o) as [X|X]; [subst; rewrite upd_eq, A7 by assumption; reflexivity|rewrite upd_ne by assumption; auto].
    + destruct (Q l) as [B1 B2 B3 B4 B5 B6 B7 B8]. constructor; auto.
    + assert (Pp : (p < procs w)%nat) by (apply (N c C1 p args); rewrite Dc; now left). destruct (Q l) as [B1 B2 B3 B4 B5 B6 B7 B8]. constructor; cbn [procs nco work scan todo field fin walking stopped co next]; auto.
      * intros q Wq. destruct (walking w p) eqn:Wp; [|auto]. destruct (Nat.eq_dec q p) as [X|X]; [congruence|]. rewrite upd_ne by assumption. auto.
      * intros q d I. assert (X : In d (todo w q) \/ (q = p /\ d = nco w)).
        { destruct (walking w p); [|auto]. destruct (Nat.eq_dec q p) as [X|X]; [subst; rewrite upd_eq in I; apply in_app_or in I as [I|[I|[]]]; auto|rewrite upd_ne in I by assumption; auto]. }
        destruct X as [X|(-> & ->)]; [|lia]. apply A5 in X. lia.
      * intros d Hd. destruct (Nat.eq_dec d (nco w)) as [X|X]; [subst; rewrite upd_eq; exact Pp|]. rewrite upd_ne by assumption. apply B6. cbn [with_co nco]. lia.
      * congruence.
  - destruct (negb (stopped w) && Nat.ltb p (procs w) && walking w p) eqn:C; [|discriminate]. rewrite !andb_true_iff, negb_true_iff, Nat.ltb_lt in C. destruct C as ((C0 & C1) & C2).
    destruct (todo w p) as [|c r] eqn:Et; [discriminate|]. destruct (empty (doing (co w c))); [|discriminate]. injection E as <-.
    assert (Q : shape (with_todo (with_work w p (work w p ++ refs (vars (co w c)))) p r)).
    { constructor; cbn [with_todo with_work procs nco work scan todo field fin walking stopped co next]; auto.
      - intros q Fq. destruct (A1 q Fq) as (W & X & Y & Z). assert (q <> p) by congruence. rewrite upd_ne by assumption. auto.
      - intros q Wq. assert (q <> p) by congruence. rewrite upd_ne by assumption. auto.
      - intros q u I. destruct (Nat.eq_dec q p) as [X|X]; [subst; lia|rewrite upd_ne in I by assumption; eauto].
      - intros q d I. destruct (Nat.eq_dec q p) as [X|X]; [subst; rewrite upd_eq in I|rewrite upd_ne in I by assumption; eauto]. apply A5. rewrite Et. now right. }
    destruct (inited (co w c)); [|exact Q]. destruct Q as [B1 B2 B3 B4 B5 B6 B7 B8]. constructor; cbn [with_co procs nco work scan todo field fin walking stopped co next] in *; auto.
    + intros d Hd. destruct (Nat.eq_dec d c) as [X|X]; [subst; rewrite upd_eq; cbn [set_black home]; auto|rewrite upd_ne by assumption; auto].
    + cbn [with_todo with_work stopped]. congruence.
  - destruct (negb (stopped w) && Nat.ltb p (procs w) && empty (todo w p)) eqn:C; [|discriminate]. rewrite !andb_true_iff, negb_true_iff, Nat.ltb_lt in C. destruct C as ((C0 & C1) & C2). apply empty_nil in C2. injection E as <-.
    constructor; cbn [procs nco work scan todo field fin walking stopped co next]; auto.
    + intros q Fq. destruct (A1 q Fq) as (W & X & Y & Z). split; [assumption|]. split; [assumption|]. split; [assumption|]. unfold upd. destruct (Nat.eqb q p); auto.
    + intros q Wq. destruct (Nat.eq_dec q p) as [X|X]; [now subst|]. rewrite upd_ne in Wq by assumption. auto.
  - destruct (if stopped w then _ else _) eqn:C; [|discriminate]. destruct (scan w p) as [s|] eqn:Es; [discriminate|]. destruct (work w p) as [|o r] eqn:Ew; [discriminate|]. injection E as <-.
    assert (Fp : fin w p = false). { destruct (fin w p) eqn:X; [|reflexivity]. destruct (A1 p X) as (_ & X1 & _). congruence. }
    assert (Q : shape (with_work w p r)).
    { constructor; cbn [with_work procs nco work scan todo field fin walking stopped co next]; auto.
      - intros q Fq. destruct (A1 q Fq) as (W & X & Y & Z). assert (q <> p) by congruence. rewrite upd_ne by assumption. auto.
      - intros q u I. destruct (Nat.eq_dec q p) as [X|X]; [subst; apply (A3 p o); rewrite Ew; now left|rewrite upd_ne in I by assumption; eauto]. }
    cbn [with_work marked]. destruct (marked w o); [exact Q|]. destruct Q as [B1 B2 B3 B4 B5 B6 B7 B8]. constructor; cbn [with_scan with_marked with_work procs nco work scan todo field fin walking stopped co next] in *; auto.
    + intros q Fq. destruct (B1 q Fq) as (W & X & Y & Z). assert (q <> p) by congruence. rewrite (upd_ne (scan w)) by assumption. auto.
    + intros q s Eq. destruct (Nat.eq_dec q p) as [X|X]; [subst; apply (A3 p o); rewrite Ew; now left|rewrite upd_ne in Eq by assumption; eauto].
  - destruct (scan w p) as [(o & k)|] eqn:Es; [|discriminate]. assert (Fp : forall q, fin w q = true -> q <> p). { intros q X ->. destruct (A1 p X) as (_ & _ & X1 & _). congruence. }
    assert (Lp : (p <= procs w)%nat) by eauto.
    destruct (Nat.ltb k (List.length (field w o))); injection E as <-; constructor; cbn [with_scan with_work procs nco work scan todo field fin walking stopped co next]; auto.
    + intros q Fq. destruct (A1 q Fq) as (W & X & Y & Z). specialize (Fp q Fq). rewrite !upd_ne by assumption. auto.
    + intros q u I. destruct (Nat.eq_dec q p) as [X|X]; [now subst|rewrite upd_ne in I by assumption; eauto].
    + intros q s Eq. destruct (Nat.eq_dec q p) as [X|X]; [now subst|rewrite upd_ne in Eq by assumption; eauto].
    + intros q Fq. destruct (A1 q Fq) as (W & X & Y & Z). specialize (Fp q Fq). rewrite !upd_ne by assumption. auto.
    + intros q s Eq. destruct (Nat.eq_dec q p) as [X|X]; [now subst|rewrite upd_ne in Eq by assumption; eauto].
  - destruct (negb (stopped w) && Nat.ltb p (procs w) && negb (walking w p) && empty (work w p) && _) eqn:C; [|discriminate]. rewrite !andb_true_iff, !negb_true_iff, Nat.ltb_lt in C. destruct C as ((((C0 & C1) & C2) & C3) & C4). apply empty_nil in C3. injection E as <-.
    constructor; cbn [procs nco work scan todo field fin walking stopped co next]; auto; [|congruence].
    intros q Fq. destruct (Nat.eq_dec q p) as [X|X]; [subst|rewrite upd_ne in Fq by assumption; auto]. destruct (scan w p); [discriminate|auto].
  - destruct (forallb (fin w) (seq 0 (procs w)) && forallb _ (seq 0 (nco w))) eqn:C; [|discriminate]. injection E as <-. apply andb_true_iff in C as (C1 & C2). rewrite forallb_forall in C1, C2.
    constructor; auto. cbn [procs nco fin co]. intros _. split.
    + intros p Hp. apply C1. apply in_seq. lia.
    + intros c Hc. apply empty_nil. apply C2. apply in_seq. lia.
Qed.

(** ** Whole cycles *)
Lemma okd_new w b l p args : forall pre, okd w b pre l -> In (New p args) l -> (p < procs w)%nat.
Proof.
  induction l as [|m l IH]; intros pre O I; [destruct I|]. cbn [okd] in O.
  destruct I as [->|I]; [apply O|]. destruct m; eauto; destruct O as (O1 & O2); eauto. destruct O2; eauto.
Qed.

Lemma run_inv ops : forall w w', safe w -> shape w -> gentle_run w ops -> run w ops = Some w' -> safe w' /\ shape w'.
Proof.
  induction ops as [|o ops IH]; intros w w' S H G E; cbn [run gentle_run] in *; [injection E as <-; auto|]. destruct G as (G1 & G2).
  destruct (step w o) as [v|] eqn:Ev; [|discriminate]. apply (IH v); auto; [now apply (step_safe w o)|]. apply (step_shape w o); auto.
  intros c Hc p l I. exact (okd_new w _ _ p l [] (f_doing w S c Hc) I).
Qed.

Lemma start_inv w : at_start w -> safe w /\ shape w.
Proof.
  intros [A1 A2 A3 A4 A5 A6 A7 A8 A9]. split.
  - constructor.
    + intros u o M. rewrite A2 in M. discriminate.
    + intros g o Eg. apply cov_src. left. split; [apply A2|]. left. eauto.
    + intros c Hc [B|B]; destruct (A6 c Hc) as (X1 & X2 & X3 & X4); [congruence|]. exfalso. exact (B _ X2).
    + intros c Hc. destruct (A6 c Hc) as (X1 & X2 & X3 & X4). rewrite X3. exact I.
  - constructor; auto.
    + intros p F. destruct (A8 p) as (X & Y & Z). congruence.
    + intros p F. destruct (A8 p) as (X & Y & Z). congruence.
    + intros p o I. apply A5 in I. lia.
    + intros p s E. destruct (A8 p) as (X & Y & Z). congruence.
    + intros c Hc. now apply A6.
    + congruence.
Qed.

(** when marking is over, what the collector could still reach is marked *)
Lemma over_cov w : shape w -> over w = true -> forall o, cov w o -> marked w o = true.
Proof.
  intros H O. unfold over in O. rewrite !andb_true_iff in O. destruct O as ((O1 & O2) & O3). apply empty_nil in O2. destruct (h_stop w H O1) as (F & D).
  assert (Wk : forall p, work w p = []).
  { intros p. destruct (work w p) as [|o l] eqn:E; [reflexivity|]. assert (L : (p <= procs w)%nat) by (apply (h_work w H p o); rewrite E; now left).
    destruct (Nat.eq_dec p (procs w)) as [X|X]; [congruence|]. destruct (h_fin w H p (F p ltac:(lia))) as (_ & X1 & _). congruence. }
  assert (Sc : forall p, scan w p = None).
  { intros p. destruct (scan w p) as [s|] eqn:E; [|reflexivity]. pose proof (h_scan w H p s E) as L.
    destruct (Nat.eq_dec p (procs w)) as [X|X]; [subst; rewrite E in O3; discriminate|]. destruct (h_fin w H p (F p ltac:(lia))) as (_ & _ & X1 & _). congruence. }
  assert (Ns : forall o, ~ src w o).
  { intros o [(_ & [(p & I)|(c & Hc & I)])|(c & Hc & [I|(k & I)])]; [rewrite Wk in I|rewrite D in I by assumption|rewrite D in I by assumption|rewrite D in I by assumption]; destruct I. }
  intros o C. induction C as [o C|o C|u j o (p & k & X & _) _|u o C1 IH [X|X] I]; [assumption|now apply Ns in C|rewrite Sc in X; discriminate|congruence|now apply Ns in X].
Qed.

Lemma over_marked w : safe w -> shape w -> over w = true -> forall o, reachable w o -> marked w o = true.
Proof.
  intros S H O o R. apply (over_cov w H O). assert (T : forall p, todo w p = []).
  { intros p. destruct (todo w p) as [|c l] eqn:E; [reflexivity|]. assert (L : In c (todo w p)) by (rewrite E; now left). apply (h_todo w H) in L as (L & _).
    unfold over in O. rewrite !andb_true_iff in O. destruct O as ((O1 & _) & _). destruct (h_stop w H O1) as (F & _). destruct (h_fin w H p (F p L)) as (_ & _ & _ & X). apply (h_walk w H) in X. congruence. }
  induction R as [g o E|c o Hc I|u o R IH I].
  - exact (f_global w S g o E).
  - apply (f_vars w S c Hc); [|assumption]. right. intros p. rewrite T. intros [].
  - exact (cov_closed w S u o IH I).
Qed.

Lemma filling_gentle ops : forall w, filling_run w ops -> gentle_run w ops.
Proof.
  induction ops as [|o ops IH]; intros w F; cbn [filling_run gentle_run] in *; [exact I|]. destruct F as (F1 & F2). split.
  - destruct o; auto. cbn [filling gentle] in *. destruct (doing (co w c)) as [|[] ?]; auto. destruct F1 as [F1|F1]; [now rewrite F1|]. destruct (nth k (field w o) None); [right; congruence|exact I].
  - destruct (step w o); auto.
Qed.

(** ** Garbage *)
Definition known (G : nat -> Prop) (v : ref) : Prop := match v with Some o => G o | None => True end.

Definition mknown (G : nat -> Prop) (n : nat) (m : micro) : Prop :=
  match m with
  | Clear o | Push o | Again o _ => G o
  | IfGrey v | GWrite _ v => known G v
  | Write o _ v => G o /\ known G v
  | New p args => (p < n)%nat /\ Forall (known G) args
  end.

(** G contains everything the program or the collector holds *)
Record within (G : nat -> Prop) (w : world) : Prop := {
  n_new : forall o, (next w <= o)%nat -> G o;
  n_field : forall u, G u -> Forall (known G) (field w u);
  n_global : forall g, known G (globals w g);
  n_vars : forall c, (c < nco w)%nat -> Forall (known G) (vars (co w c));
  n_doing : forall c, (c < nco w)%nat -> Forall (mknown G (procs w)) (doing (co w c));
  n_work : forall p o, In o (work w p) -> G o;
  n_scan : forall p o k, scan w p = Some (o, k) -> G o;
  n_marked : forall o, marked w o = true -> G o }.

Lemma known_nth G l k : Forall (known G) l -> known G (nth k l None).
Proof. intros F. destruct (nth k l None) as [o|] eqn:E; [|exact I]. rewrite Forall_forall in F. exact (F _ (nth_in _ _ _ E)). Qed.
Lemma known_set G l k v : Forall (known G) l -> known G v -> Forall (known G) (list_set l k v).
Proof. intros F K. rewrite Forall_forall in *. intros x I. apply in_list_set in I as [->|I]; auto. Qed.
Lemma mknown_shade G n v : known G v -> Forall (mknown G n) (shade v).
Proof. destruct v; cbn [shade known]; [|constructor]. intros H. repeat constructor; exact H. Qed.
Lemma known_refs G l o : Forall (known G) l -> In o (refs l) -> G o.
Proof. intros F I. apply in_refs in I. rewrite Forall_forall in F. exact (F _ I). Qed.

Lemma within_co G w c x : within G w -> Forall (known G) (vars x) -> Forall (mknown G (procs w)) (doing x) -> within G (with_co w c x).
Proof.
  intros [A1 A2 A3 A4 A5 A6 A7 A8] V D. constructor; auto; cbn [with_co nco co]; intros d Hd; (destruct (Nat.eq_dec d c) as [X|X]; [subst; now rewrite upd_eq|rewrite upd_ne by assumption; auto]).
Qed.

Lemma step_within G w o w' : within G w -> shape w -> step w o = Some w' -> within G w'.
Proof.
  intros W H E. pose proof W as W0. destruct W as [A1 A2 A3 A4 A5 A6 A7 A8]. destruct o as [c m|c|p|p|p|p|p|]; cbn [step] in E.
  - destruct (negb (stopped w) && Nat.ltb c (nco w) && empty (doing (co w c)) && _) eqn:C; [|discriminate]. rewrite !andb_true_iff, Nat.ltb_lt in C. destruct C as (((_ & C1) & C2) & _).
    apply empty_nil in C2. specialize (A4 c C1).
    assert (V : forall y, known G (val (co w c) y)) by (intros [y|]; [now apply known_nth|exact I]).
    assert (U : forall y o, var (co w c) y = Some o -> G o) by (intros y o Ey; pose proof (known_nth G (vars (co w c)) y A4) as K; unfold var in Ey; now rewrite Ey in K).
    destruct m as [|d y k|d g|d y|d n|y k v|g v|y k v|p args]; cbn [do_op] in E;
      try (destruct (var (co w c) y) as [u|] eqn:Ey; [|discriminate]; apply U in Ey); try (destruct (Nat.ltb_spec p (procs w)) as [Lp|]; [|discriminate]); injection E as <-;
      try (apply within_co; [assumption|cbn [set_inited set_vars set_doing vars]; try (apply known_set); auto using known_nth|cbn [set_inited set_vars set_doing doing]; try (rewrite C2; constructor)]).
    + destruct (within_co G w c (set_vars (co w c) (list_set (vars (co w c)) d (Some (next w)))) W0) as [B1 B2 B3 B4 B5 B6 B7 B8].
      * cbn [set_vars vars]. apply known_set; [assumption|]. apply A1. lia.
      * cbn [set_vars doing]. rewrite C2. constructor.
      * constructor; auto; cbn [next field marked].
        -- intros o Ho. apply A1. lia.
        -- intros u Gu. destruct (Nat.eq_dec u (next w)) as [X|X]; [subst; rewrite upd_eq; apply Forall_forall; intros x I; apply repeat_spec in I; subst; exact Logic.I|rewrite upd_ne by assumption; auto].
        -- intros o. unfold upd. destruct (Nat.eqb_spec o (next w)); [intros _; apply A1; lia|auto].
    + cbn [barrier shade app]. repeat constructor; cbn [mknown]; auto.
    + repeat constructor; cbn [mknown]; auto.
    + repeat constructor; cbn [mknown]; auto.
    + apply Forall_app. assert (F : Forall (known G) (map (var (co w c)) args)) by (apply Forall_forall; intros x I; apply in_map_iff in I as (y & <- & _); now apply known_nth).
      split; [|repeat constructor; assumption]. apply Forall_flat_map. eapply Forall_impl; [|exact F]. intros v K. now apply mknown_shade.
  - destruct (negb (stopped w) && Nat.ltb c (nco w)) eqn:C; [|discriminate]. rewrite andb_true_iff, Nat.ltb_lt in C. destruct C as (_ & C1). specialize (A4 c C1). pose proof (A5 c C1) as D.
    unfold do_micro in E. destruct (doing (co w c)) as [|m l] eqn:Dc; [discriminate|]. apply Forall_cons_iff in D as (D1 & D2).
    assert (Q : within G (with_co w c (set_doing (co w c) l))) by (apply within_co; assumption). pose proof Q as Q0. destruct Q as [B1 B2 B3 B4 B5 B6 B7 B8].
    destruct m as [o|o|v|o k v|g v|o k|p args]; injection E as <-; cbn [mknown] in D1.
    + constructor; auto. cbn [with_marked with_co marked]. intros u. unfold upd. destruct (Nat.eqb_spec u o); [discriminate|auto].
    + constructor; auto. cbn [with_work with_co work]. intros q u. unfold upd. destruct (Nat.eqb_spec q (target w (co w c))); [|eauto]. intros I. apply in_app_or in I as [I|[<-|[]]]; eauto.
    + apply within_co; [assumption|assumption|]. cbn [set_doing doing]. apply Forall_app. split; [|assumption]. destruct (black (co w c)); [constructor|now apply mknown_shade].
    + constructor; auto. cbn [with_field with_co field]. intros u Gu. unfold upd. destruct (Nat.eqb_spec u o); [|auto]. apply known_set; [apply A2; apply D1|apply D1].
    + constructor; auto. cbn [with_global with_co globals]. intros h. unfold upd. destruct (Nat.eqb_spec h g); auto.
    + apply within_co; [assumption|assumption|]. cbn [set_doing doing barrier shade app]. repeat constructor; cbn [mknown]; auto. all: apply known_nth; auto. 
    + constructor; auto; cbn [nco co todo walking procs].
      * intros d Hd. unfold upd at 1. destruct (Nat.eqb_spec d (nco w)); [apply D1|]. apply B4. cbn [with_co nco]. lia.
      * intros d Hd. destruct (Nat.eq_dec d (nco w)) as [X|X]; [subst; rewrite upd_eq; constructor|rewrite upd_ne by assumption]. apply B5. cbn [with_co nco]. lia.
  - destruct (negb (stopped w) && Nat.ltb p (procs w) && walking w p); [|discriminate]. destruct (todo w p) as [|c r] eqn:Et; [discriminate|]. destruct (empty (doing (co w c))); [|discriminate]. injection E as <-.
    assert (Hc : (c < nco w)%nat) by (apply (h_todo w H p); rewrite Et; now left).
    assert (Q : within G (with_todo (with_work w p (work w p ++ refs (vars (co w c)))) p r)).
    { constructor; auto; cbn [with_todo with_work work todo nco walking].
      intros q u. unfold upd. destruct (Nat.eqb_spec q p); [|eauto]. intros I. apply in_app_or in I as [I|I]; [eauto|]. exact (known_refs G _ u (A4 c Hc) I). }
    destruct (inited (co w c)); [|exact Q]. apply within_co; [exact Q|cbn [set_black vars]; auto|cbn [set_black doing]; auto].
  - destruct (_ && _); [|discriminate]. injection E as <-. constructor; auto.
  - destruct (if stopped w then _ else _); [|discriminate]. destruct (scan w p) as [s|] eqn:Es; [discriminate|]. destruct (work w p) as [|o r] eqn:Ew; [discriminate|]. injection E as <-.
    assert (Go : G o) by (apply (A6 p); rewrite Ew; now left).
    assert (Q : within G (with_work w p r)). { constructor; auto. cbn [with_work work]. intros q u. unfold upd. destruct (Nat.eqb_spec q p); [|eauto]. intros I. apply (A6 p). rewrite Ew. now right. }
    cbn [with_work marked]. destruct (marked w o); [exact Q|]. destruct Q as [B1 B2 B3 B4 B5 B6 B7 B8]. constructor; auto; cbn [with_scan with_marked with_work scan marked].
    + intros q u k. unfold upd. destruct (Nat.eqb_spec q p); [intros X; injection X as <- _; exact Go|eauto].
    + intros u. unfold upd. destruct (Nat.eqb_spec u o); [now subst|auto].
  - destruct (scan w p) as [(o & k)|] eqn:Es; [|discriminate]. assert (Go : G o) by eauto. destruct (Nat.ltb k (List.length (field w o))); injection E as <-; constructor; auto; cbn [with_scan with_work scan work].
    + intros q u. unfold upd. destruct (Nat.eqb_spec q p); [|eauto]. intros I. apply in_app_or in I as [I|I]; [eauto|]. pose proof (known_nth G _ k (A2 o Go)) as K. destruct (nth k (field w o) None); cbn [app In] in I; [destruct I as [<-|[]]; exact K|destruct I].
    + intros q u j. unfold upd. destruct (Nat.eqb_spec q p); [intros X; injection X as <- _; exact Go|eauto].
    + intros q u j. unfold upd. destruct (Nat.eqb_spec q p); [discriminate|eauto].
  - destruct (_ && _); [|discriminate]. injection E as <-. constructor; auto.
  - destruct (_ && _); [|discriminate]. injection E as <-. constructor; auto.
Qed.

Lemma run_within G ops : forall w w', within G w -> shape w -> run w ops = Some w' -> within G w'.
Proof.
  induction ops as [|o ops IH]; intros w w' W H E; cbn [run] in E; [now injection E as <-|].
  destruct (step w o) as [v|] eqn:Ev; [|discriminate]. apply (IH v); auto; [now apply (step_within G w o)|]. apply (step_shape w o); auto.
  intros c Hc p l I. pose proof (n_doing G w W c Hc) as D. rewrite Forall_forall in D. apply (D _ I).
Qed.

Lemma start_within w : at_start w -> within (fun o => reachable w o \/ (next w <= o)%nat) w.
Proof.
  intros A. constructor.
  - auto.
  - intros u Gu. apply Forall_forall. intros [x|] I; [|exact Logic.I]. destruct Gu as [R|L]; [left; now apply (from_field w u)|]. rewrite (a_fresh w A) in I by assumption. destruct I.
  - intros g. destruct (globals w g) as [o|] eqn:E; [|exact I]. left. now apply (from_global w g).
  - intros c Hc. apply Forall_forall. intros [x|] I; [|exact Logic.I]. left. now apply (from_var w c).
  - intros c Hc. destruct (a_cos w A c Hc) as (_ & _ & D & _). rewrite D. constructor.
  - intros p o I. apply (a_work w A) in I as (_ & g & E). left. now apply (from_global w g).
  - intros p o k E. destruct (a_rest w A p) as (_ & X & _). congruence.
  - intros o M. rewrite (a_marks w A) in M. discriminate.
Qed.
