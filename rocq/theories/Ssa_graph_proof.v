(** Which definitions of a variable reach a block, given where the phi functions are. *)
From Verif Require Import Base Base_lemmas Dom_model Dom_spec Dom_proof Live_model Live_spec Live_proof Ssa_model Ssa_spec.

Lemma way_replace g r1 : forall b y rest m, way g b (r1 ++ y :: rest) -> way g y m -> way g b (r1 ++ m).
Proof.
  induction r1 as [|x r1 IH]; intros b y rest m W Wm; cbn [app] in *.
  - destruct (way_head _ _ _ W) as [r E]. injection E as <- _. exact Wm.
  - inversion W as [E1 E2|b' p l W' E1 E2 E3]; subst.
    + destruct r1; discriminate.
    + apply way_step with (p := p); [eapply IH; eassumption|exact E1].
Qed.

Lemma way_tail g b l : way g b l -> b <> O -> exists p r, l = b :: p :: r /\ way g p (p :: r) /\ In p (preds g b).
Proof.
  intros W N. inversion W as [E1 E2|b' p l' W' E1 E2 E3]; subst; [congruence|]. destruct (way_head _ _ _ W') as [r ->].
  exists p, r. auto.
Qed.

Lemma first_split (a : nat) l : In a l -> exists r l', l = r ++ a :: l' /\ ~ In a r.
Proof.
  induction l as [|x l IH]; intros H; [destruct H|]. destruct (Nat.eq_dec x a) as [->|N]; [exists [], l; auto|].
  destruct H as [H|H]; [congruence|]. destruct (IH H) as [r [l' [-> K]]]. exists (x :: r), l'. split; [reflexivity|]. intros [E|E]; [congruence|contradiction].
Qed.

Section Graph.
  Variables (g : graph) (c : program).
  Hypothesis F : is_function g c.
  Let n := length g.

  Lemma pos : (0 < n)%nat.
  Proof. destruct F as [_ [E [N _]]]. unfold n. rewrite E. destruct c; [congruence|cbn; lia]. Qed.
  Lemma graph_ok : is_graph g. Proof. apply F. Qed.
  Lemma len : length c = n. Proof. unfold n. symmetry. apply F. Qed.
  Lemma edge p b : In p (preds g b) <-> In b (succs (block_of c p)). Proof. apply F. Qed.
  Lemma reached b : (b < n)%nat -> exists l, way g b l. Proof. apply graph_ok. Qed.
  Lemma way_lt b l : way g b l -> (b < n)%nat. Proof. apply way_bound; [apply graph_ok|apply pos]. Qed.
  Lemma pred_lt b p : In p (preds g b) -> (p < n)%nat. Proof. apply graph_ok. Qed.
  Lemma pred_lt2 b p : In p (preds g b) -> (b < n)%nat.
  Proof. intros H. destruct (Nat.lt_ge_cases b n) as [L|L]; [exact L|]. unfold preds in H. rewrite nth_overflow in H by exact L. destruct H. Qed.
  Lemma program_ok : is_program c.
  Proof. intros b s H. apply edge in H. rewrite len. apply pred_lt2 in H. exact H. Qed.

  Hypothesis small : zlen g <= 65535.
  Lemma dom_dec a b : (b < n)%nat -> {dominates g a b} + {~ dominates g a b}.
  Proof.
    intros Hb. assert (X : exists d, domers g = Ok d /\ forall a b, (b < length g)%nat -> (In a (get d b) <-> (a < length g)%nat /\ dominates g a b)).
    { destruct (domers_spec g graph_ok pos small) as [d [E [_ H]]]. exists d. auto. }
    destruct (domers g) as [d| | | | |]; try (exfalso; destruct X as [d' [E _]]; discriminate).
    assert (H : forall a b, (b < length g)%nat -> (In a (get d b) <-> (a < length g)%nat /\ dominates g a b)) by (destruct X as [d' [E H]]; injection E as <-; exact H).
    destruct (in_dec Nat.eq_dec a (get d b)) as [I0|I0].
    - left. apply H in I0; [apply I0|exact Hb].
    - right. intros D. apply I0. apply H; [exact Hb|]. split; [|exact D]. destruct (reached b Hb) as [l W]. pose proof (D l W) as K.
      destruct (way_split _ _ _ _ W K) as [r [l' [_ [W' _]]]]. apply way_lt in W'. exact W'.
  Qed.
  Lemma dom_lt a b : (b < n)%nat -> dominates g a b -> (a < n)%nat.
  Proof.
    intros Hb D. destruct (reached b Hb) as [l W]. destruct (way_split _ _ _ _ W (D l W)) as [r [l' [_ [W' _]]]]. apply way_lt in W'. exact W'.
  Qed.

  Lemma needed_lt b v : needed c b v -> (b < n)%nat.
  Proof.
    intros H. rewrite <- len. destruct (Nat.lt_ge_cases b (length c)) as [L|L]; [exact L|]. exfalso.
    destruct H as [b v [l1 [o [l2 [E _]]]]|b s v I0 _ _]; unfold block_of in *; rewrite nth_overflow in * by exact L; cbn [ops succs] in *; [destruct l1; discriminate|destruct I0].
  Qed.
  Lemma writes_lt b v : writes (ops (block_of c b)) v -> (b < n)%nat.
  Proof.
    intros [o [H _]]. rewrite <- len. destruct (Nat.lt_ge_cases b (length c)) as [L|L]; [exact L|]. unfold block_of in H. rewrite nth_overflow in H by exact L. destruct H.
  Qed.
  Lemma writes_dec l v : {writes l v} + {~ writes l v}.
  Proof.
    destruct (existsb (fun o => mem v (defs o)) l) eqn:E.
    - left. apply existsb_exists in E. destruct E as [o [H M]]. apply mem_iff in M. exists o. auto.
    - right. intros [o [H M]]. apply Bool.not_true_iff_false in E. apply E. apply existsb_exists. exists o. split; [exact H|apply mem_iff; exact M].
  Qed.

  (** a variable that is needed is assigned on every way before *)
  Lemma needed_back l : forall b v, way g b (b :: l) -> needed c b v -> (forall y, In y l -> ~ writes (ops (block_of c y)) v) -> needed c 0 v.
  Proof.
    induction l as [|p l IH]; intros b v W H N.
    - inversion W as [E1 E2|b' p l' W' E1 E2 E3]; subst; [exact H|]. inversion W'.
    - inversion W as [|b' p' l' W' E1 E2 E3]; subst. destruct (way_head _ _ _ W') as [r E]. injection E as -> ->.
      apply (IH p'); [exact W'| |intros y Hy; apply N; right; exact Hy].
      apply needed_later with (s := b); [apply edge; exact E1|apply N; left; reflexivity|exact H].
  Qed.

  Hypothesis strict : assigned_first c.
  Lemma assigned_before b v : needed c b v -> forall l, way g b (b :: l) -> exists y, In y l /\ writes (ops (block_of c y)) v.
  Proof.
    intros H l W. destruct (existsb (fun y => if writes_dec (ops (block_of c y)) v then true else false) l) eqn:E.
    - apply existsb_exists in E. destruct E as [y [Hy K]]. destruct (writes_dec _ _); [|discriminate]. exists y. auto.
    - exfalso. apply (strict v). apply (needed_back l b v W H). intros y Hy K. apply Bool.not_true_iff_false in E. apply E.
      apply existsb_exists. exists y. split; [exact Hy|]. destruct (writes_dec _ _); [reflexivity|contradiction].
  Qed.

  Lemma local_dominates d s v : (forall b, writes (ops (block_of c b)) v -> b = d) -> needed c s v -> strictly_dominates g d s.
  Proof.
    intros Lo H. assert (K : forall l, way g s (s :: l) -> In d l).
    { intros l W. destruct (assigned_before s v H l W) as [y [Hy Wy]]. apply Lo in Wy. subst y. exact Hy. }
    split.
    - intros l W. destruct (way_head _ _ _ W) as [r ->]. right. apply K. exact W.
    - intros ->. destruct (reached s (needed_lt _ _ H)) as [l W].
      assert (Q : forall k l, (length l <= k)%nat -> way g s l -> False); [|apply (Q (length l) l (le_n _) W)].
      induction k as [|k IH]; intros m L Wm; destruct (way_head _ _ _ Wm) as [r ->]; cbn [length] in L; [lia|].
      pose proof (K r Wm) as I0. destruct (way_tail _ _ _ Wm) as [p [r' [E [Wp _]]]].
      + intros ->. inversion Wm as [E1 E2|b' p l' W' E1 E2 E3]; subst; [destruct I0|]. rewrite (proj2 (proj2 graph_ok)) in E1. destruct E1.
      + injection E as ->. destruct (way_split _ _ _ _ Wp I0) as [q [m' [E' [W' _]]]]. apply (IH m'); [|exact W'].
        apply (f_equal (@length nat)) in E'. rewrite app_length in E'. cbn [length] in *. lia.
  Qed.

  (** ** the phi functions *)
  Variable phi : nat -> var -> Prop.
  Hypothesis phi_dec : forall b v, {phi b v} + {~ phi b v}.
  Hypothesis phi_closed : forall x d v, (x < n)%nat -> writes (ops (block_of c x)) v \/ phi x v -> frontier g x d -> needed c d v -> phi d v.

  Lemma frontier_on_way r : forall y b l, way g b (b :: r ++ y :: l) -> ~ strictly_dominates g y b -> exists z, In z (b :: r) /\ frontier g y z.
  Proof.
    induction r as [|p r IH]; intros y b l W N.
    - cbn [app] in W. destruct (Nat.eq_dec b O) as [->|Nb].
      + inversion W as [|b' p l' W' E1 E2 E3]; subst. rewrite (proj2 (proj2 graph_ok)) in E1. destruct E1.
      + destruct (way_tail _ _ _ W Nb) as [p [r' [E [W' I0]]]]. injection E as <- _. exists b. split; [left; reflexivity|].
        split; [|exact N]. exists y. split; [exact I0|apply dom_refl].
    - cbn [app] in W. assert (W0 := W). inversion W0 as [|b' p' l' W' E1 E2 E3]; subst. destruct (way_head _ _ _ W') as [r' E]. injection E as <- _.
      destruct (dom_dec y p (way_lt _ _ W')) as [D|D].
      + exists b. split; [left; reflexivity|]. split; [|exact N]. exists p. auto.
      + destruct (IH y p l W') as [z [Hz Fz]]; [intros [K _]; contradiction|]. exists z. split; [right; exact Hz|exact Fz].
  Qed.

  Lemma not_between a b r l : (b < n)%nat -> immediately_dominates g a b -> way g b (b :: r ++ a :: l) -> ~ In a r -> forall y, In y r -> ~ strictly_dominates g y b.
  Proof.
    intros Hb [Sd Im] W Na y Hy Sy. pose proof (Im y Sy) as D1. apply in_split in Hy. destruct Hy as [r1 [r2 ->]].
    assert (D2 : dominates g a y).
    { intros m Wm. assert (W2 : way g b ((b :: r1) ++ m)).
      { apply way_replace with (y := y) (rest := r2 ++ a :: l); [|exact Wm]. cbn [app]. rewrite <- app_assoc in W. exact W. }
      destruct Sd as [Sd Nab]. destruct (Sd _ W2) as [K|K]; [congruence|]. apply in_app_or in K. destruct K as [K|K]; [|exact K].
      exfalso. apply Na. apply in_or_app. left. exact K. }
    assert (E : a = y). { apply (dom_antisym g a y); [apply reached; apply (dom_lt y b Hb); apply Sy|exact D2|exact D1]. }
    subst y. apply Na. apply in_or_app. right. left. reflexivity.
  Qed.

  (** no definition and no phi between a block and its immediate dominator, if the block has no phi *)
  Lemma clear_between a b v l : immediately_dominates g a b -> needed c b v -> ~ phi b v ->
    forall r, way g b (b :: r ++ a :: l) -> ~ In a r -> forall r1 r2, r = r1 ++ r2 ->
    forall y, In y r1 -> ~ writes (ops (block_of c y)) v /\ ~ phi y v /\ needed c y v.
  Proof.
    intros Im H NP r W Na. pose proof (needed_lt _ _ H) as Hb.
    induction r1 as [|x r1 IH] using rev_ind; intros r2 E y Hy; [destruct Hy|].
    rewrite <- app_assoc in E. cbn [app] in E. specialize (IH (x :: r2) E).
    apply in_app_or in Hy. destruct Hy as [Hy|[<-|[]]]; [apply IH; exact Hy|].
    assert (Wx : way g b (b :: r1 ++ x :: (r2 ++ a :: l))) by (rewrite E, <- app_assoc in W; cbn [app] in W; exact W).
    assert (NS : ~ strictly_dominates g x b). { apply (not_between a b r l Hb Im W Na). rewrite E. apply in_or_app. right. left. reflexivity. }
    destruct (frontier_on_way r1 x b _ Wx NS) as [z [Hz Fz]].
    assert (Nz : ~ phi z v /\ needed c z v). { destruct Hz as [<-|Hz]; [auto|]. destruct (IH z Hz) as [_ K]. exact K. }
    assert (Lx : (x < n)%nat).
    { destruct Fz as [[q [Q1 Q2]] _]. apply (dom_lt x q); [apply pred_lt in Q1; exact Q1|exact Q2]. }
    assert (N1 : ~ writes (ops (block_of c x)) v) by (intros K; apply (proj1 Nz); apply (phi_closed x z v Lx); [left; exact K|exact Fz|apply Nz]).
    assert (N2 : ~ phi x v) by (intros K; apply (proj1 Nz); apply (phi_closed x z v Lx); [right; exact K|exact Fz|apply Nz]).
    split; [exact N1|]. split; [exact N2|].
    (* x is followed by a block where v is needed *)
    assert (Sx : exists s, In x (preds g s) /\ needed c s v).
    { destruct r1 as [|q r1 _] using rev_ind.
      - exists b. split; [|exact H]. cbn [app] in Wx. inversion Wx as [|b' p' l' W' E1 E2 E3]; subst. destruct (way_head _ _ _ W') as [r' E']. injection E' as <- _. exact E1.
      - exists q. split; [|destruct (IH q) as [_ [_ K]]; [apply in_or_app; right; left; reflexivity|exact K]].
        rewrite <- app_assoc in Wx. cbn [app] in Wx.
        assert (G : forall l0 b0, way g b0 (l0 ++ q :: x :: r2 ++ a :: l) -> In x (preds g q)).
        { induction l0 as [|z0 l0 IHl]; intros b0 W0; cbn [app] in W0.
          - inversion W0 as [|b' p' l' W' E1 E2 E3]; subst. destruct (way_head _ _ _ W') as [r' E']. injection E' as <- _. exact E1.
          - inversion W0 as [E1 E2|b' p' l' W' E1 E2 E3]; subst; [destruct l0; discriminate|]. eapply IHl. exact W'. }
        apply (G (b :: r1) b). exact Wx. }
    destruct Sx as [s [Hs Ns]]. apply needed_later with (s := s); [apply edge; exact Hs|exact N1|exact Ns].
  Qed.

  Lemma needed_at_dominator a b v : immediately_dominates g a b -> needed c b v -> ~ phi b v -> needed_after c a v.
  Proof.
    intros Im H NP. pose proof (needed_lt _ _ H) as Hb. destruct (reached b Hb) as [m W].
    destruct (way_head _ _ _ W) as [t ->]. destruct Im as [[D Nab] Im]. assert (I0 : In a t) by (destruct (D _ W) as [K|K]; [congruence|exact K]).
    destruct (first_split a t I0) as [r [l [-> Na]]].
    pose proof (clear_between a b v l (conj (conj D Nab) Im) H NP r W Na r [] (eq_sym (app_nil_r r))) as C.
    assert (Sx : exists s, In a (preds g s) /\ needed c s v); [|destruct Sx as [s [Hs Ns]]; exists s; split; [apply edge; exact Hs|exact Ns]].
    destruct r as [|q r _] using rev_ind.
    - exists b. split; [|exact H]. cbn [app] in W. inversion W as [|b' p' l' W' E1 E2 E3]; subst. destruct (way_head _ _ _ W') as [r' E']. injection E' as <- _. exact E1.
    - exists q. split; [|destruct (C q) as [_ [_ K]]; [apply in_or_app; right; left; reflexivity|exact K]].
      rewrite <- app_assoc in W. cbn [app] in W.
      assert (G : forall l0 b0, way g b0 (l0 ++ q :: a :: l) -> In a (preds g q)).
      { induction l0 as [|z0 l0 IHl]; intros b0 W0; cbn [app] in W0.
        - inversion W0 as [|b' p' l' W' E1 E2 E3]; subst. destruct (way_head _ _ _ W') as [r' E']. injection E' as <- _. exact E1.
        - inversion W0 as [E1 E2|b' p' l' W' E1 E2 E3]; subst; [destruct l0; discriminate|]. eapply IHl. exact W'. }
      apply (G (b :: r) b). exact W.
  Qed.

  (** nothing happens to v in the blocks between the immediate dominator of s and a predecessor *)
  Lemma clear_chain a s p v x : In p (preds g s) -> immediately_dominates g a s -> needed c s v -> ~ phi s v ->
    strictly_dominates g a x -> dominates g x p -> ~ writes (ops (block_of c x)) v /\ ~ phi x v.
  Proof.
    intros E Im H NP Sx Dx. assert (Lx : (x < n)%nat) by (apply (dom_lt x p); [apply pred_lt in E; exact E|exact Dx]).
    assert (Fx : frontier g x s).
    { split; [exists p; auto|]. intros K. destruct Im as [_ Im]. apply Im in K. destruct Sx as [D N]. apply N. apply (dom_antisym g a x); [apply reached; exact Lx|exact D|exact K]. }
    split; intros K; apply NP; apply (phi_closed x s v Lx); auto.
  Qed.

  (** v keeps its stack below block a *)
  Definition relevant (added : var -> Prop) (a : nat) (v : var) : Prop :=
    added v \/ forall y, (y < n)%nat -> strictly_dominates g a y -> ~ writes (ops (block_of c y)) v.

  Lemma local_relevant added d a v : (forall b, writes (ops (block_of c b)) v -> b = d) -> dominates g d a -> (a < n)%nat -> relevant added a v.
  Proof.
    intros Lo D La. right. intros y Ly [D2 N] W. apply Lo in W. subst y. apply N. apply (dom_antisym g a d); [apply reached; exact Ly|exact D2|exact D].
  Qed.

  Lemma relevant_down added a b v : (b < n)%nat -> dominates g a b -> relevant added a v -> relevant added b v.
  Proof.
    intros Lb D [A|R]; [left; exact A|right]. intros y Ly [D2 N]. apply R; [exact Ly|]. split; [eapply dom_trans; eassumption|]. intros ->.
    apply N. apply (dom_antisym g b y); [apply reached; exact Ly|exact D2|exact D].
  Qed.

  Hypothesis added : var -> Prop.
  Hypothesis kinds : forall v, added v \/ local c v.

  Lemma needed_relevant a s v : immediately_dominates g a s -> needed c s v -> relevant added a v.
  Proof.
    intros Im H. destruct (kinds v) as [A|[d Lo]]; [left; exact A|]. pose proof (local_dominates d s v Lo H) as Sd.
    pose proof (needed_lt _ _ H) as Ls.
    apply (local_relevant added d a v Lo); [destruct Im as [_ Im]; apply Im; exact Sd|]. apply (dom_lt a s Ls). apply Im.
  Qed.
End Graph.

