(** Moves of one point: the order found has the effect of all at once. *)
From Verif Require Import Base Base_lemmas Pmove_model Pmove_spec.

Lemma loc_eqb_eq a b : loc_eqb a b = true <-> a = b.
Proof.
  destruct a, b; cbn [loc_eqb]; split; intros H; try discriminate; try (apply Nat.eqb_eq in H; congruence); try (apply Z.eqb_eq in H; congruence); injection H as <-; first [apply Nat.eqb_refl|apply Z.eqb_refl].
Qed.
Lemma loc_eqb_refl a : loc_eqb a a = true.
Proof. apply loc_eqb_eq. reflexivity. Qed.
Lemma loc_eqb_neq a b : loc_eqb a b = false <-> a <> b.
Proof. split; intros H; [intros ->; rewrite loc_eqb_refl in H; discriminate|]. destruct (loc_eqb a b) eqn:E; [apply loc_eqb_eq in E; contradiction|reflexivity]. Qed.

Lemma nth_set_same {A} (l : list A) i x : (i < length l)%nat -> nth_error (list_set l i x) i = Some x.
Proof. intros H. rewrite nth_error_list_set, Nat.eqb_refl. destruct (i <? length l)%nat eqn:E; [reflexivity|lia]. Qed.
Lemma nth_set_other {A} (l : list A) i j x : i <> j -> nth_error (list_set l i x) j = nth_error l j.
Proof. intros H. rewrite nth_error_list_set. destruct (Nat.eqb i j) eqn:E; [apply Nat.eqb_eq in E; contradiction|reflexivity]. Qed.
Lemma nth_lt {A} (l : list A) i x : nth_error l i = Some x -> (i < length l)%nat.
Proof. intros H. apply nth_error_Some. congruence. Qed.
Lemma nth_ex {A} (l : list A) i : (i < length l)%nat -> exists x, nth_error l i = Some x.
Proof. intros H. apply nth_error_Some in H. destruct (nth_error l i) as [x|]; [exists x; reflexivity|contradiction]. Qed.
Lemma get_ok {A} (l : list A) i x : nth_error l i = Some x -> get l i = Ok x.
Proof. intros H. unfold get. rewrite H. reflexivity. Qed.

Lemma run_app {V} (m : machine V) a : forall b s, run m (a ++ b) s = run m b (run m a s).
Proof. induction a as [|o a IH]; intros b s; [reflexivity|]. cbn [app run]. apply IH. Qed.

(** the number of moves not begun *)
Definition is_to (x : status) : bool := match x with To_move => true | _ => false end.
Definition left_ (l : list status) : nat := length (filter is_to l).
Lemma left_le : forall l l', length l = length l' -> (forall j, nth_error l' j = Some To_move -> nth_error l j = Some To_move) -> (left_ l' <= left_ l)%nat.
Proof.
  unfold left_. induction l as [|x l IH]; intros [|y l'] L H; try discriminate; [reflexivity|]. cbn [length] in L. specialize (IH l' ltac:(lia) (fun j Hj => H (S j) Hj)).
  cbn [filter]. destruct y; cbn [is_to]; [|destruct (is_to x); cbn [length]; lia|destruct (is_to x); cbn [length]; lia]. specialize (H O eq_refl). cbn in H. injection H as ->. cbn [is_to length]. lia.
Qed.
Lemma left_len l : (left_ l <= length l)%nat.
Proof. unfold left_. induction l as [|x l IH]; [reflexivity|]. cbn [filter]. destruct (is_to x); cbn [length]; lia. Qed.
Lemma left_set : forall l i x, nth_error l i = Some To_move -> is_to x = false -> left_ l = S (left_ (list_set l i x)).
Proof.
  unfold left_. induction l as [|y l IH]; intros [|i] x H N; try discriminate; cbn [list_set filter].
  - cbn in H. injection H as ->. rewrite N. reflexivity.
  - specialize (IH i x H N). destruct (is_to y); cbn [length]; lia.
Qed.

Section Moves.
  Context {V : Type} (m : machine V) (ti tf : nat) (float : operand -> bool) (moves : list op) (s0 : store V).
  Hypothesis Hm : is_moves ti tf moves.
  Hypothesis Hc : one_conflict moves.

  Notation tmp := (tmp_of ti tf float).
  Notation at_ j o := (nth_error moves j = Some o).

  Lemma tmp_out o a : In o moves -> out o <> tmp a.
  Proof. intros H. destruct Hm as [_ [K _]]. destruct (K o H) as [K1 [K2 _]]. unfold tmp_of. destruct (float a); assumption. Qed.
  Lemma tmp_read o a : In o moves -> ~ reads o (tmp a).
  Proof. intros H. destruct Hm as [_ [K _]]. destruct (K o H) as [_ [_ [K1 K2]]]. unfold tmp_of. destruct (float a); assumption. Qed.
  Lemma out_inj i j o p : at_ i o -> at_ j p -> out o = out p -> i = j.
  Proof.
    intros Hi Hj E. destruct Hm as [ND _]. rewrite NoDup_nth_error in ND. apply ND; [rewrite map_length; apply (nth_lt _ _ _ Hi)|]. rewrite (map_nth_error out i moves Hi), (map_nth_error out j moves Hj). congruence.
  Qed.
  Lemma in_at i o : at_ i o -> In o moves.
  Proof. intros H. apply (nth_error_In _ _ H). Qed.
  Lemma op_inj i j o : at_ i o -> at_ j o -> i = j.
  Proof. intros H1 H2. apply (out_inj i j o o H1 H2 eq_refl). Qed.

  (** a conflict is a place read *)
  Lemma conflicts_first o d : In o moves -> (conflicts (first o) d = true <-> In d (places (first o))).
  Proof.
    intros H. destruct Hm as [_ [_ [K _]]]. specialize (K o). destruct (first o) as [[l|regs k|k]|]; cbn [conflicts places In]; try (split; [discriminate|intros []]).
    - rewrite loc_eqb_eq. tauto.
    - specialize (K regs k H (or_introl eq_refl)). rewrite Forall_forall in K. rewrite andb_true_iff, existsb_exists. split.
      + intros [_ [x [X1 X2]]]. apply loc_eqb_eq in X2. subst x. exact X1.
      + intros X. split; [apply K; exact X|]. exists d. split; [exact X|apply loc_eqb_refl].
  Qed.
  Lemma conflicts_second o d : In o moves -> (conflicts (second o) d = true <-> In d (places (second o))).
  Proof.
    intros H. destruct Hm as [_ [_ [K _]]]. specialize (K o). destruct (second o) as [[l|regs k|k]|]; cbn [conflicts places In]; try (split; [discriminate|intros []]).
    - rewrite loc_eqb_eq. tauto.
    - specialize (K regs k H (or_intror eq_refl)). rewrite Forall_forall in K. rewrite andb_true_iff, existsb_exists. split.
      + intros [_ [x [X1 X2]]]. apply loc_eqb_eq in X2. subst x. exact X1.
      + intros X. split; [apply K; exact X|]. exists d. split; [exact X|apply loc_eqb_refl].
  Qed.

  (** the store so far *)
  Definition now (s : st) : store V := run m (code_out s) s0.
  Definition quiet (s : st) (j : nat) (d : loc) : Prop :=
    exists a b, nth_error (srcs s) j = Some a /\ nth_error (srcs2 s) j = Some b /\ conflicts a d = false /\ conflicts b d = false.
  Definition orig (s : st) (j : nat) : Prop := exists o, at_ j o /\ nth_error (srcs s) j = Some (first o) /\ nth_error (srcs2 s) j = Some (second o).
  (** an operand is as it was, or its value is in a register *)
  Definition saved (s : st) (a0 a : option operand) : Prop :=
    a = a0 \/ exists v t, a0 = Some v /\ a = Some (Place (tmp t)) /\ now s (tmp t) = value m s0 v.
  Definition broken (s : st) (j : nat) : Prop :=
    (forall i o, at_ i o -> i <> j -> quiet s j (out o)) /\
    exists o a b, at_ j o /\ nth_error (srcs s) j = Some a /\ nth_error (srcs2 s) j = Some b /\ saved s (first o) a /\ saved s (second o) b.

  Record inv (r : nat) (s : st) : Prop := mk_inv {
    inv_len : length (srcs s) = length moves /\ length (srcs2 s) = length moves /\ length (stat s) = length moves;
    inv_moved : forall j o, at_ j o -> nth_error (stat s) j = Some Moved -> now s (out o) = result m s0 o;
    inv_rest : forall l, l <> IReg ti -> l <> FReg tf -> (forall j o, at_ j o -> nth_error (stat s) j = Some Moved -> l <> out o) -> now s l = s0 l;
    inv_src : forall j, (j < length moves)%nat -> nth_error (stat s) j <> Some Moved -> orig s j \/ (j = r /\ broken s j);
    inv_quiet : forall i j o, at_ i o -> nth_error (stat s) i = Some Moved -> (j < length moves)%nat -> nth_error (stat s) j <> Some Moved -> quiet s j (out o) }.

  Definition settled (s : st) (j : nat) (d : loc) : Prop := nth_error (stat s) j = Some Moved \/ quiet s j d.

  (** what a call leaves as it was *)
  Record goes_on (s s' : st) : Prop := mk_goes {
    go_moved : forall j, nth_error (stat s) j = Some Moved -> nth_error (stat s') j = Some Moved;
    go_being : forall j, nth_error (stat s) j = Some Being_moved -> nth_error (stat s') j = Some Being_moved;
    go_being' : forall j, nth_error (stat s') j = Some Being_moved -> nth_error (stat s) j = Some Being_moved;
    go_to : forall j, nth_error (stat s') j = Some To_move -> nth_error (stat s) j = Some To_move;
    go_settled : forall j i o, at_ i o -> i <> j -> settled s j (out o) -> settled s' j (out o) }.
  Lemma goes_refl s : goes_on s s.
  Proof. split; auto. Qed.
  Lemma goes_trans s s' s'' : goes_on s s' -> goes_on s' s'' -> goes_on s s''.
  Proof. intros [A1 A2 A3 A4 A5] [B1 B2 B3 B4 B5]. split; intros; eauto. Qed.

  (** operands that are quiet about everything moved have their values *)
  Lemma value_places s s' o : (forall l, In l (places (Some o)) -> s l = s' l) -> value m s o = value m s' o.
  Proof.
    destruct o as [l|regs k|k]; cbn [places value]; intros H; [apply H; left; reflexivity| |reflexivity]. f_equal. apply map_ext_in. exact H.
  Qed.
  Lemma plain_values r s j o : inv r s -> at_ j o -> nth_error (stat s) j <> Some Moved -> orig s j -> forall l, reads o l -> now s l = s0 l.
  Proof.
    intros I Hj Nm [o' [Ho [E1 E2]]] l Hl. assert (o' = o) by congruence. subst o'. pose proof (in_at _ _ Hj) as Hin. destruct Hm as [_ [K [K3 _]]]. destruct (K o Hin) as [_ [_ [K1 K2]]].
    apply (inv_rest r s I); [intros ->; apply K1; exact Hl|intros ->; apply K2; exact Hl|]. intros i p Hi Mi ->. destruct (inv_quiet r s I i j p Hi Mi (nth_lt _ _ _ Hj) Nm) as [a [b [Q1 [Q2 [Q3 Q4]]]]].
    rewrite E1 in Q1. injection Q1 as <-. rewrite E2 in Q2. injection Q2 as <-. destruct Hl as [Hl|Hl]; [apply conflicts_first in Hl; [congruence|exact Hin]|apply conflicts_second in Hl; [congruence|exact Hin]].
  Qed.
  Lemma source_values r s j o a b : inv r s -> at_ j o -> nth_error (stat s) j <> Some Moved -> nth_error (srcs s) j = Some a -> nth_error (srcs2 s) j = Some b ->
    option_map (value m (now s)) a = option_map (value m s0) (first o) /\ option_map (value m (now s)) b = option_map (value m s0) (second o).
  Proof.
    intros I Hj Nm Ha Hb. destruct (inv_src r s I j (nth_lt _ _ _ Hj) Nm) as [O|[_ [Q [o' [a' [b' [Ho [E1 [E2 [S1 S2]]]]]]]]]].
    - pose proof (plain_values r s j o I Hj Nm O) as P. destruct O as [o' [Ho [E1 E2]]]. assert (o' = o) by congruence. subst o'. rewrite Ha in E1. injection E1 as ->. rewrite Hb in E2. injection E2 as ->.
      split; [destruct (first o) as [x|] eqn:E|destruct (second o) as [x|] eqn:E]; cbn [option_map]; try reflexivity; f_equal; apply value_places; intros l Hl; apply P; unfold reads; rewrite E; auto.
    - assert (o' = o) by congruence. subst o'. rewrite Ha in E1. injection E1 as <-. rewrite Hb in E2. injection E2 as <-.
      assert (Pl : forall x c, (first o = Some x \/ second o = Some x) -> nth_error (srcs s) j = Some (Some x) \/ nth_error (srcs2 s) j = Some (Some x) -> c = Some x -> value m (now s) x = value m s0 x).
      { intros x c Hx Hs _. apply value_places. intros l Hl. pose proof (in_at _ _ Hj) as Hin. destruct Hm as [_ [K [K3 _]]]. destruct (K o Hin) as [_ [_ [K1 K2]]]. assert (Hr : reads o l) by (unfold reads; destruct Hx as [Hx|Hx]; rewrite Hx; auto).
        apply (inv_rest r s I); [intros ->; apply K1; exact Hr|intros ->; apply K2; exact Hr|]. intros i p Hi Mi ->. assert (Hij : i <> j) by (intros ->; contradiction). destruct (Q i p Hi Hij) as [a2 [b2 [Q1 [Q2 [Q3 Q4]]]]].
        assert (Cx : conflicts (Some x) (out p) = true).
        { destruct Hx as [Hx|Hx]; rewrite <- Hx in *; [apply (conflicts_first o (out p) Hin)|apply (conflicts_second o (out p) Hin)]; exact Hl. }
        destruct Hs as [Hs|Hs]; congruence. }
      split.
      + destruct S1 as [->|[v [t [E [-> E']]]]].
        * destruct (first o) as [x|] eqn:E; [|reflexivity]. cbn [option_map]. f_equal. apply (Pl x (Some x)); auto.
        * rewrite E. cbn [option_map value]. f_equal. exact E'.
      + destruct S2 as [->|[v [t [E [-> E']]]]].
        * destruct (second o) as [x|] eqn:E; [|reflexivity]. cbn [option_map]. f_equal. apply (Pl x (Some x)); auto.
        * rewrite E. cbn [option_map value]. f_equal. exact E'.
  Qed.
  Lemma result_eq o a b s : option_map (value m s) a = option_map (value m s0) (first o) -> option_map (value m s) b = option_map (value m s0) (second o) -> result m s (mk_op (code o) a b (out o)) = result m s0 o.
  Proof.
    intros H1 H2. unfold result. cbn [code first second]. rewrite H1, H2. destruct (code o); [|reflexivity|reflexivity]. destruct a as [x|], (first o) as [y|]; cbn [option_map] in *; try discriminate; [congruence|reflexivity].
  Qed.

  (** emitting a move all of whose readers are settled *)
  Lemma emit r s i o a b : inv r s -> at_ i o -> nth_error (stat s) i = Some Being_moved -> nth_error (srcs s) i = Some a -> nth_error (srcs2 s) i = Some b ->
    (forall j, (j < length moves)%nat -> j <> i -> settled s j (out o)) ->
    let s' := mk_st (srcs s) (srcs2 s) (list_set (stat s) i Moved) (code_out s ++ [mk_op (code o) a b (out o)]) in
    inv r s' /\ (forall j, j <> i -> nth_error (stat s') j = nth_error (stat s) j) /\ nth_error (stat s') i = Some Moved /\ (forall j d, settled s j d -> settled s' j d).
  Proof.
    intros I Hi Si Ha Hb St s'. destruct (inv_len r s I) as [L1 [L2 L3]]. pose proof (nth_lt _ _ _ Hi) as Lt.
    destruct (source_values r s i o a b I Hi ltac:(congruence) Ha Hb) as [V1 V2]. pose proof (result_eq o a b (now s) V1 V2) as Rs.
    assert (Nw : forall l, now s' l = if loc_eqb l (out o) then result m s0 o else now s l).
    { intros l. unfold now. cbn [s' code_out]. rewrite run_app. cbn [run out]. unfold set. fold (now s). rewrite Rs. reflexivity. }
    assert (Sti : nth_error (stat s') i = Some Moved) by (cbn [s' stat]; apply nth_set_same; lia).
    assert (Stj : forall j, j <> i -> nth_error (stat s') j = nth_error (stat s) j) by (intros j Hj; cbn [s' stat]; apply nth_set_other; congruence).
    assert (Qs : forall j d, quiet s j d -> quiet s' j d) by (intros j d H; exact H).
    split; [|split; [exact Stj|split; [exact Sti|]]].
    - split.
      + cbn [s' srcs srcs2 stat]. rewrite length_list_set. auto.
      + intros j p Hj Mj. rewrite Nw. destruct (loc_eqb (out p) (out o)) eqn:E.
        * apply loc_eqb_eq in E. assert (j = i) by (apply (out_inj j i p o); assumption). subst j. assert (p = o) by congruence. subst p. reflexivity.
        * apply loc_eqb_neq in E. apply (inv_moved r s I j p Hj). rewrite <- Stj; [exact Mj|]. intros ->. assert (p = o) by congruence. subst p. apply E. reflexivity.
      + intros l N1 N2 N3. rewrite Nw. destruct (loc_eqb l (out o)) eqn:E; [apply loc_eqb_eq in E; exfalso; apply (N3 i o Hi Sti); exact E|]. apply (inv_rest r s I l N1 N2). intros j p Hj Mj. apply (N3 j p Hj). destruct (Nat.eq_dec j i) as [->|Hji]; [congruence|rewrite Stj; assumption].
      + intros j Hj Nj. assert (Hji : j <> i) by (intros ->; congruence). rewrite (Stj j Hji) in Nj. destruct (inv_src r s I j Hj Nj) as [O|[-> B]]; [left; exact O|right]. split; [reflexivity|].
        destruct B as [Q [p [a' [b' [P1 [P2 [P3 [P4 P5]]]]]]]]. split; [exact Q|]. exists p, a', b'. split; [exact P1|]. split; [exact P2|]. split; [exact P3|].
        assert (Kp : forall x y, saved s x y -> saved s' x y).
        { intros x y [E|[v [t [E1 [E2 E3]]]]]; [left; exact E|right]. exists v, t. split; [exact E1|]. split; [exact E2|]. rewrite Nw. destruct (loc_eqb (tmp t) (out o)) eqn:E; [|exact E3]. apply loc_eqb_eq in E. exfalso. apply (tmp_out o t (in_at _ _ Hi)). congruence. }
        split; apply Kp; assumption.
      + intros i' j p Hi' Mi' Hj Nj. assert (Hji : j <> i) by (intros ->; congruence). rewrite (Stj j Hji) in Nj. apply Qs. destruct (Nat.eq_dec i' i) as [->|Hii].
        * assert (p = o) by congruence. subst p. destruct (St j Hj Hji) as [M|Q]; [contradiction|exact Q].
        * rewrite (Stj i' Hii) in Mi'. apply (inv_quiet r s I i' j p Hi' Mi' Hj Nj).
    - intros j d [M|Q]; [left|right; apply Qs; exact Q]. destruct (Nat.eq_dec j i) as [->|Hji]; [exact Sti|rewrite Stj; assumption].
  Qed.

  (** breaking a cycle: the move begun first reads what the move at hand writes *)
  Lemma break_ok s r i o p a b : inv r s -> at_ i o -> at_ r p -> i <> r -> nth_error (stat s) r = Some Being_moved -> nth_error (srcs s) r = Some a -> nth_error (srcs2 s) r = Some b ->
    conflicts a (out o) || conflicts b (out o) = true ->
    exists s', break_cycle ti tf float p r (conflicts a (out o)) (conflicts b (out o)) s = Ok s' /\ inv r s' /\ stat s' = stat s /\ (forall j k q, at_ k q -> k <> j -> settled s j (out q) -> settled s' j (out q)) /\ quiet s' r (out o).
  Proof.
    intros I Hi Hr Nir Sr Ha Hb Cf. destruct (inv_len r s I) as [L1 [L2 L3]]. pose proof (nth_lt _ _ _ Hr) as Lt. pose proof (in_at _ _ Hr) as Hin. assert (Nm : nth_error (stat s) r <> Some Moved) by congruence.
    assert (Og : orig s r).
    { destruct (inv_src r s I r Lt Nm) as [O|[_ [Q _]]]; [exact O|]. destruct (Q i o Hi Nir) as [a' [b' [Q1 [Q2 [Q3 Q4]]]]]. rewrite Ha in Q1. injection Q1 as <-. rewrite Hb in Q2. injection Q2 as <-. rewrite Q3, Q4 in Cf. discriminate. }
    pose proof (plain_values r s r p I Hr Nm Og) as Pv. destruct Og as [p' [Hp [E1 E2]]]. assert (p' = p) by congruence. subst p'. rewrite Ha in E1. injection E1 as ->. rewrite Hb in E2. injection E2 as ->.
    destruct (Hc p Hin) as [C1 C2]. assert (Nop : o <> p) by (intros ->; apply Nir; apply (op_inj i r p); assumption).
    (* no other conflicts *)
    assert (F1 : forall k q, at_ k q -> k <> r -> conflicts (first p) (out q) = true -> q = o).
    { intros k q Hk Nk X. apply conflicts_first in X; [|exact Hin]. apply (C1 q o (in_at _ _ Hk) (in_at _ _ Hi)); [intros ->; apply Nk; apply (op_inj k r p); assumption|exact Nop|left; exact X|].
      apply orb_true_iff in Cf. destruct Cf as [Cf|Cf]; [left; apply conflicts_first in Cf; assumption|right; apply conflicts_second in Cf; assumption]. }
    assert (F2 : forall k q, at_ k q -> k <> r -> conflicts (second p) (out q) = true -> q = o).
    { intros k q Hk Nk X. apply conflicts_second in X; [|exact Hin]. apply (C1 q o (in_at _ _ Hk) (in_at _ _ Hi)); [intros ->; apply Nk; apply (op_inj k r p); assumption|exact Nop|right; exact X|].
      apply orb_true_iff in Cf. destruct Cf as [Cf|Cf]; [left; apply conflicts_first in Cf; assumption|right; apply conflicts_second in Cf; assumption]. }
    set (fc := conflicts (first p) (out o)) in *. set (sc := conflicts (second p) (out o)) in *.
    assert (Ev : exists v, (if fc then first p else second p) = Some v).
    { unfold fc, sc in *. destruct (conflicts (first p) (out o)) eqn:Ef; [destruct (first p) as [v|]; [exists v; reflexivity|discriminate]|]. cbn [orb] in Cf. destruct (second p) as [v|]; [exists v; reflexivity|discriminate]. }
    destruct Ev as [v Ev]. unfold break_cycle. rewrite Ev. set (t := tmp v).
    set (s' := mk_st (if fc then list_set (srcs s) r (Some (Place t)) else srcs s) (if sc then list_set (srcs2 s) r (Some (Place t)) else srcs2 s) (stat s) (code_out s ++ [mk_op 0 (Some v) None t])).
    exists s'. split; [reflexivity|].
    assert (Vv : value m (now s) v = value m s0 v).
    { apply value_places. intros l Hl. apply Pv. unfold reads. destruct fc; rewrite Ev; auto. }
    assert (Nw : forall l, now s' l = if loc_eqb l t then value m s0 v else now s l).
    { intros l. unfold now. cbn [s' code_out]. rewrite run_app. cbn [run out]. unfold set, result. cbn [code first second]. fold (now s). rewrite Vv. reflexivity. }
    assert (Nto : forall q, In q moves -> out q <> t) by (intros q Hq; apply tmp_out; exact Hq).
    assert (Ns : forall l, now s l = s0 l -> l <> t -> now s' l = s0 l) by (intros l H1 H2; rewrite Nw; apply loc_eqb_neq in H2; rewrite H2; exact H1).
    assert (Sj : forall j, j <> r -> nth_error (srcs s') j = nth_error (srcs s) j) by (intros j Hj; cbn [s' srcs]; destruct fc; [apply nth_set_other; congruence|reflexivity]).
    assert (Sj2 : forall j, j <> r -> nth_error (srcs2 s') j = nth_error (srcs2 s) j) by (intros j Hj; cbn [s' srcs2]; destruct sc; [apply nth_set_other; congruence|reflexivity]).
    assert (Sr1 : nth_error (srcs s') r = Some (if fc then Some (Place t) else first p)) by (cbn [s' srcs]; destruct fc; [apply nth_set_same; lia|exact Ha]).
    assert (Sr2 : nth_error (srcs2 s') r = Some (if sc then Some (Place t) else second p)) by (cbn [s' srcs2]; destruct sc; [apply nth_set_same; lia|exact Hb]).
    assert (Tq : forall q, In q moves -> conflicts (Some (Place t)) (out q) = false) by (intros q Hq; cbn [conflicts]; apply loc_eqb_neq; intros E; apply (Nto q Hq); congruence).
    assert (Qr : forall k q, at_ k q -> k <> r -> quiet s' r (out q)).
    { intros k q Hk Nk. eexists _, _. split; [exact Sr1|]. split; [exact Sr2|]. split.
      - destruct fc eqn:Ef; [apply Tq; apply (in_at _ _ Hk)|]. destruct (conflicts (first p) (out q)) eqn:E; [|reflexivity]. rewrite (F1 k q Hk Nk E) in E. unfold fc in Ef. congruence.
      - destruct sc eqn:Ef; [apply Tq; apply (in_at _ _ Hk)|]. destruct (conflicts (second p) (out q)) eqn:E; [|reflexivity]. rewrite (F2 k q Hk Nk E) in E. unfold sc in Ef. congruence. }
    assert (Qj : forall j d, j <> r -> quiet s j d -> quiet s' j d).
    { intros j d Hj [a' [b' [Q1 [Q2 Q3]]]]. exists a', b'. rewrite Sj, Sj2 by exact Hj. auto. }
    split; [|split; [reflexivity|split; [|apply (Qr i o Hi Nir)]]].
    - split.
      + cbn [s' srcs srcs2 stat]. destruct fc, sc; rewrite ?length_list_set; auto.
      + intros j q Hj Mj. rewrite Nw. destruct (loc_eqb (out q) t) eqn:E; [apply loc_eqb_eq in E; exfalso; apply (Nto q (in_at _ _ Hj)); exact E|]. apply (inv_moved r s I j q Hj Mj).
      + intros l N1 N2 N3. rewrite Nw. destruct (loc_eqb l t) eqn:E; [|apply (inv_rest r s I l N1 N2 N3)]. apply loc_eqb_eq in E. exfalso. unfold t, tmp_of in E. destruct (float v); congruence.
      + intros j Hj Nj. destruct (Nat.eq_dec j r) as [->|Njr].
        * right. split; [reflexivity|]. split; [intros k q Hk Nk; apply (Qr k q Hk Nk)|]. exists p. eexists _, _. split; [exact Hr|]. split; [exact Sr1|]. split; [exact Sr2|].
          assert (Et : now s' t = value m s0 v) by (rewrite Nw, loc_eqb_refl; reflexivity). split.
          -- destruct fc eqn:Ef; [right; exists v, v; split; [exact Ev|]; split; [reflexivity|exact Et]|left; reflexivity].
          -- destruct sc eqn:Es; [|left; reflexivity]. right. exists v, v. split; [|split; [reflexivity|exact Et]]. destruct fc eqn:Ef; [|exact Ev]. rewrite <- Ev. symmetry. unfold fc in Ef. unfold sc in Es. apply conflicts_first in Ef; [|exact Hin]. apply conflicts_second in Es; [|exact Hin].
             apply (C2 o o (in_at _ _ Hi) (in_at _ _ Hi) Nop Nop Ef Es).
        * destruct (inv_src r s I j Hj Nj) as [[q [Q1 [Q2 Q3]]]|[E _]]; [|contradiction]. left. exists q. rewrite Sj, Sj2 by exact Njr. auto.
      + intros k j q Hk Mk Hj Nj. destruct (Nat.eq_dec j r) as [->|Njr].
        * apply (Qr k q Hk). intros ->. cbn [s' stat] in Mk. congruence.
        * apply Qj; [exact Njr|]. apply (inv_quiet r s I k j q Hk Mk Hj Nj).
    - intros j k q Hk Nkj [M|Q]; [left; exact M|right]. destruct (Nat.eq_dec j r) as [->|Njr]; [apply (Qr k q Hk Nkj)|apply Qj; assumption].
  Qed.

  Lemma inv_begin r s i : inv r s -> nth_error (stat s) i = Some To_move -> inv r (mk_st (srcs s) (srcs2 s) (list_set (stat s) i Being_moved) (code_out s)).
  Proof.
    intros I Si. set (s' := mk_st _ _ _ _). destruct (inv_len r s I) as [L1 [L2 L3]]. pose proof (nth_lt _ _ _ Si) as Lt.
    assert (Mv : forall j, nth_error (stat s') j = Some Moved <-> nth_error (stat s) j = Some Moved).
    { intros j. cbn [s' stat]. destruct (Nat.eq_dec i j) as [<-|N]; [rewrite nth_set_same by exact Lt; split; congruence|rewrite nth_set_other by exact N; reflexivity]. }
    split.
    - cbn [s' srcs srcs2 stat]. rewrite length_list_set. auto.
    - intros j o Hj Mj. apply Mv in Mj. apply (inv_moved r s I j o Hj Mj).
    - intros l N1 N2 N3. apply (inv_rest r s I l N1 N2). intros j o Hj Mj. apply (N3 j o Hj). apply Mv. exact Mj.
    - intros j Hj Nj. apply (inv_src r s I j Hj). intros M. apply Nj. apply Mv. exact M.
    - intros k j o Hk Mk Hj Nj. apply Mv in Mk. apply (inv_quiet r s I k j o Hk Mk Hj). intros M. apply Nj. apply Mv. exact M.
  Qed.

  (** the moves begun: each reads what the one before it writes *)
  Fixpoint chain (l : list nat) : Prop :=
    match l with
    | a :: (b :: _) as t => (exists x y, at_ a x /\ at_ b y /\ reads x (out y)) /\ chain t
    | _ => True
    end.
  Lemma chain_end : forall l1 j l2 i o x, chain (i :: l1 ++ j :: l2) -> NoDup (i :: l1 ++ j :: l2) -> at_ i o -> at_ j x -> reads x (out o) -> l2 = [].
  Proof.
    intros l1 j l2 i o x C ND Hi Hj Rd. destruct l2 as [|q l2]; [reflexivity|]. exfalso.
    assert (K : exists y, at_ q y /\ reads x (out y)).
    { clear ND. revert C. generalize i. induction l1 as [|a l1 IH]; intros i0 C.
      - cbn [app] in C. destruct C as [_ [[x' [y [X1 [X2 X3]]]] _]]. exists y. assert (x' = x) by congruence. subst. auto.
      - apply (IH a). cbn [app] in C. exact (proj2 C). }
    destruct K as [y [Hq Ry]]. apply NoDup_cons_iff in ND. destruct ND as [Ni ND].
    assert (Nji : j <> i) by (intros ->; apply Ni; apply in_or_app; right; left; reflexivity).
    assert (Nqi : q <> i) by (intros ->; apply Ni; apply in_or_app; right; right; left; reflexivity).
    apply NoDup_remove_2 in ND. assert (Nqj : q <> j) by (intros ->; apply ND; apply in_or_app; right; left; reflexivity).
    apply Nqi. apply (op_inj q i o); [|exact Hi]. rewrite Hq. f_equal. apply (proj1 (Hc x (in_at _ _ Hj))); [apply (in_at _ _ Hq)|apply (in_at _ _ Hi)| | |exact Ry|exact Rd].
    - intros ->. apply Nqj. apply (op_inj q j x); assumption.
    - intros ->. apply Nji. apply (op_inj j i x); assumption.
  Qed.
  Lemma last_app_one {A} (l : list A) x d : last (l ++ [x]) d = x.
  Proof. induction l as [|y l IH]; [reflexivity|]. cbn [app last]. destruct (l ++ [x]) eqn:E; [destruct l; discriminate|exact IH]. Qed.
  Lemma chain_root path i j o x : chain (i :: path) -> NoDup (i :: path) -> at_ i o -> at_ j x -> reads x (out o) -> In j path -> j = last (i :: path) i.
  Proof.
    intros C ND Hi Hj Rd Hp. apply in_split in Hp. destruct Hp as [l1 [l2 ->]]. rewrite (chain_end l1 j l2 i o x C ND Hi Hj Rd). symmetry. apply (last_app_one (i :: l1)).
  Qed.

  Lemma conf_reads s j x d : orig s j -> at_ j x -> forall a b, nth_error (srcs s) j = Some a -> nth_error (srcs2 s) j = Some b -> conflicts a d || conflicts b d = true -> reads x d.
  Proof.
    intros [o [Ho [E1 E2]]] Hx a b Ha Hb C. assert (o = x) by congruence. subst o. rewrite Ha in E1. injection E1 as ->. rewrite Hb in E2. injection E2 as ->. pose proof (in_at _ _ Hx) as Hin. apply orb_true_iff in C. destruct C as [C|C]; [left; apply conflicts_first in C; assumption|right; apply conflicts_second in C; assumption].
  Qed.

  Definition self (o : op) : bool := (code o =? 0) && match first o with Some (Place l) => loc_eqb l (out o) | _ => false end.
  Lemma self_reads o : In o moves -> self o = true -> forall p, In p moves -> reads o (out p) -> p = o.
  Proof.
    intros Ho S p Hp R. unfold self in S. apply andb_true_iff in S. destruct S as [S1 S2]. apply Z.eqb_eq in S1. destruct Hm as [_ [_ [_ K]]]. destruct (K o Ho S1) as [_ K2]. destruct (first o) as [[l|regs k|k]|] eqn:E; try discriminate. apply loc_eqb_eq in S2. subst l.
    destruct R as [R|R]; [|rewrite K2 in R; destruct R]. rewrite E in R. destruct R as [R|[]]. apply In_nth_error in Ho. destruct Ho as [i Hi]. apply In_nth_error in Hp. destruct Hp as [j Hj]. assert (i = j) by (apply (out_inj i j o p); assumption). subst j. congruence.
  Qed.

  Definition top (path : list nat) (r : nat) (s : st) : Prop :=
    inv r s /\ NoDup path /\ chain path /\ (forall j, nth_error (stat s) j = Some Being_moved <-> In j path) /\ (match path with i :: _ => last path i = r | [] => True end).
  Lemma top_goes path r s s' : top path r s -> inv r s' -> goes_on s s' -> top path r s'.
  Proof. intros [_ [T2 [T3 [T4 T5]]]] I G. repeat split; auto; try apply I; intros H; [apply T4; apply (go_being' s s' G); exact H|apply (go_being s s' G); apply T4; exact H]. Qed.

  Lemma last_any {A} (l : list A) : forall x d d', last (x :: l) d = last (x :: l) d'.
  Proof. induction l as [|y l IH]; intros x d d'; [reflexivity|]. exact (IH y d d'). Qed.
  Lemma last_in {A} (l : list A) x d : In (last (x :: l) d) (x :: l).
  Proof. revert x. induction l as [|y l IH]; intros x; [left; reflexivity|]. right. exact (IH y). Qed.
  Lemma left_goes r s s' : inv r s -> inv r s' -> goes_on s s' -> (left_ (stat s') <= left_ (stat s))%nat.
  Proof. intros I I' G. destruct (inv_len r s I) as [_ [_ L]]. destruct (inv_len r s' I') as [_ [_ L']]. apply left_le; [congruence|]. apply (go_to s s' G). Qed.

  Lemma move_one_ok : forall fuel r path i o s, top path r s -> at_ i o -> nth_error (stat s) i = Some To_move -> orig s i -> self o = false ->
    match path with [] => i = r | p :: _ => exists y, at_ p y /\ reads o (out y) end -> (left_ (stat s) <= fuel)%nat ->
    exists s', move_one fuel ti tf float moves i s = Ok s' /\ inv r s' /\ goes_on s s' /\ nth_error (stat s') i = Some Moved.
  Proof.
    induction fuel as [|fuel IH]; intros r path i o s T Hi Si Og Sf Pa Lf.
    { exfalso. pose proof (left_set (stat s) i Moved Si eq_refl). lia. }
    pose proof T as [I [ND [C [Bp Lp]]]]. destruct Og as [o' [Ho [E1 E2]]]. assert (o' = o) by congruence. subst o'.
    cbn [move_one]. rewrite (get_ok _ _ _ Hi), (get_ok _ _ _ E1). cbn [bind]. fold (self o). rewrite Sf.
    destruct (inv_len r s I) as [L1 [L2 L3]]. pose proof (nth_lt _ _ _ Hi) as Lt.
    set (s1 := mk_st (srcs s) (srcs2 s) (list_set (stat s) i Being_moved) (code_out s)).
    pose proof (inv_begin r s i I Si) as I1. fold s1 in I1.
    assert (Nip : ~ In i path) by (intros H; apply Bp in H; congruence).
    assert (S1i : nth_error (stat s1) i = Some Being_moved) by (cbn [s1 stat]; apply nth_set_same; lia).
    assert (S1j : forall j, j <> i -> nth_error (stat s1) j = nth_error (stat s) j) by (intros j Hj; cbn [s1 stat]; apply nth_set_other; congruence).
    assert (T1 : top (i :: path) r s1).
    { split; [exact I1|]. split; [constructor; assumption|]. split.
      - destruct path as [|p path']; [exact Logic.I|]. split; [|exact C]. destruct Pa as [y [Y1 Y2]]. exists o, y. auto.
      - split.
        + intros j. destruct (Nat.eq_dec j i) as [->|N]; [split; [left; reflexivity|intros; exact S1i]|]. rewrite (S1j j N). rewrite Bp. split; [right; assumption|intros [H|H]; [congruence|exact H]].
        + destruct path as [|p path']; [cbn [last]; exact Pa|]. rewrite <- Lp. exact (last_any path' p i p). }
    pose proof (left_set (stat s) i Being_moved Si eq_refl) as Lft. change (list_set (stat s) i Being_moved) with (stat s1) in Lft.
    set (body := fun j s => _).
    assert (Lp2 : forall l s2, (forall j, In j l -> (j < length moves)%nat) -> top (i :: path) r s2 -> (left_ (stat s2) <= fuel)%nat ->
      exists s3, each body l s2 = Ok s3 /\ inv r s3 /\ goes_on s2 s3 /\ (forall j, In j l -> j <> i -> settled s3 j (out o))).
    { induction l as [|j l IHl]; intros s2 Hl T2 L2'.
      { exists s2. split; [reflexivity|]. split; [apply T2|]. split; [apply goes_refl|]. intros j []. }
      assert (Bd : exists s3, body j s2 = Ok s3 /\ inv r s3 /\ goes_on s2 s3 /\ (j <> i -> settled s3 j (out o))).
      { pose proof T2 as [I2 [ND2 [C2 [B2 Ls2]]]]. destruct (inv_len r s2 I2) as [M1 [M2 M3]]. pose proof (Hl j (or_introl eq_refl)) as Hj. unfold body. destruct (Nat.eqb j i) eqn:Ej.
        { apply Nat.eqb_eq in Ej. exists s2. split; [reflexivity|]. split; [exact I2|]. split; [apply goes_refl|]. intros; contradiction. }
        apply Nat.eqb_neq in Ej. destruct (nth_ex (srcs s2) j ltac:(lia)) as [a Ha]. destruct (nth_ex (srcs2 s2) j ltac:(lia)) as [b Hb]. destruct (nth_ex (stat s2) j ltac:(lia)) as [x Hx]. destruct (nth_ex moves j Hj) as [oj Hoj].
        rewrite (get_ok _ _ _ Ha), (get_ok _ _ _ Hb). cbn [bind]. destruct (conflicts a (out o) || conflicts b (out o)) eqn:Cf.
        2:{ exists s2. split; [reflexivity|]. split; [exact I2|]. split; [apply goes_refl|]. intros _. right. apply orb_false_iff in Cf. exists a, b. tauto. }
        rewrite (get_ok _ _ _ Hx). cbn [bind].
        assert (Hr : In r (i :: path)) by (rewrite <- Ls2; apply last_in).
        destruct x.
        - (* not begun *)
          assert (Njr : j <> r) by (intros ->; apply B2 in Hr; congruence). assert (Oj : orig s2 j) by (destruct (inv_src r s2 I2 j Hj ltac:(congruence)) as [K|[K _]]; [exact K|contradiction]).
          pose proof (conf_reads s2 j oj (out o) Oj Hoj a b Ha Hb Cf) as Rd.
          assert (Sj : self oj = false). { destruct (self oj) eqn:Es; [|reflexivity]. exfalso. assert (o = oj) by (apply (self_reads oj (in_at _ _ Hoj) Es o (in_at _ _ Hi) Rd)). subst oj. apply Ej. apply (op_inj j i o); assumption. }
          destruct (IH r (i :: path) j oj s2 T2 Hoj Hx Oj Sj) as [s3 [R1 [R2 [R3 R4]]]]; [exists o; auto|exact L2'|]. exists s3. split; [exact R1|]. split; [exact R2|]. split; [exact R3|]. intros _. left. exact R4.
        - (* begun: the first of them *)
          assert (Hjr : j = r).
          { destruct (Nat.eq_dec j r) as [E|N]; [exact E|]. assert (Oj : orig s2 j) by (destruct (inv_src r s2 I2 j Hj ltac:(congruence)) as [K|[K _]]; [exact K|contradiction]).
            pose proof (conf_reads s2 j oj (out o) Oj Hoj a b Ha Hb Cf) as Rd. rewrite <- Ls2. apply (chain_root path i j o oj C2 ND2 Hi Hoj Rd). apply B2 in Hx. destruct Hx as [Hx|Hx]; [congruence|exact Hx]. }
          subst j. rewrite (get_ok _ _ _ Hoj). cbn [bind]. destruct (break_ok s2 r i o oj a b I2 Hi Hoj ltac:(congruence) Hx Ha Hb Cf) as [s3 [R1 [R2 [R3 [R4 R5]]]]]. exists s3. split; [exact R1|]. split; [exact R2|]. split; [|intros _; right; exact R5].
          split; try (intros k Hk; rewrite R3 in *; exact Hk). intros k q p Hq Nq St. apply (R4 k q p Hq Nq St).
        - exists s2. split; [reflexivity|]. split; [exact I2|]. split; [apply goes_refl|]. intros _. left. exact Hx. }
      destruct Bd as [s3 [R1 [R2 [R3 R4]]]]. pose proof (left_goes r s2 s3 (proj1 T2) R2 R3) as Lg.
      destruct (IHl s3 (fun k Hk => Hl k (or_intror Hk)) (top_goes _ _ _ _ T2 R2 R3) ltac:(lia)) as [s4 [Q1 [Q2 [Q3 Q4]]]].
      exists s4. split; [cbn [each]; rewrite R1; exact Q1|]. split; [exact Q2|]. split; [apply (goes_trans _ _ _ R3 Q3)|]. intros k [<-|Hk] Nk; [|apply (Q4 k Hk Nk)]. apply (go_settled s3 s4 Q3 j i o Hi ltac:(congruence)). apply R4. exact Nk. }
    destruct (Lp2 (seq 0 (length moves)) s1) as [s2 [R1 [R2 [R3 R4]]]].
    { intros j Hj. apply in_seq in Hj. lia. }
    { exact T1. }
    { lia. }
    rewrite R1. cbn [bind]. destruct (inv_len r s2 R2) as [M1 [M2 M3]]. destruct (nth_ex (srcs s2) i ltac:(lia)) as [a Ha]. destruct (nth_ex (srcs2 s2) i ltac:(lia)) as [b Hb]. rewrite (get_ok _ _ _ Ha), (get_ok _ _ _ Hb). cbn [bind].
    eexists. split; [reflexivity|]. pose proof (go_being s1 s2 R3 i S1i) as S2i.
    destruct (emit r s2 i o a b R2 Hi S2i Ha Hb) as [Q1 [Q2 [Q3 Q4]]].
    { intros j Hj Nj. apply (R4 j); [apply in_seq; lia|exact Nj]. }
    split; [exact Q1|]. split; [|exact Q3]. split.
    - intros j Mj. assert (N : j <> i) by (intros ->; congruence). rewrite (Q2 j N). apply (go_moved s1 s2 R3). rewrite (S1j j N). exact Mj.
    - intros j Mj. assert (N : j <> i) by (intros ->; congruence). rewrite (Q2 j N). apply (go_being s1 s2 R3). rewrite (S1j j N). exact Mj.
    - intros j Mj. assert (N : j <> i) by (intros ->; congruence). rewrite (Q2 j N) in Mj. apply (go_being' s1 s2 R3) in Mj. rewrite (S1j j N) in Mj. exact Mj.
    - intros j Mj. assert (N : j <> i) by (intros ->; congruence). rewrite (Q2 j N) in Mj. apply (go_to s1 s2 R3) in Mj. rewrite (S1j j N) in Mj. exact Mj.
    - intros j k q Hk Nk St. apply Q4. apply (go_settled s1 s2 R3 j k q Hk Nk). destruct St as [M|Q]; [left|right; exact Q]. assert (N : j <> i) by (intros ->; congruence). rewrite (S1j j N). exact M.
  Qed.

  (** between two calls nothing is begun and nothing is broken *)
  Definition rest (s : st) : Prop := inv (length moves) s /\ (forall j, nth_error (stat s) j <> Some Being_moved).
  Lemma inv_any s r : inv (length moves) s -> inv r s.
  Proof. intros I. destruct I as [A B C D E]. split; auto. intros j Hj Nj. destruct (D j Hj Nj) as [O|[-> _]]; [left; exact O|lia]. Qed.
  Lemma inv_none s r : inv r s -> nth_error (stat s) r = Some Moved -> inv (length moves) s.
  Proof. intros I M. destruct I as [A B C D E]. split; auto. intros j Hj Nj. destruct (D j Hj Nj) as [O|[-> _]]; [left; exact O|contradiction]. Qed.

  Lemma all_ok fuel : (length moves <= fuel)%nat -> forall l s, (forall j, In j l -> (j < length moves)%nat) -> rest s ->
    exists s', each (fun i s => x <- get (stat s) i ;; match x with To_move => move_one fuel ti tf float moves i s | _ => Ok s end) l s = Ok s' /\ rest s' /\ goes_on s s' /\
      (forall j o, In j l -> at_ j o -> self o = false -> nth_error (stat s') j = Some Moved).
  Proof.
    intros Hf. induction l as [|i l IH]; intros s Hl R.
    { exists s. split; [reflexivity|]. split; [exact R|]. split; [apply goes_refl|]. intros j o []. }
    assert (Bd : exists s', (x <- get (stat s) i ;; match x with To_move => move_one fuel ti tf float moves i s | _ => Ok s end) = Ok s' /\ rest s' /\ goes_on s s' /\ (forall o, at_ i o -> self o = false -> nth_error (stat s') i = Some Moved)).
    { destruct R as [I Nb]. destruct (inv_len _ s I) as [M1 [M2 M3]]. pose proof (Hl i (or_introl eq_refl)) as Hi. destruct (nth_ex (stat s) i ltac:(lia)) as [x Hx]. destruct (nth_ex moves i Hi) as [o Ho]. rewrite (get_ok _ _ _ Hx). cbn [bind]. destruct x.
      - assert (Og : orig s i) by (destruct (inv_src _ s I i Hi ltac:(congruence)) as [K|[K _]]; [exact K|lia]). destruct (self o) eqn:Sf.
        + exists s. destruct fuel as [|fuel]; [lia|]. cbn [move_one]. destruct Og as [o' [Ho' [E1 E2]]]. assert (o' = o) by congruence. subst o'. rewrite (get_ok _ _ _ Ho), (get_ok _ _ _ E1). cbn [bind]. fold (self o). rewrite Sf. split; [reflexivity|]. split; [split; assumption|]. split; [apply goes_refl|]. intros o' Ho2 Sf2. congruence.
        + destruct (move_one_ok fuel i [] i o s) as [s' [R1 [R2 [R3 R4]]]]; try assumption; try reflexivity.
          * split; [apply inv_any; exact I|]. split; [constructor|]. split; [exact Logic.I|]. split; [|exact Logic.I]. intros j. split; [intros H; exfalso; apply (Nb j H)|intros []].
          * pose proof (left_len (stat s)). lia.
          * exists s'. split; [exact R1|]. split; [|split; [exact R3|intros; exact R4]]. split; [apply (inv_none s' i R2 R4)|]. intros j Hj. apply (Nb j). apply (go_being' s s' R3 j Hj).
      - exfalso. apply (Nb i Hx).
      - exists s. split; [reflexivity|]. split; [split; assumption|]. split; [apply goes_refl|]. intros; exact Hx. }
    destruct Bd as [s' [R1 [R2 [R3 R4]]]]. destruct (IH s' (fun j Hj => Hl j (or_intror Hj)) R2) as [s'' [Q1 [Q2 [Q3 Q4]]]]. exists s''. split; [cbn [each]; rewrite R1; exact Q1|]. split; [exact Q2|]. split; [apply (goes_trans _ _ _ R3 Q3)|].
    intros j o [<-|Hj] Ho Sf; [apply (go_moved s' s'' Q3); apply (R4 o Ho Sf)|apply (Q4 j o Hj Ho Sf)].
  Qed.

  Lemma rest_start : rest (mk_st (map first moves) (map second moves) (map (fun _ => To_move) moves) []).
  Proof.
    set (s := mk_st _ _ _ _). assert (St : forall j x, nth_error (stat s) j = Some x -> x = To_move).
    { intros j x H. cbn [s stat] in H. apply nth_error_In in H. apply in_map_iff in H. destruct H as [? [H _]]. congruence. }
    split; [|intros j H; apply St in H; discriminate]. split.
    - cbn [s srcs srcs2 stat]. rewrite !map_length. auto.
    - intros j o Hj Mj. apply St in Mj. discriminate.
    - reflexivity.
    - intros j Hj Nj. left. destruct (nth_ex moves j Hj) as [o Ho]. exists o. split; [exact Ho|]. cbn [s srcs srcs2]. split; apply map_nth_error; exact Ho.
    - intros i j o Hi Mi. apply St in Mi. discriminate.
  Qed.

  Lemma self_result o : In o moves -> self o = true -> result m s0 o = s0 (out o).
  Proof.
    intros Ho S. unfold self in S. apply andb_true_iff in S. destruct S as [S1 S2]. apply Z.eqb_eq in S1. unfold result. rewrite S1. destruct (first o) as [[l|regs k|k]|]; try discriminate. apply loc_eqb_eq in S2. cbn [value]. congruence.
  Qed.

  Lemma rest_end s : rest s -> (forall j o, at_ j o -> self o = false -> nth_error (stat s) j = Some Moved) -> at_once m ti tf moves s0 (now s).
  Proof.
    intros [I Nb] Al. split.
    - intros o Ho. pose proof Ho as Hin. apply In_nth_error in Ho. destruct Ho as [j Hj]. destruct (self o) eqn:Sf; [|apply (inv_moved _ s I j o Hj (Al j o Hj Sf))].
      destruct (inv_len _ s I) as [M1 [M2 M3]]. destruct (nth_ex (stat s) j ltac:(pose proof (nth_lt _ _ _ Hj); lia)) as [x Hx]. destruct x; [|exfalso|apply (inv_moved _ s I j o Hj Hx)].
      + rewrite (self_result o Hin Sf). destruct Hm as [_ [K _]]. destruct (K o Hin) as [K1 [K2 _]]. apply (inv_rest _ s I); [exact K1|exact K2|]. intros i p Hi Mi E. assert (j = i) by (apply (out_inj j i o p); assumption). subst i. congruence.
      + apply (Nb j Hx).
    - intros l Nl N1 N2. apply (inv_rest _ s I l N1 N2). intros j o Hj _ ->. apply Nl. apply in_map. apply (in_at _ _ Hj).
  Qed.
End Moves.

Lemma parallel_moves_ok fuel ti tf float moves : is_moves ti tf moves -> one_conflict moves -> (length moves <= fuel)%nat ->
  exists ops, parallel_moves fuel ti tf float moves = Ok ops /\ forall V (m : machine V) s, at_once m ti tf moves s (run m ops s).
Proof.
  intros Hm Hc Hf. destruct moves as [|o [|o2 l]].
  - exists []. split; [reflexivity|]. intros V m s. split; [intros o []|reflexivity].
  - exists [o]. split; [reflexivity|]. intros V m s. split.
    + intros p [<-|[]]. cbn [run]. unfold set. rewrite loc_eqb_refl. reflexivity.
    + intros l Nl _ _. cbn [run]. unfold set. destruct (loc_eqb l (out o)) eqn:E; [apply loc_eqb_eq in E; exfalso; apply Nl; left; congruence|reflexivity].
  - remember (o :: o2 :: l) as moves eqn:Em.
    assert (Run : forall V (m : machine V) s, exists ops, parallel_moves fuel ti tf float moves = Ok ops /\ at_once m ti tf moves s (run m ops s)).
    { intros V m s. destruct (all_ok m ti tf float moves s Hm Hc fuel Hf (seq 0 (length moves)) (mk_st (map first moves) (map second moves) (map (fun _ => To_move) moves) [])) as [s' [R1 [R2 [_ R4]]]].
      - intros j Hj. apply in_seq in Hj. lia.
      - apply rest_start.
      - exists (code_out s'). split; [unfold parallel_moves; rewrite R1; rewrite Em; reflexivity|]. apply (rest_end m ti tf float moves s Hm s' R2). intros j p Hj. apply (R4 j p); [|exact Hj]. apply in_seq. pose proof (nth_lt _ _ _ Hj). lia. }
    destruct (Run unit (mk_machine unit (fun _ _ => tt) (fun _ => tt) (fun _ _ _ => tt)) (fun _ => tt)) as [ops [E _]]. exists ops. split; [exact E|]. intros V m s. destruct (Run V m s) as [ops' [E' H]]. rewrite E in E'. injection E' as <-. exact H.
Qed.
