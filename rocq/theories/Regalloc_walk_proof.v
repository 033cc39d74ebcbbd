From Coq Require Import Permutation.
From Verif Require Import Base Base_lemmas Regalloc_model Regalloc_spec Regalloc_proof.

Ltac bnd H x E := match type of H with bind ?e _ = _ => destruct e as [x| | | | |] eqn:E; try discriminate H; cbn [bind] in H end.

(** ** How the list of intervals changes *)
Definition sub (i i' : ivl) : Prop :=
  fixed i' = fixed i /\ cls i' = cls i /\ owner i' = owner i /\ (reg i' = reg i \/ reg i' = 0%nat) /\ (forall p, covers (ranges i') p -> covers (ranges i) p).
Definition evo (l l' : list ivl) : Prop :=
  (length l <= length l')%nat /\
  (forall k i, nth_error l k = Some i -> exists i', nth_error l' k = Some i' /\ sub i i') /\
  (forall k i', nth_error l' k = Some i' -> (length l <= k)%nat -> reg i' = 0%nat).
Lemma sub_refl i : sub i i. Proof. unfold sub. tauto. Qed.
Lemma sub_trans a b c : sub a b -> sub b c -> sub a c.
Proof.
  unfold sub. intros [A1 [A2 [A3 [A4 A5]]]] [B1 [B2 [B3 [B4 B5]]]]. repeat split; try congruence; [|auto].
  destruct B4 as [B4|B4]; [rewrite B4; exact A4|right; exact B4].
Qed.
Lemma evo_refl l : evo l l.
Proof. split; [lia|]. split; [intros k i H; exists i; split; [exact H|apply sub_refl]|]. intros k i H L. apply nth_lt in H. lia. Qed.
Lemma evo_trans a b c : evo a b -> evo b c -> evo a c.
Proof.
  intros [A1 [A2 A3]] [B1 [B2 B3]]. split; [lia|]. split.
  - intros k i H. destruct (A2 k i H) as [i1 [H1 S1]]. destruct (B2 k i1 H1) as [i2 [H2 S2]]. exists i2. split; [exact H2|apply (sub_trans _ _ _ S1 S2)].
  - intros k i' H L. destruct (Nat.lt_ge_cases k (length b)) as [K|K]; [|apply (B3 k i' H K)].
    destruct (nth_ex b k K) as [i1 H1]. destruct (B2 k i1 H1) as [i2 [H2 S2]]. rewrite H in H2. injection H2 as <-. pose proof (A3 k i1 H1 L) as R.
    destruct S2 as [_ [_ [_ [S2 _]]]]. destruct S2; congruence.
Qed.
Lemma evo_set l k i i' : nth_error l k = Some i -> sub i i' -> evo l (list_set l k i').
Proof.
  intros H S. split; [rewrite length_list_set; lia|]. split.
  - intros j x Hx. destruct (Nat.eq_dec k j) as [->|N].
    + rewrite H in Hx. injection Hx as <-. exists i'. split; [apply nth_set_same; apply (nth_lt _ _ _ H)|exact S].
    + exists x. split; [rewrite nth_set_other by exact N; exact Hx|apply sub_refl].
  - intros j x Hx L. apply nth_lt in Hx. rewrite length_list_set in Hx. lia.
Qed.
Lemma evo_snoc l c : reg c = 0%nat -> evo l (l ++ [c]).
Proof.
  intros R. split; [rewrite app_length; lia|]. split.
  - intros k i H. exists i. split; [rewrite nth_error_app1; [exact H|apply (nth_lt _ _ _ H)]|apply sub_refl].
  - intros k i' H L. rewrite nth_error_app2 in H by exact L. destruct (k - length l)%nat as [|n]; [injection H as <-; exact R|destruct n; discriminate].
Qed.
Lemma evo_clash l l' : evo l l' -> no_clash l -> no_clash l'.
Proof.
  intros [E1 [E2 E3]] N j k i i' p Hj Hk D R R0 C C'.
  assert (Lj : (j < length l)%nat) by (destruct (Nat.lt_ge_cases j (length l)) as [K|K]; [exact K|contradiction (R0 (E3 j i Hj K))]).
  assert (Lk : (k < length l)%nat) by (destruct (Nat.lt_ge_cases k (length l)) as [K|K]; [exact K|pose proof (E3 k i' Hk K); congruence]).
  destruct (nth_ex l j Lj) as [a Ha]. destruct (nth_ex l k Lk) as [b Hb].
  destruct (E2 j a Ha) as [a' [Ha' [_ [_ [_ [Sa Ca]]]]]]. destruct (E2 k b Hb) as [b' [Hb' [_ [_ [_ [Sb Cb]]]]]].
  rewrite Hj in Ha'. injection Ha' as <-. rewrite Hk in Hb'. injection Hb' as <-.
  apply (N j k a b p Ha Hb D); [destruct Sa, Sb; congruence|destruct Sa; congruence|apply Ca; exact C|apply Cb; exact C'].
Qed.

(** ** Sizes *)
Lemma size_app a : forall b, size (a ++ b) = size a + size b.
Proof. induction a as [|r a IH]; intros b; [reflexivity|]. cbn [app]. unfold size in *. cbn [fold_right]. rewrite IH. lia. Qed.
Lemma size_cut pos l : ordered l -> size (flat_map (left_part pos) l) + size (flat_map (right_part pos) l) = size l.
Proof.
  induction l as [|[f t] l IH]; intros O; [reflexivity|]. specialize (IH (ordered_tail _ _ O)). cbn [flat_map]. rewrite !size_app. destruct O as [O _].
  change (size ((f, t) :: l)) with (t - f + size l). unfold left_part at 1, right_part at 1. cbn [fst snd].
  destruct (t <=? pos); [|destruct (pos <=? f)]; unfold size at 1 3; cbn [fold_right fst snd]; lia.
Qed.
Lemma size_pos f t l : ordered ((f, t) :: l) -> 1 <= size ((f, t) :: l).
Proof.
  revert f t. induction l as [|[f' t'] l IH]; intros f t O; [cbn in *; lia|]. change (size ((f, t) :: (f', t') :: l)) with (t - f + size ((f', t') :: l)).
  pose proof (IH f' t' (ordered_tail _ _ O)). destruct O as [O _]. lia.
Qed.
Lemma total_app a : forall b, total (a ++ b) = total a + total b.
Proof. induction a as [|r a IH]; intros b; [reflexivity|]. cbn [app]. unfold total in *. cbn [fold_right]. rewrite IH. lia. Qed.
Lemma total_set : forall l k i i', nth_error l k = Some i -> total (list_set l k i') = total l - size (ranges i) + size (ranges i').
Proof.
  induction l as [|x l IH]; intros [|k] i i' H; try discriminate; cbn [list_set]; unfold total in *; cbn [fold_right].
  - injection H as ->. lia.
  - rewrite (IH k i i' H). lia.
Qed.

Section Walk.
  Variables (blocks : list block) (fixeds vars : list ivl).
  Notation nf := (length fixeds).

  Definition fresh (i : ivl) : Prop := reg i = 0%nat /\ spilled i = false /\ fixed i = false.

  Record Inv (l : list ivl) (un hand : list nat) : Prop := {
    i_ord : forall k i, nth_error l k = Some i -> ordered (ranges i);
    i_first : forall k i, nth_error l k = Some i -> fixed i = false -> exists f t m, ranges i = (f, t) :: m /\ 0 <= f;
    i_part : forall k i, nth_error l k = Some i -> fixed i = false ->
      exists o v, nth_error vars o = Some v /\ owner i = (nf + o)%nat /\ cls i = cls v /\ (forall p, covers (ranges i) p -> covers (ranges v) p) /\ (forall u, In u (uses i) -> In u (uses v));
    i_all : forall o v, nth_error vars o = Some v ->
      (forall p, covers (ranges v) p -> exists k i, nth_error l k = Some i /\ fixed i = false /\ owner i = (nf + o)%nat /\ covers (ranges i) p) /\
      (forall u, In u (uses v) -> exists k i, nth_error l k = Some i /\ fixed i = false /\ owner i = (nf + o)%nat /\ In u (uses i));
    i_uniq : forall j k i i' p, nth_error l j = Some i -> nth_error l k = Some i' -> fixed i = false -> fixed i' = false -> owner i = owner i' -> covers (ranges i) p -> covers (ranges i') p -> j = k;
    i_un : forall k, In k un -> exists i, nth_error l k = Some i /\ fresh i;
    i_nodup : NoDup un;
    i_fix : firstn nf l = fixeds;
    i_var : forall k i, nth_error l k = Some i -> (nf <= k)%nat -> fixed i = false;
    i_fixd : forall k i, nth_error l k = Some i -> (k < nf)%nat -> fixed i = true;
    i_len : (nf <= length l)%nat;
    i_total : total (skipn nf l) = total vars;
    i_settled : forall k i, nth_error l k = Some i -> fixed i = false -> In k un \/ In k hand \/ placed i
  }.
  Definition slack (l : list ivl) (un : list nat) : Z := Z.of_nat (length l) - Z.of_nat (length un).

  Lemma firstn_set : forall n (l : list ivl) k x, (n <= k)%nat -> firstn n (list_set l k x) = firstn n l.
  Proof. induction n as [|n IH]; intros [|y l] [|k] x H; try reflexivity; [lia|]. cbn [list_set firstn]. rewrite IH by lia. reflexivity. Qed.
  Lemma skipn_set : forall n (l : list ivl) k x, (n <= k)%nat -> skipn n (list_set l k x) = list_set (skipn n l) (k - n) x.
  Proof. induction n as [|n IH]; intros l k x H; [cbn [skipn]; rewrite Nat.sub_0_r; reflexivity|]. destruct l as [|y l]; [destruct (k - S n)%nat; reflexivity|]. destruct k as [|k]; [lia|]. cbn [list_set skipn Nat.sub]. apply IH. lia. Qed.
  Lemma nth_skipn : forall n (l : list ivl) k, nth_error (skipn n l) k = nth_error l (n + k).
  Proof. induction n as [|n IH]; intros l k; [reflexivity|]. destruct l as [|y l]; [destruct k; reflexivity|]. cbn [skipn]. apply IH. Qed.
  Lemma total_set_var l k i i' : nth_error l k = Some i -> (nf <= k)%nat -> total (skipn nf (list_set l k i')) = total (skipn nf l) - size (ranges i) + size (ranges i').
  Proof. intros H L. rewrite skipn_set by exact L. apply total_set. rewrite nth_skipn. replace (nf + (k - nf))%nat with k by lia. exact H. Qed.

  (** *** splitting *)
  Lemma uses_left_in pos l u : In u (uses_left pos l) -> In u l.
  Proof. intros H. rewrite <- (uses_cut pos l). apply in_or_app. left. exact H. Qed.
  Lemma uses_right_in pos l u : In u (uses_right pos l) -> In u l.
  Proof. intros H. rewrite <- (uses_cut pos l). apply in_or_app. right. exact H. Qed.
  Lemma placed_left i pos r : placed i -> placed (with_ranges i r (uses_left pos (uses i))).
  Proof. intros [[A [B C]]|[A [B C]]]; [left|right]; (split; [exact A|]; split; [exact B|]); intros u H; apply C; apply (uses_left_in pos _ _ H). Qed.
  Lemma ranges_first_left pos f t m : f < pos -> exists t' m', flat_map (left_part pos) ((f, t) :: m) = (f, t') :: m'.
  Proof. intros H. cbn [flat_map]. unfold left_part at 1. cbn [fst snd]. destruct (t <=? pos); [|destruct (pos <=? f) eqn:E; [lia|]]; cbn [app]; eauto. Qed.
  Lemma ranges_first_right pos l f t : In (f, t) l -> pos < t -> exists f' t' m', flat_map (right_part pos) l = (f', t') :: m'.
  Proof.
    intros H L. destruct (flat_map (right_part pos) l) as [|[f' t'] m'] eqn:E; [|eauto]. exfalso.
    assert (K : exists x, In x (flat_map (right_part pos) l)).
    { unfold right_part. destruct (pos <=? f) eqn:E1; eexists; apply in_flat_map; exists (f, t); (split; [exact H|]); cbn [fst snd]; (destruct (t <=? pos) eqn:E2; [lia|]); rewrite E1; left; reflexivity. }
    destruct K as [x K]. rewrite E in K. destruct K.
  Qed.

  Lemma split_inv l k pos l' c : split_iv l k pos = Ok (l', c) ->
    exists i f t, nth_error l k = Some i /\ fixed i = false /\ first_from i = Ok f /\ last_to i = Ok t /\ f < pos < t /\ c = length l /\
      l' = list_set l k (with_ranges i (flat_map (left_part pos) (ranges i)) (uses_left pos (uses i))) ++
           [mk_ivl (flat_map (right_part pos) (ranges i)) (uses_right pos (uses i)) 0 false false (cls i) false (owner i)].
  Proof.
    unfold split_iv. intros H. bnd H i E1. bnd H t E2. bnd H f E3. apply get_ok in E1. destruct ((t <=? pos) || (pos <=? f) || fixed i) eqn:E; [discriminate|]. injection H as <- <-.
    exists i, f, t. repeat split; try assumption; try lia.
  Qed.

  Lemma split_Inv l un hand k pos l' c : Inv l un hand -> ~ In k un -> split_iv l k pos = Ok (l', c) -> Inv l' un (c :: hand).
  Proof.
    intros V NU H. destruct (split_inv _ _ _ _ _ H) as [i [f [t [Hk [Fx [Ff [Lt [R [-> ->]]]]]]]]]. set (i1 := with_ranges i _ _). set (c1 := mk_ivl _ _ _ _ _ _ _ _).
    pose proof (nth_lt _ _ _ Hk) as LK. destruct V as [V1 V2 V3 V4 V5 V6 V7 V8 V9 V9b V10 V11 V12].
    assert (NK : (nf <= k)%nat) by (destruct (Nat.lt_ge_cases k nf) as [K|K]; [rewrite (V9b k i Hk K) in Fx; discriminate|exact K]).
    assert (LC : length (list_set l k i1) = length l) by apply length_list_set.
    assert (X : forall j x, nth_error (list_set l k i1 ++ [c1]) j = Some x -> (j = k /\ x = i1) \/ (j = length l /\ x = c1) \/ (j <> k /\ (j < length l)%nat /\ nth_error l j = Some x)).
    { intros j x Hx. destruct (Nat.lt_ge_cases j (length l)) as [K|K].
      - rewrite nth_error_app1 in Hx by lia. destruct (Nat.eq_dec k j) as [<-|N]; [rewrite nth_set_same in Hx by exact LK; injection Hx as <-; left; auto|]. rewrite nth_set_other in Hx by exact N. right. right. auto.
      - rewrite nth_error_app2 in Hx by lia. rewrite LC in Hx. destruct (j - length l)%nat as [|n] eqn:E; [|destruct n; discriminate]. injection Hx as <-. right. left. split; [lia|reflexivity]. }
    assert (Yk : nth_error (list_set l k i1 ++ [c1]) k = Some i1) by (rewrite nth_error_app1 by lia; apply nth_set_same; exact LK).
    assert (Yc : nth_error (list_set l k i1 ++ [c1]) (length l) = Some c1) by (rewrite nth_error_app2 by lia; rewrite LC, Nat.sub_diag; reflexivity).
    assert (Yo : forall j x, j <> k -> nth_error l j = Some x -> nth_error (list_set l k i1 ++ [c1]) j = Some x) by (intros j x N Hx; rewrite nth_error_app1 by (pose proof (nth_lt _ _ _ Hx); lia); rewrite nth_set_other by congruence; exact Hx).
    assert (C1 : forall p, covers (ranges i1) p <-> covers (ranges i) p /\ p < pos) by (intros p; apply left_covers).
    assert (C2 : forall p, covers (ranges c1) p <-> covers (ranges i) p /\ pos <= p) by (intros p; apply right_covers).
    assert (Oi : ordered (ranges i)) by (apply (V1 k i Hk)).
    assert (F1 : fixed i1 = false) by exact Fx. assert (F2 : fixed c1 = false) by reflexivity. assert (W1 : owner i1 = owner i) by reflexivity. assert (W2 : owner c1 = owner i) by reflexivity.
    destruct (V2 k i Hk Fx) as [f0 [t0 [m [RR P0]]]]. assert (f0 = f) by (unfold first_from in Ff; rewrite RR in Ff; congruence). subst f0.
    destruct (last_to_inv _ _ Lt) as [ml [fl RL]].
    constructor.
    - intros j x Hx. destruct (X j x Hx) as [[-> ->]|[[-> ->]|[_ [_ Hx']]]]; [apply left_ordered; exact Oi|apply right_ordered; exact Oi|apply (V1 j x Hx')].
    - intros j x Hx Fj. destruct (X j x Hx) as [[-> ->]|[[-> ->]|[_ [_ Hx']]]]; [| |apply (V2 j x Hx' Fj)].
      + unfold i1, with_ranges. cbn [ranges]. rewrite RR. destruct (ranges_first_left pos f t0 m ltac:(lia)) as [t' [m' E]]. exists f, t', m'. auto.
      + unfold c1. cbn [ranges]. destruct (ranges_first_right pos (ranges i) fl t ltac:(rewrite RL; apply in_or_app; right; left; reflexivity) ltac:(lia)) as [f' [t' [m' E]]]. exists f', t', m'. split; [exact E|].
        destruct (right_ordered pos (ranges i) Oi) as [_ K]. destruct (K f' t' ltac:(rewrite E; left; reflexivity)) as [f2 [_ [_ K2]]]. lia.
    - intros j x Hx Fj. destruct (X j x Hx) as [[-> ->]|[[-> ->]|[_ [_ Hx']]]]; [| |apply (V3 j x Hx' Fj)]; destruct (V3 k i Hk Fx) as [o [v [A1 [A2 [A3 [A4 A5]]]]]]; exists o, v; (split; [exact A1|]; split; [exact A2|]; split; [exact A3|]; split).
      + intros p C. apply A4. apply C1 in C. apply C. + intros u U. apply A5. apply (uses_left_in pos _ _ U).
      + intros p C. apply A4. apply C2 in C. apply C. + intros u U. apply A5. apply (uses_right_in pos _ _ U).
    - intros o v Hv. destruct (V4 o v Hv) as [A1 A2]. split.
      + intros p C. destruct (A1 p C) as [j [x [Hx [Fj [Oj Cj]]]]]. destruct (Nat.eq_dec j k) as [->|N]; [|exists j, x; auto].
        rewrite Hk in Hx. injection Hx as <-. destruct (Z_lt_ge_dec p pos); [exists k, i1|exists (length l), c1]; repeat split; try assumption; [apply C1|apply C2]; (split; [exact Cj|lia]).
      + intros u U. destruct (A2 u U) as [j [x [Hx [Fj [Oj Cj]]]]]. destruct (Nat.eq_dec j k) as [->|N]; [|exists j, x; auto].
        rewrite Hk in Hx. injection Hx as <-. rewrite <- (uses_cut pos (uses i)) in Cj. apply in_app_or in Cj. destruct Cj as [Cj|Cj]; [exists k, i1|exists (length l), c1]; auto.
    - intros a b x y p Hx Hy Fa Fb OO Ca Cb.
      destruct (X a x Hx) as [[-> ->]|[[-> ->]|[Na [La Hx']]]]; destruct (X b y Hy) as [[-> ->]|[[-> ->]|[Nb [Lb Hy']]]]; try reflexivity.
      + apply C1 in Ca. apply C2 in Cb. lia.
      + apply C1 in Ca. exfalso. apply Nb. symmetry. apply (V5 k b i y p Hk Hy' Fx Fb OO (proj1 Ca) Cb).
      + apply C2 in Ca. apply C1 in Cb. lia.
      + apply C2 in Ca. exfalso. apply Nb. symmetry. apply (V5 k b i y p Hk Hy' Fx Fb OO (proj1 Ca) Cb).
      + apply C1 in Cb. exfalso. apply Na. apply (V5 a k x i p Hx' Hk Fa Fx OO Ca (proj1 Cb)).
      + apply C2 in Cb. exfalso. apply Na. apply (V5 a k x i p Hx' Hk Fa Fx OO Ca (proj1 Cb)).
      + apply (V5 a b x y p Hx' Hy' Fa Fb OO Ca Cb).
    - intros j U. destruct (V6 j U) as [x [Hx Fr]]. exists x. split; [|exact Fr]. apply Yo; [intros ->; contradiction|exact Hx].
    - exact V7.
    - rewrite firstn_app, firstn_set by exact NK. rewrite LC. replace (nf - length l)%nat with 0%nat by lia. cbn [firstn]. rewrite app_nil_r. exact V8.
    - intros j x Hx L. destruct (X j x Hx) as [[-> ->]|[[-> ->]|[_ [_ Hx']]]]; [exact Fx|reflexivity|apply (V9 j x Hx' L)].
    - intros j x Hx L. destruct (X j x Hx) as [[-> ->]|[[-> ->]|[_ [_ Hx']]]]; [lia|lia|apply (V9b j x Hx' L)].
    - rewrite app_length, LC. lia.
    - rewrite skipn_app, LC. replace (nf - length l)%nat with 0%nat by lia. cbn [skipn]. rewrite total_app, (total_set_var l k i i1 Hk NK), V11. unfold total at 2. cbn [fold_right].
      pose proof (size_cut pos (ranges i) Oi). unfold i1, c1, with_ranges. cbn [ranges]. lia.
    - intros j x Hx Fj. destruct (X j x Hx) as [[-> ->]|[[-> ->]|[_ [_ Hx']]]]; [|right; left; left; reflexivity|destruct (V12 j x Hx' Fj) as [K|[K|K]]; [left; exact K|right; left; right; exact K|right; right; exact K]].
      destruct (V12 k i Hk Fx) as [K|[K|K]]; [left; exact K|right; left; right; exact K|right; right; apply placed_left; exact K].
  Qed.
  Lemma split_evo l k pos l' c : split_iv l k pos = Ok (l', c) -> evo l l'.
  Proof.
    intros H. destruct (split_inv _ _ _ _ _ H) as [i [f [t [Hk [Fx [Ff [Lt [R [-> ->]]]]]]]]]. eapply evo_trans; [|apply evo_snoc; reflexivity].
    apply (evo_set l k i _ Hk). unfold sub, with_ranges. cbn [fixed cls owner reg ranges]. repeat split; [left; reflexivity|]. intros p C. apply left_covers in C. apply C.
  Qed.
  Lemma split_nth l k pos l' c : split_iv l k pos = Ok (l', c) ->
    c = length l /\ length l' = S (length l) /\ (forall j, j <> k -> (j < length l)%nat -> nth_error l' j = nth_error l j) /\
    exists i, nth_error l k = Some i /\ fixed i = false /\ (exists f, first_from i = Ok f /\ f < pos) /\ nth_error l' k = Some (with_ranges i (flat_map (left_part pos) (ranges i)) (uses_left pos (uses i))) /\
      nth_error l' c = Some (mk_ivl (flat_map (right_part pos) (ranges i)) (uses_right pos (uses i)) 0 false false (cls i) false (owner i)).
  Proof.
    intros H. destruct (split_inv _ _ _ _ _ H) as [i [f [t [Hk [Fx [Ff [Lt [R [-> ->]]]]]]]]]. pose proof (nth_lt _ _ _ Hk) as LK.
    split; [reflexivity|]. split; [rewrite app_length, length_list_set; cbn [length]; lia|]. split.
    - intros j N L. rewrite nth_error_app1 by (rewrite length_list_set; exact L). apply nth_set_other. congruence.
    - exists i. split; [exact Hk|]. split; [exact Fx|]. split; [exists f; split; [exact Ff|lia]|]. split.
      + rewrite nth_error_app1 by (rewrite length_list_set; exact LK). apply nth_set_same. exact LK.
      + rewrite nth_error_app2 by (rewrite length_list_set; lia). rewrite length_list_set, Nat.sub_diag. reflexivity.
  Qed.

  (** *** giving a place *)
  Lemma set_Inv l un hand k i i' hand' : Inv l un hand -> nth_error l k = Some i -> fixed i = false -> ~ In k un ->
    ranges i' = ranges i -> uses i' = uses i -> fixed i' = fixed i -> cls i' = cls i -> owner i' = owner i ->
    (forall x, In x hand -> x <> k -> In x hand') -> (In k hand' \/ placed i') -> Inv (list_set l k i') un hand'.
  Proof.
    intros V Hk Fx NU E1 E2 E3 E4 E5 Hh Hp. pose proof (nth_lt _ _ _ Hk) as LK. destruct V as [V1 V2 V3 V4 V5 V6 V7 V8 V9 V9b V10 V11 V12].
    assert (NK : (nf <= k)%nat) by (destruct (Nat.lt_ge_cases k nf) as [K|K]; [rewrite (V9b k i Hk K) in Fx; discriminate|exact K]).
    assert (X : forall j x, nth_error (list_set l k i') j = Some x -> exists y, nth_error l j = Some y /\ ranges x = ranges y /\ uses x = uses y /\ fixed x = fixed y /\ cls x = cls y /\ owner x = owner y).
    { intros j x Hx. destruct (Nat.eq_dec k j) as [<-|N]; [rewrite nth_set_same in Hx by exact LK; injection Hx as <-; exists i; auto 10|]. rewrite nth_set_other in Hx by exact N. exists x. auto 10. }
    assert (Y : forall j y, nth_error l j = Some y -> exists x, nth_error (list_set l k i') j = Some x /\ ranges x = ranges y /\ uses x = uses y /\ fixed x = fixed y /\ owner x = owner y).
    { intros j y Hy. destruct (Nat.eq_dec k j) as [<-|N]; [rewrite Hk in Hy; injection Hy as <-; exists i'; rewrite nth_set_same by exact LK; auto|]. rewrite nth_set_other by exact N. exists y. auto. }
    constructor.
    - intros j x Hx. destruct (X j x Hx) as [y [Hy [R _]]]. rewrite R. apply (V1 j y Hy).
    - intros j x Hx Fj. destruct (X j x Hx) as [y [Hy [R [U [F [K O]]]]]]. rewrite R. apply (V2 j y Hy). congruence.
    - intros j x Hx Fj. destruct (X j x Hx) as [y [Hy [R [U [F [K O]]]]]]. rewrite R, U, K, O. apply (V3 j y Hy). congruence.
    - intros o v Hv. destruct (V4 o v Hv) as [A1 A2]. split.
      + intros p C. destruct (A1 p C) as [j [y [Hy [Fj [Oj Cj]]]]]. destruct (Y j y Hy) as [x [Hx [R [U [F O]]]]]. exists j, x. rewrite R. repeat split; congruence.
      + intros u C. destruct (A2 u C) as [j [y [Hy [Fj [Oj Cj]]]]]. destruct (Y j y Hy) as [x [Hx [R [U [F O]]]]]. exists j, x. rewrite U. repeat split; congruence.
    - intros a b x y p Hx Hy Fa Fb OO Ca Cb. destruct (X a x Hx) as [x' [Hx' [R [U [F [K O]]]]]]. destruct (X b y Hy) as [y' [Hy' [R' [U' [F' [K' O']]]]]].
      apply (V5 a b x' y' p Hx' Hy'); congruence.
    - intros j U. destruct (V6 j U) as [x [Hx Fr]]. exists x. split; [|exact Fr]. rewrite nth_set_other; [exact Hx|intros ->; contradiction].
    - exact V7.
    - rewrite firstn_set by exact NK. exact V8.
    - intros j x Hx L. destruct (X j x Hx) as [y [Hy [R [U [F [K O]]]]]]. rewrite F. apply (V9 j y Hy L).
    - intros j x Hx L. destruct (X j x Hx) as [y [Hy [R [U [F [K O]]]]]]. rewrite F. apply (V9b j y Hy L).
    - rewrite length_list_set. exact V10.
    - rewrite (total_set_var l k i i' Hk NK), E1, V11. lia.
    - intros j x Hx Fj. destruct (Nat.eq_dec k j) as [<-|N]; [rewrite nth_set_same in Hx by exact LK; injection Hx as <-; tauto|]. rewrite nth_set_other in Hx by exact N.
      destruct (V12 j x Hx Fj) as [K|[K|K]]; [tauto|right; left; apply Hh; [exact K|congruence]|tauto].
  Qed.

  (** *** putting back, taking *)
  Lemma sort_in_perm l k : forall un un', sort_in l un k = Ok un' -> Permutation (k :: un) un'.
  Proof.
    induction un as [|j un IH]; intros un' H; cbn [sort_in] in H; [injection H as <-; apply Permutation_refl|].
    bnd H a E1. bnd H b E2. bnd H fa E3. bnd H fb E4. destruct ((fb <? fa) || ((fa =? fb) && (j <? k)%nat)); [injection H as <-; apply Permutation_refl|].
    bnd H un1 E5. injection H as <-. eapply perm_trans; [apply perm_swap|]. apply perm_skip. apply IH. reflexivity.
  Qed.
  Lemma put_Inv l un hand k un' hand' : Inv l un hand -> ~ In k un -> (exists i, nth_error l k = Some i /\ fresh i) -> (forall x, In x hand -> x <> k -> In x hand') -> sort_in l un k = Ok un' -> Inv l un' hand'.
  Proof.
    intros V NU Fr Hh H. pose proof (sort_in_perm _ _ _ _ H) as P. destruct V as [V1 V2 V3 V4 V5 V6 V7 V8 V9 V9b V10 V11 V12]. constructor; try assumption.
    - intros j U. apply (Permutation_in j (Permutation_sym P)) in U. destruct U as [<-|U]; [exact Fr|apply V6; exact U].
    - apply (Permutation_NoDup P). constructor; assumption.
    - intros j x Hx Fj. destruct (Nat.eq_dec j k) as [->|N]; [left; apply (Permutation_in _ P); left; reflexivity|]. destruct (V12 j x Hx Fj) as [K|[K|K]]; [left; apply (Permutation_in _ P); right; exact K|right; left; apply Hh; assumption|tauto].
  Qed.
  Lemma pop_Inv l un k : Inv l (k :: un) [] -> Inv l un [k] /\ ~ In k un /\ exists i, nth_error l k = Some i /\ fresh i.
  Proof.
    intros V. destruct V as [V1 V2 V3 V4 V5 V6 V7 V8 V9 V9b V10 V11 V12]. inversion V7 as [|? ? N1 N2]. subst. split; [|split; [exact N1|apply V6; left; reflexivity]]. constructor; try assumption.
    - intros j U. apply V6. right. exact U.
    - intros j x Hx Fj. destruct (V12 j x Hx Fj) as [[<-|K]|[[]|K]]; [right; left; left; reflexivity|tauto|tauto].
  Qed.
  Lemma placed_Inv l un k i hand : Inv l un (k :: hand) -> nth_error l k = Some i -> placed i -> Inv l un hand.
  Proof.
    intros V Hk P. destruct V as [V1 V2 V3 V4 V5 V6 V7 V8 V9 V9b V10 V11 V12]. constructor; try assumption.
    intros j x Hx Fj. destruct (V12 j x Hx Fj) as [K|[[<-|K]|K]]; [tauto| |tauto|tauto]. right. right. congruence.
  Qed.

  (** ** Spilling *)
  Hypothesis Hb : blocks_ok blocks.

  Definition same_lists (s s' : st) : Prop := active s' = active s /\ inactive s' = inactive s /\ handled s' = handled s /\ seen s' = seen s.
  Lemma must_left pos (i : ivl) m : must_pos i = Some m -> pos < m -> forall u, In u (uses_left pos (uses i)) -> is_must (snd u) = false.
  Proof.
    unfold must_pos. intros H L. destruct (find (fun u => is_must (snd u)) (uses i)) as [[m' q]|] eqn:E; [|discriminate]. cbn [option_map fst] in H. injection H as ->.
    induction (uses i) as [|x us IH]; [discriminate|]. cbn [find] in E. intros u U. cbn [uses_left] in U. destruct (fst x <=? pos) eqn:E1; [|destruct U].
    destruct (is_must (snd x)) eqn:E2; [injection E as ->; cbn [fst] in E1; lia|]. destruct U as [<-|U]; [exact E2|apply IH; assumption].
  Qed.
  Lemma stack_left pos (i : ivl) m : stack_pos i = Some m -> pos < m -> forall u, In u (uses_left pos (uses i)) -> is_stack (snd u) = false.
  Proof.
    unfold stack_pos. intros H L. destruct (find (fun u => is_stack (snd u)) (uses i)) as [[m' q]|] eqn:E; [|discriminate]. cbn [option_map fst] in H. injection H as ->.
    induction (uses i) as [|x us IH]; [discriminate|]. cbn [find] in E. intros u U. cbn [uses_left] in U. destruct (fst x <=? pos) eqn:E1; [|destruct U].
    destruct (is_stack (snd x)) eqn:E2; [injection E as ->; cbn [fst] in E1; lia|]. destruct U as [<-|U]; [exact E2|apply IH; assumption].
  Qed.
  Lemma must_none (i : ivl) : must_pos i = None -> forall u, In u (uses i) -> is_must (snd u) = false.
  Proof. unfold must_pos. intros H u U. destruct (find (fun u => is_must (snd u)) (uses i)) eqn:E; [discriminate|]. exact (find_none _ _ E u U). Qed.
  Lemma stack_none (i : ivl) : stack_pos i = None -> forall u, In u (uses i) -> is_stack (snd u) = false.
  Proof. unfold stack_pos. intros H u U. destruct (find (fun u => is_stack (snd u)) (uses i)) eqn:E; [discriminate|]. exact (find_none _ _ E u U). Qed.

  (** the part of spill after the first split *)
  Definition spill_rest (s : st) (l : list ivl) (child : nat) : res st :=
    i <- get l child ;;
    s <- match must_pos i with
         | None => Ok (with_ivs s l)
         | Some m =>
             pos <- optimal_split blocks i m ;;
             if pos <? m then ' (l, rest) <- split_iv l child pos ;; put_back (with_ivs s l) rest else Abort
         end ;;
    i <- get (ivs s) child ;;
    Ok (with_ivs s (list_set (ivs s) child (mk_ivl (ranges i) (uses i) 0 true (fixed i) (cls i) (remat i) (owner i)))).
  Lemma put_back_inv s k s' : put_back s k = Ok s' -> exists un, sort_in (ivs s) (unhandled s) k = Ok un /\ s' = mk_st (ivs s) un (active s) (inactive s) (handled s) (seen s).
  Proof. unfold put_back. intros H. bnd H un E. injection H as <-. exists un. auto. Qed.

  Lemma spill_rest_ok s l c s' hand i : Inv l (unhandled s) hand -> nth_error l c = Some i -> fixed i = false -> ~ In c (unhandled s) -> spill_rest s l c = Ok s' ->
    same_lists s s' /\ evo l (ivs s') /\ slack l (unhandled s) <= slack (ivs s') (unhandled s') /\
    (forall j, j <> c -> (j < length l)%nat -> nth_error (ivs s') j = nth_error l j) /\
    (forall j, In j (unhandled s') -> In j (unhandled s) \/ (length l <= j)%nat) /\
    (exists i', nth_error (ivs s') c = Some i' /\ reg i' = 0%nat /\ placed i') /\
    (forall hand', (forall x, In x hand -> x <> c -> In x hand') -> Inv (ivs s') (unhandled s') hand').
  Proof.
    intros V Hc Fx NU H. unfold spill_rest in H. rewrite (proj2 (get_ok _ _ _) Hc) in H. cbn [bind] in H.
    set (sp := fun i : ivl => mk_ivl (ranges i) (uses i) 0 true (fixed i) (cls i) (remat i) (owner i)) in *.
    assert (SP : forall x, sub x (sp x)) by (intros x; unfold sub, sp; cbn; tauto).
    destruct (must_pos i) as [m|] eqn:M.
    - bnd H s1 E. bnd E pos E1. destruct (pos <? m) eqn:L; [|discriminate]. bnd E x E2. destruct x as [l1 rest]. destruct (put_back_inv _ _ _ E) as [un' [E3 ->]]. cbn [ivs with_ivs unhandled active inactive handled seen] in *.
      destruct (split_nth _ _ _ _ _ E2) as [-> [L1 [NO [i0 [Hc' [_ [_ [Nc Nr]]]]]]]]. rewrite Hc in Hc'. injection Hc' as <-. rewrite (proj2 (get_ok _ _ _) Nc) in H. cbn [bind] in H. injection H as <-.
      cbn [ivs with_ivs unhandled active inactive handled seen]. change (mk_ivl _ _ 0 true _ _ _ _) with (sp (with_ranges i (flat_map (left_part pos) (ranges i)) (uses_left pos (uses i)))).
      set (i1 := with_ranges i _ _) in *. pose proof (nth_lt _ _ _ Hc) as LC. pose proof (sort_in_perm _ _ _ _ E3) as P.
      assert (NR : ~ In (length l) (unhandled s)) by (intros K; destruct (i_un _ _ _ V _ K) as [x [Hx _]]; apply nth_lt in Hx; lia).
      assert (PL : placed (sp i1)). { right. split; [reflexivity|]. split; [reflexivity|]. intros u U. apply (must_left pos i m M ltac:(lia) u U). }
      split; [repeat split|]. split; [eapply evo_trans; [apply (split_evo _ _ _ _ _ E2)|apply (evo_set _ _ _ _ Nc (SP _))]|].
      split; [unfold slack; rewrite length_list_set, L1, <- (Permutation_length P); cbn [length]; lia|].
      split; [intros j N Lj; rewrite nth_set_other by congruence; apply NO; assumption|].
      split; [intros j U; apply (Permutation_in j (Permutation_sym P)) in U; destruct U as [<-|U]; [right; lia|left; exact U]|].
      split; [exists (sp i1); split; [apply nth_set_same; lia|split; [reflexivity|exact PL]]|].
      intros hand' Hh. pose proof (split_Inv _ _ _ _ _ _ _ V NU E2) as V1.
      assert (V2 : Inv l1 un' hand). { apply (put_Inv _ _ _ _ _ _ V1 NR); [eexists; split; [exact Nr|repeat split]| |exact E3]. intros x [<-|K] N; [contradiction|exact K]. }
      apply (set_Inv _ _ _ _ _ _ _ V2 Nc); try reflexivity; [exact Fx| |exact Hh|right; exact PL].
      intros K. apply (Permutation_in _ (Permutation_sym P)) in K. destruct K as [K|K]; [lia|contradiction].
    - cbn [bind ivs with_ivs] in H. rewrite (proj2 (get_ok _ _ _) Hc) in H. cbn [bind] in H. injection H as <-. cbn [ivs with_ivs unhandled active inactive handled seen]. change (mk_ivl _ _ 0 true _ _ _ _) with (sp i).
      assert (PL : placed (sp i)) by (right; split; [reflexivity|]; split; [reflexivity|apply (must_none i M)]). pose proof (nth_lt _ _ _ Hc) as LC.
      split; [repeat split|]. split; [apply (evo_set _ _ _ _ Hc (SP _))|]. split; [unfold slack; rewrite length_list_set; lia|].
      split; [intros j N Lj; rewrite nth_set_other by congruence; reflexivity|]. split; [intros j U; left; exact U|].
      split; [exists (sp i); split; [apply nth_set_same; exact LC|split; [reflexivity|exact PL]]|].
      intros hand' Hh. apply (set_Inv _ _ _ _ _ _ _ V Hc); try reflexivity; [exact Fx|exact NU|exact Hh|right; exact PL].
  Qed.

  Lemma spill_ok s k before s' hand i : Inv (ivs s) (unhandled s) hand -> nth_error (ivs s) k = Some i -> fixed i = false -> ~ In k (unhandled s) -> spill blocks s k before = Ok s' ->
    same_lists s s' /\ evo (ivs s) (ivs s') /\ slack (ivs s) (unhandled s) <= slack (ivs s') (unhandled s') /\
    (forall j, j <> k -> (j < length (ivs s))%nat -> nth_error (ivs s') j = nth_error (ivs s) j) /\
    (forall j, In j (unhandled s') -> In j (unhandled s) \/ (length (ivs s) <= j)%nat) /\
    exists i', nth_error (ivs s') k = Some i' /\
      ((reg i' = reg i /\ spilled i' = spilled i /\ exists pos, pos < before /\ uses i' = uses_left pos (uses i) /\ forall p, covers (ranges i') p -> p < pos) \/
       (reg i' = 0%nat /\ placed i' /\ exists f, first_from i = Ok f /\ before <= f)) /\
      forall hand', (forall x, In x hand -> x <> k -> In x hand') -> (In k hand' \/ placed i') -> Inv (ivs s') (unhandled s') hand'.
  Proof.
    intros V Hk Fx NU H. unfold spill in H. rewrite (proj2 (get_ok _ _ _) Hk) in H. cbn [bind] in H. bnd H f Ff. destruct (f <? before) eqn:L.
    - bnd H x E. bnd E pos E1. destruct x as [l1 c]. pose proof (optimal_split_ok _ _ _ _ Hb E1) as PB.
      change (spill_rest s l1 c = Ok s') in H. destruct (split_nth _ _ _ _ _ E) as [-> [L1 [NO [i0 [Hk' [_ [_ [Nk Nc]]]]]]]]. rewrite Hk in Hk'. injection Hk' as <-.
      set (i1 := with_ranges i _ _) in *. pose proof (nth_lt _ _ _ Hk) as LK.
      assert (NR : ~ In (length (ivs s)) (unhandled s)) by (intros K; destruct (i_un _ _ _ V _ K) as [x [Hx _]]; apply nth_lt in Hx; lia).
      pose proof (split_Inv _ _ _ _ _ _ _ V NU E) as V1.
      destruct (spill_rest_ok s l1 _ s' _ _ V1 Nc eq_refl NR H) as [S1 [S2 [S3 [S4 [S5 [S6 S7]]]]]].
      split; [exact S1|]. split; [eapply evo_trans; [apply (split_evo _ _ _ _ _ E)|exact S2]|]. split; [unfold slack in *; rewrite L1 in S3; lia|].
      split; [intros j N Lj; rewrite S4 by lia; apply NO; assumption|]. split; [intros j U; destruct (S5 j U); [left; assumption|right; lia]|].
      exists i1. split; [rewrite S4 by lia; exact Nk|]. split; [left; split; [reflexivity|]; split; [reflexivity|]; exists pos; split; [exact PB|]; split; [reflexivity|]; intros p C; apply left_covers in C; apply C|].
      intros hand' Hh HP.
      assert (V2 : Inv (ivs s') (unhandled s') (k :: hand')). { apply S7. intros x [<-|K] N; [contradiction|]. destruct (Nat.eq_dec x k) as [->|N2]; [left; reflexivity|right; apply Hh; assumption]. }
      destruct HP as [HP|HP]; [|apply (placed_Inv _ _ _ _ _ V2 ltac:(rewrite S4 by lia; exact Nk) HP)].
      destruct V2 as [W1 W2 W3 W4 W5 W6 W7 W8 W9 W9b W10 W11 W12]. constructor; try assumption. intros j x Hx Fj. destruct (W12 j x Hx Fj) as [K|[[<-|K]|K]]; tauto.
    - cbn [bind] in H. change (spill_rest s (ivs s) k = Ok s') in H. destruct (spill_rest_ok s _ k s' _ _ V Hk Fx NU H) as [S1 [S2 [S3 [S4 [S5 [S6 S7]]]]]].
      split; [exact S1|]. split; [exact S2|]. split; [exact S3|]. split; [exact S4|]. split; [exact S5|]. destruct S6 as [i' [S6 [S8 S9]]]. exists i'. split; [exact S6|].
      split; [right; split; [exact S8|]; split; [exact S9|]; exists f; split; [reflexivity|lia]|]. intros hand' Hh _. apply S7. exact Hh.
  Qed.

  (** ** Assigning *)
  Definition with_reg (i : ivl) (r : nat) : ivl := mk_ivl (ranges i) (uses i) r (spilled i) (fixed i) (cls i) (remat i) (owner i).
  Lemma assign_ok s k r s' i : Inv (ivs s) (unhandled s) [k] -> nth_error (ivs s) k = Some i -> fixed i = false -> spilled i = false -> ~ In k (unhandled s) -> assign blocks s k r = Ok s' ->
    r <> 0%nat /\ same_lists s s' /\ evo (list_set (ivs s) k (with_reg i r)) (ivs s') /\ slack (ivs s) (unhandled s) <= slack (ivs s') (unhandled s') /\ Inv (ivs s') (unhandled s') [].
  Proof.
    intros V Hk Fx Sp NU H. unfold assign in H. destruct (r =? 0)%nat eqn:R; [discriminate|]. apply Nat.eqb_neq in R. rewrite (proj2 (get_ok _ _ _) Hk) in H. cbn [bind] in H. cbv zeta in H.
    change (mk_ivl (ranges i) (uses i) r (spilled i) (fixed i) (cls i) (remat i) (owner i)) with (with_reg i r) in H. set (s1 := with_ivs s (list_set (ivs s) k (with_reg i r))) in *.
    pose proof (nth_lt _ _ _ Hk) as LK. assert (Hk1 : nth_error (ivs s1) k = Some (with_reg i r)) by (apply nth_set_same; exact LK).
    split; [exact R|]. destruct (stack_pos i) as [m|] eqn:M.
    - assert (V1 : Inv (ivs s1) (unhandled s1) [k]). { apply (set_Inv _ _ _ _ _ _ _ V Hk); try reflexivity; try assumption; [intros x K _; exact K|left; left; reflexivity]. }
      destruct (spill_ok s1 k m s' [k] _ V1 Hk1 Fx NU H) as [S1 [S2 [S3 [S4 [S5 [i' [S6 [S7 S8]]]]]]]].
      split; [exact S1|]. split; [exact S2|]. split; [unfold slack in *; cbn [s1 with_ivs ivs unhandled] in S3; rewrite length_list_set in S3; exact S3|].
      apply S8; [intros x [<-|[]] N; contradiction|]. right. destruct S7 as [[R1 [R2 [pos [R3 [R4 R5]]]]]|[_ [S7 _]]]; [|exact S7].
      left. split; [rewrite R1; exact R|]. split; [rewrite R2; exact Sp|]. intros u U. rewrite R4 in U. apply (stack_left pos i m M R3 u U).
    - injection H as <-. split; [repeat split|]. split; [apply evo_refl|]. split; [unfold slack; cbn [s1 with_ivs ivs unhandled]; rewrite length_list_set; lia|].
      apply (set_Inv _ _ _ _ _ _ _ V Hk); try reflexivity; try assumption; [intros x [<-|[]] N; contradiction|]. right. left. split; [exact R|]. split; [exact Sp|apply (stack_none i M)].
  Qed.

  (** ** Evicting *)
  Lemma evict_ok r from sel : r <> 0%nat -> forall act s s' hand,
    Inv (ivs s) (unhandled s) hand ->
    (forall j i, In j act -> nth_error (ivs s) j = Some i -> reg i = r -> fixed i = true -> forall i1, fixed i1 = true -> sel i1 = Ok true -> False) ->
    evict blocks act sel r from s = Ok s' ->
    same_lists s s' /\ evo (ivs s) (ivs s') /\ slack (ivs s) (unhandled s) <= slack (ivs s') (unhandled s') /\
    (forall j i, nth_error (ivs s) j = Some i -> reg i <> r -> nth_error (ivs s') j = Some i) /\
    (forall j, In j (unhandled s') -> In j (unhandled s) \/ (length (ivs s) <= j)%nat) /\
    (forall j i i', In j act -> nth_error (ivs s) j = Some i -> nth_error (ivs s') j = Some i' -> reg i' = r ->
       (exists i1, sub i i1 /\ sub i1 i' /\ ordered (ranges i1) /\ sel i1 = Ok false) \/ (forall p, covers (ranges i') p -> p < from)) /\
    Inv (ivs s') (unhandled s') hand.
  Proof.
    intros R. induction act as [|k act IH]; intros s s' hand V Hf H; cbn [evict] in H.
    - injection H as <-. split; [repeat split|]. split; [apply evo_refl|]. split; [lia|]. split; [auto|]. split; [auto|]. split; [intros j i i' []|exact V].
    - bnd H i E. apply get_ok in E. bnd H s1 E1.
      assert (G : same_lists s s1 /\ evo (ivs s) (ivs s1) /\ slack (ivs s) (unhandled s) <= slack (ivs s1) (unhandled s1) /\
        (forall j x, nth_error (ivs s) j = Some x -> reg x <> r -> nth_error (ivs s1) j = Some x) /\ (forall j, In j (unhandled s1) -> In j (unhandled s) \/ (length (ivs s) <= j)%nat) /\
        (forall i', nth_error (ivs s1) k = Some i' -> reg i' = r -> (exists i1, sub i i1 /\ sub i1 i' /\ ordered (ranges i1) /\ sel i1 = Ok false) \/ (forall p, covers (ranges i') p -> p < from)) /\
        Inv (ivs s1) (unhandled s1) hand).
      { assert (ID : same_lists s s /\ evo (ivs s) (ivs s) /\ slack (ivs s) (unhandled s) <= slack (ivs s) (unhandled s) /\
          (forall j x, nth_error (ivs s) j = Some x -> reg x <> r -> nth_error (ivs s) j = Some x) /\ (forall j, In j (unhandled s) -> In j (unhandled s) \/ (length (ivs s) <= j)%nat)).
        { split; [repeat split|]. split; [apply evo_refl|]. split; [lia|]. split; auto. }
        destruct (negb (reg i =? r)%nat) eqn:Q.
        - injection E1 as <-. destruct ID as [I1 [I2 [I3 [I4 I5]]]]. repeat (split; [assumption|]). split; [|exact V]. intros i' Hi' Ri. exfalso. rewrite E in Hi'. injection Hi' as <-. lia.
        - assert (RI : reg i = r) by lia. bnd E1 b E2. destruct b.
          + assert (Fx : fixed i = false). { destruct (fixed i) eqn:Fx; [|reflexivity]. exfalso. apply (Hf k i (or_introl eq_refl) E RI Fx i Fx E2). }
            assert (NU : ~ In k (unhandled s)). { intros K. destruct (i_un _ _ _ V k K) as [x [Hx [Rx _]]]. rewrite E in Hx. injection Hx as <-. congruence. }
            destruct (spill_ok s k from s1 hand i V E Fx NU E1) as [S1 [S2 [S3 [S4 [S5 [i' [S6 [S7 S8]]]]]]]].
            split; [exact S1|]. split; [exact S2|]. split; [exact S3|]. split; [intros j x Hx Rx; rewrite S4; [exact Hx|intros ->; rewrite E in Hx; congruence|apply (nth_lt _ _ _ Hx)]|]. split; [exact S5|]. split.
            * intros i2 Hi2 R2. rewrite S6 in Hi2. injection Hi2 as <-. right. destruct S7 as [[_ [_ [pos [P1 [_ P2]]]]]|[R0 _]]; [|congruence]. intros p C. specialize (P2 p C). lia.
            * apply S8; [intros x K _; exact K|]. destruct (i_settled _ _ _ V k i E Fx) as [K|[K|K]]; [contradiction|left; exact K|right].
              destruct S7 as [[R1 [R2 [pos [P1 [P2 P3]]]]]|[_ [S7 _]]]; [|exact S7]. destruct K as [[K1 [K2 K3]]|[K1 [K2 K3]]]; [|congruence].
              left. split; [congruence|]. split; [congruence|]. intros u U. rewrite P2 in U. apply K3. apply (uses_left_in pos _ _ U).
          + injection E1 as <-. destruct ID as [I1 [I2 [I3 [I4 I5]]]]. repeat (split; [assumption|]). split; [|exact V]. intros i' Hi' Ri. rewrite E in Hi'. injection Hi' as <-. left. exists i. split; [apply sub_refl|]. split; [apply sub_refl|]. split; [apply (i_ord _ _ _ V k i E)|exact E2]. }
      destruct G as [G1 [G2 [G3 [G4 [G5 [G6 G7]]]]]].
      destruct (IH s1 s' hand G7) as [F1 [F2 [F3 [F4 [F5 [F6 F7]]]]]]; [|exact H|].
      { intros j x Hj Hx Rx Fx. destruct G2 as [L2 [G2 G2']]. assert (LJ : (j < length (ivs s))%nat) by (destruct (Nat.lt_ge_cases j (length (ivs s))) as [K|K]; [exact K|pose proof (G2' j x Hx K); congruence]).
        destruct (nth_ex _ j LJ) as [y Hy]. destruct (G2 j y Hy) as [x' [Hx' [S1 [S2 [S3 [S4 S5]]]]]]. rewrite Hx in Hx'. injection Hx' as <-. apply (Hf j y (or_intror Hj) Hy); [destruct S4; congruence|congruence]. }
      split; [destruct G1 as [A1 [A2 [A3 A4]]], F1 as [B1 [B2 [B3 B4]]]; repeat split; congruence|]. split; [apply (evo_trans _ _ _ G2 F2)|]. split; [lia|].
      split; [intros j x Hx Rx; apply F4; [apply G4; assumption|exact Rx]|].
      split; [intros j U; destruct (F5 j U) as [K|K]; [apply G5; exact K|right; destruct G2 as [L2 _]; lia]|]. split; [|exact F7].
      intros j x x' Hj Hx Hx' Rx. destruct Hj as [<-|Hj].
      + rewrite E in Hx. injection Hx as <-. destruct G2 as [_ [G2 _]]. destruct (G2 k i E) as [y [Hy Sy]]. destruct F2 as [_ [F2 _]]. destruct (F2 k y Hy) as [x2 [Hx2 Sx]]. rewrite Hx' in Hx2. injection Hx2 as <-.
        assert (RY : reg y = r) by (destruct Sx as [_ [_ [_ [Sx _]]]]; destruct Sx; congruence).
        destruct (G6 y Hy RY) as [[i1 [A1 [A2 [A3 A4]]]]|B]; [left; exists i1; split; [exact A1|]; split; [apply (sub_trans _ _ _ A2 Sx)|]; split; assumption|right]. intros p C. apply B. apply Sx. exact C.
      + destruct G2 as [_ [G2 _]]. destruct (G2 j x Hx) as [y [Hy Sy]]. destruct (F6 j y x' Hj Hy Hx' Rx) as [[i1 [A1 A2]]|B]; [left; exists i1; split; [apply (sub_trans _ _ _ Sy A1)|exact A2]|right; exact B].
  Qed.
End Walk.
