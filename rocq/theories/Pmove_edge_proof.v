(** The moves of an edge: every place ends with the value it is to have. *)
From Coq Require Import Permutation.
From Verif Require Import Base Base_lemmas Pmove_model Pmove_spec Pmove_proof.

Lemma put_same {V} (s : nat + nat -> V) l v : put s l v l = v.
Proof. destruct l; cbn [put]; rewrite Nat.eqb_refl; reflexivity. Qed.
Lemma put_other {V} (s : nat + nat -> V) l v x : x <> l -> put s l v x = s x.
Proof. intros H. destruct x as [a|a], l as [b|b]; cbn [put]; try reflexivity; destruct (Nat.eqb a b) eqn:E; try reflexivity; apply Nat.eqb_eq in E; congruence. Qed.
Lemma place_dec (a b : nat + nat) : {a = b} + {a <> b}.
Proof. decide equality; apply Nat.eq_dec. Qed.
Lemma run_moves_app {V} a : forall b (s : nat + nat -> V), run_moves (a ++ b) s = run_moves b (run_moves a s).
Proof. induction a as [|[f t] a IH]; intros b s; [reflexivity|]. cbn [app run_moves]. apply IH. Qed.

(** how many of the pairs come from a register *)
Definition from_reg (r : nat) (p : ivl * ivl) : bool := match assigned (fst p) with Some x => Nat.eqb x r | None => false end.
Definition count (r : nat) (l : list (ivl * ivl)) : nat := length (filter (from_reg r) l).
Lemma count_app r a b : count r (a ++ b) = (count r a + count r b)%nat.
Proof. unfold count. rewrite filter_app, app_length. reflexivity. Qed.
Lemma count_cons r p l : count r (p :: l) = ((if from_reg r p then 1 else 0) + count r l)%nat.
Proof. unfold count. cbn [filter]. destruct (from_reg r p); reflexivity. Qed.
Lemma count_in r l f t : In (f, t) l -> assigned f = Some r -> (0 < count r l)%nat.
Proof. intros H E. apply in_split in H. destruct H as [a [b ->]]. rewrite count_app, count_cons. unfold from_reg. cbn [fst]. rewrite E, Nat.eqb_refl. lia. Qed.
Lemma count_pos r l : (0 < count r l)%nat -> exists f t, In (f, t) l /\ assigned f = Some r.
Proof.
  intros H. unfold count in H. destruct (filter (from_reg r) l) as [|[f t] x] eqn:E; [cbn in H; lia|]. assert (K : In (f, t) (filter (from_reg r) l)) by (rewrite E; left; reflexivity). apply filter_In in K. destruct K as [K1 K2]. exists f, t. split; [exact K1|].
  unfold from_reg in K2. cbn [fst] in K2. destruct (assigned f) as [x'|]; [|discriminate]. apply Nat.eqb_eq in K2. congruence.
Qed.

Lemma i8_add a b : i8 (i8 a + b) = i8 (a + b).
Proof. unfold i8. f_equal. replace ((a + 128) mod 256 - 128 + b + 128) with ((a + 128) mod 256 + b) by lia. rewrite Z.add_mod_idemp_l by lia. f_equal. lia. Qed.
Lemma i8_small z : 0 <= z <= 255 -> (i8 z = 0 <-> z = 0) /\ (i8 z = 1 <-> z = 1).
Proof. intros H. unfold i8. pose proof (Z.mod_pos_bound (z + 128) 256 ltac:(lia)). pose proof (Z.div_mod (z + 128) 256 ltac:(lia)). assert ((z + 128) / 256 = 0 \/ (z + 128) / 256 = 1) by nia. lia. Qed.

Lemma remove_app {A} (a : list A) x b : remove_at (a ++ x :: b) (length a) = a ++ b.
Proof. induction a as [|y a IH]; [reflexivity|]. cbn [app length remove_at]. rewrite IH. reflexivity. Qed.
Lemma set_app {A} (a : list A) x b y : list_set (a ++ x :: b) (length a) y = a ++ y :: b.
Proof. induction a as [|z a IH]; [reflexivity|]. cbn [app length list_set]. rewrite IH. reflexivity. Qed.

Definition dst_regs (l : list (ivl * ivl)) : list nat := flat_map (fun p => match assigned (snd p) with Some r => [r] | None => [] end) l.
Definition src_regs (l : list (ivl * ivl)) : list nat := flat_map (fun p => match assigned (fst p) with Some r => [r] | None => [] end) l.
Lemma src_count r l : count r l = length (filter (Nat.eqb r) (src_regs l)).
Proof.
  induction l as [|[f t] l IH]; [reflexivity|]. rewrite count_cons, IH. unfold from_reg. cbn [src_regs flat_map fst]. destruct (assigned f) as [x|]; [|reflexivity]. cbn [app filter]. rewrite (Nat.eqb_sym r x). destruct (Nat.eqb x r); reflexivity.
Qed.
Lemma nodup_count r l : NoDup l -> (length (filter (Nat.eqb r) l) <= 1)%nat.
Proof.
  induction 1 as [|x l N ND IH]; [cbn; lia|]. cbn [filter]. destruct (Nat.eqb r x) eqn:E; [|exact IH]. apply Nat.eqb_eq in E. subst x. cbn [length]. destruct (filter (Nat.eqb r) l) as [|y k] eqn:F; [cbn; lia|].
  exfalso. apply N. assert (K : In y (filter (Nat.eqb r) l)) by (rewrite F; left; reflexivity). apply filter_In in K. destruct K as [K1 K2]. apply Nat.eqb_eq in K2. subst y. exact K1.
Qed.
Lemma src_len l : (length (src_regs l) <= length l)%nat.
Proof. induction l as [|[f t] l IH]; [reflexivity|]. unfold src_regs. cbn [flat_map fst]. rewrite app_length. destruct (assigned f); cbn [length]; unfold src_regs in IH; lia. Qed.
Lemma src_full l : length (src_regs l) = length l -> forall f t, In (f, t) l -> assigned f <> None.
Proof.
  induction l as [|[f t] l IH]; intros H f' t' Hin; [destruct Hin|]. pose proof (src_len l) as L. unfold src_regs in *. cbn [flat_map fst] in H. rewrite app_length in H. destruct (assigned f) as [r|] eqn:E; cbn [length] in H; [|lia]. destruct Hin as [Hin|Hin]; [injection Hin as <- <-; congruence|]. apply (IH ltac:(lia) f' t' Hin).
Qed.
Lemma src_in l r : In r (src_regs l) <-> exists f t, In (f, t) l /\ assigned f = Some r.
Proof.
  unfold src_regs. rewrite in_flat_map. split.
  - intros [[f t] [H1 H2]]. cbn [fst] in H2. destruct (assigned f) as [x|] eqn:E; [|destruct H2]. destruct H2 as [<-|[]]. exists f, t. auto.
  - intros [f [t [H1 H2]]]. exists (f, t). split; [exact H1|]. cbn [fst]. rewrite H2. left. reflexivity.
Qed.
Lemma dst_in l r : In r (dst_regs l) <-> exists f t, In (f, t) l /\ assigned t = Some r.
Proof.
  unfold dst_regs. rewrite in_flat_map. split.
  - intros [[f t] [H1 H2]]. cbn [snd] in H2. destruct (assigned t) as [x|] eqn:E; [|destruct H2]. destruct H2 as [<-|[]]. exists f, t. auto.
  - intros [f [t [H1 H2]]]. exists (f, t). split; [exact H1|]. cbn [snd]. rewrite H2. left. reflexivity.
Qed.
Definition dst (p : ivl * ivl) : nat + nat := place (snd p).
Lemma dst_nodup l : NoDup (map dst l) -> NoDup (dst_regs l).
Proof.
  induction l as [|[f t] l IH]; intros H; [constructor|]. cbn [map] in H. apply NoDup_cons_iff in H. destruct H as [H1 H2]. unfold dst_regs. cbn [flat_map snd]. destruct (assigned t) as [r|] eqn:E; [|exact (IH H2)]. cbn [app]. constructor; [|exact (IH H2)].
  intros K. apply (dst_in l r) in K. destruct K as [f' [t' [K1 K2]]]. apply H1. replace (dst (f, t)) with (dst (f', t')); [apply in_map; exact K1|]. unfold dst, place. cbn [snd]. rewrite E, K2. reflexivity.
Qed.
Lemma dst_full l : (forall f t, In (f, t) l -> assigned t <> None) -> length (dst_regs l) = length l.
Proof.
  induction l as [|[f t] l IH]; intros H; [reflexivity|]. unfold dst_regs. cbn [flat_map snd]. rewrite app_length. pose proof (H f t (or_introl eq_refl)) as K. destruct (assigned t); [|contradiction]. apply (f_equal S). apply IH. intros f' t' K'. apply (H f' t' (or_intror K')).
Qed.

Section Edge.
  Context {V : Type} (l0 : list (ivl * ivl)) (s0 : nat + nat -> V).
  Hypothesis He : is_edge l0.

  Lemma e_same f t f' t' : In (f, t) l0 -> In (f', t') l0 -> var f = var f' -> place f = place f'.
  Proof. intros H1 H2 H3. destruct He as [_ [K _]]. apply (proj1 (K f t f' t' H1 H2)). exact H3. Qed.
  Lemma e_dst f t f' t' : In (f, t) l0 -> In (f', t') l0 -> place t = place t' -> (f, t) = (f', t').
  Proof.
    intros H1 H2 H3. destruct He as [_ [_ [ND _]]]. apply In_nth_error in H1. apply In_nth_error in H2. destruct H1 as [i Hi], H2 as [j Hj]. rewrite NoDup_nth_error in ND.
    assert (i = j); [|congruence]. apply ND; [rewrite map_length; apply (nth_lt _ _ _ Hi)|]. rewrite (map_nth_error _ i l0 Hi), (map_nth_error _ j l0 Hj). cbn [snd]. congruence.
  Qed.

  (** what is left to do *)
  Record inv (pend : list (ivl * ivl)) (regs : list Z) (acc : list (ivl * ivl)) : Prop := mk_inv {
    inv_pend : forall f t, In (f, t) pend -> exists f0, In (f0, t) l0 /\ (f = f0 \/ (f = mk_ivl (var f0) None /\ assigned t <> None)) /\ run_moves acc s0 (place f) = s0 (place f0);
    inv_done : forall f0 t, In (f0, t) l0 -> (exists f, In (f, t) pend) \/ run_moves acc s0 (place t) = s0 (place f0);
    inv_else : forall x, ~ In x (map dst l0) -> (forall f t, In (f, t) l0 -> assigned f <> None -> x <> inr (var f)) -> run_moves acc s0 x = s0 x;
    inv_nodup : NoDup (map dst pend);
    inv_len : length regs = 255%nat;
    inv_regs : forall r, (0 < r < 255)%nat -> nth_error regs r = Some (i8 (Z.of_nat (count r pend))) }.

  Lemma i_from pend regs acc f t r : inv pend regs acc -> In (f, t) pend -> assigned f = Some r -> (0 < r < 255)%nat /\ In (f, t) l0.
  Proof.
    intros I H E. destruct (inv_pend _ _ _ I f t H) as [f0 [K1 [[->|[-> _]] _]]]; [|discriminate]. destruct He as [R _]. split; [apply (R f0 t r K1); left; exact E|exact K1].
  Qed.
  Lemma i_to pend regs acc f t r : inv pend regs acc -> In (f, t) pend -> assigned t = Some r -> (0 < r < 255)%nat.
  Proof. intros I H E. destruct (inv_pend _ _ _ I f t H) as [f0 [K1 _]]. destruct He as [R _]. apply (R f0 t r K1). right. exact E. Qed.
  Lemma i_slot pend regs acc f t : inv pend regs acc -> In (f, t) pend -> assigned t = None -> var t = var f /\ assigned f <> None.
  Proof. intros I H E. destruct (inv_pend _ _ _ I f t H) as [f0 [K1 [[->|[_ K]] _]]]; [|contradiction]. destruct He as [_ [_ [_ R]]]. apply (R f0 t K1 E). Qed.

  (** a counter of eight bits is enough *)
  Lemma count_le pend regs acc r : inv pend regs acc -> (count r pend <= 255)%nat.
  Proof.
    intros I. destruct (Nat.eq_dec (count r pend) 0) as [->|N]; [lia|]. destruct (count_pos r pend ltac:(lia)) as [g [u [G1 G2]]]. pose proof (proj2 (i_from _ _ _ _ _ _ I G1 G2)) as G3.
    unfold count. rewrite <- (map_length dst). replace 255%nat with (length (map (@inl nat nat) (seq 1 254) ++ [inr (var g)])) by (rewrite app_length, map_length, seq_length; reflexivity).
    apply NoDup_incl_length.
    - pose proof (inv_nodup _ _ _ I) as ND. revert ND. clear. induction pend as [|p pend IH]; intros ND; [constructor|]. cbn [map] in ND. apply NoDup_cons_iff in ND. destruct ND as [N1 N2]. cbn [filter]. destruct (from_reg r p); [|exact (IH N2)]. cbn [map]. constructor; [|exact (IH N2)].
      intros K. apply N1. apply in_map_iff in K. destruct K as [q [Q1 Q2]]. rewrite <- Q1. apply in_map. apply filter_In in Q2. apply Q2.
    - intros x Hx. apply in_map_iff in Hx. destruct Hx as [[f t] [X1 X2]]. apply filter_In in X2. destruct X2 as [X2 X3]. unfold from_reg in X3. cbn [fst] in X3. destruct (assigned f) as [y|] eqn:E; [|discriminate]. apply Nat.eqb_eq in X3. subst y. subst x. unfold dst, place. cbn [snd].
      apply in_or_app. destruct (assigned t) as [q|] eqn:Et.
      + left. apply in_map. apply in_seq. pose proof (i_to _ _ _ _ _ _ I X2 Et). lia.
      + right. left. destruct (i_slot _ _ _ _ _ I X2 Et) as [Ev _]. rewrite Ev. f_equal. pose proof (proj2 (i_from _ _ _ _ _ _ I X2 E)) as X4. destruct He as [_ [K _]]. apply (proj2 (K g u f t G3 X4)). unfold place. rewrite G2, E. reflexivity.
  Qed.

  Lemma blocked_ok pend regs acc f t : inv pend regs acc -> In (f, t) pend ->
    exists b, blocked regs f t = Ok b /\ (b = false <-> forall r, assigned t = Some r -> count r pend = 0%nat \/ (count r pend = 1%nat /\ assigned f = Some r)).
  Proof.
    intros I H. unfold blocked. destruct (assigned t) as [r|] eqn:E; [|exists false; split; [reflexivity|]; split; [intros _ r; discriminate|reflexivity]].
    pose proof (i_to _ _ _ _ _ _ I H E) as Hr. rewrite (get_ok _ _ _ (inv_regs _ _ _ I r Hr)). cbn [bind]. pose proof (count_le _ _ _ r I) as Hc. destruct (i8_small (Z.of_nat (count r pend)) ltac:(lia)) as [S0 S1].
    destruct (i8 (Z.of_nat (count r pend)) =? 0) eqn:E0.
    { exists false. split; [reflexivity|]. split; [|reflexivity]. intros _ x Ex. injection Ex as <-. left. apply Z.eqb_eq in E0. apply S0 in E0. lia. }
    apply Z.eqb_neq in E0. destruct (i8 (Z.of_nat (count r pend)) =? 1) eqn:E1; cbn [andb].
    - apply Z.eqb_eq in E1. apply S1 in E1. destruct (assigned f) as [x|] eqn:Ef; [destruct (Nat.eqb r x) eqn:Ex|].
      + apply Nat.eqb_eq in Ex. subst x. exists false. split; [reflexivity|]. split; [|reflexivity]. intros _ y Ey. injection Ey as <-. right. split; [lia|reflexivity].
      + apply Nat.eqb_neq in Ex. exists true. split; [reflexivity|]. split; [discriminate|]. intros K. destruct (K r eq_refl) as [K1|[_ K1]]; [lia|congruence].
      + exists true. split; [reflexivity|]. split; [discriminate|]. intros K. destruct (K r eq_refl) as [K1|[_ K1]]; [lia|discriminate].
    - apply Z.eqb_neq in E1. exists true. split; [reflexivity|]. split; [discriminate|]. intros K. destruct (K r eq_refl) as [K1|[K1 _]]; exfalso; [apply E0; apply S0; lia|apply E1; apply S1; lia].
  Qed.

  Lemma dec_regs pend regs acc f t a b : inv pend regs acc -> pend = a ++ (f, t) :: b ->
    exists regs', match assigned f with Some r => add_at regs r (-1) | None => Ok regs end = Ok regs' /\ length regs' = 255%nat /\
      (forall r, (0 < r < 255)%nat -> nth_error regs' r = Some (i8 (Z.of_nat (count r (a ++ b))))).
  Proof.
    intros I ->. assert (H : In (f, t) (a ++ (f, t) :: b)) by (apply in_or_app; right; left; reflexivity). destruct (assigned f) as [r|] eqn:E.
    - destruct (i_from _ _ _ _ _ _ I H E) as [Hr _]. unfold add_at. rewrite (get_ok _ _ _ (inv_regs _ _ _ I r Hr)). cbn [bind]. eexists. split; [reflexivity|]. split; [rewrite length_list_set; apply (inv_len _ _ _ I)|].
      intros x Hx. destruct (Nat.eq_dec x r) as [->|N].
      + rewrite nth_set_same by (rewrite (inv_len _ _ _ I); lia). rewrite i8_add. do 2 f_equal. rewrite !count_app, count_cons. unfold from_reg. cbn [fst]. rewrite E, Nat.eqb_refl. lia.
      + rewrite nth_set_other by congruence. rewrite (inv_regs _ _ _ I x Hx). do 3 f_equal. rewrite !count_app, count_cons. unfold from_reg. cbn [fst]. rewrite E. destruct (Nat.eqb r x) eqn:Ex; [apply Nat.eqb_eq in Ex; congruence|reflexivity].
    - exists regs. split; [reflexivity|]. split; [apply (inv_len _ _ _ I)|]. intros x Hx. rewrite (inv_regs _ _ _ I x Hx). do 3 f_equal. rewrite !count_app, count_cons. unfold from_reg. cbn [fst]. rewrite E. reflexivity.
  Qed.

  Lemma in_mid {A} (a b : list A) x y : In x (a ++ b) -> In x (a ++ y :: b).
  Proof. intros H. apply in_app_or in H. apply in_or_app. destruct H as [H|H]; [left; exact H|right; right; exact H]. Qed.
  Lemma mid_in {A} (a b : list A) x y : In x (a ++ y :: b) -> x = y \/ In x (a ++ b).
  Proof. intros H. apply in_app_or in H. destruct H as [H|[H|H]]; [right; apply in_or_app; left; exact H|left; congruence|right; apply in_or_app; right; exact H]. Qed.

  (** a move that is not blocked *)
  Lemma do_move pend regs acc f t a b : inv pend regs acc -> pend = a ++ (f, t) :: b -> blocked regs f t = Ok false ->
    exists regs', match assigned f with Some r => add_at regs r (-1) | None => Ok regs end = Ok regs' /\ inv (a ++ b) regs' (acc ++ [(f, t)]).
  Proof.
    intros I Hp Hb. destruct (dec_regs _ _ _ _ _ _ _ I Hp) as [regs' [R1 [R2 R3]]]. exists regs'. split; [exact R1|]. subst pend.
    assert (H : In (f, t) (a ++ (f, t) :: b)) by (apply in_or_app; right; left; reflexivity).
    destruct (blocked_ok _ _ _ _ _ I H) as [b' [B1 B2]]. rewrite Hb in B1. injection B1 as <-. pose proof (proj1 B2 eq_refl) as Bl. clear B2.
    destruct (inv_pend _ _ _ I f t H) as [g [G1 [G2 G3]]].
    assert (Nw : run_moves (acc ++ [(f, t)]) s0 = put (run_moves acc s0) (place t) (s0 (place g))) by (rewrite run_moves_app; cbn [run_moves]; rewrite G3; reflexivity).
    split; try assumption.
    - intros f' t' H'. pose proof (in_mid a b (f', t') (f, t) H') as H2. destruct (inv_pend _ _ _ I f' t' H2) as [g' [G1' [G2' G3']]]. exists g'. split; [exact G1'|]. split; [exact G2'|]. rewrite Nw.
      destruct (place_dec (place f') (place t)) as [E|N]; [|rewrite put_other by exact N; exact G3'].
      rewrite E, put_same. destruct (assigned t) as [r|] eqn:Et.
      + exfalso. unfold place in E at 2. rewrite Et in E. assert (Ef : assigned f' = Some r) by (unfold place in E; destruct (assigned f'); congruence).
        assert (C1 : (0 < count r (a ++ b))%nat) by (apply (count_in r _ f' t' H' Ef)). destruct (Bl r eq_refl) as [K|[K1 K2]].
        * rewrite count_app, count_cons in K. rewrite count_app in C1. lia.
        * rewrite count_app, count_cons in K1. unfold from_reg in K1. cbn [fst] in K1. rewrite K2, Nat.eqb_refl in K1. rewrite count_app in C1. lia.
      + destruct (i_slot _ _ _ _ _ I H Et) as [Ev Ef]. unfold place in E at 2. rewrite Et in E. assert (K : var f' = var t) by (unfold place in E; destruct (assigned f'); congruence).
        f_equal. apply (e_same g t g' t' G1 G1'). assert (var f = var g) by (destruct G2 as [->|[-> _]]; reflexivity). assert (var f' = var g') by (destruct G2' as [->|[-> _]]; reflexivity). congruence.
    - intros f' t' H'. rewrite Nw. destruct (place_dec (place t') (place t)) as [E|N].
      + right. rewrite E, put_same. pose proof (e_dst f' t' g t H' G1 E) as K. congruence.
      + destruct (inv_done _ _ _ I f' t' H') as [[h Hh]|D]; [|right; rewrite put_other by exact N; exact D]. left. exists h. apply mid_in in Hh. destruct Hh as [Hh|Hh]; [congruence|exact Hh].
    - intros x N1 N2. rewrite Nw, put_other; [apply (inv_else _ _ _ I x N1 N2)|]. intros ->. apply N1. change (place t) with (dst (g, t)). apply in_map. exact G1.
    - pose proof (inv_nodup _ _ _ I) as ND. rewrite map_app in ND. cbn [map] in ND. apply NoDup_remove_1 in ND. rewrite map_app. exact ND.
  Qed.

  (** a register is copied to the slot of its variable *)
  Lemma do_spill pend regs acc f t a b r : inv pend regs acc -> pend = a ++ (f, t) :: b -> assigned f = Some r -> assigned t <> None ->
    exists regs', add_at regs r (-1) = Ok regs' /\ inv (a ++ (mk_ivl (var f) None, t) :: b) regs' (acc ++ [(f, mk_ivl (var f) None)]) /\ (forall x, count x (a ++ (mk_ivl (var f) None, t) :: b) = count x (a ++ b)).
  Proof.
    intros I Hp Ef Et. destruct (dec_regs _ _ _ _ _ _ _ I Hp) as [regs' [R1 [R2 R3]]]. rewrite Ef in R1. exists regs'. split; [exact R1|]. subst pend.
    assert (H : In (f, t) (a ++ (f, t) :: b)) by (apply in_or_app; right; left; reflexivity). pose proof (proj2 (i_from _ _ _ _ _ _ I H Ef)) as Hl.
    assert (Ct : forall x, count x (a ++ (mk_ivl (var f) None, t) :: b) = count x (a ++ b)) by (intros x; rewrite !count_app, count_cons; reflexivity).
    assert (Vf : run_moves acc s0 (place f) = s0 (place f)).
    { destruct (inv_pend _ _ _ I f t H) as [g [G1 [[->|[-> _]] G3]]]; [exact G3|discriminate]. }
    assert (Nw : run_moves (acc ++ [(f, mk_ivl (var f) None)]) s0 = put (run_moves acc s0) (inr (var f)) (s0 (place f))) by (rewrite run_moves_app; cbn [run_moves]; rewrite Vf; reflexivity).
    split; [|exact Ct]. split; try assumption.
    - intros f' t' H'. apply mid_in in H'. destruct H' as [H'|H'].
      + injection H' as -> ->. exists f. split; [exact Hl|]. split; [right; split; [reflexivity|exact Et]|]. rewrite Nw. change (place (mk_ivl (var f) None)) with (@inr nat nat (var f)). apply put_same.
      + pose proof (in_mid a b (f', t') (f, t) H') as H2. destruct (inv_pend _ _ _ I f' t' H2) as [g [G1 [G2 G3]]]. exists g. split; [exact G1|]. split; [exact G2|]. rewrite Nw. destruct (place_dec (place f') (inr (var f))) as [E|N]; [|rewrite put_other by exact N; exact G3].
        rewrite E, put_same. f_equal. apply (e_same f t g t' Hl G1). assert (var f' = var g) by (destruct G2 as [->|[-> _]]; reflexivity). unfold place in E. destruct (assigned f'); congruence.
    - intros f' t' H'. destruct (inv_done _ _ _ I f' t' H') as [[h Hh]|D].
      + left. apply mid_in in Hh. destruct Hh as [Hh|Hh]; [|exists h; apply in_mid; exact Hh]. injection Hh as -> ->. exists (mk_ivl (var f) None). apply in_or_app. right. left. reflexivity.
      + right. rewrite Nw. destruct (place_dec (place t') (inr (var f))) as [E|N]; [|rewrite put_other by exact N; exact D]. rewrite E, put_same. f_equal. apply (e_same f t f' t' Hl H').
        unfold place in E. destruct (assigned t') as [q|] eqn:Et'; [discriminate|]. destruct He as [_ [_ [_ R]]]. destruct (R f' t' H' Et') as [Ev _]. congruence.
    - intros x N1 N2. rewrite Nw, put_other; [apply (inv_else _ _ _ I x N1 N2)|]. apply (N2 f t Hl). congruence.
    - pose proof (inv_nodup _ _ _ I) as ND. rewrite map_app in *. exact ND.
    - intros x Hx. rewrite Ct. apply R3. exact Hx.
  Qed.

  Lemma round_ok : forall fuel i pend regs acc cand done, (length pend - i <= fuel)%nat -> inv pend regs acc ->
    exists pend' regs' acc' cand' done', round fuel i pend regs acc cand done = Ok (pend', regs', acc', cand', done') /\ inv pend' regs' acc' /\ (length pend' <= length pend)%nat /\
      (done' = true -> done = true \/ (length pend' < length pend)%nat) /\
      (done' = false -> pend' = pend /\ regs' = regs /\ acc' = acc /\ (forall j f t, (i <= j)%nat -> nth_error pend j = Some (f, t) -> blocked regs f t = Ok true) /\ ((i < length pend)%nat -> cand' = Some (length pend - 1)%nat)).
  Proof.
    induction fuel as [|fuel IH]; intros i pend regs acc cand done Hf I.
    - exists pend, regs, acc, cand, done. assert (E : nth_error pend i = None) by (apply nth_error_None; lia). split; [cbn [round]; rewrite E; reflexivity|]. split; [exact I|]. split; [lia|]. split; [auto|]. intros _. repeat split; auto; [|lia]. intros j f t Hj Ej. apply nth_lt in Ej. lia.
    - cbn [round]. destruct (nth_error pend i) as [[f t]|] eqn:E.
      2:{ exists pend, regs, acc, cand, done. split; [reflexivity|]. split; [exact I|]. split; [lia|]. split; [auto|]. apply nth_error_None in E. intros _. repeat split; auto; [|lia]. intros j f t Hj Ej. apply nth_lt in Ej. lia. }
      pose proof (nth_lt _ _ _ E) as Lt. pose proof (nth_error_In _ _ E) as Hin.
      assert (Ab : match assigned f, assigned t with None, None => False | _, _ => True end).
      { destruct (assigned t) eqn:Et; [destruct (assigned f); exact Logic.I|]. destruct (i_slot _ _ _ _ _ I Hin Et) as [_ K]. destruct (assigned f); [exact Logic.I|contradiction]. }
      set (Q := exists pend' regs' acc' cand' done', _).
      assert (K : exists pend' regs' acc' cand' done',
        (b <- blocked regs f t ;; if b then round fuel (S i) pend regs acc (Some i) done else regs <- match assigned f with Some r => add_at regs r (-1) | None => Ok regs end ;; round fuel (S i) (remove_at pend i) regs (acc ++ [(f, t)]) cand true) = Ok (pend', regs', acc', cand', done') /\ inv pend' regs' acc' /\ (length pend' <= length pend)%nat /\
      (done' = true -> done = true \/ (length pend' < length pend)%nat) /\
      (done' = false -> pend' = pend /\ regs' = regs /\ acc' = acc /\ (forall j f t, (i <= j)%nat -> nth_error pend j = Some (f, t) -> blocked regs f t = Ok true) /\ ((i < length pend)%nat -> cand' = Some (length pend - 1)%nat))).
      2:{ unfold Q. destruct (assigned f), (assigned t); try exact K. destruct Ab. }
      clear Q. destruct (blocked_ok _ _ _ _ _ I Hin) as [b [B1 _]]. rewrite B1. cbn [bind]. destruct b.
      + destruct (IH (S i) pend regs acc (Some i) done ltac:(lia) I) as [p' [r' [a' [c' [d' [R1 [R2 [R3 [R4 R5]]]]]]]]].
        exists p', r', a', c', d'. split; [exact R1|]. split; [exact R2|]. split; [exact R3|]. split; [exact R4|]. intros Hd. destruct (R5 Hd) as [-> [-> [-> [S1 S2]]]]. repeat split; auto.
        * intros j f' t' Hj Ej. destruct (Nat.eq_dec j i) as [->|N]; [congruence|]. apply (S1 j f' t' ltac:(lia) Ej).
        * intros _. destruct (Nat.eq_dec (S i) (length pend)) as [El|N]; [|apply S2; lia].
          destruct fuel as [|fuel']; cbn [round] in R1; rewrite (proj2 (nth_error_None pend (S i)) ltac:(lia)) in R1; injection R1; intros; subst; f_equal; lia.
      + apply nth_error_split in E. destruct E as [x [y [-> Lx]]]. subst i. destruct (do_move _ _ _ _ _ _ _ I eq_refl B1) as [regs' [D1 D2]]. rewrite D1. cbn [bind]. rewrite remove_app.
        rewrite !app_length in *. cbn [length] in *.
        destruct (IH (S (length x)) (x ++ y) regs' (acc ++ [(f, t)]) cand true) as [p' [r' [a' [c' [d' [R1 [R2 [R3 [R4 R5]]]]]]]]]; [rewrite app_length; lia|exact D2|]. rewrite app_length in R3, R4.
        exists p', r', a', c', d'. split; [exact R1|]. split; [exact R2|]. split; [lia|]. split; [intros _; right; lia|]. intros Hd. exfalso.
        clear - R1 Hd. assert (K : forall fuel i l regs acc cand p r a c d, round fuel i l regs acc cand true = Ok (p, r, a, c, d) -> d = true).
        { clear. induction fuel as [|fuel IH]; intros i l regs acc cand p r a c d H; cbn [round] in H; destruct (nth_error l i) as [[f t]|]; try discriminate; try congruence.
          destruct (assigned f) as [q|] eqn:Ef, (assigned t) as [q'|] eqn:Et; try discriminate.
          - destruct (blocked regs f t) as [[|]| | | | |]; try discriminate; cbn [bind] in H; [apply (IH _ _ _ _ _ _ _ _ _ _ H)|]. destruct (add_at regs q (-1)) as [z| | | | |]; try discriminate. cbn [bind] in H. apply (IH _ _ _ _ _ _ _ _ _ _ H).
          - destruct (blocked regs f t) as [[|]| | | | |]; try discriminate; cbn [bind] in H; [apply (IH _ _ _ _ _ _ _ _ _ _ H)|]. destruct (add_at regs q (-1)) as [z| | | | |]; try discriminate. cbn [bind] in H. apply (IH _ _ _ _ _ _ _ _ _ _ H).
          - destruct (blocked regs f t) as [[|]| | | | |]; try discriminate; cbn [bind] in H; apply (IH _ _ _ _ _ _ _ _ _ _ H). }
        rewrite (K _ _ _ _ _ _ _ _ _ _ _ R1) in Hd. discriminate.
  Qed.

  (** when every move is blocked the registers form cycles *)
  Lemma stuck pend regs acc f t a b : inv pend regs acc -> pend = a ++ (f, t) :: b -> (forall f t, In (f, t) pend -> blocked regs f t = Ok true) ->
    exists r, assigned f = Some r /\ assigned t <> None /\ count r (a ++ b) = 0%nat /\ exists f' t', In (f', t') (a ++ b) /\ assigned t' = Some r.
  Proof.
    intros I Hp Bl.
    assert (Bk : forall f t, In (f, t) pend -> exists r, assigned t = Some r /\ (0 < count r pend)%nat /\ ~ (count r pend = 1%nat /\ assigned f = Some r)).
    { intros f' t' H. destruct (blocked_ok _ _ _ _ _ I H) as [b' [B1 B2]]. rewrite (Bl f' t' H) in B1. injection B1 as <-. destruct (assigned t') as [r|] eqn:E.
      - exists r. split; [reflexivity|]. assert (K : ~ (count r pend = 0%nat \/ (count r pend = 1%nat /\ assigned f' = Some r))). { intros K. assert (true = false); [|discriminate]. apply B2. intros x Ex. injection Ex as <-. exact K. } split; [destruct (count r pend); [exfalso; apply K; left; reflexivity|lia]|tauto].
      - assert (true = false); [|discriminate]. apply B2. intros x Ex. discriminate. }
    assert (L : length (dst_regs pend) = length pend) by (apply dst_full; intros f' t' H; destruct (Bk f' t' H) as [r [E _]]; congruence).
    pose proof (dst_nodup pend (inv_nodup _ _ _ I)) as ND. pose proof (src_len pend) as Ls.
    assert (Inc : incl (dst_regs pend) (src_regs pend)).
    { intros r Hr. apply dst_in in Hr. destruct Hr as [f' [t' [H1 H2]]]. destruct (Bk f' t' H1) as [x [X1 [X2 _]]]. assert (x = r) by congruence. subst x. apply count_pos in X2. apply src_in. exact X2. }
    pose proof (NoDup_incl_length ND Inc) as Lge. assert (Lsrc : length (src_regs pend) = length pend) by lia.
    assert (NDs : NoDup (src_regs pend)) by (apply (NoDup_incl_NoDup ND); [lia|exact Inc]).
    assert (Inc2 : incl (src_regs pend) (dst_regs pend)) by (apply (NoDup_length_incl ND); [lia|exact Inc]).
    assert (Hin : In (f, t) pend) by (rewrite Hp; apply in_or_app; right; left; reflexivity).
    pose proof (src_full pend Lsrc f t Hin) as Ef. destruct (assigned f) as [r|] eqn:Er; [|contradiction]. exists r. split; [reflexivity|]. destruct (Bk f t Hin) as [q [Q1 [Q2 Q3]]]. split; [congruence|].
    assert (C1 : count r pend = 1%nat). { pose proof (nodup_count r _ NDs) as K. rewrite <- src_count in K. pose proof (count_in r pend f t Hin Er). lia. }
    split; [rewrite Hp, count_app, count_cons in C1; unfold from_reg in C1; cbn [fst] in C1; rewrite Er, Nat.eqb_refl in C1; rewrite count_app; lia|].
    assert (K : In r (dst_regs pend)) by (apply Inc2; apply src_in; exists f, t; auto). apply dst_in in K. destruct K as [f' [t' [K1 K2]]]. exists f', t'. split; [|exact K2]. rewrite Hp in K1. apply mid_in in K1. destruct K1 as [K1|K1]; [|exact K1]. injection K1 as -> ->. exfalso. apply Q3. assert (q = r) by congruence. subst q. split; [exact C1|exact Er].
  Qed.

  Definition free (pend : list (ivl * ivl)) (regs : list Z) : Prop := exists f t, In (f, t) pend /\ blocked regs f t = Ok false.
  Lemma resolve_ok : forall fuel pend regs acc cand, inv pend regs acc -> (2 * length pend <= fuel \/ (free pend regs /\ 2 * length pend <= S fuel))%nat ->
    exists ops regs', resolve fuel pend regs acc cand = Ok ops /\ inv [] regs' ops.
  Proof.
    induction fuel as [|fuel IH]; intros pend regs acc cand I Hf.
    - destruct pend as [|p pend]; [exists acc, regs; split; [reflexivity|exact I]|]. exfalso. cbn [length] in Hf. lia.
    - destruct pend as [|p pend]; [exists acc, regs; split; [reflexivity|exact I]|].
      cbn [resolve]. remember (p :: pend) as pe eqn:Ep. assert (Lp : (0 < length pe)%nat) by (rewrite Ep; cbn [length]; lia).
      destruct (round_ok (length pe) 0 pe regs acc cand false ltac:(lia) I) as [p' [r' [a' [c' [d' [R1 [R2 [R3 [R4 R5]]]]]]]]].
      rewrite R1. cbn [bind]. destruct d'.
      + destruct (R4 eq_refl) as [K|K]; [discriminate|]. apply (IH p' r' a' c' R2). left. lia.
      + destruct (R5 eq_refl) as [-> [-> [-> [S1 S2]]]]. rewrite (S2 Lp).
        assert (Bl : forall f t, In (f, t) pe -> blocked regs f t = Ok true). { intros f t H. apply In_nth_error in H. destruct H as [j Hj]. apply (S1 j f t ltac:(lia) Hj). }
        assert (Nf : ~ free pe regs) by (intros [f [t [F1 F2]]]; rewrite (Bl f t F1) in F2; discriminate).
        destruct (nth_ex pe (length pe - 1) ltac:(lia)) as [[f t] Hn]. rewrite (get_ok _ _ _ Hn). cbn [bind].
        apply nth_error_split in Hn. destruct Hn as [a [b [Hp La]]]. destruct (stuck _ _ _ f t a b I Hp Bl) as [r [Er [Et [C0 [f' [t' [F1 F2]]]]]]]. rewrite Er.
        destruct (do_spill _ _ _ f t a b r I Hp Er Et) as [regs' [D1 [D2 D3]]]. rewrite D1. cbn [bind]. rewrite <- La. rewrite Hp, set_app. apply (IH _ _ _ _ D2). right.
        assert (Lq : length (a ++ (mk_ivl (var f) None, t) :: b) = length pe) by (rewrite Hp, !app_length; reflexivity). split; [|rewrite Lq; destruct Hf as [Hf|[Hf _]]; [lia|contradiction]].
        exists f', t'. pose proof (in_mid a b (f', t') (mk_ivl (var f) None, t) F1) as Hi. split; [exact Hi|]. destruct (blocked_ok _ _ _ _ _ D2 Hi) as [q [Q1 Q2]]. rewrite Q1. f_equal. apply Q2. intros x Hx. left. assert (x = r) by congruence. subst x. rewrite D3. exact C0.
  Qed.

  Lemma count_start : forall l pre regs, (forall f t r, In (f, t) l -> assigned f = Some r -> (0 < r < 255)%nat) -> length regs = 255%nat -> (forall r, (0 < r < 255)%nat -> nth_error regs r = Some (i8 (Z.of_nat (count r pre)))) ->
    exists regs', count_regs l regs = Ok regs' /\ length regs' = 255%nat /\ (forall r, (0 < r < 255)%nat -> nth_error regs' r = Some (i8 (Z.of_nat (count r (pre ++ l))))).
  Proof.
    induction l as [|[f t] l IH]; intros pre regs H L R.
    - exists regs. split; [reflexivity|]. split; [exact L|]. intros r Hr. rewrite app_nil_r. apply R. exact Hr.
    - cbn [count_regs]. assert (K : exists regs', match assigned f with Some r => add_at regs r 1 | None => Ok regs end = Ok regs' /\ length regs' = 255%nat /\ (forall r, (0 < r < 255)%nat -> nth_error regs' r = Some (i8 (Z.of_nat (count r (pre ++ [(f, t)])))))).
      { destruct (assigned f) as [r|] eqn:E.
        - pose proof (H f t r (or_introl eq_refl) E) as Hr. unfold add_at. rewrite (get_ok _ _ _ (R r Hr)). cbn [bind]. eexists. split; [reflexivity|]. split; [rewrite length_list_set; exact L|]. intros x Hx. rewrite count_app, count_cons. unfold from_reg. cbn [fst]. rewrite E. destruct (Nat.eq_dec x r) as [->|N].
          + rewrite nth_set_same by lia. rewrite i8_add, Nat.eqb_refl. do 2 f_equal. change (count r []) with 0%nat. lia.
          + rewrite nth_set_other by congruence. rewrite (R x Hx). destruct (Nat.eqb r x) eqn:Ex; [apply Nat.eqb_eq in Ex; congruence|]. do 3 f_equal. change (count x []) with 0%nat. lia.
        - exists regs. split; [reflexivity|]. split; [exact L|]. intros x Hx. rewrite (R x Hx), count_app, count_cons. unfold from_reg. cbn [fst]. rewrite E. do 3 f_equal. change (count x []) with 0%nat. lia. }
      destruct K as [regs' [K1 [K2 K3]]]. rewrite K1. cbn [bind]. destruct (IH (pre ++ [(f, t)]) regs' (fun a b c Hi => H a b c (or_intror Hi)) K2 K3) as [r2 [Q1 [Q2 Q3]]]. exists r2. split; [exact Q1|]. split; [exact Q2|]. intros r Hr. rewrite (Q3 r Hr), <- app_assoc. reflexivity.
  Qed.

  Lemma mappings_ok fuel : (2 * length l0 <= fuel)%nat -> exists ops regs', resolve_mappings fuel l0 = Ok ops /\ inv [] regs' ops.
  Proof.
    intros Hf. destruct He as [E1 [E2 [E3 E4]]]. destruct (count_start l0 [] (repeat 0 255)) as [regs [R1 [R2 R3]]].
    - intros f t r H K. apply (E1 f t r H). left. exact K.
    - apply repeat_length.
    - intros r Hr. rewrite (nth_error_nth' _ 0) by (rewrite repeat_length; lia). rewrite nth_repeat. reflexivity.
    - unfold resolve_mappings. rewrite R1. cbn [bind]. apply resolve_ok; [|left; exact Hf]. split; try assumption.
      + intros f t H. exists f. split; [exact H|]. split; [left; reflexivity|reflexivity].
      + intros f t H. left. exists f. exact H.
      + reflexivity.
  Qed.
End Edge.

Lemma resolve_mappings_ok fuel l : is_edge l -> (2 * length l <= fuel)%nat ->
  exists ops, resolve_mappings fuel l = Ok ops /\ forall V (s : nat + nat -> V),
    (forall f t, In (f, t) l -> run_moves ops s (place t) = s (place f)) /\
    (forall x, ~ In x (map (fun p => place (snd p)) l) -> (forall f t, In (f, t) l -> assigned f <> None -> x <> inr (var f)) -> run_moves ops s x = s x).
Proof.
  intros He Hf. destruct (mappings_ok l (fun _ => tt) He fuel Hf) as [ops [_ [E _]]]. exists ops. split; [exact E|]. intros V s. destruct (mappings_ok l s He fuel Hf) as [ops' [regs' [E' I]]]. rewrite E in E'. injection E' as <-. split.
  - intros f t H. destruct (inv_done _ _ _ _ _ I f t H) as [[g []]|D]. exact D.
  - intros x N1 N2. apply (inv_else _ _ _ _ _ I x N1 N2).
Qed.
