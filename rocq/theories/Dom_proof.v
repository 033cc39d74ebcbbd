(** Proofs about the dominator analysis. *)
From Coq Require Import Lia.
From Verif Require Import Base Base_lemmas Dom_model Dom_spec.

(** ** ways *)
Lemma way_head g b l : way g b l -> exists r, l = b :: r.
Proof. intros H. destruct H; eexists; reflexivity. Qed.

Lemma way_in g b l : way g b l -> In b l.
Proof. intros H. destruct (way_head _ _ _ H) as [r ->]. left. reflexivity. Qed.

Lemma way_entry_in g b l : way g b l -> In O l.
Proof. induction 1; [left; reflexivity|right; assumption]. Qed.

(** a block on a way: the part up to it is a way to it, and the rest can be put behind any other way to it *)
Lemma way_split g b l a : way g b l -> In a l -> exists r l', l = r ++ l' /\ way g a l' /\ ~ In a r /\ forall m, way g a m -> way g b (r ++ m).
Proof.
  induction 1 as [|b p l W IH E]; intros I0.
  - destruct I0 as [<-|[]]. exists [], [O]. split; [reflexivity|]. split; [constructor|]. split; [auto|]. intros m Hm. exact Hm.
  - destruct (Nat.eq_dec a b) as [->|N].
    + exists [], (b :: l). split; [reflexivity|]. split; [econstructor; eassumption|]. split; [auto|]. intros m Hm. exact Hm.
    + destruct I0 as [F|I0]; [congruence|]. destruct (IH I0) as [r [l' [-> [W' [NR R]]]]].
      exists (b :: r), l'. split; [reflexivity|]. split; [exact W'|]. split; [intros [F|F]; congruence|].
      intros m Hm. econstructor; [apply R; exact Hm|exact E].
Qed.

Lemma way_bound g : is_graph g -> (0 < length g)%nat -> forall b l, way g b l -> (b < length g)%nat.
Proof.
  intros [P _] L b l W. destruct W as [|b p l W E]; [exact L|].
  destruct (Nat.lt_ge_cases b (length g)) as [Hb|Hb]; [exact Hb|]. unfold preds in E. rewrite nth_overflow in E by exact Hb. destruct E.
Qed.

(** ** dominance *)
Lemma dom_refl g a : dominates g a a.
Proof. intros l W. apply way_in in W. exact W. Qed.

Lemma dom_trans g a b c : dominates g a b -> dominates g b c -> dominates g a c.
Proof.
  intros H1 H2 l W. destruct (way_split _ _ _ _ W (H2 _ W)) as [r [l' [-> [W' _]]]]. apply in_or_app. right. apply H1. exact W'.
Qed.

Lemma dom_total g a a' b : (exists l, way g b l) -> dominates g a b -> dominates g a' b -> dominates g a a' \/ dominates g a' a.
Proof.
  intros [l W] H1 H2.
  destruct (way_split _ _ _ _ W (H1 _ W)) as [r [m [E [W1 [N1 R1]]]]].
  destruct (way_split _ _ _ _ W (H2 _ W)) as [r' [m' [E' [W2 [N2 R2]]]]].
  destruct (in_dec Nat.eq_dec a' r) as [I0|NI].
  - (* a' lies behind a *)
    left. destruct (in_dec Nat.eq_dec a r') as [I1|NI1].
    + exfalso. clear - E E' I0 I1 N1 N2 W1 W2. destruct (way_head _ _ _ W1) as [x ->], (way_head _ _ _ W2) as [x' ->]. subst l. revert r' N2 E' I1.
      induction r as [|y r IH]; intros [|y' r'] N2 E' I1; cbn [app In] in *; try contradiction.
      injection E' as -> E'. apply (IH) with (r' := r').
      * intros K. apply N1. right. exact K.
      * destruct I0 as [->|I0]; [|exact I0]. exfalso. apply N2. left. reflexivity.
      * intros K. apply N2. right. exact K.
      * exact E'.
      * destruct I1 as [->|I1]; [|exact I1]. exfalso. apply N1. left. reflexivity.
    + intros k Wk. pose proof (H1 _ (R2 _ Wk)) as K. apply in_app_or in K. destruct K; [contradiction|assumption].
  - right. intros k Wk. pose proof (H2 _ (R1 _ Wk)) as K. apply in_app_or in K. destruct K; [contradiction|assumption].
Qed.

Lemma dom_antisym g a b : (exists l, way g b l) -> dominates g a b -> dominates g b a -> a = b.
Proof.
  intros [l W] H1 H2. destruct (Nat.eq_dec a b) as [E|N]; [exact E|]. exfalso.
  assert (K : forall n l, (length l <= n)%nat -> way g b l -> False); [|apply (K (length l) l (le_n _) W)].
  induction n as [|n IH]; intros k L Wk.
  - destruct (way_head _ _ _ Wk) as [r ->]. cbn in L. lia.
  - destruct (way_split _ _ _ _ Wk (H1 _ Wk)) as [r [m [E [Wm [N1 _]]]]].
    destruct (way_split _ _ _ _ Wm (H2 _ Wm)) as [r' [m' [E' [Wm' [N2 _]]]]].
    assert (r <> []). { intros ->. cbn in E. subst m. destruct (way_head _ _ _ Wk) as [x Ex], (way_head _ _ _ Wm) as [y Ey]. congruence. }
    apply (IH m'); [|exact Wm']. subst k m. rewrite !app_length in L. destruct r; [contradiction|]. cbn in L. lia.
Qed.

Lemma dom_entry g a : dominates g a O -> a = O.
Proof. intros H. destruct (H [O] (way_entry g)) as [E|[]]. congruence. Qed.

Lemma entry_dom g b : dominates g O b.
Proof. intros l W. apply way_entry_in in W. exact W. Qed.

(** a dominator of b other than b dominates every predecessor *)
Lemma dom_pred g a b p : In p (preds g b) -> dominates g a b -> a <> b -> dominates g a p.
Proof. intros E H N l W. destruct (H _ (way_step g b p l W E)) as [F|F]; [congruence|exact F]. Qed.

Lemma dom_pred_rev g a b : b <> O -> (forall p, In p (preds g b) -> dominates g a p) -> dominates g a b.
Proof. intros N H l W. destruct W as [|b p l W E]; [congruence|]. right. apply (H p E). exact W. Qed.

(** ** sets *)
Lemma get_put_same d b s : (b < length d)%nat -> get (put d b s) b = s.
Proof. revert b. induction d as [|x d IH]; intros [|b] L; cbn in *; try lia; auto. apply IH. lia. Qed.
Lemma get_put_other d b c s : b <> c -> get (put d b s) c = get d c.
Proof. revert b c. induction d as [|x d IH]; intros [|b] [|c] N; cbn; auto; try congruence. apply IH. congruence. Qed.
Lemma put_length d b s : length (put d b s) = length d.
Proof. revert b. induction d as [|x d IH]; intros [|b]; cbn; auto. Qed.

Lemma bump_length c i : length (bump c i) = length c.
Proof. revert i. induction c as [|x c IH]; intros [|i]; cbn; auto. Qed.
Lemma bump_nth c i j : (j < length c)%nat -> nth j (bump c i) O = (nth j c O + if Nat.eqb i j then 1 else 0)%nat.
Proof.
  revert i j. induction c as [|x c IH]; intros [|i] [|j] L; cbn [bump nth length Nat.eqb] in *; try lia. apply IH. lia.
Qed.

Lemma bumps_nth l : forall c j, (j < length c)%nat -> length (fold_left bump l c) = length c /\ nth j (fold_left bump l c) O = (nth j c O + count_occ Nat.eq_dec l j)%nat.
Proof.
  induction l as [|x l IH]; intros c j L; cbn [fold_left count_occ]; [split; [reflexivity|lia]|].
  assert (L2 : (j < length (bump c x))%nat) by (rewrite bump_length; exact L).
  destruct (IH _ _ L2) as [E1 E2]. rewrite bump_length in E1. rewrite E1, E2, bump_nth by exact L. split; [reflexivity|].
  destruct (Nat.eq_dec x j) as [->|N]; [rewrite Nat.eqb_refl; lia|]. apply Nat.eqb_neq in N. rewrite N. lia.
Qed.

Fixpoint total (d : sets) (ps : list nat) (j : nat) : nat :=
  match ps with [] => O | p :: ps => (count_occ Nat.eq_dec (get d p) j + total d ps j)%nat end.

Lemma counts_nth d ps : forall c j, (j < length c)%nat ->
  nth j (fold_left (fun counts p => fold_left bump (get d p) counts) ps c) O = (nth j c O + total d ps j)%nat.
Proof.
  induction ps as [|p ps IH]; intros c j L; cbn [fold_left total]; [lia|].
  destruct (bumps_nth (get d p) c j L) as [E1 E2]. rewrite IH by (rewrite E1; exact L). rewrite E2. lia.
Qed.

Lemma total_all d ps j : (forall p, In p ps -> NoDup (get d p)) -> (total d ps j = length ps <-> forall p, In p ps -> In j (get d p)).
Proof.
  intros ND. assert (B : (total d ps j <= length ps)%nat).
  { clear - ND. induction ps as [|p ps IH]; cbn [total length]; [lia|].
    assert (count_occ Nat.eq_dec (get d p) j <= 1)%nat by (apply NoDup_count_occ; apply ND; left; reflexivity).
    assert (total d ps j <= length ps)%nat by (apply IH; intros; apply ND; right; assumption). lia. }
  revert B. induction ps as [|p ps IH]; cbn [total length]; intros B; [split; [intros _ p []|reflexivity]|].
  assert (K : (count_occ Nat.eq_dec (get d p) j <= 1)%nat) by (apply NoDup_count_occ; apply ND; left; reflexivity).
  assert (B2 : (total d ps j <= length ps)%nat).
  { assert (ND2 : forall q, In q ps -> NoDup (get d q)) by (intros; apply ND; right; assumption). clear - ND2.
    induction ps as [|q ps IH]; cbn [total length]; [lia|].
    assert (count_occ Nat.eq_dec (get d q) j <= 1)%nat by (apply NoDup_count_occ; apply ND2; left; reflexivity).
    assert (total d ps j <= length ps)%nat by (apply IH; intros; apply ND2; right; assumption). lia. }
  specialize (IH (fun q Hq => ND q (or_intror Hq)) B2). pose proof (count_occ_In Nat.eq_dec (get d p) j) as CI. split.
  - intros E q [<-|Hq]; [apply CI; lia|]. apply IH; [lia|exact Hq].
  - intros H. assert (total d ps j = length ps) by (apply IH; intros q Hq; apply H; right; exact Hq).
    assert (count_occ Nat.eq_dec (get d p) j > 0)%nat by (apply CI, H; left; reflexivity). lia.
Qed.

(** the sets are kept sorted: each is a part of 0, 1, .., n - 1 *)
Definition part (n : nat) (s : list nat) : Prop := exists f, s = filter f (seq 0 n).

Lemma part_nodup n s : part n s -> NoDup s.
Proof. intros [f ->]. apply NoDup_filter, seq_NoDup. Qed.
Lemma part_in n s x : part n s -> In x s -> (x < n)%nat.
Proof. intros [f ->] H. apply filter_In in H. destruct H as [H _]. apply in_seq in H. lia. Qed.

Lemma filter_eq {A} (f h : A -> bool) l : (forall x, In x l -> f x = h x) -> filter f l = filter h l.
Proof.
  induction l as [|x l IH]; intros H; cbn [filter]; [reflexivity|]. rewrite (H x (or_introl eq_refl)). rewrite IH by (intros y Hy; apply H; right; exact Hy). reflexivity.
Qed.

Lemma part_ext n s t : part n s -> part n t -> (forall x, In x s <-> In x t) -> s = t.
Proof.
  intros [f ->] [h ->] H. apply filter_eq. intros x Hx. specialize (H x). rewrite !filter_In in H.
  destruct (f x), (h x); try reflexivity; destruct H as [H1 H2]; [destruct (H1 (conj Hx eq_refl))|destruct (H2 (conj Hx eq_refl))]; congruence.
Qed.

Lemma dom_changed_iff s t : dom_changed s t = false <-> s = t.
Proof.
  revert t. induction s as [|x s IH]; intros [|y t]; cbn [dom_changed]; split; intros H; try reflexivity; try discriminate.
  - apply Bool.orb_false_iff in H. destruct H as [H1 H2]. apply Bool.negb_false_iff, Nat.eqb_eq in H1. apply IH in H2. congruence.
  - injection H as -> ->. rewrite Nat.eqb_refl. cbn. apply IH. reflexivity.
Qed.

(** ** one step of the analysis *)
Section analysis.
  Context (g : graph).
  Hypothesis G : is_graph g.
  Hypothesis L0 : (0 < length g)%nat.
  Hypothesis L1 : zlen g <= 65535.
  Notation n := (length g).

  Definition shape (d : sets) : Prop := length d = n /\ forall b, (b < n)%nat -> part n (get d b).

  Lemma shape_nodup d p : shape d -> NoDup (get d p).
  Proof.
    intros [E P]. destruct (Nat.lt_ge_cases p n) as [H|H]; [eapply part_nodup; apply P; exact H|].
    unfold get. rewrite nth_overflow by lia. constructor.
  Qed.

  Lemma calc_spec d b : shape d -> exists s, calc_dom_blocks g d b = Ok s /\ part n s /\
    forall x, In x s <-> (x < n)%nat /\ (x = b \/ forall p, In p (preds g b) -> In x (get d p)).
  Proof.
    intros S. unfold calc_dom_blocks. replace (65535 <? zlen g) with false by lia. cbv zeta. eexists. split; [reflexivity|].
    split; [eexists; reflexivity|]. intros x. rewrite filter_In, in_seq.
    rewrite Bool.orb_true_iff, !Nat.eqb_eq.
    assert (E : (x < n)%nat -> nth x (fold_left (fun counts p => fold_left bump (get d p) counts) (preds g b) (repeat O n)) O = total d (preds g b) x).
    { intros H. rewrite counts_nth by (rewrite repeat_length; exact H). rewrite nth_repeat. reflexivity. }
    pose proof (total_all d (preds g b) x (fun p _ => shape_nodup d p S)) as T. split.
    - intros [[_ H] K]. cbn in H. split; [exact H|]. rewrite E in K by exact H. destruct K as [K|K]; [right; apply T; exact K|left; exact K].
    - intros [H K]. split; [split; [lia|exact H]|]. rewrite E by exact H. destruct K as [K|K]; [right; exact K|left; apply T; exact K].
  Qed.

  (** what the analysis keeps: nothing that dominates is lost, and a set never has to grow *)
  Definition kept (d : sets) : Prop :=
    shape d /\ get d O = [O] /\ (forall a b, (a < n)%nat -> (b < n)%nat -> dominates g a b -> In a (get d b)) /\
    forall b x, (0 < b < n)%nat -> (x < n)%nat -> (x = b \/ forall p, In p (preds g b) -> In x (get d p)) -> In x (get d b).

  Definition size (d : sets) : nat := fold_right (fun s k => (length s + k)%nat) O d.

  Lemma size_put d b s : (b < length d)%nat -> (size (put d b s) + length (get d b) = size d + length s)%nat.
  Proof.
    revert b. induction d as [|x d IH]; intros [|b] H; cbn [length put size fold_right get nth] in *; try lia.
    specialize (IH b ltac:(lia)). unfold size, get in IH. lia.
  Qed.

  Lemma kept_init : kept ([O] :: repeat (seq 0 n) (n - 1)).
  Proof.
    assert (F : forall b, (0 < b < n)%nat -> get ([O] :: repeat (seq 0 n) (n - 1)) b = seq 0 n).
    { intros [|b] H; [lia|]. unfold get. cbn [nth]. rewrite (nth_indep _ [] (seq 0 n)) by (rewrite repeat_length; lia). apply nth_repeat. }
    split; [|split; [reflexivity|split]].
    - split; [cbn [length]; rewrite repeat_length; lia|]. intros b Hb. destruct b as [|b].
      + exists (fun x => Nat.eqb x O). change (get _ 0) with [O]. destruct (length g) as [|k]; [lia|]. cbn [seq filter Nat.eqb]. f_equal.
        symmetry. clear. assert (H : forall m s, filter (fun x => Nat.eqb x 0) (seq (S s) m) = []) by (induction m; intros s; cbn; auto). apply H.
      + exists (fun _ => true). rewrite F by lia. clear. induction (seq 0 n) as [|x l IH]; cbn; congruence.
    - intros a b Ha Hb D. destruct b as [|b]; [apply dom_entry in D; left; congruence|]. rewrite F by lia. apply in_seq. lia.
    - intros b x Hb Hx _. rewrite F by lia. apply in_seq. lia.
  Qed.

  Lemma kept_step d b s : kept d -> (0 < b < n)%nat -> calc_dom_blocks g d b = Ok s ->
    kept (put d b s) /\ (forall x, In x s -> In x (get d b)).
  Proof.
    intros [S [E0 [K1 K2]]] Hb C. destruct (calc_spec d b S) as [s' [C' [P I0]]]. assert (s' = s) by congruence. subst s'.
    destruct S as [SL SP]. assert (Lb : (b < length d)%nat) by lia.
    assert (SUB : forall x, In x s -> In x (get d b)). { intros x Hx. apply I0 in Hx. apply K2; tauto. }
    assert (SUB2 : forall c x, In x (get (put d b s) c) -> In x (get d c)).
    { intros c x H. destruct (Nat.eq_dec b c) as [<-|N]; [rewrite get_put_same in H by exact Lb; auto|rewrite get_put_other in H by exact N; exact H]. }
    split; [|exact SUB]. split; [|split; [|split]].
    - split; [rewrite put_length; exact SL|]. intros c Hc. destruct (Nat.eq_dec b c) as [<-|N]; [rewrite get_put_same by exact Lb; exact P|rewrite get_put_other by exact N; auto].
    - rewrite get_put_other by lia. exact E0.
    - intros a c Ha Hc D. destruct (Nat.eq_dec b c) as [<-|N]; [|rewrite get_put_other by exact N; auto].
      rewrite get_put_same by exact Lb. apply I0. split; [exact Ha|]. destruct (Nat.eq_dec a b) as [->|N]; [left; reflexivity|]. right.
      intros p Hp. apply K1; [exact Ha|apply (proj1 G b p Hp)|]. eapply dom_pred; eassumption.
    - intros c x Hc Hx H. destruct (Nat.eq_dec b c) as [<-|N].
      + rewrite get_put_same by exact Lb. apply I0. split; [exact Hx|]. destruct H as [H|H]; [left; exact H|right]. intros p Hp. apply SUB2, H. exact Hp.
      + rewrite get_put_other by exact N. apply K2; [exact Hc|exact Hx|]. destruct H as [H|H]; [left; exact H|right]. intros p Hp. apply SUB2, H. exact Hp.
  Qed.

  Lemma part_shorter s t : part n s -> part n t -> (forall x, In x s -> In x t) -> s <> t -> (length s < length t)%nat.
  Proof.
    intros P Q I0 N. pose proof (NoDup_incl_length (part_nodup _ _ P) I0) as LE. destruct (Nat.eq_dec (length s) (length t)) as [E|NE]; [|lia].
    exfalso. apply N. apply (part_ext n); auto. intros x. split; [apply I0|]. apply (NoDup_length_incl (part_nodup _ _ P)); [lia|exact I0].
  Qed.

  (** the equation every block satisfies at the end *)
  Definition stable (d : sets) (b : nat) : Prop := calc_dom_blocks g d b = Ok (get d b).

  Lemma round_spec ids : Forall (fun b => (0 < b < n)%nat) ids -> forall d changed, kept d ->
    exists d' ch, dom_round g ids d changed = Ok (d', ch) /\ kept d' /\ (size d' <= size d)%nat /\
      (ch = false -> d' = d /\ changed = false /\ forall b, In b ids -> stable d b) /\
      (changed = false -> ch = true -> (size d' < size d)%nat) /\ (changed = true -> ch = true).
  Proof.
    induction 1 as [|b ids Hb F IH]; intros d changed K; cbn [dom_round].
    - exists d, changed. split; [reflexivity|]. split; [exact K|]. split; [lia|]. split; [intros E; split; [reflexivity|split; [exact E|intros b []]]|]. split; congruence.
    - destruct (calc_spec d b (proj1 K)) as [s [C [P I0]]]. rewrite C. cbn [bind]. destruct (kept_step d b s K Hb C) as [K' SUB].
      pose proof (proj1 K) as [SL SP]. destruct (dom_changed (get d b) s) eqn:Ech.
      + destruct (IH (put d b s) true K') as [d' [ch [E [K2 [Sz [_ [_ T]]]]]]]. specialize (T eq_refl). subst ch.
        assert (LT : (size (put d b s) < size d)%nat).
        { pose proof (size_put d b s ltac:(lia)). assert (length s < length (get d b))%nat.
          { apply part_shorter; [exact P|apply SP; lia|exact SUB|]. intros ->.
            assert (dom_changed (get d b) (get d b) = false) by (apply dom_changed_iff; reflexivity). congruence. } lia. }
        exists d', true. split; [exact E|]. split; [exact K2|]. split; [lia|]. split; [discriminate|]. split; [intros _ _; lia|reflexivity].
      + apply dom_changed_iff in Ech. destruct (IH d changed K) as [d' [ch [E [K2 [Sz [Q1 [Q2 Q3]]]]]]].
        exists d', ch. split; [exact E|]. split; [exact K2|]. split; [exact Sz|]. split; [|split; [exact Q2|exact Q3]].
        intros Ec. destruct (Q1 Ec) as [-> [E2 St]]. split; [reflexivity|]. split; [exact E2|]. intros c [<-|Hc]; [|apply St; exact Hc].
        unfold stable. rewrite C. congruence.
  Qed.

  Lemma rounds_spec fuel : forall d, kept d -> (size d < fuel)%nat ->
    exists d', dom_rounds fuel g d = Ok d' /\ kept d' /\ forall b, (0 < b < n)%nat -> stable d' b.
  Proof.
    induction fuel as [|fuel IH]; intros d K Hf; [lia|]. cbn [dom_rounds].
    assert (F : Forall (fun b => (0 < b < n)%nat) (seq 1 (n - 1))) by (apply Forall_forall; intros b Hb; apply in_seq in Hb; lia).
    destruct (round_spec _ F d false K) as [d' [ch [E [K2 [Sz [Q1 [Q2 _]]]]]]]. rewrite E. cbn [bind]. destruct ch.
    - apply IH; [exact K2|]. specialize (Q2 eq_refl eq_refl). lia.
    - destruct (Q1 eq_refl) as [-> [_ St]]. exists d. split; [reflexivity|]. split; [exact K|]. intros b Hb. apply St. apply in_seq. lia.
  Qed.

  Lemma size_bound d : shape d -> (size d <= n * n)%nat.
  Proof.
    intros [E P]. assert (H : forall l, (forall s, In s l -> (length s <= n)%nat) -> (size l <= length l * n)%nat).
    { induction l as [|s l IH]; intros H; [cbn; lia|]. cbn [size fold_right length]. pose proof (H s (or_introl eq_refl)).
      specialize (IH (fun t Ht => H t (or_intror Ht))). unfold size in IH. lia. }
    rewrite <- E at 1. apply H. intros s Hs. apply In_nth with (d := []) in Hs. destruct Hs as [b [Hb <-]]. specialize (P b ltac:(lia)). destruct P as [f Pf].
    unfold get in Pf. rewrite Pf. clear. rewrite <- (seq_length n 0) at 2. generalize (seq 0 n) as l. induction l as [|x l IH]; cbn; [lia|]. destruct (f x); cbn; lia.
  Qed.

  Lemma domers_spec : exists d, domers g = Ok d /\ shape d /\
    forall a b, (b < n)%nat -> (In a (get d b) <-> (a < n)%nat /\ dominates g a b).
  Proof.
    unfold domers. pose proof kept_init as K0. pose proof (size_bound _ (proj1 K0)) as B.
    destruct (rounds_spec (S (n * n)) _ K0 ltac:(lia)) as [d [E [[Sh [E0 [K1 K2]]] St]]].
    exists d. split; [exact E|]. split; [exact Sh|]. intros a b Hb. split; [|intros [Ha D]; apply K1; assumption].
    intros I0. split; [eapply part_in; [apply (proj2 Sh b Hb)|exact I0]|]. intros l W. revert I0. induction W as [|b p l W IH E1]; intros I0.
    - rewrite E0 in I0. exact I0.
    - destruct b as [|b]; [rewrite E0 in I0; destruct I0 as [<-|[]]; left; reflexivity|].
      pose proof (St (S b) ltac:(lia)) as Q. destruct (calc_spec d (S b) Sh) as [s [C [_ Is]]]. unfold stable in Q. assert (s = get d (S b)) by congruence. subst s.
      apply Is in I0. destruct I0 as [_ [->|H]]; [left; reflexivity|]. right. apply IH; [apply (proj1 G _ _ E1)|]. apply H. exact E1.
  Qed.

  (** ** the immediate dominator *)
  Lemma reach b : (b < n)%nat -> exists l, way g b l.
  Proof. apply (proj1 (proj2 G)). Qed.

  Lemma dom_bound a b : (b < n)%nat -> dominates g a b -> (a < n)%nat.
  Proof.
    intros Hb D. destruct (reach b Hb) as [l W]. destruct (way_split _ _ _ _ W (D _ W)) as [r [m [_ [Wm _]]]]. eapply way_bound; eassumption.
  Qed.

  Lemma nearest b l : (b < n)%nat -> l <> [] -> (forall a, In a l -> dominates g a b) -> exists a, In a l /\ forall c, In c l -> dominates g c a.
  Proof.
    intros Hb. induction l as [|x l IH]; intros N H; [contradiction|]. destruct l as [|y l].
    - exists x. split; [left; reflexivity|]. intros c [<-|[]]. apply dom_refl.
    - destruct (IH ltac:(discriminate) (fun a Ha => H a (or_intror Ha))) as [a [Ia Ha]].
      destruct (dom_total g x a b (reach b Hb) (H x (or_introl eq_refl)) (H a (or_intror Ia))) as [D|D].
      + exists a. split; [right; exact Ia|]. intros c [<-|Hc]; [exact D|apply Ha; exact Hc].
      + exists x. split; [left; reflexivity|]. intros c [<-|Hc]; [apply dom_refl|]. eapply dom_trans; [apply Ha; exact Hc|exact D].
  Qed.

  Lemma imm_unique a a' b : (b < n)%nat -> immediately_dominates g a b -> immediately_dominates g a' b -> a = a'.
  Proof.
    intros Hb [S1 N1] [S2 N2]. apply (dom_antisym g a a').
    - apply reach. eapply dom_bound; [exact Hb|]. apply S2.
    - apply N2. exact S1.
    - apply N1. exact S2.
  Qed.

  Lemma imm_domer_spec d : domers g = Ok d -> forall b, (0 < b < n)%nat -> exists a, calc_imm_domer d b = Ok a /\ immediately_dominates g a b /\ (a < n)%nat.
  Proof.
    intros E b Hb. destruct domers_spec as [d' [E' [Sh D]]]. assert (d' = d) by congruence. subst d'.
    assert (IS : forall a, In a (get d b) -> a <> b -> (self_is_imm_dom d (get d b) a b = true <-> immediately_dominates g a b)).
    { intros a Ia Na. unfold self_is_imm_dom. rewrite forallb_forall. apply D in Ia; [|lia]. destruct Ia as [Ba Da]. split.
      - intros H. split; [split; assumption|]. intros c [Dc Nc].
        assert (Ic : In c (get d b)) by (apply D; [lia|split; [eapply dom_bound; [|exact Dc]; lia|exact Dc]]).
        specialize (H c Ic). rewrite !Bool.orb_true_iff, !Nat.eqb_eq in H. destruct H as [[->| ->]|H]; [apply dom_refl|congruence|].
        apply existsb_exists in H. destruct H as [y [Iy Ey]]. apply Nat.eqb_eq in Ey. subst y. apply D in Iy; tauto.
      - intros [_ H] c Ic. rewrite !Bool.orb_true_iff, !Nat.eqb_eq. destruct (Nat.eq_dec c b) as [Ec|Nc]; [tauto|]. right.
        apply D in Ic; [|lia]. apply existsb_exists. exists c. split; [|apply Nat.eqb_refl]. apply D; [exact Ba|]. split; [tauto|]. apply H. split; tauto. }
    unfold calc_imm_domer. destruct (find _ (get d b)) as [a|] eqn:F.
    - apply find_some in F. destruct F as [Ia Fa]. apply Bool.andb_true_iff in Fa. destruct Fa as [Na Fa]. apply Bool.negb_true_iff, Nat.eqb_neq in Na.
      exists a. split; [reflexivity|]. split; [apply IS; assumption|]. apply D in Ia; [|lia]. tauto.
    - exfalso. destruct (nearest b (filter (fun x => negb (Nat.eqb x b)) (get d b))) as [a [Ia Ha]].
      + lia.
      + intros Z0. assert (K : In O (filter (fun x => negb (Nat.eqb x b)) (get d b))); [|rewrite Z0 in K; destruct K].
        apply filter_In. split; [apply D; [lia|]; split; [lia|apply entry_dom]|]. apply Bool.negb_true_iff, Nat.eqb_neq. lia.
      + intros a Ia. apply filter_In in Ia. destruct Ia as [Ia _]. apply D in Ia; [tauto|lia].
      + apply filter_In in Ia. destruct Ia as [Ia Na]. apply Bool.negb_true_iff, Nat.eqb_neq in Na.
        pose proof (find_none _ _ F a Ia) as FN. apply Bool.andb_false_iff in FN. destruct FN as [FN|FN].
        * apply Bool.negb_false_iff, Nat.eqb_eq in FN. congruence.
        * assert (self_is_imm_dom d (get d b) a b = true); [|congruence]. apply IS; [exact Ia|exact Na|]. split; [split; [|exact Na]; apply D in Ia; [tauto|lia]|].
          intros c [Dc Nc]. apply Ha. apply filter_In. split; [apply D; [lia|]; split; [eapply dom_bound; [|exact Dc]; lia|exact Dc]|]. apply Bool.negb_true_iff, Nat.eqb_neq. exact Nc.
  Qed.

  Lemma imm_domers_loop_spec d ids : domers g = Ok d -> Forall (fun b => (0 < b < n)%nat) ids ->
    exists l, imm_domers_loop d ids = Ok l /\ length l = length ids /\ forall i b, nth_error ids i = Some b -> exists a, nth_error l i = Some (Some a) /\ immediately_dominates g a b /\ (a < n)%nat.
  Proof.
    intros E. induction 1 as [|b ids Hb F IH]; cbn [imm_domers_loop].
    - exists []. split; [reflexivity|]. split; [reflexivity|]. intros [|i] b H; discriminate.
    - destruct (imm_domer_spec d E b Hb) as [a [C [I0 Ba]]]. rewrite C. cbn [bind]. destruct IH as [l [El [Ll Hl]]]. rewrite El. cbn [bind].
      exists (Some a :: l). split; [reflexivity|]. split; [cbn; congruence|]. intros [|i] c H; cbn [nth_error] in *.
      + injection H as <-. exists a. tauto.
      + apply Hl. exact H.
  Qed.

  (** what ssa_imm_domer leaves *)
  Definition tree (im : list (option nat)) : Prop :=
    length im = n /\ imm_domer im O = None /\ forall b, (0 < b < n)%nat -> exists a, imm_domer im b = Some a /\ immediately_dominates g a b /\ (a < n)%nat.

  Lemma imm_domers_spec d : domers g = Ok d -> exists im, imm_domers g d = Ok im /\ tree im.
  Proof.
    intros E. assert (F : Forall (fun b => (0 < b < n)%nat) (seq 1 (n - 1))) by (apply Forall_forall; intros b Hb; apply in_seq in Hb; lia).
    destruct (imm_domers_loop_spec d _ E F) as [l [El [Ll Hl]]]. unfold imm_domers. rewrite El. cbn [bind]. exists (None :: l). split; [reflexivity|].
    split; [cbn; rewrite Ll, seq_length; lia|]. split; [reflexivity|]. intros [|b] Hb; [lia|].
    destruct (Hl b (S b)) as [a [Ha K]].
    - rewrite nth_error_nth' with (d := O) by (rewrite seq_length; lia). rewrite seq_nth by lia. reflexivity.
    - exists a. split; [|exact K]. unfold imm_domer. cbn [nth]. apply nth_error_nth. exact Ha.
  Qed.

  (** ** frontiers *)
  Section frontiers.
    Context (im : list (option nat)).
    Hypothesis T : tree im.

    Lemma imm_strict a b : (b < n)%nat -> immediately_dominates g a b -> forall c, dominates g c b -> c = b \/ dominates g c a.
    Proof. intros Hb [S N] c D. destruct (Nat.eq_dec c b) as [E|NE]; [left; exact E|]. right. apply N. split; assumption. Qed.


    Lemma runner_spec d : domers g = Ok d -> forall fuel r stop, (r < n)%nat -> dominates g stop r -> (length (get d r) <= fuel + 1)%nat ->
      exists l, df_runner fuel im r stop = Ok l /\ forall a, In a l <-> dominates g a r /\ ~ dominates g a stop.
    Proof.
      intros E. destruct domers_spec as [d' [E' [Sh D]]]. assert (d' = d) by congruence. subst d'.
      assert (Base : forall r, (r < n)%nat -> forall a, In a [] <-> dominates g a r /\ ~ dominates g a r) by (intros r _ a; split; [intros []|tauto]).
      induction fuel as [|fuel IH]; intros r stop Hr Hs Hf.
      - cbn [df_runner]. destruct (Nat.eqb r stop) eqn:Eq; [apply Nat.eqb_eq in Eq; subst stop; exists []; split; [reflexivity|apply Base; exact Hr]|].
        exfalso. apply Nat.eqb_neq in Eq.
        assert (I1 : In r (get d r)) by (apply D; [exact Hr|]; split; [exact Hr|apply dom_refl]).
        assert (I2 : In stop (get d r)) by (apply D; [exact Hr|]; split; [eapply dom_bound; eassumption|exact Hs]).
        destruct (get d r) as [|x [|y l]]; cbn in *; try tauto; [|lia]. destruct I1 as [<-|[]], I2 as [<-|[]]. congruence.
      - cbn [df_runner]. destruct (Nat.eqb r stop) eqn:Eq; [apply Nat.eqb_eq in Eq; subst stop; exists []; split; [reflexivity|apply Base; exact Hr]|].
        apply Nat.eqb_neq in Eq. assert (R0 : r <> O). { intros ->. apply dom_entry in Hs. congruence. }
        destruct T as [_ [_ T']]. destruct (T' r ltac:(lia)) as [up [Eu [Iu Bu]]]. rewrite Eu.
        destruct Iu as [[Du Nu] Fu]. replace (Nat.eqb up r) with false by (symmetry; apply Nat.eqb_neq; exact Nu).
        assert (Su : dominates g stop up) by (apply Fu; split; [exact Hs|congruence]).
        destruct (IH up stop Bu Su) as [l [El Hl]].
        { assert (LT : (length (get d up) < length (get d r))%nat); [|lia]. apply part_shorter; [apply (proj2 Sh); exact Bu|apply (proj2 Sh); exact Hr| |].
          - intros x Hx. apply D in Hx; [|exact Bu]. apply D; [exact Hr|]. split; [tauto|]. eapply dom_trans; [apply Hx|exact Du].
          - intros Es. assert (K : In r (get d up)). { rewrite Es. apply D; [exact Hr|]. split; [exact Hr|apply dom_refl]. }
            apply D in K; [|exact Bu]. apply Nu. apply (dom_antisym g up r (reach r Hr) Du). apply K. }
        rewrite El. cbn [bind]. exists (r :: l). split; [reflexivity|]. intros a. cbn [In]. rewrite Hl. split.
        + intros [<-|[H1 H2]].
          * split; [apply dom_refl|]. intros K. apply Eq. apply (dom_antisym g r stop); [apply reach; eapply dom_bound; eassumption|exact K|exact Hs].
          * split; [|exact H2]. eapply dom_trans; eassumption.
        + intros [H1 H2]. destruct (Nat.eq_dec r a) as [Ea|Na]; [left; exact Ea|]. right. split; [|exact H2]. apply Fu. split; [exact H1|congruence].
    Qed.

    Lemma put_get_in df r c x m : (r < length df)%nat -> (In m (get (put df r (get df r ++ [c])) x) <-> In m (get df x) \/ (x = r /\ m = c)).
    Proof.
      intros H. destruct (Nat.eq_dec r x) as [<-|N].
      - rewrite get_put_same by exact H. rewrite in_app_iff. cbn [In]. split; intros [K|K]; auto; [destruct K as [<-|[]]; auto|destruct K as [_ ->]; auto].
      - rewrite get_put_other by exact N. split; [auto|]. intros [K|[-> _]]; [exact K|congruence].
    Qed.

    Lemma df_push_spec c l : Forall (fun r => (r < n)%nat) l -> forall df, length df = n -> length (df_push df l c) = n /\ forall a m, In m (get (df_push df l c) a) <-> In m (get df a) \/ (In a l /\ m = c).
    Proof.
      induction 1 as [|r l Hr F IH]; intros df Ld; [split; [exact Ld|]; intros a m; cbn; tauto|].
      cbn [df_push fold_left]. destruct (IH (put df r (get df r ++ [c])) ltac:(rewrite put_length; exact Ld)) as [LL H]. split; [exact LL|].
      intros a m. unfold df_push in H. rewrite H. rewrite put_get_in by lia. cbn [In]. split; intros K; [destruct K as [[K|[-> ->]]|[K1 K2]]; auto|destruct K as [K|[[<-|K] ->]]; auto].
    Qed.

    Lemma df_preds_spec d m stop ps : domers g = Ok d -> (m < n)%nat -> imm_domer im m = Some stop -> (forall p, In p ps -> (p < n)%nat /\ dominates g stop p) ->
      forall df, length df = n -> exists df', df_preds im m ps df = Ok df' /\ length df' = n /\
        forall a k, In k (get df' a) <-> In k (get df a) \/ (k = m /\ exists p, In p ps /\ dominates g a p /\ ~ dominates g a stop).
    Proof.
      intros E Hm Hs. induction ps as [|p ps IH]; intros H df Ld; cbn [df_preds].
      - exists df. split; [reflexivity|]. split; [exact Ld|]. intros a k. split; [auto|]. intros [K|[_ [p [[] _]]]]. exact K.
      - rewrite Hs. destruct (H p (or_introl eq_refl)) as [Bp Dp]. destruct (domers_spec) as [d' [E' [Sh D]]]. assert (d' = d) by congruence. subst d'.
        destruct (runner_spec d E (length im) p stop Bp Dp) as [l [El Hl]].
        { destruct T as [-> _]. pose proof (proj2 Sh p Bp) as [f Pf]. rewrite Pf. clear. rewrite <- (seq_length n 0) at 2. generalize (seq 0 n) as l.
          induction l as [|x l IH]; cbn; [lia|]. destruct (f x); cbn; lia. }
        rewrite El. cbn [bind].
        assert (Fl : Forall (fun r => (r < n)%nat) l) by (apply Forall_forall; intros r Hr; apply Hl in Hr; eapply dom_bound; [exact Bp|apply Hr]).
        destruct (df_push_spec m l Fl df Ld) as [L2 P2]. destruct (IH (fun q Hq => H q (or_intror Hq)) _ L2) as [df' [E2 [L3 P3]]].
        exists df'. split; [exact E2|]. split; [exact L3|]. intros a k. rewrite P3, P2, Hl. cbn [In]. split.
        + intros [[K|[K ->]]|[-> [q [Hq K]]]]; [left; exact K|right; split; [reflexivity|]; exists p; tauto|right; split; [reflexivity|]; exists q; tauto].
        + intros [K|[-> [q [[<-|Hq] K]]]]; [tauto|left; right; tauto|right; split; [reflexivity|]; exists q; tauto].
    Qed.

    (** what a block decides ends at m: in terms of the immediate dominator of m *)
    Lemma frontier_imm m stop a : (0 < m < n)%nat -> immediately_dominates g stop m ->
      (frontier g a m <-> exists p, In p (preds g m) /\ dominates g a p /\ ~ dominates g a stop).
    Proof.
      intros Hm [[Ds Ns] Fs]. split.
      - intros [[p [Hp Dp]] NS]. exists p. split; [exact Hp|]. split; [exact Dp|]. intros K. apply NS. split; [eapply dom_trans; eassumption|].
        intros ->. apply Ns. apply (dom_antisym g stop m); [apply reach; lia|exact Ds|exact K].
      - intros [p [Hp [Dp K]]]. split; [exists p; tauto|]. intros SD. apply K. apply Fs. exact SD.
    Qed.

    Lemma df_loop_spec d ids : domers g = Ok d -> Forall (fun b => (b < n)%nat) ids -> forall df, length df = n ->
      exists df', df_loop g im ids df = Ok df' /\ length df' = n /\ forall a m, In m (get df' a) <-> In m (get df a) \/ (In m ids /\ frontier g a m).
    Proof.
      intros E. induction 1 as [|b ids Hb F IH]; intros df Ld; cbn [df_loop].
      - exists df. split; [reflexivity|]. split; [exact Ld|]. intros a m. cbn. tauto.
      - destruct (Nat.ltb (length (preds g b)) 2) eqn:Elt.
        + apply Nat.ltb_lt in Elt. destruct (IH df Ld) as [df' [E1 [L2 P2]]]. exists df'. split; [exact E1|]. split; [exact L2|]. intros a m. rewrite P2. cbn [In].
          assert (NF : ~ frontier g a b).
          { destruct b as [|b]; [intros [[p [Hp _]] _]; rewrite (proj2 (proj2 G)) in Hp; destruct Hp|].
            intros [[p [Hp Dp]] NS]. apply NS.
            assert (Ep : preds g (S b) = [p]). { destruct (preds g (S b)) as [|x [|y l]]; cbn in *; [tauto| |lia]. destruct Hp as [<-|[]]. reflexivity. }
            assert (Dpb : dominates g p (S b)). { intros l W. inversion W as [|b' q l' Wq Hq]; subst. rewrite Ep in Hq. destruct Hq as [<-|[]]. right. apply way_in in Wq. exact Wq. }
            split; [eapply dom_trans; eassumption|]. intros ->.
            assert (K : S b = p) by (apply (dom_antisym g (S b) p); [apply reach; apply (proj1 G _ _ Hp)|exact Dp|exact Dpb]). rewrite <- K in Ep.
            destruct (reach (S b) Hb) as [l W].
            assert (C : forall k l, (length l <= k)%nat -> way g (S b) l -> False); [|apply (C _ l (le_n _) W)].
            clear - Ep. induction k as [|k IHk]; intros l Hl W; [destruct (way_head _ _ _ W) as [r ->]; cbn in Hl; lia|].
            inversion W as [|b' q l' Wq Hq]; subst. rewrite Ep in Hq. destruct Hq as [<-|[]]. apply (IHk l'); [cbn in Hl; lia|exact Wq]. }
          split; [tauto|]. intros [K|[[<-|K] K2]]; tauto.
        + apply Nat.ltb_ge in Elt. assert (B0 : b <> O) by (intros ->; rewrite (proj2 (proj2 G)) in Elt; cbn in Elt; lia).
          destruct (proj2 (proj2 T) b ltac:(lia)) as [stop [Es [Is Bs]]].
          destruct (df_preds_spec d b stop (preds g b) E Hb Es) with (df := df) as [df1 [E1 [L2 P2]]].
          { intros p Hp. split; [apply (proj1 G _ _ Hp)|]. destruct Is as [[D N] _]. eapply dom_pred; eassumption. }
          { exact Ld. }
          rewrite E1. cbn [bind]. destruct (IH df1 L2) as [df' [E2 [L3 P3]]]. exists df'. split; [exact E2|]. split; [exact L3|].
          intros a m. rewrite P3, P2. cbn [In]. pose proof (frontier_imm b stop a ltac:(lia) Is) as FI. split.
          * intros [[K|[-> K]]|K]; [tauto|right; split; [tauto|apply FI; exact K]|tauto].
          * intros [K|[[<-|K] K2]]; [tauto|left; right; split; [reflexivity|apply FI; exact K2]|tauto].
    Qed.
  End frontiers.

  Lemma frontiers_spec : exists d im df, domers g = Ok d /\ imm_domers g d = Ok im /\ dominance_frontiers g im = Ok df /\ length df = n /\
    tree im /\ forall a m, In m (get df a) <-> (m < n)%nat /\ frontier g a m.
  Proof.
    destruct domers_spec as [d [E [Sh D]]]. destruct (imm_domers_spec d E) as [im [Ei T]].
    assert (F : Forall (fun b => (b < n)%nat) (seq 0 n)) by (apply Forall_forall; intros b Hb; apply in_seq in Hb; lia).
    destruct (df_loop_spec im T d _ E F (repeat [] n)) as [df [Ed [Ld P]]]; [apply repeat_length|].
    exists d, im, df. split; [exact E|]. split; [exact Ei|]. split; [exact Ed|]. split; [exact Ld|]. split; [exact T|]. intros a m. rewrite P.
    rewrite in_seq. assert (Z0 : get (repeat [] n) a = []). { unfold get. destruct (nth_in_or_default a (repeat (@nil nat) n) []) as [H|H]; [apply repeat_spec in H|]; assumption. }
    rewrite Z0. cbn [In]. split; [intros [[]|K]; split; [lia|tauto]|intros [K1 K2]; right; split; [lia|exact K2]].
  Qed.
End analysis.
