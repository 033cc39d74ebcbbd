(** Proofs about loops. *)
From Verif Require Import Base Forin_model Forin_spec.
Import ListNotations.
Open Scope Z_scope.

Section Proof.
  Variable st : Type.
  Variable len : st -> Z.
  Variable key : Z -> st -> Z.
  Variable elem : Z -> st -> Z.
  Variable recv : st -> option (Z * st).
  Variable mark : st -> st.
  Variable start stop : st -> Z * st.
  Variable wrap : Z -> Z.
  Variable body : Z -> option Z -> st -> bd st.

  Notation run := (run st len key elem recv mark start stop wrap body).
  Notation visits := (visits st len key elem body).
  Notation first_var := (first_var st key elem).
  Notation second_var := (second_var st elem).

  (** ** Fuel *)

  Lemma run_more n : forall k lc code pc c x y s r j,
    run n k lc code pc c x y s = Some r -> run (n + j) k lc code pc c x y s = Some r.
  Proof.
    induction n as [|n IH]; intros k lc code pc c x y s r j H; [discriminate|].
    cbn [Nat.add]. cbn [Forin_model.run] in *.
    destruct (nth_error code pc) as [[l|l| | | | | | | | |l]|]; auto.
    - destruct (find_label code l); auto.
    - destruct (iterator_next_key st len key k c x s) as [[c' x']|]; auto.
    - destruct (iterator_next_value st len elem recv mark k c x s) as [[c' x'] s']; auto.
    - destruct (c =? -1); auto. destruct (find_label code LEnd); auto.
    - destruct (body x y s) as [x' s'|x' s'|s'|s']; auto.
      + destruct (find_label code lc); auto.
      + destruct (find_label code LEnd); auto.
    - destruct (start s) as [a s']; auto.
    - destruct (stop s) as [b s']. destruct (x <? b); auto. destruct (find_label code l); auto.
  Qed.

  Lemma run_le n n' k lc code pc c x y s r : (n <= n')%nat ->
    run n k lc code pc c x y s = Some r -> run n' k lc code pc c x y s = Some r.
  Proof. intros L H. replace n' with (n + (n' - n))%nat by lia. now apply run_more. Qed.

  Lemma run_once k lc code pc c x y s n1 n2 r1 r2 :
    run n1 k lc code pc c x y s = Some r1 -> run n2 k lc code pc c x y s = Some r2 -> r1 = r2.
  Proof.
    intros H1 H2. apply (run_le n1 (n1 + n2)) in H1; [|lia]. apply (run_le n2 (n1 + n2)) in H2; [|lia]. congruence.
  Qed.

  (** ** Containers *)

  Notation code k b := (linear_for_iterator k b).

  Ltac one H := match type of H with
    | Forin_model.run _ _ _ _ _ _ _ _ _ _ ?n _ _ _ _ _ _ _ _ = _ =>
        destruct n as [|n]; [discriminate|];
        cbn [Forin_model.run nth_error iterator_next_key iterator_next_value find_label label_eqb option_map] in H
    end.

  (** One round, from the label at the head of the loop. *)
  Lemma round k b n c x y s r : k <> KChan -> -1 <= c -> (b = false -> y = None) ->
    run n k LFor (code k b) 1 c x y s = Some r ->
    if len s <=? c + 1 then r = Finished _ s
    else match body (first_var k b (c + 1) s) (second_var b (c + 1) s) s with
         | Falls _ x' s' | Continues _ x' s' =>
             exists n', (n' < n)%nat /\
               run n' k LFor (code k b) 1 (c + 1) x' (second_var b (c + 1) s) s' = Some r
         | Breaks _ s' => r = Finished _ s'
         | Leaves _ s' => r = Left _ s'
         end.
  Proof.
    intros K C Y H.
    destruct k, b; try congruence; cbn [linear_for_iterator app negb andb by_value] in *;
      one H; one H; destruct (len s <=? c + 1) eqn:E; one H.
    all: try (change (-1 =? -1) with true in H; cbv iota in H; one H; one H; congruence).
    all: destruct (c + 1 =? -1) eqn:E1; [lia|].
    all: one H; one H; cbn [Forin_spec.first_var Forin_spec.second_var] in *; unfold iterator_take_value in H.
    all: try (rewrite (Y eq_refl) in H); try one H.
    all: match goal with |- context [match ?B with _ => _ end] => destruct B as [x' s'|x' s'|s'|s'] end.
    all: try congruence.
    all: try (one H; one H; congruence).
    all: try (exists n; split; [lia|exact H]).
    all: one H; exists n; split; [lia|exact H].
  Qed.

  Lemma visits_run k b n : k <> KChan -> forall c x y s r, -1 <= c -> (b = false -> y = None) ->
    run n k LFor (code k b) 1 c x y s = Some r -> visits k b (c + 1) s r.
  Proof.
    intros K. induction n as [n IH] using lt_wf_ind. intros c x y s r C Y H.
    pose proof (round k b n c x y s r K C Y H) as R.
    destruct (len s <=? c + 1) eqn:E; [subst; apply V_end; lia|].
    destruct (body (first_var k b (c + 1) s) (second_var b (c + 1) s) s) as [x' s'|x' s'|s'|s'] eqn:B.
    - destruct R as (n' & L & R). apply (V_next _ _ _ _ _ _ _ _ _ x' s'); [lia|now left|].
      apply (IH n' L (c + 1) x' (second_var b (c + 1) s)); [lia|intros ->; reflexivity|exact R].
    - destruct R as (n' & L & R). apply (V_next _ _ _ _ _ _ _ _ _ x' s'); [lia|now right|].
      apply (IH n' L (c + 1) x' (second_var b (c + 1) s)); [lia|intros ->; reflexivity|exact R].
    - subst. apply V_break; [lia|exact B].
    - subst. apply V_leave; [lia|exact B].
  Qed.

  Ltac step := cbn [Forin_model.run nth_error iterator_next_key iterator_next_value find_label label_eqb option_map].

  (** The start of a round, up to the body. *)
  Lemma to_body k b n c x y s : k <> KChan -> -1 <= c -> c + 1 < len s -> (b = false -> y = None) ->
    run ((if b then 6 else 5) + n) k LFor (code k b) 1 c x y s
    = match body (first_var k b (c + 1) s) (second_var b (c + 1) s) s with
      | Falls _ x' s' => run n k LFor (code k b) (if b then 7 else 6) (c + 1) x' (second_var b (c + 1) s) s'
      | Continues _ x' s' => run n k LFor (code k b) 1 (c + 1) x' (second_var b (c + 1) s) s'
      | Breaks _ s' =>
          run n k LFor (code k b) (if b then 8 else 7) (c + 1) (first_var k b (c + 1) s) (second_var b (c + 1) s) s'
      | Leaves _ s' => Some (Left _ s')
      end.
  Proof.
    intros K C L Y.
    assert (E : (len s <=? c + 1) = false) by lia. assert (E1 : (c + 1 =? -1) = false) by lia.
    destruct k, b; try congruence; cbn [linear_for_iterator app negb andb by_value Nat.add];
      step; rewrite E; step; rewrite E1; step; try (rewrite (Y eq_refl)); reflexivity.
  Qed.

  Lemma at_end k b n c x y s : k <> KChan -> -1 <= c -> len s <= c + 1 ->
    run (5 + n) k LFor (code k b) 1 c x y s = Some (Finished _ s).
  Proof.
    intros K C L. assert (E : (len s <=? c + 1) = true) by lia.
    destruct k, b; try congruence; cbn [linear_for_iterator app negb andb by_value Nat.add]; step; rewrite E; reflexivity.
  Qed.

  Lemma run_visits k b i s r : k <> KChan -> visits k b i s r -> 0 <= i ->
    forall x y, (b = false -> y = None) -> exists n, run n k LFor (code k b) 1 (i - 1) x y s = Some r.
  Proof.
    intros K V. induction V as [i s L|i s x' s' r L B V IH|i s s' L B|i s s' L B]; intros I x y Y.
    - exists (5 + 0)%nat. apply at_end; auto; lia.
    - destruct (IH ltac:(lia) x' (second_var b i s)) as (n & R); [intros ->; reflexivity|].
      replace (i + 1 - 1) with i in R by lia.
      pose proof (fun n => to_body k b n (i - 1) x y s K ltac:(lia) ltac:(lia) Y) as T.
      replace (i - 1 + 1) with i in T by lia. destruct B as [B|B]; rewrite B in T.
      + exists ((if b then 6 else 5) + S n)%nat. rewrite T. destruct k, b; try congruence; exact R.
      + exists ((if b then 6 else 5) + n)%nat. rewrite T. exact R.
    - pose proof (fun n => to_body k b n (i - 1) x y s K ltac:(lia) ltac:(lia) Y) as T.
      replace (i - 1 + 1) with i in T by lia. rewrite B in T. exists ((if b then 6 else 5) + 2)%nat. rewrite T.
      destruct k, b; try congruence; reflexivity.
    - pose proof (fun n => to_body k b n (i - 1) x y s K ltac:(lia) ltac:(lia) Y) as T.
      replace (i - 1 + 1) with i in T by lia. rewrite B in T. exists ((if b then 6 else 5) + 0)%nat. now rewrite T.
  Qed.

  Lemma iterator_visits k b x s r : k <> KChan ->
    (exists n, run_iterator st len key elem recv mark start stop wrap body n k b x s = Some r) <-> visits k b 0 s r.
  Proof.
    intros K. unfold run_iterator. split.
    - intros (n & H). destruct n as [|n]; [discriminate|].
      apply (visits_run k b n K (-1) x None s r); [lia|reflexivity|exact H].
    - intros V. destruct (run_visits k b 0 s r K V ltac:(lia) x None) as (n & R); [reflexivity|].
      exists (S n). exact R.
  Qed.

  (** A body that leaves the container alone sees all of it, in order. *)
  Lemma whole k b (step : Z -> option Z -> st -> st) x s :
    k <> KChan -> 0 <= len s ->
    (forall v w s', exists x', body v w s' = Falls _ x' (step v w s') \/ body v w s' = Continues _ x' (step v w s')) ->
    (forall v w s', len (step v w s') = len s') ->
    (forall v w i s', key i (step v w s') = key i s' /\ elem i (step v w s') = elem i s') ->
    exists n, run_iterator st len key elem recv mark start stop wrap body n k b x s
      = Some (Finished _ (fold_left (fun s' i => step (first_var k b i s) (second_var b i s) s')
                                    (upto 0 (len s)) s)).
  Proof.
    intros K L0 B L KE. apply iterator_visits; [exact K|].
    assert (G : forall m i s0, len s0 = len s -> (forall j, key j s0 = key j s /\ elem j s0 = elem j s) ->
      i + Z.of_nat m = len s ->
      visits k b i s0 (Finished _ (fold_left (fun s' i => step (first_var k b i s) (second_var b i s) s')
                                    (map (fun j => i + Z.of_nat j) (seq 0 m)) s0))).
    { induction m as [|m IH]; intros i s0 E1 E2 I.
      - cbn. apply V_end. lia.
      - cbn [seq map fold_left]. replace (i + Z.of_nat 0) with i by lia.
        assert (F1 : first_var k b i s0 = first_var k b i s).
        { unfold Forin_spec.first_var. destruct (E2 i) as (-> & ->). reflexivity. }
        assert (F2 : second_var b i s0 = second_var b i s).
        { unfold Forin_spec.second_var. destruct (E2 i) as (_ & ->). reflexivity. }
        destruct (B (first_var k b i s) (second_var b i s) s0) as (x' & B0).
        apply (V_next _ _ _ _ _ _ _ _ _ x' (step (first_var k b i s) (second_var b i s) s0)); [lia| |].
        + rewrite F1, F2. exact B0.
        + replace (map (fun j => i + Z.of_nat j) (seq 1 m)) with (map (fun j => (i + 1) + Z.of_nat j) (seq 0 m)).
          * apply IH; [now rewrite L| |lia]. intros j. destruct (KE (first_var k b i s) (second_var b i s) j s0) as (-> & ->). apply E2.
          * rewrite <- seq_shift, map_map. apply map_ext. intros j. lia. }
    unfold upto. rewrite Z.sub_0_r. apply G; auto. lia.
  Qed.

  (** ** Channels *)

  Lemma chan_runs s r : receives st recv body s r ->
    forall c x, exists n, run n KChan LFor (code KChan false) 1 c x None s = Some r.
  Proof.
    intros V. induction V as [s v s1 x' s' r R B V IH|s v s1 s' R B|s v s1 s' R B]; intros c x.
    - destruct (IH 1 x') as (n & H). destruct B as [B|B].
      + exists (6 + n)%nat. cbn [linear_for_iterator app negb andb by_value Nat.add]. step. rewrite R. step.
        change (1 =? -1) with false. cbv iota. rewrite B. step. exact H.
      + exists (5 + n)%nat. cbn [linear_for_iterator app negb andb by_value Nat.add]. step. rewrite R. step.
        change (1 =? -1) with false. cbv iota. rewrite B. step. exact H.
    - exists 7%nat. cbn [linear_for_iterator app negb andb by_value]. step. rewrite R. step.
      change (1 =? -1) with false. cbv iota. now rewrite B.
    - exists 5%nat. cbn [linear_for_iterator app negb andb by_value]. step. rewrite R. step.
      change (1 =? -1) with false. cbv iota. now rewrite B.
  Qed.

  (** ** Ranges *)

  Lemma range_rounds (stepf : Z -> st -> st) b :
    (forall s, stop s = (b, s)) ->
    (forall v s, body v None s = Falls _ v (stepf v s) \/ body v None s = Continues _ v (stepf v s)) ->
    forall m a s, Z.to_nat (b - a) = m -> (forall z, a <= z <= b -> wrap z = z) ->
    exists n, run n KVec LUp linear_for_range 7 0 a None s
      = Some (Finished _ (fold_left (fun s i => stepf i s) (map (fun j => a + Z.of_nat j) (seq 0 m)) s)).
  Proof.
    intros Sp B. induction m as [|m IH]; intros a s M W.
    - exists 5%nat. unfold linear_for_range. step. rewrite Sp. destruct (a <? b) eqn:E; [lia|]. reflexivity.
    - assert (E : (a <? b) = true) by lia.
      destruct (IH (a + 1) (stepf a s) ltac:(lia) ltac:(intros z Hz; apply W; lia)) as (n & R).
      cbn [seq map fold_left]. replace (a + Z.of_nat 0) with a by lia.
      replace (map (fun j => a + Z.of_nat j) (seq 1 m)) with (map (fun j => (a + 1) + Z.of_nat j) (seq 0 m)).
      2: { rewrite <- seq_shift, map_map. apply map_ext. intros j. lia. }
      exists (6 + n)%nat. unfold linear_for_range. cbn [Nat.add]. step. rewrite Sp, E.
      destruct (B a s) as [Q|Q]; rewrite Q; step; rewrite (W (a + 1)) by lia.
      + exact R.
      + apply (run_le n); [lia|]. exact R.
  Qed.

  Lemma range_runs (stepf : Z -> st -> st) a b s s0 :
    start s = (a, s0) -> (forall s, stop s = (b, s)) ->
    (forall v s, body v None s = Falls _ v (stepf v s) \/ body v None s = Continues _ v (stepf v s)) ->
    (forall z, a <= z <= b -> wrap z = z) ->
    exists n, run_range st len key elem recv mark start stop wrap body n s
      = Some (Finished _ (fold_left (fun s i => stepf i s) (upto a b) s0)).
  Proof.
    intros St Sp B W. destruct (range_rounds stepf b Sp B _ a s0 eq_refl W) as (n & R).
    exists (3 + n)%nat. unfold run_range, linear_for_range. cbn [Nat.add]. step. rewrite St. exact R.
  Qed.
End Proof.
