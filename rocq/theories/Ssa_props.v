(** Theorems about the static single assignment form (C86, C87). *)
From Verif Require Import Base Dom_model Dom_spec Dom_proof Live_model Live_spec Live_proof Ssa_model Ssa_spec Ssa_graph_proof Ssa_proof.

(** The function in single assignment form does what the function does, block by block.  Missing for the full claim:
    it is false of a variable that is assigned in several blocks and for which no phi is needed anywhere
    (ssa_meaning_refuted), and of functions that are not few (ssa_aborts_refuted). *)
Theorem ssa_meaning_partial : forall g c, is_function g c -> few g c -> assigned_first c -> (forall v, merged g c v \/ local c v) ->
  exists fuel r l, ssa fuel g c = Ok (r, l) /\
    forall V W (m : machine V W) env env' w k, seen (run m c env w k) = seen (run_ssa m c r l env' w k).
Proof.
  intros g c F B S K. destruct (ssa_ok g c F B S K) as [fuel [r [l [E [_ [_ H]]]]]]. exists fuel, r, l. split; [exact E|exact H].
Qed.
Print Assumptions ssa_meaning_partial.

(** a loop with two ways through its body, that changes the first variable on one way and the second on the other *)
Definition loop : graph := [[]; [0; 4]; [1]; [1]; [2; 3]; [4]]%nat.
Definition small : program :=
  [mk_block [mk_op 0 [] [0; 1; 2]] [1]; mk_block [mk_op 1 [0; 1] []] [2; 3]; mk_block [mk_op 2 [0] [0]] [4];
   mk_block [mk_op 3 [2] [1]] [4]; mk_block [mk_op 4 [0] []] [1; 5]; mk_block [] []]%nat.
Example loop_is_function : is_function loop small.
Proof.
  split; [|split; [reflexivity|split; [discriminate|split; [|split]]]].
  - split; [|split; [|reflexivity]].
    + intros b p H. do 6 (destruct b as [|b]; [cbn in H; repeat (destruct H as [<-|H]; [cbn; lia|]); destruct H|]). destruct b; destruct H.
    + assert (W1 : way loop 1 [1; 0]%nat) by (apply way_step with (p := 0%nat); [constructor|cbn; auto]).
      assert (W2 : way loop 2 [2; 1; 0]%nat) by (apply way_step with (p := 1%nat); [exact W1|cbn; auto]).
      assert (W3 : way loop 3 [3; 1; 0]%nat) by (apply way_step with (p := 1%nat); [exact W1|cbn; auto]).
      assert (W4 : way loop 4 [4; 2; 1; 0]%nat) by (apply way_step with (p := 2%nat); [exact W2|cbn; auto]).
      assert (W5 : way loop 5 [5; 4; 2; 1; 0]%nat) by (apply way_step with (p := 4%nat); [exact W4|cbn; auto]).
      intros b H. do 6 (destruct b as [|b]; [eexists; first [constructor|eassumption]|]). cbn in H. lia.
  - intros p b. split; intros H.
    + do 6 (destruct b as [|b]; [cbn in H; repeat (destruct H as [<-|H]; [cbn; tauto|]); destruct H|]). destruct b; destruct H.
    + do 6 (destruct p as [|p]; [cbn in H; repeat (destruct H as [<-|H]; [cbn; tauto|]); destruct H|]). destruct p; destruct H.
  - intros b. do 6 (destruct b as [|b]; [repeat constructor; cbn; intuition discriminate|]). destruct b; apply NoDup_nil.
  - intros b. do 6 (destruct b as [|b]; [repeat constructor; cbn; intuition discriminate|]). destruct b; apply NoDup_nil.
Qed.
Lemma defs_le c v : (definitions c v <= length (flat_map (fun b => flat_map defs (ops b)) c))%nat.
Proof. unfold definitions. generalize (flat_map (fun b => flat_map defs (ops b)) c) as l. induction l as [|x l IH]; [cbn; lia|]. cbn [filter]. destruct (Nat.eqb v x); cbn [length]; lia. Qed.
Example loop_few : few loop small.
Proof.
  split; [discriminate|]. split; [|split; [vm_compute; lia|]].
  - intros b. do 6 (destruct b as [|b]; [discriminate|]). destruct b; discriminate.
  - intros v. exists [1; 4]%nat. split.
    + intros b H _. do 6 (destruct b as [|b]; [cbn in H; first [lia|cbn; auto]|]). destruct b; cbn in H; lia.
    + eapply Nat.le_trans; [apply Nat.add_le_mono_r, defs_le|vm_compute; lia].
Qed.
Example loop_live : forall b v, (b < 6)%nat -> (In v (get [[]; [0; 1; 2]; [0; 1; 2]; [2; 0]; [0; 1; 2]; []]%nat b) <-> needed small b v).
Proof.
  assert (P : is_program small).
  { intros b s H. do 6 (destruct b as [|b]; [cbn in H; repeat (destruct H as [<-|H]; [cbn; lia|]); destruct H|]). destruct b; destruct H. }
  apply (live_sound small 10 [[0; 1; 2]; [0; 1; 2]; [0; 1; 2]; [0; 1; 2]; [0; 1; 2]; []]%nat _ P). vm_compute. reflexivity.
Qed.
Example loop_assigned : assigned_first small.
Proof. intros v H. apply loop_live in H; [destruct H|lia]. Qed.
Example loop_merged : forall v, merged loop small v \/ local small v.
Proof.
  destruct (frontiers_spec loop (graph_ok _ _ loop_is_function) (pos _ _ loop_is_function)) as [d [im [df [E1 [E2 [E3 [_ [_ H]]]]]]]]; [discriminate|].
  assert (Ed : d = [[0]; [0; 1]; [0; 1; 2]; [0; 1; 3]; [0; 1; 4]; [0; 1; 4; 5]]%nat) by (vm_compute in E1; congruence). subst d.
  assert (Ei : im = [None; Some 0; Some 1; Some 1; Some 1; Some 4]%nat) by (vm_compute in E2; congruence). subst im.
  vm_compute in E3. injection E3 as <-.
  intros [|[|v]].
  - left. exists 2%nat, 4%nat. split; [exists (mk_op 2 [0] [0])%nat; cbn; auto|]. split; [apply H; cbn; auto|]. apply loop_live; cbn; auto.
  - left. exists 3%nat, 4%nat. split; [exists (mk_op 3 [2] [1])%nat; cbn; auto|]. split; [apply H; cbn; auto|]. apply loop_live; cbn; auto.
  - right. exists O. intros b [o [Ho Dv]]. do 6 (destruct b as [|b]; [cbn in Ho; repeat (destruct Ho as [<-|Ho]; [cbn in Dv; intuition lia|]); destruct Ho|]). destruct b; destruct Ho.
Qed.
(** both variables get a phi at the end of the body and at its beginning; the third one keeps its number *)
Example loop_result : exists l, ssa 10 loop small = Ok (
  [(0, mk_rblock [] [mk_rop 0 [] [(0, 0%Z); (1, 0%Z); (2, 0%Z)]]);
   (1, mk_rblock [(1, 2%Z); (0, 2%Z)] [mk_rop 1 [(0, 2%Z); (1, 2%Z)] []]);
   (2, mk_rblock [] [mk_rop 2 [(0, 2%Z)] [(0, 4%Z)]]);
   (3, mk_rblock [] [mk_rop 3 [(2, 0%Z)] [(1, 4%Z)]]);
   (4, mk_rblock [(1, 6%Z); (0, 6%Z)] [mk_rop 4 [(0, 6%Z)] []]);
   (5, mk_rblock [] [])], l)%nat /\ find_arg l 4 0 2 = Some 4 /\ find_arg l 4 0 3 = Some 2 /\ find_arg l 1 0 4 = Some 6 /\ find_arg l 1 0 0 = Some 0.
Proof. eexists. split; [vm_compute; reflexivity|]. vm_compute. auto. Qed.

(** The full claim is false: x = f(); if .. { x = g(x); h(x) } else { h(x) }.  No phi is needed for x, so its stack is
    not popped after the first branch, and the second branch reads the x of the first one, which was never
    assigned. *)
Definition leaky : program :=
  [mk_block [mk_op 0 [] [0]; mk_op 1 [0] []] [1; 2]; mk_block [mk_op 2 [0] [0]; mk_op 3 [0] []] []; mk_block [mk_op 3 [0] []] []]%nat.
Definition fork : graph := [[]; [0]; [0]]%nat.
Lemma fork_is_function : is_function fork leaky.
Proof.
  split; [|split; [reflexivity|split; [discriminate|split; [|split]]]].
  - split; [|split; [|reflexivity]].
    + intros b p H. do 3 (destruct b as [|b]; [cbn in H; repeat (destruct H as [<-|H]; [cbn; lia|]); destruct H|]). destruct b; destruct H.
    + assert (W1 : way fork 1 [1; 0]%nat) by (apply way_step with (p := 0%nat); [constructor|cbn; auto]).
      assert (W2 : way fork 2 [2; 0]%nat) by (apply way_step with (p := 0%nat); [constructor|cbn; auto]).
      intros b H. do 3 (destruct b as [|b]; [eexists; first [constructor|eassumption]|]). cbn in H. lia.
  - intros p b. split; intros H.
    + do 3 (destruct b as [|b]; [cbn in H; repeat (destruct H as [<-|H]; [cbn; tauto|]); destruct H|]). destruct b; destruct H.
    + do 3 (destruct p as [|p]; [cbn in H; repeat (destruct H as [<-|H]; [cbn; tauto|]); destruct H|]). destruct p; destruct H.
  - intros b. do 3 (destruct b as [|b]; [repeat constructor; cbn; intuition discriminate|]). destruct b; apply NoDup_nil.
  - intros b. do 3 (destruct b as [|b]; [repeat constructor; cbn; intuition discriminate|]). destruct b; apply NoDup_nil.
Qed.
Lemma fork_few : few fork leaky.
Proof.
  split; [discriminate|]. split; [|split; [vm_compute; lia|]].
  - intros b. do 3 (destruct b as [|b]; [discriminate|]). destruct b; discriminate.
  - intros v. exists []. split.
    + intros b H _. do 3 (destruct b as [|b]; [cbn in H; lia|]). destruct b; cbn in H; lia.
    + eapply Nat.le_trans; [apply Nat.add_le_mono_r, defs_le|vm_compute; lia].
Qed.
Lemma fork_assigned : assigned_first leaky.
Proof.
  assert (P : is_program leaky).
  { intros b s H. do 3 (destruct b as [|b]; [cbn in H; repeat (destruct H as [<-|H]; [cbn; lia|]); destruct H|]). destruct b; destruct H. }
  intros v H. eapply (proj1 (live_sound leaky 10 [[0]; []; []]%nat [[]; [0]; [0]]%nat P eq_refl)) in H; [destruct H|cbn; lia].
Qed.

(** the world is the list of the operations executed with their values; an operation assigns the number of
    operations executed before it; the first branch is not taken *)
Definition tracer : machine nat (list (Z * list nat)) :=
  mk_machine nat _ (fun k vs w => (fun _ => length w + 10, w ++ [(k, vs)])%nat) (fun _ _ => 1%nat).
Theorem ssa_meaning_refuted : exists g c, is_function g c /\ few g c /\ assigned_first c /\
  exists fuel r l, ssa fuel g c = Ok (r, l) /\
    exists env env' w k, seen (run tracer c env w k) = Some (2%nat, [(0, []); (1, [10%nat]); (3, [10%nat])]) /\
      seen (run_ssa tracer c r l env' w k) = Some (2%nat, [(0, []); (1, [10%nat]); (3, [0%nat])]).
Proof.
  exists fork, leaky. split; [exact fork_is_function|]. split; [exact fork_few|]. split; [exact fork_assigned|].
  exists 10%nat. eexists _, _. split; [vm_compute; reflexivity|]. exists (fun _ => 0%nat), (fun _ => 0%nat), [], 1%nat. split; vm_compute; reflexivity.
Qed.
Print Assumptions ssa_meaning_refuted.

(** Every name is assigned at one place, and every assignment of the function is there.  Missing for the full
    claim: the same conditions; without them a name can be assigned at two places (ssa_single_assignment_refuted). *)
Theorem ssa_single_assignment_partial : forall g c, is_function g c -> few g c -> assigned_first c -> (forall v, merged g c v \/ local c v) ->
  exists fuel r l, ssa fuel g c = Ok (r, l) /\ NoDup (assigned_names r) /\
    forall b, (b < length c)%nat -> exists rb, find_block r b = Some rb /\ map fst (flat_map rdefs (rops rb)) = flat_map defs (ops (block_of c b)).
Proof.
  intros g c F B S K. destruct (ssa_ok g c F B S K) as [fuel [r [l [E [H1 [H2 _]]]]]]. exists fuel, r, l. split; [exact E|split; [exact H1|exact H2]].
Qed.
Print Assumptions ssa_single_assignment_partial.

(** one block that assigns one variable again and again: the number is kept in eight bits and goes up by two *)
Lemma one_is_function l : is_function [[]] [mk_block l []].
Proof.
  split; [|split; [reflexivity|split; [discriminate|split; [|split]]]].
  - split; [|split; [|reflexivity]].
    + intros [|[|b]] p [].
    + intros [|b] H; [exists [O]; constructor|cbn in H; lia].
  - intros [|[|p]] [|[|b]]; cbn; tauto.
  - intros [|[|b]]; apply NoDup_nil.
  - intros [|[|b]]; apply NoDup_nil.
Qed.
Theorem ssa_single_assignment_refuted : exists g c, is_function g c /\ assigned_first c /\ definitions c 0 = Z.to_nat 129 /\
  exists fuel r l, ssa fuel g c = Ok (r, l) /\ exists rest, assigned_names r = (O, 0) :: rest /\ In (O, 0) rest.
Proof.
  exists [[]], [mk_block (repeat (mk_op 0 [] [O]) (Z.to_nat 129)) []]. split; [apply one_is_function|]. split; [|split; [vm_compute; reflexivity|]].
  - intros v H. apply needed_inv in H. destruct H as [H|[[s [[] _]] _]]. cbn [block_of nth ops] in H.
    revert H. generalize (Z.to_nat 129). induction n as [|n IH]; intros H; [destruct H as [pre [o [post [E _]]]]; destruct pre; discriminate|].
    cbn [repeat] in H. apply reads_cons in H. destruct H as [[]|[_ H]]. apply IH. exact H.
  - exists 10%nat. eexists _, _. split; [vm_compute; reflexivity|]. eexists. split; [vm_compute; reflexivity|]. vm_compute. do 127 right. left. reflexivity.
Qed.
Print Assumptions ssa_single_assignment_refuted.

(** x is assigned 127 times, once more in one branch, and read after both branches: the phi gets the number 256, and
    the compiler aborts *)
Definition many : program :=
  [mk_block (repeat (mk_op 0 [] [O]) (Z.to_nat 127)) [1; 2]; mk_block [mk_op 0 [] [0]] [3]; mk_block [] [3]; mk_block [mk_op 1 [0] []] []]%nat.
Definition diamond : graph := [[]; [0]; [0]; [1; 2]]%nat.
Theorem ssa_aborts_refuted : exists g c, is_function g c /\ assigned_first c /\ (forall v, merged g c v \/ local c v) /\ ssa 10 g c = Abort.
Proof.
  assert (F : is_function diamond many).
  { split; [|split; [reflexivity|split; [discriminate|split; [|split]]]].
    - split; [|split; [|reflexivity]].
      + intros b p H. do 4 (destruct b as [|b]; [cbn in H; repeat (destruct H as [<-|H]; [cbn; lia|]); destruct H|]). destruct b; destruct H.
      + assert (W1 : way diamond 1 [1; 0]%nat) by (apply way_step with (p := 0%nat); [constructor|cbn; auto]).
        assert (W2 : way diamond 2 [2; 0]%nat) by (apply way_step with (p := 0%nat); [constructor|cbn; auto]).
        assert (W3 : way diamond 3 [3; 2; 0]%nat) by (apply way_step with (p := 2%nat); [exact W2|cbn; auto]).
        intros b H. do 4 (destruct b as [|b]; [eexists; first [constructor|eassumption]|]). cbn in H. lia.
    - intros p b. split; intros H.
      + do 4 (destruct b as [|b]; [cbn in H; repeat (destruct H as [<-|H]; [cbn; tauto|]); destruct H|]). destruct b; destruct H.
      + do 4 (destruct p as [|p]; [cbn [block_of many nth succs In] in H; repeat (destruct H as [<-|H]; [cbn; tauto|]); destruct H|]). destruct p; destruct H.
    - intros b. do 4 (destruct b as [|b]; [repeat constructor; cbn; intuition discriminate|]). destruct b; apply NoDup_nil.
    - intros b. do 4 (destruct b as [|b]; [cbn [block_of many nth succs]; repeat constructor; cbn; intuition discriminate|]). destruct b; apply NoDup_nil. }
  assert (L : forall b v, (b < 4)%nat -> (In v (get [[]; []; [0]; [0]]%nat b) <-> needed many b v)).
  { apply (live_sound many 10 [[0]; [0]; [0]; []]%nat _ (program_ok _ _ F)). vm_compute. reflexivity. }
  exists diamond, many. split; [exact F|]. split; [intros v H; apply L in H; [destruct H|lia]|]. split; [|vm_compute; reflexivity].
  destruct (frontiers_spec diamond (graph_ok _ _ F) (pos _ _ F)) as [d [im [df [E1 [E2 [E3 [_ [_ H]]]]]]]]; [discriminate|].
  assert (Ed : d = [[0]; [0; 1]; [0; 2]; [0; 3]]%nat) by (vm_compute in E1; congruence). subst d.
  assert (Ei : im = [None; Some 0; Some 0; Some 0]%nat) by (vm_compute in E2; congruence). subst im.
  vm_compute in E3. injection E3 as <-. intros [|v].
  - left. exists 1%nat, 3%nat. split; [exists (mk_op 0 [] [0])%nat; cbn; auto|]. split; [apply H; cbn; auto|]. apply L; cbn; auto.
  - right. exists O. intros b [o [Ho Dv]]. assert (K : defs o = [O] \/ defs o = []).
    { do 4 (destruct b as [|b]; [cbn [block_of many nth ops] in Ho; first [apply repeat_spec in Ho; subst o; auto|repeat (destruct Ho as [<-|Ho]; [auto|]); destruct Ho]|]). destruct b; destruct Ho. }
    destruct K as [K|K]; rewrite K in Dv; cbn in Dv; intuition discriminate.
Qed.
Print Assumptions ssa_aborts_refuted.
