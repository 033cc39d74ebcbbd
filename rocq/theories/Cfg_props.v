(** The control flow graph of a function: what it means, what it looks like, and what the check accepts. *)
From Verif Require Import Base Base_lemmas Cfg_model Cfg_spec Cfg_graph_proof Cfg_proof.
From Coq Require Import Permutation.

(** A function with a loop:
    0: x; while (cond 1 leads out to 3) { y; if cond 2 goto 4; jump 2 }  3: return; 4: z; jump to the end. *)
Definition sample : list instr :=
  [Label 0; Plain 1; Label 2; Branch 10 3; Plain 2; Branch 11 4; Bal 2; Bal 3; Plain 9; Label 3; Return 3; Bal 5; Label 4; Plain 4; Return 6; Label 5; End]%nat.
Lemma sample_code : is_code sample 6.
Proof.
  split; [exists O; eexists; reflexivity|]. split; [exists (removelast sample); reflexivity|]. split; [|split].
  - change (labels sample) with [0; 2; 3; 4; 5]%nat. repeat (constructor; [cbn; intuition discriminate|]). constructor.
  - change (labels sample) with [0; 2; 3; 4; 5]%nat. change (jumps sample) with [3; 4; 2; 3; 5]%nat. intros n H. cbn in *. intuition.
  - change (labels sample) with [0; 2; 3; 4; 5]%nat. intros n H. cbn in H. lia.
Qed.

(** The passes never fail, except that the check for missing returns may reject the function. *)
Theorem cfg_total : forall fn_end keep code next, is_code code next -> exists bs, cfg true fn_end keep code next = Ok bs /\
  (cfg false fn_end keep code next = Ok bs \/ cfg false fn_end keep code next = Throw).
Proof.
  intros fe keep code next IC. destruct (cfg_void fe keep code next IC) as [bs [_ [_ [E _]]]]. exists bs. split; [exact E|]. destruct (check_graph fe keep code next bs IC E) as [[K _]|[K _]]; auto.
Qed.
Print Assumptions cfg_total.

(** Executing the blocks, written down in any order with the first block first, does the same as executing the code
    they were made from: after some steps the same worlds are reached, and the function ends in the same worlds. *)
Theorem cfg_meaning : forall void fn_end keep code next e l l', is_code code next -> cfg void fn_end keep code next = Ok (e :: l) -> Permutation l l' ->
  same_behaviour code (flat_map bops (e :: l')).
Proof.
  intros void fe keep code next e l l' IC E P. destruct (cfg_total fe keep code next IC) as [bs [E1 E2]]. apply (meaning fe keep code next (e :: l) e l l' IC); [|reflexivity|exact P].
  destruct void; [exact E|]. destruct E2 as [E2|E2]; rewrite E in E2; [injection E2 as <-; exact E1|discriminate].
Qed.
Print Assumptions cfg_meaning.

Example cfg_meaning_ex : exists bs, cfg false 5 (fun _ => false) sample 6 = Ok bs /\ map bops bs =
  [[Label 0; Plain 1; Bal 2]; [Label 2; Branch 10 3; Bal 6]; [Label 6; Plain 2; Branch 11 4; Bal 7]; [Label 7; Bal 2];
   [Label 3; Return 3; Bal 5]; [Label 4; Plain 4; Return 6; Bal 5]; [Label 5; End]]%nat.
Proof. eexists. split; vm_compute; reflexivity. Qed.

(** The result is a control flow graph, every block can be reached from the first, which is the one of the first
    label, and no block leads to the first unless the code jumps there. *)
Theorem cfg_graph : forall void fn_end keep n c next bs, is_code (Label n :: c) next -> cfg void fn_end keep (Label n :: c) next = Ok bs ->
  is_cfg bs /\ (forall b, In b bs -> reachable bs (bname b)) /\ exists e l, bs = e :: l /\ bname e = n /\ (~ In n (jumps (Label n :: c)) -> bpreds e = []).
Proof.
  intros void fe keep n c next bs IC E. destruct (cfg_void fe keep _ next IC) as [bs2 [_ [_ [E2 [G [A [En _]]]]]]]. destruct (En n c eq_refl) as [e [l [X1 [X2 [_ X4]]]]].
  assert (bs2 = bs). { destruct void; [congruence|]. destruct (check_graph fe keep _ next bs2 IC E2) as [[K _]|[K _]]; rewrite E in K; congruence. }
  rewrite H in *. split; [apply G|]. split; [exact A|]. exists e, l. auto.
Qed.
Print Assumptions cfg_graph.

Example cfg_graph_ex : exists bs, cfg false 5 (fun _ => false) sample 6 = Ok bs /\
  map (fun b => (bname b, bsuccs b, bpreds b)) bs = [(0, [2], []); (2, [6; 3], [0; 7]); (6, [7; 4], [2]); (7, [2], [6]); (3, [5], [2]); (4, [5], [6]); (5, [], [3; 4])]%nat.
Proof. eexists. split; vm_compute; reflexivity. Qed.

(** Critical edges are split so that there is a place for moves on them.  This is false: when a block has several
    critical edges into it, every other one stays, since the loop over the predecessors goes on while the list
    shrinks.  The witness is "if (a || b) x". *)
Definition either : list instr := [Label 0; Branch 10 3; Plain 1; Branch 11 3; Plain 2; Label 3; Return 5; Label 4; End]%nat.
Lemma either_code : is_code either 5.
Proof.
  split; [exists O; eexists; reflexivity|]. split; [exists (removelast either); reflexivity|]. split; [|split].
  - change (labels either) with [0; 3; 4]%nat. repeat (constructor; [cbn; intuition discriminate|]). constructor.
  - change (labels either) with [0; 3; 4]%nat. change (jumps either) with [3; 3]%nat. intros n H. cbn in *. intuition.
  - change (labels either) with [0; 3; 4]%nat. intros n H. cbn in H. lia.
Qed.
Theorem critical_edges_refuted : exists code next fn_end keep bs p b, is_code code next /\ leaves_at fn_end code /\ cfg false fn_end keep code next = Ok bs /\ critical bs p b.
Proof.
  exists either, 5%nat, 4%nat, (fun _ => false). eexists _, (mk_bb 5 [Label 5; Plain 1; Branch 11 3; Bal 6] [6; 3] [0])%nat, (mk_bb 3 [Label 3; Return 5; Bal 4] [4] [5; 6; 7])%nat.
  split; [exact either_code|]. split; [exists [Label 0; Branch 10 3; Plain 1; Branch 11 3; Plain 2; Label 3; Return 5]%nat, []; split; [reflexivity|]; split; [cbn; intuition discriminate|constructor]|].
  split; [vm_compute; reflexivity|]. repeat split; cbn; auto.
Qed.
Print Assumptions critical_edges_refuted.

(** What holds: no critical edge is added, and all are gone if no block had more than one into it.
    Missing: blocks with more than one. *)
Theorem critical_edges_gone_partial : forall fn_end keep code next b0 n0 b1 b2 b3 n3, is_code code next ->
  cfg_build code next = Ok (b0, n0) -> prune b0 = Ok b1 -> merge (length b1) fn_end keep b1 = Ok b2 -> split b2 n0 = Ok (b3, n3) ->
  (forall p b, critical b3 p b -> exists p' b', critical b2 p' b' /\ bname p' = bname p /\ bname b' = bname b) /\
  ((forall p p' b, critical b2 p b -> critical b2 p' b -> p = p') -> forall p b, ~ critical b3 p b).
Proof. intros fe keep code next b0 n0 b1 b2 b3 n3 IC E0 E1 E2 E3. exact (edges_gone fe keep code next b0 n0 b1 b2 b3 n3 IC E0 E1 E2 E3). Qed.
Print Assumptions critical_edges_gone_partial.

(** "if (a) x; return": the edge around x is critical, and is split *)
Definition hop : list instr := [Label 0; Branch 10 2; Plain 1; Label 2; Return 3; Label 3; End]%nat.
Example critical_edges_ex : exists b0 n0 b1 b2 b3 n3, cfg_build hop 4 = Ok (b0, n0) /\ prune b0 = Ok b1 /\ merge (length b1) 3 (fun _ => false) b1 = Ok b2 /\ split b2 n0 = Ok (b3, n3) /\
  (exists p b, critical b2 p b) /\ (forall p p' b, critical b2 p b -> critical b2 p' b -> p = p').
Proof.
  eexists _, _, _, _, _, _. split; [vm_compute; reflexivity|]. split; [vm_compute; reflexivity|]. split; [vm_compute; reflexivity|]. split; [vm_compute; reflexivity|]. split.
  - exists (mk_bb 0 [Label 0; Branch 10 2; Bal 4] [4; 2] [])%nat, (mk_bb 2 [Label 2; Return 3; Bal 3] [3] [0; 4])%nat. repeat split; cbn; auto.
  - intros p p' b [P1 [_ [_ [P2 _]]]] [Q1 [_ [_ [Q2 _]]]]. cbn in P1, Q1.
    repeat (destruct P1 as [<-|P1]; [cbn in P2; try lia|]); [|destruct P1]. repeat (destruct Q1 as [<-|Q1]; [cbn in Q2; try lia|]); [reflexivity|destruct Q1].
Qed.

(** The check accepts a function exactly when no way through the graph leads to its end without a return. *)
Theorem return_check_exact : forall fn_end keep code next bs, is_code code next -> cfg true fn_end keep code next = Ok bs ->
  (cfg false fn_end keep code next = Ok bs <-> ~ exists b, without_return bs b /\ bname b = fn_end) /\
  (cfg false fn_end keep code next = Throw <-> exists b, without_return bs b /\ bname b = fn_end).
Proof.
  intros fe keep code next bs IC E. destruct (check_graph fe keep code next bs IC E) as [[K N]|[K N]]; rewrite K; split; split; intros H; congruence || contradiction || assumption || reflexivity.
Qed.
Print Assumptions return_check_exact.

Definition forgetful : list instr := [Label 0; Branch 10 2; Return 1; Bal 3; Label 2; Plain 2; Label 3; End]%nat.
Example return_check_exact_ex : cfg false 5 (fun _ => false) sample 6 <> Throw /\ (exists bs, cfg true 3 (fun _ => false) forgetful 4 = Ok bs) /\ cfg false 3 (fun _ => false) forgetful 4 = Throw.
Proof. split; [vm_compute; discriminate|]. split; [eexists; vm_compute; reflexivity|vm_compute; reflexivity]. Qed.

(** So every execution of an accepted function that comes to the end has executed a return of the code. *)
Theorem accepted_returns : forall W (m : machine W) fn_end keep code next bs w w' tr, is_code code next -> leaves_at fn_end code -> cfg false fn_end keep code next = Ok bs ->
  finishes (traced m) code (w, []) (w', tr) -> exists k, In k tr /\ In (Return k) code.
Proof.
  intros W m fe keep code next bs w w' tr IC L E F. exact (all_return m fe keep code next bs IC (leaves_shape fe code L) E w w' tr F).
Qed.
Print Assumptions accepted_returns.

Example accepted_returns_ex : let m := mk_machine Z (fun k w => k + w) (fun k w => 5 <? w) in
  leaves_at 5 sample /\ (exists bs, cfg false 5 (fun _ => false) sample 6 = Ok bs) /\ finishes (traced m) sample (0, []) (17, [6; 4; 2; 2; 2; 1]).
Proof.
  cbv zeta. split; [exists [Label 0; Plain 1; Label 2; Branch 10 3; Plain 2; Branch 11 4; Bal 2; Bal 3; Plain 9; Label 3; Return 3; Bal 5; Label 4; Plain 4; Return 6]%nat, []; split; [reflexivity|]; split; [cbn; intuition discriminate|constructor]|].
  split; [eexists; vm_compute; reflexivity|]. exists 20%nat. eexists. vm_compute. reflexivity.
Qed.
