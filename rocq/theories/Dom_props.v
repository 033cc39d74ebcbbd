(** Theorems about the dominator analysis (C84). *)
From Verif Require Import Base Dom_model Dom_spec Dom_proof.

Theorem dominators_exact : forall g, is_graph g -> g <> [] -> zlen g <= 65535 ->
  exists d, domers g = Ok d /\ forall a b, (b < length g)%nat -> (In a (get d b) <-> (a < length g)%nat /\ dominates g a b).
Proof.
  intros g G N L. assert (L0 : (0 < length g)%nat) by (destruct g; [congruence|cbn; lia]).
  destruct (domers_spec g G L0 L) as [d [E [_ H]]]. exists d. split; [exact E|exact H].
Qed.
Print Assumptions dominators_exact.

(** a loop with two ways through its body: 0 -> 1, 1 -> 2 and 3, 2 and 3 -> 4, 4 -> 1 and 5 *)
Definition loop : graph := [[]; [0; 4]; [1]; [1]; [2; 3]; [4]]%nat.
Example loop_is_graph : is_graph loop.
Proof.
  split; [|split; [|reflexivity]].
  - intros b p H. do 6 (destruct b as [|b]; [cbn in H; repeat (destruct H as [<-|H]; [cbn; lia|]); destruct H|]). destruct b; destruct H.
  - assert (W1 : way loop 1 [1; 0]%nat) by (apply way_step with (p := 0%nat); [constructor|cbn; auto]).
    assert (W2 : way loop 2 [2; 1; 0]%nat) by (apply way_step with (p := 1%nat); [exact W1|cbn; auto]).
    assert (W3 : way loop 3 [3; 1; 0]%nat) by (apply way_step with (p := 1%nat); [exact W1|cbn; auto]).
    assert (W4 : way loop 4 [4; 2; 1; 0]%nat) by (apply way_step with (p := 2%nat); [exact W2|cbn; auto]).
    assert (W5 : way loop 5 [5; 4; 2; 1; 0]%nat) by (apply way_step with (p := 4%nat); [exact W4|cbn; auto]).
    intros b H. do 6 (destruct b as [|b]; [eexists; first [constructor|eassumption]|]). cbn in H. lia.
Qed.
Example loop_dominators : domers loop = Ok [[0]; [0; 1]; [0; 1; 2]; [0; 1; 3]; [0; 1; 4]; [0; 1; 4; 5]]%nat.
Proof. reflexivity. Qed.

Theorem immediate_dominators : forall g, is_graph g -> g <> [] -> zlen g <= 65535 ->
  exists d im, domers g = Ok d /\ imm_domers g d = Ok im /\ imm_domer im 0 = None /\
    forall a b, (0 < b < length g)%nat -> (imm_domer im b = Some a <-> immediately_dominates g a b).
Proof.
  intros g G N L. assert (L0 : (0 < length g)%nat) by (destruct g; [congruence|cbn; lia]).
  destruct (domers_spec g G L0 L) as [d [E _]]. destruct (imm_domers_spec g G L0 L d E) as [im [Ei [_ [T0 T]]]].
  exists d, im. split; [exact E|]. split; [exact Ei|]. split; [exact T0|]. intros a b Hb. destruct (T b Hb) as [x [Ex [Ix _]]]. rewrite Ex. split.
  - intros K. injection K as <-. exact Ix.
  - intros K. f_equal. apply (imm_unique g G L0 x a b); [lia|exact Ix|exact K].
Qed.
Print Assumptions immediate_dominators.

Example loop_immediate : imm_domers loop [[0]; [0; 1]; [0; 1; 2]; [0; 1; 3]; [0; 1; 4]; [0; 1; 4; 5]]%nat = Ok [None; Some 0; Some 1; Some 1; Some 1; Some 4]%nat.
Proof. reflexivity. Qed.

Theorem frontiers_exact : forall g, is_graph g -> g <> [] -> zlen g <= 65535 ->
  exists d im df, domers g = Ok d /\ imm_domers g d = Ok im /\ dominance_frontiers g im = Ok df /\
    forall a m, In m (get df a) <-> (m < length g)%nat /\ frontier g a m.
Proof.
  intros g G N L. assert (L0 : (0 < length g)%nat) by (destruct g; [congruence|cbn; lia]).
  destruct (frontiers_spec g G L0 L) as [d [im [df [E [Ei [Ed [_ [_ H]]]]]]]]. exists d, im, df. split; [exact E|]. split; [exact Ei|]. split; [exact Ed|exact H].
Qed.
Print Assumptions frontiers_exact.

Example loop_frontiers : dominance_frontiers loop [None; Some 0; Some 1; Some 1; Some 1; Some 4]%nat = Ok [[]; [1]; [4]; [4]; [1]; []]%nat.
Proof. reflexivity. Qed.
