(** Theorems about the liveness analysis (C85). *)
From Verif Require Import Base Dom_model Live_model Live_spec Live_proof.

(** The result, whenever there is one.  Missing for the full claim, which has no condition on the number of
    variables: the analysis does not end if 256 variables are needed at one place (liveness_ends_refuted). *)
Theorem liveness_partial : forall c, is_program c -> (length (nodup Nat.eq_dec (variables c)) < 256)%nat ->
  exists fuel out inn, live fuel c = Ok (out, inn) /\
    (forall b v, (b < length c)%nat -> In v (get inn b) <-> needed c b v) /\
    (forall b v, (b < length c)%nat -> In v (get out b) <-> needed_after c b v).
Proof.
  intros c P F. destruct (live_ok c P F) as [fuel [out [inn [E [_ H]]]]]. exists fuel, out, inn. split; [exact E|exact H].
Qed.
Print Assumptions liveness_partial.

(** x = ..; loop: if x == y { x = x + 1 } else { y = z }; end of loop: reads x *)
Definition small : program :=
  [mk_block [mk_op 0 [] [0; 1; 2]] [1]; mk_block [mk_op 1 [0; 1] []] [2; 3]; mk_block [mk_op 2 [0] [0]] [4];
   mk_block [mk_op 3 [2] [1]] [4]; mk_block [mk_op 4 [0] []] [1; 5]; mk_block [] []]%nat.
Example small_program : is_program small /\ (length (nodup Nat.eq_dec (variables small)) < 256)%nat.
Proof.
  split; [|cbn; lia]. intros b s H. do 6 (destruct b as [|b]; [cbn in H; repeat (destruct H as [<-|H]; [cbn; lia|]); destruct H|]). destruct b; destruct H.
Qed.
Example small_live : live 10 small = Ok ([[0; 1; 2]; [0; 1; 2]; [0; 1; 2]; [0; 1; 2]; [0; 1; 2]; []], [[]; [0; 1; 2]; [0; 1; 2]; [2; 0]; [0; 1; 2]; []])%nat.
Proof. vm_compute. reflexivity. Qed.

(** with any number of variables, what the analysis yields is right *)
Theorem liveness_right : forall c fuel out inn, is_program c -> live fuel c = Ok (out, inn) ->
  (forall b v, (b < length c)%nat -> In v (get inn b) <-> needed c b v) /\
  (forall b v, (b < length c)%nat -> In v (get out b) <-> needed_after c b v).
Proof. exact (fun c fuel out inn P E => live_sound c fuel out inn P E). Qed.
Print Assumptions liveness_right.

(** A function in which one block assigns 256 variables and the next one reads them: the compiler does not come to
    an end.  The number of variables is counted in eight bits and compared with the length of the list. *)
Theorem liveness_ends_refuted : exists c, is_program c /\ length (variables c) = Z.to_nat 256 /\ forall fuel, live fuel c = NoFuel.
Proof.
  exists (crowded (seq 0 (Z.to_nat 256))). split; [|split; [|intros fuel; apply crowded_never_ends; [apply seq_NoDup|apply seq_length]]].
  - generalize (seq 0 (Z.to_nat 256)) as l. intros l b s H. destruct b as [|[|b]]; cbn in H; [destruct H as [<-|[]]; cbn; lia|destruct H|destruct b; destruct H].
  - rewrite <- (seq_length (Z.to_nat 256) 0) at 2. generalize (seq 0 (Z.to_nat 256)) as l. intros l. unfold crowded, variables. cbn [flat_map ops uses app]. rewrite !app_nil_r. reflexivity.
Qed.
Print Assumptions liveness_ends_refuted.
