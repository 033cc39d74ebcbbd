(** Moves of one point happen as if all at once: property theorems. *)
From Verif Require Import Base Pmove_model Pmove_spec Pmove_proof Pmove_edge_proof.

(** For any operations of one point each of which reads at most one place that another one writes, an order is found,
    and running it leaves in every place written what its operation computes from the values before. *)
Theorem parallel_moves_partial : forall fuel ti tf float moves, is_moves ti tf moves -> one_conflict moves -> (length moves <= fuel)%nat ->
  exists ops, parallel_moves fuel ti tf float moves = Ok ops /\ forall V (m : machine V) s, at_once m ti tf moves s (run m ops s).
Proof. exact parallel_moves_ok. Qed.
Print Assumptions parallel_moves_partial.

(** Without that condition it fails: x0 := x1 - x2, x1 := x0, x2 := x0 leaves 0 in x0. *)
Definition three : list op :=
  [mk_op 7 (Some (Place (IReg 1))) (Some (Place (IReg 2))) (IReg 0); mk_op 0 (Some (Place (IReg 0))) None (IReg 1); mk_op 0 (Some (Place (IReg 0))) None (IReg 2)].
Definition subtract : machine Z := mk_machine Z (fun k _ => k) (fun k => k) (fun _ a b => match a, b with Some x, Some y => x - y | _, _ => 0 end).
Theorem parallel_moves_refuted :
  exists moves ops (s : store Z), is_moves 16 16 moves /\ parallel_moves 10 16 16 (fun _ => false) moves = Ok ops /\ ~ at_once subtract 16 16 moves s (run subtract ops s).
Proof.
  exists three. eexists. exists (fun l => match l with IReg 1 => 5 | IReg 2 => 3 | _ => 0 end). split; [|split].
  - unfold three. split; [|split; [|split]].
    + cbn [map out]. repeat constructor; cbn [In]; intuition congruence.
    + intros o [<-|[<-|[<-|[]]]]; unfold reads; cbn [out first second places In]; intuition congruence.
    + intros o regs k [<-|[<-|[<-|[]]]]; cbn [first second]; intuition congruence.
    + intros o [<-|[<-|[<-|[]]]]; cbn [code first second]; intros; split; congruence.
  - vm_compute. reflexivity.
  - intros [H _]. specialize (H (mk_op 7 (Some (Place (IReg 1))) (Some (Place (IReg 2))) (IReg 0)) (or_introl eq_refl)). vm_compute in H. discriminate H.
Qed.
Print Assumptions parallel_moves_refuted.

(** a cycle of three registers, with an address read through one of them, a constant, and a register kept as it is *)
Definition five : list op :=
  [mk_op 0 (Some (Place (IReg 1))) None (IReg 0); mk_op 0 (Some (Place (IReg 2))) None (IReg 1); mk_op 3 (Some (Place (IReg 0))) (Some (Place (IReg 0))) (IReg 2);
   mk_op 0 (Some (Mem [IReg 1; IReg 5] 8)) None (Slot (-16)); mk_op 0 (Some (Other 3)) None (IReg 4); mk_op 0 (Some (Place (IReg 6))) None (IReg 6)].
Example parallel_moves_used : is_moves 16 16 five /\ one_conflict five /\
  parallel_moves 6 16 16 (fun _ => false) five =
    Ok [mk_op 0 (Some (Place (IReg 1))) None (IReg 16); mk_op 0 (Some (Mem [IReg 1; IReg 5] 8)) None (Slot (-16)); mk_op 0 (Some (Place (IReg 2))) None (IReg 1);
        mk_op 3 (Some (Place (IReg 0))) (Some (Place (IReg 0))) (IReg 2); mk_op 0 (Some (Place (IReg 16))) None (IReg 0); mk_op 0 (Some (Other 3)) None (IReg 4)].
Proof.
  split; [|split].
  - unfold five. split; [|split; [|split]].
    + cbn [map out]. repeat constructor; cbn [In]; intuition congruence.
    + intros o Ho. cbn [In] in Ho. destruct Ho as [<-|[<-|[<-|[<-|[<-|[<-|[]]]]]]]; unfold reads; cbn [out first second places In]; intuition congruence.
    + intros o regs k Ho. cbn [In] in Ho. destruct Ho as [<-|[<-|[<-|[<-|[<-|[<-|[]]]]]]]; cbn [first second]; intros [H|H]; try discriminate. injection H as <- <-. repeat constructor.
    + intros o Ho. cbn [In] in Ho. destruct Ho as [<-|[<-|[<-|[<-|[<-|[<-|[]]]]]]]; cbn [code first second]; intros; split; congruence.
  - intros o Ho. cbn [five In] in Ho. split; intros p q Hp Hq Np Nq; cbn [five In] in Hp, Hq;
      destruct Ho as [<-|[<-|[<-|[<-|[<-|[<-|[]]]]]]]; unfold reads; cbn [out first second places In]; intros R1 R2;
      destruct Hp as [<-|[<-|[<-|[<-|[<-|[<-|[]]]]]]]; cbn [out] in R1; try (exfalso; intuition congruence);
      destruct Hq as [<-|[<-|[<-|[<-|[<-|[<-|[]]]]]]]; cbn [out] in R2; try reflexivity; exfalso; intuition congruence.
  - vm_compute. reflexivity.
Qed.

(** The moves of an edge are brought into an order, of any number of them; every place written ends with the value its
    source had, and every other place is as before, except the stack slots of variables that were in registers. *)
Theorem edge_moves : forall fuel l, is_edge l -> (2 * length l <= fuel)%nat ->
  exists ops, resolve_mappings fuel l = Ok ops /\ forall V (s : nat + nat -> V),
    (forall f t, In (f, t) l -> run_moves ops s (place t) = s (place f)) /\
    (forall x, ~ In x (map (fun p => place (snd p)) l) -> (forall f t, In (f, t) l -> assigned f <> None -> x <> inr (var f)) -> run_moves ops s x = s x).
Proof. exact resolve_mappings_ok. Qed.
Print Assumptions edge_moves.

(** a swap with a third register and a slot that depend on it *)
Definition edge : list (ivl * ivl) :=
  [(mk_ivl 1 (Some 3%nat), mk_ivl 10 (Some 4%nat)); (mk_ivl 2 (Some 4%nat), mk_ivl 11 (Some 3%nat)); (mk_ivl 1 (Some 3%nat), mk_ivl 12 (Some 5%nat)); (mk_ivl 2 (Some 4%nat), mk_ivl 2 None); (mk_ivl 7 None, mk_ivl 13 (Some 6%nat))].
Example edge_moves_used : is_edge edge /\
  resolve_mappings 10 edge =
    Ok [(mk_ivl 1 (Some 3%nat), mk_ivl 12 (Some 5%nat)); (mk_ivl 7 None, mk_ivl 13 (Some 6%nat)); (mk_ivl 2 (Some 4%nat), mk_ivl 2 None); (mk_ivl 2 (Some 4%nat), mk_ivl 2 None);
        (mk_ivl 1 (Some 3%nat), mk_ivl 10 (Some 4%nat)); (mk_ivl 2 None, mk_ivl 11 (Some 3%nat))].
Proof.
  split.
  - unfold edge. split; [|split; [|split]].
    + intros f t r H. cbn [In] in H. destruct H as [H|[H|[H|[H|[H|[]]]]]]; injection H as <- <-; cbn [assigned]; intros [H|H]; try discriminate; injection H as <-; lia.
    + intros f t f' t' H H'. cbn [In] in H, H'. destruct H as [H|[H|[H|[H|[H|[]]]]]]; injection H as <- <-; destruct H' as [H'|[H'|[H'|[H'|[H'|[]]]]]]; injection H' as <- <-; unfold place; cbn [var assigned]; split; congruence.
    + cbn [map snd]. unfold place. cbn [assigned var]. repeat constructor; cbn [In]; intuition congruence.
    + intros f t H E. cbn [In] in H. destruct H as [H|[H|[H|[H|[H|[]]]]]]; injection H as <- <-; cbn [assigned var] in *; try discriminate. split; congruence.
  - vm_compute. reflexivity.
Qed.
