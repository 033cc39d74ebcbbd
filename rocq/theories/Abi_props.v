(** C127: both sides of a call agree on where arguments and results are (amd64, System V). *)
From Verif Require Import Base Abi_model Abi_spec Abi_proof.
From Coq Require Import Permutation.

(** Caller and function called both follow the System V convention, whatever the number and the types of the
    arguments. *)
Theorem c127_call : forall ret ts, Forall laid_out ts -> match ret with Some t => laid_out t | None => True end ->
  exists ms room, lower_call ret ts = Some (ms, room)
    /\ Permutation ms (arguments (with_result ret ts))
    /\ lower_fn_begin ret ts = Some (map from_callee (arguments (with_result ret ts))).
Proof.
  intros ret ts H R. unfold lower_call, lower_fn_begin. rewrite (hidden ret ts R).
  destruct (lower_args_ok _ (with_result_laid ret ts H)) as (ms & room & A & B & C & _). now exists ms, room.
Qed.
Print Assumptions c127_call.

(** No place is used twice, and the places on the stack are inside the room the caller reserves. *)
Theorem c127_apart : forall ret ts ms room,
  Forall laid_out ts -> match ret with Some t => laid_out t | None => True end -> lower_call ret ts = Some (ms, room) ->
  (forall j k m m', j <> k -> nth_error ms j = Some m -> nth_error ms k = Some m' ->
     apart (size_of (with_result ret ts)) m m')
  /\ Forall (inside (with_result ret ts) room) ms.
Proof.
  intros ret ts ms room H R E. unfold lower_call in E. rewrite (hidden ret ts R) in E.
  destruct (lower_args_ok _ (with_result_laid ret ts H)) as (ms' & room' & A & _ & _ & B & C).
  rewrite E in A. injection A as <- <-. split; [|exact B].
  intros j k m m' N Hm Hm'. exact (pairs_nth _ ms (apart_sym _) C j k m m' N Hm Hm').
Qed.
Print Assumptions c127_apart.

(** Results: both sides use the same registers, and memory exactly for the results that come with a hidden
    parameter. *)
Theorem c127_result : forall t, laid_out t ->
  lower_return t = call_result t
  /\ (lower_return t = None <-> eightbytes t = None).
Proof.
  intros t H. split; [exact (result_agree t)|]. unfold lower_return. rewrite (classify_answer t H). unfold answer.
  destruct (eightbytes t) as [[|c [|d l]]|]; cbn; try (rewrite andb_false_r); try (destruct (is_struct t); cbn);
    split; intros; try discriminate; reflexivity.
Qed.
Print Assumptions c127_result.

(** They are those of the System V convention for results that do not mix integers and floats.  Missing: the
    others, see below. *)
Theorem c127_result_partial : forall t, laid_out t -> eightbytes t <> Some [] ->
  eightbytes t <> Some [INTEGER; SSE] -> eightbytes t <> Some [SSE; INTEGER] -> lower_return t = result t.
Proof. exact result_sysv. Qed.
Print Assumptions c127_result_partial.

(** struct { i64, f64 }: returned in rax and xmm1, where C uses rax and xmm0 *)
Definition mixed : ty := Struct [Scalar false 8; Scalar true 8] 16 8.
Theorem c127_mixed_result_refuted : exists t, laid_out t /\ has_array t = false
  /\ result t = Some [(Low, IReg 0); (High, XReg 0)]
  /\ lower_return t = Some [(Low, IReg 0); (High, XReg 1)].
Proof. exists mixed. repeat split; try reflexivity; cbn; unfold scalar_size; lia. Qed.
Print Assumptions c127_mixed_result_refuted.
(** struct { f64, i64 }: returned in xmm0 and rdx, where C uses xmm0 and rax *)
Theorem c127_mixed_result_swapped_refuted : exists t, laid_out t /\ has_array t = false
  /\ result t = Some [(Low, XReg 0); (High, IReg 0)]
  /\ lower_return t = Some [(Low, XReg 0); (High, IReg 2)].
Proof.
  exists (Struct [Scalar true 8; Scalar false 8] 16 8). repeat split; try reflexivity; cbn; unfold scalar_size; lia.
Qed.
Print Assumptions c127_mixed_result_swapped_refuted.

(** fn (i8, big, {f32, f32, i32}, f64, {u8, [4]i8}): big, big a struct of three i64 *)
Definition big : ty := Struct [Scalar false 8; Scalar false 8; Scalar false 8] 24 8.
Definition some_args : list ty :=
  [Scalar false 1; big; Struct [Scalar true 4; Scalar true 4; Scalar false 4] 12 4; Scalar true 8;
   Struct [Scalar false 1; Arr 4 1] 5 1].
Example some_laid : Forall laid_out some_args /\ laid_out big.
Proof.
  assert (A : scalar_size 1) by now left. assert (B : scalar_size 4) by now (right; right; left).
  assert (C : scalar_size 8) by now (right; right; right).
  split; [|repeat split; assumption].
  repeat first [apply Forall_cons; [repeat split; first [assumption | discriminate]|] | apply Forall_nil].
Qed.
Example some_call : lower_call (Some big) some_args = Some
  ([(2%nat, Whole, Stk 0); (5%nat, Whole, Stk 24);
    (0%nat, Low, IReg 7); (1%nat, Low, IReg 6); (3%nat, Low, XReg 0); (3%nat, High, IReg 2); (4%nat, Low, XReg 1)], 32).
Proof. reflexivity. Qed.
Example some_begin : lower_fn_begin (Some big) some_args = Some
  [(0%nat, Low, IReg 7); (1%nat, Low, IReg 6); (2%nat, Whole, Stk 16); (3%nat, Low, XReg 0); (3%nat, High, IReg 2);
   (4%nat, Low, XReg 1); (5%nat, Whole, Stk 40)].
Proof. reflexivity. Qed.
(** a struct with one register left for two eightbytes goes to the stack, and the next scalar still gets the register *)
Example one_left : lower_call None (repeat (Scalar false 8) 5 ++ [Struct [Scalar false 8; Scalar false 8] 16 8; Scalar false 4])
  = Some ([(5%nat, Whole, Stk 0); (0%nat, Low, IReg 7); (1%nat, Low, IReg 6); (2%nat, Low, IReg 2); (3%nat, Low, IReg 1);
           (4%nat, Low, IReg 8); (6%nat, Low, IReg 9)], 16).
Proof. reflexivity. Qed.
Example floats_result : let t := Struct [Scalar true 8; Scalar true 4] 16 8 in
  laid_out t /\ eightbytes t = Some [SSE; SSE] /\ lower_return t = Some [(Low, XReg 0); (High, XReg 1)].
Proof. repeat split; try reflexivity; cbn; unfold scalar_size; lia. Qed.
