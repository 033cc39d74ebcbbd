(** C56 (lists of waiting coroutines and the caches of their nodes). *)
From Verif Require Import Base Base_lemmas Zlist Linkco_model Linkco_spec Linkco_proof Linkco_pool_proof Linkco_run_proof.

(** For any number of processors and lists and every history of pushes at either end and pops, whatever the traffic
    between the caches and the global chain: every pop returns what a plain queue returns, the lists are independent,
    and no assertion, NULL access or write past the cache array is reached. *)
Theorem waitlist_order np nl os : ops_ok np nl [] os ->
  exists s', run (init np nl) os = Ok (fst (spec_run (repeat [] nl) os), s').
Proof.
  intro K. destruct (run_rel np nl os _ _ _ _ _ (init_rel np nl) K) as (s' & gl & ns & u & A & _). eauto.
Qed.
Print Assumptions waitlist_order.

(** The nodes of a list, from the head: walking the next pointers for at most [k] nodes *)
Fixpoint walk (m : Z -> lk) (a : Z) (k : nat) : list Z :=
  match k with O => [] | S k => if a =? 0 then [] else a :: walk m (nx (m a)) k end.

(** every node in every cache, in the global chain and in every list *)
Definition nodes (s : pool) (k : nat) : list Z :=
  concat (caches s) ++ walk (mem s) (global s) k ++ flat_map (fun l => walk (mem s) (lhead l) k) (lists s).

Lemma walk_gchain m l : forall k, (forall a, In a l -> a <> 0) -> gchain m l -> (length l <= k)%nat -> walk m (hd 0 l) k = l.
Proof.
  induction l as [|x l IH]; intros k Z1 C L; [destruct k; reflexivity|].
  destruct k as [|k]; [cbn in L; lia|]. cbn [hd walk]. destruct C as (C1 & _ & C3).
  destruct (Z.eqb_spec x 0) as [E|_]; [exfalso; apply (Z1 x); [left|]; auto|]. f_equal. rewrite C1.
  apply IH; [intros; apply Z1; right; auto|auto|cbn in L; lia].
Qed.
Lemma walk_dll m l : forall prev k, (forall a, In a l -> a <> 0) -> dll m prev l -> (length l <= k)%nat -> walk m (hd 0 l) k = l.
Proof.
  induction l as [|x l IH]; intros prev k Z1 C L; [destruct k; reflexivity|].
  destruct k as [|k]; [cbn in L; lia|]. cbn [hd walk]. destruct C as (_ & C1 & C3).
  destruct (Z.eqb_spec x 0) as [E|_]; [exfalso; apply (Z1 x); [left|]; auto|]. f_equal. rewrite C1.
  apply (IH x); [intros; apply Z1; right; auto|auto|cbn in L; lia].
Qed.

(** No node is ever in two places: two lists, a list and a cache, twice in a cache, and so on; and the chains end. *)
Theorem waitlist_nodes_distinct np nl os vs s : ops_ok np nl [] os -> run (init np nl) os = Ok (vs, s) ->
  exists K, forall k, (K <= k)%nat -> NoDup (nodes s k) /\ nodes s k = nodes s K.
Proof.
  intros K E. destruct (run_rel np nl os _ _ _ _ _ (init_rel np nl) K) as (s' & gl & ns & u & A & R).
  rewrite E in A. injection A as _ <-. destruct (r_inv _ _ _ _ _ _ _ R) as [I1 I2 I3 I4 I5 I6].
  assert (W : forall k, (length gl + length (concat ns) <= k)%nat -> nodes s k = concat (caches s) ++ gl ++ concat ns).
  { intros k Lk. unfold nodes. f_equal. f_equal.
    - rewrite I3. apply walk_gchain; auto; [|lia]. intros a A. apply I2. unfold owned. rewrite !in_app_iff. auto.
    - assert (Z1 : forall a, In a (concat ns) -> a <> 0).
      { intros a A. apply I2. unfold owned. rewrite !in_app_iff. auto. }
      assert (L2 : (length (concat ns) <= k)%nat) by lia.
      clear - Z1 L2 I6. revert Z1 L2. generalize dependent ns. generalize (lists s) as ls.
      induction ls as [|l ls IH]; intros ns F Z1 L2; inversion F as [|? n ? ns' F1 F2]; subst; auto.
      cbn [flat_map concat] in *. rewrite app_length in L2. f_equal.
      + destruct F1 as (F1 & _ & _ & F3). rewrite F1. apply (walk_dll _ _ 0); auto; [|lia].
        intros a A. apply Z1, in_or_app; auto.
      + apply IH; auto; [|lia]. intros a A. apply Z1, in_or_app; auto. }
  exists (length gl + length (concat ns))%nat. intros k Lk. rewrite (W k) by lia. rewrite (W _ (le_n _)). split; auto.
  unfold owned in I1. cbn [app] in I1. eapply Permutation.Permutation_NoDup; [|exact I1].
  rewrite !app_assoc. apply Permutation.Permutation_app_tail. apply Permutation.Permutation_app_comm.
Qed.
Print Assumptions waitlist_nodes_distinct.

(** two lists, two processors: values pushed with nodes from one processor's cache, popped on another *)
Definition ex_ops : list op :=
  [Push 0 0 100 7; Push 1 0 101 8; Push 0 1 102 9; Pop 1 0; PushHead 1 0 103 6; Pop 0 0; Pop 0 0; Pop 0 0; Pop 0 1].
Example waitlist_ex :
  fst (spec_run [[]; []] ex_ops) = [None; None; None; Some 7; None; Some 6; Some 8; Some 0; Some 9].
Proof. vm_compute. reflexivity. Qed.
Example waitlist_ex_ok : ops_ok 2 2 [] ex_ops.
Proof. cbn. repeat split; try lia; intro H; decompose [or] H; try lia; contradiction. Qed.
(** enough traffic to fill a cache (128), spill 64 nodes to the global chain, and borrow them on another processor *)
Definition many (n : nat) : list op := map (fun k => Push 0 0 (Z.of_nat k + 1) (Z.of_nat k + 1000)) (seq 0 n).
Definition ex_spill : list op := many 150 ++ repeat (Pop 1 0) 150 ++ map (fun k => Push 0 1 (Z.of_nat k + 500) 5) (seq 0 3).
Example waitlist_spill :
  match run (init 2 2) ex_spill with
  | Ok (_, s) => (map (@length Z) (caches s), length (walk (mem s) (global s) 200))
  | _ => ([], 0%nat)
  end = ([61; 86]%nat, 0%nat).
Proof. vm_compute. reflexivity. Qed.
Example waitlist_spill_nodes :
  match run (init 2 2) ex_spill with Ok (_, s) => length (nodes s 200) | _ => 0%nat end = 150%nat.
Proof. vm_compute. reflexivity. Qed.
