(** C14: sets. *)
From Verif Require Import Base Base_lemmas Zlist Hash_model Hash_proof Map_spec Map_proof Set_model Set_spec Set_proof.

Lemma same_bytes_eqb a : forall b, same_bytes a b = list_eqb a b.
Proof. induction a as [|x a IH]; intros [|y b]; cbn; rewrite ?IH; reflexivity. Qed.

(** Every history of add and contains, any number of keys, any hash function: contains is exact,
    add reports whether the key was new, and nothing aborts or reads out of bounds.  Keys are the
    same when their texts are (C13).  Partial: no deletions, see the refutations. *)
Theorem set_partial : forall (K : Type) (key_str : K -> list Z) (hash : list Z -> Z) (zk : K) s0 (l : list (op K)),
  empty_set zk s0 -> Forall no_delete l -> zlen l < 2 ^ 62 ->
  exists s, run key_str hash zk s0 l = Ok (s, spec_run (fun a b => same_bytes (key_str a) (key_str b)) [] l).
Proof.
  intros K ks h zk s0 l H0 Hl Hsm. destruct (empty_gsinv ks h zk s0 H0) as (Hg & He & Hn).
  destruct (run_spec ks h zk l s0 [] Hg) as (s & Hr); [now rewrite He|assumption|rewrite Hn; exact Hsm|].
  exists s. rewrite Hr. f_equal.
Qed.
Print Assumptions set_partial.

(** With integers of any width as keys. *)
Theorem set_int_partial : forall (hash : list Z -> Z) size signed s0 (l : list (op Z)),
  int_size size -> Forall (fun o => int_of_size signed size (op_key o)) l ->
  empty_set 0 s0 -> Forall no_delete l -> zlen l < 2 ^ 62 ->
  exists s, run (fun v => rtype_value_to_str (KNum size v)) hash 0 s0 l = Ok (s, spec_run Z.eqb [] l).
Proof.
  intros h size sg s0 l Hs Hk H0 Hl Hsm. destruct (set_partial Z (fun v => rtype_value_to_str (KNum size v)) h 0 s0 l H0 Hl Hsm) as (s & Hr).
  exists s. rewrite Hr. do 2 f_equal. apply (set_spec_ext _ _ (int_of_size sg size)).
  - intros a b Ha Hb. cbn beta. rewrite same_bytes_eqb. destruct (Z.eqb_spec a b) as [->|Hne]; [now apply list_eqb_eq|].
    destruct (list_eqb _ _) eqn:E; [|reflexivity]. exfalso. apply Hne. apply list_eqb_eq in E.
    apply (num_inj size); auto. unfold int_of_size in *. destruct sg; [right|left]; auto.
  - constructor.
  - exact Hk.
Qed.
Print Assumptions set_int_partial.

(** 80 keys: the set grows once. *)
Definition prog_set : list (op Z) := map (fun n => SAdd (Z.of_nat n - 40)) (seq 0 80) ++ [SAdd 3; SContains 39; SContains 40; SContains (-40)].

Example set_int_case :
  int_size 8 /\ Forall (fun o => int_of_size true 8 (op_key o)) prog_set /\ empty_set 0 (set_zero (K:=Z)) /\
  Forall no_delete prog_set /\ zlen prog_set < 2 ^ 62 /\
  skipn 80 (spec_run Z.eqb [] prog_set) = [Added false; Yes true; Yes false; Yes true].
Proof.
  split; [unfold int_size; lia|]. split.
  { unfold prog_set. cbn [map seq app]. repeat (apply Forall_cons; [cbn; lia|]). constructor. }
  split; [now right|]. split.
  { unfold prog_set. cbn [map seq app]. repeat (apply Forall_cons; [exact I|]). constructor. }
  split; reflexivity.
Qed.

(** Deleting one key and adding another makes a third one vanish: add 1, 2; delete 1; add 3;
    contains(2) is false. *)
Theorem set_delete_then_add_refuted : exists (l : list (op Z)) s xs,
  run (fun v => rtype_value_to_str (KNum 8 v)) hash_string 0 (set_new 0) l = Ok (s, xs) /\
  l = [SAdd 1; SAdd 2; SDelete 1; SAdd 3; SContains 2] /\
  xs = [Added true; Added true; Done; Added true; Yes false] /\
  spec_run Z.eqb [] l = [Added true; Added true; Done; Added true; Yes true].
Proof.
  exists [SAdd 1; SAdd 2; SDelete 1; SAdd 3; SContains 2].
  eexists. eexists. split; [vm_compute; reflexivity|]. split; [reflexivity|]. split; reflexivity.
Qed.
Print Assumptions set_delete_then_add_refuted.

(** Deleting a key loses another one whose search passes over it: 0 and 20 fall on one slot. *)
Theorem set_delete_chain_refuted : exists (a b : Z) s,
  a <> b /\
  run (fun v => rtype_value_to_str (KNum 8 v)) hash_string 0 (set_new 0) [SAdd a; SAdd b; SDelete a; SContains b] =
    Ok (s, [Added true; Added true; Done; Yes false]).
Proof. exists 0, 20. eexists. split; [lia|]. vm_compute. reflexivity. Qed.
Print Assumptions set_delete_chain_refuted.

(** Deleting a key that is not there and then adding one reads outside the set's memory. *)
Theorem set_delete_absent_refuted : exists l : list (op Z),
  run (fun v => rtype_value_to_str (KNum 8 v)) hash_string 0 (set_new 0) l = UB /\ l = [SDelete 1; SAdd 2].
Proof. exists [SDelete 1; SAdd 2]. split; [vm_compute|]; reflexivity. Qed.
Print Assumptions set_delete_absent_refuted.
