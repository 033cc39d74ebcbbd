(** C06, C07, C08: vec.sort and vec.search. *)
From Verif Require Import Base Base_lemmas Sort_model Sort_spec Sort_proof.

(** C06.  Sorting with a comparator that decides a strict weak order leaves a permutation of
    the input in which no element is less than an earlier one. *)
Theorem C06_sort_orders_and_permutes {A S} (less : S -> list A -> Z -> Z -> bool * S) lt :
  strict_weak_order lt -> compares lt less ->
  forall v s, exists w s', Sort_model.sort less v s = Ok (w, s') /\ Permutation v w /\ ordered lt w.
Proof. intros H1 H2 v s. exact (sort_sorts less lt v s H1 H2). Qed.
Print Assumptions C06_sort_orders_and_permutes.

(** C07.  Whatever the comparator answers (inconsistent, stateful, lying), sorting ends, never
    asks about an index outside the vector, and leaves a permutation of the input. *)
Theorem C07_sort_safe_with_any_comparator {A S} (less : S -> list A -> Z -> Z -> bool * S) :
  forall v s, exists w s', Sort_model.sort less v s = Ok (w, s') /\ Permutation v w.
Proof. exact (sort_permutes less). Qed.
Print Assumptions C07_sort_safe_with_any_comparator.

(** C08.  On a predicate that is false and then true, search returns the first true index, or
    the length when there is none. *)
Theorem C08_search_finds_first (P : Z -> bool) (len : Z) :
  0 <= len ->
  (forall i j, 0 <= i -> i <= j -> j < len -> P i = true -> P j = true) ->
  exists r, search P len = Ok r /\ 0 <= r <= len /\
    (forall i, 0 <= i < r -> P i = false) /\ (r < len -> P r = true).
Proof.
  intros Hl Hm. unfold search.
  destruct (search_loop_spec P (Datatypes.S (Z.to_nat len)) len 0 len) as (r & Hr & Hb & H1 & H2);
    [lia|lia|lia|intros i Hi; lia|intros i Hi; lia|exact Hm|].
  exists r. split; [exact Hr|]. split; [exact Hb|]. split; [exact H1|]. intros H. apply H2. lia.
Qed.
Print Assumptions C08_search_finds_first.

(** C08.  With any predicate the search ends and never probes outside the vector. *)
Theorem C08_search_total (P : Z -> bool) (len : Z) :
  0 <= len -> exists r, search P len = Ok r /\ 0 <= r <= len.
Proof. intros Hl. apply search_loop_total; lia. Qed.
Print Assumptions C08_search_total.

(** Concrete cases: Z.ltb is a strict weak order, and the usual comparator decides it. *)
Definition zless (s : unit) (v : list Z) (i j : Z) : bool * unit :=
  match at_ v i, at_ v j with Ok x, Ok y => (x <? y, tt) | _, _ => (false, tt) end.

Example C06_hypotheses_hold : strict_weak_order Z.ltb /\ compares Z.ltb zless.
Proof.
  split.
  - split; intros; lia.
  - intros s v i j x y H1 H2. unfold zless. now rewrite H1, H2.
Qed.

(** Twenty elements, so the partition is exercised and not only the insertion sort. *)
Example C06_case :
  Sort_model.sort zless [5;3;9;1;7;7;2;8;0;4;6;15;12;11;10;19;13;14;18;16] tt
  = Ok ([0;1;2;3;4;5;6;7;7;8;9;10;11;12;13;14;15;16;18;19], tt).
Proof. vm_compute. reflexivity. Qed.

(** A comparator that answers true to everything is no order at all. *)
Example C07_case : exists w,
  Sort_model.sort (fun (n : nat) (_ : list Z) _ _ => (true, Datatypes.S n)) [1;2;3;4;5;6;7;8;9;10;11;12;13;14] O
  = Ok w /\ ~ strict_weak_order (fun _ _ : Z => true).
Proof.
  eexists. split; [vm_compute; reflexivity|]. intros H. pose proof (swo_irrefl _ H 0). discriminate.
Qed.

Example C08_case : search (fun i => 7 <=? i * i) 10 = Ok 3 /\
  (forall i j, 0 <= i -> i <= j -> j < 10 -> (7 <=? i * i) = true -> (7 <=? j * j) = true).
Proof. split; [vm_compute; reflexivity|]. intros i j Hi Hij Hj H. nia. Qed.
