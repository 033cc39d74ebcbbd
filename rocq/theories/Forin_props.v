(** C124: loops over containers, channels and ranges. *)
From Verif Require Import Base Forin_model Forin_spec Forin_proof.
Import ListNotations.
Open Scope Z_scope.

(** A loop over a vector, a string or a map gives the body the elements by position, the length
    being asked for in front of every round, and ends exactly as that description says: it gives a
    result whenever the description does, and no other, whatever the body does. *)
Theorem c124_container_loop :
  forall (st : Type) len key elem recv mark start stop wrap body k second x s r, k <> KChan ->
    (exists n, run_iterator st len key elem recv mark start stop wrap body n k second x s = Some r)
    <-> visits st len key elem body k second 0 s r.
Proof. intros. now apply iterator_visits. Qed.
Print Assumptions c124_container_loop.

(** A body that does not change the container is run once for every element, in order. *)
Theorem c124_every_element_once :
  forall (st : Type) len key elem recv mark start stop wrap body k second (step : Z -> option Z -> st -> st) x s,
    k <> KChan -> 0 <= len s ->
    (forall v w s', exists x', body v w s' = Falls _ x' (step v w s') \/ body v w s' = Continues _ x' (step v w s')) ->
    (forall v w s', len (step v w s') = len s') ->
    (forall v w i s', key i (step v w s') = key i s' /\ elem i (step v w s') = elem i s') ->
    exists n, run_iterator st len key elem recv mark start stop wrap body n k second x s
      = Some (Finished _ (fold_left (fun s' i => step (first_var st key elem k second i s)
                                                      (second_var st elem second i s) s')
                                    (upto 0 (len s)) s)).
Proof. intros. now apply whole. Qed.
Print Assumptions c124_every_element_once.

(** A loop over a channel gives the body the messages in the order they are received, until the body
    ends the loop.  Missing: the loop ends when the channel is closed, see below. *)
Theorem c124_channel_loop_partial :
  forall (st : Type) len key elem recv mark start stop wrap body x s r,
    receives st recv body s r ->
    exists n, run_iterator st len key elem recv mark start stop wrap body n KChan false x s = Some r.
Proof.
  intros * R. destruct (chan_runs st len key elem recv mark start stop wrap body s r R (-1) x) as (n & H).
  exists (S n). exact H.
Qed.
Print Assumptions c124_channel_loop_partial.

(** A loop over a range runs the body for a, a + 1, .. b - 1, when the end is a value, the body
    leaves the variable alone and the numbers from a to b fit its type.  Missing: an end that moves,
    see below. *)
Theorem c124_range_loop_partial :
  forall (st : Type) len key elem recv mark start stop wrap body (step : Z -> st -> st) a b s s0,
    start s = (a, s0) -> (forall s', stop s' = (b, s')) ->
    (forall v s', body v None s' = Falls _ v (step v s') \/ body v None s' = Continues _ v (step v s')) ->
    (forall z, a <= z <= b -> wrap z = z) ->
    exists n, run_range st len key elem recv mark start stop wrap body n s
      = Some (Finished _ (fold_left (fun s' i => step i s') (upto a b) s0)).
Proof. intros. now apply range_runs. Qed.
Print Assumptions c124_range_loop_partial.

(** ** What goes wrong *)

(** A state for the examples: what the body has written, and the container. *)
Definition tr : Type := list Z * list Z.
Definition tlen (s : tr) : Z := Z.of_nat (length (snd s)).
Definition tget (i : Z) (s : tr) : Z := nth (Z.to_nat i) (snd s) 0.
(** A closed channel: what is left in it is given out, then nothing (rt_chan.c:343-405). *)
Definition trecv (s : tr) : option (Z * tr) :=
  match snd s with [] => None | v :: q => Some (v, (fst s, q)) end.
Definition note (x : Z) (s : tr) : tr := (fst s ++ [x], snd s).

(** `for v in c` over a closed channel that holds 7 and 8: the loop does not end, and after the two
    messages the body goes on with values nobody sent (the error of the receive is noted in the
    coroutine, linear.c:1657-1668 has no check for it). *)
Definition never (n : nat) : Prop :=
  run_iterator tr tlen tget tget trecv (fun s => s) (fun s => (0, s)) (fun s => (0, s)) (fun z => z)
    (fun x _ s => Falls _ x (note x s)) n KChan false 0 ([], [7; 8]) = None.
Definition two_then_more : option (out tr) :=
  run_iterator tr tlen tget tget trecv (fun s => s) (fun s => (0, s)) (fun s => (0, s)) (fun z => z)
    (fun x _ s => if 4 <=? Z.of_nat (length (fst s)) then Breaks _ s else Falls _ x (note x s)) 100 KChan false 0 ([], [7; 8]).

Lemma drained n : forall c x s, snd s = [] ->
  run tr tlen tget tget trecv (fun s => s) (fun s => (0, s)) (fun s => (0, s)) (fun z => z)
    (fun x _ s => Falls _ x (note x s)) n KChan LFor (linear_for_iterator KChan false) 1 c x None s = None.
Proof.
  induction n as [n IH] using lt_wf_ind. intros c x s E.
  do 6 (destruct n as [|n]; [cbn; unfold trecv; rewrite ?E; reflexivity|]).
  cbn [run nth_error linear_for_iterator app negb andb by_value iterator_next_value find_label label_eqb option_map].
  unfold trecv at 1. rewrite E. change (1 =? -1) with false. cbv iota.
  cbn [run nth_error find_label label_eqb option_map]. apply IH; [lia|exact E].
Qed.

Theorem c124_closed_channel_refuted : (forall n, never n) /\ two_then_more = Some (Finished _ ([7; 8; 8; 8], [])).
Proof.
  split; [|reflexivity]. intros n. unfold never, run_iterator.
  do 13 (destruct n as [|n]; [reflexivity|]).
  cbn -[run note]. exact (drained n 1 8 (note 8 (note 7 ([], []))) eq_refl).
Qed.
Print Assumptions c124_closed_channel_refuted.

(** map.c:230-265 on the keys: the last one takes the place of the one that is deleted. *)
Definition swap_delete (x : Z) (l : list Z) : list Z :=
  if existsb (Z.eqb x) l then map (fun y => if y =? x then last l 0 else y) (removelast l) else l.

(** `for k in m { m.delete(k) }` does not empty the map: the key that took the place is passed over. *)
Theorem c124_delete_in_loop_refuted :
  exists n, run_iterator tr tlen tget tget trecv (fun s => s) (fun s => (0, s)) (fun s => (0, s)) (fun z => z)
    (fun x _ s => Falls _ x (fst s ++ [x], swap_delete x (snd s))) n KMap false 0 ([], [1; 2; 3])
    = Some (Finished _ ([1; 2], [3])).
Proof. exists 40%nat. reflexivity. Qed.
Print Assumptions c124_delete_in_loop_refuted.

(** The end of a range is evaluated in front of every round: `for i in 0..v.len()` with a body that
    pushes to v does not end, and an end that is a call is called once more than there are rounds. *)
Lemma grows n : forall x s, x < tlen s ->
  run tr tlen tget tget trecv (fun s => s) (fun s => (0, s)) (fun s => (tlen s, s)) (fun z => z)
    (fun x _ s => Falls _ x (fst s, snd s ++ [x])) n KVec LUp linear_for_range 7 0 x None s = None.
Proof.
  induction n as [n IH] using lt_wf_ind. intros x s L.
  assert (E : (x <? tlen s) = true) by lia.
  do 6 (destruct n as [|n]; [cbn; rewrite ?E; reflexivity|]).
  cbn [run nth_error linear_for_range find_label label_eqb option_map]. rewrite E. cbn [run nth_error find_label label_eqb option_map].
  apply IH; [lia|]. unfold tlen in *. cbn [snd]. rewrite app_length. cbn [length]. lia.
Qed.

Theorem c124_moving_end_refuted :
  (forall n, run_range tr tlen tget tget trecv (fun s => s) (fun s => (0, s)) (fun s => (tlen s, s)) (fun z => z)
    (fun x _ s => Falls _ x (fst s, snd s ++ [x])) n ([], [5]) = None) /\
  (exists n, run_range tr tlen tget tget trecv (fun s => s) (fun s => (0, s)) (fun s => (2, note 100 s)) (fun z => z)
    (fun x _ s => Falls _ x (note x s)) n ([], []) = Some (Finished _ ([100; 0; 100; 1; 100], []))).
Proof.
  split; [|exists 40%nat; reflexivity].
  intros n. unfold run_range. do 3 (destruct n as [|n]; [reflexivity|]).
  cbn -[run]. apply (grows n 0 ([], [5])). reflexivity.
Qed.
Print Assumptions c124_moving_end_refuted.

(** ** Cases *)

(** A body that adds an element to the vector in the first round, skips 2 and breaks at 9. *)
Example c124_container_case :
  visits tr tlen tget tget
    (fun x _ s => if x =? 9 then Breaks _ s else if x =? 2 then Continues _ x s
                  else Falls _ x (fst s ++ [x], if x =? 1 then snd s ++ [9; 10] else snd s))
    KVec false 0 ([], [1; 2; 3]) (Finished _ ([1; 3], [1; 2; 3; 9; 10])).
Proof.
  apply (c124_container_loop tr tlen tget tget trecv (fun s => s) (fun s => (0, s)) (fun s => (0, s)) (fun z => z) _ KVec false 0);
    [discriminate|]. exists 60%nat. reflexivity.
Qed.

(** Notes keys and values of a map; the container is not touched. *)
Example c124_every_case :
  let body := fun x (w : option Z) (s : tr) =>
    Continues _ x (fst s ++ [x; match w with Some y => y | None => -1 end], snd s) in
  let step := fun x (w : option Z) (s : tr) => (fst s ++ [x; match w with Some y => y | None => -1 end], snd s) in
  0 <= tlen ([], [1; 2; 3]) /\
  (forall v w s', exists x', body v w s' = Falls _ x' (step v w s') \/ body v w s' = Continues _ x' (step v w s')) /\
  (forall v w s', tlen (step v w s') = tlen s') /\
  (forall v w i s', 100 + tget i (step v w s') = 100 + tget i s' /\ tget i (step v w s') = tget i s') /\
  fold_left (fun s' i => step (first_var tr (fun i s => 100 + tget i s) tget KMap true i ([], [1; 2; 3]))
                              (second_var tr tget true i ([], [1; 2; 3])) s') (upto 0 3) ([], [1; 2; 3])
  = ([101; 1; 102; 2; 103; 3], [1; 2; 3]).
Proof. cbn. repeat split; try lia. intros. eexists. right. reflexivity. Qed.

Example c124_channel_case :
  receives tr trecv (fun x _ s => if x =? 3 then Leaves _ s else Falls _ x (note x s)) ([], [1; 2; 3; 4])
    (Left _ ([1; 2], [4])).
Proof.
  eapply R_next; [reflexivity|left; reflexivity|]. eapply R_next; [reflexivity|left; reflexivity|].
  eapply R_leave; reflexivity.
Qed.

(** `for i u8 in 3..6` *)
Example c124_range_case :
  let step := fun x (s : tr) => note x s in
  (forall v s', Continues tr v (step v s') = Falls _ v (step v s') \/ Continues tr v (step v s') = Continues _ v (step v s')) /\
  (forall z, 3 <= z <= 6 -> (fun z => z mod 256) z = z) /\
  fold_left (fun s' i => step i s') (upto 3 6) ([], []) = ([3; 4; 5], []).
Proof.
  cbn. repeat split; auto. intros z L. apply Z.mod_small. lia.
Qed.
