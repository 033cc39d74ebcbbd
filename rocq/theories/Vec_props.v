(** C09, C10: vectors as sequences; slices share storage with their parent. *)
From Verif Require Import Base Base_lemmas Zlist Vec_model Vec_spec Vec_proof.

(** *** C09 *)

(** Any history of new, cap_of, push, append, index read, index write, concat, copy and len
    behaves as on plain lists: same contents of every variable, same observations (an index
    out of range is observed as a throw and changes nothing).  Partial: vectors hold at most
    2^30-1 elements (see [vec_append_refuted]), the default element of vec.new is at most 8
    bytes (see [vec_new_refuted]); slices and shared headers are covered by the theorems
    after this one instead. *)
Theorem vec_values_partial : forall (A : Type) (zero : A) (element_size : Z) (l : list (op A)) c xs,
  Forall (new_ok element_size) l ->
  spec_run [] l = Some (c, xs) ->
  sizes_within 1073741823 [] l ->
  exists s, run zero element_size init l = Ok (s, xs) /\ contents s = c.
Proof.
  intros A zero esz l c xs Hn Hs Hz.
  destruct (run_values zero esz l init c xs (wf_init zero esz) (apart_init zero esz) Hn Hs Hz) as (s & Hr & _ & _ & Hc).
  eauto.
Qed.
Print Assumptions vec_values_partial.

(** A computable form of [sizes_within], for the example. *)
Fixpoint sizes_withinb {A} (bound : Z) (s : list (list A)) (l : list (op A)) : bool :=
  forallb (fun x => zlen x <=? bound) s &&
  match l with
  | [] => true
  | o :: t => match spec_step s o with Some (s, _) => sizes_withinb bound s t | None => true end
  end.

Lemma sizes_withinb_sound {A} bound (l : list (op A)) : forall s, sizes_withinb bound s l = true -> sizes_within bound s l.
Proof.
  induction l as [|o l IH]; intros s H; cbn [sizes_withinb sizes_within] in *; apply andb_true_iff in H as [H1 H2];
    (split; [apply Forall_forall; intros x Hx; rewrite forallb_forall in H1; specialize (H1 x Hx); cbn beta in H1; lia|]).
  - exact I.
  - destruct (spec_step s o) as [[s' x]|]; auto.
Qed.

Definition prog1 : list (op Z) :=
  [OCap 2; OPush 0 5; OPush 0 6; OPush 0 7; ONew 2 1; OAppend 1 0; OAppend 1 1; OSet 1 3 9; OGet 1 3; OGet 0 1;
   OGet 0 3; OSet 0 (-1) 4; OConcat 0 1; OCopy 2 0; OCopy 0 1; OLen 2; ONew (-1) 3].

Example vec_values_case : exists c xs,
  Forall (new_ok 8) prog1 /\ spec_run [] prog1 = Some (c, xs) /\ sizes_within 1073741823 [] prog1 /\
  c = [[1; 1; 5]; [1; 1; 5; 9; 7; 1; 1; 5; 6; 7]; [5; 6; 7; 1; 1; 5; 9; 7; 1; 1; 5; 6; 7]] /\
  nth 10 xs Done = Thrown.
Proof.
  do 2 eexists. split; [|split; [vm_compute; reflexivity|split; [|split; reflexivity]]].
  - unfold prog1. repeat (apply Forall_cons; [cbn; lia|]). constructor.
  - apply sizes_withinb_sound. vm_compute. reflexivity.
Qed.

(** vec.new with a default element wider than 8 bytes reads past a local variable, for every
    length, element and prior history. *)
Theorem vec_new_refuted : exists element_size, forall (A : Type) (zero x : A) (n : Z) (s : state A),
  0 < n -> step zero element_size s (ONew n x) = UB.
Proof.
  exists 48. intros A zero x n s Hn. cbn [step]. unfold vec_new, array_new.
  replace (n <? 0) with false by lia. replace (n =? 0) with false by lia. replace (n <? 0) with false by lia.
  cbn [bind]. replace (0 <? n) with true by lia. reflexivity.
Qed.
Print Assumptions vec_new_refuted.

(** Appending a vector of 2^30 elements to itself asks for a negative number of elements. *)
Theorem vec_append_refuted : exists l : list (op Z),
  (exists c xs, spec_run [] l = Some (c, xs)) /\ run 0 8 init l = Abort.
Proof.
  assert (H : forall n, n = 1073741824 ->
            (exists c xs, spec_run [] [ONew n 7; OAppend 0 0] = Some (c, xs)) /\
            run 0 8 init [ONew n 7; OAppend 0 0] = Abort); [|eexists; exact (H _ eq_refl)].
  intros n Hn. split.
  - unfold spec_run, spec_step, get_list. replace (n <? 0) with false by lia. cbn [app nth_error]. eauto.
  - destruct (new_ok_spec 0 8 (mem init) n 7 ltac:(lia) ltac:(lia)) as (h & v & Hnew & He & W & Hv & _).
    assert (Hl : len v = n) by (rewrite <- (view_len 0 8 h v W), Hv, zlen_repeat; lia).
    assert (Hstep : step 0 8 init (ONew n 7) = Ok (add_var (h, v) init, Done)) by (cbn [step]; now rewrite Hnew).
    cbn [run]. rewrite Hstep. cbn [bind step]. unfold var, add_var. cbn [vars init app snd fst nth_error bind mem].
    unfold vec_append. rewrite Hl. destruct (cap v <? n + n) eqn:E.
    + assert (Hneg : i32 (n + n + 1) = -2147483647) by (rewrite Hn; reflexivity). rewrite Hneg. reflexivity.
    + exfalso. unfold vec_new in Hnew. replace (n <? 0) with false in Hnew by lia. replace (n =? 0) with false in Hnew by lia.
      destruct (array_new 0 (mem init) n) as [[h' b]| | | | |]; try discriminate.
      cbn [bind] in Hnew. replace (0 <? n) with true in Hnew by lia.
      replace (8 <? 8) with false in Hnew by reflexivity.
      match type of Hnew with context [store ?a ?b ?c ?d] => destruct (store a b c d) as [h2| | | | |] end; try discriminate.
      cbn [bind] in Hnew. injection Hnew as _ Hvv. rewrite <- Hvv in E. cbn in E. lia.
Qed.
Print Assumptions vec_append_refuted.

(** The full statement of C09 over histories, without the two side conditions, fails. *)
Theorem vec_values_refuted : exists (element_size : Z) (l : list (op Z)) c xs,
  spec_run [] l = Some (c, xs) /\ forall s ys, run 0 element_size init l <> Ok (s, ys).
Proof.
  exists 48, [ONew 1 0], [[0]], [Done]. split; [reflexivity|]. intros s ys H. vm_compute in H. discriminate.
Qed.
Print Assumptions vec_values_refuted.

(** A new slice holds exactly the elements of the range, in any program, and no variable that
    existed before changes; a slice with bounds out of range throws. *)
Theorem vec_slice_contents : forall (A : Type) (zero : A) (element_size : Z) hist s xs v st e a,
  run zero element_size init hist = Ok (s, xs) ->
  nth_error (contents s) v = Some a ->
  let e' := if e =? -1 then zlen a else e in
  exists s' x, step zero element_size s (OSlice v st e) = Ok (s', x) /\
    (0 <= st <= e' /\ e' <= zlen a -> x = Done /\ contents s' = contents s ++ [sub_list a st e']) /\
    (~ (0 <= st <= e' /\ e' <= zlen a) -> x = Thrown /\ contents s' = contents s).
Proof.
  intros A zero esz hist s xs v st e a Hr Ha e'.
  destruct (run_inv zero esz _ _ _ _ _ (wf_init zero esz) (grouped_init zero esz) Hr) as [W _].
  apply contents_nth_inv in Ha as (va & Hva & ->); [|exact zero|exact esz].
  pose proof (wf_var zero esz _ _ _ W Hva) as Wa. pose proof (view_len zero esz _ _ Wa) as Hz.
  pose proof (slice_ok zero esz (mem s) va st e Wa) as Hsl. cbn [step]. unfold var. rewrite Hva. cbn [bind].
  subst e'. rewrite Hz.
  destruct (vec_slice va st e) as [w| | | | |]; try contradiction; cbn [bind guard].
  - destruct Hsl as (e0 & He0 & H1 & H2 & -> & Ww & Hv). rewrite <- He0. eexists _, _. split; [reflexivity|].
    split; [|lia]. intros _. split; [reflexivity|]. unfold contents, add_var. cbn [mem vars fst snd].
    rewrite map_app. cbn [map]. now rewrite Hv.
  - eexists _, _. split; [reflexivity|]. cbn zeta in Hsl. split; [lia|]. auto.
Qed.
Print Assumptions vec_slice_contents.

Definition prog2 : list (op Z) := [ONew 3 1; OPush 0 7; OSlice 0 1 (-1); OAssign 1; OCap 0; OPush 2 4].

Example vec_slice_contents_case : exists s xs,
  run 0 8 init prog2 = Ok (s, xs) /\ nth_error (contents s) 1 = Some [1; 1; 7] /\
  contents s = [[1; 1; 1; 7]; [1; 1; 7]; [1; 1; 7; 4]; []].
Proof. do 2 eexists. split; [vm_compute; reflexivity|]. split; reflexivity. Qed.

(** In any program, an operation changes no variable outside the group of the variable it
    writes through, where a group is a vector together with the slices and header copies taken
    from it (directly or not). *)
Theorem vec_isolation : forall (A : Type) (zero : A) (element_size : Z) hist s xs o s' x w,
  run zero element_size init hist = Ok (s, xs) ->
  step zero element_size s o = Ok (s', x) ->
  (w < length (contents s))%nat ->
  match target o with
  | None => True
  | Some v => nth_error (groups [] hist xs) w <> nth_error (groups [] hist xs) v
  end ->
  nth_error (contents s') w = nth_error (contents s) w.
Proof. exact @isolation. Qed.
Print Assumptions vec_isolation.

Example vec_isolation_case : exists s xs s',
  run 0 8 init (prog2 ++ [ONew 2 9]) = Ok (s, xs) /\
  groups [] (prog2 ++ [ONew 2 9]) xs = [0; 0; 0; 3; 4]%nat /\
  step 0 8 s (OSet 1 0 5) = Ok (s', Done) /\
  contents s' = [[1; 5; 1; 7]; [5; 1; 7]; [1; 1; 7; 4]; []; [9; 9]].
Proof. do 3 eexists. split; [vm_compute; reflexivity|]. repeat split. Qed.

(** An operation that throws changes no vector at all. *)
Theorem vec_thrown_no_change : forall (A : Type) (zero : A) (element_size : Z) hist s xs o s',
  run zero element_size init hist = Ok (s, xs) ->
  step zero element_size s o = Ok (s', Thrown) -> s' = s.
Proof.
  intros A zero esz hist s xs o s' Hr Hs.
  destruct (run_inv zero esz _ _ _ _ _ (wf_init zero esz) (grouped_init zero esz) Hr) as [W _].
  eapply out_of_range_no_change; eauto.
Qed.
Print Assumptions vec_thrown_no_change.

Example vec_thrown_case : exists s xs,
  run 0 8 init prog2 = Ok (s, xs) /\ step 0 8 s (OSet 1 3 5) = Ok (s, Thrown) /\ step 0 8 s (OGet 3 0) = Ok (s, Thrown).
Proof. do 2 eexists. split; [vm_compute; reflexivity|]. split; reflexivity. Qed.

(** *** C10 *)

(** Take a slice in any reachable state; then any interleaving of pushes and index writes on
    the parent and on the slice never fails, and leaves both with exactly the contents
    described by [pair_step]: while linked, a write inside the common range shows in both; a
    push on a slice never touches the parent; a push on a full parent, or any push on the
    slice, ends the sharing. *)
Theorem vec_slice_aliasing : forall (A : Type) (zero : A) (element_size : Z) hist s xs v st e s1 a c l,
  run zero element_size init hist = Ok (s, xs) ->
  step zero element_size s (OSlice v st e) = Ok (s1, Done) ->
  step zero element_size s (OCapacity v) = Ok (s, Num c) ->
  nth_error (contents s) v = Some a ->
  let w := length (contents s) in
  let e' := if e =? -1 then zlen a else e in
  0 <= st <= e' /\ e' <= zlen a /\
  exists s' ys, run zero element_size s1 (map (as_op v w) l) = Ok (s', ys) /\
    let p := fold_left pair_step l (mk_pair a c (sub_list a st e') (e' - st) st true) in
    nth_error (contents s') v = Some (parent p) /\
    nth_error (contents s') w = Some (child p).
Proof. exact @slice_pair. Qed.
Print Assumptions vec_slice_aliasing.

Example vec_slice_aliasing_case : exists s xs s1 s' ys,
  run 0 8 init [OCap 5; OPush 0 1; OPush 0 2; OPush 0 3] = Ok (s, xs) /\
  step 0 8 s (OSlice 0 1 3) = Ok (s1, Done) /\
  step 0 8 s (OCapacity 0) = Ok (s, Num 5) /\
  run 0 8 s1 (map (as_op 0 1) [PSet 1 20; CSet 1 30; PPush 4; CPush 9; CSet 0 7; PSet 2 8]) = Ok (s', ys) /\
  contents s' = [[1; 20; 8; 4]; [7; 30; 9]].
Proof. do 5 eexists. split; [vm_compute; reflexivity|]. repeat (split; [vm_compute; reflexivity|]). reflexivity. Qed.

(** Pushing to a slice never changes the parent, after any such history. *)
Theorem vec_slice_push_keeps_parent : forall (A : Type) (zero : A) (element_size : Z) hist s xs v st e s1 l s2 ys y s3 z,
  run zero element_size init hist = Ok (s, xs) ->
  (v < length (contents s))%nat ->
  step zero element_size s (OSlice v st e) = Ok (s1, Done) ->
  run zero element_size s1 (map (as_op v (length (contents s))) l) = Ok (s2, ys) ->
  step zero element_size s2 (OPush (length (contents s)) y) = Ok (s3, z) ->
  nth_error (contents s3) v = nth_error (contents s2) v.
Proof.
  intros A zero esz hist s xs v st e s1 l s2 ys y s3 z Hr Hv Hs Hl Hp.
  assert (Hcap : exists c, step zero esz s (OCapacity v) = Ok (s, Num c)).
  { cbn [step]. unfold var. rewrite (contents_len zero esz) in Hv.
    destruct (nth_error (vars s) v) eqn:E; [cbn; eauto|]. apply nth_error_None in E. lia. }
  destruct Hcap as [c Hcap].
  destruct (nth_error (contents s) v) as [a|] eqn:Ha; [|apply nth_error_None in Ha; lia].
  destruct (slice_pair zero esz hist s xs v st e s1 a c l Hr Hs Hcap Ha) as (_ & _ & s2' & ys' & Hr2 & Hp2 & _).
  destruct (slice_pair zero esz hist s xs v st e s1 a c (l ++ [CPush y]) Hr Hs Hcap Ha) as (_ & _ & s3' & zs & Hr3 & Hp3 & _).
  rewrite Hl in Hr2. injection Hr2 as <- <-.
  assert (Happ : forall l1 l2 t t1 o1 t2 o2, run zero esz t l1 = Ok (t1, o1) -> run zero esz t1 l2 = Ok (t2, o2) ->
            run zero esz t (l1 ++ l2) = Ok (t2, o1 ++ o2)).
  { induction l1 as [|o l1 IH]; intros l2 t t1 o1 t2 o2 H1 H2; cbn [run app] in *; [injection H1 as <- <-; exact H2|].
    destruct (step zero esz t o) as [[t0 o0]| | | | |]; try discriminate. cbn [bind] in *.
    destruct (run zero esz t0 l1) as [[t3 o3]| | | | |] eqn:E; try discriminate. cbn [bind] in *. injection H1 as <- <-.
    rewrite (IH _ _ _ _ _ _ E H2). reflexivity. }
  rewrite map_app in Hr3. rewrite (Happ _ _ _ _ _ s3 [z] Hl) in Hr3
    by (cbn [map as_op run]; rewrite Hp; reflexivity).
  injection Hr3 as <- <-. rewrite Hp3, Hp2, fold_left_app. reflexivity.
Qed.
Print Assumptions vec_slice_push_keeps_parent.

Example vec_slice_push_case : exists s xs s1 s2 ys s3 z,
  run 0 8 init [OCap 5; OPush 0 1; OPush 0 2; OPush 0 3] = Ok (s, xs) /\
  step 0 8 s (OSlice 0 0 2) = Ok (s1, Done) /\
  run 0 8 s1 (map (as_op 0 1) [CSet 0 6]) = Ok (s2, ys) /\
  step 0 8 s2 (OPush 1 5) = Ok (s3, z) /\ contents s3 = [[6; 2; 3]; [6; 2; 5]].
Proof. do 7 eexists. split; [vm_compute; reflexivity|]. repeat (split; [vm_compute; reflexivity|]). reflexivity. Qed.
