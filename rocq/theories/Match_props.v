(** C123: `match` runs the first case that fits, and only that. *)
From Verif Require Import Base Match_model Match_spec Match_proof.
Import ListNotations.
Open Scope Z_scope.

(** For every accepted match: the code ends, and it ends as the meaning says.  [eval], [body] and
    the state are arbitrary, so a condition tried twice, a body run for another or the subject
    evaluated again would show. *)
Theorem c123_first_case_that_fits_partial :
  forall hash st (eval : nat -> st -> ev st) (body : nat -> option Z -> st -> bd st) carry m s,
  accepted hash m = true -> plain_enum st eval m -> rebinds_well st eval m ->
  (forall e v s', subject m = Some e -> eval e s = Val _ v s' -> belongs carry (kind m) v /\
     forall t, In t (asked m) -> hash t = hash (carry v) -> t = carry v) ->
  (exists n, run hash st eval body carry n m (linear_match m) 0 0 0 None s
             = Some (meaning st eval body carry m s)) /\
  (forall n r, run hash st eval body carry n m (linear_match m) 0 0 0 None s = Some r ->
     r = meaning st eval body carry m s).
Proof.
  intros hash st eval body carry m s Ac Pe Rw H.
  destruct (match_means hash st eval body carry m s Ac Pe Rw H) as (n & R). split; [eauto|].
  intros n' r R'. exact (run_once hash st eval body carry m _ _ _ _ _ _ _ _ _ _ R' R).
Qed.
Print Assumptions c123_first_case_that_fits_partial.

(** ** A world for the cases below

    The state is the list of the expressions and bodies evaluated so far, the last one first.
    Expression 1 is a call that gives 5 first and 9 the next time. *)
Definition log := list (Z * Z).
Definition bodies (k : nat) (b : option Z) (s : log) : bd log :=
  Falls _ ((100 + Z.of_nat k, match b with Some v => v | None => -1 end) :: s).
Definition exprs (e : nat) (s : log) : ev log :=
  match e with
  | 0%nat => Val _ 5 s
  | 1%nat => Val _ (if (length s =? 0)%nat then 5 else 9) ((1, 0) :: s)
  | 2%nat => Val _ 1 s
  | 3%nat => Val _ 2 s
  | 4%nat => Val _ 2 ((4, 0) :: s)
  | _ => Gone _ s
  end.
(** 5 is an int (type 10), 9 a string (type 20), 1 and 2 are of an enum. *)
Definition made (v : Z) : Z := if v =? 5 then 10 else if v =? 9 then 20 else 0.

(** match x { is int v -> 0; is string -> 1 } *)
Definition union_match : mtch :=
  mk_match (Some 0%nat) false (KUnion [10; 20]) [mk_case [CIs 10] true 0; mk_case [CIs 20] false 1].

Example union_match_means : meaning log exprs bodies made union_match [] = Finished _ [(100, 5)].
Proof. reflexivity. Qed.

Example union_match_ok :
  exists n, run (fun z => z) log exprs bodies made n union_match (linear_match union_match) 0 0 0 None []
            = Some (Finished _ [(100, 5)]).
Proof.
  apply (c123_first_case_that_fits_partial (fun z => z) log exprs bodies made union_match []).
  - reflexivity.
  - exact Logic.I.
  - intros e c [= <-] I B _. split.
    + intros s v s'. cbn. now intros [= _ ->].
    + intros c' d [<-|[<-|[]]] [<-|[]]; right; eauto.
  - intros e v s' [= <-]. cbn. intros [= <- _]. split; [now left|]. intros t _ ->. reflexivity.
Qed.

(** match c { Color.red -> 0; Color.green -> 1 }, where the names are 70 and 71, the values 1 and 5. *)
Definition enum_world (e : nat) (s : log) : ev log :=
  match e with 2%nat => Val _ 1 s | _ => Val _ 5 s end.
Definition enum_match : mtch :=
  mk_match (Some 0%nat) false (KEnum [(70, 1); (71, 5)])
    [mk_case [CSel 70 2] false 0; mk_case [CSel 71 0] false 1].

Example enum_match_ok :
  exists n, run (fun z => z) log enum_world bodies made n enum_match (linear_match enum_match) 0 0 0 None []
            = Some (Finished _ [(101, -1)]).
Proof.
  apply (c123_first_case_that_fits_partial (fun z => z) log enum_world bodies made enum_match []).
  - reflexivity.
  - split.
    + intros c d [<-|[<-|[]]] [<-|[]]; cbn; intros v s [[= <-]|[[= <-]|[]]]; reflexivity.
    + intros c cs E _ d I.
      destruct cs as [|x [|y [|z cs]]]; cbn in E; try discriminate.
      injection E as _ <-. destruct I as [<-|[]]. cbn. eauto.
  - intros e c _ [<-|[<-|[]]]; discriminate.
  - intros e v s' [= <-]. cbn. intros [= <- _]. split; [exists 71; auto|]. intros t [].
Qed.

(** ** Where the full statement is false *)

(** A subject that is evaluated again for `is T v`.  With match v[next()] { is int x -> .. } the
    subject is no call itself: it is tested, then evaluated once more for the body; here the second
    evaluation gives a string, and the program stops with a type error. *)
Theorem c123_subject_evaluated_twice_refuted : exists m,
  accepted (fun z => z) m = true /\
  (forall e v s', subject m = Some e -> exprs e [] = Val _ v s' -> belongs made (kind m) v) /\
  meaning log exprs bodies made m [] = Finished _ [(100, 5); (1, 0)] /\
  exists n, run (fun z => z) log exprs bodies made n m (linear_match m) 0 0 0 None []
            = Some (WrongType _ [(1, 0); (1, 0)]).
Proof.
  exists (mk_match (Some 1%nat) false (KUnion [10; 20]) [mk_case [CIs 10] true 0; mk_case [CIs 20] false 1]).
  split; [reflexivity|]. split.
  - intros e v s' [= <-]. cbn. intros [= <- _]. now left.
  - split; [reflexivity|]. exists 20%nat. reflexivity.
Qed.
Print Assumptions c123_subject_evaluated_twice_refuted.

(** An enum { red = 1, green = 2 }, and a struct with a field `red` that holds green.
    match red { o.red -> 0; Color.green -> 1 } is taken to be complete, because the name `red`
    occurs, and runs the case of green. *)
Theorem c123_field_named_as_member_refuted : exists m,
  accepted (fun z => z) m = true /\
  (forall e v s', subject m = Some e -> exprs e [] = Val _ v s' -> belongs made (kind m) v) /\
  meaning log exprs bodies made m [] = Finished _ [] /\
  exists n, run (fun z => z) log exprs bodies made n m (linear_match m) 0 0 0 None []
            = Some (Finished _ [(101, -1)]).
Proof.
  exists (mk_match (Some 2%nat) false (KEnum [(70, 1); (71, 2)])
            [mk_case [CSel 70 3] false 0; mk_case [CSel 71 3] false 1]).
  split; [reflexivity|]. split.
  - intros e v s' [= <-]. cbn. intros [= <- _]. exists 70. now left.
  - split; [reflexivity|]. exists 20%nat. reflexivity.
Qed.
Print Assumptions c123_field_named_as_member_refuted.

(** The conditions of the last case are not evaluated: in match green { Color.red -> 0;
    f() | Color.green -> 1 } the function f is not called. *)
Theorem c123_last_condition_skipped_refuted : exists m,
  accepted (fun z => z) m = true /\
  (forall e v s', subject m = Some e -> exprs e [] = Val _ v s' -> belongs made (kind m) v) /\
  meaning log exprs bodies made m [] = Finished _ [(101, -1); (4, 0)] /\
  exists n, run (fun z => z) log exprs bodies made n m (linear_match m) 0 0 0 None []
            = Some (Finished _ [(101, -1)]).
Proof.
  exists (mk_match (Some 3%nat) false (KEnum [(70, 1); (71, 2)])
            [mk_case [CSel 70 2] false 0; mk_case [CExp 4; CSel 71 3] false 1]).
  split; [reflexivity|]. split.
  - intros e v s' [= <-]. cbn. intros [= <- _]. exists 71. right. now left.
  - split; [reflexivity|]. exists 20%nat. reflexivity.
Qed.
Print Assumptions c123_last_condition_skipped_refuted.
