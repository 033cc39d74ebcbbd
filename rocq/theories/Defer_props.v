(** C125: deferred blocks, errors and the ways out of a block. *)
From Verif Require Import Base Defer_model Defer_spec Defer_proof.
Import ListNotations.
Open Scope Z_scope.

(** Every function is compiled to code that does what its statements mean: the blocks of defer are
    run when the block they stand in is left, the last one first, whatever the way out; break,
    continue, ret, return go where they say; an error goes to the innermost catch around it, and out
    of the function when there is none.  [m] bounds the rounds of loops on both sides and is any
    number.  Missing: deferred blocks that can fail ([fine]), a deferred block that changes a
    variable that is returned by name (the hypothesis on [D] and [K]), and throw inside a try of the
    same function ([fine]); all are needed, see below. *)
Theorem c125_ways_out_partial :
  forall (st : Type) act cond call in_range range_error val var bindv (D : body -> Prop) (K : Z -> Prop) b,
    (forall x d, K x -> D d -> forall n s s',
      exec_body st act cond call in_range range_error val var bindv n false d s = Some (ONorm st s') -> var x s' = var x s) ->
    fine_body D K false false false b ->
    exists f0, forall f, (f0 <= f)%nat -> exists c, linear_fndef f b = Some c /\
      forall m s, run_fn st act cond call in_range range_error val var bindv m c s
                  = exec_fn st act cond call in_range range_error val var bindv m b s.
Proof. intros * H F. exact (fn_ok st act cond call in_range range_error val var bindv D K H b F). Qed.
Print Assumptions c125_ways_out_partial.

(** ** A small world: what was done, and a variable. *)
Definition w : Type := list Z * Z.
Definition note (a : Z) (s : w) : w := (fst s ++ [a], snd s).
Definition wact (a : Z) (s : w) : w := if a =? 50 then (fst s, 2) else note a s.
Definition wcond (c : Z) (s : w) : bool := Z.of_nat (length (fst s)) <? c.
(** Calls above 100 fail with their number. *)
Definition wcall (a : Z) (s : w) : w * option Z := (note a s, if 100 <? a then Some a else None).
Definition wrange (a : Z) (s : w) : bool := a <? 10.
Definition wval (a : Z) (s : w) : Z := a.
Definition wvar (a : Z) (s : w) : Z := snd s.
Definition wbind (x : Z) (s : w) : w := note (- x) s.
Definition wrun := run_fn w wact wcond wcall wrange 404 wval wvar wbind.
Definition wexec := exec_fn w wact wcond wcall wrange 404 wval wvar wbind.

Fixpoint block (l : list stmt) : body := match l with [] => Nil | t :: l => Cons t (block l) end.
Definition compiled (f : nat) (b : body) (m : nat) (s : w) : option (fres w) :=
  match linear_fndef f b with Some c => wrun m c s | None => None end.

(** `defer { f() catch e { } }; throw 7`, and f does not fail: the error is lost, the caller goes on
    as if nothing had happened, and the catch is run although f did not fail. *)
Theorem c125_error_lost_refuted :
  exists b, compiled 20 b 20 ([], 0) = Some (Returned _ None ([1; -7; 3], 0)) /\
            wexec 20 b ([], 0) = Some (Threw _ 7 ([1], 0)).
Proof. exists (block [Defer (block [Catch 1 (block [Act 3])]); Throw 7]). split; reflexivity. Qed.
Print Assumptions c125_error_lost_refuted.

(** `defer { println(v[0]) }; return`: the compiler does not come back. *)
Definition chk : body := block [Chk 0].
Lemma emit_none lb d ds : In d ds -> lb d = None -> emit lb ds = None.
Proof.
  induction ds as [|x ds IH]; intros I E; [destruct I|]. cbn. destruct I as [->|I]; [now rewrite E|].
  rewrite (IH I E). now destruct (lb x).
Qed.
Lemma chk_none f : forall k, ncatch k = 0%nat -> In chk (flat_map defers (scopes k)) -> linear_body f k chk = None.
Proof.
  induction f as [f IH] using lt_wf_ind. intros k N I.
  destruct f as [|f]; [reflexivity|]. destruct f as [|f]; [reflexivity|]. destruct f as [|f]; [reflexivity|].
  change (linear_body (S (S (S f))) k chk) with
    (seq (option_map (TChk 0 (Nat.ltb 0 (ncatch k)))
       (seq (emit (linear_body f (defer_scope_enter k)) (unwind_scopes MCatch (ncatch k) (defer_scope_enter k)))
            (Some (TBal (error_target (defer_scope_enter k)))))) (linear_stmts (S f) (defer_scope_enter k) Nil)).
  rewrite (emit_none _ chk); [reflexivity| |].
  - rewrite N. unfold unwind_scopes, defer_scope_enter. cbn [scopes filter scope_need_unwind Nat.leb flat_map defers app].
    revert I. clear. induction (scopes k) as [|x l IHl]; cbn; [auto|]. rewrite !in_app_iff. intuition.
  - apply IH; [lia|exact N|exact I].
Qed.

Theorem c125_checked_index_in_defer_refuted :
  exists b, (forall f, linear_fndef f b = None) /\ wexec 20 b ([], 0) = Some (Returned _ None ([], 0)).
Proof.
  exists (block [Defer chk; Return RNone]). split; [|reflexivity].
  intros f. unfold linear_fndef.
  destruct f as [|f]; [reflexivity|]. destruct f as [|f]; [reflexivity|]. destruct f as [|f]; [reflexivity|].
  destruct f as [|f]; [reflexivity|].
  change (linear_body (S (S (S (S f)))) (Ctx [] 0 0 0 0) (block [Defer chk; Return RNone])) with
    (let k := Ctx [Scope [chk] 0 0 0 0] 0 0 0 0 in
     seq (option_map (TRet RNone) (emit (linear_body f k) [chk])) (linear_stmts (S f) k Nil)).
  cbv zeta. rewrite (emit_none _ chk); [reflexivity|now left|]. apply chk_none; [reflexivity|now left].
Qed.
Print Assumptions c125_checked_index_in_defer_refuted.

(** `defer { A }; defer { f() }` with an f that fails: A is not run. *)
Theorem c125_failing_defer_refuted :
  exists b, compiled 20 b 20 ([], 0) = Some (Threw _ 101 ([5; 101], 0)) /\
            wexec 20 b ([], 0) = Some (Threw _ 101 ([5; 101; 1], 0)).
Proof. exists (block [Defer (block [Act 1]); Defer (block [Call 101]); Act 5]). split; reflexivity. Qed.
Print Assumptions c125_failing_defer_refuted.

(** `try { throw 7 } catch e { A }`: the function is left, the catch is not run. *)
Theorem c125_throw_in_try_refuted :
  exists b, compiled 20 b 20 ([], 0) = Some (Threw _ 7 ([], 0)) /\
            wexec 20 b ([], 0) = Some (Returned _ None ([-7; 1; 5], 0)).
Proof. exists (block [Try (block [Throw 7]) (block [Act 1]); Act 5]). split; reflexivity. Qed.
Print Assumptions c125_throw_in_try_refuted.

(** `x = 1; defer { x = 2 }; return x` returns 2. *)
Theorem c125_returned_variable_refuted :
  exists b, compiled 20 b 20 ([], 1) = Some (Returned _ (Some 2) ([], 2)) /\
            wexec 20 b ([], 1) = Some (Returned _ (Some 1) ([], 2)).
Proof. exists (block [Defer (block [Act 50]); Return (RVar 0)]). split; reflexivity. Qed.
Print Assumptions c125_returned_variable_refuted.

(** ** A case *)

Definition d1 : body := block [Act 1; Defer (block [Act 2])].
Definition d2 : body := block [If 1 (block [Act 3]) (block [Act 4])].
Definition prog : body := block
  [ Defer d1;
    For 12 9 (block
      [ Defer d2;
        Try (block [Defer d1; Chk 20; Act 5])
            (block [Act 6; If 6 (block [Ret]) Nil; Act 7]);
        Catch 102 (block [If 14 (block [Continue]) (block [Break])]) ]);
    Call 10;
    BlockE (block [Defer d2; If 100 (block [Ret]) Nil; Act 8]);
    If 1000 (block [Defer d1; Return (RVar 0)]) Nil;
    Throw 77 ].

Example c125_case :
  let D := fun d => d = d1 \/ d = d2 in
  let K := fun x => x = 0 in
  (forall x d, K x -> D d -> forall n s s',
     exec_body w wact wcond wcall wrange 404 wval wvar wbind n false d s = Some (ONorm w s') -> wvar x s' = wvar x s) /\
  fine_body D K false false false prog /\
  wexec 50 prog ([], 33)
  = Some (Returned _ (Some 33) ([1; 2; -404; 6; 102; -102; 4; 9; 1; 2; -404; 6; 7; 102; -102; 4; 10; 4; 1; 2; 1; 2], 33)).
Proof.
  cbv zeta. split; [|split; [cbn; intuition|reflexivity]].
  intros x d _ [->| ->] n s s' E; cbn in E.
  - injection E as <-. reflexivity.
  - destruct (wcond 1 s); injection E as <-; reflexivity.
Qed.
