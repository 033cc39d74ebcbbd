(** C112-C114: compiled statements, deferred code, errors. *)
From Verif Require Import Base Lin_model Lin_spec Lin_proof Lin_sim.
Local Open Scope nat_scope.

(** * C112 *)
Theorem c112_compiled_partial : forall W P b, patient W P -> ok P b = true ->
  exists depth code, cfun depth b = Ok code /\
    forall s o s', run W [] b s o s' ->
      computes W code s (meant o) s' /\
      (forall a s'', computes W code s a s'' -> a = meant o /\ s'' = s').
Proof.
  intros W P b HP Hok. destruct (cfun_can P b Hok) as (k & code & E). exists k, code. split; [exact E|].
  intros s o s' H. pose proof (cfun_ok W P k b code s o s' HP Hok E H) as X. split; [exact X|].
  intros a s'' Y. exact (computes_det _ _ _ _ _ _ _ Y X).
Qed.
Print Assumptions c112_compiled_partial.

(** The same for whatever code the compiler gives. *)
Theorem c112_any_code_partial : forall W P depth b code s o s', patient W P -> ok P b = true ->
  cfun depth b = Ok code -> run W [] b s o s' -> computes W code s (meant o) s'.
Proof. exact cfun_ok. Qed.
Print Assumptions c112_any_code_partial.

(** ** A world to try things in: operator 0 adds; nothing can be compared as floating point; function
    0 adds its argument to global 0 and gives it back; function 1 fails with its argument plus 100. *)
Definition w0 : world := mk_world
  (fun _ a b => a + b)%Z
  (fun _ _ => None)
  (fun f v g e => match f with
                  | 0 => (v, upd g 0 (Z.add (g 0) v), e)
                  | _ => (0%Z, g, match e with None => Some (v + 100)%Z | _ => e end)
                  end).
Definition p0 (f : nat) : bool := Nat.eqb f 0.
Definition s0 : state := mk_state (fun _ => 0%Z) (fun _ => 0%Z) [].

Lemma w0_patient : patient w0 p0.
Proof.
  intros f v g w g' e Hf H. destruct f; [|discriminate Hf]. cbn in *. injection H as -> ->. reflexivity.
Qed.

Fixpoint block_of (l : list stmt) : block := match l with [] => BNil | s :: l' => BCons s (block_of l') end.

(** for i = 0; i < 2; i = i + 1 { f(i) } ; return i *)
Definition loop_prog : block := block_of
  [SForT (Loc 0) (EInt 0) (ECmp KSigned LT (EVar (Loc 0)) (EInt 2)) (Loc 0) (EBin 0 (EVar (Loc 0)) (EInt 1))
     (block_of [SExpr (ECall 0 false (EVar (Loc 0)))]);
   SReturn (Some (EVar (Loc 0)))].
Lemma cmp_val : forall W k o a b s s1 s2 u v (t : bool), eval W a s (inl u) s1 -> eval W b s1 (inl v) s2 ->
  holds W k o u v = t -> eval W (ECmp k o a b) s (inl (b2z t)) s2.
Proof. intros W k o a b s s1 s2 u v t Ha Hb <-. econstructor; eassumption. Qed.
Example c112_hypotheses : patient w0 p0 /\ ok p0 loop_prog = true /\
  exists s', run w0 [] loop_prog s0 (OReturn (Some 2%Z)) s' /\ tr s' = [(0, 1%Z); (0, 0%Z)].
Proof.
  split; [exact w0_patient|]. split; [reflexivity|].
  eexists. split.
  - eapply R_step.
    + eapply X_fort; [apply E_int|].
      eapply L_update; [eapply (cmp_val w0 _ _ _ _ _ _ _ _ _ true); [apply E_var|apply E_int|reflexivity]| |left; reflexivity|eapply E_bin; [apply E_var|apply E_int]|].
      { eapply R_step; [eapply X_expr; eapply E_call; [apply E_var|reflexivity]|]. apply R_nil, D_nil. }
      eapply L_update; [eapply (cmp_val w0 _ _ _ _ _ _ _ _ _ true); [apply E_var|apply E_int|reflexivity]| |left; reflexivity|eapply E_bin; [apply E_var|apply E_int]|].
      { eapply R_step; [eapply X_expr; eapply E_call; [apply E_var|reflexivity]|]. apply R_nil, D_nil. }
      eapply L_end. eapply (cmp_val w0 _ _ _ _ _ _ _ _ _ false); [apply E_var|apply E_int|reflexivity].
    + eapply (R_stop w0 [] _ _ _ (OReturn (Some 2%Z))); [|discriminate|apply D_nil].
      apply (X_return w0 (EVar (Loc 0)) _ 2%Z). apply (E_var w0 (Loc 0)).
  - reflexivity.
Qed.

(** ** Running the machine *)
Fixpoint run_n (W : world) (code : list op) (n : nat) (m : mach) : mach :=
  match n with
  | O => m
  | S n' => match step W code m with Some m' => run_n W code n' m' | None => m end
  end.
Lemma steps_run_n : forall W code m m', steps W code m m' -> ended code m' ->
  forall n, ended code (run_n W code n m) -> run_n W code n m = m'.
Proof.
  intros W code m m' H. induction H as [m|m m1 m2 Hs H IH]; intros He n Hn.
  - destruct n as [|n]; [reflexivity|]. cbn [run_n]. unfold step. rewrite He. reflexivity.
  - destruct n as [|n]; cbn [run_n] in *.
    + unfold ended in Hn. unfold step in Hs. rewrite Hn in Hs. discriminate.
    + rewrite Hs in *. apply IH; assumption.
Qed.
Lemma not_computes : forall W code s a s' n,
  let m := run_n W code n (mk_mach 0 (fun _ => 0%Z) s None None) in
  ended code m -> answer_of m <> a -> ~ computes W code s a s'.
Proof.
  intros W code s a s' n m He Ha H. destruct (H (fun _ => 0%Z)) as (m' & S1 & F & A & _).
  rewrite (steps_run_n _ _ _ _ S1 F n He : m = m') in Ha. contradiction.
Qed.

Definition wrong (W : world) (b : block) (a : answer) : Prop :=
  exists code s o s', cfun 5 b = Ok code /\ run W [] b s o s' /\ meant o = a /\ ~ computes W code s (meant o) s'.

(** x = 1; defer { x = 2 }; return x   gives 2, not 1. *)
Theorem c112_return_after_defer_refuted :
  wrong w0 (block_of [SAssign (Loc 0) (EInt 1); SDefer (block_of [SAssign (Loc 0) (EInt 2)]);
                      SReturn (Some (EVar (Loc 0)))]) (AValue (Some 1%Z)).
Proof.
  eexists _, s0, (OReturn (Some 1%Z)), _. split; [reflexivity|]. split; [|split; [reflexivity|]].
  - eapply R_step; [eapply X_assign; apply E_int|]. apply R_defer.
    eapply R_stop; [apply (X_return w0 (EVar (Loc 0)) _ 1%Z); apply (E_var w0 (Loc 0))|discriminate|].
    eapply D_cons; [|apply D_nil]. eapply R_step; [eapply X_assign; apply E_int|]. apply R_nil, D_nil.
  - eapply (not_computes _ _ _ _ _ 30); vm_compute; [reflexivity|discriminate].
Qed.
Print Assumptions c112_return_after_defer_refuted.

(** return g + f(5)   where f adds 5 to g: the left operand is read after the call. *)
Theorem c112_operand_order_refuted :
  wrong w0 (block_of [SReturn (Some (EBin 0 (EVar (Glob 0)) (ECall 0 false (EInt 5))))]) (AValue (Some 5%Z)).
Proof.
  eexists _, s0, (OReturn (Some 5%Z)), _. split; [reflexivity|]. split; [|split; [reflexivity|]].
  - eapply R_stop; [|discriminate|apply D_nil]. apply (X_return w0 _ _ 5%Z).
    eapply (E_bin w0 0 _ _ _ _ _ 0%Z 5%Z); [apply (E_var w0 (Glob 0))|]. eapply E_call; [apply E_int|reflexivity].
  - eapply (not_computes _ _ _ _ _ 30); vm_compute; [reflexivity|discriminate].
Qed.
Print Assumptions c112_operand_order_refuted.

(** if a < b { return 1 } else { return 2 }   with a NaN takes the first branch. *)
Theorem c112_if_nan_refuted :
  wrong w0 (block_of [SIf (ECmp KFloat LT (EVar (Loc 0)) (EVar (Loc 1)))
                        (block_of [SReturn (Some (EInt 1))]) (block_of [SReturn (Some (EInt 2))])]) (AValue (Some 2%Z)).
Proof.
  eexists _, s0, (OReturn (Some 2%Z)), _. split; [reflexivity|]. split; [|split; [reflexivity|]].
  - eapply R_stop; [|discriminate|apply D_nil].
    eapply X_if; [eapply (cmp_val w0 _ _ _ _ _ _ _ _ _ false); [apply E_var|apply E_var|reflexivity]|].
    eapply R_stop; [|discriminate|apply D_nil]. apply X_return. apply E_int.
  - eapply (not_computes _ _ _ _ _ 30); vm_compute; [reflexivity|discriminate].
Qed.
Print Assumptions c112_if_nan_refuted.

(** * C113 *)
(** defer f1(v1); defer f2(v2); ... rest *)
Fixpoint deferring (l : list (nat * Z)) (rest : block) : block :=
  match l with
  | [] => rest
  | (f, v) :: l' => BCons (SDefer (BCons (SExpr (ECall f false (EInt v))) BNil)) (deferring l' rest)
  end.
Definition never_fails (W : world) (P : nat -> bool) : Prop :=
  forall f v g, P f = true -> exists w g', w_call W f v g None = (w, g', None).

Lemma defers_calls : forall W P l s, never_fails W P -> Forall (fun fv => P (fst fv) = true) l ->
  exists s', defers W (map (fun fv => BCons (SExpr (ECall (fst fv) false (EInt (snd fv)))) BNil) l) s s' /\
    tr s' = rev l ++ tr s.
Proof.
  intros W P l. induction l as [|(f & v) l IH]; intros s Hn Hl; [exists s; split; [constructor|reflexivity]|].
  inversion Hl as [|? ? Hf Hr]; subst. cbn [fst] in Hf. destruct (Hn f v (glob s) Hf) as (w & g' & Hw).
  destruct (IH (called s f v g') Hn Hr) as (s' & Hd & Ht). exists s'. split.
  - cbn [map]. eapply D_cons; [|exact Hd]. cbn [fst snd].
    eapply R_step; [eapply X_expr; eapply E_call; [apply E_int|exact Hw]|]. apply R_nil, D_nil.
  - rewrite Ht. cbn [rev called tr]. rewrite <- app_assoc. reflexivity.
Qed.
Lemma run_deferring : forall W l ds b s o s',
  run W (rev (map (fun fv => BCons (SExpr (ECall (fst fv) false (EInt (snd fv)))) BNil) l) ++ ds) b s o s' ->
  run W ds (deferring l b) s o s'.
Proof.
  intros W l. induction l as [|(f & v) l IH]; intros ds b s o s' H; [exact H|].
  cbn [deferring]. apply R_defer. apply IH. cbn [map rev fst snd] in H. rewrite <- app_assoc in H. exact H.
Qed.

(** However the statement after them ends - normally, by return, by an error - the deferred calls
    are made after it, each exactly once, the last one registered first.  ([tr] has the latest call
    first.) *)
Theorem c113_reverse_order_partial : forall W P l x depth code s o s1, patient W P -> never_fails W P ->
  ok P (deferring l (BCons x BNil)) = true -> Forall (fun fv => P (fst fv) = true) l ->
  cfun depth (deferring l (BCons x BNil)) = Ok code -> exec W x s o s1 ->
  exists s', computes W code s (meant o) s' /\ tr s' = l ++ tr s1.
Proof.
  intros W P l x depth code s o s1 HP Hn Hok Hl E Hx.
  assert (Hl' : Forall (fun fv => P (fst fv) = true) (rev l)) by (apply Forall_rev; exact Hl).
  destruct (defers_calls W P (rev l) s1 Hn Hl') as (s' & Hd & Ht). rewrite rev_involutive in Ht.
  exists s'. split; [|exact Ht]. eapply cfun_ok; try eassumption. apply run_deferring. rewrite app_nil_r.
  rewrite map_rev in Hd.
  assert (Ho : o = ONormal \/ o <> ONormal) by (destruct o; auto; right; discriminate).
  destruct Ho as [->|Ho].
  - eapply R_step; [exact Hx|]. apply R_nil. exact Hd.
  - eapply R_stop; eassumption.
Qed.
Print Assumptions c113_reverse_order_partial.

Example c113_hypotheses : patient w0 p0 /\ never_fails w0 p0 /\
  ok p0 (deferring [(0, 1%Z); (0, 2%Z)] (block_of [SReturn (Some (ECall 1 true (EInt 7)))])) = true /\
  exec w0 (SReturn (Some (ECall 1 true (EInt 7)))) s0 (OError 107%Z) (called s0 1 7%Z (glob s0)).
Proof.
  split; [exact w0_patient|]. split; [|split; [reflexivity|]].
  - intros f v g Hf. destruct f; [|discriminate Hf]. cbn. eauto.
  - eapply X_return1. eapply E_call_err; [apply E_int|reflexivity].
Qed.

(** A deferred call that can fail, and a return: the compiler never ends. *)
Definition failing : block := block_of [SExpr (ECall 1 true (EInt 0))].
Lemma failing_loops : forall k c n, c_catch c = [] -> pending c MAll = [failing] -> cbody k c failing n = NoFuel.
Proof.
  induction k as [|k IH]; intros c n Hc Hp; [reflexivity|]. cbn [cbody failing block_of clist cstmt cexpr is_var].
  unfold has_error, unwind. rewrite (pending_all_catch (enter c)) by exact Hc. rewrite pending_enter, Hp.
  cbn [bind is_var emit_all]. rewrite IH; [reflexivity|exact Hc|rewrite pending_enter; exact Hp].
Qed.
Theorem c113_failing_defer_refuted : exists b, forall depth, cfun depth b = NoFuel.
Proof.
  exists (block_of [SDefer failing; SReturn None]). intros depth. destruct depth as [|k]; [reflexivity|].
  unfold cfun. cbn [cbody block_of clist cstmt bind register enter c_scopes]. unfold unwind.
  match goal with |- context [pending ?c MAll] => change (pending c MAll) with [failing] end.
  cbn [emit_all]. rewrite failing_loops; reflexivity.
Qed.
Print Assumptions c113_failing_defer_refuted.

(** * C114 *)
(** An error raised by a call anywhere in the body of a try goes to its catch, with its code. *)
Theorem c114_caught_partial : forall W P body x handler depth code s c s1 o s', patient W P ->
  ok P (block_of [STry body x handler]) = true -> cfun depth (block_of [STry body x handler]) = Ok code ->
  run W [] body s (OError c) s1 -> run W [] handler (set_loc s1 x c) o s' ->
  computes W code s (meant o) s'.
Proof.
  intros W P body x handler depth code s c s1 o s' HP Hok E H1 H2. eapply cfun_ok; try eassumption.
  pose proof (X_catch W body x handler s c s1 o s' H1 H2) as X.
  assert (Ho : o = ONormal \/ o <> ONormal) by (destruct o; auto; right; discriminate).
  destruct Ho as [->|Ho]; [eapply R_step; [exact X|]; apply R_nil, D_nil|eapply R_stop; [exact X|exact Ho|apply D_nil]].
Qed.
Print Assumptions c114_caught_partial.

(** An error that is not caught leaves the function, with its code; and a function whose statements
    end without an error leaves none. *)
Theorem c114_uncaught_partial : forall W P body depth code s o s', patient W P ->
  ok P body = true -> cfun depth body = Ok code -> run W [] body s o s' ->
  forall c, (exists s'', computes W code s (AError c) s'') <-> o = OError c.
Proof.
  intros W P body depth code s o s' HP Hok E H c. pose proof (cfun_ok _ _ _ _ _ _ _ _ HP Hok E H) as X. split.
  - intros (s'' & Y). destruct (computes_det _ _ _ _ _ _ _ X Y) as (D & _). destruct o; try discriminate D. cbn in D. congruence.
  - intros ->. exists s'. exact X.
Qed.
Print Assumptions c114_uncaught_partial.

Definition try_prog : block := block_of
  [STry (block_of [SDefer (block_of [SExpr (ECall 0 false (EInt 1))]);
                   SIf (ECmp KSigned EQ (EVar (Loc 1)) (EInt 0))
                     (block_of [SExpr (ECall 1 true (EInt 7))]) BNil]) 0
        (block_of [SReturn (Some (EBin 0 (EVar (Loc 0)) (EInt 1)))])].
Example c114_hypotheses : ok p0 try_prog = true /\ (exists code, cfun 3 try_prog = Ok code) /\
  exists s', run w0 [] try_prog s0 (OReturn (Some 108%Z)) s' /\ tr s' = [(0, 1%Z); (1, 7%Z)].
Proof.
  split; [reflexivity|]. split; [eexists; vm_compute; reflexivity|]. eexists. split.
  - eapply R_stop; [|discriminate|apply D_nil]. eapply X_catch.
    + apply R_defer. eapply R_stop; [|discriminate|].
      * eapply X_if; [eapply (cmp_val w0 _ _ _ _ _ _ _ _ _ true); [apply E_var|apply E_int|reflexivity]|].
        eapply R_stop; [eapply X_expr1; eapply E_call_err; [apply E_int|reflexivity]|discriminate|apply D_nil].
      * eapply D_cons; [|apply D_nil]. eapply R_step; [eapply X_expr; eapply E_call; [apply E_int|reflexivity]|]. apply R_nil, D_nil.
    + eapply R_stop; [|discriminate|apply D_nil]. apply X_return.
      eapply (E_bin w0 0 _ _ _ _ _ 107%Z 1%Z); [apply (E_var w0 (Loc 0))|apply E_int].
  - reflexivity.
Qed.

(** try { throw 7 } catch e { return 1 }   leaves the function with the error. *)
Theorem c114_throw_in_try_refuted :
  wrong w0 (block_of [STry (block_of [SThrow (EInt 7)]) 0 (block_of [SReturn (Some (EInt 1))])]) (AValue (Some 1%Z)).
Proof.
  eexists _, s0, (OReturn (Some 1%Z)), _. split; [reflexivity|]. split; [|split; [reflexivity|]].
  - eapply R_stop; [|discriminate|apply D_nil]. eapply X_catch.
    + eapply R_stop; [eapply X_throw; apply E_int|discriminate|apply D_nil].
    + eapply R_stop; [|discriminate|apply D_nil]. apply X_return. apply E_int.
  - eapply (not_computes _ _ _ _ _ 30); vm_compute; [reflexivity|discriminate].
Qed.
Print Assumptions c114_throw_in_try_refuted.

(** defer { h() }; throw 5   where h is   try { f(1) } catch e { }   and f cannot fail: the error 5
    disappears, because h finds it and takes it for an error of f. *)
Definition callee : block := block_of [STry (block_of [SExpr (ECall 0 true (EInt 1))]) 0 BNil].
Definition callee_code : list op := match cfun 3 callee with Ok c => c | _ => [] end.
Definition w1 : world := mk_world (w_bin w0) (w_fcmp w0)
  (fun f v g e => match f with
                  | 2 => let m := run_n w0 callee_code 30 (mk_mach 0 (fun _ => 0%Z) (mk_state (fun _ => 0%Z) g []) e None) in
                         (0%Z, glob (m_st m), m_err m)
                  | _ => w_call w0 f v g e
                  end).
Theorem c114_error_lost_in_defer_refuted :
  wrong w1 (block_of [SDefer (block_of [SExpr (ECall 2 false (EInt 0))]); SThrow (EInt 5)]) (AError 5%Z).
Proof.
  eexists _, s0, (OError 5%Z), _. split; [reflexivity|]. split; [|split; [reflexivity|]].
  - apply R_defer. eapply R_stop; [eapply X_throw; apply E_int|discriminate|].
    eapply D_cons; [|apply D_nil]. eapply R_step; [eapply X_expr; eapply E_call; [apply E_int|]|apply R_nil, D_nil].
    vm_compute. reflexivity.
  - eapply (not_computes _ _ _ _ _ 30); vm_compute; [reflexivity|discriminate].
Qed.
Print Assumptions c114_error_lost_in_defer_refuted.
