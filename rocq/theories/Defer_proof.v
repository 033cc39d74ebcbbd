(** The code does what the statements mean. *)
From Verif Require Import Base Defer_model Defer_spec.
Import ListNotations.
Open Scope Z_scope.

Scheme stmt_mut := Induction for stmt Sort Prop
  with body_mut := Induction for body Sort Prop.
Combined Scheme stmt_body_ind from stmt_mut, body_mut.

Definition is_defer (t : stmt) : bool := match t with Defer _ => true | _ => false end.

Section Proof.
  Variable st : Type.
  Variable act : Z -> st -> st.
  Variable cond : Z -> st -> bool.
  Variable call : Z -> st -> st * option Z.
  Variable in_range : Z -> st -> bool.
  Variable range_error : Z.
  Variable val : Z -> st -> Z.
  Variable var : Z -> st -> Z.
  Variable bindv : Z -> st -> st.
  Variable D : body -> Prop.
  Variable K : Z -> Prop.

  Notation run := (run st act cond call in_range range_error val var bindv).
  Notation exec := (exec st act cond call in_range range_error val var bindv).
  Notation exec_body := (exec_body st act cond call in_range range_error val var bindv).
  Notation RNorm := (RNorm st).
  Notation RGoto := (RGoto st).
  Notation RDead := (RDead st).
  Notation ONorm := (ONorm st).
  Notation OBrk := (OBrk st).
  Notation OCont := (OCont st).
  Notation ORet := (ORet st).
  Notation OReturn := (OReturn st).
  Notation OErr := (OErr st).
  Notation ODead := (ODead st).

  Definition obind {A B} (o : option A) (f : A -> option B) : option B :=
    match o with Some a => f a | None => None end.

  (** The effect of a deferred block. *)
  Definition qexec (n : nat) (d : body) (s : st) : option st :=
    match exec_body n false d s with Some (Defer_spec.ONorm _ s') => Some s' | _ => None end.
  Fixpoint unw (n : nat) (ds : list body) (s : st) : option st :=
    match ds with [] => Some s | d :: ds => obind (qexec n d s) (unw n ds) end.

  (** The equations of the two recursions. *)
  Lemma exec_if n ca c b1 b2 s : exec n ca (If c b1 b2) s = if cond c s then exec_body n ca b1 s else exec_body n ca b2 s.
  Proof. reflexivity. Qed.
  Lemma exec_for n ca c u b s : exec n ca (For c u b) s = rounds st n (cond c) (act u) (exec_body n ca b) s.
  Proof. reflexivity. Qed.
  Lemma exec_block n ca b s : exec n ca (BlockE b) s = out_of_block st (exec_body n ca b s).
  Proof. reflexivity. Qed.
  Lemma exec_try n ca b1 b2 s : exec n ca (Try b1 b2) s =
    match exec_body n true b1 s with
    | Some (Defer_spec.OErr _ x s') => out_of_block st (exec_body n ca b2 (bindv x s'))
    | o => o
    end.
  Proof. reflexivity. Qed.
  Lemma exec_catch n ca a b s : exec n ca (Catch a b) s =
    let '(s', r) := call a s in
    match r with Some x => out_of_block st (exec_body n ca b (bindv x s')) | None => Some (ONorm s') end.
  Proof. reflexivity. Qed.
  Lemma exec_defer n ca d b s : exec_body n ca (Cons (Defer d) b) s = finally st (exec_body n ca b s) (exec_body n ca d).
  Proof. reflexivity. Qed.
  Lemma lin_if f k c b1 b2 : linear_stmt (S f) k (If c b1 b2) =
    match linear_body f k b1, linear_body f k b2 with Some c1, Some c2 => Some (TIf c c1 c2) | _, _ => None end.
  Proof. reflexivity. Qed.
  Lemma lin_for f k c u b : linear_stmt (S f) k (For c u b) =
    option_map (TLoop (S (nbreak k)) (S (ncontinue k)) c u) (linear_body f (in_loop k) b).
  Proof. reflexivity. Qed.
  Lemma lin_block f k b : linear_stmt (S f) k (BlockE b) = option_map (TRetBlock (S (nret k))) (linear_body f (in_ret k) b).
  Proof. reflexivity. Qed.
  Lemma lin_try f k b1 b2 : linear_stmt (S f) k (Try b1 b2) =
    match linear_body f (in_catch k) b1, linear_body f (in_ret k) b2 with
    | Some c1, Some c2 => Some (TCatch (S (ncatch k)) c1 (TRetBlock (S (nret k)) (Seq TRemove c2)))
    | _, _ => None
    end.
  Proof. reflexivity. Qed.
  Lemma lin_catch f k a b : linear_stmt (S f) k (Catch a b) =
    match linear_stmt f (in_catch k) (Call a), linear_body f (in_ret k) b with
    | Some c1, Some c2 => Some (TCatch (S (ncatch k)) c1 (TRetBlock (S (nret k)) (Seq TRemove c2)))
    | _, _ => None
    end.
  Proof. reflexivity. Qed.
  Lemma lin_call f k a : linear_stmt (S f) k (Call a) =
    seq (Some (TCall a)) (option_map THasError
      (seq (emit (linear_body f k) (unwind_scopes MCatch (ncatch k) k)) (Some (TBal (error_target k))))).
  Proof. reflexivity. Qed.
  Lemma lin_chk f k a : linear_stmt (S f) k (Chk a) =
    option_map (TChk a (Nat.ltb 0 (ncatch k)))
      (seq (emit (linear_body f k) (unwind_scopes MCatch (ncatch k) k)) (Some (TBal (error_target k)))).
  Proof. reflexivity. Qed.
  Lemma lin_nil f k : linear_stmts (S f) k Nil =
    emit (linear_body f (defer_scope_pop k)) (match scopes k with [] => [] | sc :: _ => defers sc end).
  Proof. reflexivity. Qed.
  Lemma run_catch n d c h s e v : run n (TCatch d c h) s e v =
    match run n c s e v with
    | Some (Defer_model.RGoto _ l s e v) => if label_eqb l (LCatch d) then run n h s e v else Some (RGoto l s e v)
    | o => o
    end.
  Proof. reflexivity. Qed.
  Lemma run_seq n c1 c2 s e v : run n (Seq c1 c2) s e v =
    match run n c1 s e v with Some (Defer_model.RNorm _ s e v) => run n c2 s e v | o => o end.
  Proof. reflexivity. Qed.

  Lemma unw_app n a b s : unw n (a ++ b) s = obind (unw n a s) (unw n b).
  Proof. revert s. induction a as [|d a IH]; intros s; cbn; [reflexivity|]. destruct (qexec n d s); cbn; auto. Qed.

  (** ** Quiet blocks *)

  Lemma rounds_quiet m c u (f g : st -> option (end_ st)) :
    (forall s, f s = g s /\ (f s = None \/ exists s', f s = Some (ONorm s'))) ->
    forall s, rounds st m c u f s = rounds st m c u g s /\
      (rounds st m c u f s = None \/ exists s', rounds st m c u f s = Some (ONorm s')).
  Proof.
    intros H. induction m as [|m IH]; intros s; cbn; [auto|].
    destruct (c s); [|eauto]. destruct (H s) as (<- & [->|(s' & ->)]); [auto|apply IH].
  Qed.

  Lemma body_cons n ca t b s : is_defer t = false ->
    exec_body n ca (Cons t b) s = match exec n ca t s with Some (Defer_spec.ONorm _ s') => exec_body n ca b s' | o => o end.
  Proof. destruct t; try discriminate; reflexivity. Qed.

  Definition qe (n : nat) (b : body) : Prop := forall ca s, exec_body n ca b s = exec_body n false b s /\
       (exec_body n false b s = None \/ exists s', exec_body n false b s = Some (ONorm s')).

  Lemma quiet_exec n :
    (forall t, quiet t = true -> match t with Defer d => qe n d | _ => forall ca s, exec n ca t s = exec n false t s /\
       (exec n false t s = None \/ exists s', exec n false t s = Some (ONorm s')) end) /\
    (forall b, quiet_body b = true -> qe n b).
  Proof.
    apply stmt_body_ind; cbn [quiet quiet_body]; try discriminate.
    - intros a _ ca s. cbn. eauto.
    - auto.
    - intros c b1 IH1 b2 IH2 Q ca s. apply andb_true_iff in Q as (Q1 & Q2). rewrite !exec_if.
      destruct (cond c s); [now apply IH1|now apply IH2].
    - intros c u b IH Q ca s. rewrite !exec_for.
      assert (H : forall s, exec_body n false b s = exec_body n ca b s /\
        (exec_body n false b s = None \/ exists s', exec_body n false b s = Some (ONorm s')))
        by (intros s0; destruct (IH Q ca s0) as (-> & ?); auto).
      destruct (rounds_quiet n (cond c) (act u) _ _ H s) as (E & R). split; [now symmetry|exact R].
    - intros b IH Q ca s. rewrite !exec_block. destruct (IH Q ca s) as (-> & [->|(s' & ->)]); cbn; eauto.
    - intros _ ca s. cbn. eauto.
    - intros t IHt b IHb Q ca s. apply andb_true_iff in Q as (Q1 & Q2). specialize (IHt Q1).
      destruct (is_defer t) eqn:T.
      + destruct t; try discriminate. rewrite !exec_defer. destruct (IHb Q2 ca s) as (-> & [->|(s' & ->)]); cbn; [auto|].
        destruct (IHt ca s') as (-> & [->|(s2 & ->)]); eauto.
      + rewrite !body_cons by exact T.
        assert (H : exec n ca t s = exec n false t s /\ (exec n false t s = None \/ exists s', exec n false t s = Some (ONorm s')))
          by (destruct t; try discriminate; apply IHt).
        destruct H as (-> & [->|(s' & ->)]); [auto|]. now apply IHb.
  Qed.

  Lemma quiet_qexec n d ca s : quiet_body d = true -> exec_body n ca d s = option_map ONorm (qexec n d s).
  Proof.
    intros Q. destruct (proj2 (quiet_exec n) d Q ca s) as (-> & H). unfold qexec.
    destruct H as [->|(s' & ->)]; reflexivity.
  Qed.

  (** ** The code of a quiet block, anywhere *)

  Definition qx (n : nat) (t : stmt) (s : st) : option st :=
    match exec n false t s with Some (Defer_spec.ONorm _ s') => Some s' | _ => None end.
  Definition good (d : body) : Prop := forall k, exists f0, forall f, (f0 <= f)%nat -> exists c,
    linear_body f k d = Some c /\
    forall n s e v, run n c s e v = option_map (fun s' => RNorm s' e v) (qexec n d s).
  Definition good_stmt (t : stmt) : Prop := forall k, exists f0, forall f, (f0 <= f)%nat -> exists c,
    linear_stmt f k t = Some c /\
    forall n s e v, run n c s e v = option_map (fun s' => RNorm s' e v) (qx n t s).

  Lemma emit_good ds k : Forall good ds -> exists f0, forall f, (f0 <= f)%nat -> exists c,
    emit (linear_body f k) ds = Some c /\
    forall n s e v, run n c s e v = option_map (fun s' => RNorm s' e v) (unw n ds s).
  Proof.
    induction 1 as [|d ds H _ (f1 & IH)].
    - exists 0%nat. intros f _. exists Skip. split; reflexivity.
    - destruct (H k) as (f2 & H2). exists (Nat.max f1 f2). intros f F.
      destruct (H2 f ltac:(lia)) as (c1 & E1 & R1). destruct (IH f ltac:(lia)) as (c2 & E2 & R2).
      exists (Seq c1 c2). cbn [emit]. rewrite E1, E2. split; [reflexivity|]. intros n s e v. cbn. rewrite R1.
      destruct (qexec n d s); cbn; [apply R2|reflexivity].
  Qed.

  Definition good_list (b : body) : Prop := forall k sc rest, scopes k = sc :: rest -> Forall good (defers sc) ->
    exists f0, forall f, (f0 <= f)%nat -> exists c,
    linear_stmts f k b = Some c /\
    forall n s e v, run n c s e v = option_map (fun s' => RNorm s' e v) (obind (qexec n b s) (unw n (defers sc))).

  Lemma list_good b : good_list b -> good b.
  Proof.
    intros H k. destruct (H (defer_scope_enter k) _ (scopes k) eq_refl (Forall_nil _)) as (f0 & G).
    exists (S f0). intros f F. destruct f as [|f]; [lia|]. destruct (G f ltac:(lia)) as (c & E & R).
    exists c. split; [exact E|]. intros n s e v. rewrite R. cbn [defers unw]. now destruct (qexec n b s).
  Qed.

  Lemma rloop_quiet m d d' c u once (q : st -> option (end_ st)) :
    (forall s, q s = None \/ exists s', q s = Some (ONorm s')) ->
    (forall s e v, once s e v = option_map (fun s' => RNorm s' e v)
       (match q s with Some (Defer_spec.ONorm _ s') => Some s' | _ => None end)) ->
    forall s e v, rloop st m d d' c u once s e v = option_map (fun s' => RNorm s' e v)
       (match rounds st m c u q s with Some (Defer_spec.ONorm _ s') => Some s' | _ => None end).
  Proof.
    intros Q H. induction m as [|m IH]; intros s e v; cbn; [reflexivity|].
    destruct (c s); [|reflexivity]. rewrite H. destruct (Q s) as [->|(s' & ->)]; cbn; [reflexivity|apply IH].
  Qed.

  Lemma qexec_cons n t b s : is_defer t = false -> qexec n (Cons t b) s = obind (qx n t s) (qexec n b).
  Proof.
    intros T. unfold qexec, qx. rewrite body_cons by exact T.
    destruct (exec n false t s) as [[]|]; reflexivity.
  Qed.

  Lemma linear_cons f k t b : is_defer t = false ->
    linear_stmts (S f) k (Cons t b) = seq (linear_stmt f k t) (linear_stmts f k b).
  Proof. destruct t; try discriminate; reflexivity. Qed.

  Lemma quiet_good :
    (forall t, quiet t = true -> match t with Defer d => good d | _ => good_stmt t end) /\
    (forall b, quiet_body b = true -> good_list b).
  Proof.
    apply stmt_body_ind; cbn [quiet quiet_body]; try discriminate.
    - intros a _ k. exists 1%nat. intros f F. destruct f as [|f]; [lia|]. exists (TAct a). split; reflexivity.
    - intros b IH Q. apply list_good. auto.
    - intros c b1 IH1 b2 IH2 Q k. apply andb_true_iff in Q as (Q1 & Q2).
      destruct (list_good _ (IH1 Q1) k) as (f1 & G1). destruct (list_good _ (IH2 Q2) k) as (f2 & G2).
      exists (S (Nat.max f1 f2)). intros f F. destruct f as [|f]; [lia|].
      destruct (G1 f ltac:(lia)) as (c1 & E1 & R1). destruct (G2 f ltac:(lia)) as (c2 & E2 & R2).
      exists (TIf c c1 c2). rewrite lin_if, E1, E2. split; [reflexivity|]. intros n s e v.
      cbn [Defer_model.run]. unfold qx. rewrite exec_if. destruct (cond c s); [apply R1|apply R2].
    - intros c u b IH Q k. destruct (list_good _ (IH Q) (in_loop k)) as (f1 & G1).
      exists (S f1). intros f F. destruct f as [|f]; [lia|].
      destruct (G1 f ltac:(lia)) as (c1 & E1 & R1).
      exists (TLoop (S (nbreak k)) (S (ncontinue k)) c u c1). rewrite lin_for, E1. split; [reflexivity|]. intros n s e v.
      cbn [Defer_model.run]. unfold qx. rewrite exec_for. apply rloop_quiet.
      + intros s0. apply (proj2 (quiet_exec n) b Q false s0).
      + intros s0 e0 v0. apply R1.
    - intros b IH Q k. destruct (list_good _ (IH Q) (in_ret k)) as (f1 & G1).
      exists (S f1). intros f F. destruct f as [|f]; [lia|].
      destruct (G1 f ltac:(lia)) as (c1 & E1 & R1).
      exists (TRetBlock (S (nret k)) c1). rewrite lin_block, E1. split; [reflexivity|]. intros n s e v.
      cbn [Defer_model.run]. rewrite R1. unfold qx, qexec. rewrite exec_block.
      destruct (proj2 (quiet_exec n) b Q false s) as (_ & [->|(s' & ->)]); reflexivity.
    - intros _ k sc rest E G. destruct (emit_good (defers sc) (defer_scope_pop k) G) as (f1 & G1).
      exists (S f1). intros f F. destruct f as [|f]; [lia|]. destruct (G1 f ltac:(lia)) as (c1 & E1 & R1).
      exists c1. rewrite lin_nil, E. split; [exact E1|]. intros n s e v. rewrite R1. reflexivity.
    - intros t IHt b IHb Q k sc rest E G. apply andb_true_iff in Q as (Q1 & Q2). specialize (IHt Q1).
      destruct (is_defer t) eqn:T.
      + destruct t as [| | |d| | | | | | | | | |]; try discriminate.
        destruct (IHb Q2 (defer_register k d) (Scope (d :: defers sc) (break_depth sc) (continue_depth sc) (ret_depth sc) (catch_depth sc)) rest)
          as (f1 & G1).
        { unfold defer_register. rewrite E. reflexivity. } { now constructor. }
        exists (S f1). intros f F. destruct f as [|f]; [lia|]. destruct (G1 f ltac:(lia)) as (c1 & E1 & R1).
        exists c1. split; [exact E1|]. intros n s e v. rewrite R1. cbn [defers unw]. f_equal.
        unfold qexec at 1 3. rewrite exec_defer.
        destruct (proj2 (quiet_exec n) b Q2 false s) as (_ & [->|(s' & ->)]); cbn; [reflexivity|].
        unfold qexec. cbn [quiet] in Q1.
        destruct (proj2 (quiet_exec n) d Q1 false s') as (_ & [->|(s2 & ->)]); reflexivity.
      + assert (GT : good_stmt t) by (destruct t; try discriminate; exact IHt).
        destruct (GT k) as (f1 & G1). destruct (IHb Q2 k sc rest E G) as (f2 & G2).
        exists (S (Nat.max f1 f2)). intros f F. destruct f as [|f]; [lia|].
        destruct (G1 f ltac:(lia)) as (c1 & E1 & R1). destruct (G2 f ltac:(lia)) as (c2 & E2 & R2).
        exists (Seq c1 c2). rewrite linear_cons by exact T. rewrite E1, E2. split; [reflexivity|]. intros n s e v.
        cbn [Defer_model.run]. rewrite R1, qexec_cons by exact T. destruct (qx n t s); cbn; [apply R2|reflexivity].
  Qed.

  Lemma quiet_body_good d : quiet_body d = true -> good d.
  Proof. intros Q. apply list_good. now apply quiet_good. Qed.

  (** ** All statements *)

  Definition pend (m : mode) (depth : nat) (k : ctx) := unwind_scopes m depth k.

  Definition tgt (n : nat) (k : ctx) (v : option Z) (o : end_ st) : option (rout st) :=
    match o with
    | Defer_spec.ONorm _ s => Some (RNorm s None v)
    | Defer_spec.OBrk _ s => option_map (fun s => RGoto (LBrk (nbreak k)) s None v) (unw n (pend MBreak (nbreak k) k) s)
    | Defer_spec.OCont _ s => option_map (fun s => RGoto (LCont (ncontinue k)) s None v) (unw n (pend MContinue (ncontinue k) k) s)
    | Defer_spec.ORet _ s => option_map (fun s => RGoto (LRet (nret k)) s None v) (unw n (pend MRet (nret k) k) s)
    | Defer_spec.OReturn _ w s => option_map (fun s => RGoto LEnd s None w) (unw n (pend MAll 0 k) s)
    | Defer_spec.OErr _ x s =>
        option_map (fun s => RGoto (match ncatch k with O => LEnd | d => LCatch d end) s (Some x) v)
                   (unw n (pend MCatch (ncatch k) k) s)
    | Defer_spec.ODead _ s => Some (RDead s)
    end.

  Definition under (k : ctx) (sc : scope) : Prop :=
    (break_depth sc <= nbreak k /\ continue_depth sc <= ncontinue k /\ ret_depth sc <= nret k /\ catch_depth sc <= ncatch k)%nat.
  Definition pending_ok (d : body) : Prop := D d /\ quiet_body d = true.
  Definition wf (k : ctx) : Prop := Forall (fun sc => under k sc /\ Forall pending_ok (defers sc)) (scopes k).
  Definition fits (loop block tried : bool) (k : ctx) : Prop :=
    (loop = true -> (0 < nbreak k)%nat /\ (0 < ncontinue k)%nat) /\ (block = true -> (0 < nret k)%nat) /\
    tried = Nat.ltb 0 (ncatch k).

  Hypothesis kept : forall x d, K x -> D d -> forall n s s',
    exec_body n false d s = Some (ONorm s') -> var x s' = var x s.

  Lemma pend_ok m depth k : wf k -> Forall pending_ok (pend m depth k).
  Proof.
    unfold wf, pend, unwind_scopes. intros W. induction W as [|sc l (_ & H) _ IH]; cbn; [constructor|].
    destruct (scope_need_unwind m depth sc); cbn; [apply Forall_app; auto|exact IH].
  Qed.

  Lemma ok_good l : Forall pending_ok l -> Forall good l.
  Proof. apply Forall_impl. intros d (_ & Q). now apply quiet_body_good. Qed.

  Lemma pend_none m depth k : wf k ->
    (m = MBreak /\ depth = S (nbreak k) \/ m = MContinue /\ depth = S (ncontinue k) \/
     m = MRet /\ depth = S (nret k) \/ m = MCatch /\ depth = S (ncatch k)) ->
    unwind_scopes m depth k = [].
  Proof.
    unfold wf, unwind_scopes. intros W C. induction W as [|sc l (U & _) _ IH]; cbn; [reflexivity|].
    replace (scope_need_unwind m depth sc) with false; [exact IH|]. unfold under in U.
    destruct C as [(-> & ->)|[(-> & ->)|[(-> & ->)|(-> & ->)]]]; cbn [scope_need_unwind]; symmetry; apply Nat.leb_gt; lia.
  Qed.

  Lemma unw_var n l x s s' : K x -> Forall pending_ok l -> unw n l s = Some s' -> var x s' = var x s.
  Proof.
    intros KX H. revert s. induction H as [|d l (HD & _) _ IH]; intros s E; cbn in E; [congruence|].
    unfold qexec in E. destruct (exec_body n false d s) as [[s1| | | | | |]|] eqn:Q; cbn in E; try discriminate.
    rewrite (IH _ E). exact (kept x d KX HD n s s1 Q).
  Qed.

  Lemma pend_enter m depth k : pend m depth (defer_scope_enter k) = pend m depth k.
  Proof. unfold pend, unwind_scopes, defer_scope_enter. cbn. destruct (scope_need_unwind m depth _); reflexivity. Qed.

  Lemma tgt_enter n k v o : tgt n (defer_scope_enter k) v o = tgt n k v o.
  Proof. destruct o; cbn [tgt]; rewrite ?pend_enter; reflexivity. Qed.

  Definition stmt_ok (t : stmt) : Prop := forall loop block tried k, wf k -> fits loop block tried k ->
    fine D K loop block tried t ->
    exists f0, forall f, (f0 <= f)%nat -> exists c, linear_stmt f k t = Some c /\
    forall n s v, run n c s None v = obind (exec n tried t s) (tgt n k v).
  Definition body_ok (b : body) : Prop := forall loop block tried k, wf k -> fits loop block tried k ->
    fine_body D K loop block tried b ->
    exists f0, forall f, (f0 <= f)%nat -> exists c, linear_body f k b = Some c /\
    forall n s v, run n c s None v = obind (exec_body n tried b s) (tgt n k v).

  Definition top_is (k : ctx) (sc : scope) : Prop :=
    break_depth sc = nbreak k /\ continue_depth sc = ncontinue k /\ ret_depth sc = nret k /\ catch_depth sc = ncatch k.
  Definition list_ok (b : body) : Prop := forall loop block tried k sc rest, wf k -> fits loop block tried k ->
    scopes k = sc :: rest -> top_is k sc ->
    fine_body D K loop block tried b ->
    exists f0, forall f, (f0 <= f)%nat -> exists c, linear_stmts f k b = Some c /\
    forall n s v, run n c s None v = obind (exec_body n tried b s) (fun o =>
      match o with
      | Defer_spec.ONorm _ s' => option_map (fun s => RNorm s None v) (unw n (defers sc) s')
      | o => tgt n k v o
      end).

  Lemma list_body b : list_ok b -> body_ok b.
  Proof.
    intros H loop block tried k W Fi Fn.
    destruct (H loop block tried (defer_scope_enter k) (Scope [] (nbreak k) (ncontinue k) (nret k) (ncatch k)) (scopes k)) as (f0 & G); try reflexivity; try assumption.
    { constructor; [|exact W]. split; [unfold under; cbn; lia|constructor]. }
    { repeat split. }
    exists (S f0). intros f F. destruct f as [|f]; [lia|]. destruct (G f ltac:(lia)) as (c & E & R).
    exists c. split; [exact E|]. intros n s v. rewrite R.
    destruct (exec_body n tried b s) as [o|]; cbn [obind]; [|reflexivity].
    rewrite tgt_enter. destruct o; reflexivity.
  Qed.

  (** What is run on the way out of an error. *)
  Lemma bal_error_ok k : wf k -> exists f0, forall f, (f0 <= f)%nat -> exists c,
    seq (emit (linear_body f k) (unwind_scopes MCatch (ncatch k) k)) (Some (TBal (error_target k))) = Some c /\
    forall n s x v, run n c s (Some x) v = tgt n k v (OErr x s).
  Proof.
    intros W. destruct (emit_good _ k (ok_good _ (pend_ok MCatch (ncatch k) k W))) as (f0 & G).
    exists f0. intros f F. destruct (G f F) as (c & E & R). eexists. unfold pend in E. rewrite E. split; [reflexivity|].
    intros n s x v. cbn [Defer_model.run tgt]. rewrite R. unfold error_target.
    destruct (unw n (pend MCatch (ncatch k) k) s); cbn; [|reflexivity]. destruct (ncatch k); reflexivity.
  Qed.

  Lemma call_ok a : stmt_ok (Call a).
  Proof.
    intros loop block tried k W Fi _. destruct (bal_error_ok k W) as (f0 & G).
    exists (S f0). intros f F. destruct f as [|f]; [lia|]. destruct (G f ltac:(lia)) as (c & E & R).
    exists (Seq (TCall a) (THasError c)). rewrite lin_call, E. split; [reflexivity|].
    intros n s v. cbn [Defer_model.run Defer_spec.exec]. destruct (call a s) as (s' & [x|]); cbn [obind]; [apply R|reflexivity].
  Qed.

  (** A way out over the blocks of [l], then a jump. *)
  Lemma jump_ok m depth l k : wf k -> l <> LError -> exists f0, forall f, (f0 <= f)%nat -> exists c,
    seq (emit (linear_body f k) (unwind_scopes m depth k)) (Some (TBal l)) = Some c /\
    forall n s e v, run n c s e v = option_map (fun s => RGoto l s e v) (unw n (pend m depth k) s).
  Proof.
    intros W L. destruct (emit_good _ k (ok_good _ (pend_ok m depth k W))) as (f0 & G).
    exists f0. intros f F. destruct (G f F) as (c & E & R). eexists. unfold pend in E. rewrite E. split; [reflexivity|].
    intros n s e v. cbn [Defer_model.run]. rewrite R.
    destruct (unw n (pend m depth k) s); cbn; [|reflexivity]. destruct l; congruence.
  Qed.

  Lemma wf_loop k : wf k -> wf (in_loop k).
  Proof. apply Forall_impl. intros sc (U & H). split; [unfold under in *; cbn; lia|exact H]. Qed.
  Lemma wf_ret k : wf k -> wf (in_ret k).
  Proof. apply Forall_impl. intros sc (U & H). split; [unfold under in *; cbn; lia|exact H]. Qed.
  Lemma wf_catch k : wf k -> wf (in_catch k).
  Proof. apply Forall_impl. intros sc (U & H). split; [unfold under in *; cbn; lia|exact H]. Qed.

  Lemma loop_rounds k b c u c1 tried : wf k ->
    (forall n s v, run n c1 s None v = obind (exec_body n tried b s) (tgt n (in_loop k) v)) ->
    forall n m s v, rloop st m (S (nbreak k)) (S (ncontinue k)) (cond c) (act u) (run n c1) s None v
      = obind (rounds st m (cond c) (act u) (exec_body n tried b) s) (tgt n k v).
  Proof.
    intros W R n. induction m as [|m IH]; intros s v; cbn [rloop rounds]; [reflexivity|].
    destruct (cond c s); [|reflexivity]. rewrite R.
    destruct (exec_body n tried b s) as [[s'|s'|s'|s'|w s'|x s'|s']|]; cbn [obind tgt]; try reflexivity.
    - apply IH.
    - unfold pend. cbn [in_loop nbreak]. change (unwind_scopes MBreak (S (nbreak k)) (in_loop k)) with (unwind_scopes MBreak (S (nbreak k)) k).
      rewrite (pend_none MBreak) by auto. cbn. rewrite Nat.eqb_refl. reflexivity.
    - unfold pend. cbn [in_loop ncontinue]. change (unwind_scopes MContinue (S (ncontinue k)) (in_loop k)) with (unwind_scopes MContinue (S (ncontinue k)) k).
      rewrite (pend_none MContinue) by auto. cbn. rewrite Nat.eqb_refl. apply IH.
    - unfold pend. cbn [in_loop nret]. change (unwind_scopes MRet (nret k) (in_loop k)) with (unwind_scopes MRet (nret k) k).
      destruct (unw n _ s'); reflexivity.
    - unfold pend. change (unwind_scopes MAll 0 (in_loop k)) with (unwind_scopes MAll 0 k). destruct (unw n _ s'); reflexivity.
    - unfold pend. cbn [in_loop ncatch]. change (unwind_scopes MCatch (ncatch k) (in_loop k)) with (unwind_scopes MCatch (ncatch k) k).
      destruct (unw n _ s'); [|reflexivity]. cbn. destruct (ncatch k); reflexivity.
  Qed.

  (** A block that [ret] leaves. *)
  Lemma ret_block n k v o : wf k ->
    match obind o (tgt n (in_ret k) v) with
    | Some (Defer_model.RGoto _ l s e v) => if label_eqb l (LRet (S (nret k))) then Some (RNorm s e v) else Some (RGoto l s e v)
    | o => o
    end = obind (out_of_block st o) (tgt n k v).
  Proof.
    intros W. destruct o as [[s'|s'|s'|s'|w s'|x s'|s']|]; cbn [obind tgt out_of_block]; try reflexivity; unfold pend.
    - change (unwind_scopes MBreak (nbreak (in_ret k)) (in_ret k)) with (unwind_scopes MBreak (nbreak k) k). destruct (unw n _ s'); reflexivity.
    - change (unwind_scopes MContinue (ncontinue (in_ret k)) (in_ret k)) with (unwind_scopes MContinue (ncontinue k) k). destruct (unw n _ s'); reflexivity.
    - change (unwind_scopes MRet (nret (in_ret k)) (in_ret k)) with (unwind_scopes MRet (S (nret k)) k).
      rewrite (pend_none MRet) by auto. cbn. rewrite Nat.eqb_refl. reflexivity.
    - change (unwind_scopes MAll 0 (in_ret k)) with (unwind_scopes MAll 0 k). destruct (unw n _ s'); reflexivity.
    - change (unwind_scopes MCatch (ncatch (in_ret k)) (in_ret k)) with (unwind_scopes MCatch (ncatch k) k).
      change (ncatch (in_ret k)) with (ncatch k). destruct (unw n _ s'); [|reflexivity]. cbn. destruct (ncatch k); reflexivity.
  Qed.

  (** A block whose errors are caught by [h]. *)
  Lemma catch_block n k v o h b2 tried : wf k ->
    (forall s x, run n h s (Some x) v = obind (out_of_block st (exec_body n tried b2 (bindv x s))) (tgt n k v)) ->
    match obind o (tgt n (in_catch k) v) with
    | Some (Defer_model.RGoto _ l s e v) => if label_eqb l (LCatch (S (ncatch k))) then run n h s e v else Some (RGoto l s e v)
    | o => o
    end = obind (match o with
                 | Some (Defer_spec.OErr _ x s') => out_of_block st (exec_body n tried b2 (bindv x s'))
                 | o => o
                 end) (tgt n k v).
  Proof.
    intros W H. destruct o as [[s'|s'|s'|s'|w s'|x s'|s']|]; cbn [obind tgt]; try reflexivity; unfold pend.
    - change (unwind_scopes MBreak (nbreak (in_catch k)) (in_catch k)) with (unwind_scopes MBreak (nbreak k) k). destruct (unw n _ s'); reflexivity.
    - change (unwind_scopes MContinue (ncontinue (in_catch k)) (in_catch k)) with (unwind_scopes MContinue (ncontinue k) k). destruct (unw n _ s'); reflexivity.
    - change (unwind_scopes MRet (nret (in_catch k)) (in_catch k)) with (unwind_scopes MRet (nret k) k). destruct (unw n _ s'); reflexivity.
    - change (unwind_scopes MAll 0 (in_catch k)) with (unwind_scopes MAll 0 k). destruct (unw n _ s'); reflexivity.
    - change (unwind_scopes MCatch (ncatch (in_catch k)) (in_catch k)) with (unwind_scopes MCatch (S (ncatch k)) k).
      rewrite (pend_none MCatch) by auto. cbn [unw option_map in_catch ncatch label_eqb]. rewrite Nat.eqb_refl. apply H.
  Qed.

  Lemma handler_ok k b2 tried c2 : wf k ->
    (forall n s v, run n c2 s None v = obind (exec_body n tried b2 s) (tgt n (in_ret k) v)) ->
    forall n v s x, run n (TRetBlock (S (nret k)) (Seq TRemove c2)) s (Some x) v
      = obind (out_of_block st (exec_body n tried b2 (bindv x s))) (tgt n k v).
  Proof.
    intros W R n v s x. rewrite <- (ret_block n k v _ W), <- R. reflexivity.
  Qed.

  Lemma pend_all k : pend MAll 0 k = pend MCatch 0 k.
  Proof. reflexivity. Qed.

  Lemma pend_top m depth k sc rest d : scopes k = sc :: rest -> scope_need_unwind m depth sc = true ->
    pend m depth (defer_register k d) = d :: pend m depth k.
  Proof.
    intros E N. unfold pend, unwind_scopes, defer_register. rewrite E. cbn [scopes filter].
    replace (scope_need_unwind m depth (Scope (d :: defers sc) (break_depth sc) (continue_depth sc) (ret_depth sc) (catch_depth sc)))
      with (scope_need_unwind m depth sc) by (destruct m; reflexivity).
    rewrite N. reflexivity.
  Qed.

  Lemma all_ok :
    (forall t, match t with Defer _ => True | _ => stmt_ok t end) /\ (forall b, list_ok b).
  Proof.
    apply stmt_body_ind.
    - intros a loop block tried k W Fi _. exists 1%nat. intros f F. destruct f as [|f]; [lia|]. exists (TAct a). split; reflexivity.
    - apply call_ok.
    - intros a loop block tried k W (_ & _ & ->) _. destruct (bal_error_ok k W) as (f0 & G).
      exists (S f0). intros f F. destruct f as [|f]; [lia|]. destruct (G f ltac:(lia)) as (c & E & R).
      exists (TChk a (Nat.ltb 0 (ncatch k)) c). rewrite lin_chk, E. split; [reflexivity|].
      intros n s v. cbn [Defer_model.run Defer_spec.exec]. destruct (in_range a s); [reflexivity|].
      destruct (Nat.ltb 0 (ncatch k)); cbn [obind]; [apply R|reflexivity].
    - trivial.
    - intros c b1 IH1 b2 IH2 loop block tried k W Fi (Fn1 & Fn2).
      destruct (list_body _ IH1 loop block tried k W Fi Fn1) as (f1 & G1).
      destruct (list_body _ IH2 loop block tried k W Fi Fn2) as (f2 & G2).
      exists (S (Nat.max f1 f2)). intros f F. destruct f as [|f]; [lia|].
      destruct (G1 f ltac:(lia)) as (c1 & E1 & R1). destruct (G2 f ltac:(lia)) as (c2 & E2 & R2).
      exists (TIf c c1 c2). rewrite lin_if, E1, E2. split; [reflexivity|]. intros n s v.
      rewrite exec_if. cbn [Defer_model.run]. destruct (cond c s); auto.
    - intros c u b IH loop block tried k W (F1 & F2 & F3) Fn.
      destruct (list_body _ IH true block tried (in_loop k) (wf_loop k W)) as (f1 & G1); [|exact Fn|].
      { repeat split; cbn; auto; lia. }
      exists (S f1). intros f F. destruct f as [|f]; [lia|]. destruct (G1 f ltac:(lia)) as (c1 & E1 & R1).
      exists (TLoop (S (nbreak k)) (S (ncontinue k)) c u c1). rewrite lin_for, E1. split; [reflexivity|]. intros n s v.
      rewrite exec_for. cbn [Defer_model.run]. now apply loop_rounds.
    - intros loop block tried k W (F1 & _) Fn. destruct (F1 Fn) as (N & _).
      destruct (jump_ok MBreak (nbreak k) (LBrk (nbreak k)) k W ltac:(discriminate)) as (f0 & G).
      exists (S f0). intros f F. destruct f as [|f]; [lia|]. destruct (G f ltac:(lia)) as (c & E & R).
      exists c. cbn [linear_stmt]. apply Nat.ltb_lt in N. rewrite N. split; [exact E|]. intros n s v. apply R.
    - intros loop block tried k W (F1 & _) Fn. destruct (F1 Fn) as (_ & N).
      destruct (jump_ok MContinue (ncontinue k) (LCont (ncontinue k)) k W ltac:(discriminate)) as (f0 & G).
      exists (S f0). intros f F. destruct f as [|f]; [lia|]. destruct (G f ltac:(lia)) as (c & E & R).
      exists c. cbn [linear_stmt]. apply Nat.ltb_lt in N. rewrite N. split; [exact E|]. intros n s v. apply R.
    - intros loop block tried k W (_ & F1 & _) Fn. pose proof (F1 Fn) as N.
      destruct (jump_ok MRet (nret k) (LRet (nret k)) k W ltac:(discriminate)) as (f0 & G).
      exists (S f0). intros f F. destruct f as [|f]; [lia|]. destruct (G f ltac:(lia)) as (c & E & R).
      exists c. cbn [linear_stmt]. apply Nat.ltb_lt in N. rewrite N. split; [exact E|]. intros n s v. apply R.
    - intros r loop block tried k W Fi Fn.
      pose proof (pend_ok MAll 0 k W) as PO.
      destruct (emit_good _ k (ok_good _ PO)) as (f0 & G).
      exists (S f0). intros f F. destruct f as [|f]; [lia|]. destruct (G f ltac:(lia)) as (c & E & R).
      exists (TRet r c). split; [exact (f_equal (option_map (TRet r)) E)|]. intros n s v.
      cbn [Defer_model.run Defer_spec.exec obind tgt]. rewrite R.
      destruct (unw n (pend MAll 0 k) s) as [s'|] eqn:U; cbn [option_map]; [|reflexivity].
      destruct r as [|a|a]; cbn [ret_value value]; try reflexivity.
      rewrite (unw_var n _ a s s' Fn PO U). reflexivity.
    - intros a loop block tried k W (_ & _ & F3) Fn. cbn [fine] in Fn.
      destruct (jump_ok MAll 0 LEnd k W ltac:(discriminate)) as (f0 & G).
      exists (S f0). intros f F. destruct f as [|f]; [lia|]. destruct (G f ltac:(lia)) as (c & E & R).
      exists (Seq (TThrow a) c). split.
      + change (linear_stmt (S f) k (Throw a)) with (seq (Some (TThrow a)) (seq (emit (linear_body f k) (unwind_scopes MAll 0 k)) (Some (TBal LEnd)))).
        rewrite E. reflexivity.
      + intros n s v. cbn [Defer_model.run Defer_spec.exec obind tgt]. rewrite R, pend_all.
        assert (N : ncatch k = 0%nat) by (rewrite Fn in F3; symmetry in F3; apply Nat.ltb_ge in F3; lia).
        rewrite N. reflexivity.
    - intros b1 IH1 b2 IH2 loop block tried k W (F1 & F2 & F3) (Fn1 & Fn2).
      destruct (list_body _ IH1 loop block true (in_catch k) (wf_catch k W)) as (f1 & G1); [|exact Fn1|].
      { unfold fits; cbn; auto. }
      destruct (list_body _ IH2 loop true tried (in_ret k) (wf_ret k W)) as (f2 & G2); [|exact Fn2|].
      { unfold fits; cbn; auto using Nat.lt_0_succ. }
      exists (S (Nat.max f1 f2)). intros f F. destruct f as [|f]; [lia|].
      destruct (G1 f ltac:(lia)) as (c1 & E1 & R1). destruct (G2 f ltac:(lia)) as (c2 & E2 & R2).
      eexists. rewrite lin_try, E1, E2. split; [reflexivity|]. intros n s v. rewrite exec_try.
      pose proof (catch_block n k v (exec_body n true b1 s) (TRetBlock (S (nret k)) (Seq TRemove c2)) b2 tried W
        (fun s0 x => handler_ok k b2 tried c2 W R2 n v s0 x)) as CB.
      rewrite <- R1 in CB. refine (eq_trans _ (eq_trans CB _)).
      + rewrite run_catch. destruct (run n c1 s None v) as [[]|]; reflexivity.
      + destruct (exec_body n true b1 s) as [[]|]; reflexivity.
    - intros a b IH loop block tried k W (F1 & F2 & F3) Fn.
      destruct (call_ok a loop block true (in_catch k) (wf_catch k W)) as (f1 & G1); [|exact Logic.I|].
      { unfold fits; cbn; auto. }
      destruct (list_body _ IH loop true tried (in_ret k) (wf_ret k W)) as (f2 & G2); [|exact Fn|].
      { unfold fits; cbn; auto using Nat.lt_0_succ. }
      exists (S (Nat.max f1 f2)). intros f F. destruct f as [|f]; [lia|].
      destruct (G1 f ltac:(lia)) as (c1 & E1 & R1). destruct (G2 f ltac:(lia)) as (c2 & E2 & R2).
      eexists. rewrite lin_catch, E1, E2. split; [reflexivity|]. intros n s v. rewrite exec_catch.
      pose proof (catch_block n k v (exec n true (Call a) s) (TRetBlock (S (nret k)) (Seq TRemove c2)) b tried W
        (fun s0 x => handler_ok k b tried c2 W R2 n v s0 x)) as CB.
      rewrite <- R1 in CB. refine (eq_trans _ (eq_trans CB _)).
      + rewrite run_catch. destruct (run n c1 s None v) as [[]|]; reflexivity.
      + cbn [Defer_spec.exec]. destruct (call a s) as (s' & [x|]); reflexivity.
    - intros b IH loop block tried k W (F1 & F2 & F3) Fn.
      destruct (list_body _ IH loop true tried (in_ret k) (wf_ret k W)) as (f2 & G2); [|exact Fn|].
      { unfold fits; cbn; auto using Nat.lt_0_succ. }
      exists (S f2). intros f F. destruct f as [|f]; [lia|]. destruct (G2 f ltac:(lia)) as (c2 & E2 & R2).
      eexists. rewrite lin_block, E2. split; [reflexivity|]. intros n s v. rewrite exec_block, <- (ret_block n k v _ W), <- R2.
      reflexivity.
    - intros loop block tried k sc rest W Fi E T _.
      assert (PO : Forall pending_ok (defers sc)) by (unfold wf in W; rewrite E in W; inversion W as [|? ? (_ & H) _]; exact H).
      destruct (emit_good (defers sc) (defer_scope_pop k) (ok_good _ PO)) as (f1 & G1).
      exists (S f1). intros f F. destruct f as [|f]; [lia|]. destruct (G1 f ltac:(lia)) as (c1 & E1 & R1).
      exists c1. rewrite lin_nil, E. split; [exact E1|]. intros n s v. rewrite R1. reflexivity.
    - intros t IHt b IHb loop block tried k sc rest W Fi E T (Fn1 & Fn2).
      destruct (is_defer t) eqn:ID.
      + destruct t as [| | |d| | | | | | | | | |]; try discriminate. destruct Fn1 as (HD & HQ).
        destruct T as (T1 & T2 & T3 & T4).
        destruct (IHb loop block tried (defer_register k d)
          (Scope (d :: defers sc) (break_depth sc) (continue_depth sc) (ret_depth sc) (catch_depth sc)) rest) as (f1 & G1).
        { unfold wf, defer_register in *. rewrite E in *. cbn [scopes]. inversion W as [|? ? (U & H) W']; subst.
          constructor; [|exact W']. split; [exact U|]. cbn. constructor; [split; assumption|exact H]. }
        { unfold fits, defer_register in *. rewrite E. cbn. exact Fi. }
        { unfold defer_register. rewrite E. reflexivity. }
        { unfold top_is, defer_register. rewrite E. cbn. auto. }
        { exact Fn2. }
        exists (S f1). intros f F. destruct f as [|f]; [lia|]. destruct (G1 f ltac:(lia)) as (c1 & E1 & R1).
        exists c1. split; [exact E1|]. intros n s v. rewrite R1, exec_defer.
        assert (NB : nbreak (defer_register k d) = nbreak k /\ ncontinue (defer_register k d) = ncontinue k /\
                     nret (defer_register k d) = nret k /\ ncatch (defer_register k d) = ncatch k)
          by (unfold defer_register; rewrite E; cbn; auto).
        destruct NB as (N1 & N2 & N3 & N4).
        assert (PT : forall m depth, scope_need_unwind m depth sc = true -> pend m depth (defer_register k d) = d :: pend m depth k)
          by (intros; eapply pend_top; eassumption).
        assert (L1 : scope_need_unwind MBreak (nbreak k) sc = true) by (cbn; apply Nat.leb_le; lia).
        assert (L2 : scope_need_unwind MContinue (ncontinue k) sc = true) by (cbn; apply Nat.leb_le; lia).
        assert (L3 : scope_need_unwind MRet (nret k) sc = true) by (cbn; apply Nat.leb_le; lia).
        assert (L4 : scope_need_unwind MCatch (ncatch k) sc = true) by (cbn; apply Nat.leb_le; lia).
        destruct (exec_body n tried b s) as [[s'|s'|s'|s'|w s'|x s'|s']|]; cbn [obind tgt finally defers unw];
          rewrite ?N1, ?N2, ?N3, ?N4; try reflexivity;
          rewrite ?(PT _ _ L1), ?(PT _ _ L2), ?(PT _ _ L3), ?(PT _ _ L4), ?(PT MAll 0%nat eq_refl);
          cbn [unw]; rewrite (quiet_qexec n d tried s' HQ); destruct (qexec n d s'); reflexivity.
      + assert (ST : stmt_ok t) by (destruct t; try discriminate; exact IHt).
        destruct (ST loop block tried k W Fi Fn1) as (f1 & G1). destruct (IHb loop block tried k sc rest W Fi E T Fn2) as (f2 & G2).
        exists (S (Nat.max f1 f2)). intros f F. destruct f as [|f]; [lia|].
        destruct (G1 f ltac:(lia)) as (c1 & E1 & R1). destruct (G2 f ltac:(lia)) as (c2 & E2 & R2).
        exists (Seq c1 c2). rewrite linear_cons by exact ID. rewrite E1, E2. split; [reflexivity|]. intros n s v.
        rewrite run_seq, R1, body_cons by exact ID.
        destruct (exec n tried t s) as [[s'|s'|s'|s'|w s'|x s'|s']|]; cbn [obind tgt];
          try reflexivity; try (destruct (unw n _ s'); reflexivity). apply R2.
  Qed.

  Lemma fn_ok b : fine_body D K false false false b ->
    exists f0, forall f, (f0 <= f)%nat -> exists c, linear_fndef f b = Some c /\
    forall n s, run_fn st act cond call in_range range_error val var bindv n c s
      = exec_fn st act cond call in_range range_error val var bindv n b s.
  Proof.
    intros Fn. destruct (list_body _ (proj2 all_ok b) false false false (Ctx [] 0 0 0 0)) as (f0 & G).
    { constructor. } { repeat split; discriminate. } { exact Fn. }
    exists f0. intros f F. destruct (G f F) as (c & E & R). exists c. split; [exact E|].
    intros n s. unfold run_fn, exec_fn. rewrite R.
    destruct (exec_body n false b s) as [[s'|s'|s'|s'|w s'|x s'|s']|]; reflexivity.
  Qed.
End Proof.
