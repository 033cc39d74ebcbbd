(** Simulation: an execution of the source gives an execution of the linear code. *)
From Coq Require Import Permutation.
From Verif Require Import Base Lin_model Lin_spec Lin_proof.
Local Open Scope nat_scope.

Section sim.
  Variable W : world.
  Variable P : nat -> bool.
  Hypothesis HP : patient W P.
  Variable C : list op.
  Hypothesis HC : NoDup (labels C).

  Notation steps := (steps W C).
  Notation quiet d := (ok_block P true false false [] d = true).

  (** * Code in place *)
  Definition placed (pc : nat) (code : list op) : Prop :=
    exists pre post, C = pre ++ code ++ post /\ length pre = pc.

  Lemma placed_app : forall pc a b, placed pc (a ++ b) -> placed pc a /\ placed (pc + length a) b.
  Proof.
    intros pc a b (pre & post & E & L). split.
    - exists pre, (b ++ post). rewrite E, <- app_assoc. auto.
    - exists (pre ++ a), post. rewrite E, <- !app_assoc, app_length. auto.
  Qed.
  Lemma placed_cons : forall pc i b, placed pc (i :: b) -> nth_error C pc = Some i /\ placed (S pc) b.
  Proof.
    intros pc i b H. split.
    - destruct H as (pre & post & E & L). rewrite E, nth_error_app2 by lia. rewrite L, Nat.sub_diag. reflexivity.
    - apply (placed_app pc [i] b) in H. replace (S pc) with (pc + length [i]) by (cbn [length]; lia). apply H.
  Qed.

  Lemma find_label_at : forall pre l post, ~ In l (labels pre) ->
    find_label (pre ++ Label l :: post) l = Some (length pre).
  Proof.
    induction pre as [|i pre IH]; intros l post H; cbn [app find_label length].
    - rewrite Nat.eqb_refl. reflexivity.
    - destruct i; cbn [labels flat_map app In] in H; try (rewrite IH by exact H; reflexivity).
      destruct (Nat.eqb_spec l0 l) as [->|]; [tauto|]. rewrite IH by tauto. reflexivity.
  Qed.
  Lemma placed_label : forall pc l b, placed pc (Label l :: b) -> find_label C l = Some pc.
  Proof.
    intros pc l b (pre & post & E & L). rewrite E. cbn [app]. rewrite <- L. apply find_label_at.
    intros Hin. rewrite E, labels_app in HC. cbn [app labels flat_map] in HC.
    apply NoDup_remove_2 in HC. apply HC. apply in_app_iff. left. exact Hin.
  Qed.

  (** * Running *)
  Lemma steps_trans : forall a b c, steps a b -> steps b c -> steps a c.
  Proof. intros a b c H. induction H; intros H'; [exact H'|]. econstructor; eauto. Qed.
  Lemma steps_one : forall a b, step W C a = Some b -> steps a b.
  Proof. intros a b H. econstructor; [exact H|constructor]. Qed.

  Definition pres (n : nat) (T T' : nat -> Z) : Prop := forall t, t < n -> T' t = T t.
  Lemma pres_refl : forall n T, pres n T T. Proof. intros n T t _. reflexivity. Qed.
  Lemma pres_trans : forall n m T1 T2 T3, pres n T1 T2 -> pres m T2 T3 -> n <= m -> pres n T1 T3.
  Proof. intros n m T1 T2 T3 H1 H2 L t Ht. rewrite (H2 t) by lia. apply H1. exact Ht. Qed.
  Lemma pres_upd : forall n T t v, n <= t -> pres n T (upd T t v).
  Proof. intros n T t v L u Hu. unfold upd. destruct (Nat.eqb_spec u t); [lia|reflexivity]. Qed.
  Lemma upd_same : forall T t v, upd T t v t = v.
  Proof. intros. unfold upd. rewrite Nat.eqb_refl. reflexivity. Qed.

  (** The value of an operand. *)
  Definition oval (T : nat -> Z) (s : state) (o : operand) : Z :=
    match o with OImm z => z | OLoc x => loc s x | OGlob g => glob s g | OTemp t => T t end.
  Lemma val_oval : forall pc T s e r o, val (mk_mach pc T s e r) o = oval T s o.
  Proof. intros. destruct o; reflexivity. Qed.

  (** * Contexts *)
  Definition low (c : ctx) (s : scope) : Prop :=
    s_cont s <= length (c_cont c) /\ s_brk s <= length (c_brk c) /\ s_catch s <= length (c_catch c) /\
    Forall (fun d => quiet d) (s_defers s).
  Definition known (l : nat) : Prop := exists pc, find_label C l = Some pc.
  Definition wf0 (c : ctx) : Prop :=
    Forall (low c) (c_scopes c) /\ Forall known (c_cont c) /\ Forall known (c_brk c) /\ Forall known (c_catch c).
  Definition wf (c : ctx) : Prop :=
    wf0 c /\ match c_scopes c with
             | [] => False
             | s :: _ => s_cont s = length (c_cont c) /\ s_brk s = length (c_brk c) /\ s_catch s = length (c_catch c)
             end.

  Lemma wf0_enter : forall c, wf0 c -> wf (enter c).
  Proof.
    intros c (H & K). split.
    - unfold wf0, enter. cbn [c_scopes c_cont c_brk c_catch]. split; [|exact K]. constructor; [|exact H].
      unfold low. cbn. repeat split; try lia. constructor.
    - cbn. auto.
  Qed.
  Lemma wf0_leave : forall c, wf0 c -> wf0 (leave c).
  Proof.
    intros c (H & K). split; [|exact K]. unfold leave. cbn [c_scopes].
    destruct (c_scopes c); [constructor|]. inversion H; subst. assumption.
  Qed.
  Lemma wf0_loop : forall c a b, wf0 c -> known a -> known b -> wf0 (push_loop c a b).
  Proof.
    intros c a b (H & K1 & K2 & K3) Ka Kb. unfold wf0, push_loop in *. cbn [c_scopes c_cont c_brk c_catch].
    split; [|repeat split; try constructor; assumption]. eapply Forall_impl; [|exact H].
    intros s (A & B & D & Q). unfold low. cbn [c_cont c_brk c_catch length]. repeat split; auto; lia.
  Qed.
  Lemma wf0_catch : forall c a, wf0 c -> known a -> wf0 (push_catch c a).
  Proof.
    intros c a (H & K1 & K2 & K3) Ka. unfold wf0, push_catch in *. cbn [c_scopes c_cont c_brk c_catch].
    split; [|repeat split; try constructor; assumption]. eapply Forall_impl; [|exact H].
    intros s (A & B & D & Q). unfold low. cbn [c_cont c_brk c_catch length]. repeat split; auto; lia.
  Qed.
  Lemma wf_register : forall c d, wf c -> quiet d -> wf (register c d).
  Proof.
    intros c d ((H & K) & Ht) Q. unfold wf, wf0, register in *. destruct (c_scopes c) as [|s t] eqn:E; [contradiction|].
    cbn [c_scopes c_cont c_brk c_catch]. inversion H as [|? ? (A & B & D & F) Hr]; subst. split; [|exact Ht].
    split; [|exact K]. constructor; [|exact Hr]. unfold low. cbn. repeat split; auto.
  Qed.
  Lemma leave_enter : forall c, leave (enter c) = c.
  Proof. intros []. reflexivity. Qed.
  Lemma leave_register : forall c d, leave (register c d) = leave c.
  Proof. intros [a b e [|s t]] d; reflexivity. Qed.
  Lemma top_register : forall c d, wf c -> top_defers (register c d) = d :: top_defers c.
  Proof. intros [a b e [|s t]] d (_ & H); [contradiction|reflexivity]. Qed.

  Lemma pending_enter : forall c m, pending (enter c) m = pending c m.
  Proof.
    intros c m. unfold pending. cbn [enter c_scopes filter]. replace (depth_of m (enter c)) with (depth_of m c) by (destruct m; reflexivity).
    destruct (need_unwind m (depth_of m c) _); reflexivity.
  Qed.
  Lemma pending_top : forall c m, wf c -> pending c m = top_defers c ++ pending (leave c) m.
  Proof.
    intros c m (_ & H). unfold pending, top_defers, leave. cbn [c_scopes].
    replace (depth_of m {| c_cont := c_cont c; c_brk := c_brk c; c_catch := c_catch c; c_scopes := tl (c_scopes c) |}) with (depth_of m c) by (destruct m; reflexivity).
    destruct (c_scopes c) as [|s t]; [contradiction|]. destruct H as (H1 & H2 & H3). cbn [filter tl].
    assert (need_unwind m (depth_of m c) s = true) as ->.
    { destruct m; cbn; rewrite ?H1, ?H2, ?H3; try reflexivity; apply Nat.leb_refl. }
    reflexivity.
  Qed.
  Lemma filter_none : forall A (f : A -> bool) l, Forall (fun x => f x = false) l -> filter f l = [].
  Proof. intros A f l H. induction H as [|x l Hx H IH]; [reflexivity|]. cbn. rewrite Hx. exact IH. Qed.
  Lemma pending_loop_break : forall c a b, wf0 c -> pending (push_loop c a b) MBreak = [].
  Proof.
    intros c a b H. unfold pending. rewrite filter_none; [reflexivity|]. unfold push_loop. cbn [c_scopes].
    eapply Forall_impl; [|exact (proj1 H)]. intros s (A & B & D & Q). cbn [need_unwind depth_of c_brk c_cont c_catch length]. apply Nat.leb_gt. lia.
  Qed.
  Lemma pending_loop_continue : forall c a b, wf0 c -> pending (push_loop c a b) MContinue = [].
  Proof.
    intros c a b H. unfold pending. rewrite filter_none; [reflexivity|]. unfold push_loop. cbn [c_scopes].
    eapply Forall_impl; [|exact (proj1 H)]. intros s (A & B & D & Q). cbn [need_unwind depth_of c_brk c_cont c_catch length]. apply Nat.leb_gt. lia.
  Qed.
  Lemma pending_catch_catch : forall c a, wf0 c -> pending (push_catch c a) MCatch = [].
  Proof.
    intros c a H. unfold pending. rewrite filter_none; [reflexivity|]. unfold push_catch. cbn [c_scopes].
    eapply Forall_impl; [|exact (proj1 H)]. intros s (A & B & D & Q). cbn [need_unwind depth_of c_brk c_cont c_catch length]. apply Nat.leb_gt. lia.
  Qed.
  Lemma filter_all : forall A (f : A -> bool) l, (forall x, f x = true) -> filter f l = l.
  Proof. intros A f l H. induction l as [|x l IH]; [reflexivity|]. cbn. rewrite H, IH. reflexivity. Qed.
  Lemma pending_all_catch : forall c, c_catch c = [] -> pending c MCatch = pending c MAll.
  Proof. intros c H. unfold pending. rewrite !filter_all; [reflexivity|reflexivity|]. intros s. cbn. rewrite H. reflexivity. Qed.
  Lemma pending_all : forall c, pending c MAll = flat_map s_defers (c_scopes c).
  Proof. intros c. unfold pending. rewrite filter_all; reflexivity. Qed.
  Lemma pending_quiet : forall c m, wf0 c -> Forall (fun d => quiet d) (pending c m).
  Proof.
    intros c m H. unfold pending. apply Forall_forall. intros d Hd. apply in_flat_map in Hd. destruct Hd as (s & Hs & Hd).
    apply filter_In in Hs. destruct Hs as (Hs & _). destruct H as (H & _). rewrite Forall_forall in H. destruct (H s Hs) as (_ & _ & _ & Q).
    rewrite Forall_forall in Q. apply Q. exact Hd.
  Qed.

  (** * Leaving *)
  Definition Sim (e : option Z) (ds : list block) (sA sB : state) : Prop :=
    forall k c n code n' pc T r, emit_all (cbody k) c ds n = Ok (code, n') -> wf0 c -> placed pc code ->
      exists T', steps (mk_mach pc T sA e r) (mk_mach (pc + length code) T' sB e r) /\ pres n T T'.
  Definition unw (e : option Z) (ds : list block) (sA sB : state) : Prop :=
    defers W ds sA sB /\ Sim e ds sA sB.

  Lemma defers_app : forall a b s1 s2 s3, defers W a s1 s2 -> defers W b s2 s3 -> defers W (a ++ b) s1 s3.
  Proof.
    induction a as [|d a IH]; intros b s1 s2 s3 H1 H2; inversion H1; subst; cbn [app]; [exact H2|].
    econstructor; [eassumption|]. eapply IH; eassumption.
  Qed.
  Lemma emit_all_app : forall em c a b n code n', emit_all em c (a ++ b) n = Ok (code, n') ->
    exists c1 c2 n1, emit_all em c a n = Ok (c1, n1) /\ emit_all em c b n1 = Ok (c2, n') /\ code = c1 ++ c2.
  Proof.
    intros em c. induction a as [|d a IH]; intros b n code n' H; cbn [app emit_all] in *.
    - exists [], code, n. auto.
    - bnd2 H c1 n1 E1. bnd2 H c2 n2 E2. okinv H. apply IH in E2. destruct E2 as (c3 & c4 & n3 & E3 & E4 & ->).
      exists (c1 ++ c3), c4, n3. rewrite E1. cbn [bind]. rewrite E3. cbn [bind]. rewrite app_assoc. auto.
  Qed.
  Lemma Sim_app : forall e a b s1 s2 s3, Sim e a s1 s2 -> Sim e b s2 s3 -> Sim e (a ++ b) s1 s3.
  Proof.
    intros e a b s1 s2 s3 H1 H2 k c n code n' pc T r H Hw Hp.
    apply emit_all_app in H. destruct H as (c1 & c2 & n1 & E1 & E2 & ->). apply placed_app in Hp. destruct Hp as (Hp1 & Hp2).
    destruct (H1 _ _ _ _ _ _ T r E1 Hw Hp1) as (T1 & S1 & Q1).
    destruct (H2 _ _ _ _ _ _ T1 r E2 Hw Hp2) as (T2 & S2 & Q2).
    exists T2. split.
    - rewrite app_length, Nat.add_assoc. eapply steps_trans; eassumption.
    - apply (pres_trans n n1 T T1 T2 Q1 Q2). apply (fresh_le n n1 c1).
      eapply emit_all_fresh; [|exact E1]. intros; eapply cbody_fresh; eassumption.
  Qed.
  Lemma unw_app : forall e a b s1 s2 s3, unw e a s1 s2 -> unw e b s2 s3 -> unw e (a ++ b) s1 s3.
  Proof. intros e a b s1 s2 s3 (A & B) (D & E). split; [eapply defers_app|eapply Sim_app]; eassumption. Qed.
  Lemma unw_nil : forall e s, unw e [] s s.
  Proof.
    intros e s. split; [constructor|]. intros k c n code n' pc T r H _ _. cbn [emit_all] in H. okinv H.
    exists T. rewrite Nat.add_0_r. split; [constructor|apply pres_refl].
  Qed.
  Lemma unw_nil_inv : forall e s s', unw e [] s s' -> s' = s.
  Proof. intros e s s' (H & _). inversion H. reflexivity. Qed.

  Definition after (e : option Z) (o : out) : option Z := match o with OError c => Some c | _ => e end.
  Definition pend (c : ctx) (o : out) : list block :=
    match o with
    | ONormal => []
    | OBreak => pending c MBreak
    | OContinue => pending c MContinue
    | OReturn _ => pending c MAll
    | OError _ => pending c MCatch
    end.
  (** Where the machine goes when a statement ends, and what it carries. *)
  Definition arrives (c : ctx) (o : out) (pcend : nat) (e : option Z) (r : option (option Z))
      (pc' : nat) (e' : option Z) (r' : option (option Z)) : Prop :=
    match o with
    | ONormal => pc' = pcend /\ e' = e /\ r' = r
    | OBreak => match c_brk c with [] => False | l :: _ => find_label C l = Some pc' end /\ e' = e /\ r' = r
    | OContinue => match c_cont c with [] => False | l :: _ => find_label C l = Some pc' end /\ e' = e /\ r' = r
    | OReturn v => find_label C end_label = Some pc' /\ e' = e /\ r' = Some v
    | OError x => e' = Some x /\
        match c_catch c with
        | [] => find_label C end_label = Some pc' /\ r' = Some None
        | l :: _ => find_label C l = Some pc' /\ r' = r
        end
    end.
  Definition sim (c : ctx) (n pc pcend : nat) (e : option Z) (s : state) (o : out) (s' : state) : Prop :=
    forall sB T r, unw (after e o) (pend c o) s' sB ->
      exists T' pc' e' r', steps (mk_mach pc T s e r) (mk_mach pc' T' sB e' r') /\ pres n T T' /\
        arrives c o pcend e r pc' e' r'.

  (** Normal runs of a stretch of code. *)
  Definition runs (n pc pc' : nat) (e : option Z) (s s' : state) : Prop :=
    forall T r, exists T', steps (mk_mach pc T s e r) (mk_mach pc' T' s' e r) /\ pres n T T'.

  Lemma runs_sim : forall c n pc pc' e s s', runs n pc pc' e s s' -> sim c n pc pc' e s ONormal s'.
  Proof.
    intros c n pc pc' e s s' H sB T r Hu. cbn [pend] in Hu. apply unw_nil_inv in Hu. subst sB.
    destruct (H T r) as (T' & S1 & Q). exists T', pc', e, r. repeat split; auto.
  Qed.
  Lemma sim_runs : forall c n pc pc' e s s', sim c n pc pc' e s ONormal s' -> runs n pc pc' e s s'.
  Proof.
    intros c n pc pc' e s s' H T r. destruct (H s' T r) as (T' & p & e' & r' & S1 & Q & (-> & -> & ->)).
    - apply unw_nil.
    - exists T'. auto.
  Qed.
  Lemma runs_low : forall n n1 pc pc' e s s', n <= n1 -> runs n1 pc pc' e s s' -> runs n pc pc' e s s'.
  Proof. intros n n1 pc pc' e s s' L H T r. destruct (H T r) as (T' & A & B). exists T'. split; [exact A|]. intros t Ht. apply B. lia. Qed.
  Lemma runs_trans : forall n n1 pc1 pc2 pc3 e s1 s2 s3, n <= n1 ->
    runs n pc1 pc2 e s1 s2 -> runs n1 pc2 pc3 e s2 s3 -> runs n pc1 pc3 e s1 s3.
  Proof.
    intros n n1 pc1 pc2 pc3 e s1 s2 s3 L H1 H2 T r. destruct (H1 T r) as (T1 & S1 & Q1). destruct (H2 T1 r) as (T2 & S2 & Q2).
    exists T2. split; [eapply steps_trans; eassumption|eapply pres_trans; eassumption].
  Qed.
  Lemma sim_seq : forall c n n1 pc1 pc2 pc3 e s1 s2 o s3, n <= n1 ->
    runs n pc1 pc2 e s1 s2 -> sim c n1 pc2 pc3 e s2 o s3 -> sim c n pc1 pc3 e s1 o s3.
  Proof.
    intros c n n1 pc1 pc2 pc3 e s1 s2 o s3 L H1 H2 sB T r Hu. destruct (H1 T r) as (T1 & S1 & Q1).
    destruct (H2 sB T1 r Hu) as (T2 & p & e' & r' & S2 & Q2 & A).
    exists T2, p, e', r'. split; [eapply steps_trans; eassumption|]. split; [eapply pres_trans; eassumption|exact A].
  Qed.
  Lemma sim_low : forall c n n1 pc pc' e s o s', n <= n1 -> sim c n1 pc pc' e s o s' -> sim c n pc pc' e s o s'.
  Proof.
    intros c n n1 pc pc' e s o s' L H sB T r Hu. destruct (H sB T r Hu) as (T2 & p & e' & r' & S2 & Q2 & A).
    exists T2, p, e', r'. split; [exact S2|]. split; [|exact A]. intros t Ht. apply Q2. lia.
  Qed.
  Lemma sim_end : forall c n pc pe pe' e s o s', o <> ONormal -> sim c n pc pe e s o s' -> sim c n pc pe' e s o s'.
  Proof.
    intros c n pc pe pe' e s o s' Ho H sB T r Hu. destruct (H sB T r Hu) as (T2 & p & e' & r' & S2 & Q2 & A).
    exists T2, p, e', r'. split; [exact S2|]. split; [exact Q2|]. destruct o; try exact A. congruence.
  Qed.
  (** What follows a statement that ends normally. *)
  Lemma sim_then : forall c n n1 pc1 pc2 pc3 e s1 o s2, n <= n1 ->
    sim c n pc1 pc2 e s1 o s2 -> (o = ONormal -> runs n1 pc2 pc3 e s2 s2) -> sim c n pc1 pc3 e s1 o s2.
  Proof.
    intros c n n1 pc1 pc2 pc3 e s1 o s2 L H1 H2. destruct o; try (eapply sim_end; [discriminate|exact H1]).
    apply runs_sim. eapply runs_trans; [exact L|eapply sim_runs; exact H1|auto].
  Qed.

  (** Single instructions *)
  Lemma run_label : forall n pc l e s, nth_error C pc = Some (Label l) -> runs n pc (S pc) e s s.
  Proof.
    intros n pc l e s H T r. exists T. split; [|apply pres_refl].
    apply steps_one. unfold step. cbn [m_pc]. rewrite H. reflexivity.
  Qed.
  Lemma run_bal : forall n pc l e s pc', nth_error C pc = Some (Bal l) -> find_label C l = Some pc' -> runs n pc pc' e s s.
  Proof.
    intros n pc l e s pc' H Hl T r. exists T. split; [|apply pres_refl].
    apply steps_one. unfold step, jump. cbn [m_pc]. rewrite H, Hl. reflexivity.
  Qed.
  Lemma step_label : forall pc l T s e r, nth_error C pc = Some (Label l) ->
    steps (mk_mach pc T s e r) (mk_mach (S pc) T s e r).
  Proof. intros pc l T s e r H. apply steps_one. unfold step. cbn [m_pc]. rewrite H. reflexivity. Qed.
  Lemma step_bal : forall pc l T s e r pc', nth_error C pc = Some (Bal l) -> find_label C l = Some pc' ->
    steps (mk_mach pc T s e r) (mk_mach pc' T s e r).
  Proof. intros pc l T s e r pc' H Hl. apply steps_one. unfold step, jump. cbn [m_pc]. rewrite H, Hl. reflexivity. Qed.
  Lemma step_bcc : forall pc k o a b l T s e r, nth_error C pc = Some (Bcc k o a b l) ->
    holds W k o (oval T s a) (oval T s b) = false ->
    steps (mk_mach pc T s e r) (mk_mach (S pc) T s e r).
  Proof.
    intros pc k o a b l T s e r H Hh. apply steps_one.
    unfold step. cbn [m_pc]. rewrite H, !val_oval, Hh. reflexivity.
  Qed.
  Lemma step_bcc_jump : forall pc k o a b l T s e r pc', nth_error C pc = Some (Bcc k o a b l) ->
    holds W k o (oval T s a) (oval T s b) = true -> find_label C l = Some pc' ->
    steps (mk_mach pc T s e r) (mk_mach pc' T s e r).
  Proof.
    intros pc k o a b l T s e r pc' H Hh Hl. apply steps_one.
    unfold step, jump. cbn [m_pc]. rewrite H, !val_oval, Hh, Hl. reflexivity.
  Qed.
  Lemma step_move : forall pc t a T s e r, nth_error C pc = Some (Move (OTemp t) a) ->
    steps (mk_mach pc T s e r) (mk_mach (S pc) (upd T t (oval T s a)) s e r).
  Proof. intros pc t a T s e r H. apply steps_one. unfold step. cbn [m_pc]. rewrite H, !val_oval. reflexivity. Qed.
  Lemma step_move_var : forall pc x a T s e r, nth_error C pc = Some (Move (var_operand x) a) ->
    steps (mk_mach pc T s e r) (mk_mach (S pc) T (set_var s x (oval T s a)) e r).
  Proof. intros pc x a T s e r H. apply steps_one. unfold step. cbn [m_pc]. rewrite H, !val_oval. destruct x; reflexivity. Qed.
  Lemma step_bin : forall pc o a b t T s e r, nth_error C pc = Some (Bin o a b (OTemp t)) ->
    steps (mk_mach pc T s e r) (mk_mach (S pc) (upd T t (w_bin W o (oval T s a) (oval T s b))) s e r).
  Proof. intros pc o a b t T s e r H. apply steps_one. unfold step. cbn [m_pc]. rewrite H, !val_oval. reflexivity. Qed.
  Lemma step_setcmp : forall pc k o a b t T s e r, nth_error C pc = Some (SetCmp k o a b (OTemp t)) ->
    steps (mk_mach pc T s e r) (mk_mach (S pc) (upd T t (b2z (holds W k o (oval T s a) (oval T s b)))) s e r).
  Proof. intros pc k o a b t T s e r H. apply steps_one. unfold step. cbn [m_pc]. rewrite H, !val_oval. reflexivity. Qed.
  Lemma step_xor : forall pc a b t T s e r, nth_error C pc = Some (Xor a b (OTemp t)) ->
    steps (mk_mach pc T s e r) (mk_mach (S pc) (upd T t (Z.lxor (oval T s a) (oval T s b))) s e r).
  Proof. intros pc a b t T s e r H. apply steps_one. unfold step. cbn [m_pc]. rewrite H, !val_oval. reflexivity. Qed.
  Lemma step_call : forall pc f a t T s e r w g e', nth_error C pc = Some (Call f a (OTemp t)) ->
    w_call W f (oval T s a) (glob s) e = (w, g, e') ->
    steps (mk_mach pc T s e r) (mk_mach (S pc) (upd T t w) (called s f (oval T s a) g) e' r).
  Proof.
    intros pc f a t T s e r w g e' H Hc. apply steps_one. unfold step. cbn [m_pc m_temps m_st m_err m_ret].
    rewrite H, !val_oval, Hc. reflexivity.
  Qed.
  Lemma step_has : forall pc t T s e r, nth_error C pc = Some (HasError (OTemp t)) ->
    steps (mk_mach pc T s e r) (mk_mach (S pc) (upd T t (match e with Some _ => 1 | None => 0 end)%Z) s e r).
  Proof. intros pc t T s e r H. apply steps_one. unfold step. cbn [m_pc]. rewrite H. reflexivity. Qed.
  Lemma step_return : forall pc a T s e r, nth_error C pc = Some (Return a) ->
    steps (mk_mach pc T s e r) (mk_mach (S pc) T s e (Some (option_map (oval T s) a))).
  Proof.
    intros pc a T s e r H. apply steps_one. unfold step. cbn [m_pc]. rewrite H. cbn [m_temps m_st m_err].
    destruct a as [a|]; cbn [option_map]; rewrite ?val_oval; reflexivity.
  Qed.
  Lemma step_throw : forall pc a T s r, nth_error C pc = Some (ThrowError a) ->
    steps (mk_mach pc T s None r) (mk_mach (S pc) T s (Some (oval T s a)) r).
  Proof. intros pc a T s r H. apply steps_one. unfold step. cbn [m_pc]. rewrite H, val_oval. reflexivity. Qed.
  Lemma step_remove : forall pc x T s c r, nth_error C pc = Some (RemoveError (OLoc x)) ->
    steps (mk_mach pc T s (Some c) r) (mk_mach (S pc) T (set_loc s x c) None r).
  Proof. intros pc x T s c r H. apply steps_one. unfold step. cbn [m_pc]. rewrite H. reflexivity. Qed.

  Lemma holds_eq : forall a b, holds W KSigned EQ a b = Z.eqb a b.
  Proof.
    intros a b. unfold holds, order. destruct (Z.compare_spec a b); symmetry;
      [apply Z.eqb_eq|apply Z.eqb_neq|apply Z.eqb_neq]; lia.
  Qed.

  (** * Expressions *)
  Lemma eval_loc : forall e s r s', eval W e s r s' -> loc s' = loc s.
  Proof. intros e s r s' H. induction H; try congruence; cbn [called loc]; assumption. Qed.
  Lemma eval_calls : forall e s r s', eval W e s r s' -> calls e = false -> s' = s.
  Proof.
    intros e s r s' H. induction H; intros Hc; cbn [calls] in Hc; try discriminate; try reflexivity;
      repeat match goal with
      | H : (_ || _)%bool = false |- _ => apply orb_false_iff in H; destruct H
      end;
      repeat match goal with
      | IH : ?c = false -> _, H : ?c = false |- _ => specialize (IH H)
      end; try congruence.
    destruct t; (assert (s2 = s1) by auto); congruence.
  Qed.


  Lemma fresh_cexpr : forall k c e n code o n', cexpr (cbody k) c e n = Ok (code, o, n') -> n <= n'.
  Proof. intros k c e n code o n' H. apply (fresh_le n n' code). eapply cexpr_fresh; [apply cbody_fresh|exact H]. Qed.

  Lemma operand_of : forall k c e n code o n', cexpr (cbody k) c e n = Ok (code, o, n') ->
    match o with
    | OImm _ => True
    | OLoc x => e = EVar (Loc x)
    | OGlob g => e = EVar (Glob g)
    | OTemp t => t < n'
    end.
  Proof.
    intros k c e n code o n' H. destruct e; cbn [cexpr] in H.
    - okinv H. exact Logic.I.
    - okinv H. destruct x; cbn; auto.
    - bnd3 H ca oa n1 E1. bnd3 H cb ob n2 E2. okinv H. apply fresh_cexpr in E1. apply fresh_cexpr in E2. lia.
    - bnd3 H ca oa n1 E1. bnd3 H cb ob n2 E2. okinv H. apply fresh_cexpr in E1. apply fresh_cexpr in E2. lia.
    - bnd3 H ca oa n1 E1. bnd3 H cb ob n2 E2. okinv H. apply fresh_cexpr in E1. apply fresh_cexpr in E2. lia.
    - bnd3 H ca oa n1 E1. bnd3 H cb ob n2 E2. okinv H. apply fresh_cexpr in E1. apply fresh_cexpr in E2. lia.
    - bnd3 H ca oa n1 E1. destruct oa; okinv H; lia.
    - bnd3 H cq oq n0 E0. bnd3 H ca oa n1 E1. bnd3 H cb ob n2 E2. okinv H.
      apply fresh_cexpr in E0. apply fresh_cexpr in E1. apply fresh_cexpr in E2. lia.
    - bnd3 H ca oa n1 E1. destruct (if is_var oa then _ else _) as ((cm & arg) & n2). destruct errable.
      + bnd2 H ch n3 E2. okinv H. apply has_error_fresh in E2; [|apply cbody_fresh]. apply fresh_le in E2. lia.
      + okinv H. lia.
  Qed.

  Definition evals (n pc pc' : nat) (e : option Z) (s s' : state) (o : operand) (v : Z) : Prop :=
    forall T r, exists T', steps (mk_mach pc T s e r) (mk_mach pc' T' s' e r) /\ pres n T T' /\ oval T' s' o = v.
  Lemma evals_runs : forall n pc pc' e s s' o v, evals n pc pc' e s s' o v -> runs n pc pc' e s s'.
  Proof. intros n pc pc' e s s' o v H T r. destruct (H T r) as (T' & A & B & _). eauto. Qed.

  Definition stable (n1 : nat) (s1 s2 : state) (o : operand) : Prop :=
    match o with
    | OImm _ => True
    | OLoc x => loc s2 x = loc s1 x
    | OGlob g => glob s2 g = glob s1 g
    | OTemp t => t < n1
    end.
  Lemma stable_val : forall n1 s1 s2 o T T', stable n1 s1 s2 o -> pres n1 T T' -> oval T' s2 o = oval T s1 o.
  Proof. intros n1 s1 s2 o T T' H Q. destruct o; cbn in *; auto. Qed.
  Lemma two : forall n n1 pc pc1 pc2 e s s1 s2 oa u ob v, n <= n1 ->
    evals n pc pc1 e s s1 oa u -> evals n1 pc1 pc2 e s1 s2 ob v -> stable n1 s1 s2 oa ->
    forall T r, exists T', steps (mk_mach pc T s e r) (mk_mach pc2 T' s2 e r) /\ pres n T T' /\
      oval T' s2 oa = u /\ oval T' s2 ob = v.
  Proof.
    intros n n1 pc pc1 pc2 e s s1 s2 oa u ob v L H1 H2 Hs T r.
    destruct (H1 T r) as (T1 & S1 & Q1 & V1). destruct (H2 T1 r) as (T2 & S2 & Q2 & V2).
    exists T2. split; [eapply steps_trans; eassumption|]. split; [eapply pres_trans; eassumption|]. split; [|exact V2].
    rewrite (stable_val _ _ _ _ _ _ Hs Q2). exact V1.
  Qed.
  Lemma stable_ordered : forall k c a n ca oa n1 b s1 r s2, cexpr (cbody k) c a n = Ok (ca, oa, n1) ->
    ordered a b = true -> eval W b s1 r s2 -> stable n1 s1 s2 oa.
  Proof.
    intros k c a n ca oa n1 b s1 r s2 H Ho He. apply operand_of in H. destruct oa; cbn; auto.
    - rewrite (eval_loc _ _ _ _ He). reflexivity.
    - subst a. cbn in Ho. apply negb_true_iff in Ho. rewrite (eval_calls _ _ _ _ He Ho). reflexivity.
  Qed.

  (** The end of the function. *)
  Variable pe : nat.
  Definition tail_placed : Prop := placed pe [Label error_label; Return None; Bal end_label; Label end_label; FnEnd].
  Hypothesis Htail : tail_placed.

  Ltac crunch := repeat match goal with
    | H : placed _ (_ ++ _) |- _ => apply placed_app in H; destruct H
    | H : placed _ (Label _ :: _) |- _ => pose proof (placed_label _ _ _ H); apply placed_cons in H; destruct H
    | H : placed _ (_ :: _) |- _ => apply placed_cons in H; destruct H
    | H : placed _ [] |- _ => clear H
    end.

  Lemma find_error : find_label C error_label = Some pe.
  Proof. eapply placed_label. exact Htail. Qed.
  Lemma find_end : find_label C end_label = Some (pe + 3).
  Proof.
    pose proof Htail as H. unfold tail_placed in H. crunch. replace (pe + 3) with (S (S (S pe))) by lia. assumption.
  Qed.
  Lemma error_tail : forall T s e r, steps (mk_mach pe T s e r) (mk_mach (pe + 3) T s e (Some None)).
  Proof.
    intros T s e r. pose proof Htail as H. unfold tail_placed in H. crunch.
    eapply steps_trans; [eapply step_label; eassumption|].
    eapply steps_trans; [eapply step_return; eassumption|].
    eapply step_bal; [eassumption|exact find_end].
  Qed.

  Lemma has_error_none : forall k c n code n' pc s, has_error (cbody k) c n = Ok (code, n') -> placed pc code ->
    runs n pc (pc + length code) None s s.
  Proof.
    intros k c n code n' pc s H Hp T r. unfold has_error in H. bnd2 H cu n1 E. okinv H.
    cbn [app] in *. crunch. exists (upd T n 0%Z). split; [|apply pres_upd; lia].
    eapply steps_trans; [eapply step_has; eassumption|].
    eapply steps_trans; [eapply step_bcc; [eassumption|]; cbn [oval]; rewrite upd_same, holds_eq; reflexivity|].
    eapply steps_trans; [eapply step_bal; eassumption|].
    match goal with |- steps (mk_mach ?a _ _ _ _) (mk_mach ?b _ _ _ _) => replace b with (S a) end.
    - eapply step_label; eassumption.
    - cbn [length]. rewrite app_length. cbn [length]. lia.
  Qed.

  Lemma has_error_some : forall k c n code n' pc pcend s x, has_error (cbody k) c n = Ok (code, n') -> placed pc code -> wf0 c ->
    sim c n pc pcend (Some x) s (OError x) s.
  Proof.
    intros k c n code n' pc pcend s x H Hp Hw sB T r (_ & Hu). cbn [after pend] in Hu. unfold has_error in H. bnd2 H cu n1 E. okinv H.
    cbn [app] in *. crunch.
    assert (S1 : steps (mk_mach pc T s (Some x) r) (mk_mach (S (S (S (S pc)))) (upd T n 1%Z) s (Some x) r)).
    { eapply steps_trans; [eapply step_has; eassumption|].
      eapply steps_trans; [eapply step_bcc_jump; [eassumption| |eassumption]; cbn [oval]; rewrite upd_same, holds_eq; reflexivity|].
      eapply step_label; eassumption. }
    match goal with H : placed _ cu |- _ => destruct (Hu k c (n + 3) cu n' _ (upd T n 1%Z) r E Hw H) as (T' & S2 & Q) end.
    assert (Q' : pres n T T').
    { intros t Ht. rewrite Q by lia. unfold upd. destruct (Nat.eqb_spec t n); [lia|reflexivity]. }
    unfold arrives. destruct Hw as (_ & _ & _ & Kc). destruct (c_catch c) as [|l0 ls] eqn:Ec; cbn [hd] in *.
    - exists T', (pe + 3), (Some x), (Some None). repeat split; auto using find_end.
      eapply steps_trans; [exact S1|]. eapply steps_trans; [exact S2|].
      eapply steps_trans; [eapply step_bal; [eassumption|exact find_error]|]. apply error_tail.
    - inversion Kc as [|? ? (pl & Hpl) _]; subst. exists T', pl, (Some x), r. repeat split; auto.
      eapply steps_trans; [exact S1|]. eapply steps_trans; [exact S2|]. eapply step_bal; eassumption.
  Qed.

  Ltac splitb := repeat match goal with H : (_ && _)%bool = true |- _ => apply andb_true_iff in H; destruct H end.

  Lemma evals_sim : forall c n n1 pc1 pc2 pc3 e s1 s2 o v x s3, n <= n1 ->
    evals n pc1 pc2 e s1 s2 o v -> sim c n1 pc2 pc3 e s2 x s3 -> sim c n pc1 pc3 e s1 x s3.
  Proof. intros. eapply sim_seq; [eassumption|eapply evals_runs; eassumption|assumption]. Qed.
  Lemma evals_low : forall n n1 pc pc' e s s' o v, n <= n1 -> evals n1 pc pc' e s s' o v -> evals n pc pc' e s s' o v.
  Proof.
    intros n n1 pc pc' e s s' o v L H T r. destruct (H T r) as (T' & A & B & D). exists T'. repeat split; auto.
    intros t Ht. apply B. lia.
  Qed.

  Ltac pcs := repeat (progress (rewrite ?app_length; cbn [length])); lia.
  Ltac topc x := match goal with |- steps _ (mk_mach ?b _ _ _ _) => replace b with x by pcs end.

  Definition expr_spec (e : expr) (s : state) (v : Z + Z) (s' : state) : Prop :=
    forall k c n code o n' pc er q, cexpr (cbody k) c e n = Ok (code, o, n') -> placed pc code -> wf0 c ->
      ok_expr P q e = true -> er = None \/ q = true ->
      match v with
      | inl v => evals n pc (pc + length code) er s s' o v
      | inr x => forall pcend, sim c n pc pcend er s (OError x) s'
      end.

  Lemma pair_sim : forall a b s s1 s2 u v k c n m ca oa n1 cb ob n2 pc er q,
    expr_spec a s (inl u) s1 -> expr_spec b s1 (inl v) s2 -> eval W b s1 (inl v) s2 ->
    cexpr (cbody k) c a m = Ok (ca, oa, n1) -> cexpr (cbody k) c b n1 = Ok (cb, ob, n2) -> n <= m ->
    placed pc ca -> placed (pc + length ca) cb -> wf0 c -> ok_expr P q a = true -> ok_expr P q b = true ->
    ordered a b = true -> er = None \/ q = true ->
    forall T r, exists T', steps (mk_mach pc T s er r) (mk_mach (pc + length ca + length cb) T' s2 er r) /\ pres n T T' /\
      oval T' s2 oa = u /\ oval T' s2 ob = v.
  Proof.
    intros a b s s1 s2 u v k c n m ca oa n1 cb ob n2 pc er q Ha Hb He Ea Eb L Pa Pb Hw Oa Ob Oo Hq.
    eapply (two n n1).
    - pose proof (fresh_cexpr _ _ _ _ _ _ _ Ea). lia.
    - eapply evals_low; [exact L|]. eapply Ha; eassumption.
    - eapply Hb; eassumption.
    - eapply stable_ordered; eassumption.
  Qed.

  Lemma expr_sim : forall e s v s', eval W e s v s' -> expr_spec e s v s'.
  Proof.
    intros e s v s' H. induction H; intros kk cc n code oo n' pc ee qq E Hp Hw Hok Hq; cbn [cexpr ok_expr] in E, Hok; splitb.
    - okinv E. intros T r. exists T. rewrite Nat.add_0_r. split; [constructor|]. split; [apply pres_refl|reflexivity].
    - okinv E. intros T r. exists T. rewrite Nat.add_0_r. split; [constructor|]. split; [apply pres_refl|]. destruct x; reflexivity.
    - (* binary *)
      bnd3 E ca oa n1 E1. bnd3 E cb ob n2 E2. okinv E. cbn [app] in *. crunch. intros T r.
      destruct (pair_sim a b s s1 s2 u v kk cc n (S n) ca oa n1 cb ob n' pc ee qq) with (T := T) (r := r) as (T' & S1 & Q & V1 & V2); auto.
      eexists. split; [|split].
      + eapply steps_trans; [exact S1|]. topc (S (pc + length ca + length cb)). eapply step_bin; eassumption.
      + intros t Ht. unfold upd. destruct (Nat.eqb_spec t n); [lia|]. apply Q. exact Ht.
      + cbn [oval]. rewrite upd_same, V1, V2. reflexivity.
    - bnd3 E ca oa n1 E1. bnd3 E cb ob n2 E2. okinv E. cbn [app] in *. crunch. intros pcend.
      eapply sim_low; [|eapply IHeval; eassumption]. lia.
    - bnd3 E ca oa n1 E1. bnd3 E cb ob n2 E2. okinv E. cbn [app] in *. crunch. intros pcend.
      eapply (evals_sim cc n n1); [|eapply evals_low; [|eapply IHeval1; eassumption]|eapply IHeval2; eassumption].
      + apply fresh_cexpr in E1. lia.
      + lia.
    - (* comparison *)
      bnd3 E ca oa n1 E1. bnd3 E cb ob n2 E2. okinv E. cbn [app] in *. crunch. intros T r.
      destruct (pair_sim a b s s1 s2 u v kk cc n (S n) ca oa n1 cb ob n' pc ee qq) with (T := T) (r := r) as (T' & S1 & Q & V1 & V2); auto.
      eexists. split; [|split].
      + eapply steps_trans; [exact S1|]. topc (S (pc + length ca + length cb)). eapply step_setcmp; eassumption.
      + intros t Ht. unfold upd. destruct (Nat.eqb_spec t n); [lia|]. apply Q. exact Ht.
      + cbn [oval]. rewrite upd_same, V1, V2. reflexivity.
    - bnd3 E ca oa n1 E1. bnd3 E cb ob n2 E2. okinv E. cbn [app] in *. crunch. intros pcend.
      eapply sim_low; [|eapply IHeval; eassumption]. lia.
    - bnd3 E ca oa n1 E1. bnd3 E cb ob n2 E2. okinv E. cbn [app] in *. crunch. intros pcend.
      eapply (evals_sim cc n n1); [|eapply evals_low; [|eapply IHeval1; eassumption]|eapply IHeval2; eassumption].
      + apply fresh_cexpr in E1. lia.
      + lia.
    - (* and *)
      bnd3 E ca oa n1 E1. bnd3 E cb ob n2 E2. okinv E. cbn [app] in *. crunch. intros T r.
      edestruct IHeval as (T1 & S1 & Q1 & V1); [eassumption|eassumption|eassumption|eassumption|eassumption|].
      exists (upd T1 n 0%Z). split; [|split].
      + eapply steps_trans; [exact S1|]. eapply steps_trans; [eapply step_move; eassumption|]. rewrite V1.
        eapply steps_trans; [eapply step_bcc_jump; [eassumption| |eassumption]; cbn [oval]; rewrite upd_same, holds_eq; reflexivity|].
        match goal with |- steps (mk_mach ?a _ _ _ _) _ => topc (S a) end. eapply step_label; eassumption.
      + intros t Ht. unfold upd. destruct (Nat.eqb_spec t n); [lia|]. apply Q1. lia.
      + cbn [oval]. apply upd_same.
    - bnd3 E ca oa n1 E1. bnd3 E cb ob n2 E2. okinv E. cbn [app] in *. crunch.
      assert (S0 : runs n pc (S (S (pc + length ca))) ee s s1).
      { intros T rr. edestruct IHeval1 as (T1 & S1 & Q1 & V1); [eassumption|eassumption|eassumption|eassumption|eassumption|].
        exists (upd T1 n 1%Z). split.
        - eapply steps_trans; [exact S1|]. eapply steps_trans; [eapply step_move; eassumption|]. rewrite V1.
          eapply step_bcc; [eassumption|]; cbn [oval]; rewrite upd_same, holds_eq; reflexivity.
        - intros t Ht. unfold upd. destruct (Nat.eqb_spec t n); [lia|]. apply Q1. lia. }
      pose proof (fresh_cexpr _ _ _ _ _ _ _ E1) as L1.
      destruct r as [v|x].
      + intros T r. destruct (S0 T r) as (T1 & S1 & Q1).
        edestruct IHeval2 as (T2 & S2 & Q2 & V2); [eassumption|eassumption|eassumption|eassumption|eassumption|].
        exists (upd T2 n v). split; [|split].
        * eapply steps_trans; [exact S1|]. eapply steps_trans; [exact S2|].
          eapply steps_trans; [eapply step_move; eassumption|]. rewrite V2.
          match goal with |- steps (mk_mach ?a _ _ _ _) _ => topc (S a) end. eapply step_label; eassumption.
        * intros t Ht. unfold upd. destruct (Nat.eqb_spec t n); [lia|]. rewrite Q2 by lia. apply Q1. lia.
        * cbn [oval]. apply upd_same.
      + intros pcend. eapply (sim_seq cc n n1); [lia|exact S0|]. eapply IHeval2; eassumption.
    - bnd3 E ca oa n1 E1. bnd3 E cb ob n2 E2. okinv E. cbn [app] in *. crunch. intros pcend.
      eapply sim_low; [|eapply IHeval; eassumption]. lia.
    - (* or *)
      bnd3 E ca oa n1 E1. bnd3 E cb ob n2 E2. okinv E. cbn [app] in *. crunch. intros T r.
      edestruct IHeval as (T1 & S1 & Q1 & V1); [eassumption|eassumption|eassumption|eassumption|eassumption|].
      exists (upd T1 n 1%Z). split; [|split].
      + eapply steps_trans; [exact S1|]. eapply steps_trans; [eapply step_move; eassumption|]. rewrite V1.
        eapply steps_trans; [eapply step_bcc_jump; [eassumption| |eassumption]; cbn [oval]; rewrite upd_same, holds_eq; reflexivity|].
        match goal with |- steps (mk_mach ?a _ _ _ _) _ => topc (S a) end. eapply step_label; eassumption.
      + intros t Ht. unfold upd. destruct (Nat.eqb_spec t n); [lia|]. apply Q1. lia.
      + cbn [oval]. apply upd_same.
    - bnd3 E ca oa n1 E1. bnd3 E cb ob n2 E2. okinv E. cbn [app] in *. crunch.
      assert (S0 : runs n pc (S (S (pc + length ca))) ee s s1).
      { intros T rr. edestruct IHeval1 as (T1 & S1 & Q1 & V1); [eassumption|eassumption|eassumption|eassumption|eassumption|].
        exists (upd T1 n 0%Z). split.
        - eapply steps_trans; [exact S1|]. eapply steps_trans; [eapply step_move; eassumption|]. rewrite V1.
          eapply step_bcc; [eassumption|]; cbn [oval]; rewrite upd_same, holds_eq; reflexivity.
        - intros t Ht. unfold upd. destruct (Nat.eqb_spec t n); [lia|]. apply Q1. lia. }
      pose proof (fresh_cexpr _ _ _ _ _ _ _ E1) as L1.
      destruct r as [v|x].
      + intros T r. destruct (S0 T r) as (T1 & S1 & Q1).
        edestruct IHeval2 as (T2 & S2 & Q2 & V2); [eassumption|eassumption|eassumption|eassumption|eassumption|].
        exists (upd T2 n v). split; [|split].
        * eapply steps_trans; [exact S1|]. eapply steps_trans; [exact S2|].
          eapply steps_trans; [eapply step_move; eassumption|]. rewrite V2.
          match goal with |- steps (mk_mach ?a _ _ _ _) _ => topc (S a) end. eapply step_label; eassumption.
        * intros t Ht. unfold upd. destruct (Nat.eqb_spec t n); [lia|]. rewrite Q2 by lia. apply Q1. lia.
        * cbn [oval]. apply upd_same.
      + intros pcend. eapply (sim_seq cc n n1); [lia|exact S0|]. eapply IHeval2; eassumption.
    - bnd3 E ca oa n1 E1. bnd3 E cb ob n2 E2. okinv E. cbn [app] in *. crunch. intros pcend.
      eapply sim_low; [|eapply IHeval; eassumption]. lia.
    - (* not *)
      bnd3 E ca oa n1 E1.
      pose proof (fresh_cexpr _ _ _ _ _ _ _ E1) as L1.
      assert (Hn : code = ca ++ [Xor oa (OImm 1) (OTemp n1)] -> oo = OTemp n1 ->
                   evals n pc (pc + length code) ee s s1 oo (b2z (negb b))).
      { intros -> ->. crunch. intros T r.
        edestruct IHeval as (T1 & S1 & Q1 & V1); [eassumption|eassumption|eassumption|eassumption|eassumption|].
        eexists. split; [|split].
        - eapply steps_trans; [exact S1|]. topc (S (pc + length ca)). eapply step_xor; eassumption.
        - intros t Ht. unfold upd. destruct (Nat.eqb_spec t n1); [lia|]. apply Q1. lia.
        - cbn [oval]. rewrite upd_same, V1. destruct b; reflexivity. }
      destruct oa; okinv E; try (apply Hn; reflexivity).
      intros T r. edestruct IHeval as (T1 & S1 & Q1 & V1); [eassumption|eassumption|eassumption|eassumption|eassumption|].
      exists T1. split; [exact S1|]. split; [exact Q1|]. cbn [oval] in *. subst z. destruct b; reflexivity.
    - bnd3 E ca oa n1 E1. intros pcend.
      assert (Hca : placed pc ca) by (destruct oa; okinv E; crunch; assumption).
      eapply IHeval; eassumption.
    - (* conditional *)
      bnd3 E cq oq n0 E0. bnd3 E ca oa n1 E1. bnd3 E cb ob n2 E2. okinv E. cbn [app] in *. crunch.
      pose proof (fresh_cexpr _ _ _ _ _ _ _ E0) as L0. pose proof (fresh_cexpr _ _ _ _ _ _ _ E1) as L1.
      destruct t.
      + assert (S0 : runs n pc (S (pc + length cq)) ee s s1).
        { intros T rr. edestruct IHeval1 as (T1 & S1 & Q1 & V1); [eassumption|eassumption|eassumption|eassumption|eassumption|].
          exists T1. split.
          - eapply steps_trans; [exact S1|]. eapply step_bcc; [eassumption|]; cbn [oval]; rewrite V1, holds_eq; reflexivity.
          - intros t Ht. apply Q1. lia. }
        destruct r as [v|x].
        * intros T r. destruct (S0 T r) as (T1 & S1 & Q1).
          edestruct IHeval2 as (T2 & S2 & Q2 & V2); [eassumption|eassumption|eassumption|eassumption|eassumption|].
          exists (upd T2 n v). split; [|split].
          -- eapply steps_trans; [exact S1|]. eapply steps_trans; [exact S2|].
             eapply steps_trans; [eapply step_move; eassumption|]. rewrite V2.
             eapply steps_trans; [eapply step_bal; eassumption|].
             match goal with |- steps (mk_mach ?a _ _ _ _) _ => topc (S a) end. eapply step_label; eassumption.
          -- intros t Ht. unfold upd. destruct (Nat.eqb_spec t n); [lia|]. rewrite Q2 by lia. apply Q1. lia.
          -- cbn [oval]. apply upd_same.
        * intros pcend. eapply (sim_seq cc n n0); [lia|exact S0|]. eapply IHeval2; eassumption.
      + match goal with H : nth_error C ?p = Some (Label (n + 1)) |- _ => rename H into IL; set (pl := p) in * end.
        assert (S0 : runs n pc (S pl) ee s s1).
        { intros T rr. edestruct IHeval1 as (T1 & S1 & Q1 & V1); [eassumption|eassumption|eassumption|eassumption|eassumption|].
          exists T1. split.
          - eapply steps_trans; [exact S1|].
            eapply steps_trans; [eapply step_bcc_jump; [eassumption| |eassumption]; cbn [oval]; rewrite V1, holds_eq; reflexivity|].
            eapply step_label; eassumption.
          - intros t Ht. apply Q1. lia. }
        destruct r as [v|x].
        * intros T r. destruct (S0 T r) as (T1 & S1 & Q1).
          edestruct IHeval2 as (T2 & S2 & Q2 & V2); [eassumption|eassumption|eassumption|eassumption|eassumption|].
          exists (upd T2 n v). split; [|split].
          -- eapply steps_trans; [exact S1|]. eapply steps_trans; [exact S2|].
             eapply steps_trans; [eapply step_move; eassumption|]. rewrite V2. subst pl.
             match goal with |- steps (mk_mach ?a _ _ _ _) _ => topc (S a) end. eapply step_label; eassumption.
          -- intros t Ht. unfold upd. destruct (Nat.eqb_spec t n); [lia|]. rewrite Q2 by lia. apply Q1. lia.
          -- cbn [oval]. apply upd_same.
        * intros pcend. eapply (sim_seq cc n n1); [lia|exact S0|]. eapply IHeval2; eassumption.
    - bnd3 E cq oq n0 E0. bnd3 E ca oa n1 E1. bnd3 E cb ob n2 E2. okinv E. cbn [app] in *. crunch. intros pcend.
      eapply sim_low; [|eapply IHeval; eassumption]. lia.
    - (* call *)
      bnd3 E ca oa n1 E1.
      pose proof (fresh_cexpr _ _ _ _ _ _ _ E1) as L1.
      destruct (if is_var oa then ([], oa, n1) else ([Move (OTemp n1) oa], OTemp n1, S n1)) as ((cm & arg) & n2) eqn:Em.
      assert (Hw' : w_call W f v (glob s1) ee = (w, g, ee)).
      { destruct ee as [x|]; [|assumption]. destruct Hq as [Hq|Hq]; [discriminate|]. subst qq.
        match goal with H : (negb true || _)%bool = true |- _ => cbn [negb orb] in H end. splitb. apply HP; assumption. }
      assert (Hc : placed pc (ca ++ cm ++ [Call f arg (OTemp n2)]) ->
                   evals n pc (pc + length (ca ++ cm ++ [Call f arg (OTemp n2)])) ee s (called s1 f v g) (OTemp n2) w /\ n <= n2).
      { intros Hp'. destruct (is_var oa); injection Em; clear Em; intros; subst cm arg n2; cbn [app] in *; crunch; (split; [|lia]).
        - intros T r. edestruct IHeval as (T1 & S1 & Q1 & V1); [eassumption|eassumption|eassumption|eassumption|eassumption|].
          exists (upd T1 n1 w). split; [|split].
          + eapply steps_trans; [exact S1|]. topc (S (pc + length ca)). rewrite <- V1 in Hw' |- *. eapply step_call; eassumption.
          + intros t Ht. unfold upd. destruct (Nat.eqb_spec t n1); [lia|]. apply Q1. lia.
          + cbn [oval]. apply upd_same.
        - intros T r. edestruct IHeval as (T1 & S1 & Q1 & V1); [eassumption|eassumption|eassumption|eassumption|eassumption|].
          exists (upd (upd T1 n1 v) (S n1) w). split; [|split].
          + eapply steps_trans; [exact S1|]. eapply steps_trans; [eapply step_move; eassumption|]. rewrite V1.
            topc (S (S (pc + length ca))).
            replace (called s1 f v g) with (called s1 f (oval (upd T1 n1 v) s1 (OTemp n1)) g) by (cbn [oval]; rewrite upd_same; reflexivity).
            eapply step_call; [eassumption|]. cbn [oval]. rewrite upd_same. exact Hw'.
          + intros t Ht. unfold upd. destruct (Nat.eqb_spec t (S n1)); [lia|]. destruct (Nat.eqb_spec t n1); [lia|]. apply Q1. lia.
          + cbn [oval]. apply upd_same. }
      destruct er.
      + bnd2 E ch n3 E2. okinv E. apply placed_app in Hp. destruct Hp as (Hp1 & Hp2). destruct (Hc Hp1) as (Hc1 & Ln).
        assert (ee = None) as ->.
        { destruct Hq as [Hq|Hq]; [exact Hq|]. subst qq.
          match goal with H : (negb true || _)%bool = true |- _ => cbn [negb orb] in H end. splitb. discriminate. }
        intros T r. destruct (Hc1 T r) as (T1 & S1 & Q1 & V1).
        destruct (has_error_none _ _ _ _ _ _ (called s1 f v g) E2 Hp2 T1 r) as (T2 & S2 & Q2).
        exists T2. split; [|split].
        * rewrite app_length, Nat.add_assoc. eapply steps_trans; eassumption.
        * eapply pres_trans; [exact Q1|exact Q2|lia].
        * cbn [oval] in *. rewrite Q2 by lia. exact V1.
      + okinv E. apply Hc. exact Hp.
    - (* a call that fails *)
      bnd3 E ca oa n1 E1.
      pose proof (fresh_cexpr _ _ _ _ _ _ _ E1) as L1.
      destruct (if is_var oa then ([], oa, n1) else ([Move (OTemp n1) oa], OTemp n1, S n1)) as ((cm & arg) & n2) eqn:Em.
      bnd2 E ch n3 E2. okinv E. apply placed_app in Hp. destruct Hp as (Hp1 & Hp2).
      assert (ee = None) as ->.
      { destruct Hq as [Hq|Hq]; [exact Hq|]. subst qq.
        match goal with H : (negb true || _)%bool = true |- _ => cbn [negb orb] in H end. splitb. discriminate. }
      assert (Hc : forall T r, exists T', steps (mk_mach pc T s None r) (mk_mach (pc + length (ca ++ cm ++ [Call f arg (OTemp n2)])) T' (called s1 f v g) (Some c) r) /\ pres n T T').
      { intros T r. edestruct IHeval as (T1 & S1 & Q1 & V1); [eassumption| |eassumption|eassumption|eassumption|].
        { apply placed_app in Hp1. apply Hp1. }
        destruct (is_var oa); injection Em; clear Em; intros; subst cm arg n2; cbn [app] in *; crunch.
        - exists (upd T1 n1 w). split.
          + eapply steps_trans; [exact S1|]. topc (S (pc + length ca)). rewrite <- V1 in *. eapply step_call; eassumption.
          + intros t Ht. unfold upd. destruct (Nat.eqb_spec t n1); [lia|]. apply Q1. lia.
        - exists (upd (upd T1 n1 v) (S n1) w). split.
          + eapply steps_trans; [exact S1|]. eapply steps_trans; [eapply step_move; eassumption|]. rewrite V1.
            topc (S (S (pc + length ca))).
            replace (called s1 f v g) with (called s1 f (oval (upd T1 n1 v) s1 (OTemp n1)) g) by (cbn [oval]; rewrite upd_same; reflexivity).
            eapply step_call; [eassumption|]. cbn [oval]. rewrite upd_same. assumption.
          + intros t Ht. unfold upd. destruct (Nat.eqb_spec t (S n1)); [lia|]. destruct (Nat.eqb_spec t n1); [lia|]. apply Q1. lia. }
      intros pcend sB T r Hu. destruct (Hc T r) as (T1 & S1 & Q1).
      destruct (has_error_some _ _ _ _ _ _ pcend (called s1 f v g) c E2 Hp2 Hw sB T1 r Hu) as (T2 & pc' & e' & r' & S2 & Q2 & A).
      exists T2, pc', e', r'. split; [eapply steps_trans; eassumption|]. split; [|exact A].
      assert (n1 <= n2) by (destruct (is_var oa); injection Em; intros; lia).
      eapply pres_trans; [exact Q1|exact Q2|lia].
    - bnd3 E ca oa n1 E1. intros pcend.
      destruct (if is_var oa then ([], oa, n1) else ([Move (OTemp n1) oa], OTemp n1, S n1)) as ((cm & arg) & n2) eqn:Em.
      assert (Hca : placed pc ca).
      { destruct er; [bnd2 E ch n3 E2|]; okinv E; repeat (apply placed_app in Hp; destruct Hp as (Hp & _)); assumption. }
      eapply IHeval; eassumption.
  Qed.

  (** Conditions *)
  Lemma ccond_sim : forall q s v s', eval W q s v s' ->
    forall k c l is_if n code n' pc er qq pl, ccond (cbody k) c q l is_if n = Ok (code, n') -> placed pc code -> wf0 c ->
      ok_expr P qq q = true -> (is_if = true -> ok_if q = true) -> er = None \/ qq = true -> find_label C l = Some pl ->
      match v with
      | inl v => forall b, v = b2z b ->
          runs n pc (if Bool.eqb b is_if then pc + length code else pl) er s s'
      | inr x => forall pcend, sim c n pc pcend er s (OError x) s'
      end.
  Proof.
    intros q s v s' H k c l is_if n code n' pc er qq pl E Hp Hw Hok Hif Hq Hl.
    assert (Hgen : (r1 <- cexpr (cbody k) c q n ;; let '(cq, oq, n1) := r1 in
              Ok (cq ++ [Bcc KSigned EQ (OImm (if is_if then 0 else 1)%Z) oq l], n1)) = Ok (code, n') ->
      match v with
      | inl v => forall b, v = b2z b -> runs n pc (if Bool.eqb b is_if then pc + length code else pl) er s s'
      | inr x => forall pcend, sim c n pc pcend er s (OError x) s'
      end).
    { intros E'. bnd3 E' cq oq n1 E1. okinv E'. crunch. pose proof (expr_sim _ _ _ _ H k c n cq oq n' pc er qq E1) as X.
      destruct v as [v|x]; [|apply X; assumption].
      intros b -> T r. destruct (X ltac:(assumption) Hw Hok Hq T r) as (T1 & S1 & Q1 & V1).
      exists T1. split; [|exact Q1]. eapply steps_trans; [exact S1|].
      destruct (Bool.eqb b is_if) eqn:Eb.
      - topc (S (pc + length cq)). eapply step_bcc; [eassumption|]. rewrite V1. cbn [oval]. rewrite holds_eq.
        destruct b, is_if; try discriminate Eb; reflexivity.
      - eapply step_bcc_jump; [eassumption| |eassumption]. rewrite V1. cbn [oval]. rewrite holds_eq.
        destruct b, is_if; try discriminate Eb; reflexivity. }
    destruct q as [| | |ck co a b| | | | |]; try exact (Hgen E). clear Hgen. cbn [ccond] in E. cbn [ok_expr] in Hok. splitb.
    bnd3 E ca oa n1 E1. bnd3 E cb ob n2 E2. okinv E. cbn [app] in *. crunch.
    pose proof (fresh_cexpr _ _ _ _ _ _ _ E1) as L1.
    inversion H; subst.
    - intros t Ht T r.
      destruct (pair_sim a b s s1 s' u v0 k c n n ca oa n1 cb ob n' pc er qq) with (T := T) (r := r) as (T' & S1 & Q & V1 & V2);
        auto using expr_sim.
      assert (Hh : holds W ck co u v0 = t) by (destruct t, (holds W ck co u v0); cbn in Ht; congruence).
      exists T'. split; [|exact Q]. eapply steps_trans; [exact S1|].
      assert (Hb : holds W ck (if is_if then negate co else co) u v0 = negb (Bool.eqb t is_if)).
      { destruct is_if; [|subst t; destruct (holds W ck co u v0); reflexivity].
        subst t. specialize (Hif eq_refl). clear - Hif. unfold holds, order.
        destruct ck, co; cbn [ok_if] in Hif; try discriminate Hif; cbn [negate];
          try destruct (w_fcmp W u v0) as [[]|]; try destruct (u ?= v0)%Z; try destruct (_ ?= _)%Z; reflexivity. }
      destruct (Bool.eqb t is_if) eqn:Eb.
      + topc (S (pc + length ca + length cb)). eapply step_bcc; [eassumption|]. rewrite V1, V2. exact Hb.
      + eapply step_bcc_jump; [eassumption| |eassumption]. rewrite V1, V2. exact Hb.
    - intros pcend. eapply (expr_sim a s (inr c0) s'); eassumption.
    - intros pcend. eapply (evals_sim c n n1); [lia| |].
      + eapply (expr_sim a s (inl u) s1); eassumption.
      + eapply (expr_sim b s1 (inr c0) s'); eassumption.
  Qed.

  Lemma cassign_sim : forall x e s v s', eval W e s v s' ->
    forall k c n code n' pc er qq, cassign (cbody k) c x e n = Ok (code, n') -> placed pc code -> wf0 c ->
      ok_expr P qq e = true -> er = None \/ qq = true ->
      match v with
      | inl v => runs n pc (pc + length code) er s (set_var s' x v)
      | inr x => forall pcend, sim c n pc pcend er s (OError x) s'
      end.
  Proof.
    intros x e s v s' H k c n code n' pc er qq E Hp Hw Hok Hq. unfold cassign in E. bnd3 E ce oe n1 E1. okinv E. crunch.
    pose proof (expr_sim _ _ _ _ H k c n ce oe n' pc er qq E1) as X. destruct v as [v|z]; [|apply X; assumption].
    intros T r. destruct (X ltac:(assumption) Hw Hok Hq T r) as (T1 & S1 & Q1 & V1).
    exists T1. split; [|exact Q1]. eapply steps_trans; [exact S1|]. topc (S (pc + length ce)). rewrite <- V1.
    eapply step_move_var. eassumption.
  Qed.

  (** * Statements *)
  Lemma sim_pop_loop : forall c a b n pc pc' e s o s', o <> OBreak -> o <> OContinue ->
    sim (push_loop c a b) n pc pc' e s o s' -> sim c n pc pc' e s o s'.
  Proof. intros c a b n pc pc' e s o s' H1 H2 H. destruct o; try congruence; exact H. Qed.
  Lemma sim_pop_catch : forall c a n pc pc' e s o s', (forall x, o <> OError x) ->
    sim (push_catch c a) n pc pc' e s o s' -> sim c n pc pc' e s o s'.
  Proof. intros c a n pc pc' e s o s' H1 H. destruct o; try exact H. exfalso. eapply H1. reflexivity. Qed.

  Scheme exec_mut := Minimality for exec Sort Prop
    with run_mut := Minimality for run Sort Prop
    with defers_mut := Minimality for defers Sort Prop
    with loop_mut := Minimality for loop Sort Prop.
  Combined Scheme exec_run_ind from exec_mut, run_mut, defers_mut, loop_mut.

  Lemma other_set : forall x y s v, other x y = true -> loc (set_var s y v) x = loc s x.
  Proof.
    intros x [y|g] s v H; [|reflexivity]. cbn in *. unfold upd. apply negb_true_iff in H. rewrite H. reflexivity.
  Qed.

  Lemma keeps_ok : forall x,
    (forall st s o s', exec W st s o s' -> keeps x st = true -> loc s' x = loc s x) /\
    (forall ds b s o s', run W ds b s o s' -> forallb (keeps_b x) ds = true -> keeps_b x b = true -> loc s' x = loc s x) /\
    (forall ds s s', defers W ds s s' -> forallb (keeps_b x) ds = true -> loc s' x = loc s x) /\
    (forall q u b s o s', loop W q u b s o s' -> match u with Some (y, _) => other x y | None => true end = true ->
        keeps_b x b = true -> loc s' x = loc s x).
  Proof.
    intros x. apply exec_run_ind; intros; cbn [keeps keeps_b forallb] in *; splitb;
      repeat match goal with
      | H : eval W _ _ _ _ |- _ => apply eval_loc in H
      end; try congruence.
    - rewrite other_set by assumption. congruence.
    - rewrite H1; [congruence|reflexivity|]. destruct t; assumption.
    - apply H0; [reflexivity|assumption].
    - rewrite H1; [|assumption|assumption]. rewrite other_set by assumption. congruence.
    - apply H0; [reflexivity|assumption].
    - rewrite H2; [|reflexivity|assumption]. cbn [set_loc loc]. unfold upd.
      match goal with H : negb _ = true |- _ => apply negb_true_iff in H; rewrite H end. apply H0; [reflexivity|assumption].
    - apply H0; assumption.
    - apply H0; [|assumption]. rewrite H1, H2. reflexivity.
    - rewrite H2; [|assumption|assumption]. apply H0. assumption.
    - rewrite H3 by assumption. apply H0. assumption.
    - rewrite H2 by assumption. apply H0; [reflexivity|assumption].
    - rewrite H1; [congruence|reflexivity|assumption].
    - rewrite H1; [congruence|reflexivity|assumption].
    - rewrite H4; [|reflexivity|assumption]. rewrite H1; [congruence|reflexivity|assumption].
    - rewrite H5; [|assumption|assumption]. rewrite other_set by assumption. rewrite H3. rewrite H1; [congruence|reflexivity|assumption].
    - rewrite H3. rewrite H1; [congruence|reflexivity|assumption].
  Qed.

  Lemma quiet_any :
    (forall st lp tc acc lp' tc' acc', ok_stmt P true lp tc acc st = true -> ok_stmt P true lp' tc' acc' st = true) /\
    (forall b lp tc acc lp' tc' acc', ok_block P true lp tc acc b = true -> ok_block P true lp' tc' acc' b = true).
  Proof.
    apply stmt_block_ind; intros; cbn [ok_stmt ok_block] in *; splitb; try assumption; try discriminate;
      repeat (apply andb_true_iff; split); eauto.
  Qed.

  Definition exec_spec (x : stmt) (s : state) (o : out) (s' : state) : Prop :=
    forall k c n code n' pc e q lp tc, cstmt (cbody k) c x n = Ok (code, n') -> placed pc code -> wf c ->
      ok_stmt P q lp tc (pending c MAll) x = true -> e = None \/ q = true -> (tc = false -> c_catch c = []) ->
      sim c n pc (pc + length code) e s o s'.
  Definition run_spec (ds : list block) (b : block) (s : state) (o : out) (s' : state) : Prop :=
    forall k c n code n' pc e q lp tc, clist (cbody k) c b n = Ok (code, n') -> placed pc code -> wf c -> top_defers c = ds ->
      ok_block P q lp tc (pending c MAll) b = true -> e = None \/ q = true -> (tc = false -> c_catch c = []) ->
      sim (leave c) n pc (pc + length code) e s o s'.
  Definition defers_spec (ds : list block) (s s' : state) : Prop :=
    Forall (fun d => quiet d) ds -> forall e, Sim e ds s s'.
  Definition loop_spec (q : expr) (u : option (var * expr)) (body : block) (s : state) (o : out) (s' : state) : Prop :=
    forall k c n l1 l2 lc lb nb cb nb' nq cq nq' cu pb e qq tc,
      clist (cbody k) (enter (push_loop c lc lb)) body nb = Ok (cb, nb') ->
      ccond (cbody k) (push_loop c lc lb) q l1 false nq = Ok (cq, nq') ->
      placed pb (Label l1 :: cb ++ cu ++ Label l2 :: cq ++ [Label lb]) ->
      match u with
      | None => cu = [] /\ lc = l2
      | Some (y, ue) => exists cu0 nu nu', cu = Label lc :: cu0 /\
          cassign (cbody k) (push_loop c lc lb) y ue nu = Ok (cu0, nu') /\ n <= nu /\ ok_expr P qq ue = true
      end ->
      n <= nb -> n <= nq -> wf c -> ok_expr P qq q = true -> ok_block P qq true tc (pending c MAll) body = true ->
      e = None \/ qq = true -> (tc = false -> c_catch c = []) ->
      sim c n (S pb + length cb + length cu) (pb + length (Label l1 :: cb ++ cu ++ Label l2 :: cq ++ [Label lb])) e s o s'.

  (** A block in a fresh scope. *)
  Lemma run_block : forall b s o s', run_spec [] b s o s' ->
    forall k c n code n' pc e q lp tc, clist (cbody k) (enter c) b n = Ok (code, n') -> placed pc code -> wf0 c ->
      ok_block P q lp tc (pending c MAll) b = true -> e = None \/ q = true -> (tc = false -> c_catch c = []) ->
      sim c n pc (pc + length code) e s o s'.
  Proof.
    intros b s o s' H k c n code n' pc e q lp tc E Hp Hw Hok Hq Ht.
    rewrite <- (leave_enter c). eapply (H k (enter c)); try eassumption.
    - apply wf0_enter. exact Hw.
    - reflexivity.
  Qed.

  Lemma fresh_clist : forall k c b n code n', clist (cbody k) c b n = Ok (code, n') -> n <= n'.
  Proof. intros k c b n code n' H. apply (fresh_le n n' code). eapply (proj2 (cstmt_fresh (cbody k) (cbody_fresh k))). exact H. Qed.
  Lemma fresh_ccond : forall k c q l f n code n', ccond (cbody k) c q l f n = Ok (code, n') -> n <= n'.
  Proof. intros k c q l f n code n' H. apply (fresh_le n n' code). eapply ccond_fresh; [apply cbody_fresh|exact H]. Qed.
  Lemma fresh_cassign : forall k c x e n code n', cassign (cbody k) c x e n = Ok (code, n') -> n <= n'.
  Proof. intros k c x e n code n' H. apply (fresh_le n n' code). eapply cassign_fresh; [apply cbody_fresh|exact H]. Qed.
  Lemma fresh_emit : forall k c ds n code n', emit_all (cbody k) c ds n = Ok (code, n') -> n <= n'.
  Proof. intros k c ds n code n' H. apply (fresh_le n n' code). eapply emit_all_fresh; [apply cbody_fresh|exact H]. Qed.

  Lemma not_quiet : forall (e : option Z) q, e = None \/ q = true -> negb q = true -> e = None.
  Proof. intros e q [H|H] Hq; [exact H|]. subst. discriminate. Qed.

  (** The body of a loop, up to where `continue` goes. *)
  Lemma body_end : forall c lc lb n pc pl e s o s', wf0 c -> sim (push_loop c lc lb) n pc pl e s o s' ->
    o = ONormal \/ o = OContinue -> find_label C lc = Some pl -> runs n pc pl e s s'.
  Proof.
    intros c lc lb n pc pl e s o s' Hw H [->| ->] Hl; [eapply sim_runs; exact H|].
    intros T r. destruct (H s' T r) as (T' & pc' & e' & r' & S1 & Q & A & -> & ->).
    - cbn [pend]. rewrite pending_loop_continue by exact Hw. apply unw_nil.
    - cbn [push_loop c_cont] in A. assert (pc' = pl) by congruence. subst pc'. exists T'. auto.
  Qed.

  Ltac pceq a := match goal with
    | |- sim _ _ _ ?b _ _ _ _ => replace b with a by pcs
    | |- runs _ _ ?b _ _ _ => replace b with a by pcs
    end.

  Lemma loop_cond : forall k c n l1 l2 lc lb nb cb nq cq nq' cu pb e qq q s v s1,
    eval W q s v s1 -> ccond (cbody k) (push_loop c lc lb) q l1 false nq = Ok (cq, nq') ->
    placed pb (Label l1 :: cb ++ cu ++ Label l2 :: cq ++ [Label lb]) -> n <= nq -> n <= nb -> wf0 (push_loop c lc lb) ->
    ok_expr P qq q = true -> e = None \/ qq = true ->
    match v with
    | inl v => forall b, v = b2z b ->
        runs n (S pb + length cb + length cu)
          (if b then S pb else pb + length (Label l1 :: cb ++ cu ++ Label l2 :: cq ++ [Label lb])) e s s1
    | inr x => forall pcend, sim c n (S pb + length cb + length cu) pcend e s (OError x) s1
    end.
  Proof.
    intros k c n l1 l2 lc lb nb cb nq cq nq' cu pb e qq q s v s1 He Eq Hp L1 L2 Hw Hok Hq.
    crunch.
    match goal with H : placed _ cq |- _ => pose proof (ccond_sim _ _ _ _ He k _ l1 false nq cq nq' _ e qq pb Eq H Hw Hok ltac:(discriminate) Hq ltac:(assumption)) as X end.
    destruct v as [v|x].
    - intros b Hv. specialize (X b Hv). eapply (runs_trans n nq); [exact L1|eapply run_label; eassumption|].
      eapply (runs_trans nq nq); [lia|exact X|]. destruct b; cbn [Bool.eqb].
      + eapply run_label. eassumption.
      + match goal with |- runs _ ?a _ _ _ _ => pceq (S a) end. eapply run_label. eassumption.
    - intros pcend. eapply (sim_seq c n nq); [exact L1|eapply run_label; eassumption|]. apply (X pcend).
  Qed.

  Theorem simulation :
    (forall x s o s', exec W x s o s' -> exec_spec x s o s') /\
    (forall ds b s o s', run W ds b s o s' -> run_spec ds b s o s') /\
    (forall ds s s', defers W ds s s' -> defers_spec ds s s') /\
    (forall q u b s o s', loop W q u b s o s' -> loop_spec q u b s o s').
  Proof.
    apply exec_run_ind.
    - (* expression *)
      intros e s v s' He k c n code n' pc er q lp tc E Hp (Hw & _) Hok Hq Ht. cbn [cstmt ok_stmt] in *.
      bnd3 E ce oe n1 E1. okinv E. apply runs_sim. eapply evals_runs. eapply (expr_sim _ _ _ _ He); eassumption.
    - intros e s x s' He k c n code n' pc er q lp tc E Hp (Hw & _) Hok Hq Ht. cbn [cstmt ok_stmt] in *.
      bnd3 E ce oe n1 E1. okinv E. eapply (expr_sim _ _ _ _ He); eassumption.
    - (* assignment *)
      intros x e s v s' He k c n code n' pc er q lp tc E Hp (Hw & _) Hok Hq Ht. cbn [cstmt ok_stmt] in *.
      apply runs_sim. eapply (cassign_sim x _ _ _ _ He); eassumption.
    - intros x e s v s' He k c n code n' pc er q lp tc E Hp (Hw & _) Hok Hq Ht. cbn [cstmt ok_stmt] in *.
      eapply (cassign_sim x _ _ _ _ He); eassumption.
    - (* if *)
      intros q a b s t s1 o s2 He Hr IH k c n code n' pc er qq lp tc E Hp (Hw & _) Hok Hq Ht. cbn [cstmt ok_stmt] in *.
      splitb. bnd2 E cq n0 E0. bnd2 E ca n1 E1.
      pose proof (fresh_ccond _ _ _ _ _ _ _ _ E0) as L0. pose proof (fresh_clist _ _ _ _ _ _ E1) as L1.
      destruct b as [|x b'].
      + cbn [is_empty] in *. okinv E. cbn [app] in *. crunch.
        pose proof (ccond_sim _ _ _ _ He k c n true (n + 3) cq n0 pc er qq _ E0 ltac:(eassumption) Hw ltac:(assumption) ltac:(auto) Hq ltac:(eassumption) t eq_refl) as X.
        destruct t; cbn [Bool.eqb] in X.
        * eapply (sim_seq c n n0); [lia|eapply (runs_trans n (n + 3)); [|eapply runs_low; [|exact X]|eapply run_label; eassumption]; lia|].
          eapply (sim_then c n0 n0); [lia|eapply (run_block _ _ _ _ IH); eassumption|]. intros _.
          eapply (runs_trans n0 n0); [lia|eapply run_bal; eassumption|].
          match goal with |- runs _ ?a _ _ _ _ => pceq (S a) end. eapply run_label. eassumption.
        * assert (o = ONormal /\ s2 = s1) as (-> & ->).
          { inversion Hr as [? ? ? Hd| | |]; subst. inversion Hd; subst. auto. }
          apply runs_sim. eapply (runs_trans n (n + 3)); [lia|eapply runs_low; [|exact X]; lia|].
          match goal with |- runs _ ?a _ _ _ _ => pceq (S a) end. eapply run_label. eassumption.
      + cbn [is_empty] in *. bnd2 E cb n2 E2. okinv E. cbn [app] in *. crunch.
        pose proof (ccond_sim _ _ _ _ He k c (n + 1) true (n + 3) cq n0 pc er qq _ E0 ltac:(eassumption) Hw ltac:(assumption) ltac:(auto) Hq ltac:(eassumption) t eq_refl) as X.
        destruct t; cbn [Bool.eqb] in X.
        * eapply (sim_seq c n n0); [lia|eapply (runs_trans n (n + 3)); [|eapply runs_low; [|exact X]|eapply run_label; eassumption]; lia|].
          eapply (sim_then c n0 n0); [lia|eapply (run_block _ _ _ _ IH); eassumption|]. intros _.
          eapply (runs_trans n0 n0); [lia|eapply run_bal; eassumption|].
          match goal with |- runs _ ?a _ _ _ _ => pceq (S a) end. eapply run_label. eassumption.
        * eapply (sim_seq c n n1); [lia|eapply (runs_trans n (n + 3)); [|eapply runs_low; [|exact X]|eapply run_label; eassumption]; lia|].
          eapply (sim_then c n1 n1); [lia|eapply (run_block _ _ _ _ IH); eassumption|]. intros _.
          match goal with |- runs _ ?a _ _ _ _ => pceq (S a) end. eapply run_label. eassumption.
    - intros q a b s x s1 He k c n code n' pc er qq lp tc E Hp (Hw & _) Hok Hq Ht. cbn [cstmt ok_stmt] in *.
      splitb. bnd2 E cq n0 E0. bnd2 E ca n1 E1. eapply (sim_low c n (n + 3)); [lia|].
      destruct b as [|x' b']; cbn [is_empty] in *; [|bnd2 E cb n2 E2]; okinv E; cbn [app] in *; crunch.
      + eapply (ccond_sim _ _ _ _ He k c n true (n + 3) cq n0 pc er qq); try eassumption. auto.
      + eapply (ccond_sim _ _ _ _ He k c (n + 1) true (n + 3) cq n0 pc er qq); try eassumption. auto.
    - (* for *)
      intros q b s o s' Hl IH k c n code n' pc er qq lp tc E Hp Hw Hok Hq Ht. cbn [cstmt ok_stmt] in *. splitb.
      bnd2 E cb n1 E1. bnd2 E cq n2 E2. okinv E. cbn [app] in *.
      pose proof (fresh_clist _ _ _ _ _ _ E1) as L1.
      pose proof Hp as Hp0. apply placed_cons in Hp0. destruct Hp0 as (_ & Hp0). apply placed_cons in Hp0. destruct Hp0 as (_ & Hp0).
      eapply (sim_seq c n n); [lia| |].
      + apply placed_cons in Hp. destruct Hp as (Ha & Hp). apply placed_cons in Hp. destruct Hp as (Hb & Hp). crunch.
        eapply (runs_trans n n); [lia|eapply run_label; exact Ha|]. eapply run_bal; eassumption.
      + match goal with |- sim _ _ ?a ?b _ _ _ _ =>
          replace a with (S (S (S pc)) + length cb + @length op []) by pcs;
          replace b with (S (S pc) + length (Label (n + 1) :: cb ++ [] ++ Label (n + 2) :: cq ++ [Label (n + 3)])) by pcs end.
        eapply (IH k c n (n + 1) (n + 2) (n + 2) (n + 3)); try eassumption; try lia. auto.
    - (* for with an update *)
      intros x e q y u b s v s1 o s' He Hl IH k c n code n' pc er qq lp tc E Hp Hw Hok Hq Ht. cbn [cstmt ok_stmt] in *. splitb.
      bnd2 E ci n0 E0. bnd2 E cb n1 E1. bnd2 E cu n2 E2. bnd2 E cq n3 E3. okinv E. cbn [app] in *.
      pose proof (fresh_cassign _ _ _ _ _ _ _ E0) as L0. pose proof (fresh_clist _ _ _ _ _ _ E1) as L1. pose proof (fresh_cassign _ _ _ _ _ _ _ E2) as L2.
      assert (Hw' : wf0 (push_loop c (n + 4) (n + 3))).
      { crunch. apply wf0_loop; [apply Hw|eexists; eassumption|eexists; eassumption]. }
      pose proof Hp as Hp0. apply placed_cons in Hp0. destruct Hp0 as (_ & Hp0). apply placed_app in Hp0. destruct Hp0 as (_ & Hp0).
      apply placed_cons in Hp0. destruct Hp0 as (_ & Hp0).
      eapply (sim_seq c n n); [lia| |].
      + apply placed_cons in Hp. destruct Hp as (Ha & Hp). apply placed_app in Hp. destruct Hp as (Hi & Hp).
        apply placed_cons in Hp. destruct Hp as (Hb & Hp). crunch.
        eapply (runs_trans n n); [lia|eapply run_label; exact Ha|].
        eapply (runs_trans n n); [lia|eapply (runs_low n (n + 5)); [lia|]; eapply (cassign_sim x _ _ _ _ He); eassumption|].
        eapply run_bal; eassumption.
      + match goal with |- sim _ _ ?a ?b _ _ _ _ =>
          replace a with (S (S (S pc + length ci)) + length cb + length (Label (n + 4) :: cu)) by pcs;
          replace b with (S (S pc + length ci) + length (Label (n + 1) :: cb ++ (Label (n + 4) :: cu) ++ Label (n + 2) :: cq ++ [Label (n + 3)])) by pcs end.
        eapply (IH k c n (n + 1) (n + 2) (n + 4) (n + 3)); try eassumption; try lia.
        exists cu, n1, n2. repeat split; try assumption. lia.
    - intros x e q y u b s xx s1 He k c n code n' pc er qq lp tc E Hp Hw Hok Hq Ht. cbn [cstmt ok_stmt] in *. splitb.
      bnd2 E ci n0 E0. bnd2 E cb n1 E1. bnd2 E cu n2 E2. bnd2 E cq n3 E3. okinv E. cbn [app] in *.
      assert (Hw' : wf0 (push_loop c (n + 4) (n + 3))).
      { crunch. apply wf0_loop; [apply Hw|eexists; eassumption|eexists; eassumption]. }
      crunch. eapply (sim_seq c n (n + 5)); [lia|eapply run_label; eassumption|].
      eapply (sim_pop_loop c (n + 4) (n + 3)); [discriminate|discriminate|]. eapply (cassign_sim x _ _ _ _ He); eassumption.
    - (* break *)
      intros s k c n code n' pc er qq lp tc E Hp (Hw & _) Hok Hq Ht sB T r (_ & Hu). cbn [cstmt ok_stmt] in *. splitb.
      destruct (c_brk c) as [|l ls] eqn:Eb; [discriminate|]. bnd2 E cu n1 E1. okinv E. crunch.
      unfold unwind in E1. cbn [pend after] in Hu.
      edestruct Hu as (T1 & S1 & Q1); [exact E1|exact Hw|eassumption|].
      destruct Hw as (_ & _ & K & _). rewrite Eb in K. inversion K as [|? ? (pl & Hpl) _]; subst.
      exists T1, pl, er, r. split; [|split; [exact Q1|]].
      + eapply steps_trans; [exact S1|]. eapply step_bal; eassumption.
      + cbn [arrives]. rewrite Eb. auto.
    - (* continue *)
      intros s k c n code n' pc er qq lp tc E Hp (Hw & _) Hok Hq Ht sB T r (_ & Hu). cbn [cstmt ok_stmt] in *. splitb.
      destruct (c_cont c) as [|l ls] eqn:Eb; [discriminate|]. bnd2 E cu n1 E1. okinv E. crunch.
      unfold unwind in E1. cbn [pend after] in Hu.
      edestruct Hu as (T1 & S1 & Q1); [exact E1|exact Hw|eassumption|].
      destruct Hw as (_ & K & _ & _). rewrite Eb in K. inversion K as [|? ? (pl & Hpl) _]; subst.
      exists T1, pl, er, r. split; [|split; [exact Q1|]].
      + eapply steps_trans; [exact S1|]. eapply step_bal; eassumption.
      + cbn [arrives]. rewrite Eb. auto.
    - (* return *)
      intros s k c n code n' pc er qq lp tc E Hp (Hw & _) Hok Hq Ht sB T r (_ & Hu). cbn [cstmt ok_stmt] in *.
      bnd2 E cu n1 E1. okinv E. crunch. unfold unwind in E1. cbn [pend after] in Hu.
      edestruct Hu as (T1 & S1 & Q1); [exact E1|exact Hw|eassumption|].
      exists T1, (pe + 3), er, (Some None). split; [|split; [exact Q1|]].
      + eapply steps_trans; [exact S1|]. eapply steps_trans; [eapply step_return; eassumption|].
        eapply step_bal; [eassumption|exact find_end].
      + cbn [arrives]. auto using find_end.
    - (* return a value *)
      intros e s v s' He k c n code n' pc er qq lp tc E Hp (Hw & _) Hok Hq Ht sB T r (Hd & Hu). cbn [cstmt ok_stmt] in *. splitb.
      bnd3 E ce oe n0 E0. bnd2 E cu n1 E1. okinv E. crunch. unfold unwind in E1. cbn [pend after] in Hu, Hd.
      pose proof (fresh_cexpr _ _ _ _ _ _ _ E0) as L0.
      edestruct (expr_sim _ _ _ _ He k c n ce oe n0 pc er qq) with (T := T) (r := r) as (T0 & S0 & Q0 & V0); try eassumption.
      edestruct Hu as (T1 & S1 & Q1); [exact E1|exact Hw|eassumption|].
      exists T1, (pe + 3), er, (Some (Some v)). split; [|split].
      + eapply steps_trans; [exact S0|]. eapply steps_trans; [exact S1|].
        assert (oval T1 sB oe = v) as V1.
        { rewrite <- V0. apply (stable_val n0); [|exact Q1]. pose proof (operand_of _ _ _ _ _ _ _ E0) as O.
          destruct oe; cbn; auto; subst e; cbn [ok_return] in *.
          - apply (proj1 (proj2 (proj2 (keeps_ok x))) _ _ _ Hd). assumption.
          - destruct (pending c MAll); [|discriminate]. inversion Hd; subst. reflexivity. }
        rewrite <- V1.
        eapply steps_trans; [eapply step_return; eassumption|]. cbn [option_map].
        eapply step_bal; [eassumption|exact find_end].
      + eapply pres_trans; eassumption.
      + cbn [arrives]. auto using find_end.
    - intros e s x s' He k c n code n' pc er qq lp tc E Hp (Hw & _) Hok Hq Ht. cbn [cstmt ok_stmt] in *. splitb.
      bnd3 E ce oe n0 E0. bnd2 E cu n1 E1. okinv E. crunch. eapply (expr_sim _ _ _ _ He); eassumption.
    - (* try, no error *)
      intros b x h s o s' Hr IH Ho k c n code n' pc er qq lp tc E Hp (Hw & _) Hok Hq Ht. cbn [cstmt ok_stmt] in *. splitb.
      bnd2 E cb n1 E1. bnd2 E ch n2 E2. okinv E. cbn [app] in *. crunch.
      eapply (sim_then c n n); [lia| |].
      + eapply sim_low; [|eapply (sim_pop_catch c n); [exact Ho|]; eapply (run_block _ _ _ _ IH); try eassumption].
        * lia.
        * apply wf0_catch; [exact Hw|]. eexists; eassumption.
        * discriminate.
      + intros _. eapply (runs_trans n n); [lia|eapply run_bal; eassumption|].
        match goal with |- runs _ ?a _ _ _ _ => pceq (S a) end. eapply run_label. eassumption.
    - (* try, error *)
      intros b x h s xx s1 o s' Hr IH Hh IHh k c n code n' pc er qq lp tc E Hp (Hw & _) Hok Hq Ht. cbn [cstmt ok_stmt] in *. splitb.
      assert (er = None) as -> by (eapply not_quiet; eassumption).
      bnd2 E cb n1 E1. bnd2 E ch n2 E2. okinv E. cbn [app] in *. crunch.
      pose proof (fresh_clist _ _ _ _ _ _ E1) as L1.
      eapply (sim_seq c n n1 pc (S (S (S (pc + length cb))))); [lia| |].
      + intros T r.
        assert (Hw' : wf0 (push_catch c n)) by (apply wf0_catch; [exact Hw|]; eexists; eassumption).
        destruct (run_block _ _ _ _ IH k (push_catch c n) (n + 2) cb n1 pc None qq lp true) with (sB := s1) (T := T) (r := r) as (T1 & pc' & e' & r' & S1 & Q1 & A); try eassumption; auto.
        { discriminate. }
        { cbn [pend]. rewrite pending_catch_catch by exact Hw. apply unw_nil. }
        cbn [arrives push_catch c_catch] in A. destruct A as (-> & A & ->).
        exists T1. split.
        * eapply steps_trans; [exact S1|].
          match goal with H : find_label C n = Some ?p |- _ => assert (pc' = p) as -> by congruence end.
          eapply steps_trans; [eapply step_label; eassumption|]. eapply step_remove; eassumption.
        * intros t Htt. apply Q1. lia.
      + eapply (sim_then c n1 n1); [lia|eapply (run_block _ _ _ _ IHh); eassumption|].
        intros _. match goal with |- runs _ ?a _ _ _ _ => pceq (S a) end. eapply run_label. eassumption.
    - (* throw *)
      intros e s v s' He k c n code n' pc er qq lp tc E Hp (Hw & _) Hok Hq Ht sB T r (Hd & Hu). cbn [cstmt ok_stmt] in *. splitb.
      assert (er = None) as -> by (eapply not_quiet; eassumption).
      bnd3 E ce oe n0 E0. bnd2 E cu n1 E1. okinv E. cbn [app] in *. crunch. unfold unwind in E1. cbn [pend after] in Hu.
      assert (Hc : c_catch c = []) by (apply Ht; destruct tc; [discriminate|reflexivity]).
      rewrite pending_all_catch in Hu by exact Hc.
      pose proof (fresh_cexpr _ _ _ _ _ _ _ E0) as L0.
      edestruct (expr_sim _ _ _ _ He k c n ce oe n0 pc None qq) with (T := T) (r := r) as (T0 & S0 & Q0 & V0); try eassumption.
      edestruct Hu as (T1 & S1 & Q1); [exact E1|exact Hw|eassumption|].
      exists T1, (pe + 3), (Some v), (Some None). split; [|split].
      + eapply steps_trans; [exact S0|]. eapply steps_trans; [eapply step_move; eassumption|]. rewrite V0.
        eapply steps_trans; [eapply step_throw; eassumption|]. cbn [oval]. rewrite upd_same.
        eapply steps_trans; [exact S1|]. eapply steps_trans; [eapply step_return; eassumption|]. cbn [option_map].
        eapply step_bal; [eassumption|exact find_end].
      + intros t Htt. rewrite Q1 by lia. unfold upd. destruct (Nat.eqb_spec t n0); [lia|]. apply Q0. exact Htt.
      + cbn [arrives]. rewrite Hc. auto using find_end.
    - intros e s x s' He k c n code n' pc er qq lp tc E Hp (Hw & _) Hok Hq Ht. cbn [cstmt ok_stmt] in *. splitb.
      bnd3 E ce oe n0 E0. bnd2 E cu n1 E1. okinv E. cbn [app] in *. crunch. eapply (expr_sim _ _ _ _ He); eassumption.
    - (* the end of a block *)
      intros ds s s' Hd IH k c n code n' pc er qq lp tc E Hp (Hw & Hw') Hds Hok Hq Ht. cbn [clist ok_block] in *. rewrite Hds in E.
      apply runs_sim. intros T r. eapply IH; [|exact E|apply wf0_leave; exact Hw|exact Hp].
      assert (Hwf : wf c) by (split; assumption).
      pose proof (pending_quiet c MAll Hw) as Q. rewrite (pending_top c MAll Hwf), Hds in Q. apply Forall_app in Q. apply Q.
    - (* defer *)
      intros ds d b s o s' Hr IH k c n code n' pc er qq lp tc E Hp Hw Hds Hok Hq Ht. cbn [clist cstmt ok_block ok_stmt] in *. splitb.
      cbn [bind] in E. bnd2 E c2 n2 E2. okinv E. cbn [app] in *.
      rewrite <- (leave_register c d). eapply (IH k (register c d)); try eassumption.
      + apply wf_register; assumption.
      + rewrite top_register by exact Hw. reflexivity.
      + rewrite pending_top by (apply wf_register; assumption). rewrite top_register, leave_register by exact Hw.
        cbn [app]. rewrite <- pending_top by exact Hw. eassumption.
      + destruct c as [c1 c3 c4 [|sc scs]]; assumption.
    - (* one statement after the other *)
      intros ds x b s s1 o s' Hx IHx Hr IHr k c n code n' pc er qq lp tc E Hp Hw Hds Hok Hq Ht.
      assert (Hx' : match x with SDefer d => register c d | _ => c end = c /\
                    match x with SDefer d => d :: pending c MAll | _ => pending c MAll end = pending c MAll)
        by (inversion Hx; subst; split; reflexivity).
      destruct Hx' as (X1 & X2). cbn [clist ok_block] in *. rewrite X1 in E. rewrite X2 in Hok. splitb.
      bnd2 E c1 n1 E1. bnd2 E c2 n2 E2. okinv E. crunch.
      assert (L1 : n <= n1) by (apply (fresh_le n n1 c1); eapply (proj1 (cstmt_fresh (cbody k) (cbody_fresh k))); exact E1).
      eapply (sim_seq (leave c) n n1); [exact L1|eapply sim_runs; eapply IHx; eassumption|].
      pceq (pc + length c1 + length c2). eapply IHr; eassumption || reflexivity.
    - (* leaving a block early *)
      intros ds x b s o s1 s' Hx IHx Ho Hd IHd k c n code n' pc er qq lp tc E Hp Hw Hds Hok Hq Ht.
      cbn [clist ok_block] in *. splitb. bnd2 E c1 n1 E1. bnd2 E c2 n2 E2. okinv E. crunch.
      intros sB T r (Hu1 & Hu2).
      edestruct (IHx k c n c1 n1 pc er qq lp tc) with (sB := sB) (T := T) (r := r) as (T1 & pc' & e' & r' & S1 & Q1 & A); try eassumption.
      + assert (Hpend : pend c o = top_defers c ++ pend (leave c) o).
        { destruct o; try (exfalso; congruence); cbn [pend]; apply pending_top; exact Hw. }
        rewrite Hpend. eapply unw_app; [|split; eassumption]. split; [assumption|].
        apply IHd. pose proof (pending_quiet c MAll (proj1 Hw)) as Q. rewrite (pending_top c MAll Hw) in Q. apply Forall_app in Q. apply Q.
      + exists T1, pc', e', r'. split; [exact S1|]. split; [exact Q1|].
        destruct o; try exact A. congruence.
    - (* no deferred bodies *)
      intros s _ e. apply unw_nil.
    - (* a deferred body *)
      intros d ds s s1 s2 Hr IHr Hd IHd Hq e k c n code n' pc T r E Hw Hp. inversion Hq as [|? ? Q1 Q2]; subst.
      cbn [emit_all] in E. bnd2 E c1 n1 E1. bnd2 E c2 n2 E2. okinv E. crunch.
      assert (L1 : n <= n1) by (apply (fresh_le n n1 c1); eapply cbody_fresh; exact E1).
      destruct k as [|k]; [discriminate|]. cbn [cbody] in E1.
      assert (R : runs n pc (pc + length c1) e s s1).
      { eapply sim_runs. eapply (run_block _ _ _ _ IHr) with (q := true) (lp := false) (tc := true); try eassumption; auto.
        - eapply (proj2 quiet_any). exact Q1.
        - discriminate. }
      destruct (R T r) as (T1 & S1 & P1).
      edestruct (IHd Q2 e) as (T2 & S2 & P2); [exact E2|exact Hw|eassumption|].
      exists T2. split.
      + rewrite app_length, Nat.add_assoc. eapply steps_trans; eassumption.
      + eapply pres_trans; eassumption.
    - (* loops *)
      intros q u b s s1 He k c n l1 l2 lc lb nb cb nb' nq cq nq' cu pb e qq tc Eb Eq Hp Hu L1 L2 Hw Hok1 Hok2 Hq Ht.
      assert (Hw' : wf0 (push_loop c lc lb)).
      { apply wf0_loop; [apply Hw| |crunch; eexists; eassumption]. destruct u as [(y & ue)|].
        - destruct Hu as (cu0 & nu & nu' & -> & _). cbn [app] in Hp. crunch. eexists; eassumption.
        - destruct Hu as (-> & ->). crunch. eexists; eassumption. }
      apply runs_sim. eapply (loop_cond k c n l1 l2 lc lb nb cb nq cq nq' cu pb e qq q s _ s1 He Eq Hp L2 L1 Hw' Hok1 Hq false eq_refl).
    - intros q u b s x s1 He k c n l1 l2 lc lb nb cb nb' nq cq nq' cu pb e qq tc Eb Eq Hp Hu L1 L2 Hw Hok1 Hok2 Hq Ht.
      assert (Hw' : wf0 (push_loop c lc lb)).
      { apply wf0_loop; [apply Hw| |crunch; eexists; eassumption]. destruct u as [(y & ue)|].
        - destruct Hu as (cu0 & nu & nu' & -> & _). cbn [app] in Hp. crunch. eexists; eassumption.
        - destruct Hu as (-> & ->). crunch. eexists; eassumption. }
      eapply (loop_cond k c n l1 l2 lc lb nb cb nq cq nq' cu pb e qq q s _ s1 He Eq Hp L2 L1 Hw' Hok1 Hq).
    - (* break out *)
      intros q u b s s1 s2 He Hr IH k c n l1 l2 lc lb nb cb nb' nq cq nq' cu pb e qq tc Eb Eq Hp Hu L1 L2 Hw Hok1 Hok2 Hq Ht.
      assert (Hw' : wf0 (push_loop c lc lb)).
      { apply wf0_loop; [apply Hw| |crunch; eexists; eassumption]. destruct u as [(y & ue)|].
        - destruct Hu as (cu0 & nu & nu' & -> & _). cbn [app] in Hp. crunch. eexists; eassumption.
        - destruct Hu as (-> & ->). crunch. eexists; eassumption. }
      apply runs_sim. eapply (runs_trans n nb); [exact L1| |].
      { eapply (loop_cond k c n l1 l2 lc lb nb cb nq cq nq' cu pb e qq q s _ s1 He Eq Hp L2 L1 Hw' Hok1 Hq true eq_refl). }
      cbv iota. crunch. intros T r.
      destruct (run_block _ _ _ _ IH k (push_loop c lc lb) nb cb nb' (S pb) e qq true tc) with (sB := s2) (T := T) (r := r) as (T1 & pc' & e' & r' & S1 & Q1 & A & -> & ->); try eassumption; auto.
      { cbn [pend]. rewrite pending_loop_break by apply Hw. apply unw_nil. }
      cbn [push_loop c_brk] in A. exists T1. split; [|exact Q1]. eapply steps_trans; [exact S1|].
      match goal with H : find_label C lb = Some ?p |- _ => assert (pc' = p) as -> by congruence end.
      match goal with |- steps (mk_mach ?a _ _ _ _) _ => topc (S a) end. eapply step_label; eassumption.
    - (* other exits *)
      intros q u b s s1 o s2 He Hr IH O1 O2 O3 k c n l1 l2 lc lb nb cb nb' nq cq nq' cu pb e qq tc Eb Eq Hp Hu L1 L2 Hw Hok1 Hok2 Hq Ht.
      assert (Hw' : wf0 (push_loop c lc lb)).
      { apply wf0_loop; [apply Hw| |crunch; eexists; eassumption]. destruct u as [(y & ue)|].
        - destruct Hu as (cu0 & nu & nu' & -> & _). cbn [app] in Hp. crunch. eexists; eassumption.
        - destruct Hu as (-> & ->). crunch. eexists; eassumption. }
      eapply (sim_seq c n nb); [exact L1| |].
      { eapply (loop_cond k c n l1 l2 lc lb nb cb nq cq nq' cu pb e qq q s _ s1 He Eq Hp L2 L1 Hw' Hok1 Hq true eq_refl). }
      cbv iota. crunch. eapply sim_end; [exact O1|]. eapply (sim_pop_loop c lc lb); [exact O3|exact O2|].
      eapply (run_block _ _ _ _ IH); try eassumption; auto.
    - (* once more *)
      intros q b s s1 o1 s2 o s' He Hr IH O Hl IHl k c n l1 l2 lc lb nb cb nb' nq cq nq' cu pb e qq tc Eb Eq Hp Hu L1 L2 Hw Hok1 Hok2 Hq Ht.
      assert (Hw' : wf0 (push_loop c lc lb)).
      { apply wf0_loop; [apply Hw| |crunch; eexists; eassumption]. destruct Hu as (-> & ->). crunch. eexists; eassumption. }
      eapply (sim_seq c n n); [lia| |eapply IHl; eassumption].
      eapply (runs_trans n nb); [exact L1| |].
      { eapply (loop_cond k c n l1 l2 lc lb nb cb nq cq nq' cu pb e qq q s _ s1 He Eq Hp L2 L1 Hw' Hok1 Hq true eq_refl). }
      cbv iota. destruct Hu as (-> & ->). cbn [app] in *. crunch. pceq (S pb + length cb).
      eapply (body_end c l2 lb); [apply Hw|eapply (run_block _ _ _ _ IH); try eassumption; auto|exact O|assumption].
    - (* update and once more *)
      intros q y ue b s s1 o1 s2 v s3 o s' He Hr IH O Hue Hl IHl k c n l1 l2 lc lb nb cb nb' nq cq nq' cu pb e qq tc Eb Eq Hp Hu L1 L2 Hw Hok1 Hok2 Hq Ht.
      assert (Hw' : wf0 (push_loop c lc lb)).
      { apply wf0_loop; [apply Hw| |crunch; eexists; eassumption].
        destruct Hu as (cu0 & nu & nu' & -> & _). cbn [app] in Hp. crunch. eexists; eassumption. }
      eapply (sim_seq c n n); [lia| |eapply IHl; eassumption].
      eapply (runs_trans n n); [lia| |].
      { eapply (loop_cond k c n l1 l2 lc lb nb cb nq cq nq' cu pb e qq q s _ s1 He Eq Hp L2 L1 Hw' Hok1 Hq true eq_refl). }
      cbv iota. destruct Hu as (cu0 & nu & nu' & -> & Eu & L3 & Hok3). cbn [app] in *. crunch.
      eapply (runs_trans n n); [lia| |].
      { eapply (runs_low n nb); [exact L1|].
        eapply (body_end c lc lb); [apply Hw|eapply (run_block _ _ _ _ IH); try eassumption; auto|exact O|eassumption]. }
      eapply (runs_trans n n); [lia|eapply run_label; eassumption|]. eapply (runs_low n nu); [exact L3|].
      pceq (S (S pb + length cb) + length cu0). eapply (cassign_sim y _ _ _ _ Hue); eassumption.
    - intros q y ue b s s1 o1 s2 x s3 He Hr IH O Hue k c n l1 l2 lc lb nb cb nb' nq cq nq' cu pb e qq tc Eb Eq Hp Hu L1 L2 Hw Hok1 Hok2 Hq Ht.
      assert (Hw' : wf0 (push_loop c lc lb)).
      { apply wf0_loop; [apply Hw| |crunch; eexists; eassumption].
        destruct Hu as (cu0 & nu & nu' & -> & _). cbn [app] in Hp. crunch. eexists; eassumption. }
      eapply (sim_seq c n n); [lia| |].
      { eapply (loop_cond k c n l1 l2 lc lb nb cb nq cq nq' cu pb e qq q s _ s1 He Eq Hp L2 L1 Hw' Hok1 Hq true eq_refl). }
      cbv iota. destruct Hu as (cu0 & nu & nu' & -> & Eu & L3 & Hok3). cbn [app] in *. crunch.
      eapply (sim_seq c n n); [lia| |].
      { eapply (runs_low n nb); [exact L1|].
        eapply (body_end c lc lb); [apply Hw|eapply (run_block _ _ _ _ IH); try eassumption; auto|exact O|eassumption]. }
      eapply (sim_seq c n nu); [exact L3|eapply run_label; eassumption|].
      eapply (sim_pop_loop c lc lb); [discriminate|discriminate|]. eapply (cassign_sim y _ _ _ _ Hue); eassumption.
  Qed.
End sim.

(** * The whole function *)
Theorem cfun_ok : forall W P k b code s o s', patient W P -> ok P b = true -> cfun k b = Ok code ->
  run W [] b s o s' -> computes W code s (meant o) s'.
Proof.
  intros W P k b code s o s' HP Hok E Hr T.
  pose proof (cfun_labels _ _ _ E) as HC. unfold cfun in E. bnd2 E c1 n1 E1. injection E as E.
  destruct k as [|k]; [discriminate|]. cbn [cbody] in E1.
  set (c0 := mk_ctx [] [] [] []) in *.
  assert (Hp : placed code 0 c1) by (exists [], [Bal end_label; Label error_label; Return None; Bal end_label; Label end_label; FnEnd]; split; [symmetry; exact E|reflexivity]).
  assert (Htail : tail_placed code (S (length c1))).
  { exists (c1 ++ [Bal end_label]), []. split; [|rewrite app_length; cbn [length]; lia]. rewrite app_nil_r, <- app_assoc. symmetry. exact E. }
  assert (Hbal : nth_error code (length c1) = Some (Bal end_label)).
  { rewrite <- E. cbn [fst]. rewrite nth_error_app2 by lia. rewrite Nat.sub_diag. reflexivity. }
  pose proof (find_end code HC _ Htail) as He.
  assert (Hw : wf0 P code c0) by (split; [constructor|repeat split; constructor]).
  pose proof (run_block W P code _ _ _ _ (proj1 (proj2 (simulation W P HP code HC _ Htail)) _ _ _ _ _ Hr) k c0 2 c1 n1 0 None false false false E1 Hp Hw Hok (or_introl eq_refl) (fun _ => eq_refl)) as X.
  destruct (X s' T None) as (T' & pc' & e' & r' & S1 & _ & A).
  { destruct o; apply unw_nil. }
  assert (Hend : forall T r e, steps W code (mk_mach (S (length c1) + 3) T s' e r) (mk_mach (S (S (length c1) + 3)) T s' e r) /\ ended code (mk_mach (S (S (length c1) + 3)) T s' e r)).
  { intros T0 r0 e0. clear - Htail. unfold tail_placed in Htail.
    repeat (apply placed_cons in Htail; destruct Htail as (? & Htail)). split.
    - replace (S (length c1) + 3) with (S (S (S (S (length c1))))) by lia. eapply step_label. eassumption.
    - unfold ended. cbn [m_pc]. replace (S (S (length c1) + 3)) with (S (S (S (S (S (length c1)))))) by lia. assumption. }
  assert (Hfin : pc' = S (length c1) + 3 -> exists m, steps W code (mk_mach 0 T s None None) m /\ ended code m /\ answer_of m = answer_of (mk_mach pc' T' s' e' r') /\ m_st m = s').
  { intros ->. destruct (Hend T' r' e') as (S2 & F). eexists. split; [eapply steps_trans; [exact S1|exact S2]|]. auto. }
  destruct o; cbn [arrives meant] in *.
  - destruct A as (-> & -> & ->). destruct (Hend T' None None) as (S2 & F). cbn [Nat.add] in S1. eexists. split; [|split; [exact F|split; reflexivity]].
    eapply steps_trans; [exact S1|]. eapply steps_trans; [eapply step_bal; [exact Hbal|exact He]|]. exact S2.
  - destruct A as (A & _). contradiction.
  - destruct A as (A & _). contradiction.
  - destruct A as (A & -> & ->). apply Hfin. congruence.
  - cbn [c_catch c0] in A. destruct A as (-> & A & ->). apply Hfin. congruence.
Qed.

(** * The compiler succeeds *)
Fixpoint dd (s : stmt) : nat :=
  match s with
  | SIf _ a b => Nat.max (ddb a) (ddb b)
  | SFor _ b | SForT _ _ _ _ _ b => ddb b
  | STry b _ h => Nat.max (ddb b) (ddb h)
  | SDefer b => S (ddb b)
  | _ => 0
  end
with ddb (b : block) : nat := match b with BNil => 0 | BCons s b' => Nat.max (dd s) (ddb b') end.

Definition small (k : nat) (c : ctx) : Prop := forall d, In d (flat_map s_defers (c_scopes c)) -> ddb d < k.

Section compiles.
  Variable P : nat -> bool.
  Notation quiet d := (ok_block P true false false [] d = true).
  (** Every waiting deferred body can be compiled, in any context. *)
  Variable emit : ctx -> block -> nat -> res (list op * nat).
  Definition can (d : block) : Prop := forall c n, exists r, emit c d n = Ok r.

  Lemma emit_all_can : forall ds c n, Forall can ds -> exists r, emit_all emit c ds n = Ok r.
  Proof.
    induction ds as [|d ds IH]; intros c n H; cbn [emit_all]; [eauto|]. inversion H as [|? ? Hd Hr]; subst.
    destruct (Hd c n) as ((c1 & n1) & E1). rewrite E1. cbn [bind]. destruct (IH c n1 Hr) as ((c2 & n2) & E2). rewrite E2. cbn [bind]. eauto.
  Qed.
  Definition scan (c : ctx) : Prop := Forall (fun s => Forall can (s_defers s)) (c_scopes c).
  Lemma unwind_can : forall c m n, scan c -> exists r, unwind emit c m n = Ok r.
  Proof.
    intros c m n H. apply emit_all_can. unfold pending. apply Forall_forall. intros d Hd. apply in_flat_map in Hd.
    destruct Hd as (s & Hs & Hd). apply filter_In in Hs. destruct Hs as (Hs & _). unfold scan in H. rewrite Forall_forall in H.
    specialize (H s Hs). rewrite Forall_forall in H. auto.
  Qed.

  (** [q]: nothing is unwound. *)
  Lemma cexpr_can : forall e q c n, ok_expr P q e = true -> scan c \/ q = true -> exists r, cexpr emit c e n = Ok r.
  Proof.
    assert (Hb : forall a b q c m, (forall q c n, ok_expr P q a = true -> scan c \/ q = true -> exists r, cexpr emit c a n = Ok r) ->
      (forall q c n, ok_expr P q b = true -> scan c \/ q = true -> exists r, cexpr emit c b n = Ok r) ->
      ok_expr P q a = true -> ok_expr P q b = true -> scan c \/ q = true ->
      exists ca oa n1 cb ob n2, cexpr emit c a m = Ok (ca, oa, n1) /\ cexpr emit c b n1 = Ok (cb, ob, n2)).
    { intros a b q c m Ha Hb Oa Ob Hq. destruct (Ha q c m Oa Hq) as (((ca & oa) & n1) & E1).
      destruct (Hb q c n1 Ob Hq) as (((cb & ob) & n2) & E2). exists ca, oa, n1, cb, ob, n2. auto. }
    induction e as [z|x|o a IHa b IHb|k o a IHa b IHb|a IHa b IHb|a IHa b IHb|a IHa|w IHw a IHa b IHb|f er a IHa];
      intros q c n Hok Hq; cbn [cexpr ok_expr] in *;
      repeat match goal with H : (_ && _)%bool = true |- _ => apply andb_true_iff in H; destruct H end.
    - eauto.
    - eauto.
    - destruct (Hb a b q c (S n)) as (ca & oa & n1 & cb & ob & n2 & E1 & E2); auto. rewrite E1. cbn [bind]. rewrite E2. cbn [bind]. eauto.
    - destruct (Hb a b q c (S n)) as (ca & oa & n1 & cb & ob & n2 & E1 & E2); auto. rewrite E1. cbn [bind]. rewrite E2. cbn [bind]. eauto.
    - destruct (Hb a b q c (n + 2)) as (ca & oa & n1 & cb & ob & n2 & E1 & E2); auto. rewrite E1. cbn [bind]. rewrite E2. cbn [bind]. eauto.
    - destruct (Hb a b q c (n + 2)) as (ca & oa & n1 & cb & ob & n2 & E1 & E2); auto. rewrite E1. cbn [bind]. rewrite E2. cbn [bind]. eauto.
    - destruct (IHa q c n) as (((ca & oa) & n1) & E1); auto. rewrite E1. cbn [bind]. destruct oa; eauto.
    - destruct (IHw q c (n + 3)) as (((cw & ow) & n0) & E0); auto. rewrite E0. cbn [bind].
      destruct (Hb a b q c n0) as (ca & oa & n1 & cb & ob & n2 & E1 & E2); auto. rewrite E1. cbn [bind]. rewrite E2. cbn [bind]. eauto.
    - destruct (IHa q c n) as (((ca & oa) & n1) & E1); auto. rewrite E1. cbn [bind].
      destruct (if is_var oa then _ else _) as ((cm & arg) & n2). destruct er; [|eauto].
      assert (Hs : scan c).
      { destruct Hq as [Hq|Hq]; [exact Hq|]. subst q. discriminate. }
      unfold has_error. destruct (unwind_can c MCatch (S n2 + 3) Hs) as ((cu & n3) & E2). rewrite E2. cbn [bind]. eauto.
  Qed.
  Lemma ccond_can : forall w q c l f n, ok_expr P q w = true -> scan c \/ q = true -> exists r, ccond emit c w l f n = Ok r.
  Proof.
    intros w q c l f n Hok Hq.
    assert (Hg : forall o z, exists r, (r1 <- cexpr emit c w n ;; let '(cq, oq, n1) := r1 in Ok (cq ++ [Bcc KSigned o z oq l], n1)) = Ok r).
    { intros o z. destruct (cexpr_can w q c n Hok Hq) as (((cw & ow) & n0) & E0). rewrite E0. cbn [bind]. eauto. }
    destruct w as [| | |ck co a b| | | | |]; try apply Hg. cbn [ccond ok_expr] in *.
    repeat match goal with H : (_ && _)%bool = true |- _ => apply andb_true_iff in H; destruct H end.
    destruct (cexpr_can a q c n ltac:(assumption) Hq) as (((ca & oa) & n1) & E1). rewrite E1. cbn [bind].
    destruct (cexpr_can b q c n1 ltac:(assumption) Hq) as (((cb & ob) & n2) & E2). rewrite E2. cbn [bind]. eauto.
  Qed.
  Lemma cassign_can : forall x w q c n, ok_expr P q w = true -> scan c \/ q = true -> exists r, cassign emit c x w n = Ok r.
  Proof.
    intros x w q c n Hok Hq. unfold cassign. destruct (cexpr_can w q c n Hok Hq) as (((cw & ow) & n0) & E0). rewrite E0. cbn [bind]. eauto.
  Qed.

  (** The scopes of a context, when nothing below the top one matters. *)
  Definition fine (q : bool) (c : ctx) : Prop :=
    (scan c \/ q = true) /\ Forall can (top_defers c) /\ c_scopes c <> [].
  Lemma fine_enter : forall q c, scan c \/ q = true -> fine q (enter c).
  Proof.
    intros q c [H|H]; (split; [|split; [constructor|discriminate]]); [left|right; exact H]. constructor; [constructor|exact H].
  Qed.
  Lemma fine_register : forall q c d, fine q c -> can d -> fine q (register c d).
  Proof.
    intros q c d (H1 & H2 & H3) Hd. unfold fine, register, scan, top_defers in *. destruct (c_scopes c) as [|s t]; [congruence|].
    cbn [c_scopes s_defers]. split; [|split; [constructor; assumption|discriminate]].
    destruct H1 as [H1|H1]; [left|right; exact H1]. inversion H1; subst. constructor; [constructor; assumption|assumption].
  Qed.

  Ltac use E := match type of E with ?l = _ => match goal with |- exists r, bind ?x _ = _ => unify x l; change x with l end end;
    rewrite E; cbn [bind].

  Lemma cstmt_can : forall K, (forall d, quiet d -> ddb d < K -> can d) ->
    (forall x q lp tc acc c n, ok_stmt P q lp tc acc x = true -> dd x <= K -> fine q c ->
        (lp = true -> c_cont c <> [] /\ c_brk c <> []) -> exists r, cstmt emit c x n = Ok r) /\
    (forall b q lp tc acc c n, ok_block P q lp tc acc b = true -> ddb b <= K -> fine q c ->
        (lp = true -> c_cont c <> [] /\ c_brk c <> []) -> exists r, clist emit c b n = Ok r).
  Proof.
    intros K HK. apply stmt_block_ind.
    - intros e q lp tc acc c n Hok Hd (Hf & _) Hl. cbn [cstmt ok_stmt] in *.
      destruct (cexpr_can e q c n Hok Hf) as (((ce & oe) & n1) & E1). use E1. eauto.
    - intros x e q lp tc acc c n Hok Hd (Hf & _) Hl. eapply cassign_can; eassumption.
    - intros w a IHa b IHb q lp tc acc c n Hok Hd (Hf & Hf') Hl. cbn [cstmt ok_stmt dd] in *.
      repeat match goal with H : (_ && _)%bool = true |- _ => apply andb_true_iff in H; destruct H end.
      edestruct (ccond_can w q c) as ((cq & n0) & E0); [eassumption|exact Hf|]. use E0.
      edestruct (IHa q lp tc acc (enter c) n0) as ((ca & n1) & E1); [eassumption|lia|apply fine_enter; exact Hf|exact Hl|]. use E1.
      destruct (is_empty b); [eauto|].
      edestruct (IHb q lp tc acc (enter c) n1) as ((cb & n2) & E2); [eassumption|lia|apply fine_enter; exact Hf|exact Hl|]. use E2. eauto.
    - intros w b IHb q lp tc acc c n Hok Hd (Hf & Hf') Hl. cbn [cstmt ok_stmt dd] in *.
      repeat match goal with H : (_ && _)%bool = true |- _ => apply andb_true_iff in H; destruct H end.
      edestruct (IHb q true tc acc (enter (push_loop c (n + 2) (n + 3))) (n + 4)) as ((cb & n1) & E1);
        [eassumption|lia|apply fine_enter; exact Hf|intros _; split; discriminate|]. use E1.
      edestruct (ccond_can w q (push_loop c (n + 2) (n + 3))) as ((cq & n2) & E2); [eassumption|exact Hf|]. use E2. eauto.
    - intros x e w y u b IHb q lp tc acc c n Hok Hd (Hf & Hf') Hl. cbn [cstmt ok_stmt dd] in *.
      repeat match goal with H : (_ && _)%bool = true |- _ => apply andb_true_iff in H; destruct H end.
      edestruct (cassign_can x e q (push_loop c (n + 4) (n + 3))) as ((ci & n0) & E0); [eassumption|exact Hf|]. use E0.
      edestruct (IHb q true tc acc (enter (push_loop c (n + 4) (n + 3))) n0) as ((cb & n1) & E1);
        [eassumption|lia|apply fine_enter; exact Hf|intros _; split; discriminate|]. use E1.
      edestruct (cassign_can y u q (push_loop c (n + 4) (n + 3))) as ((cu & n2) & E2); [eassumption|exact Hf|]. use E2.
      edestruct (ccond_can w q (push_loop c (n + 4) (n + 3))) as ((cq & n3) & E3); [eassumption|exact Hf|]. use E3. eauto.
    - intros q lp tc acc c n Hok Hd (Hf & _) Hl. cbn [cstmt ok_stmt] in *. apply andb_true_iff in Hok. destruct Hok as (Hq & ->).
      destruct Hl as (_ & Hl); [reflexivity|]. destruct (c_brk c); [congruence|].
      destruct (unwind_can c MBreak n) as ((cu & n1) & E1); [destruct Hf as [Hf|Hf]; [exact Hf|subst; discriminate]|]. use E1. eauto.
    - intros q lp tc acc c n Hok Hd (Hf & _) Hl. cbn [cstmt ok_stmt] in *. apply andb_true_iff in Hok. destruct Hok as (Hq & ->).
      destruct Hl as (Hl & _); [reflexivity|]. destruct (c_cont c); [congruence|].
      destruct (unwind_can c MContinue n) as ((cu & n1) & E1); [destruct Hf as [Hf|Hf]; [exact Hf|subst; discriminate]|]. use E1. eauto.
    - intros [e|] q lp tc acc c n Hok Hd (Hf & _) Hl; cbn [cstmt ok_stmt] in *.
      + repeat match goal with H : (_ && _)%bool = true |- _ => apply andb_true_iff in H; destruct H end.
        destruct (cexpr_can e q c n ltac:(assumption) Hf) as (((ce & oe) & n1) & E1). use E1.
        destruct (unwind_can c MAll n1) as ((cu & n2) & E2); [destruct Hf as [Hf|Hf]; [exact Hf|subst; discriminate]|]. use E2. eauto.
      + destruct (unwind_can c MAll n) as ((cu & n2) & E2); [destruct Hf as [Hf|Hf]; [exact Hf|subst; discriminate]|]. use E2. eauto.
    - intros b IHb x h IHh q lp tc acc c n Hok Hd (Hf & Hf') Hl. cbn [cstmt ok_stmt dd] in *.
      repeat match goal with H : (_ && _)%bool = true |- _ => apply andb_true_iff in H; destruct H end.
      edestruct (IHb q lp true acc (enter (push_catch c n)) (n + 2)) as ((cb & n1) & E1);
        [eassumption|lia|apply fine_enter; exact Hf|exact Hl|]. use E1.
      edestruct (IHh q lp tc acc (enter c) n1) as ((ch & n2) & E2); [eassumption|lia|apply fine_enter; exact Hf|exact Hl|]. use E2. eauto.
    - intros e q lp tc acc c n Hok Hd (Hf & _) Hl; cbn [cstmt ok_stmt] in *.
      repeat match goal with H : (_ && _)%bool = true |- _ => apply andb_true_iff in H; destruct H end.
      destruct (cexpr_can e q c n ltac:(assumption) Hf) as (((ce & oe) & n1) & E1). use E1.
      destruct (unwind_can c MAll (S n1)) as ((cu & n2) & E2); [destruct Hf as [Hf|Hf]; [exact Hf|subst; discriminate]|]. use E2. eauto.
    - intros b _ q lp tc acc c n Hok Hd Hf Hl. cbn [cstmt]. eauto.
    - intros q lp tc acc c n Hok Hd (_ & Hf & _) Hl. cbn [clist]. apply emit_all_can. exact Hf.
    - intros x IHx b IHb q lp tc acc c n Hok Hd Hf Hl. cbn [clist ok_block ddb] in *. apply andb_true_iff in Hok. destruct Hok as (Hx & Hb).
      change (ok_stmt P q lp tc acc x = true) in Hx.
      edestruct (IHx q lp tc acc c n) as ((c1 & n1) & E1); [eassumption|lia|exact Hf|exact Hl|]. use E1.
      edestruct (IHb q lp tc (match x with SDefer d => d :: acc | _ => acc end) (match x with SDefer d => register c d | _ => c end) n1) as ((c2 & n2) & E2); [eassumption|lia| | |].
      + destruct x as [| | | | | | | | | |d]; try exact Hf. apply fine_register; [exact Hf|]. cbn [ok_stmt dd] in *. apply HK; [exact Hx|lia].
      + destruct x as [| | | | | | | | | |d]; try exact Hl. unfold register. destruct (c_scopes c); exact Hl.
      + use E2. eauto.
  Qed.
End compiles.

Lemma cbody_can : forall P k d, ok_block P true false false [] d = true -> ddb d < k -> forall c n, exists r, cbody k c d n = Ok r.
Proof.
  intros P. induction k as [|k IH]; intros d Hq Hd c n; [lia|]. cbn [cbody].
  eapply (proj2 (cstmt_can P (cbody k) k ltac:(intros d' Q D c' n'; exact (IH d' Q D c' n')))); [exact Hq|lia|apply fine_enter; auto|discriminate].
Qed.
Theorem cfun_can : forall P b, ok P b = true -> exists k code, cfun k b = Ok code.
Proof.
  intros P b Hok. exists (S (ddb b)). unfold cfun. cbn [cbody].
  edestruct (proj2 (cstmt_can P (cbody (ddb b)) (ddb b) ltac:(intros d Q D c n; exact (cbody_can P _ d Q D c n)))
               b false false false [] (enter (mk_ctx [] [] [] [])) 2) as (r & E); [exact Hok|lia|apply fine_enter; left; constructor|discriminate|].
  rewrite E. cbn [bind]. eauto.
Qed.

(** One execution only. *)
Lemma computes_det : forall W code s a s1 b s2, computes W code s a s1 -> computes W code s b s2 -> a = b /\ s1 = s2.
Proof.
  intros W code s a s1 b s2 H1 H2.
  destruct (H1 (fun _ => 0%Z)) as (m1 & S1 & F1 & A1 & B1). destruct (H2 (fun _ => 0%Z)) as (m2 & S2 & F2 & A2 & B2).
  assert (m1 = m2); [|subst; auto].
  clear - S1 S2 F1 F2. revert S2. induction S1 as [m|m m' m'' Hs S1 IH]; intros S2.
  - inversion S2 as [|? x ? Hs]; subst; [reflexivity|]. unfold step in Hs. rewrite F1 in Hs. discriminate.
  - inversion S2 as [|? x ? Hs']; subst.
    + unfold step in Hs. rewrite F2 in Hs. discriminate.
    + rewrite Hs in Hs'. injection Hs' as ->. apply IH; assumption.
Qed.
