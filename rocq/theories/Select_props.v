(** C126: the select statement. *)
From Verif Require Import Base Select_model Select_spec Select_proof.
Local Open Scope Z_scope.

(** Every select the front end accepts is compiled, and the code does what the select means: channels and
    messages are evaluated in the order written, the runtime is asked once about exactly those operations,
    the body of the operation it names is run and no other, the default if it names none, and then the code
    goes on behind the select.  Whatever the expressions, the bodies and the runtime do, and wherever the
    code stands ([P] before it, with labels of its own, [post] behind it). *)
Theorem c126_select : forall cs n, accepted cs = true -> Z.of_nat (length cs) <= 32767 ->
  exists code n', linear_select cs n = Some (code, n')
    /\ (forall l, In l (labels code) -> (n <= l < n')%nat)
    /\ forall W (ev : nat -> @ext W -> @ext W * word) bd rt P post s,
       (forall l, In l (labels P) -> ~ (n <= l < n')%nat) ->
       follows ev bd rt (P ++ code ++ post) code post s (select ev bd rt cs (env s)).
Proof.
  intros cs n Ha Hl. destruct (select_compiles cs n Ha) as (code & n' & E & _ & L).
  exists code, n'. split; [exact E|]. split; [exact L|]. intros. eapply select_ok; eauto.
Qed.
Print Assumptions c126_select.

(** a receive, a send of a computed message, a send of a variable, a default *)
Definition ex_cases : list scase :=
  [mk_case false true (Some 5%nat) (EVar 0) (EImm 0) 10; mk_case false false None (EVar 1) (ECode 7) 11;
   mk_case false false None (ECode 8) (EVar 2) 12; mk_case true false None (EImm 0) (EImm 0) 13].
Definition ex_bd (b : nat) (x : @ext (list nat)) : @ext (list nat) * bool := ((fst x, snd x ++ [b]), true).
Definition ex_ev (e : nat) (x : @ext (list nat)) : @ext (list nat) * word := ((fst x, snd x ++ [e]), WInt (100 + Z.of_nat e)).
Definition ex_rt (i : Z) (l : list (word * place)) (s r : Z) (t : bool) (x : @ext (list nat)) : ended (@ext (list nat)) :=
  Chosen (fst x, snd x ++ [length l; Z.to_nat s; Z.to_nat r]) i.
Definition ex_x : @ext (list nat) := (fun y => WInt (Z.of_nat y), []).
Example c126_select_case : accepted ex_cases = true
  /\ offers ex_ev ex_cases ex_x = ((fst ex_x, [7%nat; 8%nat]),
       [mk_offer true (WInt 0) (PVar 5) 10; mk_offer false (WInt 1) (PVal (WInt 107)) 11; mk_offer false (WInt 108) (PVar 2) 12])
  /\ (forall i b, In (i, b) [(0, 11%nat); (1, 12%nat); (2, 10%nat); (-1, 13%nat)] ->
      exists f, select ex_ev ex_bd (ex_rt i) ex_cases ex_x = Falls (f, [7%nat; 8%nat; 3%nat; 2%nat; 1%nat; b])).
Proof.
  split; [reflexivity|]. split; [reflexivity|]. intros i b H.
  cbn in H. destruct H as [E|[E|[E|[E|[]]]]]; injection E as <- <-; eexists; reflexivity.
Qed.
(** the code itself, run *)
Example c126_select_run : exists code n', linear_select ex_cases 3 = Some (code, n')
  /\ match exec ex_ev ex_bd (ex_rt 2) 100 code code (mk_state ex_x (fun _ => WInt 0) (fun _ => WInt 0)) with
     | Done s => snd (env s) = [7%nat; 8%nat; 3%nat; 2%nat; 1%nat; 10%nat]
     | _ => False
     end.
Proof. eexists _, _. split; [reflexivity|]. vm_compute. reflexivity. Qed.

(** What is sent: if evaluating the cases changes no variable, the message behind each send, when the
    runtime is asked, is the value the message had when its case was reached.
    Missing: selects whose expressions change a variable another case sends, where it fails (below). *)
Theorem c126_messages_partial : forall W (ev : nat -> @ext W -> @ext W * word), (forall e x, fst (fst (ev e x)) = fst x) ->
  forall cs x, let '(x', os) := offers ev cs x in map (there x') (sends os) = map Some (meant ev cs x).
Proof.
  intros W ev H cs x. destruct (meant_ok ev H cs x (fst x) eq_refl) as [E1 E2].
  destruct (offers ev cs x) as [x' os]. cbn [fst snd] in *. rewrite <- E1. apply map_ext. intros o. unfold there. now rewrite E2.
Qed.
Print Assumptions c126_messages_partial.
Example c126_messages_case : (forall e x, fst (fst (ex_ev e x)) = fst x) /\ meant ex_ev ex_cases ex_x = [WInt 107; WInt 2].
Proof. split; reflexivity. Qed.

(** `a.on_send(x)` and `b.on_send(f())` where f assigns to x: the message offered to a is the new x *)
Theorem c126_message_changed_refuted : exists (ev : nat -> @ext unit -> @ext unit * word) cs x,
  accepted cs = true /\ let '(x', os) := offers ev cs x in map (there x') (sends os) <> map Some (meant ev cs x).
Proof.
  exists (fun _ x => ((fun y => if Nat.eqb y 2 then WInt 99 else fst x y, snd x), WInt 1)).
  exists [mk_case false false None (EVar 0) (EVar 2) 10; mk_case false false None (EVar 1) (ECode 0) 11].
  exists (fun y => WInt (Z.of_nat y), tt). split; [reflexivity|]. vm_compute. discriminate.
Qed.
Print Assumptions c126_message_changed_refuted.

(** With the first pass of the runtime: the default is run only if no operation of the select could go on;
    otherwise the chosen operation could, and none before it could (sends come first, then receives, each in
    the order written). *)
Theorem c126_first_ready : forall l sends recvs try x y j, chan_select l sends recvs try x = Chosen y j ->
  (j = -1 /\ y = x /\ try = true
   /\ forall k c p, nth_error l k = Some (WInt c, p) -> ~ can_go (snd x c) (sends <=? Z.of_nat k))
  \/ exists k c p, j = Z.of_nat k /\ nth_error l k = Some (WInt c, p) /\ can_go (snd x c) (sends <=? j)
     /\ forall k' c' p', (k' < k)%nat -> nth_error l k' = Some (WInt c', p') -> ~ can_go (snd x c') (sends <=? Z.of_nat k').
Proof. intros l sends recvs try x y j H. apply (pass1_ok l 0 sends try x y j H). Qed.
Print Assumptions c126_first_ready.

Definition ex_chans : chans := fun c =>
  if c =? 1 then mk_rchan [] 0 [WInt 4] 1 false            (* full *)
  else if c =? 2 then mk_rchan [] 0 [WInt 6; WInt 7] 4 false
  else if c =? 3 then mk_rchan [WInt 8] 0 [] 0 false       (* a sender waits *)
  else mk_rchan [] 0 [] 0 true.                            (* closed *)
Definition ex_y : @ext chans := (fun y => WInt (Z.of_nat y), ex_chans).
Example c126_first_ready_case : exists y,
  chan_select [(WInt 1, PVal (WInt 9)); (WInt 2, PVar 5); (WInt 3, PVar 6)] 1 2 true ex_y = Chosen y 1
  /\ fst y 5%nat = WInt 6 /\ buf (snd y 2) = [WInt 7] /\ sendq (snd y 3) = [WInt 8].
Proof. eexists. split; [reflexivity|]. auto. Qed.

(** A select whose only case can go on does not always run its body: `c.on_recv() -> { ... }`, without a
    variable for the message, fails an assertion in the runtime when a sender is waiting. *)
Theorem c126_no_variable_refuted : exists cs (x : @ext chans) c,
  accepted cs = true /\ can_go (snd x c) true
  /\ forall ev bd n code n' P post s, linear_select cs n = Some (code, n') ->
     (forall l, In l (labels P) -> ~ (n <= l < n')%nat) -> env s = x ->
     exists k, forall f, exec ev bd chan_select (k + f) (P ++ code ++ post) (code ++ post) s = Aborted.
Proof.
  exists [mk_case false true None (EImm 3) (EImm 0) 10], ex_y, 3. split; [reflexivity|].
  split; [left; discriminate|]. intros ev bd n code n' P post s E HP Hs.
  pose proof (select_ok ev bd chan_select _ n code n' (eq_refl : accepted [mk_case false true None (EImm 3) (EImm 0) 10] = true)
    ltac:(cbn; lia) E P post s HP) as H. rewrite Hs in H. exact H.
Qed.
Print Assumptions c126_no_variable_refuted.

(** The body of a receive is not always run with a received message: on a closed channel it is run with
    whatever was in the variable before. *)
Theorem c126_closed_refuted : exists cs (x : @ext chans) c v b,
  accepted cs = true /\ In (mk_case false true (Some v) (EImm c) (EImm 0) b) cs
  /\ sendq (snd x c) = [] /\ buf (snd x c) = []
  /\ forall ev bd, select ev bd chan_select cs x = do_body bd b x.
Proof.
  exists [mk_case false true (Some 5%nat) (EImm 4) (EImm 0) 10], ex_y, 4, 5%nat, 10%nat. repeat split. now left.
Qed.
Print Assumptions c126_closed_refuted.
