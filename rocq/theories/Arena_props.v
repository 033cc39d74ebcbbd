(** C32: the arena allocator. *)
From Verif Require Import Base Base_lemmas Zlist.
From Verif Require Import Arena_model Arena_spec Arena_proof.

(** For every history of allocations, frees (of any pointer whatsoever) and resets: every allocation
    the client holds is 8-aligned and lies inside the data area of one block the arena holds from
    malloc, and no two overlap; the C heap regions of the arena are exactly those deinit frees, each
    once.  Missing: sizes of 2^62 and more, for which the claim is false (below). *)
Theorem arena_sound_partial : forall malloc cap w ops w', cap < 2 ^ 62 -> Forall op_small ops ->
  start malloc cap w -> wrun w ops w' ->
  apart (live w') /\
  (forall p n, In (p, n) (live w') -> p mod 8 = 0 /\
     exists q m, In (q, m) (heap w') /\ within p n (q + HEADER) (m - HEADER)) /\
  NoDup (deinit (ar w')) /\ deinit (ar w') = map fst (heap w').
Proof.
  intros malloc cap w ops w' Hc Ho Hs Hr. pose proof (run_inv w ops w' (start_inv malloc cap w Hc Hs) Ho Hr) as I.
  split; [apply I|]. split.
  - intros p n H. destruct (i_live w' I _ H) as (H1 & H2 & b & H3 & H4). cbn [fst snd] in *. split; [assumption|].
    exists (base b), (HEADER + capacity b). split.
    + rewrite (i_heap w' I). change (In (reg b) (map reg (blocks (ar w')))). now apply in_map.
    + pose proof (i_wf w' I) as W. rewrite Forall_forall in W. destruct (W b H3) as (? & ? & ? & ? & ?).
      intros x Hx. unfold inside, block_data in H4. cbn [fst snd] in H4. lia.
  - assert (E : deinit (ar w') = map fst (heap w')) by (rewrite (i_heap w' I), map_map; reflexivity).
    split; [|assumption]. rewrite E. destruct (i_apart w' I) as [N A].
    assert (P : forall q m, In (q, m) (heap w') -> 0 < m).
    { intros q m H. rewrite (i_heap w' I) in H. apply in_map_iff in H. destruct H as (b & Eb & Hb). assert (m = HEADER + capacity b) as -> by (unfold reg in Eb; congruence).
      pose proof (i_wf w' I) as W. rewrite Forall_forall in W. destruct (W b Hb) as (? & ? & ? & ? & ?). unfold HEADER. lia. }
    clear - N A P. induction (heap w') as [|[q m] l IH]; [constructor|]. cbn [map fst]. inversion N; subst.
    constructor; [|apply IH; auto].
    + intros Hin. apply in_map_iff in Hin. destruct Hin as ([q' m'] & Eq & Hq). cbn [fst] in Eq. subst q'.
      destruct (A q m q m') as [X|D]; [now left|now right| |]. { match goal with N : ~ In _ _ |- _ => apply N end. now rewrite X. }
      apply (D q). pose proof (P q m (or_introl eq_refl)). pose proof (P q m' (or_intror Hq)). lia.
    + intros. apply A; now right.
    + intros q0 m0 H. apply (P q0 m0). now right.
Qed.
Print Assumptions arena_sound_partial.

(** An allocation of a positive size fails only when malloc returns null. *)
Theorem arena_alloc_succeeds : forall malloc cap w ops w' malloc' size, cap < 2 ^ 62 -> Forall op_small ops ->
  start malloc cap w -> wrun w ops w' -> malloc_ok (heap w') malloc' -> 0 < size < 2 ^ 62 ->
  (forall n, malloc' n <> 0) -> exists a p, alloc malloc' (ar w') size = Ok (a, p).
Proof.
  intros malloc cap w ops w' malloc' size Hc Ho Hs Hr M Hsz Hn.
  apply alloc_total; auto. exact (run_inv w ops w' (start_inv malloc cap w Hc Hs) Ho Hr).
Qed.
Print Assumptions arena_alloc_succeeds.

(** Freeing the most recent allocation reclaims it: the next allocation that is not larger gets the
    same address, without asking malloc. *)
Theorem arena_free_last : forall malloc cap w ops w' malloc' size a p n malloc'',
  cap < 2 ^ 62 -> Forall op_small ops -> start malloc cap w -> wrun w ops w' ->
  malloc_ok (heap w') malloc' -> size < 2 ^ 62 -> alloc malloc' (ar w') size = Ok (a, p) -> 0 < n <= size ->
  exists a', alloc malloc'' (dealloc a p) n = Ok (a', p).
Proof.
  intros malloc cap w ops w' malloc' size a p n malloc'' Hc Ho Hs Hr M Hsz E Hn.
  eapply realloc_same; eauto. exact (run_inv w ops w' (start_inv malloc cap w Hc Hs) Ho Hr).
Qed.
Print Assumptions arena_free_last.

(** Freeing anything else changes nothing. *)
Theorem arena_free_other : forall malloc a size a' p q,
  alloc malloc a size = Ok (a', p) -> q <> p -> dealloc a' q = a'.
Proof.
  intros malloc a size a' p q E N. destruct (last_spec _ _ _ _ _ E) as (L & _ & _). unfold dealloc. rewrite L.
  destruct (Z.eqb_spec q p); [contradiction|reflexivity].
Qed.
Print Assumptions arena_free_other.

(** Reset gives every block but the first back to the C heap and starts again at its first byte. *)
Theorem arena_reset : forall malloc cap w ops w' w'', cap < 2 ^ 62 -> Forall op_small ops ->
  start malloc cap w -> wrun w ops w' -> wstep w' AReset w'' ->
  live w'' = [] /\ exists q m, firstn 1 (heap w') = [(q, m)] /\ heap w'' = [(q, m)] /\
  forall malloc' n, 0 < n <= m - HEADER -> exists a, alloc malloc' (ar w'') n = Ok (a, q + HEADER).
Proof.
  intros malloc cap w ops w' w'' Hc Ho Hs Hr S.
  pose proof (run_inv w ops w' (start_inv malloc cap w Hc Hs) Ho Hr) as I.
  pose proof (step_inv w' AReset w'' I Logic.I S) as I2.
  inversion S as [|  |w0 a ps E]; subst. split; [reflexivity|].
  cbn [ar heap] in *. pose proof (cur_wf _ I2) as W. pose proof (i_heap _ I2) as Hh2. cbn [ar heap] in W, Hh2.
  unfold reset in E. pose proof (i_heap w' I) as Hh. destruct (blocks (ar w')) as [|h rest] eqn:Bl.
  { unfold blocks in Bl. destruct (full (ar w')); discriminate. }
  injection E as <- <-. rewrite Hh2, Hh. cbn [map blocks full current app firstn].
  exists (base h), (HEADER + capacity h). split; [reflexivity|]. split; [reflexivity|].
  intros malloc' n Hn. cbn [current] in W.
  destruct W as (W1 & W2 & W3 & W4 & W5). cbn [base capacity used] in *.
  pose proof (align_up_fix 0 ltac:(lia)) as A. change (8 * 0) with 0 in A.
  destruct (alloc_fits (mk_arena [] (mk_block (base h) (capacity h) 0) (block_size (ar w')) 0 0) malloc' n) as (a & E2).
  - unfold block_wf. cbn [current base capacity used]. repeat split; auto; lia.
  - lia.
  - cbn [current used capacity]. rewrite A. lia.
  - exists a. rewrite E2. cbn [current used]. rewrite A. unfold block_data. cbn [base]. do 2 f_equal. lia.
Qed.
Print Assumptions arena_reset.

Ltac norm := match goal with |- wrun ?w _ _ => let w' := eval vm_compute in w in change w with w' end.

(** A history that meets the hypotheses: two blocks, a free of the last allocation, a reset. *)
Example arena_ex :
  let m1 := fun n => if n <? 65536 then 65536 else 0 in
  let m2 := fun n => if n <? 65536 then 131072 else 0 in
  exists w w1 w2, start m1 64 w /\
    wrun w [AAlloc m2 20; AAlloc m2 30; AAlloc m2 100; ADealloc 131096; AAlloc (fun _ => 0) 8] w1 /\
    wstep w1 AReset w2 /\
    live w1 = [(131096, 8); (65584, 30); (65560, 20)] /\ heap w1 = [(65536, 88); (131072, 124)] /\ heap w2 = [(65536, 88)].
Proof.
  assert (M1 : malloc_ok [] (fun n => if n <? 65536 then 65536 else 0)).
  { intros n. destruct (Z.ltb_spec n 65536); [right|now left]. repeat split; try lia. intros q m []. }
  assert (M2 : forall l, l = [(65536, 88)] -> malloc_ok l (fun n => if n <? 65536 then 131072 else 0)).
  { intros l ->. intros n. destruct (Z.ltb_spec n 65536); [right|now left]. repeat split; try lia.
    intros q m [E|[]]. injection E as <- <-. intros x. lia. }
  cbv zeta. do 3 eexists. split.
  { split; [exact M1|]. eexists. split; [reflexivity|reflexivity]. }
  split.
  { eapply wrun_cons; [eapply step_alloc; [apply M2; reflexivity|vm_compute; reflexivity]|]; norm.
    eapply wrun_cons; [eapply step_alloc; [apply M2; reflexivity|vm_compute; reflexivity]|]; norm.
    eapply wrun_cons; [eapply step_alloc; [apply M2; reflexivity|vm_compute; reflexivity]|]; norm.
    eapply wrun_cons; [eapply step_dealloc|]; norm.
    eapply wrun_cons; [eapply step_alloc; [intros n; now left|vm_compute; reflexivity]|norm; apply wrun_nil]. }
  split; [eapply step_reset; reflexivity|].
  repeat split; reflexivity.
Qed.

(** C32 is false for sizes near 2^63: the test "aligned_used + size > capacity" wraps around, and a
    request for 2^63 - 1 bytes is granted inside a block of 4096. *)
Theorem arena_sound_refuted : exists malloc w ops w', start malloc 4096 w /\ wrun w ops w' /\
  exists p n, In (p, n) (live w') /\ forall q m, In (q, m) (heap w') -> ~ within p n (q + HEADER) (m - HEADER).
Proof.
  assert (M1 : malloc_ok [] (fun n => if n <? 65536 then 65536 else 0)).
  { intros n. destruct (Z.ltb_spec n 65536); [right|now left]. repeat split; try lia. intros q m []. }
  exists (fun n => if n <? 65536 then 65536 else 0). eexists.
  exists [AAlloc (fun _ => 0) 8; AAlloc (fun _ => 0) (2 ^ 63 - 1)]. eexists. split.
  { split; [exact M1|]. eexists. split; [reflexivity|reflexivity]. }
  split.
  { eapply wrun_cons; [eapply step_alloc; [intros n; now left|vm_compute; reflexivity]|]; norm.
    eapply wrun_cons; [eapply step_alloc; [intros n; now left|vm_compute; reflexivity]|norm; apply wrun_nil]. }
  exists 65568, (2 ^ 63 - 1). split; [now left|].
  intros q m [E|[]] H. injection E as <- <-. pose proof (H (65568 + 2 ^ 62) ltac:(lia)). unfold HEADER in *. lia.
Qed.
Print Assumptions arena_sound_refuted.
