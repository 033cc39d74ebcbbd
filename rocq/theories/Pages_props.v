(** C24-C26 for the page allocator (Pages_model.v). *)
From Verif Require Import Base Base_lemmas Zlist.
From Verif Require Import Bitmap_spec Bitmap_model Bitmap_proof Pages_model Pages_spec Pages_runs_proof Pages_chunk_proof Pages_proof Pages_heap_proof.

(** ** C24 *)
(** Whatever is asked of the page allocator and whatever the kernel answers, the history either stops at one
    of the runtime's own assertions or leads to a state where the live runs are page aligned, pairwise
    disjoint, inside pages given to the heap and inside kernel mappings, and the used bits are those of the
    live runs and no others.  It never touches memory outside its tables. *)
Theorem pages_sound ops : Forall op_small ops ->
  match wrun (init, []) ops with
  | Ok (h, live) =>
      (forall i j r q, i <> j -> nth_error live i = Some r -> nth_error live j = Some q ->
         disjoint (fst r) (snd r * PAGE) (fst q) (snd q * PAGE)) /\
      (forall r, In r live -> fst r mod PAGE = 0 /\ BASE <= fst r /\ 0 < snd r) /\
      (forall r x, In r live -> fst r <= x < fst r + snd r * PAGE ->
         in_heap h (page_of x) = true /\ exists g, In g (reserved h) /\ fst g <= x < fst g + snd g) /\
      (forall p, 0 <= p -> marked h p = in_live live p)
  | Abort => True
  | _ => False
  end.
Proof.
  intros _. destruct (run_inv ops init [] inv_init) as [->|(h & live & -> & I)]; [exact Logic.I|].
  split; [|split; [|split]].
  - intros. eapply inv_disjoint; eassumption.
  - intros r Ir. now apply (inv_aligned h live).
  - intros r x Ir Hx. now apply (inv_granted h live r x).
  - apply (i_marks h live I).
Qed.
Print Assumptions pages_sound.

(** The run an allocation returns was entirely free before: part of the heap after growth, and in no live run.
    No other page changes hands, and giving the run back restores every used bit. *)
Theorem pages_alloc_free ops h live count grant h1 live1 : Forall op_small (ops ++ [PAlloc count grant]) ->
  wrun (init, []) ops = Ok (h, live) -> wstep (h, live) (PAlloc count grant) = Ok (h1, live1) ->
  exists base, live1 = live ++ [(base, count)] /\
    (forall p, page_in p (base, count) = true -> marked h p = false /\ marked h1 p = true /\ in_heap h1 p = true) /\
    (forall p, 0 <= p -> page_in p (base, count) = false -> marked h1 p = marked h p) /\
    exists h2, wstep (h1, live1) (PFree (length live)) = Ok (h2, live) /\ forall p, 0 <= p -> marked h2 p = marked h p.
Proof.
  intros _ E E1. destruct (run_inv ops init [] inv_init) as [A|(h' & live' & A & I)]; [congruence|].
  assert (h' = h /\ live' = live) as [-> ->] by (split; congruence). clear A E.
  cbn [wstep] in E1. destruct (alloc_inv grant h live count I) as [X|(h' & base & X & I' & Hc)]; rewrite X in E1; cbn [bind] in E1; [discriminate|].
  assert (h' = h1) as -> by congruence. assert (live1 = live ++ [(base, count)]) as -> by congruence. clear E1 X.
  exists base. split; [reflexivity|].
  pose proof (i_live h1 _ I') as L. apply Forall_app in L. destruct L as [_ L]. inversion L as [|? ? Lr _]; subst. destruct Lr as (p0 & Eb & P0 & N & C). cbn [fst snd] in *.
  assert (IN : forall p, page_in p (base, count) = true -> 0 <= p /\ cov (grown h1) (p / 512) = true /\ in_live live p = false).
  { intros p Hp. pose proof Hp as Hp'. rewrite Eb, page_in_inr in Hp. unfold inr in Hp. apply andb_true_iff in Hp. destruct Hp as [X Y]. apply Z.leb_le in X. apply Z.ltb_lt in Y.
    split; [lia|]. split; [apply C; lia|]. destruct (in_live live p) eqn:IL; [|reflexivity]. exfalso. unfold in_live in IL. apply existsb_exists in IL.
    destruct IL as (r & Ir & Pr). apply In_nth_error in Ir. destruct Ir as (i & Hi).
    assert (Li : (i < length live)%nat) by (apply nth_error_Some; congruence).
    apply (apart_nth (live ++ [(base, count)]) i (length live) r (base, count) (i_apart h1 _ I') ltac:(lia)) with (p := p); [now rewrite nth_error_app1| |tauto].
    rewrite nth_error_app2 by lia. now rewrite Nat.sub_diag. }
  assert (ML : forall p, 0 <= p -> marked h1 p = in_live live p || page_in p (base, count)).
  { intros p Hp. rewrite (i_marks h1 _ I' p Hp), in_live_app. unfold in_live at 2. cbn [existsb]. now rewrite orb_false_r. }
  split; [|split].
  - intros p Hp. destruct (IN p Hp) as (Q0 & Q1 & Q2). rewrite (i_marks h live I p Q0), ML, Hp by assumption.
    split; [assumption|]. split; [apply orb_true_r|]. rewrite in_heap_cov; [assumption|apply (i_grown h1 _ I')].
  - intros p Q0 Hp. now rewrite ML, Hp, orb_false_r, (i_marks h live I p Q0).
  - assert (Hk : nth_error (live ++ [(base, count)]) (length live) = Some (base, count)) by (rewrite nth_error_app2, Nat.sub_diag by lia; reflexivity).
    destruct (free_inv h1 _ (length live) (base, count) I' Hk) as (h2 & E2 & I2 & _ & M2). cbn [fst snd] in E2.
    exists h2. cbn [wstep]. rewrite Hk, E2. cbn [bind]. split.
    + f_equal. f_equal. unfold remove_nth. rewrite firstn_app, Nat.sub_diag, firstn_all, firstn_O, app_nil_r.
      rewrite skipn_all2; [apply app_nil_r|]. rewrite app_length. cbn [length]. lia.
    + intros p Hp. rewrite M2, ML by assumption. destruct (page_in p (base, count)) eqn:PI; [|now rewrite orb_false_r, (i_marks h live I p Hp)].
      destruct (IN p PI) as (_ & _ & Q2). now rewrite (i_marks h live I p Hp), Q2.
Qed.
Print Assumptions pages_alloc_free.

Definition yes : Z -> Z -> bool := fun _ _ => true.
Definition sample : list pop := [PAlloc 3 yes; PAlloc 600 yes; PFree 0; PAlloc 2 yes; PAlloc 1 yes; PAlloc 1 yes].
Definition live_of (r : res world) : list (Z * Z) := match r with Ok (_, l) => l | _ => [] end.

(** the second run of one page goes after the 600 pages because the first three pages are taken again *)
Example pages_sound_meets : Forall op_small sample /\
  live_of (wrun (init, []) sample) = [(BASE + 3 * PAGE, 600); (BASE, 2); (BASE + 2 * PAGE, 1); (BASE + 603 * PAGE, 1)].
Proof. split; [repeat constructor; cbn [op_small]; lia|]. vm_compute. reflexivity. Qed.
(** a kernel that refuses everything stops the history at the runtime's assertion *)
Example pages_sound_refused : wrun (init, []) [PAlloc 1 (fun _ _ => false)] = Abort.
Proof. vm_compute. reflexivity. Qed.
Example pages_alloc_free_meets :
  skipn 4 (live_of (w <- wrun (init, []) sample ;; wstep w (PAlloc 1000 yes))) = [(BASE + 604 * PAGE, 1000)].
Proof. vm_compute. reflexivity. Qed.

(** ** C25 *)
(** After every history each summary of each of the five levels holds the lengths of the leading, the longest
    and the trailing run of free pages (in the heap and in no live run) of the range it stands for. *)
Theorem summaries_exact ops h live : Forall op_small ops -> wrun (init, []) ops = Ok (h, live) ->
  forall level i, 0 <= level <= 4 -> 0 <= i < sum_count level ->
    exact (free_page h live) (i * page_count level) (page_count level) (summ h level i).
Proof.
  intros _ E. destruct (run_inv ops init [] inv_init) as [A|(h' & live' & A & I)]; [congruence|].
  assert (h' = h /\ live' = live) as [-> ->] by (split; congruence).
  intros L i HL Hi. eapply exact_ext; [|apply (i_sums h live I L i HL Hi)]. intros q Hq. symmetry. apply free_page_cov; [assumption|].
  assert (0 <= i * page_count L) by (pose proof (page_count_range (fun _ => true) L); apply Z.mul_nonneg_nonneg; lia). lia.
Qed.
Print Assumptions summaries_exact.

(** the three numbers are determined by the set of free pages *)
Theorem summary_unique f b P s s' : exact f b P s -> exact f b P s' -> s = s'.
Proof.
  intros (A & B & C) (A' & B' & C'). destruct s as [x y z], s' as [x' y' z']. cbn [s_start s_max s_end] in *.
  assert (x = x') as -> by (eapply lead_unique; eassumption). assert (z = z') as -> by (eapply trail_unique; eassumption).
  assert (y = y'); [|congruence].
  destruct B as (R & (a & H1 & H2 & H3) & M), B' as (R' & (a' & H1' & H2' & H3') & M').
  pose proof (M a' y' ltac:(lia) H1' H2' H3'). pose proof (M' a y ltac:(lia) H1 H2 H3). lia.
Qed.
Print Assumptions summary_unique.

Definition summ_of (r : res world) (level i : Z) : summary := match r with Ok (h, _) => summ h level i | _ => mk_sum 0 0 0 end.
(** 1536 pages in the heap, 604 used; freeing the 600 leaves 3..602 and 604..1535 free *)
Example summaries_exact_meets : summ_of (wrun (init, []) (sample ++ [PFree 0])) 4 0 = mk_sum 0 509 509 /\
  summ_of (wrun (init, []) (sample ++ [PFree 0])) 4 1 = mk_sum 91 420 420 /\
  summ_of (wrun (init, []) (sample ++ [PFree 0])) 3 0 = mk_sum 0 932 0 /\
  summ_of (wrun (init, []) (sample ++ [PFree 0])) 0 0 = mk_sum 0 932 0.
Proof. repeat split; vm_compute; reflexivity. Qed.

(** ** C26 *)
(** If the first 16 GiB of the heap have enough consecutive free pages, the allocation succeeds, whatever the
    kernel would say, and asks it for nothing.
    Missing from C26: heaps that need more than the first 16 GiB; see [window_refuted]. *)
Theorem pages_found_partial ops h live count grant p : Forall op_small ops -> wrun (init, []) ops = Ok (h, live) ->
  0 < count -> 0 <= p -> p + count <= 2097152 -> all_in (free_page h live) p count ->
  exists h' base, wstep (h, live) (PAlloc count grant) = Ok (h', live ++ [(base, count)]) /\ reserved h' = reserved h /\ grown h' = grown h.
Proof.
  intros _ E Hc Hp Hb HA. destruct (run_inv ops init [] inv_init) as [A|(h' & live' & A & I)]; [congruence|].
  assert (h' = h /\ live' = live) as [-> ->] by (split; congruence).
  destruct (find_complete grant h live count p I Hc Hp Hb HA) as (h1 & base & E1 & (_ & _ & _ & _ & S5 & S6) & _).
  exists h1, base. cbn [wstep]. rewrite E1. cbn [bind]. auto.
Qed.
Print Assumptions pages_found_partial.

(** If the kernel grants what it can and all the requests of a history, rounded to whole arenas, sum to at
    most 16 GiB, no allocation fails. *)
Theorem demand_16g_partial ops : Forall granted_op ops -> demand ops <= GIB16 ->
  exists h live, wrun (init, []) ops = Ok (h, live).
Proof.
  intros F D. destruct (run_granted ops F init [] 0 inv_init cont_init ltac:(lia)) as (h & live & R & E & _). eauto.
Qed.
Print Assumptions demand_16g_partial.

Example pages_found_meets : Forall granted_op sample /\ demand sample = 5 * ARENA_SIZE /\
  live_of (wrun (init, []) (sample ++ [PFree 0; PAlloc 500 (fun _ _ => false)])) =
    [(BASE, 2); (BASE + 2 * PAGE, 1); (BASE + 603 * PAGE, 1); (BASE + 3 * PAGE, 500)].
Proof.
  split; [repeat constructor; cbn [granted_op]; lia|]. split; vm_compute; reflexivity.
Qed.

Lemma single_alloc h0 grant count h live : wrun (h0, []) [PAlloc count grant] = Ok (h, live) -> exists base, live = [(base, count)].
Proof.
  cbn [wrun wstep]. destruct (alloc_pages grant h0 count) as [[h' base]| | | | |]; cbn [bind app]; try discriminate.
  intros E. exists base. congruence.
Qed.

(** C26 as stated is false.  The number of top-level summaries searched is computed with 32 GiB per entry
    (allocator.c:464) while an entry stands for 16 GiB, and growing the heap asserts that the first entry has
    a free page (allocator.c:637).  After one run of 16 GiB the next single page cannot be had, although the
    kernel would grant it and 127 TiB of address space are left. *)
Theorem window_refuted : exists ops h live,
  Forall granted_op ops /\ wrun (init, []) ops = Ok (h, live) /\
  (exists addr l, hints h = addr :: l /\ addr <= BASE + GIB16 /\ reserve yes h addr ARENA_SIZE = true) /\
  forall grant, wstep (h, live) (PAlloc 1 grant) = Abort.
Proof.
  exists [PAlloc 2097152 yes].
  assert (F : Forall granted_op [PAlloc 2097152 yes]) by (constructor; [split; [lia|reflexivity]|constructor]).
  assert (D : demand [PAlloc 2097152 yes] = GIB16) by (vm_compute; reflexivity).
  destruct (run_granted _ F init [] 0 inv_init cont_init ltac:(lia)) as (h & live & R & E & I & C & HR). rewrite D in HR.
  exists h, live. split; [exact F|]. split; [exact E|]. pose proof C as (_ & (l & Eh) & Hr & _). split.
  - exists (BASE + R), l. split; [assumption|]. split; [lia|]. unfold reserve, yes. cbn [andb]. apply andb_true_iff. split.
    + apply Z.leb_le. unfold BASE, USER_TOP, ARENA_SIZE, GIB16 in *. lia.
    + unfold free_range. apply forallb_forall. intros r Ir. apply orb_true_iff. right. apply Z.leb_le. now apply Hr.
  - intros grant. cbn [wstep]. rewrite (full_window_aborts grant h live R I C); [reflexivity|unfold GIB16 in *; lia|].
    destruct (single_alloc _ _ _ _ _ E) as (base & ->). clear E.
    pose proof (i_live h _ I) as L. inversion L as [|? ? (p & Eb & P0 & N & Cv) _]; subst. cbn [fst snd] in *.
    (* the last page of the run lies in the first 16 GiB *)
    pose proof (cont_cov h _ R _ I C (Cv (p + 2097151) ltac:(lia))) as X.
    assert (p = 0). { unfold CHUNK_BYTES, GIB16 in *. clear - X HR P0. Z.to_euclidean_division_equations. lia. } subst p.
    intros q Hq. unfold in_live. cbn [existsb]. rewrite Eb, page_in_inr. unfold inr.
    destruct (Z.leb_spec 0 q); [|lia]. destruct (Z.ltb_spec q (0 + 2097152)); [reflexivity|lia].
Qed.
Print Assumptions window_refuted.
