(** C94, C95 and C96: lifetime intervals and the registers given to them. *)
From Coq Require Import Sorted.
From Verif Require Import Base Regalloc_model Regalloc_spec Regalloc_proof Regalloc_end_proof.

(** ** C94 *)
(** Whether a position is covered by an interval is found, also when the end of each range counts. *)
Theorem interval_covers : forall i p input, ordered (ranges i) ->
  exists b, covered i p input = Ok b /\ (b = true <-> exists f t, In (f, t) (ranges i) /\ f <= p < t + (if input then 1 else 0)).
Proof. exact covered_ok. Qed.
Print Assumptions interval_covers.
Definition holes : ivl := mk_ivl [(2, 10); (20, 30); (40, 44)] [(2, Must); (24, Free); (44, Must)] 0 false false 1 false 0.
Example interval_covers_used : ordered (ranges holes) /\ map (fun p => covered holes p false) [2; 10; 43; 44] = [Ok true; Ok false; Ok true; Ok false] /\ covered holes 44 true = Ok true.
Proof. cbn [ordered ranges holes]. repeat split; lia. Qed.

(** Adding a range makes its positions covered and keeps the ranges in order; when it does not lie behind the first range,
    as when intervals are built from the end of a function to its begin, nothing else becomes covered. *)
Theorem interval_add_range : forall l from to, ordered l -> from < to ->
  exists l', add_range l from to = Ok l' /\ ordered l' /\ (forall p, covers l p \/ from <= p < to -> covers l' p) /\
    ((forall f t m, l = (f, t) :: m -> from <= t) -> forall p, covers l' p -> covers l p \/ from <= p < to).
Proof. exact add_range_ok. Qed.
Print Assumptions interval_add_range.
Example interval_add_range_used : add_range (ranges holes) 0 25 = Ok [(0, 30); (40, 44)] /\ add_range (ranges holes) 0 1 = Ok [(0, 1); (2, 10); (20, 30); (40, 44)].
Proof. split; reflexivity. Qed.

(** Two intervals do not meet before the position found as their first meeting. *)
Theorem interval_meeting : forall blocks cur sel r, blocks_ok blocks -> ordered (ranges cur) -> ordered (ranges sel) -> (forall f, first_from cur = Ok f -> 0 <= f) ->
  next_intersect blocks cur sel = Ok r -> 0 <= r /\ forall p, p < r -> covers (ranges cur) p -> covers (ranges sel) p -> False.
Proof. exact next_intersect_ok. Qed.
Print Assumptions interval_meeting.
Definition two_blocks : list block := [mk_block 0 40 1 0 false; mk_block 42 80 0 0 false].
Example interval_meeting_used : blocks_ok two_blocks /\ next_intersect two_blocks (mk_ivl [(11, 18); (28, 50)] [] 0 false false 1 false 1) holes = Ok 28
  /\ next_intersect two_blocks (mk_ivl [(11, 18); (42, 50)] [] 0 false false 1 false 1) holes = Ok 39.
Proof. split; [|split; reflexivity]. cbn [blocks_ok two_blocks]. unfold block_ok. cbn [first_id last_id nsucc]. repeat split; intros; try lia; discriminate. Qed.

(** An interval meets the stretch from the first to the last position of another one exactly when this is found. *)
Theorem interval_overlap : forall cur sel b, ordered (ranges sel) -> is_intersect cur sel = Ok b ->
  exists f t, first_from cur = Ok f /\ last_to cur = Ok t /\ (b = true <-> exists q, f <= q < t /\ covers (ranges sel) q).
Proof. exact is_intersect_ok. Qed.
Print Assumptions interval_overlap.
Example interval_overlap_used : is_intersect (mk_ivl [(10, 12); (18, 20)] [] 0 false false 1 false 1) holes = Ok false /\ is_intersect (mk_ivl [(10, 12); (32, 35)] [] 0 false false 1 false 1) holes = Ok true.
Proof. split; reflexivity. Qed.

(** Splitting an interval gives each position to the part before or from the split position, each use to one of both, and
    leaves all other intervals alone. *)
Theorem interval_split : forall l k pos l' j i, split_iv l k pos = Ok (l', j) -> nth_error l k = Some i -> ordered (ranges i) ->
  exists a b, l' = list_set l k a ++ [b] /\ j = length l /\
    ordered (ranges a) /\ ordered (ranges b) /\
    (forall p, covers (ranges a) p <-> covers (ranges i) p /\ p < pos) /\ (forall p, covers (ranges b) p <-> covers (ranges i) p /\ pos <= p) /\
    uses i = uses a ++ uses b /\ (forall u, In u (uses a) -> fst u <= pos) /\ (forall u, hd_error (uses b) = Some u -> pos < fst u) /\
    cls b = cls i /\ owner b = owner i /\ reg b = 0%nat /\ spilled b = false.
Proof. exact split_iv_ok. Qed.
Print Assumptions interval_split.
Example interval_split_used : option_map (fun r => map (fun i => (ranges i, uses i)) (fst r)) (match split_iv [holes] 0 23 with Ok r => Some r | _ => None end)
  = Some [([(2, 10); (20, 23)], [(2, Must)]); ([(23, 30); (40, 44)], [(24, Free); (44, Must)])].
Proof. reflexivity. Qed.

(** The position chosen to split an interval before a position lies before it. *)
Theorem interval_split_position : forall blocks i before r, blocks_ok blocks -> optimal_split blocks i before = Ok r -> r < before.
Proof. exact optimal_split_ok. Qed.
Print Assumptions interval_split_position.
Example interval_split_position_used : optimal_split two_blocks holes 44 = Ok 43 /\ optimal_split two_blocks holes 42 = Ok 39.
Proof. split; reflexivity. Qed.

(** Uses are kept in order, and the next use after a position is the first one; 0 says that there is none. *)
Theorem interval_uses : forall l pos k, Sorted Z.le (map fst l) -> Sorted Z.le (map fst (add_use l pos k)) /\ forall u, In u (add_use l pos k) <-> u = (pos, k) \/ In u l.
Proof. intros l pos k S. split; [apply (add_use_sorted pos k l S)|apply add_use_in]. Qed.
Print Assumptions interval_uses.
Theorem interval_next_use : forall i after, Sorted Z.le (map fst (uses i)) ->
  (exists k, In (next_use i after, k) (uses i)) /\ after < next_use i after /\ (forall u, In u (uses i) -> after < fst u -> next_use i after <= fst u)
  \/ next_use i after = 0 /\ forall u, In u (uses i) -> fst u <= after.
Proof. exact next_use_ok. Qed.
Print Assumptions interval_next_use.
Example interval_uses_used : Sorted Z.le (map fst (uses holes)) /\ add_use (uses holes) 24 Must = [(2, Must); (24, Must); (24, Free); (44, Must)] /\ map (next_use holes) [0; 2; 24; 44] = [2; 24; 44; 0].
Proof. split; [cbn [map fst uses holes]; repeat (constructor; try lia)|split; reflexivity]. Qed.

(** ** C95 *)
(** Giving registers ends: the number of steps is bounded by the number of positions in which the variables live. *)
Theorem allocation_ends : forall classes blocks hint fixeds vars fuel, is_problem classes blocks fixeds vars -> total vars <= Z.of_nat fuel ->
  allocate fuel classes blocks hint fixeds vars <> NoFuel.
Proof. intros classes blocks hint fixeds vars fuel HP L. exact (allocate_ends classes blocks hint fixeds vars HP fuel L). Qed.
Print Assumptions allocation_ends.

(** When it ends, every variable is in parts. Every part has a register of the right class, and no use that must be on the
    stack, or a stack slot, and no use that must be in a register. Every position in which the variable lives is in exactly
    one part, every use is in a part, and the parts have no other positions or uses. The intervals of the registers are
    unchanged. *)
Theorem allocation_complete : forall classes blocks hint fixeds vars fuel s, is_problem classes blocks fixeds vars -> allocate fuel classes blocks hint fixeds vars = Ok s ->
  unhandled s = [] /\ firstn (length fixeds) (ivs s) = fixeds /\
  (forall k i, nth_error (ivs s) k = Some i -> (length fixeds <= k)%nat -> exists o v, nth_error vars o = Some v /\ is_part (length fixeds) (ivs s) o k i) /\
  forall o v, nth_error vars o = Some v ->
    (forall k i, is_part (length fixeds) (ivs s) o k i ->
      placed i /\ (reg i <> 0%nat -> nth_error classes (reg i) = Some (cls v)) /\ (forall p, covers (ranges i) p -> covers (ranges v) p) /\ (forall u, In u (uses i) -> In u (uses v))) /\
    (forall p, covers (ranges v) p -> exists k i, is_part (length fixeds) (ivs s) o k i /\ covers (ranges i) p /\
      forall k' i', is_part (length fixeds) (ivs s) o k' i' -> covers (ranges i') p -> k' = k) /\
    (forall u, In u (uses v) -> exists k i, is_part (length fixeds) (ivs s) o k i /\ In u (uses i)).
Proof. intros classes blocks hint fixeds vars fuel s HP H. exact (allocate_parts classes blocks hint fixeds vars HP fuel s H). Qed.
Print Assumptions allocation_complete.

(** three variables and two registers, one of which is taken by a call *)
Definition reg_of (r : nat) (l : list (Z * Z)) : ivl := mk_ivl l [] r false true 1 false (r - 1).
Definition var_of (o : nat) (l : list (Z * Z)) (u : list (Z * kind)) : ivl := mk_ivl l u 0 false false 1 false o.
Definition first_hint (l : list ivl) (k : nat) : nat := match nth_error l k with Some i => match nth_error l (owner i) with Some j => reg j | None => 0%nat end | None => 0%nat end.
Definition small_regs : list ivl := [reg_of 1 [(20, 21)]; reg_of 2 []].
Definition small_vars : list ivl :=
  [var_of 2 [(2, 36)] [(2, Must); (10, Must); (36, Free)]; var_of 3 [(4, 30)] [(4, Must); (30, Must)]; var_of 4 [(6, 12); (14, 16)] [(6, Must); (12, Must); (14, Must); (16, Free)]].
Lemma small_problem : is_problem [0%nat; 1%nat; 1%nat] two_blocks small_regs small_vars.
Proof.
  split; [apply interval_meeting_used|]. split.
  - split; [reflexivity|]. intros k i H. destruct k as [|[|k]]; cbn [small_regs nth_error] in H; [| |destruct k; discriminate]; injection H as <-; cbn [ranges reg_of ordered fixed reg cls nth_error]; repeat split; lia.
  - intros k i H. destruct k as [|[|[|k]]]; cbn [small_vars nth_error] in H; [| | |destruct k; discriminate]; injection H as <-; cbn [ranges var_of ordered fixed reg spilled owner length small_regs];
      (split; [repeat split; lia|]); (split; [eexists _, _, _; split; [reflexivity|lia]|]); repeat split; lia.
Qed.
Definition places (r : res st) : option (list (Z * Z * list (Z * Z)) * list Z) :=
  match r with Ok s => Some (map (fun i => (Z.of_nat (owner i), Z.of_nat (reg i), ranges i)) (ivs s), seen s) | _ => None end.
Example allocation_used : is_problem [0%nat; 1%nat; 1%nat] two_blocks small_regs small_vars /\
  places (allocate 100 [0%nat; 1%nat; 1%nat] two_blocks first_hint small_regs small_vars) =
  Some ([(0, 1, [(20, 21)]); (1, 2, []); (2, 2, [(2, 5)]); (3, 1, [(4, 19)]); (4, 2, [(6, 8)]); (3, 2, [(19, 30)]);
         (2, 0, [(5, 9)]); (2, 2, [(9, 10)]); (4, 0, [(8, 11)]); (4, 2, [(11, 12); (14, 16)]); (2, 0, [(10, 36)])], [19; 11; 9; 6; 4; 2]).
Proof. split; [exact small_problem|vm_compute; reflexivity]. Qed.

(** ** C96 *)
(** When the positions at which intervals are handled never go back, no two intervals with the same register live at the
    same position. What is missing: they go back when an interval is split before a loop. *)
Theorem allocation_distinct_partial : forall classes blocks hint fixeds vars fuel s, is_problem classes blocks fixeds vars -> allocate fuel classes blocks hint fixeds vars = Ok s ->
  forward (seen s) -> no_clash (ivs s).
Proof. intros classes blocks hint fixeds vars fuel s HP H F. apply (allocate_Inv classes blocks hint fixeds vars HP fuel s H). exact F. Qed.
Print Assumptions allocation_distinct_partial.

(** Without that the claim is false: a variable with a use in a loop is spilled before the position of a later variable,
    and the part of it put back gets the register a third variable has there. *)
Definition loop_blocks : list block := [mk_block 0 30 1 0 false; mk_block 32 40 2 1 false; mk_block 42 80 1 1 false; mk_block 82 120 0 0 false].
Definition loop_regs : list ivl := [reg_of 1 []; reg_of 2 []].
Definition loop_vars : list ivl :=
  [var_of 2 [(2, 6)] [(2, Must); (6, Free)];
   var_of 3 [(4, 100)] [(4, Must); (6, Free); (16, Must); (50, Must); (100, Must)];
   var_of 4 [(8, 12)] [(8, Must); (12, Free)];
   var_of 5 [(10, 28)] [(10, Must); (28, Free)];
   var_of 6 [(44, 56)] [(44, Must); (56, Free)];
   var_of 7 [(56, 64)] [(56, Must); (62, Free); (64, Free)];
   var_of 8 [(60, 70)] [(60, Must); (68, Free)]].
Lemma loop_problem : is_problem [0%nat; 1%nat; 1%nat] loop_blocks loop_regs loop_vars.
Proof.
  split; [|split].
  - cbn [blocks_ok loop_blocks]. unfold block_ok. cbn [first_id last_id nsucc]. repeat split; intros; try lia; discriminate.
  - split; [reflexivity|]. intros k i H. destruct k as [|[|k]]; cbn [loop_regs nth_error] in H; [| |destruct k; discriminate]; injection H as <-; cbn [ranges reg_of ordered fixed reg cls nth_error]; repeat split; lia.
  - intros k i H. do 7 (destruct k as [|k]; [cbn [loop_vars nth_error] in H; injection H as <-; cbn [ranges var_of ordered fixed reg spilled owner length loop_regs];
      (split; [repeat split; lia|]); (split; [eexists _, _, _; split; [reflexivity|lia]|]); repeat split; lia|]). destruct k; discriminate.
Qed.
Theorem allocation_distinct_refuted : exists classes blocks hint fixeds vars fuel s,
  is_problem classes blocks fixeds vars /\ allocate fuel classes blocks hint fixeds vars = Ok s /\ ~ no_clash (ivs s).
Proof.
  destruct (allocate 100 [0%nat; 1%nat; 1%nat] loop_blocks first_hint loop_regs loop_vars) as [s| | | | |] eqn:E; try (vm_compute in E; discriminate).
  exists [0%nat; 1%nat; 1%nat], loop_blocks, first_hint, loop_regs, loop_vars, 100%nat, s. split; [exact loop_problem|]. split; [exact E|].
  assert (P : nth_error (ivs s) 6 = Some (mk_ivl [(44, 56)] [(44, Must); (56, Free)] 2 false false 1 false 6) /\ nth_error (ivs s) 12 = Some (mk_ivl [(49, 55)] [(50, Must)] 2 false false 1 false 3)) by (vm_compute in E; injection E as <-; split; reflexivity).
  intros N. destruct P as [P1 P2]. apply (N 6%nat 12%nat _ _ 50 P1 P2); [discriminate|reflexivity|discriminate| |]; cbn [ranges]; [exists 44, 56|exists 49, 55]; (split; [left; reflexivity|lia]).
Qed.
Print Assumptions allocation_distinct_refuted.

Example allocation_distinct_used : exists s, is_problem [0%nat; 1%nat; 1%nat] two_blocks small_regs small_vars /\ allocate 100 [0%nat; 1%nat; 1%nat] two_blocks first_hint small_regs small_vars = Ok s /\ forward (seen s).
Proof.
  destruct (allocate 100 [0%nat; 1%nat; 1%nat] two_blocks first_hint small_regs small_vars) as [s| | | | |] eqn:E; try (vm_compute in E; discriminate).
  exists s. split; [exact small_problem|]. split; [reflexivity|]. vm_compute in E. injection E as <-. cbn [seen forward]. repeat split; lia.
Qed.
