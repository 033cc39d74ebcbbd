From Coq Require Import Permutation Sorted.
From Verif Require Import Base Base_lemmas Regalloc_model Regalloc_spec Regalloc_proof Regalloc_walk_proof Regalloc_step_proof.

(** ** No function runs out of fuel *)
Lemma bind_nf {A B} (e : res A) (f : A -> res B) : e <> NoFuel -> (forall a, e = Ok a -> f a <> NoFuel) -> bind e f <> NoFuel.
Proof. intros H K. destruct e as [a| | | | |]; cbn [bind]; try discriminate; [apply (K a eq_refl)|contradiction]. Qed.
Create HintDb nf.
Ltac nf := repeat match goal with
  | |- Ok _ <> NoFuel => discriminate
  | |- UB <> NoFuel => discriminate
  | |- Abort <> NoFuel => discriminate
  | |- bind _ _ <> NoFuel => apply bind_nf; [|intros ? ?]
  | |- (if ?b then _ else _) <> NoFuel => destruct b
  | |- (let '(_, _) := ?x in _) <> NoFuel => destruct x
  | |- match ?x with _ => _ end <> NoFuel => destruct x
  | |- _ => solve [auto with nf]
  end.
Lemma get_nf {A} (l : list A) i : get l i <> NoFuel. Proof. unfold get. nf. Qed.
Lemma first_nf i : first_from i <> NoFuel. Proof. unfold first_from. nf. Qed.
Lemma last_nf i : last_to i <> NoFuel. Proof. unfold last_to. nf. Qed.
#[export] Hint Resolve get_nf first_nf last_nf : nf.
Lemma expired_nf i p b : expired i p b <> NoFuel. Proof. unfold expired. nf. Qed.
Lemma covered_nf i p b : covered i p b <> NoFuel. Proof. unfold covered. cbv zeta. nf. Qed.
#[export] Hint Resolve expired_nf covered_nf : nf.
Lemma any_nf i : forall n p, any_covered n i p <> NoFuel. Proof. induction n as [|n IH]; intros p; cbn [any_covered]; nf. Qed.
#[export] Hint Resolve any_nf : nf.
Lemma isect_nf a b : is_intersect a b <> NoFuel. Proof. unfold is_intersect. nf. Qed.
Lemma branch_nf b : before_branch b <> NoFuel. Proof. unfold before_branch. nf. Qed.
#[export] Hint Resolve isect_nf branch_nf : nf.
Lemma label_nf p : forall rb, off_label rb p <> NoFuel. Proof. induction rb as [|b rb IH]; cbn [off_label]; nf. Qed.
#[export] Hint Resolve label_nf : nf.
Lemma next_nf bl a b : next_intersect bl a b <> NoFuel.
Proof. unfold next_intersect. nf. apply intersect_fuel. lia. Qed.
Lemma near_nf p : forall rb r, near_label rb p = Some r -> r <> NoFuel.
Proof. induction rb as [|b rb IH]; intros r H; cbn [near_label] in H; [discriminate|]. destruct ((first_id b =? p) || (first_id b =? p - 1)); [injection H as <-; nf|apply (IH r H)]. Qed.
Lemma loop_nf a b c : forall rb, out_of_loop rb a b c <> NoFuel. Proof. induction rb as [|x rb IH]; cbn [out_of_loop]; nf. Qed.
#[export] Hint Resolve next_nf loop_nf : nf.
Lemma block_nf a b c d : forall rb, in_block rb a b c d <> NoFuel. Proof. induction rb as [|x rb IH]; [cbn [in_block]; nf|]. unfold in_block; fold in_block. nf. Qed.
#[export] Hint Resolve block_nf : nf.
Lemma optimal_nf bl i p : optimal_split bl i p <> NoFuel.
Proof. unfold optimal_split. destruct (near_label (rev bl) p) as [r|] eqn:E; [apply (near_nf _ _ _ E)|]. nf. Qed.
Lemma split_nf l k p : split_iv l k p <> NoFuel. Proof. unfold split_iv. cbv zeta. nf. Qed.
Lemma sort_nf l k : forall un, sort_in l un k <> NoFuel. Proof. induction un as [|j un IH]; cbn [sort_in]; nf. Qed.
#[export] Hint Resolve optimal_nf split_nf sort_nf : nf.
Lemma put_nf s k : put_back s k <> NoFuel. Proof. unfold put_back. nf. Qed.
#[export] Hint Resolve put_nf : nf.
Lemma spill_nf bl s k p : spill bl s k p <> NoFuel. Proof. unfold spill. nf. Qed.
#[export] Hint Resolve spill_nf : nf.
Lemma assign_nf bl s k r : assign bl s k r <> NoFuel. Proof. unfold assign. cbv zeta. nf. Qed.
Lemma siftA_nf l p : forall act, sift_active l act p <> NoFuel. Proof. induction act as [|k act IH]; cbn [sift_active]; nf. Qed.
Lemma siftI_nf l p : forall act, sift_inactive l act p <> NoFuel. Proof. induction act as [|k act IH]; cbn [sift_inactive]; nf. Qed.
Lemma setpos_nf l i p : set_pos l i p <> NoFuel. Proof. unfold set_pos. nf. Qed.
#[export] Hint Resolve assign_nf siftA_nf siftI_nf setpos_nf : nf.
Lemma freeA_nf l c : forall act pos, free_active l act c pos <> NoFuel. Proof. induction act as [|k act IH]; intros pos; cbn [free_active]; nf. Qed.
Lemma freeI_nf bl l c : forall act pos, free_inactive bl l act c pos <> NoFuel. Proof. induction act as [|k act IH]; intros pos; cbn [free_inactive]; nf. Qed.
Lemma findF_nf pos a b h : forall l x y, find_free l pos a b h x y <> NoFuel. Proof. induction l as [|k l IH]; intros x y; [cbn [find_free]; nf|]. unfold find_free; fold find_free. nf. Qed.
Lemma findB_nf pos a h : forall l x, find_block l pos a h x <> NoFuel. Proof. induction l as [|k l IH]; intros x; [cbn [find_block]; nf|]. unfold find_block; fold find_block. nf. Qed.
Lemma blockA_nf l c f : forall act u b, block_active l act c f u b <> NoFuel. Proof. induction act as [|k act IH]; intros u b; cbn [block_active]; nf. Qed.
Lemma blockI_nf bl l c f : forall act u b, block_inactive bl l act c f u b <> NoFuel. Proof. induction act as [|k act IH]; intros u b; cbn [block_inactive]; nf. Qed.
#[export] Hint Resolve freeA_nf freeI_nf findF_nf findB_nf blockA_nf blockI_nf : nf.
Lemma evict_nf bl sel r f : (forall i, sel i <> NoFuel) -> forall act s, evict bl act sel r f s <> NoFuel.
Proof. intros HS. induction act as [|k act IH]; intros s; cbn [evict]; nf. Qed.
Lemma allocF_nf cl bl h s k : allocate_free cl bl h s k <> NoFuel. Proof. unfold allocate_free. cbv zeta. nf. Qed.
Lemma allocB_nf cl bl h s k : allocate_block cl bl h s k <> NoFuel.
Proof. unfold allocate_block. nf; try (apply evict_nf; intros j; nf). Qed.
#[export] Hint Resolve allocF_nf allocB_nf : nf.
Lemma step_nf cl bl h s : step cl bl h s <> NoFuel.
Proof. unfold step. cbv zeta. nf. Qed.
Lemma sort_all_nf l : forall ks un, sort_all l ks un <> NoFuel. Proof. induction ks as [|k ks IH]; intros un; cbn [sort_all]; nf. Qed.

Section End_.
  Variables (classes : list nat) (blocks : list block) (hint : list ivl -> nat -> nat) (fixeds vars : list ivl).
  Notation Inv := (Inv fixeds vars).
  Notation nf := (length fixeds).
  Hypothesis HP : is_problem classes blocks fixeds vars.

  Lemma Hb : blocks_ok blocks. Proof. apply HP. Qed.

  Lemma sort_all_perm l : forall ks un un', sort_all l ks un = Ok un' -> Permutation (ks ++ un) un'.
  Proof.
    induction ks as [|k ks IH]; intros un un' H; cbn [sort_all] in H; [injection H as <-; apply Permutation_refl|].
    bnd H un1 E. eapply perm_trans; [|apply (IH _ _ H)]. cbn [app]. eapply perm_trans; [apply Permutation_middle|]. apply Permutation_app_head. apply (sort_in_perm _ _ _ _ E).
  Qed.

  Lemma start_ok s : start fixeds vars = Ok s ->
    ivs s = fixeds ++ vars /\ Inv (ivs s) (unhandled s) [] /\ class_ok classes (ivs s) /\ seen s = [] /\ length (unhandled s) = length vars /\ no_clash (ivs s) /\ located (ivs s) (active s) (inactive s) 0.
  Proof.
    unfold start. cbv zeta. intros H. bnd H un E. injection H as <-. cbn [ivs unhandled active inactive seen]. apply sort_all_perm in E. rewrite app_nil_r in E.
    destruct HP as [_ [[FL FX] VX]]. set (l := fixeds ++ vars).
    assert (N : forall k i, nth_error l k = Some i -> ((k < nf)%nat /\ nth_error fixeds k = Some i) \/ ((nf <= k)%nat /\ nth_error vars (k - nf) = Some i)).
    { intros k i H. unfold l in H. destruct (Nat.lt_ge_cases k nf) as [K|K]; [rewrite nth_error_app1 in H by exact K; left; auto|rewrite nth_error_app2 in H by exact K; right; auto]. }
    assert (NV : forall o v, nth_error vars o = Some v -> nth_error l (nf + o) = Some v) by (intros o v H; unfold l; rewrite nth_error_app2 by lia; replace (nf + o - nf)%nat with o by lia; exact H).
    split; [reflexivity|]. split; [|split; [|split; [reflexivity|split; [rewrite <- (Permutation_length E); apply seq_length|split]]]].
    - constructor.
      + intros k i H. destruct (N k i H) as [[_ K]|[_ K]]; [apply (FX k i K)|apply (VX _ i K)].
      + intros k i H F. destruct (N k i H) as [[_ K]|[_ K]]; [destruct (FX k i K) as [_ [F' _]]; congruence|]. destruct (VX _ i K) as [_ [F' _]]. exact F'.
      + intros k i H F. destruct (N k i H) as [[_ K]|[L K]]; [destruct (FX k i K) as [_ [F' _]]; congruence|]. exists (k - nf)%nat, i. split; [exact K|]. split; [apply (VX _ i K)|]. auto.
      + intros o v H. destruct (VX o v H) as [_ [_ [F [_ [_ O]]]]]. split; intros x X; exists (nf + o)%nat, v; (split; [apply NV; exact H|auto]).
      + intros j k i i' p H H' F F' O _ _. destruct (N j i H) as [[_ K]|[L K]]; [destruct (FX j i K) as [_ [X _]]; congruence|]. destruct (N k i' H') as [[_ K']|[L' K']]; [destruct (FX k i' K') as [_ [X _]]; congruence|].
        destruct (VX _ i K) as [_ [_ [_ [_ [_ O1]]]]]. destruct (VX _ i' K') as [_ [_ [_ [_ [_ O2]]]]]. lia.
      + intros k H. apply (Permutation_in k (Permutation_sym E)) in H. apply in_seq in H. destruct (nth_ex vars (k - nf) ltac:(lia)) as [v V]. exists v. split; [rewrite <- (NV _ _ V); f_equal; lia|]. destruct (VX _ v V) as [_ [_ [F [R [S _]]]]]. repeat split; assumption.
      + apply (Permutation_NoDup E). apply seq_NoDup.
      + unfold l. rewrite firstn_app, Nat.sub_diag. cbn [firstn]. rewrite app_nil_r. apply firstn_all.
      + intros k i H L. destruct (N k i H) as [[K _]|[_ K]]; [lia|apply (VX _ i K)].
      + intros k i H L. destruct (N k i H) as [[_ K]|[K _]]; [apply (FX k i K)|lia].
      + unfold l. rewrite app_length. lia.
      + unfold l. rewrite skipn_app, Nat.sub_diag, skipn_all. reflexivity.
      + intros k i H F. left. apply (Permutation_in _ E). apply in_seq. destruct (N k i H) as [[_ K]|[L K]]; [destruct (FX k i K) as [_ [X _]]; congruence|]. apply nth_lt in K. lia.
    - intros k i H R. destruct (N k i H) as [[_ K]|[_ K]]; [|destruct (VX _ i K) as [_ [_ [_ [X _]]]]; congruence]. destruct (FX k i K) as [_ [_ [-> X]]]. exact X.
    - intros j k i i' p H H' D R R0 _ _. destruct (N j i H) as [[_ K]|[_ K]]; [|destruct (VX _ i K) as [_ [_ [_ [X _]]]]; congruence]. destruct (N k i' H') as [[_ K']|[_ K']]; [|destruct (VX _ i' K') as [_ [_ [_ [X _]]]]; congruence].
      destruct (FX j i K) as [_ [_ [R1 _]]]. destruct (FX k i' K') as [_ [_ [R2 _]]]. lia.
    - intros k i H R. destruct (N k i H) as [[L K]|[_ K]]; [|destruct (VX _ i K) as [_ [_ [_ [X _]]]]; congruence]. right.
      destruct (ranges i) as [|r m] eqn:E1; [right; intros x C; contradiction (covers_nil _ C)|]. left. apply filter_In. split; [apply in_seq; lia|]. fold l. rewrite H, E1. reflexivity.
  Qed.

  Lemma total_ge : forall l, (forall k i, nth_error l k = Some i -> 1 <= size (ranges i)) -> Z.of_nat (length l) <= total l.
  Proof.
    induction l as [|x l IH]; intros H; [cbn; lia|]. specialize (IH (fun k i K => H (S k) i K)). specialize (H O x eq_refl). unfold total in *. cbn [fold_right length]. lia.
  Qed.
  Lemma Inv_count l un hand : Inv l un hand -> Z.of_nat (length l) - Z.of_nat nf <= total vars.
  Proof.
    intros V. rewrite <- (i_total _ _ _ _ _ V). pose proof (i_len _ _ _ _ _ V). assert (L : length (skipn nf l) = (length l - nf)%nat) by apply skipn_length.
    pose proof (total_ge (skipn nf l)) as T. rewrite L in T. enough (Z.of_nat (length l - nf) <= total (skipn nf l)) by lia. apply T. intros k i K. rewrite nth_skipn in K.
    destruct (i_first _ _ _ _ _ V _ i K (i_var _ _ _ _ _ V _ i K ltac:(lia))) as [f [t [m [R _]]]]. pose proof (i_ord _ _ _ _ _ V _ i K) as O. rewrite R in *. apply size_pos. exact O.
  Qed.
  Lemma walk_ends : forall fuel s, Inv (ivs s) (unhandled s) [] -> class_ok classes (ivs s) -> total vars + Z.of_nat nf - slack (ivs s) (unhandled s) <= Z.of_nat fuel -> walk classes blocks hint fuel s <> NoFuel.
  Proof.
    induction fuel as [|fuel IH]; intros s V CO L; cbn [walk]; destruct (unhandled s) as [|k un] eqn:U; try discriminate.
    - pose proof (Inv_count _ _ _ V). unfold slack in L. cbn [length] in L. lia.
    - apply bind_nf; [apply step_nf|]. intros s1 E. destruct (step_ok classes blocks hint fixeds vars Hb s k un s1 U ltac:(rewrite U; exact V) CO E) as [from [S1 [S2 [S3 _]]]]. apply (IH s1 S1 S2). rewrite U in S3. lia.
  Qed.
  Lemma allocate_ends fuel : total vars <= Z.of_nat fuel -> allocate fuel classes blocks hint fixeds vars <> NoFuel.
  Proof.
    intros L. unfold allocate. apply bind_nf; [unfold start; cbv zeta; apply bind_nf; [apply sort_all_nf|intros; discriminate]|]. intros s E. destruct (start_ok s E) as [E1 [V [CO [_ [E2 _]]]]]. apply (walk_ends fuel s V CO).
    unfold slack. rewrite E1, E2, app_length. lia.
  Qed.
  Lemma allocate_Inv fuel s : allocate fuel classes blocks hint fixeds vars = Ok s -> Inv (ivs s) [] [] /\ unhandled s = [] /\ class_ok classes (ivs s) /\ (forward (seen s) -> no_clash (ivs s)).
  Proof.
    unfold allocate. intros H. bnd H s0 E. destruct (start_ok s0 E) as [E1 [V [CO [E3 [E2 [NC L]]]]]]. destruct (seen_walk classes blocks hint fixeds vars Hb fuel s0 s H V CO) as [A1 [A2 [A3 [_ A5]]]].
    split; [exact A1|]. split; [exact A2|]. split; [exact A3|]. intros F. apply A5; [exact F|exact NC|]. exists 0. split; [exact L|]. rewrite E3. reflexivity.
  Qed.
  Lemma allocate_parts fuel s : allocate fuel classes blocks hint fixeds vars = Ok s ->
    unhandled s = [] /\ firstn nf (ivs s) = fixeds /\
    (forall k i, nth_error (ivs s) k = Some i -> (nf <= k)%nat -> exists o v, nth_error vars o = Some v /\ is_part nf (ivs s) o k i) /\
    forall o v, nth_error vars o = Some v ->
      (forall k i, is_part nf (ivs s) o k i -> placed i /\ (reg i <> 0%nat -> nth_error classes (reg i) = Some (cls v)) /\ (forall p, covers (ranges i) p -> covers (ranges v) p) /\ (forall u, In u (uses i) -> In u (uses v))) /\
      (forall p, covers (ranges v) p -> exists k i, is_part nf (ivs s) o k i /\ covers (ranges i) p /\ forall k' i', is_part nf (ivs s) o k' i' -> covers (ranges i') p -> k' = k) /\
      (forall u, In u (uses v) -> exists k i, is_part nf (ivs s) o k i /\ In u (uses i)).
  Proof.
    intros H. destruct (allocate_Inv fuel s H) as [V [U [CO _]]]. split; [exact U|]. split; [apply (i_fix _ _ _ _ _ V)|].
    assert (FV : forall k i, nth_error (ivs s) k = Some i -> fixed i = false -> (nf <= k)%nat) by (intros k i Hk F; destruct (Nat.lt_ge_cases k nf) as [K|K]; [rewrite (i_fixd _ _ _ _ _ V k i Hk K) in F; discriminate|exact K]).
    split.
    { intros k i Hk L. destruct (i_part _ _ _ _ _ V k i Hk (i_var _ _ _ _ _ V k i Hk L)) as [o [v [A1 [A2 _]]]]. exists o, v. split; [exact A1|]. split; [exact Hk|]. split; assumption. }
    intros o v Hv. destruct (i_all _ _ _ _ _ V o v Hv) as [A1 A2]. split; [|split].
    - intros k i [Hk [L O]]. pose proof (i_var _ _ _ _ _ V k i Hk L) as F. destruct (i_part _ _ _ _ _ V k i Hk F) as [o' [v' [B1 [B2 [B3 [B4 B5]]]]]]. assert (o' = o) by lia. subst o'. rewrite Hv in B1. injection B1 as <-.
      split; [destruct (i_settled _ _ _ _ _ V k i Hk F) as [K|[K|K]]; [destruct K|destruct K|exact K]|]. split; [intros R; rewrite <- B3; apply (CO k i Hk R)|]. split; assumption.
    - intros p C. destruct (A1 p C) as [k [i [Hk [F [O Ci]]]]]. exists k, i. split; [split; [exact Hk|split; [apply (FV k i Hk F)|exact O]]|]. split; [exact Ci|]. intros k' i' [Hk' [L' O']] C'.
      apply (i_uniq _ _ _ _ _ V k' k i' i p Hk' Hk (i_var _ _ _ _ _ V k' i' Hk' L') F ltac:(congruence) C' Ci).
    - intros u C. destruct (A2 u C) as [k [i [Hk [F [O Ci]]]]]. exists k, i. split; [split; [exact Hk|split; [apply (FV k i Hk F)|exact O]]|exact Ci].
  Qed.
End End_.

(** ** One split *)
Lemma uses_right_first pos : forall l u, hd_error (uses_right pos l) = Some u -> pos < fst u.
Proof. induction l as [|x l IH]; intros u H; cbn [uses_right] in H; [discriminate|]. destruct (fst x <=? pos) eqn:E; [apply (IH u H)|]. injection H as <-. lia. Qed.
Lemma split_iv_ok l k pos l' j i : split_iv l k pos = Ok (l', j) -> nth_error l k = Some i -> ordered (ranges i) ->
  exists a b, l' = list_set l k a ++ [b] /\ j = length l /\
    ordered (ranges a) /\ ordered (ranges b) /\
    (forall p, covers (ranges a) p <-> covers (ranges i) p /\ p < pos) /\ (forall p, covers (ranges b) p <-> covers (ranges i) p /\ pos <= p) /\
    uses i = uses a ++ uses b /\ (forall u, In u (uses a) -> fst u <= pos) /\ (forall u, hd_error (uses b) = Some u -> pos < fst u) /\
    cls b = cls i /\ owner b = owner i /\ reg b = 0%nat /\ spilled b = false.
Proof.
  unfold split_iv. intros H Hi O. bnd H i0 E1. apply get_ok in E1. rewrite Hi in E1. injection E1 as <-. bnd H t E2. bnd H f E3. destruct ((t <=? pos) || (pos <=? f) || fixed i); [discriminate|].
  assert (HE : l' = list_set l k (with_ranges i (flat_map (left_part pos) (ranges i)) (uses_left pos (uses i))) ++ [mk_ivl (flat_map (right_part pos) (ranges i)) (uses_right pos (uses i)) 0 false false (cls i) false (owner i)] /\ j = length l) by (injection H as <- <-; auto).
  destruct HE as [-> ->]. clear H. eexists _, _. split; [reflexivity|]. split; [reflexivity|]. cbn [ranges uses with_ranges cls owner reg spilled].
  split; [apply (left_ordered pos _ O)|]. split; [apply (right_ordered pos _ O)|]. split; [apply left_covers|]. split; [apply right_covers|]. split; [symmetry; apply uses_cut|]. split; [apply uses_left_le|]. split; [apply uses_right_first|]. auto.
Qed.

(** ** Uses *)
Lemma add_use_in pos k : forall l u, In u (add_use l pos k) <-> u = (pos, k) \/ In u l.
Proof.
  induction l as [|[p k'] l IH]; intros u; cbn [add_use]; [cbn [In]; intuition congruence|].
  destruct (p <? pos); cbn [In]; [rewrite IH|]; intuition congruence.
Qed.
Lemma add_use_sorted pos k : forall l, Sorted Z.le (map fst l) -> Sorted Z.le (map fst (add_use l pos k)).
Proof.
  induction l as [|[p k'] l IH]; intros S; cbn [add_use map fst] in *; [repeat constructor|]. apply Sorted_inv in S as S'. destruct S' as [S1 S2].
  destruct (p <? pos) eqn:E; cbn [map fst]; [|constructor; [exact S|constructor; lia]].
  constructor; [apply IH; exact S1|]. destruct l as [|[p1 k1] l]; cbn [add_use map fst] in *; [constructor; lia|]. inversion S2. subst. destruct (p1 <? pos); cbn [map fst]; constructor; lia.
Qed.
Lemma next_use_ok i after : Sorted Z.le (map fst (uses i)) ->
  (exists k, In (next_use i after, k) (uses i)) /\ after < next_use i after /\ (forall u, In u (uses i) -> after < fst u -> next_use i after <= fst u)
  \/ next_use i after = 0 /\ forall u, In u (uses i) -> fst u <= after.
Proof.
  unfold next_use. intros S. apply Sorted_StronglySorted in S; [|intros x y z; lia]. induction (uses i) as [|[p k] l IH]; cbn [find]; [right; split; [reflexivity|intros u []]|].
  cbn [map fst] in S. inversion S as [|? ? S1 S2]. subst. cbn [fst]. destruct (after <? p) eqn:E.
  - left. cbn [fst]. split; [exists k; left; reflexivity|]. split; [lia|]. intros u [<-|H] _; [cbn; lia|]. rewrite Forall_forall in S2. apply S2. apply in_map. exact H.
  - destruct (IH S1) as [[[k' A] [B C]]|[A B]]; [left|right].
    + split; [exists k'; right; exact A|]. split; [exact B|]. intros u [<-|H] L; [cbn [fst] in L; lia|auto].
    + split; [exact A|]. intros u [<-|H]; [cbn [fst]; lia|auto].
Qed.
