(** Proofs about the layout of types. *)
From Verif Require Import Base Base_lemmas Layout_model Layout_spec.

(** ** induction over types *)
Section TypeInd.
  Variable P : type_t -> Prop.
  Hypothesis H0 : forall k, P (Scalar k).
  Hypothesis H1 : forall t, words t <> None -> P t.
  Hypothesis H2 : forall k, P (Enum k).
  Hypothesis H3 : forall ts, Forall P ts -> P (Union ts).
  Hypothesis H4 : forall ts, Forall P ts -> P (Tagged_union ts).
  Hypothesis H5 : forall n t, P t -> P (Arr n t).
  Hypothesis H6 : forall ts, Forall P ts -> P (Tuple ts).
  Hypothesis H7 : forall ps, Forall (fun p => P (snd p)) ps -> P (Struct ps).
  Fixpoint type_induction (t : type_t) : P t.
  Proof.
    destruct t as [k| | | | | | | | | | | | |k|ts|ts|n t|ts|ps]; try (apply H1; discriminate).
    - apply H0.
    - apply H2.
    - apply H3. induction ts as [|t' ts IH]; constructor; [apply type_induction|exact IH].
    - apply H4. induction ts as [|t' ts IH]; constructor; [apply type_induction|exact IH].
    - apply H5. apply type_induction.
    - apply H6. induction ts as [|t' ts IH]; constructor; [apply type_induction|exact IH].
    - apply H7. induction ps as [|p ps IH]; constructor; [apply type_induction|exact IH].
  Defined.
End TypeInd.

(** ** rounding *)
Definition al (a : Z) : Prop := a = 0 \/ a = 1 \/ a = 2 \/ a = 4 \/ a = 8.

Lemma land_pow2 x k : 0 <= k -> Z.land x (Z.lnot (2 ^ k - 1)) = 2 ^ k * (x / 2 ^ k).
Proof.
  intros Hk. rewrite <- Z.ldiff_land. replace (2 ^ k - 1) with (Z.ones k) by (rewrite Z.ones_equiv; lia).
  rewrite Z.ldiff_ones_r by lia. rewrite Z.shiftl_mul_pow2, Z.shiftr_div_pow2 by lia. lia.
Qed.

Lemma align_up_eq n a : al a -> a <> 0 -> align_up n a = a * ((n + a - 1) / a).
Proof.
  intros H N. unfold align_up. destruct (a =? 0) eqn:E; [lia|].
  destruct H as [->|[->|[->|[->| ->]]]]; try lia.
  - exact (land_pow2 (n + 1 - 1) 0 ltac:(lia)).
  - exact (land_pow2 (n + 2 - 1) 1 ltac:(lia)).
  - exact (land_pow2 (n + 4 - 1) 2 ltac:(lia)).
  - exact (land_pow2 (n + 8 - 1) 3 ltac:(lia)).
Qed.

Lemma align_up_0 n : align_up n 0 = n.
Proof. reflexivity. Qed.

Lemma align_up_first n a : al a -> first_multiple n a (align_up n a).
Proof.
  intros H. split; [intros ->; reflexivity|]. intros P. rewrite align_up_eq by (auto; lia).
  pose proof (Z.div_mod (n + a - 1) a ltac:(lia)) as D. pose proof (Z.mod_pos_bound (n + a - 1) a P) as B.
  split; [lia|]. split; [apply Z.divide_factor_l|].
  intros o' Ho [q ->]. rewrite (Z.mul_comm q a) in *. apply Zmult_le_compat_l; [|lia].
  assert ((n + a - 1) / a < q + 1); [|lia]. apply Z.div_lt_upper_bound; lia.
Qed.

Lemma first_multiple_unique n a o o' : 0 <= a -> first_multiple n a o -> first_multiple n a o' -> o = o'.
Proof.
  intros Ha [Z1 P1] [Z2 P2]. destruct (Z.eq_dec a 0) as [E|E]; [rewrite Z1, Z2 by lia; reflexivity|].
  destruct (P1 ltac:(lia)) as [A1 [B1 C1]], (P2 ltac:(lia)) as [A2 [B2 C2]].
  pose proof (C1 o' A2 B2). pose proof (C2 o A1 B1). lia.
Qed.

Lemma align_up_ge n a : al a -> n <= align_up n a < n + 8.
Proof.
  intros H. destruct (Z.eq_dec a 0) as [->|E]; [rewrite align_up_0; lia|]. rewrite align_up_eq by auto.
  pose proof (Z.div_mod (n + a - 1) a E). pose proof (Z.mod_pos_bound (n + a - 1) a). unfold al in H. lia.
Qed.

Lemma align_up_divide n a : al a -> a <> 0 -> (a | align_up n a).
Proof. intros H E. rewrite align_up_eq by auto. apply Z.divide_factor_l. Qed.

Lemma align_up_shift b n a : al a -> (a <> 0 -> (a | b)) -> align_up (b + n) a = b + align_up n a.
Proof.
  intros H D. destruct (Z.eq_dec a 0) as [->|E]; [reflexivity|]. destruct (D E) as [q ->].
  rewrite !align_up_eq by auto. replace (q * a + n + a - 1) with (q * a + (n + a - 1)) by lia.
  rewrite Z.div_add_l by auto. lia.
Qed.

Lemma align_up_same n a : al a -> (a <> 0 -> (a | n)) -> align_up n a = n.
Proof.
  intros H D. pose proof (align_up_shift n 0 a H D) as E. rewrite Z.add_0_r in E. rewrite E.
  assert (align_up 0 a = 0); [|lia]. destruct H as [->|[->|[->|[->| ->]]]]; reflexivity.
Qed.

Lemma al_u8 a : al a -> u8 a = a.
Proof. intros [->|[->|[->|[->| ->]]]]; reflexivity. Qed.

Lemma al_divide a b : al a -> al b -> a <= b -> a <> 0 -> (a | b).
Proof.
  intros Ha Hb L N. unfold al in *.
  assert (exists q, b = q * a) as [q ->]; [|exists q; reflexivity].
  destruct Ha as [->|[->|[->|[->| ->]]]], Hb as [->|[->|[->|[->| ->]]]]; try lia;
    ((exists 1; reflexivity) || (exists 2; reflexivity) || (exists 4; reflexivity) || (exists 8; reflexivity)).
Qed.

(** ** the largest *)
Lemma max_fold l m : let r := fold_left (fun m x => if m <? x then x else m) l m in
  m <= r /\ (r = m \/ In r l) /\ forall x, In x l -> x <= r.
Proof.
  revert m. induction l as [|y l IH]; intros m; cbn [fold_left In].
  - split; [lia|]. split; [auto|]. intros x [].
  - destruct (IH (if m <? y then y else m)) as [A [B C]]. cbv zeta in *. set (r := fold_left _ l _) in *. clearbody r.
    destruct (Z.ltb_spec m y); (split; [lia|split]).
    + destruct B as [B|B]; [right; left; lia|auto].
    + intros x [->|H']; [lia|auto].
    + destruct B as [B|B]; [left; lia|auto].
    + intros x [->|H']; [lia|auto].
Qed.

Lemma max_of_largest l : Forall (fun x => 0 <= x) l -> largest l (max_of l).
Proof.
  intros H. unfold max_of. destruct (max_fold l 0) as [A [B C]]. cbv zeta in *. set (r := fold_left _ l 0) in *. clearbody r.
  destruct l as [|y l].
  - left. split; [reflexivity|]. destruct B as [B|[]]; exact B.
  - right. split; [|exact C]. destruct B as [B|B]; [|exact B].
    subst r. pose proof (C y (or_introl eq_refl)). pose proof (Forall_inv H) as Y. cbv beta in Y. assert (y = 0) by lia. subst y. left; reflexivity.
Qed.

Lemma largest_unique l m m' : largest l m -> largest l m' -> m = m'.
Proof.
  intros [[-> ->]|[I1 U1]] [[E ->]|[I2 U2]]; auto.
  - destruct I2.
  - subst l. destruct I1.
  - pose proof (U1 _ I2). pose proof (U2 _ I1). lia.
Qed.

Lemma max_of_le l m x : In x l -> m = max_of l -> x <= m.
Proof. intros I0 ->. unfold max_of. apply (max_fold l 0). exact I0. Qed.

Lemma max_of_nonneg l : 0 <= max_of l.
Proof. exact (proj1 (max_fold l 0)). Qed.

Lemma max_of_al l : Forall al l -> al (max_of l).
Proof.
  intros H. unfold max_of. destruct (max_fold l 0) as [_ [B _]]. cbv zeta in *. destruct B as [->|B]; [left; reflexivity|].
  rewrite Forall_forall in H. apply H. exact B.
Qed.

(** ** alignments and sizes *)
Lemma kind_al k : al (kind_sizeof k).
Proof. destruct k; cbn [kind_sizeof]; unfold al; lia. Qed.

Lemma alignof_al t : al (alignof t).
Proof.
  induction t as [k|t W|k|ts IH|ts IH|n t IH|ts IH|ps IH] using type_induction.
  - apply kind_al.
  - destruct t; cbn [words] in W; try congruence; cbn [alignof]; unfold al; lia.
  - apply kind_al.
  - cbn [alignof]; unfold al; lia.
  - cbn [alignof]; unfold al; lia.
  - exact IH.
  - cbn [alignof]. apply max_of_al. apply Forall_map. exact IH.
  - cbn [alignof]. apply max_of_al. apply Forall_map. eapply Forall_impl; [|exact IH]. intros p Hp. cbv beta. rewrite al_u8; exact Hp.
Qed.

Lemma struct_align (ps : list (list Z * type_t)) : map (fun p => u8 (alignof (snd p))) ps = map alignof (map snd ps ).
Proof. rewrite map_map. apply map_ext. intros p. apply al_u8, alignof_al. Qed.

Definition shape (t : type_t) : Z * Z := (storage_size t, alignof t).

Lemma struct_shapes (ps : list (list Z * type_t)) : map (fun p => (storage_size (snd p), alignof (snd p))) ps = map shape (map snd ps ).
Proof. rewrite map_map. reflexivity. Qed.

(** structs and tuples are laid out by the same rule *)
Definition group_align (ts : list type_t) : Z := max_of (map alignof ts).
Definition group_end (ts : list type_t) : Z := add_members (map shape ts) 0.
Definition group_size (ts : list type_t) : Z := align_up (group_end ts) (group_align ts).

Lemma alignof_struct ps : alignof (Struct ps) = group_align (map snd ps).
Proof. cbn [alignof]. rewrite struct_align. reflexivity. Qed.
Lemma size_struct ps : storage_size (Struct ps) = group_size (map snd ps).
Proof. cbn [storage_size]. rewrite struct_shapes. unfold group_size, group_end, group_align. rewrite !map_map. reflexivity. Qed.
Lemma size_tuple ts : storage_size (Tuple ts) = group_size ts.
Proof. reflexivity. Qed.

Lemma group_align_al ts : al (group_align ts).
Proof. apply max_of_al. apply Forall_map. apply Forall_forall. intros t _. apply alignof_al. Qed.

Lemma group_align_in t ts : In t ts -> alignof t <> 0 -> (alignof t | group_align ts).
Proof.
  intros I0 N. apply al_divide; [apply alignof_al|apply group_align_al| |exact N].
  eapply max_of_le; [|reflexivity]. apply in_map. exact I0.
Qed.

Lemma add_members_cons s a l e : add_members ((s, a) :: l) e = add_members l (align_up e a + s).
Proof. reflexivity. Qed.

Lemma add_members_ge l e : Forall (fun m => 0 <= fst m /\ al (snd m)) l -> e <= add_members l e.
Proof.
  intros H. revert e. induction H as [|[s a] l [S0 A0] H IH]; intros e; [cbn; lia|].
  rewrite add_members_cons. pose proof (IH (align_up e a + s)). pose proof (align_up_ge e a A0). cbn [fst snd] in *. lia.
Qed.

Lemma size_nonneg t : 0 <= storage_size t.
Proof.
  assert (G : forall ts, Forall (fun t => 0 <= storage_size t) ts -> 0 <= group_size ts).
  { intros ts H. unfold group_size. pose proof (align_up_ge (group_end ts) _ (group_align_al ts)).
    enough (0 <= group_end ts) by lia. unfold group_end. apply add_members_ge. apply Forall_map. eapply Forall_impl; [|exact H].
    intros t0 Ht. split; [exact Ht|apply alignof_al]. }
  assert (A8 : al 8) by (unfold al; lia).
  induction t as [k|t W|k|ts IH|ts IH|n t IH|ts IH|ps IH] using type_induction.
  - destruct k; cbn; lia.
  - destruct t; cbn [words] in W; try congruence; cbn [storage_size]; lia.
  - destruct k; cbn; lia.
  - cbn [storage_size]. set (m := match ts with [] => 8 | _ => _ end). pose proof (align_up_ge m 8 A8).
    enough (0 <= m) by lia. unfold m. destruct ts; [lia|apply max_of_nonneg].
  - cbn [storage_size]. cbv zeta. set (m := if _ <=? 0 then 8 else _). pose proof (align_up_ge m 8 A8).
    enough (0 <= m) by lia. unfold m. destruct (_ <=? 0) eqn:E; lia.
  - cbn [storage_size]. lia.
  - rewrite size_tuple. auto.
  - rewrite size_struct. apply G. apply Forall_map. exact IH.
Qed.

(** ** placing *)
Lemma placed_visit ts e : placed e (map shape ts) (visit_offsets ts e) (add_members (map shape ts) e).
Proof.
  revert e. induction ts as [|t ts IH]; intros e; cbn [map visit_offsets]; [constructor|].
  unfold shape at 1 3. rewrite add_members_cons. cbv zeta. constructor; [apply align_up_first, alignof_al|]. apply IH.
Qed.

Lemma placed_unique l : Forall (fun m => 0 <= snd m) l -> forall f os e os' e', placed f l os e -> placed f l os' e' -> os = os' /\ e = e'.
Proof.
  induction 1 as [|[s a] l A H IH]; intros f os e os' e' P Q; inversion P; subst; inversion Q; subst.
  - auto.
  - match goal with H1 : first_multiple _ _ _, H2 : first_multiple _ _ _ |- _ => pose proof (first_multiple_unique _ _ _ _ A H1 H2) as E; subst end.
    match goal with H1 : placed _ l _ _, H2 : placed _ l _ _ |- _ => destruct (IH _ _ _ _ _ H1 H2) as [-> ->] end. auto.
Qed.

(** ** the model follows the rules *)
Lemma members_shapes ts : Forall (fun t => laid_out t (storage_size t) (alignof t)) ts -> members ts (map shape ts).
Proof. induction 1; cbn [map]; constructor; auto. Qed.

Lemma sizes_nonneg ts : Forall (fun x => 0 <= x) (map storage_size ts).
Proof. apply Forall_map. apply Forall_forall. intros t _. apply size_nonneg. Qed.

Lemma al_nonneg a : al a -> 0 <= a.
Proof. unfold al. lia. Qed.

Lemma aligns_nonneg ts : Forall (fun x => 0 <= x) (map alignof ts).
Proof. apply Forall_map. apply Forall_forall. intros t _. apply al_nonneg, alignof_al. Qed.

Lemma fst_shapes ts : map fst (map shape ts) = map storage_size ts.
Proof. rewrite map_map. reflexivity. Qed.
Lemma snd_shapes ts : map snd (map shape ts) = map alignof ts.
Proof. rewrite map_map. reflexivity. Qed.

Lemma laid_out_model t : laid_out t (storage_size t) (alignof t).
Proof.
  assert (A8 : al 8) by (unfold al; lia).
  induction t as [k|t W|k|ts IH|ts IH|n t IH|ts IH|ps IH] using type_induction.
  - destruct k; exact (laid_scalar _).
  - destruct (words t) as [n|] eqn:E; [|congruence].
    pose proof (laid_words t n E) as L. destruct t; cbn [words] in E; try discriminate; injection E as <-; exact L.
  - destruct k; exact (laid_enum _).
  - cbn [storage_size alignof]. eapply laid_union; [apply members_shapes; exact IH| |].
    + rewrite fst_shapes. apply max_of_largest, sizes_nonneg.
    + destruct ts; apply align_up_first; exact A8.
  - cbn [storage_size alignof]. cbv zeta. eapply laid_tagged; [apply members_shapes; exact IH| |].
    + rewrite fst_shapes. apply max_of_largest, sizes_nonneg.
    + pose proof (max_of_nonneg (map storage_size ts)).
      replace (max_of (map storage_size ts) <=? 0) with (max_of (map storage_size ts) =? 0) by lia. apply align_up_first; exact A8.
  - cbn [storage_size alignof]. constructor. exact IH.
  - rewrite size_tuple. change (alignof (Tuple ts)) with (group_align ts).
    eapply laid_tuple; [apply members_shapes; exact IH|apply placed_visit| |].
    + rewrite snd_shapes. apply max_of_largest, aligns_nonneg.
    + apply align_up_first, group_align_al.
  - rewrite size_struct, alignof_struct.
    eapply laid_struct; [apply members_shapes; apply Forall_map; exact IH|apply placed_visit| |].
    + rewrite snd_shapes. apply max_of_largest, aligns_nonneg.
    + apply align_up_first, group_align_al.
Qed.

Lemma members_unique ts : Forall (fun t => forall s a, laid_out t s a -> s = storage_size t /\ a = alignof t) ts ->
  forall l, members ts l -> l = map shape ts.
Proof.
  induction 1 as [|t ts H F IH]; intros l M; inversion M; subst; cbn [map]; [reflexivity|].
  match goal with H1 : laid_out _ _ _ |- _ => destruct (H _ _ H1) as [-> ->] end.
  match goal with H1 : members _ _ |- _ => rewrite (IH _ H1) end. reflexivity.
Qed.

Lemma shapes_aligned ts : Forall (fun m => 0 <= snd m) (map shape ts).
Proof. apply Forall_map. apply Forall_forall. intros t _. apply al_nonneg, alignof_al. Qed.

Lemma laid_out_unique t : forall s a, laid_out t s a -> s = storage_size t /\ a = alignof t.
Proof.
  assert (A8 : 0 <= 8) by lia. assert (L8 : al 8) by (unfold al; lia).
  induction t as [k|t W|k|ts IH|ts IH|n t IH|ts IH|ps IH] using type_induction; intros s a L.
  - inversion L; subst; [destruct k; auto|cbn [words] in *; discriminate].
  - destruct (words t) as [n|] eqn:E; [|congruence].
    destruct t; cbn [words] in E; try discriminate; injection E as <-; inversion L; subst; cbn [words] in *;
      match goal with H : Some _ = Some _ |- _ => injection H as <- end; auto.
  - inversion L; subst; [destruct k; auto|cbn [words] in *; discriminate].
  - inversion L; subst; [cbn [words] in *; discriminate|]. split; [|reflexivity].
    match goal with H1 : members _ _ |- _ => rewrite (members_unique _ IH _ H1) in * end.
    rewrite fst_shapes in *. match goal with H1 : largest _ _ |- _ => rewrite (largest_unique _ _ _ H1 (max_of_largest _ (sizes_nonneg ts))) in * end.
    cbn [storage_size]. f_equal. eapply first_multiple_unique; [exact A8|eassumption|]. destruct ts; apply align_up_first; exact L8.
  - inversion L; subst; [cbn [words] in *; discriminate|]. split; [|reflexivity].
    match goal with H1 : members _ _ |- _ => rewrite (members_unique _ IH _ H1) in * end.
    rewrite fst_shapes in *. match goal with H1 : largest _ _ |- _ => rewrite (largest_unique _ _ _ H1 (max_of_largest _ (sizes_nonneg ts))) in * end.
    cbn [storage_size]. cbv zeta. f_equal. eapply first_multiple_unique; [exact A8|eassumption|].
    pose proof (max_of_nonneg (map storage_size ts)).
    replace (max_of (map storage_size ts) <=? 0) with (max_of (map storage_size ts) =? 0) by lia. apply align_up_first; exact L8.
  - inversion L; subst; [cbn [words] in *; discriminate|]. match goal with H1 : laid_out t _ _ |- _ => destruct (IH _ _ H1) as [-> ->] end.
    split; reflexivity.
  - inversion L; subst; [cbn [words] in *; discriminate|].
    match goal with H1 : members _ _ |- _ => rewrite (members_unique _ IH _ H1) in * end.
    match goal with H1 : placed _ _ _ _ |- _ => destruct (placed_unique _ (shapes_aligned ts) _ _ _ _ _ H1 (placed_visit ts 0)) as [-> ->] end.
    rewrite snd_shapes in *. match goal with H1 : largest _ _ |- _ => rewrite (largest_unique _ _ _ H1 (max_of_largest _ (aligns_nonneg ts))) in * end.
    split; [|reflexivity]. rewrite size_tuple. eapply first_multiple_unique; [apply max_of_nonneg|eassumption|].
    apply align_up_first. apply group_align_al.
  - inversion L; subst; [cbn [words] in *; discriminate|].
    apply Forall_map with (P := fun t => forall s a, laid_out t s a -> s = storage_size t /\ a = alignof t) in IH.
    match goal with H1 : members _ _ |- _ => rewrite (members_unique _ IH _ H1) in * end. set (ts := map snd ps : list type_t) in *.
    match goal with H1 : placed _ _ _ _ |- _ => destruct (placed_unique _ (shapes_aligned ts) _ _ _ _ _ H1 (placed_visit ts 0)) as [-> ->] end.
    rewrite snd_shapes in *. match goal with H1 : largest _ _ |- _ => rewrite (largest_unique _ _ _ H1 (max_of_largest _ (aligns_nonneg ts))) in * end.
    rewrite size_struct, alignof_struct. fold ts. split; [|reflexivity]. eapply first_multiple_unique; [apply max_of_nonneg|eassumption|].
    apply align_up_first. apply group_align_al.
Qed.

Lemma offsets_model ts : offsets ts (visit_offsets ts 0).
Proof. exists (map shape ts), (group_end ts). split; [|apply placed_visit]. apply members_shapes. apply Forall_forall. intros t _. apply laid_out_model. Qed.

Lemma offsets_unique ts os : offsets ts os -> os = visit_offsets ts 0.
Proof.
  intros [l [e [M P]]]. rewrite (members_unique ts) with (l := l) in P by (auto; apply Forall_forall; intros t _; apply laid_out_unique).
  apply (placed_unique _ (shapes_aligned ts) _ _ _ _ _ P (placed_visit ts 0)).
Qed.
