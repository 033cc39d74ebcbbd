(** Proofs about the pointer maps. *)
From Verif Require Import Base Base_lemmas Zlist Bitmap_model Bitmap_spec Bitmap_proof Layout_model Layout_spec Layout_proof.

(** ** where addresses can be *)
Lemma divide_add a b c : (a | b) -> (a | c) -> (a | b + c).
Proof. apply Z.divide_add_r. Qed.

Lemma size_aligned t : alignof t <> 0 -> (alignof t | storage_size t).
Proof.
  assert (A8 : al 8) by (unfold al; lia). assert (N8 : 8 <> 0) by lia.
  induction t as [k|t W|k|ts IH|ts IH|n t IH|ts IH|ps IH] using type_induction; intros N.
  - apply Z.divide_refl.
  - destruct t; cbn [words] in W; try congruence; cbn [alignof storage_size];
      solve [exists 1; reflexivity | exists 6; reflexivity | exists 7; reflexivity | exists 5; reflexivity | exists 2; reflexivity | exists 4; reflexivity].
  - apply Z.divide_refl.
  - cbn [alignof storage_size]. apply divide_add; [apply Z.divide_refl|]. apply align_up_divide; assumption.
  - cbn [alignof storage_size]. cbv zeta. apply divide_add; [apply Z.divide_refl|]. apply align_up_divide; assumption.
  - cbn [alignof storage_size] in *. apply Z.divide_mul_r. auto.
  - rewrite size_tuple. apply align_up_divide; [apply group_align_al|exact N].
  - rewrite size_struct. rewrite alignof_struct in *. apply align_up_divide; [apply group_align_al|exact N].
Qed.

Lemma visit_nth ts : forall e i t o, 0 <= e -> nth_error ts i = Some t -> nth_error (visit_offsets ts e) i = Some o ->
  e <= o /\ (alignof t <> 0 -> (alignof t | o)) /\ o + storage_size t <= add_members (map shape ts) e.
Proof.
  induction ts as [|u ts IH]; intros e i t o He H1 H2; [destruct i; discriminate|].
  cbn [map]. unfold shape at 1. rewrite add_members_cons. cbn [visit_offsets] in H2. cbv zeta in H2.
  pose proof (align_up_ge e _ (alignof_al u)) as G. pose proof (size_nonneg u) as S0.
  destruct i as [|i]; cbn [nth_error] in H1, H2.
  - injection H1 as <-. injection H2 as <-. split; [lia|]. split; [apply align_up_divide, alignof_al|].
    apply add_members_ge. apply Forall_map, Forall_forall. intros v _. split; [apply size_nonneg|apply alignof_al].
  - assert (He2 : 0 <= align_up e (alignof u) + storage_size u) by lia. destruct (IH _ i t o He2 H1 H2) as [A [B C]]. split; [lia|]. split; [exact B|exact C].
Qed.

Definition in_group (w : bool) (ts : list type_t) (x : Z) : Prop :=
  exists i u o y, nth_error ts i = Some u /\ nth_error (visit_offsets ts 0) i = Some o /\ holds w u y /\ x = o + y.

Lemma holds_inv w t x : holds w t x ->
  match t with
  | Scalar ANYPTR | Ref | Ptr | Fn | Chan | Coroutine | String | Vec => x = 0
  | Map => x = 0 \/ x = 8 \/ x = 16
  | Set_ | Interface => x = 0 \/ x = 8
  | Any => x = 8 \/ (w = true /\ x = 0)
  | Union ts => (exists u o, In u ts /\ holds w u o /\ x = 8 + o) \/ (w = true /\ exists i, x = 8 * i /\ 0 <= 8 * i < storage_size t)
  | Tagged_union ts => (exists u o, In u ts /\ holds w u o /\ x = 8 + o) \/ (w = true /\ exists i, x = 8 * i /\ 8 <= 8 * i < storage_size t)
  | Arr n e => exists i o, 0 <= i < Z.of_nat n /\ holds w e o /\ x = i * storage_size e + o
  | Tuple ts => in_group w ts x
  | Struct ps => in_group w (map snd ps) x
  | Scalar _ | Null | Enum _ => False
  end.
Proof.
  intros H. destruct H as [t K|t K|o K|o K|o K| |ts u o I0 K|ts u o I0 K|n e s a i o L B K|ts os i u o y O N1 N2 K|ps os i p o y O N1 N2 K|W|ts s a i W L B|ts s a i W L B].
  - cbn [In] in K. repeat (destruct K as [<-|K]; [reflexivity|]). destruct K.
  - cbn [In] in K. repeat (destruct K as [<-|K]; [reflexivity|]). destruct K.
  - cbn [In] in K. lia.
  - cbn [In] in K. lia.
  - cbn [In] in K. lia.
  - auto.
  - left. eauto 6.
  - left. eauto 6.
  - destruct (laid_out_unique _ _ _ L) as [-> _]. eauto 6.
  - apply offsets_unique in O. subst os. exists i, u, o, y. auto.
  - apply offsets_unique in O. subst os. exists i, (snd p), o, y. rewrite nth_error_map, N1. auto.
  - auto.
  - destruct (laid_out_unique _ _ _ L) as [-> _]. right. eauto.
  - destruct (laid_out_unique _ _ _ L) as [-> _]. right. eauto.
Qed.

Lemma holds_place w t x : holds w t x -> alignof t = 8 /\ (8 | x) /\ 0 <= x /\ x + 8 <= storage_size t.
Proof.
  assert (A8 : al 8) by (unfold al; lia). assert (D8 : (8 | 8)) by apply Z.divide_refl.
  assert (G : forall ts i t o y, nth_error ts i = Some t -> nth_error (visit_offsets ts 0) i = Some o ->
    alignof t = 8 /\ (8 | y) /\ 0 <= y /\ y + 8 <= storage_size t -> group_align ts = 8 /\ (8 | o + y) /\ 0 <= o + y /\ o + y + 8 <= group_size ts).
  { intros ts i u o y H1 H2 [E [D [P Q]]]. destruct (visit_nth ts 0 i u o ltac:(lia) H1 H2) as [A [B C]].
    pose proof (max_of_le (map alignof ts) _ (alignof u) (in_map _ _ _ (nth_error_In _ _ H1)) eq_refl) as V. rewrite E in *.
    pose proof (group_align_al ts) as L. split.
    - unfold group_align, al in *. lia.
    - split; [apply divide_add; auto; apply B; lia|]. split; [lia|]. unfold group_size.
      pose proof (align_up_ge (group_end ts) _ L). unfold group_end in *. lia. }
  assert (U : forall ts u y, In u ts -> y + 8 <= storage_size u -> y + 8 <= max_of (map storage_size ts)).
  { intros ts u y I0 L. pose proof (max_of_le (map storage_size ts) _ (storage_size u) (in_map _ _ _ I0) eq_refl). lia. }
  revert x. induction t as [k|t W|k|ts IH|ts IH|n t IH|ts IH|ps IH] using type_induction; intros x H; apply holds_inv in H.
  - destruct k; try contradiction. subst x. cbn. split; [reflexivity|]. split; [exists 0; reflexivity|lia].
  - destruct t; cbn [words] in W; try congruence; try contradiction; cbn [alignof storage_size]; (split; [reflexivity|]); (split; [|lia]);
      (subst x; exists 0; reflexivity) || (destruct H as [->|[_ ->]]; [exists 1|exists 0]; reflexivity) ||
      (destruct H as [->|[->| ->]]; [exists 0|exists 1|exists 2]; reflexivity) || (destruct H as [->| ->]; [exists 0|exists 1]; reflexivity).
  - contradiction.
  - cbn [alignof storage_size] in *. split; [reflexivity|]. set (mm := match ts with [] => 8 | _ => max_of (map storage_size ts) end) in *.
    pose proof (align_up_ge mm 8 A8) as M. destruct H as [[u [o [I0 [K ->]]]]|[_ [i [-> B]]]].
    + rewrite Forall_forall in IH. destruct (IH _ I0 _ K) as [_ [D [P Q]]]. split; [apply divide_add; auto|]. split; [lia|].
      pose proof (U ts u o I0 Q). assert (o + 8 <= mm); [|lia]. unfold mm. destruct ts; [destruct I0|]. lia.
    + split; [exists i; lia|]. split; [lia|]. destruct (align_up_divide mm 8 A8 ltac:(lia)) as [q Eq]. lia.
  - cbn [alignof storage_size] in *. cbv zeta in *. split; [reflexivity|]. set (mm := if _ <=? 0 then 8 else _) in *.
    pose proof (align_up_ge mm 8 A8) as M. destruct H as [[u [o [I0 [K ->]]]]|[_ [i [-> B]]]].
    + rewrite Forall_forall in IH. destruct (IH _ I0 _ K) as [_ [D [P Q]]]. split; [apply divide_add; auto|]. split; [lia|].
      pose proof (U ts u o I0 Q). assert (o + 8 <= mm); [|lia]. unfold mm. destruct (_ <=? 0) eqn:E; lia.
    + split; [exists i; lia|]. split; [lia|]. destruct (align_up_divide mm 8 A8 ltac:(lia)) as [q Eq]. lia.
  - destruct H as [i [o [B [K ->]]]]. destruct (IH _ K) as [E [D [P Q]]]. cbn [alignof storage_size]. split; [exact E|].
    pose proof (size_aligned t ltac:(lia)) as SA. rewrite E in SA. split; [apply divide_add; [apply Z.divide_mul_r; exact SA|exact D]|].
    pose proof (size_nonneg t). split; [nia|].
    assert ((i + 1) * storage_size t <= Z.of_nat n * storage_size t) by (apply Z.mul_le_mono_nonneg_r; lia). lia.
  - destruct H as [i [u [o [y [H1 [H2 [K ->]]]]]]]. rewrite size_tuple. change (alignof (Tuple ts)) with (group_align ts).
    eapply G; eauto. rewrite Forall_forall in IH. apply (IH u (nth_error_In _ _ H1)). exact K.
  - destruct H as [i [u [o [y [H1 [H2 [K ->]]]]]]]. rewrite size_struct, alignof_struct. eapply G; eauto.
    apply Forall_map with (P := fun t => forall x, holds w t x -> alignof t = 8 /\ (8 | x) /\ 0 <= x /\ x + 8 <= storage_size t) in IH.
    rewrite Forall_forall in IH. apply (IH u (nth_error_In _ _ H1)). exact K.
Qed.

(** ** marking *)
Lemma set_run_spec n : forall bits from, bytes bits -> 0 <= from -> from + Z.of_nat n <= capacity bits ->
  exists bits', set_run bits from n = Ok bits' /\ updated (fun i => (from <=? i) && (i <? from + Z.of_nat n)) true bits bits'.
Proof.
  induction n as [|n IH]; intros bits from B F C; cbn [set_run].
  - exists bits. split; [reflexivity|]. eapply updated_ext; [|apply updated_refl; exact B]. intros i _. cbv beta. lia.
  - destruct (set_spec bits from B ltac:(lia)) as [b1 [E1 U1]]. rewrite E1. cbn [bind].
    destruct U1 as [L1 [B1 V1]].
    destruct (IH b1 (from + 1) B1 ltac:(lia)) as [b2 [E2 U2]]. { unfold capacity in *. rewrite L1. lia. }
    exists b2. split; [exact E2|]. eapply updated_ext; [|eapply updated_trans; [split; [exact L1|split; [exact B1|exact V1]]|exact U2]].
    intros i Hi. cbv beta. lia.
Qed.

(** what the walk over one member does: P says where it marks, from the start of the member *)
Definition walked (t : type_t) (bits : list Z) (off : Z) (r : res (list Z * Z * Z)) : Prop :=
  exists bits' last M, r = Ok (bits', off + storage_size t, last) /\ updated M true bits bits' /\
    (forall i, 0 <= i -> M i = true -> holds true t (8 * i - off)) /\
    (forall x, holds false t x -> M ((off + x) / 8) = true /\ off + x + 8 <= last) /\
    0 <= last <= off + storage_size t.

Definition fits (t : type_t) (bits : list Z) (off : Z) : Prop :=
  bytes bits /\ 0 <= off /\ (alignof t <> 0 -> (alignof t | off)) /\ off + storage_size t <= 8 * capacity bits.

Definition good (t : type_t) : Prop := forall in_array bits off, fits t bits off -> walked t bits off (member_gc_bits in_array t bits off).

(** a run of words, the first f of which are the tag *)
Lemma run_walked t bits off f n last r : fits t bits off -> alignof t = 8 -> 0 <= f -> 0 <= n -> 8 * (f + n) <= storage_size t ->
  last = (if 0 <? n then off + 8 * (f + n) else 0) ->
  (forall i, f <= i < f + n -> holds true t (8 * i)) ->
  (forall x, holds false t x -> exists i, x = 8 * i /\ f <= i < f + n) ->
  r = (b <- set_run bits (off / 8 + f) (Z.to_nat n) ;; Ok (b, off + storage_size t, last)) ->
  walked t bits off r.
Proof.
  intros [B [O [A C]]] E Hf Hn Hs -> W N ->. rewrite E in A. destruct (A ltac:(lia)) as [q Eq].
  assert (Q : off / 8 = q) by (rewrite Eq; apply Z.div_mul; lia). rewrite Q.
  destruct (set_run_spec (Z.to_nat n) bits (q + f) B ltac:(lia)) as [b [Eb Ub]]; [lia|]. rewrite Eb. cbn [bind].
  eexists b, _, _. split; [reflexivity|]. split; [exact Ub|]. split; [|split].
  - intros i Hi Hm. cbv beta in Hm. replace (8 * i - off) with (8 * (i - q)) by lia. apply W. lia.
  - intros x Hx. destruct (N x Hx) as [i [-> Hi]]. cbv beta. replace (off + 8 * i) with ((q + i) * 8) by lia. rewrite Z.div_mul by lia.
    destruct (0 <? n) eqn:E0; [|lia]. split; lia.
  - destruct (0 <? n) eqn:E0; lia.
Qed.

Lemma nothing_walked t bits off last : fits t bits off -> (forall x, ~ holds false t x) -> 0 <= last <= off + storage_size t ->
  walked t bits off (Ok (bits, off + storage_size t, last)).
Proof.
  intros [B [O [A C]]] N L. exists bits, last, (fun _ => false). split; [reflexivity|]. split; [apply updated_refl; exact B|].
  split; [intros i _ E; discriminate|]. split; [|exact L]. intros x Hx. destruct (N x Hx).
Qed.

Lemma set_one bits i : set_run bits i 1 = bitmap_set bits i.
Proof. cbn [set_run]. destruct (bitmap_set bits i); reflexivity. Qed.

Lemma pointer_walked t bits off : fits t bits off -> alignof t = 8 -> storage_size t = 8 -> (forall w, holds w t 0) -> (forall w x, holds w t x -> x = 0) ->
  walked t bits off (b <- bitmap_set bits (off / 8) ;; Ok (b, off + storage_size t, off + storage_size t)).
Proof.
  intros F E S0 H0 H1. eapply (run_walked t bits off 0 1); try lia; try exact F; try reflexivity.
  - intros i Hi. replace (8 * i) with 0 by lia. apply H0.
  - intros x Hx. exists 0. rewrite (H1 _ _ Hx). lia.
  - rewrite Z.add_0_r. change (Z.to_nat 1) with 1%nat. rewrite set_one, S0. reflexivity.
Qed.

Lemma members_walked {A} (ty : A -> type_t) l : Forall (fun m => good (ty m)) l ->
  forall base e bits last, bytes bits -> 0 <= base -> 0 <= e -> 0 <= last <= base + e ->
  (forall m, In m l -> alignof (ty m) <> 0 -> (alignof (ty m) | base)) ->
  base + add_members (map shape (map ty l)) e <= 8 * capacity bits ->
  exists bits' last' M,
    members_gc_bits (fun m => alignof (ty m)) (fun m => member_gc_bits false (ty m)) l bits (base + e) last =
      Ok (bits', base + add_members (map shape (map ty l)) e, last') /\
    updated M true bits bits' /\
    (forall i, 0 <= i -> M i = true -> exists k u o, nth_error (map ty l) k = Some u /\ nth_error (visit_offsets (map ty l) e) k = Some o /\
       holds true u (8 * i - base - o)) /\
    (forall k u o x, nth_error (map ty l) k = Some u -> nth_error (visit_offsets (map ty l) e) k = Some o -> holds false u x ->
       M ((base + o + x) / 8) = true /\ base + o + x + 8 <= last') /\
    last <= last' <= base + add_members (map shape (map ty l)) e.
Proof.
  induction 1 as [|m l G F IH]; intros base e bits last B Hb He HL D C.
  - cbn [map] in *. exists bits, last, (fun _ => false). split; [reflexivity|]. split; [apply updated_refl; exact B|].
    split; [intros i _ E; discriminate|]. split; [|cbn in *; lia]. intros [|k] u o x H; discriminate.
  - cbn [map] in *. unfold shape at 1 in C. rewrite add_members_cons in C.
    pose proof (align_up_ge e _ (alignof_al (ty m))) as GE. pose proof (size_nonneg (ty m)) as S0.
    assert (GA : align_up e (alignof (ty m)) + storage_size (ty m) <= add_members (map shape (map ty l)) (align_up e (alignof (ty m)) + storage_size (ty m))).
    { apply add_members_ge. apply Forall_map, Forall_forall. intros v _. split; [apply size_nonneg|apply alignof_al]. }
    set (o1 := align_up e (alignof (ty m))) in *. set (e1 := o1 + storage_size (ty m)) in *.
    assert (D1 : alignof (ty m) <> 0 -> (alignof (ty m) | base)) by (apply D; left; reflexivity).
    assert (FT : fits (ty m) bits (base + o1)).
    { split; [exact B|]. split; [lia|]. split; [|lia]. intros N. apply divide_add; [apply D1; exact N|]. apply align_up_divide; [apply alignof_al|exact N]. }
    destruct (G false bits (base + o1) FT) as [b1 [l1 [M1 [E1 [U1 [W1 [N1 L1]]]]]]].
    assert (CB : zlen b1 = zlen bits) by apply U1.
    destruct (IH base e1 b1 (if last <? l1 then l1 else last)) as [b2 [l2 [M2 [E2 [U2 [W2 [N2 L2]]]]]]].
    { apply U1. } { exact Hb. } { lia. } { destruct (last <? l1); lia. }
    { intros m' I'. apply D. right; exact I'. } { unfold capacity in *. rewrite CB. exact C. }
    exists b2, l2, (fun i => M1 i || M2 i). split; [|split; [|split; [|split]]].
    + unfold members_gc_bits. fold (members_gc_bits (fun m => alignof (ty m)) (fun m => member_gc_bits false (ty m))).
      rewrite align_up_shift by (auto using alignof_al). fold o1. rewrite E1. cbn [bind].
      replace (base + o1 + storage_size (ty m)) with (base + e1) by lia. rewrite E2. change (shape (ty m)) with (storage_size (ty m), alignof (ty m)). rewrite add_members_cons. reflexivity.
    + eapply updated_trans; eassumption.
    + intros i Hi Hm. apply orb_true_iff in Hm. destruct Hm as [Hm|Hm].
      * exists 0%nat, (ty m), o1. split; [reflexivity|]. split; [reflexivity|]. replace (8 * i - base - o1) with (8 * i - (base + o1)) by lia. apply W1; assumption.
      * destruct (W2 i Hi Hm) as [k [u [o [A1 [A2 A3]]]]]. exists (S k), u, o. split; [exact A1|]. split; [exact A2|exact A3].
    + intros [|k] u o x A1 A2 A3.
      * cbn [nth_error visit_offsets] in A1, A2. injection A1 as <-. injection A2 as <-. fold o1. destruct (N1 x A3) as [R1 R2]. rewrite R1. split; [reflexivity|].
        destruct (last <? l1) eqn:El; lia.
      * cbn [nth_error visit_offsets] in A1, A2. destruct (N2 k u o x A1 A2 A3) as [R1 R2]. rewrite R1, orb_true_r. split; [reflexivity|exact R2].
    + change (shape (ty m)) with (storage_size (ty m), alignof (ty m)). rewrite add_members_cons. fold o1. fold e1. destruct (last <? l1) eqn:El; lia.
Qed.

Lemma group_walked {A} (ty : A -> type_t) (l : list A) t bits off :
  Forall (fun m => good (ty m)) l -> alignof t = group_align (map ty l) -> storage_size t = group_size (map ty l) ->
  (forall w x, holds w t x -> in_group w (map ty l) x) ->
  (forall w k u o x, nth_error (map ty l) k = Some u -> nth_error (visit_offsets (map ty l) 0) k = Some o -> holds w u x -> holds w t (o + x)) ->
  fits t bits off ->
  walked t bits off (' (bits, offset, last) <- members_gc_bits (fun m => alignof (ty m)) (fun m => member_gc_bits false (ty m)) l bits off 0 ;;
                     Ok (bits, align_up offset (group_align (map ty l)), last)).
Proof.
  intros G EA ES HI HO [B [O [D C]]]. rewrite EA in D. rewrite ES in C.
  pose proof (align_up_ge (group_end (map ty l)) _ (group_align_al (map ty l))) as GE.
  destruct (members_walked ty l G off 0 bits 0) as [b [lst [M [E [U [W [N L]]]]]]]; try lia; auto.
  - intros m I0 NZ.
    assert (group_align (map ty l) <> 0).
    { pose proof (max_of_le (map alignof (map ty l)) _ (alignof (ty m)) (in_map _ _ _ (in_map ty _ _ I0)) eq_refl) as V.
      pose proof (alignof_al (ty m)). unfold group_align, al in *. lia. }
    eapply Z.divide_trans; [apply (group_align_in (ty m) (map ty l)); [apply in_map; exact I0|exact NZ]|]. apply D. assumption.
  - unfold group_size, group_end in *. lia.
  - rewrite Z.add_0_r in E. rewrite E. cbn [bind]. exists b, lst, M. split.
    { rewrite align_up_shift by (auto using group_align_al). rewrite ES. reflexivity. }
    split; [exact U|]. split; [|split].
    + intros i Hi Hm. destruct (W i Hi Hm) as [k [u [o [A1 [A2 A3]]]]]. replace (8 * i - off) with (o + (8 * i - off - o)) by lia. eapply HO; eassumption.
    + intros x Hx. destruct (HI _ _ Hx) as [k [u [o [y [A1 [A2 [A3 ->]]]]]]]. rewrite Z.add_assoc. eapply N; eassumption.
    + rewrite ES. unfold group_size, group_end in *. lia.
Qed.

Lemma array_walked t : good t -> forall n base i bits last, bytes bits -> 0 <= base -> 0 <= i -> (alignof t <> 0 -> (alignof t | base)) ->
  0 <= last <= base + i * storage_size t ->
  base + (i + Z.of_nat n) * storage_size t <= 8 * capacity bits ->
  exists bits' last' M,
    array_gc_bits (member_gc_bits true t) n bits (base + i * storage_size t) last = Ok (bits', base + (i + Z.of_nat n) * storage_size t, last') /\
    updated M true bits bits' /\
    (forall j, 0 <= j -> M j = true -> exists k, i <= k < i + Z.of_nat n /\ holds true t (8 * j - base - k * storage_size t)) /\
    (forall k x, i <= k < i + Z.of_nat n -> holds false t x -> M ((base + k * storage_size t + x) / 8) = true /\ base + k * storage_size t + x + 8 <= last') /\
    last <= last' <= base + (i + Z.of_nat n) * storage_size t.
Proof.
  intros G. pose proof (size_nonneg t) as S0. induction n as [|n IH]; intros base i bits last B Hb Hi D HL C.
  - exists bits, last, (fun _ => false). split. { cbn. rewrite Z.add_0_r. reflexivity. } split; [apply updated_refl; exact B|].
    split; [intros j _ E; discriminate|]. split; [intros k x Hk; lia|lia].
  - assert (FT : fits t bits (base + i * storage_size t)).
    { split; [exact B|]. split; [nia|]. split; [|nia]. intros N. apply divide_add; [auto|]. apply Z.divide_mul_r. apply size_aligned. exact N. }
    destruct (G true bits _ FT) as [b1 [l1 [M1 [E1 [U1 [W1 [N1 L1]]]]]]].
    assert (CB : zlen b1 = zlen bits) by apply U1.
    destruct (IH base (i + 1) b1 (if last <? l1 then l1 else last)) as [b2 [l2 [M2 [E2 [U2 [W2 [N2 L2]]]]]]].
    { apply U1. } { exact Hb. } { lia. } { exact D. } { destruct (last <? l1); lia. } { unfold capacity in *. rewrite CB. replace (i + 1 + Z.of_nat n) with (i + Z.of_nat (S n)) by lia. exact C. }
    replace (i + 1 + Z.of_nat n) with (i + Z.of_nat (S n)) in * by lia.
    exists b2, l2, (fun j => M1 j || M2 j). split; [|split; [|split; [|split]]].
    + unfold array_gc_bits. fold (array_gc_bits (member_gc_bits true t)). rewrite E1. cbn [bind].
      replace (base + i * storage_size t + storage_size t) with (base + (i + 1) * storage_size t) by lia. exact E2.
    + eapply updated_trans; eassumption.
    + intros j Hj Hm. apply orb_true_iff in Hm. destruct Hm as [Hm|Hm].
      * exists i. split; [lia|]. replace (8 * j - base - i * storage_size t) with (8 * j - (base + i * storage_size t)) by lia. apply W1; assumption.
      * destruct (W2 j Hj Hm) as [k [K1 K2]]. exists k. split; [lia|exact K2].
    + intros k x Hk Hx. destruct (Z.eq_dec k i) as [->|NE].
      * destruct (N1 x Hx) as [R1 R2]. rewrite R1. split; [reflexivity|]. destruct (last <? l1) eqn:El; lia.
      * destruct (N2 k x ltac:(lia) Hx) as [R1 R2]. rewrite R1, orb_true_r. split; [reflexivity|exact R2].
    + destruct (last <? l1) eqn:El; lia.
Qed.

(** ** every type *)
Definition slots_of (t : type_t) : Z := align_up (storage_size t) 8 / 8.

Lemma union_size ts : exists k, 1 <= k /\ storage_size (Union ts) = 8 * k.
Proof.
  assert (A8 : al 8) by (unfold al; lia). cbn [storage_size]. set (m := match ts with [] => 8 | _ => _ end).
  assert (0 <= m) by (unfold m; destruct ts; [lia|apply max_of_nonneg]). pose proof (align_up_ge m 8 A8).
  destruct (align_up_divide m 8 A8 ltac:(lia)) as [q E]. exists (1 + q). lia.
Qed.

Lemma tagged_size ts : exists k, 2 <= k /\ storage_size (Tagged_union ts) = 8 * k.
Proof.
  assert (A8 : al 8) by (unfold al; lia). cbn [storage_size]. cbv zeta. set (m := if _ <=? 0 then 8 else _).
  assert (1 <= m) by (unfold m; destruct (_ <=? 0) eqn:E; lia). pose proof (align_up_ge m 8 A8).
  destruct (align_up_divide m 8 A8 ltac:(lia)) as [q E]. exists (1 + q). lia.
Qed.

Lemma align_words k : align_up (8 * k) 8 = 8 * k.
Proof. apply align_up_same; [unfold al; lia|]. intros _. exists k. lia. Qed.

Lemma words8 k : 8 * k / 8 = k.
Proof. rewrite Z.mul_comm. apply Z.div_mul. lia. Qed.

Lemma holds_union_word ts i : 0 <= 8 * i < storage_size (Union ts) -> holds true (Union ts) (8 * i).
Proof. intros H. eapply wide_union; [reflexivity|apply laid_out_model|exact H]. Qed.

Lemma holds_tagged_word ts i : 8 <= 8 * i < storage_size (Tagged_union ts) -> holds true (Tagged_union ts) (8 * i).
Proof. intros H. eapply wide_tagged; [reflexivity|apply laid_out_model|exact H]. Qed.

Lemma holds_words w t x : holds w t x -> exists i, x = 8 * i /\ 0 <= i /\ 8 * (i + 1) <= storage_size t.
Proof. intros H. apply holds_place in H. destruct H as [_ [[q ->] [P Q]]]. exists q. lia. Qed.

Lemma good_pointer t : In t [Ref; Ptr; Scalar ANYPTR; Fn; Chan; Coroutine] -> good t.
Proof.
  intros K in_array bits off F. assert (H0 : forall w, holds w t 0) by (intros w; apply holds_pointer; exact K).
  assert (H1 : forall w x, holds w t x -> x = 0).
  { intros w x H. apply holds_inv in H. cbn [In] in K. repeat (destruct K as [<-|K]; [exact H|]). destruct K. }
  cbn [In] in K. repeat (destruct K as [<-|K]; [cbn [member_gc_bits is_pointer_heap]; cbv zeta; apply pointer_walked; auto|]). destruct K.
Qed.

Lemma good_plain t (arr : bool) bits off : fits t bits off -> (forall w x, ~ holds w t x) ->
  walked t bits off (Ok (bits, off + storage_size t, if arr then off + storage_size t else 0)).
Proof.
  intros F N. apply nothing_walked; [exact F|apply N|]. pose proof (size_nonneg t). destruct F as [_ [O _]]. destruct arr; lia.
Qed.

Lemma good_builtin t n : In (t, n) [(String, 1); (Vec, 1); (Map, 3); (Set_, 2); (Interface, 2)] ->
  forall bits off, fits t bits off -> walked t bits off (builtin_gc_bits bits off n (storage_size t)).
Proof.
  intros K bits off F.
  assert (P : 0 < n /\ 8 * n <= storage_size t /\ alignof t = 8 /\ (forall i, 0 <= i < n -> holds true t (8 * i)) /\
              (forall x, holds false t x -> exists i, x = 8 * i /\ 0 <= i < n)).
  { cbn [In] in K. repeat (destruct K as [K|K]; [injection K as <- <-; cbn [storage_size alignof]; split; [lia|split; [lia|split; [reflexivity|split]]]|]); try (destruct K);
      try (intros x Hx; apply holds_inv in Hx; exists (x / 8); lia).
    - intros i Hi. replace (8 * i) with 0 by lia. apply holds_data. cbn [In]; tauto.
    - intros i Hi. replace (8 * i) with 0 by lia. apply holds_data. cbn [In]; tauto.
    - intros i Hi. apply holds_map. cbn [In]. lia.
    - intros i Hi. apply holds_set. cbn [In]. lia.
    - intros i Hi. apply holds_interface. cbn [In]. lia. }
  destruct P as [P [S0 [A [W N]]]].
  eapply (run_walked t bits off 0 n); try lia; try exact F; try reflexivity; auto.
  unfold builtin_gc_bits. rewrite Z.add_0_r. replace (0 + n) with n by lia. rewrite (Z.mul_comm 8 n). reflexivity.
Qed.

Lemma good_all t : good t.
Proof.
  assert (NH : forall t, match t with Scalar ANYPTR => False | Scalar _ | Null | Enum _ => True | _ => False end -> forall w x, ~ holds w t x).
  { intros u K w x H. apply holds_inv in H. destruct u; try contradiction. destruct k; contradiction. }
  induction t as [k|t W|k|ts IH|ts IH|n t IH|ts IH|ps IH] using type_induction.
  - destruct k; try (apply good_pointer; cbn [In]; tauto); intros arr bits off F; apply good_plain; auto; apply NH; exact Logic.I.
  - destruct t; cbn [words] in W; try congruence; try (apply good_pointer; cbn [In]; tauto); intros arr bits off F; cbn [member_gc_bits];
      try (apply good_builtin; [cbn [In]; tauto|exact F]).
    + apply good_plain; auto; apply NH; exact Logic.I.
    + (* any *) eapply (run_walked Any bits off 0 2); try lia; try exact F; try reflexivity.
      * intros i Hi. destruct (Z.eq_dec i 0) as [->|N]; [apply wide_any; reflexivity|]. replace i with 1 by lia. apply holds_any.
      * intros x Hx. apply holds_inv in Hx. destruct Hx as [->|[E _]]; [exists 1; lia|discriminate].
      * unfold union_gc_bits. cbn [storage_size]. change (16 <=? 0) with false. cbv iota zeta. rewrite Z.add_0_r. reflexivity.
  - intros arr bits off F. apply good_plain; [exact F|]. apply NH; exact Logic.I.
  - intros arr bits off F. cbn [member_gc_bits]. unfold union_gc_bits. destruct (union_size ts) as [k [Hk E]].
    eapply (run_walked (Union ts) bits off 0 k); try lia; try exact F; try reflexivity.
    + intros i Hi. apply holds_union_word. lia.
    + intros x Hx. apply holds_words in Hx. destruct Hx as [i Hi]. exists i. lia.
    + replace (storage_size (Union ts) <=? 0) with false by lia. rewrite E. rewrite align_words, words8, Z.add_0_r.
      replace (0 <? k) with true by lia. replace (0 + k) with k by lia. rewrite (Z.mul_comm k 8). reflexivity.
  - intros arr bits off F. cbn [member_gc_bits]. unfold tagged_union_gc_bits. destruct (tagged_size ts) as [k [Hk E]].
    eapply (run_walked (Tagged_union ts) bits off 1 (k - 1)); try lia; try exact F; try reflexivity.
    + intros i Hi. apply holds_tagged_word. lia.
    + intros x Hx. destruct (holds_words _ _ _ Hx) as [i Hi]. exists i. split; [lia|]. split; [|lia].
      apply holds_inv in Hx. destruct Hx as [[u [o [_ [K ->]]]]|[Ef _]]; [|discriminate]. apply holds_place in K. lia.
    + replace (storage_size (Tagged_union ts) <=? 0) with false by lia. rewrite E. rewrite align_words, words8.
      replace (1 <? k) with true by lia. replace (0 <? k - 1) with true by lia. replace (1 + (k - 1)) with k by lia. rewrite (Z.mul_comm k 8). reflexivity.
  - intros arr bits off [B [O [A C]]]. cbn [member_gc_bits].
    destruct (array_walked t IH n off 0 bits 0) as [b [lst [M [E [U [W [N L]]]]]]]; try lia; auto.
    rewrite Z.mul_0_l, Z.add_0_r in E. replace (0 + Z.of_nat n) with (Z.of_nat n) in * by lia. exists b, lst, M. split; [exact E|]. split; [exact U|]. split; [|split].
    + intros i Hi Hm. destruct (W i Hi Hm) as [k [K1 K2]]. replace (8 * i - off) with (k * storage_size t + (8 * i - off - k * storage_size t)) by lia.
      eapply holds_arr; [apply laid_out_model|lia|exact K2].
    + intros x Hx. apply holds_inv in Hx. destruct Hx as [k [o [K1 [K2 ->]]]]. rewrite Z.add_assoc. apply N; [lia|exact K2].
    + cbn [storage_size]. lia.
  - intros arr bits off F. pose proof (group_walked (fun t => t) ts (Tuple ts) bits off) as G. rewrite map_id in G. apply G.
    + exact IH.
    + reflexivity.
    + reflexivity.
    + intros w x H. exact (holds_inv _ _ _ H).
    + intros w k u o x A1 A2 A3. eapply holds_tuple; eauto. apply offsets_model.
    + exact F.
  - intros arr bits off F. cbn [member_gc_bits]. rewrite struct_align. apply (group_walked snd ps (Struct ps) bits off).
    + exact IH.
    + apply alignof_struct.
    + apply size_struct.
    + intros w x H. exact (holds_inv _ _ _ H).
    + intros w k u o x A1 A2 A3. rewrite nth_error_map in A1. destruct (nth_error ps k) as [p|] eqn:Ep; [|discriminate]. injection A1 as <-.
      eapply holds_struct; eauto. apply offsets_model.
    + exact F.
Qed.

(** ** descriptions *)
Lemma calc_bits size : 0 <= size -> size <= 8 * (8 * calc_gc_bits_size size).
Proof.
  intros H. assert (A8 : al 8) by (unfold al; lia). unfold calc_gc_bits_size. pose proof (align_up_ge size 8 A8).
  pose proof (align_up_ge (align_up size 8 / 8) 8 A8). pose proof (Z.div_mod (align_up size 8) 8 ltac:(lia)). pose proof (Z.mod_pos_bound (align_up size 8) 8 ltac:(lia)).
  destruct (align_up_divide size 8 A8 ltac:(lia)) as [q E]. rewrite E, Z.div_mul in * by lia. lia.
Qed.

Lemma calc_bits_nonneg size : 0 <= size -> 0 <= calc_gc_bits_size size.
Proof. intros H. pose proof (calc_bits size H). lia. Qed.

Lemma new_bits_ok size : 0 <= size -> bytes (new_bits size) /\ size <= 8 * capacity (new_bits size) /\ forall i, bit (new_bits size) i = false.
Proof.
  intros H. unfold new_bits. split; [|split].
  - apply Forall_forall. intros x Hx. apply repeat_spec in Hx. subst x. unfold is_byte. lia.
  - unfold capacity. rewrite zlen_repeat. rewrite Z2Nat.id by (apply calc_bits_nonneg; exact H). apply calc_bits. exact H.
  - intros i. unfold bit. destruct (nth_error _ _) as [b|] eqn:E; [|reflexivity]. apply nth_error_In, repeat_spec in E. subst b. apply Z.bits_0.
Qed.

Lemma walked_right t size last : storage_size t = size ->
  walked t (new_bits size) 0 last -> exists bits off lst, last = Ok (bits, off, lst) /\ right_map t (mk_rtype size lst bits) /\ 0 <= lst.
Proof.
  intros E [bits [lst [M [R [U [W [N L]]]]]]]. pose proof (size_nonneg t) as S0. rewrite E in *.
  destruct (new_bits_ok size S0) as [B [C Z0]]. exists bits, (0 + size), lst. split; [exact R|]. split; [|lia].
  destruct U as [UL [UB UV]]. split; [|split; [|split; [|split]]]; cbn [gc_bits last_ptr gc_heap_size].
  - intros o Ho. destruct (holds_words _ _ _ Ho) as [i [-> [Hi _]]]. destruct (N _ Ho) as [N1 N2]. exists i. split; [reflexivity|]. split; [exact Hi|].
    rewrite Z.add_0_l, words8 in N1. rewrite UV by lia. rewrite N1. split; [reflexivity|lia].
  - intros i Hi Hb. rewrite UV in Hb by lia. rewrite Z0 in Hb. destruct (M i) eqn:Em; [|discriminate]. pose proof (W i Hi Em) as K.
    rewrite Z.sub_0_r in K. exact K.
  - lia.
  - unfold capacity in *. rewrite UL. lia.
  - exact UB.
Qed.

Lemma fits_new t : fits t (new_bits (storage_size t)) 0.
Proof.
  pose proof (size_nonneg t) as S0. destruct (new_bits_ok _ S0) as [B [C _]]. split; [exact B|]. split; [lia|]. split; [|lia]. intros _. exists 0. reflexivity.
Qed.

Lemma member_right t : exists bits off lst, member_gc_bits false t (new_bits (storage_size t)) 0 = Ok (bits, off, lst) /\
  right_map t (mk_rtype (storage_size t) lst bits) /\ 0 <= lst.
Proof. apply walked_right; [reflexivity|]. apply good_all. apply fits_new. Qed.

(** a run of words from f on *)
Lemma run_right t size bsize f n last : 0 <= f -> 0 <= n -> 0 <= bsize -> 0 <= last <= size -> last <= bsize -> 8 * (f + n) <= last ->
  (forall i, f <= i < f + n -> holds true t (8 * i)) ->
  (forall x, holds false t x -> exists i, x = 8 * i /\ f <= i < f + n) ->
  exists bits, set_run (new_bits bsize) f (Z.to_nat n) = Ok bits /\ right_map t (mk_rtype size last bits).
Proof.
  intros Hf Hn Hb Hs Hl Hl2 W N. destruct (new_bits_ok bsize Hb) as [B [C Z0]].
  destruct (set_run_spec (Z.to_nat n) (new_bits bsize) f B Hf ltac:(lia)) as [bits [E [UL [UB UV]]]]. exists bits. split; [exact E|].
  split; [|split; [|split; [|split]]]; cbn [gc_bits last_ptr gc_heap_size].
  - intros o Ho. destruct (N o Ho) as [i [-> Hi]]. exists i. split; [reflexivity|]. split; [lia|]. rewrite UV by lia. cbv beta.
    replace ((f <=? i) && (i <? f + Z.of_nat (Z.to_nat n))) with true by lia. split; [reflexivity|lia].
  - intros i Hi Hbit. rewrite UV in Hbit by lia. cbv beta in Hbit. rewrite Z0 in Hbit. apply W.
    destruct ((f <=? i) && (i <? f + Z.of_nat (Z.to_nat n))) eqn:Em; [lia|discriminate].
  - lia.
  - unfold capacity in *. rewrite UL. lia.
  - exact UB.
Qed.

Lemma plain_right t size : (forall w x, ~ holds w t x) -> 0 <= size -> right_map t (mk_rtype size 0 (if 0 <? size then new_bits size else [])).
Proof.
  intros N S0. destruct (new_bits_ok size S0) as [B [C Z0]]. split; [intros o Ho; destruct (N _ _ Ho)|].
  assert (Z1 : forall i, bit (if 0 <? size then new_bits size else []) i = false).
  { destruct (0 <? size); [exact Z0|]. intros i. unfold bit. destruct (Z.to_nat (i / 8)); reflexivity. }
  split; [|split; [|split]]; cbn [gc_bits last_ptr gc_heap_size].
  - intros i _ E. rewrite Z1 in E. discriminate.
  - lia.
  - unfold capacity. pose proof (zlen_nonneg (if 0 <? size then new_bits size else [])). lia.
  - destruct (0 <? size); [exact B|constructor].
Qed.

Definition heap_size (t : type_t) : Z :=
  match t with Struct _ => if storage_size t =? 0 then 1 else storage_size t | _ => storage_size t end.

Lemma reflect_right c t : ~ In t [Any; Fn; Chan; Coroutine] -> (forall ps, t = Struct ps -> storage_size t < 65536) ->
  exists r, reflect c t = Ok r /\ right_map t r /\ gc_heap_size r = heap_size t.
Proof.
  intros NI ST. pose proof (size_nonneg t) as S0.
  assert (NH : forall t, match t with Scalar ANYPTR => False | Scalar _ | Null | Enum _ => True | _ => False end -> forall w x, ~ holds w t x).
  { intros u K w x H. apply holds_inv in H. destruct u; try contradiction. destruct k; contradiction. }
  assert (PT : In t [Ref; Ptr; Scalar ANYPTR] -> exists bits, set_run (new_bits 8) 0 (Z.to_nat 1) = Ok bits /\ right_map t (mk_rtype 8 8 bits)).
  { intros K. apply run_right; try lia.
    - intros i Hi. replace (8 * i) with 0 by lia. apply holds_pointer. cbn [In] in *. tauto.
    - intros x Hx. apply holds_inv in Hx. exists 0. cbn [In] in K. destruct K as [<-|[<-|[<-|[]]]]; lia. }
  destruct t as [k| | | | | | | | | | | | |k|ts|ts|n e|ts|ps]; try (exfalso; apply NI; cbn [In]; tauto); cbn [reflect].
  - destruct k; try (eexists; split; [reflexivity|]; split; [apply plain_right; [apply NH; exact Logic.I|exact S0]|reflexivity]).
    destruct (PT ltac:(cbn [In]; tauto)) as [bits [E R]]. change (Z.to_nat 1) with 1%nat in E. rewrite E. eexists; split; [reflexivity|]. split; [exact R|reflexivity].
  - eexists; split; [reflexivity|]. split; [apply plain_right; [apply NH; exact Logic.I|exact S0]|reflexivity].
  - destruct (PT ltac:(cbn [In]; tauto)) as [bits [E R]]. change (Z.to_nat 1) with 1%nat in E. rewrite E. eexists; split; [reflexivity|]. split; [exact R|reflexivity].
  - destruct (PT ltac:(cbn [In]; tauto)) as [bits [E R]]. change (Z.to_nat 1) with 1%nat in E. rewrite E. eexists; split; [reflexivity|]. split; [exact R|reflexivity].
  - destruct (run_right String 48 48 0 1 8) as [bits [E R]]; try lia.
    { intros i Hi. replace (8 * i) with 0 by lia. apply holds_data. cbn [In]; tauto. } { intros x Hx. apply holds_inv in Hx. exists 0. lia. }
    change (Z.to_nat 1) with 1%nat in E. rewrite E. eexists; split; [reflexivity|]. split; [exact R|reflexivity].
  - destruct (run_right Vec 48 48 0 1 8) as [bits [E R]]; try lia.
    { intros i Hi. replace (8 * i) with 0 by lia. apply holds_data. cbn [In]; tauto. } { intros x Hx. apply holds_inv in Hx. exists 0. lia. }
    change (Z.to_nat 1) with 1%nat in E. rewrite E. eexists; split; [reflexivity|]. split; [exact R|reflexivity].
  - destruct (run_right Map 56 56 0 3 24) as [bits [E R]]; try lia.
    { intros i Hi. apply holds_map. cbn [In]; lia. } { intros x Hx. apply holds_inv in Hx. exists (x / 8). lia. }
    change (Z.to_nat 3) with 3%nat in E. rewrite E. eexists; split; [reflexivity|]. split; [exact R|reflexivity].
  - destruct (run_right Set_ 40 40 0 2 16) as [bits [E R]]; try lia.
    { intros i Hi. apply holds_set. cbn [In]; lia. } { intros x Hx. apply holds_inv in Hx. exists (x / 8). lia. }
    change (Z.to_nat 2) with 2%nat in E. rewrite E. eexists; split; [reflexivity|]. split; [exact R|reflexivity].
  - destruct (run_right Interface 32 16 0 2 16) as [bits [E R]]; try lia.
    { intros i Hi. apply holds_interface. cbn [In]; lia. } { intros x Hx. apply holds_inv in Hx. exists (x / 8). lia. }
    change (Z.to_nat 2) with 2%nat in E. rewrite E. eexists; split; [reflexivity|]. split; [exact R|reflexivity].
  - eexists; split; [reflexivity|]. split; [apply plain_right; [apply NH; exact Logic.I|exact S0]|reflexivity].
  - cbv zeta. destruct (union_size ts) as [k [Hk E]].
    destruct (run_right (Union ts) (8 * k) (8 * k) 0 k (k * 8)) as [bits [Eb R]]; try lia.
    { intros i Hi. apply holds_union_word. lia. } { intros x Hx. apply holds_words in Hx. destruct Hx as [i Hi]. exists i. lia. }
    rewrite E, align_words, words8, Eb. cbn [bind]. eexists; split; [reflexivity|]. split; [exact R|]. cbn [gc_heap_size heap_size]. lia.
  - cbv zeta. destruct (tagged_size ts) as [k [Hk E]].
    destruct (run_right (Tagged_union ts) (8 * k) (8 * k) 1 (k - 1) (k * 8)) as [bits [Eb R]]; try lia.
    { intros i Hi. apply holds_tagged_word. lia. }
    { intros x Hx. destruct (holds_words _ _ _ Hx) as [i Hi]. exists i. split; [lia|]. split; [|lia].
      apply holds_inv in Hx. destruct Hx as [[u [o [_ [K ->]]]]|[Ef _]]; [|discriminate]. apply holds_place in K. lia. }
    rewrite E, align_words, words8, Eb. cbn [bind]. eexists; split; [reflexivity|]. split; [exact R|]. cbn [gc_heap_size heap_size]. lia.
  - destruct (member_right (Arr n e)) as [bits [off [lst [E [R _]]]]]. cbv zeta. rewrite (Z.mul_comm (storage_size e)). change (Z.of_nat n * storage_size e) with (storage_size (Arr n e)).
    change (array_gc_bits (member_gc_bits true e) n (new_bits (storage_size (Arr n e))) 0 0) with (member_gc_bits false (Arr n e) (new_bits (storage_size (Arr n e))) 0).
    rewrite E. cbn [bind]. eexists; split; [reflexivity|]. split; [exact R|reflexivity].
  - destruct (member_right (Tuple ts)) as [bits [off [lst [E [R _]]]]]. cbv zeta. rewrite E. cbn [bind]. eexists; split; [reflexivity|]. split; [exact R|reflexivity].
  - cbv zeta. destruct (storage_size (Struct ps) =? 0) eqn:E0.
    + eexists; split; [reflexivity|]. split; [|cbn [gc_heap_size]; unfold heap_size; rewrite E0; reflexivity].
      destruct (new_bits_ok 1 ltac:(lia)) as [B [C Z0]]. split; [|split; [|split; [|split]]]; cbn [gc_bits last_ptr gc_heap_size].
      * intros o Ho. apply holds_place in Ho. lia.
      * intros i _ Hb. rewrite Z0 in Hb. discriminate.
      * lia.
      * lia.
      * exact B.
    + destruct (member_right (Struct ps)) as [bits [off [lst [E [R L0]]]]]. rewrite E. cbn [bind]. eexists; split; [reflexivity|].
      split; [|cbn [gc_heap_size]; unfold heap_size; rewrite E0; reflexivity].
      replace (u16 lst) with lst; [exact R|]. symmetry. unfold u16. apply Z.mod_small. pose proof (ST ps eq_refl).
      destruct R as [_ [_ [R _]]]. cbn [last_ptr gc_heap_size] in R. lia.
Qed.

(** ** the collector's walk *)
Lemma scan_loop_spec bits : bytes bits -> forall n i, 0 <= i -> i + Z.of_nat n <= capacity bits ->
  exists l, scan_loop n bits (8 * i) i = Ok l /\ forall o, In o l <-> exists j, o = 8 * j /\ i <= j < i + Z.of_nat n /\ bit bits j = true.
Proof.
  intros B. induction n as [|n IH]; intros i Hi C; cbn [scan_loop].
  - exists []. split; [reflexivity|]. intros o. split; [intros []|intros [j Hj]; lia].
  - rewrite test_spec by lia. cbn [bind]. destruct (IH (i + 1) ltac:(lia) ltac:(lia)) as [l [E Hl]].
    replace (8 * i + 8) with (8 * (i + 1)) by lia. rewrite E. cbn [bind]. eexists. split; [reflexivity|]. intros o.
    destruct (bit bits i) eqn:Eb; cbn [In]; rewrite Hl; split.
    + intros [<-|[j [-> [Hj Hb]]]]; [exists i; split; [reflexivity|split; [lia|exact Eb]]|exists j; split; [reflexivity|split; [lia|exact Hb]]].
    + intros [j [-> [Hj Hb]]]. destruct (Z.eq_dec j i) as [->|N]; [left; reflexivity|]. right. exists j. split; [reflexivity|split; [lia|exact Hb]].
    + intros [j [-> [Hj Hb]]]. exists j. split; [reflexivity|split; [lia|exact Hb]].
    + intros [j [-> [Hj Hb]]]. destruct (Z.eq_dec j i) as [->|N]; [congruence|]. exists j. split; [reflexivity|split; [lia|exact Hb]].
Qed.

Lemma scan_right t r : right_map t r -> exists l, scan_global r = Ok l /\
  (forall o, holds false t o -> In o l) /\ (forall o, In o l -> holds true t o).
Proof.
  intros [H1 [H2 [H3 [H4 H5]]]]. unfold scan_global. pose proof (Z.div_mod (last_ptr r + 7) 8 ltac:(lia)) as DM. pose proof (Z.mod_pos_bound (last_ptr r + 7) 8 ltac:(lia)) as MB.
  destruct (scan_loop_spec (gc_bits r) H5 (Z.to_nat ((last_ptr r + 7) / 8)) 0 ltac:(lia)) as [l [E Hl]]; [lia|].
  exists l. split; [exact E|]. split.
  - intros o Ho. apply Hl. destruct (H1 o Ho) as [i [-> [Hi [Hb L]]]]. exists i. split; [reflexivity|]. split; [lia|exact Hb].
  - intros o Ho. apply Hl in Ho. destruct Ho as [j [-> [Hj Hb]]]. apply H2; [lia|exact Hb].
Qed.

(** ** lookups of members *)
Lemma struct_offset_nth ps : NoDup (map fst ps) -> forall i name t o from, nth_error ps i = Some (name, t) ->
  nth_error (visit_offsets (map snd ps) from) i = Some o -> struct_offset_loop ps name from = Ok o.
Proof.
  induction ps as [|[n0 t0] ps IH]; intros ND i name t o from Hp Ho; [destruct i; discriminate|].
  cbn [map fst snd visit_offsets struct_offset_loop] in *. apply NoDup_cons_iff in ND. destruct ND as [NI ND].
  destruct i as [|i]; cbn [nth_error] in *.
  - destruct (list_eq_dec Z.eq_dec n0 name) as [E|E]; congruence.
  - destruct (list_eq_dec Z.eq_dec n0 name) as [E|E].
    + exfalso. apply NI. subst n0. change name with (fst (name, t)). apply in_map. eapply nth_error_In. exact Hp.
    + eapply IH; eassumption.
Qed.

Lemma tuple_offset_nth ts : forall i o from k, nth_error (visit_offsets ts from) i = Some o -> tuple_offset_loop ts k (k + Z.of_nat i) from = o.
Proof.
  induction ts as [|t ts IH]; intros i o from k H; [destruct i; discriminate|]. cbn [visit_offsets tuple_offset_loop] in *. cbv zeta in *.
  destruct i as [|i]; cbn [nth_error] in H.
  - replace (k =? k + Z.of_nat 0) with true by lia. congruence.
  - replace (k =? k + Z.of_nat (S i)) with false by lia. rewrite <- (IH _ _ _ (k + 1) H). f_equal. lia.
Qed.

Lemma offset_lookups ps os i name t o : NoDup (map fst ps) -> offsets (map snd ps) os ->
  nth_error ps i = Some (name, t) -> nth_error os i = Some o ->
  struct_offset ps name = Ok o /\ tuple_offset (map snd ps) (Z.of_nat i) = o /\
  nth_error (visit_offsets (map snd ps) 0) i = Some o /\ nth_error (reflect_offsets ps) i = Some o.
Proof.
  intros ND O Hp Ho. apply offsets_unique in O. subst os. split; [|split; [|split; exact Ho]].
  - unfold struct_offset. eapply struct_offset_nth; eassumption.
  - unfold tuple_offset. apply (tuple_offset_nth _ _ _ _ 0 Ho).
Qed.

Lemma visit_after ts : forall from i j t o o', 0 <= from -> (i < j)%nat -> nth_error ts i = Some t -> nth_error (visit_offsets ts from) i = Some o ->
  nth_error (visit_offsets ts from) j = Some o' -> o + storage_size t <= o'.
Proof.
  induction ts as [|u ts IH]; intros from i j t o o' F L Ht Ho Ho'; [destruct i; discriminate|].
  assert (F2 : 0 <= align_up from (alignof u) + storage_size u) by (pose proof (align_up_ge from _ (alignof_al u)); pose proof (size_nonneg u); lia).
  destruct j as [|j]; [lia|]. cbn [visit_offsets nth_error] in *. cbv zeta in *. destruct i as [|i]; cbn [nth_error] in *.
  - assert (t = u) by congruence. assert (o = align_up from (alignof u)) by congruence. subst.
    destruct (nth_error ts j) as [v|] eqn:Ev.
    + destruct (visit_nth ts (align_up from (alignof u) + storage_size u) j v o' F2 Ev Ho') as [V _]. exact V.
    + exfalso. apply nth_error_None in Ev. assert (nth_error (visit_offsets ts (align_up from (alignof u) + storage_size u)) j <> None) as K by congruence.
      apply nth_error_Some in K. assert (LV : forall l e, length (visit_offsets l e) = length l) by (induction l; intros; cbn [visit_offsets length]; [reflexivity|f_equal; auto]).
      rewrite LV in K. lia.
  - eapply (IH _ i j); [exact F2|lia|eassumption|eassumption|eassumption].
Qed.

Lemma members_apart_ ps os i p o s a size align : offsets (map snd ps) os -> laid_out (Struct ps) size align ->
  nth_error ps i = Some p -> nth_error os i = Some o -> laid_out (snd p) s a ->
  0 <= o /\ o + s <= size /\ (a <> 0 -> (a | o) /\ (a | align) /\ (align | size)) /\
  forall j o', (i < j)%nat -> nth_error os j = Some o' -> o + s <= o'.
Proof.
  intros O LS Hp Ho LP. apply offsets_unique in O. subst os. apply laid_out_unique in LS, LP. destruct LS as [-> ->], LP as [-> ->].
  assert (Hq : nth_error (map snd ps) i = Some (snd p)) by (apply map_nth_error; exact Hp).
  destruct (visit_nth _ _ _ _ _ (Z.le_refl 0) Hq Ho) as [V1 [V2 V3]]. rewrite size_struct, alignof_struct.
  pose proof (align_up_ge (group_end (map snd ps)) _ (group_align_al (map snd ps))) as AG.
  assert (D : alignof (snd p) <> 0 -> (alignof (snd p) | group_align (map snd ps))).
  { intros N. apply group_align_in; [|exact N]. eapply nth_error_In. exact Hq. }
  split; [exact V1|]. split; [unfold group_size, group_end in *; lia|]. split.
  - intros N. split; [apply V2; exact N|]. split; [exact (D N)|]. unfold group_size. apply align_up_divide; [apply group_align_al|].
    intros Z0. rewrite Z0 in D. specialize (D N). destruct (Z.eq_dec (group_align (map snd ps)) 0); [|contradiction].
    assert (alignof (snd p) <= group_align (map snd ps)).
    { eapply max_of_le; [|reflexivity]. apply in_map. eapply nth_error_In. exact Hq. }
    pose proof (al_nonneg _ (alignof_al (snd p))). lia.
  - intros j o' L Hj. eapply (visit_after _ 0); [lia|eassumption..].
Qed.

Lemma elements_apart_ n e s a size align i : laid_out e s a -> laid_out (Arr n e) size align -> 0 <= i < Z.of_nat n ->
  align = a /\ 0 <= i * s /\ i * s + s <= size /\ (a <> 0 -> (a | i * s)).
Proof.
  intros L1 L2 Hi. apply laid_out_unique in L1, L2. destruct L1 as [-> ->], L2 as [-> ->]. cbn [alignof storage_size].
  pose proof (size_nonneg e). split; [reflexivity|]. split; [nia|]. split; [nia|]. intros N. apply Z.divide_mul_r. apply size_aligned. exact N.
Qed.

Lemma object_maps_ c : 40 <= c -> exists rc rf, reflect c Chan = Ok rc /\ reflect c Fn = Ok rf /\
  scan_global rc = Ok [0; 8; 16; 24; 32] /\ gc_heap_size rc = c /\ scan_global rf = Ok [0] /\ gc_heap_size rf = 16.
Proof.
  intros Hc. cbn [reflect]. destruct (new_bits_ok c ltac:(lia)) as [B [C Z0]].
  destruct (set_run_spec 5 (new_bits c) 0 B ltac:(lia) ltac:(lia)) as [bits [E [UL [UB UV]]]]. rewrite E. cbn [bind].
  do 2 eexists. split; [reflexivity|]. split; [reflexivity|]. split; [|split; [reflexivity|split; vm_compute; reflexivity]].
  unfold scan_global. cbn [last_ptr gc_bits]. change (Z.to_nat ((40 + 7) / 8)) with 5%nat.
  assert (capacity bits = capacity (new_bits c)) by (unfold capacity; rewrite UL; reflexivity).
  cbn [scan_loop]. rewrite !test_spec by lia. cbn [bind]. rewrite !UV by lia. cbn [bind]. reflexivity.
Qed.

Lemma big_struct : exists t r, laid_out t 65536 8 /\ holds false t 65528 /\ reflect 0 t = Ok r /\
  last_ptr r = 0 /\ scan_global r = Ok [] /\ ~ right_map t r.
Proof.
  set (t := Struct [([97], Arr (Z.to_nat 8191) (Scalar U64)); ([98], Ref)]).
  assert (S : storage_size t = 65536). { unfold t. cbn [storage_size map snd alignof]. rewrite Z2Nat.id by lia. reflexivity. }
  assert (A : alignof t = 8) by reflexivity.
  assert (H : holds false t 65528).
  { change 65528 with (65528 + 0). apply (holds_struct false _ [0; 65528] 1 ([98], Ref)); [|reflexivity|reflexivity|apply holds_pointer; cbn [In snd]; tauto].
    pose proof (offsets_model [Arr (Z.to_nat 8191) (Scalar U64); Ref]) as O. cbn [visit_offsets alignof storage_size] in O. rewrite Z2Nat.id in O by lia. exact O. }
  destruct (member_right t) as [bits [off [lst [E [R L0]]]]].
  assert (lst = 65536) as ->.
  { destruct R as [R1 [_ [R3 _]]]. cbn [last_ptr gc_heap_size] in *. destruct (R1 _ H) as [i K]. lia. }
  exists t, (mk_rtype 65536 0 bits). split; [|split; [exact H|split; [|split; [reflexivity|split; [reflexivity|]]]]].
  - rewrite <- S, <- A. apply laid_out_model.
  - change (reflect 0 t) with (let size := storage_size t in if size =? 0 then Ok (mk_rtype 1 0 (new_bits 1))
      else ' (bits, _, last) <- member_gc_bits false t (new_bits size) 0 ;; Ok (mk_rtype size (u16 last) bits)).
    cbv zeta. rewrite E, S. reflexivity.
  - intros [R1 _]. destruct (R1 _ H) as [i K]. cbn [last_ptr] in K. lia.
Qed.
