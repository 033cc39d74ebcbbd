(** io.buffer behaves as a queue and leaves the program's vectors alone. *)
From Verif Require Import Base Base_lemmas Zlist Vec_model Vec_spec Vec_proof Iobuf_model Iobuf_spec.

Notation wf_v := (@wf_vec Z).

(** Vectors of the program have blocks of their own; the buffer has its own too, unless it has no
    capacity left to write into. *)
Record binv (s : bstate) (q : qstate) : Prop := mk_binv {
  i_wf : wf_v (bmem s) (bbuf s);
  i_vars : Forall (wf_v (bmem s)) (bvars s);
  i_apart : forall i j a b x, nth_error (bvars s) i = Some a -> nth_error (bvars s) j = Some b ->
     blk a = Some x -> blk b = Some x -> i = j;
  i_own : 0 < cap (bbuf s) -> forall i a x, nth_error (bvars s) i = Some a -> blk (bbuf s) = Some x -> blk a = Some x -> False;
  i_off : 0 <= boffset s <= len (bbuf s);
  i_queue : queue q = skipn (Z.to_nat (boffset s)) (view (bmem s) (bbuf s));
  i_vecs : vecs q = map (view (bmem s)) (bvars s);
  i_len : len (bbuf s) <= written q
}.

Lemma binv_init : binv binit qinit.
Proof.
  split; cbn; auto; try lia; try (intros i; destruct i; discriminate).
  split; [cbn; lia|]. split; [cbn; lia|]. split; [discriminate|cbn; lia].
Qed.

Lemma var_wf s q i a : binv s q -> nth_error (bvars s) i = Some a -> wf_v (bmem s) a.
Proof. intros H E. apply nth_error_In in E. pose proof (i_vars _ _ H) as F. rewrite Forall_forall in F. now apply F. Qed.

Lemma wf_all h h' vs : hext h h' -> Forall (wf_v h) vs -> Forall (wf_v h') vs.
Proof. intros He F. eapply Forall_impl; [|exact F]. intros a. apply (wf_hext 0 1). exact He. Qed.

Lemma views_same h h' vs : hext h h' -> Forall (wf_v h) vs ->
  (forall a b k, In a vs -> blk a = Some b -> cell h' b k = cell h b k) -> map (view h') vs = map (view h) vs.
Proof.
  intros He F Hc. apply map_ext_in. intros a Ia. rewrite Forall_forall in F. apply (view_same 0 1); auto. intros b k Eb _. now apply (Hc a).
Qed.

Lemma queue_len s q : binv s q -> zlen (queue q) = blen s.
Proof.
  intro H. rewrite (i_queue _ _ H). pose proof (i_off _ _ H). pose proof (view_len 0 1 _ _ (i_wf _ _ H)) as L. unfold blen.
  unfold zlen in *. rewrite skipn_length. lia.
Qed.

Lemma empty_iff s q : binv s q -> is_empty s = (zlen (queue q) =? 0).
Proof. intro H. rewrite (queue_len _ _ H). unfold is_empty, blen. pose proof (i_off _ _ H). destruct (Z.leb_spec (len (bbuf s)) (boffset s)); lia. Qed.

(** Setting the buffer to its first [k] bytes leaves it without spare capacity. *)
Lemma own_slice s q : binv s q -> forall v i a x, blk v = blk (bbuf s) -> (0 < cap v -> 0 < cap (bbuf s)) ->
  0 < cap v -> nth_error (bvars s) i = Some a -> blk v = Some x -> blk a = Some x -> False.
Proof. intros H v i a x Eb Hc C Ea Ev Eax. apply (i_own _ _ H (Hc C) i a x Ea); congruence. Qed.

Lemma reset_ok s q : binv s q -> exists s', reset s = Ok s' /\ binv s' (mk_q [] (vecs q) (written q)) /\
  bmem s' = bmem s /\ bvars s' = bvars s /\ boffset s' = 0 /\ cap (bbuf s') = 0.
Proof.
  intro H. unfold reset. pose proof (i_wf _ _ H) as W. pose proof W as (W1 & _). pose proof (slice_ok 0 1 (bmem s) (bbuf s) 0 0 W) as S.
  destruct (vec_slice (bbuf s) 0 0) as [v| | | | |]; try contradiction.
  - destruct S as (e & -> & _ & _ & Ev & Wv & Vw). change (0 =? -1) with false in *. cbv iota in *. cbn [bind]. eexists. split; [reflexivity|].
    split; [|rewrite Ev; cbn; auto]. split; cbn [bmem bbuf boffset bvars queue vecs written].
    + exact Wv.
    + apply (i_vars _ _ H).
    + apply (i_apart _ _ H).
    + rewrite Ev. cbn. lia.
    + rewrite Ev. cbn. lia.
    + rewrite Vw. reflexivity.
    + apply (i_vecs _ _ H).
    + rewrite Ev. cbn [len]. pose proof (i_len _ _ H). lia.
  - exfalso. apply S. change (0 =? -1) with false. cbv iota. lia.
Qed.

Lemma nth_map s q v l : binv s q -> nth_error (vecs q) v = Some l -> exists a, nth_error (bvars s) v = Some a /\ l = view (bmem s) a.
Proof.
  intros H E. rewrite (i_vecs _ _ H), nth_error_map in E. destruct (nth_error (bvars s) v) as [a|]; [|discriminate]. injection E as <-. eauto.
Qed.

(** The vector the buffer becomes after writing. *)
Lemma grown s q h b d extra : binv s q -> hext (bmem s) h -> wf_v h b -> view h b = view (bmem s) (bbuf s) ++ d -> len b = len (bbuf s) + zlen d ->
  zlen d <= extra ->
  ((blk b = Some (length (bmem s)) /\ fresh_cells (bmem s) h) \/
   (blk b = blk (bbuf s) /\ (0 < cap b -> 0 < cap (bbuf s)) /\ exists lo hi, only_at (bmem s) h (blk (bbuf s)) lo hi /\ (lo < hi -> 0 < cap (bbuf s)))) ->
  binv (mk_bstate h b (boffset s) (bvars s)) (mk_q (queue q ++ d) (vecs q) (written q + extra)).
Proof.
  intros H He Wb Vb Lb Ex Cs. pose proof (i_off _ _ H) as Of. pose proof (view_len 0 1 _ _ (i_wf _ _ H)) as VL.
  assert (Bd : forall a x, In a (bvars s) -> blk a = Some x -> (x < length (bmem s))%nat).
  { intros a x Ia Ex'. pose proof (i_vars _ _ H) as F. rewrite Forall_forall in F. destruct (F a Ia) as (_ & _ & W3 & _). now apply W3. }
  split; cbn [bmem bbuf boffset bvars queue vecs written].
  - exact Wb.
  - exact (wf_all _ _ _ He (i_vars _ _ H)).
  - apply (i_apart _ _ H).
  - intros C i a x Ea Eb Eax. destruct Cs as [(E1 & _)|(E1 & Hc & _)].
    + rewrite E1 in Eb. injection Eb as <-. apply nth_error_In in Ea. specialize (Bd _ _ Ea Eax). lia.
    + exact (own_slice _ _ H b i a x E1 Hc C Ea Eb Eax).
  - rewrite Lb. pose proof (zlen_nonneg d). lia.
  - rewrite Vb, (i_queue _ _ H), skipn_app. f_equal.
    replace (Z.to_nat (boffset s) - length (view (bmem s) (bbuf s)))%nat with 0%nat by (unfold zlen in VL; lia). reflexivity.
  - rewrite (i_vecs _ _ H). symmetry. apply views_same; [exact He|apply (i_vars _ _ H)|]. intros a x k Ia Eax.
    destruct Cs as [(_ & Fr)|(_ & _ & lo & hi & On & Pos)].
    + apply Fr. now apply (Bd a).
    + apply On; [now apply (Bd a)|]. intros (E1 & R). apply In_nth_error in Ia as (i & Ei). apply (i_own _ _ H (Pos ltac:(lia)) i a x Ei E1 Eax).
  - rewrite Lb. pose proof (i_len _ _ H). lia.
Qed.

Lemma map_list_set {A B} (f g : A -> B) (vs : list A) : forall v a, nth_error vs v = Some a ->
  (forall i b, nth_error vs i = Some b -> i <> v -> f b = g b) -> map f vs = list_set (map g vs) v (f a).
Proof.
  induction vs as [|x vs IH]; intros [|v] a E Hs; cbn in *; try discriminate.
  - injection E as ->. f_equal. apply map_ext_in. intros b Ib. apply In_nth_error in Ib as (i & Ei). apply (Hs (S i) b Ei). discriminate.
  - f_equal; [now apply (Hs 0%nat)|]. apply IH; [exact E|]. intros i b Ei Ni. apply (Hs (S i)); [exact Ei|]. congruence.
Qed.

(** One of the program's vectors changes, and nothing else. *)
Lemma changed s q h v a l lo hi off' q' : binv s q -> nth_error (bvars s) v = Some a -> hext (bmem s) h ->
  only_at (bmem s) h (blk a) lo hi -> (lo < hi -> 0 < len a) -> view h a = l -> 0 <= off' <= len (bbuf s) ->
  q' = skipn (Z.to_nat off') (view (bmem s) (bbuf s)) ->
  binv (mk_bstate h (bbuf s) off' (bvars s)) (mk_q q' (list_set (vecs q) v l) (written q)).
Proof.
  intros H Ea He On Pos Vl Of Eq.
  assert (Bd : forall c x, In c (bvars s) -> blk c = Some x -> (x < length (bmem s))%nat).
  { intros c x Ia Ex'. pose proof (i_vars _ _ H) as F. rewrite Forall_forall in F. destruct (F c Ia) as (_ & _ & W3 & _). now apply W3. }
  assert (Vb : view h (bbuf s) = view (bmem s) (bbuf s)).
  { apply (view_same 0 1); [exact He|apply (i_wf _ _ H)|]. intros b k Eb R. pose proof (i_wf _ _ H) as (W1 & _ & W3 & _). apply On; [now apply W3|].
    intros (E1 & R1). apply (i_own _ _ H ltac:(lia) v a b Ea Eb E1). }
  split; cbn [bmem bbuf boffset bvars queue vecs written].
  - apply (wf_hext 0 1 _ _ _ He). apply (i_wf _ _ H).
  - exact (wf_all _ _ _ He (i_vars _ _ H)).
  - apply (i_apart _ _ H).
  - apply (i_own _ _ H).
  - exact Of.
  - rewrite Vb. exact Eq.
  - rewrite (i_vecs _ _ H), <- Vl. symmetry. apply map_list_set; [exact Ea|]. intros i b Ei Ni. apply (view_same 0 1); [exact He|exact (var_wf _ _ _ _ H Ei)|].
    intros x k Ex R. apply On; [apply (Bd b); [exact (nth_error_In _ _ Ei)|exact Ex]|]. intros (E1 & _). apply Ni. exact (i_apart _ _ H i v b a x Ei Ea Ex E1).
  - apply (i_len _ _ H).
Qed.

(** A new vector of the program. *)
Lemma added s q h b o a l qq : binv s q -> hext (bmem s) h -> fresh_cells (bmem s) h -> wf_v h a -> view h a = l ->
  (forall i c x, nth_error (bvars s) i = Some c -> blk c = Some x -> blk a = Some x -> False) ->
  wf_v h b -> 0 <= o <= len b -> qq = skipn (Z.to_nat o) (view h b) -> len b <= len (bbuf s) ->
  (0 < cap b -> blk b = blk (bbuf s) /\ 0 < cap (bbuf s) /\ forall x, blk a = Some x -> blk b = Some x -> False) ->
  binv (mk_bstate h b o (bvars s ++ [a])) (mk_q qq (vecs q ++ [l]) (written q)).
Proof.
  intros H He Fr Wa Va Ap Wb Of Eq Lb Ow. split; cbn [bmem bbuf boffset bvars queue vecs written].
  - exact Wb.
  - apply Forall_app. split; [exact (wf_all _ _ _ He (i_vars _ _ H))|auto].
  - intros i j c d x Ei Ej Ec Ed. apply (nth_error_snoc 0 1) in Ei as [Ei|[-> ->]]; apply (nth_error_snoc 0 1) in Ej as [Ej|[-> ->]]; auto.
    + exact (i_apart _ _ H i j c d x Ei Ej Ec Ed).
    + destruct (Ap i c x Ei Ec Ed).
    + destruct (Ap j d x Ej Ed Ec).
  - intros C i c x Ei Eb Ec. destruct (Ow C) as (E1 & C1 & E2). apply (nth_error_snoc 0 1) in Ei as [Ei|[-> ->]]; [|exact (E2 x Ec Eb)].
    rewrite E1 in Eb. exact (i_own _ _ H C1 i c x Ei Eb Ec).
  - exact Of.
  - exact Eq.
  - rewrite map_app, (i_vecs _ _ H). cbn [map]. rewrite Va. f_equal. symmetry. apply views_same; [exact He|apply (i_vars _ _ H)|].
    intros c x k Ic Ex. apply Fr. pose proof (i_vars _ _ H) as F. rewrite Forall_forall in F. destruct (F c Ic) as (_ & _ & W3 & _). now apply W3.
  - pose proof (i_len _ _ H). lia.
Qed.

Lemma hext_snoc (h : @heap Z) l : hext h (h ++ [l]).
Proof.
  split; [rewrite app_length; lia|]. intros b block E. exists block. split; [|reflexivity]. rewrite nth_error_app1; [exact E|]. apply nth_error_Some. congruence.
Qed.

Lemma fresh_snoc (h : @heap Z) l : fresh_cells h (h ++ [l]).
Proof. intros b k L. unfold cell. now rewrite nth_error_app1. Qed.

Lemma sub_list_from (l : list Z) o : 0 <= o <= zlen l -> sub_list l o (zlen l) = skipn (Z.to_nat o) l.
Proof. intro H. unfold sub_list. apply firstn_all2. rewrite skipn_length. unfold zlen in *. lia. Qed.

Lemma skipn_skipn' {A} (a b : nat) (l : list A) : skipn a (skipn b l) = skipn (b + a) l.
Proof. revert l. induction b as [|b IH]; intro l; [reflexivity|]. destruct l; [now rewrite !skipn_nil|]. cbn. apply IH. Qed.

Lemma fresh_refl (h : @heap Z) : fresh_cells h h.
Proof. intros b k _. reflexivity. Qed.

Lemma append_cap (h : @heap Z) v w h' v' : vec_append 0 h v w = Ok (h', v') -> len v + len w <= cap v -> cap v' = cap v.
Proof.
  intros E L. unfold vec_append in E. destruct (Z.ltb_spec (cap v) (len v + len w)); [lia|]. cbn [bind] in E.
  destruct (load h (blk w) (off w) (len w)); try discriminate. cbn [bind] in E. destruct (Vec_model.store h (blk v) (off v + len v) a); try discriminate.
  injection E as <- <-. reflexivity.
Qed.

Lemma push_cap (h : @heap Z) v x h' v' : vec_push 0 h v x = Ok (h', v') -> len v <> cap v -> cap v' = cap v.
Proof.
  intros E L. unfold vec_push in E. destruct (Z.eqb_spec (len v) (cap v)); [lia|]. cbn [bind] in E.
  destruct (Vec_model.store h (blk v) (off v + len v) [x]); try discriminate. injection E as <- <-. reflexivity.
Qed.

Theorem bstep_ok s q o q' y : binv s q -> qstep q o = Some (q', y) ->
  exists s' x, bstep s o = Ok (s', x) /\ binv s' q' /\ fits x y.
Proof.
  intros H E. pose proof (i_wf _ _ H) as W. pose proof W as (W1 & W2 & W3 & W4). pose proof (i_off _ _ H) as Of.
  pose proof (view_len 0 1 _ _ W) as VL. pose proof (queue_len _ _ H) as QL. unfold blen in QL.
  destruct o as [l|v i x|v|x|v| |n| | |]; cbn [qstep] in E; cbn [bstep].
  - injection E as <- <-. eexists _, _. split; [reflexivity|]. split; [|reflexivity].
    assert (Wa : wf_v (bmem s ++ [l]) (mk_vec (Some (length (bmem s))) 0 (zlen l) (zlen l))).
    { pose proof (zlen_nonneg l). split; [cbn; lia|]. split; [cbn; lia|]. split; [cbn; intros b [= <-]; rewrite app_length; cbn; lia|].
      intros _. exists (length (bmem s)), l. cbn. split; [reflexivity|]. split; [|lia]. rewrite nth_error_app2, Nat.sub_diag by lia. reflexivity. }
    assert (Vb : view (bmem s ++ [l]) (bbuf s) = view (bmem s) (bbuf s)).
    { apply (view_same 0 1); [apply hext_snoc|exact W|]. intros b k Eb _. apply fresh_snoc. now apply W3. }
    apply (added s q); auto; [apply hext_snoc|apply fresh_snoc| | | | |lia|].
    + unfold view, load. cbn [blk off len]. destruct (Z.eqb_spec (zlen l) 0) as [Z0|Z0]; [destruct l; [reflexivity|rewrite zlen_cons in Z0; pose proof (zlen_nonneg l); lia]|].
      rewrite nth_error_app2, Nat.sub_diag by lia. cbn [nth_error]. pose proof (zlen_nonneg l). replace ((0 <=? 0) && (0 <=? zlen l) && (0 + zlen l <=? zlen l)) with true by lia.
      rewrite Z.add_0_l. rewrite sub_list_from by lia. reflexivity.
    + intros i c x Ei Ex Ey. injection Ey as <-. destruct (var_wf _ _ _ _ H Ei) as (_ & _ & X & _). specialize (X _ Ex). lia.
    + exact (wf_hext 0 1 _ _ _ (hext_snoc _ _) W).
    + rewrite Vb. apply (i_queue _ _ H).
    + intros C. split; [reflexivity|]. split; [exact C|]. intros x Ey Eb. injection Ey as <-. specialize (W3 _ Eb). lia.
  - destruct (nth_error (vecs q) v) as [l|] eqn:Ev; [|discriminate]. destruct (nth_map _ _ _ _ H Ev) as (a & Ea & ->). unfold bvar. rewrite Ea. cbn [bind].
    pose proof (var_wf _ _ _ _ H Ea) as Wa. rewrite (view_len 0 1 _ _ Wa) in E. destruct ((0 <=? i) && (i <? len a)) eqn:In.
    + injection E as <- <-. destruct (set_ok 0 1 (bmem s) a i x Wa ltac:(lia)) as (h & -> & He & _ & On & _ & Vw). eexists _, _. split; [reflexivity|]. split; [|reflexivity].
      apply (changed s q h v a _ _ _ (boffset s) _ H Ea He On); auto; [lia|apply (i_queue _ _ H)].
    + injection E as <- <-. rewrite (set_out 0 1) by lia. eexists _, _. split; [reflexivity|]. split; [exact H|reflexivity].
  - destruct (nth_error (vecs q) v) as [l|] eqn:Ev; [|discriminate]. destruct (nth_map _ _ _ _ H Ev) as (a & Ea & ->). unfold bvar. rewrite Ea. cbn [bind].
    pose proof (var_wf _ _ _ _ H Ea) as Wa. pose proof Wa as (Wa1 & _). pose proof (view_len 0 1 _ _ Wa) as VLa.
    destruct (Z.ltb_spec (written q + zlen (view (bmem s) a)) room) as [Rm|]; [|discriminate]. injection E as <- <-. unfold room in Rm. pose proof (i_len _ _ H).
    unfold bwrite. destruct (append_ok 0 1 (bmem s) (bbuf s) a W Wa ltac:(lia)) as (h & b & Ap & He & Wb & Vb & Lb & C1 & C2). rewrite Ap. cbn [bind].
    eexists _, _. split; [reflexivity|]. split; [|cbn; now rewrite VLa].
    apply (grown s q h b _ _ H He Wb Vb); [lia|lia|]. destruct (Z.lt_ge_cases (cap (bbuf s)) (len (bbuf s) + len a)) as [G|G]; [left; auto|right].
    destruct (C2 G) as (E1 & E2 & On). split; [exact E1|]. split; [rewrite (append_cap _ _ _ _ _ Ap G); auto|eexists _, _; split; [exact On|lia]].
  - destruct (Z.ltb_spec (written q + 1) room) as [Rm|]; [|discriminate]. injection E as <- <-. unfold bwrite_byte.
    destruct (push_ok 0 1 (bmem s) (bbuf s) x W) as (h & b & Ap & He & Wb & Vb & Lb & _ & C1 & C2). rewrite Ap. cbn [bind].
    eexists _, _. split; [reflexivity|]. split; [|exact Logic.I]. apply (grown s q h b [x] 1 H He Wb Vb); [exact Lb|cbn; lia|].
    destruct (Z.eq_dec (len (bbuf s)) (cap (bbuf s))) as [G|G]; [left; auto|right]. destruct (C2 G) as (E1 & E2 & On). split; [exact E1|].
    split; [rewrite (push_cap _ _ _ _ _ Ap G); auto|eexists _, _; split; [exact On|lia]].
  - destruct (nth_error (vecs q) v) as [l|] eqn:Ev; [|discriminate]. destruct (nth_map _ _ _ _ H Ev) as (a & Ea & ->). unfold bvar. rewrite Ea. cbn [bind].
    pose proof (var_wf _ _ _ _ H Ea) as Wa. pose proof Wa as (Wa1 & _). pose proof (view_len 0 1 _ _ Wa) as VLa.
    unfold bread. rewrite (empty_iff _ _ H). destruct (queue q) as [|c0 ql] eqn:Eq.
    + rewrite zlen_nil. change (0 =? 0) with true. cbv iota. destruct (reset_ok s q H) as (s' & -> & H' & Em & Evs & _). cbn [bind].
      destruct (view (bmem s) a) as [|x0 xl] eqn:Va.
      * rewrite zlen_nil in VLa. rewrite <- VLa. cbn [Z.eqb]. injection E as <- <-. eexists _, _. split; [reflexivity|]. split; [|reflexivity].
        cbn [length Nat.min skipn firstn app]. rewrite (list_set_same 0 1) by exact Ev. exact H'.
      * replace (len a =? 0) with false by (rewrite zlen_cons in VLa; pose proof (zlen_nonneg xl); lia). injection E as <- <-.
        eexists _, _. split; [reflexivity|]. split; [|reflexivity]. replace q with (mk_q [] (vecs q) (written q)); [exact H'|]. destruct q. cbn in Eq. now subst.
    + assert (E' : Some (mk_q (skipn (Nat.min (length (view (bmem s) a)) (length (queue q))) (queue q))
         (list_set (vecs q) v (firstn (Nat.min (length (view (bmem s) a)) (length (queue q))) (queue q) ++ skipn (Nat.min (length (view (bmem s) a)) (length (queue q))) (view (bmem s) a))) (written q),
         Some (BNum (Z.of_nat (Nat.min (length (view (bmem s) a)) (length (queue q)))))) = Some (q', y)) by (rewrite Eq; exact E). clear E.
      assert (Zq : zlen (c0 :: ql) =? 0 = false) by (rewrite zlen_cons; pose proof (zlen_nonneg ql); lia). rewrite Zq. rewrite <- Eq in *. clear Eq c0 ql Zq.
      set (n := Nat.min (length (view (bmem s) a)) (length (queue q))) in *. injection E' as <- <-.
      pose proof (slice_ok 0 1 (bmem s) (bbuf s) (boffset s) (len (bbuf s)) W) as S. destruct (vec_slice (bbuf s) (boffset s) (len (bbuf s))) as [w| | | | |]; try contradiction.
      2: { exfalso. apply S. replace (len (bbuf s) =? -1) with false by lia. cbv iota. lia. }
      destruct S as (e & Ee & _ & _ & Ew & Ww & Vw). replace (len (bbuf s) =? -1) with false in Ee by lia. cbv iota in Ee. subst e. cbn [bind].
      assert (Vq : view (bmem s) w = queue q) by (rewrite Vw, (i_queue _ _ H), <- VL; apply sub_list_from; lia).
      destruct (copy_ok 0 1 (bmem s) a w Wa Ww) as (h & k & -> & Ek & He & _ & Va & On). rewrite Vq in *. fold n in Ek. subst k. cbn [bind].
      eexists _, _. split; [reflexivity|]. split; [|reflexivity].
      assert (Ln : (n <= length (queue q) /\ n <= length (view (bmem s) a))%nat) by (unfold n; lia).
      apply (changed s q h v a _ _ _ _ _ H Ea He On); [unfold zlen in VLa; lia|exact Va|unfold zlen in QL; lia|].
      rewrite (i_queue _ _ H), skipn_skipn'. f_equal. lia.
  - injection E as <- <-. unfold bread_all. rewrite (empty_iff _ _ H). destruct (Z.eqb_spec (zlen (queue q)) 0) as [Z0|Z0].
    + assert (Q0 : queue q = []) by (destruct (queue q); [reflexivity|rewrite zlen_cons in Z0; pose proof (zlen_nonneg l); lia]). rewrite Q0.
      eexists _, _. split; [reflexivity|]. split; [|reflexivity]. apply (added s q); auto.
      * apply (hext_refl 0 1).
      * apply fresh_refl.
      * split; [cbn; lia|]. split; [cbn; lia|]. split; [discriminate|cbn; lia].
      * discriminate.
      * rewrite <- Q0. apply (i_queue _ _ H).
      * lia.
      * intro C. split; [reflexivity|]. split; [exact C|discriminate].
    + pose proof (slice_ok 0 1 (bmem s) (bbuf s) (boffset s) (len (bbuf s)) W) as S. destruct (vec_slice (bbuf s) (boffset s) (len (bbuf s))) as [w| | | | |]; try contradiction.
      2: { exfalso. apply S. replace (len (bbuf s) =? -1) with false by lia. cbv iota. lia. }
      destruct S as (e & Ee & _ & _ & Ew & Ww & Vw). replace (len (bbuf s) =? -1) with false in Ee by lia. cbv iota in Ee. subst e. cbn [bind].
      assert (Vq : view (bmem s) w = queue q) by (rewrite Vw, (i_queue _ _ H), <- VL; apply sub_list_from; lia).
      destruct (reset_ok s q H) as (s' & -> & H' & Em & Evs & Eo & Ec). cbn [bind]. rewrite Em, Evs, Eo.
      eexists _, _. split; [reflexivity|]. split; [|reflexivity]. apply (added s q); auto.
      * apply (hext_refl 0 1).
      * apply fresh_refl.
      * intros i c x Ei Ex Ey. rewrite Ew in Ey. cbn in Ey. exact (i_own _ _ H ltac:(lia) i c x Ei Ey Ex).
      * rewrite <- Em. apply (i_wf _ _ H').
      * pose proof (i_off _ _ H'). lia.
      * pose proof (i_queue _ _ H') as Q'. cbn [queue] in Q'. rewrite Eo, Em in Q'. exact Q'.
      * pose proof (i_wf _ _ H') as (X & _). lia.
      * lia.
  - unfold btruncate. rewrite QL in E. destruct (Z.eqb_spec n 0) as [->|N0].
    + replace ((0 <=? 0) && (0 <=? len (bbuf s) - boffset s)) with true in E by lia. injection E as <- <-.
      destruct (reset_ok s q H) as (s' & -> & H' & _). cbn [bind]. eexists _, _. split; [reflexivity|]. split; [exact H'|reflexivity].
    + unfold blen. destruct ((0 <=? n) && (n <=? len (bbuf s) - boffset s)) eqn:R.
      * injection E as <- <-. replace ((n <? 0) || (len (bbuf s) - boffset s <? n)) with false by lia.
        pose proof (slice_ok 0 1 (bmem s) (bbuf s) 0 (boffset s + n) W) as S. destruct (vec_slice (bbuf s) 0 (boffset s + n)) as [w| | | | |]; try contradiction.
        2: { exfalso. apply S. replace (boffset s + n =? -1) with false by lia. cbv iota. lia. }
        destruct S as (e & Ee & _ & _ & Ew & Ww & Vw). replace (boffset s + n =? -1) with false in Ee by lia. cbv iota in Ee. subst e. cbn [bind].
        eexists _, _. split; [reflexivity|]. split; [|reflexivity]. split; cbn [bmem bbuf boffset bvars queue vecs written].
        -- exact Ww.
        -- apply (i_vars _ _ H).
        -- apply (i_apart _ _ H).
        -- intros C i c x Ei Eb Ec. rewrite Ew in Eb. cbn in Eb. apply (i_own _ _ H ltac:(lia) i c x Ei Eb Ec).
        -- rewrite Ew. cbn [len]. lia.
        -- rewrite Vw, (i_queue _ _ H). unfold sub_list. change (Z.to_nat 0) with 0%nat. cbn [skipn]. rewrite Z.sub_0_r, skipn_firstn_comm. f_equal. lia.
        -- apply (i_vecs _ _ H).
        -- rewrite Ew. cbn [len]. pose proof (i_len _ _ H). lia.
      * injection E as <- <-. replace ((n <? 0) || (len (bbuf s) - boffset s <? n)) with true by lia. eexists _, _. split; [reflexivity|]. split; [exact H|reflexivity].
  - injection E as <- <-. destruct (reset_ok s q H) as (s' & -> & H' & _). cbn [bind]. eexists _, _. split; [reflexivity|]. split; [exact H'|reflexivity].
  - injection E as <- <-. eexists _, _. split; [reflexivity|]. split; [exact H|]. cbn. unfold blen. now rewrite QL.
  - injection E as <- <-. eexists _, _. split; [reflexivity|]. split; [exact H|]. cbn. now rewrite (empty_iff _ _ H).
Qed.

Theorem brun_ok l : forall s q q' ys, binv s q -> qrun q l = Some (q', ys) ->
  exists s' xs, brun s l = Ok (s', xs) /\ binv s' q' /\ Forall2 fits xs ys.
Proof.
  induction l as [|o l IH]; intros s q q' ys H E; cbn [qrun brun] in *; [injection E as <- <-; exists s, []; auto|].
  destruct (qstep q o) as [[q1 y]|] eqn:Q; [|discriminate]. destruct (bstep_ok s q o q1 y H Q) as (s1 & x & -> & H1 & F). cbn [bind].
  destruct (qrun q1 l) as [[q2 ys']|] eqn:R; [|discriminate]. injection E as <- <-.
  destruct (IH s1 q1 q2 ys' H1 R) as (s2 & xs & -> & H2 & Fs). cbn [bind]. exists s2, (x :: xs). auto.
Qed.
