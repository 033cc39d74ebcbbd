From Verif Require Import Base Base_lemmas Regalloc_model Regalloc_spec.

Lemma nth_set_same {A} (l : list A) i x : (i < length l)%nat -> nth_error (list_set l i x) i = Some x.
Proof. intros H. rewrite nth_error_list_set, Nat.eqb_refl. destruct (i <? length l)%nat eqn:E; [reflexivity|lia]. Qed.
Lemma nth_set_other {A} (l : list A) i j x : i <> j -> nth_error (list_set l i x) j = nth_error l j.
Proof. intros H. rewrite nth_error_list_set. destruct (Nat.eqb i j) eqn:E; [apply Nat.eqb_eq in E; contradiction|reflexivity]. Qed.
Lemma nth_lt {A} (l : list A) i x : nth_error l i = Some x -> (i < length l)%nat.
Proof. intros H. apply nth_error_Some. congruence. Qed.
Lemma nth_ex {A} (l : list A) i : (i < length l)%nat -> exists x, nth_error l i = Some x.
Proof. intros H. apply nth_error_Some in H. destruct (nth_error l i) as [x|]; [exists x; reflexivity|contradiction]. Qed.
Lemma get_ok {A} (l : list A) i x : get l i = Ok x <-> nth_error l i = Some x.
Proof. unfold get. destruct (nth_error l i); split; intros H; congruence. Qed.

(** ** Ranges *)
Lemma covers_nil p : ~ covers [] p.
Proof. intros [f [t [[] _]]]. Qed.
Lemma covers_cons f t l p : covers ((f, t) :: l) p <-> f <= p < t \/ covers l p.
Proof.
  split.
  - intros [f' [t' [[E|H] R]]]; [injection E as <- <-; left; exact R|right; exists f', t'; auto].
  - intros [R|[f' [t' [H R]]]]; [exists f, t; split; [left; reflexivity|exact R]|exists f', t'; split; [right; exact H|exact R]].
Qed.
Lemma covers_app a b p : covers (a ++ b) p <-> covers a p \/ covers b p.
Proof.
  induction a as [|[f t] a IH]; [split; [right; assumption|intros [H|H]; [contradiction (covers_nil _ H)|exact H]]|].
  cbn [app]. rewrite !covers_cons, IH. tauto.
Qed.
Lemma ordered_tail r l : ordered (r :: l) -> ordered l.
Proof. destruct r. cbn. tauto. Qed.
(** everything after the first range begins at its end or later *)
Lemma ordered_after : forall l f t, ordered ((f, t) :: l) -> forall f' t', In (f', t') l -> t <= f' /\ f' < t'.
Proof.
  induction l as [|[f1 t1] l IH]; intros f t [H1 [H2 H3]] f' t' HI; [destruct HI|].
  destruct HI as [E|HI]; [injection E as <- <-; split; [exact H2|apply H3]|].
  destruct (IH f1 t1 H3 f' t' HI) as [K1 K2]. destruct H3 as [H3 _]. lia.
Qed.
Lemma ordered_first f t l p : ordered ((f, t) :: l) -> covers ((f, t) :: l) p -> f <= p.
Proof. intros O C. rewrite covers_cons in C. destruct C as [C|[f' [t' [HI C]]]]; [lia|]. destruct (ordered_after _ _ _ O _ _ HI). destruct O as [O _]. lia. Qed.
Lemma ordered_rest f t l p : ordered ((f, t) :: l) -> covers l p -> t <= p.
Proof. intros O [f' [t' [HI C]]]. destruct (ordered_after _ _ _ O _ _ HI). lia. Qed.

Lemma last_to_snoc i l f t : ranges i = l ++ [(f, t)] -> last_to i = Ok t.
Proof. intros E. unfold last_to. rewrite E, rev_app_distr. reflexivity. Qed.
Lemma last_to_inv i t : last_to i = Ok t -> exists l f, ranges i = l ++ [(f, t)].
Proof.
  unfold last_to. intros H. destruct (rev (ranges i)) as [|[f t'] l] eqn:E; [discriminate|]. injection H as <-. exists (rev l), f.
  rewrite <- (rev_involutive (ranges i)), E. reflexivity.
Qed.
Lemma ordered_last : forall l f t, ordered (l ++ [(f, t)]) -> forall f' t', In (f', t') l -> t' <= f /\ f' < t'.
Proof.
  induction l as [|[f1 t1] l IH]; intros f t O f' t' HI; [destruct HI|]. cbn [app] in O. destruct HI as [E|HI]; [|apply ordered_tail in O; apply (IH f t O f' t' HI)].
  injection E as -> ->. split; [|apply O]. apply (ordered_after _ _ _ O f t). apply in_or_app. right. left. reflexivity.
Qed.
Lemma last_bound i t p : ordered (ranges i) -> last_to i = Ok t -> covers (ranges i) p -> p < t.
Proof.
  intros O H [f' [t' [HI C]]]. destruct (last_to_inv _ _ H) as [l [f E]]. rewrite E in O, HI. apply in_app_or in HI. destruct HI as [HI|[HI|[]]]; [|injection HI as <- <-; lia].
  destruct (ordered_last _ _ _ O _ _ HI) as [K1 K2].
  assert (Hl : f < t). { clear -O. induction l as [|r l IH]; [apply O|]. apply ordered_tail in O. apply IH. exact O. }
  lia.
Qed.
Lemma first_bound i f p : ordered (ranges i) -> first_from i = Ok f -> covers (ranges i) p -> f <= p.
Proof. unfold first_from. destruct (ranges i) as [|[f' t'] l] eqn:E; [discriminate|]. intros O H C. injection H as <-. apply (ordered_first _ _ _ _ O C). Qed.

(** *** covered *)
Lemma find_front_ok off p : 0 <= off -> forall l, ordered l -> find_front l p off = true <-> exists f t, In (f, t) l /\ f <= p < t + off.
Proof.
  intros Ho. induction l as [|[f t] l IH]; intros O; cbn [find_front]; [split; [discriminate|intros [? [? [[] _]]]]|].
  specialize (IH (ordered_tail _ _ O)). destruct ((f <=? p) && (p <? t + off)) eqn:E.
  - split; [intros _; exists f, t; split; [left; reflexivity|lia]|reflexivity].
  - destruct (p <? f) eqn:E2.
    + split; [discriminate|]. intros [f' [t' [[K|HI] C]]]; [injection K as <- <-; lia|]. destruct (ordered_after _ _ _ O _ _ HI). destruct O as [O _]. lia.
    + rewrite IH. split; intros [f' [t' [HI C]]]; exists f', t'; (split; [|exact C]); [right; exact HI|]. destruct HI as [K|HI]; [injection K as <- <-; lia|exact HI].
Qed.
Lemma find_back_ok off p : 0 <= off -> forall l, ordered (rev l) -> find_back l p off = true <-> exists f t, In (f, t) l /\ f <= p < t + off.
Proof.
  intros Ho. induction l as [|[f t] l IH]; intros O; cbn [find_back]; [split; [discriminate|intros [? [? [[] _]]]]|].
  cbn [rev] in O.
  assert (O' : ordered (rev l)).
  { clear -O. induction (rev l) as [|[a b] m IHm]; [exact Logic.I|]. cbn [app] in O. destruct O as [H1 [H2 H3]]. cbn [ordered]. split; [exact H1|]. split; [destruct m as [|[c d] m]; [exact Logic.I|exact H2]|apply IHm; exact H3]. }
  specialize (IH O'). destruct ((f <=? p) && (p <? t + off)) eqn:E.
  - split; [intros _; exists f, t; split; [left; reflexivity|lia]|reflexivity].
  - destruct (t + off <=? p) eqn:E2.
    + split; [discriminate|]. intros [f' [t' [[K|HI] C]]]; [injection K as <- <-; lia|]. apply in_rev in HI. destruct (ordered_last _ _ _ O _ _ HI).
      assert (Hl : f < t). { clear -O. induction (rev l) as [|r m IHm]; [apply O|]. apply ordered_tail in O. apply IHm. exact O. }
      lia.
    + rewrite IH. split; intros [f' [t' [HI C]]]; exists f', t'; (split; [|exact C]); [right; exact HI|]. destruct HI as [K|HI]; [injection K as <- <-; lia|exact HI].
Qed.
Lemma covered_ok i p input : ordered (ranges i) ->
  exists b, covered i p input = Ok b /\ (b = true <-> exists f t, In (f, t) (ranges i) /\ f <= p < t + (if input then 1 else 0)).
Proof.
  intros O. unfold covered. destruct (ranges i) as [|[f t] l] eqn:R; [exists false; split; [reflexivity|split; [discriminate|intros [? [? [[] _]]]]]|].
  assert (L : exists m f' lt, ranges i = m ++ [(f', lt)]).
  { rewrite R. destruct (exists_last (l := (f, t) :: l) ltac:(discriminate)) as [m [[f' lt] E]]. exists m, f', lt. exact E. }
  destruct L as [m [f' [lt L]]]. rewrite (last_to_snoc _ _ _ _ L). cbn [bind]. cbv zeta. set (off := if input then 1 else 0).
  assert (Ho : 0 <= off) by (unfold off; destruct input; lia). rewrite <- R in *.
  destruct ((lt + off <? p) || (p <? f)) eqn:E.
  - exists false. split; [reflexivity|]. split; [discriminate|]. intros [f1 [t1 [HI C]]].
    assert (F : f <= f1). { rewrite R in O, HI. destruct HI as [K|HI]; [injection K as <- <-; lia|]. destruct (ordered_after _ _ _ O _ _ HI). destruct O as [O _]. lia. }
    assert (T : t1 <= lt). { rewrite L in O, HI. apply in_app_or in HI. destruct HI as [HI|[K|[]]]; [|injection K as <- <-; lia].
      destruct (ordered_last _ _ _ O _ _ HI). assert (Hl : f' < lt). { clear -O. induction m as [|r m IHm]; [apply O|]. apply ordered_tail in O. apply IHm. exact O. } lia. }
    lia.
  - destruct l as [|r l].
    + eexists. split; [reflexivity|]. rewrite R. split; [intros H; exists f, t; split; [left; reflexivity|lia]|]. intros [f1 [t1 [[K|[]] C]]]. injection K as <- <-. lia.
    + destruct ((lt - f) / 2 <? p - f).
      * eexists. split; [reflexivity|]. rewrite find_back_ok; [|exact Ho|rewrite rev_involutive; exact O]. split; intros [f1 [t1 [HI C]]]; exists f1, t1; (split; [|exact C]); [apply in_rev; exact HI|apply -> in_rev; exact HI].
      * eexists. split; [reflexivity|]. apply find_front_ok; assumption.
Qed.
Lemma covered_covers i p b : ordered (ranges i) -> covered i p false = Ok b -> (b = true <-> covers (ranges i) p).
Proof.
  intros O H. destruct (covered_ok i p false O) as [b' [E K]]. rewrite E in H. injection H as ->. rewrite K. unfold covers.
  split; intros [f [t [HI C]]]; exists f, t; (split; [exact HI|lia]).
Qed.
Lemma any_covered_ok i : ordered (ranges i) -> forall n p, exists b, any_covered n i p = Ok b /\ (b = true <-> exists q, p <= q < p + Z.of_nat n /\ covers (ranges i) q).
Proof.
  intros O. induction n as [|n IH]; intros p; cbn [any_covered].
  - exists false. split; [reflexivity|]. split; [discriminate|]. intros [q [H _]]. lia.
  - destruct (covered_ok i p false O) as [b [E K]]. rewrite E. cbn [bind]. pose proof (covered_covers i p b O E) as K'. destruct b.
    + exists true. split; [reflexivity|]. split; [intros _|reflexivity]. exists p. split; [lia|]. apply K'. reflexivity.
    + destruct (IH (p + 1)) as [b [E' B]]. exists b. split; [exact E'|]. rewrite B. split; intros [q [H C]]; exists q; (split; [|exact C]); [lia|].
      destruct (Z.eq_dec q p) as [->|N]; [apply K' in C; discriminate|lia].
Qed.
Lemma is_intersect_ok cur sel b : ordered (ranges sel) -> is_intersect cur sel = Ok b ->
  exists f t, first_from cur = Ok f /\ last_to cur = Ok t /\ (b = true <-> exists q, f <= q < t /\ covers (ranges sel) q).
Proof.
  unfold is_intersect. intros O H. destruct (last_to sel) as [st| | | | |]; try discriminate. cbn [bind] in H.
  destruct (first_from cur) as [f| | | | |]; try discriminate. cbn [bind] in H. destruct (last_to cur) as [t| | | | |]; try discriminate. cbn [bind] in H.
  destruct (st <=? f); [discriminate|]. exists f, t. split; [reflexivity|]. split; [reflexivity|]. destruct (any_covered_ok sel O (Z.to_nat (t - f)) f) as [b' [E K]].
  rewrite E in H. injection H as ->. rewrite K. split; intros [q [H C]]; exists q; (split; [lia|exact C]).
Qed.

(** *** adding ranges and uses *)
Lemma absorb_ok to : forall l last, to <= last -> ordered l -> (forall f t, In (f, t) l -> f <= to \/ last <= f) ->
  forall last' l', absorb to last l = (last', l') ->
    last <= last' /\ ordered l' /\ (forall f t, In (f, t) l' -> last' <= f) /\
    (forall p, covers l' p \/ to <= p < last' -> covers l p \/ to <= p < last) /\ (forall p, covers l p -> covers l' p \/ p < last').
Proof.
  induction l as [|[f t] l IH]; intros last HL O HI last' l' H; cbn [absorb] in H.
  - injection H as <- <-. split; [lia|]. split; [exact O|]. split; [intros f t []|]. split; [tauto|]. intros p C. contradiction (covers_nil _ C).
  - destruct (f <=? to) eqn:E.
    + assert (HA : forall f' t', In (f', t') l -> t <= f') by (intros f' t' K; apply (ordered_after _ _ _ O _ _ K)).
      set (nl := if last <? t then t else last) in H. assert (NL : nl = Z.max last t) by (unfold nl; destruct (last <? t) eqn:E2; lia). clearbody nl.
      destruct (IH nl ltac:(lia) (ordered_tail _ _ O) ltac:(intros f' t' K; specialize (HA f' t' K); destruct (HI f' t' (or_intror K)); [left; lia|right; lia]) last' l' H) as [A1 [A2 [A3 [A4 A5]]]].
      split; [lia|]. split; [exact A2|]. split; [exact A3|]. split.
      * intros p K. specialize (A4 p K). rewrite covers_cons. destruct A4 as [A4|A4]; [left; right; exact A4|]. destruct (Z_lt_ge_dec p last); [right; lia|]. left. left. lia.
      * intros p C. rewrite covers_cons in C. destruct C as [C|C]; [right; lia|apply A5; exact C].
    + injection H as <- <-. split; [lia|]. split; [exact O|]. split.
      * intros f' t' K. destruct (HI f' t' K) as [Q|Q]; [|exact Q]. destruct K as [K|K]; [injection K as <- <-; lia|]. destruct (ordered_after _ _ _ O _ _ K). destruct O as [O _]. lia.
      * split; tauto.
Qed.
Lemma ordered_cons f t l : f < t -> ordered l -> (forall f' t', In (f', t') l -> t <= f') -> ordered ((f, t) :: l).
Proof. intros H O HI. cbn [ordered]. split; [exact H|]. split; [|exact O]. destruct l as [|[f' t'] l]; [exact Logic.I|]. apply (HI f' t'). left. reflexivity. Qed.
Lemma add_range_ok l from to : ordered l -> from < to ->
  exists l', add_range l from to = Ok l' /\ ordered l' /\ (forall p, covers l p \/ from <= p < to -> covers l' p) /\
    ((forall f t m, l = (f, t) :: m -> from <= t) -> forall p, covers l' p -> covers l p \/ from <= p < to).
Proof.
  intros O H. unfold add_range. assert (E : to <? from = false) by lia. rewrite E. destruct l as [|[f t] l].
  { eexists. split; [reflexivity|]. split; [cbn; lia|]. split; intros p; [intros [C|C]; [contradiction (covers_nil _ C)|]; rewrite covers_cons; left; exact C|]. intros p0 C. rewrite covers_cons in C. tauto. }
  destruct (f <=? to) eqn:E1.
  - destruct (t <? to) eqn:E2.
    + destruct (absorb to to l) as [last l'] eqn:A. destruct (absorb_ok to l to ltac:(lia) (ordered_tail _ _ O) ltac:(intros; lia) _ _ A) as [A1 [A2 [A3 [A4 A5]]]].
      eexists. split; [reflexivity|]. cbv zeta. set (f0 := if from <? f then from else f). assert (Hf : f0 <= from /\ f0 <= f /\ f0 < to /\ (f0 = from \/ f0 = f)) by (unfold f0; destruct O as [O _]; destruct (from <? f) eqn:E3; lia). clearbody f0.
      split; [apply ordered_cons; [lia|exact A2|exact A3]|]. split.
      * intros p C. rewrite covers_cons in C. rewrite covers_cons. destruct C as [[C|C]|C]; [left; lia| |left; lia]. destruct (A5 p C) as [Q|Q]; [right; exact Q|]. pose proof (ordered_rest _ _ _ _ O C). destruct O as [O _]. left. lia.
      * intros K p C. specialize (K f t l eq_refl). rewrite covers_cons in C. rewrite covers_cons. destruct C as [C|C]; [|destruct (A4 p (or_introl C)); [left; right; assumption|right; lia]].
        destruct (Z_lt_ge_dec p to) as [L|L]; [|assert (C' : to <= p < last) by lia; destruct (A4 p (or_intror C')); [left; right; assumption|lia]]. destruct (Z_lt_ge_dec p t); [|right; lia]. destruct (Z_lt_ge_dec p from); [left; left; lia|right; lia].
    + eexists. split; [reflexivity|]. cbv zeta. set (f0 := if from <? f then from else f). assert (Hf : f0 <= from /\ f0 <= f /\ f0 < to /\ (f0 = from \/ f0 = f)) by (unfold f0; destruct O as [O _]; destruct (from <? f) eqn:E3; lia). clearbody f0.
      split; [apply ordered_cons; [lia|apply (ordered_tail _ _ O)|intros f' t' HI; apply (ordered_after _ _ _ O _ _ HI)]|]. split.
      * intros p C. rewrite covers_cons in C. rewrite covers_cons. destruct C as [[C|C]|C]; [left; lia|right; exact C|left; lia].
      * intros K p C. rewrite covers_cons in C. rewrite covers_cons. destruct C as [C|C]; [|left; right; exact C]. destruct (Z_lt_ge_dec p f); [right; lia|left; left; lia].
  - eexists. split; [reflexivity|]. split; [apply ordered_cons; [exact H|exact O|]|].
    + intros f' t' [K|HI]; [injection K as <- <-; lia|]. destruct (ordered_after _ _ _ O _ _ HI). destruct O as [O _]. lia.
    + split; intros p; [|intros p0]; rewrite (covers_cons from to); tauto.
Qed.

(** *** the next intersection *)
Lemma intersect_fuel cf0 cto : forall fuel cr sr cover, (length cr + length sr <= fuel)%nat -> intersect fuel cf0 cto cr sr cover <> NoFuel.
Proof.
  induction fuel as [|fuel IH]; intros [|[cf ct] cr] [|[sf st] sr] cover L; cbn [length] in L; try lia; try (cbn [intersect]; destruct (cover =? -1); discriminate).
  cbn [intersect]. cbv zeta. set (cv := if (cover =? -1) && (cf0 <? sf) then sf else cover). clearbody cv.
  destruct ((cf <? st) && (sf <? ct)); [discriminate|]. destruct (cto <? sf); [discriminate|]. destruct ((sf =? cto) && (sf + 1 <? st)); [discriminate|].
  assert (F : (if ct <=? sf then intersect fuel cf0 cto cr ((sf, st) :: sr) cv else intersect fuel cf0 cto ((cf, ct) :: cr) sr cv) <> NoFuel) by (destruct (ct <=? sf); apply IH; cbn [length]; lia).
  destruct (sf =? cto); [|exact F]. destruct sr as [|[nf nt] sr]; [exact F|]. destruct (cto <? nf); discriminate.
Qed.
Lemma intersect_ok cf0 cto : forall fuel cr sr cover r ck, ordered cr -> ordered sr -> (forall p, covers cr p -> p < cto) ->
  intersect fuel cf0 cto cr sr cover = Ok (r, ck) -> forall p, p < r -> covers cr p -> covers sr p -> False.
Proof.
  induction fuel as [|fuel IH]; intros [|[cf ct] cr] [|[sf st] sr] cover r ck Oc Os B H p Hp C1 C2; try (contradiction (covers_nil _ C1)); try (contradiction (covers_nil _ C2)); [discriminate|].
  cbn [intersect] in H. cbv zeta in H. set (cv := if (cover =? -1) && (cf0 <? sf) then sf else cover) in H. clearbody cv.
  pose proof (ordered_first _ _ _ _ Oc C1) as L1. pose proof (ordered_first _ _ _ _ Os C2) as L2.
  destruct ((cf <? st) && (sf <? ct)) eqn:E1; [injection H as <- _; lia|]. destruct (cto <? sf) eqn:E2; [injection H as <- _; lia|].
  pose proof (B p C1) as L3.
  destruct ((sf =? cto) && (sf + 1 <? st)) eqn:E3; [injection H as <- _; lia|].
  assert (F : (if ct <=? sf then intersect fuel cf0 cto cr ((sf, st) :: sr) cv else intersect fuel cf0 cto ((cf, ct) :: cr) sr cv) = Ok (r, ck) -> False).
  { intros F. destruct (ct <=? sf) eqn:E4.
    - apply (IH cr ((sf, st) :: sr) cv r ck (ordered_tail _ _ Oc) Os ltac:(intros q Q; apply B; rewrite covers_cons; right; exact Q) F p Hp); [|exact C2]. rewrite covers_cons in C1. destruct C1 as [C1|C1]; [lia|exact C1].
    - apply (IH ((cf, ct) :: cr) sr cv r ck Oc (ordered_tail _ _ Os) B F p Hp C1). rewrite covers_cons in C2. destruct C2 as [C2|C2]; [|exact C2]. destruct Oc as [Oc _]. destruct Os as [Os _]. lia. }
  destruct (sf =? cto) eqn:E4; [|apply F; exact H]. lia.
Qed.
Lemma blocks_mid l1 : forall p b l2, blocks_ok (l1 ++ p :: b :: l2) -> last_id p < first_id b /\ block_ok p.
Proof.
  induction l1 as [|x l1 IH]; intros p b l2 H; [cbn in H; tauto|]. cbn [app blocks_ok] in H. apply (IH p b l2). apply H.
Qed.
Lemma rev_mid rb l1 p b l2 : rev rb = l1 ++ p :: b :: l2 -> blocks_ok (rev rb) -> last_id p < first_id b /\ block_ok p.
Proof. intros ->. apply blocks_mid. Qed.
Lemma before_branch_lt p b r : block_ok p -> last_id p < first_id b -> before_branch p = Ok r -> 0 <= r < first_id b.
Proof.
  unfold before_branch, block_ok. intros [H0 [H1 H2]] HL H. destruct (nsucc p) as [|[|[|n]]]; try discriminate; injection H as <-; [specialize (H1 eq_refl)|specialize (H2 eq_refl)]; lia.
Qed.
Lemma blocks_app_l l1 : forall l2, blocks_ok (l1 ++ l2) -> blocks_ok l1.
Proof.
  induction l1 as [|b l1 IH]; intros l2 H; [exact Logic.I|]. cbn [app blocks_ok] in *. destruct H as [H1 [H2 H3]]. split; [exact H1|]. split; [|apply (IH l2 H3)]. destruct l1; [exact Logic.I|exact H2].
Qed.
Lemma off_label_ok : forall rb pos r, blocks_ok (rev rb) -> 0 <= pos -> off_label rb pos = Ok r -> 0 <= r <= pos.
Proof.
  induction rb as [|b rb IH]; intros pos r B Hp H; cbn [off_label] in H; [injection H as <-; lia|].
  destruct (first_id b <? pos); [injection H as <-; lia|]. destruct (first_id b =? pos) eqn:E.
  - destruct rb as [|p rb]; [discriminate|]. cbn [rev] in B. rewrite <- app_assoc in B. cbn [app] in B. destruct (blocks_mid _ _ _ _ B) as [K1 K2]. pose proof (before_branch_lt p b r K2 K1 H). lia.
  - apply (IH pos r); [|exact Hp|exact H]. cbn [rev] in B. apply (blocks_app_l _ _ B).
Qed.
Lemma next_intersect_ok blocks cur sel r : blocks_ok blocks -> ordered (ranges cur) -> ordered (ranges sel) -> (forall f, first_from cur = Ok f -> 0 <= f) -> next_intersect blocks cur sel = Ok r ->
  0 <= r /\ forall p, p < r -> covers (ranges cur) p -> covers (ranges sel) p -> False.
Proof.
  unfold next_intersect. intros B Oc Os P H. destruct (last_to sel) as [st| | | | |] eqn:E1; try discriminate. cbn [bind] in H.
  destruct (first_from cur) as [f| | | | |] eqn:E2; try discriminate. cbn [bind] in H. destruct (last_to cur) as [t| | | | |] eqn:E3; try discriminate. cbn [bind] in H.
  destruct (st <=? f); [discriminate|].
  destruct (intersect (length (ranges cur) + length (ranges sel)) f t (ranges cur) (ranges sel) (-1)) as [[r0 ck]| | | | |] eqn:E4; try discriminate. cbn [bind] in H.
  pose proof (intersect_ok f t _ _ _ _ _ _ Oc Os (fun p => last_bound cur t p Oc E3) E4) as K.
  destruct ck.
  - destruct (r0 <=? 0) eqn:E5; [discriminate|]. destruct (off_label_ok (rev blocks) r0 r ltac:(rewrite rev_involutive; exact B) ltac:(lia) H) as [L1 L2]. split; [exact L1|]. intros p Hp. apply K. lia.
  - injection H as <-. split; [|exact K]. specialize (P f eq_refl).
    assert (Q : f < t). { unfold first_from in E2. destruct (ranges cur) as [|[f1 t1] l] eqn:E; [discriminate|]. injection E2 as ->. apply (last_bound cur t f); [rewrite E; exact Oc|exact E3|]. rewrite E, covers_cons. left. destruct Oc as [Oc _]. lia. }
    clear -E4 P Q. assert (G : forall fuel cr sr cover r, intersect fuel f t cr sr cover = Ok (r, false) -> t < r).
    { induction fuel as [|fuel IH]; intros [|[cf ct] cr] [|[sf s2] sr] cover r H; try discriminate; try (cbn [intersect] in H; destruct (cover =? -1); discriminate).
      cbn [intersect] in H. cbv zeta in H. set (cv := if (cover =? -1) && (f <? sf) then sf else cover) in H. clearbody cv.
      destruct ((cf <? s2) && (sf <? ct)); [discriminate|]. destruct (t <? sf); [discriminate|]. destruct ((sf =? t) && (sf + 1 <? s2)); [discriminate|].
      assert (F : (if ct <=? sf then intersect fuel f t cr ((sf, s2) :: sr) cv else intersect fuel f t ((cf, ct) :: cr) sr cv) = Ok (r, false) -> t < r) by (intros F; destruct (ct <=? sf); apply IH in F; exact F).
      destruct (sf =? t); [|apply F; exact H]. destruct sr as [|[nf nt] sr]; [apply F; exact H|]. destruct (t <? nf) eqn:E; [|discriminate]. injection H as <-. lia. }
    apply G in E4. lia.
Qed.

(** *** where an interval is split *)
Lemma near_label_ok : forall rb before r, blocks_ok (rev rb) -> near_label rb before = Some (Ok r) -> r < before.
Proof.
  induction rb as [|b rb IH]; intros before r B H; cbn [near_label] in H; [discriminate|].
  destruct ((first_id b =? before) || (first_id b =? before - 1)) eqn:E.
  - destruct rb as [|p rb]; [discriminate|]. cbn [rev] in B. rewrite <- app_assoc in B. cbn [app] in B. destruct (blocks_mid _ _ _ _ B) as [K1 K2]. pose proof (before_branch_lt p b r K2 K1 ltac:(congruence)). lia.
  - apply (IH before r); [|exact H]. cbn [rev] in B. apply (blocks_app_l _ _ B).
Qed.
Lemma out_of_loop_ok use before id : id < before -> forall rb r, out_of_loop rb use before id = Ok r -> r < before.
Proof.
  intros Hi. induction rb as [|b rb IH]; intros r H; cbn [out_of_loop] in H; [injection H as <-; exact Hi|].
  destruct (0 <? depth b)%nat; [apply IH; exact H|]. destruct (last_id b <=? use); [apply IH; exact H|]. destruct (before <=? first_id b); [apply IH; exact H|].
  destruct (before_branch b) as [p| | | | |]; try discriminate. cbn [bind] in H. destruct ((use <? p) && (p <? before)) eqn:E; [injection H as <-; lia|apply IH; exact H].
Qed.
Lemma in_block_ok rm use before id : id < before -> forall rb r, in_block rb rm use before id = Ok r -> r < before.
Proof.
  intros Hi. induction rb as [|b rb IH]; intros r H; [cbn [in_block] in H; injection H as <-; exact Hi|].
  cbn [in_block] in H. destruct ((first_id b <=? id) && (id <=? last_id b)); [|apply IH; exact H].
  destruct (depth b =? 0)%nat; [injection H as <-; exact Hi|]. destruct (has_call b && negb rm); [injection H as <-; exact Hi|]. apply (out_of_loop_ok use before id Hi _ _ H).
Qed.
Lemma optimal_split_ok blocks i before r : blocks_ok blocks -> optimal_split blocks i before = Ok r -> r < before.
Proof.
  unfold optimal_split. intros B H. destruct (near_label (rev blocks) before) as [o|] eqn:E; [subst o; apply (near_label_ok _ _ _ ltac:(rewrite rev_involutive; exact B) E)|].
  destruct (first_use i) as [[u k]|]; [|discriminate]. destruct (before <=? u); [injection H as <-; lia|]. eapply in_block_ok; [|exact H]; lia.
Qed.

(** *** splitting *)
Lemma left_covers pos l p : covers (flat_map (left_part pos) l) p <-> covers l p /\ p < pos.
Proof.
  induction l as [|[f t] l IH]; cbn [flat_map]; [split; [intros C; contradiction (covers_nil _ C)|intros [C _]; exact C]|].
  rewrite covers_app, covers_cons, IH. unfold left_part. cbn [fst snd].
  destruct (t <=? pos) eqn:E1; [rewrite covers_cons|destruct (pos <=? f) eqn:E2; [|rewrite covers_cons]].
  - split; [intros [[C|C]|C]; [split; [left; lia|lia]|contradiction (covers_nil _ C)|tauto]|intros [[C|C] L]; [left; left; lia|tauto]].
  - split; [intros [C|C]; [contradiction (covers_nil _ C)|tauto]|intros [[C|C] L]; [lia|tauto]].
  - split; [intros [[C|C]|C]; [split; [left; lia|lia]|contradiction (covers_nil _ C)|tauto]|intros [[C|C] L]; [left; left; lia|tauto]].
Qed.
Lemma right_covers pos l p : covers (flat_map (right_part pos) l) p <-> covers l p /\ pos <= p.
Proof.
  induction l as [|[f t] l IH]; cbn [flat_map]; [split; [intros C; contradiction (covers_nil _ C)|intros [C _]; exact C]|].
  rewrite covers_app, covers_cons, IH. unfold right_part. cbn [fst snd].
  destruct (t <=? pos) eqn:E1; [|destruct (pos <=? f) eqn:E2; rewrite covers_cons].
  - split; [intros [C|C]; [contradiction (covers_nil _ C)|tauto]|intros [[C|C] L]; [lia|tauto]].
  - split; [intros [[C|C]|C]; [split; [left; lia|lia]|contradiction (covers_nil _ C)|tauto]|intros [[C|C] L]; [left; left; lia|tauto]].
  - split; [intros [[C|C]|C]; [split; [left; lia|lia]|contradiction (covers_nil _ C)|tauto]|intros [[C|C] L]; [left; left; lia|tauto]].
Qed.
Lemma left_ordered pos : forall l, ordered l -> ordered (flat_map (left_part pos) l) /\ forall f t, In (f, t) (flat_map (left_part pos) l) -> exists t', In (f, t') l /\ t <= t' /\ t <= pos.
Proof.
  induction l as [|[f t] l IH]; intros O; cbn [flat_map]; [split; [exact Logic.I|intros ? ? []]|].
  destruct (IH (ordered_tail _ _ O)) as [I1 I2]. unfold left_part at 1 3. cbn [fst snd].
  assert (T : forall f' t', In (f', t') (flat_map (left_part pos) l) -> t <= f') by (intros f' t' K; destruct (I2 f' t' K) as [t2 [K2 _]]; apply (ordered_after _ _ _ O _ _ K2)).
  assert (R : forall f' t', In (f', t') (flat_map (left_part pos) l) -> exists t2, In (f', t2) ((f, t) :: l) /\ t' <= t2 /\ t' <= pos) by (intros f' t' K; destruct (I2 f' t' K) as [t2 [K2 K3]]; exists t2; split; [right; exact K2|exact K3]).
  destruct O as [O _]. destruct (t <=? pos) eqn:E1; [|destruct (pos <=? f) eqn:E2]; cbn [app].
  - split; [apply ordered_cons; [exact O|exact I1|exact T]|]. intros f' t' [K|K]; [injection K as <- <-; exists t; split; [left; reflexivity|lia]|apply R; exact K].
  - split; [exact I1|exact R].
  - split; [apply ordered_cons; [lia|exact I1|intros f' t' K; specialize (T f' t' K); lia]|]. intros f' t' [K|K]; [injection K as <- <-; exists t; split; [left; reflexivity|lia]|apply R; exact K].
Qed.
Lemma right_ordered pos : forall l, ordered l -> ordered (flat_map (right_part pos) l) /\ forall f t, In (f, t) (flat_map (right_part pos) l) -> exists f', In (f', t) l /\ f' <= f /\ pos <= f.
Proof.
  induction l as [|[f t] l IH]; intros O; cbn [flat_map]; [split; [exact Logic.I|intros ? ? []]|].
  destruct (IH (ordered_tail _ _ O)) as [I1 I2]. unfold right_part at 1 3. cbn [fst snd].
  assert (T : forall f' t', In (f', t') (flat_map (right_part pos) l) -> t <= f') by (intros f' t' K; destruct (I2 f' t' K) as [t2 [K2 K3]]; pose proof (ordered_after _ _ _ O _ _ K2); lia).
  assert (R : forall f' t', In (f', t') (flat_map (right_part pos) l) -> exists f2, In (f2, t') ((f, t) :: l) /\ f2 <= f' /\ pos <= f') by (intros f' t' K; destruct (I2 f' t' K) as [t2 [K2 K3]]; exists t2; split; [right; exact K2|exact K3]).
  destruct O as [O _]. destruct (t <=? pos) eqn:E1; [|destruct (pos <=? f) eqn:E2]; cbn [app].
  - split; [exact I1|exact R].
  - split; [apply ordered_cons; [exact O|exact I1|exact T]|]. intros f' t' [K|K]; [injection K as <- <-; exists f; split; [left; reflexivity|lia]|apply R; exact K].
  - split; [apply ordered_cons; [lia|exact I1|exact T]|]. intros f' t' [K|K]; [injection K as <- <-; exists f; split; [left; reflexivity|lia]|apply R; exact K].
Qed.
Lemma uses_cut pos : forall l, uses_left pos l ++ uses_right pos l = l.
Proof. induction l as [|u l IH]; [reflexivity|]. cbn [uses_left uses_right]. destruct (fst u <=? pos); [cbn [app]; rewrite IH; reflexivity|reflexivity]. Qed.
Lemma uses_left_le pos : forall l u, In u (uses_left pos l) -> fst u <= pos.
Proof. induction l as [|x l IH]; intros u H; [destruct H|]. cbn [uses_left] in H. destruct (fst x <=? pos) eqn:E; [|destruct H]. destruct H as [<-|H]; [lia|apply IH; exact H]. Qed.
