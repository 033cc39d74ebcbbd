(** A whole collection over the spans: flushing the caches, sweeping every list, and what is left. *)
From Coq Require Import ZArith List Bool Lia Permutation.
From Verif Require Import Base Base_lemmas Zlist Bitmap_model Bitmap_spec Bitmap_proof Gcbits_proof Fixalloc_spec Pages_model Pages_spec Pages_proof Pages_runs_proof Pages_heap_proof Sizeclass_model Sizeclass_proof.
From Verif Require Import Spans_model Spans_proof Spans_alloc_proof Spans_malloc_proof Spans_mark_proof Spans_sweep_proof.
Import ListNotations.
Open Scope Z_scope.

Lemma flat_map_ext_in {A B} (f h : A -> list B) l : (forall a, In a l -> f a = h a) -> flat_map f l = flat_map h l.
Proof. induction l as [|a l IH]; intros H; cbn [flat_map]; [reflexivity|]. rewrite (H a) by now left. rewrite IH; [reflexivity|]. intros x Hx. apply H. now right. Qed.

Lemma in_sw s t : In t (sw s) -> t = swept s.
Proof. unfold sw. destruct (_ =? _); [intros []|]. now intros [<-|[]]. Qed.
Lemma in_gl L l t : In t (flat_map (gl L) l) -> exists s, In s l /\ s_base t = s_base s /\ s_pages t = s_pages s.
Proof.
  intros I. apply in_flat_map in I. destruct I as (s & Is & It). exists s. split; [assumption|]. unfold gl in It. destruct (existsb _ _).
  - apply in_sw in It. subst t. split; reflexivity.
  - destruct It as [<-|[]]. split; reflexivity.
Qed.
Lemma in_spans_gl L l x : in_spans (flat_map (gl L) l) x -> in_spans l x.
Proof. intros (t & It & R). destruct (in_gl L l t It) as (s & Is & E1 & E2). exists s. rewrite <- E1, <- E2. auto. Qed.

Lemma effect_nil st : sweep_effect st st [].
Proof. split; [symmetry; apply flat_map_other; intros t _; reflexivity|]. repeat (split; [solve [auto]|]). auto. Qed.
Lemma effect_app st1 st2 st3 L1 L2 : (forall b, In b L1 -> ~ In b L2) -> sweep_effect st1 st2 L1 -> sweep_effect st2 st3 L2 -> sweep_effect st1 st3 (L1 ++ L2).
Proof.
  intros D (S1 & C1 & N1 & M1 & K1) (S2 & C2 & N2 & M2 & K2). split; [rewrite S2, S1; now apply gl_app|]. split; [congruence|]. split; [congruence|]. split.
  - intros x Hx. rewrite M2 by assumption. apply M1. rewrite S2 in Hx. eapply in_spans_gl, Hx.
  - intros Cl. destruct (K1 Cl) as [Cl2 A2]. destruct (K2 Cl2) as [Cl3 A3]. auto.
Qed.
Lemma inv_ext st D D' : (forall c, D' c = D c) -> inv st D -> inv st D'.
Proof. intros E [Co Ow]. split; [assumption|]. eapply own_ext; [|exact Ow]. intros [c|c|p c|c]; cbn [at_]; auto. Qed.

Lemma sweep_list_spec c r : 0 <= c < 136 -> forall l st D, inv st D -> D c = l ++ r ->
  sweep_list st c l = Abort \/
  exists st', sweep_list st c l = Ok st' /\ inv st' (set_hand D c r) /\ sweep_effect st st' l /\
    (forall c', c' <> c -> partial st' c' = partial st c' /\ full st' c' = full st c').
Proof.
  intros Hc. induction l as [|b l IH]; intros st D I E; cbn [sweep_list].
  - right. exists st. split; [reflexivity|]. split; [|split; [apply effect_nil|auto]]. eapply inv_ext; [|exact I]. intros c'. unfold set_hand. destruct (Z.eqb_spec c' c); [subst; now rewrite E|reflexivity].
  - destruct (sweep_span_spec st D c b (l ++ r) I Hc E) as [X|(st1 & X & I1 & F1 & O1)]; rewrite X; cbn [bind]; [now left|].
    destruct (IH st1 _ I1) as [Y|(st2 & Y & I2 & F2 & O2)]. { unfold set_hand. now rewrite Z.eqb_refl. } { now left. }
    right. exists st2. split; [assumption|]. split; [|split].
    + eapply inv_ext; [|exact I2]. intros c'. unfold set_hand. destruct (c' =? c); reflexivity.
    + apply (effect_app st st1 st2 [b] l); auto. intros b' [<-|[]]. destruct I as [_ Ow]. pose proof (own_nodup _ _ _ (LD c) Ow) as N. cbn [at_] in N. rewrite E in N. cbn [app] in N. inversion N as [|? ? Nb _]. rewrite in_app_iff in Nb. tauto.
    + intros c' Nc. destruct (O1 c' Nc), (O2 c' Nc). split; congruence.
Qed.

Lemma own_detach P F C D l n c : own (at_ P F C D) l n -> D c = [] ->
  own (at_ (set_list P c []) (set_list F c []) C (set_hand D c (F c ++ P c))) l n.
Proof.
  intros (f & H1 & H2 & H3) E. exists (fun b => if loc_dec (f b) (LF c) then LD c else if loc_dec (f b) (LP c) then LD c else f b). split; [|split].
  - intros [d|d|p d|d]; cbn [at_]; [unfold set_list|unfold set_list| |unfold set_hand].
    + destruct (d =? c); [constructor|apply (H1 (LP d))].
    + destruct (d =? c); [constructor|apply (H1 (LF d))].
    + apply (H1 (LC p d)).
    + destruct (d =? c); [|apply (H1 (LD d))]. apply NoDup_app2; [apply (H1 (LF c))|apply (H1 (LP c))|]. intros b I J. apply (H2 (LF c)) in I. apply (H2 (LP c)) in J. destruct I, J. congruence.
  - assert (ND : forall b, In b (map s_base l) -> f b <> LD c). { intros b Ib Eb. assert (X : In b (at_ P F C D (LD c))) by (apply H2; auto). cbn [at_] in X. rewrite E in X. destruct X. }
    intros x b. pose proof (H2 (LF c) b) as QF. pose proof (H2 (LP c) b) as QP. cbn [at_] in QF, QP. pose proof (ND b) as Nb.
    destruct x as [d|d|p d|d]; cbn [at_]; [pose proof (H2 (LP d) b) as Q|pose proof (H2 (LF d) b) as Q|pose proof (H2 (LC p d) b) as Q|pose proof (H2 (LD d) b) as Q]; cbn [at_] in Q; unfold set_list, set_hand;
      try (destruct (Z.eqb_spec d c); [subst d|]); try rewrite in_app_iff; destruct (loc_dec (f b) (LF c)) as [X|X]; try rewrite X in *; try (destruct (loc_dec (f b) (LP c)) as [Y|Y]; try rewrite Y in * );
      try rewrite Q; try rewrite QF, QP; cbn [In]; (split; [intros H; intuition congruence|intros [? ?]; intuition congruence]).
  - intros s Is. pose proof (H3 s Is) as K. destruct (loc_dec (f (s_base s)) (LF c)) as [X|X]; [rewrite X in K; exact K|]. destruct (loc_dec (f (s_base s)) (LP c)) as [Y|Y]; [rewrite Y in K; apply K|assumption].
Qed.

Fixpoint lists (st : state) (n : nat) (c : Z) : list Z :=
  match n with O => [] | S n => (full st c ++ partial st c) ++ lists st n (c + 1) end.
Lemma lists_in st n : forall c b, In b (lists st n c) <-> exists d, c <= d < c + Z.of_nat n /\ (In b (full st d) \/ In b (partial st d)).
Proof.
  induction n as [|n IH]; intros c b; cbn [lists].
  - split; [intros []|]. intros (d & H & _). lia.
  - rewrite !in_app_iff, IH. split.
    + intros [H|(d & H & K)]; [exists c|exists d]; (split; [lia|assumption]).
    + intros (d & H & K). destruct (Z.eq_dec d c); [subst; now left|right]. exists d. split; [lia|assumption].
Qed.
Lemma lists_ext st st' n : forall c, (forall d, c <= d -> partial st' d = partial st d /\ full st' d = full st d) -> lists st' n c = lists st n c.
Proof.
  induction n as [|n IH]; intros c H; cbn [lists]; [reflexivity|]. destruct (H c ltac:(lia)) as [-> ->]. rewrite IH; [reflexivity|]. intros d Hd. apply H. lia.
Qed.

Lemma sweep_classes_spec n : forall c st, 0 <= c -> c + Z.of_nat n <= 136 -> inv st nod ->
  sweep_classes st n c = Abort \/
  exists st', sweep_classes st n c = Ok st' /\ inv st' nod /\ sweep_effect st st' (lists st n c).
Proof.
  induction n as [|n IH]; intros c st Hc Hn I; cbn [sweep_classes lists].
  - right. exists st. split; [reflexivity|]. split; [assumption|apply effect_nil].
  - cbv zeta. set (st0 := upd_full (upd_partial st (set_list (partial st) c [])) (set_list (full st) c [])). destruct I as [Co Ow].
    assert (I0 : inv st0 (set_hand nod c (full st c ++ partial st c))). { split; [exact Co|]. apply (own_detach _ _ _ nod _ _ c Ow eq_refl). }
    destruct (sweep_list_spec c (partial st c) ltac:(lia) (full st c) st0 _ I0) as [X|(st1 & X & I1 & F1 & O1)]. { unfold set_hand. now rewrite Z.eqb_refl. } { rewrite X. now left. }
    rewrite X. cbn [bind].
    destruct (sweep_list_spec c [] ltac:(lia) (partial st c) st1 _ I1) as [Y|(st2 & Y & I2 & F2 & O2)]. { unfold set_hand. now rewrite Z.eqb_refl, app_nil_r. } { rewrite Y. now left. }
    rewrite Y. cbn [bind]. assert (I2' : inv st2 nod). { eapply inv_ext; [|exact I2]. intros d. unfold set_hand, nod. destruct (d =? c); reflexivity. }
    destruct (IH (c + 1) st2 ltac:(lia) ltac:(lia) I2') as [Z|(st3 & Z & I3 & F3)]; [now left|]. right. exists st3. split; [assumption|]. split; [assumption|].
    assert (LE : lists st2 n (c + 1) = lists st n (c + 1)).
    { apply lists_ext. intros d Hd. destruct (O2 d ltac:(lia)) as [-> ->]. destruct (O1 d ltac:(lia)) as [-> ->]. unfold st0. cbn [upd_full upd_partial full partial]. unfold set_list. destruct (Z.eqb_spec d c); [lia|split; reflexivity]. }
    rewrite LE in F3.
    assert (F0 : sweep_effect st st2 (full st c ++ partial st c)).
    { assert (F1' : sweep_effect st st1 (full st c)) by exact F1. apply (effect_app st st1 st2); auto.
      intros b Hf Hp. pose proof (own_unique _ _ _ (LF c) (LP c) b Ow Hf Hp). discriminate. }
    apply (effect_app st st2 st3); auto. intros b Hb Hl. apply lists_in in Hl. destruct Hl as (d & Hd & K).
    assert (A : exists y, In b (at_ (partial st) (full st) (cache st) nod y) /\ (y = LF c \/ y = LP c)). { apply in_app_iff in Hb. destruct Hb; [exists (LF c)|exists (LP c)]; auto. }
    destruct A as (y & Iy & Ey). destruct K as [K|K]; [pose proof (own_unique _ _ _ y (LF d) b Ow Iy K)|pose proof (own_unique _ _ _ y (LP d) b Ow Iy K)]; subst y; destruct Ey as [Ey|Ey]; try discriminate; injection Ey; lia.
Qed.

(** ** The caches *)
Definition same_heap (st st' : state) : Prop :=
  spans st' = spans st /\ mem st' = mem st /\ allocated st' = allocated st /\ nprocs st' = nprocs st.
Definition fewer (st st' : state) : Prop := forall p c, cache st p c = None -> cache st' p c = None.

Lemma flush_one_spec st p j : inv st nod -> exists st', flush_one st p j = Ok st' /\ inv st' nod /\ same_heap st st' /\ fewer st st' /\ cache st' p j = None.
Proof.
  intros [Co Ow]. unfold flush_one. destruct (cache st p j) as [b|] eqn:Ec.
  - destruct (own_span _ _ _ (LC p j) b Ow) as (s & Is & Es & K). { cbn [at_]. rewrite Ec. now left. } destruct K as [Kc _].
    set (st0 := upd_cache st (set_cache (cache st) p j None)). cbv zeta. rewrite <- Es. rewrite (get_ok st0 s (spans_nodup _ _ _ _ Co) Is). cbn [bind]. rewrite Kc.
    destruct (uncache_own st0 p j (s_base s) (cache st) nod s Ow Co) as (st' & E & E1 & E2 & E3 & E4 & E5 & E6 & E7 & O); auto. { congruence. }
    exists st'. split; [exact E|]. split; [split|split; [|split]].
    + unfold coreof. rewrite E1, E2, E3, E4. exact Co.
    + rewrite E2, E7, E5. exact O.
    + unfold same_heap. auto.
    + intros q c N. rewrite E5. unfold st0. cbn [upd_cache cache]. unfold set_cache. destruct (_ && _); auto.
    + rewrite E5. unfold st0. cbn [upd_cache cache]. unfold set_cache. now rewrite Nat.eqb_refl, Z.eqb_refl.
  - exists st. split; [reflexivity|]. split; [split; assumption|]. unfold same_heap, fewer. auto.
Qed.

Lemma same_heap_trans a b c : same_heap a b -> same_heap b c -> same_heap a c.
Proof. unfold same_heap. intuition congruence. Qed.

Lemma flush_classes_spec p n : forall j st, inv st nod -> exists st', flush_classes st p n j = Ok st' /\ inv st' nod /\ same_heap st st' /\ fewer st st' /\
  forall c, j <= c < j + Z.of_nat n -> cache st' p c = None.
Proof.
  induction n as [|n IH]; intros j st I; cbn [flush_classes].
  - exists st. split; [reflexivity|]. split; [assumption|]. split; [unfold same_heap; auto|]. split; [unfold fewer; auto|]. intros; lia.
  - destruct (flush_one_spec st p j I) as (st1 & E & I1 & S1 & F1 & C1). rewrite E. cbn [bind]. destruct (IH (j + 1) st1 I1) as (st2 & E2 & I2 & S2 & F2 & C2).
    exists st2. split; [assumption|]. split; [assumption|]. split; [eapply same_heap_trans; eauto|]. split; [unfold fewer in *; auto|]. intros c Hc. destruct (Z.eq_dec c j); [subst; auto|apply C2; lia].
Qed.

Lemma flush_procs_spec n : forall p st, inv st nod -> exists st', flush_procs st n p = Ok st' /\ inv st' nod /\ same_heap st st' /\ fewer st st' /\
  forall q c, (p <= q < p + n)%nat -> 0 <= c < 136 -> cache st' q c = None.
Proof.
  induction n as [|n IH]; intros p st I; cbn [flush_procs].
  - exists st. split; [reflexivity|]. split; [assumption|]. split; [unfold same_heap; auto|]. split; [unfold fewer; auto|]. intros; lia.
  - destruct (flush_classes_spec p 136 0 st I) as (st1 & E & I1 & S1 & F1 & C1). rewrite E. cbn [bind]. destruct (IH (S p) st1 I1) as (st2 & E2 & I2 & S2 & F2 & C2).
    exists st2. split; [assumption|]. split; [assumption|]. split; [eapply same_heap_trans; eauto|]. split; [unfold fewer in *; auto|]. intros q c Hq Hc. destruct (Nat.eq_dec q p); [subst; apply F2, C1; lia|apply C2; lia].
Qed.

(** ** The whole sweep: each span is replaced by what [sw] leaves of it *)
Theorem sweep_spec st : inv st nod ->
  sweep st = Abort \/
  exists st', sweep st = Ok st' /\ inv st' nod /\ spans st' = flat_map sw (spans st) /\ nprocs st' = nprocs st /\
    (forall x, in_spans (spans st') x -> mem st' x = mem st x) /\
    (clean (spans st) -> clean (spans st') /\ (counted st -> counted st')).
Proof.
  intros I. unfold sweep, flush_mcache. destruct (flush_procs_spec (nprocs st) 0 st I) as (st1 & E & I1 & (S1 & S2 & S3 & S4) & _ & C1). rewrite E. cbn [bind].
  destruct (sweep_classes_spec 136 0 st1 ltac:(lia) ltac:(lia) I1) as [X|(st2 & X & I2 & (F1 & F2 & F3 & F4 & F5))]; [now left|]. right. exists st2. split; [assumption|]. split; [assumption|]. split; [|split; [congruence|split]].
  - rewrite F1, S1. apply flat_map_ext_in. intros s Is. unfold gl. replace (existsb (Z.eqb (s_base s)) (lists st1 136 0)) with true; [reflexivity|]. symmetry. apply existsb_base, lists_in.
    rewrite <- S1 in Is. destruct I1 as [Co Ow]. destruct (own_covers _ _ _ s Ow Is) as (x & Ix). destruct (own_span _ _ _ x _ Ow Ix) as (s1 & Is1 & Es1 & K).
    assert (s1 = s) as -> by (eapply base_inj; eauto; eapply spans_nodup; exact Co). pose proof (c_wf _ _ _ _ Co) as W. rewrite Forall_forall in W. pose proof (w_class s (W s Is)) as Wc.
    destruct x as [d|d|p d|d]; cbn [at_ loc_ok] in Ix, K.
    + exists d. split; [lia|now right].
    + exists d. split; [lia|now left].
    + rewrite C1 in Ix by lia. destruct Ix.
    + destruct Ix.
  - intros x Hx. rewrite F4 by assumption. now rewrite S2.
  - intros Cl. unfold counted in *. rewrite <- S1, <- S3. apply F5. now rewrite S1.
Qed.
