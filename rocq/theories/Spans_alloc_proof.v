(** Allocation: the page table, new spans, ownership of spans by lists and caches. *)
From Coq Require Import Permutation.
From Verif Require Import Base Base_lemmas Zlist Bitmap_spec Bitmap_model Bitmap_proof Sizeclass_model Sizeclass_proof Pages_model Pages_spec Pages_heap_proof
  Spans_model Spans_spec Spans_proof.

Lemma page_no_page p i : page_no (BASE + p * PAGE + i * PAGE) = p + i.
Proof. unfold page_no, PAGE. replace (BASE + p * 8192 + i * 8192 - BASE) with ((p + i) * 8192) by ring. apply Z.div_mul. lia. Qed.

Definition in_range (a n q : Z) : bool := (a <=? q) && (q <? a + n).
Lemma in_range_true a n q : in_range a n q = true <-> a <= q < a + n.
Proof. unfold in_range. rewrite andb_true_iff, Z.leb_le, Z.ltb_lt. tauto. Qed.

Lemma set_spans_spec h p n : forall i t, 0 <= i -> (i + Z.of_nat n) * PAGE <= 2147483648 ->
  (forall q, p + i <= q < p + i + Z.of_nat n -> t q = None) ->
  set_spans h (BASE + p * PAGE) n i t = Abort \/
  exists t', set_spans h (BASE + p * PAGE) n i t = Ok t' /\
    forall q, t' q = if in_range (p + i) (Z.of_nat n) q then Some (BASE + p * PAGE) else t q.
Proof.
  induction n as [|n IH]; intros i t Hi Hb Ht; cbn [set_spans].
  - right. exists t. split; [reflexivity|]. intros q. destruct (in_range (p + i) (Z.of_nat 0) q) eqn:E; [apply in_range_true in E; lia|reflexivity].
  - unfold page_offset. destruct (Z.ltb_spec (i * PAGE) 2147483648) as [L|L]; [|unfold PAGE in *; lia]. cbn [bind].
    destruct (has_arena _ _); [|now left]. rewrite page_no_page, Ht by lia.
    destruct (IH (i + 1) (set_page t (p + i) (Some (BASE + p * PAGE)))) as [E|(t' & E & Et)]; try lia.
    + intros q Hq. unfold set_page. destruct (Z.eqb_spec q (p + i)); [lia|]. apply Ht. lia.
    + now left.
    + right. exists t'. split; [assumption|]. intros q. rewrite Et. unfold set_page.
      destruct (in_range (p + (i + 1)) (Z.of_nat n) q) eqn:E1; destruct (in_range (p + i) (Z.of_nat (S n)) q) eqn:E2; destruct (Z.eqb_spec q (p + i)); try reflexivity; exfalso;
        rewrite ?in_range_true in *; repeat match goal with H : in_range _ _ _ = false |- _ => apply not_true_iff_false in H; rewrite in_range_true in H end; lia.
Qed.

Lemma clear_spans_spec h p n : forall i t, 0 <= i -> (i + Z.of_nat n) * PAGE <= 2147483648 ->
  (forall q, p + i <= q < p + i + Z.of_nat n -> t q <> None) ->
  clear_spans h (BASE + p * PAGE) n i t = Abort \/
  exists t', clear_spans h (BASE + p * PAGE) n i t = Ok t' /\
    forall q, t' q = if in_range (p + i) (Z.of_nat n) q then None else t q.
Proof.
  induction n as [|n IH]; intros i t Hi Hb Ht; cbn [clear_spans].
  - right. exists t. split; [reflexivity|]. intros q. destruct (in_range (p + i) (Z.of_nat 0) q) eqn:E; [apply in_range_true in E; lia|reflexivity].
  - unfold page_offset. destruct (Z.ltb_spec (i * PAGE) 2147483648) as [L|L]; [|unfold PAGE in *; lia]. cbn [bind].
    destruct (has_arena _ _); [|now left]. rewrite page_no_page. destruct (t (p + i)) as [b|] eqn:Tb; [|exfalso; apply (Ht (p + i)); [lia|assumption]].
    destruct (IH (i + 1) (set_page t (p + i) None)) as [E|(t' & E & Et)]; try lia.
    + intros q Hq. unfold set_page. destruct (Z.eqb_spec q (p + i)); [lia|]. apply Ht. lia.
    + now left.
    + right. exists t'. split; [assumption|]. intros q. rewrite Et. unfold set_page.
      destruct (in_range (p + (i + 1)) (Z.of_nat n) q) eqn:E1; destruct (in_range (p + i) (Z.of_nat (S n)) q) eqn:E2; destruct (Z.eqb_spec q (p + i)); try reflexivity; exfalso;
        rewrite ?in_range_true in *; repeat match goal with H : in_range _ _ _ = false |- _ => apply not_true_iff_false in H; rewrite in_range_true in H end; lia.
Qed.

(** ** New spans *)
Lemma page_in_last q l r : apart (l ++ [r]) -> page_in q r = true -> forall x, In x l -> page_in q x = false.
Proof.
  intros A Hq x Ix. destruct (page_in q x) eqn:E; [|reflexivity]. exfalso. destruct (In_nth_error _ _ Ix) as (i & Ei).
  assert (Hi : (i < List.length l)%nat) by (apply nth_error_Some; congruence).
  apply (apart_nth (l ++ [r]) i (List.length l) x r A ltac:(lia)) with (p := q).
  - now rewrite nth_error_app1.
  - rewrite nth_error_app2 by lia. now rewrite Nat.sub_diag.
  - auto.
Qed.

Definition fresh_span (s : span) : Prop :=
  s_acount s = 0 /\ s_findex s = 0 /\ s_nz s = false /\ s_abits s = new_bits (s_ocount s) /\ s_mbits s = new_bits (s_ocount s).

Lemma alloc_span_spec grant st pages class : core (ph st) (spans st) (table st) (mem st) ->
  0 <= class < 136 -> pages * PAGE <= 2147483648 ->
  (exists z n, span_layout pages class = Ok (z, n) /\ 0 < z /\ 0 < n <= 1024 /\ n * z <= pages * PAGE /\ pages * PAGE <= 8 * words n * z /\
     (take_sizeclass class <> 0 -> z = size_of (take_sizeclass class))) ->
  mheap_alloc_span grant st pages class = Abort \/
  exists h t s, mheap_alloc_span grant st pages class =
      Ok (upd_mem (upd_heap st h (spans st ++ [s]) t) (zero (mem st) (s_base s) (s_pages s * PAGE)), s) /\
    core h (spans st ++ [s]) t (zero (mem st) (s_base s) (s_pages s * PAGE)) /\ fresh_span s /\ s_pages s = pages /\ s_class s = class /\
    span_layout pages class = Ok (s_osize s, s_ocount s).
Proof.
  intros C Hc H2 (z & n & EL & Hz & Hn & Hf & Hr & Hsz). unfold mheap_alloc_span.
  destruct (alloc_inv grant (ph st) _ pages (c_pages _ _ _ _ C)) as [E|(h & base & E & I & Hp)]; rewrite E; cbn [bind]; [now left|].
  unfold mspan_new. rewrite EL. cbn [bind]. set (s := mk_span base pages class z n 0 0 (new_bits n) (new_bits n) false).
  assert (RO : run_ok h (base, pages)). { pose proof (i_live _ _ I) as L. rewrite Forall_forall in L. apply L. apply in_app_iff. right. now left. }
  destruct RO as (p & Ep & P0 & _ & _). cbn [fst snd] in Ep.
  assert (PI : forall q, page_in q (base, pages) = in_range p pages q). { intros q. rewrite Ep. unfold page_in. cbn [fst snd]. rewrite page_of_page. reflexivity. }
  assert (TN : forall q, p <= q < p + pages -> table st q = None).
  { intros q Hq. destruct (table st q) as [b|] eqn:T; [|reflexivity]. exfalso. destruct (c_tab2 _ _ _ _ C q b T) as (x & Ix & _ & Px).
    rewrite (page_in_last q _ _ (i_apart _ _ I)) in Px; [discriminate| |now apply in_map]. rewrite PI. now apply in_range_true. }
  rewrite Ep. destruct (set_spans_spec h p (Z.to_nat pages) 0 (table st)) as [E'|(t & E' & Et)]; try lia.
  { intros q Hq. apply TN. lia. }
  { rewrite E'. now left. }
  rewrite E'. cbn [bind]. rewrite <- Ep in *. right. exists h, t, s. change (s_base s) with base. change (s_pages s) with pages.
  split; [reflexivity|]. split; [|repeat split; auto].
  assert (W : swf s).
  { constructor; unfold s; cbn; try assumption; try lia; try apply new_bits_bytes; try (apply new_bits_len; lia). now rewrite new_bits_pop. }
  rewrite Z2Nat.id in Et by lia. rewrite Z.add_0_r in Et.
  constructor.
  - rewrite map_app. exact I.
  - apply Forall_app. split; [apply C|]. now constructor.
  - intros x q Ix Hq. rewrite Et. apply in_app_iff in Ix. destruct Ix as [Ix|[<-|[]]].
    + destruct (in_range p pages q) eqn:R; [|now apply (c_tab1 _ _ _ _ C)]. exfalso. rewrite <- PI in R.
      rewrite (page_in_last q _ _ (i_apart _ _ I) R) in Hq; [discriminate|now apply in_map].
    + change (run s) with (base, pages) in Hq. rewrite PI in Hq. rewrite Hq. reflexivity.
  - intros q b. rewrite Et. destruct (in_range p pages q) eqn:R; intros Eb.
    + injection Eb as <-. exists s. split; [apply in_app_iff; right; now left|]. split; [reflexivity|]. change (run s) with (base, pages). now rewrite PI.
    + destruct (c_tab2 _ _ _ _ C q b Eb) as (x & Ix & Ex & Px). exists x. split; [apply in_app_iff; now left|auto].
  - intros x Ix Hnz i Hi Bi y Hy. unfold zero. destruct ((base <=? y) && (y <? base + pages * PAGE)) eqn:Z; [reflexivity|].
    apply in_app_iff in Ix. destruct Ix as [Ix|[<-|[]]]; [now apply (c_zero _ _ _ _ C x Ix Hnz i)|]. exfalso.
    destruct (slot_range s i W Hi) as [A B]. change (s_base s) with base in *. change (s_pages s) with pages in *. apply not_true_iff_false in Z. apply Z.
    apply andb_true_iff. split; [apply Z.leb_le|apply Z.ltb_lt]; lia.
Qed.

Lemma new_span_base h l s t m : core h (l ++ [s]) t m -> ~ In (s_base s) (map s_base l).
Proof.
  intros C H. pose proof (spans_nodup _ _ _ _ C) as N. rewrite map_app in N. cbn [map] in N.
  apply NoDup_remove_2 with (l := map s_base l) (l' := []) in N. rewrite app_nil_r in N. contradiction.
Qed.

(** ** Ownership: every span is in exactly one list, cache or hand *)
Inductive loc := LP (c : Z) | LF (c : Z) | LC (p : nat) (c : Z) | LD (c : Z).
Lemma loc_dec (a b : loc) : {a = b} + {a <> b}.
Proof. decide equality; try apply Z.eq_dec; apply Nat.eq_dec. Qed.

Definition opt_list (o : option Z) : list Z := match o with Some b => [b] | None => [] end.
Definition at_ (P F : Z -> list Z) (C : nat -> Z -> option Z) (D : Z -> list Z) (l : loc) : list Z :=
  match l with LP c => P c | LF c => F c | LC p c => opt_list (C p c) | LD c => D c end.
Definition loc_ok (n : nat) (l : loc) (s : span) : Prop :=
  match l with
  | LP c => s_class s = c /\ s_acount s < s_ocount s
  | LF c => s_class s = c
  | LC p c => s_class s = c /\ (p < n)%nat
  | LD c => s_class s = c
  end.
Definition own (A : loc -> list Z) (l : list span) (n : nat) : Prop :=
  exists f : Z -> loc, (forall x, NoDup (A x)) /\
    (forall x b, In b (A x) <-> In b (map s_base l) /\ f b = x) /\
    (forall s, In s l -> loc_ok n (f (s_base s)) s).

Lemma own_ext A A' l n : (forall x, A' x = A x) -> own A l n -> own A' l n.
Proof. intros E (f & H1 & H2 & H3). exists f. split; [intros x; rewrite E; auto|]. split; [intros x b; rewrite E; auto|auto]. Qed.

Lemma own_span A l n x b : own A l n -> In b (A x) -> exists s, In s l /\ s_base s = b /\ loc_ok n x s.
Proof.
  intros (f & H1 & H2 & H3) I. apply H2 in I. destruct I as [I E]. apply in_map_iff in I. destruct I as (s & Es & Is). exists s. split; [assumption|]. split; [assumption|].
  rewrite <- E, <- Es. now apply H3.
Qed.

Lemma own_covers A l n s : own A l n -> In s l -> exists x, In (s_base s) (A x).
Proof. intros (f & H1 & H2 & H3) I. exists (f (s_base s)). apply H2. split; [now apply in_map|reflexivity]. Qed.

Lemma own_unique A l n x y b : own A l n -> In b (A x) -> In b (A y) -> x = y.
Proof. intros (f & H1 & H2 & H3) I J. apply H2 in I. apply H2 in J. destruct I, J. congruence. Qed.

Lemma own_nodup A l n x : own A l n -> NoDup (A x).
Proof. intros (f & H1 & _). apply H1. Qed.

(** moving a span from the head of one place to the head of another *)
Lemma own_move A A' l n s x y tl : own A l n -> NoDup (map s_base l) -> In s l -> x <> y -> A x = s_base s :: tl -> A' x = tl -> A' y = s_base s :: A y ->
  (forall z, z <> x -> z <> y -> A' z = A z) -> loc_ok n y s -> own A' l n.
Proof.
  intros (f & H1 & H2 & H3) N Is Nxy Ax A'x A'y A'z K.
  assert (Fb : f (s_base s) = x). { apply (H2 x). rewrite Ax. now left. }
  pose proof (H1 x) as Nx. rewrite Ax in Nx. inversion Nx as [|? ? Nb Nt]; subst x0 l0.
  exists (fun b => if Z.eq_dec b (s_base s) then y else f b). split; [|split].
  - intros z. destruct (loc_dec z x) as [->|Zx]; [now rewrite A'x|]. destruct (loc_dec z y) as [->|Zy]; [|rewrite A'z; auto].
    rewrite A'y. constructor; [|apply H1]. intros I. apply H2 in I. destruct I. congruence.
  - intros z b. destruct (loc_dec z x) as [->|Zx].
    + rewrite A'x. specialize (H2 x b). rewrite Ax in H2. destruct (Z.eq_dec b (s_base s)) as [->|Nb'].
      * split; [intros I; contradiction|intros [_ E]; congruence].
      * rewrite <- H2. cbn [In]. split; [now right|]. intros [E|I]; [congruence|assumption].
    + destruct (loc_dec z y) as [->|Zy].
      * rewrite A'y. cbn [In]. destruct (Z.eq_dec b (s_base s)) as [->|Nb'].
        -- split; [intros _; split; [now apply in_map|reflexivity]|intros _; now left].
        -- rewrite <- H2. split; [intros [E|I]; [congruence|assumption]|now right].
      * rewrite A'z by assumption. rewrite H2. destruct (Z.eq_dec b (s_base s)) as [->|Nb']; [|tauto].
        split; intros [_ E]; congruence.
  - intros s1 I1. destruct (Z.eq_dec (s_base s1) (s_base s)) as [E|E]; [|auto]. assert (s1 = s) as -> by (now apply (base_inj l)). assumption.
Qed.

(** a new span *)
Lemma own_new A A' l n s y : own A l n -> ~ In (s_base s) (map s_base l) -> A' y = s_base s :: A y -> (forall z, z <> y -> A' z = A z) -> loc_ok n y s ->
  own A' (l ++ [s]) n.
Proof.
  intros (f & H1 & H2 & H3) Nb A'y A'z K. exists (fun b => if Z.eq_dec b (s_base s) then y else f b). split; [|split].
  - intros z. destruct (loc_dec z y) as [->|Zy]; [|rewrite A'z; auto]. rewrite A'y. constructor; [|apply H1]. intros I. apply H2 in I. tauto.
  - intros z b. rewrite map_app, in_app_iff. cbn [map In]. destruct (Z.eq_dec b (s_base s)) as [->|Nb'].
    + destruct (loc_dec z y) as [->|Zy].
      * rewrite A'y. split; [intros _; tauto|intros _; now left].
      * rewrite A'z by assumption. rewrite H2. split; [tauto|]. intros [_ E]. congruence.
    + destruct (loc_dec z y) as [->|Zy].
      * rewrite A'y. cbn [In]. rewrite H2. split; [intros [E|H]; [congruence|tauto]|]. intros [[H|[E|[]]] E']; [tauto|congruence].
      * rewrite A'z by assumption. rewrite H2. split; [tauto|]. intros [[H|[E|[]]] E']; [tauto|congruence].
  - intros s1 I1. apply in_app_iff in I1. destruct I1 as [I1|[<-|[]]].
    + destruct (Z.eq_dec (s_base s1) (s_base s)) as [E|E]; [|auto]. exfalso. apply Nb. rewrite <- E. now apply in_map.
    + destruct (Z.eq_dec (s_base s) (s_base s)); [assumption|congruence].
Qed.

(** dropping a span *)
Lemma own_drop A A' l n b x tl : own A l n -> A x = b :: tl -> A' x = tl -> (forall z, z <> x -> A' z = A z) ->
  own A' (filter (fun t => negb (s_base t =? b)) l) n.
Proof.
  intros (f & H1 & H2 & H3) Ax A'x A'z.
  assert (Fb : f b = x). { apply (H2 x). rewrite Ax. now left. }
  pose proof (H1 x) as Nx. rewrite Ax in Nx. inversion Nx as [|? ? Nb Nt]; subst x0 l0.
  assert (Q : forall c, In c (map s_base (filter (fun t => negb (s_base t =? b)) l)) <-> In c (map s_base l) /\ c <> b).
  { intros c. rewrite !in_map_iff. split.
    - intros (s & <- & I). apply filter_In in I. destruct I as [I E]. split; [eauto|]. intros E'. rewrite E', Z.eqb_refl in E. discriminate.
    - intros [(s & <- & I) N]. exists s. split; [reflexivity|]. apply filter_In. split; [assumption|]. destruct (Z.eqb_spec (s_base s) b); [contradiction|reflexivity]. }
  exists f. split; [|split].
  - intros z. destruct (loc_dec z x) as [->|Zx]; [now rewrite A'x|rewrite A'z; auto].
  - intros z c. rewrite Q. destruct (loc_dec z x) as [->|Zx].
    + rewrite A'x. specialize (H2 x c). rewrite Ax in H2. cbn [In] in H2. split.
      * intros I. split; [split; [tauto|intros ->; contradiction]|tauto].
      * intros [[I N] E]. destruct (proj2 H2 (conj I E)); [congruence|assumption].
    + rewrite A'z by assumption. rewrite H2. split; [|tauto]. intros [I E]. split; [split; [assumption|]|assumption]. intros ->. congruence.
  - intros s I. apply filter_In in I. apply H3. tauto.
Qed.

(** changing the contents of a span *)
Lemma own_subst A l n s s' : own A l n -> NoDup (map s_base l) -> In s l -> s_base s = s_base s' ->
  (forall x, In (s_base s) (A x) -> loc_ok n x s -> loc_ok n x s') -> own A (subst_span s' l) n.
Proof.
  intros (f & H1 & H2 & H3) N I E K. exists f. split; [assumption|]. split.
  - intros x b. rewrite subst_bases. apply H2.
  - intros t Ht. apply (subst_in s' l s N I E) in Ht. destruct Ht as [->|[Ht _]]; [|auto]. rewrite <- E. apply K; [|now apply H3].
    apply H2. split; [now apply in_map|reflexivity].
Qed.
