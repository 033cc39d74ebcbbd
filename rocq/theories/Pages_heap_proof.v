(** The invariant of every history of page allocations and frees. *)
From Verif Require Import Base Base_lemmas Zlist.
From Verif Require Import Bitmap_spec Bitmap_model Bitmap_proof Pages_model Pages_spec Pages_runs_proof Pages_chunk_proof Pages_proof Fixalloc_proof.
From Coq Require Import Permutation.

(** chunk c is inside a region of the list *)
Definition cov (l : list (Z * Z)) (c : Z) : bool :=
  existsb (fun r => (fst r <=? BASE + c * CHUNK_BYTES) && (BASE + c * CHUNK_BYTES <? fst r + snd r)) l.
Definition aligned (r : Z * Z) : Prop :=
  exists k n, fst r = BASE + k * CHUNK_BYTES /\ snd r = n * CHUNK_BYTES /\ 0 <= k /\ 0 < n /\ fst r + snd r <= USER_TOP.
Definition hint_ok (a : Z) : Prop := exists k, a = BASE + k * ARENA_SIZE /\ 0 <= k /\ a <= USER_TOP.
Definition run_ok (h : heap) (r : Z * Z) : Prop :=
  exists p, fst r = BASE + p * PAGE /\ 0 <= p /\ 0 < snd r /\ forall q, p <= q < p + snd r -> cov (grown h) (q / 512) = true.
Definition apart (l : list (Z * Z)) : Prop := ForallOrdPairs (fun r q => forall p, ~ (page_in p r = true /\ page_in p q = true)) l.

Record inv (h : heap) (live : list (Z * Z)) : Prop := mk_inv {
  i_chunks : chunks_wf h;
  i_sums : sums_exact h (fun q => cov (grown h) (q / 512) && negb (marked h q));
  i_marks : forall q, 0 <= q -> marked h q = in_live live q;
  i_grown : Forall aligned (grown h);
  i_resv : Forall aligned (reserved h);
  i_ok : forall c, cov (grown h) c = true -> chunk_ok h c = true;
  i_sub : forall c, cov (grown h) c = true -> cov (reserved h) c = true;
  i_arena : (cursor h = 0 /\ end_ h = 0) \/
    exists a b, cursor h = BASE + a * CHUNK_BYTES /\ end_ h = BASE + b * CHUNK_BYTES /\ 0 <= a <= b /\ end_ h <= USER_TOP /\
      forall c, a <= c < b -> cov (reserved h) c = true /\ cov (grown h) c = false;
  i_hints : Forall hint_ok (hints h) /\ hints h <> [];
  i_live : Forall (run_ok h) live;
  i_apart : apart live }.

Lemma cov_true l c : cov l c = true <-> exists r, In r l /\ fst r <= BASE + c * CHUNK_BYTES < fst r + snd r.
Proof.
  unfold cov. rewrite existsb_exists. split; intros (r & H1 & H2); exists r; (split; [assumption|]).
  - apply andb_true_iff in H2. destruct H2 as [A B]. apply Z.leb_le in A. apply Z.ltb_lt in B. lia.
  - apply andb_true_iff. split; [apply Z.leb_le|apply Z.ltb_lt]; lia.
Qed.

Lemma cov_cons base n k l c : base = BASE + k * CHUNK_BYTES -> cov ((base, n * CHUNK_BYTES) :: l) c = inr k n c || cov l c.
Proof.
  intros ->. unfold cov. cbn [existsb fst snd]. f_equal. unfold inr, CHUNK_BYTES.
  destruct (Z.leb_spec k c); destruct (Z.ltb_spec c (k + n)); cbn [andb];
    destruct (Z.leb_spec (BASE + k * 4194304) (BASE + c * 4194304)); destruct (Z.ltb_spec (BASE + c * 4194304) (BASE + k * 4194304 + n * 4194304)); cbn [andb]; try reflexivity; lia.
Qed.

Lemma cov_range l c : Forall aligned l -> cov l c = true -> 0 <= c < 33554432.
Proof.
  intros F H. apply cov_true in H. destruct H as (r & I & R). rewrite Forall_forall in F.
  destruct (F r I) as (k & n & E1 & E2 & K & N & T). unfold BASE, USER_TOP, CHUNK_BYTES in *. lia.
Qed.

(** the kernel never hands out a range that meets an earlier one *)
Lemma free_range_cov l k n c : Forall aligned l -> free_range l (BASE + k * CHUNK_BYTES) (n * CHUNK_BYTES) = true ->
  k <= c < k + n -> cov l c = false.
Proof.
  intros F H Hc. destruct (cov l c) eqn:E; [|reflexivity]. exfalso. apply cov_true in E. destruct E as (r & I & R).
  unfold free_range in H. rewrite forallb_forall in H. specialize (H r I). rewrite Forall_forall in F. destruct (F r I) as (k' & n' & E1 & E2 & _).
  apply orb_true_iff in H. unfold CHUNK_BYTES in *. destruct H as [H|H]; apply Z.leb_le in H; lia.
Qed.

Lemma align_pow2 x k : 0 <= k -> align_up x (2 ^ k) = 2 ^ k * ((x + 2 ^ k - 1) / 2 ^ k).
Proof.
  intros H. unfold align_up. replace (2 ^ k - 1) with (Z.ones k) by (rewrite Z.ones_equiv; lia).
  rewrite <- Z.ldiff_land, Z.ldiff_ones_r, Z.shiftl_mul_pow2, Z.shiftr_div_pow2 by lia. ring.
Qed.
Lemma align_chunk count : 0 < count -> exists n, align_up count CHUNK_BITS * PAGE = n * CHUNK_BYTES /\ 0 < n /\ count <= n * 512 < count + 512.
Proof.
  intros H. exists ((count + 512 - 1) / 512). unfold CHUNK_BITS, CHUNK_BYTES, PAGE. change 512 with (2 ^ 9) at 1.
  rewrite align_pow2 by lia. change (2 ^ 9) with 512. split; [ring|]. clear - H. zdiv.
Qed.
Lemma align_arena x : exists n, align_up x ARENA_SIZE = n * ARENA_SIZE /\ x <= n * ARENA_SIZE < x + ARENA_SIZE.
Proof.
  exists ((x + ARENA_SIZE - 1) / ARENA_SIZE). unfold ARENA_SIZE. change 67108864 with (2 ^ 26) at 1.
  rewrite align_pow2 by lia. change (2 ^ 26) with 67108864. split; [ring|]. zdiv.
Qed.

(** ** mheap_sys_alloc *)
Lemma try_hints_spec grant h size n : 0 < n -> size = n * ARENA_SIZE -> Forall aligned (reserved h) -> forall l, Forall hint_ok l ->
  try_hints grant h size l = Abort \/
  exists a l', try_hints grant h size l = Ok (BASE + a * CHUNK_BYTES, l') /\ 0 <= a /\ Forall hint_ok l' /\ l' <> [] /\
    BASE + a * CHUNK_BYTES + size <= USER_TOP /\ (forall c, a <= c < a + n * 16 -> cov (reserved h) c = false).
Proof.
  intros Hn Hs FR. induction l as [|x l IH]; intros F; cbn [try_hints]; [now left|].
  inversion F as [|? ? Hx Fl]; subst x0 l0. unfold reserve.
  destruct (grant x size); cbn [andb].
  1: destruct (Z.leb_spec (x + size) USER_TOP); cbn [andb].
  1: destruct (free_range (reserved h) x size) eqn:FRe.
  1: { right. destruct Hx as (k & Ex & K & _). exists (k * 16), (x + size :: l).
       assert (EA : BASE + k * 16 * CHUNK_BYTES = x) by (rewrite Ex; unfold ARENA_SIZE, CHUNK_BYTES; ring).
       rewrite EA. split; [reflexivity|]. split; [lia|]. split.
       { constructor; [|assumption]. exists (k + n). split; [rewrite Ex, Hs; ring|]. lia. }
       split; [discriminate|]. split; [assumption|]. intros c Hc. apply free_range_cov with (k := k * 16) (n := n * 16); [assumption| |assumption].
       rewrite EA. replace (n * 16 * CHUNK_BYTES) with size; [assumption|]. rewrite Hs. unfold ARENA_SIZE, CHUNK_BYTES. ring. }
  all: destruct (IH Fl) as [E|(a & l' & E & A & F' & N & T & Hc)]; rewrite E; cbn [bind]; [now left|];
    right; exists a, (x :: l'); (split; [reflexivity|]); (split; [assumption|]); (split; [now constructor|]); (split; [discriminate|]); split; assumption.
Qed.

(** ** grow_loop *)
Lemma bit_zeros i : bit (repeat 0 64) i = false.
Proof.
  unfold bit. destruct (nth_error _ _) as [x|] eqn:E; [|reflexivity]. apply nth_error_In, repeat_spec in E. subst x. apply Z.bits_0.
Qed.

Definition kept (h h' : heap) : Prop :=
  summ h' = summ h /\ hints h' = hints h /\ cursor h' = cursor h /\ end_ h' = end_ h /\ reserved h' = reserved h /\ grown h' = grown h.

Lemma grow_loop_spec n : forall index h, chunks_wf h -> 0 <= index -> index + Z.of_nat n <= 67108864 ->
  (forall q, 0 <= q -> present h (q / 512 / SPLIT) = false -> marked h q = false) ->
  exists h', grow_loop h n index = Ok h' /\ kept h h' /\ chunks_wf h' /\
    (forall l, present h l = true -> present h' l = true) /\
    (forall i, index <= i < index + Z.of_nat n -> chunk_ok h' i = true) /\
    (forall q, 0 <= q -> marked h' q = marked h q).
Proof.
  induction n as [|n IH]; intros index h W Hi Hn HM; cbn [grow_loop].
  - exists h. split; [reflexivity|]. split; [repeat split|]. split; [assumption|]. split; [auto|]. split; [intros; lia|auto].
  - assert (R : 0 <= index / SPLIT < SPLIT) by (unfold SPLIT; zdiv).
    destruct (Z.leb_spec 0 (index / SPLIT)); [|lia]. destruct (Z.ltb_spec (index / SPLIT) SPLIT); [|lia]. cbn [andb negb].
    set (h1 := if present h (index / SPLIT) then h else _).
    assert (K1 : kept h h1) by (subst h1; destruct (present h (index / SPLIT)); repeat split).
    assert (W1 : chunks_wf h1).
    { subst h1. destruct (present h (index / SPLIT)); [assumption|]. intros i. cbn [chunk]. destruct (i / SPLIT =? index / SPLIT); [|apply W].
      split; [reflexivity|]. unfold bytes. apply Forall_forall. intros x Hx. apply repeat_spec in Hx. subst x. unfold is_byte. lia. }
    assert (P1 : forall l, present h l = true -> present h1 l = true).
    { intros l Hl. subst h1. destruct (present h (index / SPLIT)); [assumption|]. cbn [present]. now destruct (l =? index / SPLIT). }
    assert (P2 : present h1 (index / SPLIT) = true).
    { subst h1. destruct (present h (index / SPLIT)) eqn:E; [assumption|]. cbn [present]. now rewrite Z.eqb_refl. }
    assert (M1 : forall q, 0 <= q -> marked h1 q = marked h q).
    { intros q Hq. subst h1. destruct (present h (index / SPLIT)) eqn:E; [reflexivity|]. unfold marked at 1. cbn [chunk].
      destruct (Z.eqb_spec (q / 512 / SPLIT) (index / SPLIT)) as [Eq|]; [|reflexivity].
      rewrite bit_zeros. symmetry. apply HM; [assumption|]. now rewrite Eq. }
    destruct (IH (index + 1) h1 W1 ltac:(lia) ltac:(lia)) as (h' & E & K & W' & P' & O' & M').
    { intros q Hq Hp. rewrite M1 by assumption. apply HM; [assumption|]. destruct (present h (q / 512 / SPLIT)) eqn:E; [|reflexivity].
      apply P1 in E. congruence. }
    exists h'. split; [exact E|]. split.
    { unfold kept in *. intuition congruence. }
    split; [assumption|]. split; [auto|]. split; [|intros q Hq; rewrite M' by assumption; auto].
    intros i Hx. destruct (Z.eq_dec i index) as [->|N]; [|apply O'; lia].
    unfold chunk_ok. rewrite (P' _ P2). destruct (Z.leb_spec 0 index); [|lia]. destruct (Z.ltb_spec (index / SPLIT) SPLIT); [reflexivity|lia].
Qed.

Lemma unmarked_absent h live : inv h live -> forall q, 0 <= q -> present h (q / 512 / SPLIT) = false -> marked h q = false.
Proof.
  intros I q Hq Hp. rewrite (i_marks h live I q Hq). destruct (in_live live q) eqn:E; [|reflexivity]. exfalso.
  unfold in_live in E. apply existsb_exists in E. destruct E as (r & Ir & Pr). pose proof (i_live h live I) as L.
  rewrite Forall_forall in L. destruct (L r Ir) as (p & E1 & P0 & N & C). unfold page_in in Pr. rewrite E1 in Pr.
  apply andb_true_iff in Pr. destruct Pr as [A B]. apply Z.leb_le in A. apply Z.ltb_lt in B.
  assert (EP : page_of (BASE + p * PAGE) = p).
  { unfold page_of, PAGE. replace (BASE + p * 8192 - BASE) with (p * 8192) by ring. apply Z.div_mul. lia. }
  rewrite EP in *. specialize (C q ltac:(lia)). apply (i_ok h live I) in C. unfold chunk_ok in C.
  apply andb_true_iff in C. destruct C as [_ C]. congruence.
Qed.

Lemma page_of_page p : page_of (BASE + p * PAGE) = p.
Proof. unfold page_of, PAGE. replace (BASE + p * 8192 - BASE) with (p * 8192) by ring. apply Z.div_mul. lia. Qed.

(** ** page_alloc_grow on a fresh chunk range *)
Lemma page_alloc_grow_spec h a n : chunks_wf h ->
  sums_exact h (fun q => cov (grown h) (q / 512) && negb (marked h q)) ->
  (forall q, 0 <= q -> present h (q / 512 / SPLIT) = false -> marked h q = false) ->
  (forall c, cov (grown h) c = true -> chunk_ok h c = true) ->
  0 <= a -> 0 < n -> BASE + a * CHUNK_BYTES + n * CHUNK_BYTES <= USER_TOP ->
  exists h', page_alloc_grow h (BASE + a * CHUNK_BYTES) (n * CHUNK_BYTES) = (if 0 <? s_max (summ h' 0 0) then Ok h' else Abort) /\
    chunks_wf h' /\ grown h' = (BASE + a * CHUNK_BYTES, n * CHUNK_BYTES) :: grown h /\
    hints h' = hints h /\ cursor h' = cursor h /\ end_ h' = end_ h /\ reserved h' = reserved h /\
    (forall q, 0 <= q -> marked h' q = marked h q) /\
    (forall c, cov (grown h') c = true -> chunk_ok h' c = true) /\
    sums_exact h' (fun q => cov (grown h') (q / 512) && negb (marked h' q)).
Proof.
  intros W SE UA OK Ha Hn HT. unfold page_alloc_grow.
  assert (C1 : chunk_index (BASE + a * CHUNK_BYTES) = a).
  { unfold chunk_index, CHUNK_BYTES. replace (BASE + a * 4194304 - BASE) with (a * 4194304) by ring. apply Z.div_mul. lia. }
  assert (C2 : chunk_index (BASE + a * CHUNK_BYTES + n * CHUNK_BYTES - 1) = a + n - 1).
  { unfold chunk_index, CHUNK_BYTES. replace (BASE + a * 4194304 + n * 4194304 - 1 - BASE) with ((a + n) * 4194304 - 1) by ring. clear. zdiv. }
  rewrite C1, C2. unfold iters. replace (a + n - 1 - a + 1) with n by ring.
  assert (HB : a + n < 33554432) by (unfold BASE, CHUNK_BYTES, USER_TOP in HT; lia).
  destruct (grow_loop_spec (Z.to_nat n) a h W Ha) as (h1 & E1 & (K1 & K2 & K3 & K4 & K5 & K6) & W1 & P1 & O1 & M1); [lia|exact UA|].
  rewrite E1. cbn [bind]. rewrite Z2Nat.id in O1 by lia.
  set (f := fun q => cov (grown h) (q / 512) && negb (marked h q)).
  set (f' := fun q => cov ((BASE + a * CHUNK_BYTES, n * CHUNK_BYTES) :: grown h) (q / 512) && negb (marked h1 q)).
  destruct (page_summary_update_spec h1 f (fun q => if q <? 0 then f q else f' q) (BASE + a * CHUNK_BYTES) (n * CHUNK_BYTES) a (a + n - 1)) as (sm & E2 & SE2).
  - exact W1.
  - intros L i HL Hi. rewrite K1. now apply SE.
  - exact C1.
  - exact C2.
  - lia.
  - lia.
  - intros q Hq. destruct (Z.ltb_spec q 0); [reflexivity|]. unfold f', f. rewrite cov_cons with (k := a) by reflexivity. rewrite M1 by assumption.
    unfold inr. destruct (Z.leb_spec a (q / 512)); [|reflexivity]. destruct (Z.ltb_spec (q / 512) (a + n)); [|reflexivity]. exfalso. clear - Hq H0 H1. zdiv.
  - intros i Hi. specialize (O1 i ltac:(lia)). split.
    + unfold chunk_ok in O1. apply andb_true_iff in O1. apply O1.
    + intros j Hj. destruct (Z.ltb_spec (i * 512 + j) 0); [lia|]. unfold f', marked.
      replace ((i * 512 + j) / 512) with i by (clear - Hj; zdiv). replace ((i * 512 + j) mod 512) with j by (clear - Hj; zdiv).
      rewrite cov_cons with (k := a) by reflexivity. unfold inr. destruct (Z.leb_spec a i); [|lia]. destruct (Z.ltb_spec i (a + n)); [|lia]. reflexivity.
  - rewrite E2. cbn [bind]. unfold rd_sum at 1. cbn [andb]. change (sum_count 0) with 8192. cbn [Z.leb Z.ltb Z.compare andb].
    cbv beta iota. cbn [bind].
    exists (mk_heap (present h1) (chunk h1) sm (hints h1) (cursor h1) (end_ h1) (reserved h1) ((BASE + a * CHUNK_BYTES, n * CHUNK_BYTES) :: grown h1)).
    split; [reflexivity|].
    cbn [summ present chunk hints cursor end_ reserved grown set_summ]. rewrite K6.
    split; [exact W1|]. split; [reflexivity|]. split; [exact K2|]. split; [exact K3|]. split; [exact K4|]. split; [exact K5|].
    split; [exact M1|]. split.
    + intros c Hc. rewrite cov_cons with (k := a) in Hc by reflexivity. apply orb_true_iff in Hc. destruct Hc as [Hc|Hc].
      * unfold inr in Hc. apply andb_true_iff in Hc. destruct Hc as [A B]. apply Z.leb_le in A. apply Z.ltb_lt in B. exact (O1 c ltac:(lia)).
      * apply OK in Hc. unfold chunk_ok in *. cbn [present]. apply andb_true_iff in Hc. destruct Hc as [A B]. rewrite A. cbn [andb]. now apply P1.
    + intros L i HL Hi. eapply exact_ext; [|apply (SE2 L i HL Hi)]. intros q Hq. cbn beta.
      assert (0 <= i * page_count L) by (pose proof (page_count_range f L); apply Z.mul_nonneg_nonneg; lia).
      destruct (Z.ltb_spec q 0); [lia|reflexivity].
Qed.

(** ** mheap_grow *)
Definition region_pick (grant : Z -> Z -> bool) (h : heap) (size : Z) : res (heap * Z * Z) :=
  if end_ h - cursor h <? size then
    ' (h1, v, alloc_size) <- mheap_sys_alloc grant h size ;;
    if v =? 0 then Abort
    else if v =? end_ h then Ok (h1, cursor h, end_ h + alloc_size)
    else Ok (h1, v, v + alloc_size)
  else Ok (h, cursor h, end_ h).

Lemma pick_spec grant h live n : inv h live -> 0 < n ->
  region_pick grant h (n * CHUNK_BYTES) = Abort \/
  exists h1 a b, region_pick grant h (n * CHUNK_BYTES) = Ok (h1, BASE + a * CHUNK_BYTES, BASE + b * CHUNK_BYTES) /\
    present h1 = present h /\ chunk h1 = chunk h /\ summ h1 = summ h /\ grown h1 = grown h /\ cursor h1 = cursor h /\ end_ h1 = end_ h /\
    Forall aligned (reserved h1) /\ (forall c, cov (reserved h) c = true -> cov (reserved h1) c = true) /\
    Forall hint_ok (hints h1) /\ hints h1 <> [] /\
    0 <= a /\ a + n <= b /\ BASE + b * CHUNK_BYTES <= USER_TOP /\
    forall c, a <= c < b -> cov (reserved h1) c = true /\ cov (grown h1) c = false.
Proof.
  intros I Hn. unfold region_pick. destruct (i_hints h live I) as [HF HN].
  assert (SubF : forall c, cov (reserved h) c = false -> cov (grown h) c = false).
  { intros c Hc. destruct (cov (grown h) c) eqn:E; [|reflexivity]. apply (i_sub h live I) in E. congruence. }
  destruct (Z.ltb_spec (end_ h - cursor h) (n * CHUNK_BYTES)).
  - unfold mheap_sys_alloc. destruct (align_arena (n * CHUNK_BYTES)) as (m & Em & Hm). rewrite Em.
    assert (M0 : 0 < m) by (unfold CHUNK_BYTES, ARENA_SIZE in Hm; lia).
    assert (MN : n <= m * 16) by (unfold CHUNK_BYTES, ARENA_SIZE in Hm; lia).
    assert (EM : m * ARENA_SIZE = m * 16 * CHUNK_BYTES) by (unfold CHUNK_BYTES, ARENA_SIZE; ring).
    destruct (try_hints_spec grant h (m * ARENA_SIZE) m M0 eq_refl (i_resv h live I) (hints h) HF) as [E|(a & l' & E & A & F' & N' & T & Hc)];
      rewrite E; cbn [bind]; [now left|]. right.
    assert (CV : forall c, cov ((BASE + a * CHUNK_BYTES, m * 16 * CHUNK_BYTES) :: reserved h) c = inr a (m * 16) c || cov (reserved h) c)
      by (intros c; now apply cov_cons).
    assert (AL : Forall aligned ((BASE + a * CHUNK_BYTES, m * 16 * CHUNK_BYTES) :: reserved h)).
    { constructor; [|apply (i_resv h live I)]. exists a, (m * 16). cbn [fst snd]. rewrite EM in T. split; [reflexivity|]. split; [reflexivity|]. lia. }
    rewrite EM in *. destruct (Z.eqb_spec (BASE + a * CHUNK_BYTES) 0); [unfold BASE, CHUNK_BYTES in *; lia|].
    destruct (Z.eqb_spec (BASE + a * CHUNK_BYTES) (end_ h)) as [Ev|Nv].
    + destruct (i_arena h live I) as [[_ Z0]|(a0 & b0 & C1 & C2 & C3 & C4 & C5)]; [unfold BASE, CHUNK_BYTES in *; lia|].
      assert (b0 = a) by (unfold CHUNK_BYTES in *; lia). subst b0.
      eexists _, a0, (a + m * 16). rewrite C1, C2. split; [f_equal; f_equal; ring|].
      cbn [present chunk summ grown cursor end_ reserved hints].
      repeat (split; [first [reflexivity|assumption]|]).
      split; [intros c H1; rewrite CV, H1; apply orb_true_r|]. split; [assumption|]. split; [assumption|].
      split; [lia|]. split; [lia|]. split; [unfold CHUNK_BYTES in *; lia|].
      intros c H1. rewrite CV. destruct (Z_lt_dec c a).
      * destruct (C5 c ltac:(lia)) as [D1 D2]. rewrite D1. split; [apply orb_true_r|assumption].
      * split; [|apply SubF, Hc; lia]. unfold inr. destruct (Z.leb_spec a c); [|lia]. destruct (Z.ltb_spec c (a + m * 16)); [reflexivity|lia].
    + eexists _, a, (a + m * 16). split; [f_equal; f_equal; ring|].
      cbn [present chunk summ grown cursor end_ reserved hints].
      repeat (split; [reflexivity|]). split; [assumption|].
      split; [intros c H1; rewrite CV, H1; apply orb_true_r|]. split; [assumption|]. split; [assumption|].
      split; [lia|]. split; [lia|]. split; [unfold CHUNK_BYTES in *; lia|].
      intros c H1. rewrite CV. split; [|apply SubF, Hc; lia].
      unfold inr. destruct (Z.leb_spec a c); [|lia]. destruct (Z.ltb_spec c (a + m * 16)); [reflexivity|lia].
  - right. destruct (i_arena h live I) as [[Z0 Z1]|(a0 & b0 & C1 & C2 & C3 & C4 & C5)]; [unfold CHUNK_BYTES in *; lia|].
    exists h, a0, b0. rewrite C1, C2 in *. split; [reflexivity|]. repeat (split; [reflexivity|]).
    repeat (split; [solve [reflexivity|apply (i_resv h live I)|assumption|auto]|]).
    split; [lia|]. split; [unfold CHUNK_BYTES in *; lia|]. split; [assumption|]. exact C5.
Qed.

Lemma mheap_grow_spec grant h live count : inv h live -> 0 < count ->
  mheap_grow grant h count = Abort /\ region_pick grant h (align_up count CHUNK_BITS * PAGE) = Abort \/
  exists h1 h' a n b, mheap_grow grant h count = (if 0 <? s_max (summ h' 0 0) then Ok h' else Abort) /\ inv h' live /\
    region_pick grant h (align_up count CHUNK_BITS * PAGE) = Ok (h1, BASE + a * CHUNK_BYTES, BASE + b * CHUNK_BYTES) /\
    hints h' = hints h1 /\ reserved h' = reserved h1 /\ end_ h' = BASE + b * CHUNK_BYTES /\
    grown h' = (BASE + a * CHUNK_BYTES, n * CHUNK_BYTES) :: grown h /\ 0 <= a /\ 0 < n /\ count <= n * 512 < count + 512 /\ a + n <= b /\
    (forall c, a <= c < a + n -> cov (grown h) c = false).
Proof.
  intros I Hc. unfold mheap_grow. destruct (align_chunk count Hc) as (n & En & N0 & Nc). rewrite En.
  destruct (Z.ltb_spec (end_ h) (cursor h)).
  { exfalso. destruct (i_arena h live I) as [[Z0 Z1]|(a0 & b0 & C1 & C2 & C3 & C4 & C5)]; unfold CHUNK_BYTES in *; lia. }
  change (if end_ h - cursor h <? n * CHUNK_BYTES then _ else _) with (region_pick grant h (n * CHUNK_BYTES)).
  destruct (pick_spec grant h live n I N0) as [E|(h1 & a & b & E & P1 & P2 & P3 & P4 & P5 & P6 & P7 & P8 & P9 & P10 & Ha & Hab & HT & HC)];
    rewrite E; cbn [bind]; [now left|].
  destruct (page_alloc_grow_spec h1 a n) as (h2 & E2 & W2 & G2 & H2 & C2 & D2 & R2 & M2 & O2 & S2).
  - intros i. rewrite P2. apply (i_chunks h live I).
  - intros L i HL Hi. rewrite P3, P4. eapply exact_ext; [|apply (i_sums h live I L i HL Hi)]. intros q _. unfold marked. now rewrite P2.
  - intros q Hq Hp. rewrite P1 in Hp. unfold marked. rewrite P2. now apply (unmarked_absent h live I q).
  - intros c Hcov. rewrite P4 in Hcov. unfold chunk_ok. rewrite P1. now apply (i_ok h live I).
  - assumption.
  - assumption.
  - unfold CHUNK_BYTES in *. lia.
  - rewrite E2. right.
    set (h' := mk_heap (present h2) (chunk h2) (summ h2) (hints h2) (BASE + a * CHUNK_BYTES + n * CHUNK_BYTES) (BASE + b * CHUNK_BYTES) (reserved h2) (grown h2)).
    exists h1, h', a, n, b. split; [subst h'; cbn [summ]; destruct (0 <? s_max (summ h2 0 0)); reflexivity|].
    assert (CV : forall c, cov (grown h2) c = inr a n c || cov (grown h1) c) by (intros c; rewrite G2; now apply cov_cons).
    split; [|subst h'; cbn [hints reserved end_ grown]; rewrite G2, P4; repeat (split; [first [reflexivity|assumption|lia]|]);
             intros c Hx; rewrite <- P4; apply HC; lia].
    constructor; subst h'; cbn [present chunk summ grown cursor end_ reserved hints].
    + exact W2.
    + exact S2.
    + intros q Hq. change (marked h2 q = in_live live q). rewrite M2 by assumption. unfold marked. rewrite P2. now apply (i_marks h live I).
    + rewrite G2, P4. constructor; [|apply (i_grown h live I)]. exists a, n. cbn [fst snd]. unfold CHUNK_BYTES in *. repeat split; lia.
    + now rewrite R2.
    + exact O2.
    + intros c Hcv. rewrite CV in Hcv. rewrite R2. apply orb_true_iff in Hcv. destruct Hcv as [Hcv|Hcv].
      * unfold inr in Hcv. apply andb_true_iff in Hcv. destruct Hcv as [A B]. apply Z.leb_le in A. apply Z.ltb_lt in B. apply HC. lia.
      * apply P8. rewrite P4 in Hcv. now apply (i_sub h live I).
    + right. exists (a + n), b. split; [ring|]. split; [reflexivity|]. split; [lia|]. split; [assumption|].
      intros c Hx. rewrite R2, CV. destruct (HC c ltac:(lia)) as [D E']. split; [assumption|]. rewrite E', orb_false_r. unfold inr.
      destruct (Z.ltb_spec c (a + n)); [lia|]. apply andb_false_r.
    + rewrite H2. split; assumption.
    + apply Forall_forall. intros r Hr. pose proof (i_live h live I) as L. rewrite Forall_forall in L. destruct (L r Hr) as (p & A1 & A2 & A3 & A4).
      exists p. split; [assumption|]. split; [assumption|]. split; [assumption|]. intros q Hq. cbn [grown]. rewrite CV, P4, A4 by assumption. apply orb_true_r.
    + apply (i_apart h live I).
Qed.

(** ** one allocation, one free *)
Lemma page_in_inr p count q : page_in q (BASE + p * PAGE, count) = inr p count q.
Proof. unfold page_in, inr. cbn [fst snd]. now rewrite page_of_page. Qed.

Lemma in_live_app l l' q : in_live (l ++ l') q = in_live l q || in_live l' q.
Proof. unfold in_live. apply existsb_app. Qed.

Lemma apart_snoc l r : apart l -> (forall q, page_in q r = true -> in_live l q = false) -> apart (l ++ [r]).
Proof.
  intros A. induction A as [|x l Hx A IH]; intros H; cbn [app].
  - constructor; constructor.
  - constructor.
    + apply Forall_app. split; [assumption|]. constructor; [|constructor]. intros p [H1 H2]. specialize (H p H2). unfold in_live in H. cbn [existsb] in H.
      rewrite H1 in H. discriminate.
    + apply IH. intros q Hq. specialize (H q Hq). unfold in_live in *. cbn [existsb] in H. apply orb_false_iff in H. apply H.
Qed.

Lemma run_ok_ext h h' r : grown h' = grown h -> run_ok h r -> run_ok h' r.
Proof. intros E. unfold run_ok. now rewrite E. Qed.

Lemma in_heap_cov h q : Forall aligned (grown h) -> in_heap h q = cov (grown h) (q / 512).
Proof.
  intros F. unfold in_heap, cov. induction F as [|r l (k & n & E1 & E2 & _) F IH]; [reflexivity|]. cbn [existsb]. rewrite IH. f_equal.
  rewrite E1, E2. clear. unfold CHUNK_BYTES, PAGE. pose proof (Z.div_mod q 512 ltac:(lia)). pose proof (Z.mod_pos_bound q 512 ltac:(lia)).
  generalize dependent (q mod 512). generalize (q / 512). intros c m -> Hm. f_equal; apply Bool.eq_iff_eq_true; rewrite ?Z.leb_le, ?Z.ltb_lt; lia.
Qed.

Lemma find_inv h live count must : inv h live -> 0 < count ->
  (exists h' p, page_alloc_find h count must = Ok (h', BASE + p * PAGE) /\ 0 <= p /\
     inv h' (live ++ [(BASE + p * PAGE, count)]) /\ same h h' /\ all_in (free_page h live) p count /\ p + count <= window h * 2097152) \/
  (page_alloc_find h count must = (if must then Abort else Ok (h, 0)) /\
   no_run (fun q => cov (grown h) (q / 512) && negb (marked h q)) 0 (window h * 2097152) count).
Proof.
  intros I Hc. destruct (i_hints h live I) as [HF HN]. destruct (hints h) as [|a l] eqn:Hh; [contradiction|].
  inversion HF as [|? ? Ha Fl]; subst x l0. destruct Ha as (k & Ea & K & T).
  destruct (find_spec h (cov (grown h)) count must a l (i_chunks h live I) Hc Hh) as [(h' & p & E & P0 & PW & PA & Sm & W' & M' & SE')|R].
  - unfold ARENA_SIZE in *. lia.
  - intros c Hcv. split; [now apply (i_ok h live I)|]. apply cov_range in Hcv; [lia|apply (i_grown h live I)].
  - apply (i_sums h live I).
  - left. exists h', p. split; [assumption|]. split; [assumption|].
    assert (FR : forall q, p <= q < p + count -> cov (grown h) (q / 512) = true /\ in_live live q = false).
    { intros q Hq. specialize (PA q Hq). cbn beta in PA. apply andb_true_iff in PA. destruct PA as [A B]. split; [assumption|].
      rewrite <- (i_marks h live I q ltac:(lia)). now destruct (marked h q). }
    pose proof Sm as (S1 & S2 & S3 & S4 & S5 & S6).
    split; [constructor|split; [assumption|split; [|assumption]]].
    + assumption.
    + rewrite S6. assumption.
    + intros q Hq. rewrite M' by assumption. rewrite in_live_app. unfold in_live at 2. cbn [existsb]. rewrite page_in_inr, orb_false_r.
      rewrite (i_marks h live I q Hq). destruct (inr p count q); [now rewrite orb_true_r|now rewrite orb_false_r].
    + rewrite S6. apply (i_grown h live I).
    + rewrite S5. apply (i_resv h live I).
    + intros c Hcv. rewrite S6 in Hcv. apply (i_ok h live I) in Hcv. unfold chunk_ok in *. now rewrite S1.
    + rewrite S5, S6. apply (i_sub h live I).
    + rewrite S3, S4, S5, S6. apply (i_arena h live I).
    + rewrite S2, Hh. split; [assumption|discriminate].
    + apply Forall_app. split.
      * eapply Forall_impl; [|apply (i_live h live I)]. intros r. now apply run_ok_ext.
      * constructor; [|constructor]. exists p. cbn [fst snd]. split; [reflexivity|]. split; [assumption|]. split; [assumption|].
        intros q Hq. rewrite S6. now apply FR.
    + apply apart_snoc; [apply (i_apart h live I)|]. intros q Hq. rewrite page_in_inr in Hq. unfold inr in Hq.
      apply andb_true_iff in Hq. destruct Hq as [A B]. apply Z.leb_le in A. apply Z.ltb_lt in B. apply FR. lia.
    + intros q Hq. destruct (FR q Hq) as [A B]. unfold free_page. rewrite B. rewrite andb_true_r. now rewrite (in_heap_cov h q (i_grown h live I)).
  - right. exact R.
Qed.

Lemma alloc_inv grant h live count : inv h live ->
  alloc_pages grant h count = Abort \/
  exists h' base, alloc_pages grant h count = Ok (h', base) /\ inv h' (live ++ [(base, count)]) /\ 0 < count.
Proof.
  intros I. unfold alloc_pages. destruct (Z.leb_spec count 0); [now left|].
  destruct (find_inv h live count false I H) as [(h' & p & E & P0 & I' & _)|[E _]]; rewrite E; cbn [bind].
  - destruct (Z.eqb_spec (BASE + p * PAGE) 0); [unfold BASE, PAGE in *; lia|]. right. eauto.
  - destruct (mheap_grow_spec grant h live count I H) as [[E2 _]|(h1 & h2 & a & n & b & E2 & I2 & _)]; rewrite E2; cbn [Z.eqb bind]; [now left|].
    destruct (0 <? s_max (summ h2 0 0)); cbn [bind]; [|now left].
    destruct (find_inv h2 live count true I2 H) as [(h' & p & E3 & P0 & I' & _)|[E3 _]]; rewrite E3; cbn [bind]; [|now left].
    destruct (Z.eqb_spec (BASE + p * PAGE) 0); [unfold BASE, PAGE in *; lia|]. right. eauto.
Qed.

Lemma in_live_perm l l' q : Permutation l l' -> in_live l q = in_live l' q.
Proof.
  intros P. unfold in_live. destruct (existsb (page_in q) l) eqn:E; symmetry.
  - apply existsb_exists in E. destruct E as (x & I & H). apply existsb_exists. exists x. split; [|assumption]. now apply (Permutation_in _ P).
  - destruct (existsb (page_in q) l') eqn:E'; [|reflexivity]. apply existsb_exists in E'. destruct E' as (x & I & H).
    rewrite <- E. symmetry. apply existsb_exists. exists x. split; [|assumption]. apply (Permutation_in _ (Permutation_sym P) I).
Qed.

Lemma apart_perm l l' : Permutation l l' -> apart l -> apart l'.
Proof.
  induction 1 as [|x l l' P IH|x y l|l l' l'' P1 IH1 P2 IH2]; intros A; auto.
  - inversion A; subst. constructor; [|now apply IH]. rewrite Forall_forall in *. intros q Hq. apply H1.
    eapply Permutation_in; [apply Permutation_sym; eassumption|assumption].
  - inversion A as [|? ? Hy A1]; subst. inversion A1 as [|? ? Hx A2]; subst. inversion Hy; subst.
    constructor; [constructor; [intros p [B C]; now apply (H1 p)|assumption]|]. now constructor.
Qed.

Lemma free_inv h live k r : inv h live -> nth_error live k = Some r ->
  exists h', free_pages h (fst r) (snd r) = Ok h' /\ inv h' (remove_nth k live) /\ same h h' /\
    (forall q, 0 <= q -> marked h' q = if page_in q r then false else marked h q).
Proof.
  intros I Hk. pose proof (nth_error_In _ _ Hk) as Ir. pose proof (i_live h live I) as L. rewrite Forall_forall in L.
  destruct (L r Ir) as (p & E & P0 & N & C). unfold free_pages. rewrite E.
  destruct (chunks_set_spec h (cov (grown h)) p (snd r) false (i_chunks h live I) P0 N) as (h' & E' & Sm & W' & M' & SE').
  { intros c Hcv. split; [now apply (i_ok h live I)|]. apply cov_range in Hcv; [lia|apply (i_grown h live I)]. }
  { exact C. }
  { apply (i_sums h live I). }
  assert (PI : forall q, page_in q r = inr p (snd r) q) by (intros q; unfold page_in, inr; rewrite E; now rewrite page_of_page).
  pose proof (remove_nth_perm _ _ _ Hk) as P.
  pose proof (apart_perm _ _ P (i_apart h live I)) as A. inversion A as [|? ? A1 A2]; subst a l.
  pose proof Sm as (S1 & S2 & S3 & S4 & S5 & S6).
  exists h'. split; [exact E'|]. split; [|split; [assumption|intros q Hq; rewrite PI; now apply M']]. constructor.
  - assumption.
  - rewrite S6. assumption.
  - intros q Hq. rewrite M' by assumption. rewrite (i_marks h live I q Hq). rewrite (in_live_perm _ _ q P).
    unfold in_live at 1. cbn [existsb]. fold (in_live (remove_nth k live) q). rewrite PI.
    destruct (inr p (snd r) q) eqn:R; [|reflexivity]. symmetry. unfold in_live.
    destruct (existsb (page_in q) (remove_nth k live)) eqn:X; [|reflexivity]. exfalso. apply existsb_exists in X. destruct X as (x & Ix & Hx).
    rewrite Forall_forall in A1. apply (A1 x Ix q). split; [now rewrite PI|assumption].
  - rewrite S6. apply (i_grown h live I).
  - rewrite S5. apply (i_resv h live I).
  - intros c Hcv. rewrite S6 in Hcv. apply (i_ok h live I) in Hcv. unfold chunk_ok in *. now rewrite S1.
  - rewrite S5, S6. apply (i_sub h live I).
  - rewrite S3, S4, S5, S6. apply (i_arena h live I).
  - rewrite S2. apply (i_hints h live I).
  - apply Forall_forall. intros x Hx. apply run_ok_ext with (h := h); [assumption|]. apply L. eapply remove_nth_In. eassumption.
  - assumption.
Qed.

Lemma step_inv h live o : inv h live ->
  wstep (h, live) o = Abort \/ exists h' live', wstep (h, live) o = Ok (h', live') /\ inv h' live'.
Proof.
  intros I. destruct o as [count grant|k]; cbn [wstep].
  - destruct (alloc_inv grant h live count I) as [E|(h' & b & E & I' & _)]; rewrite E; cbn [bind]; [now left|right; eauto].
  - right. destruct (nth_error live k) as [[base count]|] eqn:Hk; [|eauto].
    destruct (free_inv h live k (base, count) I Hk) as (h' & E & I' & _). cbn [fst snd] in E. rewrite E. cbn [bind]. eauto.
Qed.

Lemma run_inv ops : forall h live, inv h live ->
  wrun (h, live) ops = Abort \/ exists h' live', wrun (h, live) ops = Ok (h', live') /\ inv h' live'.
Proof.
  induction ops as [|o ops IH]; intros h live I; cbn [wrun]; [right; eauto|].
  destruct (step_inv h live o I) as [E|(h' & live' & E & I')]; rewrite E; cbn [bind]; [now left|]. now apply IH.
Qed.

Lemma hints_from_ok n : forall a, (exists k, a = BASE + k * ARENA_SIZE /\ 0 <= k) -> a + Z.of_nat n * HINT_SIZE <= USER_TOP + HINT_SIZE -> Forall hint_ok (hints_from n a).
Proof.
  induction n as [|n IH]; intros a (k & E & K) H; cbn [hints_from]; constructor.
  - exists k. unfold HINT_SIZE in *. repeat split; try assumption; lia.
  - apply IH; [|unfold HINT_SIZE in *; lia]. exists (k + 16384). rewrite E. unfold HINT_SIZE, ARENA_SIZE. split; [ring|lia].
Qed.

Lemma exact_none f b P : 0 < P -> (forall i, f i = false) -> exact f b P (mk_sum 0 0 0).
Proof.
  intros HP F. split; [|split]; cbn [s_start s_max s_end].
  - split; [lia|]. split; [intros i Hi; lia|]. auto.
  - split; [lia|]. split; [exists b; split; [lia|]; split; [lia|]; intros i Hi; lia|].
    intros a n Hn Ha Hb HA. destruct (Z.eq_dec n 0); [lia|]. specialize (HA a ltac:(lia)). rewrite F in HA. discriminate.
  - split; [lia|]. split; [intros i Hi; lia|]. auto.
Qed.

Lemma inv_init : inv init [].
Proof.
  constructor; unfold init; cbn [present chunk summ grown cursor end_ reserved hints].
  - intros i. cbn [chunk]. split; [reflexivity|]. unfold bytes. apply Forall_forall. intros x Hx. apply repeat_spec in Hx. subst x. unfold is_byte. lia.
  - intros L i HL Hi. cbn [summ]. apply exact_none; [pose proof (page_count_range (fun _ => true) L); lia|]. intros q. reflexivity.
  - intros q Hq. unfold marked. cbn [chunk]. now rewrite bit_zeros.
  - constructor.
  - constructor.
  - intros c Hc. discriminate.
  - intros c Hc. discriminate.
  - left. split; reflexivity.
  - split; [|discriminate]. apply hints_from_ok; [exists 0; split; [ring|lia]|]. unfold BASE, HINT_SIZE, USER_TOP. change (Z.of_nat HINT_COUNT) with 128. lia.
  - constructor.
  - constructor.
Qed.

Lemma free_page_cov h live q : inv h live -> 0 <= q -> free_page h live q = cov (grown h) (q / 512) && negb (marked h q).
Proof.
  intros I Hq. unfold free_page. now rewrite (in_heap_cov h q (i_grown h live I)), (i_marks h live I q Hq).
Qed.

(** ** What the invariant says to a client *)
Lemma apart_nth l i j r q : apart l -> i <> j -> nth_error l i = Some r -> nth_error l j = Some q ->
  forall p, ~ (page_in p r = true /\ page_in p q = true).
Proof.
  intros A. revert i j. induction A as [|x l Hx A IH]; intros [|i] [|j] N Hi Hj p [P1 P2]; cbn [nth_error] in *; try discriminate; try contradiction.
  - assert (x = r) as -> by congruence. rewrite Forall_forall in Hx. apply (Hx q (nth_error_In _ _ Hj) p). tauto.
  - assert (x = q) as -> by congruence. rewrite Forall_forall in Hx. apply (Hx r (nth_error_In _ _ Hi) p). tauto.
  - apply (IH i j ltac:(lia) Hi Hj p). tauto.
Qed.

Lemma page_in_addr h r x : run_ok h r -> fst r <= x < fst r + snd r * PAGE -> page_in (page_of x) r = true /\ 0 <= page_of x /\ BASE + page_of x * PAGE <= x < BASE + page_of x * PAGE + PAGE.
Proof.
  intros (p & E & P0 & N & _) Hx. unfold page_in. rewrite E in *. rewrite page_of_page. unfold page_of, PAGE in *.
  split; [apply andb_true_iff; split; [apply Z.leb_le|apply Z.ltb_lt]|]; clear - Hx P0; zdiv.
Qed.

Lemma inv_disjoint h live i j r q : inv h live -> i <> j -> nth_error live i = Some r -> nth_error live j = Some q ->
  disjoint (fst r) (snd r * PAGE) (fst q) (snd q * PAGE).
Proof.
  intros I N Hi Hj x [X1 X2]. pose proof (i_live h live I) as L. rewrite Forall_forall in L.
  destruct (page_in_addr h r x (L r (nth_error_In _ _ Hi)) X1) as [A _].
  destruct (page_in_addr h q x (L q (nth_error_In _ _ Hj)) X2) as [B _].
  apply (apart_nth live i j r q (i_apart h live I) N Hi Hj (page_of x)). tauto.
Qed.

Lemma inv_granted h live r x : inv h live -> In r live -> fst r <= x < fst r + snd r * PAGE ->
  in_heap h (page_of x) = true /\ exists g, In g (reserved h) /\ fst g <= x < fst g + snd g.
Proof.
  intros I Ir Hx. pose proof (i_live h live I) as L. rewrite Forall_forall in L. pose proof (L r Ir) as Lr.
  destruct (page_in_addr h r x Lr Hx) as (A & P0 & B).
  assert (C : cov (grown h) (page_of x / 512) = true).
  { destruct Lr as (p & E & _ & _ & C). apply C. unfold page_in in A. rewrite E, page_of_page in A. apply andb_true_iff in A.
    destruct A as [A1 A2]. apply Z.leb_le in A1. apply Z.ltb_lt in A2. lia. }
  split; [rewrite in_heap_cov; [assumption|apply (i_grown h live I)]|].
  apply (i_sub h live I) in C. apply cov_true in C. destruct C as (g & Ig & Hg). exists g. split; [assumption|].
  pose proof (i_resv h live I) as RA. rewrite Forall_forall in RA. destruct (RA g Ig) as (k & n & E1 & E2 & _). rewrite E1, E2 in *.
  unfold CHUNK_BYTES, PAGE in *. clear - Hg B P0. set (p := page_of x) in *. clearbody p. split; zdiv.
Qed.

Lemma inv_aligned h live r : inv h live -> In r live -> fst r mod PAGE = 0 /\ BASE <= fst r /\ 0 < snd r.
Proof.
  intros I Ir. pose proof (i_live h live I) as L. rewrite Forall_forall in L. destruct (L r Ir) as (p & E & P0 & N & _). rewrite E.
  unfold PAGE, BASE. split; [zdiv|lia].
Qed.

(** ** C26: when the search window is enough *)
Definition cont (h : heap) (R : Z) : Prop :=
  (exists k, R = k * ARENA_SIZE /\ 0 <= k) /\ (exists l, hints h = BASE + R :: l) /\
  (forall r, In r (reserved h) -> fst r + snd r <= BASE + R) /\ ((R = 0 /\ end_ h = 0 /\ cursor h = 0) \/ end_ h = BASE + R).

Lemma rounded_eq x k : 0 <= k -> rounded x (2 ^ k) = align_up x (2 ^ k).
Proof. intros H. rewrite align_pow2 by assumption. unfold rounded. ring. Qed.
Lemma need_eq count : need count = align_up (align_up count CHUNK_BITS * PAGE) ARENA_SIZE.
Proof.
  unfold need, ARENA_SIZE. change 67108864 with (2 ^ 26). rewrite rounded_eq by lia. f_equal.
  unfold rounded, CHUNK_BITS, CHUNK_BYTES, PAGE. change 512 with (2 ^ 9). rewrite align_pow2 by lia. change (2 ^ 9) with 512. zdiv.
Qed.

Lemma cont_same h h' R : same h h' -> cont h R -> cont h' R.
Proof. intros (S1 & S2 & S3 & S4 & S5 & S6). unfold cont. now rewrite S2, S3, S4, S5. Qed.

Lemma pick_granted h live R count : inv h live -> cont h R -> 0 < count -> R + need count <= GIB16 ->
  exists h1 cur R', region_pick (fun _ _ => true) h (align_up count CHUNK_BITS * PAGE) = Ok (h1, cur, BASE + R') /\ R <= R' <= R + need count /\
    (exists k, R' = k * ARENA_SIZE /\ 0 <= k) /\ (exists l, hints h1 = BASE + R' :: l) /\
    (forall r, In r (reserved h1) -> fst r + snd r <= BASE + R').
Proof.
  intros I ((k & Ek & K) & (l & Eh) & Hr & He) Hc HR. rewrite need_eq in *. set (size := align_up count CHUNK_BITS * PAGE) in *.
  destruct (align_arena size) as (m & Em & Hm). rewrite Em in *.
  assert (S0 : 0 < size) by (destruct (align_chunk count Hc) as (n & En & N0 & _); subst size; rewrite En; unfold CHUNK_BYTES; lia).
  unfold region_pick. destruct (Z.ltb_spec (end_ h - cursor h) size) as [Lt|Ge].
  - unfold mheap_sys_alloc. rewrite Em, Eh. cbn [try_hints]. unfold reserve. cbn [andb].
    assert (T : BASE + R + m * ARENA_SIZE <= USER_TOP) by (unfold BASE, USER_TOP, GIB16 in *; lia).
    destruct (Z.leb_spec (BASE + R + m * ARENA_SIZE) USER_TOP); [|lia]. cbn [andb].
    assert (FR : free_range (reserved h) (BASE + R) (m * ARENA_SIZE) = true).
    { unfold free_range. apply forallb_forall. intros r Ir. apply orb_true_iff. right. apply Z.leb_le. now apply Hr. }
    rewrite FR. cbn [bind]. unfold ARENA_SIZE in *.
    destruct (Z.eqb_spec (BASE + R) 0); [unfold BASE in *; lia|].
    set (h1 := mk_heap (present h) (chunk h) (summ h) (BASE + R + m * 67108864 :: l) (cursor h) (end_ h) ((BASE + R, m * 67108864) :: reserved h) (grown h)).
    exists h1, (if BASE + R =? end_ h then cursor h else BASE + R), (R + m * 67108864). split.
    { destruct (Z.eqb_spec (BASE + R) (end_ h)) as [Ee|Ne]; f_equal; f_equal; rewrite <- ?Ee; ring. }
    split; [lia|]. split; [exists (k + m); split; [lia|lia]|]. subst h1. cbn [hints reserved].
    split; [exists l; f_equal; ring|]. intros r [<-|Ir]; cbn [fst snd]; [lia|]. specialize (Hr r Ir). lia.
  - exists h, (cursor h), R. destruct He as [(R0 & E0 & C0)|E0]; [rewrite E0, C0 in *; lia|]. rewrite E0.
    split; [reflexivity|]. split; [unfold ARENA_SIZE in *; lia|]. split; [eauto|]. split; [eauto|assumption].
Qed.

Lemma cont_cov h live R c : inv h live -> cont h R -> cov (grown h) c = true -> (c + 1) * CHUNK_BYTES <= R.
Proof.
  intros I (_ & _ & Hr & _) C. apply (i_sub h live I) in C. apply cov_true in C. destruct C as (g & Ig & Hg).
  pose proof (i_resv h live I) as RA. rewrite Forall_forall in RA. destruct (RA g Ig) as (k & n & E1 & E2 & _). specialize (Hr g Ig).
  rewrite E1, E2 in *. unfold CHUNK_BYTES in *. lia.
Qed.

Lemma window_pos h live : inv h live -> 1 <= window h.
Proof.
  intros I. destruct (i_hints h live I) as [HF HN]. unfold window. destruct (hints h) as [|a l]; [contradiction|].
  inversion HF as [|? ? Ha Fl]; subst x l0. destruct Ha as (k & -> & K & _). cbn [hd]. unfold ARENA_SIZE. clear - K. zdiv.
Qed.

(** a run of free pages in the first 2^21 pages is found without asking the kernel *)
Lemma find_complete grant h live count p : inv h live -> 0 < count -> 0 <= p -> p + count <= 2097152 -> all_in (free_page h live) p count ->
  exists h' base, alloc_pages grant h count = Ok (h', base) /\ same h h' /\ inv h' (live ++ [(base, count)]).
Proof.
  intros I Hc Hp Hb HA. unfold alloc_pages. destruct (Z.leb_spec count 0); [lia|].
  destruct (find_inv h live count false I Hc) as [(h' & q & E & Q0 & I' & Sm & _)|[_ NR]].
  - rewrite E. cbn [bind]. destruct (Z.eqb_spec (BASE + q * PAGE) 0); [unfold BASE, PAGE in *; lia|]. eauto.
  - exfalso. apply (NR p Hp); [pose proof (window_pos h live I); lia|]. intros i Hi. rewrite <- (free_page_cov h live i I) by lia. now apply HA.
Qed.

Lemma alloc_granted h live R count : inv h live -> cont h R -> 0 < count -> R + need count <= GIB16 ->
  exists h' base R', alloc_pages (fun _ _ => true) h count = Ok (h', base) /\ inv h' (live ++ [(base, count)]) /\ cont h' R' /\ R <= R' <= R + need count.
Proof.
  intros I C Hc HR. unfold alloc_pages. destruct (Z.leb_spec count 0); [lia|].
  assert (N0 : 0 <= need count).
  { rewrite need_eq. destruct (align_arena (align_up count CHUNK_BITS * PAGE)) as (m & -> & Hm). destruct (align_chunk count Hc) as (n & En & N0 & _).
    rewrite En in Hm. unfold CHUNK_BYTES in Hm. lia. }
  destruct (find_inv h live count false I Hc) as [(h' & q & E & Q0 & I' & Sm & _)|[E _]]; rewrite E; cbn [bind].
  - destruct (Z.eqb_spec (BASE + q * PAGE) 0); [unfold BASE, PAGE in *; lia|]. exists h', (BASE + q * PAGE), R. split; [reflexivity|]. split; [assumption|].
    split; [eapply cont_same; eassumption|lia].
  - cbn [Z.eqb].
    destruct (pick_granted h live R count I C Hc HR) as (h1 & cur & R' & Ep & HR' & K' & Hh' & Hr').
    destruct (mheap_grow_spec (fun _ _ => true) h live count I Hc) as [[_ E2]|(h1' & h2 & a & n & b & E2 & I2 & Ep2 & F1 & F2 & F3 & F4 & A0 & N1 & NC & AB & AF)]; [congruence|].
    rewrite Ep in Ep2. assert (h1' = h1) by congruence. subst h1'. assert (EB : BASE + R' = BASE + b * CHUNK_BYTES) by congruence. clear Ep2.
    assert (C2 : cont h2 R').
    { split; [assumption|]. rewrite F1, F2, F3. split; [assumption|]. split; [assumption|]. right. lia. }
    assert (A4 : a + n <= 4096) by (unfold CHUNK_BYTES, GIB16 in *; lia).
    assert (FA : forall q, a * 512 <= q < (a + n) * 512 -> cov (grown h2) (q / 512) && negb (marked h2 q) = true).
    { intros q Hq. assert (0 <= q) by lia. rewrite (i_marks h2 live I2 q) by lia. apply andb_true_iff. split.
      - rewrite F4, cov_cons with (k := a) by reflexivity. apply orb_true_iff. left. unfold inr. clear - Hq. apply andb_true_iff. split; [apply Z.leb_le|apply Z.ltb_lt]; zdiv.
      - rewrite <- (i_marks h live I q) by lia. destruct (marked h q) eqn:M; [|reflexivity]. exfalso.
        rewrite (i_marks h live I q) in M by lia. unfold in_live in M. apply existsb_exists in M. destruct M as (r & Ir & Pr).
        pose proof (i_live h live I) as L. rewrite Forall_forall in L. destruct (L r Ir) as (p & Er & P0 & Nr & Cr).
        unfold page_in in Pr. rewrite Er, page_of_page in Pr. apply andb_true_iff in Pr. destruct Pr as [X1 X2]. apply Z.leb_le in X1. apply Z.ltb_lt in X2.
        specialize (Cr q ltac:(lia)). rewrite AF in Cr; [discriminate|]. clear - Hq. zdiv. }
    assert (MX : 0 < s_max (summ h2 0 0)).
    { destruct (i_sums h2 live I2 0 0) as (_ & (_ & _ & M) & _); [lia|change (sum_count 0) with 8192; lia|].
      change (0 * page_count 0) with 0 in M. change (page_count 0) with 2097152 in M.
      specialize (M (a * 512) 1 ltac:(lia) ltac:(lia) ltac:(lia)). assert (1 <= s_max (summ h2 0 0)); [|lia]. apply M. intros i Hi. apply FA. lia. }
    rewrite E2. destruct (Z.ltb_spec 0 (s_max (summ h2 0 0))); [|lia]. cbn [bind].
    destruct (find_inv h2 live count true I2 Hc) as [(h' & q & E3 & Q0 & I' & Sm & _)|[_ NR]].
    + rewrite E3. cbn [bind]. destruct (Z.eqb_spec (BASE + q * PAGE) 0); [unfold BASE, PAGE in *; lia|].
      exists h', (BASE + q * PAGE), R'. split; [reflexivity|]. split; [assumption|]. split; [eapply cont_same; eassumption|lia].
    + exfalso. apply (NR (a * 512)); [lia|pose proof (window_pos h2 live I2); lia|]. intros i Hi. apply FA. lia.
Qed.

Lemma demand_nonneg ops : Forall granted_op ops -> 0 <= demand ops.
Proof.
  induction 1 as [|[count grant|k] ops Ho F IH]; cbn [demand]; try lia. destruct Ho as [Hc _].
  assert (0 <= need count); [|lia]. rewrite need_eq. destruct (align_arena (align_up count CHUNK_BITS * PAGE)) as (m & -> & Hm).
  destruct (align_chunk count Hc) as (n & En & N0 & _). rewrite En in Hm. unfold CHUNK_BYTES in Hm. lia.
Qed.

Lemma run_granted ops : Forall granted_op ops -> forall h live R, inv h live -> cont h R -> R + demand ops <= GIB16 ->
  exists h' live' R', wrun (h, live) ops = Ok (h', live') /\ inv h' live' /\ cont h' R' /\ R <= R' <= R + demand ops.
Proof.
  induction 1 as [|o ops Ho F IH]; intros h live R I C HR; cbn [wrun].
  - cbn [demand]. exists h, live, R. split; [reflexivity|]. split; [assumption|]. split; [assumption|lia].
  - pose proof (demand_nonneg ops F) as DN. destruct o as [count grant|k]; cbn [demand] in *; cbn [wstep].
    + destruct Ho as [Hc ->]. destruct (alloc_granted h live R count I C Hc ltac:(lia)) as (h1 & base & R1 & E & I1 & C1 & HR1).
      rewrite E. cbn [bind]. destruct (IH h1 (live ++ [(base, count)]) R1 I1 C1 ltac:(lia)) as (h' & live' & R' & E' & I' & C' & HR').
      exists h', live', R'. split; [exact E'|]. split; [assumption|]. split; [assumption|lia].
    + destruct (nth_error live k) as [[base count]|] eqn:Hk; cbn [bind]; [|now apply IH].
      destruct (free_inv h live k (base, count) I Hk) as (h1 & E & I1 & Sm & _). cbn [fst snd] in E. rewrite E. cbn [bind].
      apply IH; [assumption|eapply cont_same; eassumption|assumption].
Qed.

Lemma cont_init : cont init 0.
Proof.
  split; [exists 0; split; [reflexivity|lia]|]. split; [eexists; unfold init, HINT_COUNT; cbn [hints hints_from]; rewrite Z.add_0_r; reflexivity|].
  split; [intros r []|]. left. repeat split.
Qed.

(** ** C26 fails: a heap whose first 16 GiB are in use *)
Lemma full_window_aborts grant h live R : inv h live -> cont h R -> R < 2 * GIB16 ->
  (forall q, 0 <= q < 2097152 -> in_live live q = true) -> alloc_pages grant h 1 = Abort.
Proof.
  intros I C HR Full. unfold alloc_pages. change (1 <=? 0) with false. cbv iota.
  assert (Wd : window h = 1).
  { destruct C as ((k & Ek & K) & (l & Eh) & _). unfold window. rewrite Eh. cbn [hd]. replace (BASE + R - BASE) with R by ring.
    unfold GIB16, ARENA_SIZE in *. rewrite Z.div_small by lia. reflexivity. }
  destruct (find_inv h live 1 false I ltac:(lia)) as [(h' & q & E & Q0 & I' & Sm & FA)|[E _]].
  - exfalso. destruct FA as [FA PW]. specialize (FA q ltac:(lia)). unfold free_page in FA. rewrite Full in FA by lia. rewrite andb_false_r in FA. discriminate.
  - rewrite E. cbn [bind Z.eqb].
    destruct (mheap_grow_spec grant h live 1 I ltac:(lia)) as [[E2 _]|(h1 & h2 & a & n & b & E2 & I2 & _)]; rewrite E2; cbn [bind]; [reflexivity|].
    destruct (Z.ltb_spec 0 (s_max (summ h2 0 0))) as [M|M]; cbn [bind]; [|reflexivity]. exfalso.
    destruct (i_sums h2 live I2 0 0) as (_ & (_ & (x & X1 & X2 & X3) & _) & _); [lia|change (sum_count 0) with 8192; lia|].
    change (0 * page_count 0) with 0 in *. change (page_count 0) with 2097152 in *.
    specialize (X3 x ltac:(lia)). cbn beta in X3. rewrite (i_marks h2 live I2 x) in X3 by lia. rewrite Full in X3 by lia. rewrite andb_false_r in X3. discriminate.
Qed.
