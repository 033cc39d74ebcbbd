From Coq Require Import Permutation.
From Verif Require Import Base Base_lemmas Zlist.
From Verif Require Import Gcbits_model Gcbits_spec.

Section Proof.
Variable sys : nat -> Z.
Hypothesis sys_apart : forall i j, i <> j -> disjoint (sys i) CHUNK (sys j) CHUNK.

Definition used_lists (s : arenas) : list Z := next_list s ++ current_list s ++ previous_list s.

(** the k bytes at p lie in the handed-out part of one of the arenas of l *)
Definition inside (s : arenas) (l : list Z) (p k : Z) : Prop :=
  exists a, In a l /\ a + HEADER <= p /\ p + k <= a + HEADER + idx s a.

Record good (s : arenas) : Prop := {
  g_nodup : NoDup (free_list s ++ used_lists s);
  g_sys : forall a, In a (free_list s ++ used_lists s) -> exists i, (i < calls s)%nat /\ a = sys i;
  g_idx : forall a, In a (used_lists s) -> 0 <= idx s a <= PAYLOAD;
  g_zero : forall a x, In a (next_list s) -> a + HEADER + idx s a <= x < a + CHUNK -> mem s x = 0 }.

Lemma arenas_apart s a b : good s -> In a (free_list s ++ used_lists s) -> In b (free_list s ++ used_lists s) -> a <> b ->
  disjoint a CHUNK b CHUNK.
Proof.
  intros G Ha Hb N. destruct (g_sys s G a Ha) as (i & _ & ->). destruct (g_sys s G b Hb) as (j & _ & ->).
  apply sys_apart. congruence.
Qed.

Lemma upd_same f a v : upd f a v a = v.
Proof. unfold upd. now rewrite Z.eqb_refl. Qed.
Lemma upd_other f a v x : x <> a -> upd f a v x = f x.
Proof. intros H. unfold upd. destruct (Z.eqb_spec x a); [contradiction|reflexivity]. Qed.

(** s' keeps what s promised to the owners of bitmaps *)
Record keeps (s s' : arenas) : Prop := {
  k_cur : current_list s' = current_list s;
  k_prev : previous_list s' = previous_list s;
  k_next : forall a, In a (next_list s) -> In a (next_list s');
  k_idx : forall a, In a (used_lists s) -> idx s a <= idx s' a;
  k_mem : forall a x, In a (used_lists s) -> a <= x < a + CHUNK -> mem s' x = mem s x }.

Lemma keeps_refl s : keeps s s.
Proof. constructor; auto; intros; lia. Qed.

Lemma keeps_used s s' a : keeps s s' -> In a (used_lists s) -> In a (used_lists s').
Proof.
  intros K H. unfold used_lists in *. rewrite (k_cur s s' K), (k_prev s s' K). rewrite !in_app_iff in *.
  pose proof (k_next s s' K a). tauto.
Qed.

Lemma keeps_trans s s1 s2 : keeps s s1 -> keeps s1 s2 -> keeps s s2.
Proof.
  intros K1 K2. constructor.
  - now rewrite (k_cur _ _ K2), (k_cur _ _ K1).
  - now rewrite (k_prev _ _ K2), (k_prev _ _ K1).
  - intros a H. apply (k_next _ _ K2), (k_next _ _ K1), H.
  - intros a H. pose proof (k_idx _ _ K1 a H). pose proof (k_idx _ _ K2 a (keeps_used _ _ _ K1 H)). lia.
  - intros a x H Hx. rewrite (k_mem _ _ K2 a x (keeps_used _ _ _ K1 H) Hx). apply (k_mem _ _ K1 a x H Hx).
Qed.

(** One successful bump allocation in the head of next_list. *)
Lemma bump_spec s a l n : good s -> next_list s = a :: l -> 0 < n -> idx s a + n <= PAYLOAD ->
  let s' := mk (upd (idx s) a (idx s a + n)) (free_list s) (next_list s) (current_list s) (previous_list s) (mem s) (calls s) in
  let p := a + HEADER + idx s a in
  good s' /\ keeps s s' /\ inside s' (next_list s') p n /\
  (forall x, p <= x < p + n -> mem s' x = 0) /\
  (forall q k, inside s (used_lists s) q k -> disjoint p n q k).
Proof.
  intros G E Hn Hf s' p.
  assert (Ha : In a (used_lists s)) by (unfold used_lists; rewrite E; now left).
  assert (Hall : In a (free_list s ++ used_lists s)) by (rewrite in_app_iff; tauto).
  pose proof (g_idx s G a Ha) as Hi.
  split; [|split; [|split; [|split]]].
  - constructor; cbn [free_list used_lists next_list current_list previous_list calls idx mem s'].
    + apply G.
    + apply G.
    + intros b Hb. destruct (Z.eq_dec b a) as [->|N]; [rewrite upd_same; lia|rewrite upd_other by assumption; now apply G].
    + intros b x Hb Hx. apply (g_zero s G b x Hb).
      destruct (Z.eq_dec b a) as [->|N]; [rewrite upd_same in Hx; lia|rewrite upd_other in Hx by assumption; lia].
  - constructor; cbn [free_list used_lists next_list current_list previous_list calls idx mem s']; auto.
    intros b Hb. destruct (Z.eq_dec b a) as [->|N]; [rewrite upd_same; lia|rewrite upd_other by assumption; lia].
  - exists a. cbn [next_list s' idx]. rewrite upd_same. subst p. rewrite E. split; [now left|]. lia.
  - intros x Hx. cbn [mem s']. apply (g_zero s G a x); [rewrite E; now left|]. subst p. unfold PAYLOAD, HEADER in *. lia.
  - intros q k (b & Hb & Hq1 & Hq2) x [X Y].
    destruct (Z.eq_dec b a) as [->|N]; [subst p; lia|].
    assert (Hball : In b (free_list s ++ used_lists s)) by (rewrite in_app_iff; tauto).
    pose proof (g_idx s G b Hb). apply (arenas_apart s a b G Hall Hball ltac:(congruence) x).
    unfold PAYLOAD, HEADER, CHUNK in *. subst p. lia.
Qed.

Lemma arena_new_spec s s1 a : good s -> arena_new sys s = (s1, a) ->
  NoDup (a :: free_list s1 ++ used_lists s1) /\ used_lists s1 = used_lists s /\
  next_list s1 = next_list s /\ current_list s1 = current_list s /\ previous_list s1 = previous_list s /\
  (forall b, In b (a :: free_list s1 ++ used_lists s1) -> exists i, (i < calls s1)%nat /\ b = sys i) /\
  idx s1 a = 0 /\ (forall b, b <> a -> idx s1 b = idx s b) /\
  (forall x, a <= x < a + CHUNK -> mem s1 x = 0) /\
  (forall b x, In b (used_lists s) -> b <= x < b + CHUNK -> mem s1 x = mem s x) /\
  (forall b, In b (free_list s1) -> In b (free_list s)).
Proof.
  intros G E. unfold arena_new in E.
  assert (Hclear : forall x, a <= x < a + CHUNK -> clear (mem s) a x = 0).
  { intros x Hx. unfold clear. destruct (Z.leb_spec a x); [|lia]. destruct (Z.ltb_spec x (a + CHUNK)); [reflexivity|lia]. }
  assert (Hkeep : forall b x, disjoint a CHUNK b CHUNK -> b <= x < b + CHUNK -> clear (mem s) a x = mem s x).
  { intros b x D Hx. unfold clear. destruct (Z.leb_spec a x); [|reflexivity].
    destruct (Z.ltb_spec x (a + CHUNK)); [|reflexivity]. exfalso. apply (D x). lia. }
  destruct (free_list s) as [|f l] eqn:F.
  - injection E as <- <-. cbn [free_list used_lists next_list current_list previous_list calls idx mem app].
    change (next_list s ++ current_list s ++ previous_list s) with (used_lists s).
    assert (Fr : forall b, In b (used_lists s) -> exists i, (i < calls s)%nat /\ b = sys i).
    { intros b Hb. apply (g_sys s G). rewrite in_app_iff. tauto. }
    assert (Ne : ~ In (sys (calls s)) (used_lists s)).
    { intros Hin. destruct (Fr _ Hin) as (i & Hi & Ei). apply (sys_apart i (calls s) ltac:(lia) (sys i)).
      rewrite <- Ei. unfold CHUNK. lia. }
    split. { constructor; [assumption|]. pose proof (g_nodup s G) as N. rewrite F in N. exact N. }
    repeat split; auto.
    + intros b [<-|Hb]; [exists (calls s); split; [lia|reflexivity]|]. destruct (Fr b Hb) as (i & Hi & ->). exists i. split; [lia|reflexivity].
    + apply upd_same.
    + intros b Hb. now apply upd_other.
    + intros b x Hb Hx. apply (Hkeep b x); [|assumption]. destruct (Fr b Hb) as (i & Hi & ->). apply sys_apart. lia.
  - injection E as <- <-. cbn [free_list used_lists next_list current_list previous_list calls idx mem].
    change (next_list s ++ current_list s ++ previous_list s) with (used_lists s).
    pose proof (g_nodup s G) as N. pose proof (g_sys s G) as Sy. rewrite F in N, Sy. cbn [app] in N, Sy.
    split; [exact N|]. repeat split; auto.
    + apply upd_same.
    + intros b Hb. now apply upd_other.
    + intros b x Hb Hx. apply (Hkeep b x); [|assumption].
      destruct (Sy f (or_introl eq_refl)) as (i & _ & Ei).
      destruct (Sy b ltac:(right; rewrite in_app_iff; tauto)) as (j & _ & Ej). rewrite Ei, Ej. apply sys_apart.
      intros Eij. assert (f = b) by congruence. inversion N as [|? ? H1 H2]. apply H1. rewrite in_app_iff. right. congruence.
    + intros b Hb. now right.
Qed.

Lemma try_alloc_some s a n : idx s a + n <= PAYLOAD ->
  try_alloc s (Some a) n = (mk (upd (idx s) a (idx s a + n)) (free_list s) (next_list s) (current_list s) (previous_list s) (mem s) (calls s), Some (a + HEADER + idx s a)).
Proof. intros H. unfold try_alloc. destruct (Z.ltb_spec PAYLOAD (idx s a + n)); [lia|reflexivity]. Qed.

Lemma try_alloc_none s a n : PAYLOAD < idx s a + n -> try_alloc s (Some a) n = (s, None).
Proof. intros H. unfold try_alloc. destruct (Z.ltb_spec PAYLOAD (idx s a + n)); [reflexivity|lia]. Qed.

Lemma gcbits_new_spec s count : good s -> 0 < count <= PAYLOAD * 8 ->
  exists s' p, gcbits_new sys s count = Ok (s', p) /\
  good s' /\ keeps s s' /\ inside s' (next_list s') p (bitmap_bytes count) /\
  (forall x, p <= x < p + bitmap_bytes count -> mem s' x = 0) /\
  (forall q k, inside s (used_lists s) q k -> disjoint p (bitmap_bytes count) q k).
Proof.
  intros G Hc. unfold gcbits_new. fold (bitmap_bytes count). set (n := bitmap_bytes count).
  assert (Hn : 0 < n <= PAYLOAD).
  { subst n. unfold bitmap_bytes, PAYLOAD, CHUNK, HEADER in *. Z.to_euclidean_division_equations; lia. }
  assert (New : try_alloc s (hd_error (next_list s)) n = (s, None) ->
     exists s' p, (let '(s0, fresh) := arena_new sys s in
      match try_alloc s0 (hd_error (next_list s0)) n with
      | (s1, Some p) => Ok (mk (idx s1) (fresh :: free_list s1) (next_list s1) (current_list s1) (previous_list s1) (mem s1) (calls s1), p)
      | (s1, None) =>
          match try_alloc s1 (Some fresh) n with
          | (_, None) => Abort
          | (s2, Some p) => Ok (mk (idx s2) (free_list s2) (fresh :: next_list s2) (current_list s2) (previous_list s2) (mem s2) (calls s2), p)
          end
      end) = Ok (s', p) /\
  good s' /\ keeps s s' /\ inside s' (next_list s') p n /\
  (forall x, p <= x < p + n -> mem s' x = 0) /\
  (forall q k, inside s (used_lists s) q k -> disjoint p n q k)).
  { intros Hnone. destruct (arena_new sys s) as [s0 fresh] eqn:E.
    destruct (arena_new_spec s s0 fresh G E) as (N & U & Nx & Cu & Pr & Sy & I0 & Io & Z0 & Mk & Fl).
    assert (Hnone' : try_alloc s0 (hd_error (next_list s0)) n = (s0, None)).
    { rewrite Nx. destruct (next_list s) as [|a l] eqn:NL; [reflexivity|]. cbn [hd_error] in *.
      assert (L : PAYLOAD < idx s a + n).
      { destruct (Z.lt_ge_cases PAYLOAD (idx s a + n)) as [|Le]; [assumption|]. rewrite try_alloc_some in Hnone by assumption. discriminate. }
      apply try_alloc_none. rewrite Io; [assumption|]. intros ->. inversion N; subst.
      apply H1. rewrite U, in_app_iff. right. unfold used_lists. rewrite NL. now left. }
    rewrite Hnone'. rewrite try_alloc_some by lia. rewrite I0. cbn [idx free_list next_list current_list previous_list mem calls].
    set (sf := mk (idx s0) (free_list s0) (fresh :: next_list s0) (current_list s0) (previous_list s0) (mem s0) (calls s0)).
    assert (Usf : used_lists sf = fresh :: used_lists s) by (unfold used_lists; cbn [next_list current_list previous_list sf]; now rewrite Nx, Cu, Pr).
    assert (Gf : good sf).
    { constructor; rewrite ?Usf; cbn [free_list calls idx mem next_list sf].
      - apply (Permutation_NoDup (l := fresh :: free_list s0 ++ used_lists s0)); [|assumption].
        rewrite U. apply Permutation_middle.
      - intros a Ha. apply Sy. rewrite U. rewrite in_app_iff in Ha. cbn [In] in *. rewrite in_app_iff. tauto.
      - intros a [<-|Ha]; [unfold PAYLOAD, CHUNK, HEADER; lia|]. rewrite Io; [now apply G|].
        intros ->. inversion N; subst. apply H1. rewrite U, in_app_iff. tauto.
      - intros a x [<-|Ha] Hx.
        + apply Z0. unfold HEADER in Hx. lia.
        + rewrite Nx in Ha. assert (Hu : In a (used_lists s)) by (unfold used_lists; rewrite in_app_iff; tauto).
          assert (Na : a <> fresh). { intros ->. inversion N; subst. apply H1. rewrite U, in_app_iff. tauto. }
          rewrite Io in Hx by assumption. rewrite (Mk a x Hu); [now apply (g_zero s G a x)|].
          pose proof (g_idx s G a Hu). unfold HEADER in Hx. lia. }
    assert (Kf : keeps s sf).
    { constructor; cbn [free_list calls idx mem next_list current_list previous_list sf]; auto.
      - intros a Ha. right. now rewrite Nx.
      - intros a Ha. rewrite Io; [lia|]. intros ->. inversion N; subst. apply H1. rewrite U, in_app_iff. tauto. }
    destruct (bump_spec sf fresh (next_list s0) n Gf eq_refl) as (B1 & B2 & B3 & B4 & B5); [lia|cbn [idx sf]; lia|].
    cbn [idx free_list next_list current_list previous_list mem calls sf] in *. rewrite I0 in *.
    eexists. eexists. split; [reflexivity|].
    split; [exact B1|]. split; [eapply keeps_trans; eassumption|]. split; [exact B3|]. split; [exact B4|].
    intros q k (a & Ha & Hq). apply B5. exists a. rewrite Usf. split; [now right|].
    unfold sf; cbn [idx]. rewrite Io; [assumption|]. intros ->. inversion N; subst. apply H1. rewrite U, in_app_iff. tauto. }
  destruct (next_list s) as [|a l] eqn:NL.
  - cbn [hd_error] in *. cbn [try_alloc]. rewrite NL. cbn [hd_error try_alloc]. apply New. reflexivity.
  - cbn [hd_error] in *. destruct (Z.le_gt_cases (idx s a + n) PAYLOAD) as [Le|Gt].
    + rewrite try_alloc_some by assumption.
      destruct (bump_spec s a l n G NL) as (B1 & B2 & B3 & B4 & B5); [lia|lia|].
      eexists. eexists. split; [reflexivity|]. auto.
    + rewrite !try_alloc_none by lia. rewrite NL. cbn [hd_error]. rewrite try_alloc_none by lia. apply New. now rewrite try_alloc_none by lia.
Qed.

Lemma inside_keeps s s' p k : keeps s s' -> inside s (next_list s ++ current_list s) p k -> inside s' (next_list s' ++ current_list s') p k.
Proof.
  intros K (a & Ha & H1 & H2). exists a. rewrite in_app_iff in *. rewrite (k_cur _ _ K).
  split; [pose proof (k_next _ _ K a); tauto|].
  assert (Hu : In a (used_lists s)) by (unfold used_lists; rewrite !in_app_iff; tauto).
  pose proof (k_idx _ _ K a Hu). lia.
Qed.

Lemma inside_keeps_used s s' p k : keeps s s' -> inside s (used_lists s) p k -> inside s' (used_lists s') p k.
Proof.
  intros K (a & Ha & H1 & H2). exists a. split; [now apply (keeps_used s)|]. pose proof (k_idx _ _ K a Ha). lia.
Qed.

Lemma inside_incl s l l' p k : incl l l' -> inside s l p k -> inside s l' p k.
Proof. intros I (a & Ha & H). exists a. auto. Qed.

Lemma incl_nc s : incl (next_list s ++ current_list s) (used_lists s).
Proof. intros a. unfold used_lists. rewrite !in_app_iff. tauto. Qed.
Lemma incl_n s : incl (next_list s) (used_lists s).
Proof. intros a. unfold used_lists. rewrite !in_app_iff. tauto. Qed.

Lemma read_ext m m' p n : (forall x, p <= x < p + n -> m' x = m x) -> read_bytes m' p n = read_bytes m p n.
Proof.
  intros H. unfold read_bytes. apply map_ext_in. intros i Hi. apply in_seq in Hi. apply H. lia.
Qed.

Lemma read_keeps s s' p n : good s -> keeps s s' -> inside s (used_lists s) p n -> read_bytes (mem s') p n = read_bytes (mem s) p n.
Proof.
  intros G K (a & Ha & H1 & H2). apply read_ext. intros x Hx. apply (k_mem _ _ K a x Ha).
  pose proof (g_idx s G a Ha). unfold PAYLOAD, HEADER in *. lia.
Qed.

Lemma read_zeros m p n : (forall x, p <= x < p + n -> m x = 0) -> read_bytes m p n = zeros n.
Proof.
  intros H. unfold read_bytes, zeros.
  transitivity (map (fun _ => 0) (seq 0 (Z.to_nat n))).
  - apply map_ext_in. intros i Hi. apply in_seq in Hi. apply H. lia.
  - generalize 0%nat. induction (Z.to_nat n); intros k; [reflexivity|]. cbn [seq map repeat]. now rewrite IHn0.
Qed.

Lemma disjoint_sym a n b m : disjoint a n b m -> disjoint b m a n.
Proof. intros H x Hx. apply (H x). tauto. Qed.

Lemma apart_perm l l' : Permutation l l' -> apart l -> apart l'.
Proof.
  induction 1 as [|x l l' P IH|x y l|l l' l'' P1 IH1 P2 IH2]; intros A; auto.
  - inversion A; subst. constructor; [|now apply IH]. rewrite Forall_forall in *. intros q Hq. apply H1.
    eapply Permutation_in; [apply Permutation_sym; eassumption|assumption].
  - inversion A as [|? ? Hy A1]; subst. inversion A1 as [|? ? Hx A2]; subst. inversion Hy; subst.
    constructor; [constructor; [now apply disjoint_sym|assumption]|]. now constructor.
Qed.

Lemma apart_tail x l : apart (x :: l) -> apart l.
Proof. now inversion 1. Qed.

(** What each span owns, between collections: [swept] spans have already been given new mark bits. *)
Definition owns (s : arenas) (sp : span) : Prop :=
  0 < obj_count sp <= PAYLOAD * 8 /\
  inside s (used_lists s) (alloc_bits sp) (bitmap_bytes (obj_count sp)) /\
  inside s (next_list s ++ current_list s) (gcmark_bits sp) (bitmap_bytes (obj_count sp)).

Definition owns_swept (s : arenas) (sp : span) : Prop :=
  0 < obj_count sp <= PAYLOAD * 8 /\
  inside s (next_list s ++ current_list s) (alloc_bits sp) (bitmap_bytes (obj_count sp)) /\
  inside s (next_list s) (gcmark_bits sp) (bitmap_bytes (obj_count sp)).

Lemma owns_keeps s s' sp : keeps s s' -> owns s sp -> owns s' sp.
Proof.
  intros K (H1 & H2 & H3). split; [assumption|]. split; [now apply (inside_keeps_used s)|now apply (inside_keeps s)].
Qed.

Lemma swept_keeps s s' sp : keeps s s' -> owns_swept s sp -> owns_swept s' sp.
Proof.
  intros K (H1 & H2 & H3). split; [assumption|]. split; [now apply (inside_keeps s)|].
  destruct H3 as (a & Ha & H4 & H5). exists a. split; [now apply (k_next _ _ K)|].
  pose proof (k_idx _ _ K a ltac:(unfold used_lists; rewrite in_app_iff; tauto)). lia.
Qed.

Lemma owns_in s l r : Forall (owns s) l -> In r (regs l) -> inside s (used_lists s) (fst r) (snd r).
Proof.
  intros H I. unfold regs in I. apply in_flat_map in I. destruct I as (sp & Hsp & I). rewrite Forall_forall in H.
  destruct (H sp Hsp) as (_ & H2 & H3). destruct I as [<-|[<-|[]]]; cbn [fst snd]; [assumption|].
  eapply inside_incl; [apply incl_nc|assumption].
Qed.

Lemma swept_owns s sp : owns_swept s sp -> owns s sp.
Proof.
  intros (H1 & H2 & H3). split; [assumption|]. split; (eapply inside_incl; [|eassumption]).
  - apply incl_nc.
  - intros a. rewrite in_app_iff. tauto.
Qed.

Lemma shows_keeps s s' sp a : good s -> keeps s s' -> owns s sp -> shows (mem s) sp a -> shows (mem s') sp a.
Proof.
  intros G K (H1 & H2 & H3) [S1 S2]. split.
  - now rewrite (read_keeps s s').
  - rewrite (read_keeps s s'); auto. eapply inside_incl; [apply incl_nc|assumption].
Qed.

Lemma shows_all_keeps s s' l al : good s -> keeps s s' -> Forall (owns s) l -> Forall2 (shows (mem s)) l al -> Forall2 (shows (mem s')) l al.
Proof.
  intros G K O F. induction F as [|sp a l al S F IH]; [constructor|]. inversion O; subst.
  constructor; [eapply shows_keeps; eauto|auto].
Qed.

Definition inv (w : arenas * list span) (al : list aspan) : Prop :=
  good (fst w) /\ Forall (owns (fst w)) (snd w) /\ apart (regs (snd w)) /\ Forall2 (shows (mem (fst w))) (snd w) al.

Lemma regs_app l1 l2 : regs (l1 ++ l2) = regs l1 ++ regs l2.
Proof. unfold regs. apply flat_map_app. Qed.

Lemma apart_fresh s l p n extra : Forall (owns s) l -> apart (extra ++ regs l) ->
  (forall r, In r extra -> inside s (used_lists s) (fst r) (snd r)) ->
  (forall q k, inside s (used_lists s) q k -> disjoint p n q k) -> apart ((p, n) :: extra ++ regs l).
Proof.
  intros O A E D. constructor; [|assumption]. rewrite Forall_forall. intros r Hr. cbn [fst snd].
  apply D. rewrite in_app_iff in Hr. destruct Hr as [Hr|Hr]; [auto|eapply owns_in; eauto].
Qed.

Lemma zlen_zeros n : 0 <= n -> zlen (zeros n) = n.
Proof. intros H. unfold zeros, zlen. rewrite repeat_length. lia. Qed.

Lemma zlen_read m p n : 0 <= n -> zlen (read_bytes m p n) = n.
Proof. intros H. unfold read_bytes, zlen. rewrite map_length, seq_length. lia. Qed.

Lemma bitmap_bytes_pos count : 0 < count -> 0 < bitmap_bytes count.
Proof. intros H. unfold bitmap_bytes. Z.to_euclidean_division_equations; lia. Qed.

Lemma new_inv s l al count : inv (s, l) al -> 0 < count <= PAYLOAD * 8 ->
  exists s' l', step sys (s, l) (GNew count) = Ok (s', l') /\ inv (s', l') (spec_step al (GNew count)).
Proof.
  intros (G & O & A & F) Hc. cbn [fst snd] in *. cbn [step]. unfold span_new.
  destruct (gcbits_new_spec s count G Hc) as (s1 & a & E1 & G1 & K1 & I1 & Z1 & D1). rewrite E1. cbn [bind].
  destruct (gcbits_new_spec s1 count G1 Hc) as (s2 & m & E2 & G2 & K2 & I2 & Z2 & D2). rewrite E2. cbn [bind].
  eexists. eexists. split; [reflexivity|]. cbn [spec_step].
  assert (K : keeps s s2) by (eapply keeps_trans; eauto).
  assert (Ia : inside s1 (used_lists s1) a (bitmap_bytes count)) by (eapply inside_incl; [apply incl_n|assumption]).
  split; [assumption|]. cbn [fst snd]. split; [|split].
  - apply Forall_app. split.
    + eapply Forall_impl; [|exact O]. intros sp. now apply owns_keeps.
    + constructor; [|constructor]. split; [assumption|]. cbn [obj_count alloc_bits gcmark_bits]. split.
      * now apply (inside_keeps_used s1).
      * eapply inside_incl; [|exact I2]. intros x. rewrite in_app_iff. tauto.
  - rewrite regs_app.
    apply (apart_perm ((m, bitmap_bytes count) :: [(a, bitmap_bytes count)] ++ regs l)).
    { cbn [regs flat_map app alloc_bits gcmark_bits obj_count].
      change (flat_map _ l) with (regs l).
      etransitivity; [apply perm_swap|].
      apply (Permutation_app_comm [(a, bitmap_bytes count); (m, bitmap_bytes count)] (regs l)). }
    apply (apart_fresh s1); auto.
    + eapply Forall_impl; [|exact O]. intros sp. now apply owns_keeps.
    + apply (apart_fresh s l a (bitmap_bytes count) []); auto. intros r [].
    + intros r [<-|[]]. exact Ia.
  - apply Forall2_app.
    + eapply shows_all_keeps; [exact G|exact K|exact O|exact F].
    + constructor; [|constructor]. split; cbn [obj_count alloc_bits gcmark_bits fst snd].
      * rewrite (read_keeps s1 s2); auto. apply read_zeros; assumption.
      * apply read_zeros; assumption.
Qed.

Lemma Forall2_nth_l {A B} (R : A -> B -> Prop) l l' k : Forall2 R l l' ->
  match nth_error l k, nth_error l' k with Some x, Some y => R x y | None, None => True | _, _ => False end.
Proof. intros F. revert k. induction F; intros [|k]; cbn [nth_error]; auto. apply IHF. Qed.

Lemma Forall2_list_set {A B} (R R' : A -> B -> Prop) l l' k y : Forall2 R l l' ->
  (forall i x y, i <> k -> nth_error l i = Some x -> nth_error l' i = Some y -> R x y -> R' x y) ->
  (forall x, nth_error l k = Some x -> R' x y) -> Forall2 R' l (list_set l' k y).
Proof.
  intros F. revert k. induction F as [|a b l l' H F IH]; intros k H1 H2; [destruct k; constructor|].
  destruct k as [|k]; cbn [list_set].
  - constructor; [now apply H2|]. clear IH H2. assert (Q : forall i x y, nth_error l i = Some x -> nth_error l' i = Some y -> R x y -> R' x y).
    { intros i x z Hx Hy. apply (H1 (S i)); auto. }
    clear H1 H. induction F; constructor; [apply (Q O); auto|]. apply IHF. intros i. apply (Q (S i)).
  - constructor; [apply (H1 O); auto|]. apply IH; [intros i x z N Hx Hy; apply (H1 (S i)); auto|exact H2].
Qed.

Lemma nth_error_ext {A} (l m : list A) : (forall i, nth_error l i = nth_error m i) -> l = m.
Proof.
  revert m. induction l as [|x l IH]; intros [|y m] H; [reflexivity|discriminate (H O)|discriminate (H O)|].
  f_equal; [pose proof (H O) as E; cbn in E; congruence|]. apply IH. intros i. apply (H (S i)).
Qed.

Lemma read_write m p n off v : 0 <= off < n -> read_bytes (upd m (p + off) v) p n = write (read_bytes m p n) off v.
Proof.
  intros H. unfold write. rewrite zlen_read by lia.
  destruct (Z.leb_spec 0 off); [|lia]. destruct (Z.ltb_spec off n); [|lia]. cbn [andb].
  apply nth_error_ext. intros i. rewrite nth_error_list_set.
  assert (L : forall m0, length (read_bytes m0 p n) = Z.to_nat n) by (intros m0; unfold read_bytes; now rewrite map_length, seq_length).
  rewrite L. unfold read_bytes.
  destruct (Nat.eqb_spec (Z.to_nat off) i) as [<-|N].
  - destruct (Nat.ltb_spec (Z.to_nat off) (Z.to_nat n)); [|lia].
    rewrite nth_error_map, (nth_error_nth' _ 0%nat) by (rewrite seq_length; lia). rewrite seq_nth by lia. cbn [option_map].
    f_equal. rewrite Nat.add_0_l, Z2Nat.id by lia. apply upd_same.
  - rewrite !nth_error_map. destruct (nth_error (seq 0 (Z.to_nat n)) i) as [j|] eqn:Ej; [|reflexivity].
    cbn [option_map]. f_equal. apply upd_other.
    assert (i < Z.to_nat n)%nat by (rewrite <- (seq_length (Z.to_nat n) 0); apply nth_error_Some; congruence).
    rewrite (nth_error_nth' _ 0%nat) in Ej by (rewrite seq_length; lia). rewrite seq_nth in Ej by lia. injection Ej as <-. lia.
Qed.

Lemma apart_in l1 x l2 y l3 : apart (l1 ++ x :: l2 ++ y :: l3) -> disjoint (fst x) (snd x) (fst y) (snd y).
Proof.
  intros A. induction l1 as [|z l1 IH]; cbn [app] in A.
  - inversion A; subst. rewrite Forall_forall in H1. apply H1. rewrite in_app_iff. right. now left.
  - apply apart_tail in A. auto.
Qed.

Lemma in_split2 (l1 l2 : list (Z * Z)) x y : In x l1 -> In y l2 -> forall l3, apart (l1 ++ l2 ++ l3) -> disjoint (fst x) (snd x) (fst y) (snd y).
Proof.
  intros Hx Hy l3 A. apply in_split in Hx, Hy. destruct Hx as (u & v & ->). destruct Hy as (u' & v' & ->).
  rewrite <- !app_assoc in A. cbn [app] in A.
  apply (apart_in u x (v ++ u') y (v' ++ l3)). rewrite <- !app_assoc. exact A.
Qed.

Lemma regs_other l i j sp sp' r r' : apart (regs l) -> i <> j -> nth_error l i = Some sp -> nth_error l j = Some sp' ->
  In r (regs [sp]) -> In r' (regs [sp']) -> disjoint (fst r) (snd r) (fst r') (snd r').
Proof.
  intros A N E E' H H'.
  assert (G : forall i j sp sp' r r', (i < j)%nat -> nth_error l i = Some sp -> nth_error l j = Some sp' ->
     In r (regs [sp]) -> In r' (regs [sp']) -> disjoint (fst r) (snd r) (fst r') (snd r')).
  { clear - A. intros i j sp sp' r r' L E E' H H'.
    apply nth_error_split in E. destruct E as (l1 & l2 & -> & L1).
    rewrite nth_error_app2 in E' by lia. destruct (j - length l1)%nat as [|j'] eqn:Ej; [lia|]. cbn [nth_error] in E'.
    apply nth_error_split in E'. destruct E' as (l3 & l4 & -> & L3).
    rewrite regs_app in A. change (sp :: l3 ++ sp' :: l4) with ([sp] ++ l3 ++ [sp'] ++ l4) in A.
    rewrite !regs_app in A.
    assert (A2 : apart (regs [sp] ++ (regs l3 ++ regs [sp']) ++ regs l4)).
    { rewrite <- app_assoc. clear - A. induction (regs l1); [exact A|]. apply IHl. eapply apart_tail. exact A. }
    apply (in_split2 (regs [sp]) (regs l3 ++ regs [sp']) r r' H ltac:(rewrite in_app_iff; tauto) (regs l4) A2). }
  destruct (Nat.lt_trichotomy i j) as [L|[->|L]]; [eapply G; eauto|contradiction|].
  apply disjoint_sym. eapply G; [exact L|eassumption..].
Qed.

Lemma write_inv s l al k mark off v : inv (s, l) al ->
  exists s' l', step sys (s, l) (GWrite k mark off v) = Ok (s', l') /\ inv (s', l') (spec_step al (GWrite k mark off v)).
Proof.
  intros (G & O & A & F). cbn [fst snd] in *. cbn [step spec_step].
  pose proof (Forall2_nth_l _ _ _ k F) as Hk.
  destruct (nth_error l k) as [sp|] eqn:El; destruct (nth_error al k) as [[ab mb]|] eqn:Eal; try contradiction.
  2: { exists s, l. split; [reflexivity|]. split; auto. }
  destruct Hk as [S1 S2]. cbn [fst snd] in S1, S2.
  pose proof (nth_error_In _ _ El) as Hin. rewrite Forall_forall in O. pose proof (O sp Hin) as (Oc & Oa & Om).
  set (n := bitmap_bytes (obj_count sp)) in *.
  assert (Hn : 0 < n) by (apply bitmap_bytes_pos; lia).
  destruct ((0 <=? off) && (off <? n)) eqn:B.
  - apply andb_true_iff in B. destruct B as [B1 B2]. apply Z.leb_le in B1. apply Z.ltb_lt in B2.
    eexists. eexists. split; [reflexivity|].
    set (q := if mark then gcmark_bits sp else alloc_bits sp).
    assert (Iq : inside s (used_lists s) q n) by (subst q; destruct mark; [eapply inside_incl; [apply incl_nc|assumption]|assumption]).
    split; [|split; [|split]]; cbn [fst snd]; unfold write_byte; fold q.
    + constructor; cbn [free_list used_lists next_list current_list previous_list calls idx mem]; try apply G.
      intros b x Hb Hx. rewrite upd_other; [now apply (g_zero s G b x)|]. intros ->.
      destruct Iq as (c & Hc & Q1 & Q2).
      assert (Hbu : In b (used_lists s)) by (unfold used_lists; rewrite in_app_iff; tauto).
      destruct (Z.eq_dec c b) as [->|N]; [lia|].
      pose proof (g_idx s G b Hbu). pose proof (g_idx s G c Hc).
      apply (arenas_apart s c b G ltac:(rewrite in_app_iff; tauto) ltac:(rewrite in_app_iff; tauto) N (q + off)).
      unfold PAYLOAD, HEADER in *. lia.
    + rewrite Forall_forall. intros x Hx. exact (O x Hx).
    + exact A.
    + cbn [mem].
      apply Forall2_list_set with (R := shows (mem s)); [exact F| |].
      * intros i x y N Ex Ey [T1 T2].
        assert (Dj : forall p, In (p, bitmap_bytes (obj_count x)) (regs [x]) -> disjoint q n p (bitmap_bytes (obj_count x))).
        { intros p Hp. apply (regs_other l k i sp x (q, n) (p, bitmap_bytes (obj_count x))); auto.
          subst q. unfold n. destruct mark; [right; now left|now left]. }
        split; [rewrite <- T1|rewrite <- T2]; apply read_ext; intros z Hz; apply upd_other; intros ->.
        -- apply (Dj (alloc_bits x) ltac:(now left) (q + off)). lia.
        -- apply (Dj (gcmark_bits x) ltac:(right; now left) (q + off)). lia.
      * intros x Ex. rewrite El in Ex. injection Ex as <-.
        assert (D : disjoint (alloc_bits sp) n (gcmark_bits sp) n).
        { apply nth_error_split in El. destruct El as (l1 & l2 & -> & _). rewrite regs_app in A.
          change (regs (sp :: l2)) with ((alloc_bits sp, n) :: [] ++ (gcmark_bits sp, n) :: regs l2) in A.
          apply apart_in in A. exact A. }
        subst q. destruct mark; split; cbn [fst snd]; fold n.
        -- rewrite <- S1. apply read_ext. intros z Hz. apply upd_other. intros ->. apply (D (gcmark_bits sp + off)). lia.
        -- rewrite <- S2. apply read_write. lia.
        -- rewrite <- S1. apply read_write. lia.
        -- rewrite <- S2. apply read_ext. intros z Hz. apply upd_other. intros ->. apply (D (alloc_bits sp + off)). lia.
  - eexists. eexists. split; [reflexivity|]. split; [assumption|]. split; [now rewrite Forall_forall|]. split; [assumption|]. cbn [fst snd].
    assert (Wn : forall u : list Z, zlen u = n -> write u off v = u).
    { intros u Hu. unfold write. rewrite Hu. now rewrite B. }
    assert (L1 : zlen ab = n) by (rewrite <- S1; apply zlen_read; lia).
    assert (L2 : zlen mb = n) by (rewrite <- S2; apply zlen_read; lia).
    rewrite !Wn by assumption.
    apply Forall2_list_set with (R := shows (mem s)); auto.
    intros x Ex. rewrite El in Ex. injection Ex as <-. destruct mark; split; assumption.
Qed.

Lemma sweep_inv l : forall s al keep done, good s -> Forall (owns s) l -> Forall (owns_swept s) done ->
  apart (regs done ++ regs l) -> Forall2 (shows (mem s)) l al ->
  exists s' l', sweep_all sys s l keep = Ok (s', l') /\ good s' /\ keeps s s' /\
    Forall (owns_swept s') (done ++ l') /\ apart (regs (done ++ l')) /\ Forall2 (shows (mem s')) l' (survive al keep).
Proof.
  induction l as [|sp l IH]; intros s al keep done G O D A F.
  - inversion F; subst. exists s, []. cbn [sweep_all survive]. rewrite !app_nil_r in *. split; [reflexivity|].
    split; [assumption|]. split; [apply keeps_refl|]. auto.
  - inversion F as [|? [ab mb] ? al' [S1 S2] F']; subst. inversion O as [|? ? Osp O']; subst. cbn [fst snd] in *.
    destruct Osp as (Oc & Oa & Om). cbn [sweep_all]. unfold sweep_span. set (n := bitmap_bytes (obj_count sp)) in *.
    destruct (gcbits_new_spec s (obj_count sp) G Oc) as (s1 & m & E1 & G1 & K1 & I1 & Z1 & D1). rewrite E1. cbn [bind].
    fold n in I1, Z1, D1.
    set (sp' := mk_span (obj_count sp) (gcmark_bits sp) m).
    assert (O1 : Forall (owns s1) l) by (eapply Forall_impl; [|exact O']; intros x; now apply owns_keeps).
    assert (Dn1 : Forall (owns_swept s1) done) by (eapply Forall_impl; [|exact D]; intros x; now apply swept_keeps).
    assert (Osp' : owns_swept s1 sp').
    { split; [assumption|]. cbn [alloc_bits gcmark_bits obj_count sp']. split; [now apply (inside_keeps s)|exact I1]. }
    assert (F1 : Forall2 (shows (mem s1)) l al') by (exact (shows_all_keeps s s1 l al' G K1 O' F')).
    assert (Hn : 0 < n) by (apply bitmap_bytes_pos; lia).
    (* regions without the old alloc bits, with the new mark bits in front *)
    assert (A1 : apart ((gcmark_bits sp, n) :: regs done ++ regs l)).
    { apply (apart_tail (alloc_bits sp, n)). apply (apart_perm (regs done ++ regs (sp :: l))); [|exact A].
      change (regs (sp :: l)) with ([(alloc_bits sp, n); (gcmark_bits sp, n)] ++ regs l).
      change ((alloc_bits sp, n) :: (gcmark_bits sp, n) :: regs done ++ regs l)
        with ([(alloc_bits sp, n); (gcmark_bits sp, n)] ++ regs done ++ regs l).
      rewrite !app_assoc. apply Permutation_app_tail. apply Permutation_app_comm. }
    assert (A2 : apart ((m, n) :: (gcmark_bits sp, n) :: regs done ++ regs l)).
    { constructor; [|exact A1]. rewrite Forall_forall. intros r Hr. cbn [fst snd]. apply D1.
      destruct Hr as [<-|Hr]; [eapply inside_incl; [apply incl_nc|exact Om]|].
      rewrite in_app_iff in Hr. destruct Hr as [Hr|Hr].
      - apply (owns_in s done r); [|assumption]. eapply Forall_impl; [|exact D]. intros x. apply swept_owns.
      - now apply (owns_in s l r). }
    destruct (hd true keep) eqn:Hk.
    + destruct (IH s1 al' (tl keep) (done ++ [sp']) G1 O1) as (s2 & l2 & E2 & G2 & K2 & Dn2 & A3 & F2).
      * apply Forall_app. split; [assumption|]. constructor; [assumption|constructor].
      * apply (apart_perm ((m, n) :: (gcmark_bits sp, n) :: regs done ++ regs l)); [|exact A2].
        rewrite regs_app, <- app_assoc. change (regs [sp']) with [(gcmark_bits sp, n); (m, n)].
        etransitivity; [apply perm_swap|].
        change ((gcmark_bits sp, n) :: (m, n) :: regs done ++ regs l) with ([(gcmark_bits sp, n); (m, n)] ++ regs done ++ regs l).
        rewrite !app_assoc. apply Permutation_app_tail. apply Permutation_app_comm.
      * assumption.
      * rewrite E2. cbn [bind]. eexists. eexists. split; [reflexivity|]. rewrite <- app_assoc in Dn2, A3. cbn [app] in Dn2, A3.
        split; [assumption|]. split; [eapply keeps_trans; eassumption|]. split; [assumption|]. split; [assumption|].
        cbn [survive]. rewrite Hk. constructor; [|assumption].
        eapply (shows_keeps s1 s2); [assumption|assumption|now apply swept_owns|].
        split; cbn [fst snd obj_count alloc_bits gcmark_bits sp']; fold n.
        -- rewrite (read_keeps s s1); auto. eapply inside_incl; [apply incl_nc|exact Om].
        -- rewrite <- S2, zlen_read by lia. now apply read_zeros.
    + destruct (IH s1 al' (tl keep) done G1 O1 Dn1) as (s2 & l2 & E2 & G2 & K2 & Dn2 & A3 & F2); [|assumption|].
      * eapply apart_tail, A1.
      * rewrite E2. cbn [bind]. eexists. eexists. split; [reflexivity|].
        split; [assumption|]. split; [eapply keeps_trans; eassumption|]. cbn [survive]. rewrite Hk. auto.
Qed.

Lemma epoch_good s : good s -> good (epoch s).
Proof.
  intros G. unfold epoch.
  assert (P : Permutation (free_list s ++ used_lists s) ((previous_list s ++ free_list s) ++ used_lists (epoch s))).
  { unfold used_lists, epoch. cbn [next_list current_list previous_list app].
    etransitivity; [apply Permutation_app_comm|]. rewrite <- !app_assoc.
    etransitivity; [|apply Permutation_app_comm]. rewrite <- !app_assoc.
    etransitivity; [|rewrite app_assoc, app_assoc; apply Permutation_app_comm]. rewrite <- !app_assoc.
    apply (Permutation_trans (l' := (next_list s ++ current_list s) ++ previous_list s ++ free_list s)); [now rewrite <- app_assoc|].
    etransitivity; [apply Permutation_app_comm|]. rewrite <- !app_assoc. reflexivity. }
  constructor; cbn [free_list calls idx mem next_list].
  - eapply Permutation_NoDup; [exact P|apply G].
  - intros a Ha. apply (g_sys s G). eapply Permutation_in; [apply Permutation_sym; exact P|exact Ha].
  - intros a Ha. apply (g_idx s G). unfold used_lists in *. cbn [next_list current_list previous_list epoch app] in Ha.
    rewrite !in_app_iff in *. tauto.
  - intros a x [].
Qed.

Lemma collect_inv s l al keep : inv (s, l) al ->
  exists s' l', step sys (s, l) (GCollect keep) = Ok (s', l') /\ inv (s', l') (spec_step al (GCollect keep)).
Proof.
  intros (G & O & A & F). cbn [fst snd] in *. cbn [step spec_step]. unfold collect.
  destruct (sweep_inv l s al keep [] G O) as (s' & l' & E & G' & K & Dn & A' & F'); [constructor|exact A|exact F|].
  rewrite E. cbn [bind app] in *. eexists. eexists. split; [reflexivity|]. split; [now apply epoch_good|]. cbn [fst snd].
  split; [|split; [assumption|exact F']].
  eapply Forall_impl; [|exact Dn]. intros sp (H1 & H2 & H3). split; [assumption|]. split.
  - destruct H2 as (a & Ha & H2). exists a. split; [|exact H2]. unfold used_lists, epoch. cbn [next_list current_list previous_list].
    rewrite !in_app_iff in *. tauto.
  - destruct H3 as (a & Ha & H3). exists a. split; [|exact H3]. unfold epoch. cbn [next_list current_list]. exact Ha.
Qed.

Lemma run_inv ops : forall w al, inv w al -> Forall op_ok ops ->
  exists w', run sys w ops = Ok w' /\ inv w' (fold_left spec_step ops al).
Proof.
  induction ops as [|o ops IH]; intros [s l] al I H; [exists (s, l); split; [reflexivity|assumption]|].
  inversion H; subst. cbn [run fold_left].
  assert (E : exists s' l', step sys (s, l) o = Ok (s', l') /\ inv (s', l') (spec_step al o)).
  { destruct o; [now apply new_inv|now apply write_inv|now apply collect_inv]. }
  destruct E as (s' & l' & E & I'). rewrite E. cbn [bind]. apply IH; assumption.
Qed.

Lemma init_inv : inv (init, []) [].
Proof.
  split; [|split; [constructor|split; constructor]].
  constructor; cbn; try (intros; contradiction). constructor.
Qed.

End Proof.
