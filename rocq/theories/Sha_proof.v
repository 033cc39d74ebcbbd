(** Proofs about SHA-256. *)
From Verif Require Import Base Sha_model Sha_spec.

Lemma u32_word x : u32 x = word x.
Proof. reflexivity. Qed.
Lemma rotr_ROTR v n : rotr v n = ROTR n v.
Proof. reflexivity. Qed.

(** * Constants *)
Definition root_check (pc : Z * Z) : bool :=
  let (p, c) := pc in
  (0 <=? c) && (c <? 4294967296)
  && existsb (fun q => ((q * 4294967296 + c) ^ 3 <=? p * 79228162514264337593543950336)
                       && (p * 79228162514264337593543950336 <? (q * 4294967296 + c + 1) ^ 3)) [1; 2; 3; 4; 5; 6].
Lemma root_check_ok p c : root_check (p, c) = true -> cube_root_bits p c.
Proof.
  unfold root_check, cube_root_bits. rewrite !andb_true_iff, Z.leb_le, Z.ltb_lt. intros [R E].
  change (2 ^ 32) with 4294967296. change (2 ^ 96) with 79228162514264337593543950336. split; [exact R|].
  apply existsb_exists in E. destruct E as (q & _ & E). apply andb_true_iff in E. rewrite Z.leb_le, Z.ltb_lt in E.
  exists q. exact E.
Qed.
Lemma combine_forall2 {A B} (P : A -> B -> Prop) l m : length l = length m ->
  (forall a b, In (a, b) (combine l m) -> P a b) -> Forall2 P l m.
Proof.
  revert m. induction l as [|a l IH]; intros [|b m] L H; try discriminate L; constructor.
  - apply H. now left.
  - apply IH; [now injection L|]. intros x y I. apply H. now right.
Qed.
Lemma k_constants : constants k.
Proof.
  apply combine_forall2; [reflexivity|]. intros p c I. apply root_check_ok.
  assert (A : forallb root_check (combine primes k) = true) by (vm_compute; reflexivity).
  rewrite forallb_forall in A. exact (A _ I).
Qed.
Lemma init_H0 junk : state (init junk) = H0.
Proof. vm_compute. reflexivity. Qed.

(** * Bytes and words *)
Lemma lor_plus a b n : 0 <= n -> a mod 2 ^ n = 0 -> 0 <= b < 2 ^ n -> Z.lor a b = a + b.
Proof.
  intros Hk Ha Hb.
  assert (E : Z.land a b = 0).
  { apply Z.bits_inj'. intros i Hi. rewrite Z.land_spec, Z.bits_0.
    destruct (Z.lt_ge_cases i n).
    - replace (Z.testbit a i) with false; [reflexivity|]. symmetry.
      rewrite <- (Z.mod_pow2_bits_low a n i) by lia. rewrite Ha. apply Z.bits_0.
    - replace (Z.testbit b i) with false; [apply andb_false_r|]. symmetry.
      rewrite <- (Z.mod_small b (2 ^ n)) by lia. apply Z.mod_pow2_bits_high. lia. }
  rewrite <- Z.lxor_lor by exact E. symmetry. apply Z.add_nocarry_lxor. exact E.
Qed.
Lemma nth_byte b t : bytes b -> 0 <= nth t b 0 < 256.
Proof.
  intros B. destruct (nth_in_or_default t b 0) as [I| ->]; [|lia].
  unfold bytes in B. rewrite Forall_forall in B. exact (B _ I).
Qed.
Lemma load_word b t : bytes b -> load_be32 b (t * 4) = word_at b t.
Proof.
  intros B. unfold load_be32, word_at. replace (t * 4)%nat with (4 * t)%nat by lia.
  pose proof (nth_byte b (4 * t) B) as B0. pose proof (nth_byte b (4 * t + 1) B) as B1.
  pose proof (nth_byte b (4 * t + 2) B) as B2. pose proof (nth_byte b (4 * t + 3) B) as B3.
  generalize dependent (nth (4 * t) b 0). generalize dependent (nth (4 * t + 1) b 0).
  generalize dependent (nth (4 * t + 2) b 0). generalize dependent (nth (4 * t + 3) b 0). clear.
  intros d D c C e E a A. unfold u32. rewrite !Z.shiftl_mul_pow2 by lia.
  change (2 ^ 24) with 16777216. change (2 ^ 16) with 65536. change (2 ^ 8) with 256.
  rewrite !Z.mod_small by lia.
  rewrite (lor_plus (a * 16777216) (e * 65536) 24); [|lia|apply Z.mod_mul; discriminate|change (2 ^ 24) with 16777216; lia].
  rewrite (lor_plus (a * 16777216 + e * 65536) (c * 256) 16); [|lia| |change (2 ^ 16) with 65536; lia].
  2:{ replace (a * 16777216 + e * 65536) with ((a * 256 + e) * 65536) by lia. apply Z.mod_mul. discriminate. }
  rewrite (lor_plus (a * 16777216 + e * 65536 + c * 256) d 8); [reflexivity|lia| |change (2 ^ 8) with 256; lia].
  replace (a * 16777216 + e * 65536 + c * 256) with ((a * 65536 + e * 256 + c) * 256) by lia. apply Z.mod_mul. discriminate.
Qed.
Lemma store_be v : store_be32 v = be 4 v.
Proof.
  unfold store_be32. cbn [be app]. rewrite !Z.shiftr_div_pow2 by lia. rewrite !Z.div_div by lia. reflexivity.
Qed.
Lemma length_be v : map (fun i => Z.shiftr v (i * 8) mod 256) [7; 6; 5; 4; 3; 2; 1; 0] = be 8 v.
Proof.
  cbn [be app map]. rewrite !Z.shiftr_div_pow2 by lia. rewrite !Z.div_div by lia.
  change (2 ^ (0 * 8)) with 1. rewrite Z.div_1_r. reflexivity.
Qed.
Lemma be_length n : forall v, length (be n v) = n.
Proof. induction n as [|n IH]; intros v; cbn [be]; [reflexivity|]. rewrite app_length, IH. cbn. lia. Qed.
Lemma be_bytes n : forall v, bytes (be n v).
Proof.
  induction n as [|n IH]; intros v; cbn [be]; [constructor|]. apply Forall_app. split; [apply IH|].
  constructor; [|constructor]. apply Z.mod_pos_bound. lia.
Qed.

(** * A block *)
Definition grow (w : list Z) (i : nat) : Z :=
  word (sigma1 (nth (i - 2) w 0) + nth (i - 7) w 0 + sigma0 (nth (i - 15) w 0) + nth (i - 16) w 0).
Lemma extend_step n i w : extend (S n) i w = extend n (S i) (w ++ [grow w i]).
Proof.
  cbn [extend]. cbv zeta. unfold grow, sigma0, sigma1, xor3, SHR. rewrite !rotr_ROTR, u32_word.
  do 3 f_equal. unfold word. f_equal. lia.
Qed.
Lemma extend_ok : forall n i w, length w = i -> (16 <= i)%nat ->
  (forall t, (t < i)%nat -> nth t (extend n i w) 0 = nth t w 0)
  /\ (forall t, (i <= t < i + n)%nat -> nth t (extend n i w) 0 = grow (extend n i w) t).
Proof.
  induction n as [|n IH]; intros i w L G.
  - split; [reflexivity|]. intros t H. lia.
  - rewrite extend_step. destruct (IH (S i) (w ++ [grow w i])) as [P Q]; [rewrite app_length; cbn; lia|lia|].
    assert (P' : forall t, (t < i)%nat -> nth t (extend n (S i) (w ++ [grow w i])) 0 = nth t w 0).
    { intros t H. rewrite P by lia. apply app_nth1. lia. }
    split; [exact P'|]. intros t H. destruct (Nat.eq_dec t i) as [->|N]; [|apply Q; lia].
    rewrite P by lia. rewrite app_nth2 by lia. rewrite L, Nat.sub_diag. cbn [nth].
    unfold grow. rewrite !P' by lia. reflexivity.
Qed.
Lemma rounds_ok : forall n i w s, rounds n i w s = fold_left (step k (fun t => nth t w 0)) (seq i n) s.
Proof.
  induction n as [|n IH]; intros i w s; [reflexivity|].
  cbn [seq fold_left rounds]. destruct s as [a b c d e f g h]. rewrite IH. reflexivity.
Qed.
Lemma transform_ok H b : bytes b -> compress H b (transform H b).
Proof.
  intros B. set (w0 := map (fun i => load_be32 b (i * 4)) (seq 0 16)).
  exists k, (fun t => nth t (extend 48 16 w0) 0). split; [exact k_constants|].
  destruct (extend_ok 48 16 w0 eq_refl ltac:(lia)) as [P Q]. split.
  - split.
    + intros t L. rewrite P by exact L. unfold w0.
      rewrite (nth_indep _ 0 (load_be32 b (0 * 4))) by (rewrite map_length, seq_length; exact L).
      rewrite (map_nth (fun i => load_be32 b (i * 4))), seq_nth by exact L. now apply load_word.
    + intros t L. rewrite Q by lia. reflexivity.
  - unfold transform. fold w0. rewrite rounds_ok.
    set (s := fold_left _ _ _). unfold plus, u32, word. clearbody s.
    change (2 ^ 32) with 4294967296. f_equal; f_equal; apply Z.add_comm.
Qed.

(** * The message so far *)
Lemma chain_snoc H p H' b H'' : chain H p H' -> length b = 64%nat -> compress H' b H'' -> chain H (p ++ b) H''.
Proof.
  induction 1 as [H|H b0 rest H1 H2 L C Ch IH]; intros Lb Cb.
  - cbn [app]. rewrite <- (app_nil_r b). eapply chain_block; [exact Lb|exact Cb|constructor].
  - rewrite <- app_assoc. eapply chain_block; [exact L|exact C|]. now apply IH.
Qed.
Definition rep (c : ctx) (m : list Z) : Prop :=
  exists p t, m = p ++ t /\ chain H0 p (state c) /\ Nat.modulo (length p) 64 = 0%nat
    /\ length t = block_len c /\ (block_len c < 64)%nat
    /\ firstn (block_len c) (block c) = t /\ length (block c) = 64%nat.
Lemma rep_init junk : length junk = 64%nat -> rep (init junk) [].
Proof.
  intros J. exists [], []. split; [reflexivity|]. split; [rewrite init_H0; constructor|].
  split; [reflexivity|]. split; [reflexivity|]. split; [cbn; lia|]. split; [reflexivity|exact J].
Qed.
Lemma update_loop_ok : forall fuel c bs m, (length bs <= fuel)%nat -> bytes m -> bytes bs -> rep c m ->
  exists c', update_loop fuel c bs = Some c' /\ rep c' (m ++ bs) /\ bit_count c' = bit_count c.
Proof.
  induction fuel as [|fuel IH]; intros c bs m L M B R.
  - destruct bs; [|cbn in L; lia]. exists c. rewrite app_nil_r. cbn. auto.
  - destruct bs as [|b0 bs0]; [exists c; rewrite app_nil_r; cbn; auto|].
    remember (b0 :: bs0) as bs eqn:Eb. assert (L1 : (1 <= length bs)%nat) by (subst; cbn; lia).
    assert (U : update_loop (S fuel) c bs =
      let take := Nat.min (64 - block_len c) (length bs) in
      let blk := firstn (block_len c) (block c) ++ firstn take bs ++ skipn (block_len c + take) (block c) in
      let len := (block_len c + take)%nat in
      update_loop fuel (if Nat.eqb len 64 then Ctx (transform (state c) blk) (bit_count c) blk 0
                   else Ctx (state c) (bit_count c) blk len) (skipn take bs)) by (subst bs; reflexivity).
    rewrite U. clear U. cbv zeta. set (take := Nat.min (64 - block_len c) (length bs)).
    destruct R as (p & t & -> & C & P64 & Lt & L64 & F & LB). rewrite F.
    assert (T1 : (1 <= take)%nat) by lia. assert (T2 : (take <= length bs)%nat) by lia.
    assert (T3 : (block_len c + take <= 64)%nat) by lia.
    assert (LF : length (firstn take bs) = take) by (rewrite firstn_length; lia).
    assert (Ap : p ++ t ++ bs = (p ++ t ++ firstn take bs) ++ skipn take bs).
    { rewrite <- !app_assoc. now rewrite firstn_skipn. }
    assert (Mt : bytes (t ++ firstn take bs)).
    { apply Forall_app. split; [now apply Forall_app in M|]. unfold bytes in B.
      rewrite <- (firstn_skipn take bs) in B. now apply Forall_app in B. }
    assert (Mp : bytes p) by now apply Forall_app in M.
    assert (Bs : bytes (skipn take bs)).
    { unfold bytes in B. rewrite <- (firstn_skipn take bs) in B. now apply Forall_app in B. }
    set (blk := t ++ firstn take bs ++ skipn (block_len c + take) (block c)).
    assert (Lblk : length blk = 64%nat) by (unfold blk; rewrite !app_length, LF, skipn_length; lia).
    rewrite <- app_assoc, Ap.
    destruct (Nat.eqb_spec (block_len c + take) 64) as [E|N].
    + assert (Eblk : blk = t ++ firstn take bs).
      { unfold blk. rewrite E, <- LB, skipn_all, app_nil_r. reflexivity. }
      destruct (IH (Ctx (transform (state c) blk) (bit_count c) blk 0) (skipn take bs) (p ++ t ++ firstn take bs)) as (c' & X & Y & Z).
      * rewrite skipn_length. lia.
      * apply Forall_app. split; [exact Mp|exact Mt].
      * exact Bs.
      * exists (p ++ t ++ firstn take bs), []. cbn [state block block_len]. split; [now rewrite app_nil_r|]. split; [|split; [|split; [|split; [|split]]]].
        -- apply chain_snoc with (state c); [exact C|rewrite <- Eblk; exact Lblk|].
           rewrite <- Eblk. apply transform_ok. rewrite Eblk. exact Mt.
        -- rewrite app_length, <- Eblk, Lblk. rewrite <- Nat.add_mod_idemp_l by lia. rewrite P64. reflexivity.
        -- reflexivity.
        -- lia.
        -- reflexivity.
        -- exact Lblk.
      * exists c'. split; [exact X|]. split; [exact Y|exact Z].
    + destruct (IH (Ctx (state c) (bit_count c) blk (block_len c + take)) (skipn take bs) (p ++ t ++ firstn take bs)) as (c' & X & Y & Z).
      * rewrite skipn_length. lia.
      * apply Forall_app. split; [exact Mp|exact Mt].
      * exact Bs.
      * exists p, (t ++ firstn take bs). cbn [state block block_len]. split; [reflexivity|]. split; [exact C|].
        split; [exact P64|]. split; [rewrite app_length; lia|]. split; [lia|]. split; [|exact Lblk].
        unfold blk. rewrite app_assoc. replace (block_len c + take)%nat with (length (t ++ firstn take bs)) at 1 by (rewrite app_length; lia).
        rewrite firstn_app, firstn_all, Nat.sub_diag. cbn [firstn]. apply app_nil_r.
      * exists c'. split; [exact X|]. split; [exact Y|exact Z].
Qed.
Definition counted (c : ctx) (m : list Z) : Prop := bit_count c = (8 * Z.of_nat (length m)) mod 2 ^ 64.
Lemma update_ok c bs m : bytes m -> bytes bs -> rep c m -> counted c m ->
  exists c', update c bs = Some c' /\ rep c' (m ++ bs) /\ counted c' (m ++ bs).
Proof.
  intros M B R N. unfold update.
  destruct (update_loop_ok (length bs) (Ctx (state c) ((bit_count c + Z.of_nat (length bs) * 8) mod 18446744073709551616)
    (block c) (block_len c)) bs m (le_n _) M B R) as (c' & X & Y & Z).
  exists c'. split; [exact X|]. split; [exact Y|]. unfold counted in *. rewrite Z. cbn [bit_count]. rewrite N.
  change 18446744073709551616 with (2 ^ 64). rewrite Zplus_mod_idemp_l, app_length. f_equal. lia.
Qed.
Lemma updates_ok : forall chunks c m, bytes m -> Forall bytes chunks -> rep c m -> counted c m ->
  exists c', updates c chunks = Some c' /\ rep c' (m ++ concat chunks) /\ counted c' (m ++ concat chunks).
Proof.
  induction chunks as [|b chunks IH]; intros c m M F R N.
  - exists c. cbn [concat updates]. rewrite app_nil_r. auto.
  - inversion F as [|? ? F1 F2]; subst. cbn [updates concat].
    destruct (update_ok c b m M F1 R N) as (c1 & E & R1 & N1). rewrite E, app_assoc.
    apply IH; [now apply Forall_app|exact F2|exact R1|exact N1].
Qed.

Lemma repeat_bytes n : bytes (repeat 0 n).
Proof. induction n; constructor; [lia|assumption]. Qed.
Lemma firstn_repeat (n m : nat) : (n <= m)%nat -> firstn n (repeat 0 m) = repeat 0 n.
Proof. revert m. induction n as [|n IH]; intros [|m] L; try lia; [reflexivity..|]. cbn. f_equal. apply IH. lia. Qed.

Lemma final_ok c m : bytes m -> rep c m -> counted c m -> 8 * Z.of_nat (length m) < 2 ^ 64 ->
  exists d, final c = Some d /\ sha256 m d.
Proof.
  intros M R N L64. unfold final.
  pose proof R as (p & t & Em & _ & P64 & Lt & Ll & _ & _).
  set (z := (if Nat.ltb (block_len c) 56 then 55 - block_len c else 119 - block_len c)%nat).
  assert (Z64 : (z < 64)%nat /\ Nat.modulo (length m + 1 + z + 8) 64 = 0%nat).
  { rewrite Em, app_length, Lt. unfold z.
    assert (D : Nat.divide 64 (length p)) by (apply Nat.mod_divide; [lia|exact P64]). destruct D as (q & Dq). rewrite Dq.
    destruct (Nat.ltb_spec (block_len c) 56).
    - split; [lia|]. replace (q * 64 + block_len c + 1 + (55 - block_len c) + 8)%nat with ((q + 1) * 64)%nat by lia.
      apply Nat.mod_mul. lia.
    - split; [lia|]. replace (q * 64 + block_len c + 1 + (119 - block_len c) + 8)%nat with ((q + 2) * 64)%nat by lia.
      apply Nat.mod_mul. lia. }
  assert (EP : firstn (if Nat.ltb (block_len c) 56 then (56 - block_len c)%nat else (120 - block_len c)%nat) (128 :: repeat 0 127)
    = [128] ++ repeat 0 z).
  { replace (if Nat.ltb (block_len c) 56 then (56 - block_len c)%nat else (120 - block_len c)%nat) with (S z)
      by (unfold z; destruct (Nat.ltb_spec (block_len c) 56); lia).
    cbn [firstn app]. f_equal. apply firstn_repeat. lia. }
  cbv zeta. rewrite EP.
  assert (B1 : bytes ([128] ++ repeat 0 z)) by (constructor; [lia|apply repeat_bytes]).
  destruct (update_ok c _ m M B1 R N) as (c1 & -> & R1 & N1). rewrite length_be.
  destruct (update_ok c1 (be 8 (bit_count c)) _ (proj2 (Forall_app _ _ _) (conj M B1)) (be_bytes 8 _) R1 N1) as (c2 & -> & R2 & _).
  eexists. split; [reflexivity|]. unfold counted in N. rewrite N, Z.mod_small in R2 by lia.
  exists z, (state c2). split; [exact (proj1 Z64)|]. split; [exact (proj2 Z64)|]. split.
  - destruct R2 as (p2 & t2 & E2 & C2 & Q2 & Lt2 & Ll2 & _ & _).
    assert (LL : length (m ++ [128] ++ repeat 0 z ++ be 8 (8 * Z.of_nat (length m))) = (length m + 1 + z + 8)%nat).
    { rewrite !app_length, repeat_length, be_length. cbn [length]. lia. }
    replace (m ++ [128] ++ repeat 0 z ++ be 8 (8 * Z.of_nat (length m)))
      with ((m ++ [128] ++ repeat 0 z) ++ be 8 (8 * Z.of_nat (length m))) in * by (rewrite <- !app_assoc; reflexivity).
    assert (T0 : t2 = []).
    { apply length_zero_iff_nil. rewrite E2, app_length in LL. destruct Z64 as [_ Z64]. rewrite <- LL in Z64.
      rewrite <- Nat.add_mod_idemp_l, Q2 in Z64 by lia. cbn [Nat.add] in Z64. rewrite Nat.mod_small in Z64 by lia. exact Z64. }
    rewrite E2, T0, app_nil_r. exact C2.
  - cbn [flat_map]. rewrite !store_be, app_nil_r. reflexivity.
Qed.

(** * The standard names one digest *)
Lemma cube_neg y : y <= 0 -> y ^ 3 <= 0.
Proof.
  intros H. replace (y ^ 3) with (y * (y * y)) by ring. apply Z.mul_nonpos_nonneg; [exact H|apply Z.square_nonneg].
Qed.
Lemma cube_lt x y n : 0 <= n -> x ^ 3 <= n -> n < (y + 1) ^ 3 -> n < (x + 1) ^ 3 -> x < y + 1.
Proof.
  intros N A B C.
  assert (Y : 0 <= y). { destruct (Z.lt_ge_cases y 0) as [H|H]; [|exact H]. pose proof (cube_neg (y + 1) ltac:(lia)) as E. exfalso.
    apply (Z.lt_irrefl n). eapply Z.lt_le_trans; [exact B|]. eapply Z.le_trans; [exact E|exact N]. }
  assert (X : 0 <= x). { destruct (Z.lt_ge_cases x 0) as [H|H]; [|exact H]. pose proof (cube_neg (x + 1) ltac:(lia)) as E. exfalso.
    apply (Z.lt_irrefl n). eapply Z.lt_le_trans; [exact C|]. eapply Z.le_trans; [exact E|exact N]. }
  apply (Z.pow_lt_mono_l_iff x (y + 1) 3); [lia|lia|lia|]. eapply Z.le_lt_trans; [exact A|exact B].
Qed.
Lemma cube_unique p c c' : 0 <= p -> cube_root_bits p c -> cube_root_bits p c' -> c = c'.
Proof.
  intros P [R (q & A & B)] [R' (q' & A' & B')].
  assert (N : 0 <= p * 2 ^ 96) by (apply Z.mul_nonneg_nonneg; [exact P|apply Z.pow_nonneg; discriminate]).
  pose proof (cube_lt _ _ _ N A B' B) as L1. pose proof (cube_lt _ _ _ N A' B B') as L2.
  clear A B A' B' N. change (2 ^ 32) with 4294967296 in *. lia.
Qed.
Lemma constants_unique K : constants K -> K = k.
Proof.
  intros H. pose proof k_constants as H'. unfold constants in *.
  assert (P : Forall (fun p => 0 <= p) primes) by (apply Forall_forall; intros x I;
    assert (A : forallb (fun p => 0 <=? p) primes = true) by reflexivity; rewrite forallb_forall in A;
    apply Z.leb_le; exact (A x I)).
  revert K H H' P. generalize k as K'. induction primes as [|p ps IH]; intros K' K H H' P.
  - inversion H; inversion H'; subst; reflexivity.
  - inversion H as [|? c ? cs C Cs]; inversion H' as [|? c' ? cs' C' Cs']; subst. inversion P; subst. f_equal.
    + now apply (cube_unique p).
    + now apply IH.
Qed.
Lemma schedule_unique b W W' : schedule b W -> schedule b W' -> forall t, (t < 64)%nat -> W t = W' t.
Proof.
  intros [A B] [A' B'] t. induction t as [t IH] using lt_wf_ind. intros L.
  destruct (Nat.lt_ge_cases t 16) as [L16|G16]; [rewrite A, A' by exact L16; reflexivity|].
  rewrite B, B' by lia. rewrite !IH by lia. reflexivity.
Qed.
Lemma compress_unique H b H1 H2 : compress H b H1 -> compress H b H2 -> H1 = H2.
Proof.
  intros (K & W & CK & SW & ->) (K' & W' & CK' & SW' & ->).
  rewrite (constants_unique K CK), (constants_unique K' CK'). f_equal.
  assert (G : forall l s, (forall t, In t l -> (t < 64)%nat) -> fold_left (step k W) l s = fold_left (step k W') l s).
  { induction l as [|t l IH]; intros s I; [reflexivity|]. cbn [fold_left].
    replace (step k W s t) with (step k W' s t).
    - apply IH. intros u J. apply I. now right.
    - unfold step. destruct s. rewrite (schedule_unique b W W' SW SW' t (I t (or_introl eq_refl))). reflexivity. }
  apply G. intros t I. apply in_seq in I. lia.
Qed.
Lemma chain_inv H l H2 : chain H l H2 -> (l = [] /\ H2 = H)
  \/ exists b rest H', l = b ++ rest /\ length b = 64%nat /\ compress H b H' /\ chain H' rest H2.
Proof. destruct 1 as [H|H b rest H' H'' L C Ch]; [now left|]. right. now exists b, rest, H'. Qed.
Lemma app_split : forall b b' r r' : list Z, length b = length b' -> b ++ r = b' ++ r' -> b = b' /\ r = r'.
Proof.
  induction b as [|x b IH]; intros [|x' b'] r r' L E; try discriminate L; [now split|].
  injection L as L. injection E as -> E. destruct (IH b' r r' L E) as [-> ->]. now split.
Qed.
Lemma chain_unique H l H1 : chain H l H1 -> forall H2, chain H l H2 -> H1 = H2.
Proof.
  induction 1 as [H|H b rest H' H'' L C Ch IH]; intros H2 X; apply chain_inv in X.
  - destruct X as [[_ ->]|(b & rest & H' & E & L & _)]; [reflexivity|]. exfalso. destruct b; discriminate.
  - destruct X as [[E _]|(b' & rest' & H1' & E & L' & C' & Ch')].
    + exfalso. destruct b; discriminate.
    + destruct (app_split b b' rest rest' ltac:(congruence) E) as [-> ->].
      apply IH. rewrite (compress_unique _ _ _ _ C C'). exact Ch'.
Qed.
Lemma sha256_unique m d d' : sha256 m d -> sha256 m d' -> d = d'.
Proof.
  intros (z & H & Z1 & Z2 & C & ->) (z' & H' & Z1' & Z2' & C' & ->).
  assert (E : z = z').
  { apply Nat.mod_divide in Z2; [|lia]. apply Nat.mod_divide in Z2'; [|lia].
    destruct Z2 as (q & Q). destruct Z2' as (q' & Q'). lia. }
  subst z'. now rewrite (chain_unique _ _ _ C _ C').
Qed.
