(** Lemmas about the cipher: the rounds run backwards, and the key schedule keeps the tables' form. *)
From Verif Require Import Mem_proof Base Base_lemmas Blowfish_tables Blowfish_model Blowfish_spec.

Ltac zdiv := Z.to_euclidean_division_equations; lia.

Lemma lxor_bound n a b : 0 <= n -> 0 <= a < 2 ^ n -> 0 <= b < 2 ^ n -> 0 <= Z.lxor a b < 2 ^ n.
Proof.
  intros N A B. split; [apply Z.lxor_nonneg; lia|].
  assert (E : Z.lxor a b = Z.lxor a b mod 2 ^ n).
  { apply Z.bits_inj'. intros i Hi. rewrite Z.lxor_spec. destruct (Z.ltb_spec i n).
    - rewrite Z.mod_pow2_bits_low by lia. now rewrite Z.lxor_spec.
    - rewrite Z.mod_pow2_bits_high by lia.
      rewrite <- (Z.mod_small a (2 ^ n)), <- (Z.mod_small b (2 ^ n)) by lia.
      now rewrite !Z.mod_pow2_bits_high by lia. }
  rewrite E. apply Z.mod_pos_bound. lia.
Qed.
Lemma word_lxor a b : word a -> word b -> word (Z.lxor a b).
Proof. apply (lxor_bound 32). lia. Qed.
Lemma lxor_cancel a b : Z.lxor (Z.lxor a b) b = a.
Proof. now rewrite Z.lxor_assoc, Z.lxor_nilpotent, Z.lxor_0_r. Qed.
Lemma word_u32 z : word (u32 z).
Proof. unfold word, u32. pose proof (Z.mod_pos_bound z 4294967296). lia. Qed.

Lemma at_word l i n : length l = n -> Forall word l -> 0 <= i < Z.of_nat n -> exists v, at_ l i = Ok v /\ word v.
Proof.
  intros L W H. destruct (at_total l i) as [v E]; [unfold zlen; lia|]. exists v. split; [exact E|].
  apply at_nth in E. destruct E as [E _]. apply nth_error_In in E. rewrite Forall_forall in W. auto.
Qed.

Lemma land_255 x : 0 <= Z.land x 255 < 256.
Proof. change 255 with (Z.ones 8). rewrite Z.land_ones by lia. apply Z.mod_pos_bound. lia. Qed.

Lemma f_word_ok c x : schedule c -> exists f, f_word c x = Ok f /\ word f.
Proof.
  intros ((_ & L0 & L1 & L2 & L3) & _ & W0 & W1 & W2 & W3). unfold f_word.
  destruct (at_word (s0 c) (Z.land (Z.shiftr x 24) 255) 256 L0 W0 (land_255 _)) as (a & -> & Ha). cbn [bind].
  destruct (at_word (s1 c) (Z.land (Z.shiftr x 16) 255) 256 L1 W1 (land_255 _)) as (b & -> & Hb). cbn [bind].
  destruct (at_word (s2 c) (Z.land (Z.shiftr x 8) 255) 256 L2 W2 (land_255 _)) as (d & -> & Hd). cbn [bind].
  destruct (at_word (s3 c) (Z.land x 255) 256 L3 W3 (land_255 _)) as (e & -> & He). cbn [bind].
  eexists. split; [reflexivity|apply word_u32].
Qed.

Lemma rounds_ok c l : schedule c -> Forall (fun i => 0 <= i < 18) l ->
  forall x y, word x -> word y -> exists x' y', rounds c l x y = Ok (x', y') /\ word x' /\ word y'.
Proof.
  intros S H. induction H as [|i l Hi H IH]; intros x y Wx Wy; cbn [rounds].
  - eauto.
  - destruct (f_word_ok c x S) as (f & -> & Wf). cbn [bind].
    destruct S as ((L & _) & W & _). destruct (at_word (p c) i 18 L W Hi) as (k & -> & Wk). cbn [bind].
    apply IH; auto using word_lxor.
Qed.

Lemma rounds_app c l m x y : rounds c (l ++ m) x y = (' (x, y) <- rounds c l x y ;; rounds c m x y).
Proof.
  revert x y. induction l as [|i l IH]; intros x y; cbn [rounds app bind]; [reflexivity|].
  destruct (f_word c x); cbn [bind]; [|reflexivity..]. destruct (at_ (p c) i); cbn [bind]; [|reflexivity..]. apply IH.
Qed.

Lemma rounds_back c l : forall x y x' y', rounds c l x y = Ok (x', y') -> rounds c (rev l) y' x' = Ok (y, x).
Proof.
  induction l as [|i l IH]; intros x y x' y' E; cbn [rounds rev] in *.
  - congruence.
  - destruct (f_word c x) as [f| | | | |] eqn:F; cbn [bind] in E; try discriminate E.
    destruct (at_ (p c) i) as [k| | | | |] eqn:K; cbn [bind] in E; try discriminate E.
    apply IH in E. rewrite rounds_app, E. cbn [bind rounds]. rewrite F. cbn [bind]. rewrite K. cbn [bind].
    now rewrite lxor_cancel.
Qed.

Lemma encrypt_block_ok c l r : schedule c -> word l -> word r ->
  exists l' r', encrypt_block c l r = Ok (l', r') /\ word l' /\ word r' /\ decrypt_block c l' r' = Ok (l, r).
Proof.
  intros S Wl Wr. unfold encrypt_block, decrypt_block. pose proof S as ((L & _) & W & _).
  destruct (at_word (p c) 0 18 L W) as (k & -> & Wk); [lia|]. cbn [bind].
  set (is := [1; 2; 3; 4; 5; 6; 7; 8; 9; 10; 11; 12; 13; 14; 15; 16]).
  destruct (rounds_ok c is S) with (x := Z.lxor l k) (y := r) as (x' & y' & E & Wx & Wy); auto using word_lxor.
  { unfold is. repeat constructor; lia. }
  rewrite E. cbn [bind]. destruct (at_word (p c) 17 18 L W) as (k' & -> & Wk'); [lia|]. cbn [bind].
  exists (Z.lxor y' k'), x'. split; [reflexivity|]. split; [now apply word_lxor|]. split; [assumption|].
  rewrite lxor_cancel. change [16; 15; 14; 13; 12; 11; 10; 9; 8; 7; 6; 5; 4; 3; 2; 1] with (rev is).
  rewrite (rounds_back c is _ _ _ _ E). cbn [bind]. now rewrite lxor_cancel.
Qed.

Lemma decrypt_block_ok c l r : schedule c -> word l -> word r ->
  exists l' r', decrypt_block c l r = Ok (l', r') /\ word l' /\ word r' /\ encrypt_block c l' r' = Ok (l, r).
Proof.
  intros S Wl Wr. unfold encrypt_block, decrypt_block. pose proof S as ((L & _) & W & _).
  destruct (at_word (p c) 17 18 L W) as (k & -> & Wk); [lia|]. cbn [bind].
  set (is := [16; 15; 14; 13; 12; 11; 10; 9; 8; 7; 6; 5; 4; 3; 2; 1]).
  destruct (rounds_ok c is S) with (x := Z.lxor l k) (y := r) as (x' & y' & E & Wx & Wy); auto using word_lxor.
  { unfold is. repeat constructor; lia. }
  rewrite E. cbn [bind]. destruct (at_word (p c) 0 18 L W) as (k' & -> & Wk'); [lia|]. cbn [bind].
  exists (Z.lxor y' k'), x'. split; [reflexivity|]. split; [now apply word_lxor|]. split; [assumption|].
  rewrite lxor_cancel. change [1; 2; 3; 4; 5; 6; 7; 8; 9; 10; 11; 12; 13; 14; 15; 16] with (rev is).
  rewrite (rounds_back c is _ _ _ _ E). cbn [bind]. now rewrite lxor_cancel.
Qed.

(** ** Bytes and words *)
Definition word4 a b d e := a * 16777216 + b * 65536 + d * 256 + e.
Definition byte4 (x : Z) := [u8 (Z.shiftr x 24); u8 (Z.shiftr x 16); u8 (Z.shiftr x 8); u8 x].

Lemma word4_word a b d e : is_byte a -> is_byte b -> is_byte d -> is_byte e -> word (word4 a b d e).
Proof. unfold is_byte, word, word4. lia. Qed.
Lemma byte4_word4 a b d e : is_byte a -> is_byte b -> is_byte d -> is_byte e -> byte4 (word4 a b d e) = [a; b; d; e].
Proof.
  unfold is_byte, word4, byte4, u8. intros A B D E. rewrite !Z.shiftr_div_pow2 by lia.
  change (2 ^ 24) with 16777216. change (2 ^ 16) with 65536. change (2 ^ 8) with 256.
  repeat f_equal; zdiv.
Qed.
Lemma word4_byte4 x : word x -> word4 (u8 (Z.shiftr x 24)) (u8 (Z.shiftr x 16)) (u8 (Z.shiftr x 8)) (u8 x) = x.
Proof.
  unfold word, word4, u8. intros W. rewrite !Z.shiftr_div_pow2 by lia.
  change (2 ^ 24) with 16777216. change (2 ^ 16) with 65536. change (2 ^ 8) with 256. zdiv.
Qed.
Lemma byte4_bytes x : bytes (byte4 x).
Proof. unfold byte4, bytes. repeat constructor; apply u8_byte. Qed.

Ltac at_lit := unfold at_; rewrite ?zlen_cons;
  match goal with |- context [zlen ?t] => pose proof (zlen_nonneg t) end;
  match goal with |- context [if ?b then _ else _] => replace b with true by (symmetry; lia) end; reflexivity.

Lemma load_lor a b d e : is_byte a -> is_byte b -> is_byte d -> is_byte e ->
  Z.lor (Z.lor (Z.lor (u32 (Z.shiftl a 24)) (u32 (Z.shiftl b 16))) (u32 (Z.shiftl d 8))) e = word4 a b d e.
Proof.
  intros A B D E. rewrite !Z.shiftl_mul_pow2 by lia. change (2 ^ 24) with 16777216. change (2 ^ 16) with 65536. change (2 ^ 8) with 256.
  unfold is_byte, u32, word4 in *. rewrite !Z.mod_small by lia.
  rewrite (lor_plus (a * 16777216) (b * 65536) 24) by (change (2 ^ 24) with 16777216; rewrite ?Z.mod_mul; lia).
  rewrite (lor_plus _ (d * 256) 16) by (change (2 ^ 16) with 65536; zdiv).
  rewrite (lor_plus _ e 8) by (change (2 ^ 8) with 256; zdiv). lia.
Qed.

Lemma load32_0 a b d e t : bytes [a; b; d; e] -> load32 (a :: b :: d :: e :: t) 0 = Ok (word4 a b d e).
Proof.
  intros W. unfold load32. change (0 + 1) with 1. change (0 + 2) with 2. change (0 + 3) with 3.
  replace (at_ (a :: b :: d :: e :: t) 0) with (Ok a) by (symmetry; at_lit). cbn [bind].
  replace (at_ (a :: b :: d :: e :: t) 1) with (Ok b) by (symmetry; at_lit). cbn [bind].
  replace (at_ (a :: b :: d :: e :: t) 2) with (Ok d) by (symmetry; at_lit). cbn [bind].
  replace (at_ (a :: b :: d :: e :: t) 3) with (Ok e) by (symmetry; at_lit). cbn [bind].
  f_equal. apply load_lor; rewrite Forall_forall in W || (unfold bytes in W; rewrite Forall_forall in W); apply W; cbn; tauto.
Qed.
Lemma load32_4 x y z u a b d e t : bytes [a; b; d; e] -> load32 (x :: y :: z :: u :: a :: b :: d :: e :: t) 4 = Ok (word4 a b d e).
Proof.
  intros W. unfold load32. change (4 + 1) with 5. change (4 + 2) with 6. change (4 + 3) with 7.
  replace (at_ (x :: y :: z :: u :: a :: b :: d :: e :: t) 4) with (Ok a) by (symmetry; at_lit). cbn [bind].
  replace (at_ (x :: y :: z :: u :: a :: b :: d :: e :: t) 5) with (Ok b) by (symmetry; at_lit). cbn [bind].
  replace (at_ (x :: y :: z :: u :: a :: b :: d :: e :: t) 6) with (Ok d) by (symmetry; at_lit). cbn [bind].
  replace (at_ (x :: y :: z :: u :: a :: b :: d :: e :: t) 7) with (Ok e) by (symmetry; at_lit). cbn [bind].
  f_equal. unfold bytes in W. rewrite Forall_forall in W. apply load_lor; apply W; cbn; tauto.
Qed.

Lemma set_lit {A} (s : list A) i v : 0 <= i < zlen s -> set_at s i v = Ok (list_set s (Z.to_nat i) v).
Proof. intros H. unfold set_at. now replace ((0 <=? i) && (i <? zlen s)) with true by (symmetry; lia). Qed.

Lemma store32_both dst l r : (8 <= length dst)%nat ->
  (dst <- store32 dst 0 l ;; store32 dst 4 r) = Ok (byte4 l ++ byte4 r ++ skipn 8 dst).
Proof.
  intros H. destruct dst as [|a [|b [|d [|e [|x [|y [|z [|u t]]]]]]]]; cbn [length] in H; try lia.
  unfold store32. cbn [skipn].
  change (0 + 1) with 1. change (0 + 2) with 2. change (0 + 3) with 3. change (4 + 1) with 5. change (4 + 2) with 6. change (4 + 3) with 7.
  pose proof (zlen_nonneg t).
  do 8 (rewrite set_lit by (rewrite ?zlen_list_set, ?zlen_cons; lia); cbn [bind]).
  reflexivity.
Qed.

Lemma block_case b : block b -> exists a1 a2 a3 a4 b1 b2 b3 b4, b = [a1; a2; a3; a4; b1; b2; b3; b4] /\ bytes [a1; a2; a3; a4] /\ bytes [b1; b2; b3; b4].
Proof.
  intros [B L]. destruct b as [|a1 [|a2 [|a3 [|a4 [|b1 [|b2 [|b3 [|b4 [|c t]]]]]]]]]; try discriminate L.
  exists a1, a2, a3, a4, b1, b2, b3, b4. split; [reflexivity|].
  change [a1; a2; a3; a4; b1; b2; b3; b4] with ([a1; a2; a3; a4] ++ [b1; b2; b3; b4]) in B. now apply Forall_bytes_app in B.
Qed.

Lemma block_words b : block b -> exists l r, word l /\ word r /\ b = byte4 l ++ byte4 r /\
  forall t, load32 (b ++ t) 0 = Ok l /\ load32 (b ++ t) 4 = Ok r.
Proof.
  intros H. destruct (block_case b H) as (a1 & a2 & a3 & a4 & b1 & b2 & b3 & b4 & -> & A & B).
  exists (word4 a1 a2 a3 a4), (word4 b1 b2 b3 b4).
  assert (A' := A). assert (B' := B). unfold bytes in A', B'. rewrite Forall_forall in A', B'.
  split; [apply word4_word; ((apply A'; cbn; tauto) || (apply B'; cbn; tauto))|]. split; [apply word4_word; ((apply A'; cbn; tauto) || (apply B'; cbn; tauto))|].
  split; [rewrite !byte4_word4 by (((apply A'; cbn; tauto) || (apply B'; cbn; tauto))); reflexivity|].
  intros t. split; [now apply load32_0|now apply load32_4].
Qed.

Lemma words_load l r t : word l -> word r -> load32 ((byte4 l ++ byte4 r) ++ t) 0 = Ok l /\ load32 ((byte4 l ++ byte4 r) ++ t) 4 = Ok r.
Proof.
  intros L R. pose proof (byte4_bytes l) as BL. pose proof (byte4_bytes r) as BR. unfold byte4 in *. cbn [app].
  rewrite (load32_0 _ _ _ _ _ BL), (load32_4 _ _ _ _ _ _ _ _ _ BR). now rewrite !word4_byte4.
Qed.

Lemma words_block l r : block (byte4 l ++ byte4 r).
Proof. split; [apply Forall_bytes_app; split; apply byte4_bytes|reflexivity]. Qed.

Lemma encrypt_ok c b : schedule c -> block b ->
  exists out, block out /\ (forall dst t, (8 <= length dst)%nat -> encrypt c dst (b ++ t) = Ok (out ++ skipn 8 dst)) /\
                           (forall dst t, (8 <= length dst)%nat -> decrypt c dst (out ++ t) = Ok (b ++ skipn 8 dst)).
Proof.
  intros S H. destruct (block_words b H) as (l & r & Wl & Wr & Eb & LD).
  destruct (encrypt_block_ok c l r S Wl Wr) as (l' & r' & E & Wl' & Wr' & D).
  exists (byte4 l' ++ byte4 r'). split; [apply words_block|]. split; intros dst t Hd.
  - unfold encrypt. destruct (LD t) as [-> ->]. cbn [bind]. rewrite E. cbn [bind]. rewrite store32_both by exact Hd. now rewrite app_assoc.
  - unfold decrypt. destruct (words_load l' r' t Wl' Wr') as [-> ->]. cbn [bind]. rewrite D. cbn [bind].
    rewrite store32_both by exact Hd. now rewrite Eb, app_assoc.
Qed.

Lemma decrypt_ok c b : schedule c -> block b ->
  exists out, block out /\ (forall dst t, (8 <= length dst)%nat -> decrypt c dst (b ++ t) = Ok (out ++ skipn 8 dst)) /\
                           (forall dst t, (8 <= length dst)%nat -> encrypt c dst (out ++ t) = Ok (b ++ skipn 8 dst)).
Proof.
  intros S H. destruct (block_words b H) as (l & r & Wl & Wr & Eb & LD).
  destruct (decrypt_block_ok c l r S Wl Wr) as (l' & r' & E & Wl' & Wr' & D).
  exists (byte4 l' ++ byte4 r'). split; [apply words_block|]. split; intros dst t Hd.
  - unfold decrypt. destruct (LD t) as [-> ->]. cbn [bind]. rewrite E. cbn [bind]. rewrite store32_both by exact Hd. now rewrite app_assoc.
  - unfold encrypt. destruct (words_load l' r' t Wl' Wr') as [-> ->]. cbn [bind]. rewrite D. cbn [bind].
    rewrite store32_both by exact Hd. now rewrite Eb, app_assoc.
Qed.

(** ** The key schedule *)
Definition wordsb (l : list Z) : bool := forallb (fun x => (0 <=? x) && (x <? 4294967296)) l.
Lemma wordsb_ok l : wordsb l = true -> Forall word l.
Proof. intros H. apply Forall_forall. intros x Hx. unfold wordsb in H. rewrite forallb_forall in H. specialize (H x Hx). unfold word. lia. Qed.

Lemma init_schedule : schedule init_cipher.
Proof. split; [repeat split; reflexivity|]. split; [|split; [|split; [|split]]]; apply wordsb_ok; vm_compute; reflexivity. Qed.

Lemma next_byte_ok b w j : bytes b -> 0 <= j < zlen b ->
  exists w' j', next_byte b w j = Ok (w', j') /\ word w' /\ 0 <= j' < zlen b.
Proof.
  intros B H. unfold next_byte. destruct (at_total b j H) as [x E]. rewrite E. cbn [bind].
  assert (X : is_byte x) by (apply at_nth in E; destruct E as [E _]; apply nth_error_In in E; unfold bytes in B; rewrite Forall_forall in B; auto).
  eexists _, _. split; [reflexivity|]. split.
  - rewrite Z.shiftl_mul_pow2 by lia. change (2 ^ 8) with 256. unfold is_byte, u32, word in *.
    rewrite (lor_plus _ x 8) by (change (2 ^ 8) with 256; zdiv). zdiv.
  - destruct (zlen b <=? j + 1) eqn:Q; lia.
Qed.

Lemma get_next_word_ok b j : bytes b -> 0 <= j < zlen b ->
  exists w j', get_next_word b j = Ok (w, j') /\ word w /\ 0 <= j' < zlen b.
Proof.
  intros B H. unfold get_next_word.
  destruct (next_byte_ok b 0 j B H) as (w1 & j1 & -> & _ & H1). cbn [bind].
  destruct (next_byte_ok b w1 j1 B H1) as (w2 & j2 & -> & _ & H2). cbn [bind].
  destruct (next_byte_ok b w2 j2 B H2) as (w3 & j3 & -> & _ & H3). cbn [bind].
  now apply next_byte_ok.
Qed.

Lemma Forall_list_set {A} (P : A -> Prop) l n x : Forall P l -> P x -> Forall P (list_set l n x).
Proof.
  intros H Hx. revert n. induction H as [|y l Hy H IH]; intros n; cbn [list_set]; [constructor|].
  destruct n; constructor; auto.
Qed.

Lemma set_word l i x n : length l = n -> Forall word l -> word x -> 0 <= i < Z.of_nat n ->
  exists l', set_at l i x = Ok l' /\ length l' = n /\ Forall word l'.
Proof.
  intros L W X H. unfold set_at. replace ((0 <=? i) && (i <? zlen l)) with true by (symmetry; unfold zlen; lia).
  eexists. split; [reflexivity|]. split; [now rewrite length_list_set|now apply Forall_list_set].
Qed.

Lemma mix_key_ok key : bytes key -> forall n i j l, 0 <= j < zlen key -> 0 <= i -> i + Z.of_nat n <= 18 ->
  length l = 18%nat -> Forall word l -> exists l', mix_key n key i j l = Ok l' /\ length l' = 18%nat /\ Forall word l'.
Proof.
  intros B n. induction n as [|n IH]; intros i j l Hj Hi Hn L W; cbn [mix_key].
  - eauto.
  - destruct (get_next_word_ok key j B Hj) as (d & j' & -> & Wd & Hj'). cbn [bind].
    destruct (at_word l i 18 L W) as (k & -> & Wk); [lia|]. cbn [bind].
    destruct (set_word l i (Z.lxor k d) 18 L W) as (l' & -> & L' & W'); [now apply word_lxor|lia|]. cbn [bind].
    apply IH; auto; lia.
Qed.

(** a field of the cipher with its length *)
Definition field (put : cipher -> list Z -> cipher) (get : cipher -> list Z) (n : nat) : Prop :=
  forall c, schedule c -> (length (get c) = n /\ Forall word (get c)) /\
    forall v, length v = n -> Forall word v -> schedule (put c v).

Lemma field_p : field set_p p 18.
Proof. intros c ((? & ? & ? & ? & ?) & ? & ? & ? & ? & ?). split; [auto|]. intros v Lv Wv. unfold schedule, set_p. cbn [p s0 s1 s2 s3]. auto 12. Qed.
Lemma field_s0 : field set_s0 s0 256.
Proof. intros c ((? & ? & ? & ? & ?) & ? & ? & ? & ? & ?). split; [auto|]. intros v Lv Wv. unfold schedule, set_s0. cbn [p s0 s1 s2 s3]. auto 12. Qed.
Lemma field_s1 : field set_s1 s1 256.
Proof. intros c ((? & ? & ? & ? & ?) & ? & ? & ? & ? & ?). split; [auto|]. intros v Lv Wv. unfold schedule, set_s1. cbn [p s0 s1 s2 s3]. auto 12. Qed.
Lemma field_s2 : field set_s2 s2 256.
Proof. intros c ((? & ? & ? & ? & ?) & ? & ? & ? & ? & ?). split; [auto|]. intros v Lv Wv. unfold schedule, set_s2. cbn [p s0 s1 s2 s3]. auto 12. Qed.
Lemma field_s3 : field set_s3 s3 256.
Proof. intros c ((? & ? & ? & ? & ?) & ? & ? & ? & ? & ?). split; [auto|]. intros v Lv Wv. unfold schedule, set_s3. cbn [p s0 s1 s2 s3]. auto 12. Qed.

Definition salt_ok (salt : option (list Z)) (j : Z) : Prop :=
  match salt with None => True | Some s => bytes s /\ 0 <= j < zlen s end.

Lemma refill_ok salt put get len : field put get len ->
  forall n c i l r j, schedule c -> salt_ok salt j -> word l -> word r -> 0 <= i -> i + 2 * Z.of_nat n <= Z.of_nat len ->
  exists c' l' r' j', refill n salt put get c i l r j = Ok (c', l', r', j') /\ schedule c' /\ word l' /\ word r' /\ salt_ok salt j'.
Proof.
  intros F n. induction n as [|n IH]; intros c i l r j S J Wl Wr Hi Hn; cbn [refill].
  - exists c, l, r, j. auto.
  - assert (G : exists l1 r1 j1, match salt with
                     | None => Ok (l, r, j)
                     | Some s => ' (a, j) <- get_next_word s j ;; ' (b, j) <- get_next_word s j ;; Ok (Z.lxor l a, Z.lxor r b, j)
                     end = Ok (l1, r1, j1) /\ word l1 /\ word r1 /\ salt_ok salt j1).
    { destruct salt as [s|]; cbn [salt_ok] in J.
      - destruct J as [B J]. destruct (get_next_word_ok s j B J) as (a & j1 & -> & Wa & J1). cbn [bind].
        destruct (get_next_word_ok s j1 B J1) as (b & j2 & -> & Wb & J2). cbn [bind].
        eexists _, _, _. split; [reflexivity|]. split; [now apply word_lxor|]. split; [now apply word_lxor|]. cbn [salt_ok]. auto.
      - exists l, r, j. auto. }
    destruct G as (l1 & r1 & j1 & -> & Wl1 & Wr1 & J1). cbn [bind].
    destruct (encrypt_block_ok c l1 r1 S Wl1 Wr1) as (l2 & r2 & -> & Wl2 & Wr2 & _). cbn [bind].
    destruct (F c S) as [[L W] P].
    destruct (set_word (get c) i l2 len L W Wl2) as (v & -> & Lv & Wv); [lia|]. cbn [bind].
    destruct (set_word v (i + 1) r2 len Lv Wv Wr2) as (v' & -> & Lv' & Wv'); [lia|]. cbn [bind].
    apply IH; auto; lia.
Qed.

Lemma expand_ok key salt c : bytes key -> 1 <= zlen key -> salt_ok salt 0 -> schedule c ->
  exists c', expand key salt c = Ok c' /\ schedule c'.
Proof.
  intros B K J S. unfold expand. pose proof S as ((L & _) & W & _).
  destruct (mix_key_ok key B 18 0 0 (p c)) as (l & -> & Ll & Wl); [lia|lia|lia|assumption|assumption|]. cbn [bind].
  assert (S1 : schedule (set_p c l)) by (apply field_p; auto).
  assert (W0 : word 0) by (unfold word; lia).
  destruct (refill_ok salt _ _ _ field_p 9 (set_p c l) 0 0 0 0 S1 J W0 W0) as (c1 & l1 & r1 & j1 & -> & C1 & Wl1 & Wr1 & J1); [lia|lia|]. cbn [bind].
  destruct (refill_ok salt _ _ _ field_s0 128 c1 0 l1 r1 j1 C1 J1 Wl1 Wr1) as (c2 & l2 & r2 & j2 & -> & C2 & Wl2 & Wr2 & J2); [lia|lia|]. cbn [bind].
  destruct (refill_ok salt _ _ _ field_s1 128 c2 0 l2 r2 j2 C2 J2 Wl2 Wr2) as (c3 & l3 & r3 & j3 & -> & C3 & Wl3 & Wr3 & J3); [lia|lia|]. cbn [bind].
  destruct (refill_ok salt _ _ _ field_s2 128 c3 0 l3 r3 j3 C3 J3 Wl3 Wr3) as (c4 & l4 & r4 & j4 & -> & C4 & Wl4 & Wr4 & J4); [lia|lia|]. cbn [bind].
  destruct (refill_ok salt _ _ _ field_s3 128 c4 0 l4 r4 j4 C4 J4 Wl4 Wr4) as (c5 & l5 & r5 & j5 & -> & C5 & Wl5 & Wr5 & J5); [lia|lia|]. cbn [bind].
  eauto.
Qed.

Lemma new_cipher_ok key : bytes key -> 1 <= zlen key <= 56 -> exists c, new_cipher key = Ok (Some c) /\ schedule c.
Proof.
  intros B H. unfold new_cipher. replace ((zlen key <? 1) || (56 <? zlen key)) with false by (symmetry; lia).
  destruct (expand_ok key None init_cipher B) as (c & -> & S); [lia|exact Logic.I|apply init_schedule|]. cbn [bind]. eauto.
Qed.
