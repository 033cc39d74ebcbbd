(** Lemmas about bcrypt: the base64 code, the printed form, and the dependence on the password. *)
From Verif Require Import Mem_proof Base Base_lemmas Blowfish_tables Blowfish_model Blowfish_spec Blowfish_proof Bcrypt_model Bcrypt_spec.

(** ** The base64 code *)
Lemma alphabet_char i : 0 <= i < 64 -> exists ch, at_ ALPHABET i = Ok ch /\ char_value ch = Ok i /\ ch <> 61 /\ is_byte ch.
Proof.
  intros H.
  assert (C : forallb (fun i => match at_ ALPHABET i with
                               | Ok ch => match char_value ch with Ok v => (v =? i) && negb (ch =? 61) && (0 <=? ch) && (ch <? 256) | _ => false end
                               | _ => false end) (map Z.of_nat (seq 0 64)) = true) by (vm_compute; reflexivity).
  rewrite forallb_forall in C. specialize (C i).
  assert (I : In i (map Z.of_nat (seq 0 64))) by (apply in_map_iff; exists (Z.to_nat i); split; [lia|apply in_seq; lia]).
  specialize (C I). destruct (at_ ALPHABET i) as [ch| | | | |]; try discriminate C.
  destruct (char_value ch) as [v| | | | |] eqn:V; try discriminate C.
  exists ch. split; [reflexivity|]. unfold is_byte. rewrite V. split; [f_equal; lia|lia].
Qed.

Lemma letter_ok v k : 0 <= k -> exists ch, letter v k = Ok ch /\ char_value ch = Ok ((v / 2 ^ k) mod 64) /\ ch <> 61 /\ is_byte ch.
Proof.
  intros K. unfold letter. change 63 with (Z.ones 6). rewrite Z.land_ones, Z.shiftr_div_pow2 by lia. change (2 ^ 6) with 64.
  apply alphabet_char. apply Z.mod_pos_bound. lia.
Qed.

Definition value24 a b c := a * 65536 + b * 256 + c.
Lemma lor24 a b c : is_byte a -> is_byte b -> is_byte c ->
  Z.lor (Z.lor (u32 (Z.shiftl a 16)) (u32 (Z.shiftl b 8))) c = value24 a b c.
Proof.
  intros A B C. rewrite !Z.shiftl_mul_pow2 by lia. change (2 ^ 16) with 65536. change (2 ^ 8) with 256.
  unfold is_byte, u32, value24 in *. rewrite !Z.mod_small by lia.
  rewrite (lor_plus _ (b * 256) 16) by (change (2 ^ 16) with 65536; zdiv).
  rewrite (lor_plus _ c 8) by (change (2 ^ 8) with 256; zdiv). lia.
Qed.
Lemma lor16 a b : is_byte a -> is_byte b -> Z.lor (u32 (Z.shiftl a 16)) (u32 (Z.shiftl b 8)) = value24 a b 0.
Proof. intros A B. rewrite <- lor24; [now rewrite Z.lor_0_r| | |]; auto. unfold is_byte; lia. Qed.
Lemma lor8 a : is_byte a -> u32 (Z.shiftl a 16) = value24 a 0 0.
Proof. intros A. rewrite Z.shiftl_mul_pow2 by lia. unfold is_byte, u32, value24 in *. change (2 ^ 16) with 65536. rewrite Z.mod_small; lia. Qed.

(** the four values of six bits give the three bytes back *)
Lemma regroup v : 0 <= v < 16777216 ->
  Z.lor (Z.lor (Z.lor (u32 (Z.shiftl ((v / 2 ^ 18) mod 64) 18)) (u32 (Z.shiftl ((v / 2 ^ 12) mod 64) 12))) (u32 (Z.shiftl ((v / 2 ^ 6) mod 64) 6))) ((v / 2 ^ 0) mod 64) = v.
Proof.
  intros H. rewrite !Z.shiftl_mul_pow2 by lia. change (2 ^ 18) with 262144. change (2 ^ 12) with 4096. change (2 ^ 6) with 64. change (2 ^ 0) with 1.
  unfold u32. rewrite !Z.mod_small with (b := 4294967296) by zdiv.
  rewrite (lor_plus _ (v / 4096 mod 64 * 4096) 18) by (change (2 ^ 18) with 262144; zdiv).
  rewrite (lor_plus _ (v / 64 mod 64 * 64) 12) by (change (2 ^ 12) with 4096; zdiv).
  rewrite (lor_plus _ (v / 1 mod 64) 6) by (change (2 ^ 6) with 64; zdiv). zdiv.
Qed.

Lemma bytes_of_24 a b c : is_byte a -> is_byte b -> is_byte c ->
  u8 (Z.shiftr (value24 a b c) 16) = a /\ u8 (Z.shiftr (value24 a b c) 8) = b /\ u8 (value24 a b c) = c.
Proof.
  unfold is_byte, u8, value24. intros A B C. rewrite !Z.shiftr_div_pow2 by lia. change (2 ^ 16) with 65536. change (2 ^ 8) with 256.
  repeat split; zdiv.
Qed.
Lemma value24_bound a b c : is_byte a -> is_byte b -> is_byte c -> 0 <= value24 a b c < 16777216.
Proof. unfold is_byte, value24. lia. Qed.

Lemma padded_four x y z u t : padded (x :: y :: z :: u :: t) = x :: y :: z :: u :: padded t.
Proof. unfold padded. rewrite !zlen_cons. replace ((1 + (1 + (1 + (1 + zlen t)))) mod 4) with (zlen t mod 4) by zdiv. reflexivity. Qed.

Lemma list_ind3 (P : list Z -> Prop) :
  P [] -> (forall a, P [a]) -> (forall a b, P [a; b]) -> (forall a b c t, P t -> P (a :: b :: c :: t)) -> forall l, P l.
Proof.
  intros P0 P1 P2 P3. assert (H : forall l, P l /\ (forall a, P (a :: l)) /\ (forall a b, P (a :: b :: l))).
  { induction l as [|x l (A & B & C)]; [auto|]. auto. }
  intros l. apply H.
Qed.

Lemma value_of_61 : char_value 61 = Ok 0.
Proof. reflexivity. Qed.

Lemma encode_decode l : bytes l ->
  exists e, base64_encode l = Ok e /\ bytes e /\ base64_decode e = Ok l /\ zlen e = (4 * zlen l + 2) / 3.
Proof.
  induction l as [|a|a b|a b c t IH] using list_ind3; intros B.
  - exists []. repeat split; try reflexivity. constructor.
  - assert (A : is_byte a) by (inversion B; auto). assert (N : is_byte 0) by (unfold is_byte; lia).
    cbn [base64_encode]. rewrite (lor8 a A).
    destruct (letter_ok (value24 a 0 0) 18) as (x & -> & Vx & Nx & Bx); [lia|]. cbn [bind].
    destruct (letter_ok (value24 a 0 0) 12) as (y & -> & Vy & Ny & By); [lia|]. cbn [bind].
    exists [x; y]. split; [reflexivity|]. split; [repeat (apply Forall_cons; [assumption|]); apply Forall_nil|]. split; [|reflexivity].
    unfold base64_decode, padded. change (zlen [x; y] mod 4) with 2. cbn [Z.eqb app Z.sub Z.to_nat].
    change (repeat 61 (Z.to_nat (4 - 2))) with [61; 61]. cbn [app decode_groups]. rewrite Vx, Vy, value_of_61. cbn [bind].
    destruct (bytes_of_24 a 0 0 A N N) as (E1 & E2 & E3).
    pose proof (regroup _ (value24_bound a 0 0 A N N)) as R.
    replace (value24 a 0 0 / 2 ^ 6 mod 64) with 0 in R by (unfold value24, is_byte in *; change (2 ^ 6) with 64; zdiv).
    replace (value24 a 0 0 / 2 ^ 0 mod 64) with 0 in R by (unfold value24, is_byte in *; change (2 ^ 0) with 1; zdiv).
    rewrite R, E1. reflexivity.
  - assert (A : is_byte a) by (inversion B; auto). assert (B' : is_byte b) by (apply Forall_inv_tail, Forall_inv in B; auto).
    assert (N : is_byte 0) by (unfold is_byte; lia).
    cbn [base64_encode]. rewrite (lor16 a b A B').
    destruct (letter_ok (value24 a b 0) 18) as (x & -> & Vx & Nx & Bx); [lia|]. cbn [bind].
    destruct (letter_ok (value24 a b 0) 12) as (y & -> & Vy & Ny & By); [lia|]. cbn [bind].
    destruct (letter_ok (value24 a b 0) 6) as (z & -> & Vz & Nz & Bz); [lia|]. cbn [bind].
    exists [x; y; z]. split; [reflexivity|]. split; [repeat (apply Forall_cons; [assumption|]); apply Forall_nil|]. split; [|reflexivity].
    unfold base64_decode, padded. change (zlen [x; y; z] mod 4) with 3. cbn [Z.eqb app Z.sub Z.to_nat].
    change (repeat 61 (Z.to_nat (4 - 3))) with [61]. cbn [app decode_groups]. rewrite Vx, Vy, Vz, value_of_61. cbn [bind].
    destruct (bytes_of_24 a b 0 A B' N) as (E1 & E2 & E3).
    pose proof (regroup _ (value24_bound a b 0 A B' N)) as R.
    replace (value24 a b 0 / 2 ^ 0 mod 64) with 0 in R by (unfold value24, is_byte in *; change (2 ^ 0) with 1; zdiv).
    rewrite R, E1, E2. replace (z =? 61) with false by (symmetry; lia). reflexivity.
  - assert (A : is_byte a) by (inversion B; auto). assert (B' : is_byte b) by (apply Forall_inv_tail, Forall_inv in B; auto).
    assert (C : is_byte c) by (do 2 apply Forall_inv_tail in B; apply Forall_inv in B; auto).
    do 3 apply Forall_inv_tail in B. destruct (IH B) as (e & E & Be & D & L).
    cbn [base64_encode]. rewrite (lor24 a b c A B' C).
    destruct (letter_ok (value24 a b c) 18) as (x & -> & Vx & Nx & Bx); [lia|]. cbn [bind].
    destruct (letter_ok (value24 a b c) 12) as (y & -> & Vy & Ny & By); [lia|]. cbn [bind].
    destruct (letter_ok (value24 a b c) 6) as (z & -> & Vz & Nz & Bz); [lia|]. cbn [bind].
    destruct (letter_ok (value24 a b c) 0) as (u & -> & Vu & Nu & Bu); [lia|]. cbn [bind].
    rewrite E. cbn [bind]. exists (x :: y :: z :: u :: e). split; [reflexivity|].
    split; [repeat (apply Forall_cons; [assumption|]); exact Be|]. split; [|rewrite !zlen_cons, L; pose proof (zlen_nonneg t); zdiv].
    unfold base64_decode in *. rewrite padded_four. cbn [decode_groups]. rewrite Vx, Vy, Vz, Vu. cbn [bind]. rewrite D. cbn [bind].
    destruct (bytes_of_24 a b c A B' C) as (E1 & E2 & E3). rewrite (regroup _ (value24_bound a b c A B' C)), E1, E2, E3.
    replace (z =? 61) with false by (symmetry; lia). replace (u =? 61) with false by (symmetry; lia). reflexivity.
Qed.

(** decoding anything: a throw, or bytes, at least one if there was a character *)
Lemma list_ind4 (P : list Z -> Prop) :
  P [] -> (forall a, P [a]) -> (forall a b, P [a; b]) -> (forall a b c, P [a; b; c]) -> (forall a b c d t, P t -> P (a :: b :: c :: d :: t)) -> forall l, P l.
Proof.
  intros P0 P1 P2 P3 P4. assert (H : forall l, P l /\ (forall a, P (a :: l)) /\ (forall a b, P (a :: b :: l)) /\ (forall a b c, P (a :: b :: c :: l))).
  { induction l as [|x l (A & B & C & D)]; [auto|]. auto. }
  intros l. apply H.
Qed.

Lemma char_value_total c : (exists v, char_value c = Ok v) \/ char_value c = Throw.
Proof. unfold char_value. destruct (c =? 61); [eauto|]. cbn zeta. destruct (value_from ALPHABET 0 c =? -1); eauto. Qed.

Lemma decode_groups_total l : zlen l mod 4 = 0 ->
  decode_groups l = Throw \/ exists d, decode_groups l = Ok d /\ bytes d /\ (l <> [] -> 1 <= zlen d).
Proof.
  induction l as [|a|a b|a b c|a b c d t IH] using list_ind4; intros H; try discriminate H.
  - right. exists []. split; [reflexivity|]. split; [constructor|congruence].
  - cbn [decode_groups].
    destruct (char_value_total a) as [[v0 ->]| ->]; cbn [bind]; [|auto].
    destruct (char_value_total b) as [[v1 ->]| ->]; cbn [bind]; [|auto].
    destruct (char_value_total c) as [[v2 ->]| ->]; cbn [bind]; [|auto].
    destruct (char_value_total d) as [[v3 ->]| ->]; cbn [bind]; [|auto].
    destruct IH as [->|(r & -> & B & _)].
    { rewrite !zlen_cons in H. revert H. zdiv. }
    + auto.
    + cbn [bind]. right. eexists. split; [reflexivity|]. split.
      * apply Forall_cons; [apply u8_byte|]. unfold bytes. apply Forall_app. split; [destruct (c =? 61); repeat (apply Forall_cons; [apply u8_byte|]); apply Forall_nil|].
        apply Forall_app. split; [destruct (d =? 61); repeat (apply Forall_cons; [apply u8_byte|]); apply Forall_nil|exact B].
      * intros _. rewrite zlen_cons. match goal with |- context [zlen ?x] => pose proof (zlen_nonneg x) end. lia.
Qed.

Lemma padded_len s : zlen (padded s) mod 4 = 0.
Proof.
  unfold padded. rewrite zlen_app. destruct (Z.eqb_spec (zlen s mod 4) 0) as [E|E]; [rewrite zlen_nil; zdiv|].
  unfold zlen at 2. rewrite repeat_length. revert E. zdiv.
Qed.

Lemma decode_total s : base64_decode s = Throw \/ exists d, base64_decode s = Ok d /\ bytes d /\ (s <> [] -> 1 <= zlen d).
Proof.
  unfold base64_decode. destruct (decode_groups_total _ (padded_len s)) as [E|(d & E & B & L)]; [auto|right].
  exists d. split; [exact E|]. split; [exact B|]. intros N. apply L. unfold padded. destruct s; [congruence|discriminate].
Qed.

(** ** The digest *)
Lemma stretch_ok n ckey csalt : bytes ckey -> bytes csalt -> 1 <= zlen ckey -> 1 <= zlen csalt ->
  forall c, schedule c -> exists c', stretch n ckey csalt c = Ok c' /\ schedule c'.
Proof.
  intros B B' L L'. induction n as [|n IH]; intros c S; cbn [stretch]; [eauto|].
  destruct (expand_ok ckey None c B L Logic.I S) as (c1 & -> & S1). cbn [bind].
  destruct (expand_ok csalt None c1 B' L' Logic.I S1) as (c2 & -> & S2). cbn [bind]. auto.
Qed.

Lemma encrypt_times_ok n c : schedule c -> forall b, block b -> exists o, encrypt_times n c b = Ok o /\ block o.
Proof.
  intros S. induction n as [|n IH]; intros b B; cbn [encrypt_times]; [eauto|].
  destruct (encrypt_ok c b S B) as (o & Bo & E & _). specialize (E (repeat 0 8) []). rewrite app_nil_r in E.
  rewrite E by (cbn; lia). cbn [bind skipn repeat]. rewrite app_nil_r. auto.
Qed.

Lemma setup_ok key cost salt csalt : bytes key -> bytes csalt -> 1 <= zlen csalt -> base64_decode salt = Ok csalt ->
  exists c, expensive_setup key cost salt = Ok c /\ schedule c.
Proof.
  intros B BS L D. unfold expensive_setup. rewrite D. cbn [bind].
  assert (BK : bytes (key ++ [0])) by (apply Forall_bytes_app; split; [exact B|repeat constructor; unfold is_byte; lia]).
  assert (LK : 1 <= zlen (key ++ [0])) by (rewrite zlen_app; change (zlen [0]) with 1; pose proof (zlen_nonneg key); lia).
  unfold new_salted_cipher. replace (zlen csalt =? 0) with false by (symmetry; lia). replace (zlen (key ++ [0]) <? 1) with false by (symmetry; lia).
  destruct (expand_ok (key ++ [0]) (Some csalt) init_cipher BK LK) as (c & -> & S); [split; [exact BS|lia]|apply init_schedule|]. cbn [bind].
  now apply stretch_ok.
Qed.

Lemma magic_blocks : block (sub_list magic 0 8) /\ block (sub_list magic 8 16) /\ block (sub_list magic 16 24).
Proof.
  assert (H : forall l, forallb (fun x => (0 <=? x) && (x <? 256)) l = true -> bytes l).
  { intros l C. apply Forall_forall. intros x Hx. rewrite forallb_forall in C. specialize (C x Hx). unfold is_byte. lia. }
  repeat split; try (apply H; vm_compute; reflexivity).
Qed.

Lemma bcrypt_ok password cost salt csalt : bytes password -> bytes csalt -> 1 <= zlen csalt -> base64_decode salt = Ok csalt ->
  exists d, bcrypt password cost salt = Ok d /\ bytes d /\ zlen d = 31.
Proof.
  intros B BS L D. unfold bcrypt. destruct (setup_ok password cost salt csalt B BS L D) as (c & -> & S). cbn [bind].
  destruct magic_blocks as (M1 & M2 & M3).
  destruct (encrypt_times_ok 64 c S _ M1) as (a & -> & Ba & La). cbn [bind].
  destruct (encrypt_times_ok 64 c S _ M2) as (b & -> & Bb & Lb). cbn [bind].
  destruct (encrypt_times_ok 64 c S _ M3) as (d & -> & Bd & Ld). cbn [bind].
  assert (BX : bytes (sub_list (a ++ b ++ d) 0 23)).
  { unfold sub_list. apply Forall_forall. intros x Hx. assert (Hx' : In x (a ++ b ++ d)).
    { rewrite <- (firstn_skipn (Z.to_nat 0) (a ++ b ++ d)). apply in_or_app. right.
      rewrite <- (firstn_skipn (Z.to_nat (23 - 0)) (skipn (Z.to_nat 0) (a ++ b ++ d))). apply in_or_app. now left. }
    unfold bytes in Ba, Bb, Bd. rewrite Forall_forall in Ba, Bb, Bd.
    apply in_app_or in Hx'. destruct Hx' as [Hx'|Hx']; [auto|]. apply in_app_or in Hx'. destruct Hx'; auto. }
  destruct (encode_decode _ BX) as (e & E & Be & _ & Le). exists e. split; [exact E|]. split; [exact Be|].
  assert (L24 : zlen (a ++ b ++ d) = 24) by (rewrite !zlen_app; unfold zlen; rewrite La, Lb, Ld; reflexivity).
  rewrite Le, zlen_sub_list by (rewrite ?L24; lia). reflexivity.
Qed.

(** ** The printed form *)
Lemma compare_eq a b : constant_time_compare a b = true <-> a = b.
Proof.
  unfold constant_time_compare.
  assert (D : forall a b r, length a = length b -> (difference r a b = 0 <-> r = 0 /\ a = b)).
  { clear a b. induction a as [|x a IH]; intros [|y b] r L; try discriminate L; cbn [difference].
    - intuition.
    - injection L as L. rewrite IH by exact L. rewrite Z.lor_eq_0_iff. split.
      + intros ((R & X) & ->). apply Z.lxor_eq in X. now subst.
      + intros (-> & E). injection E as -> ->. now rewrite Z.lxor_nilpotent. }
  destruct (Z.eqb_spec (zlen a) (zlen b)) as [L|L]; cbn [negb].
  - rewrite Z.eqb_eq, D by (unfold zlen in L; lia). intuition.
  - split; [discriminate|]. intros ->. now contradiction L.
Qed.

Lemma to_string_inj h d d' : hash_to_string (mk_hash d (h_salt h) (h_cost h) (h_major h) (h_minor h)) = hash_to_string (mk_hash d' (h_salt h) (h_cost h) (h_major h) (h_minor h)) -> d = d'.
Proof. unfold hash_to_string. cbn [h_hash h_salt h_cost h_major h_minor]. intros E. repeat apply app_inv_head in E. exact E. Qed.

Lemma verify_iff s q h : new_from_hash s = Ok h ->
  forall other, bcrypt q (h_cost h) (h_salt h) = Ok other ->
  verify s q = if list_eq_dec Z.eq_dec other (h_hash h) then Ok tt else Throw.
Proof.
  intros P other O. unfold verify. rewrite P. cbn [bind]. rewrite O. cbn [bind].
  destruct (constant_time_compare _ _) eqn:C.
  - apply compare_eq in C. destruct h as [hh hs hc hm hn]. apply to_string_inj in C. cbn [h_hash]. subst. now destruct (list_eq_dec Z.eq_dec other other).
  - destruct (list_eq_dec Z.eq_dec other (h_hash h)) as [->|]; [|reflexivity].
    enough (true = false) by discriminate. rewrite <- C. symmetry. apply compare_eq. now destruct h.
Qed.

Lemma printed_string d s cost : 4 <= cost <= 31 -> hash_to_string (mk_hash d s cost 50 97) = printed cost s d.
Proof.
  intros H. unfold hash_to_string, printed, two_digits. cbn [h_hash h_salt h_cost h_major h_minor]. change (97 =? 0) with false. cbv iota.
  rewrite Z.quot_div_nonneg, Z.rem_mod_nonneg by lia. unfold u8. rewrite !Z.mod_small with (b := 256) by zdiv. reflexivity.
Qed.

Lemma at_end {A} (s : list A) n x t : nth_error s n = Some x -> at_ (s ++ t) (Z.of_nat n) = Ok x.
Proof.
  intros E. apply nth_at; [lia|]. rewrite Nat2Z.id. rewrite nth_error_app1; [exact E|]. apply nth_error_Some. congruence.
Qed.

Lemma parse_printed cost s d : 4 <= cost <= 31 -> zlen s = 22 -> zlen d = 31 ->
  new_from_hash (printed cost s d) = Ok (mk_hash d s cost 50 97).
Proof.
  intros H Ls Ld.
  assert (E : printed cost s d = [36; 50; 97; 36; 48 + cost / 10; 48 + cost mod 10; 36] ++ s ++ d) by reflexivity.
  rewrite E. clear E. set (pre := [36; 50; 97; 36; 48 + cost / 10; 48 + cost mod 10; 36]).
  assert (L : zlen (pre ++ s ++ d) = 60) by (rewrite !zlen_app, Ls, Ld; reflexivity).
  assert (E1 : sub_list (pre ++ s ++ d) 7 29 = s).
  { change 7 with (zlen pre). replace 29 with (zlen pre + zlen s) by (rewrite Ls; reflexivity). apply sub_list_mid. }
  assert (E2 : sub_list (pre ++ s ++ d) 29 60 = d).
  { replace 29 with (zlen (pre ++ s)) by (rewrite zlen_app, Ls; reflexivity). replace 60 with (zlen (pre ++ s) + zlen d) by (rewrite zlen_app, Ls, Ld; reflexivity).
    rewrite app_assoc. rewrite <- (app_nil_r ((pre ++ s) ++ d)) at 1. rewrite <- app_assoc. apply sub_list_mid. }
  unfold new_from_hash. rewrite L. change (60 <? 59) with false. cbv iota.
  change 0 with (Z.of_nat 0) at 1. rewrite (at_end pre 0 36) by reflexivity. cbn [bind]. change (negb (36 =? 36)) with false. cbv iota.
  change 1 with (Z.of_nat 1) at 1. rewrite (at_end pre 1 50) by reflexivity. cbn [bind]. change (50 <? 50) with false. cbv iota.
  change 2 with (Z.of_nat 2) at 1. rewrite (at_end pre 2 97) by reflexivity. cbn [bind]. change (negb (97 =? 36)) with true. cbv iota. cbn [bind].
  change 3 with (Z.of_nat 3) at 1. rewrite (at_end pre 3 36) by reflexivity. cbn [bind]. change (negb (36 =? 36)) with false. cbv iota zeta.
  change (3 + 1) with 4. change (60 <=? 4 + 2) with false. cbv iota.
  change (at_ (pre ++ s ++ d) 4) with (at_ (pre ++ s ++ d) (Z.of_nat 4)). rewrite (at_end pre 4 (48 + cost / 10)) by reflexivity. cbn [bind].
  unfold cost_digit. replace ((48 <=? 48 + cost / 10) && (48 + cost / 10 <=? 57)) with true by (symmetry; zdiv). cbn [bind].
  change (at_ (pre ++ s ++ d) (4 + 1)) with (at_ (pre ++ s ++ d) (Z.of_nat 5)). rewrite (at_end pre 5 (48 + cost mod 10)) by reflexivity. cbn [bind].
  replace ((48 <=? 48 + cost mod 10) && (48 + cost mod 10 <=? 57)) with true by (symmetry; zdiv). cbn [bind].
  replace ((0 * 10 + (48 + cost / 10 - 48)) * 10 + (48 + cost mod 10 - 48)) with cost by zdiv.
  unfold check_cost. replace ((cost <? 4) || (31 <? cost)) with false by (symmetry; lia). cbn [bind].
  change (at_ (pre ++ s ++ d) (4 + 2)) with (at_ (pre ++ s ++ d) (Z.of_nat 6)). rewrite (at_end pre 6 36) by reflexivity. cbn [bind].
  change (negb (36 =? 36)) with false. cbv iota. change (60 <? 4 + 2 + 1 + 22) with false. cbv iota.
  change (4 + 2 + 1 + 22) with 29. change (4 + 2 + 1) with 7. now rewrite E1, E2.
Qed.

(** parsing anything: a throw, or a cost and a salt that can be used *)
Lemma parse_total s : new_from_hash s = Throw \/
  exists h, new_from_hash s = Ok h /\ 4 <= h_cost h <= 31 /\ zlen (h_salt h) = 22.
Proof.
  unfold new_from_hash. destruct (Z.ltb_spec (zlen s) 59) as [L|L]; [auto|].
  assert (A : forall i, 0 <= i < 10 -> exists x, at_ s i = Ok x) by (intros i Hi; apply at_total; lia).
  destruct (A 0) as [x0 ->]; [lia|]. cbn [bind]. destruct (negb (x0 =? 36)); [auto|].
  destruct (A 1) as [x1 ->]; [lia|]. cbn [bind]. destruct (50 <? x1); [auto|].
  destruct (A 2) as [x2 ->]; [lia|]. cbn [bind].
  assert (R : forall minor pos, 2 <= pos <= 3 ->
    let r := c <- at_ s pos ;;
    if negb (c =? 36) then Throw else
    let pos := pos + 1 in
    if zlen s <=? pos + 2 then Throw else
    c <- at_ s pos ;; cost <- cost_digit 0 c ;;
    c <- at_ s (pos + 1) ;; cost <- cost_digit cost c ;;
    let pos := pos + 2 in
    _ <- check_cost cost ;;
    c <- at_ s pos ;;
    if negb (c =? 36) then Throw else
    let pos := pos + 1 in
    if zlen s <? pos + 22 then Throw else
    Ok (mk_hash (sub_list s (pos + 22) (zlen s)) (sub_list s pos (pos + 22)) cost x1 minor) in
    r = Throw \/ exists h, r = Ok h /\ 4 <= h_cost h <= 31 /\ zlen (h_salt h) = 22).
  { intros minor pos Hp. cbv zeta. destruct (A pos) as [c ->]; [lia|]. cbn [bind]. destruct (negb (c =? 36)); [auto|].
    replace (zlen s <=? pos + 1 + 2) with false by (symmetry; lia).
    destruct (A (pos + 1)) as [c1 ->]; [lia|]. cbn [bind]. unfold cost_digit.
    destruct ((48 <=? c1) && (c1 <=? 57)); cbn [bind]; [|auto].
    destruct (A (pos + 1 + 1)) as [c2 ->]; [lia|]. cbn [bind].
    destruct ((48 <=? c2) && (c2 <=? 57)); cbn [bind]; [|auto].
    set (cost := (0 * 10 + (c1 - 48)) * 10 + (c2 - 48)). unfold check_cost.
    destruct ((cost <? 4) || (31 <? cost)) eqn:C; cbn [bind]; [auto|].
    destruct (A (pos + 1 + 2)) as [c3 ->]; [lia|]. cbn [bind]. destruct (negb (c3 =? 36)); [auto|].
    replace (zlen s <? pos + 1 + 2 + 1 + 22) with false by (symmetry; lia). right. eexists. split; [reflexivity|].
    cbn [h_cost h_salt]. split; [lia|]. rewrite zlen_sub_list; lia. }
  destruct (negb (x2 =? 36)); cbn [bind]; apply R; lia.
Qed.

(** ** The password in the key schedule *)
Definition text (key : list Z) (k : nat) : Z := nth (Nat.modulo k (length key)) key 0.

Lemma next_byte_text key w k : key <> [] ->
  next_byte key w (Z.of_nat (Nat.modulo k (length key))) = Ok (Z.lor (u32 (Z.shiftl w 8)) (text key k), Z.of_nat (Nat.modulo (S k) (length key))).
Proof.
  intros N. assert (L : (length key <> 0)%nat) by (destruct key; [congruence|discriminate]).
  pose proof (Nat.mod_upper_bound k _ L) as U. unfold next_byte, text.
  rewrite (nth_at key _ (nth (Nat.modulo k (length key)) key 0)).
  - cbn [bind]. f_equal. f_equal. unfold zlen.
    destruct (Z.leb_spec (Z.of_nat (length key)) (Z.of_nat (Nat.modulo k (length key)) + 1)) as [C|C].
    + change 0 with (Z.of_nat 0). f_equal. symmetry. apply Nat.mod_divide; [exact L|].
      exists (S (Nat.div k (length key))). pose proof (Nat.div_mod k _ L). nia.
    + assert (E : (Nat.modulo (S k) (length key) = S (Nat.modulo k (length key)))%nat).
      { symmetry. apply (Nat.mod_unique _ _ (Nat.div k (length key))); [lia|]. pose proof (Nat.div_mod k _ L). nia. }
      rewrite E. lia.
  - lia.
  - rewrite Nat2Z.id. now apply nth_error_nth'.
Qed.

Lemma next_word_text key key' k : key <> [] -> key' <> [] -> (forall m, (k <= m < k + 4)%nat -> text key m = text key' m) ->
  exists w, get_next_word key (Z.of_nat (Nat.modulo k (length key))) = Ok (w, Z.of_nat (Nat.modulo (k + 4) (length key))) /\
            get_next_word key' (Z.of_nat (Nat.modulo k (length key'))) = Ok (w, Z.of_nat (Nat.modulo (k + 4) (length key'))).
Proof.
  intros N N' H. unfold get_next_word.
  rewrite !next_byte_text by assumption. cbn [bind]. rewrite !next_byte_text by assumption. cbn [bind].
  rewrite !next_byte_text by assumption. cbn [bind]. rewrite !next_byte_text by assumption.
  replace (k + 4)%nat with (S (S (S (S k)))) by lia.
  rewrite <- (H k), <- (H (S k)), <- (H (S (S k))), <- (H (S (S (S k)))) by lia. eauto.
Qed.

Lemma mix_key_text key key' : key <> [] -> key' <> [] -> forall n i k l,
  (forall m, (k <= m < k + 4 * n)%nat -> text key m = text key' m) ->
  mix_key n key i (Z.of_nat (Nat.modulo k (length key))) l = mix_key n key' i (Z.of_nat (Nat.modulo k (length key'))) l.
Proof.
  intros N N' n. induction n as [|n IH]; intros i k l H; cbn [mix_key]; [reflexivity|].
  destruct (next_word_text key key' k N N') as (w & -> & ->); [intros m Hm; apply H; lia|]. cbn [bind].
  destruct (at_ l i); cbn [bind]; [|reflexivity..]. destruct (set_at l i _); cbn [bind]; [|reflexivity..].
  apply IH. intros m Hm. apply H. lia.
Qed.

Lemma expand_text key key' salt c : key <> [] -> key' <> [] -> (forall m, (m < 72)%nat -> text key m = text key' m) ->
  expand key salt c = expand key' salt c.
Proof.
  intros N N' H. unfold expand.
  assert (L : (length key <> 0)%nat) by (destruct key; [congruence|discriminate]).
  assert (L' : (length key' <> 0)%nat) by (destruct key'; [congruence|discriminate]).
  pose proof (mix_key_text key key' N N' 18 0 0 (p c)) as M. rewrite !Nat.mod_0_l in M by assumption. change (Z.of_nat 0) with 0 in M.
  rewrite M; [reflexivity|]. intros m Hm. apply H. lia.
Qed.

Lemma stretch_text key key' csalt : key <> [] -> key' <> [] -> (forall m, (m < 72)%nat -> text key m = text key' m) ->
  forall n c, stretch n key csalt c = stretch n key' csalt c.
Proof.
  intros N N' H n. induction n as [|n IH]; intros c; cbn [stretch]; [reflexivity|].
  rewrite (expand_text key key' None c N N' H). destruct (expand key' None c) as [c1| | | | |]; cbn [bind]; [|reflexivity..].
  destruct (expand csalt None c1); cbn [bind]; [|reflexivity..]. apply IH.
Qed.

Lemma key_text_eq a b : key_text a = key_text b <-> forall m, (m < 72)%nat -> text (a ++ [0]) m = text (b ++ [0]) m.
Proof.
  unfold key_text. split.
  - intros E m Hm. assert (X : nth_error (map (text (a ++ [0])) (seq 0 72)) m = nth_error (map (text (b ++ [0])) (seq 0 72)) m) by (unfold text; now rewrite E).
    rewrite !nth_error_map in X. rewrite (nth_error_nth' (seq 0 72) 0%nat) in X by (rewrite seq_length; exact Hm).
    cbn [option_map] in X. rewrite seq_nth in X by exact Hm. now injection X.
  - intros H. apply map_ext_in. intros i Hi. apply in_seq in Hi. apply H. lia.
Qed.

Lemma app_end_nonempty (a : list Z) : a ++ [0] <> [].
Proof. destruct a; discriminate. Qed.

Lemma salted_text key key' salt : key <> [] -> key' <> [] -> (forall m, (m < 72)%nat -> text key m = text key' m) -> salt <> [] ->
  new_salted_cipher key salt = new_salted_cipher key' salt.
Proof.
  intros N N' H S. unfold new_salted_cipher.
  assert (P : forall l : list Z, l <> [] -> 1 <= zlen l) by (intros [|x l] Q; [congruence|rewrite zlen_cons; pose proof (zlen_nonneg l); lia]).
  pose proof (P _ N). pose proof (P _ N'). pose proof (P _ S).
  replace (zlen salt =? 0) with false by (symmetry; lia). replace (zlen key <? 1) with false by (symmetry; lia). replace (zlen key' <? 1) with false by (symmetry; lia).
  now rewrite (expand_text key key' _ _ N N' H).
Qed.

Lemma bcrypt_text a b cost salt : salt <> [] -> key_text a = key_text b -> bcrypt a cost salt = bcrypt b cost salt.
Proof.
  intros S E. rewrite key_text_eq in E. unfold bcrypt, expensive_setup.
  destruct (decode_total salt) as [->|(d & -> & _ & L)]; cbn [bind]; [reflexivity|]. specialize (L S).
  rewrite (salted_text (a ++ [0]) (b ++ [0])); [|apply app_end_nonempty|apply app_end_nonempty|exact E|intros ->; rewrite zlen_nil in L; lia].
  destruct (new_salted_cipher (b ++ [0]) d) as [[c|]| | | | |]; cbn [bind]; try reflexivity.
  now rewrite (stretch_text (a ++ [0]) (b ++ [0]) d (app_end_nonempty a) (app_end_nonempty b) E).
Qed.

Lemma text_inside a m : (m < length a)%nat -> text (a ++ [0]) m = nth m a 0.
Proof. intros H. unfold text. rewrite app_length, Nat.mod_small by (cbn [length]; lia). now apply app_nth1. Qed.
Lemma text_end a : text (a ++ [0]) (length a) = 0.
Proof. unfold text. rewrite app_length, Nat.mod_small by (cbn [length]; lia). rewrite app_nth2 by lia. now rewrite Nat.sub_diag. Qed.

Lemma shorter_differs a b : (length a < length b <= 72)%nat -> no_nul b -> key_text a <> key_text b.
Proof.
  intros L N E. rewrite key_text_eq in E. specialize (E (length a)). rewrite text_end, text_inside in E by lia.
  apply N. rewrite E by lia. apply nth_In. lia.
Qed.

Lemma key_text_inj a b : zlen a <= 72 -> zlen b <= 72 -> no_nul a -> no_nul b -> key_text a = key_text b -> a = b.
Proof.
  unfold zlen. intros La Lb Na Nb E. destruct (Nat.lt_trichotomy (length a) (length b)) as [H|[H|H]].
  - exfalso. apply (shorter_differs a b); auto; lia.
  - apply (nth_ext a b 0 0 H). intros i Hi. rewrite key_text_eq in E. specialize (E i). rewrite !text_inside in E by lia. apply E. lia.
  - exfalso. apply (shorter_differs b a); auto; lia.
Qed.

(** a password, NUL and the password again have the same text *)
Lemma doubled_text a : key_text (a ++ [0] ++ a) = key_text a.
Proof.
  apply key_text_eq. intros m _. unfold text. set (k := length (a ++ [0])).
  assert (K : (k <> 0)%nat) by (unfold k; rewrite app_length; cbn [length]; lia).
  replace ((a ++ [0] ++ a) ++ [0]) with ((a ++ [0]) ++ (a ++ [0])) by now rewrite <- !app_assoc.
  rewrite app_length. fold k. pose proof (Nat.mod_upper_bound m (k + k)) as U.
  assert (M : (Nat.modulo m k = Nat.modulo (Nat.modulo m (k + k)) k)%nat).
  { rewrite (Nat.div_mod m (k + k)) at 1 by lia. rewrite Nat.add_comm.
    replace ((k + k) * (m / (k + k)))%nat with ((2 * (m / (k + k))) * k)%nat by lia. now rewrite Nat.mod_add. }
  destruct (Nat.lt_ge_cases (Nat.modulo m (k + k)) k) as [H|H].
  - rewrite app_nth1 by exact H. rewrite M. now rewrite (Nat.mod_small _ k H).
  - rewrite app_nth2 by exact H. fold k. rewrite M. f_equal.
    apply (Nat.mod_unique _ k 1); lia.
Qed.

(** what comes behind the 72nd byte does not matter *)
Lemma long_text a t : zlen a = 72 -> key_text (a ++ t) = key_text a.
Proof.
  unfold zlen. intros L. apply key_text_eq. intros m Hm. rewrite !text_inside by (rewrite ?app_length; lia). apply app_nth1. lia.
Qed.

(** ** hash and verify together *)
Lemma hash_ok salt password cost : bytes salt -> zlen salt = 16 -> bytes password -> zlen password <= 72 -> cost <= 31 ->
  let n := if cost <? 4 then 10 else cost in
  exists s d, base64_encode salt = Ok s /\ base64_decode s = Ok salt /\ bytes s /\ zlen s = 22 /\
    bcrypt password n s = Ok d /\ bytes d /\ zlen d = 31 /\ hash salt password cost = Ok (printed n s d) /\ new_from_hash (printed n s d) = Ok (mk_hash d s n 50 97).
Proof.
  intros BS LS BP LP HC n. assert (N : 4 <= n <= 31) by (unfold n; destruct (Z.ltb_spec cost 4); lia).
  destruct (encode_decode salt BS) as (s & E & Bs & D & Ls). rewrite LS in Ls. change ((4 * 16 + 2) / 3) with 22 in Ls.
  destruct (bcrypt_ok password n s salt BP BS) as (d & B & Bd & Ld); [lia|exact D|].
  exists s, d. split; [exact E|]. split; [exact D|]. split; [exact Bs|]. split; [exact Ls|]. split; [exact B|]. split; [exact Bd|]. split; [exact Ld|].
  split; [|now apply parse_printed].
  unfold hash, new_from_password. replace (72 <? zlen password) with false by (symmetry; lia). fold n. cbv zeta.
  unfold check_cost. replace ((n <? 4) || (31 <? n)) with false by (symmetry; lia). cbn [bind]. rewrite E. cbn [bind]. rewrite B. cbn [bind].
  now rewrite printed_string.
Qed.

Lemma same_text_accepted salt a b cost h : bytes salt -> zlen salt = 16 -> bytes a -> key_text b = key_text a ->
  hash salt a cost = Ok h -> verify h b = Ok tt.
Proof.
  intros BS LS BA E H.
  assert (LA : zlen a <= 72) by (unfold hash, new_from_password in H; destruct (Z.ltb_spec 72 (zlen a)); [discriminate H|lia]).
  assert (HC : cost <= 31).
  { unfold hash, new_from_password in H. destruct (72 <? zlen a); [discriminate H|]. cbv zeta in H. unfold check_cost in H.
    destruct (Z.ltb_spec cost 4); [lia|]. destruct ((cost <? 4) || (31 <? cost)) eqn:C; [discriminate H|lia]. }
  destruct (hash_ok salt a cost BS LS BA LA HC) as (s & d & _ & D & _ & Ls & B & _ & _ & H' & P). cbv zeta in *.
  rewrite H in H'. assert (h = printed (if cost <? 4 then 10 else cost) s d) as -> by congruence.
  rewrite (verify_iff _ b _ P d).
  - cbn [h_hash]. now destruct (list_eq_dec Z.eq_dec d d).
  - cbn [h_cost h_salt]. rewrite (bcrypt_text b a); [exact B| |exact E]. intros ->. discriminate Ls.
Qed.
