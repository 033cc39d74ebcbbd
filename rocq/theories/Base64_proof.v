(** Base64: the code agrees with the description. *)
From Verif Require Import Base Base_lemmas Base64_model Base64_spec.

(** ** Digits *)
Definition upto (n : nat) : list Z := map Z.of_nat (seq 0 n).
Lemma upto_in : forall n v, 0 <= v < Z.of_nat n -> In v (upto n).
Proof. intros n v H. apply in_map_iff. exists (Z.to_nat v). split; [lia|]. apply in_seq. lia. Qed.
Lemma all_upto : forall n (f : Z -> bool) v, forallb f (upto n) = true -> 0 <= v < Z.of_nat n -> f v = true.
Proof. intros n f v H Hv. rewrite forallb_forall in H. apply H, upto_in, Hv. Qed.

Lemma enc_ok : forall v, six v -> enc_char v = digit v.
Proof.
  intros v H. apply Z.eqb_eq. apply (all_upto 64 (fun v => enc_char v =? digit v)); [vm_compute; reflexivity|exact H].
Qed.
Lemma dec_digit : forall v, six v -> dec_value (digit v) = v.
Proof.
  intros v H. apply Z.eqb_eq. apply (all_upto 64 (fun v => dec_value (digit v) =? v)); [vm_compute; reflexivity|exact H].
Qed.
Lemma digit_range : forall v, six v -> 43 <= digit v <= 122 /\ digit v <> 61.
Proof. intros v [H1 H2]. unfold digit. repeat match goal with |- context [if ?b then _ else _] => destruct b eqn:? end; lia. Qed.
Lemma dec_some : forall c, 0 <= c < 256 -> 0 <= dec_value c -> exists v, six v /\ c = digit v.
Proof.
  intros c Hc Hd. assert (X : (dec_value c <? 0) || ((dec_value c <? 64) && (digit (dec_value c) =? c)) = true).
  { apply (all_upto 256 (fun c => (dec_value c <? 0) || ((dec_value c <? 64) && (digit (dec_value c) =? c)))); [vm_compute; reflexivity|exact Hc]. }
  exists (dec_value c). unfold six. lia.
Qed.
Lemma digit_inj : forall v w, six v -> six w -> digit v = digit w -> v = w.
Proof. intros v w Hv Hw E. rewrite <- (dec_digit v Hv), E. apply dec_digit, Hw. Qed.
Lemma dec_range : forall c, 0 <= c < 256 -> -1 <= dec_value c < 64.
Proof.
  intros c Hc. assert (X : (-1 <=? dec_value c) && (dec_value c <? 64) = true).
  { apply (all_upto 256 (fun c => (-1 <=? dec_value c) && (dec_value c <? 64))); [vm_compute; reflexivity|exact Hc]. }
  lia.
Qed.
Local Opaque enc_char dec_value digit.

(** ** Bits *)
Lemma lor_plus a b k : 0 <= k -> a mod 2 ^ k = 0 -> 0 <= b < 2 ^ k -> Z.lor a b = a + b.
Proof.
  intros Hk Ha Hb. assert (L : Z.land a b = 0).
  { apply Z.bits_inj'. intros n Hn. rewrite Z.land_spec, Z.bits_0. destruct (Z.ltb n k) eqn:E.
    - assert (X : Z.testbit (a mod 2 ^ k) n = Z.testbit a n) by (apply Z.mod_pow2_bits_low; lia). rewrite Ha, Z.bits_0 in X. rewrite <- X. reflexivity.
    - replace b with (b mod 2 ^ k) by (apply Z.mod_small; exact Hb). rewrite Z.mod_pow2_bits_high by lia. apply andb_false_r. }
  rewrite <- Z.lxor_lor by exact L. symmetry. apply Z.add_nocarry_lxor. exact L.
Qed.
Lemma next_x : forall x v, 0 <= x -> six v -> Z.lor (u32 (Z.shiftl x 6)) (u32 v) = x * 64 mod 4294967296 + v.
Proof.
  intros x v Hx [H1 H2]. unfold u32. rewrite Z.shiftl_mul_pow2 by lia. change (2 ^ 6) with 64. rewrite (Z.mod_small v) by lia.
  apply (lor_plus _ _ 6); [lia| |change (2 ^ 6) with 64; lia]. change (2 ^ 6) with 64.
  assert (E : x * 64 mod 4294967296 = (x mod 67108864) * 64). { change 4294967296 with (67108864 * 64). rewrite Z.mul_mod_distr_r by lia. reflexivity. }
  rewrite E. apply Z.mod_mul. lia.
Qed.
Lemma byte_at_div : forall k x, 0 <= k -> byte_at k x = x / 2 ^ (8 * k) mod 256.
Proof. intros k x Hk. unfold byte_at. change 255 with (Z.ones 8). rewrite Z.land_ones by lia. rewrite Z.shiftr_div_pow2 by lia. reflexivity. Qed.
Lemma u8_byte_at : forall k x, 0 <= k -> u8 (byte_at k x) = byte_at k x.
Proof. intros k x Hk. unfold u8. apply Z.mod_small. rewrite byte_at_div by exact Hk. apply Z.mod_pos_bound. lia. Qed.
Lemma b3 : forall q r, 0 <= r < 16777216 ->
  let x := q * 16777216 + r in
  byte_at 2 x = r / 65536 /\ byte_at 1 x = r / 256 mod 256 /\ byte_at 0 x = r mod 256.
Proof.
  intros q r Hr x. rewrite !byte_at_div by lia. change (2 ^ (8 * 2)) with 65536. change (2 ^ (8 * 1)) with 256. change (2 ^ (8 * 0)) with 1.
  subst x. repeat split.
  - replace (q * 16777216 + r) with (r + q * 256 * 65536) by lia. rewrite Z.div_add by lia. rewrite Z.mod_add by lia. apply Z.mod_small.
    split; [apply Z.div_pos; lia|apply Z.div_lt_upper_bound; lia].
  - replace (q * 16777216 + r) with (r + q * 65536 * 256) by lia. rewrite Z.div_add by lia. replace (q * 65536) with (q * 256 * 256) by lia. apply Z.mod_add. lia.
  - rewrite Z.div_1_r. replace (q * 16777216 + r) with (r + q * 65536 * 256) by lia. apply Z.mod_add. lia.
Qed.
(** 32 bits keep at least the last 24. *)
Lemma low24 : forall x, exists q, x mod 4294967296 = q * 16777216 + x mod 16777216.
Proof.
  intros x. exists ((x mod 4294967296) / 16777216). pose proof (Z.div_mod (x mod 4294967296) 16777216 ltac:(lia)) as E.
  assert (M : (x mod 4294967296) mod 16777216 = x mod 16777216).
  { pose proof (Z.div_mod x 4294967296 ltac:(lia)) as D. rewrite D at 2.
    replace (4294967296 * (x / 4294967296) + x mod 4294967296) with (x mod 4294967296 + (x / 4294967296 * 256) * 16777216) by lia.
    rewrite Z.mod_add by lia. reflexivity. }
  lia.
Qed.

Lemma put_ok : forall dlen out b, zlen out < dlen -> put dlen out b = Ok (out ++ [u8 b]).
Proof. intros. unfold put. destruct (zlen out <? dlen) eqn:E; [reflexivity|lia]. Qed.

(** ** Decoding the characters *)
Definition shift (x v : Z) : Z := x * 64 mod 4294967296 + v.
Lemma shift_range : forall x v, six v -> 0 <= shift x v < 4294967296.
Proof.
  intros x v [H1 H2]. unfold shift. assert (E : x * 64 mod 4294967296 = (x mod 67108864) * 64). { change 4294967296 with (67108864 * 64). rewrite Z.mul_mod_distr_r by lia. reflexivity. }
  rewrite E. pose proof (Z.mod_pos_bound x 67108864). lia.
Qed.
Lemma shift_num : forall x v, exists q, shift x v = q * 16777216 * 0 + (x * 64 + v) - q * 4294967296.
Proof. intros x v. unfold shift. exists (x * 64 / 4294967296). pose proof (Z.div_mod (x * 64) 4294967296). lia. Qed.
Lemma shift4 : forall x a b c d, exists q, shift (shift (shift (shift x a) b) c) d = q * 16777216 + num4 a b c d.
Proof.
  intros x a b c d. destruct (shift_num x a) as (q1 & E1). destruct (shift_num (shift x a) b) as (q2 & E2).
  destruct (shift_num (shift (shift x a) b) c) as (q3 & E3). destruct (shift_num (shift (shift (shift x a) b) c) d) as (q4 & E4).
  exists (x - q1 * 67108864 - q2 * 1048576 - q3 * 16384 - q4 * 256). unfold num4. lia.
Qed.
Lemma shift3 : forall x a b c, exists q, shift (shift (shift x a) b) c = q * 262144 + (a * 4096 + b * 64 + c).
Proof.
  intros x a b c. destruct (shift_num x a) as (q1 & E1). destruct (shift_num (shift x a) b) as (q2 & E2).
  destruct (shift_num (shift (shift x a) b) c) as (q3 & E3). exists (x - q1 * 67108864 - q2 * 1048576 - q3 * 16384). lia.
Qed.
Lemma shift2 : forall x a b, exists q, shift (shift x a) b = q * 4096 + (a * 64 + b).
Proof.
  intros x a b. destruct (shift_num x a) as (q1 & E1). destruct (shift_num (shift x a) b) as (q2 & E2).
  exists (x - q1 * 67108864 - q2 * 1048576). lia.
Qed.

Lemma pass2_digit : forall dlen v src x k out, six v -> 0 <= x ->
  pass2 dlen (digit v :: src) x k out =
  if k + 1 =? 4 then
    out <- put dlen out (byte_at 2 (shift x v)) ;; out <- put dlen out (byte_at 1 (shift x v)) ;;
    out <- put dlen out (byte_at 0 (shift x v)) ;; pass2 dlen src (shift x v) 0 out
  else pass2 dlen src (shift x v) (k + 1) out.
Proof.
  intros dlen v src x k out Hv Hx. cbn [pass2]. destruct (digit_range v Hv) as (R1 & R2).
  destruct ((digit v =? 13) || (digit v =? 10) || (digit v =? 32)) eqn:E; [lia|].
  destruct (digit v =? 61) eqn:E2; [lia|]. rewrite (dec_digit v Hv), (next_x x v Hx Hv). reflexivity.
Qed.
Lemma pass2_eq : forall dlen src x k out, pass2 dlen (61 :: src) x k out = pass2 dlen [] x k out.
Proof. reflexivity. Qed.

(** The end of the text, by the number of digits waiting. *)
Lemma num_bytes : forall N, 0 <= N < 16777216 -> exists x y z, byte x /\ byte y /\ byte z /\ N = num3 x y z /\
  x = N / 65536 /\ y = N / 256 mod 256 /\ z = N mod 256.
Proof.
  intros N H. exists (N / 65536), (N / 256 mod 256), (N mod 256). unfold byte, num3.
  pose proof (Z.div_mod N 256). pose proof (Z.div_mod (N / 256) 256). pose proof (Z.mod_pos_bound N 256). pose proof (Z.mod_pos_bound (N / 256) 256).
  assert (E : N / 65536 = N / 256 / 256) by (rewrite Z.div_div by lia; reflexivity). rewrite !E.
  assert (0 <= N / 256 / 256) by (apply Z.div_pos; [apply Z.div_pos; lia|lia]).
  assert (N / 256 / 256 < 256) by (rewrite <- E; apply Z.div_lt_upper_bound; lia). lia.
Qed.

Lemma pass2_b64 : forall vs e, Forall six vs -> 0 <= Z.of_nat e <= 2 -> (zlen vs + Z.of_nat e) mod 4 = 0 -> zlen vs mod 4 <> 1 ->
  exists bs, b64 (map digit vs ++ repeat 61 e) bs /\ zlen bs = (zlen vs + Z.of_nat e) / 4 * 3 - Z.of_nat e /\
    forall dlen out x, 0 <= x -> zlen out + zlen bs <= dlen -> pass2 dlen (map digit vs ++ repeat 61 e) x 0 out = Ok (out ++ bs).
Proof.
  assert (G : forall n vs e, (length vs <= n)%nat -> Forall six vs -> 0 <= Z.of_nat e <= 2 -> (zlen vs + Z.of_nat e) mod 4 = 0 -> zlen vs mod 4 <> 1 ->
    exists bs, b64 (map digit vs ++ repeat 61 e) bs /\ zlen bs = (zlen vs + Z.of_nat e) / 4 * 3 - Z.of_nat e /\
      forall dlen out x, 0 <= x -> zlen out + zlen bs <= dlen -> pass2 dlen (map digit vs ++ repeat 61 e) x 0 out = Ok (out ++ bs)).
  2: { intros vs e. apply (G (length vs)). lia. }
  induction n as [|n IH]; intros vs e Hn Hs He Hm H1.
  - destruct vs; [|cbn in Hn; lia]. rewrite zlen_nil in *. assert (E : e = 0%nat) by (destruct e as [|[|[|e]]]; [reflexivity| | |lia]; cbn in Hm; discriminate).
    subst e. exists []. cbn [map repeat app]. split; [constructor|]. split; [reflexivity|]. intros. cbn. rewrite app_nil_r. reflexivity.
  - destruct vs as [|a [|b [|c [|d vs]]]].
    + apply IH; try assumption. cbn. lia.
    + exfalso. apply H1. reflexivity.
    + assert (E : e = 2%nat) by (destruct e as [|[|[|e]]]; [| |reflexivity|lia]; vm_compute in Hm; discriminate). subst e.
      inversion Hs as [|? ? Sa Hs1]; subst. inversion Hs1 as [|? ? Sb Hs2]; subst.
      assert (RN : 0 <= num4 a b 0 0 < 16777216) by (unfold num4, six in *; lia).
      destruct (num_bytes _ RN) as (x & y & z & Bx & By & Bz & E & Ex & Ey & Ez).
      exists [x]. split; [cbn [map repeat app]; apply (B_one a b y z x); assumption|]. split; [reflexivity|].
      intros dlen out x0 Hx0 Hl. cbn [map repeat app]. rewrite pass2_digit by assumption. change (0 + 1 =? 4) with false. cbn [andb].
      cbv iota. rewrite pass2_digit by (try assumption; apply shift_range; assumption). change (0 + 1 + 1 =? 4) with false. cbv iota.
      rewrite pass2_eq. cbn [pass2]. change (0 + 1 + 1 =? 3) with false. change (0 + 1 + 1 =? 2) with true. cbv iota.
      rewrite zlen_cons, zlen_nil in Hl. rewrite put_ok by lia. rewrite u8_byte_at by lia. do 3 f_equal.
      destruct (shift2 x0 a b) as (q & Eq). rewrite Z.shiftl_mul_pow2 by lia. change (2 ^ 12) with 4096. unfold u32.
      destruct (low24 (shift (shift x0 a) b * 4096)) as (q2 & E2). rewrite E2.
      destruct (b3 q2 ((shift (shift x0 a) b * 4096) mod 16777216)) as (B2 & _ & _); [apply Z.mod_pos_bound; lia|]. cbv zeta in B2. rewrite B2.
      rewrite Eq. replace ((q * 4096 + (a * 64 + b)) * 4096) with (num4 a b 0 0 + q * 16777216) by (unfold num4; lia).
      rewrite Z.mod_add by lia. rewrite Z.mod_small by exact RN. symmetry. exact Ex.
    + assert (E : e = 1%nat) by (destruct e as [|[|[|e]]]; [|reflexivity| |lia]; vm_compute in Hm; discriminate). subst e.
      inversion Hs as [|? ? Sa Hs1]; subst. inversion Hs1 as [|? ? Sb Hs2]; subst. inversion Hs2 as [|? ? Sc Hs3]; subst.
      assert (RN : 0 <= num4 a b c 0 < 16777216) by (unfold num4, six in *; lia).
      destruct (num_bytes _ RN) as (x & y & z & Bx & By & Bz & E & Ex & Ey & Ez).
      exists [x; y]. split; [cbn [map repeat app]; apply (B_two a b c z x y); assumption|]. split; [reflexivity|].
      intros dlen out x0 Hx0 Hl. cbn [map repeat app]. rewrite pass2_digit by assumption. change (0 + 1 =? 4) with false.
      cbv iota. rewrite pass2_digit by (try assumption; apply shift_range; assumption). change (0 + 1 + 1 =? 4) with false. cbv iota.
      rewrite pass2_digit by (try assumption; apply shift_range; assumption). change (0 + 1 + 1 + 1 =? 4) with false. cbv iota.
      rewrite pass2_eq. cbn [pass2]. change (0 + 1 + 1 + 1 =? 3) with true. cbv iota.
      rewrite !zlen_cons, zlen_nil in Hl. rewrite put_ok by lia. cbn [bind].
      rewrite put_ok by (rewrite zlen_app, zlen_cons, zlen_nil; lia). rewrite !u8_byte_at by lia. rewrite <- app_assoc. cbn [app]. 
      destruct (shift3 x0 a b c) as (q & Eq). rewrite Z.shiftl_mul_pow2 by lia. change (2 ^ 6) with 64. unfold u32.
      set (X := shift (shift (shift x0 a) b) c) in *.
      destruct (low24 (X * 64)) as (q2 & E2). rewrite E2.
      destruct (b3 q2 ((X * 64) mod 16777216)) as (B2 & B1 & _); [apply Z.mod_pos_bound; lia|]. cbv zeta in B1, B2. rewrite B2, B1.
      rewrite Eq. replace ((q * 262144 + (a * 4096 + b * 64 + c)) * 64) with (num4 a b c 0 + q * 16777216) by (unfold num4; lia).
      rewrite Z.mod_add by lia. rewrite Z.mod_small by exact RN. rewrite <- Ex, <- Ey. reflexivity.
    + inversion Hs as [|? ? Sa Hs1]; subst. inversion Hs1 as [|? ? Sb Hs2]; subst. inversion Hs2 as [|? ? Sc Hs3]; subst. inversion Hs3 as [|? ? Sd Hs4]; subst.
      rewrite !zlen_cons in *. cbn [length] in Hn.
      assert (M1 : (zlen vs + Z.of_nat e) mod 4 = 0).
      { replace (1 + (1 + (1 + (1 + zlen vs))) + Z.of_nat e) with (zlen vs + Z.of_nat e + 1 * 4) in Hm by lia. rewrite Z.mod_add in Hm by lia. exact Hm. }
      assert (M2 : zlen vs mod 4 <> 1).
      { replace (1 + (1 + (1 + (1 + zlen vs)))) with (zlen vs + 1 * 4) in H1 by lia. rewrite Z.mod_add in H1 by lia. exact H1. }
      destruct (IH vs e ltac:(lia) Hs4 He M1 M2) as (bs & Hb & Hl & Hp).
      assert (RN : 0 <= num4 a b c d < 16777216) by (unfold num4, six in *; lia).
      destruct (num_bytes _ RN) as (x & y & z & Bx & By & Bz & E & Ex & Ey & Ez).
      exists (x :: y :: z :: bs). split; [cbn [map app]; apply (B_group a b c d x y z); assumption|]. split.
      { rewrite !zlen_cons, Hl. replace (1 + (1 + (1 + (1 + zlen vs))) + Z.of_nat e) with (zlen vs + Z.of_nat e + 1 * 4) by lia. rewrite Z.div_add by lia. lia. }
      intros dlen out x0 Hx0 Hle. cbn [map app]. rewrite !zlen_cons in Hle. pose proof (zlen_nonneg bs) as Nb.
      rewrite pass2_digit by assumption. change (0 + 1 =? 4) with false. cbv iota.
      rewrite pass2_digit by (try assumption; apply shift_range; assumption). change (0 + 1 + 1 =? 4) with false. cbv iota.
      rewrite pass2_digit by (try assumption; apply shift_range; assumption). change (0 + 1 + 1 + 1 =? 4) with false. cbv iota.
      rewrite pass2_digit by (try assumption; apply shift_range; assumption). change (0 + 1 + 1 + 1 + 1 =? 4) with true. cbv iota.
      destruct (shift4 x0 a b c d) as (q & Eq).
      destruct (b3 q (num4 a b c d) RN) as (B2 & B1 & B0). cbv zeta in B0, B1, B2. rewrite <- Eq in B0, B1, B2.
      rewrite put_ok by lia. cbn [bind]. rewrite put_ok by (rewrite zlen_app, zlen_cons, zlen_nil; lia). cbn [bind].
      rewrite put_ok by (rewrite !zlen_app, !zlen_cons, zlen_nil; lia). cbn [bind]. rewrite !u8_byte_at by lia. rewrite B0, B1, B2, <- Ex, <- Ey, <- Ez.
      rewrite Hp; [rewrite <- !app_assoc; reflexivity|apply shift_range; assumption|rewrite !zlen_app, !zlen_cons, zlen_nil; lia].
Qed.

(** ** The first pass *)
Definition plain (c : Z) : Prop := c <> 32 /\ c <> 10 /\ c <> 13.
Lemma laid_plain : forall t cs, laid t cs -> Forall plain cs.
Proof. intros t cs H. induction H; [constructor|assumption|assumption|constructor; [split; auto|assumption]]. Qed.
Lemma plain_laid : forall cs, Forall plain cs -> laid cs cs.
Proof. intros cs H. induction H as [|c cs (A & B & C) H IH]; [apply (L_end 0)|apply L_char; assumption]. Qed.

Lemma pass1_blank : forall k t sp n e, pass1 (repeat 32 k ++ t) sp n e = pass1 t (sp || negb (Nat.eqb k 0)) n e.
Proof.
  induction k as [|k IH]; intros t sp n e; [cbn; rewrite orb_false_r; reflexivity|].
  cbn [repeat app pass1 Z.eqb Pos.eqb]. rewrite IH. cbn. rewrite orb_true_r. reflexivity.
Qed.
Lemma pass1_laid : forall t cs, laid t cs -> forall n e, pass1 t false n e = pass1 cs false n e.
Proof.
  intros t cs H. induction H as [k|k t cs H IH|k t cs H IH|c t cs A B C H IH]; intros n e.
  - rewrite <- (app_nil_r (repeat 32 k)), pass1_blank. reflexivity.
  - rewrite pass1_blank. cbn [pass1 Z.eqb Pos.eqb andb]. apply IH.
  - rewrite pass1_blank. cbn [pass1 Z.eqb Pos.eqb andb]. apply IH.
  - cbn [pass1]. rewrite (proj2 (Z.eqb_neq c 32) A), (proj2 (Z.eqb_neq c 13) C), (proj2 (Z.eqb_neq c 10) B). cbn [andb].
    destruct (127 <? c); [reflexivity|]. destruct (c =? 61); [destruct (2 <? e + 1); [reflexivity|apply IH]|].
    destruct (negb (e =? 0)); [reflexivity|]. destruct (dec_value c <? 0); [reflexivity|apply IH].
Qed.
Lemma pass1_sound : forall t sp n e r, pass1 t sp n e = Some r ->
  exists cs, (forall k, (sp = false -> k = 0%nat) -> laid (repeat 32 k ++ t) cs) /\ pass1 cs false n e = Some r.
Proof.
  induction t as [|c t IH]; intros sp n e r H.
  - exists []. split; [|exact H]. intros k _. rewrite app_nil_r. apply L_end.
  - cbn [pass1] in H. destruct (c =? 32) eqn:E32.
    { apply Z.eqb_eq in E32. subst c. apply IH in H. destruct H as (cs & H1 & H2). exists cs. split; [|exact H2].
      intros k _. replace (repeat 32 k ++ 32 :: t) with (repeat 32 (S k) ++ t); [apply H1; discriminate|].
      change (repeat 32 (S k)) with (32 :: repeat 32 k). rewrite repeat_cons, <- app_assoc. reflexivity. }
    destruct ((c =? 13) && match t with d :: _ => d =? 10 | [] => false end) eqn:E13.
    { apply andb_true_iff in E13. destruct E13 as (E13 & E10). apply Z.eqb_eq in E13. subst c. destruct t as [|d t]; [discriminate|]. apply Z.eqb_eq in E10. subst d.
      pose proof H as H'. apply IH in H. destruct H as (cs & H1 & H2). exists cs. split; [|exact H2]. intros k _.
      apply L_crlf. specialize (H1 0%nat (fun _ => eq_refl)). cbn [repeat app] in H1.
      inversion H1 as [k0 X|k0 t0 cs0 X Y|k0 t0 cs0 X Y|c0 t0 cs0 X Y Z0 W U]; subst.
      - destruct k0; discriminate.
      - destruct k0; [injection Y as <-; exact X|discriminate].
      - destruct k0; discriminate.
      - contradiction. }
    destruct (c =? 10) eqn:E10.
    { apply Z.eqb_eq in E10. subst c. apply IH in H. destruct H as (cs & H1 & H2). exists cs. split; [|exact H2]. intros k _.
      apply L_lf. exact (H1 0%nat (fun _ => eq_refl)). }
    destruct sp; [discriminate|]. destruct (127 <? c) eqn:E127; [discriminate|].
    assert (G : forall cs, c <> 13 -> (forall k, (false = false -> k = 0%nat) -> laid (repeat 32 k ++ t) cs) ->
                (forall k, (false = false -> k = 0%nat) -> laid (repeat 32 k ++ c :: t) (c :: cs))).
    { intros cs Hc HL k Hk. rewrite (Hk eq_refl). cbn [repeat app]. apply L_char; [lia|lia|exact Hc|]. exact (HL 0%nat (fun _ => eq_refl)). }
    destruct (c =? 61) eqn:E61.
    { destruct (2 <? e + 1) eqn:E2; [discriminate|]. apply IH in H. destruct H as (cs & H1 & H2). exists (c :: cs). split; [apply G; [lia|exact H1]|].
      apply Z.eqb_eq in E61. subst c. cbn [pass1 Z.eqb Pos.eqb andb Z.ltb Z.compare Pos.compare Pos.compare_cont]. rewrite E2. exact H2. }
    destruct (negb (e =? 0)) eqn:Ee; [discriminate|]. destruct (dec_value c <? 0) eqn:Ed; [discriminate|].
    assert (N13 : c <> 13) by (intros ->; vm_compute in Ed; discriminate).
    apply IH in H. destruct H as (cs & H1 & H2). exists (c :: cs). split; [apply G; [exact N13|exact H1]|].
    cbn [pass1]. rewrite E32, (proj2 (Z.eqb_neq c 13) N13), E10, E127, E61, Ee, Ed. exact H2.
Qed.
Lemma pass2_laid : forall t cs, laid t cs -> forall dlen x k out, pass2 dlen t x k out = pass2 dlen cs x k out.
Proof.
  assert (B : forall n t dlen x k out, pass2 dlen (repeat 32 n ++ t) x k out = pass2 dlen t x k out).
  { induction n as [|n IH]; intros; [reflexivity|]. cbn [repeat app pass2 Z.eqb Pos.eqb orb]. apply IH. }
  intros t cs H. induction H as [n|n t cs H IH|n t cs H IH|c t cs A1 A2 A3 H IH]; intros dlen x k out.
  - rewrite <- (app_nil_r (repeat 32 n)), B. reflexivity.
  - rewrite B. cbn [pass2 Z.eqb Pos.eqb orb]. apply IH.
  - rewrite B. cbn [pass2 Z.eqb Pos.eqb orb]. apply IH.
  - cbn [pass2]. rewrite (proj2 (Z.eqb_neq c 32) A1), (proj2 (Z.eqb_neq c 13) A3), (proj2 (Z.eqb_neq c 10) A2). cbn [orb].
    destruct (c =? 61); [reflexivity|]. destruct (k + 1 =? 4); [|apply IH].
    destruct (put dlen out _) as [o1| | | | |]; try reflexivity. cbn [bind]. destruct (put dlen o1 _) as [o2| | | | |]; try reflexivity. cbn [bind].
    destruct (put dlen o2 _) as [o3| | | | |]; try reflexivity. cbn [bind]. apply IH.
Qed.

Lemma pass1_equals : forall cs n e r, Forall plain cs -> 0 < e -> pass1 cs false n e = Some r ->
  exists k, cs = repeat 61 k /\ r = (n + Z.of_nat k, e + Z.of_nat k) /\ (e + Z.of_nat k <= 2 \/ k = 0%nat).
Proof.
  induction cs as [|c cs IH]; intros n e r Hp He H.
  - exists 0%nat. cbn in H. injection H as <-. split; [reflexivity|]. split; [f_equal; lia|auto].
  - inversion Hp as [|? ? (A & B & C) Hp']; subst. cbn [pass1] in H.
    rewrite (proj2 (Z.eqb_neq c 32) A), (proj2 (Z.eqb_neq c 13) C), (proj2 (Z.eqb_neq c 10) B) in H. cbn [andb] in H.
    destruct (127 <? c); [discriminate|]. destruct (c =? 61) eqn:E61.
    + destruct (2 <? e + 1) eqn:E2; [discriminate|]. apply IH in H; [|assumption|lia]. destruct H as (k & -> & -> & Hk).
      exists (S k). apply Z.eqb_eq in E61. subst c. split; [reflexivity|]. split; [f_equal; lia|left; lia].
    + destruct (negb (e =? 0)) eqn:Ee; [discriminate|lia].
Qed.
Lemma pass1_form : forall cs n r, Forall plain cs -> bytes cs -> pass1 cs false n 0 = Some r ->
  exists vs e, Forall six vs /\ cs = map digit vs ++ repeat 61 e /\ Z.of_nat e <= 2 /\ r = (n + zlen vs + Z.of_nat e, Z.of_nat e).
Proof.
  induction cs as [|c cs IH]; intros n r Hp Hb H.
  - exists [], 0%nat. cbn in H. injection H as <-. split; [constructor|]. split; [reflexivity|]. split; [lia|]. rewrite zlen_nil. f_equal. lia.
  - inversion Hp as [|? ? (A & B & C) Hp']; subst. inversion Hb as [|? ? Hc Hb']; subst. cbn [pass1] in H.
    rewrite (proj2 (Z.eqb_neq c 32) A), (proj2 (Z.eqb_neq c 13) C), (proj2 (Z.eqb_neq c 10) B) in H. cbn [andb] in H.
    destruct (127 <? c); [discriminate|]. destruct (c =? 61) eqn:E61.
    + change (2 <? 0 + 1) with false in H. cbv iota in H. apply pass1_equals in H; [|assumption|lia]. destruct H as (k & -> & -> & Hk).
      apply Z.eqb_eq in E61. subst c. exists [], (S k). split; [constructor|]. split; [reflexivity|]. split; [lia|]. rewrite zlen_nil. f_equal; lia.
    + cbn [negb Z.eqb] in H. destruct (dec_value c <? 0) eqn:Ed; [discriminate|].
      destruct (dec_some c Hc ltac:(lia)) as (v & Hv & ->). apply IH in H; [|assumption|assumption].
      destruct H as (vs & e & F & -> & He & ->). exists (v :: vs), e. split; [constructor; assumption|]. split; [reflexivity|]. split; [exact He|].
      rewrite zlen_cons. f_equal. lia.
Qed.
Lemma pass1_digits : forall vs e n, Forall six vs -> Z.of_nat e <= 2 ->
  pass1 (map digit vs ++ repeat 61 e) false n 0 = Some (n + zlen vs + Z.of_nat e, Z.of_nat e).
Proof.
  induction vs as [|v vs IH]; intros e n Hs He.
  - rewrite zlen_nil. destruct e as [|[|[|e]]]; [cbn; do 2 f_equal; lia|cbn; do 2 f_equal; lia|cbn; do 2 f_equal; lia|lia].
  - inversion Hs as [|? ? Hv Hs']; subst. destruct (digit_range v Hv) as (R1 & R2). cbn [map app pass1].
    rewrite (proj2 (Z.eqb_neq (digit v) 32)), (proj2 (Z.eqb_neq (digit v) 13)), (proj2 (Z.eqb_neq (digit v) 10)), (proj2 (Z.eqb_neq (digit v) 61)) by lia.
    cbn [andb]. destruct (127 <? digit v) eqn:E; [lia|]. cbn [negb Z.eqb]. rewrite (dec_digit v Hv). destruct (v <? 0) eqn:E2; [unfold six in Hv; lia|].
    rewrite IH by assumption. rewrite zlen_cons. do 2 f_equal. lia.
Qed.

(** ** The relation [b64] *)
Lemma b64_form : forall cs bs, b64 cs bs -> exists vs e, Forall six vs /\ cs = map digit vs ++ repeat 61 e /\ Z.of_nat e <= 2 /\
  (zlen vs + Z.of_nat e) mod 4 = 0 /\ zlen vs mod 4 <> 1.
Proof.
  intros cs bs H. induction H as [|a b y z x A B X Y Z0 E|a b c z x y A B C X Y Z0 E|a b c d x y z t bs A B C D X Y Z0 E H IH].
  - exists [], 0%nat. split; [constructor|]. split; [reflexivity|]. split; [lia|]. split; [reflexivity|]. vm_compute. discriminate.
  - exists [a; b], 2%nat. split; [repeat (constructor; try assumption)|]. split; [reflexivity|]. split; [lia|]. split; [reflexivity|]. vm_compute. discriminate.
  - exists [a; b; c], 1%nat. split; [repeat (constructor; try assumption)|]. split; [reflexivity|]. split; [lia|]. split; [reflexivity|]. vm_compute. discriminate.
  - destruct IH as (vs & e & F & -> & He & M1 & M2). exists (a :: b :: c :: d :: vs), e. split; [repeat (constructor; try assumption)|]. split; [reflexivity|]. split; [exact He|].
    rewrite !zlen_cons. split.
    + replace (1 + (1 + (1 + (1 + zlen vs))) + Z.of_nat e) with (zlen vs + Z.of_nat e + 1 * 4) by lia. rewrite Z.mod_add by lia. exact M1.
    + replace (1 + (1 + (1 + (1 + zlen vs)))) with (zlen vs + 1 * 4) by lia. rewrite Z.mod_add by lia. exact M2.
Qed.
Ltac no61 := match goal with
  | S : six ?v, E : digit ?v = 61 |- _ => destruct (digit_range v S); lia
  | S : six ?v, E : 61 = digit ?v |- _ => destruct (digit_range v S); lia
  end.
Ltac inj := repeat match goal with
  | A : six ?v, B : six ?w, E : digit ?v = digit ?w |- _ => apply (digit_inj v w A B) in E; subst
  end.
Lemma b64_fun : forall cs bs, b64 cs bs -> forall bs', b64 cs bs' -> bs = bs'.
Proof.
  intros cs bs H. induction H as [|a b y z x A B X Y Z0 E|a b c z x y A B C X Y Z0 E|a b c d x y z t bs A B C D X Y Z0 E H IH]; intros bs' H'.
  - inversion H'. reflexivity.
  - inversion H' as [|a' b' y' z' x' A' B' X' Y' Z' E' EQ|a' b' c' z' x' y' A' B' C' X' Y' Z' E' EQ|a' b' c' d' x' y' z' t' bs0 A' B' C' D' X' Y' Z' E' H0 EQ]; subst; try no61.
    inj. unfold byte, num3 in *. f_equal. lia.
  - inversion H' as [|a' b' y' z' x' A' B' X' Y' Z' E' EQ|a' b' c' z' x' y' A' B' C' X' Y' Z' E' EQ|a' b' c' d' x' y' z' t' bs0 A' B' C' D' X' Y' Z' E' H0 EQ]; subst; try no61.
    inj. unfold byte, num3 in *. assert (x = x') by lia. assert (y = y') by lia. congruence.
  - inversion H' as [|a' b' y' z' x' A' B' X' Y' Z' E' EQ|a' b' c' z' x' y' A' B' C' X' Y' Z' E' EQ|a' b' c' d' x' y' z' t' bs0 A' B' C' D' X' Y' Z' E' H0 EQ]; subst; try no61.
    inj. rewrite (IH _ H0). unfold byte, num3 in *. assert (x = x') by lia. assert (y = y') by lia. assert (z = z') by lia. congruence.
Qed.

(** ** decode *)
Lemma laid_len : forall t cs, laid t cs -> zlen cs <= zlen t.
Proof.
  intros t cs H. induction H; rewrite ?zlen_app, ?zlen_cons, ?zlen_nil in *; try (pose proof (zlen_nonneg (repeat 32 k))); lia.
Qed.
Lemma laid_bytes : forall t cs, laid t cs -> bytes t -> bytes cs.
Proof.
  intros t cs H. unfold bytes. induction H as [|k t cs H IH|k t cs H IH|c t cs A B C H IH]; intros Hb.
  - constructor.
  - apply Forall_app in Hb. destruct Hb as (_ & Hb). inversion Hb; auto.
  - apply Forall_app in Hb. destruct Hb as (_ & Hb). inversion Hb as [|? ? _ Hb2]; subst. inversion Hb2; auto.
  - inversion Hb; subst. constructor; auto.
Qed.
Lemma decode_form : forall t cs vs e, laid t cs -> Forall six vs -> cs = map digit vs ++ repeat 61 e -> Z.of_nat e <= 2 ->
  (zlen vs + Z.of_nat e) mod 4 = 0 -> zlen vs mod 4 <> 1 ->
  exists bs, b64 cs bs /\ decode t = Ok bs.
Proof.
  intros t cs vs e HL F Ec He M1 M2. destruct (pass2_b64 vs e F ltac:(lia) M1 M2) as (bs & Hb & Hlen & Hp).
  exists bs. split; [rewrite Ec; exact Hb|]. unfold decode, mbedtls_decode. rewrite (pass1_laid t cs HL), Ec, pass1_digits by assumption.
  rewrite !Z.add_0_l. replace (zlen vs + Z.of_nat e - Z.of_nat e) with (zlen vs) by lia.
  rewrite (proj2 (Z.eqb_neq _ _) M2), M1. cbn [Z.eqb negb].
  assert (Lt : zlen bs <= zlen t * 3 / 4 + 1).
  { pose proof (laid_len t cs HL) as L. rewrite Ec, zlen_app, zlen_map in L.
    assert (Lr : zlen (repeat 61 e) = Z.of_nat e) by (unfold zlen; rewrite repeat_length; reflexivity). rewrite Lr in L.
    pose proof (Z.div_mod (zlen vs + Z.of_nat e) 4). pose proof (Z.div_mod (zlen t * 3) 4). pose proof (Z.mod_pos_bound (zlen t * 3) 4). lia. }
  rewrite <- Hlen. destruct (zlen t * 3 / 4 + 1 <? zlen bs) eqn:E; [lia|].
  rewrite (pass2_laid t cs HL), Ec, Hp by (try lia; rewrite zlen_nil; lia). cbn [bind app]. rewrite Z.eqb_refl. cbn [negb bind Z.eqb].
  unfold taken. rewrite E. f_equal. rewrite firstn_app. unfold zlen at 1. rewrite Nat2Z.id, firstn_all. unfold zlen at 1. rewrite Nat2Z.id, Nat.sub_diag. cbn [firstn]. apply app_nil_r.
Qed.
Lemma decode_complete : forall t cs bs, laid t cs -> b64 cs bs -> decode t = Ok bs.
Proof.
  intros t cs bs HL Hb. destruct (b64_form cs bs Hb) as (vs & e & F & Ec & He & M1 & M2).
  destruct (decode_form t cs vs e HL F Ec He M1 M2) as (bs' & Hb' & ->). f_equal. exact (b64_fun _ _ Hb' _ Hb).
Qed.
Lemma decode_sound : forall t, bytes t -> (exists cs bs, laid t cs /\ b64 cs bs /\ decode t = Ok bs) \/ decode t = Throw.
Proof.
  intros t Hb. destruct (pass1 t false 0 0) as [[n e]|] eqn:E1.
  2: { right. unfold decode, mbedtls_decode. rewrite E1. reflexivity. }
  destruct (pass1_sound _ _ _ _ _ E1) as (cs & HL & Hc). specialize (HL 0%nat (fun _ => eq_refl)). cbn [repeat app] in HL.
  destruct (pass1_form cs 0 _ (laid_plain _ _ HL) (laid_bytes _ _ HL Hb) Hc) as (vs & k & F & Ec & Hk & Er). injection Er as En Ee.
  destruct (Z.eq_dec (zlen vs mod 4) 1) as [X|X]; [right; unfold decode, mbedtls_decode; rewrite E1|].
  { replace (n - e) with (zlen vs) by lia. rewrite X. reflexivity. }
  destruct (Z.eq_dec ((zlen vs + Z.of_nat k) mod 4) 0) as [Y|Y].
  2: { right. unfold decode, mbedtls_decode. rewrite E1. replace (n - e) with (zlen vs) by lia. rewrite (proj2 (Z.eqb_neq _ _) X).
       replace n with (zlen vs + Z.of_nat k) by lia. rewrite (proj2 (Z.eqb_neq _ _) Y). reflexivity. }
  left. destruct (decode_form t cs vs k HL F Ec Hk Y X) as (bs & B & D). eauto.
Qed.

(** ** encode *)
Lemma written_len : forall bs t, written bs t -> zlen t = (zlen bs + 2) / 3 * 4.
Proof.
  intros bs t H. induction H as [| | |a b c d x y z t bs A B C D E H IH]; try reflexivity.
  rewrite !zlen_cons, IH. replace (1 + (1 + (1 + zlen bs)) + 2) with (zlen bs + 2 + 1 * 3) by lia. rewrite Z.div_add by lia. lia.
Qed.
Lemma written_b64 : forall bs t, written bs t -> bytes bs -> b64 t bs.
Proof.
  intros bs t H. unfold bytes. induction H as [|a b x A B E|a b c x y A B C E|a b c d x y z t bs A B C D E H IH]; intros Hb.
  - constructor.
  - inversion Hb as [|? ? Bx _]; subst. apply (B_one a b 0 0 x); try assumption; unfold byte; lia.
  - inversion Hb as [|? ? Bx Hb1]; subst. inversion Hb1 as [|? ? By _]; subst. apply (B_two a b c 0 x y); try assumption; unfold byte; lia.
  - inversion Hb as [|? ? Bx Hb1]; subst. inversion Hb1 as [|? ? By Hb2]; subst. inversion Hb2 as [|? ? Bz Hb3]; subst. apply B_group; try assumption. auto.
Qed.
Lemma b64_plain : forall cs bs, b64 cs bs -> Forall plain cs.
Proof.
  assert (D : forall v, six v -> plain (digit v)) by (intros v S; destruct (digit_range v S); unfold plain; lia).
  assert (P : plain 61) by (unfold plain; lia).
  intros cs bs H. induction H; repeat (constructor; auto).
Qed.

Lemma land_ones6 : forall x, Z.land x 63 = x mod 64.
Proof. intros x. change 63 with (Z.ones 6). rewrite Z.land_ones by lia. reflexivity. Qed.
Lemma d1 : forall a, byte a -> Z.land (Z.shiftr a 2) 63 = a / 4 /\ six (a / 4).
Proof.
  intros a [H1 H2]. rewrite land_ones6, Z.shiftr_div_pow2 by lia. change (2 ^ 2) with 4. unfold six.
  assert (0 <= a / 4 < 64) by (split; [apply Z.div_pos; lia|apply Z.div_lt_upper_bound; lia]). split; [apply Z.mod_small; lia|lia].
Qed.
Lemma d2 : forall a b, byte a -> byte b -> Z.land (Z.shiftl (Z.land a 3) 4 + Z.shiftr b 4) 63 = a mod 4 * 16 + b / 16 /\ six (a mod 4 * 16 + b / 16).
Proof.
  intros a b [H1 H2] [H3 H4]. rewrite land_ones6. change 3 with (Z.ones 2). rewrite Z.land_ones, Z.shiftl_mul_pow2, Z.shiftr_div_pow2 by lia.
  change (2 ^ 2) with 4. change (2 ^ 4) with 16. unfold six. pose proof (Z.mod_pos_bound a 4).
  assert (0 <= b / 16 < 16) by (split; [apply Z.div_pos; lia|apply Z.div_lt_upper_bound; lia]). split; [apply Z.mod_small; lia|lia].
Qed.
Lemma d3 : forall b c, byte b -> byte c -> Z.land (Z.shiftl (Z.land b 15) 2 + Z.shiftr c 6) 63 = b mod 16 * 4 + c / 64 /\ six (b mod 16 * 4 + c / 64).
Proof.
  intros a b [H1 H2] [H3 H4]. rewrite land_ones6. change 15 with (Z.ones 4). rewrite Z.land_ones, Z.shiftl_mul_pow2, Z.shiftr_div_pow2 by lia.
  change (2 ^ 2) with 4. change (2 ^ 4) with 16. change (2 ^ 6) with 64. unfold six. pose proof (Z.mod_pos_bound a 16).
  assert (0 <= b / 64 < 4) by (split; [apply Z.div_pos; lia|apply Z.div_lt_upper_bound; lia]). split; [apply Z.mod_small; lia|lia].
Qed.
Lemma d4 : forall c, Z.land c 63 = c mod 64 /\ six (c mod 64).
Proof. intros c. rewrite land_ones6. split; [reflexivity|]. unfold six. apply Z.mod_pos_bound. lia. Qed.
Lemma u8_digit : forall v, six v -> u8 (digit v) = digit v.
Proof. intros v S. destruct (digit_range v S). unfold u8. apply Z.mod_small. lia. Qed.

Lemma enc_loop_ok : forall src, bytes src ->
  exists t, written src t /\ forall dlen out, zlen out + zlen t <= dlen -> enc_loop dlen src out = Ok (out ++ t).
Proof.
  assert (G : forall n src, (length src <= n)%nat -> bytes src ->
    exists t, written src t /\ forall dlen out, zlen out + zlen t <= dlen -> enc_loop dlen src out = Ok (out ++ t)).
  2: { intros src. apply (G (length src)). lia. }
  unfold bytes. induction n as [|n IH]; intros src Hn Hb.
  - destruct src; [|cbn in Hn; lia]. exists []. split; [constructor|]. intros. cbn. rewrite app_nil_r. reflexivity.
  - destruct src as [|a [|b [|c src]]].
    + apply IH; [cbn; lia|constructor].
    + inversion Hb as [|? ? Ba _]; subst. destruct (d1 a Ba) as (E1 & S1). destruct (d2 a 0 Ba ltac:(unfold byte; lia)) as (E2 & S2).
      eexists. split; [apply (W_one (a / 4) (a mod 4 * 16 + 0 / 16)); [exact S1|exact S2|]|].
      { unfold num4, num3. change (0 / 16) with 0. pose proof (Z.div_mod a 4). lia. }
      intros dlen out Hl. rewrite !zlen_cons, zlen_nil in Hl. cbn [enc_loop]. rewrite E1, E2, !enc_ok by assumption.
      rewrite put_ok by lia. cbn [bind]. rewrite put_ok by (rewrite zlen_app, zlen_cons, zlen_nil; lia). cbn [bind].
      rewrite put_ok by (rewrite !zlen_app, !zlen_cons, zlen_nil; lia). cbn [bind]. rewrite put_ok by (rewrite !zlen_app, !zlen_cons, zlen_nil; lia).
      rewrite !u8_digit by assumption. change (u8 61) with 61. rewrite <- !app_assoc. reflexivity.
    + inversion Hb as [|? ? Ba Hb1]; subst. inversion Hb1 as [|? ? Bb _]; subst. destruct (d1 a Ba) as (E1 & S1). destruct (d2 a b Ba Bb) as (E2 & S2).
      destruct (d3 b 0 Bb ltac:(unfold byte; lia)) as (E3 & S3). change (Z.shiftr 0 6) with 0 in E3. rewrite Z.add_0_r in E3.
      eexists. split; [apply (W_two (a / 4) (a mod 4 * 16 + b / 16) (b mod 16 * 4 + 0 / 64)); [exact S1|exact S2|exact S3|]|].
      { unfold num4, num3. change (0 / 64) with 0. pose proof (Z.div_mod a 4). pose proof (Z.div_mod b 16). lia. }
      intros dlen out Hl. rewrite !zlen_cons, zlen_nil in Hl. cbn [enc_loop]. rewrite E1, E2, E3, !enc_ok by assumption.
      rewrite put_ok by lia. cbn [bind]. rewrite put_ok by (rewrite zlen_app, zlen_cons, zlen_nil; lia). cbn [bind].
      rewrite put_ok by (rewrite !zlen_app, !zlen_cons, zlen_nil; lia). cbn [bind]. rewrite put_ok by (rewrite !zlen_app, !zlen_cons, zlen_nil; lia).
      rewrite !u8_digit by assumption. change (u8 61) with 61. rewrite <- !app_assoc. reflexivity.
    + inversion Hb as [|? ? Ba Hb1]; subst. inversion Hb1 as [|? ? Bb Hb2]; subst. inversion Hb2 as [|? ? Bc Hb3]; subst.
      destruct (IH src ltac:(cbn in Hn; lia) Hb3) as (t & W & Hp).
      destruct (d1 a Ba) as (E1 & S1). destruct (d2 a b Ba Bb) as (E2 & S2). destruct (d3 b c Bb Bc) as (E3 & S3). destruct (d4 c) as (E4 & S4).
      eexists. split; [apply (W_group (a / 4) (a mod 4 * 16 + b / 16) (b mod 16 * 4 + c / 64) (c mod 64)); try assumption; [|exact W]|].
      { unfold num4, num3. pose proof (Z.div_mod a 4). pose proof (Z.div_mod b 16). pose proof (Z.div_mod c 64). lia. }
      intros dlen out Hl. rewrite !zlen_cons in Hl. pose proof (zlen_nonneg t). cbn [enc_loop]. rewrite E1, E2, E3, E4, !enc_ok by assumption.
      rewrite put_ok by lia. cbn [bind]. rewrite put_ok by (rewrite zlen_app, zlen_cons, zlen_nil; lia). cbn [bind].
      rewrite put_ok by (rewrite !zlen_app, !zlen_cons, zlen_nil; lia). cbn [bind]. rewrite put_ok by (rewrite !zlen_app, !zlen_cons, zlen_nil; lia). cbn [bind].
      rewrite !u8_digit by assumption. rewrite Hp by (rewrite !zlen_app, !zlen_cons, !zlen_nil; lia). rewrite <- !app_assoc. reflexivity.
Qed.
Lemma encode_ok : forall src, bytes src -> zlen src <= 4611686018427387904 -> exists t, encode src = Ok t /\ written src t.
Proof.
  intros src Hb Hl. destruct (enc_loop_ok src Hb) as (t & W & Hp). exists t. split; [|exact W].
  pose proof (written_len _ _ W) as Lt. unfold encode, mbedtls_encode. set (m := (zlen src + 2) / 3 * 4 + 1) in *.
  destruct (zlen src =? 0) eqn:E0.
  - apply Z.eqb_eq, zlen_0_nil in E0. subst src. inversion W. reflexivity.
  - assert (En : zlen src / 3 + (if zlen src mod 3 =? 0 then 0 else 1) = (zlen src + 2) / 3).
    { pose proof (Z.div_mod (zlen src) 3 ltac:(lia)) as D. pose proof (Z.mod_pos_bound (zlen src) 3 ltac:(lia)) as R.
      destruct (zlen src mod 3 =? 0) eqn:Em.
      - apply Z.div_unique with (r := 2); lia.
      - apply Z.div_unique with (r := zlen src mod 3 - 1); lia. }
    rewrite En. assert (Hn : 0 <= (zlen src + 2) / 3 <= 4611686018427387902).
    { pose proof (zlen_nonneg src). split; [apply Z.div_pos; lia|]. apply Z.lt_succ_r. apply Z.div_lt_upper_bound; lia. }
    change ((SIZE_MAX - 1) / 4) with 4611686018427387903. destruct (4611686018427387903 <? (zlen src + 2) / 3) eqn:E1; [lia|].
    destruct (m <? (zlen src + 2) / 3 * 4 + 1) eqn:E2; [unfold m in E2; lia|].
    rewrite Hp by (rewrite zlen_nil; unfold m; lia). cbn [bind app]. rewrite put_ok by (unfold m; lia). cbn [bind].
    unfold taken. destruct (m <? zlen t) eqn:E3; [unfold m in E3; lia|]. f_equal.
    unfold zlen at 1. rewrite Nat2Z.id, <- app_assoc, firstn_app, firstn_all, Nat.sub_diag. cbn [firstn]. apply app_nil_r.
Qed.
Lemma written_fun : forall bs t, written bs t -> forall t', written bs t' -> t = t'.
Proof.
  intros bs t H. induction H as [|a b x A B E|a b c x y A B C E|a b c d x y z t bs A B C D E H IH]; intros t' H'.
  - inversion H'. reflexivity.
  - inversion H' as [|a' b' x' A' B' E'| |]; subst. unfold num4, num3, six in *. assert (a = a') by lia. assert (b = b') by lia. congruence.
  - inversion H' as [| |a' b' c' x' y' A' B' C' E'|]; subst. unfold num4, num3, six in *. assert (a = a') by lia. assert (b = b') by lia. assert (c = c') by lia. congruence.
  - inversion H' as [| | |a' b' c' d' x' y' z' t0 bs0 A' B' C' D' E' H0]; subst. rewrite (IH _ H0). unfold num4, num3, six in *.
    assert (a = a') by lia. assert (b = b') by lia. assert (c = c') by lia. assert (d = d') by lia. congruence.
Qed.
