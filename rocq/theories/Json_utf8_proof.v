(** utf8_len and append_utf8 agree with the definition of UTF-8. *)
From Verif Require Import Base Base_lemmas Bitmap_proof Json_type Json_spec Json_model.

Lemma utf8_1 cp : cp < 128 -> utf8 cp = [cp].
Proof. intro H. unfold utf8. destruct (Z.ltb_spec cp 128); [reflexivity|lia]. Qed.

Lemma utf8_2 cp : 128 <= cp < 2048 -> utf8 cp = [192 + cp / 64; 128 + cp mod 64].
Proof.
  intro H. unfold utf8. destruct (Z.ltb_spec cp 128); [lia|].
  destruct (Z.ltb_spec cp 2048); [reflexivity|lia].
Qed.

Lemma utf8_3 cp : 2048 <= cp < 65536 ->
  utf8 cp = [224 + cp / 4096; 128 + cp / 64 mod 64; 128 + cp mod 64].
Proof.
  intro H. unfold utf8. destruct (Z.ltb_spec cp 128); [lia|].
  destruct (Z.ltb_spec cp 2048); [lia|]. destruct (Z.ltb_spec cp 65536); [reflexivity|lia].
Qed.

Lemma utf8_4 cp : 65536 <= cp ->
  utf8 cp = [240 + cp / 262144; 128 + cp / 4096 mod 64; 128 + cp / 64 mod 64; 128 + cp mod 64].
Proof.
  intro H. unfold utf8. destruct (Z.ltb_spec cp 128); [lia|].
  destruct (Z.ltb_spec cp 2048); [lia|]. destruct (Z.ltb_spec cp 65536); [lia|reflexivity].
Qed.

(** The four shapes of an encoding. *)
Lemma utf8_cases cp : scalar cp ->
  (cp < 128 /\ utf8 cp = [cp]) \/
  (128 <= cp < 2048 /\ exists a b, utf8 cp = [a; b] /\ 194 <= a <= 223 /\ 128 <= b <= 191 /\
     cp = (a - 192) * 64 + (b - 128)) \/
  (2048 <= cp < 65536 /\ exists a b c, utf8 cp = [a; b; c] /\ 224 <= a <= 239 /\ 128 <= b <= 191 /\
     128 <= c <= 191 /\ (a = 224 -> 160 <= b) /\ (a = 237 -> b <= 159) /\
     cp = (a - 224) * 4096 + (b - 128) * 64 + (c - 128)) \/
  (65536 <= cp /\ exists a b c d, utf8 cp = [a; b; c; d] /\ 240 <= a <= 244 /\ 128 <= b <= 191 /\
     128 <= c <= 191 /\ 128 <= d <= 191 /\ (a = 240 -> 144 <= b) /\ (a = 244 -> b <= 143) /\
     cp = (a - 240) * 262144 + (b - 128) * 4096 + (c - 128) * 64 + (d - 128)).
Proof.
  intros [R S].
  destruct (Z_lt_dec cp 128) as [L|L]; [left; split; [lia|apply utf8_1; lia]|].
  destruct (Z_lt_dec cp 2048) as [L2|L2].
  { right; left. split; [lia|]. exists (192 + cp / 64), (128 + cp mod 64).
    split; [apply utf8_2; lia|]. zdiv. }
  destruct (Z_lt_dec cp 65536) as [L3|L3].
  { right; right; left. split; [lia|]. exists (224 + cp / 4096), (128 + cp / 64 mod 64), (128 + cp mod 64).
    split; [apply utf8_3; lia|]. replace (cp / 4096) with (cp / 64 / 64) by (rewrite Z.div_div by lia; reflexivity).
    zdiv. }
  right; right; right. split; [lia|].
  exists (240 + cp / 262144), (128 + cp / 4096 mod 64), (128 + cp / 64 mod 64), (128 + cp mod 64).
  split; [apply utf8_4; lia|].
  replace (cp / 262144) with (cp / 64 / 64 / 64) by (rewrite !Z.div_div by lia; reflexivity).
  replace (cp / 4096) with (cp / 64 / 64) by (rewrite Z.div_div by lia; reflexivity).
  zdiv.
Qed.

Lemma utf8_of2 a b : 194 <= a <= 223 -> 128 <= b <= 191 ->
  let cp := (a - 192) * 64 + (b - 128) in scalar cp /\ 128 <= cp /\ utf8 cp = [a; b].
Proof.
  intros A B cp. split; [unfold scalar, cp; lia|]. split; [unfold cp; lia|].
  rewrite utf8_2 by (unfold cp; lia). unfold cp.
  f_equal; [zdiv|]. f_equal; zdiv.
Qed.

Lemma utf8_of3 a b c : 224 <= a <= 239 -> 128 <= b <= 191 -> 128 <= c <= 191 ->
  (a = 224 -> 160 <= b) -> (a = 237 -> b <= 159) ->
  let cp := (a - 224) * 4096 + (b - 128) * 64 + (c - 128) in
  scalar cp /\ 128 <= cp /\ utf8 cp = [a; b; c].
Proof.
  intros A B C Hl Hh cp.
  assert (R : 2048 <= cp < 65536) by (unfold cp; lia).
  split; [unfold scalar, cp; lia|]. split; [lia|].
  rewrite utf8_3 by lia.
  replace (cp / 4096) with (cp / 64 / 64) by (rewrite Z.div_div by lia; reflexivity).
  unfold cp. f_equal; [zdiv|]. f_equal; [zdiv|]. f_equal; zdiv.
Qed.

Lemma utf8_of4 a b c d : 240 <= a <= 244 -> 128 <= b <= 191 -> 128 <= c <= 191 -> 128 <= d <= 191 ->
  (a = 240 -> 144 <= b) -> (a = 244 -> b <= 143) ->
  let cp := (a - 240) * 262144 + (b - 128) * 4096 + (c - 128) * 64 + (d - 128) in
  scalar cp /\ 128 <= cp /\ utf8 cp = [a; b; c; d].
Proof.
  intros A B C D Hl Hh cp.
  assert (R : 65536 <= cp <= 1114111) by (unfold cp; lia).
  split; [unfold scalar; lia|]. split; [lia|].
  rewrite utf8_4 by lia.
  replace (cp / 262144) with (cp / 64 / 64 / 64) by (rewrite !Z.div_div by lia; reflexivity).
  replace (cp / 4096) with (cp / 64 / 64) by (rewrite Z.div_div by lia; reflexivity).
  unfold cp. f_equal; [zdiv|]. f_equal; [zdiv|]. f_equal; [zdiv|]. f_equal; zdiv.
Qed.

(** What utf8_len computes, by cases on the bytes. *)
Definition cont (b : Z) : bool := (128 <=? b) && (b <=? 191).

Lemma cont_neg b : ((b <? 128) || (191 <? b)) = negb (cont b).
Proof. unfold cont. lia. Qed.

Ltac bcase := repeat
  match goal with
  | |- context [Z.leb ?x ?y] => destruct (Z.leb_spec x y); cbn [andb orb negb]
  | |- context [Z.ltb ?x ?y] => destruct (Z.ltb_spec x y); cbn [andb orb negb]
  | |- context [Z.eqb ?x ?y] => destruct (Z.eqb_spec x y); cbn [andb orb negb]
  end.

Lemma zlen2 {A} (a b : A) r : (zlen (a :: b :: r) <? 2) = false.
Proof. rewrite !zlen_cons. pose proof (zlen_nonneg r). lia. Qed.
Lemma zlen3 {A} (a b c : A) r : (zlen (a :: b :: c :: r) <? 3) = false.
Proof. rewrite !zlen_cons. pose proof (zlen_nonneg r). lia. Qed.
Lemma zlen4 {A} (a b c d : A) r : (zlen (a :: b :: c :: d :: r) <? 4) = false.
Proof. rewrite !zlen_cons. pose proof (zlen_nonneg r). lia. Qed.

Lemma utf8_len_complete cp r : scalar cp -> 128 <= cp -> utf8_len (utf8 cp ++ r) = Ok (zlen (utf8 cp)).
Proof.
  intros S L. destruct (utf8_cases cp S) as [(X & _)|[(_ & a & b & E & A & B & _)|[(_ & a & b & c & E & A & B & C & H1 & H2 & _)|(_ & a & b & c & d & E & A & B & C & D & H1 & H2 & _)]]]; [lia| | |]; rewrite E; cbn [app]; unfold utf8_len.
  - replace ((194 <=? a) && (a <=? 223)) with true by lia. cbn [Z.eqb Pos.eqb]. rewrite zlen2.
    replace (Z.to_nat (2 - 1)) with 1%nat by reflexivity. cbn [continuation].
    replace ((b <? 128) || (191 <? b)) with false by lia. cbn [bind negb]. rewrite at_cons_1. cbn [bind].
    replace (a =? 224) with false by lia. replace (a =? 237) with false by lia.
    replace (a =? 240) with false by lia. replace (a =? 244) with false by lia. reflexivity.
  - replace ((194 <=? a) && (a <=? 223)) with false by lia.
    replace ((224 <=? a) && (a <=? 239)) with true by lia. cbn [Z.eqb Pos.eqb]. rewrite zlen3.
    replace (Z.to_nat (3 - 1)) with 2%nat by reflexivity. cbn [continuation].
    replace ((b <? 128) || (191 <? b)) with false by lia.
    replace ((c <? 128) || (191 <? c)) with false by lia. cbn [bind negb]. rewrite at_cons_1. cbn [bind].
    replace (a =? 240) with false by lia. replace (a =? 244) with false by lia. cbn [andb].
    replace (((a =? 224) && (b <? 160)) || ((a =? 237) && (159 <? b)) || false || false) with false; [reflexivity|].
    destruct (Z.eqb_spec a 224), (Z.eqb_spec a 237); lia.
  - replace ((194 <=? a) && (a <=? 223)) with false by lia.
    replace ((224 <=? a) && (a <=? 239)) with false by lia.
    replace ((240 <=? a) && (a <=? 244)) with true by lia. cbn [Z.eqb Pos.eqb]. rewrite zlen4.
    replace (Z.to_nat (4 - 1)) with 3%nat by reflexivity. cbn [continuation].
    replace ((b <? 128) || (191 <? b)) with false by lia.
    replace ((c <? 128) || (191 <? c)) with false by lia.
    replace ((d <? 128) || (191 <? d)) with false by lia. cbn [bind negb]. rewrite at_cons_1. cbn [bind].
    replace (a =? 224) with false by lia. replace (a =? 237) with false by lia. cbn [andb orb].
    replace (((a =? 240) && (b <? 144)) || ((a =? 244) && (143 <? b))) with false; [reflexivity|].
    destruct (Z.eqb_spec a 240), (Z.eqb_spec a 244); lia.
Qed.

Lemma utf8_len_total s : exists n, utf8_len s = Ok n /\ (n = 0 \/ exists cp r, scalar cp /\ 128 <= cp /\ s = utf8 cp ++ r /\ n = zlen (utf8 cp)).
Proof.
  destruct s as [|a s]; [exists 0; split; [reflexivity|now left]|]. unfold utf8_len.
  destruct ((194 <=? a) && (a <=? 223)) eqn:A2.
  { cbn [Z.eqb Pos.eqb]. destruct s as [|b r]; [exists 0; split; [reflexivity|now left]|].
    rewrite zlen2. replace (Z.to_nat (2 - 1)) with 1%nat by reflexivity. cbn [continuation].
    rewrite cont_neg. destruct (cont b) eqn:B; cbn [negb bind]; [|exists 0; split; [reflexivity|now left]].
    rewrite at_cons_1. cbn [bind].
    replace (a =? 224) with false by lia. replace (a =? 237) with false by lia.
    replace (a =? 240) with false by lia. replace (a =? 244) with false by lia. cbn [andb orb].
    exists 2. split; [reflexivity|]. right. unfold cont in B.
    destruct (utf8_of2 a b ltac:(lia) ltac:(lia)) as (S & L & E). cbv zeta in *.
    eexists; exists r. split; [exact S|]. split; [exact L|]. rewrite E. split; reflexivity. }
  destruct ((224 <=? a) && (a <=? 239)) eqn:A3.
  { cbn [Z.eqb Pos.eqb]. destruct s as [|b s]; [exists 0; split; [reflexivity|now left]|].
    destruct s as [|c r]; [exists 0; split; [reflexivity|now left]|].
    rewrite zlen3. replace (Z.to_nat (3 - 1)) with 2%nat by reflexivity. cbn [continuation].
    rewrite !cont_neg. destruct (cont b) eqn:B; cbn [negb bind]; [|exists 0; split; [reflexivity|now left]].
    destruct (cont c) eqn:C; cbn [negb bind]; [|exists 0; split; [reflexivity|now left]].
    rewrite at_cons_1. cbn [bind].
    replace (a =? 240) with false by lia. replace (a =? 244) with false by lia. cbn [andb]. rewrite !orb_false_r.
    destruct (((a =? 224) && (b <? 160)) || ((a =? 237) && (159 <? b))) eqn:Q; [exists 0; split; [reflexivity|now left]|].
    exists 3. split; [reflexivity|]. right. unfold cont in *.
    destruct (utf8_of3 a b c ltac:(lia) ltac:(lia) ltac:(lia)) as (S & L & E); [lia|lia|]. cbv zeta in *.
    eexists; exists r. split; [exact S|]. split; [exact L|]. rewrite E. split; reflexivity. }
  destruct ((240 <=? a) && (a <=? 244)) eqn:A4; [|exists 0; split; [reflexivity|now left]].
  cbn [Z.eqb Pos.eqb]. destruct s as [|b s]; [exists 0; split; [reflexivity|now left]|].
  destruct s as [|c s]; [exists 0; split; [reflexivity|now left]|].
  destruct s as [|d r]; [exists 0; split; [reflexivity|now left]|].
  rewrite zlen4. replace (Z.to_nat (4 - 1)) with 3%nat by reflexivity. cbn [continuation].
  rewrite !cont_neg. destruct (cont b) eqn:B; cbn [negb bind]; [|exists 0; split; [reflexivity|now left]].
  destruct (cont c) eqn:C; cbn [negb bind]; [|exists 0; split; [reflexivity|now left]].
  destruct (cont d) eqn:D; cbn [negb bind]; [|exists 0; split; [reflexivity|now left]].
  rewrite at_cons_1. cbn [bind].
  replace (a =? 224) with false by lia. replace (a =? 237) with false by lia. cbn [andb orb].
  destruct (((a =? 240) && (b <? 144)) || ((a =? 244) && (143 <? b))) eqn:Q; [exists 0; split; [reflexivity|now left]|].
  exists 4. split; [reflexivity|]. right. unfold cont in *.
  destruct (utf8_of4 a b c d ltac:(lia) ltac:(lia) ltac:(lia) ltac:(lia)) as (S & L & E); [lia|lia|]. cbv zeta in *.
  eexists; exists r. split; [exact S|]. split; [exact L|]. rewrite E. split; reflexivity.
Qed.

Lemma utf8_pos cp : 1 <= zlen (utf8 cp).
Proof. unfold utf8. repeat destruct (_ <? _); rewrite !zlen_cons; rewrite zlen_nil; lia. Qed.

Lemma utf8_ne cp r : utf8 cp ++ r <> [].
Proof. pose proof (utf8_pos cp). destruct (utf8 cp); [rewrite zlen_nil in *; lia|discriminate]. Qed.

(** The first byte tells ASCII from the rest. *)
Lemma utf8_head cp b r s : scalar cp -> utf8 cp ++ r = b :: s ->
  (b < 128 /\ cp = b /\ r = s) \/ (128 <= b /\ 128 <= cp).
Proof.
  intros S E. destruct (utf8_cases cp S) as [(X & Q)|[(L & x & y & Q & A & _)|[(L & x & y & z & Q & A & _)|(L & x & y & z & w & Q & A & _)]]];
    rewrite Q in E; cbn [app] in E; injection E; intros; subst; [left|right..]; auto; lia.
Qed.

Lemma utf8_len_none s : utf8_len s = Ok 0 -> (forall b r, s = b :: r -> 128 <= b) -> no_scalar s.
Proof.
  intros E H cp r S Q. destruct s as [|b s]; [now apply (utf8_ne cp r)|].
  specialize (H b s eq_refl). symmetry in Q. destruct (utf8_head _ _ _ _ S Q) as [(X & _)|(_ & L)]; [lia|].
  rewrite <- Q, utf8_len_complete in E by assumption. injection E as E. pose proof (utf8_pos cp). lia.
Qed.

Lemma no_scalar_len s b r : no_scalar s -> s = b :: r -> utf8_len s = Ok 0.
Proof.
  intros N E. destruct (utf8_len_total s) as (n & Q & [Z|(cp & u & S & _ & X & _)]); [now subst|].
  now destruct (N cp u S).
Qed.

Lemma no_scalar_high b s : is_byte b -> no_scalar (b :: s) -> 128 <= b.
Proof.
  intros B N. destruct (Z_lt_dec b 128); [|lia]. exfalso. red in B.
  apply (N b s); [split; lia|]. now rewrite utf8_1 by lia.
Qed.

(** UTF-8 is a prefix code. *)
Lemma utf8_prefix cp cp' r r' : scalar cp -> scalar cp' -> utf8 cp ++ r = utf8 cp' ++ r' -> cp = cp' /\ r = r'.
Proof.
  intros S S' E.
  destruct (utf8_cases cp S) as [(X & Q)|[(L & x & y & Q & A & B & V)|[(L & x & y & z & Q & A & B & C & _ & _ & V)|(L & x & y & z & w & Q & A & B & C & D & _ & _ & V)]]];
  destruct (utf8_cases cp' S') as [(X' & Q')|[(L' & x' & y' & Q' & A' & B' & V')|[(L' & x' & y' & z' & Q' & A' & B' & C' & _ & _ & V')|(L' & x' & y' & z' & w' & Q' & A' & B' & C' & D' & _ & _ & V')]]];
  rewrite Q, Q' in E; cbn [app] in E; injection E; intros; subst; try lia; split; congruence.
Qed.

(** Reading an encoded scalar value of at least 128 moves over exactly its bytes. *)
Lemma utf8_slice cp r : slice (utf8 cp ++ r) 0 (zlen (utf8 cp)) = Ok (utf8 cp).
Proof. apply slice_head. Qed.

Lemma utf8_skip cp r : skipn (Z.to_nat (zlen (utf8 cp))) (utf8 cp ++ r) = r.
Proof. unfold zlen. rewrite Nat2Z.id, skipn_app, skipn_all, Nat.sub_diag. reflexivity. Qed.

(** ** append_utf8 *)

Lemma lor_add k x n : 0 <= n -> 0 <= x < 2 ^ n -> Z.lor (k * 2 ^ n) x = k * 2 ^ n + x.
Proof.
  intros N H. rewrite <- Z.lxor_lor; [symmetry; apply Z.add_nocarry_lxor|].
  all: apply Z.bits_inj'; intros i I; rewrite Z.land_spec, Z.bits_0;
    destruct (Z_lt_dec i n) as [L|L];
    [rewrite Z.mul_pow2_bits_low by lia; reflexivity|
     destruct (Z.eq_dec x 0) as [->|Nz]; [rewrite Z.bits_0; apply andb_false_r|];
     rewrite (Z.bits_above_log2 x); [apply andb_false_r|lia|];
     apply Z.log2_lt_pow2 in H as HH || idtac; apply Z.lt_le_trans with n; [apply Z.log2_lt_pow2; lia|lia]].
Qed.

Lemma land63 x : Z.land x 63 = x mod 64.
Proof. change 63 with (Z.ones 6). now rewrite Z.land_ones by lia. Qed.

Lemma append_utf8_scalar result cp : scalar cp -> append_utf8 result cp = result ++ utf8 cp.
Proof.
  intros [R S]. unfold append_utf8.
  replace ((cp <? 0) || (1114111 <? cp) || ((55296 <=? cp) && (cp <=? 57343))) with false by lia.
  rewrite !land63, !Z.shiftr_div_pow2 by lia.
  change (2 ^ 6) with 64. change (2 ^ 12) with 4096. change (2 ^ 18) with 262144.
  assert (T : forall x, Z.lor 128 (x mod 64) = 128 + x mod 64).
  { intro x. apply (lor_add 2 (x mod 64) 6); [lia|]. change (2 ^ 6) with 64. zdiv. }
  rewrite !T.
  destruct (Z.leb_spec cp 127).
  { rewrite utf8_1 by lia. rewrite u8_id by (unfold is_byte; lia). reflexivity. }
  destruct (Z.leb_spec cp 2047).
  { rewrite utf8_2 by lia. 
    assert (Q : Z.lor 192 (cp / 64) = 192 + cp / 64) by (apply (lor_add 6 (cp / 64) 5); [lia|change (2 ^ 5) with 32; zdiv]).
    rewrite Q. clear Q T.
    rewrite !u8_id by (unfold is_byte; zdiv). reflexivity. }
  destruct (Z.leb_spec cp 65535).
  { rewrite utf8_3 by lia. 
    assert (Q : Z.lor 224 (cp / 4096) = 224 + cp / 4096) by (apply (lor_add 14 (cp / 4096) 4); [lia|change (2 ^ 4) with 16; zdiv]).
    rewrite Q. clear Q T.
    rewrite !u8_id by (unfold is_byte; zdiv). reflexivity. }
  rewrite utf8_4 by lia. 
    assert (Q : Z.lor 240 (cp / 262144) = 240 + cp / 262144) by (apply (lor_add 30 (cp / 262144) 3); [lia|change (2 ^ 3) with 8; zdiv]).
    rewrite Q. clear Q T.
  rewrite !u8_id by (unfold is_byte; zdiv). reflexivity.
Qed.

Lemma utf8_bytes cp : scalar cp -> bytes (utf8 cp).
Proof.
  intro S. destruct (utf8_cases cp S) as [(X & Q)|[(L & x & y & Q & A & B & V)|[(L & x & y & z & Q & A & B & C & _ & _ & V)|(L & x & y & z & w & Q & A & B & C & D & _ & _ & V)]]];
  rewrite Q; destruct S; unfold bytes, is_byte; repeat constructor; lia.
Qed.

Lemma scalar_fffd : scalar 65533.
Proof. unfold scalar. lia. Qed.

Lemma valid_app s t : valid_utf8 s -> valid_utf8 t -> valid_utf8 (s ++ t).
Proof. induction 1 as [|cp s S V IH]; intro T; [exact T|]. rewrite <- app_assoc. constructor; auto. Qed.

Lemma valid_one cp : scalar cp -> valid_utf8 (utf8 cp).
Proof. intro S. rewrite <- (app_nil_r (utf8 cp)). exact (valid_cons cp [] S valid_nil). Qed.

Lemma repaired_valid s t : repaired s t -> valid_utf8 t.
Proof. induction 1; [exact valid_nil|apply valid_cons|apply valid_cons]; auto using scalar_fffd. Qed.

Lemma valid_repaired s : valid_utf8 s -> forall t, repaired s t -> t = s.
Proof.
  induction 1 as [|cp s S V IH]; intros t R.
  - inversion R as [|cp s' t' S' R' E|]; subst; [reflexivity|]. now destruct (utf8_ne cp s').
  - inversion R as [E|cp' s' t' S' R' E|b s' t' N R' E]; subst.
    + symmetry in E. now destruct (utf8_ne cp s).
    + destruct (utf8_prefix _ _ _ _ S' S E) as [-> ->]. f_equal. now apply IH.
    + rewrite E in N. exfalso. apply (N cp s S). reflexivity.
Qed.

Lemma repaired_refl s : valid_utf8 s -> repaired s s.
Proof. induction 1; [exact repaired_nil|apply repaired_good; auto]. Qed.
