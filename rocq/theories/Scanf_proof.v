(** sscanf reads texts as the specification says. *)
From Verif Require Import Base Base_lemmas Strings_model Url_model Fmt_model Fmt_spec Scanf_model Scanf_spec.

(** ** Positions *)

Lemma end_nil : forall (pre : list Z), (zlen pre <? zlen (pre ++ [])) = false.
Proof. intros pre. rewrite app_nil_r. lia. Qed.
Lemma end_cons : forall {A} (pre : list A) c t, (zlen pre <? zlen (pre ++ c :: t)) = true.
Proof. intros A pre c t. rewrite zlen_app, zlen_cons. pose proof (zlen_nonneg t). lia. Qed.
Lemma shift1 : forall (pre : list Z) c t, pre ++ c :: t = (pre ++ [c]) ++ t.
Proof. intros pre c t. rewrite <- app_assoc. reflexivity. Qed.
Lemma pos1 : forall {A} (pre : list A) c, zlen pre + 1 = zlen (pre ++ [c]).
Proof. intros A pre c. rewrite zlen_app, zlen_cons, zlen_nil. lia. Qed.

Lemma skip_blanks_ok : forall k pre t fuel, hd 0 t <> 32 -> (k < fuel)%nat ->
  skip_blanks fuel (pre ++ repeat 32 k ++ t) (zlen pre) = Ok (zlen (pre ++ repeat 32 k)).
Proof.
  induction k as [|k IH]; intros pre t fuel Ht Hf; (destruct fuel as [|fuel]; [lia|]);
    cbn [skip_blanks repeat app].
  - rewrite app_nil_r. destruct t as [|c t].
    + rewrite end_nil. reflexivity.
    + rewrite end_cons, at_app_mid. cbn [bind hd] in *.
      destruct (Z.eqb_spec c 32); [congruence|reflexivity].
  - rewrite end_cons, at_app_mid. cbn [bind]. change (32 =? 32) with true. cbv iota.
    rewrite (pos1 pre 32), (shift1 pre 32). rewrite IH by (assumption || lia).
    rewrite <- app_assoc. reflexivity.
Qed.

Definition foldv (acc : Z) (w : list Z) : Z := fold_left (fun a c => 10 * a + (c - 48)) w acc.
Lemma foldv_ge : forall w acc, digit_text w -> 0 <= acc -> acc <= foldv acc w.
Proof.
  induction w as [|c w IH]; intros acc Hw Ha; [reflexivity|].
  inversion Hw; subst. cbn [foldv fold_left]. etransitivity; [|apply IH; [assumption|lia]]. lia.
Qed.
Lemma swrap64_id : forall v, -9223372036854775808 <= v < 9223372036854775808 -> swrap 64 v = v.
Proof.
  intros v H. unfold swrap. change (64 - 1) with 63. change (2 ^ 63) with 9223372036854775808.
  change (2 ^ 64) with 18446744073709551616. rewrite Z.mod_small; lia.
Qed.

Lemma read_width_ok : forall w pre rest fuel acc,
  digit_text w -> ~ 48 <= hd 0 rest <= 57 -> (length w < fuel)%nat -> 0 <= acc ->
  foldv acc w < 2147483648 ->
  read_width fuel (pre ++ w ++ rest) (zlen pre) acc = Ok (zlen (pre ++ w), foldv acc w).
Proof.
  induction w as [|c w IH]; intros pre rest fuel acc Hw Hr Hf Ha Hb;
    (destruct fuel as [|fuel]; [cbn in Hf; lia|]); cbn [read_width app].
  - rewrite app_nil_r. destruct rest as [|c rest].
    + rewrite end_nil. reflexivity.
    + rewrite end_cons, at_app_mid. cbn [bind hd] in *.
      destruct ((48 <=? c) && (c <=? 57)) eqn:E; [lia|reflexivity].
  - inversion Hw; subst. rewrite end_cons, at_app_mid. cbn [bind].
    destruct ((48 <=? c) && (c <=? 57)) eqn:E; [|lia].
    cbn [foldv fold_left] in Hb.
    pose proof (foldv_ge w (10 * acc + (c - 48)) ltac:(assumption) ltac:(lia)) as Hg.
    change (fold_left (fun a c => 10 * a + (c - 48)) w (10 * acc + (c - 48)))
      with (foldv (10 * acc + (c - 48)) w) in Hb.
    replace (u8 (c - 48)) with (c - 48) by (symmetry; apply u8_id; unfold is_byte; lia).
    rewrite (swrap64_id (acc * 10)) by lia.
    replace (acc * 10 + (c - 48)) with (10 * acc + (c - 48)) by lia.
    rewrite (swrap64_id (10 * acc + (c - 48))) by lia.
    rewrite (pos1 pre c), (shift1 pre c). cbn [length] in Hf.
    rewrite IH by (assumption || lia). rewrite <- app_assoc. reflexivity.
Qed.

Lemma read_width_tail : forall w pre fuel acc,
  digit_text w -> (length w < fuel)%nat ->
  exists v, read_width fuel (pre ++ w) (zlen pre) acc = Ok (zlen (pre ++ w), v).
Proof.
  induction w as [|c w IH]; intros pre fuel acc Hw Hf;
    (destruct fuel as [|fuel]; [cbn in Hf; lia|]); cbn [read_width app].
  - rewrite end_nil, app_nil_r. eexists; reflexivity.
  - inversion Hw; subst. rewrite end_cons, at_app_mid. cbn [bind].
    destruct ((48 <=? c) && (c <=? 57)) eqn:E; [|lia].
    rewrite (pos1 pre c), (shift1 pre c). cbn [length] in Hf.
    apply IH; [assumption|lia].
Qed.

(** ** Digits *)

Definition empty {A} (l : list A) : bool := match l with [] => true | _ => false end.

Lemma digit_loop_ok : forall A (val : Z -> option Z) (step : A -> Z -> A) (R : Z -> Z -> Prop),
  (forall c d, R c d -> val c = Some d) ->
  forall tok ds pre rest fuel width count acc has,
  Forall2 R tok ds -> (length tok < fuel)%nat ->
  (width <= 0 \/ count + zlen tok <= width) ->
  (rest = [] \/ (0 < width /\ count + zlen tok = width) \/ exists c r, rest = c :: r /\ val c = None) ->
  digit_loop fuel val step (pre ++ tok ++ rest) width (zlen pre) count acc has =
    Ok (zlen (pre ++ tok), count + zlen tok, fold_left step ds acc, has || negb (empty tok)).
Proof.
  intros A val step R Hval. induction tok as [|c tok IH];
    intros ds pre rest fuel width count acc has HF Hf Hw Hr;
    (destruct fuel as [|fuel]; [cbn in Hf; lia|]); cbn [digit_loop app]; inversion HF; subst.
  - rewrite app_nil_r, zlen_nil, Z.add_0_r in *. cbn [fold_left empty negb]. rewrite orb_false_r.
    destruct rest as [|c rest].
    + rewrite end_nil. reflexivity.
    + rewrite end_cons. cbn [andb]. destruct ((width <=? 0) || (count <? width)) eqn:E.
      * destruct Hr as [Hr|[Hr|(c' & r & Hr & Hv)]]; [discriminate|lia|].
        injection Hr as <- <-. rewrite at_app_mid. cbn [bind]. rewrite Hv. reflexivity.
      * reflexivity.
  - rewrite end_cons. cbn [andb]. rewrite zlen_cons in *. pose proof (zlen_nonneg tok).
    destruct ((width <=? 0) || (count <? width)) eqn:E; [|lia].
    rewrite at_app_mid. cbn [bind]. rewrite (Hval c y) by assumption.
    rewrite (pos1 pre c), (shift1 pre c). cbn [length] in Hf.
    rewrite (IH l' (pre ++ [c]) rest fuel width (count + 1) (step acc y) true); try assumption; try lia.
    + rewrite <- app_assoc. cbn [app fold_left empty negb orb]. rewrite orb_true_r.
      replace (count + 1 + zlen tok) with (count + (1 + zlen tok)) by lia. reflexivity.
    + destruct Hr as [Hr|[Hr|Hr]]; [left; exact Hr|right; left; lia|right; right; exact Hr].
Qed.

(** the same from [longest] *)
Lemma digit_loop_longest : forall A (val : Z -> option Z) (step : A -> Z -> A) (P : Z -> Prop) (R : Z -> Z -> Prop),
  (forall c d, R c d -> val c = Some d) -> (forall c, ~ P c -> val c = None) ->
  forall tok ds pre rest fuel width count acc has,
  0 <= width -> longest P (less (room_of width) count) tok rest ->
  Forall2 R tok ds -> (length tok < fuel)%nat ->
  digit_loop fuel val step (pre ++ tok ++ rest) width (zlen pre) count acc has =
    Ok (zlen (pre ++ tok), count + zlen tok, fold_left step ds acc, has || negb (empty tok)).
Proof.
  intros A val step P R H1 H2 tok ds pre rest fuel width count acc has Hw (L1 & L2 & L3) HF Hf.
  apply (digit_loop_ok A val step R H1); try assumption.
  - unfold room_of in L2. destruct (Z.eqb_spec width 0) as [->|Hn]; cbn [less] in L2; lia.
  - destruct L3 as [L3|[L3|(c & r & E & Hc)]].
    + left; exact L3.
    + right; left. unfold room_of in L3. destruct (Z.eqb_spec width 0); cbn [less] in L3; [discriminate|].
      injection L3 as L3. lia.
    + right; right. exists c, r. split; [exact E|apply H2; exact Hc].
Qed.

Lemma dec_val_ok : forall c d, dec_char c d -> dec_val c = Some d.
Proof.
  intros c d [-> H]. unfold dec_val. destruct ((48 <=? 48 + d) && (48 + d <=? 57)) eqn:E; [|lia].
  f_equal. replace (48 + d - 48) with d by lia. apply u8_id. unfold is_byte. lia.
Qed.
Lemma dec_val_no : forall c, ~ dec c -> dec_val c = None.
Proof. intros c H. unfold dec_val, dec in *. destruct ((48 <=? c) && (c <=? 57)) eqn:E; [lia|reflexivity]. Qed.
Lemma oct_val_ok : forall c d, oct_char c d -> oct_val c = Some d.
Proof.
  intros c d [-> H]. unfold oct_val. destruct ((48 <=? 48 + d) && (48 + d <=? 55)) eqn:E; [|lia].
  f_equal. replace (48 + d - 48) with d by lia. apply u8_id. unfold is_byte. lia.
Qed.
Lemma oct_val_no : forall c, ~ oct c -> oct_val c = None.
Proof. intros c H. unfold oct_val, oct in *. destruct ((48 <=? c) && (c <=? 55)) eqn:E; [lia|reflexivity]. Qed.
Lemma hex_val_ok : forall c d, hex_char c d -> hex_val c = Some d.
Proof.
  intros c d H. unfold hex_val.
  assert (Hu : forall x, 0 <= x < 256 -> u8 x = x) by (intros x Hx; apply u8_id; exact Hx).
  destruct H as [[[-> H]|[-> H]]|[[-> H]|[-> H]]].
  - destruct ((48 <=? 48 + d) && (48 + d <=? 57)) eqn:E; [|lia].
    rewrite Hu by lia. f_equal. lia.
  - destruct ((48 <=? 97 + (d - 10)) && (97 + (d - 10) <=? 57)) eqn:E; [lia|].
    destruct ((97 <=? 97 + (d - 10)) && (97 + (d - 10) <=? 102)) eqn:E2; [|lia].
    rewrite (Hu (97 + (d - 10) - 97)) by lia. rewrite Hu by lia. f_equal. lia.
  - destruct ((48 <=? 48 + d) && (48 + d <=? 57)) eqn:E; [|lia].
    rewrite Hu by lia. f_equal. lia.
  - destruct ((48 <=? 65 + (d - 10)) && (65 + (d - 10) <=? 57)) eqn:E; [lia|].
    destruct ((97 <=? 65 + (d - 10)) && (65 + (d - 10) <=? 102)) eqn:E2; [lia|].
    destruct ((65 <=? 65 + (d - 10)) && (65 + (d - 10) <=? 70)) eqn:E3; [|lia].
    rewrite (Hu (65 + (d - 10) - 65)) by lia. rewrite Hu by lia. f_equal. lia.
Qed.
Lemma hex_val_no : forall c, ~ hex c -> hex_val c = None.
Proof.
  intros c H. unfold hex_val, hex in *.
  destruct ((48 <=? c) && (c <=? 57)) eqn:E; [lia|].
  destruct ((97 <=? c) && (c <=? 102)) eqn:E2; [lia|].
  destruct ((65 <=? c) && (c <=? 70)) eqn:E3; [lia|reflexivity].
Qed.

(** ** Numbers *)

Lemma acc_d_fold : forall ds a, fold_left acc_d ds (swrap 64 a) = swrap 64 (fold_left (fun a d => 10 * a + d) ds a).
Proof.
  induction ds as [|d ds IH]; intros a; [reflexivity|]. cbn [fold_left].
  assert (E : acc_d (swrap 64 a) d = swrap 64 (10 * a + d)).
  { unfold acc_d, swrap. change (64 - 1) with 63. change (2 ^ 63) with 9223372036854775808.
    change (2 ^ 64) with 18446744073709551616. Z.div_mod_to_equations; lia. }
  rewrite E. apply IH.
Qed.
Lemma acc_x_fold : forall ds a, fold_left acc_x ds (a mod 2 ^ 64) = (fold_left (fun a d => 16 * a + d) ds a) mod 2 ^ 64.
Proof.
  induction ds as [|d ds IH]; intros a; [reflexivity|]. cbn [fold_left].
  assert (E : acc_x (a mod 2 ^ 64) d = (16 * a + d) mod 2 ^ 64).
  { unfold acc_x, uwrap. 
    change (2 ^ 64) with 18446744073709551616. Z.div_mod_to_equations; lia. }
  rewrite E. apply IH.
Qed.
Lemma acc_o_fold : forall ds a, fold_left acc_o ds (a mod 2 ^ 64) = (fold_left (fun a d => 8 * a + d) ds a) mod 2 ^ 64.
Proof.
  induction ds as [|d ds IH]; intros a; [reflexivity|]. cbn [fold_left].
  assert (E : acc_o (a mod 2 ^ 64) d = (8 * a + d) mod 2 ^ 64).
  { unfold acc_o, uwrap. 
    change (2 ^ 64) with 18446744073709551616. Z.div_mod_to_equations; lia. }
  rewrite E. apply IH.
Qed.

Lemma acc_d_0 : forall ds, fold_left acc_d ds 0 = swrap 64 (value_in 10 ds).
Proof. intros ds. exact (acc_d_fold ds 0). Qed.
Lemma acc_x_0 : forall ds, fold_left acc_x ds 0 = value_in 16 ds mod 2 ^ 64.
Proof. intros ds. exact (acc_x_fold ds 0). Qed.
Lemma acc_o_0 : forall ds, fold_left acc_o ds 0 = value_in 8 ds mod 2 ^ 64.
Proof. intros ds. exact (acc_o_fold ds 0). Qed.

Ltac pows := change (64 - 1) with 63 in *; change (32 - 1) with 31 in *; change (16 - 1) with 15 in *;
  change (8 - 1) with 7 in *;
  change (2 ^ 63) with 9223372036854775808 in *; change (2 ^ 64) with 18446744073709551616 in *;
  change (2 ^ 31) with 2147483648 in *; change (2 ^ 32) with 4294967296 in *;
  change (2 ^ 15) with 32768 in *; change (2 ^ 16) with 65536 in *;
  change (2 ^ 7) with 128 in *; change (2 ^ 8) with 256 in *.

Lemma swrap_signed : forall w n, int_width w -> swrap w (swrap 64 n) = to_signed w n.
Proof.
  intros w n H. unfold to_signed, swrap. cbn in H.
  destruct H as [<-|[<-|[<-|[<-|[]]]]]; pows; cbv zeta;
    match goal with |- context [if ?b then _ else _] => destruct b eqn:E end;
    Z.div_mod_to_equations; lia.
Qed.
Lemma swrap_signed_neg : forall w n, int_width w -> swrap w (swrap 64 (- swrap 64 n)) = to_signed w (- n).
Proof.
  intros w n H. rewrite swrap_signed by exact H.
  unfold to_signed. f_equal. 
  assert (E : (- swrap 64 n) mod 2 ^ w = (- n) mod 2 ^ w).
  { unfold swrap. cbn in H. destruct H as [<-|[<-|[<-|[<-|[]]]]]; pows; Z.div_mod_to_equations; lia. }
  rewrite E. reflexivity.
Qed.
Lemma swrap_unsigned : forall w n, int_width w -> swrap w (n mod 2 ^ 64) = to_signed w n.
Proof.
  intros w n H. unfold to_signed, swrap. cbn in H.
  destruct H as [<-|[<-|[<-|[<-|[]]]]]; pows; cbv zeta;
    match goal with |- context [if ?b then _ else _] => destruct b eqn:E end;
    Z.div_mod_to_equations; lia.
Qed.
Lemma uwrap_signed : forall w n, int_width w -> uwrap w (swrap 64 n) = n mod 2 ^ w.
Proof.
  intros w n H. unfold uwrap, swrap. cbn in H.
  destruct H as [<-|[<-|[<-|[<-|[]]]]]; pows; Z.div_mod_to_equations; lia.
Qed.
Lemma uwrap_unsigned : forall w n, int_width w -> uwrap w (n mod 2 ^ 64) = n mod 2 ^ w.
Proof.
  intros w n H. unfold uwrap. cbn in H.
  destruct H as [<-|[<-|[<-|[<-|[]]]]]; pows; Z.div_mod_to_equations; lia.
Qed.

Lemma store_x_ok : forall p n, ptr_ok p -> store_x (n mod 2 ^ 64) p = int_for p n.
Proof.
  intros p n Hp. destruct p; cbn [store_x int_for ptr_ok] in *; try reflexivity.
  - rewrite swrap_unsigned by exact Hp. reflexivity.
  - rewrite uwrap_unsigned by exact Hp. reflexivity.
Qed.
Lemma store_d_pos : forall p n, ptr_ok p -> store_d false (swrap 64 n) p = int_for p n.
Proof.
  intros p n Hp. destruct p; cbn [store_d int_for ptr_ok] in *; try reflexivity.
  - rewrite swrap_signed by exact Hp. reflexivity.
  - rewrite uwrap_signed by exact Hp. reflexivity.
Qed.
Lemma store_d_neg : forall p n, ptr_ok p ->
  store_d true (swrap 64 (- swrap 64 n)) p = match p with PUnsigned _ => None | _ => int_for p (- n) end.
Proof.
  intros p n Hp. destruct p; cbn [store_d int_for ptr_ok] in *; try reflexivity.
  rewrite swrap_signed_neg by exact Hp. reflexivity.
Qed.

(** ** Conversions *)

Lemma read_sign_ok : forall neg s rest pre, sign_text neg s ->
  (s = [] -> rest <> [] /\ hd 0 rest <> 45 /\ hd 0 rest <> 43) ->
  read_sign (pre ++ s ++ rest) (zlen pre) = Ok (neg, zlen (pre ++ s), zlen s).
Proof.
  intros neg s rest pre Hs Hr. unfold read_sign.
  destruct Hs as [[-> ->]|[-> [->| ->]]].
  - cbn [app]. rewrite at_app_mid. cbn [bind]. change (45 =? 45) with true. cbv iota.
    rewrite (pos1 pre 45). reflexivity.
  - cbn [app]. rewrite at_app_mid. cbn [bind]. change (43 =? 45) with false.
    change (43 =? 43) with true. cbv iota. rewrite (pos1 pre 43). reflexivity.
  - cbn [app]. destruct (Hr eq_refl) as (H1 & H2 & H3). destruct rest as [|c rest]; [congruence|].
    rewrite at_app_mid. cbn [bind hd] in *.
    destruct (Z.eqb_spec c 45); [congruence|]. destruct (Z.eqb_spec c 43); [congruence|].
    rewrite app_nil_r. reflexivity.
Qed.

Lemma dec_first : forall tok ds rest, Forall2 dec_char tok ds -> tok <> [] ->
  hd 0 (tok ++ rest) <> 45 /\ hd 0 (tok ++ rest) <> 43.
Proof.
  intros tok ds rest H Hn. destruct H as [|c d tok ds Hc H]; [congruence|].
  destruct Hc as [-> Hd]. cbn [app hd]. lia.
Qed.

Lemma word_loop_ok : forall tok pre rest fuel width count,
  Forall (fun c => c <> 32) tok -> (length tok < fuel)%nat ->
  (width <= 0 \/ count + zlen tok <= width) ->
  (rest = [] \/ (0 < width /\ count + zlen tok = width) \/ exists r, rest = 32 :: r) ->
  word_loop fuel (pre ++ tok ++ rest) width (zlen pre) count = Ok (zlen (pre ++ tok)).
Proof.
  induction tok as [|c tok IH]; intros pre rest fuel width count HF Hf Hw Hr;
    (destruct fuel as [|fuel]; [cbn in Hf; lia|]); cbn [word_loop app].
  - rewrite app_nil_r, zlen_nil, Z.add_0_r in *. destruct rest as [|c rest].
    + rewrite end_nil. reflexivity.
    + rewrite end_cons. cbn [andb]. destruct ((width <=? 0) || (count <? width)) eqn:E.
      * destruct Hr as [Hr|[Hr|(r & Hr)]]; [discriminate|lia|].
        injection Hr as -> _. rewrite at_app_mid. reflexivity.
      * reflexivity.
  - rewrite end_cons. cbn [andb]. rewrite zlen_cons in *. pose proof (zlen_nonneg tok).
    destruct ((width <=? 0) || (count <? width)) eqn:E; [|lia].
    inversion HF; subst. rewrite at_app_mid. cbn [bind].
    destruct (Z.eqb_spec c 32); [congruence|].
    rewrite (pos1 pre c), (shift1 pre c). cbn [length] in Hf.
    rewrite (IH (pre ++ [c]) rest fuel width (count + 1)); try assumption; try lia.
    + rewrite <- app_assoc. reflexivity.
    + destruct Hr as [Hr|[Hr|Hr]]; [left; exact Hr|right; left; lia|right; right; exact Hr].
Qed.

Lemma len_lt : forall (a b c : list Z), (length b < S (length (a ++ b ++ c)))%nat.
Proof. intros a b c. rewrite !app_length. lia. Qed.
Lemma less0 : forall r, less r 0 = r.
Proof. intros [r|]; cbn; [f_equal; lia|reflexivity]. Qed.
Lemma snoc_fold : forall (ds acc : list Z), fold_left (fun l d => l ++ [d]) ds acc = acc ++ ds.
Proof.
  induction ds as [|d ds IH]; intros acc; cbn [fold_left]; [rewrite app_nil_r; reflexivity|].
  rewrite IH, <- app_assoc. reflexivity.
Qed.
Lemma not_empty : forall (tok : list Z), tok <> [] -> negb (empty tok) = true.
Proof. intros [|c tok] H; [congruence|reflexivity]. Qed.

(** the limits do not matter for what follows the number *)
Lemma room_end : forall width n, 0 <= width -> 0 <= n -> room_of width <> Some n ->
  match room_of width with Some m => n <= m | None => True end ->
  ((width <=? 0) || (n <? width)) = true.
Proof.
  intros width n Hw Hn H1 H2. unfold room_of in *. destruct (Z.eqb_spec width 0) as [->|Hz]; [reflexivity|].
  assert (n <> width) by congruence. lia.
Qed.
Lemma room_end_no : forall width n, 0 <= width -> 0 <= n -> room_of width = Some n ->
  ((width <=? 0) || (n <? width)) = false.
Proof.
  intros width n Hw Hn H. unfold room_of in *. destruct (Z.eqb_spec width 0) as [->|Hz]; [discriminate|].
  injection H as H. lia.
Qed.

Lemma longest_room : forall P width n tok rest, 0 <= n ->
  longest P (less (room_of width) n) tok rest ->
  match room_of width with Some m => n + zlen tok <= m | None => True end.
Proof.
  intros P width n tok rest Hn (_ & H & _). destruct (room_of width); cbn [less] in H; lia.
Qed.

Lemma convert_ok : forall l width t p rest v pre,
  reads l width t p rest v -> t <> [] -> 0 <= width < 2147483648 ->
  zlen (pre ++ t) < 4611686018427387904 -> ptr_ok p ->
  exists tok, t = tok ++ rest /\
    convert (pre ++ t) l width p (zlen pre) = Ok (Go (zlen (pre ++ tok)) v).
Proof.
  intros l width t p rest v pre H Ht Hw Hlen Hp. unfold convert.
  destruct H as [neg s tok ds rest p -> Hs HL HF Hn
    |tok ds rest p Hl HL HF Hn|tok ds rest p -> HL HF Hn|tok rest p -> HL Hn|c rest p -> Hw1
    |tok rest p -> Hw1 Hz|text p -> Hz
    |neg s a as_ rest p -> Hs HL HF Hn Hend
    |neg s a as_ b bs_ rest p -> Hs HL Hroom HF HLb HFb Hn
    |text p Hl].
  - change (100 =? 100) with true. cbv iota.
    exists (s ++ tok). split; [rewrite <- app_assoc; reflexivity|].
    rewrite (read_sign_ok neg s (tok ++ rest) pre Hs)
      by (intros _; split; [destruct tok; [congruence|discriminate]|apply (dec_first tok ds rest HF Hn)]).
    cbn [bind]. rewrite (app_assoc pre s).
    rewrite (digit_loop_longest Z dec_val acc_d dec dec_char dec_val_ok dec_val_no tok ds (pre ++ s) rest
       _ width (zlen s) 0 false ltac:(lia) HL HF (len_lt _ _ _)). cbn [bind].
    rewrite (not_empty tok Hn). cbn [orb].
    rewrite acc_d_0.
    rewrite <- app_assoc. destruct neg.
    + rewrite store_d_neg by exact Hp. reflexivity.
    + rewrite store_d_pos by exact Hp. reflexivity.
  - assert (E1 : (l =? 100) = false) by lia. assert (E2 : (l =? 120) || (l =? 88) = true) by lia.
    rewrite E1, E2. exists tok. split; [reflexivity|].
    rewrite <- (less0 (room_of width)) in HL.
    rewrite (digit_loop_longest Z hex_val acc_x hex hex_char hex_val_ok hex_val_no tok ds pre rest
       _ width 0 0 false ltac:(lia) HL HF (len_lt _ _ _)). cbn [bind].
    rewrite (not_empty tok Hn). cbn [orb].
    rewrite acc_x_0, store_x_ok by exact Hp. reflexivity.
  - change (111 =? 100) with false. change ((111 =? 120) || (111 =? 88)) with false.
    change (111 =? 111) with true. cbv iota. exists tok. split; [reflexivity|].
    rewrite <- (less0 (room_of width)) in HL.
    rewrite (digit_loop_longest Z oct_val acc_o oct oct_char oct_val_ok oct_val_no tok ds pre rest
       _ width 0 0 false ltac:(lia) HL HF (len_lt _ _ _)). cbn [bind].
    rewrite (not_empty tok Hn). cbn [orb].
    rewrite acc_o_0, store_x_ok by exact Hp. reflexivity.
  - change (115 =? 100) with false. change ((115 =? 120) || (115 =? 88)) with false.
    change (115 =? 111) with false. change (115 =? 115) with true. cbv iota.
    exists tok. split; [reflexivity|]. destruct HL as (L1 & L2 & L3).
    rewrite word_loop_ok; try assumption.
    + cbn [bind]. assert (E : zlen pre <? zlen (pre ++ tok) = true).
      { rewrite zlen_app. destruct tok; [congruence|]. rewrite zlen_cons. pose proof (zlen_nonneg tok). lia. }
      rewrite E, zlen_app, slice_mid. cbn [bind]. reflexivity.
    + apply len_lt.
    + unfold room_of in L2. destruct (Z.eqb_spec width 0); lia.
    + destruct L3 as [L3|[L3|(c & r & -> & Hc)]].
      * left; exact L3.
      * right; left. unfold room_of in L3. destruct (Z.eqb_spec width 0); [discriminate|].
        injection L3 as L3. lia.
      * right; right. exists r. f_equal. lia.
  - change (99 =? 100) with false. change ((99 =? 120) || (99 =? 88)) with false.
    change (99 =? 111) with false. change (99 =? 115) with false. change (99 =? 99) with true. cbv iota zeta.
    exists [c]. split; [reflexivity|].
    assert (E : (if width <=? 0 then 1 else width) = 1) by (destruct (width <=? 0) eqn:E; lia).
    rewrite E. rewrite zlen_app, zlen_cons in *. pose proof (zlen_nonneg rest). pose proof (zlen_nonneg pre).
    rewrite swrap64_id by lia.
    assert (E2 : (zlen pre + 1 <=? zlen pre + (1 + zlen rest)) = true) by lia. rewrite E2.
    change (1 =? 1) with true. cbv iota. rewrite at_app_mid. cbn [bind].
    rewrite zlen_app. unfold store_c, char_for. 
    change (zlen [c]) with 1. destruct p; try reflexivity.
    destruct (Z.eqb_spec w 8) as [->|Hn]; [reflexivity|].
    cbn in Hp. destruct Hp as [<-|[<-|[<-|[<-|[]]]]]; try reflexivity; congruence.
  - change (99 =? 100) with false. change ((99 =? 120) || (99 =? 88)) with false.
    change (99 =? 111) with false. change (99 =? 115) with false. change (99 =? 99) with true. cbv iota zeta.
    exists tok. split; [reflexivity|].
    assert (E : (width <=? 0) = false) by lia. rewrite E.
    rewrite !zlen_app in *. pose proof (zlen_nonneg rest). pose proof (zlen_nonneg pre).
    rewrite swrap64_id by lia. rewrite <- Hz in *.
    assert (E2 : (zlen pre + zlen tok <=? zlen pre + (zlen tok + zlen rest)) = true) by lia. rewrite E2.
    assert (E3 : (zlen tok =? 1) = false) by lia. rewrite E3.
    rewrite slice_mid. reflexivity.
  - change (99 =? 100) with false. change ((99 =? 120) || (99 =? 88)) with false.
    change (99 =? 111) with false. change (99 =? 115) with false. change (99 =? 99) with true. cbv iota zeta.
    exists []. split; [reflexivity|]. rewrite app_nil_r.
    pose proof (zlen_nonneg text). pose proof (zlen_nonneg pre).
    assert (E : (width <=? 0) = false) by lia. rewrite E.
    rewrite !zlen_app in *.
    rewrite swrap64_id by lia.
    assert (E2 : (zlen pre + width <=? zlen pre + zlen text) = false) by lia. rewrite E2. reflexivity.
  - change (102 =? 100) with false. change ((102 =? 120) || (102 =? 88)) with false.
    change (102 =? 111) with false. change (102 =? 115) with false. change (102 =? 99) with false.
    change (102 =? 102) with true. cbv iota.
    exists (s ++ a). split; [rewrite <- app_assoc; reflexivity|].
    rewrite (read_sign_ok neg s (a ++ rest) pre Hs)
      by (intros _; split; [destruct a; [congruence|discriminate]|apply (dec_first a as_ rest HF Hn)]).
    cbn [bind]. rewrite (app_assoc pre s).
    rewrite (digit_loop_longest (list Z) dec_val (fun l d => l ++ [d]) dec dec_char dec_val_ok dec_val_no
       a as_ (pre ++ s) rest _ width (zlen s) [] false ltac:(lia) HL HF (len_lt _ _ _)). cbn [bind].
    rewrite (not_empty a Hn). cbn [orb].
    rewrite (app_assoc (pre ++ s)).
    pose proof (zlen_nonneg s). pose proof (zlen_nonneg a).
    assert (Epoint : (if (zlen ((pre ++ s) ++ a) <? zlen (((pre ++ s) ++ a) ++ rest))
          && ((width <=? 0) || (zlen s + zlen a <? width))
        then c <- at_ (((pre ++ s) ++ a) ++ rest) (zlen ((pre ++ s) ++ a));; Ok (c =? 46)
        else Ok false) = Ok false).
    { destruct rest as [|c rest]; [rewrite end_nil; reflexivity|]. rewrite end_cons. cbn [andb].
      destruct Hend as [Hend|Hend].
      - rewrite room_end_no by (lia || exact Hend). reflexivity.
      - destruct ((width <=? 0) || _); [|reflexivity]. rewrite at_app_mid. cbn [bind hd] in *.
        destruct (Z.eqb_spec c 46); [congruence|reflexivity]. }
    rewrite Epoint. cbn [bind]. rewrite snoc_fold. cbn [app]. rewrite <- app_assoc. reflexivity.
  - change (102 =? 100) with false. change ((102 =? 120) || (102 =? 88)) with false.
    change (102 =? 111) with false. change (102 =? 115) with false. change (102 =? 99) with false.
    change (102 =? 102) with true. cbv iota.
    exists (s ++ a ++ 46 :: b). split; [rewrite <- !app_assoc; reflexivity|].
    rewrite (read_sign_ok neg s (a ++ 46 :: b ++ rest) pre Hs).
    2:{ intros _. destruct a as [|c a]; cbn [app hd]; [split; [discriminate|lia]|].
        split; [discriminate|]. apply (dec_first (c :: a) as_ [] HF). discriminate. }
    cbn [bind]. rewrite (app_assoc pre s).
    rewrite (digit_loop_longest (list Z) dec_val (fun l d => l ++ [d]) dec dec_char dec_val_ok dec_val_no
       a as_ (pre ++ s) (46 :: b ++ rest) _ width (zlen s) [] false ltac:(lia) HL HF (len_lt _ _ _)). cbn [bind].
    rewrite (app_assoc (pre ++ s)).
    pose proof (zlen_nonneg s). pose proof (zlen_nonneg a).
    rewrite end_cons. cbn [andb].
    rewrite room_end; [|lia|lia|exact Hroom|exact (longest_room _ _ _ _ _ (zlen_nonneg s) HL)].
    rewrite at_app_mid. cbn [bind]. change (46 =? 46) with true. cbv iota.
    rewrite (pos1 _ 46), (shift1 _ 46).
    rewrite (digit_loop_longest (list Z) dec_val (fun l d => l ++ [d]) dec dec_char dec_val_ok dec_val_no
       b bs_ _ rest _ width (zlen s + zlen a + 1) [] (false || negb (empty a)) ltac:(lia) HLb HFb (len_lt _ _ _)).
    cbn [bind]. rewrite !snoc_fold. cbn [app].
    assert (Eh : negb (empty a) || negb (empty b) = true).
    { destruct Hn as [Hn|Hn]; rewrite (not_empty _ Hn); [reflexivity|apply orb_true_r]. }
    cbn [orb]. rewrite Eh. do 3 f_equal. rewrite <- !app_assoc. reflexivity.
  - exists []. split; [reflexivity|]. rewrite app_nil_r.
    assert (Hl2 : l <> 100 /\ l <> 120 /\ l <> 88 /\ l <> 111 /\ l <> 115 /\ l <> 99 /\ l <> 102).
    { repeat split; intros ->; apply Hl; vm_compute; tauto. }
    destruct (Z.eqb_spec l 100); [lia|]. destruct (Z.eqb_spec l 120); [lia|].
    destruct (Z.eqb_spec l 88); [lia|]. destruct (Z.eqb_spec l 111); [lia|].
    destruct (Z.eqb_spec l 115); [lia|]. destruct (Z.eqb_spec l 99); [lia|].
    destruct (Z.eqb_spec l 102); [lia|]. reflexivity.
Qed.

Lemma convert_no : forall l width t p pre,
  no_number l width t -> t <> [] -> 0 <= width ->
  convert (pre ++ t) l width p (zlen pre) = Ok Break.
Proof.
  intros l width t p pre H Ht Hw. unfold convert.
  destruct H as [neg s rest -> Hs Hr HL|rest Hl HL|rest -> HL|neg s rest -> Hs Hr HL Hend
    |neg s rest -> Hs Hroom HL].
  - change (100 =? 100) with true. cbv iota.
    assert (Hr2 : s = [] -> rest <> [] /\ hd 0 rest <> 45 /\ hd 0 rest <> 43).
    { intros E. split; [|apply Hr; exact E]. subst s. exact Ht. }
    rewrite (read_sign_ok neg s rest pre Hs Hr2). cbn [bind]. rewrite (app_assoc pre s).
    pose proof (digit_loop_longest Z dec_val acc_d dec dec_char dec_val_ok dec_val_no [] [] (pre ++ s) rest
       (S (length ((pre ++ s) ++ rest))) width (zlen s) 0 false Hw HL (Forall2_nil _) (len_lt _ [] _)) as E.
    cbn [app] in E. rewrite E. reflexivity.
  - assert (E1 : (l =? 100) = false) by lia. assert (E2 : (l =? 120) || (l =? 88) = true) by lia.
    rewrite E1, E2.
    rewrite <- (less0 (room_of width)) in HL.
    pose proof (digit_loop_longest Z hex_val acc_x hex hex_char hex_val_ok hex_val_no [] [] pre rest
       (S (length (pre ++ rest))) width 0 0 false Hw HL (Forall2_nil _) (len_lt _ [] _)) as E.
    cbn [app] in E. rewrite E. reflexivity.
  - change (111 =? 100) with false. change ((111 =? 120) || (111 =? 88)) with false.
    change (111 =? 111) with true. cbv iota.
    rewrite <- (less0 (room_of width)) in HL.
    pose proof (digit_loop_longest Z oct_val acc_o oct oct_char oct_val_ok oct_val_no [] [] pre rest
       (S (length (pre ++ rest))) width 0 0 false Hw HL (Forall2_nil _) (len_lt _ [] _)) as E.
    cbn [app] in E. rewrite E. reflexivity.
  - change (102 =? 100) with false. change ((102 =? 120) || (102 =? 88)) with false.
    change (102 =? 111) with false. change (102 =? 115) with false. change (102 =? 99) with false.
    change (102 =? 102) with true. cbv iota.
    assert (Hr2 : s = [] -> rest <> [] /\ hd 0 rest <> 45 /\ hd 0 rest <> 43).
    { intros E. split; [|apply Hr; exact E]. subst s. exact Ht. }
    rewrite (read_sign_ok neg s rest pre Hs Hr2). cbn [bind]. rewrite (app_assoc pre s).
    pose proof (digit_loop_longest (list Z) dec_val (fun l d => l ++ [d]) dec dec_char dec_val_ok dec_val_no
       [] [] (pre ++ s) rest
       (S (length ((pre ++ s) ++ rest))) width (zlen s) [] false Hw HL (Forall2_nil _) (len_lt _ [] _)) as E.
    cbn [app] in E. rewrite E. cbn [bind]. rewrite app_nil_r, zlen_nil, Z.add_0_r.
    assert (Epoint : (if (zlen (pre ++ s) <? zlen ((pre ++ s) ++ rest))
          && ((width <=? 0) || (zlen s <? width))
        then c <- at_ ((pre ++ s) ++ rest) (zlen (pre ++ s));; Ok (c =? 46)
        else Ok false) = Ok false).
    { destruct rest as [|c rest]; [rewrite end_nil; reflexivity|]. rewrite end_cons. cbn [andb].
      destruct Hend as [Hend|Hend].
      - rewrite room_end_no by (apply zlen_nonneg || exact Hend || lia). reflexivity.
      - destruct ((width <=? 0) || _); [|reflexivity]. rewrite at_app_mid. cbn [bind hd] in *.
        destruct (Z.eqb_spec c 46); [congruence|reflexivity]. }
    rewrite Epoint. reflexivity.
  - change (102 =? 100) with false. change ((102 =? 120) || (102 =? 88)) with false.
    change (102 =? 111) with false. change (102 =? 115) with false. change (102 =? 99) with false.
    change (102 =? 102) with true. cbv iota.
    rewrite (read_sign_ok neg s (46 :: rest) pre Hs)
      by (intros _; cbn [hd]; repeat split; try discriminate; lia).
    cbn [bind]. rewrite (app_assoc pre s).
    pose proof (zlen_nonneg s) as Hs0.
    assert (HL0 : longest dec (less (room_of width) (zlen s)) [] (46 :: rest)).
    { split; [constructor|]. split.
      - destruct HL as (_ & HL & _). destruct (room_of width); cbn [less] in *; [|exact Logic.I].
        rewrite zlen_nil in *. lia.
      - right; right. exists 46, rest. split; [reflexivity|]. unfold dec. lia. }
    pose proof (digit_loop_longest (list Z) dec_val (fun l d => l ++ [d]) dec dec_char dec_val_ok dec_val_no
       [] [] (pre ++ s) (46 :: rest)
       (S (length ((pre ++ s) ++ 46 :: rest))) width (zlen s) [] false Hw HL0 (Forall2_nil _) (len_lt _ [] _)) as E.
    cbn [app] in E. rewrite E. cbn [bind]. rewrite app_nil_r, zlen_nil, Z.add_0_r.
    rewrite end_cons. cbn [andb].
    rewrite room_end; [|lia|lia|exact Hroom|].
    2:{ pose proof (longest_room _ _ _ _ _ Hs0 HL0) as K. rewrite zlen_nil, Z.add_0_r in K. exact K. }
    rewrite at_app_mid. cbn [bind]. change (46 =? 46) with true. cbv iota.
    rewrite (pos1 _ 46), (shift1 _ 46).
    pose proof (digit_loop_longest (list Z) dec_val (fun l d => l ++ [d]) dec dec_char dec_val_ok dec_val_no
       [] [] ((pre ++ s) ++ [46]) rest
       (S (length (((pre ++ s) ++ [46]) ++ rest))) width (zlen s + 1) [] false Hw HL (Forall2_nil _) (len_lt _ [] _)) as E2.
    cbn [app] in E2. cbn [fold_left empty negb orb]. rewrite E2. reflexivity.
Qed.

(** ** The whole text *)

Lemma scan_nothing : forall its ps vs, scan its [] ps vs -> vs = [].
Proof.
  intros its ps vs H. remember (@nil Z) as t eqn:Et. induction H; try reflexivity; try discriminate.
  - apply app_eq_nil in Et. apply IHscan. tauto.
  - exfalso. apply app_eq_nil in Et. tauto.
Qed.

Lemma stores_len : forall vs i j, zlen (stores i vs) = zlen (stores j vs).
Proof.
  induction vs as [|[v|] vs IH]; intros i j; cbn [stores]; [reflexivity| |apply IH].
  rewrite !zlen_cons. rewrite (IH (i + 1) (j + 1)). reflexivity.
Qed.

Lemma repeat_len : forall (c : Z) k, length (repeat c k) = k.
Proof. apply repeat_length. Qed.

(** one turn for a conversion *)
Lemma conv_turn : forall spre k t fpre w l R args ai fuel m ws,
  digit_text w -> digit_value w < 2147483648 -> ~ 48 <= l <= 57 -> (w = [] -> l <> 37) ->
  hd 0 t <> 32 -> repeat 32 k ++ t <> [] ->
  scan_loop (S fuel) (spre ++ repeat 32 k ++ t) (fpre ++ 37 :: w ++ l :: R) args (zlen spre) (zlen fpre) ai m ws
  = if zlen args <=? ai then Ok (ws, m)
    else match t with [] => Ok (ws, m)
    | _ => p <- at_ args ai ;;
           r <- convert ((spre ++ repeat 32 k) ++ t) l (digit_value w) p (zlen (spre ++ repeat 32 k)) ;;
           match r with
           | Break => Ok (ws, m)
           | Go si (Some v) => scan_loop fuel ((spre ++ repeat 32 k) ++ t) ((fpre ++ 37 :: w ++ [l]) ++ R) args si
                (zlen (fpre ++ 37 :: w ++ [l])) (ai + 1) (m + 1) (ws ++ [(ai, v)])
           | Go si None => scan_loop fuel ((spre ++ repeat 32 k) ++ t) ((fpre ++ 37 :: w ++ [l]) ++ R) args si
                (zlen (fpre ++ 37 :: w ++ [l])) (ai + 1) m ws
           end
    end.
Proof.
  intros spre k t fpre w l R args ai fuel m ws Hw Hb Hl Hl2 Ht Hne.
  cbn [scan_loop]. rewrite end_cons.
  assert (E : zlen spre <? zlen (spre ++ repeat 32 k ++ t) = true).
  { destruct (repeat 32 k ++ t); [congruence|]. apply end_cons. }
  rewrite E. cbn [andb]. rewrite at_app_mid. cbn [bind]. change (37 =? 37) with true. cbn [negb].
  rewrite (shift1 fpre 37), (pos1 fpre 37).
  assert (Epct : (if zlen (fpre ++ [37]) <? zlen ((fpre ++ [37]) ++ w ++ l :: R)
      then c0 <- at_ ((fpre ++ [37]) ++ w ++ l :: R) (zlen (fpre ++ [37]));; Ok (c0 =? 37) else Ok false) = Ok false).
  { destruct w as [|d w]; cbn [app]; rewrite end_cons, at_app_mid; cbn [bind].
    - destruct (Z.eqb_spec l 37); [tauto|reflexivity].
    - inversion Hw; subst. destruct (Z.eqb_spec d 37); [lia|reflexivity]. }
  rewrite Epct. cbn [bind]. destruct (zlen args <=? ai); [reflexivity|].
  rewrite read_width_ok; [|assumption|cbn [hd]; lia|rewrite !app_length; lia|lia|exact Hb].
  cbn [bind]. rewrite (app_assoc (fpre ++ [37]) w). set (q := (fpre ++ [37]) ++ w).
  assert (E2 : (zlen (q ++ l :: R) <=? zlen q) = false) by (pose proof (end_cons q l R); lia).
  rewrite E2, at_app_mid. cbn [bind].
  rewrite skip_blanks_ok by (try assumption; rewrite !app_length, repeat_len; lia). cbn [bind].
  rewrite (app_assoc spre). rewrite (shift1 q l), (pos1 q l).
  assert (Eq : q ++ [l] = fpre ++ 37 :: w ++ [l]) by (unfold q; rewrite <- !app_assoc; reflexivity).
  rewrite Eq. destruct t as [|c t].
  - rewrite app_nil_r, Z.leb_refl. reflexivity.
  - pose proof (end_cons (spre ++ repeat 32 k) c t).
    assert (E3 : (zlen ((spre ++ repeat 32 k) ++ c :: t) <=? zlen (spre ++ repeat 32 k)) = false) by lia.
    rewrite E3. reflexivity.
Qed.

Lemma conv_text : forall fpre w l R, fpre ++ (37 :: w ++ [l]) ++ R = fpre ++ 37 :: w ++ l :: R.
Proof. intros fpre w l R. cbn [app]. rewrite <- app_assoc. reflexivity. Qed.

Lemma blanks_split : forall text : list Z, exists k t, text = repeat 32 k ++ t /\ hd 0 t <> 32.
Proof.
  induction text as [|c text IH].
  - exists O, []. split; [reflexivity|cbn; lia].
  - destruct (Z.eq_dec c 32) as [->|Hn].
    + destruct IH as (k & t & -> & Ht). exists (S k), t. split; [reflexivity|exact Ht].
    + exists O, (c :: text). split; [reflexivity|exact Hn].
Qed.

Lemma width_nonneg : forall w, digit_text w -> 0 <= digit_value w.
Proof. intros w H. exact (foldv_ge w 0 H ltac:(lia)). Qed.

(** the fuel needed: one turn for each item, one for a tail and one to see the end *)
Lemma scan_loop_ok : forall its text ps vs, scan its text ps vs ->
  forall spre fpre apre tail fuel m ws,
  Forall fitem_ok its -> Forall ptr_ok ps ->
  (tail = [] \/ exists w, tail = 37 :: w /\ digit_text w) ->
  (length its + length tail < fuel)%nat ->
  zlen (spre ++ text) < 4611686018427387904 ->
  scan_loop fuel (spre ++ text) (fpre ++ concat (map fitem_text its) ++ tail) (apre ++ ps)
    (zlen spre) (zlen fpre) (zlen apre) m ws
  = Ok (ws ++ stores (zlen apre) vs, m + zlen (stores (zlen apre) vs)).
Proof.
  assert (Hout : forall fuel str fmt args si fi ai m ws, si = zlen str -> (0 < fuel)%nat ->
     scan_loop fuel str fmt args si fi ai m ws = Ok (ws ++ stores ai [], m + zlen (stores ai []))).
  { intros fuel str fmt args si fi ai m ws -> Hf. destruct fuel as [|fuel]; [lia|]. cbn [scan_loop stores].
    rewrite Z.ltb_irrefl, andb_false_r, app_nil_r, zlen_nil, Z.add_0_r. reflexivity. }
  assert (Hstop : forall ai m (ws : list (Z * stored)), Ok (ws, m) = Ok (ws ++ stores ai [], m + zlen (stores ai []))).
  { intros ai m ws. cbn [stores]. rewrite app_nil_r, zlen_nil, Z.add_0_r. reflexivity. }
  intros its text ps vs H. induction H as [text ps|its ps|c its t ps vs H IH|c c' its t ps Hne
    |k its t ps vs Ht H IH|its t ps vs H IH|c its t ps Hne|w l its text|w l k its ps
    |w l k its t rest p ps v vs Hn Ht Hread H IH|w l k its t p ps Hn Ht Hno];
    intros spre fpre apre tail fuel m ws Hits Hps Htail Hf Hlen;
    (destruct fuel as [|fuel]; [lia|]); cbn [length] in Hf.
  - (* no items left *)
    destruct text as [|c text].
    { apply Hout; [rewrite app_nil_r; reflexivity|lia]. }
    cbn [map concat app scan_loop]. rewrite end_cons, andb_true_r.
    destruct Htail as [->|(w & -> & Hw)].
    + rewrite end_nil. apply Hstop.
    + rewrite end_cons, at_app_mid. cbn [bind]. change (37 =? 37) with true. cbn [negb].
      rewrite (shift1 fpre 37), (pos1 fpre 37).
      assert (Epct : (if zlen (fpre ++ [37]) <? zlen ((fpre ++ [37]) ++ w)
          then c0 <- at_ ((fpre ++ [37]) ++ w) (zlen (fpre ++ [37]));; Ok (c0 =? 37) else Ok false) = Ok false).
      { destruct w as [|d w]; [rewrite end_nil; reflexivity|]. rewrite end_cons, at_app_mid. cbn [bind].
        inversion Hw; subst. destruct (Z.eqb_spec d 37); [lia|reflexivity]. }
      rewrite Epct. cbn [bind]. destruct (zlen (apre ++ ps) <=? zlen apre); [apply Hstop|].
      destruct (read_width_tail w (fpre ++ [37]) (S (length ((fpre ++ [37]) ++ w))) 0 Hw) as [v E].
      { rewrite !app_length. lia. }
      rewrite E. cbn [bind]. rewrite Z.leb_refl. apply Hstop.
  - apply Hout; [rewrite app_nil_r; reflexivity|lia].
  - inversion Hits as [|? ? Hi Hits']; subst. cbn in Hi.
    cbn [map concat fitem_text app scan_loop]. rewrite !end_cons. cbn [andb]. rewrite at_app_mid. cbn [bind].
    destruct (Z.eqb_spec c 37); [tauto|]. destruct (Z.eqb_spec c 32); [tauto|]. cbn [negb].
    rewrite at_app_mid. cbn [bind]. rewrite Z.eqb_refl.
    rewrite (shift1 spre c), (shift1 fpre c), (pos1 spre c), (pos1 fpre c).
    apply IH; try assumption; [lia|]. rewrite <- shift1. assumption.
  - inversion Hits as [|? ? Hi Hits']; subst. cbn in Hi.
    cbn [map concat fitem_text app scan_loop]. rewrite !end_cons. cbn [andb]. rewrite at_app_mid. cbn [bind].
    destruct (Z.eqb_spec c 37); [tauto|]. destruct (Z.eqb_spec c 32); [tauto|]. cbn [negb].
    rewrite at_app_mid. cbn [bind]. destruct (Z.eqb_spec c' c); [congruence|]. apply Hstop.
  - inversion Hits as [|? ? Hi Hits']; subst.
    cbn [map concat fitem_text app scan_loop].
    destruct (zlen spre <? zlen (spre ++ repeat 32 k ++ t)) eqn:E.
    + rewrite end_cons. cbn [andb]. rewrite at_app_mid. cbn [bind].
      change (32 =? 37) with false. change (32 =? 32) with true. cbn [negb].
      rewrite skip_blanks_ok by (try assumption; rewrite !app_length, repeat_len; lia). cbn [bind].
      rewrite (app_assoc spre), (shift1 fpre 32), (pos1 fpre 32).
      apply IH; try assumption; [lia|]. rewrite <- app_assoc. assumption.
    + rewrite andb_false_r. assert (k = O /\ t = []) as [-> ->].
      { rewrite !zlen_app in E. pose proof (zlen_nonneg t).
        assert (Hk : zlen (repeat 32 k) = Z.of_nat k) by (unfold zlen; rewrite repeat_len; reflexivity).
        split; [lia|]. destruct t; [reflexivity|]. rewrite zlen_cons in E. pose proof (zlen_nonneg t). lia. }
      apply scan_nothing in H. subst vs. apply Hstop.
  - inversion Hits as [|? ? Hi Hits']; subst.
    cbn [map concat fitem_text scan_loop]. change (bs "%%") with [37; 37]. cbn [app].
    rewrite !end_cons. cbn [andb]. rewrite at_app_mid. cbn [bind].
    change (37 =? 37) with true. cbn [negb].
    rewrite (shift1 fpre 37), (pos1 fpre 37), end_cons, at_app_mid. cbn [bind].
    change (37 =? 37) with true. cbv iota. rewrite at_app_mid. cbn [bind]. change (37 =? 37) with true. cbv iota.
    rewrite (shift1 spre 37), (shift1 (fpre ++ [37]) 37), (pos1 spre 37), (pos1 (fpre ++ [37]) 37).
    apply IH; try assumption; [lia|]. rewrite <- shift1. assumption.
  - cbn [map concat fitem_text scan_loop]. change (bs "%%") with [37; 37]. cbn [app].
    rewrite !end_cons. cbn [andb]. rewrite at_app_mid. cbn [bind].
    change (37 =? 37) with true. cbn [negb].
    rewrite (shift1 fpre 37), (pos1 fpre 37), end_cons, at_app_mid. cbn [bind].
    change (37 =? 37) with true. cbv iota. rewrite at_app_mid. cbn [bind].
    destruct (Z.eqb_spec c 37); [congruence|]. apply Hstop.
  - (* no argument *)
    inversion Hits as [|? ? Hi Hits']; subst. cbn in Hi. destruct Hi as (Hw & Hb & Hl & Hl2).
    destruct text as [|c text]; [apply Hout; [rewrite app_nil_r; reflexivity|lia]|].
    cbn [map concat fitem_text]. rewrite <- app_assoc, conv_text.
    destruct (blanks_split (c :: text)) as (k & t & Es & Ht).
    rewrite Es. rewrite conv_turn; try assumption; [|rewrite <- Es; discriminate].
    rewrite app_nil_r, Z.leb_refl. apply Hstop.
  - inversion Hits as [|? ? Hi Hits']; subst. cbn in Hi. destruct Hi as (Hw & Hb & Hl & Hl2).
    destruct k as [|k]; [apply Hout; [cbn [repeat]; rewrite app_nil_r; reflexivity|lia]|].
    cbn [map concat fitem_text]. rewrite <- app_assoc, conv_text.
    rewrite <- (app_nil_r (repeat 32 (S k))).
    rewrite conv_turn; try assumption; [|cbn; lia|discriminate].
    destruct (zlen (apre ++ ps) <=? zlen apre); apply Hstop.
  - inversion Hits as [|? ? Hi Hits']; subst. cbn in Hi. destruct Hi as (Hw & Hb & Hl & Hl2).
    inversion Hps as [|? ? Hp Hps']; subst.
    cbn [map concat fitem_text]. rewrite <- app_assoc, conv_text.
    rewrite conv_turn; try assumption.
    2:{ destruct t; [congruence|]. intros E. apply app_eq_nil in E. destruct E; discriminate. }
    assert (E : (zlen (apre ++ p :: ps) <=? zlen apre) = false) by (pose proof (end_cons apre p ps); lia).
    rewrite E. destruct t as [|c t]; [congruence|]. rewrite at_app_mid. cbn [bind].
    rewrite (app_assoc spre) in Hlen.
    destruct (convert_ok l (digit_value w) (c :: t) p rest v (spre ++ repeat 32 k) Hread Hn
       (conj (width_nonneg w Hw) Hb) Hlen Hp) as (tok & Etok & Ec).
    rewrite Ec. cbn [bind]. rewrite Etok, (app_assoc (spre ++ repeat 32 k)).
    rewrite Etok, (app_assoc (spre ++ repeat 32 k)) in Hlen.
    rewrite (app_assoc apre [p] ps : apre ++ p :: ps = _).
    rewrite (pos1 apre p).
    destruct v as [v|]; rewrite IH; try assumption; try lia; cbn [stores].
    + rewrite <- !(pos1 apre p), <- app_assoc, zlen_cons. cbn [app]. do 2 f_equal. lia.
    + rewrite <- !(pos1 apre p). reflexivity.
  - inversion Hits as [|? ? Hi Hits']; subst. cbn in Hi. destruct Hi as (Hw & Hb & Hl & Hl2).
    cbn [map concat fitem_text]. rewrite <- app_assoc, conv_text.
    rewrite conv_turn; try assumption.
    2:{ destruct t; [congruence|]. intros E. apply app_eq_nil in E. destruct E; discriminate. }
    assert (E : (zlen (apre ++ p :: ps) <=? zlen apre) = false) by (pose proof (end_cons apre p ps); lia).
    rewrite E. destruct t as [|c t]; [congruence|]. rewrite at_app_mid. cbn [bind].
    rewrite (convert_no l (digit_value w) (c :: t) p (spre ++ repeat 32 k) Hno Hn (width_nonneg w Hw)).
    cbn [bind]. apply Hstop.
Qed.
