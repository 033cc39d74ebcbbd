From Verif Require Import Base Base_lemmas Strings_model Strings_spec Strings_proof Url_model Url_proof
  Fmt_model Fmt_spec.

Lemma reverse_in_place_spec fuel : forall pre mid suf,
  (length mid < fuel)%nat ->
  reverse_in_place fuel (pre ++ mid ++ suf) (zlen pre) (zlen pre + zlen mid - 1) =
  Ok (pre ++ rev mid ++ suf).
Proof.
  induction fuel as [|fuel IH]; intros pre mid suf Hf; [lia|]. cbn [reverse_in_place].
  destruct mid as [|x mid].
  { rewrite zlen_nil. now replace (zlen pre <? zlen pre + 0 - 1) with false by lia. }
  destruct mid as [|y mid _] using rev_ind.
  { rewrite zlen_cons, zlen_nil. now replace (zlen pre <? zlen pre + (1 + 0) - 1) with false by lia. }
  rewrite zlen_cons, zlen_app, zlen_cons, zlen_nil. pose proof (zlen_nonneg mid).
  replace (zlen pre <? zlen pre + (1 + (zlen mid + (1 + 0))) - 1) with true by lia.
  cbn [app]. rewrite at_app_mid. cbn [bind].
  replace (zlen pre + (1 + (zlen mid + (1 + 0))) - 1) with (zlen (pre ++ x :: mid))
    by (rewrite zlen_app, zlen_cons; lia).
  replace (pre ++ x :: (mid ++ [y]) ++ suf) with ((pre ++ x :: mid) ++ y :: suf)
    by (rewrite <- !app_assoc; cbn [app]; now rewrite <- ?app_assoc).
  rewrite at_app_mid. cbn [bind].
  replace ((pre ++ x :: mid) ++ y :: suf) with (pre ++ x :: mid ++ y :: suf)
    by now rewrite <- !app_assoc.
  rewrite set_at_mid. cbn [bind].
  replace (pre ++ y :: mid ++ y :: suf) with ((pre ++ y :: mid) ++ y :: suf)
    by now rewrite <- !app_assoc.
  replace (zlen (pre ++ x :: mid)) with (zlen (pre ++ y :: mid)) by (rewrite !zlen_app, !zlen_cons; lia).
  rewrite set_at_mid. cbn [bind].
  specialize (IH (pre ++ [y]) mid (x :: suf)).
  rewrite zlen_app, zlen_cons, zlen_nil, <- !app_assoc in IH. cbn [app] in IH.
  rewrite <- app_assoc. cbn [app].
  replace (zlen pre + 1) with (zlen pre + (1 + 0)) by lia.
  replace (zlen (pre ++ y :: mid) - 1) with (zlen pre + (1 + 0) + zlen mid - 1)
    by (rewrite zlen_app, zlen_cons; lia).
  rewrite IH by (cbn [length] in Hf; rewrite app_length in Hf; cbn in Hf; lia).
  cbn [rev]. rewrite rev_app_distr. cbn [rev app]. now rewrite <- !app_assoc.
Qed.

Lemma reverse_vec_spec l : reverse_vec l = Ok (rev l).
Proof.
  unfold reverse_vec. pose proof (reverse_in_place_spec (S (length l)) [] l [] ltac:(lia)) as H.
  cbn [app] in H. rewrite !app_nil_r in H. rewrite zlen_nil, Z.add_0_l in H. exact H.
Qed.

Lemma pad_loop_spec fuel : forall result c width rw,
  0 <= rw <= 255 -> width <= 255 -> (Z.to_nat (width - rw) < fuel)%nat ->
  pad_loop fuel result c width rw = Ok (result ++ repeat c (Z.to_nat (width - rw))).
Proof.
  induction fuel as [|fuel IH]; intros result c width rw Hrw Hw Hf; [lia|]. cbn [pad_loop].
  destruct (rw <? width) eqn:E.
  - unfold u8. rewrite Z.mod_small by lia. rewrite IH by lia. rewrite <- app_assoc. cbn [app].
    replace (Z.to_nat (width - rw)) with (S (Z.to_nat (width - (rw + 1)))) by lia. reflexivity.
  - replace (Z.to_nat (width - rw)) with O by lia. cbn. now rewrite app_nil_r.
Qed.

Lemma pad_spec result c width rw : 0 <= rw <= 255 -> width <= 255 ->
  pad result c width rw = Ok (result ++ repeat c (Z.to_nat (width - rw))).
Proof. intros. unfold pad. apply pad_loop_spec; lia. Qed.

Lemma value_in_snoc base ds d : value_in base (ds ++ [d]) = base * value_in base ds + d.
Proof. unfold value_in. now rewrite fold_left_app. Qed.

Section digits.
  Variables (base : Z) (digit : Z -> Z) (char : Z -> Z -> Prop).
  Hypothesis Hbase : 2 <= base.
  Hypothesis Hchar : forall d, 0 <= d < base -> char (digit d) d.

  Lemma udigits_spec fuel : forall i result, 0 <= i < base ^ Z.of_nat fuel ->
    exists s ds, udigits (S fuel) base digit i result = Ok (result ++ rev s) /\
      Forall2 char s ds /\ value_in base ds = i /\ (i = 0 -> ds = []) /\ (i <> 0 -> ds <> [] /\ hd 0 ds <> 0) /\
      (length s <= fuel)%nat.
  Proof using Hbase Hchar.
    induction fuel as [|fuel IH]; intros i result Hi.
    - assert (i = 0) as -> by (change (Z.of_nat 0) with 0 in Hi; rewrite Z.pow_0_r in Hi; lia).
      exists [], []. cbn. rewrite app_nil_r. repeat split; auto; lia.
    - set (fu := S fuel) in *. cbn [udigits]. destruct (Z.eqb_spec i 0) as [->|Hne]; cbn [negb].
      { exists [], []. cbn. rewrite app_nil_r. repeat split; auto; lia. }
      assert (Hdiv : 0 <= i / base < base ^ Z.of_nat fuel).
      { split; [apply Z.div_pos; lia|]. apply Z.div_lt_upper_bound; [lia|].
        replace (base * base ^ Z.of_nat fuel) with (base ^ Z.of_nat fu); [lia|].
        subst fu. rewrite Nat2Z.inj_succ, Z.pow_succ_r by lia. reflexivity. }
      destruct (IH (i / base) (result ++ [digit (i mod base)]) Hdiv) as
        (s & ds & -> & Hf & Hv & H0 & H1 & Hl).
      exists (s ++ [digit (i mod base)]), (ds ++ [i mod base]).
      pose proof (Z.mod_pos_bound i base ltac:(lia)) as Hm.
      pose proof (Z.div_mod i base ltac:(lia)) as Hdm.
      split; [rewrite rev_app_distr; cbn; now rewrite <- app_assoc|].
      split; [apply Forall2_app; [assumption|]; constructor; [now apply Hchar|constructor]|].
      split; [rewrite value_in_snoc; lia|].
      split; [lia|]. split; [|rewrite app_length; cbn; subst fu; lia].
      intros _. split; [now destruct ds|].
      destruct (Z.eq_dec (i / base) 0) as [E|E].
      + rewrite (H0 E). cbn. lia.
      + destruct (H1 E) as [Ha Hb]. now destruct ds.
  Qed.
End digits.

Lemma dec_digit_char d : 0 <= d < 10 -> dec_char (dec_digit d) d.
Proof. intros H. unfold dec_digit, dec_char, u8. rewrite !Z.mod_small by (rewrite ?Z.mod_small; lia). lia. Qed.

Lemma hex_lo_char d : 0 <= d < 16 -> lower_hex_char (hex_digit_lo d) d.
Proof.
  intros H. unfold hex_digit_lo, lower_hex_char, u8.
  destruct (d <? 10) eqn:E; rewrite !Z.mod_small by (rewrite ?Z.mod_small; lia); lia.
Qed.

Lemma hex_up_char d : 0 <= d < 16 -> upper_hex_char (hex_digit_up d) d.
Proof.
  intros H. unfold hex_digit_up, upper_hex_char, u8.
  destruct (d <? 10) eqn:E; rewrite !Z.mod_small by (rewrite ?Z.mod_small; lia); lia.
Qed.

Lemma rev_repeat {A} (x : A) n : rev (repeat x n) = repeat x n.
Proof.
  induction n as [|n IH]; [reflexivity|]. cbn [repeat rev]. rewrite IH.
  clear. induction n; cbn; [reflexivity|]. now rewrite <- IHn.
Qed.

Lemma repeat_snoc {A} (x : A) n : repeat x n ++ [x] = x :: repeat x n.
Proof. induction n; cbn; [reflexivity|]. now rewrite IHn. Qed.

Section unsigned.
  Variables (base : Z) (digit : Z -> Z) (char : Z -> Z -> Prop).
  Hypothesis Hbase : 2 <= base.
  Hypothesis Hchar : forall d, 0 <= d < base -> char (digit d) d.
  Hypothesis Hzero : char 48 0.

  Lemma unsigned_with_spec i fill width :
    0 <= i < 2 ^ 64 -> 0 <= width <= 255 -> (i <> 0 \/ width = 0 \/ ascii1 fill = 48) ->
    exists s t, unsigned_with base digit i fill width = Ok t /\
      numeral base char s i /\ padded (ascii1 fill) width s t.
  Proof using Hbase Hchar Hzero.
    intros Hi Hw Hok. unfold unsigned_with. destruct (Z.eqb_spec i 0) as [->|Hne].
    - assert (Hn : numeral base char [48] 0).
      { exists [0]. split; [repeat constructor; assumption|]. split; [discriminate|]. split; [cbn; lia|now right]. }
      destruct (Z.eqb_spec width 0) as [->|Hw0].
      + exists [48], [48]. split; [reflexivity|]. split; [assumption|]. now exists O.
      + rewrite pad_spec by lia. assert (ascii1 fill = 48) as -> by (destruct Hok as [?|[?|?]]; congruence).
        eexists [48], _. split; [reflexivity|]. split; [assumption|].
        exists (Z.to_nat (width - 1)). rewrite repeat_snoc, zlen_cons, zlen_nil. split; [|lia].
        change (48 :: repeat 48 (Z.to_nat (width - 1))) with (repeat 48 (S (Z.to_nat (width - 1)))).
        cbn [app]. f_equal. lia.
    - destruct (udigits_spec base digit char Hbase Hchar 64 i []) as (s & ds & -> & Hf & Hv & _ & H1 & Hl).
      { split; [lia|]. apply Z.lt_le_trans with (2 ^ 64); [lia|]. change (Z.of_nat 64) with 64.
        apply Z.pow_le_mono_l. lia. }
      cbn [bind app]. destruct (H1 Hne) as [Hd Hh].
      assert (Hz : zlen s = zlen (rev s)) by now rewrite zlen_rev.
      unfold u8. rewrite Z.mod_small by (rewrite <- Hz; unfold zlen; lia).
      rewrite pad_spec by (rewrite <- ?Hz; unfold zlen; lia). cbn [bind]. rewrite reverse_vec_spec.
      exists s. eexists. split; [reflexivity|]. split.
      + exists ds. auto.
      + exists (Z.to_nat (width - zlen s)). rewrite rev_app_distr, rev_repeat, rev_involutive, <- Hz.
        split; [reflexivity|lia].
  Qed.
End unsigned.

Lemma dec_char_0 : dec_char 48 0. Proof. unfold dec_char; lia. Qed.
Lemma lo_char_0 : lower_hex_char 48 0. Proof. unfold lower_hex_char; lia. Qed.
Lemma up_char_0 : upper_hex_char 48 0. Proof. unfold upper_hex_char; lia. Qed.

Definition utos_spec := unsigned_with_spec 10 dec_digit dec_char ltac:(lia) dec_digit_char dec_char_0.
Definition hex_lo_spec := unsigned_with_spec 16 hex_digit_lo lower_hex_char ltac:(lia) hex_lo_char lo_char_0.
Definition hex_up_spec := unsigned_with_spec 16 hex_digit_up upper_hex_char ltac:(lia) hex_up_char up_char_0.

Lemma idigits_udigits fuel : forall i result, 0 <= i -> idigits fuel i result = udigits fuel 10 dec_digit i result.
Proof.
  induction fuel as [|fuel IH]; intros i result Hi; [reflexivity|]. cbn [idigits udigits].
  destruct (i =? 0); [reflexivity|]. cbn [negb].
  rewrite Z.quot_div_nonneg, Z.rem_mod_nonneg by lia. apply IH. apply Z.div_pos; lia.
Qed.

Lemma swrap_id w z : 0 < w -> - 2 ^ (w - 1) <= z < 2 ^ (w - 1) -> swrap w z = z.
Proof.
  intros Hw Hz. unfold swrap. replace (2 ^ w) with (2 * 2 ^ (w - 1)).
  - rewrite Z.mod_small by lia. lia.
  - rewrite <- Z.pow_succ_r by lia. f_equal. lia.
Qed.

Lemma numeral_not_minus s n : numeral 10 dec_char s n -> forall s', s <> 45 :: s'.
Proof.
  intros (ds & Hf & Hd & _) s' ->. inversion Hf as [|? ? ? ? Hc]; subst. unfold dec_char in Hc. lia.
Qed.

Lemma int_width_bound w : int_width w -> 8 <= w <= 64.
Proof. unfold int_width. cbn. lia. Qed.

Lemma pow_bound w : 8 <= w <= 64 -> 0 < 2 ^ (w - 1) /\ 2 ^ w = 2 * 2 ^ (w - 1) /\ 2 ^ w <= 2 ^ 64.
Proof.
  intros H. repeat split.
  - apply Z.pow_pos_nonneg; lia.
  - rewrite <- Z.pow_succ_r by lia. f_equal. lia.
  - apply Z.pow_le_mono_r; lia.
Qed.

Lemma itos_with_spec w v fill width :
  int_width w -> - 2 ^ (w - 1) < v < 2 ^ (w - 1) -> 0 <= width <= 255 ->
  (v <> 0 \/ width = 0 \/ ascii1 fill = 48) ->
  exists s t, itos_with w v fill width = Ok t /\ int_numeral s v /\
    (if list_eqb fill [32] then padded 32 width s t else zero_padded (ascii1 fill) width s t).
Proof.
  intros Hw Hv Hwd Hok. apply int_width_bound in Hw. pose proof (pow_bound w Hw) as (Hp & Hp2 & Hp3).
  unfold itos_with.
  assert (Hi : (if v <? 0 then swrap w (- v) else v) = Z.abs v).
  { destruct (v <? 0) eqn:E; [rewrite swrap_id; lia|lia]. }
  rewrite Hi. destruct (Z.eqb_spec (Z.abs v) 0) as [Hz|Hne].
  - assert (v = 0) as -> by lia.
    destruct (utos_spec 0 fill width) as (s & t & Ht & Hn & Hpad); [lia|lia|lia|].
    unfold unsigned_with in Ht. cbn [Z.eqb] in Ht. exists s, t. split; [exact Ht|].
    split; [left; split; [lia|assumption]|].
    destruct (list_eqb fill [32]) eqn:E.
    + apply list_eqb_eq in E. subst fill. exact Hpad.
    + left. split; [|assumption]. eapply numeral_not_minus; eauto.
  - rewrite idigits_udigits by lia.
    destruct (udigits_spec 10 dec_digit dec_char ltac:(lia) dec_digit_char 64 (Z.abs v) []) as
      (s & ds & -> & Hf & Hva & _ & H1 & Hl).
    { split; [lia|]. apply Z.lt_le_trans with (2 ^ 64); [lia|]. change (Z.of_nat 64) with 64.
      apply Z.pow_le_mono_l. lia. }
    cbn [bind app]. destruct (H1 Hne) as [Hd Hh].
    assert (Hnum : numeral 10 dec_char s (Z.abs v)) by (exists ds; auto).
    assert (Hlen : zlen (rev s) = zlen s) by apply zlen_rev.
    assert (Hb : 0 <= zlen s <= 64) by (unfold zlen; lia).
    rewrite Hlen. rewrite (u8_id (zlen s)) by (unfold is_byte; lia).
    rewrite (u8_id (zlen s + 1)) by (unfold is_byte; lia).
    destruct (v <? 0) eqn:Ev.
    + exists (45 :: s).
      assert (Hin : int_numeral (45 :: s) v).
      { right. split; [lia|]. exists s. split; [reflexivity|]. now replace (- v) with (Z.abs v) by lia. }
      destruct (list_eqb fill [32]) eqn:E.
      * apply list_eqb_eq in E. subst fill. rewrite pad_spec by lia. cbn [bind ascii1].
        rewrite reverse_vec_spec. eexists. split; [reflexivity|]. split; [assumption|].
        exists (Z.to_nat (width - (zlen s + 1))).
        rewrite !rev_app_distr, rev_repeat, rev_involutive, zlen_cons. cbn [rev app]. split; [reflexivity|lia].
      * rewrite pad_spec by lia. cbn [bind]. rewrite reverse_vec_spec. eexists. split; [reflexivity|].
        split; [assumption|]. right. exists s. eexists. split; [reflexivity|].
        rewrite !rev_app_distr, rev_repeat, rev_involutive. cbn [rev app]. split; [reflexivity|].
        exists (Z.to_nat (width - (zlen s + 1))). split; [reflexivity|lia].
    + exists s.
      assert (Hin : int_numeral s v).
      { left. split; [lia|]. now replace v with (Z.abs v) by lia. }
      destruct (list_eqb fill [32]) eqn:E.
      * apply list_eqb_eq in E. subst fill. rewrite pad_spec by lia. cbn [bind ascii1].
        rewrite reverse_vec_spec. eexists. split; [reflexivity|]. split; [assumption|].
        exists (Z.to_nat (width - zlen s)).
        rewrite !rev_app_distr, rev_repeat, rev_involutive. split; [reflexivity|lia].
      * rewrite pad_spec by lia. cbn [bind]. rewrite reverse_vec_spec. eexists. split; [reflexivity|].
        split; [assumption|]. left. split; [now apply (numeral_not_minus _ _ Hnum)|].
        exists (Z.to_nat (width - zlen s)).
        rewrite !rev_app_distr, rev_repeat, rev_involutive. split; [reflexivity|lia].
Qed.

Lemma padded_0 c s t : padded c 0 s t -> t = s.
Proof.
  intros (k & -> & Hk). pose proof (zlen_nonneg s). replace k with O by lia. reflexivity.
Qed.

Lemma padded_neg c s t w : w <= 0 -> padded c w s t -> t = s.
Proof.
  intros Hw (k & -> & Hk). pose proof (zlen_nonneg s). replace k with O by lia. reflexivity.
Qed.

Lemma itos_spec w v : int_width w -> - 2 ^ (w - 1) < v < 2 ^ (w - 1) ->
  exists s, itos w v = Ok s /\ int_numeral s v.
Proof.
  intros Hw Hv. destruct (itos_with_spec w v [48] 0 Hw Hv ltac:(lia)) as (s & t & Ht & Hn & Hp); [tauto|].
  cbn in Hp. exists t. split; [exact Ht|]. destruct Hp as [[_ Hp]|(s' & t' & -> & -> & Hp)].
  - apply padded_0 in Hp. now subst t.
  - apply padded_neg in Hp; [|lia]. now subst t'.
Qed.

Lemma utos_plain w v : int_width w -> 0 <= v < 2 ^ w ->
  exists s, utos w v = Ok s /\ numeral 10 dec_char s v.
Proof.
  intros Hw Hv. apply int_width_bound in Hw. pose proof (pow_bound w Hw) as (Hp & Hp2 & Hp3).
  unfold utos, utos_with, uwrap. rewrite Z.mod_small by lia.
  destruct (utos_spec v [48] 0) as (s & t & Ht & Hn & Hp'); [lia|lia|tauto|].
  apply padded_0 in Hp'. subst t. eauto.
Qed.

(** Canonical numerals are unique. *)
Lemma numeral_digits s n : numeral 10 dec_char s n -> Forall is_digit s /\ s <> [] /\ dec_value s = n.
Proof.
  intros (ds & Hf & Hd & Hv & _). split; [|split].
  - clear - Hf. induction Hf; constructor; auto. unfold dec_char, is_digit in *. lia.
  - intros ->. inversion Hf; subst. congruence.
  - rewrite <- Hv. unfold dec_value, value_in. clear - Hf.
    assert (H : forall a, fold_left (fun a0 d : Z => 10 * a0 + (d - 48)) s a = fold_left (fun a0 d : Z => 10 * a0 + d) ds a).
    { induction Hf as [|c d s ds Hc Hf IH]; intros a; cbn [fold_left]; [reflexivity|].
      rewrite IH. f_equal. unfold dec_char in Hc. lia. }
    apply H.
Qed.

Lemma int_numeral_text s n : int_numeral s n -> int_text s n.
Proof.
  intros [[Hn Hs]|(Hn & s' & -> & Hs)]; apply numeral_digits in Hs as (Ha & Hb & Hc).
  - exists [], [], s. repeat split; auto.
  - exists [45], [], s'. repeat split; auto. lia.
Qed.

Lemma int_text_fun s n m : int_text s n -> int_text s m -> n = m.
Proof.
  intros (sg & sp & ds & -> & Hsg & Hsp & Hne & Hds & ->) (sg' & sp' & ds' & He & Hsg' & Hsp' & Hne' & Hds' & ->).
  assert (Hstart : forall sp ds, Forall (fun c => c = 32) sp -> Forall is_digit ds -> ds <> [] ->
            forall r, sp ++ ds <> 45 :: r).
  { intros sp0 ds0 H1 H2 H3 r Hr. destruct sp0; cbn in Hr.
    - subst ds0. inversion H2 as [|? ? Hd _]; subst. unfold is_digit in Hd. lia.
    - injection Hr as -> _. inversion H1; subst. lia. }
  assert (Hcore : forall sp ds sp' ds', sp ++ ds = sp' ++ ds' ->
            Forall (fun c => c = 32) sp -> Forall is_digit ds -> ds <> [] ->
            Forall (fun c => c = 32) sp' -> Forall is_digit ds' -> ds' <> [] -> ds = ds').
  { intros sp0 ds0 sp1 ds1 E H1 H2 H3 H4 H5 H6. destruct ds1 as [|d1 ds1]; [congruence|].
    inversion H5 as [|? ? Hd1 _]; subst. unfold is_digit in Hd1.
    destruct (blanks_digits_unique sp0 ds0 sp1 d1 ds1) as [_ ?]; auto. lia. }
  destruct Hsg as [->| ->], Hsg' as [->| ->]; cbn [app] in He.
  - rewrite (Hcore _ _ _ _ He); auto.
  - now apply Hstart in He.
  - symmetry in He. now apply Hstart in He.
  - injection He as He. rewrite (Hcore _ _ _ _ He); auto.
Qed.

Lemma to_int_itos w n : int_width w -> - 2 ^ (w - 1) < n < 2 ^ (w - 1) -> Z.abs n <= 2147483649 ->
  exists s, itos w n = Ok s /\ to_int s = Ok n.
Proof.
  intros Hw Hn Hb. destruct (itos_spec w n Hw Hn) as (s & Hs & Hnum). exists s. split; [assumption|].
  apply int_numeral_text in Hnum. destruct (to_int_spec s) as [(m & Hm & _ & ->)|[Hno _]].
  - f_equal. eapply int_text_fun; eauto.
  - exfalso. apply Hno. eauto.
Qed.

Lemma to_int_itos_large w n : int_width w -> - 2 ^ (w - 1) < n < 2 ^ (w - 1) -> 2147483649 < Z.abs n ->
  exists s, itos w n = Ok s /\ to_int s = Throw.
Proof.
  intros Hw Hn Hb. destruct (itos_spec w n Hw Hn) as (s & Hs & Hnum). exists s. split; [assumption|].
  apply int_numeral_text in Hnum. destruct (to_int_spec s) as [(m & Hm & Hb' & _)|[_ ->]]; [|reflexivity].
  assert (n = m) by (eapply int_text_fun; eauto). lia.
Qed.

(** * sprintf *)

Section sprintf_proof.
Variable ftos : Z -> Z -> list Z -> Z -> Z -> list Z.

Lemma digit_value_snoc ds d : digit_value (ds ++ [d]) = 10 * digit_value ds + (d - 48).
Proof. unfold digit_value. now rewrite fold_left_app. Qed.

Lemma digit_value_acc ds : forall a, fold_left (fun a c => 10 * a + (c - 48)) ds a = a * 10 ^ zlen ds + digit_value ds.
Proof.
  induction ds as [|d ds IH] using rev_ind; intros a.
  - cbn. lia.
  - rewrite fold_left_app, digit_value_snoc. cbn [fold_left]. rewrite IH, zlen_app, zlen_cons, zlen_nil.
    rewrite Z.pow_add_r by (try apply zlen_nonneg; lia). lia.
Qed.

Lemma digit_value_pos ds : digit_text ds -> 0 <= digit_value ds.
Proof.
  induction ds as [|d ds IH] using rev_ind; intros H; [cbn; lia|].
  apply Forall_app in H as [H1 H2]. inversion H2; subst. rewrite digit_value_snoc. specialize (IH H1). lia.
Qed.

Lemma width_loop_spec fuel : forall pre ds c suf w,
  digit_text ds -> ~ (48 <= c <= 57) -> 0 <= w ->
  fold_left (fun a c => 10 * a + (c - 48)) ds w < 256 ->
  (length ds < fuel)%nat ->
  width_loop fuel (pre ++ ds ++ c :: suf) (zlen pre) w =
    Ok (zlen pre + zlen ds, fold_left (fun a c => 10 * a + (c - 48)) ds w).
Proof.
  induction fuel as [|fuel IH]; intros pre ds c suf w Hds Hc Hw Hlt Hf; [lia|]. cbn [width_loop].
  destruct ds as [|d ds].
  - cbn [app fold_left]. rewrite at_app_mid. cbn [bind].
    replace ((c <? 48) || (57 <? c)) with true by lia. rewrite zlen_nil. do 2 f_equal. lia.
  - cbn [app]. rewrite at_app_mid. cbn [bind]. inversion Hds as [|? ? Hd Hds']; subst.
    replace ((d <? 48) || (57 <? d)) with false by lia.
    cbn [fold_left] in *.
    assert (Hbig : 10 * w + (d - 48) < 256).
    { rewrite digit_value_acc in Hlt. pose proof (digit_value_pos ds Hds').
      pose proof (Z.pow_pos_nonneg 10 (zlen ds) ltac:(lia) (zlen_nonneg ds)). nia. }
    unfold u8. rewrite (Z.mod_small (w * 10)) by lia. rewrite (Z.mod_small (d - 48)) by lia.
    rewrite Z.mod_small by lia.
    specialize (IH (pre ++ [d]) ds c suf (10 * w + (d - 48)) Hds' Hc ltac:(lia) Hlt ltac:(cbn in Hf; lia)).
    rewrite zlen_app, zlen_cons, zlen_nil, <- !app_assoc in IH. cbn [app] in IH.
    replace (zlen pre + 1) with (zlen pre + (1 + 0)) by lia. replace (w * 10 + (d - 48)) with (10 * w + (d - 48)) by lia.
    rewrite IH, zlen_cons. do 2 f_equal. lia.
Qed.

Lemma ascii1_48 : ascii1 [48] = 48. Proof. reflexivity. Qed.

Lemma render_spec zero width conv arg precision :
  printable zero width conv arg -> 0 <= width < 256 ->
  exists out, render ftos conv arg (if zero then [48] else [32]) width precision = Ok out /\
    shown zero width conv arg out.
Proof.
  intros Hp Hw.
  assert (Hfill : ascii1 (if zero then [48] else [32]) = if zero then 48 else 32) by now destruct zero.
  destruct arg as [w v|w v|s|b| |b v|]; cbn [printable] in Hp; try contradiction.
  - destruct Hp as (Hiw & Hv & Hc & Hmin & Hz).
    pose proof (int_width_bound w Hiw) as Hwb. pose proof (pow_bound w Hwb) as (Hp1 & Hp2 & Hp3).
    pose proof (Z.mod_pos_bound v (2 ^ w) ltac:(lia)) as Hmod.
    assert (Hmz : v mod 2 ^ w <> 0 \/ v = 0).
    { destruct (Z.eq_dec v 0); [now right|left]. intros E. destruct (Z_lt_dec v 0).
      - rewrite <- (Z.mod_add v 1) in E by lia. rewrite Z.mod_small in E by lia. lia.
      - rewrite Z.mod_small in E by lia. lia. }
    cbn in Hc. destruct Hc as [<-|[<-|[<-|[<-|[]]]]].
    + destruct (itos_with_spec w v (if zero then [48] else [32]) width Hiw) as (s & t & Ht & Hn & Hpd).
      { assert (v <> - 2 ^ (w - 1)) by (apply Hmin; cbn; tauto). lia. }
      { lia. }
      { rewrite Hfill. assert (v <> 0 \/ zero = true \/ width = 0) as [H|[->|H]] by (apply Hz; cbn; tauto); tauto. }
      exists t. split; [exact Ht|]. left. split; [reflexivity|]. exists s. split; [assumption|].
      now destruct zero.
    + destruct (hex_lo_spec (v mod 2 ^ w) (if zero then [48] else [32]) width) as (s & t & Ht & Hn & Hpd).
      { lia. } { lia. }
      { rewrite Hfill. assert (v <> 0 \/ zero = true \/ width = 0) as [H|[->|H]] by (apply Hz; cbn; tauto); tauto. }
      exists t. split; [exact Ht|]. right; left. split; [reflexivity|]. exists s. rewrite Hfill in Hpd. auto.
    + destruct (hex_up_spec (v mod 2 ^ w) (if zero then [48] else [32]) width) as (s & t & Ht & Hn & Hpd).
      { lia. } { lia. }
      { rewrite Hfill. assert (v <> 0 \/ zero = true \/ width = 0) as [H|[->|H]] by (apply Hz; cbn; tauto); tauto. }
      exists t. split; [exact Ht|]. right; right; left. split; [reflexivity|]. exists s. rewrite Hfill in Hpd. auto.
    + destruct (itos_spec w v Hiw) as (s & Hs & Hn).
      { assert (v <> - 2 ^ (w - 1)) by (apply Hmin; cbn; tauto). lia. }
      exists s. split; [exact Hs|]. right; right; right. auto.
  - destruct Hp as (Hiw & Hv & Hc & Hz).
    pose proof (int_width_bound w Hiw) as Hwb. pose proof (pow_bound w Hwb) as (Hp1 & Hp2 & Hp3).
    assert (Hmod : v mod 2 ^ w = v) by (apply Z.mod_small; lia).
    assert (Hside : In conv (bs "dxX") -> v <> 0 \/ width = 0 \/ ascii1 (if zero then [48] else [32]) = 48).
    { intros Hx. rewrite Hfill. destruct (Hz Hx) as [H|[->|H]]; tauto. }
    destruct Hc as [Hc|[-> ->]].
    + cbn in Hc. destruct Hc as [<-|[<-|[<-|[<-|[]]]]].
      * destruct (utos_spec v (if zero then [48] else [32]) width) as (s & t & Ht & Hn & Hpd);
          [lia|lia|apply Hside; cbn; tauto|].
        exists t. rewrite Hfill in Hpd. split; [|left; eauto].
        cbn [render Z.eqb Pos.eqb]. unfold utos_with, uwrap. rewrite Hmod. exact Ht.
      * destruct (hex_lo_spec v (if zero then [48] else [32]) width) as (s & t & Ht & Hn & Hpd);
          [lia|lia|apply Hside; cbn; tauto|].
        exists t. rewrite Hfill in Hpd. split; [|right; left; eauto].
        cbn [render Z.eqb Pos.eqb]. unfold utos_hex_with, uwrap. rewrite Hmod. exact Ht.
      * destruct (hex_up_spec v (if zero then [48] else [32]) width) as (s & t & Ht & Hn & Hpd);
          [lia|lia|apply Hside; cbn; tauto|].
        exists t. rewrite Hfill in Hpd. split; [|right; right; left; eauto].
        cbn [render Z.eqb Pos.eqb]. unfold utos_hex_upper_with, uwrap. rewrite Hmod. exact Ht.
      * destruct (utos_plain w v Hiw Hv) as (s & Hs & Hn). exists s. split; [exact Hs|].
        right; right; right; left. auto.
    + exists [v]. split; [reflexivity|]. do 4 right. auto.
  - cbn in Hp. exists s. destruct Hp as [<-|[<-|[]]]; (split; [reflexivity|]); split; auto.
  - subst conv. eexists. split; [reflexivity|]. split; reflexivity.
  - subst conv. eexists. split; [reflexivity|]. split; reflexivity.
Qed.

Lemma sprintf_lit fuel : forall s pre suf args k result,
  ~ In 37 s -> 
  sprintf_loop ftos (length s + fuel) (pre ++ s ++ suf) args (zlen pre) k result =
  sprintf_loop ftos fuel (pre ++ s ++ suf) args (zlen pre + zlen s) k (result ++ s).
Proof.
  induction s as [|c s IH]; intros pre suf args k result Hs.
  - cbn [app length Nat.add]. rewrite zlen_nil, app_nil_r. f_equal. lia.
  - cbn [length Nat.add sprintf_loop app]. rewrite zlen_app, zlen_cons. pose proof (zlen_nonneg (s ++ suf)).
    replace (zlen pre <? zlen pre + (1 + zlen (s ++ suf))) with true by lia.
    rewrite at_app_mid. cbn [bind].
    assert (c <> 37) by (intros ->; apply Hs; now left).
    replace (c =? 37) with false by lia. cbn [negb].
    specialize (IH (pre ++ [c]) suf args k (result ++ [c])).
    rewrite zlen_app, zlen_cons, zlen_nil, <- !app_assoc in IH. cbn [app] in IH.
    replace (zlen pre + 1) with (zlen pre + (1 + 0)) by lia. rewrite IH.
    + f_equal. rewrite zlen_cons. lia.
    + intros Hi. apply Hs. now right.
Qed.

Lemma sprintf_loop_items : forall its args, all_printable its args -> Forall item_ok its ->
  forall pre pargs fuel result,
  (length (concat (map item_text its)) < fuel)%nat ->
  exists out, printed its args out /\
    sprintf_loop ftos fuel (pre ++ concat (map item_text its)) (pargs ++ args) (zlen pre) (zlen pargs) result =
      Ok (result ++ out).
Proof.
  intros its args Hap. induction Hap as [args|s its args Hap IH|its args Hap IH|zero width conv its arg args Hpr Hap IH];
    intros Hok pre pargs fuel result Hf.
  - cbn [map concat]. exists []. split; [constructor|]. rewrite app_nil_r. destruct fuel; [cbn in Hf; lia|].
    cbn [sprintf_loop]. rewrite !app_nil_r. now rewrite Z.ltb_irrefl.
  - inversion Hok as [|? ? Hi Hok']; subst. cbn [map concat item_text item_ok] in *.
    rewrite app_length in Hf. replace fuel with (length s + (fuel - length s))%nat by lia.
    rewrite sprintf_lit by assumption.
    destruct (IH Hok' (pre ++ s) pargs (fuel - length s)%nat (result ++ s) ltac:(lia)) as (out & Hout & Hrun).
    rewrite zlen_app, <- !app_assoc in Hrun. exists (s ++ out). split; [now constructor|].
    exact Hrun.
  - inversion Hok as [|? ? Hi Hok']; subst. cbn [map concat item_text] in *.
    change (bs "%%") with [37; 37] in *. cbn [app length] in *.
    destruct fuel as [|fuel]; [lia|]. cbn [sprintf_loop].
    rewrite zlen_app, !zlen_cons. set (T := concat (map item_text its)) in *. pose proof (zlen_nonneg T).
    replace (zlen pre <? zlen pre + (1 + (1 + zlen T))) with true by lia.
    rewrite at_app_mid. cbn [bind]. replace (37 =? 37) with true by reflexivity. cbn [negb].
    replace (zlen pre + 1 =? zlen pre + (1 + (1 + zlen T))) with false by lia.
    assert (HE : pre ++ 37 :: 37 :: T = (pre ++ [37]) ++ 37 :: T) by now rewrite <- app_assoc.
    assert (HL : zlen pre + 1 = zlen (pre ++ [37])) by (rewrite zlen_app; reflexivity).
    rewrite HE, HL, at_app_mid. cbn [bind]. replace (37 =? 48) with false by reflexivity.
    pose proof (width_loop_spec (S (length ((pre ++ [37]) ++ 37 :: T))) (pre ++ [37]) [] 37 T 0) as Hwl.
    cbn [app fold_left] in Hwl. rewrite Hwl; [|constructor|lia|lia|lia|rewrite !app_length; cbn; lia].
    cbn [bind]. rewrite zlen_nil, Z.add_0_r.
    rewrite <- HL.
    replace (zlen pre + 1 <? zlen pre + (1 + (1 + zlen T))) with true by lia.
    rewrite HL, at_app_mid. cbn [bind]. replace (37 =? 46) with false by reflexivity. cbn [bind].
    rewrite at_app_mid. cbn [bind]. replace (37 =? 37) with true by reflexivity.
    destruct (IH Hok' (pre ++ [37; 37]) pargs fuel (result ++ [37]) ltac:(lia)) as (out & Hout & Hrun).
    exists (37 :: out). split; [now constructor|].
    rewrite <- !app_assoc in *. cbn [app] in *. rewrite <- Hrun. f_equal.
    rewrite !zlen_app. cbn. lia.
  - inversion Hok as [|? ? Hi Hok']; subst. cbn [map concat item_text item_ok] in *.
    destruct Hi as (Hdt & Hdv & Hconv & Hhd). set (T := concat (map item_text its)) in *.
    pose proof (digit_value_pos _ Hdt) as Hdp.
    assert (Hcn : ~ (48 <= conv <= 57) /\ conv <> 37 /\ conv <> 46 /\ is_conv conv = true).
    { cbn in Hconv. destruct Hconv as [<-|[<-|[<-|[<-|[<-|[<-|[]]]]]]]; repeat split; try lia; reflexivity. }
    destruct Hcn as (Hcn & Hc37 & Hc46 & Hisc).
    destruct fuel as [|fuel]; [lia|]. cbn [sprintf_loop].
    set (Z0 := if zero then [48] else []) in *.
    replace (([37] ++ Z0 ++ width ++ [conv]) ++ T) with (37 :: Z0 ++ width ++ conv :: T) in *
      by (cbn [app]; now rewrite <- !app_assoc).
    assert (Htail : exists d rest, Z0 ++ width ++ conv :: T = d :: rest /\ (d =? 48) = zero).
    { subst Z0. destruct zero; [cbn; eauto|]. destruct width as [|x width]; cbn [app].
      - exists conv, T. split; [reflexivity|]. lia.
      - exists x. eexists. split; [reflexivity|]. cbn in Hhd. specialize (Hhd eq_refl). lia. }
    destruct Htail as (d & rest & Hd & Hd48).
    pose proof (zlen_nonneg rest).
    assert (HLen : zlen (pre ++ 37 :: Z0 ++ width ++ conv :: T) = zlen pre + (1 + (1 + zlen rest)))
      by (rewrite Hd, zlen_app, !zlen_cons; reflexivity).
    rewrite HLen.
    replace (zlen pre <? zlen pre + (1 + (1 + zlen rest))) with true by lia.
    rewrite at_app_mid. cbn [bind]. replace (37 =? 37) with true by reflexivity. cbn [negb].
    replace (zlen pre + 1 =? zlen pre + (1 + (1 + zlen rest))) with false by lia.
    assert (HL : zlen pre + 1 = zlen (pre ++ [37])) by (rewrite zlen_app; reflexivity).
    assert (Hat : at_ (pre ++ 37 :: Z0 ++ width ++ conv :: T) (zlen pre + 1) = Ok d).
    { rewrite Hd, HL. replace (pre ++ 37 :: d :: rest) with ((pre ++ [37]) ++ d :: rest) by now rewrite <- app_assoc.
      apply at_app_mid. }
    rewrite Hat. cbn [bind]. rewrite Hd48.
    assert (HS : pre ++ 37 :: Z0 ++ width ++ conv :: T = (pre ++ [37] ++ Z0) ++ width ++ conv :: T)
      by now rewrite <- !app_assoc.
    assert (Hi2 : (if zero then zlen pre + 1 + 1 else zlen pre + 1) = zlen (pre ++ [37] ++ Z0)).
    { rewrite !zlen_app. subst Z0. destruct zero; rewrite !zlen_cons, ?zlen_nil; lia. }
    assert (Hfl : (if zero then [48] else [32]) = if zero then [48] else [32]) by reflexivity.
    rewrite Hi2. 
    assert (Hlen : zlen pre + (1 + (1 + zlen rest)) = zlen (pre ++ [37] ++ Z0) + zlen width + 1 + zlen T).
    { rewrite <- (zlen_cons d rest), <- Hd. rewrite !zlen_app, !zlen_cons, zlen_nil. lia. }
    rewrite Hlen. rewrite HS.
    rewrite width_loop_spec; [|assumption|assumption|lia|exact Hdv|rewrite !app_length; cbn; lia].
    cbn [bind]. fold (digit_value width).
    pose proof (zlen_nonneg T).
    replace (zlen (pre ++ [37] ++ Z0) + zlen width <? zlen (pre ++ [37] ++ Z0) + zlen width + 1 + zlen T) with true by lia.
    assert (Hatc : at_ ((pre ++ [37] ++ Z0) ++ width ++ conv :: T) (zlen (pre ++ [37] ++ Z0) + zlen width) = Ok conv).
    { rewrite (app_assoc _ width), <- zlen_app. apply at_app_mid. }
    rewrite Hatc. cbn [bind]. replace (conv =? 46) with false by lia. cbn [bind].
    rewrite Hatc. cbn [bind]. replace (conv =? 37) with false by lia.
    rewrite zlen_app, zlen_cons. pose proof (zlen_nonneg args).
    replace (zlen pargs =? zlen pargs + (1 + zlen args)) with false by lia.
    rewrite Hisc. cbn [negb]. rewrite at_app_mid. cbn [bind].
    destruct (render_spec zero (digit_value width) conv arg 6 Hpr ltac:(lia)) as (o & Ho & Hsh).
    assert (Hfill : (if zero then [48] else [32]) = (if zero then [48] else [32])) by reflexivity.
    rewrite Ho. cbn [bind].
    destruct (IH Hok' ((pre ++ [37] ++ Z0) ++ width ++ [conv]) (pargs ++ [arg]) fuel (result ++ o)) as (out & Hout & Hrun).
    { cbn [length] in Hf. rewrite !app_length in Hf. cbn [length] in Hf. lia. }
    exists (o ++ out). split; [now constructor|].
    rewrite <- !app_assoc in Hrun. cbn [app] in Hrun. rewrite <- !app_assoc. cbn [app].
    rewrite <- Hrun. f_equal.
    + rewrite !zlen_app, !zlen_cons, !zlen_app, !zlen_cons, !zlen_nil. lia.
    + rewrite zlen_app. reflexivity.
Qed.

Lemma sprintf_items its args : all_printable its args -> Forall item_ok its ->
  exists out, sprintf ftos (concat (map item_text its)) args = Ok out /\ printed its args out.
Proof.
  intros Ha Hi. unfold sprintf.
  destruct (sprintf_loop_items its args Ha Hi [] [] (S (length (concat (map item_text its)))) [] ltac:(lia)) as (out & Ho & Hr).
  exists out. auto.
Qed.
End sprintf_proof.

(** Numerals are unique. *)
Section value_unique.
  Variables (base : Z).
  Hypothesis Hbase : 2 <= base.

  Lemma value_in_nonneg ds : Forall (fun d => 0 <= d < base) ds -> 0 <= value_in base ds.
  Proof using Hbase.
    induction ds as [|d ds IH] using rev_ind; intros H; [cbn; lia|].
    apply Forall_app in H as [H1 H2]. inversion H2; subst. rewrite value_in_snoc. specialize (IH H1). nia.
  Qed.

  Lemma value_in_pos ds : Forall (fun d => 0 <= d < base) ds -> ds <> [] -> hd 0 ds <> 0 -> 0 < value_in base ds.
  Proof using Hbase.
    induction ds as [|d ds IH] using rev_ind; intros H Hne Hh; [congruence|].
    apply Forall_app in H as [H1 H2]. inversion H2; subst. rewrite value_in_snoc.
    destruct ds as [|x ds]; [cbn in *; lia|].
    assert (0 < value_in base (x :: ds)) by (apply IH; [assumption|discriminate|exact Hh]). nia.
  Qed.

  Lemma digits_unique ds : forall ds', Forall (fun d => 0 <= d < base) ds -> Forall (fun d => 0 <= d < base) ds' ->
    (ds <> [] -> hd 0 ds <> 0) -> (ds' <> [] -> hd 0 ds' <> 0) -> value_in base ds = value_in base ds' -> ds = ds'.
  Proof using Hbase.
    induction ds as [|d ds IH] using rev_ind; intros ds' H1 H2 Hh Hh' Hv.
    - destruct ds' as [|x ds']; [reflexivity|]. exfalso.
      assert (0 < value_in base (x :: ds')) by (apply value_in_pos; [assumption|discriminate|apply Hh'; discriminate]).
      cbn in Hv. unfold value_in in *. cbn in *. lia.
    - destruct ds' as [|d' ds' _] using rev_ind.
      + exfalso. assert (0 < value_in base (ds ++ [d])).
        { apply value_in_pos; [assumption|now destruct ds|apply Hh; now destruct ds]. }
        rewrite Hv in H. cbn in H. lia.
      + apply Forall_app in H1 as [H1 H1']. apply Forall_app in H2 as [H2 H2'].
        inversion H1' as [|? ? Hd _]; inversion H2' as [|? ? Hd' _]; subst.
        rewrite !value_in_snoc in Hv.
        assert (d = d' /\ value_in base ds = value_in base ds') as [-> He].
        { assert (value_in base ds = value_in base ds') as E; [|split; [rewrite E in Hv; lia|exact E]].
          rewrite (Z.div_unique (base * value_in base ds + d) base (value_in base ds) d ltac:(lia) eq_refl).
          symmetry. apply (Z.div_unique _ base _ d'); lia. }
        f_equal. apply IH; auto.
        * intros Hn. destruct ds; [congruence|]. apply Hh. discriminate.
        * intros Hn. destruct ds'; [congruence|]. apply Hh'. discriminate.
  Qed.

End value_unique.

Section numeral_unique.
  Variables (base : Z) (char : Z -> Z -> Prop).
  Hypothesis Hbase : 2 <= base.
  Hypothesis Hrange : forall c d, char c d -> 0 <= d < base.
  Hypothesis Hinj : forall c c' d, char c d -> char c' d -> c = c'.

  Lemma Forall2_range s ds : Forall2 char s ds -> Forall (fun d => 0 <= d < base) ds.
  Proof using Hrange. induction 1; constructor; eauto. Qed.

  Lemma Forall2_inj s s' ds : Forall2 char s ds -> Forall2 char s' ds -> s = s'.
  Proof using Hinj.
    intros H. revert s'. induction H; intros s' H'; inversion H'; subst; [reflexivity|]. f_equal; eauto.
  Qed.

  Lemma numeral_unique s s' n : numeral base char s n -> numeral base char s' n -> s = s'.
  Proof using Hbase Hrange Hinj.
    intros (ds & Hf & Hne & Hv & Hh) (ds' & Hf' & Hne' & Hv' & Hh').
    pose proof (Forall2_range _ _ Hf) as Hr. pose proof (Forall2_range _ _ Hf') as Hr'.
    assert (H0 : value_in base [0] = 0) by (unfold value_in; cbn [fold_left]; lia).
    assert (ds = ds').
    { destruct Hh as [Hh| ->], Hh' as [Hh'| ->].
      - apply (digits_unique base Hbase); auto. congruence.
      - pose proof (value_in_pos base Hbase ds Hr Hne Hh). lia.
      - pose proof (value_in_pos base Hbase ds' Hr' Hne' Hh'). lia.
      - reflexivity. }
    subst ds'. eapply Forall2_inj; eauto.
  Qed.
End numeral_unique.

Lemma dec_numeral_unique s s' n : numeral 10 dec_char s n -> numeral 10 dec_char s' n -> s = s'.
Proof. apply numeral_unique; unfold dec_char; intros; lia. Qed.

Lemma int_numeral_unique s s' n : int_numeral s n -> int_numeral s' n -> s = s'.
Proof.
  intros [[H1 H2]|(H1 & t & -> & H2)] [[H1' H2']|(H1' & t' & -> & H2')]; try lia.
  - eapply dec_numeral_unique; eauto.
  - f_equal. eapply dec_numeral_unique; eauto.
Qed.

Lemma lower_numeral_unique s s' n : numeral 16 lower_hex_char s n -> numeral 16 lower_hex_char s' n -> s = s'.
Proof. apply numeral_unique; unfold lower_hex_char; intros; lia. Qed.

Lemma upper_numeral_unique s s' n : numeral 16 upper_hex_char s n -> numeral 16 upper_hex_char s' n -> s = s'.
Proof. apply numeral_unique; unfold upper_hex_char; intros; lia. Qed.
