(** Proofs about constant expressions. *)
From Verif Require Import Base Base_lemmas Fold_model Fold_spec.

(** * Reading *)
Lemma scan_digits_all base acc s :
  base = 10 -> Forall digit s ->
  scan_digits base acc s = (fold_left (fun a c => 10 * a + (c - 48)) s acc, []).
Proof.
  intros ->. revert acc. induction s as [|c t IH]; intros acc Hs; [reflexivity|].
  inversion Hs as [|? ? Hc Ht]; subst. cbn [scan_digits fold_left]. unfold digit in Hc.
  replace ((48 <=? c) && (c <? 48 + 10)) with true by lia.
  rewrite IH by assumption. f_equal. f_equal. lia.
Qed.

Lemma dec_value_acc s : Forall digit s -> forall a, 0 <= a -> 0 <= fold_left (fun a c => 10 * a + (c - 48)) s a.
Proof.
  induction 1 as [|c t Hc _ IH]; intros a Ha; [exact Ha|].
  cbn [fold_left]. apply IH. unfold digit in Hc. lia.
Qed.
Lemma dec_value_nonneg s : Forall digit s -> 0 <= dec_value s.
Proof. intros H. now apply dec_value_acc. Qed.

Lemma scan_base base s : base = 0 \/ base = 10 -> Forall digit s -> s <> [] ->
  (hd 48 s <> 48 \/ s = [48]) ->
  scan_digits (base_of base s) 0 s = (dec_value s, []).
Proof.
  intros Hb Hs Hne Hp. destruct s as [|c t]; [contradiction|]. cbn [hd] in Hp.
  destruct Hp as [Hp|Hp].
  - assert (E : base_of base (c :: t) = 10).
    { unfold base_of. destruct Hb as [->| ->]; [|reflexivity]. cbn [Z.eqb].
      destruct c as [|p|p]; try reflexivity.
      do 6 (destruct p; try reflexivity). contradiction. }
    rewrite (scan_digits_all _ 0 (c :: t) E Hs). reflexivity.
  - injection Hp as -> ->. destruct Hb as [->| ->]; reflexivity.
Qed.

Definition minus (s : list Z) : bool := match s with 45 :: _ => true | _ => false end.

Lemma digit_not_minus c t : digit c -> (c :: t) <> 45 :: t.
Proof. unfold digit. intros H E. injection E as ->. lia. Qed.

Lemma scan_number_pos base s : Forall digit s -> s <> [] ->
  scan_number base s = let '(n, r) := scan_digits (base_of base s) 0 s in (false, n, r).
Proof.
  intros Hs Hne. destruct s as [|c t]; [contradiction|].
  inversion Hs as [|? ? Hc _]; subst. unfold digit in Hc. unfold scan_number.
  destruct c as [|p|p]; try reflexivity. do 6 (destruct p; try reflexivity). lia.
Qed.

Lemma plain_pos s : Forall digit s -> s <> [] -> plain s -> hd 48 s <> 48 \/ s = [48].
Proof.
  intros Hs Hne. destruct s as [|c t]; [contradiction|].
  inversion Hs as [|? ? Hc _]; subst. unfold digit in Hc. unfold plain.
  destruct c as [|p|p]; try (cbv zeta; tauto). do 6 (destruct p; try (cbv zeta; tauto)). lia.
Qed.
Lemma plain_pos_intro s : Forall digit s -> s <> [] -> hd 48 s <> 48 \/ s = [48] -> plain s.
Proof.
  intros Hs Hne. destruct s as [|c t]; [contradiction|].
  inversion Hs as [|? ? Hc _]; subst. unfold digit in Hc. unfold plain.
  destruct c as [|p|p]; try (cbv zeta; tauto). do 6 (destruct p; try (cbv zeta; tauto)). lia.
Qed.

(** The sign flag, the magnitude and nothing left over. *)
Lemma scan_number_plain base s v :
  base = 0 \/ base = 10 -> number s v -> plain s ->
  exists neg n, scan_number base s = (neg, n, []) /\ 0 <= n /\ v = (if neg then - n else n).
Proof.
  intros Hb [(Hne & Hs & ->)|(t & -> & Hne & Hs & ->)] Hp.
  - apply plain_pos in Hp; try assumption. rewrite scan_number_pos by assumption.
    rewrite scan_base by assumption. exists false, (dec_value s).
    split; [reflexivity|]. split; [now apply dec_value_nonneg|reflexivity].
  - unfold plain in Hp. cbv zeta in Hp. unfold scan_number.
    rewrite scan_base by assumption. exists true, (dec_value t).
    split; [reflexivity|]. split; [now apply dec_value_nonneg|reflexivity].
Qed.

Lemma strtoll_plain base s v :
  base = 0 \/ base = 10 -> number s v -> plain s -> strtoll base s = (clamp64 v, []).
Proof.
  intros Hb Hn Hp. destruct (scan_number_plain base s v Hb Hn Hp) as (neg & n & E & Hn0 & ->).
  unfold strtoll. rewrite E. reflexivity.
Qed.

Lemma clamp64_id v : int64 v -> clamp64 v = v.
Proof.
  unfold int64, clamp64. change (2^63) with 9223372036854775808. lia.
Qed.

Lemma strtoull_plain s v :
  number s v -> plain s -> 0 <= v < 2^64 -> strtoull 0 s = (v, []).
Proof.
  intros Hn Hp Hv. destruct (scan_number_plain 0 s v (or_introl eq_refl) Hn Hp) as (neg & n & E & Hn0 & ->).
  unfold strtoull. rewrite E. change (2^64) with 18446744073709551616 in *.
  destruct neg.
  - assert (n = 0) by lia. subst. reflexivity.
  - destruct (Z.leb_spec 18446744073709551616 n); [lia|reflexivity].
Qed.

(** * Printing *)
Lemma print_digits_ok f : forall n acc, 0 <= n < 10 ^ Z.of_nat (S f) ->
  exists ds, print_digits (S f) n acc = ds ++ acc /\ ds <> [] /\ Forall digit ds /\
    dec_value ds = n /\ (hd 48 ds <> 48 \/ ds = [48]) /\ (n <> 0 -> hd 48 ds <> 48).
Proof.
  induction f as [|f IH]; intros n acc Hn.
  - change (10 ^ Z.of_nat 1) with 10 in Hn. cbn [print_digits].
    replace (n <? 10) with true by lia. exists [48 + n mod 10].
    rewrite Z.mod_small by lia. unfold dec_value, digit. cbn [fold_left app hd].
    split; [reflexivity|]. split; [discriminate|].
    split; [repeat constructor; lia|]. split; [lia|].
    destruct (Z.eq_dec n 0) as [->|]; [split; [right; reflexivity|intros; lia]|].
    split; [left; lia|intros; lia].
  - assert (E : 10 ^ Z.of_nat (S (S f)) = 10 * 10 ^ Z.of_nat (S f)).
    { rewrite (Nat2Z.inj_succ (S f)), Z.pow_succ_r by lia. reflexivity. }
    rewrite E in Hn. clear E.
    remember (S f) as g eqn:Hg. cbn [print_digits]. destruct (Z.ltb_spec n 10).
    + exists [48 + n mod 10].
      rewrite Z.mod_small by lia. unfold dec_value, digit. cbn [fold_left app hd].
      split; [reflexivity|]. split; [discriminate|].
      split; [repeat constructor; lia|]. split; [lia|].
      destruct (Z.eq_dec n 0) as [->|]; [split; [right; reflexivity|intros; lia]|].
      split; [left; lia|intros; lia].
    + assert (Hq : 0 <= n / 10 < 10 ^ Z.of_nat g).
      { split; [apply Z.div_pos; lia|]. apply Z.div_lt_upper_bound; lia. }
      destruct (IH (n / 10) ((48 + n mod 10) :: acc) Hq) as (ds & E & Hne & Hd & Hv & _ & Hz).
      assert (Hnz : n / 10 <> 0).
      { pose proof (Z.div_mod n 10). pose proof (Z.mod_pos_bound n 10). lia. }
      specialize (Hz Hnz).
      exists (ds ++ [48 + n mod 10]). rewrite E.
      pose proof (Z.mod_pos_bound n 10 ltac:(lia)).
      assert (Hh : hd 48 (ds ++ [48 + n mod 10]) <> 48).
      { destruct ds; [contradiction|exact Hz]. }
      split; [rewrite <- app_assoc; reflexivity|].
      split; [destruct ds; discriminate|].
      split; [apply Forall_app; split; [assumption|repeat constructor; unfold digit; lia]|].
      split; [|split; [left; exact Hh|intros _; exact Hh]].
      unfold dec_value in *. rewrite fold_left_app, Hv. cbn [fold_left].
      pose proof (Z.div_mod n 10). lia.
Qed.

Lemma print_ld_ok v : int64 v -> number (print_ld v) v /\ plain (print_ld v).
Proof.
  intros Hv. unfold int64 in Hv. change (2^63) with 9223372036854775808 in Hv.
  assert (B : 10 ^ Z.of_nat 20 = 100000000000000000000) by reflexivity.
  unfold print_ld. destruct (Z.ltb_spec v 0).
  - destruct (print_digits_ok 19 (- v) [] ltac:(rewrite B; lia)) as (ds & E & Hne & Hd & Hval & Hp & _).
    rewrite E, app_nil_r. split.
    + right. exists ds. split; [reflexivity|]. split; [assumption|]. split; [assumption|]. lia.
    + unfold plain. exact Hp.
  - destruct (print_digits_ok 19 v [] ltac:(rewrite B; lia)) as (ds & E & Hne & Hd & Hval & Hp & _).
    rewrite E, app_nil_r. split.
    + left. split; [assumption|]. split; [assumption|]. lia.
    + now apply plain_pos_intro.
Qed.

(** * The operators *)
Lemma i64_ok v : int64 v -> i64 v = Ok v.
Proof. unfold int64, i64. intros H. replace ((-2^63 <=? v) && (v <? 2^63)) with true by lia. reflexivity. Qed.

Lemma wrap64_id v : int64 v -> wrap64 v = v.
Proof.
  unfold int64, wrap64. intros H. change (2^63) with 9223372036854775808 in *.
  change (2^64) with 18446744073709551616. rewrite Z.mod_small; lia.
Qed.

Lemma fold_bin_ok o a b v :
  op_means o a b v -> int64 v -> (o = OShl \/ o = OShr -> b < 64) ->
  (o = ORem -> int64 (Z.quot a b)) ->
  fold_bin o a b = Ok (Some v).
Proof.
  intros Hm Hv Hsh Hrem. destruct Hm; cbn [fold_bin].
  - rewrite i64_ok by assumption. reflexivity.
  - rewrite i64_ok by assumption. reflexivity.
  - rewrite i64_ok by assumption. reflexivity.
  - replace (b =? 0) with false by lia. rewrite i64_ok by assumption. reflexivity.
  - replace (b =? 0) with false by lia. rewrite i64_ok by auto. cbn [bind].
    do 2 f_equal. pose proof (Z.quot_rem' a b). lia.
  - do 2 f_equal. apply Z.bits_inj'. intros i Hi. rewrite Z.land_spec. symmetry. auto.
  - do 2 f_equal. apply Z.bits_inj'. intros i Hi. rewrite Z.lor_spec. symmetry. auto.
  - do 2 f_equal. apply Z.bits_inj'. intros i Hi. rewrite Z.lxor_spec. symmetry. auto.
  - specialize (Hsh (or_introl eq_refl)).
    replace ((0 <=? b) && (b <? 64)) with true by lia.
    rewrite Z.shiftl_mul_pow2 by assumption. rewrite wrap64_id by assumption. reflexivity.
  - specialize (Hsh (or_intror eq_refl)).
    replace ((0 <=? b) && (b <? 64)) with true by lia.
    rewrite Z.shiftr_div_pow2 by assumption. reflexivity.
Qed.

(** * Equations of the analyser *)
Lemma analyze_Lit k defs busy s : analyze k defs busy (Lit s) = Ok (Lit s).
Proof. destruct k; reflexivity. Qed.
Lemma analyze_Neg k defs busy a : analyze k defs busy (Neg a) = bind (analyze k defs busy a) fold_neg.
Proof. destruct k; reflexivity. Qed.
Lemma analyze_Bnot k defs busy a : analyze k defs busy (Bnot a) = bind (analyze k defs busy a) fold_bnot.
Proof. destruct k; reflexivity. Qed.
Lemma analyze_Bin k defs busy o a b :
  analyze k defs busy (Bin o a b) =
  bind (analyze k defs busy a) (fun a' => bind (analyze k defs busy b) (fun b' => fold_binary o a' b')).
Proof. destruct k; reflexivity. Qed.
Lemma analyze_Const k defs busy x :
  analyze k defs busy (Const x) =
  if existsb (Nat.eqb x) busy then Throw
  else match nth_error defs x with
       | None => Throw
       | Some d => match k with
                   | O => NoFuel
                   | S k' => bind (analyze k' defs (x :: busy) d) (fun r => if is_lit r then Ok r else Throw)
                   end
       end.
Proof. destruct k; reflexivity. Qed.

Lemma busy_spec x busy : existsb (Nat.eqb x) busy = true <-> In x busy.
Proof.
  rewrite existsb_exists. split.
  - intros (y & Hy & E). apply Nat.eqb_eq in E. now subst.
  - intros H. exists x. split; [assumption|apply Nat.eqb_refl].
Qed.

(** * Meanings with the nesting depth of named constants *)
Inductive mn (defs : list expr) : nat -> expr -> Z -> Prop :=
| N_lit s v : number s v -> mn defs 0 (Lit s) v
| N_const n x d v : nth_error defs x = Some d -> mn defs n d v -> mn defs (S n) (Const x) v
| N_neg n e v : mn defs n e v -> mn defs n (Neg e) (- v)
| N_bnot n e v : mn defs n e v -> mn defs n (Bnot e) (- v - 1)
| N_bin n m o a b va vb v : mn defs n a va -> mn defs m b vb -> op_means o va vb v ->
    mn defs (Nat.max n m) (Bin o a b) v.

Lemma means_mn defs e v : means defs e v -> exists n, mn defs n e v.
Proof.
  induction 1 as [| x d v Hd _ [n IH] | e v _ [n IH] | e v _ [n IH] | o a b va vb v _ [n IHa] _ [m IHb] Ho].
  - exists O. now constructor.
  - exists (S n). econstructor; eassumption.
  - exists n. now constructor.
  - exists n. now constructor.
  - exists (Nat.max n m). econstructor; eassumption.
Qed.
Lemma mn_means defs n e v : mn defs n e v -> means defs e v.
Proof. induction 1; econstructor; eassumption. Qed.

Lemma mn_det defs n e v : mn defs n e v -> forall m w, mn defs m e w -> n = m.
Proof.
  induction 1 as [| n x d v Hd _ IH | n e v _ IH | n e v _ IH | n m o a b va vb v _ IHa _ IHb Ho];
    intros m' w Hw; inversion Hw; subst; try reflexivity.
  - f_equal. eapply IH. replace d with d0 by congruence. eassumption.
  - eapply IH. eassumption.
  - eapply IH. eassumption.
  - f_equal; [eapply IHa|eapply IHb]; eassumption.
Qed.

(** Every smaller depth is the depth of some constant. *)
Lemma mn_below defs n e v : mn defs n e v -> forall j, (1 <= j <= n)%nat ->
  exists x w, (x < length defs)%nat /\ mn defs j (Const x) w.
Proof.
  induction 1 as [| n x d v Hd Hm IH | n e v _ IH | n e v _ IH | n m o a b va vb v _ IHa _ IHb Ho];
    intros j Hj; try (now apply IH); [lia| |].
  - destruct (Nat.eq_dec j (S n)) as [->|].
    + exists x, v. split; [apply nth_error_Some; congruence|econstructor; eassumption].
    + apply IH. lia.
  - destruct (Nat.le_gt_cases j n); [apply IHa; lia|apply IHb; lia].
Qed.

Lemma mn_bound defs n e v : mn defs n e v -> (n <= length defs)%nat.
Proof.
  intros Hm.
  assert (H : forall j, (j <= n)%nat -> exists l, length l = j /\ NoDup l /\
            (forall x, In x l -> (x < length defs)%nat) /\
            (forall x, In x l -> exists i w, (1 <= i <= j)%nat /\ mn defs i (Const x) w)).
  { induction j as [|j IH]; intros Hj.
    - exists []. split; [reflexivity|]. split; [constructor|]. split; intros ? [].
    - destruct (IH ltac:(lia)) as (l & Hl & Hnd & Hlt & Hr).
      destruct (mn_below _ _ _ _ Hm (S j) ltac:(lia)) as (x & w & Hx & Hxm).
      exists (x :: l). split; [cbn; lia|]. split; [|split].
      + constructor; [|assumption]. intros Hin. destruct (Hr x Hin) as (i & w' & Hi & Hxi).
        pose proof (mn_det _ _ _ _ Hxm _ _ Hxi). lia.
      + intros y [<-|Hy]; auto.
      + intros y [<-|Hy].
        * exists (S j), w. split; [lia|assumption].
        * destruct (Hr y Hy) as (i & w' & Hi & Hyi). exists i, w'. split; [lia|assumption]. }
  destruct (H n ltac:(lia)) as (l & <- & Hnd & Hlt & _).
  rewrite <- (seq_length (length defs) 0). apply NoDup_incl_length; [assumption|].
  intros x Hx. apply in_seq. specialize (Hlt x Hx). lia.
Qed.

(** * The analyser computes the meaning *)
Lemma number_fun s v w : number s v -> number s w -> v = w.
Proof.
  intros [(Ha & Hb & ->)|(t & -> & Ha & Hb & ->)] [(Hc & Hd & ->)|(u & E & Hc & Hd & ->)]; try reflexivity.
  - subst s. inversion Hb as [|? ? Hx _]. unfold digit in Hx. lia.
  - inversion Hd as [|? ? Hx _]. unfold digit in Hx. lia.
  - injection E as ->. reflexivity.
Qed.

Definition lit_of (v : Z) (r : res expr) : Prop :=
  exists s, r = Ok (Lit s) /\ number s v /\ plain s /\ int64 v.

Lemma lit_of_print v : int64 v -> lit_of v (Ok (Lit (print_ld v))).
Proof. intros H. exists (print_ld v). destruct (print_ld_ok v H). auto. Qed.

Lemma read_back s v : number s v -> plain s -> int64 v -> fst (strtoll 0 s) = v.
Proof.
  intros Hn Hp Hv. rewrite (strtoll_plain 0 s v (or_introl eq_refl) Hn Hp). now apply clamp64_id.
Qed.

Lemma lnot_int64 v : int64 v -> int64 (Z.lnot v).
Proof. unfold int64, Z.lnot. change (2^63) with 9223372036854775808. lia. Qed.

Lemma analyze_ok defs n e v :
  mn defs n e v -> calm defs e -> forall k busy, (n <= k)%nat ->
  (forall x, In x busy -> exists m w, (n < m)%nat /\ mn defs m (Const x) w) ->
  lit_of v (analyze k defs busy e).
Proof.
  induction 1 as [s v Hn | n x d v Hd Hm IH | n e v Hm IH | n e v Hm IH | n m o a b va vb v Hma IHa Hmb IHb Ho];
    intros Hc k busy Hk Hb; inversion Hc; subst.
  - rewrite analyze_Lit. assert (v0 = v) by (eapply number_fun; eassumption). subst v0. exists s. auto.
  - assert (d0 = d) by congruence. subst d0.
    assert (Hnb : existsb (Nat.eqb x) busy = false).
    { apply not_true_is_false. rewrite busy_spec. intros Hin.
      destruct (Hb x Hin) as (m & w & Hlt & Hxm).
      assert (S n = m) by (eapply mn_det; [econstructor; eassumption|exact Hxm]). lia. }
    rewrite analyze_Const, Hnb, Hd. destruct k as [|k]; [lia|].
    destruct (IH ltac:(assumption) k (x :: busy) ltac:(lia)) as (s & E & Hs).
    { intros y [<-|Hy].
      - exists (S n), v. split; [lia|econstructor; eassumption].
      - destruct (Hb y Hy) as (m & w & Hlt & Hym). exists m, w. split; [lia|assumption]. }
    rewrite E. exists s. split; [reflexivity|assumption].
  - rewrite analyze_Neg. destruct (IH ltac:(assumption) k busy Hk Hb) as (s & -> & Hs & Hp & Hv).
    cbn [bind fold_neg]. rewrite (read_back s v) by assumption.
    assert (Hv' : int64 (- v)). { match goal with H : forall v, means _ (Neg _) v -> _ |- _ => apply H end.
      constructor. eapply mn_means; eassumption. }
    rewrite (i64_ok _ Hv'). now apply lit_of_print.
  - rewrite analyze_Bnot. destruct (IH ltac:(assumption) k busy Hk Hb) as (s & -> & Hs & Hp & Hv).
    cbn [bind fold_bnot]. rewrite (read_back s v) by assumption.
    replace (- v - 1) with (Z.lnot v) by (unfold Z.lnot; lia).
    apply lit_of_print. now apply lnot_int64.
  - rewrite analyze_Bin.
    destruct (IHa ltac:(assumption) k busy ltac:(lia)) as (s & -> & Hs & Hp & Hv).
    { intros y Hy. destruct (Hb y Hy) as (j & w & Hlt & Hym). exists j, w. split; [lia|assumption]. }
    destruct (IHb ltac:(assumption) k busy ltac:(lia)) as (t & -> & Ht & Hpt & Hvt).
    { intros y Hy. destruct (Hb y Hy) as (j & w & Hlt & Hym). exists j, w. split; [lia|assumption]. }
    cbn [bind fold_binary]. rewrite (read_back s va), (read_back t vb) by assumption.
    apply mn_means in Hma. apply mn_means in Hmb.
    assert (Hv' : int64 v).
    { match goal with H : forall v, means _ (Bin _ _ _) v -> _ |- _ => apply H end. econstructor; eassumption. }
    rewrite (fold_bin_ok o va vb v); eauto. cbn [bind]. now apply lit_of_print.
Qed.

Lemma analyze_top defs e v : means defs e v -> calm defs e -> lit_of v (analyze (length defs) defs [] e).
Proof.
  intros Hm Hc. destruct (means_mn _ _ _ Hm) as (n & Hn).
  eapply analyze_ok; [eassumption|assumption|eapply mn_bound; eassumption|intros x []].
Qed.

(** * Range check and immediate *)
Lemma range_check_clamp t v : t <> U64 -> int64 v ->
  range_check t v = true <-> in_range t v.
Proof.
  unfold in_range, int64. intros Ht Hv. destruct t; try contradiction; cbn [range_check lowest highest];
    change (2^63) with 9223372036854775808 in *; change (2^31) with 2147483648; change (2^32) with 4294967296;
    change (2^7) with 128; change (2^8) with 256; change (2^15) with 32768; change (2^16) with 65536; lia.
Qed.
Lemma range_check_u64 v : range_check U64 v = true.
Proof.
  cbn [range_check]. change (2^64) with 18446744073709551616.
  pose proof (Z.mod_pos_bound v 18446744073709551616 ltac:(lia)). lia.
Qed.

Lemma infer_plain t s v : number s v -> plain s ->
  infer_literal t s = if range_check t (clamp64 v) then Ok tt else Throw.
Proof.
  intros Hn Hp. unfold infer_literal, atoll.
  rewrite (strtoll_plain 10 s v (or_intror eq_refl) Hn Hp). reflexivity.
Qed.

Lemma linear_plain t s v : number s v -> plain s -> in_range t v -> linear_literal t s = Ok v.
Proof.
  intros Hn Hp Hr. unfold linear_literal. unfold in_range in Hr.
  destruct (is_unsigned t) eqn:Hu.
  - rewrite (strtoull_plain s v Hn Hp); [reflexivity|].
    destruct t; try discriminate; cbn [lowest highest] in Hr;
      change (2^64) with 18446744073709551616 in *; change (2^32) with 4294967296 in *;
      change (2^8) with 256 in *; change (2^16) with 65536 in *; lia.
  - rewrite (strtoll_plain 0 s v (or_introl eq_refl) Hn Hp). rewrite clamp64_id; [reflexivity|].
    unfold int64. destruct t; try discriminate; cbn [lowest highest] in Hr;
      change (2^63) with 9223372036854775808 in *; change (2^31) with 2147483648 in *;
      change (2^7) with 128 in *; change (2^15) with 32768 in *; lia.
Qed.

Lemma literal_in t s v : number s v -> plain s -> in_range t v ->
  bind (infer_literal t s) (fun _ => bind (linear_literal t s) (fun v => Ok (Some v))) = Ok (Some v).
Proof.
  intros Hn Hp Hr. rewrite (infer_plain t s v Hn Hp).
  replace (range_check t (clamp64 v)) with true.
  - cbn [bind]. rewrite (linear_plain t s v) by assumption. reflexivity.
  - symmetry. destruct t eqn:Et; [| | | | | | |apply range_check_u64].
    all: rewrite clamp64_id; [apply range_check_clamp; [discriminate| |assumption]|];
      unfold int64; unfold in_range in Hr; cbn [lowest highest] in Hr;
      change (2^63) with 9223372036854775808 in *; change (2^31) with 2147483648 in *; change (2^32) with 4294967296 in *;
      change (2^7) with 128 in *; change (2^8) with 256 in *; change (2^15) with 32768 in *;
      change (2^16) with 65536 in *; lia.
Qed.

Lemma literal_out t s v (A : Type) (f : unit -> res A) : number s v -> plain s -> ~ in_range t v ->
  t <> U64 -> (t = I64 -> int64 v) -> bind (infer_literal t s) f = Throw.
Proof.
  intros Hn Hp Hr Ht Hi. rewrite (infer_plain t s v Hn Hp).
  replace (range_check t (clamp64 v)) with false; [reflexivity|].
  symmetry. apply not_true_is_false. intros E.
  assert (Hc : int64 (clamp64 v)). { unfold int64, clamp64. change (2^63) with 9223372036854775808. lia. }
  apply range_check_clamp in E; [|assumption|assumption]. apply Hr.
  destruct t; try contradiction; try (rewrite clamp64_id in E by auto; assumption);
    unfold in_range, clamp64 in *; cbn [lowest highest] in *;
      change (2^63) with 9223372036854775808 in *; change (2^31) with 2147483648 in *; change (2^32) with 4294967296 in *;
      change (2^7) with 128 in *; change (2^8) with 256 in *; change (2^15) with 32768 in *;
      change (2^16) with 65536 in *; lia.
Qed.

Lemma constant_ok defs t e v : means defs e v -> calm defs e -> in_range t v ->
  constant defs t e = Ok (Some v).
Proof.
  intros Hm Hc Hr. destruct (analyze_top _ _ _ Hm Hc) as (s & E & Hn & Hp & Hv).
  unfold constant. rewrite E. cbn [bind]. now apply literal_in.
Qed.
Lemma constant_out defs t e v : means defs e v -> calm defs e -> ~ in_range t v -> t <> U64 ->
  constant defs t e = Throw.
Proof.
  intros Hm Hc Hr Ht. destruct (analyze_top _ _ _ Hm Hc) as (s & E & Hn & Hp & Hv).
  unfold constant. rewrite E. cbn [bind]. eapply literal_out; eauto.
Qed.

Lemma constant_lit_in defs t s v : number s v -> plain s -> in_range t v ->
  constant defs t (Lit s) = Ok (Some v).
Proof.
  intros Hn Hp Hr. unfold constant. rewrite analyze_Lit. cbn [bind]. now apply literal_in.
Qed.
Lemma constant_lit_out defs t s v : number s v -> plain s -> ~ in_range t v -> t <> I64 -> t <> U64 ->
  constant defs t (Lit s) = Throw.
Proof.
  intros Hn Hp Hr H1 H2. unfold constant. rewrite analyze_Lit. cbn [bind].
  eapply literal_out; eauto. congruence.
Qed.

(** * Division by zero *)
Lemma constant_div0 defs t o a b va : o = ODiv \/ o = ORem -> means defs a va -> calm defs a ->
  means defs b 0 -> calm defs b -> constant defs t (Bin o a b) = Ok None.
Proof.
  intros Ho Ha Hca Hb Hcb. destruct (analyze_top _ _ _ Ha Hca) as (s & Ea & Hn & Hp & Hv).
  destruct (analyze_top _ _ _ Hb Hcb) as (s' & Eb & Hn' & Hp' & Hv').
  unfold constant. rewrite analyze_Bin, Ea, Eb. cbn [bind fold_binary].
  rewrite (read_back s' 0) by assumption. destruct Ho as [->| ->]; reflexivity.
Qed.

(** * Circular definitions *)
Lemma bind_inv {A B} (r : res A) (f : A -> res B) b : bind r f = Ok b -> exists a, r = Ok a /\ f a = Ok b.
Proof. destruct r; cbn [bind]; intros H; try discriminate. eauto. Qed.

Lemma analyze_mentions k defs busy e : forall r y, analyze k defs busy e = Ok r -> mentions y e ->
  ~ In y busy /\ exists k' d r', nth_error defs y = Some d /\ analyze k' defs (y :: busy) d = Ok r'.
Proof.
  induction e as [s|x|e IH|e IH|o a IHa b IHb]; intros r y E Hy; cbn [mentions] in Hy.
  - contradiction.
  - subst y. rewrite analyze_Const in E. destruct (existsb (Nat.eqb x) busy) eqn:Hb; [discriminate|].
    destruct (nth_error defs x) as [d|] eqn:Hd; [|discriminate]. destruct k as [|k]; [discriminate|].
    apply bind_inv in E as (r' & E & _). split.
    + intros Hin. apply busy_spec in Hin. congruence.
    + exists k, d, r'. auto.
  - rewrite analyze_Neg in E. apply bind_inv in E as (a' & E & _). eauto.
  - rewrite analyze_Bnot in E. apply bind_inv in E as (a' & E & _). eauto.
  - rewrite analyze_Bin in E. apply bind_inv in E as (a' & Ea & E). apply bind_inv in E as (b' & Eb & _).
    destruct Hy as [Hy|Hy]; eauto.
Qed.

Lemma analyze_needs defs x y : needs defs x y -> forall k busy d r,
  nth_error defs x = Some d -> analyze k defs (x :: busy) d = Ok r ->
  exists k' busy' d' r', incl (x :: busy) busy' /\ ~ In y busy' /\
    nth_error defs y = Some d' /\ analyze k' defs (y :: busy') d' = Ok r'.
Proof.
  induction 1 as [x y d0 Hd Hm | x y z _ IH1 _ IH2]; intros k busy d r Hx E.
  - assert (d0 = d) by congruence. subst d0.
    destruct (analyze_mentions _ _ _ _ _ _ E Hm) as (Hn & k' & d' & r' & Hy & E').
    exists k', (x :: busy), d', r'. split; [apply incl_refl|]. auto.
  - destruct (IH1 _ _ _ _ Hx E) as (k1 & b1 & d1 & r1 & Hi1 & _ & Hy & E1).
    destruct (IH2 _ _ _ _ Hy E1) as (k2 & b2 & d2 & r2 & Hi2 & Hn2 & Hz & E2).
    exists k2, b2, d2, r2. split; [|auto].
    intros w Hw. apply Hi2. right. now apply Hi1.
Qed.

Lemma constant_cycle defs t e x r : mentions x e -> needs defs x x -> constant defs t e <> Ok r.
Proof.
  intros Hm Hx E. unfold constant in E. apply bind_inv in E as (a & E & _).
  destruct (analyze_mentions _ _ _ _ _ _ E Hm) as (_ & k & d & r' & Hd & E1).
  destruct (analyze_needs _ _ _ Hx _ _ _ _ Hd E1) as (_ & b' & _ & _ & Hi & Hn & _ & _).
  apply Hn. apply Hi. now left.
Qed.

(** * The analyser always ends *)
Lemma bind_nf {A B} (r : res A) (f : A -> res B) :
  r <> NoFuel -> (forall a, f a <> NoFuel) -> bind r f <> NoFuel.
Proof. destruct r; cbn [bind]; auto; discriminate. Qed.

Lemma i64_nf v : i64 v <> NoFuel.
Proof. unfold i64. destruct (_ && _); discriminate. Qed.
Lemma fold_bin_nf o a b : fold_bin o a b <> NoFuel.
Proof.
  destruct o; cbn [fold_bin]; try discriminate;
    repeat match goal with |- context [if ?c then _ else _] => destruct c end;
    try discriminate; apply bind_nf; try apply i64_nf; discriminate.
Qed.

Lemma analyze_nf defs k : forall busy e,
  NoDup busy -> (forall x, In x busy -> (x < length defs)%nat) -> (length defs <= k + length busy)%nat ->
  analyze k defs busy e <> NoFuel.
Proof.
  induction k as [|k IHk]; intros busy e Hnd Hlt Hlen;
    (induction e as [s|x|e IH|e IH|o a IHa b IHb];
     [rewrite analyze_Lit; discriminate| |rewrite analyze_Neg|rewrite analyze_Bnot|rewrite analyze_Bin]).
  2,6: apply bind_nf; [assumption|]; intros [] ; cbn [fold_neg]; try discriminate; apply bind_nf; [apply i64_nf|discriminate].
  2,5: apply bind_nf; [assumption|]; intros [] ; discriminate.
  2,4: apply bind_nf; [assumption|]; intros a'; apply bind_nf; [assumption|]; intros b';
    destruct a'; try discriminate; destruct b'; try discriminate; cbn [fold_binary];
    apply bind_nf; [apply fold_bin_nf|]; intros []; discriminate.
  - rewrite analyze_Const. destruct (existsb (Nat.eqb x) busy) eqn:Hb; [discriminate|].
    destruct (nth_error defs x) as [d|] eqn:Hd; [|discriminate]. exfalso.
    assert (Hx : (x < length defs)%nat) by (apply nth_error_Some; congruence).
    assert (Hn : ~ In x busy). { rewrite <- busy_spec. congruence. }
    assert (Hle : (length (x :: busy) <= length (seq 0 (length defs)))%nat).
    { apply NoDup_incl_length; [now constructor|]. intros y [<-|Hy]; apply in_seq; [lia|].
      specialize (Hlt y Hy). lia. }
    rewrite seq_length in Hle. cbn [length] in Hle. lia.
  - rewrite analyze_Const. destruct (existsb (Nat.eqb x) busy) eqn:Hb; [discriminate|].
    destruct (nth_error defs x) as [d|] eqn:Hd; [|discriminate].
    assert (Hx : (x < length defs)%nat) by (apply nth_error_Some; congruence).
    assert (Hn : ~ In x busy). { rewrite <- busy_spec. congruence. }
    apply bind_nf.
    + apply IHk; [now constructor| |cbn [length]; lia]. intros y [<-|Hy]; auto.
    + intros r. destruct (is_lit r); discriminate.
Qed.

Lemma constant_nf defs t e : constant defs t e <> NoFuel.
Proof.
  unfold constant. apply bind_nf.
  - apply analyze_nf; [constructor|intros x []|cbn; lia].
  - intros [s| | | |]; try discriminate. apply bind_nf.
    + unfold infer_literal. destruct (range_check _ _); discriminate.
    + intros _. apply bind_nf; [|discriminate]. unfold linear_literal.
      destruct (if is_unsigned t then _ else _) as [v [|]]; discriminate.
Qed.

(** * Strings *)
Lemma c_string_id s : ~ In 0 s -> c_string s = s.
Proof.
  induction s as [|c t IH]; intros H; [reflexivity|]. cbn [c_string].
  destruct (Z.eqb_spec c 0) as [->|]; [exfalso; apply H; now left|].
  rewrite IH; [reflexivity|]. intros Hin. apply H. now right.
Qed.

Lemma fold_string_ok e : (forall s, In s (literals e) -> ~ In 0 s) ->
  fold_string e = string_means e /\ ~ In 0 (fold_string e).
Proof.
  induction e as [s|a IHa b IHb]; intros H; cbn [fold_string string_means literals] in *.
  - split; [reflexivity|]. apply H. now left.
  - destruct IHa as [Ha Za]; [intros s Hs; apply H; apply in_or_app; now left|].
    destruct IHb as [Hb Zb]; [intros s Hs; apply H; apply in_or_app; now right|].
    rewrite !c_string_id by assumption. rewrite Ha, Hb in *. split; [reflexivity|].
    rewrite in_app_iff. tauto.
Qed.
