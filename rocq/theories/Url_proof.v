From Verif Require Import Base Base_lemmas Strings_model Strings_spec Strings_proof Url_model Url_spec.

(** * decode / encode *)

Lemma hex_to_int_spec c : is_byte c ->
  (hex_to_int c = -1 /\ forall v, ~ hex_digit c v) \/
  (hex_digit c (hex_to_int c) /\ 0 <= hex_to_int c <= 15).
Proof.
  intros Hc. unfold hex_to_int, hex_digit, u8, is_byte in *.
  destruct ((48 <=? c) && (c <=? 57)) eqn:E1; [right; lia|].
  destruct ((65 <=? c) && (c <=? 70)) eqn:E2; [right; rewrite Z.mod_small; lia|].
  destruct ((97 <=? c) && (c <=? 102)) eqn:E3; [right; rewrite Z.mod_small; lia|].
  left. split; [reflexivity|]. intros v. lia.
Qed.

Lemma hex_digit_fun c v w : hex_digit c v -> hex_digit c w -> v = w.
Proof. unfold hex_digit. lia. Qed.

Lemma hex_digit_byte c v : hex_digit c v -> is_byte c /\ 0 <= v <= 15.
Proof. unfold hex_digit, is_byte. lia. Qed.

Lemma hex_to_int_digit c v : hex_digit c v -> hex_to_int c = v.
Proof.
  intros H. destruct (hex_digit_byte _ _ H) as [Hb _].
  destruct (hex_to_int_spec c Hb) as [[_ Hn]|[Hd _]]; [now apply Hn in H|].
  eapply hex_digit_fun; eauto.
Qed.

Lemma decode_loop_spec fuel pre suf result :
  bytes suf -> (length suf < fuel)%nat ->
  exists t, decode_loop fuel (pre ++ suf) (zlen pre) result = Ok (result ++ t) /\ unescaped suf t.
Proof.
  revert pre suf result. induction fuel as [|fuel IH]; intros pre suf result Hb Hf; [lia|].
  cbn [decode_loop]. destruct suf as [|c suf].
  { rewrite app_nil_r. rewrite Z.ltb_irrefl. exists []. rewrite app_nil_r. split; [easy|constructor]. }
  pose proof (zlen_nonneg suf) as Hn.
  rewrite zlen_app, zlen_cons. replace (zlen pre <? zlen pre + (1 + zlen suf)) with true by lia.
  rewrite at_app_mid. cbn [bind].
  inversion Hb as [|? ? Hc Hsuf]; subst. cbn [length] in Hf.
  assert (Hstep : forall d, exists t,
    decode_loop fuel (pre ++ c :: suf) (zlen pre + 1) (result ++ [d]) = Ok (result ++ d :: t) /\ unescaped suf t).
  { intros d. destruct (IH (pre ++ [c]) suf (result ++ [d]) Hsuf ltac:(lia)) as (t & Ht & Hu).
    rewrite zlen_app, zlen_cons, zlen_nil in Ht. rewrite <- !app_assoc in Ht. cbn [app] in Ht.
    exists t. split; [|assumption]. exact Ht. }
  destruct ((c =? 37) && (zlen pre + 2 <? zlen pre + (1 + zlen suf))) eqn:E.
  - destruct suf as [|a [|b r]]; [rewrite ?zlen_cons, ?zlen_nil in *; lia..|].
    apply andb_true_iff in E as [E _]. apply Z.eqb_eq in E. subst c.
    rewrite !(at_app_r pre), at_cons_1, at_cons_2 by lia. cbn [bind].
    inversion Hsuf as [|? ? Ha Hsuf']; subst. inversion Hsuf' as [|? ? Hb' Hr]; subst.
    destruct (hex_to_int_spec a Ha) as [[Ha1 Hna]|[Hda Hra]].
    { rewrite Ha1. cbn [Z.eqb negb andb]. replace (-1 =? -1) with true by reflexivity. cbn [negb andb].
      destruct (Hstep 37) as (t & Ht & Hu). exists (37 :: t). split; [exact Ht|].
      apply une_other; [lia| |assumption].
      intros (a' & b' & va & vb & r' & He & Ha' & _). injection He as <- _ _. now apply Hna in Ha'. }
    destruct (hex_to_int_spec b Hb') as [[Hb1 Hnb]|[Hdb Hrb]].
    { rewrite Hb1. replace (-1 =? -1) with true by reflexivity. rewrite andb_false_r.
      destruct (Hstep 37) as (t & Ht & Hu). exists (37 :: t). split; [exact Ht|].
      apply une_other; [lia| |assumption].
      intros (a' & b' & va & vb & r' & He & _ & Hb2). injection He as _ <- _. now apply Hnb in Hb2. }
    replace (hex_to_int a =? -1) with false by lia. replace (hex_to_int b =? -1) with false by lia.
    cbn [negb andb].
    destruct (IH (pre ++ [37; a; b]) r (result ++ [u8 (hex_to_int a * 16 + hex_to_int b)]) Hr
                ltac:(cbn [length] in *; lia)) as (t & Ht & Hu).
    rewrite zlen_app, !zlen_cons, zlen_nil in Ht. rewrite <- !app_assoc in Ht. cbn [app] in Ht.
    exists (16 * hex_to_int a + hex_to_int b :: t). split.
    + replace (zlen pre + 3) with (zlen pre + (1 + (1 + (1 + 0)))) by lia. rewrite Ht.
      unfold u8. rewrite Z.mod_small by lia. do 3 f_equal. lia.
    + now apply une_pct.
  - destruct (c =? 43) eqn:E2.
    + apply Z.eqb_eq in E2. subst c. destruct (Hstep 32) as (t & Ht & Hu).
      exists (32 :: t). split; [exact Ht|]. now constructor.
    + destruct (Hstep c) as (t & Ht & Hu). exists (c :: t). split; [exact Ht|].
      apply une_other; [lia| |assumption].
      intros (a' & b' & va & vb & r' & He & _). injection He as -> ->.
      rewrite !zlen_cons in *. pose proof (zlen_nonneg r'). lia.
Qed.

Lemma decode_spec s : bytes s -> exists t, decode s = Ok t /\ unescaped s t.
Proof.
  intros Hs. unfold decode. destruct (zlen s =? 0) eqn:E.
  - apply Z.eqb_eq, zlen_0_nil in E. subst s. exists []. split; [reflexivity|constructor].
  - exact (decode_loop_spec (S (length s)) [] s [] Hs ltac:(lia)).
Qed.

Lemma unescaped_det s : forall t1 t2, unescaped s t1 -> unescaped s t2 -> t1 = t2.
Proof.
  intros t1 t2 H. revert t2.
  induction H as [|a b va vb s t Ha Hb H IH|s t H IH|c s t Hc Hn H IH]; intros t2 H2.
  - now inversion H2.
  - inversion H2 as [|? ? wa wb ? ? Ha' Hb' H'|? ? H'|? ? ? Hc' Hn' H']; subst.
    + rewrite (hex_digit_fun _ _ _ Ha Ha'), (hex_digit_fun _ _ _ Hb Hb'), (IH _ H'). reflexivity.
    + exfalso. apply Hn'. now exists a, b, va, vb, s.
  - inversion H2 as [|? ? wa wb ? ? Ha' Hb' H'|? ? H'|? ? ? Hc' Hn' H']; subst.
    + now rewrite (IH _ H').
    + congruence.
  - inversion H2 as [|? ? wa wb ? ? Ha' Hb' H'|? ? H'|? ? ? Hc' Hn' H']; subst.
    + exfalso. apply Hn. eexists _, _, _, _, _. eauto.
    + congruence.
    + now rewrite (IH _ H').
Qed.

Lemma unescaped_total_bytes s t : bytes s -> unescaped s t -> bytes t.
Proof.
  intros Hb H. revert Hb. induction H; intros Hb.
  - constructor.
  - inversion Hb as [|? ? _ Hb1]; subst. inversion Hb1 as [|? ? _ Hb2]; subst.
    inversion Hb2 as [|? ? _ Hb3]; subst. constructor; [|now apply IHunescaped].
    pose proof (hex_digit_byte _ _ H). pose proof (hex_digit_byte _ _ H0). unfold is_byte in *. lia.
  - inversion Hb; subst. constructor; [unfold is_byte; lia|now apply IHunescaped].
  - inversion Hb; subst. constructor; [assumption|now apply IHunescaped].
Qed.

Lemma int_to_hex_digit v : 0 <= v <= 15 -> hex_digit (int_to_hex v) v.
Proof.
  intros Hv. unfold int_to_hex, hex_digit, u8.
  destruct ((0 <=? v) && (v <=? 9)) eqn:E; [rewrite Z.mod_small; lia|].
  replace ((10 <=? v) && (v <=? 15)) with true by lia. rewrite Z.mod_small; lia.
Qed.

Lemma nibbles c : is_byte c ->
  0 <= Z.land (Z.shiftr c 4) 15 <= 15 /\ 0 <= Z.land c 15 <= 15 /\
  16 * Z.land (Z.shiftr c 4) 15 + Z.land c 15 = c.
Proof.
  intros Hc. change 15 with (Z.ones 4). rewrite !Z.land_ones, Z.shiftr_div_pow2 by lia.
  change (2 ^ 4) with 16. change (Z.ones 4) with 15. unfold is_byte in Hc.
  assert (c / 16 < 16) by (apply Z.div_lt_upper_bound; lia).
  assert (0 <= c / 16) by (apply Z.div_pos; lia).
  rewrite (Z.mod_small (c / 16)) by lia.
  pose proof (Z.mod_pos_bound c 16 ltac:(lia)). pose proof (Z.div_mod c 16 ltac:(lia)). lia.
Qed.

Lemma encode_char_cases c : is_byte c ->
  (unreserved c /\ encode_char c = [c] /\ c <> 43 /\ c <> 37 /\ c <> 38 /\ c <> 61) \/
  (c = 32 /\ encode_char c = [43]) \/
  (exists a b va vb, hex_digit a va /\ hex_digit b vb /\ 16 * va + vb = c /\ encode_char c = [37; a; b]).
Proof.
  intros Hc. unfold encode_char.
  match goal with |- context [if ?b then _ else _] => destruct b eqn:E end.
  - left. split; [unfold unreserved; cbn; lia|]. split; [reflexivity|lia].
  - destruct (c =? 32) eqn:E2; [right; left; split; [lia|reflexivity]|].
    right; right. destruct (nibbles c Hc) as (H1 & H2 & H3).
    exists (int_to_hex (Z.land (Z.shiftr c 4) 15)), (int_to_hex (Z.land c 15)), (Z.land (Z.shiftr c 4) 15), (Z.land c 15).
    split; [now apply int_to_hex_digit|]. split; [now apply int_to_hex_digit|].
    split; [exact H3|reflexivity].
Qed.

Definition enc (s : list Z) : list Z := concat (map encode_char s).

Lemma encode_enc s : encode s = enc s.
Proof.
  unfold encode. destruct (zlen s =? 0) eqn:E.
  - apply Z.eqb_eq, zlen_0_nil in E. now subst s.
  - assert (H : forall s r, fold_left (fun result ch => result ++ encode_char ch) s r = r ++ enc s).
    { intros l; induction l as [|c l IH]; intros r; cbn [fold_left].
      - cbn. now rewrite app_nil_r.
      - rewrite IH. unfold enc. cbn [map concat]. now rewrite <- app_assoc. }
    apply H.
Qed.

Lemma enc_cons c s : enc (c :: s) = encode_char c ++ enc s.
Proof. reflexivity. Qed.

Lemma enc_unescaped s : bytes s -> unescaped (enc s) s.
Proof.
  induction s as [|c s IH]; intros Hb; [constructor|].
  inversion Hb as [|? ? Hc Hs]; subst. rewrite enc_cons.
  destruct (encode_char_cases c Hc) as [(Hu & -> & H1 & H2 & _)|[[-> ->]|(a & b & va & vb & Ha & Hb' & He & ->)]];
    cbn [app].
  - apply une_other; [assumption| |auto]. intros (a & b & va & vb & r & He & _). congruence.
  - constructor. auto.
  - rewrite <- He. constructor; auto.
Qed.

Lemma enc_encoded s : bytes s -> encoded_text (enc s).
Proof.
  induction s as [|c s IH]; intros Hb; [constructor|].
  inversion Hb as [|? ? Hc Hs]; subst. rewrite enc_cons.
  destruct (encode_char_cases c Hc) as [(Hu & -> & _)|[[-> ->]|(a & b & va & vb & Ha & Hb' & He & ->)]];
    cbn [app]; [constructor 2|constructor 3|econstructor 4]; eauto.
Qed.

Lemma encoded_bytes s : encoded_text s -> bytes s.
Proof.
  unfold bytes. induction 1 as [|c s Hc H IH|s H IH|a b va vb s Ha Hb H IH].
  - constructor.
  - constructor; [|assumption]. unfold is_byte, unreserved in *. cbn in Hc. lia.
  - constructor; [unfold is_byte; lia|assumption].
  - apply hex_digit_byte in Ha as [Ha _]. apply hex_digit_byte in Hb as [Hb _].
    repeat (apply Forall_cons; [assumption || (unfold is_byte; lia)|]). assumption.
Qed.

Lemma encoded_no_sep s : encoded_text s -> ~ In 38 s /\ ~ In 61 s.
Proof.
  induction 1 as [|c s Hc H [IH1 IH2]|s H [IH1 IH2]|a b va vb s Ha Hb H [IH1 IH2]]; cbn [In].
  - tauto.
  - unfold unreserved in Hc. cbn in Hc. split; intros [E|E]; try tauto; lia.
  - split; intros [E|E]; try tauto; lia.
  - unfold hex_digit in *. split; intros [E|[E|[E|E]]]; try tauto; lia.
Qed.

Lemma decode_encode s : bytes s -> decode (encode s) = Ok s.
Proof.
  intros Hb. rewrite encode_enc.
  destruct (decode_spec (enc s)) as (t & -> & Ht).
  - now apply encoded_bytes, enc_encoded.
  - f_equal. eapply unescaped_det; eauto. now apply enc_unescaped.
Qed.

(** * parse *)

Lemma none_of_app d s t : none_of d (s ++ t) <-> none_of d s /\ none_of d t.
Proof. apply Forall_app. Qed.

Lemma span_ex d s : exists m t, s = m ++ t /\ none_of d m /\ (t = [] \/ exists c r, t = c :: r /\ In c d).
Proof.
  induction s as [|c s (m & t & -> & Hm & Ht)].
  - exists [], []. repeat split; auto. constructor.
  - destruct (in_dec Z.eq_dec c d) as [Hc|Hc].
    + exists [], (c :: m ++ t). repeat split; [constructor|]. right. eauto.
    + exists (c :: m), t. repeat split; auto. now constructor.
Qed.

Lemma span_unique d m1 t1 m2 t2 :
  m1 ++ t1 = m2 ++ t2 -> none_of d m1 -> none_of d m2 ->
  (t1 = [] \/ exists c r, t1 = c :: r /\ In c d) -> (t2 = [] \/ exists c r, t2 = c :: r /\ In c d) ->
  m1 = m2 /\ t1 = t2.
Proof.
  revert m2; induction m1 as [|x m1 IH]; intros [|y m2] He H1 H2 Ht1 Ht2; cbn in He.
  - auto.
  - inversion H2; subst. destruct Ht1 as [|(c & r & Hc & Hi)]; [congruence|].
    injection Hc as -> ->. contradiction.
  - inversion H1; subst. destruct Ht2 as [|(c & r & Hc & Hi)]; [congruence|].
    injection Hc as -> ->. contradiction.
  - injection He as -> He. inversion H1; inversion H2; subst.
    destruct (IH m2) as [-> ->]; auto.
Qed.

Definition delims (st : pstate) : list Z :=
  match st with
  | SCHEME => [58] | AUTHORITY => [47; 63; 35] | PATH => [63; 35] | QUERY => [35] | FRAGMENT => []
  end.

Definition run (fuel : nat) url r st start i := x <- parse_loop fuel url r st start i ;; parse_finish url x.

Lemma turn_skip pre c suf r st start :
  ~ In c (delims st) ->
  parse_turn (pre ++ c :: suf) r st start (zlen pre) = Ok (r, st, start, zlen pre + 1).
Proof.
  intros Hc. unfold parse_turn. rewrite at_app_mid. cbn [bind].
  destruct st; cbn in Hc;
    repeat match goal with |- context [c =? ?k] => destruct (Z.eqb_spec c k) as [->|?]; [tauto|] end;
    reflexivity.
Qed.

Lemma loop_skip m : forall fuel pre suf r st start,
  none_of (delims st) m ->
  parse_loop (length m + fuel) (pre ++ m ++ suf) r st start (zlen pre) =
  parse_loop fuel (pre ++ m ++ suf) r st start (zlen pre + zlen m).
Proof.
  induction m as [|c m IH]; intros fuel pre suf r st start Hm.
  - cbn [app length Nat.add]. rewrite zlen_nil. now rewrite Z.add_0_r.
  - inversion Hm as [|? ? Hc Hm']; subst. cbn [length Nat.add parse_loop].
    rewrite zlen_app. cbn [app]. rewrite zlen_cons. pose proof (zlen_nonneg (m ++ suf)).
    replace (zlen pre <? zlen pre + (1 + zlen (m ++ suf))) with true by lia.
    rewrite turn_skip by assumption. cbn [bind].
    specialize (IH fuel (pre ++ [c]) suf r st start Hm').
    rewrite zlen_app, (zlen_cons c []), zlen_nil, <- !app_assoc in IH. cbn [app] in IH.
    replace (zlen pre + 1) with (zlen pre + (1 + 0)) by lia. rewrite IH.
    f_equal. rewrite zlen_cons. lia.
Qed.

Lemma loop_end fuel url r st start i : zlen url <= i ->
  (0 < fuel)%nat -> parse_loop fuel url r st start i = Ok (r, st, start, i).
Proof.
  intros Hi Hf. destruct fuel; [lia|]. cbn [parse_loop]. now replace (i <? zlen url) with false by lia.
Qed.

Definition fix_path (r : url_t) : url_t := if zlen (path r) =? 0 then set_path r [47] else r.

Lemma run_end fuel pre m r st : (0 < fuel)%nat -> none_of (delims st) m ->
  run (length m + fuel) (pre ++ m) r st (zlen pre) (zlen pre) =
  match st with
  | SCHEME => Throw
  | AUTHORITY => r <- parse_authority r m ;; Ok (fix_path r)
  | PATH => Ok (fix_path (set_path r m))
  | QUERY => Ok (fix_path (set_raw_query r m))
  | FRAGMENT => Ok (fix_path (set_fragment r m))
  end.
Proof.
  intros Hf Hm. unfold run. pose proof (loop_skip m fuel pre [] r st (zlen pre) Hm) as H.
  rewrite app_nil_r in H. rewrite H. rewrite loop_end by (rewrite ?zlen_app; lia || assumption).
  cbn [bind]. unfold parse_finish. pose proof (slice_tail pre m) as Hs. rewrite zlen_app in Hs.
  unfold fix_path.
  destruct st; cbn [bind]; rewrite ?Hs; cbn [bind]; try reflexivity;
    try (match goal with |- context [zlen (path ?x) =? 0] => destruct (zlen (path x) =? 0); reflexivity end).
  destruct (parse_authority r m) as [x| | | | |]; cbn [bind]; try reflexivity.
  now destruct (zlen (path x) =? 0).
Qed.

Lemma run_fragment fuel pre m r : (length m < fuel)%nat ->
  run fuel (pre ++ m) r FRAGMENT (zlen pre) (zlen pre) = Ok (fix_path (set_fragment r m)).
Proof.
  intros Hf. replace fuel with (length m + (fuel - length m))%nat by lia.
  rewrite run_end; [reflexivity|lia|]. unfold none_of. cbn. apply Forall_forall. auto.
Qed.

Lemma set_fragment_nil r : fragment r = [] -> set_fragment r [] = r.
Proof. destruct r; cbn. intros ->. reflexivity. Qed.

Lemma set_raw_query_nil r : raw_query r = [] -> set_raw_query r [] = r.
Proof. destruct r; cbn. intros ->. reflexivity. Qed.

Lemma run_step fuel pre m c suf r st :
  none_of (delims st) m ->
  run (length m + S fuel) (pre ++ m ++ c :: suf) r st (zlen pre) (zlen pre) =
  (x <- parse_turn (pre ++ m ++ c :: suf) r st (zlen pre) (zlen pre + zlen m) ;;
   let '(r, st, start, i) := x in run fuel (pre ++ m ++ c :: suf) r st start i).
Proof.
  intros Hm. unfold run. rewrite loop_skip by assumption. cbn [parse_loop].
  rewrite !zlen_app, zlen_cons. pose proof (zlen_nonneg suf).
  replace (zlen pre + zlen m <? zlen pre + (zlen m + (1 + zlen suf))) with true by lia.
  destruct (parse_turn _ _ _ _ _) as [[[[? ?] ?] ?]| | | | |]; reflexivity.
Qed.

Lemma run_query fuel pre s r : (length s < fuel)%nat -> fragment r = [] ->
  exists q f g, s = q ++ f /\ none_of (bs "#") q /\
    ((f = [] /\ g = []) \/ f = 35 :: g) /\
    run fuel (pre ++ s) r QUERY (zlen pre) (zlen pre) = Ok (fix_path (set_fragment (set_raw_query r q) g)).
Proof.
  intros Hf Hr. destruct (span_ex (delims QUERY) s) as (m & t & -> & Hm & [->|(c & t' & -> & Hc)]).
  - exists m, [], []. rewrite app_nil_r in *. repeat split; auto.
    replace fuel with (length m + (fuel - length m))%nat by lia.
    rewrite run_end; [|lia|assumption]. rewrite set_fragment_nil; [reflexivity|]. now destruct r.
  - destruct Hc as [<-|[]]. rewrite app_length in Hf. cbn [length] in Hf.
    exists m, (35 :: t'), t'. repeat split; auto.
    replace fuel with (length m + S (fuel - length m - 1))%nat by lia. rewrite run_step by assumption.
    unfold parse_turn. rewrite (app_assoc pre m). rewrite <- (zlen_app pre m), at_app_mid. cbn [bind].
    replace (35 =? 35) with true by reflexivity.
    rewrite <- app_assoc, zlen_app, slice_mid. cbn [bind].
    replace (pre ++ m ++ 35 :: t') with ((pre ++ m ++ [35]) ++ t') by now rewrite <- !app_assoc.
    replace (zlen pre + zlen m + 1) with (zlen (pre ++ m ++ [35])) by (rewrite !zlen_app, zlen_cons, zlen_nil; lia).
    apply run_fragment. lia.
Qed.

Lemma run_path fuel pre s r : (length s < fuel)%nat -> fragment r = [] -> raw_query r = [] ->
  exists p q qv f g, s = p ++ q ++ f /\ none_of (bs "?#") p /\
    ((q = [] /\ qv = []) \/ q = 63 :: qv) /\ none_of (bs "#") q /\
    ((f = [] /\ g = []) \/ f = 35 :: g) /\
    run fuel (pre ++ s) r PATH (zlen pre) (zlen pre) =
      Ok (fix_path (set_fragment (set_raw_query (set_path r p) qv) g)).
Proof.
  intros Hf Hr Hq. destruct (span_ex (delims PATH) s) as (m & t & -> & Hm & [->|(c & t' & -> & Hc)]).
  - exists m, [], [], [], []. rewrite app_nil_r in *. cbn [app]. rewrite app_nil_r. repeat split; auto.
    { constructor. }
    replace fuel with (length m + (fuel - length m))%nat by lia.
    rewrite run_end; [|lia|assumption].
    rewrite set_raw_query_nil, set_fragment_nil by (now destruct r). reflexivity.
  - rewrite app_length in Hf. cbn [length] in Hf.
    replace fuel with (length m + S (fuel - length m - 1))%nat by lia. rewrite run_step by assumption.
    unfold parse_turn. rewrite (app_assoc pre m). rewrite <- (zlen_app pre m), at_app_mid. cbn [bind].
    rewrite <- app_assoc, zlen_app, slice_mid. cbn [bind].
    assert (HE : pre ++ m ++ c :: t' = (pre ++ m ++ [c]) ++ t') by now rewrite <- !app_assoc.
    assert (HL : zlen pre + zlen m + 1 = zlen (pre ++ m ++ [c])) by (rewrite !zlen_app, zlen_cons, zlen_nil; lia).
    destruct Hc as [<-|[<-|[]]].
    + replace (63 =? 63) with true by reflexivity. rewrite HE, HL.
      destruct (run_query (fuel - length m - 1) (pre ++ m ++ [63]) t' (set_path r m)) as
        (q & f & g & -> & Hq' & Hfg & Hrun); [lia|now destruct r|].
      exists m, (63 :: q), q, f, g. repeat split; auto.
      constructor; [cbn; lia|assumption].
    + replace (35 =? 63) with false by reflexivity. replace (35 =? 35) with true by reflexivity.
      rewrite HE, HL. exists m, [], [], (35 :: t'), t'. repeat split; auto.
      { constructor. }
      rewrite set_raw_query_nil by now destruct r. apply run_fragment. lia.
Qed.

(** the port of a port text *)
Definition port_value (pt : list Z) (p : Z) : Prop :=
  (int_text pt p /\ Z.abs p <= 2147483649) \/
  ((~ exists n, int_text pt n /\ Z.abs n <= 2147483649) /\ p = 0).

Lemma int_text_nil n : ~ int_text [] n.
Proof. intros H. now apply int_text_nonempty in H. Qed.

Lemma parse_authority_spec r a : port r = 0 ->
  exists h pt p, host_port a h pt /\ port_value pt p /\
    parse_authority r a = Ok (mk_url (scheme r) a h p (path r) (fragment r) (raw_query r)).
Proof.
  intros Hp. unfold parse_authority.
  destruct (rfind_spec a [58]) as (i & -> & Hi); [discriminate|]. cbn [bind].
  destruct Hi as [[(pre & suf & -> & <-) Hlast]|[-> Hno]].
  - pose proof (zlen_nonneg pre).
    replace (zlen pre =? -1) with false by lia. cbn [negb].
    assert (Hs : slice (pre ++ [58] ++ suf) (zlen pre + 1) (zlen (pre ++ [58] ++ suf)) = Ok suf).
    { pose proof (slice_tail (pre ++ [58]) suf) as Hs. rewrite <- app_assoc in Hs.
      rewrite (zlen_app pre [58]) in Hs. exact Hs. }
    rewrite Hs. cbn [bind].
    rewrite slice_head.
    exists pre, suf.
    assert (Hhp : host_port (pre ++ [58] ++ suf) pre suf).
    { left. split; [reflexivity|]. apply Forall_forall. intros c Hc Hc58.
      destruct Hc58 as [<-|[]]. apply in_split in Hc as (l1 & l2 & ->).
      specialize (Hlast (zlen (pre ++ [58] ++ l1))). rewrite zlen_app in Hlast.
      assert (occurs_at [58] (pre ++ [58] ++ l1 ++ 58 :: l2) (zlen pre + zlen ([58] ++ l1))) as Ho.
      { exists (pre ++ [58] ++ l1), l2. split; [now rewrite <- !app_assoc|]. now rewrite zlen_app. }
      specialize (Hlast Ho). rewrite zlen_app, zlen_cons in Hlast. pose proof (zlen_nonneg l1).
      rewrite zlen_nil in Hlast. lia. }
    destruct (to_int_spec suf) as [(n & Hn & Habs & ->)|[Hn ->]]; cbn [bind catch].
    + exists n. repeat split; auto. now left.
    + exists 0. repeat split; auto. now right.
  - replace (-1 =? -1) with true by reflexivity. cbn [negb].
    exists a, [], 0. repeat split.
    + right. repeat split. apply Forall_forall. intros c Hc [<-|[]].
      apply in_split in Hc as (l1 & l2 & ->). apply (Hno (zlen l1)). now exists l1, l2.
    + right. split; [|reflexivity]. intros (n & Hn & _). now apply int_text_nil in Hn.
    + rewrite Hp. reflexivity.
Qed.

(** What [parse] is to return for [u]. *)
Definition parse_result (u : list Z) (r : url_t) : Prop :=
  url_text u {| u_scheme := scheme r; u_authority := authority r; u_path := path r;
                u_query := raw_query r; u_fragment := fragment r |} /\
  exists pt, host_port (authority r) (hostname r) pt /\ port_value pt (port r).

Lemma fix_path_p r p : path r = p ->
  (p <> [] /\ fix_path r = r) \/ (p = [] /\ fix_path r = set_path r (bs "/")).
Proof.
  intros <-. unfold fix_path. destruct (path r) eqn:E.
  - right. rewrite zlen_nil. auto.
  - left. rewrite zlen_cons. pose proof (zlen_nonneg l). split; [discriminate|].
    replace (1 + zlen l =? 0) with false by lia. reflexivity.
Qed.

Lemma run_authority fuel sc s : (length s < fuel)%nat -> none_of (bs ":") sc ->
  exists r, run fuel ((sc ++ bs "://") ++ s) (set_scheme empty_url sc) AUTHORITY
              (zlen (sc ++ bs "://")) (zlen (sc ++ bs "://")) = Ok r /\
    parse_result (sc ++ bs "://" ++ s) r.
Proof.
  intros Hf Hsc. remember (sc ++ bs "://") as pre eqn:Hpre.
  destruct (span_ex (delims AUTHORITY) s) as (m & t & -> & Hm & Ht).
  destruct (parse_authority_spec (set_scheme empty_url sc) m eq_refl) as (h & pt & p & Hhp & Hpv & Hpa).
  destruct Ht as [->|(c & t' & -> & Hc)].
  - rewrite app_nil_r in *.
    replace fuel with (length m + (fuel - length m))%nat by lia.
    rewrite run_end; [|lia|assumption]. rewrite Hpa. cbn [bind].
    eexists. split; [reflexivity|]. unfold fix_path. cbn. split; [|eauto].
    exists [], [], []. cbn. rewrite !app_nil_r. repeat split; auto; try constructor; auto.
  - rewrite app_length in Hf. cbn [length] in Hf.
    replace fuel with (length m + S (fuel - length m - 1))%nat by lia. rewrite run_step by assumption.
    unfold parse_turn. rewrite (app_assoc pre m). rewrite <- (zlen_app pre m), at_app_mid. cbn [bind].
    rewrite <- app_assoc, zlen_app, slice_mid. cbn [bind]. rewrite Hpa. cbn [bind].
    assert (HE : pre ++ m ++ c :: t' = (pre ++ m ++ [c]) ++ t') by now rewrite <- !app_assoc.
    assert (HL : zlen pre + zlen m + 1 = zlen (pre ++ m ++ [c])) by (rewrite !zlen_app, zlen_cons, zlen_nil; lia).
    cbn [scheme path fragment raw_query set_scheme empty_url].
    set (r0 := mk_url sc m h p [] [] []).
    destruct Hc as [<-|[<-|[<-|[]]]].
    + (* '/' : the slash belongs to the path, which the loop re-enters one byte further *)
      replace (47 =? 47) with true by reflexivity.
      assert (Hre : run (fuel - length m - 1) (pre ++ m ++ 47 :: t') r0 PATH (zlen pre + zlen m) (zlen pre + zlen m + 1)
                  = run (S (fuel - length m - 1)) ((pre ++ m) ++ 47 :: t') r0 PATH (zlen (pre ++ m)) (zlen (pre ++ m))).
      { pose proof (run_step (fuel - length m - 1) (pre ++ m) [] 47 t' r0 PATH (Forall_nil _)) as Hx.
        cbn [length Nat.add app] in Hx. rewrite Hx. rewrite zlen_nil, Z.add_0_r.
        rewrite (turn_skip (pre ++ m) 47 t' r0 PATH) by (cbn; lia). cbn [bind].
        now rewrite zlen_app, <- app_assoc. }
      cbn [bind]. rewrite Hre.
      destruct (run_path (S (fuel - length m - 1)) (pre ++ m) (47 :: t') r0) as
        (pp & q & qv & f & g & He & Hpp & Hqv & Hq & Hfg & ->); [cbn [length]; lia|reflexivity..|].
      destruct pp as [|x pp].
      { exfalso. cbn in He. destruct Hqv as [[-> ->]| ->]; [|discriminate].
        destruct Hfg as [[-> ->]| ->]; discriminate. }
      cbn in He. injection He as <- He.
      eexists. split; [reflexivity|]. unfold fix_path. cbn.
      split; [|eauto]. exists (47 :: pp), q, f. cbn. rewrite He. repeat split; auto.
      * left. split; [discriminate|reflexivity].
      * right. eauto.
    + replace (63 =? 47) with false by reflexivity. replace (63 =? 63) with true by reflexivity.
      cbn [bind]. rewrite HE, HL.
      destruct (run_query (fuel - length m - 1) (pre ++ m ++ [63]) t' r0) as
        (q & f & g & -> & Hq' & Hfg & ->); [lia|reflexivity|].
      eexists. split; [reflexivity|]. unfold fix_path. cbn. split; [|eauto].
      exists [], (63 :: q), f. cbn. repeat split; auto.
      * constructor.
      * constructor; [cbn; lia|assumption].
    + replace (35 =? 47) with false by reflexivity. replace (35 =? 63) with false by reflexivity.
      replace (35 =? 35) with true by reflexivity. cbn [bind]. rewrite HE, HL.
      rewrite run_fragment by lia.
      eexists. split; [reflexivity|]. unfold fix_path. cbn. split; [|eauto].
      exists [], [], (35 :: t'). cbn. repeat split; auto; constructor.
Qed.

Lemma parse_spec u :
  (exists r, parse u = Ok r /\ parse_result u r) \/
  (parse u = Throw /\ ~ exists sc rest, u = sc ++ bs "://" ++ rest /\ none_of (bs ":") sc).
Proof.
  unfold parse. destruct (zlen u =? 0) eqn:E0.
  { right. split; [reflexivity|]. apply Z.eqb_eq, zlen_0_nil in E0. subst u.
    intros (sc & rest & He & _). symmetry in He. apply app_eq_nil in He as [_ He]. discriminate. }
  change (x <- parse_loop (S (length u)) u empty_url SCHEME 0 0 ;; parse_finish u x)
    with (run (S (length u)) ([] ++ u) empty_url SCHEME (@zlen Z []) (@zlen Z [])).
  destruct (span_ex (delims SCHEME) u) as (m & t & -> & Hm & Ht).
  destruct Ht as [->|(c & t' & -> & Hc)].
  - right. split.
    + rewrite app_nil_r. replace (S (length m)) with (length m + 1)%nat by lia.
      now rewrite run_end by (lia || assumption).
    + intros (sc & rest & He & Hsc). rewrite app_nil_r in He. subst m.
      apply none_of_app in Hm as [_ Hm]. inversion Hm as [|? ? Hx _]; subst. apply Hx. now left.
  - destruct Hc as [<-|[]].
    replace (S (length (m ++ 58 :: t'))) with (length m + S (S (length t')))%nat
      by (rewrite app_length; cbn [length]; lia).
    rewrite run_step by assumption. rewrite !zlen_nil, Z.add_0_l. cbn [app].
    unfold parse_turn. rewrite at_app_mid. cbn [bind]. replace (58 =? 58) with true by reflexivity.
    rewrite slice_head. cbn [bind].
    assert (Hat : forall k, 0 <= k -> at_ (m ++ 58 :: t') (zlen m + (1 + k)) = at_ t' k).
    { intros k Hk. rewrite at_app_r by lia. now rewrite at_cons_S by lia. }
    assert (Hnot : (forall r, t' <> 47 :: 47 :: r) ->
              ~ exists sc rest, m ++ 58 :: t' = sc ++ bs "://" ++ rest /\ none_of (bs ":") sc).
    { intros Hno (sc & rest & He & Hsc).
      destruct (span_unique [58] _ _ _ _ He Hm Hsc) as [_ Ht].
      - right. eexists _, _. split; [reflexivity|now left].
      - right. eexists _, _. split; [reflexivity|now left].
      - injection Ht as Ht. now apply (Hno rest). }
    rewrite zlen_app, zlen_cons.
    destruct t' as [|c1 [|c2 rest]].
    + right. split; [|apply Hnot; discriminate].
      rewrite zlen_nil. now replace (zlen m + 2 <? zlen m + (1 + 0)) with false by lia.
    + right. split; [|apply Hnot; discriminate].
      rewrite zlen_cons, zlen_nil. now replace (zlen m + 2 <? zlen m + (1 + (1 + 0))) with false by lia.
    + rewrite !zlen_cons. pose proof (zlen_nonneg rest).
      replace (zlen m + 2 <? zlen m + (1 + (1 + (1 + zlen rest)))) with true by lia.
      replace (zlen m + 1) with (zlen m + (1 + 0)) by lia. replace (zlen m + 2) with (zlen m + (1 + (1 + 0))) by lia.
      rewrite !Hat by lia. rewrite at_cons_0, at_cons_S, at_cons_0 by lia. cbn [bind].
      destruct (Z.eqb_spec c1 47) as [->|H1]; cbn [bind].
      2:{ right. split; [reflexivity|]. apply Hnot. congruence. }
      destruct (Z.eqb_spec c2 47) as [->|H2]; cbn [bind].
      2:{ right. split; [reflexivity|]. apply Hnot. congruence. }
      left.
      destruct (run_authority (S (length (47 :: 47 :: rest))) m rest) as (r & Hr & Hres);
        [cbn [length]; lia|assumption|].
      exists r. split; [|exact Hres]. rewrite <- Hr.
      rewrite <- app_assoc. rewrite !zlen_app. cbn [app bs Z.of_N N_of_ascii].
      replace (zlen (bs "://")) with 3 by reflexivity.
      replace (zlen m + (1 + (1 + 0)) + 1) with (zlen m + 3) by lia. reflexivity.
Qed.

Lemma url_text_unique u x y : url_text u x -> url_text u y -> x = y.
Proof.
  intros (p & q & f & He & Hs & Ha & Hp & Hp0 & Hp1 & Hq & Hq1 & Hf)
         (p' & q' & f' & He' & Hs' & Ha' & Hp' & Hp0' & Hp1' & Hq' & Hq1' & Hf').
  rewrite He in He'. clear He.
  destruct (span_unique (bs ":") _ _ _ _ He' Hs Hs') as [E1 He2];
    try (right; eexists _, _; split; [reflexivity|now left]).
  apply app_inv_head in He2.
  assert (Hfd : forall f g, (f = [] /\ g = []) \/ f = 35 :: g ->
            f = [] \/ exists c r, f = c :: r /\ In c (bs "#")).
  { intros ? ? [[-> _]| ->]; [now left|]. right. eexists _, _. split; [reflexivity|now left]. }
  assert (Hqd : forall q qv f g, (q = [] /\ qv = []) \/ q = 63 :: qv -> (f = [] /\ g = []) \/ f = 35 :: g ->
            q ++ f = [] \/ exists c r, q ++ f = c :: r /\ In c (bs "?#")).
  { intros ? ? ? ? [[-> _]| ->] Hx; cbn [app].
    - destruct Hx as [[-> _]| ->]; [now left|]. right. eexists _, _. split; [reflexivity|]. cbn; auto.
    - right. eexists _, _. split; [reflexivity|now left]. }
  assert (Hpd : forall p q qv f g, p = [] \/ (exists p', p = 47 :: p') ->
            (q = [] /\ qv = []) \/ q = 63 :: qv -> (f = [] /\ g = []) \/ f = 35 :: g ->
            p ++ q ++ f = [] \/ exists c r, p ++ q ++ f = c :: r /\ In c (bs "/?#")).
  { intros ? ? ? ? ? [->|(p0 & ->)] Hx Hy; cbn [app].
    - destruct (Hqd _ _ _ _ Hx Hy) as [?|(c & r & ? & Hc)]; [now left|].
      right. exists c, r. split; [assumption|]. cbn in *; tauto.
    - right. eexists _, _. split; [reflexivity|now left]. }
  destruct (span_unique (bs "/?#") _ _ _ _ He2 Ha Ha') as [E2 He3]; eauto.
  destruct (span_unique (bs "?#") _ _ _ _ He3 Hp1 Hp1') as [E3 He4]; eauto.
  destruct (span_unique (bs "#") _ _ _ _ He4 Hq1 Hq1') as [E4 E5]; eauto.
  subst p' q' f'.
  destruct x as [xs xa xp xq xf], y as [ys ya yp yq yf]; cbn in *. subst ys ya.
  assert (xp = yp) by (destruct Hp as [[? ?]|[? ?]], Hp' as [[? ?]|[? ?]]; congruence).
  assert (xq = yq) by (destruct Hq as [[? ?]|?], Hq' as [[? ?]|?]; congruence).
  assert (xf = yf) by (destruct Hf as [[? ?]|?], Hf' as [[? ?]|?]; congruence).
  congruence.
Qed.

Lemma host_port_unique a h1 p1 h2 p2 : host_port a h1 p1 -> host_port a h2 p2 -> h1 = h2 /\ p1 = p2.
Proof.
  assert (Hin : forall h (p : list Z), none_of (bs ":") (h ++ 58 :: p) -> False).
  { intros h p H. apply none_of_app in H as [_ H]. inversion H as [|? ? Hx _]; subst. apply Hx. now left. }
  intros [[-> H1]|(-> & H1 & ->)] [[He H2]|(He & H2 & ->)]; subst.
  - assert (Hr : rev p1 ++ 58 :: rev h1 = rev p2 ++ 58 :: rev h2).
    { apply (f_equal (@rev Z)) in He. rewrite !rev_app_distr in He. cbn in He.
      now rewrite <- !app_assoc in He. }
    destruct (span_unique (bs ":") _ _ _ _ Hr) as [Ha Hb].
    + now apply Forall_rev.
    + now apply Forall_rev.
    + right. eexists _, _. split; [reflexivity|now left].
    + right. eexists _, _. split; [reflexivity|now left].
    + injection Hb as Hb. apply (f_equal (@rev Z)) in Ha, Hb. rewrite !rev_involutive in *. auto.
  - now apply Hin in H2.
  - now apply Hin in H1.
  - auto.
Qed.

(** * query *)

Lemma list_eqb_eq a b : list_eqb a b = true <-> a = b.
Proof.
  revert b; induction a as [|x a IH]; intros [|y b]; cbn; split; try easy.
  - intros H. apply andb_true_iff in H as [H1 H2]. apply Z.eqb_eq in H1. apply IH in H2. congruence.
  - intros [= -> ->]. rewrite Z.eqb_refl. now apply IH.
Qed.

Lemma cstr_nul_free s : nul_free s -> cstr s = s.
Proof.
  unfold nul_free. induction s as [|c s IH]; intros H; cbn; [reflexivity|].
  destruct (Z.eqb_spec c 0) as [->|Hc]; [exfalso; apply H; now left|].
  f_equal. apply IH. intros Hi. apply H. now right.
Qed.

Lemma key_eqb_nul_free a b : nul_free a -> nul_free b -> (key_eqb a b = true <-> a = b).
Proof. intros Ha Hb. unfold key_eqb. rewrite !cstr_nul_free by assumption. apply list_eqb_eq. Qed.

Lemma key_eqb_refl a : key_eqb a a = true.
Proof. unfold key_eqb. now apply list_eqb_eq. Qed.

Lemma key_eqb_iff a b : key_eqb a b = true <-> cstr a = cstr b.
Proof. apply list_eqb_eq. Qed.

Lemma key_eqb_sym a b : key_eqb a b = key_eqb b a.
Proof.
  destruct (key_eqb a b) eqn:E1, (key_eqb b a) eqn:E2; try reflexivity.
  - apply key_eqb_iff in E1. symmetry in E1. apply key_eqb_iff in E1. congruence.
  - apply key_eqb_iff in E2. symmetry in E2. apply key_eqb_iff in E2. congruence.
Qed.

Lemma key_eqb_trans a b c : key_eqb a b = true -> key_eqb b c = key_eqb a c.
Proof. unfold key_eqb. intros H. apply list_eqb_eq in H. now rewrite H. Qed.

Lemma smap_get_set {V} (m : smap V) k v k' :
  smap_get (smap_set m k v) k' = if key_eqb k k' then Some v else smap_get m k'.
Proof.
  induction m as [|[k0 v0] m IH]; cbn [smap_set smap_get].
  - reflexivity.
  - destruct (key_eqb k0 k) eqn:E; cbn [smap_get].
    + rewrite (key_eqb_trans _ _ k' E). now destruct (key_eqb k0 k').
    + destruct (key_eqb k0 k') eqn:E2.
      * now rewrite key_eqb_sym, (key_eqb_trans _ _ k E2), E.
      * apply IH.
Qed.

(** The text of one pair and of a query. *)
Definition pair_text (kv : list Z * list Z) : list Z := encode (fst kv) ++ [61] ++ encode (snd kv).

Lemma form_loop_spec data first acc :
  form_loop data first acc =
  acc ++ (if first then [] else match data with [] => [] | _ => [38] end) ++ joined [38] (map pair_text data).
Proof.
  revert first acc. induction data as [|[k v] data IH]; intros first acc; cbn [form_loop].
  - destruct first; cbn; now rewrite app_nil_r.
  - rewrite IH. unfold pair_text at 2. cbn [map joined fst snd].
    destruct data as [|d data]; cbn [map].
    + destruct first; cbn [joined app]; rewrite ?app_nil_r, <- ?app_assoc; reflexivity.
    + destruct first; cbn [app]; rewrite <- ?app_assoc; cbn [app]; unfold pair_text; cbn [fst snd];
        rewrite <- ?app_assoc; reflexivity.
Qed.

Lemma form_spec data : form data = joined [38] (map pair_text data).
Proof. unfold form. rewrite form_loop_spec. reflexivity. Qed.

Definition good_pair (kv : list Z * list Z) : Prop := bytes (fst kv) /\ bytes (snd kv).

Lemma pair_text_no_amp kv : good_pair kv -> ~ In 38 (pair_text kv).
Proof.
  intros [Hk Hv]. unfold pair_text. rewrite !encode_enc, !in_app_iff.
  apply enc_encoded, encoded_no_sep in Hk, Hv. cbn. intuition lia.
Qed.

Lemma split_pair kv : good_pair kv ->
  split (pair_text kv) [61] = Ok (match encode (snd kv) with [] => [encode (fst kv)]
                                  | e => [encode (fst kv); e] end).
Proof.
  intros [Hk Hv]. unfold pair_text. rewrite !encode_enc.
  apply enc_encoded, encoded_no_sep in Hk as [_ Hk]. apply enc_encoded, encoded_no_sep in Hv as [_ Hv].
  destruct (enc (snd kv)) as [|c e] eqn:E.
  - unfold split. rewrite zlen_app, app_nil_r. pose proof (zlen_nonneg (enc (fst kv))).
    replace (zlen [61] =? 0) with false by reflexivity.
    replace (zlen [61]) with 1 by reflexivity.
    replace (zlen (enc (fst kv)) + 1 =? 0) with false by lia.
    replace (zlen (enc (fst kv)) + 1 <? 1) with false by lia.
    destruct (length (enc (fst kv) ++ [61])) eqn:El; [rewrite app_length in El; cbn in El; lia|].
    cbn [split_loop]. rewrite !zlen_app.
    replace (zlen [61]) with 1 by reflexivity.
    replace (0 <? zlen (enc (fst kv)) + 1) with true by lia.
    pose proof (find_char_first [] (enc (fst kv)) 61 [] Hk) as Hf. cbn [app] in Hf.
    rewrite zlen_nil in Hf. rewrite Hf. cbn [bind]. rewrite Z.add_0_l.
    replace (zlen (enc (fst kv)) =? -1) with false by lia.
    rewrite slice_head. cbn [bind].
    replace (zlen (enc (fst kv)) + 1 <? zlen (enc (fst kv)) + 1) with false by lia. reflexivity.
  - pose proof (split_joined 61 [enc (fst kv); c :: e]) as Hs. cbn [joined app] in Hs.
    apply Hs; [|discriminate]. constructor; [assumption|]. constructor; [|constructor].
    now rewrite <- E in *.
Qed.

Definition values_of (data : list (list Z * list Z)) (k : list Z) : list (list Z) :=
  map snd (filter (fun kv => key_eqb (fst kv) k) data).

Definition get_or {V} (m : smap (list V)) k : list V := match smap_get m k with Some l => l | None => [] end.

Lemma query_pair_spec m kv : good_pair kv ->
  exists m', query_pair m (pair_text kv) = Ok m' /\
    forall k, smap_get m' k = if key_eqb (fst kv) k then Some (get_or m k ++ [snd kv]) else smap_get m k.
Proof.
  intros Hg. unfold query_pair. rewrite split_pair by assumption. cbn [bind].
  assert (Hdec : forall l, (match encode (snd kv) with [] => [encode (fst kv)]
                            | e => [encode (fst kv); e] end) = l ->
     1 <=? zlen l = true /\ at_ l 0 = Ok (encode (fst kv)) /\
     (if zlen l =? 2 then at_ l 1 else Ok []) = Ok (encode (snd kv))).
  { intros l <-. destruct (encode (snd kv)); repeat split. }
  destruct (Hdec _ eq_refl) as (H1 & H2 & H3). rewrite H1, H2, H3. cbn [bind].
  destruct Hg as [Hk Hv]. rewrite !decode_encode by assumption. cbn [bind].
  assert (Hgo : forall k, key_eqb (fst kv) k = true -> get_or m k = get_or m (fst kv)).
  { intros k Hk'. unfold get_or. clear - Hk'. induction m as [|[k0 v0] m IH]; cbn [smap_get]; [reflexivity|].
    rewrite (key_eqb_sym k0 k), (key_eqb_sym k0 (fst kv)).
    replace (key_eqb k k0) with (key_eqb (fst kv) k0) by (symmetry; now apply key_eqb_trans).
    destruct (key_eqb (fst kv) k0); [reflexivity|apply IH]. }
  unfold get_or in Hgo.
  destruct (smap_get m (fst kv)) eqn:E; eexists; (split; [reflexivity|]); intros k; rewrite smap_get_set;
    (destruct (key_eqb (fst kv) k) eqn:Ek; [|reflexivity]); unfold get_or; now rewrite (Hgo k Ek).
Qed.

Lemma query_pairs_spec data m : Forall good_pair data ->
  exists m', query_pairs m (map pair_text data) = Ok m' /\
    forall k, get_or m' k = get_or m k ++ values_of data k /\
      (smap_get m' k = None <-> smap_get m k = None /\ values_of data k = []).
Proof.
  revert m. induction data as [|kv data IH]; intros m Hd; cbn [map query_pairs].
  - exists m. split; [reflexivity|]. intros k. cbn. rewrite app_nil_r. tauto.
  - inversion Hd as [|? ? Hg Hd']; subst.
    destruct (query_pair_spec m kv Hg) as (m1 & -> & H1). cbn [bind].
    destruct (IH m1 Hd') as (m2 & -> & H2). exists m2. split; [reflexivity|].
    intros k. destruct (H2 k) as [Ha Hb]. unfold values_of. cbn [filter].
    unfold get_or at 2 in Ha. rewrite H1 in Ha, Hb.
    destruct (key_eqb (fst kv) k); cbn [map].
    + rewrite Ha, <- app_assoc. split; [reflexivity|]. rewrite Hb. split; intros [? ?]; discriminate.
    + fold (get_or m k) in Ha. split; [exact Ha|exact Hb].
Qed.

Lemma query_spec r data : Forall good_pair data -> raw_query r = form data ->
  exists q, query r = Ok q /\ forall k, get_or q k = values_of data k /\
    (smap_get q k = None <-> values_of data k = []).
Proof.
  intros Hd Hr. unfold query. rewrite Hr, form_spec.
  destruct data as [|kv data].
  - cbn. exists []. split; [reflexivity|]. intros k. cbn. tauto.
  - assert (Hne : forall kv, pair_text kv <> []).
    { intros kv' H. unfold pair_text in H. apply app_eq_nil in H as [_ H]. discriminate. }
    destruct (zlen (joined [38] (map pair_text (kv :: data))) =? 0) eqn:E.
    { exfalso. apply Z.eqb_eq, zlen_0_nil in E. cbn [map joined] in E.
      destruct (map pair_text data); [now apply Hne in E|].
      apply app_eq_nil in E as [E _]. now apply Hne in E. }
    rewrite split_joined.
    + cbn [bind]. destruct (query_pairs_spec (kv :: data) [] Hd) as (q & -> & Hq).
      exists q. split; [reflexivity|]. intros k. destruct (Hq k) as [Ha Hb]. cbn [get_or smap_get app] in Ha.
      split; [exact Ha|]. rewrite Hb. cbn. tauto.
    + apply Forall_map. eapply Forall_impl; [|exact Hd]. intros a Ha. now apply pair_text_no_amp.
    + assert (forall (l : list (list Z)) d, l <> [] -> exists x, In x l /\ last l d = x) as Hlast.
      { intros l d Hl. exists (last l d). split; [|reflexivity].
        clear - Hl. induction l as [|x [|y l] IH]; [congruence|now left|]. right. apply IH. discriminate. }
      destruct (Hlast (map pair_text (kv :: data)) [38]) as (x & Hx & ->); [discriminate|].
      apply in_map_iff in Hx as (kv' & <- & _). apply Hne.
Qed.

Lemma values_of_nul_free data k : Forall (fun kv => nul_free (fst kv)) data -> nul_free k ->
  values_of data k = map snd (filter (fun kv => if list_eq_dec Z.eq_dec (fst kv) k then true else false) data).
Proof.
  intros Hd Hk. unfold values_of. f_equal. apply filter_ext_in. intros kv Hin.
  rewrite Forall_forall in Hd. specialize (Hd kv Hin).
  pose proof (key_eqb_nul_free _ _ Hd Hk) as He.
  destruct (list_eq_dec Z.eq_dec (fst kv) k) as [e|n].
  - now apply He.
  - destruct (key_eqb (fst kv) k); [|reflexivity]. exfalso. apply n. now apply He.
Qed.

Lemma query_get_spec r data : Forall good_pair data ->
  Forall (fun kv => nul_free (fst kv)) data -> NoDup (map fst data) -> raw_query r = form data ->
  exists q, query r = Ok q /\ (forall k v, In (k, v) data -> query_get q k = Ok v) /\
    (forall k, nul_free k -> ~ In k (map fst data) -> query_get q k = Ok []).
Proof.
  intros Hd Hn Hnd Hr. destruct (query_spec r data Hd Hr) as (q & Hq & Hget).
  exists q. split; [assumption|]. split.
  - intros k v Hin. destruct (Hget k) as [Ha Hb].
    assert (Hv : values_of data k = [v]).
    { rewrite values_of_nul_free; [|assumption|rewrite Forall_forall in Hn; now apply (Hn (k, v))].
      clear - Hin Hnd. induction data as [|[k0 v0] data IH]; [contradiction|].
      cbn [map fst] in Hnd. inversion Hnd as [|? ? Hni Hnd']; subst. cbn [filter fst].
      destruct (list_eq_dec Z.eq_dec k0 k) as [->|Hne].
      - destruct Hin as [[= ->]|Hin]; [|exfalso; apply Hni; apply in_map_iff; now exists (k, v)].
        cbn [map snd]. f_equal.
        assert (filter (fun kv : list Z * list Z => if list_eq_dec Z.eq_dec (fst kv) k then true else false) data = []) as ->; [|reflexivity].
        clear IH Hnd Hnd'. induction data as [|[k1 v1] data IH]; [reflexivity|].
        cbn [filter fst]. cbn in Hni. destruct (list_eq_dec Z.eq_dec k1 k); [tauto|]. apply IH. tauto.
      - destruct Hin as [[= -> _]|Hin]; [congruence|]. now apply IH. }
    unfold query_get. unfold get_or in Ha. rewrite Hv in *.
    destruct (smap_get q k) as [l|]; [subst l; reflexivity|].
    destruct Hb as [Hb _]. specialize (Hb eq_refl). discriminate.
  - intros k Hk Hni. destruct (Hget k) as [Ha Hb]. unfold query_get.
    assert (values_of data k = []) as Hv.
    { rewrite values_of_nul_free by assumption. clear - Hni.
      induction data as [|[k1 v1] data IH]; [reflexivity|]. cbn [filter fst]. cbn in Hni.
      destruct (list_eq_dec Z.eq_dec k1 k); [tauto|]. apply IH. tauto. }
    now rewrite (proj2 Hb Hv).
Qed.
