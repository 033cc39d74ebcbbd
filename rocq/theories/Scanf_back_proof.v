(** Every text can be scanned; what sprintf prints is read back. *)
From Verif Require Import Base Base_lemmas Strings_model Url_model Fmt_model Fmt_spec Fmt_proof
  Scanf_model Scanf_spec Scanf_proof.

(** ** Scanning always has an outcome *)

Lemma longest_exists : forall (P : Z -> Prop) (dP : forall c, {P c} + {~ P c}) text room,
  match room with Some n => 0 <= n | None => True end ->
  exists tok rest, text = tok ++ rest /\ longest P room tok rest.
Proof.
  intros P dP. induction text as [|c text IH]; intros room Hr.
  - exists [], []. split; [reflexivity|]. split; [constructor|]. split; [destruct room; [rewrite zlen_nil|]; tauto|].
    left; reflexivity.
  - assert (Hstop : ~ P c \/ room = Some 0 -> exists tok rest, c :: text = tok ++ rest /\ longest P room tok rest).
    { intros H. exists [], (c :: text). split; [reflexivity|]. split; [constructor|].
      split; [destruct room; [rewrite zlen_nil|]; tauto|]. right. destruct H as [H|H].
      - right. exists c, text. split; [reflexivity|exact H].
      - left. exact H. }
    destruct (dP c) as [Hc|Hc]; [|apply Hstop; left; exact Hc].
    destruct room as [n|].
    + destruct (Z.eq_dec n 0) as [->|Hn]; [apply Hstop; right; reflexivity|].
      assert (Hr1 : 0 <= n - 1) by lia.
      destruct (IH (Some (n - 1)) Hr1) as (tok & rest & -> & L1 & L2 & L3).
      exists (c :: tok), rest. split; [reflexivity|]. split; [constructor; assumption|].
      rewrite zlen_cons. split; [lia|].
      destruct L3 as [L3|[L3|L3]]; [left; exact L3|right; left; injection L3 as L3; f_equal; lia|right; right; exact L3].
    + destruct (IH None Logic.I) as (tok & rest & -> & L1 & L2 & L3).
      exists (c :: tok), rest. split; [reflexivity|]. split; [constructor; assumption|]. split; [exact Logic.I|].
      destruct L3 as [L3|[L3|L3]]; [left; exact L3|discriminate|right; right; exact L3].
Qed.

Definition dec_dec : forall c, {dec c} + {~ dec c}.
Proof. intros c. unfold dec. destruct (Z_le_dec 48 c), (Z_le_dec c 57); (left; lia) || (right; lia). Defined.
Definition oct_dec : forall c, {oct c} + {~ oct c}.
Proof. intros c. unfold oct. destruct (Z_le_dec 48 c), (Z_le_dec c 55); (left; lia) || (right; lia). Defined.
Definition hex_dec : forall c, {hex c} + {~ hex c}.
Proof.
  intros c. unfold hex.
  destruct (Z_le_dec 48 c), (Z_le_dec c 57), (Z_le_dec 97 c), (Z_le_dec c 102), (Z_le_dec 65 c), (Z_le_dec c 70);
    (left; lia) || (right; lia).
Defined.
Definition word_dec : forall c, {c <> 32} + {~ c <> 32}.
Proof. intros c. destruct (Z.eq_dec c 32); [right|left]; lia. Defined.

Lemma digits_exist : forall (P : Z -> Prop) (R : Z -> Z -> Prop), (forall c, P c -> exists d, R c d) ->
  forall tok, Forall P tok -> exists ds, Forall2 R tok ds.
Proof.
  intros P R H tok HF. induction HF as [|c tok Hc HF IH]; [exists []; constructor|].
  destruct (H c Hc) as [d Hd]. destruct IH as [ds Hds]. exists (d :: ds). constructor; assumption.
Qed.
Lemma dec_digit : forall c, dec c -> exists d, dec_char c d.
Proof. intros c H. exists (c - 48). unfold dec, dec_char in *. lia. Qed.
Lemma oct_digit : forall c, oct c -> exists d, oct_char c d.
Proof. intros c H. exists (c - 48). unfold oct, oct_char in *. lia. Qed.
Lemma hex_digit : forall c, hex c -> exists d, hex_char c d.
Proof.
  intros c H. unfold hex in H. unfold hex_char, lower_hex_char, upper_hex_char.
  destruct H as [H|[H|H]]; [exists (c - 48)|exists (c - 87)|exists (c - 55)]; lia.
Qed.

Lemma sign_exists : forall t : list Z, exists neg s r, t = s ++ r /\ sign_text neg s /\ zlen s <= 1
  /\ (s = [] -> hd 0 r <> 45 /\ hd 0 r <> 43).
Proof.
  intros t. destruct t as [|c t].
  - exists false, [], []. split; [reflexivity|]. split; [right; tauto|]. split; [rewrite zlen_nil; lia|]. cbn. lia.
  - destruct (Z.eq_dec c 45) as [->|H1]; [|destruct (Z.eq_dec c 43) as [->|H2]].
    + exists true, [45], t. split; [reflexivity|]. split; [left; tauto|]. split; [rewrite zlen_cons, zlen_nil; lia|discriminate].
    + exists false, [43], t. split; [reflexivity|]. split; [right; tauto|]. split; [rewrite zlen_cons, zlen_nil; lia|discriminate].
    + exists false, [], (c :: t). split; [reflexivity|]. split; [right; tauto|]. split; [rewrite zlen_nil; lia|]. intros _. cbn. lia.
Qed.

Lemma room_sign : forall width (s : list Z), 0 <= width -> zlen s <= 1 ->
  match less (room_of width) (zlen s) with Some n => 0 <= n | None => True end.
Proof. intros width s Hw Hs. unfold room_of. destruct (Z.eqb_spec width 0); cbn [less]; [exact Logic.I|lia]. Qed.
Lemma room_none : forall width, 0 <= width ->
  match room_of width with Some n => 0 <= n | None => True end.
Proof. intros width Hw. unfold room_of. destruct (Z.eqb_spec width 0); [exact Logic.I|lia]. Qed.
Lemma room_eq_dec : forall (r : option Z) n, {r = Some n} + {r <> Some n}.
Proof. intros [m|] n; [destruct (Z.eq_dec m n); [left; congruence|right; congruence]|right; discriminate]. Qed.

Lemma reads_total : forall l width t p, 0 <= width -> t <> [] -> hd 0 t <> 32 ->
  (exists rest v, reads l width t p rest v) \/ no_number l width t.
Proof.
  intros l width t p Hw Hn Ht.
  destruct (in_dec Z.eq_dec l (bs "dxXoscf")) as [Hin|Hout].
  2:{ left. exists t, None. apply reads_other. exact Hout. }
  assert (Hc : l = 100 \/ (l = 120 \/ l = 88) \/ l = 111 \/ l = 115 \/ l = 99 \/ l = 102).
  { change (bs "dxXoscf") with [100; 120; 88; 111; 115; 99; 102] in Hin. cbn [In] in Hin. lia. }
  destruct Hc as [Hl|[Hl|[Hl|[Hl|[Hl|Hl]]]]].
  - destruct (sign_exists t) as (neg & s & r & -> & Hs & Hs1 & Hr).
    destruct (longest_exists dec dec_dec r _ (room_sign width s Hw Hs1)) as (tok & rest & -> & HL).
    destruct (digits_exist dec dec_char dec_digit tok (proj1 HL)) as [ds Hds].
    destruct tok as [|c tok].
    + right. apply (no_d _ _ neg s rest); assumption.
    + left. eexists; eexists. apply (reads_d l width neg s (c :: tok) ds rest p); try assumption. discriminate.
  - destruct (longest_exists hex hex_dec t _ (room_none width Hw)) as (tok & rest & -> & HL).
    destruct (digits_exist hex hex_char hex_digit tok (proj1 HL)) as [ds Hds].
    destruct tok as [|c tok].
    + right. apply no_x; assumption.
    + left. eexists; eexists. apply (reads_x l width (c :: tok) ds rest p); try assumption. discriminate.
  - destruct (longest_exists oct oct_dec t _ (room_none width Hw)) as (tok & rest & -> & HL).
    destruct (digits_exist oct oct_char oct_digit tok (proj1 HL)) as [ds Hds].
    destruct tok as [|c tok].
    + right. apply no_o; assumption.
    + left. eexists; eexists. apply (reads_o l width (c :: tok) ds rest p); try assumption. discriminate.
  - destruct (longest_exists _ word_dec t _ (room_none width Hw)) as (tok & rest & -> & HL).
    left. eexists; eexists. apply (reads_s l width tok rest p); try assumption.
    intros ->. destruct HL as (_ & _ & [HL|[HL|(c & r & HL & Hc)]]).
    + subst rest. apply Hn. reflexivity.
    + unfold room_of in HL. destruct (Z.eqb_spec width 0); [discriminate|]. rewrite zlen_nil in HL. injection HL as HL. lia.
    + subst rest. cbn in Ht. lia.
  - destruct (Z_le_dec width 1) as [H1|H1].
    + destruct t as [|c t]; [congruence|]. left. exists t, (char_for p c). apply reads_c; assumption.
    + destruct (Z_lt_dec (zlen t) width) as [H2|H2].
      * left. exists t, None. apply reads_c_short; assumption.
      * left. assert (E : t = firstn (Z.to_nat width) t ++ skipn (Z.to_nat width) t) by (symmetry; apply firstn_skipn).
        exists (skipn (Z.to_nat width) t), (str_for p (firstn (Z.to_nat width) t)).
        rewrite E at 1. apply reads_cs; [exact Hl|lia|]. unfold zlen in *. rewrite firstn_length. lia.
  - destruct (sign_exists t) as (neg & s & r & -> & Hs & Hs1 & Hr).
    destruct (longest_exists dec dec_dec r _ (room_sign width s Hw Hs1)) as (a & rest & -> & HL).
    destruct (digits_exist dec dec_char dec_digit a (proj1 HL)) as [das Hda].
    destruct (room_eq_dec (room_of width) (zlen s + zlen a)) as [Hfull|Hroom].
    + destruct a as [|c a].
      * right. apply (no_f _ _ neg s rest); try assumption. left. rewrite zlen_nil, Z.add_0_r in Hfull. exact Hfull.
      * left. eexists; eexists. apply (reads_f l width neg s (c :: a) das rest p); try assumption;
          [discriminate|left; exact Hfull].
    + destruct rest as [|c rest]; [|destruct (Z.eq_dec c 46) as [->|Hc]].
      * destruct a as [|c a].
        -- right. apply (no_f _ _ neg s []); try assumption. right. cbn. lia.
        -- left. eexists; eexists. apply (reads_f l width neg s (c :: a) das [] p); try assumption;
             [discriminate|right; cbn; lia].
      * assert (Hr2 : match less (room_of width) (zlen s + zlen a + 1) with Some n => 0 <= n | None => True end).
        { pose proof (longest_room _ _ _ _ _ (zlen_nonneg s) HL) as K. destruct (room_of width) as [m|]; cbn [less]; [|exact Logic.I].
          assert (m <> zlen s + zlen a) by congruence. lia. }
        destruct (longest_exists dec dec_dec rest _ Hr2) as (b & rest2 & -> & HLb).
        destruct (digits_exist dec dec_char dec_digit b (proj1 HLb)) as [dbs Hdb].
        destruct a as [|ca a].
        -- destruct b as [|cb b].
           ++ right. rewrite zlen_nil, Z.add_0_r in Hroom, HLb.
              apply (no_f_point _ _ neg s rest2); assumption.
           ++ left. eexists; eexists. apply (reads_f_point l width neg s [] das (cb :: b) dbs rest2 p); try assumption.
              right; discriminate.
        -- left. eexists; eexists. apply (reads_f_point l width neg s (ca :: a) das b dbs rest2 p); try assumption.
           left; discriminate.
      * destruct a as [|ca a].
        -- right. apply (no_f _ _ neg s (c :: rest)); try assumption. right. exact Hc.
        -- left. eexists; eexists. apply (reads_f l width neg s (ca :: a) das (c :: rest) p); try assumption;
             [discriminate|right; exact Hc].
Qed.

Lemma scan_total : forall its, Forall fitem_ok its -> forall text ps, exists vs, scan its text ps vs.
Proof.
  induction its as [|it its IH]; intros Hits text ps; [exists []; constructor|].
  inversion Hits as [|? ? Hi Hits']; subst. specialize (IH Hits').
  destruct it as [c| | |w l].
  - destruct text as [|c' text]; [exists []; constructor|].
    destruct (Z.eq_dec c c') as [<-|Hn].
    + destruct (IH text ps) as [vs H]. exists vs. constructor. exact H.
    + exists []. constructor. exact Hn.
  - destruct (blanks_split text) as (k & t & -> & Ht). destruct (IH t ps) as [vs H].
    exists vs. constructor; assumption.
  - destruct text as [|c text]; [exists []; constructor|].
    destruct (Z.eq_dec c 37) as [->|Hn].
    + destruct (IH text ps) as [vs H]. exists vs. constructor. exact H.
    + exists []. constructor. exact Hn.
  - destruct ps as [|p ps]; [exists []; constructor|].
    destruct (blanks_split text) as (k & t & -> & Ht).
    destruct t as [|c t]; [exists []; rewrite app_nil_r; constructor|].
    cbn in Hi. destruct Hi as (Hw & _).
    assert (Hn : c :: t <> []) by discriminate.
    destruct (reads_total l (digit_value w) (c :: t) p (width_nonneg w Hw) Hn Ht) as [(rest & v & Hr)|Hno].
    + destruct (IH rest ps) as [vs H]. exists (v :: vs). apply (scan_conv w l k its (c :: t) rest p ps v vs); assumption.
    + exists []. apply scan_no_number; assumption.
Qed.

(** at most one entry for each argument *)
Lemma scan_len : forall its text ps vs, scan its text ps vs -> (length vs <= length ps)%nat.
Proof. intros its text ps vs H. induction H; cbn [length] in *; try lia. Qed.
Lemma stores_le : forall vs i, zlen (stores i vs) <= zlen vs.
Proof.
  induction vs as [|[v|] vs IH]; intros i; cbn [stores]; rewrite ?zlen_cons; [reflexivity| |];
    specialize (IH (i + 1)); lia.
Qed.

(** every format is made of items *)
Lemma narrow_tail : forall a b, narrow (a ++ b) -> narrow b.
Proof.
  intros a b H pre w post E Hw. apply (H (a ++ pre) w post); [|exact Hw]. rewrite E, <- app_assoc. reflexivity.
Qed.

Lemma format_exists : forall n fmt, (length fmt <= n)%nat -> narrow fmt ->
  exists its, format_of its fmt /\ Forall fitem_ok its.
Proof.
  induction n as [|n IH]; intros fmt Hlen Hnar.
  { destruct fmt; [|cbn in Hlen; lia]. exists []. split; [exists []; split; [reflexivity|left; reflexivity]|]. constructor. }
  destruct fmt as [|c fmt].
  { exists []. split; [exists []; split; [reflexivity|left; reflexivity]|]. constructor. }
  cbn [length] in Hlen.
  assert (Hadd : forall it r, c :: fmt = fitem_text it ++ r -> (length r <= n)%nat -> fitem_ok it ->
     exists its, format_of its (c :: fmt) /\ Forall fitem_ok its).
  { intros it r E Hr Hit. rewrite E in Hnar.
    destruct (IH r Hr (narrow_tail _ _ Hnar)) as (its & (tail & Er & Ht) & Hok).
    exists (it :: its). split; [|constructor; assumption].
    exists tail. split; [|exact Ht]. rewrite E, Er. cbn [map concat]. rewrite app_assoc. reflexivity. }
  destruct (Z.eq_dec c 37) as [->|Hc].
  - destruct (longest_exists dec dec_dec fmt None Logic.I) as (w & r & E & (L1 & _ & L3)).
    destruct r as [|l r].
    + exists []. split; [|constructor]. exists (37 :: fmt). split; [reflexivity|]. right. exists w.
      rewrite app_nil_r in E. subst w. split; [reflexivity|exact L1].
    + assert (Hl : ~ dec l).
      { destruct L3 as [L3|[L3|(c & r' & L3 & Hd)]]; [discriminate|discriminate|]. injection L3 as <- <-. exact Hd. }
      assert (Hb : digit_value w < 2147483648).
      { apply (Hnar [] w (l :: r)); [rewrite E; reflexivity|exact L1]. }
      destruct w as [|d w].
      * cbn [app] in E. subst fmt. destruct (Z.eq_dec l 37) as [->|Hl37].
        -- apply (Hadd FPercent r); [reflexivity|cbn [length] in Hlen; lia|exact Logic.I].
        -- apply (Hadd (FConv [] l) r); [reflexivity|cbn [length] in Hlen; lia|].
           cbn. split; [constructor|]. split; [exact Hb|]. split; [exact Hl|intros _; exact Hl37].
      * subst fmt. apply (Hadd (FConv (d :: w) l) r).
        -- cbn [fitem_text app]. do 2 f_equal. rewrite <- app_assoc. reflexivity.
        -- rewrite app_length in Hlen. cbn [length] in Hlen. lia.
        -- cbn [fitem_ok]. split; [exact L1|]. split; [exact Hb|]. split; [exact Hl|discriminate].
  - destruct (Z.eq_dec c 32) as [->|Hc2].
    + apply (Hadd FBlank fmt); [reflexivity|lia|exact Logic.I].
    + apply (Hadd (FLit c) fmt); [reflexivity|lia|split; assumption].
Qed.

(** ** Reading back *)

(** A text made of one piece for each item of the format, each conversion reading
    its piece back. *)
Inductive lines : list fitem -> list any -> list Z -> Prop :=
| lines_nil : lines [] [] []
| lines_lit c fl args o : c <> 32 -> lines fl args o -> lines (FLit c :: fl) args (c :: o)
| lines_blank fl args o : lines fl args o -> lines (FBlank :: fl) args (32 :: o)
| lines_pct fl args o : lines fl args o -> lines (FPercent :: fl) args (37 :: o)
| lines_conv l fl a args o rest : o <> [] -> hd 0 o <> 32 ->
    reads l 0 (o ++ rest) (back_ptr a) rest (Some (back_value a)) ->
    lines fl args rest -> lines (FConv [] l :: fl) (a :: args) (o ++ rest).

Lemma repeat_0_hd : forall k (out out' : list Z), out = repeat 32 k ++ out' -> hd 0 out <> 32 -> out' = out.
Proof. intros k out out' E H. destruct k as [|k]; [cbn in E; congruence|]. subst out. cbn in H. congruence. Qed.

Lemma lines_scan : forall fl args out, lines fl args out ->
  forall k out', out = repeat 32 k ++ out' ->
  scan fl out' (map back_ptr args) (map (fun a => Some (back_value a)) args).
Proof.
  intros fl args out H. induction H as [|c fl args o Hc H IH|fl args o H IH|fl args o H IH
    |l fl a args o rest Hn Hh Hr H IH]; intros k out' E.
  - constructor.
  - apply repeat_0_hd in E; [|exact Hc]. subst out'. constructor. exact (IH O o eq_refl).
  - destruct k as [|k].
    + cbn [repeat app] in E. subst out'. destruct (blanks_split o) as (j & t & -> & Ht).
      change (32 :: repeat 32 j ++ t) with (repeat 32 (S j) ++ t). constructor; [exact Ht|].
      exact (IH j t eq_refl).
    + cbn [repeat app] in E. injection E as E.
      destruct (blanks_split out') as (j & t & -> & Ht). constructor; [exact Ht|].
      apply (IH (k + j)%nat t). rewrite E, repeat_app, <- app_assoc. reflexivity.
  - apply repeat_0_hd in E; [|cbn; lia]. subst out'. constructor. exact (IH O o eq_refl).
  - apply repeat_0_hd in E. 2:{ destruct o; [congruence|exact Hh]. } subst out'. cbn [map].
    apply (scan_conv [] l 0 fl (o ++ rest) rest (back_ptr a) _ _ _).
    + destruct o; [congruence|discriminate].
    + destruct o; [congruence|exact Hh].
    + exact Hr.
    + exact (IH O rest eq_refl).
Qed.

Definition fitems_of (it : item) : list fitem :=
  match it with
  | Lit s => map (fun c => if c =? 32 then FBlank else FLit c) s
  | Percent => [FPercent]
  | Dir _ w conv => [FConv w conv]
  end.
Definition fitems (its : list item) : list fitem := concat (map fitems_of its).

Lemma lit_text : forall s, concat (map fitem_text (fitems_of (Lit s))) = s.
Proof.
  induction s as [|c s IH]; [reflexivity|]. cbn [fitems_of map concat] in *.
  destruct (Z.eqb_spec c 32) as [->|Hc]; cbn [fitem_text app]; rewrite IH; reflexivity.
Qed.
Lemma fitems_text : forall its args, readable its args ->
  concat (map fitem_text (fitems its)) = concat (map item_text its).
Proof.
  intros its args H. induction H as [|s its args Hs H IH|its args H IH|conv its a args Ha Hc H IH];
    unfold fitems in *; cbn [map concat]; rewrite ?map_app, ?concat_app, ?IH.
  - reflexivity.
  - rewrite lit_text. reflexivity.
  - reflexivity.
  - reflexivity.
Qed.
Lemma fitems_ok : forall its args, readable its args -> Forall item_ok its -> Forall fitem_ok (fitems its).
Proof.
  intros its args H. induction H as [|s its args Hs H IH|its args H IH|conv its a args Ha Hc H IH]; intros HF;
    unfold fitems in *; cbn [map concat]; [constructor| | |]; inversion HF as [|? ? Hi HF']; subst; apply Forall_app; split;
    try (apply IH; assumption).
  - cbn [fitems_of]. rewrite Forall_map. apply Forall_forall. intros c Hin.
    destruct (Z.eqb_spec c 32); cbn; [exact Logic.I|]. split; [|assumption]. intros ->. exact (Hi Hin).
  - repeat constructor.
  - cbn [fitems_of]. constructor; [|constructor]. cbn.
    destruct Hi as (_ & _ & Hi & _). change (bs "vcdsxX") with [118; 99; 100; 115; 120; 88] in Hi. cbn [In] in Hi.
    split; [constructor|]. split; [reflexivity|]. split; [lia|]. lia.
Qed.

(** after a value comes nothing that belongs to it *)
Lemma after_ok : forall its args out conv (P : Z -> Prop), printed its args out ->
  (forall s r, its = Lit s :: r -> s <> []) ->
  can_follow conv its -> conv <> 99 ->
  (forall c s r, its = Lit (c :: s) :: r -> ~ P c) -> (conv <> 115 -> ~ P 37) ->
  out = [] \/ exists c r, out = c :: r /\ ~ P c.
Proof.
  intros its args out conv P H Hlit Hf Hc HP H37. destruct H as [args|s its args out H|its args out H|zero width cv its arg args o out Hs H].
  - left; reflexivity.
  - right. destruct s as [|c s]; [exfalso; exact (Hlit [] its eq_refl eq_refl)|].
    exists c, (s ++ out). split; [reflexivity|]. exact (HP c s its eq_refl).
  - right. exists 37, out. split; [reflexivity|]. apply H37. exact Hf.
  - cbn in Hf. congruence.
Qed.

Lemma pad0 : forall c s o, padded c 0 s o -> o = s.
Proof. intros c s o (k & -> & Hk). pose proof (zlen_nonneg s). assert (k = O) as -> by lia. reflexivity. Qed.

Lemma longest_all : forall (P : Z -> Prop) R (Q : Z -> Z -> Prop) tok ds rest, Forall2 Q tok ds -> (forall c d, Q c d -> P c) ->
  (rest = [] \/ exists c r, rest = c :: r /\ ~ P c) -> R = None -> longest P R tok rest.
Proof.
  intros P R Q tok ds rest HF HQ Hr ->. split.
  - induction HF as [|c d tok ds Hc HF IH]; constructor; [exact (HQ c d Hc)|exact IH].
  - split; [exact Logic.I|]. destruct Hr as [Hr|Hr]; [left; exact Hr|right; right; exact Hr].
Qed.
Lemma dec_of : forall c d, dec_char c d -> dec c.
Proof. unfold dec_char, dec. intros; lia. Qed.
Lemma hex_of : forall c d, hex_char c d -> hex c.
Proof. unfold hex_char, lower_hex_char, upper_hex_char, hex. intros; lia. Qed.

Lemma to_signed_id : forall w v, int_width w -> - 2 ^ (w - 1) <= v < 2 ^ (w - 1) -> to_signed w v = v.
Proof.
  intros w v H Hv. unfold to_signed. cbn in H.
  destruct H as [<-|[<-|[<-|[<-|[]]]]]; pows; cbv zeta;
    match goal with |- context [if ?b then _ else _] => destruct b eqn:E end;
    Z.div_mod_to_equations; lia.
Qed.
Lemma to_signed_mod : forall w v, int_width w -> to_signed w (v mod 2 ^ w) = to_signed w v.
Proof.
  intros w v H. unfold to_signed. rewrite Z.mod_mod; [reflexivity|].
  cbn in H. destruct H as [<-|[<-|[<-|[<-|[]]]]]; pows; lia.
Qed.

Lemma reads_dec : forall p s n rest, numeral 10 dec_char s n ->
  (rest = [] \/ exists c r, rest = c :: r /\ ~ dec c) -> reads 100 0 (s ++ rest) p rest (int_for p n).
Proof.
  intros p s n rest (ds & HF & Hn & Hv & _) Hr. rewrite <- Hv.
  apply (reads_d 100 0 false [] s ds rest p).
  - reflexivity.
  - right; tauto.
  - exact (longest_all dec _ dec_char s ds rest HF dec_of Hr eq_refl).
  - exact HF.
  - intros ->. inversion HF; subst. congruence.
Qed.
Lemma reads_dec_neg : forall w s n rest, numeral 10 dec_char s n ->
  (rest = [] \/ exists c r, rest = c :: r /\ ~ dec c) ->
  reads 100 0 (45 :: s ++ rest) (PSigned w) rest (int_for (PSigned w) (- n)).
Proof.
  intros w s n rest (ds & HF & Hn & Hv & _) Hr. rewrite <- Hv.
  apply (reads_d 100 0 true [45] s ds rest (PSigned w)).
  - reflexivity.
  - left; tauto.
  - exact (longest_all dec _ dec_char s ds rest HF dec_of Hr eq_refl).
  - exact HF.
  - intros ->. inversion HF; subst. congruence.
Qed.
Lemma reads_hex : forall l p s n rest (char : Z -> Z -> Prop), l = 120 \/ l = 88 -> (forall c d, char c d -> hex_char c d) ->
  numeral 16 char s n ->
  (rest = [] \/ exists c r, rest = c :: r /\ ~ hex c) -> reads l 0 (s ++ rest) p rest (int_for p n).
Proof.
  intros l p s n rest char Hl Hchar (ds & HF0 & Hn & Hv & _) Hr. rewrite <- Hv.
  assert (HF : Forall2 hex_char s ds) by (clear - HF0 Hchar; induction HF0; constructor; auto).
  apply (reads_x l 0 s ds rest p).
  - exact Hl.
  - exact (longest_all hex _ hex_char s ds rest HF hex_of Hr eq_refl).
  - exact HF.
  - intros ->. inversion HF; subst. congruence.
Qed.

Lemma numeral_front : forall b (char : Z -> Z -> Prop) s n rest, numeral b char s n -> (forall d, ~ char 32 d) ->
  s <> [] /\ hd 0 (s ++ rest) <> 32.
Proof.
  intros b char s n rest (ds & HF & Hn & _) Hc. destruct HF as [|c d s ds Hcd HF]; [congruence|].
  split; [discriminate|]. cbn. intros ->. exact (Hc d Hcd).
Qed.
Lemma hd_app : forall (s rest : list Z), s <> [] -> hd 0 (s ++ rest) = hd 0 s.
Proof. intros [|c s] rest H; [congruence|reflexivity]. Qed.

Lemma piece_ok : forall conv a its args o out,
  readable_arg conv a -> can_follow conv its -> (forall s r, its = Lit s :: r -> s <> []) ->
  printable false 0 conv a -> shown false 0 conv a o -> printed its args out ->
  o <> [] /\ hd 0 o <> 32 /\ reads conv 0 (o ++ out) (back_ptr a) out (Some (back_value a)).
Proof.
  intros conv a its args o out Hra Hf Hlit Hpr Hs Hout.
  assert (Hd : conv = 100 -> out = [] \/ exists c r, out = c :: r /\ ~ dec c).
  { intros ->. apply (after_ok its args out 100 dec Hout Hlit Hf); [lia| |intros _; unfold dec; lia].
    intros c s r ->. exact Hf. }
  assert (Hx : conv = 120 \/ conv = 88 -> out = [] \/ exists c r, out = c :: r /\ ~ hex c).
  { intros Hc. apply (after_ok its args out conv hex Hout Hlit Hf); [lia| |intros _; unfold hex; lia].
    intros c s r ->. cbn in Hf. destruct Hc as [->| ->]; exact Hf. }
  assert (Hw : conv = 115 -> out = [] \/ exists c r, out = c :: r /\ ~ (c <> 32)).
  { intros ->. apply (after_ok its args out 115 (fun c => c <> 32) Hout Hlit Hf); [lia| |congruence].
    intros c s r ->. cbn in Hf. lia. }
  destruct a as [w v|w v|s|b| |bits v|]; cbn [readable_arg] in Hra; try contradiction; cbn [shown printable] in Hs, Hpr;
    cbn [back_ptr back_value].
  - destruct Hpr as (Hwd & Hv & _ & _).
    destruct Hs as [(-> & s & Hn & Hp)|[(-> & s & Hn & Hp)|[(-> & s & Hn & Hp)|(-> & _)]]].
    + apply pad0 in Hp. subst o. specialize (Hd eq_refl).
      destruct Hn as [[H0 Hn]|(H0 & s' & -> & Hn)].
      * destruct (numeral_front _ _ _ _ [] Hn) as [F1 F2]; [intros d [? ?]; lia|]. rewrite app_nil_r in F2.
        split; [exact F1|]. split; [exact F2|].
        pose proof (reads_dec (PSigned w) s v out Hn Hd) as R. cbn [int_for] in R.
        rewrite to_signed_id in R by assumption. exact R.
      * split; [discriminate|]. split; [cbn; lia|].
        pose proof (reads_dec_neg w s' (- v) out Hn Hd) as R. cbn [int_for] in R.
        rewrite Z.opp_involutive, to_signed_id in R by assumption. exact R.
    + apply pad0 in Hp. subst o. specialize (Hx (or_introl eq_refl)).
      destruct (numeral_front _ _ _ _ [] Hn) as [F1 F2]; [intros d [[? ?]|[? ?]]; lia|]. rewrite app_nil_r in F2.
      split; [exact F1|]. split; [exact F2|].
      pose proof (reads_hex 120 (PSigned w) s (v mod 2 ^ w) out lower_hex_char (or_introl eq_refl)
         (fun c d H => or_introl H) Hn Hx) as R. cbn [int_for] in R.
      rewrite to_signed_mod, to_signed_id in R by assumption. exact R.
    + apply pad0 in Hp. subst o. specialize (Hx (or_intror eq_refl)).
      destruct (numeral_front _ _ _ _ [] Hn) as [F1 F2]; [intros d [[? ?]|[? ?]]; lia|]. rewrite app_nil_r in F2.
      split; [exact F1|]. split; [exact F2|].
      pose proof (reads_hex 88 (PSigned w) s (v mod 2 ^ w) out upper_hex_char (or_intror eq_refl)
         (fun c d H => or_intror H) Hn Hx) as R. cbn [int_for] in R.
      rewrite to_signed_mod, to_signed_id in R by assumption. exact R.
    + exfalso. cbn in Hra. lia.
  - destruct Hpr as (Hwd & Hv & _ & _).
    assert (Em : v mod 2 ^ w = v) by (apply Z.mod_small; exact Hv).
    destruct Hs as [(-> & s & Hn & Hp)|[(-> & s & Hn & Hp)|[(-> & s & Hn & Hp)|[(-> & _)|(-> & -> & ->)]]]].
    + apply pad0 in Hp. subst o. specialize (Hd eq_refl).
      destruct (numeral_front _ _ _ _ [] Hn) as [F1 F2]; [intros d [? ?]; lia|]. rewrite app_nil_r in F2.
      split; [exact F1|]. split; [exact F2|].
      pose proof (reads_dec (PUnsigned w) s v out Hn Hd) as R. cbn [int_for] in R. rewrite Em in R. exact R.
    + apply pad0 in Hp. subst o. specialize (Hx (or_introl eq_refl)).
      destruct (numeral_front _ _ _ _ [] Hn) as [F1 F2]; [intros d [[? ?]|[? ?]]; lia|]. rewrite app_nil_r in F2.
      split; [exact F1|]. split; [exact F2|].
      pose proof (reads_hex 120 (PUnsigned w) s v out lower_hex_char (or_introl eq_refl)
         (fun c d H => or_introl H) Hn Hx) as R. cbn [int_for] in R. rewrite Em in R. exact R.
    + apply pad0 in Hp. subst o. specialize (Hx (or_intror eq_refl)).
      destruct (numeral_front _ _ _ _ [] Hn) as [F1 F2]; [intros d [[? ?]|[? ?]]; lia|]. rewrite app_nil_r in F2.
      split; [exact F1|]. split; [exact F2|].
      pose proof (reads_hex 88 (PUnsigned w) s v out upper_hex_char (or_intror eq_refl)
         (fun c d H => or_intror H) Hn Hx) as R. cbn [int_for] in R. rewrite Em in R. exact R.
    + exfalso. cbn in Hra. lia.
    + assert (Hv32 : v <> 32) by (cbn in Hra; lia).
      split; [discriminate|]. split; [exact Hv32|].
      pose proof (reads_c 99 0 v out (PUnsigned 8) eq_refl ltac:(lia)) as R. exact R.
  - destruct Hra as (-> & Hne & Hbl). destruct Hs as [_ ->]. specialize (Hw eq_refl).
    split; [exact Hne|]. split.
    + destruct s as [|c s]; [congruence|]. cbn. intros ->. apply Hbl. left. reflexivity.
    + apply (reads_s 115 0 s out PString eq_refl); [|exact Hne].
      split; [|split; [exact Logic.I|]].
      * apply Forall_forall. intros c Hin ->. exact (Hbl Hin).
      * destruct Hw as [Hw|Hw]; [left; exact Hw|right; right; exact Hw].
Qed.

Lemma lines_lits : forall s fl args o, lines fl args o ->
  lines (map (fun c => if c =? 32 then FBlank else FLit c) s ++ fl) args (s ++ o).
Proof.
  induction s as [|c s IH]; intros fl args o H; [exact H|]. cbn [map app].
  destruct (Z.eqb_spec c 32) as [->|Hc]; constructor; auto.
Qed.

Lemma readable_first : forall its args s r, readable its args -> its = Lit s :: r -> s <> [].
Proof. intros its args s r H E. subst its. inversion H; subst. assumption. Qed.

Lemma printed_lines : forall its args out, printed its args out -> readable its args -> all_printable its args ->
  lines (fitems its) args out.
Proof.
  intros its args out H. induction H as [args|s its args out H IH|its args out H IH
    |zero width conv its arg args o out Hs H IH]; intros Hr Ha; unfold fitems in *; cbn [map concat].
  - inversion Hr; subst. constructor.
  - inversion Hr; subst. inversion Ha; subst. cbn [fitems_of]. apply lines_lits. apply IH; assumption.
  - inversion Hr; subst. inversion Ha; subst. constructor. apply IH; assumption.
  - inversion Hr; subst. inversion Ha; subst.
    match goal with R : readable its args |- _ =>
      destruct (piece_ok conv arg its args o out ltac:(assumption) ltac:(assumption)
        (fun s r => readable_first its args s r R) ltac:(assumption) Hs H) as (P1 & P2 & P3) end.
    constructor; try assumption. apply IH; assumption.
Qed.

Lemma printed_back : forall ftos its args,
  all_printable its args -> Forall item_ok its -> readable its args ->
  exists out, sprintf ftos (concat (map item_text its)) args = Ok out /\
    scan (fitems its) out (map back_ptr args) (map (fun a => Some (back_value a)) args).
Proof.
  intros ftos its args Ha Hi Hr. destruct (sprintf_items ftos its args Ha Hi) as (out & E & Hp).
  exists out. split; [exact E|]. apply (lines_scan _ _ out (printed_lines _ _ _ Hp Hr Ha) O). reflexivity.
Qed.

Lemma stores_some : forall (args : list any) i,
  zlen (stores i (map (fun a => Some (back_value a)) args)) = zlen args.
Proof.
  induction args as [|a args IH]; intros i; cbn [map stores]; [reflexivity|]. rewrite !zlen_cons, IH. reflexivity.
Qed.
Lemma ptrs_ok : forall its args, readable its args -> all_printable its args -> Forall ptr_ok (map back_ptr args).
Proof.
  intros its args H. induction H as [|s its args Hs H IH|its args H IH|conv its a args Ha Hc H IH]; intros Hp;
    inversion Hp; subst; cbn [map]; auto.
  constructor; [|apply IH; assumption].
  destruct a; cbn in *; try exact Logic.I; tauto.
Qed.

(** ** What is stored fits *)

Lemma int_for_fits : forall p n v, ptr_ok p -> int_for p n = Some v -> fits p v.
Proof.
  intros p n v Hp E. destruct p; cbn [int_for ptr_ok] in *; try discriminate; injection E as <-; cbn [fits].
  - unfold to_signed. cbn in Hp. destruct Hp as [<-|[<-|[<-|[<-|[]]]]]; pows; cbv zeta;
      match goal with |- context [if ?b then _ else _] => destruct b eqn:E end;
      Z.div_mod_to_equations; lia.
  - apply Z.mod_pos_bound. cbn in Hp. destruct Hp as [<-|[<-|[<-|[<-|[]]]]]; pows; lia.
Qed.
Lemma str_for_fits : forall p s v, str_for p s = Some v -> fits p v.
Proof. intros p s v E. destruct p; try discriminate. injection E as <-. exact Logic.I. Qed.
Lemma float_for_fits : forall p n a b v, float_for p n a b = Some v -> fits p v.
Proof. intros p n a b v E. destruct p; try discriminate. injection E as <-. exact Logic.I. Qed.
Lemma char_for_fits : forall p c v, is_byte c -> ptr_ok p -> char_for p c = Some v -> fits p v.
Proof.
  intros p c v Hc Hp E. destruct p; try discriminate. cbn in Hp.
  destruct Hp as [<-|[<-|[<-|[<-|[]]]]]; cbn in E; try discriminate. injection E as <-. exact Hc.
Qed.

Lemma reads_fits : forall l width t p rest v, reads l width t p rest (Some v) -> ptr_ok p -> Forall is_byte t ->
  fits p v.
Proof.
  intros l width t p rest v H. remember (Some v) as o eqn:Eo. destruct H; intros Hp Hb.
  - destruct neg; [|exact (int_for_fits _ _ _ Hp Eo)].
    destruct p; try exact (int_for_fits _ _ _ Hp Eo). discriminate.
  - exact (int_for_fits _ _ _ Hp Eo).
  - exact (int_for_fits _ _ _ Hp Eo).
  - exact (str_for_fits _ _ _ Eo).
  - inversion Hb; subst. exact (char_for_fits _ c _ ltac:(assumption) Hp Eo).
  - exact (str_for_fits _ _ _ Eo).
  - discriminate.
  - exact (float_for_fits _ _ _ _ _ Eo).
  - exact (float_for_fits _ _ _ _ _ Eo).
  - discriminate.
Qed.
Lemma reads_rest : forall l width t p rest v, reads l width t p rest v -> exists tok, t = tok ++ rest.
Proof.
  intros l width t p rest v H. destruct H.
  - exists (s ++ tok). rewrite <- app_assoc. reflexivity.
  - exists tok. reflexivity.
  - exists tok. reflexivity.
  - exists tok. reflexivity.
  - exists [c]. reflexivity.
  - exists tok. reflexivity.
  - exists []. reflexivity.
  - exists (s ++ a). rewrite <- app_assoc. reflexivity.
  - exists (s ++ a ++ 46 :: b). rewrite <- !app_assoc. reflexivity.
  - exists []. reflexivity.
Qed.

Lemma scan_fits : forall its text ps vs, scan its text ps vs -> Forall ptr_ok ps -> Forall is_byte text ->
  forall j v, nth_error vs j = Some (Some v) -> exists p, nth_error ps j = Some p /\ fits p v.
Proof.
  intros its text ps vs H. induction H as [text ps|its ps|c its t ps vs H IH|c c' its t ps Hne
    |k its t ps vs Ht H IH|its t ps vs H IH|c its t ps Hne|w l its text|w l k its ps
    |w l k its t rest p ps v vs Hn Ht Hread H IH|w l k its t p ps Hn Ht Hno];
    intros Hp Hb j x Hj; try (destruct j; discriminate).
  - inversion Hb; subst. exact (IH Hp ltac:(assumption) j x Hj).
  - apply Forall_app in Hb. exact (IH Hp (proj2 Hb) j x Hj).
  - inversion Hb; subst. exact (IH Hp ltac:(assumption) j x Hj).
  - inversion Hp; subst. apply Forall_app in Hb. destruct Hb as [_ Hb].
    destruct j as [|j]; cbn [nth_error] in *.
    + injection Hj as ->. exists p. split; [reflexivity|].
      exact (reads_fits _ _ _ _ _ _ Hread ltac:(assumption) Hb).
    + destruct (reads_rest _ _ _ _ _ _ Hread) as [tok ->]. apply Forall_app in Hb.
      exact (IH ltac:(assumption) (proj2 Hb) j x Hj).
Qed.

(** the number of each store is that of its argument *)
Lemma stores_in : forall vs i0 i v, In (i, v) (stores i0 vs) ->
  i0 <= i /\ nth_error vs (Z.to_nat (i - i0)) = Some (Some v).
Proof.
  induction vs as [|[x|] vs IH]; intros i0 i v H; cbn [stores] in H; [destruct H| |].
  - destruct H as [H|H].
    + injection H as <- <-. split; [lia|]. rewrite Z.sub_diag. reflexivity.
    + apply IH in H. destruct H as [H1 H2]. split; [lia|].
      replace (Z.to_nat (i - i0)) with (S (Z.to_nat (i - (i0 + 1)))) by lia. exact H2.
  - apply IH in H. destruct H as [H1 H2]. split; [lia|].
    replace (Z.to_nat (i - i0)) with (S (Z.to_nat (i - (i0 + 1)))) by lia. exact H2.
Qed.

Lemma sscanf_ok : forall its fmt text ps vs,
  format_of its fmt -> Forall fitem_ok its -> Forall ptr_ok ps -> zlen text < 2 ^ 62 ->
  scan its text ps vs -> sscanf text fmt ps = Ok (stores 0 vs, zlen (stores 0 vs)).
Proof.
  intros its fmt text ps vs (tail & -> & Ht) Hits Hps Hlen H. unfold sscanf.
  pose proof (scan_loop_ok its text ps vs H [] [] [] tail (S (length (concat (map fitem_text its) ++ tail))) 0 []
    Hits Hps Ht) as L.
  cbn [app] in L. rewrite zlen_nil in L. rewrite zlen_nil in L. apply L; [|exact Hlen].
  rewrite app_length. enough (length its <= length (concat (map fitem_text its)))%nat by lia.
  clear. induction its as [|it its IH]; cbn [map concat length]; [lia|]. rewrite app_length.
  assert (1 <= length (fitem_text it))%nat; [|lia]. destruct it; cbn; lia.
Qed.

Lemma sscanf_safe : forall fmt text ps, Forall ptr_ok ps -> zlen text < 2 ^ 62 -> Forall is_byte text ->
  narrow fmt ->
  exists ws, sscanf text fmt ps = Ok (ws, zlen ws) /\ zlen ws <= zlen ps /\
    (forall i v, In (i, v) ws -> 0 <= i /\ exists p, nth_error ps (Z.to_nat i) = Some p /\ fits p v).
Proof.
  intros fmt text ps Hps Hlen Hb Hw.
  destruct (format_exists (length fmt) fmt (le_n _) Hw) as (its & Hf & Hits).
  destruct (scan_total its Hits text ps) as [vs H]. exists (stores 0 vs).
  split; [exact (sscanf_ok its fmt text ps vs Hf Hits Hps Hlen H)|]. split.
  - pose proof (stores_le vs 0). pose proof (scan_len _ _ _ _ H). unfold zlen in *. lia.
  - intros i v Hin. apply stores_in in Hin. rewrite Z.sub_0_r in Hin. destruct Hin as [H0 Hn].
    split; [exact H0|]. exact (scan_fits _ _ _ _ H Hps Hb _ _ Hn).
Qed.

Lemma sscanf_back : forall ftos its args,
  all_printable its args -> Forall item_ok its -> readable its args ->
  exists out, sprintf ftos (concat (map item_text its)) args = Ok out /\
    (zlen out < 2 ^ 62 ->
     sscanf out (concat (map item_text its)) (map back_ptr args)
       = Ok (stores 0 (map (fun a => Some (back_value a)) args), zlen args)).
Proof.
  intros ftos its args Ha Hi Hr. destruct (printed_back ftos its args Ha Hi Hr) as (out & E & Hs).
  exists out. split; [exact E|]. intros Hlen.
  rewrite <- (fitems_text its args Hr).
  rewrite (sscanf_ok (fitems its) _ out _ _) with (5 := Hs).
  - rewrite stores_some. reflexivity.
  - exists []. rewrite app_nil_r. split; [reflexivity|left; reflexivity].
  - exact (fitems_ok its args Hr Hi).
  - exact (ptrs_ok its args Hr Ha).
  - exact Hlen.
Qed.
