From Coq Require Import ZArith List Bool Lia ZifyBool ZifyNat.
From Verif Require Import Base Base_lemmas Jumps_model Jumps_spec.
Import ListNotations.
Open Scope Z_scope.

(** ** Encodings *)

Lemma jump_len : forall o p b, jump_bytes o p = Ok b ->
  Z.of_nat (length b) = match p with R8 _ => 2 | R32 _ => long_len o end.
Proof. intros [|c|] [v|v] b E; unfold jump_bytes in E; first [discriminate E | injection E as <-; reflexivity]. Qed.

Lemma jump_ok : forall o p, (o = Call -> exists v, p = R32 v) ->
  exists b, jump_bytes o p = Ok b.
Proof.
  intros [|c|] [v|v] H; cbn; eauto.
  destruct (H eq_refl) as (w & W). discriminate W.
Qed.

Lemma rewrite_sym_call : forall d, exists v, rewrite_sym Call d = R32 v.
Proof.
  intros d. unfold rewrite_sym. rewrite !orb_true_r. eauto.
Qed.

Lemma s8_mod : forall d, -128 <= d < 128 -> s8 (d mod 256) = d.
Proof.
  intros d H. unfold s8. destruct (Z.ltb_spec (d mod 256) 128);
    pose proof (Z.mod_pos_bound d 256 ltac:(lia)); pose proof (Z.div_mod d 256 ltac:(lia));
    assert (d / 256 = 0 \/ d / 256 = -1) by (assert (-1 <= d / 256 < 1) by
      (split; [apply Z.div_le_lower_bound | apply Z.div_lt_upper_bound]; lia); lia); lia.
Qed.

Lemma le32_val : forall v, 0 <= v < 2 ^ 32 ->
  v mod 256 + 256 * ((v / 256) mod 256) + 65536 * ((v / 65536) mod 256)
    + 16777216 * ((v / 16777216) mod 256) = v.
Proof.
  intros v H. change (2 ^ 32) with 4294967296 in H.
  assert (E1 : v / 65536 = v / 256 / 256) by (rewrite Z.div_div by lia; reflexivity).
  assert (E2 : v / 16777216 = v / 256 / 256 / 256) by (rewrite !Z.div_div by lia; reflexivity).
  rewrite E1, E2.
  pose proof (Z.div_mod v 256 ltac:(lia)).
  pose proof (Z.div_mod (v / 256) 256 ltac:(lia)).
  pose proof (Z.div_mod (v / 256 / 256) 256 ltac:(lia)).
  assert (0 <= v / 256 / 256 / 256 < 256).
  { rewrite <- E2. split; [apply Z.div_pos | apply Z.div_lt_upper_bound]; lia. }
  rewrite (Z.mod_small (v / 256 / 256 / 256) 256) by lia. lia.
Qed.

Definition s32l (v : Z) : Z := if v <? 2 ^ 31 then v else v - 2 ^ 32.
Lemma s32_le32 : forall v, 0 <= v < 2 ^ 32 ->
  s32 (v mod 256) ((v / 256) mod 256) ((v / 65536) mod 256) ((v / 16777216) mod 256) = s32l v.
Proof. intros v H. unfold s32. rewrite le32_val by assumption. reflexivity. Qed.
Lemma s32l_mod : forall d, - 2 ^ 31 <= d < 2 ^ 31 -> s32l (d mod 2 ^ 32) = d.
Proof.
  intros d H. change (2 ^ 31) with 2147483648 in H. unfold s32l.
  change (2 ^ 32) with 4294967296. change (2 ^ 31) with 2147483648.
  destruct (Z.ltb_spec (d mod 4294967296) 2147483648);
    pose proof (Z.mod_pos_bound d 4294967296 ltac:(lia)); pose proof (Z.div_mod d 4294967296 ltac:(lia));
    assert (d / 4294967296 = 0 \/ d / 4294967296 = -1) by (assert (-1 <= d / 4294967296 < 1) by
      (split; [apply Z.div_le_lower_bound | apply Z.div_lt_upper_bound]; lia); lia); lia.
Qed.

(** what the bytes of a jump decode to *)
Definition opr_disp (p : opr) : Z := match p with R8 v => s8 v | R32 v => s32l v end.
Definition opr_ok (p : opr) : Prop := match p with R8 v => 0 <= v < 256 | R32 v => 0 <= v < 2 ^ 32 end.

Lemma decode_jump_bytes : forall o p b, jump_bytes o p = Ok b -> opr_ok p ->
  decode_jump b = Some (o, opr_disp p).
Proof.
  intros o p b E H. unfold jump_bytes in E.
  destruct o as [|c|], p as [v|v]; try discriminate E; injection E as <-;
    unfold opr_ok in H; cbn [opr_disp]; unfold le32.
  - reflexivity.
  - rewrite <- s32_le32 by assumption. reflexivity.
  - destruct c; reflexivity.
  - rewrite <- s32_le32 by assumption.
    destruct c; reflexivity.
  - rewrite <- s32_le32 by assumption. reflexivity.
Qed.

Lemma long_len_range : forall o, 5 <= long_len o <= 6.
Proof. intros [|c|]; cbn; lia. Qed.

Lemma rewrite_sym_ok : forall o d, opr_ok (rewrite_sym o d).
Proof.
  intros o d. unfold rewrite_sym.
  destruct (_ || _); cbn [opr_ok].
  - destruct (d =? 0); [change (2^32) with 4294967296; lia | apply Z.mod_pos_bound; lia].
  - apply Z.mod_pos_bound; lia.
Qed.

Lemma rewrite_sym_goes : forall o d b q, jump_bytes o (rewrite_sym o d) = Ok b ->
  d <> 0 -> - 2 ^ 31 <= d - long_len o -> d < 2 ^ 31 ->
  goes_to b q = Some (o, q + d).
Proof.
  intros o d b q E D L H. unfold goes_to.
  rewrite (decode_jump_bytes _ _ _ E (rewrite_sym_ok o d)).
  rewrite (jump_len _ _ _ E). do 2 f_equal.
  unfold rewrite_sym. destruct (Z.eqb_spec d 0); [lia|]. cbn [orb].
  pose proof (long_len_range o).
  destruct (Z.ltb_spec 129 d); [|destruct (Z.ltb_spec d (-126)); [|destruct o as [|c|]]];
    cbn [orb opr_disp]; try (rewrite s32l_mod by lia); try (rewrite s8_mod by lia); lia.
Qed.

Lemma rewrite_rel_goes : forall o v d b q, jump_bytes o (rewrite_rel o (R32 v) d) = Ok b ->
  d <> 0 -> - 2 ^ 31 <= d - long_len o -> d < 2 ^ 31 ->
  goes_to b q = Some (o, q + d).
Proof.
  intros o v d b q E D L H. unfold rewrite_rel in E.
  destruct (Z.eqb_spec d 0); [lia|].
  unfold goes_to. rewrite (decode_jump_bytes _ _ _ E) by (cbn [opr_ok]; apply Z.mod_pos_bound; lia).
  rewrite (jump_len _ _ _ E). do 2 f_equal. cbn [opr_disp].
  pose proof (long_len_range o). rewrite s32l_mod by lia. lia.
Qed.

Lemma int32_id : forall v, - 2 ^ 31 <= v < 2 ^ 31 -> int32 v = v.
Proof. intros v H. unfold int32. rewrite Z.mod_small by lia. lia. Qed.

(** ** The first pass *)

Lemma pass1_app : forall a s b, pass1 s (a ++ b) = bind (pass1 s a) (fun s => pass1 s b).
Proof.
  induction a as [|x a IH]; intros s b; cbn [pass1 app]; [reflexivity|].
  destruct (pass1_step s x); cbn [bind]; auto.
Qed.

Definition datas (ts : list temp) := map t_data ts.

Lemma pos_app : forall a b i, (i <= length a)%nat -> pos (a ++ b) i = pos a i.
Proof.
  intros a b i H. unfold pos. rewrite firstn_app.
  replace (i - length a)%nat with 0%nat by lia. cbn [firstn]. rewrite app_nil_r. reflexivity.
Qed.
Lemma pos_all : forall a, pos a (length a) = Z.of_nat (length (concat a)).
Proof. intros a. unfold pos. rewrite firstn_all. reflexivity. Qed.
Lemma pos_S : forall a i c, nth_error a i = Some c -> pos a (S i) = pos a i + Z.of_nat (length c).
Proof.
  intros a i c H. unfold pos.
  destruct (nth_error_split _ _ H) as (x & y & -> & L). subst i.
  rewrite !firstn_app. replace (S (length x) - length x)%nat with 1%nat by lia.
  replace (length x - length x)%nat with 0%nat by lia.
  rewrite (firstn_all2 x) by lia. rewrite firstn_all.
  cbn [firstn]. rewrite !concat_app. cbn [concat]. rewrite !app_length. cbn [length]. lia.
Qed.
Lemma pos_mono : forall a i j, (i <= j)%nat -> pos a i <= pos a j.
Proof.
  intros a i j H. unfold pos.
  replace (firstn i a) with (firstn i (firstn j a)) by (rewrite firstn_firstn; f_equal; lia).
  set (b := firstn j a). rewrite <- (firstn_skipn i b) at 2.
  rewrite concat_app, app_length. lia.
Qed.
Lemma pos_le_total : forall a i, pos a i <= Z.of_nat (length (concat a)).
Proof.
  intros a i. unfold pos. rewrite <- (firstn_skipn i a) at 2. rewrite concat_app, app_length. lia.
Qed.
Lemma pos_nonneg : forall a i, 0 <= pos a i.
Proof. intros. unfold pos. lia. Qed.

Definition has_data (l : list item) (n : nat) : Prop :=
  exists b k t, In (Data b k t n) l.

(** what the symbol table says after the instructions [p], laid out as [cs] *)
Definition tab_ok (t : symtab) (p : list item) (cs : list (list Z)) : Prop :=
  forall n,
    (forall j, nth_error p j = Some (Label n) -> lookup t n = Some (pos cs j)) /\
    (~ defined p n -> has_data p n -> lookup t n = Some 0) /\
    (~ defined p n -> ~ has_data p n -> lookup t n = None).

(** what the first pass makes of instruction [x] after the instructions [p] *)
Definition temp_ok (p : list item) (cs : list (list Z)) (x : item) (t : temp) : Prop :=
  t_off t = Z.of_nat (length (concat cs)) /\
  match x with
  | Label _ => t_jump t = None /\ t_rel t = None /\ t_data t = []
  | Plain b | Data b _ _ _ => t_jump t = None /\ t_rel t = None /\ t_data t = b
  | Jump o n =>
      exists q, t_jump t = Some (o, q) /\ jump_bytes o q = Ok (t_data t) /\
        ((t_rel t = Some n /\ q = R32 0 /\ ~ defined p n /\ ~ has_data p n) \/
         (t_rel t = None /\ exists v, q = rewrite_sym o (int32 (v - t_off t)) /\
            ((exists j, nth_error p j = Some (Label n) /\ v = pos cs j) \/
             (v = 0 /\ ~ defined p n /\ has_data p n))))
  end.

Definition temps_ok (p : list item) (ts : list temp) : Prop :=
  length ts = length p /\
  forall i x t, nth_error p i = Some x -> nth_error ts i = Some t ->
    temp_ok (firstn i p) (firstn i (datas ts)) x t.

Definition uniq (p : list item) : Prop := one_definition p.

Lemma uniq_app : forall p x, uniq (p ++ x) -> uniq p.
Proof.
  intros p x H i j n A B. apply (H i j n); rewrite nth_error_app1; auto;
    apply nth_error_Some; congruence.
Qed.

Lemma defined_dec : forall p n, {defined p n} + {~ defined p n}.
Proof.
  intros p n. unfold defined. apply in_dec. decide equality; try apply Nat.eq_dec;
    try apply list_eq_dec; try apply Z.eq_dec; try apply bool_dec. decide equality. decide equality.
Qed.
Lemma has_data_dec : forall p n, {has_data p n} + {~ has_data p n}.
Proof.
  intros p n. unfold has_data. induction p as [|x p IH].
  - right. intros (b & k & t & []).
  - destruct IH as [H|H].
    + left. destruct H as (b & k & t & H). exists b, k, t. right. exact H.
    + destruct x as [m|b|b k t m|o m];
        try (right; intros (b' & k' & t' & [E|E]); [discriminate E | apply H; eauto]).
      destruct (Nat.eq_dec m n) as [->|N].
      * left. exists b, k, t. left. reflexivity.
      * right. intros (b' & k' & t' & [E|E]); [congruence | apply H; eauto].
Qed.

Lemma defined_snoc : forall p x n, defined (p ++ [x]) n <-> defined p n \/ x = Label n.
Proof.
  intros p x n. unfold defined. rewrite in_app_iff. cbn [In]. tauto.
Qed.
Lemma has_data_snoc : forall p x n,
  has_data (p ++ [x]) n <-> has_data p n \/ (exists b k t, x = Data b k t n).
Proof.
  intros p x n. unfold has_data. split.
  - intros (b & k & t & H). apply in_app_or in H. destruct H as [H|[H|[]]]; eauto 6.
  - intros [(b & k & t & H)|(b & k & t & ->)]; exists b, k, t; apply in_or_app; cbn; auto.
Qed.

Lemma nth_error_snoc_inv : forall A (p : list A) x j y,
  nth_error (p ++ [x]) j = Some y ->
  (nth_error p j = Some y /\ (j < length p)%nat) \/ (j = length p /\ y = x).
Proof.
  intros A p x j y H. destruct (Nat.lt_ge_cases j (length p)).
  - rewrite nth_error_app1 in H by assumption. auto.
  - rewrite nth_error_app2 in H by assumption.
    destruct (j - length p)%nat as [|k] eqn:E.
    + injection H as <-. right. split; [lia|reflexivity].
    + destruct k; discriminate H.
Qed.

Lemma tab_ok_same : forall t p cs x c,
  length cs = length p -> tab_ok t p cs ->
  (forall n, x <> Label n) -> (forall b k tl n, x <> Data b k tl n) ->
  tab_ok t (p ++ [x]) (cs ++ [c]).
Proof.
  intros t p cs x c L T NL ND n. destruct (T n) as (T1 & T2 & T3). split; [|split].
  - intros j J. destruct (nth_error_snoc_inv _ _ _ _ _ J) as [(J' & Lj)|(_ & E)].
    + rewrite pos_app by lia. auto.
    + symmetry in E. destruct (NL _ E).
  - rewrite defined_snoc, has_data_snoc. intros A [B|(b & k & tl & B)]; [|destruct (ND _ _ _ _ B)].
    apply T2; tauto.
  - rewrite defined_snoc, has_data_snoc. intros A B. apply T3; tauto.
Qed.

Lemma temps_ok_snoc : forall p ts x t, temps_ok p ts ->
  temp_ok p (datas ts) x t -> temps_ok (p ++ [x]) (ts ++ [t]).
Proof.
  intros p ts x t (L & H) T. split; [rewrite !app_length; cbn; lia|].
  intros i y u Y U.
  destruct (nth_error_snoc_inv _ _ _ _ _ Y) as [(Y' & Li)|(-> & ->)].
  - rewrite nth_error_app1 in U by lia.
    unfold datas. rewrite map_app. rewrite !firstn_app.
    replace (i - length p)%nat with 0%nat by lia.
    replace (i - length (map t_data ts))%nat with 0%nat by (rewrite map_length; lia).
    cbn [firstn]. rewrite !app_nil_r. apply H; assumption.
  - rewrite nth_error_app2 in U by lia. replace (length p - length ts)%nat with 0%nat in U by lia.
    injection U as <-. unfold datas. rewrite map_app, !firstn_app.
    replace (length p - length p)%nat with 0%nat by lia.
    rewrite map_length, L. replace (length p - length p)%nat with 0%nat by lia.
    cbn [firstn]. rewrite !app_nil_r, firstn_all.
    replace (length p) with (length (map t_data ts)) by (rewrite map_length; lia).
    rewrite firstn_all. exact T.
Qed.

Lemma data_refs_snoc : forall p x cs c q, length cs = length p ->
  data_refs q (p ++ [x]) (cs ++ [c]) =
  data_refs q p cs ++ data_refs (q + Z.of_nat (length (concat cs))) [x] [c].
Proof.
  induction p as [|y p IH]; intros x cs c q L; destruct cs as [|d cs]; try discriminate L.
  - cbn [app concat length]. rewrite Z.add_0_r. reflexivity.
  - cbn [app data_refs]. injection L as L. rewrite IH by assumption.
    rewrite <- app_assoc. do 2 f_equal.
    cbn [concat]. rewrite app_length, Nat2Z.inj_add, Z.add_assoc. reflexivity.
Qed.

Record inv (p : list item) (s : st1) : Prop := Inv {
  i_off : off s = Z.of_nat (length (concat (datas (temps s))));
  i_tab : tab_ok (syms s) p (datas (temps s));
  i_temps : temps_ok p (temps s);
  i_rels : rels s = data_refs 0 p (datas (temps s))
}.

Lemma concat_snoc_len : forall (cs : list (list Z)) c,
  Z.of_nat (length (concat (cs ++ [c]))) = Z.of_nat (length (concat cs)) + Z.of_nat (length c).
Proof. intros. rewrite concat_app, app_length. cbn [concat]. rewrite app_nil_r. lia. Qed.

Lemma lookup_cases : forall p s n, inv p s ->
  (exists j, nth_error p j = Some (Label n) /\ lookup (syms s) n = Some (pos (datas (temps s)) j)) \/
  (~ defined p n /\ has_data p n /\ lookup (syms s) n = Some 0) \/
  (~ defined p n /\ ~ has_data p n /\ lookup (syms s) n = None).
Proof.
  intros p s n [_ T _ _]. destruct (T n) as (T1 & T2 & T3).
  destruct (defined_dec p n) as [D|D].
  - left. apply In_nth_error in D. destruct D as (j & J). eauto.
  - destruct (has_data_dec p n); [right; left | right; right]; auto.
Qed.

Lemma pass1_step_inv : forall p s x, inv p s -> uniq (p ++ [x]) ->
  exists s', pass1_step s x = Ok s' /\ inv (p ++ [x]) s'.
Proof.
  intros p s x Hi U. pose proof Hi as [Ho Ht Hts Hr].
  assert (L : length (datas (temps s)) = length p)
    by (unfold datas; rewrite map_length; exact (proj1 Hts)).
  destruct x as [n|b|b k tl n|o n]; cbn [pass1_step].
  - eexists. split; [reflexivity|]. split; cbn [off syms temps rels]; unfold datas in *; rewrite ?map_app; cbn [map t_data].
    + rewrite concat_snoc_len. cbn [length]. lia.
    + intros m. destruct (Ht m) as (T1 & T2 & T3). cbn [lookup]. split; [|split].
      * intros j J. destruct (nth_error_snoc_inv _ _ _ _ _ J) as [(J' & Lj)|(-> & E)].
        -- destruct (Nat.eqb_spec n m) as [->|N].
           { exfalso. assert (j = length p).
             { apply (U j (length p) m J). rewrite nth_error_app2 by lia.
               replace (length p - length p)%nat with 0%nat by lia. reflexivity. }
             lia. }
           rewrite pos_app by lia. auto.
        -- injection E as ->. rewrite Nat.eqb_refl. rewrite pos_app by lia.
           rewrite <- L, pos_all, Ho. reflexivity.
      * rewrite defined_snoc, has_data_snoc. intros A B.
        destruct (Nat.eqb_spec n m) as [->|N]; [destruct A; auto|].
        apply T2; [tauto|]. destruct B as [B|(b & k & tl & B)]; [exact B|discriminate B].
      * rewrite defined_snoc, has_data_snoc. intros A B.
        destruct (Nat.eqb_spec n m) as [->|N]; [destruct A; auto|]. apply T3; tauto.
    + apply temps_ok_snoc; [exact Hts|]. split; [exact Ho|]. cbn. auto.
    + rewrite data_refs_snoc by assumption. cbn [data_refs app]. rewrite !app_nil_r. exact Hr.
  - eexists. split; [reflexivity|]. split; cbn [off syms temps rels]; unfold datas in *; rewrite ?map_app; cbn [map t_data].
    + rewrite concat_snoc_len. lia.
    + apply tab_ok_same; auto; discriminate.
    + apply temps_ok_snoc; [exact Hts|]. split; [exact Ho|]. cbn. auto.
    + rewrite data_refs_snoc by assumption. cbn [data_refs app]. rewrite !app_nil_r. exact Hr.
  - eexists. split; [reflexivity|]. split; cbn [off syms temps rels]; unfold datas in *; rewrite ?map_app; cbn [map t_data].
    + rewrite concat_snoc_len. lia.
    + intros m. destruct (Ht m) as (T1 & T2 & T3).
      assert (Q : lookup (match lookup (syms s) n with Some _ => syms s | None => (n, 0) :: syms s end) m
                  = if Nat.eqb n m then Some (match lookup (syms s) n with Some v => v | None => 0 end)
                    else lookup (syms s) m).
      { destruct (Nat.eqb_spec n m) as [->|N].
        - destruct (lookup (syms s) m) eqn:E; [exact E|]. cbn [lookup]. rewrite Nat.eqb_refl. reflexivity.
        - destruct (lookup (syms s) n); [reflexivity|]. cbn [lookup].
          destruct (Nat.eqb_spec n m); [contradiction|reflexivity]. }
      rewrite Q. split; [|split].
      * intros j J. destruct (nth_error_snoc_inv _ _ _ _ _ J) as [(J' & Lj)|(-> & E)]; [|discriminate E].
        rewrite pos_app by lia. specialize (T1 j J').
        destruct (Nat.eqb_spec n m) as [->|N]; rewrite T1; reflexivity.
      * rewrite defined_snoc, has_data_snoc. intros A B.
        destruct (Nat.eqb_spec n m) as [->|N].
        -- destruct (has_data_dec p m) as [D|D].
           ++ rewrite T2 by tauto. reflexivity.
           ++ rewrite T3 by tauto. reflexivity.
        -- apply T2; [tauto|]. destruct B as [B|(b' & k' & tl' & B)]; [exact B|congruence].
      * rewrite defined_snoc, has_data_snoc. intros A B.
        destruct (Nat.eqb_spec n m) as [->|N]; [destruct B; eauto|]. apply T3; tauto.
    + apply temps_ok_snoc; [exact Hts|]. split; [exact Ho|]. cbn. auto.
    + rewrite data_refs_snoc by assumption. cbn [data_refs app]. rewrite Hr. do 3 f_equal; [lia|].
      destruct tl; lia.
  - assert (X : exists q rel b,
      (match lookup (syms s) n with
       | Some v => (rewrite_sym o (int32 (v - off s)), None)
       | None => (rewrite_sym o 0, Some n)
       end) = (q, rel) /\ jump_bytes o q = Ok b /\
      temp_ok p (datas (temps s)) (Jump o n) (Temp (off s) (Some (o, q)) rel b)).
    { destruct (lookup_cases p s n Hi) as [(j & J & ->)|[(D & A & ->)|(D & A & ->)]].
      - destruct (jump_ok o (rewrite_sym o (int32 (pos (datas (temps s)) j - off s)))) as (b & B).
        { intros ->. apply rewrite_sym_call. }
        do 3 eexists. split; [reflexivity|]. split; [exact B|]. split; [exact Ho|].
        eexists. split; [reflexivity|]. split; [exact B|]. right. split; [reflexivity|].
        eexists. split; [reflexivity|]. left. eauto.
      - destruct (jump_ok o (rewrite_sym o (int32 (0 - off s)))) as (b & B).
        { intros ->. apply rewrite_sym_call. }
        do 3 eexists. split; [reflexivity|]. split; [exact B|]. split; [exact Ho|].
        eexists. split; [reflexivity|]. split; [exact B|]. right. split; [reflexivity|].
        eexists. split; [reflexivity|]. right. auto.
      - destruct (jump_ok o (rewrite_sym o 0)) as (b & B).
        { intros ->. apply rewrite_sym_call. }
        do 3 eexists. split; [reflexivity|]. split; [exact B|]. split; [exact Ho|].
        eexists. split; [reflexivity|]. split; [exact B|]. left. split; [reflexivity|]. split; auto. }
    destruct X as (q & rel & b & -> & B & T). rewrite B. cbn [bind].
    eexists. split; [reflexivity|]. split; cbn [off syms temps rels]; unfold datas in *; rewrite ?map_app; cbn [map t_data].
    + rewrite concat_snoc_len. lia.
    + apply tab_ok_same; auto; discriminate.
    + apply temps_ok_snoc; [exact Hts|]. exact T.
    + rewrite data_refs_snoc by assumption. cbn [data_refs app]. rewrite !app_nil_r. exact Hr.
Qed.

Lemma pass1_inv : forall p, uniq p ->
  exists s, pass1 (St1 0 [] [] []) p = Ok s /\ inv p s.
Proof.
  induction p as [|x p IH] using rev_ind; intros U.
  - eexists. split; [reflexivity|]. split; cbn.
    + reflexivity.
    + intros n. split; [intros [|j] J; discriminate J|]. split; [|reflexivity].
      intros _ (b & k & t & []).
    + split; [reflexivity|]. intros [|i] y t Y; discriminate Y.
    + reflexivity.
  - destruct (IH (uniq_app _ _ U)) as (s & E & Hi).
    destruct (pass1_step_inv p s x Hi U) as (s' & E' & Hi').
    exists s'. rewrite pass1_app, E. cbn [bind pass1]. rewrite E'. cbn [bind]. auto.
Qed.

(** ** The second pass *)

Definition val (t : symtab) (n : nat) : Z := match lookup t n with Some v => v | None => 0 end.

(** a temp that the second pass can deal with *)
Definition temp_sane (t : temp) : Prop :=
  forall n, t_rel t = Some n ->
    exists o, t_jump t = Some (o, R32 0) /\ jump_bytes o (R32 0) = Ok (t_data t).

Definition after2 (t0 : symtab) (t t' : temp) : Prop :=
  length (t_data t') = length (t_data t) /\
  match t_rel t with
  | None => t' = t
  | Some n =>
      if 0 <? val t0 n then
        exists o, t_jump t = Some (o, R32 0) /\
          jump_bytes o (rewrite_rel o (R32 0) (int32 (val t0 n - t_off t))) = Ok (t_data t')
      else t' = t
  end.
Definition refs2 (t0 : symtab) (t : temp) : list rela :=
  match t_rel t with
  | None => []
  | Some n =>
      if 0 <? val t0 n then []
      else [Rela (t_off t + (Z.of_nat (length (t_data t)) - 4)) n (-4) false]
  end.

Lemma pass2_ok : forall t0 l tab rs, (forall n, val tab n = val t0 n) ->
  (forall t, In t l -> temp_sane t) ->
  exists l' tab', pass2 (tab, rs) l = Ok (l', (tab', rs ++ flat_map (refs2 t0) l)) /\
    Forall2 (after2 t0) l l'.
Proof.
  intros t0. induction l as [|t l IH]; intros tab rs V S.
  - exists [], tab. cbn [pass2 flat_map]. rewrite app_nil_r. auto.
  - cbn [pass2].
    assert (X : exists t' tab', pass2_step (tab, rs) t = Ok (t', (tab', rs ++ refs2 t0 t)) /\
              after2 t0 t t' /\ forall n, val tab' n = val t0 n).
    { unfold pass2_step, refs2, after2. destruct (t_rel t) as [n|] eqn:R.
      - destruct (S t (or_introl eq_refl) n R) as (o & J & B). rewrite J.
        assert (W : exists tab', (match lookup tab n with Some v => (tab, v) | None => ((n, 0) :: tab, 0) end)
                    = (tab', val t0 n) /\ forall m, val tab' m = val t0 m).
        { pose proof (V n) as Vn. unfold val at 1 in Vn. destruct (lookup tab n) eqn:E.
          - exists tab. subst z. auto.
          - exists ((n, 0) :: tab). rewrite Vn. split; [reflexivity|]. intros m. unfold val at 1. cbn [lookup].
            destruct (Nat.eqb_spec n m) as [->|N]; [auto|]. apply V. }
        destruct W as (tab' & -> & V').
        destruct (0 <? val t0 n) eqn:P.
        + destruct (jump_ok o (rewrite_rel o (R32 0) (int32 (val t0 n - t_off t)))) as (b & Bb).
          { intros ->. unfold rewrite_rel. destruct (_ =? _); eauto. }
          rewrite Bb. cbn [bind].
          assert (Lb : length b = length (t_data t)).
          { apply jump_len in Bb, B. unfold rewrite_rel in Bb. destruct (_ =? _); lia. }
          rewrite Lb, Nat.eqb_refl. rewrite app_nil_r.
          do 2 eexists. split; [reflexivity|]. cbn [t_data]. split; [split; [exact Lb|eauto]|exact V'].
        + do 2 eexists. split; [reflexivity|]. auto.
      - rewrite app_nil_r. exists t, tab. split; [destruct (t_jump t); reflexivity|]. auto. }
    destruct X as (t' & tab1 & -> & A & V1). cbn [bind].
    destruct (IH tab1 (rs ++ refs2 t0 t) V1 (fun u H => S u (or_intror H))) as (l' & tab' & -> & F).
    cbn [bind flat_map]. rewrite <- app_assoc. do 2 eexists. split; [reflexivity|]. auto.
Qed.

(** ** Together *)

Lemma Forall2_nth : forall A B (R : A -> B -> Prop) l l', Forall2 R l l' ->
  forall i x, nth_error l i = Some x -> exists y, nth_error l' i = Some y /\ R x y.
Proof.
  intros A B R l l' F. induction F; intros [|i] z Z0; cbn in *; try discriminate Z0; eauto.
  injection Z0 as <-. eauto.
Qed.

Lemma firstn_length_same : forall t0 ts ts', Forall2 (after2 t0) ts ts' ->
  forall i, pos (datas ts') i = pos (datas ts) i.
Proof.
  intros t0 ts ts' F. induction F as [|t t' ts ts' A F IH]; intros i; [reflexivity|].
  destruct i as [|i]; [reflexivity|]. specialize (IH i). unfold pos, datas in *. cbn [map firstn concat].
  rewrite !app_length. destruct A as (A & _). lia.
Qed.

Lemma assemble_inv : forall l, one_definition l ->
  exists s ts' rs,
    assemble l = Ok (datas ts', rs) /\ inv l s /\
    Forall2 (after2 (syms s)) (temps s) ts' /\
    rs = data_refs 0 l (datas (temps s)) ++ flat_map (refs2 (syms s)) (temps s).
Proof.
  intros l U. destruct (pass1_inv l U) as (s & E & Hi).
  assert (Sn : forall t, In t (temps s) -> temp_sane t).
  { intros t T n R. destruct Hi as [_ _ (L & Hts) _].
    apply In_nth_error in T. destruct T as (i & T).
    destruct (nth_error l i) as [x|] eqn:X.
    - destruct (Hts i x t X T) as (_ & H). destruct x as [m|b|b k tl m|o m].
      + destruct H as (_ & H & _). congruence.
      + destruct H as (_ & H & _). congruence.
      + destruct H as (_ & H & _). congruence.
      + destruct H as (q & J & B & [(R' & Q & _)|(R' & _)]); [|congruence].
        subst q. exists o. auto.
    - apply nth_error_None in X. assert (i < length (temps s))%nat by (apply nth_error_Some; congruence). lia. }
  destruct (pass2_ok (syms s) (temps s) (syms s) (rels s) (fun _ => eq_refl) Sn) as (ts' & tab' & E2 & F).
  exists s, ts', (rels s ++ flat_map (refs2 (syms s)) (temps s)).
  unfold assemble. rewrite E. cbn [bind]. rewrite E2. cbn [bind].
  split; [reflexivity|]. split; [exact Hi|]. split; [exact F|].
  rewrite (i_rels _ _ Hi). reflexivity.
Qed.

Lemma temps_nth : forall l s i x, inv l s -> nth_error l i = Some x ->
  exists t, nth_error (temps s) i = Some t /\ t_off t = pos (datas (temps s)) i /\
    temp_ok (firstn i l) (firstn i (datas (temps s))) x t.
Proof.
  intros l s i x [_ _ (L & H) _] X.
  destruct (nth_error (temps s) i) as [t|] eqn:T.
  - exists t. split; [reflexivity|]. pose proof (H i x t X T) as K. split; [|exact K].
    destruct K as (K & _). exact K.
  - apply nth_error_None in T. assert (i < length l)%nat by (apply nth_error_Some; congruence). lia.
Qed.

Lemma nth_firstn : forall A (l : list A) i j x, nth_error (firstn i l) j = Some x ->
  nth_error l j = Some x /\ (j < i)%nat.
Proof.
  intros A l. induction l as [|y l IH]; intros [|i] j x H; cbn in H; try (destruct j; discriminate H).
  destruct j as [|j]; cbn in *.
  - split; [exact H|lia].
  - destruct (IH _ _ _ H). split; [assumption|lia].
Qed.
Lemma firstn_nth : forall A (l : list A) i j x, nth_error l j = Some x -> (j < i)%nat ->
  nth_error (firstn i l) j = Some x.
Proof.
  intros A l. induction l as [|y l IH]; intros i [|j] x H L; try discriminate H;
    (destruct i as [|i]; [lia|]); cbn in *; auto. apply IH; [assumption|lia].
Qed.

Lemma not_taken : forall l i n, not_taken_before l i n ->
  defined (firstn i l) n \/ ~ has_data (firstn i l) n.
Proof.
  intros l i n [(j & L & J)|H].
  - left. apply nth_error_In with j. apply firstn_nth; assumption.
  - right. intros (b & k & t & D). apply In_nth_error in D. destruct D as (j & J).
    apply nth_firstn in J. destruct J as (J & L). exact (H j b k t L J).
Qed.

Lemma nth_datas : forall ts i t, nth_error ts i = Some t -> nth_error (datas ts) i = Some (t_data t).
Proof. intros. unfold datas. rewrite nth_error_map, H. reflexivity. Qed.

Lemma pos_firstn : forall a i j, (j <= i)%nat -> pos (firstn i a) j = pos a j.
Proof.
  intros a i j H. unfold pos. rewrite firstn_firstn, Nat.min_l by lia. reflexivity.
Qed.

Lemma long_bytes_len : forall o q b, jump_bytes o q = Ok b -> 2 <= Z.of_nat (length b) <= 6.
Proof.
  intros o q b E. rewrite (jump_len _ _ _ E). pose proof (long_len_range o). destruct q; lia.
Qed.

Lemma tab_defined : forall l s j n, inv l s -> nth_error l j = Some (Label n) ->
  val (syms s) n = pos (datas (temps s)) j.
Proof.
  intros l s j n [_ T _ _] J. unfold val. destruct (T n) as (T1 & _). rewrite (T1 j J). reflexivity.
Qed.
Lemma tab_undefined : forall l s n, inv l s -> ~ defined l n -> val (syms s) n = 0.
Proof.
  intros l s n [_ T _ _] J. unfold val. destruct (T n) as (_ & T2 & T3).
  destruct (has_data_dec l n); [rewrite T2 | rewrite T3]; auto.
Qed.

Lemma jump_lands : forall l chunks rels i j o n,
  assemble l = Ok (chunks, rels) -> one_definition l ->
  Z.of_nat (length (concat chunks)) < 2 ^ 31 ->
  nth_error l i = Some (Jump o n) -> nth_error l j = Some (Label n) ->
  not_taken_before l i n -> pos chunks i <> pos chunks j ->
  exists c, nth_error chunks i = Some c /\ goes_to c (pos chunks i) = Some (o, pos chunks j).
Proof.
  intros l chunks rels i j o n A U Sz Hi Hj NT D.
  destruct (assemble_inv l U) as (s & ts' & rs & E & Iv & F & _).
  rewrite A in E. injection E as -> ->.
  pose proof (firstn_length_same _ _ _ F) as PS.
  destruct (temps_nth _ _ _ _ Iv Hi) as (t & T & To & (_ & q & J & B & C)).
  destruct (Forall2_nth _ _ _ _ _ F _ _ T) as (t' & T' & (Ln & Af)).
  exists (t_data t'). split; [apply nth_datas; exact T'|].
  pose proof (pos_le_total (datas ts') (S i)) as P1.
  rewrite (pos_S _ _ _ (nth_datas _ _ _ T')) in P1.
  pose proof (pos_le_total (datas ts') j) as P2.
  pose proof (pos_nonneg (datas ts') i) as P3. pose proof (pos_nonneg (datas ts') j) as P4.
  rewrite !PS in *. rewrite Ln in P1.
  change (2 ^ 31) with 2147483648 in Sz.
  set (pi := pos (datas (temps s)) i) in *. set (pj := pos (datas (temps s)) j) in *.
  destruct C as [(R & Q & ND & NH)|(R & v & Q & V)].
  - rewrite R in Af. rewrite (tab_defined _ _ _ _ Iv Hj) in Af. fold pj in Af.
    assert (Hlt : (i < j)%nat).
    { destruct (Nat.lt_trichotomy i j) as [Hl|[->|Hl]]; [exact Hl|congruence|].
      destruct ND. apply nth_error_In with j. apply firstn_nth; assumption. }
    assert (G : pi + Z.of_nat (length (t_data t)) <= pj).
    { unfold pi, pj. rewrite <- (pos_S _ _ _ (nth_datas _ _ _ T)). apply pos_mono. lia. }
    pose proof (long_bytes_len _ _ _ B).
    destruct (Z.ltb_spec 0 pj); [|lia]. destruct Af as (o' & J' & B').
    rewrite J in J'. injection J' as <- _.
    rewrite To in B'. rewrite int32_id in B' by (change (2^31) with 2147483648; lia).
    pose proof (long_len_range o).
    rewrite (rewrite_rel_goes _ _ _ _ pi B'); [do 2 f_equal; lia|lia| |];
      change (2 ^ 31) with 2147483648; lia.
  - rewrite R in Af. subst t'.
    assert (Ev : v = pj).
    { destruct V as [(j' & J' & Ev)|(_ & ND & HD)].
      - destruct (nth_firstn _ _ _ _ _ J') as (J'' & Lj).
        rewrite pos_firstn in Ev by lia. rewrite (U _ _ _ J'' Hj) in Ev. exact Ev.
      - destruct (not_taken _ _ _ NT); contradiction. }
    subst v q. rewrite To in B. fold pi in B.
    rewrite int32_id in B by (change (2 ^ 31) with 2147483648; lia).
    assert (Lo : - 2 ^ 31 <= pj - pi - long_len o).
    { change (2 ^ 31) with 2147483648. pose proof (long_len_range o). pose proof (jump_len _ _ _ B) as Lb.
      unfold rewrite_sym in Lb. destruct (Z.ltb_spec (pj - pi) (-126)); [|lia].
      rewrite !orb_true_r in Lb. cbn [orb] in Lb. lia. }
    rewrite (rewrite_sym_goes _ _ _ pi B); [do 2 f_equal; lia|lia|exact Lo|].
    change (2 ^ 31) with 2147483648; lia.
Qed.

(** ** Names defined elsewhere *)

Lemma le32_read : forall v, 0 <= v < 2 ^ 32 -> read32 (le32 v) = v.
Proof. intros v H. cbn [read32 le32]. apply le32_val. exact H. Qed.

Lemma relocate_ok : forall addr v, - 2 ^ 31 <= v - addr < 2 ^ 31 ->
  relocate_pc32 (le32 0) addr v = Ok (le32 ((v - addr) mod 2 ^ 32)).
Proof.
  intros addr v H. unfold relocate_pc32.
  change (2 ^ 31) with 2147483648 in H.
  assert (E : (v - addr + 2 ^ 63) mod 2 ^ 64 - 2 ^ 63 = v - addr).
  { rewrite Z.mod_small; [lia|]. change (2 ^ 63) with 9223372036854775808.
    change (2 ^ 64) with 18446744073709551616. lia. }
  rewrite E. destruct (Z.ltb_spec (v - addr) (-2147483648)); [lia|].
  destruct (Z.ltb_spec 2147483647 (v - addr)); [lia|]. cbn [orb].
  rewrite le32_read by (change (2 ^ 32) with 4294967296; lia). reflexivity.
Qed.

Lemma link_goes : forall o b base p n sym, jump_bytes o (R32 0) = Ok b ->
  - 2 ^ 31 <= sym - (base + p + Z.of_nat (length b)) < 2 ^ 31 ->
  exists c, link_jump base b (Rela (p + Z.of_nat (length b) - 4) n (-4) false) p sym = Ok c /\
    goes_to c (base + p) = Some (o, sym).
Proof.
  intros o b base p n sym E H. unfold link_jump. cbn [r_off r_add].
  pose proof (jump_len _ _ _ E) as L.
  replace (Z.to_nat (p + Z.of_nat (length b) - 4 - p)) with (length b - 4)%nat
    by (pose proof (long_len_range o); lia).
  set (d := sym - (base + p + Z.of_nat (length b))) in *.
  assert (R : relocate_pc32 (firstn 4 (skipn (length b - 4) b)) (base + (p + Z.of_nat (length b) - 4)) (sym + -4)
              = Ok (le32 (d mod 2 ^ 32))).
  { replace (firstn 4 (skipn (length b - 4) b)) with (le32 0)
      by (destruct o as [|c|]; cbn in E; injection E as <-; reflexivity).
    rewrite relocate_ok by (unfold d in H; lia).
    do 3 f_equal. unfold d. lia. }
  rewrite R. cbn [bind]. eexists. split; [reflexivity|].
  assert (E' : jump_bytes o (R32 (d mod 2 ^ 32)) =
    Ok (firstn (length b - 4) b ++ le32 (d mod 2 ^ 32) ++ skipn (length b - 4 + 4) b)).
  { destruct o as [|c|]; cbn in E; injection E as <-; reflexivity. }
  unfold goes_to. rewrite (decode_jump_bytes _ _ _ E') by (cbn [opr_ok]; apply Z.mod_pos_bound; lia).
  rewrite (jump_len _ _ _ E'). cbn [opr_disp]. rewrite s32l_mod by exact H.
  do 2 f_equal. unfold d. lia.
Qed.

Lemma external_jump : forall l chunks rels i o n,
  assemble l = Ok (chunks, rels) -> one_definition l ->
  nth_error l i = Some (Jump o n) -> ~ defined l n -> not_taken_before l i n ->
  exists c r, nth_error chunks i = Some c /\ In r rels /\ r_sym r = n /\
    (forall base sym,
       - 2 ^ 31 <= sym - (base + pos chunks i + Z.of_nat (length c)) < 2 ^ 31 ->
       exists c', link_jump base c r (pos chunks i) sym = Ok c' /\
         goes_to c' (base + pos chunks i) = Some (o, sym)).
Proof.
  intros l chunks rels i o n A U Hi ND NT.
  destruct (assemble_inv l U) as (s & ts' & rs & E & Iv & F & Rs).
  rewrite A in E. injection E as -> ->.
  pose proof (firstn_length_same _ _ _ F) as PS.
  destruct (temps_nth _ _ _ _ Iv Hi) as (t & T & To & (_ & q & J & B & C)).
  destruct (Forall2_nth _ _ _ _ _ F _ _ T) as (t' & T' & (Ln & Af)).
  assert (Sub : forall m, defined (firstn i l) m -> defined l m).
  { intros m X. unfold defined in *. rewrite <- (firstn_skipn i l). apply in_or_app. auto. }
  destruct C as [(R & Q & _)|(R & v & Q & V)].
  2:{ exfalso. destruct V as [(j' & J' & Ev)|(_ & ND' & HD)].
      - apply ND. apply Sub. eapply nth_error_In. exact J'.
      - destruct (not_taken _ _ _ NT); [apply ND; auto|contradiction]. }
  rewrite R in Af. rewrite (tab_undefined _ _ _ Iv ND) in Af. cbn in Af. subst t' q.
  exists (t_data t), (Rela (t_off t + Z.of_nat (length (t_data t)) - 4) n (-4) false).
  split; [apply nth_datas; exact T'|]. split.
  { rewrite Rs. apply in_or_app. right. apply in_flat_map. exists t. split; [eapply nth_error_In; exact T|].
    unfold refs2. rewrite R, (tab_undefined _ _ _ Iv ND). cbn [Z.ltb Z.compare]. left. f_equal. lia. }
  split; [reflexivity|]. intros base sym H. rewrite PS in *. rewrite <- To in *.
  apply link_goes; [exact B|exact H].
Qed.

(** ** The entries for the linker *)

Lemma is_defined_iff : forall l n, is_defined l n = true <-> defined l n.
Proof.
  intros l n. unfold is_defined, defined. rewrite existsb_exists. split.
  - intros (x & I0 & H). destruct x; try discriminate H. apply Nat.eqb_eq in H. subst. exact I0.
  - intros H. exists (Label n). split; [exact H|apply Nat.eqb_refl].
Qed.

Lemma data_refs_len : forall l cs cs' p, map (@length Z) cs = map (@length Z) cs' ->
  data_refs p l cs = data_refs p l cs'.
Proof.
  induction l as [|x l IH]; intros [|c cs] [|c' cs'] p H; try discriminate H; try reflexivity.
  cbn [map] in H. injection H as H1 H2. cbn [data_refs]. rewrite H1. f_equal. apply IH. exact H2.
Qed.
Lemma jump_refs_len : forall w l cs cs' p, map (@length Z) cs = map (@length Z) cs' ->
  jump_refs w p l cs = jump_refs w p l cs'.
Proof.
  intros w. induction l as [|x l IH]; intros [|c cs] [|c' cs'] p H; try discriminate H; try reflexivity.
  cbn [map] in H. injection H as H1 H2. cbn [jump_refs]. rewrite H1. f_equal. apply IH. exact H2.
Qed.

Lemma refs2_jump_refs : forall l s,
  inv l s -> (forall i o n, nth_error l i = Some (Jump o n) -> not_taken_before l i n) ->
  one_definition l ->
  forall b a ta tb, l = a ++ b -> temps s = ta ++ tb -> length a = length ta ->
  flat_map (refs2 (syms s)) tb = jump_refs l (pos (datas (temps s)) (length a)) b (datas tb).
Proof.
  intros l s Iv NT U. induction b as [|x b IH]; intros a ta tb La Lt Ll.
  - destruct Iv as [_ _ (L & _) _]. rewrite Lt, La, app_nil_r, app_length in L.
    destruct tb; [reflexivity|cbn in L; lia].
  - destruct tb as [|t tb].
    { destruct Iv as [_ _ (L & _) _]. rewrite Lt, La, !app_length in L. cbn in L. lia. }
    assert (Hx : nth_error l (length a) = Some x).
    { rewrite La, nth_error_app2, Nat.sub_diag by lia. reflexivity. }
    assert (Ht : nth_error (temps s) (length a) = Some t).
    { rewrite Lt, Ll, nth_error_app2, Nat.sub_diag by lia. reflexivity. }
    cbn [flat_map datas map jump_refs]. fold (datas tb). f_equal.
    + destruct (temps_nth _ _ _ _ Iv Hx) as (t2 & Ht2 & To & Tk). rewrite Ht in Ht2. injection Ht2 as <-.
      unfold refs2. destruct Tk as (_ & Tk). destruct x as [m|bb|bb k tl m|o m].
      * destruct Tk as (_ & -> & _). reflexivity.
      * destruct Tk as (_ & -> & _). reflexivity.
      * destruct Tk as (_ & -> & _). reflexivity.
      * destruct Tk as (q & J & B & C).
        assert (Sub : forall m, defined (firstn (length a) l) m -> defined l m).
        { intros k X. unfold defined in *. rewrite <- (firstn_skipn (length a) l). apply in_or_app. auto. }
        destruct (is_defined l m) eqn:Df.
        -- apply is_defined_iff in Df. apply In_nth_error in Df. destruct Df as (j & Hj).
           destruct C as [(R & Q & NDf & _)|(R & _)]; rewrite R; [|reflexivity].
           rewrite (tab_defined _ _ _ _ Iv Hj).
           assert (Hlt : (length a < j)%nat).
           { destruct (Nat.lt_trichotomy (length a) j) as [Hl|[He|Hl]]; [exact Hl|congruence|].
             destruct NDf. apply nth_error_In with j. apply firstn_nth; assumption. }
           assert (0 < pos (datas (temps s)) j).
           { pose proof (pos_mono (datas (temps s)) (S (length a)) j Hlt) as G.
             rewrite (pos_S _ _ _ (nth_datas _ _ _ Ht)) in G.
             pose proof (long_bytes_len _ _ _ B). pose proof (pos_nonneg (datas (temps s)) (length a)). lia. }
           destruct (Z.ltb_spec 0 (pos (datas (temps s)) j)); [reflexivity|lia].
        -- assert (ND : ~ defined l m) by (rewrite <- is_defined_iff, Df; discriminate).
           destruct C as [(R & _)|(R & v & Q & V)].
           ++ rewrite R, (tab_undefined _ _ _ Iv ND). cbn [Z.ltb Z.compare]. do 2 f_equal. rewrite To. lia.
           ++ exfalso. destruct V as [(j' & J' & Ev)|(_ & ND' & HD)].
              ** apply ND. apply Sub. eapply nth_error_In. exact J'.
              ** destruct (not_taken _ _ _ (NT _ _ _ Hx)); [apply ND; auto|contradiction].
    + rewrite (IH (a ++ [x]) (ta ++ [t]) tb).
      * rewrite app_length. cbn [length]. rewrite Nat.add_1_r.
        rewrite (pos_S _ _ _ (nth_datas _ _ _ Ht)). reflexivity.
      * rewrite La, <- app_assoc. reflexivity.
      * rewrite Lt, <- app_assoc. reflexivity.
      * rewrite !app_length. cbn. lia.
Qed.

Lemma after2_lens : forall t0 ts ts', Forall2 (after2 t0) ts ts' ->
  map (@length Z) (datas ts') = map (@length Z) (datas ts).
Proof.
  intros t0 ts ts' F. induction F as [|t t' ts ts' (A & _) F IH]; [reflexivity|].
  cbn [datas map] in *. unfold datas in IH. rewrite A, IH. reflexivity.
Qed.

Lemma linker_entries : forall l chunks rels,
  assemble l = Ok (chunks, rels) -> one_definition l ->
  (forall i o n, nth_error l i = Some (Jump o n) -> not_taken_before l i n) ->
  rels = data_refs 0 l chunks ++ jump_refs l 0 l chunks.
Proof.
  intros l chunks rels A U NT.
  destruct (assemble_inv l U) as (s & ts' & rs & E & Iv & F & Rs).
  rewrite A in E. injection E as -> ->. rewrite Rs.
  pose proof (after2_lens _ _ _ F) as Ls.
  rewrite (data_refs_len _ _ _ _ Ls), (jump_refs_len _ _ _ _ _ Ls). f_equal.
  apply (refs2_jump_refs l s Iv NT U l [] [] (temps s)); reflexivity.
Qed.

Lemma others_kept : forall l chunks rels i x,
  assemble l = Ok (chunks, rels) -> one_definition l -> nth_error l i = Some x ->
  match x with
  | Label _ => nth_error chunks i = Some []
  | Plain b | Data b _ _ _ => nth_error chunks i = Some b
  | Jump _ _ => True
  end.
Proof.
  intros l chunks rels i x A U X.
  destruct (assemble_inv l U) as (s & ts' & rs & E & Iv & F & Rs).
  rewrite A in E. injection E as -> ->.
  destruct (temps_nth _ _ _ _ Iv X) as (t & T & To & (_ & Tk)).
  destruct (Forall2_nth _ _ _ _ _ F _ _ T) as (t' & T' & (Ln & Af)).
  destruct x as [m|b|b k tl m|o m]; try exact Logic.I; destruct Tk as (_ & R & D);
    rewrite R in Af; subst t'; rewrite (nth_datas _ _ _ T'), D; reflexivity.
Qed.

Lemma assemble_total : forall l, one_definition l ->
  exists chunks rels, assemble l = Ok (chunks, rels) /\ length chunks = length l.
Proof.
  intros l U. destruct (assemble_inv l U) as (s & ts' & rs & E & Iv & F & _).
  do 2 eexists. split; [exact E|]. unfold datas. rewrite map_length.
  destruct Iv as [_ _ (L & _) _]. rewrite <- L. clear - F. induction F; cbn; congruence.
Qed.

(** ** For the examples *)
Fixpoint labels (l : list item) : list nat :=
  match l with Label n :: l => n :: labels l | _ :: l => labels l | [] => [] end.
Lemma in_labels : forall l j n, nth_error l j = Some (Label n) -> In n (labels l).
Proof.
  induction l as [|x l IH]; intros [|j] n H; try discriminate H; cbn in H.
  - injection H as ->. left. reflexivity.
  - specialize (IH _ _ H). destruct x; cbn; auto.
Qed.
Lemma one_definition_nodup : forall l, NoDup (labels l) -> one_definition l.
Proof.
  unfold one_definition. induction l as [|x l IH]; intros N i j n A B; [destruct i; discriminate A|].
  assert (N' : NoDup (labels l)) by (destruct x; cbn in N; auto; apply NoDup_cons_iff in N; tauto).
  assert (X : x = Label n -> ~ In n (labels l)).
  { intros ->. cbn in N. apply NoDup_cons_iff in N. tauto. }
  destruct i as [|i], j as [|j]; cbn in A, B; [reflexivity| | |f_equal; eauto].
  - injection A as ->. destruct (X eq_refl). eapply in_labels; eassumption.
  - injection B as ->. destruct (X eq_refl). eapply in_labels; eassumption.
Qed.
