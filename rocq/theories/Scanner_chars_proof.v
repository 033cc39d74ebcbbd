From Verif Require Import Base Base_lemmas Scanner_model Scanner_spec.
From Coq Require Import ZifyBool.

(** ** Characters *)

Lemma is_alpha_spec c : is_alpha c = true <-> letter c.
Proof. unfold is_alpha, letter. lia. Qed.
Lemma is_number_spec c : is_number c = true <-> digit c.
Proof. unfold is_number, digit. lia. Qed.
Lemma is_word_spec c : is_alpha c || is_number c = true <-> word_char c.
Proof. unfold word_char. rewrite orb_true_iff, is_alpha_spec, is_number_spec. tauto. Qed.
Lemma is_quote_spec c : is_quote c = true <-> quote c.
Proof. unfold is_quote, quote. lia. Qed.

Lemma digit_value_fun c d : digit_value c d -> is_hex c = true /\ hex_value c = d /\ 0 <= d <= 15.
Proof. unfold digit_value, is_hex, hex_value. intros H. destruct ((48 <=? c) && (c <=? 57)) eqn:E; destruct ((97 <=? c) && (c <=? 102)) eqn:E2; lia. Qed.
Lemma digit_value_ex c : is_hex c = true -> digit_value c (hex_value c).
Proof. unfold digit_value, is_hex, hex_value. intros H. destruct ((48 <=? c) && (c <=? 57)) eqn:E; destruct ((97 <=? c) && (c <=? 102)) eqn:E2; lia. Qed.

(** ** Words *)

Lemma rest_inv w k r t : rest w k r t <> IDENT -> rest w k r t = t /\ skipn k w = r.
Proof.
  unfold rest. destruct (Nat.eqb _ _); [|congruence]. destruct (list_eq_dec Z.eq_dec (skipn k w) r); [auto|congruence].
Qed.

Lemma word_known : Forall (fun p => ident_type (fst p) = snd p) reserved.
Proof. cbv [reserved keywords accidents app]. repeat (apply Forall_cons; [vm_compute; reflexivity|]). apply Forall_nil. Qed.

Lemma nth_split1 (w : list Z) c : nth 0 w 0 = c -> c <> 0 -> w = c :: skipn 1 w.
Proof. destruct w; cbn [nth skipn]; congruence. Qed.
Lemma nth_split2 (w : list Z) c d : nth 0 w 0 = c -> nth 1 w 0 = d -> c <> 0 -> d <> 0 -> w = c :: d :: skipn 2 w.
Proof. destruct w as [|a [|b w]]; cbn [nth skipn]; congruence. Qed.
Lemma nth_split3 (w : list Z) c d e : nth 0 w 0 = c -> nth 1 w 0 = d -> nth 2 w 0 = e -> c <> 0 -> d <> 0 -> e <> 0 -> w = c :: d :: e :: skipn 3 w.
Proof. destruct w as [|a [|b [|x w]]]; cbn [nth skipn]; congruence. Qed.
Lemma nth_split4 (w : list Z) c d e f : nth 0 w 0 = c -> nth 1 w 0 = d -> nth 2 w 0 = e -> nth 3 w 0 = f -> c <> 0 -> d <> 0 -> e <> 0 -> f <> 0 -> w = c :: d :: e :: f :: skipn 4 w.
Proof. destruct w as [|a [|b [|x [|y w]]]]; cbn [nth skipn]; congruence. Qed.

Ltac in_table := unfold reserved, keywords, accidents; cbn [List.map fst app]; repeat (first [left; reflexivity | right]).

Lemma word_only w : ident_type w <> IDENT -> In w (List.map fst reserved).
Proof.
  intros H. unfold ident_type, case_f, case_u, case_r in H. cbv zeta in H.
  repeat match type of H with context [if ?b then _ else _] => let E := fresh "E" in destruct b eqn:E end;
    try (exfalso; apply H; reflexivity).
  all: repeat match goal with
  | E : (_ && _) = true |- _ => apply andb_prop in E; destruct E
  | E : (nth _ _ 0 =? _) = true |- _ => apply Z.eqb_eq in E
  | E : (nth _ _ 0 =? _) = false |- _ => clear E
  | E : (_ && _) = false |- _ => clear E
  | E : (zlen _ =? _) = true |- _ => apply Z.eqb_eq in E
  end.
  all: try (apply rest_inv in H; destruct H as (_ & H)).
  all: first
    [ match type of H with skipn 4 _ = _ => rewrite (nth_split4 _ _ _ _ _ ltac:(eassumption) ltac:(eassumption) ltac:(eassumption) ltac:(eassumption)) by discriminate; rewrite H; in_table end
    | match type of H with skipn 3 _ = _ => rewrite (nth_split3 _ _ _ _ ltac:(eassumption) ltac:(eassumption) ltac:(eassumption)) by discriminate; rewrite H; in_table end
    | match type of H with skipn 2 _ = _ => rewrite (nth_split2 _ _ _ ltac:(eassumption) ltac:(eassumption)) by discriminate; rewrite H; in_table end
    | match type of H with skipn 1 _ = _ => rewrite (nth_split1 _ _ ltac:(eassumption)) by discriminate; rewrite H; in_table end
    | idtac ].
  all: match goal with w : list Z |- _ => destruct w as [|a [|b [|c [|d w]]]]; cbn [nth] in *; subst; try discriminate;
    try (rewrite !zlen_cons in *; pose proof (zlen_nonneg w); lia) end.
  all: in_table.
Qed.

Lemma ident_word w : word_type reserved w (ident_type w).
Proof.
  destruct (in_dec (list_eq_dec Z.eq_dec) w (List.map fst reserved)) as [i|n].
  - left. apply in_map_iff in i. destruct i as ((w' & t) & E & i). cbn [fst] in E. subst w'.
    pose proof word_known as K. rewrite Forall_forall in K. specialize (K _ i). cbn [fst snd] in K. rewrite K. exact i.
  - right. split; [exact n|].
    assert (D : ident_type w = IDENT \/ ident_type w <> IDENT) by (destruct (ident_type w); ((left; reflexivity) || (right; discriminate))).
    destruct D as [D|D]; [exact D|]. exfalso. apply n, word_only, D.
Qed.

Lemma word_type_fun w t : word_type reserved w t -> ident_type w = t.
Proof.
  intros [i|(n & ->)].
  - pose proof word_known as K. rewrite Forall_forall in K. exact (K _ i).
  - destruct (ident_word w) as [i|(_ & E)]; [|exact E]. exfalso. apply n. apply in_map_iff. eexists. split; [|exact i]. reflexivity.
Qed.

(** ** Rows of characters *)

Lemma prefix1 c r : prefix [c] r <-> exists t, r = c :: t.
Proof. unfold prefix. cbn [app]. reflexivity. Qed.

(** The character behind: the first of [r], or the NUL. *)
Definition behind (r : list Z) : Z := hd 0 r.

Lemma behind_not (kind : Z -> Prop) r : ~ kind 0 -> (forall c, kind c -> ~ prefix [c] r) -> ~ kind (behind r).
Proof. intros H0 H K. destruct r as [|c t]; cbn [behind hd] in K; [exact (H0 K)|]. apply (H c K). exists t. reflexivity. Qed.

Lemma behind_only (kind : Z -> Prop) r c : ~ kind (behind r) -> kind c -> ~ prefix [c] r.
Proof. intros H K (t & ->). exact (H K). Qed.

Lemma with_nul r : r ++ [0] = behind r :: tl (r ++ [0]).
Proof. destruct r; reflexivity. Qed.

Lemma span_ok kind w r : Forall (fun c => kind c = true) w -> kind (behind r) = false ->
  span kind (w ++ r ++ [0]) = Ok (w, r ++ [0]).
Proof.
  intros F E. induction F as [|c w H F IH].
  - cbn [app]. rewrite with_nul. cbn [span]. rewrite E. reflexivity.
  - cbn [app span]. rewrite H, IH. reflexivity.
Qed.

(** The rest of a source with its NUL. *)
Definition nul_free (r : list Z) : Prop := Forall (fun c => c <> 0) r.

Lemma source_nul_free s : source_text s -> nul_free s.
Proof. intros F. apply Forall_impl with (2 := F). intros c H. lia. Qed.

Lemma span_inv kind s : kind 0 = false -> nul_free s ->
  exists w r, s = w ++ r /\ span kind (s ++ [0]) = Ok (w, r ++ [0]) /\ Forall (fun c => kind c = true) w /\ kind (behind r) = false.
Proof.
  intros K F. induction F as [|c s H F IH].
  - exists [], []. repeat split; [cbn [app span]; rewrite K; reflexivity|constructor|exact K].
  - cbn [app span]. destruct (kind c) eqn:E.
    + destruct IH as (w & r & -> & S & Fw & Er). exists (c :: w), r. rewrite S. repeat split; [constructor; auto|exact Er].
    + exists [], (c :: s). repeat split; [constructor|exact E].
Qed.

Lemma nul_free_app a b : nul_free (a ++ b) <-> nul_free a /\ nul_free b.
Proof. apply Forall_app. Qed.

(** ** Operators *)

Fixpoint starts (p s : list Z) : bool :=
  match p, s with
  | [], _ => true
  | a :: p, b :: s => (a =? b) && starts p s
  | _, [] => false
  end.

Lemma starts_spec p s : starts p s = true <-> prefix p s.
Proof.
  revert s. induction p as [|a p IH]; intros s; cbn [starts].
  - split; [exists s; reflexivity|reflexivity].
  - destruct s as [|b s]; [split; [discriminate|intros (r & E); discriminate E]|].
    rewrite andb_true_iff, Z.eqb_eq, IH. unfold prefix. split.
    + intros (-> & r & ->). exists r. reflexivity.
    + intros (r & E). injection E as -> ->. eauto.
Qed.

Lemma operators_chars : Forall (fun p => Forall (fun c => c <> 0) (snd p) /\ snd p <> []) operators.
Proof. cbv [operators snd]. repeat (apply Forall_cons; [split; [repeat (apply Forall_cons; [discriminate|]); apply Forall_nil|discriminate]|]). apply Forall_nil. Qed.

(** What the scanner takes is an operator, and no operator there is longer. *)
Definition within (c d e : Z) (n : Z) (p : ttype * list Z) : Prop := starts (snd p) [c; d; e] = true -> zlen (snd p) <= n.

Lemma special_some c d e s t k : special_char c (d :: e :: s) = Some (t, k) ->
  (k <= 2)%nat /\ In (t, firstn (S k) [c; d; e]) operators /\ Forall (within c d e (Z.of_nat (S k))) operators.
Proof.
  intros H. unfold special_char in H. cbn [next_is tl] in H. cbv zeta in H.
  repeat match type of H with context [if ?b then _ else _] => let E := fresh "E" in destruct b eqn:E end.
  all: try discriminate H; injection H as <- <-.
  all: repeat match goal with E : (_ && _) = true |- _ => apply andb_prop in E; destruct E | E : (_ =? _) = true |- _ => apply Z.eqb_eq in E; subst end.
  all: repeat match goal with E : (?n =? ?m) = false |- _ => is_const n; clear E | E : (Zpos _ =? Zpos _) = false |- _ => clear E end.
  all: split; [lia|].
  all: split; [unfold operators; cbn [firstn]; repeat (first [left; reflexivity | right]) |].
  all: let o := eval vm_compute in operators in change operators with o.
  all: repeat (apply Forall_cons; [unfold within; cbn [snd starts]; intros X; first [discriminate X | (vm_compute; discriminate) | (exfalso; clear - X E; lia) | (exfalso; lia)]|]).
  all: apply Forall_nil.
Qed.

Lemma special_none c d e s : special_char c (d :: e :: s) = None -> Forall (fun p => starts (snd p) [c; d; e] = false) operators.
Proof.
  intros H. unfold special_char in H. cbn [next_is tl] in H. cbv zeta in H.
  repeat match type of H with context [if ?b then _ else _] => let E := fresh "E" in destruct b eqn:E; [discriminate H|] end.
  let o := eval vm_compute in operators in change operators with o.
  repeat (apply Forall_cons; [cbn [snd starts]; rewrite Z.eqb_sym;
    match goal with E : ?b = false |- ?b && _ = false => rewrite E; reflexivity end|]).
  apply Forall_nil.
Qed.

Definition three (s : list Z) : list Z := [nth 0 s 0; nth 1 s 0; nth 2 s 0].

Lemma special_two c l : special_char c l = special_char c [nth 0 l 0; nth 1 l 0].
Proof. destruct l as [|d [|e l]]; reflexivity. Qed.

Lemma operator_short : Forall (fun p => (length (snd p) <= 3)%nat) operators.
Proof. let o := eval vm_compute in operators in change operators with o. repeat (apply Forall_cons; [cbn [snd length]; lia|]). apply Forall_nil. Qed.

Lemma starts_three p s : nul_free p -> (length p <= 3)%nat -> starts p (three s) = starts p s.
Proof.
  intros F L. unfold three. unfold nul_free in F.
  destruct p as [|a [|b [|c [|d p]]]]; cbn [length] in L; try lia; [reflexivity| | |].
  all: repeat match goal with F : Forall _ (_ :: _) |- _ => apply Forall_cons_iff in F; destruct F as (? & F) end.
  all: destruct s as [|x [|y [|z s]]]; cbn [nth starts]; rewrite ?andb_true_r; try reflexivity; lia.
Qed.

Lemma starts_nul p s : nul_free p -> starts p (s ++ [0]) = starts p s.
Proof.
  intros F. revert s. induction F as [|a p H F IH]; intros s; [destruct s; reflexivity|].
  destruct s as [|b s]; cbn [app starts].
  - destruct (a =? 0) eqn:E; [apply Z.eqb_eq in E; contradiction|reflexivity].
  - rewrite IH. reflexivity.
Qed.

Lemma operator_type t t' op : In (t, op) operators -> In (t', op) operators -> t = t'.
Proof.
  let o := eval vm_compute in operators in change operators with o. cbn [In].
  intros H H'.
  repeat (destruct H as [H|H]; [injection H as <- <-;
    repeat (destruct H' as [H'|H']; [first [discriminate H' | (injection H' as <-; reflexivity)]|]); destruct H'|]).
  destruct H.
Qed.

(** The operator the scanner takes at the front of a source. *)
Lemma special_takes c s t k : special_char c (s ++ [0]) = Some (t, k) -> nul_free (c :: s) ->
  exists op r, c :: s = op ++ r /\ length op = S k /\ In (t, op) operators /\
    (forall t' op', In (t', op') operators -> prefix op' (c :: s) -> zlen op' <= zlen op).
Proof.
  intros H F. rewrite special_two in H. pose proof (special_some _ _ _ _ _ _ H) as (L & i & W).
  set (th := [c; nth 0 (s ++ [0]) 0; nth 1 (s ++ [0]) 0]) in *.
  assert (T : th = three (c :: s)) by (unfold th, three; destruct s as [|x [|y s]]; reflexivity).
  pose proof operators_chars as OC. rewrite Forall_forall in OC. destruct (OC _ i) as (Fo & _). cbn [snd] in Fo.
  pose proof operator_short as OS. rewrite Forall_forall in OS.
  assert (P : starts (firstn (S k) th) th = true).
  { apply starts_spec. exists (skipn (S k) th). symmetry. apply firstn_skipn. }
  assert (Lo : length (firstn (S k) th) = S k) by (rewrite firstn_length; unfold th; cbn [length]; lia).
  rewrite T in P at 2. rewrite starts_three in P; [|exact Fo|lia].
  apply starts_spec in P. destruct P as (r & E). exists (firstn (S k) th), r.
  repeat split; [exact E|exact Lo|exact i|].
  intros t' op' i' P'. rewrite Forall_forall in W. specialize (W _ i'). unfold within in W. cbn [snd] in W.
  unfold zlen at 2. rewrite Lo. apply W. fold th. rewrite T, starts_three; [apply starts_spec; exact P'| |].
  - exact (proj1 (OC _ i')).
  - exact (OS _ i').
Qed.

Lemma special_ok t c op r : In (t, c :: op) operators -> nul_free (c :: op ++ r) ->
  (forall t' op', In (t', op') operators -> prefix op' (c :: op ++ r) -> zlen op' <= zlen (c :: op)) ->
  special_char c ((op ++ r) ++ [0]) = Some (t, length op).
Proof.
  intros i F M. destruct (special_char c ((op ++ r) ++ [0])) as [(t' & k)|] eqn:E.
  - destruct (special_takes _ _ _ _ E F) as (o & r' & Eq & L & i' & M').
    pose proof (M _ _ i' (ex_intro _ r' Eq)) as A. pose proof (M' _ _ i (ex_intro _ r eq_refl)) as B.
    unfold zlen in A, B. cbn [length] in A, B.
    assert (Eo : o = c :: op).
    { assert (Z1 : length o = length (c :: op)) by (cbn [length]; lia).
      change (c :: op ++ r) with ((c :: op) ++ r) in Eq. clear - Eq Z1.
      assert (X : firstn (length o) (o ++ r') = firstn (length (c :: op)) ((c :: op) ++ r)) by (rewrite <- Eq; rewrite Z1; reflexivity).
      rewrite !firstn_app, !Nat.sub_diag, !firstn_all, !firstn_O, !app_nil_r in X. exact X. }
    subst o. rewrite (operator_type _ _ _ i' i). cbn [length] in L. f_equal. f_equal. lia.
  - exfalso. rewrite special_two in E. apply special_none in E. rewrite Forall_forall in E. specialize (E _ i). cbn [snd] in E.
    set (th := [c; nth 0 ((op ++ r) ++ [0]) 0; nth 1 ((op ++ r) ++ [0]) 0]) in *.
    assert (T : th = three (c :: op ++ r)) by (unfold th, three; destruct (op ++ r) as [|x [|y s]]; reflexivity).
    pose proof operators_chars as OC. rewrite Forall_forall in OC. destruct (OC _ i) as (Fo & _). cbn [snd] in Fo.
    pose proof operator_short as OS. rewrite Forall_forall in OS. specialize (OS _ i). cbn [snd] in OS.
    rewrite T, starts_three in E by assumption.
    assert (X : starts (c :: op) (c :: op ++ r) = true) by (apply starts_spec; exists r; reflexivity). congruence.
Qed.
