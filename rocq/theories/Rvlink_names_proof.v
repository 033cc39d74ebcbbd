(** Jumps to names. *)
From Coq Require Import ZArith List Bool Lia ZifyBool ZifyNat.
From Verif Require Import Base Rv_model Rv_spec Rv_proof Rv_dec_proof Rv_run_proof
  Rvlink_model Rvlink_spec Rvlink_proof Rvlink_reloc_proof.
Import ListNotations.
Open Scope Z_scope.

Definition jlen (o : jop) : Z := match o with Call => 8 | _ => 4 end.
Lemma jump_len : forall o d, Z.of_nat (length (jump_bytes o d)) = jlen o.
Proof. intros [|o a b|] d; reflexivity. Qed.

Lemma Ok_inj : forall A (a b : A), Ok a = Ok b -> a = b.
Proof. intros A a b H. injection H as ->. reflexivity. Qed.

(** ** The first pass *)
Lemma pass1_app : forall a s b, pass1 s (a ++ b) = bind (pass1 s a) (fun s => pass1 s b).
Proof.
  induction a as [|x a IH]; intros s b; cbn [pass1 app]; [reflexivity|].
  destruct (pass1_step s x); cbn [bind]; auto.
Qed.

Definition datas (ts : list temp) := map t_data ts.

Lemma pos_app : forall a b i, (i <= length a)%nat -> pos (a ++ b) i = pos a i.
Proof.
  intros a b i H. unfold pos. rewrite firstn_app.
  replace (i - length a)%nat with 0%nat by lia. cbn [firstn]. rewrite app_nil_r. reflexivity.
Qed.
Lemma pos_all : forall a, pos a (length a) = Z.of_nat (length (concat a)).
Proof. intros a. unfold pos. rewrite firstn_all. reflexivity. Qed.
Lemma pos_S : forall a i c, nth_error a i = Some c -> pos a (Datatypes.S i) = pos a i + Z.of_nat (length c).
Proof.
  intros a i c H. unfold pos.
  destruct (nth_error_split _ _ H) as (x & y & -> & L). subst i.
  rewrite !firstn_app. replace (Datatypes.S (length x) - length x)%nat with 1%nat by lia.
  replace (length x - length x)%nat with 0%nat by lia.
  rewrite (firstn_all2 x) by lia. rewrite firstn_all.
  cbn [firstn]. rewrite !concat_app. cbn [concat]. rewrite !app_length. cbn [length]. lia.
Qed.
Lemma pos_mono : forall a i j, (i <= j)%nat -> pos a i <= pos a j.
Proof.
  intros a i j H. unfold pos.
  replace (firstn i a) with (firstn i (firstn j a)) by (rewrite firstn_firstn; f_equal; lia).
  set (b := firstn j a). rewrite <- (firstn_skipn i b) at 2.
  rewrite concat_app, app_length. lia.
Qed.
Lemma pos_nonneg : forall a i, 0 <= pos a i.
Proof. intros. unfold pos. lia. Qed.

Definition has_data (l : list item) (n : nat) : Prop := exists b t, In (Data b t n) l.

Definition tab_ok (t : symtab) (p : list item) (cs : list (list Z)) : Prop :=
  forall n,
    (forall j, nth_error p j = Some (Label n) -> lookup t n = Some (pos cs j)) /\
    (~ defined p n -> has_data p n -> lookup t n = Some 0) /\
    (~ defined p n -> ~ has_data p n -> lookup t n = None).

Definition temp_ok (p : list item) (cs : list (list Z)) (x : item) (t : temp) : Prop :=
  t_off t = Z.of_nat (length (concat cs)) /\
  match x with
  | Label _ => t_jump t = None /\ t_rel t = None /\ t_data t = []
  | Plain b | Data b _ _ => t_jump t = None /\ t_rel t = None /\ t_data t = b
  | Jump o n =>
      t_jump t = Some o /\
        ((t_rel t = Some n /\ t_data t = jump_bytes o 0 /\
            (is_branch o = true -> ~ defined p n /\ ~ has_data p n)) \/
         (t_rel t = None /\ is_branch o = true /\
          exists v, t_data t = jump_bytes o (v - t_off t) /\ in_range o (v - t_off t) = true /\
            ((exists j, nth_error p j = Some (Label n) /\ v = pos cs j) \/
             (v = 0 /\ ~ defined p n /\ has_data p n))))
  end.

Definition temps_ok (p : list item) (ts : list temp) : Prop :=
  length ts = length p /\
  forall i x t, nth_error p i = Some x -> nth_error ts i = Some t ->
    temp_ok (firstn i p) (firstn i (datas ts)) x t.

Lemma uniq_app : forall p x, one_definition (p ++ x) -> one_definition p.
Proof.
  intros p x H i j n A B. apply (H i j n); rewrite nth_error_app1; auto;
    apply nth_error_Some; congruence.
Qed.

Lemma is_defined_iff : forall l n, is_defined l n = true <-> defined l n.
Proof.
  intros l n. unfold is_defined, defined. rewrite existsb_exists. split.
  - intros (x & I0 & H). destruct x; try discriminate H. apply Nat.eqb_eq in H. subst. exact I0.
  - intros H. exists (Label n). split; [exact H|apply Nat.eqb_refl].
Qed.
Lemma defined_dec : forall p n, {defined p n} + {~ defined p n}.
Proof.
  intros p n. destruct (is_defined p n) eqn:E; [left|right]; rewrite <- is_defined_iff, E; congruence.
Qed.
Lemma has_data_dec : forall p n, {has_data p n} + {~ has_data p n}.
Proof.
  intros p n. unfold has_data. induction p as [|x p IH].
  - right. intros (b & t & []).
  - destruct IH as [H|H].
    + left. destruct H as (b & t & H). exists b, t. right. exact H.
    + destruct x as [m|b|b t m|o m];
        try (right; intros (b' & t' & [E|E]); [discriminate E | apply H; eauto]).
      destruct (Nat.eq_dec m n) as [->|N].
      * left. exists b, t. left. reflexivity.
      * right. intros (b' & t' & [E|E]); [congruence | apply H; eauto].
Qed.

Lemma defined_snoc : forall p x n, defined (p ++ [x]) n <-> defined p n \/ x = Label n.
Proof. intros p x n. unfold defined. rewrite in_app_iff. cbn [In]. tauto. Qed.
Lemma has_data_snoc : forall p x n,
  has_data (p ++ [x]) n <-> has_data p n \/ (exists b t, x = Data b t n).
Proof.
  intros p x n. unfold has_data. split.
  - intros (b & t & H). apply in_app_or in H. destruct H as [H|[H|[]]]; eauto 6.
  - intros [(b & t & H)|(b & t & ->)]; exists b, t; apply in_or_app; cbn; auto.
Qed.

Lemma nth_error_snoc_inv : forall A (p : list A) x j y,
  nth_error (p ++ [x]) j = Some y ->
  (nth_error p j = Some y /\ (j < length p)%nat) \/ (j = length p /\ y = x).
Proof.
  intros A p x j y H. destruct (Nat.lt_ge_cases j (length p)).
  - rewrite nth_error_app1 in H by assumption. auto.
  - rewrite nth_error_app2 in H by assumption.
    destruct (j - length p)%nat as [|k] eqn:E.
    + injection H as <-. right. split; [lia|reflexivity].
    + destruct k; discriminate H.
Qed.

Lemma tab_ok_same : forall t p cs x c,
  length cs = length p -> tab_ok t p cs ->
  (forall n, x <> Label n) -> (forall b tl n, x <> Data b tl n) ->
  tab_ok t (p ++ [x]) (cs ++ [c]).
Proof.
  intros t p cs x c L T NL ND n. destruct (T n) as (T1 & T2 & T3). split; [|split].
  - intros j J. destruct (nth_error_snoc_inv _ _ _ _ _ J) as [(J' & Lj)|(_ & E)].
    + rewrite pos_app by lia. auto.
    + symmetry in E. destruct (NL _ E).
  - rewrite defined_snoc, has_data_snoc. intros A [B|(b & tl & B)]; [|destruct (ND _ _ _ B)].
    apply T2; tauto.
  - rewrite defined_snoc, has_data_snoc. intros A B. apply T3; tauto.
Qed.

Lemma temps_ok_snoc : forall p ts x t, temps_ok p ts ->
  temp_ok p (datas ts) x t -> temps_ok (p ++ [x]) (ts ++ [t]).
Proof.
  intros p ts x t (L & H) T. split; [rewrite !app_length; cbn; lia|].
  intros i y u Y U.
  destruct (nth_error_snoc_inv _ _ _ _ _ Y) as [(Y' & Li)|(-> & ->)].
  - rewrite nth_error_app1 in U by lia.
    unfold datas. rewrite map_app. rewrite !firstn_app.
    replace (i - length p)%nat with 0%nat by lia.
    replace (i - length (map t_data ts))%nat with 0%nat by (rewrite map_length; lia).
    cbn [firstn]. rewrite !app_nil_r. apply H; assumption.
  - rewrite nth_error_app2 in U by lia. replace (length p - length ts)%nat with 0%nat in U by lia.
    injection U as <-. unfold datas. rewrite map_app, !firstn_app.
    replace (length p - length p)%nat with 0%nat by lia.
    rewrite map_length, L. replace (length p - length p)%nat with 0%nat by lia.
    cbn [firstn]. rewrite !app_nil_r, firstn_all.
    replace (length p) with (length (map t_data ts)) by (rewrite map_length; lia).
    rewrite firstn_all. exact T.
Qed.

Lemma data_refs_snoc : forall p x cs c q, length cs = length p ->
  data_refs q (p ++ [x]) (cs ++ [c]) =
  data_refs q p cs ++ data_refs (q + Z.of_nat (length (concat cs))) [x] [c].
Proof.
  induction p as [|y p IH]; intros x cs c q L; destruct cs as [|d cs]; try discriminate L.
  - cbn [app concat length]. rewrite Z.add_0_r. reflexivity.
  - cbn [app data_refs]. injection L as L. rewrite IH by assumption.
    rewrite <- app_assoc. do 2 f_equal.
    cbn [concat]. rewrite app_length, Nat2Z.inj_add, Z.add_assoc. reflexivity.
Qed.

Record inv (p : list item) (s : st1) : Prop := Inv {
  i_off : off s = Z.of_nat (length (concat (datas (temps s))));
  i_tab : tab_ok (syms s) p (datas (temps s));
  i_temps : temps_ok p (temps s);
  i_rels : rels s = data_refs 0 p (datas (temps s))
}.

Lemma concat_snoc_len : forall (cs : list (list Z)) c,
  Z.of_nat (length (concat (cs ++ [c]))) = Z.of_nat (length (concat cs)) + Z.of_nat (length c).
Proof. intros. rewrite concat_app, app_length. cbn [concat]. rewrite app_nil_r. lia. Qed.

Lemma lookup_cases : forall p s n, inv p s ->
  (exists j, nth_error p j = Some (Label n) /\ lookup (syms s) n = Some (pos (datas (temps s)) j)) \/
  (~ defined p n /\ has_data p n /\ lookup (syms s) n = Some 0) \/
  (~ defined p n /\ ~ has_data p n /\ lookup (syms s) n = None).
Proof.
  intros p s n [_ T _ _]. destruct (T n) as (T1 & T2 & T3).
  destruct (defined_dec p n) as [D|D].
  - left. apply In_nth_error in D. destruct D as (j & J). eauto.
  - destruct (has_data_dec p n); [right; left | right; right]; auto.
Qed.

Lemma pass1_step_inv : forall p s x s', inv p s -> one_definition (p ++ [x]) ->
  pass1_step s x = Ok s' -> inv (p ++ [x]) s'.
Proof.
  intros p s x s' Hi U E. pose proof Hi as [Ho Ht Hts Hr].
  assert (L : length (datas (temps s)) = length p)
    by (unfold datas; rewrite map_length; exact (proj1 Hts)).
  destruct x as [n|b|b tl n|o n]; cbn [pass1_step] in E.
  - injection E as <-. split; cbn [off syms temps rels]; unfold datas in *; rewrite ?map_app; cbn [map t_data].
    + rewrite concat_snoc_len. cbn [length]. lia.
    + intros m. destruct (Ht m) as (T1 & T2 & T3). cbn [lookup]. split; [|split].
      * intros j J. destruct (nth_error_snoc_inv _ _ _ _ _ J) as [(J' & Lj)|(-> & E)].
        -- destruct (Nat.eqb_spec n m) as [->|N].
           { exfalso. assert (j = length p).
             { apply (U j (length p) m J). rewrite nth_error_app2 by lia.
               replace (length p - length p)%nat with 0%nat by lia. reflexivity. }
             lia. }
           rewrite pos_app by lia. auto.
        -- injection E as ->. rewrite Nat.eqb_refl. rewrite pos_app by lia.
           rewrite <- L, pos_all, Ho. reflexivity.
      * rewrite defined_snoc, has_data_snoc. intros A B.
        destruct (Nat.eqb_spec n m) as [->|N]; [destruct A; auto|].
        apply T2; [tauto|]. destruct B as [B|(b & tl & B)]; [exact B|discriminate B].
      * rewrite defined_snoc, has_data_snoc. intros A B.
        destruct (Nat.eqb_spec n m) as [->|N]; [destruct A; auto|]. apply T3; tauto.
    + apply temps_ok_snoc; [exact Hts|]. split; [exact Ho|]. cbn. auto.
    + rewrite data_refs_snoc by assumption. cbn [data_refs app]. rewrite !app_nil_r. exact Hr.
  - injection E as <-. split; cbn [off syms temps rels]; unfold datas in *; rewrite ?map_app; cbn [map t_data].
    + rewrite concat_snoc_len. lia.
    + apply tab_ok_same; auto; discriminate.
    + apply temps_ok_snoc; [exact Hts|]. split; [exact Ho|]. cbn. auto.
    + rewrite data_refs_snoc by assumption. cbn [data_refs app]. rewrite !app_nil_r. exact Hr.
  - injection E as <-. split; cbn [off syms temps rels]; unfold datas in *; rewrite ?map_app; cbn [map t_data].
    + rewrite concat_snoc_len. lia.
    + intros m. destruct (Ht m) as (T1 & T2 & T3).
      assert (Q : lookup (match lookup (syms s) n with Some _ => syms s | None => (n, 0) :: syms s end) m
                  = if Nat.eqb n m then Some (match lookup (syms s) n with Some v => v | None => 0 end)
                    else lookup (syms s) m).
      { destruct (Nat.eqb_spec n m) as [->|N].
        - destruct (lookup (syms s) m) eqn:E; [exact E|]. cbn [lookup]. rewrite Nat.eqb_refl. reflexivity.
        - destruct (lookup (syms s) n); [reflexivity|]. cbn [lookup].
          destruct (Nat.eqb_spec n m); [contradiction|reflexivity]. }
      rewrite Q. split; [|split].
      * intros j J. destruct (nth_error_snoc_inv _ _ _ _ _ J) as [(J' & Lj)|(-> & E)]; [|discriminate E].
        rewrite pos_app by lia. specialize (T1 j J').
        destruct (Nat.eqb_spec n m) as [->|N]; rewrite T1; reflexivity.
      * rewrite defined_snoc, has_data_snoc. intros A B.
        destruct (Nat.eqb_spec n m) as [->|N].
        -- destruct (has_data_dec p m) as [D|D].
           ++ rewrite T2 by tauto. reflexivity.
           ++ rewrite T3 by tauto. reflexivity.
        -- apply T2; [tauto|]. destruct B as [B|(b' & tl' & B)]; [exact B|congruence].
      * rewrite defined_snoc, has_data_snoc. intros A B.
        destruct (Nat.eqb_spec n m) as [->|N]; [destruct B; eauto|]. apply T3; tauto.
    + apply temps_ok_snoc; [exact Hts|]. split; [exact Ho|]. cbn. auto.
    + rewrite data_refs_snoc by assumption. cbn [data_refs app]. rewrite Hr. do 3 f_equal. lia.
  - assert (X : exists d rel,
      s' = St1 (off s + Z.of_nat (length (jump_bytes o d))) (syms s)
              (temps s ++ [Temp (off s) (Some o) rel (jump_bytes o d)]) (rels s) /\
      temp_ok p (datas (temps s)) (Jump o n) (Temp (off s) (Some o) rel (jump_bytes o d))).
    { destruct (lookup_cases p s n Hi) as [(j & J & El)|[(D & A & El)|(D & A & El)]]; rewrite El in E.
      - destruct (is_branch o) eqn:B.
        + destruct (in_range o (pos (datas (temps s)) j - off s)) eqn:R; [|discriminate E].
          cbn [bind] in E; apply Ok_inj in E; subst s'. exists (pos (datas (temps s)) j - off s), None. split; [reflexivity|].
          split; [exact Ho|]. cbn [t_jump t_rel t_data t_off]. split; [reflexivity|]. right.
          split; [reflexivity|]. split; [exact B|]. eexists. split; [reflexivity|]. split; [exact R|]. left. eauto.
        + cbn [bind] in E; apply Ok_inj in E; subst s'. exists 0, (Some n). split; [reflexivity|].
          split; [exact Ho|]. cbn [t_jump t_rel t_data t_off]. split; [reflexivity|]. left.
          split; [reflexivity|]. split; [reflexivity|]. intros X; try rewrite B in X; discriminate X.
      - destruct (is_branch o) eqn:B.
        + destruct (in_range o (0 - off s)) eqn:R; [|discriminate E].
          cbn [bind] in E; apply Ok_inj in E; subst s'. exists (0 - off s), None. split; [reflexivity|].
          split; [exact Ho|]. cbn [t_jump t_rel t_data t_off]. split; [reflexivity|]. right.
          split; [reflexivity|]. split; [exact B|]. eexists. split; [reflexivity|]. split; [exact R|]. right. auto.
        + cbn [bind] in E; apply Ok_inj in E; subst s'. exists 0, (Some n). split; [reflexivity|].
          split; [exact Ho|]. cbn [t_jump t_rel t_data t_off]. split; [reflexivity|]. left.
          split; [reflexivity|]. split; [reflexivity|]. intros X; try rewrite B in X; discriminate X.
      - cbn [bind] in E; apply Ok_inj in E; subst s'. exists 0, (Some n). split; [reflexivity|].
          split; [exact Ho|]. cbn [t_jump t_rel t_data t_off]. split; [reflexivity|]. left. auto. }
    destruct X as (d & rel & -> & T).
    split; cbn [off syms temps rels]; unfold datas in *; rewrite ?map_app; cbn [map t_data].
    + rewrite concat_snoc_len. lia.
    + apply tab_ok_same; auto; discriminate.
    + apply temps_ok_snoc; [exact Hts|]. exact T.
    + rewrite data_refs_snoc by assumption. cbn [data_refs app]. rewrite !app_nil_r. exact Hr.
Qed.

Lemma pass1_inv : forall p s, one_definition p -> pass1 (St1 0 [] [] []) p = Ok s -> inv p s.
Proof.
  induction p as [|x p IH] using rev_ind; intros s U E.
  - cbn in E. injection E as <-. split; cbn.
    + reflexivity.
    + intros n. split; [intros [|j] J; discriminate J|]. split; [|reflexivity].
      intros _ (b & t & []).
    + split; [reflexivity|]. intros [|i] y t Y; discriminate Y.
    + reflexivity.
  - rewrite pass1_app in E. destruct (pass1 _ p) as [s1| | | | |] eqn:E1; try discriminate E.
    cbn [bind pass1] in E. destruct (pass1_step s1 x) as [s2| | | | |] eqn:E2; try discriminate E.
    cbn [bind] in E. injection E as <-.
    eapply pass1_step_inv; eauto using uniq_app.
Qed.

(** ** The second pass *)
Definition val (t : symtab) (n : nat) : Z := match lookup t n with Some v => v | None => 0 end.
Definition jty (o : jop) : rty := match o with Jmp => RJal | Call => RCall | Br _ _ _ => RBranch end.

Definition temp_sane (t : temp) : Prop :=
  forall n, t_rel t = Some n -> exists o, t_jump t = Some o /\ t_data t = jump_bytes o 0.

Definition after2 (t0 : symtab) (t t' : temp) : Prop :=
  length (t_data t') = length (t_data t) /\
  match t_rel t, t_jump t with
  | Some n, Some o =>
      if is_branch o && (0 <? val t0 n) then
        in_range o (val t0 n - t_off t) = true /\
        t_data t' = jump_bytes o (val t0 n - t_off t)
      else t' = t
  | _, _ => t' = t
  end.
Definition refs2 (t0 : symtab) (t : temp) : list rela :=
  match t_rel t, t_jump t with
  | Some n, Some o =>
      if is_branch o && (0 <? val t0 n) then [] else [Rela (t_off t) (jty o) n]
  | _, _ => []
  end.

Lemma pass2_ok : forall t0 l tab rs l' tab' rs', (forall n, val tab n = val t0 n) ->
  (forall t, In t l -> temp_sane t) ->
  pass2 (tab, rs) l = Ok (l', (tab', rs')) ->
  Forall2 (after2 t0) l l' /\ rs' = rs ++ flat_map (refs2 t0) l.
Proof.
  intros t0. induction l as [|t l IH]; intros tab rs l' tab' rs' V S E.
  - cbn [pass2] in E. injection E as <- <- <-. cbn [flat_map]. rewrite app_nil_r. auto.
  - cbn [pass2] in E.
    assert (X : forall t' tab1 rs1, pass2_step (tab, rs) t = Ok (t', (tab1, rs1)) ->
              after2 t0 t t' /\ rs1 = rs ++ refs2 t0 t /\ forall n, val tab1 n = val t0 n).
    { intros t' tab1 rs1 E1. unfold pass2_step, refs2, after2 in *. destruct (t_rel t) as [n|] eqn:R.
      - destruct (S t (or_introl eq_refl) n R) as (o & J & B). rewrite J in *.
        assert (W : exists tab', (match lookup tab n with Some v => (tab, v) | None => ((n, 0) :: tab, 0) end)
                    = (tab', val t0 n) /\ forall m, val tab' m = val t0 m).
        { pose proof (V n) as Vn. unfold val at 1 in Vn. destruct (lookup tab n) eqn:El.
          - exists tab. subst z. auto.
          - exists ((n, 0) :: tab). rewrite Vn. split; [reflexivity|]. intros m. unfold val at 1. cbn [lookup].
            destruct (Nat.eqb_spec n m) as [->|N]; [auto|]. apply V. }
        destruct W as (tabx & W & V'). rewrite W in E1.
        destruct (is_branch o && (0 <? val t0 n)) eqn:P.
        + destruct (in_range o (val t0 n - t_off t)) eqn:Rg; [|discriminate E1].
          injection E1 as <- <- <-. rewrite app_nil_r. cbn [t_data]. split; [|auto].
          split; [|auto]. rewrite B. apply Nat2Z.inj. rewrite !jump_len. reflexivity.
        + injection E1 as <- <- <-. auto.
      - rewrite app_nil_r.
        destruct (t_jump t); injection E1 as <- <- <-; auto. }
    destruct (pass2_step (tab, rs) t) as [(t' & tab1 & rs1)| | | | |] eqn:E1; try discriminate E.
    cbn [bind] in E. destruct (X _ _ _ eq_refl) as (A & -> & V1).
    destruct (pass2 _ l) as [(l1 & tab2 & rs2)| | | | |] eqn:E2; try discriminate E.
    cbn [bind] in E. injection E as <- <- <-.
    destruct (IH tab1 _ _ _ _ V1 (fun u H => S u (or_intror H)) E2) as (F & ->).
    cbn [flat_map]. rewrite <- app_assoc. auto.
Qed.

(** ** Together *)
Lemma Forall2_nth : forall A B (R : A -> B -> Prop) l l', Forall2 R l l' ->
  forall i x, nth_error l i = Some x -> exists y, nth_error l' i = Some y /\ R x y.
Proof.
  intros A B R l l' F. induction F; intros [|i] z Z0; cbn in *; try discriminate Z0; eauto.
  injection Z0 as <-. eauto.
Qed.

Lemma firstn_length_same : forall t0 ts ts', Forall2 (after2 t0) ts ts' ->
  forall i, pos (datas ts') i = pos (datas ts) i.
Proof.
  intros t0 ts ts' F. induction F as [|t t' ts ts' A F IH]; intros i; [reflexivity|].
  destruct i as [|i]; [reflexivity|]. specialize (IH i). unfold pos, datas in *. cbn [map firstn concat].
  rewrite !app_length. destruct A as (A & _). lia.
Qed.

Lemma assemble_inv : forall l chunks rs, one_definition l -> assemble l = Ok (chunks, rs) ->
  exists s ts', chunks = datas ts' /\ inv l s /\
    Forall2 (after2 (syms s)) (temps s) ts' /\
    rs = data_refs 0 l (datas (temps s)) ++ flat_map (refs2 (syms s)) (temps s).
Proof.
  intros l chunks rs U E. unfold assemble in E.
  destruct (pass1 _ l) as [s| | | | |] eqn:E1; try discriminate E. cbn [bind] in E.
  pose proof (pass1_inv l s U E1) as Hi.
  assert (Sn : forall t, In t (temps s) -> temp_sane t).
  { intros t T n R. destruct Hi as [_ _ (L & Hts) _].
    apply In_nth_error in T. destruct T as (i & T).
    destruct (nth_error l i) as [x|] eqn:X.
    - destruct (Hts i x t X T) as (_ & H). destruct x as [m|b|b tl m|o m].
      + destruct H as (_ & H & _). congruence.
      + destruct H as (_ & H & _). congruence.
      + destruct H as (_ & H & _). congruence.
      + destruct H as (J & [(R' & Q & _)|(R' & _)]); [|congruence]. exists o. auto.
    - apply nth_error_None in X. assert (i < length (temps s))%nat by (apply nth_error_Some; congruence). lia. }
  destruct (pass2 _ (temps s)) as [(ts' & tab' & rs')| | | | |] eqn:E2; try discriminate E.
  cbn [bind] in E. injection E as <- <-.
  destruct (pass2_ok (syms s) _ _ _ _ _ _ (fun _ => eq_refl) Sn E2) as (F & ->).
  exists s, ts'. split; [reflexivity|]. split; [exact Hi|]. split; [exact F|].
  rewrite (i_rels _ _ Hi). reflexivity.
Qed.

Lemma temps_nth : forall l s i x, inv l s -> nth_error l i = Some x ->
  exists t, nth_error (temps s) i = Some t /\ t_off t = pos (datas (temps s)) i /\
    temp_ok (firstn i l) (firstn i (datas (temps s))) x t.
Proof.
  intros l s i x [_ _ (L & H) _] X.
  destruct (nth_error (temps s) i) as [t|] eqn:T.
  - exists t. split; [reflexivity|]. pose proof (H i x t X T) as K. split; [|exact K].
    destruct K as (K & _). exact K.
  - apply nth_error_None in T. assert (i < length l)%nat by (apply nth_error_Some; congruence). lia.
Qed.

Lemma nth_firstn : forall A (l : list A) i j x, nth_error (firstn i l) j = Some x ->
  nth_error l j = Some x /\ (j < i)%nat.
Proof.
  intros A l. induction l as [|y l IH]; intros [|i] j x H; cbn in H; try (destruct j; discriminate H).
  destruct j as [|j]; cbn in *.
  - split; [exact H|lia].
  - destruct (IH _ _ _ H). split; [assumption|lia].
Qed.
Lemma firstn_nth : forall A (l : list A) i j x, nth_error l j = Some x -> (j < i)%nat ->
  nth_error (firstn i l) j = Some x.
Proof.
  intros A l. induction l as [|y l IH]; intros i [|j] x H L; try discriminate H;
    (destruct i as [|i]; [lia|]); cbn in *; auto. apply IH; [assumption|lia].
Qed.

Lemma not_taken : forall l i n, not_taken_before l i n ->
  defined (firstn i l) n \/ ~ has_data (firstn i l) n.
Proof.
  intros l i n [(j & L & J)|H].
  - left. apply nth_error_In with j. apply firstn_nth; assumption.
  - right. intros (b & t & D). apply In_nth_error in D. destruct D as (j & J).
    apply nth_firstn in J. destruct J as (J & L). exact (H j b t L J).
Qed.

Lemma nth_datas : forall ts i t, nth_error ts i = Some t -> nth_error (datas ts) i = Some (t_data t).
Proof. intros. unfold datas. rewrite nth_error_map, H. reflexivity. Qed.

Lemma pos_firstn : forall a i j, (j <= i)%nat -> pos (firstn i a) j = pos a j.
Proof. intros a i j H. unfold pos. rewrite firstn_firstn, Nat.min_l by lia. reflexivity. Qed.

Lemma tab_defined : forall l s j n, inv l s -> nth_error l j = Some (Label n) ->
  val (syms s) n = pos (datas (temps s)) j.
Proof.
  intros l s j n [_ T _ _] J. unfold val. destruct (T n) as (T1 & _). rewrite (T1 j J). reflexivity.
Qed.
Lemma tab_undefined : forall l s n, inv l s -> ~ defined l n -> val (syms s) n = 0.
Proof.
  intros l s n [_ T _ _] J. unfold val. destruct (T n) as (_ & T2 & T3).
  destruct (has_data_dec l n); [rewrite T2 | rewrite T3]; auto.
Qed.

(** every instruction starts at an even position *)
Lemma chunks_even : forall l s t i, inv l s -> even_items l -> nth_error (temps s) i = Some t ->
  Z.of_nat (length (t_data t)) mod 2 = 0.
Proof.
  intros l s t i Hi He T. destruct Hi as [_ _ (L & H) _].
  destruct (nth_error l i) as [x|] eqn:X.
  - pose proof (He x (nth_error_In _ _ X)) as K. destruct (H i x t X T) as (_ & Q).
    destruct x as [m|b|b tl m|o m].
    + destruct Q as (_ & _ & ->). reflexivity.
    + destruct Q as (_ & _ & ->). exact K.
    + destruct Q as (_ & _ & ->). exact K.
    + destruct Q as (_ & [(_ & -> & _)|(_ & _ & v & -> & _)]); rewrite jump_len; destruct o; reflexivity.
  - apply nth_error_None in X. assert (i < length (temps s))%nat by (apply nth_error_Some; congruence). lia.
Qed.
Lemma pos_even : forall l s i, inv l s -> even_items l -> pos (datas (temps s)) i mod 2 = 0.
Proof.
  intros l s i Hi He. induction i as [|i IH]; [reflexivity|].
  destruct (nth_error (temps s) i) as [t|] eqn:T.
  - rewrite (pos_S _ _ _ (nth_datas _ _ _ T)). pose proof (chunks_even _ _ _ _ Hi He T).
    rewrite Z.add_mod, IH, H by lia. reflexivity.
  - apply nth_error_None in T. unfold pos in *.
    rewrite firstn_all2 in IH by (unfold datas; rewrite map_length; lia).
    rewrite firstn_all2 by (unfold datas; rewrite map_length; lia). exact IH.
Qed.

Lemma lands_bytes : forall o p q, is_branch o = true ->
  (match o with Br _ a b => reg a /\ reg b | _ => True end) ->
  in_range o (q - p) = true -> reaches o (q - p) -> (q - p) mod 2 = 0 ->
  lands o (jump_bytes o (q - p)) p q.
Proof.
  intros [|o a b|] p q B G R K E; [| |discriminate B]; cbn [lands jump_bytes].
  - rewrite <- (app_nil_r (w_jal 0 (q - p))). apply dec_jal; [unfold reg; lia|exact K|exact E].
  - rewrite <- (app_nil_r (asm_bxx o a b (q - p))). destruct G.
    apply dec_bxx; [assumption|assumption|exact K|exact E].
Qed.

Lemma jump_lands : forall l chunks rels i j o n,
  assemble l = Ok (chunks, rels) -> one_definition l -> even_items l ->
  nth_error l i = Some (Jump o n) -> nth_error l j = Some (Label n) -> o <> Call ->
  not_taken_before l i n -> (o = Jmp -> reaches o (pos chunks j - pos chunks i)) ->
  exists c, nth_error chunks i = Some c /\ lands o c (pos chunks i) (pos chunks j).
Proof.
  intros l chunks rels i j o n A U Ev Hi Hj NC NT Rc.
  destruct (assemble_inv l chunks rels U A) as (s & ts' & -> & Iv & F & _).
  pose proof (firstn_length_same _ _ _ F) as PS.
  destruct (temps_nth _ _ _ _ Iv Hi) as (t & T & To & (_ & J & C)).
  destruct (Forall2_nth _ _ _ _ _ F _ _ T) as (t' & T' & (Ln & Af)).
  exists (t_data t'). split; [apply nth_datas; exact T'|].
  rewrite !PS in *.
  pose proof (pos_even l s i Iv Ev) as E1. pose proof (pos_even l s j Iv Ev) as E2.
  assert (B : is_branch o = true) by (destruct o; [reflexivity|reflexivity|congruence]).
  assert (G : match o with Br _ a b => reg a /\ reg b | _ => True end).
  { pose proof (Ev _ (nth_error_In _ _ Hi)) as K. cbn in K. destruct o; auto. }
  set (pi := pos (datas (temps s)) i) in *. set (pj := pos (datas (temps s)) j) in *.
  assert (Rr : in_range o (pj - pi) = true -> reaches o (pj - pi)).
  { intros R. destruct o; [auto| |congruence]. cbn [in_range reaches] in *. lia. }
  assert (Em : (pj - pi) mod 2 = 0).
  { clear - E1 E2. rewrite Zminus_mod, E1, E2. reflexivity. }
  destruct C as [(R & Q & ND)|(R & _ & v & Q & Rg & V)].
  - destruct (ND B) as (ND1 & ND2). rewrite R, J, B in Af. cbn [andb] in Af.
    rewrite (tab_defined _ _ _ _ Iv Hj) in Af. fold pj in Af.
    assert (Hlt : (i < j)%nat).
    { destruct (Nat.lt_trichotomy i j) as [Hl|[->|Hl]]; [exact Hl|congruence|].
      destruct ND1. apply nth_error_In with j. apply firstn_nth; assumption. }
    assert (Gt : 0 < pj).
    { pose proof (pos_mono (datas (temps s)) (Datatypes.S i) j Hlt) as Gm. fold pj in Gm.
      rewrite (pos_S _ _ _ (nth_datas _ _ _ T)), Q, jump_len in Gm.
      pose proof (pos_nonneg (datas (temps s)) i). assert (4 <= jlen o) by (destruct o; cbn; lia). lia. }
    destruct (Z.ltb_spec 0 pj); [|lia]. destruct Af as (Rg & ->).
    rewrite To in *. fold pi in Rg |- *. apply lands_bytes; auto.
  - rewrite R in Af. subst t'.
    assert (Evv : v = pj).
    { destruct V as [(j' & J' & Evv)|(_ & ND & HD)].
      - destruct (nth_firstn _ _ _ _ _ J') as (J'' & Lj).
        rewrite pos_firstn in Evv by lia. rewrite (U _ _ _ J'' Hj) in Evv. exact Evv.
      - destruct (not_taken _ _ _ NT); contradiction. }
    subst v. rewrite Q, To in *. fold pi in Rg |- *. apply lands_bytes; auto.
Qed.

(** ** Entries for the linker *)
Lemma data_refs_len : forall l cs cs' p, map (@length Z) cs = map (@length Z) cs' ->
  data_refs p l cs = data_refs p l cs'.
Proof.
  induction l as [|x l IH]; intros [|c cs] [|c' cs'] p H; try discriminate H; try reflexivity.
  cbn [map] in H. injection H as H1 H2. cbn [data_refs]. rewrite H1. f_equal. apply IH. exact H2.
Qed.
Lemma jump_refs_len : forall w l cs cs' p, map (@length Z) cs = map (@length Z) cs' ->
  jump_refs w p l cs = jump_refs w p l cs'.
Proof.
  intros w. induction l as [|x l IH]; intros [|c cs] [|c' cs'] p H; try discriminate H; try reflexivity.
  cbn [map] in H. injection H as H1 H2. cbn [jump_refs]. rewrite H1. f_equal. apply IH. exact H2.
Qed.

Definition one_ref (whole : list item) (p : Z) (x : item) : list rela :=
  match x with
  | Jump Call n => [Rela p RCall n]
  | Jump Jmp n => if is_defined whole n then [] else [Rela p RJal n]
  | Jump (Br _ _ _) n => if is_defined whole n then [] else [Rela p RBranch n]
  | _ => []
  end.

Lemma one_ref_ok : forall l s i x t, inv l s -> one_definition l ->
  (forall i o n, nth_error l i = Some (Jump o n) -> o <> Call -> not_taken_before l i n) ->
  nth_error l i = Some x -> nth_error (temps s) i = Some t ->
  refs2 (syms s) t = one_ref l (pos (datas (temps s)) i) x.
Proof.
  intros l s i x t Iv U NT Hx Ht.
  destruct (temps_nth _ _ _ _ Iv Hx) as (t2 & Ht2 & To & Tk). rewrite Ht in Ht2. injection Ht2 as <-.
  unfold refs2. destruct Tk as (_ & Tk). destruct x as [m|bb|bb tl m|o m].
  - destruct Tk as (_ & -> & _). reflexivity.
  - destruct Tk as (_ & -> & _). reflexivity.
  - destruct Tk as (_ & -> & _). reflexivity.
  - destruct Tk as (J & C). rewrite J.
    destruct (is_branch o) eqn:B.
    2:{ destruct o; try discriminate B. destruct C as [(R & _)|(_ & X & _)]; [|discriminate X].
        rewrite R. cbn. rewrite To. reflexivity. }
    assert (NC : o <> Call) by (intros ->; discriminate B).
    assert (Sub : forall m, defined (firstn i l) m -> defined l m).
    { intros k X. unfold defined in *. rewrite <- (firstn_skipn i l). apply in_or_app. auto. }
    assert (O : one_ref l (pos (datas (temps s)) i) (Jump o m) =
                if is_defined l m then [] else [Rela (pos (datas (temps s)) i) (jty o) m]).
    { destruct o; [reflexivity|reflexivity|congruence]. }
    rewrite O. clear O. cbn [andb].
    destruct (is_defined l m) eqn:Df.
    + apply is_defined_iff in Df. apply In_nth_error in Df. destruct Df as (j & Hj).
      destruct C as [(R & Q & NDf)|(R & _)]; rewrite R; [|reflexivity].
      destruct (NDf eq_refl) as (ND1 & _).
      rewrite (tab_defined _ _ _ _ Iv Hj).
      assert (Hlt : (i < j)%nat).
      { destruct (Nat.lt_trichotomy i j) as [Hl|[->|Hl]]; [exact Hl|congruence|].
        destruct ND1. apply nth_error_In with j. apply firstn_nth; assumption. }
      assert (0 < pos (datas (temps s)) j).
      { pose proof (pos_mono (datas (temps s)) (Datatypes.S i) j Hlt) as G.
        rewrite (pos_S _ _ _ (nth_datas _ _ _ Ht)), Q, jump_len in G.
        pose proof (pos_nonneg (datas (temps s)) i). assert (4 <= jlen o) by (destruct o; cbn; lia). lia. }
      destruct (Z.ltb_spec 0 (pos (datas (temps s)) j)); [reflexivity|lia].
    + assert (ND : ~ defined l m) by (rewrite <- is_defined_iff, Df; discriminate).
      destruct C as [(R & _)|(R & _ & v & Q & _ & V)].
      * rewrite R, (tab_undefined _ _ _ Iv ND). cbn [Z.ltb Z.compare]. rewrite To. reflexivity.
      * exfalso. destruct V as [(j' & J' & Ev)|(_ & ND' & HD)].
        -- apply ND. apply Sub. eapply nth_error_In. exact J'.
        -- destruct (not_taken _ _ _ (NT _ _ _ Hx NC)); [apply ND; auto|contradiction].
Qed.

Lemma refs2_jump_refs : forall l s,
  inv l s -> (forall i o n, nth_error l i = Some (Jump o n) -> o <> Call -> not_taken_before l i n) ->
  one_definition l ->
  forall b a ta tb, l = a ++ b -> temps s = ta ++ tb -> length a = length ta ->
  flat_map (refs2 (syms s)) tb = jump_refs l (pos (datas (temps s)) (length a)) b (datas tb).
Proof.
  intros l s Iv NT U. induction b as [|x b IH]; intros a ta tb La Lt Ll.
  - destruct Iv as [_ _ (L & _) _]. rewrite Lt, La, app_nil_r, app_length in L.
    destruct tb; [reflexivity|cbn in L; lia].
  - destruct tb as [|t tb].
    { destruct Iv as [_ _ (L & _) _]. rewrite Lt, La, !app_length in L. cbn in L. lia. }
    assert (Hx : nth_error l (length a) = Some x).
    { rewrite La, nth_error_app2, Nat.sub_diag by lia. reflexivity. }
    assert (Ht : nth_error (temps s) (length a) = Some t).
    { rewrite Lt, Ll, nth_error_app2, Nat.sub_diag by lia. reflexivity. }
    cbn [flat_map datas map jump_refs]. fold (datas tb). f_equal.
    + apply (one_ref_ok l s _ x t Iv U NT Hx Ht).
    + rewrite (IH (a ++ [x]) (ta ++ [t]) tb).
      * rewrite app_length. cbn [length]. rewrite Nat.add_1_r.
        rewrite (pos_S _ _ _ (nth_datas _ _ _ Ht)). reflexivity.
      * rewrite La, <- app_assoc. reflexivity.
      * rewrite Lt, <- app_assoc. reflexivity.
      * rewrite !app_length. cbn. lia.
Qed.

Lemma after2_lens : forall t0 ts ts', Forall2 (after2 t0) ts ts' ->
  map (@length Z) (datas ts') = map (@length Z) (datas ts).
Proof.
  intros t0 ts ts' F. induction F as [|t t' ts ts' (A & _) F IH]; [reflexivity|].
  cbn [datas map] in *. unfold datas in IH. rewrite A, IH. reflexivity.
Qed.

Lemma linker_entries : forall l chunks rels,
  assemble l = Ok (chunks, rels) -> one_definition l ->
  (forall i o n, nth_error l i = Some (Jump o n) -> o <> Call -> not_taken_before l i n) ->
  rels = data_refs 0 l chunks ++ jump_refs l 0 l chunks.
Proof.
  intros l chunks rels A U NT.
  destruct (assemble_inv l chunks rels U A) as (s & ts' & -> & Iv & F & Rs). rewrite Rs.
  pose proof (after2_lens _ _ _ F) as Ls.
  rewrite (data_refs_len _ _ _ _ Ls), (jump_refs_len _ _ _ _ _ Ls). f_equal.
  apply (refs2_jump_refs l s Iv NT U l [] [] (temps s)); reflexivity.
Qed.

Lemma others_kept : forall l chunks rels i x,
  assemble l = Ok (chunks, rels) -> one_definition l -> nth_error l i = Some x ->
  match x with
  | Label _ => nth_error chunks i = Some []
  | Plain b | Data b _ _ => nth_error chunks i = Some b
  | Jump _ _ => True
  end.
Proof.
  intros l chunks rels i x A U X.
  destruct (assemble_inv l chunks rels U A) as (s & ts' & -> & Iv & F & Rs).
  destruct (temps_nth _ _ _ _ Iv X) as (t & T & To & (_ & Tk)).
  destruct (Forall2_nth _ _ _ _ _ F _ _ T) as (t' & T' & (Ln & Af)).
  destruct x as [m|b|b tl m|o m]; try exact Logic.I; destruct Tk as (_ & R & D);
    rewrite R in Af; subst t'; rewrite (nth_datas _ _ _ T'), D; reflexivity.
Qed.

(** ** Linked jumps *)
Lemma jalr_target : forall addr d l v, addr mod 2 = 0 -> d mod 2 = 0 -> ux 64 (addr + d) = v ->
  ux 64 (sx 64 (addr + (d - l)) + l - (sx 64 (addr + (d - l)) + l) mod 2) = v.
Proof.
  intros addr d l v Ea Ed Dg. unfold ux, sx in *.
  change (2 ^ 64) with 18446744073709551616 in *. change (2 ^ (64 - 1)) with 9223372036854775808.
  set (q := (addr + (d - l) + 9223372036854775808) mod 18446744073709551616 - 9223372036854775808 + l).
  assert (M : q mod 2 = 0) by (unfold q; Z.div_mod_to_equations; lia).
  rewrite M. unfold q. clear M q. Z.div_mod_to_equations; lia.
Qed.

Lemma linked_ok : forall o tls hi addr v, addr64 addr -> addr64 v -> addr mod 2 = 0 -> v mod 2 = 0 ->
  (match o with Br _ a b => reg a /\ reg b | _ => True end) ->
  reaches o (dist addr v) ->
  exists c', relocate (jty o) tls hi (jump_bytes o 0) addr v = Ok (c', hi) /\ linked o c' addr v.
Proof.
  intros o tls hi addr v Ha Hv Ea Evn G R.
  assert (Ed : dist addr v mod 2 = 0).
  { unfold dist, sx. change (2 ^ 64) with 18446744073709551616.
    change (2 ^ (64 - 1)) with 9223372036854775808.
    Ltac Zify.zify_post_hook ::= Z.div_mod_to_equations. lia. }
  Ltac Zify.zify_post_hook ::= idtac.
  pose proof (dist_goes addr v Hv) as Dg.
  destruct o as [|o a b|]; cbn [jty jump_bytes linked reaches] in *.
  - assert (Fe : fetch (w_jal 0 0) = Some (IJal 0 0, 4, [])).
    { rewrite <- (app_nil_r (w_jal 0 0)). apply dec_jal; [unfold reg; lia|lia|reflexivity]. }
    destruct (rel_jal tls hi _ addr v _ _ _ Fe (conj R Ed)) as (b' & E & F).
    exists b'. split; [exact E|]. eauto.
  - destruct G as (Ga & Gb).
    assert (Fe : fetch (asm_bxx o a b 0) = Some (IBr o a b 0, 4, [])).
    { rewrite <- (app_nil_r (asm_bxx o a b 0)). apply dec_bxx; [assumption|assumption|lia|reflexivity]. }
    destruct (rel_branch tls hi _ addr v _ _ _ _ _ Fe (conj R Ed)) as (b' & E & F).
    exists b'. split; [exact E|]. eauto.
  - assert (Fe : exists x, fetch (asm_call_d 0) = Some (IAuipc 1 x, 4, w_jalr 1 1 0))
      by (eexists; reflexivity).
    destruct Fe as (x & Fe).
    assert (Fj : exists y, fetch (w_jalr 1 1 0) = Some (IJalr 1 1 y, 4, [])) by (eexists; reflexivity).
    destruct Fj as (y & Fj).
    destruct (rel_call tls hi _ addr v 1 x _ (IJalr 1 1 y) (sx 12 (dist addr v)) []
      (IJalr 1 1 (sx 12 (dist addr v))) Fe Fj eq_refl eq_refl R) as (b' & c' & E & F1 & F2).
    exists b'. split; [exact E|]. intros En s Hw Hp.
    set (lo := sx 12 (dist addr v)) in *.
    assert (Lb : exists k, length b' = Datatypes.S (Datatypes.S k)).
    { destruct (fetch4 _ _ _ F1) as (L4 & _). destruct b' as [|z0 [|z1 b']]; cbn in L4; try lia. cbn. eauto. }
    destruct Lb as (k & Lb).
    assert (Nb : b' <> []) by (intros ->; discriminate Lb).
    assert (Nc : c' <> []) by (intros ->; discriminate F2).
    unfold run. rewrite Lb. destruct b' as [|z0 bb]; [congruence|]. cbn [run_].
    rewrite F1. destruct c' as [|y0 cc]; [congruence|].
    set (t := exec En (IAuipc 1 (dist addr v - lo)) 4 s).
    assert (Pt : pc t = ux 64 (pc s + 4)) by reflexivity.
    rewrite Pt, Z.eqb_refl. cbn [run_]. rewrite F2.
    eexists. split; [reflexivity|].
    assert (G1 : getx t 1 = sx 64 (addr + (dist addr v - lo))) by (transitivity (sx 64 (pc s + (dist addr v - lo))); [reflexivity|rewrite Hp; reflexivity]).
    cbn [exec]. rewrite G1. split; [|split; [|split; [|split]]].
    + cbn [pc setpc]. apply (jalr_target addr (dist addr v) lo v Ea Ed Dg).
    + change (getx (setpc (setx t 1 (sx 64 (pc t + 4))) _) 1) with (sx 64 (pc t + 4)).
      rewrite Pt, Hp. apply sx_cong; [lia|]. unfold ux. change (2 ^ 64) with 18446744073709551616. lia.
    + intros r Nr. unfold getx. cbn [xr setpc setx]. destruct (Z.eqb_spec r 1); [contradiction|].
      unfold t. cbn [exec setpc setx xr]. destruct (Z.eqb_spec r 1); [contradiction|reflexivity].
    + reflexivity.
    + reflexivity.
Qed.
Ltac Zify.zify_post_hook ::= idtac.

Lemma external_jump : forall l chunks rels i o n,
  assemble l = Ok (chunks, rels) -> one_definition l -> even_items l ->
  nth_error l i = Some (Jump o n) -> (o = Call \/ (~ defined l n /\ not_taken_before l i n)) ->
  exists c r, nth_error chunks i = Some c /\ In r rels /\ r_sym r = n /\ r_off r = pos chunks i /\
    (forall base sym tls hi, addr64 (base + pos chunks i) -> addr64 sym ->
       base mod 2 = 0 -> sym mod 2 = 0 ->
       reaches o (dist (base + pos chunks i) sym) ->
       exists c', relocate (r_ty r) tls hi c (base + r_off r) sym = Ok (c', hi) /\
         linked o c' (base + pos chunks i) sym).
Proof.
  intros l chunks rels i o n A U Ev Hi NT.
  destruct (assemble_inv l chunks rels U A) as (s & ts' & -> & Iv & F & Rs).
  pose proof (firstn_length_same _ _ _ F) as PS.
  destruct (temps_nth _ _ _ _ Iv Hi) as (t & T & To & (_ & J & C)).
  destruct (Forall2_nth _ _ _ _ _ F _ _ T) as (t' & T' & (Ln & Af)).
  assert (Sub : forall m, defined (firstn i l) m -> defined l m).
  { intros m X. unfold defined in *. rewrite <- (firstn_skipn i l). apply in_or_app. auto. }
  assert (G : match o with Br _ a b => reg a /\ reg b | _ => True end).
  { pose proof (Ev _ (nth_error_In _ _ Hi)) as K. cbn in K. destruct o; auto. }
  assert (X : t_rel t = Some n /\ t_data t = jump_bytes o 0 /\ is_branch o && (0 <? val (syms s) n) = false).
  { destruct C as [(R & Q & _)|(R & B & v & Q & _ & V)].
    - split; [exact R|]. split; [exact Q|]. destruct NT as [->|(ND & _)]; [reflexivity|].
      rewrite (tab_undefined _ _ _ Iv ND). apply andb_false_r.
    - exfalso. destruct NT as [->|(ND & NT)]; [discriminate B|].
      destruct V as [(j' & J' & Evv)|(_ & ND' & HD)].
      + apply ND. apply Sub. eapply nth_error_In. exact J'.
      + destruct (not_taken _ _ _ NT); [apply ND; auto|contradiction]. }
  destruct X as (R & Q & P). rewrite R, J, P in Af. subst t'.
  exists (t_data t), (Rela (t_off t) (jty o) n).
  split; [apply nth_datas; exact T'|]. split.
  { rewrite Rs. apply in_or_app. right. apply in_flat_map. exists t. split; [eapply nth_error_In; exact T|].
    unfold refs2. rewrite R, J, P. left. reflexivity. }
  rewrite PS. split; [reflexivity|]. split; [exact To|]. cbn [r_off r_ty]. intros base sym tls hi Ha Hs Eb Es Rc.
  rewrite To, Q. apply linked_ok; try assumption.
  pose proof (pos_even l s i Iv Ev) as E1. rewrite Z.add_mod, Eb, E1 by lia. reflexivity.
Qed.

(** ** For the examples *)
Fixpoint labels (l : list item) : list nat :=
  match l with Label n :: l => n :: labels l | _ :: l => labels l | [] => [] end.
Lemma in_labels : forall l j n, nth_error l j = Some (Label n) -> In n (labels l).
Proof.
  induction l as [|x l IH]; intros [|j] n H; try discriminate H; cbn in H.
  - injection H as ->. left. reflexivity.
  - specialize (IH _ _ H). destruct x; cbn; auto.
Qed.
Lemma one_definition_nodup : forall l, NoDup (labels l) -> one_definition l.
Proof.
  unfold one_definition. induction l as [|x l IH]; intros N i j n A B; [destruct i; discriminate A|].
  assert (N' : NoDup (labels l)) by (destruct x; cbn in N; auto; apply NoDup_cons_iff in N; tauto).
  assert (X : x = Label n -> ~ In n (labels l)).
  { intros ->. cbn in N. apply NoDup_cons_iff in N. tauto. }
  destruct i as [|i], j as [|j]; cbn in A, B; [reflexivity| | |f_equal; eauto].
  - injection A as ->. destruct (X eq_refl). eapply in_labels; eassumption.
  - injection B as ->. destruct (X eq_refl). eapply in_labels; eassumption.
Qed.
