(** Peephole passes: common lemmas and amd64. *)
From Verif Require Import Base Peep_model Peep_spec.
Local Open Scope nat_scope.

(** ** Agreement of states *)
Section agree.
  Context {M : Type} (W : world M).
  Implicit Types s t : state M.

  Lemma opt_val_agree : forall s t o, (forall x, In x (opt_list o) -> vars s x = vars t x) -> opt_val s o = opt_val t o.
  Proof. intros s t [x|] H; [apply H; left; reflexivity|reflexivity]. Qed.
  Lemma address_agree : forall s t b i sc off, (forall x, In x (opt_list b ++ opt_list i) -> vars s x = vars t x) ->
    address s b i sc off = address t b i sc off.
  Proof.
    intros s t b i sc off H. unfold address. rewrite (opt_val_agree s t b), (opt_val_agree s t i); [reflexivity| |]; intros x Hx; apply H, in_app_iff; auto.
  Qed.
  Lemma value_agree : forall s t o, mach s = mach t -> (forall x, In x (vars_of o) -> vars s x = vars t x) -> value W s o = value W t o.
  Proof.
    intros s t [[x|x v|r|z|v|b i sc off|k|k]|] Hm H; cbn [value]; try reflexivity; try (rewrite Hm; reflexivity).
    - apply H. left. reflexivity.
    - rewrite Hm, (address_agree s t b i sc off H). reflexivity.
  Qed.
  Lemma result_agree : forall s t o, mach s = mach t -> (forall x, In x (uses o) -> vars s x = vars t x) -> result W s o = result W t o.
  Proof.
    intros s t o Hm H. unfold uses in H.
    assert (H1 : value W s (o_first o) = value W t (o_first o)) by (apply value_agree; [exact Hm|intros x Hx; apply H; rewrite !in_app_iff; auto]).
    assert (H2 : value W s (o_second o) = value W t (o_second o)) by (apply value_agree; [exact Hm|intros x Hx; apply H; rewrite !in_app_iff; auto]).
    assert (H3 : value W s (o_addend o) = value W t (o_addend o)) by (apply value_agree; [exact Hm|intros x Hx; apply H; rewrite !in_app_iff; auto]).
    assert (H4 : map (vars s) (o_args o) = map (vars t) (o_args o)) by (apply map_ext_in; intros x Hx; apply H; rewrite !in_app_iff; auto 6).
    unfold result. rewrite H1, H2, H3, H4, Hm. destruct (o_code o); try reflexivity.
    f_equal. destruct (o_first o) as [[x|x v|r|z|v|b i sc off|k|k]|] eqn:E; try reflexivity.
    apply address_agree. intros x Hx. apply H. rewrite !in_app_iff. right. left. exact Hx.
  Qed.
  Lemma store_agree : forall s t o v m, (forall x, In x (out_uses o) -> vars s x = vars t x) ->
    mach (store W s o v m) = mach (store W t o v m) /\
    forall x, (vars s x = vars t x \/ match o with Some q => var_of q = Some x | None => False end) ->
      vars (store W s o v m) x = vars (store W t o v m) x.
  Proof.
    intros s t [[x|x c|r|z|c|b i sc off|k|k]|] v m H; cbn [store mach vars]; (split; [try reflexivity|]); try (intros y [E|E]; [exact E|discriminate E||contradiction]).
    - intros y. destruct (Nat.eqb_spec y x); [reflexivity|]. intros [E|E]; [exact E|cbn in E; congruence].
    - intros y. destruct (Nat.eqb_spec y x); [reflexivity|]. intros [E|E]; [exact E|cbn in E; congruence].
    - rewrite (address_agree s t b i sc off H). reflexivity.
  Qed.
  Lemma exec_agree : forall s t o, mach s = mach t -> (forall x, In x (uses o) -> vars s x = vars t x) ->
    mach (exec W s o) = mach (exec W t o) /\ forall x, vars s x = vars t x -> vars (exec W s o) x = vars (exec W t o) x.
  Proof.
    intros s t o Hm H. unfold exec. rewrite (result_agree s t o Hm H). destruct (result W t o) as [v m].
    destruct (store_agree s t (o_output o) v m) as (A & B); [intros x Hx; apply H; unfold uses; apply in_app_iff; auto|]. split; [exact A|]. intros x E. apply B. auto.
  Qed.

  (** Everything the rest of the block, or what comes after it, can still see. *)
  Definition rel (live : list nat) (R : list op) s t : Prop :=
    mach s = mach t /\ forall x, In x live \/ In x (flat_map uses R) -> vars s x = vars t x.
  Lemma rel_step : forall live o R s t, rel live (o :: R) s t -> rel live R (exec W s o) (exec W t o).
  Proof.
    intros live o R s t (Hm & H). destruct (exec_agree s t o Hm) as (A & B).
    - intros x Hx. apply H. right. cbn [flat_map]. apply in_app_iff. auto.
    - split; [exact A|]. intros x Hx. apply B, H. cbn [flat_map]. rewrite in_app_iff. tauto.
  Qed.
  Lemma rel_run : forall live R s t, rel live R s t -> rel live [] (run W R s) (run W R t).
  Proof. intros live R. induction R as [|o R IH]; intros s t H; [exact H|]. cbn. apply IH. apply rel_step. exact H. Qed.
  Lemma rel_refl : forall live R s, rel live R s s.
  Proof. intros. split; reflexivity. Qed.
  Lemma rel_nil_trans : forall live s t u, rel live [] s t -> rel live [] t u -> rel live [] s u.
  Proof. intros live s t u (A & B) (C & D). split; [congruence|]. intros x Hx. rewrite B, D by exact Hx. reflexivity. Qed.
  Lemma run_app : forall a b s, run W (a ++ b) s = run W b (run W a s).
  Proof. intros a b s. unfold run. apply fold_left_app. Qed.
End agree.

(** ** Words *)
Lemma word_word : forall z, word (word z) = word z.
Proof. intros z. unfold word. apply Z.mod_mod. lia. Qed.
Lemma word_add : forall a b, word (word a + word b) = word (a + b).
Proof. intros a b. unfold word. symmetry. apply Z.add_mod. lia. Qed.
Lemma word_addl : forall a b, word (word a + b) = word (a + b).
Proof. intros a b. unfold word. rewrite Z.add_mod_idemp_l by lia. reflexivity. Qed.
Lemma word_addr : forall a b, word (a + word b) = word (a + b).
Proof. intros a b. unfold word. rewrite Z.add_mod_idemp_r by lia. reflexivity. Qed.
Lemma word_sub : forall a b, word (word a - word b) = word (a - b).
Proof. intros a b. unfold word. rewrite Zminus_mod_idemp_l, Zminus_mod_idemp_r. reflexivity. Qed.
Lemma word_subr : forall a b, word (a - word b) = word (a - b).
Proof. intros a b. unfold word. apply Zminus_mod_idemp_r. Qed.
Lemma word_mulr : forall a b, word (a * word b) = word (a * b).
Proof. intros a b. unfold word. rewrite Z.mul_mod_idemp_r by lia. reflexivity. Qed.
Lemma word_mull : forall a b, word (word a * b) = word (a * b).
Proof. intros a b. unfold word. rewrite Z.mul_mod_idemp_l by lia. reflexivity. Qed.

(** ** Operands *)
Lemma equal_var : forall p q m, operand_equal p (Some q) = true -> var_of q = Some m -> exists r, p = Some r /\ var_of r = Some m.
Proof.
  intros [p|] q m H E; [|discriminate]. exists p. split; [reflexivity|].
  destruct p, q; cbn in *; try discriminate; apply Nat.eqb_eq in H; congruence.
Qed.
Lemma equal_var_l : forall p q m, operand_equal (Some p) q = true -> var_of p = Some m -> exists r, q = Some r /\ var_of r = Some m.
Proof.
  intros p [q|] m H E; [|discriminate]. exists q. split; [reflexivity|].
  destruct p, q; cbn in *; try discriminate; apply Nat.eqb_eq in H; congruence.
Qed.
Lemma typed_var : forall fl f p m, operand_typed fl f (Some p) = true -> var_of p = Some m -> fl m = f.
Proof.
  intros fl f p m H E. destruct p; cbn in *; try discriminate; injection E as <-.
  - apply Bool.eqb_prop. exact H.
  - apply andb_true_iff in H. apply Bool.eqb_prop. tauto.
Qed.
Lemma typed_int : forall fl p m, operand_typed fl false (Some p) = true -> var_of p = Some m -> p = OVar m.
Proof. intros fl p m H E. destruct p; cbn in *; try discriminate; [congruence|]. rewrite andb_false_r in H. discriminate. Qed.
Lemma is_var_of : forall o, is_var o = true -> exists p m, o = Some p /\ var_of p = Some m.
Proof. intros [p|] H; [|discriminate]. destruct p; try discriminate; eexists; eexists; split; reflexivity. Qed.
Lemma var_uses : forall p m, var_of p = Some m -> vars_of (Some p) = [m].
Proof. intros p m H. destruct p; cbn in *; congruence. Qed.
Lemma store_var : forall {M} (W : world M) s p m v k, var_of p = Some m ->
  store W s (Some p) v k = mk_state (fun y => if Nat.eqb y m then v else vars s y) k.
Proof. intros M W s p m v k H. destruct p; cbn in *; try discriminate; injection H as ->; reflexivity. Qed.
Lemma is_code_eq : forall a b, is_code a b = true -> a = b.
Proof. intros a b H. destruct a, b; cbn in H; congruence. Qed.

(** How many instructions use a variable. *)
Definition cnt (v : nat) (ops : list op) : nat := length (filter (fun o => existsb (Nat.eqb v) (uses o)) ops).
Lemma existsb_in : forall v l, existsb (Nat.eqb v) l = true <-> In v l.
Proof. intros v l. rewrite existsb_exists. split; [intros (x & H & E); apply Nat.eqb_eq in E; congruence|intros H; exists v; split; [exact H|apply Nat.eqb_refl]]. Qed.
Lemma cnt_cons : forall v o ops, cnt v (o :: ops) = (if existsb (Nat.eqb v) (uses o) then 1 else 0) + cnt v ops.
Proof. intros v o ops. unfold cnt. cbn [filter]. destruct (existsb (Nat.eqb v) (uses o)); reflexivity. Qed.
Lemma cnt_zero : forall v ops, cnt v ops = 0 -> ~ In v (flat_map uses ops).
Proof.
  intros v ops. induction ops as [|o ops IH]; intros H; [intros []|]. rewrite cnt_cons in H. cbn [flat_map]. rewrite in_app_iff.
  destruct (existsb (Nat.eqb v) (uses o)) eqn:E; [lia|]. intros [X|X]; [apply existsb_in in X; congruence|apply IH; [lia|exact X]].
Qed.
Lemma cnt_occ : forall v ops, cnt v ops <= occ v ops.
Proof.
  intros v ops. unfold occ. induction ops as [|o ops IH]; [cbn; lia|]. rewrite cnt_cons. cbn [flat_map]. rewrite count_occ_app.
  destruct (existsb (Nat.eqb v) (uses o)) eqn:E; [|lia]. apply existsb_in in E. apply (count_occ_In Nat.eq_dec) in E. lia.
Qed.

Lemma is_add_sub_cases : forall o, is_add_sub o = true -> o_code o = Add \/ o_code o = Sub.
Proof. intros o H. unfold is_add_sub in H. destruct (o_code o); cbn in H; auto; discriminate. Qed.

(** ** LEA *)
Section lea.
  Context {M : Type} (W : world M) (fl : nat -> bool) (rm : nat -> bool) (live : list nat).
  Implicit Types s t : state M.
  Hypothesis Hlive : forall x, rm x = true -> ~ In x live.

  Lemma lea_of_inv : forall a xa scale tmp p l, var_of a = Some xa -> lea_of rm a scale tmp p = Some l ->
    exists d q y z ty, o_second p = Some (OImm d) /\ o_output p = Some q /\ var_of q = Some y /\ tmp = Some ty /\ var_of ty = Some z /\
      (z = y \/ rm z = true) /\
      let disp := if is_code (o_code p) Sub then (- d)%Z else d in
      l = mk_op Lea (Some (if Z.eqb scale 2 then OInd (Some xa) (Some xa) 1 disp else OInd None (Some xa) scale disp)) None None (o_output p) [] (o_float p).
  Proof.
    intros a xa scale tmp p l Ea H. unfold lea_of in H. destruct (o_second p) as [[ | | |d| | | | ]|] eqn:E2; try discriminate.
    destruct (is_var (o_output p)) eqn:Eo; [|discriminate]. destruct (is_var_of _ Eo) as (q & y & Eq & Ey).
    match type of H with (if ?b then _ else _) = _ => destruct b eqn:Er end; [|discriminate].
    match type of H with (if ?b then _ else _) = _ => destruct b end; [discriminate|]. rewrite Ea in H. injection H as <-.
    apply orb_true_iff in Er. destruct Er as [Er|Er].
    - rewrite Eq in Er. destruct (equal_var _ _ _ Er Ey) as (ty & -> & Ez). exists d, q, y, y, ty. repeat (split; [assumption||reflexivity|]). split; [left; reflexivity|]. reflexivity.
    - destruct tmp as [ty|]; [|discriminate]. destruct (var_of ty) as [z|] eqn:Ez; [|discriminate].
      exists d, q, y, z, ty. repeat (split; [assumption||reflexivity|]). split; [right; exact Er|]. reflexivity.
  Qed.

  (** The address the LEA computes. *)
  Lemma lea_value : forall s xa scale disp, lea_scale scale = true ->
    match (if Z.eqb scale 2 then OInd (Some xa) (Some xa) 1 disp else OInd None (Some xa) scale disp) with
    | OInd x i sc off => address s x i sc off | _ => 0%Z end = word (vars s xa * scale + disp).
  Proof.
    intros s xa scale disp H. destruct (Z.eqb_spec scale 2) as [->|N]; unfold address, opt_val; f_equal; lia.
  Qed.
  Lemma scale_word : forall scale, lea_scale scale = true -> word scale = scale.
  Proof. intros scale H. unfold lea_scale in H. unfold word. apply Z.mod_small. lia. Qed.

  (** What the ADD or SUB computes. *)
  Lemma add_sub_value : forall t p d v, is_add_sub p = true -> o_float p = false -> o_second p = Some (OImm d) -> value W t (o_first p) = word v ->
    result W t p = (word (v + (if is_code (o_code p) Sub then (- d)%Z else d)), mach t).
  Proof.
    intros t p d v Ha Hf E2 Hv. unfold result. rewrite Hf, E2, Hv. cbn [value]. destruct (is_add_sub_cases _ Ha) as [-> | ->]; cbn [is_code].
    - rewrite word_add. reflexivity.
    - rewrite word_sub. f_equal.
  Qed.

  Definition K (ops : list op) : Prop := forall v, rm v = true -> cnt v ops <= 1.

  Lemma first_uses : forall o p m, o_first o = Some p -> var_of p = Some m -> existsb (Nat.eqb m) (uses o) = true.
  Proof. intros o p m E H. apply existsb_in. unfold uses. rewrite E, (var_uses p m H), !in_app_iff. right. left. left. reflexivity. Qed.

  Lemma lea_fusion_ok : forall ops l rest, lea_fusion rm ops = Some (l, rest) -> forallb (typed fl) ops = true -> K ops ->
    exists O, ops = O ++ rest /\ O <> [] /\ typed fl l = true /\ (forall v, existsb (Nat.eqb v) (uses l) = true -> 1 <= cnt v O) /\
      forall s t, rel live ops s t -> rel live rest (exec W s l) (run W O t).
  Proof.
    intros ops l rest H Hty HK. destruct ops as [|mul [|next ops]]; [discriminate|discriminate|].
    cbn [lea_fusion] in H. destruct (o_code mul) eqn:Ec; try discriminate. destruct (o_second mul) as [[ | | |scale| | | | ]|] eqn:E2; try discriminate.
    destruct (o_first mul) as [a|] eqn:E1; [|discriminate].
    destruct (is_var (Some a) && is_var (o_output mul) && lea_scale scale && negb (o_float mul)) eqn:Eg; [|discriminate].
    apply andb_true_iff in Eg. destruct Eg as (Eg & Ef). apply andb_true_iff in Eg. destruct Eg as (Eg & Es). apply andb_true_iff in Eg. destruct Eg as (Ea & Eo).
    apply negb_true_iff in Ef.
    destruct (is_var_of _ Ea) as (a' & xa & Ea' & Exa). injection Ea' as <-.
    destruct (is_var_of _ Eo) as (om & m & Eom & Em).
    cbn [forallb] in Hty. apply andb_true_iff in Hty. destruct Hty as (T1 & Hty). apply andb_true_iff in Hty. destruct Hty as (T2 & Hty).
    assert (T1' : operand_typed fl false (Some a) = true /\ fl m = false).
    { unfold typed in T1. rewrite Ec, E1, Ef, Eom in T1. apply andb_true_iff in T1. destruct T1 as (T1 & T3). apply andb_true_iff in T1. split; [tauto|].
      destruct om; cbn in Em; try discriminate; injection Em as ->; apply Bool.eqb_prop; exact T3. }
    destruct T1' as (Ta & Tm). pose proof (typed_int _ _ _ Ta Exa) as ->.
    assert (XM : forall t, exec W t mul = mk_state (fun y => if Nat.eqb y m then word (vars t xa * scale) else vars t y) (mach t)).
    { intros t. unfold exec, result. rewrite Ec, E1, E2, Ef, Eom. cbn [value]. rewrite word_mulr. apply store_var. exact Em. }
    assert (UA : existsb (Nat.eqb xa) (uses mul) = true) by (apply (first_uses mul (OVar xa) xa); [exact E1|reflexivity]).
    assert (TL : forall p, typed fl (mk_op Lea (Some (if Z.eqb scale 2 then OInd (Some xa) (Some xa) 1 p else OInd None (Some xa) scale p)) None None (o_output next) [] (o_float next)) = true) by reflexivity.
    assert (UL : forall d q f v, existsb (Nat.eqb v) (uses (mk_op Lea (Some (if Z.eqb scale 2 then OInd (Some xa) (Some xa) 1 d else OInd None (Some xa) scale d)) None None (Some q) [] f)) = true ->
                 is_var (Some q) = true -> v = xa).
    { intros d q f v Hv Hq. apply existsb_in in Hv. unfold uses in Hv. cbn [o_first o_second o_addend o_args o_output] in Hv.
      assert (Oq : out_uses (Some q) = []) by (destruct q; try discriminate; reflexivity). rewrite Oq in Hv. cbn [app] in Hv.
      destruct (Z.eqb scale 2); cbn in Hv; intuition congruence. }
    destruct (is_add_sub next) eqn:An.
    - (* MUL, ADD/SUB *)
      destruct (operand_equal (o_first next) (o_output mul)) eqn:Eq1; [|discriminate].
      destruct (lea_of rm (OVar xa) scale (o_output mul) next) as [l'|] eqn:El; [|discriminate]. injection H as <- <-.
      destruct (lea_of_inv _ xa _ _ _ _ Exa El) as (d & q & y & z & ty & S2 & Oq & Ey & Ety & Ez & Hz & ->).
      rewrite Eom in Ety. injection Ety as <-. rewrite Em in Ez. injection Ez as <-.
      rewrite Eom in Eq1. destruct (equal_var _ _ _ Eq1 Em) as (r & Fr & Er).
      assert (Hfn : o_float next = false).
      { unfold typed in T2. destruct (is_add_sub_cases _ An) as [C|C]; rewrite C, Fr in T2; apply andb_true_iff in T2; destruct T2 as (T2 & _);
          pose proof (typed_var _ _ _ _ T2 Er); congruence. }
      assert (Or : r = OVar m).
      { unfold typed in T2. destruct (is_add_sub_cases _ An) as [C|C]; rewrite C, Fr, Hfn in T2; apply andb_true_iff in T2; destruct T2 as (T2 & _); exact (typed_int _ _ _ T2 Er). }
      subst r. exists [mul; next]. split; [reflexivity|]. split; [discriminate|]. split; [apply TL|]. split.
      { intros v Hv. rewrite Oq in Hv. apply UL in Hv; [|destruct q; cbn in Ey; try discriminate; reflexivity]. subst v. rewrite cnt_cons, UA. clear; lia. }
      intros s t (Hm & Hr). cbn [run fold_left]. rewrite XM.
      assert (XN : exec W (mk_state (fun y => if Nat.eqb y m then word (vars t xa * scale) else vars t y) (mach t)) next =
                   store W (mk_state (fun y => if Nat.eqb y m then word (vars t xa * scale) else vars t y) (mach t)) (Some q)
                     (word (vars t xa * scale + (if is_code (o_code next) Sub then (- d)%Z else d))) (mach t)).
      { unfold exec. rewrite (add_sub_value _ next d (vars t xa * scale)%Z An Hfn S2), Oq; [reflexivity|]. rewrite Fr. cbn [value vars]. rewrite Nat.eqb_refl. reflexivity. }
      rewrite XN. rewrite (store_var W _ q y _ _ Ey). cbn [vars mach]. unfold exec, result. cbn [o_code o_first o_output].
      pose proof (lea_value s xa scale (if is_code (o_code next) Sub then (- d)%Z else d) Es) as LV.
      assert (Vx : vars s xa = vars t xa).
      { apply Hr. right. cbn [flat_map]. apply in_app_iff. left. apply existsb_in. exact UA. }
      rewrite Oq, (store_var W s q y _ _ Ey). split; [exact Hm|]. cbn [vars]. intros x Hx.
      destruct (Nat.eqb_spec x y) as [->|Ny].
      { rewrite <- Vx, <- LV. destruct (Z.eqb scale 2); reflexivity. }
      destruct (Nat.eqb_spec x m) as [->|Nm].
      { exfalso. destruct Hz as [->|Hz]; [congruence|]. specialize (HK m Hz). rewrite !cnt_cons, (first_uses next (OVar m) m Fr eq_refl) in HK.
        destruct Hx as [Hx|Hx]; [exact (Hlive m Hz Hx)|]. apply (cnt_zero m ops); [clear - HK; lia|exact Hx]. }
      apply Hr. destruct Hx as [Hx|Hx]; [left; exact Hx|right]. cbn [flat_map]. rewrite !in_app_iff. auto.
    - (* MUL, MOVE, ADD/SUB *)
      destruct (is_code (o_code next) Move) eqn:Cn; [|discriminate]. apply is_code_eq in Cn.
      destruct (operand_equal (o_first next) (o_output mul)) eqn:Eq1; [|discriminate].
      rewrite Eom, Em in H. destruct (rm m) eqn:Rm; [|discriminate]. destruct ops as [|third ops]; [discriminate|].
      destruct (is_add_sub third) eqn:A3; [|discriminate]. cbn [andb] in H. destruct (operand_equal (o_first third) (o_output next)) eqn:Eq2; [|discriminate].
      destruct (lea_of rm (OVar xa) scale (o_output next) third) as [l'|] eqn:El; [|discriminate]. injection H as <- <-.
      destruct (lea_of_inv _ xa _ _ _ _ Exa El) as (d & q & y & z & ty & S2 & Oq & Ey & Ety & Ez & Hz & ->).
      rewrite Eom in Eq1. destruct (equal_var _ _ _ Eq1 Em) as (r & Fr & Er). rewrite Ety in Eq2. destruct (equal_var _ _ _ Eq2 Ez) as (r3 & Fr3 & Er3).
      cbn [forallb] in Hty. apply andb_true_iff in Hty. destruct Hty as (T3 & Hty).
      assert (Tz : operand_typed fl (fl z) (Some r) = true).
      { unfold typed in T2. rewrite Cn, Ety, Fr in T2. destruct ty; cbn in Ez; try discriminate; injection Ez as ->; exact T2. }
      assert (Fz : fl z = false) by (pose proof (typed_var _ _ _ _ Tz Er); congruence). rewrite Fz in Tz. pose proof (typed_int _ _ _ Tz Er) as ->.
      assert (Hfn : o_float third = false).
      { unfold typed in T3. destruct (is_add_sub_cases _ A3) as [C|C]; rewrite C, Fr3 in T3; apply andb_true_iff in T3; destruct T3 as (T3 & _);
          pose proof (typed_var _ _ _ _ T3 Er3); congruence. }
      assert (Or : r3 = OVar z).
      { unfold typed in T3. destruct (is_add_sub_cases _ A3) as [C|C]; rewrite C, Fr3, Hfn in T3; apply andb_true_iff in T3; destruct T3 as (T3 & _); exact (typed_int _ _ _ T3 Er3). }
      subst r3. exists [mul; next; third]. split; [reflexivity|]. split; [discriminate|]. split; [reflexivity|]. split.
      { intros v Hv. rewrite Oq in Hv. apply UL in Hv; [|destruct q; cbn in Ey; try discriminate; reflexivity]. subst v. rewrite cnt_cons, UA. clear; lia. }
      intros s t (Hm & Hr). cbn [run fold_left]. rewrite XM.
      assert (XN : exec W (mk_state (fun y => if Nat.eqb y m then word (vars t xa * scale) else vars t y) (mach t)) next =
                   mk_state (fun w => if Nat.eqb w z then word (vars t xa * scale) else if Nat.eqb w m then word (vars t xa * scale) else vars t w) (mach t)).
      { unfold exec, result. rewrite Cn, Fr, Ety. cbn [value vars mach]. rewrite Nat.eqb_refl. rewrite (store_var W _ ty z _ _ Ez). reflexivity. }
      rewrite XN. clear XN.
      set (t2 := mk_state _ (mach t)).
      assert (XT : exec W t2 third = store W t2 (Some q) (word (vars t xa * scale + (if is_code (o_code third) Sub then (- d)%Z else d))) (mach t)).
      { unfold exec. rewrite (add_sub_value _ third d (vars t xa * scale)%Z A3 Hfn S2), Oq; [reflexivity|]. rewrite Fr3. cbn [value vars t2]. rewrite Nat.eqb_refl. reflexivity. }
      rewrite XT. rewrite (store_var W _ q y _ _ Ey). cbn [vars mach]. unfold exec, result. cbn [o_code o_first o_output].
      pose proof (lea_value s xa scale (if is_code (o_code third) Sub then (- d)%Z else d) Es) as LV.
      assert (Vx : vars s xa = vars t xa).
      { apply Hr. right. cbn [flat_map]. apply in_app_iff. left. apply existsb_in. exact UA. }
      rewrite Oq, (store_var W s q y _ _ Ey). split; [exact Hm|]. cbn [vars t2]. intros x Hx.
      destruct (Nat.eqb_spec x y) as [->|Ny].
      { rewrite <- Vx, <- LV. destruct (Z.eqb scale 2); reflexivity. }
      destruct (Nat.eqb_spec x z) as [->|Nz].
      { exfalso. destruct Hz as [->|Hz]; [congruence|]. specialize (HK z Hz). rewrite !cnt_cons, (first_uses third (OVar z) z Fr3 eq_refl) in HK.
        destruct Hx as [Hx|Hx]; [exact (Hlive z Hz Hx)|]. apply (cnt_zero z ops); [clear - HK; lia|exact Hx]. }
      destruct (Nat.eqb_spec x m) as [->|Nm].
      { exfalso. specialize (HK m Rm). rewrite !cnt_cons, (first_uses next (OVar m) m Fr eq_refl) in HK.
        destruct Hx as [Hx|Hx]; [exact (Hlive m Rm Hx)|]. apply (cnt_zero m ops); [clear - HK; lia|exact Hx]. }
      apply Hr. destruct Hx as [Hx|Hx]; [left; exact Hx|right]. cbn [flat_map]. rewrite !in_app_iff. auto.
  Qed.

  Lemma cnt_app : forall v a b, cnt v (a ++ b) = cnt v a + cnt v b.
  Proof. intros v a b. unfold cnt. rewrite filter_app, app_length. reflexivity. Qed.

  Lemma amd64_round_ok : forall fuel ops r c, amd64_round rm fuel ops = (r, c) -> forallb (typed fl) ops = true -> K ops ->
    forallb (typed fl) r = true /\ (forall v, cnt v r <= cnt v ops) /\
    forall s t, rel live ops s t -> rel live [] (run W r s) (run W ops t).
  Proof.
    induction fuel as [|fuel IH]; intros ops r c H Hty HK; cbn [amd64_round] in H.
    - injection H as <- <-. split; [exact Hty|]. split; [lia|]. intros s t. apply rel_run.
    - destruct (lea_fusion rm ops) as [[l rest]|] eqn:El.
      + destruct (lea_fusion_ok _ _ _ El Hty HK) as (O & -> & _ & Tl & Ul & Hl).
        destruct (amd64_round rm fuel rest) as [r' c'] eqn:Er. injection H as <- <-.
        rewrite forallb_app in Hty. apply andb_true_iff in Hty. destruct Hty as (_ & Hty).
        destruct (IH _ _ _ Er Hty) as (T & C & R); [intros v Hv; specialize (HK v Hv); rewrite cnt_app in HK; lia|].
        split; [cbn [forallb]; rewrite Tl; exact T|]. split.
        * intros v. rewrite cnt_cons, cnt_app. specialize (C v). destruct (existsb (Nat.eqb v) (uses l)) eqn:E; [apply Ul in E; lia|lia].
        * intros s t HR. rewrite run_app. cbn [run fold_left]. apply R. apply Hl. exact HR.
      + destruct ops as [|o ops]; [injection H as <- <-; split; [reflexivity|]; split; [lia|]; intros s t; apply rel_run|].
        destruct (amd64_round rm fuel ops) as [r' c'] eqn:Er. injection H as <- <-. cbn [forallb] in Hty. apply andb_true_iff in Hty. destruct Hty as (To & Hty).
        destruct (IH _ _ _ Er Hty) as (T & C & R); [intros v Hv; specialize (HK v Hv); rewrite cnt_cons in HK; lia|].
        split; [cbn [forallb]; rewrite To; exact T|]. split; [intros v; rewrite !cnt_cons; specialize (C v); lia|].
        intros s t HR. cbn [run fold_left]. apply R. apply rel_step. exact HR.
  Qed.
  Lemma amd64_rounds_ok : forall n ops, forallb (typed fl) ops = true -> K ops ->
    forall s, rel live [] (run W (amd64_rounds rm n ops) s) (run W ops s).
  Proof.
    induction n as [|n IH]; intros ops Hty HK s; cbn [amd64_rounds]; [apply rel_refl|].
    destruct (amd64_round rm (length ops) ops) as [r c] eqn:Er.
    destruct (amd64_round_ok _ _ _ _ Er Hty HK) as (T & C & R). destruct c; [|apply R, rel_refl].
    eapply rel_nil_trans; [apply IH; [exact T|]|apply R, rel_refl]. intros v Hv. specialize (C v). specialize (HK v Hv). lia.
  Qed.
End lea.

Lemma can_remove_live : forall live cnt0 x, can_remove live cnt0 x = true -> ~ In x live.
Proof. intros live c x H Hx. unfold can_remove in H. apply andb_true_iff in H. destruct H as (H & _). apply negb_true_iff in H. apply existsb_in in Hx. congruence. Qed.
Lemma can_remove_count : forall live cnt0 x, can_remove live cnt0 x = true -> cnt0 x <= 1.
Proof. intros live c x H. unfold can_remove in H. apply andb_true_iff in H. destruct H as (_ & H). apply Nat.leb_le. exact H. Qed.
Lemma amd64_ok : forall {M} (W : world M) fl live ops, forallb (typed fl) ops = true ->
  forall s, looks_same live (run W (amd64_block live ops) s) (run W ops s).
Proof.
  intros M W fl live ops Hty s. unfold amd64_block.
  destruct (amd64_rounds_ok W fl (can_remove live (fun x => occ x ops)) live (can_remove_live _ _) 5 ops Hty) with (s := s) as (A & B).
  - intros v Hv. apply can_remove_count in Hv. pose proof (cnt_occ v ops). lia.
  - split; [exact A|]. intros x Hx. apply B. auto.
Qed.
