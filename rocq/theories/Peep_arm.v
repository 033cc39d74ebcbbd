(** The arm64 peephole pass. *)
From Verif Require Import Base Peep_model Peep_spec Peep_proof.
Local Open Scope nat_scope.

Definition outs (o : op) : list nat := match o_output o with Some (OVar x) | Some (OConst x _) => [x] | _ => [] end.
Lemma older_iff : forall n o, older n o = true <-> forall x, In x (uses o) \/ In x (outs o) -> x < n.
Proof.
  intros n o. unfold older. fold (outs o). rewrite forallb_forall. split; intros H x.
  - intros Hx. apply Nat.ltb_lt, H, in_app_iff. exact Hx.
  - intros Hx. apply Nat.ltb_lt, H, in_app_iff. exact Hx.
Qed.
Lemma outs_var : forall o p m, o_output o = Some p -> var_of p = Some m -> outs o = [m].
Proof. intros o p m E H. unfold outs. rewrite E. destruct p; cbn in H; congruence. Qed.
Lemma out_uses_var : forall p m, var_of p = Some m -> out_uses (Some p) = [].
Proof. intros p m H. destruct p; cbn in H; try discriminate; reflexivity. Qed.

Definition plain (md : bool) (o : op) : bool :=
  if md then negb (is_code (o_code o) Mul) else negb (mov_two o) && negb (const_two (o_first o)) && negb (const_two (o_second o)).

Definition occ1 (v : nat) (o : op) : nat := count_occ Nat.eq_dec (uses o) v.
Lemma occ_cons : forall v o ops, occ v (o :: ops) = occ1 v o + occ v ops.
Proof. intros. unfold occ, occ1. cbn [flat_map]. apply count_occ_app. Qed.
Lemma occ_app : forall v a b, occ v (a ++ b) = occ v a + occ v b.
Proof. intros. unfold occ. rewrite flat_map_app. apply count_occ_app. Qed.
Lemma occ_zero : forall v ops, occ v ops = 0 -> ~ In v (flat_map uses ops).
Proof. intros v ops H Hv. apply (count_occ_In Nat.eq_dec) in Hv. unfold occ in H. lia. Qed.
Definition c1 (v : nat) (l : list nat) : nat := count_occ Nat.eq_dec l v.
Lemma occ1_eq : forall v o, occ1 v o = c1 v (out_uses (o_output o)) + c1 v (vars_of (o_first o)) + c1 v (vars_of (o_second o)) + c1 v (vars_of (o_addend o)) + c1 v (o_args o).
Proof. intros v o. unfold occ1, c1, uses. rewrite !count_occ_app. lia. Qed.
Lemma c1_zero : forall v l, c1 v l = 0 <-> ~ In v l.
Proof. intros v l. unfold c1. symmetry. apply count_occ_not_In. Qed.
Lemma c1_self : forall v, c1 v [v] = 1.
Proof. intros v. unfold c1. cbn. destruct (Nat.eq_dec v v); [reflexivity|congruence]. Qed.

Section arm.
  Context {M : Type} (W : world M) (fe : fused_exact W) (fl cv : nat -> bool) (rm : nat -> bool) (live : list nat).
  Implicit Types s t : state M.
  Hypothesis Hlive : forall x, rm x = true -> ~ In x live.
  Variable n0 : nat.
  Hypothesis Hfresh : forall x, n0 <= x -> fl x = true /\ cv x = false.
  Hypothesis Hold : forall x, In x live -> x < n0.

  Definition good (n : nat) (o : op) : bool := typed fl o && flagged cv o && older n o && factors o.
  Definition KO (ops : list op) : Prop := forall v, rm v = true -> occ v ops <= 1.
  Lemma good_inv : forall n o, good n o = true <-> typed fl o = true /\ flagged cv o = true /\ older n o = true /\ factors o = true.
  Proof. intros n o. unfold good. rewrite !andb_true_iff. tauto. Qed.

  (** A variable that is assigned to is read as such. *)
  Lemma flagged_out : forall o p m, flagged cv o = true -> (match o_code o with Any _ => False | _ => True end) -> o_output o = Some p -> var_of p = Some m -> p = OVar m /\ cv m = false.
  Proof.
    intros o p m H C E Hm. unfold flagged in H. apply andb_true_iff in H. destruct H as (_ & H). rewrite E in H.
    destruct p; cbn in Hm; try discriminate; injection Hm as ->; destruct (o_code o); try contradiction; try discriminate; (split; [reflexivity|apply negb_true_iff; exact H]).
  Qed.
  Lemma flagged_in : forall o, flagged cv o = true -> operand_flagged cv (o_first o) = true /\ operand_flagged cv (o_second o) = true /\ operand_flagged cv (o_addend o) = true.
  Proof. intros o H. unfold flagged in H. rewrite !andb_true_iff in H. tauto. Qed.
  Lemma flagged_var : forall p m, operand_flagged cv (Some p) = true -> var_of p = Some m -> cv m = false -> p = OVar m.
  Proof. intros p m H E C. destruct p; cbn in *; try discriminate; injection E as ->; [reflexivity|congruence]. Qed.

  (** Two states that differ in variables nobody reads any more. *)
  Lemma finish : forall R s1 t1 e o v k, result W s1 e = (v, k) -> result W t1 o = (v, k) -> o_output e = o_output o ->
    (forall x, In x (out_uses (o_output o)) -> vars s1 x = vars t1 x) ->
    (forall x, In x live \/ In x (flat_map uses R) -> vars s1 x = vars t1 x) -> rel live R (exec W s1 e) (exec W t1 o).
  Proof.
    intros R s1 t1 e o v k H1 H2 E Ho Hx. unfold exec. rewrite H1, H2, E. destruct (store_agree W s1 t1 (o_output o) v k Ho) as (A & B).
    split; [exact A|]. intros x X. apply B. left. apply Hx. exact X.
  Qed.
  Lemma result_out : forall s a out, result W s (mk_op (o_code a) (o_first a) (o_second a) (o_addend a) out (o_args a) (o_float a)) = result W s a.
  Proof. intros s [c f se ad o ar fo] out. reflexivity. Qed.

  (** ** A step of the pass *)
  Definition stepped (n n' : nat) (O E rest : list op) : Prop :=
    n <= n' /\ forallb (good n') E = true /\
    (forall s t, rel live (O ++ rest) s t -> rel live rest (run W E s) (run W O t)) /\
    (forall md, forallb (plain md) O = true ->
       forallb (plain md) E = true /\ (forall v, v < n -> occ v E <= occ v O) /\ (forall v, n <= v -> occ v E <= 1) /\ (forall v, n' <= v -> occ v E = 0)).

  Lemma older_occ : forall n ops v, forallb (older n) ops = true -> n <= v -> occ v ops = 0.
  Proof.
    intros n ops. induction ops as [|o ops IH]; intros v H Hv; [reflexivity|]. cbn [forallb] in H. apply andb_true_iff in H. destruct H as (H1 & H2).
    rewrite occ_cons, (IH v H2 Hv). pose proof (proj1 (older_iff n o) H1) as H1'. enough (occ1 v o = 0) by lia. unfold occ1. apply count_occ_not_In. intros X. specialize (H1' v (or_introl X)). lia.
  Qed.
  Lemma good_older : forall n ops, forallb (good n) ops = true -> forallb (older n) ops = true.
  Proof. intros n ops. rewrite !forallb_forall. intros H x Hx. specialize (H x Hx). apply good_inv in H. tauto. Qed.
  Lemma older_le : forall n n' o, older n o = true -> n <= n' -> older n' o = true.
  Proof. intros n n' o H Hn. rewrite older_iff in *. intros x Hx. specialize (H x Hx). lia. Qed.
  Lemma good_le : forall n n' o, good n o = true -> n <= n' -> good n' o = true.
  Proof. intros n n' o H Hn. rewrite good_inv in *. intuition eauto using older_le. Qed.

  Ltac counts H := rewrite ?occ_app, ?occ_cons, ?occ1_eq in H.
  Ltac nc := match goal with |- context [count_occ] => idtac end.

  Lemma uses_in : forall x o, In x (uses o) <-> In x (out_uses (o_output o)) \/ In x (vars_of (o_first o)) \/ In x (vars_of (o_second o)) \/ In x (vars_of (o_addend o)) \/ In x (o_args o).
  Proof. intros x o. unfold uses. rewrite !in_app_iff. tauto. Qed.
  Lemma rel_first : forall o R s t, rel live (o :: R) s t -> forall x, In x (uses o) -> vars s x = vars t x.
  Proof. intros o R s t (_ & H) x Hx. apply H. right. cbn [flat_map]. apply in_app_iff. auto. Qed.

  (** *** MOVE elimination *)
  Lemma elim_code : forall o, eliminable o = true -> match o_code o with Any _ => False | _ => True end.
  Proof. intros o H. unfold eliminable in H. destruct (o_code o); try exact I; discriminate. Qed.
  Lemma rm_out_inv : forall o, rm_out rm o = true -> exists p m, o_output o = Some p /\ var_of p = Some m /\ rm m = true.
  Proof. intros o H. unfold rm_out in H. destruct (o_output o) as [p|]; [|discriminate]. destruct (var_of p) as [m|] eqn:E; [|discriminate]. eauto. Qed.

  Lemma match1_ok : forall n a b e rest, match1 rm a b = Some e -> good n a = true -> good n b = true -> KO (a :: b :: rest) -> stepped n n [a; b] [e] rest.
  Proof.
    intros n a b e rest H Ga Gb HK. unfold match1 in H. match type of H with (if ?c then _ else _) = _ => destruct c eqn:Eg end; [|discriminate]. injection H as <-.
    rewrite !andb_true_iff in Eg. destruct Eg as (((((((Ea & Cb) & Ob) & Fb) & Oa) & _) & Eq) & Rm). apply is_code_eq in Cb.
    destruct (rm_out_inv a Rm) as (p & m & Ep & Em & Hm). apply good_inv in Ga. destruct Ga as (Ta & La & Da & Fa). apply good_inv in Gb. destruct Gb as (Tb & Lb & Db & Fab).
    destruct (flagged_out a p m La (elim_code a Ea) Ep Em) as (-> & Cm). rewrite Ep in Eq. destruct (equal_var_l _ _ _ Eq Em) as (q & Eqf & Eqm).
    destruct (flagged_in b Lb) as (L1 & _). rewrite Eqf in L1. pose proof (flagged_var q m L1 Eqm Cm) as ->.
    assert (OU : out_uses (o_output b) = []) by (destruct (o_output b) as [[ | | | | | | | ]|]; try discriminate; reflexivity).
    assert (OUa : out_uses (o_output a) = []) by (rewrite Ep; reflexivity).
    assert (Ue : uses (mk_op (o_code a) (o_first a) (o_second a) (o_addend a) (o_output b) (o_args a) (o_float a)) = uses a) by (unfold uses; cbn [o_output o_first o_second o_addend o_args]; rewrite OU, OUa; reflexivity).
    split; [apply le_n|]. split; [|split].
    - cbn [forallb]. rewrite andb_true_r. apply good_inv. repeat split.
      + (* typed *)
        unfold typed in *. cbn [o_code o_first o_second o_output o_float]. rewrite Cb, Eqf in Tb. destruct (o_code a) eqn:Ca; try exact Ta.
        * rewrite Ep in Ta. destruct (o_output b) as [[y|y w|r| | | | | ]|] eqn:Eob; try discriminate; cbn [operand_typed] in Tb.
          -- apply Bool.eqb_prop in Tb. rewrite <- Tb. exact Ta.
          -- apply Bool.eqb_prop in Tb. rewrite <- Tb. exact Ta.
          -- destruct (o_first a) as [[ |x w| | | | | | ]|]; try reflexivity. cbn in Ta. apply andb_true_iff in Ta. destruct Ta as (A & B). apply Bool.eqb_prop in A. congruence.
        * rewrite Ep in Ta. destruct (o_output b) as [[y|y w|r| | | | | ]|] eqn:Eob; try discriminate; cbn [operand_typed] in Tb.
          -- apply Bool.eqb_prop in Tb. rewrite <- Tb. exact Ta.
          -- apply Bool.eqb_prop in Tb. rewrite <- Tb. exact Ta.
          -- rewrite andb_true_r. apply andb_true_iff in Ta. tauto.
      + unfold flagged in *. cbn [o_first o_second o_addend o_code o_output]. rewrite Cb in Lb. apply andb_true_iff in Lb. destruct Lb as (_ & Lb). apply andb_true_iff in La. destruct La as (La & _).
        rewrite La. cbn [andb]. destruct (o_code a); try reflexivity; exact Lb.
      + rewrite older_iff in *. intros x. rewrite Ue. cbn [outs o_output]. intros [X|X]; [apply Da; auto|apply Db; right; exact X].
      + unfold factors in *. cbn [o_code o_first o_second o_output]. destruct (o_code a); try reflexivity. rewrite Ep in Fa. cbn in Fa. rewrite Fa. apply orb_true_r.
    - intros s t HR. cbn [run fold_left app].
      destruct (result W t a) as [v k] eqn:Er.
      assert (Xa : exec W t a = mk_state (fun y => if Nat.eqb y m then v else vars t y) k) by (unfold exec; rewrite Er, Ep; reflexivity). rewrite Xa.
      apply (finish rest _ _ _ b v k).
      + rewrite result_out. rewrite <- Er. apply result_agree; [exact (proj1 HR)|]. intros x Hx. eapply rel_first; [exact HR|exact Hx].
      + unfold result. rewrite Cb, Eqf. cbn [value vars mach]. rewrite Nat.eqb_refl. reflexivity.
      + reflexivity.
      + rewrite OU. intros x [].
      + cbn [vars]. intros x Hx. destruct (Nat.eqb_spec x m) as [->|Nm].
        * exfalso. specialize (HK m Hm). rewrite !occ_cons, !occ1_eq, Eqf in HK. cbn [vars_of] in HK. rewrite c1_self in HK.
          destruct Hx as [Hx|Hx]; [exact (Hlive m Hm Hx)|]. apply (occ_zero m rest); [clear - HK; lia|exact Hx].
        * apply (proj2 HR). destruct Hx as [Hx|Hx]; [auto|right]. cbn [app flat_map]. rewrite !in_app_iff. auto.
    - intros md Hp. cbn [forallb] in Hp. rewrite andb_true_r in Hp. apply andb_true_iff in Hp. destruct Hp as (Pa & Pb).
      assert (Oc : forall v, occ v [mk_op (o_code a) (o_first a) (o_second a) (o_addend a) (o_output b) (o_args a) (o_float a)] = occ1 v a).
      { intros v. rewrite occ_cons. unfold occ1. rewrite Ue. unfold occ. cbn. clear. lia. }
      assert (O1 : forall v, n <= v -> occ1 v a = 0).
      { intros v Hv. pose proof (older_occ n [a] v) as Z. cbn [forallb] in Z. rewrite Da in Z. specialize (Z eq_refl Hv). rewrite occ_cons in Z. clear - Z. lia. }
      repeat split.
      + cbn [forallb]. rewrite andb_true_r. unfold plain in *. cbn [o_code o_first o_second]. destruct md; [exact Pa|].
        unfold mov_two in *. cbn [o_code o_first o_output]. rewrite Ep in Pa. cbn [is_var] in Pa. rewrite !andb_true_iff, !negb_true_iff in *. destruct Pa as ((P1 & P2) & P3). rewrite andb_true_r in P1.
        rewrite P1. auto.
      + intros v Hv. rewrite Oc, occ_cons. clear. lia.
      + intros v Hv. rewrite Oc, (O1 v Hv). clear. lia.
      + intros v Hv. rewrite Oc. apply O1. exact Hv.
  Qed.

  Lemma match2_common : forall n a b rest p m x e q,
    o_code a = Move -> o_output a = Some (OVar m) -> o_first a = Some x -> rm m = true -> eliminable b = true ->
    good n a = true -> good n b = true -> KO (a :: b :: rest) -> operand_equal (o_output b) (Some x) = true ->
    ((o_second b = Some p /\ e = mk_op (o_code b) (o_first b) (Some x) (o_addend b) (o_output b) (o_args b) (o_float b)) \/
     (o_first b = Some p /\ e = mk_op (o_code b) (Some x) (o_second b) (o_addend b) (o_output b) (o_args b) (o_float b))) ->
    var_of p = Some m -> q = OVar m -> stepped n n [a; b] [e] rest.
  Proof.
    intros n a b rest p m x e q0 Ca Oa Fa Hm Eb Ga Gb HK Eox Hc Ep _.
    apply good_inv in Ga. destruct Ga as (Ta & La & Da & Fta). apply good_inv in Gb. destruct Gb as (Tb & Lb & Db & Ftb).
    assert (Cm : cv m = false) by (destruct (flagged_out a (OVar m) m La) as (_ & C); [rewrite Ca; exact I|exact Oa|reflexivity|exact C]).
    assert (Op : p = OVar m).
    { destruct (flagged_in b Lb) as (L1 & L2 & _). destruct Hc as [(E & _)|(E & _)]; [rewrite E in L2; exact (flagged_var p m L2 Ep Cm)|rewrite E in L1; exact (flagged_var p m L1 Ep Cm)]. }
    subst p.
    assert (Tx : operand_typed fl (fl m) (Some x) = true) by (unfold typed in Ta; rewrite Ca, Oa, Fa in Ta; exact Ta).
    assert (Lx : operand_flagged cv (Some x) = true) by (destruct (flagged_in a La) as (L1 & _); rewrite Fa in L1; exact L1).
    assert (Oe : o_output e = o_output b) by (destruct Hc as [(_ & ->)|(_ & ->)]; reflexivity).
    assert (Cnt : forall v, occ1 v e + c1 v [m] = occ1 v b + c1 v (vars_of (Some x))).
    { intros v. rewrite !occ1_eq. destruct Hc as [(E & ->)|(E & ->)]; cbn [o_output o_first o_second o_addend o_args]; rewrite E; cbn [vars_of]; clear; lia. }
    assert (Cx : forall v, c1 v (vars_of (Some x)) <= occ1 v a) by (intros v; rewrite occ1_eq, Fa; clear; lia).
    assert (Ky : c1 m (vars_of (Some x)) = 0 /\ occ1 m b = 1 /\ occ m rest = 0).
    { specialize (HK m Hm). rewrite !occ_cons in HK. specialize (Cx m). assert (1 <= occ1 m b); [|clear - HK Cx H; lia].
      rewrite occ1_eq. destruct Hc as [(E & _)|(E & _)]; rewrite E; cbn [vars_of]; rewrite c1_self; clear; lia. }
    destruct Ky as (Kx & Kb & Kr).
    split; [apply le_n|]. split; [|split].
    - cbn [forallb]. rewrite andb_true_r. apply good_inv. repeat split.
      + unfold typed in *. destruct Hc as [(E & ->)|(E & ->)]; cbn [o_code o_first o_second o_output o_float]; rewrite E in Tb.
        * destruct (o_code b); try exact Tb; rewrite !andb_true_iff in *; cbn [operand_typed] in Tb; [destruct Tb as (A & B)|destruct Tb as (A & B)|destruct Tb as ((A & B) & C)]; apply Bool.eqb_prop in B; rewrite <- B; repeat split; try assumption; rewrite B; assumption.
        * destruct (o_code b); try exact Tb; [|rewrite !andb_true_iff in *; cbn [operand_typed] in Tb; first [destruct Tb as ((B & A) & C)|destruct Tb as (B & A)]; apply Bool.eqb_prop in B; rewrite <- B; repeat split; try assumption; rewrite B; assumption..].
          destruct (o_output b) as [[y|y w|r|z|w|b1 i1 sc off|k|k]|] eqn:Eob; cbn [operand_typed] in Tb;
            try (apply Bool.eqb_prop in Tb; rewrite <- Tb; exact Tx); try (destruct x; try discriminate; reflexivity).
      + unfold flagged in *. destruct Hc as [(E & ->)|(E & ->)]; cbn [o_code o_first o_second o_addend o_output]; rewrite !andb_true_iff in *; tauto.
      + rewrite older_iff in *. intros y [Y|Y].
        * assert (D : In y (uses b) \/ In y (vars_of (Some x))).
          { apply (count_occ_In Nat.eq_dec) in Y. fold (occ1 y e) in Y. specialize (Cnt y).
            destruct (Nat.eq_dec (c1 y (vars_of (Some x))) 0) as [Z|Z]; [left|right].
            - apply (count_occ_In Nat.eq_dec). fold (occ1 y b). clear - Y Cnt Z. lia.
            - apply (count_occ_In Nat.eq_dec). unfold c1 in Z. clear - Z. lia. }
          destruct D as [D|D]; [apply Db; auto|]. apply Da. left. apply uses_in. rewrite Fa. auto.
        * apply Db. right. unfold outs in *. rewrite Oe in Y. exact Y.
      + unfold factors in *. destruct Hc as [(E & ->)|(E & ->)]; cbn [o_code o_first o_second o_output]; rewrite E in Ftb; destruct (o_code b); try reflexivity;
          destruct (is_var (o_output b)) eqn:Vo; try reflexivity; cbn [negb orb] in *;
          destruct (is_var_of _ Vo) as (ob & y & Eob & Ey); rewrite Eob in Eox; destruct (equal_var_l _ _ _ Eox Ey) as (x' & Ex' & Exv); injection Ex' as <-;
          assert (Vx : is_var (Some x) = true) by (destruct x; cbn in Exv; try discriminate; reflexivity); rewrite Vx; cbn [is_var] in Ftb; rewrite ?andb_true_r in *; cbn [andb]; assumption.
    - intros s t HR. cbn [run fold_left app].
      assert (Vs : forall y, In y (uses a) \/ In y (uses b) -> vars s y = vars t y).
      { intros y Y. apply (proj2 HR). right. cbn [app flat_map]. rewrite !in_app_iff. tauto. }
      assert (Xa : exec W t a = mk_state (fun y => if Nat.eqb y m then value W t (Some x) else vars t y) (mach t)) by (unfold exec, result; rewrite Ca, Fa, Oa; reflexivity). rewrite Xa.
      set (t1 := mk_state _ (mach t)).
      assert (Vx : value W s (Some x) = vars t1 m).
      { unfold t1. cbn [vars]. rewrite Nat.eqb_refl. apply value_agree; [exact (proj1 HR)|]. intros y Y. apply Vs. left. apply uses_in. rewrite Fa. auto. }
      assert (Vt : forall y, y <> m -> In y (uses b) -> vars s y = vars t1 y).
      { intros y N Y. unfold t1. cbn [vars]. destruct (Nat.eqb_spec y m); [congruence|]. apply Vs. auto. }
      assert (Hmt : mach s = mach t1) by exact (proj1 HR).
      assert (VO : forall y, In y (out_uses (o_output b)) -> vars s y = vars t1 y).
      { intros y Y. apply Vt; [|apply uses_in; auto]. intros ->. rewrite occ1_eq in Kb. apply (count_occ_In Nat.eq_dec) in Y. fold (c1 m (out_uses (o_output b))) in Y.
        destruct Hc as [(E & _)|(E & _)]; rewrite E in Kb; cbn [vars_of] in Kb; rewrite c1_self in Kb; clear - Kb Y; lia. }
      destruct (result W t1 b) as [v k] eqn:Er. apply (finish rest s t1 e b v k).
      + rewrite <- Er. destruct Hc as [(E & ->)|(E & ->)]; unfold result; cbn [o_code o_first o_second o_addend o_args o_float]; rewrite E, Vx.
        * assert (V1 : value W s (o_first b) = value W t1 (o_first b)).
          { apply value_agree; [exact Hmt|]. intros y Y. apply Vt; [|apply uses_in; auto]. intros ->. rewrite occ1_eq, E in Kb. cbn [vars_of] in Kb. rewrite c1_self in Kb.
            apply (count_occ_In Nat.eq_dec) in Y. fold (c1 m (vars_of (o_first b))) in Y. clear - Kb Y. lia. }
          assert (V3 : value W s (o_addend b) = value W t1 (o_addend b)).
          { apply value_agree; [exact Hmt|]. intros y Y. apply Vt; [|apply uses_in; auto]. intros ->. rewrite occ1_eq, E in Kb. cbn [vars_of] in Kb. rewrite c1_self in Kb.
            apply (count_occ_In Nat.eq_dec) in Y. fold (c1 m (vars_of (o_addend b))) in Y. clear - Kb Y. lia. }
          rewrite V1, V3, Hmt. unfold eliminable in Eb. destruct (o_code b); try discriminate; reflexivity.
        * assert (V1 : value W s (o_second b) = value W t1 (o_second b)).
          { apply value_agree; [exact Hmt|]. intros y Y. apply Vt; [|apply uses_in; auto]. intros ->. rewrite occ1_eq, E in Kb. cbn [vars_of] in Kb. rewrite c1_self in Kb.
            apply (count_occ_In Nat.eq_dec) in Y. fold (c1 m (vars_of (o_second b))) in Y. clear - Kb Y. lia. }
          assert (V3 : value W s (o_addend b) = value W t1 (o_addend b)).
          { apply value_agree; [exact Hmt|]. intros y Y. apply Vt; [|apply uses_in; auto]. intros ->. rewrite occ1_eq, E in Kb. cbn [vars_of] in Kb. rewrite c1_self in Kb.
            apply (count_occ_In Nat.eq_dec) in Y. fold (c1 m (vars_of (o_addend b))) in Y. clear - Kb Y. lia. }
          rewrite V1, V3, Hmt. unfold eliminable in Eb. destruct (o_code b); try discriminate; reflexivity.
      + exact Er.
      + exact Oe.
      + exact VO.
      + intros y Y. unfold t1. cbn [vars]. destruct (Nat.eqb_spec y m) as [->|N].
        * exfalso. destruct Y as [Y|Y]; [exact (Hlive m Hm Y)|]. exact (occ_zero m rest Kr Y).
        * apply (proj2 HR). destruct Y as [Y|Y]; [auto|right]. cbn [app flat_map]. rewrite !in_app_iff. auto.
    - intros md Hp. cbn [forallb] in Hp. rewrite andb_true_r in Hp. apply andb_true_iff in Hp. destruct Hp as (Pa & Pb).
      assert (Oc : forall v, occ v [e] = occ1 v e) by (intros v; rewrite occ_cons; unfold occ; cbn; clear; lia).
      assert (O1 : forall v, n <= v -> occ1 v a = 0 /\ occ1 v b = 0).
      { intros v Hv. pose proof (older_occ n [a; b] v) as Z. cbn [forallb] in Z. rewrite Da, Db in Z. specialize (Z eq_refl Hv). rewrite !occ_cons in Z. clear - Z. lia. }
      assert (Le : forall v, occ1 v e <= occ1 v a + occ1 v b) by (intros v; specialize (Cnt v); specialize (Cx v); clear - Cnt Cx; lia).
      repeat split.
      + cbn [forallb]. rewrite andb_true_r. unfold plain in *. destruct md.
        * destruct Hc as [(E & ->)|(E & ->)]; exact Pb.
        * rewrite Fa in Pa. rewrite !andb_true_iff, !negb_true_iff in *. destruct Pa as ((_ & P2) & _). destruct Pb as ((Q1 & Q2) & Q3).
          destruct Hc as [(E & ->)|(E & ->)]; cbn [o_code o_first o_second]; unfold mov_two in *; cbn [o_code o_first o_output]; repeat split; try assumption.
          destruct (is_code (o_code b) Move); [|reflexivity]. cbn [andb].
          destruct (is_var (o_output b)) eqn:Vo; [|apply andb_false_r]. destruct (is_var_of _ Vo) as (ob & y & Eob & Ey). rewrite Eob in Eox. destruct (equal_var_l _ _ _ Eox Ey) as (x' & Ex' & Exv). injection Ex' as <-.
          destruct x; cbn in Exv; try discriminate; reflexivity.
      + intros v Hv. rewrite Oc, !occ_cons. specialize (Le v). clear - Le. lia.
      + intros v Hv. rewrite Oc. specialize (Le v). destruct (O1 v Hv). clear - Le H H0. lia.
      + intros v Hv. rewrite Oc. specialize (Le v). destruct (O1 v Hv). clear - Le H H0. lia.
  Qed.

  Lemma match2_ok : forall n a b e rest, match2 rm a b = Some e -> good n a = true -> good n b = true -> KO (a :: b :: rest) -> stepped n n [a; b] [e] rest.
  Proof.
    intros n a b e rest H Ga Gb HK. unfold match2 in H. destruct (o_first a) as [x|] eqn:Fa; [|discriminate].
    match type of H with (if ?c then _ else _) = _ => destruct c eqn:Eg end; [|discriminate]. rewrite !andb_true_iff in Eg. destruct Eg as (((Ca & Eb) & _) & Rm). apply is_code_eq in Ca.
    destruct (rm_out_inv a Rm) as (p & m & Ep & Em & Hm).
    pose proof Ga as Ga'. apply good_inv in Ga'. destruct Ga' as (_ & La & _).
    destruct (flagged_out a p m La) as (-> & Cm); [rewrite Ca; exact I|exact Ep|exact Em|].
    assert (EV : forall o, operand_equal o (o_output a) = true -> exists r, o = Some r /\ var_of r = Some m) by (intros o Ho; rewrite Ep in Ho; exact (equal_var _ _ _ Ho Em)).
    match type of H with (if ?c then _ else _) = _ => destruct c eqn:E2 end.
    - destruct (o_second b) as [p2|] eqn:Sb; [|discriminate]. destruct (EV _ E2) as (r & Er & Erm). injection Er as <-.
      destruct (operand_equal (o_output b) (Some x)) eqn:Eo; [|discriminate]. injection H as <-.
      eapply match2_common; eauto.
    - match type of H with (if ?c then _ else _) = _ => destruct c eqn:E1 end; [|discriminate].
      destruct (o_first b) as [p2|] eqn:Sb; [|discriminate]. destruct (EV _ E1) as (r & Er & Erm). injection Er as <-.
      destruct (operand_equal (o_output b) (Some x)) eqn:Eo; [|discriminate]. injection H as <-.
      eapply match2_common; eauto.
  Qed.

  (** *** Fused multiply and add *)
  Lemma neg_imm_ok : forall n o, good n o = true ->
    good n (neg_imm o) = true /\ uses (neg_imm o) = uses o /\ o_output (neg_imm o) = o_output o /\ is_add_sub (neg_imm o) = is_add_sub o /\
    (forall t, exec W t (neg_imm o) = exec W t o) /\ (forall md, plain md o = true -> plain md (neg_imm o) = true).
  Proof.
    intros n o G. unfold neg_imm. destruct (is_code (o_code o) Sub) eqn:C; [|auto 10]. apply is_code_eq in C.
    apply good_inv in G. destruct G as (T & L & D & F). unfold typed in T. rewrite C in T. apply andb_true_iff in T. destruct T as (T1 & T2).
    destruct (o_second o) as [[x|x v|r|z|v|b i sc off|k|k]|] eqn:S2; try (split; [apply good_inv; repeat split; try assumption; unfold typed; rewrite C, S2, T1; exact T2|auto 10]).
    - cbn [operand_typed] in T2. apply negb_true_iff in T2. split; [|split; [|split; [|split; [|split]]]].
      + apply good_inv. repeat split.
        * unfold typed. cbn [o_code o_float o_first o_second]. rewrite T1. cbn. rewrite T2. reflexivity.
        * unfold flagged in *. cbn [o_first o_second o_addend o_code o_output]. rewrite C, S2 in L. exact L.
        * unfold older, uses in *. rewrite S2 in D. exact D.
      + unfold uses. rewrite S2. reflexivity.
      + reflexivity.
      + unfold is_add_sub. rewrite C. reflexivity.
      + intros t. unfold exec, result. cbn [o_code o_float o_first o_second o_output]. rewrite C, S2, T2. cbn [value]. rewrite word_addr, word_subr. replace (value W t (o_first o) + - z)%Z with (value W t (o_first o) - z)%Z by (clear; lia). reflexivity.
      + intros [|]; unfold plain, mov_two; cbn [o_code o_first o_second]; [reflexivity|]. rewrite C, S2. intros H. exact H.
    - cbn [operand_typed] in T2. split; [|split; [|split; [|split; [|split]]]].
      + apply good_inv. repeat split.
        * unfold typed. cbn [o_code o_float o_first o_second]. rewrite T1. exact T2.
        * unfold flagged in *. cbn [o_first o_second o_addend o_code o_output]. rewrite C, S2 in L. exact L.
        * unfold older, uses in *. rewrite S2 in D. exact D.
      + unfold uses. rewrite S2. reflexivity.
      + reflexivity.
      + unfold is_add_sub. rewrite C. reflexivity.
      + intros t. unfold exec, result. cbn [o_code o_float o_first o_second o_output]. rewrite C, S2, T2. cbn [value]. rewrite (fe_neg W fe). reflexivity.
      + intros [|]; unfold plain, mov_two; cbn [o_code o_first o_second]; [reflexivity|]. rewrite C, S2. intros H. exact H.
  Qed.

  (** What the fused instruction computes. *)
  Definition fval (code : opcode) (a b c : Z) : Z :=
    match code with Madd => word (c + a * b) | Msub => word (c - a * b) | Fmadd => w_fmadd W a b c | Fmsub => w_fmsub W a b c | _ => w_fnmsub W a b c end.
  Definition fcode (isadd first f : bool) : opcode :=
    if isadd then (if f then Fmadd else Madd) else if first then Fnmsub else if f then Fmsub else Msub.
  Lemma fval_result : forall s isadd first f a b c out args g,
    result W s (mk_op (fcode isadd first f) a b c out args g) = (fval (fcode isadd first f) (value W s a) (value W s b) (value W s c), mach s).
  Proof. intros s [|] [|] [|]; reflexivity. Qed.
  Lemma fused_value : forall t next (first f : bool) a b c x, is_add_sub next = true -> o_float next = f ->
    (if first then value W t (o_first next) = (if f then w_fmul W a b else word (a * b)) /\ o_second next = Some x
     else value W t (o_second next) = (if f then w_fmul W a b else word (a * b)) /\ o_first next = Some x) ->
    value W t (Some x) = c -> (is_code (o_code next) Add = false -> first = true -> f = true) ->
    result W t next = (fval (fcode (is_code (o_code next) Add) first f) a b c, mach t).
  Proof.
    intros t next first f a b c x Ha Hf H Hx Hs. unfold result. rewrite Hf.
    destruct (is_add_sub_cases _ Ha) as [C|C]; rewrite C in *; cbn [is_code fcode] in *; destruct first; destruct H as (H & E); rewrite H, E, Hx; destruct f; cbn [fval]; f_equal.
    - rewrite (fe_add1 W fe). reflexivity.
    - rewrite word_addl. f_equal. clear. lia.
    - rewrite (fe_add2 W fe). reflexivity.
    - rewrite word_addr. reflexivity.
    - rewrite (fe_nsub W fe). reflexivity.
    - specialize (Hs eq_refl eq_refl). discriminate.
    - rewrite (fe_sub W fe). reflexivity.
    - rewrite word_subr. reflexivity.
  Qed.
  Lemma fcode_not : forall isadd first f, match fcode isadd first f with Madd | Msub | Fmadd | Fmsub | Fnmsub => True | _ => False end.
  Proof. intros [|] [|] [|]; exact I. Qed.

  Lemma fma_core : forall n mul next rest m x first E n', n0 <= n ->
    o_code mul = Mul -> o_output mul = Some (OVar m) -> rm m = true -> good n mul = true -> good n next = true -> is_add_sub next = true ->
    (if first : bool then o_first next = Some (OVar m) /\ o_second next = Some x else o_second next = Some (OVar m) /\ o_first next = Some x) ->
    (is_code (o_code next) Add = false -> first = true -> o_float mul = true) ->
    KO (mul :: next :: rest) -> (forall y, In y (flat_map uses rest) -> y < n) ->
    let code := fcode (is_code (o_code next) Add) first (o_float mul) in
    ((n' = n /\ E = [mk_op code (o_first mul) (o_second mul) (Some x) (o_output next) (o_args next) (o_float next)]) \/
     (o_float mul = true /\ n' = S n /\
      E = [mk_op Move (Some x) None None (Some (OVar n)) [] true;
           mk_op code (o_first mul) (o_second mul) (Some (OVar n)) (o_output next) (o_args next) (o_float next)])) ->
    stepped n n' [mul; next] E rest.
  Proof.
    intros n mul next rest m x first E n' Hn Cm Om Hm Gm Gn An Hpos Hs HK Hrest code HE.
    apply good_inv in Gm. destruct Gm as (Tm & Lm & Dm & Fm). apply good_inv in Gn. destruct Gn as (Tn & Ln & Dn & Fn).
    assert (Cn : fcode (is_code (o_code next) Add) first (o_float mul) = code) by reflexivity. pose proof (fcode_not (is_code (o_code next) Add) first (o_float mul)) as Ck. rewrite Cn in Ck.
    (* types *)
    assert (Fl : fl m = o_float mul) by (unfold typed in Tm; rewrite Cm, Om in Tm; apply andb_true_iff in Tm; destruct Tm as (_ & Tm); apply Bool.eqb_prop; exact Tm).
    assert (Tn' : operand_typed fl (o_float next) (o_first next) = true /\ operand_typed fl (o_float next) (o_second next) = true)
      by (unfold typed in Tn; destruct (is_add_sub_cases _ An) as [C|C]; rewrite C in Tn; apply andb_true_iff in Tn; exact Tn).
    assert (Ff : o_float next = o_float mul /\ operand_typed fl (o_float next) (Some x) = true).
    { destruct Tn' as (A & B). destruct first; destruct Hpos as (E1 & E2); rewrite E1, E2 in *; (split; [|assumption]); [pose proof (typed_var _ _ _ m A eq_refl)|pose proof (typed_var _ _ _ m B eq_refl)]; congruence. }
    destruct Ff as (Ff & Tx).
    assert (Lx : operand_flagged cv (Some x) = true) by (destruct (flagged_in next Ln) as (A & B & _); destruct first; destruct Hpos as (E1 & E2); rewrite E2 in *; assumption).
    (* counts *)
    assert (Cnx : forall v, occ1 v next = c1 v (out_uses (o_output next)) + c1 v [m] + c1 v (vars_of (Some x)) + c1 v (vars_of (o_addend next)) + c1 v (o_args next)).
    { intros v. rewrite occ1_eq. destruct first; destruct Hpos as (E1 & E2); rewrite E1, E2; cbn [vars_of]; clear; lia. }
    assert (Cml : forall v, occ1 v mul = c1 v (vars_of (o_first mul)) + c1 v (vars_of (o_second mul)) + c1 v (vars_of (o_addend mul)) + c1 v (o_args mul)) by (intros v; rewrite occ1_eq, Om; reflexivity).
    assert (Ky : occ1 m mul = 0 /\ c1 m (out_uses (o_output next)) = 0 /\ c1 m (vars_of (Some x)) = 0 /\ occ m rest = 0).
    { specialize (HK m Hm). rewrite !occ_cons, Cnx, c1_self in HK. clear - HK. lia. }
    destruct Ky as (K1 & K2 & K3 & K4).
    assert (Ce : forall v ad, occ1 v (mk_op code (o_first mul) (o_second mul) ad (o_output next) (o_args next) (o_float next)) =
                 c1 v (out_uses (o_output next)) + c1 v (vars_of (o_first mul)) + c1 v (vars_of (o_second mul)) + c1 v (vars_of ad) + c1 v (o_args next)) by (intros v ad; rewrite occ1_eq; reflexivity).
    assert (In1 : forall y l, In y l -> 1 <= c1 y l) by (intros y l Y; apply (count_occ_In Nat.eq_dec) in Y; exact Y).
    assert (Inu : forall y o, 1 <= occ1 y o -> In y (uses o)) by (intros y o Y; apply (count_occ_In Nat.eq_dec); exact Y).
    assert (Inx : forall y, In y (vars_of (Some x)) -> In y (uses next)).
    { intros y Y. apply Inu. rewrite Cnx. apply In1 in Y. clear - Y. lia. }
    assert (Onx : forall y, In y (out_uses (o_output next)) -> In y (uses next)) by (intros y Y; apply uses_in; auto).
    assert (Zn : forall v, n <= v -> occ1 v mul = 0 /\ occ1 v next = 0).
    { intros v Hv. pose proof (older_occ n [mul; next] v) as Z. cbn [forallb] in Z. rewrite Dm, Dn in Z. specialize (Z eq_refl Hv). rewrite !occ_cons in Z. clear - Z. lia. }
    assert (Gx : forall ad k, operand_flagged cv ad = true -> n <= k -> (forall y, In y (vars_of ad) -> y < k) ->
      good k (mk_op code (o_first mul) (o_second mul) ad (o_output next) (o_args next) (o_float next)) = true).
    { intros ad k Lad Hk Dad. apply good_inv. repeat split.
      - unfold typed. cbn [o_code]. destruct code; try contradiction; reflexivity.
      - unfold flagged in *. cbn [o_code o_first o_second o_addend o_output]. rewrite Lad.
        assert (Lo : match o_output next with Some (OVar y) => negb (cv y) | Some (OConst _ _) => false | _ => true end = true)
          by (apply andb_true_iff in Ln; destruct Ln as (_ & Ln); destruct (is_add_sub_cases _ An) as [C|C]; rewrite C in Ln; exact Ln).
        rewrite !andb_true_iff in Lm. destruct Lm as (((A & B) & _) & _). rewrite A, B. cbn [andb]. destruct code; try contradiction; exact Lo.
      - rewrite older_iff in *. intros y [Y|Y].
        + apply uses_in in Y. cbn [o_output o_first o_second o_addend o_args] in Y. destruct Y as [Y|[Y|[Y|[Y|Y]]]].
          * specialize (Dn y (or_introl (Onx y Y))). clear - Dn Hk. lia.
          * assert (Z : y < n) by (apply Dm; left; apply uses_in; auto). clear - Z Hk. lia.
          * assert (Z : y < n) by (apply Dm; left; apply uses_in; auto). clear - Z Hk. lia.
          * apply Dad. exact Y.
          * assert (Z : y < n) by (apply Dn; left; apply uses_in; auto 6). clear - Z Hk. lia.
        + assert (Z : y < n) by (apply Dn; right; exact Y). clear - Z Hk. lia.
      - unfold factors. cbn [o_code]. destruct code; try contradiction; reflexivity. }
    assert (Px : forall md ad, plain md mul = true -> plain md (mk_op code (o_first mul) (o_second mul) ad (o_output next) (o_args next) (o_float next)) = true).
    { intros md ad P. unfold plain in *. cbn [o_code o_first o_second]. destruct md; [destruct code; try contradiction; reflexivity|].
      rewrite !andb_true_iff in P. destruct P as ((_ & P2) & P3). rewrite P2, P3. unfold mov_two. cbn [o_code]. destruct code; try contradiction; reflexivity. }
    (* running *)
    assert (HT : forall t, run W [mul; next] t = exec W (mk_state (fun y => if Nat.eqb y m then (if o_float mul then w_fmul W (value W t (o_first mul)) (value W t (o_second mul)) else word (value W t (o_first mul) * value W t (o_second mul))) else vars t y) (mach t)) next).
    { intros t. cbn [run fold_left]. f_equal. unfold exec, result. rewrite Cm, Om. reflexivity. }
    assert (HX : forall s t s1 ad, rel live ([mul; next] ++ rest) s t -> mach s1 = mach t -> (forall y, y < n -> vars s1 y = vars s y) ->
      value W s1 ad = value W t (Some x) ->
      rel live rest (exec W s1 (mk_op code (o_first mul) (o_second mul) ad (o_output next) (o_args next) (o_float next))) (run W [mul; next] t)).
    { intros s t s1 ad HR Hm1 Hv1 Had. rewrite HT. set (pr := if o_float mul then _ else _). set (t1 := mk_state _ (mach t)).
      assert (Vu : forall y, In y (uses mul) \/ In y (uses next) -> vars s1 y = vars t y).
      { intros y Y. rewrite Hv1.
        - apply (proj2 HR). right. cbn [app flat_map]. rewrite !in_app_iff. tauto.
        - rewrite older_iff in Dm, Dn. destruct Y as [Y|Y]; [apply Dm|apply Dn]; auto. }
      assert (V1 : value W s1 (o_first mul) = value W t (o_first mul)) by (apply value_agree; [exact Hm1|]; intros y Y; apply Vu; left; apply uses_in; auto).
      assert (V2 : value W s1 (o_second mul) = value W t (o_second mul)) by (apply value_agree; [exact Hm1|]; intros y Y; apply Vu; left; apply uses_in; auto).
      assert (Vx : value W t1 (Some x) = value W t (Some x)).
      { apply value_agree; [reflexivity|]. intros y Y. unfold t1. cbn [vars]. destruct (Nat.eqb_spec y m) as [->|N]; [|reflexivity]. apply In1 in Y. exfalso. clear - Y K3. lia. }
      apply (finish rest s1 t1 _ next (fval code (value W t (o_first mul)) (value W t (o_second mul)) (value W t (Some x))) (mach t)).
      - unfold code. rewrite fval_result. fold code. rewrite V1, V2, Had, Hm1. reflexivity.
      - unfold code. eapply (fused_value t1 next first (o_float mul) _ _ _ x An Ff); [|exact Vx|exact Hs].
        destruct first; destruct Hpos as (E1 & E2); rewrite E1; (split; [|exact E2]); cbn [value t1 vars]; rewrite Nat.eqb_refl; reflexivity.
      - reflexivity.
      - intros y Y. unfold t1. cbn [vars]. destruct (Nat.eqb_spec y m) as [->|N]; [apply In1 in Y; exfalso; clear - Y K2; lia|]. apply Vu. right. apply Onx. exact Y.
      - intros y Y. unfold t1. cbn [vars]. destruct (Nat.eqb_spec y m) as [->|N].
        + exfalso. destruct Y as [Y|Y]; [exact (Hlive m Hm Y)|exact (occ_zero m rest K4 Y)].
        + rewrite Hv1.
          * apply (proj2 HR). destruct Y as [Y|Y]; [auto|right]. cbn [app flat_map]. rewrite !in_app_iff. auto.
          * destruct Y as [Y|Y]; [specialize (Hold y Y); clear - Hold Hn; lia|apply Hrest; exact Y]. }
    clear HT.
    destruct HE as [(-> & ->)|(Hfl & -> & ->)].
    - (* the addend is used as it is *)
      split; [apply le_n|]. split; [|split].
      + cbn [forallb]. rewrite Gx; [reflexivity|exact Lx|apply le_n|]. rewrite older_iff in Dn. intros y Y. apply Dn. left. apply Inx. exact Y.
      + intros s t HR. cbn [run fold_left] in HX |- *. apply (HX s t s (Some x) HR (proj1 HR)); [reflexivity|]. apply value_agree; [exact (proj1 HR)|]. intros y Y. apply (proj2 HR). right. cbn [app flat_map]. rewrite !in_app_iff. auto.
      + intros md P. cbn [forallb] in P |- *. rewrite andb_true_r in *. apply andb_true_iff in P. destruct P as (P1 & P2).
        assert (Le : forall v, occ v [mk_op code (o_first mul) (o_second mul) (Some x) (o_output next) (o_args next) (o_float next)] <= occ1 v mul + occ1 v next).
        { intros v. rewrite occ_cons, Ce, Cml, Cnx. change (occ v []) with 0. clear. lia. }
        split; [apply Px; exact P1|]. split; [|split]; intros v Hv; specialize (Le v).
        * rewrite !occ_cons in *. change (occ v []) with 0 in *. clear - Le. lia.
        * destruct (Zn v Hv) as (Z1 & Z2). clear - Le Z1 Z2. lia.
        * destruct (Zn v Hv) as (Z1 & Z2). clear - Le Z1 Z2. lia.
    - (* the addend is moved to a temporary *)
      split; [clear; lia|]. destruct (Hfresh n Hn) as (Fn1 & Fn2). split; [|split].
      + cbn [forallb]. rewrite Gx; [|cbn [operand_flagged]; rewrite Fn2; reflexivity|clear; lia|cbn [vars_of]; intros y [<-|[]]; clear; lia].
        rewrite andb_true_r. apply good_inv. repeat split.
        * unfold typed. cbn [o_code o_output o_first]. rewrite Fn1. rewrite Ff, Hfl in Tx. exact Tx.
        * unfold flagged. cbn [o_first o_second o_addend o_code o_output]. rewrite Lx, Fn2. reflexivity.
        * rewrite older_iff in Dn |- *. intros y [Y|Y].
          -- apply uses_in in Y. cbn [o_output o_first o_second o_addend o_args out_uses] in Y. destruct Y as [[]|[Y|[[]|[[]|[]]]]]. assert (Z : y < n) by (apply Dn; left; apply Inx; exact Y). clear - Z. lia.
          -- cbn in Y. destruct Y as [<-|[]]. clear. lia.
      + intros s t HR.
        assert (Vx : value W s (Some x) = value W t (Some x)) by (apply value_agree; [exact (proj1 HR)|]; intros y Y; apply (proj2 HR); right; cbn [app flat_map]; rewrite !in_app_iff; auto).
        match goal with |- rel _ _ (run W [?a; ?b] s) _ => change (run W [a; b] s) with (exec W (exec W s a) b) end.
        apply (HX s t _ (Some (OVar n)) HR).
        * exact (proj1 HR).
        * intros y Y. cbn [exec result o_code o_first o_output store vars]. destruct (Nat.eqb_spec y n); [exfalso; clear - Y e; lia|reflexivity].
        * cbn [exec result o_code o_first o_output store vars]. cbn [value vars]. rewrite Nat.eqb_refl. exact Vx.
      + intros md P. cbn [forallb] in P. rewrite andb_true_r in *. apply andb_true_iff in P. destruct P as (P1 & P2).
        assert (Le : forall v, occ v [mk_op Move (Some x) None None (Some (OVar n)) [] true; mk_op code (o_first mul) (o_second mul) (Some (OVar n)) (o_output next) (o_args next) (o_float next)] <= occ1 v mul + occ1 v next + c1 v [n]).
        { intros v. rewrite !occ_cons, Ce, Cml, Cnx. change (occ v []) with 0. rewrite (occ1_eq v (mk_op Move _ _ _ _ _ _)). cbn [o_output o_first o_second o_addend o_args out_uses vars_of]. unfold c1 at 1. cbn [count_occ].
          change (c1 v []) with 0. clear. lia. }
        assert (Cn1 : forall v, c1 v [n] <= 1 /\ (v <> n -> c1 v [n] = 0)).
        { intros v. unfold c1. cbn. destruct (Nat.eq_dec n v); split; intros; try congruence; clear; lia. }
        split; [|split; [|split]].
        * cbn [forallb]. rewrite Px by exact P1. rewrite andb_true_r. unfold plain in *. destruct md; [reflexivity|]. rewrite !andb_true_iff in P2. destruct P2 as ((_ & P2) & P3).
          rewrite Ff, Hfl in Tx. unfold mov_two. cbn [o_code o_first o_second is_code is_var o_output andb].
          assert (Nx : negb (const_two (Some x)) = true) by (destruct first; destruct Hpos as (E1 & E2); rewrite E2 in *; assumption).
          rewrite Nx. destruct x; cbn in Tx; try discriminate; reflexivity.
        * intros v Hv. specialize (Le v). destruct (Cn1 v) as (_ & Q). rewrite Q in Le by (clear - Hv; lia). rewrite !occ_cons in *. change (occ v []) with 0 in *. clear - Le. lia.
        * intros v Hv. specialize (Le v). destruct (Zn v Hv) as (Z1 & Z2). destruct (Cn1 v) as (Q & _). clear - Le Z1 Z2 Q. lia.
        * intros v Hv. specialize (Le v). destruct (Zn v) as (Z1 & Z2); [clear - Hv; lia|]. destruct (Cn1 v) as (_ & Q). rewrite Q in Le by (clear - Hv; lia). clear - Le Z1 Z2. lia.
  Qed.

  Definition same_block (n : nat) (ops ops' : list op) : Prop :=
    flat_map uses ops' = flat_map uses ops /\ (forall t, run W ops' t = run W ops t) /\ forallb (good n) ops' = true /\
    (forall md, forallb (plain md) ops = true -> forallb (plain md) ops' = true) /\ length ops' = length ops.
  Lemma same_refl : forall n ops, forallb (good n) ops = true -> same_block n ops ops.
  Proof. intros n ops H. repeat split; auto. Qed.
  Lemma same_neg : forall n mul next rest, forallb (good n) (mul :: next :: rest) = true -> same_block n (mul :: next :: rest) (mul :: neg_imm next :: rest).
  Proof.
    intros n mul next rest H. cbn [forallb] in H. rewrite !andb_true_iff in H. destruct H as (G1 & G2 & G3).
    destruct (neg_imm_ok n next G2) as (A & B & C & D & E & F). split; [|split; [|split; [|split]]].
    - cbn [flat_map]. rewrite B. reflexivity.
    - intros t. cbn [run fold_left]. rewrite E. reflexivity.
    - cbn [forallb]. rewrite G1, A, G3. reflexivity.
    - intros md P. cbn [forallb] in *. rewrite !andb_true_iff in P. destruct P as (P1 & P2 & P3). rewrite P1, P3, (F md P2). reflexivity.
    - reflexivity.
  Qed.
  Lemma stepped_same : forall n n' O O' E rest, same_block n O O' -> stepped n n' O' E rest -> stepped n n' O E rest.
  Proof.
    intros n n' O O' E rest (U & R & _ & P & _) (A & B & C & D). split; [exact A|]. split; [exact B|]. split.
    - intros s t HR. rewrite <- R. apply C. destruct HR as (H1 & H2). split; [exact H1|]. intros x Hx. apply H2. rewrite flat_map_app in *. rewrite U in Hx. exact Hx.
    - intros md Hp. destruct (D md (P md Hp)) as (D1 & D2 & D3 & D4). split; [exact D1|]. split; [|split; assumption]. intros v Hv. specialize (D2 v Hv). unfold occ in *. rewrite U in D2. exact D2.
  Qed.
  Lemma older_uses : forall n ops, forallb (older n) ops = true -> forall y, In y (flat_map uses ops) -> y < n.
  Proof. intros n ops H y Y. apply in_flat_map in Y. destruct Y as (o & Ho & Y). rewrite forallb_forall in H. specialize (H o Ho). rewrite older_iff in H. auto. Qed.

  Lemma fma_case : forall n ops, n0 <= n -> forallb (good n) ops = true -> KO ops ->
    match fma rm n ops with
    | F_abort => False
    | F_yes E rest n' => exists O, ops = O ++ rest /\ O <> [] /\ stepped n n' O E rest
    | F_no ops' => same_block n ops ops'
    end.
  Proof.
    intros n ops Hn G HK. destruct ops as [|mul [|next0 rest]]; cbn [fma]; try (apply same_refl; exact G).
    match goal with |- context [if ?c then _ else _] => destruct c eqn:Eg end; [|apply same_refl; exact G].
    rewrite !andb_true_iff in Eg. destruct Eg as (((Cm & Vo) & An) & Rm). apply is_code_eq in Cm.
    pose proof (same_neg n mul next0 rest G) as SN.
    pose proof G as G'. cbn [forallb] in G'. rewrite !andb_true_iff in G'. destruct G' as (G1 & G2 & G3).
    destruct (neg_imm_ok n next0 G2) as (NA & NB & NC & ND & NE & NF). set (next := neg_imm next0) in *.
    destruct (rm_out_inv mul Rm) as (p & m & Ep & Em & Hm).
    pose proof G1 as G1'. apply good_inv in G1'. destruct G1' as (_ & Lm & _ & Fm).
    destruct (flagged_out mul p m Lm) as (-> & Cvm); [rewrite Cm; exact I|exact Ep|exact Em|].
    assert (Vf : is_var (o_first mul) && is_var (o_second mul) = true) by (unfold factors in Fm; rewrite Cm, Ep in Fm; exact Fm).
    pose proof NA as NA'. apply good_inv in NA'. destruct NA' as (_ & Ln & _). destruct (flagged_in next Ln) as (L1 & L2 & _).
    assert (HK' : KO (mul :: next :: rest)) by (intros v Hv; specialize (HK v Hv); unfold occ in *; destruct SN as (U & _); rewrite U; exact HK).
    assert (Hrest : forall y, In y (flat_map uses rest) -> y < n) by (apply older_uses; apply good_older; exact G3).
    assert (Core : forall x (first : bool) E n',
      (if first then o_first next = Some (OVar m) /\ o_second next = Some x else o_second next = Some (OVar m) /\ o_first next = Some x) ->
      (is_code (o_code next) Add = false -> first = true -> o_float mul = true) ->
      (let code := fcode (is_code (o_code next) Add) first (o_float mul) in
       (n' = n /\ E = [mk_op code (o_first mul) (o_second mul) (Some x) (o_output next) (o_args next) (o_float next)]) \/
       (o_float mul = true /\ n' = S n /\
        E = [mk_op Move (Some x) None None (Some (OVar n)) [] true;
             mk_op code (o_first mul) (o_second mul) (Some (OVar n)) (o_output next) (o_args next) (o_float next)])) ->
      exists O, mul :: next0 :: rest = O ++ rest /\ O <> [] /\ stepped n n' O E rest).
    { intros x first E n' H1 H2 H3. exists [mul; next0]. split; [reflexivity|]. split; [discriminate|].
      eapply stepped_same.
      - apply (same_neg n mul next0 []). cbn [forallb]. rewrite G1, G2. reflexivity.
      - fold next. eapply fma_core; try eassumption. rewrite ND. exact An. }
    rewrite Vf.
    assert (Pick : exists other (first : bool), (if operand_equal (o_first next) (o_output mul) then (o_second next, true)
                     else if operand_equal (o_second next) (o_output mul) then (o_first next, false) else (None, false)) = (other, first) /\
                   (forall x, other = Some x -> if first then o_first next = Some (OVar m) /\ o_second next = Some x else o_second next = Some (OVar m) /\ o_first next = Some x)).
    { destruct (operand_equal (o_first next) (o_output mul)) eqn:E1.
      - rewrite Ep in E1. destruct (equal_var _ _ _ E1 Em) as (r & Fr & Er). rewrite Fr in L1. pose proof (flagged_var r m L1 Er Cvm) as ->.
        eexists; eexists; split; [reflexivity|]. intros x Hx. split; assumption.
      - destruct (operand_equal (o_second next) (o_output mul)) eqn:E2.
        + rewrite Ep in E2. destruct (equal_var _ _ _ E2 Em) as (r & Fr & Er). rewrite Fr in L2. pose proof (flagged_var r m L2 Er Cvm) as ->.
          eexists; eexists; split; [reflexivity|]. intros x Hx. split; assumption.
        + eexists; eexists; split; [reflexivity|]. discriminate. }
    destruct Pick as (other & first & Pk & Hx). rewrite Pk. destruct other as [x|]; [|exact SN]. specialize (Hx x eq_refl).
    destruct (negb (is_code (o_code next) Add) && first && negb (o_float mul)) eqn:Eno; [exact SN|].
    assert (Hs : is_code (o_code next) Add = false -> first = true -> o_float mul = true).
    { intros A B. rewrite A, B in Eno. cbn in Eno. apply negb_false_iff. exact Eno. }
    fold (fcode (is_code (o_code next) Add) first (o_float mul)).
    destruct (is_var (Some x)).
    - apply (Core x first); [exact Hx|exact Hs|]. left. auto.
    - destruct (negb (o_float mul)) eqn:Ef; [exact SN|]. apply negb_false_iff in Ef.
      apply (Core x first); [exact Hx|exact Hs|]. right. auto.
  Qed.

  (** *** Doubling *)
  Lemma floats_ok : forall n o x rest, o_code o = Mul -> good n o = true ->
    ((const_two (o_first o) = true /\ o_second o = x) \/ (const_two (o_second o) = true /\ o_first o = x)) ->
    stepped n n [o] [mk_op Add x x (o_addend o) (o_output o) (o_args o) (o_float o)] rest.
  Proof.
    intros n o x rest C G Hx. apply good_inv in G. destruct G as (T & L & D & F).
    unfold typed in T. rewrite C in T. rewrite !andb_true_iff in T. destruct T as ((T1 & T2) & T3).
    assert (Two : forall z, const_two z = true -> operand_typed fl (o_float o) z = true -> o_float o = true /\ forall t, value W t z = two_bits).
    { intros z H Tz. destruct z as [[ |c v| | | | | | ]|]; try discriminate. cbn in H, Tz. apply andb_true_iff in Tz. split; [tauto|]. intros t. cbn. apply Z.eqb_eq. exact H. }
    assert (Ux : forall y, In y (vars_of x) -> In y (uses o)).
    { intros y Y. apply uses_in. destruct Hx as [(_ & E)|(_ & E)]; rewrite E; auto. }
    split; [apply le_n|]. split; [|split].
    - cbn [forallb]. rewrite andb_true_r. apply good_inv. repeat split.
      + unfold typed. cbn [o_code o_float o_first o_second]. destruct Hx as [(_ & E)|(_ & E)]; rewrite E in *; [rewrite T2|rewrite T1]; reflexivity.
      + unfold flagged in *. cbn [o_first o_second o_addend o_code o_output]. rewrite C in L. rewrite !andb_true_iff in *. destruct L as (((A & B) & Cc) & E0). destruct Hx as [(_ & E)|(_ & E)]; rewrite E in *; auto.
      + rewrite older_iff in *. intros y [Y|Y]; [|apply D; right; exact Y]. apply D. left. apply uses_in in Y. cbn [o_output o_first o_second o_addend o_args] in Y. destruct Y as [Y|[Y|[Y|[Y|Y]]]]; auto; apply uses_in; auto 6.
    - intros s t HR. cbn [run fold_left app].
      assert (Vu : forall y, In y (uses o) -> vars s y = vars t y) by (intros y Y; eapply rel_first; [exact HR|exact Y]).
      assert (Vx : value W s x = value W t x) by (apply value_agree; [exact (proj1 HR)|]; auto).
      eapply finish.
      + reflexivity.
      + unfold result. cbn [o_code o_float o_first o_second]. rewrite C. rewrite Vx, (proj1 HR). f_equal.
        destruct Hx as [(E & E')|(E & E')].
        * destruct (Two _ E T1) as (-> & V). rewrite V, E'. apply (fe_two1 W fe).
        * destruct (Two _ E T2) as (-> & V). rewrite V, E'. apply (fe_two2 W fe).
      + reflexivity.
      + intros y Y. apply Vu. apply uses_in. auto.
      + intros y Y. apply (proj2 HR). destruct Y as [Y|Y]; [auto|right]. cbn [app flat_map]. apply in_app_iff. auto.
    - intros md P. exfalso. cbn [forallb] in P. rewrite andb_true_r in P. unfold plain in P. destruct md; [rewrite C in P; discriminate|].
      rewrite !andb_true_iff, !negb_true_iff in P. destruct P as ((_ & P2) & P3). destruct Hx as [(E & _)|(E & _)]; congruence.
  Qed.

  Lemma mov_two_ok : forall n a m x c rest, o_code a = Move -> o_first a = Some (OImm 2) -> o_output a = Some (OVar c) -> cv c = false ->
    o_code m = Mul -> good n a = true -> good n m = true -> KO (a :: m :: rest) ->
    ((o_first m = Some (OVar c) /\ o_second m = Some x) \/ (o_second m = Some (OVar c) /\ o_first m = Some x)) ->
    stepped n n [a; m] ((if rm_out rm a then [] else [a]) ++ [mk_op Add (Some x) (Some x) (o_addend m) (o_output m) (o_args m) (o_float m)]) rest.
  Proof.
    intros n a m x c rest Ca Fa Oa Cvc Cm Ga Gm HK Hx.
    apply good_inv in Gm. destruct Gm as (T & L & D & F).
    assert (Fc : fl c = false).
    { apply good_inv in Ga. destruct Ga as (Ta & _). unfold typed in Ta. rewrite Ca, Oa, Fa in Ta. cbn in Ta. apply negb_true_iff. exact Ta. }
    unfold typed in T. rewrite Cm in T. rewrite !andb_true_iff in T. destruct T as ((T1 & T2) & T3).
    assert (Ff : o_float m = false /\ operand_typed fl (o_float m) (Some x) = true).
    { destruct Hx as [(E1 & E2)|(E1 & E2)]; rewrite E1, E2 in *; cbn [operand_typed] in *; [apply Bool.eqb_prop in T1|apply Bool.eqb_prop in T2]; (split; [congruence|assumption]). }
    destruct Ff as (Ff & Tx).
    set (e := mk_op Add (Some x) (Some x) (o_addend m) (o_output m) (o_args m) (o_float m)).
    assert (Ux : forall y, In y (vars_of (Some x)) -> In y (uses m)).
    { intros y Y. apply uses_in. destruct Hx as [(_ & E)|(_ & E)]; rewrite E; auto. }
    assert (Uc : In c (uses m)).
    { apply uses_in. destruct Hx as [(E & _)|(E & _)]; rewrite E; cbn; auto. }
    assert (Ge : good n e = true).
    { apply good_inv. repeat split.
      - unfold typed, e. cbn [o_code o_float o_first o_second]. rewrite Tx. reflexivity.
      - unfold flagged, e in *. cbn [o_first o_second o_addend o_code o_output]. rewrite Cm in L. rewrite !andb_true_iff in *. destruct L as (((A & B) & Cc) & E0). destruct Hx as [(_ & E)|(_ & E)]; rewrite E in *; auto.
      - rewrite older_iff in *. intros y [Y|Y]; [|apply D; right; exact Y]. apply D. left. apply uses_in in Y. unfold e in Y. cbn [o_output o_first o_second o_addend o_args] in Y. destruct Y as [Y|[Y|[Y|[Y|Y]]]]; auto; apply uses_in; auto 6. }
    split; [apply le_n|]. split; [|split].
    - rewrite forallb_app. cbn [forallb]. rewrite Ge. destruct (rm_out rm a); cbn [forallb]; [reflexivity|]. rewrite Ga. reflexivity.
    - assert (XA : forall s, exec W s a = mk_state (fun y => if Nat.eqb y c then word 2 else vars s y) (mach s)) by (intros s; unfold exec, result; rewrite Ca, Fa, Oa; reflexivity).
      assert (RM : forall s t1, mach s = mach t1 -> vars t1 c = word 2 -> value W s (Some x) = value W t1 (Some x) -> result W s e = result W t1 m).
      { intros s t1 Hm0 Hc Hvx. unfold result, e. cbn [o_code o_float o_first o_second]. rewrite Cm, Ff, Hvx, Hm0. f_equal.
        destruct Hx as [(E1 & E2)|(E1 & E2)]; rewrite E1, E2; cbn [value]; rewrite Hc.
        - rewrite word_mull. f_equal. clear. lia.
        - rewrite word_mulr. f_equal. clear. lia. }
      intros s t HR. destruct (rm_out rm a) eqn:Rm; cbn [run fold_left app].
      + (* the MOVE goes *)
        destruct (rm_out_inv a Rm) as (p & c' & Ep & Em & Hm). rewrite Oa in Ep. injection Ep as <-. cbn in Em. injection Em as <-.
        assert (Kc : occ1 c m = 1 /\ occ c rest = 0 /\ c1 c (vars_of (Some x)) = 0 /\ c1 c (out_uses (o_output m)) = 0).
        { specialize (HK c Hm). rewrite !occ_cons, !occ1_eq in *. destruct Hx as [(E1 & E2)|(E1 & E2)]; rewrite E1, E2 in *; cbn [vars_of] in *; rewrite c1_self in *; clear - HK; lia. }
        destruct Kc as (Kc1 & Kc2 & Kc3 & Kc4). rewrite XA. set (t1 := mk_state _ (mach t)).
        assert (Vu : forall y, y <> c -> In y (uses m) -> vars s y = vars t1 y).
        { intros y N Y. unfold t1. cbn [vars]. destruct (Nat.eqb_spec y c); [congruence|]. apply (proj2 HR). right. cbn [app flat_map]. rewrite !in_app_iff. auto. }
        destruct (result W t1 m) as [v k] eqn:Er. apply (finish rest s t1 e m v k).
        * rewrite <- Er. apply RM; [exact (proj1 HR)|unfold t1; cbn [vars]; rewrite Nat.eqb_refl; reflexivity|].
          apply value_agree; [exact (proj1 HR)|]. intros y Y. apply Vu; [|apply Ux; exact Y]. intros ->. apply c1_zero in Kc3. contradiction.
        * exact Er.
        * reflexivity.
        * intros y Y. apply Vu; [|apply uses_in; auto]. intros ->. apply c1_zero in Kc4. contradiction.
        * intros y Y. unfold t1. cbn [vars]. destruct (Nat.eqb_spec y c) as [->|N].
          -- exfalso. destruct Y as [Y|Y]; [exact (Hlive c Hm Y)|exact (occ_zero c rest Kc2 Y)].
          -- apply (proj2 HR). destruct Y as [Y|Y]; [auto|right]. cbn [app flat_map]. rewrite !in_app_iff. auto.
      + (* the MOVE stays *)
        cbn [app] in HR. pose proof (rel_step W live a (m :: rest) s t HR) as HR1.
        destruct (result W (exec W t a) m) as [v k] eqn:Er. apply (finish rest (exec W s a) (exec W t a) e m v k).
        * rewrite <- Er. apply RM; [exact (proj1 HR1)|rewrite XA; cbn [vars]; rewrite Nat.eqb_refl; reflexivity|].
          apply value_agree; [exact (proj1 HR1)|]. intros y Y. eapply rel_first; [exact HR1|apply Ux; exact Y].
        * exact Er.
        * reflexivity.
        * intros y Y. eapply rel_first; [exact HR1|apply uses_in; auto].
        * intros y Y. apply (proj2 HR1). destruct Y as [Y|Y]; [auto|right]. cbn [flat_map]. apply in_app_iff. auto.
    - intros md P. exfalso. cbn [forallb] in P. rewrite andb_true_r in P. apply andb_true_iff in P. destruct P as (P1 & P2). unfold plain in *. destruct md; [rewrite Cm in P2; discriminate|].
      unfold mov_two in P1. rewrite Ca, Fa, Oa in P1. discriminate.
  Qed.

  Lemma strength_ok : forall n ops E rest, strength rm ops = Some (E, rest) -> forallb (good n) ops = true -> KO ops ->
    exists O, ops = O ++ rest /\ O <> [] /\ stepped n n O E rest.
  Proof.
    intros n ops E rest H G HK. destruct ops as [|o ops]; [discriminate|]. cbn [strength] in H. cbn [forallb] in G. apply andb_true_iff in G. destruct G as (Go & G).
    match type of H with context [if mov_two o then _ else ?f] => set (fls := f) in H end.
    assert (Fl : fls = Some (E, rest) -> exists O, o :: ops = O ++ rest /\ O <> [] /\ stepped n n O E rest).
    { unfold fls. destruct (is_code (o_code o) Mul) eqn:Cm; [|discriminate]. apply is_code_eq in Cm. intros Hf. exists [o].
      destruct (const_two (o_first o)) eqn:E1; [|destruct (const_two (o_second o)) eqn:E2; [|discriminate]]; injection Hf as <- <-; (split; [reflexivity|]); (split; [discriminate|]); apply floats_ok; auto. }
    destruct (mov_two o) eqn:Em; [|apply Fl; exact H].
    destruct ops as [|m rest']; [discriminate|]. destruct (is_code (o_code m) Mul) eqn:Cm; [|discriminate]. apply is_code_eq in Cm.
    unfold mov_two in Em. rewrite !andb_true_iff in Em. destruct Em as ((Ca & Fa) & Va). apply is_code_eq in Ca.
    destruct (o_first o) as [[ | | |z| | | | ]|] eqn:Fo; try discriminate. apply Z.eqb_eq in Fa. subst z.
    destruct (is_var_of _ Va) as (p & c & Ep & Ec).
    pose proof Go as Go'. apply good_inv in Go'. destruct Go' as (_ & Lo & _).
    destruct (flagged_out o p c Lo) as (-> & Cvc); [rewrite Ca; exact I|exact Ep|exact Ec|].
    cbn [forallb] in G. apply andb_true_iff in G. destruct G as (Gm & G).
    pose proof Gm as Gm'. apply good_inv in Gm'. destruct Gm' as (_ & Lm & _). destruct (flagged_in m Lm) as (L1 & L2 & _).
    match type of H with match ?w with _ => _ end = _ => destruct w as [x|] eqn:Eo end; [|apply Fl; exact H]. injection H as <- <-.
    exists [o; m]. split; [reflexivity|]. split; [discriminate|]. eapply mov_two_ok; try eassumption.
    destruct (operand_equal (o_first m) (o_output o)) eqn:E1.
    - rewrite Ep in E1. destruct (equal_var _ _ _ E1 Ec) as (r & Fr & Er). rewrite Fr in L1. pose proof (flagged_var r c L1 Er Cvc) as ->. left. auto.
    - destruct (operand_equal (o_second m) (o_output o)) eqn:E2; [|discriminate]. rewrite Ep in E2. destruct (equal_var _ _ _ E2 Ec) as (r & Fr & Er). rewrite Fr in L2. pose proof (flagged_var r c L2 Er Cvc) as ->. right. auto.
  Qed.

  (** ** Rounds *)
  Definition rounded (n n' : nat) (ops l : list op) : Prop :=
    n <= n' /\ forallb (good n') l = true /\
    (forall s t, rel live ops s t -> rel live [] (run W l s) (run W ops t)) /\
    (forall md, forallb (plain md) ops = true ->
       forallb (plain md) l = true /\ (forall v, v < n -> occ v l <= occ v ops) /\ (forall v, n <= v -> occ v l <= 1) /\ (forall v, n' <= v -> occ v l = 0)).

  Lemma compose : forall n n1 n2 O E rest l, forallb (good n) rest = true -> stepped n n1 O E rest -> rounded n1 n2 rest l -> rounded n n2 (O ++ rest) (E ++ l).
  Proof.
    intros n n1 n2 O E rest l G (A1 & A2 & A3 & A4) (B1 & B2 & B3 & B4). split; [clear - A1 B1; lia|]. split; [|split].
    - rewrite forallb_app, B2, andb_true_r. rewrite forallb_forall in *. intros o Ho. eapply good_le; [apply A2; exact Ho|exact B1].
    - intros s t HR. rewrite !run_app. apply B3. apply A3. exact HR.
    - intros md P. rewrite forallb_app in P. apply andb_true_iff in P. destruct P as (P1 & P2).
      destruct (A4 md P1) as (C1 & C2 & C3 & C4). destruct (B4 md P2) as (D1 & D2 & D3 & D4).
      assert (Z : forall v, n <= v -> occ v rest = 0) by (intros v Hv; apply (older_occ n); [apply good_older; exact G|exact Hv]).
      split; [rewrite forallb_app, C1, D1; reflexivity|]. split; [|split]; intros v Hv; rewrite ?occ_app.
      + specialize (C2 v Hv). specialize (D2 v). clear - C2 D2 Hv A1. lia.
      + specialize (Z v Hv). destruct (Nat.lt_ge_cases v n1) as [Hl|Hg].
        * specialize (C3 v Hv). specialize (D2 v Hl). clear - C3 D2 Z. lia.
        * specialize (C4 v Hg). specialize (D3 v Hg). clear - C4 D3. lia.
      + assert (H1 : n1 <= v) by (clear - Hv B1; lia). specialize (C4 v H1). specialize (D4 v Hv). clear - C4 D4. lia.
  Qed.
  Lemma step_one : forall n o rest, good n o = true -> stepped n n [o] [o] rest.
  Proof.
    intros n o rest G. split; [apply le_n|]. split; [cbn [forallb]; rewrite G; reflexivity|]. split; [intros s t HR; cbn [run fold_left]; apply rel_step; exact HR|].
    intros md P. split; [exact P|]. assert (Z : forall v, n <= v -> occ v [o] = 0) by (intros v Hv; apply (older_occ n); [apply good_older; cbn [forallb]; rewrite G; reflexivity|exact Hv]).
    split; [reflexivity|]. split; intros v Hv; rewrite (Z v Hv); [clear; lia|reflexivity].
  Qed.
  Lemma rounded_same : forall n n' ops ops' l, same_block n ops ops' -> rounded n n' ops' l -> rounded n n' ops l.
  Proof.
    intros n n' ops ops' l (U & R & _ & P & _) (A & B & C & D). split; [exact A|]. split; [exact B|]. split.
    - intros s t HR. rewrite <- R. apply C. destruct HR as (H1 & H2). split; [exact H1|]. intros x Hx. apply H2. rewrite U in Hx. exact Hx.
    - intros md Hp. destruct (D md (P md Hp)) as (D1 & D2 & D3 & D4). split; [exact D1|]. split; [|split; assumption]. intros v Hv. specialize (D2 v Hv). unfold occ in *. rewrite U in D2. exact D2.
  Qed.

  Lemma arm64_round_ok : forall fuel n ops, length ops <= fuel -> n0 <= n -> forallb (good n) ops = true -> KO ops ->
    exists l c n', arm64_round rm fuel n ops = Ok (l, c, n') /\ rounded n n' ops l.
  Proof.
    assert (Nil : forall n, rounded n n [] []).
    { intros n. split; [apply le_n|]. split; [reflexivity|]. split; [intros s t HR; exact HR|]. intros md _. split; [reflexivity|]. split; [reflexivity|]. split; intros; [clear; cbn; lia|reflexivity]. }
    induction fuel as [|fuel IH]; intros n ops Hf Hn G HK.
    - destruct ops; [|cbn in Hf; exfalso; clear - Hf; lia]. exists [], false, n. split; [reflexivity|apply Nil].
    - cbn [arm64_round]. pose proof (fma_case n ops Hn G HK) as FC.
      assert (Go : forall n1 O E rest, ops = O ++ rest \/ (exists ops', same_block n ops ops' /\ ops' = O ++ rest) -> O <> [] -> stepped n n1 O E rest ->
        exists l c n2, arm64_round rm fuel n1 rest = Ok (l, c, n2) /\ rounded n n2 ops (E ++ l)).
      { intros n1 O E rest Hs HO St.
        assert (S' : exists ops', same_block n ops ops' /\ ops' = O ++ rest) by (destruct Hs as [Hs|Hs]; [exists ops; split; [apply same_refl; exact G|exact Hs]|exact Hs]).
        destruct S' as (ops' & Sb & ->). pose proof Sb as (U & _ & G' & _ & Len).
        rewrite forallb_app in G'. apply andb_true_iff in G'. destruct G' as (_ & G').
        destruct (IH n1 rest) as (l & c & n2 & E2 & R2).
        - rewrite app_length in Len. destruct O; [contradiction|]. cbn in Len. clear - Len Hf. lia.
        - destruct St as (A & _). clear - A Hn. lia.
        - destruct St as (A & _). rewrite forallb_forall in *. intros o Ho. eapply good_le; [apply G'; exact Ho|exact A].
        - intros v Hv. specialize (HK v Hv). unfold occ in *. rewrite <- U, flat_map_app, count_occ_app in HK. clear - HK. lia.
        - exists l, c, n2. split; [exact E2|]. eapply rounded_same; [exact Sb|]. eapply compose; eassumption. }
      destruct (fma rm n ops) as [ops'|E rest n1|].
      + (* not fused *)
        assert (HK' : KO ops') by (intros v Hv; specialize (HK v Hv); unfold occ in *; destruct FC as (U & _); rewrite U; exact HK).
        pose proof FC as (_ & _ & G' & _ & _).
        destruct (strength rm ops') as [[E rest]|] eqn:Es.
        * destruct (strength_ok n ops' E rest Es G' HK') as (O & EO & HO & St).
          destruct (Go n O E rest) as (l & c & n2 & E2 & R2); [right; exists ops'; auto|exact HO|exact St|].
          rewrite E2. cbn [bind]. eexists; eexists; eexists. split; [reflexivity|exact R2].
        * destruct ops' as [|a rest].
          -- exists [], false, n. split; [reflexivity|]. eapply rounded_same; [exact FC|apply Nil].
          -- cbn [forallb] in G'. apply andb_true_iff in G'. destruct G' as (Ga & Gr).
             assert (Skip : exists l c n2, (r <- arm64_round rm fuel n rest ;; let '(l, c, f) := r in Ok (a :: l, c, f)) = Ok (l, c, n2) /\ rounded n n2 ops l).
             { destruct (Go n [a] [a] rest) as (l & c & n2 & E2 & R2); [right; exists (a :: rest); auto|discriminate|apply step_one; exact Ga|].
               rewrite E2. cbn [bind]. eexists; eexists; eexists. split; [reflexivity|exact R2]. }
             destruct rest as [|b rest']; [exact Skip|].
             destruct (move_elimination rm a b) as [e|] eqn:Em; [|exact Skip].
             cbn [forallb] in Gr. apply andb_true_iff in Gr. destruct Gr as (Gb & Gr).
             assert (St : stepped n n [a; b] [e] rest').
             { unfold move_elimination in Em. destruct (match1 rm a b) as [e1|] eqn:E1.
               - injection Em as <-. eapply match1_ok; eassumption.
               - eapply match2_ok; eassumption. }
             destruct (Go n [a; b] [e] rest') as (l & c & n2 & E2 & R2); [right; exists (a :: b :: rest'); auto|discriminate|exact St|].
             rewrite E2. cbn [bind]. eexists; eexists; eexists. split; [reflexivity|exact R2].
      + destruct FC as (O & EO & HO & St). destruct (Go n1 O E rest) as (l & c & n2 & E2 & R2); [left; exact EO|exact HO|exact St|].
        rewrite E2. cbn [bind]. eexists; eexists; eexists. split; [reflexivity|exact R2].
      + contradiction.
  Qed.

  Lemma arm64_rounds_ok : forall k n ops md, n0 <= n -> forallb (good n) ops = true -> KO ops -> forallb (plain md) ops = true ->
    exists l, arm64_rounds rm k n ops = Ok l /\ forall s, rel live [] (run W l s) (run W ops s).
  Proof.
    induction k as [|k IH]; intros n ops md Hn G HK P; cbn [arm64_rounds].
    - exists ops. split; [reflexivity|]. intros s. apply rel_refl.
    - destruct (arm64_round_ok (length ops) n ops (le_n _) Hn G HK) as (l & c & n' & E & (A & B & C & D)). rewrite E. cbn [bind].
      destruct (D md P) as (D1 & D2 & D3 & D4). destruct c.
      + destruct (IH n' l md) as (l2 & E2 & R2); [clear - A Hn; lia|exact B| |exact D1|].
        * intros v Hv. destruct (Nat.lt_ge_cases v n) as [Hl|Hg]; [specialize (D2 v Hl); specialize (HK v Hv); clear - D2 HK; lia|apply D3; exact Hg].
        * exists l2. split; [exact E2|]. intros s. eapply rel_nil_trans; [apply R2|apply C, rel_refl].
      + exists l. split; [reflexivity|]. intros s. apply C, rel_refl.
  Qed.
End arm.

(** ** Temporaries get a type *)
Lemma typed_ext : forall n fl fl' o, older n o = true -> (forall x, x < n -> fl x = fl' x) -> typed fl o = typed fl' o.
Proof.
  intros n fl fl' o H E. rewrite older_iff in H.
  assert (T : forall f p, (forall x, In x (vars_of p) -> x < n) -> operand_typed fl f p = operand_typed fl' f p).
  { intros f [[x|x v|r|z|v|b i sc off|k|k]|] Hp; cbn [operand_typed]; try reflexivity; rewrite (E x); try reflexivity; apply Hp; left; reflexivity. }
  assert (T1 : forall f, operand_typed fl f (o_first o) = operand_typed fl' f (o_first o)) by (intros f; apply T; intros x Hx; apply H; left; apply uses_in; auto).
  assert (T2 : forall f, operand_typed fl f (o_second o) = operand_typed fl' f (o_second o)) by (intros f; apply T; intros x Hx; apply H; left; apply uses_in; auto).
  assert (O1 : forall x, In x (outs o) -> fl x = fl' x) by (intros x Hx; apply E, H; auto). unfold outs in O1.
  assert (F1 : forall x v, o_first o = Some (OConst x v) -> fl x = fl' x) by (intros x v Ef; apply E, H; left; apply uses_in; rewrite Ef; cbn; auto).
  unfold typed. rewrite ?T1, ?T2. destruct (o_code o); try reflexivity.
  - destruct (o_output o) as [[x|x v|r|z|v|b i sc off|k|k]|]; try (rewrite (O1 x (or_introl eq_refl)); apply T1);
      destruct (o_first o) as [[x|x w|r'|z'|w|b' i' sc' off'|k'|k']|]; try reflexivity; eapply F1; reflexivity.
  - f_equal. destruct (o_output o) as [[x|x v|r|z|v|b i sc off|k|k]|]; try reflexivity; rewrite (O1 x (or_introl eq_refl)); reflexivity.
Qed.
Lemma flagged_ext : forall n cv cv' o, older n o = true -> (forall x, x < n -> cv x = cv' x) -> flagged cv o = flagged cv' o.
Proof.
  intros n cv cv' o H E. rewrite older_iff in H.
  assert (T : forall p, (forall x, In x (vars_of p) -> x < n) -> operand_flagged cv p = operand_flagged cv' p).
  { intros [[x|x v|r|z|v|b i sc off|k|k]|] Hp; cbn [operand_flagged]; try reflexivity; rewrite (E x); try reflexivity; apply Hp; left; reflexivity. }
  assert (O1 : forall x, In x (outs o) -> cv x = cv' x) by (intros x Hx; apply E, H; auto). unfold outs in O1.
  unfold flagged. rewrite (T (o_first o)), (T (o_second o)), (T (o_addend o)); try (intros x Hx; apply H; left; apply uses_in; auto).
  f_equal. destruct (o_code o); try reflexivity; destruct (o_output o) as [[x|x v|r|z|v|b i sc off|k1|k1]|]; try reflexivity; rewrite (O1 x (or_introl eq_refl)); reflexivity.
Qed.

Lemma ok_good : forall fl cv n ops, ok_block fl cv n ops ->
  forallb (good (fun x => if Nat.ltb x n then fl x else true) (fun x => if Nat.ltb x n then cv x else false) n) ops = true.
Proof.
  intros fl cv n ops (A & B & C & D). rewrite forallb_forall in *. intros o Ho. apply good_inv. specialize (A o Ho). specialize (B o Ho). specialize (C o Ho). specialize (D o Ho).
  split; [|split; [|auto]].
  - rewrite <- A. symmetry. apply (typed_ext n); [exact D|]. intros x Hx. apply Nat.ltb_lt in Hx. rewrite Hx. reflexivity.
  - rewrite <- B. symmetry. apply (flagged_ext n); [exact D|]. intros x Hx. apply Nat.ltb_lt in Hx. rewrite Hx. reflexivity.
Qed.
Lemma ext_fresh : forall (fl cv : nat -> bool) n x, n <= x -> (if Nat.ltb x n then fl x else true) = true /\ (if Nat.ltb x n then cv x else false) = false.
Proof. intros fl cv n x Hx. apply Nat.ltb_ge in Hx. rewrite Hx. auto. Qed.

Lemma arm64_one_round : forall {M} (W : world M) fl cv live n ops, fused_exact W -> ok_block fl cv n ops -> (forall x, In x live -> x < n) ->
  exists l c n', arm64_round (can_remove live (fun x => occ x ops)) (length ops) n ops = Ok (l, c, n') /\
    forall s, looks_same live (run W l s) (run W ops s).
Proof.
  intros M W fl cv live n ops fe Ok0 Hl. pose proof (ok_good fl cv n ops Ok0) as G.
  destruct (arm64_round_ok W fe _ _ (can_remove live (fun x => occ x ops)) live (can_remove_live _ _) n (ext_fresh fl cv n) Hl (length ops) n ops (le_n _) (le_n _) G) as (l & c & n' & E & (_ & _ & R & _)).
  - intros v Hv. exact (can_remove_count _ _ _ Hv).
  - exists l, c, n'. split; [exact E|]. intros s. destruct (R s s (rel_refl live ops s)) as (A & B). split; [exact A|]. intros x Hx. apply B. auto.
Qed.
Lemma arm64_ok : forall {M} (W : world M) fl cv live n ops, fused_exact W -> ok_block fl cv n ops -> (forall x, In x live -> x < n) -> no_double ops = true ->
  exists l, arm64_block live n ops = Ok l /\ forall s, looks_same live (run W l s) (run W ops s).
Proof.
  intros M W fl cv live n ops fe Ok0 Hl Nd. pose proof (ok_good fl cv n ops Ok0) as G.
  assert (P : exists md, forallb (plain md) ops = true) by (unfold no_double in Nd; apply orb_true_iff in Nd; destruct Nd as [Nd|Nd]; [exists true|exists false]; exact Nd).
  destruct P as (md & P). unfold arm64_block.
  destruct (arm64_rounds_ok W fe _ _ (can_remove live (fun x => occ x ops)) live (can_remove_live _ _) n (ext_fresh fl cv n) Hl 5 n ops md (le_n _) G) as (l & E & R).
  - intros v Hv. exact (can_remove_count _ _ _ Hv).
  - exact P.
  - exists l. split; [exact E|]. intros s. destruct (R s) as (A & B). split; [exact A|]. intros x Hx. apply B. auto.
Qed.
