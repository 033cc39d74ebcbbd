(** The loops that split edges, and the check that every way returns. *)
From Verif Require Import Base Base_lemmas Cfg_model Cfg_spec Cfg_sim_proof Cfg_build_proof Cfg_graph_proof Cfg_merge_proof Cfg_split_proof.

Definition fits (bs : list bb) (next : nat) : Prop := forall x, In x (map bname bs) -> (x < next)%nat.
Definition crit (bs : list bb) (x y : nat) : Prop := In x (preds_of bs y) /\ (1 < length (succs_of bs x))%nat /\ (1 < length (preds_of bs y))%nat.
Notation plen := (fun x : bb => length (bpreds x)).

Lemma preds_known bs y x : good bs -> In x (preds_of bs y) -> exists bx by_, In bx bs /\ bname bx = x /\ In by_ bs /\ bname by_ = y /\ In y (bsuccs bx).
Proof.
  intros [[ND G] _] H. unfold preds_of in H. destruct (find_bb bs y) as [z|] eqn:E; [|destruct H]. apply find_some_in in E. destruct E as [Z1 Z2]. apply (G z Z1) in H. destruct H as [q [Q1 [Q2 Q3]]].
  exists q, z. rewrite Z2 in Q3. auto.
Qed.

Lemma edge_crit bs pb tb n x y : good bs -> In pb bs -> In tb bs -> fits bs n -> In (bname tb) (bsuccs pb) -> (1 < length (bsuccs pb))%nat -> crit (bs' bs pb tb n) x y -> crit bs x y /\ ~ (x = bname pb /\ y = bname tb).
Proof.
  intros G Hp Hb Hn He Hl [C1 [C2 C3]]. pose proof (nodup' bs pb tb n G Hn Hl) as N'. pose proof G as [[ND Gc] _].
  unfold preds_of in C1, C3. destruct (find_bb (bs' bs pb tb n) y) as [yb|] eqn:Ey; [|destruct C1]. apply find_some_in in Ey. destruct Ey as [Y1 Y2]. apply in_bs' in Y1. destruct Y1 as [->|[ty [Hy ->]]].
  - cbn [fresh bpreds length] in C3. lia.
  - apply (in_preds' bs pb tb n G Hb) in C1; [|exact Hy]. cbn [g bname] in Y2. subst y.
    assert (Fx : forall xb, In xb bs -> bname xb = x -> succs_of (bs' bs pb tb n) x = bsuccs (g pb tb n xb)) by (intros xb H1 <-; apply (lists' bs pb tb n G Hn Hl xb H1)).
    destruct C1 as [[C1 K]|[-> ->]].
    + split; [|intros [-> E]; apply K; split; [apply (name_inj bs); assumption|reflexivity]]. pose proof C1 as C1'. apply (Gc ty Hy) in C1'. destruct C1' as [xb [X1 [X2 X3]]].
      unfold crit. rewrite (preds_in bs ty ND Hy). split; [exact C1|]. rewrite (Fx xb X1 X2) in C2. rewrite <- X2, (succs_in bs xb ND X1). rewrite (len_succs' bs pb tb n G Hp Hn He Hl xb X1) in C2. split; [exact C2|].
      rewrite (len_preds' bs pb tb n G Hp Hb Hn He Hl ty Hy) in C3. exact C3.
    + exfalso. assert (E : succs_of (bs' bs pb tb n) n = [bname tb]).
      { change n with (bname (fresh pb tb n)) at 2. rewrite succs_in; [reflexivity|exact N'|]. apply in_bs'. left. reflexivity. }
      rewrite E in C2. cbn [length] in C2. lia.
Qed.

Lemma fits_split bs pb tb n : fits bs n -> fits (bs' bs pb tb n) (S n).
Proof. intros H x Hx. rewrite names' in Hx. apply in_app_or in Hx. destruct Hx as [Hx|[<-|[]]]; [apply H in Hx; lia|lia]. Qed.

Lemma preds_in_name bs b : In b (map bname bs) -> NoDup (map bname bs) -> exists tb, In tb bs /\ bname tb = b /\ preds_of bs b = bpreds tb.
Proof. intros H ND. apply in_map_iff in H. destruct H as [tb [<- H]]. exists tb. split; [exact H|]. split; [reflexivity|]. apply preds_in; assumption. Qed.

Lemma split_preds_ok fe b : forall fuel i bs next, good bs -> all_reachable bs -> fits bs next -> In b (map bname bs) -> (length (preds_of bs b) <= fuel + i)%nat ->
  exists bs1 next1 k, split_preds fuel i b bs next = Ok (bs1, next1) /\ keeps fe bs bs1 /\ fits bs1 next1 /\ map plen bs1 = map plen bs ++ repeat 1%nat k /\ (k <= fuel)%nat /\
    ((length (preds_of bs b) <= 1)%nat -> k = O) /\ (exists l, map bname bs1 = map bname bs ++ l) /\ (forall x y, crit bs1 x y -> crit bs x y) /\
    ((forall j p, (j < i)%nat -> nth_error (preds_of bs b) j = Some p -> ~ crit bs p b) -> (forall x y, crit bs x b -> crit bs y b -> x = y) -> forall x, ~ crit bs1 x b).
Proof.
  induction fuel as [|fuel IH]; intros i bs next G A F Hb L; cbn [split_preds]; destruct (nth_error (preds_of bs b) i) as [p|] eqn:E.
  1: exfalso; assert (K : (i < length (preds_of bs b))%nat) by (apply nth_error_Some; congruence); lia.
  1, 3: exists bs, next, O; split; [reflexivity|]; split; [apply keeps_refl; assumption|]; split; [exact F|]; split; [cbn [repeat]; rewrite app_nil_r; reflexivity|]; split; [lia|]; split; [reflexivity|]; split; [exists []; rewrite app_nil_r; reflexivity|]; split; [auto|].
  1, 2: intros Hj _ x Cx; pose proof Cx as [C1 _]; apply In_nth_error in C1; destruct C1 as [j Ej]; apply (Hj j x); [|exact Ej|exact Cx]; apply nth_error_None in E; assert (K : (j < length (preds_of bs b))%nat) by (apply nth_error_Some; congruence); lia.
  pose proof G as [[ND Gc] _].
  assert (Hi : (i < length (preds_of bs b))%nat) by (apply nth_error_Some; congruence).
  destruct ((1 <? zlen (preds_of bs b)) && (1 <? zlen (succs_of bs p))) eqn:Cc.
  - apply andb_true_iff in Cc. destruct Cc as [Cc1 Cc2]. unfold zlen in Cc1, Cc2. apply Z.ltb_lt in Cc1, Cc2.
    destruct (preds_in_name bs b Hb ND) as [tb [T1 [T2 T3]]]. pose proof (nth_error_In _ _ E) as Hpp. rewrite T3 in Hpp. apply (Gc tb T1) in Hpp. destruct Hpp as [pb [P1 [P2 P3]]].
    assert (Sp : succs_of bs p = bsuccs pb) by (rewrite <- P2; apply succs_in; assumption). rewrite Sp in Cc2. assert (Hl : (1 < length (bsuccs pb))%nat) by lia.
    assert (Es : split_edge bs p b next = Ok (bs' bs pb tb next)) by (rewrite <- P2, <- T2; apply split_edge_ok; assumption). rewrite Es. cbn [bind]. set (bs1 := bs' bs pb tb next) in *.
    assert (K1 : keeps fe bs bs1) by (apply edge_keeps; assumption).
    assert (Lp : length (preds_of bs1 b) = length (preds_of bs b)).
    { unfold bs1. rewrite <- T2 at 1. rewrite (proj1 (lists' bs pb tb next G F Hl tb T1)), (len_preds' bs pb tb next G P1 T1 F P3 Hl tb T1), T3. reflexivity. }
    destruct (IH (S i) bs1 (S next)) as [bs2 [next2 [k [E2 [K2 [F2 [M2 [Lk [Z2 [[l N2] [S2 X2]]]]]]]]]]].
    + apply K1.
    + apply K1.
    + apply fits_split. exact F.
    + unfold bs1. rewrite names'. apply in_or_app. left. exact Hb.
    + rewrite Lp. lia.
    + exists bs2, next2, (S k). split; [exact E2|]. split; [eapply keeps_trans; eassumption|]. split; [exact F2|].
      split; [rewrite M2; unfold bs1; rewrite (edge_counts bs pb tb next G P1 T1 F P3 Hl), <- app_assoc; reflexivity|]. split; [lia|]. split; [intros Hle; lia|].
      split; [exists (next :: l); rewrite N2; unfold bs1; rewrite names', <- app_assoc; reflexivity|]. split.
      * intros x y Cx. apply (edge_crit bs pb tb next x y G P1 T1 F P3 Hl). apply S2. exact Cx.
      * intros Hj Hu. assert (Z : forall x, ~ crit bs1 x b).
        { intros x Cx. rewrite <- T2 in Cx. destruct (edge_crit bs pb tb next x (bname tb) G P1 T1 F P3 Hl Cx) as [C1 C2]. apply C2. split; [|reflexivity]. rewrite T2 in C1. apply (Hu x (bname pb) C1).
          split; [rewrite P2; apply (nth_error_In _ _ E)|]. rewrite P2, Sp. split; [exact Hl|lia]. }
        apply X2; [intros j q _ _; apply Z|]. intros x y Cx. exfalso. apply (Z x Cx).
  - destruct (IH (S i) bs next G A F Hb) as [bs2 [next2 [k [E2 [K2 [F2 [M2 [Lk [Z2 [N2 [S2 X2]]]]]]]]]]]; [lia|].
    exists bs2, next2, k. split; [exact E2|]. split; [exact K2|]. split; [exact F2|]. split; [exact M2|]. split; [lia|]. split; [exact Z2|]. split; [exact N2|]. split; [exact S2|].
    intros Hj Hu. apply X2; [|exact Hu]. intros j q Hjq Eq. destruct (Nat.eq_dec j i) as [->|Nj]; [|apply (Hj j q); [lia|exact Eq]]. rewrite E in Eq. injection Eq as <-. intros [_ [C2 C3]].
    apply andb_false_iff in Cc. unfold zlen in Cc. destruct Cc as [Cc|Cc]; apply Z.ltb_ge in Cc; lia.
Qed.

Fixpoint cost (l : list nat) : nat := match l with [] => O | x :: l => (1 + (if (1 <? x)%nat then x else 0) + cost l)%nat end.
Lemma cost_app a b : cost (a ++ b) = (cost a + cost b)%nat.
Proof. induction a as [|x a IH]; [reflexivity|]. cbn [app cost]. rewrite IH. lia. Qed.
Lemma cost_ones k : cost (repeat 1%nat k) = k.
Proof. induction k as [|k IH]; [reflexivity|]. cbn [repeat cost]. rewrite IH. reflexivity. Qed.

Lemma split_blocks_ok fe : forall fuel i bs next, good bs -> all_reachable bs -> fits bs next -> (cost (skipn i (map plen bs)) <= fuel)%nat ->
  exists bs1 next1, split_blocks fuel i bs next = Ok (bs1, next1) /\ keeps fe bs bs1 /\ (forall x y, crit bs1 x y -> crit bs x y) /\
    ((forall j y, (j < i)%nat -> nth_error (map bname bs) j = Some y -> forall x, ~ crit bs x y) -> (forall x y z, crit bs x z -> crit bs y z -> x = y) -> forall x y, ~ crit bs1 x y).
Proof.
  induction fuel as [|fuel IH]; intros i bs next G A F L; cbn [split_blocks]; destruct (nth_error bs i) as [b|] eqn:E.
  1: { exfalso. apply (map_nth_error plen) in E. apply nth_error_split in E. destruct E as [a [c [E1 E2]]]. rewrite E1, <- E2, skipn_app, skipn_all, Nat.sub_diag in L. cbn [skipn app cost] in L. lia. }
  1, 3: exists bs, next; split; [reflexivity|]; split; [apply keeps_refl; assumption|]; split; [auto|]; intros Hj _ x y Cx; pose proof Cx as [C1 _]; destruct (preds_known bs y x G C1) as [_ [by_ [_ [_ [Y1 [Y2 _]]]]]];
    apply In_nth_error in Y1; destruct Y1 as [j Ej]; apply (map_nth_error bname) in Ej; rewrite Y2 in Ej; apply (Hj j y) with (x := x); [|exact Ej|exact Cx]; apply nth_error_None in E; assert (K : (j < length (map bname bs))%nat) by (apply nth_error_Some; congruence); rewrite map_length in K; lia.
  pose proof G as [[ND _] _]. pose proof (nth_error_In _ _ E) as Hb. assert (Pb : preds_of bs (bname b) = bpreds b) by (apply preds_in; assumption).
  destruct (split_preds_ok fe (bname b) (length (bpreds b)) 0 bs next G A F) as [bs1 [next1 [k [E1 [K1 [F1 [M1 [Lk [Z1 [[l N1] [S1 X1]]]]]]]]]]]; [apply in_map; exact Hb|rewrite Pb; lia|].
  rewrite E1. cbn [bind]. destruct (IH (S i) bs1 next1) as [bs2 [next2 [E2 [K2 [S2 X2]]]]].
  - apply K1.
  - apply K1.
  - exact F1.
  - rewrite M1. apply (map_nth_error plen) in E. apply nth_error_split in E. destruct E as [a [c [Ea1 Ea2]]]. rewrite Ea1 in *. rewrite <- app_assoc. cbn [app]. rewrite <- Ea2 in *.
    rewrite skipn_app, skipn_all, Nat.sub_diag in L. cbn [skipn app cost] in L.
    replace (a ++ length (bpreds b) :: c ++ repeat 1%nat k) with ((a ++ [length (bpreds b)]) ++ c ++ repeat 1%nat k) by (rewrite <- app_assoc; reflexivity).
    replace (S (length a)) with (length (a ++ [length (bpreds b)])) by (rewrite app_length; cbn [length]; lia). rewrite skipn_app, skipn_all, Nat.sub_diag. cbn [skipn app]. rewrite cost_app, cost_ones.
    rewrite Pb in Z1. destruct (1 <? length (bpreds b))%nat eqn:El; [apply Nat.ltb_lt in El|apply Nat.ltb_ge in El; specialize (Z1 El)]; lia.
  - exists bs2, next2. split; [exact E2|]. split; [eapply keeps_trans; eassumption|]. split; [intros x y H; apply S1, S2; exact H|]. intros Hj Hu. apply X2.
    + intros j y Hjy Ey x Cx. apply (map_nth_error bname) in E. destruct (Nat.eq_dec j i) as [->|Nj].
      * rewrite N1, nth_error_app1 in Ey by (apply nth_error_Some; congruence). rewrite E in Ey. injection Ey as <-. revert Cx. apply X1; [intros ? ? H; lia|]. intros u v. apply Hu.
      * assert (K : (i < length (map bname bs))%nat) by (apply nth_error_Some; congruence). rewrite N1, nth_error_app1 in Ey by lia. apply (Hj j y) with (x := x); [lia|exact Ey|apply S1; exact Cx].
    + intros x y z C1 C2. apply (Hu x y z); apply S1; assumption.
Qed.
Lemma split_ok fe bs next : good bs -> all_reachable bs -> fits bs next -> exists bs1 next1, split bs next = Ok (bs1, next1) /\ keeps fe bs bs1 /\ (forall x y, crit bs1 x y -> crit bs x y) /\
  ((forall x y z, crit bs x z -> crit bs y z -> x = y) -> forall x y, ~ crit bs1 x y).
Proof.
  intros G A F. unfold split. destruct (split_blocks_ok fe (length bs + length (flat_map bpreds bs)) 0 bs next G A F) as [bs1 [next1 [E [K [S1 X]]]]].
  - cbn [skipn]. clear. induction bs as [|b bs IH]; [reflexivity|]. cbn [map cost flat_map length]. rewrite app_length. destruct (1 <? length (bpreds b))%nat; lia.
  - exists bs1, next1. split; [exact E|]. split; [exact K|]. split; [exact S1|]. intros Hu. apply X; [intros ? ? H; lia|exact Hu].
Qed.

(** ** the check *)
Lemma has_return_spec l : has_return l = true <-> exists k, In (Return k) l.
Proof.
  unfold has_return. rewrite existsb_exists. split; [intros [i [H1 H2]]; destruct i; try discriminate; eexists; exact H1|intros [k H]; exists (Return k); auto].
Qed.

Section Check.
  Variables (bs : list bb) (fe : nat).
  Hypothesis C : is_cfg bs.
  Definition bad : Prop := exists b, without_return bs b /\ bname b = fe.
  Definition settled (handled0 handled : list nat) : Prop :=
    forall x, In x bs -> In (bname x) handled -> In (bname x) handled0 \/ returns x \/ (bname x <> fe /\ incl (bsuccs x) handled).

  Lemma settled_grow h0 h1 h2 : settled h0 h1 -> settled h1 h2 -> incl h1 h2 -> settled h0 h2.
  Proof.
    intros S1 S2 I x Hx H2. destruct (S2 x Hx H2) as [H1|[R|K]]; [|right; left; exact R|right; right; exact K]. destruct (S1 x Hx H1) as [H0|[R|[K1 K2]]]; [left; exact H0|right; left; exact R|right; right; split; [exact K1|eapply incl_tran; eassumption]].
  Qed.

  Lemma check_spec : forall fuel b h, In b (map bname bs) -> NoDup h -> incl h (map bname bs) -> (length bs < fuel + length h)%nat ->
    (forall x, In x bs -> bname x = b -> ~ In b h -> returns x \/ without_return bs x) ->
    (exists h', return_check fuel bs fe b h = Ok h' /\ In b h' /\ NoDup h' /\ incl h h' /\ incl h' (map bname bs) /\ settled h h') \/
    (return_check fuel bs fe b h = Throw /\ bad).
  Proof.
    induction fuel as [|fuel IH]; intros b h Hb ND Hi Hf Hw.
    { exfalso. pose proof (NoDup_incl_length ND Hi) as K. rewrite map_length in K. cbn [Nat.add] in Hf. lia. }
    cbn [return_check]. pose proof C as [NDn G]. destruct (has b h) eqn:Eh.
    - left. exists h. split; [reflexivity|]. split; [apply has_in; exact Eh|]. split; [exact ND|]. split; [apply incl_refl|]. split; [exact Hi|]. intros x Hx H. left. exact H.
    - apply has_not in Eh. apply in_map_iff in Hb. destruct Hb as [x [Ex Hx]]. rewrite <- Ex in *. rewrite (find_in bs x NDn Hx). destruct (has_return (bops x)) eqn:Er.
      + left. exists (bname x :: h). split; [reflexivity|]. split; [left; reflexivity|]. split; [constructor; assumption|]. split; [apply incl_tl, incl_refl|].
        split; [intros y [<-|Hy]; [apply in_map; exact Hx|apply Hi; exact Hy]|]. intros y Hy [E|H]; [|left; exact H]. right. left. rewrite (name_inj bs y x NDn Hy Hx (eq_sym E)). apply has_return_spec. exact Er.
      + assert (Nr : ~ returns x) by (intros R; apply has_return_spec in R; congruence).
        assert (Wx : without_return bs x) by (destruct (Hw x Hx eq_refl Eh) as [R|W]; [contradiction|exact W]).
        destruct (Nat.eqb (bname x) fe) eqn:Ef.
        * right. split; [reflexivity|]. exists x. split; [exact Wx|apply Nat.eqb_eq; exact Ef].
        * apply Nat.eqb_neq in Ef. destruct (G x Hx) as [_ [_ [_ [G4 _]]]].
          assert (All : forall l h0, incl l (bsuccs x) -> NoDup h0 -> incl h0 (map bname bs) -> (length bs < fuel + length h0)%nat ->
            (exists h', check_all (return_check fuel bs fe) l h0 = Ok h' /\ incl l h' /\ NoDup h' /\ incl h0 h' /\ incl h' (map bname bs) /\ settled h0 h') \/ (check_all (return_check fuel bs fe) l h0 = Throw /\ bad)).
          { induction l as [|s l IHl]; intros h0 Hl N0 I0 F0; cbn [check_all].
            - left. exists h0. split; [reflexivity|]. split; [intros y []|]. split; [exact N0|]. split; [apply incl_refl|]. split; [exact I0|]. intros y Hy H. left. exact H.
            - destruct (IH s h0) as [[h1 [E1 [B1 [N1 [I1 [M1 S1]]]]]]|[E1 B]].
              + apply G4. apply Hl. left. reflexivity.
              + exact N0.
              + exact I0.
              + exact F0.
              + intros y Hy Ey _. destruct (has_return (bops y)) eqn:Ey2; [left; apply has_return_spec; exact Ey2|right]. apply (wr_succ bs x y Wx Hy); [rewrite Ey; apply Hl; left; reflexivity|]. intros R. apply has_return_spec in R. congruence.
              + rewrite E1. cbn [bind]. destruct (IHl h1) as [[h2 [E2 [L2 [N2 [I2 [M2 S2]]]]]]|[E2 B]].
                * intros y Hy. apply Hl. right. exact Hy.
                * exact N1.
                * exact M1.
                * pose proof (NoDup_incl_length N0 I1). lia.
                * left. exists h2. split; [exact E2|]. split; [intros y [<-|Hy]; [apply I2; exact B1|apply L2; exact Hy]|]. split; [exact N2|]. split; [eapply incl_tran; eassumption|]. split; [exact M2|]. eapply settled_grow; eassumption.
                * right. split; [exact E2|exact B].
              + right. rewrite E1. split; [reflexivity|exact B]. }
          destruct (All (bsuccs x) (bname x :: h)) as [[h' [E1 [L1 [N1 [I1 [M1 S1]]]]]]|[E1 B]].
          -- apply incl_refl.
          -- constructor; assumption.
          -- intros y [<-|Hy]; [apply in_map; exact Hx|apply Hi; exact Hy].
          -- cbn [length]. lia.
          -- left. exists h'. split; [exact E1|]. split; [apply I1; left; reflexivity|]. split; [exact N1|]. split; [intros y Hy; apply I1; right; exact Hy|]. split; [exact M1|].
             intros y Hy Hy'. destruct (S1 y Hy Hy') as [[E|H]|K]; [|left; exact H|right; exact K]. right. right. rewrite (name_inj bs y x NDn Hy Hx (eq_sym E)). split; [exact Ef|exact L1].
          -- right. split; [exact E1|exact B].
  Qed.

  Lemma check_entry e l : bs = e :: l -> (exists h, return_check (S (length bs)) bs fe (bname e) [] = Ok h /\ ~ bad) \/ (return_check (S (length bs)) bs fe (bname e) [] = Throw /\ bad).
  Proof.
    intros E. pose proof C as [NDn G]. assert (He : In e bs) by (rewrite E; left; reflexivity). destruct (check_spec (S (length bs)) (bname e) []) as [[h [E1 [B1 [N1 [_ [M1 S1]]]]]]|[E1 B]].
    - apply in_map. exact He.
    - constructor.
    - intros y [].
    - cbn [length]. lia.
    - intros x Hx Ex _. rewrite (name_inj bs x e NDn Hx He Ex). destruct (has_return (bops e)) eqn:Er; [left; apply has_return_spec; exact Er|right]. apply (wr_entry bs e l E). intros R. apply has_return_spec in R. congruence.
    - left. exists h. split; [exact E1|]. assert (K : forall x, without_return bs x -> In x bs /\ ~ returns x /\ In (bname x) h).
      { induction 1 as [x l' Ex Nr|x s W [IH1 [IH2 IH3]] Hs Hss Nr].
        - rewrite E in Ex. injection Ex as <- _. auto.
        - split; [exact Hs|]. split; [exact Nr|]. destruct (S1 x IH1 IH3) as [[]|[R|[_ K]]]; [contradiction|]. apply K. exact Hss. }
      intros [x [W Ex]]. destruct (K x W) as [X1 [X2 X3]]. destruct (S1 x X1 X3) as [[]|[R|[Nf _]]]; contradiction.
    - right. split; [exact E1|exact B].
  Qed.
End Check.
