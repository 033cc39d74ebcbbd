(** Renaming one block. *)
From Verif Require Import Base Base_lemmas Dom_model Dom_spec Dom_proof Live_model Live_spec Live_proof Ssa_model Ssa_spec.

(** the number a variable has now *)
Definition cur (st : state) (v : var) : option Z := match stack st v with Some (k :: _) => Some k | _ => None end.
Definition bind_names (E : var -> option Z) (ns : list (var * Z)) : var -> option Z :=
  fold_left (fun E x => update E (fst x) (Some (snd x))) ns E.
Definition cnt (v : var) (vs : list var) : nat := count_occ Nat.eq_dec vs v.

Lemma update_same {A} (f : var -> A) v x : update f v x v = x.
Proof. unfold update. rewrite Nat.eqb_refl. reflexivity. Qed.
Lemma update_other {A} (f : var -> A) v x w : w <> v -> update f v x w = f w.
Proof. intros N. unfold update. apply Nat.eqb_neq in N. rewrite N. reflexivity. Qed.

Lemma bind_ext ns : forall E E' v, E v = E' v -> bind_names E ns v = bind_names E' ns v.
Proof.
  induction ns as [|[w k] ns IH]; intros E E' v H; [exact H|]. cbn [bind_names fold_left fst snd]. apply IH.
  unfold update. destruct (Nat.eqb v w); [reflexivity|exact H].
Qed.
Lemma bind_app E a b v : bind_names E (a ++ b) v = bind_names (bind_names E a) b v.
Proof. unfold bind_names. rewrite fold_left_app. reflexivity. Qed.
Lemma bind_not ns : forall E v, ~ In v (map fst ns) -> bind_names E ns v = E v.
Proof.
  induction ns as [|[w k] ns IH]; intros E v H; [reflexivity|]. cbn [bind_names fold_left fst snd]. cbn [map In fst] in H.
  fold (bind_names (update E w (Some k)) ns). rewrite IH by tauto. apply update_other. intros ->. tauto.
Qed.
Lemma bind_in ns : forall E v, In v (map fst ns) -> exists k, bind_names E ns v = Some k.
Proof.
  induction ns as [|[w k] ns IH]; intros E v H; [destruct H|]. cbn [bind_names fold_left fst snd]. fold (bind_names (update E w (Some k)) ns).
  destruct (in_dec Nat.eq_dec v (map fst ns)) as [I0|N]; [apply IH; exact I0|]. rewrite bind_not by exact N.
  destruct H as [<-|H]; [|contradiction]. cbn [fst]. exists k. apply update_same.
Qed.

Definition ok (st : state) : Prop := forall v, 0 <= number st v /\ forall l, stack st v = Some l -> 2 * zlen l <= number st v /\ forall k, In k l -> k + 2 <= number st v.

Definition grown (st st' : state) (ns : list (var * Z)) : Prop :=
  done st' = done st /\ args st' = args st /\ ok st' /\
  (forall v, number st' v = number st v + 2 * Z.of_nat (cnt v (map fst ns))) /\
  (forall v, cur st' v = bind_names (cur st) ns v) /\
  (forall v, match stack st v with Some s => exists l, length l = cnt v (map fst ns) /\ stack st' v = Some (l ++ s) | None => stack st' v = None end) /\
  NoDup ns /\ (forall v k, In (v, k) ns -> number st v <= k < number st' v).

Lemma cnt_app v a b : cnt v (a ++ b) = (cnt v a + cnt v b)%nat.
Proof. apply count_occ_app. Qed.

Lemma grown_nil st : ok st -> grown st st [].
Proof.
  intros O. split; [reflexivity|]. split; [reflexivity|]. split; [exact O|]. split; [intros v; cbn; lia|]. split; [reflexivity|].
  split; [intros v; destruct (stack st v) as [s|]; [exists []; split; reflexivity|reflexivity]|]. split; [apply NoDup_nil|intros v k []].
Qed.

Lemma grown_trans a b c0 n1 n2 : grown a b n1 -> grown b c0 n2 -> grown a c0 (n1 ++ n2).
Proof.
  intros [D1 [A1 [O1 [N1 [C1 [S1 [U1 R1]]]]]]] [D2 [A2 [O2 [N2 [C2 [S2 [U2 R2]]]]]]].
  assert (M1 : forall v, number a v <= number b v) by (intros v; rewrite N1; lia).
  assert (M2 : forall v, number b v <= number c0 v) by (intros v; rewrite N2; lia).
  split; [congruence|]. split; [congruence|]. split; [exact O2|]. split; [intros v; rewrite N2, N1, map_app, cnt_app; lia|].
  split; [intros v; rewrite C2, bind_app; apply bind_ext; apply C1|]. split.
  - intros v. specialize (S1 v). specialize (S2 v). destruct (stack a v) as [s|].
    + destruct S1 as [l1 [L1 E1]]. rewrite E1 in S2. destruct S2 as [l2 [L2 E2]]. exists (l2 ++ l1). rewrite app_length, map_app, cnt_app, <- app_assoc. split; [lia|exact E2].
    + rewrite S1 in S2. exact S2.
  - split.
    + clear - U1 U2 R1 R2. revert U1 R1. induction n1 as [|[v k] n1 IH]; intros U1 R1; [exact U2|]. cbn [app]. inversion U1; subst. constructor.
      * intros K. apply in_app_or in K. destruct K as [K|K]; [contradiction|]. pose proof (R1 v k (or_introl eq_refl)). specialize (R2 v k K). lia.
      * apply IH; [assumption|]. intros w j Hw. apply R1. right. exact Hw.
    + intros v k K. apply in_app_or in K. destruct K as [K|K]; [apply R1 in K|apply R2 in K]; specialize (M1 v); specialize (M2 v); lia.
Qed.

Lemma new_number_ok v st : ok st -> stack st v <> None -> number st v + 2 <= 256 ->
  exists st', new_number v st = Ok (number st v, st') /\ grown st st' [(v, number st v)] /\ u8 (number st v) = number st v.
Proof.
  intros O N B. unfold new_number. destruct (stack st v) as [l|] eqn:E; [|congruence]. pose proof (O v) as [P Q]. destruct (Q l E) as [Q1 Q2]. clear Q.
  destruct (255 <=? zlen l) eqn:C; [lia|]. clear C.
  assert (U : u8 (number st v) = number st v) by (unfold u8; apply Z.mod_small; lia). rewrite U.
  assert (U2 : u64 (number st v + 2) = number st v + 2) by (unfold u64; apply Z.mod_small; lia). rewrite U2.
  eexists. split; [reflexivity|]. split; [|reflexivity].
  split; [reflexivity|]. split; [reflexivity|]. split; [|split; [|split; [|split; [|split]]]]; cbn [number stack].
  - intros w. cbn [number stack]. unfold update. destruct (Nat.eqb w v) eqn:Ew.
    + split; [lia|]. intros l' El. injection El as <-. split; [unfold zlen in *; cbn [length]; lia|]. intros k [<-|K]; [lia|specialize (Q2 k K); lia].
    + apply O.
  - intros w. cbn [map fst]. unfold cnt. cbn [count_occ]. unfold update. destruct (Nat.eqb w v) eqn:Ew.
    + apply Nat.eqb_eq in Ew. subst w. destruct (Nat.eq_dec v v); [lia|congruence].
    + apply Nat.eqb_neq in Ew. destruct (Nat.eq_dec v w); [congruence|lia].
  - intros w. unfold cur at 1. cbn [stack]. cbn [bind_names fold_left fst snd]. unfold update. destruct (Nat.eqb w v); reflexivity.
  - intros w. cbn [map fst]. unfold cnt. cbn [count_occ]. unfold update. destruct (Nat.eqb w v) eqn:Ew.
    + apply Nat.eqb_eq in Ew. subst w. rewrite E. exists [number st v]. destruct (Nat.eq_dec v v); [split; reflexivity|congruence].
    + apply Nat.eqb_neq in Ew. destruct (Nat.eq_dec v w); [congruence|]. destruct (stack st w) as [s|]; [exists []; split; reflexivity|reflexivity].
  - constructor; [intros []|apply NoDup_nil].
  - intros w k [K|[]]. injection K as <- <-. rewrite update_same. lia.
Qed.

Lemma grown_stack st st' ns v : grown st st' ns -> stack st v <> None -> stack st' v <> None.
Proof. intros [_ [_ [_ [_ [_ [S0 _]]]]]] H. specialize (S0 v). destruct (stack st v); [|congruence]. destruct S0 as [l0 [_ ->]]. discriminate. Qed.
Lemma grown_stack2 st st' ns v : grown st st' ns -> stack st v = None <-> stack st' v = None.
Proof. intros [_ [_ [_ [_ [_ [S0 _]]]]]]. specialize (S0 v). destruct (stack st v); [destruct S0 as [l0 [_ ->]]; split; congruence|tauto]. Qed.

Lemma rename_defs_spec vs : forall st, ok st -> (forall v, number st v + 2 * Z.of_nat (cnt v vs) <= 256) -> (forall v, In v vs -> stack st v <> None) ->
  exists ns st', rename_defs vs st = Ok (ns, st') /\ rename_phis vs st = Ok (ns, st') /\ grown st st' ns /\ map fst ns = vs.
Proof.
  induction vs as [|v vs IH]; intros st O B S0.
  - exists [], st. split; [reflexivity|]. split; [reflexivity|]. split; [apply grown_nil; exact O|reflexivity].
  - cbn [rename_defs rename_phis].
    assert (Bv : number st v + 2 <= 256). { specialize (B v). unfold cnt in B. cbn [count_occ] in B. destruct (Nat.eq_dec v v); [lia|congruence]. }
    destruct (new_number_ok v st O (S0 v (or_introl eq_refl)) Bv) as [st1 [E [G1 U]]]. rewrite E. cbn [bind]. rewrite U.
    assert (Rn : rename_var v (number st v) = Ok (v, number st v)). { unfold rename_var. destruct (number st v <? 255) eqn:C; [reflexivity|lia]. }
    rewrite Rn. cbn [bind].
    destruct (IH st1) as [ns [st' [E1 [E2 [G2 M]]]]].
    + apply G1.
    + intros w. destruct G1 as [_ [_ [_ [N1 _]]]]. rewrite N1. specialize (B w). cbn [map fst]. unfold cnt in *. cbn [count_occ] in *. destruct (Nat.eq_dec v w); lia.
    + intros w Hw. eapply grown_stack; [exact G1|]. apply S0. right. exact Hw.
    + rewrite E1, E2. cbn [bind]. exists ((v, number st v) :: ns), st'. split; [reflexivity|]. split; [reflexivity|].
      split; [apply (grown_trans _ _ _ [(v, number st v)] ns G1 G2)|]. cbn [map fst]. rewrite M. reflexivity.
Qed.

(** the operations with their operands named, given the numbers before *)
Fixpoint renamed (E : var -> option Z) (l : list op) (rl : list rop) : Prop :=
  match l, rl with
  | [], [] => True
  | o :: l, r :: rl =>
      rcode r = code o /\ map fst (ruses r) = uses o /\ (forall v k, In (v, k) (ruses r) -> E v = Some k) /\
      map fst (rdefs r) = defs o /\ renamed (bind_names E (rdefs r)) l rl
  | _, _ => False
  end.
Lemma renamed_ext l : forall E E' rl, (forall v, E v = E' v) -> renamed E l rl -> renamed E' l rl.
Proof.
  induction l as [|o l IH]; intros E E' [|r rl] H R; cbn [renamed] in *; try exact R. destruct R as [R1 [R2 [R3 [R4 R5]]]].
  split; [exact R1|]. split; [exact R2|]. split; [intros v k K; rewrite <- H; apply R3; exact K|]. split; [exact R4|].
  eapply IH; [|exact R5]. intros v. apply bind_ext. apply H.
Qed.

Lemma rename_uses_spec vs st : ok st -> (forall v, number st v <= 256) -> (forall v, In v vs -> cur st v <> None) ->
  exists us, rename_uses vs st = Ok us /\ map fst us = vs /\ forall v k, In (v, k) us -> cur st v = Some k.
Proof.
  intros O B. induction vs as [|v vs IH]; intros H; cbn [rename_uses].
  - exists []. split; [reflexivity|]. split; [reflexivity|intros v k []].
  - pose proof (H v (or_introl eq_refl)) as C. unfold cur in C. destruct (stack st v) as [[|k l]|] eqn:E; try congruence.
    unfold rename_var. assert (Tk : k < 255) by (destruct (O v) as [_ Q]; destruct (Q _ E) as [_ Q2]; specialize (Q2 k (or_introl eq_refl)); specialize (B v); lia). destruct (k <? 255) eqn:K; [|lia]. cbn [bind].
    destruct IH as [us [E1 [E2 E3]]]; [intros w Hw; apply H; right; exact Hw|]. rewrite E1. cbn [bind]. exists ((v, k) :: us). split; [reflexivity|].
    cbn [map fst]. split; [congruence|]. intros w j [K1|K1]; [injection K1 as <- <-; unfold cur; rewrite E; reflexivity|apply E3; exact K1].
Qed.

Lemma rename_ops_spec l : forall st, ok st -> (forall v, number st v + 2 * Z.of_nat (cnt v (flat_map defs l)) <= 256) ->
  (forall v, In v (flat_map defs l) -> stack st v <> None) -> (forall v, reads_first l v -> cur st v <> None) ->
  exists os st', rename_ops l st = Ok (os, st') /\ grown st st' (flat_map rdefs os) /\ map fst (flat_map rdefs os) = flat_map defs l /\ renamed (cur st) l os.
Proof.
  induction l as [|o l IH]; intros st O B S0 R; cbn [rename_ops].
  - exists [], st. split; [reflexivity|]. split; [apply grown_nil; exact O|]. split; [reflexivity|exact Logic.I].
  - destruct (rename_uses_spec (uses o) st O) as [us [E1 [E2 E3]]].
    + intros v. specialize (B v). lia.
    + intros v Hv. apply R. apply reads_cons. left. exact Hv.
    + rewrite E1. cbn [bind]. destruct (rename_defs_spec (defs o) st O) as [ds [st1 [E4 [_ [G1 E5]]]]].
      * intros v. specialize (B v). cbn [flat_map] in B. rewrite cnt_app in B. lia.
      * intros v Hv. apply S0. cbn [flat_map]. apply in_or_app. left. exact Hv.
      * rewrite E4. cbn [bind]. destruct (IH st1) as [os [st2 [E6 [G2 [E7 E8]]]]].
        -- apply G1.
        -- intros v. destruct G1 as [_ [_ [_ [N1 _]]]]. rewrite N1, E5. specialize (B v). cbn [flat_map] in B. rewrite cnt_app in B. lia.
        -- intros v Hv. eapply grown_stack; [exact G1|]. apply S0. cbn [flat_map]. apply in_or_app. right. exact Hv.
        -- intros v Hv. destruct G1 as [_ [_ [_ [_ [C1 _]]]]]. rewrite C1. destruct (in_dec Nat.eq_dec v (map fst ds)) as [I0|N].
           ++ destruct (bind_in ds (cur st) v I0) as [k ->]. discriminate.
           ++ rewrite bind_not by exact N. apply R. apply reads_cons. right. rewrite E5 in N. auto.
        -- rewrite E6. cbn [bind]. exists (mk_rop (code o) us ds :: os), st2. split; [reflexivity|]. cbn [flat_map rdefs].
           split; [eapply grown_trans; eassumption|]. split; [rewrite map_app, E5, E7; reflexivity|].
           cbn [renamed rcode ruses rdefs]. split; [reflexivity|]. split; [exact E2|]. split; [exact E3|]. split; [exact E5|].
           eapply renamed_ext; [|exact E8]. apply G1.
Qed.

(** ** popping *)
Lemma pop_spec added vs : forall st, ok st -> (forall v, In v vs -> In v added -> exists l s, stack st v = Some (l ++ s) /\ length l = cnt v vs) ->
  exists st', pop vs added st = Ok st' /\ ok st' /\ number st' = number st /\ done st' = done st /\ args st' = args st /\
    forall v, (~ In v added -> stack st' v = stack st v) /\ (In v added -> forall l s, stack st v = Some (l ++ s) -> length l = cnt v vs -> stack st' v = Some s) /\ (~ In v vs -> stack st' v = stack st v).
Proof.
  induction vs as [|v vs IH]; intros st O H; cbn [pop].
  - exists st. split; [reflexivity|]. split; [exact O|]. do 3 (split; [reflexivity|]). intros v. split; [auto|]. split; [|auto].
    intros _ l s E L. destruct l; [exact E|discriminate].
  - destruct (mem v added) eqn:M.
    + apply mem_iff in M. destruct (H v (or_introl eq_refl) M) as [l [s [E L]]]. rewrite E. unfold cnt in L. cbn [count_occ] in L.
      destruct (Nat.eq_dec v v) as [_|]; [|congruence]. destruct l as [|k l]; [discriminate|]. cbn [app]. injection L as L.
      set (st1 := mk_state _ _ _ _).
      assert (O1 : ok st1).
      { intros w. unfold st1. cbn [number stack]. destruct (O w) as [P Q]. split; [exact P|]. intros l0. unfold update. destruct (Nat.eqb w v) eqn:Ew; [|apply Q].
        apply Nat.eqb_eq in Ew. subst w. intros E0. injection E0 as <-. destruct (Q _ E) as [Q1 Q2]. split; [unfold zlen in *; cbn [app length] in Q1; lia|]. intros j Hj. apply Q2. right. exact Hj. }
      destruct (IH st1 O1) as [st' [E1 [O' [E2 [E3 [E4 K]]]]]].
      * intros w Hw Aw. destruct (Nat.eq_dec w v) as [->|N].
        -- exists l, s. unfold st1. cbn [stack]. rewrite update_same. auto.
        -- destruct (H w (or_intror Hw) Aw) as [l' [s' [E' L']]]. exists l', s'. unfold st1. cbn [stack]. rewrite update_other by exact N. split; [exact E'|].
           unfold cnt in *. cbn [count_occ] in L'. destruct (Nat.eq_dec v w); [congruence|exact L'].
      * exists st'. split; [exact E1|]. split; [exact O'|]. split; [exact E2|]. split; [exact E3|]. split; [exact E4|].
        intros w. destruct (K w) as [K1 [K2 K3]]. destruct (Nat.eq_dec w v) as [->|N].
        -- split; [tauto|]. split; [|intros X; exfalso; apply X; left; reflexivity].
           intros _ l' s' E' L'. unfold cnt in L'. cbn [count_occ] in L'. destruct (Nat.eq_dec v v) as [_|]; [|congruence]. destruct l' as [|k' l']; [discriminate|].
           injection L' as L'. apply (K2 M l' s'); [|exact L']. unfold st1. cbn [stack]. rewrite update_same. f_equal. rewrite E in E'. cbn [app] in E'. injection E' as _ E'. exact E'.
        -- assert (Es : stack st1 w = stack st w) by (unfold st1; cbn [stack]; apply update_other; exact N). rewrite Es in *. split; [exact K1|]. split.
           ++ intros A l' s' E' L'. apply (K2 A l' s' E'). unfold cnt in *. cbn [count_occ] in L'. destruct (Nat.eq_dec v w); [congruence|exact L'].
           ++ intros X. apply K3. intros Y. apply X. right. exact Y.
    + apply mem_false in M. destruct (IH st O) as [st' [E1 [O' [E2 [E3 [E4 K]]]]]].
      * intros w Hw Aw. destruct (H w (or_intror Hw) Aw) as [l [s [E L]]]. exists l, s. split; [exact E|]. unfold cnt in *. cbn [count_occ] in L.
        destruct (Nat.eq_dec v w); [subst; contradiction|exact L].
      * exists st'. split; [exact E1|]. split; [exact O'|]. split; [exact E2|]. split; [exact E3|]. split; [exact E4|].
        intros w. destruct (K w) as [K1 [K2 K3]]. split; [exact K1|]. split.
        -- intros A l s E L. apply (K2 A l s E). unfold cnt in *. cbn [count_occ] in L. destruct (Nat.eq_dec v w); [subst; contradiction|exact L].
        -- intros X. apply K3. intros Y. apply X. right. exact Y.
Qed.

(** ** the arguments of the phi functions *)
Lemma place_of_spec ps b : forall i found, (exists j, found = Some j /\ (j < i)%nat) \/ In b ps -> exists j, place_of ps b i found = Some j /\ (j < i + length ps)%nat.
Proof.
  induction ps as [|p ps IH]; intros i found H; cbn [place_of length].
  - destruct H as [[j [-> L]]|[]]. exists j. split; [reflexivity|lia].
  - destruct (IH (S i) (if Nat.eqb p b then Some i else found)) as [j [E L]]; [|exists j; split; [exact E|lia]].
    destruct (Nat.eqb p b) eqn:E; [left; exists i; split; [reflexivity|lia]|]. apply Nat.eqb_neq in E.
    destruct H as [[j [-> L]]|[H|H]]; [left; exists j; split; [reflexivity|lia]|congruence|right; exact H].
Qed.

Definition with_args (st : state) (l : list arg) : state := mk_state (number st) (stack st) (done st) (args st ++ l).

Lemma name_phis_spec g b s vs : In b (preds g s) -> zlen (preds g s) <= 255 -> NoDup vs -> forall st, ok st -> (forall v, number st v <= 256) ->
  (forall v, In v vs -> cur st v <> None) -> (forall a, In a (args st) -> arg_block a = s -> arg_pred a = b -> ~ In (arg_var a) vs) ->
  exists l, name_phis g b s vs st = Ok (with_args st l) /\ (forall a, In a l -> arg_block a = s /\ arg_pred a = b /\ In (arg_var a) vs /\ cur st (arg_var a) = Some (arg_number a)) /\
    (forall v, In v vs -> exists k, In (mk_arg s v b k) l).
Proof.
  intros Hb Hp. induction vs as [|v vs IH]; intros ND st O B C Fr; cbn [name_phis].
  - exists []. unfold with_args. rewrite app_nil_r. destruct st. split; [reflexivity|]. split; [intros a []|intros v []].
  - inversion ND as [|? ? Nv ND']; subst. destruct (place_of_spec (preds g s) b 0 None (or_intror Hb)) as [j [E L]]. rewrite E.
    assert (U : u8 (zlen (preds g s)) = zlen (preds g s)) by (unfold u8; apply Z.mod_small; unfold zlen in *; lia). rewrite U.
    destruct (zlen (preds g s) <=? Z.of_nat j) eqn:Cj; [unfold zlen in Cj; lia|]. clear Cj.
    assert (Nm : named (args st) s v b = false).
    { unfold named. apply Bool.not_true_iff_false. intros K. apply existsb_exists in K. destruct K as [a [Ha K]].
      apply andb_prop in K. destruct K as [K K3]. apply andb_prop in K. destruct K as [K1 K2]. apply Nat.eqb_eq in K1, K2, K3.
      apply (Fr a Ha K1 K3). left. congruence. }
    rewrite Nm. pose proof (C v (or_introl eq_refl)) as Cv. unfold cur in Cv. destruct (stack st v) as [[|k l0]|] eqn:Es; try congruence.
    assert (Tk : k < 255) by (destruct (O v) as [_ Q]; destruct (Q _ Es) as [_ Q2]; specialize (Q2 k (or_introl eq_refl)); specialize (B v); lia).
    unfold rename_var. destruct (k <? 255) eqn:Ck; [|lia]. cbn [bind snd]. fold (with_args st [mk_arg s v b k]).
    destruct (IH ND' (with_args st [mk_arg s v b k])) as [l [E1 [E2 E3]]].
    + exact O.
    + exact B.
    + intros w Hw. apply (C w). right. exact Hw.
    + cbn [with_args args]. intros a Ha A1 A2 Hv. apply in_app_or in Ha. destruct Ha as [Ha|[<-|[]]]; [apply (Fr a Ha A1 A2); right; exact Hv|].
      cbn [arg_var] in Hv. contradiction.
    + exists (mk_arg s v b k :: l). split.
      * rewrite E1. unfold with_args. cbn [number stack done args]. rewrite <- app_assoc. reflexivity.
      * split.
        -- intros a [<-|Ha]; [cbn [arg_block arg_pred arg_var arg_number]; split; [reflexivity|]; split; [reflexivity|]; split; [left; reflexivity|unfold cur; rewrite Es; reflexivity]|].
           destruct (E2 a Ha) as [Q1 [Q2 [Q3 Q4]]]. split; [exact Q1|]. split; [exact Q2|]. split; [right; exact Q3|exact Q4].
        -- intros w [<-|Hw]; [exists k; left; reflexivity|]. destruct (E3 w Hw) as [j0 Hj]. exists j0. right. exact Hj.
Qed.

Lemma name_args_spec g ph b ss : (forall s, In s ss -> In b (preds g s) /\ zlen (preds g s) <= 255) -> (forall s, NoDup (get ph s)) -> NoDup ss -> forall st, ok st -> (forall v, number st v <= 256) ->
  (forall s v, In s ss -> In v (get ph s) -> cur st v <> None) -> (forall a, In a (args st) -> arg_pred a = b -> ~ In (arg_block a) ss) ->
  exists l, name_args g ph b ss st = Ok (with_args st l) /\ (forall a, In a l -> arg_pred a = b /\ cur st (arg_var a) = Some (arg_number a)) /\
    (forall s v, In s ss -> In v (get ph s) -> exists k, In (mk_arg s v b k) l).
Proof.
  intros Hs NDp. induction ss as [|s ss IH]; intros ND st O B C Fr; cbn [name_args].
  - exists []. unfold with_args. rewrite app_nil_r. destruct st. split; [reflexivity|]. split; [intros a []|intros s v []].
  - inversion ND as [|? ? Ns ND']; subst. destruct (Hs s (or_introl eq_refl)) as [Hp Hl].
    destruct (name_phis_spec g b s (get ph s) Hp Hl (NDp s) st O B) as [l1 [E1 [E2 E3]]].
    + intros v Hv. apply (C s v); [left; reflexivity|exact Hv].
    + intros a Ha A1 A2 _. apply (Fr a Ha A2). left. congruence.
    + rewrite E1. cbn [bind]. destruct (IH ltac:(intros x Hx; apply Hs; right; exact Hx) ND' (with_args st l1)) as [l2 [F1 [F2 F3]]].
      * exact O.
      * exact B.
      * intros x v Hx Hv. apply (C x v); [right; exact Hx|exact Hv].
      * cbn [with_args args]. intros a Ha A1 K. apply in_app_or in Ha. destruct Ha as [Ha|Ha]; [apply (Fr a Ha A1); right; exact K|].
        destruct (E2 a Ha) as [Q _]. congruence.
      * exists (l1 ++ l2). split; [rewrite F1; unfold with_args; cbn [number stack done args]; rewrite <- app_assoc; reflexivity|]. split.
        -- intros a Ha. apply in_app_or in Ha. destruct Ha as [Ha|Ha]; [destruct (E2 a Ha) as [_ [Q1 [_ Q2]]]; auto|apply F2; exact Ha].
        -- intros x v [<-|Hx] Hv; [destruct (E3 v Hv) as [k K]; exists k; apply in_or_app; left; exact K|].
           destruct (F3 x v Hx Hv) as [k K]. exists k. apply in_or_app. right. exact K.
Qed.
