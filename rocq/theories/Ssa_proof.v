(** The function in single assignment form does what the function does. *)
From Verif Require Import Base Base_lemmas Dom_model Dom_spec Dom_proof Live_model Live_spec Live_proof Ssa_model Ssa_spec Ssa_place_proof Ssa_graph_proof Ssa_rename_proof Ssa_tree_proof.

Lemma renamed_defs l : forall E rl, renamed E l rl -> map fst (flat_map rdefs rl) = flat_map defs l.
Proof.
  induction l as [|o l IH]; intros E [|r rl] R; cbn [renamed] in R; try destruct R; [reflexivity|]. destruct H0 as [_ [_ [E4 R5]]].
  cbn [flat_map]. rewrite map_app, E4. f_equal. eapply IH. exact R5.
Qed.

(** ** executing a block *)
Section Exec.
  Context {V W : Type}.
  Variable m : machine V W.

  Definition same (E : var -> option Z) (env : var -> V) (env' : var * Z -> V) (v : var) : Prop :=
    exists k, E v = Some k /\ env v = env' (v, k).

  Lemma assign_same ds : forall f E env env' v, same E env env' v \/ In v (map fst ds) ->
    same (bind_names E ds) (exec_assign Nat.eqb (map fst ds) f env) (exec_assign name_eqb ds f env') v.
  Proof.
    induction ds as [|[w j] ds IH]; intros f E env env' v H; cbn [map fst exec_assign].
    - destruct H as [H|[]]. exact H.
    - cbn [bind_names fold_left fst snd]. apply IH. destruct (Nat.eq_dec v w) as [->|N].
      + left. exists j. split; [apply update_same|]. rewrite Nat.eqb_refl. unfold name_eqb. cbn [fst snd]. rewrite Nat.eqb_refl, Z.eqb_refl. reflexivity.
      + destruct H as [[k [H1 H2]]|[H|H]]; [left|cbn [fst] in H; congruence|right; exact H].
        exists k. rewrite update_other by exact N. split; [exact H1|]. unfold name_eqb. cbn [fst snd]. apply Nat.eqb_neq in N. rewrite N. exact H2.
  Qed.

  Lemma assign_self vs : forall (f : nat -> V) (env0 env : nat -> V) v, (forall v, env v = env0 v) -> (forall i, (i < length vs)%nat -> f i = env0 (nth i vs O)) -> exec_assign Nat.eqb vs f env v = env0 v.
  Proof.
    induction vs as [|w vs IH]; intros f env0 env v H H2; cbn [exec_assign]; [apply H|]. apply IH.
    - intros u. destruct (Nat.eqb u w) eqn:E; [|apply H]. apply Nat.eqb_eq in E. subst u. apply (H2 O). cbn. lia.
    - intros i Hi. apply (H2 (S i)). cbn [length]. lia.
  Qed.

  Lemma uses_same E env env' us : (forall v k, In (v, k) us -> E v = Some k) -> (forall v, In v (map fst us) -> same E env env' v) -> map env (map fst us) = map env' us.
  Proof.
    intros H1 H2. rewrite map_map. apply map_ext_in. intros [v k] H. cbn [fst]. destruct (H2 v (in_map fst _ _ H)) as [k' [K1 K2]].
    rewrite (H1 v k H) in K1. injection K1 as <-. exact K2.
  Qed.

  Lemma exec_same (L : var -> Prop) l : forall E rl env env' w, renamed E l rl -> (forall v, reads_first l v \/ (L v /\ ~ writes l v) -> same E env env' v) ->
    exists env2 env2' w2, exec Nat.eqb m (source_ops l) env w = (env2, w2) /\ exec name_eqb m (renamed_ops rl) env' w = (env2', w2) /\
      forall v, L v -> same (bind_names E (flat_map rdefs rl)) env2 env2' v.
  Proof.
    induction l as [|o l IH]; intros E [|r rl] env env' w R H; cbn [renamed] in R; try (destruct R; fail).
    - exists env, env', w. split; [reflexivity|]. split; [reflexivity|]. intros v Lv. apply H. right. split; [exact Lv|]. intros [o [[] _]].
    - destruct R as [R1 [R2 [R3 [R4 R5]]]]. cbn [source_ops renamed_ops map exec]. rewrite R1, <- R2, <- R4.
      rewrite (uses_same E env env' (ruses r) R3); [|intros v Hv; apply H; left; apply reads_cons; left; rewrite <- R2; exact Hv].
      destruct (effect m (code o) (map env' (ruses r)) w) as [f w1] eqn:Ef.
      destruct (IH _ rl (exec_assign Nat.eqb (map fst (rdefs r)) f env) (exec_assign name_eqb (rdefs r) f env') w1 R5) as [env2 [env2' [w2 [E1 [E2 E3]]]]].
      + intros v Hv. apply assign_same. destruct (in_dec Nat.eq_dec v (map fst (rdefs r))) as [I0|N]; [right; exact I0|left]. apply H. rewrite R4 in N.
        destruct Hv as [Hv|[Lv Nw]]; [left; apply reads_cons; auto|right; split; [exact Lv|]]. rewrite writes_cons. tauto.
      + exists env2, env2', w2. split; [exact E1|]. split; [exact E2|]. intros v Lv. cbn [flat_map].
        destruct (E3 v Lv) as [k [K1 K2]]. exists k. split; [|exact K2]. rewrite bind_app. exact K1.
  Qed.
End Exec.

(** ** the number of definitions *)
Lemma filter_count v l : length (filter (Nat.eqb v) l) = cnt v l.
Proof.
  unfold cnt. induction l as [|x l IH]; [reflexivity|]. cbn [filter count_occ]. destruct (Nat.eq_dec x v) as [->|N].
  - rewrite Nat.eqb_refl. cbn [length]. rewrite IH. reflexivity.
  - apply not_eq_sym in N. apply Nat.eqb_neq in N. rewrite N. exact IH.
Qed.

Lemma blocks_seq c : map (block_of c) (seq 0 (length c)) = c.
Proof.
  unfold block_of. induction c as [|b c IH]; [reflexivity|]. cbn [length seq map nth]. f_equal. rewrite <- seq_shift, map_map. exact IH.
Qed.

Lemma join g c x b : is_function g c -> frontier g x b -> (2 <= length (preds g b))%nat.
Proof.
  intros F [[p [Hp D]] N]. destruct (preds g b) as [|q [|q' l]] eqn:E; [destruct Hp| |cbn; lia]. exfalso.
  destruct Hp as [->|[]]. pose proof (graph_ok g c F) as G.
  assert (Nb : b <> O). { intros ->. destruct G as [_ [_ G]]. rewrite G in E. discriminate. }
  assert (Hp : forall q, In q (preds g b) -> q = p) by (rewrite E; intros q [<-|[]]; reflexivity).
  assert (Lb : (b < length g)%nat) by (apply (pred_lt2 g b p); rewrite E; left; reflexivity).
  assert (Db : dominates g x b) by (apply dom_pred_rev; [exact Nb|]; intros q Hq; rewrite (Hp q Hq); exact D).
  assert (Ex : x = b) by (destruct (Nat.eq_dec x b) as [Ex|Nx]; [exact Ex|exfalso; apply N; split; assumption]). subst x.
  assert (Dp : dominates g p b) by (apply dom_pred_rev; [exact Nb|]; intros q Hq; rewrite (Hp q Hq); apply dom_refl).
  assert (Epb : p = b). { apply (dom_antisym g p b); [apply (reached g c F); exact Lb|exact Dp|exact D]. } subst p.
  destruct (reached g c F b Lb) as [l W]. revert Nb. clear - W Hp. remember b as b' in W. induction W as [|b0 p l W IH Ep].
  - congruence.
  - subst b0. apply Hp in Ep. subst p. apply IH. reflexivity.
Qed.

Section Main.
  Variables (g : graph) (c : program) (im : list (option nat)) (ph : sets) (added : list var) (d df : sets).
  Hypothesis F : is_function g c.
  Hypothesis B : few g c.
  Hypothesis strict : assigned_first c.
  Hypothesis T : tree g im.
  Hypothesis Ed : domers g = Ok d.
  Let n := length g.
  Hypothesis Hdf : forall a m, In m (get df a) <-> (m < n)%nat /\ frontier g a m.
  Hypothesis inn : sets.
  Hypothesis Hin : forall b v, (b < length c)%nat -> In v (get inn b) <-> needed c b v.
  Hypothesis Pl : phis_placed df inn c (globals c) ph added.
  Hypothesis kinds0 : forall v, merged g c v \/ local c v.

  Let small : zlen g <= 65535. Proof. apply B. Qed.
  Let len : length c = n. Proof. apply (len g c F). Qed.

  Lemma ph_nodup b : NoDup (get ph b). Proof. apply Pl. Qed.
  Lemma ph_needed b v : In v (get ph b) -> needed c b v.
  Proof. intros H. destruct Pl as [_ [_ [P _]]]. destruct (P b v H) as [_ [L [I0 _]]]. apply Hin; assumption. Qed.
  Lemma ph_join b v : In v (get ph b) -> (2 <= length (preds g b))%nat.
  Proof. intros H. destruct Pl as [_ [_ [P _]]]. destruct (P b v H) as [_ [_ [_ [x Hx]]]]. apply Hdf in Hx. apply (join g c x b F). apply Hx. Qed.
  Lemma needed_global b v : needed c b v -> In v (globals c).
  Proof.
    induction 1 as [b v R|b s v Hs _ _ IH]; [|exact IH]. apply globals_in. exists (block_of c b). split; [|exact R].
    pose proof (needed_lt g c F b v (needed_here c b v R)) as L. unfold block_of. apply nth_In. rewrite len. exact L.
  Qed.
  Lemma ph_closed x m v : (x < n)%nat -> writes (ops (block_of c x)) v \/ In v (get ph x) -> frontier g x m -> needed c m v -> In v (get ph m).
  Proof.
    intros L H Fr N. destruct Pl as [_ [_ [_ [P _]]]]. pose proof (needed_lt g c F m v N) as Lm. apply (P v x m); [eapply needed_global; exact N|rewrite len; exact L|exact H|apply Hdf; auto|].
    apply Hin; [rewrite len; exact Lm|exact N].
  Qed.
  Lemma added_spec v : In v added <-> exists b, In v (get ph b). Proof. apply Pl. Qed.
  Lemma kinds v : In v added \/ local c v.
  Proof.
    destruct (kinds0 v) as [[b [m [W [Fr N]]]]|L]; [left|right; exact L]. apply added_spec. exists m. apply (ph_closed b m v); [apply (writes_lt g c F b v W)|left; exact W|exact Fr|exact N].
  Qed.

  Lemma total v : (sum_cnt c ph v (seq 0 n) <= 128)%nat.
  Proof.
    destruct B as [_ [_ [_ Bv]]]. destruct (Bv v) as [js [J1 J2]].
    assert (E : forall l, sum_cnt c ph v l = (length (filter (fun b => mem v (get ph b)) l) + cnt v (flat_map (fun b => flat_map defs (ops b)) (map (block_of c) l)))%nat).
    { induction l as [|b l IH]; [reflexivity|]. unfold sum_cnt in *. cbn [map list_sum fold_right filter flat_map] in *. unfold list_sum in IH. rewrite IH. unfold block_defs. rewrite !cnt_app.
      destruct (mem v (get ph b)) eqn:M.
      - apply mem_iff in M. assert (cnt v (get ph b) = 1%nat). { apply (proj1 (NoDup_count_occ' Nat.eq_dec (get ph b)) (ph_nodup b) v M). } cbn [length]. lia.
      - apply mem_false in M. assert (cnt v (get ph b) = 0%nat) by (apply count_occ_not_In; exact M). lia. }
    rewrite E. rewrite <- len at 2. rewrite blocks_seq. unfold definitions in J2. rewrite filter_count in J2.
    assert (K : (length (filter (fun b => mem v (get ph b)) (seq 0 n)) <= length js)%nat); [|lia].
    apply NoDup_incl_length; [apply NoDup_filter, seq_NoDup|]. intros b Hb. apply filter_In in Hb. destruct Hb as [_ Hb]. apply mem_iff in Hb.
    apply J1; [eapply ph_join; exact Hb|apply ph_needed; exact Hb].
  Qed.

  Let st0 : state := mk_state (fun _ => 0) (fun v => if existsb (fun b => existsb (fun o => mem v (defs o)) (ops b)) c then Some [] else None) [] [].

  Lemma rename_spec : exists st K A, rename g c im ph added = Ok st /\ subtree_result g c ph added 0 st0 st K A.
  Proof.
    unfold rename. fold st0. pose proof (pos g c F) as P0. destruct B as [_ [Bp _]].
    apply (rename_block_spec g c im ph added F small Bp strict T ph_nodup ph_needed ph_closed added_spec kinds total d Ed).
    - exact P0.
    - rewrite len. fold n. lia.
    - split; [|split; [|split; [|split; [|split; [|split; [|split]]]]]].
      + intros v. unfold st0. cbn [number stack]. split; [lia|]. intros l. destruct (existsb _ c); [|discriminate]. intros E. injection E as <-. split; [cbn; lia|intros k []].
      + intros v. reflexivity.
      + apply NoDup_nil.
      + intros x [].
      + intros b v [o [Ho Dv]]. unfold st0. cbn [stack]. destruct (existsb _ c) eqn:E; [discriminate|]. exfalso. apply Bool.not_true_iff_false in E. apply E.
        apply existsb_exists. exists (block_of c b). split.
        * unfold block_of. apply nth_In. rewrite len. apply (writes_lt g c F b v). exists o. auto.
        * apply existsb_exists. exists o. split; [exact Ho|apply mem_iff; exact Dv].
      + apply NoDup_nil.
      + intros v k [].
      + intros a [].
    - intros x _ _ [].
    - intros v Nv. destruct (strict v Nv).
  Qed.

  (** ** the simulation *)
  Variables (st : state) (K : list entry) (A : list arg).
  Hypothesis R : subtree_result g c ph added 0 st0 st K A.
  Let rel := relevant g c (fun v => In v added).

  Lemma result_blocks : done st = map fst K /\ args st = A.
  Proof. destruct R as [_ [E1 [E2 _]]]. rewrite E1, E2. split; reflexivity. Qed.
  Lemma ids_K : NoDup (map eid K).
  Proof. destruct R as [[_ [_ [ND _]]] [E1 _]]. unfold ids in ND. rewrite E1 in ND. cbn [st0 done app] in ND. rewrite map_map in ND. exact ND. Qed.
  Lemma entry_of x : (x < n)%nat -> exists e, In e K /\ eid e = x.
  Proof.
    intros L. destruct R as [_ [_ [_ [Hx _]]]]. assert (I0 : In x (map eid K)) by (apply Hx; split; [exact L|apply entry_dom]).
    apply in_map_iff in I0. destruct I0 as [e [E1 E2]]. exists e. auto.
  Qed.
  Lemma entry_unique e e' : In e K -> In e' K -> eid e = eid e' -> e = e'.
  Proof.
    pose proof ids_K as ND. clear - ND. induction K as [|x l IH]; intros H1 H2 E; [destruct H1|]. cbn [map] in ND. inversion ND; subst.
    destruct H1 as [->|H1], H2 as [->|H2]; [reflexivity| | |apply IH; assumption].
    - exfalso. apply H3. rewrite E. apply in_map. exact H2.
    - exfalso. apply H3. rewrite <- E. apply in_map. exact H1.
  Qed.
  Lemma entry_lt e : In e K -> (eid e < n)%nat.
  Proof. intros H. destruct R as [_ [_ [_ [Hx _]]]]. apply (in_map eid) in H. apply Hx in H. apply H. Qed.
  Lemma entry_good e : In e K -> good_entry c ph e A.
  Proof. destruct R as [_ [_ [_ [_ [_ [H _]]]]]]. apply H. Qed.
  Lemma entry_linked e : In e K -> eid e <> O -> linked_to g c added K e.
  Proof. destruct R as [_ [_ [_ [_ [_ [_ [_ [_ H]]]]]]]]. apply H. Qed.
  Lemma args_right a e : In a A -> In e K -> arg_pred a = eid e -> eout e (arg_var a) = Some (arg_number a).
  Proof.
    intros Ha He E. destruct R as [_ [_ [_ [_ [_ [_ [H _]]]]]]]. destruct (H a Ha) as [e' [He' [E1 E2]]].
    rewrite (entry_unique e e' He He' ltac:(congruence)). exact E2.
  Qed.

  Lemma find_block_ok e : In e K -> find_block (done st) (eid e) = Some (erb e).
  Proof.
    intros He. rewrite (proj1 result_blocks). unfold find_block. pose proof ids_K as ND. clear - He ND. induction K as [|x l IH]; [destruct He|]. cbn [map find]. cbn [map] in ND. inversion ND; subst.
    fold (eid x). destruct He as [->|He].
    - rewrite Nat.eqb_refl. reflexivity.
    - destruct (Nat.eqb (eid x) (eid e)) eqn:E; [|apply IH; assumption]. apply Nat.eqb_eq in E. exfalso. apply H1. rewrite E. apply in_map. exact He.
  Qed.
  Lemma find_arg_ok e s v : In e K -> In s (succs (block_of c (eid e))) -> In v (get ph s) -> exists k, find_arg (args st) s v (eid e) = Some k /\ eout e v = Some k.
  Proof.
    intros He Hs Hv. rewrite (proj2 result_blocks). destruct (entry_good e He) as [_ [_ H]]. destruct (H s v Hs Hv) as [k Hk]. unfold find_arg.
    destruct (find (fun a => _ && _ && _) A) as [a|] eqn:E.
    - apply find_some in E. destruct E as [Ha E]. apply andb_prop in E. destruct E as [E E3]. apply andb_prop in E. destruct E as [E1 E2]. apply Nat.eqb_eq in E1, E2, E3.
      exists (arg_number a). split; [reflexivity|]. rewrite <- E2. apply args_right; assumption.
    - exfalso. eapply find_none in E; [|exact Hk]. cbn [arg_block arg_var arg_pred] in E. rewrite !Nat.eqb_refl in E. discriminate.
  Qed.

  Lemma names_of e : In e K -> map fst (block_names (erb e)) = get ph (eid e) ++ flat_map defs (ops (block_of c (eid e))).
  Proof.
    intros He. destruct (entry_good e He) as [H1 [H2 _]]. unfold block_names. rewrite map_app, H1. f_equal. eapply renamed_defs. exact H2.
  Qed.

  (** the number of a variable at the end of a predecessor is the one at the end of the immediate dominator *)
  Lemma chain_same s p a v : In p (preds g s) -> immediately_dominates g a s -> needed c s v -> ~ In v (get ph s) ->
    forall e ea, In e K -> In ea K -> eid ea = a -> dominates g a (eid e) -> dominates g (eid e) p -> eout e v = eout ea v.
  Proof.
    intros Hp Im Nv Pv. destruct (domers_spec g (graph_ok g c F) (pos g c F) small) as [d' [Ed' [Sh Hd]]].
    assert (Q : forall k e ea, (length (get d' (eid e)) <= k)%nat -> In e K -> In ea K -> eid ea = a -> dominates g a (eid e) -> dominates g (eid e) p -> eout e v = eout ea v);
      [|intros e ea; apply (Q (length (get d' (eid e)))); reflexivity].
    induction k as [|k IH]; intros e ea Lk He Ha Ea D1 D2; pose proof (entry_lt e He) as Le.
    - exfalso. assert (I0 : In (eid e) (get d' (eid e))) by (apply Hd; [exact Le|split; [exact Le|apply dom_refl]]). destruct (get d' (eid e)); [destruct I0|cbn in Lk; lia].
    - destruct (Nat.eq_dec (eid e) a) as [E|Ne]; [rewrite (entry_unique e ea He Ha ltac:(congruence)); reflexivity|].
      assert (Sx : strictly_dominates g a (eid e)) by (split; [exact D1|congruence]).
      destruct (clear_chain g c F (fun b v => In v (get ph b)) ph_closed a s p v (eid e) Hp Im Nv Pv Sx D2) as [Cw Cp].
      assert (Nd : ~ In v (map fst (block_names (erb e)))).
      { rewrite names_of by exact He. intros I0. apply in_app_or in I0. destruct I0 as [I0|I0]; [apply Cp; exact I0|]. apply in_flat_map in I0. destruct I0 as [o Ho]. apply Cw. exists o. exact Ho. }
      unfold eout at 1. rewrite bind_not by exact Nd.
      assert (N0 : eid e <> O). { intros E0. rewrite E0 in Sx. destruct Sx as [Sd Sn]. apply dom_entry in Sd. congruence. }
      destruct (entry_linked e He N0) as [e' [He' [Ie Le']]]. pose proof (entry_lt e' He') as Le2. destruct Ie as [Se Ie].
      assert (Da : dominates g a (eid e')) by (apply Ie; exact Sx).
      rewrite Le'.
      + apply IH; [|exact He'|exact Ha|exact Ea|exact Da|eapply dom_trans; [apply Se|exact D2]].
        assert (Z : (length (get d' (eid e')) < length (get d' (eid e)))%nat); [|lia].
        assert (NDa : NoDup (eid e :: get d' (eid e'))).
        { constructor; [|destruct Sh as [_ Sh]; apply (part_nodup n); apply Sh; exact Le2]. intros J. apply Hd in J; [|exact Le2].
          destruct Se as [Z1 Z2]. apply Z2. apply (dom_antisym g (eid e') (eid e)); [apply (reached g c F); exact Le|exact Z1|apply J]. }
        apply (NoDup_incl_length NDa). intros z [<-|Hz]; apply Hd; try exact Le; [split; [exact Le|apply dom_refl]|].
        apply Hd in Hz; [|exact Le2]. split; [apply Hz|]. eapply dom_trans; [apply Hz|apply Se].
      + apply (relevant_down g c F (fun v => In v added) a (eid e') v Le2 Da).
        apply (needed_relevant g c F strict (fun v => In v added) kinds a s v Im Nv).
  Qed.

  Section Run.
    Context {V W : Type}.
    Variable m : machine V W.

    Lemma phi_values_ok e s env (env' : var * Z -> V) : In e K -> In s (succs (block_of c (eid e))) -> (forall v, needed_after c (eid e) v -> same (eout e) env env' v) ->
      forall ns, (forall v, In v (map fst ns) -> In v (get ph s)) -> phi_values (args st) s (eid e) ns env' = Some (map env (map fst ns)).
    Proof.
      intros He Hs S. induction ns as [|[v j] ns IH]; intros H; [reflexivity|]. cbn [phi_values map fst].
      assert (Hv : In v (get ph s)) by (apply H; left; reflexivity).
      destruct (find_arg_ok e s v He Hs Hv) as [k [E1 E2]]. rewrite E1, IH by (intros w Hw; apply H; right; exact Hw).
      destruct (S v) as [k' [E3 E4]]; [exists s; split; [exact Hs|apply ph_needed; exact Hv]|]. rewrite E2 in E3. injection E3 as <-. rewrite E4. reflexivity.
    Qed.

    Lemma enter_ok e es s env (env' : var * Z -> V) : In e K -> In es K -> eid es = s -> In s (succs (block_of c (eid e))) ->
      (forall v, needed_after c (eid e) v -> same (eout e) env env' v) ->
      exists env1, enter (args st) s (eid e) (rphis (erb es)) env' = Some env1 /\ forall v, needed c s v -> same (bind_names (ein es) (rphis (erb es))) env env1 v.
    Proof.
      intros He Hes Es Hs S. pose proof (entry_good es Hes) as [G1 _]. rewrite Es in G1. unfold enter.
      rewrite (phi_values_ok e s env env' He Hs S) by (rewrite G1; auto). eexists. split; [reflexivity|]. intros v Nv. set (f := fun i => nth i (map env (map fst (rphis (erb es)))) (env' (O, 0))).
      assert (Ef : forall w, exec_assign Nat.eqb (map fst (rphis (erb es))) f env w = env w).
      { intros w. apply assign_self; [reflexivity|]. intros i Hi. unfold f. rewrite (nth_indep _ (env' (O, 0)) (env O)) by (rewrite map_length; exact Hi). rewrite map_nth. reflexivity. }
      assert (Z : same (ein es) env env' v \/ In v (map fst (rphis (erb es)))).
      { rewrite G1. destruct (in_dec Nat.eq_dec v (get ph s)) as [I0|Np]; [right; exact I0|left].
        assert (Hp : In (eid e) (preds g s)) by (apply (edge g c F); exact Hs).
        assert (Ns : s <> O). { intros E0. rewrite E0 in Hp. rewrite (proj2 (proj2 (graph_ok g c F))) in Hp. destruct Hp. }
        assert (Nes : eid es <> O) by congruence.
        destruct (entry_linked es Hes Nes) as [ea [Ha [Ia La]]]. rewrite Es in Ia.
        assert (Eq : ein es v = eout e v).
        { rewrite La by (apply (needed_relevant g c F strict (fun v => In v added) kinds (eid ea) s v Ia Nv)). symmetry.
          apply (chain_same s (eid e) (eid ea) v Hp Ia Nv Np e ea He Ha eq_refl); [|apply dom_refl].
          destruct Ia as [[Da Na] _]. apply (dom_pred g (eid ea) s (eid e) Hp Da Na). }
        destruct (S v) as [k [E1 E2]]; [exists s; auto|]. exists k. split; [congruence|exact E2]. }
      destruct (assign_same (rphis (erb es)) f (ein es) env env' v Z) as [k [E1 E2]]. exists k. split; [exact E1|]. rewrite <- E2. symmetry. apply Ef.
    Qed.

    Lemma block_ok e env env' w : In e K -> (forall v, needed c (eid e) v -> same (bind_names (ein e) (rphis (erb e))) env env' v) ->
      exists env2 env2' w2, exec Nat.eqb m (source_ops (ops (block_of c (eid e)))) env w = (env2, w2) /\ exec name_eqb m (renamed_ops (rops (erb e))) env' w = (env2', w2) /\
        forall v, needed_after c (eid e) v -> same (eout e) env2 env2' v.
    Proof.
      intros He S. destruct (entry_good e He) as [_ [G2 _]].
      destruct (exec_same m (needed_after c (eid e)) _ _ _ env env' w G2) as [env2 [env2' [w2 [E1 [E2 E3]]]]].
      - intros v [Hv|[[s [Hs Nv]] Nw]]; apply S; [apply needed_here; exact Hv|]. apply needed_later with (s := s); assumption.
      - exists env2, env2', w2. split; [exact E1|]. split; [exact E2|]. intros v Nv. destruct (E3 v Nv) as [k [K1 K2]]. exists k. split; [|exact K2].
        unfold eout, block_names. rewrite bind_app. exact K1.
    Qed.

    Lemma runs_same env env' w k :
      match run m c env w k, run_ssa m c (done st) (args st) env' w k with
      | None, None => True
      | Some (b, e1, w1), Some (b', e2, w2) => b = b' /\ w1 = w2 /\ exists e, In e K /\ eid e = b /\ forall v, needed_after c b v -> same (eout e) e1 e2 v
      | _, _ => False
      end.
    Proof.
      induction k as [|k IH]; cbn [run run_ssa].
      - destruct (entry_of O (pos g c F)) as [e [He Ee]].
        assert (Fb := find_block_ok e He). rewrite Ee in Fb. rewrite Fb.
        destruct (block_ok e env env' w He) as [env2 [env2' [w2 [E1 [E2 E3]]]]]; [rewrite Ee; intros v Nv; destruct (strict v Nv)|].
        rewrite Ee in E1, E3. rewrite E1, E2. split; [reflexivity|]. split; [reflexivity|]. exists e. auto.
      - destruct (run m c env w k) as [[[b e1] w1]|], (run_ssa m c (done st) (args st) env' w k) as [[[b' e2] w2]|]; [|destruct IH|destruct IH|exact Logic.I].
        destruct IH as [<- [<- [e [He [Ee S]]]]]. destruct (nth_error (succs (block_of c b)) (branch m b w1)) as [s|] eqn:En; [|exact Logic.I].
        apply nth_error_In in En. assert (Ls : (s < n)%nat) by (apply (pred_lt2 g s b); apply (edge g c F); exact En).
        destruct (entry_of s Ls) as [es [Hes Ees]]. assert (Fb := find_block_ok es Hes). rewrite Ees in Fb. rewrite Fb.
        assert (En' : In s (succs (block_of c (eid e)))) by (rewrite Ee; exact En).
        destruct (enter_ok e es s e1 e2 He Hes Ees En') as [env1 [Ev Sv]]; [rewrite Ee; exact S|]. rewrite Ee in Ev. rewrite Ev.
        destruct (block_ok es e1 env1 w1 Hes) as [env2 [env2' [w2 [E1 [E2 E3]]]]]; [rewrite Ees; exact Sv|].
        rewrite Ees in E1, E3. rewrite E1, E2. split; [reflexivity|]. split; [reflexivity|]. exists es. auto.
    Qed.
  End Run.
End Main.

Lemma ssa_ok g c : is_function g c -> few g c -> assigned_first c -> (forall v, merged g c v \/ local c v) ->
  exists fuel r l, ssa fuel g c = Ok (r, l) /\ NoDup (assigned_names r) /\
    (forall b, (b < length c)%nat -> exists rb, find_block r b = Some rb /\ map fst (flat_map rdefs (rops rb)) = flat_map defs (ops (block_of c b))) /\
    forall V W (m : machine V W) env env' w k, seen (run m c env w k) = seen (run_ssa m c r l env' w k).
Proof.
  intros F B S Ki. pose proof (graph_ok g c F) as G. pose proof (pos g c F) as P. pose proof (program_ok g c F) as Pr. pose proof (len g c F) as Le. destruct B as [B1 [B2 [B3 B4]]].
  destruct (frontiers_spec g G P B1) as [d [im [df [E1 [E2 [E3 [Ld [T Hdf]]]]]]]].
  destruct (live_ok c Pr B3) as [fuel [out [inn [E4 [_ [Hin _]]]]]].
  destruct (add_phi_ok df inn c) as [ph [added [E5 Pl]]].
  - intros x m Hm. apply Hdf in Hm. rewrite Le. apply Hm.
  - intros v Hv. apply globals_in in Hv. destruct Hv as [b0 [Hb R0]]. apply In_nth with (d := mk_block [] []) in Hb. destruct Hb as [b [Lb Eb]]. fold (block_of c b) in Eb. subst b0.
    destruct (reached g c F b ltac:(lia)) as [m W]. destruct (way_head _ _ _ W) as [t ->].
    destruct (assigned_before g c F S b v (needed_here c b v R0) t W) as [y [_ Wy]]. intros E. assert (I0 : In y (var_blocks c v)); [|rewrite E in I0; destruct I0].
    apply var_blocks_in. split; [|exact Wy]. rewrite Le. apply (writes_lt g c F y v Wy).
  - destruct (rename_spec g c im ph added d df F (conj B1 (conj B2 (conj B3 B4))) S T E1 Hdf inn Hin Pl Ki) as [st [K [A [E6 R]]]].
    exists fuel, (done st), (args st). split; [|split; [|split]].
    + unfold ssa. rewrite E1. cbn [bind]. rewrite E2. cbn [bind]. rewrite E3. cbn [bind]. rewrite E4. cbn [bind]. rewrite E5. cbn [bind]. rewrite E6. reflexivity.
    + apply R.
    + intros b Lb. destruct (entry_of g c ph added st K A R b ltac:(lia)) as [e [He Ee]]. exists (erb e). rewrite <- Ee. split; [eapply find_block_ok; eassumption|].
      destruct (entry_good g c ph added st K A R e He) as [_ [G2 _]]. eapply renamed_defs. exact G2.
    + intros V W m env env' w k. pose proof (runs_same g c ph added df F (conj B1 (conj B2 (conj B3 B4))) S Hdf inn Hin Pl Ki st K A R m env env' w k) as Z.
      destruct (run m c env w k) as [[[b e1] w1]|], (run_ssa m c (done st) (args st) env' w k) as [[[b' e2] w2]|]; cbn [seen]; try (destruct Z; fail); [|reflexivity].
      destruct Z as [-> [-> _]]. reflexivity.
Qed.
