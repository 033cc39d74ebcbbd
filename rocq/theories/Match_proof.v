(** Proofs about `match`. *)
From Verif Require Import Base Match_model Match_spec.
Import ListNotations.
Open Scope Z_scope.

Section Proof.
  Variable hash : Z -> Z.
  Variable st : Type.
  Variable eval : nat -> st -> ev st.
  Variable body : nat -> option Z -> st -> bd st.
  Variable carry : Z -> Z.

  Notation run := (run hash st eval body carry).
  Notation fits := (fits st eval carry).
  Notation any_fits := (any_fits st eval carry).
  Notation first_case := (first_case st eval body carry).

  Definition ends m code pc sv fl bn s r : Prop := exists n, run n m code pc sv fl bn s = Some r.

  (** ** Fuel *)

  Lemma run_more n : forall m code pc sv fl bn s r k,
    run n m code pc sv fl bn s = Some r -> run (n + k) m code pc sv fl bn s = Some r.
  Proof.
    induction n as [|n IH]; intros m code pc sv fl bn s r k H; [discriminate|].
    cbn [Nat.add]. cbn [Match_model.run] in *.
    destruct (nth_error code pc) as [[l|e|c|l|l|[e|] t|b]|]; auto.
    - destruct (eval e s); auto.
    - destruct (test hash st eval carry m c sv s); auto.
    - destruct (fl =? 1); auto. destruct (find_label code l); auto.
    - destruct (find_label code l); auto.
    - destruct (eval e s); auto. destruct (_ =? _); auto.
    - destruct (_ =? _); auto.
    - destruct (body b bn s); auto. destruct (find_label code LMatchEnd); auto.
  Qed.

  Lemma run_once m code pc sv fl bn s r1 r2 n1 n2 :
    run n1 m code pc sv fl bn s = Some r1 -> run n2 m code pc sv fl bn s = Some r2 -> r1 = r2.
  Proof.
    intros H1 H2. apply (run_more n1 _ _ _ _ _ _ _ _ n2) in H1. apply (run_more n2 _ _ _ _ _ _ _ _ n1) in H2.
    rewrite Nat.add_comm in H2. congruence.
  Qed.

  (** ** Places *)

  Lemma nth_mid {A} (pre : list A) x suf : nth_error (pre ++ x :: suf) (length pre) = Some x.
  Proof. rewrite nth_error_app2 by lia. now rewrite Nat.sub_diag. Qed.

  Definition no_lab (l : label) (code : list instr) : Prop := forall i, In i code -> is_lab l i = false.

  Lemma no_lab_app l a b : no_lab l a -> no_lab l b -> no_lab l (a ++ b).
  Proof. intros A B i H. apply in_app_or in H as [H|H]; auto. Qed.

  Lemma label_refl l : label_eqb l l = true.
  Proof. destruct l; cbn; auto using Nat.eqb_refl. Qed.

  Lemma find_mid pre l suf : no_lab l pre -> find_label (pre ++ Lab l :: suf) l = Some (length pre).
  Proof.
    induction pre as [|i pre IH]; intros H.
    - cbn. now rewrite label_refl.
    - cbn [app find_label length]. rewrite (H i (or_introl eq_refl)).
      rewrite IH; [reflexivity|]. intros j J. apply H. now right.
  Qed.

  Lemma no_lab_conds l i cs : no_lab l (linear_conds i cs).
  Proof.
    intros x H. unfold linear_conds in H. apply in_app_or in H as [H|[<-|[]]]; [|reflexivity].
    apply in_flat_map in H as (c & _ & [<-|[<-|[]]]); reflexivity.
  Qed.

  Lemma no_lab_auto l m c : no_lab l (linear_auto m c).
  Proof. intros x H. unfold linear_auto in H. destruct (insert_auto_as m c); [destruct H as [<-|[]]; reflexivity|destruct H]. Qed.

  (** ** One case *)

  Definition has_subject (m : mtch) : bool := match subject m with Some _ => true | None => false end.

  (** [hash] tells the asked types from that of the value. *)
  Definition apart_from (sv : Z) (d : cond) : Prop :=
    match d with CIs t => hash t = hash (carry sv) -> t = carry sv | _ => True end.

  Lemma test_fits m d sv s : apart_from sv d -> d <> CWild ->
    match fits (has_subject m) sv d s with
    | Yes _ s' => test hash st eval carry m d sv s = Val _ 1 s'
    | No _ s' => exists v, v <> 1 /\ test hash st eval carry m d sv s = Val _ v s'
    | Out _ s' => test hash st eval carry m d sv s = Gone _ s'
    end.
  Proof.
    intros A W. unfold Match_spec.fits, test, has_subject. destruct d as [t|key e|e|]; [| | |congruence].
    - destruct (Z.eq_dec (carry sv) t) as [<-|N].
      + now rewrite Z.eqb_refl.
      + destruct (hash (carry sv) =? hash t) eqn:E.
        * exfalso. apply N. symmetry. apply A. lia.
        * exists 0. split; [lia|reflexivity].
    - destruct (eval e s) as [w s'|s']; [|reflexivity]. destruct (subject m).
      + destruct (Z.eq_dec w sv) as [->|N]; [now rewrite Z.eqb_refl|].
        destruct (w =? sv) eqn:E; [lia|]. exists 0. split; [lia|reflexivity].
      + destruct (Z.eq_dec w 1) as [->|N]; [reflexivity|]. exists w. auto.
    - destruct (eval e s) as [w s'|s']; [|reflexivity]. destruct (subject m).
      + destruct (Z.eq_dec w sv) as [->|N]; [now rewrite Z.eqb_refl|].
        destruct (w =? sv) eqn:E; [lia|]. exists 0. split; [lia|reflexivity].
      + destruct (Z.eq_dec w 1) as [->|N]; [reflexivity|]. exists w. auto.
  Qed.

  Lemma conds_run m code i pcase pend sv bn r :
    find_label code (LCase i) = Some pcase -> find_label code (LCaseEnd i) = Some pend ->
    forall cs pre suf fl s, code = pre ++ linear_conds i cs ++ suf ->
    (forall d, In d cs -> apart_from sv d /\ d <> CWild) ->
    match any_fits (has_subject m) sv cs s with
    | Yes _ s' => forall fl', ends m code pcase sv fl' bn s' r
    | No _ s' => forall fl', ends m code pend sv fl' bn s' r
    | Out _ s' => r = Left _ s'
    end ->
    ends m code (length pre) sv fl bn s r.
  Proof.
    intros Fc Fe. induction cs as [|d cs IH]; intros pre suf fl s C A K.
    - cbn [Match_spec.any_fits] in K. destruct (K fl) as (n & R). exists (S n). cbn [Match_model.run].
      rewrite C. cbn [linear_conds flat_map app]. rewrite nth_mid.
      rewrite C in Fe. cbn [linear_conds flat_map app] in Fe. rewrite Fe.
      rewrite C in R. exact R.
    - destruct (A d (or_introl eq_refl)) as (A1 & A2).
      pose proof (test_fits m d sv s A1 A2) as T. cbn [Match_spec.any_fits] in K.
      assert (N0 : nth_error code (length pre) = Some (Cond d)).
      { rewrite C. unfold linear_conds. cbn [flat_map app]. apply nth_mid. }
      assert (N1 : nth_error code (S (length pre)) = Some (Bee (LCase i))).
      { rewrite C. unfold linear_conds. cbn [flat_map app].
        replace (S (length pre)) with (length (pre ++ [Cond d])) by (rewrite app_length; cbn; lia).
        change (pre ++ Cond d :: Bee (LCase i) :: (flat_map (fun c => [Cond c; Bee (LCase i)]) cs ++ [Bal (LCaseEnd i)]) ++ suf)
          with (pre ++ [Cond d] ++ Bee (LCase i) :: ((flat_map (fun c => [Cond c; Bee (LCase i)]) cs ++ [Bal (LCaseEnd i)]) ++ suf)).
        rewrite app_assoc. apply nth_mid. }
      destruct (fits (has_subject m) sv d s) as [s'|s'|s'].
      + destruct (K 1) as (n & R). exists (S (S n)). cbn [Match_model.run]. rewrite N0, T.
        rewrite N1. change (1 =? 1) with true. cbv iota. rewrite Fc. exact R.
      + destruct T as (v & V & T).
        assert (E : ends m code (length (pre ++ [Cond d; Bee (LCase i)])) sv v bn s' r).
        { apply (IH _ suf); auto.
          - rewrite C. unfold linear_conds. cbn [flat_map app]. repeat (rewrite <- app_assoc || cbn [app]). reflexivity.
          - intros d' D. apply A. now right. }
        destruct E as (n & R). exists (S (S n)). cbn [Match_model.run]. rewrite N0, T.
        rewrite N1. destruct (v =? 1) eqn:V1; [lia|].
        rewrite app_length in R. cbn [length] in R.
        replace (S (S (length pre))) with (length pre + 2)%nat by lia. exact R.
      + exists 1%nat. cbn [Match_model.run]. rewrite N0, T. now rewrite K.
  Qed.

  Definition outcome (c : case) (bn : option Z) (s : st) : out st :=
    match body (handle c) bn s with
    | Falls _ s' | Rets _ s' => Finished _ s'
    | Leaves _ s' => Left _ s'
    end.

  Lemma end_run m code pre sv fl bn s :
    code = pre ++ [Lab LMatchEnd] -> ends m code (length pre) sv fl bn s (Finished _ s).
  Proof.
    intros C. exists 2%nat. cbn [Match_model.run]. rewrite C, nth_mid.
    replace (nth_error (pre ++ [Lab LMatchEnd]) (S (length pre))) with (@None instr); [reflexivity|].
    symmetry. apply nth_error_None. rewrite app_length. cbn. lia.
  Qed.

  Lemma body_run m code c pre suf fin sv fl bn s :
    code = pre ++ Body (handle c) :: Bal LMatchEnd :: suf ->
    code = fin ++ [Lab LMatchEnd] -> find_label code LMatchEnd = Some (length fin) ->
    ends m code (length pre) sv fl bn s (outcome c bn s).
  Proof.
    intros C E F. unfold outcome.
    assert (N0 : nth_error code (length pre) = Some (Body (handle c))) by (rewrite C; apply nth_mid).
    assert (N1 : nth_error code (S (length pre)) = Some (Bal LMatchEnd)).
    { rewrite C. replace (S (length pre)) with (length (pre ++ [Body (handle c)])) by (rewrite app_length; cbn; lia).
      change (pre ++ Body (handle c) :: Bal LMatchEnd :: suf) with (pre ++ [Body (handle c)] ++ Bal LMatchEnd :: suf).
      rewrite app_assoc. apply nth_mid. }
    destruct (body (handle c) bn s) as [s'|s'|s'] eqn:B.
    - destruct (end_run m code fin sv fl bn s' E) as (n & R). exists (S (S n)). cbn [Match_model.run].
      rewrite N0, B, N1, F. exact R.
    - destruct (end_run m code fin sv fl bn s' E) as (n & R). exists (S n). cbn [Match_model.run].
      rewrite N0, B, F. exact R.
    - exists 1%nat. cbn [Match_model.run]. now rewrite N0, B.
  Qed.

  (** From the label of a case on. *)
  Lemma handle_run m code i c pre suf fin sv fl s :
    code = pre ++ Lab (LCase i) :: linear_auto m c ++ [Body (handle c); Bal LMatchEnd] ++ suf ->
    code = fin ++ [Lab LMatchEnd] -> find_label code LMatchEnd = Some (length fin) ->
    (forall t e, insert_auto_as m c = Some t -> subject m = Some e ->
       carry sv = t /\ (call m = false -> eval e s = Val _ sv s)) ->
    ends m code (length pre) sv fl None s (outcome c (bound (has_subject m) sv c) s).
  Proof.
    intros C E F A.
    assert (N0 : nth_error code (length pre) = Some (Lab (LCase i))) by (rewrite C; apply nth_mid).
    assert (B : bound (has_subject m) sv c = match insert_auto_as m c with Some _ => Some sv | None => None end).
    { unfold bound, has_subject, insert_auto_as. destruct (subject m), (conds c) as [|[] []]; auto.
      now destruct (binding c). }
    rewrite B. unfold linear_auto in C. destruct (insert_auto_as m c) as [t|] eqn:I.
    - assert (S0 : exists e, subject m = Some e).
      { unfold insert_auto_as in I. destruct (subject m); [eauto|discriminate]. }
      destruct S0 as (e & S0). destruct (A t e eq_refl S0) as (A1 & A2). rewrite S0 in C.
      assert (N1 : nth_error code (S (length pre)) = Some (Auto (if call m then None else Some e) t)).
      { rewrite C. replace (S (length pre)) with (length (pre ++ [Lab (LCase i)])) by (rewrite app_length; cbn; lia).
        cbn [app]. change (pre ++ Lab (LCase i) :: ?x) with (pre ++ [Lab (LCase i)] ++ x).
        rewrite app_assoc. apply nth_mid. }
      destruct (body_run m code c (pre ++ [Lab (LCase i); Auto (if call m then None else Some e) t]) suf fin
                  sv fl (Some sv) s) as (n & R); auto.
      { rewrite C. rewrite <- app_assoc. reflexivity. }
      rewrite app_length in R. cbn [length] in R.
      exists (S (S n)). cbn [Match_model.run]. rewrite N0, N1.
      replace (S (S (length pre))) with (length pre + 2)%nat by lia.
      rewrite A1 in *. destruct (call m).
      + rewrite Z.eqb_refl. exact R.
      + rewrite (A2 eq_refl), A1, Z.eqb_refl. exact R.
    - destruct (body_run m code c (pre ++ [Lab (LCase i)]) suf fin sv fl None s) as (n & R); auto.
      { rewrite C. rewrite <- app_assoc. reflexivity. }
      rewrite app_length in R. cbn [length] in R. exists (S n). cbn [Match_model.run]. rewrite N0.
      replace (S (length pre)) with (length pre + 1)%nat by lia. exact R.
  Qed.

  (** ** All cases *)

  Definition pure_cond (hs : bool) (sv : Z) (d : cond) : Prop :=
    forall s, fits hs sv d s = Yes _ s \/ fits hs sv d s = No _ s.
  Definition sure (hs : bool) (sv : Z) (d : cond) : Prop := forall s, fits hs sv d s = Yes _ s.

  Lemma any_pure hs sv cs : (forall d, In d cs -> pure_cond hs sv d) -> forall s,
    any_fits hs sv cs s = Yes _ s \/ any_fits hs sv cs s = No _ s.
  Proof.
    induction cs as [|d cs IH]; intros P s; cbn [Match_spec.any_fits]; [now right|].
    destruct (P d (or_introl eq_refl) s) as [->| ->]; [now left|]. apply IH. intros d' D. apply P. now right.
  Qed.

  Lemma any_sure hs sv cs d : In d cs -> sure hs sv d -> forall s s', any_fits hs sv cs s <> No _ s'.
  Proof.
    intros D Su. induction cs as [|d' cs IH]; [easy|]. intros s s'. cbn [Match_spec.any_fits].
    destruct D as [->|D]; [now rewrite Su|].
    destruct (fits hs sv d' s); try discriminate. now apply IH.
  Qed.

  (** The last case is the default, or it fits when no other does. *)
  Definition complete (hs : bool) (sv : Z) (cs : list case) : Prop :=
    forall l c, cs = l ++ [c] ->
      is_default c = true \/
      (forall d, In d (conds c) -> pure_cond hs sv d) /\
      exists c' d, In c' cs /\ In d (conds c') /\ sure hs sv d.

  Definition rebinds (m : mtch) (sv : Z) (cs : list case) (s : st) : Prop :=
    forall e c, subject m = Some e -> In c cs -> binding c = true -> call m = false ->
      eval e s = Val _ sv s /\
      (forall c' d, In c' cs -> In d (conds c') -> d = CWild \/ exists t, d = CIs t).

  Lemma not_default c : is_default c = false -> forall d, In d (conds c) -> d <> CWild.
  Proof.
    unfold is_default. intros H d D ->.
    assert (X : existsb is_wild (conds c) = true) by (apply existsb_exists; exists CWild; auto). congruence.
  Qed.

  Lemma is_only hs sv cs : (forall d, In d cs -> d = CWild \/ exists t, d = CIs t) -> forall s,
    any_fits hs sv cs s = Yes _ s \/ any_fits hs sv cs s = No _ s.
  Proof.
    intros H. apply any_pure. intros d D s. destruct (H d D) as [->|(t & ->)]; cbn; [now left|].
    destruct (Z.eq_dec (carry sv) t); auto.
  Qed.

  Lemma auto_bound m sv c s s1 t : insert_auto_as m c = Some t ->
    any_fits (has_subject m) sv (conds c) s = Yes _ s1 -> carry sv = t /\ s1 = s /\ binding c = true.
  Proof.
    unfold insert_auto_as. destruct (subject m) as [e|]; [|discriminate].
    destruct (conds c) as [|[t'| | |] []]; try discriminate. destruct (binding c); [|discriminate].
    intros [= ->]. cbn. destruct (Z.eq_dec (carry sv) t); [|discriminate]. now intros [= ->].
  Qed.

  Lemma cases_run m code sv fin :
    code = fin ++ [Lab LMatchEnd] -> find_label code LMatchEnd = Some (length fin) ->
    forall cs i pre fl s, code = pre ++ linear_cases m i cs ++ [Lab LMatchEnd] ->
    (forall j, (i <= j)%nat -> no_lab (LCase j) pre /\ no_lab (LCaseEnd j) pre) ->
    (forall c d, In c cs -> In d (conds c) -> apart_from sv d) ->
    analyzer_cases cs = true -> complete (has_subject m) sv cs -> rebinds m sv cs s ->
    ends m code (length pre) sv fl None s (first_case (has_subject m) sv cs s).
  Proof.
    intros E F. induction cs as [|c cs IH]; intros i pre fl s C L A W P Q.
    - cbn [linear_cases app] in C. cbn [Match_spec.first_case]. now apply end_run.
    - cbn [linear_cases] in C. cbn [Match_spec.first_case].
      set (last := match cs with [] => true | _ => false end) in *.
      unfold linear_case in C.
      destruct (is_default c || last) eqn:Skip.
      + (* not tested *)
        assert (Y : any_fits (has_subject m) sv (conds c) s = Yes _ s).
        { cbn [analyzer_cases] in W. destruct (is_default c) eqn:D.
          - apply andb_prop in W as (W & _). apply andb_prop in W as (W & _).
            unfold is_default in D. destruct (conds c) as [|d [|]]; try discriminate.
            destruct d; try discriminate. reflexivity.
          - cbn [orb] in Skip. subst last. destruct cs; [|discriminate].
            destruct (P [] c eq_refl) as [X|(P1 & c' & d & [<-|[]] & I2 & I3)]; [congruence|].
            destruct (any_pure _ _ _ P1 s) as [Y|Y]; [exact Y|].
            exfalso. exact (any_sure _ _ _ d I2 I3 s s Y). }
        rewrite Y. cbn [app] in C.
        apply (handle_run m code i c pre
                 (Lab (LCaseEnd i) :: linear_cases m (S i) cs ++ [Lab LMatchEnd]) fin); auto.
        * rewrite C. repeat (rewrite <- app_assoc || cbn [app]). reflexivity.
        * intros t e I Se. destruct (auto_bound _ _ _ _ _ _ I Y) as (X & _ & B). split; [exact X|].
          intros Cl. exact (proj1 (Q e c Se (or_introl eq_refl) B Cl)).
      + (* tested *)
        apply orb_false_elim in Skip as (D & La).
        set (tail := linear_cases m (S i) cs ++ [Lab LMatchEnd]).
        set (mid := linear_auto m c ++ [Body (handle c); Bal LMatchEnd]).
        assert (C1 : code = (pre ++ linear_conds i (conds c)) ++ Lab (LCase i) :: mid ++ Lab (LCaseEnd i) :: tail).
        { rewrite C. subst mid tail. repeat (rewrite <- app_assoc || cbn [app]). reflexivity. }
        assert (C2 : code = (pre ++ linear_conds i (conds c) ++ Lab (LCase i) :: mid) ++ Lab (LCaseEnd i) :: tail).
        { rewrite C1. repeat (rewrite <- app_assoc || cbn [app]). reflexivity. }
        assert (Fc : find_label code (LCase i) = Some (length (pre ++ linear_conds i (conds c)))).
        { rewrite C1. apply find_mid. apply no_lab_app; [apply L; lia|now apply no_lab_conds]. }
        assert (NoMid : forall l, no_lab l mid).
        { intros l. apply no_lab_app; [apply no_lab_auto|]. intros x [<-|[<-|[]]]; reflexivity. }
        assert (Fe : find_label code (LCaseEnd i) = Some (length (pre ++ linear_conds i (conds c) ++ Lab (LCase i) :: mid))).
        { rewrite C2. apply find_mid. apply no_lab_app; [apply L; lia|].
          apply no_lab_app; [now apply no_lab_conds|]. intros x [<-|X]; [reflexivity|now apply NoMid]. }
        apply (conds_run m code i _ _ sv None _ Fc Fe (conds c) pre (Lab (LCase i) :: mid ++ Lab (LCaseEnd i) :: tail)).
        * rewrite C1. rewrite <- app_assoc. reflexivity.
        * intros d Dd. split; [apply (A c d); auto; now left|now apply (not_default c)].
        * destruct (any_fits (has_subject m) sv (conds c) s) as [s'|s'|s'] eqn:Y; [| |reflexivity].
          -- intros fl'. apply (handle_run m code i c _ (Lab (LCaseEnd i) :: tail) fin); auto.
             ++ rewrite C1. subst mid. repeat (rewrite <- app_assoc || cbn [app]). reflexivity.
             ++ intros t e I Se. destruct (auto_bound _ _ _ _ _ _ I Y) as (X & -> & B). split; [exact X|].
                intros Cl. exact (proj1 (Q e c Se (or_introl eq_refl) B Cl)).
          -- intros fl'.
             assert (R : ends m code (length (pre ++ linear_conds i (conds c) ++ Lab (LCase i) :: mid ++ [Lab (LCaseEnd i)]))
                           sv fl' None s' (first_case (has_subject m) sv cs s')).
             { apply (IH (S i)).
               - rewrite C2. subst tail. repeat (rewrite <- app_assoc || cbn [app]). reflexivity.
               - intros j J. destruct (L j ltac:(lia)) as (L1 & L2).
                 assert (Z1 : label_eqb (LCase i) (LCase j) = false) by (cbn; apply Nat.eqb_neq; lia).
                 assert (Z2 : label_eqb (LCaseEnd i) (LCaseEnd j) = false) by (cbn; apply Nat.eqb_neq; lia).
                 split; (apply no_lab_app; [assumption|]; apply no_lab_app; [now apply no_lab_conds|]);
                   (intros x [<-|X]; [first [exact Z1|reflexivity]|]);
                   (apply in_app_or in X as [X|[<-|[]]]; [now apply NoMid|first [exact Z2|reflexivity]]).
               - intros c' d I1 I2. apply (A c' d); auto. now right.
               - cbn [analyzer_cases] in W. now apply andb_prop in W as (_ & W).
               - intros l c0 Ec. destruct (P (c :: l) c0) as [X|(P1 & c' & d & I1 & I2 & I3)].
                 + now rewrite Ec.
                 + now left.
                 + right. split; [exact P1|]. destruct I1 as [<-|I1]; [|eauto].
                   exfalso. exact (any_sure _ _ _ d I2 I3 s s' Y).
               - intros e c' Se I1 B Cl. destruct (Q e c' Se (or_intror I1) B Cl) as (Q1 & Q2).
                 destruct (is_only (has_subject m) sv (conds c) (fun d Dd => Q2 c d (or_introl eq_refl) Dd) s) as [X|X];
                   rewrite X in Y; [discriminate|]. injection Y as <-.
                 split; [exact Q1|]. intros c2 d J1 J2. apply (Q2 c2 d); auto. now right. }
             destruct R as (n & R). exists (S n). cbn [Match_model.run].
             rewrite C2, nth_mid. rewrite <- C2.
             replace (S (length (pre ++ linear_conds i (conds c) ++ Lab (LCase i) :: mid)))
               with (length (pre ++ linear_conds i (conds c) ++ Lab (LCase i) :: mid ++ [Lab (LCaseEnd i)])); [exact R|].
             rewrite !app_length. cbn [length]. rewrite app_length. cbn [length]. lia.
  Qed.

  Lemma no_end_cases m cs : forall i, no_lab LMatchEnd (linear_cases m i cs).
  Proof.
    induction cs as [|c cs IH]; intros i x H; [easy|]. cbn [linear_cases] in H.
    apply in_app_or in H as [H|H]; [|now apply (IH (S i))]. unfold linear_case in H.
    apply in_app_or in H as [H|H].
    - destruct (_ || _); [easy|]. exact (no_lab_conds LMatchEnd i (conds c) x H).
    - cbn [app] in H. destruct H as [<-|H]; [reflexivity|].
      apply in_app_or in H as [H|H]; [now apply (no_lab_auto LMatchEnd m c)|].
      destruct H as [<-|[<-|[<-|[]]]]; reflexivity.
  Qed.

  (** The whole of a match. *)
  Lemma match_run m s :
    analyzer_cases (cases m) = true ->
    (forall e v s', subject m = Some e -> eval e s = Val _ v s' ->
      (forall c d, In c (cases m) -> In d (conds c) -> apart_from v d) /\
      complete true v (cases m) /\ rebinds m v (cases m) s') ->
    (subject m = None -> complete false 0 (cases m) /\ forall c d, In c (cases m) -> In d (conds c) -> apart_from 0 d) ->
    ends m (linear_match m) 0 0 0 None s (meaning st eval body carry m s).
  Proof.
    intros W H1 H2. unfold linear_match, meaning.
    destruct (subject m) as [e|] eqn:Se.
    - set (code := [Lab LMatch] ++ [Subj e] ++ linear_cases m 0 (cases m) ++ [Lab LMatchEnd]).
      assert (E : code = ([Lab LMatch; Subj e] ++ linear_cases m 0 (cases m)) ++ [Lab LMatchEnd]) by reflexivity.
      assert (F : find_label code LMatchEnd = Some (length ([Lab LMatch; Subj e] ++ linear_cases m 0 (cases m)))).
      { rewrite E. apply find_mid. apply no_lab_app; [|apply no_end_cases]. intros x [<-|[<-|[]]]; reflexivity. }
      destruct (eval e s) as [v s'|s'] eqn:Ev.
      + destruct (H1 e v s' eq_refl Ev) as (A & P & Q).
        assert (Hs : has_subject m = true) by (unfold has_subject; now rewrite Se).
        destruct (cases_run m code v _ E F (cases m) 0%nat [Lab LMatch; Subj e] 0 s') as (n & R); auto.
        * intros j _. split; intros x [<-|[<-|[]]]; reflexivity.
        * now rewrite Hs.
        * exists (S (S n)). cbn [Match_model.run]. change (nth_error code 0) with (Some (Lab LMatch)).
          change (nth_error code 1) with (Some (Subj e)). cbv iota. rewrite Ev. rewrite Hs in R. exact R.
      + exists 2%nat. cbn [Match_model.run]. change (nth_error code 0) with (Some (Lab LMatch)).
        change (nth_error code 1) with (Some (Subj e)). cbv iota. now rewrite Ev.
    - set (code := [Lab LMatch] ++ [] ++ linear_cases m 0 (cases m) ++ [Lab LMatchEnd]).
      assert (E : code = ([Lab LMatch] ++ linear_cases m 0 (cases m)) ++ [Lab LMatchEnd]) by reflexivity.
      assert (F : find_label code LMatchEnd = Some (length ([Lab LMatch] ++ linear_cases m 0 (cases m)))).
      { rewrite E. apply find_mid. apply no_lab_app; [|apply no_end_cases]. intros x [<-|[]]; reflexivity. }
      destruct (H2 eq_refl) as (P & A).
      assert (Hs : has_subject m = false) by (unfold has_subject; now rewrite Se).
      destruct (cases_run m code 0 _ E F (cases m) 0%nat [Lab LMatch] 0 s) as (n & R); auto.
      + intros j _. split; intros x [<-|[]]; reflexivity.
      + now rewrite Hs.
      + intros e c X. congruence.
      + exists (S n). cbn [Match_model.run]. change (nth_error code 0) with (Some (Lab LMatch)).
        cbv iota. rewrite Hs in R. exact R.
  Qed.
  (** ** What the checks give *)

  Lemma default_last cs : analyzer_cases cs = true -> forall c', In c' cs -> is_default c' = true ->
    forall l c, cs = l ++ [c] -> is_default c = true.
  Proof.
    induction cs as [|x cs IH]; intros W c' I D l c E; [easy|]. cbn [analyzer_cases] in W.
    apply andb_prop in W as (W1 & W2). destruct l as [|y l]; cbn [app] in E.
    - injection E as -> ->. destruct I as [->|[]]. exact D.
    - injection E as -> E. destruct I as [->|I].
      + rewrite D in W1. apply andb_prop in W1 as (_ & W1). destruct cs; [|discriminate].
        now destruct l.
      + now apply (IH W2 c' I D l).
  Qed.

  Lemma in_table cs d : In d (table cs) -> exists c, In c cs /\ is_default c = false /\ In d (conds c).
  Proof.
    unfold table. intros H. apply in_flat_map in H as (c & I & H). exists c.
    destruct (is_default c); [easy|auto].
  Qed.

  Lemma table_in cs c d : In c cs -> is_default c = false -> In d (conds c) -> In d (table cs).
  Proof. intros I D H. unfold table. apply in_flat_map. exists c. now rewrite D. Qed.

  Lemma accepted_complete m v :
    accepted hash m = true -> belongs carry (kind m) v -> plain_enum st eval m ->
    (forall c d, In c (cases m) -> In d (conds c) -> apart_from v d) ->
    complete (has_subject m) v (cases m).
  Proof.
    intros Ac Be Pe A l c E. unfold accepted in Ac.
    apply andb_prop in Ac as (Ac & Su). apply andb_prop in Ac as (W & Inf).
    unfold infer_match in Inf. apply andb_prop in Inf as (I1 & I2).
    destruct (is_default c) eqn:D; [now left|right].
    destruct (existsb is_default (cases m)) eqn:X.
    { apply existsb_exists in X as (c' & X1 & X2).
      pose proof (default_last _ W c' X1 X2 l c E). congruence. }
    cbn [orb] in I2. rewrite forallb_forall in I1.
    assert (Inc : In c (cases m)) by (rewrite E; apply in_or_app; right; now left).
    unfold exhaustive in I2. destruct (kind m) as [els|tags|props| | |] eqn:K; try discriminate.
    - split.
      + intros d Dd s. specialize (I1 d (table_in _ c d Inc D Dd)). destruct d; try discriminate.
        cbn. destruct (Z.eq_dec (carry v) t); auto.
      + cbn [belongs] in Be. rewrite forallb_forall in I2. specialize (I2 _ Be).
        apply existsb_exists in I2 as (d & T & H). destruct (in_table _ _ T) as (c' & T1 & _ & T2).
        exists c', d. split; [exact T1|]. split; [exact T2|]. destruct d as [t| | |]; try discriminate.
        specialize (A c' _ T1 T2). cbn [apart_from] in A. intros s. cbn.
        destruct (Z.eq_dec (carry v) t); [reflexivity|]. exfalso. apply n. symmetry. apply A. lia.
    - split.
      + intros d Dd s. specialize (I1 d (table_in _ c d Inc D Dd)). destruct d; try discriminate.
        cbn. destruct (Z.eq_dec (carry v) t); auto.
      + cbn [belongs] in Be. rewrite forallb_forall in I2. specialize (I2 _ Be).
        apply existsb_exists in I2 as (d & T & H). destruct (in_table _ _ T) as (c' & T1 & _ & T2).
        exists c', d. split; [exact T1|]. split; [exact T2|]. destruct d as [t| | |]; try discriminate.
        intros s. cbn. destruct (Z.eq_dec (carry v) t); [reflexivity|lia].
    - unfold plain_enum in Pe. rewrite K in Pe. destruct Pe as (Pc & Pl).
      assert (Hs : has_subject m = true) by (unfold has_subject; now destruct (subject m)).
      rewrite Hs. split.
      + intros d Dd s. pose proof (Pl c l E) as M.
        assert (Nw : ~ In CWild (conds c)) by (intros Z0; exact (not_default c D _ Z0 eq_refl)).
        specialize (M Nw d Dd). destruct d as [|key e| |]; try contradiction. destruct M as (w & M).
        pose proof (Pc c _ Inc Dd w s M) as Ev. cbn. rewrite Ev. destruct (Z.eq_dec w v); auto.
      + cbn [belongs] in Be. destruct Be as (n & Be). rewrite forallb_forall in I2. specialize (I2 _ Be).
        apply existsb_exists in I2 as (d & T & H). destruct (in_table _ _ T) as (c' & T1 & _ & T2).
        exists c', d. split; [exact T1|]. split; [exact T2|]. destruct d as [|key e| |]; try discriminate.
        cbn [fst] in H. assert (key = n) as -> by lia.
        intros s. cbn. rewrite (Pc c' _ T1 T2 v s Be). destruct (Z.eq_dec v v); congruence.
  Qed.

  Lemma asked_in m t : In t (asked m) <-> exists c, In c (cases m) /\ In (CIs t) (conds c).
  Proof.
    unfold asked. rewrite in_flat_map. split.
    - intros (c & I & H). apply in_flat_map in H as (d & J & H). exists c. destruct d; try easy.
      destruct H as [->|[]]. auto.
    - intros (c & I & H). exists c. split; [exact I|]. apply in_flat_map. exists (CIs t). cbn. auto.
  Qed.

  Lemma match_means m s :
    accepted hash m = true -> plain_enum st eval m -> rebinds_well st eval m ->
    (forall e v s', subject m = Some e -> eval e s = Val _ v s' -> belongs carry (kind m) v /\
       forall t, In t (asked m) -> hash t = hash (carry v) -> t = carry v) ->
    ends m (linear_match m) 0 0 0 None s (meaning st eval body carry m s).
  Proof.
    intros Ac Pe Rw H. apply match_run.
    - unfold accepted in Ac. apply andb_prop in Ac as (Ac & _). now apply andb_prop in Ac as (W & _).
    - intros e v s' Se Ev. destruct (H e v s' Se Ev) as (Be & As).
      assert (A : forall c d, In c (cases m) -> In d (conds c) -> apart_from v d).
      { intros c d I J. destruct d as [t| | |]; try exact Logic.I. cbn [apart_from]. apply As.
        apply asked_in. eauto. }
      split; [exact A|]. split.
      + replace true with (has_subject m) by (unfold has_subject; now rewrite Se).
        now apply accepted_complete.
      + intros e' c Se' I B Cl. destruct (Rw e' c Se' I B Cl) as (R1 & R2).
        assert (e' = e) as -> by congruence. pose proof (R1 _ _ _ Ev) as ->. split; [exact Ev|exact R2].
    - intros Sn.
      assert (K : kind m = KOther).
      { unfold accepted in Ac. rewrite Sn in Ac. apply andb_prop in Ac as (_ & Ac).
        now destruct (kind m). }
      assert (A : forall c d, In c (cases m) -> In d (conds c) -> apart_from 0 d).
      { intros c d I J. destruct d as [t| | |]; try exact Logic.I. exfalso.
        unfold accepted, infer_match in Ac. apply andb_prop in Ac as (Ac & _). apply andb_prop in Ac as (W & Ac).
        apply andb_prop in Ac as (Ac & _). rewrite forallb_forall in Ac.
        destruct (is_default c) eqn:D.
        - destruct (in_split _ _ I) as (l & r & Ec).
          assert (Wl : forall cs, analyzer_cases cs = true -> In c cs -> length (conds c) = 1%nat).
          { clear -D. induction cs as [|x cs IH]; [easy|]. cbn [analyzer_cases]. intros W [->|I].
            - rewrite D in W. apply andb_prop in W as (W & _). apply andb_prop in W as (W & _).
              now apply Nat.eqb_eq.
            - apply IH; auto. now apply andb_prop in W as (_ & W). }
          specialize (Wl _ W I). unfold is_default in D. destruct (conds c) as [|d [|]]; try discriminate.
          destruct J as [->|[]]. discriminate.
        - specialize (Ac _ (table_in _ c _ I D J)). rewrite K in Ac. discriminate. }
      split; [|exact A].
      replace false with (has_subject m) by (unfold has_subject; now rewrite Sn).
      apply accepted_complete; auto. rewrite K. exact Logic.I.
  Qed.
End Proof.
