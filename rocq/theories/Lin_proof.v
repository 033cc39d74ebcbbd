(** The compiled code does what the statements mean. *)
From Coq Require Import Permutation.
From Verif Require Import Base Lin_model Lin_spec.
Local Open Scope nat_scope.

Lemma bind_inv : forall A B (x : res A) (f : A -> res B) b, bind x f = Ok b -> exists a, x = Ok a /\ f a = Ok b.
Proof. intros A B x f b H. destruct x; try discriminate H. eauto. Qed.

Ltac bnd H x E := let R := fresh in
  apply bind_inv in H; destruct H as (x & E & R); rename R into H.
Ltac bnd2 H c n E := let x := fresh in bnd H x E; destruct x as (c & n); cbv beta iota in H.
Ltac bnd3 H c o n E := let x := fresh in bnd H x E; destruct x as ((c & o) & n); cbv beta iota in H.
Ltac okinv H := injection H; clear H; repeat match goal with |- _ = _ -> _ => intro end; subst.

(** * Counters and labels *)
Definition labels (code : list op) : list nat :=
  flat_map (fun i => match i with Label l => [l] | _ => [] end) code.
Lemma labels_app : forall a b, labels (a ++ b) = labels a ++ labels b.
Proof. intros. apply flat_map_app. Qed.

(** Labels of [code] are distinct and taken from [n, n'). *)
Definition fresh (n n' : nat) (code : list op) : Prop :=
  n <= n' /\ NoDup (labels code) /\ forall l, In l (labels code) -> n <= l < n'.

Lemma NoDup_app_intro : forall (a b : list nat), NoDup a -> NoDup b -> (forall x, In x a -> ~ In x b) -> NoDup (a ++ b).
Proof.
  induction a as [|x a IH]; intros b Ha Hb Hd; [exact Hb|]. cbn [app]. inversion Ha; subst.
  constructor.
  - rewrite in_app_iff. intros [H|H]; [tauto|]. apply (Hd x); [left; reflexivity|exact H].
  - apply IH; auto. intros y Hy. apply Hd. right. exact Hy.
Qed.

Lemma fresh_nil : forall n, fresh n n [].
Proof. intros n. split; [lia|]. split; [constructor|]. intros l []. Qed.
Lemma fresh_app : forall n1 n2 n3 a b, fresh n1 n2 a -> fresh n2 n3 b -> fresh n1 n3 (a ++ b).
Proof.
  intros n1 n2 n3 a b (L1 & D1 & B1) (L2 & D2 & B2). split; [lia|]. rewrite labels_app. split.
  - apply NoDup_app_intro; auto. intros x Hx Hx'. specialize (B1 _ Hx). specialize (B2 _ Hx'). lia.
  - intros l Hl. apply in_app_iff in Hl. destruct Hl as [H|H]; [specialize (B1 _ H)|specialize (B2 _ H)]; lia.
Qed.
(** Code whose labels [ls] are below [n1], put anywhere. *)
Lemma fresh_perm : forall n n' a b, fresh n n' a -> Permutation (labels a) (labels b) -> fresh n n' b.
Proof.
  intros n n' a b (L & D & B) Hp. split; [exact L|]. split.
  - exact (Permutation_NoDup Hp D).
  - intros l Hl. apply B. exact (Permutation_in _ (Permutation_sym Hp) Hl).
Qed.
Lemma fresh_wide : forall n n' m m' a, fresh n n' a -> m <= n -> n' <= m' -> fresh m m' a.
Proof. intros n n' m m' a (L & D & B) H1 H2. split; [lia|]. split; [exact D|]. intros l Hl. specialize (B l Hl). lia. Qed.
Lemma fresh_le : forall n n' a, fresh n n' a -> n <= n'.
Proof. intros n n' a H. exact (proj1 H). Qed.

(** The labels [ls], distinct and in [n, m), and then code with labels from [m, m'). *)
Lemma fresh_labels : forall n m m' (ls : list nat) a b, fresh m m' a -> n <= m -> NoDup ls -> (forall l, In l ls -> n <= l < m) ->
  Permutation (labels b) (ls ++ labels a) -> fresh n m' b.
Proof.
  intros n m m' ls a b (L & D & B) Hn Hd Hl Hp. split; [lia|]. split.
  - apply (Permutation_NoDup (Permutation_sym Hp)). apply NoDup_app_intro; auto.
    intros x Hx Hx'. specialize (Hl _ Hx). specialize (B _ Hx'). lia.
  - intros l H. apply (Permutation_in _ Hp) in H. apply in_app_iff in H.
    destruct H as [H|H]; [specialize (Hl _ H)|specialize (B _ H)]; lia.
Qed.

Ltac lab := rewrite ?labels_app; cbn [labels flat_map app]; rewrite ?labels_app, ?app_nil_r; cbn [labels flat_map app]; rewrite ?app_nil_r.

(** A permutation goal between two concatenations of the same label lists. *)
Ltac count := apply (Permutation_count_occ Nat.eq_dec); intros ?z; unfold labels;
  repeat (progress (rewrite ?flat_map_app, ?count_occ_app; cbn [flat_map app count_occ]));
  repeat match goal with |- context [if Nat.eq_dec ?a ?b then _ else _] => destruct (Nat.eq_dec a b) end; try lia.

Lemma emit_all_fresh : forall emit, (forall c d n code n', emit c d n = Ok (code, n') -> fresh n n' code) ->
  forall ds c n code n', emit_all emit c ds n = Ok (code, n') -> fresh n n' code.
Proof.
  intros emit Hf. induction ds as [|d ds IH]; intros c n code n' H; cbn [emit_all] in H.
  - okinv H. apply fresh_nil.
  - bnd2 H c1 n1 E1. bnd2 H c2 n2 E2. okinv H. apply Hf in E1. apply IH in E2. eapply fresh_app; eauto.
Qed.

Ltac distinct := repeat (constructor; [cbn [In]; lia|]); constructor.
Ltac inside := let l := fresh in let H := fresh in intros l H; cbn [In] in H; lia.

Section freshness.
  Variable emit : ctx -> block -> nat -> res (list op * nat).
  Hypothesis Hemit : forall c d n code n', emit c d n = Ok (code, n') -> fresh n n' code.

  Lemma has_error_fresh : forall c n code n', has_error emit c n = Ok (code, n') -> fresh n n' code.
  Proof.
    intros c n code n' H. unfold has_error in H. bnd2 H cu n1 E. okinv H.
    apply (emit_all_fresh emit Hemit) in E.
    apply (fresh_labels n (n + 3) n' [n + 1; n + 2] cu); auto; try lia; [distinct|inside|count].
  Qed.

  Lemma cexpr_fresh : forall e c n code o n', cexpr emit c e n = Ok (code, o, n') -> fresh n n' code.
  Proof.
    induction e as [z|x|o a IHa b IHb|k o a IHa b IHb|a IHa b IHb|a IHa b IHb|a IHa|q IHq a IHa b IHb|f er a IHa];
      intros c n code r n' H; cbn [cexpr] in H.
    - okinv H. apply fresh_nil.
    - okinv H. apply fresh_nil.
    - bnd3 H ca oa n1 E1. bnd3 H cb ob n2 E2. okinv H. apply IHa in E1. apply IHb in E2.
      apply (fresh_wide (S n) n'); [|lia|lia]. eapply fresh_app; [exact E1|].
      apply (fresh_perm _ _ cb); [exact E2|]. count.
    - bnd3 H ca oa n1 E1. bnd3 H cb ob n2 E2. okinv H. apply IHa in E1. apply IHb in E2.
      apply (fresh_wide (S n) n'); [|lia|lia]. eapply fresh_app; [exact E1|].
      apply (fresh_perm _ _ cb); [exact E2|]. count.
    - bnd3 H ca oa n1 E1. bnd3 H cb ob n2 E2. okinv H. apply IHa in E1. apply IHb in E2.
      apply (fresh_labels n (n + 2) n' [n + 1] (ca ++ cb)); [eapply fresh_app; eassumption|lia|distinct|inside|count].
    - bnd3 H ca oa n1 E1. bnd3 H cb ob n2 E2. okinv H. apply IHa in E1. apply IHb in E2.
      apply (fresh_labels n (n + 2) n' [n + 1] (ca ++ cb)); [eapply fresh_app; eassumption|lia|distinct|inside|count].
    - bnd3 H ca oa n1 E1. apply IHa in E1. destruct oa; okinv H; try exact E1;
        (apply (fresh_wide n n1); [|lia|lia]; apply (fresh_perm _ _ ca); [exact E1|count]).
    - bnd3 H cq oq n0 E0. bnd3 H ca oa n1 E1. bnd3 H cb ob n2 E2. okinv H.
      apply IHq in E0. apply IHa in E1. apply IHb in E2.
      apply (fresh_labels n (n + 3) n' [n + 1; n + 2] (cq ++ ca ++ cb));
        [eapply fresh_app; [eassumption|eapply fresh_app; eassumption]|lia|distinct|inside|count].
    - bnd3 H ca oa n1 E1. apply IHa in E1.
      destruct (if is_var oa then _ else _) as ((cm & arg) & n2) eqn:Em.
      assert (Hm : labels cm = [] /\ n1 <= n2).
      { destruct (is_var oa); okinv Em; split; try reflexivity; lia. }
      destruct Hm as (Hm & Hn). destruct er.
      + bnd2 H ch n3 E2. apply has_error_fresh in E2. okinv H.
        apply (fresh_perm _ _ (ca ++ ch)).
        * eapply fresh_app; [exact E1|]. apply (fresh_wide (S n2) n'); [exact E2|lia|lia].
        * rewrite !labels_app, Hm. cbn [labels flat_map app]. rewrite app_nil_r. apply Permutation_refl.
      + okinv H. apply (fresh_perm _ _ ca).
        * apply (fresh_wide n n1); [exact E1|lia|lia].
        * rewrite !labels_app, Hm. cbn [labels flat_map app]. rewrite app_nil_r. apply Permutation_refl.
  Qed.

  Lemma ccond_fresh : forall q c l is_if n code n', ccond emit c q l is_if n = Ok (code, n') -> fresh n n' code.
  Proof.
    intros q c l is_if n code n' H.
    assert (Hg : forall o z, (r1 <- cexpr emit c q n ;; let '(cq, oq, n1) := r1 in Ok (cq ++ [Bcc KSigned o z oq l], n1)) = Ok (code, n') ->
                 fresh n n' code).
    { intros o z H'. bnd3 H' cq oq n1 E. okinv H'. apply cexpr_fresh in E. apply (fresh_perm _ _ cq); [exact E|count]. }
    destruct q; try exact (Hg _ _ H). clear Hg. cbn [ccond] in H.
    bnd3 H ca oa n1 E1. bnd3 H cb ob n2 E2. okinv H. apply cexpr_fresh in E1. apply cexpr_fresh in E2.
    apply (fresh_perm _ _ (ca ++ cb)); [eapply fresh_app; eassumption|count].
  Qed.

  Lemma cassign_fresh : forall x e c n code n', cassign emit c x e n = Ok (code, n') -> fresh n n' code.
  Proof.
    intros x e c n code n' H. unfold cassign in H. bnd3 H ce oe n1 E. okinv H. apply cexpr_fresh in E.
    apply (fresh_perm _ _ ce); [exact E|count].
  Qed.

  Lemma unwind_fresh : forall c m n code n', unwind emit c m n = Ok (code, n') -> fresh n n' code.
  Proof. intros c m n code n' H. exact (emit_all_fresh emit Hemit _ _ _ _ _ H). Qed.

  Scheme stmt_mut := Induction for stmt Sort Prop with block_mut := Induction for block Sort Prop.
  Combined Scheme stmt_block_ind from stmt_mut, block_mut.

  Lemma cstmt_fresh :
    (forall s c n code n', cstmt emit c s n = Ok (code, n') -> fresh n n' code) /\
    (forall b c n code n', clist emit c b n = Ok (code, n') -> fresh n n' code).
  Proof.
    apply stmt_block_ind.
    - intros e c n code n' H. cbn [cstmt] in H. bnd3 H ce oe n1 E. okinv H. eapply cexpr_fresh; eassumption.
    - intros x e c n code n' H. cbn [cstmt] in H. eapply cassign_fresh; eassumption.
    - intros q a IHa b IHb c n code n' H. cbn [cstmt] in H.
      bnd2 H cq n0 E0. bnd2 H ca n1 E1. apply ccond_fresh in E0. apply IHa in E1.
      destruct (is_empty b) eqn:Eb.
      + okinv H. apply (fresh_labels n (n + 3) n' [n; n + 2] (cq ++ ca));
          [eapply fresh_app; eassumption|lia|distinct|inside|count].
      + bnd2 H cb n2 E2. apply IHb in E2. okinv H.
        apply (fresh_labels n (n + 3) n' [n; n + 1; n + 2] (cq ++ ca ++ cb));
          [eapply fresh_app; [eassumption|eapply fresh_app; eassumption]|lia|distinct|inside|count].
    - intros q b IHb c n code n' H. cbn [cstmt] in H. bnd2 H cb n1 E1. bnd2 H cq n2 E2. okinv H.
      apply IHb in E1. apply ccond_fresh in E2.
      apply (fresh_labels n (n + 4) n' [n; n + 1; n + 2; n + 3] (cb ++ cq));
        [eapply fresh_app; eassumption|lia|distinct|inside|count].
    - intros x e q y u b IHb c n code n' H. cbn [cstmt] in H.
      bnd2 H ci n0 E0. bnd2 H cb n1 E1. bnd2 H cu n2 E2. bnd2 H cq n3 E3. okinv H.
      apply cassign_fresh in E0. apply IHb in E1. apply cassign_fresh in E2. apply ccond_fresh in E3.
      apply (fresh_labels n (n + 5) n' [n; n + 1; n + 2; n + 3; n + 4] (ci ++ cb ++ cu ++ cq));
        [eapply fresh_app; [eassumption|eapply fresh_app; [eassumption|eapply fresh_app; eassumption]]|lia|distinct|inside|count].
    - intros c n code n' H. cbn [cstmt] in H. destruct (c_brk c); [discriminate|]. bnd2 H cu n1 E. okinv H.
      apply unwind_fresh in E. apply (fresh_perm _ _ cu); [exact E|count].
    - intros c n code n' H. cbn [cstmt] in H. destruct (c_cont c); [discriminate|]. bnd2 H cu n1 E. okinv H.
      apply unwind_fresh in E. apply (fresh_perm _ _ cu); [exact E|count].
    - intros [e|] c n code n' H; cbn [cstmt] in H.
      + bnd3 H ce oe n0 E0. bnd2 H cu n1 E1. okinv H. apply cexpr_fresh in E0. apply unwind_fresh in E1.
        apply (fresh_perm _ _ (ce ++ cu)); [eapply fresh_app; eassumption|count].
      + bnd2 H cu n1 E1. okinv H. apply unwind_fresh in E1. apply (fresh_perm _ _ cu); [exact E1|count].
    - intros b IHb x h IHh c n code n' H. cbn [cstmt] in H. bnd2 H cb n1 E1. bnd2 H ch n2 E2. okinv H.
      apply IHb in E1. apply IHh in E2.
      apply (fresh_labels n (n + 2) n' [n; n + 1] (cb ++ ch));
        [eapply fresh_app; eassumption|lia|distinct|inside|count].
    - intros e c n code n' H. cbn [cstmt] in H. bnd3 H ce oe n0 E0. bnd2 H cu n1 E1. okinv H.
      apply cexpr_fresh in E0. apply unwind_fresh in E1.
      apply (fresh_perm _ _ (ce ++ cu)); [|count]. eapply fresh_app; [exact E0|].
      apply (fresh_wide (S n0) n'); [exact E1|lia|lia].
    - intros b _ c n code n' H. cbn [cstmt] in H. okinv H. apply fresh_nil.
    - intros c n code n' H. cbn [clist] in H. exact (emit_all_fresh emit Hemit _ _ _ _ _ H).
    - intros s IHs b IHb c n code n' H. cbn [clist] in H. bnd2 H c1 n1 E1. bnd2 H c2 n2 E2. okinv H.
      apply IHs in E1. apply IHb in E2. eapply fresh_app; eassumption.
  Qed.
End freshness.

Lemma cbody_fresh : forall k c b n code n', cbody k c b n = Ok (code, n') -> fresh n n' code.
Proof.
  induction k as [|k IH]; intros c b n code n' H; cbn [cbody] in H; [discriminate|].
  exact (proj2 (cstmt_fresh (cbody k) IH) _ _ _ _ _ H).
Qed.

Lemma cfun_labels : forall k b code, cfun k b = Ok code -> NoDup (labels code).
Proof.
  intros k b code H. unfold cfun in H. bnd2 H c1 n1 E. okinv H. cbn [fst]. apply cbody_fresh in E. unfold end_label, error_label.
  destruct (fresh_labels 0 2 n1 [1; 0] c1 (c1 ++ [Bal 0; Label 1; Return None; Bal 0; Label 0; FnEnd]) E)
    as (_ & D & _); try exact D; try lia; [distinct|inside|count].
Qed.
