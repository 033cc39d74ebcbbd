(** Proofs about the acceptance test. *)
From Coq Require Import String.
From Verif Require Import Base Types_model Types_spec.
Import ListNotations.
Open Scope Z_scope.

Section ty_ind2.
  Variable P : ty -> Prop.
  Hypothesis step : forall ik id args k subs,
    Forall P args -> Forall P subs -> P (T ik id args k subs).
  Fixpoint ty_ind2 (t : ty) : P t :=
    match t with
    | T ik id args k subs =>
        step ik id args k subs
          ((fix go (l : list ty) : Forall P l :=
              match l with [] => Forall_nil P | x :: l' => Forall_cons x (ty_ind2 x) (go l') end) args)
          ((fix go (l : list ty) : Forall P l :=
              match l with [] => Forall_nil P | x :: l' => Forall_cons x (ty_ind2 x) (go l') end) subs)
    end.
End ty_ind2.

Lemma seq_eq a b : seq a b = true <-> a = b.
Proof.
  revert b; induction a as [|x a IH]; intros [|y b]; cbn [seq]; split; intros E; try discriminate; auto.
  - apply andb_true_iff in E as (E1 & E2). apply Z.eqb_eq in E1. apply IH in E2. congruence.
  - injection E as -> ->. apply andb_true_iff; split; [apply Z.eqb_refl|]. now apply IH.
Qed.

Lemma seq_refl a : seq a a = true.
Proof. now apply seq_eq. Qed.

Lemma existsb_seq n v : existsb (seq n) v = true <-> In n v.
Proof.
  rewrite existsb_exists. split.
  - intros (x & I1 & E). apply seq_eq in E. now subst.
  - intros I1. exists n. split; auto. apply seq_refl.
Qed.

Lemma same_id_eq a b : same_id a b = true -> exists n, a = Some n /\ b = Some n.
Proof.
  destruct a as [a|], b as [b|]; cbn [same_id]; try discriminate.
  intros E. apply seq_eq in E. subst. eauto.
Qed.


Lemma bytes_def_wild ik id k : is_def ik = true -> wildcard ik id k = false.
Proof. now destruct ik. Qed.

Lemma nominal_iff ik k : nominal ik k = is_def ik && negb (is_union k).
Proof. now destruct ik, k. Qed.

Lemma tame_inv ik id args k subs : tame (T ik id args k subs) ->
  (nominal ik k = true /\ ik = IkDef /\ k <> KPtr /\ (exists n, id = Some n) /\ Forall tame args /\
     NoDup (flat_map union_names args)) \/
  (nominal ik k = false /\ (ik = IkDef -> k = KUnion /\ exists n, id = Some n) /\ Forall tame subs /\
     labelled k (List.length subs) /\
     NoDup (flat_map union_names subs) /\
     (k = KUnion -> flat_map union_names subs = []) /\
     (k = KPrim (bytes "ident") -> ik = IkParam) /\
     (forall x, ik = IkBuiltin -> id = Some x -> ~ In x (map bytes ["fn_t"; "integer_t"; "floater_t"]%string))).
Proof.
  intros H. inversion H as [? ? ? ? NU NP Ta ND|n ? ? Ts U|? ? ? ? ND NB Ts U|? ? ? ? ? ND NU L NB KI Ts U]; subst.
  - left. repeat split; eauto. destruct k; try reflexivity. now elim NU.
  - right. split; [reflexivity|]. split; [eauto|]. split; [assumption|]. split; [exact I|].
    split; [rewrite U; constructor|]. split; [auto|]. split; [discriminate|]. intros x; discriminate.
  - right. split; [now destruct ik|]. split; [now intros|]. split; [assumption|]. split; [exact I|].
    split; [rewrite U; constructor|]. split; [auto|]. split; [discriminate|]. intros x Hx Hy. now elim (NB x).
  - right. split; [now destruct ik|]. split; [now intros|]. split; [assumption|]. split; [assumption|].
    split; [assumption|]. split; [now intros|]. split; [assumption|]. intros x Hx Hy. now apply NB.
Qed.

(** ** Names have one meaning *)

Definition agree (ds ss : list ty) : Prop := forall d s, In d ds -> In s ss -> one_meaning d s.

Lemma parts_self t : In t (parts_of t).
Proof. destruct t; now left. Qed.

Lemma parts_sub ik id args k subs x y : In x subs -> In y (parts_of x) -> In y (parts_of (T ik id args k subs)).
Proof.
  intros I1 I2. cbn [parts_of]. right. apply in_app_iff. right. apply in_flat_map. eauto.
Qed.

Lemma parts_arg ik id args k subs x y : In x args -> In y (parts_of x) -> In y (parts_of (T ik id args k subs)).
Proof.
  intros I1 I2. cbn [parts_of]. right. apply in_app_iff. left. apply in_flat_map. eauto.
Qed.

Lemma agree_subs ik id args k subs ik' id' args' k' subs' :
  one_meaning (T ik id args k subs) (T ik' id' args' k' subs') -> agree subs subs'.
Proof.
  intros O d s I1 I2 ? ? ? ? ? ? ? ? ? J1 J2. eapply O; eapply parts_sub; eauto.
Qed.

Lemma agree_args ik id args k subs ik' id' args' k' subs' :
  one_meaning (T ik id args k subs) (T ik' id' args' k' subs') -> agree args args'.
Proof.
  intros O d s I1 I2 ? ? ? ? ? ? ? ? ? J1 J2. eapply O; eapply parts_arg; eauto.
Qed.

Lemma agree_cons d ds s ss : agree (d :: ds) (s :: ss) -> one_meaning d s /\ agree ds ss.
Proof. intros A. split; [apply A; now left|]. intros x y Hx Hy. apply A; now right. Qed.

Lemma agree_tl_l d ds ss : agree (d :: ds) ss -> agree ds ss.
Proof. intros A x y Hx Hy. apply A; auto. now right. Qed.

Lemma agree_tl_r ds s ss : agree ds (s :: ss) -> agree ds ss.
Proof. intros A x y Hx Hy. apply A; auto. now right. Qed.

(** ** The table of entered unions *)

Definition grows (d : ty) : Prop :=
  forall s v b v', type_compare_visited d s v = (b, v') -> tame d -> one_meaning d s ->
    incl v' (v ++ union_names d).

Lemma incl_app_l {A} (a b c : list A) : incl a (b ++ c) -> forall d e, incl e (a ++ d) -> incl e (b ++ c ++ d).
Proof.
  intros I1 d e I2 x Hx. apply I2 in Hx. apply in_app_iff in Hx as [Hx|Hx].
  - apply I1 in Hx. rewrite !in_app_iff in *. tauto.
  - rewrite !in_app_iff. tauto.
Qed.

Lemma each_grows ds : Forall grows ds -> Forall tame ds -> forall ss v b v', agree ds ss ->
  each (map type_compare_visited ds) ss v = (b, v') -> incl v' (v ++ flat_map union_names ds).
Proof.
  induction 1 as [|d ds Hd _ IH]; intros Ht ss v b v' A E.
  - cbn in E. injection E as <- <-. apply incl_appl, incl_refl.
  - inversion Ht as [|? ? T1 T2]; subst. destruct ss as [|s ss].
    + cbn in E. injection E as <- <-. apply incl_appl, incl_refl.
    + apply agree_cons in A as (A1 & A2).
      cbn [map each flat_map] in *. destruct (type_compare_visited d s v) as [b1 v1] eqn:E1.
      pose proof (Hd _ _ _ _ E1 T1 A1) as G. destruct b1.
      * apply IH in E; auto. now apply (incl_app_l v1).
      * injection E as <- <-. rewrite app_assoc. now apply incl_appl.
Qed.

Lemma all_same_grows ds ss v b v' : Forall grows ds -> Forall tame ds -> agree ds ss ->
  all_same (map type_compare_visited ds) ss v = (b, v') -> incl v' (v ++ flat_map union_names ds).
Proof.
  intros G Ht A. unfold all_same.
  match goal with |- (if ?c then _ else _) = _ -> _ => destruct c end.
  - now apply each_grows.
  - intros E. injection E as <- <-. apply incl_appl, incl_refl.
Qed.

Lemma each_named_grows ds : Forall grows ds -> Forall tame ds -> forall ns ms ss v b v', agree ds ss ->
  each_named ns (map type_compare_visited ds) ms ss v = (b, v') -> incl v' (v ++ flat_map union_names ds).
Proof.
  induction 1 as [|d ds Hd _ IH]; intros Ht ns ms ss v b v' A E.
  - destruct ns; cbn in E; injection E as <- <-; apply incl_appl, incl_refl.
  - inversion Ht as [|? ? T1 T2]; subst.
    destruct ns as [|n ns], ms as [|m ms], ss as [|s ss];
      cbn [map each_named flat_map] in *; try (injection E as <- <-; apply incl_appl, incl_refl).
    apply agree_cons in A as (A1 & A2).
    destruct (seq n m); [|injection E as <- <-; apply incl_appl, incl_refl].
    destruct (type_compare_visited d s v) as [b1 v1] eqn:E1.
    pose proof (Hd _ _ _ _ E1 T1 A1) as G. destruct b1.
    + apply IH in E; auto. now apply (incl_app_l v1).
    + injection E as <- <-. rewrite app_assoc. now apply incl_appl.
Qed.

Lemma found_grows ds : Forall grows ds -> Forall tame ds -> forall s v b v',
  (forall d, In d ds -> one_meaning d s) ->
  found (map type_compare_visited ds) s v = (b, v') -> incl v' (v ++ flat_map union_names ds).
Proof.
  induction 1 as [|d ds Hd _ IH]; intros Ht s v b v' A E; cbn [map found flat_map] in *.
  - injection E as <- <-. apply incl_appl, incl_refl.
  - inversion Ht as [|? ? T1 T2]; subst.
    destruct (type_compare_visited d s v) as [b1 v1] eqn:E1.
    pose proof (Hd _ _ _ _ E1 T1 (A d (or_introl eq_refl))) as G. destruct b1.
    + injection E as <- <-. rewrite app_assoc. now apply incl_appl.
    + apply IH in E; auto. 2: { intros x Hx. apply A. now right. } now apply (incl_app_l v1).
Qed.

Lemma union_grows ds : Forall grows ds -> Forall tame ds -> forall ss v b v', agree ds ss ->
  union_compare (map type_compare_visited ds) ss v = (b, v') -> incl v' (v ++ flat_map union_names ds).
Proof.
  intros G Ht ss. induction ss as [|s ss IH]; intros v b v' A E; cbn [union_compare] in E.
  - injection E as <- <-. apply incl_appl, incl_refl.
  - destruct (found _ s v) as [b1 v1] eqn:E1.
    pose proof (found_grows ds G Ht _ _ _ _ (fun d Hd => A d s Hd (or_introl eq_refl)) E1) as G1. destruct b1.
    + apply IH in E; [|eapply agree_tl_r; eauto].
      intros x Hx. apply E in Hx. apply in_app_iff in Hx as [Hx|Hx]; auto.
      apply in_app_iff. now right.
    + injection E as <- <-. assumption.
Qed.

Lemma structure_grows ds : Forall grows ds -> Forall tame ds -> forall k sk ss v b v', agree ds ss ->
  structure k (map type_compare_visited ds) sk ss v = (b, v') -> incl v' (v ++ flat_map union_names ds).
Proof.
  intros G Ht k sk ss v b v' A E.
  assert (N : forall b0, (b0, v) = (b, v') -> incl v' (v ++ flat_map union_names ds)).
  { intros b0 E0. injection E0 as _ <-. apply incl_appl, incl_refl. }
  destruct k, sk; cbn [structure] in E; eauto using all_same_grows.
  - destruct (_ =? _); eauto using all_same_grows.
  - destruct (Nat.eqb _ _); eauto using each_named_grows.
  - destruct ds as [|d ds], ss as [|s ss]; cbn [map] in E; eauto.
    inversion G as [|? ? G1 G2]; inversion Ht as [|? ? T1 T2]; subst. cbn [flat_map].
    apply agree_cons in A as (A1 & A2).
    destruct (type_compare_visited d s v) as [b1 v1] eqn:E1.
    pose proof (G1 _ _ _ _ E1 T1 A1) as I1.
    assert (N2 : forall b0, (b0, v1) = (b, v') -> incl v' (v ++ union_names d ++ flat_map union_names ds)).
    { intros b0 E0. injection E0 as _ <-. rewrite app_assoc. now apply incl_appl. }
    destruct b1; [|eauto].
    match type of E with (if ?c then _ else _) = _ => destruct c end; [|eauto].
    apply each_grows in E; auto. now apply (incl_app_l v1).
  - eauto using union_grows.
  - destruct (Nat.eqb _ _); eauto using each_named_grows.
Qed.

Lemma by_kind_grows ds : Forall grows ds -> Forall tame ds -> forall ik id k sik sid sk ss v b v', agree ds ss ->
  by_kind ik id k (map type_compare_visited ds) sik sid sk ss v = (b, v') ->
  incl v' (v ++ flat_map union_names ds).
Proof.
  intros G Ht ik id k sik sid sk ss v b v' A. unfold by_kind.
  destruct (is_param ik k).
  - intros E. injection E as _ <-. apply incl_appl, incl_refl.
  - now apply structure_grows.
Qed.

(** A name decides for the destination exactly when it decides for the source. *)
Lemma meaning_top ik id args k subs sik sid sargs sk ss :
  one_meaning (T ik id args k subs) (T sik sid sargs sk ss) ->
  same_id id sid = true -> nominal ik k = nominal sik sk.
Proof.
  intros O E. apply same_id_eq in E as (n & -> & ->). eapply O; apply parts_self.
Qed.

Lemma grows_all d : grows d.
Proof.
  induction d as [ik id args k subs IHa IHs] using ty_ind2.
  intros [sik sid sargs sk ss] v b v' E Ht O.
  cbn [type_compare_visited compare_step] in E.
  assert (N : forall b0, (b0, v) = (b, v') -> incl v' (v ++ union_names (T ik id args k subs))).
  { intros b0 E0. injection E0 as _ <-. apply incl_appl, incl_refl. }
  pose proof (agree_subs _ _ _ _ _ _ _ _ _ _ O) as AS.
  pose proof (agree_args _ _ _ _ _ _ _ _ _ _ O) as AA.
  destruct (wildcard ik id sk); [eauto|].
  destruct (is_ptr k && is_null sk) eqn:EN; [eauto|].
  apply tame_inv in Ht. cbn [union_names] in *.
  destruct Ht as [(D & -> & NP & (n & ->) & Ta & _)|(D & DU & Ts & _)]; rewrite D in *.
  - destruct (is_ptr k && is_ref sk) eqn:EP.
    { apply andb_true_iff in EP as (EP & _). destruct k; try discriminate. now elim NP. }
    rewrite nominal_iff in D. rewrite D in E. cbn [orb] in E.
    destruct (same_id (Some n) sid); [|eauto].
    eapply all_same_grows in E; eauto.
  - assert (W : incl v' (v ++ flat_map union_names subs) ->
                incl v' (v ++ match ik with
        | IkDef => match id with Some n => n :: flat_map union_names subs | None => flat_map union_names subs end
        | _ => flat_map union_names subs end)).
    { intros Hw x Hx. apply Hw in Hx. rewrite in_app_iff in *. destruct Hx as [Hx|Hx]; [now left|right].
      destruct ik; auto. destruct id; auto. now right. }
    destruct (is_ptr k && is_ref sk) eqn:EP.
    { apply W; auto. eapply all_same_grows; eauto. }
    pose proof (meaning_top _ _ _ _ _ _ _ _ _ _ O) as MT.
    rewrite D in MT. rewrite !nominal_iff in *. rewrite D in E. cbn [orb] in E.
    destruct (is_def sik && negb (is_union sk)).
    + destruct (same_id id sid) eqn:SI; [|eauto]. now specialize (MT eq_refl).
    + destruct (is_def ik) eqn:ID.
      * destruct ik; try discriminate. destruct (DU eq_refl) as (-> & n & ->).
        cbn [name_of] in E. destruct (existsb (seq n) v); [eauto|].
        apply by_kind_grows in E; auto. intros x Hx. apply E in Hx.
        rewrite !in_app_iff in *. cbn [In] in *. tauto.
      * apply by_kind_grows in E; auto.
Qed.

(** ** Acceptance is inclusion of values *)

Definition within (d s : ty) : Prop := forall x, has s x -> has d x.

Definition apart (v : vis) (ns : list (list Z)) : Prop := forall n, In n ns -> ~ In n v.

Definition sound (d : ty) : Prop :=
  forall s v v', type_compare_visited d s v = (true, v') -> tame d -> plain s -> one_meaning d s ->
    NoDup (union_names d) -> apart v (union_names d) -> within d s.

Lemma nodup_app {A} (a b : list A) : NoDup (a ++ b) ->
  NoDup a /\ NoDup b /\ (forall x, In x a -> ~ In x b).
Proof.
  induction a as [|x a IH]; cbn [app]; intros H.
  - repeat split; auto. constructor.
  - inversion H as [|? ? N1 N2]; subst. destruct (IH N2) as (H1 & H2 & H3).
    rewrite in_app_iff in N1. repeat split; auto.
    + constructor; tauto.
    + intros y [->|Hy]; auto.
Qed.

Lemma apart_next v v' a b : incl v' (v ++ a) -> apart v (a ++ b) -> NoDup (a ++ b) -> apart v' b.
Proof.
  intros I1 Ap ND n Hn Hv. apply nodup_app in ND as (_ & _ & ND).
  apply I1 in Hv. apply in_app_iff in Hv as [Hv|Hv].
  - apply (Ap n); auto. apply in_app_iff. now right.
  - now apply (ND n).
Qed.

Lemma apart_l v a b : apart v (a ++ b) -> apart v a.
Proof. intros H n Hn. apply H. apply in_app_iff. now left. Qed.

Lemma each_sound ds : Forall sound ds -> Forall tame ds -> forall ss v v',
  Forall plain ss -> agree ds ss -> NoDup (flat_map union_names ds) ->
  apart v (flat_map union_names ds) -> List.length ds = List.length ss ->
  each (map type_compare_visited ds) ss v = (true, v') -> Forall2 within ds ss.
Proof.
  induction 1 as [|d ds Hd _ IH]; intros Ht ss v v' P A ND Ap L E;
    destruct ss as [|s ss]; try discriminate L; [constructor|].
  inversion Ht as [|? ? T1 T2]; subst. inversion P as [|? ? P1 P2]; subst.
  apply agree_cons in A as (A1 & A2). cbn [map each flat_map] in *.
  destruct (type_compare_visited d s v) as [b1 v1] eqn:E1. destruct b1; [|discriminate E].
  pose proof (grows_all d _ _ _ _ E1 T1 A1) as G.
  pose proof (nodup_app _ _ ND) as (N1 & N2 & _).
  constructor.
  - eapply Hd; eauto. eapply apart_l; eauto.
  - eapply IH; eauto. eapply apart_next; eauto.
Qed.

Lemma all_same_sound ds ss v v' : Forall sound ds -> Forall tame ds ->
  Forall plain ss -> agree ds ss -> NoDup (flat_map union_names ds) ->
  apart v (flat_map union_names ds) ->
  all_same (map type_compare_visited ds) ss v = (true, v') -> Forall2 within ds ss.
Proof.
  intros S1 Ht P A ND Ap. unfold all_same. rewrite map_length.
  destruct (Nat.eqb _ _) eqn:L; [|discriminate]. apply Nat.eqb_eq in L.
  intros E. eapply each_sound; eauto.
Qed.

Lemma each_named_sound ds : Forall sound ds -> Forall tame ds -> forall ns ms ss v v',
  Forall plain ss -> agree ds ss -> NoDup (flat_map union_names ds) ->
  apart v (flat_map union_names ds) ->
  List.length ns = List.length ds -> List.length ms = List.length ss -> List.length ns = List.length ms ->
  each_named ns (map type_compare_visited ds) ms ss v = (true, v') -> ns = ms /\ Forall2 within ds ss.
Proof.
  induction 1 as [|d ds Hd _ IH]; intros Ht ns ms ss v v' P A ND Ap L1 L2 L3 E;
    destruct ns as [|n ns], ms as [|m ms], ss as [|s ss]; try discriminate; [now split|].
  inversion Ht as [|? ? T1 T2]; subst. inversion P as [|? ? P1 P2]; subst.
  apply agree_cons in A as (A1 & A2). cbn [map each_named flat_map] in *.
  destruct (seq n m) eqn:SE; [|discriminate E]. apply seq_eq in SE. subst m.
  destruct (type_compare_visited d s v) as [b1 v1] eqn:E1. destruct b1; [|discriminate E].
  pose proof (grows_all d _ _ _ _ E1 T1 A1) as G.
  pose proof (nodup_app _ _ ND) as (N1 & N2 & _).
  injection L1 as L1. injection L2 as L2. injection L3 as L3.
  destruct (IH T2 ns ms ss v1 v' P2 A2 N2) as (-> & F); auto.
  { eapply apart_next; eauto. }
  split; [reflexivity|]. constructor; auto. eapply Hd; eauto. eapply apart_l; eauto.
Qed.

Lemma found_sound ds : Forall sound ds -> Forall tame ds -> flat_map union_names ds = [] -> forall s v v',
  plain s -> (forall d, In d ds -> one_meaning d s) ->
  found (map type_compare_visited ds) s v = (true, v') -> exists d, In d ds /\ within d s.
Proof.
  induction 1 as [|d ds Hd _ IH]; intros Ht U s v v' P A E; cbn [map found flat_map] in *; [discriminate|].
  inversion Ht as [|? ? T1 T2]; subst. apply app_eq_nil in U as (U1 & U2).
  destruct (type_compare_visited d s v) as [b1 v1] eqn:E1. destruct b1.
  - exists d. split; [now left|]. apply (Hd s v v1); auto.
    + apply A. now left.
    + rewrite U1. constructor.
    + rewrite U1. intros n [].
  - apply IH in E as (d' & I1 & W); auto.
    + exists d'. split; auto. now right.
    + intros x Hx. apply A. now right.
Qed.

Lemma union_sound ds : Forall sound ds -> Forall tame ds -> flat_map union_names ds = [] -> forall ss v v',
  Forall plain ss -> agree ds ss ->
  union_compare (map type_compare_visited ds) ss v = (true, v') ->
  forall s, In s ss -> exists d, In d ds /\ within d s.
Proof.
  intros S1 Ht U ss. induction ss as [|s ss IH]; intros v v' P A E x Hx; [destruct Hx|].
  cbn [union_compare] in E. inversion P as [|? ? P1 P2]; subst.
  destruct (found _ s v) as [b1 v1] eqn:E1. destruct b1; [|discriminate E].
  destruct Hx as [<-|Hx].
  - eapply found_sound; eauto. intros d Hd. apply A; auto. now left.
  - eapply IH; eauto. eapply agree_tl_r; eauto.
Qed.

Lemma within_forall2 ds ss : Forall2 within ds ss -> forall ws,
  Forall2 (fun p w => p w) (map has ss) ws -> Forall2 (fun p w => p w) (map has ds) ws.
Proof.
  induction 1 as [|d s ds ss W _ IH]; intros ws F; inversion F; subst; constructor; auto.
Qed.

Lemma within_parts ds ss : Forall2 within ds ss -> forall ps,
  Forall2 (fun p vs => all_of p vs) (map has ss) ps -> Forall2 (fun p vs => all_of p vs) (map has ds) ps.
Proof.
  induction 1 as [|d s ds ss W _ IH]; intros ws F; inversion F; subst; constructor; auto.
  intros x Hx. apply W. auto.
Qed.

Lemma within_nth ds ss : Forall2 within ds ss -> forall i p w,
  nth_error (map has ss) i = Some p -> p w -> exists q, nth_error (map has ds) i = Some q /\ q w.
Proof.
  induction 1 as [|d s ds ss W _ IH]; intros i p w E Hw.
  - destruct i; discriminate.
  - destruct i as [|i]; cbn [map nth_error] in *.
    + injection E as <-. eauto.
    + eauto.
Qed.

Lemma within_one ds s : Forall2 within ds [s] -> exists d, ds = [d] /\ within d s.
Proof. intros F. inversion F as [|? ? ? ? W F2]; subst. inversion F2; subst. eauto. Qed.

Lemma map_one {A B} (f : A -> B) l p : map f l = [p] -> exists x, l = [x] /\ p = f x.
Proof. destruct l as [|x [|y l]]; try discriminate. intros E. injection E as <-. eauto. Qed.

Lemma all_of_within d s ws : within d s -> all_of (has s) ws -> all_of (has d) ws.
Proof. intros W H x Hx. apply W, H, Hx. Qed.

Lemma structure_sound ds : Forall sound ds -> Forall tame ds -> forall k sk ss v v',
  Forall plain ss -> agree ds ss -> NoDup (flat_map union_names ds) -> apart v (flat_map union_names ds) ->
  (k = KUnion -> flat_map union_names ds = []) ->
  labelled k (List.length ds) -> labelled sk (List.length ss) ->
  structure k (map type_compare_visited ds) sk ss v = (true, v') ->
  forall x, built sk (map has ss) x -> built k (map has ds) x.
Proof.
  intros S1 Ht k sk ss v v' P A ND Ap KU L1 L2 E x B.
  pose proof (fun E => all_same_sound ds ss v v' S1 Ht P A ND Ap E) as AS.
  destruct k, sk; cbn [structure] in E; try discriminate E;
    try (apply AS in E; cbn [built] in * ).
  - injection E as E _. apply seq_eq in E. now subst.
  - destruct B as (p & w & B1 & -> & B2). apply map_one in B1 as (s & -> & ->).
    apply within_one in E as (d & -> & W). exists (has d), w. auto.
  - destruct B as (p & B1 & B2). apply map_one in B1 as (s & -> & ->).
    apply within_one in E as (d & -> & W). exists (has d). split; auto.
    destruct B2 as [->|(w & -> & B2)]; eauto.
  - destruct B as (p & ws & B1 & -> & B2). apply map_one in B1 as (s & -> & ->).
    apply within_one in E as (d & -> & W). exists (has d), ws. eauto using all_of_within.
  - destruct B as (p & ws & B1 & -> & B2). apply map_one in B1 as (s & -> & ->).
    apply within_one in E as (d & -> & W). exists (has d), ws. eauto using all_of_within.
  - destruct (Z.eqb_spec len len0) as [->|]; [|discriminate E]. apply AS in E. cbn [built] in *.
    destruct B as (p & ws & B1 & -> & B2 & B3). apply map_one in B1 as (s & -> & ->).
    apply within_one in E as (d & -> & W). exists (has d), ws. eauto using all_of_within.
  - destruct B as (p & q & ks & vs & B1 & -> & B2 & B3).
    destruct ss as [|s1 [|s2 [|s3 ss]]]; try discriminate B1. injection B1 as <- <-.
    inversion E as [|d1 ? ds1 ? W1 E1]; subst. apply within_one in E1 as (d2 & -> & W2).
    exists (has d1), (has d2), ks, vs. eauto 6 using all_of_within.
  - destruct B as (p & ws & B1 & -> & B2). apply map_one in B1 as (s & -> & ->).
    apply within_one in E as (d & -> & W). exists (has d), ws. eauto using all_of_within.
  - destruct B as (ws & -> & B). exists ws. split; auto. eapply within_forall2; eauto.
  - destruct (Nat.eqb _ _) eqn:L3; [|discriminate E]. apply Nat.eqb_eq in L3. cbn [labelled built] in *.
    apply each_named_sound in E as (-> & F); auto.
    destruct B as (ws & -> & B). exists ws. split; auto. eapply within_forall2; eauto.
  - destruct ds as [|d ds], ss as [|s ss]; cbn [map] in E; try discriminate E.
    destruct (type_compare_visited d s v) as [b1 v1] eqn:E1. destruct b1; [|discriminate E].
    match type of E with (if ?c then _ else _) = _ => destruct c eqn:EC end; [|discriminate E].
    repeat (apply andb_true_iff in EC as (EC & ?)). rewrite map_length in EC. apply Nat.eqb_eq in EC.
    repeat match goal with H : Bool.eqb _ _ = true |- _ => apply Bool.eqb_prop in H; subst end.
    inversion S1 as [|? ? S11 S12]; inversion Ht as [|? ? T1 T2]; inversion P as [|? ? P1 P2]; subst.
    apply agree_cons in A as (A1 & A2). cbn [flat_map] in *.
    pose proof (nodup_app _ _ ND) as (N1 & _ & _).
    pose proof (S11 _ _ _ E1 T1 P1 A1 N1 (apart_l _ _ _ Ap)) as W.
    cbn [built map] in *. destruct B as (p & ps & ws & B1 & -> & B2). injection B1 as <- <-.
    exists (has d), (map has ds), ws. rewrite !map_length, EC. eauto using all_of_within.
  - cbn [built] in *. destruct B as (p & w & I1 & -> & B).
    apply in_map_iff in I1 as (s & <- & I1).
    pose proof (union_sound ds S1 Ht (KU eq_refl) _ _ _ P A E s I1) as (d & I2 & W).
    exists (has d), w. split; [now apply in_map|]. eauto.
  - destruct (Nat.eqb _ _) eqn:L3; [|discriminate E]. apply Nat.eqb_eq in L3. cbn [labelled built] in *.
    apply each_named_sound in E as (-> & F); auto.
    destruct B as (i & tag & p & w & B1 & B2 & -> & B3).
    destruct (within_nth _ _ F _ _ _ B2 B3) as (q & Q1 & Q2). exists i, tag, q, w. auto.
  - exact B.
Qed.

(** What [has] means when the name does not decide. *)
Definition wild_all (ik : ikind) (id : option (list Z)) : bool := builtin_is ik id "all_t".

Lemma has_eq ik id args k subs : has (T ik id args k subs) =
  if nominal ik k then
    fun v => exists n parts, id = Some n /\ v = VNamed n parts /\
                             Forall2 (fun p vs => all_of p vs) (map has args) parts
  else if wild_all ik id then fun _ => True
  else if is_param ik k then fun v => exists n z, id = Some n /\ v = VAtom n z
  else built k (map has subs).
Proof. destruct ik; reflexivity. Qed.

Lemma wildcard_false_all ik id sk : wildcard ik id sk = false -> wild_all ik id = false.
Proof. unfold wildcard, wild_all. destruct (builtin_is ik id "all_t"); auto. Qed.

Lemma wildcard_true ik id sk : wildcard ik id sk = true ->
  (forall x, ik = IkBuiltin -> id = Some x -> ~ In x (map bytes ["fn_t"; "integer_t"; "floater_t"]%string)) ->
  wild_all ik id = true.
Proof.
  unfold wildcard, wild_all. intros E NB.
  destruct (builtin_is ik id "all_t") eqn:E0; auto. cbn [orb] in E.
  unfold builtin_is in *. destruct ik; try discriminate E. destruct id as [x|]; try discriminate E.
  exfalso. apply (NB x eq_refl eq_refl). cbn [map In].
  apply orb_true_iff in E as [E|E]; [apply orb_true_iff in E as [E|E]|];
    apply andb_true_iff in E as (E & _); apply seq_eq in E; auto.
Qed.

Theorem sound_all d : sound d.
Proof.
  induction d as [ik id args k subs IHa IHs] using ty_ind2.
  intros [sik sid sargs sk ss] v v' E Ht P O ND Ap x Hx.
  cbn [type_compare_visited compare_step] in E.
  pose proof (agree_subs _ _ _ _ _ _ _ _ _ _ O) as AS.
  pose proof (agree_args _ _ _ _ _ _ _ _ _ _ O) as AA.
  inversion P as [? ? ? ? ? PN PB PL PA PS]; subst.
  apply tame_inv in Ht. rewrite has_eq in *. cbn [union_names] in *.
  destruct Ht as [(D & -> & NP & (n & ->) & Ta & _)|(D & DU & Ts & L & NDs & KU & KI & NB)]; rewrite D in *.
  - rewrite bytes_def_wild in E by reflexivity.
    replace (is_ptr k) with false in E by (destruct k; auto; now elim NP). cbn [andb] in E.
    pose proof (meaning_top _ _ _ _ _ _ _ _ _ _ O) as MT. rewrite D in MT.
    rewrite nominal_iff in D. rewrite D in E. cbn [orb] in E.
    destruct (same_id (Some n) sid) eqn:SI; [|discriminate E].
    rewrite <- (MT eq_refl) in Hx. apply same_id_eq in SI as (m & E1 & ->). injection E1 as <-.
    apply all_same_sound in E; auto.
    destruct Hx as (m & parts & E1 & -> & F). injection E1 as <-.
    exists n, parts. split; auto. split; auto. eapply within_parts; eauto.
  - destruct (wildcard ik id sk) eqn:EW.
    { now rewrite (wildcard_true _ _ _ EW NB). }
    rewrite (wildcard_false_all _ _ _ EW).
    pose proof (meaning_top _ _ _ _ _ _ _ _ _ _ O) as MT. rewrite D in MT.
    assert (Apu : apart v (flat_map union_names subs)).
    { intros m Hm. apply Ap. destruct ik; auto. destruct id; auto. now right. }
    assert (SW : wild_all sik sid = false).
    { unfold wild_all, builtin_is. destruct sik; auto. destruct sid as [y|]; auto.
      destruct (seq y (bytes "all_t")) eqn:E0; auto. apply seq_eq in E0. subst y.
      now elim (PB eq_refl). }
    rewrite SW in Hx.
    destruct (is_ptr k && is_null sk) eqn:EN.
    { apply andb_true_iff in EN as (EK & EN). destruct k; try discriminate EK.
      destruct sk as [nm| | | | | | | | | | | | |]; try discriminate EN. cbn [is_null] in EN.
      apply seq_eq in EN. subst nm.
      assert (is_param ik KPtr = false) as -> by now destruct ik.
      assert (nominal sik (KPrim (bytes "null")) = false) as EN.
      { destruct sik; auto. now destruct (PN eq_refl). }
      rewrite EN in Hx.
      assert (is_param sik (KPrim (bytes "null")) = false) as EQ by now destruct sik.
      rewrite EQ in Hx. cbn [built] in *. rewrite seq_refl in Hx. subst x.
      assert (exists d, subs = [d]) as (d & ->). { cbn [labelled] in L. destruct subs as [|d [|? ?]]; try discriminate L. eauto. }
      exists (has d). auto. }
    destruct (is_ptr k && is_ref sk) eqn:ER.
    { apply andb_true_iff in ER as (EK & ER). destruct k; try discriminate EK. destruct sk; try discriminate ER.
      assert (is_param ik KPtr = false) as -> by now destruct ik.
      assert (nominal sik KRef = false) as EQ.
      { destruct sik; auto. now destruct (PN eq_refl). }
      rewrite EQ in Hx. assert (is_param sik KRef = false) as EQ2 by now destruct sik. rewrite EQ2 in Hx.
      apply all_same_sound in E; auto. cbn [built] in *.
      destruct Hx as (p & w & B1 & -> & B2). apply map_one in B1 as (s & -> & ->).
      apply within_one in E as (d & -> & W). exists (has d). split; auto. right. exists w. auto. }
    rewrite (nominal_iff ik k) in D. rewrite D in E. cbn [orb] in E. rewrite <- (nominal_iff sik sk) in E.
    destruct (nominal sik sk) eqn:SN.
    { destruct (same_id id sid) eqn:SI; [|discriminate E]. now specialize (MT eq_refl). }
    assert (BK : forall w w', apart w (flat_map union_names subs) ->
      by_kind ik id k (map type_compare_visited subs) sik sid sk ss w = (true, w') ->
      (if is_param ik k then (exists n z, id = Some n /\ x = VAtom n z) else built k (map has subs) x)).
    { intros w w' Aw Ew. unfold by_kind in Ew. destruct (is_param ik k) eqn:IP.
      - injection Ew as Ew _. apply andb_true_iff in Ew as (E1 & E2). rewrite E1 in Hx.
        apply same_id_eq in E2 as (m & -> & ->). exact Hx.
      - eapply structure_sound; eauto.
        destruct (is_param sik sk) eqn:IS; auto.
        exfalso. destruct sik; try discriminate IS. destruct sk as [nm| | | | | | | | | | | | |]; try discriminate IS.
        cbn [is_param] in IS. apply seq_eq in IS. subst nm.
        destruct k as [nm| | | | | | | | | | | | |]; cbn [structure] in Ew; try discriminate Ew.
        injection Ew as Ew _. apply seq_eq in Ew. subst nm. rewrite (KI eq_refl) in IP. discriminate IP. }
    assert (GO : (if is_param ik k then (exists n z, id = Some n /\ x = VAtom n z) else built k (map has subs) x)).
    { destruct (is_def ik) eqn:ID.
      - destruct ik; try discriminate. destruct (DU eq_refl) as (-> & n & ->). cbn [name_of] in E.
        destruct (existsb (seq n) v) eqn:EX.
        + apply existsb_seq in EX. elim (Ap n); auto. now left.
        + eapply BK; [|exact E]. rewrite (KU eq_refl). intros m [].
      - eapply BK; eauto. }
    now destruct (is_param ik k).
Qed.

Lemma tame_nodup t : tame t -> NoDup (union_names t).
Proof.
  destruct t as [ik id args k subs]. intros Ht. pose proof Ht as Ht0. apply tame_inv in Ht. cbn [union_names].
  destruct Ht as [(D & -> & _ & (n & ->) & _ & N)|(D & DU & _ & _ & N & KU & _)]; rewrite D; auto.
  destruct ik; auto. destruct (DU eq_refl) as (-> & n & ->). rewrite (KU eq_refl).
  constructor; [intros []|constructor].
Qed.

Theorem compare_sound dst src : tame dst -> plain src -> one_meaning dst src ->
  type_compare dst src = true -> forall v, has src v -> has dst v.
Proof.
  intros Ht P O E. unfold type_compare in E.
  destruct (type_compare_visited dst src []) as [b v'] eqn:EV. cbn [fst] in E. subst b.
  apply (sound_all dst src [] v'); auto using tame_nodup. intros n _ [].
Qed.

(** ** A type accepts itself *)

Definition accepts_itself (t : ty) : Prop :=
  complete t -> forall v, exists v', type_compare_visited t t v = (true, v').

Lemma each_refl l : Forall accepts_itself l -> Forall complete l -> forall v,
  exists v', each (map type_compare_visited l) l v = (true, v').
Proof.
  induction 1 as [|t l Ht _ IH]; intros C v; cbn [map each]; [eauto|].
  inversion C as [|? ? C1 C2]; subst. destruct (Ht C1 v) as (v1 & ->). eauto.
Qed.

Lemma all_same_refl l : Forall accepts_itself l -> Forall complete l -> forall v,
  exists v', all_same (map type_compare_visited l) l v = (true, v').
Proof. intros A C v. unfold all_same. rewrite map_length, Nat.eqb_refl. now apply each_refl. Qed.

Lemma each_named_refl l : Forall accepts_itself l -> Forall complete l -> forall ns v,
  exists v', each_named ns (map type_compare_visited l) ns l v = (true, v').
Proof.
  induction 1 as [|t l Ht _ IH]; intros C ns v; destruct ns as [|n ns]; cbn [map each_named]; eauto.
  rewrite seq_refl. inversion C as [|? ? C1 C2]; subst. destruct (Ht C1 v) as (v1 & ->). eauto.
Qed.

Lemma found_in l t : accepts_itself t -> complete t -> In t l -> forall v,
  exists v', found (map type_compare_visited l) t v = (true, v').
Proof.
  intros A C. induction l as [|x l IH]; intros I1 v; [destruct I1|].
  cbn [map found]. destruct (type_compare_visited x t v) as [b v1] eqn:E. destruct b; [eauto|].
  destruct I1 as [->|I1]; [|auto]. destruct (A C v) as (v2 & E2). congruence.
Qed.

Lemma union_refl l : Forall accepts_itself l -> Forall complete l -> forall m, incl m l -> forall v,
  exists v', union_compare (map type_compare_visited l) m v = (true, v').
Proof.
  intros A C. induction m as [|t m IH]; intros I1 v; cbn [union_compare]; [eauto|].
  assert (It : In t l) by (apply I1; now left).
  rewrite Forall_forall in A, C.
  destruct (found_in l t (A t It) (C t It) It v) as (v1 & ->). apply IH.
  intros x Hx. apply I1. now right.
Qed.

Lemma accepts_all t : accepts_itself t.
Proof.
  induction t as [ik id args k subs IHa IHs] using ty_ind2. intros C v.
  inversion C as [? ? ? ? ? CI CF CA CS]; subst.
  cbn [type_compare_visited compare_step].
  destruct (wildcard ik id k); [eauto|]. destruct (is_ptr k && is_null k); [eauto|].
  replace (is_ptr k && is_ref k) with false by now destruct k.
  rewrite orb_diag.
  assert (SI : ik = IkDef \/ ik = IkParam -> same_id id id = true).
  { intros X. specialize (CI X). destruct id as [n|]; [apply seq_refl|now elim CI]. }
  destruct (is_def ik && negb (is_union k)) eqn:D.
  { apply andb_true_iff in D as (D & _). rewrite SI by (destruct ik; try discriminate; auto).
    now apply all_same_refl. }
  assert (BK : forall v, exists v', by_kind ik id k (map type_compare_visited subs) ik id k subs v = (true, v')).
  { clear v. intros v. unfold by_kind. destruct (is_param ik k) eqn:IP.
    - rewrite SI by (destruct ik; try discriminate; auto). cbn [andb]. eauto.
    - destruct k; cbn [structure]; try (now apply all_same_refl); eauto.
      + rewrite seq_refl. eauto.
      + rewrite Z.eqb_refl. now apply all_same_refl.
      + rewrite Nat.eqb_refl. now apply each_named_refl.
      + destruct subs as [|r ps]; [now elim (CF is_fx is_rest is_c_variadic is_errable)|].
        inversion IHs as [|? ? R1 R2]; inversion CS as [|? ? C1 C2]; subst. cbn [map].
        destruct (R1 C1 v) as (v1 & ->). rewrite map_length, Nat.eqb_refl, !Bool.eqb_reflx. cbn [andb].
        now apply each_refl.
      + apply union_refl; auto. apply incl_refl.
      + rewrite Nat.eqb_refl. now apply each_named_refl. }
  destruct (is_def ik); [|apply BK]. destruct (existsb _ v); eauto.
Qed.

Theorem compare_refl t : complete t -> type_compare t t = true.
Proof. intros C. unfold type_compare. destruct (accepts_all t C []) as (v & ->). reflexivity. Qed.
