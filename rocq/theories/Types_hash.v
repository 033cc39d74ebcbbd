(** Proofs about the run-time number of a type: the strings that are hashed tell types apart. *)
From Coq Require Import String DecimalN DecimalPos.
From Verif Require Import Base Types_model Types_spec Types_proof.
Import ListNotations.
Open Scope Z_scope.

Definition digit (c : Z) : Prop := 48 <= c <= 57.

Lemma uint_digits u : Forall digit (uint_chars u).
Proof. induction u; cbn [uint_chars]; constructor; auto; unfold digit; lia. Qed.

Lemma uint_chars_inj u w : uint_chars u = uint_chars w -> u = w.
Proof.
  revert w; induction u; intros w E; destruct w; cbn [uint_chars] in E; try discriminate E; auto;
    injection E as E; f_equal; auto.
Qed.

Lemma dec_digits z : Forall digit (dec z).
Proof. apply uint_digits. Qed.

Lemma dec_inj a b : 0 <= a -> 0 <= b -> dec a = dec b -> a = b.
Proof.
  intros Ha Hb E. apply uint_chars_inj in E. apply DecimalN.Unsigned.to_uint_inj in E. lia.
Qed.

Lemma dec_cons z : exists c r, dec z = c :: r /\ digit c.
Proof.
  pose proof (dec_digits z) as D. destruct (dec z) as [|c r] eqn:E.
  - exfalso. unfold dec in E. change (@nil Z) with (uint_chars Decimal.Nil) in E.
    apply uint_chars_inj in E. destruct (Z.to_N z); [discriminate E|].
    now apply DecimalPos.Unsigned.to_uint_nonnil in E.
  - inversion D; subst. eauto.
Qed.

Definition no_digit_first (r : list Z) : Prop := match r with [] => True | c :: _ => ~ digit c end.

Lemma digits_split a b r1 r2 : Forall digit a -> Forall digit b ->
  no_digit_first r1 -> no_digit_first r2 -> a ++ r1 = b ++ r2 -> a = b /\ r1 = r2.
Proof.
  revert b; induction a as [|x a IH]; intros b Da Db N1 N2 E; destruct b as [|y b]; cbn [app] in E.
  - auto.
  - subst r1. inversion Db; subst. now elim N1.
  - subst r2. inversion Da; subst. now elim N2.
  - injection E as -> E. inversion Da; subst. inversion Db; subst.
    destruct (IH b) as (-> & ->); auto.
Qed.

Lemma dec_split a b r1 r2 : 0 <= a -> 0 <= b -> no_digit_first r1 -> no_digit_first r2 ->
  dec a ++ r1 = dec b ++ r2 -> a = b /\ r1 = r2.
Proof.
  intros Ha Hb N1 N2 E. apply digits_split in E as (E & ->); auto using dec_digits.
  split; auto. now apply dec_inj.
Qed.

Lemma dot_no_digit : ~ digit 46.
Proof. unfold digit. lia. Qed.

Lemma dots_first hs : no_digit_first (dots hs).
Proof. destruct hs; cbn; auto. apply dot_no_digit. Qed.

Definition nonneg (hs : list Z) : Prop := Forall (fun h => 0 <= h) hs.

Lemma dots_inj a : forall b, nonneg a -> nonneg b -> dots a = dots b -> a = b.
Proof.
  unfold nonneg. induction a as [|x a IH]; intros [|y b] Na Nb E; cbn [dots flat_map app] in E; try discriminate E; auto.
  inversion Na; inversion Nb; subst. injection E as E.
  apply dec_split in E as (-> & E); auto using dots_first. f_equal. now apply IH.
Qed.

(** ** Where the fixed part of a string ends *)

Definition closed (a : list Z) : Prop :=
  forall p q, a = p ++ 46 :: q -> exists c q', q = c :: q' /\ ~ digit c.

Definition tailish (t : list Z) : Prop := t = [] \/ exists d r, t = 46 :: d :: r /\ digit d.

Lemma closed_tl x a : closed (x :: a) -> closed a.
Proof. intros C p q ->. apply (C (x :: p) q). reflexivity. Qed.

Lemma closed_not t b t2 : closed b -> tailish t -> b <> [] -> t = b ++ t2 -> False.
Proof.
  intros C [->|(d & r & -> & D)] N E.
  - destruct b; [now elim N|discriminate E].
  - destruct b as [|c b]; [now elim N|]. injection E as <- E.
    destruct (C [] b eq_refl) as (c & q & -> & ND). injection E as -> _. now elim ND.
Qed.

Lemma head_split a : forall b t1 t2, closed a -> closed b -> tailish t1 -> tailish t2 ->
  a ++ t1 = b ++ t2 -> a = b /\ t1 = t2.
Proof.
  induction a as [|x a IH]; intros b t1 t2 C1 C2 T1 T2 E; destruct b as [|y b]; cbn [app] in E.
  - auto.
  - exfalso. eapply (closed_not t1 (y :: b) t2); eauto. discriminate.
  - exfalso. eapply (closed_not t2 (x :: a) t1); eauto. discriminate.
  - injection E as -> E. apply IH in E as (-> & ->); eauto using closed_tl.
Qed.

Lemma no_dot_closed a : ~ In 46 a -> closed a.
Proof. intros N p q ->. elim N. apply in_app_iff. right. now left. Qed.

Lemma dots_tailish hs : tailish (dots hs).
Proof.
  destruct hs as [|h hs]; [now left|right]. cbn [dots flat_map].
  destruct (dec_cons h) as (c & r & E & D). rewrite E. cbn [app]. eauto.
Qed.

Lemma dec_tailish h r : tailish (46 :: dec h ++ r).
Proof. right. destruct (dec_cons h) as (c & q & E & D). rewrite E. cbn [app]. eauto. Qed.

Lemma field_first n : field_name n -> exists c r, n = c :: r /\ ~ digit c.
Proof. intros (c & r & E & N & _). eauto. Qed.

Lemma full_first n : full_name n -> exists c r, n = c :: r /\ ~ digit c.
Proof.
  destruct 1 as [a b Fa _|a b Fa _]; apply field_first in Fa as (c & r & -> & N); cbn [app]; eauto.
Qed.

Lemma split_dot a b p q : ~ In 46 a -> a ++ 46 :: b = p ++ 46 :: q ->
  q = b \/ exists p', b = p' ++ 46 :: q.
Proof.
  revert p; induction a as [|x a IH]; intros p N E; destruct p as [|y p]; cbn [app] in E.
  - injection E as ->. auto.
  - injection E as <- E. eauto.
  - injection E as -> _. elim N. now left.
  - injection E as -> E. apply IH in E; auto. intros X; apply N; now right.
Qed.

Lemma full_closed n : full_name n -> closed n.
Proof.
  induction 1 as [a b Fa Fb|a b Fa Fb IH]; intros p q E.
  - destruct Fa as (_ & _ & _ & _ & Na). symmetry in E. symmetry in E. apply split_dot in E as [->|(p' & ->)]; auto.
    + now apply field_first.
    + destruct Fb as (_ & _ & _ & _ & Nb). elim Nb. apply in_app_iff. right. now left.
  - destruct Fa as (_ & _ & _ & _ & Na). apply split_dot in E as [->|(p' & ->)]; auto.
    + now apply full_first.
    + now apply (IH p' q).
Qed.

Lemma full_dot n : full_name n -> In 46 n.
Proof. destruct 1; apply in_app_iff; right; now left. Qed.

(** ** The parts of the string of an undeclared type *)

Definition head (k : kind) : list Z :=
  match k with
  | KPrim s => s
  | KRef => bytes "ref" | KPtr => bytes "ptr" | KVec => bytes "vec" | KChan => bytes "chan"
  | KArr _ => bytes "arr" | KMap => bytes "map" | KSet => bytes "set" | KTuple => bytes "tuple"
  | KStruct [] => bytes "struct"
  | KStruct (n :: _) => bytes "struct" ++ n
  | KFn fx _ _ _ => if fx then bytes "fx" else bytes "fn"
  | KUnion => bytes "union"
  | KTagged _ => []
  | KInterface => []
  end.

Definition tail (k : kind) (hs : list Z) : list Z :=
  match k with
  | KPrim _ => []
  | KArr n => 46 :: dec n ++ 95 :: dec (nth 0 hs 0)
  | KMap => 46 :: dec (nth 0 hs 0) ++ 95 :: dec (nth 1 hs 0)
  | KStruct (_ :: ns) => match hs with h :: hs' => 46 :: dec h ++ fields ns hs' | [] => [] end
  | KStruct [] => []
  | _ => dots hs
  end.

Lemma text_built ik id ha k hs : by_name ik = false -> kind_fits k id (List.length hs) ->
  text ik id ha k hs = head k ++ tail k hs.
Proof.
  intros B F. unfold text. rewrite B.
  destruct k; cbn [kind_fits head tail] in *; try reflexivity; try contradiction.
  - now rewrite app_nil_r.
  - destruct F as (-> & L & _). destruct names as [|n ns], hs as [|h hs]; try discriminate L.
    + reflexivity.
    + cbn [fields]. now rewrite <- app_assoc.
Qed.

Definition has_dot (s : list Z) : bool := existsb (Z.eqb 46) s.

Lemma has_dot_false s : has_dot s = false -> ~ In 46 s.
Proof.
  intros E I1. assert (has_dot s = true); [|congruence].
  apply existsb_exists. exists 46. split; auto.
Qed.

Lemma origin_no_dot s : In s origin_names -> ~ In 46 s.
Proof.
  intros I1. apply has_dot_false.
  assert (F : forallb (fun s => negb (has_dot s)) origin_names = true) by (vm_compute; reflexivity).
  rewrite forallb_forall in F. specialize (F s I1). now destruct (has_dot s).
Qed.

Lemma head_no_dot k id n : kind_fits k id n -> ~ In 46 (head k).
Proof.
  destruct k as [s| | | | | | | | |ns|fx r c e| |tags|]; cbn [kind_fits head]; intros F;
    try (apply has_dot_false; vm_compute; reflexivity); try contradiction.
  - apply origin_no_dot. tauto.
  - destruct ns as [|m ns].
    + apply has_dot_false; vm_compute; reflexivity.
    + destruct F as (_ & _ & F). inversion F as [|? ? F1 F2]; subst.
      destruct F1 as (_ & _ & _ & _ & N). intros I1. apply in_app_iff in I1 as [I1|I1]; auto.
      revert I1. apply has_dot_false. vm_compute; reflexivity.
  - destruct fx; apply has_dot_false; vm_compute; reflexivity.
Qed.

Lemma tail_tailish k hs : tailish (tail k hs).
Proof.
  destruct k as [s| | | | | | | | |ns|fx r c e| |tags|]; cbn [tail]; auto using dots_tailish, dec_tailish.
  - now left.
  - destruct ns as [|n ns]; [now left|]. destruct hs; [now left|]. apply dec_tailish.
Qed.

(** What the head of a string says about the kind. *)
Definition outline (k : kind) : kind :=
  match k with
  | KArr _ => KArr 0
  | KStruct _ => KStruct []
  | KFn fx _ _ _ => KFn fx false false false
  | KTagged _ => KTagged []
  | k => k
  end.

Definition heads_apart : list (list Z) :=
  map bytes ["ref"; "ptr"; "vec"; "chan"; "arr"; "map"; "set"; "tuple"; "fx"; "fn"; "union"]%string.

Lemma origin_apart s : In s origin_names -> ~ In s heads_apart /\ forall r, s <> bytes "struct" ++ r.
Proof.
  intros I1.
  assert (F : forallb (fun s => negb (existsb (seq s) heads_apart) && negb (seq (firstn 6 s) (bytes "struct")))
                origin_names = true) by (vm_compute; reflexivity).
  rewrite forallb_forall in F. specialize (F s I1). apply andb_true_iff in F as (F1 & F2).
  apply negb_true_iff in F1, F2. split.
  - intros X. apply existsb_seq in X. congruence.
  - intros r ->. change (firstn 6 (bytes "struct" ++ r)) with (bytes "struct") in F2.
    rewrite seq_refl in F2. discriminate.
Qed.

Lemma head_apart k id n : kind_fits k id n ->
  (exists s, k = KPrim s /\ In s origin_names) \/
  (exists ns r, k = KStruct ns /\ head k = bytes "struct" ++ r) \/
  (In (head k) heads_apart /\ (forall r, head k <> bytes "struct" ++ r) /\
   (forall s, k <> KPrim s) /\ forall ns, k <> KStruct ns).
Proof.
  destruct k as [s| | | | | | | | |ns|fx r c e| |tags|]; cbn [kind_fits]; intros F; try contradiction;
    try (right; right; split; [vm_compute; tauto|split; [intros r0 X; vm_compute in X; discriminate X|split; discriminate]]).
  - left. exists s. tauto.
  - right; left. destruct ns as [|m ns]; [exists [], []|exists (m :: ns), m]; auto.
  - right; right. destruct fx; (split; [vm_compute; tauto|split; [intros r0 X; vm_compute in X; discriminate X|split; discriminate]]).
Qed.

Lemma head_outline k1 id1 n1 k2 id2 n2 : kind_fits k1 id1 n1 -> kind_fits k2 id2 n2 ->
  head k1 = head k2 -> outline k1 = outline k2.
Proof.
  intros F1 F2 E.
  destruct (head_apart _ _ _ F1) as [(s1 & -> & I1)|[(ns1 & r1 & -> & H1)|(I1 & N1 & P1 & Q1)]];
    destruct (head_apart _ _ _ F2) as [(s2 & -> & I2)|[(ns2 & r2 & -> & H2)|(I2 & N2 & P2 & Q2)]].
  - cbn in E. now subst.
  - exfalso. rewrite H2 in E. now apply (proj2 (origin_apart _ I1)) in E.
  - exfalso. rewrite <- E in I2. now apply (proj1 (origin_apart _ I1)) in I2.
  - exfalso. rewrite H1 in E. symmetry in E. now apply (proj2 (origin_apart _ I2)) in E.
  - reflexivity.
  - exfalso. rewrite H1 in E. symmetry in E. now apply N2 in E.
  - exfalso. rewrite E in I1. now apply (proj1 (origin_apart _ I2)) in I1.
  - exfalso. rewrite H2 in E. now apply N1 in E.
  - clear N1 N2 I1 I2.
    destruct k1 as [s1| | | | | | | | |ns1|fx1 r1 c1 e1| |tags1|]; cbn [kind_fits] in F1; try contradiction;
    destruct k2 as [s2| | | | | | | | |ns2|fx2 r2 c2 e2| |tags2|]; cbn [kind_fits] in F2; try contradiction;
    try reflexivity; try (now elim (P1 s1)); try (now elim (P2 s2)); try (now elim (Q1 ns1)); try (now elim (Q2 ns2));
    try (exfalso; vm_compute in E; discriminate E).
    all: try destruct fx1; try destruct fx2; first [reflexivity | exfalso; vm_compute in E; discriminate E].
Qed.

Lemma fields_first ns hs : Forall field_name ns -> no_digit_first (fields ns hs).
Proof.
  destruct 1 as [|n ns F _]; [exact I|]. destruct hs; [exact I|].
  cbn [fields]. apply field_first in F as (c & r & -> & N). exact N.
Qed.

Lemma fields_inj ns1 : forall ns2 hs1 hs2, Forall field_name ns1 -> Forall field_name ns2 ->
  nonneg hs1 -> nonneg hs2 ->
  List.length ns1 = List.length hs1 -> List.length ns2 = List.length hs2 ->
  fields ns1 hs1 = fields ns2 hs2 -> ns1 = ns2 /\ hs1 = hs2.
Proof.
  unfold nonneg. induction ns1 as [|n1 ns1 IH]; intros ns2 hs1 hs2 F1 F2 N1 N2 L1 L2 E;
    destruct hs1 as [|h1 hs1]; try discriminate L1; destruct ns2 as [|n2 ns2], hs2 as [|h2 hs2];
    try discriminate L2; cbn [fields] in E; auto.
  - destruct n2; discriminate E.
  - destruct n1; discriminate E.
  - inversion F1 as [|? ? F11 F12]; inversion F2 as [|? ? F21 F22]; inversion N1; inversion N2; subst.
    pose proof F11 as (_ & _ & _ & _ & D1). pose proof F21 as (_ & _ & _ & _ & D2).
    apply head_split in E as (-> & E); auto using no_dot_closed, dec_tailish.
    injection E as E. apply dec_split in E as (-> & E); auto using fields_first.
    apply IH in E as (-> & ->); auto.
Qed.

Lemma nonneg_nth hs i : nonneg hs -> 0 <= nth i hs 0.
Proof.
  intros N. destruct (nth_in_or_default i hs 0) as [I1|E0]; [|rewrite E0; lia].
  unfold nonneg in N. rewrite Forall_forall in N. now apply N.
Qed.

Lemma tail_inj k1 id1 k2 id2 hs1 hs2 :
  kind_fits k1 id1 (List.length hs1) -> kind_fits k2 id2 (List.length hs2) ->
  nonneg hs1 -> nonneg hs2 -> outline k1 = outline k2 ->
  head k1 = head k2 -> tail k1 hs1 = tail k2 hs2 -> kinds_agree k1 k2 /\ hs1 = hs2.
Proof.
  intros F1 F2 N1 N2 O EH ET.
  assert (NB : no_digit_first (@nil Z)) by exact I.
  assert (NU : ~ digit 95) by (unfold digit; lia).
  destruct k1 as [s1| | | | |l1| | | |ns1|fx1 r1 c1 e1| |tags1|]; cbn [kind_fits] in F1; try contradiction;
    destruct k2 as [s2| | | | |l2| | | |ns2|fx2 r2 c2 e2| |tags2|]; cbn [outline] in O; try discriminate O;
    cbn [kind_fits] in F2; cbn [tail] in ET;
    try (apply dots_inj in ET; auto; split; [now left|assumption]).
  - injection O as ->. destruct F1 as (_ & F1), F2 as (_ & F2).
    destruct hs1; try discriminate F1. destruct hs2; try discriminate F2. split; [now left|reflexivity].
  - destruct F1 as (P1 & F1), F2 as (P2 & F2).
    destruct hs1 as [|x1 [|? ?]]; try discriminate F1. destruct hs2 as [|x2 [|? ?]]; try discriminate F2.
    injection ET as ET. apply dec_split in ET as (-> & ET); auto. cbn [nth] in ET. injection ET as ET.
    inversion N1; inversion N2; subst. apply dec_inj in ET as ->; auto. split; [now left|reflexivity].
  - destruct hs1 as [|x1 [|y1 [|? ?]]]; try discriminate F1.
    destruct hs2 as [|x2 [|y2 [|? ?]]]; try discriminate F2. cbn [nth] in ET.
    inversion N1 as [|? ? A1 A2]; inversion A2; inversion N2 as [|? ? B1 B2]; inversion B2; subst.
    injection ET as ET. apply dec_split in ET as (-> & ET); auto. injection ET as ET.
    apply dec_inj in ET as ->; auto. split; [now left|reflexivity].
  - destruct F1 as (_ & L1 & G1), F2 as (_ & L2 & G2).
    destruct (fields_inj ns1 ns2 hs1 hs2) as (-> & ->); auto; [|split; [now left|reflexivity]].
    apply (app_inv_head (bytes "struct")).
    destruct ns1 as [|n1 ns1], ns2 as [|n2 ns2], hs1 as [|h1 hs1], hs2 as [|h2 hs2];
      try discriminate L1; try discriminate L2; cbn [head fields tail] in *.
    + reflexivity.
    + exfalso. inversion G2 as [|? ? G _]; subst. apply field_first in G as (c & r & -> & _). discriminate EH.
    + exfalso. inversion G1 as [|? ? G _]; subst. apply field_first in G as (c & r & -> & _). discriminate EH.
    + apply app_inv_head in EH. now rewrite EH, ET.
  - injection O as ->. apply dots_inj in ET; auto. split; auto. right.
    exists fx2, r1, c1, e1, r2, c2, e2. auto.
Qed.

Lemma by_name_named ik : by_name ik = true <-> named ik.
Proof. unfold named. destruct ik; cbn; split; intros X; try discriminate; auto; destruct X as [X|[X|X]]; discriminate. Qed.

Lemma by_name_not ik : by_name ik = false <-> ~ named ik.
Proof. rewrite <- by_name_named. destruct (by_name ik); split; intros X; auto; try discriminate; now elim X. Qed.

Section hash.
  Variable H : list Z -> Z.
  Hypothesis Hpos : forall s, 0 <= H s.

  Definition apart_on (l1 l2 : list (list Z)) : Prop :=
    forall x y, In x l1 -> In y l2 -> H x = H y -> x = y.

  Lemma hash_nonneg l : nonneg (map (type_hash H) l).
  Proof. apply Forall_forall. intros x I1. apply in_map_iff in I1 as ([? ? ? ? ?] & <- & _). apply Hpos. Qed.

  Definition told (t1 : ty) : Prop := forall t2, good t1 -> good t2 ->
    apart_on (hashed H t1) (hashed H t2) -> type_hash H t1 = type_hash H t2 -> same_type t1 t2.

  Lemma told_list l1 : Forall told l1 -> forall l2, Forall good l1 -> Forall good l2 ->
    apart_on (flat_map (hashed H) l1) (flat_map (hashed H) l2) ->
    map (type_hash H) l1 = map (type_hash H) l2 -> Forall2 same_type l1 l2.
  Proof.
    induction 1 as [|t1 l1 Ht _ IH]; intros [|t2 l2] G1 G2 A E; try discriminate E; [constructor|].
    inversion G1; inversion G2; subst. injection E as E1 E2. cbn [flat_map] in A. constructor.
    - apply Ht; auto. intros x y I1 I2. apply A; apply in_app_iff; now left.
    - apply IH; auto. intros x y I1 I2. apply A; apply in_app_iff; now right.
  Qed.

  Lemma told_all t : told t.
  Proof.
    induction t as [ik1 id1 args1 k1 subs1 IHa IHs] using ty_ind2.
    intros [ik2 id2 args2 k2 subs2] G1 G2 A E. cbn [type_hash hashed] in *.
    apply A in E; [|now left|now left].
    inversion G1 as [? n1 ? ? ? M1 FN1 GA1|? ? ? ? ? M1 KF1 GS1]; subst;
      inversion G2 as [? n2 ? ? ? M2 FN2 GA2|? ? ? ? ? M2 KF2 GS2]; subst.
    - pose proof (proj2 (by_name_named _) M1) as B1. pose proof (proj2 (by_name_named _) M2) as B2.
      unfold text in E. rewrite B1, B2 in *. cbn [name_of] in E.
      apply head_split in E as (-> & E); auto using full_closed, dots_tailish.
      apply dots_inj in E; auto using hash_nonneg.
      constructor; auto. apply told_list; auto.
      intros x y I1 I2. apply A; now right.
    - exfalso. pose proof (proj2 (by_name_named _) M1) as B1. pose proof (proj2 (by_name_not _) M2) as B2.
      rewrite (text_built ik2 id2) in E; [|assumption|now rewrite map_length].
      unfold text in E. rewrite B1 in E. cbn [name_of] in E.
      pose proof (head_no_dot _ _ _ KF2) as N.
      apply head_split in E as (-> & E); auto using full_closed, dots_tailish, tail_tailish, no_dot_closed.
      now apply N, full_dot.
    - exfalso. pose proof (proj2 (by_name_not _) M1) as B1. pose proof (proj2 (by_name_named _) M2) as B2.
      rewrite (text_built ik1 id1) in E; [|assumption|now rewrite map_length].
      unfold text in E. rewrite B2 in E. cbn [name_of] in E.
      pose proof (head_no_dot _ _ _ KF1) as N.
      apply head_split in E as (<- & E); auto using full_closed, dots_tailish, tail_tailish, no_dot_closed.
      now apply N, full_dot.
    - pose proof (proj2 (by_name_not _) M1) as B1. pose proof (proj2 (by_name_not _) M2) as B2.
      rewrite <- (map_length (type_hash H)) in KF1, KF2.
      rewrite !text_built in E by assumption.
      pose proof (head_no_dot _ _ _ KF1) as N1. pose proof (head_no_dot _ _ _ KF2) as N2.
      apply head_split in E as (EH & ET); auto using tail_tailish, no_dot_closed.
      pose proof (head_outline _ _ _ _ _ _ KF1 KF2 EH) as O.
      destruct (tail_inj _ _ _ _ _ _ KF1 KF2 (hash_nonneg _) (hash_nonneg _) O EH ET) as (KA & EM).
      apply Same_built; auto. apply told_list; auto.
      rewrite B1, B2 in A. intros x y I1 I2. apply A; now right.
  Qed.
End hash.

(** ** The same type always gets the same number *)

Lemma same_hash H t1 : forall t2, good t1 -> good t2 -> same_type t1 t2 -> type_hash H t1 = type_hash H t2.
Proof.
  induction t1 as [ik1 id1 args1 k1 subs1 IHa IHs] using ty_ind2.
  intros t2 G1 G2 S.
  assert (L : forall l1, Forall (fun t1 => forall t2, good t1 -> good t2 -> same_type t1 t2 ->
                                  type_hash H t1 = type_hash H t2) l1 ->
              forall l2, Forall good l1 -> Forall good l2 -> Forall2 same_type l1 l2 ->
              map (type_hash H) l1 = map (type_hash H) l2).
  { induction 1 as [|x l1 Hx _ IH]; intros l2 A1 A2 F; inversion F; subst; auto.
    inversion A1; inversion A2; subst. cbn [map]. f_equal; auto. }
  inversion S as [? ? n ? ? ? ? ? ? M1 M2 F|? ? ? id2 ? ? ? k2 ? subs2 M1 M2 KA F]; subst.
  - cbn [type_hash]. f_equal. unfold text.
    rewrite (proj2 (by_name_named _) M1), (proj2 (by_name_named _) M2). f_equal. f_equal.
    inversion G1; inversion G2; subst; try contradiction. now apply L.
  - inversion G1 as [|? ? ? ? ? _ KF1 GS1]; [contradiction|].
    inversion G2 as [|? ? ? ? ? _ KF2 GS2]; [contradiction|]. subst.
    cbn [type_hash]. f_equal.
    rewrite !text_built; try (now apply by_name_not); try (now rewrite map_length).
    rewrite (L subs1 IHs subs2) by auto.
    destruct KA as [->|(fx & r1 & c1 & e1 & r2 & c2 & e2 & -> & ->)]; reflexivity.
Qed.
