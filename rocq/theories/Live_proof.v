(** Proofs about the liveness analysis. *)
From Coq Require Import Lia.
From Verif Require Import Base Base_lemmas Dom_model Dom_proof Live_model Live_spec.

Lemma mem_iff v l : mem v l = true <-> In v l.
Proof.
  unfold mem. rewrite existsb_exists. split; [intros [x [H E]]; apply Nat.eqb_eq in E; subst x; exact H|intros H; exists v; split; [exact H|apply Nat.eqb_refl]].
Qed.
Lemma mem_false v l : mem v l = false <-> ~ In v l.
Proof. rewrite <- mem_iff. destruct (mem v l); split; congruence. Qed.

(** ** what a block reads and writes *)
Lemma use_loop_spec vs : forall use def ex use' ex', use_loop vs use def ex = (use', ex') ->
  (forall v, In v ex <-> In v use \/ In v def) ->
  (forall v, In v use' <-> In v use \/ (In v vs /\ ~ In v def)) /\ (forall v, In v ex' <-> In v use' \/ In v def).
Proof.
  induction vs as [|x vs IH]; intros use def ex use' ex' E K; cbn [use_loop] in E.
  - injection E as <- <-. split; [intros v; cbn; tauto|exact K].
  - destruct (negb (mem x def) && negb (mem x ex)) eqn:C.
    + apply Bool.andb_true_iff in C. destruct C as [C1 C2]. apply Bool.negb_true_iff, mem_false in C1. apply Bool.negb_true_iff, mem_false in C2.
      destruct (IH _ _ _ _ _ E) as [I1 I2].
      { intros v. rewrite in_app_iff. cbn [In]. rewrite K. tauto. }
      split; [|exact I2]. intros v. rewrite I1, in_app_iff. cbn [In]. split; [intros [[H|[<-|[]]]|H]; tauto|]. intros [H|[[<-|H] H2]]; tauto.
    + destruct (IH _ _ _ _ _ E K) as [I1 I2]. split; [|exact I2]. intros v. rewrite I1. cbn [In]. split; [tauto|].
      intros [H|[[<-|H] H2]]; [tauto| |tauto]. left. apply Bool.andb_false_iff in C. destruct C as [C|C]; apply Bool.negb_false_iff, mem_iff in C; [tauto|]. apply K in C. tauto.
Qed.

Lemma def_loop_spec vs : forall def ex def' ex', def_loop vs def ex = (def', ex') ->
  (forall v, In v def' <-> In v def \/ In v vs) /\ (forall v, In v ex' <-> In v ex \/ In v vs).
Proof.
  induction vs as [|x vs IH]; intros def ex def' ex' E; cbn [def_loop] in E.
  - injection E as <- <-. split; intros v; cbn; tauto.
  - destruct (IH _ _ _ _ E) as [I1 I2]. split; intros v; [rewrite I1, in_app_iff|rewrite I2]; cbn [In]; tauto.
Qed.

Lemma reads_cons o l v : reads_first (o :: l) v <-> In v (uses o) \/ (~ In v (defs o) /\ reads_first l v).
Proof.
  split.
  - intros [l1 [o' [l2 [E [U D]]]]]. destruct l1 as [|x l1]; cbn in E; injection E as -> ->; [left; exact U|]. right. split; [apply D; left; reflexivity|].
    exists l1, o', l2. split; [reflexivity|]. split; [exact U|]. intros q Hq. apply D. right. exact Hq.
  - intros [U|[N [l1 [o' [l2 [-> [U D]]]]]]]; [exists [], o, l; cbn; tauto|]. exists (o :: l1), o', l2. split; [reflexivity|]. split; [exact U|].
    intros q [<-|Hq]; auto.
Qed.

Lemma writes_cons o l v : writes (o :: l) v <-> In v (defs o) \/ writes l v.
Proof.
  split; [intros [q [[<-|H] D]]; [left; exact D|right; exists q; tauto]|].
  intros [D|[q [H D]]]; [exists o; cbn; tauto|exists q; cbn; tauto].
Qed.

Lemma use_def_loop_spec l : forall use def ex use' def', use_def_loop l use def ex = (use', def') ->
  (forall v, In v ex <-> In v use \/ In v def) ->
  (forall v, In v use' <-> In v use \/ (reads_first l v /\ ~ In v def)) /\ (forall v, In v def' <-> In v def \/ writes l v).
Proof.
  induction l as [|o l IH]; intros use def ex use' def' E K; cbn [use_def_loop] in E.
  - injection E as <- <-. split; intros v; split; auto; intros [H|H]; auto; [destruct H as [[l1 [o [l2 [F _]]]] _]; destruct l1; discriminate|destruct H as [o [[] _]]].
  - destruct (use_loop (uses o) use def ex) as [u1 e1] eqn:E1. destruct (def_loop (defs o) def e1) as [d1 e2] eqn:E2.
    destruct (use_loop_spec _ _ _ _ _ _ E1 K) as [A1 A2]. destruct (def_loop_spec _ _ _ _ _ E2) as [B1 B2].
    destruct (IH _ _ _ _ _ E) as [I1 I2]. { intros v. rewrite B2, A2, B1. tauto. }
    split; intros v.
    + rewrite I1, A1, B1, reads_cons.
      assert (D : In v (defs o) \/ ~ In v (defs o)) by (destruct (in_dec Nat.eq_dec v (defs o)); auto). tauto.
    + rewrite I2, B1, writes_cons. tauto.
Qed.

Lemma use_def_spec b : let (use, def) := use_def b in (forall v, In v use <-> reads_first (ops b) v) /\ (forall v, In v def <-> writes (ops b) v).
Proof.
  unfold use_def. destruct (use_def_loop (ops b) [] [] []) as [use def] eqn:E. destruct (use_def_loop_spec _ _ _ _ _ _ E) as [H1 H2]; [cbn; tauto|].
  split; intros v; [rewrite H1|rewrite H2]; cbn; tauto.
Qed.

(** ** sets *)
Lemma add_new_spec l skip : forall acc, NoDup acc -> NoDup (add_new l skip acc) /\ forall v, In v (add_new l skip acc) <-> In v acc \/ (In v l /\ ~ In v skip).
Proof.
  induction l as [|x l IH]; intros acc ND; cbn [add_new]; [split; [exact ND|cbn; tauto]|].
  destruct (mem x acc || mem x skip) eqn:C.
  - destruct (IH acc ND) as [I1 I2]. split; [exact I1|]. intros v. rewrite I2. cbn [In]. apply Bool.orb_true_iff in C. rewrite !mem_iff in C.
    split; [tauto|]. intros [H|[[<-|H] H2]]; tauto.
  - apply Bool.orb_false_iff in C. rewrite !mem_false in C. destruct C as [C1 C2]. destruct (IH (acc ++ [x])) as [I1 I2].
    + clear - ND C1. induction acc as [|y acc IHa]; cbn; [constructor; [auto|constructor]|].
      apply NoDup_cons_iff in ND. destruct ND as [N ND]. constructor; [|apply IHa; [exact ND|intros K; apply C1; right; exact K]].
      rewrite in_app_iff. intros [K|[<-|[]]]; [contradiction|]. apply C1. left. reflexivity.
    + split; [exact I1|]. intros v. rewrite I2, in_app_iff. cbn [In]. split; [intros [[H|[<-|[]]]|H]; tauto|]. intros [H|[[<-|H] H2]]; tauto.
Qed.

Lemma calc_out_spec b inn : NoDup (calc_live_out b inn) /\ forall v, In v (calc_live_out b inn) <-> exists s, In s (succs b) /\ In v (get inn s).
Proof.
  unfold calc_live_out.
  assert (H : forall l acc, NoDup acc -> NoDup (fold_left (fun acc s => add_new (get inn s) [] acc) l acc) /\
    forall v, In v (fold_left (fun acc s => add_new (get inn s) [] acc) l acc) <-> In v acc \/ exists s, In s l /\ In v (get inn s)).
  { induction l as [|s l IH]; intros acc ND; cbn [fold_left]; [split; [exact ND|]; intros v; split; [auto|intros [K|[s [[] _]]]; exact K]|].
    destruct (add_new_spec (get inn s) [] acc ND) as [A1 A2]. destruct (IH _ A1) as [B1 B2]. split; [exact B1|]. intros v. rewrite B2, A2. cbn [In]. split.
    - intros [[K|[K _]]|[q [Hq K]]]; [left; exact K|right; exists s; tauto|right; exists q; tauto].
    - intros [K|[q [[<-|Hq] K]]]; [tauto|left; right; tauto|right; exists q; tauto]. }
  destruct (H (succs b) [] (NoDup_nil _)) as [H1 H2]. split; [exact H1|]. intros v. rewrite H2. cbn. split; [intros [[]|K]; exact K|auto].
Qed.

Lemma calc_in_spec b out : NoDup (calc_live_in b out) /\ forall v, In v (calc_live_in b out) <-> reads_first (ops b) v \/ (In v out /\ ~ writes (ops b) v).
Proof.
  unfold calc_live_in. pose proof (use_def_spec b) as U. destruct (use_def b) as [use def]. destruct U as [U1 U2].
  destruct (add_new_spec use [] [] (NoDup_nil _)) as [A1 A2]. destruct (add_new_spec out def _ A1) as [B1 B2]. split; [exact B1|].
  intros v. rewrite B2, A2, U1, U2. cbn. tauto.
Qed.

(** ** the rounds *)
Lemma changed_false old new : live_changed old new = false -> length old = length new /\ forall v, In v new -> In v old.
Proof.
  unfold live_changed. destruct (Nat.eqb (length old) (length new)) eqn:E1; cbn [negb]; [|discriminate].
  destruct (forallb _ new) eqn:E2; cbn [negb]; [|discriminate]. intros _. apply Nat.eqb_eq in E1. split; [exact E1|].
  intros v Hv. rewrite forallb_forall in E2. apply mem_iff. apply E2. exact Hv.
Qed.

Lemma changed_true old new : live_changed old new = true -> NoDup old -> (forall v, In v old -> In v new) -> (length new < 256)%nat -> (length old < length new)%nat.
Proof.
  intros C ND I0 L. pose proof (NoDup_incl_length ND I0) as LE. unfold live_changed in C.
  destruct (Nat.eqb (length old) (length new)) eqn:E1; cbn [negb] in C; [|apply Nat.eqb_neq in E1; lia]. exfalso. apply Nat.eqb_eq in E1.
  assert (J : incl new old) by (apply (NoDup_length_incl ND); [lia|exact I0]).
  assert (F : forallb (fun v => mem v old) new = true) by (apply forallb_forall; intros v Hv; apply mem_iff, J; exact Hv). rewrite F in C. cbn [negb] in C.
  unfold u8 in C. rewrite Z.mod_small in C by (unfold zlen; lia). rewrite Z.eqb_refl in C. discriminate.
Qed.

Section analysis.
  Context (c : program).
  Hypothesis P : is_program c.
  Notation n := (length c).

  Lemma needed_inv b v : needed c b v <-> reads_first (ops (block_of c b)) v \/ (needed_after c b v /\ ~ writes (ops (block_of c b)) v).
  Proof.
    split.
    - intros H. destruct H as [b v H|b s v H1 H2 H3]; [left; exact H|]. right. split; [exists s; tauto|exact H2].
    - intros [H|[[s [H1 H2]] H3]]; [apply needed_here; exact H|eapply needed_later; eassumption].
  Qed.

  (** sets of the right form, with nothing in them that is not needed, that a round does not shrink *)
  Definition kept (out inn : sets) : Prop :=
    length out = n /\ length inn = n /\
    (forall b, NoDup (get out b)) /\ (forall b, NoDup (get inn b)) /\
    (forall b v, In v (get out b) -> needed_after c b v) /\ (forall b v, In v (get inn b) -> needed c b v) /\
    (forall b v, In v (get out b) -> exists s, In s (succs (block_of c b)) /\ In v (get inn s)) /\
    (forall b v, In v (get inn b) -> reads_first (ops (block_of c b)) v \/ (In v (get out b) /\ ~ writes (ops (block_of c b)) v)).

  Lemma get_beyond (d : sets) b : length d = n -> (n <= b)%nat -> get d b = [].
  Proof. intros E H. unfold get. apply nth_overflow. lia. Qed.

  Lemma kept_init : kept (repeat [] n) (repeat [] n).
  Proof.
    assert (Z0 : forall b, get (repeat [] n) b = []). { intros b. unfold get. destruct (nth_in_or_default b (repeat (@nil nat) n) []) as [H|H]; [apply repeat_spec in H|]; assumption. }
    unfold kept. rewrite repeat_length. split; [reflexivity|]. split; [reflexivity|].
    split; [intros b; rewrite Z0; apply NoDup_nil|]. split; [intros b; rewrite Z0; apply NoDup_nil|].
    split; [|split; [|split]]; intros b v Hv; rewrite Z0 in Hv; destruct Hv.
  Qed.

  Lemma kept_out out inn b : kept out inn -> (b < n)%nat ->
    kept (put out b (calc_live_out (block_of c b) inn)) inn /\ (forall v, In v (get out b) -> In v (calc_live_out (block_of c b) inn)).
  Proof.
    intros [L1 [L2 [D1 [D2 [S1 [S2 [F1 F2]]]]]]] Hb. destruct (calc_out_spec (block_of c b) inn) as [ND I0].
    assert (SUB : forall v, In v (get out b) -> In v (calc_live_out (block_of c b) inn)) by (intros v Hv; apply I0; apply F1; exact Hv).
    split; [|exact SUB]. unfold kept. rewrite put_length. split; [exact L1|]. split; [exact L2|].
    assert (G : forall q, (q = b /\ get (put out b (calc_live_out (block_of c b) inn)) q = calc_live_out (block_of c b) inn) \/
                          (q <> b /\ get (put out b (calc_live_out (block_of c b) inn)) q = get out q)).
    { intros q. destruct (Nat.eq_dec q b) as [->|N]; [left; rewrite get_put_same by lia; auto|right; rewrite get_put_other by congruence; auto]. }
    split; [intros q; destruct (G q) as [[-> ->]|[_ ->]]; [exact ND|apply D1]|]. split; [exact D2|].
    split; [intros q v; destruct (G q) as [[-> ->]|[_ ->]]; [intros Hv; apply I0 in Hv; destruct Hv as [s [Hs Hv]]; exists s; split; [exact Hs|apply S2; exact Hv]|apply S1]|].
    split; [exact S2|].
    split; [intros q v; destruct (G q) as [[-> ->]|[_ ->]]; [apply I0|apply F1]|].
    intros q v Hv. destruct (F2 q v Hv) as [K|[K1 K2]]; [left; exact K|]. right. split; [|exact K2]. destruct (G q) as [[-> ->]|[_ ->]]; [apply SUB; exact K1|exact K1].
  Qed.

  Lemma kept_in out inn b : kept out inn -> (b < n)%nat ->
    kept out (put inn b (calc_live_in (block_of c b) (get out b))) /\ (forall v, In v (get inn b) -> In v (calc_live_in (block_of c b) (get out b))).
  Proof.
    intros [L1 [L2 [D1 [D2 [S1 [S2 [F1 F2]]]]]]] Hb. destruct (calc_in_spec (block_of c b) (get out b)) as [ND I0].
    assert (SUB : forall v, In v (get inn b) -> In v (calc_live_in (block_of c b) (get out b))) by (intros v Hv; apply I0; apply F2; exact Hv).
    split; [|exact SUB]. unfold kept. rewrite put_length. split; [exact L1|]. split; [exact L2|].
    set (new := calc_live_in (block_of c b) (get out b)) in *.
    assert (G : forall q, (q = b /\ get (put inn b new) q = new) \/ (q <> b /\ get (put inn b new) q = get inn q)).
    { intros q. destruct (Nat.eq_dec q b) as [->|N]; [left; rewrite get_put_same by lia; auto|right; rewrite get_put_other by congruence; auto]. }
    split; [exact D1|]. split; [intros q; destruct (G q) as [[-> ->]|[_ ->]]; [exact ND|apply D2]|].
    split; [exact S1|].
    split; [intros q v; destruct (G q) as [[-> ->]|[_ ->]]; [|apply S2]; intros Hv; apply I0 in Hv; apply needed_inv; destruct Hv as [K|[K1 K2]]; [left; exact K|right; split; [apply S1; exact K1|exact K2]]|].
    split; [|intros q v; destruct (G q) as [[-> ->]|[_ ->]]; [apply I0|apply F2]].
    intros q v Hv. destruct (F1 q v Hv) as [s [Hs K]]. exists s. split; [exact Hs|]. destruct (G s) as [[-> ->]|[_ ->]]; [apply SUB; exact K|exact K].
  Qed.

  Lemma needed_variable b v : needed c b v -> In v (variables c).
  Proof.
    intros H. induction H as [b v [l1 [o [l2 [E [U _]]]]]|]; [|assumption]. unfold variables. apply in_flat_map. exists (block_of c b). split.
    - unfold block_of in *. destruct (nth_in_or_default b c (mk_block [] [])) as [K|K]; [exact K|]. rewrite K in E. destruct l1; discriminate.
    - apply in_flat_map. exists o. split; [rewrite E; apply in_or_app; right; left; reflexivity|exact U].
  Qed.

  Definition size (d : sets) : nat := fold_right (fun s k => (length s + k)%nat) O d.

  Lemma size_put d b s : (b < length d)%nat -> (size (put d b s) + length (get d b) = size d + length s)%nat.
  Proof.
    revert b. induction d as [|x d IH]; intros [|b] H; cbn [length put size fold_right get nth] in *; try lia.
    specialize (IH b ltac:(lia)). unfold size, get in IH. lia.
  Qed.

  Hypothesis few : (length (nodup Nat.eq_dec (variables c)) < 256)%nat.
  Notation vs := (length (nodup Nat.eq_dec (variables c))).

  Lemma few_needed l : NoDup l -> (forall v, In v l -> In v (variables c)) -> (length l <= vs)%nat.
  Proof. intros ND H. apply (NoDup_incl_length ND). intros v Hv. apply nodup_In. apply H. exact Hv. Qed.

  Lemma size_bound d : length d = n -> (forall b, NoDup (get d b)) -> (forall b v, In v (get d b) -> In v (variables c)) -> (size d <= n * vs)%nat.
  Proof.
    intros E ND I0. assert (H : forall l, (forall s, In s l -> (length s <= vs)%nat) -> (size l <= length l * vs)%nat).
    { induction l as [|s l IH]; intros H; [cbn; lia|]. cbn [size fold_right length]. pose proof (H s (or_introl eq_refl)).
      specialize (IH (fun t Ht => H t (or_intror Ht))). unfold size in IH. lia. }
    rewrite <- E. apply H. intros s Hs. apply In_nth with (d := []) in Hs. destruct Hs as [b [Hb <-]]. apply few_needed; [apply (ND b)|apply (I0 b)].
  Qed.

  Definition stable (out inn : sets) (b : nat) : Prop :=
    (forall v s, In s (succs (block_of c b)) -> In v (get inn s) -> In v (get out b)) /\
    (forall v, reads_first (ops (block_of c b)) v \/ (In v (get out b) /\ ~ writes (ops (block_of c b)) v) -> In v (get inn b)).

  Lemma round_spec ids : Forall (fun b => (b < n)%nat) ids -> forall out inn changed, kept out inn ->
    let '(out', inn', ch) := live_round c ids out inn changed in
    kept out' inn' /\ (size out + size inn <= size out' + size inn')%nat /\
    (ch = false -> changed = false /\ out' = out /\ inn' = inn /\ forall b, In b ids -> stable out inn b) /\
    (changed = false -> ch = true -> (size out + size inn < size out' + size inn')%nat) /\ (changed = true -> ch = true).
  Proof.
    induction 1 as [|b ids Hb F IH]; intros out inn changed K; cbn [live_round].
    - split; [exact K|]. split; [lia|]. split; [intros ->; repeat split; try reflexivity; destruct H|]. split; congruence.
    - cbv zeta. set (new_out := calc_live_out (block_of c b) inn). destruct (kept_out out inn b K Hb) as [K1 I1]. fold new_out in K1, I1.
      assert (Step1 : exists out1 ch1, (if live_changed (get out b) new_out then (put out b new_out, true) else (out, changed)) = (out1, ch1) /\ kept out1 inn /\
        (size out <= size out1)%nat /\ ((ch1 = changed /\ out1 = out /\ live_changed (get out b) new_out = false) \/ (ch1 = true /\ (size out < size out1)%nat))).
      { destruct (live_changed (get out b) new_out) eqn:E.
        - exists (put out b new_out), true. split; [reflexivity|]. split; [exact K1|].
          assert (LT : (length (get out b) < length new_out)%nat).
          { apply changed_true; [exact E|apply K|exact I1|]. eapply Nat.le_lt_trans; [|exact few]. apply few_needed; [apply calc_out_spec|].
            intros v Hv. apply calc_out_spec in Hv. destruct Hv as [s [_ Hv]]. eapply needed_variable. apply (proj1 (proj2 (proj2 (proj2 (proj2 (proj2 K))))) s v Hv). }
          pose proof (size_put out b new_out ltac:(destruct K as [-> _]; exact Hb)). split; [lia|]. right. split; [reflexivity|lia].
        - exists out, changed. split; [reflexivity|]. split; [exact K|]. split; [lia|]. left. tauto. }
      destruct Step1 as [out1 [ch1 [E1 [Ka [Sa Ca]]]]]. rewrite E1.
      set (new_in := calc_live_in (block_of c b) (get out1 b)). destruct (kept_in out1 inn b Ka Hb) as [K2 I2]. fold new_in in K2, I2.
      assert (Step2 : exists inn1 ch2, (if live_changed (get inn b) new_in then (put inn b new_in, true) else (inn, ch1)) = (inn1, ch2) /\ kept out1 inn1 /\
        (size inn <= size inn1)%nat /\ ((ch2 = ch1 /\ inn1 = inn /\ live_changed (get inn b) new_in = false) \/ (ch2 = true /\ (size inn < size inn1)%nat))).
      { destruct (live_changed (get inn b) new_in) eqn:E.
        - exists (put inn b new_in), true. split; [reflexivity|]. split; [exact K2|].
          assert (LT : (length (get inn b) < length new_in)%nat).
          { apply changed_true; [exact E|apply K|exact I2|]. eapply Nat.le_lt_trans; [|exact few]. apply few_needed; [apply calc_in_spec|].
            intros v Hv. apply calc_in_spec in Hv. eapply needed_variable. apply needed_inv. destruct Hv as [Hv|[Hv Hw]]; [left; exact Hv|right; split; [|exact Hw]].
            apply (proj1 (proj2 (proj2 (proj2 (proj2 Ka)))) b v Hv). }
          pose proof (size_put inn b new_in ltac:(destruct K as [_ [-> _]]; exact Hb)). split; [lia|]. right. split; [reflexivity|lia].
        - exists inn, ch1. split; [reflexivity|]. split; [exact Ka|]. split; [lia|]. left. tauto. }
      destruct Step2 as [inn1 [ch2 [E2 [Kb [Sb Cb]]]]]. rewrite E2. specialize (IH out1 inn1 ch2 Kb).
      destruct (live_round c ids out1 inn1 ch2) as [[out' inn'] ch]. destruct IH as [R1 [R2 [R3 [R4 R5]]]].
      split; [exact R1|]. split; [lia|]. split; [|split].
      + intros Ec. destruct (R3 Ec) as [Ec2 [-> [-> St]]]. destruct Cb as [[-> [-> Cn]]|[-> _]]; [|discriminate]. destruct Ca as [[-> [-> Co]]|[-> _]]; [|discriminate].
        split; [exact Ec2|]. split; [reflexivity|]. split; [reflexivity|]. intros q [<-|Hq]; [|apply St; exact Hq].
        apply changed_false in Co, Cn. destruct Co as [_ Co], Cn as [_ Cn]. split.
        * intros v s Hs Hv. apply Co. apply calc_out_spec. exists s. tauto.
        * intros v Hv. apply Cn. apply calc_in_spec. exact Hv.
      + intros -> Ec. destruct Cb as [[-> [-> _]]|[-> Lt]]; [|lia]. destruct Ca as [[-> [-> _]]|[-> Lt]]; [|lia]. specialize (R4 eq_refl Ec). lia.
      + intros ->. apply R5. destruct Cb as [[-> _]|[-> _]]; [|reflexivity]. destruct Ca as [[-> _]|[-> _]]; reflexivity.
  Qed.

  Lemma rounds_spec fuel : forall out inn, kept out inn -> (2 * (n * vs) < fuel + (size out + size inn))%nat ->
    exists out' inn', live_rounds fuel c out inn = Ok (out', inn') /\ kept out' inn' /\ forall b, (b < n)%nat -> stable out' inn' b.
  Proof.
    induction fuel as [|fuel IH]; intros out inn K Hf.
    - exfalso. destruct K as [L1 [L2 [D1 [D2 [S1 [S2 _]]]]]].
      assert (B1 : (size out <= n * vs)%nat). { apply size_bound; [exact L1|exact D1|]. intros b v Hv. apply S1 in Hv. destruct Hv as [s [_ Hv]]. eapply needed_variable; exact Hv. }
      assert (B2 : (size inn <= n * vs)%nat). { apply size_bound; [exact L2|exact D2|]. intros b v Hv. apply S2 in Hv. eapply needed_variable; exact Hv. }
      lia.
    - cbn [live_rounds]. assert (F : Forall (fun b => (b < n)%nat) (rev (seq 0 n))) by (apply Forall_forall; intros b Hb; apply in_rev, in_seq in Hb; lia).
      pose proof (round_spec _ F out inn false K) as R. destruct (live_round c (rev (seq 0 n)) out inn false) as [[out' inn'] ch]. destruct R as [R1 [R2 [R3 [R4 _]]]].
      destruct ch.
      + apply IH; [exact R1|]. specialize (R4 eq_refl eq_refl). lia.
      + destruct (R3 eq_refl) as [_ [-> [-> St]]]. exists out, inn. split; [reflexivity|]. split; [exact K|]. intros b Hb. apply St. apply in_rev. rewrite rev_involutive. apply in_seq. lia.
  Qed.

  Lemma stable_all out inn : kept out inn -> (forall b, (b < n)%nat -> stable out inn b) ->
    (forall b v, (b < n)%nat -> In v (get inn b) <-> needed c b v) /\ (forall b v, (b < n)%nat -> In v (get out b) <-> needed_after c b v).
  Proof.
    intros K St. assert (A : forall b v, needed c b v -> (b < n)%nat -> In v (get inn b)).
    { intros b v H. induction H as [b v H|b s v H1 H2 H3 IH]; intros Hb; apply (proj2 (St b Hb)); [left; exact H|]. right. split; [|exact H2].
      apply (proj1 (St b Hb)) with (s := s); [exact H1|]. apply IH. apply (P b). exact H1. }
    destruct K as [_ [_ [_ [_ [S1 [S2 _]]]]]]. split; intros b v Hb.
    - split; [apply S2|intros H; apply A; assumption].
    - split; [apply S1|]. intros [s [Hs Hv]]. apply (proj1 (St b Hb)) with (s := s); [exact Hs|]. apply A; [exact Hv|]. apply (P b). exact Hs.
  Qed.

  Lemma live_ok : exists fuel out inn, live fuel c = Ok (out, inn) /\
    (forall b, NoDup (get out b) /\ NoDup (get inn b)) /\
    (forall b v, (b < n)%nat -> In v (get inn b) <-> needed c b v) /\ (forall b v, (b < n)%nat -> In v (get out b) <-> needed_after c b v).
  Proof.
    exists (S (2 * (n * vs))). destruct (rounds_spec (S (2 * (n * vs))) _ _ kept_init) as [out [inn [E [K St]]]]; [lia|].
    exists out, inn. split; [exact E|]. split; [intros b; split; apply K|]. apply stable_all; assumption.
  Qed.
End analysis.

(** whatever the number of variables: if the analysis ends, its result is right *)
Lemma unchanged_stable c ids : forall out inn changed out' inn', live_round c ids out inn changed = (out', inn', false) ->
  changed = false /\ out' = out /\ inn' = inn /\ forall b, In b ids -> stable c out inn b.
Proof.
  induction ids as [|b ids IH]; intros out inn changed out' inn' E; cbn [live_round] in E.
  - injection E as -> -> ->. repeat split; try reflexivity; destruct H.
  - cbv zeta in E. destruct (live_changed (get out b) (calc_live_out (block_of c b) inn)) eqn:E1.
    + destruct (live_changed _ _) in E; destruct (IH _ _ _ _ _ E) as [F _]; discriminate.
    + destruct (live_changed (get inn b) (calc_live_in (block_of c b) (get out b))) eqn:E2; [destruct (IH _ _ _ _ _ E) as [F _]; discriminate|].
      destruct (IH _ _ _ _ _ E) as [F [-> [-> St]]]. split; [exact F|]. split; [reflexivity|]. split; [reflexivity|]. intros q [<-|Hq]; [|apply St; exact Hq].
      apply changed_false in E1, E2. destruct E1 as [_ E1], E2 as [_ E2]. split.
      * intros v s Hs Hv. apply E1. apply calc_out_spec. exists s. tauto.
      * intros v Hv. apply E2. apply calc_in_spec. exact Hv.
Qed.

Lemma round_kept c ids : Forall (fun b => (b < length c)%nat) ids -> forall out inn changed, kept c out inn ->
  let '(out', inn', _) := live_round c ids out inn changed in kept c out' inn'.
Proof.
  induction 1 as [|b ids Hb F IH]; intros out inn changed K; cbn [live_round]; [exact K|]. cbv zeta.
  assert (exists out1 ch1, (if live_changed (get out b) (calc_live_out (block_of c b) inn) then (put out b (calc_live_out (block_of c b) inn), true) else (out, changed)) = (out1, ch1) /\ kept c out1 inn) as [out1 [ch1 [-> K1]]].
  { destruct (live_changed _ _); eexists _, _; (split; [reflexivity|]); [apply (proj1 (kept_out c out inn b K Hb))|exact K]. }
  assert (exists inn1 ch2, (if live_changed (get inn b) (calc_live_in (block_of c b) (get out1 b)) then (put inn b (calc_live_in (block_of c b) (get out1 b)), true) else (inn, ch1)) = (inn1, ch2) /\ kept c out1 inn1) as [inn1 [ch2 [-> K2]]].
  { destruct (live_changed _ _); eexists _, _; (split; [reflexivity|]); [apply (proj1 (kept_in c out1 inn b K1 Hb))|exact K1]. }
  apply IH. exact K2.
Qed.

Lemma live_sound c fuel out inn : is_program c -> live fuel c = Ok (out, inn) ->
  (forall b v, (b < length c)%nat -> In v (get inn b) <-> needed c b v) /\ (forall b v, (b < length c)%nat -> In v (get out b) <-> needed_after c b v).
Proof.
  intros P E. unfold live in E. pose proof (kept_init c) as K. revert K E. generalize (repeat (@nil nat) (length c)) at 1 3 as o. generalize (repeat (@nil nat) (length c)) as i.
  induction fuel as [|fuel IH]; intros i o K E; [discriminate|]. cbn [live_rounds] in E.
  assert (F : Forall (fun b => (b < length c)%nat) (rev (seq 0 (length c)))) by (apply Forall_forall; intros b Hb; apply in_rev, in_seq in Hb; lia).
  pose proof (round_kept c _ F o i false K) as RK. destruct (live_round c (rev (seq 0 (length c))) o i false) as [[o' i'] ch] eqn:R. destruct ch.
  - apply (IH i' o' RK E).
  - destruct (unchanged_stable _ _ _ _ _ _ _ R) as [_ [-> [-> St]]]. assert (o = out) by congruence. assert (i = inn) by congruence. subst o i.
    apply stable_all; [exact P|exact K|]. intros b Hb. apply St. apply in_rev. rewrite rev_involutive. apply in_seq. lia.
Qed.

(** a variable list of 256 is taken for a changed one, again and again *)
Lemma long_list_changed old new : length new = Z.to_nat 256 -> live_changed old new = true.
Proof.
  intros L. unfold live_changed. destruct (negb (Nat.eqb _ _)); [reflexivity|]. destruct (negb (forallb _ _)); [reflexivity|].
  assert (E : zlen new = 256) by (unfold zlen; rewrite L; reflexivity). rewrite E. reflexivity.
Qed.

Lemma round_true c ids : forall out inn out' inn' ch, live_round c ids out inn true = (out', inn', ch) -> ch = true.
Proof.
  induction ids as [|b ids IH]; intros out inn out' inn' ch E; cbn [live_round] in E; [congruence|]. cbv zeta in E.
  destruct (live_changed (get out b) (calc_live_out (block_of c b) inn)); destruct (live_changed _ _) in E; eapply IH; exact E.
Qed.

Lemma unchanged_first c b ids out inn changed out' inn' : live_round c (b :: ids) out inn changed = (out', inn', false) ->
  live_changed (get inn b) (calc_live_in (block_of c b) (get out b)) = false.
Proof.
  intros E. cbn [live_round] in E. cbv zeta in E. destruct (live_changed (get out b) (calc_live_out (block_of c b) inn)) eqn:E1.
  - destruct (live_changed _ _) in E; apply round_true in E; discriminate.
  - destruct (live_changed (get inn b) (calc_live_in (block_of c b) (get out b))) eqn:E2; [apply round_true in E; discriminate|reflexivity].
Qed.

(** two blocks: the first assigns some variables, the second reads them *)
Definition crowded (many : list var) : program := [mk_block [mk_op 0 [] many] [1%nat]; mk_block [mk_op 1 many []] []].

Lemma crowded_read many v : reads_first (ops (block_of (crowded many) 1)) v <-> In v many.
Proof.
  split.
  - intros [l1 [o [l2 [E [U _]]]]]. change (ops (block_of (crowded many) 1)) with [mk_op 1 many []] in E.
    destruct l1 as [|x l1]; cbn [app] in E; [injection E as <- _; exact U|destruct l1; discriminate].
  - intros H. exists [], (mk_op 1 many []), []. split; [reflexivity|]. split; [exact H|]. intros o [].
Qed.

Lemma crowded_never_ends many fuel : NoDup many -> length many = Z.to_nat 256 -> live fuel (crowded many) = NoFuel.
Proof.
  intros NM LM. unfold live. pose proof (kept_init (crowded many)) as K. revert K. change (length (crowded many)) with 2%nat.
  generalize (repeat (@nil nat) 2) at 1 3 as o. generalize (repeat (@nil nat) 2) as i.
  induction fuel as [|fuel IH]; intros i o K; [reflexivity|]. cbn [live_rounds]. change (rev (seq 0 (length (crowded many)))) with [1%nat; 0%nat].
  assert (F : Forall (fun b => (b < length (crowded many))%nat) [1%nat; 0%nat]) by (cbn [crowded length]; repeat constructor).
  pose proof (round_kept (crowded many) _ F o i false K) as RK.
  destruct (live_round (crowded many) [1%nat; 0%nat] o i false) as [[o' i'] ch] eqn:R.
  assert (ch = true) as ->; [|apply IH; exact RK].
  destruct ch; [reflexivity|]. apply unchanged_first in R. rewrite <- R.
  apply long_list_changed. destruct (calc_in_spec (block_of (crowded many) 1) (get o 1)) as [ND I0].
  assert (SE : forall v, In v (calc_live_in (block_of (crowded many) 1) (get o 1)) <-> In v many).
  { intros v. rewrite I0, crowded_read. split; [|auto]. intros [H|[H _]]; [exact H|].
    apply (proj1 (proj2 (proj2 (proj2 (proj2 K))))) in H. destruct H as [s [[] _]]. }
  assert (L1 : (length (calc_live_in (block_of (crowded many) 1) (get o 1)) <= length many)%nat) by (apply (NoDup_incl_length ND); intros v; apply SE).
  assert (L2 : (length many <= length (calc_live_in (block_of (crowded many) 1) (get o 1)))%nat) by (apply (NoDup_incl_length NM); intros v; apply SE).
  rewrite <- LM. apply Nat.le_antisymm; assumption.
Qed.
