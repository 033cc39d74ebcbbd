(** The encoder as a whole. *)
From Coq Require Import ZArith List Bool Lia String.
From Verif Require Import Base Amd_model Amd_spec Amd_check Amd_proof Amd_dec_proof Amd_enc_proof
  Amd_main_proof.
Import ListNotations.
Open Scope Z_scope.
Local Opaque table candidates.

Lemma far_reg : forall r, has_64_reg r = true -> far r.
Proof.
  intros [c i] H. unfold has_64_reg, far in *. cbn [r_class r_index] in *.
  destruct c; try (left; lia). right. split; [reflexivity|lia].
Qed.
Lemma mentions_regs : forall o r, In r (operand_regs o) -> mentions o r.
Proof.
  intros o r H. destruct o as [g|g s|g d s|[b|] [i|] sc d s|d s|sg d s|v|v|v|v|v|v|v|s];
    cbn [operand_regs app In mentions] in *; try contradiction;
    intuition (subst; auto).
Qed.
Lemma no_far_has64 : forall ops, no_far ops -> has64 ops = false.
Proof.
  intros ops H. destruct (has64 ops) eqn:E; [|reflexivity]. exfalso.
  unfold has64 in E. apply existsb_exists in E as (o & Ho & E).
  apply existsb_exists in E as (r & Hr & E).
  apply (H o r Ho (mentions_regs o r Hr) (far_reg r E)).
Qed.
Lemma high_reg : forall ops, Forall operand_ok ops -> has_high ops = true ->
  exists r, In (OReg r) ops /\ r_class r = G8H.
Proof.
  intros ops Hok H. unfold has_high in H. apply existsb_exists in H as (o & Ho & H).
  apply existsb_exists in H as (r & Hr & H). unfold is_high_eight_reg in H.
  assert (Hc : r_class r = G8H) by (destruct (r_class r); try discriminate; reflexivity).
  rewrite Forall_forall in Hok. specialize (Hok o Ho).
  destruct o as [g|g s|g d s|b i sc d s|d s|sg d s|v|v|v|v|v|v|v|s];
    cbn [operand_regs In operand_ok] in *; try contradiction.
  - destruct Hr as [->|[]]. exists r. auto.
  - destruct Hr as [->|[]]. destruct Hok as [Hk _]. congruence.
  - destruct Hr as [->|[]]. destruct Hok as [[Hk _] _]. congruence.
  - destruct Hok as (H1 & H2 & _). apply in_app_or in Hr as [Hr|Hr].
    + destruct b as [b|]; [|contradiction]. destruct Hr as [->|[]]. destruct H1 as [Hk _]. congruence.
    + destruct i as [i|]; [|contradiction]. destruct Hr as [->|[]]. destruct H2 as [[Hk _] _]. congruence.
Qed.

Lemma select_ext_from : forall (c : list tmpl) t,
  (let insts := filter (fun t => negb (true && has_rex_extension (t_ext t))) c in
   match sort_insts (length insts) insts with [] => None | t :: _ => Some t end) = Some t ->
  has_rex_extension (t_ext t) = false.
Proof.
  intros c t H. cbv zeta in H. apply head_in in H.
  apply filter_In in H as [_ H]. cbn [andb] in H.
  destruct (has_rex_extension (t_ext t)); [discriminate|reflexivity].
Qed.
Lemma select_ext : forall name ks t,
  select_keys name ks true = Some t -> has_rex_extension (t_ext t) = false.
Proof. intros name ks t H. exact (select_ext_from (candidates name ks) t H). Qed.

(** the entry with the operand-size byte in its opcode *)
Definition check66 (t : tmpl) : bool :=
  negb ((t_prefix t =? 0) && (hd 0 (t_opcode t) =? 102))
  || (String.eqb (t_group t) "xor" && negb (has_rex_extension (t_ext t)) && negb (has_plus t)
      && forallb (fun ks => match ks with k :: _ => key_eqb k (KFREG, 8) | [] => false end)
           (product (t_ops t))).
Lemma check66_all : forallb check66 table = true.
Proof. vm_compute. reflexivity. Qed.

Lemma is_mem_shape : forall o, is_mem (key_of o) = true -> shape_of o = SMem (snd (key_of o)).
Proof. intros o H. destruct (key_mem o H) as (sg & a & _ & _ & E & _). exact E. Qed.

Lemma excluded_ops : forall name ops, excluded name (map key_of ops) = true ->
  name_ok name ops -> False.
Proof.
  intros name ops H [H1 H2]. destruct ops as [|a [|b [|c ops]]]; cbn [map excluded] in H;
    try discriminate.
  apply orb_true_iff in H as [H|H].
  - repeat (apply andb_true_iff in H as [H ?Hy]). apply String.eqb_eq in H.
    apply (H1 H). cbn [map].
    rewrite (is_mem_shape a Hy2). apply Z.eqb_eq in Hy1. rewrite Hy1.
    destruct (is_reg_key b Hy0) as (r & -> & Hf & Hk). apply Z.eqb_eq in Hy. rewrite Hk in Hy.
    cbn [shape_of]. destruct r as [[] i]; cbn in Hy, Hf; try discriminate; reflexivity.
  - repeat (apply andb_true_iff in H as [H ?Hy]). apply String.eqb_eq in H.
    specialize (H2 H). destruct (is_xmm_key a Hy0) as (r & -> & Hf & _).
    destruct H2 as [_ H2]. apply (H2 ltac:(destruct r as [[] i]; cbn in *; try discriminate; auto)
      (snd (key_of b))).
    cbn [map]. rewrite (is_mem_shape b Hy). reflexivity.
Qed.

Lemma select_ctx : forall name ops t, supported name ops -> select name ops = Some t ->
  ctx t ops /\ keys_match (t_ops t) (map key_of ops) = true /\ t_group t = name.
Proof.
  intros name ops t (Hok & Hsh & Had & Hhi & Hn) Hs. unfold select in Hs.
  destruct (select_in _ _ _ _ Hs) as (Hi & Hg & Hk).
  split; [|split; assumption].
  assert (Hho : high_ok ops).
  { intros Hh. destruct (high_reg ops Hok Hh) as (r & Hr & Hc).
    apply no_far_has64. apply (Hhi r Hr Hc). }
  constructor.
  - destruct (checked _ _ _ _ Hs) as [H|H]; [exact H|].
    exfalso. apply (excluded_ops name ops H Hn).
  - exact Hok.
  - exact Had.
  - rewrite Hg. exact Hsh.
  - exact Hho.
  - intros Hh. rewrite Hh in Hs. apply (select_ext _ _ _ Hs).
  - intros H1 H2. pose proof check66_all as K. rewrite forallb_forall in K.
    specialize (K t Hi). unfold check66 in K. rewrite H1, H2 in K.
    change (negb ((0 =? 0) && (102 =? 102))) with false in K. cbn [orb] in K.
    apply andb_true_iff in K as [K Kp]. apply andb_true_iff in K as [K Kpl].
    apply andb_true_iff in K as [K Kr]. apply String.eqb_eq in K.
    rewrite forallb_forall in Kp. specialize (Kp _ (keys_match_product _ _ Hk)).
    destruct ops as [|o ops]; [discriminate|]. cbn [map] in Kp. apply key_eqb_eq in Kp.
    destruct (key_freg o 8 Kp) as (r & -> & Hf & Hc).
    destruct Hn as [_ Hn]. specialize (Hn ltac:(congruence)). destruct Hn as [Hn _].
    split.
    + unfold hasr. destruct (has_rex_extension (t_ext t)); [discriminate|].
      rewrite no_far_has64; [reflexivity|]. apply Hn.
      destruct r as [[] i]; cbn in Hf, Hc; try discriminate; reflexivity.
    + destruct (has_plus t); [discriminate|reflexivity].
Qed.

Theorem encode_decode : forall name ops bytes,
  supported name ops -> encode name ops = Ok bytes ->
  forall rest, decode (bytes ++ rest) = Some (want name ops, rest).
Proof.
  intros name ops bytes Hs H rest. unfold encode in H.
  destruct (select name ops) as [t|] eqn:E; [|discriminate].
  destruct (select_ctx name ops t Hs E) as (C & Hk & Hg).
  destruct (all_cases t ops C Hk) as (f & Hf & _ & Hd).
  rewrite Hf in H. cbn [bind] in H.
  assert (Hb : format_encoding f = bytes) by (injection H as H; exact H).
  rewrite <- Hb, Hd, Hg. reflexivity.
Qed.

Theorem encode_total : forall name ops, supported name ops ->
  (exists bytes, encode name ops = Ok bytes) \/ (encode name ops = Abort /\ select name ops = None).
Proof.
  intros name ops Hs. unfold encode. destruct (select name ops) as [t|] eqn:E; [|right; auto].
  destruct (select_ctx name ops t Hs E) as (C & Hk & Hg).
  destruct (all_cases t ops C Hk) as (f & Hf & _). left. rewrite Hf. cbn [bind]. eauto.
Qed.

(** ** The slot of a displacement *)

Definition same_but (d d' : Z) (f f' : format) : Prop :=
  f_prefix f = f_prefix f' /\ f_rex f = f_rex f' /\ f_opcode f = f_opcode f'
  /\ f_modrm f = f_modrm f' /\ f_sib f = f_sib f' /\ f_imms f = f_imms f'.
Inductive rip_pair (d d' : Z) : operand -> operand -> Prop :=
| rip_same : forall o, rip_pair d d' o o
| rip_diff : forall s, rip_pair d d' (ORip d s) (ORip d' s).

Lemma set_rex_same : forall d d' has g f f' f1,
  same_but d d' f f' -> set_rex has g f = Ok f1 ->
  exists f1', set_rex has g f' = Ok f1' /\ same_but d d' f1 f1'.
Proof.
  intros d d' has g f f' f1 H E. unfold set_rex in *.
  pose proof H as (H1 & H2 & H3 & H4 & H5 & H6).
  destruct has.
  - rewrite <- H2. destruct (f_rex f) as [r|]; [|discriminate].
    assert (Hb : with_rex (Some (g r)) f = f1) by (injection E as E; exact E). subst f1.
    eexists; split; [reflexivity|]. repeat split; assumption.
  - assert (Hb : f = f1) by (injection E as E; exact E). subst f1. eexists; split; [reflexivity|exact H].
Qed.

Lemma Ok_inj : forall A (x y : A), Ok x = Ok y -> x = y.
Proof. intros A x y H. injection H as H. exact H. Qed.

Ltac sb_fields := unfold same_but in *; cbn [f_prefix f_rex f_opcode f_modrm f_sib f_imms
   with_prefix with_rex with_opcode with_modrm with_sib with_disps with_imms] in *.

Lemma fill_operand_same : forall d d' has sr e o o' f f' f1,
  rip_pair d d' o o' -> same_but d d' f f' -> fill_operand has sr e o f = Ok f1 ->
  exists f1', fill_operand has sr e o' f' = Ok f1' /\ same_but d d' f1 f1'.
Proof.
  intros d d' has sr e o o' f f' f1 Hp H E.
  assert (HM : the_modrm f = the_modrm f') by (unfold the_modrm; destruct H as (_ & _ & _ & -> & _); reflexivity).
  assert (HO : f_opcode f = f_opcode f') by apply H.
  assert (HM2 : f_modrm f = f_modrm f') by apply H.
  destruct Hp as [o|s].
  - destruct o as [g|g s|g z s|b i sc z s|z s|sg z s|v|v|v|v|v|v|v|s]; cbn [fill_operand] in *.
    + destruct e; try discriminate.
      * rewrite <- HM. refine (set_rex_same d d' _ _ _ _ _ _ E). sb_fields; tauto.
      * rewrite <- HM2. destruct sr.
        -- refine (set_rex_same d d' _ _ _ _ _ _ E). sb_fields; tauto.
        -- apply Ok_inj in E. subst f1. eexists; split; [reflexivity|]. sb_fields; tauto.
      * rewrite <- HO. refine (set_rex_same d d' _ _ _ _ _ _ E). sb_fields; tauto.
    + destruct e; try discriminate.
      * rewrite <- HM. refine (set_rex_same d d' _ _ _ _ _ _ E).
        destruct ((r_index g =? 13) || (r_index g =? 5)); sb_fields; tauto.
      * rewrite <- HM2. refine (set_rex_same d d' _ _ _ _ _ _ E). sb_fields; tauto.
    + destruct e; try discriminate. rewrite <- HM. refine (set_rex_same d d' _ _ _ _ _ _ E).
      sb_fields; tauto.
    + destruct e; try (apply Ok_inj in E; subst f1; eexists; split; [reflexivity|]; exact H).
      rewrite <- HM. destruct (scale_enc sc) as [s0| | | | |]; cbn [bind] in *; try discriminate.
      destruct b as [b|].
      * destruct (set_rex has _ (with_sib (SB s0 _ (r_index b)) f)) as [g| | | | |] eqn:Eg;
          cbn [bind] in E; try discriminate.
        pose proof (fun f' K => set_rex_same d d' _ _ _ f' _ K Eg) as L.
        destruct (L (with_sib (SB s0
           (match i with Some r => r_index r | None => 4 end) (r_index b)) f')) as (g' & Eg' & Hg);
          [clear L E Eg; sb_fields; tauto|].
        rewrite Eg'. cbn [bind].
        destruct ((r_index b =? 13) || (r_index b =? 5)); apply Ok_inj in E; subst f1;
          (eexists; split; [reflexivity|]); destruct (z =? 0);
          try destruct ((-128 <=? z) && (z <=? 127)); sb_fields; tauto.
      * destruct (set_rex has _ (with_sib _ _)) as [g| | | | |] eqn:Eg;
          cbn [bind] in E; try discriminate.
        pose proof (fun f' K => set_rex_same d d' _ _ _ f' _ K Eg) as L.
        destruct (L (with_sib (SB s0
           (match i with Some r => r_index r | None => 4 end) 5)
             (with_modrm (MR 0 (m_reg (the_modrm f)) 4) f'))) as (g' & Eg' & Hg);
          [clear L E Eg; sb_fields; tauto|].
        rewrite Eg'. cbn [bind]. apply Ok_inj in E; subst f1. eexists; split; [reflexivity|].
        sb_fields; tauto.
    + rewrite <- HM. destruct e; apply Ok_inj in E; subst f1; (eexists; split; [reflexivity|]);
        sb_fields; tauto.
    + rewrite <- HM. apply Ok_inj in E; subst f1. eexists; split; [reflexivity|].
      sb_fields; tauto.
    + apply Ok_inj in E; subst f1. eexists; split; [reflexivity|]. sb_fields; tauto.
    + apply Ok_inj in E; subst f1. eexists; split; [reflexivity|]. sb_fields; tauto.
    + apply Ok_inj in E; subst f1. eexists; split; [reflexivity|]. sb_fields; tauto.
    + apply Ok_inj in E; subst f1. eexists; split; [reflexivity|]. sb_fields; tauto.
    + apply Ok_inj in E; subst f1. eexists; split; [reflexivity|]. sb_fields; tauto.
    + discriminate.
    + apply Ok_inj in E; subst f1. eexists; split; [reflexivity|]. sb_fields; tauto.
    + discriminate.
  - cbn [fill_operand] in *. rewrite <- HM.
    destruct e; apply Ok_inj in E; subst f1; (eexists; split; [reflexivity|]); sb_fields; tauto.
Qed.

Lemma fill_operands_same : forall d d' has sr ls os os' f f' f1,
  Forall2 (rip_pair d d') os os' -> same_but d d' f f' ->
  fill_operands has sr ls os f = Ok f1 ->
  exists f1', fill_operands has sr ls os' f' = Ok f1' /\ same_but d d' f1 f1'.
Proof.
  intros d d' has sr. induction ls as [|[l e] ls IH]; intros os os' f f' f1 Hp H E;
    cbn [fill_operands] in *.
  - apply Ok_inj in E. subst f1. eauto.
  - destruct Hp as [|o o' os os' Ho Hp]; [discriminate|].
    destruct (fill_operand has sr e o f) as [g| | | | |] eqn:Eg; cbn [bind] in E; try discriminate.
    destruct (fill_operand_same d d' _ _ _ _ _ _ _ _ Ho H Eg) as (g' & Eg' & Hg).
    rewrite Eg'. cbn [bind]. apply (IH os os' g g' f1 Hp Hg E).
Qed.

Lemma rip_pairs_keys : forall d d' os os', Forall2 (rip_pair d d') os os' ->
  map key_of os = map key_of os' /\ has64 os = has64 os' /\ has_high os = has_high os'.
Proof.
  intros d d' os os' H. induction H as [|o o' os os' Ho H (IH1 & IH2 & IH3)].
  - repeat split.
  - cbn [map]. unfold has64, has_high in *. cbn [existsb].
    destruct Ho as [o|s].
    + repeat split; congruence.
    + cbn [key_of operand_regs existsb orb]. repeat split; congruence.
Qed.

Lemma format_split : forall f d, f_disps f = le_bytes 4 d ->
  exists A, format_encoding f = A ++ le_bytes 4 d ++ f_imms f /\
    forall f' d', same_but d d' f f' -> f_disps f' = le_bytes 4 d' ->
      format_encoding f' = A ++ le_bytes 4 d' ++ f_imms f.
Proof.
  intros f d Hd.
  exists ((if 0 <? f_prefix f then [f_prefix f] else [])
    ++ match f_rex f with Some r => [rex_byte r] | None => [] end
    ++ opcode_bytes (f_opcode f)
    ++ match f_modrm f with Some m => [modrm_byte m] | None => [] end
    ++ match f_sib f with Some s => [sib_byte s] | None => [] end).
  split.
  - unfold format_encoding. rewrite Hd. rewrite <- !app_assoc. reflexivity.
  - intros f' d' (H1 & H2 & H3 & H4 & H5 & H6) Hd'. unfold format_encoding.
    rewrite Hd', <- H1, <- H2, <- H3, <- H4, <- H5, <- H6. rewrite <- !app_assoc. reflexivity.
Qed.

Lemma q_imm_len : forall o, (forall v, o <> OUint v) -> (forall v, o <> OFloat64 v) ->
  zlen (q_imm o) = if is_imm_operand o then size_of o else 0.
Proof.
  intros o H1 H2. destruct o; try reflexivity. destruct (H1 v eq_refl).
Qed.

Theorem rip_slot : forall name pre post d s bytes,
  supported name (pre ++ ORip d s :: post) ->
  (forall v, ~ In (OUint v) post) ->
  encode name (pre ++ ORip d s :: post) = Ok bytes ->
  exists A B,
    bytes = A ++ le_bytes 4 d ++ B
    /\ zlen A = rip_offset (zlen bytes) (pre ++ ORip d s :: post)
    /\ forall d', is_int32 d' ->
       encode name (pre ++ ORip d' s :: post) = Ok (A ++ le_bytes 4 d' ++ B).
Proof.
  intros name pre post d s bytes Hs Hnu H. set (ops := pre ++ ORip d s :: post) in *.
  pose proof H as H0. unfold encode in H.
  destruct (select name ops) as [t|] eqn:E; [|discriminate].
  destruct (select_ctx name ops t Hs E) as (C & Hk & Hg).
  destruct (all_cases t ops C Hk) as (f & Hf & (Hi & Hd) & _).
  rewrite Hf in H. cbn [bind] in H. apply Ok_inj in H.
  assert (Hin : In (ORip d s) ops) by (unfold ops; apply in_or_app; right; left; reflexivity).
  specialize (Hd d s Hin).
  destruct (format_split f d Hd) as (A & HA & HA').
  exists A, (f_imms f). split; [congruence|]. split.
  - rewrite <- H, HA. unfold rip_offset, zlen. rewrite !app_length, !Nat2Z.inj_add, le_bytes_length.
    assert (Hlast : exists l r, rev ops = l :: r /\ (In l post \/ (post = [] /\ l = ORip d s))).
    { unfold ops. destruct (rev post) as [|l r] eqn:Er.
      - exists (ORip d s), (rev pre). rewrite rev_app_distr. cbn [rev].
        rewrite Er. cbn [app]. split; [reflexivity|]. right. split; [|reflexivity].
        rewrite <- (rev_involutive post), Er. reflexivity.
      - exists l, (r ++ [ORip d s] ++ rev pre). rewrite rev_app_distr. cbn [rev]. rewrite Er.
        rewrite <- app_assoc. cbn [app]. split; [reflexivity|]. left. apply in_rev. rewrite Er. left; reflexivity. }
    destruct Hlast as (l & r & Er & Hl). rewrite Er in Hi |- *. rewrite Hi.
    assert (Hlen : zlen (q_imm l) = if is_imm_operand l then size_of l else 0).
    { destruct Hl as [Hl|[_ ->]]; [|reflexivity].
      destruct l; try reflexivity. destruct (Hnu v Hl). }
    unfold zlen in Hlen.
    destruct (Z.ltb_spec 1 (Z.of_nat (List.length ops))) as [Hlt|Hge].
    + destruct (is_imm_operand l); lia.
    + destruct Hl as [Hl|[Hp ->]].
      * exfalso. unfold ops in Hge. rewrite app_length in Hge. cbn [List.length] in Hge.
        destruct post; [contradiction|cbn [List.length] in Hge; lia].
      * cbn [q_imm List.length]. lia.
  - intros d' Hd'. set (ops' := pre ++ ORip d' s :: post).
    assert (Hp : Forall2 (rip_pair d d') ops ops').
    { unfold ops, ops'. apply Forall2_app.
      - clear. induction pre; constructor; [constructor|assumption].
      - constructor; [constructor|]. clear. induction post; constructor; [constructor|assumption]. }
    destruct (rip_pairs_keys d d' _ _ Hp) as (K1 & K2 & K3).
    assert (Es : select name ops' = Some t).
    { unfold select in *. rewrite <- K1, <- K3. exact E. }
    assert (Hs' : supported name ops').
    { destruct Hs as (S1 & S2 & S3 & S4 & S5).
      assert (Sh : map shape_of ops' = map shape_of ops).
      { rewrite <- !shapes_keys, K1. reflexivity. }
      assert (Hreg : forall r, In (OReg r) ops' -> In (OReg r) ops).
      { intros r Hr. unfold ops, ops' in *. apply in_app_or in Hr. apply in_or_app.
        destruct Hr as [Hr|[Hr|Hr]]; [left; exact Hr|discriminate|right; right; exact Hr]. }
      assert (Hnf : no_far ops -> no_far ops').
      { intros K o r Ho Hm. unfold ops, ops' in *. apply in_app_or in Ho.
        destruct Ho as [Ho|[<-|Ho]]; [|contradiction|]; apply (K o r); try exact Hm;
          apply in_or_app; [left|right; right]; exact Ho. }
      split; [|split; [|split; [|split]]].
      - unfold ops, ops' in *. apply Forall_app in S1 as [S1a S1b]. apply Forall_app. split; [exact S1a|].
        inversion S1b; subst. constructor; [exact Hd'|assumption].
      - intros Hn. specialize (S2 Hn). unfold ops, ops' in *.
        destruct pre as [|a [|b [|]]], post as [|e [|]]; cbn [app] in *; auto.
      - unfold ops, ops' in *. apply Forall_app in S3 as [S3a S3b]. apply Forall_app. split; [exact S3a|].
        inversion S3b; subst. constructor; [exact Logic.I|assumption].
      - intros r Hr Hc. apply Hnf. apply (S4 r (Hreg r Hr) Hc).
      - destruct S5 as [S5a S5b]. split; [intros Hn; rewrite Sh; apply S5a; exact Hn|].
        intros Hn. specialize (S5b Hn). unfold ops, ops' in *.
        destruct pre as [|a pre']; cbn [app] in *; [exact Logic.I|].
        destruct a; auto. destruct S5b as [U1 U2]. split.
        + intros Hc. apply Hnf. apply U1; exact Hc.
        + intros Hc s0 K. apply (U2 Hc s0). rewrite <- K.
          cbn [map] in Sh. injection Sh as Sh. symmetry. exact Sh. }
    destruct (select_ctx name ops' t Hs' Es) as (C' & Hk' & _).
    destruct (all_cases t ops' C' Hk') as (f' & Hf' & (_ & Hd2) & _).
    assert (Hin' : In (ORip d' s) ops') by (unfold ops'; apply in_or_app; right; left; reflexivity).
    specialize (Hd2 d' s Hin').
    unfold encode. rewrite Es, Hf'. cbn [bind]. f_equal.
    apply HA'; [|exact Hd2].
    pose proof Hf as Hff. unfold fill in Hf, Hf'. rewrite <- K2 in Hf'.
    cbv zeta in Hf, Hf'.
    set (f0 := if has64 ops && negb (has_rex_extension (t_ext t)) then _ else _) in Hf, Hf'.
    destruct (fill_operands_same d d' _ _ _ _ _ f0 f0 f Hp ltac:(repeat split) Hf) as (f'' & Hf'' & Hsb).
    rewrite Hf' in Hf''. apply Ok_inj in Hf''. subst f''. exact Hsb.
Qed.

(** ** Addresses *)

Lemma to_int32_id : forall v, is_int32 v -> to_int32 v = v.
Proof. intros v H. unfold to_int32, is_int32 in *. Z.div_mod_to_equations; lia. Qed.

Theorem trans_addr_ok : forall a size o, laddr_ok a -> trans_addr a size = Ok o ->
  operand_ok o
  /\ (forall R, operand_addr R o = Some (laddr_value R a))
  /\ ((forall r, la_base a = LReg r -> r_index r = 5 \/ r_index r = 13 ->
         la_index a <> None -> la_offset a = 0) -> address_ok o).
Proof.
  intros [b i sc off] size o (H1 & H2 & H3) E. unfold trans_addr in E. cbn [la_base la_index la_scale la_offset] in *.
  unfold laddr_value. cbn [la_base la_index la_scale la_offset].
  destruct b as [|r|slot ssz].
  - destruct i as [i|]; [|discriminate]. apply Ok_inj in E. subst o.
    rewrite to_int32_id by exact H3.
    split; [cbn; tauto|]. split; [intros R; reflexivity|]. intros _. exact Logic.I.
  - destruct i as [i|].
    + apply Ok_inj in E. subst o. rewrite to_int32_id by exact H3.
      split; [cbn; tauto|]. split; [intros R; reflexivity|]. intros K. cbn [address_ok].
      intros Hr. apply (K r eq_refl Hr). discriminate.
    + destruct ((r_index r =? 4) || (r_index r =? 12)) eqn:Er.
      * apply Ok_inj in E. subst o. rewrite to_int32_id by exact H3.
        split; [cbn; tauto|]. split; [intros R; reflexivity|]. intros _. cbn [address_ok]. lia.
      * destruct (Z.eqb_spec off 0) as [->|Ho]; apply Ok_inj in E; subst o.
        -- split; [exact H1|]. split; [intros R; reflexivity|]. intros _. cbn [address_ok]. lia.
        -- rewrite to_int32_id by exact H3. split; [split; assumption|].
           split; [intros R; reflexivity|]. intros _. cbn [address_ok]. lia.
  - destruct H1 as [H1 ->]. apply Ok_inj in E.
    subst o. rewrite to_int32_id by exact H1.
    split; [split; [split; [reflexivity|cbn; lia]|exact H1]|].
    split.
    + intros R. unfold operand_addr. cbn [want_addr addr_value r_index]. f_equal. lia.
    + intros _. cbn. lia.
Qed.

Theorem trans_stack_ok : forall frame slot size R,
  is_int32 (frame + slot) -> R 4 + frame = R 5 ->
  operand_ok (trans_stack frame slot size) /\ address_ok (trans_stack frame slot size)
  /\ operand_addr R (trans_stack frame slot size) = Some (R 5 + slot).
Proof.
  intros frame slot size R H HR. unfold trans_stack.
  replace (frame - - slot) with (frame + slot) by lia. rewrite to_int32_id by exact H.
  split; [|split].
  - split; [split; [reflexivity|cbn; lia]|]. split; [cbn; tauto|exact H].
  - cbn. lia.
  - unfold operand_addr. cbn [want_addr addr_value r_index]. f_equal. lia.
Qed.

(** ** Numbers *)

Lemma signed_mod : forall n v, 0 < n -> forall w, 0 < w -> w <= n ->
  signed n (v mod 2 ^ (8 * n)) mod 2 ^ (8 * w) = v mod 2 ^ (8 * w).
Proof.
  intros n v Hn w Hw Hwn. unfold signed.
  assert (Hd : 2 ^ (8 * n) = 2 ^ (8 * (n - w)) * 2 ^ (8 * w)).
  { rewrite <- Z.pow_add_r by lia. f_equal. lia. }
  assert (Hp : 2 ^ (8 * w) <> 0) by (pose proof (Z.pow_pos_nonneg 2 (8 * w)); lia).
  assert (Hq : 0 < 2 ^ (8 * (n - w))) by (apply Z.pow_pos_nonneg; lia).
  assert (E : (v mod 2 ^ (8 * n)) mod 2 ^ (8 * w) = v mod 2 ^ (8 * w)).
  { rewrite Hd. rewrite (Z.mul_comm (2 ^ (8 * (n - w)))). rewrite Z.rem_mul_r by lia.
    rewrite (Z.mul_comm (2 ^ (8 * w))), Z.mod_add by exact Hp. apply Z.mod_mod. exact Hp. }
  destruct (v mod 2 ^ (8 * n) <? 2 ^ (8 * n - 1)); [exact E|].
  rewrite Hd at 2. rewrite <- Z.add_opp_r, <- Z.mul_opp_l, Z.mod_add by exact Hp. exact E.
Qed.

Theorem trans_imm_ok : forall k v, 0 <= v < 2 ^ 64 -> 
  operand_ok (trans_imm k v)
  /\ num_value (kind_width k) (trans_imm k v) = Some (v mod 2 ^ (8 * kind_width k)).
Proof.
  intros k v Hv. split.
  - destruct k; cbn [trans_imm].
    + cbv zeta. destruct ((2147483647 <? _) || _); cbn [operand_ok]; [exact Hv|].
      apply Z.mod_pos_bound; lia.
    + apply Z.mod_pos_bound; lia.
    + apply Z.mod_pos_bound; lia.
    + apply Z.mod_pos_bound; lia.
    + apply Z.mod_pos_bound; lia.
  - unfold num_value. destruct k; cbn [trans_imm kind_width].
    + cbv zeta. destruct ((2147483647 <? _) || _) eqn:E;
        cbn [want_op num_width]; unfold want_num; cbn [jumps String.eqb]; f_equal.
      * rewrite <- (Z.mod_small v (2 ^ (8 * 8))) at 1 by exact Hv.
        apply (signed_mod 8 v ltac:(lia) 8); lia.
      * unfold signed. change (8 * 4 - 1) with 31. change (8 * 4) with 32. change (8 * 8) with 64.
        change (2 ^ 31) with 2147483648. change (2 ^ 32) with 4294967296.
        change (2 ^ 64) with 18446744073709551616 in *. change (2 ^ 63) with 9223372036854775808 in *.
        destruct (v <? 9223372036854775808) eqn:E1;
        destruct (v mod 4294967296 <? 2147483648) eqn:E2; Z.div_mod_to_equations; lia.
    + cbn [want_op num_width]. unfold want_num. cbn [jumps String.eqb]. f_equal.
      apply (signed_mod 4 v ltac:(lia) 4); lia.
    + cbn [want_op num_width]. unfold want_num. cbn [jumps String.eqb]. f_equal.
      apply (signed_mod 2 v ltac:(lia) 2); lia.
    + cbn [want_op num_width]. unfold want_num. cbn [jumps String.eqb]. f_equal.
      apply (signed_mod 1 v ltac:(lia) 1); lia.
    + cbn [want_op num_width]. unfold want_num. cbn [jumps String.eqb]. f_equal.
      apply (signed_mod 1 v ltac:(lia) 1); lia.
Qed.

Lemma trans_imm_small : forall v, 0 <= v < 2 ^ 64 ->
  (v < 2147483648 \/ 2 ^ 64 - 2147483648 <= v) -> shape_of (trans_imm I64 v) = SNum 4.
Proof.
  intros v Hv H. cbn [trans_imm]. cbv zeta.
  change (2 ^ 64) with 18446744073709551616 in *. change (2 ^ 63) with 9223372036854775808 in *.
  destruct ((2147483647 <? _) || _) eqn:E; [|reflexivity].
  destruct (v <? 9223372036854775808) eqn:E1; lia.
Qed.

(** moving a number into a register *)
Theorem mov_number : forall k v c n bytes rest,
  0 <= v < 2 ^ 64 -> 0 <= n <= 15 ->
  c = match k with I64 => G64 | I32 => G32 | I16 => G16 | I8 | IBool => G8 end ->
  encode "mov" [OReg (Rg c n); trans_imm k v] = Ok bytes ->
  decode (bytes ++ rest) =
    Some (("mov"%string, [XGpr (kind_width k) n; XImm (v mod 2 ^ (8 * kind_width k))]), rest).
Proof.
  intros k v c n bytes rest Hv Hn Hc H.
  destruct (trans_imm_ok k v Hv) as [Hok Hval].
  assert (Hs : supported "mov" [OReg (Rg c n); trans_imm k v]).
  { split; [|split; [|split; [|split]]].
    - constructor; [|constructor; [exact Hok|constructor]].
      cbn [operand_ok]. unfold reg_ok. subst c. destruct k; cbn [r_class r_index]; lia.
    - intros [K|[K|K]]; discriminate.
    - constructor; [exact Logic.I|constructor; [|constructor]].
      destruct k; cbn [trans_imm]; try exact Logic.I.
      cbv zeta. destruct ((2147483647 <? _) || _); exact Logic.I.
    - intros r [Hr|[Hr|[]]] Hg.
      + injection Hr as <-. cbn [r_class] in Hg. subst c. destruct k; discriminate.
      + exfalso. destruct k; cbn [trans_imm] in Hr; try discriminate.
        cbv zeta in Hr. destruct ((2147483647 <? _) || _); discriminate.
    - split; intros K; discriminate. }
  rewrite (encode_decode _ _ _ Hs H rest). f_equal. f_equal.
  assert (Hw : want "mov" [OReg (Rg c n); trans_imm k v]
    = ("mov"%string, [XGpr (kind_width k) n; want_op EmptyString [SGpr (kind_width k)] (trans_imm k v)])).
  { subst c. destruct k; try reflexivity. cbn [trans_imm]. cbv zeta.
    destruct ((2147483647 <? _) || _); reflexivity. }
  rewrite Hw. f_equal. f_equal. f_equal.
  unfold num_value in Hval. destruct (want_op _ _ _); try discriminate.
  injection Hval as Hval. f_equal. exact Hval.
Qed.

(** ** Instructions that must exist *)

Definition keys_of_shape (s : shape) : list key :=
  match s with
  | SGpr w => [(KREG, w)]
  | SXmm w => [(KFREG, w)]
  | SMem w => [(KINDIRECT, w); (KDISP, w); (KSIB, w); (KRIP, w)]
  | SNum w => if w =? 1 then [(KUINT8, 1)] else if w =? 2 then [(KUINT16, 2)]
      else if w =? 4 then [(KUINT32, 4)] else [(KUINT64, 8)]
  end.
Fixpoint keys_of_shapes (l : list shape) : list (list key) :=
  match l with
  | [] => [[]]
  | s :: r => flat_map (fun k => map (cons k) (keys_of_shapes r)) (keys_of_shape s)
  end.
Definition shape_byte (s : shape) : bool :=
  match s with SGpr w | SMem w | SNum w => w =? 1 | SXmm _ => false end.
Definition found (name : string) (ks : list key) (h : bool) : bool :=
  match select_keys name ks h with Some _ => true | None => false end.
Definition check_usual : bool :=
  forallb (fun p => forallb (fun ks => found (fst p) ks false
                       && (negb (forallb shape_byte (snd p)) || found (fst p) ks true))
             (keys_of_shapes (snd p))) usual.
Lemma check_usual_true : check_usual = true.
Proof. vm_compute. reflexivity. Qed.

Lemma plain_keys : forall ops, Forall plain ops ->
  In (map key_of ops) (keys_of_shapes (map shape_of ops)).
Proof.
  intros ops H. induction H as [|o ops Ho H IH]; [left; reflexivity|].
  cbn [map keys_of_shapes]. apply in_flat_map. exists (key_of o).
  split; [|apply in_map; exact IH].
  destruct o as [[c i]|g s|g d s|b i sc d s|d s|sg d s|v|v|v|v|v|v|v|s]; try contradiction Ho;
    [destruct c| | | | | | | | ]; cbn; auto.
Qed.

Theorem usual_encodes : forall name ops,
  In (name, map shape_of ops) usual -> Forall plain ops -> bytes_if_high ops ->
  supported name ops -> exists bytes, encode name ops = Ok bytes.
Proof.
  intros name ops Hu Hp Hb Hs.
  destruct (encode_total name ops Hs) as [H|[_ H]]; [exact H|]. exfalso.
  pose proof check_usual_true as K. unfold check_usual in K. rewrite forallb_forall in K.
  specialize (K _ Hu). cbn [fst snd] in K. rewrite forallb_forall in K.
  specialize (K _ (plain_keys ops Hp)). apply andb_true_iff in K as [K1 K2].
  unfold select in H. unfold found in K1, K2.
  destruct (has_high ops) eqn:Eh.
  - destruct (high_reg ops (proj1 Hs) Eh) as (r & Hr & Hc).
    specialize (Hb r Hr Hc).
    assert (Hf : forallb shape_byte (map shape_of ops) = true).
    { apply forallb_forall. intros s Hi. rewrite Forall_forall in Hb.
      destruct (Hb s Hi) as [->|[->| ->]]; reflexivity. }
    rewrite Hf, H in K2. discriminate K2.
  - rewrite H in K1. discriminate K1.
Qed.
