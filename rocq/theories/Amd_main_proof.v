(** The nine ways an entry lays out its operands. *)
From Coq Require Import ZArith List Bool Lia String.
From Verif Require Import Base Amd_model Amd_spec Amd_check Amd_proof Amd_dec_proof Amd_enc_proof.
Import ListNotations.
Open Scope Z_scope.
Local Opaque table candidates.

Lemma enc_eqb_eq : forall a b, enc_eqb a b = true -> a = b.
Proof. intros [] []; cbn; intros H; congruence. Qed.
Lemma encs_eqb_eq : forall a b, encs_eqb a b = true -> a = b.
Proof.
  induction a as [|x a IH]; intros [|y b] H; cbn [encs_eqb] in H; try discriminate; [reflexivity|].
  apply andb_true_iff in H as [H1 H2]. apply enc_eqb_eq in H1. apply IH in H2. congruence.
Qed.

Lemma agree_parts : forall t ks, agree t ks = true ->
  In (map snd (t_ops t)) shapes9 /\ start_ok t = true.
Proof.
  intros t ks H. unfold agree in H. destruct (norm t) as [pre o].
  repeat (apply andb_true_iff in H as [H ?Hy]). split; [|assumption].
  unfold shape_okb in Hy2. apply andb_true_iff in Hy2 as [Hy2 _].
  apply existsb_exists in Hy2 as (x & Hi & He). apply encs_eqb_eq in He. rewrite He. exact Hi.
Qed.

Lemma agree_slashr : forall t ks r, agree t ks = true -> map snd (t_ops t) = MODRM_REG :: r ->
  has_ext SLASHR (t_ext t) = true.
Proof.
  intros t ks r H E. unfold agree in H. destruct (norm t) as [pre o].
  repeat (apply andb_true_iff in H as [H ?Hy]).
  unfold shape_okb in Hy2. apply andb_true_iff in Hy2 as [_ Hy2]. rewrite E in Hy2. exact Hy2.
Qed.

Lemma shape_key : forall o, shape_of_key (key_of o) = shape_of o.
Proof.
  destruct o as [[[] i]|a b|a b c|a b c d e|a b|a b c|v|v|v|v|v|v|v|v]; reflexivity.
Qed.
Lemma shapes_keys : forall ops, map shape_of_key (map key_of ops) = map shape_of ops.
Proof.
  intros ops. rewrite map_map. apply map_ext. apply shape_key.
Qed.

(** registers are small unless there is a REX prefix *)
Lemma has64_small : forall ops o r, has64 ops = false -> In o ops -> In r (operand_regs o) ->
  has_64_reg r = false.
Proof.
  intros ops o r H Ho Hr. unfold has64 in H.
  destruct (has_64_reg r) eqn:E; [|reflexivity].
  assert (existsb (fun o => existsb has_64_reg (operand_regs o)) ops = true); [|congruence].
  apply existsb_exists. exists o. split; [exact Ho|]. apply existsb_exists. eauto.
Qed.
Lemma has_64_small : forall r, reg_ok r -> has_64_reg r = false -> small_reg r.
Proof.
  intros [c i] Hok H. unfold has_64_reg, small_reg, reg_ok in *. cbn [r_class r_index] in *.
  destruct c; (split; [lia|intros K; try discriminate; lia]).
Qed.

Definition high_ok (ops : list operand) : Prop :=
  has_high ops = true -> has64 ops = false.
Definition high_ext (t : tmpl) (ops : list operand) : Prop :=
  has_high ops = true -> has_rex_extension (t_ext t) = false.

Lemma small_ops : forall t ops pre rr xx bb o,
  In o ops -> operand_ok o -> high_ok ops -> high_ext t ops ->
  small_op (prefs_of pre (rex_opt (hasr t ops) (wbit t) rr xx bb)) o.
Proof.
  intros t ops pre rr xx bb o Hi Hok Hh He. destruct o as [r| | | | | | | | | | | | |]; cbn [small_op]; auto.
  cbn [operand_ok] in Hok. split; [exact Hok|]. unfold prefs_of, rex_opt. cbn [p_rex].
  split.
  - destruct (hasr t ops) eqn:E; [discriminate|]. intros _. unfold hasr in E.
    apply orb_false_iff in E as [E _]. apply has_64_small; [exact Hok|].
    apply (has64_small ops (OReg r)); [exact E|exact Hi|left; reflexivity].
  - intros Hc. assert (Hhi : has_high ops = true).
    { unfold has_high. apply existsb_exists. exists (OReg r). split; [exact Hi|].
      cbn. unfold is_high_eight_reg. rewrite Hc. reflexivity. }
    unfold hasr. rewrite (Hh Hhi), (He Hhi). reflexivity.
Qed.

Lemma hasr_reg : forall t ops o r, In o ops -> In r (operand_regs o) -> hasr t ops = false ->
  (7 <? r_index r) = false.
Proof.
  intros t ops o r Ho Hr H. unfold hasr in H. apply orb_false_iff in H as [H _].
  pose proof (has64_small _ _ _ H Ho Hr) as K. unfold has_64_reg in K.
  destruct (r_class r); lia.
Qed.

Lemma rmo_ok_rex : forall t ops pre rr q,
  In q ops -> rm_good q ->
  rmo_ok (prefs_of pre (rex_opt (hasr t ops) (wbit t) rr (q_x q) (q_b q))) (Some q).
Proof.
  intros t ops pre rr q Hi Hg. cbn [rmo_ok].
  destruct (rex_bits pre (hasr t ops) (wbit t) rr (q_x q) (q_b q)) as (_ & _ & E1 & E0).
  rewrite E1, E0. split; [exact Hg|].
  destruct (hasr t ops) eqn:E; [split; reflexivity|]. cbn [andb].
  assert (K : forall r, In r (operand_regs q) -> (7 <? r_index r) = false)
    by (intros r Hr; apply (hasr_reg t ops q r Hi Hr E)).
  destruct q as [g|g s|g d s|[b|] [i|] sc d s|d s|sg d s|v|v|v|v|v|v|v|s];
    cbn [q_x q_b sib_i operand_regs app] in *; split; try reflexivity; symmetry;
    apply K; cbn [In]; auto.
Qed.

(** what a RM pattern says about uses_modrm *)
Lemma rm_uses : forall name l sr pt k, op_agree name l sr pt MODRM_RM k = true ->
  match pt with PE _ | PXE _ | PMem _ => True | _ => False end.
Proof. intros name l sr [w|w|w|n w|n|n| | |m|m] k H; cbn in H; auto; discriminate. Qed.
Lemma imm_uses : forall name l sr pt k, op_agree name l sr pt IMM k = true ->
  match pt with PImm _ _ | PRaw _ | PRel _ => True | _ => False end.
Proof. intros name l sr [w|w|w|n w|n|n| | |m|m] k H; cbn in H; auto; discriminate. Qed.
Lemma plus_uses : forall name l sr pt k, op_agree name l sr pt OPCODE_PLUS k = true ->
  match pt with PZ _ => True | _ => False end.
Proof. intros name l sr [w|w|w|n w|n|n| | |m|m] k H; cbn in H; auto; discriminate. Qed.

(** the operand in rm is one the encoder gets right, and its segment *)
Lemma rm_key : forall name l sr pt o, op_agree name l sr pt MODRM_RM (key_of o) = true ->
  match o with
  | OReg _ | OInd _ _ | ODisp _ _ _ | OSib _ _ _ _ _ | ORip _ _ | OSeg _ _ _ => True
  | _ => False
  end.
Proof.
  intros name l sr pt o H.
  destruct o as [r|a b|a b c|a b c d e|a b|a b c|v|v|v|v|v|v|v|v]; auto;
    destruct pt; cbn in H; discriminate.
Qed.

(** memory operands the encoder gets right: a base of rsp or r12 needs the form
    with an index byte, a base of rbp or r13 in that form loses a displacement *)
Definition mem_good (o : operand) : Prop :=
  match o with
  | OInd r _ | ODisp r _ _ => r_index r <> 4 /\ r_index r <> 12
  | OSib (Some r) _ _ d _ => r_index r = 5 \/ r_index r = 13 -> d = 0
  | _ => True
  end.

Lemma good_rm : forall name l sr pt o, op_agree name l sr pt MODRM_RM (key_of o) = true ->
  operand_ok o -> mem_good o -> rm_good o.
Proof.
  intros name l sr pt o H Hok Hm. split; [exact Hok|].
  pose proof (rm_key _ _ _ _ _ H) as K.
  destruct o as [r|a b|a b c|[a|] b c d e|a b|a b c|v|v|v|v|v|v|v|v]; auto.
Qed.

(** the segment prefix *)
Lemma seg_final : forall t ops q rx, agree t (map key_of ops) = true -> In q ops ->
  p_seg (final_prefs t (Some q) rx) = seg_op q.
Proof.
  intros t ops q rx Ha Hi. unfold agree in Ha. unfold final_prefs.
  destruct (norm t) as [pre o] eqn:En.
  repeat (apply andb_true_iff in Ha as [Ha ?Hy]). apply existsb_eqb_in in Ha.
  cbn [fst rmo_pre prefs_of p_seg].
  destruct q as [r|a b|a b c|a b c d e|a b|[] b c|v|v|v|v|v|v|v|v]; cbn [q_pre seg_op];
    try reflexivity; cbn [In] in Ha; destruct Ha as [<-|[<-|[<-|[<-|[]]]]]; reflexivity.
Qed.

Lemma start_reg : forall t, start_ok t = true ->
  forall M, f_modrm (start t) = Some M ->
  m_mod M = 0 /\ m_rm M = 0 /\ 0 <= m_reg M < 8
  /\ (forall d, slash_digit (t_ext t) = Some d ->
        m_reg M = d /\ has_ext SLASHR (t_ext t) = false)
  /\ (slash_digit (t_ext t) = None -> m_reg M = 0).
Proof.
  intros t H M HM. unfold start_ok in H. rewrite HM in H.
  apply andb_true_iff in H as [_ H]. apply andb_true_iff in H as [H Hd].
  apply andb_true_iff in H as [H _]. apply andb_true_iff in H as [H1 H2].
  apply Z.eqb_eq in H1. apply Z.eqb_eq in H2.
  destruct (slash_digit (t_ext t)) as [d|] eqn:E.
  - apply andb_true_iff in Hd as [Hd Hs]. apply Z.eqb_eq in Hd.
    assert (0 <= d < 8).
    { unfold slash_digit in E.
      repeat (destruct (has_ext _ (t_ext t)); [injection E as <-; lia|]). 
      repeat match type of E with (if ?b then _ else _) = _ => destruct b; [injection E as <-; lia|] end.
      discriminate. }
    split; [exact H1|]. split; [exact H2|]. split; [lia|]. split; [|discriminate].
    intros d' Ed. split; [congruence|].
    destruct (has_ext SLASHR (t_ext t)); [discriminate|reflexivity].
  - apply andb_true_iff in Hd as [Hd Hs]. apply Z.eqb_eq in Hs.
    repeat split; try lia; try discriminate.
Qed.

Lemma agree_ops : forall t ks, agree t ks = true ->
  exists ps, ops_agree (t_group t) (map shape_of_key ks) (has_ext SLASHR (t_ext t)) ps (t_ops t) ks = true.
Proof.
  intros t ks H. unfold agree in H. destruct (norm t) as [pre o].
  repeat (apply andb_true_iff in H as [H ?Hy]).
  rewrite forallb_forall in Hy. specialize (Hy 0). cbv zeta in Hy.
  assert (Hi : In 0 (if existsb (fun e => enc_eqb e OPCODE_PLUS) (map snd (t_ops t)) then upto8 else [0]))
    by (destruct (existsb (fun e => enc_eqb e OPCODE_PLUS) (map snd (t_ops t)));
        [apply upto8_in; lia|left; reflexivity]).
  specialize (Hy Hi). apply andb_true_iff in Hy as [_ Hy].
  destruct (slash_digit (t_ext t)) as [d|]; cbn [forallb upto8] in Hy;
    apply andb_true_iff in Hy as [Hy _]; destruct (lookup _ _ _ _) as [[name ps]|]; try discriminate;
    apply andb_true_iff in Hy as [_ Hy]; exists ps; exact Hy.
Qed.

(** everything the nine cases use *)
Record ctx (t : tmpl) (ops : list operand) : Prop := {
  c_agree : agree t (map key_of ops) = true;
  c_ok : Forall operand_ok ops;
  c_mem : Forall mem_good ops;
  c_shift : shift_ok (t_group t) ops;
  c_high : high_ok ops;
  c_ext : high_ext t ops;
  c_66 : t_prefix t = 0 -> hd 0 (t_opcode t) = 102 -> hasr t ops = false /\ has_plus t = false
}.

Definition good (t : tmpl) (ops : list operand) : Prop :=
  exists f, fill t ops = Ok f /\
  (f_imms f = match rev ops with o :: _ => q_imm o | [] => [] end
   /\ (forall d sz, In (ORip d sz) ops -> f_disps f = le_bytes 4 d)) /\
  forall rest, decode (format_encoding f ++ rest)
    = Some (want_name (t_group t) (map shape_of ops),
            map (want_op (t_group t) (map shape_of ops)) ops, rest).

Lemma in_ok : forall ops o, Forall operand_ok ops -> In o ops -> operand_ok o.
Proof. intros ops o H. rewrite Forall_forall in H. apply H. Qed.
Lemma in_mem : forall ops o, Forall mem_good ops -> In o ops -> mem_good o.
Proof. intros ops o H. rewrite Forall_forall in H. apply H. Qed.
Lemma in_shape : forall ops o, In o ops -> In (shape_of o) (map shape_of ops).
Proof. intros ops o. apply in_map. Qed.

Lemma rm_noimm : forall name l sr pt o, op_agree name l sr pt MODRM_RM (key_of o) = true ->
  q_imm o = [].
Proof.
  intros name l sr pt o H. pose proof (rm_key _ _ _ _ _ H) as K.
  destruct o; try contradiction; reflexivity.
Qed.
Lemma imm_norip : forall name l sr pt d s, op_agree name l sr pt IMM (key_of (ORip d s)) = true -> False.
Proof. intros name l sr [] d s H; cbn in H; discriminate. Qed.

Ltac andb H := apply andb_true_iff in H as [?A H].

Lemma existsb_rm_some : forall t, start_ok t = true ->
  existsb (fun e => enc_eqb e MODRM_RM) (map snd (t_ops t)) = true ->
  encs_eqb (map snd (t_ops t)) [MODRM_RM] = false ->
  exists M, f_modrm (start t) = Some M.
Proof.
  intros t H1 H2 H3. unfold start_ok in H1. destruct (f_modrm (start t)) as [M|]; [eauto|].
  apply andb_true_iff in H1 as [_ H1]. rewrite H2, H3 in H1. cbn [negb] in H1.
  rewrite andb_false_r in H1. discriminate.
Qed.
Lemma no_rm_none : forall t, start_ok t = true ->
  existsb (fun e => enc_eqb e MODRM_RM) (map snd (t_ops t)) = false ->
  f_modrm (start t) = None.
Proof.
  intros t H1 H2. unfold start_ok in H1. destruct (f_modrm (start t)) as [M|]; [|reflexivity].
  apply andb_true_iff in H1 as [_ H1]. rewrite H2 in H1.
  rewrite andb_false_r in H1. discriminate.
Qed.

(** without ModRM there is no digit *)
Lemma slash_modrm : forall es f, has_ext SLASH0 es || has_ext SLASH1 es || has_ext SLASH2 es
   || has_ext SLASH3 es || has_ext SLASH4 es || has_ext SLASH5 es || has_ext SLASH6 es
   || has_ext SLASH7 es = true \/ f_modrm f <> None ->
  f_modrm (fold_left build_ext es f) <> None.
Proof.
  induction es as [|e es IH]; intros f H; cbn [fold_left].
  - destruct H as [H|H]; [discriminate|exact H].
  - apply IH. destruct H as [H|H].
    + destruct e; cbn in H |- *; try (right; discriminate); try (left; exact H).
    + right. destruct e; cbn; try discriminate; exact H.
Qed.
Lemma no_modrm_digit : forall t, f_modrm (start t) = None -> slash_digit (t_ext t) = None.
Proof.
  intros t H. destruct (slash_digit (t_ext t)) as [d|] eqn:E; [|reflexivity].
  exfalso. revert H. apply slash_modrm. left.
  unfold slash_digit in E.
  destruct (has_ext SLASH0 (t_ext t)), (has_ext SLASH1 (t_ext t)), (has_ext SLASH2 (t_ext t)),
    (has_ext SLASH3 (t_ext t)), (has_ext SLASH4 (t_ext t)), (has_ext SLASH5 (t_ext t)),
    (has_ext SLASH6 (t_ext t)), (has_ext SLASH7 (t_ext t)); try reflexivity; discriminate.
Qed.

Lemma land7_range : forall i, 0 <= Z.land i 7 < 16.
Proof. intros i. rewrite land7. Z.div_mod_to_equations; lia. Qed.
Lemma land7_mod : forall i, Z.land i 7 mod 8 = i mod 8.
Proof. intros i. rewrite land7. apply Z.mod_mod. lia. Qed.

Lemma rexr_final : forall t ops pre x b r,
  In (OReg r) ops ->
  rex_bit (prefs_of pre (rex_opt (hasr t ops) (wbit t) (7 <? r_index r) x b)) 2 = (7 <? r_index r).
Proof.
  intros t ops pre x b r Hi.
  destruct (rex_bits pre (hasr t ops) (wbit t) (7 <? r_index r) x b) as (_ & -> & _).
  destruct (hasr t ops) eqn:E; [reflexivity|].
  rewrite (hasr_reg t ops (OReg r) r Hi (or_introl eq_refl) E). reflexivity.
Qed.
Lemma rexb_final : forall t ops pre rr x r,
  In (OReg r) ops ->
  rex_bit (prefs_of pre (rex_opt (hasr t ops) (wbit t) rr x (7 <? r_index r))) 0 = (7 <? r_index r).
Proof.
  intros t ops pre rr x r Hi.
  destruct (rex_bits pre (hasr t ops) (wbit t) rr x (7 <? r_index r)) as (_ & _ & _ & ->).
  destruct (hasr t ops) eqn:E; [reflexivity|].
  rewrite (hasr_reg t ops (OReg r) r Hi (or_introl eq_refl) E). reflexivity.
Qed.

(** no operand *)
Lemma case_none : forall t, ctx t [] -> map snd (t_ops t) = [] -> good t [].
Proof.
  intros t C E. destruct (t_ops t) as [|] eqn:Et; [|discriminate].
  destruct (agree_parts _ _ (c_agree _ _ C)) as [_ Hs].
  assert (HM : f_modrm (start t) = None) by (apply no_rm_none; [exact Hs|rewrite Et; reflexivity]).
  unfold good. rewrite (fill_start t [] Hs), Et, HM. cbn [fill_operands].
  eexists; split; [reflexivity|].
  split; [split; [reflexivity|intros d sz []]|].
  intros rest.
  apply (finish t [] None 0 None [] false false false rest [] (c_agree _ _ C)).
  - intros H1 H2. destruct (c_66 _ _ C H1 H2). auto.
  - discriminate.
  - unfold has_plus. rewrite Et. cbn. split; [discriminate|congruence].
  - intros _. apply no_modrm_digit; exact HM.
  - intros d Hd. rewrite (no_modrm_digit t HM) in Hd. discriminate.
  - exact Logic.I.
  - lia.
  - intros ps op _ Hps. rewrite Et in Hps. destruct ps; [|discriminate]. split; reflexivity.
Qed.

(** one immediate *)
Lemma case_imm : forall t a, ctx t [a] -> map snd (t_ops t) = [IMM] -> good t [a].
Proof.
  intros t a C E. destruct (t_ops t) as [|[l1 e1] [|]] eqn:Et; try discriminate.
  injection E as ->.
  destruct (agree_parts _ _ (c_agree _ _ C)) as [_ Hs].
  assert (HM : f_modrm (start t) = None) by (apply no_rm_none; [exact Hs|rewrite Et; reflexivity]).
  destruct (agree_ops _ _ (c_agree _ _ C)) as [ps0 Hps0]. rewrite Et in Hps0.
  destruct ps0 as [|q1 [|q2 ps0]]; cbn [map ops_agree] in Hps0; try discriminate;
    [|rewrite andb_false_r in Hps0; discriminate].
  apply andb_true_iff in Hps0 as [Ha _].
  pose proof (in_ok _ a (c_ok _ _ C) (or_introl eq_refl)) as Hoka.
  unfold good. rewrite (fill_start t [a] Hs), Et, HM. cbn [fill_operands].
  destruct (op_imm _ _ _ _ a no_prefix 0 None [] Ha Hoka) as [_ Hf].
  rewrite Hf. cbn [bind].
  eexists; split; [reflexivity|].
  split; [split; [reflexivity|intros d sz [->|[]]; destruct (imm_norip _ _ _ _ _ _ Ha)]|].
  intros rest. rewrite <- shapes_keys.
  apply (finish t [a] None 0 None (q_imm a) false false false rest _ (c_agree _ _ C)).
  - intros H1 H2. destruct (c_66 _ _ C H1 H2). auto.
  - discriminate.
  - unfold has_plus. rewrite Et. cbn. split; [discriminate|congruence].
  - intros _. apply no_modrm_digit; exact HM.
  - intros d Hd. rewrite (no_modrm_digit t HM) in Hd. discriminate.
  - exact Logic.I.
  - lia.
  - intros ps op _ Hps. rewrite Et in Hps.
    destruct ps as [|p1 [|p2 ps]]; cbn [map ops_agree] in Hps; try discriminate;
      [|rewrite andb_false_r in Hps; discriminate].
    apply andb_true_iff in Hps as [Hp1 _].
    split; [pose proof (imm_uses _ _ _ _ _ Hp1); destruct p1; try contradiction; reflexivity|].
    cbn [operands_of map].
    rewrite (proj1 (op_imm _ _ _ _ a _ op None rest Hp1 Hoka)). reflexivity.
Qed.

(** a register in the opcode *)
Lemma case_plus : forall t a, ctx t [a] -> map snd (t_ops t) = [OPCODE_PLUS] -> good t [a].
Proof.
  intros t a C E. destruct (t_ops t) as [|[l1 e1] [|]] eqn:Et; try discriminate.
  injection E as ->.
  destruct (agree_parts _ _ (c_agree _ _ C)) as [_ Hs].
  assert (HM : f_modrm (start t) = None) by (apply no_rm_none; [exact Hs|rewrite Et; reflexivity]).
  destruct (agree_ops _ _ (c_agree _ _ C)) as [ps0 Hps0]. rewrite Et in Hps0.
  destruct ps0 as [|q1 [|q2 ps0]]; cbn [map ops_agree] in Hps0; try discriminate;
    [|rewrite andb_false_r in Hps0; discriminate].
  apply andb_true_iff in Hps0 as [Ha _].
  pose proof (in_ok _ a (c_ok _ _ C) (or_introl eq_refl)) as Hoka.
  assert (Hsm : forall pre rr xx bb, small_op (prefs_of pre (rex_opt (hasr t [a]) (wbit t) rr xx bb)) a).
  { intros. apply small_ops; [left; reflexivity|exact Hoka|apply C|apply C]. }
  destruct (op_plus _ _ _ _ a _ 0 None [] Ha
     ltac:(rewrite <- shape_key; left; reflexivity) (Hsm 0 false false false)) as (r & -> & _).
  unfold good. rewrite (fill_start t [OReg r] Hs), Et, HM. cbn [fill_operands].
  rewrite fill_plus. cbn [bind].
  eexists; split; [reflexivity|].
  split; [split; [reflexivity|intros d sz [K|[]]; discriminate]|].
  intros rest. rewrite <- shapes_keys.
  apply (finish t [OReg r] None 0 (Some (r_index r)) [] false false (7 <? r_index r) rest _ (c_agree _ _ C)).
  - intros H1 H2. destruct (c_66 _ _ C H1 H2) as [? K]. unfold has_plus in K. rewrite Et in K. discriminate.
  - discriminate.
  - unfold has_plus. rewrite Et. cbn. split; [discriminate|congruence].
  - intros _. apply no_modrm_digit; exact HM.
  - intros d Hd. rewrite (no_modrm_digit t HM) in Hd. discriminate.
  - exact Logic.I.
  - lia.
  - intros ps op Hop Hps. rewrite Et in Hps.
    destruct ps as [|p1 [|p2 ps]]; cbn [map ops_agree] in Hps; try discriminate;
      [|rewrite andb_false_r in Hps; discriminate].
    apply andb_true_iff in Hps as [Hp1 _].
    split; [pose proof (plus_uses _ _ _ _ _ Hp1); destruct p1; try contradiction; reflexivity|].
    cbn [operands_of map app].
    destruct (op_plus _ _ _ p1 (OReg r) _ op None rest Hp1
      ltac:(rewrite <- shape_key; left; reflexivity)
      (Hsm (rmo_pre None (fst (norm t))) false false (7 <? r_index r))) as (r' & Er & K).
    injection Er as <-.
    unfold final_prefs. rewrite K; [reflexivity| |apply Hop; reflexivity].
    apply rexb_final. left; reflexivity.
Qed.

Lemma case_plus_imm : forall t a b, ctx t [a; b] -> map snd (t_ops t) = [OPCODE_PLUS; IMM] ->
  good t [a; b].
Proof.
  intros t a b C E. destruct (t_ops t) as [|[l1 e1] [|[l2 e2] [|]]] eqn:Et; try discriminate.
  injection E as -> ->.
  destruct (agree_parts _ _ (c_agree _ _ C)) as [_ Hs].
  assert (HM : f_modrm (start t) = None) by (apply no_rm_none; [exact Hs|rewrite Et; reflexivity]).
  destruct (agree_ops _ _ (c_agree _ _ C)) as [ps0 Hps0]. rewrite Et in Hps0.
  destruct ps0 as [|q1 [|q2 [|q3 ps0]]]; cbn [map ops_agree] in Hps0; try discriminate;
    [rewrite andb_false_r in Hps0; discriminate| |rewrite !andb_false_r in Hps0; discriminate].
  apply andb_true_iff in Hps0 as [Ha Hb]. apply andb_true_iff in Hb as [Hb _].
  pose proof (in_ok _ a (c_ok _ _ C) (or_introl eq_refl)) as Hoka.
  pose proof (in_ok _ b (c_ok _ _ C) (or_intror (or_introl eq_refl))) as Hokb.
  assert (Hsm : forall pre rr xx bb, small_op (prefs_of pre (rex_opt (hasr t [a; b]) (wbit t) rr xx bb)) a).
  { intros. apply small_ops; [left; reflexivity|exact Hoka|apply C|apply C]. }
  destruct (op_plus _ _ _ _ a _ 0 None [] Ha
     ltac:(rewrite <- shape_key; left; reflexivity) (Hsm 0 false false false)) as (r & -> & _).
  unfold good. rewrite (fill_start t [OReg r; b] Hs), Et, HM. cbn [fill_operands].
  rewrite fill_plus. cbn [bind].
  destruct (op_imm _ _ _ _ b no_prefix 0 None [] Hb Hokb) as [_ Hf].
  rewrite Hf. cbn [bind].
  eexists; split; [reflexivity|].
  split; [split; [reflexivity|intros d sz [K|[->|[]]]; [discriminate|destruct (imm_norip _ _ _ _ _ _ Hb)]]|].
  intros rest. rewrite <- shapes_keys.
  apply (finish t [OReg r; b] None 0 (Some (r_index r)) (q_imm b) false false (7 <? r_index r) rest _ (c_agree _ _ C)).
  - intros H1 H2. destruct (c_66 _ _ C H1 H2) as [? K]. unfold has_plus in K. rewrite Et in K. discriminate.
  - discriminate.
  - unfold has_plus. rewrite Et. cbn. split; [discriminate|congruence].
  - intros _. apply no_modrm_digit; exact HM.
  - intros d Hd. rewrite (no_modrm_digit t HM) in Hd. discriminate.
  - exact Logic.I.
  - lia.
  - intros ps op Hop Hps. rewrite Et in Hps.
    destruct ps as [|p1 [|p2 [|p3 ps]]]; cbn [map ops_agree] in Hps; try discriminate;
      [rewrite andb_false_r in Hps; discriminate| |rewrite !andb_false_r in Hps; discriminate].
    apply andb_true_iff in Hps as [Hp1 Hp2]. apply andb_true_iff in Hp2 as [Hp2 _].
    split; [pose proof (plus_uses _ _ _ _ _ Hp1); pose proof (imm_uses _ _ _ _ _ Hp2);
            destruct p1; try contradiction; destruct p2; try contradiction; reflexivity|].
    cbn [operands_of map].
    destruct (op_plus _ _ _ p1 (OReg r) _ op None (q_imm b ++ rest) Hp1
      ltac:(rewrite <- shape_key; left; reflexivity)
      (Hsm (rmo_pre None (fst (norm t))) false false (7 <? r_index r))) as (r' & Er & K).
    injection Er as <-.
    unfold final_prefs. rewrite K; [| |apply Hop; reflexivity].
    + rewrite (proj1 (op_imm _ _ _ _ b _ op None rest Hp2 Hokb)). reflexivity.
    + apply rexb_final. left; reflexivity.
Qed.

(** the field reg before the operands are filled in *)
Definition reg0 (t : tmpl) : Z :=
  m_reg (match f_modrm (start t) with Some m => m | None => new_modrm end).

Lemma reg0_ok : forall t, start_ok t = true ->
  0 <= reg0 t < 16 /\ (forall d, slash_digit (t_ext t) = Some d -> reg0 t mod 8 = d).
Proof.
  intros t Hs. unfold reg0. destruct (f_modrm (start t)) as [m|] eqn:E.
  - destruct (start_reg t Hs m E) as (_ & _ & H1 & H2 & _). split; [lia|].
    intros d Hd. destruct (H2 d Hd) as [<- _]. apply Z.mod_small. lia.
  - split; [cbn; lia|]. intros d Hd. rewrite (no_modrm_digit t E) in Hd. discriminate.
Qed.

Lemma slashr_digit : forall t M, start_ok t = true -> f_modrm (start t) = Some M ->
  has_ext SLASHR (t_ext t) = true -> slash_digit (t_ext t) = None.
Proof.
  intros t M Hs HM Hr. destruct (slash_digit (t_ext t)) as [d|] eqn:E; [|reflexivity].
  destruct (start_reg t Hs M HM) as (_ & _ & _ & H & _). destruct (H d E). congruence.
Qed.

(** memory or register in rm *)
Lemma case_rm : forall t a, ctx t [a] -> map snd (t_ops t) = [MODRM_RM] -> good t [a].
Proof.
  intros t a C E. destruct (t_ops t) as [|[l1 e1] [|]] eqn:Et; try discriminate.
  injection E as ->.
  destruct (agree_parts _ _ (c_agree _ _ C)) as [_ Hs].
  destruct (agree_ops _ _ (c_agree _ _ C)) as [ps0 Hps0]. rewrite Et in Hps0.
  destruct ps0 as [|q1 [|q2 ps0]]; cbn [map ops_agree] in Hps0; try discriminate;
    [|rewrite andb_false_r in Hps0; discriminate].
  apply andb_true_iff in Hps0 as [Ha _].
  pose proof (in_ok _ a (c_ok _ _ C) (or_introl eq_refl)) as Hoka.
  pose proof (good_rm _ _ _ _ _ Ha Hoka (in_mem _ a (c_mem _ _ C) (or_introl eq_refl))) as Hg.
  assert (Hsm : forall pre rr xx bb, small_op (prefs_of pre (rex_opt (hasr t [a]) (wbit t) rr xx bb)) a).
  { intros. apply small_ops; [left; reflexivity|exact Hoka|apply C|apply C]. }
  unfold good. rewrite (fill_start t [a] Hs), Et. cbn [fill_operands].
  rewrite (fill_rm _ _ _ _ _ _ _ _ _ Hg). cbn [bind]. fold (reg0 t).
  eexists; split; [reflexivity|].
  split; [split; [symmetry; exact (rm_noimm _ _ _ _ _ Ha)|intros d sz [->|[]]; reflexivity]|].
  intros rest. rewrite <- shapes_keys.
  apply (finish t [a] (Some a) (reg0 t) None [] false (q_x a) (q_b a) rest _ (c_agree _ _ C)).
  - intros H1 H2. destruct (c_66 _ _ C H1 H2). auto.
  - intros q Hq. injection Hq as <-. left; reflexivity.
  - unfold has_plus. rewrite Et. cbn. split; [discriminate|congruence].
  - discriminate.
  - apply reg0_ok; exact Hs.
  - apply rmo_ok_rex; [left; reflexivity|exact Hg].
  - apply reg0_ok; exact Hs.
  - intros ps op _ Hps. rewrite Et in Hps.
    destruct ps as [|p1 [|p2 ps]]; cbn [map ops_agree] in Hps; try discriminate;
      [|rewrite andb_false_r in Hps; discriminate].
    apply andb_true_iff in Hps as [Hp1 _].
    split; [pose proof (rm_uses _ _ _ _ _ Hp1); destruct p1; try contradiction; reflexivity|].
    cbn [operands_of map app].
    rewrite (op_rm _ _ _ _ a _ op _ rest Hp1); [reflexivity| | |].
    + rewrite <- shape_key; left; reflexivity.
    + apply (seg_final t [a]); [apply C|left; reflexivity].
    + apply Hsm.
Qed.

Lemma case_rm_imm : forall t a b, ctx t [a; b] -> map snd (t_ops t) = [MODRM_RM; IMM] ->
  good t [a; b].
Proof.
  intros t a b C E. destruct (t_ops t) as [|[l1 e1] [|[l2 e2] [|]]] eqn:Et; try discriminate.
  injection E as -> ->.
  destruct (agree_parts _ _ (c_agree _ _ C)) as [_ Hs].
  destruct (agree_ops _ _ (c_agree _ _ C)) as [ps0 Hps0]. rewrite Et in Hps0.
  destruct ps0 as [|q1 [|q2 [|q3 ps0]]]; cbn [map ops_agree] in Hps0; try discriminate;
    [rewrite andb_false_r in Hps0; discriminate| |rewrite !andb_false_r in Hps0; discriminate].
  apply andb_true_iff in Hps0 as [Ha Hb]. apply andb_true_iff in Hb as [Hb _].
  pose proof (in_ok _ a (c_ok _ _ C) (or_introl eq_refl)) as Hoka.
  pose proof (in_ok _ b (c_ok _ _ C) (or_intror (or_introl eq_refl))) as Hokb.
  pose proof (good_rm _ _ _ _ _ Ha Hoka (in_mem _ a (c_mem _ _ C) (or_introl eq_refl))) as Hg.
  assert (Hsm : forall pre rr xx bb, small_op (prefs_of pre (rex_opt (hasr t [a; b]) (wbit t) rr xx bb)) a).
  { intros. apply small_ops; [left; reflexivity|exact Hoka|apply C|apply C]. }
  unfold good. rewrite (fill_start t [a; b] Hs), Et. cbn [fill_operands].
  rewrite (fill_rm _ _ _ _ _ _ _ _ _ Hg). cbn [bind]. fold (reg0 t).
  destruct (op_imm _ _ _ _ b no_prefix 0 None [] Hb Hokb) as [_ Hf].
  rewrite Hf. cbn [bind].
  eexists; split; [reflexivity|].
  split; [split; [reflexivity|intros d sz [->|[->|[]]]; [reflexivity|destruct (imm_norip _ _ _ _ _ _ Hb)]]|].
  intros rest. rewrite <- shapes_keys.
  apply (finish t [a; b] (Some a) (reg0 t) None (q_imm b) false (q_x a) (q_b a) rest _ (c_agree _ _ C)).
  - intros H1 H2. destruct (c_66 _ _ C H1 H2). auto.
  - intros q Hq. injection Hq as <-. left; reflexivity.
  - unfold has_plus. rewrite Et. cbn. split; [discriminate|congruence].
  - discriminate.
  - apply reg0_ok; exact Hs.
  - apply rmo_ok_rex; [left; reflexivity|exact Hg].
  - apply reg0_ok; exact Hs.
  - intros ps op _ Hps. rewrite Et in Hps.
    destruct ps as [|p1 [|p2 [|p3 ps]]]; cbn [map ops_agree] in Hps; try discriminate;
      [rewrite andb_false_r in Hps; discriminate| |rewrite !andb_false_r in Hps; discriminate].
    apply andb_true_iff in Hps as [Hp1 Hp2]. apply andb_true_iff in Hp2 as [Hp2 _].
    split; [pose proof (rm_uses _ _ _ _ _ Hp1); destruct p1; try contradiction; reflexivity|].
    cbn [operands_of map].
    rewrite (op_rm _ _ _ _ a _ op _ (q_imm b ++ rest) Hp1).
    + rewrite (proj1 (op_imm _ _ _ _ b _ op _ rest Hp2 Hokb)). reflexivity.
    + rewrite <- shape_key; left; reflexivity.
    + apply (seg_final t [a; b]); [apply C|left; reflexivity].
    + apply Hsm.
Qed.

(** the field reg as the operand of ModRM.reg leaves it *)
Lemma cl_of : forall t a b, ctx t [a; b] -> forall pt l,
  op_agree (t_group t) l false pt MODRM_REG (key_of b) = true ->
  exists r, b = OReg r /\ r_class r = G8 /\ r_index r = 1.
Proof.
  intros t a b C pt l H.
  destruct pt as [w|w|w|n w|n|n| | |k|k]; cbn [op_agree negb andb] in H; try discriminate.
  apply andb_true_iff in H as [H _]. apply andb_true_iff in H as [H Hr].
  destruct (is_reg_key b Hr) as (r & -> & _ & _). exists r. split; [reflexivity|].
  apply (c_shift _ _ C). unfold is_shift in H.
  apply orb_true_iff in H as [H|H]; [apply orb_true_iff in H as [H|H]|];
    apply String.eqb_eq in H; auto.
Qed.

Lemma case_rm_reg : forall t a b, ctx t [a; b] -> map snd (t_ops t) = [MODRM_RM; MODRM_REG] ->
  good t [a; b].
Proof.
  intros t a b C E. destruct (t_ops t) as [|[l1 e1] [|[l2 e2] [|]]] eqn:Et; try discriminate.
  injection E as -> ->.
  destruct (agree_parts _ _ (c_agree _ _ C)) as [_ Hs].
  destruct (existsb_rm_some t Hs ltac:(rewrite Et; reflexivity) ltac:(rewrite Et; reflexivity)) as [M HM].
  destruct (agree_ops _ _ (c_agree _ _ C)) as [ps0 Hps0]. rewrite Et in Hps0.
  destruct ps0 as [|q1 [|q2 [|q3 ps0]]]; cbn [map ops_agree] in Hps0; try discriminate;
    [rewrite andb_false_r in Hps0; discriminate| |rewrite !andb_false_r in Hps0; discriminate].
  apply andb_true_iff in Hps0 as [Ha Hb]. apply andb_true_iff in Hb as [Hb _].
  pose proof (in_ok _ a (c_ok _ _ C) (or_introl eq_refl)) as Hoka.
  pose proof (in_ok _ b (c_ok _ _ C) (or_intror (or_introl eq_refl))) as Hokb.
  pose proof (good_rm _ _ _ _ _ Ha Hoka (in_mem _ a (c_mem _ _ C) (or_introl eq_refl))) as Hg.
  assert (Hsm : forall pre rr xx bb o, In o [a; b] ->
     small_op (prefs_of pre (rex_opt (hasr t [a; b]) (wbit t) rr xx bb)) o).
  { intros. apply small_ops; [assumption| |apply C|apply C]. apply (in_ok _ o (c_ok _ _ C)). assumption. }
  unfold good. rewrite (fill_start t [a; b] Hs), Et. cbn [fill_operands].
  rewrite (fill_rm _ _ _ _ _ _ _ _ _ Hg). cbn [bind]. fold (reg0 t).
  destruct (has_ext SLASHR (t_ext t)) eqn:Esl.
  - destruct (op_reg _ _ _ b _ 0 (EReg 0) [] Hb
      ltac:(rewrite <- (shape_key b); right; left; reflexivity)
      (Hsm 0 false false false b (or_intror (or_introl eq_refl)))) as (r & -> & _).
    rewrite fill_reg. cbn [bind m_mod m_rm].
    eexists; split; [reflexivity|].
  split; [split; [reflexivity|intros d sz [->|[K|[]]]; [reflexivity|discriminate]]|].
  intros rest. rewrite <- shapes_keys.
    apply (finish t [a; OReg r] (Some a) (Z.land (r_index r) 7) None [] (7 <? r_index r)
             (q_x a) (q_b a) rest _ (c_agree _ _ C)).
    + intros H1 H2. destruct (c_66 _ _ C H1 H2). auto.
    + intros q Hq. injection Hq as <-. left; reflexivity.
    + unfold has_plus. rewrite Et. cbn. split; [discriminate|congruence].
    + discriminate.
    + intros d Hd. rewrite (slashr_digit t M Hs HM Esl) in Hd. discriminate.
    + apply rmo_ok_rex; [left; reflexivity|exact Hg].
    + apply land7_range.
    + intros ps op _ Hps. rewrite Et, Esl in Hps.
      destruct ps as [|p1 [|p2 [|p3 ps]]]; cbn [map ops_agree] in Hps; try discriminate;
        [rewrite andb_false_r in Hps; discriminate| |rewrite !andb_false_r in Hps; discriminate].
      apply andb_true_iff in Hps as [Hp1 Hp2]. apply andb_true_iff in Hp2 as [Hp2 _].
      split; [pose proof (rm_uses _ _ _ _ _ Hp1); destruct p1; try contradiction; reflexivity|].
      cbn [operands_of map app]. rewrite land7_mod.
      rewrite (op_rm _ _ _ _ a _ op _ rest Hp1).
      * destruct (op_reg _ _ p2 (OReg r) _ op (ea_of a) rest Hp2
          ltac:(rewrite <- (shape_key (OReg r)); right; left; reflexivity)
          (Hsm (rmo_pre (Some a) (fst (norm t))) (7 <? r_index r) (q_x a) (q_b a) (OReg r)
             (or_intror (or_introl eq_refl)))) as (r' & Er & K).
        injection Er as <-. unfold final_prefs. rewrite K; [reflexivity|].
        apply rexr_final. right; left; reflexivity.
      * rewrite <- shape_key; left; reflexivity.
      * apply (seg_final t [a; OReg r]); [apply C|left; reflexivity].
      * apply Hsm. left; reflexivity.
  - destruct (cl_of t a b C _ _ Hb) as (r & -> & Hc & Hx).
    rewrite fill_cl. cbn [bind].
    eexists; split; [reflexivity|].
  split; [split; [reflexivity|intros d sz [->|[K|[]]]; [reflexivity|discriminate]]|].
  intros rest. rewrite <- shapes_keys.
    apply (finish t [a; OReg r] (Some a) (reg0 t) None [] false (q_x a) (q_b a) rest _ (c_agree _ _ C)).
    + intros H1 H2. destruct (c_66 _ _ C H1 H2). auto.
    + intros q Hq. injection Hq as <-. left; reflexivity.
    + unfold has_plus. rewrite Et. cbn. split; [discriminate|congruence].
    + discriminate.
    + apply reg0_ok; exact Hs.
    + apply rmo_ok_rex; [left; reflexivity|exact Hg].
    + apply reg0_ok; exact Hs.
    + intros ps op _ Hps. rewrite Et, Esl in Hps.
      destruct ps as [|p1 [|p2 [|p3 ps]]]; cbn [map ops_agree] in Hps; try discriminate;
        [rewrite andb_false_r in Hps; discriminate| |rewrite !andb_false_r in Hps; discriminate].
      apply andb_true_iff in Hps as [Hp1 Hp2]. apply andb_true_iff in Hp2 as [Hp2 _].
      split; [pose proof (rm_uses _ _ _ _ _ Hp1); destruct p1; try contradiction; reflexivity|].
      cbn [operands_of map app].
      rewrite (op_rm _ _ _ _ a _ op _ rest Hp1).
      * rewrite (proj2 (op_cl _ _ _ (OReg r) _ op _ rest Hp2
           (ex_intro _ r (conj eq_refl (conj Hc Hx))))). reflexivity.
      * rewrite <- shape_key; left; reflexivity.
      * apply (seg_final t [a; OReg r]); [apply C|left; reflexivity].
      * apply Hsm. left; reflexivity.
Qed.

Lemma case_reg_rm : forall t a b, ctx t [a; b] -> map snd (t_ops t) = [MODRM_REG; MODRM_RM] ->
  good t [a; b].
Proof.
  intros t a b C E. pose proof (agree_slashr _ _ _ (c_agree _ _ C) E) as Esl.
  destruct (t_ops t) as [|[l1 e1] [|[l2 e2] [|]]] eqn:Et; try discriminate.
  injection E as -> ->.
  destruct (agree_parts _ _ (c_agree _ _ C)) as [_ Hs].
  destruct (existsb_rm_some t Hs ltac:(rewrite Et; reflexivity) ltac:(rewrite Et; reflexivity)) as [M HM].
  destruct (agree_ops _ _ (c_agree _ _ C)) as [ps0 Hps0]. rewrite Et, Esl in Hps0.
  destruct ps0 as [|q1 [|q2 [|q3 ps0]]]; cbn [map ops_agree] in Hps0; try discriminate;
    [rewrite andb_false_r in Hps0; discriminate| |rewrite !andb_false_r in Hps0; discriminate].
  apply andb_true_iff in Hps0 as [Ha Hb]. apply andb_true_iff in Hb as [Hb _].
  pose proof (in_ok _ b (c_ok _ _ C) (or_intror (or_introl eq_refl))) as Hokb.
  pose proof (good_rm _ _ _ _ _ Hb Hokb (in_mem _ b (c_mem _ _ C) (or_intror (or_introl eq_refl)))) as Hg.
  assert (Hsm : forall pre rr xx bb o, In o [a; b] ->
     small_op (prefs_of pre (rex_opt (hasr t [a; b]) (wbit t) rr xx bb)) o).
  { intros. apply small_ops; [assumption| |apply C|apply C]. apply (in_ok _ o (c_ok _ _ C)). assumption. }
  destruct (op_reg _ _ _ a _ 0 (EReg 0) [] Ha
      ltac:(rewrite <- (shape_key a); left; reflexivity)
      (Hsm 0 false false false a (or_introl eq_refl))) as (r & -> & _).
  unfold good. rewrite (fill_start t [OReg r; b] Hs), Et, Esl, HM. cbn [fill_operands].
  rewrite fill_reg. cbn [bind].
  rewrite (fill_rm _ _ _ _ _ _ _ _ _ Hg). cbn [bind m_reg].
  eexists; split; [reflexivity|].
  split; [split; [symmetry; exact (rm_noimm _ _ _ _ _ Hb)|intros d sz [K|[->|[]]]; [discriminate|reflexivity]]|].
  intros rest. rewrite <- shapes_keys.
  apply (finish t [OReg r; b] (Some b) (Z.land (r_index r) 7) None [] (7 <? r_index r)
             (q_x b) (q_b b) rest _ (c_agree _ _ C)).
  - intros H1 H2. destruct (c_66 _ _ C H1 H2). auto.
  - intros q Hq. injection Hq as <-. right; left; reflexivity.
  - unfold has_plus. rewrite Et. cbn. split; [discriminate|congruence].
  - discriminate.
  - intros d Hd. rewrite (slashr_digit t M Hs HM Esl) in Hd. discriminate.
  - apply rmo_ok_rex; [right; left; reflexivity|exact Hg].
  - apply land7_range.
  - intros ps op _ Hps. rewrite Et, Esl in Hps.
    destruct ps as [|p1 [|p2 [|p3 ps]]]; cbn [map ops_agree] in Hps; try discriminate;
      [rewrite andb_false_r in Hps; discriminate| |rewrite !andb_false_r in Hps; discriminate].
    apply andb_true_iff in Hps as [Hp1 Hp2]. apply andb_true_iff in Hp2 as [Hp2 _].
    split; [pose proof (rm_uses _ _ _ _ _ Hp2); destruct p2; try contradiction;
            cbn; rewrite ?orb_true_r; reflexivity|].
    cbn [operands_of map app]. rewrite land7_mod.
    destruct (op_reg _ _ p1 (OReg r) _ op (ea_of b) rest Hp1
          ltac:(rewrite <- (shape_key (OReg r)); left; reflexivity)
          (Hsm (rmo_pre (Some b) (fst (norm t))) (7 <? r_index r) (q_x b) (q_b b) (OReg r)
             (or_introl eq_refl))) as (r' & Er & K).
    injection Er as <-. unfold final_prefs at 1. rewrite K.
    + rewrite (op_rm _ _ _ _ b _ op _ rest Hp2); [reflexivity| | |].
      * rewrite <- (shape_key b); right; left; reflexivity.
      * apply (seg_final t [OReg r; b]); [apply C|right; left; reflexivity].
      * apply Hsm. right; left; reflexivity.
    + apply rexr_final. left; reflexivity.
Qed.

Lemma case_reg_rm_imm : forall t a b c, ctx t [a; b; c] ->
  map snd (t_ops t) = [MODRM_REG; MODRM_RM; IMM] -> good t [a; b; c].
Proof.
  intros t a b c C E. pose proof (agree_slashr _ _ _ (c_agree _ _ C) E) as Esl.
  destruct (t_ops t) as [|[l1 e1] [|[l2 e2] [|[l3 e3] [|]]]] eqn:Et; try discriminate.
  injection E as -> -> ->.
  destruct (agree_parts _ _ (c_agree _ _ C)) as [_ Hs].
  destruct (existsb_rm_some t Hs ltac:(rewrite Et; reflexivity) ltac:(rewrite Et; reflexivity)) as [M HM].
  destruct (agree_ops _ _ (c_agree _ _ C)) as [ps0 Hps0]. rewrite Et, Esl in Hps0.
  destruct ps0 as [|q1 [|q2 [|q3 [|q4 ps0]]]]; cbn [map ops_agree] in Hps0; try discriminate;
    [rewrite andb_false_r in Hps0; discriminate|rewrite !andb_false_r in Hps0; discriminate
    | |rewrite !andb_false_r in Hps0; discriminate].
  apply andb_true_iff in Hps0 as [Ha Hb]. apply andb_true_iff in Hb as [Hb Hc].
  apply andb_true_iff in Hc as [Hc _].
  assert (Ib : In b [a; b; c]) by (right; left; reflexivity).
  assert (Ic : In c [a; b; c]) by (right; right; left; reflexivity).
  pose proof (in_ok _ b (c_ok _ _ C) Ib) as Hokb.
  pose proof (in_ok _ c (c_ok _ _ C) Ic) as Hokc.
  pose proof (good_rm _ _ _ _ _ Hb Hokb (in_mem _ b (c_mem _ _ C) Ib)) as Hg.
  assert (Hsm : forall pre rr xx bb o, In o [a; b; c] ->
     small_op (prefs_of pre (rex_opt (hasr t [a; b; c]) (wbit t) rr xx bb)) o).
  { intros. apply small_ops; [assumption| |apply C|apply C]. apply (in_ok _ o (c_ok _ _ C)). assumption. }
  destruct (op_reg _ _ _ a _ 0 (EReg 0) [] Ha
      ltac:(rewrite <- (shape_key a); left; reflexivity)
      (Hsm 0 false false false a (or_introl eq_refl))) as (r & -> & _).
  unfold good. rewrite (fill_start t [OReg r; b; c] Hs), Et, Esl, HM. cbn [fill_operands].
  rewrite fill_reg. cbn [bind].
  rewrite (fill_rm _ _ _ _ _ _ _ _ _ Hg). cbn [bind m_reg].
  destruct (op_imm _ _ _ _ c no_prefix 0 None [] Hc Hokc) as [_ Hf].
  rewrite Hf. cbn [bind].
  eexists; split; [reflexivity|].
  split; [split; [reflexivity|intros d sz [K|[->|[->|[]]]]; [discriminate|reflexivity|destruct (imm_norip _ _ _ _ _ _ Hc)]]|].
  intros rest. rewrite <- shapes_keys.
  apply (finish t [OReg r; b; c] (Some b) (Z.land (r_index r) 7) None (q_imm c) (7 <? r_index r)
             (q_x b) (q_b b) rest _ (c_agree _ _ C)).
  - intros H1 H2. destruct (c_66 _ _ C H1 H2). auto.
  - intros q Hq. injection Hq as <-. exact Ib.
  - unfold has_plus. rewrite Et. cbn. split; [discriminate|congruence].
  - discriminate.
  - intros d Hd. rewrite (slashr_digit t M Hs HM Esl) in Hd. discriminate.
  - apply rmo_ok_rex; [exact Ib|exact Hg].
  - apply land7_range.
  - intros ps op _ Hps. rewrite Et, Esl in Hps.
    destruct ps as [|p1 [|p2 [|p3 [|p4 ps]]]]; cbn [map ops_agree] in Hps; try discriminate;
      [rewrite andb_false_r in Hps; discriminate|rewrite !andb_false_r in Hps; discriminate
      | |rewrite !andb_false_r in Hps; discriminate].
    apply andb_true_iff in Hps as [Hp1 Hp2]. apply andb_true_iff in Hp2 as [Hp2 Hp3].
    apply andb_true_iff in Hp3 as [Hp3 _].
    split; [pose proof (rm_uses _ _ _ _ _ Hp2); destruct p2; try contradiction;
            cbn; rewrite ?orb_true_r; reflexivity|].
    cbn [operands_of map]. rewrite land7_mod.
    destruct (op_reg _ _ p1 (OReg r) _ op (ea_of b) (q_imm c ++ rest) Hp1
          ltac:(rewrite <- (shape_key (OReg r)); left; reflexivity)
          (Hsm (rmo_pre (Some b) (fst (norm t))) (7 <? r_index r) (q_x b) (q_b b) (OReg r)
             (or_introl eq_refl))) as (r' & Er & K).
    injection Er as <-. unfold final_prefs at 1. rewrite K.
    + rewrite (op_rm _ _ _ _ b _ op _ (q_imm c ++ rest) Hp2).
      * rewrite (proj1 (op_imm _ _ _ _ c _ op _ rest Hp3 Hokc)). reflexivity.
      * rewrite <- (shape_key b); right; left; reflexivity.
      * apply (seg_final t [OReg r; b; c]); [apply C|exact Ib].
      * apply Hsm. exact Ib.
    + apply rexr_final. left; reflexivity.
Qed.

Lemma all_cases : forall t ops, ctx t ops -> keys_match (t_ops t) (map key_of ops) = true ->
  good t ops.
Proof.
  intros t ops C Hk. destruct (agree_parts _ _ (c_agree _ _ C)) as [Hi _].
  assert (Hl : List.length (map snd (t_ops t)) = List.length ops).
  { rewrite map_length. revert Hk. generalize (t_ops t). clear.
    induction ops as [|o ops IH]; intros [|[l e] ts] H; cbn [map keys_match] in H;
      try discriminate; [reflexivity|].
    apply andb_true_iff in H as [_ H]. cbn [List.length]. f_equal. apply IH; exact H. }
  unfold shapes9 in Hi. cbn [In] in Hi.
  destruct Hi as [Hi|[Hi|[Hi|[Hi|[Hi|[Hi|[Hi|[Hi|[Hi|[]]]]]]]]]]; rewrite <- Hi in Hl; symmetry in Hi;
    destruct ops as [|a [|b [|c [|d ops]]]]; try discriminate.
  - apply case_none; assumption.
  - apply case_imm; assumption.
  - apply case_plus; assumption.
  - apply case_plus_imm; assumption.
  - apply case_rm; assumption.
  - apply case_rm_imm; assumption.
  - apply case_rm_reg; assumption.
  - apply case_reg_rm; assumption.
  - apply case_reg_rm_imm; assumption.
Qed.
