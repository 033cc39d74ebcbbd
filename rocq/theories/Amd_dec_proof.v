(** The bytes written for an instruction decode to it. *)
From Coq Require Import ZArith List Bool Lia String.
From Verif Require Import Base Amd_model Amd_spec Amd_check Amd_proof.
Import ListNotations.
Open Scope Z_scope.
Local Opaque table candidates.

(** ** Prefixes *)

Definition pbyte (pre : Z) : list Z := if 0 <? pre then [pre] else [].
Definition rbyte (rx : option rexp) : list Z :=
  match rx with Some r => [rex_byte r] | None => [] end.
Definition seg_of (pre : Z) : option segm :=
  if pre =? 100 then Some Fs else if pre =? 101 then Some Gs else None.
Definition prefs_of (pre : Z) (rx : option rexp) : prefs :=
  P (pre =? 102) (pre =? 242) (pre =? 243) (seg_of pre)
    (match rx with Some r => Some (rex_byte r) | None => None end).

Lemma prefixes_stop : forall p c l, plain_byte c = true -> prefixes p (c :: l) = (p, c :: l).
Proof.
  intros p c l H. unfold plain_byte in H. cbn [existsb] in H. cbn [prefixes].
  destruct (c =? 102); [discriminate|]. destruct (c =? 242); [discriminate|].
  destruct (c =? 243); [discriminate|]. destruct (c =? 100); [discriminate|].
  destruct (c =? 101); [discriminate|]. destruct (c / 16 =? 4); [discriminate|].
  reflexivity.
Qed.

Lemma rex_prefix : forall p r l,
  prefixes p (rex_byte r :: l) =
  prefixes (P (p_66 p) (p_f2 p) (p_f3 p) (p_seg p) (Some (rex_byte r))) l.
Proof. intros p [[] [] [] []] l; reflexivity. Qed.

Lemma prefixes_ok : forall pre rx c l,
  In pre [0; 102; 242; 243; 100; 101] -> plain_byte c = true ->
  prefixes no_prefix (pbyte pre ++ rbyte rx ++ c :: l) = (prefs_of pre rx, c :: l).
Proof.
  intros pre rx c l Hp Hc. cbn [In] in Hp.
  destruct rx as [r|]; cbn [rbyte app].
  - assert (K : forall q, prefixes q (rex_byte r :: c :: l)
       = (P (p_66 q) (p_f2 q) (p_f3 q) (p_seg q) (Some (rex_byte r)), c :: l)).
    { intros q. rewrite rex_prefix. apply prefixes_stop. exact Hc. }
    destruct Hp as [<-|[<-|[<-|[<-|[<-|[<-|[]]]]]]].
    + change (pbyte 0) with (@nil Z). cbn [app]. rewrite K. reflexivity.
    + change (pbyte 102) with [102]. cbn [app].
      change (prefixes no_prefix (102 :: rex_byte r :: c :: l))
        with (prefixes (P true false false None None) (rex_byte r :: c :: l)).
      rewrite K. reflexivity.
    + change (pbyte 242) with [242]. cbn [app].
      change (prefixes no_prefix (242 :: rex_byte r :: c :: l))
        with (prefixes (P false true false None None) (rex_byte r :: c :: l)).
      rewrite K. reflexivity.
    + change (pbyte 243) with [243]. cbn [app].
      change (prefixes no_prefix (243 :: rex_byte r :: c :: l))
        with (prefixes (P false false true None None) (rex_byte r :: c :: l)).
      rewrite K. reflexivity.
    + change (pbyte 100) with [100]. cbn [app].
      change (prefixes no_prefix (100 :: rex_byte r :: c :: l))
        with (prefixes (P false false false (Some Fs) None) (rex_byte r :: c :: l)).
      rewrite K. reflexivity.
    + change (pbyte 101) with [101]. cbn [app].
      change (prefixes no_prefix (101 :: rex_byte r :: c :: l))
        with (prefixes (P false false false (Some Gs) None) (rex_byte r :: c :: l)).
      rewrite K. reflexivity.
  - destruct Hp as [<-|[<-|[<-|[<-|[<-|[<-|[]]]]]]].
    + change (pbyte 0) with (@nil Z). cbn [app]. rewrite prefixes_stop by exact Hc. reflexivity.
    + change (pbyte 102) with [102]. cbn [app].
      change (prefixes no_prefix (102 :: c :: l))
        with (prefixes (P true false false None None) (c :: l)).
      rewrite prefixes_stop by exact Hc. reflexivity.
    + change (pbyte 242) with [242]. cbn [app].
      change (prefixes no_prefix (242 :: c :: l))
        with (prefixes (P false true false None None) (c :: l)).
      rewrite prefixes_stop by exact Hc. reflexivity.
    + change (pbyte 243) with [243]. cbn [app].
      change (prefixes no_prefix (243 :: c :: l))
        with (prefixes (P false false true None None) (c :: l)).
      rewrite prefixes_stop by exact Hc. reflexivity.
    + change (pbyte 100) with [100]. cbn [app].
      change (prefixes no_prefix (100 :: c :: l))
        with (prefixes (P false false false (Some Fs) None) (c :: l)).
      rewrite prefixes_stop by exact Hc. reflexivity.
    + change (pbyte 101) with [101]. cbn [app].
      change (prefixes no_prefix (101 :: c :: l))
        with (prefixes (P false false false (Some Gs) None) (c :: l)).
      rewrite prefixes_stop by exact Hc. reflexivity.
Qed.

Lemma rex_bits : forall pre has w r x b,
  rex_bit (prefs_of pre (rex_opt has w r x b)) 3 = has && w
  /\ rex_bit (prefs_of pre (rex_opt has w r x b)) 2 = has && r
  /\ rex_bit (prefs_of pre (rex_opt has w r x b)) 1 = has && x
  /\ rex_bit (prefs_of pre (rex_opt has w r x b)) 0 = has && b.
Proof.
  intros pre has w r x b. unfold rex_bit, prefs_of, rex_opt. cbn [p_rex].
  destruct has; [|repeat split].
  destruct w, r, x, b; repeat split.
Qed.

(** ** From the opcode on *)

(** the bytes of ModRM and what follows it for an operand in rm *)
Definition rm_bytes (reg : Z) (o : operand) : list Z :=
  modrm_byte (MR (q_mod o) reg (q_rm o))
  :: match q_sib o with Some s => [sib_byte s] | None => [] end ++ q_disp o.
Definition rmo_bytes (reg : Z) (rmo : option operand) : list Z :=
  match rmo with Some o => rm_bytes reg o | None => [] end.

Definition rmo_ok (p : prefs) (rmo : option operand) : Prop :=
  match rmo with
  | Some o => rm_good o /\ rex_bit p 1 = q_x o /\ rex_bit p 0 = q_b o
  | None => True
  end.

Definition field_of (l : list Z) : Z :=
  match l with m :: _ => (m / 8) mod 8 | [] => 0 end.

Lemma q_ranges : forall o, rm_good o -> 0 <= q_mod o < 4 /\ 0 <= q_rm o < 16.
Proof.
  intros o [Hok Hg].
  destruct o as [g|g s|g d s|[b|] i sc d s|d s|sg d s|v|v|v|v|v|v|v|s];
    try contradiction; cbn [q_mod q_rm]; split; try lia.
  - rewrite land7. Z.div_mod_to_equations; lia.
  - destruct ((r_index g =? 13) || (r_index g =? 5)); lia.
  - apply base_ok_range. exact Hok.
  - destruct (short d); lia.
  - rewrite land7. Z.div_mod_to_equations; lia.
  - destruct ((r_index b =? 13) || (r_index b =? 5)); [lia|].
    destruct (d =? 0); [lia|]. destruct (short d); lia.
Qed.

Lemma field_rm : forall reg o r, rm_good o -> 0 <= reg < 16 ->
  field_of (rm_bytes reg o ++ r) = reg mod 8.
Proof.
  intros reg o r Hg Hr. destruct (q_ranges o Hg) as [H1 H2].
  unfold rm_bytes. cbn [app field_of].
  apply (modrm_fields (q_mod o) reg (q_rm o) H1 Hr H2).
Qed.

Lemma decode_ok : forall pre rx o rmo reg imms rest name ps xs,
  let p := prefs_of pre rx in
  let v := op_width (rex_bit p 3) (p_66 p) in
  In pre [0; 102; 242; 243; 100; 101] ->
  forallb plain_byte (firstn 1 o) = true ->
  (forall n, 0 <= n < 8 -> (rmo <> None -> n = reg mod 8) ->
     n = field_of (rmo_bytes reg rmo ++ imms ++ rest) ->
     lookup pre v n o = Some (name, ps)) ->
  rmo_ok p rmo -> 0 <= reg < 16 ->
  uses_modrm ps = match rmo with Some _ => true | None => false end ->
  operands_of p (last o 0)
    (match rmo with Some q => Some (reg mod 8, ea_of q) | None => None end)
    ps (imms ++ rest) = Some (xs, rest) ->
  decode (pbyte pre ++ rbyte rx ++ o ++ rmo_bytes reg rmo ++ imms ++ rest)
  = Some (name, xs, rest).
Proof.
  intros pre rx o rmo reg imms rest name ps xs p v Hp Ho Hl Hr Hreg Hu Hx.
  set (tl := rmo_bytes reg rmo ++ imms ++ rest) in *.
  assert (Hn : 0 <= field_of tl < 8).
  { unfold field_of. destruct tl; [lia|]. apply Z.mod_pos_bound. lia. }
  assert (Hn2 : rmo <> None -> field_of tl = reg mod 8).
  { intros H. destruct rmo as [q|]; [|congruence]. unfold tl. cbn [rmo_bytes].
    apply field_rm; [apply Hr|exact Hreg]. }
  specialize (Hl (field_of tl) Hn Hn2 eq_refl).
  assert (Hfin : forall op, op = last o 0 ->
     (if uses_modrm ps then
        match parse_ea p tl with
        | Some (r, e, l4) =>
            match operands_of p op (Some (r, e)) ps l4 with
            | Some (xs, l5) => Some (name, xs, l5)
            | None => None
            end
        | None => None
        end
      else
        match operands_of p op None ps tl with
        | Some (xs, l5) => Some (name, xs, l5)
        | None => None
        end) = Some (name, xs, rest)).
  { intros op ->. rewrite Hu. destruct rmo as [q|].
    - destruct Hr as (Hg & Hr1 & Hr0).
      assert (E : parse_ea p tl = Some (reg mod 8, ea_of q, imms ++ rest)).
      { unfold tl. cbn [rmo_bytes]. unfold rm_bytes. cbn [app].
        rewrite <- app_assoc. apply parse_rm; assumption. }
      rewrite E, Hx. reflexivity.
    - unfold tl. cbn [rmo_bytes app]. rewrite Hx. reflexivity. }
  unfold decode.
  destruct o as [|c o]; [discriminate|].
  assert (Hc : plain_byte c = true) by (cbn in Ho; destruct (plain_byte c); [reflexivity|discriminate]).
  cbn [app]. rewrite (prefixes_ok pre rx c (o ++ tl) Hp Hc).
  fold p. fold v. unfold lookup in Hl.
  destruct o as [|c2 o].
  - cbn [app]. destruct (c =? 15); [discriminate|].
    change (match tl with [] => 0 | m :: _ => (m / 8) mod 8 end) with (field_of tl).
    rewrite Hl. apply Hfin. reflexivity.
  - destruct o as [|c3 o]; [|discriminate].
    destruct (c =? 15); [|discriminate]. cbn [app].
    change (p_66 p) with (pre =? 102). change (p_f2 p) with (pre =? 242).
    change (p_f3 p) with (pre =? 243).
    rewrite Hl. apply Hfin. reflexivity.
Qed.

(** ** One operand *)

Definition small_reg (r : reg) : Prop :=
  r_index r < 8 /\ (r_class r = G8 -> r_index r < 4).

Lemma gpr_want : forall p w r,
  reg_ok r ->
  (p_rex p = None -> small_reg r) ->
  (r_class r = G8H -> p_rex p = None) ->
  (w = 1 <-> r_class r = G8 \/ r_class r = G8H) ->
  gpr p w (r_index r) = match r_class r with G8H => XHigh (r_index r - 4) | _ => XGpr w (r_index r) end.
Proof.
  intros p w r Hok Hs Hh Hw. unfold gpr. unfold reg_ok in Hok. unfold small_reg in Hs.
  destruct (p_rex p) eqn:E.
  - destruct (r_class r); try reflexivity. specialize (Hh eq_refl). discriminate.
  - specialize (Hs eq_refl).
    destruct (Z.eqb_spec w 1) as [->|Hw1]; cbn [andb].
    + destruct (proj1 Hw eq_refl) as [Hc|Hc]; rewrite Hc in *.
      * destruct (Z.leb_spec 4 (r_index r)); [|reflexivity].
        destruct Hs as [_ Hs]. specialize (Hs eq_refl). lia.
      * destruct (Z.leb_spec 4 (r_index r)); [reflexivity|lia].
    + destruct (r_class r); try reflexivity. exfalso. apply Hw1. apply Hw. tauto.
Qed.

Lemma width_1 : forall name l s, In (SGpr s) l -> (want_width name l s = 1 <-> s = 1).
Proof.
  intros name l s Hi. unfold want_width. destruct (String.eqb name "movzx"); [|tauto].
  destruct l as [|a [|b [|c l]]]; try tauto; destruct a as [z|z|z|z]; try tauto.
  - destruct b as [y|y|y|y]; try tauto;
      (destruct (Z.eqb_spec z 8) as [->|Hz]; [|cbn [andb]; tauto]);
      (destruct (Z.eqb_spec y 4) as [->|Hy]; cbn [andb]; [|tauto]);
      cbn [In] in Hi; destruct Hi as [Hi|[Hi|[]]]; try discriminate; injection Hi as <-; lia.
  - destruct b; tauto.
Qed.

Definition small_op (p : prefs) (o : operand) : Prop :=
  match o with
  | OReg r => reg_ok r /\ (p_rex p = None -> small_reg r) /\ (r_class r = G8H -> p_rex p = None)
  | _ => True
  end.
Definition seg_op (o : operand) : option segm :=
  match o with OSeg s _ _ => Some s | _ => None end.

Lemma key_reg : forall o n, key_of o = (KREG, n) ->
  exists r, o = OReg r /\ is_float (r_class r) = false /\ n = class_size (r_class r).
Proof.
  intros o n H. destruct o as [r|a b|a b c|a b c d e|a b|a b c|a|a|a|a|a|a|a|a]; try discriminate.
  cbn [key_of] in H. destruct (is_float (r_class r)) eqn:E; [discriminate|].
  injection H as <-. exists r. auto.
Qed.
Lemma key_freg : forall o n, key_of o = (KFREG, n) ->
  exists r, o = OReg r /\ is_float (r_class r) = true /\ n = class_size (r_class r).
Proof.
  intros o n H. destruct o as [r|a b|a b c|a b c d e|a b|a b c|a|a|a|a|a|a|a|a]; try discriminate.
  cbn [key_of] in H. destruct (is_float (r_class r)) eqn:E; [|discriminate].
  injection H as <-. exists r. auto.
Qed.
Lemma key_mem : forall o, is_mem (key_of o) = true ->
  exists sg a, want_addr o = Some (sg, a) /\ sg = seg_op o
  /\ shape_of o = SMem (snd (key_of o)) /\ ea_of o = EMem a
  /\ (forall name l, want_op name l o = XMem sg (want_mem name (snd (key_of o))) a).
Proof.
  intros o H. destruct o as [r|a b|a b c|a b c d e|a b|a b c|a|a|a|a|a|a|a|a]; try discriminate.
  - cbn [key_of] in H. unfold is_mem in H. cbn [fst] in H. destruct (is_float _); discriminate.
  - do 2 eexists; repeat split; reflexivity.
  - do 2 eexists; repeat split; reflexivity.
  - do 2 eexists; repeat split; reflexivity.
  - do 2 eexists; repeat split; reflexivity.
  - do 2 eexists; repeat split; reflexivity.
Qed.

Lemma want_gpr : forall name l r p,
  In (shape_of (OReg r)) l -> is_float (r_class r) = false -> small_op p (OReg r) ->
  gpr p (want_width name l (class_size (r_class r))) (r_index r) = want_op name l (OReg r).
Proof.
  intros name l r p Hi Hf (Hok & Hs & Hh).
  rewrite gpr_want; try assumption.
  - cbn [want_op]. destruct (r_class r); try reflexivity; discriminate.
  - cbn [shape_of] in Hi.
    destruct (r_class r); try discriminate; cbn [class_size]; rewrite (width_1 name l _ Hi);
      split; intros H; try lia; try tauto; destruct H; discriminate.
Qed.
Lemma want_xmm : forall name l r, is_float (r_class r) = true ->
  want_op name l (OReg r) = XXmm (r_index r).
Proof. intros name l [[] i] H; try discriminate; reflexivity. Qed.

Lemma is_reg_key : forall o, is_reg (key_of o) = true ->
  exists r, o = OReg r /\ is_float (r_class r) = false /\ snd (key_of o) = class_size (r_class r).
Proof.
  intros o H. unfold is_reg in H. apply okind_eqb_eq in H.
  destruct (key_of o) as [k n] eqn:E. cbn in H. subst k. apply key_reg. exact E.
Qed.
Lemma is_xmm_key : forall o, is_xmm (key_of o) = true ->
  exists r, o = OReg r /\ is_float (r_class r) = true /\ snd (key_of o) = class_size (r_class r).
Proof.
  intros o H. unfold is_xmm in H. apply okind_eqb_eq in H.
  destruct (key_of o) as [k n] eqn:E. cbn in H. subst k. apply key_freg. exact E.
Qed.

Lemma op_rm : forall name l sr pt o p op rg ls,
  op_agree name l sr pt MODRM_RM (key_of o) = true -> In (shape_of o) l ->
  p_seg p = seg_op o -> small_op p o ->
  operand_of p op (Some (rg, ea_of o)) pt ls = Some (want_op name l o, ls).
Proof.
  intros name l sr pt o p op rg ls Ha Hi Hseg Hs.
  assert (Hmem : forall m, is_mem (key_of o) && (want_mem name (snd (key_of o)) =? m) = true ->
     exists a, ea_of o = EMem a /\ XMem (p_seg p) m a = want_op name l o).
  { intros m H. apply andb_true_iff in H as [H1 H2]. apply Z.eqb_eq in H2. subst m.
    destruct (key_mem o H1) as (sg & a & _ & E2 & _ & E4 & E5).
    exists a. rewrite E5, Hseg, E2. auto. }
  destruct pt as [w|w|w|n w|n|n| | |m|m]; cbn [op_agree] in Ha; try discriminate.
  - apply orb_true_iff in Ha as [Ha|Ha].
    + apply andb_true_iff in Ha as [H1 H2]. apply Z.eqb_eq in H2.
      destruct (is_reg_key o H1) as (r & -> & Hf & Hk). rewrite Hk in H2. subst w.
      cbn [ea_of operand_of]. rewrite (want_gpr name l r p Hi Hf Hs). reflexivity.
    + destruct (Hmem w Ha) as (a & E1 & E2). rewrite E1. cbn [operand_of]. rewrite E2. reflexivity.
  - apply orb_true_iff in Ha as [Ha|Ha].
    + destruct (is_xmm_key o Ha) as (r & -> & Hf & Hk). cbn [ea_of operand_of].
      rewrite (want_xmm name l r Hf). reflexivity.
    + destruct (Hmem m Ha) as (a & E1 & E2). rewrite E1. cbn [operand_of]. rewrite E2. reflexivity.
  - destruct (Hmem m Ha) as (a & E1 & E2). rewrite E1. cbn [operand_of]. rewrite E2. reflexivity.
Qed.

Lemma op_reg : forall name l pt o p op e ls,
  op_agree name l true pt MODRM_REG (key_of o) = true -> In (shape_of o) l ->
  small_op p o ->
  exists r, o = OReg r /\
    (rex_bit p 2 = (7 <? r_index r) ->
     operand_of p op (Some (r_index r mod 8, e)) pt ls = Some (want_op name l o, ls)).
Proof.
  intros name l pt o p op e ls Ha Hi Hs.
  destruct pt as [w|w|w|n w|n|n| | |m|m]; cbn [op_agree negb andb] in Ha; try discriminate.
  - apply andb_true_iff in Ha as [H1 H2]. apply Z.eqb_eq in H2.
    destruct (is_reg_key o H1) as (r & -> & Hf & Hk). rewrite Hk in H2. subst w.
    exists r. split; [reflexivity|]. intros Hb. cbn [operand_of]. rewrite Hb.
    rewrite ext_num_split by (apply reg_ok_range; apply Hs).
    rewrite (want_gpr name l r p Hi Hf Hs). reflexivity.
  - destruct (is_xmm_key o Ha) as (r & -> & Hf & Hk).
    exists r. split; [reflexivity|]. intros Hb. cbn [operand_of]. rewrite Hb.
    rewrite ext_num_split by (apply reg_ok_range; apply Hs).
    rewrite (want_xmm name l r Hf). reflexivity.
Qed.

Lemma op_plus : forall name l sr pt o p op m ls,
  op_agree name l sr pt OPCODE_PLUS (key_of o) = true -> In (shape_of o) l ->
  small_op p o ->
  exists r, o = OReg r /\ 
    (rex_bit p 0 = (7 <? r_index r) -> op mod 8 = r_index r mod 8 ->
     operand_of p op m pt ls = Some (want_op name l o, ls)).
Proof.
  intros name l sr pt o p op m ls Ha Hi Hs.
  destruct pt as [w|w|w|n w|n|n| | |k|k]; cbn [op_agree negb andb] in Ha; try discriminate.
  apply andb_true_iff in Ha as [H1 H2]. apply Z.eqb_eq in H2.
  destruct (is_reg_key o H1) as (r & -> & Hf & Hk). rewrite Hk in H2. subst w.
  exists r. split; [reflexivity|]. intros Hb Ho. cbn [operand_of]. rewrite Hb, Ho.
  rewrite ext_num_split by (apply reg_ok_range; apply Hs).
  rewrite (want_gpr name l r p Hi Hf Hs). destruct m as [[]|]; reflexivity.
Qed.

Lemma op_cl : forall name l pt o p op m ls,
  op_agree name l false pt MODRM_REG (key_of o) = true ->
  (exists r, o = OReg r /\ r_class r = G8 /\ r_index r = 1) ->
  is_shift name = true /\
  operand_of p op m pt ls = Some (want_op name l o, ls).
Proof.
  intros name l pt o p op m ls Ha (r & -> & Hc & Hx).
  destruct pt as [w|w|w|n w|n|n| | |k|k]; cbn [op_agree negb andb] in Ha; try discriminate.
  apply andb_true_iff in Ha as [Ha _]. apply andb_true_iff in Ha as [Ha _].
  split; [exact Ha|]. cbn [operand_of want_op]. rewrite Hc, Hx.
  assert (E : want_width name l 1 = 1).
  { unfold want_width. unfold is_shift in Ha.
    apply orb_true_iff in Ha as [Ha|Ha]; [apply orb_true_iff in Ha as [Ha|Ha]|];
      apply String.eqb_eq in Ha; subst name; reflexivity. }
  rewrite E. destruct m as [[]|]; reflexivity.
Qed.

(** the immediate bytes of an operand *)
Definition q_imm (o : operand) : list Z :=
  match o with
  | OUint8 v => le_bytes 1 v
  | OUint16 v => le_bytes 2 v
  | OUint32 v | OUint v => le_bytes 4 v
  | OUint64 v => le_bytes 8 v
  | _ => []
  end.

Lemma op_imm : forall name l sr pt o p op m rest,
  op_agree name l sr pt IMM (key_of o) = true -> operand_ok o ->
  operand_of p op m pt (q_imm o ++ rest) = Some (want_op name l o, rest)
  /\ (forall has f, fill_operand has sr IMM o f = Ok (with_imms (q_imm o) f)).
Proof.
  intros name l sr pt o p op m rest Ha Hok.
  assert (Hn : forall n, is_num (key_of o) n = true ->
     exists k v, q_imm o = le_bytes k v /\ n = Z.of_nat k /\ 0 <= v < 2 ^ (8 * n)
       /\ want_op name l o = want_num name (num_width l) n v
       /\ (forall has f, fill_operand has sr IMM o f = Ok (with_imms (q_imm o) f))).
  { intros n H. unfold is_num in H.
    destruct o as [r|a b|a b c|a b c d e|a b|a b c|v|v|v|v|v|v|v|v]; try discriminate;
      cbn [operand_ok] in Hok.
    - cbn [key_of] in H. unfold num_size in H. cbn [fst] in H.
      destruct (is_float (r_class r)); discriminate.
    - cbn [key_of num_size fst] in H. apply Z.eqb_eq in H. subst n. exists 1%nat, v. repeat split; try reflexivity; apply Hok.
    - cbn [key_of num_size fst] in H. apply Z.eqb_eq in H. subst n. exists 2%nat, v. repeat split; try reflexivity; apply Hok.
    - cbn [key_of num_size fst] in H. apply Z.eqb_eq in H. subst n. exists 4%nat, v. repeat split; try reflexivity; apply Hok.
    - cbn [key_of num_size fst] in H. apply Z.eqb_eq in H. subst n. exists 8%nat, v. repeat split; try reflexivity; apply Hok.
    - cbn [key_of num_size fst] in H. apply Z.eqb_eq in H. subst n. exists 4%nat, v. repeat split; try reflexivity; apply Hok. }
  assert (Hread : forall n k v, n = Z.of_nat k -> 0 <= v < 2 ^ (8 * n) ->
     forall T (g : Z -> T),
     match take (Z.to_nat n) (le_bytes k v ++ rest) with
     | Some (d, r) => Some (g (le_value d), r)
     | None => None
     end = Some (g v, rest)).
  { intros n k v -> Hv T g. rewrite Nat2Z.id, take_le, le_value_bytes, Z.mod_small by exact Hv.
    reflexivity. }
  destruct pt as [w|w|w|n w|n|n| | |k|k]; cbn [op_agree] in Ha; try discriminate.
  - apply andb_true_iff in Ha as [Ha Hw]. apply andb_true_iff in Ha as [Ha Hsh].
    apply andb_true_iff in Ha as [Ha Hj]. apply Z.eqb_eq in Hw.
    destruct (Hn n Ha) as (k & v & E1 & E2 & E3 & E4 & E5).
    split; [|exact E5]. rewrite E1, E4. cbn [operand_of]. unfold want_num.
    destruct (jumps name); [discriminate|]. destruct (String.eqb name "shr"); [discriminate|].
    rewrite Hw. destruct m as [[]|]; apply (Hread n k v E2 E3 _ (fun v => XImm (signed n v mod 2 ^ (8 * w)))).
  - apply andb_true_iff in Ha as [Ha Hsh]. apply andb_true_iff in Ha as [Ha Hj].
    destruct (Hn n Ha) as (k & v & E1 & E2 & E3 & E4 & E5).
    split; [|exact E5]. rewrite E1, E4. cbn [operand_of]. unfold want_num.
    destruct (jumps name); [discriminate|]. rewrite Hsh.
    destruct m as [[]|]; apply (Hread n k v E2 E3 _ XImm).
  - apply andb_true_iff in Ha as [Ha Hj].
    destruct (Hn n Ha) as (k & v & E1 & E2 & E3 & E4 & E5).
    split; [|exact E5]. rewrite E1, E4. cbn [operand_of]. unfold want_num. rewrite Hj.
    destruct m as [[]|]; apply (Hread n k v E2 E3 _ (fun v => XRel (signed n v))).
Qed.
