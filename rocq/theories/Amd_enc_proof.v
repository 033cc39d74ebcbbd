(** The bytes written for an instruction: from the selected entry to the decoder. *)
From Coq Require Import ZArith List Bool Lia String.
From Verif Require Import Base Amd_model Amd_spec Amd_check Amd_proof Amd_dec_proof.
Import ListNotations.
Open Scope Z_scope.
Local Opaque table candidates.

(** ** Filling *)

Lemma build_ext_keeps : forall e f,
  f_prefix (build_ext f e) = f_prefix f /\ f_opcode (build_ext f e) = f_opcode f
  /\ f_sib (build_ext f e) = f_sib f /\ f_disps (build_ext f e) = f_disps f
  /\ f_imms (build_ext f e) = f_imms f.
Proof. intros [] f; repeat split. Qed.

Lemma fold_ext_keeps : forall es f,
  f_prefix (fold_left build_ext es f) = f_prefix f
  /\ f_opcode (fold_left build_ext es f) = f_opcode f
  /\ f_sib (fold_left build_ext es f) = f_sib f
  /\ f_disps (fold_left build_ext es f) = f_disps f
  /\ f_imms (fold_left build_ext es f) = f_imms f.
Proof.
  induction es as [|e es IH]; intros f; cbn [fold_left]; [repeat split|].
  destruct (IH (build_ext f e)) as (H1 & H2 & H3 & H4 & H5).
  destruct (build_ext_keeps e f) as (G1 & G2 & G3 & G4 & G5).
  repeat split; congruence.
Qed.

Lemma start_fields : forall t,
  start t = F (t_prefix t) (f_rex (start t)) (t_opcode t) (f_modrm (start t)) None [] [].
Proof.
  intros t. unfold start.
  destruct (fold_ext_keeps (t_ext t) (F (t_prefix t) None (t_opcode t) None None [] []))
    as (H1 & H2 & H3 & H4 & H5).
  destruct (fold_left build_ext (t_ext t) _) as [a b c d e g h].
  cbn in H1, H2, H3, H4, H5. subst. reflexivity.
Qed.

Definition hasr (t : tmpl) (ops : list operand) : bool := has64 ops || has_rex_extension (t_ext t).
Definition wbit (t : tmpl) : bool := has_ext REX_W (t_ext t).

Lemma wbit_hasr : forall t ops, wbit t = true -> hasr t ops = true.
Proof.
  intros t ops H. unfold hasr, has_rex_extension, wbit in *. rewrite H.
  rewrite !orb_true_r. reflexivity.
Qed.

Lemma fill_start : forall t ops, start_ok t = true ->
  fill t ops = fill_operands (hasr t ops) (has_ext SLASHR (t_ext t)) (t_ops t) ops
    (F (t_prefix t) (rex_opt (hasr t ops) (wbit t) false false false) (t_opcode t)
       (f_modrm (start t)) None [] []).
Proof.
  intros t ops H. unfold fill. fold (start t).
  assert (E : (if has64 ops && negb (has_rex_extension (t_ext t)) then build_ext (start t) REX
               else start t)
     = F (t_prefix t) (rex_opt (hasr t ops) (wbit t) false false false) (t_opcode t)
         (f_modrm (start t)) None [] []).
  { unfold start_ok in H. apply andb_true_iff in H as [H _].
    assert (R : f_rex (start t) = if has_rex_extension (t_ext t)
                then Some (Rex (wbit t) false false false) else None).
    { destruct (f_rex (start t)) as [[rw rr rx rb]|].
      - cbn [x_w x_r x_x x_b] in H. apply andb_true_iff in H as [H Hb].
        apply andb_true_iff in H as [H Hx]. apply andb_true_iff in H as [H Hr].
        apply andb_true_iff in H as [He Hw]. rewrite He. apply Bool.eqb_prop in Hw.
        fold (wbit t) in Hw. subst rw. destruct rr, rx, rb; try discriminate. reflexivity.
      - destruct (has_rex_extension (t_ext t)); [discriminate|reflexivity]. }
    rewrite (start_fields t). rewrite R. unfold hasr.
    assert (W : has_rex_extension (t_ext t) = false -> wbit t = false).
    { unfold has_rex_extension, wbit. intros K. apply orb_false_iff in K. apply K. }
    destruct (has64 ops), (has_rex_extension (t_ext t)) eqn:E2; cbn [orb andb negb].
    - reflexivity.
    - cbn [build_ext the_rex f_rex]. rewrite W by reflexivity. reflexivity.
    - reflexivity.
    - reflexivity. }
  rewrite E. reflexivity.
Qed.

Lemma fill_reg : forall has w r x b g pre opc m sib d imms,
  fill_operand has true MODRM_REG (OReg g) (F pre (rex_opt has w r x b) opc (Some m) sib d imms)
  = Ok (F pre (rex_opt has w (7 <? r_index g) x b) opc
          (Some (MR (m_mod m) (Z.land (r_index g) 7) (m_rm m))) sib d imms).
Proof. intros [] w r x b g pre opc m sib d imms; reflexivity. Qed.
Lemma fill_cl : forall has rx g pre opc m sib d imms,
  fill_operand has false MODRM_REG (OReg g) (F pre rx opc (Some m) sib d imms)
  = Ok (F pre rx opc (Some m) sib d imms).
Proof. reflexivity. Qed.
Lemma fill_plus : forall has sr w r x b g pre opc m sib d imms,
  fill_operand has sr OPCODE_PLUS (OReg g) (F pre (rex_opt has w r x b) opc m sib d imms)
  = Ok (F pre (rex_opt has w r x (7 <? r_index g)) (opcode_plus opc (r_index g)) m sib d imms).
Proof. intros [] sr w r x b g pre opc m sib d imms; reflexivity. Qed.

(** ** From the entry to the decoder *)

Lemma norm_cases : forall t,
  norm t = (t_prefix t, t_opcode t)
  \/ (t_prefix t = 0 /\ exists o, t_opcode t = 102 :: o /\ norm t = (102, o)).
Proof.
  intros t. unfold norm. destruct (t_prefix t) as [|p|p] eqn:Ep; auto.
  destruct (t_opcode t) as [|c o] eqn:Eo; auto.
  destruct (Z.eq_dec c 102) as [->|Hc].
  - right. split; [reflexivity|]. exists o. auto.
  - left. destruct c as [|c|c]; auto.
    repeat (destruct c as [c|c|]; auto). congruence.
Qed.

Lemma opcode_bytes_all : forall o, forallb (fun b => 0 <? b) o = true -> opcode_bytes o = o.
Proof.
  induction o as [|a o IH]; intros H; cbn [opcode_bytes forallb] in *; [reflexivity|].
  apply andb_true_iff in H as [H1 H2]. rewrite H1, IH by exact H2. reflexivity.
Qed.

Definition rmo_pre (rmo : option operand) (pre : Z) : Z :=
  match rmo with Some q => q_pre q pre | None => pre end.
Definition rmo_fmt (rmo : option operand) (pre : Z) (rx : option rexp) (opc : list Z) (reg : Z)
  (imms : list Z) : format :=
  match rmo with
  | Some q => F (q_pre q pre) rx opc (Some (MR (q_mod q) reg (q_rm q))) (q_sib q) (q_disp q) imms
  | None => F pre rx opc None None [] imms
  end.
Definition pl_opc (pl : option Z) (o : list Z) : list Z :=
  match pl with Some i => opcode_plus o i | None => o end.
Definition has_plus (t : tmpl) : bool := existsb (fun e => enc_eqb e OPCODE_PLUS) (map snd (t_ops t)).

Lemma format_rmo : forall rmo pre rx opc reg imms,
  forallb (fun b => 0 <? b) opc = true ->
  format_encoding (rmo_fmt rmo pre rx opc reg imms)
  = pbyte (rmo_pre rmo pre) ++ rbyte rx ++ opc ++ rmo_bytes reg rmo ++ imms.
Proof.
  intros [q|] pre rx opc reg imms H; unfold format_encoding, rmo_fmt, rmo_pre, pbyte, rbyte;
    cbn [f_prefix f_rex f_opcode f_modrm f_sib f_disps f_imms rmo_bytes];
    rewrite opcode_bytes_all by exact H; [|reflexivity].
  unfold rm_bytes. do 3 f_equal. cbn [app]. f_equal. rewrite <- app_assoc. reflexivity.
Qed.

Lemma land_mod8 : forall i, Z.land i 7 = Z.land (i mod 8) 7.
Proof. intros i. rewrite !land7, Z.mod_mod by lia. reflexivity. Qed.
Lemma opcode_plus_mod : forall o i, opcode_plus o i = opcode_plus o (i mod 8).
Proof. intros [|a o] i; cbn [opcode_plus]; [reflexivity|]. rewrite <- land_mod8. reflexivity. Qed.

Lemma upto8_in : forall k, 0 <= k < 8 -> In k upto8.
Proof. intros k H. unfold upto8. cbn [In]. lia. Qed.

Lemma lookup_same : forall pre pre' v n o,
  (pre =? 102) = (pre' =? 102) -> (pre =? 242) = (pre' =? 242) -> (pre =? 243) = (pre' =? 243) ->
  lookup pre v n o = lookup pre' v n o.
Proof. intros pre pre' v n o H1 H2 H3. unfold lookup. rewrite H1, H2, H3. reflexivity. Qed.

Definition is_seg (o : operand) : bool := match o with OSeg _ _ _ => true | _ => false end.

Lemma seg_key : forall ops q, In q ops -> is_seg q = true ->
  existsb (fun k => okind_eqb (fst k) KSEG) (map key_of ops) = true.
Proof.
  intros ops q Hi Hs. apply existsb_exists. exists (key_of q). split; [apply in_map; exact Hi|].
  destruct q; try discriminate. reflexivity.
Qed.

Lemma existsb_eqb_in : forall a l, existsb (Z.eqb a) l = true -> In a l.
Proof.
  intros a l H. apply existsb_exists in H as (x & Hi & He). apply Z.eqb_eq in He. subst. exact Hi.
Qed.

(** the state of the prefixes the decoder ends with *)
Definition final_prefs (t : tmpl) (rmo : option operand) (rx : option rexp) : prefs :=
  prefs_of (rmo_pre rmo (fst (norm t))) rx.

Lemma finish : forall t ops rmo reg pl imms rr xx bb rest xs,
  agree t (map key_of ops) = true ->
  let rx := rex_opt (hasr t ops) (wbit t) rr xx bb in
  let p := final_prefs t rmo rx in
  let l := map shape_of_key (map key_of ops) in
  (t_prefix t = 0 -> hd 0 (t_opcode t) = 102 -> hasr t ops = false /\ pl = None) ->
  (forall q, rmo = Some q -> In q ops) ->
  (has_plus t = true <-> pl <> None) ->
  (rmo = None -> slash_digit (t_ext t) = None) ->
  (forall d, slash_digit (t_ext t) = Some d -> reg mod 8 = d) ->
  rmo_ok p rmo -> 0 <= reg < 16 ->
  (forall ps op,
     (forall i, pl = Some i -> op mod 8 = i mod 8) ->
     ops_agree (t_group t) l (has_ext SLASHR (t_ext t)) ps (t_ops t) (map key_of ops) = true ->
     uses_modrm ps = match rmo with Some _ => true | None => false end
     /\ operands_of p op
          (match rmo with Some q => Some (reg mod 8, ea_of q) | None => None end)
          ps (imms ++ rest) = Some (xs, rest)) ->
  decode (format_encoding
           (rmo_fmt rmo (t_prefix t) rx (pl_opc pl (t_opcode t)) reg imms) ++ rest)
  = Some (want_name (t_group t) l, xs, rest).
Proof.
  intros t ops rmo reg pl imms rr xx bb rest xs Ha rx p l Hx Hin Hpl Hdig Hdig2 Hrm Hreg HO.
  unfold agree in Ha. fold (has_plus t) in Ha. fold (wbit t) in Ha.
  destruct (norm t) as [pre o] eqn:En.
  assert (Hp : p = prefs_of (rmo_pre rmo pre) rx) by (unfold p, final_prefs; rewrite En; reflexivity).
  repeat (apply andb_true_iff in Ha as [Ha ?Hy]). rename Hy into Hall, Hy0 into Hseg.
  clear Hy1 Hy2. apply existsb_eqb_in in Ha.
  fold l in Hall.
  (* the normalised opcode *)
  set (o' := pl_opc pl o).
  set (kk := match pl with Some i => i mod 8 | None => 0 end).
  assert (Ho' : o' = if has_plus t then opcode_plus o kk else o).
  { unfold o', kk, pl_opc. destruct pl as [i|].
    - rewrite (proj2 Hpl) by congruence. apply opcode_plus_mod.
    - destruct (has_plus t); [|reflexivity]. destruct (proj1 Hpl eq_refl eq_refl). }
  assert (Hk : In kk (if has_plus t then upto8 else [0])).
  { unfold kk. destruct pl as [i|].
    - rewrite (proj2 Hpl) by congruence. apply upto8_in. apply Z.mod_pos_bound; lia.
    - destruct (has_plus t); [left; reflexivity|left; reflexivity]. }
  rewrite forallb_forall in Hall. specialize (Hall kk Hk). cbv zeta in Hall.
  rewrite <- Ho' in Hall.
  apply andb_true_iff in Hall as [Hall Hlook]. apply andb_true_iff in Hall as [Hall Hplen].
  apply andb_true_iff in Hall as [Hall Hw66]. apply andb_true_iff in Hall as [Hplain Hpos].
  (* no segment prefix with another one *)
  assert (Hq : rmo_pre rmo pre = pre \/ (pre = 0 /\ (rmo_pre rmo pre = 100 \/ rmo_pre rmo pre = 101))).
  { destruct rmo as [q|]; [|left; reflexivity]. cbn [rmo_pre].
    destruct (is_seg q) eqn:Es.
    - right. rewrite (seg_key ops q (Hin q eq_refl) Es) in Hseg. cbn [negb orb] in Hseg.
      apply andb_true_iff in Hseg as [_ Hseg]. apply Z.eqb_eq in Hseg.
      split; [exact Hseg|]. destruct q as [| | | | |[] | | | | | | | |]; try discriminate; auto.
    - left. destruct q as [| | | | |sg | | | | | | | |]; try discriminate; reflexivity. }
  assert (Hpre6 : In (rmo_pre rmo pre) [0; 102; 242; 243; 100; 101]).
  { destruct Hq as [-> |[_ [-> | ->]]]; cbn [In] in *; tauto. }
  (* the bytes *)
  assert (Hbytes : format_encoding (rmo_fmt rmo (t_prefix t) rx (pl_opc pl (t_opcode t)) reg imms)
     = pbyte (rmo_pre rmo pre) ++ rbyte rx ++ o' ++ rmo_bytes reg rmo ++ imms).
  { destruct (norm_cases t) as [E|(E1 & o2 & E2 & E3)].
    - rewrite E in En. injection En as E1 E2. subst pre o.
      rewrite format_rmo; [reflexivity|exact Hpos].
    - rewrite E3 in En. injection En as Ep Eo. subst pre o2.
      destruct (Hx E1) as [Hh Hn]; [rewrite E2; reflexivity|].
      unfold o' in *. rewrite Hn in *. cbn [pl_opc] in *.
      unfold rx, rex_opt. rewrite Hh. rewrite E1, E2.
      destruct Hq as [Hq|[Hq _]]; [|discriminate].
      rewrite Hq. rewrite format_rmo.
      + assert (Hq0 : rmo_pre rmo 0 = 0).
        { destruct rmo as [q|]; [|reflexivity]. cbn [rmo_pre] in *.
          destruct q as [| | | | |[] | | | | | | | |]; try reflexivity; discriminate. }
        rewrite Hq0. reflexivity.
      + cbn [forallb]. rewrite Hpos. reflexivity. }
  rewrite Hbytes. rewrite <- !app_assoc.
  (* widths *)
  assert (Hv : op_width (rex_bit p 3) (p_66 p) = op_width (wbit t) (pre =? 102)).
  { rewrite Hp. unfold rx. destruct (rex_bits (rmo_pre rmo pre) (hasr t ops) (wbit t) rr xx bb)
      as [-> _].
    replace (hasr t ops && wbit t) with (wbit t).
    - change (p_66 (prefs_of (rmo_pre rmo pre) (rex_opt (hasr t ops) (wbit t) rr xx bb)))
        with (rmo_pre rmo pre =? 102).
      destruct Hq as [-> |[-> [-> | ->]]]; reflexivity.
    - destruct (wbit t) eqn:Ew; [rewrite (wbit_hasr t ops Ew); reflexivity|].
      destruct (hasr t ops); reflexivity. }
  set (n0 := field_of (rmo_bytes reg rmo ++ imms ++ rest)).
  assert (Hn0 : 0 <= n0 < 8).
  { unfold n0, field_of. destruct (rmo_bytes reg rmo ++ imms ++ rest); [lia|].
    apply Z.mod_pos_bound. lia. }
  assert (Hf : exists name' ps, lookup pre (op_width (wbit t) (pre =? 102)) n0 o' = Some (name', ps)
     /\ name' = want_name (t_group t) l
     /\ ops_agree (t_group t) l (has_ext SLASHR (t_ext t)) ps (t_ops t) (map key_of ops) = true).
  { rewrite forallb_forall in Hlook. specialize (Hlook n0).
    destruct (lookup pre (op_width (wbit t) (pre =? 102)) n0 o') as [[name' ps]|].
    - exists name', ps. split; [reflexivity|].
      assert (Hl : String.eqb name' (want_name (t_group t) l)
         && ops_agree (t_group t) l (has_ext SLASHR (t_ext t)) ps (t_ops t) (map key_of ops) = true).
      { apply Hlook. destruct (slash_digit (t_ext t)) as [d|] eqn:Ed; [|apply upto8_in; exact Hn0].
        left. rewrite <- (Hdig2 d eq_refl). destruct rmo as [q|]; [|specialize (Hdig eq_refl); discriminate].
        unfold n0. cbn [rmo_bytes]. symmetry. apply field_rm; [apply Hrm|exact Hreg]. }
      apply andb_true_iff in Hl as [H1 H2]. apply String.eqb_eq in H1. split; assumption.
    - exfalso. assert (false = true); [|discriminate]. apply Hlook.
      destruct (slash_digit (t_ext t)) as [d|] eqn:Ed; [|apply upto8_in; exact Hn0].
      left. rewrite <- (Hdig2 d eq_refl). destruct rmo as [q|]; [|specialize (Hdig eq_refl); discriminate].
      unfold n0. cbn [rmo_bytes]. symmetry. apply field_rm; [apply Hrm|exact Hreg]. }
  destruct Hf as (name' & ps & Hlk & -> & Hoa).
  destruct (HO ps (last o' 0)) as [Hu Hops].
  { intros i Hi. subst pl. unfold kk in *. rewrite (proj2 Hpl) in Hplen by congruence.
    cbn [negb orb] in Hplen. apply andb_true_iff in Hplen as [Hl1 Hl2].
    apply Nat.eqb_eq in Hl1. apply Z.eqb_eq in Hl2.
    destruct o' as [|c [|c2 o2]]; try discriminate. cbn [nth last] in *. exact Hl2. }
  { exact Hoa. }
  rewrite Hp in *.
  apply (decode_ok (rmo_pre rmo pre) rx o' rmo reg imms rest _ ps xs); try assumption.
  intros n Hn1 Hn2 Hn3. fold n0 in Hn3. subst n. rewrite Hv.
  rewrite <- Hlk. apply lookup_same; destruct Hq as [-> |[-> [-> | ->]]]; reflexivity.
Qed.
