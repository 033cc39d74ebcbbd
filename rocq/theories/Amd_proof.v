(** Proofs about the amd64 instruction encoder. *)
From Coq Require Import ZArith List Bool Lia String.
From Verif Require Import Base Amd_model Amd_spec Amd_check.
Import ListNotations.
Open Scope Z_scope.
Local Opaque table candidates.

(** ** Selection *)

Lemma In_sweep : forall n l x, In x (sweep n l) <-> In x l.
Proof.
  induction n as [|n IH]; intros [|a [|b r]] x; cbn [sweep]; try tauto.
  destruct (first_num b <? first_num a); cbn [In]; rewrite IH; cbn [In]; tauto.
Qed.

Lemma In_sort : forall k l x, In x (sort_insts k l) <-> In x l.
Proof.
  induction k as [|k IH]; intros l x; cbn [sort_insts]; [tauto|].
  rewrite IH, In_sweep. tauto.
Qed.

Lemma filter_key_in : forall (tb : list tmpl) name ks t,
  In t (filter (fun t => String.eqb (t_group t) name && keys_match (t_ops t) ks) tb) ->
  In t tb /\ t_group t = name /\ keys_match (t_ops t) ks = true.
Proof.
  intros tb name ks t H. apply filter_In in H as [Hi Hm].
  apply andb_true_iff in Hm as [Hn Hk]. apply String.eqb_eq in Hn.
  exact (conj Hi (conj Hn Hk)).
Qed.

Lemma candidates_in : forall name ks t, In t (candidates name ks) ->
  In t table /\ t_group t = name /\ keys_match (t_ops t) ks = true.
Proof.
  intros name ks t. Local Transparent candidates. unfold candidates.
  exact (filter_key_in table name ks t).
Qed.
Local Opaque candidates.

Lemma head_in : forall n (l : list tmpl) t,
  match sort_insts n l with t' :: _ => Some t' | [] => None end = Some t -> In t l.
Proof.
  intros n l t H. apply (In_sort n).
  destruct (sort_insts n l) as [|t' r]; [discriminate|].
  injection H as <-. left; reflexivity.
Qed.

Lemma select_from : forall (c : list tmpl) high t,
  (let insts := filter (fun t => negb (high && has_rex_extension (t_ext t))) c in
   match sort_insts (length insts) insts with [] => None | t :: _ => Some t end) = Some t ->
  In t c.
Proof.
  intros c high t H. cbv zeta in H. apply head_in in H.
  apply filter_In in H as [H _]. exact H.
Qed.

Lemma select_in : forall name ks high t,
  select_keys name ks high = Some t ->
  In t table /\ t_group t = name /\ keys_match (t_ops t) ks = true.
Proof.
  intros name ks high t H.
  exact (candidates_in name ks t (select_from (candidates name ks) high t H)).
Qed.

Lemma okind_eqb_eq : forall a b, okind_eqb a b = true -> a = b.
Proof. intros [] []; cbn; intros H; congruence. Qed.

Lemma key_eqb_eq : forall a b, key_eqb a b = true -> a = b.
Proof.
  intros [a n] [b m] H. unfold key_eqb in H. cbn [fst snd] in H.
  apply andb_true_iff in H as [H1 H2]. apply okind_eqb_eq in H1.
  apply Z.eqb_eq in H2. congruence.
Qed.

Lemma keys_match_product : forall ls ks, keys_match ls ks = true -> In ks (product ls).
Proof.
  induction ls as [|[l e] ls IH]; intros [|k ks] H; cbn [keys_match] in H; try discriminate.
  - left; reflexivity.
  - apply andb_true_iff in H as [H1 H2]. cbn [product].
    apply existsb_exists in H1 as (k' & Hi & Hk). apply key_eqb_eq in Hk. subst k'.
    apply in_flat_map. exists k. split; [exact Hi|]. apply in_map. apply IH; exact H2.
Qed.

Lemma check_all_true : check_all = true.
Proof. vm_compute. reflexivity. Qed.

Lemma checked : forall name ks high t,
  select_keys name ks high = Some t ->
  agree t ks = true \/ excluded name ks = true.
Proof.
  intros name ks high t H.
  destruct (select_in _ _ _ _ H) as (Hi & Hn & Hk).
  pose proof check_all_true as C. unfold check_all in C.
  rewrite forallb_forall in C. specialize (C t Hi).
  rewrite forallb_forall in C. specialize (C ks (keys_match_product _ _ Hk)).
  rewrite Hn in C. apply andb_true_iff in C as [C1 C2].
  assert (C3 : check1 name ks high = true) by (destruct high; assumption).
  unfold check1 in C3. rewrite H in C3. apply orb_true_iff in C3. exact C3.
Qed.

(** ** Bytes *)

Definition upto (n : nat) : list Z := map Z.of_nat (seq 0 n).
Lemma upto_in : forall n i, 0 <= i < Z.of_nat n -> In i (upto n).
Proof.
  intros n i H. unfold upto. apply in_map_iff. exists (Z.to_nat i).
  split; [lia|]. apply in_seq. lia.
Qed.

Definition fields_ok (b a r m : Z) : bool :=
  (b / 64 =? a) && ((b / 8) mod 8 =? r mod 8) && (b mod 8 =? m mod 8) && (0 <=? b) && (b <? 256).

Lemma modrm_checked :
  forallb (fun a => forallb (fun r => forallb (fun m =>
    fields_ok (modrm_byte (MR a r m)) a r m) (upto 16)) (upto 16)) (upto 4) = true.
Proof. vm_compute. reflexivity. Qed.

Lemma modrm_fields : forall a r m,
  0 <= a < 4 -> 0 <= r < 16 -> 0 <= m < 16 ->
  modrm_byte (MR a r m) / 64 = a /\ (modrm_byte (MR a r m) / 8) mod 8 = r mod 8
  /\ modrm_byte (MR a r m) mod 8 = m mod 8.
Proof.
  intros a r m Ha Hr Hm. pose proof modrm_checked as C.
  rewrite forallb_forall in C. specialize (C a (upto_in 4 a Ha)).
  rewrite forallb_forall in C. specialize (C r (upto_in 16 r Hr)).
  rewrite forallb_forall in C. specialize (C m (upto_in 16 m Hm)).
  unfold fields_ok in C. lia.
Qed.

Lemma sib_byte_modrm : forall a i b, sib_byte (SB a i b) = modrm_byte (MR a i b).
Proof. reflexivity. Qed.

Lemma land7 : forall i, Z.land i 7 = i mod 8.
Proof. intros i. change 7 with (Z.ones 3). rewrite Z.land_ones by lia. reflexivity. Qed.

Lemma le_bytes_length : forall n v, List.length (le_bytes n v) = n.
Proof. induction n; intros; cbn [le_bytes List.length]; congruence. Qed.

Lemma le_value_bytes : forall n v, le_value (le_bytes n v) = v mod 2 ^ (8 * Z.of_nat n).
Proof.
  induction n as [|n IH]; intros v; cbn [le_bytes le_value].
  - change (2 ^ (8 * Z.of_nat 0)) with 1. rewrite Z.mod_1_r. reflexivity.
  - rewrite IH.
    replace (2 ^ (8 * Z.of_nat (S n))) with (256 * 2 ^ (8 * Z.of_nat n)).
    + rewrite Z.rem_mul_r; [lia | lia | apply Z.pow_pos_nonneg; lia].
    + replace (8 * Z.of_nat (S n)) with (8 + 8 * Z.of_nat n) by lia.
      rewrite Z.pow_add_r by lia. reflexivity.
Qed.

Lemma take_app : forall a b, take (List.length a) (a ++ b) = Some (a, b).
Proof.
  induction a as [|x a IH]; intros b; cbn [List.length take app]; [reflexivity|].
  rewrite IH. reflexivity.
Qed.

Lemma take_le : forall n v r, take n (le_bytes n v ++ r) = Some (le_bytes n v, r).
Proof.
  intros n v r. rewrite <- (le_bytes_length n v) at 1. apply take_app.
Qed.

Lemma signed_disp8 : forall d, -128 <= d <= 127 -> signed 1 (d mod 2 ^ 8) = d.
Proof.
  intros d H. unfold signed. change (2 ^ (8 * 1 - 1)) with 128. change (2 ^ (8 * 1)) with 256.
  change (2 ^ 8) with 256.
  destruct (Z.ltb_spec (d mod 256) 128); Z.div_mod_to_equations; lia.
Qed.
Lemma signed_disp32 : forall d, is_int32 d -> signed 4 (d mod 2 ^ 32) = d.
Proof.
  intros d H. unfold is_int32 in H. unfold signed.
  change (2 ^ (8 * 4 - 1)) with 2147483648. change (2 ^ (8 * 4)) with 4294967296.
  change (2 ^ 32) with 4294967296.
  destruct (Z.ltb_spec (d mod 4294967296) 2147483648); Z.div_mod_to_equations; lia.
Qed.

Lemma disp_of_1 : forall d r, -128 <= d <= 127 -> disp_of 1 (le_bytes 1 d ++ r) = Some (d, r).
Proof.
  intros d r H. unfold disp_of. rewrite take_le, le_value_bytes.
  change (8 * Z.of_nat 1) with 8. change (Z.of_nat 1) with 1.
  rewrite signed_disp8 by exact H. reflexivity.
Qed.
Lemma disp_of_4 : forall d r, is_int32 d -> disp_of 4 (le_bytes 4 d ++ r) = Some (d, r).
Proof.
  intros d r H. unfold disp_of. rewrite take_le, le_value_bytes.
  change (8 * Z.of_nat 4) with 32. change (Z.of_nat 4) with 4.
  rewrite signed_disp32 by exact H. reflexivity.
Qed.

(** ** Memory and register operands in ModRM.rm *)

(** operands the encoder gets right in ModRM.rm *)
Definition rm_good (o : operand) : Prop :=
  operand_ok o /\
  match o with
  | OReg _ | ORip _ _ | OSeg _ _ _ => True
  | OInd r _ | ODisp r _ _ => r_index r <> 4 /\ r_index r <> 12
  | OSib (Some r) _ _ d _ => r_index r = 5 \/ r_index r = 13 -> d = 0
  | OSib None _ _ _ _ => True
  | _ => False
  end.

Definition sib_scale (s : Z) : Z :=
  if s =? 2 then 1 else if s =? 4 then 2 else if s =? 8 then 3 else 0.
Definition short (d : Z) : bool := (-128 <=? d) && (d <=? 127).
Definition sib_i (i : option reg) : Z := match i with Some r => r_index r | None => 4 end.

(** the pieces an operand contributes: mod, rm, the REX bits X and B, the SIB
    byte, the displacement *)
Definition q_mod (o : operand) : Z :=
  match o with
  | OReg _ => 3
  | ODisp _ d _ => if short d then 1 else 2
  | OInd r _ => if (r_index r =? 13) || (r_index r =? 5) then 1 else 0
  | OSib (Some r) _ _ d _ =>
      if (r_index r =? 13) || (r_index r =? 5) then 1
      else if d =? 0 then 0 else if short d then 1 else 2
  | _ => 0
  end.
Definition q_rm (o : operand) : Z :=
  match o with
  | OReg r | ODisp r _ _ => Z.land (r_index r) 7
  | OInd r _ => r_index r
  | ORip _ _ => 5
  | _ => 4
  end.
Definition q_x (o : operand) : bool :=
  match o with OSib _ i _ _ _ => 7 <? sib_i i | _ => false end.
Definition q_b (o : operand) : bool :=
  match o with
  | OReg r | ODisp r _ _ | OInd r _ | OSib (Some r) _ _ _ _ => 7 <? r_index r
  | _ => false
  end.
Definition q_sib (o : operand) : option sibb :=
  match o with
  | OSib (Some r) i s _ _ => Some (SB (sib_scale s) (sib_i i) (r_index r))
  | OSib None i s _ _ => Some (SB (sib_scale s) (sib_i i) 5)
  | OSeg _ _ _ => Some (SB 0 4 5)
  | _ => None
  end.
Definition q_disp (o : operand) : list Z :=
  match o with
  | ODisp _ d _ => if short d then le_bytes 1 d else le_bytes 4 d
  | OInd r _ => if (r_index r =? 13) || (r_index r =? 5) then [0] else []
  | ORip d _ | OSeg _ d _ | OSib None _ _ d _ => le_bytes 4 d
  | OSib (Some r) _ _ d _ =>
      if (r_index r =? 13) || (r_index r =? 5) then [0]
      else if d =? 0 then [] else if short d then le_bytes 1 d else le_bytes 4 d
  | _ => []
  end.
Definition q_pre (o : operand) (pre : Z) : Z :=
  match o with OSeg Fs _ _ => 100 | OSeg Gs _ _ => 101 | _ => pre end.

Definition rex_opt (has w r x b : bool) : option rexp :=
  if has then Some (Rex w r x b) else None.

Lemma scale_enc_ok : forall s, In s [0; 1; 2; 4; 8] -> scale_enc s = Ok (sib_scale s).
Proof.
  intros s H. cbn [In] in H. destruct H as [<-|[<-|[<-|[<-|[<-|[]]]]]]; reflexivity.
Qed.

Lemma In_1248 : forall s, In s [1; 2; 4; 8] -> In s [0; 1; 2; 4; 8].
Proof. intros s H. right. exact H. Qed.

Lemma fill_rm : forall has w r sr o pre opc M imms,
  rm_good o ->
  fill_operand has sr MODRM_RM o
    (F pre (rex_opt has w r false false) opc M None [] imms)
  = Ok (F (q_pre o pre) (rex_opt has w r (q_x o) (q_b o)) opc
          (Some (MR (q_mod o) (m_reg (match M with Some m => m | None => new_modrm end)) (q_rm o)))
          (q_sib o) (q_disp o) imms).
Proof.
  intros has w r sr o pre opc M imms [Hok Hg].
  destruct o as [g|g s|g d s|b i sc d s|d s|sg d s|v|v|v|v|v|v|v|s]; cbn [fill_operand];
    try contradiction;
    unfold the_modrm; cbn [f_modrm].
  - unfold set_rex, with_modrm; destruct has; reflexivity.
  - destruct ((r_index g =? 13) || (r_index g =? 5)) eqn:E;
      unfold set_rex, with_modrm, with_disps; cbn [q_mod q_rm q_x q_b q_sib q_disp q_pre f_rex];
      rewrite E; destruct has; reflexivity.
  - unfold set_rex, with_modrm, with_disps; cbn [q_mod q_rm q_x q_b q_sib q_disp q_pre f_rex].
    unfold short. destruct has; destruct ((-128 <=? d) && (d <=? 127)); reflexivity.
  - destruct Hok as (Hb & Hi & Hd).
    assert (Hs : In sc [0; 1; 2; 4; 8]).
    { destruct i as [i|]; [apply In_1248; tauto|exact Hi]. }
    rewrite (scale_enc_ok sc Hs). cbn [bind].
    change (match i with Some r0 => r_index r0 | None => 4 end) with (sib_i i).
    destruct b as [b|].
    + assert (E1 : set_rex has (fun r0 => rex_b (7 <? r_index b) (rex_x (7 <? sib_i i) r0))
         (with_sib (SB (sib_scale sc) (sib_i i) (r_index b))
           (F pre (rex_opt has w r false false) opc M None [] imms))
         = Ok (F pre (rex_opt has w r (7 <? sib_i i) (7 <? r_index b)) opc M
                 (Some (SB (sib_scale sc) (sib_i i) (r_index b))) [] imms)).
      { destruct has; reflexivity. }
      rewrite E1. cbn [bind].
      cbn [q_mod q_rm q_x q_b q_sib q_disp q_pre].
      unfold with_modrm, with_disps.
      destruct ((r_index b =? 13) || (r_index b =? 5)) eqn:E.
      * destruct (d =? 0); [reflexivity|].
        destruct ((-128 <=? d) && (d <=? 127)); reflexivity.
      * unfold short. destruct (d =? 0); [reflexivity|].
        destruct ((-128 <=? d) && (d <=? 127)); reflexivity.
    + unfold set_rex, with_modrm, with_sib, with_disps.
      destruct has; reflexivity.
  - reflexivity.
  - destruct sg; reflexivity.
Qed.

(** what ModRM.rm designates *)
Definition ea_of (o : operand) : ea :=
  match o with
  | OReg r => EReg (r_index r)
  | _ => match want_addr o with Some (_, a) => EMem a | None => EReg 0 end
  end.

Lemma ext_num_split : forall i, 0 <= i < 16 -> ext_num (7 <? i) (i mod 8) = i.
Proof.
  intros i H. unfold ext_num. destruct (Z.ltb_spec 7 i); Z.div_mod_to_equations; lia.
Qed.

Lemma reg_ok_range : forall r, reg_ok r -> 0 <= r_index r < 16.
Proof. intros [c i] H. unfold reg_ok in H. cbn in *. destruct c; lia. Qed.
Lemma base_ok_range : forall r, base_ok r -> 0 <= r_index r < 16.
Proof. intros r [_ H]. lia. Qed.

Lemma sib_scale_pow : forall s, In s [1; 2; 4; 8] -> 2 ^ sib_scale s = s.
Proof.
  intros s H. cbn [In] in H. destruct H as [<-|[<-|[<-|[<-|[]]]]]; reflexivity.
Qed.
Lemma sib_scale_range : forall s, 0 <= sib_scale s < 4.
Proof.
  intros s. unfold sib_scale.
  destruct (s =? 2), (s =? 4), (s =? 8); lia.
Qed.

(** reading the bytes back *)
Lemma parse_rm : forall p o reg rest,
  rm_good o -> 0 <= reg < 16 ->
  rex_bit p 1 = q_x o -> rex_bit p 0 = q_b o ->
  parse_ea p (modrm_byte (MR (q_mod o) reg (q_rm o))
              :: match q_sib o with Some s => [sib_byte s] | None => [] end ++ q_disp o ++ rest)
  = Some (reg mod 8, ea_of o, rest).
Proof.
  intros p o reg rest [Hok Hg] Hr Hx Hb. unfold parse_ea. rewrite Hx, Hb.
  assert (Hm : 0 <= q_mod o < 4).
  { destruct o as [g|g s|g d s|[b|] i sc d s|d s|sg d s|v|v|v|v|v|v|v|s]; cbn [q_mod]; try lia.
    - destruct ((r_index g =? 13) || (r_index g =? 5)); lia.
    - destruct (short d); lia.
    - destruct ((r_index b =? 13) || (r_index b =? 5)); [lia|].
      destruct (d =? 0); [lia|]. destruct (short d); lia. }
  assert (Hq : 0 <= q_rm o < 16).
  { destruct o as [g|g s|g d s|b i sc d s|d s|sg d s|v|v|v|v|v|v|v|s]; cbn [q_rm]; try lia.
    - rewrite land7. Z.div_mod_to_equations; lia.
    - apply base_ok_range. exact Hok.
    - rewrite land7. Z.div_mod_to_equations; lia. }
  destruct (modrm_fields (q_mod o) reg (q_rm o) Hm Hr Hq) as (F1 & F2 & F3).
  set (mb := modrm_byte (MR (q_mod o) reg (q_rm o))) in *. clearbody mb.
  rewrite F1, F2, F3.
  destruct o as [g|g s|g d s|b i sc d s|d s|sg d s|v|v|v|v|v|v|v|s];
    try contradiction; cbn [q_mod q_rm q_x q_b q_sib q_disp ea_of want_addr] in *.
  - (* register *)
    cbn [Z.eqb Pos.eqb app]. rewrite land7, Z.mod_mod by lia.
    rewrite ext_num_split by (apply reg_ok_range; exact Hok). reflexivity.
  - (* indirect *)
    pose proof (base_ok_range _ Hok) as Hi.
    destruct ((r_index g =? 13) || (r_index g =? 5)) eqn:E.
    + change (1 =? 3) with false. cbv iota.
      replace (r_index g mod 8 =? 4) with false by (symmetry; Z.div_mod_to_equations; lia).
      change (1 =? 0) with false. cbn [andb]. unfold with_disp.
      change (1 =? 0) with false. change (1 =? 1) with true. cbv iota.
      cbn [app]. change (0 :: rest) with (le_bytes 1 0 ++ rest).
      rewrite disp_of_1 by lia. rewrite ext_num_split by lia. reflexivity.
    + change (0 =? 3) with false. cbv iota.
      replace (r_index g mod 8 =? 4) with false by (symmetry; Z.div_mod_to_equations; lia).
      replace (r_index g mod 8 =? 5) with false by (symmetry; Z.div_mod_to_equations; lia).
      rewrite andb_false_r. unfold with_disp. change (0 =? 0) with true. cbv iota.
      cbn [app]. rewrite ext_num_split by lia. reflexivity.
  - (* displacement *)
    destruct Hok as [Hk Hd]. pose proof (base_ok_range _ Hk) as Hi.
    rewrite land7, Z.mod_mod by lia.
    replace (r_index g mod 8 =? 4) with false by (symmetry; Z.div_mod_to_equations; lia).
    destruct (short d) eqn:E; unfold short in E; unfold with_disp.
    + change (1 =? 3) with false. change (1 =? 0) with false. change (1 =? 1) with true.
      cbn [andb]. cbv iota. cbn [app].
      rewrite disp_of_1 by lia. rewrite ext_num_split by lia. reflexivity.
    + change (2 =? 3) with false. change (2 =? 0) with false. change (2 =? 1) with false.
      cbn [andb]. cbv iota. cbn [app].
      rewrite disp_of_4 by exact Hd. rewrite ext_num_split by lia. reflexivity.
  - (* base, index, scale *)
    destruct Hok as (Hb' & Hi & Hd).
    assert (Hsi : 0 <= sib_i i < 16).
    { destruct i as [i|]; cbn [sib_i]; [apply base_ok_range; tauto|lia]. }
    assert (Hix : forall s',
       s' / 64 = sib_scale sc -> (s' / 8) mod 8 = sib_i i mod 8 ->
       (if ext_num (7 <? sib_i i) ((s' / 8) mod 8) =? 4 then None
        else Some (ext_num (7 <? sib_i i) ((s' / 8) mod 8), 2 ^ (s' / 64)))
       = match i with Some r => Some (r_index r, sc) | None => None end).
    { intros s' S1 S2. rewrite S1, S2, ext_num_split by exact Hsi.
      destruct i as [i|]; cbn [sib_i].
      - destruct Hi as (Hi1 & Hi2 & Hi3).
        destruct (Z.eqb_spec (r_index i) 4); [contradiction|].
        rewrite sib_scale_pow by exact Hi3. reflexivity.
      - reflexivity. }
    destruct b as [b|].
    + pose proof (base_ok_range _ Hb') as Hbi.
      destruct (modrm_fields (sib_scale sc) (sib_i i) (r_index b) (sib_scale_range sc) Hsi Hbi)
        as (S1 & S2 & S3).
      rewrite <- sib_byte_modrm in S1, S2, S3.
      set (sb := sib_byte (SB (sib_scale sc) (sib_i i) (r_index b))) in *. clearbody sb.
      change (4 mod 8 =? 4) with true. cbv iota. cbn [app].
      rewrite (Hix sb S1 S2). rewrite S3.
      rewrite ext_num_split by exact Hbi.
      destruct ((r_index b =? 13) || (r_index b =? 5)) eqn:E.
      * change (1 =? 3) with false. cbv iota. unfold with_disp.
        change (1 =? 0) with false. change (1 =? 1) with true. cbv iota.
        cbn [app]. change (0 :: rest) with (le_bytes 1 0 ++ rest).
        rewrite disp_of_1 by lia.
        assert (d = 0) by (apply Hg; lia). subst d. reflexivity.
      * replace (r_index b mod 8 =? 5) with false by (symmetry; Z.div_mod_to_equations; lia).
        destruct (Z.eqb_spec d 0) as [->|Hd0].
        -- change (0 =? 3) with false. cbv iota. unfold with_disp.
           change (0 =? 0) with true. cbv iota. reflexivity.
        -- destruct (short d) eqn:E2; unfold short in E2; unfold with_disp.
           ++ change (1 =? 3) with false. change (1 =? 0) with false.
              change (1 =? 1) with true. cbv iota.
              rewrite disp_of_1 by lia. reflexivity.
           ++ change (2 =? 3) with false. change (2 =? 0) with false.
              change (2 =? 1) with false. cbv iota.
              rewrite disp_of_4 by exact Hd. reflexivity.
    + destruct (modrm_fields (sib_scale sc) (sib_i i) 5 (sib_scale_range sc) Hsi ltac:(lia))
        as (S1 & S2 & S3).
      rewrite <- sib_byte_modrm in S1, S2, S3.
      set (sb := sib_byte (SB (sib_scale sc) (sib_i i) 5)) in *. clearbody sb.
      change (4 mod 8 =? 4) with true. change (0 =? 3) with false. cbv iota. cbn [app].
      rewrite (Hix sb S1 S2). rewrite S3. change (5 mod 8 =? 5) with true.
      unfold with_disp. change (0 =? 0) with true. cbv iota.
      rewrite disp_of_4 by exact Hd. reflexivity.
  - change (0 =? 3) with false. change (5 mod 8 =? 4) with false.
    change ((0 =? 0) && (5 mod 8 =? 5)) with true. cbv iota. cbn [app].
    rewrite disp_of_4 by exact Hok. reflexivity.
  - change (0 =? 3) with false. change (4 mod 8 =? 4) with true. cbv iota. cbn [app].
    change (sib_byte (SB 0 4 5) / 8 mod 8) with 4.
    change (sib_byte (SB 0 4 5) mod 8 =? 5) with true.
    change (sib_byte (SB 0 4 5) / 64) with 0. change (sib_byte (SB 0 4 5) mod 8) with 5.
    cbn [ext_num]. change (4 =? 4) with true. cbv iota.
    unfold with_disp. change (0 =? 0) with true. cbv iota.
    rewrite disp_of_4 by exact Hok. reflexivity.
Qed.
