(** Proofs about the amd64 calling convention. *)
From Verif Require Import Base Abi_model Abi_spec.
From Coq Require Import Permutation Zify.
Ltac Zify.zify_post_hook ::= Z.to_euclidean_division_equations.

(** * Alignment *)
Definition ok (a : Z) : Prop := a = 0 \/ scalar_size a.

Lemma align_up_pow n k : 0 <= k -> Z.land (n + 2 ^ k - 1) (Z.lnot (2 ^ k - 1)) = 2 ^ k * ((n + 2 ^ k - 1) / 2 ^ k).
Proof.
  intros K. rewrite <- Z.ldiff_land. replace (2 ^ k - 1) with (Z.ones k) at 1 by (rewrite Z.ones_equiv; lia).
  replace (Z.ldiff (n + 2 ^ k - 1) (2 ^ k - 1)) with (Z.ldiff (n + 2 ^ k - 1) (Z.ones k))
    by (rewrite Z.ones_equiv; f_equal; lia).
  rewrite Z.ldiff_ones_r by lia. rewrite Z.shiftl_mul_pow2, Z.shiftr_div_pow2 by lia. lia.
Qed.
Lemma align_up_up n a : ok a -> align_up n a = up n a.
Proof.
  intros [->|H]; [reflexivity|]. unfold align_up, up.
  destruct H as [->|[->|[->| ->]]].
  - apply (align_up_pow n 0). lia.
  - apply (align_up_pow n 1). lia.
  - apply (align_up_pow n 2). lia.
  - apply (align_up_pow n 3). lia.
Qed.
Ltac oks := unfold ok, scalar_size in *;
  repeat match goal with
         | H : _ \/ _ |- _ => destruct H
         end; subst; unfold up in *; cbn [Z.eqb Z.compare Pos.eqb Pos.compare Pos.compare_cont] in *; try lia.
Lemma up_ge n a : ok a -> n <= up n a.
Proof. intros H. oks. Qed.
Lemma up_up n a : ok a -> up (up n a) a = up n a.
Proof. intros H. oks. Qed.
Lemma up_weaken b a a' : ok a -> ok a' -> a' <= a -> up b a = b -> up b a' = b.
Proof. intros H H' L E. oks. Qed.
Lemma up_0 a : ok a -> up 0 a = 0.
Proof. intros H. oks. Qed.

(** * Induction on types *)
Fixpoint all_laid (es : list ty) : Prop := match es with [] => True | e :: es => laid_out e /\ all_laid es end.
Lemma laid_struct es s a :
  laid_out (Struct es s a)
  = (a = fold_right Z.max 0 (map align es)
     /\ s = up (fold_left (fun o e => up o (align e) + size e) es 0) a /\ all_laid es).
Proof. reflexivity. Qed.
Fixpoint fields_l (es : list ty) (o : Z) : list (Z * bool) :=
  match es with [] => [] | e :: es => fields e (up o (align e)) ++ fields_l es (up o (align e) + size e) end.
Lemma fields_struct es s a b : fields (Struct es s a) b = fields_l es b.
Proof. reflexivity. Qed.
Fixpoint classify_l (es : list ty) (off : Z) (lh : class * class) : option (class * class) :=
  match es with
  | [] => Some lh
  | e :: es =>
      match type_classify e lh (align_up off (align e)) with
      | None => None
      | Some lh => classify_l es (align_up off (align e) + size e) lh
      end
  end.
Lemma classify_struct es s a lh off :
  type_classify (Struct es s a) lh off = (if 16 <? s then None else classify_l es (align_up off a) lh).
Proof. reflexivity. Qed.

Fixpoint depth (t : ty) : nat :=
  match t with Struct es _ _ => S (fold_right Nat.max O (map depth es)) | _ => O end.
Lemma ty_ind' (P : ty -> Prop) :
  (forall f s, P (Scalar f s)) -> (forall s a, P (Arr s a)) ->
  (forall es s a, Forall P es -> P (Struct es s a)) -> forall t, P t.
Proof.
  intros HS HA HT. fix IH 1. intros [f s|es s a|s a]; [apply HS| |apply HA].
  apply HT. induction es as [|e es IHes]; constructor; [apply IH|exact IHes].
Qed.

Lemma all_laid_forall es : all_laid es <-> Forall laid_out es.
Proof.
  induction es as [|e es IH]; cbn [all_laid]; split; intros H; auto.
  - destruct H. constructor; [assumption|]. now apply IH.
  - inversion H; subst. split; [assumption|]. now apply IH.
Qed.

Lemma ok_max a b : ok a -> ok b -> ok (Z.max a b).
Proof. unfold ok, scalar_size. lia. Qed.
Lemma laid_ok t : laid_out t -> ok (align t) /\ 0 <= size t.
Proof.
  induction t as [f s|s a|es s a IH] using ty_ind'; intros H.
  - cbn in *. split; [now right|]. destruct H as [->|[->|[->| ->]]]; lia.
  - cbn in *. destruct H. split; [now right|assumption].
  - rewrite laid_struct in H. destruct H as (A & B & C). cbn [align size].
    assert (O : ok a).
    { subst a. clear B. induction es as [|e es IHes]; cbn [map fold_right]; [now left|].
      destruct C as [C1 C2]. inversion IH; subst. apply ok_max; [now apply H1|now apply IHes]. }
    split; [exact O|]. subst s.
    assert (G : forall o, 0 <= o -> 0 <= fold_left (fun o e => up o (align e) + size e) es o).
    { clear - IH C. induction es as [|e es IHes]; intros o Ho; cbn [fold_left]; [assumption|].
      destruct C as [C1 C2]. inversion IH; subst. apply IHes; [assumption|assumption|].
      destruct (H1 C1) as [Q1 Q2]. pose proof (up_ge o _ Q1). lia. }
    specialize (G 0 ltac:(lia)). pose proof (up_ge (fold_left (fun o e => up o (align e) + size e) es 0) _ O). lia.
Qed.

(** the end of the members from [o] on *)
Definition ends (es : list ty) (o : Z) : Z := fold_left (fun o e => up o (align e) + size e) es o.
Lemma ends_ge es : all_laid es -> forall o, o <= ends es o.
Proof.
  induction es as [|e es IH]; intros H o; cbn; [lia|]. destruct H as [H1 H2].
  specialize (IH H2 (up o (align e) + size e)). fold (ends es (up o (align e) + size e)) in *.
  destruct (laid_ok _ H1) as [Q1 Q2]. pose proof (up_ge o _ Q1). unfold ends in *. lia.
Qed.
Lemma up_shift b n a a' : ok a -> ok a' -> a' <= a -> up b a = b -> up (b + n) a' = b + up n a'.
Proof. intros H H' L E. oks. Qed.
Lemma ends_shift a b es : ok a -> up b a = b -> all_laid es -> Forall (fun e => align e <= a) es ->
  forall o, ends es (b + o) = b + ends es o.
Proof.
  intros A B. induction es as [|e es IH]; intros L F o; cbn; [reflexivity|].
  destruct L as [L1 L2]. inversion F; subst. destruct (laid_ok _ L1) as [Q1 Q2].
  rewrite (up_shift b o a (align e)) by assumption.
  replace (b + up o (align e) + size e) with (b + (up o (align e) + size e)) by lia. apply IH; assumption.
Qed.
Lemma max_le es : Forall (fun e => align e <= fold_right Z.max 0 (map align es)) es.
Proof.
  induction es as [|e es IH]; cbn [map fold_right]; constructor; [lia|].
  eapply Forall_impl; [|exact IH]. cbn. lia.
Qed.

(** * Where the fields are *)
Lemma fields_in t : laid_out t -> forall b f, up b (align t) = b -> In f (fields t b) -> b <= fst f < b + size t.
Proof.
  induction t as [g s|s a|es s a IH] using ty_ind'; intros H b f B I.
  - cbn in *. destruct I as [<-|[]]. cbn. destruct H as [->|[->|[->| ->]]]; lia.
  - destruct I.
  - rewrite fields_struct in I. destruct (laid_ok _ H) as [O _]. rewrite laid_struct in H. destruct H as (A & E & C).
    cbn [align size] in *.
    assert (G : forall o, In f (fields_l es o) -> o <= fst f < ends es o).
    { clear - IH C. induction es as [|e es IHes]; intros o I; [destruct I|].
      destruct C as [C1 C2]. inversion IH; subst. destruct (laid_ok _ C1) as [Q1 Q2].
      pose proof (up_ge o _ Q1). cbn [fields_l] in I. apply in_app_or in I. cbn [ends fold_left].
      fold (ends es (up o (align e) + size e)).
      destruct I as [I|I].
      - pose proof (H1 C1 _ _ (up_up o _ Q1) I). pose proof (ends_ge es C2 (up o (align e) + size e)). 
        cbn [ends fold_left]. fold (ends es (up o (align e) + size e)). lia.
      - pose proof (IHes H2 C2 _ I). cbn [ends fold_left]. fold (ends es (up o (align e) + size e)). lia. }
    specialize (G b I). split; [lia|].
    pose proof (max_le es) as M. rewrite <- A in M.
    rewrite <- (Z.add_0_r b), (ends_shift a b es O B C M 0) in G.
    fold (ends es 0) in E. pose proof (up_ge (ends es 0) a O). lia.
Qed.

Lemma fields_none t : laid_out t -> has_array t = false -> forall b, fields t b = [] -> size t = 0.
Proof.
  induction t as [g s|s a|es s a IH] using ty_ind'; intros H N b F.
  - discriminate F.
  - discriminate N.
  - rewrite fields_struct in F. destruct (laid_ok _ H) as [O _]. rewrite laid_struct in H. destruct H as (A & E & C).
    cbn [size align] in *. cbn [has_array] in N.
    assert (G : fields_l es b = [] -> forall o, o = 0 -> ends es o = 0).
    { clear - IH C N. revert b. induction es as [|e es IHes]; intros b F o Z0; [exact Z0|].
      destruct C as [C1 C2]. inversion IH; subst. cbn [existsb] in N. apply orb_false_iff in N. destruct N as [N1 N2].
      cbn [fields_l] in F. apply app_eq_nil in F. destruct F as [F1 F2].
      cbn [ends fold_left]. destruct (laid_ok _ C1) as [Q1 _]. rewrite (up_0 _ Q1), (H1 C1 N1 _ F1).
      eapply (IHes H2 C2 N2); [exact F2|reflexivity]. }
    fold (ends es 0) in E. rewrite (G F 0 eq_refl) in E. rewrite E. now apply up_0.
Qed.
Lemma fields_first t : laid_out t -> has_array t = false -> forall b, up b (align t) = b -> fields t b <> [] ->
  exists f, In (b, f) (fields t b).
Proof.
  induction t as [g s|s a|es s a IH] using ty_ind'; intros H N b B F.
  - exists g. now left.
  - discriminate N.
  - rewrite fields_struct in *. destruct (laid_ok _ H) as [O _]. rewrite laid_struct in H. destruct H as (A & E & C).
    cbn [align has_array] in *. pose proof (max_le es) as M. rewrite <- A in M. clear A E.
    induction es as [|e es IHes]; [now contradiction F|].
    destruct C as [C1 C2]. inversion IH; subst. cbn [existsb] in N. apply orb_false_iff in N. destruct N as [N1 N2].
    inversion M; subst. cbn [fields_l] in *. destruct (laid_ok _ C1) as [Q1 _].
    pose proof (up_weaken b a (align e) O Q1 H3 B) as W. rewrite W in F |- *.
    destruct (fields e b) as [|f0 fs] eqn:Ef.
    + pose proof (fields_none e C1 N1 b Ef) as Z0. rewrite Z0, Z.add_0_r in F |- *. cbn [app] in *.
      exact (IHes H2 C2 N2 F H4).
    + destruct (H1 C1 N1 b W ltac:(rewrite Ef; discriminate)) as (f & If).
      exists f. apply in_or_app. left. rewrite <- Ef. exact If.
Qed.

(** * Classes *)
Definition cls (f : bool) : class := if f then SSE else INTEGER.
Definition put_all (fs : list (Z * bool)) (lh : class * class) : class * class :=
  fold_left (fun lh f => put lh (fst f) (cls (snd f))) fs lh.
Lemma classify_array t : laid_out t -> has_array t = true -> forall lh off, type_classify t lh off = None.
Proof.
  induction t as [g s|s a|es s a IH] using ty_ind'; intros H N lh off.
  - discriminate N.
  - cbn. now destruct (16 <? s).
  - rewrite classify_struct. destruct (16 <? s); [reflexivity|]. rewrite laid_struct in H. destruct H as (_ & _ & C).
    cbn [has_array] in N. generalize (align_up off a) as o. clear off. revert lh.
    induction es as [|e es IHes]; intros lh o; [discriminate N|].
    destruct C as [C1 C2]. inversion IH; subst. cbn [existsb] in N. cbn [classify_l].
    destruct (has_array e) eqn:Ne.
    + now rewrite (H1 C1 eq_refl).
    + destruct (type_classify e lh (align_up o (align e))); [|reflexivity]. now apply IHes.
Qed.
Lemma classify_fields t : laid_out t -> has_array t = false -> forall lh off, up off (align t) = off -> size t <= 16 ->
  type_classify t lh off = Some (put_all (fields t off) lh).
Proof.
  induction t as [g s|s a|es s a IH] using ty_ind'; intros H N lh off B S16.
  - cbn in S16. cbn [type_classify size]. replace (16 <? s) with false by lia. now destruct g.
  - discriminate N.
  - rewrite classify_struct, fields_struct. cbn [size align has_array] in *. replace (16 <? s) with false by lia.
    destruct (laid_ok _ H) as [O _]. rewrite laid_struct in H. destruct H as (A & E & C). cbn [align] in O.
    rewrite (align_up_up off a O), B. fold (ends es 0) in E.
    assert (G : ends es 0 <= 16) by (pose proof (up_ge (ends es 0) a O); lia).
    assert (G2 : forall o, 0 <= o -> ends es o <= 16 -> forall lh off,
      classify_l es off lh = Some (put_all (fields_l es off) lh)); [|exact (G2 0 ltac:(lia) G lh off)].
    clear - IH C N. induction es as [|e es IHes]; intros o Ho G lh off; [reflexivity|].
    destruct C as [C1 C2]. inversion IH; subst. cbn [existsb] in N. apply orb_false_iff in N. destruct N as [N1 N2].
    destruct (laid_ok _ C1) as [Q1 Q2]. cbn [classify_l fields_l].
    cbn [ends fold_left] in G. fold (ends es (up o (align e) + size e)) in G.
    pose proof (ends_ge es C2 (up o (align e) + size e)). pose proof (up_ge o _ Q1).
    rewrite (align_up_up off _ Q1), (H1 C1 N1 lh _ (up_up _ _ Q1)) by (unfold ends in *; lia).
    rewrite (IHes H2 C2 N2 (up o (align e) + size e)) by (unfold ends in *; lia).
    unfold put_all. now rewrite fold_left_app.
Qed.

Definition merge_all (fs : list (Z * bool)) (c : class) : class := fold_left (fun c f => merge c (cls (snd f))) fs c.
Lemma put_all_halves fs : forall lo hi, put_all fs (lo, hi)
  = (merge_all (filter (fun f => fst f <? 8) fs) lo, merge_all (filter (fun f => negb (fst f <? 8)) fs) hi).
Proof.
  induction fs as [|[o f] fs IH]; intros lo hi; [reflexivity|].
  cbn [put_all fold_left filter fst snd]. fold (put_all fs (put (lo, hi) o (cls f))).
  unfold put. cbn [fst snd]. destruct (o <? 8); cbn [negb]; rewrite IH; reflexivity.
Qed.
Lemma merge_all_from fs : forall c, (c = SSE \/ c = INTEGER) ->
  merge_all fs c = if class_eqb c SSE && forallb snd fs then SSE else INTEGER.
Proof.
  induction fs as [|[o f] fs IH]; intros c H.
  - destruct H as [->| ->]; reflexivity.
  - cbn [merge_all fold_left snd forallb]. fold (merge_all fs (merge c (cls f))).
    rewrite IH by (destruct H as [->| ->], f; cbn; auto).
    destruct H as [->| ->], f; cbn; reflexivity.
Qed.
Lemma merge_all_no fs : merge_all fs NO = match fs with [] => NO | _ => floats_only fs end.
Proof.
  destruct fs as [|[o f] fs]; [reflexivity|]. cbn [merge_all fold_left snd].
  change (merge_all fs (merge NO (cls f)) = floats_only ((o, f) :: fs)).
  rewrite merge_all_from by (destruct f; cbn; auto). unfold floats_only. cbn [forallb snd].
  destruct f; reflexivity.
Qed.
Lemma filter_same {A} (p q : A -> bool) l : (forall x, In x l -> p x = q x) -> filter p l = filter q l.
Proof.
  induction l as [|x l IH]; intros H; [reflexivity|]. cbn [filter].
  rewrite (H x (or_introl eq_refl)), IH; [reflexivity|]. intros y Hy. apply H. now right.
Qed.

(** what classify says, from the classes of the eightbytes *)
Definition answer (t : ty) : nat * class * class :=
  match eightbytes t with
  | None => (0%nat, NO, NO)
  | Some [] => (1%nat, NO, NO)
  | Some [c] => (1%nat, c, NO)
  | Some (c :: d :: _) => (2%nat, c, d)
  end.
Lemma floats_only_ne fs : class_eqb (floats_only fs) NO = false.
Proof. unfold floats_only. now destruct (forallb snd fs). Qed.
Lemma classify_answer t : laid_out t -> classify t = answer t.
Proof.
  intros H. unfold classify, answer, eightbytes. destruct (16 <? size t) eqn:S16.
  - destruct t; cbn [size] in S16; cbn [type_classify size]; rewrite S16; reflexivity.
  - destruct (has_array t) eqn:N; [now rewrite (classify_array t H N)|].
    destruct (laid_ok _ H) as [O Z0]. pose proof (up_0 _ O) as U0.
    rewrite (classify_fields t H N _ 0 U0) by lia.
    rewrite put_all_halves, !merge_all_no.
    assert (I : forall f, In f (fields t 0) -> 0 <= fst f < 16).
    { intros f If. pose proof (fields_in t H 0 f U0 If). lia. }
    assert (E0 : filter (fun f => fst f <? 8) (fields t 0) = eightbyte 0 t).
    { apply filter_same. intros f If. specialize (I f If). lia. }
    assert (E1 : filter (fun f => negb (fst f <? 8)) (fields t 0) = eightbyte 1 t).
    { apply filter_same. intros f If. specialize (I f If). lia. }
    rewrite E0, E1.
    assert (F : eightbyte 0 t = [] -> eightbyte 1 t = []).
    { intros E. destruct (fields t 0) as [|f0 fs] eqn:Ef; [unfold eightbyte; now rewrite Ef|].
      destruct (fields_first t H N 0 U0 ltac:(rewrite Ef; discriminate)) as (f & If).
      assert (X : In (0, f) (eightbyte 0 t)) by (apply filter_In; split; [exact If|reflexivity]).
      rewrite E in X. destruct X. }
    destruct (eightbyte 0 t) as [|f0 fs]; [now rewrite (F eq_refl)|].
    destruct (eightbyte 1 t) as [|g0 gs]; [reflexivity|]. now rewrite floats_only_ne.
Qed.

Definition reg_class (c : class) : Prop := c = SSE \/ c = INTEGER.
Lemma floats_only_reg fs : reg_class (floats_only fs).
Proof. unfold floats_only, reg_class. destruct (forallb snd fs); auto. Qed.
Lemma eightbytes_cases t :
  eightbytes t = None \/ eightbytes t = Some []
  \/ (exists c, eightbytes t = Some [c] /\ reg_class c)
  \/ (exists c d, eightbytes t = Some [c; d] /\ reg_class c /\ reg_class d).
Proof.
  unfold eightbytes. destruct (16 <? size t); [now left|]. destruct (has_array t); [now left|].
  destruct (eightbyte 0 t) as [|f0 fs]; [now (right; left)|].
  destruct (eightbyte 1 t) as [|g0 gs].
  - right; right; left. eexists. split; [reflexivity|]. apply floats_only_reg.
  - right; right; right. do 2 eexists. repeat split; apply floats_only_reg.
Qed.
Lemma two_struct t c d : laid_out t -> eightbytes t = Some [c; d] -> is_struct t = true.
Proof.
  intros H. unfold eightbytes. destruct t as [f s|es s a|s a]; [|reflexivity|].
  - destruct (16 <? _); [discriminate|]. cbn. discriminate.
  - destruct (16 <? _); discriminate.
Qed.

(** * Registers and stack *)
Definition I6 (k : nat) : list Z := skipn k int_reg_indices.
Definition X8 (k : nat) : list Z := skipn k sse_reg_indices.

Lemma regs_left (l : list Z) : forall k, match skipn k l with
  | [] => nth_error l k = None /\ (length l <= k)%nat
  | r :: rest => nth_error l k = Some r /\ rest = skipn (S k) l /\ (k < length l)%nat
  end.
Proof.
  induction l as [|x l IH]; intros k.
  - destruct k; cbn; (split; [reflexivity|lia]).
  - destruct k as [|k].
    + cbn. split; [reflexivity|]. split; [reflexivity|lia].
    + specialize (IH k). cbn [skipn nth_error length]. destruct (skipn k l) as [|r rest] eqn:E.
      * destruct IH. split; [assumption|lia].
      * destruct IH as (A & B & C). split; [assumption|]. split; [exact B|lia].
Qed.
Lemma I6_cases k :
  (I6 k = [] /\ nth_error int_reg_indices k = None /\ Nat.leb (k + 1) 6 = false)
  \/ (exists r, I6 k = r :: I6 (S k) /\ nth_error int_reg_indices k = Some r /\ Nat.leb (k + 1) 6 = true).
Proof.
  pose proof (regs_left int_reg_indices k) as H. unfold I6. destruct (skipn k int_reg_indices) as [|r rest].
  - left. destruct H as [A B]. split; [reflexivity|]. split; [exact A|]. apply Nat.leb_gt. cbn in B. lia.
  - right. destruct H as (A & -> & C). exists r. split; [reflexivity|]. split; [exact A|]. apply Nat.leb_le. cbn in C. lia.
Qed.
Lemma X8_cases k :
  (X8 k = [] /\ nth_error sse_reg_indices k = None /\ Nat.leb (k + 1) 8 = false)
  \/ (exists r, X8 k = r :: X8 (S k) /\ nth_error sse_reg_indices k = Some r /\ Nat.leb (k + 1) 8 = true).
Proof.
  pose proof (regs_left sse_reg_indices k) as H. unfold X8. destruct (skipn k sse_reg_indices) as [|r rest].
  - left. destruct H as [A B]. split; [reflexivity|]. split; [exact A|]. apply Nat.leb_gt. cbn in B. lia.
  - right. destruct H as (A & -> & C). exists r. split; [reflexivity|]. split; [exact A|]. apply Nat.leb_le. cbn in C. lia.
Qed.

Definition cons_flag (b : bool) (p : list bool * Z) : list bool * Z := (b :: fst p, snd p).
Definition tagged (i : nat) (l : list (part * loc)) : list move := map (fun pl => (i, fst pl, snd pl)) l.
Definition is_reg (l : loc) : Prop := match l with Stk _ => False | _ => True end.

(** one argument: on the stack for all, or in the same registers for all *)
Definition on_stack (t : ty) (sse int : nat) : Prop :=
  (forall ts so, args_onstack (t :: ts) sse int so = cons_flag true (args_onstack ts sse int (so + align_up (size t) 8)))
  /\ (forall ts, params_onstack (t :: ts) sse int = true :: params_onstack ts sse int)
  /\ (forall i ts off, convention i (t :: ts) (I6 int) (X8 sse) off
        = (i, Whole, Stk off) :: convention (S i) ts (I6 int) (X8 sse) (off + up (size t) 8)).
Definition in_regs (t : ty) (sse int sse' int' : nat) (ls : list (part * loc)) : Prop :=
  (forall ts so, args_onstack (t :: ts) sse int so = cons_flag false (args_onstack ts sse' int' so))
  /\ (forall ts, params_onstack (t :: ts) sse int = false :: params_onstack ts sse' int')
  /\ (forall i ts off, convention i (t :: ts) (I6 int) (X8 sse) off = tagged i ls ++ convention (S i) ts (I6 int') (X8 sse') off)
  /\ (forall i ts os, args_regs i (t :: ts) (false :: os) int sse
        = option_map (app (tagged i ls)) (args_regs (S i) ts os int' sse'))
  /\ (forall i ts os slot, params_moves i (t :: ts) (false :: os) int sse slot
        = option_map (app (tagged i ls)) (params_moves (S i) ts os int' sse' slot))
  /\ Forall (fun pl => is_reg (snd pl)) ls.

Ltac flags := unfold cons_flag; intros;
  repeat match goal with |- context[args_onstack ?a ?b ?c ?d] => destruct (args_onstack a b c d) end; reflexivity.
Ltac sums := repeat match goal with
  | |- context[(?k + 2)%nat] => replace (k + 2)%nat with (S (S k)) by lia
  | |- context[(?k + 1)%nat] => replace (k + 1)%nat with (S k) by lia
  | |- context[(?k + 0)%nat] => replace (k + 0)%nat with k by lia
  end.
Lemma leb_2 k n : Nat.leb (k + 2) n = Nat.leb (S k + 1) n.
Proof. f_equal. lia. Qed.
Lemma leb_both k n : Nat.leb (k + 1) n = false -> Nat.leb (k + 2) n = false.
Proof. rewrite !Nat.leb_gt. lia. Qed.

Lemma one_argument t sse int : laid_out t ->
  on_stack t sse int \/ exists sse' int' ls, in_regs t sse int sse' int' ls.
Proof.
  intros H. pose proof (classify_answer t H) as A. unfold answer in A.
  destruct (eightbytes_cases t) as [E|[E|[(c & E & C)|(c & d & E & C & D)]]]; rewrite E in A.
  - left. split; [|split].
    + cbn [args_onstack]. rewrite A. flags.
    + cbn [params_onstack]. rewrite A. reflexivity.
    + cbn [convention]. rewrite E. reflexivity.
  - left. split; [|split].
    + cbn [args_onstack]. rewrite A. cbn [class_eqb andb]. flags.
    + cbn [params_onstack]. rewrite A. reflexivity.
    + cbn [convention]. rewrite E. reflexivity.
  - destruct C as [-> | ->].
    + destruct (X8_cases sse) as [(L & _ & B)|(r & L & R & B)].
      * left. split; [|split].
        -- cbn [args_onstack]. rewrite A, B. cbn [class_eqb andb]. flags.
        -- cbn [params_onstack]. rewrite A, B. reflexivity.
        -- cbn [convention]. rewrite E. cbn [place]. rewrite L. reflexivity.
      * right. exists (S sse), int, [(Low, XReg r)]. split; [|split; [|split; [|split; [|split]]]].
        -- cbn [args_onstack]. rewrite A, B. cbn [class_eqb andb]. sums. flags.
        -- cbn [params_onstack]. rewrite A, B. cbn [class_eqb andb]. sums. reflexivity.
        -- intros. cbn [convention]. rewrite E. cbn [place]. rewrite L. reflexivity.
        -- intros. cbn [args_regs]. rewrite A. cbn [arg_reg Nat.eqb]. rewrite R, andb_false_r. reflexivity.
        -- intros. cbn [params_moves]. rewrite A. cbn [arg_reg Nat.eqb]. rewrite R, andb_false_r. reflexivity.
        -- repeat constructor.
    + destruct (I6_cases int) as [(L & _ & B)|(r & L & R & B)].
      * left. split; [|split].
        -- cbn [args_onstack]. rewrite A, B. cbn [class_eqb andb]. flags.
        -- cbn [params_onstack]. rewrite A, B. reflexivity.
        -- cbn [convention]. rewrite E. cbn [place]. rewrite L. reflexivity.
      * right. exists sse, (S int), [(Low, IReg r)]. split; [|split; [|split; [|split; [|split]]]].
        -- cbn [args_onstack]. rewrite A, B. cbn [class_eqb andb]. sums. flags.
        -- cbn [params_onstack]. rewrite A, B. cbn [class_eqb andb]. sums. reflexivity.
        -- intros. cbn [convention]. rewrite E. cbn [place]. rewrite L. reflexivity.
        -- intros. cbn [args_regs]. rewrite A. cbn [arg_reg Nat.eqb]. rewrite R, andb_false_r. reflexivity.
        -- intros. cbn [params_moves]. rewrite A. cbn [arg_reg Nat.eqb]. rewrite R, andb_false_r. reflexivity.
        -- repeat constructor.
  - pose proof (two_struct t c d H E) as T. destruct C as [-> | ->], D as [-> | ->].
    + destruct (X8_cases sse) as [(L & _ & B)|(r & L & R & B)]; [|destruct (X8_cases (S sse)) as [(L' & _ & B')|(r' & L' & R' & B')]].
      * left. split; [|split].
        -- cbn [args_onstack]. rewrite A, (leb_both _ _ B). cbn [class_eqb andb]. flags.
        -- cbn [params_onstack]. rewrite A, (leb_both _ _ B). reflexivity.
        -- cbn [convention]. rewrite E. cbn [place]. rewrite L. reflexivity.
      * left. split; [|split].
        -- cbn [args_onstack]. rewrite A, leb_2, B'. cbn [class_eqb andb]. flags.
        -- cbn [params_onstack]. rewrite A, leb_2, B'. reflexivity.
        -- cbn [convention]. rewrite E. cbn [place]. rewrite L, L'. reflexivity.
      * right. exists (S (S sse)), int, [(Low, XReg r); (High, XReg r')]. split; [|split; [|split; [|split; [|split]]]].
        -- cbn [args_onstack]. rewrite A, leb_2, B'. cbn [class_eqb andb]. sums. flags.
        -- cbn [params_onstack]. rewrite A, leb_2, B'. cbn [class_eqb andb]. sums. reflexivity.
        -- intros. cbn [convention]. rewrite E. cbn [place]. rewrite L, L'. reflexivity.
        -- intros. cbn [args_regs]. rewrite A, T. cbn [arg_reg Nat.eqb andb]. rewrite R, R'. reflexivity.
        -- intros. cbn [params_moves]. rewrite A, T. cbn [arg_reg Nat.eqb andb]. rewrite R, R'. reflexivity.
        -- repeat constructor.
    + destruct (X8_cases sse) as [(L & _ & B)|(r & L & R & B)]; [|destruct (I6_cases int) as [(L' & _ & B')|(r' & L' & R' & B')]].
      * left. split; [|split].
        -- cbn [args_onstack]. rewrite A, B. cbn [class_eqb andb]. flags.
        -- cbn [params_onstack]. rewrite A, B. reflexivity.
        -- cbn [convention]. rewrite E. cbn [place]. rewrite L. reflexivity.
      * left. split; [|split].
        -- cbn [args_onstack]. rewrite A, B, B'. cbn [class_eqb andb]. flags.
        -- cbn [params_onstack]. rewrite A, B, B'. reflexivity.
        -- cbn [convention]. rewrite E. cbn [place]. rewrite L, L'. reflexivity.
      * right. exists (S sse), (S int), [(Low, XReg r); (High, IReg r')]. split; [|split; [|split; [|split; [|split]]]].
        -- cbn [args_onstack]. rewrite A, B, B'. cbn [class_eqb andb]. sums. flags.
        -- cbn [params_onstack]. rewrite A, B, B'. cbn [class_eqb andb]. sums. reflexivity.
        -- intros. cbn [convention]. rewrite E. cbn [place]. rewrite L, L'. reflexivity.
        -- intros. cbn [args_regs]. rewrite A, T. cbn [arg_reg Nat.eqb andb]. rewrite R, R'. reflexivity.
        -- intros. cbn [params_moves]. rewrite A, T. cbn [arg_reg Nat.eqb andb]. rewrite R, R'. reflexivity.
        -- repeat constructor.
    + destruct (I6_cases int) as [(L & _ & B)|(r & L & R & B)]; [|destruct (X8_cases sse) as [(L' & _ & B')|(r' & L' & R' & B')]].
      * left. split; [|split].
        -- cbn [args_onstack]. rewrite A, B, andb_false_r. cbn [class_eqb andb]. flags.
        -- cbn [params_onstack]. rewrite A, B, andb_false_r. reflexivity.
        -- cbn [convention]. rewrite E. cbn [place]. rewrite L. reflexivity.
      * left. split; [|split].
        -- cbn [args_onstack]. rewrite A, B, B'. cbn [class_eqb andb]. flags.
        -- cbn [params_onstack]. rewrite A, B, B'. reflexivity.
        -- cbn [convention]. rewrite E. cbn [place]. rewrite L, L'. reflexivity.
      * right. exists (S sse), (S int), [(Low, IReg r); (High, XReg r')]. split; [|split; [|split; [|split; [|split]]]].
        -- cbn [args_onstack]. rewrite A, B, B'. cbn [class_eqb andb]. sums. flags.
        -- cbn [params_onstack]. rewrite A, B, B'. cbn [class_eqb andb]. sums. reflexivity.
        -- intros. cbn [convention]. rewrite E. cbn [place]. rewrite L, L'. reflexivity.
        -- intros. cbn [args_regs]. rewrite A, T. cbn [arg_reg Nat.eqb andb]. rewrite R, R'. reflexivity.
        -- intros. cbn [params_moves]. rewrite A, T. cbn [arg_reg Nat.eqb andb]. rewrite R, R'. reflexivity.
        -- repeat constructor.
    + destruct (I6_cases int) as [(L & _ & B)|(r & L & R & B)]; [|destruct (I6_cases (S int)) as [(L' & _ & B')|(r' & L' & R' & B')]].
      * left. split; [|split].
        -- cbn [args_onstack]. rewrite A, (leb_both int 6 B). cbn [class_eqb andb]. flags.
        -- cbn [params_onstack]. rewrite A, (leb_both int 6 B). reflexivity.
        -- cbn [convention]. rewrite E. cbn [place]. rewrite L. reflexivity.
      * left. split; [|split].
        -- cbn [args_onstack]. rewrite A, (leb_2 int 6), B'. cbn [class_eqb andb]. flags.
        -- cbn [params_onstack]. rewrite A, (leb_2 int 6), B'. reflexivity.
        -- cbn [convention]. rewrite E. cbn [place]. rewrite L, L'. reflexivity.
      * right. exists sse, (S (S int)), [(Low, IReg r); (High, IReg r')]. split; [|split; [|split; [|split; [|split]]]].
        -- cbn [args_onstack]. rewrite A, (leb_2 int 6), B'. cbn [class_eqb andb]. sums. flags.
        -- cbn [params_onstack]. rewrite A, (leb_2 int 6), B'. cbn [class_eqb andb]. sums. reflexivity.
        -- intros. cbn [convention]. rewrite E. cbn [place]. rewrite L, L'. reflexivity.
        -- intros. cbn [args_regs]. rewrite A, T. cbn [arg_reg Nat.eqb andb]. rewrite R, R'. reflexivity.
        -- intros. cbn [params_moves]. rewrite A, T. cbn [arg_reg Nat.eqb andb]. rewrite R, R'. reflexivity.
        -- repeat constructor.
Qed.

Lemma tagged_callee i ls : Forall (fun pl => is_reg (snd pl)) ls -> map from_callee (tagged i ls) = tagged i ls.
Proof.
  intros H. induction H as [|[p l] ls R _ IH]; [reflexivity|].
  cbn [tagged map fst snd] in *. fold (tagged i ls). rewrite IH. f_equal. destruct l; [reflexivity|reflexivity|destruct R].
Qed.

Definition below (sz : nat -> Z) (off lim : Z) (m : move) : Prop :=
  match m with (j, _, Stk x) => off <= x /\ x + sz j <= lim | _ => True end.
Lemma below_weaken sz off off' lim m : off <= off' -> below sz off' lim m -> below sz off lim m.
Proof. intros L. destruct m as [[j p] [r|r|x]]; cbn; lia. Qed.

Lemma arguments_agree : forall ts sz i int sse so off, Forall laid_out ts ->
  (forall k t, nth_error ts k = Some t -> sz (i + k)%nat = size t) ->
  let os := fst (args_onstack ts sse int so) in let o := snd (args_onstack ts sse int so) in
  params_onstack ts sse int = os
  /\ so <= o
  /\ (exists rs, args_regs i ts os int sse = Some rs
        /\ Permutation (args_stack i ts os off ++ rs) (convention i ts (I6 int) (X8 sse) off))
  /\ params_moves i ts os int sse (off + 16) = Some (map from_callee (convention i ts (I6 int) (X8 sse) off))
  /\ Forall (below sz off (off + (o - so))) (convention i ts (I6 int) (X8 sse) off).
Proof.
  induction ts as [|t ts IH]; intros sz i int sse so off H SZ; cbn zeta.
  - cbn [args_onstack fst snd]. split; [reflexivity|]. split; [lia|]. split; [exists []; split; [reflexivity|constructor]|].
    split; [reflexivity|constructor].
  - inversion H as [|? ? H1 H2]; subst.
    assert (SZ' : forall k u, nth_error ts k = Some u -> sz (S i + k)%nat = size u).
    { intros k u Hk. replace (S i + k)%nat with (i + S k)%nat by lia. apply SZ. exact Hk. }
    assert (S0 : sz i = size t) by (rewrite <- (SZ 0%nat t eq_refl); f_equal; lia).
    destruct (laid_ok t H1) as [_ Z0].
    assert (U8 : size t <= up (size t) 8) by (apply up_ge; right; right; right; right; reflexivity).
    assert (A8 : align_up (size t) 8 = up (size t) 8) by (apply align_up_up; right; right; right; right; reflexivity).
    destruct (one_argument t sse int H1) as [(Ea & Ep & Ec)|(sse' & int' & ls & Ea & Ep & Ec & Er & Em & Fr)].
    + rewrite Ea, Ep, Ec, A8. unfold cons_flag. cbn [fst snd].
      destruct (IH sz (S i) int sse (so + up (size t) 8) (off + up (size t) 8) H2 SZ') as (P1 & P2 & (rs & P3 & P4) & P5 & P6).
      cbn zeta in *. set (r := args_onstack ts sse int (so + up (size t) 8)) in *.
      split; [now rewrite P1|]. split; [lia|]. split; [|split].
      * exists rs. cbn [args_regs args_stack]. split; [exact P3|]. rewrite A8. cbn [app]. now constructor.
      * cbn [params_moves]. rewrite A8. replace (off + 16 + up (size t) 8) with (off + up (size t) 8 + 16) by lia.
        rewrite P5. reflexivity.
      * constructor.
        -- cbn [below]. rewrite S0. lia.
        -- eapply Forall_impl; [|exact P6]. intros m Hm. apply below_weaken with (off' := off + up (size t) 8); [lia|].
           replace (off + (snd r - so)) with (off + up (size t) 8 + (snd r - (so + up (size t) 8))) by lia. exact Hm.
    + rewrite Ea, Ep, Ec. unfold cons_flag. cbn [fst snd].
      destruct (IH sz (S i) int' sse' so off H2 SZ') as (P1 & P2 & (rs & P3 & P4) & P5 & P6).
      cbn zeta in *. set (r := args_onstack ts sse' int' so) in *.
      split; [now rewrite P1|]. split; [lia|]. split; [|split].
      * exists (tagged i ls ++ rs). rewrite Er, P3. split; [reflexivity|]. cbn [args_stack].
        rewrite app_assoc, (Permutation_app_comm _ (tagged i ls)), <- app_assoc. now apply Permutation_app_head.
      * rewrite Em, P5, map_app, (tagged_callee i ls Fr). reflexivity.
      * apply Forall_app. split; [|exact P6]. apply Forall_forall. intros m Hm. apply in_map_iff in Hm.
        destruct Hm as ([p l] & <- & Hp). cbn [fst snd]. rewrite Forall_forall in Fr. specialize (Fr _ Hp). cbn in Fr.
        destruct l; [exact Logic.I|exact Logic.I|destruct Fr].
Qed.

(** * Nothing overlaps *)
Definition from_lists (ints sses : list Z) (off : Z) (m : move) : Prop :=
  match snd m with IReg r => In r ints | XReg r => In r sses | Stk x => off <= x end.
Inductive sub : list Z -> list Z -> Prop := sub_intro pre l : sub l (pre ++ l).
Lemma sub_refl l : sub l l.
Proof. exact (sub_intro [] l). Qed.
Lemma sub_cons r l m : sub (r :: l) m -> sub l m.
Proof. inversion 1; subst. change (r :: l) with ([r] ++ l). rewrite app_assoc. constructor. Qed.

Lemma apart_sym sz a b : apart sz a b -> apart sz b a.
Proof.
  destruct a as [[i p] [r|r|x]], b as [[j q] [r'|r'|y]]; cbn; auto.
  tauto.
Qed.

Lemma convention_from : forall ts i ints sses off, Forall laid_out ts ->
  Forall (from_lists ints sses off) (convention i ts ints sses off).
Proof.
  assert (W : forall ints sses off ints' sses' off' m,
    (forall r, In r ints' -> In r ints) -> (forall r, In r sses' -> In r sses) -> off <= off' ->
    from_lists ints' sses' off' m -> from_lists ints sses off m).
  { intros ints sses off ints' sses' off' [[i p] [r|r|x]]; cbn; auto; lia. }
  induction ts as [|t ts IH]; intros i ints sses off H; [constructor|].
  inversion H as [|? ? H1 H2]; subst. destruct (laid_ok t H1) as [_ Z0].
  assert (U8 : size t <= up (size t) 8) by (apply up_ge; right; right; right; right; reflexivity).
  assert (ST : Forall (from_lists ints sses off)
     ((i, Whole, Stk off) :: convention (S i) ts ints sses (off + up (size t) 8))).
  { constructor; [cbn; lia|]. eapply Forall_impl; [|exact (IH (S i) ints sses (off + up (size t) 8) H2)].
    intros m. apply W; auto. lia. }
  cbn [convention].
  destruct (eightbytes_cases t) as [E|[E|[(c & E & C)|(c & d & E & C & D)]]]; rewrite E; [exact ST|exact ST| |].
  - destruct C as [-> | ->]; cbn [place].
    + destruct sses as [|r sses]; [exact ST|]. cbn [map fst snd app]. constructor; [left; reflexivity|].
      eapply Forall_impl; [|exact (IH (S i) ints sses off H2)]. intros m. apply W; cbn; auto; lia.
    + destruct ints as [|r ints]; [exact ST|]. cbn [map fst snd app]. constructor; [left; reflexivity|].
      eapply Forall_impl; [|exact (IH (S i) ints sses off H2)]. intros m. apply W; cbn; auto; lia.
  - destruct C as [-> | ->], D as [-> | ->]; cbn [place].
    + destruct sses as [|r [|r' sses]]; [exact ST|exact ST|]. cbn [map fst snd app].
      constructor; [left; reflexivity|]. constructor; [right; left; reflexivity|].
      eapply Forall_impl; [|exact (IH (S i) ints sses off H2)]. intros m. apply W; cbn; auto; lia.
    + destruct sses as [|r sses]; [exact ST|]. destruct ints as [|r' ints]; [exact ST|]. cbn [map fst snd app].
      constructor; [left; reflexivity|]. constructor; [left; reflexivity|].
      eapply Forall_impl; [|exact (IH (S i) ints sses off H2)]. intros m. apply W; cbn; auto; lia.
    + destruct ints as [|r ints]; [exact ST|]. destruct sses as [|r' sses]; [exact ST|]. cbn [map fst snd app].
      constructor; [left; reflexivity|]. constructor; [left; reflexivity|].
      eapply Forall_impl; [|exact (IH (S i) ints sses off H2)]. intros m. apply W; cbn; auto; lia.
    + destruct ints as [|r [|r' ints]]; [exact ST|exact ST|]. cbn [map fst snd app].
      constructor; [left; reflexivity|]. constructor; [right; left; reflexivity|].
      eapply Forall_impl; [|exact (IH (S i) ints sses off H2)]. intros m. apply W; cbn; auto; lia.
Qed.

Lemma ireg_apart sz i p r ints sses off m : ~ In r ints -> from_lists ints sses off m -> apart sz (i, p, IReg r) m.
Proof. destruct m as [[j q] [r'|r'|x]]; cbn; auto. intros N I ->. auto. Qed.
Lemma xreg_apart sz i p r ints sses off m : ~ In r sses -> from_lists ints sses off m -> apart sz (i, p, XReg r) m.
Proof. destruct m as [[j q] [r'|r'|x]]; cbn; auto. intros N I ->. auto. Qed.

Lemma convention_apart : forall ts sz i ints sses off, Forall laid_out ts -> NoDup ints -> NoDup sses ->
  (forall k t, nth_error ts k = Some t -> sz (i + k)%nat = size t) ->
  ForallOrdPairs (apart sz) (convention i ts ints sses off).
Proof.
  induction ts as [|t ts IH]; intros sz i ints sses off H NI NS SZ; [constructor|].
  inversion H as [|? ? H1 H2]; subst. destruct (laid_ok t H1) as [_ Z0].
  assert (U8 : size t <= up (size t) 8) by (apply up_ge; right; right; right; right; reflexivity).
  assert (SZ' : forall k u, nth_error ts k = Some u -> sz (S i + k)%nat = size u).
  { intros k u Hk. replace (S i + k)%nat with (i + S k)%nat by lia. apply SZ. exact Hk. }
  assert (S0 : sz i = size t) by (rewrite <- (SZ 0%nat t eq_refl); f_equal; lia).
  assert (ST : ForallOrdPairs (apart sz) ((i, Whole, Stk off) :: convention (S i) ts ints sses (off + up (size t) 8))).
  { constructor; [|now apply IH]. eapply Forall_impl; [|exact (convention_from ts (S i) ints sses (off + up (size t) 8) H2)].
    intros [[j q] [r|r|x]]; cbn [from_lists apart snd]; auto. rewrite S0. lia. }
  cbn [convention].
  destruct (eightbytes_cases t) as [E|[E|[(c & E & C)|(c & d & E & C & D)]]]; rewrite E; [exact ST|exact ST| |].
  - destruct C as [-> | ->]; cbn [place].
    + destruct sses as [|r sses]; [exact ST|]. cbn [map fst snd app]. inversion NS; subst.
      constructor; [|now apply IH]. eapply Forall_impl; [|exact (convention_from ts (S i) ints sses off H2)].
      intros m. now apply xreg_apart.
    + destruct ints as [|r ints]; [exact ST|]. cbn [map fst snd app]. inversion NI; subst.
      constructor; [|now apply IH]. eapply Forall_impl; [|exact (convention_from ts (S i) ints sses off H2)].
      intros m. now apply ireg_apart.
  - destruct C as [-> | ->], D as [-> | ->]; cbn [place].
    + destruct sses as [|r [|r' sses]]; [exact ST|exact ST|]. cbn [map fst snd app].
      inversion NS as [|? ? N1 N2]; subst. inversion N2 as [|? ? N3 N4]; subst.
      constructor; [constructor|constructor; [|now apply IH]].
      * cbn. intros ->. apply N1. now left.
      * eapply Forall_impl; [|exact (convention_from ts (S i) ints sses off H2)].
        intros m. apply xreg_apart. intros I. apply N1. now right.
      * eapply Forall_impl; [|exact (convention_from ts (S i) ints sses off H2)]. intros m. now apply xreg_apart.
    + destruct sses as [|r sses]; [exact ST|]. destruct ints as [|r' ints]; [exact ST|]. cbn [map fst snd app].
      inversion NS as [|? ? N1 N2]; subst. inversion NI as [|? ? N3 N4]; subst.
      constructor; [constructor; [exact Logic.I|]|constructor; [|now apply IH]].
      * eapply Forall_impl; [|exact (convention_from ts (S i) ints sses off H2)]. intros m. now apply xreg_apart.
      * eapply Forall_impl; [|exact (convention_from ts (S i) ints sses off H2)]. intros m. now apply ireg_apart.
    + destruct ints as [|r ints]; [exact ST|]. destruct sses as [|r' sses]; [exact ST|]. cbn [map fst snd app].
      inversion NI as [|? ? N1 N2]; subst. inversion NS as [|? ? N3 N4]; subst.
      constructor; [constructor; [exact Logic.I|]|constructor; [|now apply IH]].
      * eapply Forall_impl; [|exact (convention_from ts (S i) ints sses off H2)]. intros m. now apply ireg_apart.
      * eapply Forall_impl; [|exact (convention_from ts (S i) ints sses off H2)]. intros m. now apply xreg_apart.
    + destruct ints as [|r [|r' ints]]; [exact ST|exact ST|]. cbn [map fst snd app].
      inversion NI as [|? ? N1 N2]; subst. inversion N2 as [|? ? N3 N4]; subst.
      constructor; [constructor|constructor; [|now apply IH]].
      * cbn. intros ->. apply N1. now left.
      * eapply Forall_impl; [|exact (convention_from ts (S i) ints sses off H2)].
        intros m. apply ireg_apart. intros I. apply N1. now right.
      * eapply Forall_impl; [|exact (convention_from ts (S i) ints sses off H2)]. intros m. now apply ireg_apart.
Qed.

Lemma pairs_perm {A} (R : A -> A -> Prop) l m : (forall a b, R a b -> R b a) -> Permutation l m ->
  ForallOrdPairs R l -> ForallOrdPairs R m.
Proof.
  intros S P. induction P as [|x l m P IH|x y l|l m n P1 IH1 P2 IH2]; intros F; auto.
  - inversion F; subst. constructor; [|now apply IH]. eapply Permutation_Forall; eassumption.
  - inversion F as [|? ? F1 F2]; subst. inversion F2 as [|? ? F3 F4]; subst. inversion F1; subst.
    constructor; [constructor; auto|constructor; auto].
Qed.
Lemma pairs_nth {A} (R : A -> A -> Prop) l : (forall a b, R a b -> R b a) -> ForallOrdPairs R l ->
  forall j k a b, j <> k -> nth_error l j = Some a -> nth_error l k = Some b -> R a b.
Proof.
  intros S F. induction F as [|x l F1 F2 IH]; intros j k a b N Ha Hb; [destruct j; discriminate|].
  rewrite Forall_forall in F1.
  destruct j as [|j], k as [|k]; cbn in Ha, Hb.
  - now contradiction N.
  - injection Ha as <-. apply F1. eapply nth_error_In; eassumption.
  - injection Hb as <-. apply S, F1. eapply nth_error_In; eassumption.
  - eapply (IH j k); [lia|eassumption|eassumption].
Qed.

Lemma lower_args_ok ts : Forall laid_out ts ->
  exists ms room, lower_args ts = Some (ms, room) /\ Permutation ms (arguments ts)
  /\ lower_params ts = Some (map from_callee (arguments ts))
  /\ Forall (below (size_of ts) 0 room) ms
  /\ ForallOrdPairs (apart (size_of ts)) ms.
Proof.
  intros H.
  assert (SZ : forall k t, nth_error ts k = Some t -> size_of ts (0 + k)%nat = size t).
  { intros k t Hk. unfold size_of. cbn [Nat.add]. now rewrite Hk. }
  destruct (arguments_agree ts (size_of ts) 0%nat 0%nat 0%nat 0 0 H SZ) as (P1 & P2 & (rs & P3 & P4) & P5 & P6).
  unfold lower_args, lower_params. destruct (args_onstack ts 0 0 0) as [os o] eqn:E. cbn [fst snd] in *.
  rewrite P3. eexists. eexists. split; [reflexivity|]. split; [exact P4|]. split; [|split].
  - rewrite P1. exact P5.
  - eapply Permutation_Forall; [apply Permutation_sym; exact P4|].
    replace o with (0 + (o - 0)) by lia. exact P6.
  - eapply pairs_perm; [apply apart_sym|apply Permutation_sym; exact P4|].
    apply convention_apart; [exact H| | |exact SZ];
      repeat constructor; cbn; intuition discriminate.
Qed.

(** * Results *)
Lemma hidden ret ts : match ret with Some t => laid_out t | None => True end ->
  match ret with
  | Some t => let '(count, _, _) := classify t in if Nat.eqb count 0 then pointer :: ts else ts
  | None => ts
  end = with_result ret ts.
Proof.
  destruct ret as [t|]; [|reflexivity]. intros H. rewrite (classify_answer t H). unfold answer, with_result.
  destruct (eightbytes t) as [[|c [|d l]]|]; reflexivity.
Qed.
Lemma with_result_laid ret ts : Forall laid_out ts -> Forall laid_out (with_result ret ts).
Proof.
  intros H. unfold with_result. destruct ret as [t|]; [|exact H]. destruct (eightbytes t); [exact H|].
  constructor; [|exact H]. cbn. unfold scalar_size. lia.
Qed.
Lemma result_agree t : lower_return t = call_result t.
Proof. reflexivity. Qed.
Lemma result_sysv t : laid_out t -> eightbytes t <> Some [] ->
  eightbytes t <> Some [INTEGER; SSE] -> eightbytes t <> Some [SSE; INTEGER] -> lower_return t = result t.
Proof.
  intros H N1 N2 N3. unfold lower_return, result. rewrite (classify_answer t H). unfold answer.
  destruct (eightbytes_cases t) as [E|[E|[(c & E & C)|(c & d & E & C & D)]]]; rewrite E in *.
  - reflexivity.
  - now contradiction N1.
  - cbn [Nat.eqb]. rewrite andb_false_r. destruct C as [-> | ->]; reflexivity.
  - rewrite (two_struct t c d H E). destruct C as [-> | ->], D as [-> | ->]; try congruence; reflexivity.
Qed.
