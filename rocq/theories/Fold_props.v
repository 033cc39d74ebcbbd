(** C110: integer constants have the value that was written.
    C111: concatenated string constants keep all their text. *)
From Verif Require Import Base Fold_model Fold_spec Fold_proof.

Local Notation num d := (Lit d).

(** ** C110.  Full statement: whenever a constant expression means [v], using it as a [t] gives
    [v] if [v] is a value of [t] and a compile error otherwise.  False of the code, see the
    refutations below; missing: literals with leading zeros, intermediate values that are not
    64-bit signed integers, negative values for u64. *)
Theorem c110_value_partial defs t e v :
  means defs e v -> calm defs e -> in_range t v -> constant defs t e = Ok (Some v).
Proof. apply constant_ok. Qed.
Print Assumptions c110_value_partial.

Theorem c110_out_of_range_partial defs t e v :
  means defs e v -> calm defs e -> ~ in_range t v -> t <> U64 -> constant defs t e = Throw.
Proof. apply constant_out. Qed.
Print Assumptions c110_out_of_range_partial.

(** A single literal needs no bound for its value. *)
Theorem c110_literal_partial defs t s v :
  number s v -> plain s -> in_range t v -> constant defs t (Lit s) = Ok (Some v).
Proof. apply constant_lit_in. Qed.
Print Assumptions c110_literal_partial.

Theorem c110_literal_out_of_range_partial defs t s v :
  number s v -> plain s -> ~ in_range t v -> t <> I64 -> t <> U64 -> constant defs t (Lit s) = Throw.
Proof. apply constant_lit_out. Qed.
Print Assumptions c110_literal_out_of_range_partial.

(** A division by zero is not computed by the compiler: the program divides when it runs. *)
Theorem c110_division_by_zero_kept defs t o a b va :
  o = ODiv \/ o = ORem -> means defs a va -> calm defs a -> means defs b 0 -> calm defs b ->
  constant defs t (Bin o a b) = Ok None.
Proof. apply constant_div0. Qed.
Print Assumptions c110_division_by_zero_kept.

(** A constant defined through itself, however indirectly, is never accepted, and the compiler
    always stops. *)
Theorem c110_circular_rejected defs t e x r :
  mentions x e -> needs defs x x -> constant defs t e <> Ok r.
Proof. apply constant_cycle. Qed.
Print Assumptions c110_circular_rejected.

Theorem c110_ends defs t e : constant defs t e <> NoFuel.
Proof. apply constant_nf. Qed.
Print Assumptions c110_ends.

(** *** Concrete cases: const a = 6; const b = a * -7; (b << 3) ^ ~a *)
Definition ex_defs : list expr := [num [54]; Bin OMul (Const 0) (num [45; 55])].
Definition ex_e : expr := Bin OXor (Bin OShl (Const 1) (num [51])) (Bnot (Const 0)).

Lemma ex_a : means ex_defs (Const 0) 6.
Proof.
  eapply V_const; [reflexivity|]. apply V_lit. left.
  split; [discriminate|]. split; [repeat constructor; unfold digit; lia|reflexivity].
Qed.
Lemma ex_7 : number [45; 55] (-7).
Proof.
  right. exists [55]. split; [reflexivity|]. split; [discriminate|].
  split; [repeat constructor; unfold digit; lia|reflexivity].
Qed.
Lemma ex_3 : number [51] 3.
Proof. left. split; [discriminate|]. split; [repeat constructor; unfold digit; lia|reflexivity]. Qed.
Lemma ex_6 : number [54] 6.
Proof. left. split; [discriminate|]. split; [repeat constructor; unfold digit; lia|reflexivity]. Qed.
Example ex_means : means ex_defs ex_e 329.
Proof.
  unfold ex_e. apply (V_bin _ OXor _ _ (-336) (-7)).
  - apply (V_bin _ OShl _ _ (-42) 3); [| apply V_lit, ex_3 |].
    + eapply V_const; [reflexivity|]. apply (V_bin _ OMul _ _ 6 (-7)); [apply ex_a|apply V_lit, ex_7|].
      apply (M_mul 6 (-7)).
    + apply (M_shl (-42) 3). lia.
  - apply (V_bnot _ _ 6). apply ex_a.
  - apply M_xor. intros i _. change 329 with (Z.lxor (-336) (-7)). apply Z.lxor_spec.
Qed.

(** Meanings are unique, which makes the side conditions easy to check. *)
Lemma op_means_fun o a b v w : op_means o a b v -> op_means o a b w -> v = w.
Proof.
  destruct 1; intros H'; inversion H'; subst; try reflexivity;
    apply Z.bits_inj'; intros i Hi;
    match goal with H : forall i, _ -> Z.testbit v i = _ |- _ => rewrite (H i Hi) end;
    match goal with H : forall i, _ -> Z.testbit w i = _ |- _ => rewrite (H i Hi) end; reflexivity.
Qed.
Lemma means_fun defs e v : means defs e v -> forall w, means defs e w -> v = w.
Proof.
  induction 1 as [s v H|x d v Hd _ IH|e v _ IH|e v _ IH|o a b va vb v _ IHa _ IHb Ho]; intros w Hw; inversion Hw; subst.
  - eapply number_fun; eassumption.
  - apply IH. congruence.
  - f_equal. now apply IH.
  - f_equal. f_equal. now apply IH.
  - match goal with H : means defs a ?x |- _ => rewrite <- (IHa x H) in * end.
    match goal with H : means defs b ?x |- _ => rewrite <- (IHb x H) in * end.
    eapply op_means_fun; eassumption.
Qed.

Lemma i64_small v : -1000 <= v <= 1000 -> int64 v.
Proof. unfold int64. change (2^63) with 9223372036854775808. lia. Qed.

Example ex_calm : calm ex_defs ex_e.
Proof.
  assert (C0 : calm ex_defs (Const 0)).
  { eapply K_const; [reflexivity|]. eapply K_lit; [apply ex_6| |apply i64_small; lia].
    left. cbn. discriminate. }
  assert (C7 : calm ex_defs (num [45; 55])).
  { eapply K_lit; [apply ex_7| |apply i64_small; lia]. left. cbn. discriminate. }
  assert (C3 : calm ex_defs (num [51])).
  { eapply K_lit; [apply ex_3| |apply i64_small; lia]. left. cbn. discriminate. }
  assert (M1 : means ex_defs (Bin OMul (Const 0) (num [45; 55])) (-42)).
  { apply (V_bin _ OMul _ _ 6 (-7)); [apply ex_a|apply V_lit, ex_7|]. apply (M_mul 6 (-7)). }
  assert (C1 : calm ex_defs (Const 1)).
  { eapply K_const; [reflexivity|]. apply K_bin; try assumption; try (intros [|]; discriminate); try discriminate.
    intros v Hv. rewrite <- (means_fun _ _ _ M1 _ Hv). apply i64_small. lia. }
  assert (M2 : means ex_defs (Bin OShl (Const 1) (num [51])) (-336)).
  { apply (V_bin _ OShl _ _ (-42) 3); [| apply V_lit, ex_3 |].
    + eapply V_const; [reflexivity|]. exact M1.
    + apply (M_shl (-42) 3). lia. }
  unfold ex_e. apply K_bin.
  - apply K_bin; [assumption|assumption| | |discriminate].
    + intros v Hv. rewrite <- (means_fun _ _ _ M2 _ Hv). apply i64_small. lia.
    + intros _ n Hn. rewrite <- (means_fun _ _ _ (V_lit _ _ _ ex_3) _ Hn). lia.
  - now apply K_bnot.
  - intros v Hv. rewrite <- (means_fun _ _ _ ex_means _ Hv). apply i64_small. lia.
  - intros [|]; discriminate.
  - discriminate.
Qed.

Example c110_example_i16 : constant ex_defs I16 ex_e = Ok (Some 329).
Proof. apply c110_value_partial; [apply ex_means|apply ex_calm|unfold in_range; cbn; lia]. Qed.
Example c110_example_u8 : constant ex_defs U8 ex_e = Throw.
Proof.
  apply (c110_out_of_range_partial _ _ _ 329); [apply ex_means|apply ex_calm|unfold in_range; cbn; lia|discriminate].
Qed.

(** u64 x = 18446744073709551615 *)
Definition max_u64 : list Z := [49;56;52;52;54;55;52;52;48;55;51;55;48;57;53;53;49;54;49;53].
Example c110_example_literal : constant [] U64 (num max_u64) = Ok (Some (2^64 - 1)).
Proof.
  apply c110_literal_partial; [| |unfold in_range; cbn [lowest highest]; lia].
  - left. split; [discriminate|]. split; [repeat constructor; unfold digit; lia|reflexivity].
  - left. cbn. discriminate.
Qed.
Example c110_example_literal_out : constant [] I32 (num max_u64) = Throw.
Proof.
  apply (c110_literal_out_of_range_partial _ _ _ (2^64 - 1)); try discriminate.
  - left. split; [discriminate|]. split; [repeat constructor; unfold digit; lia|reflexivity].
  - left. cbn. discriminate.
  - unfold in_range. cbn [lowest highest]. change (2^31) with 2147483648. change (2^64) with 18446744073709551616. lia.
Qed.

(** const a = b + 1; const b = ~a *)
Example c110_example_circular :
  forall r, constant [Bin OAdd (Const 1) (num [49]); Bnot (Const 0)] I64 (Neg (Const 1)) <> Ok r.
Proof.
  intros r. apply (c110_circular_rejected _ _ _ 1%nat); [reflexivity|].
  apply (N_more _ _ 0%nat); (eapply N_one; [reflexivity|]); cbn [mentions]; auto.
Qed.

Example c110_example_division : constant [] I32 (Bin ODiv (num [55]) (Bin OSub (num [54]) (num [54]))) = Ok None.
Proof.
  assert (M0 : means [] (Bin OSub (num [54]) (num [54])) 0).
  { apply (V_bin _ OSub _ _ 6 6); [apply V_lit, ex_6|apply V_lit, ex_6|]. apply (M_sub 6 6). }
  assert (C6 : calm [] (num [54])).
  { eapply K_lit; [apply ex_6| |apply i64_small; lia]. left. cbn. discriminate. }
  assert (N7 : number [55] 7).
  { left. split; [discriminate|]. split; [repeat constructor; unfold digit; lia|reflexivity]. }
  apply (c110_division_by_zero_kept _ _ _ _ _ 7); [now left|now apply V_lit| |exact M0|].
  - eapply K_lit; [apply N7| |apply i64_small; lia]. left. cbn. discriminate.
  - apply K_bin; try assumption; try discriminate; [|intros [|]; discriminate].
    intros v Hv. rewrite <- (means_fun _ _ _ M0 _ Hv). apply i64_small. lia.
Qed.

(** ** What goes wrong outside those limits *)
Lemma digits_number s : s <> [] -> Forall digit s -> number s (dec_value s).
Proof. intros. left. auto. Qed.

(** Too large a literal is replaced by the largest value instead of being rejected:
    i64 x = 9223372036854775808. *)
Definition two63 : list Z := [57;50;50;51;51;55;50;48;51;54;56;53;52;55;55;53;56;48;56].
Theorem c110_large_literal_refuted : exists s v w,
  number s v /\ plain s /\ ~ in_range I64 v /\ constant [] I64 (Lit s) = Ok (Some w).
Proof.
  exists two63, (2^63), (2^63 - 1).
  split; [apply (digits_number two63); [discriminate|repeat constructor; unfold digit; lia]|].
  split; [left; cbn; discriminate|]. split; [unfold in_range; cbn [lowest highest]; lia|].
  vm_compute. reflexivity.
Qed.
Print Assumptions c110_large_literal_refuted.

(** u64 accepts negative constants: u64 x = -1 gives 2^64 - 1. *)
Theorem c110_negative_u64_refuted : exists e v w,
  means [] e v /\ calm [] e /\ ~ in_range U64 v /\ constant [] U64 e = Ok (Some w).
Proof.
  exists (num [45; 55]), (-7), (2^64 - 7).
  split; [apply V_lit, ex_7|].
  split; [eapply K_lit; [apply ex_7|left; cbn; discriminate|apply i64_small; lia]|].
  split; [unfold in_range; cbn [lowest highest]; lia|]. vm_compute. reflexivity.
Qed.
Print Assumptions c110_negative_u64_refuted.

(** A decimal literal with a leading zero is read as octal: 010 is 8. *)
Theorem c110_leading_zero_refuted : exists s v w,
  number s v /\ in_range U8 v /\ constant [] U8 (Lit s) = Ok (Some w) /\ v <> w.
Proof.
  exists [48; 49; 48], 10, 8. split; [apply (digits_number [48; 49; 48]); [discriminate|repeat constructor; unfold digit; lia]|].
  split; [unfold in_range; cbn; lia|]. split; [vm_compute; reflexivity|lia].
Qed.
Print Assumptions c110_leading_zero_refuted.

(** An operand above 2^63 - 1 is silently replaced: 18446744073709551615 >> 4 as u64. *)
Theorem c110_unsigned_operand_refuted : exists e v w,
  means [] e v /\ in_range U64 v /\ constant [] U64 e = Ok (Some w) /\ v <> w.
Proof.
  exists (Bin OShr (num max_u64) (num [52])), ((2^64 - 1) / 2^4), ((2^63 - 1) / 2^4).
  split; [|split; [|split]].
  - apply (V_bin _ _ _ _ (2^64 - 1) 4); [| |apply M_shr; lia].
    + apply V_lit. apply (digits_number max_u64); [discriminate|repeat constructor; unfold digit; lia].
    + apply V_lit. apply (digits_number [52]); [discriminate|repeat constructor; unfold digit; lia].
  - vm_compute. split; discriminate.
  - vm_compute. reflexivity.
  - vm_compute. discriminate.
Qed.
Print Assumptions c110_unsigned_operand_refuted.

(** Overflow while folding is undefined behaviour of the compiler itself, even when the value fits
    the type asked for: u64 x = 9223372036854775807 + 1. *)
Definition max_i64 : list Z := [57;50;50;51;51;55;50;48;51;54;56;53;52;55;55;53;56;48;55].
Theorem c110_overflow_refuted : exists e v,
  means [] e v /\ in_range U64 v /\ constant [] U64 e = UB.
Proof.
  exists (Bin OAdd (num max_i64) (num [49])), (2^63).
  split; [|split].
  - apply (V_bin _ _ _ _ (2^63 - 1) 1); [| |apply (M_add (2^63 - 1) 1)].
    + apply V_lit. apply (digits_number max_i64); [discriminate|repeat constructor; unfold digit; lia].
    + apply V_lit. apply (digits_number [49]); [discriminate|repeat constructor; unfold digit; lia].
  - vm_compute. split; discriminate.
  - vm_compute. reflexivity.
Qed.
Print Assumptions c110_overflow_refuted.

(** ** C111.  Full statement: [fold_string e = string_means e] for every [e].  Missing: literals
    that contain a NUL byte. *)
Theorem c111_concatenation_partial e :
  (forall s, In s (literals e) -> ~ In 0 s) -> fold_string e = string_means e.
Proof. intros H. now apply fold_string_ok. Qed.
Print Assumptions c111_concatenation_partial.

Example c111_example :
  fold_string (SCat (SLit [104; 105]) (SCat (SLit []) (SLit [33; 10]))) = [104; 105; 33; 10].
Proof.
  rewrite c111_concatenation_partial; [reflexivity|].
  intros s [<-|[<-|[<-|[]]]]; cbn; intros H; decompose [or] H; try lia; assumption.
Qed.

(** The text after a NUL is lost: "a\0b" + "c" is "ac". *)
Theorem c111_nul_refuted : exists e, fold_string e <> string_means e.
Proof. exists (SCat (SLit [97; 0; 98]) (SLit [99])). vm_compute. discriminate. Qed.
Print Assumptions c111_nul_refuted.
