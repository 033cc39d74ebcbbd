(** Properties of the peephole passes. *)
From Verif Require Import Base Peep_model Peep_spec Peep_proof Peep_arm.
From Flocq Require Import IEEE754.Bits IEEE754.BinarySingleNaN IEEE754.Binary.
Local Open Scope nat_scope.

(** C118. On amd64 the block behaves as before. *)
Theorem c118_amd64_same : forall {M} (W : world M) fl live ops, forallb (typed fl) ops = true ->
  forall s, looks_same live (run W (amd64_block live ops) s) (run W ops s).
Proof. intros M W. exact (amd64_ok W). Qed.
Print Assumptions c118_amd64_same.

Definition v (x : nat) : option operand := Some (OVar x).
Definition i (z : Z) : option operand := Some (OImm z).
Definition ins (c : opcode) (a b out : option operand) : op := mk_op c a b None out [] false.
Definition fins (c : opcode) (a b out : option operand) : op := mk_op c a b None out [] true.

(** x2 = x0 * 4; x3 = x2 + 7; x4 = x0 * 2; x5 = x4; x6 = x5 - 1: two LEAs. *)
Definition address_code : list op :=
  [ins Mul (v 0) (i 4) (v 2); ins Add (v 2) (i 7) (v 3); ins Mul (v 0) (i 2) (v 4); ins Move (v 4) None (v 5); ins Sub (v 5) (i 1) (v 6)].
Example c118_example : forallb (typed (fun _ => false)) address_code = true /\
  amd64_block [3; 6] address_code =
    [ins Lea (Some (OInd None (Some 0) 4 7)) None (v 3); ins Lea (Some (OInd (Some 0) (Some 0) 1 (-1))) None (v 6)] /\
  amd64_block [2; 3; 6] address_code <> amd64_block [3; 6] address_code.
Proof. split; [reflexivity|]. split; [reflexivity|]. vm_compute. discriminate. Qed.

(** C119. On arm64 one round over the block leaves its behaviour as it was. *)
Theorem c119_one_round_same : forall {M} (W : world M) fl cv live n ops,
  fused_exact W -> ok_block fl cv n ops -> (forall x, In x live -> x < n) ->
  exists l c n', arm64_round (can_remove live (fun x => occ x ops)) (length ops) n ops = Ok (l, c, n') /\
    forall s, looks_same live (run W l s) (run W ops s).
Proof. intros M W. exact (arm64_one_round W). Qed.
Print Assumptions c119_one_round_same.

(** The whole pass does not fail and leaves the behaviour of the block as it was, if nothing is doubled
    in it and fused float instructions are exact.  The full statement has neither condition. *)
Theorem c119_arm64_same_partial : forall {M} (W : world M) fl cv live n ops,
  fused_exact W -> ok_block fl cv n ops -> (forall x, In x live -> x < n) -> no_double ops = true ->
  exists l, arm64_block live n ops = Ok l /\ forall s, looks_same live (run W l s) (run W ops s).
Proof. intros M W. exact (arm64_ok W). Qed.
Print Assumptions c119_arm64_same_partial.

(** Integers only: r = a*b + c, moved to register 0; then e = d - a*b. *)
Definition int_code : list op :=
  [ins Mul (v 0) (v 1) (v 4); ins Add (v 4) (v 2) (v 5); ins Move (v 5) None (Some (OReg 0)); ins Mul (v 0) (v 1) (v 6); ins Sub (v 3) (v 6) (v 7)].
Definition zero_world : world unit :=
  mk_world (fun _ _ => 0%Z) (fun _ _ m => m) (fun _ _ => 0%Z) (fun _ _ m => m) (fun _ _ => 0%Z) (fun _ _ m => m) (fun _ _ => 0%Z) (fun _ _ m => m)
    (fun _ _ => 0%Z) (fun _ _ => 0%Z) (fun _ _ => 0%Z) (fun _ _ _ => 0%Z) (fun _ _ _ => 0%Z) (fun _ _ _ => 0%Z) (fun _ _ _ _ _ => 0%Z) (fun _ _ m => (0%Z, m)).
Lemma zero_exact : fused_exact zero_world.
Proof. constructor; intros; reflexivity. Qed.
Example c119_example : ok_block (fun _ => false) (fun _ => false) 8 int_code /\ no_double int_code = true /\
  arm64_block [7] 8 int_code =
    Ok [mk_op Madd (v 0) (v 1) (v 2) (v 5) [] false; ins Move (v 5) None (Some (OReg 0)); mk_op Msub (v 0) (v 1) (v 3) (v 7) [] false].
Proof. repeat split. Qed.
(** A float one: x4 = x0 * x1; x5 = x4 - 1.5, the constant goes to a temporary. *)
Example c119_example_float : ok_block (fun _ => true) (fun _ => false) 6 [fins Mul (v 0) (v 1) (v 4); fins Sub (v 4) (Some (OFimm 4609434218613702656)) (v 5)] /\
  arm64_block [5] 6 [fins Mul (v 0) (v 1) (v 4); fins Sub (v 4) (Some (OFimm 4609434218613702656)) (v 5)] =
    Ok [fins Move (Some (OFimm 13832806255468478464)) None (v 6); mk_op Fmadd (v 0) (v 1) (v 6) (v 5) [] true].
Proof. repeat split. Qed.

(** Without the first condition it is false: a * b * 2 reads a variable nothing assigns to.  The doubling
    turns one use of the product into two, the table of uses still says one. *)
Definition double_code : list op := [ins Mul (v 0) (v 1) (v 2); ins Move (i 2) None (v 3); ins Mul (v 2) (v 3) (v 4)].
Theorem c119_double_refuted : exists live n ops l, ok_block (fun _ => false) (fun _ => false) n ops /\ (forall x, In x live -> x < n) /\
  arm64_block live n ops = Ok l /\
  forall (M : Type) (W : world M) (m : M), exists s, mach s = m /\ ~ looks_same live (run W l s) (run W ops s).
Proof.
  exists [4], 5, double_code. eexists. split; [repeat split|]. split; [intros x [<-|[]]; lia|]. split; [reflexivity|].
  intros M W m. exists (mk_state (fun x => match x with 0 => 3%Z | 1 => 5%Z | 2 => 100%Z | _ => 0%Z end) m). split; [reflexivity|].
  intros (_ & H). specialize (H 4 (or_introl eq_refl)). vm_compute in H. discriminate.
Qed.
Print Assumptions c119_double_refuted.

(** Without the second it is false too: with IEEE double arithmetic a * b + c gives another number, as
    the fused instruction rounds once. *)
Definition ieee_world : world unit :=
  let f2 (op : binary64 -> binary64 -> binary64) a b := bits_of_b64 (op (b64_of_bits a) (b64_of_bits b)) in
  let fma a b c := bits_of_b64 (b64_fma mode_NE (b64_of_bits a) (b64_of_bits b) (b64_of_bits c)) in
  mk_world (fun _ _ => 0%Z) (fun _ _ m => m) (fun _ _ => 0%Z) (fun _ _ m => m) (fun _ _ => 0%Z) (fun _ _ m => m) (fun _ _ => 0%Z) (fun _ _ m => m)
    (f2 (b64_plus mode_NE)) (f2 (b64_minus mode_NE)) (f2 (b64_mult mode_NE)) fma (fun a b c => fma (fneg a) b c) (fun a b c => fma a b (fneg c))
    (fun _ _ _ _ _ => 0%Z) (fun _ _ m => (0%Z, m)).
Theorem c119_fused_refuted : exists live n ops l s, ok_block (fun _ => true) (fun _ => false) n ops /\ (forall x, In x live -> x < n) /\
  no_double ops = true /\ arm64_block live n ops = Ok l /\ ~ looks_same live (run ieee_world l s) (run ieee_world ops s).
Proof.
  (* a = b = 1 + 2^-30, c = - (1 + 2^-29) *)
  exists [4], 5, [fins Mul (v 0) (v 1) (v 2); fins Add (v 2) (v 3) (v 4)]. eexists.
  exists (mk_state (fun x => match x with 0 | 1 => 4607182418804211712%Z | 3 => 13830554455663181824%Z | _ => 0%Z end) tt).
  split; [repeat split|]. split; [intros x [<-|[]]; lia|]. split; [reflexivity|]. split; [reflexivity|].
  intros (_ & H). specialize (H 4 (or_introl eq_refl)). vm_compute in H. discriminate.
Qed.
Print Assumptions c119_fused_refuted.
