(** C115: moving instructions inside a block. *)
From Coq Require Import Permutation.
From Verif Require Import Base Sched_model Sched_spec Sched_proof Sched_deps Sched_sound.
Local Open Scope nat_scope.

(** Whatever the block, scheduling ends, keeps every instruction exactly once and never carries one
    over a call, a label, a branch or a return. *)
Theorem c115_keeps_instructions : forall ops, exists out, block ops = Ok out /\ moved ops out.
Proof. intros ops. destruct (block_ok ops) as (out & E & M & _). eauto. Qed.
Print Assumptions c115_keeps_instructions.

(** The full statement, without [orderly], is false: see the refutations below. *)
Theorem c115_same_effect_partial : forall ops, orderly ops = true ->
  exists out, block ops = Ok out /\
    forall V (W : world V), proper W -> forall s, same (run W out s) (run W ops s).
Proof. intros ops H. destruct (block_ok ops) as (out & E & _ & S). exists out. split; [exact E|]. exact (S H). Qed.
Print Assumptions c115_same_effect_partial.

(** A block that meets the condition and is changed: two loads, a division through the registers 0
    and 2, a store, a call, and an instruction sequence after it. *)
Definition mv (a b : operand) : op := mk_op (Other 0) (Some a) None None (Some b) false.
Definition sample : list op :=
  [ mv (OInd [1]) (OVar 10);
    mk_op (AddSub 0) (Some (OVar 10)) (Some (OImm 1)) None (Some (OVar 11)) false;
    mv (OVar 11) (OInd [2]);
    mv (OVar 3) (OReg 0);
    mk_op (Bits 0) (Some (OReg 2)) (Some (OReg 2)) None (Some (OReg 2)) false;
    mk_op (Div 0) (Some (OReg 0)) (Some (OVar 4)) None (Some (ORegs [0; 2])) false;
    mv (OReg 0) (OVar 12);
    mv (OInd [5]) (OVar 13);
    mk_op Call (Some (OSym 0)) None None (Some (OReg 0)) false;
    mv (OReg 0) (OVar 14);
    mk_op (AddSub 0) (Some (OVar 14)) (Some (OVar 12)) None (Some (OVar 15)) false;
    mk_op (Mul 0) (Some (OVar 15)) (Some (OVar 13)) None (Some (OVar 15)) false;
    mk_op (Branch 1) (Some (OVar 15)) (Some (OImm 0)) None None false ].
Example sample_orderly : orderly sample = true.
Proof. reflexivity. Qed.
Example sample_changed : exists out, block sample = Ok out /\ out <> sample.
Proof. eexists. split; [vm_compute; reflexivity|]. unfold sample, mv. discriminate. Qed.

(** The meaning used in the refutations: an instruction with one input copies it, an addition of a
    number adds it; fixed instructions do nothing. *)
Definition copies : world Z := mk_world
  (fun o vs _ => match o_code o, vs with
                 | AddSub _, v :: _ => match o_second o with Some (OImm z) => (v + z)%Z | _ => v end
                 | _, v :: _ => v
                 | _, [] => 0%Z
                 end)
  (fun _ s => s).
Lemma copies_proper : proper copies.
Proof. intros o s t H p. exact (H p). Qed.

(** A global variable named in an instruction is not seen as memory: a read of the global is moved
    before the write it follows.  g := t0; t1 := g; t1 := t1 + 1; y := t1. *)
Definition global_block : list op :=
  [ mv (OVar 0) (OSym 7);
    mv (OSym 7) (OVar 1);
    mk_op (AddSub 0) (Some (OVar 1)) (Some (OImm 1)) None (Some (OVar 1)) false;
    mv (OVar 1) (OVar 2) ].
Theorem c115_global_refuted : exists ops out (W : world Z) s,
  proper W /\ block ops = Ok out /\ ~ same (run W out s) (run W ops s).
Proof.
  exists global_block. eexists. exists copies, (fun p => match p with PVar 0 => 5%Z | _ => 0%Z end).
  split; [exact copies_proper|]. split; [vm_compute; reflexivity|].
  intros H. specialize (H (PVar 2)). vm_compute in H. discriminate.
Qed.
Print Assumptions c115_global_refuted.

(** Only the last reader of a register holds back the next write: a := r; b := r; r := c; d := r. *)
Definition readers_block : list op :=
  [ mv (OReg 0) (OVar 10); mv (OReg 0) (OVar 11); mv (OVar 12) (OReg 0); mv (OReg 0) (OVar 13) ].
Theorem c115_register_readers_refuted : exists ops out (W : world Z) s,
  proper W /\ block ops = Ok out /\
  forallb (fun o => negb (isin PMem (reads o ++ writes o))) ops = true /\
  ~ same (run W out s) (run W ops s).
Proof.
  exists readers_block. eexists. exists copies, (fun p => match p with PVar 12 => 5%Z | _ => 0%Z end).
  split; [exact copies_proper|]. split; [vm_compute; reflexivity|]. split; [reflexivity|].
  intros H. specialize (H (PVar 10)). vm_compute in H. discriminate.
Qed.
Print Assumptions c115_register_readers_refuted.
