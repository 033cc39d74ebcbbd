(** C99: jumps and calls in amd64 machine code go where the assembly says. *)
From Coq Require Import ZArith List Bool Lia.
From Verif Require Import Base Jumps_model Jumps_spec Jumps_proof.
Import ListNotations.
Open Scope Z_scope.

(** Every list of instructions in which no name is defined twice can be laid
    out, one run of bytes for each instruction. *)
Theorem C99_assembling_always_succeeds : forall l, one_definition l ->
  exists chunks rels, assemble l = Ok (chunks, rels) /\ length chunks = length l.
Proof. exact assemble_total. Qed.
Print Assumptions C99_assembling_always_succeeds.

(** Instructions that are not jumps keep their bytes, and a label takes none. *)
Theorem C99_other_instructions_are_kept : forall l chunks rels i x,
  assemble l = Ok (chunks, rels) -> one_definition l -> nth_error l i = Some x ->
  match x with
  | Label _ => nth_error chunks i = Some []
  | Plain b | Data b _ _ _ => nth_error chunks i = Some b
  | Jump _ _ => True
  end.
Proof. exact others_kept. Qed.
Print Assumptions C99_other_instructions_are_kept.

(** The processor, having reached the jump, goes to the instruction after the
    label, for every text below 2 GiB.  What is missing from the full
    statement: the last two hypotheses (see the two refutations below). *)
Theorem C99_jumps_reach_their_labels_partial : forall l chunks rels i j o n,
  assemble l = Ok (chunks, rels) -> one_definition l ->
  Z.of_nat (length (concat chunks)) < 2 ^ 31 ->
  nth_error l i = Some (Jump o n) -> nth_error l j = Some (Label n) ->
  not_taken_before l i n -> pos chunks i <> pos chunks j ->
  exists c, nth_error chunks i = Some c /\ goes_to c (pos chunks i) = Some (o, pos chunks j).
Proof. exact jump_lands. Qed.
Print Assumptions C99_jumps_reach_their_labels_partial.

(** A jump to a name from elsewhere gets an entry for the linker, and the linked
    jump goes to the address of the name, wherever the text and the name are
    put within 2 GiB of each other. *)
Theorem C99_jumps_reach_other_modules_partial : forall l chunks rels i o n,
  assemble l = Ok (chunks, rels) -> one_definition l ->
  nth_error l i = Some (Jump o n) -> ~ defined l n -> not_taken_before l i n ->
  exists c r, nth_error chunks i = Some c /\ In r rels /\ r_sym r = n /\
    (forall base sym,
       - 2 ^ 31 <= sym - (base + pos chunks i + Z.of_nat (length c)) < 2 ^ 31 ->
       exists c', link_jump base c r (pos chunks i) sym = Ok c' /\
         goes_to c' (base + pos chunks i) = Some (o, sym)).
Proof. exact external_jump. Qed.
Print Assumptions C99_jumps_reach_other_modules_partial.

(** The entries for the linker are exactly those of the data references and of
    the jumps to names from elsewhere, once each. *)
Theorem C99_entries_for_the_linker_partial : forall l chunks rels,
  assemble l = Ok (chunks, rels) -> one_definition l ->
  (forall i o n, nth_error l i = Some (Jump o n) -> not_taken_before l i n) ->
  rels = data_refs 0 l chunks ++ jump_refs l 0 l chunks.
Proof. exact linker_entries. Qed.
Print Assumptions C99_entries_for_the_linker_partial.

(** a function that loops, calls the next one and one from elsewhere *)
Definition prog : list item :=
  [ Label 0; Plain [0x55]; Label 1; Plain [0x90; 0x90]; Jump (Jcc CNE) 1;
    Jump Call 3; Data [0x48; 0x8D; 0x05; 0; 0; 0; 0] 3 false 4; Jump Call 5;
    Jump Jmp 2; Plain (repeat 0x90 200); Label 2; Plain [0x5D; 0xC3];
    Label 3; Jump (Jcc CG) 1; Plain [0xC3] ].
Example prog_one_definition : one_definition prog.
Proof.
  apply one_definition_nodup. cbn. repeat (constructor; cbn; [intuition discriminate|]). constructor.
Qed.
Example prog_taken : not_taken_before prog 4 1 /\ not_taken_before prog 5 3 /\ not_taken_before prog 7 5.
Proof.
  split; [|split].
  - left. exists 2%nat. split; [lia|reflexivity].
  - right. intros j b k t L. do 5 (destruct j as [|j]; [discriminate|]). lia.
  - right. intros j b k t L. do 6 (destruct j as [|j]; [discriminate|]).
    destruct j as [|j]; [discriminate|]. lia.
Qed.
Example prog_elsewhere : nth_error prog 7 = Some (Jump Call 5) /\ ~ defined prog 5.
Proof. split; [reflexivity|]. rewrite <- is_defined_iff. vm_compute. discriminate. Qed.
Example prog_out : exists chunks rels, assemble prog = Ok (chunks, rels) /\
  Z.of_nat (length (concat chunks)) = 236 /\
  nth_error chunks 4 = Some [0x75; 0xFC] /\ pos chunks 4 = 3 /\ pos chunks 2 = 1 /\
  nth_error chunks 5 = Some [0xE8; 219; 0; 0; 0] /\ pos chunks 5 = 5 /\ pos chunks 12 = 229 /\
  nth_error chunks 13 = Some [0x0F; 0x8F; 0x16; 0xFF; 0xFF; 0xFF] /\
  rels = [Rela 13 4 (-4) false; Rela 18 5 (-4) false].
Proof. do 2 eexists. split; [vm_compute; reflexivity|]. vm_compute. repeat split. Qed.
Example prog_linked :
  exists c', link_jump 0x401000 [0xE8; 0; 0; 0; 0] (Rela 18 5 (-4) false) 17 0x400800 = Ok c' /\
    goes_to c' (0x401000 + 17) = Some (Call, 0x400800).
Proof. eexists. split; reflexivity. Qed.

(** Refuted: a call to a function whose address was used earlier in the text,
    and that is defined later, goes to the start of the text: the entry made for
    the address is taken for a definition at position 0. *)
Theorem C99_jumps_reach_their_labels_refuted :
  exists l chunks rels i j o n c,
    assemble l = Ok (chunks, rels) /\ one_definition l /\
    nth_error l i = Some (Jump o n) /\ nth_error l j = Some (Label n) /\
    pos chunks i <> pos chunks j /\
    nth_error chunks i = Some c /\ goes_to c (pos chunks i) = Some (o, 0) /\ pos chunks j <> 0.
Proof.
  exists [Label 0; Data [0x48; 0x8D; 0x05; 0; 0; 0; 0] 3 false 1; Jump Call 1; Plain [0xC3]; Label 1; Plain [0xC3]].
  do 2 eexists. exists 2%nat, 4%nat, Call, 1%nat. eexists.
  split; [vm_compute; reflexivity|]. split.
  { apply one_definition_nodup. cbn. repeat (constructor; cbn; [intuition discriminate|]). constructor. }
  repeat split; vm_compute; congruence.
Qed.
Print Assumptions C99_jumps_reach_their_labels_refuted.

(** Refuted: the same for a function from elsewhere; the linker is told nothing
    about the call, which goes to the start of this module's text. *)
Theorem C99_jumps_reach_other_modules_refuted :
  exists l chunks rels i o n c,
    assemble l = Ok (chunks, rels) /\ one_definition l /\
    nth_error l i = Some (Jump o n) /\ ~ defined l n /\
    nth_error chunks i = Some c /\ goes_to c (pos chunks i) = Some (o, 0) /\
    (forall r, In r rels -> r_off r < pos chunks i).
Proof.
  exists [Label 0; Data [0x48; 0x8D; 0x05; 0; 0; 0; 0] 3 false 1; Jump Call 1; Plain [0xC3]].
  do 2 eexists. exists 2%nat, Call, 1%nat. eexists.
  split; [vm_compute; reflexivity|]. split.
  { apply one_definition_nodup. cbn. repeat (constructor; cbn; [intuition discriminate|]). constructor. }
  split; [vm_compute; reflexivity|]. split.
  { intros [H|[H|[H|[H|[]]]]]; discriminate H. }
  split; [reflexivity|]. split; [reflexivity|].
  intros r [<-|[]]. reflexivity.
Qed.
Print Assumptions C99_jumps_reach_other_modules_refuted.

(** Refuted: an instruction that jumps to itself falls through instead. *)
Theorem C99_jump_to_itself_refuted :
  exists l chunks rels i j o n c,
    assemble l = Ok (chunks, rels) /\ one_definition l /\
    nth_error l i = Some (Jump o n) /\ nth_error l j = Some (Label n) /\
    not_taken_before l i n /\
    nth_error chunks i = Some c /\ goes_to c (pos chunks i) = Some (o, pos chunks (S i)) /\
    pos chunks (S i) <> pos chunks j.
Proof.
  exists [Plain [0x55]; Label 0; Jump Jmp 0; Plain [0xC3]].
  do 2 eexists. exists 2%nat, 1%nat, Jmp, 0%nat. eexists.
  split; [vm_compute; reflexivity|]. split.
  { apply one_definition_nodup. cbn. repeat (constructor; cbn; [intuition discriminate|]). constructor. }
  split; [reflexivity|]. split; [reflexivity|]. split.
  { left. exists 1%nat. split; [lia|reflexivity]. }
  repeat split; vm_compute; congruence.
Qed.
Print Assumptions C99_jump_to_itself_refuted.
