(** C128: ULEB128 fields are relocated in place (the RISC-V linker). *)
From Verif Require Import Base Uleb_model Uleb_spec Uleb_proof.

(** A SET and SUB pair leaves the difference in the field, which keeps its length; nothing behind it changes. *)
Theorem c128_pair : forall v w bs rest s a s' a',
  field v w bs -> fits v w -> u64 s -> u64 (s + a) -> u64 s' -> u64 (s' - a') ->
  exists bs', field ((s + a - (s' - a')) mod room w) w bs'
    /\ apply_pair (bs ++ rest) s a s' a' = (OK, w, bs' ++ rest).
Proof. exact pair_ok. Qed.
Print Assumptions c128_pair.

(** The two relocations one by one. *)
Theorem c128_set : forall v w bs rest s a, field v w bs -> fits v w -> u64 s -> u64 (s + a) ->
  exists bs', field ((s + a) mod room w) w bs' /\ apply (bs ++ rest) false s a = (OK, w, bs' ++ rest).
Proof. exact set_ok. Qed.
Print Assumptions c128_set.
Theorem c128_sub : forall v w bs rest s a, field v w bs -> fits v w -> u64 s -> u64 (s - a) ->
  exists bs', field ((v - (s - a)) mod room w) w bs' /\ apply (bs ++ rest) true s a = (OK, w, bs' ++ rest).
Proof. exact sub_ok. Qed.
Print Assumptions c128_sub.

(** Anything else is refused, and a refusal changes no byte: success means that there is a field of at most 64 bits
    and that both operands are in range. *)
Theorem c128_refused : forall place s a s' a', bytes place -> u64 s -> u64 s' ->
  (exists w place', apply_pair place s a s' a' = (OK, w, place')
     /\ u64 (s + a) /\ u64 (s' - a') /\ exists v bs rest, place = bs ++ rest /\ field v w bs /\ fits v w)
  \/ (exists e w, apply_pair place s a s' a' = (e, w, place) /\ e <> OK
     /\ ~ (u64 (s + a) /\ u64 (s' - a') /\ exists v w bs rest, place = bs ++ rest /\ field v w bs /\ fits v w)).
Proof.
  intros place s a s' a' B S S'.
  assert (OKW : forall w, field_size place 0 = (OK, w) -> exists v bs rest, place = bs ++ rest /\ field v w bs /\ fits v w)
    by (intros w; exact (field_size_field place w B)).
  destruct (apply_pair place s a s' a') as [[e w] place'] eqn:E.
  assert (D : e = OK \/ e <> OK) by (destruct e; [now left|right; discriminate..]).
  destruct D as [->|D].
  - left. exists w, place'. split; [reflexivity|]. unfold apply_pair in E.
    destruct (field_size place 0) as [[] w0] eqn:F; try discriminate E.
    destruct (OKW w0 eq_refl) as (v & bs & rest & P & Fd & T). subst place.
    pose proof (field_length _ _ _ Fd) as L.
    replace (firstn w0 (bs ++ rest)) with (bs ++ []) in E by (rewrite <- L, firstn_app, firstn_all, Nat.sub_diag; reflexivity).
    cbv zeta in E. assert (A : u64 (s + a)).
    { unfold apply in E at 1. rewrite (field_head v w0 bs [] 0 Fd T eq_refl), (add_signed_ok s a S) in E.
      destruct ((0 <=? s + a) && (s + a <? 2 ^ 64)) eqn:C; [|discriminate E].
      apply andb_true_iff in C. rewrite Z.leb_le, Z.ltb_lt in C. exact C. }
    destruct (set_ok v w0 bs [] s a Fd T S A) as (b1 & F1 & E1). rewrite E1 in E.
    assert (A' : u64 (s' - a')).
    { unfold apply in E. rewrite (field_head _ w0 b1 [] 0 F1 (fits_room _ w0 (proj1 T)) eq_refl), (subtract_signed_ok s' a' S') in E.
      destruct ((0 <=? s' - a') && (s' - a' <? 2 ^ 64)) eqn:C; [|discriminate E].
      apply andb_true_iff in C. rewrite Z.leb_le, Z.ltb_lt in C. exact C. }
    destruct (sub_ok _ w0 b1 [] s' a' F1 (fits_room _ w0 (proj1 T)) S' A') as (b2 & F2 & E2). rewrite E2 in E.
    injection E as <- _. split; [exact A|]. split; [exact A'|]. exists v, bs, rest. now split.
  - right. exists e, w. split; [|split; [exact D|]].
    + f_equal. assert (X : place' = place \/ place' <> place) by (destruct (list_eq_dec Z.eq_dec place' place); auto).
      destruct X as [X|X]; [exact X|]. pose proof (pair_refused place s a s' a') as R. rewrite E in R. cbn [fst snd] in R.
      destruct (R X) as (w0 & R0). congruence.
    + intros (A & A' & v & w0 & bs & rest & -> & F & T).
      destruct (pair_ok v w0 bs rest s a s' a' F T S A S' A') as (bs' & _ & E'). congruence.
Qed.
Print Assumptions c128_refused.

(** The RISC-V ABI document has SUB_ULEB128 subtract the symbol plus its addend; the addend has the wrong sign here. *)
Theorem c128_addend_refuted : exists place s s' a', bytes place /\ u64 s /\ u64 s' /\ u64 (s' + a') /\
  apply_pair place s 0 s' a' = (OK, 1%nat, [11]) /\ s - (s' + a') = 9.
Proof.
  exists [0], 20, 10, 1. assert (P : 2 ^ 64 = 18446744073709551616) by reflexivity. unfold u64. rewrite P.
  split; [constructor; [lia|constructor]|]. split; [lia|]. split; [lia|]. split; [lia|]. split; reflexivity.
Qed.
Print Assumptions c128_addend_refuted.

(** a field of two bytes with value 300, one byte behind it *)
Example field_300 : field 300 2 [172; 2] /\ fits 300 2.
Proof.
  split; [|split; [lia|reflexivity]]. change 300 with (44 + 128 * 2). change 172 with (44 + 128).
  constructor; [lia|]. constructor. lia.
Qed.
(** the symbols are far above what the field can hold, their difference is not *)
Example pair_example : apply_pair [172; 2; 99] 65536 8 65000 0 = (OK, 2%nat, [160; 4; 99]) /\ 160 - 128 + 128 * 4 = 65536 + 8 - 65000.
Proof. split; reflexivity. Qed.
Example truncated_example : apply_pair [128; 129] 5 0 3 0 = (TRUNCATED, 0%nat, [128; 129]).
Proof. reflexivity. Qed.
Example overflow_example : apply_pair [0; 7] 5 (-6) 3 0 = (SET_OVERFLOW, 1%nat, [0; 7]).
Proof. reflexivity. Qed.
