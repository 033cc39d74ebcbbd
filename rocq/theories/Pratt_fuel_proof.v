(* The expression parser model does not depend on its fuel and never runs out. *)
From Coq Require Import ZArith List Bool Lia.
From Verif Require Import Base Pratt_model Pratt_eqs.
Import ListNotations.
Local Open Scope Z_scope.

Section F.
Variable ta : tree -> list tok -> bool.

Definition le_res {A} (a b : res A) : Prop := a = NoFuel \/ a = b.

Lemma le_refl {A} (a : res A) : le_res a a. Proof. right. reflexivity. Qed.

Lemma le_bind {A B} (a a' : res A) (k k' : A -> res B) :
  le_res a a' -> (forall x, le_res (k x) (k' x)) -> le_res (bind a k) (bind a' k').
Proof.
  intros [-> | ->] Hk; [left; reflexivity|].
  destruct a'; cbn [bind]; try apply le_refl. apply Hk.
Qed.

Lemma mono : forall n,
  (forall p ts, le_res (expr ta n p ts) (expr ta (S n) p ts)) /\
  (forall p e ts, le_res (loop ta n p e ts) (loop ta (S n) p e ts)) /\
  (forall ts, le_res (prefix ta n ts) (prefix ta (S n) ts)) /\
  (forall e ts, le_res (infix ta n e ts) (infix ta (S n) e ts)) /\
  (forall c sp ts, le_res (seq ta n c sp ts) (seq ta (S n) c sp ts)) /\
  (forall e a ts, le_res (slice_end ta n e a ts) (slice_end ta (S n) e a ts)).
Proof.
  induction n as [|n IH]; [repeat split; intros; left; reflexivity|].
  destruct IH as (I1 & I2 & I3 & I4 & I5 & I6).
  repeat match goal with |- _ /\ _ => split end.
  - intros p ts. change (le_res (bind (prefix ta n ts) (fun q => loop ta n p (fst q) (snd q)))
      (bind (prefix ta (S n) ts) (fun q => loop ta (S n) p (fst q) (snd q)))).
    apply le_bind; auto.
  - intros p e ts.
    change (le_res (let ts := infix_token ta e ts in if p <=? prec ts
       then bind (infix ta n e ts) (fun q => loop ta n p (fst q) (snd q)) else Ok (e, ts))
      (let ts := infix_token ta e ts in if p <=? prec ts
       then bind (infix ta (S n) e ts) (fun q => loop ta (S n) p (fst q) (snd q)) else Ok (e, ts))).
    cbv zeta. destruct (_ <=? _); [|apply le_refl]. apply le_bind; auto.
  - intros ts. remember (S n) as m eqn:Em.
    rewrite prefix_S, Em, prefix_S, <- Em.
    repeat first [ apply le_refl | solve [auto] | apply le_bind; [solve [auto]|intros]
      | match goal with |- context [match ?x with _ => _ end] => destruct x end ].
  - intros e ts. remember (S n) as m eqn:Em.
    rewrite infix_S, Em, infix_S, <- Em.
    repeat first [ apply le_refl | solve [auto] | apply le_bind; [solve [auto]|intros]
      | match goal with |- context [match ?x with _ => _ end] => destruct x end ].
  - intros c sp ts. remember (S n) as m eqn:Em.
    rewrite seq_S, Em, seq_S, <- Em. cbv zeta.
    repeat first [ apply le_refl | solve [auto] | apply le_bind; [solve [auto]|intros]
      | match goal with |- context [match ?x with _ => _ end] => destruct x end ].
  - intros e a ts. remember (S n) as m eqn:Em.
    rewrite slice_end_S, Em, slice_end_S, <- Em.
    repeat first [ apply le_refl | solve [auto] | apply le_bind; [solve [auto]|intros]
      | match goal with |- context [match ?x with _ => _ end] => destruct x end ].
Qed.

Lemma expr_mono n k p ts : le_res (expr ta n p ts) (expr ta (n + k) p ts).
Proof.
  induction k; [replace (n + 0)%nat with n by lia; apply le_refl|].
  replace (n + S k)%nat with (S (n + k)) by lia.
  destruct IHk as [IH | IH]; [left; exact IH|]. rewrite IH.
  apply (proj1 (mono (n + k))).
Qed.
Lemma loop_mono n k p e ts : le_res (loop ta n p e ts) (loop ta (n + k) p e ts).
Proof.
  induction k; [replace (n + 0)%nat with n by lia; apply le_refl|].
  replace (n + S k)%nat with (S (n + k)) by lia.
  destruct IHk as [IH | IH]; [left; exact IH|]. rewrite IH.
  apply (proj1 (proj2 (mono (n + k)))).
Qed.
Lemma seq_mono n k c sp ts : le_res (seq ta n c sp ts) (seq ta (n + k) c sp ts).
Proof.
  induction k; [replace (n + 0)%nat with n by lia; apply le_refl|].
  replace (n + S k)%nat with (S (n + k)) by lia.
  destruct IHk as [IH | IH]; [left; exact IH|]. rewrite IH.
  apply (mono (n + k)).
Qed.

Lemma prefix_mono n k ts : le_res (prefix ta n ts) (prefix ta (n + k) ts).
Proof.
  induction k; [replace (n + 0)%nat with n by lia; apply le_refl|].
  replace (n + S k)%nat with (S (n + k)) by lia.
  destruct IHk as [IH | IH]; [left; exact IH|]. rewrite IH.
  apply (mono (n + k)).
Qed.
Lemma infix_mono n k e ts : le_res (infix ta n e ts) (infix ta (n + k) e ts).
Proof.
  induction k; [replace (n + 0)%nat with n by lia; apply le_refl|].
  replace (n + S k)%nat with (S (n + k)) by lia.
  destruct IHk as [IH | IH]; [left; exact IH|]. rewrite IH.
  apply (mono (n + k)).
Qed.
Lemma prefix_up n m ts r : (n <= m)%nat -> prefix ta n ts = Ok r -> prefix ta m ts = Ok r.
Proof.
  intros H E. destruct (prefix_mono n (m - n) ts) as [F | F]; [congruence|].
  replace (n + (m - n))%nat with m in F by lia. congruence.
Qed.
Lemma infix_up n m e ts r : (n <= m)%nat -> infix ta n e ts = Ok r -> infix ta m e ts = Ok r.
Proof.
  intros H E. destruct (infix_mono n (m - n) e ts) as [F | F]; [congruence|].
  replace (n + (m - n))%nat with m in F by lia. congruence.
Qed.
Lemma expr_up n m p ts r : (n <= m)%nat -> expr ta n p ts = Ok r -> expr ta m p ts = Ok r.
Proof.
  intros H E. destruct (expr_mono n (m - n) p ts) as [F | F]; [congruence|].
  replace (n + (m - n))%nat with m in F by lia. congruence.
Qed.
Lemma loop_up n m p e ts r : (n <= m)%nat -> loop ta n p e ts = Ok r -> loop ta m p e ts = Ok r.
Proof.
  intros H E. destruct (loop_mono n (m - n) p e ts) as [F | F]; [congruence|].
  replace (n + (m - n))%nat with m in F by lia. congruence.
Qed.
Lemma seq_up n m c sp ts r : (n <= m)%nat -> seq ta n c sp ts = Ok r -> seq ta m c sp ts = Ok r.
Proof.
  intros H E. destruct (seq_mono n (m - n) c sp ts) as [F | F]; [congruence|].
  replace (n + (m - n))%nat with m in F by lia. congruence.
Qed.

(* [ok_len b x]: not out of fuel, and less than b tokens are left *)
Definition ok_len {A} (b : nat) (x : res (A * list tok)) : Prop :=
  match x with NoFuel => False | Ok q => (S (length (snd q)) <= b)%nat | _ => True end.

Lemma ok_len_bind {A B} b b' (x : res (A * list tok)) (k : A * list tok -> res (B * list tok)) :
  ok_len b x -> (forall q, (S (length (snd q)) <= b)%nat -> ok_len b' (k q)) ->
  ok_len b' (bind x k).
Proof. intros Hx Hk. destruct x; cbn [bind ok_len] in *; auto. Qed.

Lemma infix_token_len e ts : (length (infix_token ta e ts) <= length ts)%nat.
Proof.
  unfold infix_token. destruct ts as [|[] r]; cbn; try lia.
  - destruct (ta e r); cbn; lia.
  - destruct r as [|[] r]; cbn; lia.
Qed.

Lemma prec_pos ts : 1 <= prec ts -> (1 <= length ts)%nat.
Proof. destruct ts; cbn; unfold PREC_NULL; lia. Qed.

Lemma eat_len k ts r : eat k ts = Some r -> length ts = S (length r).
Proof. destruct ts as [|t ts]; [discriminate|]. cbn [eat]. destruct (is_punct k t); [|discriminate]. injection 1 as <-. reflexivity. Qed.
Lemma eat_ident_len ts s r : eat_ident ts = Some (s, r) -> length ts = S (length r).
Proof. destruct ts as [|[] ts]; try discriminate. cbn [eat_ident]. injection 1 as _ <-. reflexivity. Qed.
Lemma eat_type_len ts s r : eat_type ts = Some (s, r) -> length ts = S (length r).
Proof. destruct ts as [|[] ts]; try discriminate. cbn [eat_type]. injection 1 as _ <-. reflexivity. Qed.
Lemma eat_number_len ts k s r : eat_number ts = Some (k, s, r) -> length ts = S (length r).
Proof. destruct ts as [|[] ts]; try discriminate. cbn [eat_number]. destruct k0; try discriminate; injection 1 as _ _ <-; reflexivity. Qed.

Lemma eat_name_len ts s r :
  match eat_ident ts with None => eat_type ts | x => x end = Some (s, r) -> length ts = S (length r).
Proof.
  destruct (eat_ident ts) as [q|] eqn:E; intros H.
  - injection H as ->. exact (eat_ident_len _ _ _ E).
  - exact (eat_type_len _ _ _ H).
Qed.
Lemma eat_sp_len (sp : bool) ts r :
  (if sp then eat QEllipsis ts else None) = Some r -> length ts = S (length r).
Proof. destruct sp; [apply eat_len|discriminate]. Qed.

Ltac lens := repeat match goal with
  | H : eat _ _ = Some _ |- _ => apply eat_len in H
  | H : eat_ident _ = Some _ |- _ => apply eat_ident_len in H
  | H : match eat_ident _ with _ => _ end = Some _ |- _ => apply eat_name_len in H
  | H : (if _ then eat _ _ else _) = Some _ |- _ => apply eat_sp_len in H
  | H : eat_type _ = Some _ |- _ => apply eat_type_len in H
  | H : eat_number _ = Some _ |- _ => apply eat_number_len in H
  end.
Ltac slv := lens; cbn [length fst snd] in *; lia.

Lemma never_out : forall n,
  (forall p ts, 1 <= p -> (4 * length ts + 2 <= n)%nat -> ok_len (length ts) (expr ta n p ts)) /\
  (forall p e ts, 1 <= p -> (4 * length ts + 1 <= n)%nat -> ok_len (S (length ts)) (loop ta n p e ts)) /\
  (forall ts, (4 * length ts + 1 <= n)%nat -> ok_len (length ts) (prefix ta n ts)) /\
  (forall e ts, (1 <= length ts)%nat -> (4 * length ts <= n)%nat -> ok_len (length ts) (infix ta n e ts)) /\
  (forall c sp ts, (4 * length ts + 3 <= n)%nat -> ok_len (length ts) (seq ta n c sp ts)) /\
  (forall e a ts, (4 * length ts + 3 <= n)%nat -> ok_len (length ts) (slice_end ta n e a ts)).
Proof.
  induction n as [|n IH].
  { repeat split; intros; try (destruct ts; cbn [length] in *; lia). }
  destruct IH as (I1 & I2 & I3 & I4 & I5 & I6).
  assert (E : forall p ts b, 1 <= p -> (4 * length ts + 2 <= n)%nat -> (length ts <= b)%nat ->
     ok_len b (expr ta n p ts)).
  { intros p ts b Hp Hn Hb. specialize (I1 p ts Hp Hn). destruct (expr ta n p ts); cbn [ok_len] in *; auto. lia. }
  assert (Sq : forall c sp ts b, (4 * length ts + 3 <= n)%nat -> (length ts <= b)%nat ->
     ok_len b (seq ta n c sp ts)).
  { intros c sp ts b Hn Hb. specialize (I5 c sp ts Hn). destruct (seq ta n c sp ts); cbn [ok_len] in *; auto. lia. }
  assert (Sl : forall e a ts b, (4 * length ts + 3 <= n)%nat -> (length ts <= b)%nat ->
     ok_len b (slice_end ta n e a ts)).
  { intros e a ts b Hn Hb. specialize (I6 e a ts Hn). destruct (slice_end ta n e a ts); cbn [ok_len] in *; auto. lia. }
  Ltac go E Sq Sl := repeat first
      [ solve [cbn [ok_len snd fst]; trivial; slv]
      | match goal with |- ok_len _ (slice_end _ _ _ _ _) => apply Sl; slv end
      | match goal with |- ok_len _ (bind (expr _ _ (prec_tok ?t + 1) ?r) _) =>
         apply (ok_len_bind (length r)); [apply E; [destruct t; cbn; lia|slv|slv]|intros [? ?] ?; cbn [fst snd] in *] end
      | match goal with |- ok_len _ (bind (expr _ _ _ ?r) _) =>
         apply (ok_len_bind (length r)); [apply E; [unfold PREC_ASSIGN, PREC_UNARY, PREC_TERNARY; lia|slv|slv]|intros [? ?] ?; cbn [fst snd] in *] end
      | match goal with |- ok_len _ (bind (seq _ _ _ _ ?r) _) =>
         apply (ok_len_bind (length r)); [apply Sq; slv|intros [[? ?] ?] ?; cbn [fst snd] in *] end
      | match goal with |- ok_len _ (match ?x with _ => _ end) => let H := fresh in destruct x eqn:H end
      | match goal with p : (_ * _)%type |- _ => destruct p end ].
  repeat match goal with |- _ /\ _ => split end.
  - intros p ts Hp Hn. rewrite expr_S. apply (ok_len_bind (length ts)); [apply I3; lia|].
    intros q Hq. specialize (I2 p (fst q) (snd q) Hp).
    assert (Hm : (4 * length (snd q) + 1 <= n)%nat) by lia. specialize (I2 Hm).
    destruct (loop ta n p (fst q) (snd q)); cbn [ok_len] in *; try exact I2. lia.
  - intros p e ts Hp Hn. rewrite loop_S. cbv zeta. pose proof (infix_token_len e ts) as Hl.
    destruct (p <=? prec (infix_token ta e ts)) eqn:Hc; [|cbn [ok_len snd]; lia].
    apply Z.leb_le in Hc. pose proof (prec_pos (infix_token ta e ts) ltac:(lia)).
    apply (ok_len_bind (length (infix_token ta e ts))); [apply I4; lia|].
    intros q Hq. specialize (I2 p (fst q) (snd q) Hp).
    assert (Hm : (4 * length (snd q) + 1 <= n)%nat) by lia. specialize (I2 Hm).
    destruct (loop ta n p (fst q) (snd q)); cbn [ok_len] in *; try exact I2. lia.
  - intros ts Hn. rewrite prefix_S. destruct ts as [|t r]; [exact Logic.I|].
    destruct (prefix_of t) as [| | | |u|]; go E Sq Sl.
    destruct u; try discriminate. match goal with H : _ = Some (_, _, _) |- _ => cbv beta iota in H; apply eat_number_len in H end. cbn [ok_len snd length] in *; lia.
  - intros e ts Hlen Hn. rewrite infix_S. destruct ts as [|t r]; [exact Logic.I|].
    destruct (infix_of t); go E Sq Sl.
  - intros c sp ts Hn. rewrite seq_S. go E Sq Sl.
  - intros e a ts Hn. rewrite slice_end_S. go E Sq Sl.
Qed.

Lemma parse_of_expr_any n ts x : expr ta n PREC_ASSIGN ts = x -> x <> NoFuel -> parse ta ts = x.
Proof.
  intros E Hx. unfold parse. set (m := (8 * S (length ts))%nat).
  pose proof (proj1 (never_out m) PREC_ASSIGN ts) as H.
  unfold PREC_ASSIGN in *. specialize (H ltac:(lia) ltac:(unfold m; lia)).
  destruct (le_lt_dec n m) as [L | L]; [|].
  { destruct (expr_mono n (m - n) 1 ts) as [F | F]; [congruence|].
    replace (n + (m - n))%nat with m in F by lia. congruence. }
  destruct (expr_mono m (n - m) 1 ts) as [F | F]; [rewrite F in H; contradiction|].
  replace (m + (n - m))%nat with n in F by lia. congruence.
Qed.

Lemma parse_of_expr n ts r : expr ta n PREC_ASSIGN ts = Ok r -> parse ta ts = Ok r.
Proof. intros E. apply (parse_of_expr_any n); [exact E|discriminate]. Qed.

Lemma parse_not_out ts : parse ta ts <> NoFuel.
Proof.
  unfold parse. intros E.
  pose proof (proj1 (never_out (8 * S (length ts))%nat) PREC_ASSIGN ts ltac:(unfold PREC_ASSIGN; lia) ltac:(lia)) as H.
  rewrite E in H. exact H.
Qed.
End F.
