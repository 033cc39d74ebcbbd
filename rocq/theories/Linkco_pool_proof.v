(** The node pool: acquire hands out a clean node owned by nobody else, release takes one back. *)
From Verif Require Import Base Base_lemmas Zlist Linkco_model Linkco_spec Linkco_proof.
From Coq Require Import Permutation.

Lemma perm_mid (x : Z) a b c d : Permutation (a ++ b ++ ([x] ++ c) ++ d) ((x :: a) ++ b ++ c ++ d).
Proof.
  cbn [app]. rewrite !(app_assoc a b). apply Permutation_sym.
  apply Permutation_middle.
Qed.
Lemma get_ok s a : a <> 0 -> get s a = Ok (mem s a).
Proof. intro H. unfold get. apply Z.eqb_neq in H. now rewrite H. Qed.
Lemma put_ok s a n : a <> 0 -> put s a n = Ok (set_mem s (upd (mem s) a n)).
Proof. intro H. unfold put. apply Z.eqb_neq in H. now rewrite H. Qed.
Lemma set_nx_ok s a v : a <> 0 -> set_nx s a v = Ok (set_mem s (upd (mem s) a (mk_lk (co (mem s a)) v (pv (mem s a))))).
Proof. intro H. unfold set_nx. rewrite get_ok by auto. cbn [bind]. now rewrite put_ok. Qed.
Lemma set_pv_ok s a v : a <> 0 -> set_pv s a v = Ok (set_mem s (upd (mem s) a (mk_lk (co (mem s a)) (nx (mem s a)) v))).
Proof. intro H. unfold set_pv. rewrite get_ok by auto. cbn [bind]. now rewrite put_ok. Qed.
Lemma set_co_ok s a v : a <> 0 -> set_co s a v = Ok (set_mem s (upd (mem s) a (mk_lk v (nx (mem s a)) (pv (mem s a))))).
Proof. intro H. unfold set_co. rewrite get_ok by auto. cbn [bind]. now rewrite put_ok. Qed.

(** values in nodes of the lists are untouched *)
Definition same_vals (s s' : pool) (ns : list (list Z)) : Prop :=
  lists s' = lists s /\ length (caches s') = length (caches s) /\
  forall a, In a (concat ns) -> mem s' a = mem s a.
Lemma same_refl s ns : same_vals s s ns.
Proof. repeat split; auto. Qed.
Lemma same_trans s1 s2 s3 ns : same_vals s1 s2 ns -> same_vals s2 s3 ns -> same_vals s1 s3 ns.
Proof.
  intros (A & B & C) (D & E & F). split; [congruence|split; [congruence|]]. intros; rewrite F, C; auto.
Qed.

Lemma cache_push_inv s p x c held gl ns used :
  inv s (x :: held) gl ns used -> nth_error (caches s) p = Some c -> (length c < CACHE_MAX)%nat -> clean (mem s) x ->
  exists s', cache_push s p x = Ok s' /\ inv s' held gl ns used /\ same_vals s s' ns /\
    nth_error (caches s') p = Some (x :: c) /\ global s' = global s /\ mem s' = mem s.
Proof.
  intros I E L C. unfold cache_push, cache_of. rewrite E. cbn [bind].
  apply Nat.ltb_lt in L. rewrite L. apply Nat.ltb_lt in L.
  assert (Lp : (p < length (caches s))%nat) by (apply nth_error_Some; congruence).
  eexists. split; [reflexivity|]. split; [|split; [|split; [|split]]]; cbn [caches set_cache global mem]; auto.
  - assert (P : Permutation (owned (set_cache s p (x :: c)) held gl ns) (owned s (x :: held) gl ns)).
    { unfold owned. cbn [caches set_cache]. rewrite (concat_give _ p c (x :: c) [x] E) by auto.
      apply perm_mid. }
    destruct (owned_perm _ _ _ _ _ _ _ _ _ I P) as (N & U). destruct I as [I1 I2 I3 I4 I5 I6].
    constructor; cbn [caches set_cache global mem lists]; auto.
    apply Forall_list_set; auto. split; [cbn [length]; unfold CACHE_MAX in *; lia|]. constructor; auto.
    rewrite Forall_forall in I5. apply I5. eapply nth_error_In; eauto.
  - split; [auto|split; auto]. cbn [caches]. apply len_list_set.
  - apply nth_list_set_eq; auto.
Qed.

Lemma cache_drop_inv s p x c held gl ns used :
  inv s held gl ns used -> nth_error (caches s) p = Some (x :: c) ->
  inv (set_cache s p c) (x :: held) gl ns used /\ same_vals s (set_cache s p c) ns /\
  nth_error (caches (set_cache s p c)) p = Some c /\ clean (mem s) x.
Proof.
  intros I E.
  assert (Lp : (p < length (caches s))%nat) by (apply nth_error_Some; congruence).
  assert (P : Permutation (owned (set_cache s p c) (x :: held) gl ns) (owned s held gl ns)).
  { unfold owned. cbn [caches set_cache]. rewrite <- (concat_take _ p (x :: c) c [x] E) by auto.
    apply Permutation_sym, perm_mid. }
  destruct (owned_perm _ _ _ _ _ _ _ _ _ I P) as (N & U). destruct I as [I1 I2 I3 I4 I5 I6].
  assert (K : cache_ok (mem s) (x :: c)).
  { rewrite Forall_forall in I5. apply I5. eapply nth_error_In; eauto. }
  destruct K as (K1 & K2). inversion K2 as [|? ? K3 K4]; subst.
  split; [|split; [|split]].
  - constructor; cbn [caches set_cache global mem lists]; auto.
    apply Forall_list_set; auto. split; auto. cbn [length] in K1. lia.
  - split; [auto|split; auto]. cbn [caches set_cache]. apply len_list_set.
  - cbn [caches set_cache]. apply nth_list_set_eq; auto.
  - auto.
Qed.

(** taking the first node of the global chain *)
Lemma global_take_inv s held x gl ns used :
  inv s held (x :: gl) ns used ->
  let s' := set_mem (set_global s (nx (mem s x))) (upd (mem s) x (mk_lk (co (mem s x)) 0 (pv (mem s x)))) in
  inv s' (x :: held) gl ns used /\ same_vals s s' ns /\ clean (mem s') x /\ caches s' = caches s.
Proof.
  intros I s'.
  assert (P : Permutation (owned (set_global s (nx (mem s x))) (x :: held) gl ns) (owned s held (x :: gl) ns)).
  { unfold owned. cbn [caches set_global]. cbn [app]. apply Permutation_middle. }
  destruct (owned_perm _ _ _ _ _ _ _ _ _ I P) as (N & U). pose proof I as [I1 I2 I3 I4 I5 I6].
  destruct I4 as (G1 & G2 & G3).
  assert (I' : inv (set_global s (nx (mem s x))) (x :: held) gl ns used).
  { constructor; cbn [caches set_global global mem lists]; auto. }
  split; [|split; [|split]].
  - apply (inv_write _ _ _ _ _ x (mk_lk (co (mem s x)) 0 (pv (mem s x))) I'). left; auto.
  - split; [auto|split; [auto|]]. intros a A. cbn [mem set_mem]. apply upd_ne. intros ->.
    destruct (owned_split _ _ _ _ I1) as (_ & _ & _ & _ & _ & D & _). apply (D x); auto. left; auto.
  - subst s'. cbn [mem set_mem]. rewrite upd_eq. cbn [nx pv]. auto.
  - auto.
Qed.

Lemma borrow_inv k : forall s p c held gl ns used,
  inv s held gl ns used -> nth_error (caches s) p = Some c -> (length c + k <= CACHE_MAX)%nat ->
  exists s' gl' c', borrow k s p = Ok s' /\ inv s' held gl' ns used /\ same_vals s s' ns /\
    nth_error (caches s') p = Some c' /\ (length c' <= length c + k)%nat.
Proof.
  induction k as [|k IH]; intros s p c held gl ns used I E L; cbn [borrow].
  - exists s, gl, c. split; [auto|split; [auto|split; [apply same_refl|split; [auto|lia]]]].
  - destruct gl as [|x gl].
    + pose proof (i_ghead _ _ _ _ _ I) as H. cbn [hd] in H. rewrite H. cbn.
      exists s, [], c. split; [auto|split; [auto|split; [apply same_refl|split; [auto|lia]]]].
    + pose proof (i_ghead _ _ _ _ _ I) as H. cbn [hd] in H. rewrite H.
      assert (X : x <> 0).
      { apply (i_used _ _ _ _ _ I). unfold owned. rewrite !in_app_iff. right; left; left; auto. }
      destruct (Z.eqb_spec x 0) as [?|_]; [contradiction|].
      rewrite get_ok by auto. cbn [bind]. rewrite set_nx_ok by auto. cbn [bind].
      cbn [mem set_global].
      destruct (global_take_inv _ _ _ _ _ _ I) as (I' & S' & C' & K').
      change (mk_pool (mem s) (caches s) (nx (mem s x)) (lists s)) with (set_global s (nx (mem s x))).
      set (s1 := set_mem (set_global s (nx (mem s x))) (upd (mem s) x (mk_lk (co (mem s x)) 0 (pv (mem s x))))) in *.
      rewrite <- K' in E.
      destruct (cache_push_inv s1 p x c held gl ns used I' E ltac:(lia) C') as (s2 & Q1 & Q2 & Q3 & Q4 & _).
      rewrite Q1. cbn [bind].
      destruct (IH s2 p (x :: c) held gl ns used Q2 Q4 ltac:(cbn [length]; lia)) as (s3 & gl' & c' & R1 & R2 & R3 & R4 & R5).
      exists s3, gl', c'. split; [auto|split; [auto|split; [|split; [auto|cbn [length] in R5; lia]]]].
      eapply same_trans; [eauto|]. eapply same_trans; eauto.
Qed.

Theorem acquire_inv s p fresh gl ns used :
  inv s [] gl ns used -> (p < length (caches s))%nat -> fresh <> 0 -> ~ In fresh used ->
  exists x s' gl', acquire s p fresh = Ok (x, s') /\ inv s' [x] gl' ns (fresh :: used) /\ same_vals s s' ns /\
    clean (mem s') x.
Proof.
  intros I Lp F NF. unfold acquire.
  destruct (nth_error (caches s) p) as [c|] eqn:E; [|apply nth_error_None in E; lia].
  unfold cache_of at 1. rewrite E. cbn [bind].
  assert (B : exists s1 gl1 c1, match c with [] => borrow HALF s p | _ :: _ => Ok s end = Ok s1 /\
     inv s1 [] gl1 ns used /\ same_vals s s1 ns /\ nth_error (caches s1) p = Some c1).
  { destruct c as [|x c].
    - destruct (borrow_inv HALF s p [] [] gl ns used I E ltac:(cbn; unfold HALF, CACHE_MAX; lia))
        as (s1 & gl1 & c1 & A1 & A2 & A3 & A4 & _). exists s1, gl1, c1. auto.
    - exists s, gl, (x :: c). split; [auto|split; [auto|split; [apply same_refl|auto]]]. }
  destruct B as (s1 & gl1 & c1 & B1 & B2 & B3 & B4). rewrite B1. cbn [bind].
  unfold cache_of at 1. rewrite B4. cbn [bind].
  assert (M : exists s2 x c2, match c1 with [] => cache_push (set_mem s1 (upd (mem s1) fresh (mk_lk 0 0 0))) p fresh | _ :: _ => Ok s1 end = Ok s2 /\
     inv s2 [] gl1 ns (fresh :: used) /\ same_vals s1 s2 ns /\ nth_error (caches s2) p = Some (x :: c2)).
  { destruct c1 as [|x c1].
    - assert (I2 : inv s1 [fresh] gl1 ns (fresh :: used)).
      { destruct B2 as [I1 I2 I3 I4 I5 I6]. constructor; auto.
        - unfold owned in *. cbn [app] in *. constructor; auto. intro H. apply NF. apply (I2 fresh H).
        - intros a A. unfold owned in A. cbn [app] in A. destruct A as [<-|A]; [split; [auto|left; auto]|].
          destruct (I2 a) as (U1 & U2); [auto|]. split; [auto|right; auto]. }
      pose proof (inv_write _ _ _ _ _ fresh (mk_lk 0 0 0) I2 ltac:(left; auto)) as I3.
      destruct (cache_push_inv _ p fresh [] [] gl1 ns _ I3 B4) as (s2 & Q1 & Q2 & Q3 & Q4 & _).
      { unfold CACHE_MAX; cbn; lia. }
      { cbn [mem set_mem]. rewrite upd_eq. auto. }
      exists s2, fresh, []. split; [auto|split; [auto|split; [|auto]]].
      eapply same_trans; [|exact Q3]. split; [auto|split; [auto|]]. intros a A. cbn [mem set_mem]. apply upd_ne.
      intros ->. apply NF. apply (i_used _ _ _ _ _ B2). unfold owned. rewrite !in_app_iff. auto.
    - exists s1, x, c1. split; [auto|split; [|split; [apply same_refl|auto]]].
      eapply inv_used; [|eauto]. intros; right; auto. }
  destruct M as (s2 & x & c2 & M1 & M2 & M3 & M4). rewrite M1. cbn [bind].
  unfold cache_of. rewrite M4. cbn [bind].
  destruct (cache_drop_inv _ _ _ _ _ _ _ _ M2 M4) as (D1 & D2 & D3 & D4).
  assert (X : x <> 0) by (apply (i_used _ _ _ _ _ D1); left; auto).
  rewrite get_ok by auto. cbn [bind]. destruct D4 as (D4 & D5). rewrite D4, D5. cbn [Z.eqb andb].
  exists x, (set_cache s2 p c2), gl1. split; [auto|split; [auto|split]].
  - eapply same_trans; [eauto|]. eapply same_trans; eauto.
  - auto.
Qed.

Lemma give_back_first k s p y c : nth_error (caches s) p = Some (y :: c) ->
  give_back (S k) s p 0 0 = give_back k (set_cache s p c) p y y.
Proof. intro E. cbn [give_back]. unfold cache_of. rewrite E. cbn [bind]. reflexivity. Qed.

Lemma give_back_inv k : forall s p c y acc x gl ns used,
  inv s (x :: y :: acc) gl ns used -> gchain (mem s) (y :: acc) ->
  nth_error (caches s) p = Some c -> (k <= length c)%nat ->
  exists s' acc', give_back k s p y (last (y :: acc) 0) = Ok (y, last (y :: acc') 0, s') /\
    inv s' (x :: y :: acc') gl ns used /\ gchain (mem s') (y :: acc') /\ same_vals s s' ns /\ global s' = global s /\
    nth_error (caches s') p = Some (skipn k c) /\ mem s' x = mem s x.
Proof.
  induction k as [|k IH]; intros s p c y acc x gl ns used I G E L; cbn [give_back].
  - exists s, acc. split; [auto|split; [auto|split; [auto|split; [apply same_refl|split; [auto|split; auto]]]]].
  - unfold cache_of. rewrite E. cbn [bind]. destruct c as [|z c]; [cbn in L; lia|].
    assert (Y : y <> 0) by (apply (i_used _ _ _ _ _ I); right; left; auto).
    destruct (Z.eqb_spec y 0) as [?|_]; [contradiction|].
    destruct (cache_drop_inv _ _ _ _ _ _ _ _ I E) as (D1 & D2 & D3 & D4 & D5).
    pose proof (last_in y acc) as T.
    assert (T0 : last (y :: acc) 0 <> 0) by (apply (i_used _ _ _ _ _ I); right; apply in_or_app; auto).
    rewrite set_nx_ok by auto. cbn [bind].
    set (t := last (y :: acc) 0) in *.
    set (s1 := set_mem (set_cache s p c) _).
    assert (N : NoDup (z :: x :: y :: acc)) by (apply (owned_split _ _ _ _ (i_nodup _ _ _ _ _ D1))).
    apply NoDup_cons_iff in N as (N1 & N2). apply NoDup_cons_iff in N2 as (N2 & N3).
    assert (I1 : inv s1 (z :: x :: y :: acc) gl ns used).
    { apply inv_write; auto. right; right; auto. }
    assert (I2 : inv s1 (x :: y :: acc ++ [z]) gl ns used).
    { assert (P : Permutation (owned s1 (x :: y :: acc ++ [z]) gl ns) (owned s1 (z :: x :: y :: acc) gl ns)).
      { unfold owned. apply Permutation_app_tail.
        change (x :: y :: acc ++ [z]) with ((x :: y :: acc) ++ [z]). apply Permutation_sym, Permutation_cons_append. }
      destruct (owned_perm _ _ _ _ _ _ _ _ _ I1 P) as (Q1 & Q2). destruct I1 as [J1 J2 J3 J4 J5 J6].
      constructor; auto. }
    assert (G2 : gchain (mem s1) (y :: acc ++ [z])).
    { pose proof (gchain_app (mem s) [z] acc y N3) as H. cbn zeta in H. fold t in H.
      change (y :: acc ++ [z]) with ((y :: acc) ++ [z]). apply H.
      - intros w W [->|[]]. apply N1. right; auto.
      - auto.
      - cbn [gchain hd]. auto. }
    destruct (IH s1 p c y (acc ++ [z]) x gl ns used I2 G2) as (s' & acc' & R1 & R2 & R3 & R4 & R5 & R6 & R7).
    { exact D3. } { cbn [length] in L. lia. }
    change (y :: acc ++ [z]) with ((y :: acc) ++ [z]) in R1. rewrite last_snoc in R1.
    exists s', acc'. split; [exact R1|]. split; [auto|split; [auto|split; [|split; [exact R5|split; [exact R6|]]]]].
    + eapply same_trans; [exact D2|]. eapply same_trans; [|exact R4].
      split; [auto|split; [auto|]]. intros a A. subst s1. cbn [mem set_mem set_cache]. apply upd_ne. intros ->.
      destruct (owned_split _ _ _ _ (i_nodup _ _ _ _ _ I)) as (_ & _ & _ & _ & D & _ & _).
      apply (D t); auto. right; auto.
    + rewrite R7. subst s1. cbn [mem set_mem set_cache]. apply upd_ne. intros ->. apply N2; auto.
Qed.

Theorem release_inv s p x gl ns used :
  inv s [x] gl ns used -> (p < length (caches s))%nat -> clean (mem s) x ->
  exists s' gl', release s p x = Ok s' /\ inv s' [] gl' ns used /\ same_vals s s' ns.
Proof.
  intros I Lp (C1 & C2). unfold release.
  assert (X : x <> 0) by (apply (i_used _ _ _ _ _ I); left; auto).
  rewrite get_ok by auto. cbn [bind]. rewrite C1, C2. cbn [Z.eqb andb negb].
  rewrite set_co_ok by auto. cbn [bind].
  set (s1 := set_mem s _).
  assert (I1 : inv s1 [x] gl ns used) by (apply inv_write; auto; left; auto).
  assert (K1 : clean (mem s1) x).
  { subst s1. cbn [mem set_mem]. rewrite upd_eq. cbn [nx pv]. auto. }
  assert (S1 : same_vals s s1 ns).
  { split; [auto|split; [auto|]]. intros a A. subst s1. cbn [mem set_mem]. apply upd_ne. intros ->.
    destruct (owned_split _ _ _ _ (i_nodup _ _ _ _ _ I)) as (_ & _ & _ & _ & D & _ & _).
    apply (D x); auto. left; auto. }
  destruct (nth_error (caches s) p) as [c|] eqn:E; [|apply nth_error_None in E; lia].
  assert (E1 : nth_error (caches s1) p = Some c) by auto.
  unfold cache_of. rewrite E1. cbn [bind].
  assert (Lc : (length c <= CACHE_MAX)%nat).
  { pose proof (i_caches _ _ _ _ _ I) as F. rewrite Forall_forall in F. apply F. eapply nth_error_In; eauto. }
  destruct (Nat.eqb_spec (length c) CACHE_MAX) as [Ef|Ef].
  - destruct c as [|y c]; [unfold CACHE_MAX in Ef; cbn in Ef; lia|].
    destruct (cache_drop_inv _ _ _ _ _ _ _ _ I1 E1) as (D1 & D2 & D3 & D4 & D5).
    set (s2 := set_cache s1 p c) in *.
    assert (I2 : inv s2 [x; y] gl ns used).
    { assert (P : Permutation (owned s2 [x; y] gl ns) (owned s2 [y; x] gl ns)) by (apply perm_swap).
      destruct (owned_perm _ _ _ _ _ _ _ _ _ D1 P) as (Q1 & Q2). destruct D1 as [J1 J2 J3 J4 J5 J6].
      constructor; auto. }
    replace (CACHE_MAX - HALF)%nat with (S 63) by reflexivity.
    rewrite (give_back_first 63 s1 p y c E1). fold s2.
    assert (LK : (63 <= length c /\ length c < CACHE_MAX)%nat) by (cbn [length] in Ef; unfold CACHE_MAX in *; lia).
    generalize dependent 63%nat. intros k63 (LK1 & LK2).
    destruct (give_back_inv k63 s2 p c y [] x gl ns used I2) as (s3 & acc & R1 & R2 & R3 & R4 & R5 & R6 & R7).
    { cbn [gchain hd]. auto. } { exact D3. } { exact LK1. }
    change (last [y] 0) with y in R1. rewrite R1. cbn [bind].
    pose proof (last_in y acc) as T. set (t := last (y :: acc) 0) in *.
    assert (T0 : t <> 0) by (apply (i_used _ _ _ _ _ R2); right; apply in_or_app; auto).
    rewrite set_nx_ok by auto. cbn [bind].
    set (m' := upd (mem s3) t _).
    assert (OS := owned_split _ _ _ _ (i_nodup _ _ _ _ _ R2)). destruct OS as (O1 & _ & _ & _ & O2 & _ & _).
    apply NoDup_cons_iff in O1 as (O1 & O3).
    assert (I3 : inv (set_mem s3 m') (x :: y :: acc) gl ns used) by (apply inv_write; auto; right; auto).
    assert (I4 : inv (set_global (set_mem s3 m') y) [x] ((y :: acc) ++ gl) ns used).
    { assert (P : Permutation (owned (set_global (set_mem s3 m') y) [x] ((y :: acc) ++ gl) ns) (owned (set_mem s3 m') (x :: y :: acc) gl ns)).
      { unfold owned. cbn [caches set_global set_mem app]. rewrite <- app_assoc. auto. }
      destruct (owned_perm _ _ _ _ _ _ _ _ _ I3 P) as (Q1 & Q2). destruct I3 as [J1 J2 J3 J4 J5 J6].
      constructor; auto. cbn [mem set_global set_mem]. subst m'.
      pose proof (i_ghead _ _ _ _ _ R2) as H. rewrite H. apply gchain_app; auto.
      - intros w W. apply (O2 w). right; auto.
      - apply (i_gl _ _ _ _ _ R2). }
    assert (Lk : (length (skipn k63 c) < CACHE_MAX)%nat).
    { rewrite skipn_length. clear - LK2. lia. }
    destruct (cache_push_inv (set_global (set_mem s3 m') y) p x (skipn k63 c) [] ((y :: acc) ++ gl) ns used I4 R6 Lk)
      as (s4 & Q1 & Q2 & Q3 & _).
    { cbn [mem set_global set_mem]. subst m'. rewrite upd_ne by (intros ->; apply O1; auto). rewrite R7. exact K1. }
    exists s4, ((y :: acc) ++ gl). split; [exact Q1|split; [auto|]].
    eapply same_trans; [exact S1|]. eapply same_trans; [exact D2|]. eapply same_trans; [exact R4|].
    eapply same_trans; [|exact Q3]. split; [auto|split; [auto|]]. intros a A. cbn [mem set_global set_mem]. subst m'.
    apply upd_ne. intros ->. apply (O2 t); auto. right; auto.
  - cbn [bind]. destruct (cache_push_inv s1 p x c [] gl ns used I1 E1 ltac:(lia) K1) as (s4 & Q1 & Q2 & Q3 & _).
    exists s4, gl. split; [exact Q1|split; [auto|]]. eapply same_trans; eauto.
Qed.
