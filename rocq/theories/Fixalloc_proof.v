From Coq Require Import Permutation.
From Verif Require Import Base Base_lemmas Zlist.
From Verif Require Import Fixalloc_model Fixalloc_spec.

(** one client step *)
Definition step (sys : nat -> Z) (st : fixalloc * list Z) (o : op) : res (fixalloc * list Z) :=
  let (f, live) := st in
  match o with
  | OAlloc => ' (f, v) <- alloc sys f ;; Ok (f, v :: live)
  | OFree k => match nth_error live k with
               | Some p => Ok (free f p, remove_nth k live)
               | None => Ok (f, live)
               end
  end.

Fixpoint run (sys : nat -> Z) (ops : list op) (st : fixalloc * list Z) : res (fixalloc * list Z) :=
  match ops with
  | [] => Ok st
  | o :: ops => st <- step sys st o ;; run sys ops st
  end.

Lemma NoDup_app_l {A} (l m : list A) : NoDup (l ++ m) -> NoDup l.
Proof.
  induction l as [|x l IH]; intros H; [constructor|]. cbn [app] in H. inversion H; subst.
  constructor; [|auto]. intros Hin. apply H2. apply in_or_app. now left.
Qed.

Section Inv.
Context (sys : nat -> Z) (n C : Z).
Hypothesis n_low : 8 <= n.
Hypothesis C_low : n + 8 <= C.
Hypothesis C_high : C < 2 ^ 32.
Hypothesis chunks_apart : forall i j, i <> j -> disjoint (sys i) C (sys j) C.

Definition slot (k : nat) (i : nat) (j a : Z) : Prop :=
  (i < k)%nat /\ 0 <= j /\ a = sys i + 8 + j * n /\ 8 + (j + 1) * n <= C.

Definition inv (f : fixalloc) (live : list Z) : Prop :=
  size f = n /\ chunk_size f = C /\ 0 <= chunk_rem f /\ NoDup (live ++ free_list f) /\
  (forall k, calls f = S k -> exists m, 0 <= m /\ chunk_ptr f = sys k + 8 + m * n /\ 8 + m * n + chunk_rem f = C) /\
  (calls f = O -> chunk_rem f = 0) /\
  (forall a, In a (live ++ free_list f) -> exists i j, slot (calls f) i j a /\ (S i = calls f -> a + n <= chunk_ptr f)) /\
  inuse f = u64 (n * zlen live).

Lemma slot_within k i j a : slot k i j a -> within a n (sys i) C.
Proof. clear chunks_apart. intros (_ & H1 & -> & H2) x Hx. nia. Qed.

Lemma slots_apart k i j a i' j' a' : slot k i j a -> slot k i' j' a' -> a <> a' -> disjoint a n a' n.
Proof.
  intros H H' N x [X X']. destruct (Nat.eq_dec i i') as [<-|E].
  - destruct H as (_ & H1 & -> & H2), H' as (_ & H1' & -> & H2').
    assert (j <> j') by congruence. assert (j < j' \/ j' < j) by lia. nia.
  - pose proof (slot_within _ _ _ _ H x X). pose proof (slot_within _ _ _ _ H' x X').
    eapply (chunks_apart i i' E x); split; eassumption.
Qed.

Lemma remove_nth_In {A} k (l : list A) x : In x (remove_nth k l) -> In x l.
Proof.
  unfold remove_nth. intros H. apply in_app_or in H as [H|H].
  - rewrite <- (firstn_skipn k l). apply in_or_app. now left.
  - rewrite <- (firstn_skipn (S k) l). apply in_or_app. now right.
Qed.

Lemma remove_nth_perm {A} k (l : list A) x : nth_error l k = Some x -> Permutation l (x :: remove_nth k l).
Proof.
  intros H. apply nth_error_split in H as (a & b & -> & <-). unfold remove_nth.
  rewrite firstn_app, firstn_all, Nat.sub_diag, firstn_O, app_nil_r.
  replace (S (length a)) with (length (a ++ [x])) by (rewrite app_length; cbn; lia).
  change (a ++ x :: b) with (a ++ [x] ++ b). rewrite app_assoc, skipn_app, skipn_all, Nat.sub_diag. cbn [app skipn].
  rewrite <- app_assoc. cbn [app]. symmetry. apply Permutation_middle.
Qed.

Lemma u64_add a b : u64 (u64 a + b) = u64 (a + b).
Proof. unfold u64. now rewrite Z.add_mod_idemp_l by lia. Qed.
Lemma u64_sub a b : u64 (u64 a - b) = u64 (a - b).
Proof. unfold u64. now rewrite Zminus_mod_idemp_l. Qed.

Lemma step_inv f live o : inv f live ->
  exists f' live', step sys (f, live) o = Ok (f', live') /\ inv f' live'.
Proof.
  intros (Hs & Hc & Hr & Hnd & Hptr & H0 & Hslots & Hu). destruct o as [|k]; cbn [step].
  - unfold alloc. rewrite Hs. replace (negb (0 <? n)) with false by lia.
    destruct (free_list f) as [|v next] eqn:Ef.
    + rewrite app_nil_r in *.
      set (g := if chunk_rem f <? n then _ else _).
      assert (G : size g = n /\ chunk_size g = C /\ free_list g = [] /\ n <= chunk_rem g /\ chunk_rem g < 2 ^ 32 /\ inuse g = inuse f /\
                  (forall k, calls g = S k -> exists m, 0 <= m /\ chunk_ptr g = sys k + 8 + m * n /\ 8 + m * n + chunk_rem g = C) /\
                  (0 < calls g)%nat /\
                  (forall a, In a live -> exists i j, slot (calls g) i j a /\ (S i = calls g -> a + n <= chunk_ptr g))).
      { subst g. destruct (Z.ltb_spec (chunk_rem f) n) as [L|L].
        - cbn [size chunk_size free_list chunk_rem inuse calls chunk_ptr]. rewrite Hc.
          assert (U : u32 (C - LINK) = C - 8) by (unfold u32, LINK; rewrite Z.mod_small; lia).
          rewrite U. repeat split; try lia.
          + intros k [= <-]. exists 0. unfold LINK. lia.
          + intros a Ha. destruct (Hslots a Ha) as (i & j & (S1 & S2) & _). exists i, j.
            split; [split; [lia|assumption]|]. lia.
        - assert (calls f <> O) by (intros E; specialize (H0 E); lia).
          repeat split; auto; try lia.
          destruct (calls f) as [|k] eqn:Ek; [congruence|].
          destruct (Hptr k eq_refl) as (m & ? & ? & ?). lia. }
      clearbody g. destruct G as (Gs & Gc & Gf & Gr & Gb & Gu & Gp & Gk & Gsl).
      cbn [bind]. do 2 eexists. split; [reflexivity|]. rewrite Gs, Gc, Gf, Gu.
      destruct (calls g) as [|k] eqn:Ek; [lia|]. destruct (Gp k eq_refl) as (m & Hm & Hp & Hrem).
      assert (U : u32 (chunk_rem g - n) = chunk_rem g - n) by (unfold u32; rewrite Z.mod_small; lia).
      rewrite U.
      unfold inv. cbn [size chunk_size free_list chunk_rem inuse calls chunk_ptr]. rewrite app_nil_r.
      split; [reflexivity|]. split; [reflexivity|]. split; [lia|]. split; [|split; [|split; [|split]]].
      * constructor; [|assumption]. intros Hin. destruct (Gsl _ Hin) as (i & j & (S1 & S2 & S3 & S4) & S5).
        destruct (Nat.eq_dec i k) as [->|Ni].
        -- specialize (S5 eq_refl). lia.
        -- assert (D : disjoint (sys i) C (sys k) C) by (apply chunks_apart; assumption).
           apply (D (chunk_ptr g)). split; [rewrite S3; nia|]. rewrite Hp. nia.
      * intros k' [= <-]. exists (m + 1). repeat split; nia.
      * discriminate.
      * intros a [<-|Ha].
        -- exists k, m. split; [|intros _; lia]. repeat split; try lia; nia.
        -- destruct (Gsl a Ha) as (i & j & S1 & S2). exists i, j. split; [assumption|]. intros E. specialize (S2 E). lia.
      * rewrite Hu, u64_add, zlen_cons. f_equal. lia.
    + cbn [bind]. do 2 eexists. split; [reflexivity|]. unfold inv. cbn [size chunk_size free_list chunk_rem inuse calls chunk_ptr].
      assert (P : Permutation (live ++ v :: next) ((v :: live) ++ next)) by (symmetry; apply Permutation_middle).
      repeat split; auto.
      * eapply Permutation_NoDup; [exact P|assumption].
      * intros a Ha. apply Hslots. eapply Permutation_in; [symmetry; exact P|assumption].
      * rewrite Hu, u64_add, zlen_cons. f_equal. lia.
  - destruct (nth_error live k) as [p|] eqn:Ek.
    + do 2 eexists. split; [reflexivity|]. unfold inv, free. cbn [size chunk_size free_list chunk_rem inuse calls chunk_ptr].
      pose proof (remove_nth_perm k live p Ek) as Pr.
      assert (P : Permutation (live ++ free_list f) (remove_nth k live ++ p :: free_list f)).
      { transitivity ((p :: remove_nth k live) ++ free_list f); [now apply Permutation_app_tail|].
        cbn [app]. apply Permutation_middle. }
      repeat split; auto.
      * eapply Permutation_NoDup; [exact P|assumption].
      * intros a Ha. apply Hslots. eapply Permutation_in; [symmetry; exact P|assumption].
      * rewrite Hu, Hs, u64_sub. f_equal. apply Permutation_length in Pr. cbn [length] in Pr. unfold zlen. lia.
    + do 2 eexists. split; [reflexivity|]. repeat split; auto.
Qed.

Lemma run_inv ops f live : inv f live -> exists f' live', run sys ops (f, live) = Ok (f', live') /\ inv f' live'.
Proof.
  revert f live. induction ops as [|o ops IH]; intros f live H; cbn [run].
  - eauto.
  - destruct (step_inv f live o H) as (f1 & l1 & -> & H1). cbn [bind]. auto.
Qed.

Lemma inv_sound f live : inv f live -> no_overlap n live /\
  (forall a, In a live -> exists i, (i < calls f)%nat /\ within a n (sys i) C).
Proof.
  intros (_ & _ & _ & Hnd & _ & _ & Hsl & _). split.
  - intros i j a b Nij Ha Hb.
    destruct (Hsl a) as (i1 & j1 & S1 & _); [apply in_or_app; left; eapply nth_error_In; eassumption|].
    destruct (Hsl b) as (i2 & j2 & S2 & _); [apply in_or_app; left; eapply nth_error_In; eassumption|].
    eapply slots_apart; [exact S1|exact S2|]. intros ->. apply Nij.
    assert (ND : NoDup live) by (eapply NoDup_app_l, Hnd).
    rewrite NoDup_nth_error in ND. apply ND; [|congruence]. apply nth_error_Some. congruence.
  - intros a Ha. destruct (Hsl a) as (i & j & S1 & _); [apply in_or_app; now left|].
    exists i. split; [apply S1|]. eapply slot_within; eassumption.
Qed.
End Inv.

Lemma init_spec s : 0 <= s <= 8192 -> exists f n, init s = Ok f /\ n = Z.max 8 s /\ size f = n /\
  n + 8 <= chunk_size f /\ chunk_size f <= CHUNK_LIMIT /\
  forall sys, inv sys n (chunk_size f) f [].
Proof.
  intros H. unfold init, CHUNK_LIMIT, LINK. replace (negb (s <=? 16384)) with false by lia.
  set (n := if s <? 8 then 8 else s). assert (N : n = Z.max 8 s) by (subst n; destruct (Z.ltb_spec s 8); lia).
  clearbody n.
  assert (D : 2 * n <= 16384 / n * n <= 16384).
  { pose proof (Z.div_mod 16384 n ltac:(lia)). pose proof (Z.mod_pos_bound 16384 n ltac:(lia)).
    split; [|lia]. apply Z.mul_le_mono_nonneg_r; [lia|]. apply Z.div_le_lower_bound; lia. }
  assert (U : u32 (16384 / n * n) = 16384 / n * n) by (unfold u32; rewrite Z.mod_small; lia).
  eexists. exists n. split; [reflexivity|]. split; [assumption|]. cbn [size chunk_size]. rewrite U.
  split; [reflexivity|]. split; [lia|]. split; [lia|]. intros sys.
  repeat split; cbn; auto; try lia; try constructor; intros; try discriminate; try contradiction.
  - now rewrite Z.mul_0_r.
Qed.
