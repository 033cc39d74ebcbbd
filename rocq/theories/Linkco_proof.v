(** Memory-level lemmas for the node pool: frames, chains, doubly linked lists, ownership. *)
From Verif Require Import Base Base_lemmas Zlist Linkco_model Linkco_spec.
From Coq Require Import Permutation.

Notation clean m x := (nx (m x) = 0 /\ pv (m x) = 0).

Fixpoint gchain (m : Z -> lk) (l : list Z) : Prop :=
  match l with [] => True | x :: l => nx (m x) = hd 0 l /\ pv (m x) = 0 /\ gchain m l end.
Fixpoint dll (m : Z -> lk) (prev : Z) (l : list Z) : Prop :=
  match l with [] => True | x :: l => pv (m x) = prev /\ nx (m x) = hd 0 l /\ dll m x l end.
Definition lrep (m : Z -> lk) (l : lst) (n : list Z) : Prop :=
  lhead l = hd 0 n /\ lrear l = last n 0 /\ lcount l = zlen n /\ dll m 0 n.
Definition cache_ok (m : Z -> lk) (c : list Z) : Prop := (length c <= CACHE_MAX)%nat /\ Forall (fun x => clean m x) c.

Definition owned (s : pool) (held gl : list Z) (ns : list (list Z)) : list Z :=
  held ++ gl ++ concat (caches s) ++ concat ns.

Record inv (s : pool) (held gl : list Z) (ns : list (list Z)) (used : list Z) : Prop := mk_inv {
  i_nodup : NoDup (owned s held gl ns);
  i_used : forall a, In a (owned s held gl ns) -> a <> 0 /\ In a used;
  i_ghead : global s = hd 0 gl;
  i_gl : gchain (mem s) gl;
  i_caches : Forall (cache_ok (mem s)) (caches s);
  i_lists : Forall2 (lrep (mem s)) (lists s) ns
}.

Lemma upd_eq m a n : upd m a n a = n.
Proof. unfold upd. now rewrite Z.eqb_refl. Qed.
Lemma upd_ne m a n b : b <> a -> upd m a n b = m b.
Proof. unfold upd. intro H. destruct (Z.eqb_spec b a); congruence. Qed.

Lemma gchain_frame m m' l : (forall x, In x l -> m' x = m x) -> gchain m l -> gchain m' l.
Proof.
  induction l as [|x l IH]; cbn [gchain]; auto. intros F (A & B & C).
  rewrite F by (left; auto). split; [auto|split; auto]. apply IH; auto. intros; apply F; right; auto.
Qed.
Lemma dll_frame m m' l : forall prev, (forall x, In x l -> m' x = m x) -> dll m prev l -> dll m' prev l.
Proof.
  induction l as [|x l IH]; cbn [dll]; auto. intros prev F (A & B & C).
  rewrite F by (left; auto). split; [auto|split; auto]. apply IH; auto. intros; apply F; right; auto.
Qed.
Lemma lrep_frame m m' l n : (forall x, In x n -> m' x = m x) -> lrep m l n -> lrep m' l n.
Proof. intros F (A & B & C & D). split; [auto|split; [auto|split; [auto|]]]. eapply dll_frame; eauto. Qed.
Lemma cache_frame m m' c : (forall x, In x c -> m' x = m x) -> cache_ok m c -> cache_ok m' c.
Proof.
  intros F (A & B). split; auto. rewrite Forall_forall in *. intros x I. rewrite F by auto. auto.
Qed.
Lemma caches_frame m m' cs : (forall x, In x (concat cs) -> m' x = m x) -> Forall (cache_ok m) cs -> Forall (cache_ok m') cs.
Proof.
  intros F A. rewrite Forall_forall in *. intros c I. eapply cache_frame; [|eauto].
  intros x J. apply F, in_concat. eauto.
Qed.
Lemma lists_frame m m' ls : forall ns, (forall x, In x (concat ns) -> m' x = m x) ->
  Forall2 (lrep m) ls ns -> Forall2 (lrep m') ls ns.
Proof.
  intros ns F H. induction H as [|l n ls ns H1 H2 IH]; constructor.
  - eapply lrep_frame; [|eauto]. intros; apply F. cbn. apply in_or_app; auto.
  - apply IH. intros; apply F. cbn. apply in_or_app; auto.
Qed.

Lemma last_in (x : Z) l : In (last (x :: l) 0) (x :: l).
Proof. revert x. induction l as [|y l IH]; intro x; [left; auto|right; apply IH]. Qed.
Lemma last_snoc (l : list Z) x : last (l ++ [x]) 0 = x.
Proof.
  induction l as [|y l IH]; auto. cbn [app]. destruct (l ++ [x]) eqn:E; [destruct l; discriminate|].
  change (last (y :: z :: l0) 0) with (last (z :: l0) 0). auto.
Qed.
Lemma last_cons2 (x y : Z) l : last (x :: y :: l) 0 = last (y :: l) 0.
Proof. auto. Qed.

Lemma dll_snoc m x v : forall n prev y, NoDup (y :: n) -> ~ In x (y :: n) ->
  dll m prev (y :: n) ->
  let r := last (y :: n) 0 in
  dll (upd (upd m r (mk_lk (co (m r)) x (pv (m r)))) x (mk_lk v 0 r)) prev ((y :: n) ++ [x]).
Proof.
  induction n as [|z n IH]; intros prev y ND NI D r.
  - cbn [last] in r. subst r. cbn [app dll hd]. cbn [dll] in D. destruct D as (A & B & _).
    assert (y <> x) by (intro; apply NI; left; auto).
    rewrite (upd_ne _ x) by auto. rewrite upd_eq. rewrite upd_eq. cbn. auto.
  - subst r. rewrite last_cons2. apply NoDup_cons_iff in ND as (N1 & N2).
    change ((y :: z :: n) ++ [x]) with (y :: ((z :: n) ++ [x])).
    destruct D as (A & B & C). cbn [hd] in B.
    assert (y <> x) by (intro; apply NI; left; auto).
    assert (y <> last (z :: n) 0) by (intro E; apply N1; rewrite E; apply last_in).
    split; [|split].
    + rewrite !upd_ne by auto. auto.
    + rewrite !upd_ne by auto. auto.
    + apply IH; auto. intro; apply NI; right; auto.
Qed.

Lemma gchain_app m r : forall a y, NoDup (y :: a) -> (forall x, In x (y :: a) -> ~ In x r) ->
  gchain m (y :: a) -> gchain m r ->
  let t := last (y :: a) 0 in
  gchain (upd m t (mk_lk (co (m t)) (hd 0 r) (pv (m t)))) ((y :: a) ++ r).
Proof.
  induction a as [|z a IH]; intros y ND NI G R t.
  - cbn [last] in t. subst t. cbn [app gchain]. destruct G as (A & B & _).
    rewrite upd_eq. cbn [nx pv]. split; [auto|split; [auto|]].
    apply gchain_frame with m; auto. intros x I. apply upd_ne. intros ->. apply (NI y); cbn; auto.
  - subst t. rewrite last_cons2. apply NoDup_cons_iff in ND as (N1 & N2).
    change ((y :: z :: a) ++ r) with (y :: ((z :: a) ++ r)).
    destruct G as (A & B & C). cbn [hd] in A.
    assert (y <> last (z :: a) 0) by (intro E; apply N1; rewrite E; apply last_in).
    split; [|split].
    + rewrite !upd_ne by auto. auto.
    + rewrite !upd_ne by auto. auto.
    + apply IH; auto. intros; apply NI; right; auto.
Qed.

(** ** ownership bookkeeping *)
Lemma concat_set (L : list (list Z)) : forall i o x, nth_error L i = Some o ->
  Permutation (concat (list_set L i x) ++ o) (concat L ++ x).
Proof.
  induction L as [|h L IH]; intros [|i] o x E; cbn in E; try discriminate.
  - injection E as ->. cbn [list_set concat].
    apply Permutation_trans with (o ++ (x ++ concat L)); [apply Permutation_app_comm|].
    rewrite <- app_assoc. apply Permutation_app_head. apply Permutation_app_comm.
  - cbn [list_set concat]. rewrite <- !app_assoc. apply Permutation_app_head. apply IH; auto.
Qed.
Lemma concat_take (L : list (list Z)) i o x h : nth_error L i = Some o -> Permutation o (h ++ x) ->
  Permutation (h ++ concat (list_set L i x)) (concat L).
Proof.
  intros E P. pose proof (concat_set L i o x E) as Q.
  apply Permutation_app_inv_r with x. rewrite <- Q. rewrite P.
  rewrite (Permutation_app_comm h (concat _)). rewrite app_assoc. auto.
Qed.
Lemma concat_give (L : list (list Z)) i o x h : nth_error L i = Some o -> Permutation x (h ++ o) ->
  Permutation (concat (list_set L i x)) (h ++ concat L).
Proof.
  intros E P. pose proof (concat_set L i o x E) as Q.
  apply Permutation_app_inv_r with o. rewrite Q. rewrite P.
  rewrite (app_assoc (concat L) h o). rewrite (Permutation_app_comm (concat L) h). auto.
Qed.

Lemma owned_perm s held gl ns s' held' gl' ns' used :
  inv s held gl ns used -> Permutation (owned s' held' gl' ns') (owned s held gl ns) ->
  NoDup (owned s' held' gl' ns') /\ (forall a, In a (owned s' held' gl' ns') -> a <> 0 /\ In a used).
Proof.
  intros I P. split; [eapply Permutation_NoDup; [apply Permutation_sym; eauto|apply I]|].
  intros a H. eapply i_used; [exact I|]. eapply Permutation_in; eauto.
Qed.

Lemma nodup_app (A : Type) (l1 l2 : list A) : NoDup (l1 ++ l2) ->
  NoDup l1 /\ NoDup l2 /\ forall x, In x l1 -> ~ In x l2.
Proof.
  induction l1 as [|x l1 IH]; cbn; intro N; [split; [constructor|split; auto]|].
  apply NoDup_cons_iff in N as (N1 & N2). destruct (IH N2) as (A1 & A2 & A3).
  split; [constructor; auto; intro; apply N1, in_or_app; auto|split; auto].
  intros y [<-|I] J; [apply N1, in_or_app; auto|eapply A3; eauto].
Qed.
Lemma owned_split s held gl ns : NoDup (owned s held gl ns) ->
  NoDup held /\ NoDup gl /\ NoDup (concat (caches s)) /\ NoDup (concat ns) /\
  (forall x, In x held -> ~ In x gl /\ ~ In x (concat (caches s)) /\ ~ In x (concat ns)) /\
  (forall x, In x gl -> ~ In x (concat (caches s)) /\ ~ In x (concat ns)) /\
  (forall x, In x (concat (caches s)) -> ~ In x (concat ns)).
Proof.
  unfold owned. intro N. apply nodup_app in N as (N1 & N2 & N3).
  apply nodup_app in N2 as (N2 & N4 & N5). apply nodup_app in N4 as (N4 & N6 & N7).
  split; [auto|]. split; [auto|]. split; [auto|]. split; [auto|]. split; [|split].
  - intros x I. specialize (N3 x I). rewrite !in_app_iff in N3. tauto.
  - intros x I. specialize (N5 x I). rewrite !in_app_iff in N5. tauto.
  - auto.
Qed.

(** writing to a held node changes nothing else *)
Lemma inv_write s held gl ns used x n : inv s held gl ns used -> In x held ->
  inv (set_mem s (upd (mem s) x n)) held gl ns used.
Proof.
  intros I H. destruct (owned_split _ _ _ _ (i_nodup _ _ _ _ _ I)) as (_ & _ & _ & _ & D & _ & _).
  destruct (D x H) as (D1 & D2 & D3). destruct I as [I1 I2 I3 I4 I5 I6].
  constructor; cbn [mem caches global lists set_mem]; auto.
  - eapply gchain_frame; [|eauto]. intros y J. apply upd_ne. congruence.
  - eapply caches_frame; [|eauto]. intros y J. apply upd_ne. congruence.
  - eapply lists_frame; [|eauto]. intros y J. apply upd_ne. congruence.
Qed.
Lemma inv_used s held gl ns used used' : (forall a, In a used -> In a used') ->
  inv s held gl ns used -> inv s held gl ns used'.
Proof.
  intros H [I1 I2 I3 I4 I5 I6]. constructor; auto. intros a A. destruct (I2 a A); auto.
Qed.

Lemma Forall_list_set (A : Type) (P : A -> Prop) l i x : Forall P l -> P x -> Forall P (list_set l i x).
Proof.
  intros F X. revert i. induction F; intros [|i]; cbn [list_set]; constructor; auto.
Qed.
Lemma Forall2_list_set (A B : Type) (R : A -> B -> Prop) l l' i x y :
  Forall2 R l l' -> R x y -> Forall2 R (list_set l i x) (list_set l' i y).
Proof.
  intros F X. revert i. induction F; intros [|i]; cbn [list_set]; constructor; auto.
Qed.
Lemma list_set_same (A : Type) (l : list A) i x y : list_set (list_set l i x) i y = list_set l i y.
Proof. revert i. induction l as [|h l IH]; intros [|i]; cbn [list_set]; rewrite ?IH; auto. Qed.
Lemma nth_list_set_eq (A : Type) (l : list A) i x : (i < length l)%nat -> nth_error (list_set l i x) i = Some x.
Proof. revert i. induction l as [|h l IH]; intros [|i] H; cbn in *; try lia; auto; apply IH; lia. Qed.
Lemma len_list_set (A : Type) (l : list A) i x : length (list_set l i x) = length l.
Proof. revert i. induction l as [|h l IH]; intros [|i]; cbn [list_set length]; rewrite ?IH; auto. Qed.
