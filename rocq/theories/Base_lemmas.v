(** Facts about the shared vocabulary. *)
From Verif Require Import Base.

Lemma zlen_nil A : zlen (@nil A) = 0.
Proof. reflexivity. Qed.

Lemma zlen_cons {A} (x : A) s : zlen (x :: s) = 1 + zlen s.
Proof. unfold zlen. cbn [length]. lia. Qed.

Lemma zlen_app {A} (s t : list A) : zlen (s ++ t) = zlen s + zlen t.
Proof. unfold zlen. rewrite app_length. lia. Qed.

Lemma zlen_nonneg {A} (s : list A) : 0 <= zlen s.
Proof. unfold zlen. lia. Qed.

Lemma zlen_rev {A} (s : list A) : zlen (rev s) = zlen s.
Proof. unfold zlen. now rewrite rev_length. Qed.

Lemma zlen_map {A B} (f : A -> B) s : zlen (map f s) = zlen s.
Proof. unfold zlen. now rewrite map_length. Qed.

Lemma zlen_0_nil {A} (s : list A) : zlen s = 0 -> s = [].
Proof. destruct s; [reflexivity|]. rewrite zlen_cons. pose proof (zlen_nonneg s). lia. Qed.

Lemma at_app_r {A} (pre suf : list A) k :
  0 <= k -> at_ (pre ++ suf) (zlen pre + k) = at_ suf k.
Proof.
  intros Hk. unfold at_. rewrite zlen_app.
  pose proof (zlen_nonneg pre).
  replace ((0 <=? zlen pre + k) && (zlen pre + k <? zlen pre + zlen suf))
    with ((0 <=? k) && (k <? zlen suf)) by lia.
  destruct ((0 <=? k) && (k <? zlen suf)); [|reflexivity].
  rewrite nth_error_app2 by (unfold zlen; lia).
  replace (Z.to_nat (zlen pre + k) - length pre)%nat with (Z.to_nat k)
    by (unfold zlen; lia).
  reflexivity.
Qed.

Lemma at_app_mid {A} (pre suf : list A) x : at_ (pre ++ x :: suf) (zlen pre) = Ok x.
Proof.
  replace (zlen pre) with (zlen pre + 0) by lia. rewrite at_app_r by lia.
  unfold at_. rewrite zlen_cons. pose proof (zlen_nonneg suf).
  replace ((0 <=? 0) && (0 <? 1 + zlen suf)) with true by lia. reflexivity.
Qed.

Lemma at_cons_0 {A} (x : A) s : at_ (x :: s) 0 = Ok x.
Proof. exact (at_app_mid [] s x). Qed.

Lemma at_cons_S {A} (x : A) s k : 0 <= k -> at_ (x :: s) (1 + k) = at_ s k.
Proof. intros Hk. exact (at_app_r [x] s k Hk). Qed.

Lemma at_cons_1 {A} (x y : A) s : at_ (x :: y :: s) 1 = Ok y.
Proof. exact (at_app_mid [x] s y). Qed.

Lemma at_cons_2 {A} (x y z : A) s : at_ (x :: y :: z :: s) 2 = Ok z.
Proof. exact (at_app_mid [x; y] s z). Qed.

Lemma at_Ok_inv {A} (s : list A) i x :
  at_ s i = Ok x -> exists pre suf, s = pre ++ x :: suf /\ i = zlen pre.
Proof.
  unfold at_. destruct ((0 <=? i) && (i <? zlen s)) eqn:E; [|discriminate].
  destruct (nth_error s (Z.to_nat i)) eqn:En; [|discriminate].
  intros [= ->]. apply nth_error_split in En as (pre & suf & -> & Hl).
  exists pre, suf. split; [reflexivity|]. unfold zlen. lia.
Qed.

Lemma at_total {A} (s : list A) i : 0 <= i < zlen s -> exists x, at_ s i = Ok x.
Proof.
  intros Hi. unfold at_. replace ((0 <=? i) && (i <? zlen s)) with true by lia.
  destruct (nth_error s (Z.to_nat i)) eqn:E; eauto.
  apply nth_error_None in E. unfold zlen in *. lia.
Qed.

Lemma at_nth {A} (s : list A) i x : at_ s i = Ok x -> nth_error s (Z.to_nat i) = Some x /\ 0 <= i < zlen s.
Proof.
  unfold at_. destruct ((0 <=? i) && (i <? zlen s)) eqn:E; [|discriminate].
  destruct (nth_error s (Z.to_nat i)); [|discriminate]. intros [= ->]. split; [reflexivity|lia].
Qed.

Lemma nth_at {A} (s : list A) i x : 0 <= i -> nth_error s (Z.to_nat i) = Some x -> at_ s i = Ok x.
Proof.
  intros Hi H. unfold at_.
  assert (Z.to_nat i < length s)%nat by (apply nth_error_Some; congruence).
  replace ((0 <=? i) && (i <? zlen s)) with true by (unfold zlen; lia). now rewrite H.
Qed.

Lemma sub_list_mid {A} (a m c : list A) :
  sub_list (a ++ m ++ c) (zlen a) (zlen a + zlen m) = m.
Proof.
  unfold sub_list.
  replace (Z.to_nat (zlen a + zlen m - zlen a)) with (length m) by (unfold zlen; lia).
  replace (Z.to_nat (zlen a)) with (length a) by (unfold zlen; lia).
  rewrite skipn_app, skipn_all, Nat.sub_diag. cbn [skipn app].
  rewrite firstn_app, Nat.sub_diag, firstn_all, firstn_O. now rewrite app_nil_r.
Qed.

Lemma slice_mid {A} (a m c : list A) :
  slice (a ++ m ++ c) (zlen a) (zlen a + zlen m) = Ok m.
Proof.
  unfold slice. pose proof (zlen_nonneg a); pose proof (zlen_nonneg m); pose proof (zlen_nonneg c).
  replace (zlen a + zlen m =? -1) with false by lia.
  rewrite !zlen_app.
  replace ((zlen a + (zlen m + zlen c) <? zlen a) || (zlen a + (zlen m + zlen c) <? zlen a + zlen m)
           || (zlen a <? 0) || (zlen a + zlen m <? 0)) with false by lia.
  replace (zlen a + zlen m <? zlen a) with false by lia.
  now rewrite sub_list_mid.
Qed.

Lemma slice_tail {A} (a m : list A) :
  slice (a ++ m) (zlen a) (zlen (a ++ m)) = Ok m.
Proof.
  rewrite zlen_app. pose proof (slice_mid a m []) as H. now rewrite app_nil_r in H.
Qed.

Lemma slice_head {A} (a c : list A) : slice (a ++ c) 0 (zlen a) = Ok a.
Proof. exact (slice_mid [] a c). Qed.

Lemma slice_full {A} (a : list A) : slice a 0 (zlen a) = Ok a.
Proof. pose proof (slice_head a []) as H. now rewrite app_nil_r in H. Qed.

(** Any prefix index splits the list. *)
Lemma split_at {A} (s : list A) i : 0 <= i <= zlen s ->
  exists pre suf, s = pre ++ suf /\ zlen pre = i.
Proof.
  intros Hi. exists (firstn (Z.to_nat i) s), (skipn (Z.to_nat i) s).
  split; [symmetry; apply firstn_skipn|].
  unfold zlen in *. rewrite firstn_length. lia.
Qed.

Lemma app_zlen_inj {A} (a b c d : list A) :
  a ++ b = c ++ d -> zlen a = zlen c -> a = c /\ b = d.
Proof.
  intros H Hl. assert (length a = length c) as Hn by (unfold zlen in Hl; lia). clear Hl.
  revert c H Hn. induction a as [|x a IH]; intros [|y c] H Hn; try discriminate Hn.
  - auto.
  - cbn in H. injection H as -> H. destruct (IH c H) as [-> ->]; [|auto].
    cbn in Hn. lia.
Qed.

Lemma length_list_set {A} (s : list A) n x : length (list_set s n x) = length s.
Proof. revert n; induction s as [|h t IH]; intros [|n]; cbn; auto. Qed.

Lemma zlen_list_set {A} (s : list A) n x : zlen (list_set s n x) = zlen s.
Proof. unfold zlen. now rewrite length_list_set. Qed.

Lemma nth_error_list_set {A} (s : list A) n m x :
  nth_error (list_set s n x) m =
  if Nat.eqb n m then (if Nat.ltb n (length s) then Some x else None) else nth_error s m.
Proof.
  revert n m; induction s as [|h t IH]; intros n m.
  - cbn [list_set length]. destruct (Nat.eqb_spec n m) as [->|Hnm].
    + cbn. now destruct m.
    + reflexivity.
  - destruct n as [|n], m as [|m]; cbn [list_set nth_error Nat.eqb length]; auto.
    rewrite IH. reflexivity.
Qed.

Lemma list_set_app_mid {A} (pre suf : list A) x y :
  list_set (pre ++ x :: suf) (length pre) y = pre ++ y :: suf.
Proof. induction pre as [|h t IH]; cbn; [reflexivity|]. now rewrite IH. Qed.

Lemma set_at_mid {A} (pre suf : list A) x y :
  set_at (pre ++ x :: suf) (zlen pre) y = Ok (pre ++ y :: suf).
Proof.
  unfold set_at. rewrite zlen_app, zlen_cons. pose proof (zlen_nonneg pre); pose proof (zlen_nonneg suf).
  replace ((0 <=? zlen pre) && (zlen pre <? zlen pre + (1 + zlen suf))) with true by lia.
  replace (Z.to_nat (zlen pre)) with (length pre) by (unfold zlen; lia).
  now rewrite list_set_app_mid.
Qed.

Lemma zlen_sub_list {A} (s : list A) a b :
  0 <= a -> a <= b -> b <= zlen s -> zlen (sub_list s a b) = b - a.
Proof.
  intros Ha Hab Hb. unfold sub_list, zlen in *. rewrite firstn_length, skipn_length. lia.
Qed.

Lemma bind_Ok {A B} (r : res A) (f : A -> res B) b :
  bind r f = Ok b -> exists a, r = Ok a /\ f a = Ok b.
Proof. destruct r; cbn; intros H; try discriminate. eauto. Qed.

Lemma Forall_bytes_app s t : bytes (s ++ t) <-> bytes s /\ bytes t.
Proof. apply Forall_app. Qed.

Lemma u8_id b : is_byte b -> u8 b = b.
Proof. unfold is_byte, u8. intros H. apply Z.mod_small. lia. Qed.

Lemma u8_byte z : is_byte (u8 z).
Proof. unfold is_byte, u8. apply Z.mod_pos_bound. lia. Qed.

Lemma i64_id z : -9223372036854775808 <= z < 9223372036854775808 -> i64 z = z.
Proof. unfold i64. intros H. rewrite Z.mod_small by lia. lia. Qed.

Lemma u64_id z : 0 <= z < 18446744073709551616 -> u64 z = z.
Proof. unfold u64. apply Z.mod_small. Qed.

(** A finite sweep over all byte values, to be discharged by vm_compute. *)
Definition all_bytes : list Z := map Z.of_nat (seq 0 256).

Lemma all_bytes_complete b : is_byte b -> In b all_bytes.
Proof.
  intros H. unfold all_bytes. apply in_map_iff. exists (Z.to_nat b).
  unfold is_byte in H. split; [lia|]. apply in_seq. lia.
Qed.

Lemma byte_sweep (P : Z -> bool) :
  forallb P all_bytes = true -> forall b, is_byte b -> P b = true.
Proof.
  intros H b Hb. rewrite forallb_forall in H. apply H. now apply all_bytes_complete.
Qed.
