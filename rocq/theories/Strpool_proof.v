(** Proofs about string conversion. *)
From Verif Require Import Base Base_lemmas Zlist Hash_model Hash_proof Strpool_model.

Definition pool_ok (p : pool) : Prop := Forall (fun e => fst e = c_string (snd e)) p.

Lemma pool_get_ok p key s : pool_ok p -> pool_get p key = Some s -> key = c_string s.
Proof.
  unfold pool_ok, pool_get. intros Hp H. destruct (List.find _ p) as [e|] eqn:E; [|discriminate]. injection H as <-.
  apply find_some in E as [Hin He]. apply list_eqb_eq in He. rewrite Forall_forall in Hp. rewrite <- (Hp e Hin). auto.
Qed.

Lemma pool_put_ok p s : pool_ok p -> pool_ok (pool_put p (c_string s) s).
Proof.
  intros Hp. unfold pool_put, pool_ok in *. constructor; [reflexivity|]. rewrite Forall_forall in *. intros e He.
  apply filter_In in He. now apply Hp.
Qed.

Lemma c_string_idem s : c_string (c_string s) = c_string s.
Proof. induction s as [|x s IH]; [reflexivity|]. cbn. destruct (Z.eqb_spec x 0); [reflexivity|]. cbn. rewrite IH. destruct (Z.eqb_spec x 0); [lia|reflexivity]. Qed.

Lemma const_pool_ok consts : pool_ok (const_pool consts).
Proof.
  unfold const_pool. assert (G : forall p, pool_ok p -> pool_ok (fold_left (fun p c => let c := c_string c in
     match pool_get p c with Some _ => p | None => pool_put p c c end) consts p)); [|apply G; constructor].
  induction consts as [|c l IH]; intros p Hp; [exact Hp|]. cbn. apply IH. destruct (pool_get p (c_string c)); [exact Hp|].
  replace (pool_put p (c_string c) (c_string c)) with (pool_put p (c_string (c_string c)) (c_string c)) by now rewrite c_string_idem.
  now apply pool_put_ok.
Qed.

Lemma convert_ok p v after : pool_ok p -> pool_ok (fst (vec_to_string p v after)) /\ zlen (snd (vec_to_string p v after)) = zlen v.
Proof.
  intros Hp. unfold vec_to_string, string_new_with_pool.
  destruct (pool_get p _) as [s|] eqn:E.
  - destruct (Z.eqb_spec (zlen s) (zlen v)); [auto|]. destruct (zlen v + 1 <=? 8); cbn; split; auto. now apply pool_put_ok.
  - destruct (zlen v + 1 <=? 8); cbn; split; auto. now apply pool_put_ok.
Qed.

Lemma c_string_app v after : ~ In 0 v -> c_string (v ++ after) = v ++ c_string after.
Proof.
  induction v as [|x v IH]; intros H; [reflexivity|]. cbn. destruct (Z.eqb_spec x 0); [exfalso; apply H; now left|].
  f_equal. apply IH. intros Hi. apply H. now right.
Qed.

Lemma c_string_prefix s a b : c_string s = a ++ b -> zlen s = zlen a -> b = [] /\ s = a.
Proof.
  revert a; induction s as [|x s IH]; intros a E Hl.
  - cbn in E. symmetry in E. apply app_eq_nil in E as [-> ->]. auto.
  - destruct a as [|y a]; [rewrite zlen_cons in Hl; pose proof (zlen_nonneg s); change (zlen (@nil Z)) with 0 in Hl; lia|]. cbn in E. destruct (x =? 0); [discriminate|].
    injection E as -> E. rewrite !zlen_cons in Hl. destruct (IH a E ltac:(lia)) as [-> ->]. auto.
Qed.

Lemma vec_to_string_id p v after : pool_ok p -> ~ In 0 v -> snd (vec_to_string p v after) = v.
Proof.
  intros Hp Hv. unfold vec_to_string, string_new_with_pool. destruct (pool_get p _) as [s|] eqn:E.
  - apply pool_get_ok in E; [|assumption]. rewrite c_string_app in E by assumption.
    destruct (Z.eqb_spec (zlen s) (zlen v)) as [Hz|]; [|now destruct (zlen v + 1 <=? 8)].
    cbn. symmetry in E. now apply c_string_prefix in E as [_ ->].
  - now destruct (zlen v + 1 <=? 8).
Qed.

Lemma convert_all l : forall p, pool_ok p ->
  Forall2 (fun va s => zlen s = zlen (fst va) /\ (~ In 0 (fst va) -> s = fst va)) l (convert p l).
Proof.
  induction l as [|[v after] l IH]; intros p Hp; [constructor|]. cbn.
  destruct (vec_to_string p v after) as [p' s] eqn:E.
  pose proof (convert_ok p v after Hp) as [H1 H2]. rewrite E in H1, H2.
  constructor; [|now apply IH]. split; [exact H2|]. intros Hv. pose proof (vec_to_string_id p v after Hp Hv) as H3. now rewrite E in H3.
Qed.
