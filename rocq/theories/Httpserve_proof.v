(** The handler sees what the callbacks reported, as long as no block moves. *)
From Verif Require Import Base Base_lemmas Httpmsg_model Httpmsg_proof Httpmsg_read_proof Httpserve_model Httpserve_spec.

(** ** Memory *)

Lemma overwrite_mid (a x b d : list Z) : zlen x = zlen d -> overwrite (a ++ x ++ b) (zlen a) d = Ok (a ++ d ++ b).
Proof.
  intro L. unfold overwrite. rewrite !zlen_app. pose proof (zlen_nonneg a). pose proof (zlen_nonneg b).
  replace ((zlen a <? 0) || (zlen a + (zlen x + zlen b) <? zlen a + zlen d)) with false by lia. f_equal. f_equal; [|f_equal].
  - unfold zlen. rewrite Nat2Z.id, firstn_app, Nat.sub_diag, firstn_all. cbn [firstn]. apply app_nil_r.
  - replace (Z.to_nat (zlen a + zlen d)) with (length (a ++ x)) by (rewrite app_length; unfold zlen in *; lia).
    rewrite app_assoc, skipn_app, Nat.sub_diag, skipn_all. reflexivity.
Qed.

Lemma split_at (l : list Z) i n : 0 <= i -> 0 <= n -> i + n <= zlen l -> exists a x b, l = a ++ x ++ b /\ zlen a = i /\ zlen x = n.
Proof.
  intros I N L. exists (firstn (Z.to_nat i) l), (firstn (Z.to_nat n) (skipn (Z.to_nat i) l)), (skipn (Z.to_nat n) (skipn (Z.to_nat i) l)).
  rewrite !firstn_skipn. split; [reflexivity|]. unfold zlen in *. rewrite !firstn_length, skipn_length. lia.
Qed.

Definition sound (c : sconn) : Prop :=
  zlen (dflt c) = 4096 /\ 0 <= buf_len c <= buf_cap c /\
  (buf_cap c = 0 /\ block c = None \/ buf_cap c = 4096 /\ block c = None \/ 8192 <= buf_cap c /\ exists b, block c = Some b /\ zlen b = buf_cap c).

(** The span stands for [v]; in the heap block it lies before [top]. *)
Definition kept (c : sconn) (top : Z) (sp : span) (v : list Z) : Prop :=
  load c sp = Ok v /\ 0 <= snd sp /\ match fst sp with Null => True | Dflt _ => 0 < buf_cap c | Heap _ off => 0 <= off /\ off + snd sp <= top end.

Definition same_rest (c c' : sconn) : Prop :=
  url_at c' = url_at c /\ path_at c' = path_at c /\ query_at c' = query_at c /\ body_at c' = body_at c /\ host_at c' = host_at c /\
  fields c' = fields c /\ name_at c' = name_at c /\ host_flag c' = host_flag c /\ completed c' = completed c /\ req_method c' = req_method c.

Lemma load_ext c c' sp : dflt c' = dflt c -> block c' = block c -> generation c' = generation c -> load c' sp = load c sp.
Proof. intros A B C. unfold load. now rewrite A, B, C. Qed.

Lemma load_len c sp v : load c sp = Ok v -> 0 <= snd sp -> zlen v = snd sp.
Proof.
  unfold load. destruct sp as [[|off|g off] n]; cbn [fst snd]; intros E N.
  - destruct (Z.eqb_spec n 0); [|discriminate]. injection E as <-. now rewrite zlen_nil.
  - destruct ((off <? 0) || (zlen (dflt c) <? off + n)) eqn:B; [discriminate|]. injection E as <-. rewrite zlen_sub_list; lia.
  - destruct (block c) as [b|]; [|discriminate]. destruct (Nat.eqb g (generation c)); [|discriminate].
    destruct ((off <? 0) || (zlen b <? off + n)) eqn:B; [discriminate|]. injection E as <-. rewrite zlen_sub_list; lia.
Qed.

Lemma sub_list_prefix (l a x y : list Z) i j : l = a ++ x -> j <= zlen a -> 0 <= i -> sub_list (a ++ y) i j = sub_list l i j.
Proof.
  intros -> J I. unfold sub_list. destruct (Z.le_gt_cases j i) as [G|G].
  - replace (Z.to_nat (j - i)) with 0%nat by lia. reflexivity.
  - unfold zlen in J. rewrite !skipn_app, !firstn_app, !skipn_length.
    replace (Z.to_nat (j - i) - (length a - Z.to_nat i))%nat with 0%nat by lia. reflexivity.
Qed.

Lemma store_ok m c c1 base d : sound c -> zlen d <= 4096 -> alloc_buffer m c = (c1, base) ->
  exists c2, store c1 base d = Ok c2 /\ same_rest c c2 /\ sound (set_memory c2 (dflt c2) (block c2) (generation c2) (buf_cap c2) (buf_len c2 + zlen d)) /\
    buf_cap c2 = buf_cap c + 4096 /\ buf_len c2 = buf_len c /\
    (forall off n, 0 <= off -> 0 <= n -> off + n <= zlen d -> kept c2 (buf_len c + zlen d) (shift base off, n) (sub_list d off (off + n))) /\
    ((block c <> None -> m = false) -> forall sp v, kept c (buf_len c) sp v -> kept c2 (buf_len c + zlen d) sp v).
Proof.
  intros (Ld & Lc & K) L E. pose proof (zlen_nonneg d) as Nd. unfold alloc_buffer in E. destruct K as [(C0 & B0)|[(C0 & B0)|(C0 & b & B0 & Lb)]].
  - rewrite C0 in E. cbn [Z.add Z.eqb Pos.eqb] in E. injection E as <- <-. cbn [store set_memory dflt block generation buf_cap buf_len].
    destruct (split_at (dflt c) 0 (zlen d)) as (a & x & y & Es & La & Lx); [lia|lia|lia|]. assert (a = []) as -> by (destruct a; [reflexivity|rewrite zlen_cons in La; pose proof (zlen_nonneg a); lia]).
    rewrite Es. change 0 with (zlen (@nil Z)) at 1. rewrite (overwrite_mid [] x y d Lx). cbn [bind app]. eexists. split; [reflexivity|].
    split; [repeat split|]. cbn [set_memory dflt block generation buf_cap buf_len].
    assert (Ln : zlen (d ++ y) = 4096) by (rewrite <- Ld, Es; cbn [app]; rewrite !zlen_app; lia).
    split; [split; [exact Ln|]; split; [cbn [set_memory buf_len buf_cap]; lia|right; left; auto]|]. split; [lia|]. split; [reflexivity|]. split.
    + intros off n O N B. unfold kept. cbn [shift fst snd load dflt set_memory buf_cap]. split; [|split; lia]. unfold load. cbn [fst snd dflt set_memory].
      replace ((0 + off <? 0) || (zlen (d ++ y) <? 0 + off + n)) with false by lia. f_equal. rewrite Z.add_0_l. apply (sub_list_prefix d d []); [now rewrite app_nil_r|lia|lia].
    + intros M [[|off|g off] n] v (E1 & E2 & E3); unfold kept, load in *; cbn [fst snd set_memory dflt block] in *; [auto|lia|rewrite B0 in E1; discriminate].
  - rewrite B0 in E. replace (buf_cap c + 4096 =? 4096) with false in E by lia. injection E as <- <-. cbn [store set_memory dflt block generation buf_cap buf_len].
    rewrite C0. replace (4096 + 4096 - 4096) with 4096 by lia. rewrite Nat.eqb_refl.
    assert (Lr : zlen (dflt c ++ repeat 0 (Z.to_nat 4096)) = 8192) by (rewrite zlen_app, Ld; unfold zlen; rewrite repeat_length; lia).
    destruct (split_at (dflt c ++ repeat 0 (Z.to_nat 4096)) (buf_len c) (zlen d)) as (a & x & y & Es & La & Lx); [lia|lia|lia|].
    rewrite Es. rewrite <- La. rewrite (overwrite_mid a x y d Lx). cbn [bind]. rewrite La. eexists. split; [reflexivity|].
    split; [repeat split|]. cbn [set_memory dflt block generation buf_cap buf_len].
    assert (Ln : zlen (a ++ d ++ y) = 8192) by (rewrite <- Lr, Es, !zlen_app; lia).
    split; [split; [exact Ld|]; split; [cbn [set_memory buf_len buf_cap]; lia|right; right; split; [cbn; lia|]; eexists; split; [reflexivity|exact Ln]]|]. split; [lia|]. split; [reflexivity|]. split.
    + intros off n O N B. unfold kept, load. cbn [shift fst snd block set_memory buf_cap generation]. split; [|split; lia]. rewrite Nat.eqb_refl.
      replace ((buf_len c + off <? 0) || (zlen (a ++ d ++ y) <? buf_len c + off + n)) with false by lia. f_equal.
      destruct (split_at d off n) as (d1 & d2 & d3 & -> & L1 & L2); [lia|lia|lia|]. rewrite <- La, <- L1, <- L2, sub_list_mid.
      replace (a ++ (d1 ++ d2 ++ d3) ++ y) with ((a ++ d1) ++ d2 ++ (d3 ++ y)) by (now rewrite <- !app_assoc).
      replace (zlen a + zlen d1) with (zlen (a ++ d1)) by (now rewrite zlen_app). apply sub_list_mid.
    + intros M [[|off|g off] n] v (E1 & E2 & E3); unfold kept, load in *; cbn [fst snd set_memory dflt block buf_cap] in *; [auto|split; [exact E1|lia]|rewrite B0 in E1; discriminate].
  - rewrite B0 in E. replace (buf_cap c + 4096 =? 4096) with false in E by lia. injection E as <- <-. cbn [store set_memory dflt block generation buf_cap buf_len].
    rewrite Nat.eqb_refl, Lb. replace (buf_cap c + 4096 - buf_cap c) with 4096 by lia.
    assert (Lr : zlen (b ++ repeat 0 (Z.to_nat 4096)) = buf_cap c + 4096) by (rewrite zlen_app, Lb; unfold zlen; rewrite repeat_length; lia).
    destruct (split_at (b ++ repeat 0 (Z.to_nat 4096)) (buf_len c) (zlen d)) as (a & x & y & Es & La & Lx); [lia|lia|lia|].
    rewrite Es. rewrite <- La. rewrite (overwrite_mid a x y d Lx). cbn [bind]. rewrite La. eexists. split; [reflexivity|].
    split; [repeat split|]. cbn [set_memory dflt block generation buf_cap buf_len].
    assert (Ln : zlen (a ++ d ++ y) = buf_cap c + 4096) by (rewrite <- Lr, Es, !zlen_app; lia).
    split; [split; [exact Ld|]; split; [cbn [set_memory buf_len buf_cap]; lia|right; right; split; [cbn; lia|]; eexists; split; [reflexivity|exact Ln]]|]. split; [lia|]. split; [reflexivity|]. split.
    + intros off n O N B. unfold kept, load. cbn [shift fst snd block set_memory buf_cap generation]. split; [|split; lia]. rewrite Nat.eqb_refl.
      replace ((buf_len c + off <? 0) || (zlen (a ++ d ++ y) <? buf_len c + off + n)) with false by lia. f_equal.
      destruct (split_at d off n) as (d1 & d2 & d3 & -> & L1 & L2); [lia|lia|lia|]. rewrite <- La, <- L1, <- L2, sub_list_mid.
      replace (a ++ (d1 ++ d2 ++ d3) ++ y) with ((a ++ d1) ++ d2 ++ (d3 ++ y)) by (now rewrite <- !app_assoc).
      replace (zlen a + zlen d1) with (zlen (a ++ d1)) by (now rewrite zlen_app). apply sub_list_mid.
    + intros M [[|off|g off] n] v (E1 & E2 & E3); unfold kept, load in *; cbn [fst snd set_memory dflt block buf_cap generation] in *; [auto|split; [exact E1|lia]|].
      rewrite B0 in E1. rewrite (M ltac:(rewrite B0; discriminate)). destruct (Nat.eqb g (generation c)); [|discriminate E1]. split; [|lia].
      destruct ((off <? 0) || (zlen b <? off + n)) eqn:Q; [discriminate E1|]. replace ((off <? 0) || (zlen (a ++ d ++ y) <? off + n)) with false by lia.
      rewrite <- E1. f_equal. rewrite (sub_list_prefix (b ++ repeat 0 (Z.to_nat 4096)) a (x ++ y)) by (auto; lia).
      apply (sub_list_prefix b b []); [now rewrite app_nil_r|lia|lia].
Qed.

(** ** What has been reported *)

Record seen := mk_seen {
  a_url : list Z; a_path : list Z; a_query : list Z; a_body : list Z; a_host : list Z;
  a_fields : list (list Z * list Z); a_name : list Z; a_flag : bool; a_done : bool; a_method : Z }.

Definition nothing : seen := mk_seen [] [] [] [] [] [] [] false false 0.

Definition note (a : seen) (p : piece) : seen :=
  match p with
  | PUrl s =>
      let '(path, query) := match memchr 63 s with
                            | Some q => (sub_list s 0 q, sub_list s (q + 1) (zlen s))
                            | None => (s, a_query a)
                            end in
      mk_seen s path query (a_body a) (a_host a) (a_fields a) (a_name a) (a_flag a) (a_done a) (a_method a)
  | PField s => mk_seen (a_url a) (a_path a) (a_query a) (a_body a) (a_host a) (a_fields a) s
                  (if list_eq_dec Z.eq_dec s (bs "Host") then true else a_flag a) (a_done a) (a_method a)
  | PValue s => mk_seen (a_url a) (a_path a) (a_query a) (a_body a) (if a_flag a then s else a_host a) (a_fields a ++ [(a_name a, s)]) [] false (a_done a) (a_method a)
  | PBody s => mk_seen (a_url a) (a_path a) (a_query a) s (a_host a) (a_fields a) (a_name a) (a_flag a) (a_done a) (a_method a)
  | PDone m => mk_seen (a_url a) (a_path a) (a_query a) (a_body a) (a_host a) (a_fields a) (a_name a) (a_flag a) true m
  end.

(** There is room for the fields. *)
Fixpoint fits (n : Z) (l : list piece) : Prop :=
  match l with
  | [] => True
  | PField _ :: t => n < 100 /\ fits n t
  | PValue _ :: t => n < 100 /\ fits (n + 1) t
  | _ :: t => fits n t
  end.

Definition shows (c : sconn) (top : Z) (a : seen) : Prop :=
  kept c top (url_at c) (a_url a) /\ kept c top (path_at c) (a_path a) /\ kept c top (query_at c) (a_query a) /\ kept c top (body_at c) (a_body a) /\
  kept c top (host_at c) (a_host a) /\ kept c top (name_at c) (a_name a) /\
  Forall2 (fun sp nv => kept c top (fst sp) (fst nv) /\ kept c top (snd sp) (snd nv)) (fields c) (a_fields a) /\
  host_flag c = a_flag a /\ completed c = a_done a /\ req_method c = a_method a.

Lemma kept_ext c c' top sp v : dflt c' = dflt c -> block c' = block c -> generation c' = generation c -> buf_cap c' = buf_cap c -> kept c top sp v -> kept c' top sp v.
Proof. intros A B C D (E1 & E2 & E3). unfold kept. rewrite (load_ext c c' sp A B C), D. auto. Qed.

Lemma memchr_spec x l : match memchr x l with
  | Some q => exists a b, l = a ++ x :: b /\ ~ In x a /\ q = zlen a
  | None => ~ In x l
  end.
Proof.
  induction l as [|c l IH]; cbn [memchr]; [intros []|]. destruct (Z.eqb_spec c x) as [->|D].
  - exists [], l. split; [reflexivity|]. split; [intros []|now rewrite zlen_nil].
  - destruct (memchr x l) as [q|].
    + destruct IH as (a & b & -> & N & ->). exists (c :: a), b. split; [reflexivity|]. split; [intros [?|?]; auto|rewrite zlen_cons; lia].
    + intros [?|?]; auto.
Qed.

Lemma skipn_skipn'' {A} (n m : nat) (l : list A) : skipn n (skipn m l) = skipn (m + n) l.
Proof.
  revert l. induction m as [|m IH]; intro l; [reflexivity|]. destruct l; [now rewrite !skipn_nil|]. cbn [skipn Nat.add]. apply IH.
Qed.

Lemma kept_null c top : kept c top (Null, 0) [].
Proof. unfold kept, load. cbn. split; [reflexivity|split; [lia|exact I]]. Qed.

Lemma Forall2_zlen {A B} (R : A -> B -> Prop) x y : Forall2 R x y -> zlen x = zlen y.
Proof. induction 1; rewrite ?zlen_nil, ?zlen_cons; auto. lia. Qed.

Lemma kept_sub c top p n v i j : kept c top (p, n) v -> 0 <= i -> i <= j -> j <= n -> kept c top (shift p i, j - i) (sub_list v i j).
Proof.
  intros (E & N & T) I J L. pose proof (load_len _ _ _ E N) as Lv. cbn [fst snd] in *. unfold kept, load in *. destruct p as [|off|g off]; cbn [shift fst snd] in *.
  - destruct (Z.eqb_spec n 0); [|discriminate]. injection E as <-. replace (j - i =? 0) with true by lia. split; [|split; [lia|exact T]].
    replace i with 0 by lia. replace j with 0 by lia. reflexivity.
  - destruct ((off <? 0) || (zlen (dflt c) <? off + n)) eqn:B; [discriminate|]. injection E as <-. split; [|split; [lia|exact T]].
    replace ((off + i <? 0) || (zlen (dflt c) <? off + i + (j - i))) with false by lia. f_equal.
    unfold sub_list. rewrite skipn_firstn_comm, firstn_firstn, skipn_skipn''. f_equal; [lia|]. f_equal. lia.
  - destruct (block c) as [b|]; [|discriminate]. destruct (Nat.eqb g (generation c)); [|discriminate].
    destruct ((off <? 0) || (zlen b <? off + n)) eqn:B; [discriminate|]. injection E as <-. split; [|split; lia].
    replace ((off + i <? 0) || (zlen b <? off + i + (j - i))) with false by lia. f_equal.
    unfold sub_list. rewrite skipn_firstn_comm, firstn_firstn, skipn_skipn''. f_equal; [lia|]. f_equal. lia.
Qed.

Lemma shift_0 p : shift p 0 = p.
Proof. destruct p; cbn [shift]; rewrite ?Z.add_0_r; reflexivity. Qed.

Lemma callback_shows base c top a d e : shows c top a -> in_read d e ->
  (forall off n, 0 <= off -> 0 <= n -> off + n <= zlen d -> kept c top (shift base off, n) (sub_list d off (off + n))) ->
  (match e with OnField _ _ | OnValue _ _ => zlen (a_fields a) < 100 | _ => True end) ->
  exists c', on_callback base c e = Ok c' /\ shows c' top (note a (piece_of d e)) /\
    dflt c' = dflt c /\ block c' = block c /\ generation c' = generation c /\ buf_cap c' = buf_cap c /\ buf_len c' = buf_len c.
Proof.
  intros (Ku & Kp & Kq & Kb & Kh & Kn & Kf & F1 & F2 & F3) Ir Kd Fit. pose proof (Forall2_zlen _ _ _ Kf) as Lf.
  destruct e as [o n|o n|o n|o n|m]; cbn [on_callback piece_of note in_read] in *.
  - destruct Ir as (I1 & I2 & I3). pose proof (Kd o n I1 I2 I3) as K. pose proof K as (El & _). rewrite El. cbn [bind].
    pose proof (load_len _ _ _ El I2) as Lt. cbn [snd] in Lt.
    pose proof (memchr_spec 63 (sub_list d o (o + n))) as M. destruct (memchr 63 (sub_list d o (o + n))) as [q|].
    + destruct M as (x & y & Es & _ & ->). assert (Lq : zlen x + 1 <= n) by (rewrite <- Lt, Es, zlen_app, zlen_cons; pose proof (zlen_nonneg y); lia). pose proof (zlen_nonneg x).
      eexists. split; [reflexivity|]. split; [|repeat split]. unfold shows. cbn [url_at path_at query_at body_at host_at name_at fields host_flag completed req_method a_url a_path a_query a_body a_host a_fields a_name a_flag a_done a_method].
      split; [exact K|]. split; [|split; [|auto 10]].
      * pose proof (kept_sub c top _ n _ 0 (zlen x) K ltac:(lia) ltac:(lia) ltac:(lia)) as X. rewrite shift_0, Z.sub_0_r in X. exact X.
      * pose proof (kept_sub c top _ n _ (zlen x + 1) n K ltac:(lia) ltac:(lia) ltac:(lia)) as X. rewrite Lt. replace (n - zlen x - 1) with (n - (zlen x + 1)) by lia. exact X.
    + eexists. split; [reflexivity|]. split; [|repeat split]. unfold shows. cbn [url_at path_at query_at body_at host_at name_at fields host_flag completed req_method a_url a_path a_query a_body a_host a_fields a_name a_flag a_done a_method]. auto 12.
  - destruct Ir as (I1 & I2 & I3). pose proof (Kd o n I1 I2 I3) as K. pose proof K as (El & _). replace (100 <=? zlen (fields c)) with false by lia. rewrite El. cbn [bind].
    eexists. split; [reflexivity|]. split; [|repeat split]. unfold shows. cbn [url_at path_at query_at body_at host_at name_at fields host_flag completed req_method a_url a_path a_query a_body a_host a_fields a_name a_flag a_done a_method].
    rewrite F1. auto 12.
  - destruct Ir as (I1 & I2 & I3). pose proof (Kd o n I1 I2 I3) as K. replace (100 <=? zlen (fields c)) with false by lia.
    eexists. split; [reflexivity|]. split; [|repeat split]. unfold shows. cbn [url_at path_at query_at body_at host_at name_at fields host_flag completed req_method a_url a_path a_query a_body a_host a_fields a_name a_flag a_done a_method].
    split; [exact Ku|]. split; [exact Kp|]. split; [exact Kq|]. split; [exact Kb|]. split; [rewrite F1; destruct (a_flag a); assumption|]. split; [apply kept_null|].
    split; [|auto]. apply Forall2_app; [exact Kf|]. constructor; [|constructor]. split; [exact Kn|exact K].
  - destruct Ir as (I1 & I2 & I3). pose proof (Kd o n I1 I2 I3) as K.
    eexists. split; [reflexivity|]. split; [|repeat split]. unfold shows. cbn [url_at path_at query_at body_at host_at name_at fields host_flag completed req_method a_url a_path a_query a_body a_host a_fields a_name a_flag a_done a_method]. auto 12.
  - eexists. split; [reflexivity|]. split; [|repeat split]. unfold shows. cbn [url_at path_at query_at body_at host_at name_at fields host_flag completed req_method a_url a_path a_query a_body a_host a_fields a_name a_flag a_done a_method]. auto 12.
Qed.

Lemma note_count a p : zlen (a_fields (note a p)) = match p with PValue _ => zlen (a_fields a) + 1 | _ => zlen (a_fields a) end.
Proof.
  destruct p as [s|s|s|s|m]; cbn [note]; [destruct (memchr 63 s)|..]; cbn [a_fields]; auto. rewrite zlen_app, zlen_cons, zlen_nil. lia.
Qed.

Lemma callbacks_show base d top l : forall c a, shows c top a -> Forall (in_read d) l ->
  (forall off n, 0 <= off -> 0 <= n -> off + n <= zlen d -> kept c top (shift base off, n) (sub_list d off (off + n))) ->
  fits (zlen (a_fields a)) (map (piece_of d) l) ->
  exists c', on_callbacks base c l = Ok c' /\ shows c' top (fold_left note (map (piece_of d) l) a) /\
    dflt c' = dflt c /\ block c' = block c /\ generation c' = generation c /\ buf_cap c' = buf_cap c /\ buf_len c' = buf_len c.
Proof.
  induction l as [|e l IH]; intros c a Sh F Kd Fit; [exists c; cbn; auto 10|]. pose proof (Forall_inv F) as Fe. apply Forall_inv_tail in F.
  destruct (callback_shows base c top a d e Sh Fe Kd) as (c1 & E1 & S1 & A1 & A2 & A3 & A4 & A5).
  { destruct e; cbn [map piece_of fits] in Fit; tauto. }
  destruct (IH c1 (note a (piece_of d e)) S1 F) as (c' & E' & S' & B1 & B2 & B3 & B4 & B5).
  { intros off n O N B. apply (kept_ext c); auto. }
  { rewrite note_count. destruct e; cbn [map piece_of fits] in *; tauto. }
  exists c'. cbn [on_callbacks map fold_left]. rewrite E1. cbn [bind]. split; [exact E'|]. split; [exact S'|]. rewrite B1, B2, B3, B4, B5. auto 10.
Qed.

Lemma shows_mem c c2 top top' a : same_rest c c2 -> (forall sp v, kept c top sp v -> kept c2 top' sp v) -> shows c top a -> shows c2 top' a.
Proof.
  intros (R1 & R2 & R3 & R4 & R5 & R6 & R7 & R8 & R9 & R10) K (Ku & Kp & Kq & Kb & Kh & Kn & Kf & F1 & F2 & F3). unfold shows.
  rewrite R1, R2, R3, R4, R5, R6, R7, R8, R9, R10. do 6 (split; [auto|]). split; [|auto].
  clear -Kf K. induction Kf as [|x y l m (A & B) _ IH]; constructor; auto.
Qed.

Lemma fits_app n x y : fits n (x ++ y) -> fits n x /\ fits (zlen (filter (fun p => match p with PValue _ => true | _ => false end) x) + n) y.
Proof.
  revert n. induction x as [|p x IH]; intros n F; cbn [app] in F; [cbn [fits filter]; rewrite zlen_nil; auto|].
  destruct p; cbn [fits filter app] in *; try (apply IH in F; exact F).
  - destruct F as (F1 & F2). apply IH in F2. tauto.
  - destruct F as (F1 & F2). apply IH in F2. destruct F2 as (F2 & F3). rewrite zlen_cons. split; [auto|].
    match goal with H : fits ?u y |- fits ?v y => replace v with u by lia; exact H end.
Qed.

Lemma fold_count l : forall a, zlen (a_fields (fold_left note l a)) = zlen (filter (fun p => match p with PValue _ => true | _ => false end) l) + zlen (a_fields a).
Proof.
  induction l as [|p l IH]; intro a; cbn [fold_left filter]; [rewrite zlen_nil; lia|]. rewrite IH, note_count. destruct p; rewrite ?zlen_cons; lia.
Qed.

Lemma read_shows c a r : sound c -> shows c (buf_len c) a -> (block c <> None -> moved r = false) -> read_ok r -> fits (zlen (a_fields a)) (pieces_of r) ->
  exists c', on_read c r = Ok c' /\ sound c' /\ shows c' (buf_len c') (fold_left note (pieces_of r) a) /\ buf_cap c' = buf_cap c + 4096.
Proof.
  intros So Sh M (L & F) Fit. unfold on_read. destruct (alloc_buffer (moved r) c) as [c1 base] eqn:E.
  destruct (store_ok (moved r) c c1 base (data r) So L E) as (c2 & E2 & R & S2 & Cc & Cl & New & Old). rewrite E2. cbn [bind].
  pose proof (shows_mem c c2 _ _ a R (Old M) Sh) as Sh2.
  destruct (callbacks_show base (data r) _ (callbacks r) c2 a Sh2 F New Fit) as (c3 & E3 & S3 & A1 & A2 & A3 & A4 & A5). rewrite E3. cbn [bind].
  eexists. split; [reflexivity|]. rewrite <- A1, <- A2, <- A3, <- A4, <- A5 in S2.
  split; [|split].
  - destruct S2 as (X1 & X2 & X3). split; [exact X1|]. split; [exact X2|exact X3].
  - cbn [set_memory buf_len]. rewrite A5, Cl. apply (shows_mem c3 _ (buf_len c + zlen (data r))); [repeat split| |exact S3].
    intros sp v K. apply (kept_ext c3); auto.
  - cbn [set_memory buf_cap]. lia.
Qed.

(** ** The request *)

Definition request_of (a : seen) : request :=
  mk_request (a_method a) (fold_left (fun h nv => assign h (fst nv) (snd nv)) (a_fields a) []) (zlen (a_body a)) (a_host a) (a_url a) (a_path a) (a_query a) (a_body a).

Lemma copy_headers_ok c top l nvs : Forall2 (fun sp nv => kept c top (fst sp) (fst nv) /\ kept c top (snd sp) (snd nv)) l nvs ->
  forall h, copy_headers c l h = Ok (fold_left (fun h nv => assign h (fst nv) (snd nv)) nvs h).
Proof.
  induction 1 as [|[n v] nv l nvs ((E1 & _) & (E2 & _)) _ IH]; intro h; [reflexivity|]. cbn [copy_headers fold_left fst snd] in *. rewrite E1. cbn [bind]. rewrite E2. cbn [bind]. apply IH.
Qed.

Lemma request_new_ok c top a : shows c top a -> request_new c = Ok (request_of a).
Proof.
  intros ((Eu & _) & (Ep & _) & (Eq & Nq & _) & (Eb & Nb & _) & (Eh & _) & _ & Kf & _ & _ & F3). unfold request_new. rewrite Eh, Eu, Ep. cbn [bind].
  pose proof (load_len _ _ _ Eb Nb) as Lb. pose proof (load_len _ _ _ Eq Nq) as Lq.
  assert (Z0 : forall v : list Z, zlen v = 0 -> v = []) by (intros [|x v] Z; [reflexivity|rewrite zlen_cons in Z; pose proof (zlen_nonneg v); lia]).
  rewrite (copy_headers_ok c top _ _ Kf). rewrite Eb, Eq. unfold request_of. rewrite F3.
  destruct (Z.ltb_spec 0 (snd (body_at c))); destruct (Z.ltb_spec 0 (snd (query_at c))); cbn [bind]; f_equal; f_equal; try lia; symmetry; apply Z0; lia.
Qed.

Definition no_done (l : list piece) : Prop := forall m, ~ In (PDone m) l.

Lemma done_stays l : forall a, no_done l -> a_done (fold_left note l a) = a_done a.
Proof.
  induction l as [|p l IH]; intros a N; [reflexivity|]. cbn [fold_left]. rewrite IH by (intros m I; apply (N m); now right).
  destruct p as [s|s|s|s|m]; cbn [note]; [destruct (memchr 63 s)|..]; cbn [a_done]; auto. exfalso. apply (N m). now left.
Qed.

Lemma serve_shows l : forall c a pre m, sound c -> shows c (buf_len c) a -> a_done a = false -> Forall read_ok l ->
  Forall (fun r => moved r = false) (skipn (if buf_cap c =? 0 then 2 else if buf_cap c =? 4096 then 1 else 0) l) ->
  concat (map pieces_of l) = pre ++ [PDone m] -> no_done pre -> fits (zlen (a_fields a)) pre ->
  serve c l = Ok (Some (request_of (fold_left note (pre ++ [PDone m]) a))).
Proof.
  induction l as [|r l IH]; intros c a pre m So Sh D F M E N Fit; cbn [map concat] in E; [destruct pre; discriminate|].
  pose proof (Forall_inv F) as Fr. apply Forall_inv_tail in F.
  assert (M1 : block c <> None -> moved r = false).
  { intro B. destruct So as (_ & _ & [(_ & X)|[(_ & X)|(X & _)]]); [contradiction|contradiction|].
    replace (buf_cap c =? 0) with false in M by lia. replace (buf_cap c =? 4096) with false in M by lia. cbn [skipn] in M. exact (Forall_inv M). }
  assert (Fit2 : fits (zlen (a_fields a)) (pre ++ [PDone m])).
  { clear -Fit. revert Fit. generalize (zlen (a_fields a)). induction pre as [|p pre IH]; intros n Fit; [exact I|]. destruct p; cbn [app fits] in *; try (apply IH; exact Fit); (split; [tauto|apply IH; tauto]). }
  rewrite <- E in Fit2. apply fits_app in Fit2 as (Fit1 & Fit2). rewrite <- fold_count in Fit2.
  destruct (read_shows c a r So Sh M1 Fr Fit1) as (c' & Er & So' & Sh' & Cc). cbn [serve]. rewrite Er. cbn [bind].
  assert (Dc : completed c' = a_done (fold_left note (pieces_of r) a)) by apply Sh'.
  destruct (concat (map pieces_of l)) as [|p rest] eqn:El.
  - rewrite app_nil_r in E. rewrite E in *. rewrite fold_left_app in Dc. cbn [fold_left note a_done] in Dc. rewrite Dc.
    rewrite (request_new_ok c' _ _ Sh'). reflexivity.
  - assert (exists mid, pre = pieces_of r ++ mid /\ p :: rest = mid ++ [PDone m]) as (mid & -> & Em).
    { destruct (@exists_last _ (p :: rest)) as (mid & z & Ez); [discriminate|]. rewrite Ez in E. rewrite app_assoc in E. apply app_inj_tail in E as (<- & ->). exists mid. auto. }
    assert (Nr : no_done (pieces_of r)) by (intros x I; apply (N x), in_or_app; now left).
    rewrite (done_stays _ a Nr), D in Dc. rewrite Dc. rewrite Em in Fit2. rewrite <- app_assoc, fold_left_app.
    apply IH; auto.
    + rewrite done_stays; auto.
    + destruct So as (_ & _ & [(X & _)|[(X & _)|(X & _)]]); rewrite Cc, X || rewrite Cc.
      * rewrite X in M. cbn [Z.add Z.eqb Pos.eqb skipn] in *. exact M.
      * rewrite X in M. cbn [Z.add Z.eqb Pos.eqb Pos.add skipn] in *. exact M.
      * replace (buf_cap c =? 0) with false in M by lia. replace (buf_cap c =? 4096) with false in M by lia.
        replace (buf_cap c + 4096 =? 0) with false by lia. replace (buf_cap c + 4096 =? 4096) with false by lia. cbn [skipn] in *. exact (Forall_inv_tail M).
    + intros x I. apply (N x), in_or_app. now right.
    + apply fits_app in Fit2. tauto.
Qed.

Lemma new_sound : sound new_sconn.
Proof. split; [unfold zlen; cbn [new_sconn dflt]; rewrite repeat_length; lia|]. split; [cbn; lia|left; auto]. Qed.

Lemma new_shows : shows new_sconn 0 nothing.
Proof. unfold shows. cbn [new_sconn url_at path_at query_at body_at host_at name_at fields]. do 6 (split; [apply kept_null|]). split; [constructor|]. split; [reflexivity|split; reflexivity]. Qed.

Lemma last_field_cons n v0 fs k v : last_field ((n, v0) :: fs) k v <-> last_field fs k v \/ (n = k /\ v0 = v /\ forall nv, In nv fs -> fst nv <> k).
Proof.
  split.
  - intros (a & b & E & N). destruct a as [|x a]; cbn [app] in E; injection E as E1 E2; [|left; exists a, b; auto].
    subst. right. auto.
  - intros [(a & b & -> & N)|(-> & -> & N)]; [exists ((n, v0) :: a), b; auto|exists [], fs; auto].
Qed.

Lemma last_field_in fs k v : last_field fs k v -> In (k, v) fs.
Proof. intros (a & b & -> & _). apply in_or_app. right. now left. Qed.

Lemma field_named_dec (fs : list (list Z * list Z)) k : (exists v, last_field fs k v) \/ (forall nv, In nv fs -> fst nv <> k).
Proof.
  induction fs as [|[n v] fs [(v' & H)|N]]; [right; intros ? []|left; exists v'; apply last_field_cons; auto|].
  destruct (list_eq_dec Z.eq_dec n k) as [->|D]; [left; exists v; apply last_field_cons; auto|right; intros nv [<-|I]; auto].
Qed.

Lemma assigned fs : forall h, NoDup (map fst h) ->
  let h' := fold_left (fun h nv => assign h (fst nv) (snd nv)) fs h in
  NoDup (map fst h') /\ forall k v, In (k, v) h' <-> last_field fs k v \/ (In (k, v) h /\ forall nv, In nv fs -> fst nv <> k).
Proof.
  induction fs as [|[n w] fs IH]; intros h N; cbn [fold_left fst snd].
  - split; [exact N|]. intros k v. split; [intro I; right; split; [exact I|intros nv []]|intros [H|(I & _)]; [apply last_field_in in H as []|exact I]].
  - destruct (assign_split h n w N) as (_ & _ & _ & _ & N1). destruct (IH _ N1) as (N2 & H). split; [exact N2|].
    intros k v. rewrite H, (assign_in _ _ _ _ _ N), last_field_cons. split.
    + intros [A|([(-> & ->)|(D & B)] & C)]; [auto|auto 6|]. right. split; [exact B|]. intros nv [<-|J]; auto.
    + intros [[A|(<- & <- & C)]|(A & C)]; [auto|auto 6|]. right. split; [|intros nv J; apply C; now right]. right. split; [|exact A].
      intros ->. apply (C (n, w)); [now left|reflexivity].
Qed.

Lemma fields_run fs : forall a, a_flag a = false -> a_name a = [] -> exists h,
  fold_left note (flat_map (fun nv => [PField (fst nv); PValue (snd nv)]) fs) a =
  mk_seen (a_url a) (a_path a) (a_query a) (a_body a) h (a_fields a ++ fs) [] false (a_done a) (a_method a) /\
  (forall v, last_field fs (bs "Host") v -> h = v) /\ ((forall nv, In nv fs -> fst nv <> bs "Host") -> h = a_host a).
Proof.
  induction fs as [|[n v] fs IH]; intros a Fl Na.
  - exists (a_host a). cbn [flat_map fold_left]. rewrite app_nil_r. split; [destruct a; cbn in *; now subst|]. split; [intros v H; apply last_field_in in H as []|auto].
  - cbn [flat_map app fold_left]. set (a1 := note (note a (PField (fst (n, v)))) (PValue (snd (n, v)))). destruct (IH a1) as (h & E & H1 & H2); [reflexivity|reflexivity|].
    exists h. split; [|split].
    + rewrite E. unfold a1. cbn [note fst snd a_url a_path a_query a_body a_fields a_name a_done a_method]. now rewrite <- app_assoc.
    + intros w L. apply last_field_cons in L as [L|(K & <- & N)]; [auto|]. rewrite (H2 N). unfold a1. cbn [note fst snd a_host a_flag]. subst n.
      destruct (list_eq_dec Z.eq_dec (bs "Host") (bs "Host")) as [_|X]; [reflexivity|contradiction].
    + intro N. rewrite H2 by (intros nv I; apply N; now right). unfold a1. cbn [note fst snd a_host a_flag].
      destruct (list_eq_dec Z.eq_dec n (bs "Host")) as [X|_]; [exfalso; exact (N (n, v) (or_introl eq_refl) X)|now rewrite Fl].
Qed.

Lemma message_seen q : faithful q (request_of (fold_left note (message q) nothing)).
Proof.
  unfold message. rewrite fold_left_app. cbn [fold_left].
  pose proof (memchr_spec 63 (s_target q)) as M.
  assert (exists p qu, note nothing (PUrl (s_target q)) = mk_seen (s_target q) p qu [] [] [] [] false false 0 /\
    (s_target q = p ++ 63 :: qu \/ s_target q = p /\ qu = []) /\ ~ In 63 p) as (p & qu & -> & P1 & P2).
  { cbn [note nothing a_query a_body a_host a_fields a_name a_flag a_done a_method]. destruct (memchr 63 (s_target q)) as [i|].
    - destruct M as (x & y & E & N & ->). rewrite E. pose proof (zlen_nonneg x). pose proof (zlen_nonneg y). eexists _, _. split; [reflexivity|].
      pose proof (sub_list_mid [] x (63 :: y)) as A. cbn [app] in A. rewrite zlen_nil, Z.add_0_l in A. rewrite A.
      pose proof (sub_list_mid (x ++ [63]) y []) as B. rewrite app_nil_r, <- app_assoc in B. cbn [app] in B. rewrite !zlen_app, !zlen_cons, zlen_nil in *.
      replace (zlen x + (1 + zlen y)) with (zlen x + (1 + 0) + zlen y) by lia. replace (zlen x + 1) with (zlen x + (1 + 0)) by lia. rewrite B. auto.
    - eexists _, _. split; [reflexivity|]. auto. }
  rewrite fold_left_app.
  destruct (fields_run (s_fields q) (mk_seen (s_target q) p qu [] [] [] [] false false 0) eq_refl eq_refl) as (h & -> & H1 & H2).
  cbn [a_url a_path a_query a_body a_host a_fields a_done a_method app].
  destruct (assigned (s_fields q) [] (NoDup_nil _)) as (_ & As). cbv zeta in As.
  assert (G : faithful q (request_of (mk_seen (s_target q) p qu (s_body q) h (s_fields q) [] false true (s_method q)))).
  { unfold faithful, request_of. cbn [q_method q_url q_path q_query q_headers q_host q_body q_length a_method a_fields a_body a_host a_url a_path a_query].
    split; [reflexivity|]. split; [reflexivity|]. split; [exact P1|]. split; [exact P2|]. split; [|auto].
    intros k v. rewrite As. split; [intros [X|([] & _)]; exact X|auto]. }
  destruct (s_body q) as [|b bd]; cbn [app fold_left note a_url a_path a_query a_body a_host a_fields a_name a_flag]; exact G.
Qed.

Lemma message_fits q : zlen (s_fields q) <= 100 -> exists pre, message q = pre ++ [PDone (s_method q)] /\ no_done pre /\ fits 0 pre.
Proof.
  intro L. unfold message. eexists. split; [rewrite !app_assoc; reflexivity|]. split.
  - intros m I. rewrite <- app_assoc in I. apply in_app_or in I as [[I|[]]|I]; [discriminate|]. apply in_app_or in I as [I|I].
    + apply in_flat_map in I as (nv & _ & [I|[I|[]]]); discriminate.
    + destruct (s_body q); [destruct I|destruct I as [I|[]]; discriminate].
  - rewrite <- app_assoc. cbn [app fits].
    assert (G : forall fs n t, zlen fs + n <= 100 -> (forall k, fits k t) -> fits n (flat_map (fun nv : list Z * list Z => [PField (fst nv); PValue (snd nv)]) fs ++ t)).
    { clear. induction fs as [|nv fs IH]; intros n t B T; [apply T|]. cbn [flat_map app fits]. rewrite zlen_cons in B. pose proof (zlen_nonneg fs). split; [lia|]. split; [lia|]. apply IH; [lia|exact T]. }
    apply G; [lia|]. intro k. destruct (s_body q); cbn [fits]; exact I.
Qed.

Lemma handler_sees l q : Forall read_ok l -> Forall (fun r => moved r = false) (skipn 2 l) -> zlen (s_fields q) <= 100 ->
  concat (map pieces_of l) = message q -> exists r, serve new_sconn l = Ok (Some r) /\ faithful q r.
Proof.
  intros F M L E. destruct (message_fits q L) as (pre & Em & N & Fit). pose proof (message_seen q) as G. rewrite Em in E, G.
  eexists. split; [|exact G]. apply serve_shows; auto; [exact new_sound|exact new_shows].
Qed.

(** ** Reading stays inside the buffers *)

Definition is_value (p : piece) : bool := match p with PValue _ => true | _ => false end.

Fixpoint read_all (c : sconn) (l : list netread) : res sconn :=
  match l with [] => Ok c | r :: t => c <- on_read c r ;; read_all c t end.

Lemma callbacks_safe base d top l : forall c, Forall (in_read d) l ->
  (forall off n, 0 <= off -> 0 <= n -> off + n <= zlen d -> kept c top (shift base off, n) (sub_list d off (off + n))) ->
  zlen (fields c) + zlen (filter is_value (map (piece_of d) l)) < 100 ->
  exists c', on_callbacks base c l = Ok c' /\ zlen (fields c') = zlen (fields c) + zlen (filter is_value (map (piece_of d) l)) /\
    dflt c' = dflt c /\ block c' = block c /\ generation c' = generation c /\ buf_cap c' = buf_cap c /\ buf_len c' = buf_len c.
Proof.
  induction l as [|e l IH]; intros c F Kd B; cbn [map filter on_callbacks] in *; [exists c; rewrite zlen_nil; repeat split; lia|].
  pose proof (Forall_inv F) as Fe. apply Forall_inv_tail in F.
  assert (X : exists c1, on_callback base c e = Ok c1 /\ zlen (fields c1) = zlen (fields c) + (if is_value (piece_of d e) then 1 else 0) /\
    dflt c1 = dflt c /\ block c1 = block c /\ generation c1 = generation c /\ buf_cap c1 = buf_cap c /\ buf_len c1 = buf_len c).
  { pose proof (zlen_nonneg (filter is_value (map (piece_of d) l))).
    destruct e as [o n|o n|o n|o n|m]; cbn [on_callback piece_of is_value in_read] in *; try (destruct Fe as (I1 & I2 & I3); destruct (Kd o n I1 I2 I3) as (El & _); rewrite ?El; cbn [bind]).
    - destruct (memchr 63 (sub_list d o (o + n))); (eexists; split; [reflexivity|]; cbn; repeat split; lia).
    - replace (100 <=? zlen (fields c)) with false by lia. cbn [bind]. eexists; split; [reflexivity|]; cbn [fields dflt block generation buf_cap buf_len]; repeat split; lia.
    - rewrite zlen_cons in B. replace (100 <=? zlen (fields c)) with false by lia. eexists; split; [reflexivity|]; cbn [fields dflt block generation buf_cap buf_len]. rewrite zlen_app, zlen_cons, zlen_nil. repeat split; lia.
    - eexists; split; [reflexivity|]; cbn; repeat split; lia.
    - eexists; split; [reflexivity|]; cbn; repeat split; lia. }
  destruct X as (c1 & E1 & L1 & A1 & A2 & A3 & A4 & A5). rewrite E1. cbn [bind].
  assert (Lc : zlen (if is_value (piece_of d e) then piece_of d e :: filter is_value (map (piece_of d) l) else filter is_value (map (piece_of d) l)) =
     (if is_value (piece_of d e) then 1 else 0) + zlen (filter is_value (map (piece_of d) l))) by (destruct (is_value (piece_of d e)); rewrite ?zlen_cons; lia).
  rewrite Lc in *. destruct (IH c1 F) as (c' & E' & L' & B1 & B2 & B3 & B4 & B5); [intros; apply (kept_ext c); auto|lia|].
  exists c'. split; [exact E'|]. split; [lia|]. rewrite B1, B2, B3, B4, B5. auto.
Qed.

Lemma reads_safe l : forall c, sound c -> Forall read_ok l -> zlen (fields c) + zlen (filter is_value (concat (map pieces_of l))) < 100 ->
  exists c', read_all c l = Ok c'.
Proof.
  induction l as [|r l IH]; intros c So F B; [exists c; reflexivity|]. pose proof (Forall_inv F) as (L & Fr). apply Forall_inv_tail in F.
  cbn [map concat] in B. rewrite filter_app, zlen_app in B. pose proof (zlen_nonneg (filter is_value (concat (map pieces_of l)))).
  cbn [read_all]. unfold on_read. destruct (alloc_buffer (moved r) c) as [c1 base] eqn:E.
  destruct (store_ok (moved r) c c1 base (data r) So L E) as (c2 & E2 & R & S2 & Cc & Cl & New & _). rewrite E2. cbn [bind].
  destruct R as (_ & _ & _ & _ & _ & Rf & _).
  destruct (callbacks_safe base (data r) _ (callbacks r) c2 Fr New) as (c3 & E3 & L3 & A1 & A2 & A3 & A4 & A5); [rewrite Rf; fold (pieces_of r); lia|]. rewrite E3. cbn [bind].
  apply IH.
  - rewrite <- A1, <- A2, <- A3, <- A4, <- A5 in S2. exact S2.
  - exact F.
  - cbn [set_memory fields]. rewrite L3, Rf. fold (pieces_of r). lia.
Qed.
