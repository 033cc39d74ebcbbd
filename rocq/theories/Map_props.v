(** C11, C12, C13, C61: maps are finite maps. *)
From Verif Require Import Base Base_lemmas Zlist Hash_model Hash_proof Map_model Map_spec Map_proof.
From Coq Require Import Permutation.

Lemma same_bytes_eqb a : forall b, same_bytes a b = list_eqb a b.
Proof. induction a as [|x a IH]; intros [|y b]; cbn; rewrite ?IH; reflexivity. Qed.

Lemma empty_ginv {K V} key_str hash (zk : K) (zv : V) m : empty_map zk zv m -> ginv key_str hash m [] 0.
Proof. intros [->| ->]; [left; apply new_inv|right; auto]. Qed.

(** *** C11 *)

(** Any key type, any key text, any hash function, any history shorter than 2^62 operations, a
    map literal or a zero map: the map either aborts the program (only after four deletions, see
    C12) or every operation reports what a finite map reports, where two keys are the same key
    when their texts are.  Nothing reads or writes out of bounds.  Partial: the abort, and keys
    whose texts coincide although they differ (C13). *)
Theorem map_finite_map_partial : forall (K V : Type) (key_str : K -> list Z) (hash : list Z -> Z) (zk : K) (zv : V) m0 l,
  empty_map zk zv m0 -> zlen l < 2 ^ 62 ->
  run key_str hash zk zv m0 l = Abort \/
  exists m xs, run key_str hash zk zv m0 l = Ok (m, xs) /\
    spec_run (fun a b => same_bytes (key_str a) (key_str b)) [] l xs.
Proof.
  intros K V ks h zk zv m0 l Hm Hl.
  destruct (run_spec ks h zk zv l m0 [] 0 (empty_ginv ks h zk zv m0 Hm)) as [[H _]|(m & xs & H & Hs & _)];
    [lia|exact Hl|now left|right].
  exists m, xs. split; [exact H|]. eapply (spec_run_ext _ _ (fun _ => True)); [| | |exact Hs].
  - intros a b _ _. now rewrite same_bytes_eqb.
  - constructor.
  - apply Forall_forall. intros o _. unfold op_in. destruct (op_key o); exact I.
Qed.
Print Assumptions map_finite_map_partial.

(** Integer keys of every width: the keys are the numbers. *)
Theorem map_int_keys_partial : forall (V : Type) (hash : list Z -> Z) (zv : V) size signed m0 (l : list (op Z V)),
  int_size size -> keys_in (int_of_size signed size) l ->
  empty_map 0 zv m0 -> zlen l < 2 ^ 62 ->
  run (fun v => rtype_value_to_str (KNum size v)) hash 0 zv m0 l = Abort \/
  exists m xs, run (fun v => rtype_value_to_str (KNum size v)) hash 0 zv m0 l = Ok (m, xs) /\ spec_run Z.eqb [] l xs.
Proof.
  intros V h zv size sg m0 l Hs Hk Hm Hl.
  destruct (map_finite_map_partial Z V (fun v => rtype_value_to_str (KNum size v)) h 0 zv m0 l Hm Hl) as [H|(m & xs & H & Hx)];
    [now left|right].
  exists m, xs. split; [exact H|]. eapply (spec_run_ext _ _ (int_of_size sg size)); [| | |exact Hx].
  - intros a b Ha Hb. cbn beta. rewrite same_bytes_eqb. destruct (Z.eqb_spec a b) as [->|Hne]; [now apply list_eqb_eq|].
    destruct (list_eqb _ _) eqn:E; [|reflexivity]. exfalso. apply Hne. apply list_eqb_eq in E.
    apply (num_inj size); auto. unfold int_of_size in *. destruct sg; [right|left]; auto.
  - constructor.
  - revert Hk. apply Forall_impl. intros o Ho. destruct o; exact Ho.
Qed.
Print Assumptions map_int_keys_partial.

(** String keys without a zero byte: the keys are the strings. *)
Theorem map_string_keys_partial : forall (V : Type) (hash : list Z -> Z) (zv : V) m0 (l : list (op (list Z) V)),
  keys_in (fun s => ~ In 0 s) l ->
  empty_map [] zv m0 -> zlen l < 2 ^ 62 ->
  run (fun s => rtype_value_to_str (KStr s)) hash [] zv m0 l = Abort \/
  exists m xs, run (fun s => rtype_value_to_str (KStr s)) hash [] zv m0 l = Ok (m, xs) /\ spec_run same_bytes [] l xs.
Proof.
  intros V h zv m0 l Hk Hm Hl.
  destruct (map_finite_map_partial (list Z) V (fun s => rtype_value_to_str (KStr s)) h [] zv m0 l Hm Hl) as [H|(m & xs & H & Hx)];
    [now left|right].
  exists m, xs. split; [exact H|]. eapply (spec_run_ext _ _ (fun s => ~ In 0 s)); [| | |exact Hx].
  - intros a b Ha Hb. cbn [rtype_value_to_str]. now rewrite !c_string_id.
  - constructor.
  - revert Hk. apply Forall_impl. intros o Ho. destruct o; exact Ho.
Qed.
Print Assumptions map_string_keys_partial.

(** 20 assignments (two growth steps), deletions, lookups, an iteration; negative keys. *)
Definition prog_ints : list (op Z Z) :=
  map (fun k => MAssign (k - 5) (k * k)) (map Z.of_nat (seq 0 20)) ++
  [MDelete 3; MDelete (-4); MDelete 40; MAssign 7 0; MGet 7; MGet 3; MGet (-5); MContains (-4); MAssign (-4) 1; MGet (-4); MLen; MIter].

Example map_int_keys_case :
  int_size 2 /\ keys_in (int_of_size true 2) prog_ints /\ empty_map 0 0 (map_zero (K:=Z) (V:=Z)) /\ zlen prog_ints < 2 ^ 62 /\
  exists m xs, run (fun v => rtype_value_to_str (KNum 2 v)) hash_string 0 0 map_zero prog_ints = Ok (m, xs) /\
    skipn 24 (removelast xs) = [Val 0; Thrown; Val 0; Yes false; Done; Val 1; Num 19].
Proof.
  split; [unfold int_size; lia|]. split.
  { unfold prog_ints, keys_in. cbn [map seq app]. repeat (apply Forall_cons; [cbn; lia|]). constructor. }
  split; [now right|]. split; [reflexivity|]. do 2 eexists. split; vm_compute; reflexivity.
Qed.

Definition prog_strs : list (op (list Z) Z) :=
  [MAssign (bs "one") 1; MAssign (bs "two") 2; MAssign (bs "") 0; MDelete (bs "one"); MGet (bs "one"); MGet (bs ""); MGet (bs "two")].

Example map_string_keys_case :
  keys_in (fun s => ~ In 0 s) prog_strs /\ empty_map [] 0 (map_new (K:=list Z) [] 0) /\ zlen prog_strs < 2 ^ 62 /\
  exists m, run (fun s => rtype_value_to_str (KStr s)) hash_string [] 0 (map_new [] 0) prog_strs =
    Ok (m, [Done; Done; Done; Done; Thrown; Val 0; Val 2]).
Proof.
  split. { unfold prog_strs, keys_in. repeat (apply Forall_cons; [cbn; lia|]). constructor. }
  split; [now left|]. split; [reflexivity|]. eexists. vm_compute. reflexivity.
Qed.

(** *** C12 *)

(** With at most three deletions in its whole life a map never aborts, whatever the keys, the
    hash function and the other operations. *)
Theorem map_no_abort_partial : forall (K V : Type) (key_str : K -> list Z) (hash : list Z -> Z) (zk : K) (zv : V) m0 l,
  empty_map zk zv m0 -> zlen l < 2 ^ 62 -> deletes l <= 3 ->
  exists m xs, run key_str hash zk zv m0 l = Ok (m, xs).
Proof.
  intros K V ks h zk zv m0 l Hm Hl Hd.
  destruct (run_spec ks h zk zv l m0 [] 0 (empty_ginv ks h zk zv m0 Hm)) as [[_ H]|(m & xs & H & _ & _)];
    [lia|exact Hl|lia|eauto].
Qed.
Print Assumptions map_no_abort_partial.

Example map_no_abort_case : empty_map 0 0 (map_zero (K:=Z) (V:=Z)) /\ zlen prog_ints < 2 ^ 62 /\ deletes prog_ints = 3.
Proof. split; [now right|]. split; reflexivity. Qed.

(** Four deletions suffice to make a map with eight to twelve integer keys abort on the lookup of
    a key that is not there: removed entries are never reclaimed until the map grows, and with no
    empty slot left the search does not end.  With the runtime's own hash function. *)
Definition prog_full : list (op Z Z) :=
  map (fun k => MAssign k k) [5; 17; 3; 4; 9; 2; 7; 8; 14; 6; 12; 15] ++
  map (fun k => MDelete k) [5; 17; 3; 4] ++
  map (fun k => MAssign k k) [1; 13; 16; 0] ++
  [MContains 5].

Theorem map_no_abort_refuted : exists l : list (op Z Z),
  keys_in (int_of_size true 8) l /\ deletes l = 4 /\ zlen l = 21 /\
  run (fun v => rtype_value_to_str (KNum 8 v)) hash_string 0 0 (map_new 0 0) l = Abort.
Proof.
  exists prog_full. split.
  { unfold prog_full, keys_in. cbn [map app]. repeat (apply Forall_cons; [cbn; lia|]). constructor. }
  split; [reflexivity|]. split; [reflexivity|]. vm_compute. reflexivity.
Qed.
Print Assumptions map_no_abort_refuted.

(** *** C13 *)

(** Different integers of one type, and different strings without zero bytes, have different key
    texts; so (C11) they are different keys.  Partial: not so for other strings and for structs. *)
Theorem key_texts_differ_partial :
  (forall size signed a b, int_size size -> int_of_size signed size a -> int_of_size signed size b -> a <> b ->
     rtype_value_to_str (KNum size a) <> rtype_value_to_str (KNum size b)) /\
  (forall a b, ~ In 0 a -> ~ In 0 b -> a <> b ->
     rtype_value_to_str (KStr a) <> rtype_value_to_str (KStr b)).
Proof.
  split.
  - intros size sg a b Hs Ha Hb Hne E. apply Hne. apply (num_inj size); auto. unfold int_of_size in *. destruct sg; [right|left]; auto.
  - intros a b Ha Hb Hne E. apply Hne. cbn [rtype_value_to_str] in E. now rewrite !c_string_id in E.
Qed.
Print Assumptions key_texts_differ_partial.

Example key_texts_case :
  int_size 1 /\ int_of_size true 1 (-128) /\ int_of_size true 1 127 /\ ~ In 0 (bs "a") /\ ~ In 0 (bs "ab") /\ bs "a" <> bs "ab" /\
  rtype_value_to_str (KNum 1 (-128)) = bs "128".
Proof.
  split; [unfold int_size; lia|]. split; [cbn; lia|]. split; [cbn; lia|]. split; [cbn; lia|]. split; [cbn; lia|].
  split; [discriminate|reflexivity].
Qed.

(** Two different strings with a zero byte are one key, whatever the hash function. *)
Theorem string_keys_refuted : exists a b : list Z, a <> b /\ bytes a /\ bytes b /\
  forall (hash : list Z -> Z) (x y : Z), exists m,
    run (fun s => rtype_value_to_str (KStr s)) hash [] 0 (map_new [] 0) [MAssign a x; MAssign b y; MGet a; MLen] =
    Ok (m, [Done; Done; Val y; Num 1]).
Proof.
  exists [97; 0; 98], [97; 0; 99]. split; [discriminate|].
  split; [repeat (apply Forall_cons; [unfold is_byte; lia|]); constructor|].
  split; [repeat (apply Forall_cons; [unfold is_byte; lia|]); constructor|].
  intros h x y. set (l := [MAssign [97; 0; 98] x; MAssign [97; 0; 99] y; MGet [97; 0; 98]; MLen]).
  destruct (run_spec (fun s => rtype_value_to_str (KStr s)) h [] 0 l (map_new [] 0) [] 0) as [[_ H]|(m & xs & H & Hs & _)].
  { apply (empty_ginv _ h [] 0). now left. } { lia. } { reflexivity. } { change (deletes l) with 0 in H. lia. }
  exists m. rewrite H. do 2 f_equal. subst l. cbn in Hs.
  destruct xs as [|x1 [|x2 [|x3 [|x4 [|x5 xs]]]]]; cbn in Hs; try tauto.
  destruct Hs as (-> & -> & E3 & -> & _). vm_compute in E3. rewrite E3. reflexivity.
Qed.
Print Assumptions string_keys_refuted.

(** Two different structs are one key when their bytes agree up to the first zero byte: here the
    pair of 64-bit integers (1, 0) and (1, 7), little endian. *)
Theorem struct_keys_refuted : exists a b : list Z, a <> b /\ zlen a = 16 /\ zlen b = 16 /\
  forall (hash : list Z -> Z) (x y : Z), exists m,
    run (fun s => rtype_value_to_str (KInd s)) hash [] 0 (map_new [] 0) [MAssign a x; MAssign b y; MGet a; MLen] =
    Ok (m, [Done; Done; Val y; Num 1]).
Proof.
  exists [1; 0; 0; 0; 0; 0; 0; 0; 0; 0; 0; 0; 0; 0; 0; 0], [1; 0; 0; 0; 0; 0; 0; 0; 7; 0; 0; 0; 0; 0; 0; 0].
  split; [discriminate|]. split; [reflexivity|]. split; [reflexivity|].
  intros h x y. match goal with |- context [run _ _ _ _ _ ?p] => set (l := p) end.
  destruct (run_spec (fun s => rtype_value_to_str (KInd s)) h [] 0 l (map_new [] 0) [] 0) as [[_ H]|(m & xs & H & Hs & _)].
  { apply (empty_ginv _ h [] 0). now left. } { lia. } { reflexivity. } { change (deletes l) with 0 in H. lia. }
  exists m. rewrite H. do 2 f_equal. subst l. cbn in Hs.
  destruct xs as [|x1 [|x2 [|x3 [|x4 [|x5 xs]]]]]; cbn in Hs; try tauto.
  destruct Hs as (-> & -> & E3 & -> & _). vm_compute in E3. rewrite E3. reflexivity.
Qed.
Print Assumptions struct_keys_refuted.

(** *** C61 *)

(** A loop over a map ends, visits no key twice, and visits exactly the pairs that lookups find. *)
Theorem map_iteration : forall (K V : Type) (key_str : K -> list Z) (hash : list Z -> Z) (zk : K) (zv : V) m0 l m xs,
  empty_map zk zv m0 -> zlen l < 2 ^ 62 ->
  run key_str hash zk zv m0 l = Ok (m, xs) ->
  exists items, map_iterate m = Ok items /\
    NoDup (map (fun e => key_str (fst e)) items) /\
    zlen items = map_length m /\
    (forall k v, In (k, v) items -> map_access key_str hash m k = Ok v) /\
    (forall k v, map_access key_str hash m k = Ok v ->
       exists k', key_str k' = key_str k /\ In (k', v) items).
Proof.
  intros K V ks h zk zv m0 l m xs Hm Hl Hr.
  destruct (run_spec ks h zk zv l m0 [] 0 (empty_ginv ks h zk zv m0 Hm)) as [[H _]|(m' & xs' & H & _ & Hg)];
    [lia|exact Hl|congruence|].
  rewrite H in Hr. injection Hr as -> ->.
  destruct (ginv_iterate _ _ _ _ _ Hg) as (items & Hit & Hp & Hd & H1 & H2). exists items.
  split; [exact Hit|]. split; [eapply (distinct_perm ks); [symmetry; exact Hp|exact Hd]|]. split.
  { unfold zlen. rewrite (Permutation_length Hp). unfold map_length. destruct Hg as [Hg|[-> E]]; [symmetry; eapply inv_len; eauto|].
    rewrite E. reflexivity. }
  split; [intros k v Hin; exact (H1 _ Hin)|]. intros k v Ha. destruct (H2 k v Ha) as (k' & Hk & Hin). exists k'.
  split; [now apply keq_iff in Hk|exact Hin].
Qed.
Print Assumptions map_iteration.

Example map_iteration_case : exists m xs items,
  run (fun v => rtype_value_to_str (KNum 8 v)) hash_string 0 0 (map_new 0 0)
    [MAssign 1 10; MAssign 2 20; MAssign 3 30; MDelete 1; MAssign 2 21] = Ok (m, xs) /\
  map_iterate m = Ok items /\ items = [(3, 30); (2, 21)].
Proof. do 3 eexists. split; [vm_compute; reflexivity|]. split; vm_compute; reflexivity. Qed.
