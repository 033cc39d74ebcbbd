(** Properties C120 and C121. *)
From Coq Require Import String.
From Verif Require Import Base Types_model Types_spec Types_proof Types_hash.
Import ListNotations.
Open Scope Z_scope.

(** The types used in the examples: `i64`, `string`, `bool`, `null`, vectors, tuples, unions,
    pointers, declared types and functions, as reduction leaves them. *)
Definition i64_t := origin_s "i64".
Definition string_t := origin_s "string".
Definition bool_t := origin_s "bool".
Definition null_t := origin_s "null".
Definition vec_t t := T IkBuiltin (Some (bytes "vec")) [t] KVec [t].
Definition tuple_t ts := T IkNone None [] KTuple ts.
Definition union_t ts := T IkNone None [] KUnion ts.
Definition ref_t t := T IkNone None [] KRef [t].
Definition ptr_t t := T IkNone None [] KPtr [t].
Definition declared n args k subs := T IkDef (Some (bytes n)) args k subs.
Definition struct_t ns ts := T IkNone None [] (KStruct ns) ts.
Definition fn_t (errable : bool) r ps := T IkNone None [] (KFn false false false errable) (r :: ps).

(** ** C120 *)

(** The number of a type tells types apart, provided the string hash does not confuse two of the
    strings it is given; then equal numbers mean the same type, and the same type always gets the
    same number.  What is missing from the full statement: the string hash has 32 bits and does
    confuse names ([c120_names_collide_refuted]), and three attributes of a function type are not
    part of its number ([c120_function_attributes_refuted]). *)
Theorem c120_number_tells_types_apart_partial :
  forall (H : list Z -> Z), (forall s, 0 <= H s) ->
  forall t1 t2, good t1 -> good t2 ->
  (forall x y, In x (hashed H t1) -> In y (hashed H t2) -> H x = H y -> x = y) ->
  (type_hash H t1 = type_hash H t2 <-> same_type t1 t2).
Proof.
  intros H Hp t1 t2 G1 G2 A. split.
  - now apply told_all.
  - now apply same_hash.
Qed.
Print Assumptions c120_number_tells_types_apart_partial.

Lemma full_ab a b : field_name (bytes a) -> field_name (bytes b) ->
  full_name (bytes a ++ 46 :: bytes b).
Proof. intros. now constructor. Qed.

Ltac name_tac := eexists; eexists; split; [reflexivity|split; [|vm_compute; intuition discriminate]];
  intros [X Y]; first [now apply X | now apply Y].

(** A vector of a declared generic type and a map-like structure, hashed with the real hash. *)
Example c120_ok :
  let t1 := vec_t (declared "main.box" [i64_t] (KStruct []) []) in
  let t2 := struct_t [bytes "a"; bytes "b"] [i64_t; vec_t string_t] in
  good t1 /\ good t2 /\
  (forall x y, In x (hashed hash_string t1) -> In y (hashed hash_string t2) ->
     hash_string x = hash_string y -> x = y) /\
  type_hash hash_string t1 <> type_hash hash_string t2.
Proof.
  assert (O : forall s, In (bytes s) origin_names -> good (origin_s s)).
  { intros s I1. apply Good_built; [unfold named; intuition discriminate| |constructor]. now split. }
  assert (G64 : good i64_t) by (apply O; vm_compute; tauto).
  assert (GS : good string_t) by (apply O; vm_compute; tauto).
  cbv zeta. split; [|split; [|split]].
  - apply Good_built; [unfold named; intuition discriminate|reflexivity|].
    constructor; [|constructor]. apply Good_named; [now left| |constructor; [auto|constructor]].
    apply (full_ab "main" "box"); name_tac.
  - apply Good_built; [unfold named; intuition discriminate| |].
    + split; [reflexivity|split; [reflexivity|]]. constructor; [|constructor; [|constructor]]; name_tac.
    + constructor; [auto|constructor; [|constructor]].
      apply Good_built; [unfold named; intuition discriminate|reflexivity|]. constructor; [auto|constructor].
  - assert (F : forallb (fun x => forallb (fun y => negb (hash_string x =? hash_string y) || seq x y)
        (hashed hash_string (struct_t [bytes "a"; bytes "b"] [i64_t; vec_t string_t])))
        (hashed hash_string (vec_t (declared "main.box" [i64_t] (KStruct []) []))) = true)
      by (vm_compute; reflexivity).
    rewrite forallb_forall in F. intros x y I1 I2 E. specialize (F x I1).
    rewrite forallb_forall in F. specialize (F y I2). rewrite E, Z.eqb_refl in F. now apply seq_eq.
  - vm_compute. discriminate.
Qed.

(** Two different declared types with the same number: `pckxa` and `ndtrw` of module `main`. *)
Theorem c120_names_collide_refuted :
  exists n1 n2, full_name n1 /\ full_name n2 /\ n1 <> n2 /\
  forall k1 subs1 k2 subs2,
    type_hash hash_string (T IkDef (Some n1) [] k1 subs1) =
    type_hash hash_string (T IkDef (Some n2) [] k2 subs2).
Proof.
  exists (bytes "main.pckxa"), (bytes "main.ndtrw").
  split; [apply (full_ab "main" "pckxa"); name_tac|].
  split; [apply (full_ab "main" "ndtrw"); name_tac|].
  split; [discriminate|]. intros. vm_compute. reflexivity.
Qed.
Print Assumptions c120_names_collide_refuted.

(** Whatever the hash, a function type that may throw has the same number as the one that may
    not, although their values differ. *)
Theorem c120_function_attributes_refuted :
  exists t1 t2, good t1 /\ good t2 /\ (forall H, type_hash H t1 = type_hash H t2) /\
  exists v, has t1 v /\ ~ has t2 v.
Proof.
  exists (fn_t true i64_t []), (fn_t false i64_t []).
  assert (G64 : good i64_t).
  { apply Good_built; [unfold named; intuition discriminate| |constructor]. split; [vm_compute; tauto|reflexivity]. }
  split; [|split; [|split]].
  - apply Good_built; [unfold named; intuition discriminate|cbn; lia|]. constructor; [auto|constructor].
  - apply Good_built; [unfold named; intuition discriminate|cbn; lia|]. constructor; [auto|constructor].
  - reflexivity.
  - exists (VFun false false false true 0 []). cbn [fn_t has nominal map built]. split.
    + exists (has i64_t), [], []. repeat split. intros x [].
    + intros (p & ps & ws & _ & E & _). discriminate E.
Qed.
Print Assumptions c120_function_attributes_refuted.

(** The checker accepts either of two types for the other, yet their numbers differ: the members
    of a union are hashed in the order written. *)
Theorem c120_union_order_refuted :
  exists t1 t2, type_compare t1 t2 = true /\ type_compare t2 t1 = true /\
    type_hash hash_string t1 <> type_hash hash_string t2.
Proof.
  exists (union_t [i64_t; string_t]), (union_t [string_t; i64_t]).
  split; [|split]; vm_compute; try reflexivity. discriminate.
Qed.
Print Assumptions c120_union_order_refuted.

(** ** C121 *)

(** When the checker accepts a value of type [src] where [dst] is expected, every value of [src]
    is a value of [dst].  Missing from the full statement: destinations in which a declared union
    is named twice or inside another union, parameters of function types, and later writes
    through a shared container; the theorems below show that the claim fails there. *)
Theorem c121_accepted_values_fit_partial :
  forall dst src, tame dst -> plain src -> one_meaning dst src ->
  type_compare dst src = true ->
  forall v, has src v -> has dst v.
Proof. exact compare_sound. Qed.
Print Assumptions c121_accepted_values_fit_partial.

(** Every type is accepted where it is expected itself. *)
Theorem c121_type_accepts_itself : forall t, complete t -> type_compare t t = true.
Proof. exact compare_refl. Qed.
Print Assumptions c121_type_accepts_itself.

Definition num := declared "main.num" [] KUnion [i64_t; string_t; bool_t].
Definition small := union_t [i64_t; bool_t].

(** `(ref<i64>, int|bool)` where `(ptr<i64>, num)` is expected. *)
Example c121_ok :
  let dst := tuple_t [ptr_t i64_t; num] in
  let src := tuple_t [ref_t i64_t; small] in
  tame dst /\ plain src /\ one_meaning dst src /\ type_compare dst src = true /\
  type_compare src dst = false /\
  has src (VMany KTuple [VRef (VAtom (bytes "i64") 7); VBox (VAtom (bytes "bool") 1)]).
Proof.
  assert (TO : forall s, s = "i64"%string \/ s = "string"%string \/ s = "bool"%string -> tame (origin_s s)).
  { intros s D. apply Tame_built; try discriminate; try exact I; try constructor.
    - intros _ x E. injection E as <-. destruct D as [->|[->| ->]]; vm_compute; intuition discriminate.
    - intros E. injection E as E. exfalso. destruct D as [->|[->| ->]]; discriminate E. }
  assert (PO : forall s, s = "i64"%string \/ s = "bool"%string -> plain (origin_s s)).
  { intros s D. constructor; try discriminate; try exact I; try constructor.
    intros _ E. injection E as E. destruct D as [->| ->]; discriminate E. }
  cbv zeta. split; [|split; [|split; [|split; [|split]]]].
  - apply Tame_built; try discriminate; try exact I.
    + constructor; [|constructor; [|constructor]].
      * apply Tame_built; try discriminate; try reflexivity; [|constructor].
        constructor; [apply TO; auto|constructor].
      * apply Tame_declared_union; [|reflexivity].
        constructor; [apply TO; auto|constructor; [apply TO; auto|constructor; [apply TO; auto|constructor]]].
    + vm_compute. constructor; [intros []|constructor].
  - constructor; try discriminate; try exact I; [constructor|].
    constructor; [|constructor; [|constructor]].
    + constructor; try discriminate; try exact I; [constructor|]. constructor; [apply PO; auto|constructor].
    + constructor; try discriminate; try exact I; [constructor|].
      constructor; [apply PO; auto|constructor; [apply PO; auto|constructor]].
  - intros ik1 n args1 k1 subs1 ik2 args2 k2 subs2 I1 I2.
    cbn [tuple_t ptr_t ref_t small union_t num declared i64_t string_t bool_t origin_s parts_of flat_map app In] in I1, I2.
    repeat destruct I1 as [I1|I1]; try contradiction; try discriminate I1;
    repeat destruct I2 as [I2|I2]; try contradiction; try discriminate I2;
      injection I1 as <- <- <- <- <-; inversion I2; subst; try reflexivity; discriminate.
  - vm_compute. reflexivity.
  - vm_compute. reflexivity.
  - eexists. split; [reflexivity|]. cbn [map]. constructor; [|constructor; [|constructor]].
    + exists (has i64_t), (VAtom (bytes "i64") 7). repeat split. exists 7. reflexivity.
    + exists (has bool_t), (VAtom (bytes "bool") 1). split; [cbn [map]; right; now left|].
      split; [reflexivity|]. exists 1. reflexivity.
Qed.

Lemma string_not_num v : ~ has num (VAtom (bytes "string") v).
Proof.
  cbn [num declared has nominal]. intros (p & w & _ & E & _). discriminate E.
Qed.

(** With `type num = int|string|bool`, a value of type `(num, string)` is accepted where
    `(num, num)` is expected: once `num` has been entered, it accepts anything. *)
Theorem c121_union_named_twice_refuted :
  exists dst src v, type_compare dst src = true /\ has src v /\ ~ has dst v.
Proof.
  exists (tuple_t [num; num]), (tuple_t [num; string_t]).
  exists (VMany KTuple [VBox (VAtom (bytes "i64") 1); VAtom (bytes "string") 2]).
  split; [vm_compute; reflexivity|]. split.
  - eexists. split; [reflexivity|]. cbn [map]. constructor; [|constructor; [|constructor]].
    + exists (has i64_t), (VAtom (bytes "i64") 1). split; [now left|]. split; [reflexivity|].
      exists 1. reflexivity.
    + exists 2. reflexivity.
  - intros (ws & E & F). injection E as <-. cbn [map] in F.
    inversion F as [|? ? ? ? _ F2]; subst. inversion F2 as [|? ? ? ? F3 _]; subst.
    now apply string_not_num in F3.
Qed.
Print Assumptions c121_union_named_twice_refuted.

(** The same inside a union: the first member of the source is refused by `num` and thereby
    enters it, the second is accepted by `num` although it does not belong to it. *)
Theorem c121_union_in_union_refuted :
  exists dst src v, type_compare dst src = true /\ has src v /\ ~ has dst v.
Proof.
  exists (union_t [num; null_t]), (union_t [null_t; vec_t i64_t]).
  exists (VBox (VMany KVec [])).
  split; [vm_compute; reflexivity|]. split.
  - exists (has (vec_t i64_t)), (VMany KVec []). split; [right; now left|]. split; [reflexivity|].
    exists (has i64_t), []. repeat split. intros x [].
  - intros (p & w & I1 & E & Hw). injection E as <-. cbn [map] in I1.
    destruct I1 as [<-|[<-|[]]].
    + destruct Hw as (q & w & _ & E & _). discriminate E.
    + discriminate Hw.
Qed.
Print Assumptions c121_union_in_union_refuted.

(** A function is accepted although it can then be called with an argument it does not take. *)
Theorem c121_parameters_refuted :
  exists pd ps v, type_compare (fn_t false i64_t [pd]) (fn_t false i64_t [ps]) = true /\
    has pd v /\ ~ has ps v.
Proof.
  exists (ptr_t i64_t), (ref_t i64_t), VNull.
  split; [vm_compute; reflexivity|]. split.
  - exists (has i64_t). split; [reflexivity|now left].
  - intros (p & w & _ & E & _). discriminate E.
Qed.
Print Assumptions c121_parameters_refuted.

(** A vector is accepted although a value can then be stored into it that its owner does not
    expect: the two variables share the elements. *)
Theorem c121_shared_vector_refuted :
  exists d s v, type_compare (vec_t d) (vec_t s) = true /\ has d v /\ ~ has s v.
Proof.
  exists (ptr_t i64_t), (ref_t i64_t), VNull.
  split; [vm_compute; reflexivity|]. split.
  - exists (has i64_t). split; [reflexivity|now left].
  - intros (p & w & _ & E & _). discriminate E.
Qed.
Print Assumptions c121_shared_vector_refuted.

Example c121_itself_ok :
  complete (tuple_t [num; num; fn_t true (vec_t num) [ptr_t i64_t]]) /\
  type_compare (tuple_t [num; num]) (tuple_t [i64_t; num]) = false.
Proof.
  split; [|vm_compute; reflexivity].
  repeat (constructor; try (intros; discriminate); try (intros [X|X]; discriminate)).
Qed.
