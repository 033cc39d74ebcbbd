(** Types after reduction, the number that stands for a type at run time, and the test the
    checker uses to accept a value of one type where another is expected.

    Source: src/rtype.h:24-158 (type_hash), utils/helper.h:272-290 (hash_data, hash_string),
    src/semantic/infer.c:227-247 (type_union_compare), 439-721 (type_compare,
    type_compare_ident_args_visited, type_compare_visited), utils/type.h:137-200 (kinds of
    identifier, type_kind_str), 288-325 (type_t), 715-721 (ident_is_generics_param). *)
From Coq Require Import Ascii String.
From Verif Require Import Base.
Import ListNotations.
Open Scope Z_scope.

(** The bytes of a C string literal. *)
Definition bytes (s : string) : list Z :=
  map (fun c => Z.of_N (N_of_ascii c)) (list_ascii_of_string s).

(** utils/type.h:138-146 (type_ident_kind).  [IkNone] is the value 0 of an absent identifier. *)
Inductive ikind := IkNone | IkDef | IkAlias | IkParam | IkBuiltin | IkInterface | IkTagged | IkUnknown.

(** utils/type.h:50-135 (type_kind) with the data of the descriptors that is not itself a type:
    array length (type_array_t), field names (type_struct_t), tags (type_tagged_union_t) and
    the attributes of a function type (type_fn_t).  [KPrim s] is every kind without component
    types; [s] is its entry in type_kind_str. *)
Inductive kind :=
| KPrim (s : list Z)
| KRef | KPtr | KVec | KChan | KArr (len : Z) | KMap | KSet | KTuple
| KStruct (names : list (list Z))
| KFn (is_fx is_rest is_c_variadic is_errable : bool)
| KUnion
| KTagged (tags : list (list Z))
| KInterface.

(** utils/type.h:288-325 (type_t), for a type whose reduction is finished: identifier kind,
    identifier, generic arguments, kind, component types.  For a function type the return type
    comes first and the parameter types follow.  The layout fields are left out; so is the
    sharing of descriptors, since reduction cuts recursive types at the third nested use of a
    name (infer.c:3977-3987) and a reduced type is a finite tree. *)
Inductive ty := T (ik : ikind) (id : option (list Z)) (args : list ty) (k : kind) (subs : list ty).

Definition origin_s (s : string) : ty := T IkBuiltin (Some (bytes s)) [] (KPrim (bytes s)) [].

(** utils/helper.h:376-385 (str_equal) on two strings. *)
Fixpoint seq (a b : list Z) : bool :=
  match a, b with
  | [], [] => true
  | x :: a', y :: b' => (x =? y) && seq a' b'
  | _, _ => false
  end.

(** ** The run-time number of a type *)

(** utils/helper.h:272-282 (hash_data), 284-290 (hash_string): 32-bit FNV-1a; 0 for the empty
    string. *)
Definition hash_string (s : list Z) : Z :=
  match s with
  | [] => 0
  | _ => fold_left (fun h c => ((Z.lxor h c) * 16777619) mod 2 ^ 32) s 2166136261
  end.

Fixpoint uint_chars (u : Decimal.uint) : list Z :=
  match u with
  | Decimal.Nil => []
  | Decimal.D0 u => 48 :: uint_chars u | Decimal.D1 u => 49 :: uint_chars u
  | Decimal.D2 u => 50 :: uint_chars u | Decimal.D3 u => 51 :: uint_chars u
  | Decimal.D4 u => 52 :: uint_chars u | Decimal.D5 u => 53 :: uint_chars u
  | Decimal.D6 u => 54 :: uint_chars u | Decimal.D7 u => 55 :: uint_chars u
  | Decimal.D8 u => 56 :: uint_chars u | Decimal.D9 u => 57 :: uint_chars u
  end.

(** The PRId64 conversion of printf for a number that is not negative; every number printed
    here is a 32-bit hash widened to 64 bits or an array length. *)
Definition dec (z : Z) : list Z := uint_chars (N.to_uint (Z.to_N z)).

(** `.%PRId64` repeated, src/rtype.h:34-37, 86-90, 112-116, 122-126. *)
Definition dots (hs : list Z) : list Z := flat_map (fun h => 46 :: dec h) hs.

(** `%s.%PRId64` for every field, src/rtype.h:99-104. *)
Fixpoint fields (ns : list (list Z)) (hs : list Z) : list Z :=
  match ns, hs with
  | n :: ns', h :: hs' => n ++ 46 :: dec h ++ fields ns' hs'
  | _, _ => []
  end.

(** `.%s.%PRId64` for every variant, src/rtype.h:130-136. *)
Fixpoint variants (ns : list (list Z)) (hs : list Z) : list Z :=
  match ns, hs with
  | n :: ns', h :: hs' => 46 :: n ++ 46 :: dec h ++ variants ns' hs'
  | _, _ => []
  end.

(** src/rtype.h:25: the identifier stands for the type. *)
Definition by_name (ik : ikind) : bool :=
  match ik with IkDef | IkInterface | IkUnknown => true | _ => false end.

Definition name_of (id : option (list Z)) : list Z := match id with Some s => s | None => [] end.

(** The string type_hash hands to hash_string, given the hashes of the generic arguments [ha]
    and of the component types [hs].  src/rtype.h:24-158, case by case. *)
Definition text (ik : ikind) (id : option (list Z)) (ha : list Z) (k : kind) (hs : list Z) : list Z :=
  if by_name ik then name_of id ++ dots ha
  else
    match k with
    | KPrim s => s
    | KRef => bytes "ref" ++ dots hs
    | KPtr => bytes "ptr" ++ dots hs
    | KVec => bytes "vec" ++ dots hs
    | KChan => bytes "chan" ++ dots hs
    | KArr n => bytes "arr" ++ 46 :: dec n ++ 95 :: dec (nth 0 hs 0)
    | KMap => bytes "map" ++ 46 :: dec (nth 0 hs 0) ++ 95 :: dec (nth 1 hs 0)
    | KSet => bytes "set" ++ dots hs
    | KTuple => bytes "tuple" ++ dots hs
    | KStruct ns =>
        bytes "struct" ++ match id with Some s => s | None => fields ns hs end
    | KFn fx _ _ _ => (if fx then bytes "fx" else bytes "fn") ++ dots hs
    | KUnion => bytes "union" ++ dots hs
    | KTagged tags => bytes "tagged_union" ++ variants tags hs
    | KInterface => bytes "interface" ++ name_of id
    end.

(** src/rtype.h:24-158 (type_hash), with the string hash [H] as a parameter.  The uint32 result
    of hash_string is widened to int64. *)
Fixpoint type_hash (H : list Z -> Z) (t : ty) : Z :=
  match t with
  | T ik id args k subs => H (text ik id (map (type_hash H) args) k (map (type_hash H) subs))
  end.

(** The strings handed to hash_string while type_hash runs on [t]: the one of [t] and, by
    recursion, those of the arguments of a named type or of the components of any other.
    The C code makes exactly these calls. *)
Fixpoint hashed (H : list Z -> Z) (t : ty) : list (list Z) :=
  match t with
  | T ik id args k subs =>
      text ik id (map (type_hash H) args) k (map (type_hash H) subs)
        :: flat_map (hashed H) (if by_name ik then args else subs)
  end.

(** ** The acceptance test *)

(** The names of declared unions already entered: the table_t *visited. *)
Definition vis := list (list Z).

Definition cmpf := ty -> vis -> bool * vis.

(** Comparison of two lists of types position by position, stopping at the first difference:
    infer.c:445-463 (type_compare_ident_args_visited), 635-650, 679-686.  The length test comes
    first in all of them. *)
Fixpoint each (cs : list cmpf) (ss : list ty) (v : vis) : bool * vis :=
  match cs, ss with
  | c :: cs', s :: ss' =>
      let (b, v') := c s v in if b then each cs' ss' v' else (false, v')
  | _, _ => (true, v)
  end.

Definition all_same (cs : list cmpf) (ss : list ty) (v : vis) : bool * vis :=
  if Nat.eqb (List.length cs) (List.length ss) then each cs ss v else (false, v).

(** Comparison of named components: infer.c:563-586 (variants), 689-712 (fields). *)
Fixpoint each_named (ns : list (list Z)) (cs : list cmpf) (ms : list (list Z)) (ss : list ty) (v : vis)
  : bool * vis :=
  match ns, cs, ms, ss with
  | n :: ns', c :: cs', m :: ms', s :: ss' =>
      if seq n m then
        let (b, v') := c s v in if b then each_named ns' cs' ms' ss' v' else (false, v')
      else (false, v)
  | _, _, _, _ => (true, v)
  end.

(** infer.c:233-241: the inner loop of type_union_compare, one source member against every
    destination member. *)
Fixpoint found (cs : list cmpf) (s : ty) (v : vis) : bool * vis :=
  match cs with
  | [] => (false, v)
  | c :: cs' => let (b, v') := c s v in if b then (true, v') else found cs' s v'
  end.

(** infer.c:227-247 (type_union_compare). *)
Fixpoint union_compare (cs : list cmpf) (ss : list ty) (v : vis) : bool * vis :=
  match ss with
  | [] => (true, v)
  | s :: ss' => let (b, v') := found cs s v in if b then union_compare cs ss' v' else (false, v')
  end.

(** utils/type.h:765-781 (is_float, is_integer) on kinds; int, uint and float are i64, u64 and f64. *)
Definition integer_names : list (list Z) :=
  map bytes ["i8"; "i16"; "i32"; "i64"; "u8"; "u16"; "u32"; "u64"]%string.
Definition float_names : list (list Z) := map bytes ["f32"; "f64"]%string.

Definition kind_in (l : list (list Z)) (k : kind) : bool :=
  match k with KPrim s => existsb (seq s) l | _ => false end.

Definition is_fn (k : kind) : bool := match k with KFn _ _ _ _ => true | _ => false end.
Definition is_union (k : kind) : bool := match k with KUnion => true | _ => false end.
Definition is_null (k : kind) : bool := match k with KPrim s => seq s (bytes "null") | _ => false end.
Definition is_ref (k : kind) : bool := match k with KRef => true | _ => false end.
Definition is_ptr (k : kind) : bool := match k with KPtr => true | _ => false end.

(** infer.c:477, 482, 487, 491: the destination is the builtin type [s]. *)
Definition builtin_is (ik : ikind) (id : option (list Z)) (s : string) : bool :=
  match ik, id with IkBuiltin, Some x => seq x (bytes s) | _, _ => false end.

Definition is_def (ik : ikind) : bool := match ik with IkDef => true | _ => false end.
(** utils/type.h:715-721 (ident_is_generics_param). *)
Definition is_param (ik : ikind) (k : kind) : bool :=
  match ik, k with IkParam, KPrim s => seq s (bytes "ident") | _, _ => false end.

(** infer.c:477-493: the builtin types that accept a whole family. *)
Definition wildcard (ik : ikind) (id : option (list Z)) (sk : kind) : bool :=
  builtin_is ik id "all_t"
  || (builtin_is ik id "fn_t" && is_fn sk)
  || (builtin_is ik id "integer_t" && kind_in integer_names sk)
  || (builtin_is ik id "floater_t" && kind_in float_names sk).

Definition same_id (a b : option (list Z)) : bool :=
  match a, b with Some x, Some y => seq x y | _, _ => false end.

(** infer.c:539-541, 551-720: the comparison by structure.  The test dst.kind != src.kind
    (line 539) is the final catch-all. *)
Definition structure (k : kind) (cs : list cmpf) (sk : kind) (ss : list ty) (v : vis) : bool * vis :=
  match k, sk with
  | KPrim a, KPrim b => (seq a b, v)
  | KUnion, KUnion => union_compare cs ss v
  | KTagged ns, KTagged ms =>
      if Nat.eqb (List.length ns) (List.length ms) then each_named ns cs ms ss v else (false, v)
  | KMap, KMap | KSet, KSet | KChan, KChan | KVec, KVec | KTuple, KTuple
  | KRef, KRef | KPtr, KPtr => all_same cs ss v
  | KArr n, KArr m => if n =? m then all_same cs ss v else (false, v)
  | KFn fx r c e, KFn fx' r' c' e' =>
      match cs, ss with
      | cret :: cps, sret :: sps =>
          let (b, v') := cret sret v in
          if b then
            if Nat.eqb (List.length cps) (List.length sps)
               && Bool.eqb r r' && Bool.eqb c c' && Bool.eqb e e' && Bool.eqb fx fx'
            then each cps sps v'
            else (false, v')
          else (false, v')
      | _, _ => (false, v)
      end
  | KStruct ns, KStruct ms =>
      if Nat.eqb (List.length ns) (List.length ms) then each_named ns cs ms ss v else (false, v)
  | KInterface, KInterface => (true, v)
  | _, _ => (false, v)
  end.

(** infer.c:539-549: kinds, then generic parameters by name, then the structure. *)
Definition by_kind (ik : ikind) (id : option (list Z)) (k : kind) (cs : list cmpf)
    (sik : ikind) (sid : option (list Z)) (sk : kind) (ss : list ty) (v : vis) : bool * vis :=
  if is_param ik k then (is_param sik sk && same_id id sid, v)
  else structure k cs sk ss v.

(** infer.c:471-721 (type_compare_visited).  [ca] and [cs] are the comparisons with the generic
    arguments and with the component types of the destination.  The assertions on
    the reduction status are left out: a [ty] is a reduced type. *)
Definition compare_step (ik : ikind) (id : option (list Z)) (ca : list cmpf) (k : kind) (cs : list cmpf)
    (src : ty) (v : vis) : bool * vis :=
  match src with
  | T sik sid sargs sk ss =>
      if wildcard ik id sk then (true, v)
      else if is_ptr k && is_null sk then (true, v)
      else if is_ptr k && is_ref sk then all_same cs ss v
      else if (is_def ik && negb (is_union k)) || (is_def sik && negb (is_union sk)) then
        if same_id id sid then all_same ca sargs v else (false, v)
      else if is_def ik then
        if existsb (seq (name_of id)) v then (true, v)
        else by_kind ik id k cs sik sid sk ss (name_of id :: v)
      else by_kind ik id k cs sik sid sk ss v
  end.

Fixpoint type_compare_visited (dst : ty) : cmpf :=
  match dst with
  | T ik id args k subs =>
      compare_step ik id (map type_compare_visited args) k (map type_compare_visited subs)
  end.

(** infer.c:439-443 (type_compare). *)
Definition type_compare (dst src : ty) : bool := fst (type_compare_visited dst src []).
