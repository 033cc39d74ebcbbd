(** What it means for two types to be the same at run time, and which values belong to a type.
    Nothing here uses the functions of the model; only the description of types is shared. *)
From Coq Require Import String.
From Verif Require Import Base Types_model.
Import ListNotations.
Open Scope Z_scope.

(** ** Sameness of types *)

(** The identifier stands for the type: declared types and interfaces. *)
Definition named (ik : ikind) : Prop := ik = IkDef \/ ik = IkInterface \/ ik = IkUnknown.

(** Two kinds agree: equal, or two function kinds with the same calling form (`fn` or `fx`).
    The other attributes of a function type are not looked at. *)
Definition kinds_agree (k1 k2 : kind) : Prop :=
  k1 = k2 \/
  exists fx r1 c1 e1 r2 c2 e2, k1 = KFn fx r1 c1 e1 /\ k2 = KFn fx r2 c2 e2.

(** Two types are the same: the same declaration applied to the same arguments, or two
    undeclared types of the same kind built from the same types in the same order. *)
Inductive same_type : ty -> ty -> Prop :=
| Same_named ik1 ik2 n args1 args2 k1 k2 subs1 subs2 :
    named ik1 -> named ik2 -> Forall2 same_type args1 args2 ->
    same_type (T ik1 (Some n) args1 k1 subs1) (T ik2 (Some n) args2 k2 subs2)
| Same_built ik1 ik2 id1 id2 args1 args2 k1 k2 subs1 subs2 :
    ~ named ik1 -> ~ named ik2 -> kinds_agree k1 k2 -> Forall2 same_type subs1 subs2 ->
    same_type (T ik1 id1 args1 k1 subs1) (T ik2 id2 args2 k2 subs2).

(** ** Well-formed types *)

Definition is_digit (c : Z) : Prop := 48 <= c <= 57.

(** A name of a field: not empty, no dot, no digit in front. *)
Definition field_name (n : list Z) : Prop :=
  exists c r, n = c :: r /\ ~ is_digit c /\ ~ In 46 n.

(** A name of a declared type: a module path and a name, joined by dots, no part empty or
    starting with a digit. *)
Inductive full_name : list Z -> Prop :=
| Full_last a b : field_name a -> field_name b -> full_name (a ++ 46 :: b)
| Full_more a b : field_name a -> full_name b -> full_name (a ++ 46 :: b).

(** The kinds without component types that exist at run time (utils/type.h:1044-1052). *)
Definition origin_names : list (list Z) :=
  map bytes ["i8"; "i16"; "i32"; "i64"; "u8"; "u16"; "u32"; "u64"; "f32"; "f64"; "anyptr"; "void";
             "null"; "bool"; "any"; "string"; "fn_t"; "all_t"]%string.

(** The data of a kind fits the number of component types. *)
Definition kind_fits (k : kind) (id : option (list Z)) (n : nat) : Prop :=
  match k with
  | KPrim s => In s origin_names /\ n = 0%nat
  | KRef | KPtr | KVec | KChan | KSet => n = 1%nat
  | KArr len => 0 <= len /\ n = 1%nat
  | KMap => n = 2%nat
  | KTuple | KUnion => (0 < n)%nat
  | KStruct ns => id = None /\ List.length ns = n /\ Forall field_name ns
  | KFn _ _ _ _ => (0 < n)%nat
  | KTagged _ | KInterface => False  (* only ever used through a declared name *)
  end.

(** A reduced type of a program. *)
Inductive good : ty -> Prop :=
| Good_named ik n args k subs :
    named ik -> full_name n -> Forall good args -> good (T ik (Some n) args k subs)
| Good_built ik id args k subs :
    ~ named ik -> kind_fits k id (List.length subs) -> Forall good subs -> good (T ik id args k subs).

(** ** Values *)

(** What a program can see of a value.  [VBox] is a value stored in a union or in `any`;
    [VFun] records the attributes of a function, the number of its parameters and what it may
    return; [VNamed n parts] is a value of the declared type [n] and [parts] lists, for every
    generic argument, the values of that type it holds. *)
Inductive val :=
| VAtom (name : list Z) (z : Z)
| VNull
| VRef (v : val)
| VBox (v : val)
| VMany (k : kind) (vs : list val)
| VMap (ks vs : list val)
| VRec (names : list (list Z)) (vs : list val)
| VTag (tag : list Z) (v : val)
| VFun (fx rest c_variadic errable : bool) (params : nat) (returns : list val)
| VOpaque
| VNamed (name : list Z) (parts : list (list val)).

Definition all_of (p : val -> Prop) (vs : list val) : Prop := forall v, In v vs -> p v.

(** The values of an undeclared type, given the values of its component types. *)
Definition built (k : kind) (ps : list (val -> Prop)) (v : val) : Prop :=
  match k with
  | KPrim s =>
      if seq s (bytes "null") then v = VNull
      else if seq s (bytes "any") then exists w, v = VBox w
      else exists z, v = VAtom s z
  | KRef => exists p w, ps = [p] /\ v = VRef w /\ p w
  | KPtr => exists p, ps = [p] /\ (v = VNull \/ exists w, v = VRef w /\ p w)
  | KVec | KChan | KSet => exists p ws, ps = [p] /\ v = VMany k ws /\ all_of p ws
  | KArr n => exists p ws, ps = [p] /\ v = VMany (KArr n) ws /\ zlen ws = n /\ all_of p ws
  | KMap => exists p q ks vs, ps = [p; q] /\ v = VMap ks vs /\ all_of p ks /\ all_of q vs
  | KTuple => exists ws, v = VMany KTuple ws /\ Forall2 (fun p w => p w) ps ws
  | KStruct ns => exists ws, v = VRec ns ws /\ Forall2 (fun p w => p w) ps ws
  | KFn fx r c e =>
      exists p ps' ws, ps = p :: ps' /\ v = VFun fx r c e (List.length ps') ws /\ all_of p ws
  | KUnion => exists p w, In p ps /\ v = VBox w /\ p w
  | KTagged tags => exists i tag p w,
      nth_error tags i = Some tag /\ nth_error ps i = Some p /\ v = VTag tag w /\ p w
  | KInterface => v = VOpaque
  end.

(** Whether the name of the type decides: a declared type that is not a union. *)
Definition nominal (ik : ikind) (k : kind) : bool :=
  match ik, k with IkDef, KUnion => false | IkDef, _ => true | _, _ => false end.

(** [has t v]: [v] is a value of type [t]. *)
Fixpoint has (t : ty) : val -> Prop :=
  match t with
  | T ik id args k subs =>
      if nominal ik k then
        fun v => exists n parts, id = Some n /\ v = VNamed n parts /\
                                 Forall2 (fun p vs => all_of p vs) (map has args) parts
      else if match ik, id with IkBuiltin, Some x => seq x (bytes "all_t") | _, _ => false end then
        fun _ => True
      else if match ik, k with IkParam, KPrim s => seq s (bytes "ident") | _, _ => false end then
        fun v => exists n z, id = Some n /\ v = VAtom n z
      else built k (map has subs)
  end.

(** ** The types the acceptance theorem speaks about *)

(** The declared unions met in a type on the way to its components. *)
Fixpoint union_names (t : ty) : list (list Z) :=
  match t with
  | T ik id args k subs =>
      if nominal ik k then flat_map union_names args
      else match ik, id with
           | IkDef, Some n => n :: flat_map union_names subs
           | _, _ => flat_map union_names subs
           end
  end.

(** Every component of a structure or of a tagged union has a label; a pointer has a target. *)
Definition labelled (k : kind) (n : nat) : Prop :=
  match k with KPtr => n = 1%nat | KStruct ns | KTagged ns => List.length ns = n | _ => True end.

(** A destination type: a declared union is not named twice, and no member of a union mentions
    a declared union.  `integer_t`, `floater_t` and `fn_t`, which only builtin signatures use,
    are left out.  A declared type has a name and is not a plain pointer.
    A type that is still an identifier is a generic parameter. *)
Inductive tame : ty -> Prop :=
| Tame_named id args k subs :
    k <> KUnion -> k <> KPtr -> Forall tame args -> NoDup (flat_map union_names args) ->
    tame (T IkDef (Some id) args k subs)
| Tame_declared_union n args subs :
    Forall tame subs -> flat_map union_names subs = [] -> tame (T IkDef (Some n) args KUnion subs)
| Tame_union ik id args subs :
    ik <> IkDef -> (forall x, id = Some x -> ik <> IkBuiltin) ->
    Forall tame subs -> flat_map union_names subs = [] -> tame (T ik id args KUnion subs)
| Tame_built ik id args k subs :
    ik <> IkDef -> k <> KUnion -> labelled k (List.length subs) ->
    (ik = IkBuiltin -> forall x, id = Some x ->
       ~ In x (map bytes ["fn_t"; "integer_t"; "floater_t"]%string)) ->
    (k = KPrim (bytes "ident") -> ik = IkParam) ->
    Forall tame subs -> NoDup (flat_map union_names subs) ->
    tame (T ik id args k subs).

(** A source type: no declared name stands for a reference or for `null`, and `all_t` does not
    occur (it is only used for parameters). *)
Inductive plain : ty -> Prop :=
| Plain ik id args k subs :
    (ik = IkDef -> k <> KRef /\ k <> KPrim (bytes "null")) ->
    (ik = IkBuiltin -> id <> Some (bytes "all_t")) ->
    labelled k (List.length subs) ->
    Forall plain args -> Forall plain subs -> plain (T ik id args k subs).

(** The types a type is built from, itself included. *)
Fixpoint parts_of (t : ty) : list ty :=
  match t with
  | T _ _ args _ subs => t :: flat_map parts_of args ++ flat_map parts_of subs
  end.

(** A name that occurs in both types is the name of a union in both or in neither.  This leaves
    out recursive unions: inside its own declaration the name is not unfolded any more. *)
Definition one_meaning (d s : ty) : Prop :=
  forall ik1 n args1 k1 subs1 ik2 args2 k2 subs2,
    In (T ik1 (Some n) args1 k1 subs1) (parts_of d) ->
    In (T ik2 (Some n) args2 k2 subs2) (parts_of s) ->
    nominal ik1 k1 = nominal ik2 k2.

(** A type the checker can be asked about: declared types and generic parameters carry their
    name and a function type has a return type. *)
Inductive complete : ty -> Prop :=
| Complete ik id args k subs :
    (ik = IkDef \/ ik = IkParam -> id <> None) ->
    (forall fx r c e, k = KFn fx r c e -> subs <> []) ->
    Forall complete args -> Forall complete subs -> complete (T ik id args k subs).
