(** Model of how the compiler lays out types in memory (utils/type.c, utils/type.h) and of the pointer maps it
    hands to the garbage collector (src/rtype.h).

    A type is a reduced type_t (utils/type.h:273-316): TYPE_IDENT does not occur.  What lies behind a pointer
    (the element of ref, ptr, vec, map, set, chan and fn) is not looked at by the functions modelled here and is
    left out.  The fields storage_size, align and in_heap of a type_t hold what reduction_type stored there
    (src/semantic/infer.c:4243-4254), that is type_storage_size, type_alignof and kind_in_heap of the same type.
    Sizes are unbounded integers; the C code uses int64_t.  TYPE_GC_ENV and the types of the generic constraints
    are left out. *)
From Verif Require Import Base Bitmap_model.

(** the kinds type_kind_sizeof knows (utils/type.h:69-120) *)
Inductive scalar := BOOL | I8 | U8 | I16 | U16 | I32 | U32 | I64 | U64 | F32 | F64 | ANYPTR | VOID.

(** utils/type.h:273-316, by kind *)
Inductive type_t :=
| Scalar (k : scalar)
| Null | Ref | Ptr | Fn | Chan | Coroutine
| String | Vec | Map | Set_ | Any | Interface
| Enum (element : scalar)
| Union (elements : list type_t)
| Tagged_union (elements : list type_t)
| Arr (length : nat) (element : type_t)
| Tuple (elements : list type_t)
| Struct (properties : list (list Z * type_t)).

(** utils/helper.h:486-492 *)
Definition align_up (n align : Z) : Z :=
  if align =? 0 then n else Z.land (n + align - 1) (Z.lnot (align - 1)).

(** utils/type.c:9-33 *)
Definition kind_sizeof (k : scalar) : Z :=
  match k with
  | VOID => 0
  | BOOL | I8 | U8 => 1
  | I16 | U16 => 2
  | I32 | U32 | F32 => 4
  | I64 | U64 | F64 | ANYPTR => 8
  end.

(** the loops that keep a maximum: utils/type.c:36-45, 52-59, 74-82, 89-98, 135-142, 155-161 *)
Definition max_of (l : list Z) : Z := fold_left (fun m x => if m <? x then x else m) l 0.

(** type_alignof (utils/type.c:227-277), with type_struct_alignof (35-46), where each alignment goes through a
    uint8_t, and type_tuple_alignof (89-98); the last line of type_alignof returns the storage size, which for
    the kinds that reach it is that of the scalar or of a pointer *)
Fixpoint alignof (t : type_t) : Z :=
  match t with
  | Scalar k => kind_sizeof k
  | Null | Ref | Ptr | Fn | Chan | Coroutine => 8
  | String | Vec | Map | Set_ => 8
  | Any | Interface | Union _ | Tagged_union _ => 8
  | Enum k => kind_sizeof k
  | Arr _ e => alignof e
  | Tuple ts => max_of (map alignof ts)
  | Struct ps => max_of (map (fun p => u8 (alignof (snd p))) ps)
  end.

(** the loop of type_struct_sizeof and type_tuple_sizeof (utils/type.c:52-64, 72-82): sizes and alignments of the
    members, and the offset so far *)
Definition add_members (l : list (Z * Z)) (size : Z) : Z :=
  fold_left (fun size m => align_up size (snd m) + fst m) l size.

(** type_sizeof (utils/type.c:104-194) and type_storage_size (utils/type.h:809-840), which agree on the kinds
    they both know; sizeof(n_string_t) and the like are those of the structures in utils/type.h:482-600 on a
    64-bit machine *)
Fixpoint storage_size (t : type_t) : Z :=
  match t with
  | Scalar k => kind_sizeof k
  | Null | Ref | Ptr | Fn | Chan | Coroutine => 8
  | String | Vec => 48
  | Map => 56
  | Set_ => 40
  | Any => 16
  | Interface => 32
  | Enum k => kind_sizeof k
  | Union ts => 8 + align_up (match ts with [] => 8 | _ => max_of (map storage_size ts) end) 8
  | Tagged_union ts => let m := max_of (map storage_size ts) in 8 + align_up (if m <=? 0 then 8 else m) 8
  | Arr n e => Z.of_nat n * storage_size e
  | Tuple ts => align_up (add_members (map (fun e => (storage_size e, alignof e)) ts) 0) (max_of (map alignof ts))
  | Struct ps => align_up (add_members (map (fun p => (storage_size (snd p), alignof (snd p))) ps) 0)
                          (max_of (map (fun p => alignof (snd p)) ps))
  end.

(** type_struct_offset (utils/type.c:398-416): an unknown name aborts *)
Fixpoint struct_offset_loop (ps : list (list Z * type_t)) (key : list Z) (offset : Z) : res Z :=
  match ps with
  | [] => Abort
  | (name, t) :: ps =>
      let offset := align_up offset (alignof t) in
      if list_eq_dec Z.eq_dec name key then Ok offset else struct_offset_loop ps key (offset + storage_size t)
  end.
Definition struct_offset (ps : list (list Z * type_t)) (key : list Z) : res Z := struct_offset_loop ps key 0.

(** type_tuple_offset (utils/type.c:428-447): an index outside gives 0 *)
Fixpoint tuple_offset_loop (ts : list type_t) (i index offset : Z) : Z :=
  match ts with
  | [] => 0
  | t :: ts =>
      let offset := align_up offset (alignof t) in
      if i =? index then offset else tuple_offset_loop ts (i + 1) index (offset + storage_size t)
  end.
Definition tuple_offset (ts : list type_t) (index : Z) : Z := tuple_offset_loop ts 0 index 0.

(** The code generator has its own loops over the elements of a tuple: src/linear.c:766-788 (default value),
    1354-1391 and 1414-1447 (taking apart), 2958-2977 (building).  Each visits the elements at these offsets. *)
Fixpoint visit_offsets (ts : list type_t) (offset : Z) : list Z :=
  match ts with
  | [] => []
  | t :: ts => let offset := align_up offset (alignof t) in offset :: visit_offsets ts (offset + storage_size t)
  end.

(** the offsets in the table of fields of rtype_struct (src/rtype.h:800-822) *)
Definition reflect_offsets (ps : list (list Z * type_t)) : list Z := visit_offsets (map snd ps) 0.

(** kind_in_heap (utils/type.h:693-696) and type_is_pointer_heap (utils/type.c:357-367) *)
Definition is_pointer_heap (t : type_t) : bool :=
  match t with
  | Fn | Coroutine | Chan => true
  | Ptr | Ref | Scalar ANYPTR => true
  | _ => false
  end.

(** bitmap_set for i = from, .., from + n - 1 *)
Fixpoint set_run (bits : list Z) (from : Z) (n : nat) : res (list Z) :=
  match n with
  | O => Ok bits
  | S n => bits <- bitmap_set bits from ;; set_run bits (from + 1) n
  end.

(** rtype_union_gc_bits (src/rtype.h:612-629): the bits, the offset behind and the end of the last pointer *)
Definition union_gc_bits (bits : list Z) (offset size : Z) : res (list Z * Z * Z) :=
  let size := if size <=? 0 then 16 else size in
  let slots := align_up size 8 / 8 in
  bits <- set_run bits (offset / 8) (Z.to_nat slots) ;;
  Ok (bits, offset + size, offset + slots * 8).

(** rtype_tagged_union_gc_bits (src/rtype.h:633-652) *)
Definition tagged_union_gc_bits (bits : list Z) (offset size : Z) : res (list Z * Z * Z) :=
  let size := if size <=? 0 then 16 else size in
  let slots := align_up size 8 / 8 in
  bits <- set_run bits (offset / 8 + 1) (Z.to_nat (slots - 1)) ;;
  Ok (bits, offset + size, if 1 <? slots then offset + slots * 8 else 0).

(** rtype_builtin_gc_bits (src/rtype.h:654-678) *)
Definition builtin_gc_bits (bits : list Z) (offset slots size : Z) : res (list Z * Z * Z) :=
  bits <- set_run bits (offset / 8) (Z.to_nat slots) ;;
  Ok (bits, offset + size, if 0 <? slots then offset + slots * 8 else 0).

(** the loops of rtype_struct_gc_bits and rtype_tuple_gc_bits over their members (src/rtype.h:683-719, 731-769) *)
Definition members_gc_bits {A} (align : A -> Z) (member : A -> list Z -> Z -> res (list Z * Z * Z)) :=
  fix go (l : list A) (bits : list Z) (offset last : Z) : res (list Z * Z * Z) :=
    match l with
    | [] => Ok (bits, offset, last)
    | m :: l =>
        ' (bits, offset, temp) <- member m bits (align_up offset (align m)) ;;
        go l bits offset (if last <? temp then temp else last)
    end.

(** the loop of rtype_array_gc_bits (src/rtype.h:518-548) *)
Definition array_gc_bits (element : list Z -> Z -> res (list Z * Z * Z)) :=
  fix go (n : nat) (bits : list Z) (offset last : Z) : res (list Z * Z * Z) :=
    match n with
    | O => Ok (bits, offset, last)
    | S n =>
        ' (bits, offset, temp) <- element bits offset ;;
        go n bits offset (if last <? temp then temp else last)
    end.

(** One member of a struct or tuple (src/rtype.h:690-714, 741-764), or with in_array one element of an array
    (519-542); with rtype_struct_gc_bits (680-725), rtype_tuple_gc_bits (727-773) and rtype_array_gc_bits
    (514-551).  In an array a member that is no pointer counts for the end of the last pointer too. *)
Fixpoint member_gc_bits (in_array : bool) (t : type_t) (bits : list Z) (offset : Z) : res (list Z * Z * Z) :=
  match t with
  | Struct ps =>
      ' (bits, offset, last) <- members_gc_bits (fun p => alignof (snd p)) (fun p => member_gc_bits false (snd p)) ps bits offset 0 ;;
      Ok (bits, align_up offset (max_of (map (fun p => u8 (alignof (snd p))) ps)), last)
  | Tuple ts =>
      ' (bits, offset, last) <- members_gc_bits alignof (member_gc_bits false) ts bits offset 0 ;;
      Ok (bits, align_up offset (max_of (map alignof ts)), last)
  | Arr n e => array_gc_bits (member_gc_bits true e) n bits offset 0
  | Union _ | Any => union_gc_bits bits offset (storage_size t)
  | Tagged_union _ => tagged_union_gc_bits bits offset (storage_size t)
  | String | Vec => builtin_gc_bits bits offset 1 (storage_size t)
  | Map => builtin_gc_bits bits offset 3 (storage_size t)
  | Set_ | Interface => builtin_gc_bits bits offset 2 (storage_size t)
  | Scalar _ | Null | Ref | Ptr | Fn | Chan | Coroutine | Enum _ =>
      let bit_index := offset / 8 in
      let offset := offset + storage_size t in
      if is_pointer_heap t
      then bits <- bitmap_set bits bit_index ;; Ok (bits, offset, offset)
      else Ok (bits, offset, if in_array then offset else 0)
  end.

(** utils/type.c:321-330, the number of bytes of a bitmap; data_put(NULL, n) gives n zero bytes
    (utils/custom_links.h:220-250) *)
Definition calc_gc_bits_size (size : Z) : Z := align_up (align_up size 8 / 8) 8.
Definition new_bits (size : Z) : list Z := repeat 0 (Z.to_nat (calc_gc_bits_size size)).

(** the fields of rtype_t (utils/type.h:207-228) the collector reads *)
Record rtype := mk_rtype { gc_heap_size : Z; last_ptr : Z; gc_bits : list Z }.

(** rtype_struct (src/rtype.h:780-833), its last_ptr_offset is a uint16_t; rtype_tuple (840-876); rtype_array
    (311-331); rtype_union (438-464); rtype_any (473-490); rtype_tagged_union (401-430); rtype_interface
    (385-399); rtype_string, rtype_vec, rtype_map and rtype_set (241-383); rtype_ptr, rtype_anyptr and rtype_ref
    (177-233); rtype_fn (498-512) and rtype_chan (281-304), which describe the object the value points to, with
    sizeof(n_chan_t) as an argument; rtype_origin (160-175).  The dispatch is that of reflect_type (883-940). *)
Definition reflect (sizeof_chan : Z) (t : type_t) : res rtype :=
  match t with
  | Struct ps =>
      let size := storage_size t in
      if size =? 0 then Ok (mk_rtype 1 0 (new_bits 1))
      else
        ' (bits, _, last) <- member_gc_bits false t (new_bits size) 0 ;;
        Ok (mk_rtype size (u16 last) bits)
  | Tuple ts =>
      let size := storage_size t in
      ' (bits, _, last) <- member_gc_bits false t (new_bits size) 0 ;;
      Ok (mk_rtype size last bits)
  | Arr n e =>
      let size := storage_size e * Z.of_nat n in
      ' (bits, _, last) <- member_gc_bits false t (new_bits size) 0 ;;
      Ok (mk_rtype size last bits)
  | Union _ =>
      let size := storage_size t in
      let slots := align_up size 8 / 8 in
      bits <- set_run (new_bits size) 0 (Z.to_nat slots) ;;
      Ok (mk_rtype size (slots * 8) bits)
  | Tagged_union _ =>
      let size := storage_size t in
      let slots := align_up size 8 / 8 in
      bits <- set_run (new_bits size) 1 (Z.to_nat (slots - 1)) ;;
      Ok (mk_rtype size (slots * 8) bits)
  | Any =>
      bits <- bitmap_set (new_bits 16) 0 ;;
      Ok (mk_rtype (storage_size t) 16 bits)
  | Interface =>
      bits <- set_run (new_bits 16) 0 2 ;;
      Ok (mk_rtype 32 16 bits)
  | String | Vec =>
      bits <- set_run (new_bits 48) 0 1 ;;
      Ok (mk_rtype 48 8 bits)
  | Map =>
      bits <- set_run (new_bits 56) 0 3 ;;
      Ok (mk_rtype 56 24 bits)
  | Set_ =>
      bits <- set_run (new_bits 40) 0 2 ;;
      Ok (mk_rtype 40 16 bits)
  | Ref | Ptr | Scalar ANYPTR =>
      bits <- set_run (new_bits 8) 0 1 ;;
      Ok (mk_rtype 8 8 bits)
  | Fn =>
      bits <- set_run (new_bits 16) 0 1 ;;
      Ok (mk_rtype 16 8 bits)
  | Chan =>
      bits <- set_run (new_bits sizeof_chan) 0 5 ;;
      Ok (mk_rtype sizeof_chan 40 bits)
  | Scalar _ | Null | Coroutine | Enum _ =>
      let size := storage_size t in
      Ok (mk_rtype size 0 (if 0 <? size then new_bits size else []))
  end.

(** scan_global for a global that is stored in place (runtime/collector.c:932-966): the offsets at which the
    collector fetches a word and follows it if it is the address of a heap object; gc_bits is read in place *)
Fixpoint scan_loop (n : nat) (bits : list Z) (current index : Z) : res (list Z) :=
  match n with
  | O => Ok []
  | S n =>
      b <- bitmap_test bits index ;;
      l <- scan_loop n bits (current + 8) (index + 1) ;;
      Ok (if b : bool then current :: l else l)
  end.
Definition scan_global (r : rtype) : res (list Z) := scan_loop (Z.to_nat ((last_ptr r + 7) / 8)) (gc_bits r) 0 0.
