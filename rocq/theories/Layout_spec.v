(** What the layout of a type has to be, and where an object of a type keeps addresses of heap objects.
    Nothing here refers to the functions of the model. *)
From Verif Require Import Base Bitmap_spec Layout_model.

(** o is the first multiple of a that is not before `from`; nothing is rounded for the alignment 0 of a type
    without members *)
Definition first_multiple (from a o : Z) : Prop :=
  (a = 0 -> o = from) /\ (0 < a -> from <= o /\ (a | o) /\ forall o', from <= o' -> (a | o') -> o <= o').

(** Members of the given sizes and alignments, one behind the other from `from` on, each at the first place that
    suits it.  The offsets, and the end of the last one. *)
Inductive placed : Z -> list (Z * Z) -> list Z -> Z -> Prop :=
| placed_nil from : placed from [] [] from
| placed_cons from s a l o os e : first_multiple from a o -> placed (o + s) l os e -> placed from ((s, a) :: l) (o :: os) e.

(** the largest of some sizes, 0 if there are none *)
Definition largest (l : list Z) (m : Z) : Prop := (l = [] /\ m = 0) \/ (In m l /\ forall x, In x l -> x <= m).

(** size of the scalars *)
Definition scalar_size (k : scalar) : Z :=
  match k with
  | VOID => 0
  | BOOL | I8 | U8 => 1 | I16 | U16 => 2 | I32 | U32 | F32 => 4
  | I64 | U64 | F64 | ANYPTR => 8
  end.

(** Number of eight-byte words of the values that are a structure of the runtime: a string or vec is data, length,
    capacity, element size, hash and allocator; a map is three tables, two type hashes, length and capacity; a
    set is two tables, a type hash, length and capacity; any is a type and a value; an interface is a value, its
    methods, its type and the number of methods. *)
Definition words (t : type_t) : option Z :=
  match t with
  | Null | Ref | Ptr | Fn | Chan | Coroutine => Some 1
  | String | Vec => Some 6
  | Map => Some 7
  | Set_ => Some 5
  | Any => Some 2
  | Interface => Some 4
  | _ => None
  end.

(** size and alignment of a type, as in C.  A union is a word that tells what is in it and room for the largest
    of its members, in words. *)
Inductive laid_out : type_t -> Z -> Z -> Prop :=
| laid_scalar k : laid_out (Scalar k) (scalar_size k) (scalar_size k)
| laid_enum k : laid_out (Enum k) (scalar_size k) (scalar_size k)
| laid_words t n : words t = Some n -> laid_out t (8 * n) 8
| laid_arr n e s a : laid_out e s a -> laid_out (Arr n e) (Z.of_nat n * s) a
| laid_union ts l m p : members ts l -> largest (map fst l) m -> first_multiple (match ts with [] => 8 | _ => m end) 8 p ->
    laid_out (Union ts) (8 + p) 8
| laid_tagged ts l m p : members ts l -> largest (map fst l) m -> first_multiple (if m =? 0 then 8 else m) 8 p ->
    laid_out (Tagged_union ts) (8 + p) 8
| laid_tuple ts l os e a s : members ts l -> placed 0 l os e -> largest (map snd l) a -> first_multiple e a s ->
    laid_out (Tuple ts) s a
| laid_struct ps l os e a s : members (map snd ps) l -> placed 0 l os e -> largest (map snd l) a -> first_multiple e a s ->
    laid_out (Struct ps) s a
with members : list type_t -> list (Z * Z) -> Prop :=
| members_nil : members [] []
| members_cons t ts s a l : laid_out t s a -> members ts l -> members (t :: ts) ((s, a) :: l).

(** the offsets of the members of a struct or tuple *)
Definition offsets (ts : list type_t) (os : list Z) : Prop := exists l e, members ts l /\ placed 0 l os e.

(** An object of type t may keep the address of a heap object at offset o.  With wide, the places that the
    collector may look at although no address of a heap object need be there count too: the word of a union or
    any that says what is in it, and every word of a union. *)
Inductive holds (wide : bool) : type_t -> Z -> Prop :=
| holds_pointer t : In t [Ref; Ptr; Scalar ANYPTR; Fn; Chan; Coroutine] -> holds wide t 0
| holds_data t : In t [String; Vec] -> holds wide t 0
| holds_map o : In o [0; 8; 16] -> holds wide Map o
| holds_set o : In o [0; 8] -> holds wide Set_ o
| holds_interface o : In o [0; 8] -> holds wide Interface o
| holds_any : holds wide Any 8
| holds_union ts t o : In t ts -> holds wide t o -> holds wide (Union ts) (8 + o)
| holds_tagged ts t o : In t ts -> holds wide t o -> holds wide (Tagged_union ts) (8 + o)
| holds_arr n e s a i o : laid_out e s a -> 0 <= i < Z.of_nat n -> holds wide e o -> holds wide (Arr n e) (i * s + o)
| holds_tuple ts os i t o x : offsets ts os -> nth_error ts i = Some t -> nth_error os i = Some o -> holds wide t x ->
    holds wide (Tuple ts) (o + x)
| holds_struct ps os i p o x : offsets (map snd ps) os -> nth_error ps i = Some p -> nth_error os i = Some o ->
    holds wide (snd p) x -> holds wide (Struct ps) (o + x)
| wide_any : wide = true -> holds wide Any 0
| wide_union ts s a i : wide = true -> laid_out (Union ts) s a -> 0 <= 8 * i < s -> holds wide (Union ts) (8 * i)
| wide_tagged ts s a i : wide = true -> laid_out (Tagged_union ts) s a -> 8 <= 8 * i < s -> holds wide (Tagged_union ts) (8 * i).

(** A description of type t that the collector can use: every place that may hold the address of a heap object is
    a word whose bit is set, before last_ptr; the words whose bit is set are places of the type; the bits up to
    last_ptr are there, and last_ptr is not behind the object. *)
Definition right_map (t : type_t) (r : rtype) : Prop :=
  (forall o, holds false t o -> exists i, o = 8 * i /\ 0 <= i /\ bit (gc_bits r) i = true /\ o + 8 <= last_ptr r) /\
  (forall i, 0 <= i -> bit (gc_bits r) i = true -> holds true t (8 * i)) /\
  0 <= last_ptr r <= gc_heap_size r /\ last_ptr r <= 8 * capacity (gc_bits r) /\ bytes (gc_bits r).
