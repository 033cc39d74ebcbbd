(** Values stored in a union, in `any`, in an interface or in a tagged union, and taken out again.

    Source: runtime/nutils/nutils.c:217-302 (asserts and tests), 312-365 (interface_casting),
    368-397 (union_casting), 403-436 (any_casting), 441-459 (union_to_any), 461-491
    (tagged_union_casting); utils/type.h:47-63 (value_casting), 132-136 (storage_kind_t), 576-600
    (the four layouts).

    Simplifications: memory is a function from addresses to bytes.  The word that holds the type
    (`rtype`, or `tag_hash`) is kept beside the bytes, by the address of the box, and it is the
    hash of the type instead of a pointer to its description.  Debugging output is left out, and so
    is the table of methods of an interface. *)
From Verif Require Import Base.
Import ListNotations.
Open Scope Z_scope.

(** utils/type.h:132-136 (storage_kind_t). *)
Inductive skind := Ind | Ptr | Dir.

(** The fields of rtype_t that are used: hash, storage_kind, storage_size. *)
Record rtype := mk_rtype { r_hash : Z; r_kind : skind; r_size : nat }.

Record mem := mk_mem { bytes : Z -> Z; word : Z -> Z }.

Definition load (m : mem) (a : Z) (n : nat) : list Z := map (fun i => bytes m (a + Z.of_nat i)) (seq 0 n).

Definition store (m : mem) (a : Z) (bs : list Z) : mem :=
  mk_mem (fun x => if (a <=? x) && (x <? a + zlen bs) then nth (Z.to_nat (x - a)) bs 0 else bytes m x)
         (word m).

Definition set_word (m : mem) (a w : Z) : mem :=
  mk_mem (bytes m) (fun x => if x =? a then w else word m x).

(** memmove(3): all bytes are read before the first is written. *)
Definition memmove (m : mem) (dst src : Z) (n : nat) : mem := store m dst (load m src n).

(** A 64-bit little-endian word, as `value.i64_value = ..`, `value.ptr_value = ..` write it. *)
Fixpoint le (n : nat) (p : Z) : list Z :=
  match n with O => [] | S n' => p mod 256 :: le n' (p / 256) end.
Fixpoint of_le (bs : list Z) : Z :=
  match bs with [] => 0 | b :: bs' => b + 256 * of_le bs' end.

Definition put_word (m : mem) (a p : Z) : mem := store m a (le 8 p).
Definition get_word (m : mem) (a : Z) : Z := of_le (load m a 8).

(** utils/type.h:576-588, 590-593: the value follows the type word.  596-600: in an interface it
    comes first. *)
Definition value_at (box : Z) : Z := box + 8.
Definition ivalue_at (box : Z) : Z := box.

Section Box.
  (** rt_find_rtype, runtime/rtype.c: the description registered for a hash. *)
  Variable find : Z -> option rtype.

  (** nutils.c:368-397 (union_casting); lines 377-378 assert that the type is known. *)
  Definition union_casting (m : mem) (out hash ref : Z) : res mem :=
    match find hash with
    | None => Abort
    | Some r =>
        let m := set_word m out (r_hash r) in
        let m := put_word m (value_at out) 0 in
        Ok (match r_kind r with
            | Ind => memmove m (value_at out) ref (r_size r)
            | _ => memmove m (value_at out) ref (r_size r)
            end)
    end.

  (** nutils.c:403-436 (any_casting).  [blk] is the address rti_gc_malloc returns. *)
  Definition any_casting (m : mem) (out hash ref : Z) (is_fx : bool) (blk : Z) : res mem :=
    match find hash with
    | None => Abort
    | Some r =>
        let m := set_word m out (r_hash r) in
        let m := put_word m (value_at out) 0 in
        Ok (match r_kind r with
            | Ind =>
                if is_fx then put_word m (value_at out) ref
                else put_word (memmove m blk ref (r_size r)) (value_at out) blk
            | _ => memmove m (value_at out) ref (r_size r)
            end)
    end.

  (** nutils.c:312-365 (interface_casting). *)
  Definition interface_casting (m : mem) (out hash ref : Z) (blk : Z) : res mem :=
    match find hash with
    | None => Abort
    | Some r =>
        let m := set_word m out (r_hash r) in
        let m := put_word m (ivalue_at out) 0 in
        Ok (match r_kind r with
            | Ptr => memmove m (ivalue_at out) ref (r_size r)
            | _ => put_word (memmove m blk ref (r_size r)) (ivalue_at out) blk
            end)
    end.

  (** nutils.c:441-459 (union_to_any): `&input->value.struct_` and `&input->value` are one address. *)
  Definition union_to_any (m : mem) (out input : Z) (is_fx : bool) (blk : Z) : res mem :=
    any_casting m out (word m input) (value_at input) is_fx blk.

  (** nutils.c:461-491 (tagged_union_casting); a payload type of hash 0 means no payload. *)
  Definition tagged_union_casting (m : mem) (out tag hash ref : Z) : res mem :=
    let m := set_word m out tag in
    let m := put_word m (value_at out) 0 in
    if hash =? 0 then Ok m
    else match find hash with
         | None => Abort
         | Some r => Ok (memmove m (value_at out) ref (r_size r))
         end.

  (** nutils.c:248-268 (union_assert); a wrong type is rti_throw(.., true). *)
  Definition union_assert (m : mem) (box hash ref : Z) : res mem :=
    if negb (word m box =? hash) then Panic
    else match find hash with
         | None => UB
         | Some r => Ok (memmove m ref (value_at box) (r_size r))
         end.

  (** nutils.c:270-290 (any_assert). *)
  Definition any_assert (m : mem) (box hash ref : Z) : res mem :=
    if negb (word m box =? hash) then Panic
    else match find hash with
         | None => UB
         | Some r =>
             Ok (match r_kind r with
                 | Ind => memmove m ref (get_word m (value_at box)) (r_size r)
                 | _ => memmove m ref (value_at box) (r_size r)
                 end)
         end.

  (** nutils.c:217-239 (interface_assert). *)
  Definition interface_assert (m : mem) (box hash ref : Z) : res mem :=
    if negb (word m box =? hash) then Panic
    else match find hash with
         | None => UB
         | Some r =>
             Ok (match r_kind r with
                 | Ptr => memmove m ref (ivalue_at box) (r_size r)
                 | _ => memmove m ref (get_word m (ivalue_at box)) (r_size r)
                 end)
         end.

  (** nutils.c:292-302 (union_is, any_is, interface_is). *)
  Definition box_is (m : mem) (box hash : Z) : bool := word m box =? hash.
End Box.
