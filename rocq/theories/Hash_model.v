(** Model of runtime/nutils/hash.h, of the key text nutils.c:828-864 and of the string hash
    utils/helper.h:272-290. *)
From Verif Require Import Base Zlist.

(** hash.h:10-11 *)
Definition HASH_SET : Z := 63.
Definition HASH_DELETED : Z := 62.

(** hash.h:20-32; table entries are uint64. *)
Definition hash_value_set (v : Z) : bool := Z.testbit v HASH_SET.
Definition hash_value_empty (v : Z) : bool := negb (hash_value_set v).
Definition hash_value_deleted (v : Z) : bool := Z.testbit v HASH_DELETED.

(** hash.h:39-41 `hash_value << 2 >> 2` *)
Definition extract_data_index (v : Z) : Z := Z.shiftr (u64 (Z.shiftl v 2)) 2.

(** map.c:17-21 set_data_index, set.c:3-7: the entry for data index [i]. *)
Definition live_entry (i : Z) : Z := Z.lor i (Z.shiftl 1 HASH_SET).
(** map.c:262 *)
Definition tombstone : Z := Z.lor (Z.shiftl 1 HASH_SET) (Z.shiftl 1 HASH_DELETED).

Fixpoint list_eqb (a b : list Z) : bool :=
  match a, b with
  | [], [] => true
  | x :: a, y :: b => (x =? y) && list_eqb a b
  | _, _ => false
  end.

Section find.
Context {K : Type}.
(** The C string of a key, nutils.c:828-864 rtype_value_to_str. *)
Variable key_str : K -> list Z.
(** hash_string; any function of the key text. *)
Variable hash : list Z -> Z.

(** hash.h:50-58 key_equal: strcmp of the two texts. *)
Definition key_equal (a b : K) : bool := list_eqb (key_str a) (key_str b).

(** hash.h:66-121 find_hash_slot: the loop; [n] is capacity - attempts. *)
Fixpoint find_loop (n : nat) (table : list Z) (capacity : Z) (keys : list K) (k : K)
  (hash_index first_deleted : Z) : res Z :=
  match n with
  | O => Abort (* "hash table is full, need to grow" *)
  | S n =>
      v <- rd table hash_index ;;
      if hash_value_empty v then Ok (if first_deleted =? -1 then hash_index else first_deleted)
      else if hash_value_deleted v then
        find_loop n table capacity keys k ((hash_index + 1) mod capacity)
          (if first_deleted =? -1 then hash_index else first_deleted)
      else
        actual <- rd keys (extract_data_index v) ;;
        if key_equal actual k then Ok hash_index
        else find_loop n table capacity keys k ((hash_index + 1) mod capacity) first_deleted
  end.

Definition find_hash_slot (table : list Z) (capacity : Z) (keys : list K) (k : K) : res Z :=
  find_loop (Z.to_nat capacity) table capacity keys k (hash (key_str k) mod capacity) (-1).
End find.

(** ** Concrete keys *)

(** C strings end at the first NUL. *)
Fixpoint c_string (s : list Z) : list Z :=
  match s with
  | [] => []
  | b :: t => if b =? 0 then [] else b :: c_string t
  end.

(** snprintf("%ld"): decimal digits, most significant first. *)
Fixpoint dec_digits (fuel : nat) (n : Z) (acc : list Z) : list Z :=
  match fuel with
  | O => acc
  | S f => if n <? 10 then (48 + n) :: acc else dec_digits f (n / 10) ((48 + n mod 10) :: acc)
  end.

(** utils/helper.h:355-366 itoa *)
Definition itoa (n : Z) : list Z :=
  if n <? 0 then 45 :: dec_digits 20 (- n) [] else dec_digits 20 n [].

(** The kinds of key rtype_value_to_str tells apart. *)
Inductive key :=
| KStr (s : list Z)                 (* TYPE_STRING: the bytes of the string *)
| KInd (bytes : list Z)             (* STORAGE_KIND_IND (structs, arrays, ...): the bytes in memory *)
| KNum (size v : Z).                (* numbers, bools, pointers of [size] bytes holding value [v] *)

(** nutils.c:828-864 rtype_value_to_str, as the callers see it: a C string.  Numbers are copied
    into a zeroed int64. *)
Definition rtype_value_to_str (k : key) : list Z :=
  match k with
  | KStr s => c_string s
  | KInd b => c_string b
  | KNum size v => itoa (i64 (v mod 2 ^ (8 * size)))
  end.

(** utils/helper.h:272-282 hash_data (FNV-1a on uint32; the loop counter is an int, so this is
    the code only for texts below 2^31 bytes). *)
Definition hash_data (data : list Z) : Z :=
  fold_left (fun h b => u32 (Z.lxor h b * 16777619)) data 2166136261.

(** utils/helper.h:284-290 hash_string *)
Definition hash_string (s : list Z) : Z := match s with [] => 0 | _ => hash_data s end.
