(** Model of runtime/nutils/map.c and of map iteration in nutils.c:500-660.

    Sizes are unbounded integers (the C code has uint64 lengths and capacities, and an int loop
    counter in map_grow); (double) arithmetic of the load test is exact below 2^53 and is
    written with integers.  Assignment m[k] = v is one step: rt_map_assign returns the address
    of the value slot and the compiler stores v there. *)
From Verif Require Import Base Zlist Hash_model.

Section map.
Context {K V : Type}.
Variable key_str : K -> list Z.
Variable hash : list Z -> Z.
(** Zeroed memory read as a key and as a value. *)
Variable zk : K.
Variable zv : V.

(** utils/type.h:554-562 n_map_t *)
Record nmap := mk_map {
  hash_table : list Z;
  key_data : list K;
  value_data : list V;
  length_ : Z;
  capacity : Z
}.

(** map.h:6 *)
Definition MAP_DEFAULT_CAPACITY : Z := 16.

(** Fresh storage for [c] entries: rti_gc_malloc and rti_array_new return zeroed memory. *)
Definition fresh (c : Z) : nmap :=
  mk_map (repeat 0 (Z.to_nat c)) (repeat zk (Z.to_nat c)) (repeat zv (Z.to_nat c)) 0 c.

(** map.c:81-109 rt_map_new *)
Definition map_new : nmap := fresh MAP_DEFAULT_CAPACITY.
(** A map variable that was never initialised: all fields zero. *)
Definition map_zero : nmap := mk_map [] [] [] 0 0.

Definition find (m : nmap) (k : K) : res Z :=
  find_hash_slot key_str hash (hash_table m) (capacity m) (key_data m) k.

(** map.c:178-224 rt_map_assign without the growth step, and the store of the value. *)
Definition assign_slot (m : nmap) (k : K) (v : V) : res nmap :=
  hash_index <- find m k ;;
  hash_value <- rd (hash_table m) hash_index ;;
  let fresh_index := hash_value_empty hash_value || hash_value_deleted hash_value in
  let data_index := if fresh_index then length_ m else extract_data_index hash_value in
  let len := if fresh_index then length_ m + 1 else length_ m in
  t <- wr (hash_table m) hash_index (live_entry data_index) ;;
  ks <- wr (key_data m) data_index k ;;
  vs <- wr (value_data m) data_index v ;;
  Ok (mk_map t ks vs len (capacity m)).

(** map.c:179-185: initialise, then grow when (length + 1) > capacity * 0.75. *)
Definition init_if_needed (m : nmap) : nmap := if capacity m =? 0 then map_new else m.
Definition need_grow (m : nmap) : bool := 3 * capacity m <? 4 * (length_ m + 1).

(** map.c:43-78 map_grow calls rt_map_assign, which may call map_grow: [fuel] levels. *)
Fixpoint assign (fuel : nat) (m : nmap) (k : K) (v : V) : res nmap :=
  match fuel with
  | O => NoFuel
  | S f =>
      let m := init_if_needed m in
      m <- (if need_grow m then
              (fix rehash (n : nat) (old new : nmap) (data_index : Z) : res nmap :=
                 match n with
                 | O => Ok new
                 | S n =>
                     k <- rd (key_data old) data_index ;;
                     v <- rd (value_data old) data_index ;;
                     hash_index <- find old k ;;
                     hv <- rd (hash_table old) hash_index ;;
                     if hash_value_deleted hv then rehash n old new (data_index + 1)
                     else new <- assign f new k v ;; rehash n old new (data_index + 1)
                 end) (Z.to_nat (length_ m)) m (fresh (capacity m * 2)) 0
            else Ok m) ;;
      assign_slot m k v
  end.

(** Two levels are enough: rehashing into twice the capacity never grows again. *)
Definition map_assign (m : nmap) (k : K) (v : V) : res nmap := assign 2 m k v.

(** map.c:132-176 rt_map_access and the load of the value *)
Definition map_access (m : nmap) (k : K) : res V :=
  if capacity m =? 0 then Throw
  else
    hash_index <- find m k ;;
    hash_value <- rd (hash_table m) hash_index ;;
    if hash_value_empty hash_value || hash_value_deleted hash_value then Throw
    else rd (value_data m) (extract_data_index hash_value).

(** map.c:231-266 rt_map_delete *)
Definition map_delete (m : nmap) (k : K) : res nmap :=
  if capacity m =? 0 then Ok m
  else
    hash_index <- find m k ;;
    hash_value <- rd (hash_table m) hash_index ;;
    if hash_value_empty hash_value || hash_value_deleted hash_value then Ok m
    else
      let data_index := extract_data_index hash_value in
      let last := length_ m - 1 in
      m <- (if negb (data_index =? last) then
              last_key <- rd (key_data m) last ;;
              last_value <- rd (value_data m) last ;;
              last_hash_index <- find m last_key ;;
              ks <- wr (key_data m) data_index last_key ;;
              vs <- wr (value_data m) data_index last_value ;;
              t <- wr (hash_table m) last_hash_index (live_entry data_index) ;;
              Ok (mk_map t ks vs (length_ m) (capacity m))
            else Ok m) ;;
      t <- wr (hash_table m) hash_index tombstone ;;
      ks <- wr (key_data m) last zk ;;
      vs <- wr (value_data m) last zv ;;
      Ok (mk_map t ks vs (length_ m - 1) (capacity m)).

(** map.c:268-271 *)
Definition map_length (m : nmap) : Z := length_ m.

(** map.c:279-303 rt_map_contains *)
Definition map_contains (m : nmap) (k : K) : res bool :=
  if capacity m =? 0 then Ok false
  else
    hash_index <- find m k ;;
    hash_value <- rd (hash_table m) hash_index ;;
    Ok (negb (hash_value_empty hash_value || hash_value_deleted hash_value)).

(** nutils.c:500-546 iterator_next_key and 605-660 iterator_take_value, as a `for k, v in m`
    loop whose body leaves the map alone. *)
Fixpoint iterate (n : nat) (m : nmap) (cursor : Z) : res (list (K * V)) :=
  match n with
  | O => NoFuel
  | S n =>
      let cursor := cursor + 1 in
      if length_ m <=? cursor then Ok []
      else
        k <- rd (key_data m) cursor ;;
        v <- rd (value_data m) cursor ;;
        rest <- iterate n m cursor ;;
        Ok ((k, v) :: rest)
  end.
Definition map_iterate (m : nmap) : res (list (K * V)) := iterate (S (Z.to_nat (length_ m))) m (-1).

Inductive op :=
| MAssign (k : K) (v : V)
| MDelete (k : K)
| MGet (k : K)
| MContains (k : K)
| MLen
| MIter.

Inductive obs := Done | Val (v : V) | Thrown | Yes (b : bool) | Num (n : Z) | Items (l : list (K * V)).

Definition step (m : nmap) (o : op) : res (nmap * obs) :=
  match o with
  | MAssign k v => m <- map_assign m k v ;; Ok (m, Done)
  | MDelete k => m <- map_delete m k ;; Ok (m, Done)
  | MGet k =>
      match map_access m k with
      | Throw => Ok (m, Thrown)
      | r => v <- r ;; Ok (m, Val v)
      end
  | MContains k => b <- map_contains m k ;; Ok (m, Yes b)
  | MLen => Ok (m, Num (map_length m))
  | MIter => l <- map_iterate m ;; Ok (m, Items l)
  end.

Fixpoint run (m : nmap) (l : list op) : res (nmap * list obs) :=
  match l with
  | [] => Ok (m, [])
  | o :: t =>
      mo <- step m o ;;
      let '(m, x) := mo in
      mt <- run m t ;;
      let '(m, xs) := mt in
      Ok (m, x :: xs)
  end.
End map.
Arguments op : clear implicits.
Arguments obs : clear implicits.
Arguments nmap : clear implicits.
