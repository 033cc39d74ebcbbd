(** Model of runtime/nutils/set.c.  The length is a uint64 that deletions decrement without a
    check, so it wraps explicitly; the (double) load test is exact below 2^53 and true far above. *)
From Verif Require Import Base Zlist Hash_model.

Section set.
Context {K : Type}.
Variable key_str : K -> list Z.
Variable hash : list Z -> Z.
(** Zeroed memory read as a key. *)
Variable zk : K.

(** utils/type.h n_set_t *)
Record nset := mk_set {
  hash_table : list Z;
  key_data : list K;
  length_ : Z;
  capacity : Z
}.

(** set.h:10 *)
Definition SET_DEFAULT_CAPACITY : Z := 100.

Definition fresh (c : Z) : nset := mk_set (repeat 0 (Z.to_nat c)) (repeat zk (Z.to_nat c)) 0 c.

(** set.c:100-117 rt_set_new *)
Definition set_new : nset := fresh SET_DEFAULT_CAPACITY.
(** A set variable that was never initialised. *)
Definition set_zero : nset := mk_set [] [] 0 0.

Definition find (s : nset) (k : K) : res Z :=
  find_hash_slot key_str hash (hash_table s) (capacity s) (key_data s) k.

(** set.c:26-59 _rt_set_add *)
Definition add_slot (s : nset) (k : K) : res (nset * bool) :=
  hash_index <- find s k ;;
  hash_value <- rd (hash_table s) hash_index ;;
  let '(key_index, len, added) :=
    if hash_value_empty hash_value then (length_ s, u64 (length_ s + 1), true)
    else if hash_value_deleted hash_value then (extract_data_index hash_value, u64 (length_ s + 1), true)
    else (extract_data_index hash_value, length_ s, false) in
  t <- wr (hash_table s) hash_index (live_entry key_index) ;;
  ks <- wr (key_data s) key_index k ;;
  Ok (mk_set t ks len (capacity s), added).

(** set.c:83-97, the loop of rt_set_grow.  Reading a key beyond the old capacity is UB, so
    capacity + 1 rounds are enough for any length. *)
Fixpoint rehash (fuel : nat) (old new : nset) (data_index : Z) : res nset :=
  match fuel with
  | O => NoFuel
  | S f =>
      if data_index <? length_ old then
        k <- rd (key_data old) data_index ;;
        hash_index <- find old k ;;
        hv <- rd (hash_table old) hash_index ;;
        if hash_value_deleted hv then rehash f old new (data_index + 1)
        else
          na <- add_slot new k ;;
          rehash f old (fst na) (data_index + 1)
      else Ok new
  end.

(** set.c:61-98 rt_set_grow *)
Definition grow (s : nset) : res nset := rehash (S (Z.to_nat (capacity s))) s (fresh (capacity s * 2)) 0.

Definition need_grow (s : nset) : bool := 3 * capacity s <? 4 * (length_ s + 1).

(** set.c:130-143 rt_set_add with set.c:9-23 rt_set_init_if_needed *)
Definition set_add (s : nset) (k : K) : res (nset * bool) :=
  let s := if capacity s =? 0 then set_new else s in
  s <- (if need_grow s then grow s else Ok s) ;;
  add_slot s k.

(** set.c:151-179 rt_set_contains *)
Definition set_contains (s : nset) (k : K) : res bool :=
  if capacity s =? 0 then Ok false
  else
    hash_index <- find s k ;;
    hash_value <- rd (hash_table s) hash_index ;;
    Ok (negb (hash_value_empty hash_value || hash_value_deleted hash_value)).

(** set.c:181-189 rt_set_delete: `*hash_value &= 1 << 62` and an unconditional decrement. *)
Definition set_delete (s : nset) (k : K) : res nset :=
  if capacity s =? 0 then Ok s
  else
    hash_index <- find s k ;;
    hash_value <- rd (hash_table s) hash_index ;;
    t <- wr (hash_table s) hash_index (Z.land hash_value (Z.shiftl 1 HASH_DELETED)) ;;
    Ok (mk_set t (key_data s) (u64 (length_ s - 1)) (capacity s)).

Inductive op := SAdd (k : K) | SDelete (k : K) | SContains (k : K).

(** What the caller sees; set.n:9-12 drops the result of rt_set_add, the runtime function
    reports it. *)
Inductive obs := Added (b : bool) | Done | Yes (b : bool).

Definition step (s : nset) (o : op) : res (nset * obs) :=
  match o with
  | SAdd k => sb <- set_add s k ;; Ok (fst sb, Added (snd sb))
  | SDelete k => s <- set_delete s k ;; Ok (s, Done)
  | SContains k => b <- set_contains s k ;; Ok (s, Yes b)
  end.

Fixpoint run (s : nset) (l : list op) : res (nset * list obs) :=
  match l with
  | [] => Ok (s, [])
  | o :: t =>
      so <- step s o ;;
      let '(s, x) := so in
      st <- run s t ;;
      let '(s, xs) := st in
      Ok (s, x :: xs)
  end.
End set.
Arguments op : clear implicits.
Arguments nset : clear implicits.
