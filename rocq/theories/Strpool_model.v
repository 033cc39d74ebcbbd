(** Model of runtime/nutils/string.c:8-103: conversion between strings and byte vectors, and the
    pool of short strings.

    A pooled string is its bytes; the pool is the list of (key, string) pairs of an sc_map keyed by
    C string.  [after] is what follows the vector in memory, which the C-string lookup also reads. *)
From Verif Require Import Base Hash_model.

Definition pool := list (list Z * list Z).

(** sc_map_get_sv, utils/sc_map.c:394 (strcmp on keys), abstracted to a list. *)
Definition pool_get (p : pool) (key : list Z) : option (list Z) :=
  match List.find (fun e => list_eqb (fst e) key) p with Some e => Some (snd e) | None => None end.

(** sc_map_put_sv: replaces the entry of an equal key. *)
Definition pool_put (p : pool) (key s : list Z) : pool :=
  (key, s) :: filter (fun e => negb (list_eqb (fst e) key)) p.

(** memory.c:96-119 register_const_str_pool: string constants are C strings; the first of equal
    ones is kept. *)
Definition const_pool (consts : list (list Z)) : pool :=
  fold_left (fun p c => let c := c_string c in
                        match pool_get p c with Some _ => p | None => pool_put p c c end) consts [].

(** string.c:83-103 string_new *)
Definition string_new (raw : list Z) : list Z := raw.

(** string.c:19-75 string_new_with_pool *)
Definition string_new_with_pool (p : pool) (raw after : list Z) : pool * list Z :=
  match pool_get p (c_string (raw ++ after)) with
  | Some s => if zlen s =? zlen raw then (p, s)
              else if zlen raw + 1 <=? 8 then (pool_put p (c_string raw) raw, raw) else (p, raw)
  | None => if zlen raw + 1 <=? 8 then (pool_put p (c_string raw) raw, raw) else (p, raw)
  end.

(** string.c:15-17 vec_to_string *)
Definition vec_to_string (p : pool) (v after : list Z) : pool * list Z := string_new_with_pool p v after.

(** string.c:11-13 string_to_vec *)
Definition string_to_vec (s : list Z) : list Z := string_new s.

(** A program converting one vector after another. *)
Fixpoint convert (p : pool) (l : list (list Z * list Z)) : list (list Z) :=
  match l with
  | [] => []
  | (v, after) :: l => let '(p, s) := vec_to_string p v after in s :: convert p l
  end.
