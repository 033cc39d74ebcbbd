(** Model of the string comparisons, runtime/nutils/string.c:133-169.  A string is its [length]
    bytes; DEBUGF only logs. *)
From Verif Require Import Base.

(** libc memcmp on the first n bytes (ISO C 7.24.4.1): the sign of the difference of the first
    pair of bytes that differ, taken as unsigned char.  Reading past the end of an array is UB. *)
Fixpoint memcmp (a b : list Z) (n : nat) : res Z :=
  match n with
  | O => Ok 0
  | S n =>
      match a, b with
      | x :: a, y :: b => if x =? y then memcmp a b n else Ok (if x <? y then -1 else 1)
      | _, _ => UB
      end
  end.

(** string.c:133-136 *)
Definition string_ee (a b : list Z) : res bool :=
  if zlen a =? zlen b then c <- memcmp a b (length a) ;; Ok (c =? 0) else Ok false.

(** string.c:138-141 *)
Definition string_ne (a b : list Z) : res bool :=
  if negb (zlen a =? zlen b) then Ok true else c <- memcmp a b (length a) ;; Ok (negb (c =? 0)).

(** a->length < b->length ? a->length : b->length, in each of the four functions below *)
Definition min_length (a b : list Z) : nat := if zlen a <? zlen b then length a else length b.

(** string.c:143-148 *)
Definition string_lt (a b : list Z) : res bool :=
  c <- memcmp a b (min_length a b) ;; Ok ((c <? 0) || ((c =? 0) && (zlen a <? zlen b))).
(** string.c:150-155 *)
Definition string_le (a b : list Z) : res bool :=
  c <- memcmp a b (min_length a b) ;; Ok ((c <? 0) || ((c =? 0) && (zlen a <=? zlen b))).
(** string.c:157-162 *)
Definition string_gt (a b : list Z) : res bool :=
  c <- memcmp a b (min_length a b) ;; Ok ((0 <? c) || ((c =? 0) && (zlen b <? zlen a))).
(** string.c:164-169 *)
Definition string_ge (a b : list Z) : res bool :=
  c <- memcmp a b (min_length a b) ;; Ok ((0 <? c) || ((c =? 0) && (zlen b <=? zlen a))).
