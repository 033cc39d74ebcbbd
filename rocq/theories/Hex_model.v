(** std/crypto/utils.n:215-228 to_hex *)
From Verif Require Import Base.

(** utils.n:216 hex_chars *)
Definition hex_chars : list Z := bs "0123456789abcdef".

(** utils.n:215-228; the loop is written as recursion over the vector *)
Fixpoint to_hex (input : list Z) : res (list Z) :=
  match input with
  | [] => Ok []
  | v :: t =>
      a <- at_ hex_chars (Z.land (Z.shiftr v 4) 15) ;;
      b <- at_ hex_chars (Z.land v 15) ;;
      rest <- to_hex t ;;
      Ok (a :: b :: rest)
  end.
