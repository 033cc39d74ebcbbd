(** The printed form of a bcrypt hash, and what of a password enters the cipher. *)
From Verif Require Import Base Bcrypt_model.

(** Two decimal digits. *)
Definition two_digits (n : Z) : list Z := [48 + n / 10; 48 + n mod 10].

(** "$2a$", the cost, "$", 22 characters of salt, 31 characters of digest *)
Definition printed (cost : Z) (salt digest : list Z) : list Z :=
  bs "$2a$" ++ two_digits cost ++ bs "$" ++ salt ++ digest.

(** The password with a NUL byte behind it, written again and again, up to 72 bytes. *)
Definition key_text (password : list Z) : list Z :=
  map (fun i => nth (Nat.modulo i (length (password ++ [0]))) (password ++ [0]) 0) (seq 0 72).

Definition no_nul (s : list Z) : Prop := ~ In 0 s.
