(** C39: the six string comparisons are one total order. *)
From Verif Require Import Base Base_lemmas.
From Verif Require Import Strorder_model Strorder_spec Strorder_proof.

(** Each operator answers its question about the lexicographic order; none reads outside a string. *)
Theorem string_comparisons : forall a b,
  decides (string_lt a b) (before a b) /\ decides (string_le a b) (before a b \/ a = b) /\
  decides (string_gt a b) (before b a) /\ decides (string_ge a b) (before b a \/ a = b) /\
  decides (string_ee a b) (a = b) /\ decides (string_ne a b) (a <> b).
Proof.
  intros a b. repeat split; auto using lt_decides, le_decides, gt_decides, ge_decides, ee_decides, ne_decides.
Qed.
Print Assumptions string_comparisons.

(** That order is a strict total order. *)
Theorem string_order_total :
  (forall a, ~ before a a) /\ (forall a b c, before a b -> before b c -> before a c) /\
  (forall a b, before a b \/ a = b \/ before b a).
Proof. split; [exact before_irrefl|]. split; [exact before_trans | exact before_total]. Qed.
Print Assumptions string_order_total.

Example string_order_ex :
  string_lt (bs "ab") (bs "abc") = Ok true /\ string_lt (bs "b") (bs "abc") = Ok false /\
  string_ge [200] [100; 5] = Ok true /\ string_ee [1; 0; 2] [1; 0; 3] = Ok false.
Proof. repeat split; reflexivity. Qed.
