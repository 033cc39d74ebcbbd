(** C59: converting bytes to a string and back preserves the bytes. *)
From Verif Require Import Base Base_lemmas Zlist Hash_model Strpool_model Strpool_proof.

(** For every program: whatever constants it contains, whatever was converted before (with or
    without zero bytes) and whatever follows the vectors in memory, a vector without zero bytes
    becomes the string of the same bytes, and that string gives the same vector back.  A vector
    with zero bytes at least keeps its length.  Partial: the bytes of a vector with zero bytes,
    see [bytes_to_string_refuted]. *)
Theorem bytes_to_string_partial : forall (consts : list (list Z)) (l : list (list Z * list Z)),
  Forall2 (fun va s => zlen s = zlen (fst va) /\
                       (~ In 0 (fst va) -> s = fst va /\ string_to_vec s = fst va))
    l (convert (const_pool consts) l).
Proof.
  intros consts l. induction (convert_all l _ (const_pool_ok consts)) as [|va s l' ss [H1 H2] _ IH]; constructor; [|exact IH].
  split; [exact H1|]. intros H. split; [now apply H2|]. unfold string_to_vec, string_new. now apply H2.
Qed.
Print Assumptions bytes_to_string_partial.

Example bytes_to_string_case :
  convert (const_pool [bs "abc"; bs "x"; bs "abc"]) [(bs "abc", [7; 0]); (bs "x", [0]); (bs "abcdefghij", [0]); (bs "x", [121; 0]); (bs "", [0])] =
  [bs "abc"; bs "x"; bs "abcdefghij"; bs "x"; bs ""].
Proof. vm_compute. reflexivity. Qed.

(** "A\0B" converted first makes "A\0C" come out as "A\0B". *)
Theorem bytes_to_string_refuted : exists v w : list Z, v <> w /\ bytes v /\ bytes w /\
  convert (const_pool []) [(v, [0]); (w, [0])] = [v; v].
Proof.
  exists [65; 0; 66], [65; 0; 67]. split; [discriminate|].
  split; [repeat (apply Forall_cons; [unfold is_byte; lia|]); constructor|].
  split; [repeat (apply Forall_cons; [unfold is_byte; lia|]); constructor|].
  reflexivity.
Qed.
Print Assumptions bytes_to_string_refuted.
