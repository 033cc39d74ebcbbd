(** C40: paths. *)
From Verif Require Import Base Base_lemmas.
From Verif Require Import Strings_model Path_model Path_spec Path_proof.

(** path.base never fails.  It returns the last name of the path, which is not empty and contains no
    '/', unless the path is empty (".") or all slashes ("/"). *)
Theorem path_base_last_name : forall p, exists b, base p = Ok b /\
  ((p = [] /\ b = [46]) \/ (p <> [] /\ slashes p /\ b = [47]) \/
   (exists pre tail, p = pre ++ b ++ tail /\ slashes tail /\ b <> [] /\ ~ In 47 b /\
      (pre = [] \/ exists q, pre = q ++ [47]))).
Proof. exact base_spec. Qed.
Print Assumptions path_base_last_name.

Example path_base_ex : base (bs "/usr/lib//") = Ok (bs "lib") /\ base (bs "///") = Ok (bs "/") /\
  base (bs "a.txt") = Ok (bs "a.txt").
Proof. repeat split; reflexivity. Qed.

(** path.join never fails, and leads where following its arguments one after another leads: each
    relative argument continues, each absolute argument starts again at the root. *)
Theorem path_join_follows : forall dst l, exists r, join dst l = Ok r /\
  place r = fold_left follow l (place dst).
Proof. exact join_spec. Qed.
Print Assumptions path_join_follows.

Example path_join_ex : join (bs "/a/") [bs "./b"; bs ".."; bs "."; bs "c"] = Ok (bs "/a/b/../c") /\
  place (bs "/a//./b") = (true, [bs "a"; bs "b"]).
Proof. split; reflexivity. Qed.

(** In particular the result is absolute as soon as one argument is. *)
Theorem path_join_absolute : forall dst l r, join dst l = Ok r ->
  (absolute r = true <-> absolute dst = true \/ Exists (fun q => absolute q = true) l).
Proof.
  intros dst l r H. destruct (join_spec dst l) as (r' & H' & Hp). rewrite H in H'. injection H' as <-.
  assert (E : absolute r = fst (fold_left follow l (place dst))) by (rewrite <- Hp; reflexivity).
  rewrite E. change (absolute dst) with (fst (place dst)). clear H Hp E. generalize (place dst) as s.
  induction l as [|q l IH]; intros s; cbn [fold_left].
  - split; [tauto|]. intros [H|H]; [assumption|inversion H].
  - rewrite IH, Exists_cons. unfold follow. destruct (absolute q); cbn [fst]; intuition congruence.
Qed.
Print Assumptions path_join_absolute.

Example path_join_absolute_ex : join (bs "a") [bs "/b"; bs "c"] = Ok (bs "/b/c").
Proof. reflexivity. Qed.

(** C40, the dir/base law.  Missing: paths that end in a slash and are not all slashes, for which it
    is false (path_dir_base_refuted). *)
Theorem path_dir_base_partial : forall p, (forall q, p <> q ++ [47]) \/ slashes p ->
  exists d b j, dir p = Ok d /\ base p = Ok b /\ join d [b] = Ok j /\ same_path j p.
Proof. exact dir_base. Qed.
Print Assumptions path_dir_base_partial.

Example path_dir_base_ex : (forall q, bs "/a/b" <> q ++ [47]) /\ dir (bs "/a/b") = Ok (bs "/a") /\ base (bs "/a/b") = Ok (bs "b").
Proof.
  split; [|split; reflexivity]. intros q E. apply (f_equal (@rev Z)) in E. rewrite rev_app_distr in E. discriminate.
Qed.

(** For a path ending in a slash, dir removes that slash only, so dir p denotes p itself. *)
Theorem path_dir_trailing_slash : forall p, exists d, dir (p ++ [47]) = Ok d /\ same_path d (p ++ [47]).
Proof. exact dir_trailing. Qed.
Print Assumptions path_dir_trailing_slash.

(** so that the dir/base law fails: "a/b/" has dir "a/b" and base "b". *)
Theorem path_dir_base_refuted : exists p d b j, dir p = Ok d /\ base p = Ok b /\ join d [b] = Ok j /\ ~ same_path j p.
Proof.
  exists (bs "a/b/"), (bs "a/b"), (bs "b"), (bs "a/b/b"). repeat split; try reflexivity.
  intros [_ E]. discriminate.
Qed.
Print Assumptions path_dir_base_refuted.
