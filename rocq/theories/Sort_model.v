(** Model of vec.sort and vec.search, std/builtin/vec.n:142-344.

    The comparator is a Nature closure `fn(int, int):bool` over indices of the vector.  It may
    read the vector as it is at the time of the call and may have state of its own, so it is an
    arbitrary function of the closure state [s], the current contents and the two indices.
    A comparator reads `v[i]` and `v[j]`, so calling it with an index out of range panics.
    Machine integers: indices are below the length, no arithmetic here can overflow. *)
From Verif Require Import Base.

Section sort.
Context {A S : Type}.
Variable less : S -> list A -> Z -> Z -> bool * S.

Definition st : Type := list A * S.

Definition in_range (v : list A) (i : Z) : bool := (0 <=? i) && (i <? zlen v).

Definition call_less (x : st) (i j : Z) : res (bool * st) :=
  let '(v, s) := x in
  if in_range v i && in_range v j then
    let '(b, s') := less s v i j in Ok (b, (v, s'))
  else Panic.

(** vec.n:160-168 swap *)
Definition swap (x : st) (i j : Z) : res st :=
  if i =? j then Ok x
  else
    let '(v, s) := x in
    temp <- at_ v i ;;
    y <- at_ v j ;;
    v <- set_at v i y ;;
    v <- set_at v j temp ;;
    Ok (v, s).

(** vec.n:154-156 inner loop: for j = i; j > a && less(j, j-1); j -= 1 { swap(j, j-1) } *)
Fixpoint insert_loop (fuel : nat) (x : st) (a j : Z) : res st :=
  match fuel with
  | O => NoFuel
  | Datatypes.S f =>
      if a <? j then
        bx <- call_less x j (j - 1) ;;
        let '(b, x) := bx in
        if b : bool then x <- swap x j (j - 1) ;; insert_loop f x a (j - 1)
        else Ok x
      else Ok x
  end.

(** vec.n:153 outer loop *)
Fixpoint insertion_loop (fuel : nat) (x : st) (a b i : Z) : res st :=
  match fuel with
  | O => NoFuel
  | Datatypes.S f =>
      if i <? b then
        x <- insert_loop (Datatypes.S (Z.to_nat (i - a))) x a i ;;
        insertion_loop f x a b (i + 1)
      else Ok x
  end.

(** vec.n:152-158 insertion_sort *)
Definition insertion_sort (x : st) (a b : Z) : res st :=
  insertion_loop (Datatypes.S (Z.to_nat (b - a))) x a b (a + 1).

(** vec.n:187-205 sift_down *)
Fixpoint sift_down (fuel : nat) (x : st) (root hi first : Z) : res st :=
  match fuel with
  | O => NoFuel
  | Datatypes.S f =>
      let child := 2 * root + 1 in
      if hi <=? child then Ok x
      else
        cx <- (if child + 1 <? hi then
                 bx <- call_less x (first + child) (first + child + 1) ;;
                 let '(b, x) := bx in Ok (if b : bool then child + 1 else child, x)
               else Ok (child, x)) ;;
        let '(child, x) := cx in
        bx <- call_less x (first + root) (first + child) ;;
        let '(b, x) := bx in
        if negb b then Ok x
        else
          x <- swap x (first + root) (first + child) ;;
          sift_down f x child hi first
  end.

(** vec.n:176-178: for i = (hi-1)/2; i >= 0; i -= 1 *)
Fixpoint heapify_loop (fuel : nat) (x : st) (i hi first : Z) : res st :=
  match fuel with
  | O => NoFuel
  | Datatypes.S f =>
      if 0 <=? i then
        x <- sift_down (Datatypes.S (Z.to_nat (hi - i))) x i hi first ;;
        heapify_loop f x (i - 1) hi first
      else Ok x
  end.

(** vec.n:181-184: for i = hi-1; i >= 0; i -= 1 *)
Fixpoint extract_loop (fuel : nat) (x : st) (i first : Z) : res st :=
  match fuel with
  | O => NoFuel
  | Datatypes.S f =>
      if 0 <=? i then
        x <- swap x first (first + i) ;;
        x <- sift_down (Datatypes.S (Z.to_nat i)) x 0 i first ;;
        extract_loop f x (i - 1) first
      else Ok x
  end.

(** vec.n:170-185 heap_sort.  (hi - 1) / 2 is the truncated division of int; hi >= 1 here. *)
Definition heap_sort (x : st) (a b : Z) : res st :=
  let hi := b - a in
  x <- heapify_loop (Datatypes.S (Datatypes.S (Z.to_nat hi))) x (Z.quot (hi - 1) 2) hi a ;;
  extract_loop (Datatypes.S (Z.to_nat hi)) x (hi - 1) a.

(** vec.n:315-324 break_patterns *)
Definition break_patterns (x : st) (a b : Z) : res st :=
  let length := b - a in
  if 8 <=? length then
    let quarter := Z.quot length 4 in
    x <- swap x (a + quarter) (a + quarter * 3) ;;
    swap x (a + quarter * 2) (a + quarter * 3 - 1)
  else Ok x.

(** vec.n:272-274 and 293-295: for i <= j && less(i, a) { i += 1 } *)
Fixpoint scan_up (fuel : nat) (x : st) (a i j : Z) : res (Z * st) :=
  match fuel with
  | O => NoFuel
  | Datatypes.S f =>
      if i <=? j then
        bx <- call_less x i a ;;
        let '(b, x) := bx in
        if b : bool then scan_up f x a (i + 1) j else Ok (i, x)
      else Ok (i, x)
  end.

(** vec.n:276-278 and 297-299: for i <= j && !less(j, a) { j -= 1 } *)
Fixpoint scan_down (fuel : nat) (x : st) (a i j : Z) : res (Z * st) :=
  match fuel with
  | O => NoFuel
  | Datatypes.S f =>
      if i <=? j then
        bx <- call_less x j a ;;
        let '(b, x) := bx in
        if negb b then scan_down f x a i (j - 1) else Ok (j, x)
      else Ok (j, x)
  end.

(** vec.n:292-308 main partition loop; returns the final j *)
Fixpoint partition_loop (fuel : nat) (x : st) (a i j : Z) : res (Z * st) :=
  match fuel with
  | O => NoFuel
  | Datatypes.S f =>
      ix <- scan_up (Datatypes.S (Datatypes.S (Z.to_nat (j - i)))) x a i j ;;
      let '(i, x) := ix in
      jx <- scan_down (Datatypes.S (Datatypes.S (Z.to_nat (j - i)))) x a i j ;;
      let '(j, x) := jx in
      if j <? i then Ok (j, x)
      else
        x <- swap x i j ;;
        partition_loop f x a (i + 1) (j - 1)
  end.

(** vec.n:266-313 partition; returns the split index and already_partitioned *)
Definition partition (x : st) (a b pivot : Z) : res (Z * bool * st) :=
  x <- swap x a pivot ;;
  let i := a + 1 in
  let j := b - 1 in
  ix <- scan_up (Datatypes.S (Datatypes.S (Z.to_nat (j - i)))) x a i j ;;
  let '(i, x) := ix in
  jx <- scan_down (Datatypes.S (Datatypes.S (Z.to_nat (j - i)))) x a i j ;;
  let '(j, x) := jx in
  if j <? i then
    x <- swap x a j ;; Ok (j, true, x)
  else
    x <- swap x i j ;;
    jx <- partition_loop (Datatypes.S (Z.to_nat (b - a))) x a (i + 1) (j - 1) ;;
    let '(j, x) := jx in
    x <- swap x a j ;; Ok (j, false, x).

(** vec.n:207-263 pdqsort.  One unit of fuel per turn of the loop and per level of recursion. *)
Fixpoint pdq_loop (fuel : nat) (x : st) (a b limit : Z) (was_balanced : bool) : res st :=
  match fuel with
  | O => NoFuel
  | Datatypes.S f =>
      let length := b - a in
      if length <=? 12 then insertion_sort x a b
      else if limit =? 0 then heap_sort x a b
      else
        x <- (if negb was_balanced then break_patterns x a b else Ok x) ;;
        let limit := if negb was_balanced then limit - 1 else limit in
        let pivot := a + Z.quot length 2 in
        mx <- partition x a b pivot ;;
        let '(mid, _, x) := mx in
        let left_len := mid - a in
        let right_len := b - mid - 1 in
        let balance_threshold := Z.quot length 8 in
        if left_len <? right_len then
          x <- pdq_loop f x a mid limit true ;;
          if b <=? mid + 1 then Ok x
          else pdq_loop f x (mid + 1) b limit (balance_threshold <=? left_len)
        else
          x <- pdq_loop f x (mid + 1) b limit true ;;
          if mid <=? a then Ok x
          else pdq_loop f x a mid limit (balance_threshold <=? right_len)
  end.

(** vec.n:142-150 sort *)
Definition sort (v : list A) (s : S) : res st :=
  if zlen v <=? 1 then Ok (v, s)
  else pdq_loop (Datatypes.S (length v)) (v, s) 0 (zlen v) 64 true.
End sort.

(** vec.n:326-344 search; [predicate] is a closure over indices reading the vector, so it too
    panics out of range. *)
Section search.
Variable predicate : Z -> bool.

Fixpoint search_loop (fuel : nat) (len low high : Z) : res Z :=
  match fuel with
  | O => NoFuel
  | Datatypes.S f =>
      if low <? high then
        let mid := low + Z.quot (high - low) 2 in
        if (0 <=? mid) && (mid <? len) then
          if negb (predicate mid) then search_loop f len (mid + 1) high
          else search_loop f len low mid
        else Panic
      else Ok low
  end.

Definition search (len : Z) : res Z := search_loop (Datatypes.S (Z.to_nat len)) len 0 len.
End search.
