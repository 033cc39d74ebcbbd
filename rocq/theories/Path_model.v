(** Model of std/path/path.n (base, dir, join).  exists and isdir ask the operating system and are
    not modelled.  ascii('/') is 47, ascii('.') is 46. *)
From Verif Require Import Base.
From Verif Require Import Strings_model.

(** string == (runtime/nutils/string.c:133-136); see Strorder_model.v for its definition in C *)
Fixpoint str_eq (a b : list Z) : bool :=
  match a, b with
  | [], [] => true
  | x :: a, y :: b => (x =? y) && str_eq a b
  | _, _ => false
  end.

(** path.n:15-32 *)
Definition base (path : list Z) : res (list Z) :=
  if str_eq path [] then Ok [46]
  else
    path <- rtrim path [[47]] ;;
    if str_eq path [] then Ok [47]
    else
      i <- rfind path [47] ;;
      if i =? -1 then Ok path
      else slice path (i + 1) (zlen path).

(** path.n:35-60 *)
Definition dir (path : list Z) : res (list Z) :=
  if str_eq path [] then Ok [46]
  else if str_eq path [47] then Ok [47]
  else
    last <- at_ path (zlen path - 1) ;;
    if last =? 47 then slice path 0 (zlen path - 1)
    else
      i <- rfind path [47] ;;
      if i =? -1 then Ok [46]
      else if i =? 0 then Ok [47]
      else slice path 0 i.

(** path.n:99-101: for int i = 1; i < src.len(); i += 1 { dst_list.push(src[i]) } *)
Fixpoint push_loop (fuel : nat) (dst src : list Z) (i : Z) : res (list Z) :=
  match fuel with
  | O => NoFuel
  | S f => if i <? zlen src then c <- at_ src i ;; push_loop f (dst ++ [c]) src (i + 1) else Ok dst
  end.

(** path.n:70-111; `a && b` does not evaluate b when a is false. *)
Definition join1 (dst src : list Z) : res (list Z) :=
  if zlen src =? 0 then Ok dst
  else if zlen dst =? 0 then Ok src
  else if str_eq src [46] then Ok dst
  else
    c0 <- at_ src 0 ;;
    if c0 =? 47 then Ok src
    else
      last <- at_ dst (zlen dst - 1) ;;
      dst <- (if last =? 47 then slice dst 0 (zlen dst - 1) else Ok dst) ;;
      dot <- (if c0 =? 46 then c1 <- at_ src 1 ;; Ok (c1 =? 47) else Ok false) ;;
      if dot : bool then push_loop (length src) dst src 1
      else Ok (dst ++ [47] ++ src).

(** path.n:62-68 *)
Fixpoint join (dst : list Z) (l : list (list Z)) : res (list Z) :=
  match l with
  | [] => Ok dst
  | src :: l => dst <- join1 dst src ;; join dst l
  end.
