(** Model of std/strings/strings.n.

    Strings are lists of bytes.  `x as string` / `x as [u8]` copy the bytes
    (runtime/nutils/string.c:9-17); they are the identity here, which is exact as long as
    the interning pool does not substitute another string: see Strpool_model.v. *)
From Verif Require Import Base.

(** C view of a Nature string: string_new (runtime/nutils/string.c:83-103) stores the bytes
    followed by one NUL; a C function sees the bytes before the first NUL. *)
Fixpoint cstr (s : list Z) : list Z :=
  match s with
  | [] => []
  | b :: t => if b =? 0 then [] else b :: cstr t
  end.

(** Is [p] a prefix of [s]?  (helper of [strstr]) *)
Fixpoint is_prefix (p s : list Z) : bool :=
  match p, s with
  | [], _ => true
  | _ :: _, [] => false
  | a :: p', b :: s' => (a =? b) && is_prefix p' s'
  end.

(** libc strstr on two C strings (ISO C 7.24.5.7): offset of the first occurrence. *)
Fixpoint strstr (hay needle : list Z) : option Z :=
  if is_prefix needle hay then Some 0
  else match hay with
       | [] => None
       | _ :: t => match strstr t needle with Some k => Some (1 + k) | None => None end
       end.

(** strings.n:12-21 string.find_char: `for int k = after; k < len; k += 1`. *)
Fixpoint find_char_loop (fuel : nat) (self : list Z) (char k : Z) : res Z :=
  match fuel with
  | O => NoFuel
  | S f =>
      if k <? zlen self then
        c <- at_ self k ;;
        if c =? char then Ok k else find_char_loop f self char (k + 1)
      else Ok (-1)
  end.

(* Fuel: the loop runs at most len - after times. *)
Definition find_char (self : list Z) (char after : Z) : res Z :=
  find_char_loop (S (Z.to_nat (zlen self - after))) self char after.

(** strings.n:23-42 string.find_after.  For sub.len() >= 2 the code calls strstr on
    base+after; outside [0, len] that pointer is outside the object. *)
Definition find_after (self sub : list Z) (after : Z) : res Z :=
  let n := zlen sub in
  if n =? 0 then Ok (-1)
  else if n =? 1 then c <- at_ sub 0 ;; find_char self c after
  else if (after <? 0) || (zlen self <? after) then UB
  else match strstr (cstr (skipn (Z.to_nat after) self)) (cstr sub) with
       | None => Ok (-1)
       | Some k => Ok (after + k)
       end.

(** strings.n:122-124 *)
Definition find (self sub : list Z) : res Z := find_after self sub 0.

(** strings.n:110-112 *)
Definition contains (self sub : list Z) : res bool :=
  k <- find self sub ;; Ok (negb (k =? -1)).

(** strings.n:44-52 string.reverse: result[self.len()-1-i] = c for each (i,c). *)
Fixpoint reverse_loop (rest : list Z) (i len : Z) (result : list Z) : res (list Z) :=
  match rest with
  | [] => Ok result
  | c :: t => r <- set_at result (len - 1 - i) c ;; reverse_loop t (i + 1) len r
  end.

Definition reverse (self : list Z) : res (list Z) :=
  reverse_loop self 0 (zlen self) (repeat 0 (length self)).

(** strings.n:65-70, the inner loop of rfind: does sub occur at i? *)
Fixpoint match_at_loop (fuel : nat) (self sub : list Z) (i j : Z) : res bool :=
  match fuel with
  | O => NoFuel
  | S f =>
      if j <? zlen sub then
        a <- at_ self (i + j) ;;
        b <- at_ sub j ;;
        if negb (a =? b) then Ok false else match_at_loop f self sub i (j + 1)
      else Ok true
  end.

(** strings.n:63-76, the outer loop of rfind. *)
Fixpoint rfind_loop (fuel : nat) (self sub : list Z) (i : Z) : res Z :=
  match fuel with
  | O => NoFuel
  | S f =>
      if 0 <=? i then
        found <- match_at_loop (S (length sub)) self sub i 0 ;;
        if found : bool then Ok i else rfind_loop f self sub (i - 1)
      else Ok (-1)
  end.

(** strings.n:54-77 string.rfind *)
Definition rfind (self sub : list Z) : res Z :=
  if zlen sub =? 0 then Ok (-1)
  else if zlen self <? zlen sub then Ok (-1)
  else rfind_loop (S (S (length self))) self sub (zlen self - zlen sub).

(** strings.n:87-93 / 101-107: `for i, c in other { if self[start+i] != c return false }`. *)
Fixpoint same_from (self other : list Z) (k : Z) : res bool :=
  match other with
  | [] => Ok true
  | c :: t => a <- at_ self k ;; if negb (a =? c) then Ok false else same_from self t (k + 1)
  end.

(** strings.n:80-94 string.ends_with *)
Definition ends_with (self ends : list Z) : res bool :=
  if zlen self <? zlen ends then Ok false
  else same_from self ends (zlen self - zlen ends).

(** strings.n:96-108 string.starts_with *)
Definition starts_with (self starts : list Z) : res bool :=
  if zlen self <? zlen starts then Ok false
  else same_from self starts 0.

(** strings.n:154-165, the main loop of split. *)
Fixpoint split_loop (fuel : nat) (self separator : list Z) (i : Z) (result : list (list Z))
  : res (list (list Z)) :=
  match fuel with
  | O => NoFuel
  | S f =>
      if i <? zlen self then
        found <- find_after self separator i ;;
        if found =? -1 then
          part <- slice self i (zlen self) ;; Ok (result ++ [part])
        else
          part <- slice self i found ;;
          split_loop f self separator (found + zlen separator) (result ++ [part])
      else Ok result
  end.

(** strings.n:132-168 string.split *)
Definition split (self separator : list Z) : res (list (list Z)) :=
  if zlen separator =? 0 then Ok (map (fun v => [v]) self)
  else if zlen self =? 0 then Ok []
  else if zlen self <? zlen separator then Ok [self]
  else split_loop (S (length self)) self separator 0 [].

(** strings.n:178-190, the loop of join: the separator follows every element but the last. *)
Fixpoint join_loop (rest : list (list Z)) (i n : Z) (separator result : list Z) : list Z :=
  match rest with
  | [] => result
  | x :: t =>
      let result := result ++ x in
      let result := if i <? n - 1 then result ++ separator else result in
      join_loop t (i + 1) n separator result
  end.

(** strings.n:170-193 join *)
Definition join (l : list (list Z)) (separator : list Z) : list Z :=
  if zlen l =? 0 then [] else join_loop l 0 (zlen l) separator [].

(** strings.n:204-207 / 219-222: the set of cut characters, `cut.add(sub[0])`; an empty
    string in the list panics.  The set is represented by the list of its members: only add
    and contains are used (see Set_model.v for the hash set itself). *)
Fixpoint cut_set (l : list (list Z)) : res (list Z) :=
  match l with
  | [] => Ok []
  | s :: t => c <- at_ s 0 ;; r <- cut_set t ;; Ok (c :: r)
  end.

Definition in_cut (cut : list Z) (c : Z) : bool := existsb (Z.eqb c) cut.

(** strings.n:209-215 *)
Fixpoint ltrim_loop (rest self cut : list Z) (i : Z) : res (list Z) :=
  match rest with
  | [] => Ok []
  | c :: t => if negb (in_cut cut c) then slice self i (zlen self)
              else ltrim_loop t self cut (i + 1)
  end.

(** strings.n:203-216 string.ltrim *)
Definition ltrim (self : list Z) (l : list (list Z)) : res (list Z) :=
  cut <- cut_set l ;; ltrim_loop self self cut 0.

(** strings.n:224-230 *)
Fixpoint rtrim_loop (fuel : nat) (self cut : list Z) (i : Z) : res (list Z) :=
  match fuel with
  | O => NoFuel
  | S f =>
      if 0 <=? i then
        c <- at_ self i ;;
        if negb (in_cut cut c) then slice self 0 (i + 1) else rtrim_loop f self cut (i - 1)
      else Ok []
  end.

(** strings.n:218-231 string.rtrim *)
Definition rtrim (self : list Z) (l : list (list Z)) : res (list Z) :=
  cut <- cut_set l ;; rtrim_loop (S (length self)) self cut (zlen self - 1).

(** strings.n:233-235 string.trim *)
Definition trim (self : list Z) (l : list (list Z)) : res (list Z) :=
  r <- ltrim self l ;; rtrim r l.

(** strings.n:245-256, the loop of replace. *)
Fixpoint replace_loop (fuel : nat) (self sub_old sub_new : list Z) (i : Z) (result : list Z)
  : res (list Z) :=
  match fuel with
  | O => NoFuel
  | S f =>
      if i <? zlen self then
        found <- find_after self sub_old i ;;
        if found =? -1 then
          part <- slice self i (zlen self) ;; Ok (result ++ part)
        else
          part <- slice self i found ;;
          replace_loop f self sub_old sub_new (found + zlen sub_old) ((result ++ part) ++ sub_new)
      else Ok result
  end.

(** strings.n:237-259 string.replace *)
Definition replace (self sub_old sub_new : list Z) : res (list Z) :=
  if (zlen sub_old =? 0) || (zlen self <? zlen sub_old) then Ok self
  else replace_loop (S (length self)) self sub_old sub_new 0 [].

(** strings.n:278-283: skip blanks; start keeps its value if there is nothing but blanks. *)
Fixpoint skip_blanks (fuel : nat) (self : list Z) (start i : Z) : res Z :=
  match fuel with
  | O => NoFuel
  | S f =>
      if i <? zlen self then
        c <- at_ self i ;;
        if negb (c =? 32) then Ok i else skip_blanks f self start (i + 1)
      else Ok start
  end.

(** strings.n:285-296: the digit loop; 0x7FFFFFFF / 10 = 214748364. *)
Fixpoint digits_loop (fuel : nat) (self : list Z) (i result : Z) : res Z :=
  match fuel with
  | O => NoFuel
  | S f =>
      if i <? zlen self then
        c <- at_ self i ;;
        if (c <? 48) || (57 <? c) then Throw
        else if 2147483647 / 10 <? result then Throw
        else digits_loop f self (i + 1) (result * 10 + (c - 48))
      else Ok result
  end.

(** strings.n:261-303 string.to_int *)
Definition to_int (self : list Z) : res Z :=
  if zlen self =? 0 then Throw
  else
    c0 <- at_ self 0 ;;
    let negative := c0 =? 45 in
    let start := if negative then 1 else 0 in
    if negative && (zlen self =? 1) then Throw
    else
      start <- skip_blanks (S (length self)) self start start ;;
      result <- digits_loop (S (length self)) self start 0 ;;
      Ok (if negative then - result else result).

(** strings.n:371-383 string.to_lower; u8 arithmetic cannot wrap under the guard. *)
Definition to_lower (self : list Z) : list Z :=
  map (fun c => if (65 <=? c) && (c <=? 90) then u8 (c + (97 - 65)) else c) self.

(** strings.n:385-397 string.to_upper *)
Definition to_upper (self : list Z) : list Z :=
  map (fun c => if (97 <=? c) && (c <=? 122) then u8 (c - (97 - 65)) else c) self.
