(** Model of register allocation by linear scan: lifetime intervals (src/register/interval.c) and the walk over them
    (src/register/allocate.c).

    Positions are the numbers of operations.  An interval is named by its index in a list; the comparison of indices
    in sort_to_unhandled is that of the order of creation.  Simplified: which register is preferred (find_hint_reg,
    src/register/allocate.c:99-143) is an argument of the model.  Not modelled: building the intervals from the code,
    the move inserted where an interval is split, the numbers of stack slots. *)
From Verif Require Import Base.

(** alloc_kind_e (src/types.h:24-30): must be on the stack, must be in a register, the rest *)
Inductive kind := Stack | Must | Free.
Definition is_stack (k : kind) : bool := match k with Stack => true | _ => false end.
Definition is_must (k : kind) : bool := match k with Must => true | _ => false end.

(** interval_t: reg 0 is none; owner is the interval it was split from, or itself *)
Record ivl := mk_ivl { ranges : list (Z * Z); uses : list (Z * kind); reg : nat; spilled : bool; fixed : bool; cls : nat; remat : bool; owner : nat }.
Definition get {A} (l : list A) (i : nat) : res A := match nth_error l i with Some x => Ok x | None => UB end.
Definition first_from (i : ivl) : res Z := match ranges i with (f, _) :: _ => Ok f | [] => UB end.
Definition last_to (i : ivl) : res Z := match rev (ranges i) with (_, t) :: _ => Ok t | [] => UB end.
Definition with_ranges (i : ivl) (r : list (Z * Z)) (u : list (Z * kind)) : ivl := mk_ivl r u (reg i) (spilled i) (fixed i) (cls i) (remat i) (owner i).

(** ** Intervals *)
(** the ranges taken into the first one (src/register/interval.c:1146-1157): they are removed as long as they begin at
    or before the end of the new range; the first range ends where the last of them ends *)
Fixpoint absorb (to : Z) (last : Z) (l : list (Z * Z)) : Z * list (Z * Z) :=
  match l with
  | (f, t) :: l' => if f <=? to then absorb to (if last <? t then t else last) l' else (last, l)
  | [] => (last, [])
  end.
(** interval_add_range (src/register/interval.c:1122-1172) *)
Definition add_range (l : list (Z * Z)) (from to : Z) : res (list (Z * Z)) :=
  if to <? from then Abort
  else
    Ok match l with
       | [] => [(from, to)]
       | (f, t) :: l' =>
           if f <=? to then
             let f := if from <? f then from else f in
             if t <? to then let '(last, l') := absorb to to l' in (f, last) :: l' else (f, t) :: l'
           else (from, to) :: l
       end.

(** interval_expired (src/register/interval.c:811-819) *)
Definition expired (i : ivl) (pos : Z) (input : bool) : res bool := t <- last_to i ;; Ok (t <=? (if input then pos - 1 else pos)).

(** the two searches of interval_covered: from the end (src/register/interval.c:843-857) and from the start (859-873) *)
Fixpoint find_back (l : list (Z * Z)) (pos off : Z) : bool :=
  match l with
  | [] => false
  | (f, t) :: l => if (f <=? pos) && (pos <? t + off) then true else if t + off <=? pos then false else find_back l pos off
  end.
Fixpoint find_front (l : list (Z * Z)) (pos off : Z) : bool :=
  match l with
  | [] => false
  | (f, t) :: l => if (f <=? pos) && (pos <? t + off) then true else if pos <? f then false else find_front l pos off
  end.
(** interval_covered (src/register/interval.c:821-875) *)
Definition covered (i : ivl) (pos : Z) (input : bool) : res bool :=
  match ranges i with
  | [] => Ok false
  | (f, t) :: l =>
      lt <- last_to i ;;
      let off := if input then 1 else 0 in
      if (lt + off <? pos) || (pos <? f) then Ok false
      else match l with
           | [] => Ok ((f <=? pos) && (pos <? t + off))
           | _ => if (lt - f) / 2 <? pos - f then Ok (find_back (rev (ranges i)) pos off) else Ok (find_front (ranges i) pos off)
           end
  end.

(** interval_is_intersect (src/register/interval.c:878-891) *)
Fixpoint any_covered (n : nat) (i : ivl) (pos : Z) : res bool :=
  match n with
  | O => Ok false
  | S n => b <- covered i pos false ;; if b then Ok true else any_covered n i (pos + 1)
  end.
Definition is_intersect (current select : ivl) : res bool :=
  st <- last_to select ;; cf <- first_from current ;; ct <- last_to current ;;
  if st <=? cf then Abort else any_covered (Z.to_nat (ct - cf)) select cf.

(** a basic block: numbers of its label and its last operation, number of successors, depth of loops, and whether it is
    in a loop whose header has the flag has_call *)
Record block := mk_block { first_id : Z; last_id : Z; nsucc : nat; depth : nat; has_call : bool }.
(** the place before the branches that end a block (src/register/interval.c:987-992) *)
Definition before_branch (b : block) : res Z := match nsucc b with 1%nat => Ok (last_id b - 1) | 2%nat => Ok (last_id b - 3) | _ => Abort end.

(** the loop of interval_next_intersect (src/register/interval.c:916-962): the position, and whether it is checked
    against labels *)
Fixpoint intersect (fuel : nat) (cfrom cto : Z) (cr sr : list (Z * Z)) (cover : Z) : res (Z * bool) :=
  match cr, sr with
  | (cf, ct) :: cr', (sf, st) :: sr' =>
      match fuel with
      | O => NoFuel
      | S fuel =>
          let cover := if (cover =? -1) && (cfrom <? sf) then sf else cover in
          if (cf <? st) && (sf <? ct) then Ok (Z.max cf sf, true)
          else if cto <? sf then Ok (sf, true)
          else if (sf =? cto) && (sf + 1 <? st) then Ok (sf + 1, true)
          else match (if sf =? cto then sr' else []) with
               | (nf, _) :: _ => if cto <? nf then Ok (nf, false) else Abort
               | [] => if ct <=? sf then intersect fuel cfrom cto cr' sr cover else intersect fuel cfrom cto cr sr' cover
               end
      end
  | _, _ => if cover =? -1 then Abort else Ok (cover, true)
  end.
(** a position that is a label is moved before the branches of the block before (src/register/interval.c:975-996); the
    blocks are given from the last to the first *)
Fixpoint off_label (rb : list block) (pos : Z) : res Z :=
  match rb with
  | [] => Ok pos
  | b :: rb =>
      if first_id b <? pos then Ok pos
      else if first_id b =? pos then match rb with p :: _ => before_branch p | [] => Abort end
      else off_label rb pos
  end.
(** interval_next_intersect (src/register/interval.c:903-999) *)
Definition next_intersect (blocks : list block) (current select : ivl) : res Z :=
  st <- last_to select ;; cf <- first_from current ;; ct <- last_to current ;;
  if st <=? cf then Abort
  else
    ' (r, check) <- intersect (length (ranges current) + length (ranges select)) cf ct (ranges current) (ranges select) (-1) ;;
    if check then if r <=? 0 then Abort else off_label (rev blocks) r else Ok r.

(** interval_add_use_pos (src/register/interval.c:1181-1198) *)
Fixpoint add_use (l : list (Z * kind)) (pos : Z) (k : kind) : list (Z * kind) :=
  match l with
  | [] => [(pos, k)]
  | (p, k') :: l' => if p <? pos then (p, k') :: add_use l' pos k else (pos, k) :: l
  end.
(** interval_next_use_position (src/register/interval.c:1201-1211) *)
Definition next_use (i : ivl) (after : Z) : Z := match find (fun u => after <? fst u) (uses i) with Some u => fst u | None => 0 end.
(** first_use_pos for no kind (src/register/interval.c:1620-1640) *)
Definition first_use (i : ivl) : option (Z * kind) := match uses i with u :: _ => Some u | [] => None end.
(** interval_must_reg_pos, interval_must_stack_pos (src/register/interval.c:1361-1384) *)
Definition must_pos (i : ivl) : option Z := option_map fst (find (fun u => is_must (snd u)) (uses i)).
Definition stack_pos (i : ivl) : option Z := option_map fst (find (fun u => is_stack (snd u)) (uses i)).

(** the first loop of interval_find_optimal_split_pos (src/register/interval.c:1019-1039) *)
Fixpoint near_label (rb : list block) (before : Z) : option (res Z) :=
  match rb with
  | [] => None
  | b :: rb =>
      if (first_id b =? before) || (first_id b =? before - 1) then Some match rb with p :: _ => before_branch p | [] => Abort end
      else near_label rb before
  end.
(** a block outside of loops that can take the split (src/register/interval.c:1068-1102) *)
Fixpoint out_of_loop (rb : list block) (use before id : Z) : res Z :=
  match rb with
  | [] => Ok id
  | b :: rb =>
      if (0 <? depth b)%nat then out_of_loop rb use before id
      else if last_id b <=? use then out_of_loop rb use before id
      else if before <=? first_id b then out_of_loop rb use before id
      else
        p <- before_branch b ;;
        if (use <? p) && (p <? before) then Ok p else out_of_loop rb use before id
  end.
(** the second loop (src/register/interval.c:1049-1111) *)
Fixpoint in_block (rb : list block) (remat : bool) (use before id : Z) : res Z :=
  match rb with
  | [] => Ok id
  | b :: rb' =>
      if (first_id b <=? id) && (id <=? last_id b) then
        if (depth b =? 0)%nat then Ok id
        else if has_call b && negb remat then Ok id
        else out_of_loop rb use before id
      else in_block rb' remat use before id
  end.
(** interval_find_optimal_split_pos (src/register/interval.c:1017-1114) *)
Definition optimal_split (blocks : list block) (i : ivl) (before : Z) : res Z :=
  match near_label (rev blocks) before with
  | Some r => r
  | None =>
      match first_use i with
      | None => UB
      | Some (use, _) => if before <=? use then Ok (before - 1) else in_block (rev blocks) (remat i) use before (before - 1)
      end
  end.

(** where a range goes when an interval is split (src/register/interval.c:1273-1289) *)
Definition left_part (pos : Z) (r : Z * Z) : list (Z * Z) := if snd r <=? pos then [r] else if pos <=? fst r then [] else [(fst r, pos)].
Definition right_part (pos : Z) (r : Z * Z) : list (Z * Z) := if snd r <=? pos then [] else if pos <=? fst r then [r] else [(pos, snd r)].
(** the uses up to the first one after the position (src/register/interval.c:1300-1309) *)
Fixpoint uses_left (pos : Z) (l : list (Z * kind)) : list (Z * kind) :=
  match l with [] => [] | u :: l => if fst u <=? pos then u :: uses_left pos l else [] end.
Fixpoint uses_right (pos : Z) (l : list (Z * kind)) : list (Z * kind) :=
  match l with [] => [] | u :: l' => if fst u <=? pos then uses_right pos l' else l end.
(** interval_split_at with interval_new_child (src/register/interval.c:1232-1318, 330-364): the child is new *)
Definition split_iv (ivs : list ivl) (k : nat) (pos : Z) : res (list ivl * nat) :=
  i <- get ivs k ;; t <- last_to i ;; f <- first_from i ;;
  if (t <=? pos) || (pos <=? f) || fixed i then Abort
  else
    let child := mk_ivl (flat_map (right_part pos) (ranges i)) (uses_right pos (uses i)) 0 false false (cls i) false (owner i) in
    Ok (list_set ivs k (with_ranges i (flat_map (left_part pos) (ranges i)) (uses_left pos (uses i))) ++ [child], length ivs).

(** ** The walk *)
(** allocate_t (src/register/allocate.h:15-21); seen, which the compiler does not keep, is where the intervals handled
    so far begin, the last one first *)
Record st := mk_st { ivs : list ivl; unhandled : list nat; active : list nat; inactive : list nat; handled : list nat; seen : list Z }.
Definition with_ivs (s : st) (l : list ivl) : st := mk_st l (unhandled s) (active s) (inactive s) (handled s) (seen s).
Definition handle (s : st) (k : nat) : st := mk_st (ivs s) (unhandled s) (active s) (inactive s) (handled s ++ [k]) (seen s).
Definition activate (s : st) (k : nat) : st := mk_st (ivs s) (unhandled s) (active s ++ [k]) (inactive s) (handled s) (seen s).

(** sort_to_unhandled (src/register/allocate.c:410-429) *)
Fixpoint sort_in (l : list ivl) (un : list nat) (k : nat) : res (list nat) :=
  match un with
  | [] => Ok [k]
  | j :: un' =>
      a <- get l j ;; b <- get l k ;; fa <- first_from a ;; fb <- first_from b ;;
      if (fb <? fa) || ((fa =? fb) && (j <? k)%nat) then Ok (k :: un) else un' <- sort_in l un' k ;; Ok (j :: un')
  end.
Definition put_back (s : st) (k : nat) : res st :=
  un <- sort_in (ivs s) (unhandled s) k ;; Ok (mk_st (ivs s) un (active s) (inactive s) (handled s) (seen s)).

(** handle_active (src/register/allocate.c:219-242): what stays active, what becomes inactive, what is done *)
Fixpoint sift_active (l : list ivl) (act : list nat) (pos : Z) : res (list nat * list nat * list nat) :=
  match act with
  | [] => Ok ([], [], [])
  | k :: act =>
      i <- get l k ;; e <- expired i pos false ;; c <- covered i pos false ;;
      ' (stay, move, done) <- sift_active l act pos ;;
      if negb c || e then if e then Ok (stay, move, k :: done) else Ok (stay, k :: move, done) else Ok (k :: stay, move, done)
  end.
(** handle_inactive (src/register/allocate.c:248-270) *)
Fixpoint sift_inactive (l : list ivl) (ina : list nat) (pos : Z) : res (list nat * list nat * list nat) :=
  match ina with
  | [] => Ok ([], [], [])
  | k :: ina =>
      i <- get l k ;; e <- expired i pos false ;; c <- covered i pos false ;;
      ' (stay, move, done) <- sift_inactive l ina pos ;;
      if c || e then if e then Ok (stay, move, k :: done) else Ok (stay, k :: move, done) else Ok (k :: stay, move, done)
  end.

(** set_pos (src/register/allocate.c:272-278) *)
Definition set_pos (l : list Z) (i : nat) (pos : Z) : res (list Z) :=
  x <- get l i ;; Ok (if negb (x =? -1) && (x <? pos) then l else list_set l i pos).
Definition int_max : Z := 2147483647.
(** the positions at the start: a register of another class has -1, as has index 0 (src/register/allocate.c:449-459) *)
Definition start_pos (classes : list nat) (c : nat) : list Z :=
  match classes with [] => [] | _ :: l => -1 :: map (fun x => if (x =? c)%nat then int_max else -1) l end.

Section Walk.
  (** the classes of the registers, index 0 is not used; the register preferred for an interval *)
  Variables (classes : list nat) (blocks : list block) (hint : list ivl -> nat -> nat).

  (** spill_interval with interval_spill_slot (src/register/allocate.c:289-320, src/register/interval.c:1325-1327) *)
  Definition spill (s : st) (k : nat) (before : Z) : res st :=
    i <- get (ivs s) k ;; f <- first_from i ;;
    ' (l, child) <- (if f <? before then pos <- optimal_split blocks i before ;; split_iv (ivs s) k pos else Ok (ivs s, k)) ;;
    i <- get l child ;;
    s <- match must_pos i with
         | None => Ok (with_ivs s l)
         | Some m =>
             pos <- optimal_split blocks i m ;;
             if pos <? m then ' (l, rest) <- split_iv l child pos ;; put_back (with_ivs s l) rest else Abort
         end ;;
    i <- get (ivs s) child ;;
    Ok (with_ivs s (list_set (ivs s) child (mk_ivl (ranges i) (uses i) 0 true (fixed i) (cls i) (remat i) (owner i)))).

  (** assign_interval (src/register/allocate.c:329-340) *)
  Definition assign (s : st) (k : nat) (r : nat) : res st :=
    if (r =? 0)%nat then Abort
    else
      i <- get (ivs s) k ;;
      let s := with_ivs s (list_set (ivs s) k (mk_ivl (ranges i) (uses i) r (spilled i) (fixed i) (cls i) (remat i) (owner i))) in
      match stack_pos i with None => Ok s | Some p => spill s k p end.

  (** find_free_reg (src/register/allocate.c:154-188); x is full_reg_id, y is max_part_reg_id *)
  Fixpoint find_free (l : list nat) (pos : list Z) (from to : Z) (h x y : nat) : res (nat * nat) :=
    match l with
    | [] => Ok (x, y)
    | i :: l =>
        p <- get pos i ;; px <- get pos x ;; py <- get pos y ;;
        if to <=? p then find_free l pos from to h (if (x =? 0)%nat || (i =? h)%nat || (negb (x =? h)%nat && (px <? p)) then i else x) y
        else if from + 1 <=? p then find_free l pos from to h x (if (y =? 0)%nat || (i =? h)%nat || (negb (y =? h)%nat && (py <? p)) then i else y)
        else find_free l pos from to h x y
    end.
  (** find_block_reg (src/register/allocate.c:196-216) *)
  Fixpoint find_block (l : list nat) (pos : list Z) (from : Z) (h x : nat) : res nat :=
    match l with
    | [] => Ok x
    | i :: l =>
        p <- get pos i ;; px <- get pos x ;;
        if p <=? from + 1 then find_block l pos from h x
        else find_block l pos from h (if (x =? 0)%nat || (i =? h)%nat || (negb (x =? h)%nat && (px <? p)) then i else x)
    end.

  (** the loops over active and inactive of allocate_free_reg (src/register/allocate.c:461-483) *)
  Fixpoint free_active (l : list ivl) (act : list nat) (c : nat) (pos : list Z) : res (list Z) :=
    match act with
    | [] => Ok pos
    | k :: act => i <- get l k ;; pos <- (if negb (cls i =? c)%nat then Ok pos else set_pos pos (reg i) 0) ;; free_active l act c pos
    end.
  Fixpoint free_inactive (l : list ivl) (ina : list nat) (cur : ivl) (pos : list Z) : res (list Z) :=
    match ina with
    | [] => Ok pos
    | k :: ina =>
        i <- get l k ;;
        pos <- (if negb (cls i =? cls cur)%nat then Ok pos
                else p <- next_intersect blocks cur i ;; if p =? 0 then Abort else set_pos pos (reg i) p) ;;
        free_inactive l ina cur pos
    end.

  (** ALLOC_USE_MIN, src/register/interval.h:8 *)
  Definition use_min : Z := 8.
  (** allocate_free_reg (src/register/allocate.c:448-541): None if there is no register *)
  Definition allocate_free (s : st) (k : nat) : res (option st) :=
    i <- get (ivs s) k ;; from <- first_from i ;; to <- last_to i ;;
    pos <- free_active (ivs s) (active s) (cls i) (start_pos classes (cls i)) ;;
    pos <- free_inactive (ivs s) (inactive s) i pos ;;
    ' (x, y) <- find_free (seq 1 (length classes - 1)) pos from to (hint (ivs s) k) 0 0 ;;
    let r := if (0 <? x)%nat then x else y in
    if (r =? 0)%nat then Ok None
    else
      p <- get pos r ;;
      if p =? 0 then Ok None
      else
        match first_use i with
        | None => UB
        | Some (u, uk) =>
            if negb (is_must uk) && (p - from <? use_min) then s <- spill s k 0 ;; Ok (Some (handle s k))
            else if p <? u then
              s <- (if is_must uk then q <- optimal_split blocks i u ;; ' (l, child) <- split_iv (ivs s) k q ;; put_back (with_ivs s l) child else Ok s) ;;
              s <- spill s k 0 ;; Ok (Some (handle s k))
            else
              s <- (if p <? to then
                      q <- optimal_split blocks i p ;;
                      ' (l, child) <- split_iv (ivs s) k (if q =? from then p else q) ;; put_back (with_ivs s l) child
                    else Ok s) ;;
              s <- assign s k r ;;
              Ok (Some (activate s k))
        end.

  (** the loops over active and inactive of allocate_block_reg (src/register/allocate.c:567-619): use_pos, block_pos *)
  Fixpoint block_active (l : list ivl) (act : list nat) (c : nat) (from : Z) (up bp : list Z) : res (list Z * list Z) :=
    match act with
    | [] => Ok (up, bp)
    | k :: act =>
        i <- get l k ;;
        ' (up, bp) <- (if negb (cls i =? c)%nat then Ok (up, bp)
                       else if fixed i then bp <- set_pos bp (reg i) 0 ;; up <- set_pos up (reg i) 0 ;; Ok (up, bp)
                       else
                         f <- first_from i ;;
                         if from <=? f then Abort else up <- set_pos up (reg i) (if from - f <=? 1 then 0 else next_use i from) ;; Ok (up, bp)) ;;
        block_active l act c from up bp
    end.
  Fixpoint block_inactive (l : list ivl) (ina : list nat) (cur : ivl) (from : Z) (up bp : list Z) : res (list Z * list Z) :=
    match ina with
    | [] => Ok (up, bp)
    | k :: ina =>
        i <- get l k ;;
        ' (up, bp) <- (if negb (cls i =? cls cur)%nat then Ok (up, bp)
                       else
                         p <- next_intersect blocks cur i ;;
                         if p =? 0 then Abort
                         else if fixed i then bp <- set_pos bp (reg i) p ;; up <- set_pos up (reg i) p ;; Ok (up, bp)
                         else up <- set_pos up (reg i) (next_use i from) ;; Ok (up, bp)) ;;
        block_inactive l ina cur from up bp
    end.

  (** the intervals that give up a register: those in act for which sel holds (src/register/allocate.c:656-690, 698-717) *)
  Fixpoint evict (act : list nat) (sel : ivl -> res bool) (r : nat) (from : Z) (s : st) : res st :=
    match act with
    | [] => Ok s
    | k :: act =>
        i <- get (ivs s) k ;;
        s <- (if negb (reg i =? r)%nat then Ok s else b <- sel i ;; if b then spill s k from else Ok s) ;;
        evict act sel r from s
    end.

  (** allocate_block_reg (src/register/allocate.c:549-731) *)
  Definition allocate_block (s : st) (k : nat) : res (bool * st) :=
    i <- get (ivs s) k ;; from <- first_from i ;; to <- last_to i ;;
    ' (up, bp) <- block_active (ivs s) (active s) (cls i) from (start_pos classes (cls i)) (start_pos classes (cls i)) ;;
    ' (up, bp) <- block_inactive (ivs s) (inactive s) i from up bp ;;
    r <- find_block (seq 1 (length classes - 1)) up from (hint (ivs s) k) 0 ;;
    match first_use i with
    | None => Abort
    | Some (u, uk) =>
        p <- get up r ;; b <- get bp r ;;
        if (r =? 0)%nat || (p <? u) then
          if is_must uk && (u =? from) then Abort else s <- spill s k 0 ;; Ok (false, s)
        else if to <=? b then
          s <- evict (active s) (fun j => is_intersect i j) r from s ;;
          s <- evict (inactive s) (fun j => b <- is_intersect i j ;; Ok (b && negb (fixed j))) r from s ;;
          s <- assign s k r ;; Ok (true, s)
        else
          s <- evict (active s) (fun _ => Ok true) r from s ;;
          s <- evict (inactive s) (fun j => Ok (negb (fixed j))) r from s ;;
          q <- optimal_split blocks i b ;;
          ' (l, child) <- split_iv (ivs s) k q ;;
          s <- put_back (with_ivs s l) child ;;
          s <- assign s k r ;; Ok (true, s)
    end.

  (** one round of allocate_walk (src/register/allocate.c:349-403) *)
  Definition step (s : st) : res st :=
    match unhandled s with
    | [] => Ok s
    | k :: un =>
        let s := mk_st (ivs s) un (active s) (inactive s) (handled s) (seen s) in
        i <- get (ivs s) k ;;
        if negb (reg i =? 0)%nat then Ok (handle s k)
        else
          from <- first_from i ;;
          ' (stay, move, done) <- sift_active (ivs s) (active s) from ;;
          let ina := inactive s ++ move in
          ' (stay', move', done') <- sift_inactive (ivs s) ina from ;;
          let s := mk_st (ivs s) un (stay ++ move') stay' (handled s ++ done ++ done') (from :: seen s) in
          let give_up := s <- spill s k 0 ;; Ok (handle s k) in
          match first_use i with
          | None => give_up
          | Some (u, uk) =>
              if is_stack uk then give_up
              else if negb (is_must uk) && match stack_pos i with Some p => p - u <? use_min | None => false end then give_up
              else if remat i then give_up
              else
                o <- allocate_free s k ;;
                match o with
                | Some s => Ok s
                | None => ' (b, s) <- allocate_block s k ;; Ok (if b then activate s k else handle s k)
                end
          end
    end.
  Fixpoint walk (fuel : nat) (s : st) : res st :=
    match unhandled s with
    | [] => Ok s
    | _ => match fuel with O => NoFuel | S fuel => s <- step s ;; walk fuel s end
    end.
End Walk.

(** unhandled_new, inactive_new (src/register/allocate.c:9-53): the intervals of the registers come first *)
Fixpoint sort_all (l : list ivl) (ks : list nat) (un : list nat) : res (list nat) :=
  match ks with [] => Ok un | k :: ks => un <- sort_in l un k ;; sort_all l ks un end.
Definition start (fixeds vars : list ivl) : res st :=
  let l := fixeds ++ vars in
  un <- sort_all l (seq (length fixeds) (length vars)) [] ;;
  Ok (mk_st l un [] (filter (fun k => match nth_error l k with Some i => match ranges i with [] => false | _ => true end | None => false end) (seq 0 (length fixeds))) [] []).
(** allocate_walk (src/register/allocate.c:342-404) *)
Definition allocate (fuel : nat) (classes : list nat) (blocks : list block) (hint : list ivl -> nat -> nat) (fixeds vars : list ivl) : res st :=
  s <- start fixeds vars ;; walk classes blocks hint fuel s.
