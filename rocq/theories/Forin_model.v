(** `for v in x`, `for k, v in x` and `for i in a..b`: the code that is made of them, and the
    functions of the runtime it calls.

    Source: src/linear.c:1616-1692 (linear_for_iterator), 1731-1759 (linear_for_tradition), 1761-1775
    (continue, break); runtime/nutils/nutils.c:500-648 (iterator_next_key, iterator_next_value,
    iterator_take_value); runtime/rt_chan.c:343-405 (rt_chan_recv); src/astgen.h:6-61
    (astgen_for_range_rewrite); src/semantic/infer.c:3129-3200.

    Simplifications: a key or an element is one number.  What a container holds, what a channel
    gives and what a body does are arguments, functions of the whole state; a receive that has to
    wait is one step.  The assertions of a debug build (nutils.c:504: no more than 2^31 - 1
    elements) are off in a release build (runtime/CMakeLists.txt:29-30) and left out.  Variables
    are registers of the machine, except those the body shares with the rest of the program. *)
From Verif Require Import Base.
Import ListNotations.
Open Scope Z_scope.

Inductive kind := KVec | KStr | KMap | KChan.

(** The labels of one loop, by their suffix. *)
Inductive label := LFor | LCont | LUp | LCond | LEnd.
Inductive instr :=
| Lab (l : label)
| Bal (l : label)
| Cursor            (* the cursor is set to -1 *)
| NextKey           (* RT_CALL_ITERATOR_NEXT_KEY *)
| NextValue         (* RT_CALL_ITERATOR_NEXT_VALUE *)
| TakeValue         (* RT_CALL_ITERATOR_TAKE_VALUE *)
| BeeDone           (* BEE -1, cursor, LEnd *)
| Body
| Init              (* var i = start *)
| Update            (* i = i + 1 *)
| BeeLess (l : label).   (* if i < end goto l *)

Definition by_value (k : kind) : bool := match k with KVec | KStr | KChan => true | KMap => false end.

(** linear.c:1616-1692. *)
Definition linear_for_iterator (k : kind) (second : bool) : list instr :=
  [Cursor; Lab LFor; (if negb second && by_value k then NextValue else NextKey); BeeDone; Lab LCont] ++
  (if second then [TakeValue] else []) ++
  [Body; Bal LFor; Lab LEnd].

(** linear.c:1731-1759, on what astgen.h:6-61 makes of a range. *)
Definition linear_for_range : list instr :=
  [Lab LFor; Init; Bal LCond; Lab LCont; Body; Lab LUp; Update; Lab LCond; BeeLess LCont; Lab LEnd].

Definition label_eqb (a b : label) : bool :=
  match a, b with
  | LFor, LFor | LCont, LCont | LUp, LUp | LCond, LCond | LEnd, LEnd => true
  | _, _ => false
  end.

Fixpoint find_label (code : list instr) (l : label) : option nat :=
  match code with
  | [] => None
  | Lab k :: code' => if label_eqb k l then Some 0%nat else option_map S (find_label code' l)
  | _ :: code' => option_map S (find_label code' l)
  end.

Section Forin.
  Variable st : Type.
  (** The container: number of elements, key and element by position. *)
  Variable len : st -> Z.
  Variable key : Z -> st -> Z.
  Variable elem : Z -> st -> Z.
  (** The channel: a message, or None when it is closed and empty; [mark] is rti_throw, which notes
      the error in the coroutine. *)
  Variable recv : st -> option (Z * st).
  Variable mark : st -> st.
  (** The ends of a range: the second is evaluated in front of every round. *)
  Variable start : st -> Z * st.
  Variable stop : st -> Z * st.
  (** The addition at the width of the variable. *)
  Variable wrap : Z -> Z.

  (** A body runs to its end or to `continue`, with a new value of its first variable; or it breaks,
      or leaves the function. *)
  Inductive bd := Falls (x : Z) (s : st) | Continues (x : Z) (s : st) | Breaks (s : st) | Leaves (s : st).
  Variable body : Z -> option Z -> st -> bd.

  (** nutils.c:500-546: the new cursor and the key. *)
  Definition iterator_next_key (k : kind) (cursor x : Z) (s : st) : option (Z * Z) :=
    let cursor := cursor + 1 in
    match k with
    | KVec | KStr => Some (if len s <=? cursor then (-1, x) else (cursor, cursor))
    | KMap => Some (if len s <=? cursor then (-1, x) else (cursor, key cursor s))
    | KChan => None
    end.

  (** nutils.c:548-596. *)
  Definition iterator_next_value (k : kind) (cursor x : Z) (s : st) : Z * Z * st :=
    let cursor := cursor + 1 in
    match k with
    | KVec | KStr | KMap => if len s <=? cursor then (-1, x, s) else (cursor, elem cursor s, s)
    | KChan => match recv s with
               | Some (v, s') => (1, v, s')
               | None => (1, x, mark s)
               end
    end.

  (** nutils.c:605-648. *)
  Definition iterator_take_value (cursor : Z) (s : st) : Z := elem cursor s.

  Inductive out := Finished (s : st) | Left (s : st) | Stuck.

  (** [lc] is the label `continue` goes to: LFor (linear.c:1634) or LUp (1738). *)
  Fixpoint run (fuel : nat) (k : kind) (lc : label) (code : list instr) (pc : nat)
           (cursor x : Z) (y : option Z) (s : st) : option out :=
    match fuel with
    | O => None
    | S f =>
        let goto l x s :=
          match find_label code l with Some p => run f k lc code p cursor x y s | None => Some Stuck end in
        match nth_error code pc with
        | None => Some (Finished s)
        | Some (Lab _) => run f k lc code (S pc) cursor x y s
        | Some (Bal l) => goto l x s
        | Some Cursor => run f k lc code (S pc) (-1) x y s
        | Some NextKey =>
            match iterator_next_key k cursor x s with
            | Some (c, x') => run f k lc code (S pc) c x' y s
            | None => Some Stuck
            end
        | Some NextValue =>
            let '(c, x', s') := iterator_next_value k cursor x s in run f k lc code (S pc) c x' y s'
        | Some TakeValue => run f k lc code (S pc) cursor x (Some (iterator_take_value cursor s)) s
        | Some BeeDone => if cursor =? -1 then goto LEnd x s else run f k lc code (S pc) cursor x y s
        | Some Body =>
            match body x y s with
            | Falls x' s' => run f k lc code (S pc) cursor x' y s'
            | Continues x' s' => goto lc x' s'
            | Breaks s' => goto LEnd x s'
            | Leaves s' => Some (Left s')
            end
        | Some Init => let '(a, s') := start s in run f k lc code (S pc) cursor a y s'
        | Some Update => run f k lc code (S pc) cursor (wrap (x + 1)) y s
        | Some (BeeLess l) =>
            let '(b, s') := stop s in if x <? b then goto l x s' else run f k lc code (S pc) cursor x y s'
        end
    end.

  Definition run_iterator (fuel : nat) (k : kind) (second : bool) (x : Z) (s : st) : option out :=
    run fuel k LFor (linear_for_iterator k second) 0 0 x None s.
  Definition run_range (fuel : nat) (s : st) : option out :=
    run fuel KVec LUp linear_for_range 0 0 0 None s.
End Forin.
