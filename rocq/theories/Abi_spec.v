(** The System V calling convention for amd64, for integers, pointers, floats and structs of them, written from
    the document (System V ABI, AMD64 supplement, 3.2.3). *)
From Verif Require Import Base Abi_model.

(** Types as C lays them out: scalars of 1, 2, 4 or 8 bytes, aligned to their size; the members of a struct one
    after the other, each at the next multiple of its alignment; the size a multiple of the alignment. *)
Definition up (n a : Z) : Z := if a =? 0 then n else a * ((n + a - 1) / a).
Definition scalar_size (s : Z) : Prop := s = 1 \/ s = 2 \/ s = 4 \/ s = 8.
Fixpoint laid_out (t : ty) : Prop :=
  match t with
  | Scalar _ s => scalar_size s
  | Arr s a => scalar_size a /\ 0 <= s
  | Struct es s a =>
      a = fold_right Z.max 0 (map align es)
      /\ s = up (fold_left (fun o e => up o (align e) + size e) es 0) a
      /\ (fix all (es : list ty) : Prop := match es with [] => True | e :: es => laid_out e /\ all es end) es
  end.
Fixpoint has_array (t : ty) : bool :=
  match t with Scalar _ _ => false | Arr _ _ => true | Struct es _ _ => existsb has_array es end.

(** the scalars in a value, with their offsets; true: a float *)
Fixpoint fields (t : ty) (b : Z) : list (Z * bool) :=
  match t with
  | Scalar f _ => [(b, f)]
  | Arr _ _ => []
  | Struct es _ _ =>
      (fix go (es : list ty) (o : Z) : list (Z * bool) :=
         match es with [] => [] | e :: es => fields e (up o (align e)) ++ go es (up o (align e) + size e) end) es b
  end.

(** An eightbyte with floats only goes to an sse register, any other to an integer register. *)
Definition floats_only (fs : list (Z * bool)) : class := if forallb snd fs then SSE else INTEGER.
Definition eightbyte (k : Z) (t : ty) : list (Z * bool) := filter (fun f => fst f / 8 =? k) (fields t 0).
(** The classes of the eightbytes of a value; None: it is passed in memory.  Values with arrays in them are
    passed in memory by Nature. *)
Definition eightbytes (t : ty) : option (list class) :=
  if 16 <? size t then None
  else if has_array t then None
  else
    match eightbyte 0 t, eightbyte 1 t with
    | [], _ => Some []
    | f0, [] => Some [floats_only f0]
    | f0, f1 => Some [floats_only f0; floats_only f1]
    end.

(** eightbytes into the registers that are left: rdi rsi rdx rcx r8 r9 and xmm0 to xmm7 *)
Fixpoint place (ps : list part) (cs : list class) (ints sses : list Z) : option (list (part * loc) * list Z * list Z) :=
  match cs, ps with
  | [], _ => Some ([], ints, sses)
  | INTEGER :: cs, p :: ps =>
      match ints with
      | [] => None
      | r :: ints => match place ps cs ints sses with Some (l, i, s) => Some ((p, IReg r) :: l, i, s) | None => None end
      end
  | SSE :: cs, p :: ps =>
      match sses with
      | [] => None
      | r :: sses => match place ps cs ints sses with Some (l, i, s) => Some ((p, XReg r) :: l, i, s) | None => None end
      end
  | _, _ => None
  end.
(** Every argument in turn: all its eightbytes in registers if there are enough left, else the whole of it on the
    stack, in the next place that is a multiple of eight.  (A value without fields takes no place.) *)
Fixpoint convention (i : nat) (ts : list ty) (ints sses : list Z) (off : Z) : list move :=
  match ts with
  | [] => []
  | t :: ts =>
      let on_stack := (i, Whole, Stk off) :: convention (S i) ts ints sses (off + up (size t) 8) in
      match eightbytes t with
      | None | Some [] => on_stack
      | Some cs =>
          match place [Low; High] cs ints sses with
          | None => on_stack
          | Some (l, ints, sses) => map (fun pl => (i, fst pl, snd pl)) l ++ convention (S i) ts ints sses off
          end
      end
  end.
Definition arguments (ts : list ty) : list move := convention 0 ts [7; 6; 2; 1; 8; 9] [0; 1; 2; 3; 4; 5; 6; 7] 0.

(** Results: integers in rax, rdx, floats in xmm0, xmm1; None: in memory *)
Definition result (t : ty) : option (list (part * loc)) :=
  match eightbytes t with
  | None => None
  | Some cs => match place [Low; High] cs [0; 2] [0; 1] with Some (l, _, _) => Some l | None => None end
  end.

(** The caller's stack pointer is 16 below the frame pointer of the function called, seen from there. *)
Definition from_callee (m : move) : move :=
  match m with (i, p, Stk off) => (i, p, Stk (off + 16)) | _ => m end.

(** two moves that do not get in each other's way *)
Definition apart (sz : nat -> Z) (m1 m2 : move) : Prop :=
  match m1, m2 with
  | (_, _, IReg r), (_, _, IReg r') | (_, _, XReg r), (_, _, XReg r') => r <> r'
  | (i, _, Stk o), (i', _, Stk o') => o + sz i <= o' \/ o' + sz i' <= o
  | _, _ => True
  end.
Definition size_of (ts : list ty) (j : nat) : Z := match nth_error ts j with Some t => size t | None => 0 end.
(** stack places inside the first [room] bytes above the stack pointer *)
Definition inside (ts : list ty) (room : Z) (m : move) : Prop :=
  match m with (j, _, Stk x) => 0 <= x /\ x + size_of ts j <= room | _ => True end.

(** A result that is returned in memory: its address is passed in front of the arguments. *)
Definition with_result (ret : option ty) (ts : list ty) : list ty :=
  match ret with
  | Some t => match eightbytes t with None => pointer :: ts | Some _ => ts end
  | None => ts
  end.
