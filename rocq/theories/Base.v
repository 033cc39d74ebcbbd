(** Shared vocabulary of the model: outcomes, bytes, checked indexing and slicing.

    Everything here is a modelling device except [at_] and [slice], which transcribe
    the run-time checks every indexing and slicing expression of a `.n` program goes
    through (runtime/nutils/vec.c). *)
From Coq Require Export ZArith List Bool Lia.
From Coq Require Export ZifyBool ZifyNat.
Export ListNotations.
Open Scope Z_scope.

(** Outcome of running a piece of code.
    - [Ok a]    : normal return;
    - [Throw]   : a catchable error was thrown (`throw errorf(..)` or rti_throw(..));
    - [Panic]   : an out-of-range access / panic (rti_throw(msg, true), panic());
    - [Abort]   : a C assert failed, the process dies;
    - [UB]      : the C code has undefined behaviour at this point;
    - [NoFuel]  : modelling artefact, the recursion bound was too small. Theorems
                  always exclude it. *)
Inductive res (A : Type) : Type :=
| Ok (a : A)
| Throw
| Panic
| Abort
| UB
| NoFuel.
Arguments Ok {A} a.
Arguments Throw {A}.
Arguments Panic {A}.
Arguments Abort {A}.
Arguments UB {A}.
Arguments NoFuel {A}.

Definition bind {A B} (r : res A) (f : A -> res B) : res B :=
  match r with
  | Ok a => f a
  | Throw => Throw
  | Panic => Panic
  | Abort => Abort
  | UB => UB
  | NoFuel => NoFuel
  end.

Notation "x <- e1 ;; e2" := (bind e1 (fun x => e2))
  (at level 61, e1 at next level, right associativity).
Notation "' p <- e1 ;; e2" := (bind e1 (fun p => e2))
  (at level 61, p pattern, e1 at next level, right associativity).

(** `try e catch { d }` for a catchable error (nutils.c:650-715); a panic is not caught. *)
Definition catch {A} (r : res A) (d : A) : res A :=
  match r with Throw => Ok d | _ => r end.

(** Length of a vector or string as a Nature `int`. *)
Definition zlen {A} (s : list A) : Z := Z.of_nat (length s).

(** Checked element access.  runtime/nutils/vec.c:179-191 (rti_vec_access) and 375-393
    (rt_vec_element_addr): the index arrives as uint64, so a negative int becomes huge and
    fails the same `index >= length` test. *)
Definition at_ {A} (s : list A) (i : Z) : res A :=
  if (0 <=? i) && (i <? zlen s) then
    match nth_error s (Z.to_nat i) with
    | Some x => Ok x
    | None => Panic
    end
  else Panic.

(** Checked element write.  vec.c:375-393: the compiler stores through rt_vec_element_addr. *)
Fixpoint list_set {A} (s : list A) (n : nat) (x : A) : list A :=
  match s, n with
  | [], _ => []
  | _ :: t, O => x :: t
  | h :: t, S n' => h :: list_set t n' x
  end.

Definition set_at {A} (s : list A) (i : Z) (x : A) : res (list A) :=
  if (0 <=? i) && (i <? zlen s) then Ok (list_set s (Z.to_nat i) x) else Panic.

(** Elements with index in [a, b). *)
Definition sub_list {A} (s : list A) (a b : Z) : list A :=
  firstn (Z.to_nat (b - a)) (skipn (Z.to_nat a) s).

(** runtime/nutils/vec.c:297-332 (rt_vec_slice), as a value: [start,end), end == -1 means
    the length, errors panic (builtin/vec.n:114-119). Sharing of storage is modelled
    separately in Vec_model.v. *)
Definition slice {A} (s : list A) (start end_ : Z) : res (list A) :=
  let end_ := if end_ =? -1 then zlen s else end_ in
  if (zlen s <? start) || (zlen s <? end_) || (start <? 0) || (end_ <? 0) then Panic
  else if end_ <? start then Panic
  else Ok (sub_list s start end_).

(** Byte values. *)
Definition is_byte (b : Z) : Prop := 0 <= b < 256.
Definition bytes (s : list Z) : Prop := Forall is_byte s.

(** `as u8`: truncation to 8 bits. *)
Definition u8 (z : Z) : Z := z mod 256.
(** `as u32`, `as u64`, and two's-complement `int` (i64). *)
Definition u16 (z : Z) : Z := z mod 65536.
Definition u32 (z : Z) : Z := z mod 4294967296.
Definition u64 (z : Z) : Z := z mod 18446744073709551616.
Definition i64 (z : Z) : Z :=
  (z + 9223372036854775808) mod 18446744073709551616 - 9223372036854775808.

(** Bytes of a Coq string literal, so that constants can be written readably. *)
From Coq Require Export String Ascii.
Fixpoint bs (s : string) : list Z :=
  match s with
  | EmptyString => []
  | String c s' => Z.of_N (N_of_ascii c) :: bs s'
  end.
Open Scope list_scope.
Notation length := List.length.
Notation concat := List.concat.
