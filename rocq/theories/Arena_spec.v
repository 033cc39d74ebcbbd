(** Specification side of C32: what the client holds, and the contract of the C library's heap. *)
From Verif Require Import Base Arena_model.
From Verif Require Export Fixalloc_spec.

(** A region is an address and a length. *)
Definition region := (Z * Z)%type.

(** Regions of the list are pairwise different and do not overlap. *)
Definition apart (l : list region) : Prop :=
  NoDup l /\ forall p n q m, In (p, n) l -> In (q, m) l -> (p, n) = (q, m) \/ disjoint p n q m.

(** malloc(n) returns null or an 8-aligned region of n bytes, below 2^63, that overlaps no region
    handed out and not yet freed. *)
Definition malloc_ok (heap : list region) (malloc : Z -> Z) : Prop :=
  forall n, malloc n = 0 \/
    (0 < malloc n /\ malloc n mod 8 = 0 /\ malloc n + n < 2 ^ 63 /\
     forall q m, In (q, m) heap -> disjoint (malloc n) n q m).

(** free(p) ends the life of the region at p. *)
Definition free_one (p : Z) (heap : list region) : list region := filter (fun r => negb (fst r =? p)) heap.
Definition free_all (ps : list Z) (heap : list region) : list region := fold_left (fun h p => free_one p h) ps heap.

(** What a client does with an arena; each allocation comes with the behaviour of malloc at that time. *)
Inductive arena_op := AAlloc (malloc : Z -> Z) (size : Z) | ADealloc (p : Z) | AReset.

(** The world: the arena, the allocations the client holds, and the regions of the C heap held by the
    arena. *)
Record world := mk_world { ar : arena; live : list region; heap : list region }.

(** the regions added to the C heap by an allocation: the new blocks *)
Definition new_regions (a a' : arena) : list region :=
  map (fun b => (base b, HEADER + capacity b)) (skipn (length (blocks a)) (blocks a')).

(** One client step.  malloc must keep its contract; a panic ends the history. *)
Inductive wstep : world -> arena_op -> world -> Prop :=
| step_alloc w malloc size a p : malloc_ok (heap w) malloc ->
    alloc malloc (ar w) size = Ok (a, p) ->
    wstep w (AAlloc malloc size) (mk_world a ((p, size) :: live w) (heap w ++ new_regions (ar w) a))
| step_dealloc w p :
    wstep w (ADealloc p) (mk_world (dealloc (ar w) p) (free_one p (live w)) (heap w))
| step_reset w a ps : reset (ar w) = (a, ps) ->
    wstep w AReset (mk_world a [] (free_all ps (heap w))).

Inductive wrun : world -> list arena_op -> world -> Prop :=
| wrun_nil w : wrun w [] w
| wrun_cons w op w1 ops w2 : wstep w op w1 -> wrun w1 ops w2 -> wrun w (op :: ops) w2.

Definition start (malloc : Z -> Z) (cap : Z) (w : world) : Prop :=
  malloc_ok [] malloc /\ exists a, init malloc cap = Ok a /\
  w = mk_world a [] (map (fun b => (base b, HEADER + capacity b)) (blocks a)).

(** every size asked for in the history is below 2^62 *)
Definition op_small (op : arena_op) : Prop := match op with AAlloc _ s => s < 2 ^ 62 | _ => True end.
