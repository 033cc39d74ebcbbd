(** The collector marking while coroutines run: runtime/collector.c, runtime/nutils/nutils.c:866-925.

    One step is one access to the heap, to the mark bits or to a work list, so a write barrier is several steps
    and other processors can do anything in between.  Simplifications:
    - an object is a number with a list of fields (what slots and pointer bitmaps amount to is Gcmark);
    - the stack of a coroutine is a list of variables; how frames are walked (collector.c:327-630) is left out;
    - mark bits and work lists are accessed under their locks, each access is atomic;
    - the pool of waiting records and the constant strings (scan_pool, collector.c:885-908) count as globals;
    - the time-outs of runtime_gc (collector.c:1010-1016, 1051-1056) are left out.
    Objects are never reused during a cycle: sweeping only starts when the world has stopped. *)
From Verif Require Import Base.

Definition ref := option nat.

(** the rest of a runtime call a coroutine is in *)
Inductive micro :=
| Clear (o : nat)                      (* shade_obj_grey: bitmap_clear under the lock, collector.c:43-45 *)
| Push (o : nat)                       (* shade_obj_grey: insert_gc_worklist, collector.c:47-54 *)
| IfGrey (v : ref)                     (* rti_write_barrier_ptr: shade new_obj if the stack is grey, nutils.c:876-893 *)
| Write (o k : nat) (v : ref)          (* the store itself, nutils.c:896 *)
| GWrite (g : nat) (v : ref)           (* the same, to a global *)
| Again (o k : nat)                    (* rti_write_barrier_rtype: the barrier with *slot, nutils.c:920-921 *)
| New (p : nat) (args : list ref).     (* rt_coroutine_new, processor.c:738-763, and its dispatch to p *)

Record coro := mk_coro {
  home : nat;            (* the processor it is bound to *)
  inited : bool;         (* aco.inited *)
  black : bool;          (* gc_black == gc_count *)
  vars : list ref;
  doing : list micro }.

(** [work], [todo], [walking], [scan] and [fin] are indexed by processors 0 .. procs-1; index procs is the
    collector's own thread with the global work list *)
Record world := mk_world {
  procs : nat;
  next : nat;                          (* the number of objects *)
  field : nat -> list ref;
  marked : nat -> bool;                (* gcmark_bits *)
  globals : nat -> ref;
  nco : nat;
  co : nat -> coro;
  work : nat -> list nat;              (* gc_worklist *)
  todo : nat -> list nat;              (* co_list from current on, collector.c:777 *)
  walking : nat -> bool;               (* before the yield of collector.c:838 *)
  scan : nat -> option (nat * nat);    (* the loop of handle_gc_ptr, collector.c:686-724: object and next field *)
  fin : nat -> bool;                   (* gc_work_finished == gc_count *)
  stopped : bool }.                    (* the world stopped for the second time, collector.c:1050 *)

Definition upd {A} (f : nat -> A) (i : nat) (v : A) : nat -> A := fun j => if Nat.eqb j i then v else f j.

Definition set_vars (x : coro) (l : list ref) : coro := mk_coro (home x) (inited x) (black x) l (doing x).
Definition set_doing (x : coro) (l : list micro) : coro := mk_coro (home x) (inited x) (black x) (vars x) l.
Definition set_inited (x : coro) : coro := mk_coro (home x) true (black x) (vars x) (doing x).
Definition set_black (x : coro) : coro := mk_coro (home x) (inited x) true (vars x) (doing x).

Definition with_co (w : world) (c : nat) (x : coro) : world :=
  mk_world (procs w) (next w) (field w) (marked w) (globals w) (nco w) (upd (co w) c x) (work w) (todo w) (walking w) (scan w) (fin w) (stopped w).
Definition with_marked (w : world) (o : nat) (b : bool) : world :=
  mk_world (procs w) (next w) (field w) (upd (marked w) o b) (globals w) (nco w) (co w) (work w) (todo w) (walking w) (scan w) (fin w) (stopped w).
Definition with_work (w : world) (p : nat) (l : list nat) : world :=
  mk_world (procs w) (next w) (field w) (marked w) (globals w) (nco w) (co w) (upd (work w) p l) (todo w) (walking w) (scan w) (fin w) (stopped w).
Definition with_scan (w : world) (p : nat) (s : option (nat * nat)) : world :=
  mk_world (procs w) (next w) (field w) (marked w) (globals w) (nco w) (co w) (work w) (todo w) (walking w) (upd (scan w) p s) (fin w) (stopped w).
Definition with_field (w : world) (o : nat) (l : list ref) : world :=
  mk_world (procs w) (next w) (upd (field w) o l) (marked w) (globals w) (nco w) (co w) (work w) (todo w) (walking w) (scan w) (fin w) (stopped w).
Definition with_global (w : world) (g : nat) (v : ref) : world :=
  mk_world (procs w) (next w) (field w) (marked w) (upd (globals w) g v) (nco w) (co w) (work w) (todo w) (walking w) (scan w) (fin w) (stopped w).
Definition with_todo (w : world) (p : nat) (l : list nat) : world :=
  mk_world (procs w) (next w) (field w) (marked w) (globals w) (nco w) (co w) (work w) (upd (todo w) p l) (walking w) (scan w) (fin w) (stopped w).

(** ** Coroutines *)
Inductive mop :=
| Start                                (* the first resume, processor.c: aco.inited = 1 *)
| Load (d x k : nat)                   (* d = x.k; reads have no barrier *)
| GLoad (d g : nat)
| Move (d : nat) (y : option nat)      (* d = y, or d = nil *)
| Alloc (d n : nat)                    (* rti_gc_malloc with the barrier on: marked black, zeroed; memory.c *)
| Store (x k : nat) (y : option nat)   (* x.k = y, write_barrier; linear.c:1139 and the like *)
| GStore (g : nat) (y : option nat)
| Copy (x k : nat) (y : option nat)    (* rti_write_barrier_rtype of one pointer word, nutils.c:903-925 *)
| Spawn (p : nat) (args : list nat).

Definition var (x : coro) (y : nat) : ref := nth y (vars x) None.
Definition val (x : coro) (y : option nat) : ref := match y with Some y => var x y | None => None end.

(** shade_obj_grey, collector.c:27-55; a nil or a slot outside the heap is left alone *)
Definition shade (v : ref) : list micro := match v with Some o => [Clear o; Push o] | None => [] end.

(** rti_write_barrier_ptr, nutils.c:867-897: it shades the slot, that is the object written to *)
Definition barrier (o k : nat) (v : ref) : list micro := shade (Some o) ++ [IfGrey v; Write o k v].

Definition do_op (w : world) (c : nat) (m : mop) : option world :=
  let x := co w c in
  match m with
  | Start => Some (with_co w c (set_inited x))
  | Load d y k =>
    match var x y with
    | Some o => Some (with_co w c (set_vars x (list_set (vars x) d (nth k (field w o) None))))
    | None => None
    end
  | GLoad d g => Some (with_co w c (set_vars x (list_set (vars x) d (globals w g))))
  | Move d y => Some (with_co w c (set_vars x (list_set (vars x) d (val x y))))
  | Alloc d n =>
    let w' := with_co w c (set_vars x (list_set (vars x) d (Some (next w)))) in
    Some (mk_world (procs w) (S (next w)) (upd (field w) (next w) (repeat None n)) (upd (marked w) (next w) true) (globals w) (nco w)
            (co w') (work w) (todo w) (walking w) (scan w) (fin w) (stopped w))
  | Store y k v =>
    match var x y with
    | Some o => Some (with_co w c (set_doing x (barrier o k (val x v))))
    | None => None
    end
  | GStore g v => Some (with_co w c (set_doing x [IfGrey (val x v); GWrite g (val x v)]))
  | Copy y k v =>
    match var x y with
    | Some o => Some (with_co w c (set_doing x [Write o k (val x v); Again o k]))
    | None => None
    end
  | Spawn p args =>
    if Nat.ltb p (procs w) then
      let l := map (var x) args in Some (with_co w c (set_doing x (flat_map shade l ++ [New p l])))
    else None
  end.

(** where shade_obj_grey puts an object, collector.c:49-54 *)
Definition target (w : world) (x : coro) : nat := if fin w (home x) then procs w else home x.

Definition do_micro (w : world) (c : nat) : option world :=
  let x := co w c in
  match doing x with
  | [] => None
  | m :: rest =>
    let done := with_co w c (set_doing x rest) in
    match m with
    | Clear o => Some (with_marked done o false)
    | Push o => Some (with_work done (target w x) (work w (target w x) ++ [o]))
    | IfGrey v => Some (with_co w c (set_doing x ((if black x then [] else shade v) ++ rest)))
    | Write o k v => Some (with_field done o (list_set (field w o) k v))
    | GWrite g v => Some (with_global done g v)
    | Again o k => Some (with_co w c (set_doing x (barrier o k (nth k (field w o) None) ++ rest)))
    | New p args =>
      let n := nco w in
      let todo' := if walking w p then upd (todo w) p (todo w p ++ [n]) else todo w in
      Some (mk_world (procs w) (next w) (field w) (marked w) (globals w) (S n) (upd (co done) n (mk_coro p false false args []))
              (work w) todo' (walking w) (scan w) (fin w) (stopped w))
    end
  end.

(** ** The collector *)
Definition refs (l : list ref) : list nat := flat_map (fun v => match v with Some o => [o] | None => [] end) l.

Inductive op :=
| Mut (c : nat) (m : mop)
| Micro (c : nat)
| Walk (p : nat)      (* gc_work: the next coroutine of co_list, collector.c:776-834 *)
| EndWalk (p : nat)   (* collector.c:838 *)
| Pop (p : nat)       (* handle_gc_worklist or gc_mark_done: the next item, collector.c:749, 981, and 660-680 *)
| Scan (p : nat)      (* handle_gc_ptr: the next word, collector.c:686-724 *)
| Finish (p : nat)    (* collector.c:734, 842 *)
| Stop.               (* runtime_gc: all finished, all processors at a safe point, collector.c:1047-1057 *)

Definition empty {A} (l : list A) : bool := match l with [] => true | _ => false end.

Definition step (w : world) (o : op) : option world :=
  match o with
  | Mut c m =>
    if negb (stopped w) && Nat.ltb c (nco w) && empty (doing (co w c)) && (inited (co w c) || match m with Start => true | _ => false end)
    then do_op w c m else None
  | Micro c => if negb (stopped w) && Nat.ltb c (nco w) then do_micro w c else None
  | Walk p =>
    if negb (stopped w) && Nat.ltb p (procs w) && walking w p then
      match todo w p with
      | c :: rest =>
        let x := co w c in
        if empty (doing x) then
          let w := with_work w p (work w p ++ refs (vars x)) in
          let w := with_todo w p rest in
          Some (if inited x then with_co w c (set_black x) else w)
        else None
      | [] => None
      end
    else None
  | EndWalk p =>
    if negb (stopped w) && Nat.ltb p (procs w) && empty (todo w p) then
      Some (mk_world (procs w) (next w) (field w) (marked w) (globals w) (nco w) (co w) (work w) (todo w) (upd (walking w) p false) (scan w) (fin w) (stopped w))
    else None
  | Pop p =>
    if (if stopped w then Nat.eqb p (procs w) else Nat.ltb p (procs w) && negb (walking w p) && negb (fin w p)) then
      match scan w p, work w p with
      | None, o :: rest =>
        let w := with_work w p rest in
        Some (if marked w o then w else with_scan (with_marked w o true) p (Some (o, 0%nat)))
      | _, _ => None
      end
    else None
  | Scan p =>
    match scan w p with
    | Some (o, k) =>
      if Nat.ltb k (List.length (field w o)) then
        Some (with_scan (with_work w p (work w p ++ refs [nth k (field w o) None])) p (Some (o, S k)))
      else Some (with_scan w p None)
    | None => None
    end
  | Finish p =>
    if negb (stopped w) && Nat.ltb p (procs w) && negb (walking w p) && empty (work w p) && match scan w p with None => true | _ => false end then
      Some (mk_world (procs w) (next w) (field w) (marked w) (globals w) (nco w) (co w) (work w) (todo w) (walking w) (scan w) (upd (fin w) p true) (stopped w))
    else None
  | Stop =>
    if forallb (fin w) (seq 0 (procs w)) && forallb (fun c => empty (doing (co w c))) (seq 0 (nco w)) then
      Some (mk_world (procs w) (next w) (field w) (marked w) (globals w) (nco w) (co w) (work w) (todo w) (walking w) (scan w) (fin w) true)
    else None
  end.

Fixpoint run (w : world) (ops : list op) : option world :=
  match ops with
  | [] => Some w
  | o :: ops => match step w o with Some w => run w ops | None => None end
  end.

(** marking is over: sweeping frees what is not marked, collector.c:1064-1076 *)
Definition over (w : world) : bool := stopped w && empty (work w (procs w)) && match scan w (procs w) with None => true | _ => false end.
