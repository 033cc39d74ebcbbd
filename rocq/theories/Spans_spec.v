(** Specification side of C27, C29 and C57: histories of allocations, writes, marks and sweeps, and the
    list of objects the program holds. *)
From Verif Require Import Base Bitmap_spec Sizeclass_model Pages_model Spans_model.
From Verif Require Export Fixalloc_spec.

Inductive hop :=
| HMalloc (p : nat) (size : Z) (has_ptr barrier : bool) (grant : Z -> Z -> bool)  (* processor p allocates *)
| HWrite (k : nat) (off v : Z)   (* the program writes byte off of its k-th object *)
| HMark (addr : Z)               (* the collector marks the object slot that contains addr *)
| HSweep.                        (* the collector reclaims what is not marked *)

(** the state and the objects the program has been given and the collector has not reclaimed: (address, size) *)
Definition world := (state * list (Z * Z))%type.

Definition span_at (st : state) (addr : Z) : option span :=
  find (fun s => (s_base s <=? addr) && (addr <? s_base s + s_pages s * PAGE)) (spans st).
(** is the slot of the address marked? *)
Definition is_marked (st : state) (addr : Z) : bool :=
  match span_at st addr with Some s => bit (s_mbits s) ((addr - s_base s) / s_osize s) | None => false end.

Definition hstep (w : world) (o : hop) : res world :=
  let '(st, objs) := w in
  match o with
  | HMalloc p size has_ptr barrier grant =>
      ' (st, addr) <- gc_malloc grant st p size has_ptr barrier ;; Ok (st, objs ++ [(addr, size)])
  | HWrite k off v =>
      match nth_error objs k with
      | Some (a, n) =>
          if (0 <=? off) && (off <? n)
          then Ok (upd_mem st (fun x => if x =? a + off then v else mem st x), objs)
          else Ok (st, objs)
      | None => Ok (st, objs)
      end
  | HMark addr =>   (* collector.c:716 and the like: addresses without a span are skipped *)
      match span_of st addr with None => Ok (st, objs) | Some _ => st <- mark st addr ;; Ok (st, objs) end
  | HSweep => st' <- sweep st ;; Ok (st', filter (fun o => is_marked st (fst o)) objs)
  end.

Fixpoint hrun (w : world) (ops : list hop) : res world :=
  match ops with [] => Ok w | o :: ops => w <- hstep w o ;; hrun w ops end.

(** what is asked of a history: processors exist and requests are at most 2 GiB *)
Definition hop_ok (procs : nat) (o : hop) : Prop :=
  match o with HMalloc p size _ _ _ => (p < procs)%nat /\ size <= 2147483648 | _ => True end.

(** the address is in an object the program holds *)
Definition in_object (objs : list (Z * Z)) (addr : Z) : Prop := exists a n, In (a, n) objs /\ a <= addr < a + n.

(** a property of every mark of the history, at the time it is made *)
Fixpoint marks_ok (P : world -> Z -> Prop) (w : world) (ops : list hop) : Prop :=
  match ops with
  | [] => True
  | o :: ops =>
      (match o with HMark addr => P w addr | _ => True end) /\
      (match hstep w o with Ok w' => marks_ok P w' ops | _ => True end)
  end.

(** the objects do not overlap *)
Definition apart_objs (objs : list (Z * Z)) : Prop :=
  forall i j a n b m, i <> j -> nth_error objs i = Some (a, n) -> nth_error objs j = Some (b, m) -> disjoint a n b m.

(** the size a small request is rounded to: that of its size class *)
Definition class_size (n : Z) : Z :=
  match calc_sizeclass n with Ok c => nth (Z.to_nat c) class_obj_size 0 | _ => 0 end.
Definition total (f : Z -> Z) (objs : list (Z * Z)) : Z := fold_right (fun o t => f (snd o) + t) 0 objs.
