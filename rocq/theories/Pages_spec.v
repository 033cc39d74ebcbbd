(** Specification side of C24-C26: sets of pages as functions from page numbers to booleans. *)
From Verif Require Import Base Bitmap_spec Pages_model.
From Verif Require Export Fixalloc_spec.

(** every page of [a, a + n) is in the set *)
Definition all_in (f : Z -> bool) (a n : Z) : Prop := forall i, a <= i < a + n -> f i = true.

(** lengths of the first, the last and the longest run of members in [b, b + P) *)
Definition lead (f : Z -> bool) (b P s : Z) : Prop :=
  0 <= s <= P /\ all_in f b s /\ (s < P -> f (b + s) = false).
Definition trail (f : Z -> bool) (b P e : Z) : Prop :=
  0 <= e <= P /\ all_in f (b + P - e) e /\ (e < P -> f (b + P - e - 1) = false).
Definition longest (f : Z -> bool) (b P m : Z) : Prop :=
  0 <= m <= P /\ (exists a, b <= a /\ a + m <= b + P /\ all_in f a m) /\
  (forall a n, 0 <= n -> b <= a -> a + n <= b + P -> all_in f a n -> n <= m).

Definition exact (f : Z -> bool) (b P : Z) (s : summary) : Prop :=
  lead f b P (s_start s) /\ longest f b P (s_max s) /\ trail f b P (s_end s).

(** ** Histories *)
Inductive pop :=
| PAlloc (count : Z) (grant : Z -> Z -> bool)   (* ask for count pages; the kernel's mood *)
| PFree (k : nat).                              (* free the k-th live run *)

(** the heap and the live runs, as (address, number of pages) *)
Definition world := (heap * list (Z * Z))%type.

Definition wstep (w : world) (o : pop) : res world :=
  let '(h, live) := w in
  match o with
  | PAlloc count grant => ' (h, base) <- alloc_pages grant h count ;; Ok (h, live ++ [(base, count)])
  | PFree k =>
      match nth_error live k with
      | None => Ok (h, live)
      | Some (base, count) => h <- free_pages h base count ;; Ok (h, remove_nth k live)
      end
  end.

Fixpoint wrun (w : world) (ops : list pop) : res world :=
  match ops with
  | [] => Ok w
  | o :: ops => w <- wstep w o ;; wrun w ops
  end.

(** requests of at most 2^40 pages (8 PiB, more than the address space) *)
Definition op_small (o : pop) : Prop := match o with PAlloc count _ => count <= 1099511627776 | PFree _ => True end.

(** ** Pages *)
(** the page number of an address, and what the pieces of the state say about a page *)
Definition page_of (addr : Z) : Z := (addr - BASE) / PAGE.

Definition page_in (p : Z) (r : Z * Z) : bool := (page_of (fst r) <=? p) && (p <? page_of (fst r) + snd r).
(** the page belongs to a live run *)
Definition in_live (live : list (Z * Z)) (p : Z) : bool := existsb (page_in p) live.
(** the page has been given to the allocator *)
Definition in_heap (h : heap) (p : Z) : bool :=
  existsb (fun r => (fst r <=? BASE + p * PAGE) && (BASE + p * PAGE <? fst r + snd r)) (grown h).
(** the used bit of the page *)
Definition marked (h : heap) (p : Z) : bool := bit (chunk h (p / 512)) (p mod 512).

Definition free_page (h : heap) (live : list (Z * Z)) (p : Z) : bool := in_heap h p && negb (in_live live p).

(** ** Demand *)
Definition GIB16 : Z := 17179869184.
Definition rounded (x a : Z) : Z := (x + a - 1) / a * a.
(** the bytes the kernel may be asked for to serve count pages: whole chunks (4 MiB), then whole arenas (64 MiB) *)
Definition need (count : Z) : Z := rounded (rounded (count * PAGE) CHUNK_BYTES) ARENA_SIZE.
(** an upper bound on what a whole history asks for, counting nothing as reused *)
Fixpoint demand (ops : list pop) : Z :=
  match ops with
  | [] => 0
  | PAlloc count _ :: ops => need count + demand ops
  | PFree _ :: ops => demand ops
  end.
(** the request is for at least one page and the kernel refuses nothing it can give *)
Definition granted_op (o : pop) : Prop := match o with PAlloc count grant => 0 < count /\ grant = fun _ _ => true | PFree _ => True end.
