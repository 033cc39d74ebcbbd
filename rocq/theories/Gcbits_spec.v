(** Specification side of C58: every span owns two private bit arrays, kept as byte lists. *)
From Verif Require Import Base Gcbits_model.
From Verif Require Export Fixalloc_spec.

Inductive gop :=
| GNew (count : Z)                                   (* a span is created *)
| GWrite (k : nat) (mark : bool) (off v : Z)         (* span k writes byte off of its mark / alloc bits *)
| GCollect (keep : list bool).                       (* a collection; keep says which spans survive *)

(** Space for count bits, in bytes, rounded up to 8. *)
Definition bitmap_bytes (count : Z) : Z := (count + 63) / 64 * 8.

Definition zeros (n : Z) : list Z := repeat 0 (Z.to_nat n).

(** A span of the specification: its alloc bits and its mark bits. *)
Definition aspan := (list Z * list Z)%type.

Definition write (l : list Z) (off v : Z) : list Z :=
  if (0 <=? off) && (off <? zlen l) then list_set l (Z.to_nat off) v else l.

Fixpoint survive (l : list aspan) (keep : list bool) : list aspan :=
  match l with
  | [] => []
  | (a, m) :: l => if hd true keep then (m, zeros (zlen m)) :: survive l (tl keep) else survive l (tl keep)
  end.

Definition spec_step (l : list aspan) (o : gop) : list aspan :=
  match o with
  | GNew count => l ++ [(zeros (bitmap_bytes count), zeros (bitmap_bytes count))]
  | GWrite k mark off v =>
      match nth_error l k with
      | None => l
      | Some (a, m) => list_set l k (if mark then (a, write m off v) else (write a off v, m))
      end
  | GCollect keep => survive l keep
  end.

Definition spec_run (ops : list gop) : list aspan := fold_left spec_step ops [].

(** The concrete runs: the arenas and the live spans. *)
Definition write_byte (s : arenas) (a v : Z) : arenas :=
  mk (idx s) (free_list s) (next_list s) (current_list s) (previous_list s) (upd (mem s) a v) (calls s).

Definition step (sys : nat -> Z) (w : arenas * list span) (o : gop) : res (arenas * list span) :=
  let '(s, l) := w in
  match o with
  | GNew count => ' (s, sp) <- span_new sys s count ;; Ok (s, l ++ [sp])
  | GWrite k mark off v =>
      match nth_error l k with
      | None => Ok (s, l)
      | Some sp =>
          if (0 <=? off) && (off <? bitmap_bytes (obj_count sp))
          then Ok (write_byte s ((if mark then gcmark_bits sp else alloc_bits sp) + off) v, l)
          else Ok (s, l)
      end
  | GCollect keep => collect sys s l keep
  end.

Fixpoint run (sys : nat -> Z) (w : arenas * list span) (ops : list gop) : res (arenas * list span) :=
  match ops with
  | [] => Ok w
  | o :: ops => w <- step sys w o ;; run sys w ops
  end.

(** The n bytes of memory at address p. *)
Definition read_bytes (m : Z -> Z) (p n : Z) : list Z := map (fun i => m (p + Z.of_nat i)) (seq 0 (Z.to_nat n)).

Definition shows (m : Z -> Z) (sp : span) (a : aspan) : Prop :=
  read_bytes m (alloc_bits sp) (bitmap_bytes (obj_count sp)) = fst a /\
  read_bytes m (gcmark_bits sp) (bitmap_bytes (obj_count sp)) = snd a.

(** The regions of a list of spans, as (address, length) pairs. *)
Definition regs (l : list span) : list (Z * Z) :=
  flat_map (fun sp => [(alloc_bits sp, bitmap_bytes (obj_count sp)); (gcmark_bits sp, bitmap_bytes (obj_count sp))]) l.

Definition apart (l : list (Z * Z)) : Prop := ForallOrdPairs (fun r q => disjoint (fst r) (snd r) (fst q) (snd q)) l.

(** A span has at least one slot and at most as many as fit in one arena. *)
Definition op_ok (o : gop) : Prop := match o with GNew count => 0 < count <= PAYLOAD * 8 | _ => True end.

