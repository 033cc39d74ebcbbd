(** io.buffer as a queue of bytes, beside vectors that are independent lists. *)
From Verif Require Import Base Iobuf_model.

(** The queue, the program's vectors, and how many bytes have ever been written. *)
Record qstate := mk_q { queue : list Z; vecs : list (list Z); written : Z }.

Definition qinit : qstate := mk_q [] [] 0.

(** Byte counts are kept below 2^31 - 1, the largest vector the runtime grows correctly. *)
Definition room : Z := 2147483647.

(** What the program must see: [None] for the observation means any count. *)
Definition qstep (q : qstate) (o : bop) : option (qstate * option bobs) :=
  let with_vec v (f : list Z -> option (qstate * option bobs)) :=
    match nth_error (vecs q) v with Some l => f l | None => None end in
  match o with
  | BMake l => Some (mk_q (queue q) (vecs q ++ [l]) (written q), Some BDone)
  | BSet v i x => with_vec v (fun l =>
      if (0 <=? i) && (i <? zlen l)
      then Some (mk_q (queue q) (list_set (vecs q) v (list_set l (Z.to_nat i) x)) (written q), Some BDone)
      else Some (q, Some BThrown))
  | BWrite v => with_vec v (fun l =>
      if written q + zlen l <? room
      then Some (mk_q (queue q ++ l) (vecs q) (written q + zlen l), Some (BNum (zlen l))) else None)
  | BWriteByte x =>
      if written q + 1 <? room then Some (mk_q (queue q ++ [x]) (vecs q) (written q + 1), None) else None
  | BRead v => with_vec v (fun l =>
      let n := Nat.min (length l) (length (queue q)) in
      match queue q, l with
      | [], _ :: _ => Some (q, Some BThrown)
      | _, _ => Some (mk_q (skipn n (queue q)) (list_set (vecs q) v (firstn n (queue q) ++ skipn n l)) (written q),
                      Some (BNum (Z.of_nat n)))
      end)
  | BReadAll => Some (mk_q [] (vecs q ++ [queue q]) (written q), Some BDone)
  | BTruncate n =>
      if (0 <=? n) && (n <=? zlen (queue q))
      then Some (mk_q (firstn (Z.to_nat n) (queue q)) (vecs q) (written q), Some BDone)
      else Some (q, Some BThrown)
  | BReset => Some (mk_q [] (vecs q) (written q), Some BDone)
  | BLen => Some (q, Some (BNum (zlen (queue q))))
  | BEmpty => Some (q, Some (BNum (if zlen (queue q) =? 0 then 1 else 0)))
  end.

Fixpoint qrun (q : qstate) (l : list bop) : option (qstate * list (option bobs)) :=
  match l with
  | [] => Some (q, [])
  | o :: t => match qstep q o with
              | Some (q, x) => match qrun q t with Some (q, xs) => Some (q, x :: xs) | None => None end
              | None => None
              end
  end.

(** The observations are the required ones. *)
Definition fits (x : bobs) (y : option bobs) : Prop := match y with Some y => x = y | None => True end.
