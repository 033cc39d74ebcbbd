(* One-step equations of the functions of Pratt_model.v. *)
From Coq Require Import ZArith List Bool.
From Verif Require Import Base Pratt_model.
Import ListNotations.
Local Open Scope Z_scope.

Section E.
Variable ta : tree -> list tok -> bool.
Lemma expr_S (n : nat) (p : Z) (ts : list tok) :
  expr ta (S n) p ts =
    bind (prefix ta n ts) (fun q => loop ta n p (fst q) (snd q))
  .
Proof. reflexivity. Qed.

Lemma loop_S (n : nat) (p : Z) (e : tree) (ts : list tok) :
  loop ta (S n) p e ts =
    let ts := infix_token ta e ts in
    if p <=? prec ts
    then bind (infix ta n e ts) (fun q => loop ta n p (fst q) (snd q))
    else Ok (e, ts)
  .
Proof. reflexivity. Qed.

Lemma prefix_S (n : nat) (ts : list tok) :
  prefix ta (S n) ts =
    match ts with
    | [] => Throw
    | t :: r =>
      match prefix_of t with
      | PNone => Throw
      | PLiteral k s => Ok (Lit k s, r)
      | PIdent s => Ok (Id s, r)
      | PUnary u =>
        match (match u with UNeg => eat_number r | _ => None end) with
        | Some (k, s, r) => Ok (Lit k (minus_text s), r)
        | None => bind (expr ta n PREC_UNARY r) (fun q => Ok (Un u (fst q), snd q))
        end
      | PParen =>
        bind (expr ta n PREC_ASSIGN r) (fun q =>
        match eat QRparen (snd q) with
        | Some r => Ok (fst q, r)
        | None =>
          match eat QComma (snd q) with
          | None => Throw
          | Some r =>
            match eat QRparen r with
            | Some _ => Throw
            | None => bind (seq ta n QRparen false r) (fun a => Ok (Tup (fst q :: fst (fst a)), snd a))
            end
          end
        end)
      | PSquare =>
        match eat QRsquare r with
        | Some r => Ok (Vec [], r)
        | None =>
          bind (expr ta n PREC_ASSIGN r) (fun q =>
          match eat QSemi (snd q) with
          | Some r =>
            bind (expr ta n PREC_ASSIGN r) (fun l =>
            match eat QRsquare (snd l) with
            | Some r => Ok (Rep (fst q) (fst l), r)
            | None => Throw
            end)
          | None =>
            match eat QRsquare (snd q) with
            | Some r => Ok (Vec [fst q], r)
            | None =>
              match eat QComma (snd q) with
              | None => Throw
              | Some r => bind (seq ta n QRsquare false r) (fun a => Ok (Vec (fst q :: fst (fst a)), snd a))
              end
            end
          end)
        end
      end
    end
  .
Proof. reflexivity. Qed.

Lemma infix_S (n : nat) (e : tree) (ts : list tok) :
  infix ta (S n) e ts =
    match ts with
    | [] => UB
    | t :: r =>
      match infix_of t with
      | INone => UB
      | IBinary b => bind (expr ta n (prec_tok t + 1) r) (fun q => Ok (Bin b e (fst q), snd q))
      | ITernary =>
        bind (expr ta n PREC_ASSIGN r) (fun c =>
        match eat QColon (snd c) with
        | None => Throw
        | Some r => bind (expr ta n PREC_TERNARY r) (fun a => Ok (Tern e (fst c) (fst a), snd a))
        end)
      | IAs =>
        match eat_type r with
        | None => Throw
        | Some (s, r) => Ok (As e s, r)
        end
      | ISelect =>
        match eat_ident r with
        | None => Throw
        | Some (s, r) => Ok (Sel e s, r)
        end
      | IAccess =>
        match eat QRange r with
        | Some r => slice_end ta n e zero_lit r
        | None =>
          bind (expr ta n PREC_ASSIGN r) (fun a =>
          match eat QRange (snd a) with
          | Some r => slice_end ta n e (fst a) r
          | None =>
            match eat QRsquare (snd a) with
            | None => Throw
            | Some r => Ok (Idx e (fst a), r)
            end
          end)
        end
      | ICall =>
        bind (seq ta n QRparen true r) (fun a => Ok (Call e (fst (fst a)) (snd (fst a)), snd a))
      | ITypeArgs =>
        match (match eat_ident r with None => eat_type r | x => x end) with
        | None => Throw
        | Some (s, r) =>
          match eat QRangle r with
          | None => Throw
          | Some r =>
            match eat QLparen r with
            | Some r =>
              bind (seq ta n QRparen true r) (fun a =>
              Ok (Call (Gen e s) (fst (fst a)) (snd (fst a)), snd a))
            | None =>
              match eat QDot r with
              | Some r =>
                match eat_ident r with
                | None => Throw
                | Some (key, r) => Ok (Sel (Gen e s) key, r)
                end
              | None => Abort
              end
            end
          end
        end
      end
    end
  .
Proof. reflexivity. Qed.

Lemma slice_end_S (n : nat) (e a : tree) (ts : list tok) :
  slice_end ta (S n) e a ts =
    match eat QRsquare ts with
    | Some r => Ok (Slice e a minus_one_lit, r)
    | None =>
      bind (expr ta n PREC_ASSIGN ts) (fun b =>
      match eat QRsquare (snd b) with
      | None => Throw
      | Some r => Ok (Slice e a (fst b), r)
      end)
    end
  .
Proof. reflexivity. Qed.

Lemma seq_S (n : nat) (c : punct) (sp : bool) (ts : list tok) :
  seq ta (S n) c sp ts =
    match eat c ts with
    | Some r => Ok ([], false, r)
    | None =>
      match (if sp then eat QEllipsis ts else None) with
      | Some r =>
        bind (expr ta n PREC_ASSIGN r) (fun q =>
        match eat c (snd q) with
        | None => Throw
        | Some r => Ok ([fst q], true, r)
        end)
      | None =>
        bind (expr ta n PREC_ASSIGN ts) (fun q =>
        match eat c (snd q) with
        | Some r => Ok ([fst q], false, r)
        | None =>
          match eat QComma (snd q) with
          | None => Throw
          | Some r =>
            bind (seq ta n c sp r) (fun a => Ok (fst q :: fst (fst a), snd (fst a), snd a))
          end
        end)
      end
    end
  .
Proof. reflexivity. Qed.

End E.
