(** std/json/json.n: integers through serialize and deserialize<T>.  deserialize reads a number
    as f64; Flocq's binary64 (round to nearest, ties to even) is that type.

    As in Json_model.v the parser state is the bytes from the cursor on. *)
From Flocq Require Import IEEE754.BinarySingleNaN.
From Verif Require Import Base Fmt_model Json_model.

Definition f64 : Type := binary_float 53 1024.
#[export] Instance prec_gt_0 : FLX.Prec_gt_0 53 := eq_refl.
#[export] Instance prec_lt_emax : Prec_lt_emax 53 1024 := eq_refl.

(** An integer as f64: the conversion `as f64` and the literals 0.0, 1.0 and 10.0. *)
Definition of_int (n : Z) : f64 := binary_normalize 53 1024 prec_gt_0 prec_lt_emax mode_NE n 0 false.
Definition f_mul (a b : f64) : f64 := Bmult mode_NE a b.
Definition f_add (a b : f64) : f64 := Bplus mode_NE a b.
Definition f_div (a b : f64) : f64 := Bdiv mode_NE a b.

(** json.n:491-501 and 514-518: `integer_part = integer_part * 10.0 + digit` over a run of digits *)
Fixpoint digit_loop (data : list Z) (acc : f64) : f64 * list Z :=
  match data with
  | [] => (acc, [])
  | c :: rest =>
      if is_digit c then digit_loop rest (f_add (f_mul acc (of_int 10)) (of_int (c - 48)))
      else (acc, data)
  end.

(** json.n:514-516: `decimal_places *= 10.0` once per digit *)
Fixpoint places (data : list Z) (acc : f64) : f64 :=
  match data with
  | [] => acc
  | c :: rest => if is_digit c then places rest (f_mul acc (of_int 10)) else acc
  end.

(** json.n:541-547: the exponent; more than 400 throws *)
Fixpoint exponent_loop (data : list Z) (exponent : Z) : res (Z * list Z) :=
  match data with
  | [] => Ok (exponent, [])
  | c :: rest =>
      if is_digit c then
        let exponent := exponent * 10 + (c - 48) in
        if 400 <? exponent then Throw else exponent_loop rest exponent
      else Ok (exponent, data)
  end.

(** json.n:549-552 *)
Fixpoint power (n : nat) (acc : f64) : f64 :=
  match n with O => acc | S n => power n (f_mul acc (of_int 10)) end.

(** json.n:506-522: the optional fraction *)
Definition fraction (result : f64) (data : list Z) : res (f64 * list Z) :=
  match data with
  | c :: rest =>
      if c =? 46 then
        match rest with
        | [] => Throw
        | d :: _ =>
            if is_digit d then
              let '(decimal_part, data) := digit_loop rest (of_int 0) in
              Ok (f_add result (f_div decimal_part (places rest (of_int 1))), data)
            else Throw
        end
      else Ok (result, data)
  | [] => Ok (result, data)
  end.

(** json.n:524-559: the optional exponent *)
Definition exponent (result : f64) (data : list Z) : res (f64 * list Z) :=
  match data with
  | c :: rest =>
      if (c =? 101) || (c =? 69) then
        let '(exp_negative, rest) :=
          match rest with
          | s :: rest' => if s =? 45 then (true, rest') else if s =? 43 then (false, rest') else (false, rest)
          | [] => (false, rest)
          end in
        match rest with
        | [] => Throw
        | d :: _ =>
            if is_digit d then
              ' (exponent, data) <- exponent_loop rest 0 ;;
              let exp_multiplier := power (Z.to_nat exponent) (of_int 1) in
              Ok (if exp_negative : bool then f_div result exp_multiplier else f_mul result exp_multiplier, data)
            else Throw
        end
      else Ok (result, data)
  | [] => Ok (result, data)
  end.

(** json.n:477-566 parser_number *)
Definition parser_number (data : list Z) : res (f64 * list Z) :=
  let data := skip_whitespace data in
  ' (negative, data) <- consume [45] data ;;
  match data with
  | [] => Throw
  | c :: rest =>
      if is_digit c then
        ' (integer_part, data) <-
           (if c =? 48 then
              match rest with
              | d :: _ => if is_digit d then Throw
                          else Ok (f_add (f_mul (of_int 0) (of_int 10)) (of_int (c - 48)), rest)
              | [] => Ok (f_add (f_mul (of_int 0) (of_int 10)) (of_int (c - 48)), rest)
              end
            else Ok (digit_loop (c :: rest) (of_int 0))) ;;
        ' (result, data) <- fraction integer_part data ;;
        ' (result, data) <- exponent result data ;;
        Ok (if negative : bool then Bopp result else result, data)
      else Throw
  end.

(** `float_val as T` (json.n:287-320): truncation.  Outside the range of T the result depends on
    the machine, which is the outcome [UB] here. *)
Definition f64_as (signed : bool) (w : Z) (x : f64) : res Z :=
  if is_finite x then
    let n := Btrunc x in
    if (if signed then (- 2 ^ (w - 1) <=? n) && (n <? 2 ^ (w - 1)) else (0 <=? n) && (n <? 2 ^ w)) then Ok n else UB
  else UB.

(** json.n:18 *)
Definition DEFAULT_MAX_BYTES := 16777216.

(** json.n:259-274 deserialize<T> for the integer types (287-326 select parser_number) *)
Definition deserialize_int (signed : bool) (w : Z) (s : list Z) : res Z :=
  if DEFAULT_MAX_BYTES <? zlen s then Throw
  else
    let data := skip_whitespace s in
    ' (float_val, data) <- parser_number data ;;
    val <- f64_as signed w float_val ;;
    let data := skip_whitespace data in
    if negb (zlen data =? 0) then Throw else Ok val.

(** json.n:37-68 serialize of an integer type: fmt.sprintf('%d', val) *)
Definition serialize_int (signed : bool) (w n : Z) : res (list Z) :=
  sprintf no_float (bs "%d") [if signed then ASigned w n else AUnsigned w n].
