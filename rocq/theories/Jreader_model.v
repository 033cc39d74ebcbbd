(** std/json/json.n:1054-1172: the incremental reader. *)
From Verif Require Import Base Json_type Json_model.

(** json.n:1057-1067 reader_t; max_depth is the constant every reader is created with (1070). *)
Record reader_t := mk_reader {
  data : list Z;
  containers : list Z;
  scan_cursor : Z;
  started : bool;
  in_string : bool;
  escaped : bool;
  scalar : bool;
  complete : bool }.

(** json.n:1070-1072 reader *)
Definition reader : reader_t := mk_reader [] [] 0 false false false false false.

(** json.n:1170-1172 json_space *)
Definition json_space (c : Z) : bool := (c =? 32) || (c =? 9) || (c =? 13) || (c =? 10).

Definition set_started r := mk_reader (data r) (containers r) (scan_cursor r) true (in_string r) (escaped r) (scalar r) (complete r).
Definition set_in_string r b := mk_reader (data r) (containers r) (scan_cursor r) (started r) b (escaped r) (scalar r) (complete r).
Definition set_escaped r b := mk_reader (data r) (containers r) (scan_cursor r) (started r) (in_string r) b (scalar r) (complete r).
Definition set_scalar r := mk_reader (data r) (containers r) (scan_cursor r) (started r) (in_string r) (escaped r) true (complete r).
Definition set_complete r := mk_reader (data r) (containers r) (scan_cursor r) (started r) (in_string r) (escaped r) (scalar r) true.
Definition set_containers r cs := mk_reader (data r) cs (scan_cursor r) (started r) (in_string r) (escaped r) (scalar r) (complete r).
Definition set_data r d := mk_reader d (containers r) (scan_cursor r) (started r) (in_string r) (escaped r) (scalar r) (complete r).
(** `self.scan_cursor += 1` *)
Definition advance r := mk_reader (data r) (containers r) (scan_cursor r + 1) (started r) (in_string r) (escaped r) (scalar r) (complete r).

(** json.n:1083-1157 the body of the loop of write for the byte [c] at the cursor: the reader
    afterwards, and [Throw] if the body left by a throw. *)
Definition scan_byte (r : reader_t) (c : Z) : reader_t * res unit :=
  if complete r then
    if negb (json_space c) then (r, Throw) else (advance r, Ok tt)
  else if negb (started r) then
    if json_space c then (advance r, Ok tt)
    else
      let r := set_started r in
      let r := if c =? 34 then set_scalar (set_in_string r true)
               else if (c =? 123) || (c =? 91) then set_containers r (containers r ++ [c])
               else set_scalar r in
      (advance r, Ok tt)
  else if in_string r then
    if escaped r then (advance (set_escaped r false), Ok tt)
    else if c =? 92 then (advance (set_escaped r true), Ok tt)
    else if c =? 34 then
      let r := set_in_string r false in
      let r := if scalar r && (zlen (containers r) =? 0) then set_complete r else r in
      (advance r, Ok tt)
    else if c <? 32 then (r, Throw)
    else (advance r, Ok tt)
  else if scalar r then
    if json_space c then (advance (set_complete r), Ok tt)
    else (advance r, Ok tt)
  else if c =? 34 then (advance (set_in_string r true), Ok tt)
  else if (c =? 123) || (c =? 91) then
    let r := set_containers r (containers r ++ [c]) in
    if DEFAULT_MAX_DEPTH <? zlen (containers r) then (r, Throw)
    else (advance r, Ok tt)
  else if (c =? 125) || (c =? 93) then
    if zlen (containers r) =? 0 then (r, Throw)
    else
      match at_ (containers r) (zlen (containers r) - 1) with
      | Ok opening =>
          if ((opening =? 123) && negb (c =? 125)) || ((opening =? 91) && negb (c =? 93)) then (r, Throw)
          else
            match slice (containers r) 0 (zlen (containers r) - 1) with
            | Ok cs =>
                let r := set_containers r cs in
                let r := if zlen (containers r) =? 0 then set_complete r else r in
                (advance r, Ok tt)
            | _ => (r, Panic)
            end
      | _ => (r, Panic)
      end
  else (advance r, Ok tt).

(** json.n:1080-1160 the loop of write *)
Fixpoint scan (fuel : nat) (r : reader_t) : reader_t * res bool :=
  match fuel with
  | O => (r, NoFuel)
  | S f =>
      if scan_cursor r <? zlen (data r) then
        match at_ (data r) (scan_cursor r) with
        | Ok c =>
            match scan_byte r c with
            | (r, Ok _) => scan f r
            | (r, Throw) => (r, Throw)
            | (r, _) => (r, Panic)
            end
        | _ => (r, Panic)
        end
      else (r, Ok (complete r))
  end.

(** json.n:1077-1161 write; the fuel is a bound on the bytes not yet scanned. *)
Definition write (r : reader_t) (chunk : list Z) : reader_t * res bool :=
  let r := set_data r (data r ++ chunk) in
  scan (S (length (data r))) r.

(** json.n:1163-1168 value *)
Definition value (r : reader_t) : res json :=
  if negb (complete r) then Throw else parse_with_depth DEFAULT_MAX_DEPTH (data r).

(** A program that writes the chunks one after the other and stops at the first error. *)
Fixpoint writes (r : reader_t) (chunks : list (list Z)) : reader_t * res bool :=
  match chunks with
  | [] => (r, Ok (complete r))
  | c :: rest =>
      match write r c with
      | (r, Ok _) => writes r rest
      | (r, e) => (r, e)
      end
  end.
