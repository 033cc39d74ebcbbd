(** std/json/json.n: serialisation of dynamic values and json.parse.

    The parser of the code keeps `data` and a `cursor`.  Here the state is the bytes of `data`
    from the cursor on: `data[cursor + i]` is element i of it, an access past the end of `data`
    is an access past its end and panics, and `cursor + n > data.len()` compares n with its
    length.  Error messages (which contain positions) are not modelled. *)
From Verif Require Import Base Json_type Fmt_model.

(** json.n:846-879 utf8_len: the loop of 865-869 over the continuation bytes. *)
Fixpoint continuation (n : nat) (tail : list Z) : res bool :=
  match n with
  | O => Ok true
  | S n =>
      match tail with
      | [] => Panic
      | c :: tail => if (c <? 128) || (191 <? c) then Ok false else continuation n tail
      end
  end.

Definition utf8_len (data : list Z) : res Z :=
  match data with
  | [] => Ok 0
  | first :: tail =>
      let length := if (194 <=? first) && (first <=? 223) then 2
                    else if (224 <=? first) && (first <=? 239) then 3
                    else if (240 <=? first) && (first <=? 244) then 4 else 0 in
      if length =? 0 then Ok 0
      else if zlen data <? length then Ok 0
      else
        good <- continuation (Z.to_nat (length - 1)) tail ;;
        if negb good then Ok 0
        else
          second <- at_ data 1 ;;
          if ((first =? 224) && (second <? 160)) || ((first =? 237) && (159 <? second)) ||
             ((first =? 240) && (second <? 144)) || ((first =? 244) && (143 <? second))
          then Ok 0
          else Ok length
  end.

(** `%04x` never reaches a float conversion. *)
Definition no_float (_ _ : Z) (_ : list Z) (_ _ : Z) : list Z := [].

(** json.n:111-175 serialize_string: the loop over the bytes; [i] is the head of [bytes]. *)
Fixpoint serialize_bytes (fuel : nat) (bytes result : list Z) : res (list Z) :=
  match fuel with
  | O => NoFuel
  | S f =>
      match bytes with
      | [] => Ok result
      | c :: rest =>
          if c =? 34 then serialize_bytes f rest (result ++ [92; 34])
          else if c =? 92 then serialize_bytes f rest (result ++ [92; 92])
          else if c =? 8 then serialize_bytes f rest (result ++ [92; 98])
          else if c =? 12 then serialize_bytes f rest (result ++ [92; 102])
          else if c =? 10 then serialize_bytes f rest (result ++ [92; 110])
          else if c =? 13 then serialize_bytes f rest (result ++ [92; 114])
          else if c =? 9 then serialize_bytes f rest (result ++ [92; 116])
          else if c <? 32 then
            hex <- sprintf no_float (bs "%04x") [ASigned 64 c] ;;
            serialize_bytes f rest (result ++ [92; 117] ++ hex)
          else if c <? 128 then serialize_bytes f rest (result ++ [c])
          else
            rune_len <- utf8_len bytes ;;
            if rune_len =? 0 then serialize_bytes f rest (result ++ [92; 117; 102; 102; 102; 100])
            else
              rune <- slice bytes 0 rune_len ;;
              serialize_bytes f (skipn (Z.to_nat rune_len) bytes) (result ++ rune)
      end
  end.

Definition serialize_string (s : list Z) : res (list Z) :=
  result <- serialize_bytes (S (length s)) s [34] ;;
  Ok (result ++ [34]).

(** json.n:26-109 serialize_value on a dynamic value.  The tag of an `any` selects the case;
    `json.number` is emitted verbatim (91-93).  201-221 serialize_vec and 223-249 serialize_map
    put a comma after every element but the last; the entries of a map are visited in the order
    of its data array, whose first [length] cells are the live entries (Map_proof.v). *)
Fixpoint serialize_value (v : json) : res (list Z) :=
  match v with
  | JNull => Ok (bs "null")
  | JBool b => Ok (if b then bs "true" else bs "false")
  | JStr s => serialize_string s
  | JNum t => Ok t
  | JArr l =>
      let fix elements (l : list json) (result : list Z) : res (list Z) :=
        match l with
        | [] => Ok result
        | v :: rest =>
            element_v <- serialize_value v ;;
            let result := result ++ element_v in
            elements rest (match rest with [] => result | _ => result ++ [44] end)
        end in
      result <- elements l [91] ;;
      Ok (result ++ [93])
  | JObj m =>
      let fix entries (m : list (list Z * json)) (result : list Z) : res (list Z) :=
        match m with
        | [] => Ok result
        | (k, v) :: rest =>
            key_v <- serialize_string k ;;
            val_v <- serialize_value v ;;
            let result := result ++ key_v ++ [58] ++ val_v in
            entries rest (match rest with [] => result | _ => result ++ [44] end)
        end in
      result <- entries m [123] ;;
      Ok (result ++ [125])
  end.

(** json.n:19-24 serialize *)
Definition serialize (v : json) : res (list Z) := serialize_value v.

(** json.n:745-754 skip_whitespace *)
Fixpoint skip_whitespace (data : list Z) : list Z :=
  match data with
  | [] => []
  | c :: rest =>
      if (c =? 32) || (c =? 9) || (c =? 10) || (c =? 13) then skip_whitespace rest else data
  end.

(** json.n:756-758 *)
Definition is_digit (ch : Z) : bool := (48 <=? ch) && (ch <=? 57).

(** json.n:770-774 the comparing loop of consume *)
Fixpoint same_bytes (literal data : list Z) : res bool :=
  match literal with
  | [] => Ok true
  | b :: literal =>
      match data with
      | [] => Panic
      | c :: data => if negb (c =? b) then Ok false else same_bytes literal data
      end
  end.

(** json.n:760-778 consume; white space stays skipped when the literal is not there. *)
Definition consume (literal data : list Z) : res (bool * list Z) :=
  let data := skip_whitespace data in
  if zlen data <? zlen literal then Ok (false, data)
  else
    same <- same_bytes literal data ;;
    if same then Ok (true, skipn (length literal) data) else Ok (false, data).

(** json.n:780-784 must *)
Definition must (literal data : list Z) : res (list Z) :=
  ' (found, data) <- consume literal data ;;
  if (found : bool) then Ok data else Throw.

(** json.n:804-814 and 889-899 one hexadecimal digit; -1 is the rejecting branch. *)
Definition hex_digit (c : Z) : Z :=
  if (48 <=? c) && (c <=? 57) then c - 48
  else if (97 <=? c) && (c <=? 102) then c - 97 + 10
  else if (65 <=? c) && (c <=? 70) then c - 65 + 10
  else -1.

(** json.n:802-816 *)
Fixpoint hex4_loop (n : nat) (data : list Z) (value : Z) : res (Z * list Z) :=
  match n with
  | O => Ok (value, data)
  | S n =>
      match data with
      | [] => Panic
      | c :: data =>
          if hex_digit c =? -1 then Throw else hex4_loop n data (value * 16 + hex_digit c)
      end
  end.

(** json.n:797-819 parser_hex4 *)
Definition parser_hex4 (data : list Z) : res (Z * list Z) :=
  if zlen data <? 4 then Throw else hex4_loop 4 data 0.

(** json.n:882-903 hex4_peek: the same without moving; -1 on invalid input. *)
Definition hex4_peek (data : list Z) : res Z :=
  if zlen data <? 4 then Ok (-1)
  else match hex4_loop 4 data 0 with
       | Ok (value, _) => Ok value
       | Throw => Ok (-1)
       | Panic => Panic
       | Abort => Abort
       | UB => UB
       | NoFuel => NoFuel
       end.

(** json.n:821-843 append_utf8 *)
Definition append_utf8 (result : list Z) (codepoint : Z) : list Z :=
  let codepoint := if (codepoint <? 0) || (1114111 <? codepoint) ||
                      ((55296 <=? codepoint) && (codepoint <=? 57343))
                   then 65533 else codepoint in
  if codepoint <=? 127 then result ++ [u8 codepoint]
  else if codepoint <=? 2047 then
    result ++ [u8 (Z.lor 192 (Z.shiftr codepoint 6)); u8 (Z.lor 128 (Z.land codepoint 63))]
  else if codepoint <=? 65535 then
    result ++ [u8 (Z.lor 224 (Z.shiftr codepoint 12));
               u8 (Z.lor 128 (Z.land (Z.shiftr codepoint 6) 63));
               u8 (Z.lor 128 (Z.land codepoint 63))]
  else
    result ++ [u8 (Z.lor 240 (Z.shiftr codepoint 18));
               u8 (Z.lor 128 (Z.land (Z.shiftr codepoint 12) 63));
               u8 (Z.lor 128 (Z.land (Z.shiftr codepoint 6) 63));
               u8 (Z.lor 128 (Z.land codepoint 63))].

(** json.n:602-629 the branch for `\u`; [data] starts behind the `u`.  The result is the code
    point and the bytes that follow. *)
Definition unicode_escape (data : list Z) : res (Z * list Z) :=
  ' (codepoint, data) <- parser_hex4 data ;;
  if (55296 <=? codepoint) && (codepoint <=? 56319) then
    low <- (if 6 <=? zlen data then
              c0 <- at_ data 0 ;;
              if c0 =? 92 then
                c1 <- at_ data 1 ;;
                if c1 =? 117 then hex4_peek (skipn 2 data) else Ok (-1)
              else Ok (-1)
            else Ok (-1)) ;;
    if (56320 <=? low) && (low <=? 57343) then
      ' (_, data) <- parser_hex4 (skipn 2 data) ;;
      Ok (65536 + Z.shiftl (codepoint - 55296) 10 + (low - 56320), data)
    else Ok (65533, data)
  else if (56320 <=? codepoint) && (codepoint <=? 57343) then Ok (65533, data)
  else Ok (codepoint, data).

(** json.n:578-660 the loop of parser_string *)
Fixpoint string_loop (fuel : nat) (data result : list Z) : res (list Z * list Z) :=
  match fuel with
  | O => NoFuel
  | S f =>
      match data with
      | [] => Throw
      | c :: rest =>
          if c =? 34 then Ok (result, rest)
          else if c =? 92 then
            match rest with
            | [] => Throw
            | escaped :: rest =>
                if escaped =? 34 then string_loop f rest (result ++ [34])
                else if escaped =? 92 then string_loop f rest (result ++ [92])
                else if escaped =? 47 then string_loop f rest (result ++ [47])
                else if escaped =? 98 then string_loop f rest (result ++ [8])
                else if escaped =? 102 then string_loop f rest (result ++ [12])
                else if escaped =? 110 then string_loop f rest (result ++ [10])
                else if escaped =? 114 then string_loop f rest (result ++ [13])
                else if escaped =? 116 then string_loop f rest (result ++ [9])
                else if escaped =? 117 then
                  ' (codepoint, rest) <- unicode_escape rest ;;
                  string_loop f rest (append_utf8 result codepoint)
                else Throw
            end
          else if c <? 32 then Throw
          else if c <? 128 then string_loop f rest (result ++ [c])
          else
            rune_len <- utf8_len data ;;
            if rune_len =? 0 then string_loop f rest (result ++ [239; 191; 189])
            else
              rune <- slice data 0 rune_len ;;
              string_loop f (skipn (Z.to_nat rune_len) data) (result ++ rune)
      end
  end.

(** json.n:572-661 parser_string *)
Definition parser_string (data : list Z) : res (list Z * list Z) :=
  data <- must [34] data ;;
  string_loop (S (length data)) data [].

(** json.n:457-475 parser_bool *)
Definition parser_bool (data : list Z) : res (bool * list Z) :=
  let data := skip_whitespace data in
  if zlen data =? 0 then Throw
  else
    ' (found, data) <- consume (bs "true") data ;;
    if (found : bool) then Ok (true, data)
    else
      ' (found, data) <- consume (bs "false") data ;;
      if (found : bool) then Ok (false, data) else Throw.

(** json.n:1019-1021, 1031-1033, 1046-1048: step over digits, the count is what the cursor
    moves by. *)
Fixpoint skip_digits (data : list Z) : list Z :=
  match data with
  | [] => []
  | c :: rest => if is_digit c then skip_digits rest else data
  end.

(** json.n:1026-1034 *)
Definition number_fraction (data : list Z) : res (list Z) :=
  match data with
  | c :: rest =>
      if c =? 46 then
        match rest with
        | [] => Throw
        | d :: _ => if is_digit d then Ok (skip_digits rest) else Throw
        end
      else Ok data
  | [] => Ok data
  end.

(** json.n:1036-1049 *)
Definition number_exponent (data : list Z) : res (list Z) :=
  match data with
  | c :: rest =>
      if (c =? 101) || (c =? 69) then
        let rest := match rest with
                    | s :: rest' => if (s =? 43) || (s =? 45) then rest' else rest
                    | [] => rest
                    end in
        match rest with
        | [] => Throw
        | d :: _ => if is_digit d then Ok (skip_digits rest) else Throw
        end
      else Ok data
  | [] => Ok data
  end.

(** json.n:1009-1024 *)
Definition number_integer (data : list Z) : res (list Z) :=
  match data with
  | [] => Throw
  | c :: rest =>
      if c =? 48 then
        match rest with
        | d :: _ => if is_digit d then Throw else Ok rest
        | [] => Ok rest
        end
      else if (49 <=? c) && (c <=? 57) then Ok (skip_digits data)
      else Throw
  end.

(** json.n:1001-1052 parser_number_token: the token is `data.slice(start, cursor)`. *)
Definition parser_number_token (data : list Z) : res (list Z * list Z) :=
  let start := skip_whitespace data in
  let data := match start with c :: rest => if c =? 45 then rest else start | [] => start end in
  data <- number_integer data ;;
  data <- number_fraction data ;;
  data <- number_exponent data ;;
  token <- slice start 0 (zlen start - zlen data) ;;
  Ok (token, data).

(** `values[key] = value` on {string:any}: runtime/nutils/map.c:160-229; Map_proof.v shows that
    a new key goes behind the others and an old one keeps its place. *)
Fixpoint assign (m : list (list Z * json)) (k : list Z) (v : json) : list (list Z * json) :=
  match m with
  | [] => [(k, v)]
  | (k', v') :: rest =>
      if list_eq_dec Z.eq_dec k' k then (k', v) :: rest else (k', v') :: assign rest k v
  end.

Section parser.
Variable max_depth : Z.

(** json.n:929-957 parser_value, 968-974 the loop of parser_value_array, 988-996 the loop of
    parser_value_object.  [depth] is the field of the same name: enter_container (786-791) adds
    one and throws above max_depth, leave_container (793-795) takes it back. *)
Fixpoint parser_value (fuel : nat) (depth : Z) (data : list Z) : res (json * list Z) :=
  match fuel with
  | O => NoFuel
  | S f =>
      let data := skip_whitespace data in
      match data with
      | [] => Throw
      | c :: _ =>
          if c =? 110 then
            data <- must (bs "null") data ;;
            Ok (JNull, data)
          else if (c =? 116) || (c =? 102) then
            ' (b, data) <- parser_bool data ;;
            Ok (JBool b, data)
          else if c =? 34 then
            ' (s, data) <- parser_string data ;;
            Ok (JStr s, data)
          else if c =? 91 then (* 959-977 parser_value_array *)
            let depth := depth + 1 in
            if max_depth <? depth then Throw
            else
              data <- must [91] data ;;
              ' (closed, data) <- consume [93] data ;;
              if (closed : bool) then Ok (JArr [], data)
              else
                ' (values, data) <- array_loop f depth data [] ;;
                Ok (JArr values, data)
          else if c =? 123 then (* 979-999 parser_value_object *)
            let depth := depth + 1 in
            if max_depth <? depth then Throw
            else
              data <- must [123] data ;;
              ' (closed, data) <- consume [125] data ;;
              if (closed : bool) then Ok (JObj [], data)
              else
                ' (values, data) <- object_loop f depth data [] ;;
                Ok (JObj values, data)
          else
            ' (token, data) <- parser_number_token data ;;
            Ok (JNum token, data)
      end
  end
with array_loop (fuel : nat) (depth : Z) (data : list Z) (values : list json)
  : res (list json * list Z) :=
  match fuel with
  | O => NoFuel
  | S f =>
      ' (v, data) <- parser_value f depth data ;;
      let values := values ++ [v] in
      ' (closed, data) <- consume [93] data ;;
      if (closed : bool) then Ok (values, data)
      else
        data <- must [44] data ;;
        array_loop f depth data values
  end
with object_loop (fuel : nat) (depth : Z) (data : list Z) (values : list (list Z * json))
  : res (list (list Z * json) * list Z) :=
  match fuel with
  | O => NoFuel
  | S f =>
      ' (key, data) <- parser_string data ;;
      data <- must [58] data ;;
      ' (v, data) <- parser_value f depth data ;;
      let values := assign values key v in
      ' (closed, data) <- consume [125] data ;;
      if (closed : bool) then Ok (values, data)
      else
        data <- must [44] data ;;
        object_loop f depth data values
  end.

(** json.n:912-927 parse_with_depth *)
Definition parse_with_depth (source : list Z) : res json :=
  if max_depth <=? 0 then Throw
  else
    ' (value, data) <- parser_value (2 * length source + 2) 0 source ;;
    let data := skip_whitespace data in
    if negb (zlen data =? 0) then Throw else Ok value.
End parser.

(** json.n:16 *)
Definition DEFAULT_MAX_DEPTH := 256.

(** json.n:908-910 parse *)
Definition parse (source : list Z) : res json := parse_with_depth DEFAULT_MAX_DEPTH source.
