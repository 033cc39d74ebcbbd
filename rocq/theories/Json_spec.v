(** What JSON text is (RFC 8259) and which value it denotes, written without reference to the
    parser.  Bytes that are not UTF-8 and unpaired surrogates are not JSON; the documentation of
    json.n says they are read as U+FFFD, and the last three rules for [chars] say exactly when. *)
From Verif Require Import Base Json_type.

(** ** Unicode *)

(** A Unicode scalar value. *)
Definition scalar (cp : Z) : Prop := 0 <= cp <= 1114111 /\ ~ (55296 <= cp <= 57343).

(** Its UTF-8 encoding (RFC 3629). *)
Definition utf8 (cp : Z) : list Z :=
  if cp <? 128 then [cp]
  else if cp <? 2048 then [192 + cp / 64; 128 + cp mod 64]
  else if cp <? 65536 then [224 + cp / 4096; 128 + cp / 64 mod 64; 128 + cp mod 64]
  else [240 + cp / 262144; 128 + cp / 4096 mod 64; 128 + cp / 64 mod 64; 128 + cp mod 64].

(** A sequence of encoded scalar values. *)
Inductive valid_utf8 : list Z -> Prop :=
| valid_nil : valid_utf8 []
| valid_cons cp s : scalar cp -> valid_utf8 s -> valid_utf8 (utf8 cp ++ s).

(** The encoding of no scalar value starts at the head of [s]. *)
Definition no_scalar (s : list Z) : Prop := forall cp r, scalar cp -> s <> utf8 cp ++ r.

(** [t] is [s] with every byte that does not start or continue an encoded scalar value replaced
    by the encoding of U+FFFD. *)
Inductive repaired : list Z -> list Z -> Prop :=
| repaired_nil : repaired [] []
| repaired_good cp s t : scalar cp -> repaired s t -> repaired (utf8 cp ++ s) (utf8 cp ++ t)
| repaired_bad b s t : no_scalar (b :: s) -> repaired s t -> repaired (b :: s) (utf8 65533 ++ t).

(** ** Strings *)

Definition hexdigit (c d : Z) : Prop :=
  (48 <= c <= 57 /\ d = c - 48) \/ (97 <= c <= 102 /\ d = c - 87) \/ (65 <= c <= 70 /\ d = c - 55).

(** Four hexadecimal digits denoting [n]. *)
Definition hex4 (h : list Z) (n : Z) : Prop :=
  exists a b c d da db dc dd,
    h = [a; b; c; d] /\ hexdigit a da /\ hexdigit b db /\ hexdigit c dc /\ hexdigit d dd /\
    n = 4096 * da + 256 * db + 16 * dc + dd.

(** The letter after a backslash and the byte it stands for. *)
Definition escape (c v : Z) : Prop :=
  In (c, v) [(34, 34); (92, 92); (47, 47); (98, 8); (102, 12); (110, 10); (114, 13); (116, 9)].

Definition high n := 55296 <= n <= 56319.
Definition low n := 56320 <= n <= 57343.

(** Text between the quotes of a string, and the bytes it denotes. *)
Inductive chars : list Z -> list Z -> Prop :=
| chars_nil : chars [] []
| chars_raw cp t s : scalar cp -> 32 <= cp -> cp <> 34 -> cp <> 92 -> chars t s ->
    chars (utf8 cp ++ t) (utf8 cp ++ s)
| chars_escape c v t s : escape c v -> chars t s -> chars (92 :: c :: t) (v :: s)
| chars_u h n t s : hex4 h n -> scalar n -> chars t s ->
    chars (92 :: 117 :: h ++ t) (utf8 n ++ s)
| chars_pair h n h' n' t s : hex4 h n -> high n -> hex4 h' n' -> low n' -> chars t s ->
    chars (92 :: 117 :: h ++ 92 :: 117 :: h' ++ t)
          (utf8 (65536 + 1024 * (n - 55296) + (n' - 56320)) ++ s)
(* not RFC 8259: read as U+FFFD *)
| chars_bad_byte b t s : 128 <= b -> no_scalar (b :: t) -> chars t s ->
    chars (b :: t) (utf8 65533 ++ s)
| chars_lone_high h n t s : hex4 h n -> high n ->
    (forall h' n' u, hex4 h' n' -> low n' -> t <> 92 :: 117 :: h' ++ u) -> chars t s ->
    chars (92 :: 117 :: h ++ t) (utf8 65533 ++ s)
| chars_lone_low h n t s : hex4 h n -> low n -> chars t s ->
    chars (92 :: 117 :: h ++ t) (utf8 65533 ++ s).

(** ** Numbers *)

Definition digit (c : Z) : Prop := 48 <= c <= 57.
Definition digits (s : list Z) : Prop := s <> [] /\ Forall digit s.

(** number = [ minus ] int [ frac ] [ exp ] *)
Inductive number : list Z -> Prop :=
| number_intro sign int frac exp :
    (sign = [] \/ sign = [45]) ->
    (int = [48] \/ exists d ds, int = d :: ds /\ 49 <= d <= 57 /\ Forall digit ds) ->
    (frac = [] \/ exists ds, frac = 46 :: ds /\ digits ds) ->
    (exp = [] \/ exists e sg ds, exp = e :: sg ++ ds /\ (e = 101 \/ e = 69) /\
                   (sg = [] \/ sg = [43] \/ sg = [45]) /\ digits ds) ->
    number (sign ++ int ++ frac ++ exp).

(** ** Values *)

Definition space (c : Z) : Prop := c = 32 \/ c = 9 \/ c = 10 \/ c = 13.
Definition ws (s : list Z) : Prop := Forall space s.

(** The last value given to a key. *)
Fixpoint last_value (kvs : list (list Z * json)) (k : list Z) : option json :=
  match kvs with
  | [] => None
  | (k', v) :: rest =>
      match last_value rest k with
      | Some v' => Some v'
      | None => if list_eq_dec Z.eq_dec k' k then Some v else None
      end
  end.

(** The keys, each once, in the order of their first appearance. *)
Fixpoint firsts (ks : list (list Z)) : list (list Z) :=
  match ks with
  | [] => []
  | k :: rest => k :: filter (fun k' => if list_eq_dec Z.eq_dec k k' then false else true) (firsts rest)
  end.

(** The object written by a list of members: a repeated key keeps its last value. *)
Definition object (kvs m : list (list Z * json)) : Prop :=
  map fst m = firsts (map fst kvs) /\
  forall k v, In (k, v) m -> last_value kvs k = Some v.

(** [text n t v]: [t], without surrounding white space, is JSON for [v] whose arrays and objects
    are nested at most [n] deep.  [elements] and [members] are what stands between brackets. *)
Inductive text : nat -> list Z -> json -> Prop :=
| text_null n : text n (bs "null") JNull
| text_true n : text n (bs "true") (JBool true)
| text_false n : text n (bs "false") (JBool false)
| text_number n t : number t -> text n t (JNum t)
| text_string n t s : chars t s -> text n (34 :: t ++ [34]) (JStr s)
| text_empty_array n w : ws w -> text (S n) (91 :: w ++ [93]) (JArr [])
| text_array n body vs : elements n body vs -> text (S n) (91 :: body ++ [93]) (JArr vs)
| text_empty_object n w : ws w -> text (S n) (123 :: w ++ [125]) (JObj [])
| text_object n body kvs m : members n body kvs -> object kvs m ->
    text (S n) (123 :: body ++ [125]) (JObj m)
with elements : nat -> list Z -> list json -> Prop :=
| elements_one n w1 t w2 v : ws w1 -> text n t v -> ws w2 -> elements n (w1 ++ t ++ w2) [v]
| elements_cons n w1 t w2 v body vs : ws w1 -> text n t v -> ws w2 -> elements n body vs ->
    elements n (w1 ++ t ++ w2 ++ 44 :: body) (v :: vs)
with members : nat -> list Z -> list (list Z * json) -> Prop :=
| members_one n w1 kt k w2 w3 t v w4 : ws w1 -> chars kt k -> ws w2 -> ws w3 -> text n t v -> ws w4 ->
    members n (w1 ++ 34 :: kt ++ 34 :: w2 ++ 58 :: w3 ++ t ++ w4) [(k, v)]
| members_cons n w1 kt k w2 w3 t v w4 body kvs :
    ws w1 -> chars kt k -> ws w2 -> ws w3 -> text n t v -> ws w4 -> members n body kvs ->
    members n (w1 ++ 34 :: kt ++ 34 :: w2 ++ 58 :: w3 ++ t ++ w4 ++ 44 :: body) ((k, v) :: kvs).

(** A document: a value surrounded by white space. *)
Definition document (n : nat) (s : list Z) (v : json) : Prop :=
  exists w1 t w2, s = w1 ++ t ++ w2 /\ ws w1 /\ text n t v /\ ws w2.

(** How deep arrays and objects are nested in a value. *)
Fixpoint depth (v : json) : nat :=
  match v with
  | JArr l => S (fold_right (fun v d => Nat.max (depth v) d) 0%nat l)
  | JObj m => S (fold_right (fun kv d => Nat.max (depth (snd kv)) d) 0%nat m)
  | _ => 0%nat
  end.

(** A value a program can build with `any`: numbers hold number text, and the keys of an object
    are different and are UTF-8, as are all strings. *)
Fixpoint proper (v : json) : Prop :=
  match v with
  | JNull | JBool _ => True
  | JStr s => valid_utf8 s
  | JNum t => number t
  | JArr l => fold_right (fun v P => proper v /\ P) True l
  | JObj m => NoDup (map fst m) /\ Forall valid_utf8 (map fst m) /\
              fold_right (fun kv P => proper (snd kv) /\ P) True m
  end.
