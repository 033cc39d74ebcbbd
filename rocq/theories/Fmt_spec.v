(** Specification for integer formatting. *)
From Verif Require Import Base.

(** Positional numerals: [ds] are the digit values, most significant first. *)
Definition value_in (base : Z) (ds : list Z) : Z := fold_left (fun a d => base * a + d) ds 0.

Definition dec_char (c d : Z) : Prop := c = 48 + d /\ 0 <= d <= 9.
Definition lower_hex_char (c d : Z) : Prop :=
  (c = 48 + d /\ 0 <= d <= 9) \/ (c = 97 + (d - 10) /\ 10 <= d <= 15).
Definition upper_hex_char (c d : Z) : Prop :=
  (c = 48 + d /\ 0 <= d <= 9) \/ (c = 65 + (d - 10) /\ 10 <= d <= 15).

(** [s] is the canonical numeral of [n] in [base]: no leading zero except for "0" itself. *)
Definition numeral (base : Z) (char : Z -> Z -> Prop) (s : list Z) (n : Z) : Prop :=
  exists ds, Forall2 char s ds /\ ds <> [] /\ value_in base ds = n /\
    (hd 0 ds <> 0 \/ ds = [0]).

(** Canonical decimal text of an integer. *)
Definition int_numeral (s : list Z) (n : Z) : Prop :=
  (0 <= n /\ numeral 10 dec_char s n) \/
  (n < 0 /\ exists s', s = 45 :: s' /\ numeral 10 dec_char s' (- n)).

(** [t] is [s] padded on the left with [c] to at least [width] characters. *)
Definition padded (c width : Z) (s t : list Z) : Prop :=
  exists k, t = repeat c k ++ s /\ Z.of_nat k = Z.max 0 (width - zlen s).

(** Zero padding goes between the sign and the digits. *)
Definition zero_padded (c width : Z) (s t : list Z) : Prop :=
  (forall s', s <> 45 :: s') /\ padded c width s t \/
  (exists s' t', s = 45 :: s' /\ t = 45 :: t' /\ padded c (width - 1) s' t').

(** * sprintf *)
From Verif Require Import Fmt_model.

(** A format as a list of literal text, "%%" and directives "%[0][width][.precision]conv". *)
Inductive item :=
| Lit (s : list Z)
| Percent
| Dir (zero : bool) (width : list Z) (conv : Z).

Definition digit_text (s : list Z) : Prop := Forall (fun c => 48 <= c <= 57) s.
Definition digit_value (s : list Z) : Z := fold_left (fun a c => 10 * a + (c - 48)) s 0.

Definition item_text (it : item) : list Z :=
  match it with
  | Lit s => s
  | Percent => bs "%%"
  | Dir zero width conv => [37] ++ (if zero then [48] else []) ++ width ++ [conv]
  end.

Definition item_ok (it : item) : Prop :=
  match it with
  | Lit s => ~ In 37 s
  | Percent => True
  | Dir zero width conv =>
      digit_text width /\ digit_value width < 256 /\ In conv (bs "vcdsxX") /\
      (zero = false -> hd 49 width <> 48)
  end.

Definition int_width (w : Z) : Prop := In w [8; 16; 32; 64].

(** What a directive prints for an argument it is meant for. *)
Definition shown (zero : bool) (width conv : Z) (arg : any) (out : list Z) : Prop :=
  let c := if zero then 48 else 32 in
  match arg with
  | ASigned w v =>
      (conv = 100 /\ exists s, int_numeral s v /\
          (if zero then zero_padded 48 width s out else padded 32 width s out)) \/
      (conv = 120 /\ exists s, numeral 16 lower_hex_char s (v mod 2 ^ w) /\ padded c width s out) \/
      (conv = 88 /\ exists s, numeral 16 upper_hex_char s (v mod 2 ^ w) /\ padded c width s out) \/
      (conv = 118 /\ int_numeral out v)
  | AUnsigned w v =>
      (conv = 100 /\ exists s, numeral 10 dec_char s v /\ padded c width s out) \/
      (conv = 120 /\ exists s, numeral 16 lower_hex_char s v /\ padded c width s out) \/
      (conv = 88 /\ exists s, numeral 16 upper_hex_char s v /\ padded c width s out) \/
      (conv = 118 /\ numeral 10 dec_char out v) \/
      (conv = 99 /\ w = 8 /\ out = [v])
  | AString s => (conv = 115 \/ conv = 118) /\ out = s
  | ABool b => conv = 118 /\ out = (if b then bs "true" else bs "false")
  | ANull => conv = 118 /\ out = bs "null"
  | _ => False
  end.

(** Directive and argument agree, and the argument is not one of the two values the code gets
    wrong: the minimum of a signed type in decimal, and 0 with blank padding. *)
Definition printable (zero : bool) (width conv : Z) (arg : any) : Prop :=
  match arg with
  | ASigned w v =>
      int_width w /\ - 2 ^ (w - 1) <= v < 2 ^ (w - 1) /\ In conv (bs "dxXv") /\
      (In conv (bs "dv") -> v <> - 2 ^ (w - 1)) /\
      (In conv (bs "dxX") -> v <> 0 \/ zero = true \/ width = 0)
  | AUnsigned w v =>
      int_width w /\ 0 <= v < 2 ^ w /\ (In conv (bs "dxXv") \/ (conv = 99 /\ w = 8)) /\
      (In conv (bs "dxX") -> v <> 0 \/ zero = true \/ width = 0)
  | AString _ => In conv (bs "sv")
  | ABool _ | ANull => conv = 118
  | _ => False
  end.

(** [outs] is what the items print with the given arguments. *)
Inductive printed : list item -> list any -> list Z -> Prop :=
| printed_nil args : printed [] args []
| printed_lit s its args out : printed its args out -> printed (Lit s :: its) args (s ++ out)
| printed_pct its args out : printed its args out -> printed (Percent :: its) args (37 :: out)
| printed_dir zero width conv its arg args o out :
    shown zero (digit_value width) conv arg o ->
    printed its args out -> printed (Dir zero width conv :: its) (arg :: args) (o ++ out).

(** Every directive has an argument it can print. *)
Inductive all_printable : list item -> list any -> Prop :=
| ap_nil args : all_printable [] args
| ap_lit s its args : all_printable its args -> all_printable (Lit s :: its) args
| ap_pct its args : all_printable its args -> all_printable (Percent :: its) args
| ap_dir zero width conv its arg args :
    printable zero (digit_value width) conv arg ->
    all_printable its args -> all_printable (Dir zero width conv :: its) (arg :: args).
