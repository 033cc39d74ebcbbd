(** What the text of a program means as a list of tokens, as a grammar.  Of the model it only uses the
    names of the kinds of tokens and the record of a token. *)
From Verif Require Import Base.
From Verif Require Export Scanner_model.

(** A source has no NUL byte. *)
Definition source_text (s : list Z) : Prop := Forall (fun c => 1 <= c <= 255) s.

Definition letter (c : Z) : Prop := 97 <= c <= 122 \/ 65 <= c <= 90 \/ c = 95.
Definition digit (c : Z) : Prop := 48 <= c <= 57.
Definition word_char (c : Z) : Prop := letter c \/ digit c.
Definition identifier (w : list Z) : Prop := exists c t, w = c :: t /\ letter c /\ Forall word_char t.

Definition prefix (p s : list Z) : Prop := exists r, s = p ++ r.
Definition newlines (s : list Z) : Z := zlen (filter (Z.eqb 10) s).

(** ** Words *)

(** The words of the language. *)
Definition keywords : list (list Z * ttype) :=
  [(bs "as", K_AS); (bs "any", ANY); (bs "bool", T_BOOL); (bs "break", BREAK); (bs "continue", CONTINUE); (bs "const", CONST);
   (bs "catch", CATCH); (bs "chan", CHAN); (bs "defer", DEFER); (bs "else", K_ELSE); (bs "enum", ENUM); (bs "fn", K_FN);
   (bs "false", K_FALSE); (bs "float", T_FLOAT); (bs "f32", T_F32); (bs "f64", T_F64); (bs "for", FOR); (bs "go", GO);
   (bs "in", K_IN); (bs "is", IS); (bs "int", T_INT); (bs "import", IMPORT); (bs "if", K_IF); (bs "interface", INTERFACE);
   (bs "i8", T_I8); (bs "i16", T_I16); (bs "i32", T_I32); (bs "i64", T_I64); (bs "let", K_LET); (bs "null", K_NULL);
   (bs "pub", PUB); (bs "select", SELECT); (bs "string", T_STRING); (bs "struct", STRUCT); (bs "test", TEST); (bs "throw", THROW);
   (bs "type", TYPE); (bs "try", TRY); (bs "true", K_TRUE); (bs "var", VAR); (bs "void", VOID); (bs "uint", T_UINT);
   (bs "u8", T_U8); (bs "u16", T_U16); (bs "u32", T_U32); (bs "u64", T_U64); (bs "union", UNION); (bs "match", K_MATCH);
   (bs "return", RETURN)].

(** Words that nobody meant to reserve. *)
Definition accidents : list (list Z * ttype) :=
  [(bs "ealse", K_FALSE); (bs "e32", T_F32); (bs "e64", T_F64); (bs "eor", FOR); (bs "vint", T_UINT); (bs "v8", T_U8);
   (bs "v16", T_U16); (bs "v32", T_U32); (bs "v64", T_U64); (bs "vnion", UNION); (bs "meturn", RETURN)].

Definition reserved := keywords ++ accidents.

Definition word_type (table : list (list Z * ttype)) (w : list Z) (t : ttype) : Prop :=
  In (w, t) table \/ ~ In w (List.map fst table) /\ t = IDENT.

(** ** Operators *)

Definition operators : list (ttype * list Z) :=
  [(LEFT_PAREN, bs "("); (RIGHT_PAREN, bs ")"); (LEFT_SQUARE, bs "["); (RIGHT_SQUARE, bs "]"); (LEFT_CURLY, bs "{"); (RIGHT_CURLY, bs "}");
   (COLON, bs ":"); (STMT_EOF, bs ";"); (COMMA, bs ","); (QUESTION, bs "?"); (PERSON, bs "%"); (PERSON_EQUAL, bs "%=");
   (MINUS, bs "-"); (MINUS_EQUAL, bs "-="); (RIGHT_ARROW, bs "->"); (PLUS, bs "+"); (PLUS_EQUAL, bs "+=");
   (SLASH, bs "/"); (SLASH_EQUAL, bs "/="); (STAR, bs "*"); (STAR_EQUAL, bs "*=");
   (DOT, bs "."); (RANGE, bs ".."); (ELLIPSIS, bs "..."); (NOT, bs "!"); (NOT_EQUAL, bs "!="); (EQUAL, bs "="); (EQUAL_EQUAL, bs "==");
   (LEFT_ANGLE, bs "<"); (LESS_EQUAL, bs "<="); (LEFT_SHIFT, bs "<<"); (LEFT_SHIFT_EQUAL, bs "<<=");
   (RIGHT_ANGLE, bs ">"); (GREATER_EQUAL, bs ">="); (RIGHT_SHIFT_EQUAL, bs ">>=");
   (AND, bs "&"); (AND_AND, bs "&&"); (AND_EQUAL, bs "&="); (OR, bs "|"); (OR_OR, bs "||"); (OR_EQUAL, bs "|=");
   (TILDE, bs "~"); (XOR, bs "^"); (XOR_EQUAL, bs "^=")].

(** The longest operator is taken, and a comment is not an operator. *)
Definition operator_ends (op rest : list Z) : Prop :=
  (forall t op', In (t, op') operators -> prefix op' (op ++ rest) -> zlen op' <= zlen op) /\
  ~ prefix (bs "//") (op ++ rest) /\ ~ prefix (bs "/*") (op ++ rest).

(** ** Numbers *)

Definition digits (w : list Z) : Prop := w <> [] /\ Forall digit w.
Definition fraction (w : list Z) : Prop := exists f, w = 46 :: f /\ digits f.
Definition exponent (w : list Z) : Prop :=
  exists e sign f, w = e :: sign ++ f /\ (e = 101 \/ e = 69) /\ (sign = [] \/ sign = [43] \/ sign = [45]) /\ digits f.

(** The value of a digit, in any base up to sixteen. *)
Definition digit_value (c d : Z) : Prop :=
  c = 48 + d /\ 0 <= d <= 9 \/ c = 97 + (d - 10) /\ 10 <= d <= 15 \/ c = 65 + (d - 10) /\ 10 <= d <= 15.

(** What a row of digits denotes in a base. *)
Inductive denotes (base : Z) : list Z -> Z -> Prop :=
| denotes_none : denotes base [] 0
| denotes_more w c v d : denotes base w v -> digit_value c d -> d < base -> denotes base (w ++ [c]) (v * base + d).

(** The numeral of a number: decimal, without zeros in front. *)
Definition numeral (l : list Z) (v : Z) : Prop := denotes 10 l v /\ Forall digit l /\ (l = [48] \/ exists c t, l = c :: t /\ c <> 48).

Definition radix (mark base : Z) : Prop := mark = 120 /\ base = 16 \/ mark = 111 /\ base = 8 \/ mark = 98 /\ base = 2.

(** ** Strings *)

(** The escapes of one character and what they mean. *)
Definition escapes : list (Z * Z) :=
  [(110, 10); (116, 9); (114, 13); (98, 8); (102, 12); (97, 7); (118, 11); (48, 0); (92, 92); (39, 39); (34, 34)].

(** [spells q s text]: between two quotes [q], [text] stands for the bytes [s].  Between back quotes
    everything stands for itself. *)
Inductive spells (q : Z) : list Z -> list Z -> Prop :=
| spells_none : spells q [] []
| spells_plain c s text : c <> q -> (q = 96 \/ c <> 10 /\ c <> 92) -> spells q s text -> spells q (c :: s) (c :: text)
| spells_escape e v s text : q <> 96 -> In (e, v) escapes -> spells q s text -> spells q (v :: s) (92 :: e :: text)
| spells_hex h1 h2 d1 d2 s text : q <> 96 -> digit_value h1 d1 -> digit_value h2 d2 ->
    spells q s text -> spells q (16 * d1 + d2 :: s) (92 :: 120 :: h1 :: h2 :: text).

Definition quote (q : Z) : Prop := q = 34 \/ q = 39 \/ q = 96.

(** ** Tokens *)

(** [lexeme t l text rest]: in front of [rest], [text] is one token of type [t] with the literal [l]. *)
Inductive lexeme : ttype -> list Z -> list Z -> list Z -> Prop :=
| lex_word w t rest : identifier w -> word_type reserved w t -> (forall c, word_char c -> ~ prefix [c] rest) -> lexeme t w w rest
| lex_macro w rest : Forall word_char w -> (forall c, word_char c -> ~ prefix [c] rest) -> lexeme MACRO_IDENT w (64 :: w) rest
| lex_label w rest : Forall word_char w -> (forall c, word_char c -> ~ prefix [c] rest) -> lexeme LABEL w (35 :: w) rest
| lex_int w rest : digits w ->
    (forall c, digit c -> ~ prefix [c] rest) ->
    (forall f, fraction f -> ~ prefix f rest) -> (forall e, exponent e -> ~ prefix e rest) ->
    (forall mark base, radix mark base -> w = [48] -> ~ prefix [mark] rest) ->
    lexeme LITERAL_INT w w rest
| lex_fraction w f rest : digits w -> fraction f ->
    (forall c, digit c -> ~ prefix [c] rest) -> (forall e, exponent e -> ~ prefix e rest) ->
    lexeme LITERAL_FLOAT (w ++ f) (w ++ f) rest
| lex_exponent w f e rest : digits w -> (f = [] \/ fraction f) -> exponent e ->
    (forall c, digit c -> ~ prefix [c] rest) ->
    lexeme LITERAL_FLOAT (w ++ f ++ e) (w ++ f ++ e) rest
| lex_radix mark base w v l rest : radix mark base -> denotes base w v -> v < 2 ^ 64 -> numeral l v ->
    (forall c d, digit_value c d -> d < base -> ~ prefix [c] rest) ->
    lexeme LITERAL_INT l (48 :: mark :: w) rest
| lex_string q s text rest : quote q -> spells q s text -> lexeme LITERAL_STRING s (q :: text ++ [q]) rest
| lex_operator t op rest : In (t, op) operators -> operator_ends op rest -> lexeme t op op rest.

(** ** Between tokens *)

(** Blanks and comments, and whether there is a line feed outside of the comments between slash-star and
    star-slash.  The text slash-star-slash is a comment of its own. *)
Inductive layout : bool -> list Z -> Prop :=
| lay_none : layout false []
| lay_blank c b s : c = 32 \/ c = 9 \/ c = 13 -> layout b s -> layout b (c :: s)
| lay_newline b s : layout b s -> layout true (10 :: s)
| lay_line body b s : ~ In 10 body -> layout b s -> layout true (bs "//" ++ body ++ 10 :: s)
| lay_block body b s : ~ prefix [47] body -> (forall a r, body <> a ++ bs "*/" ++ r) -> layout b s -> layout b (bs "/*" ++ body ++ bs "*/" ++ s)
| lay_short b s : layout b s -> layout b (bs "/*/" ++ s).

(** At the end of the source the last comment may lack its line feed. *)
Definition final (s : list Z) : Prop :=
  exists b s1 s2, s = s1 ++ s2 /\ layout b s1 /\ (s2 = [] \/ exists body, s2 = bs "//" ++ body /\ ~ In 10 body).

(** The kinds of tokens that can be the last of a statement. *)
Definition enders : list ttype :=
  [IMPORT_STAR; LITERAL_INT; LITERAL_STRING; LITERAL_FLOAT; IDENT; BREAK; CONTINUE; RETURN; K_TRUE; K_FALSE;
   RIGHT_PAREN; RIGHT_SQUARE; RIGHT_CURLY; RIGHT_ANGLE; T_BOOL; T_FLOAT; T_F32; T_F64; T_INT; T_I8; T_I16; T_I32; T_I64;
   T_UINT; T_U8; T_U16; T_U32; T_U64; T_STRING; VOID; K_NULL; NOT; QUESTION; LABEL].

(** [separated last b t sep]: between the token [last] and one of type [t], with or without a line feed. *)
Definition separated (last : option token) (b : bool) (t : ttype) (sep : list token) : Prop :=
  match last with
  | None => sep = []
  | Some p => b = true /\ In (ty p) enders /\ t <> DOT /\ sep = [mk_token STMT_EOF (bs ";") (line p)] \/
              ~ (b = true /\ In (ty p) enders /\ t <> DOT) /\ sep = []
  end.

(** A star behind [as] imports everything. *)
Definition in_place (last : option token) (t t' : ttype) : Prop :=
  t = STAR /\ option_map ty last = Some K_AS /\ t' = IMPORT_STAR \/ ~ (t = STAR /\ option_map ty last = Some K_AS) /\ t' = t.

(** [reads last n s toks]: from line [n] on, behind the token [last], [s] consists of the tokens [toks]. *)
Inductive reads : option token -> Z -> list Z -> list token -> Prop :=
| reads_end last n s : final s -> reads last n s [mk_token EOF (bs "EOF") (n + newlines s)]
| reads_token last n b sep text rest t t' l ends toks :
    layout b sep -> lexeme t l text rest -> in_place last t t' -> separated last b t' ends ->
    reads (Some (mk_token t' l (n + newlines (sep ++ text)))) (n + newlines (sep ++ text)) rest toks ->
    reads last n (sep ++ text ++ rest) (ends ++ mk_token t' l (n + newlines (sep ++ text)) :: toks).

(** ** Writing literals *)

(** A string literal for any bytes: printable characters stand for themselves, all others are written in
    hexadecimal. *)
Definition hex_char (d : Z) : Z := if d <? 10 then 48 + d else 97 + (d - 10).
Definition spell_byte (c : Z) : list Z :=
  if (32 <=? c) && (c <=? 126) && negb (c =? 34) && negb (c =? 92) then [c]
  else [92; 120; hex_char (c / 16); hex_char (c mod 16)].
Definition string_literal (s : list Z) : list Z := [34] ++ flat_map spell_byte s ++ [34].
