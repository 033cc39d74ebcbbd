(* C109: an expression is read as its operators' precedence says. *)
From Coq Require Import ZArith List Bool Lia.
From Verif Require Import Base Pratt_model Pratt_spec Pratt_eqs Pratt_fuel_proof Pratt_proof Pratt_comp_proof Pratt_safe_proof.
Import ListNotations.
Local Open Scope Z_scope.

(* Full statement of C109: the tokens of an expression, followed by something
   that cannot continue it, are parsed to the tree of the grammar and nothing
   more is consumed.  False when a `<` is taken for the start of type
   arguments; what is missing here is that case. *)
Theorem c109_read_as_written_partial :
  forall type_args t ts rest,
    no_type_args type_args (ts ++ rest) ->
    reads 0 t ts -> ends rest ->
    parse type_args (ts ++ rest) = Ok (t, rest).
Proof. exact parse_complete. Qed.
Print Assumptions c109_read_as_written_partial.

(* And nothing else is accepted: whatever the parser takes is an expression of
   the grammar, and the tree it returns is the grammar's. *)
Theorem c109_accepts_only_expressions_partial :
  forall type_args ts t rest,
    no_type_args type_args ts ->
    parse type_args ts = Ok (t, rest) ->
    exists used, ts = used ++ rest /\ reads 0 t used.
Proof. exact parse_sound. Qed.
Print Assumptions c109_accepts_only_expressions_partial.

(* No text has two readings. *)
Theorem c109_one_reading :
  forall t1 t2 ts, reads 0 t1 ts -> reads 0 t2 ts -> t1 = t2.
Proof.
  intros t1 t2 ts H1 H2.
  assert (P : no_type_args (fun _ _ => false) (ts ++ [])) by (intros pre r e _; reflexivity).
  pose proof (parse_complete _ t1 ts [] P H1 Logic.I) as E1.
  pose proof (parse_complete _ t2 ts [] P H2 Logic.I) as E2.
  rewrite E1 in E2. injection E2 as ->. reflexivity.
Qed.
Print Assumptions c109_one_reading.

(* The parser always comes to an end. *)
Theorem c109_parser_ends : forall type_args ts, parse type_args ts <> NoFuel.
Proof. exact parse_not_out. Qed.
Print Assumptions c109_parser_ends.

(* Whatever is written, the parser returns a tree or an error message.  Missing:
   texts with `!` or `~`, for which this is false (see the refutation below),
   and `<` taken for the start of type arguments. *)
Theorem c109_tree_or_error_partial :
  forall type_args ts,
    no_type_args type_args ts -> ~ In T_NOT ts -> ~ In T_TILDE ts ->
    parse type_args ts = Throw \/ exists r, parse type_args ts = Ok r.
Proof. exact parse_safe. Qed.
Print Assumptions c109_tree_or_error_partial.

(* `a < b >> c` is an expression, but `<b>` is taken for type arguments and the
   compiler stops on a failed assertion.  The hypothesis is what
   parser_left_angle_is_type_args answers for a name followed by `>`
   (parser.c 1257-1276). *)
Theorem c109_less_than_shift_refuted :
  forall type_args,
    (forall x y r, type_args (Id x) (TIdent y :: T_RANGLE :: r) = true) ->
    exists ts t, reads 0 t ts /\ parse type_args ts = Abort.
Proof.
  intros ta H.
  exists [TIdent [97]; T_LANGLE; TIdent [98]; T_RANGLE; T_RANGLE; TIdent [99]],
    (Bin BLt (Id [97]) (Bin BShr (Id [98]) (Id [99]))).
  split.
  - apply (R_bin 0 BLt (Id [97]) (Bin BShr (Id [98]) (Id [99])) [TIdent [97]] [T_LANGLE]
      [TIdent [98]; T_RANGLE; T_RANGLE; TIdent [99]]); cbn; [lia|constructor; lia|constructor|].
    apply (R_bin 8 BShr (Id [98]) (Id [99]) [TIdent [98]] [T_RANGLE; T_RANGLE] [TIdent [99]]);
      cbn; [lia|constructor; lia|constructor|constructor; lia].
  - apply (parse_of_expr_any ta 4); [|discriminate].
    rewrite expr_S, prefix_S. cbn [prefix_of bind fst snd].
    rewrite loop_S. cbv zeta. cbn [infix_token]. rewrite H.
    cbn [prec prec_tok]. change (PREC_ASSIGN <=? PREC_SELECT) with true. cbv iota.
    rewrite infix_S. reflexivity.
Qed.
Print Assumptions c109_less_than_shift_refuted.

(* `a ! b` is no expression, and instead of an error message the compiler calls
   a null pointer. *)
Theorem c109_not_between_operands_refuted :
  forall type_args, exists ts, parse type_args ts = UB.
Proof. intros ta. exists [TIdent [97]; T_NOT; TIdent [98]].
  apply (parse_of_expr_any ta 4); [|discriminate]. reflexivity. Qed.
Print Assumptions c109_not_between_operands_refuted.

(* a + -b * 2 as int == f(1, x[0..]).y ? c >> 1 : d < 3 ? e : g , ; *)
Definition example_tokens : list tok :=
  [TIdent [97]; T_PLUS; T_MINUS; TIdent [98]; T_STAR; TLit KInt [50]; T_AS; TType [105; 110; 116];
   T_EE; TIdent [102]; T_LPAREN; TLit KInt [49]; T_COMMA; TIdent [120]; T_LSQUARE; TLit KInt [48];
   T_RANGE; T_RSQUARE; T_RPAREN; T_DOT; TIdent [121];
   T_QUESTION; TIdent [99]; T_RANGLE; T_RANGLE; TLit KInt [49]; T_COLON;
   TIdent [100]; T_LANGLE; TLit KInt [51]; T_QUESTION; TIdent [101]; T_COLON; TIdent [103]].
Definition example_tree : tree :=
  Tern
    (Bin BEe
      (Bin BAdd (Id [97])
        (Bin BMul (Un UNeg (Id [98])) (As (Lit KInt [50]) [105; 110; 116])))
      (Sel (Call (Id [102])
        [Lit KInt [49]; Slice (Id [120]) (Lit KInt [48]) (Lit KInt [45; 49])] false) [121]))
    (Bin BShr (Id [99]) (Lit KInt [49]))
    (Tern (Bin BLt (Id [100]) (Lit KInt [51])) (Id [101]) (Id [103])).

Example c109_example_parses :
  parse (fun _ _ => false) (example_tokens ++ [T_COMMA]) = Ok (example_tree, [T_COMMA]).
Proof. vm_compute. reflexivity. Qed.

(* the hypotheses of the first theorem hold for it *)
Example c109_example_reads :
  no_type_args (fun _ _ => false) (example_tokens ++ [T_COMMA]) /\
  reads 0 example_tree example_tokens /\ ends [T_COMMA].
Proof.
  split; [intros pre r e _; reflexivity|]. split; [|exact Logic.I].
  destruct (parse_sound (fun _ _ => false) (example_tokens ++ [T_COMMA]) example_tree [T_COMMA])
    as (used & E & H).
  - intros pre r e _. reflexivity.
  - vm_compute. reflexivity.
  - apply app_inj_tail in E. destruct E as (<- & _). exact H.
Qed.

(* a type test as the compiler makes it: a name, a name, `>` *)
Example c109_refuted_hypothesis :
  exists type_args : tree -> list tok -> bool,
    forall x y r, type_args (Id x) (TIdent y :: T_RANGLE :: r) = true.
Proof.
  exists (fun e ts => match e, ts with Id _, TIdent _ :: T_RANGLE :: _ => true | _, _ => false end).
  reflexivity.
Qed.

(* an unfinished expression meets the hypotheses of the theorem on errors *)
Example c109_error_example :
  parse (fun _ _ => false) [TIdent [97]; T_PLUS; T_RPAREN] = Throw /\
  ~ In T_NOT [TIdent [97]; T_PLUS; T_RPAREN] /\ ~ In T_TILDE [TIdent [97]; T_PLUS; T_RPAREN].
Proof. split; [vm_compute; reflexivity|]. split; intros [H|[H|[H|[]]]]; discriminate. Qed.
