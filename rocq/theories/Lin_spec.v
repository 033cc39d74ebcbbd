(** What statements mean, and how linear code runs. *)
From Verif Require Import Base Lin_model.

(** Everything the function does not decide itself: arithmetic, the order of floating point numbers
    ([None] when one of them is not a number), and what the other functions do.  A function is given
    its argument, the global variables and the error pending when it is called; it answers with its
    result, the new global variables and the error pending when it comes back. *)
Record world := mk_world {
  w_bin : nat -> Z -> Z -> Z;
  w_fcmp : Z -> Z -> option comparison;
  w_call : nat -> Z -> (nat -> Z) -> option Z -> Z * (nat -> Z) * option Z }.

(** Local variables, global variables, and the calls made so far, latest first. *)
Record state := mk_state { loc : nat -> Z; glob : nat -> Z; tr : list (nat * Z) }.

Definition upd (f : nat -> Z) (x : nat) (v : Z) : nat -> Z := fun y => if Nat.eqb y x then v else f y.
Definition set_loc (s : state) (x : nat) (v : Z) : state := mk_state (upd (loc s) x v) (glob s) (tr s).
Definition set_glob (s : state) (x : nat) (v : Z) : state := mk_state (loc s) (upd (glob s) x v) (tr s).
Definition get_var (s : state) (x : var) : Z := match x with Loc x => loc s x | Glob g => glob s g end.
Definition set_var (s : state) (x : var) (v : Z) : state :=
  match x with Loc x => set_loc s x v | Glob g => set_glob s g v end.
Definition called (s : state) (f : nat) (v : Z) (g : nat -> Z) : state := mk_state (loc s) g ((f, v) :: tr s).

Definition b2z (b : bool) : Z := if b then 1 else 0.

Section world.
  Variable W : world.

  Definition order (k : kind) (a b : Z) : option comparison :=
    match k with
    | KSigned => Some (a ?= b)
    | KUnsigned => Some (a mod 2 ^ 64 ?= b mod 2 ^ 64)
    | KFloat => w_fcmp W a b
    end.
  (** No comparison but != holds when the two cannot be ordered. *)
  Definition holds (k : kind) (c : cmp) (a b : Z) : bool :=
    match order k a b, c with
    | Some Eq, (EQ | LE | GE) => true
    | Some Lt, (NE | LT | LE) => true
    | Some Gt, (NE | GT | GE) => true
    | None, NE => true
    | _, _ => false
    end.

  (** ** The source

      Expressions give a value [inl v] or fail with an error [inr code]. *)
  Inductive eval : expr -> state -> Z + Z -> state -> Prop :=
  | E_int z s : eval (EInt z) s (inl z) s
  | E_var x s : eval (EVar x) s (inl (get_var s x)) s
  | E_bin o a b s s1 s2 u v : eval a s (inl u) s1 -> eval b s1 (inl v) s2 ->
      eval (EBin o a b) s (inl (w_bin W o u v)) s2
  | E_bin1 o a b s s1 c : eval a s (inr c) s1 -> eval (EBin o a b) s (inr c) s1
  | E_bin2 o a b s s1 s2 u c : eval a s (inl u) s1 -> eval b s1 (inr c) s2 ->
      eval (EBin o a b) s (inr c) s2
  | E_cmp k o a b s s1 s2 u v : eval a s (inl u) s1 -> eval b s1 (inl v) s2 ->
      eval (ECmp k o a b) s (inl (b2z (holds k o u v))) s2
  | E_cmp1 k o a b s s1 c : eval a s (inr c) s1 -> eval (ECmp k o a b) s (inr c) s1
  | E_cmp2 k o a b s s1 s2 u c : eval a s (inl u) s1 -> eval b s1 (inr c) s2 ->
      eval (ECmp k o a b) s (inr c) s2
  | E_and_no a b s s1 : eval a s (inl 0) s1 -> eval (EAnd a b) s (inl 0) s1
  | E_and_yes a b s s1 r s2 : eval a s (inl 1) s1 -> eval b s1 r s2 -> eval (EAnd a b) s r s2
  | E_and1 a b s s1 c : eval a s (inr c) s1 -> eval (EAnd a b) s (inr c) s1
  | E_or_yes a b s s1 : eval a s (inl 1) s1 -> eval (EOr a b) s (inl 1) s1
  | E_or_no a b s s1 r s2 : eval a s (inl 0) s1 -> eval b s1 r s2 -> eval (EOr a b) s r s2
  | E_or1 a b s s1 c : eval a s (inr c) s1 -> eval (EOr a b) s (inr c) s1
  | E_not a s s1 b : eval a s (inl (b2z b)) s1 -> eval (ENot a) s (inl (b2z (negb b))) s1
  | E_not1 a s s1 c : eval a s (inr c) s1 -> eval (ENot a) s (inr c) s1
  | E_cond q a b s s1 t r s2 : eval q s (inl (b2z t)) s1 -> eval (if t then a else b) s1 r s2 ->
      eval (ECond q a b) s r s2
  | E_cond1 q a b s s1 c : eval q s (inr c) s1 -> eval (ECond q a b) s (inr c) s1
  | E_call f er a s s1 v w g : eval a s (inl v) s1 ->
      w_call W f v (glob s1) None = (w, g, None) ->
      eval (ECall f er a) s (inl w) (called s1 f v g)
  | E_call_err f a s s1 v w g c : eval a s (inl v) s1 ->
      w_call W f v (glob s1) None = (w, g, Some c) ->
      eval (ECall f true a) s (inr c) (called s1 f v g)
  | E_call1 f er a s s1 c : eval a s (inr c) s1 -> eval (ECall f er a) s (inr c) s1.

  (** How a statement ends. *)
  Inductive out := ONormal | OBreak | OContinue | OReturn (v : option Z) | OError (c : Z).

  Definition is_defer (s : stmt) : bool := match s with SDefer _ => true | _ => false end.

  (** [exec s]: one statement.  [run ds b]: the rest [b] of a block whose deferred bodies so far are
      [ds], latest first.  [defers ds]: deferred bodies, in this order.  [loop]: the part of a `for`
      from its condition on. *)
  Inductive exec : stmt -> state -> out -> state -> Prop :=
  | X_expr e s v s' : eval e s (inl v) s' -> exec (SExpr e) s ONormal s'
  | X_expr1 e s c s' : eval e s (inr c) s' -> exec (SExpr e) s (OError c) s'
  | X_assign x e s v s' : eval e s (inl v) s' -> exec (SAssign x e) s ONormal (set_var s' x v)
  | X_assign1 x e s c s' : eval e s (inr c) s' -> exec (SAssign x e) s (OError c) s'
  | X_if q a b s t s1 o s2 : eval q s (inl (b2z t)) s1 -> run [] (if t then a else b) s1 o s2 ->
      exec (SIf q a b) s o s2
  | X_if1 q a b s c s1 : eval q s (inr c) s1 -> exec (SIf q a b) s (OError c) s1
  | X_for q body s o s' : loop q None body s o s' -> exec (SFor q body) s o s'
  | X_fort x e q y u body s v s1 o s' : eval e s (inl v) s1 ->
      loop q (Some (y, u)) body (set_var s1 x v) o s' -> exec (SForT x e q y u body) s o s'
  | X_fort1 x e q y u body s c s1 : eval e s (inr c) s1 -> exec (SForT x e q y u body) s (OError c) s1
  | X_break s : exec SBreak s OBreak s
  | X_continue s : exec SContinue s OContinue s
  | X_return0 s : exec (SReturn None) s (OReturn None) s
  | X_return e s v s' : eval e s (inl v) s' -> exec (SReturn (Some e)) s (OReturn (Some v)) s'
  | X_return1 e s c s' : eval e s (inr c) s' -> exec (SReturn (Some e)) s (OError c) s'
  | X_try body x h s o s' : run [] body s o s' -> (forall c, o <> OError c) -> exec (STry body x h) s o s'
  | X_catch body x h s c s1 o s' : run [] body s (OError c) s1 -> run [] h (set_loc s1 x c) o s' ->
      exec (STry body x h) s o s'
  | X_throw e s v s' : eval e s (inl v) s' -> exec (SThrow e) s (OError v) s'
  | X_throw1 e s c s' : eval e s (inr c) s' -> exec (SThrow e) s (OError c) s'
  with run : list block -> block -> state -> out -> state -> Prop :=
  | R_nil ds s s' : defers ds s s' -> run ds BNil s ONormal s'
  | R_defer ds d b s o s' : run (d :: ds) b s o s' -> run ds (BCons (SDefer d) b) s o s'
  | R_step ds x b s s1 o s' : exec x s ONormal s1 -> run ds b s1 o s' -> run ds (BCons x b) s o s'
  | R_stop ds x b s o s1 s' : exec x s o s1 -> o <> ONormal -> defers ds s1 s' -> run ds (BCons x b) s o s'
  with defers : list block -> state -> state -> Prop :=
  | D_nil s : defers [] s s
  | D_cons d ds s s1 s2 : run [] d s ONormal s1 -> defers ds s1 s2 -> defers (d :: ds) s s2
  with loop : expr -> option (var * expr) -> block -> state -> out -> state -> Prop :=
  | L_end q u body s s1 : eval q s (inl 0) s1 -> loop q u body s ONormal s1
  | L_err q u body s c s1 : eval q s (inr c) s1 -> loop q u body s (OError c) s1
  | L_break q u body s s1 s2 : eval q s (inl 1) s1 -> run [] body s1 OBreak s2 -> loop q u body s ONormal s2
  | L_exit q u body s s1 o s2 : eval q s (inl 1) s1 -> run [] body s1 o s2 ->
      o <> ONormal -> o <> OContinue -> o <> OBreak -> loop q u body s o s2
  | L_next q body s s1 o1 s2 o s' : eval q s (inl 1) s1 -> run [] body s1 o1 s2 ->
      o1 = ONormal \/ o1 = OContinue -> loop q None body s2 o s' -> loop q None body s o s'
  | L_update q y u body s s1 o1 s2 v s3 o s' : eval q s (inl 1) s1 -> run [] body s1 o1 s2 ->
      o1 = ONormal \/ o1 = OContinue -> eval u s2 (inl v) s3 ->
      loop q (Some (y, u)) body (set_var s3 y v) o s' -> loop q (Some (y, u)) body s o s'
  | L_update1 q y u body s s1 o1 s2 c s3 : eval q s (inl 1) s1 -> run [] body s1 o1 s2 ->
      o1 = ONormal \/ o1 = OContinue -> eval u s2 (inr c) s3 ->
      loop q (Some (y, u)) body s (OError c) s3.

  (** ** The machine that runs linear code *)
  Record mach := mk_mach {
    m_pc : nat; m_temps : nat -> Z; m_st : state;
    m_err : option Z;                  (* the error pending in the coroutine: nutils.c co_has_error *)
    m_ret : option (option Z) }.       (* what RETURN has handed over *)

  Definition val (m : mach) (o : operand) : Z :=
    match o with
    | OImm z => z
    | OLoc x => loc (m_st m) x
    | OGlob g => glob (m_st m) g
    | OTemp t => m_temps m t
    end.

  (** Write an operand and go to the next instruction. *)
  Definition put (m : mach) (o : operand) (v : Z) : option mach :=
    match o with
    | OImm _ => None
    | OLoc x => Some (mk_mach (S (m_pc m)) (m_temps m) (set_loc (m_st m) x v) (m_err m) (m_ret m))
    | OGlob x => Some (mk_mach (S (m_pc m)) (m_temps m) (set_glob (m_st m) x v) (m_err m) (m_ret m))
    | OTemp t => Some (mk_mach (S (m_pc m)) (upd (m_temps m) t v) (m_st m) (m_err m) (m_ret m))
    end.
  Definition goto (m : mach) (pc : nat) : mach := mk_mach pc (m_temps m) (m_st m) (m_err m) (m_ret m).
  Definition next (m : mach) : mach := goto m (S (m_pc m)).

  Fixpoint find_label (code : list op) (l : nat) : option nat :=
    match code with
    | [] => None
    | i :: code' =>
        if match i with Label l' => Nat.eqb l' l | _ => false end then Some O
        else option_map S (find_label code' l)
    end.
  Definition jump (code : list op) (m : mach) (l : nat) : option mach :=
    option_map (goto m) (find_label code l).

  (** One instruction; [None] when the code has ended or something impossible is asked for.
      nutils.c:650-792 for the three error calls. *)
  Definition step (code : list op) (m : mach) : option mach :=
    match nth_error code (m_pc m) with
    | None | Some FnEnd => None
    | Some (Move d a) => put m d (val m a)
    | Some (Bin o a b d) => put m d (w_bin W o (val m a) (val m b))
    | Some (SetCmp k c a b d) => put m d (b2z (holds k c (val m a) (val m b)))
    | Some (Xor a b d) => put m d (Z.lxor (val m a) (val m b))
    | Some (Label _) => Some (next m)
    | Some (Bal l) => jump code m l
    | Some (Bcc k c a b l) => if holds k c (val m a) (val m b) then jump code m l else Some (next m)
    | Some (Call f a d) =>
        let '(w, g, e) := w_call W f (val m a) (glob (m_st m)) (m_err m) in
        put (mk_mach (m_pc m) (m_temps m) (called (m_st m) f (val m a) g) e (m_ret m)) d w
    | Some (HasError d) => put m d (match m_err m with Some _ => 1 | None => 0 end)
    | Some (RemoveError d) =>
        match m_err m with
        | Some c => put (mk_mach (m_pc m) (m_temps m) (m_st m) None (m_ret m)) d c
        | None => None
        end
    | Some (ThrowError a) =>
        match m_err m with
        | None => Some (mk_mach (S (m_pc m)) (m_temps m) (m_st m) (Some (val m a)) (m_ret m))
        | Some _ => None
        end
    | Some (Return a) =>
        Some (mk_mach (S (m_pc m)) (m_temps m) (m_st m) (m_err m) (Some (option_map (val m) a)))
    end.

  Inductive steps (code : list op) : mach -> mach -> Prop :=
  | S_refl m : steps code m m
  | S_step m m1 m2 : step code m = Some m1 -> steps code m1 m2 -> steps code m m2.

  Definition ended (code : list op) (m : mach) : Prop := nth_error code (m_pc m) = Some FnEnd.

  (** What the caller sees. *)
  Inductive answer := AValue (v : option Z) | AError (c : Z).
  Definition answer_of (m : mach) : answer :=
    match m_err m with
    | Some c => AError c
    | None => AValue (match m_ret m with Some v => v | None => None end)
    end.
  Definition meant (o : out) : answer :=
    match o with
    | OError c => AError c
    | OReturn v => AValue v
    | _ => AValue None
    end.

  (** A function called with no error pending, from any contents of the temporaries, ends with this
      answer, in this state. *)
  Definition computes (code : list op) (s : state) (a : answer) (s' : state) : Prop :=
    forall temps, exists m,
      steps code (mk_mach 0 temps s None None) m /\ ended code m /\ answer_of m = a /\ m_st m = s'.
End world.

(** ** The programs for which the two agree *)
Fixpoint calls (e : expr) : bool :=
  match e with
  | EInt _ | EVar _ => false
  | EBin _ a b | ECmp _ _ a b | EAnd a b | EOr a b => calls a || calls b
  | ENot a => calls a
  | ECond q a b => calls q || calls a || calls b
  | ECall _ _ _ => true
  end.
Definition ordered (a b : expr) : bool := match a with EVar (Glob _) => negb (calls b) | _ => true end.

(** Does the code leave the local variable [x] alone? *)
Definition other (x : nat) (y : var) : bool := match y with Loc y => negb (Nat.eqb x y) | Glob _ => true end.
Fixpoint keeps (x : nat) (s : stmt) : bool :=
  match s with
  | SAssign y _ => other x y
  | SIf _ a b => keeps_b x a && keeps_b x b
  | SFor _ b => keeps_b x b
  | SForT y _ _ z _ b => other x y && other x z && keeps_b x b
  | STry b y h => negb (Nat.eqb x y) && keeps_b x b && keeps_b x h
  | SDefer b => keeps_b x b
  | _ => true
  end
with keeps_b (x : nat) (b : block) : bool :=
  match b with BNil => true | BCons s b' => keeps x s && keeps_b x b' end.

(** Deferred code must not be able to fail, and calls only functions in [P], which do not look at the
    pending error. *)
Section ok.
  Variable P : nat -> bool.

  Fixpoint ok_expr (q : bool) (e : expr) : bool :=
    match e with
    | EInt _ | EVar _ => true
    | EBin _ a b | ECmp _ _ a b => ok_expr q a && ok_expr q b && ordered a b
    | EAnd a b | EOr a b => ok_expr q a && ok_expr q b
    | ENot a => ok_expr q a
    | ECond c a b => ok_expr q c && ok_expr q a && ok_expr q b
    | ECall f errable a => ok_expr q a && (negb q || (negb errable && P f))
    end.

  Definition ok_if (e : expr) : bool :=
    match e with ECmp KFloat (LT | LE | GT | GE) _ _ => false | _ => true end.

  Definition ok_return (acc : list block) (e : expr) : bool :=
    match e with
    | EVar (Loc x) => forallb (keeps_b x) acc
    | EVar (Glob _) => match acc with [] => true | _ => false end
    | _ => true
    end.

  (** [q]: inside a deferred body; [lp]: inside a loop; [tc]: inside the body of a try; [acc]: the
      deferred bodies waiting. *)
  Fixpoint ok_stmt (q lp tc : bool) (acc : list block) (s : stmt) : bool :=
    match s with
    | SExpr e | SAssign _ e => ok_expr q e
    | SIf c a b => ok_expr q c && ok_if c && ok_block q lp tc acc a && ok_block q lp tc acc b
    | SFor c b => ok_expr q c && ok_block q true tc acc b
    | SForT _ e c _ u b => ok_expr q e && ok_expr q c && ok_expr q u && ok_block q true tc acc b
    | SBreak | SContinue => negb q && lp
    | SReturn None => negb q
    | SReturn (Some e) => negb q && ok_expr q e && ok_return acc e
    | STry b _ h => negb q && ok_block q lp true acc b && ok_block q lp tc acc h
    | SThrow e => negb q && negb tc && ok_expr q e
    | SDefer d => ok_block true false false [] d
    end
  with ok_block (q lp tc : bool) (acc : list block) (b : block) : bool :=
    match b with
    | BNil => true
    | BCons s b' => ok_stmt q lp tc acc s &&
        ok_block q lp tc (match s with SDefer d => d :: acc | _ => acc end) b'
    end.

  Definition ok (b : block) : bool := ok_block false false false [] b.
End ok.

(** The functions in [P] do the same whether or not an error is pending, and leave it pending. *)
Definition patient (W : world) (P : nat -> bool) : Prop :=
  forall f v g w g' e, P f = true -> w_call W f v g None = (w, g', None) ->
    w_call W f v g (Some e) = (w, g', Some e).
