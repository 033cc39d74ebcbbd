(** The reader's state is a function of the bytes seen so far, and it recognises the end of the
    root value of every document. *)
From Verif Require Import Base Base_lemmas Json_type Json_spec Json_model Json_utf8_proof Json_string_proof
  Json_number_proof Json_value_proof Jreader_model.

(** ** Scanning byte by byte *)

Fixpoint run (r : reader_t) (s : list Z) : reader_t * res bool :=
  match s with
  | [] => (r, Ok (complete r))
  | c :: s =>
      match scan_byte r c with
      | (r, Ok _) => run r s
      | (r, Throw) => (r, Throw)
      | (r, _) => (r, Panic)
      end
  end.

Lemma set_data_byte r c d :
  scan_byte (set_data r d) c = (set_data (fst (scan_byte r c)) d, snd (scan_byte r c)).
Proof.
  unfold scan_byte. cbn [complete started in_string escaped scalar containers set_data].
  repeat first
    [ reflexivity
    | match goal with
      | |- context [if ?b then _ else _] => destruct b
      | |- context [match at_ ?a ?b with _ => _ end] => destruct (at_ a b)
      | |- context [match slice ?a ?b ?c with _ => _ end] => destruct (slice a b c)
      end; cbn [fst snd complete started in_string escaped scalar containers set_data set_started set_scalar set_in_string set_containers set_complete set_escaped advance data scan_cursor] ].
Qed.

Lemma set_data_run r s d : run (set_data r d) s = (set_data (fst (run r s)) d, snd (run r s)).
Proof.
  revert r. induction s as [|c s IH]; intro r; [reflexivity|]. cbn [run]. rewrite set_data_byte.
  destruct (scan_byte r c) as [r' [u| | | | |]]; cbn [fst snd]; try reflexivity. apply IH.
Qed.

(** A byte that is scanned without error moves the cursor by one and leaves the data alone. *)
Lemma scan_byte_frame r c r' e : scan_byte r c = (r', e) ->
  data r' = data r /\ scan_cursor r' = scan_cursor r + (match e with Ok _ => 1 | _ => 0 end).
Proof.
  unfold scan_byte. intro E.
  assert (K : forall x y (e0 : res unit), (x, e0) = (r', e) -> data x = data r -> scan_cursor x = scan_cursor r + (match e0 with Ok _ => 1 | _ => 0 end) -> (y = true) ->
     data r' = data r /\ scan_cursor r' = scan_cursor r + (match e with Ok _ => 1 | _ => 0 end)).
  { intros x y e0 Q D C _. injection Q as <- <-. auto. }
  repeat match type of E with
  | context [if ?b then _ else _] => destruct b
  | context [match at_ ?a ?b with _ => _ end] => destruct (at_ a b)
  | context [match slice ?a ?b ?c with _ => _ end] => destruct (slice a b c)
  end; apply (K _ true _ E); cbn; try reflexivity; lia.
Qed.

Lemma run_app r a b : run r (a ++ b) = match run r a with (r', Ok _) => run r' b | x => x end.
Proof.
  revert r. induction a as [|c a IH]; intro r; [reflexivity|]. cbn [app run].
  destruct (scan_byte r c) as [r' [u| | | | |]]; try reflexivity. apply IH.
Qed.

Lemma run_cursor r s r' b : run r s = (r', Ok b) -> scan_cursor r' = scan_cursor r + zlen s /\ data r' = data r /\ b = complete r'.
Proof.
  revert r. induction s as [|c s IH]; intros r E; cbn [run] in E.
  - injection E as <- <-. rewrite zlen_nil. split; [lia|auto].
  - destruct (scan_byte r c) as [r1 e] eqn:Q. pose proof (scan_byte_frame _ _ _ _ Q) as [D C].
    destruct e as [u| | | | |]; try discriminate E. destruct (IH _ E) as (C' & D' & B). rewrite zlen_cons. split; [lia|]. split; [congruence|exact B].
Qed.

Lemma scan_run f : forall r pre s, data r = pre ++ s -> scan_cursor r = zlen pre -> (length s < f)%nat -> scan f r = run r s.
Proof.
  induction f as [|f IH]; intros r pre s D C F; [lia|]. cbn [scan].
  destruct s as [|c s].
  - rewrite D, app_nil_r, C, Z.ltb_irrefl. reflexivity.
  - rewrite D, C. replace (zlen pre <? zlen (pre ++ c :: s)) with true by (rewrite zlen_app, zlen_cons; pose proof (zlen_nonneg s); lia).
    rewrite at_app_mid. cbn [run]. destruct (scan_byte r c) as [r1 e] eqn:Q. pose proof (scan_byte_frame _ _ _ _ Q) as [D1 C1].
    destruct e as [u| | | | |]; try reflexivity. apply (IH r1 (pre ++ [c])).
    + rewrite D1, D, <- app_assoc. reflexivity.
    + rewrite C1, C, zlen_app, zlen_cons, zlen_nil. lia.
    + cbn [length] in F. lia.
Qed.

(** Everything written so far has been scanned. *)
Definition caught_up (r : reader_t) : Prop := scan_cursor r = zlen (data r).

Lemma write_run r chunk : caught_up r ->
  write r chunk = (set_data (fst (run r chunk)) (data r ++ chunk), snd (run r chunk)).
Proof.
  intro C. unfold write. cbv zeta.
  rewrite (scan_run _ (set_data r (data r ++ chunk)) (data r) chunk); [|reflexivity|exact C|cbn [data set_data]; rewrite app_length; lia].
  apply set_data_run.
Qed.

Lemma write_caught_up r chunk r' b : caught_up r -> write r chunk = (r', Ok b) -> caught_up r' /\ b = complete r'.
Proof.
  intros C E. rewrite write_run in E by exact C. destruct (run r chunk) as [r1 e] eqn:Q. cbn [fst snd] in E. injection E as <- ->.
  destruct (run_cursor _ _ _ _ Q) as (Cu & D & B). split; [|exact B].
  red. cbn [scan_cursor data set_data]. rewrite Cu, C, zlen_app. reflexivity.
Qed.

Lemma set_data_same r : set_data r (data r) = r.
Proof. destruct r; reflexivity. Qed.

Lemma set_data_set r a b : set_data (set_data r a) b = set_data r b.
Proof. reflexivity. Qed.

(** ** Chunks do not matter *)

Definition agree (a b : reader_t) : Prop := set_data a [] = set_data b [].

Theorem writes_concat chunks : forall r, caught_up r ->
  let one := write r (concat chunks) in
  let many := writes r chunks in
  snd many = snd one /\ agree (fst many) (fst one) /\
  (match snd one with Ok _ => fst many = fst one | _ => exists rest, data (fst one) = data (fst many) ++ rest end).
Proof.
  induction chunks as [|c chunks IH]; intros r C; cbv zeta.
  - cbn [concat writes]. rewrite write_run by exact C. cbn [run fst snd]. rewrite app_nil_r, set_data_same. repeat split.
  - cbn [writes concat]. pose proof (write_run r c C) as W1. pose proof (write_run r (c ++ concat chunks) C) as W2.
    rewrite run_app in W2. destruct (run r c) as [r1 e] eqn:Q. cbn [fst snd] in W1.
    destruct e as [b| | | | |].
    2-6: rewrite W1, W2; cbn [fst snd]; split; [reflexivity|]; split; [reflexivity|]; exists (concat chunks); cbn [data set_data]; now rewrite app_assoc.
    rewrite W1. destruct (write_caught_up _ _ _ _ C W1) as [C1 _].
    specialize (IH _ C1). cbv zeta in IH. rewrite (write_run _ (concat chunks) C1) in IH.
    rewrite set_data_run in IH. cbn [data set_data fst snd] in IH.
    rewrite W2. cbn [fst snd]. rewrite set_data_set, <- app_assoc in IH. exact IH.
Qed.

Lemma reader_caught_up : caught_up reader.
Proof. reflexivity. Qed.

(** ** No panic *)

Lemma scan_byte_fine r c : match snd (scan_byte r c) with Ok _ | Throw => True | _ => False end.
Proof.
  unfold scan_byte.
  assert (P : zlen (containers r) =? 0 = false -> exists cs x, containers r = cs ++ [x]).
  { intro N. destruct (containers r) as [|a l] using rev_ind; [discriminate N|]. now exists l, a. }
  destruct (complete r); [destruct (negb (json_space c)); exact I|].
  destruct (negb (started r)); [destruct (json_space c); [exact I|]; exact I|].
  destruct (in_string r).
  { destruct (escaped r); [exact I|]. destruct (c =? 92); [exact I|]. destruct (c =? 34); [exact I|]. destruct (c <? 32); exact I. }
  destruct (scalar r); [destruct (json_space c); exact I|].
  destruct (c =? 34); [exact I|].
  destruct ((c =? 123) || (c =? 91)); [cbv zeta; match goal with |- context [if ?b then _ else _] => destruct b end; exact I|].
  destruct ((c =? 125) || (c =? 93)); [|exact I].
  destruct (zlen (containers r) =? 0) eqn:E; [exact I|]. destruct (P eq_refl) as (cs & x & Q). rewrite Q.
  rewrite zlen_app, zlen_cons, zlen_nil. replace (zlen cs + (1 + 0) - 1) with (zlen cs) by lia. rewrite at_app_mid.
  destruct (((x =? 123) && negb (c =? 125)) || ((x =? 91) && negb (c =? 93))); [exact I|].
  rewrite slice_head. cbn [snd]. exact I.
Qed.

Lemma run_fine r s : match snd (run r s) with Ok _ | Throw => True | _ => False end.
Proof.
  revert r. induction s as [|c s IH]; intro r; [exact I|]. cbn [run]. pose proof (scan_byte_fine r c) as F.
  destruct (scan_byte r c) as [r1 [u| | | | |]]; cbn [snd] in *; try exact I; try contradiction. apply IH.
Qed.

(** ** Recognising the end of a value *)

(** Between the members of the open containers [cs]. *)
Definition st (d : list Z) (k : Z) (cs : list Z) : reader_t := mk_reader d cs k true false false false false.
(** Inside a string. *)
Definition ss (d : list Z) (k : Z) (cs : list Z) (sc : bool) : reader_t := mk_reader d cs k true true false sc false.
(** Done. *)
Definition done (d : list Z) (k : Z) (sc : bool) : reader_t := mk_reader d [] k true false false sc true.

Definition plain (c : Z) : Prop := c <> 34 /\ c <> 91 /\ c <> 93 /\ c <> 123 /\ c <> 125.

Lemma run_plain d cs t s : Forall plain t -> forall k, run (st d k cs) (t ++ s) = run (st d (k + zlen t) cs) s.
Proof.
  induction 1 as [|c t P F IH]; intro k; [rewrite zlen_nil, Z.add_0_r; reflexivity|].
  destruct P as (P1 & P2 & P3 & P4 & P5).
  assert (E : scan_byte (st d k cs) c = (st d (k + 1) cs, Ok tt)).
  { unfold scan_byte, st. cbn [complete started in_string scalar negb].
    destruct (Z.eqb_spec c 34); [lia|]. destruct (Z.eqb_spec c 123); [lia|]. destruct (Z.eqb_spec c 91); [lia|].
    destruct (Z.eqb_spec c 125); [lia|]. destruct (Z.eqb_spec c 93); [lia|]. reflexivity. }
  cbn [app run]. rewrite E, IH, zlen_cons. f_equal. unfold st. f_equal. lia.
Qed.

Lemma ws_plain w : ws w -> Forall plain w.
Proof. intro W. eapply Forall_impl; [|exact W]. intros c C. unfold space, plain in *. lia. Qed.

Lemma digits_plain ds : Forall digit ds -> Forall plain ds.
Proof. intro W. eapply Forall_impl; [|exact W]. intros c C. unfold digit, plain in *. lia. Qed.

Lemma number_plain t : number t -> Forall plain t.
Proof.
  intros [sign int frac exp Sg I F X]. repeat (apply Forall_app; split).
  - destruct Sg as [->| ->]; repeat constructor; unfold plain; lia.
  - destruct I as [->|(x & ds & -> & D & Ds)]; repeat constructor; [unfold plain; lia..|unfold plain; lia| |]; try (unfold plain; lia). now apply digits_plain.
  - destruct F as [->|(ds & -> & _ & D)]; [constructor|]. constructor; [unfold plain; lia|now apply digits_plain].
  - destruct X as [->|(e & sg & ds & -> & E & Sg' & _ & D)]; [constructor|]. constructor; [unfold plain; lia|]. apply Forall_app. split; [|now apply digits_plain].
    destruct Sg' as [->|[->| ->]]; repeat constructor; unfold plain; lia.
Qed.

Definition inert (c : Z) : Prop := 32 <= c /\ c <> 34 /\ c <> 92.

Lemma run_inert d cs sc t s : Forall inert t -> forall k, run (ss d k cs sc) (t ++ s) = run (ss d (k + zlen t) cs sc) s.
Proof.
  induction 1 as [|c t P F IH]; intro k; [rewrite zlen_nil, Z.add_0_r; reflexivity|].
  destruct P as (P1 & P2 & P3).
  assert (E : scan_byte (ss d k cs sc) c = (ss d (k + 1) cs sc, Ok tt)).
  { unfold scan_byte, ss. cbn [complete started in_string escaped scalar negb].
    destruct (Z.eqb_spec c 92); [lia|]. destruct (Z.eqb_spec c 34); [lia|]. destruct (Z.ltb_spec c 32); [lia|]. reflexivity. }
  cbn [app run]. rewrite E, IH, zlen_cons. f_equal. unfold ss. f_equal. lia.
Qed.

Lemma run_escape d cs sc c s k : run (ss d k cs sc) (92 :: c :: s) = run (ss d (k + 2) cs sc) s.
Proof. cbn [run]. unfold scan_byte at 1, ss. cbn [complete started in_string escaped scalar negb Z.eqb Pos.eqb]. unfold scan_byte, set_escaped, advance. cbn. f_equal. f_equal. lia. Qed.

Lemma hex4_inert h n : hex4 h n -> Forall inert h.
Proof. intro H. apply Forall_forall. intros x I. pose proof (hex4_no_quote _ _ _ H I). unfold inert. split; [lia|]. split; [|lia].
  destruct H as (a & b & c & d & da & db & dc & dd & -> & A & B & C & D & _). apply hexdigit_range in A, B, C, D. cbn [In] in I. destruct I as [<-|[<-|[<-|[<-|[]]]]]; lia. Qed.

Lemma utf8_inert cp : Json_spec.scalar cp -> 32 <= cp -> cp <> 34 -> cp <> 92 -> Forall inert (utf8 cp).
Proof.
  intros S A B C. destruct (Z_lt_dec cp 128).
  - rewrite utf8_1 by lia. repeat constructor; lia.
  - eapply Forall_impl; [|apply (utf8_high_bytes cp S); lia]. unfold inert. cbn. lia.
Qed.

Lemma zlen_hex4 h n : hex4 h n -> zlen h = 4.
Proof. intro H. unfold zlen. now rewrite (hex4_len _ _ H). Qed.

Lemma run_chars d cs sc t v : chars t v -> forall k s, run (ss d k cs sc) (t ++ s) = run (ss d (k + zlen t) cs sc) s.
Proof.
  assert (U : forall h n t k s, hex4 h n -> (forall k s, run (ss d k cs sc) (t ++ s) = run (ss d (k + zlen t) cs sc) s) ->
     run (ss d k cs sc) ((92 :: 117 :: h ++ t) ++ s) = run (ss d (k + zlen (92 :: 117 :: h ++ t)) cs sc) s).
  { intros h n t' k s H K. cbn [app]. rewrite run_escape, <- app_assoc, run_inert by (eapply hex4_inert; eauto). rewrite K.
    rewrite !zlen_cons, zlen_app. f_equal. unfold ss. f_equal. lia. }
  induction 1 as [|cp t s S L32 N34 N92 C IH|c v t s E C IH|h n t s H S C IH|h n h' n' t s H Hi H' Lo C IH|b t s B N C IH|h n t s H Hi N C IH|h n t s H Lo C IH]; intros k r.
  - rewrite zlen_nil, Z.add_0_r. reflexivity.
  - rewrite <- app_assoc, run_inert by (now apply utf8_inert). rewrite IH, zlen_app. f_equal. unfold ss. f_equal. lia.
  - cbn [app]. rewrite run_escape, IH, !zlen_cons. f_equal. unfold ss. f_equal. lia.
  - eapply U; eauto.
  - apply (U h n); [exact H|]. intros k' s'. apply (U h' n'); [exact H'|exact IH].
  - change (b :: t) with ([b] ++ t). rewrite <- app_assoc, run_inert by (repeat constructor; lia). rewrite IH, zlen_app. f_equal. unfold ss. f_equal. lia.
  - eapply U; eauto.
  - eapply U; eauto.
Qed.

Lemma run_open_string d cs s k : run (st d k cs) (34 :: s) = run (ss d (k + 1) cs false) s.
Proof. reflexivity. Qed.

Lemma run_close_string d cs s k : run (ss d k cs false) (34 :: s) = run (st d (k + 1) cs) s.
Proof. reflexivity. Qed.

Lemma run_string d cs t v s k : chars t v -> run (st d k cs) (34 :: t ++ 34 :: s) = run (st d (k + zlen t + 2) cs) s.
Proof. intro C. rewrite run_open_string, (run_chars _ _ _ t v C), run_close_string. f_equal. unfold st. f_equal. lia. Qed.

Lemma run_open d cs c s k : c = 123 \/ c = 91 -> zlen cs + 1 <= DEFAULT_MAX_DEPTH ->
  run (st d k cs) (c :: s) = run (st d (k + 1) (cs ++ [c])) s.
Proof.
  intros C L. cbn [run].
  assert (E : scan_byte (st d k cs) c = (st d (k + 1) (cs ++ [c]), Ok tt)).
  { unfold scan_byte, st. cbn [complete started in_string scalar negb containers set_containers].
    destruct (Z.eqb_spec c 34); [lia|]. replace ((c =? 123) || (c =? 91)) with true by lia. cbv zeta. cbn [containers set_containers].
    rewrite zlen_app, zlen_cons, zlen_nil. destruct (Z.ltb_spec DEFAULT_MAX_DEPTH (zlen cs + (1 + 0))); [lia|]. reflexivity. }
  now rewrite E.
Qed.

Lemma run_close d cs o c s k : (o = 123 /\ c = 125) \/ (o = 91 /\ c = 93) ->
  run (st d k (cs ++ [o])) (c :: s) = run (match cs with [] => done d (k + 1) false | _ => st d (k + 1) cs end) s.
Proof.
  intros C. cbn [run].
  assert (E : scan_byte (st d k (cs ++ [o])) c = (match cs with [] => done d (k + 1) false | _ => st d (k + 1) cs end, Ok tt)).
  { unfold scan_byte, st. cbn [complete started in_string scalar negb containers].
    destruct (Z.eqb_spec c 34); [lia|]. replace ((c =? 123) || (c =? 91)) with false by lia.
    replace ((c =? 125) || (c =? 93)) with true by lia.
    rewrite zlen_app, zlen_cons, zlen_nil. pose proof (zlen_nonneg cs). destruct (Z.eqb_spec (zlen cs + (1 + 0)) 0); [lia|].
    replace (zlen cs + (1 + 0) - 1) with (zlen cs) by lia. rewrite at_app_mid.
    replace (((o =? 123) && negb (c =? 125)) || ((o =? 91) && negb (c =? 93))) with false by (destruct C as [[-> ->]|[-> ->]]; reflexivity).
    rewrite slice_head. cbv zeta. cbn [containers set_containers].
    destruct cs as [|x cs]; [reflexivity|]. replace (zlen (x :: cs) =? 0) with false by (rewrite zlen_cons; pose proof (zlen_nonneg cs); lia). reflexivity. }
  now rewrite E.
Qed.

Lemma close_inner (cs : list Z) d k : cs <> [] -> match cs with [] => done d k false | _ => st d k cs end = st d k cs.
Proof. destruct cs; [contradiction|reflexivity]. Qed.

Ltac lit_plain := try change (bs "null") with [110;117;108;108]; try change (bs "true") with [116;114;117;101]; try change (bs "false") with [102;97;108;115;101]; repeat (apply Forall_cons; [unfold plain; lia|]); apply Forall_nil.

Ltac fold_st := unfold st; f_equal; repeat (rewrite zlen_app || rewrite zlen_cons || rewrite zlen_nil); lia.

Lemma run_text d :
  (forall n t v, text n t v -> forall cs k s, cs <> [] -> zlen cs + Z.of_nat n <= DEFAULT_MAX_DEPTH ->
     run (st d k cs) (t ++ s) = run (st d (k + zlen t) cs) s) /\
  (forall n t vs, elements n t vs -> forall cs k s, cs <> [] -> zlen cs + Z.of_nat n <= DEFAULT_MAX_DEPTH ->
     run (st d k cs) (t ++ s) = run (st d (k + zlen t) cs) s) /\
  (forall n t kvs, members n t kvs -> forall cs k s, cs <> [] -> zlen cs + Z.of_nat n <= DEFAULT_MAX_DEPTH ->
     run (st d k cs) (t ++ s) = run (st d (k + zlen t) cs) s).
Proof.
  assert (Ne : forall (cs : list Z) x, cs ++ [x] <> []) by (intros cs x Q; now destruct cs).
  apply text_elements_members.
  - intros n cs k s C L. apply run_plain. lit_plain.
  - intros n cs k s C L. apply run_plain. lit_plain.
  - intros n cs k s C L. apply run_plain. lit_plain.
  - intros n t Nt cs k s C L. apply run_plain. now apply number_plain.
  - intros n t v Ch cs k s C L. cbn [app]. rewrite <- app_assoc. cbn [app]. rewrite (run_string _ _ _ _ _ _ Ch). f_equal. fold_st.
  - intros n w W cs k s C L. cbn [app]. rewrite <- app_assoc. cbn [app]. rewrite run_open by lia. rewrite run_plain by (now apply ws_plain).
    rewrite run_close by lia. rewrite close_inner by exact C. f_equal. fold_st.
  - intros n body vs E IH cs k s C L. cbn [app]. rewrite <- app_assoc. cbn [app]. rewrite run_open by lia.
    rewrite IH; [|apply Ne|rewrite zlen_app, zlen_cons, zlen_nil; lia]. rewrite run_close by lia. rewrite close_inner by exact C. f_equal. fold_st.
  - intros n w W cs k s C L. cbn [app]. rewrite <- app_assoc. cbn [app]. rewrite run_open by lia. rewrite run_plain by (now apply ws_plain).
    rewrite run_close by lia. rewrite close_inner by exact C. f_equal. fold_st.
  - intros n body kvs m E IH _ cs k s C L. cbn [app]. rewrite <- app_assoc. cbn [app]. rewrite run_open by lia.
    rewrite IH; [|apply Ne|rewrite zlen_app, zlen_cons, zlen_nil; lia]. rewrite run_close by lia. rewrite close_inner by exact C. f_equal. fold_st.
  - intros n w1 t w2 v W1 T IH W2 cs k s C L. rewrite <- !app_assoc. rewrite run_plain by (now apply ws_plain). rewrite IH by assumption.
    rewrite run_plain by (now apply ws_plain). f_equal. fold_st.
  - intros n w1 t w2 v body vs W1 T IH W2 E IHE cs k s C L. rewrite <- !app_assoc. rewrite run_plain by (now apply ws_plain). rewrite IH by assumption.
    rewrite run_plain by (now apply ws_plain). cbn [app]. change (44 :: body ++ s) with ([44] ++ body ++ s).
    rewrite run_plain by lit_plain. rewrite IHE by assumption. f_equal. fold_st.
  - intros n w1 kt key w2 w3 t v w4 W1 Ch W2 W3 T IH W4 cs k s C L.
    rewrite <- app_assoc. rewrite run_plain by (now apply ws_plain). cbn [app]. rewrite <- app_assoc. cbn [app].
    rewrite (run_string _ _ _ _ _ _ Ch). rewrite <- app_assoc. rewrite run_plain by (now apply ws_plain). cbn [app].
    change (58 :: (w3 ++ t ++ w4) ++ s) with ([58] ++ (w3 ++ t ++ w4) ++ s). rewrite run_plain by lit_plain.
    rewrite <- !app_assoc. rewrite run_plain by (now apply ws_plain). rewrite IH by assumption. rewrite run_plain by (now apply ws_plain). f_equal. fold_st.
  - intros n w1 kt key w2 w3 t v w4 body kvs W1 Ch W2 W3 T IH W4 M IHM cs k s C L.
    rewrite <- app_assoc. rewrite run_plain by (now apply ws_plain). cbn [app]. rewrite <- app_assoc. cbn [app].
    rewrite (run_string _ _ _ _ _ _ Ch). rewrite <- app_assoc. rewrite run_plain by (now apply ws_plain). cbn [app].
    match goal with |- context [58 :: ?x] => change (58 :: x) with ([58] ++ x) end. rewrite run_plain by lit_plain.
    rewrite <- !app_assoc. rewrite run_plain by (now apply ws_plain). rewrite IH by assumption. rewrite run_plain by (now apply ws_plain).
    cbn [app]. change (44 :: body ++ s) with ([44] ++ body ++ s). rewrite run_plain by lit_plain. rewrite IHM by assumption. f_equal. fold_st.
Qed.

(** ** The root *)

Definition fresh (d : list Z) (k : Z) : reader_t := mk_reader d [] k false false false false false.

Lemma json_space_eq c : json_space c = true <-> space c.
Proof. unfold json_space, space. lia. Qed.

Lemma run_lead w s d : ws w -> forall k, run (fresh d k) (w ++ s) = run (fresh d (k + zlen w)) s.
Proof.
  induction 1 as [|c w C W IH]; intro k; [rewrite zlen_nil, Z.add_0_r; reflexivity|].
  apply json_space_eq in C. assert (E : scan_byte (fresh d k) c = (fresh d (k + 1), Ok tt)) by (unfold scan_byte, fresh; cbn [complete started negb]; rewrite C; reflexivity).
  cbn [app run]. rewrite E, IH, zlen_cons. f_equal. unfold fresh. f_equal. lia.
Qed.

Lemma run_trail w d sc : ws w -> forall k, run (done d k sc) w = (done d (k + zlen w) sc, Ok true).
Proof.
  induction 1 as [|c w C W IH]; intro k; [rewrite zlen_nil, Z.add_0_r; reflexivity|].
  apply json_space_eq in C. assert (E : scan_byte (done d k sc) c = (done d (k + 1) sc, Ok tt)) by (unfold scan_byte, done; cbn [complete]; rewrite C; reflexivity).
  cbn [run]. rewrite E, IH, zlen_cons. f_equal. unfold done. f_equal. lia.
Qed.

(** A literal or number at the root: the reader waits for white space. *)
Definition ts (d : list Z) (k : Z) : reader_t := mk_reader d [] k true false false true false.

Lemma run_scalar_tail t s d : Forall (fun c => ~ space c) t -> forall k, run (ts d k) (t ++ s) = run (ts d (k + zlen t)) s.
Proof.
  induction 1 as [|c t C F IH]; intro k; [rewrite zlen_nil, Z.add_0_r; reflexivity|].
  destruct (json_space c) eqn:E; [apply json_space_eq in E; contradiction|].
  assert (Q : scan_byte (ts d k) c = (ts d (k + 1), Ok tt)) by (unfold scan_byte, ts; cbn [complete started in_string scalar negb]; rewrite E; reflexivity).
  cbn [app run]. rewrite Q, IH, zlen_cons. f_equal. unfold ts. f_equal. lia.
Qed.

Definition is_scalar (v : json) : Prop := match v with JNull | JBool _ | JNum _ => True | _ => False end.

Lemma scalar_chars n t v : text n t v -> is_scalar v -> Forall (fun c => ~ space c /\ plain c) t.
Proof.
  assert (D : forall ds, Forall digit ds -> Forall (fun c => ~ space c /\ plain c) ds).
  { intros ds H. eapply Forall_impl; [|exact H]. cbn. unfold digit, space, plain. lia. }
  destruct 1; intro S; try contradiction;
    try change (bs "null") with [110;117;108;108]; try change (bs "true") with [116;114;117;101]; try change (bs "false") with [102;97;108;115;101];
    try (repeat (apply Forall_cons; [unfold space, plain; lia|]); apply Forall_nil).
  destruct H as [sign int frac exp Sg I F X]. repeat (apply Forall_app; split).
  - destruct Sg as [->| ->]; repeat constructor; unfold space, plain; lia.
  - destruct I as [->|(x & ds & -> & Dx & Ds)]; (constructor; [unfold space, plain; lia|]); [constructor|now apply D].
  - destruct F as [->|(ds & -> & _ & Ds)]; [constructor|]. constructor; [unfold space, plain; lia|now apply D].
  - destruct X as [->|(e & sg & ds & -> & E & Sg' & _ & Ds)]; [constructor|]. constructor; [unfold space, plain; lia|]. apply Forall_app. split; [|now apply D].
    destruct Sg' as [->|[->| ->]]; repeat constructor; unfold space, plain; lia.
Qed.

Lemma run_root_scalar d n t v s k : text n t v -> is_scalar v -> run (fresh d k) (t ++ s) = run (ts d (k + zlen t)) s.
Proof.
  intros T S. pose proof (scalar_chars _ _ _ T S) as F. destruct (text_start _ _ _ T) as (c & r & -> & C).
  inversion F as [|? ? [C1 (C2 & C3 & C4 & C5 & C6)] Fr]; subst.
  assert (Q : scan_byte (fresh d k) c = (ts d (k + 1), Ok tt)).
  { unfold scan_byte, fresh. cbn [complete started negb].
    destruct (json_space c) eqn:E; [apply json_space_eq in E; contradiction|]. cbv zeta.
    destruct (Z.eqb_spec c 34); [lia|]. destruct (Z.eqb_spec c 123); [lia|]. destruct (Z.eqb_spec c 91); [lia|]. reflexivity. }
  cbn [app run]. rewrite Q. rewrite run_scalar_tail by (eapply Forall_impl; [|exact Fr]; cbn; tauto). rewrite zlen_cons. f_equal. unfold ts. f_equal. lia.
Qed.

(** The last byte of a root string, array or object completes the reader, no earlier byte does. *)
Lemma run_root_string d t v k s : chars t v ->
  run (fresh d k) (34 :: t ++ s) = run (ss d (k + 1 + zlen t) [] true) s.
Proof.
  intro C. assert (E : run (fresh d k) (34 :: t ++ s) = run (ss d (k + 1) [] true) (t ++ s)) by reflexivity.
  rewrite E. apply (run_chars _ _ _ _ _ C).
Qed.

Lemma run_root_open d c k s : c = 123 \/ c = 91 -> run (fresh d k) (c :: s) = run (st d (k + 1) [c]) s.
Proof. intros [->| ->]; reflexivity. Qed.

Theorem run_root d n t v k : text n t v -> Z.of_nat n <= DEFAULT_MAX_DEPTH -> ~ is_scalar v ->
  exists body c r sc, t = body ++ [c] /\ run (fresh d k) body = (r, Ok false) /\
    forall s, run (fresh d k) (t ++ s) = run (done d (k + zlen t) sc) s.
Proof.
  intros T N S. destruct T as [| | |n t Nt|n t v C|n w W|n body vs E|n w W|n body kvs m M O]; cbn [is_scalar] in S; try tauto.
  - exists (34 :: t), 34. eexists. exists true. split; [reflexivity|]. split.
    + pose proof (run_root_string d t v k [] C) as K. rewrite app_nil_r in K. rewrite K. reflexivity.
    + intro s. cbn [app]. rewrite <- app_assoc. rewrite (run_root_string d t v k _ C). cbn [app].
      assert (E : run (ss d (k + 1 + zlen t) [] true) (34 :: s) = run (done d (k + 1 + zlen t + 1) true) s) by reflexivity.
      rewrite E. f_equal. unfold done. f_equal. rewrite zlen_cons, zlen_app, zlen_cons, zlen_nil. lia.
  - exists (91 :: w), 93. eexists. exists false. split; [reflexivity|]. split.
    + rewrite run_root_open by lia. pose proof (run_plain d [91] w [] (ws_plain w W) (k + 1)) as K. rewrite app_nil_r in K. rewrite K. reflexivity.
    + intro s. cbn [app]. rewrite run_root_open by lia. rewrite <- app_assoc, run_plain by (now apply ws_plain). cbn [app].
      change [91] with ([] ++ [91]). rewrite run_close by lia. f_equal. unfold done. f_equal. rewrite zlen_cons, zlen_app, zlen_cons, zlen_nil. lia.
  - destruct (run_text d) as (_ & RE & _).
    assert (K : forall s, run (st d (k + 1) [91]) (body ++ s) = run (st d (k + 1 + zlen body) [91]) s) by (intro s; apply (RE _ _ _ E); [discriminate|rewrite zlen_cons, zlen_nil; lia]).
    exists (91 :: body), 93. eexists. exists false. split; [reflexivity|]. split.
    + rewrite run_root_open by lia. specialize (K []). rewrite app_nil_r in K. rewrite K. reflexivity.
    + intro s. cbn [app]. rewrite run_root_open by lia. rewrite <- app_assoc, K. cbn [app].
      change [91] with ([] ++ [91]). rewrite run_close by lia. f_equal. unfold done. f_equal. rewrite zlen_cons, zlen_app, zlen_cons, zlen_nil. lia.
  - exists (123 :: w), 125. eexists. exists false. split; [reflexivity|]. split.
    + rewrite run_root_open by lia. pose proof (run_plain d [123] w [] (ws_plain w W) (k + 1)) as K. rewrite app_nil_r in K. rewrite K. reflexivity.
    + intro s. cbn [app]. rewrite run_root_open by lia. rewrite <- app_assoc, run_plain by (now apply ws_plain). cbn [app].
      change [123] with ([] ++ [123]). rewrite run_close by lia. f_equal. unfold done. f_equal. rewrite zlen_cons, zlen_app, zlen_cons, zlen_nil. lia.
  - destruct (run_text d) as (_ & _ & RM).
    assert (K : forall s, run (st d (k + 1) [123]) (body ++ s) = run (st d (k + 1 + zlen body) [123]) s) by (intro s; apply (RM _ _ _ M); [discriminate|rewrite zlen_cons, zlen_nil; lia]).
    exists (123 :: body), 125. eexists. exists false. split; [reflexivity|]. split.
    + rewrite run_root_open by lia. specialize (K []). rewrite app_nil_r in K. rewrite K. reflexivity.
    + intro s. cbn [app]. rewrite run_root_open by lia. rewrite <- app_assoc, K. cbn [app].
      change [123] with ([] ++ [123]). rewrite run_close by lia. f_equal. unfold done. f_equal. rewrite zlen_cons, zlen_app, zlen_cons, zlen_nil. lia.
Qed.

(** ** Documents *)

Lemma reader_fresh : reader = fresh [] 0.
Proof. reflexivity. Qed.

Lemma scan_byte_stays r c : complete r = true -> complete (fst (scan_byte r c)) = true.
Proof. intro C. unfold scan_byte. rewrite C. destruct (negb (json_space c)); exact C. Qed.

Lemma run_stays r s : complete r = true -> complete (fst (run r s)) = true.
Proof.
  revert r. induction s as [|c s IH]; intros r C; [exact C|]. cbn [run]. pose proof (scan_byte_stays r c C) as K.
  destruct (scan_byte r c) as [r1 [u| | | | |]]; cbn [fst] in *; auto.
Qed.

(** A prefix of a scan that did not complete did not complete either. *)
Lemma run_prefix r a b r' : run r (a ++ b) = (r', Ok false) -> exists r1, run r a = (r1, Ok false).
Proof.
  intro E. rewrite run_app in E. destruct (run r a) as [r1 e] eqn:Q. destruct e as [x| | | | |]; try discriminate E.
  pose proof (run_cursor _ _ _ _ Q) as (_ & _ & Bx). destruct x; [|now exists r1].
  pose proof (run_stays r1 b (eq_sym Bx)) as K. pose proof (run_cursor _ _ _ _ E) as (_ & _ & Bf). rewrite E in K. cbn [fst] in K. congruence.
Qed.

Lemma writes_run chunks : let w := writes reader chunks in
  snd w = snd (run reader (concat chunks)) /\
  (forall b, snd w = Ok b -> complete (fst w) = b /\ data (fst w) = concat chunks).
Proof.
  cbv zeta. destruct (writes_concat chunks reader reader_caught_up) as (A & _ & B). rewrite (write_run reader (concat chunks) reader_caught_up) in A, B.
  cbn [fst snd data reader app] in A, B. split; [exact A|]. intros b E. rewrite A in E. clear A. rewrite E in B. rewrite B. cbn [complete data set_data].
  split; [|reflexivity]. destruct (run reader (concat chunks)) as [r e] eqn:Q. cbn [snd fst] in *. subst e.
  now destruct (run_cursor _ _ _ _ Q) as (_ & _ & ->).
Qed.

(** Everything the property theorems need about a document given in pieces. *)
Lemma document_run n w1 t w2 v : ws w1 -> text n t v -> ws w2 -> Z.of_nat n <= DEFAULT_MAX_DEPTH ->
  (~ is_scalar v \/ w2 <> []) ->
  snd (run reader (w1 ++ t ++ w2)) = Ok true.
Proof.
  intros W1 T W2 N H. rewrite reader_fresh, run_lead by exact W1.
  assert (D : is_scalar v \/ ~ is_scalar v) by (destruct v; cbn; auto). destruct D as [S|S].
  - destruct H as [H|H]; [contradiction|]. rewrite (run_root_scalar _ n t v _ _ T S). destruct w2 as [|c w2]; [contradiction|].
    inversion W2 as [|? ? C W]; subst. apply json_space_eq in C. cbn [run].
    assert (E : forall k, scan_byte (ts [] k) c = (done [] (k + 1) true, Ok tt)) by (intro k; unfold scan_byte, ts; cbn [complete started in_string scalar negb]; rewrite C; reflexivity).
    rewrite E. now rewrite run_trail.
  - destruct (run_root [] n t v (0 + zlen w1) T N S) as (_ & _ & _ & sc & _ & _ & R). rewrite R. now rewrite run_trail.
Qed.

Lemma document_early n w1 t v s r : ws w1 -> text n t v -> Z.of_nat n <= DEFAULT_MAX_DEPTH ->
  r <> [] -> s ++ r = w1 ++ t -> snd (run reader s) = Ok false.
Proof.
  intros W1 T N Ne E.
  assert (K : exists u b c, w1 ++ t = u ++ [c] /\ run reader u = (b, Ok false)).
  { assert (D : is_scalar v \/ ~ is_scalar v) by (destruct v; cbn; auto). destruct D as [S|S].
    - assert (F : exists b, run reader (w1 ++ t) = (b, Ok false)).
      { eexists. rewrite reader_fresh, run_lead by exact W1. rewrite <- (app_nil_r t) at 1. rewrite (run_root_scalar _ n t v _ _ T S). reflexivity. }
      destruct F as (b & F). assert (Nt : w1 ++ t <> []).
      { destruct (text_start _ _ _ T) as (c & r' & -> & _). now destruct w1. }
      destruct (exists_last Nt) as (u & c & Eu). rewrite Eu in F. destruct (run_prefix _ _ _ _ F) as (b' & F'). exists u, b', c. auto.
    - destruct (run_root [] n t v (0 + zlen w1) T N S) as (body & c & b & _ & Et & R & _).
      exists (w1 ++ body), b, c. split; [rewrite Et; now rewrite app_assoc|]. rewrite reader_fresh, run_lead by exact W1. exact R. }
  destruct K as (u & b & c & Eu & R). destruct (exists_last Ne) as (r' & c' & Er). rewrite Er, Eu, app_assoc in E.
  apply app_inj_tail in E as [E _]. rewrite <- E in R. destruct (run_prefix _ _ _ _ R) as (b' & R'). now rewrite R'.
Qed.

Lemma bare_scalar_run n w1 t v : ws w1 -> text n t v -> is_scalar v -> snd (run reader (w1 ++ t)) = Ok false.
Proof.
  intros W1 T S. rewrite reader_fresh, run_lead by exact W1. rewrite <- (app_nil_r t) at 1. rewrite (run_root_scalar _ n t v _ _ T S). reflexivity.
Qed.
