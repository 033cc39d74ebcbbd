(** json.parse accepts exactly the documents of the grammar and yields the value they denote. *)
From Verif Require Import Base Base_lemmas Json_type Json_spec Json_model Json_utf8_proof Json_string_proof Json_number_proof.

Scheme text_mut := Induction for text Sort Prop
with elements_mut := Induction for elements Sort Prop
with members_mut := Induction for members Sort Prop.
Combined Scheme text_elements_members from text_mut, elements_mut, members_mut.

(** ** Objects *)

Lemma eqk (a b : list Z) : (if list_eq_dec Z.eq_dec a b then true else false) = true <-> a = b.
Proof. destruct (list_eq_dec Z.eq_dec a b); split; congruence. Qed.

Lemma last_value_snoc kvs k v k' :
  last_value (kvs ++ [(k, v)]) k' = if list_eq_dec Z.eq_dec k k' then Some v else last_value kvs k'.
Proof.
  induction kvs as [|[a x] kvs IH]; cbn [app last_value].
  - destruct (list_eq_dec Z.eq_dec k k'); reflexivity.
  - rewrite IH. destruct (list_eq_dec Z.eq_dec k k'); [reflexivity|]. reflexivity.
Qed.

Lemma in_firsts k ks : In k (firsts ks) <-> In k ks.
Proof.
  induction ks as [|a ks IH]; [reflexivity|]. cbn [firsts In]. rewrite filter_In, IH.
  destruct (list_eq_dec Z.eq_dec a k); [subst; tauto|]. intuition.
Qed.

Lemma filter_snoc {A} (p : A -> bool) l x : filter p (l ++ [x]) = filter p l ++ if p x then [x] else [].
Proof. rewrite filter_app. reflexivity. Qed.

Lemma firsts_snoc ks k : firsts (ks ++ [k]) = if in_dec (list_eq_dec Z.eq_dec) k ks then firsts ks else firsts ks ++ [k].
Proof.
  induction ks as [|a ks IH]; [reflexivity|]. cbn [app firsts]. rewrite IH.
  destruct (in_dec (list_eq_dec Z.eq_dec) k ks) as [I|N]; destruct (in_dec (list_eq_dec Z.eq_dec) k (a :: ks)) as [I'|N'].
  - reflexivity.
  - destruct N'. now right.
  - rewrite filter_snoc. destruct I' as [->|I']; [|contradiction].
    destruct (list_eq_dec Z.eq_dec k k); [|contradiction]. now rewrite app_nil_r.
  - rewrite filter_snoc. destruct (list_eq_dec Z.eq_dec a k) as [->|]; [destruct N'; now left|]. reflexivity.
Qed.

Lemma assign_keys m k v : map fst (assign m k v) = if in_dec (list_eq_dec Z.eq_dec) k (map fst m) then map fst m else map fst m ++ [k].
Proof.
  induction m as [|[a x] m IH]; [reflexivity|]. cbn [assign map fst].
  destruct (list_eq_dec Z.eq_dec a k) as [->|Ne].
  - cbn [map fst]. destruct (in_dec (list_eq_dec Z.eq_dec) k (k :: map fst m)) as [|N]; [reflexivity|]. destruct N. now left.
  - cbn [map fst]. rewrite IH. destruct (in_dec (list_eq_dec Z.eq_dec) k (map fst m)) as [I|N];
      destruct (in_dec (list_eq_dec Z.eq_dec) k (a :: map fst m)) as [I'|N']; try reflexivity.
    + destruct N'. now right.
    + destruct I'; [congruence|contradiction].
Qed.

Lemma in_assign m k v k' v' : NoDup (map fst m) -> In (k', v') (assign m k v) -> (k' = k /\ v' = v) \/ (k' <> k /\ In (k', v') m).
Proof.
  induction m as [|[a x] m IH]; intros N I; cbn [assign] in I.
  - destruct I as [I|[]]. injection I as <- <-. now left.
  - cbn [map fst] in N. apply NoDup_cons_iff in N as [Na Nm].
    destruct (list_eq_dec Z.eq_dec a k) as [->|Ne].
    + destruct I as [I|I]; [injection I as <- <-; now left|]. right. split; [|now right].
      intros ->. apply Na. apply (in_map fst) in I. exact I.
    + destruct I as [I|I]; [injection I as <- <-; right; split; [exact Ne|now left]|].
      destruct (IH Nm I) as [|[]]; [now left|right; split; [assumption|now right]].
Qed.

Lemma NoDup_firsts ks : NoDup (firsts ks).
Proof.
  induction ks as [|a ks IH]; cbn [firsts]; constructor.
  - rewrite filter_In. intros [_ E]. destruct (list_eq_dec Z.eq_dec a a); [discriminate|contradiction].
  - now apply NoDup_filter.
Qed.

Lemma object_fold kvs : object kvs (fold_left (fun m kv => assign m (fst kv) (snd kv)) kvs []).
Proof.
  induction kvs as [|[k v] kvs [K V]] using rev_ind; [split; [reflexivity|intros k v []]|].
  rewrite fold_left_app. cbn [fold_left fst snd].
  set (m := fold_left _ kvs []) in *. clearbody m.
  split.
  - rewrite assign_keys, map_app. cbn [map fst]. rewrite firsts_snoc, K.
    destruct (in_dec (list_eq_dec Z.eq_dec) k (firsts (map fst kvs))) as [I|N];
      destruct (in_dec (list_eq_dec Z.eq_dec) k (map fst kvs)) as [I'|N']; try reflexivity.
    + destruct N'. now apply in_firsts.
    + destruct N. now apply in_firsts.
  - intros k' v' I. rewrite last_value_snoc. apply in_assign in I; [|rewrite K; apply NoDup_firsts].
    destruct (list_eq_dec Z.eq_dec k k') as [->|Ne].
    + destruct I as [(_ & ->)|(X & _)]; [reflexivity|congruence].
    + destruct I as [(-> & _)|(_ & I)]; [contradiction|]. now apply V.
Qed.

Lemma object_fun kvs m m' : object kvs m -> object kvs m' -> m = m'.
Proof.
  intros [K V] [K' V']. rewrite <- K' in K. clear K'. revert m' V' K. induction m as [|[k v] m IH]; intros m' V' K.
  - destruct m'; [reflexivity|discriminate K].
  - destruct m' as [|[k' v'] m']; [discriminate K|]. cbn [map fst] in K. injection K as <- K. f_equal.
    + f_equal. pose proof (V k v (or_introl eq_refl)) as A. pose proof (V' k v' (or_introl eq_refl)) as B. congruence.
    + apply IH; [intros; apply V; now right|intros; apply V'; now right|exact K].
Qed.

(** ** Literals *)

Lemma skip_idem d : skip_whitespace (skip_whitespace d) = skip_whitespace d.
Proof. destruct (skip_ws_spec d) as (w & _ & _ & N). now apply skip_ws_id. Qed.

Lemma same_bytes_spec lit d : zlen lit <= zlen d ->
  (exists r, d = lit ++ r /\ same_bytes lit d = Ok true) \/ ((forall r, d <> lit ++ r) /\ same_bytes lit d = Ok false).
Proof.
  revert d. induction lit as [|b lit IH]; intros d L; [left; now exists d|].
  destruct d as [|c d]; [rewrite zlen_cons, zlen_nil in L; pose proof (zlen_nonneg lit); lia|].
  rewrite !zlen_cons in L. cbn [same_bytes]. destruct (Z.eqb_spec c b) as [->|N]; cbn [negb].
  - destruct (IH d) as [(r & -> & E)|(Q & E)]; [lia| |].
    + left. exists r. auto.
    + right. split; [|exact E]. intros r X. cbn [app] in X. injection X as X. now apply (Q r).
  - right. split; [|reflexivity]. intros r X. cbn [app] in X. injection X as X _. contradiction.
Qed.

Lemma consume_spec lit d :
  (exists w r, d = w ++ lit ++ r /\ ws w /\ no_start space (lit ++ r) /\ consume lit d = Ok (true, r)) \/
  ((forall r, skip_whitespace d <> lit ++ r) /\ consume lit d = Ok (false, skip_whitespace d)).
Proof.
  unfold consume. destruct (skip_ws_spec d) as (w & E & W & N). set (d' := skip_whitespace d) in *. clearbody d'.
  destruct (Z.ltb_spec (zlen d') (zlen lit)) as [L|L].
  - right. split; [|reflexivity]. intros r ->. rewrite zlen_app in L. pose proof (zlen_nonneg r). lia.
  - destruct (same_bytes_spec lit d' L) as [(r & -> & Q)|(Q & Q')].
    + left. exists w, r. rewrite Q. cbn [bind]. repeat split; auto. now rewrite skipn_app, skipn_all, Nat.sub_diag.
    + right. rewrite Q'. auto.
Qed.

Lemma consume_yes w lit r : ws w -> no_start space (lit ++ r) -> consume lit (w ++ lit ++ r) = Ok (true, r).
Proof.
  intros W N. destruct (consume_spec lit (w ++ lit ++ r)) as [(w' & r' & E & W' & N' & Q)|(Q & _)].
  - rewrite Q. f_equal. f_equal.
    assert (X : skip_whitespace (w ++ lit ++ r) = lit ++ r) by (now apply skip_ws).
    rewrite E, skip_ws in X by assumption. now apply app_inv_head in X.
  - rewrite skip_ws in Q by assumption. now destruct (Q r).
Qed.

Lemma consume_no w lit d : ws w -> no_start space d -> (forall r, d <> lit ++ r) -> consume lit (w ++ d) = Ok (false, d).
Proof.
  intros W N Q. destruct (consume_spec lit (w ++ d)) as [(w' & r' & E & W' & N' & _)|(_ & X)].
  - exfalso. assert (X : skip_whitespace (w ++ d) = d) by (now apply skip_ws). rewrite E, skip_ws in X by assumption. now apply (Q r').
  - rewrite X, skip_ws by assumption. reflexivity.
Qed.

Lemma must_yes w lit r : ws w -> no_start space (lit ++ r) -> must lit (w ++ lit ++ r) = Ok r.
Proof. intros W N. unfold must. now rewrite consume_yes. Qed.

Lemma must_spec lit d :
  (exists w r, d = w ++ lit ++ r /\ ws w /\ must lit d = Ok r) \/ must lit d = Throw.
Proof.
  unfold must. destruct (consume_spec lit d) as [(w & r & E & W & _ & ->)|(_ & ->)]; [left; exists w, r; auto|now right].
Qed.

Lemma consume_skip lit d : consume lit (skip_whitespace d) = consume lit d.
Proof. unfold consume. now rewrite skip_idem. Qed.

Lemma nospace_cons c r : ~ space c -> no_start space (c :: r).
Proof. intros N x y E. injection E as <- _. exact N. Qed.

Ltac nospace := apply nospace_cons; unfold space; lia.

(** ** First bytes *)

Definition opening (c : Z) : Prop := c = 110 \/ c = 116 \/ c = 102 \/ c = 34 \/ c = 91 \/ c = 123 \/ c = 45 \/ digit c.

Lemma text_start n t v : text n t v -> starts opening t.
Proof.
  destruct 1; try (eexists; eexists; split; [reflexivity|]; unfold opening; tauto).
  destruct (number_start t H) as (c & r & -> & C). exists c, r. split; [reflexivity|]. unfold opening. tauto.
Qed.

Lemma opening_nospace c : opening c -> ~ space c.
Proof. unfold opening, space, digit. lia. Qed.

Lemma text_nospace n t v r : text n t v -> no_start space (t ++ r).
Proof. intro T. destruct (text_start _ _ _ T) as (c & u & -> & C). cbn [app]. apply nospace_cons. now apply opening_nospace. Qed.

(** ** One call of each of the three functions *)

Lemma value_S mx f depth data : parser_value mx (S f) depth data =

      let data := skip_whitespace data in
      match data with
      | [] => Throw
      | c :: _ =>
          if c =? 110 then
            data <- must (bs "null") data ;;
            Ok (JNull, data)
          else if (c =? 116) || (c =? 102) then
            ' (b, data) <- parser_bool data ;;
            Ok (JBool b, data)
          else if c =? 34 then
            ' (s, data) <- parser_string data ;;
            Ok (JStr s, data)
          else if c =? 91 then (* 959-977 parser_value_array *)
            let depth := depth + 1 in
            if mx <? depth then Throw
            else
              data <- must [91] data ;;
              ' (closed, data) <- consume [93] data ;;
              if (closed : bool) then Ok (JArr [], data)
              else
                ' (values, data) <- array_loop mx f depth data [] ;;
                Ok (JArr values, data)
          else if c =? 123 then (* 979-999 parser_value_object *)
            let depth := depth + 1 in
            if mx <? depth then Throw
            else
              data <- must [123] data ;;
              ' (closed, data) <- consume [125] data ;;
              if (closed : bool) then Ok (JObj [], data)
              else
                ' (values, data) <- object_loop mx f depth data [] ;;
                Ok (JObj values, data)
          else
            ' (token, data) <- parser_number_token data ;;
            Ok (JNum token, data)
      end
.
Proof. reflexivity. Qed.

Lemma array_S mx f depth data values : array_loop mx (S f) depth data values =

      ' (v, data) <- parser_value mx f depth data ;;
      let values := values ++ [v] in
      ' (closed, data) <- consume [93] data ;;
      if (closed : bool) then Ok (values, data)
      else
        data <- must [44] data ;;
        array_loop mx f depth data values
.
Proof. reflexivity. Qed.

Lemma object_S mx f depth data values : object_loop mx (S f) depth data values =

      ' (key, data) <- parser_string data ;;
      data <- must [58] data ;;
      ' (v, data) <- parser_value mx f depth data ;;
      let values := assign values key v in
      ' (closed, data) <- consume [125] data ;;
      if (closed : bool) then Ok (values, data)
      else
        data <- must [44] data ;;
        object_loop mx f depth data values
.
Proof. reflexivity. Qed.

(** ** Completeness *)

Lemma value_skip mx f d s : parser_value mx f d (skip_whitespace s) = parser_value mx f d s.
Proof. destruct f as [|f]; [reflexivity|]. rewrite ?value_S; cbv zeta. now rewrite skip_idem. Qed.

Lemma array_skip mx f d s vs : array_loop mx f d (skip_whitespace s) vs = array_loop mx f d s vs.
Proof. destruct f as [|f]; [reflexivity|]. rewrite ?array_S; cbv zeta. now rewrite value_skip. Qed.

Lemma object_skip mx f d s vs : object_loop mx f d (skip_whitespace s) vs = object_loop mx f d s vs.
Proof. destruct f as [|f]; [reflexivity|]. rewrite ?object_S; cbv zeta. unfold parser_string, must. now rewrite consume_skip. Qed.

Lemma parser_string_yes w t s rest : ws w -> chars t s -> parser_string (w ++ 34 :: t ++ 34 :: rest) = Ok (s, rest).
Proof.
  intros W C. unfold parser_string.
  change (34 :: t ++ 34 :: rest) with ([34] ++ (t ++ 34 :: rest)). rewrite must_yes; [|exact W|cbn [app]; nospace].
  cbn [bind]. rewrite (string_complete t s C); [reflexivity|]. rewrite app_length. cbn [length]. lia.
Qed.

Lemma ws_numeric w c r : ws w -> ~ numeric c -> no_start numeric (w ++ c :: r).
Proof.
  intros W N x y E. destruct w as [|z w]; cbn [app] in E; injection E as <- _; [exact N|].
  inversion W as [|? ? Z _]; subst. unfold space, numeric, digit in *. lia.
Qed.

Section complete.
Variable mx : Z.

Definition Pt (n : nat) (t : list Z) (v : json) (_ : text n t v) : Prop :=
  forall f d w rest, Z.of_nat n <= mx - d -> (2 * length t + 1 <= f)%nat -> ws w -> no_start numeric rest ->
    parser_value mx f d (w ++ t ++ rest) = Ok (v, rest).
Definition Pe (n : nat) (t : list Z) (vs : list json) (_ : elements n t vs) : Prop :=
  forall f d rest acc, Z.of_nat n <= mx - d -> (2 * length t + 2 <= f)%nat ->
    array_loop mx f d (t ++ 93 :: rest) acc = Ok (acc ++ vs, rest).
Definition Pm (n : nat) (t : list Z) (kvs : list (list Z * json)) (_ : members n t kvs) : Prop :=
  forall f d rest acc, Z.of_nat n <= mx - d -> (2 * length t + 2 <= f)%nat ->
    object_loop mx f d (t ++ 125 :: rest) acc = Ok (fold_left (fun m kv => assign m (fst kv) (snd kv)) kvs acc, rest).

Lemma value_head f d w c t : ws w -> ~ space c ->
  parser_value mx (S f) d (w ++ c :: t) = parser_value mx (S f) d (c :: t).
Proof.
  intros W N. rewrite ?value_S; cbv zeta.
  assert (E : skip_whitespace (w ++ c :: t) = c :: t) by (apply skip_ws; [exact W|now apply nospace_cons]).
  assert (E' : skip_whitespace (c :: t) = c :: t) by (apply skip_ws_id; now apply nospace_cons).
  now rewrite E, E'.
Qed.

Lemma elements_nobracket n body vs r : elements n body vs ->
  exists w body', body ++ r = w ++ body' /\ ws w /\ no_start space body' /\ (forall u, body' <> 93 :: u) /\ body' = skip_whitespace (body ++ r).
Proof.
  intro E.
  assert (K : exists w t s v, body = w ++ t ++ s /\ ws w /\ text n t v) by (destruct E; [exists w1, t, w2, v; auto|exists w1, t, (w2 ++ 44 :: body), v; auto]).
  destruct K as (w & t & s & v & -> & W & T). rewrite <- !app_assoc.
  exists w, (t ++ s ++ r). split; [reflexivity|]. split; [exact W|]. split; [now apply (text_nospace n t v)|].
  split; [|rewrite skip_ws; [reflexivity|exact W|now apply (text_nospace n t v)]].
  intros u Q. destruct (text_start _ _ _ T) as (c & t' & -> & C). cbn [app] in Q. injection Q as -> _. unfold opening, digit in C. lia.
Qed.

Lemma members_nobracket n body kvs r : members n body kvs ->
  exists w body', body ++ r = w ++ body' /\ ws w /\ no_start space body' /\ (forall u, body' <> 125 :: u) /\ body' = skip_whitespace (body ++ r).
Proof.
  intro E.
  assert (K : exists w s, body = w ++ 34 :: s /\ ws w) by (destruct E; [exists w1, (kt ++ 34 :: w2 ++ 58 :: w3 ++ t ++ w4); auto|exists w1, (kt ++ 34 :: w2 ++ 58 :: w3 ++ t ++ w4 ++ 44 :: body); auto]).
  destruct K as (w & s & -> & W). rewrite <- !app_assoc. cbn [app].
  exists w, (34 :: s ++ r). split; [reflexivity|]. split; [exact W|]. split; [nospace|].
  split; [intros u Q; discriminate Q|]. rewrite skip_ws; [reflexivity|exact W|nospace].
Qed.

Lemma complete_all :
  (forall n t v (T : text n t v), Pt n t v T) /\
  (forall n t vs (E : elements n t vs), Pe n t vs E) /\
  (forall n t kvs (M : members n t kvs), Pm n t kvs M).
Proof.
  apply text_elements_members; unfold Pt, Pe, Pm.
  - intros n f d w rest D F W N. destruct f as [|f]; [lia|].
    change (bs "null" ++ rest) with (110 :: bs "ull" ++ rest). rewrite value_head by (auto; unfold space; lia).
    rewrite ?value_S; cbv zeta. rewrite skip_ws_id by nospace. cbn [Z.eqb Pos.eqb].
    change (110 :: bs "ull" ++ rest) with ([] ++ bs "null" ++ rest). rewrite must_yes; [reflexivity|constructor|].
    change (bs "null" ++ rest) with (110 :: bs "ull" ++ rest). nospace.
  - intros n f d w rest D F W N. destruct f as [|f]; [lia|].
    change (bs "true" ++ rest) with (116 :: bs "rue" ++ rest). rewrite value_head by (auto; unfold space; lia).
    rewrite ?value_S; cbv zeta. rewrite skip_ws_id by nospace. cbn [Z.eqb Pos.eqb orb].
    unfold parser_bool. rewrite skip_ws_id by nospace. replace (zlen (116 :: bs "rue" ++ rest) =? 0) with false by (rewrite zlen_cons; pose proof (zlen_nonneg (bs "rue" ++ rest)); lia).
    change (116 :: bs "rue" ++ rest) with ([] ++ bs "true" ++ rest). rewrite consume_yes; [reflexivity|constructor|].
    change (bs "true" ++ rest) with (116 :: bs "rue" ++ rest). nospace.
  - intros n f d w rest D F W N. destruct f as [|f]; [lia|].
    change (bs "false" ++ rest) with (102 :: bs "alse" ++ rest). rewrite value_head by (auto; unfold space; lia).
    rewrite ?value_S; cbv zeta. rewrite skip_ws_id by nospace. cbn [Z.eqb Pos.eqb orb].
    unfold parser_bool. rewrite skip_ws_id by nospace. replace (zlen (102 :: bs "alse" ++ rest) =? 0) with false by (rewrite zlen_cons; pose proof (zlen_nonneg (bs "alse" ++ rest)); lia).
    pose proof (consume_no [] (bs "true") (102 :: bs "alse" ++ rest) (Forall_nil _) ltac:(nospace) ltac:(intros r Q; discriminate Q)) as Nt.
    cbn [app] in Nt. rewrite Nt. clear Nt.
    cbn [bind]. change (102 :: bs "alse" ++ rest) with ([] ++ bs "false" ++ rest). rewrite consume_yes; [reflexivity|constructor|].
    change (bs "false" ++ rest) with (102 :: bs "alse" ++ rest). nospace.
  - intros n t T f d w rest D F W N. destruct f as [|f]; [lia|].
    destruct (number_start t T) as (c & r & E & C). pose proof (number_complete [] t rest (Forall_nil _) T N) as K.
    cbn [app] in K. rewrite E in K |- *. cbn [app] in K |- *. rewrite value_head by (auto; unfold space, digit in *; lia).
    rewrite ?value_S; cbv zeta. rewrite skip_ws_id by (apply nospace_cons; unfold space, digit in *; lia).
    assert (Cb : c = 45 \/ 48 <= c <= 57) by (unfold digit in C; lia). clear C.
    destruct (Z.eqb_spec c 110); [lia|]. destruct (Z.eqb_spec c 116); [lia|]. destruct (Z.eqb_spec c 102); [lia|]. cbn [orb].
    destruct (Z.eqb_spec c 34); [lia|]. destruct (Z.eqb_spec c 91); [lia|]. destruct (Z.eqb_spec c 123); [lia|].
    rewrite K. reflexivity.
  - intros n t s C f d w rest D F W N. destruct f as [|f]; [lia|].
    cbn [app]. rewrite value_head by (auto; unfold space; lia).
    rewrite ?value_S; cbv zeta. rewrite skip_ws_id by nospace. cbn [Z.eqb Pos.eqb orb].
    pose proof (parser_string_yes [] t s rest (Forall_nil _) C) as K. cbn [app] in K. rewrite <- app_assoc. cbn [app]. rewrite K. reflexivity.
  - intros n w0 W0 f d w rest D F W N. destruct f as [|f]; [lia|].
    cbn [app]. rewrite value_head by (auto; unfold space; lia).
    rewrite ?value_S; cbv zeta. rewrite skip_ws_id by nospace. cbn [Z.eqb Pos.eqb orb].
    destruct (Z.ltb_spec mx (d + 1)); [lia|]. rewrite <- app_assoc. cbn [app].
    change (91 :: w0 ++ 93 :: rest) with ([] ++ [91] ++ w0 ++ [93] ++ rest). rewrite must_yes; [|constructor|cbn [app]; nospace].
    cbn [bind]. rewrite consume_yes; [reflexivity|exact W0|cbn [app]; nospace].
  - intros n body vs E IH f d w rest D F W N. destruct f as [|f]; [lia|].
    cbn [app]. rewrite value_head by (auto; unfold space; lia).
    rewrite ?value_S; cbv zeta. rewrite skip_ws_id by nospace. cbn [Z.eqb Pos.eqb orb].
    destruct (Z.ltb_spec mx (d + 1)); [lia|]. rewrite <- app_assoc. cbn [app].
    change (91 :: body ++ 93 :: rest) with ([] ++ [91] ++ body ++ 93 :: rest). rewrite must_yes; [|constructor|cbn [app]; nospace].
    cbn [bind]. destruct (elements_nobracket n body vs (93 :: rest) E) as (w' & body' & Q & W' & N' & Nb & Sk).
    rewrite Q, consume_no by assumption. cbn [bind]. rewrite Sk, array_skip.
    cbn [length] in F. rewrite app_length in F. cbn [length] in F.
    rewrite IH by lia. reflexivity.
  - intros n w0 W0 f d w rest D F W N. destruct f as [|f]; [lia|].
    cbn [app]. rewrite value_head by (auto; unfold space; lia).
    rewrite ?value_S; cbv zeta. rewrite skip_ws_id by nospace. cbn [Z.eqb Pos.eqb orb].
    destruct (Z.ltb_spec mx (d + 1)); [lia|]. rewrite <- app_assoc. cbn [app].
    change (123 :: w0 ++ 125 :: rest) with ([] ++ [123] ++ w0 ++ [125] ++ rest). rewrite must_yes; [|constructor|cbn [app]; nospace].
    cbn [bind]. rewrite consume_yes; [reflexivity|exact W0|cbn [app]; nospace].
  - intros n body kvs m M IH O f d w rest D F W N. destruct f as [|f]; [lia|].
    cbn [app]. rewrite value_head by (auto; unfold space; lia).
    rewrite ?value_S; cbv zeta. rewrite skip_ws_id by nospace. cbn [Z.eqb Pos.eqb orb].
    destruct (Z.ltb_spec mx (d + 1)); [lia|]. rewrite <- app_assoc. cbn [app].
    change (123 :: body ++ 125 :: rest) with ([] ++ [123] ++ body ++ 125 :: rest). rewrite must_yes; [|constructor|cbn [app]; nospace].
    cbn [bind]. destruct (members_nobracket n body kvs (125 :: rest) M) as (w' & body' & Q & W' & N' & Nb & Sk).
    rewrite Q, consume_no by assumption. cbn [bind]. rewrite Sk, object_skip.
    cbn [length] in F. rewrite app_length in F. cbn [length] in F.
    rewrite IH by lia. cbn [bind]. do 3 f_equal. apply (object_fun kvs); [apply object_fold|exact O].
  - intros n w1 t w2 v W1 T IH W2 f d rest acc D F. destruct f as [|f]; [lia|].
    rewrite !app_length in F. rewrite <- !app_assoc. rewrite ?array_S; cbv zeta.
    rewrite IH; [|lia|lia|exact W1|apply ws_numeric; [exact W2|unfold numeric, digit; lia]].
    cbn [bind]. change (w2 ++ 93 :: rest) with (w2 ++ [93] ++ rest). rewrite consume_yes; [reflexivity|exact W2|cbn [app]; nospace].
  - intros n w1 t w2 v body vs W1 T IH W2 E IHE f d rest acc D F. destruct f as [|f]; [lia|].
    rewrite !app_length in F. cbn [length] in F. rewrite <- !app_assoc. rewrite ?array_S; cbv zeta; cbn [app].
    rewrite IH; [|lia|lia|exact W1|apply ws_numeric; [exact W2|unfold numeric, digit; lia]].
    cbn [bind]. rewrite consume_no; [|exact W2|nospace|intros r Q; discriminate Q]. cbn [bind].
    change (44 :: body ++ 93 :: rest) with ([] ++ [44] ++ body ++ 93 :: rest). rewrite must_yes; [|constructor|cbn [app]; nospace].
    cbn [bind]. rewrite IHE by lia. now rewrite <- app_assoc.
  - intros n w1 kt k w2 w3 t v w4 W1 C W2 W3 T IH W4 f d rest acc D F. destruct f as [|f]; [lia|].
    rewrite ?object_S; cbv zeta. rewrite <- app_assoc. cbn [app]. rewrite <- app_assoc. cbn [app].
    rewrite (parser_string_yes w1 kt k) by assumption. cbn [bind]. rewrite <- app_assoc. cbn [app].
    change (w2 ++ 58 :: (w3 ++ t ++ w4) ++ 125 :: rest) with (w2 ++ [58] ++ (w3 ++ t ++ w4) ++ 125 :: rest).
    rewrite must_yes; [|exact W2|cbn [app]; nospace]. cbn [bind]. rewrite <- !app_assoc.
    repeat (rewrite app_length in F; cbn [length] in F).
    rewrite IH; [|lia|lia|exact W3|apply ws_numeric; [exact W4|unfold numeric, digit; lia]].
    cbn [bind]. change (w4 ++ 125 :: rest) with (w4 ++ [125] ++ rest). rewrite consume_yes; [reflexivity|exact W4|cbn [app]; nospace].
  - intros n w1 kt k w2 w3 t v w4 body kvs W1 C W2 W3 T IH W4 M IHM f d rest acc D F. destruct f as [|f]; [lia|].
    rewrite ?object_S; cbv zeta. rewrite <- app_assoc. cbn [app]. rewrite <- app_assoc. cbn [app].
    rewrite (parser_string_yes w1 kt k) by assumption. cbn [bind]. rewrite <- app_assoc. cbn [app].
    match goal with |- context [must [58] (w2 ++ 58 :: ?x)] => change (w2 ++ 58 :: x) with (w2 ++ [58] ++ x) end.
    rewrite must_yes; [|exact W2|cbn [app]; nospace]. cbn [bind]. rewrite <- !app_assoc. cbn [app].
    repeat (rewrite app_length in F; cbn [length] in F).
    rewrite IH; [|lia|lia|exact W3|apply ws_numeric; [exact W4|unfold numeric, digit; lia]].
    cbn [bind]. rewrite consume_no; [|exact W4|nospace|intros r Q; discriminate Q]. cbn [bind].
    change (44 :: body ++ 125 :: rest) with ([] ++ [44] ++ body ++ 125 :: rest). rewrite must_yes; [|constructor|cbn [app]; nospace].
    cbn [bind]. rewrite IHM by lia. reflexivity.
Qed.

Theorem document_complete n s v : 0 < mx -> Z.of_nat n <= mx -> document n s v -> parse_with_depth mx s = Ok v.
Proof.
  intros M N (w1 & t & w2 & -> & W1 & T & W2). unfold parse_with_depth.
  destruct (Z.leb_spec mx 0); [lia|]. destruct complete_all as (K & _). specialize (K n t v T). unfold Pt in K.
  rewrite K; [|lia|rewrite !app_length; lia|exact W1|].
  - cbn [bind]. rewrite <- (app_nil_r w2), skip_ws; [reflexivity|exact W2|]. intros c r Q. discriminate Q.
  - intros c r Q. rewrite Q in W2. inversion W2 as [|? ? Z _]; subst. unfold space, numeric, digit in *. lia.
Qed.
End complete.

(** ** Soundness *)

Lemma parser_string_spec data : parser_string data = Throw \/
  exists w t s rest, data = w ++ 34 :: t ++ 34 :: rest /\ ws w /\ chars t s /\ parser_string data = Ok (s, rest).
Proof.
  unfold parser_string. destruct (must_spec [34] data) as [(w & r & -> & W & ->)| ->]; [|now left]. cbn [bind].
  destruct (string_sound (S (length r)) r []) as [->|(t & s & rest & -> & C & ->)]; [lia|now left|].
  right. exists w, t, s, rest. auto.
Qed.

Ltac lens := repeat (rewrite app_length in *; cbn [length] in * ).

Section sound.
Variable mx : Z.

Definition room (d : Z) : nat := Z.to_nat (mx - d).

Lemma room_S d : d + 1 <= mx -> room d = S (room (d + 1)).
Proof. unfold room. lia. Qed.

Lemma sound_all f :
  (forall d data, (2 * length data + 1 <= f)%nat ->
     parser_value mx f d data = Throw \/
     exists w t rest v, data = w ++ t ++ rest /\ ws w /\ text (room d) t v /\ parser_value mx f d data = Ok (v, rest)) /\
  (forall d data acc, (2 * length data + 2 <= f)%nat ->
     array_loop mx f d data acc = Throw \/
     exists body vs rest, data = body ++ 93 :: rest /\ elements (room d) body vs /\ array_loop mx f d data acc = Ok (acc ++ vs, rest)) /\
  (forall d data acc, (2 * length data + 2 <= f)%nat ->
     object_loop mx f d data acc = Throw \/
     exists body kvs rest, data = body ++ 125 :: rest /\ members (room d) body kvs /\
       object_loop mx f d data acc = Ok (fold_left (fun m kv => assign m (fst kv) (snd kv)) kvs acc, rest)).
Proof.
  induction f as [|f (IHv & IHa & IHo)].
  { split; [|split]; intros; lia. }
  split; [|split].
  - intros d data F. rewrite value_S; cbv zeta.
    destruct (skip_ws_spec data) as (w & E & W & N).
    pose proof (skip_ws_le data) as Len.
    set (s := skip_whitespace data) in *. clearbody s. subst data.
    destruct s as [|c r]; [now left|].
    destruct (Z.eqb_spec c 110) as [->|N110].
    { destruct (must_spec (bs "null") (110 :: r)) as [(w' & r' & E & W' & ->)| ->]; [|now left]. right. cbn [bind].
      exists w, (bs "null"), r', JNull. split; [|split; [exact W|split; [constructor|reflexivity]]].
      f_equal. destruct w' as [|x w']; [exact E|]. exfalso. cbn [app] in E. injection E as <- _. inversion W' as [|? ? Z _]; subst. unfold space in Z. lia. }
    destruct ((c =? 116) || (c =? 102)) eqn:Etf.
    { unfold parser_bool. rewrite skip_ws_id by exact N. destruct (zlen (c :: r) =? 0); [now left|].
      assert (NoW : forall w' (x : list Z), c :: r = w' ++ x -> ws w' -> w' = []).
      { intros w' x Q W'. destruct w' as [|y w']; [reflexivity|]. cbn [app] in Q. injection Q as Q _. subst y. inversion W' as [|? ? Z _]; subst. unfold space in Z. lia. }
      destruct (consume_spec (bs "true") (c :: r)) as [(w' & r' & E & W' & _ & ->)|(_ & ->)]; cbn [bind].
      - right. rewrite (NoW _ _ E W') in E. cbn [app] in E. exists w, (bs "true"), r', (JBool true). split; [now rewrite E|]. split; [exact W|]. split; [constructor|reflexivity].
      - rewrite skip_ws_id by exact N. destruct (consume_spec (bs "false") (c :: r)) as [(w' & r' & E & W' & _ & ->)|(_ & ->)]; cbn [bind]; [|now left].
        right. rewrite (NoW _ _ E W') in E. cbn [app] in E. exists w, (bs "false"), r', (JBool false). split; [now rewrite E|]. split; [exact W|]. split; [constructor|reflexivity]. }
    destruct (Z.eqb_spec c 34) as [->|N34].
    { destruct (parser_string_spec (34 :: r)) as [->|(w' & t & s & rest & E & W' & C & ->)]; [now left|]. right. cbn [bind].
      destruct w' as [|x w']; [|exfalso; cbn [app] in E; injection E as <- _; inversion W' as [|? ? Z _]; subst; unfold space in Z; lia].
      cbn [app] in E. injection E as ->.
      exists w, (34 :: t ++ [34]), rest, (JStr s). split; [cbn [app]; now rewrite <- app_assoc|]. split; [exact W|]. split; [now constructor|reflexivity]. }
    destruct (Z.eqb_spec c 91) as [->|N91].
    { destruct (Z.ltb_spec mx (d + 1)) as [|Dm]; [now left|].
      change (91 :: r) with ([] ++ [91] ++ r). rewrite must_yes; [|constructor|cbn [app]; nospace]. cbn [bind].
      destruct (consume_spec [93] r) as [(w' & r' & -> & W' & _ & ->)|(_ & ->)]; cbn [bind].
      - right. exists w, (91 :: w' ++ [93]), r', (JArr []). split; [cbn [app]; now rewrite <- app_assoc|]. split; [exact W|].
        split; [rewrite room_S by exact Dm; now constructor|reflexivity].
      - rewrite array_skip. lens. destruct (IHa (d + 1) r []) as [->|(body & vs & rest & -> & El & ->)]; [lia|now left|].
        right. cbn [bind]. exists w, (91 :: body ++ [93]), rest, (JArr vs). split; [cbn [app]; now rewrite <- app_assoc|]. split; [exact W|].
        split; [rewrite room_S by exact Dm; now constructor|reflexivity]. }
    destruct (Z.eqb_spec c 123) as [->|N123].
    { destruct (Z.ltb_spec mx (d + 1)) as [|Dm]; [now left|].
      change (123 :: r) with ([] ++ [123] ++ r). rewrite must_yes; [|constructor|cbn [app]; nospace]. cbn [bind].
      destruct (consume_spec [125] r) as [(w' & r' & -> & W' & _ & ->)|(_ & ->)]; cbn [bind].
      - right. exists w, (123 :: w' ++ [125]), r', (JObj []). split; [cbn [app]; now rewrite <- app_assoc|]. split; [exact W|].
        split; [rewrite room_S by exact Dm; now constructor|reflexivity].
      - rewrite object_skip. lens. destruct (IHo (d + 1) r []) as [->|(body & kvs & rest & -> & El & ->)]; [lia|now left|].
        right. cbn [bind]. exists w, (123 :: body ++ [125]), rest, (JObj (fold_left (fun m kv => assign m (fst kv) (snd kv)) kvs [])).
        split; [cbn [app]; now rewrite <- app_assoc|]. split; [exact W|].
        split; [rewrite room_S by exact Dm; apply (text_object _ _ kvs); [exact El|apply object_fold]|reflexivity]. }
    destruct (number_sound (c :: r)) as [->|(w' & t & rest & E & W' & Nt & _ & ->)]; [now left|]. right. cbn [bind].
    destruct w' as [|x w']; [|exfalso; cbn [app] in E; injection E as -> _; inversion W' as [|? ? Z _]; subst; now apply (N x r)].
    cbn [app] in E. exists w, t, rest, (JNum t). split; [now rewrite E|]. split; [exact W|]. split; [now constructor|reflexivity].
  - intros d data acc F. rewrite array_S; cbv zeta.
    destruct (IHv d data) as [->|(w & t & rest & v & -> & W & T & ->)]; [lia|now left|]. cbn [bind].
    destruct (consume_spec [93] rest) as [(w' & r' & -> & W' & _ & ->)|(_ & ->)]; cbn [bind].
    + right. exists (w ++ t ++ w'), [v], r'. split; [now rewrite <- !app_assoc|]. split; [now constructor|reflexivity].
    + destruct (must_spec [44] (skip_whitespace rest)) as [(w' & r' & E & W' & ->)| ->]; [|now left]. cbn [bind].
      destruct (skip_ws_spec rest) as (w2 & E2 & W2 & N2). rewrite E in E2.
      assert (w' = []) as ->. { destruct w' as [|x w']; [reflexivity|]. exfalso. rewrite E in N2. inversion W' as [|? ? Z _]; subst. now apply (N2 x (w' ++ [44] ++ r')). }
      cbn [app] in E2. clear E N2. subst rest.
      assert (Tl : (1 <= length t)%nat) by (destruct (text_start _ _ _ T) as (c & u & -> & _); cbn [length]; lia).
      lens. destruct (IHa d r' (acc ++ [v])) as [->|(body & vs & rest & -> & El & ->)]; [lia|now left|].
      right. exists (w ++ t ++ w2 ++ 44 :: body), (v :: vs), rest. split; [now rewrite <- !app_assoc|].
      split; [now constructor|]. now rewrite <- app_assoc.
  - intros d data acc F. rewrite object_S; cbv zeta.
    destruct (parser_string_spec data) as [->|(w & kt & k & r & -> & W & C & ->)]; [now left|]. cbn [bind].
    destruct (must_spec [58] r) as [(w2 & r2 & -> & W2 & ->)| ->]; [|now left]. cbn [bind].
   
    lens. destruct (IHv d r2) as [->|(w3 & t & rest & v & -> & W3 & T & ->)]; [lia|now left|]. cbn [bind].
    destruct (consume_spec [125] rest) as [(w' & r' & -> & W' & _ & ->)|(_ & ->)]; cbn [bind].
    + right. exists (w ++ 34 :: kt ++ 34 :: w2 ++ 58 :: w3 ++ t ++ w'), [(k, v)], r'.
      split; [repeat (rewrite <- app_assoc; cbn [app]); reflexivity|]. split; [now constructor|reflexivity].
    + destruct (must_spec [44] (skip_whitespace rest)) as [(w' & r' & E & W' & ->)| ->]; [|now left]. cbn [bind].
      destruct (skip_ws_spec rest) as (w4 & E2 & W4 & N2). rewrite E in E2.
      assert (w' = []) as ->. { destruct w' as [|x w']; [reflexivity|]. exfalso. rewrite E in N2. inversion W' as [|? ? Z _]; subst. now apply (N2 x (w' ++ [44] ++ r')). }
      cbn [app] in E2. clear E N2. subst rest.
      lens. destruct (IHo d r' (assign acc k v)) as [->|(body & kvs & rest & -> & El & ->)]; [lia|now left|].
      right. exists (w ++ 34 :: kt ++ 34 :: w2 ++ 58 :: w3 ++ t ++ w4 ++ 44 :: body), ((k, v) :: kvs), rest.
      split; [repeat (rewrite <- app_assoc; cbn [app]); reflexivity|]. split; [now constructor|reflexivity].
Qed.

(** Every input is accepted or thrown at; what is accepted is a document. *)
Theorem parse_sound s : parse_with_depth mx s = Throw \/
  exists v, parse_with_depth mx s = Ok v /\ document (Z.to_nat mx) s v.
Proof.
  unfold parse_with_depth. destruct (Z.leb_spec mx 0); [now left|].
  destruct (sound_all (2 * length s + 2)) as (K & _).
  destruct (K 0 s) as [->|(w & t & rest & v & -> & W & T & ->)]; [lia|now left|]. cbn [bind].
  destruct (skip_ws_spec rest) as (w2 & E & W2 & _).
  destruct (Z.eqb_spec (zlen (skip_whitespace rest)) 0) as [Q|]; cbn [negb]; [|now left].
  right. exists v. split; [reflexivity|]. apply zlen_0_nil in Q. rewrite Q, app_nil_r in E.
  exists w, t, rest. split; [reflexivity|]. split; [exact W|]. split; [|now rewrite E].
  unfold room in T. now rewrite Z.sub_0_r in T.
Qed.
End sound.

(** ** Serialising a value *)

Fixpoint json_rect' (P : json -> Prop) (Hn : P JNull) (Hb : forall b, P (JBool b)) (Hs : forall s, P (JStr s))
  (Ht : forall t, P (JNum t)) (Ha : forall l, Forall P l -> P (JArr l))
  (Ho : forall m, Forall (fun kv => P (snd kv)) m -> P (JObj m)) (v : json) : P v :=
  match v with
  | JNull => Hn
  | JBool b => Hb b
  | JStr s => Hs s
  | JNum t => Ht t
  | JArr l => Ha l ((fix go l := match l return Forall P l with
                                 | [] => Forall_nil _
                                 | v :: l => Forall_cons v (json_rect' P Hn Hb Hs Ht Ha Ho v) (go l)
                                 end) l)
  | JObj m => Ho m ((fix go m := match m return Forall (fun kv => P (snd kv)) m with
                                 | [] => Forall_nil _
                                 | kv :: m => Forall_cons kv (json_rect' P Hn Hb Hs Ht Ha Ho (snd kv)) (go m)
                                 end) m)
  end.

(** The inner loops, named. *)
Fixpoint ser_elements (l : list json) (result : list Z) : res (list Z) :=
  match l with
  | [] => Ok result
  | v :: rest =>
      element_v <- serialize_value v ;;
      let result := result ++ element_v in
      ser_elements rest (match rest with [] => result | _ => result ++ [44] end)
  end.

Fixpoint ser_entries (m : list (list Z * json)) (result : list Z) : res (list Z) :=
  match m with
  | [] => Ok result
  | (k, v) :: rest =>
      key_v <- serialize_string k ;;
      val_v <- serialize_value v ;;
      let result := result ++ key_v ++ [58] ++ val_v in
      ser_entries rest (match rest with [] => result | _ => result ++ [44] end)
  end.

Lemma serialize_arr l : serialize_value (JArr l) = (result <- ser_elements l [91] ;; Ok (result ++ [93])).
Proof. reflexivity. Qed.

Lemma serialize_obj m : serialize_value (JObj m) = (result <- ser_entries m [123] ;; Ok (result ++ [125])).
Proof. reflexivity. Qed.

Lemma utf8_valid_bytes s : valid_utf8 s -> bytes s.
Proof. induction 1; [constructor|]. apply Forall_bytes_app. split; [now apply utf8_bytes|assumption]. Qed.

Lemma serialize_string_valid s : valid_utf8 s -> exists t, serialize_string s = Ok (34 :: t ++ [34]) /\ chars t s.
Proof.
  intro V. destruct (serialize_string_ok s (utf8_valid_bytes s V)) as (t & u & E & R & C & _).
  rewrite (valid_repaired s V u R) in C. now exists t.
Qed.

(** What the members of an object written in order denote, when the keys are different. *)
Lemma last_value_in kvs k v : NoDup (map fst kvs) -> In (k, v) kvs -> last_value kvs k = Some v.
Proof.
  induction kvs as [|[a x] kvs IH]; intros N I; [destruct I|]. cbn [map fst] in N. apply NoDup_cons_iff in N as [Na Nk].
  cbn [last_value]. destruct I as [I|I].
  - injection I as -> ->. replace (last_value kvs k) with (@None json).
    + destruct (list_eq_dec Z.eq_dec k k); [reflexivity|contradiction].
    + symmetry. clear IH Nk. induction kvs as [|[b y] kvs IH]; [reflexivity|]. cbn [map fst] in Na. cbn [last_value].
      rewrite IH by (intro; apply Na; now right). destruct (list_eq_dec Z.eq_dec b k) as [->|]; [destruct Na; now left|reflexivity].
  - rewrite (IH Nk I). reflexivity.
Qed.

Lemma firsts_nodup ks : NoDup ks -> firsts ks = ks.
Proof.
  induction ks as [|k ks IH]; intro N; [reflexivity|]. apply NoDup_cons_iff in N as [Nk N]. cbn [firsts]. rewrite (IH N). f_equal.
  clear IH N. induction ks as [|a ks IH]; [reflexivity|]. cbn [filter]. destruct (list_eq_dec Z.eq_dec k a) as [->|]; [destruct Nk; now left|].
  rewrite IH; [reflexivity|]. intro; apply Nk; now right.
Qed.

Lemma object_nodup m : NoDup (map fst m) -> object m m.
Proof. intro N. split; [symmetry; now apply firsts_nodup|]. intros k v I. now apply last_value_in. Qed.

Lemma elements_single n t v : text n t v -> elements n t [v].
Proof. intro T. pose proof (elements_one n [] t [] v (Forall_nil _) T (Forall_nil _)) as K. cbn [app] in K. now rewrite app_nil_r in K. Qed.

Lemma elements_more n t v body vs : text n t v -> elements n body vs -> elements n (t ++ 44 :: body) (v :: vs).
Proof. intros T E. exact (elements_cons n [] t [] v body vs (Forall_nil _) T (Forall_nil _) E). Qed.

Theorem serialize_text v : proper v -> forall n, (depth v <= n)%nat -> exists t, serialize_value v = Ok t /\ text n t v.
Proof.
  induction v as [|b|s|t|l IH|m IH] using json_rect'; intros P n D.
  - exists (bs "null"). split; [reflexivity|constructor].
  - destruct b; eexists; (split; [reflexivity|constructor]).
  - destruct (serialize_string_valid s P) as (t & E & C). exists (34 :: t ++ [34]). split; [exact E|now constructor].
  - exists t. split; [reflexivity|now constructor].
  - cbn [depth] in D. destruct n as [|n]; [lia|]. apply le_S_n in D. rewrite serialize_arr. cbn [proper] in P.
    destruct l as [|v l].
    { exists (91 :: [] ++ [93]). split; [reflexivity|constructor; constructor]. }
    assert (K : forall acc, exists body, ser_elements (v :: l) acc = Ok (acc ++ body) /\ elements n body (v :: l)).
    { clear -IH P D. revert v IH P D. induction l as [|v' l IHl]; intros v IH P D acc;
        inversion IH as [|? ? Hv Hl]; subst; cbn [fold_right] in P, D; destruct P as [Pv Pl]; destruct (Hv Pv n ltac:(lia)) as (t & E & T).
      - exists t. cbn [ser_elements]. rewrite E. cbn [bind]. split; [reflexivity|now apply elements_single].
      - destruct (IHl v' Hl Pl ltac:(cbn [fold_right]; lia) ((acc ++ t) ++ [44])) as (body & E' & B).
        exists (t ++ 44 :: body). split; [|now apply elements_more].
        remember (v' :: l) as l' eqn:El. cbn [ser_elements]. rewrite E. cbn [bind]. cbv zeta. rewrite El in *. rewrite E'. now rewrite <- !app_assoc. }
    destruct (K [91]) as (body & E & B). rewrite E. cbn [bind]. exists (91 :: body ++ [93]). split; [reflexivity|now constructor].
  - cbn [depth] in D. destruct n as [|n]; [lia|]. apply le_S_n in D. rewrite serialize_obj. cbn [proper] in P. destruct P as (Nd & Vk & P).
    destruct m as [|[k v] m].
    { exists (123 :: [] ++ [125]). split; [reflexivity|constructor; constructor]. }
    assert (K : forall acc, exists body, ser_entries ((k, v) :: m) acc = Ok (acc ++ body) /\ members n body ((k, v) :: m)).
    { clear -IH P D Vk. revert k v IH P D Vk. induction m as [|[k' v'] m IHm]; intros k v IH P D Vk acc;
        inversion IH as [|? ? Hv Hl]; subst; cbn [fold_right snd] in P, D; destruct P as [Pv Pl]; cbn [snd] in Hv; destruct (Hv Pv n ltac:(lia)) as (t & E & T);
        cbn [map fst] in Vk; inversion Vk as [|? ? Vk1 Vk2]; subst; destruct (serialize_string_valid k Vk1) as (kt & Ek & C).
      - exists (34 :: kt ++ 34 :: 58 :: t). cbn [ser_entries]. rewrite Ek, E. cbn [bind app]. cbv zeta. rewrite <- app_assoc. cbn [app].
        split; [reflexivity|].
        pose proof (members_one n [] kt k [] [] t v [] (Forall_nil _) C (Forall_nil _) (Forall_nil _) T (Forall_nil _)) as K. cbn [app] in K. now rewrite app_nil_r in K.
      - destruct (IHm k' v' Hl Pl ltac:(cbn [fold_right snd]; lia) Vk2 ((acc ++ (34 :: kt ++ [34]) ++ [58] ++ t) ++ [44])) as (body & E' & B).
        exists (34 :: kt ++ 34 :: 58 :: t ++ 44 :: body). split.
        + remember ((k', v') :: m) as l' eqn:El. cbn [ser_entries]. rewrite Ek, E. cbn [bind]. cbv zeta. rewrite El in *. rewrite E'.
          repeat (rewrite <- app_assoc; cbn [app]). reflexivity.
        + exact (members_cons n [] kt k [] [] t v [] body _ (Forall_nil _) C (Forall_nil _) (Forall_nil _) T (Forall_nil _) B). }
    destruct (K [123]) as (body & E & B). rewrite E. cbn [bind]. exists (123 :: body ++ [125]). split; [reflexivity|].
    apply (text_object n body _ _ B). now apply object_nodup.
Qed.

(** ** Depth *)

Lemma depth_arr l n : (depth (JArr l) <= S n)%nat <-> forall v, In v l -> (depth v <= n)%nat.
Proof.
  cbn [depth]. induction l as [|v l IH]; cbn [fold_right].
  - split; [intros _ v []|lia].
  - split.
    + intros H u [<-|I]; [lia|]. apply IH; [lia|exact I].
    + intro H. pose proof (H v (or_introl eq_refl)). pose proof (proj2 IH (fun u I => H u (or_intror I))). lia.
Qed.

Lemma depth_obj m n : (depth (JObj m) <= S n)%nat <-> forall k v, In (k, v) m -> (depth v <= n)%nat.
Proof.
  cbn [depth]. induction m as [|[k v] l IH]; cbn [fold_right snd].
  - split; [intros _ k v []|lia].
  - split.
    + intros H k' u [Q|I]; [injection Q as <- <-; lia|]. apply (proj1 IH ltac:(lia) k' u I).
    + intro H. pose proof (H k v (or_introl eq_refl)). pose proof (proj2 IH (fun k' u I => H k' u (or_intror I))). lia.
Qed.

Lemma last_value_mem kvs k v : last_value kvs k = Some v -> In (k, v) kvs.
Proof.
  induction kvs as [|[a x] kvs IH]; cbn [last_value]; [discriminate|].
  destruct (last_value kvs k) as [y|]; [intro E; injection E as ->; right; auto|].
  destruct (list_eq_dec Z.eq_dec a k) as [->|]; [|discriminate]. intro E. injection E as ->. now left.
Qed.

Lemma text_depth :
  (forall n t v, text n t v -> (depth v <= n)%nat) /\
  (forall n t vs, elements n t vs -> forall v, In v vs -> (depth v <= n)%nat) /\
  (forall n t kvs, members n t kvs -> forall k v, In (k, v) kvs -> (depth v <= n)%nat).
Proof.
  apply text_elements_members; intros; try (cbn [depth fold_right]; lia).
  - now apply depth_arr.
  - apply depth_obj. intros k v I. destruct o as [_ V]. apply (H k v). now apply last_value_mem, V.
  - destruct H0 as [<-|[]]; assumption.
  - destruct H1 as [<-|]; auto.
  - destruct H0 as [Q|[]]; injection Q as <- <-; assumption.
  - destruct H1 as [Q|]; [injection Q as <- <-; assumption|eauto].
Qed.

Lemma text_mono :
  (forall n t v, text n t v -> forall n', (n <= n')%nat -> text n' t v) /\
  (forall n t vs, elements n t vs -> forall n', (n <= n')%nat -> elements n' t vs) /\
  (forall n t kvs, members n t kvs -> forall n', (n <= n')%nat -> members n' t kvs).
Proof.
  apply text_elements_members; intros;
    try (destruct n' as [|n']; [lia|]);
    try (econstructor; eauto; fail).
  all: try (constructor; auto; apply H; lia).
  all: try (eapply text_object; [apply H; lia|assumption]).
Qed.

Lemma document_fun n n' s v v' : document n s v -> document n' s v' -> v = v'.
Proof.
  intros (w1 & t & w2 & E & W1 & T & W2) (w1' & t' & w2' & E' & W1' & T' & W2').
  set (mx := Z.of_nat (S (Nat.max n n'))).
  assert (A : parse_with_depth mx s = Ok v) by (apply (document_complete mx n); [lia|lia|exists w1, t, w2; auto]).
  assert (B : parse_with_depth mx s = Ok v') by (apply (document_complete mx n'); [lia|lia|exists w1', t', w2'; auto]).
  congruence.
Qed.

Theorem parse_exact mx s v : 0 < mx -> parse_with_depth mx s = Ok v <-> document (Z.to_nat mx) s v.
Proof.
  intro M. split.
  - intro E. destruct (parse_sound mx s) as [Q|(v' & Q & D)]; [congruence|]. assert (v' = v) by congruence. now subst.
  - intro D. apply (document_complete mx (Z.to_nat mx)); [exact M|lia|exact D].
Qed.

Lemma text_document n t v : text n t v -> document n t v.
Proof. intro T. exists [], t, []. rewrite app_nil_r. repeat split; auto; constructor. Qed.
