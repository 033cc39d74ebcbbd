(** The chunked reader delivers the body. *)
From Verif Require Import Base Base_lemmas Strings_model Strings_spec Strings_proof Bufio_model Bufio_spec Bufio_proof Bufio_line_proof Bufio_end_proof Chunked_model Chunked_spec.

(** ** The inner reader *)

Lemma in_prefix (d : Z) b p x y : b ++ x = p ++ d :: y -> zlen p < zlen b -> In d b.
Proof.
  revert b. induction p as [|c p IH]; intros b E L.
  - destruct b as [|e b]; [rewrite zlen_nil in L; lia|]. cbn [app] in E. injection E as -> _. now left.
  - destruct b as [|e b]; [rewrite zlen_nil, zlen_cons in L; pose proof (zlen_nonneg p); lia|]. cbn [app] in E. injection E as -> E.
    right. apply IH; [exact E|]. rewrite !zlen_cons in L. lia.
Qed.

Lemma read_line_crlf rd m n l t : holds rd m n -> 0 < n -> quiet rd m -> pending rd m = l ++ crlf ++ t -> ~ In 10 l -> zlen l + 2 <= n ->
  exists rd' m', read_line rd = (rd', Ret l) /\ holds rd' m' n /\ quiet rd' m' /\ pending rd' m' = t.
Proof.
  intros H N Q P Ni L. pose proof Q as (St & Qe).
  assert (P2 : pending rd m = (l ++ [13]) ++ 10 :: t) by (rewrite P, <- app_assoc; reflexivity). clear P. rename P2 into P.
  assert (Ni2 : ~ In 10 (l ++ [13])) by (intro I; apply in_app_or in I as [I|[I|[]]]; [auto|lia]).
  assert (L2 : zlen (l ++ [13]) + 1 <= n) by (rewrite zlen_app, zlen_cons, zlen_nil; lia).
  assert (Eo : eof rd = false).
  { destruct (eof rd) eqn:Eo; [|reflexivity]. destruct (Qe eq_refl) as (Es & ->). unfold pending in P. rewrite Es in P. cbn in P. destruct l; discriminate. }
  unfold read_line. rewrite Eo. destruct (read_until rd 10) as [rd1 y] eqn:U.
  destruct (read_until_spec rd m n 10 H N _ _ U) as (bd & m' & -> & H' & P' & he & Sp & A & B).
  destruct (until_steady _ rd m n 10 false H N St ltac:(discriminate) _ _ U) as (St1 & Es1). specialize (Es1 Eo).
  destruct Sp as [p Ep Np|Nb Lb _|Nb ->].
  - rewrite Ep in *. rewrite P' in P. rewrite <- app_assoc in P. cbn [app] in P. apply split_unique in P as (-> & Pt); auto.
    assert (Z0 : eof rd1 && (zlen ((l ++ [13]) ++ [10]) =? 0) = false).
    { rewrite !zlen_app, !zlen_cons, zlen_nil. pose proof (zlen_nonneg l). replace (_ =? 0) with false by lia. apply andb_false_r. }
    rewrite Z0, chop_yes. exists rd1, m'. rewrite chop_yes. split; [reflexivity|]. split; [exact H'|]. split; [|exact Pt].
    split; [exact St1|]. intro E1. split; [now apply Es1|]. destruct he; [now apply A|]. rewrite (B eq_refl), Eo in E1. discriminate.
  - exfalso. apply Nb. rewrite P' in P. apply (in_prefix 10 _ _ _ _ P). lia.
  - exfalso. destruct (A eq_refl) as (-> & Ee). specialize (Es1 Ee). unfold pending at 2 in P'. rewrite Es1 in P'. cbn in P'. rewrite app_nil_r in P'.
    apply Nb. rewrite <- P', P. apply in_or_app. right. now left.
Qed.

Lemma read_some rd m n k : holds rd m n -> 0 < n -> 0 < k -> quiet rd m -> pending rd m <> [] ->
  exists rd' m' b, read rd k = (rd', Ret b) /\ b <> [] /\ zlen b <= k /\ holds rd' m' n /\ quiet rd' m' /\ pending rd m = b ++ pending rd' m'.
Proof.
  intros H N K Q P. pose proof Q as (St & Qe). destruct (read rd k) as [rd' x] eqn:E.
  destruct (read_spec rd m n k H N ltac:(lia) _ _ E) as (m' & H' & _ & X). destruct (read_steady rd m n k H N K St _ _ E) as (St' & Y).
  destruct x as [b|e|]; [| |contradiction].
  - exists rd', m', b. split; [reflexivity|]. destruct X as (Pb & Lb & _). split; [|split; [exact Lb|split; [exact H'|split; [|exact Pb]]]].
    + clear Pb Lb. pose proof (holds_len _ _ _ H) as (Lm & R0 & Wn). unfold read in E. destruct (Z.eqb_spec k 0); [lia|].
      assert (T : forall q m0, holds q m0 n -> m0 <> [] -> take q k = (rd', Ret b) -> b <> []).
      { intros q m0 Hq Ne Et. destruct (take_spec q m0 n k Hq ltac:(lia) _ _ Et) as (b' & m1 & Eb & _ & Lb & _). injection Eb as <-. intros ->.
        rewrite zlen_nil in Lb. destruct m0; [contradiction|]. rewrite zlen_cons in Lb. pose proof (zlen_nonneg m0). lia. }
      destruct (Z.eqb_spec (r rd) (w rd)) as [Q0|Q0].
      * destruct (Z.leb_spec (zlen (buf rd)) k).
        -- destruct (src_read (src rd) k) as [s a] eqn:S. injection E as <- ->. now apply src_read_steady in S as (_ & S); [|lia|exact St].
        -- cbn [buf src set_buf] in E. destruct (src_read (src rd) (zlen (buf rd))) as [s a] eqn:S. destruct H as (_ & _ & _ & _ & _ & Nn).
           destruct a as [b0|e|]; [|discriminate|discriminate]. pose proof S as S0. apply src_read_spec in S0 as (_ & Lb0 & _); [|lia].
           apply src_read_steady in S as (_ & S); [|lia|exact St].
           destruct b0 as [|c b0]; [contradiction|]. rewrite (zlen_cons c b0) in E. pose proof (zlen_nonneg b0). destruct (Z.eqb_spec (1 + zlen b0) 0); [lia|].
           destruct (put_front (buf rd) (c :: b0)) as (cc & Ec & Lc); [lia|]. apply (T _ (c :: b0)) in E; [exact E| |discriminate].
           exists [], cc. cbn [buf r w set_buf set_src app]. rewrite Ec, zlen_nil, <- (zlen_cons c b0). repeat split; auto; try (cbn [app] in *; lia).
      * apply (T rd m H); [|exact E]. intros ->. rewrite zlen_nil in Lm. lia.
    + exact (quiet_keep _ _ _ _ _ Q St' Y Pb).
  - exfalso. destruct Y as (-> & Es & _). apply P. unfold pending. rewrite Es. reflexivity.
Qed.

(** ** Size lines *)

Lemma trim_core cut a core b : Forall (fun t => t <> []) cut ->
  Forall (fun c => exists t, In (c :: t) cut) a -> Forall (fun c => exists t, In (c :: t) cut) b ->
  Forall (fun c => ~ exists t, In (c :: t) cut) core -> core <> [] -> trim (a ++ core ++ b) cut = Ok core.
Proof.
  intros Hc Fa Fb Fc Ne. destruct (trim_spec (a ++ core ++ b) cut Hc) as (a' & m & b' & -> & E & Fa' & Fb' & M1 & M2). f_equal.
  assert (X : forall (P : Z -> Prop) (x y u v : list Z), Forall P x -> Forall P u -> (forall c r, y = c :: r -> ~ P c) -> (forall c r, v = c :: r -> ~ P c) ->
     x ++ y = u ++ v -> y <> [] -> v <> [] -> x = u /\ y = v).
  { clear. intros P x. induction x as [|c x IH]; intros y u v Fx Fu Hy Hv E Ny Nv.
    - destruct u as [|d u]; [auto|]. cbn [app] in E. exfalso. apply Forall_inv in Fu. now apply (Hy _ _ E).
    - destruct u as [|d u]; cbn [app] in E.
      + exfalso. apply Forall_inv in Fx. now apply (Hv _ _ (eq_sym E)).
      + injection E as -> E. apply Forall_inv_tail in Fx, Fu. destruct (IH y u v) as (-> & ->); auto. }
  assert (Nm : m <> []).
  { intros ->. destruct core as [|c core]; [contradiction|]. inversion Fc as [|? ? Nc]; subst. apply Nc.
    assert (I : In c (a' ++ [] ++ b')) by (rewrite <- E; apply in_or_app; right; now left). cbn [app] in I. apply in_app_or in I as [I|I].
    - now apply (proj1 (Forall_forall _ _) Fa').
    - now apply (proj1 (Forall_forall _ _) Fb'). }
  apply (X (fun c => exists t, In (c :: t) cut)) in E as (_ & E); auto.
  - apply (f_equal (@rev Z)) in E. rewrite !rev_app_distr in E.
    apply (X (fun c => exists t, In (c :: t) cut)) in E as (_ & E).
    + rewrite <- (rev_involutive m), <- E. apply rev_involutive.
    + apply Forall_rev. exact Fb.
    + apply Forall_rev. exact Fb'.
    + intros c r Er. apply (f_equal (@rev Z)) in Er. rewrite rev_involutive in Er. cbn [rev] in Er. apply (proj1 (Forall_forall _ _) Fc). rewrite Er. apply in_or_app. right. now left.
    + intros c r Er. apply (f_equal (@rev Z)) in Er. rewrite rev_involutive in Er. cbn [rev] in Er. exact (M2 _ _ Er).
    + intro E0. apply (f_equal (@rev Z)) in E0. rewrite rev_involutive in E0. auto.
    + intro E0. apply (f_equal (@rev Z)) in E0. rewrite rev_involutive in E0. auto.
  - intros c r Er. destruct core as [|d core]; [contradiction|]. cbn [app] in Er. injection Er as -> _. inversion Fc; auto.
  - intros c r Er. destruct m as [|d m]; [contradiction|]. cbn [app] in Er. injection Er as -> _. exact (M1 _ _ eq_refl).
  - intro E0. apply app_eq_nil in E0 as (-> & _). contradiction.
  - intro E0. apply app_eq_nil in E0 as (-> & _). contradiction.
Qed.

Lemma hex_step_digit v c d : hex_digit c d -> 0 <= v -> 16 * v + d < 2 ^ 63 -> hex_step v c = 16 * v + d.
Proof.
  intros H V B. unfold hex_step.
  assert (D : 0 <= d < 16) by (unfold hex_digit in H; lia).
  assert (W : forall x, 0 <= x < 2 ^ 63 -> i64 x = x) by (intros x X; unfold i64, u64; lia).
  rewrite (W (v * 16)) by lia. destruct H as [(H & ->)|[(H & ->)|(H & ->)]].
  - replace ((48 <=? c) && (c <=? 57)) with true by lia. rewrite W; lia.
  - replace ((48 <=? c) && (c <=? 57)) with false by lia. replace ((97 <=? c) && (c <=? 102)) with true by lia. rewrite W; lia.
  - replace ((48 <=? c) && (c <=? 57)) with false by lia. replace ((97 <=? c) && (c <=? 102)) with false by lia. replace ((65 <=? c) && (c <=? 70)) with true by lia. rewrite W; lia.
Qed.

Lemma hex_text_pos s n : hex_text s n -> 0 <= n.
Proof. induction 1 as [|s n c d H IH D]; [lia|]. unfold hex_digit in D. lia. Qed.

Lemma hex_to_int_text s n : hex_text s n -> n < 2 ^ 63 -> hex_to_int s = n.
Proof.
  unfold hex_to_int. induction 1 as [|s n c d H IH D]; intro B; [reflexivity|]. pose proof (hex_text_pos s n H).
  rewrite fold_left_app. cbn [fold_left]. rewrite IH by (unfold hex_digit in D; lia). apply hex_step_digit; auto.
Qed.

Lemma hex_text_digits s n : hex_text s n -> Forall (fun c => exists d, hex_digit c d) s.
Proof. induction 1 as [|s n c d H IH D]; [constructor|]. apply Forall_app. split; [exact IH|]. constructor; [now exists d|constructor]. Qed.

Lemma find_single s x : (find s [x] = Ok (-1) /\ ~ In x s) \/ (exists p q, s = p ++ x :: q /\ ~ In x p /\ find s [x] = Ok (zlen p)).
Proof.
  destruct (find_spec s [x]) as (i & E & F); [discriminate|now left|]. rewrite E. destruct F as [((p & q & -> & L) & _ & M)|(-> & M)].
  - right. exists p, q. split; [reflexivity|]. split; [|now rewrite L]. intro I. apply in_split in I as (p1 & p2 & ->).
    specialize (M (zlen p1)). rewrite zlen_app, zlen_cons in L. pose proof (zlen_nonneg p2). pose proof (zlen_nonneg p1).
    assert (i <= zlen p1); [|lia]. apply M; [|lia]. exists p1, (p2 ++ [x] ++ q). split; [|reflexivity]. cbn [app]. now rewrite <- app_assoc.
  - left. split; [reflexivity|]. intro I. apply in_split in I as (p1 & p2 & ->). specialize (M (zlen p1)). pose proof (zlen_nonneg p1).
    assert (zlen p1 < 0); [|lia]. apply M. exists p1, p2. auto.
Qed.

Lemma size_line_size s n : size_line s n -> n < 2 ^ 63 -> size_of_line s = Ok n.
Proof.
  intros (a & digits & b & ext & -> & Ba & Bb & Nd & Hx & He & Nl) Bn. unfold size_of_line.
  pose proof (hex_text_digits _ _ Hx) as Hd.
  assert (Nsemi : ~ In 59 (a ++ digits ++ b)).
  { intro I. apply in_app_or in I as [I|I]; [|apply in_app_or in I as [I|I]].
    - apply (proj1 (Forall_forall _ _) Ba) in I. lia.
    - apply (proj1 (Forall_forall _ _) Hd) in I as (d & I). unfold hex_digit in I. lia.
    - apply (proj1 (Forall_forall _ _) Bb) in I. lia. }
  assert (T : trim (a ++ digits ++ b) [[32]; [9]] = Ok digits).
  { assert (K : forall c, (exists t, In (c :: t) [[32]; [9]]) <-> c = 32 \/ c = 9).
    { intro c. split; [intros (t & [E|[E|[]]]); injection E; auto|intros [-> | ->]; exists []; cbn; auto]. }
    apply trim_core; auto.
    - repeat constructor; discriminate.
    - eapply Forall_impl; [|exact Ba]. intros c H. now apply K.
    - eapply Forall_impl; [|exact Bb]. intros c H. now apply K.
    - eapply Forall_impl; [|exact Hd]. intros c (d & H) H'. apply K in H'. unfold hex_digit in H. lia. }
  destruct He as [->|(e & ->)].
  - rewrite app_nil_r in *. destruct (find_single (a ++ digits ++ b) 59) as [(-> & _)|(p & q & E & _)].
    + cbn [bind]. change (0 <? -1) with false. cbv iota. cbn [bind]. rewrite T. cbn [bind]. f_equal. now apply hex_to_int_text.
    + destruct Nsemi. rewrite E. apply in_or_app. right. now left.
  - replace (a ++ digits ++ b ++ 59 :: e) with ((a ++ digits ++ b) ++ 59 :: e) in * by (now rewrite <- !app_assoc).
    destruct (find_single ((a ++ digits ++ b) ++ 59 :: e) 59) as [(_ & N)|(p & q & E & Np & ->)].
    { destruct N. apply in_or_app. right. now left. }
    apply split_unique in E as (<- & <-); auto. set (h := a ++ digits ++ b) in *. cbn [bind].
    assert (0 < zlen h). { unfold h. rewrite !zlen_app. destruct digits; [contradiction|]. rewrite zlen_cons. pose proof (zlen_nonneg a). pose proof (zlen_nonneg b). pose proof (zlen_nonneg digits). lia. }
    replace (0 <? zlen h) with true by lia. cbv iota. 
    replace (slice (h ++ 59 :: e) 0 (zlen h)) with (Ok h).
    + cbn [bind]. rewrite T. cbn [bind]. f_equal. now apply hex_to_int_text.
    + symmetry. apply slice_head.
Qed.

(** ** The reader *)

(** Between two calls with nothing staged: [body] is still to be delivered, and [rest] follows the
    chunked body on the connection. *)
Inductive phase (limit : Z) (st rem : Z) (body wire : list Z) : Prop :=
| phase_size : st = 0 -> chunked limit body wire -> phase limit st rem body wire
| phase_data d b w : st = 1 -> d <> [] -> rem = zlen d -> body = d ++ b -> wire = d ++ crlf ++ w -> chunked limit b w -> phase limit st rem body wire
| phase_line w : st = 2 -> wire = crlf ++ w -> chunked limit body w -> phase limit st rem body wire
| phase_trailers : st = 3 -> body = [] -> trailers limit wire -> phase limit st rem body wire
| phase_done : st = 4 -> body = [] -> wire = [] -> phase limit st rem body wire.

Definition ready (c : creader) (body rest : list Z) (n k : Z) : Prop :=
  exists m wire, holds (br c) m n /\ quiet (br c) m /\ pending (br c) m = wire ++ rest /\
    phase n (state c) (remaining c) body wire /\ zlen (staging c) = k.

Lemma bytes_left_pending rd m n : holds rd m n -> bytes_left rd = length (pending rd m).
Proof.
  intro H. pose proof (holds_len _ _ _ H) as (Lm & R0 & Wn). unfold bytes_left, pending, stream. rewrite app_length. unfold zlen in Lm. lia.
Qed.

Lemma crlf_length : length crlf = 2%nat. Proof. reflexivity. Qed.

(** What a call that finds nothing staged does, whatever it asks for. *)
Lemma fill_ready f : forall c m wire body rest n k, 2 <= n -> 0 < k -> zlen body < 2 ^ 63 ->
  holds (br c) m n -> quiet (br c) m -> pending (br c) m = wire ++ rest -> phase n (state c) (remaining c) body wire -> zlen (staging c) = k ->
  (length wire + 1 < f)%nat ->
  (body = [] /\ exists c', fill_staging f c = (c', Exc true) /\ ready c' [] rest n k /\ state c' = 4 /\ s_r c' = s_r c /\ s_w c' = s_w c /\ bytes_left (br c') = length rest) \/
  (exists b body' c' z, body = b ++ body' /\ b <> [] /\ fill_staging f c = (c', Ret tt) /\ ready c' body' rest n k /\
     staging c' = b ++ z /\ s_r c' = 0 /\ s_w c' = zlen b).
Proof.
  induction f as [|f IH]; intros c m wire body rest n k N K Bb H Q P Ph Ls F; [lia|]. cbn [fill_staging].
  destruct Ph as [E0 C|d b w E1 Nd Er Eb Ew C|w E2 Ew C|E3 -> T|E4 -> Ew].
  - rewrite E0. change (0 =? 0) with true. cbv iota. destruct C as [s t Sz Ll T|s data body wire Sz Ll Nd C].
    + rewrite <- !app_assoc in P. pose proof Sz as (_ & _ & _ & _ & _ & _ & _ & _ & _ & _ & Ni).
      destruct (read_line_crlf (br c) m n s (t ++ rest) H ltac:(lia) Q P Ni Ll) as (rd' & m' & -> & H' & Q' & P').
      rewrite (size_line_size s 0 Sz) by lia. change (0 =? 0) with true. cbv iota.
      match goal with |- context [fill_staging f ?q] => set (c1 := q) end.
      destruct (IH c1 m' t [] rest n k N K Bb H' Q' P') as [(_ & c' & A)|(b & body' & c' & z & E & Nb & _)]; auto.
      * now apply phase_trailers.
      * rewrite !app_length, crlf_length in F. lia.
      * left. split; [reflexivity|]. exists c'. exact A.
      * destruct b; [contradiction|discriminate].
    + rewrite <- !app_assoc in P. pose proof Sz as (_ & _ & _ & _ & _ & _ & _ & _ & _ & _ & Ni).
      destruct (read_line_crlf (br c) m n s (data ++ crlf ++ wire ++ rest) H ltac:(lia) Q P Ni Ll) as (rd' & m' & -> & H' & Q' & P').
      assert (Pd : 0 < zlen data) by (destruct data; [contradiction|rewrite zlen_cons; pose proof (zlen_nonneg data); lia]).
      rewrite zlen_app in Bb. pose proof (zlen_nonneg body). rewrite (size_line_size s _ Sz) by lia.
      replace (zlen data =? 0) with false by lia. cbv iota.
      match goal with |- context [fill_staging f ?q] => set (c1 := q) end.
      apply (IH c1 m' (data ++ crlf ++ wire) (data ++ body) rest n k N K); auto.
      * rewrite zlen_app; lia.
      * now rewrite <- !app_assoc.
      * now apply (phase_data n _ _ _ _ data body wire).
      * rewrite !app_length in *. cbn [length crlf] in *. lia.
  - rewrite E1. change (1 =? 0) with false. change (1 =? 1) with true. cbv iota.
    assert (Pd : 0 < zlen d) by (destruct d; [contradiction|rewrite zlen_cons; pose proof (zlen_nonneg d); lia]).
    set (want := if zlen (staging c) <? remaining c then zlen (staging c) else remaining c).
    assert (W : 0 < want <= zlen d /\ want <= k) by (unfold want; destruct (Z.ltb_spec (zlen (staging c)) (remaining c)); lia). clearbody want.
    replace (want <? 0) with false by lia. cbv iota.
    destruct (read_some (br c) m n want H ltac:(lia) ltac:(lia) Q) as (rd' & m' & x & -> & Nx & Lx & H' & Q' & P').
    { rewrite P, Ew. destruct d; [contradiction|discriminate]. }
    assert (exists d', d = x ++ d') as (d' & ->).
    { rewrite P, Ew, <- app_assoc in P'. clear - P' Lx W. assert (Lxd : (length x <= length d)%nat) by (unfold zlen in *; lia). clear Lx W.
      revert x Lxd P'. induction d as [|a d IHd]; intros x L E.
      - destruct x; [now exists []|cbn [length] in L; lia].
      - destruct x as [|y x]; [now exists (a :: d)|]. cbn [app] in E. injection E as -> E. destruct (IHd x) as (d' & ->); [cbn [length] in L; lia|exact E|]. now exists d'. }
    right. subst body wire. rewrite <- !app_assoc in P. rewrite P in P'. apply app_inv_head in P'.
    destruct (put_front (staging c) x) as (z & Ez & Lz); [lia|].
    cbn [staging set_br set_staging remaining set_remaining]. rewrite Er.
    set (left := zlen (x ++ d') - zlen x). assert (El : left = zlen d') by (unfold left; rewrite zlen_app; lia). rewrite El.
    exists x, (d' ++ b). eexists _, z. split; [now rewrite <- app_assoc|]. split; [exact Nx|]. split; [reflexivity|].
    destruct (Z.eqb_spec (zlen d') 0) as [Z0|Z0].
    + cbn [staging set_br set_staging remaining set_remaining set_state s_r s_w]. split; [|auto].
      assert (d' = []) as -> by (destruct d'; [reflexivity|rewrite zlen_cons in Z0; pose proof (zlen_nonneg d'); lia]).
      exists m', (crlf ++ w). cbn [br state remaining staging set_br set_staging set_remaining set_state]. split; [exact H'|]. split; [exact Q'|].
      split; [rewrite <- app_assoc; now symmetry|]. split; [|rewrite Ez; lia]. now apply (phase_line n _ _ _ _ w).
    + cbn [staging set_br set_staging remaining set_remaining set_state s_r s_w]. split; [|auto].
      exists m', (d' ++ crlf ++ w). cbn [br state remaining staging set_br set_staging set_remaining set_state]. split; [exact H'|]. split; [exact Q'|].
      split; [rewrite <- !app_assoc; now symmetry|]. split; [|rewrite Ez; lia]. apply (phase_data n _ _ _ _ d' b w); auto. intros ->. now apply Z0.
  - rewrite E2. change (2 =? 0) with false. change (2 =? 1) with false. change (2 =? 2) with true. cbv iota.
    subst wire. rewrite <- app_assoc in P. destruct (read_line_crlf (br c) m n [] (w ++ rest) H ltac:(lia) Q P) as (rd' & m' & -> & H' & Q' & P').
    { intros []. }
    { rewrite zlen_nil. lia. }
    match goal with |- context [fill_staging f ?q] => set (c1 := q) end.
    apply (IH c1 m' w body rest n k N K); auto; [now apply phase_size|]. rewrite app_length, crlf_length in F. lia.
  - rewrite E3. change (3 =? 0) with false. change (3 =? 1) with false. change (3 =? 2) with false. change (3 =? 3) with true. cbv iota.
    assert (X : exists l t, wire = l ++ crlf ++ t /\ ~ In 10 l /\ (l = [] \/ zlen l + 2 <= n) /\ ((l = [] /\ t = []) \/ (l <> [] /\ trailers n t))).
    { destruct T as [|l t Nl Ni Ll T]; [exists [], []|exists l, t].
      - split; [reflexivity|]. split; [intros []|]. auto.
      - split; [reflexivity|]. split; [exact Ni|]. split; [now right|]. right. auto. }
    destruct X as (l & t & -> & Ni & Ll & Lt). rewrite <- !app_assoc in P.
    destruct (read_line_crlf (br c) m n l (t ++ rest) H ltac:(lia) Q P Ni) as (rd' & m' & -> & H' & Q' & P').
    { destruct Ll as [->|Ll]; [rewrite zlen_nil; lia|exact Ll]. }
    match goal with |- context [fill_staging f ?q] => set (c1 := q) end.
    destruct (IH c1 m' t [] rest n k N K Bb H' Q' P') as [(_ & c' & A)|(b & body' & c' & z & E & Nb & _)]; auto.
    + destruct Lt as [(-> & ->)|(Nl & T')]; [now apply phase_done|]. apply phase_trailers; auto. destruct l; [contradiction|reflexivity].
    + rewrite !app_length, crlf_length in F. lia.
    + left. split; [reflexivity|]. exists c'. exact A.
    + destruct b; [contradiction|discriminate].
  - rewrite E4. change (4 =? 0) with false. change (4 =? 1) with false. change (4 =? 2) with false. change (4 =? 3) with false. cbv iota.
    left. split; [reflexivity|]. exists c. split; [reflexivity|]. subst wire. cbn [app] in P. split; [|split; [exact E4|split; [reflexivity|split; [reflexivity|]]]].
    + exists m, []. split; [exact H|]. split; [exact Q|]. split; [exact P|]. split; [now apply phase_done|exact Ls].
    + now rewrite (bytes_left_pending _ _ _ H), P.
Qed.

Definition consume (c : creader) : creader := set_staging c (staging c) (s_w c) (s_w c).

Lemma cread_empty c body rest n k : 2 <= n -> 0 < k -> zlen body < 2 ^ 63 -> ready c body rest n k -> s_r c = s_w c ->
  (body = [] /\ exists c', ready c' [] rest n k /\ s_r c' = s_w c' /\ state c' = 4 /\ forall j, 0 < j -> cread c j = (c', Exc true)) \/
  (exists b body' c' z, body = b ++ body' /\ b <> [] /\ ready c' body' rest n k /\ staging c' = b ++ z /\ s_r c' = 0 /\ s_w c' = zlen b /\
     forall j, 0 < j -> cread c j = cread c' j).
Proof.
  intros N K Bb (m & wire & H & Q & P & Ph & Ls) Es. set (c0 := set_staging c (staging c) 0 0).
  assert (Bl : bytes_left (br c0) = length (wire ++ rest)) by (rewrite <- P; exact (bytes_left_pending (br c) m n H)).
  destruct (fill_ready (bytes_left (br c0) + 2) c0 m wire body rest n k N K Bb H Q P Ph Ls) as [(-> & c' & E & R & S4 & Sr & Sw & _)|(b & body' & c' & z & -> & Nb & E & R & Sz & Sr & Sw)].
  - rewrite Bl, app_length. lia.
  - left. split; [reflexivity|]. exists c'. split; [exact R|]. split; [rewrite Sr, Sw; reflexivity|]. split; [exact S4|]. intros j J. unfold cread. fold c0.
    replace (j =? 0) with false by lia. rewrite Es, Z.eqb_refl. cbv zeta iota. now rewrite E.
  - right. exists b, body', c', z. split; [reflexivity|]. split; [exact Nb|]. split; [exact R|]. split; [exact Sz|]. split; [exact Sr|]. split; [exact Sw|].
    intros j J. unfold cread at 1. fold c0. replace (j =? 0) with false by lia. rewrite Es, Z.eqb_refl. cbv zeta iota. rewrite E.
    unfold cread. replace (j =? 0) with false by lia. rewrite Sr, Sw. destruct b as [|x b]; [contradiction|]. rewrite zlen_cons. pose proof (zlen_nonneg b).
    replace (0 =? 1 + zlen b) with false by lia. cbv iota. now rewrite Sr, Sw, zlen_cons.
Qed.

Definition answers_as (c : creader) (pieces : list (list Z)) (rest : list Z) (ns : list Z) : Prop :=
  snd (creads c ns) = snd (sreads (map Data pieces) ns) /\
  (In (Exc true) (snd (creads c ns)) -> let rd := br (fst (creads c ns)) in unread rd ++ stream (src rd) = rest).

Definition like (c : creader) (pieces : list (list Z)) (rest : list Z) : Prop := forall ns, Forall (fun n => 0 < n) ns -> answers_as c pieces rest ns.

Lemma creads_cons c n ns : creads c (n :: ns) = (fst (creads (fst (cread c n)) ns), snd (cread c n) :: snd (creads (fst (cread c n)) ns)).
Proof. cbn [creads]. destruct (cread c n) as [c1 a]. cbn [fst snd]. now destruct (creads c1 ns). Qed.

Lemma sreads_cons s n ns : sreads s (n :: ns) = (fst (sreads (fst (src_read s n)) ns), snd (src_read s n) :: snd (sreads (fst (src_read s n)) ns)).
Proof. cbn [sreads]. destruct (src_read s n) as [c1 a]. cbn [fst snd]. now destruct (sreads c1 ns). Qed.

Lemma ready_done_pending c rest n k : ready c [] rest n k -> state c = 4 -> unread (br c) ++ stream (src (br c)) = rest.
Proof.
  intros (m & wire & H & Q & P & Ph & _) S4. unfold unread. rewrite (holds_sub _ _ _ H). fold (pending (br c) m). rewrite P.
  destruct Ph as [E| ? ? ? E|? E|E|E _ ->]; try (rewrite S4 in E; discriminate). reflexivity.
Qed.

Lemma like_done_4 ns : forall c rest n k, 2 <= n -> 0 < k -> ready c [] rest n k -> s_r c = s_w c -> state c = 4 -> Forall (fun n => 0 < n) ns ->
  answers_as c [] rest ns /\ unread (br (fst (creads c ns))) ++ stream (src (br (fst (creads c ns)))) = rest.
Proof.
  induction ns as [|j ns IH]; intros c rest n k N K R Es S4 F.
  - split; [|exact (ready_done_pending _ _ _ _ R S4)]. split; [reflexivity|intros []].
  - inversion F as [|? ? J F']; subst. destruct (cread_empty c [] rest n k N K ltac:(rewrite zlen_nil; lia) R Es) as [(_ & c' & R' & Es' & S4' & E)|(b & body' & c' & z & E & Nb & _)];
      [|destruct b; [contradiction|discriminate]].
    destruct (IH c' rest n k N K R' Es' S4' F') as ((A & B) & C). unfold answers_as. rewrite creads_cons, sreads_cons, (E j J). cbn [fst snd map src_read].
    split; [|exact C]. split; [now f_equal|]. intros _. exact C.
Qed.

Lemma like_done c rest n k : 2 <= n -> 0 < k -> ready c [] rest n k -> s_r c = s_w c -> like c [] rest.
Proof.
  intros N K R Es ns F. destruct ns as [|j ns]; [split; [reflexivity|intros []]|].
  inversion F as [|? ? J F']; subst. destruct (cread_empty c [] rest n k N K ltac:(rewrite zlen_nil; lia) R Es) as [(_ & c' & R' & Es' & S4' & E)|(b & body' & c' & z & E & Nb & _)];
    [|destruct b; [contradiction|discriminate]].
  destruct (like_done_4 ns c' rest n k N K R' Es' S4' F') as ((A & B) & C). unfold answers_as. rewrite creads_cons, sreads_cons, (E j J). cbn [fst snd map src_read].
  split; [now f_equal|]. intros _. exact C.
Qed.

Lemma like_staged ns : forall c p x z pieces rest, x <> [] -> staging c = p ++ x ++ z -> s_r c = zlen p -> s_w c = zlen p + zlen x ->
  like (consume c) pieces rest -> Forall (fun n => 0 < n) ns -> answers_as c (x :: pieces) rest ns.
Proof.
  induction ns as [|j ns IH]; intros c p x z pieces rest Nx Es Er Ew L F; [split; [reflexivity|intros []]|].
  inversion F as [|? ? J F']; subst. unfold answers_as. rewrite creads_cons, sreads_cons.
  assert (Px : 0 < zlen x) by (destruct x; [contradiction|rewrite zlen_cons; pose proof (zlen_nonneg x); lia]).
  assert (C : cread c j = (set_staging c (staging c) (s_r c + Z.min j (zlen x)) (s_w c), Ret (firstn (Z.to_nat (Z.min j (zlen x))) x))).
  { unfold cread. replace (j =? 0) with false by lia. rewrite Er, Ew. replace (zlen p =? zlen p + zlen x) with false by lia. cbv iota. rewrite Er, Ew.
    replace (zlen p + zlen x - zlen p) with (zlen x) by lia.
    replace (if zlen x <? j then zlen x else j) with (Z.min j (zlen x)) by (destruct (Z.ltb_spec (zlen x) j); lia).
    do 2 f_equal. rewrite Es. set (i := Z.min j (zlen x)).
    assert (Bi : 0 <= i <= zlen x) by lia. clearbody i. assert (Li : zlen (firstn (Z.to_nat i) x) = i) by (unfold zlen in *; rewrite firstn_length; lia).
    rewrite <- (firstn_skipn (Z.to_nat i) x) at 1. rewrite <- app_assoc. rewrite <- Li at 3. apply sub_list_mid. }
  rewrite C. cbn [fst snd map src_read]. destruct (Z.leb_spec (zlen x) j) as [G|G]; cbn [fst snd].
  - replace (Z.min j (zlen x)) with (zlen x) by lia. replace (set_staging c (staging c) (s_r c + zlen x) (s_w c)) with (consume c) by (unfold consume; f_equal; lia).
    destruct (L ns F') as (A & B). split; [|intros [D|D]; [discriminate|now apply B]].
    rewrite A. f_equal. f_equal. unfold zlen. rewrite Nat2Z.id. apply firstn_all.
  - replace (Z.min j (zlen x)) with j by lia. 
    destruct (IH (set_staging c (staging c) (s_r c + j) (s_w c)) (p ++ firstn (Z.to_nat j) x) (skipn (Z.to_nat j) x) z pieces rest) as (A & B); auto.
    + intro E0. apply (f_equal (@length Z)) in E0. rewrite skipn_length in E0. cbn [length] in E0. unfold zlen in *. lia.
    + cbn [staging set_staging]. rewrite Es. rewrite <- app_assoc. f_equal. rewrite app_assoc, firstn_skipn. reflexivity.
    + cbn [s_r set_staging]. rewrite zlen_app, Er. f_equal. unfold zlen in *. rewrite firstn_length. lia.
    + cbn [s_w set_staging]. rewrite zlen_app, Ew. unfold zlen in *. rewrite firstn_length, skipn_length. lia.
    + split; [|intros [D|D]; [discriminate|now apply B]]. cbn [map] in A. now rewrite A.
Qed.

Lemma like_ready j : forall c body rest n k, 2 <= n -> 0 < k -> zlen body < 2 ^ 63 -> (length body <= j)%nat -> ready c body rest n k -> s_r c = s_w c ->
  exists pieces, Forall (fun b => b <> []) pieces /\ concat pieces = body /\ like c pieces rest.
Proof.
  induction j as [|j IH]; intros c body rest n k N K Bb Lb R Es.
  - destruct body; [|cbn [length] in Lb; lia]. exists []. split; [constructor|]. split; [reflexivity|]. exact (like_done c rest n k N K R Es).
  - destruct (cread_empty c body rest n k N K Bb R Es) as [(-> & _)|(b & body' & c' & z & -> & Nb & R' & Sz & Sr & Sw & E)].
    + exists []. split; [constructor|]. split; [reflexivity|]. exact (like_done c rest n k N K R Es).
    + rewrite zlen_app in Bb. pose proof (zlen_nonneg b). rewrite app_length in Lb. assert (0 < length b)%nat by (destruct b; [contradiction|cbn [length]; lia]).
      destruct (IH (consume c') body' rest n k N K ltac:(lia) ltac:(lia) R' eq_refl) as (pieces & Fp & Cp & L).
      exists (b :: pieces). split; [now constructor|]. split; [cbn [concat]; now rewrite Cp|].
      intros ns F. destruct ns as [|i ns]; [split; [reflexivity|intros []]|].
      pose proof (like_staged (i :: ns) c' [] b z pieces rest Nb Sz Sr Sw L F) as (A & B).
      inversion F as [|? ? I F']; subst. unfold answers_as. rewrite creads_cons, (E i I), <- creads_cons. split; assumption.
Qed.

Lemma new_ready s body wire rest n k : steady s -> stream s = wire ++ rest -> chunked (Z.of_nat n) body wire ->
  ready (new_chunked k (new_reader n s)) body rest (Z.of_nat n) (Z.of_nat k).
Proof.
  intros St E C. exists [], wire. split; [apply new_holds|]. split; [split; [exact St|discriminate]|]. split; [exact E|]. split; [now apply phase_size|].
  cbn [staging new_chunked]. unfold zlen. now rewrite repeat_length.
Qed.

Lemma sreads_delivers ns : forall pieces, Forall (fun b => b <> []) pieces -> Forall (fun n => 0 < n) ns -> delivers (concat pieces) ns (snd (sreads (map Data pieces) ns)).
Proof.
  induction ns as [|n ns IH]; intros pieces Fp F; [constructor|]. inversion F as [|? ? N F']; subst. rewrite sreads_cons.
  destruct pieces as [|b pieces]; cbn [map src_read fst snd concat].
  - constructor. apply (IH []); auto.
  - inversion Fp as [|? ? Nb Fp']; subst. destruct (Z.leb_spec (zlen b) n); cbn [fst snd].
    + constructor; auto.
    + rewrite <- (firstn_skipn (Z.to_nat n) b) at 1. rewrite <- app_assoc. apply delivers_piece.
      * intro E0. apply (f_equal (@length Z)) in E0. rewrite firstn_length in E0. cbn [length] in E0. unfold zlen in *. lia.
      * unfold zlen in *. rewrite firstn_length. lia.
      * change (Data (skipn (Z.to_nat n) b) :: map Data pieces) with (map Data (skipn (Z.to_nat n) b :: pieces)).
        change (skipn (Z.to_nat n) b ++ concat pieces) with (concat (skipn (Z.to_nat n) b :: pieces)). apply IH; [|exact F'].
        constructor; [|exact Fp']. intro E0. apply (f_equal (@length Z)) in E0. rewrite skipn_length in E0. cbn [length] in E0. unfold zlen in *. lia.
Qed.

(** ** text *)

Lemma text_loop_reads f : forall c pieces rest got, like c pieces rest -> Forall (fun b => b <> []) pieces -> (length (concat pieces) < f)%nat ->
  text_loop f c got = Ret (got ++ concat pieces).
Proof.
  induction f as [|f IH]; intros c pieces rest got L Fp F; [lia|]. cbn [text_loop].
  pose proof (L [4096] ltac:(repeat constructor; lia)) as (A & _). cbn [creads sreads] in A. destruct (cread c 4096) as [c' a] eqn:E.
  assert (L' : like c' (match pieces with [] => [] | b :: ps => if zlen b <=? 4096 then ps else skipn (Z.to_nat 4096) b :: ps end) rest).
  { intros ns Fn. pose proof (L (4096 :: ns) ltac:(constructor; [lia|exact Fn])) as (B1 & B2). rewrite creads_cons, E in B1, B2. rewrite sreads_cons in B1. cbn [fst snd] in B1, B2.
    split.
    - injection B1 as _ B1. rewrite B1. destruct pieces as [|b ps]; [reflexivity|]. cbn [map src_read]. destruct (zlen b <=? 4096); reflexivity.
    - intro I. apply B2. now right. }
  destruct pieces as [|b ps]; cbn [map src_read] in A.
  - cbn [snd] in A. injection A as ->. cbn [concat]. now rewrite app_nil_r.
  - inversion Fp as [|? ? Nb Fp']; subst. cbn [concat] in F. rewrite app_length in F. assert (0 < length b)%nat by (destruct b; [contradiction|cbn [length]; lia]).
    destruct (Z.leb_spec (zlen b) 4096) as [G|G]; cbn [snd] in A; injection A as ->.
    + rewrite (IH c' ps rest (got ++ b) L' Fp'); [|lia]. cbn [concat]. now rewrite <- app_assoc.
    + rewrite (IH c' _ rest _ L').
      * cbn [concat]. rewrite <- (firstn_skipn (Z.to_nat 4096) b) at 3. now rewrite <- !app_assoc.
      * constructor; [|exact Fp']. intro E0. apply (f_equal (@length Z)) in E0. rewrite skipn_length in E0. cbn [length] in E0. unfold zlen in *. lia.
      * cbn [concat]. rewrite app_length, skipn_length. unfold zlen in *. lia.
Qed.

Lemma chunked_length limit body wire : chunked limit body wire -> (length body <= length wire)%nat.
Proof. induction 1 as [s t _ _ _|s data body wire _ _ _ _ IH]; rewrite ?app_length in *; cbn [length] in *; lia. Qed.

Lemma text_ready rd m n k body wire rest : holds rd m n -> 2 <= n -> quiet rd m -> (0 < k)%nat -> pending rd m = wire ++ rest -> chunked n body wire ->
  zlen body < 2 ^ 63 -> text_chunked (new_chunked k rd) = Ret body.
Proof.
  intros H N Q K P C B.
  assert (R : ready (new_chunked k rd) body rest n (Z.of_nat k)).
  { exists m, wire. cbn [br new_chunked state remaining staging]. split; [exact H|]. split; [exact Q|]. split; [exact P|]. split; [now apply phase_size|].
    unfold zlen. now rewrite repeat_length. }
  destruct (like_ready (length body) _ body rest n (Z.of_nat k) N ltac:(lia) B ltac:(lia) R eq_refl) as (pieces & Fp & Ep & L).
  unfold text_chunked. rewrite (text_loop_reads _ _ pieces rest [] L Fp); [now rewrite Ep|].
  rewrite Ep. apply chunked_length in C. cbn [br new_chunked]. rewrite (bytes_left_pending _ _ _ H), P, app_length. lia.
Qed.
