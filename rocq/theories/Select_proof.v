(** Proofs about select. *)
From Verif Require Import Base Select_model Select_spec.
Local Open Scope Z_scope.

Lemma default_flag : forall cs, existsb is_default cs = has_default cs.
Proof. reflexivity. Qed.

Lemma some_pair : forall A B (a c : A) (b d : B), Some (a, b) = Some (c, d) -> a = c /\ b = d.
Proof. intros A B a c b d [= -> ->]. auto. Qed.

Section proof.
  Context {W : Type}.
  Variable ev : nat -> @ext W -> @ext W * word.
  Variable bd : nat -> @ext W -> @ext W * bool.
  Variable rt : list (word * place) -> Z -> Z -> bool -> @ext W -> ended (@ext W).
  Notation exec := (exec ev bd rt).
  Notation offers := (offers ev).

  Definition steps (prog r1 : list op) (s1 : state) (r2 : list op) (s2 : state) : Prop :=
    exists k, forall f, exec (k + f) prog r1 s1 = exec f prog r2 s2.
  Lemma steps_refl : forall prog r s, steps prog r s r s.
  Proof. intros. exists 0%nat. reflexivity. Qed.
  Lemma steps_trans : forall prog r1 s1 r2 s2 r3 s3,
    steps prog r1 s1 r2 s2 -> steps prog r2 s2 r3 s3 -> steps prog r1 s1 r3 s3.
  Proof.
    intros prog r1 s1 r2 s2 r3 s3 [k1 H1] [k2 H2]. exists (k1 + k2)%nat. intros f.
    rewrite <- Nat.add_assoc, H1. apply H2.
  Qed.
  Lemma steps_1 : forall prog r1 s1 r2 s2,
    (forall f, exec (S f) prog r1 s1 = exec f prog r2 s2) -> steps prog r1 s1 r2 s2.
  Proof. intros prog r1 s1 r2 s2 H. exists 1%nat. exact H. Qed.

  (** * expressions *)
  Definition same_below (n : nat) (s s' : @state W) : Prop := forall u, (u < n)%nat -> tmps s' u = tmps s u.
  Definition under (n : nat) (o : operand) : Prop := match o with OTmp t => (t < n)%nat | _ => True end.

  Lemma expr_ok : forall e n code o n', linear_expr e n = (code, o, n') -> forall prog post s,
    exists s', steps prog (code ++ post) s post s' /\ (n <= n')%nat /\ under n' o /\ same_below n s s'
      /\ arr s' = arr s /\ env s' = fst (value ev e (env s)) /\ get s' o = snd (value ev e (env s)).
  Proof.
    intros e n code o n' E prog post s. destruct e as [x|z|e]; cbn in E; injection E as <- <- <-.
    - exists s. cbn. repeat split; auto using steps_refl. 
    - exists s. cbn. repeat split; auto using steps_refl.
    - exists (set_tmp (set_env s (fst (ev e (env s)))) n (snd (ev e (env s)))). split; [|repeat split].
      + apply steps_1. intros f. cbn. destruct (ev e (env s)). reflexivity.
      + auto.
      + cbn. auto.
      + intros u Hu. cbn. destruct (Nat.eqb_spec u n); [lia|reflexivity].
      + cbn. now rewrite Nat.eqb_refl.
  Qed.

  (** where the message of an operand is once its address is taken *)
  Definition place_of (s : @state W) (o : operand) : place :=
    match o with OVar x => PVar x | OTmp t => PVal (tmps s t) | OImm z => PVal (WInt z) end.
  Lemma lea_ok : forall o n code p n', lea_operand_pointer o n = (code, p, n') -> forall prog post s, under n o ->
    exists s', steps prog (code ++ post) s post s' /\ (n <= n')%nat /\ same_below n s s'
      /\ arr s' = arr s /\ env s' = env s /\ deref s' (get s' p) = Some (place_of s o)
      /\ (forall t, get s' p = WTmp t -> (t < n')%nat).
  Proof.
    intros o n code p n' E prog post s U. destruct o as [x|t|z]; cbn in E; injection E as <- <- <-.
    - exists (set_tmp s n (WVar x)). split; [apply steps_1; intros f; reflexivity|].
      repeat split; cbn; auto.
      + intros u Hu. cbn. destruct (Nat.eqb_spec u n); [lia|reflexivity].
      + now rewrite Nat.eqb_refl.
      + rewrite Nat.eqb_refl. discriminate.
    - exists (set_tmp s n (WTmp t)). split; [apply steps_1; intros f; reflexivity|]. cbn in U.
      repeat split; cbn; auto.
      + intros u Hu. cbn. destruct (Nat.eqb_spec u n); [lia|reflexivity].
      + rewrite Nat.eqb_refl. cbn. destruct (Nat.eqb_spec t n); [lia|reflexivity].
      + rewrite Nat.eqb_refl. intros t' [= <-]. lia.
    - exists (set_tmp (set_tmp s n (WInt z)) (S n) (WTmp n)). split; [|repeat split].
      + eapply steps_trans; apply steps_1; intros f; reflexivity.
      + lia.
      + intros u Hu. cbn. destruct (Nat.eqb_spec u (S n)); [lia|]. destruct (Nat.eqb_spec u n); [lia|reflexivity].
      + cbn [get set_tmp tmps]. rewrite Nat.eqb_refl. cbn. 
        destruct (Nat.eqb_spec n (S n)); [lia|]. now rewrite Nat.eqb_refl.
      + cbn. rewrite Nat.eqb_refl. intros t' [= <-]. lia.
  Qed.

  (** * filling the array *)
  Definition holds (s : @state W) (b : nat) (off : Z) (o : offer) : Prop :=
    arr s off = o_chan o /\ deref s (arr s (off + 8)) = Some (o_place o)
    /\ (forall t, arr s (off + 8) = WTmp t -> (t < b)%nat).
  Lemma holds_mono : forall s s' b b' off o, holds s b off o -> same_below b s s' -> (b <= b')%nat ->
    arr s' off = arr s off -> arr s' (off + 8) = arr s (off + 8) -> holds s' b' off o.
  Proof.
    intros s s' b b' off o (H1 & H2 & H3) Hs Hb E1 E2. split; [congruence|]. rewrite E2. split.
    - destruct (arr s (off + 8)) as [z|x|t] eqn:E; cbn in *; auto. now rewrite Hs by auto.
    - intros t E. specialize (H3 t E). lia.
  Qed.

  Definition live (cs : list scase) (d : bool) : nat :=
    (fix go cs := match cs with [] => 0%nat | c :: cs =>
       if is_default c then 0%nat else ((if Bool.eqb (is_recv c) d then 1 else 0) + go cs)%nat end) cs.
  Lemma live_cons : forall c cs d, live (c :: cs) d =
    if is_default c then 0%nat else ((if Bool.eqb (is_recv c) d then 1 else 0) + live cs d)%nat.
  Proof. reflexivity. Qed.

  (** one step of offers *)
  Definition offer1 (c : scase) (x : ext) : @ext W * offer :=
    let '(x, ch) := value ev (chan c) x in
    let '(x, p) := if is_recv c then (x, match recv_var c with Some y => PVar y | None => PNull end)
                   else message ev (msg c) x in
    (x, mk_offer (is_recv c) ch p (body c)).
  Lemma offers_cons : forall c cs x, offers (c :: cs) x =
    if is_default c then (x, []) else
      (fst (offers cs (fst (offer1 c x))), snd (offer1 c x) :: snd (offers cs (fst (offer1 c x)))).
  Proof.
    intros c cs x. cbn. destruct (is_default c); auto. unfold offer1.
    destruct (value ev (chan c) x) as [x1 ch].
    destruct (if is_recv c then _ else message ev (msg c) x1) as [x2 p]. cbn.
    now destruct (offers cs x2).
  Qed.
  Lemma offer1_recv : forall c x, o_recv (snd (offer1 c x)) = is_recv c.
  Proof.
    intros. unfold offer1. destruct (value ev (chan c) x) as [x1 ch].
    destruct (if is_recv c then _ else message ev (msg c) x1) as [x2 p]. reflexivity.
  Qed.
  Lemma offer1_body : forall c x, o_body (snd (offer1 c x)) = body c.
  Proof.
    intros. unfold offer1. destruct (value ev (chan c) x) as [x1 ch].
    destruct (if is_recv c then _ else message ev (msg c) x1) as [x2 p]. reflexivity.
  Qed.
  Lemma sends_len : forall cs x, length (sends (snd (offers cs x))) = live cs false.
  Proof.
    induction cs as [|c cs IH]; intros x; auto. rewrite offers_cons, live_cons.
    destruct (is_default c); auto. cbn [snd sends filter]. unfold sends in *. cbn [filter].
    rewrite offer1_recv. destruct (is_recv c); cbn; now rewrite IH.
  Qed.
  Lemma recvs_len : forall cs x, length (recvs (snd (offers cs x))) = live cs true.
  Proof.
    induction cs as [|c cs IH]; intros x; auto. rewrite offers_cons, live_cons.
    destruct (is_default c); auto. cbn [snd]. unfold recvs in *. cbn [filter].
    rewrite offer1_recv. destruct (is_recv c); cbn; now rewrite IH.
  Qed.

  (** the code of one case *)
  Definition code1 (c : scase) (off : Z) (n : nat) : list op * nat :=
    let decl := match recv_var c with Some x => [NopDef x] | None => [] end in
    let '(cc, oc, n1) := linear_expr (chan c) n in
    if is_recv c then
      let '(cp, p, n2) := match recv_var c with Some x => lea_operand_pointer (OVar x) n1 | None => ([], OImm 0, n1) end in
      (decl ++ cc ++ [Store off oc] ++ cp ++ [Store (off + ptr_size) p], n2)
    else
      let '(cm, om, n2) := linear_expr (msg c) n1 in
      let '(cp, p, n3) := lea_operand_pointer om n2 in
      (decl ++ cc ++ [Store off oc] ++ cm ++ cp ++ [Store (off + ptr_size) p], n3).
  Lemma fill_cons : forall i c cs so ro map n, fill i (c :: cs) so ro map n =
    if is_default c then ([], map, n) else
    let off := if is_recv c then ro else so in
    let r := fill (S i) cs (if is_recv c then so else so + 16) (if is_recv c then ro + 16 else ro)
               (list_set map (Z.to_nat (off / 16)) i) (snd (code1 c off n)) in
    (fst (code1 c off n) ++ fst (fst r), snd (fst r), snd r).
  Proof.
    intros. cbn [fill]. destruct (is_default c); auto. unfold code1.
    destruct (linear_expr (chan c) n) as [[cc oc] n1]. destruct (is_recv c).
    - destruct (match recv_var c with Some x => _ | None => _ end) as [[cp p] n2]. cbn [fst snd].
      change (ptr_size * 2) with 16. replace (ro + ptr_size + ptr_size) with (ro + 16) by (unfold ptr_size; lia).
      destruct (fill _ _ _ _ _ _) as [[rest m'] n3]. cbn [fst snd]. now rewrite <- !app_assoc.
    - destruct (linear_expr (msg c) n1) as [[cm om] n2]. destruct (lea_operand_pointer om n2) as [[cp p] n3]. cbn [fst snd].
      change (ptr_size * 2) with 16. replace (so + ptr_size + ptr_size) with (so + 16) by (unfold ptr_size; lia).
      destruct (fill _ _ _ _ _ _) as [[rest m'] n4]. cbn [fst snd]. now rewrite <- !app_assoc.
  Qed.

  Lemma same_trans : forall n m s1 s2 s3, (n <= m)%nat -> same_below n s1 s2 -> same_below m s2 s3 -> same_below n s1 s3.
  Proof. intros n m s1 s2 s3 H H1 H2 u Hu. rewrite H2 by lia. auto. Qed.

  Lemma decl_ok : forall (v : option nat) prog post s,
    steps prog (match v with Some x => [NopDef x] | None => [] end ++ post) s post s.
  Proof. intros [x|] prog post s; [apply steps_1; reflexivity|apply steps_refl]. Qed.
  Lemma store_ok : forall off o prog post s, steps prog ([Store off o] ++ post) s post (set_arr s off (get s o)).
  Proof. intros. apply steps_1. reflexivity. Qed.

  Lemma code1_ok : forall c off n prog post s,
    let r := code1 c off n in
    exists s', steps prog (fst r ++ post) s post s' /\ (n <= snd r)%nat /\ same_below n s s'
      /\ env s' = fst (offer1 c (env s)) /\ holds s' (snd r) off (snd (offer1 c (env s)))
      /\ (forall o, o <> off -> o <> off + 8 -> arr s' o = arr s o).
  Proof.
    intros c off n prog post s. unfold code1, offer1.
    destruct (linear_expr (chan c) n) as [[cc oc] n1] eqn:Ec.
    destruct (is_recv c).
    - destruct (match recv_var c with Some x => lea_operand_pointer (OVar x) n1 | None => ([], OImm 0, n1) end) as [[cp p] n2] eqn:Ep.
      cbn [fst snd]. rewrite <- !app_assoc.
      destruct (expr_ok _ _ _ _ _ Ec prog ([Store off oc] ++ cp ++ [Store (off + ptr_size) p] ++ post) s)
        as (s1 & S1 & L1 & U1 & B1 & A1 & E1 & G1).
      set (s2 := set_arr s1 off (get s1 oc)).
      assert (H : exists s3, steps prog (cp ++ [Store (off + ptr_size) p] ++ post) s2 ([Store (off + ptr_size) p] ++ post) s3
        /\ (n1 <= n2)%nat /\ same_below n1 s2 s3 /\ arr s3 = arr s2 /\ env s3 = env s2
        /\ deref s3 (get s3 p) = Some (match recv_var c with Some y => PVar y | None => PNull end)
        /\ (forall t, get s3 p = WTmp t -> (t < n2)%nat)).
      { destruct (recv_var c) as [x|].
        - exact (lea_ok _ _ _ _ _ Ep prog ([Store (off + ptr_size) p] ++ post) s2 Logic.I).
        - injection Ep as <- <- <-. exists s2. repeat split; auto using steps_refl. cbn. discriminate. }
      destruct H as (s3 & S3 & L3 & B3 & A3 & E3 & D3 & T3).
      exists (set_arr s3 (off + 8) (get s3 p)). split; [|split; [lia|split; [|split; [|split]]]].
      + eapply steps_trans; [apply decl_ok|]. eapply steps_trans; [exact S1|].
        eapply steps_trans; [apply store_ok|]. eapply steps_trans; [exact S3|]. apply store_ok.
      + intros u Hu. cbn. rewrite B3 by lia. cbn. auto.
      + cbn. rewrite E3. cbn. rewrite E1. now destruct (value ev (chan c) (env s)).
      + destruct (value ev (chan c) (env s)) as [x1 ch]. cbn [fst snd] in *. split; [|split].
        * cbn. destruct (Z.eqb_spec off (off + 8)); [lia|]. rewrite A3. cbn. now rewrite Z.eqb_refl.
        * cbn [arr set_arr]. rewrite Z.eqb_refl. exact D3.
        * cbn [arr set_arr]. rewrite Z.eqb_refl. exact T3.
      + intros o H1 H2. cbn. destruct (Z.eqb_spec o (off + 8)); [lia|]. rewrite A3. cbn.
        destruct (Z.eqb_spec o off); [lia|]. now rewrite A1.
    - destruct (linear_expr (msg c) n1) as [[cm om] n2] eqn:Em. destruct (lea_operand_pointer om n2) as [[cp p] n3] eqn:Ep.
      cbn [fst snd]. rewrite <- !app_assoc.
      destruct (expr_ok _ _ _ _ _ Ec prog ([Store off oc] ++ cm ++ cp ++ [Store (off + ptr_size) p] ++ post) s)
        as (s1 & S1 & L1 & U1 & B1 & A1 & E1 & G1).
      set (s2 := set_arr s1 off (get s1 oc)).
      destruct (expr_ok _ _ _ _ _ Em prog (cp ++ [Store (off + ptr_size) p] ++ post) s2)
        as (s3 & S3 & L3 & U3 & B3 & A3 & E3 & G3).
      destruct (lea_ok _ _ _ _ _ Ep prog ([Store (off + ptr_size) p] ++ post) s3 U3) as (s4 & S4 & L4 & B4 & A4 & E4 & D4 & T4).
      exists (set_arr s4 (off + 8) (get s4 p)). split; [|split; [lia|split; [|split; [|split]]]].
      + eapply steps_trans; [apply decl_ok|]. eapply steps_trans; [exact S1|].
        eapply steps_trans; [apply store_ok|]. eapply steps_trans; [exact S3|]. eapply steps_trans; [exact S4|]. apply store_ok.
      + intros u Hu. cbn. rewrite B4, B3 by lia. cbn. auto.
      + cbn. rewrite E4, E3. cbn. rewrite E1. destruct (value ev (chan c) (env s)) as [x1 ch]. cbn [fst].
        destruct (msg c) as [y|z|e]; cbn; auto. now destruct (ev e x1).
      + assert (E2 : env s2 = fst (value ev (chan c) (env s))) by exact E1. rewrite E2 in *.
        destruct (value ev (chan c) (env s)) as [x1 ch]. cbn [fst snd] in *.
        assert (P : place_of s3 om = snd (message ev (msg c) x1)).
        { destruct (msg c) as [y|z|e]; cbn in Em; injection Em as <- <- <-; cbn in *; auto.
          rewrite G3. now destruct (ev e x1). }
        destruct (message ev (msg c) x1) as [x2 pl]. cbn [fst snd] in *. subst pl. split; [|split].
        * cbn. destruct (Z.eqb_spec off (off + 8)); [lia|]. rewrite A4, A3. cbn. now rewrite Z.eqb_refl.
        * cbn [arr set_arr]. rewrite Z.eqb_refl. exact D4.
        * cbn [arr set_arr]. rewrite Z.eqb_refl. exact T4.
      + intros o H1 H2. cbn. destruct (Z.eqb_spec o (off + 8)); [lia|]. rewrite A4, A3. cbn.
        destruct (Z.eqb_spec o off); [lia|]. now rewrite A1.
  Qed.

  Lemma fill_ok : forall cs i so ro map n prog post s,
    so + 16 * Z.of_nat (live cs false) <= ro ->
    let r := fill i cs so ro map n in
    let os := snd (offers cs (env s)) in
    exists s', steps prog (fst (fst r) ++ post) s post s' /\ (n <= snd r)%nat /\ same_below n s s'
      /\ env s' = fst (offers cs (env s))
      /\ (forall j o, nth_error (sends os) j = Some o -> holds s' (snd r) (so + 16 * Z.of_nat j) o)
      /\ (forall j o, nth_error (recvs os) j = Some o -> holds s' (snd r) (ro + 16 * Z.of_nat j) o)
      /\ (forall o, (o < so \/ so + 16 * Z.of_nat (live cs false) <= o) ->
                    (o < ro \/ ro + 16 * Z.of_nat (live cs true) <= o) -> arr s' o = arr s o).
  Proof.
    induction cs as [|c cs IH]; intros i so ro map n prog post s Hd.
    - exists s. cbn. split; [apply steps_refl|]; split; [lia|]; split; [intros u _; reflexivity|]; split; [reflexivity|]; split; [intros [|j] o H; discriminate H|]; split; [intros [|j] o H; discriminate H|]; auto.
    - rewrite fill_cons. destruct (is_default c) eqn:Edef.
      { exists s. cbn. rewrite Edef. cbn. split; [apply steps_refl|]; split; [lia|]; split; [intros u _; reflexivity|]; split; [reflexivity|]; split; [intros [|j] o H; discriminate H|]; split; [intros [|j] o H; discriminate H|]; auto. }
      rewrite offers_cons, !live_cons in *. rewrite Edef in *. cbn [fst snd].
      set (off := if is_recv c then ro else so).
      destruct (code1_ok c off n prog
        (fst (fst (fill (S i) cs (if is_recv c then so else so + 16) (if is_recv c then ro + 16 else ro)
               (list_set map (Z.to_nat (off / 16)) i) (snd (code1 c off n)))) ++ post) s)
        as (s1 & S1 & L1 & B1 & E1 & H1 & A1).
      rewrite <- E1.
      destruct (IH (S i) (if is_recv c then so else so + 16) (if is_recv c then ro + 16 else ro)
               (list_set map (Z.to_nat (off / 16)) i) (snd (code1 c off n)) prog post s1) as (s2 & S2 & L2 & B2 & E2 & F2 & R2 & A2).
      { destruct (is_recv c); cbn [Bool.eqb] in Hd; lia. }
      set (r := fill (S i) cs _ _ _ _) in *. clearbody r.
      exists s2. split; [|split; [lia|split; [|split; [|split; [|split]]]]].
      + rewrite <- app_assoc. eapply steps_trans; eassumption.
      + eapply same_trans; eassumption.
      + exact E2.
      + unfold sends in *. cbn [filter]. rewrite offer1_recv. destruct (is_recv c) eqn:Er; cbn [negb].
        * exact F2.
        * intros [|j] o; cbn [nth_error].
          -- intros [= <-]. cbn [Bool.eqb] in Hd. rewrite Z.mul_0_r, Z.add_0_r.
             eapply holds_mono; [exact H1|exact B2|exact L2| |]; apply A2; unfold off; lia.
          -- intros Hj. replace (so + 16 * Z.of_nat (S j)) with (so + 16 + 16 * Z.of_nat j) by lia. now apply F2.
      + unfold recvs in *. cbn [filter]. rewrite offer1_recv. destruct (is_recv c) eqn:Er.
        * intros [|j] o; cbn [nth_error].
          -- intros [= <-]. cbn [Bool.eqb] in Hd. rewrite Z.mul_0_r, Z.add_0_r.
             eapply holds_mono; [exact H1|exact B2|exact L2| |]; apply A2; unfold off; lia.
          -- intros Hj. replace (ro + 16 * Z.of_nat (S j)) with (ro + 16 + 16 * Z.of_nat j) by lia. now apply R2.
        * exact R2.
      + intros o Ho1 Ho2. rewrite A2, A1; auto; unfold off; destruct (is_recv c); cbn [Bool.eqb] in *; lia.
  Qed.

  (** * cases_map *)
  Lemma list_set_len : forall l i v, length (list_set l i v) = length l.
  Proof. induction l as [|a l IH]; intros [|i] v; cbn; auto. Qed.
  Lemma list_set_same : forall l i v, (i < length l)%nat -> nth i (list_set l i v) 0%nat = v.
  Proof. induction l as [|a l IH]; intros [|i] v H; cbn in *; try lia; auto. apply IH. lia. Qed.
  Lemma list_set_other : forall l i j v, i <> j -> nth j (list_set l i v) 0%nat = nth j l 0%nat.
  Proof. induction l as [|a l IH]; intros [|i] [|j] v H; cbn; auto; try lia. Qed.

  Lemma map_ok : forall cs pre a b map n x,
    (a + live cs false <= b)%nat -> (b + live cs true <= length map)%nat ->
    let r := fill (length pre) cs (16 * Z.of_nat a) (16 * Z.of_nat b) map n in
    let map' := snd (fst r) in
    let os := snd (offers cs x) in
    length map' = length map
    /\ (forall j o, nth_error (sends os) j = Some o ->
          exists c, nth_error (pre ++ cs) (nth (a + j) map' 0%nat) = Some c /\ body c = o_body o)
    /\ (forall j o, nth_error (recvs os) j = Some o ->
          exists c, nth_error (pre ++ cs) (nth (b + j) map' 0%nat) = Some c /\ body c = o_body o)
    /\ (forall k, (k < a \/ a + live cs false <= k)%nat -> (k < b \/ b + live cs true <= k)%nat ->
          nth k map' 0%nat = nth k map 0%nat).
  Proof.
    induction cs as [|c cs IH]; intros pre a b map n x Ha Hb.
    - cbn. split; [reflexivity|]; split; [intros [|j] o H; discriminate H|]; split; [intros [|j] o H; discriminate H|]; auto.
    - rewrite fill_cons. destruct (is_default c) eqn:Edef.
      { cbn. rewrite Edef. cbn. split; [reflexivity|]; split; [intros [|j] o H; discriminate H|]; split; [intros [|j] o H; discriminate H|]; auto. }
      rewrite offers_cons, !live_cons in *. rewrite Edef in *. cbn [fst snd].
      set (off := if is_recv c then 16 * Z.of_nat b else 16 * Z.of_nat a).
      set (n1 := snd (code1 c off n)). clearbody n1.
      assert (Hoff : Z.to_nat (off / 16) = if is_recv c then b else a).
      { unfold off. destruct (is_recv c); rewrite (Z.mul_comm 16), Z.div_mul by lia; lia. }
      rewrite Hoff. clear Hoff.
      specialize (IH (pre ++ [c]) (if is_recv c then a else S a) (if is_recv c then S b else b)
        (list_set map (if is_recv c then b else a) (length pre)) n1 (fst (offer1 c x))).
      rewrite list_set_len in IH.
      assert (P1 : length (pre ++ [c]) = S (length pre)) by (rewrite app_length; cbn; lia).
      rewrite P1 in IH. rewrite <- app_assoc in IH. cbn [app] in IH.
      assert (C : nth_error (pre ++ c :: cs) (length pre) = Some c).
      { rewrite nth_error_app2 by lia. now rewrite Nat.sub_diag. }
      unfold sends, recvs in *. cbn [filter]. rewrite offer1_recv. clear off.
      destruct (is_recv c) eqn:Er; cbn [negb Bool.eqb] in *.
      + replace (16 * Z.of_nat (S b)) with (16 * Z.of_nat b + 16) in IH by lia.
        destruct IH as (I1 & I2 & I3 & I4); [lia|lia|].
        set (r := fill _ _ _ _ _ _) in *. clearbody r. repeat split; auto.
        * intros [|j] o; cbn [nth_error].
          -- intros [= <-]. exists c. rewrite offer1_body. split; auto. rewrite Nat.add_0_r, I4 by lia.
             rewrite list_set_same by lia. exact C.
          -- intros Hj. rewrite <- Nat.add_succ_comm. now apply I3.
        * intros k Hk1 Hk2. rewrite I4 by lia. apply list_set_other. lia.
      + replace (16 * Z.of_nat (S a)) with (16 * Z.of_nat a + 16) in IH by lia.
        destruct IH as (I1 & I2 & I3 & I4); [lia|lia|].
        set (r := fill _ _ _ _ _ _) in *. clearbody r. repeat split; auto.
        * intros [|j] o; cbn [nth_error].
          -- intros [= <-]. exists c. rewrite offer1_body. split; auto. rewrite Nat.add_0_r, I4 by lia.
             rewrite list_set_same by lia. exact C.
          -- intros Hj. rewrite <- Nat.add_succ_comm. now apply I2.
        * intros k Hk1 Hk2. rewrite I4 by lia. apply list_set_other. lia.
  Qed.

  (** * the dispatch *)
  Lemma goto_app : forall l a b, ~ In l (labels a) -> goto l (a ++ b) = goto l b.
  Proof.
    induction a as [|o a IH]; intros b H; auto. cbn in *.
    destruct o; cbn in *; try (apply IH; exact H).
    destruct (Nat.eqb_spec l l0); [subst; exfalso; apply H; now left|]. apply IH. intros N. apply H. now right.
  Qed.
  Lemma labels_app : forall a b, labels (a ++ b) = labels a ++ labels b.
  Proof. intros. unfold labels. apply flat_map_app. Qed.

  Lemma dispatch_some : forall k i cs map t end_l n,
    (forall j, (i <= j < i + k)%nat -> exists c, nth_error cs (nth j map 0%nat) = Some c) ->
    exists code n', dispatch k i cs map t end_l n = Some (code, n') /\ (n <= n')%nat
      /\ forall l, In l (labels code) -> (n <= l < n')%nat.
  Proof.
    induction k as [|k IH]; intros i cs map t end_l n H.
    - exists [], n. cbn. split; auto. split; auto. intros l [].
    - cbn [dispatch]. destruct (H i ltac:(lia)) as [c ->].
      destruct (IH (S i) cs map t end_l (S (S n))) as (code & n' & -> & L & I).
      { intros j Hj. apply H. lia. }
      eexists _, n'. split; [reflexivity|]. split; [lia|]. cbn. intros l [<-|[<-|Hl]]; [lia..|].
      specialize (I l Hl). lia.
  Qed.

  Lemma dispatch_ok : forall k i cs map t end_l n code n',
    dispatch k i cs map t end_l n = Some (code, n') ->
    forall P post E s r,
    (forall l, In l (labels P) -> ~ (n <= l < n')%nat) ->
    goto end_l (P ++ code ++ post) = Some E ->
    tmps s t = WInt r ->
    match (if (Z.of_nat i <=? r) && (r <? Z.of_nat (i + k)) then nth_error cs (nth (Z.to_nat r) map 0%nat) else None) with
    | Some c => match bd (body c) (env s) with
                | (x, true) => steps (P ++ code ++ post) (code ++ post) s E (set_env s x)
                | (x, false) => exists m, forall f, exec (m + f) (P ++ code ++ post) (code ++ post) s = Left x
                end
    | None => steps (P ++ code ++ post) (code ++ post) s post s
    end.
  Proof.
    induction k as [|k IH]; intros i cs map t end_l n code n' D P post E s r HP HE Ht.
    - cbn in D. injection D as <- <-. rewrite Nat.add_0_r.
      destruct (Z.leb_spec (Z.of_nat i) r); destruct (Z.ltb_spec r (Z.of_nat i)); try lia; cbn [andb]; apply steps_refl.
    - cbn [dispatch] in D. destruct (nth_error cs (nth i map 0%nat)) as [c|] eqn:Ec; [|discriminate].
      destruct (dispatch k (S i) cs map t end_l (S (S n))) as [[rest n2]|] eqn:Dr; [|discriminate].
      injection D as <- <-.
      assert (L : (S (S n) <= n2)%nat).
      { clear - Dr. revert i n rest n2 Dr. induction k as [|k IH]; intros i n rest n2 Dr; cbn in Dr.
        - injection Dr as _ <-. lia.
        - destruct (nth_error cs (nth (S i) map 0%nat)); [|discriminate].
          destruct (dispatch k (S (S i)) cs map t end_l (S (S (S (S n))))) as [[r' m]|] eqn:D'; [|discriminate].
          injection Dr as _ <-. specialize (IH _ _ _ _ D'). lia. }
      cbn [app] in *. set (prog := P ++ _) in *.
      assert (G1 : goto n prog = Some (Body (body c) :: Bal end_l :: Label (S n) :: rest ++ post)).
      { unfold prog. rewrite goto_app by (intros N; apply (HP n N); lia). cbn. now rewrite Nat.eqb_refl. }
      assert (G2 : goto (S n) prog = Some (rest ++ post)).
      { unfold prog. rewrite goto_app by (intros N; apply (HP (S n) N); lia). cbn [goto].
        destruct (Nat.eqb_spec (S n) n); [lia|]. now rewrite Nat.eqb_refl. }
      destruct (Z.eqb_spec r (Z.of_nat i)) as [Er|Er].
      + replace ((Z.of_nat i <=? r) && (r <? Z.of_nat (i + S k))) with true
          by (symmetry; apply andb_true_intro; split; [apply Z.leb_le|apply Z.ltb_lt]; lia).
        subst r. rewrite Nat2Z.id, Ec.
        assert (T : steps prog (Bee (OTmp t) (Z.of_nat i) n :: Bal (S n) :: Label n :: Body (body c) :: Bal end_l :: Label (S n) :: rest ++ post) s
                       (Body (body c) :: Bal end_l :: Label (S n) :: rest ++ post) s).
        { apply steps_1. intros f. cbn [Select_model.exec get is_int]. rewrite Ht. cbn [is_int]. now rewrite Z.eqb_refl, G1. }
        destruct (bd (body c) (env s)) as [x [|]] eqn:Eb.
        * eapply steps_trans; [exact T|].
          apply steps_trans with (r2 := Bal end_l :: Label (S n) :: rest ++ post) (s2 := set_env s x); apply steps_1; intros f; cbn [Select_model.exec].
          -- now rewrite Eb.
          -- now rewrite HE.
        * destruct T as [m T]. exists (m + 1)%nat. intros f. rewrite <- Nat.add_assoc, T. cbn. now rewrite Eb.
      + assert (T : steps prog (Bee (OTmp t) (Z.of_nat i) n :: Bal (S n) :: Label n :: Body (body c) :: Bal end_l :: Label (S n) :: rest ++ post) s
                       (rest ++ post) s).
        { apply steps_trans with (r2 := Bal (S n) :: Label n :: Body (body c) :: Bal end_l :: Label (S n) :: rest ++ post) (s2 := s);
            apply steps_1; intros f; cbn [Select_model.exec].
          - cbn [get]. rewrite Ht. cbn [is_int]. destruct (Z.eqb_spec r (Z.of_nat i)); [lia|]. reflexivity.
          - now rewrite G2. }
        specialize (IH (S i) cs map t end_l (S (S n)) rest n2 Dr
          (P ++ [Bee (OTmp t) (Z.of_nat i) n; Bal (S n); Label n; Body (body c); Bal end_l; Label (S n)]) post E s r).
        rewrite <- app_assoc in IH. cbn [app] in IH. fold prog in IH.
        assert (B : (Z.of_nat i <=? r) && (r <? Z.of_nat (i + S k)) = (Z.of_nat (S i) <=? r) && (r <? Z.of_nat (S i + k))).
        { replace (i + S k)%nat with (S i + k)%nat by lia. f_equal.
          destruct (Z.leb_spec (Z.of_nat i) r), (Z.leb_spec (Z.of_nat (S i)) r); auto; lia. }
        rewrite B.
        assert (HP' : forall l, In l (labels (P ++ [Bee (OTmp t) (Z.of_nat i) n; Bal (S n); Label n; Body (body c); Bal end_l; Label (S n)])) ->
                        ~ (S (S n) <= l < n2)%nat).
        { intros l. rewrite labels_app. intros Hl. apply in_app_or in Hl. destruct Hl as [Hl|Hl].
          - specialize (HP l Hl). lia.
          - cbn in Hl. destruct Hl as [<-|[<-|[]]]; lia. }
        specialize (IH HP' HE Ht).
        destruct (if (Z.of_nat (S i) <=? r) && (r <? Z.of_nat (S i + k)) then nth_error cs (nth (Z.to_nat r) map 0%nat) else None) as [c'|].
        * destruct (bd (body c') (env s)) as [x [|]].
          -- eapply steps_trans; eassumption.
          -- destruct T as [m T], IH as [m' IH]. exists (m + m')%nat. intros f. rewrite <- Nat.add_assoc, T. apply IH.
        * eapply steps_trans; eassumption.
  Qed.

  (** * the counts of the parser *)
  Lemma counts : forall cs, default_last cs = true -> send_count cs = live cs false /\ recv_count cs = live cs true.
  Proof.
    induction cs as [|c cs IH]; intros H; auto. cbn [default_last] in H. apply andb_prop in H as [H1 H2].
    rewrite !live_cons. unfold send_count, recv_count in *. cbn [filter]. destruct (is_default c); cbn [negb andb orb] in *.
    - destruct cs; [auto|discriminate].
    - destruct (IH H2) as [E1 E2]. destruct (is_recv c); cbn; rewrite E1, E2; auto.
  Qed.
  Lemma default_find : forall cs, default_last cs = true -> has_default cs = true ->
    exists d, find is_default cs = Some d /\ nth_error cs (length cs - 1) = Some d.
  Proof.
    induction cs as [|c cs IH]; intros H H0; [discriminate|]. cbn [default_last] in H. apply andb_prop in H as [H1 H2].
    unfold has_default in *. cbn [existsb find] in *. destruct (is_default c).
    - destruct cs; [|discriminate]. exists c. auto.
    - cbn [orb] in H0. destruct (IH H2 H0) as (d & F & N). exists d. split; auto.
      destruct cs as [|c' cs]; [discriminate|]. cbn [length] in *.
      replace (S (S (length cs)) - 1)%nat with (S (S (length cs) - 1)) by lia. exact N.
  Qed.
  Lemma default_none : forall cs, has_default cs = false -> find is_default cs = None.
  Proof.
    induction cs as [|c cs IH]; auto. unfold has_default in *. cbn. destruct (is_default c); [discriminate|]. exact IH.
  Qed.

  Lemma read_ok : forall (s : @state W) b l i,
    (forall j o, nth_error l j = Some o -> holds s b (16 * (i + Z.of_nat j)) o) ->
    read_cases s i (length l) = Some (map (fun o => (o_chan o, o_place o)) l).
  Proof.
    induction l as [|o l IH]; intros i H; auto. cbn [length read_cases map].
    destruct (H 0%nat o eq_refl) as (H1 & H2 & _).
    replace (i * 16) with (16 * (i + Z.of_nat 0)) by lia. rewrite H2, H1.
    rewrite (IH (i + 1)); auto. intros j o' Hj. replace (i + 1 + Z.of_nat j) with (i + Z.of_nat (S j)) by lia. now apply H.
  Qed.

  Lemma fill_labels : forall cs i so ro map n, labels (fst (fst (fill i cs so ro map n))) = [].
  Proof.
    assert (X : forall e n, labels (fst (fst (linear_expr e n))) = []) by (intros [x|z|e] n; reflexivity).
    assert (Y : forall o n, labels (fst (fst (lea_operand_pointer o n))) = []) by (intros [x|t|z] n; reflexivity).
    induction cs as [|c cs IH]; intros i so ro map n; auto. rewrite fill_cons. destruct (is_default c); auto.
    cbn [fst snd]. rewrite labels_app, IH, app_nil_r. unfold code1.
    assert (Z : labels (match recv_var c with Some x => [NopDef x] | None => [] end) = []) by now destruct (recv_var c).
    specialize (X (chan c) n) as X1. destruct (linear_expr (chan c) n) as [[cc oc] n1]. cbn [fst] in X1.
    destruct (is_recv c).
    - assert (V : labels (fst (fst (match recv_var c with Some x => lea_operand_pointer (OVar x) n1 | None => ([], OImm 0, n1) end))) = [])
        by (destruct (recv_var c); [apply Y|reflexivity]).
      destruct (match recv_var c with Some x => lea_operand_pointer (OVar x) n1 | None => ([], OImm 0, n1) end) as [[cp p] n2].
      cbn [fst] in *. rewrite !labels_app, Z, X1, V. reflexivity.
    - specialize (X (msg c) n1) as X2. destruct (linear_expr (msg c) n1) as [[cm om] n2]. cbn [fst] in X2.
      specialize (Y om n2) as Y1. destruct (lea_operand_pointer om n2) as [[cp p] n3]. cbn [fst] in *.
      rewrite !labels_app, Z, X1, X2, Y1. reflexivity.
  Qed.

  Lemma i16_id : forall z, 0 <= z <= 32767 -> i16 z = z.
  Proof. intros z H. unfold i16. rewrite Z.mod_small by lia. lia. Qed.

  Lemma steps_end : forall prog r1 s1 r2 s2 (o : outcome), steps prog r1 s1 r2 s2 ->
    (exists k, forall f, exec (k + f) prog r2 s2 = o) -> exists k, forall f, exec (k + f) prog r1 s1 = o.
  Proof.
    intros prog r1 s1 r2 s2 o [k1 H1] [k2 H2]. exists (k1 + k2)%nat. intros f. rewrite <- Nat.add_assoc, H1. apply H2.
  Qed.

  (** what linear_select is made of *)
  Lemma parts : forall cs n (x0 : @ext W), accepted cs = true -> cs <> [] ->
    let count := (send_count cs + recv_count cs)%nat in
    let F := fill 0 cs 0 (16 * Z.of_nat (send_count cs)) (repeat 0%nat count) (S (S n)) in
    (0 < count <= length cs)%nat
    /\ (forall x j o, nth_error (sends (snd (offers cs x)) ++ recvs (snd (offers cs x))) j = Some o ->
         exists c, nth_error cs (nth j (snd (fst F)) 0%nat) = Some c /\ body c = o_body o)
    /\ (S (S n) <= snd F)%nat
    /\ exists cd n2, dispatch count 0 cs (snd (fst F)) (snd F) (S n) (S (snd F)) = Some (cd, n2) /\ (S (snd F) <= n2)%nat
         /\ (forall l, In l (labels cd) -> (S (snd F) <= l < n2)%nat)
         /\ linear_select cs n = Some ([Label n] ++ fst (fst F)
              ++ [Call (snd F) (i16 (Z.of_nat (send_count cs))) (i16 (Z.of_nat (recv_count cs))) (has_default cs)]
              ++ cd ++ (if has_default cs then match nth_error cs (length cs - 1) with Some c => [Body (body c)] | None => [] end else [])
              ++ [Label (S n)], n2).
  Proof.
    intros cs n x0 Ha Hne. cbv zeta. unfold accepted in Ha. apply andb_prop in Ha as [Ha _]. apply andb_prop in Ha as [Ha Hl].
    destruct (counts cs Hl) as [Cs Cr].
    assert (Hpos : (send_count cs + recv_count cs <> 0)%nat).
    { rewrite Cs, Cr. destruct cs as [|c0 cs0]; [contradiction|]. rewrite !live_cons. destruct (is_default c0) eqn:E0.
      - exfalso. clear - Ha Hl E0. unfold has_default in Ha. cbn in *. rewrite E0 in *. cbn in *. destruct cs0; discriminate.
      - destruct (is_recv c0); cbn; lia. }
    assert (Hsum : (send_count cs + recv_count cs <= length cs)%nat).
    { clear. unfold send_count, recv_count. induction cs as [|c cs IH]; auto. cbn.
      destruct (is_default c), (is_recv c); cbn; lia. }
    unfold linear_select. destruct (Nat.eqb_spec (send_count cs + recv_count cs) 0) as [N|_]; [contradiction|].
    set (count := (send_count cs + recv_count cs)%nat) in *.
    replace (Z.of_nat (send_count cs) * ptr_size * 2) with (16 * Z.of_nat (send_count cs)) by (unfold ptr_size; lia).
    set (F := fill 0 cs 0 (16 * Z.of_nat (send_count cs)) (repeat 0%nat count) (S (S n))).
    assert (MAP : forall x j o, nth_error (sends (snd (offers cs x)) ++ recvs (snd (offers cs x))) j = Some o ->
      exists c, nth_error cs (nth j (snd (fst F)) 0%nat) = Some c /\ body c = o_body o).
    { intros x. destruct (map_ok cs [] 0 (send_count cs) (repeat 0%nat count) (S (S n)) x) as (_ & M1 & M2 & _).
      - lia.
      - rewrite repeat_length. lia.
      - cbn [length app Nat.add] in M1, M2. change (16 * Z.of_nat 0) with 0 in M1, M2. fold F in M1, M2.
        intros j o Hj. pose proof (sends_len cs x) as SL. rewrite <- Cs in SL.
        destruct (Nat.lt_ge_cases j (send_count cs)) as [Lt|Ge].
        + rewrite nth_error_app1 in Hj by (rewrite SL; exact Lt). now apply M1.
        + rewrite nth_error_app2 in Hj by (rewrite SL; exact Ge). rewrite SL in Hj.
          destruct (M2 _ _ Hj) as (c & H1 & H2). exists c.
          replace (send_count cs + (j - send_count cs))%nat with j in H1 by lia. auto. }
    assert (LEN : forall x, length (sends (snd (offers cs x)) ++ recvs (snd (offers cs x))) = count).
    { intros x. rewrite app_length, sends_len, recvs_len. unfold count. lia. }
    assert (NF : (S (S n) <= snd F)%nat).
    { assert (G : forall cs i so ro m n, (n <= snd (fill i cs so ro m n))%nat).
      { clear - ev bd rt. assert (X : forall e n, (n <= snd (linear_expr e n))%nat) by (intros [x|z|e] n; cbn; lia).
        assert (Y : forall o n, (n <= snd (lea_operand_pointer o n))%nat) by (intros [x|t|z] n; cbn; lia).
        induction cs as [|c cs IH]; intros i so ro m n; auto. rewrite fill_cons. destruct (is_default c); auto.
        cbn [fst snd]. etransitivity; [|apply IH]. unfold code1.
        specialize (X (chan c) n) as X1. destruct (linear_expr (chan c) n) as [[cc oc] n1]. cbn [snd] in X1.
        destruct (is_recv c).
        - assert (V : (n1 <= snd (match recv_var c with Some x => lea_operand_pointer (OVar x) n1 | None => ([], OImm 0, n1) end))%nat)
            by (destruct (recv_var c); [apply Y|cbn; lia]).
          destruct (match recv_var c with Some x => lea_operand_pointer (OVar x) n1 | None => ([], OImm 0, n1) end) as [[cp p] n2].
          cbn [snd] in *. lia.
        - specialize (X (msg c) n1) as X2. destruct (linear_expr (msg c) n1) as [[cm om] n2]. cbn [snd] in X2.
          specialize (Y om n2) as Y1. destruct (lea_operand_pointer om n2) as [[cp p] n3]. cbn [snd] in *. lia. }
      apply G. }
    split; [lia|]. split; [exact MAP|]. split; [exact NF|].
    destruct (dispatch_some count 0 cs (snd (fst F)) (snd F) (S n) (S (snd F))) as (cd & n2 & Dp & L2 & I2).
    { intros j Hj. cbn in Hj.
      destruct (nth_error (sends (snd (offers cs x0)) ++ recvs (snd (offers cs x0))) j) as [o|] eqn:Ho.
      - destruct (MAP x0 j o Ho) as (c & Hc & _). eauto.
      - apply nth_error_None in Ho. rewrite LEN in Ho. lia. }
    exists cd, n2. split; [exact Dp|]. split; [exact L2|]. split; [exact I2|].
    destruct F as [[cf mp] n1]. cbn [fst snd] in *. now rewrite Dp.
  Qed.

  Lemma select_ne : forall cs x, cs <> [] -> select ev bd rt cs x =
        let '(x, os) := offers cs x in
        let asked := sends os ++ recvs os in
        match rt (map (fun o => (o_chan o, o_place o)) asked) (Z.of_nat (length (sends os))) (Z.of_nat (length (recvs os)))
                 (existsb is_default cs) x with
        | Never => Waits
        | Failed => Aborts
        | Chosen x i =>
            match (if i <? 0 then None else nth_error asked (Z.to_nat i)) with
            | Some o => do_body bd (o_body o) x
            | None => match find is_default cs with Some d => do_body bd (body d) x | None => Falls x end
            end
        end.
  Proof. intros [|c cs] x H; [contradiction|reflexivity]. Qed.

  Theorem select_ok : forall cs n code n', accepted cs = true -> Z.of_nat (length cs) <= 32767 ->
    linear_select cs n = Some (code, n') ->
    forall P post s, (forall l, In l (labels P) -> ~ (n <= l < n')%nat) ->
    follows ev bd rt (P ++ code ++ post) code post s (select ev bd rt cs (env s)).
  Proof.
    intros cs n code n' Ha Hlen EL P post s HP.
    destruct (list_eq_dec Nat.eq_dec (map body cs) []) as [Hnil|Hne].
    { destruct cs; [|discriminate]. cbn in EL. injection EL as <- <-. cbn. exists 2%nat. reflexivity. }
    assert (Hne' : cs <> []) by (intros ->; now apply Hne). clear Hne.
    destruct (parts cs n (env s) Ha Hne') as (Hc & MAP & NF & cd & n2 & Dp & L2 & I2 & EL2).
    rewrite EL2 in EL. apply some_pair in EL as [Ecode <-]. clear EL2.
    unfold accepted in Ha. apply andb_prop in Ha as [Ha _]. apply andb_prop in Ha as [_ Hl].
    destruct (counts cs Hl) as [Cs Cr].
    set (count := (send_count cs + recv_count cs)%nat) in *.
    set (F := fill 0 cs 0 (16 * Z.of_nat (send_count cs)) (repeat 0%nat count) (S (S n))) in *.
    set (def := if has_default cs then _ else _) in *.
    set (call := Call (snd F) _ _ _) in *.
    assert (FL : labels (fst (fst F)) = []) by apply fill_labels.
    set (prog := P ++ code ++ post).
    (* the array *)
    destruct (fill_ok cs 0 0 (16 * Z.of_nat (send_count cs)) (repeat 0%nat count) (S (S n)) prog
                ([call] ++ cd ++ def ++ [Label (S n)] ++ post) s) as (s1 & S1 & _ & _ & E1 & F1 & R1 & _).
    { rewrite Cs. lia. }
    fold F in S1, F1, R1.
    set (asked := sends (snd (offers cs (env s))) ++ recvs (snd (offers cs (env s)))).
    pose proof (sends_len cs (env s)) as SL. rewrite <- Cs in SL.
    pose proof (recvs_len cs (env s)) as RL. rewrite <- Cr in RL.
    assert (AL : length asked = count) by (unfold asked; rewrite app_length, SL, RL; reflexivity).
    assert (RD : read_cases s1 0 (Z.to_nat (i16 (Z.of_nat (send_count cs)) + i16 (Z.of_nat (recv_count cs))))
                 = Some (map (fun o => (o_chan o, o_place o)) asked)).
    { rewrite !i16_id by (unfold count in Hc; lia).
      replace (Z.to_nat (Z.of_nat (send_count cs) + Z.of_nat (recv_count cs))) with (length asked) by (rewrite AL; unfold count; lia).
      apply read_ok with (b := snd F). intros j o Hj. unfold asked in Hj. rewrite Z.add_0_l.
      destruct (Nat.lt_ge_cases j (send_count cs)) as [Lt|Ge].
      - rewrite nth_error_app1 in Hj by (rewrite SL; exact Lt). apply F1 in Hj. now rewrite Z.add_0_l in Hj.
      - rewrite nth_error_app2 in Hj by (rewrite SL; exact Ge). rewrite SL in Hj. apply R1 in Hj.
        now replace (16 * Z.of_nat (send_count cs) + 16 * Z.of_nat (j - send_count cs)) with (16 * Z.of_nat j) in Hj by lia. }
    assert (T1 : steps prog (code ++ post) s (call :: cd ++ def ++ [Label (S n)] ++ post) s1).
    { rewrite <- Ecode. cbn [app]. rewrite <- !app_assoc. cbn [app]. rewrite <- !app_assoc. cbn [app] in S1 |- *.
      eapply steps_trans; [apply steps_1; intros f; reflexivity|]. exact S1. }
    rewrite select_ne by exact Hne'.
    destruct (offers cs (env s)) as [x1 os] eqn:Eo. cbn [fst snd] in *. fold asked.
    rewrite <- E1, SL, RL. rewrite default_flag.
    assert (K : forall f, exec (S f) prog (call :: cd ++ def ++ [Label (S n)] ++ post) s1 =
      match rt (map (fun o => (o_chan o, o_place o)) asked) (Z.of_nat (send_count cs)) (Z.of_nat (recv_count cs)) (has_default cs) (env s1) with
      | Never => Blocked | Failed => Aborted
      | Chosen x i => exec f prog (cd ++ def ++ [Label (S n)] ++ post) (set_tmp (set_env s1 x) (snd F) (WInt i)) end).
    { intros f. unfold call. cbn [Select_model.exec]. rewrite RD. now rewrite !i16_id by (unfold count in Hc; lia). }
    destruct (rt _ _ _ _ (env s1)) as [x i| |].
    2:{ cbn. eapply steps_end; [exact T1|]. exists 1%nat. exact K. }
    2:{ cbn. eapply steps_end; [exact T1|]. exists 1%nat. exact K. }
    set (s2 := set_tmp (set_env s1 x) (snd F) (WInt i)) in *.
    assert (T2 : steps prog (code ++ post) s (cd ++ def ++ [Label (S n)] ++ post) s2).
    { eapply steps_trans; [exact T1|]. apply steps_1. exact K. }
    clear T1 K S1 F1 R1 RD.
    (* the dispatch *)
    set (P1 := P ++ [Label n] ++ fst (fst F) ++ [call]).
    assert (EP : prog = P1 ++ cd ++ def ++ [Label (S n)] ++ post).
    { unfold prog, P1. rewrite <- Ecode. rewrite <- !app_assoc. reflexivity. }
    assert (LP1 : forall l, In l (labels P1) -> In l (labels P) \/ l = n).
    { intros l. unfold P1. rewrite !labels_app, FL. intros H. apply in_app_or in H as [H|H]; [auto|].
      cbn in H. destruct H as [<-|[]]. auto. }
    assert (Ldef : labels def = []).
    { unfold def. destruct (has_default cs); auto. now destruct (nth_error cs (length cs - 1)). }
    assert (GE : goto (S n) prog = Some post).
    { rewrite EP. rewrite goto_app.
      2:{ intros H. destruct (LP1 _ H) as [H1|H1]; [|lia]. apply (HP _ H1). lia. }
      rewrite goto_app by (intros H; specialize (I2 _ H); lia).
      rewrite goto_app by (rewrite Ldef; intros []). cbn. now rewrite Nat.eqb_refl. }
    pose proof (dispatch_ok count 0 cs (snd (fst F)) (snd F) (S n) (S (snd F)) cd n2 Dp P1 (def ++ [Label (S n)] ++ post) post s2 i) as D.
    rewrite <- EP in D.
    specialize (D ltac:(intros l H; destruct (LP1 l H) as [H1|H1]; [specialize (HP l H1); lia|lia]) GE).
    specialize (D ltac:(unfold s2; cbn; now rewrite Nat.eqb_refl)). cbn [Nat.add] in D. change (env s2) with x in D.
    assert (LK : match (if i <? 0 then None else nth_error asked (Z.to_nat i)) with
                 | Some o => (Z.of_nat 0 <=? i) && (i <? Z.of_nat count) = true
                             /\ exists c, nth_error cs (nth (Z.to_nat i) (snd (fst F)) 0%nat) = Some c /\ body c = o_body o
                 | None => (Z.of_nat 0 <=? i) && (i <? Z.of_nat count) = false end).
    { destruct (Z.ltb_spec i 0).
      - apply andb_false_intro1. apply Z.leb_gt. lia.
      - destruct (nth_error asked (Z.to_nat i)) as [o|] eqn:Hn.
        + split.
          * apply andb_true_intro. split; [apply Z.leb_le; lia|]. apply Z.ltb_lt.
            assert (Z.to_nat i < length asked)%nat by (apply nth_error_Some; congruence). lia.
          * apply (MAP (env s)). rewrite Eo. exact Hn.
        + apply nth_error_None in Hn. apply andb_false_intro2. apply Z.ltb_ge. lia. }
    destruct (if i <? 0 then None else nth_error asked (Z.to_nat i)) as [o|].
    - destruct LK as [B (c & Hc' & Eb)]. rewrite B, Hc', Eb in D. unfold do_body.
      destruct (bd (o_body o) x) as [y [|]].
      + cbn. destruct (steps_trans _ _ _ _ _ _ _ T2 D) as [k Hk]. exists k, (set_env s2 y). split; [reflexivity|exact Hk].
      + cbn. eapply steps_end; [exact T2|exact D].
    - rewrite LK in D. pose proof (steps_trans _ _ _ _ _ _ _ T2 D) as T3. clear D LK T2.
      destruct (has_default cs) eqn:Hd.
      + destruct (default_find cs Hl Hd) as (d & Fd & Nd). rewrite Fd. unfold def in T3. rewrite Nd in T3. cbn [app] in T3.
        unfold do_body. destruct (bd (body d) x) as [y [|]] eqn:Eb.
        * cbn. assert (T4 : steps prog (Body (body d) :: Label (S n) :: post) s2 post (set_env s2 y)).
          { apply steps_trans with (r2 := Label (S n) :: post) (s2 := set_env s2 y); apply steps_1; intros f; cbn [Select_model.exec]; [|reflexivity].
            change (env s2) with x. now rewrite Eb. }
          destruct (steps_trans _ _ _ _ _ _ _ T3 T4) as [k Hk]. exists k, (set_env s2 y). split; [reflexivity|exact Hk].
        * cbn. eapply steps_end; [exact T3|]. exists 1%nat. intros f. cbn. unfold s2 at 1. cbn. now rewrite Eb.
      + rewrite (default_none cs Hd). unfold def in T3. cbn [app] in T3. cbn.
        assert (T4 : steps prog (Label (S n) :: post) s2 post s2) by (apply steps_1; reflexivity).
        destruct (steps_trans _ _ _ _ _ _ _ T3 T4) as [k Hk]. exists k, s2. split; [reflexivity|exact Hk].
  Qed.
End proof.

Lemma select_compiles : forall cs n, accepted cs = true ->
  exists code n', linear_select cs n = Some (code, n') /\ (n < n')%nat /\ forall l, In l (labels code) -> (n <= l < n')%nat.
Proof.
  intros cs n Ha. destruct cs as [|c cs].
  { exists [Label n; SelectBlock], (S (S n)). split; [reflexivity|]. split; [lia|]. cbn. intros l [<-|[]]. lia. }
  destruct (parts (W := unit) (fun _ x => (x, WInt 0)) (fun _ x => (x, true)) (fun _ _ _ _ _ => Never) (c :: cs) n (fun _ => WInt 0, tt) Ha) as (_ & _ & NF & cd & n2 & _ & L2 & I2 & E).
  { discriminate. }
  cbv zeta in *. eexists _, n2. split; [exact E|]. split; [lia|]. intros l. rewrite !labels_app, (fill_labels (W := unit) (fun _ x => (x, WInt 0)) (fun _ x => (x, true)) (fun _ _ _ _ _ => Never)). cbn [labels flat_map app].
  intros [<-|H]; [lia|]. apply in_app_or in H as [H|H]; [specialize (I2 l H); lia|].
  apply in_app_or in H as [H|H].
  - exfalso. destruct (has_default (c :: cs)); [|destruct H]. now destruct (nth_error (c :: cs) (length (c :: cs) - 1)).
  - cbn in H. destruct H as [<-|[]]. lia.
Qed.

(** * messages *)
Lemma meant_ok : forall {W} (ev : nat -> @ext W -> @ext W * word), (forall e x, fst (fst (ev e x)) = fst x) ->
  forall cs x vars, fst x = vars ->
  map (fun o => match o_place o with PVar y => Some (vars y) | PVal v => Some v | PNull => None end) (sends (snd (offers ev cs x)))
    = map Some (meant ev cs x) /\ fst (fst (offers ev cs x)) = vars.
Proof.
  intros W ev Hev. assert (V : forall e x, fst (fst (value ev e x)) = fst x) by (intros [y|z|e] x; cbn; auto).
  induction cs as [|c cs IH]; intros x vars Hx; [cbn; auto|].
  cbn. destruct (is_default c); [cbn; auto|].
  pose proof (V (chan c) x) as V1. destruct (value ev (chan c) x) as [x1 ch]. cbn [fst] in V1.
  destruct (is_recv c).
  - destruct (IH x1 vars ltac:(congruence)) as [I1 I2]. destruct (offers ev cs x1) as [x2 os]. cbn in *. auto.
  - destruct (msg c) as [y|z|e]; cbn.
    + destruct (IH x1 vars ltac:(congruence)) as [I1 I2]. destruct (offers ev cs x1) as [x2 os]. cbn in *.
      unfold sends in *. cbn. rewrite I1. split; auto. f_equal. f_equal. congruence.
    + destruct (IH x1 vars ltac:(congruence)) as [I1 I2]. destruct (offers ev cs x1) as [x2 os]. cbn in *.
      unfold sends in *. cbn. rewrite I1. auto.
    + pose proof (Hev e x1) as V2. destruct (ev e x1) as [x2 v]. cbn [fst] in V2.
      destruct (IH x2 vars ltac:(congruence)) as [I1 I2]. destruct (offers ev cs x2) as [x3 os]. cbn in *.
      unfold sends in *. cbn. rewrite I1. auto.
Qed.

(** * pass 1 *)
Lemma ready_iff : forall x i sends c p, ready x i sends c p <> None <-> can_go (snd x c) (sends <=? i).
Proof.
  intros x i sends c p. unfold ready, can_go. destruct (sends <=? i).
  - destruct (sendq (snd x c)) as [|v q].
    + destruct (buf (snd x c)) as [|b bs].
      * destruct (closed (snd x c)).
        -- split; [auto|discriminate].
        -- split; intros H; [contradiction|]. destruct H as [H|[H|H]]; [contradiction|contradiction|discriminate].
      * split; intros H; [right; left; discriminate|]. destruct p; cbn; discriminate.
    + split; intros H; [left; discriminate|]. destruct p; try discriminate; destruct (buf (snd x c)); cbn; discriminate.
  - destruct (closed (snd x c)).
    + split; auto. discriminate.
    + destruct (recvq (snd x c)) as [|r].
      * destruct (Nat.ltb_spec (length (buf (snd x c))) (cap (snd x c))).
        -- split; auto. intros _. destruct (take x p); discriminate.
        -- split; intros N; [contradiction|]. destruct N as [N|[N|N]]; try discriminate; lia.
      * split; [intros _; right; left; lia|discriminate].
Qed.
Lemma ready_index : forall x i sends c p y j, ready x i sends c p = Some (Chosen y j) -> j = i.
Proof.
  intros x i sends c p y j. unfold ready. destruct (sends <=? i).
  - destruct (sendq (snd x c)) as [|v q]; destruct (buf (snd x c)) as [|b bs]; destruct p; cbn; try congruence;
      destruct (closed (snd x c)); congruence.
  - destruct (closed (snd x c)); [congruence|]. destruct (recvq (snd x c)); [|congruence].
    destruct (Nat.ltb _ _); [|congruence]. destruct (take x p); congruence.
Qed.
Lemma pass1_ok : forall l i sends try x y j, pass1 l i sends try x = Chosen y j ->
  (j = -1 /\ y = x /\ try = true /\ forall k c p, nth_error l k = Some (WInt c, p) -> ~ can_go (snd x c) (sends <=? i + Z.of_nat k))
  \/ exists k c p, j = i + Z.of_nat k /\ nth_error l k = Some (WInt c, p) /\ can_go (snd x c) (sends <=? j)
     /\ forall k' c' p', (k' < k)%nat -> nth_error l k' = Some (WInt c', p') -> ~ can_go (snd x c') (sends <=? i + Z.of_nat k').
Proof.
  induction l as [|[w p] l IH]; intros i sends try x y j H; cbn in H.
  - destruct try; [|discriminate]. injection H as <- <-. left. repeat split; auto. intros [|k] c p; discriminate.
  - destruct w as [c| |]; [|discriminate..]. destruct (ready x i sends c p) as [r|] eqn:R.
    + subst r. right. exists 0%nat, c, p. apply ready_index in R as Ej. subst j.
      split; [lia|]. split; [reflexivity|]. split; [apply (ready_iff x i sends c p); congruence|]. intros k' c' p' N. lia.
    + assert (NR : ~ can_go (snd x c) (sends <=? i + Z.of_nat 0)).
      { rewrite Z.add_0_r. intros N. apply (ready_iff x i sends c p) in N. contradiction. }
      destruct (IH _ _ _ _ _ _ H) as [(-> & -> & -> & N)|(k & c1 & p1 & -> & Hk & G & N)].
      * left. repeat split; auto. intros [|k] c1 p1; cbn [nth_error].
        -- intros [= <- <-]. exact NR.
        -- intros Hk. specialize (N k c1 p1 Hk). now replace (i + Z.of_nat (S k)) with (i + 1 + Z.of_nat k) by lia.
      * right. exists (S k), c1, p1. split; [lia|]. split; [exact Hk|]. split; [exact G|].
        intros [|k'] c' p' Lt; cbn [nth_error].
        -- intros [= <- <-]. exact NR.
        -- intros Hk'. replace (i + Z.of_nat (S k')) with (i + 1 + Z.of_nat k') by lia. apply (N k' c' p'); [lia|exact Hk'].
Qed.
