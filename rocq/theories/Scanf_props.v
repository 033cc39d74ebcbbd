(** C105-C106: sscanf. *)
From Verif Require Import Base Base_lemmas Strings_model Url_model Fmt_model Fmt_spec Scanf_model Scanf_spec
  Scanf_proof Scanf_back_proof.

(** C105: sscanf stores what the items of the format read from the text, through the
    arguments in order, and returns how many values it stored. *)
Theorem C105_scanf_reads : forall its fmt text ps vs,
  format_of its fmt -> Forall fitem_ok its -> Forall ptr_ok ps -> zlen text < 2 ^ 62 ->
  scan its text ps vs ->
  sscanf text fmt ps = Ok (stores 0 vs, zlen (stores 0 vs)).
Proof. exact sscanf_ok. Qed.
Print Assumptions C105_scanf_reads.

(** "x=%d, %3x%s" reads "x=-12,  ffez!" as -12, 0xffe and "z!" *)
Example C105_scanf_reads_example :
  let its := map FLit (bs "x=") ++ [FConv [] 100; FLit 44; FBlank; FConv (bs "3") 120; FConv [] 115] in
  let text := bs "x=-12,  ffez!" in
  let ps := [PSigned 16; PUnsigned 32; PString] in
  let vs := [Some (SInt (-12)); Some (SInt 4094); Some (SStr (bs "z!"))] in
  format_of its (bs "x=%d, %3x%s") /\ Forall fitem_ok its /\ Forall ptr_ok ps /\ scan its text ps vs
  /\ sscanf text (bs "x=%d, %3x%s") ps = Ok (stores 0 vs, 3).
Proof.
  cbv zeta.
  assert (Hf : format_of (map FLit (bs "x=") ++ [FConv [] 100; FLit 44; FBlank; FConv (bs "3") 120; FConv [] 115])
     (bs "x=%d, %3x%s")) by (exists []; split; [reflexivity|left; reflexivity]).
  split; [exact Hf|]. split.
  { repeat apply Forall_cons; try apply Forall_nil; cbn; try exact Logic.I; try lia.
    - split; [constructor|]. cbn. lia.
    - split; [repeat constructor; lia|]. cbn. lia.
    - split; [constructor|]. cbn. lia. }
  split; [repeat constructor; cbn; tauto|]. split; [|vm_compute; reflexivity].
  change (bs "x=-12,  ffez!") with [120; 61; 45; 49; 50; 44; 32; 32; 102; 102; 101; 122; 33].
  change (bs "x=") with [120; 61]. cbn [map app].
  apply scan_lit. apply scan_lit.
  refine (scan_conv [] 100 0 _ _ [44; 32; 32; 102; 102; 101; 122; 33] _ _ _ _ _ _ _ _);
    [discriminate|cbn; lia| |].
  { refine (reads_d 100 0 true [45] [49; 50] [1; 2] _ (PSigned 16) eq_refl _ _ _ _).
    - left; tauto.
    - split; [repeat constructor; unfold dec; lia|]. split; [exact Logic.I|].
      right; right. eexists; eexists. split; [reflexivity|unfold dec; lia].
    - repeat constructor; unfold dec_char; lia.
    - discriminate. }
  apply scan_lit. refine (scan_blank 2 _ _ _ _ _ _); [cbn; lia|].
  refine (scan_conv (bs "3") 120 0 _ _ [122; 33] _ _ _ _ _ _ _ _); [discriminate|cbn; lia| |].
  { refine (reads_x 120 3 [102; 102; 101] [15; 15; 14] _ (PUnsigned 32) (or_introl eq_refl) _ _ _).
    - split; [repeat constructor; unfold hex; lia|]. split; [cbn; lia|]. right; left. reflexivity.
    - repeat apply Forall2_cons; try apply Forall2_nil; left; right; lia.
    - discriminate. }
  refine (scan_conv [] 115 0 _ _ [] _ _ _ _ _ _ _ _); [discriminate|cbn; lia| |constructor].
  refine (reads_s 115 0 [122; 33] [] PString eq_refl _ _); [|discriminate].
  split; [repeat constructor; lia|]. split; [exact Logic.I|left; reflexivity].
Qed.

(** C105: reading has an outcome for every text. *)
Theorem C105_scanf_total : forall its, Forall fitem_ok its -> forall text ps, exists vs, scan its text ps vs.
Proof. exact scan_total. Qed.
Print Assumptions C105_scanf_total.

(** C105: for every format, text and arguments sscanf returns; the number returned is
    the number of values stored and at most the number of arguments; every value is
    stored through an argument that can hold it. *)
Theorem C105_scanf_safe : forall fmt text ps, Forall ptr_ok ps -> zlen text < 2 ^ 62 -> Forall is_byte text ->
  narrow fmt ->
  exists ws, sscanf text fmt ps = Ok (ws, zlen ws) /\ zlen ws <= zlen ps /\
    (forall i v, In (i, v) ws -> 0 <= i /\ exists p, nth_error ps (Z.to_nat i) = Some p /\ fits p v).
Proof. exact sscanf_safe. Qed.
Print Assumptions C105_scanf_safe.

Example C105_scanf_safe_example :
  narrow (bs "%3d%") /\ sscanf (bs "12345") (bs "%3d%") [PUnsigned 8; PString] = Ok ([(0, SInt 123)], 1).
Proof.
  split; [|vm_compute; reflexivity].
  intros pre w post E Hw. change (bs "%3d%") with [37; 51; 100; 37] in E.
  destruct pre as [|a [|b [|c [|d pre]]]]; cbn [app] in E; try discriminate.
  - destruct w as [|x [|y w]]; [reflexivity| |].
    + injection E as <- _. reflexivity.
    + injection E as <- <- _. inversion Hw as [|? ? ? H2]; subst. inversion H2; subst. lia.
  - injection E as _ _ _ E. destruct w as [|x w]; [reflexivity|discriminate].
  - injection E as _ _ _ _ E. destruct pre; discriminate.
Qed.

(** C105, full statement is false: a number too large for the argument is stored cut
    down and counted as read; 300 into a u8 gives 44. *)
Theorem C105_scanf_overflow_refuted : exists text,
  text = bs "300" /\ sscanf text (bs "%d") [PUnsigned 8] = Ok ([(0, SInt 44)], 1).
Proof. eexists. split; [reflexivity|vm_compute; reflexivity]. Qed.
Print Assumptions C105_scanf_overflow_refuted.

(** C105, without the limit on widths it is false: a huge width for %c ends the
    program. *)
Theorem C105_scanf_width_refuted : exists fmt text ps,
  Forall ptr_ok ps /\ sscanf text fmt ps = Panic.
Proof.
  exists (bs "%d%9223372036854775807c"), (bs "7xy"), [PSigned 64; PString].
  split; [repeat constructor; cbn; tauto|]. vm_compute. reflexivity.
Qed.
Print Assumptions C105_scanf_width_refuted.

(** C106: sscanf reads back what sprintf prints with the same format: every argument, in
    order.  Missing: directives with a width, strings that are not words, the blank with
    %c, and values not separated in the text (all but %c). *)
Theorem C106_scanf_back_partial : forall ftos its args,
  all_printable its args -> Forall item_ok its -> readable its args ->
  exists out, sprintf ftos (concat (map item_text its)) args = Ok out /\
    (zlen out < 2 ^ 62 ->
     sscanf out (concat (map item_text its)) (map back_ptr args)
       = Ok (stores 0 (map (fun a => Some (back_value a)) args), zlen args)).
Proof. exact sscanf_back. Qed.
Print Assumptions C106_scanf_back_partial.

Example C106_scanf_back_example :
  let its := [Lit (bs "id "); Dir false [] 100; Lit (bs ":  "); Dir false [] 88; Percent; Dir false [] 99;
              Dir false [] 115] in
  let args := [ASigned 64 (-42); ASigned 8 (-1); AUnsigned 8 63; AString (bs "end")] in
  all_printable its args /\ Forall item_ok its /\ readable its args
  /\ concat (map item_text its) = bs "id %d:  %X%%%c%s"
  /\ sprintf (fun _ _ _ _ _ => []) (bs "id %d:  %X%%%c%s") args = Ok (bs "id -42:  FF%?end")
  /\ sscanf (bs "id -42:  FF%?end") (bs "id %d:  %X%%%c%s") (map back_ptr args)
     = Ok ([(0, SInt (-42)); (1, SInt (-1)); (2, SInt 63); (3, SStr (bs "end"))], 4).
Proof.
  cbv zeta. split.
  { repeat apply ap_lit; repeat (apply ap_lit || apply ap_pct || apply ap_dir || apply ap_nil);
      cbn; change (digit_value []) with 0; intuition lia. }
  split.
  { repeat apply Forall_cons; try apply Forall_nil; cbn; try exact Logic.I; try lia;
      (split; [constructor|]); cbn; intuition (lia || discriminate). }
  split.
  { repeat (apply readable_lit || apply readable_pct || apply readable_dir || apply readable_nil);
      try discriminate; cbn; unfold dec, hex; try lia; try tauto.
    split; [reflexivity|]. split; [discriminate|]. cbn. lia. }
  split; [reflexivity|]. split; vm_compute; reflexivity.
Qed.

(** C106, full statement is false: a string with a blank comes back cut, the empty
    string not at all, the blank not at all, and a number wider than its width cut. *)
Theorem C106_scanf_back_string_refuted : exists s out,
  sprintf (fun _ _ _ _ _ => []) (bs "%s") [AString s] = Ok out /\
  sscanf out (bs "%s") [PString] = Ok ([(0, SStr (bs "a"))], 1) /\ s <> bs "a".
Proof. exists (bs "a b"), (bs "a b"). repeat split; try (vm_compute; reflexivity). discriminate. Qed.
Print Assumptions C106_scanf_back_string_refuted.

Theorem C106_scanf_back_empty_refuted : exists out,
  sprintf (fun _ _ _ _ _ => []) (bs "%s") [AString []] = Ok out /\ sscanf out (bs "%s") [PString] = Ok ([], 0).
Proof. exists []. split; vm_compute; reflexivity. Qed.
Print Assumptions C106_scanf_back_empty_refuted.

Theorem C106_scanf_back_blank_refuted : exists out,
  sprintf (fun _ _ _ _ _ => []) (bs "%c") [AUnsigned 8 32] = Ok out /\
  sscanf out (bs "%c") [PUnsigned 8] = Ok ([], 0).
Proof. exists (bs " "). split; vm_compute; reflexivity. Qed.
Print Assumptions C106_scanf_back_blank_refuted.

Theorem C106_scanf_back_width_refuted : exists out,
  sprintf (fun _ _ _ _ _ => []) (bs "%2d") [ASigned 64 123] = Ok out /\
  sscanf out (bs "%2d") [PSigned 64] = Ok ([(0, SInt 12)], 1).
Proof. exists (bs "123"). split; vm_compute; reflexivity. Qed.
Print Assumptions C106_scanf_back_width_refuted.
