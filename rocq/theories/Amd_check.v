(** The finite part of the argument: for every entry of the table and every
    choice of operand types it accepts, the entry that is selected names, in the
    processor's opcode maps, the instruction asked for. *)
From Coq Require Import ZArith List Bool Lia String.
From Verif Require Import Base Amd_model Amd_spec.
Import ListNotations.
Open Scope Z_scope.

Definition shape_of_key (k : key) : shape :=
  match fst k with
  | KREG => SGpr (snd k)
  | KFREG => SXmm (snd k)
  | KINDIRECT | KDISP | KSIB | KRIP | KSEG | KSYMBOL => SMem (snd k)
  | KUINT8 => SNum 1
  | KUINT16 => SNum 2
  | KUINT32 | KUINT | KFLOAT32 => SNum 4
  | KUINT64 | KFLOAT64 => SNum 8
  end.

Definition is_mem (k : key) : bool :=
  match fst k with KINDIRECT | KDISP | KSIB | KRIP | KSEG => true | _ => false end.

Definition num_size (k : key) : option Z :=
  match fst k with
  | KUINT8 => Some 1 | KUINT16 => Some 2 | KUINT32 | KUINT => Some 4 | KUINT64 => Some 8
  | _ => None
  end.

Definition is_num (k : key) (n : Z) : bool :=
  match num_size k with Some m => m =? n | None => false end.
Definition is_reg (k : key) : bool := okind_eqb (fst k) KREG.
Definition is_xmm (k : key) : bool := okind_eqb (fst k) KFREG.

Definition is_shift (name : string) : bool :=
  String.eqb name "sal" || String.eqb name "sar" || String.eqb name "shr".

Definition op_agree (name : string) (l : list shape) (slashr : bool)
  (pt : pat) (e : enc) (k : key) : bool :=
  match pt, e with
  | PE w, MODRM_RM =>
      (is_reg k && (want_width name l (snd k) =? w))
      || (is_mem k && (want_mem name (snd k) =? w))
  | PG w, MODRM_REG => slashr && is_reg k && (want_width name l (snd k) =? w)
  | PZ w, OPCODE_PLUS => is_reg k && (want_width name l (snd k) =? w)
  | PImm n w, IMM =>
      is_num k n && negb (jumps name) && negb (String.eqb name "shr") && (num_width l =? w)
  | PRaw n, IMM => is_num k n && negb (jumps name) && String.eqb name "shr"
  | PRel n, IMM => is_num k n && jumps name
  | PCl, MODRM_REG => negb slashr && is_shift name && is_reg k && (snd k =? 1)
  | PX, MODRM_REG => slashr && is_xmm k
  | PXE m, MODRM_RM => is_xmm k || (is_mem k && (want_mem name (snd k) =? m))
  | PMem m, MODRM_RM => is_mem k && (want_mem name (snd k) =? m)
  | _, _ => false
  end.

Fixpoint ops_agree (name : string) (l : list shape) (slashr : bool)
  (ps : list pat) (es : list (low * enc)) (ks : list key) : bool :=
  match ps, es, ks with
  | [], [], [] => true
  | p :: ps', (_, e) :: es', k :: ks' =>
      op_agree name l slashr p e k && ops_agree name l slashr ps' es' ks'
  | _, _, _ => false
  end.

(** the entry with its operand-size byte among the prefixes *)
Definition norm (t : tmpl) : Z * list Z :=
  match t_prefix t, t_opcode t with
  | 0, 102 :: o => (102, o)
  | p, o => (p, o)
  end.

Definition lookup (pre v n : Z) (o : list Z) : option (string * list pat) :=
  match o with
  | [b] => if b =? 15 then None else map1 b v n
  | [b; c] => if b =? 15 then map2 c v (pre =? 102) (pre =? 242) (pre =? 243) else None
  | _ => None
  end.

Definition plain_byte (b : Z) : bool :=
  negb (existsb (Z.eqb b) [102; 242; 243; 100; 101]) && negb (b / 16 =? 4)
  && (0 <? b) && (b <? 256).

Definition slash_digit (l : list ext) : option Z :=
  if has_ext SLASH0 l then Some 0 else if has_ext SLASH1 l then Some 1
  else if has_ext SLASH2 l then Some 2 else if has_ext SLASH3 l then Some 3
  else if has_ext SLASH4 l then Some 4 else if has_ext SLASH5 l then Some 5
  else if has_ext SLASH6 l then Some 6 else if has_ext SLASH7 l then Some 7
  else None.

Definition enc_eqb (a b : enc) : bool :=
  match a, b with
  | MODRM_RM, MODRM_RM | MODRM_REG, MODRM_REG | IMM, IMM | OPCODE_PLUS, OPCODE_PLUS => true
  | _, _ => false
  end.

Definition upto8 : list Z := [0; 1; 2; 3; 4; 5; 6; 7].

Fixpoint encs_eqb (a b : list enc) : bool :=
  match a, b with
  | [], [] => true
  | x :: a', y :: b' => enc_eqb x y && encs_eqb a' b'
  | _, _ => false
  end.

Definition shapes9 : list (list enc) :=
  [ []; [IMM]; [OPCODE_PLUS]; [OPCODE_PLUS; IMM]; [MODRM_RM]; [MODRM_RM; IMM];
    [MODRM_RM; MODRM_REG]; [MODRM_REG; MODRM_RM]; [MODRM_REG; MODRM_RM; IMM] ].

(** one of these, with /r if the first operand is in the field reg *)
Definition shape_okb (es : list enc) (slashr : bool) : bool :=
  existsb (encs_eqb es) shapes9
  && match es with MODRM_REG :: _ => slashr | _ => true end.

(** the state after the extensions, as a function of the entry *)
Definition start (t : tmpl) : format :=
  fold_left build_ext (t_ext t) (F (t_prefix t) None (t_opcode t) None None [] []).

Definition start_ok (t : tmpl) : bool :=
  let es := map snd (t_ops t) in
  let slashr := has_ext SLASHR (t_ext t) in
  match f_rex (start t) with
  | None => negb (has_rex_extension (t_ext t))
  | Some r => has_rex_extension (t_ext t)
              && Bool.eqb (x_w r) (has_ext REX_W (t_ext t)) && negb (x_r r) && negb (x_x r) && negb (x_b r)
  end
  && match f_modrm (start t) with
     | None => negb slashr && encs_eqb es [MODRM_RM] || negb (existsb (fun e => enc_eqb e MODRM_RM) es)
     | Some m => (m_mod m =? 0) && (m_rm m =? 0)
                 && existsb (fun e => enc_eqb e MODRM_RM) es
                 && match slash_digit (t_ext t) with
                    | Some d => (m_reg m =? d) && negb slashr
                    | None => slashr && (m_reg m =? 0)
                    end
     end.

Definition agree (t : tmpl) (ks : list key) : bool :=
  let (pre, o) := norm t in
  let es := map snd (t_ops t) in
  let w := has_ext REX_W (t_ext t) in
  let v := op_width w (pre =? 102) in
  let slashr := has_ext SLASHR (t_ext t) in
  let name := t_group t in
  let l := map shape_of_key ks in
  let plus := existsb (fun e => enc_eqb e OPCODE_PLUS) es in
  existsb (Z.eqb pre) [0; 102; 242; 243]
  && shape_okb es slashr
  && start_ok t
  && (negb (existsb (fun k => okind_eqb (fst k) KSEG) ks) || (t_prefix t =? 0) && (pre =? 0))
  && forallb (fun k =>
       let o' := if plus then opcode_plus o k else o in
       forallb plain_byte (firstn 1 o')
       && forallb (fun b => 0 <? b) o'
       && negb (w && (pre =? 102))
       && (negb plus || ((List.length o' =? 1)%nat && (nth 0 o' 0 mod 8 =? k)))
       && forallb (fun n =>
            match lookup pre v n o' with
            | Some (name', ps) =>
                String.eqb name' (want_name name l)
                && ops_agree name l slashr ps (t_ops t) ks
            | None => false
            end)
            (match slash_digit (t_ext t) with Some d => [d] | None => upto8 end))
       (if plus then upto8 else [0]).

Definition excluded (name : string) (ks : list key) : bool :=
  match ks with
  | [a; b] =>
      (String.eqb name "add" && is_mem a && (snd a =? 1) && is_reg b && (snd b =? 1))
      || (String.eqb name "xor" && is_xmm a && is_mem b)
  | _ => false
  end.

Fixpoint product (ls : list (low * enc)) : list (list key) :=
  match ls with
  | [] => [[]]
  | (l, _) :: r => flat_map (fun k => map (cons k) (product r)) (low_to_high l)
  end.

Definition check1 (name : string) (ks : list key) (high : bool) : bool :=
  match select_keys name ks high with
  | None => true
  | Some t => agree t ks || excluded name ks
  end.

Definition check_all : bool :=
  forallb (fun t =>
    forallb (fun ks => check1 (t_group t) ks false && check1 (t_group t) ks true)
      (product (t_ops t))) table.
