(* The byte-level character macros of yaml_private.h:165-411, on the bytes at
   string.pointer.  None: a byte outside the string is read. *)
From Verif Require Import Base ReaderModel.

Definition byte_at (bs : list N) (k : nat) : option N := nth_error bs k.
(* short-circuit operators *)
Definition oor (a : option bool) (b : option bool) : option bool :=
  match a with Some true => Some true | Some false => b | None => None end.
Definition oand (a : option bool) (b : option bool) : option bool :=
  match a with Some true => b | Some false => Some false | None => None end.
Definition onot (a : option bool) : option bool := option_map negb a.
Definition test (bs : list N) (k : nat) (p : N -> bool) : option bool := option_map p (byte_at bs k).

(* CHECK_AT, 174 *)
Definition CHECK_AT (bs : list N) (o : N) (k : nat) : option bool := test bs k (fun b => b =? o).
Definition GE (o : N) (b : N) := o <=? b.
Definition LE (o : N) (b : N) := b <=? o.
Definition rng bs k lo hi := oand (test bs k (GE lo)) (test bs k (LE hi)).
(* IS_ALPHA_AT, 188-196 *)
Definition IS_ALPHA_AT bs k :=
  oor (oor (oor (oor (rng bs k 0x30 0x39) (rng bs k 0x41 0x5A)) (rng bs k 0x61 0x7A)) (CHECK_AT bs 0x5F k)) (CHECK_AT bs 0x2D k).
(* IS_DIGIT_AT, 204-206; AS_DIGIT_AT, 214-215 *)
Definition IS_DIGIT_AT bs k := rng bs k 0x30 0x39.
Definition AS_DIGIT_AT bs k : option N := option_map (fun b => b - 0x30) (byte_at bs k).
(* IS_HEX_AT, 223-229; AS_HEX_AT, 237-244 *)
Definition IS_HEX_AT bs k := oor (oor (rng bs k 0x30 0x39) (rng bs k 0x41 0x46)) (rng bs k 0x61 0x66).
Definition AS_HEX_AT bs k : option N :=
  option_map (fun b => if (0x41 <=? b) && (b <=? 0x46) then b - 0x41 + 10
                       else if (0x61 <=? b) && (b <=? 0x66) then b - 0x61 + 10 else b - 0x30) (byte_at bs k).
(* IS_ASCII_AT, 252-253 *)
Definition IS_ASCII_AT bs k := test bs k (LE 0x7F).
(* IS_PRINTABLE_AT, 261-277 *)
Definition IS_PRINTABLE_AT bs k :=
  oor (oor (oor (oor (oor (oor
    (CHECK_AT bs 0x0A k)
    (oand (test bs k (GE 0x20)) (test bs k (LE 0x7E))))
    (oand (CHECK_AT bs 0xC2 k) (test bs (k + 1) (GE 0xA0))))
    (oand (test bs k (fun b => 0xC2 <? b)) (test bs k (fun b => b <? 0xED))))
    (oand (CHECK_AT bs 0xED k) (test bs (k + 1) (fun b => b <? 0xA0))))
    (CHECK_AT bs 0xEE k))
    (oand (oand (CHECK_AT bs 0xEF k)
       (onot (oand (CHECK_AT bs 0xBB (k + 1)) (CHECK_AT bs 0xBF (k + 2)))))
       (onot (oand (CHECK_AT bs 0xBF (k + 1)) (oor (CHECK_AT bs 0xBE (k + 2)) (CHECK_AT bs 0xBF (k + 2)))))).
(* 285-370 *)
Definition IS_Z_AT bs k := CHECK_AT bs 0 k.
Definition IS_BOM_AT bs k := oand (oand (CHECK_AT bs 0xEF k) (CHECK_AT bs 0xBB (k + 1))) (CHECK_AT bs 0xBF (k + 2)).
Definition IS_SPACE_AT bs k := CHECK_AT bs 0x20 k.
Definition IS_TAB_AT bs k := CHECK_AT bs 9 k.
Definition IS_BLANK_AT bs k := oor (IS_SPACE_AT bs k) (IS_TAB_AT bs k).
Definition IS_BREAK_AT bs k :=
  oor (oor (oor (oor (CHECK_AT bs 0xD k) (CHECK_AT bs 0xA k))
    (oand (CHECK_AT bs 0xC2 k) (CHECK_AT bs 0x85 (k + 1))))
    (oand (oand (CHECK_AT bs 0xE2 k) (CHECK_AT bs 0x80 (k + 1))) (CHECK_AT bs 0xA8 (k + 2))))
    (oand (oand (CHECK_AT bs 0xE2 k) (CHECK_AT bs 0x80 (k + 1))) (CHECK_AT bs 0xA9 (k + 2))).
Definition IS_CRLF_AT bs k := oand (CHECK_AT bs 0xD k) (CHECK_AT bs 0xA (k + 1)).
Definition IS_BREAKZ_AT bs k := oor (IS_BREAK_AT bs k) (IS_Z_AT bs k).
Definition IS_SPACEZ_AT bs k := oor (IS_SPACE_AT bs k) (IS_BREAKZ_AT bs k).
Definition IS_BLANKZ_AT bs k := oor (IS_BLANK_AT bs k) (IS_BREAKZ_AT bs k).
(* WIDTH_AT, 379-383: the same expression as in reader.c *)
Definition WIDTH_AT bs k : option N := option_map utf8_width (byte_at bs k).
(* MOVE, 391: the bytes left *)
Definition MOVE (bs : list N) : option (list N) :=
  match WIDTH_AT bs 0 with
  | None => None
  | Some w => if nlen bs <? w then None else Some (skipn (N.to_nat w) bs)
  end.
(* COPY, 397-411: the bytes appended to string_a, and the bytes left of string_b *)
Fixpoint copy_n (n : nat) (bs : list N) : option (list N * list N) :=
  match n with
  | O => Some ([], bs)
  | S n' => match bs with
            | [] => None
            | b :: bs' => match copy_n n' bs' with None => None | Some (l, r) => Some (b :: l, r) end
            end
  end.
Definition COPY (bs : list N) : option (list N * list N) :=
  match byte_at bs 0 with
  | None => None
  | Some b =>
      if N.land b 0x80 =? 0 then copy_n 1 bs
      else if N.land b 0xE0 =? 0xC0 then copy_n 2 bs
      else if N.land b 0xF0 =? 0xE0 then copy_n 3 bs
      else if N.land b 0xF8 =? 0xF0 then copy_n 4 bs
      else copy_n 0 bs
  end.
