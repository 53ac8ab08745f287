(* Character classes of the YAML 1.1 syntax, on code points. *)
From Verif Require Import Base.

Definition in_range (a b c : N) : bool := (a <=? c) && (c <=? b).
Definition is_digit (c : N) : bool := in_range 0x30 0x39 c.
Definition is_upper (c : N) : bool := in_range 0x41 0x5A c.
Definition is_lower (c : N) : bool := in_range 0x61 0x7A c.
(* letter, digit, '_' or '-' *)
Definition is_alpha (c : N) : bool := is_digit c || is_upper c || is_lower c || (c =? 0x5F) || (c =? 0x2D).
Definition is_hex (c : N) : bool := is_digit c || in_range 0x41 0x46 c || in_range 0x61 0x66 c.
Definition as_digit (c : N) : N := c - 0x30.
Definition as_hex (c : N) : N :=
  if in_range 0x41 0x46 c then c - 0x41 + 10 else if in_range 0x61 0x66 c then c - 0x61 + 10 else c - 0x30.
Definition is_ascii (c : N) : bool := c <=? 0x7F.
(* what may appear unescaped in the output *)
Definition is_printable (c : N) : bool :=
  (c =? 0xA) || in_range 0x20 0x7E c || in_range 0xA0 0xD7FF c
  || (in_range 0xE000 0xFFFD c && negb (c =? 0xFEFF)).
Definition is_z (c : N) : bool := c =? 0.
Definition is_bom (c : N) : bool := c =? 0xFEFF.
Definition is_space (c : N) : bool := c =? 0x20.
Definition is_tab (c : N) : bool := c =? 9.
Definition is_blank (c : N) : bool := is_space c || is_tab c.
(* CR, LF, NEL, LS, PS *)
Definition is_break (c : N) : bool := (c =? 0xD) || (c =? 0xA) || (c =? 0x85) || (c =? 0x2028) || (c =? 0x2029).
Definition is_breakz (c : N) : bool := is_break c || is_z c.
Definition is_spacez (c : N) : bool := is_space c || is_breakz c.
Definition is_blankz (c : N) : bool := is_blank c || is_breakz c.
