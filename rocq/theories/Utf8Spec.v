(* Independent specification of Unicode scalar values, UTF-8 and UTF-16, and of
   the set of characters YAML allows.  Nothing here is taken from the C code:
   it follows RFC 3629, RFC 2781 and the YAML 1.1 productions. *)
From Verif Require Import Base.

(* Unicode scalar values: code points except surrogates. *)
Definition scalar_value (c : N) : Prop := c < 0xD800 \/ (0xE000 <= c /\ c <= 0x10FFFF).

(* RFC 3629 encoding of one code point, by arithmetic. *)
Definition utf8_enc (c : N) : list N :=
  if c <? 0x80 then [c]
  else if c <? 0x800 then [0xC0 + c / 64; 0x80 + c mod 64]
  else if c <? 0x10000 then [0xE0 + c / 4096; 0x80 + (c / 64) mod 64; 0x80 + c mod 64]
  else [0xF0 + c / 262144; 0x80 + (c / 4096) mod 64; 0x80 + (c / 64) mod 64; 0x80 + c mod 64].

Definition utf8 (cs : list N) : list N := flat_map utf8_enc cs.

(* RFC 2781: one or two 16-bit code units. *)
Definition utf16_units (c : N) : list N :=
  if c <? 0x10000 then [c]
  else [0xD800 + (c - 0x10000) / 1024; 0xDC00 + (c - 0x10000) mod 1024].
(* serialisation of a code unit; [be] is big endian *)
Definition unit_bytes (be : bool) (u : N) : list N :=
  if be then [u / 256; u mod 256] else [u mod 256; u / 256].
Definition utf16_enc (be : bool) (c : N) : list N := flat_map (unit_bytes be) (utf16_units c).
Definition utf16 (be : bool) (cs : list N) : list N := flat_map (utf16_enc be) cs.

(* c-printable of the YAML specification. *)
Definition yaml_char (c : N) : Prop :=
  c = 0x9 \/ c = 0xA \/ c = 0xD \/ (0x20 <= c /\ c <= 0x7E) \/ c = 0x85
  \/ (0xA0 <= c /\ c <= 0xD7FF) \/ (0xE000 <= c /\ c <= 0xFFFD)
  \/ (0x10000 <= c /\ c <= 0x10FFFF).

(* A byte sequence [bs] is the UTF-8 form of the YAML text [cs]. *)
Definition is_utf8_text (bs cs : list N) : Prop := bs = utf8 cs /\ Forall yaml_char cs.
Definition is_utf16_text (be : bool) (bs cs : list N) : Prop := bs = utf16 be cs /\ Forall yaml_char cs.
