(* Specification side for input that cannot be read to its end (C72). *)
From Verif Require Import Base Utf8Spec ReaderModel ReaderSpec Types ScannerSpec CursorModel ScannerModel.

(* The characters that the client of ReaderSpec.drain is given, whatever comes after them. *)
Fixpoint given_chars (fuel : nat) (reqs : list N) (st : reader) : list (list N) :=
  match fuel with
  | O => []
  | S f =>
      match update_buffer (hd 1 reqs) st with
      | ROk st1 =>
          match skip_char st1 with
          | Some (c, st2) => if is_nul c then [] else c :: given_chars f (tl reqs) st2
          | None => []
          end
      | _ => []
      end
  end.
Definition given_by (e : encoding) (input : list N) (plan : list (option N)) (reqs : list N) : list (list N) :=
  given_chars (S (length input)) reqs (init_reader e input plan).

(* the encoding in use and the bytes of the byte order mark *)
Definition used_encoding (e : encoding) (input : list N) : encoding := match e with AnyEnc => fst (bom input) | _ => e end.
Definition after_mark (e : encoding) (input : list N) : list N := match e with AnyEnc => skipn (N.to_nat (snd (bom input))) input | _ => input end.

(* The tokens of a text, up to an error, and how it ends. *)
Definition all_of (e : encoding) (nest : Z) (text : list N) (bad : bool) (plan : list nat) : list token * outcome :=
  scan_all (4 * length text + 4) (init_scanner e nest text bad plan).
Definition begins {A} (l l' : list A) : Prop := exists more, l' = l ++ more.
