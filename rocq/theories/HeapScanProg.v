(* Programs that scan. *)
From Verif Require Import Base ReaderModel Types CursorModel ScanModel ParserModel DocModel HeapModel HeapSpec HeapLoaderModel
  HeapTokenModel HeapTokenSpec HeapLexModel ScannerModel ScannerSpec HeapScanModel HeapScanSpec HeapParserModel.

(* How the calls of a program came to an end: the stream has ended; a call
   returned 0 (with this error, with YAML_MEMORY_ERROR, without an error); the
   program wants no more tokens; there is no parser. *)
Inductive ending := AtEnd | CallFailed (e : xerr) | Enough | NoParser.
(* up to [n] calls of yaml_parser_scan, until one returns 0 or no token; all
   tokens are kept *)
Inductive taken := Taken (ts : list htoken) (e : ending) (y : ysc) (h : heap) | TakenUndef.
Fixpoint take_tokens (n : nat) (y : ysc) (h : heap) : taken :=
  match n with
  | O => Taken [] Enough y h
  | S n' =>
      match y_scan y h with
      | YOk None y' h' => Taken [] AtEnd y' h'
      | YOk (Some t) y' h' =>
          match take_tokens n' y' h' with
          | Taken ts e y'' h'' => Taken (t :: ts) e y'' h''
          | TakenUndef => TakenUndef
          end
      | YErr e y' h' => Taken [] (CallFailed e) y' h'
      | YUndef | YFuel => TakenUndef
      end
  end.
Fixpoint delete_tokens (ts : list htoken) : hm unit :=
  match ts with [] => hret tt | t :: r => hbind (token_delete (ht_tok t)) (fun _ => delete_tokens r) end.
(* A program that initialises a parser with an input, takes tokens, looks at them,
   deletes them, before or after the parser, and deletes the parser: the tokens it saw and how it ended *)
Definition scan_program (s : sc) (n : nat) (first : bool) : hm (list token * ending) :=
  hbind (parser_initialize s) (fun r =>
  match r with
  | None => hret ([], NoParser)
  | Some p => fun h =>
      match take_tokens n (hp_scan p) h with
      | TakenUndef => HUndef
      | Taken ts e y' h' =>
          hbind (if first then hbind (delete_tokens ts) (fun _ => parser_delete (with_scan p y')) else hbind (parser_delete (with_scan p y')) (fun _ => delete_tokens ts))
            (fun _ => hret (map (token_at h') ts, e)) h'
      end
  end).

(* the same calls where memory is no matter *)
Definition ending_of (o : outcome) : ending :=
  match o with Ended => AtEnd | Failed e => CallFailed (XScan e) | Unfinished => Enough | Undefined => NoParser end.
Definition by_memory (e : ending) : bool :=
  match e with CallFailed XMemory | CallFailed XUnset | NoParser => true | _ => false end.
