(* Programs that use a parser: any sequence of calls of yaml_parser_parse, or of
   yaml_parser_load, with the results kept and deleted in any order. *)
From Verif Require Import Base ReaderModel Types ParserModel LoaderModel DocModel HeapModel HeapSpec HeapLoaderModel HeapScanModel HeapParserModel HeapParserSpec.

(* what the program sees in an event it has been given; reads memory only *)
Definition look (x : hevent) : hm (option event) :=
  fun h => HOk (option_map (fun e => mkEvent e (he_start x) (he_end x)) (event_at h (he_ev x))) h.

Inductive pcall :=
| Parse                  (* yaml_parser_parse *)
| Drop (k : nat).        (* yaml_event_delete of the k-th event held *)
(* [evs]: the events held.  The last component of the result: the events
   returned, with the contents seen when they were returned. *)
Fixpoint parse_calls (calls : list pcall) (p : hp) (evs : list hevent) : hm (hp * list hevent * list event) :=
  match calls with
  | [] => hret (p, evs, [])
  | Parse :: r =>
      '(p, x) <~ h_parse p ;;
      match x with
      | None => parse_calls r p evs
      | Some x =>
          e <~ look x ;;
          '(p, evs, es) <~ parse_calls r p (x :: evs) ;;
          hret (p, evs, match e with None => es | Some e => e :: es end)
      end
  | Drop k :: r =>
      match nth_error evs k with
      | None => parse_calls r p evs
      | Some x => event_delete (he_ev x) ;;; parse_calls r p (remove_nth k evs)
      end
  end.
Fixpoint parses (calls : list pcall) : nat := match calls with [] => O | Parse :: r => S (parses r) | Drop _ :: r => parses r end.

(* Loading: up to [n] documents, until a load fails; the documents are kept.  The last
   component of the result: whether a load failed. *)
Definition load_one (fuel : nat) : hp -> hm (hp * hload) := h_load hp h_parse 
  (fun p => ScannerModel.s_started (y_sc (hp_scan p))) (fun p => y_ended (hp_scan p)) fuel.
Fixpoint load_calls (fuel n : nat) (p : hp) (docs : list hdoc) : hm (hp * list hdoc * bool) :=
  match n with
  | O => hret (p, docs, false)
  | S n =>
      '(p, r) <~ load_one fuel p ;;
      match r with
      | HLoaded d | HLoadedEnd d => load_calls fuel n p (docs ++ [d])
      | HLoadFailed => hret (p, docs, true)
      | HLoadFuel => hundef
      end
  end.
Fixpoint delete_docs (docs : list hdoc) : hm unit :=
  match docs with [] => hret tt | d :: r => document_delete d ;;; delete_docs r end.
(* the same on values; a failed load ends the list *)
Fixpoint loads_of (fuel n : nat) (l : loader) : list document * bool :=
  match n with
  | O => ([], false)
  | S n =>
      match load fuel l with
      | LDocument d l => let (ds, b) := loads_of fuel n l in (d :: ds, b)
      | LNoDocument l => let (ds, b) := loads_of fuel n l in (mkDoc [] None [] false false :: ds, b)
      | _ => ([], true)
      end
  end.
