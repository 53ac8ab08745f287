(* Model of the marks that loader.c puts into documents and their nodes.  LoaderModel.v
   leaves them out; this is the same code with the marks beside the nodes: [ms] has the
   start_mark and end_mark of each element of document->nodes. *)
From Verif Require Import Base ReaderModel Types ParserModel DocModel LoaderModel.

(* nodes.start[index-1].end_mark = m *)
Fixpoint set_end (k : nat) (m : mark) (ms : list (mark * mark)) : list (mark * mark) :=
  match ms, k with
  | [], _ => []
  | (a, _) :: r, O => (a, m) :: r
  | x :: r, S k' => x :: set_end k' m r
  end.
(* what the function for the event [e] does to the marks in the state [s]: loader.c:390-396
   (scalar), 436-440 (sequence), 504-508 (mapping), 467-471 and 535-539 (ends) *)
Definition mark_event (s : lstate) (ms : list (mark * mark)) (e : event) : list (mark * mark) :=
  match e_ev e with
  | EScalar _ _ _ _ _ _ | ESeqStart _ _ _ _ | EMapStart _ _ _ _ => ms ++ [(e_start e, e_end e)]
  | ESeqEnd | EMapEnd => match l_ctx s with index :: _ => set_end (index - 1) (e_end e) ms | [] => ms end
  | _ => ms
  end.

(* yaml_document_t with its marks, and those of its nodes *)
Record marked_document := mkMarked { md_doc : document; md_start : mark; md_end : mark; md_nodes : list (mark * mark) }.
Inductive mout :=
| MDocument (d : marked_document) (l : loader)
| MOther (o : lout).                 (* everything but a document *)

(* loader.c:216-257 yaml_parser_load_nodes; [k] also gets the end mark of DOCUMENT-END *)
Fixpoint mload_nodes (fuel : nat) (p : parser) (s : lstate) (ms : list (mark * mark))
    (k : parser -> lstate -> list (mark * mark) -> bool -> mark -> mout) : mout :=
  match fuel with
  | O => MOther LOutOfFuel
  | S f =>
      match parse p with
      | PFail p' => MOther (LFailed (mkLoader p' true))
      | PNothing _ => MOther LAssertFail
      | PUB => MOther LUB
      | PEvent e p' =>
          match e_ev e with
          | EDocEnd implicit => k p' s ms implicit (e_end e)
          | _ => match load_event s e with
                 | LNext s' => mload_nodes f p' s' (mark_event s ms e) k
                 | LError err => MOther (LFailed (mkLoader (set_error p' err) true))
                 | LAssertion => MOther LAssertFail
                 | LUndefined => MOther LUB
                 end
          end
      end
  end.
(* loader.c:184-209 yaml_parser_load_document *)
Definition mload_document (fuel : nat) (p : parser) (e : event) : mout :=
  match e_ev e with
  | EDocStart version tags implicit =>
      mload_nodes fuel p (mkLstate [] [] []) [] (fun p' s ms end_implicit m =>
        MDocument (mkMarked (mkDoc (l_nodes s) version tags implicit end_implicit) (e_start e) m ms) (mkLoader p' true))
  | _ => MOther LAssertFail
  end.
(* loader.c:101-131, after STREAM-START *)
Definition mload_next (fuel : nat) (p : parser) : mout :=
  if p_end p then MOther (LNoDocument (mkLoader p true))
  else
    match parse p with
    | PFail p' => MOther (LFailed (mkLoader p' true))
    | PUB => MOther LUB
    | PNothing _ => MOther LAssertFail
    | PEvent e p' =>
        match e_ev e with
        | EStreamEnd => MOther (LNoDocument (mkLoader p' true))
        | _ => mload_document fuel p' e
        end
    end.
(* loader.c:86-132 yaml_parser_load *)
Definition mload (fuel : nat) (l : loader) : mout :=
  let p := ld_parser l in
  if ld_started l then mload_next fuel p
  else
    match parse p with
    | PFail p' => MOther (LFailed (mkLoader p' (has_token p)))
    | PUB => MOther LUB
    | PNothing _ => MOther LAssertFail
    | PEvent e p' =>
        match e_ev e with
        | EStreamStart _ => mload_next fuel p'
        | _ => MOther LAssertFail
        end
    end.
(* without the marks *)
Definition unmarked (o : mout) : lout := match o with MDocument d l => LDocument (md_doc d) l | MOther o => o end.
