(* Programs that use a parser and an emitter: what they do to memory, and what
   they do on values. *)
From Verif Require Import Base ReaderModel Types ParserModel LoaderModel DocModel DumperModel HeapModel HeapSpec HeapLoaderModel HeapScanModel HeapParserModel HeapParserSpec HeapClient HeapEmitModel HeapEmitSpec.

(* ---- programs that handle documents ---- *)
Inductive wcall :=
| WLoad                          (* yaml_parser_load; the document is kept *)
| WBuild (v : option version) (ts : list tagdir) (si ei : bool) (ops : list dop)
                                 (* a document is built with yaml_document_* and kept *)
| WDump (k : nat)                (* yaml_emitter_dump of the k-th document kept *)
| WDelete (k : nat)              (* yaml_document_delete of the k-th document kept *)
| WOpen | WClose                 (* yaml_emitter_open if not opened, _close if opened *)
| WEmit (e : ev).                (* an event is made with yaml_*_event_initialize and given to yaml_emitter_emit *)
(* [w_failed]: a load has failed; the program loads no more *)
Record world := mkWorld { w_parser : hp; w_failed : bool; w_emitter : em; w_docs : list hdoc }.
Definition w_with_emitter (w : world) (m : em) : world := mkWorld (w_parser w) (w_failed w) m (w_docs w).
Definition w_with_docs (w : world) (l : list hdoc) : world := mkWorld (w_parser w) (w_failed w) (w_emitter w) l.

Definition h_wstep (fuel : nat) (w : world) (c : wcall) : hm world :=
  match c with
  | WLoad =>
      if w_failed w then hret w
      else
        '(p, r) <~ load_one fuel (w_parser w) ;;
        match r with
        | HLoaded d | HLoadedEnd d => hret (mkWorld p false (w_emitter w) (w_docs w ++ [d]))
        | HLoadFailed => hret (mkWorld p true (w_emitter w) (w_docs w))
        | HLoadFuel => hundef
        end
  | WBuild v ts si ei ops =>
      d <~ h_document_initialize v ts si ei ;;
      match d with
      | None => hret w
      | Some d => '(_, d) <~ h_drun d ops ;; hret (w_with_docs w (w_docs w ++ [d]))
      end
  | WDump k =>
      match nth_error (w_docs w) k with
      | None => hret w
      | Some d =>
          '(m, o) <~ h_dump (S (length (a_els (hd_nodes d)))) (w_emitter w) d ;;
          match o with
          | KDone _ => hret (mkWorld (w_parser w) (w_failed w) m (remove_nth k (w_docs w)))
          | KFuel => hundef
          end
      end
  | WDelete k =>
      match nth_error (w_docs w) k with
      | None => hret w
      | Some d => document_delete d ;;; hret (w_with_docs w (remove_nth k (w_docs w)))
      end
  | WOpen => if m_opened (w_emitter w) then hret w else '(m, _) <~ h_open (w_emitter w) ;; hret (w_with_emitter w m)
  | WClose => if m_opened (w_emitter w) then '(m, _) <~ h_close (w_emitter w) ;; hret (w_with_emitter w m) else hret w
  | WEmit e =>
      x <~ event_initialize e ;;
      match x with
      | None => hret w
      | Some x => '(m, _) <~ h_emit (w_emitter w) x ;; hret (w_with_emitter w m)
      end
  end.
Fixpoint h_wrun (fuel : nat) (w : world) (calls : list wcall) : hm world :=
  match calls with [] => hret w | c :: r => w <~ h_wstep fuel w c ;; h_wrun fuel w r end.
(* parser and emitter are made; if the second fails, the first is deleted *)
Definition h_make (input : ScannerModel.sc) (ein : list (list eaction * bool)) : hm (option (hp * em)) :=
  p <~ parser_initialize input ;;
  match p with
  | None => hret None
  | Some p =>
      m <~ emitter_initialize ein ;;
      match m with
      | None => parser_delete p ;;; hret None
      | Some m => hret (Some (p, m))
      end
  end.
Definition document_program (fuel : nat) (input : ScannerModel.sc) (ein : list (list eaction * bool)) (calls : list wcall) : hm (option world) :=
  r <~ h_make input ein ;;
  match r with None => hret None | Some (p, m) => w <~ h_wrun fuel (mkWorld p false m []) calls ;; hret (Some w) end.
Definition world_delete (w : world) : hm unit :=
  delete_docs (w_docs w) ;;; emitter_delete (w_emitter w) ;;; parser_delete (w_parser w).
Definition world_blocks (w : world) : list nat :=
  hp_blocks (w_parser w) ++ em_blocks (w_emitter w) ++ flat_map doc_blocks (w_docs w).

(* ---- the same on values ---- *)
(* the emitter: opened, closed, the events accepted, and the error *)
Record vemitter := mkVem { ve_opened : bool; ve_closed : bool; ve_log : list ev; ve_error : option merror }.
Definition em_at (m : em) : vemitter := mkVem (m_opened m) (m_closed m) (m_log m) (m_error m).
Definition dumper_of (s : vemitter) (sink : list bool) : dumper := mkDumper (ve_opened s) (ve_closed s) [] 0 (ve_log s) sink.
(* a call of the emitter that does what [f] does in the model on values (C32-C34),
   for some outcomes [sink] of the calls of yaml_emitter_emit.  If the allocator
   refuses nothing ([g]), no error of memory appears, and a call that fails
   leaves an error. *)
Definition emitter_call (g : Prop) (f : dumper -> dres) (s s' : vemitter) : Prop :=
  exists sink,
    (f (dumper_of s sink) = DOk (dumper_of s' []) \/
     f (dumper_of s sink) = DFail (dumper_of s' []) /\ (g -> ve_error s' <> None)) /\
    (g -> ve_error s' = Some MMemory -> ve_error s = Some MMemory).

Record vworld := mkVworld { v_loader : loader; v_failed : bool; v_emitter : vemitter; v_docs : list document }.
Definition world_at (h : heap) (w : world) : vworld :=
  mkVworld (mkLoader (hp_at h (w_parser w)) (ScannerModel.s_started (y_sc (hp_scan (w_parser w))))) (w_failed w) (em_at (w_emitter w)) (map (document_at h) (w_docs w)).
Definition end_document : document := mkDoc [] None [] false false.
Definition bad_directive (ts : list tagdir) : Prop := exists t, In t ts /\ (utf8_good (fst t) = false \/ utf8_good (snd t) = false).

Inductive vstep (g : Prop) (fuel : nat) : wcall -> vworld -> vworld -> Prop :=
| V_loaded l s ds d l' : load fuel l = LDocument d l' ->
    vstep g fuel WLoad (mkVworld l false s ds) (mkVworld l' false s (ds ++ [d]))
| V_loaded_end l s ds l' : load fuel l = LNoDocument l' ->
    vstep g fuel WLoad (mkVworld l false s ds) (mkVworld l' false s (ds ++ [end_document]))
| V_load_fails l s ds l' : (g -> exists l1, load fuel l = LFailed l1) ->
    vstep g fuel WLoad (mkVworld l false s ds) (mkVworld l' true s ds)
| V_load_skipped l s ds : vstep g fuel WLoad (mkVworld l true s ds) (mkVworld l true s ds)
| V_built v ts si ei ops l b s ds allocs rs d : length allocs = length ops ->
    drun (mkDoc [] v ts si ei) (combine ops allocs) = (map DRet rs, d) -> (g -> Forall (eq true) allocs) ->
    vstep g fuel (WBuild v ts si ei ops) (mkVworld l b s ds) (mkVworld l b s (ds ++ [d]))
| V_not_built v ts si ei ops l b s ds : (g -> bad_directive ts) ->
    vstep g fuel (WBuild v ts si ei ops) (mkVworld l b s ds) (mkVworld l b s ds)
| V_dump k l b s ds d s' : nth_error ds k = Some d -> emitter_call g (fun s => dump (S (length (d_nodes d))) s d) s s' ->
    vstep g fuel (WDump k) (mkVworld l b s ds) (mkVworld l b s' (remove_nth k ds))
| V_dump_none k w : nth_error (v_docs w) k = None -> vstep g fuel (WDump k) w w
| V_delete k l b s ds d : nth_error ds k = Some d -> vstep g fuel (WDelete k) (mkVworld l b s ds) (mkVworld l b s (remove_nth k ds))
| V_delete_none k w : nth_error (v_docs w) k = None -> vstep g fuel (WDelete k) w w
| V_open l b s ds s' : ve_opened s = false -> emitter_call g dump_open s s' ->
    vstep g fuel WOpen (mkVworld l b s ds) (mkVworld l b s' ds)
| V_open_skipped w : ve_opened (v_emitter w) = true -> vstep g fuel WOpen w w
| V_close l b s ds s' : ve_opened s = true -> emitter_call g dump_close s s' ->
    vstep g fuel WClose (mkVworld l b s ds) (mkVworld l b s' ds)
| V_close_skipped w : ve_opened (v_emitter w) = false -> vstep g fuel WClose w w
| V_emit e l b s ds s' : event_strings_good e = true -> emitter_call g (fun s => emit s e) s s' ->
    vstep g fuel (WEmit e) (mkVworld l b s ds) (mkVworld l b s' ds)
| V_not_made e w : (g -> event_strings_good e = false) -> vstep g fuel (WEmit e) w w.
Inductive vrun (g : Prop) (fuel : nat) : list wcall -> vworld -> vworld -> Prop :=
| VR_none w : vrun g fuel [] w w
| VR_call c cs w w1 w2 : vstep g fuel c w w1 -> vrun g fuel cs w1 w2 -> vrun g fuel (c :: cs) w w2.
Definition vworld0 (tokens : list token) : vworld := mkVworld (init_loader tokens) false (mkVem false false [] None) [].

(* the only way to stop: a call of yaml_document_append_* for which the code asserts *)
Definition asserts (calls : list wcall) : Prop :=
  exists v ts si ei ops allocs rs, In (WBuild v ts si ei ops) calls /\ length allocs = length ops /\
    fst (drun (mkDoc [] v ts si ei) (combine ops allocs)) = rs ++ [DAssert].

(* ---- programs that handle events ---- *)
Inductive rcall :=
| RParse                         (* yaml_parser_parse; the event is kept *)
| RMake (e : ev)                 (* yaml_*_event_initialize; the event is kept *)
| REmit (k : nat)                (* yaml_emitter_emit of the k-th event kept *)
| RDrop (k : nat).               (* yaml_event_delete of the k-th event kept *)
Record relay := mkRelay { r_parser : hp; r_emitter : em; r_events : list hev }.
Definition h_rstep (w : relay) (c : rcall) : hm relay :=
  match c with
  | RParse =>
      '(p, x) <~ h_parse (r_parser w) ;;
      hret (mkRelay p (r_emitter w) (r_events w ++ match x with Some x => [he_ev x] | None => [] end))
  | RMake e =>
      x <~ event_initialize e ;;
      hret (mkRelay (r_parser w) (r_emitter w) (r_events w ++ match x with Some x => [x] | None => [] end))
  | REmit k =>
      match nth_error (r_events w) k with
      | None => hret w
      | Some x => '(m, _) <~ h_emit (r_emitter w) x ;; hret (mkRelay (r_parser w) m (remove_nth k (r_events w)))
      end
  | RDrop k =>
      match nth_error (r_events w) k with
      | None => hret w
      | Some x => event_delete x ;;; hret (mkRelay (r_parser w) (r_emitter w) (remove_nth k (r_events w)))
      end
  end.
Fixpoint h_rrun (w : relay) (calls : list rcall) : hm relay :=
  match calls with [] => hret w | c :: r => w <~ h_rstep w c ;; h_rrun w r end.
Definition event_program (input : ScannerModel.sc) (ein : list (list eaction * bool)) (calls : list rcall) : hm (option relay) :=
  r <~ h_make input ein ;;
  match r with None => hret None | Some (p, m) => w <~ h_rrun (mkRelay p m []) calls ;; hret (Some w) end.
Fixpoint delete_events (l : list hev) : hm unit := match l with [] => hret tt | e :: r => event_delete e ;;; delete_events r end.
Definition relay_delete (w : relay) : hm unit :=
  delete_events (r_events w) ;;; emitter_delete (r_emitter w) ;;; parser_delete (r_parser w).
Definition relay_blocks (w : relay) : list nat :=
  hp_blocks (r_parser w) ++ em_blocks (r_emitter w) ++ flat_map ev_blocks (r_events w).

(* On values; an event that is None is one of type YAML_NO_EVENT.  [vr_failed]: a
   call of yaml_parser_parse has failed; all later calls give YAML_NO_EVENT. *)
Record vrelay := mkVrelay { vr_parser : parser; vr_failed : bool; vr_emitter : vemitter; vr_events : list (option ev) }.
Definition relay_at (h : heap) (w : relay) : vrelay :=
  mkVrelay (hp_at h (r_parser w)) (match hp_error (r_parser w) with None => false | Some _ => true end) (em_at (r_emitter w)) (map (event_at h) (r_events w)).
Definition emit_opt (e : option ev) (s : dumper) : dres :=
  match e with
  | Some e => emit s e
  | None => match dm_sink s with   (* an event without contents is not logged *)
            | false :: r => DFail (mkDumper (dm_opened s) (dm_closed s) (dm_anchors s) (dm_last s) (dm_log s) r)
            | _ :: r => DOk (mkDumper (dm_opened s) (dm_closed s) (dm_anchors s) (dm_last s) (dm_log s) r)
            | [] => DOk s
            end
  end.
Inductive rstep (g : Prop) : rcall -> vrelay -> vrelay -> Prop :=
| R_parse p s es e p' : parse p = PEvent e p' -> rstep g RParse (mkVrelay p false s es) (mkVrelay p' false s (es ++ [Some (e_ev e)]))
| R_parse_none p b s es : b = true \/ parse p = PNothing p -> rstep g RParse (mkVrelay p b s es) (mkVrelay p b s (es ++ [None]))
| R_parse_fails p s es p' : (g -> parse p = PFail p') -> rstep g RParse (mkVrelay p false s es) (mkVrelay p' true s es)
| R_made e p b s es : event_strings_good e = true -> rstep g (RMake e) (mkVrelay p b s es) (mkVrelay p b s (es ++ [Some e]))
| R_not_made e w : (g -> event_strings_good e = false) -> rstep g (RMake e) w w
| R_emit k p b s es e s' : nth_error es k = Some e -> emitter_call g (emit_opt e) s s' ->
    rstep g (REmit k) (mkVrelay p b s es) (mkVrelay p b s' (remove_nth k es))
| R_emit_none k w : nth_error (vr_events w) k = None -> rstep g (REmit k) w w
| R_drop k p b s es e : nth_error es k = Some e -> rstep g (RDrop k) (mkVrelay p b s es) (mkVrelay p b s (remove_nth k es))
| R_drop_none k w : nth_error (vr_events w) k = None -> rstep g (RDrop k) w w.
Inductive rrun (g : Prop) : list rcall -> vrelay -> vrelay -> Prop :=
| RR_none w : rrun g [] w w
| RR_call c cs w w1 w2 : rstep g c w w1 -> rrun g cs w1 w2 -> rrun g (c :: cs) w w2.
Definition vrelay0 (tokens : list token) : vrelay := mkVrelay (init_parser tokens) false (mkVem false false [] None) [].
