(* Model of dumper.c, of the event queue of emitter.c and of the parts of api.c
   that create and destroy an emitter, at the level of allocated blocks, for
   any answers of the allocator.

   yaml_emitter_analyze_event and yaml_emitter_state_machine (emitter.c) are
   represented by what they do to memory: the n-th time they are called for the
   event at the head of the queue they perform the n-th list of actions of
   [m_in] and then succeed or fail; this may be any list (nothing and success
   after its end).  The writer and the contents of the two buffers are not represented. *)
From Verif Require Import Base ReaderModel Types DocModel DumperModel HeapModel HeapSpec.

(* what happens while an event is analysed and emitted *)
Inductive eaction :=
| EPushState | EPopState          (* PUSH, POP of emitter->states *)
| EPushIndent | EPopIndent        (* PUSH, POP of emitter->indents *)
| ELook                           (* the strings of the event are read *)
| ETags                           (* emitter->tag_directives are read *)
| EDirective (k : nat)            (* emitter.c:576: the k-th tag directive of the event is appended *)
| EDefault (handle prefix : list N) (* emitter.c:582: a default tag directive is appended *)
| EDropTags.                      (* emitter.c:726-731 *)

Inductive merror := MMemory | MOther.
(* yaml_emitter_t, include/yaml.h:1485-1720.  [m_log], which the code does not have:
   the contents of the events for which yaml_emitter_emit returned 1. *)
Record em := mkEm {
  m_in : list (list eaction * bool);
  m_error : option merror;
  m_opened : bool; m_closed : bool;
  m_buffer : ptr; m_raw : ptr;
  m_states : arr unit; m_events : arr hev; m_indents : arr unit; m_tags : arr hpair;
  m_log : list ev }.
Definition m_fail (m : em) (e : merror) : em :=
  mkEm (m_in m) (Some e) (m_opened m) (m_closed m) (m_buffer m) (m_raw m) (m_states m) (m_events m) (m_indents m) (m_tags m) (m_log m).
Definition m_with_in (m : em) (i : list (list eaction * bool)) : em :=
  mkEm i (m_error m) (m_opened m) (m_closed m) (m_buffer m) (m_raw m) (m_states m) (m_events m) (m_indents m) (m_tags m) (m_log m).
Definition m_with_states (m : em) (a : arr unit) : em :=
  mkEm (m_in m) (m_error m) (m_opened m) (m_closed m) (m_buffer m) (m_raw m) a (m_events m) (m_indents m) (m_tags m) (m_log m).
Definition m_with_events (m : em) (a : arr hev) : em :=
  mkEm (m_in m) (m_error m) (m_opened m) (m_closed m) (m_buffer m) (m_raw m) (m_states m) a (m_indents m) (m_tags m) (m_log m).
Definition m_with_indents (m : em) (a : arr unit) : em :=
  mkEm (m_in m) (m_error m) (m_opened m) (m_closed m) (m_buffer m) (m_raw m) (m_states m) (m_events m) a (m_tags m) (m_log m).
Definition m_with_tags (m : em) (a : arr hpair) : em :=
  mkEm (m_in m) (m_error m) (m_opened m) (m_closed m) (m_buffer m) (m_raw m) (m_states m) (m_events m) (m_indents m) a (m_log m).
Definition m_with_flags (m : em) (opened closed : bool) : em :=
  mkEm (m_in m) (m_error m) opened closed (m_buffer m) (m_raw m) (m_states m) (m_events m) (m_indents m) (m_tags m) (m_log m).
Definition m_with_log (m : em) (l : list ev) : em :=
  mkEm (m_in m) (m_error m) (m_opened m) (m_closed m) (m_buffer m) (m_raw m) (m_states m) (m_events m) (m_indents m) (m_tags m) l.

(* reading a string that may be NULL *)
Definition h_peep (p : ptr) : hm unit := if is_null p then hret tt else h_touch p.
Fixpoint h_peeps (l : list ptr) : hm unit := match l with [] => hret tt | p :: r => h_peep p ;;; h_peeps r end.
Definition event_ptrs (e : hev) : list ptr :=
  match e with
  | HDocStart v tags _ => v :: a_at tags :: flat_map (fun p => [fst p; snd p]) (a_els tags)
  | HAlias a => [a]
  | HScalar a t v _ _ _ => [a; t; v]
  | HSeqStart a t _ _ | HMapStart a t _ _ => [a; t]
  | _ => []
  end.

(* emitter.c:363-396 yaml_emitter_append_tag_directive *)
Fixpoint h_find_handle (at_ : ptr) (els : list hpair) (handle : list N) : hm bool :=
  match els with
  | [] => hret false
  | p :: r => h_touch at_ ;;; x <~ h_read (fst p) ;; if str_eqb x handle then hret true else h_find_handle at_ r handle
  end.
Definition h_append_directive (m : em) (handle prefix : list N) (allow_duplicates : bool) : hm (em * bool) :=
  found <~ h_find_handle (a_at (m_tags m)) (a_els (m_tags m)) handle ;;
  if found : bool then hret (if allow_duplicates then m else m_fail m MOther, allow_duplicates)
  else
    a <~ h_malloc handle ;;
    b <~ h_malloc prefix ;;
    let error m := h_free a ;;; h_free b ;;; hret (m_fail m MMemory, false) in
    if is_null a || is_null b then error m
    else
      '(tags, ok) <~ h_push (m_tags m) (a, b) ;;
      if ok : bool then hret (m_with_tags m tags, true) else error (m_with_tags m tags).

(* PUSH, and POP of a stack that is not empty *)
Definition h_push_unit (a : arr unit) : hm (arr unit * bool) := h_push a tt.
Definition h_pop_unit (a : arr unit) : hm (arr unit) :=
  match a_els a with [] => hret a | _ => '(_, a) <~ h_pop a ;; hret a end.
Definition h_eaction (m : em) (e : hev) (x : eaction) : hm (em * bool) :=
  match x with
  | EPushState => '(a, ok) <~ h_push_unit (m_states m) ;; hret (if ok : bool then (m_with_states m a, true) else (m_fail (m_with_states m a) MMemory, false))
  | EPopState => a <~ h_pop_unit (m_states m) ;; hret (m_with_states m a, true)
  | EPushIndent => '(a, ok) <~ h_push_unit (m_indents m) ;; hret (if ok : bool then (m_with_indents m a, true) else (m_fail (m_with_indents m a) MMemory, false))
  | EPopIndent => a <~ h_pop_unit (m_indents m) ;; hret (m_with_indents m a, true)
  | ELook => h_touch (a_at (m_events m)) ;;; h_peeps (event_ptrs e) ;;; hret (m, true)
  | ETags => h_peeps (a_at (m_tags m) :: flat_map (fun p => [fst p; snd p]) (a_els (m_tags m))) ;;; hret (m, true)
  | EDirective k =>
      match e with
      | HDocStart _ tags _ =>
          match nth_error (a_els tags) k with
          | None => hret (m, true)
          | Some p => h_touch (a_at tags) ;;; handle <~ h_read (fst p) ;; prefix <~ h_read (snd p) ;; h_append_directive m handle prefix false
          end
      | _ => hret (m, true)
      end
  | EDefault handle prefix => h_append_directive m handle prefix true
  | EDropTags => h_empty_stack free_pair (m_tags m) ;;; hret (m_with_tags m (mkArr (a_at (m_tags m)) [] (a_off (m_tags m)) (a_cap (m_tags m))), true)
  end.
Fixpoint h_eactions (m : em) (e : hev) (xs : list eaction) : hm (em * bool) :=
  match xs with
  | [] => hret (m, true)
  | x :: r => '(m, ok) <~ h_eaction m e x ;; if ok : bool then h_eactions m e r else hret (m, false)
  end.
(* emitter.c:288-292: one event is analysed and emitted *)
Definition h_step (m : em) (e : hev) : hm (em * bool) :=
  match m_in m with
  | [] => hret (m, true)
  | (xs, success) :: r =>
      '(m, ok) <~ h_eactions (m_with_in m r) e xs ;;
      hret (if negb ok then (m, false) else if success : bool then (m, true) else (m_fail m MOther, false))
  end.

(* emitter.c:307-357 yaml_emitter_need_more_events *)
Definition h_accumulate (e : hev) : option nat :=
  match e with HDocStart _ _ _ => Some 1%nat | HSeqStart _ _ _ _ => Some 2%nat | HMapStart _ _ _ _ => Some 3%nat | _ => None end.
Fixpoint h_level (l : Z) (q : list hev) : bool :=
  match q with
  | [] => true
  | e :: r =>
      let l := (l + match e with
        | HStreamStart _ | HDocStart _ _ _ | HSeqStart _ _ _ _ | HMapStart _ _ _ _ => 1
        | HStreamEnd | HDocEnd _ | HSeqEnd | HMapEnd => -1
        | _ => 0 end)%Z in
      if (l =? 0)%Z then false else h_level l r
  end.
Definition h_need_more (q : list hev) : bool :=
  match q with
  | [] => true
  | e :: _ =>
      match h_accumulate e with
      | None => false
      | Some n => if (n <? length q)%nat then false else h_level 0 q
      end
  end.
(* emitter.c:287-294: at most as many turns as there are events *)
Fixpoint h_emit_loop (turns : nat) (m : em) : hm (em * bool) :=
  h_touch (a_at (m_events m)) ;;;
  if h_need_more (a_els (m_events m)) then hret (m, true)
  else
    match turns, a_els (m_events m) with
    | S n, e :: _ =>
        '(m, ok) <~ h_step m e ;;
        if negb ok then hret (m, false)
        else
          '(e, q) <~ h_dequeue (m_events m) ;;
          event_delete e ;;;
          h_emit_loop n (m_with_events m q)
    | _, _ => hundef
    end.
(* emitter.c:279-297 yaml_emitter_emit *)
Definition h_emit (m : em) (e : hev) : hm (em * bool) :=
  value <~ (fun h => HOk (event_at h e) h) ;;
  '(q, ok) <~ h_push (m_events m) e ;;
  let m := m_with_events m q in
  if negb ok then event_delete e ;;; hret (m_fail m MMemory, false)
  else
    '(m, ok) <~ h_emit_loop (length (a_els q)) m ;;
    hret (if ok : bool then (m_with_log m (m_log m ++ match value with Some x => [x] | None => [] end), true) else (m, false)).

(* ---- api.c:356-413 ---- *)
Definition emitter_blocks_del (buffer raw : ptr) (states : arr unit) (events : arr hev) (indents : arr unit) (tags : arr hpair) : hm unit :=
  h_free buffer ;;; h_free raw ;;; h_del states ;;; h_del events ;;; h_del indents ;;; h_del tags.
Definition emitter_initialize (input : list (list eaction * bool)) : hm (option em) :=
  buffer <~ h_malloc [] ;;
  if is_null buffer then emitter_blocks_del buffer None null_arr null_arr null_arr null_arr ;;; hret None else
  raw <~ h_malloc [] ;;
  if is_null raw then emitter_blocks_del buffer raw null_arr null_arr null_arr null_arr ;;; hret None else
  '(states, ok) <~ h_init ;;
  if negb ok then emitter_blocks_del buffer raw states null_arr null_arr null_arr ;;; hret None else
  '(events, ok) <~ h_init ;;
  if negb ok then emitter_blocks_del buffer raw states events null_arr null_arr ;;; hret None else
  '(indents, ok) <~ h_init ;;
  if negb ok then emitter_blocks_del buffer raw states events indents null_arr ;;; hret None else
  '(tags, ok) <~ h_init ;;
  if negb ok then emitter_blocks_del buffer raw states events indents tags ;;; hret None else
  hret (Some (mkEm input None false false buffer raw states events indents tags [])).
(* emitter->anchors is NULL between two calls *)
Definition emitter_delete (m : em) : hm unit :=
  h_free (m_buffer m) ;;; h_free (m_raw m) ;;; h_del (m_states m) ;;;
  h_for_each event_delete (m_events m) ;;; h_del (m_events m) ;;;
  h_del (m_indents m) ;;;
  h_empty_stack free_pair (m_tags m) ;;; h_del (m_tags m).

(* ---- dumper.c ---- *)
(* emitter->document, emitter->anchors (block and elements), emitter->last_anchor_id *)
Record dm := mkDm { k_doc : hdoc; k_anchors : ptr; k_infos : list anchor_info; k_last : nat }.
Definition k_set (s : dm) (index : nat) (x : anchor_info) : dm :=
  mkDm (k_doc s) (k_anchors s) (set_nth (index - 1) x (k_infos s)) (k_last s).
Definition k_set_last (s : dm) (n : nat) : dm := mkDm (k_doc s) (k_anchors s) (k_infos s) n.
Definition k_node (s : dm) (index : nat) : option hnode := at_index (a_els (hd_nodes (k_doc s))) index.

(* a loop over children *)
Fixpoint k_each {S} (f : S -> nat -> hm (S * bool)) (l : list nat) (s : S) : hm (S * bool) :=
  match l with
  | [] => hret (s, true)
  | i :: r => '(s, ok) <~ f s i ;; if ok : bool then k_each f r s else hret (s, false)
  end.
(* dumper.c:206-238 yaml_emitter_anchor_node; false only if the model's recursion
   is too deep for [fuel] *)
Fixpoint h_anchor_node (fuel : nat) (s : dm) (index : nat) : hm (dm * bool) :=
  match fuel with
  | O => hret (s, false)
  | S f =>
      h_touch (a_at (hd_nodes (k_doc s))) ;;;
      h_touch (k_anchors s) ;;;
      match k_node s index, at_index (k_infos s) index with
      | Some n, Some x =>
          let x := mkInfo (S (ai_refs x)) (ai_anchor x) (ai_serialized x) in
          let s := k_set s index x in
          if (ai_refs x =? 1)%nat then
            match hn_data n with
            | HNSequence items _ => h_touch (a_at items) ;;; k_each (h_anchor_node f) (a_els items) s
            | HNMapping pairs _ => h_touch (a_at pairs) ;;; k_each (h_anchor_node f) (flat_pairs (a_els pairs)) s
            | HNScalar _ _ => hret (s, true)
            end
          else if (ai_refs x =? 2)%nat then
            let id := S (k_last s) in
            hret (k_set (k_set_last s id) index (mkInfo (ai_refs x) id (ai_serialized x)), true)
          else hret (s, true)
      | _, _ => hundef
      end
  end.

(* dumper.c:263-400 yaml_emitter_dump_node, with dump_alias, dump_scalar,
   dump_sequence and dump_mapping; an alias with anchor NULL is undefined *)
Definition dump_state := (em * dm)%type.
Definition k_emit (s : dump_state) (e : hev) : hm (dump_state * bool) :=
  '(m, ok) <~ h_emit (fst s) e ;; hret ((m, snd s), ok).
Definition k_tag_is (tag : ptr) (default : list N) : hm bool := t <~ h_read tag ;; hret (str_eqb t default).
Inductive kres := KDone (ok : bool) | KFuel.
Fixpoint k_loop (f : dump_state -> nat -> hm (dump_state * kres)) (l : list nat) (s : dump_state) : hm (dump_state * kres) :=
  match l with
  | [] => hret (s, KDone true)
  | i :: r => '(s, o) <~ f s i ;; match o with KDone true => k_loop f r s | o => hret (s, o) end
  end.
Definition k_collection (f : dump_state -> nat -> hm (dump_state * kres)) (l : list nat) (s : dump_state) (first last : hev) : hm (dump_state * kres) :=
  '(s, ok) <~ k_emit s first ;;
  if negb ok then hret (s, KDone false) else
  '(s, o) <~ k_loop f l s ;;
  match o with
  | KDone true => '(s, ok) <~ k_emit s last ;; hret (s, KDone ok)
  | o => hret (s, o)
  end.
Fixpoint h_dump_node (fuel : nat) (s : dump_state) (index : nat) : hm (dump_state * kres) :=
  match fuel with
  | O => hret (s, KFuel)
  | S f =>
      let k := snd s in
      h_touch (a_at (hd_nodes (k_doc k))) ;;;
      h_touch (k_anchors k) ;;;
      match k_node k index, at_index (k_infos k) index with
      | Some n, Some x =>
          '(anchor, ok) <~ (if (ai_anchor x =? 0)%nat then hret (None, true)
                            else a <~ h_malloc (generate_anchor (ai_anchor x)) ;; hret (a, negb (is_null a))) ;;
          if negb ok then hret (s, KDone false)
          else if ai_serialized x then
            (if is_null anchor then hundef else '(s, ok) <~ k_emit s (HAlias anchor) ;; hret (s, KDone ok))
          else
            let s := (fst s, k_set k index (mkInfo (ai_refs x) (ai_anchor x) true)) in
            let tag := hn_tag n in
            match hn_data n with
            | HNScalar value style =>
                implicit <~ k_tag_is tag default_scalar_tag ;;
                '(s, ok) <~ k_emit s (HScalar anchor tag value implicit implicit style) ;; hret (s, KDone ok)
            | HNSequence items style =>
                implicit <~ k_tag_is tag default_sequence_tag ;;
                h_touch (a_at items) ;;;
                k_collection (h_dump_node f) (a_els items) s (HSeqStart anchor tag implicit style) HSeqEnd
            | HNMapping pairs style =>
                implicit <~ k_tag_is tag default_mapping_tag ;;
                h_touch (a_at pairs) ;;;
                k_collection (h_dump_node f) (flat_pairs (a_els pairs)) s (HMapStart anchor tag implicit style) HMapEnd
            end
      | _, _ => hundef
      end
  end.

(* dumper.c:61-79 yaml_emitter_open *)
Definition h_open (m : em) : hm (em * bool) :=
  hassert (negb (m_opened m)) ;;;
  '(m, ok) <~ h_emit m (HStreamStart AnyEnc) ;;
  hret (if ok : bool then m_with_flags m true (m_closed m) else m, ok).
(* dumper.c:85-105 yaml_emitter_close *)
Definition h_close (m : em) : hm (em * bool) :=
  hassert (m_opened m) ;;;
  if m_closed m then hret (m, true)
  else
    '(m, ok) <~ h_emit m HStreamEnd ;;
    hret (if ok : bool then m_with_flags m (m_opened m) true else m, ok).

(* dumper.c:177-191: one node *)
Definition k_node_delete (n : hnode) (serialized : bool) : hm unit :=
  (if serialized then hret tt
   else h_free (hn_tag n) ;;; match hn_data n with HNScalar v _ => h_free v | _ => hret tt end) ;;;
  match hn_data n with
  | HNScalar _ _ => hret tt
  | HNSequence items _ => h_del items
  | HNMapping pairs _ => h_del pairs
  end.
Fixpoint k_nodes_delete (nodes_at anchors : ptr) (l : list (hnode * anchor_info)) : hm unit :=
  match l with
  | [] => hret tt
  | (n, x) :: r => h_touch nodes_at ;;; h_touch anchors ;;; k_node_delete n (ai_serialized x) ;;; k_nodes_delete nodes_at anchors r
  end.
(* dumper.c:166-200 yaml_emitter_delete_document_and_anchors; the elements of
   anchors are as many as the nodes *)
Definition h_cleanup (s : dm) : hm unit :=
  if is_null (k_anchors s) then document_delete (k_doc s)
  else
    let nodes := hd_nodes (k_doc s) in
    k_nodes_delete (a_at nodes) (k_anchors s) (combine (a_els nodes) (k_infos s)) ;;;
    h_del nodes ;;;
    h_free (k_anchors s).

(* dumper.c:111-160 yaml_emitter_dump; emitter->last_anchor_id is 0 between two calls *)
Definition h_dump (fuel : nat) (m : em) (d : hdoc) : hm (em * kres) :=
  let none := mkDm d None [] 0 in
  '(m, ok) <~ (if m_opened m then hret (m, true) else h_open m) ;;
  if negb ok then h_cleanup none ;;; hret (m, KDone false) else
  match a_els (hd_nodes d) with
  | [] => '(m, ok) <~ h_close m ;; h_cleanup none ;;; hret (m, KDone ok)
  | _ =>
      a <~ h_malloc [] ;;
      if is_null a then h_cleanup none ;;; hret (m, KDone false) else
      let s := mkDm d a (map (fun _ => mkInfo 0 0 false) (a_els (hd_nodes d))) 0 in
      '(m, ok) <~ h_emit m (HDocStart (hd_version d) (hd_tags d) (hd_start_implicit d)) ;;
      if negb ok then h_cleanup s ;;; hret (m, KDone false) else
      '(s, enough) <~ h_anchor_node fuel s 1 ;;
      if negb enough then hret (m, KFuel) else
      '(s, o) <~ h_dump_node fuel (m, s) 1 ;;
      match o with
      | KFuel => hret (fst s, KFuel)
      | KDone false => h_cleanup (snd s) ;;; hret (fst s, KDone false)
      | KDone true =>
          '(m, ok) <~ h_emit (fst s) (HDocEnd (hd_end_implicit d)) ;;
          h_cleanup (snd s) ;;;
          hret (m, KDone ok)
      end
  end.
