(* Model of loader.c at the level of allocated blocks: who frees what, for any
   answers of the allocator.  yaml_parser_parse is a parameter here: a function
   from the parser's state to a new state and an event or failure.

   Simplifications: as in LoaderModel.v (no stack reaches INT_MAX-1, marks of
   nodes only where they are read); parser->aliases and parser->document, which
   are empty between two calls, are local to a call. *)
From Verif Require Import Base ReaderModel Types DocModel HeapModel.

Record hevent := mkHevent { he_ev : hev; he_start : mark; he_end : mark }.

(* document, parser->aliases, the context stack *)
Definition halias := (ptr * nat * mark)%type.
Record lh := mkLh { lh_doc : hdoc; lh_aliases : arr halias; lh_ctx : arr nat }.
Definition lh_with_nodes (s : lh) (ns : arr hnode) : lh := mkLh (with_nodes (lh_doc s) ns) (lh_aliases s) (lh_ctx s).
Definition lh_nodes (s : lh) : arr hnode := hd_nodes (lh_doc s).

(* loader.c:172-178 yaml_parser_delete_aliases *)
Definition delete_aliases (al : arr halias) : hm unit :=
  h_empty_stack (fun a => h_free (fst (fst a))) al ;;; h_del al.

(* loader.c:276-284, 357-363: the search through parser->aliases *)
Fixpoint h_find_alias (at_ : ptr) (els : list halias) (anchor : ptr) : hm (option (nat * mark)) :=
  match els with
  | [] => hret None
  | (a, i, m) :: r =>
      h_touch at_ ;;;
      x <~ h_read a ;;
      y <~ h_read anchor ;;
      if str_eqb x y then hret (Some (i, m)) else h_find_alias at_ r anchor
  end.
(* loader.c:263-292 yaml_parser_register_anchor; [m]: the start mark of the node *)
Definition h_register_anchor (s : lh) (index : nat) (m : mark) (anchor : ptr) : hm (lh * bool) :=
  if is_null anchor then hret (s, true)
  else
    h_touch (a_at (lh_nodes s)) ;;;
    r <~ h_find_alias (a_at (lh_aliases s)) (a_els (lh_aliases s)) anchor ;;
    match r with
    | Some _ => h_free anchor ;;; hret (s, false)
    | None =>
        '(al, ok) <~ h_push (lh_aliases s) (anchor, index, m) ;;
        if ok : bool then hret (mkLh (lh_doc s) al (lh_ctx s), true)
        else h_free anchor ;;; hret (mkLh (lh_doc s) al (lh_ctx s), false)
    end.

(* nodes.start[index-1] *)
Definition el_ref {A} (l : list A) (index : nat) : option A :=
  match index with O => None | S k => nth_error l k end.
Definition set_el1 {A} (a : arr A) (index : nat) (x : A) : arr A :=
  match index with O => a | S k => set_el a k x end.
Definition h_assert_fail {A} : hm A := fun _ => HAssert.

(* loader.c:298-344 yaml_parser_load_node_add *)
Definition h_node_add (s : lh) (index : nat) : hm (lh * bool) :=
  match rev (a_els (lh_ctx s)) with
  | [] => hret (s, true)
  | parent :: _ =>
      h_touch (a_at (lh_ctx s)) ;;;
      h_touch (a_at (lh_nodes s)) ;;;
      match el_ref (a_els (lh_nodes s)) parent with
      | None => hundef
      | Some (mkHnode t (HNSequence items style)) =>
          '(items, ok) <~ h_push items index ;;
          hret (lh_with_nodes s (set_el1 (lh_nodes s) parent (mkHnode t (HNSequence items style))), ok)
      | Some (mkHnode t (HNMapping pairs style)) =>
          match rev (a_els pairs) with
          | (S k, O) :: r =>
              h_touch (a_at pairs) ;;;
              let pairs := mkArr (a_at pairs) (rev r ++ [(S k, index)]) (a_off pairs) (a_cap pairs) in
              hret (lh_with_nodes s (set_el1 (lh_nodes s) parent (mkHnode t (HNMapping pairs style))), true)
          | _ =>
              '(pairs, ok) <~ h_push pairs (index, O) ;;
              hret (lh_with_nodes s (set_el1 (lh_nodes s) parent (mkHnode t (HNMapping pairs style))), ok)
          end
      | Some (mkHnode _ (HNScalar _ _)) => h_assert_fail
      end
  end.

(* loader.c:350-368 yaml_parser_load_alias *)
Definition h_load_alias (s : lh) (anchor : ptr) : hm (lh * bool) :=
  r <~ h_find_alias (a_at (lh_aliases s)) (a_els (lh_aliases s)) anchor ;;
  match r with
  | Some (index, _) => h_free anchor ;;; h_node_add s index
  | None => h_free anchor ;;; hret (s, false)
  end.

(* loader.c:384-388, 429-433, 497-501: no tag or "!" *)
Definition h_choose_tag (tag : ptr) (default : list N) : hm ptr :=
  replace <~ (if is_null tag then hret true else s <~ h_read tag ;; hret (str_eqb s [33])) ;;
  if replace : bool then h_free tag ;;; h_malloc default else hret tag.

(* loader.c:398-401, 445-448, 513-516: register the anchor, add to the parent *)
Definition h_attach (s : lh) (index : nat) (m : mark) (anchor : ptr) : hm (lh * bool) :=
  '(s, ok) <~ h_register_anchor s index m anchor ;;
  if negb ok then hret (s, false) else h_node_add s index.

(* loader.c:374-408 yaml_parser_load_scalar *)
Definition h_load_scalar (s : lh) (anchor tag value : ptr) (style : sstyle) (m : mark) : hm (lh * bool) :=
  let error t := h_free t ;;; h_free anchor ;;; h_free value ;;; hret (s, false) in
  t <~ h_choose_tag tag default_scalar_tag ;;
  if is_null t then error t else
  '(ns, ok) <~ h_push (lh_nodes s) (mkHnode t (HNScalar value style)) ;;
  if negb ok then error t else
  let s := lh_with_nodes s ns in
  h_attach s (length (a_els ns)) m anchor.

(* loader.c:441-453, 509-521: PUSH, register the anchor, add to the parent, push
   the context.  [node] has a new array that the error path does not free. *)
Definition h_load_collection (s : lh) (anchor t : ptr) (node : hnode) (m : mark) : hm (lh * bool) :=
  let error := h_free t ;;; h_free anchor ;;; hret (s, false) in
  '(ns, ok) <~ h_push (lh_nodes s) node ;;
  if negb ok then error else
  let s := lh_with_nodes s ns in
  let index := length (a_els ns) in
  '(s, ok) <~ h_attach s index m anchor ;;
  if negb ok then hret (s, false) else
  '(ctx, ok) <~ h_push (lh_ctx s) index ;;
  hret (mkLh (lh_doc s) (lh_aliases s) ctx, ok).
(* loader.c:414-459 yaml_parser_load_sequence *)
Definition h_load_sequence (s : lh) (anchor tag : ptr) (style : cstyle) (m : mark) : hm (lh * bool) :=
  let error t := h_free t ;;; h_free anchor ;;; hret (s, false) in
  t <~ h_choose_tag tag default_sequence_tag ;;
  if is_null t then error t else
  '(items, ok) <~ h_init ;;
  if negb ok then error t else
  h_load_collection s anchor t (mkHnode t (HNSequence items style)) m.
(* loader.c:482-527 yaml_parser_load_mapping *)
Definition h_load_mapping (s : lh) (anchor tag : ptr) (style : cstyle) (m : mark) : hm (lh * bool) :=
  let error t := h_free t ;;; h_free anchor ;;; hret (s, false) in
  t <~ h_choose_tag tag default_mapping_tag ;;
  if is_null t then error t else
  '(pairs, ok) <~ h_init ;;
  if negb ok then error t else
  h_load_collection s anchor t (mkHnode t (HNMapping pairs style)) m.
(* loader.c:461-476, 529-544: the end of a collection *)
Definition h_load_end (s : lh) (is_mapping : bool) : hm (lh * bool) :=
  match rev (a_els (lh_ctx s)) with
  | [] => h_assert_fail
  | index :: r =>
      h_touch (a_at (lh_ctx s)) ;;;
      h_touch (a_at (lh_nodes s)) ;;;
      match el_ref (a_els (lh_nodes s)) index with
      | None => hundef
      | Some n =>
          match hn_data n, is_mapping with
          | HNSequence _ _, false | HNMapping _ _, true =>
              hret (mkLh (lh_doc s) (lh_aliases s)
                      (mkArr (a_at (lh_ctx s)) (rev r) (a_off (lh_ctx s)) (a_cap (lh_ctx s))), true)
          | _, _ => h_assert_fail
          end
      end
  end.

(* loader.c:223-250 *)
Definition h_load_event (s : lh) (x : hevent) : hm (lh * bool) :=
  match he_ev x with
  | HAlias a => h_load_alias s a
  | HScalar a t v _ _ style => h_load_scalar s a t v style (he_start x)
  | HSeqStart a t _ style => h_load_sequence s a t style (he_start x)
  | HSeqEnd => h_load_end s false
  | HMapStart a t _ style => h_load_mapping s a t style (he_start x)
  | HMapEnd => h_load_end s true
  | _ => h_assert_fail
  end.

Inductive hnodes := HNodesDone (end_implicit : bool) | HNodesFailed | HNodesFuel.
(* return 1 with a document; return 1 at the end of the stream; return 0 *)
Inductive hload := HLoaded (d : hdoc) | HLoadedEnd (d : hdoc) | HLoadFailed | HLoadFuel.

Section Loading.
  Variable P : Type.
  Variable parse : P -> hm (P * option hevent).     (* None: return 0 *)
  Variable started ended : P -> bool.               (* stream_start_produced, stream_end_produced *)

  (* loader.c:216-257 yaml_parser_load_nodes *)
  Fixpoint h_load_nodes (fuel : nat) (p : P) (s : lh) : hm (P * lh * hnodes) :=
    match fuel with
    | O => hret (p, s, HNodesFuel)
    | S f =>
        '(p, r) <~ parse p ;;
        match r with
        | None => hret (p, s, HNodesFailed)
        | Some x =>
            match he_ev x with
            | HDocEnd implicit => hret (p, s, HNodesDone implicit)
            | _ =>
                '(s, ok) <~ h_load_event s x ;;
                if ok : bool then h_load_nodes f p s else hret (p, s, HNodesFailed)
            end
        end
    end.
  (* loader.c:184-210 yaml_parser_load_document, 116-131: what follows in
     yaml_parser_load *)
  Definition h_load_document (fuel : nat) (p : P) (d : hdoc) (al : arr halias) (x : hevent) : hm (P * hload) :=
    match he_ev x with
    | HDocStart v tags implicit =>
        let d := mkHdoc (hd_nodes d) v tags implicit (hd_end_implicit d) in
        '(ctx, ok) <~ h_init ;;
        if negb ok then delete_aliases al ;;; document_delete d ;;; hret (p, HLoadFailed)
        else
          '(p, s, r) <~ h_load_nodes fuel p (mkLh d al ctx) ;;
          match r with
          | HNodesDone implicit =>
              h_del (lh_ctx s) ;;;
              delete_aliases (lh_aliases s) ;;;
              let d := lh_doc s in
              hret (p, HLoaded (mkHdoc (hd_nodes d) (hd_version d) (hd_tags d) (hd_start_implicit d) implicit))
          | HNodesFailed =>
              h_del (lh_ctx s) ;;;
              delete_aliases (lh_aliases s) ;;; document_delete (lh_doc s) ;;; hret (p, HLoadFailed)
          | HNodesFuel => hret (p, HLoadFuel)
          end
    | _ => h_assert_fail
    end.
  (* loader.c:104-118 *)
  Definition h_load_next (fuel : nat) (p : P) (d : hdoc) : hm (P * hload) :=
    if ended p then hret (p, HLoadedEnd d)
    else
      '(p, r) <~ parse p ;;
      match r with
      | None => delete_aliases null_arr ;;; document_delete d ;;; hret (p, HLoadFailed)
      | Some x =>
          match he_ev x with
          | HStreamEnd => hret (p, HLoadedEnd d)
          | _ =>
              '(al, ok) <~ h_init ;;
              (* the event [x] is not freed here *)
              if negb ok then delete_aliases al ;;; document_delete d ;;; hret (p, HLoadFailed)
              else h_load_document fuel p d al x
          end
      end.
  (* loader.c:86-132 yaml_parser_load *)
  Definition h_load (fuel : nat) (p : P) : hm (P * hload) :=
    '(nodes, ok) <~ h_init ;;
    let d := with_nodes null_doc nodes in
    let error p := delete_aliases null_arr ;;; document_delete d ;;; hret (p, HLoadFailed) in
    if negb ok then error p
    else if started p then h_load_next fuel p d
    else
      '(p, r) <~ parse p ;;
      match r with
      | None => error p
      | Some x =>
          match he_ev x with
          | HStreamStart _ => h_load_next fuel p d
          | _ => h_assert_fail
          end
      end.
End Loading.
