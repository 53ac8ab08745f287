(* Memory: the allocator, the growable arrays and the functions of api.c that
   create and destroy events, documents and tokens, at the level of allocated
   blocks.  A block has a number; numbers are never used twice.  [grants] are
   the answers of the allocator to come: false = no memory (NULL); after the
   end of the list every request is granted.

   Simplifications: the text of a block is fixed when the block is allocated (no
   string is changed after it was filled in); the elements of an array are kept
   beside the number of its block, and each access first checks that the block
   is still allocated; sizes in bytes and the size limit of yaml_stack_extend
   (api.c:123) are not modelled: reaching it is one more reason for a refusal of
   the allocator; realloc always moves the block.  Arguments of type
   "const yaml_char_t *" belong to the caller and are given by their text. *)
From Verif Require Import Base ReaderModel ApiModel Types DocModel.

Definition ptr := option nat.                       (* None = NULL *)
Record heap := mkHeap { live : list nat; texts : list (list N); grants : list bool }.

(* HUndef: a block is freed that is not allocated (any more), or memory is
   accessed that is not allocated.  HAssert: an assertion fails. *)
Inductive hres (A : Type) := HOk (a : A) (h : heap) | HAssert | HUndef.
Arguments HOk {A}. Arguments HAssert {A}. Arguments HUndef {A}.
Definition hm (A : Type) := heap -> hres A.
Definition hret {A} (a : A) : hm A := fun h => HOk a h.
Definition hbind {A B} (m : hm A) (k : A -> hm B) : hm B := fun h =>
  match m h with HOk a h' => k a h' | HAssert => HAssert | HUndef => HUndef end.
Declare Scope hm_scope.
Notation "x <~ m ;; k" := (hbind m (fun x => k)) (at level 61, m at next level, right associativity) : hm_scope.
Notation "' p <~ m ;; k" := (hbind m (fun p => k)) (at level 61, p pattern, m at next level, right associativity) : hm_scope.
Notation "m ;;; k" := (hbind m (fun _ => k)) (at level 61, right associativity) : hm_scope.
Open Scope hm_scope.
Definition hassert (b : bool) : hm unit := fun h => if b then HOk tt h else HAssert.
Definition hundef {A} : hm A := fun _ => HUndef.

(* ---- the allocator ---- *)
Definition allocated (h : heap) (b : nat) : bool := existsb (Nat.eqb b) (live h).
(* api.c:30-34 yaml_malloc; [s]: what the caller writes into the block *)
Definition h_malloc (s : list N) : hm ptr := fun h =>
  match grants h with
  | false :: g => HOk None (mkHeap (live h) (texts h) g)
  | g => HOk (Some (length (texts h))) (mkHeap (length (texts h) :: live h) (texts h ++ [s]) (tl g))
  end.
(* api.c:50-54 yaml_free *)
Definition h_free (p : ptr) : hm unit := fun h =>
  match p with
  | None => HOk tt h
  | Some b => if allocated h b then HOk tt (mkHeap (remove Nat.eq_dec b (live h)) (texts h) (grants h)) else HUndef
  end.
(* reading a string *)
Definition h_read (p : ptr) : hm (list N) := fun h =>
  match p with
  | None => HUndef
  | Some b => if allocated h b then HOk (nth b (texts h) []) h else HUndef
  end.
Definition h_touch (p : ptr) : hm unit := h_read p ;;; hret tt.
(* api.c:60-67 yaml_strdup of a string in memory *)
Definition h_strdup (p : ptr) : hm ptr :=
  match p with None => hret None | Some _ => s <~ h_read p ;; h_malloc s end.

Definition is_null (p : ptr) : bool := match p with None => true | Some _ => false end.

(* ---- stacks and queues, yaml_private.h:424-494 ---- *)
(* [a_off]: head - start (queues); the elements are those from head to tail *)
Record arr (A : Type) := mkArr { a_at : ptr; a_els : list A; a_off : nat; a_cap : nat }.
Arguments mkArr {A}. Arguments a_at {A}. Arguments a_els {A}. Arguments a_off {A}. Arguments a_cap {A}.
Definition null_arr {A} : arr A := mkArr None [] 0 0.
(* STACK_INIT, QUEUE_INIT: sixteen elements, yaml_private.h:84-85 *)
Definition h_init {A} : hm (arr A * bool) :=
  p <~ h_malloc [] ;;
  hret (match p with None => (null_arr, false) | Some b => (mkArr (Some b) [] 0 16, true) end).
(* STACK_DEL, QUEUE_DEL *)
Definition h_del {A} (a : arr A) : hm unit := h_free (a_at a).
(* api.c:118-135 yaml_stack_extend, api.c:141-169 yaml_queue_extend *)
Definition h_extend {A} (a : arr A) : hm (arr A * bool) :=
  match a_at a with
  | None => hundef
  | Some _ =>
      if Nat.eqb (a_off a) 0 then
        h_touch (a_at a) ;;;
        p <~ h_malloc [] ;;
        match p with
        | None => hret (a, false)
        | Some b => h_free (a_at a) ;;; hret (mkArr (Some b) (a_els a) 0 (2 * a_cap a), true)
        end
      else h_touch (a_at a) ;;; hret (mkArr (a_at a) (a_els a) 0 (a_cap a), true)
  end.
(* PUSH, ENQUEUE *)
Definition h_push {A} (a : arr A) (x : A) : hm (arr A * bool) :=
  '(a, ok) <~ (if Nat.eqb (a_off a + length (a_els a)) (a_cap a) then h_extend a else hret (a, true)) ;;
  if ok : bool then
    h_touch (a_at a) ;;;
    hret (mkArr (a_at a) (a_els a ++ [x]) (a_off a) (a_cap a), true)
  else hret (a, false).
(* POP *)
Definition h_pop {A} (a : arr A) : hm (A * arr A) :=
  match rev (a_els a) with
  | [] => hundef
  | x :: r => h_touch (a_at a) ;;; hret (x, mkArr (a_at a) (rev r) (a_off a) (a_cap a))
  end.
(* DEQUEUE *)
Definition h_dequeue {A} (a : arr A) : hm (A * arr A) :=
  match a_els a with
  | [] => hundef
  | x :: r => h_touch (a_at a) ;;; hret (x, mkArr (a_at a) r (S (a_off a)) (a_cap a))
  end.
(* "while (!STACK_EMPTY(stack)) f(POP(stack))": the last element first *)
Fixpoint h_pop_all {A} (f : A -> hm unit) (at_ : ptr) (rev_els : list A) : hm unit :=
  match rev_els with
  | [] => hret tt
  | x :: r => h_touch at_ ;;; f x ;;; h_pop_all f at_ r
  end.
Definition h_empty_stack {A} (f : A -> hm unit) (a : arr A) : hm unit := h_pop_all f (a_at a) (rev (a_els a)).
(* loops from start to end *)
Definition h_for_each {A} (f : A -> hm unit) (a : arr A) : hm unit := h_pop_all f (a_at a) (a_els a).

(* ---- tag directives ---- *)
Definition hpair := (ptr * ptr)%type.
Definition free_pair (p : hpair) : hm unit := h_free (fst p) ;;; h_free (snd p).

(* ---- events ---- *)
Inductive hev :=
| HNoEvent
| HStreamStart (e : encoding) | HStreamEnd
| HDocStart (v : ptr) (tags : arr hpair) (implicit : bool)
| HDocEnd (implicit : bool)
| HAlias (anchor : ptr)
| HScalar (anchor tag value : ptr) (plain_implicit quoted_implicit : bool) (style : sstyle)
| HSeqStart (anchor tag : ptr) (implicit : bool) (style : cstyle)
| HSeqEnd
| HMapStart (anchor tag : ptr) (implicit : bool) (style : cstyle)
| HMapEnd.

(* api.c:984-1029 yaml_event_delete *)
Definition event_delete (e : hev) : hm unit :=
  match e with
  | HDocStart v tags _ => h_free v ;;; h_for_each free_pair tags ;;; h_free (a_at tags)
  | HAlias a => h_free a
  | HScalar a t v _ _ _ => h_free a ;;; h_free t ;;; h_free v
  | HSeqStart a t _ _ | HMapStart a t _ _ => h_free a ;;; h_free t
  | _ => hret tt
  end.

(* the bytes of a yaml_version_directive_t *)
Definition version_text (v : version) : list N := [fst v; snd v].
(* api.c:725-730, 1066-1071: copying the version directive *)
Definition copy_version (v : option version) : hm (ptr * bool) :=
  match v with
  | None => hret (None, true)
  | Some v => p <~ h_malloc (version_text v) ;; hret (p, negb (is_null p))
  end.
(* api.c:732-754, 1073-1095: the loop that copies the tag directives.  Result:
   tag_directives_copy, value, and whether the loop ended normally. *)
Fixpoint copy_tags (ts : list tagdir) (acc : arr hpair) : hm (arr hpair * hpair * bool) :=
  match ts with
  | [] => hret (acc, (None, None), true)
  | (handle, prefix) :: ts' =>
      if negb (utf8_good handle) then hret (acc, (None, None), false)
      else if negb (utf8_good prefix) then hret (acc, (None, None), false)
      else
        a <~ h_malloc handle ;;
        b <~ h_malloc prefix ;;
        if is_null a || is_null b then hret (acc, (a, b), false)
        else
          '(acc', ok) <~ h_push acc (a, b) ;;
          if ok : bool then copy_tags ts' acc' else hret (acc', (a, b), false)
  end.
Definition copy_tag_list (ts : list tagdir) : hm (arr hpair * hpair * bool) :=
  match ts with
  | [] => hret (null_arr, (None, None), true)
  | _ => '(acc, ok) <~ h_init ;;
         if ok : bool then copy_tags ts acc else hret (acc, (None, None), false)
  end.
(* the labels "error:", api.c:762-773, 1103-1115 *)
Definition drop_copies (v : ptr) (tags : arr hpair) (value : hpair) : hm unit :=
  h_free v ;;; h_empty_stack free_pair tags ;;; h_del tags ;;; free_pair value.

(* api.c:701-774 yaml_document_start_event_initialize; None = return 0 *)
Definition document_start_event (v : option version) (ts : list tagdir) (implicit : bool) : hm (option hev) :=
  '(vp, ok) <~ copy_version v ;;
  if negb ok then drop_copies vp null_arr (None, None) ;;; hret None
  else
    '(tags, value, ok) <~ copy_tag_list ts ;;
    if ok : bool then hret (Some (HDocStart vp tags implicit))
    else drop_copies vp tags value ;;; hret None.
(* api.c:796-814 yaml_alias_event_initialize *)
Definition alias_event (anchor : list N) : hm (option hev) :=
  if negb (utf8_good anchor) then hret None
  else p <~ h_malloc anchor ;; hret (match p with None => None | Some _ => Some (HAlias p) end).
(* api.c:836-840, 842-846: an optional string is checked and copied *)
Definition copy_opt (s : option (list N)) : hm (ptr * bool) :=
  match s with
  | None => hret (None, true)
  | Some s => if negb (utf8_good s) then hret (None, false)
              else p <~ h_malloc s ;; hret (p, negb (is_null p))
  end.
(* api.c:820-868 yaml_scalar_event_initialize; the value is given with its length *)
Definition scalar_event (anchor tag : option (list N)) (value : list N) (pi qi : bool) (style : sstyle) : hm (option hev) :=
  let error a t v := h_free a ;;; h_free t ;;; h_free v ;;; hret None in
  '(a, ok) <~ copy_opt anchor ;;
  if negb ok then error a None None else
  '(t, ok) <~ copy_opt tag ;;
  if negb ok then error a t None else
  if negb (utf8_good value) then error a t None else
  v <~ h_malloc value ;;
  if is_null v then error a t v else
  hret (Some (HScalar a t v pi qi style)).
(* api.c:874-907 yaml_sequence_start_event_initialize *)
Definition sequence_start_event (anchor tag : option (list N)) (implicit : bool) (style : cstyle) : hm (option hev) :=
  let error a t := h_free a ;;; h_free t ;;; hret None in
  '(a, ok) <~ copy_opt anchor ;;
  if negb ok then error a None else
  '(t, ok) <~ copy_opt tag ;;
  if negb ok then error a t else
  hret (Some (HSeqStart a t implicit style)).
(* api.c:929-962 yaml_mapping_start_event_initialize *)
Definition mapping_start_event (anchor tag : option (list N)) (implicit : bool) (style : cstyle) : hm (option hev) :=
  let error a t := h_free a ;;; h_free t ;;; hret None in
  '(a, ok) <~ copy_opt anchor ;;
  if negb ok then error a None else
  '(t, ok) <~ copy_opt tag ;;
  if negb ok then error a t else
  hret (Some (HMapStart a t implicit style)).
(* The function that creates the event [e]: api.c:668-695, 780-790, 913-923,
   968-978 for those without strings. *)
Definition event_initialize (e : ev) : hm (option hev) :=
  match e with
  | EStreamStart enc => hret (Some (HStreamStart enc))
  | EStreamEnd => hret (Some HStreamEnd)
  | EDocStart v ts implicit => document_start_event v ts implicit
  | EDocEnd implicit => hret (Some (HDocEnd implicit))
  | EAlias a => alias_event a
  | EScalar a t v pi qi st => scalar_event a t v pi qi st
  | ESeqStart a t implicit st => sequence_start_event a t implicit st
  | ESeqEnd => hret (Some HSeqEnd)
  | EMapStart a t implicit st => mapping_start_event a t implicit st
  | EMapEnd => hret (Some HMapEnd)
  end.

(* ---- documents ---- *)
Inductive hnode_data :=
| HNScalar (value : ptr) (style : sstyle)
| HNSequence (items : arr nat) (style : cstyle)
| HNMapping (pairs : arr (nat * nat)) (style : cstyle).
Record hnode := mkHnode { hn_tag : ptr; hn_data : hnode_data }.
Record hdoc := mkHdoc {
  hd_nodes : arr hnode;
  hd_version : ptr;
  hd_tags : arr hpair;
  hd_start_implicit : bool;
  hd_end_implicit : bool }.
Definition null_doc : hdoc := mkHdoc null_arr None null_arr false false.   (* memset 0 *)
Definition with_nodes (d : hdoc) (ns : arr hnode) : hdoc :=
  mkHdoc ns (hd_version d) (hd_tags d) (hd_start_implicit d) (hd_end_implicit d).

(* api.c:1035-1116 yaml_document_initialize *)
Definition h_document_initialize (v : option version) (ts : list tagdir) (si ei : bool) : hm (option hdoc) :=
  '(nodes, ok) <~ h_init ;;
  if negb ok then h_del nodes ;;; drop_copies None null_arr (None, None) ;;; hret None
  else
    '(vp, ok) <~ copy_version v ;;
    if negb ok then h_del nodes ;;; drop_copies vp null_arr (None, None) ;;; hret None
    else
      '(tags, value, ok) <~ copy_tag_list ts ;;
      if ok : bool then hret (Some (mkHdoc nodes vp tags si ei))
      else h_del nodes ;;; drop_copies vp tags value ;;; hret None.

(* api.c:1129-1145: one node *)
Definition node_delete (n : hnode) : hm unit :=
  h_free (hn_tag n) ;;;
  match hn_data n with
  | HNScalar v _ => h_free v
  | HNSequence items _ => h_del items
  | HNMapping pairs _ => h_del pairs
  end.
(* api.c:1122-1158 yaml_document_delete *)
Definition document_delete (d : hdoc) : hm unit :=
  h_empty_stack node_delete (hd_nodes d) ;;;
  h_del (hd_nodes d) ;;;
  h_free (hd_version d) ;;;
  h_for_each free_pair (hd_tags d) ;;;
  h_free (a_at (hd_tags d)).

(* api.c:1194-1238 yaml_document_add_scalar: the int returned and the document *)
Definition h_add_scalar (d : hdoc) (tag : option (list N)) (value : list N) (style : sstyle) : hm (nat * hdoc) :=
  let tag := match tag with Some t => t | None => default_scalar_tag end in
  let error t v := h_free t ;;; h_free v ;;; hret (0%nat, d) in
  if negb (utf8_good tag) then error None None else
  t <~ h_malloc tag ;;
  if is_null t then error t None else
  if negb (utf8_good value) then error t None else
  v <~ h_malloc value ;;
  if is_null v then error t v else
  '(ns, ok) <~ h_push (hd_nodes d) (mkHnode t (HNScalar v style)) ;;
  if ok : bool then hret (length (a_els ns), with_nodes d ns) else error t v.
(* api.c:1244-1283 yaml_document_add_sequence *)
Definition h_add_sequence (d : hdoc) (tag : option (list N)) (style : cstyle) : hm (nat * hdoc) :=
  let tag := match tag with Some t => t | None => default_sequence_tag end in
  let error (items : arr nat) t := h_del items ;;; h_free t ;;; hret (0%nat, d) in
  if negb (utf8_good tag) then error null_arr None else
  t <~ h_malloc tag ;;
  if is_null t then error null_arr t else
  '(items, ok) <~ h_init ;;
  if negb ok then error items t else
  '(ns, ok) <~ h_push (hd_nodes d) (mkHnode t (HNSequence items style)) ;;
  if ok : bool then hret (length (a_els ns), with_nodes d ns) else error items t.
(* api.c:1289-1328 yaml_document_add_mapping *)
Definition h_add_mapping (d : hdoc) (tag : option (list N)) (style : cstyle) : hm (nat * hdoc) :=
  let tag := match tag with Some t => t | None => default_mapping_tag end in
  let error (pairs : arr (nat * nat)) t := h_del pairs ;;; h_free t ;;; hret (0%nat, d) in
  if negb (utf8_good tag) then error null_arr None else
  t <~ h_malloc tag ;;
  if is_null t then error null_arr t else
  '(pairs, ok) <~ h_init ;;
  if negb ok then error pairs t else
  '(ns, ok) <~ h_push (hd_nodes d) (mkHnode t (HNMapping pairs style)) ;;
  if ok : bool then hret (length (a_els ns), with_nodes d ns) else error pairs t.

Definition h_valid_id (d : hdoc) (i : Z) : bool :=
  ((0 <? i) && (i <=? Z.of_nat (length (a_els (hd_nodes d)))))%Z.
Definition set_el {A} (a : arr A) (k : nat) (x : A) : arr A :=
  mkArr (a_at a) (set_nth k x (a_els a)) (a_off a) (a_cap a).
(* api.c:1334-1356 yaml_document_append_sequence_item *)
Definition h_append_item (d : hdoc) (sequence item : Z) : hm (nat * hdoc) :=
  let k := Z.to_nat (sequence - 1) in
  hassert (h_valid_id d sequence) ;;;
  h_touch (a_at (hd_nodes d)) ;;;
  match nth_error (a_els (hd_nodes d)) k with
  | Some (mkHnode t (HNSequence items style)) =>
      hassert (h_valid_id d item) ;;;
      '(items, ok) <~ h_push items (Z.to_nat item) ;;
      let d' := with_nodes d (set_el (hd_nodes d) k (mkHnode t (HNSequence items style))) in
      hret (if ok : bool then 1%nat else 0%nat, d')
  | Some _ => hassert false ;;; hundef
  | None => hundef
  end.
(* api.c:1362-1391 yaml_document_append_mapping_pair *)
Definition h_append_pair (d : hdoc) (mapping key value : Z) : hm (nat * hdoc) :=
  let k := Z.to_nat (mapping - 1) in
  hassert (h_valid_id d mapping) ;;;
  h_touch (a_at (hd_nodes d)) ;;;
  match nth_error (a_els (hd_nodes d)) k with
  | Some (mkHnode t (HNMapping pairs style)) =>
      hassert (h_valid_id d key) ;;;
      hassert (h_valid_id d value) ;;;
      '(pairs, ok) <~ h_push pairs (Z.to_nat key, Z.to_nat value) ;;
      let d' := with_nodes d (set_el (hd_nodes d) k (mkHnode t (HNMapping pairs style))) in
      hret (if ok : bool then 1%nat else 0%nat, d')
  | Some _ => hassert false ;;; hundef
  | None => hundef
  end.
Definition h_dstep (d : hdoc) (op : dop) : hm (nat * hdoc) :=
  match op with
  | AddScalar tag value style => h_add_scalar d tag value style
  | AddSequence tag style => h_add_sequence d tag style
  | AddMapping tag style => h_add_mapping d tag style
  | AppendItem s i => h_append_item d s i
  | AppendPair m k v => h_append_pair d m k v
  end.
(* a history of calls: the values returned and the document *)
Fixpoint h_drun (d : hdoc) (ops : list dop) : hm (list nat * hdoc) :=
  match ops with
  | [] => hret ([], d)
  | op :: ops' =>
      '(r, d) <~ h_dstep d op ;;
      '(rs, d) <~ h_drun d ops' ;;
      hret (r :: rs, d)
  end.
