(* Tokens at the level of allocated blocks: their strings, and how they are deleted.
   QUEUE_INSERT. *)
From Verif Require Import Base ReaderModel Types ParserModel DocModel HeapModel HeapLoaderModel.

(* yaml_token_t, include/yaml.h:217-291 *)
Inductive htok :=
| HTStreamStart (e : encoding) | HTStreamEnd
| HTVersion (major minor : N) | HTTagDirective (handle prefix : ptr)
| HTDocStart | HTDocEnd
| HTBlockSeqStart | HTBlockMapStart | HTBlockEnd
| HTFlowSeqStart | HTFlowSeqEnd | HTFlowMapStart | HTFlowMapEnd
| HTBlockEntry | HTFlowEntry | HTKey | HTValue
| HTAlias (name : ptr) | HTAnchor (name : ptr) | HTTag (handle suffix : ptr)
| HTScalar (value : ptr) (style : sstyle).
Record htoken := mkHtoken { ht_tok : htok; ht_start : mark; ht_end : mark; ht_deep : bool }.

(* api.c:583-624 yaml_token_delete *)
Definition token_delete (t : htok) : hm unit :=
  match t with
  | HTTagDirective a b | HTTag a b => h_free a ;;; h_free b
  | HTAlias a | HTAnchor a => h_free a
  | HTScalar v _ => h_free v
  | _ => hret tt
  end.
Definition is_hstream_end (t : htok) : bool := match t with HTStreamEnd => true | _ => false end.

Definition insert_at {A} (k : nat) (x : A) (l : list A) : list A := firstn k l ++ x :: skipn k l.
(* yaml_private.h:487-494 QUEUE_INSERT *)
Definition h_insert {A} (a : arr A) (k : nat) (x : A) : hm (arr A * bool) :=
  '(b, ok) <~ h_push a x ;;
  hret (if ok : bool then (mkArr (a_at b) (insert_at k x (a_els a)) (a_off b) (a_cap b), true) else (b, false)).
