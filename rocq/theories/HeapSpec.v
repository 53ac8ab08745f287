(* What it means to own memory: the blocks that belong to an object, and the
   values the blocks hold. *)
From Verif Require Import Base ReaderModel Types DocModel HeapModel.

(* a block is allocated at most once, and was handed out before *)
Definition good (h : heap) : Prop :=
  NoDup (live h) /\ forall b, In b (live h) -> (b < length (texts h))%nat.
Definition empty_heap (answers : list bool) : heap := mkHeap [] [] answers.

(* no request for memory is refused *)
Definition generous (h : heap) : Prop := ~ In false (grants h).

(* how often [b] occurs in [l] *)
Definition cnt (l : list nat) (b : nat) : nat := count_occ Nat.eq_dec l b.

(* The memory after a call is the memory before it, less the blocks [taken],
   plus the blocks [given]. *)
Definition changes (h : heap) (taken given : list nat) (h' : heap) : Prop :=
  forall b, (cnt (live h') b + cnt taken b = cnt (live h) b + cnt given b)%nat.
(* the blocks of [l] are allocated and no two of them are the same *)
Definition holds (h : heap) (l : list nat) : Prop := forall b, (cnt l b <= cnt (live h) b)%nat.

(* ---- the blocks that belong to an object ---- *)
Definition ptr_blocks (p : ptr) : list nat := match p with None => [] | Some b => [b] end.
Definition pair_blocks (p : hpair) : list nat := ptr_blocks (fst p) ++ ptr_blocks (snd p).
Definition tags_blocks (a : arr hpair) : list nat := flat_map pair_blocks (a_els a) ++ ptr_blocks (a_at a).
Definition ev_blocks (e : hev) : list nat :=
  match e with
  | HDocStart v tags _ => ptr_blocks v ++ tags_blocks tags
  | HAlias a => ptr_blocks a
  | HScalar a t v _ _ _ => ptr_blocks a ++ ptr_blocks t ++ ptr_blocks v
  | HSeqStart a t _ _ | HMapStart a t _ _ => ptr_blocks a ++ ptr_blocks t
  | _ => []
  end.
Definition node_blocks (n : hnode) : list nat :=
  ptr_blocks (hn_tag n) ++
  match hn_data n with
  | HNScalar v _ => ptr_blocks v
  | HNSequence items _ => ptr_blocks (a_at items)
  | HNMapping pairs _ => ptr_blocks (a_at pairs)
  end.
Definition doc_blocks (d : hdoc) : list nat :=
  flat_map node_blocks (a_els (hd_nodes d)) ++ ptr_blocks (a_at (hd_nodes d)) ++
  ptr_blocks (hd_version d) ++ tags_blocks (hd_tags d).

(* ---- the values held ---- *)
(* a string that must be there; NULL is shown as a list that is no string of bytes *)
Definition str_at (h : heap) (p : ptr) : list N := match p with None => [256] | Some b => nth b (texts h) [] end.
Definition opt_at (h : heap) (p : ptr) : option (list N) := match p with None => None | Some b => Some (nth b (texts h) []) end.
Definition version_at (h : heap) (p : ptr) : option version :=
  match opt_at h p with Some [a; b] => Some (a, b) | _ => None end.
Definition pair_at (h : heap) (p : hpair) : tagdir := (str_at h (fst p), str_at h (snd p)).
Definition event_at (h : heap) (e : hev) : option ev :=
  match e with
  | HNoEvent => None
  | HStreamStart enc => Some (EStreamStart enc)
  | HStreamEnd => Some EStreamEnd
  | HDocStart v tags i => Some (EDocStart (version_at h v) (map (pair_at h) (a_els tags)) i)
  | HDocEnd i => Some (EDocEnd i)
  | HAlias a => Some (EAlias (str_at h a))
  | HScalar a t v pi qi st => Some (EScalar (opt_at h a) (opt_at h t) (str_at h v) pi qi st)
  | HSeqStart a t i st => Some (ESeqStart (opt_at h a) (opt_at h t) i st)
  | HSeqEnd => Some ESeqEnd
  | HMapStart a t i st => Some (EMapStart (opt_at h a) (opt_at h t) i st)
  | HMapEnd => Some EMapEnd
  end.
Definition hnode_at (h : heap) (n : hnode) : node :=
  mkNode (str_at h (hn_tag n))
    (match hn_data n with
     | HNScalar v st => NScalar (str_at h v) st
     | HNSequence items st => NSequence (a_els items) st
     | HNMapping pairs st => NMapping (a_els pairs) st
     end).
Definition document_at (h : heap) (d : hdoc) : document :=
  mkDoc (map (hnode_at h) (a_els (hd_nodes d))) (version_at h (hd_version d))
    (map (pair_at h) (a_els (hd_tags d))) (hd_start_implicit d) (hd_end_implicit d).

(* the strings of an event are acceptable to the API (C10) *)
Definition good_opt (s : option (list N)) : bool := match s with None => true | Some s => utf8_good s end.
Definition event_strings_good (e : ev) : bool :=
  match e with
  | EDocStart _ ts _ => forallb (fun t => utf8_good (fst t) && utf8_good (snd t)) ts
  | EAlias a => utf8_good a
  | EScalar a t v _ _ _ => good_opt a && good_opt t && utf8_good v
  | ESeqStart a t _ _ | EMapStart a t _ _ => good_opt a && good_opt t
  | _ => true
  end.

(* A program that creates and deletes events: the event number [k] (counted from
   0) of those it has is deleted. *)
Fixpoint remove_nth {A} (k : nat) (l : list A) : list A :=
  match l, k with [], _ => [] | _ :: l', O => l' | x :: l', S k' => x :: remove_nth k' l' end.
Inductive ecall := Create (e : ev) | Delete (k : nat).
Fixpoint client (evs : list hev) (calls : list ecall) : hm (list hev) :=
  match calls with
  | [] => hret evs
  | Create e :: calls' =>
      r <~ event_initialize e ;;
      client (match r with Some x => evs ++ [x] | None => evs end) calls'
  | Delete k :: calls' =>
      match nth_error evs k with
      | Some x => event_delete x ;;; client (remove_nth k evs) calls'
      | None => client evs calls'
      end
  end.
