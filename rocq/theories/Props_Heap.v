(* Who owns which memory: events and documents. *)
From Coq Require Import Permutation.
From Verif Require Import Base ReaderModel Types DocModel HeapModel HeapSpec HeapLemmas HeapEvents HeapDocs.

(* C54: for any event, any heap and any answers of the allocator, a call of
   yaml_*_event_initialize touches no memory it does not own, and
   - if it succeeds, the new blocks are exactly those that belong to the event,
     the event holds exactly the values given, and yaml_event_delete gives back
     exactly these blocks;
   - if it fails, all blocks are allocated that were before, and no others, and
     the reason is a refusal of the allocator or a string that is not UTF-8. *)
Theorem C54_event_call : forall e h, good h ->
  match event_initialize e h with
  | HOk (Some x) h' => good h' /\ changes h [] (ev_blocks x) h' /\ event_at h' x = Some e /\
      event_strings_good e = true /\
      exists h'', event_delete x h' = HOk tt h'' /\ Permutation (live h'') (live h)
  | HOk None h' => good h' /\ Permutation (live h') (live h) /\ (~ generous h \/ event_strings_good e = false)
  | HAssert | HUndef => False
  end.
Proof. exact (fun e h => event_call e h). Qed.
Print Assumptions C54_event_call.

(* C54: and so for a program that creates and deletes events in any order: after
   any history the blocks allocated are those of the events not yet deleted. *)
Theorem C54_event_history : forall calls answers, exists evs h',
  client [] calls (empty_heap answers) = HOk evs h' /\ Permutation (live h') (flat_map ev_blocks evs).
Proof. exact event_history. Qed.
Print Assumptions C54_event_history.

(* one request is refused while the second tag directive is copied *)
Definition sample_start : ev := EDocStart (Some (1, 2)%N) [([33], [97]); ([33; 98; 33], [99])]%N false.
Example C54_refused :
  event_initialize sample_start (empty_heap [true; true; true; true; true; false]) =
    HOk None (mkHeap [] [[1; 2]; []; [33]; [97]; [33; 98; 33]]%N []).
Proof. vm_compute. reflexivity. Qed.
Example C54_granted : match event_initialize sample_start (empty_heap []) with
  | HOk (Some x) h => ev_blocks x = [0; 2; 3; 4; 5; 1]%nat /\ live h = [5; 4; 3; 2; 1; 0]%nat | _ => False end.
Proof. vm_compute. auto. Qed.
(* seventeen directives: the array is moved once *)
Example C54_moved : match event_initialize (EDocStart None (repeat ([33], [97])%N 17) true) (empty_heap []) with
  | HOk (Some x) h => length (live h) = 35%nat | _ => False end.
Proof. vm_compute. reflexivity. Qed.
Example C54_history : match client [] [Create (EAlias [97]); Create sample_start; Create (EScalar (Some [98]) None [99] true true Plain); Delete 1]%N
    (empty_heap [true; false; true]) with
  | HOk [HAlias _] h => length (live h) = 1%nat | _ => False end.
Proof. vm_compute. reflexivity. Qed.

(* C55: for any history of calls that build a document, in any heap and with any
   answers of the allocator: no call touches memory that is not allocated or
   frees a block twice; after each history the blocks allocated are those
   there were before and those that belong to the document; the document and
   the values returned are those of the model of the calls on values (C12)
   for some answers [allocs] to "is there memory for this call?", all true
   if the allocator refuses nothing; and yaml_document_delete gives back exactly
   the blocks of the document. *)
Theorem C55_document_history : forall h v ts si ei ops, good h ->
  match h_document_initialize v ts si ei h with
  | HOk None h' => Permutation (live h') (live h) /\
      (generous h -> exists t, In t ts /\ (utf8_good (fst t) = false \/ utf8_good (snd t) = false))
  | HOk (Some d) h1 =>
      Permutation (live h1) (doc_blocks d ++ live h) /\
      document_at h1 d = mkDoc [] v ts si ei /\
      match h_drun d ops h1 with
      | HOk (rs, d') h2 =>
          Permutation (live h2) (doc_blocks d' ++ live h) /\
          (exists allocs, length allocs = length ops /\
             drun (mkDoc [] v ts si ei) (combine ops allocs) = (map DRet rs, document_at h2 d') /\
             (generous h -> Forall (eq true) allocs)) /\
          exists h3, document_delete d' h2 = HOk tt h3 /\ Permutation (live h3) (live h)
      | HAssert => exists allocs rs, length allocs = length ops /\ fst (drun (mkDoc [] v ts si ei) (combine ops allocs)) = rs ++ [DAssert]
      | HUndef => False
      end
  | HAssert | HUndef => False
  end.
Proof. exact document_history. Qed.
Print Assumptions C55_document_history.

(* a failing call in the middle: the third request of the second call is refused *)
Example C55_refused : match h_document_initialize None [] true true (empty_heap [true; true; true; true; false; true; true]) with
  | HOk (Some d) h =>
      match h_drun d [AddSequence None FlowColl; AddScalar None [97] Plain; AddScalar None [98] Plain; AppendItem 1 2]%N h with
      | HOk (rs, d') h' => rs = [1; 0; 2; 1]%nat /\ length (live h') = 5%nat /\
          match document_delete d' h' with HOk _ h'' => live h'' = [] | _ => False end
      | _ => False end
  | _ => False end.
Proof. vm_compute. auto. Qed.
