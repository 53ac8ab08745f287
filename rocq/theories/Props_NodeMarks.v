(* Property C77: the marks of documents and of their nodes.  Statements only.  The marks are in
   MarkLoaderModel.v, [node_marks] in NodeMarksSpec.v, [reading] and [load_history] in LoaderSpec.v. *)
From Verif Require Import Base ReaderModel Types CursorModel ScannerModel ScannerSpec ScannerFinal ParserModel DocModel LoaderModel LoaderSpec MarkLoaderModel NodeMarksSpec NodeMarks.

(* the model with marks is the model of C28-C31 with marks added *)
Theorem C77_same_loader fuel l : unmarked (mload fuel l) = load fuel l.
Proof. exact (mload_unmarked fuel l). Qed.
Print Assumptions C77_same_loader.

(* C77: a document that is loaded has its marks from its DOCUMENT-START and DOCUMENT-END, and
   each node, in the order of the nodes, from the event that it is made from: a scalar both, a
   collection its start from the event that opens it and its end from the one that closes it. *)
Theorem C77_node_marks fuel l d l' : mload fuel l = MDocument d l' ->
  exists start v tags i es stop j, reading l (start :: es ++ [stop]) (ld_parser l') /\ e_ev start = EDocStart v tags i /\ e_ev stop = EDocEnd j /\
    md_start d = e_start start /\ md_end d = e_end stop /\ md_nodes d = node_marks es /\ length (d_nodes (md_doc d)) = length (md_nodes d).
Proof. exact (mload_marks fuel l d l'). Qed.
Print Assumptions C77_node_marks.

(* C77: so, whatever the text and whichever of its documents, the marks of the nodes are
   positions of the text within the document, and of two nodes the second one begins not before
   the first one and lies behind it or within it. *)
Theorem C77_nested e nest T bad plan input s fuel ds l d l' :
  scans (init_scanner e nest T bad plan) input s -> load_history fuel input ds l -> mload fuel l = MDocument d l' ->
  (forall a b, In (a, b) (md_nodes d) -> is_end_position T a /\ is_end_position T b /\
     m_index (md_start d) <= m_index a /\ m_index a <= m_index b /\ m_index b <= m_index (md_end d)) /\
  (forall x a b y a' b' z, md_nodes d = x ++ (a, b) :: y ++ (a', b') :: z ->
     m_index a <= m_index a' /\ (m_index b <= m_index a' \/ m_index b' <= m_index b)).
Proof. exact (loaded_marks e nest T bad plan input s fuel ds l d l'). Qed.
Print Assumptions C77_nested.

(* "- [a, b]" LF "- &x c" *)
Definition nodes_text : list N := [0x2D; 0x20; 0x5B; 0x61; 0x2C; 0x20; 0x62; 0x5D; 10; 0x2D; 0x20; 0x26; 0x78; 0x20; 0x63].
Definition nodes_tokens : list token := fst (scan_all 40 (init_scanner Utf8Enc 100 nodes_text false [])).
Example C77_scanned : exists s, scans (init_scanner Utf8Enc 100 nodes_text false []) nodes_tokens s.
Proof.
  unfold nodes_tokens. destruct (scan_all 40 (init_scanner Utf8Enc 100 nodes_text false [])) as [l o] eqn:E. exact (scan_all_scans 40 _ _ _ E).
Qed.
Example C77_loaded : match mload 100 (init_loader nodes_tokens) with
  | MDocument d _ => map (fun x => (m_index (fst x), m_index (snd x))) (md_nodes d) = [(0, 15); (2, 8); (3, 4); (6, 7); (11, 15)] /\
      m_index (md_start d) = 0 /\ m_index (md_end d) = 15
  | _ => False
  end.
Proof. vm_compute. auto. Qed.
