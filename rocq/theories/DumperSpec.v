(* Specification of dumping: which event sequence serialises a document graph.
   Only the last definition, the history of calls, refers to the dumper. *)
From Verif Require Import Base ReaderModel Types TreeSpec DocModel DocSpec LoaderSpec DumperModel.

(* The part of the document that the root reaches. *)
Inductive reachable (d : document) : nat -> Prop :=
| R_root : reachable d 1
| R_child i n c : reachable d i -> node_at d i = Some n -> In c (children n) -> reachable d c.

(* A serialisation of the graph: a tree in which every occurrence of a node is
   either the node itself, with an occurrence for each child, or an alias. *)
Inductive occ :=
| OAlias (i : nat)
| ONode (i : nat) (kids : list occ).
Definition occ_id (o : occ) : nat := match o with OAlias i => i | ONode i _ => i end.
(* all occurrences in document order; true for the nodes themselves *)
Fixpoint occurrences (o : occ) : list (bool * nat) :=
  match o with
  | OAlias i => [(false, i)]
  | ONode i kids => (true, i) :: flat_map occurrences kids
  end.
Definition nodes_of (l : list (bool * nat)) : list nat := map snd (filter fst l).

(* The tree of events that presents [o], with anchor names [name]. *)
Inductive presents (d : document) (name : nat -> option (list N)) : occ -> tree -> Prop :=
| P_alias i a : name i = Some a -> presents d name (OAlias i) (Alias a)
| P_scalar i n v s pi qi : node_at d i = Some n -> n_data n = NScalar v s ->
    (pi = true <-> n_tag n = default_scalar_tag) -> (qi = true <-> n_tag n = default_scalar_tag) ->
    presents d name (ONode i []) (Scalar (name i) (Some (n_tag n)) v pi qi s)
| P_sequence i n s imp kids ts : node_at d i = Some n -> n_data n = NSequence (map occ_id kids) s ->
    (imp = true <-> n_tag n = default_sequence_tag) ->
    Forall2 (presents d name) kids ts ->
    presents d name (ONode i kids) (Sequence (name i) (Some (n_tag n)) imp s ts)
| P_mapping i n s imp kids ps pairs : node_at d i = Some n -> n_data n = NMapping pairs s ->
    (imp = true <-> n_tag n = default_mapping_tag) ->
    flat_map (fun p => [fst p; snd p]) pairs = map occ_id kids ->
    Forall2 (presents d name) kids (flat_map (fun p => [fst p; snd p]) ps) ->
    presents d name (ONode i kids) (Mapping (name i) (Some (n_tag n)) imp s ps).

(* Each reachable node is serialised exactly once and nothing else is; wherever it
   occurs again, later, it is an alias. *)
Definition serialised_once (d : document) (o : occ) : Prop :=
  NoDup (nodes_of (occurrences o)) /\
  (forall i, In i (nodes_of (occurrences o)) <-> reachable d i) /\
  (forall before i after, occurrences o = before ++ (false, i) :: after -> In (true, i) before).

(* How often a node is referred to: as the root and as a child of reachable nodes. *)
Definition children_at (d : document) (i : nat) : list nat :=
  match node_at d i with Some n => children n | None => [] end.
Definition references (d : document) (nodes : list nat) (i : nat) : nat :=
  count_occ Nat.eq_dec (1%nat :: flat_map (children_at d) nodes) i.
(* Anchors: exactly for the nodes referred to more than once, no two the same. *)
Definition anchors_ok (d : document) (nodes : list nat) (name : nat -> option (list N)) : Prop :=
  (forall i, reachable d i -> (name i <> None <-> (1 < references d nodes i)%nat)) /\
  (forall i j a, name i = Some a -> name j = Some a -> i = j).

Definition dumped (d : document) (dt : doc_tree) : Prop :=
  dt_version dt = d_version d /\ dt_tags dt = d_tags d /\
  dt_start_implicit dt = d_start_implicit d /\ dt_end_implicit dt = d_end_implicit d /\
  exists o name, occ_id o = 1%nat /\ presents d name o (dt_root dt) /\ serialised_once d o /\
    anchors_ok d (nodes_of (occurrences o)) name.

(* Event log of yaml_emitter_dump: a document with nodes is written as one document
   of the stream, one without nodes ends the stream. *)
Definition opening (opened : bool) : list ev := if opened then [] else [EStreamStart AnyEnc].
Definition is_prefix {A} (a b : list A) : Prop := exists c, b = a ++ c.

(* A history of calls of yaml_emitter_dump on documents with valid ids, whatever the
   calls return; and one in which they all succeed. *)
Inductive dump_calls (fuel : nat) (s0 : dumper) : list document -> dumper -> Prop :=
| DC_start : dump_calls fuel s0 [] s0
| DC_call ds s d s' : dump_calls fuel s0 ds s -> closed d -> (length (d_nodes d) < fuel)%nat ->
    dump fuel s d = DOk s' \/ dump fuel s d = DFail s' -> dump_calls fuel s0 (ds ++ [d]) s'.
Inductive dumps (fuel : nat) (s0 : dumper) : list document -> dumper -> Prop :=
| DS_start : dumps fuel s0 [] s0
| DS_call ds s d s' : dumps fuel s0 ds s -> closed d -> (length (d_nodes d) < fuel)%nat ->
    dump fuel s d = DOk s' -> dumps fuel s0 (ds ++ [d]) s'.

(* Dumping and loading.  The events read back may differ from those dumped in how
   a tag equal to the default is written, in the "implicit" flags, and in styles,
   as long as the styles are related by [ss] and [cs]. *)
Section reread.
  Variable ss : sstyle -> sstyle -> Prop.
  Variable cs : cstyle -> cstyle -> Prop.
  Inductive same_event : ev -> ev -> Prop :=
  | SE_doc_start v tags i i' : same_event (EDocStart v tags i) (EDocStart v tags i')
  | SE_doc_end i i' : same_event (EDocEnd i) (EDocEnd i')
  | SE_alias a : same_event (EAlias a) (EAlias a)
  | SE_scalar a tag tag' v pi qi pi' qi' s s' :
      tag_or_default tag default_scalar_tag = tag_or_default tag' default_scalar_tag -> ss s s' ->
      same_event (EScalar a tag v pi qi s) (EScalar a tag' v pi' qi' s')
  | SE_sequence a tag tag' i i' s s' :
      tag_or_default tag default_sequence_tag = tag_or_default tag' default_sequence_tag -> cs s s' ->
      same_event (ESeqStart a tag i s) (ESeqStart a tag' i' s')
  | SE_sequence_end : same_event ESeqEnd ESeqEnd
  | SE_mapping a tag tag' i i' s s' :
      tag_or_default tag default_mapping_tag = tag_or_default tag' default_mapping_tag -> cs s s' ->
      same_event (EMapStart a tag i s) (EMapStart a tag' i' s')
  | SE_mapping_end : same_event EMapEnd EMapEnd.

  (* [n'] is [n] with its children renamed.  The loader reads the tag "!" as no tag. *)
  Definition same_node (f : nat -> nat) (n n' : node) : Prop :=
    match n_data n, n_data n' with
    | NScalar v s, NScalar v' s' => n_tag n' = tag_or_default (Some (n_tag n)) default_scalar_tag /\ v' = v /\ ss s s'
    | NSequence l s, NSequence l' s' => n_tag n' = tag_or_default (Some (n_tag n)) default_sequence_tag /\ l' = map f l /\ cs s s'
    | NMapping l s, NMapping l' s' => n_tag n' = tag_or_default (Some (n_tag n)) default_mapping_tag /\
        l' = map (fun p => (f (fst p), f (snd p))) l /\ cs s s'
    | _, _ => False
    end.
  (* [f] maps the part of [d] reachable from the root one-to-one onto [d']. *)
  Definition isomorphic (f : nat -> nat) (d d' : document) : Prop :=
    f 1%nat = 1%nat /\ d_version d' = d_version d /\ d_tags d' = d_tags d /\
    (forall i n, reachable d i -> node_at d i = Some n -> exists n', node_at d' (f i) = Some n' /\ same_node f n n') /\
    (forall i j, reachable d i -> reachable d j -> f i = f j -> i = j) /\
    (forall k n, node_at d' k = Some n -> exists i, reachable d i /\ f i = k).
End reread.
