(* What it means that documents are written and read back as documents.  The strings of
   a document given to the dumper are characters, those of a document read are UTF-8. *)
From Verif Require Import Base ReaderModel ReaderSpec Utf8Spec Types TreeSpec GrammarSpec DocModel DocSpec EmitSpec RoundSpec AgreeSpec LoaderModel LoaderSpec DumperSpec.
From Verif Require ScannerModel ScannerSpec ParserModel.

(* The same document with its strings in UTF-8. *)
Definition utf8_node (n : node) : node :=
  mkNode (utf8 (n_tag n)) (match n_data n with NScalar v s => NScalar (utf8 v) s | x => x end).
Definition utf8_doc (d : document) : document :=
  mkDoc (map utf8_node (d_nodes d)) (d_version d) (utf8_tags (d_tags d)) (d_start_implicit d) (d_end_implicit d).

(* How deep the collections are nested: a chain of collections from the root, each a
   child of the one before, all different, has no more than [h] members. *)
Definition collection (d : document) (i : nat) : Prop :=
  exists n, node_at d i = Some n /\ match n_data n with NScalar _ _ => False | _ => True end.
Inductive path (d : document) : nat -> list nat -> Prop :=
| path_end i : path d i [i]
| path_step i j l : In j (children_at d i) -> path d j l -> path d i (i :: l).
Definition nested_at_most (d : document) (h : nat) : Prop :=
  forall l, path d 1 l -> NoDup l -> Forall (collection d) l -> (length l <= h)%nat.

(* Which documents are read back: their strings are characters, the prefixes of the tag
   directives and the tags that are written are as in [doc_nice], the lines of folded
   scalars that begin with a space fit in the line width, and the nesting is within the
   limits. *)
Definition document_text (d : document) : Prop :=
  Forall (fun t => text (fst t) /\ text (snd t)) (d_tags d) /\
  Forall (fun n => text (n_tag n) /\ match n_data n with NScalar v _ => text v | _ => True end) (d_nodes d).
Definition default_tag (n : node) : list N :=
  match n_data n with NScalar _ _ => default_scalar_tag | NSequence _ _ => default_sequence_tag | NMapping _ _ => default_mapping_tag end.
Definition node_nice (canonical : bool) (T : list tagdir) (lim width : Z) (n : node) : Prop :=
  (canonical = true \/ n_tag n <> default_tag n -> nice_tag T (n_tag n)) /\
  match n_data n with NScalar v Folded => canonical = false -> indented_lines_fit lim width v | _ => True end.
Definition writable (canonical : bool) (step width nest : Z) (d : document) : Prop :=
  document_text d /\ prefixes_ok (d_tags d) /\ exists h, nested_at_most d h /\
    (Z.of_nat h < nest)%Z /\ (9 * Z.of_nat h <= 2147483647)%Z /\
    forall i n, reachable d i -> node_at d i = Some n -> node_nice canonical (env_of (d_tags d)) (step * (1 + Z.of_nat h)) width n.
(* nothing is written for it *)
Definition invisible_doc (canonical : bool) (d : document) : Prop :=
  canonical = false /\ d_start_implicit d = true /\ d_version d = None /\ d_tags d = [] /\
  exists s, node_at d 1 = Some (mkNode default_scalar_tag (NScalar [] s)) /\ (s = Plain \/ s = AnyScalar).

(* The bytes [input], the encoding of which is not declared, are loaded as the documents
   [ds] and then the end: reader, scanner, parser and loader, one after the other. *)
Definition loaded_as (nest : Z) (input : list N) (ds : list document) : Prop :=
  exists enc text, (forall plan reqs, plan_ok plan -> Forall req_ok reqs -> read_all AnyEnc input plan reqs = Text (map utf8_enc text) enc) /\
  exists c tokens, (forall plan n, (c <= n)%nat -> ScannerSpec.scan_all n (ScannerModel.init_scanner enc nest text false plan) = (tokens, ScannerSpec.Ended)) /\
  exists c', forall fuel, (c' <= fuel)%nat -> exists l l', load_history fuel tokens ds l /\ load fuel l = LNoDocument l'.

(* How styles may change. *)
Definition coll_styles (canonical : bool) (s s' : cstyle) : Prop := canonical = true \/ s = FlowColl -> s' = FlowColl.
