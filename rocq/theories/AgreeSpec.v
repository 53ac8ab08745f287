(* What of a node must be the same after writing and reading it.  The strings of the
   node written are characters, those of the node read are UTF-8.  Refers to no model
   code. *)
From Verif Require Import Base Utf8Spec ReaderModel Types TreeSpec GrammarSpec RoundSpec.

(* The tag read for a scalar, in the style [style'] in which it is read.  A tag is
   written if it is not implied (or the output is canonical).  A scalar without a tag is
   read as a plain scalar only if the plain style implies its tag, and otherwise as a
   non-plain scalar; the tag "!" is added where the non-plain styles do not imply the
   tag. *)
Definition scalar_tag_read (canonical : bool) (t : option (list N)) (pi qi : bool) (style' : sstyle) (t' : option (list N)) : Prop :=
  match (if canonical || (negb pi && negb qi) then t else None) with
  | Some t => t' = Some (utf8 t)
  | None => match style' with
            | Plain => pi = true /\ t' = None
            | _ => t' = if qi then None else Some [0x21]
            end
  end.
Definition coll_tag_read (canonical : bool) (t : option (list N)) (implicit : bool) (t' : option (list N)) : Prop :=
  t' = match (if canonical || negb implicit then t else None) with Some t => Some (utf8 t) | None => None end.

(* The style in which a scalar asked for in [style] is read: double quoted in canonical
   output; otherwise as asked or, where that is not possible, quoted. *)
Definition scalar_style_read (canonical : bool) (style style' : sstyle) : Prop :=
  style' = DoubleQuoted \/
  canonical = false /\ match style with
                      | AnyScalar | Plain => style' = Plain \/ style' = SingleQuoted
                      | _ => style' = style
                      end.
(* Canonical output, collections asked for in flow style and empty collections are read
   in flow style. *)
Definition coll_style_read (canonical empty : bool) (style style' : cstyle) : Prop :=
  canonical = true \/ style = FlowColl \/ empty = true -> style' = FlowColl.

(* The flags about implied tags follow from the tag and the style read. *)
Definition scalar_flags_read (t' : option (list N)) (v' : list N) (style' : sstyle) (pi' qi' : bool) : Prop :=
  (pi' = plain_implicit_of t' style' \/ v' = [] /\ style' = Plain /\ pi' = implicit_of t') /\ qi' = quoted_implicit_of t' style'.

(* The same structure, anchors, tags and values; the styles and flags as above. *)
Inductive agrees (canonical : bool) : tree -> tree -> Prop :=
| A_alias a : agrees canonical (Alias a) (Alias a)
| A_scalar a t t' v pi qi pi' qi' style style' : scalar_tag_read canonical t pi qi style' t' -> scalar_style_read canonical style style' -> scalar_flags_read t' (utf8 v) style' pi' qi' ->
    agrees canonical (Scalar a t v pi qi style) (Scalar a t' (utf8 v) pi' qi' style')
| A_sequence a t t' i style style' xs xs' : coll_tag_read canonical t i t' -> coll_style_read canonical (match xs with [] => true | _ => false end) style style' ->
    Forall2 (agrees canonical) xs xs' ->
    agrees canonical (Sequence a t i style xs) (Sequence a t' (implicit_of t') style' xs')
| A_mapping a t t' i style style' ps ps' : coll_tag_read canonical t i t' -> coll_style_read canonical (match ps with [] => true | _ => false end) style style' ->
    Forall2 (fun p p' => agrees canonical (fst p) (fst p') /\ agrees canonical (snd p) (snd p')) ps ps' ->
    agrees canonical (Mapping a t i style ps) (Mapping a t' (implicit_of t') style' ps').

(* the depth of a node *)
Fixpoint height (x : tree) : nat :=
  match x with
  | Sequence _ _ _ _ xs => S (list_max (map height xs))
  | Mapping _ _ _ _ ps => S (list_max (map (fun p => Nat.max (height (fst p)) (height (snd p))) ps))
  | _ => O
  end.
Definition heights (xs : list tree) : nat := list_max (map height xs).
Definition pheights (ps : list (tree * tree)) : nat := list_max (map (fun p => Nat.max (height (fst p)) (height (snd p))) ps).

(* A document: its directives are kept, markers that are asked for are written, and others
   may be added. *)
Definition doc_agrees (canonical : bool) (d d' : doc_tree) : Prop :=
  dt_version d' = dt_version d /\ dt_tags d' = map (fun t => (utf8 (fst t), utf8 (snd t))) (dt_tags d) /\
  (canonical = true \/ dt_start_implicit d = false -> dt_start_implicit d' = false) /\ (dt_end_implicit d = false -> dt_end_implicit d' = false) /\
  agrees canonical (dt_root d) (dt_root d').
(* A first document for which nothing is written: without "---" and directives, with an
   empty plain scalar as its root. *)
Definition empty_plain (x : tree) : Prop := exists t qi style, x = Scalar None t [] true qi style /\ (style = Plain \/ style = AnyScalar).
Definition invisible (canonical : bool) (d : doc_tree) : Prop :=
  canonical = false /\ dt_start_implicit d = true /\ dt_version d = None /\ dt_tags d = [] /\ empty_plain (dt_root d).

(* Which streams are read back.  A tag that is written is without NUL and, where it is
   shortened by a tag directive, the rest has no ',', '[' or ']'; the prefixes of tag
   directives are without NUL; and the lines of a folded scalar that begin with a space fit in
   the line width.  [lim]: no line of the document is indented more. *)
Definition nice_tag (T : list tagdir) (t : list N) : Prop := Forall scalar_value t /\ ~ In 0 t /\ suffixes_ok T t.
Definition nice (canonical : bool) (T : list tagdir) (lim width : Z) (e : ev) : Prop :=
  match e with
  | EScalar _ t v pi qi style => (canonical || (negb pi && negb qi) = true -> forall x, t = Some x -> nice_tag T x) /\ Forall scalar_value v /\
      (canonical = false -> style = Folded -> indented_lines_fit lim width v)
  | ESeqStart _ t i _ | EMapStart _ t i _ => canonical || negb i = true -> forall x, t = Some x -> nice_tag T x
  | _ => True
  end.
Definition prefixes_ok (tags : list tagdir) : Prop := Forall (fun t => Forall scalar_value (snd t) /\ ~ In 0 (snd t)) tags.
Definition doc_limit (step : Z) (d : doc_tree) : Z := (step * (1 + Z.of_nat (height (dt_root d))))%Z.
Definition doc_nice (canonical : bool) (step width : Z) (d : doc_tree) : Prop :=
  prefixes_ok (dt_tags d) /\ Forall (nice canonical (env_of (dt_tags d)) (doc_limit step d) width) (events_of (dt_root d)).
