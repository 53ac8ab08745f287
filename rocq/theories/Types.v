(* Data shared by scanner, parser, loader, dumper and emitter: marks, styles,
   tokens, events.  A yaml_char_t* string is a list of bytes (list N) without
   its terminating NUL.  In the emitter model, which works on characters, the
   same event type is used with lists of code points. *)
From Verif Require Import Base ReaderModel.

(* include/yaml.h:157-170 yaml_mark_t *)
Record mark := mkMark { m_index : N; m_line : N; m_column : N }.
Definition mark0 : mark := mkMark 0 0 0.

(* include/yaml.h:178-216: scalar, sequence and mapping styles *)
Inductive sstyle := AnyScalar | Plain | SingleQuoted | DoubleQuoted | Literal | Folded.
Inductive cstyle := AnyColl | BlockColl | FlowColl.
Definition sstyle_eqb (a b : sstyle) : bool :=
  match a, b with
  | AnyScalar, AnyScalar | Plain, Plain | SingleQuoted, SingleQuoted
  | DoubleQuoted, DoubleQuoted | Literal, Literal | Folded, Folded => true
  | _, _ => false
  end.
Definition cstyle_eqb (a b : cstyle) : bool :=
  match a, b with AnyColl, AnyColl | BlockColl, BlockColl | FlowColl, FlowColl => true | _, _ => false end.

(* Comparison of C strings (strcmp = 0 on NUL-free strings). *)
Fixpoint str_eqb (a b : list N) : bool :=
  match a, b with
  | [], [] => true
  | x :: a', y :: b' => (x =? y) && str_eqb a' b'
  | _, _ => false
  end.

(* include/yaml.h:218-266, 269-349: tokens *)
Inductive tok :=
| TStreamStart (e : encoding) | TStreamEnd
| TVersion (major minor : N) | TTagDirective (handle prefix : list N)
| TDocStart | TDocEnd
| TBlockSeqStart | TBlockMapStart | TBlockEnd
| TFlowSeqStart | TFlowSeqEnd | TFlowMapStart | TFlowMapEnd
| TBlockEntry | TFlowEntry | TKey | TValue
| TAlias (name : list N) | TAnchor (name : list N) | TTag (handle suffix : list N)
| TScalar (value : list N) (style : sstyle).
(* [t_deep] is not part of yaml_token_t: it says whether, at the time this token
   is at the head of the queue, the nesting limit is reached, i.e. whether the
   test STACK_LIMIT(parser, parser->indents, MAX_NESTING_LEVEL - flow_level) of
   parser.c:672-714 fails.  It is a function of the scanner state, which in turn
   depends only on the tokens fetched so far. *)
Record token := mkToken { t_tok : tok; t_start : mark; t_end : mark; t_deep : bool }.

(* include/yaml.h:69-83: directives *)
Definition version := (N * N)%type.
Definition tagdir := (list N * list N)%type.

(* include/yaml.h:355-470: events *)
Inductive ev :=
| EStreamStart (e : encoding) | EStreamEnd
| EDocStart (v : option version) (tags : list tagdir) (implicit : bool)
| EDocEnd (implicit : bool)
| EAlias (anchor : list N)
| EScalar (anchor tag : option (list N)) (value : list N) (plain_implicit quoted_implicit : bool) (style : sstyle)
| ESeqStart (anchor tag : option (list N)) (implicit : bool) (style : cstyle)
| ESeqEnd
| EMapStart (anchor tag : option (list N)) (implicit : bool) (style : cstyle)
| EMapEnd.
Record event := mkEvent { e_ev : ev; e_start : mark; e_end : mark }.

Lemma str_eqb_spec a b : reflect (a = b) (str_eqb a b).
Proof.
  revert b. induction a as [|x a IH]; intros [|y b]; cbn [str_eqb]; try (constructor; congruence).
  destruct (N.eqb_spec x y); cbn [andb]; [|constructor; congruence].
  destruct (IH b); constructor; congruence.
Qed.
Lemma str_eqb_refl a : str_eqb a a = true.
Proof. destruct (str_eqb_spec a a); congruence. Qed.
