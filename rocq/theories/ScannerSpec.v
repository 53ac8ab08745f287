(* What is to be said about the token stream: independent of how the scanner
   works. *)
From Verif Require Import Base ReaderModel Utf8Spec CharSpec Types CursorModel ScanModel ScannerModel.

(* Successive calls of yaml_parser_scan that return tokens. *)
Inductive scans : sc -> list token -> sc -> Prop :=
| scans_nil s : scans s [] s
| scans_step s t s1 l s2 : scan s = ScanToken t s1 -> scans s1 l s2 -> scans s (t :: l) s2.

(* Any successive calls, whatever they return *)
Inductive calls : sc -> sc -> Prop :=
| calls_nil s : calls s s
| calls_token s t s1 s2 : scan s = ScanToken t s1 -> calls s1 s2 -> calls s s2
| calls_nothing s s1 s2 : scan s = ScanNothing s1 -> calls s1 s2 -> calls s s2
| calls_fail s s1 s2 : scan s = ScanFail s1 -> calls s1 s2 -> calls s s2.

(* Nesting of flow collections after a token.  An unmatched ']' or '}' is a token
   too; it does not go below zero. *)
Definition flow_after (d : N) (t : token) : N :=
  match t_tok t with
  | TFlowSeqStart | TFlowMapStart => d + 1
  | TFlowSeqEnd | TFlowMapEnd => d - 1
  | _ => d
  end.
Definition flow_from (d : N) (l : list token) : N := fold_left flow_after l d.
Definition flow_depth (l : list token) : N := flow_from 0 l.
(* Nesting of block collections after a token *)
Definition block_after (d : Z) (t : token) : Z :=
  match t_tok t with
  | TBlockSeqStart | TBlockMapStart => (d + 1)%Z
  | TBlockEnd => (d - 1)%Z
  | _ => d
  end.
Definition block_from (d : Z) (l : list token) : Z := fold_left block_after l d.
Definition block_depth (l : list token) : Z := block_from 0 l.

Definition is_block_token (t : token) : bool :=
  match t_tok t with TBlockSeqStart | TBlockMapStart | TBlockEnd => true | _ => false end.
(* tokens that belong to no document's content *)
Definition is_outer (t : token) : bool :=
  match t_tok t with
  | TStreamStart _ | TStreamEnd | TDocStart | TDocEnd | TVersion _ _ | TTagDirective _ _ => true
  | _ => false
  end.
(* a KEY token that is not written as '?' *)
Definition is_implicit_key (t : token) : Prop := t_tok t = TKey /\ t_start t = t_end t.
(* tokens a node consists of: properties, aliases, scalars, flow collections *)
Definition is_node_token (t : token) : bool :=
  match t_tok t with
  | TAlias _ | TAnchor _ | TTag _ _ | TScalar _ _ | TFlowSeqStart | TFlowMapStart => true
  | _ => false
  end.
Definition is_flow_end (t : token) : bool :=
  match t_tok t with TFlowSeqEnd | TFlowMapEnd => true | _ => false end.

(* A whole node, or its properties, at flow depth [d]: between its first and its
   last token the flow depth does not go below [d], and at depth [d] there are
   node tokens only. *)
Definition node_tokens (d : N) (l : list token) : Prop :=
  flow_from d l = d /\
  forall a x b, l = a ++ x :: b -> d <= flow_from d a /\ (flow_from d a = d -> is_node_token x = true).

(* The position of the [i]-th character: line breaks are counted where they end,
   CR LF being one break. *)
Definition ends_line (t : list N) (j : nat) : bool :=
  is_break (nth j t 0) && negb ((nth j t 0 =? 0xD) && (nth (S j) t 0 =? 0xA)).
Fixpoint position (t : list N) (i : nat) : mark :=
  match i with
  | O => mark0
  | S j => let m := position t j in
           if ends_line t j then mkMark (m_index m + 1) (m_line m + 1) 0
           else mkMark (m_index m + 1) (m_line m) (m_column m + 1)
  end.
Definition is_position (t : list N) (m : mark) : Prop :=
  exists i, (i <= length t)%nat /\ m = position t i.
(* yaml_parser_fetch_stream_end starts a new line if the last one is not ended,
   scanner.c:1333-1336 *)
Definition is_end_position (t : list N) (m : mark) : Prop :=
  is_position t m \/
  exists m0, is_position t m0 /\ m_column m0 <> 0 /\ m = mkMark (m_index m0) (m_line m0 + 1) 0.

(* The tokens are in the order of the text and do not overlap. *)
Definition in_order (l : list token) : Prop :=
  (forall t, In t l -> m_index (t_start t) <= m_index (t_end t)) /\
  (forall a x b y c, l = a ++ x :: b ++ y :: c -> m_index (t_end x) <= m_index (t_start y)).

(* "%YAML", blanks, a number, '.', a number; each number has one to nine digits
   and is not followed by a further one. *)
Definition is_decimal (ds : list N) : Prop :=
  (1 <= length ds <= 9)%nat /\ Forall (fun x => 0x30 <= x <= 0x39) ds.
Definition value_of (ds : list N) : N := fold_left (fun v d => 10 * v + (d - 0x30)) ds 0.
Definition version_at (t : list N) (major minor : N) : Prop :=
  exists ws d1 d2 r, t = [0x25; 0x59; 0x41; 0x4D; 0x4C] ++ ws ++ d1 ++ [0x2E] ++ d2 ++ r
    /\ Forall (fun x => x = 0x20 \/ x = 0x9) ws /\ is_decimal d1 /\ is_decimal d2
    /\ ~ (0x30 <= nth 0 r 0 <= 0x39) /\ major = value_of d1 /\ minor = value_of d2.

(* Calling yaml_parser_scan again and again *)
Inductive outcome := Ended | Failed (e : serr) | Unfinished | Undefined.
Fixpoint scan_all (n : nat) (s : sc) : list token * outcome :=
  match n with
  | O => ([], Unfinished)
  | S n' =>
      match scan s with
      | ScanToken t s' => let (l, o) := scan_all n' s' in (t :: l, o)
      | ScanNothing s' => ([], match s_error s' with Some e => Failed e | None => Ended end)
      | ScanFail s' => ([], match s_error s' with Some e => Failed e | None => Undefined end)
      | ScanBad => ([], Undefined)
      | ScanFuel => ([], Unfinished)
      end
  end.
