(* Specification side for the places of tokens in the text (C75). *)
From Verif Require Import Base CharSpec Types ScannerSpec RoundSpec LexSpec LexemeSpec.

(* Where the token [k] ends that is spelled from [t] to [r].  A plain scalar, a block scalar
   and a directive are read on over the white space and the comments behind them. *)
Definition ends_at (T : list N) (k : tok) (t r : list N) (e : mark) : Prop :=
  match k with
  (* behind the last character before the white space *)
  | TScalar _ Plain => exists u x g, t = u ++ x :: g ++ r /\ is_blankz x = false /\
      Forall (fun y => is_blank y || is_break y = true) g /\ e = place T (g ++ r)
  (* at the beginning of the line behind, before its indentation, or at the end of the input *)
  | TScalar _ Literal | TScalar _ Folded => exists u g, t = u ++ g ++ r /\ Forall (fun y => y = 0x20) g /\ e = place T (g ++ r) /\
      (m_column e = 0 \/ head (g ++ r) = 0)
  (* behind the version number or the prefix *)
  | TVersion _ _ | TTagDirective _ _ => exists r1, directive_text (tl t) k r1 /\ line_end r1 r /\ e = place T r1
  | _ => e = place T r
  end.
(* The token [x] stands where its marks say: the rest [t] of the text [T] begins at its start
   mark, from there on the token is spelled, and it ends at its end mark. *)
Definition stands (T : list N) (x : token) : Prop :=
  exists flow indent before t lb r, T = before ++ t /\ t_start x = place T t /\
    lexeme flow (m_column (t_start x) =? 0) indent t (t_tok x) lb r /\ ends_at T (t_tok x) t r (t_end x).
(* a token that is not spelled has no extent *)
Definition in_place (T : list N) (x : token) : Prop :=
  if written x then stands T x else t_start x = t_end x.
