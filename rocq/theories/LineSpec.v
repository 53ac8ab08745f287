(* Texts that differ only in how their line breaks are written. *)
From Verif Require Import Base CharSpec Types CursorModel ScannerModel ScannerSpec.

(* The text with every CR LF, CR and NEL replaced by LF.  LS and PS are kept. *)
Fixpoint with_lf (t : list N) : list N :=
  match t with
  | [] => []
  | x :: r =>
      if x =? 0xD then 0xA :: match r with y :: r' => if y =? 0xA then with_lf r' else with_lf r | [] => [] end
      else if x =? 0x85 then 0xA :: with_lf r
      else x :: with_lf r
  end.
Definition same_but_breaks (t t' : list N) : Prop := with_lf t = with_lf t'.

(* What is left of marks, tokens and errors when the distance from the start of the
   text, counted in characters, is forgotten: line and column stay. *)
Definition place (m : mark) : N * N := (m_line m, m_column m).
Definition placed (t : token) : tok * (N * N) * (N * N) * bool := (t_tok t, place (t_start t), place (t_end t), t_deep t).
Definition placed_error (e : serr) : sproblem * option (N * N) * (N * N) := (se_problem e, option_map place (se_context e), place (se_mark e)).
