(* Specification side for the marks of nodes (C77). *)
From Verif Require Import Base Types.

Definition is_open (e : ev) : bool := match e with ESeqStart _ _ _ _ | EMapStart _ _ _ _ => true | _ => false end.
Definition is_close (e : ev) : bool := match e with ESeqEnd | EMapEnd => true | _ => false end.
Definition is_scalar (e : ev) : bool := match e with EScalar _ _ _ _ _ _ => true | _ => false end.
(* the event that closes the collection in which these events begin, when [d] more are open *)
Fixpoint closing (d : nat) (es : list event) : option event :=
  match es with
  | [] => None
  | e :: r =>
      if is_open (e_ev e) then closing (S d) r
      else if is_close (e_ev e) then match d with O => Some e | S d' => closing d' r end
      else closing d r
  end.
(* The start and the end of each node of the events of a document: a scalar has those of its
   event; a collection begins with the event that opens it and ends with the one that closes it. *)
Fixpoint node_marks (es : list event) : list (mark * mark) :=
  match es with
  | [] => []
  | e :: r =>
      if is_scalar (e_ev e) then (e_start e, e_end e) :: node_marks r
      else if is_open (e_ev e) then (e_start e, match closing 0 r with Some c => e_end c | None => e_end e end) :: node_marks r
      else node_marks r
  end.
