(* Specification side for the marks of events (C74). *)
From Verif Require Import Base Types.

(* Events come in the order of the text and do not overlap. *)
Definition events_in_order (l : list event) : Prop :=
  (forall x, In x l -> m_index (e_start x) <= m_index (e_end x)) /\
  (forall a x b y c, l = a ++ x :: b ++ y :: c -> m_index (e_end x) <= m_index (e_start y)).
