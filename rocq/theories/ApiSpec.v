(* Specification side for the string handlers. *)
From Verif Require Import Base.

(* what a buffer of [size] bytes holds after [out] has been offered: the old
   contents [mem] with the first bytes of [out] written over them *)
Definition overlay (mem out : list N) : list N :=
  firstn (length mem) out ++ skipn (length out) mem.

(* the answers a handler with [size] bytes of room should give: a block is
   accepted as long as everything offered so far fits (or if it is empty) *)
Fixpoint fits (size done : N) (blocks : list (list N)) : list bool :=
  match blocks with
  | [] => []
  | bs :: rest => ((done + nlen bs <=? size) || (nlen bs =? 0)) :: fits size (done + nlen bs) rest
  end.
