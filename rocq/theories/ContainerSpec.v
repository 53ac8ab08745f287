(* What the containers should do: plain lists. *)
From Verif Require Import Base ContainerModel.

Section Spec.
  Context {A : Type}.
  (* LIFO; top of the stack is the end of the list *)
  Inductive stack_does : list A -> stack_op A -> outcome A -> list A -> Prop :=
    | sd_push l x b : stack_does l (SPush x b) Done (l ++ [x])
    | sd_full l x b : stack_does l (SPush x b) MemoryError l
    | sd_pop l x : stack_does (l ++ [x]) SPop (Got x) l.
  Inductive stack_runs : list A -> list (stack_op A) -> list (outcome A) -> list A -> Prop :=
    | sr_nil l : stack_runs l [] [] l
    | sr_cons l op o l' ops os l'' : stack_does l op o l' -> stack_runs l' ops os l'' ->
        stack_runs l (op :: ops) (o :: os) l''.

  (* FIFO with positional insert *)
  Inductive queue_does : list A -> queue_op A -> outcome A -> list A -> Prop :=
    | qd_enq l x b : queue_does l (QEnqueue x b) Done (l ++ [x])
    | qd_enq_full l x b : queue_does l (QEnqueue x b) MemoryError l
    | qd_deq l x : queue_does (x :: l) QDequeue (Got x) l
    | qd_ins l k x b : queue_does (l ++ k) (QInsert (nlen l) x b) Done (l ++ x :: k)
    | qd_ins_full l i x b : i <= nlen l -> queue_does l (QInsert i x b) MemoryError l.
  Inductive queue_runs : list A -> list (queue_op A) -> list (outcome A) -> list A -> Prop :=
    | qr_nil l : queue_runs l [] [] l
    | qr_cons l op o l' ops os l'' : queue_does l op o l' -> queue_runs l' ops os l'' ->
        queue_runs l (op :: ops) (o :: os) l''.

  Definition granted_s (op : stack_op A) : Prop := match op with SPush _ b => b = true | SPop => True end.
  Definition granted_q (op : queue_op A) : Prop :=
    match op with QEnqueue _ b | QInsert _ _ b => b = true | QDequeue => True end.
  (* operations the library is allowed to do on a queue holding [l] *)
  Definition queue_legal (l : list A) (op : queue_op A) : Prop :=
    match op with QEnqueue _ _ => True | QDequeue => l <> [] | QInsert i _ _ => i <= nlen l end.
End Spec.

(* append-only strings *)
Inductive string_does : list N -> string_op -> outcome N -> list N -> Prop :=
  | std_put l bs b : string_does l (StrPut bs b) Done (l ++ bs)
  | std_put_full l bs : string_does l (StrPut bs false) MemoryError l
  | std_join l bs bb : string_does l (StrJoin bs bb) Done (l ++ bs)
  | std_join_full l bs bb : In false bb -> string_does l (StrJoin bs bb) MemoryError l
  | std_clear l : string_does l StrClear Done [].
Inductive string_runs : list N -> list string_op -> list (outcome N) -> list N -> Prop :=
  | str_nil l : string_runs l [] [] l
  | str_cons l op o l' ops os l'' : string_does l op o l' -> string_runs l' ops os l'' ->
      string_runs l (op :: ops) (o :: os) l''.
(* the library stores one character (at most 4 bytes) at a time *)
Definition string_op_ok (op : string_op) : Prop :=
  match op with StrPut bs _ => nlen bs <= 4 | _ => True end.

(* what a container holds: the cells in use, in order *)
Definition stack_holds {A} (s : stack A) (l : list A) : Prop :=
  stk_top s = nlen l /\ firstn (length l) (stk_mem s) = map Some l.
Definition queue_holds {A} (q : queue A) (l : list A) : Prop :=
  q_tail q = q_head q + nlen l /\ firstn (length l) (skipn (N.to_nat (q_head q)) (q_mem q)) = map Some l.
