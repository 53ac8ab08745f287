(* Models of the growable containers of yaml_private.h and api.c at the level
   of allocated cells.  An allocated block is a list of cells; [None] is a cell
   that has not been written.  Each operation takes the answer of the allocator
   for that operation (true = memory is available).
   Results: None = access outside the block (undefined behaviour). *)
From Verif Require Import Base.

Section Cells.
  Context {A : Type}.
  Definition block := list (option A).
  Definition cell_write (m : block) (i : N) (x : option A) : option block :=
    if i <? nlen m then Some (firstn (N.to_nat i) m ++ x :: skipn (S (N.to_nat i)) m) else None.
  Definition cell_read (m : block) (i : N) : option A :=
    match nth_error m (N.to_nat i) with Some (Some x) => Some x | _ => None end.
  (* memmove of [len] cells from [src] to [dst] *)
  Definition cell_move (m : block) (dst src len : N) : option block :=
    if (dst + len <=? nlen m) && (src + len <=? nlen m) then
      Some (firstn (N.to_nat dst) m ++ firstn (N.to_nat len) (skipn (N.to_nat src) m)
            ++ skipn (N.to_nat (dst + len)) m)
    else None.
  (* realloc to twice the size *)
  Definition grow (m : block) : block := m ++ repeat None (length m).
End Cells.

Inductive outcome (A : Type) := Done | Got (x : A) | MemoryError.
Arguments Done {A}. Arguments Got {A}. Arguments MemoryError {A}.

(* INT_MAX / 2 of api.c:123 on the usual platforms *)
Definition STACK_BYTES_LIMIT : N := 1073741823.
(* yaml_private.h:84-85 *)
Definition INITIAL_STACK_SIZE : N := 16.
Definition INITIAL_QUEUE_SIZE : N := 16.

Section Stack.
  Context {A : Type}.
  Variable sizeof : N.                      (* size of an element in bytes *)
  Record stack := mkStack { stk_mem : @block A; stk_top : N }.
  (* STACK_INIT, yaml_private.h:424-430 *)
  Definition stack_init : stack := mkStack (repeat None (N.to_nat INITIAL_STACK_SIZE)) 0.
  (* api.c:118-135 yaml_stack_extend *)
  Definition stack_extend (s : stack) (alloc : bool) : option stack :=
    if STACK_BYTES_LIMIT <=? nlen (stk_mem s) * sizeof then None
    else if negb alloc then None
    else Some (mkStack (grow (stk_mem s)) (stk_top s)).
  (* PUSH, yaml_private.h:445-452 *)
  Definition stack_push (s : stack) (x : A) (alloc : bool) : option (stack * outcome A) :=
    match (if negb (stk_top s =? nlen (stk_mem s)) then Some s else stack_extend s alloc) with
    | None => Some (s, MemoryError)
    | Some s' => match cell_write (stk_mem s') (stk_top s') (Some x) with
                 | None => None
                 | Some m => Some (mkStack m (stk_top s' + 1), Done)
                 end
    end.
  (* POP, yaml_private.h:454-455 *)
  Definition stack_pop (s : stack) : option (stack * outcome A) :=
    if stk_top s =? 0 then None else
    match cell_read (stk_mem s) (stk_top s - 1) with
    | None => None
    | Some x => Some (mkStack (stk_mem s) (stk_top s - 1), Got x)
    end.
  Inductive stack_op := SPush (x : A) (alloc : bool) | SPop.
  Definition stack_step (s : stack) (op : stack_op) : option (stack * outcome A) :=
    match op with SPush x alloc => stack_push s x alloc | SPop => stack_pop s end.
  Fixpoint stack_run (s : stack) (ops : list stack_op) : option (stack * list (outcome A)) :=
    match ops with
    | [] => Some (s, [])
    | op :: ops' =>
        match stack_step s op with
        | None => None
        | Some (s', o) => match stack_run s' ops' with
                          | None => None
                          | Some (s'', os) => Some (s'', o :: os)
                          end
        end
    end.
End Stack.
Arguments stack : clear implicits.
Arguments stack_op : clear implicits.

Section Queue.
  Context {A : Type}.
  Record queue := mkQueue { q_mem : @block A; q_head : N; q_tail : N }.
  (* QUEUE_INIT, yaml_private.h:457-463 *)
  Definition queue_init (size : N) : queue := mkQueue (repeat None (N.to_nat size)) 0 0.
  (* api.c:141-169 yaml_queue_extend; outer None = undefined, inner None = no memory *)
  Definition queue_extend (q : queue) (alloc : bool) : option (option queue) :=
    let full := (q_head q =? 0) && (q_tail q =? nlen (q_mem q)) in
    if full && negb alloc then Some None else
    let q1 := if full then mkQueue (grow (q_mem q)) (q_head q) (q_tail q) else q in
    if q_tail q1 =? nlen (q_mem q1) then
      match (if negb (q_head q1 =? q_tail q1)
             then cell_move (q_mem q1) 0 (q_head q1) (q_tail q1 - q_head q1)
             else Some (q_mem q1)) with
      | None => None
      | Some m => Some (Some (mkQueue m 0 (q_tail q1 - q_head q1)))
      end
    else Some (Some q1).
  Definition queue_room (q : queue) (alloc : bool) : option (option queue) :=
    if negb (q_tail q =? nlen (q_mem q)) then Some (Some q) else queue_extend q alloc.
  (* ENQUEUE, yaml_private.h:472-479 *)
  Definition enqueue (q : queue) (x : A) (alloc : bool) : option (queue * outcome A) :=
    match queue_room q alloc with
    | None => None
    | Some None => Some (q, MemoryError)
    | Some (Some q') =>
        match cell_write (q_mem q') (q_tail q') (Some x) with
        | None => None
        | Some m => Some (mkQueue m (q_head q') (q_tail q' + 1), Done)
        end
    end.
  (* DEQUEUE, yaml_private.h:481-482 *)
  Definition dequeue (q : queue) : option (queue * outcome A) :=
    if q_head q =? q_tail q then None else
    match cell_read (q_mem q) (q_head q) with
    | None => None
    | Some x => Some (mkQueue (q_mem q) (q_head q + 1) (q_tail q), Got x)
    end.
  (* QUEUE_INSERT, yaml_private.h:484-494 *)
  Definition queue_insert (q : queue) (index : N) (x : A) (alloc : bool) : option (queue * outcome A) :=
    match queue_room q alloc with
    | None => None
    | Some None => Some (q, MemoryError)
    | Some (Some q') =>
        if q_tail q' - q_head q' <? index then None else      (* negative length for memmove *)
        match cell_move (q_mem q') (q_head q' + index + 1) (q_head q' + index)
                        (q_tail q' - q_head q' - index) with
        | None => None
        | Some m => match cell_write m (q_head q' + index) (Some x) with
                    | None => None
                    | Some m' => Some (mkQueue m' (q_head q') (q_tail q' + 1), Done)
                    end
        end
    end.
  Inductive queue_op := QEnqueue (x : A) (alloc : bool) | QDequeue | QInsert (index : N) (x : A) (alloc : bool).
  Definition queue_step (q : queue) (op : queue_op) : option (queue * outcome A) :=
    match op with
    | QEnqueue x alloc => enqueue q x alloc
    | QDequeue => dequeue q
    | QInsert i x alloc => queue_insert q i x alloc
    end.
  Fixpoint queue_run (q : queue) (ops : list queue_op) : option (queue * list (outcome A)) :=
    match ops with
    | [] => Some (q, [])
    | op :: ops' =>
        match queue_step q op with
        | None => None
        | Some (q', o) => match queue_run q' ops' with
                          | None => None
                          | Some (q'', os) => Some (q'', o :: os)
                          end
        end
    end.
End Queue.
Arguments queue : clear implicits.
Arguments queue_op : clear implicits.

(* Growable strings: blocks of bytes, cleared to 0 when allocated. *)
Record ystring := mkYstring { ys_mem : list N; ys_ptr : N }.
(* STRING_INIT with INITIAL_STRING_SIZE, yaml_private.h:86, 126-133 *)
Definition string_init : ystring := mkYstring (repeat 0 16) 0.
(* api.c:73-88 yaml_string_extend *)
Definition string_extend (s : ystring) (alloc : bool) : option ystring :=
  if alloc then Some (mkYstring (ys_mem s ++ repeat 0 (length (ys_mem s))) (ys_ptr s)) else None.
(* STRING_EXTEND, yaml_private.h:139-145 *)
Definition string_room (s : ystring) (alloc : bool) : option ystring :=
  if ys_ptr s + 5 <? nlen (ys_mem s) then Some s else string_extend s alloc.
(* storing bytes at the pointer (COPY and the like) *)
Definition string_store (s : ystring) (bs : list N) : option ystring :=
  if ys_ptr s + nlen bs <=? nlen (ys_mem s) then
    Some (mkYstring (firstn (N.to_nat (ys_ptr s)) (ys_mem s) ++ bs
                     ++ skipn (N.to_nat (ys_ptr s + nlen bs)) (ys_mem s))
                    (ys_ptr s + nlen bs))
  else None.
(* STRING_EXTEND followed by the stores of one character *)
Definition string_put (s : ystring) (bs : list N) (alloc : bool) : option (ystring * outcome N) :=
  match string_room s alloc with
  | None => Some (s, MemoryError)
  | Some s' => match string_store s' bs with None => None | Some s'' => Some (s'', Done) end
  end.
(* api.c:94-112 yaml_string_join; [allocs] are the allocator's answers, in order *)
Fixpoint join_room (fuel : nat) (s : ystring) (len : N) (allocs : list bool) : ystring * bool :=
  if nlen (ys_mem s) - ys_ptr s <=? len then
    match fuel with
    | O => (s, false)
    | S f => match string_extend s (hd true allocs) with
             | None => (s, false)
             | Some s' => join_room f s' len (tl allocs)
             end
    end
  else (s, true).
Definition string_join (s : ystring) (bs : list N) (allocs : list bool) : option (ystring * outcome N) :=
  match bs with
  | [] => Some (s, Done)
  | _ => match join_room (S (length bs)) s (nlen bs) allocs with
         | (s', false) => Some (s', MemoryError)
         | (s', true) => match string_store s' bs with None => None | Some s'' => Some (s'', Done) end
         end
  end.
(* CLEAR, yaml_private.h:147-149 *)
Definition string_clear (s : ystring) : ystring := mkYstring (repeat 0 (length (ys_mem s))) 0.

Inductive string_op :=
  | StrPut (bs : list N) (alloc : bool)
  | StrJoin (bs : list N) (allocs : list bool)
  | StrClear.
Definition string_step (s : ystring) (op : string_op) : option (ystring * outcome N) :=
  match op with
  | StrPut bs alloc => string_put s bs alloc
  | StrJoin bs allocs => string_join s bs allocs
  | StrClear => Some (string_clear s, Done)
  end.
Fixpoint string_run (s : ystring) (ops : list string_op) : option (ystring * list (outcome N)) :=
  match ops with
  | [] => Some (s, [])
  | op :: ops' =>
      match string_step s op with
      | None => None
      | Some (s', o) => match string_run s' ops' with
                        | None => None
                        | Some (s'', os) => Some (s'', o :: os)
                        end
      end
  end.
(* the C string at the start of the block: bytes up to the first NUL *)
Fixpoint c_string (m : list N) : list N :=
  match m with [] => [] | b :: m' => if b =? 0 then [] else b :: c_string m' end.
