(* Specification side for the writer. *)
From Verif Require Import Base Utf8Spec ReaderModel WriterModel.

(* the characters an operation puts *)
Inductive cop := CPut (cs : list N) | CBreak (cs : list N) | CFlush.
Definition op_bytes (op : cop) : wop :=
  match op with CPut cs => WPut (utf8 cs) | CBreak cs => WBreak (utf8 cs) | CFlush => WFlush end.
Definition op_chars (op : cop) : list N :=
  match op with CPut cs => cs | CBreak cs => cs | CFlush => [] end.
(* one character, or CR LF *)
Definition op_ok (limit : N) (op : cop) : Prop :=
  match op with
  | CPut [c] | CBreak [c] => c < limit
  | CPut [0xD; 0xA] | CBreak [0xD; 0xA] => True
  | CFlush => True
  | _ => False
  end.

Definition chars_of (ops : list cop) : list N := flat_map op_chars ops.

(* everything the handler accepted, in order *)
Definition accepted (w : writer) : list N :=
  flat_map (fun c => if w_answer c then w_bytes c else []) (w_calls w).
Definition all_accepted (w : writer) : Prop := Forall (fun c => w_answer c = true) (w_calls w).
