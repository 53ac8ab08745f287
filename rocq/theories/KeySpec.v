(* What is to be said about the simple keys the emitter writes. *)
From Verif Require Import Base ReaderModel CharSpec Types TreeSpec RoundSpec PenModel EmitModel.

(* From [m] the emitter, given further events one by one, has handled the events [es].
   yaml_emitter_emit (emitter.c:281-297) puts the event into the queue (T_give), then handles
   events from the head of the queue while it has enough of them (T_take). *)
Inductive takes (m : emitter) : list ev -> emitter -> Prop :=
| T_nil : takes m [] m
| T_give es m1 e : takes m es m1 -> takes m es (set_events m1 (m_events m1 ++ [e]))
| T_take es m1 e q m2 : takes m es m1 -> m_events m1 = e :: q -> need_more (e :: q) = false -> emit_one m1 e = EOk m2 -> takes m (es ++ [e]) m2.

(* The next node is the key of a pair; a key has been written without "?", the next
   character is its ":". *)
Definition before_key (s : estate) : bool := match s with FlowMapFirst | FlowMapKey | BlockMapFirst | BlockMapKey => true | _ => false end.
Definition after_simple_key (s : estate) : bool := match s with FlowMapSimple | BlockMapSimple => true | _ => false end.
(* What is written before the white space before a key: "{", perhaps after a space, or ",". *)
Definition opening (s : estate) (w : list N) : Prop :=
  match s with
  | FlowMapFirst => w = [0x7B] \/ w = [0x20; 0x7B]
  | FlowMapKey => w = [0x2C]
  | _ => w = []
  end.
(* A text that the scanner can take for a key: it begins with a character other than a
   space or a line break, has no line break and is short. *)
Definition key_text (w : list N) : Prop :=
  (exists c r, w = c :: r /\ c <> 0x20 /\ is_break c = false) /\ existsb is_break w = false /\ (length w < 1024)%nat.
