(* What is to be said about the emitter: independent of how it works. *)
From Verif Require Import Base Utf8Spec ReaderModel CharSpec Types TreeSpec.

(* Anchors and aliases: letters, digits, '_' and '-' *)
Definition valid_anchor (s : list N) : Prop := s <> [] /\ Forall (fun c => is_alpha c = true) s.
(* "!" or "!!" or "!name!" *)
Definition valid_handle (s : list N) : Prop :=
  s = [0x21] \/ exists name, s = 0x21 :: name ++ [0x21] /\ Forall (fun c => is_alpha c = true) name.
Definition valid_directives (v : option version) (tags : list tagdir) : Prop :=
  (forall major minor, v = Some (major, minor) -> major = 1 /\ (minor = 1 \/ minor = 2)) /\
  Forall (fun t => valid_handle (fst t) /\ snd t <> []) tags /\ NoDup (map fst tags).
Definition valid_props (anchor tag : option (list N)) (tag_used : Prop) : Prop :=
  (forall s, anchor = Some s -> valid_anchor s) /\ (tag_used -> tag <> Some []).
(* Events whose contents the emitter accepts.  The tag of a node is looked at only
   if it is not implied, or the output is canonical. *)
Definition valid_event (canonical : bool) (e : ev) : Prop :=
  match e with
  | EDocStart v tags _ => valid_directives v tags
  | EAlias a => valid_anchor a
  | EScalar a t _ pi qi _ =>
      valid_props a t (canonical = true \/ (pi = false /\ qi = false)) /\ (pi = true \/ qi = true \/ t <> None)
  | ESeqStart a t i _ | EMapStart a t i _ => valid_props a t (canonical = true \/ i = false)
  | _ => True
  end.

(* Events whose strings are Unicode text.  The event constructors check this of
   every string (api.c, yaml_check_utf8; C10). *)
Definition text (s : list N) : Prop := Forall scalar_value s.
Definition otext (o : option (list N)) : Prop := match o with Some s => text s | None => True end.
Definition text_event (e : ev) : Prop :=
  match e with
  | EDocStart _ tags _ => Forall (fun t => text (fst t) /\ text (snd t)) tags
  | EAlias a => text a
  | EScalar a t v _ _ _ => otext a /\ otext t /\ text v
  | ESeqStart a t _ _ | EMapStart a t _ _ => otext a /\ otext t
  | _ => True
  end.
