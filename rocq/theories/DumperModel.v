(* Model of dumper.c: events from documents.

   Simplifications: allocation succeeds; int counters do not overflow; freeing
   the document is not modelled.  yaml_emitter_emit is a sink that logs the events
   it accepts and fails when told to: [dm_sink] lists the outcomes of the calls to
   come (when it is exhausted all calls succeed). *)
From Verif Require Import Base ReaderModel Types DocModel.

(* yaml_private.h yaml_anchors_t, include/yaml.h:1682-1696: references, anchor, serialized *)
Record anchor_info := mkInfo { ai_refs : nat; ai_anchor : nat; ai_serialized : bool }.
Record dumper := mkDumper {
  dm_opened : bool; dm_closed : bool;
  dm_anchors : list anchor_info; dm_last : nat;
  dm_log : list ev; dm_sink : list bool }.

(* return 1; return 0; failed assertion; access outside an array; recursion deeper
   than the fuel of the model *)
Inductive dres :=
| DOk (s : dumper)
| DFail (s : dumper)
| DAssertFail
| DUndefined
| DOutOfFuel.
Definition dbind (r : dres) (k : dumper -> dres) : dres := match r with DOk s => k s | x => x end.

Definition emit (s : dumper) (e : ev) : dres :=
  match dm_sink s with
  | [] => DOk (mkDumper (dm_opened s) (dm_closed s) (dm_anchors s) (dm_last s) (dm_log s ++ [e]) [])
  | true :: r => DOk (mkDumper (dm_opened s) (dm_closed s) (dm_anchors s) (dm_last s) (dm_log s ++ [e]) r)
  | false :: r => DFail (mkDumper (dm_opened s) (dm_closed s) (dm_anchors s) (dm_last s) (dm_log s) r)
  end.

(* a loop over children *)
Fixpoint each (f : dumper -> nat -> dres) (l : list nat) (s : dumper) : dres :=
  match l with
  | [] => DOk s
  | i :: r => dbind (f s i) (each f r)
  end.
(* pair->key then pair->value *)
Definition flat_pairs (pairs : list (nat * nat)) : list nat := flat_map (fun p => [fst p; snd p]) pairs.

(* anchors[index-1], document->nodes.start[index-1] *)
Definition at_index {A} (l : list A) (index : nat) : option A :=
  match index with O => None | S k => nth_error l k end.
Definition set_info (s : dumper) (index : nat) (x : anchor_info) : dumper :=
  mkDumper (dm_opened s) (dm_closed s) (set_nth (index - 1) x (dm_anchors s)) (dm_last s) (dm_log s) (dm_sink s).
Definition set_last (s : dumper) (n : nat) : dumper :=
  mkDumper (dm_opened s) (dm_closed s) (dm_anchors s) n (dm_log s) (dm_sink s).

(* dumper.c:206-238 yaml_emitter_anchor_node *)
Fixpoint anchor_node (fuel : nat) (nodes : list node) (s : dumper) (index : nat) : dres :=
  match fuel with
  | O => DOutOfFuel
  | S f =>
      match at_index nodes index, at_index (dm_anchors s) index with
      | Some n, Some x =>
          let x := mkInfo (S (ai_refs x)) (ai_anchor x) (ai_serialized x) in
          let s := set_info s index x in
          if (ai_refs x =? 1)%nat then
            match n_data n with
            | NSequence items _ => each (anchor_node f nodes) items s
            | NMapping pairs _ => each (anchor_node f nodes) (flat_pairs pairs) s
            | NScalar _ _ => DOk s
            end
          else if (ai_refs x =? 2)%nat then
            let id := S (dm_last s) in
            DOk (set_info (set_last s id) index (mkInfo (ai_refs x) id (ai_serialized x)))
          else DOk s
      | _, _ => DUndefined
      end
  end.

(* dumper.c:244-258 yaml_emitter_generate_anchor: sprintf "id%03d" *)
Fixpoint dec (fuel : nat) (n : N) (acc : list N) : list N :=
  match fuel with
  | O => acc
  | S f => let acc := (48 + n mod 10) :: acc in if n / 10 =? 0 then acc else dec f (n / 10) acc
  end.
Definition decimal (n : N) : list N := dec (S (N.to_nat (N.log2 n))) n [].
Definition pad3 (ds : list N) : list N := repeat 48 (3 - length ds) ++ ds.
Definition generate_anchor (id : nat) : list N := [105;100] ++ pad3 (decimal (N.of_nat id)).

(* dumper.c:263-400 yaml_emitter_dump_node, with dump_alias, dump_scalar, dump_sequence
   and dump_mapping.  An alias with anchor NULL (never emitted, see C33) is undefined. *)
Fixpoint dump_node (fuel : nat) (nodes : list node) (s : dumper) (index : nat) : dres :=
  match fuel with
  | O => DOutOfFuel
  | S f =>
      match at_index nodes index, at_index (dm_anchors s) index with
      | Some n, Some x =>
          let anchor := if (ai_anchor x =? 0)%nat then None else Some (generate_anchor (ai_anchor x)) in
          if ai_serialized x then
            match anchor with Some a => emit s (EAlias a) | None => DUndefined end
          else
            let s := set_info s index (mkInfo (ai_refs x) (ai_anchor x) true) in
            let tag := n_tag n in
            match n_data n with
            | NScalar value style =>
                let implicit := str_eqb tag default_scalar_tag in
                emit s (EScalar anchor (Some tag) value implicit implicit style)
            | NSequence items style =>
                dbind (emit s (ESeqStart anchor (Some tag) (str_eqb tag default_sequence_tag) style)) (fun s =>
                dbind (each (dump_node f nodes) items s) (fun s => emit s ESeqEnd))
            | NMapping pairs style =>
                dbind (emit s (EMapStart anchor (Some tag) (str_eqb tag default_mapping_tag) style)) (fun s =>
                dbind (each (dump_node f nodes) (flat_pairs pairs) s) (fun s => emit s EMapEnd))
            end
      | _, _ => DUndefined
      end
  end.

(* dumper.c:61-79 yaml_emitter_open *)
Definition dump_open (s : dumper) : dres :=
  if dm_opened s then DAssertFail
  else dbind (emit s (EStreamStart AnyEnc)) (fun s =>
    DOk (mkDumper true (dm_closed s) (dm_anchors s) (dm_last s) (dm_log s) (dm_sink s))).

(* dumper.c:85-105 yaml_emitter_close *)
Definition dump_close (s : dumper) : dres :=
  if negb (dm_opened s) then DAssertFail
  else if dm_closed s then DOk s
  else dbind (emit s EStreamEnd) (fun s =>
    DOk (mkDumper (dm_opened s) true (dm_anchors s) (dm_last s) (dm_log s) (dm_sink s))).

(* dumper.c:166-200 yaml_emitter_delete_document_and_anchors: what remains in the emitter *)
Definition cleanup (s : dumper) : dumper :=
  match dm_anchors s with
  | [] => s
  | _ => mkDumper (dm_opened s) (dm_closed s) [] 0 (dm_log s) (dm_sink s)
  end.
Definition finish (r : dres) : dres :=
  match r with DOk s => DOk (cleanup s) | DFail s => DFail (cleanup s) | x => x end.

Definition set_anchors (s : dumper) (l : list anchor_info) : dumper :=
  mkDumper (dm_opened s) (dm_closed s) l (dm_last s) (dm_log s) (dm_sink s).

(* dumper.c:111-160 yaml_emitter_dump *)
Definition dump (fuel : nat) (s : dumper) (d : document) : dres :=
  finish (
    dbind (if dm_opened s then DOk s else dump_open s) (fun s =>
    match d_nodes d with
    | [] => dump_close s
    | _ =>
        let s := set_anchors s (map (fun _ => mkInfo 0 0 false) (d_nodes d)) in
        dbind (emit s (EDocStart (d_version d) (d_tags d) (d_start_implicit d))) (fun s =>
        dbind (anchor_node fuel (d_nodes d) s 1) (fun s =>
        dbind (dump_node fuel (d_nodes d) s 1) (fun s =>
        emit s (EDocEnd (d_end_implicit d)))))
    end)).

Definition init_dumper (sink : list bool) : dumper := mkDumper false false [] 0 [] sink.
