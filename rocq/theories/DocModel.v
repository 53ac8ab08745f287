(* Documents and the document building API, api.c:1035-1391. *)
From Verif Require Import Base Utf8Spec ReaderModel ApiModel Types.

(* include/yaml.h:700-790: nodes.  Marks of nodes are not modelled.  The items
   and pairs stacks are lists (ContainerModel.v shows that a stack behaves like
   a list). *)
Inductive node_data :=
| NScalar (value : list N) (style : sstyle)
| NSequence (items : list nat) (style : cstyle)
| NMapping (pairs : list (nat * nat)) (style : cstyle).
Record node := mkNode { n_tag : list N; n_data : node_data }.
Record document := mkDoc {
  d_nodes : list node;
  d_version : option version;
  d_tags : list tagdir;
  d_start_implicit : bool;
  d_end_implicit : bool }.

(* include/yaml.h:560-592: "tag:yaml.org,2002:" + str / seq / map *)
Definition yaml_tag_prefix : list N :=
  [116;97;103;58;121;97;109;108;46;111;114;103;44;50;48;48;50;58].
Definition default_scalar_tag : list N := yaml_tag_prefix ++ [115;116;114].
Definition default_sequence_tag : list N := yaml_tag_prefix ++ [115;101;113].
Definition default_mapping_tag : list N := yaml_tag_prefix ++ [109;97;112].

(* yaml_check_utf8 as a condition; the None case does not occur (ApiProofs.v) *)
Definition utf8_good (bs : list N) : bool :=
  match utf8_accepted bs with Some true => true | _ => false end.

Inductive dresult :=
| DRet (r : nat)       (* the int returned: an id, 1 or 0 *)
| DAssert.             (* an assertion of the function fails *)

(* PUSH onto document->nodes and "return top - start", api.c:1226-1228.
   [alloc]: whether every allocation of the call succeeds; if one fails the
   function frees what it allocated and returns 0. *)
Definition push_node (d : document) (n : node) (alloc : bool) : dresult * document :=
  if alloc then
    let nodes := d_nodes d ++ [n] in
    (DRet (length nodes), mkDoc nodes (d_version d) (d_tags d) (d_start_implicit d) (d_end_implicit d))
  else (DRet 0, d).

(* api.c:1194-1238; the value is given with its length *)
Definition add_scalar (d : document) (tag : option (list N)) (value : list N) (style : sstyle) (alloc : bool) :=
  let tag := match tag with Some t => t | None => default_scalar_tag end in
  if negb (utf8_good tag) then (DRet 0, d)
  else if negb (utf8_good value) then (DRet 0, d)
  else push_node d (mkNode tag (NScalar value style)) alloc.
(* api.c:1244-1283 *)
Definition add_sequence (d : document) (tag : option (list N)) (style : cstyle) (alloc : bool) :=
  let tag := match tag with Some t => t | None => default_sequence_tag end in
  if negb (utf8_good tag) then (DRet 0, d)
  else push_node d (mkNode tag (NSequence [] style)) alloc.
(* api.c:1289-1328 *)
Definition add_mapping (d : document) (tag : option (list N)) (style : cstyle) (alloc : bool) :=
  let tag := match tag with Some t => t | None => default_mapping_tag end in
  if negb (utf8_good tag) then (DRet 0, d)
  else push_node d (mkNode tag (NMapping [] style)) alloc.

(* api.c:1164-1173 *)
Definition get_node (d : document) (index : Z) : option node :=
  if ((0 <? index) && (index <=? Z.of_nat (length (d_nodes d))))%Z
  then nth_error (d_nodes d) (Z.to_nat (index - 1)) else None.
(* api.c:1179-1188 *)
Definition get_root (d : document) : option node := nth_error (d_nodes d) 0.

Fixpoint set_nth {A} (n : nat) (x : A) (l : list A) : list A :=
  match l, n with
  | [], _ => []
  | _ :: l', O => x :: l'
  | y :: l', S n' => y :: set_nth n' x l'
  end.
Definition set_node (d : document) (index : Z) (n : node) : document :=
  mkDoc (set_nth (Z.to_nat (index - 1)) n (d_nodes d)) (d_version d) (d_tags d) (d_start_implicit d) (d_end_implicit d).
Definition valid_id (d : document) (i : Z) : bool := ((0 <? i) && (i <=? Z.of_nat (length (d_nodes d))))%Z.

(* api.c:1334-1356 *)
Definition append_sequence_item (d : document) (sequence item : Z) (alloc : bool) : dresult * document :=
  match get_node d sequence with
  | Some (mkNode tag (NSequence items style)) =>
      if negb (valid_id d item) then (DAssert, d)
      else if alloc then (DRet 1, set_node d sequence (mkNode tag (NSequence (items ++ [Z.to_nat item]) style)))
      else (DRet 0, d)
  | _ => (DAssert, d)
  end.
(* api.c:1362-1391 *)
Definition append_mapping_pair (d : document) (mapping key value : Z) (alloc : bool) : dresult * document :=
  match get_node d mapping with
  | Some (mkNode tag (NMapping pairs style)) =>
      if negb (valid_id d key && valid_id d value) then (DAssert, d)
      else if alloc then
        (DRet 1, set_node d mapping (mkNode tag (NMapping (pairs ++ [(Z.to_nat key, Z.to_nat value)]) style)))
      else (DRet 0, d)
  | _ => (DAssert, d)
  end.

(* api.c:1035-1116: strings NUL-free; false: an argument or allocation error *)
Definition document_initialize (v : option version) (tags : list tagdir) (si ei alloc : bool) : option document :=
  if forallb (fun td => utf8_good (fst td) && utf8_good (snd td)) tags && alloc
  then Some (mkDoc [] v tags si ei) else None.

Inductive dop :=
| AddScalar (tag : option (list N)) (value : list N) (style : sstyle)
| AddSequence (tag : option (list N)) (style : cstyle)
| AddMapping (tag : option (list N)) (style : cstyle)
| AppendItem (sequence item : Z)
| AppendPair (mapping key value : Z).
Definition dstep (d : document) (op : dop) (alloc : bool) : dresult * document :=
  match op with
  | AddScalar tag value style => add_scalar d tag value style alloc
  | AddSequence tag style => add_sequence d tag style alloc
  | AddMapping tag style => add_mapping d tag style alloc
  | AppendItem s i => append_sequence_item d s i alloc
  | AppendPair m k v => append_mapping_pair d m k v alloc
  end.
(* A history of calls: the results and the final document.  After a failed
   assertion the program has stopped, so nothing follows it. *)
Fixpoint drun (d : document) (ops : list (dop * bool)) : list dresult * document :=
  match ops with
  | [] => ([], d)
  | (op, alloc) :: ops' =>
      match dstep d op alloc with
      | (DAssert, d') => ([DAssert], d')
      | (DRet r, d') => let (rs, d2) := drun d' ops' in (DRet r :: rs, d2)
      end
  end.
