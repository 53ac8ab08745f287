(* What a document is and what the building calls should do, in terms of
   nth_error only. *)
From Verif Require Import Base Utf8Spec Types DocModel.

(* UTF-8 style text, as accepted by the API (see C10). *)
Definition utf8_like (bs : list N) : Prop := exists cs, bs = utf8 cs /\ Forall (fun c => c < 0x200000) cs.

(* node number [i], counted from 1 *)
Definition node_at (d : document) (i : nat) : option node :=
  match i with O => None | S k => nth_error (d_nodes d) k end.
Definition children (n : node) : list nat :=
  match n_data n with
  | NScalar _ _ => []
  | NSequence items _ => items
  | NMapping pairs _ => flat_map (fun p => [fst p; snd p]) pairs
  end.
(* every child id names a node of the document *)
Definition closed (d : document) : Prop :=
  forall i n c, node_at d i = Some n -> In c (children n) -> exists m, node_at d c = Some m.

Definition same_header (d d' : document) : Prop :=
  d_version d' = d_version d /\ d_tags d' = d_tags d /\
  d_start_implicit d' = d_start_implicit d /\ d_end_implicit d' = d_end_implicit d.
(* [d'] is [d] with one more node, which gets the next number *)
Definition adds (d : document) (n : node) (id : nat) (d' : document) : Prop :=
  id = S (length (d_nodes d)) /\ length (d_nodes d') = id /\ node_at d' id = Some n /\
  (forall i, (i <> id)%nat -> node_at d' i = node_at d i) /\ same_header d d'.
(* [d'] is [d] except that node [id] is now [n] *)
Definition replaces (d : document) (id : nat) (n : node) (d' : document) : Prop :=
  length (d_nodes d') = length (d_nodes d) /\ node_at d' id = Some n /\
  (forall i, (i <> id)%nat -> node_at d' i = node_at d i) /\ same_header d d'.

Definition tag_or (d : list N) (t : option (list N)) : list N := match t with Some t => t | None => d end.

(* The effect every call should have. *)
Inductive call_ok (d : document) (alloc : bool) : dop -> dresult -> document -> Prop :=
| ok_scalar tag value style id d' :
    utf8_like (tag_or default_scalar_tag tag) -> utf8_like value -> alloc = true ->
    adds d (mkNode (tag_or default_scalar_tag tag) (NScalar value style)) id d' ->
    call_ok d alloc (AddScalar tag value style) (DRet id) d'
| bad_scalar tag value style :
    ~ utf8_like (tag_or default_scalar_tag tag) \/ ~ utf8_like value \/ alloc = false ->
    call_ok d alloc (AddScalar tag value style) (DRet 0) d
| ok_sequence tag style id d' :
    utf8_like (tag_or default_sequence_tag tag) -> alloc = true ->
    adds d (mkNode (tag_or default_sequence_tag tag) (NSequence [] style)) id d' ->
    call_ok d alloc (AddSequence tag style) (DRet id) d'
| bad_sequence tag style :
    ~ utf8_like (tag_or default_sequence_tag tag) \/ alloc = false ->
    call_ok d alloc (AddSequence tag style) (DRet 0) d
| ok_mapping tag style id d' :
    utf8_like (tag_or default_mapping_tag tag) -> alloc = true ->
    adds d (mkNode (tag_or default_mapping_tag tag) (NMapping [] style)) id d' ->
    call_ok d alloc (AddMapping tag style) (DRet id) d'
| bad_mapping tag style :
    ~ utf8_like (tag_or default_mapping_tag tag) \/ alloc = false ->
    call_ok d alloc (AddMapping tag style) (DRet 0) d
| ok_item s i tag items style m d' :
    node_at d s = Some (mkNode tag (NSequence items style)) -> node_at d i = Some m -> alloc = true ->
    replaces d s (mkNode tag (NSequence (items ++ [i]) style)) d' ->
    call_ok d alloc (AppendItem (Z.of_nat s) (Z.of_nat i)) (DRet 1) d'
| mem_item s i tag items style m :
    node_at d s = Some (mkNode tag (NSequence items style)) -> node_at d i = Some m -> alloc = false ->
    call_ok d alloc (AppendItem (Z.of_nat s) (Z.of_nat i)) (DRet 0) d
| assert_item s i :
    ~ (exists s' i' tag items style m, s = Z.of_nat s' /\ i = Z.of_nat i' /\
       node_at d s' = Some (mkNode tag (NSequence items style)) /\ node_at d i' = Some m) ->
    call_ok d alloc (AppendItem s i) DAssert d
| ok_pair s k v tag pairs style m1 m2 d' :
    node_at d s = Some (mkNode tag (NMapping pairs style)) -> node_at d k = Some m1 -> node_at d v = Some m2 -> alloc = true ->
    replaces d s (mkNode tag (NMapping (pairs ++ [(k, v)]) style)) d' ->
    call_ok d alloc (AppendPair (Z.of_nat s) (Z.of_nat k) (Z.of_nat v)) (DRet 1) d'
| mem_pair s k v tag pairs style m1 m2 :
    node_at d s = Some (mkNode tag (NMapping pairs style)) -> node_at d k = Some m1 -> node_at d v = Some m2 -> alloc = false ->
    call_ok d alloc (AppendPair (Z.of_nat s) (Z.of_nat k) (Z.of_nat v)) (DRet 0) d
| assert_pair s k v :
    ~ (exists s' k' v' tag pairs style m1 m2, s = Z.of_nat s' /\ k = Z.of_nat k' /\ v = Z.of_nat v' /\
       node_at d s' = Some (mkNode tag (NMapping pairs style)) /\ node_at d k' = Some m1 /\ node_at d v' = Some m2) ->
    call_ok d alloc (AppendPair s k v) DAssert d.

(* the arguments are strings of bytes *)
Definition op_bytes_ok (op : dop) : Prop :=
  match op with
  | AddScalar tag value _ => Forall byte_ok (tag_or [] tag) /\ Forall byte_ok value
  | AddSequence tag _ | AddMapping tag _ => Forall byte_ok (tag_or [] tag)
  | _ => True
  end.

(* A history of calls with the effects they should have. *)
Inductive calls_ok : document -> list (dop * bool) -> list dresult -> document -> Prop :=
| calls_nil d : calls_ok d [] [] d
| calls_cons d op alloc r d1 ops rs d2 :
    call_ok d alloc op r d1 -> calls_ok d1 ops rs d2 -> calls_ok d ((op, alloc) :: ops) (r :: rs) d2.
