(* Relations between the dialects of the grammar. *)
From Verif Require Import Base ReaderModel Types TreeSpec GrammarSpec ParserSpec ParserModel ParserComplete.

Section mono.
Variable d d' : dialect.
Hypothesis H1 : value_only d = true -> value_only d' = true.
Hypothesis H2 : bare_key d = true -> bare_key d' = true.
Hypothesis H3 : swallow d = true -> swallow d' = true.
Lemma node_mono e : forall k ts x, node d e k ts x -> node d' e k ts x.
Proof.
  apply (node_m d e (node d' e) (content d' e) (opt_node d' e) (opt_value d' e) (block_sequence d' e) (indentless d' e)
    (block_mapping d' e) (flow_sequence d' e) (flow_sequence_entry d' e) (flow_mapping d' e) (flow_mapping_entry d' e)); intros;
  try (econstructor; eauto; fail).
Qed.
Lemma opt_mono e k ts x : opt_node d e k ts x -> opt_node d' e k ts x.
Proof. intros H. inversion H; subst; constructor. apply node_mono; auto. Qed.
Lemma docs_mono ts xs : explicit_documents d ts xs -> explicit_documents d' ts xs.
Proof.
  induction 1; constructor; auto. inversion H; subst. constructor; auto. apply opt_mono; auto.
Qed.
Lemma stream_mono ts s : stream d ts s -> stream d' ts s.
Proof.
  intros H. inversion H; subst.
  - constructor. apply docs_mono; auto.
  - constructor; [|apply docs_mono; auto]. inversion H0; subst. constructor. apply node_mono; auto.
Qed.
End mono.

Lemma common_implemented ts s : stream common ts s -> stream implemented ts s.
Proof. apply stream_mono; discriminate. Qed.
Lemma common_documented ts s : stream common ts s -> stream documented ts s.
Proof. apply stream_mono; discriminate. Qed.

(* without missing keys in flow sequences the implemented grammar is the documented one *)
Definition keyed_pairs (ps : list (tree * tree)) : Prop := Forall (fun kv => keyed (fst kv) /\ keyed (snd kv)) ps.
Notation D := common.
Lemma node_keyed e : forall k ts x, node implemented e k ts x -> keyed x -> node D e k ts x.
Proof.
  apply (node_m implemented e (fun k ts x => keyed x -> node D e k ts x) (fun k a t ts x => keyed x -> content D e k a t ts x)
    (fun k ts x => keyed x -> opt_node D e k ts x) (fun k ts x => keyed x -> opt_value D e k ts x)
    (fun ts xs => Forall keyed xs -> block_sequence D e ts xs) (fun ts xs => Forall keyed xs -> indentless D e ts xs)
    (fun ts ps => keyed_pairs ps -> block_mapping D e ts ps)
    (fun ts xs => Forall keyed xs -> Forall (fun x => missing_key_pair x = false) xs -> flow_sequence D e ts xs)
    (fun ts x => keyed x -> missing_key_pair x = false -> flow_sequence_entry D e ts x)
    (fun ts ps => keyed_pairs ps -> flow_mapping D e ts ps)
    (fun ts kv => keyed (fst kv) /\ keyed (snd kv) -> flow_mapping_entry D e ts kv)); intros;
  repeat match goal with
  | K : keyed (Sequence _ _ _ _ _) |- _ => inversion K; subst; clear K
  | K : keyed (Mapping _ _ _ _ _) |- _ => inversion K; subst; clear K
  | K : Forall _ (_ :: _) |- _ => inversion K; subst; clear K
  | K : keyed_pairs (_ :: _) |- _ => inversion K; subst; clear K
  | K : _ /\ _ |- _ => destruct K
  end; cbn [fst snd] in *;
  try (econstructor; eauto; fail); try discriminate.
Qed.
Lemma opt_keyed e k ts x : opt_node implemented e k ts x -> keyed x -> opt_node D e k ts x.
Proof. intros H K. inversion H; subst; constructor. apply node_keyed; auto. Qed.
Lemma docs_keyed ts xs : explicit_documents implemented ts xs -> Forall (fun d => keyed (dt_root d)) xs -> explicit_documents D ts xs.
Proof.
  induction 1; intros K; constructor; inversion K; subst; auto. inversion H; subst. constructor; auto. apply opt_keyed; auto.
Qed.
Lemma stream_keyed ts s : stream implemented ts s -> keyed_stream s -> stream D ts s.
Proof.
  unfold keyed_stream. intros H K. inversion H; subst; cbn in K.
  - constructor. apply docs_keyed; auto.
  - inversion K; subst. constructor; [|apply docs_keyed; auto]. inversion H0; subst. constructor. apply node_keyed; auto.
Qed.

(* the tokens of '[? : : x]' are not documented *)
Definition starter (t : tok) : bool :=
  match t with
  | TAlias _ | TAnchor _ | TTag _ _ | TScalar _ _ | TFlowSeqStart | TFlowMapStart | TBlockSeqStart | TBlockMapStart | TBlockEntry => true
  | _ => false
  end.
Lemma node_starter d e k ts x : node d e k ts x -> exists h r, ts = h :: r /\ starter h = true.
Proof.
  intros H. inversion H; subst.
  - do 2 eexists; split; reflexivity.
  - inversion H0; subst; do 2 eexists; split; reflexivity.
  - inversion H0; subst; cbn.
    + inversion H1; subst; try (do 2 eexists; split; reflexivity). inversion H2; subst; do 2 eexists; split; reflexivity.
    + inversion H2; subst; do 2 eexists; split; reflexivity.
Qed.
Lemma entry_two_values e ts x tail r : flow_sequence_entry documented e ts x -> ts ++ tail = TKey :: TValue :: TValue :: r ->
  ts = [TKey] \/ ts = [TKey; TValue].
Proof.
  intros H E. inversion H; subst; try discriminate.
  - apply node_starter in H0. destruct H0 as (h & r' & -> & S). inversion E; subst. discriminate.
  - apply node_starter in H0. destruct H0 as (h & r' & -> & S). inversion E; subst. discriminate.
  - inversion H1; subst; auto. inversion H2; subst; auto. apply node_starter in H3. destruct H3 as (h & r' & -> & S).
    inversion E; subst. discriminate.
Qed.
Lemma sequence_two_values e ts x tail r : flow_sequence documented e ts x -> ts ++ tail = TKey :: TValue :: TValue :: r -> False.
Proof.
  intros H E. inversion H; subst; try discriminate.
  - rewrite <- app_assoc in E. destruct (entry_two_values _ _ _ _ _ H0 E) as [->| ->]; discriminate.
  - rewrite <- app_assoc in E. destruct (entry_two_values _ _ _ _ _ H0 E) as [->| ->]; discriminate.
Qed.
Lemma docs_flow ts docs tail r : explicit_documents documented ts docs -> ts ++ tail = TFlowSeqStart :: r -> ts = [].
Proof.
  intros H E. inversion H as [|ts1 x rs xs D DS]; subst; [reflexivity|]. exfalso. inversion D as [ds v dirs ts2 x2 n DIR O]; subst.
  destruct ds as [|h ds]; [discriminate|]. destruct DIR as (F & _). inversion F; subst. cbn in E. inversion E; subst. discriminate.
Qed.
Lemma documented_two_values enc r s : ~ stream documented (TStreamStart enc :: TFlowSeqStart :: TKey :: TValue :: TValue :: r) s.
Proof.
  intros H. inversion H as [e0 ts docs DS|e0 is i ts docs IMP DS]; subst; match goal with K : _ ++ _ = TFlowSeqStart :: _ |- _ => rename K into E1 end.
  - rewrite (docs_flow _ _ _ _ DS E1) in E1. discriminate.
  - inversion IMP as [ts1 x n N]; subst. rewrite <- app_assoc in E1. inversion N as [k name|k ts2 a t P|k ts2 a t cs y OP C]; subst.
    + discriminate.
    + inversion P; subst; discriminate.
    + inversion OP as [|ts3 a3 t3 P]; subst; [|inversion P; subst; discriminate]. cbn in E1.
      inversion C; subst; try discriminate; try congruence.
      match goal with K : flow_sequence _ _ _ _ |- _ => cbn in E1; inversion E1 as [E2]; exact (sequence_two_values _ _ _ _ _ K E2) end.
Qed.
