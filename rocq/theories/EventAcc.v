(* A pushdown acceptor for event streams and its equivalence with the
   specification of well-formed streams (TreeSpec).  Proof device shared by the
   parser, loader, dumper and emitter proofs. *)
From Verif Require Import Base ReaderModel Types TreeSpec.

Inductive aframe := FRoot | FDocEnd | FSeq | FKey | FVal.
Inductive acc := AStart | ADocs | AIn (stack : list aframe) | ADone.

(* the frame after one more node *)
Definition after_node (f : aframe) : option aframe :=
  match f with
  | FRoot => Some FDocEnd | FDocEnd => None | FSeq => Some FSeq | FKey => Some FVal | FVal => Some FKey
  end.
Definition astep (a : acc) (e : ev) : option acc :=
  match a, e with
  | AStart, EStreamStart _ => Some ADocs
  | ADocs, EDocStart _ _ _ => Some (AIn [FRoot])
  | ADocs, EStreamEnd => Some ADone
  | AIn [FDocEnd], EDocEnd _ => Some ADocs
  | AIn (FSeq :: r), ESeqEnd => Some (AIn r)
  | AIn (FKey :: r), EMapEnd => Some (AIn r)
  | AIn (f :: r), EAlias _ | AIn (f :: r), EScalar _ _ _ _ _ _ =>
      match after_node f with Some f' => Some (AIn (f' :: r)) | None => None end
  | AIn (f :: r), ESeqStart _ _ _ _ =>
      match after_node f with Some f' => Some (AIn (FSeq :: f' :: r)) | None => None end
  | AIn (f :: r), EMapStart _ _ _ _ =>
      match after_node f with Some f' => Some (AIn (FKey :: f' :: r)) | None => None end
  | _, _ => None
  end.
Fixpoint arun (a : acc) (es : list ev) : option acc :=
  match es with
  | [] => Some a
  | e :: r => match astep a e with Some a' => arun a' r | None => None end
  end.

Lemma arun_app a es fs : arun a (es ++ fs) = match arun a es with Some a' => arun a' fs | None => None end.
Proof. revert a. induction es as [|e r IH]; intros a; cbn; [reflexivity|]. destruct (astep a e); auto. Qed.

(* events that complete a stack of frames *)
Inductive frest : aframe -> list ev -> Prop :=
| R_root t i : frest FRoot (events_of t ++ [EDocEnd i])
| R_docend i : frest FDocEnd [EDocEnd i]
| R_seq l : frest FSeq (items_events l ++ [ESeqEnd])
| R_key l : frest FKey (pairs_events l ++ [EMapEnd])
| R_val v l : frest FVal (events_of v ++ pairs_events l ++ [EMapEnd]).
Inductive srest : list aframe -> list ev -> Prop :=
| SR_bot f es docs : f = FRoot \/ f = FDocEnd -> frest f es ->
    srest [f] (es ++ flat_map doc_events docs ++ [EStreamEnd])
| SR_cons f r es fs : f <> FRoot -> f <> FDocEnd -> frest f es -> srest r fs -> srest (f :: r) (es ++ fs).
Inductive arest : acc -> list ev -> Prop :=
| AR_start s : arest AStart (stream_events s)
| AR_docs docs : arest ADocs (flat_map doc_events docs ++ [EStreamEnd])
| AR_in st es : srest st es -> arest (AIn st) es
| AR_done : arest ADone [].

Fixpoint astack_ok (st : list aframe) : bool :=
  match st with
  | [] => false
  | [f] => match f with FRoot | FDocEnd => true | _ => false end
  | f :: r => match f with FRoot | FDocEnd => false | _ => true end && astack_ok r
  end.
Definition aok (a : acc) : bool := match a with AIn st => astack_ok st | _ => true end.

Lemma astack_cons f f' r : astack_ok (f :: f' :: r) =
  match f with FRoot | FDocEnd => false | _ => true end && astack_ok (f' :: r).
Proof. reflexivity. Qed.

Lemma astack_after f f' r : astack_ok (f :: r) = true -> after_node f = Some f' -> astack_ok (f' :: r) = true.
Proof. destruct r; destruct f; cbn; intros H A; inversion A; subst; auto. Qed.
Lemma astack_push f g r : astack_ok (f :: r) = true -> g = FSeq \/ g = FKey -> astack_ok (g :: f :: r) = true.
Proof. intros H [->| ->]; rewrite astack_cons, H; reflexivity. Qed.
Lemma astack_pop f r : astack_ok (f :: r) = true -> f = FSeq \/ f = FKey -> astack_ok r = true.
Proof. intros H [->| ->]; destruct r; cbn in H |- *; congruence. Qed.

Lemma astep_ok a e a' : aok a = true -> astep a e = Some a' -> aok a' = true.
Proof.
  destruct a as [| |st|]; cbn; intros H E.
  - destruct e; inversion E; reflexivity.
  - destruct e; inversion E; reflexivity.
  - destruct st as [|f r]; [discriminate|].
    destruct e; try (destruct f; try discriminate; destruct r; discriminate);
    try (destruct f; try discriminate; destruct r; inversion E; reflexivity).
    + assert (E' : match after_node f with Some f' => Some (AIn (f' :: r)) | None => None end = Some a')
        by (destruct f, r; exact E). clear E.
      destruct (after_node f) eqn:A; inversion E'; subst. cbn [aok]. eapply astack_after; eauto.
    + assert (E' : match after_node f with Some f' => Some (AIn (f' :: r)) | None => None end = Some a')
        by (destruct f, r; exact E). clear E.
      destruct (after_node f) eqn:A; inversion E'; subst. cbn [aok]. eapply astack_after; eauto.
    + assert (E' : match after_node f with Some f' => Some (AIn (FSeq :: f' :: r)) | None => None end = Some a')
        by (destruct f, r; exact E). clear E.
      destruct (after_node f) eqn:A; inversion E'; subst. cbn [aok]. apply astack_push; [|auto]. eapply astack_after; eauto.
    + assert (f = FSeq) by (destruct f; try discriminate E; auto; destruct r; discriminate E). subst.
      assert (a' = AIn r) by (destruct r; inversion E; reflexivity). subst. cbn [aok]. eapply astack_pop; eauto.
    + assert (E' : match after_node f with Some f' => Some (AIn (FKey :: f' :: r)) | None => None end = Some a')
        by (destruct f, r; exact E). clear E.
      destruct (after_node f) eqn:A; inversion E'; subst. cbn [aok]. apply astack_push; [|auto]. eapply astack_after; eauto.
    + assert (f = FKey) by (destruct f; try discriminate E; auto; destruct r; discriminate E). subst.
      assert (a' = AIn r) by (destruct r; inversion E; reflexivity). subst. cbn [aok]. eapply astack_pop; eauto.
  - discriminate.
Qed.

Lemma srest_top f r es : srest (f :: r) es ->
  exists e1 e2, es = e1 ++ e2 /\ frest f e1 /\
    ((r = [] /\ (f = FRoot \/ f = FDocEnd) /\ exists docs, e2 = flat_map doc_events docs ++ [EStreamEnd]) \/
     (f <> FRoot /\ f <> FDocEnd /\ srest r e2)).
Proof. intros H. inversion H; subst; eauto 12. Qed.
Lemma srest_build f r e1 e2 : frest f e1 ->
    ((r = [] /\ (f = FRoot \/ f = FDocEnd) /\ exists docs, e2 = flat_map doc_events docs ++ [EStreamEnd]) \/
     (f <> FRoot /\ f <> FDocEnd /\ srest r e2)) -> srest (f :: r) (e1 ++ e2).
Proof. intros F [(-> & K & docs & ->)|(A & B & C)]; constructor; auto. Qed.

(* one node in front of what completes the stack after it *)
Lemma rest_node f f' r t es : after_node f = Some f' -> srest (f' :: r) es -> srest (f :: r) (events_of t ++ es).
Proof.
  intros A H. apply srest_top in H. destruct H as (e1 & e2 & -> & F & K). rewrite app_assoc.
  apply srest_build.
  - destruct f; inversion A; subst; inversion F; subst.
    + constructor.
    + rewrite app_assoc. apply (R_seq (t :: l)).
    + rewrite !app_assoc. replace (((events_of t ++ events_of v) ++ pairs_events l) ++ [EMapEnd])
        with (pairs_events ((t, v) :: l) ++ [EMapEnd]) by reflexivity. constructor.
    + apply R_val.
  - destruct K as [(-> & K & D)|(K1 & K2 & D)].
    + left. destruct f; inversion A; subst; destruct K as [K|K]; try discriminate; auto.
    + right. destruct f; inversion A; subst; try congruence; repeat split; auto; discriminate.
Qed.

Lemma seq_open f f' r a t i s es : after_node f = Some f' -> srest (FSeq :: f' :: r) es ->
  srest (f :: r) (ESeqStart a t i s :: es).
Proof.
  intros A H. apply srest_top in H. destruct H as (e1 & e2 & -> & F & [(D & _)|(_ & _ & H)]); [discriminate|].
  inversion F; subst.
  replace (ESeqStart a t i s :: (items_events l ++ [ESeqEnd]) ++ e2)
    with (events_of (Sequence a t i s l) ++ e2) by reflexivity.
  eapply rest_node; eauto.
Qed.
Lemma map_open f f' r a t i s es : after_node f = Some f' -> srest (FKey :: f' :: r) es ->
  srest (f :: r) (EMapStart a t i s :: es).
Proof.
  intros A H. apply srest_top in H. destruct H as (e1 & e2 & -> & F & [(D & _)|(_ & _ & H)]); [discriminate|].
  inversion F; subst.
  replace (EMapStart a t i s :: (pairs_events l ++ [EMapEnd]) ++ e2)
    with (events_of (Mapping a t i s l) ++ e2) by reflexivity.
  eapply rest_node; eauto.
Qed.

Lemma astep_rest a e a' es : astep a e = Some a' -> arest a' es -> aok a = true -> arest a (e :: es).
Proof.
  destruct a as [| |st|]; cbn; intros E R OK.
  - destruct e; inversion E; subst. inversion R; subst. apply (AR_start (mkStreamTree e docs)).
  - destruct e; inversion E; subst.
    + inversion R; subst. exact (AR_docs []).
    + inversion R; subst. apply srest_top in H0. destruct H0 as (e1 & e2 & -> & F & [(_ & _ & docs & ->)|(K & _)]);
        [|congruence]. inversion F; subst.
      replace (EDocStart v tags implicit :: (events_of t ++ [EDocEnd i]) ++ flat_map doc_events docs ++ [EStreamEnd])
        with (flat_map doc_events (mkDocTree v tags implicit t i :: docs) ++ [EStreamEnd]).
      * constructor.
      * cbn. unfold doc_events at 1. cbn. rewrite <- !app_assoc. reflexivity.
  - destruct st as [|f r]; [discriminate|]. 
    assert (LF : forall x, e = (match x with Scalar a b c p q s => EScalar a b c p q s | Alias n => EAlias n | _ => e end) ->
             match x with Scalar _ _ _ _ _ _ | Alias _ => True | _ => False end ->
             match after_node f with Some f' => Some (AIn (f' :: r)) | None => None end = Some a' ->
             arest (AIn (f :: r)) (e :: es)).
    { intros x Hx K E'. destruct (after_node f) eqn:A; inversion E'; subst. inversion R; subst.
      constructor. destruct x; try contradiction; subst e.
      - change (EAlias name :: es) with (events_of (Alias name) ++ es). eapply rest_node; eauto.
      - change (EScalar anchor tag value plain_implicit quoted_implicit style :: es)
          with (events_of (Scalar anchor tag value plain_implicit quoted_implicit style) ++ es). eapply rest_node; eauto. }
    destruct e; try (destruct f; try discriminate; destruct r; discriminate).
    + destruct f; try discriminate. destruct r; inversion E; subst. inversion R; subst.
      constructor. change (EDocEnd implicit :: flat_map doc_events docs ++ [EStreamEnd])
        with ([EDocEnd implicit] ++ flat_map doc_events docs ++ [EStreamEnd]). constructor; [auto|constructor].
    + apply (LF (Alias anchor)); auto. destruct f, r; exact E.
    + apply (LF (Scalar anchor tag value plain_implicit quoted_implicit style)); auto. destruct f, r; exact E.
    + assert (E' : match after_node f with Some f' => Some (AIn (FSeq :: f' :: r)) | None => None end = Some a')
        by (destruct f, r; exact E). clear E.
      destruct (after_node f) eqn:A; inversion E'; subst. inversion R; subst. constructor. eapply seq_open; eauto.
    + assert (f = FSeq) by (destruct f; try discriminate E; auto; destruct r; discriminate E). subst.
      assert (a' = AIn r) by (destruct r; inversion E; reflexivity). subst. inversion R; subst. constructor.
      change (ESeqEnd :: es) with ((items_events [] ++ [ESeqEnd]) ++ es).
      apply SR_cons; try discriminate; auto. apply R_seq.
    + assert (E' : match after_node f with Some f' => Some (AIn (FKey :: f' :: r)) | None => None end = Some a')
        by (destruct f, r; exact E). clear E.
      destruct (after_node f) eqn:A; inversion E'; subst. inversion R; subst. constructor. eapply map_open; eauto.
    + assert (f = FKey) by (destruct f; try discriminate E; auto; destruct r; discriminate E). subst.
      assert (a' = AIn r) by (destruct r; inversion E; reflexivity). subst. inversion R; subst. constructor.
      change (EMapEnd :: es) with ((pairs_events [] ++ [EMapEnd]) ++ es).
      apply SR_cons; try discriminate; auto. apply R_key.
  - discriminate.
Qed.

Lemma arest_exists a : aok a = true -> exists es, arest a es.
Proof.
  destruct a as [| |st|]; cbn; intros OK.
  - exists (stream_events (mkStreamTree AnyEnc [])). constructor.
  - exists (flat_map doc_events [] ++ [EStreamEnd]). constructor.
  - assert (K : exists es, srest st es).
    { induction st as [|f r IH]; [discriminate|].
      assert (F : exists es, frest f es).
      { destruct f; [exists (events_of (Alias []) ++ [EDocEnd true])|exists [EDocEnd true]
          |exists (items_events [] ++ [ESeqEnd])|exists (pairs_events [] ++ [EMapEnd])
          |exists (events_of (Alias []) ++ pairs_events [] ++ [EMapEnd])]; constructor. }
      destruct F as [e1 F]. destruct r as [|g r].
      - exists (e1 ++ flat_map doc_events [] ++ [EStreamEnd]). constructor; auto. destruct f; try discriminate; auto.
      - rewrite astack_cons in OK. apply andb_prop in OK as [O1 O2]. destruct (IH O2) as [e2 R].
        exists (e1 ++ e2). constructor; auto; intros ->; discriminate. }
    destruct K as [es K]. exists es. constructor. exact K.
  - exists []. constructor.
Qed.

Lemma arun_rest es : forall a a' fs, aok a = true -> arun a es = Some a' -> arest a' fs -> arest a (es ++ fs).
Proof.
  induction es as [|e r IH]; intros a a' fs OK R K; cbn in *.
  - inversion R; subst. exact K.
  - destruct (astep a e) as [b|] eqn:E; [|discriminate].
    eapply astep_rest; eauto. eapply IH; eauto. eapply astep_ok; eauto.
Qed.
Lemma arun_ok es a a' : aok a = true -> arun a es = Some a' -> aok a' = true.
Proof.
  revert a. induction es as [|e r IH]; cbn; intros a OK R.
  - inversion R; subst; auto.
  - destruct (astep a e) eqn:E; [|discriminate]. eapply IH; [|exact R]. eapply astep_ok; eauto.
Qed.

(* acceptor -> specification *)
Lemma arun_prefix es a : arun AStart es = Some a -> well_formed_prefix es.
Proof.
  intros R. destruct (arest_exists a) as [fs K]; [eapply arun_ok; eauto; reflexivity|].
  exists fs. assert (H : arest AStart (es ++ fs)) by (eapply arun_rest; eauto; reflexivity).
  inversion H; subst. exists s. auto.
Qed.
Lemma arun_complete es : arun AStart es = Some ADone -> well_formed es.
Proof.
  intros R. assert (H : arest AStart (es ++ [])) by (eapply arun_rest; [reflexivity|exact R|constructor]).
  rewrite app_nil_r in H. inversion H; subst. exists s. auto.
Qed.

(* specification -> acceptor *)
Lemma arun_node t : forall f f' r, after_node f = Some f' -> arun (AIn (f :: r)) (events_of t) = Some (AIn (f' :: r)).
Proof.
  induction t using tree_induction; intros f f' r A; cbn [events_of].
  - cbn. destruct f, r; inversion A; subst; reflexivity.
  - cbn. destruct f, r; inversion A; subst; reflexivity.
  - assert (E : arun (AIn (f :: r)) (ESeqStart a t i s :: flat_map events_of items ++ [ESeqEnd])
      = arun (AIn (FSeq :: f' :: r)) (flat_map events_of items ++ [ESeqEnd])).
    { cbn. destruct f, r; inversion A; subst; reflexivity. }
    rewrite E. clear E. induction H as [|x l Hx Hl IH]; cbn [flat_map app].
    + destruct f'; reflexivity.
    + rewrite <- app_assoc, arun_app, (Hx FSeq FSeq) by reflexivity. exact IH.
  - assert (E : arun (AIn (f :: r)) (EMapStart a t i s :: flat_map (fun '(k, v) => events_of k ++ events_of v) pairs ++ [EMapEnd])
      = arun (AIn (FKey :: f' :: r)) (flat_map (fun '(k, v) => events_of k ++ events_of v) pairs ++ [EMapEnd])).
    { cbn. destruct f, r; inversion A; subst; reflexivity. }
    rewrite E. clear E. induction H as [|[k v] l [Hk Hv] Hl IH]; cbn [flat_map app].
    + destruct f'; reflexivity.
    + rewrite <- !app_assoc, arun_app, (Hk FKey FVal) by reflexivity.
      rewrite arun_app. cbn [snd] in Hv. rewrite (Hv FVal FKey) by reflexivity. exact IH.
Qed.
Lemma arun_doc d : arun ADocs (doc_events d) = Some ADocs.
Proof.
  unfold doc_events. cbn. rewrite arun_app. rewrite (arun_node _ FRoot FDocEnd) by reflexivity. reflexivity.
Qed.
Lemma arun_stream s : arun AStart (stream_events s) = Some ADone.
Proof.
  unfold stream_events. cbn. rewrite arun_app.
  assert (E : arun ADocs (flat_map doc_events (st_docs s)) = Some ADocs).
  { induction (st_docs s) as [|d l IH]; [reflexivity|]. cbn [flat_map]. rewrite arun_app, arun_doc. exact IH. }
  rewrite E. reflexivity.
Qed.
Theorem well_formed_acc es : well_formed es <-> arun AStart es = Some ADone.
Proof. split; [|apply arun_complete]. intros [s ->]. apply arun_stream. Qed.
Theorem well_formed_prefix_acc es : well_formed_prefix es <-> exists a, arun AStart es = Some a.
Proof.
  split.
  - intros [r [s H]]. assert (K := arun_stream s). rewrite <- H, arun_app in K.
    destruct (arun AStart es); [eauto|discriminate].
  - intros [a H]. eapply arun_prefix; eauto.
Qed.
