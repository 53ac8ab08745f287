(* Proofs about parser.c, continued: invariant preservation, progress, event
   well-formedness. *)
From Verif Require Import Base ReaderModel Types TreeSpec GrammarSpec EventAcc ParserModel ParserInv.

Lemma wf_popped p' : p_error p' = None -> p_end p' = is_end_state (p_state p') ->
  stack_ok (p_state p' :: p_states p') = true -> length (p_marks p') = nmarks (p_state p' :: p_states p') -> wf p'.
Proof.
  intros E N S M. split; [auto|].
  destruct (p_state p') eqn:Es; cbn in S; try discriminate S; (split; [auto|]); unfold wf_state; rewrite Es;
    try (split; [exact S|exact M]).
  - destruct (p_states p'); [|discriminate S]. split; [reflexivity|]. apply length_zero_iff_nil. exact M.
  - apply andb_prop in S as [S1 S2]. repeat split; auto.
Qed.

Lemma stack_ok_cons s ss : inner s = true -> below_ok s ss = true -> stack_ok ss = true -> stack_ok (s :: ss) = true.
Proof. intros I B S. destruct s; try discriminate I; cbn -[below_ok]; rewrite B, S; reflexivity. Qed.

Lemma nmarks_cons s ss : nmarks (s :: ss) = (b2n (marked s) + nmarks ss)%nat.
Proof. unfold nmarks. cbn. destruct (marked s); reflexivity. Qed.

(* the part of wf that does not depend on the input *)
Lemma wf_deep p : wf p -> is_first (p_state p) = true \/ inner (p_state p) = true \/ p_state p = PS_FSeqMapKey ->
  stack_ok (p_states p) = true /\ length (p_marks p) = nmarks (p_state p :: p_states p) /\ below_ok (p_state p) (p_states p) = true.
Proof.
  intros (_ & _ & H) K. unfold wf_state in H. destruct (p_state p); cbn in K;
    destruct K as [K|[K|K]]; try discriminate K; cbn [below_ok]; try tauto.
Qed.

Lemma call_wf p k pre push : wf p -> call (p_state p) k pre push ->
  stack_ok (push ++ p_states p) = true /\
  (length (p_marks p) + b2n (is_first (p_state p)))%nat = nmarks (push ++ p_states p) /\
  (k = BlockOrIndentless -> below_ok PS_Indentless (push ++ p_states p) = true).
Proof.
  intros W C. pose proof (wf_deep p W) as D. destruct W as (_ & _ & H). unfold wf_state in H.
  inversion C; subst; match goal with K : _ = p_state p |- _ => rewrite <- K in * end; cbn [app];
  try (destruct H as [-> ->]; repeat split; try discriminate; reflexivity);
  (destruct D as (D1 & D2 & D3); [cbn; auto|]); cbn [is_first b2n];
  rewrite ?nmarks_cons in *; cbn [marked b2n] in *;
  (split; [apply stack_ok_cons; auto|split; [lia|try discriminate; try reflexivity]]).
Qed.

Lemma wf_step p e p' : wf p -> trans p e p' -> p_error p' = None -> p_end p' = is_end_state (p_state p') ->
  (wf p' /\ e <> EStreamEnd) \/ (e = EStreamEnd /\ p_state p' = PS_End).
Proof.
  intros W T E N. pose proof (wf_deep p W) as D. pose proof (proj2 (proj2 W)) as HS. unfold wf_state in HS.
  inversion T; subst; try (right; split; [reflexivity|assumption]); left.
  - rewrite H in HS. destruct HS as (A & B & C). split; [|discriminate]. split; [auto|]. rewrite N, H1. split; [reflexivity|].
    unfold wf_state. rewrite H1. repeat split; congruence.
  - rewrite H in HS. destruct HS as (A & B & C). split; [|discriminate]. split; [auto|]. rewrite N, H4. split; [reflexivity|].
    unfold wf_state. rewrite H4. repeat split; congruence.
  - split; [|discriminate].
    assert (K : p_states p = [] /\ p_marks p = []) by (destruct (p_state p); try discriminate H; tauto).
    destruct K as [K1 K2]. split; [auto|]. rewrite N, H3. split; [reflexivity|].
    unfold wf_state. rewrite H3. rewrite H4, H5, K1, K2. auto.
  - rewrite H in HS. destruct HS as (A & B). split; [|discriminate]. split; [auto|]. rewrite N, H3. split; [reflexivity|].
    unfold wf_state. rewrite H3. repeat split; congruence.
  - rewrite H in HS. destruct HS as (A & B). split; [|discriminate]. apply wf_popped; auto.
    + rewrite <- H1, A. reflexivity.
    + rewrite <- H1, A, H2, B. reflexivity.
  - destruct (call_wf _ _ _ _ W H) as (S & M & I). rewrite <- H1 in S, M, I. rewrite M in H5.
    destruct H3.
    + rewrite H6 in *. subst s ss. split.
      * apply wf_popped; auto.
      * destruct x; cbn in H10; try discriminate; inversion H10; subst; discriminate.
    + split.
      * assert (NE : p_end p' = false) by (rewrite N; inversion H7; reflexivity).
        split; [auto|split; [auto|]]. unfold wf_state. 
        destruct (p_state p') eqn:Q; inversion H7; subst; rewrite H9 in *;
          (split; [split; [exact S|rewrite nmarks_cons; cbn; congruence]|]); auto.
      * inversion H7; discriminate.
  - (* empty *)
    split; [|discriminate].
    assert (F : is_first (p_state p) = true \/ inner (p_state p) = true \/ p_state p = PS_FSeqMapKey)
      by (inversion H; subst; cbn; auto).
    destruct (D F) as (S & M & B). apply wf_popped; auto.
    + rewrite H3. inversion H; subst; match goal with K : _ = p_state p |- _ => rewrite <- K in * end;
        match goal with K : _ = p_state p' |- _ => rewrite <- K in * end; apply stack_ok_cons; auto.
    + rewrite H5, H3, M, !nmarks_cons. inversion H; subst; match goal with K : _ = p_state p |- _ => rewrite <- K in * end;
        match goal with K : _ = p_state p' |- _ => rewrite <- K in * end; cbn; lia.
  - split; [|discriminate]. rewrite H in *. destruct D as (S & M & B); [auto|]. apply wf_popped; auto.
    + rewrite H2, H3. apply stack_ok_cons; auto.
    + rewrite H5, H2, H3, M, !nmarks_cons. reflexivity.
  - split; [|inversion H; discriminate].
    assert (F : is_first (p_state p) = true \/ inner (p_state p) = true \/ p_state p = PS_FSeqMapKey)
      by (inversion H; subst; cbn; auto).
    destruct (D F) as (S & M & B). apply wf_popped; auto.
    + rewrite <- H1. auto.
    + rewrite <- H1. rewrite nmarks_cons in M.
      assert (b2n (marked (p_state p)) + b2n (is_first (p_state p)) = 1)%nat by (inversion H; subst; reflexivity). lia.
  - split; [|discriminate]. rewrite H in *. destruct D as (S & M & B); [auto|]. apply wf_popped; auto.
    + rewrite <- H3. auto.
    + rewrite <- H3, H5, M, nmarks_cons. reflexivity.
  - split; [|discriminate].
    assert (F : is_first (p_state p) = true \/ inner (p_state p) = true \/ p_state p = PS_FSeqMapKey)
      by (destruct H as [[-> _]|[-> _]]; cbn; auto).
    destruct (D F) as (S & M & B). split; [auto|]. rewrite N, H1. split; [reflexivity|]. unfold wf_state. rewrite H1, H2.
    split; [auto|]. rewrite H4, M, !nmarks_cons. destruct H as [[-> _]|[-> _]]; cbn; lia.
  - split; [|discriminate]. rewrite H in *. destruct D as (S & M & B); [auto|]. apply wf_popped; auto.
    + rewrite H2, H3. apply stack_ok_cons; auto.
    + rewrite H5, H2, H3, M, !nmarks_cons. reflexivity.
Qed.

(** * Progress *)
Definition weight (s : pstate) : nat :=
  match s with
  | PS_ImplicitDocStart | PS_FSeqMapKey => 3
  | PS_FSeqMapValue => 2
  | PS_FSeqMapEnd | PS_BMapValue | PS_Indentless | PS_FMapValue | PS_FMapEmptyValue
  | PS_DocEnd | PS_DocContent | PS_BlockNode => 1
  | _ => 0
  end.
Definition weights (ss : list pstate) : nat := list_sum (map weight ss).
Definition potential (p : parser) : nat := (4 * length (toks p) + weights (p_state p :: p_states p))%nat.

Lemma weights_cons s ss : weights (s :: ss) = (weight s + weights ss)%nat.
Proof. reflexivity. Qed.
Lemma weights_app a b : weights (a ++ b) = (weights a + weights b)%nat.
Proof. unfold weights. rewrite map_app, list_sum_app. reflexivity. Qed.

Lemma node_nonempty d e k ts x : node d e k ts x -> (1 <= length ts)%nat.
Proof.
  intros H. inversion H; subst; [cbn; lia| |].
  - inversion H0; subst; cbn; lia.
  - rewrite app_length. inversion H1; subst; try (cbn; lia). inversion H2; subst; cbn; lia.
Qed.

Lemma step_progress p e p' : trans p e p' -> (potential p' < potential p)%nat.
Proof.
  intros T. unfold potential. inversion T; subst; rewrite ?weights_cons.
  - rewrite H0, H, H1, H2. cbn -[Nat.mul]. lia.
  - rewrite H3, H4, H5, H, weights_cons. cbn -[Nat.mul]. lia.
  - rewrite H1, H3, H4, !app_length, weights_cons. cbn -[Nat.mul]. lia.
  - rewrite H1, H2, H3, !app_length. cbn -[Nat.mul]. lia.
  - rewrite H1, H, H3, H4, app_length. cbn -[Nat.mul]. lia.
  - rewrite H0, H1, H, weights_cons. cbn -[Nat.mul]. lia.
  - assert (W : (4 * length pre + weight (p_state p) > weights push)%nat /\
       (k = BlockOrIndentless \/ True -> (4 * length pre + weight (p_state p) > weights push + 1)%nat \/ k <> BlockOrIndentless))
      by (inversion H; subst; cbn; split; try lia; right; discriminate).
    destruct W as [W1 W2].
    destruct H3.
    + rewrite H0, H3, !app_length. apply node_nonempty in H9. subst s ss.
      assert (Q : weights (push ++ p_states p) = (weight (p_state p') + weights (p_states p'))%nat)
        by (rewrite <- H1, H6; reflexivity).
      rewrite weights_app in Q. lia.
    + rewrite H0, H3, !app_length, H9, H1, weights_app. destruct (p_state p'); inversion H7; subst; cbn [weight]; try lia.
      destruct W2 as [W2|W2]; auto; [lia|congruence].
  - rewrite H0, H3, app_length. destruct (p_state p); inversion H; subst; destruct (p_state p'); try discriminate; cbn -[Nat.mul]; lia.
  - rewrite H1, H, H2, H3. cbn -[Nat.mul]. lia.
  - rewrite H0, H1, app_length, weights_cons. inversion H; subst; cbn -[Nat.mul]; lia.
  - rewrite H2, H3, H, weights_cons. cbn -[Nat.mul]. lia.
  - rewrite H0, H1, H2, app_length. destruct H as [[-> ->]|[-> ->]]; cbn -[Nat.mul]; lia.
  - rewrite H0, H2, H3, H. cbn -[Nat.mul]. lia.
Qed.

(** * The events drive the acceptor of well-formed streams *)
Definition frames (s : pstate) : list aframe :=
  match s with
  | PS_DocEnd => [FDocEnd]
  | PS_BSeqFirst | PS_BSeqEntry | PS_Indentless | PS_FSeqFirst | PS_FSeqEntry => [FSeq]
  | PS_BMapFirst | PS_BMapKey | PS_FMapFirst | PS_FMapKey => [FKey]
  | PS_BMapValue | PS_FMapValue | PS_FMapEmptyValue => [FVal]
  | PS_FSeqMapKey | PS_FSeqMapEnd => [FKey; FSeq]
  | PS_FSeqMapValue => [FVal; FSeq]
  | _ => []
  end.
Definition abs (p : parser) : acc :=
  match p_state p with
  | PS_StreamStart => AStart
  | PS_ImplicitDocStart | PS_DocStart => ADocs
  | PS_BlockNode | PS_DocContent => AIn [FRoot]
  | PS_End => ADone
  | _ => AIn (flat_map frames (p_state p :: p_states p))
  end.
Lemma abs_deep p : is_first (p_state p) = true \/ inner (p_state p) = true \/ p_state p = PS_FSeqMapKey \/ p_state p = PS_DocEnd ->
  abs p = AIn (frames (p_state p) ++ flat_map frames (p_states p)).
Proof. unfold abs. intros H. destruct (p_state p); try reflexivity; destruct H as [H|[H|[H|H]]]; discriminate H. Qed.
Lemma stack_ok_top s ss : stack_ok (s :: ss) = true -> inner s = true \/ s = PS_DocEnd.
Proof. destruct s; cbn; auto; discriminate. Qed.

Lemma node_acc k p1 p' e f f' R : node_out k p1 p' e -> stack_ok (p_states p1) = true ->
  after_node f = Some f' -> flat_map frames (p_states p1) = f' :: R -> astep (AIn (f :: R)) e = Some (abs p').
Proof.
  intros N S A F. destruct N as [used x s ss _ HS H1 H2 Hn He | used a t hd _ _ O _ HS].
  - rewrite HS in *. rewrite abs_deep, H1, H2 by (rewrite H1; apply stack_ok_top in S; tauto).
    pose proof (arun_node x f f' R A) as Q. rewrite He in Q. cbn [arun] in Q.
    destruct (astep (AIn (f :: R)) e) as [a|]; [|discriminate]. inversion Q; subst. f_equal. f_equal. symmetry. exact F.
  - assert (P : abs p' = AIn (frames (p_state p') ++ f' :: R)).
    { rewrite abs_deep, HS, F; [reflexivity|]. destruct O; cbn; auto. }
    rewrite P. destruct f, R; cbn in A; inversion A; subst; destruct (p_state p'); inversion O; subst; reflexivity.
Qed.

Lemma step_acc p e p' : wf p -> trans p e p' -> astep (abs p) e = Some (abs p').
Proof.
  intros W T. pose proof (proj2 (proj2 W)) as HS. unfold wf_state in HS. pose proof (wf_deep p W) as D.
  inversion T; subst.
  - unfold abs. rewrite H, H1. reflexivity.
  - unfold abs. rewrite H, H4. reflexivity.
  - unfold abs. rewrite H3. destruct (p_state p); try discriminate H; reflexivity.
  - unfold abs. rewrite H2. destruct (p_state p); try discriminate H; reflexivity.
  - unfold abs. rewrite H, H3. rewrite H in HS. destruct HS as [-> _]. reflexivity.
  - rewrite H in HS. destruct HS as [HS _]. rewrite HS in H1. inversion H1. unfold abs. rewrite H, <- H6, <- H7. reflexivity.
  - destruct (call_wf _ _ _ _ W H) as (S & _). rewrite <- H1 in S.
    assert (K : exists f f' R, abs p = AIn (f :: R) /\ after_node f = Some f' /\ flat_map frames (p_states p1) = f' :: R).
    { rewrite H1. inversion H; subst; try rewrite abs_deep by (rewrite <- ?H6, <- ?H7, <- ?H8; cbn; auto);
        match goal with K : _ = p_state p |- _ => rewrite <- K in * end;
        try (destruct HS as [-> _]; unfold abs; rewrite <- H7; do 3 eexists; repeat split; reflexivity);
        do 3 eexists; repeat split; reflexivity. }
    destruct K as (f & f' & R & -> & A & F). eapply node_acc; eauto.
  - rewrite !abs_deep, H3 by (inversion H; subst; cbn; auto).
    inversion H; subst; match goal with K : _ = p_state p |- _ => rewrite <- K in * end;
        match goal with K : _ = p_state p' |- _ => rewrite <- K in * end; destruct (flat_map frames (p_states p)); reflexivity.
  - rewrite !abs_deep, H3, H2, H by (rewrite ?H, ?H2; cbn; auto). reflexivity.
  - assert (F : is_first (p_state p) = true \/ inner (p_state p) = true \/ p_state p = PS_FSeqMapKey)
      by (inversion H; subst; cbn; auto).
    destruct (D F) as (S & _ & _). rewrite H1 in S. apply stack_ok_top in S.
    rewrite !abs_deep by tauto. rewrite H1.
    cbn [flat_map]. inversion H; subst; cbn [frames app]; destruct (frames (p_state p') ++ flat_map frames (p_states p')); reflexivity.
  - rewrite H in *. destruct D as (S & _ & _); [auto|]. rewrite H3 in S. apply stack_ok_top in S.
    rewrite !abs_deep by (rewrite ?H; cbn; tauto). rewrite H3, H. cbn [flat_map frames app].
    destruct (frames (p_state p') ++ flat_map frames (p_states p')); reflexivity.
  - rewrite !abs_deep, H2, H1 by (rewrite ?H1; destruct H as [[Hq _]|[Hq _]]; rewrite ?Hq; cbn; auto).
    destruct H as [[-> _]|[-> _]]; cbn [frames app]; destruct (flat_map frames (p_states p)); reflexivity.
  - rewrite !abs_deep, H3, H2, H by (rewrite ?H, ?H2; cbn; auto). reflexivity.
Qed.
