(* The queue of tokens. *)
From Coq Require Import Permutation.
From Verif Require Import Base ReaderModel Types ParserModel DocModel HeapModel HeapSpec HeapLemmas HeapEvents HeapLoaderModel HeapTokenModel HeapTokenSpec.

Definition sound_tok (t : htok) : Prop :=
  match t with
  | HTTagDirective a b | HTTag a b => a <> None /\ b <> None
  | HTAlias a | HTAnchor a | HTScalar a _ => a <> None
  | _ => True
  end.
Lemma tok_ext h h' t : good h -> ext h h' -> holds h (tok_blocks t) -> tok_at h' t = tok_at h t.
Proof.
  intros G X H. destruct t; cbn [tok_at tok_blocks] in *; try reflexivity; rewrite ?(str_ext h h' _ G X); try reflexivity; cn.
Qed.
Lemma token_ext h h' t : good h -> ext h h' -> holds h (token_blocks t) -> token_at h' t = token_at h t.
Proof. intros G X H. unfold token_at. rewrite (tok_ext h h' _ G X H). reflexivity. Qed.
Lemma tokens_ext h h' l : good h -> ext h h' -> holds h (flat_map token_blocks l) -> map (token_at h') l = map (token_at h) l.
Proof.
  intros G X. induction l as [|t l IH]; intros H; [reflexivity|]. cbn [map flat_map] in *.
  rewrite (token_ext h h' t G X), IH; [reflexivity| |]; cn.
Qed.
Lemma token_delete_does t h : good h -> holds h (tok_blocks t) -> does (token_delete t) h (tok_blocks t) (fun _ g _ => g = []).
Proof.
  intros G H. pose proof (ext_refl h) as X. destruct t; cbn [token_delete tok_blocks] in *;
    try (eapply ends_ret; [assumption|assumption| |reflexivity]; cn); try (apply h_free_does; assumption);
    exact (free_pair_does (_, _) h G H).
Qed.

Lemma cnt_insert {A} (f : A -> list nat) k x l b : cnt (flat_map f (insert_at k x l)) b = (cnt (f x) b + cnt (flat_map f l) b)%nat.
Proof.
  unfold insert_at. rewrite <- (firstn_skipn k l) at 3. rewrite !flat_map_app, !cnt_app. cbn [flat_map]. rewrite cnt_app. lia.
Qed.
Lemma map_insert {A B} (f : A -> B) k x l : map f (insert_at k x l) = insert_at k (f x) (map f l).
Proof. unfold insert_at. rewrite map_app. cbn [map]. rewrite firstn_map, skipn_map. reflexivity. Qed.
Lemma Forall_insert {A} (P : A -> Prop) k x l : P x -> Forall P l -> Forall P (insert_at k x l).
Proof.
  intros Px F. unfold insert_at. rewrite <- (firstn_skipn k l) in F. apply Forall_app in F. destruct F.
  apply Forall_app. split; [assumption|constructor; assumption].
Qed.
Lemma insert_some {A} k (x : A) l : insert_at k x l <> [].
Proof. unfold insert_at. destruct (firstn k l); discriminate. Qed.
