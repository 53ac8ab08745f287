(* Proofs for C61: the parser does not look further than it consumes.  While the tokens [r]
   are not reached they may be replaced by others. *)
From Verif Require Import Base ReaderModel Types DocModel ParserModel.

(* ---- a call does not give tokens back ---- *)
Section Shrink.
Variable Q : list token -> Prop.
Hypothesis tails : forall t l, Q (t :: l) -> Q l.
Definition shr (o : pout) : Prop := match o with PEvent _ p => Q (p_in p) | _ => True end.
Definition small (p : parser) : Prop := Q (p_in p).
Lemma small_skip p : small p -> small (skip p).
Proof. unfold small. destruct p as [[|t r] x2 x3 x4 x5 x6 x7]; cbn; [auto|apply tails]. Qed.
Lemma shr_ret e s m p : small p -> shr (ret e s m p).
Proof. intros H. exact H. Qed.
Lemma shr_peek p k : (forall t, shr (k t)) -> shr (peek p k).
Proof. unfold peek. destruct (p_in p); intros H; [exact I|apply H]. Qed.
Lemma shr_peeku p k : (forall t, shr (k t)) -> shr (peek_unchecked p k).
Proof. unfold peek_unchecked. destruct (p_in p); intros H; [exact I|apply H]. Qed.
Lemma shr_pop_state p k : small p -> (forall q, small q -> shr (k q)) -> shr (pop_state p k).
Proof. unfold pop_state. intros S H. destruct (p_states p); [exact I|apply H; exact S]. Qed.
Lemma shr_pop_mark p k : small p -> (forall m q, small q -> shr (k m q)) -> shr (pop_mark p k).
Proof. unfold pop_mark. intros S H. destruct (p_marks p); [exact I|apply H; exact S]. Qed.
Lemma shr_enter p b k : small p -> (forall q, small q -> shr (k q)) -> shr (enter p b k).
Proof. unfold enter. intros S H. destruct b; [|apply H; exact S]. apply shr_peeku. intros t. apply H. apply small_skip. exact S. Qed.
Ltac sm := repeat (apply small_skip || assumption || match goal with |- small (set_state ?p _) => change (small p) | |- small (push_state ?p _) => change (small p) | |- small (set_tags ?p _) => change (small p) end).
Lemma shr_content p b i a t s e tk : small p -> shr (parse_content p b i a t s e tk).
Proof.
  intros S. unfold parse_content. cbv zeta. destruct (_ && _); [apply shr_ret; sm|].
  destruct (t_tok tk); destruct b; try (destruct (t_deep tk); [exact I|apply shr_ret; sm]); try (apply shr_pop_state; [exact S|]; intros; apply shr_ret; sm);
    (destruct a; [apply shr_pop_state; [exact S|]; intros; apply shr_ret; sm|]; destruct t; [apply shr_pop_state; [exact S|]; intros; apply shr_ret; sm|exact I]).
Qed.
Lemma shr_with_tag p t m k : (forall t, shr (k t)) -> shr (with_tag p t m k).
Proof. unfold with_tag. intros H. destruct t as [[[h s] x]|]; [|apply H]. destruct (resolve_tag _ _ _); [apply H|exact I]. Qed.
Lemma shr_node p b i : small p -> shr (parse_node p b i).
Proof.
  intros S. unfold parse_node. apply shr_peek. intros t. destruct (t_tok t); try (apply shr_content; sm).
  - apply shr_pop_state; [exact S|]. intros. apply shr_ret. sm.
  - cbv zeta. apply shr_peek. intros t2. destruct (t_tok t2); try (apply shr_content; sm). apply shr_peek. intros t3. apply shr_with_tag. intros. apply shr_content. sm.
  - cbv zeta. apply shr_peek. intros t2. destruct (t_tok t2); try (apply shr_with_tag; intros; apply shr_content; sm). apply shr_peek. intros t3. apply shr_with_tag. intros. apply shr_content. sm.
Qed.
Definition dsmall (o : dirs_out) : Prop := match o with DirsOk _ _ p => small p | _ => True end.
Lemma small_loop l : forall v d p, small p -> dsmall (directive_loop l v d p).
Proof.
  induction l as [|x l IH]; intros v d p S; [exact I|]. cbn [directive_loop]. destruct (p_in p) as [|t r]; [exact I|]. destruct (t_tok t); try exact S.
  - destruct v; [exact I|]. destruct (_ || _); [exact I|]. apply IH. sm.
  - destruct (append_tag_directive _ _ _); [|exact I]. apply IH. sm.
Qed.
Lemma small_dirs p : small p -> dsmall (process_directives p).
Proof. intros S. unfold process_directives. pose proof (small_loop (p_in p) None [] p S). destruct (directive_loop _ _ _ _); [exact H|exact I]. Qed.
Lemma small_ends l : forall p, small p -> small (skip_doc_ends l p).
Proof. induction l as [|x l IH]; intros p S; [exact S|]. cbn [skip_doc_ends]. destruct (p_in p) as [|t r]; [exact S|]. destruct (t_tok t); try exact S. apply IH. sm. Qed.
Lemma shr_doc p i : small p -> shr (parse_document_start p i).
Proof.
  intros S. unfold parse_document_start. apply shr_peek. intros _. cbv zeta.
  assert (E : small (if i then p else skip_doc_ends (p_in p) p)) by (destruct i; [exact S|apply small_ends; exact S]).
  revert E. generalize (if i then p else skip_doc_ends (p_in p) p). intros q Sq. apply shr_peek. intros t. pose proof (small_dirs q Sq) as D.
  destruct (_ && _ && _); [destruct (process_directives q); [exact D|exact I]|]. destruct (negb _); [|apply shr_ret; sm].
  destruct (process_directives q) as [v d p'|]; [|exact I]. cbn [dsmall] in D. apply shr_peek. intros t2. destruct (t_tok t2); try exact I. apply shr_ret. sm.
Qed.
Ltac rt := first [apply shr_ret; sm|apply shr_node; sm|exact I|unfold process_empty_scalar; apply shr_ret; sm].
Ltac cl := apply shr_pop_state; [sm|]; intros; apply shr_pop_mark; [sm|]; intros; apply shr_ret; sm.
Ltac er := apply shr_pop_mark; [sm|]; intros; exact I.
Ltac al := first [rt|er|cl|apply shr_pop_state; [sm|]; intros; rt].
Lemma shr_machine p : small p -> shr (state_machine p).
Proof.
  intros S. unfold state_machine. destruct (p_state p); try (apply shr_node; exact S); try (apply shr_doc; exact S).
  - unfold parse_stream_start. apply shr_peek. intros t. destruct (t_tok t); try exact I. apply shr_ret. sm.
  - unfold parse_document_content. apply shr_peek. intros t. destruct (t_tok t); al.
  - unfold parse_document_end. apply shr_peek. intros t. destruct (t_tok t); apply shr_ret; sm.
  - unfold parse_block_sequence_entry. apply shr_enter; [exact S|]. intros q Sq. apply shr_peek. intros t. destruct (t_tok t); try al. cbv zeta. apply shr_peek. intros t2. destruct (t_tok t2); al.
  - unfold parse_block_sequence_entry. apply shr_enter; [exact S|]. intros q Sq. apply shr_peek. intros t. destruct (t_tok t); try al. cbv zeta. apply shr_peek. intros t2. destruct (t_tok t2); al.
  - unfold parse_indentless_sequence_entry. apply shr_peek. intros t. destruct (t_tok t); try al. cbv zeta. apply shr_peek. intros t2. destruct (t_tok t2); al.
  - unfold parse_block_mapping_key. apply shr_enter; [exact S|]. intros q Sq. apply shr_peek. intros t. destruct (t_tok t); try al. cbv zeta. apply shr_peek. intros t2. destruct (t_tok t2); al.
  - unfold parse_block_mapping_key. apply shr_enter; [exact S|]. intros q Sq. apply shr_peek. intros t. destruct (t_tok t); try al. cbv zeta. apply shr_peek. intros t2. destruct (t_tok t2); al.
  - unfold parse_block_mapping_value. apply shr_peek. intros t. destruct (t_tok t); try al. cbv zeta. apply shr_peek. intros t2. destruct (t_tok t2); al.
  - unfold parse_flow_sequence_entry. apply shr_enter; [exact S|]. intros q Sq. apply shr_peek. intros t. unfold end_collection. destruct (t_tok t); al.
  - unfold parse_flow_sequence_entry. apply shr_enter; [exact S|]. intros q Sq. apply shr_peek. intros t. unfold end_collection. destruct (t_tok t); try al. cbv zeta. apply shr_peek. intros t2. destruct (t_tok t2); al.
  - unfold parse_flow_sequence_entry_mapping_key. apply shr_peek. intros t. destruct (t_tok t); al.
  - unfold parse_flow_sequence_entry_mapping_value. apply shr_peek. intros t. destruct (t_tok t); try al. cbv zeta. apply shr_peek. intros t2. destruct (t_tok t2); al.
  - unfold parse_flow_sequence_entry_mapping_end. apply shr_peek. intros t. al.
  - unfold parse_flow_mapping_key. apply shr_enter; [exact S|]. intros q Sq. apply shr_peek. intros t. unfold end_collection. destruct (t_tok t); try al. cbv zeta. apply shr_peek. intros t2. destruct (t_tok t2); al.
  - unfold parse_flow_mapping_key. apply shr_enter; [exact S|]. intros q Sq. apply shr_peek. intros t. unfold end_collection. destruct (t_tok t); try al. cbv zeta. apply shr_peek. intros t2. destruct (t_tok t2); try al. apply shr_peek. intros t3. destruct (t_tok t3); al.
  - unfold parse_flow_mapping_value. apply shr_peek. intros t. destruct (t_tok t); try al. cbv zeta. apply shr_peek. intros t2. destruct (t_tok t2); al.
  - unfold parse_flow_mapping_value. apply shr_peek. intros t. al.
  - exact I.
Qed.
End Shrink.

(* ---- the tokens not reached ---- *)
Section Local.
Variable r r' : list token.
Definition short (l : list token) : Prop := (length l <= length r)%nat.
Lemma short_tails t l : short (t :: l) -> short l.
Proof. unfold short. cbn. lia. Qed.
Definition loc (o o' : pout) : Prop :=
  match o with
  | PEvent e (mkParser i en er st ss ms tg) => (length r < length i)%nat -> exists a, i = a ++ r /\ o' = PEvent e (mkParser (a ++ r') en er st ss ms tg)
  | _ => True
  end.
Lemma loc_shr o o' : shr short o -> loc o o'.
Proof. unfold shr, loc, short. destruct o as [e [i en er st ss ms tg]| | |]; auto. cbn [p_in]. lia. Qed.
Definition near (p q : parser) : Prop := match p with mkParser i en er st ss ms tg => exists a, i = a ++ r /\ q = mkParser (a ++ r') en er st ss ms tg end.
Lemma loc_ret e s m p q : near p q -> loc (ret e s m p) (ret e s m q).
Proof. destruct p as [i en er st ss ms tg]. intros (a & -> & ->) _. exists a. split; reflexivity. Qed.
Definition nearly (p q : parser) : Prop := small short p \/ near p q.
Lemma nearly_skip p q : near p q -> nearly (skip p) (skip q).
Proof.
  destruct p as [i en er st ss ms tg]. intros ([|t a] & -> & ->); [left; apply (small_skip short short_tails); unfold small, short; cbn; lia|]. right. exists a. split; reflexivity.
Qed.
Lemma near_set p q s : near p q -> near (set_state p s) (set_state q s).
Proof. destruct p as [i en er st ss ms tg]. intros (a & -> & ->). exists a. split; reflexivity. Qed.
Lemma near_push p q s : near p q -> near (push_state p s) (push_state q s).
Proof. destruct p as [i en er st ss ms tg]. intros (a & -> & ->). exists a. split; reflexivity. Qed.
Lemma near_mark p q s : near p q -> near (push_mark p s) (push_mark q s).
Proof. destruct p as [i en er st ss ms tg]. intros (a & -> & ->). exists a. split; reflexivity. Qed.
Lemma near_tags p q s : near p q -> near (set_tags p s) (set_tags q s).
Proof. destruct p as [i en er st ss ms tg]. intros (a & -> & ->). exists a. split; reflexivity. Qed.
Lemma tags_same p q : near p q -> p_tags q = p_tags p.
Proof. destruct p as [i en er st ss ms tg]. intros (a & -> & ->). reflexivity. Qed.
Lemma state_same p q : near p q -> p_state q = p_state p /\ p_end q = p_end p /\ p_error q = p_error p.
Proof. destruct p as [i en er st ss ms tg]. intros (a & -> & ->). repeat split. Qed.

Lemma loc_peek p q k k' : near p q -> (small short p -> shr short (peek p k)) -> (forall t, loc (k t) (k' t)) -> loc (peek p k) (peek q k').
Proof.
  destruct p as [i en er st ss ms tg]. intros ([|t a] & -> & ->) S H; [apply loc_shr; apply S; unfold small, short; cbn; lia|]. exact (H t).
Qed.
Lemma loc_peeku p q k k' : near p q -> (small short p -> shr short (peek_unchecked p k)) -> (forall t, loc (k t) (k' t)) -> loc (peek_unchecked p k) (peek_unchecked q k').
Proof.
  destruct p as [i en er st ss ms tg]. intros ([|t a] & -> & ->) S H; [apply loc_shr; apply S; unfold small, short; cbn; lia|]. exact (H t).
Qed.
Lemma loc_pop_state p q k k' : near p q -> (forall p q, near p q -> loc (k p) (k' q)) -> loc (pop_state p k) (pop_state q k').
Proof.
  destruct p as [i en er st ss ms tg]. intros (a & -> & ->) H. unfold pop_state. cbn [p_states]. destruct ss; [exact I|]. apply H. exists a. split; reflexivity.
Qed.
Lemma loc_pop_mark p q k k' : near p q -> (forall m p q, near p q -> loc (k m p) (k' m q)) -> loc (pop_mark p k) (pop_mark q k').
Proof.
  destruct p as [i en er st ss ms tg]. intros (a & -> & ->) H. unfold pop_mark. cbn [p_marks]. destruct ms; [exact I|]. apply H. exists a. split; reflexivity.
Qed.
(* either the parser has reached [r], and then so has every result, or not *)
Lemma loc_nearly p q f f' : nearly p q -> (small short p -> shr short (f p)) -> (near p q -> loc (f p) (f' q)) -> loc (f p) (f' q).
Proof. intros [S|N] A B; [apply loc_shr; exact (A S)|exact (B N)]. Qed.

Lemma loc_peek_skip p q k k' : near p q -> (small short (skip p) -> shr short (peek (skip p) k)) -> (near (skip p) (skip q) -> forall t, loc (k t) (k' t)) -> loc (peek (skip p) k) (peek (skip q) k').
Proof. intros N S H. destruct (nearly_skip _ _ N) as [L|N']; [apply loc_shr; exact (S L)|]. apply loc_peek; [exact N'|exact S|exact (H N')]. Qed.
Lemma loc_ret_skip e s m p q : near p q -> loc (ret e s m (skip p)) (ret e s m (skip q)).
Proof. intros N. destruct (nearly_skip _ _ N) as [L|N']; [apply loc_shr; exact L|apply loc_ret; exact N']. Qed.
Ltac nr := repeat (assumption || apply near_set || apply near_push || apply near_tags || apply near_mark).
Ltac sm := repeat (assumption || apply (small_skip short short_tails) || match goal with |- small _ (set_state ?p _) => change (small short p) | |- small _ (push_state ?p _) => change (small short p) | |- small _ (push_mark ?p _) => change (small short p) | |- small _ (set_tags ?p _) => change (small short p) end).
Ltac sh := repeat (cbv zeta; first [exact I | apply shr_ret; sm | apply (shr_node short short_tails); sm | apply (shr_content short short_tails); sm | apply shr_peek; intros ? | apply shr_peeku; intros ? | apply shr_with_tag; intros ?
  | apply shr_pop_state; [sm|intros ? ?] | apply shr_pop_mark; [sm|intros ? ? ?] | apply (shr_enter short short_tails); [sm|intros ? ?]
  | match goal with |- shr _ (process_empty_scalar _ _) => unfold process_empty_scalar | |- shr _ (end_collection _ _ _) => unfold end_collection | |- shr _ (match t_tok ?t with _ => _ end) => destruct (t_tok t) | |- shr _ (if ?b then _ else _) => destruct b end]).

Lemma loc_content p q b i a t s e tk : near p q -> loc (parse_content p b i a t s e tk) (parse_content q b i a t s e tk).
Proof.
  intros N. unfold parse_content. cbv zeta. destruct (_ && _); [apply loc_ret; nr|].
  destruct (t_tok tk); destruct b; try (destruct (t_deep tk); [exact I|apply loc_ret; nr]); try (apply loc_pop_state; [exact N|]; intros; apply loc_ret_skip; nr);
    (destruct a; [apply loc_pop_state; [exact N|]; intros; apply loc_ret; nr|]; destruct t; [apply loc_pop_state; [exact N|]; intros; apply loc_ret; nr|exact I]).
Qed.
Lemma loc_with_tag p q t m k k' : near p q -> (forall t, loc (k t) (k' t)) -> loc (with_tag p t m k) (with_tag q t m k').
Proof. intros N H. unfold with_tag. rewrite (tags_same _ _ N). destruct t as [[[h s] x]|]; [|apply H]. destruct (resolve_tag _ _ _); [apply H|exact I]. Qed.
Lemma loc_node p q b i : near p q -> loc (parse_node p b i) (parse_node q b i).
Proof.
  intros N. unfold parse_node. apply loc_peek; [exact N|intros S; sh|]. intros t. destruct (t_tok t); try (apply loc_content; nr).
  - apply loc_pop_state; [exact N|]. intros. apply loc_ret_skip. nr.
  - cbv zeta. apply loc_peek_skip; [exact N|intros S; sh|]. intros N1 t2. destruct (t_tok t2); try (apply loc_content; nr). apply loc_peek_skip; [exact N1|intros S; sh|]. intros N2 t3. apply loc_with_tag; [exact N2|]. intros. apply loc_content. nr.
  - cbv zeta. apply loc_peek_skip; [exact N|intros S; sh|]. intros N1 t2. destruct (t_tok t2); try (apply loc_with_tag; [exact N1|]; intros; apply loc_content; nr). apply loc_peek_skip; [exact N1|intros S; sh|]. intros N2 t3. apply loc_with_tag; [exact N2|]. intros. apply loc_content. nr.
Qed.
Definition dloc (o o' : dirs_out) : Prop :=
  match o with DirsOk v d p => (length r < length (p_in p))%nat -> exists q, near p q /\ o' = DirsOk v d q | _ => True end.
Lemma loc_loop n : forall l l' v d p q, (length l <= n)%nat -> near p q -> (length (p_in p) <= length l)%nat -> (length (p_in q) <= length l')%nat -> dloc (directive_loop l v d p) (directive_loop l' v d q).
Proof.
  assert (Z : forall l l' v d p q, small short p -> dloc (directive_loop l v d p) (directive_loop l' v d q)).
  { intros l l' v d p q S. pose proof (small_loop short short_tails l v d p S) as D. destruct (directive_loop l v d p); [|exact I]. cbn in D |- *. unfold small, short in D. lia. }
  induction n as [|n IH]; intros l l' v d p q Ln N L L'.
  { apply Z. unfold small, short. lia. }
  destruct l as [|x l]; [apply Z; unfold small, short; cbn in L; lia|]. 
  destruct p as [i en er st ss ms tg]. destruct N as ([|t a] & -> & ->); [apply Z; unfold small, short; cbn; lia|]. cbn [p_in app length] in L, L'. destruct l' as [|x' l']; [cbn in L'; lia|]. cbn [length] in *. cbn [directive_loop p_in app].
  assert (N : forall tg, near (skip (mkParser (t :: a ++ r) en er st ss ms tg)) (skip (mkParser (t :: a ++ r') en er st ss ms tg))) by (intros; exists a; split; reflexivity).
  destruct (t_tok t); try (intros _; eexists; split; [exists (t :: a); split; reflexivity|reflexivity]).
  - destruct v; [exact I|]. destruct (_ || _); [exact I|]. apply IH; [lia|apply N|cbn; lia|cbn; lia].
  - cbn [p_tags]. destruct (append_tag_directive _ _ _); [|exact I]. apply IH; [lia|apply N|cbn; lia|cbn; lia].
Qed.
Lemma loc_dirs p q : near p q -> dloc (process_directives p) (process_directives q).
Proof.
  intros N. unfold process_directives. pose proof (loc_loop (length (p_in p)) (p_in p) (p_in q) None [] p q (le_n _) N (le_n _) (le_n _)) as H.
  destruct (directive_loop (p_in p) None [] p) as [v d p'|]; [|exact I]. cbn in H |- *. intros L. destruct (H L) as (q' & N' & ->). eexists. split; [|reflexivity]. rewrite (tags_same _ _ N'). nr.
Qed.
Lemma near_ends n : forall l l' p q, (length l <= n)%nat -> near p q -> (length (p_in p) <= length l)%nat -> (length (p_in q) <= length l')%nat -> nearly (skip_doc_ends l p) (skip_doc_ends l' q).
Proof.
  assert (Z : forall l l' p q, small short p -> nearly (skip_doc_ends l p) (skip_doc_ends l' q)).
  { intros l l' p q S. left. apply (small_ends short short_tails). exact S. }
  induction n as [|n IH]; intros l l' p q Ln N L L'.
  { apply Z. unfold small, short. lia. }
  destruct l as [|x l]; [apply Z; unfold small, short; cbn in L; lia|]. 
  destruct p as [i en er st ss ms tg]. destruct N as ([|t a] & -> & ->); [apply Z; unfold small, short; cbn; lia|]. cbn [p_in app length] in L, L'. destruct l' as [|x' l']; [cbn in L'; lia|]. cbn [length] in *. cbn [skip_doc_ends p_in app].
  assert (N : forall tg, near (skip (mkParser (t :: a ++ r) en er st ss ms tg)) (skip (mkParser (t :: a ++ r') en er st ss ms tg))) by (intros; exists a; split; reflexivity).
  destruct (t_tok t); try (right; exists (t :: a); split; reflexivity). apply IH; [lia|apply N|cbn; lia|cbn; lia].
Qed.
Lemma loc_doc p q i : near p q -> loc (parse_document_start p i) (parse_document_start q i).
Proof.
  intros N. unfold parse_document_start. apply loc_peek; [exact N|intros S; exact (shr_doc short short_tails p i S)|]. intros _. cbv zeta.
  assert (E : nearly (if i then p else skip_doc_ends (p_in p) p) (if i then q else skip_doc_ends (p_in q) q)) by (destruct i; [right; exact N|exact (near_ends (length (p_in p)) _ _ p q (le_n _) N (le_n _) (le_n _))]).
  revert E. generalize (if i then p else skip_doc_ends (p_in p) p) (if i then q else skip_doc_ends (p_in q) q). clear p q N. intros p q E.
  assert (S : small short p -> shr short (peek p (fun token =>
  if i && negb (starts_explicit (t_tok token)) && negb (is_stream_end (t_tok token)) then
    match process_directives p with
    | DirsFail p' => PFail p'
    | DirsOk _ _ p' =>
        ret (EDocStart None [] true) (t_start token) (t_start token)
            (set_state (push_state p' PS_DocEnd) PS_BlockNode)
    end
  else if negb (is_stream_end (t_tok token)) then
    match process_directives p with
    | DirsFail p' => PFail p'
    | DirsOk ver dirs p' =>
        peek p' (fun token2 =>
          match t_tok token2 with
          | TDocStart =>
              ret (EDocStart ver dirs false) (t_start token) (t_end token2)
                  (skip (set_state (push_state p' PS_DocEnd) PS_DocContent))
          | _ => error p' NoDocStart (t_start token2)
          end)
    end
  else ret EStreamEnd (t_start token) (t_end token) (skip (set_state p PS_End))))).
  { intros S. apply shr_peek. intros t. pose proof (small_dirs short short_tails p S) as D.
    destruct (_ && _ && _); [destruct (process_directives p); [exact D|exact I]|]. destruct (negb _); [|apply shr_ret; sm].
    destruct (process_directives p) as [v d p'|]; [|exact I]. unfold dsmall in D. sh. }
  destruct E as [L|N]; [apply loc_shr; exact (S L)|]. apply loc_peek; [exact N|exact S|]. intros t. pose proof (loc_dirs p q N) as D.
  assert (Dl : forall v d p', process_directives p = DirsOk v d p' -> small short p' \/ exists q', near p' q' /\ process_directives q = DirsOk v d q').
  { intros v d p' E. rewrite E in D. cbn in D. destruct (Nat.le_gt_cases (length (p_in p')) (length r)) as [L|L]; [left; exact L|right; exact (D L)]. }
  destruct (_ && _ && _).
  - destruct (process_directives p) as [v d p'|p']; [|exact I]. destruct (Dl _ _ _ eq_refl) as [L|(q' & N' & ->)]; [apply loc_shr; sh|]. apply loc_ret. nr.
  - destruct (negb _); [|apply loc_ret_skip; nr]. destruct (process_directives p) as [v d p'|p']; [|exact I]. destruct (Dl _ _ _ eq_refl) as [L|(q' & N' & ->)]; [apply loc_shr; sh|].
    apply loc_peek; [exact N'|intros L; sh|]. intros t2. destruct (t_tok t2); try exact I. apply loc_ret_skip. nr.
Qed.
Lemma loc_enter p q b k k' : near p q -> (forall p, small short p -> shr short (k p)) -> (forall p q, near p q -> loc (k p) (k' q)) -> loc (enter p b k) (enter q b k').
Proof.
  intros N S H. unfold enter. destruct b; [|apply H; exact N]. apply loc_peeku; [exact N|intros L; apply shr_peeku; intros t; apply S; sm|]. intros t.
  destruct (nearly_skip (push_mark p (t_start t)) (push_mark q (t_start t)) ltac:(nr)) as [L|N']; [apply loc_shr; apply S; exact L|apply H; exact N'].
Qed.
Ltac lo := repeat (cbv zeta; first [exact I | apply loc_ret; nr; fail | apply loc_ret_skip; nr; fail | apply loc_node; nr; fail
  | apply loc_peek; [nr; fail|intros ?; sh; fail|intros ?] | apply loc_peek_skip; [nr; fail|intros ?; sh; fail|intros ? ?]
  | apply loc_pop_state; [nr; fail|intros ? ? ?] | apply loc_pop_mark; [nr; fail|intros ? ? ? ?] | apply loc_enter; [nr; fail|intros ? ?; sh; fail|intros ? ? ?]
  | match goal with |- loc (process_empty_scalar _ _) _ => unfold process_empty_scalar | |- loc (end_collection _ _ _) _ => unfold end_collection | |- loc (match t_tok ?t with _ => _ end) _ => destruct (t_tok t) | |- loc (if ?b then _ else _) _ => destruct b end]).
Lemma loc_set_skip e s m p q st : near p q -> loc (ret e s m (set_state (skip p) st)) (ret e s m (set_state (skip q) st)).
Proof. intros N. destruct (nearly_skip _ _ N) as [L|N']; [apply loc_shr; apply shr_ret; sm|apply loc_ret; nr]. Qed.
Lemma loc_machine p q : near p q -> loc (state_machine p) (state_machine q).
Proof.
  intros N. unfold state_machine. destruct (state_same _ _ N) as (-> & _). destruct (p_state p); try (apply loc_node; exact N); try (apply loc_doc; exact N).
  - unfold parse_stream_start. lo.
  - unfold parse_document_content. lo.
  - unfold parse_document_end. apply loc_peek; [exact N|intros L; sh|]. intros t. destruct (t_tok t); try (apply loc_ret; nr; fail).
    destruct (nearly_skip _ _ N) as [L|N']; [apply loc_shr; apply shr_ret; sm|apply loc_ret; nr].
  - unfold parse_block_sequence_entry. lo.
  - unfold parse_block_sequence_entry. lo.
  - unfold parse_indentless_sequence_entry. lo.
  - unfold parse_block_mapping_key. lo.
  - unfold parse_block_mapping_key. lo.
  - unfold parse_block_mapping_value. lo.
  - unfold parse_flow_sequence_entry. lo.
  - unfold parse_flow_sequence_entry. lo.
  - unfold parse_flow_sequence_entry_mapping_key. lo; unfold process_empty_scalar; apply loc_set_skip; nr.
  - unfold parse_flow_sequence_entry_mapping_value. lo.
  - unfold parse_flow_sequence_entry_mapping_end. lo.
  - unfold parse_flow_mapping_key. lo.
  - unfold parse_flow_mapping_key. lo.
  - unfold parse_flow_mapping_value. lo.
  - unfold parse_flow_mapping_value. lo.
  - exact I.
Qed.
Lemma loc_parse p q : near p q -> loc (parse p) (parse q).
Proof.
  intros N. unfold parse. destruct (state_same _ _ N) as (-> & -> & ->). destruct (_ || _ || _); [exact I|apply loc_machine; exact N].
Qed.
End Local.
