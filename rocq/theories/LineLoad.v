(* C49 for events and documents. *)
From Verif Require Import Base ReaderModel Types DocModel ParserModel ParserFinal LoaderModel LoaderSpec MarkMap LineSpec LineLoadSpec.

Definition at0 (m : mark) : mark := mkMark 0 (m_line m) (m_column m).
Lemma at0_place m m' : place m = place m' -> at0 m = at0 m'.
Proof. unfold place, at0. intros E. injection E as -> ->. reflexivity. Qed.
Lemma place_at0 m : place (at0 m) = place m.
Proof. reflexivity. Qed.
Lemma placed_tokens l : forall l', map placed l = map placed l' -> map (mtoken at0) l = map (mtoken at0) l'.
Proof.
  induction l as [|t l IH]; intros [|t' l'] E; try discriminate; [reflexivity|]. cbn [map] in E. injection E as E1 E2 E3 E4 E5 E6 E7. cbn [map]. rewrite (IH l' E7). f_equal. unfold mtoken, at0. rewrite E1, E2, E3, E4, E5, E6. reflexivity.
Qed.
Lemma placed_mevents l : map placed_event (map (mevent at0) l) = map placed_event l.
Proof. rewrite map_map. reflexivity. Qed.
Lemma placed_merr e : option_map placed_perr (option_map (merr at0) e) = option_map placed_perr e.
Proof. destruct e as [[p [c|] [m|]]|]; reflexivity. Qed.
Theorem same_parse n l l' : map placed l = map placed l' ->
  map placed_event (fst (parse_all n (init_parser l))) = map placed_event (fst (parse_all n (init_parser l'))) /\
  same_result (snd (parse_all n (init_parser l))) (snd (parse_all n (init_parser l'))).
Proof.
  intros E. apply placed_tokens in E. pose proof (m_parse_all at0 n (init_parser l)) as H. pose proof (m_parse_all at0 n (init_parser l')) as H'. rewrite <- m_init in H, H'. rewrite E, H' in H. injection H as H1 H2.
  split; [rewrite <- placed_mevents, <- H1; apply placed_mevents|].
  pose proof (parse_all_defined l n) as U. destruct (snd (parse_all n (init_parser l))) as [|e| |], (snd (parse_all n (init_parser l'))) as [|e'| |]; cbn in *; try discriminate; auto. injection H2 as H2. rewrite <- placed_merr, <- H2. apply placed_merr.
Qed.
Theorem same_load fuel l l' ds e : map placed l = map placed l' -> loads fuel l ds e -> loads fuel l' ds e.
Proof.
  intros E (L & H & X). apply placed_tokens in E. apply (m_history at0) in H. rewrite E in H. apply m_history_inv in H as (L' & EL & H'). exists L'. split; [exact H'|].
  pose proof (m_load at0 fuel L) as M. rewrite EL, m_load in M.
  destruct (load fuel L) as [d0 l1|l1|l1| | |]; destruct (load fuel L') as [d2 l2|l2|l2| | |]; cbn [mlout] in M; try discriminate M; destruct e; try exact X.
  apply (f_equal (fun r => match r with LFailed l => p_error (ld_parser l) | _ => None end)) in M. cbn in M. rewrite <- X, <- (placed_merr (p_error (ld_parser l2))), M. apply placed_merr.
Qed.
