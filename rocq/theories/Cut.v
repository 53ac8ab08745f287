(* Tokens, events and documents of a text whose end cannot be read (C72). *)
From Verif Require Import Base ReaderModel Utf8Spec CharSpec Types CursorModel ScanModel ScannerModel ScannerSpec ScannerFinal PlanFree CutSpec Prefix PrefixEnd.
From Verif Require LexemeUnique ParserModel ParserSpec ParserFinal GrammarSpec DocModel LoaderModel LoaderSpec PrefixEvents PrefixOpen.

Section T.
Variables (e : encoding) (nest : Z) (t Y : list N) (plan plan' : list nat).
Hypothesis no_nul : ~ In 0 t.
Notation part := (all_of e nest t true plan).
Notation full := (all_of e nest (t ++ Y) false plan').

Lemma part_live : live_cut t e [] (init_scanner e nest t true plan).
Proof. eapply lc_init; reflexivity. Qed.
Theorem tokens_cut : begins (fst part) (fst full) /\ Forall (fun x => t_tok x <> TStreamEnd) (fst part) /\
  exists er, snd part = Failed er /\ (se_problem er = SReader \/ part = full).
Proof.
  unfold all_of. destruct (LexemeUnique.tokens_of_text e nest t true plan) as (l & o & E & K).
  pose proof (never_ended t no_nul e (4 * length t + 4) [] _ part_live) as N1. pose proof (no_end_token t no_nul e (4 * length t + 4) [] _ part_live) as N2.
  rewrite E in *. cbn [fst snd] in *. destruct o as [|er| |]; try contradiction.
  assert (W : cut (s_cur (init_scanner e nest t true plan))) by (split; [reflexivity|cbn; lia]).
  assert (F : forall n, scan_all n (wholes Y (init_scanner e nest t true plan)) = scan_all n (init_scanner e nest (t ++ Y) false plan')).
  { intros n. symmetry. exact (scan_all_full e nest (t ++ Y) plan' n _ (calls_nil _) (conj eq_refl (Nat.le_0_l _))). }
  assert (Ln : (4 * length t + 4 <= 4 * length (t ++ Y) + 4)%nat) by (rewrite app_length; lia).
  destruct (scan_all_whole Y e nest t plan _ _ _ l (Failed er) Ln (calls_nil _) W E) as [[H|H]|((er' & E1 & E2) & more & H)]; [discriminate| |]; rewrite F in H.
  - rewrite H. split; [exists []; symmetry; apply app_nil_r|]. split; [exact N2|]. exists er. split; [reflexivity|right; reflexivity].
  - split; [exists more; exact H|]. split; [exact N2|]. exists er. split; [reflexivity|left; congruence].
Qed.
Theorem events_cut n :
  let (es, o) := ParserModel.parse_all n (ParserModel.init_parser (fst part)) in
  let (es', o') := ParserModel.parse_all n (ParserModel.init_parser (fst full)) in
  begins es es' /\ o <> ParserModel.Parsed /\
  ((es = es' /\ o = o') \/ exists er, o = ParserModel.Failed (Some er) /\ ParserModel.pe_problem er = ParserModel.TokenError).
Proof.
  destruct tokens_cut as ((more & M) & N & _).
  pose proof (PrefixEvents.stops_all more n (ParserModel.init_parser (fst part))) as K.
  change (PrefixEvents.longer more (ParserModel.init_parser (fst part))) with (ParserModel.init_parser (fst part ++ more)) in K. rewrite <- M in K.
  pose proof (ParserFinal.parse_all_defined (fst part) n) as U.
  assert (P : forall es, ParserModel.parse_all n (ParserModel.init_parser (fst part)) <> (es, ParserModel.Parsed)).
  { intros es E. destruct (ParserFinal.sound_implemented n _ _ E) as (used & rest & s & E1 & E2 & _).
    assert (I : In TStreamEnd (map t_tok (fst part))).
    { rewrite E1. apply in_or_app. left. inversion E2; subst; right; repeat (apply in_or_app; right); left; reflexivity. }
    apply in_map_iff in I as (x & X1 & X2). rewrite Forall_forall in N. exact (N x X2 X1). }
  destruct (ParserModel.parse_all n (ParserModel.init_parser (fst part))) as [es o], (ParserModel.parse_all n (ParserModel.init_parser (fst full))) as [es' o']. cbn [fst snd] in *.
  destruct K as [K|[K|[K (m2 & M2)]]]; [contradiction| |].
  - injection K as -> ->. split; [exists []; symmetry; apply app_nil_r|]. split; [intros ->; exact (P es eq_refl)|]. left. split; reflexivity.
  - split; [exists m2; exact M2|]. split; [intros ->; exact (P es eq_refl)|]. right. exact K.
Qed.
Theorem documents_cut fuel ds l : LoaderSpec.load_history fuel (fst part) ds l ->
  (exists l', LoaderSpec.load_history fuel (fst full) ds l') /\ forall l', LoaderModel.load fuel l <> LoaderModel.LNoDocument l'.
Proof.
  intros H. destruct tokens_cut as ((more & M) & N & _). split.
  - exists (PrefixOpen.longerL more l). rewrite M. apply PrefixOpen.history_longer. exact H.
  - intros l' E. pose proof (PrefixOpen.load_open fuel l (PrefixOpen.history_open _ _ _ _ N H)) as K. rewrite E in K. exact K.
Qed.
End T.
