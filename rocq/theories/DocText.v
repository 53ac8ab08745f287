(* The texts that the emitter writes for documents, and how the directives of such a text
   are read. *)
From Verif Require Import Base ReaderModel Utf8Spec CharSpec Types CursorModel ScanModel CursorProofs ScanProofs PlanFree FullRun WriterModel WriterSpec PenModel PenText TreeSpec EmitSpec GrammarSpec RoundSpec AgreeSpec TagRun QuotedRun DoubleTrip SingleTrip PlainTrip BlockTrip TextGrammar.
From Verif Require ScanStep.

Definition dash3 : list N := [0x2D; 0x2D; 0x2D].
Definition dot3 : list N := [0x2E; 0x2E; 0x2E].

Section Text.
Variable g : cfg.
Notation B := (break_chars g).
Definition yaml_line (v : version) : list N := 0x25 :: yaml_name ++ 0x20 :: 0x30 + fst v :: 0x2E :: 0x30 + snd v :: B.
Definition tag_line (t : tagdir) : list N := 0x25 :: tag_name ++ 0x20 :: fst t ++ 0x20 :: flat_map tag_char (snd t) ++ B.
Definition directive_lines (v : option version) (tags : list tagdir) : list N :=
  match v with Some v => yaml_line v | None => [] end ++ flat_map tag_line tags.
Definition directive_tokens (v : option version) (tags : list tagdir) : list tok :=
  match v with Some v => [TVersion (fst v) (snd v)] | None => [] end ++ map (fun t => TTagDirective (utf8 (fst t)) (utf8 (snd t))) tags.
Definition dots (n : nat) : list N := concat (repeat (dot3 ++ B) n).

(* [line]: the content begins on a line of its own *)
Inductive docs_text : list doc_tree -> list N -> Prop :=
| DX_nil : docs_text [] []
| DX_doc v tags (line : bool) x ws w nl n rest ds : valid_directives v tags -> prefixes_ok tags ->
    btext g (env_of (utf8_tags tags)) false (-1) line (if line then Some 0%Z else None) x ws w nl -> (line = true -> x <> null) ->
    (n = O -> ScanStep.document_ends rest) -> docs_text ds rest ->
    docs_text (mkDocTree v (utf8_tags tags) false x (no_end n) :: ds)
      (directive_lines v tags ++ dash3 ++ (if line then B else []) ++ ws ++ w ++ brk g nl ++ dots n ++ rest).
Inductive stream_text : list doc_tree -> list N -> Prop :=
| SX_explicit ds w : docs_text ds w -> stream_text ds w
| SX_implicit x ws w nl n rest ds : btext g (env_of []) false (-1) true (Some 0%Z) x ws w nl -> x <> null ->
    (n = O -> ScanStep.document_ends rest) -> docs_text ds rest ->
    stream_text (mkDocTree None [] true x (no_end n) :: ds) (ws ++ w ++ brk g nl ++ dots n ++ rest).
End Text.

(* ---- directives ---- *)
Lemma line_end_run start p b bs t m : line_text b bs t -> exists j, scan_line_end start p (fc (b ++ t) m) = COk tt (fc t (next_line j m)).
Proof.
  intros L. destruct (line_head _ _ _ L) as [Hb _].
  assert (S : exists j, skip_line (fc (b ++ t) m) = COk tt (fc t (next_line j m))).
  { destruct L as [(x & -> & Bx & N & _)|[(-> & N & _)|(-> & _)]].
    - exists 1. unfold skip_line. run. unfold is_crlf. run. cbn [app nth]. unfold eqc. destruct (N.eqb_spec x 0xD); [contradiction|]. run. cbn [nth]. rewrite Bx. reflexivity.
    - exists 1. unfold skip_line. run. unfold is_crlf. run. cbn [app]. unfold eqc at 1. cbn [nth]. rewrite N.eqb_refl. cbv iota. rewrite (r_check 1); [|cbn; lia|reflexivity]. unfold eqc. cbn [nth].
      destruct (N.eqb_spec (nth 0 t 0) 0xA); [contradiction|]. reflexivity.
    - exists 2. reflexivity. }
  destruct S as [j S]. exists j. rewrite <- S.
  unfold scan_line_end. rewrite r_cache. unfold bind at 1, skip_while. rewrite (loop_end _ tt (fc (b ++ t) m) tt (fc (b ++ t) m)); [|rewrite r_check0, (break_not_blank _ Hb); reflexivity].
  rewrite r_check0. unfold eqc. destruct (N.eqb_spec (nth 0 (b ++ t) 0) 0x23) as [X1|X1]; [rewrite X1 in Hb; discriminate|]. rewrite r_ret, r_check0. unfold is_breakz. rewrite Hb. cbn [orb negb].
  rewrite r_check0, Hb, r_cache. reflexivity.
Qed.

Lemma directive_name_run start name t m : name <> [] -> Forall (fun c => is_alpha c = true) name -> is_blankz (nth 0 t 0) = true ->
  scan_directive_name start (fc (name ++ t) m) = COk name (fc t (next_column (nlen name) m)).
Proof.
  intros N F Bz. unfold scan_directive_name. rewrite r_cache. unfold bind at 1. rewrite (read_while_run is_alpha name t [] m F); [|apply (blankz_class true _ Bz)].
  cbn [app]. rewrite (alphas_utf8 _ F). destruct name as [|c name]; [contradiction|]. rewrite r_check0, Bz. reflexivity.
Qed.
Lemma version_number_run start d t m : d < 10 -> is_digit (nth 0 t 0) = false -> scan_version_number start (fc (0x30 + d :: t) m) = COk d (fc t (next_column 1 m)).
Proof.
  intros D Z. unfold scan_version_number. rewrite r_cache. unfold bind at 1.
  match goal with |- context [loop ?b ?a ?c] => assert (E : loop b a c = COk (d, 1%nat) (fc t (next_column 1 m))) end.
  { apply (loop_go _ _ _ (d, 1%nat) (fc t (next_column 1 m))).
    - rewrite r_peek0. cbn [nth]. replace (is_digit (0x30 + d)) with true by (unfold is_digit, in_range; symmetry; lia). cbn [MAX_NUMBER_LENGTH Nat.ltb Nat.leb]. run.
      unfold as_digit. replace (0 * 10 + (0x30 + d - 0x30)) with d by lia. reflexivity.
    - cbn. lia.
    - apply loop_end. rewrite r_peek0, Z. reflexivity. }
  rewrite E. reflexivity.
Qed.
Lemma blank_skip t m : is_blank (nth 0 t 0) = false -> skip_while is_blank (fc (0x20 :: t) m) = COk tt (fc t (next_column 1 m)).
Proof. intros H. exact (skip_while_run is_blank [0x20] t m ltac:(repeat constructor) H). Qed.
Lemma version_value_run start v t m : fst v < 10 -> snd v < 10 -> is_digit (nth 0 t 0) = false ->
  exists m', m_line m' = m_line m /\ scan_version_value start (fc (0x20 :: 0x30 + fst v :: 0x2E :: 0x30 + snd v :: t) m) = COk v (fc t m').
Proof.
  intros H1 H2 Z. destruct v as [a b]. cbn [fst snd] in *. eexists. split; [|unfold scan_version_value; rewrite r_cache; unfold bind at 1; rewrite blank_skip].
  2:{ unfold bind at 1. rewrite version_number_run; [|exact H1|reflexivity]. rewrite r_check0. cbn [nth]. change (eqc 0x2E 0x2E) with true. cbn [negb]. rewrite r_skip. unfold bind at 1. rewrite version_number_run; [|exact H2|exact Z]. reflexivity. }
  - reflexivity.
  - cbn [nth]. unfold is_blank, is_space, is_tab. lia.
Qed.
Lemma yaml_run g v t m : g_break g <> AnyBreak -> (g_break g = CrBreak -> nth 0 t 0 <> 0xA) -> fst v < 10 -> snd v < 10 ->
  exists tk e, scan_directive (fc (yaml_line g v ++ t) m) = COk tk (fc t e) /\ t_tok tk = TVersion (fst v) (snd v) /\ m_column e = 0 /\ m_line m < m_line e.
Proof.
  intros Bk Nb H1 H2. pose proof (break_line g t Bk Nb) as L. destruct (line_head _ _ _ L) as [Hb _].
  unfold yaml_line, scan_directive. rewrite r_mark. cbn [app]. rewrite r_skip. unfold bind at 1.
  rewrite <- !app_assoc. cbn [app]. rewrite (directive_name_run m yaml_name); [|discriminate|repeat constructor|reflexivity]. change (str_eqb yaml_name yaml_name) with true. cbv iota.
  rewrite r_bind. unfold bind at 1.
  destruct (version_value_run m v (break_chars g ++ t) (next_column (nlen yaml_name) (next_column 1 m)) H1 H2) as (m1 & L1 & ->).
  { apply not_true_is_false. intros E. unfold is_digit, in_range in E. unfold is_break in Hb. lia. }
  rewrite r_bind, r_mark, r_ret. unfold bind at 1. destruct (line_end_run m SDirectiveEnd _ _ _ m1 L) as [j ->].
  eexists _, _. split; [reflexivity|]. split; [reflexivity|]. split; [reflexivity|]. cbn. rewrite L1. cbn. lia.
Qed.
Lemma tag_value_run start h x t m : valid_handle h -> x <> [] -> Forall scalar_value x -> ~ In 0 x -> is_blankz (nth 0 t 0) = true ->
  exists m', m_line m' = m_line m /\ scan_tag_directive_value start (fc (0x20 :: h ++ 0x20 :: flat_map tag_char x ++ t) m) = COk (h, utf8 x) (fc t m').
Proof.
  intros V N S Z Bz.
  assert (Hh : exists r, h = 0x21 :: r) by (destruct V as [->|(name & -> & _)]; eauto). 
  assert (U : Forall (uri_ok true) x) by (apply Forall_forall; intros c I; rewrite Forall_forall in S; split; [exact (S c I)|]; split; [intros ->; exact (Z I)|left; reflexivity]).
  assert (Hr : forall m, scan_tag_handle true start (fc (h ++ 0x20 :: flat_map tag_char x ++ t) m) = COk h (fc (0x20 :: flat_map tag_char x ++ t) (next_column (nlen h) m))).
  { intros m0. destruct V as [->|(name & -> & F)].
    - exact (handle_short true start [] (0x20 :: flat_map tag_char x ++ t) m0 (Forall_nil _) eq_refl ltac:(discriminate) ltac:(auto)).
    - cbn [app]. rewrite <- app_assoc. exact (handle_long true start name (0x20 :: flat_map tag_char x ++ t) m0 F). }
  assert (Hx : is_blank (nth 0 (flat_map tag_char x ++ t) 0) = false).
  { destruct x as [|c x]; [contradiction|]. inversion U as [|? ? Uc _]; subst. destruct (tag_char_class true c Uc) as (y & l & E & Cl). cbn [flat_map]. rewrite E. cbn [app nth].
    destruct (is_blank y) eqn:Eb; [|reflexivity]. assert (Q : is_blankz y = true) by (unfold is_blankz; rewrite Eb; reflexivity). destruct (blankz_class true y Q) as [Q1 _]. congruence. }
  eexists. split; [|unfold scan_tag_directive_value; rewrite r_cache; unfold bind at 1; rewrite blank_skip].
  2:{ unfold bind at 1. rewrite Hr, r_cache, r_check0. cbn [nth]. change (is_blank 0x20) with true. cbn [negb]. unfold bind at 1. rewrite blank_skip by exact Hx. unfold bind at 1.
      rewrite (uri_run true [] x t start _ U); [|apply (blankz_class true _ Bz)|constructor|right; exact N]. rewrite r_cache, r_check0, Bz. reflexivity. }
  - reflexivity.
  - destruct Hh as [r ->]. reflexivity.
Qed.
Lemma tag_run g d t m : g_break g <> AnyBreak -> (g_break g = CrBreak -> nth 0 t 0 <> 0xA) -> valid_handle (fst d) -> snd d <> [] -> Forall scalar_value (snd d) -> ~ In 0 (snd d) ->
  exists tk e, scan_directive (fc (tag_line g d ++ t) m) = COk tk (fc t e) /\ t_tok tk = TTagDirective (utf8 (fst d)) (utf8 (snd d)) /\ m_column e = 0 /\ m_line m < m_line e.
Proof.
  intros Bk Nb V N S Z. pose proof (break_line g t Bk Nb) as L. destruct (line_head _ _ _ L) as [Hb _]. destruct d as [h x]. cbn [fst snd] in *.
  assert (Bz : is_blankz (nth 0 (break_chars g ++ t) 0) = true) by (unfold is_blankz, is_breakz; rewrite Hb; destruct (is_blank _); reflexivity).
  unfold tag_line, scan_directive. rewrite r_mark. cbn [app fst snd]. rewrite r_skip. unfold bind at 1.
  rewrite <- !app_assoc. cbn [app]. repeat (rewrite <- !app_assoc; cbn [app]). change (0x54 :: 0x41 :: 0x47 :: ?r) with (tag_name ++ r). rewrite (directive_name_run m tag_name); [|discriminate|repeat constructor|reflexivity]. change (str_eqb tag_name yaml_name) with false. change (str_eqb tag_name tag_name) with true. cbv iota.
  rewrite r_bind. unfold bind at 1.
  destruct (tag_value_run m h x (break_chars g ++ t) (next_column (nlen tag_name) (next_column 1 m)) V N S Z Bz) as (m1 & L1 & ->).
  rewrite r_bind, r_mark, r_ret. unfold bind at 1. destruct (line_end_run m SDirectiveEnd _ _ _ m1 L) as [j ->].
  eexists _, _. split; [reflexivity|]. split; [|split; [reflexivity|cbn; rewrite L1; cbn; lia]]. cbn [t_tok fst snd]. f_equal. symmetry. apply utf8_ascii.
  destruct V as [->|(name & -> & F)]; [repeat constructor; lia|]. constructor; [lia|]. apply Forall_app. split; [eapply Forall_impl; [|exact F]; intros c; apply alpha_ascii|repeat constructor; lia].
Qed.
