(* Folded scalars: what is read back, whatever the string. *)
From Verif Require Import Base ReaderModel Utf8Spec Utf8Lemmas CharSpec Types CursorModel CursorProofs ScanModel ScanProofs PlanFree FullRun QuotedRun BlockRun WriterModel WriterSpec PenModel PenText EmitModel RoundSpec DoubleTrip SingleTrip PlainTrip BlockTrip.

Theorem folded_exact g i s p d pindent : g_break g <> AnyBreak -> (2 <= g_indent g <= 9)%Z ->
  ((pindent = -1 /\ i = g_indent g) \/ (0 <= pindent /\ i = pindent + g_indent g))%Z ->
  a_block (analyze_scalar (g_unicode g) s d) = true ->
  exists sp w, (sp = [] \/ sp = [0x20]) /\ written (write_folded g i s p) = written p ++ sp ++ w /\
    forall rest r c, block_ends i s rest r -> at_text c (w ++ rest) ->
      exists v c' e, scan_block_scalar pindent false c = COk (mkToken (TScalar (utf8 v) Folded) (c_mark c) e false) c' /\ c_text c' = r /\
        (utf8 v = utf8 s <-> indented_lines_fit i (g_width g) s).
Proof.
  intros B Gi Pi A. destruct (block_facts _ _ _ A) as (Ns & F & Sp). assert (Hi : (1 <= i)%Z) by lia.
  destruct (folded_written g i s p Hi Ns F Sp) as (w & v & E & D & Tv & Hv & Nv & Cl).
  exists (if p_white p then [] else [0x20]), (0x3E :: digit_text (digit_of g s) ++ chomp_text (chomp_of (tail_breaks 1 s)) ++ break_chars g ++ w).
  split; [destruct (p_white p); auto|]. split; [exact E|]. intros rest r c (b & k & -> & Hk & R1 & R2 & Tb) At.
  assert (T : tail_ok b (tail_breaks 1 v)).
  { rewrite Tv. destruct (exists_last Ns) as (s' & x & Es). rewrite Es in *. rewrite last_last in Tb. unfold tail_ok. rewrite tail_snoc. destruct (is_break x); exact Tb. }
  cbn [app] in At. rewrite <- !app_assoc in At. rewrite <- Tv in At.
  destruct (block_scanned g false pindent (Z.to_nat i) v w b r k (digit_of g s) 0x3E (c_mark c) B ltac:(lia) ltac:(lia) R1 R2 Nv) as (e & m' & X & _).
  - unfold digit_of. destruct (is_space (next s) || is_break (next s)); cbn [digit_ok]; [lia|exact I].
  - unfold digit_of. destruct (is_space (next s) || is_break (next s)) eqn:Hs; cbn [header_fits].
    + destruct (Z.leb_spec 0 pindent); lia.
    + apply orb_false_iff in Hs as [Hs1 Hs2]. rewrite Hv. split; [lia|]. split; [|exact Hs2]. destruct s as [|x s]; [contradiction|]. cbn [existsb next nth] in *. apply orb_false_iff in F as [Fx _]. rewrite (special_blank _ _ Fx). exact Hs1.
  - exact D.
  - exact T.
  - destruct (block_any_buffer pindent false c _ r (mkToken (TScalar (utf8 v) Folded) (c_mark c) e false) At) as (c' & Y1 & Y2); [discriminate|reflexivity|exists m'; exact X|].
    exists v, c', e. split; [exact Y1|]. split; [exact Y2|]. rewrite <- lines_kept_spec.
    pose proof (kept_spec i (g_width g) s true true 0) as Ks. destruct (kept i (g_width g) true true 0 s).
    + subst v. split; [intros _; exact (proj2 (proj1 Ks eq_refl))|reflexivity].
    + destruct Cl as (u & y & z & -> & ->). split.
      * intros Eq. exfalso. unfold utf8 in Eq. rewrite !flat_map_app in Eq. apply app_inv_head in Eq. discriminate Eq.
      * intros L. exfalso. assert (X' : false = true) by (apply Ks; split; [discriminate|exact L]). discriminate X'.
Qed.
