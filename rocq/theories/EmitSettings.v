(* The emitter's settings after STREAM-START. *)
From Verif Require Import Base Utf8Spec ReaderModel CharSpec Types TreeSpec WriterModel WriterSpec PenModel EmitModel.

Lemma stream_start_cfg g enc : exists m, emit_event (init_emitter g) (EStreamStart enc) = EOk m /\ m_cfg m = normalise g enc.
Proof.
  unfold emit_event, emit_loop, emit_one, state_machine, emit_stream_start. cbn.
  match goal with |- context [if ?b then _ else _] => destruct b end; eexists; split; reflexivity.
Qed.
Lemma normalise_ok g enc : let g' := normalise g enc in
  (2 <= g_indent g' <= 9)%Z /\ (2 * g_indent g' < g_width g')%Z /\ g_encoding g' <> AnyEnc /\ g_break g' <> AnyBreak.
Proof.
  cbn zeta. unfold normalise. cbn [g_indent g_width g_encoding g_break].
  set (ind := if (g_indent g <? 2)%Z || (g_indent g >? 9)%Z then 2%Z else g_indent g).
  assert (I : (2 <= ind <= 9)%Z).
  { unfold ind. destruct (Z.ltb_spec (g_indent g) 2), (Z.gtb_spec (g_indent g) 9); cbn; lia. }
  clearbody ind. split; [exact I|]. split; [|split; [destruct (g_encoding g), enc; discriminate|destruct (g_break g); discriminate]].
  destruct (Z.geb_spec (g_width g) 0), (Z.leb_spec (g_width g) (ind * 2)); cbn [andb];
    match goal with |- context [(?x <? 0)%Z] => destruct (Z.ltb_spec x 0) end; unfold INT_MAX; lia.
Qed.
Theorem settings_normalised ss enc :
  exists m, emit_event (init_emitter (fold_left apply_setting ss init_cfg)) (EStreamStart enc) = EOk m /\
    (2 <= g_indent (m_cfg m) <= 9)%Z /\ (2 * g_indent (m_cfg m) < g_width (m_cfg m))%Z /\
    g_encoding (m_cfg m) <> AnyEnc /\ g_break (m_cfg m) <> AnyBreak.
Proof. destruct (stream_start_cfg (fold_left apply_setting ss init_cfg) enc) as (m & E & C). exists m. split; [exact E|]. rewrite C. apply normalise_ok. Qed.
Theorem settings_kept ss i w e b enc : (2 <= i <= 9)%Z -> (2 * i < w)%Z -> e <> AnyEnc -> b <> AnyBreak ->
  exists m, emit_event (init_emitter (fold_left apply_setting (ss ++ [SetIndent i; SetWidth w; SetEncoding e; SetBreak b]) init_cfg)) (EStreamStart enc) = EOk m /\
    g_indent (m_cfg m) = i /\ g_width (m_cfg m) = w /\ g_encoding (m_cfg m) = e /\ g_break (m_cfg m) = b.
Proof.
  intros I W En Br. match goal with |- context [init_emitter ?x] => destruct (stream_start_cfg x enc) as (m & E & C) end. exists m. split; [exact E|]. rewrite C.
  rewrite fold_left_app. set (g := fold_left apply_setting ss init_cfg). cbn [fold_left apply_setting].
  unfold normalise. cbn [g_indent g_width g_encoding g_break g_canonical g_unicode].
  destruct (Z.ltb_spec 1 i); [|lia]. destruct (Z.ltb_spec i 10); [|lia]. cbn [andb].
  destruct (Z.ltb_spec i 2); [lia|]. destruct (Z.gtb_spec i 9); [lia|]. cbn [orb].
  destruct (Z.geb_spec w 0); [|lia]. destruct (Z.geb_spec w 0); [|lia]. destruct (Z.leb_spec w (i * 2)); [lia|]. cbn [andb]. destruct (Z.ltb_spec w 0); [lia|].
  split; [reflexivity|]. split; [reflexivity|]. split; [destruct e; congruence|destruct b; congruence].
Qed.
Theorem unlimited_width ss w enc : (w < 0)%Z ->
  exists m, emit_event (init_emitter (fold_left apply_setting (ss ++ [SetWidth w]) init_cfg)) (EStreamStart enc) = EOk m /\ g_width (m_cfg m) = 2147483647%Z.
Proof.
  intros W. match goal with |- context [init_emitter ?x] => destruct (stream_start_cfg x enc) as (m & E & C) end. exists m. split; [exact E|]. rewrite C.
  rewrite fold_left_app. set (g := fold_left apply_setting ss init_cfg). cbn [fold_left apply_setting].
  unfold normalise. cbn [g_indent g_width]. destruct (Z.geb_spec w 0); [lia|]. reflexivity.
Qed.
