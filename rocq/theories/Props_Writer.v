(* Properties C06, C07, C50: the output side (writer.c and the buffer macros of
   emitter.c).  Statements only. *)
From Verif Require Import Base Utf8Spec ReaderModel ReaderSpec WriterModel WriterSpec WriterProofs.

Definition ex_ops : list cop := [CPut [0x20AC]; CFlush; CPut [0xE9]; CBreak [0xD; 0xA]; CPut [0x61]].
(* a long output, more than one buffer, also meets the hypothesis *)
Definition long_ops (n : nat) : list cop := repeat (CPut [0x20AC]) n ++ ex_ops.
Example long_ops_ok n limit : 0x20AD <= limit -> Forall (op_ok limit) (long_ops n).
Proof.
  intros H. apply Forall_app. split; [apply Forall_forall; intros x Hx; apply repeat_spec in Hx; subst; cbn; lia|].
  repeat constructor; cbn; lia.
Qed.

(* C06: whatever is put, in whatever pieces: when the final flush succeeds the
   handler has accepted exactly the UTF-8 bytes of the characters put, in
   order, once each. *)
Theorem C06_output_exact plan ops w :
  Forall (op_ok 0x200000) ops ->
  wrun (init_writer Utf8Enc plan) (map op_bytes (ops ++ [CFlush])) = WOk w ->
  accepted w = utf8 (chars_of ops) /\ all_accepted w.
Proof. exact (wrun_flush_accepted Utf8Enc 0x200000 plan ops w ltac:(cbn; lia) ltac:(lia)). Qed.
Print Assumptions C06_output_exact.

(* No store is out of bounds: undefined behaviour is not among the outcomes,
   and without refusals by the handler the result is success. *)
Theorem C06_output_total plan ops : Forall (op_ok 0x200000) ops ->
  (exists w, wrun (init_writer Utf8Enc plan) (map op_bytes (ops ++ [CFlush])) = WOk w) \/
  (exists w, wrun (init_writer Utf8Enc plan) (map op_bytes (ops ++ [CFlush])) = WFail w /\ ~ all_accepted w).
Proof. exact (wrun_flush_result Utf8Enc 0x200000 plan ops ltac:(cbn; lia) ltac:(lia)). Qed.
Print Assumptions C06_output_total.

Example C06_nonvacuous : Forall (op_ok 0x200000) ex_ops /\
  match wrun (init_writer Utf8Enc []) (map op_bytes (ex_ops ++ [CFlush])) with
  | WOk w => length (w_calls w) = 2%nat /\ accepted w = [0xE2; 0x82; 0xAC; 0xC3; 0xA9; 0xD; 0xA; 0x61] | _ => False end.
Proof. split; [repeat constructor|]. vm_compute. auto. Qed.

(* C07: the same for UTF-16, for characters below U+10400. *)
Theorem C07_utf16_exact (be : bool) plan ops w :
  Forall (op_ok 0x10400) ops ->
  wrun (init_writer (if be then Utf16BE else Utf16LE) plan) (map op_bytes (ops ++ [CFlush])) = WOk w ->
  accepted w = utf16 be (chars_of ops) /\ all_accepted w.
Proof.
  exact (match be with
         | true => wrun_flush_accepted Utf16BE 0x10400 plan ops w ltac:(cbn; lia) ltac:(lia)
         | false => wrun_flush_accepted Utf16LE 0x10400 plan ops w ltac:(cbn; lia) ltac:(lia) end).
Qed.
Print Assumptions C07_utf16_exact.

Theorem C07_utf16_total (be : bool) plan ops : Forall (op_ok 0x10400) ops ->
  (exists w, wrun (init_writer (if be then Utf16BE else Utf16LE) plan) (map op_bytes (ops ++ [CFlush])) = WOk w) \/
  (exists w, wrun (init_writer (if be then Utf16BE else Utf16LE) plan) (map op_bytes (ops ++ [CFlush])) = WFail w /\ ~ all_accepted w).
Proof.
  exact (match be with
         | true => wrun_flush_result Utf16BE 0x10400 plan ops ltac:(cbn; lia) ltac:(lia)
         | false => wrun_flush_result Utf16LE 0x10400 plan ops ltac:(cbn; lia) ltac:(lia) end).
Qed.
Print Assumptions C07_utf16_total.

Example C07_nonvacuous : Forall (op_ok 0x10400) ex_ops /\ Forall (op_ok 0x10400) [CPut [0x10000]] /\
  match wrun (init_writer Utf16BE []) (map op_bytes ([CPut [0x10000]; CPut [0x61]] ++ [CFlush])) with
  | WOk w => accepted w = [0xD8; 0; 0xDC; 0; 0; 0x61] | _ => False end.
Proof. split; [repeat constructor|]. split; [repeat constructor|]. vm_compute. reflexivity. Qed.

(* From U+10400 on the low surrogate is wrong (writer.c:119). *)
Theorem C07_utf16_refuted : exists (c : N) w, scalar_value c /\
  wrun (init_writer Utf16BE []) (map op_bytes [CPut [c]; CFlush]) = WOk w /\
  accepted w <> utf16 true [c].
Proof. exact utf16_low_surrogate_wrong. Qed.
Print Assumptions C07_utf16_refuted.

(* C50, writer part: success means that the handler refused nothing; a refusal
   is reported as failure. *)
Theorem C50_refusal_reported e plan ops : e <> AnyEnc -> Forall (op_ok 0x10400) ops ->
  (exists w, wrun (init_writer e plan) (map op_bytes ops) = WOk w /\ all_accepted w) \/
  (exists w, wrun (init_writer e plan) (map op_bytes ops) = WFail w /\ ~ all_accepted w).
Proof.
  exact (fun He => wrun_reports e 0x10400 plan ops
    (match e as e return e <> AnyEnc -> limit_ok e 0x10400 with AnyEnc => fun H => H eq_refl | Utf8Enc => fun _ => ltac:(cbn; lia)
     | _ => fun _ => ltac:(cbn; lia) end He) ltac:(lia)).
Qed.
Print Assumptions C50_refusal_reported.

Example C50_nonvacuous :
  (exists w, wrun (init_writer Utf16LE [true; false]) (map op_bytes (ex_ops ++ [CFlush])) = WFail w) /\
  (exists w, wrun (init_writer Utf16LE [true; true]) (map op_bytes (ex_ops ++ [CFlush])) = WOk w).
Proof. split; eexists; vm_compute; reflexivity. Qed.
