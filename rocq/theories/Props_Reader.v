(* Properties C01-C05: the input side (reader.c).  Statements only; the
   vocabulary is in Utf8Spec.v and ReaderSpec.v, the model in ReaderModel.v. *)
From Verif Require Import Base Utf8Spec ReaderModel ReaderSpec ReaderProofs.

(* A text with 1-, 2-, 3- and 4-byte characters, delivered in two ways. *)
Definition ex_text : list N := [0x61; 0xE9; 0x20AC; 0x1F600; 0x0A].
Definition ex_bytes : list N := utf8 ex_text.
Definition ex_plan1 : list (option N) := [Some 1; Some 2; Some 1; Some 3; Some 1; Some 5].
Definition ex_plan2 : list (option N) := [Some 100].

(* C01: chunking, and the look-ahead sizes asked for, are invisible. *)
Theorem C01_chunking_invisible e input plan1 plan2 reqs1 reqs2 :
  input_ok input -> plan_ok plan1 -> plan_ok plan2 -> Forall req_ok reqs1 -> Forall req_ok reqs2 ->
  read_all e input plan1 reqs1 = read_all e input plan2 reqs2.
Proof. exact (chunking_invisible e input plan1 plan2 reqs1 reqs2). Qed.
Print Assumptions C01_chunking_invisible.

Example C01_nonvacuous : input_ok ex_bytes /\ plan_ok ex_plan1 /\ plan_ok ex_plan2 /\
  read_all AnyEnc ex_bytes ex_plan1 [4; 1; 2] = Text (map utf8_enc ex_text) Utf8Enc.
Proof.
  split; [split; [repeat constructor|vm_compute; reflexivity]|].
  split; [repeat constructor; discriminate|]. split; [repeat constructor; discriminate|]. vm_compute. reflexivity.
Qed.

(* Reading always ends in a text or in a reader error: no undefined behaviour. *)
Theorem C01_total e input plan reqs : input_ok input -> plan_ok plan -> Forall req_ok reqs ->
  (exists chars e', read_all e input plan reqs = Text chars e') \/
  (exists err, read_all e input plan reqs = ReadError err).
Proof. exact (read_all_safe e input plan reqs). Qed.
Print Assumptions C01_total.

(* C02: declared UTF-8 is accepted iff it is the UTF-8 form of a text of YAML
   characters, and then exactly these characters are seen. *)
Theorem C02_utf8_exact input plan reqs : input_ok input -> plan_ok plan -> Forall req_ok reqs ->
  forall chars e', read_all Utf8Enc input plan reqs = Text chars e' <->
    (e' = Utf8Enc /\ exists cs, chars = map utf8_enc cs /\ is_utf8_text input cs).
Proof. exact (read_all_text Utf8Enc input plan reqs). Qed.
Print Assumptions C02_utf8_exact.

(* The reported error is at the first place where no YAML character starts. *)
Theorem C02_utf8_error input plan reqs err : input_ok input -> plan_ok plan -> Forall req_ok reqs ->
  read_all Utf8Enc input plan reqs = ReadError err ->
  exists cs rest, input = utf8 cs ++ rest /\ Forall yaml_char cs /\ rest <> [] /\
    (forall c more, yaml_char c -> rest <> utf8 [c] ++ more) /\
    nlen (utf8 cs) <= re_offset err <= nlen (utf8 cs) + 3.
Proof. exact (read_all_error Utf8Enc input plan reqs err). Qed.
Print Assumptions C02_utf8_error.

Example C02_accepts : read_all Utf8Enc ex_bytes ex_plan1 [] = Text (map utf8_enc ex_text) Utf8Enc.
Proof. vm_compute. reflexivity. Qed.
Example C02_rejects_overlong : read_all Utf8Enc [0x61; 0xC0; 0x80] [Some 1] [] = ReadError (mkRerr InvalidLength 1 None).
Proof. vm_compute. reflexivity. Qed.

(* C03: the same for both byte orders of UTF-16. *)
Theorem C03_utf16_exact (be : bool) input plan reqs : input_ok input -> plan_ok plan -> Forall req_ok reqs ->
  let e := if be then Utf16BE else Utf16LE in
  forall chars e', read_all e input plan reqs = Text chars e' <->
    (e' = e /\ exists cs, chars = map utf8_enc cs /\ is_utf16_text be input cs).
Proof. exact (match be with true => read_all_text Utf16BE input plan reqs | false => read_all_text Utf16LE input plan reqs end). Qed.
Print Assumptions C03_utf16_exact.

Theorem C03_utf16_error (be : bool) input plan reqs err : input_ok input -> plan_ok plan -> Forall req_ok reqs ->
  read_all (if be then Utf16BE else Utf16LE) input plan reqs = ReadError err ->
  exists cs rest, input = utf16 be cs ++ rest /\ Forall yaml_char cs /\ rest <> [] /\
    (forall c more, yaml_char c -> rest <> utf16 be [c] ++ more) /\
    nlen (utf16 be cs) <= re_offset err <= nlen (utf16 be cs) + 3.
Proof. exact (match be with true => read_all_error Utf16BE input plan reqs err | false => read_all_error Utf16LE input plan reqs err end). Qed.
Print Assumptions C03_utf16_error.

Example C03_accepts : input_ok (utf16 true ex_text) /\
  read_all Utf16BE (utf16 true ex_text) ex_plan1 [] = Text (map utf8_enc ex_text) Utf16BE.
Proof. split; [split; [repeat constructor|]|]; vm_compute; reflexivity. Qed.
Example C03_rejects_lone : read_all Utf16LE [0x61; 0; 0x3D; 0xD8; 0x61; 0] [] [] =
  ReadError (mkRerr ExpectedLowSurrogate 4 (Some 0x61)).
Proof. vm_compute. reflexivity. Qed.

(* C04: with no encoding set, the byte order mark decides, and is dropped. *)
Theorem C04_detection input plan reqs : input_ok input -> plan_ok plan -> Forall req_ok reqs ->
  forall chars e', read_all AnyEnc input plan reqs = Text chars e' <->
    (e' = fst (bom input) /\ exists cs, chars = map utf8_enc cs /\
       is_text (fst (bom input)) (skipn (N.to_nat (snd (bom input))) input) cs).
Proof. exact (read_all_text AnyEnc input plan reqs). Qed.
Print Assumptions C04_detection.

(* ... and is counted in the offset of errors. *)
Theorem C04_offset input plan reqs err : input_ok input -> plan_ok plan -> Forall req_ok reqs ->
  read_all AnyEnc input plan reqs = ReadError err ->
  exists cs rest, skipn (N.to_nat (snd (bom input))) input = encode (fst (bom input)) cs ++ rest /\
    Forall yaml_char cs /\ rest <> [] /\
    (forall c more, yaml_char c -> rest <> encode (fst (bom input)) [c] ++ more) /\
    let p := snd (bom input) + nlen (encode (fst (bom input)) cs) in p <= re_offset err <= p + 3.
Proof. exact (read_all_error AnyEnc input plan reqs err). Qed.
Print Assumptions C04_offset.

Example C04_le : read_all AnyEnc (0xFF :: 0xFE :: utf16 false ex_text) ex_plan1 [] = Text (map utf8_enc ex_text) Utf16LE.
Proof. vm_compute. reflexivity. Qed.
Example C04_short : read_all AnyEnc [0x61] [Some 1] [] = Text [[0x61]] Utf8Enc.
Proof. vm_compute. reflexivity. Qed.

(* C05: in every state a client can reach, for every handler (also a failing
   one), a fetch stays within both buffers and delivers what was asked for. *)
Theorem C05_fetch e input plan st n : input_ok input -> reachable e input plan st -> req_ok n ->
  (exists st', update_buffer n st = ROk st' /\ fetched n st') \/
  (exists st' err, update_buffer n st = RFail st' err).
Proof. exact (reachable_fetch e input plan st n). Qed.
Print Assumptions C05_fetch.

(* A character that was fetched can be consumed without leaving the buffer. *)
Theorem C05_consume e input plan st : input_ok input -> reachable e input plan st -> 0 < rd_unread st ->
  exists c st', skip_char st = Some (c, st') /\ rd_unread st' = rd_unread st - 1 /\ rd_buf st = c ++ rd_buf st'.
Proof. exact (reachable_skip e input plan st). Qed.
Print Assumptions C05_consume.

Example C05_reachable : exists st, reachable AnyEnc ex_bytes ex_plan1 st /\ rd_unread st = 1 /\ rd_buf st = utf8 [0xE9].
Proof.
  eexists. split.
  - eapply (reach_skip _ _ _ _ [0x61]).
    + eapply (reach_fetch _ _ _ _ 2); [apply reach_init|unfold req_ok; lia|vm_compute; reflexivity].
    + vm_compute. reflexivity.
    + vm_compute. reflexivity.
    + reflexivity.
  - split; vm_compute; reflexivity.
Qed.
