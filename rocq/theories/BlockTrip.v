(* Literal and folded scalars: what the emitter writes is read back. *)
From Verif Require Import Base ReaderModel Utf8Spec Utf8Lemmas CharSpec Types CursorModel CursorProofs ScanModel ScanProofs PlanFree FullRun QuotedRun BlockRun WriterModel WriterSpec PenModel PenText EmitModel RoundSpec DoubleTrip SingleTrip PlainTrip.

(* ---- the texts ---- *)
(* what must come after the line breaks: anything; a blank or nothing; a word *)
Inductive pending := Kept | NeedBlank | NeedWord.
(* in a line that starts with a blank or not; after line breaks *)
Inductive place := InLine (lb : bool) | AtBreak (md : pending).
Definition mode_after (literal lb : bool) (c : N) : pending := if negb literal && negb lb && (c =? 0xA) then NeedBlank else Kept.
Inductive bt (g : cfg) (literal : bool) (i : nat) : place -> list N -> list N -> Prop :=
| bt_end lb : bt g literal i (InLine lb) [] []
| bt_char lb c s w : is_breakz c = false -> bt g literal i (InLine lb) s w -> bt g literal i (InLine lb) (c :: s) (c :: w)
| bt_fold s w : literal = false -> is_blankz (nth 0 s 0) = false -> bt g literal i (InLine false) s w ->
    bt g literal i (InLine false) (0x20 :: s) (break_chars g ++ repeat 0x20 i ++ w)
| bt_break lb c s w : kept_break c -> bt g literal i (AtBreak (mode_after literal lb c)) s w -> bt g literal i (InLine lb) (c :: s) (break_text g c ++ w)
| bt_extra c s w : literal = false -> kept_break c -> bt g literal i (AtBreak NeedWord) s w -> bt g literal i (InLine false) (c :: s) (break_chars g ++ break_text g c ++ w)
| bt_more md c s w : kept_break c -> bt g literal i (AtBreak md) s w -> bt g literal i (AtBreak md) (c :: s) (break_text g c ++ w)
| bt_start md c s w : is_breakz c = false -> (md = NeedBlank -> is_blank c = true) -> (md = NeedWord -> is_blank c = false) ->
    bt g literal i (InLine (is_blank c)) s w -> bt g literal i (AtBreak md) (c :: s) (repeat 0x20 i ++ c :: w)
| bt_stop md : md <> NeedWord -> bt g literal i (AtBreak md) [] [].

(* the line breaks at the end, [n] before them *)
Fixpoint tail_breaks (n : nat) (s : list N) : nat :=
  match s with
  | [] => n
  | c :: r => tail_breaks (if is_break c then S n else O) r
  end.
Definition chomp_of (n : nat) : option bool := match n with O => Some false | S O => None | _ => Some true end.
Definition chomped (ch : option bool) (s l tr : list N) : list N :=
  let s := match ch with Some false => s | _ => s ++ l end in
  match ch with Some true => s ++ tr | _ => s end.

Section Read.
  Variables (g : cfg) (literal : bool) (pindent : Z) (start : mark) (i : nat) (b r : list N) (k : nat).
  Hypothesis B : g_break g <> AnyBreak.
  Hypothesis I1 : (1 <= i)%nat.
  Hypothesis K1 : (k < i)%nat.
  Hypothesis R1 : is_blank (nth 0 r 0) = false.
  Hypothesis R2 : is_break (nth 0 r 0) = false.
  Notation bw := (bw literal pindent (Z.of_nat i) start). Notation bk := (bk literal pindent (Z.of_nat i) start).
  Let rest := b ++ repeat 0x20 k ++ r.
  Definition tail_ok (n : nat) : Prop := if (n =? 0)%nat then line_break b else b = [].
  Definition value_is (n : nat) (v : list N) : bfinal := fun s l tr t m => chomped (chomp_of n) s l tr = v /\ t = r /\ m_column m = N.of_nat k.

  Lemma tail_head : is_break (nth 0 (repeat 0x20 k ++ r) 0) = false.
  Proof. destruct k; [exact R2|reflexivity]. Qed.
  Lemma break_line_text : line_break b -> exists bs, line_text b bs (repeat 0x20 k ++ r).
  Proof.
    intros [(x & Eb & Bx)|Eb]; rewrite Eb.
    - destruct (N.eqb_spec x 0xD) as [->|Nx].
      + exists [0xA]. right; left. split; [reflexivity|]. split; [|reflexivity]. intros E. pose proof tail_head as T. rewrite E in T. discriminate.
      + eexists. left. exists x. split; [reflexivity|]. split; [exact Bx|]. split; [exact Nx|reflexivity].
    - exists [0xA]. right; right. auto.
  Qed.
  Lemma bt_no_lf md n s w : g_break g = CrBreak -> bt g literal i (AtBreak md) s w -> tail_ok (tail_breaks (S n) s) -> nth 0 (w ++ rest) 0 <> 0xA.
  Proof.
    intros G D T. remember (AtBreak md) as x. destruct D; try discriminate Heqx.
    - unfold break_text, break_chars. rewrite G. destruct H as [-> | [-> | ->]]; discriminate.
    - rewrite <- app_assoc, nth0_repeat by exact I1. discriminate.
    - cbn [app tail_breaks] in *. unfold tail_ok in T. cbn in T. unfold rest. rewrite T. cbn [app]. intros E. pose proof tail_head as X. rewrite E in X. discriminate.
  Qed.
  Lemma bt_line md n c s w : kept_break c -> bt g literal i (AtBreak md) s w -> tail_ok (tail_breaks (S n) s) -> line_text (break_text g c) (utf8_enc c) (w ++ rest).
  Proof.
    intros K D T. unfold break_text. destruct K as [-> | [-> | ->]].
    - change (0xA =? 0xA) with true. cbv iota. destruct (g_break g) eqn:G; [congruence| | |]; unfold break_chars; rewrite G.
      + right; left. split; [reflexivity|]. split; [exact (bt_no_lf md n s w G D T)|reflexivity].
      + left. exists 0xA. repeat split; discriminate.
      + right; right. auto.
    - left. exists 0x2028. repeat split; discriminate.
    - left. exists 0x2029. repeat split; discriminate.
  Qed.
  Lemma kept_is_break c : kept_break c -> is_break c = true.
  Proof. intros [-> | [-> | ->]]; reflexivity. Qed.
  Definition holding (md : pending) (l br : list N) : list N := match md with NeedWord => br | _ => l ++ br end.
  Definition mode_ok (md : pending) (n : nat) (lb : bool) (l br : list N) : Prop :=
    match md with
    | Kept => literal = true \/ lb = true \/ starts_lf l = false
    | NeedBlank => True
    | NeedWord => literal = false /\ lb = false /\ starts_lf l = true /\ br <> []
    end /\ (md <> NeedWord -> n = 1%nat -> br = []).
  Lemma enc_nonempty c : kept_break c -> utf8_enc c <> [].
  Proof. intros [-> | [-> | ->]]; discriminate. Qed.
  Lemma bt_read p s w : bt g literal i p s w ->
    match p with
    | InLine lb => forall n L acc m, tail_ok (tail_breaks 0 s) -> n = tail_breaks 0 s -> (length (w ++ rest) <= L)%nat ->
        bw (value_is n (acc ++ utf8 s)) L acc lb (w ++ rest) m
    | AtBreak md => forall n' n L acc lb l mx br e m, tail_ok (tail_breaks n' s) -> n = tail_breaks n' s -> (1 <= n')%nat -> mode_ok md n' lb l br -> m_column m = 0 ->
        (length (w ++ rest) < L)%nat -> bk (value_is n (acc ++ holding md l br ++ utf8 s)) L acc lb l (mx, br, e) (w ++ rest) m
    end.
  Proof.
    assert (BL : (0 < length (break_chars g))%nat) by (apply brk_len; exact B).
    intros D. induction D as [lb|lb c s w Z D IH|s w Hl Z D IH|lb c s w K D IH|c s w Hl Ke D IH|md c s w K D IH|md c s w Z M1 M2 D IH|md M].
    - intros n L acc m T -> HL. cbn [tail_breaks app utf8 flat_map] in *. rewrite app_nil_r. unfold tail_ok in T. cbn in T. destruct (break_line_text T) as (bs & LT).
      unfold rest in *. eapply bw_break; [exact LT|]. intros m' C'. apply bk_end; [lia|exact C'|lia|exact R1|exact R2| |].
      + destruct (line_head _ _ _ LT) as [_ X]. rewrite !app_length in HL. lia.
      + intros m2 C2. unfold value_is. cbn. auto.
    - intros n L acc m T -> HL. cbn [app tail_breaks] in *. unfold is_breakz in Z. destruct (is_break c) eqn:Bc; [rewrite ?orb_true_r in Z; discriminate|].
      apply bw_char; [unfold is_breakz; rewrite Bc; exact Z|]. change (utf8 (c :: s)) with (utf8_enc c ++ utf8 s). rewrite app_assoc. apply IH; [exact T|reflexivity|cbn [length] in HL; lia].
    - intros n L acc m T -> HL. rewrite <- !app_assoc in *. cbn [tail_breaks] in *. change (is_break 0x20) with false in *. cbv iota in *.
      assert (Hh : nth 0 (w ++ rest) 0 = nth 0 s 0).
      { inversion D; subst; cbn in Z; try discriminate; [reflexivity| |]; exfalso; destruct (zb _ Z) as (_ & _ & X); rewrite (kept_is_break c) in X by assumption; discriminate. }
      apply (bw_break literal pindent (Z.of_nat i) start _ L acc false (break_chars g) [0xA]); [apply break_line; [exact B|intros _; rewrite nth0_repeat by exact I1; discriminate]|].
      intros m1 C1. destruct (zb _ Z) as (Z1 & Z2 & Z3). replace (repeat 0x20 i) with (repeat 0x20 (Z.to_nat (Z.of_nat i))) by (rewrite Nat2Z.id; reflexivity).
      apply bk_line; [lia|exact C1|rewrite Hh; unfold is_breakz; rewrite Z1, Z3; reflexivity| |].
      + rewrite !app_length, repeat_length in *. lia.
      + intros m2. rewrite Hh, Z2. replace (joined literal acc false [0xA] [] false) with (acc ++ [0x20]).
        * change (utf8 (0x20 :: s)) with ([0x20] ++ utf8 s). rewrite (app_assoc acc). apply IH; [exact T|reflexivity|apply Nat.le_refl].
        * unfold joined. rewrite Hl. cbn. rewrite app_nil_r. reflexivity.
    - intros n L acc m T -> HL. rewrite <- app_assoc in *. cbn [tail_breaks] in *. rewrite (kept_is_break c K) in *.
      pose proof (text_len g B c) as TL.
      apply (bw_break literal pindent (Z.of_nat i) start _ L acc lb (break_text g c) (utf8_enc c)); [apply (bt_line _ 0 c s w K D T)|]. intros m1 C1.
      change (utf8 (c :: s)) with (utf8_enc c ++ utf8 s).
      replace (acc ++ utf8_enc c ++ utf8 s) with (acc ++ holding (mode_after literal lb c) (utf8_enc c) [] ++ utf8 s) by (unfold mode_after; destruct (negb literal && negb lb && (c =? 0xA)); cbn; rewrite app_nil_r; reflexivity).
      apply (IH 1%nat); [exact T|reflexivity|lia| |exact C1|rewrite app_length in HL; lia].
      split; [|reflexivity]. unfold mode_after. destruct literal; [left; reflexivity|]. destruct lb; [right; left; reflexivity|]. cbn [negb andb].
      destruct K as [-> | [-> | ->]]; [exact I|right; right; reflexivity|right; right; reflexivity].
    - intros n L acc m T -> HL. rewrite <- !app_assoc in *. cbn [tail_breaks] in *. rewrite (kept_is_break c Ke) in *.
      pose proof (text_len g B c) as TL.
      apply (bw_break literal pindent (Z.of_nat i) start _ L acc false (break_chars g) [0xA]).
      { apply break_line; [exact B|]. intros G. unfold break_text, break_chars. rewrite G. destruct Ke as [-> | [-> | ->]]; discriminate. }
      intros m1 C1. apply (bk_break literal pindent (Z.of_nat i) start _ L acc false [0xA] 0 [] m1 (break_text g c) (utf8_enc c)); [exact C1|apply (bt_line _ 0 _ s w Ke D T)|].
      intros mx' m2 C2. change (utf8 (c :: s)) with (utf8_enc c ++ utf8 s). apply (IH 1%nat); [exact T|reflexivity|lia| |exact C2|rewrite !app_length in HL; rewrite !app_length; lia].
      split; [|congruence]. repeat split; [exact Hl|exact (enc_nonempty c Ke)].
    - intros n' n L acc lb l mx br e m T -> Hn M C HL. rewrite <- app_assoc in *. cbn [tail_breaks] in *. rewrite (kept_is_break c K) in *. pose proof (text_len g B c) as TL.
      apply (bk_break literal pindent (Z.of_nat i) start _ L acc lb l mx br e (break_text g c) (utf8_enc c)); [exact C|apply (bt_line _ n' c s w K D T)|].
      intros mx' m1 C1. change (utf8 (c :: s)) with (utf8_enc c ++ utf8 s).
      replace (holding md l br ++ utf8_enc c ++ utf8 s) with (holding md l (br ++ utf8_enc c) ++ utf8 s) by (destruct md; cbn [holding]; rewrite <- !app_assoc; reflexivity).
      apply (IH (S n')); [exact T|reflexivity|lia| |exact C1|rewrite app_length in HL; lia].
      destruct M as [M1 M2]. split; [|intros _ X; exfalso; lia]. destruct md; [exact M1|exact I|]. destruct M1 as (X1 & X2 & X3 & X4). repeat split; auto.
      intros X. apply app_eq_nil in X as [X _]. contradiction.
    - intros n' n L acc lb l mx br e m T -> Hn M C HL. rewrite <- app_assoc in *. cbn [tail_breaks] in *. 
      assert (Bc : is_break c = false) by (unfold is_breakz in Z; apply orb_false_iff in Z; tauto). rewrite Bc in *.
      replace (repeat 0x20 i) with (repeat 0x20 (Z.to_nat (Z.of_nat i))) by (rewrite Nat2Z.id; reflexivity).
      apply bk_line; [lia|exact C|exact Z|rewrite app_length, repeat_length in HL; lia|]. cbn [nth app]. intros m1.
      replace (joined literal acc lb l br (is_blank c)) with (acc ++ holding md l br).
      + rewrite app_assoc. apply bw_char; [exact Z|]. change (utf8 (c :: s)) with (utf8_enc c ++ utf8 s). rewrite (app_assoc _ (utf8_enc c)). apply IH; [exact T|reflexivity|cbn [length]; lia].
      + destruct M as [M _]. unfold joined. destruct md; cbn [holding].
        * replace (negb literal && starts_lf l && negb lb && negb (is_blank c)) with false by (destruct M as [-> | [-> | ->]]; cbn; rewrite ?andb_false_r; reflexivity). rewrite <- app_assoc. reflexivity.
        * rewrite (M1 eq_refl), andb_false_r, <- app_assoc. reflexivity.
        * destruct M as (-> & -> & -> & Nb). rewrite (M2 eq_refl). cbn [negb andb]. destruct br; [contradiction|]. reflexivity.
    - intros n' n L acc lb l mx br e m T -> Hn Mo C HL. cbn [tail_breaks app utf8 flat_map] in *. unfold tail_ok in T. replace (n' =? 0)%nat with false in T by (symmetry; apply Nat.eqb_neq; lia).
      unfold rest in *. rewrite T in *. cbn [app] in *. apply bk_end; [lia|exact C|lia|exact R1|exact R2|rewrite app_length in HL; lia|].
      intros m' C'. unfold value_is. split; [|auto]. destruct Mo as [_ Mo]. rewrite app_nil_r. destruct n' as [|[|n']]; [lia| |].
      + rewrite (Mo M eq_refl). cbn. destruct md; [| |contradiction]; cbn; rewrite app_nil_r; reflexivity.
      + cbn. destruct md; [| |contradiction]; cbn; rewrite app_assoc; reflexivity.
  Qed.
End Read.

(* ---- the header ---- *)
Lemma r_skip_line {X} (k : unit -> cm X) b bs t m : line_text b bs t -> exists m', m_column m' = 0 /\ bind skip_line k (fc (b ++ t) m) = k tt (fc t m').
Proof.
  intros [(x & -> & Bx & N & _)|[(-> & N & _)|(-> & _)]].
  - exists (next_line 1 m). split; [reflexivity|]. unfold skip_line. run. unfold is_crlf. run. cbn [app nth]. unfold eqc. destruct (N.eqb_spec x 0xD); [contradiction|]. run. cbn [nth]. rewrite Bx. reflexivity.
  - exists (next_line 1 m). split; [reflexivity|]. unfold skip_line. run. unfold is_crlf. run. cbn [app]. unfold eqc at 1. cbn [nth]. rewrite N.eqb_refl. cbv iota. rewrite (r_check 1); [|cbn; lia|reflexivity]. unfold eqc. cbn [nth].
    destruct (N.eqb_spec (nth 0 t 0) 0xA); [contradiction|]. reflexivity.
  - exists (next_line 2 m). split; reflexivity.
Qed.
Lemma r_line_end {X} start p (k : unit -> cm X) b bs t m : line_text b bs t -> exists m', m_column m' = 0 /\ bind (scan_line_end start p) k (fc (b ++ t) m) = k tt (fc t m').
Proof.
  intros L. destruct (line_head _ _ _ L) as [Hb _]. destruct (r_skip_line (X := X) k b bs t m L) as (m' & C & E). exists m'. split; [exact C|]. rewrite <- E.
  unfold scan_line_end. rewrite r_bind, r_cache, r_bind. unfold bind at 1, skip_while. rewrite (loop_end _ tt (fc (b ++ t) m) tt (fc (b ++ t) m)); [|rewrite r_check0, (break_not_blank _ Hb); reflexivity].
  rewrite r_bind, r_check0. unfold eqc. destruct (N.eqb_spec (nth 0 (b ++ t) 0) 0x23) as [X1|X1]; [rewrite X1 in Hb; discriminate|]. rewrite r_bind, r_ret, r_bind, r_check0. unfold is_breakz. rewrite Hb. cbn [orb negb].
  rewrite r_bind, r_check0, Hb, r_bind, r_cache. reflexivity.
Qed.
Definition chomp_text (ch : option bool) : list N := match ch with Some false => [0x2D] | None => [] | Some true => [0x2B] end.
Definition digit_text (d : option N) : list N := match d with Some n => [0x30 + n] | None => [] end.
Definition digit_ok (d : option N) : Prop := match d with Some n => 1 <= n <= 9 | None => True end.
Definition digit_value (d : option N) : Z := match d with Some n => Z.of_N n | None => 0%Z end.
Lemma r_header {X} start (k : option bool * Z -> cm X) d ch t m : digit_ok d -> is_break (nth 0 t 0) = true ->
  exists m', bind (scan_block_header start) k (fc (digit_text d ++ chomp_text ch ++ t) m) = k (ch, digit_value d) (fc t m').
Proof.
  intros Hd Hb.
  assert (D0 : is_digit (nth 0 t 0) = false) by (apply not_true_is_false; intros E; unfold is_digit, in_range in E; unfold is_break in Hb; lia).
  assert (P0 : (nth 0 t 0 =? 0x2B) || (nth 0 t 0 =? 0x2D) = false) by (apply not_true_is_false; intros E; unfold is_break in Hb; lia).
  destruct d as [n|]; cbn [digit_ok digit_text digit_value] in *.
  - assert (Dn : is_digit (0x30 + n) = true) by (unfold is_digit, in_range; lia). assert (Pn : (0x30 + n =? 0x2B) || (0x30 + n =? 0x2D) = false) by lia. assert (Zn : 0x30 + n =? 0x30 = false) by lia.
    assert (An : as_digit (0x30 + n) = n) by (unfold as_digit; lia).
    assert (Go : forall r, exists k', bind (scan_block_header start) k (fc ((0x30 + n) :: r) m) = k' (fc r (next_column 1 m)) /\
      k' = bind (peek 0) (fun y => bind (if (y =? 0x2B) || (y =? 0x2D) then skip ;;; ret (Some (y =? 0x2B), Z.of_N (as_digit (0x30 + n))) else ret (None, Z.of_N (as_digit (0x30 + n)))) k)).
    { intros r. eexists. split; [|reflexivity]. unfold scan_block_header. rewrite r_bind, r_cache, r_bind, r_peek0. cbn [nth]. rewrite Pn, Dn, Zn. rewrite r_bind, r_skip, r_bind, r_cache, r_bind. reflexivity. }
    destruct (Go (chomp_text ch ++ t)) as (k' & E & ->). cbn [app]. rewrite E, r_peek0, An. destruct ch as [[|]|]; cbn [chomp_text app nth].
    + eexists. change (0x2B =? 0x2B) with true. cbn [orb]. run. reflexivity.
    + eexists. change (0x2D =? 0x2D) with true. change (0x2D =? 0x2B) with false. cbn [orb]. run. reflexivity.
    + eexists. rewrite P0. run. reflexivity.
  - cbn [app]. unfold scan_block_header. rewrite r_bind, r_cache, r_bind, r_peek0. destruct ch as [[|]|]; cbn [chomp_text app nth].
    + change (0x2B =? 0x2B) with true. cbn [orb]. rewrite r_bind, r_skip, r_bind, r_cache, r_bind, r_peek0, D0, r_ret. eexists. reflexivity.
    + change (0x2D =? 0x2D) with true. change (0x2D =? 0x2B) with false. cbn [orb]. rewrite r_bind, r_skip, r_bind, r_cache, r_bind, r_peek0, D0, r_ret. eexists. reflexivity.
    + rewrite P0, D0, r_ret. eexists. reflexivity.
Qed.

(* ---- a whole scalar ---- *)
Definition header_fits (pindent : Z) (i : nat) (s : list N) (d : option N) : Prop :=
  match d with
  | Some n => Z.of_nat i = if (0 <=? pindent)%Z then (pindent + Z.of_N n)%Z else Z.of_N n
  | None => (pindent < Z.of_nat i)%Z /\ is_blank (nth 0 s 0) = false /\ is_break (nth 0 s 0) = false
  end.
Lemma block_scanned g literal pindent i s w b r k d x m : g_break g <> AnyBreak -> (1 <= i)%nat -> (k < i)%nat -> is_blank (nth 0 r 0) = false -> is_break (nth 0 r 0) = false ->
  s <> [] -> digit_ok d -> header_fits pindent i s d -> bt g literal i (AtBreak Kept) s w -> tail_ok b (tail_breaks 1 s) ->
  exists e m', scan_block_scalar pindent literal (fc (x :: digit_text d ++ chomp_text (chomp_of (tail_breaks 1 s)) ++ break_chars g ++ w ++ b ++ repeat 0x20 k ++ r) m)
    = COk (mkToken (TScalar (utf8 s) (if literal then Literal else Folded)) m e false) (fc r m') /\ m_column m' = N.of_nat k.
Proof.
  intros B I1 K1 R1 R2 Ns Hd Hf D T. set (rest := b ++ repeat 0x20 k ++ r).
  assert (NoLf : g_break g = CrBreak -> nth 0 (w ++ rest) 0 <> 0xA) by (intros G; eapply (bt_no_lf g literal i b r k I1 K1 R2 Kept 0); eauto).
  pose proof (break_line g (w ++ rest) B NoLf) as LT.
  set (ch := chomp_of (tail_breaks 1 s)).
  set (fin1 := fun st : bstate => let '(s, leading, trailing, _, e) := st in
    let s := match ch with Some false => s | _ => s ++ leading end in
    let s := match ch with Some true => s ++ trailing | _ => s end in
    ret (mkToken (TScalar s (if literal then Literal else Folded)) m e false)).
  set (indent0 := if (digit_value d =? 0)%Z then 0%Z else if (0 <=? pindent)%Z then (pindent + digit_value d)%Z else digit_value d).
  assert (Start : exists m1, m_column m1 = 0 /\
    scan_block_scalar pindent literal (fc (x :: digit_text d ++ chomp_text ch ++ break_chars g ++ w ++ rest) m) =
    bind (loop (sb_body m indent0) (0%Z, [], m1)) (fun r => bind (sb_done pindent indent0 r) (fun r => let '(indent, trailing, e) := r in cache 1 ;;; r <- loop (b_body literal pindent indent m) ([], [], trailing, false, e) ;; fin1 r)) (fc (w ++ rest) m1)).
  { unfold scan_block_scalar. rewrite r_mark, r_skip.
    edestruct (r_header (X := token) m) as (m1 & E1); [exact Hd|exact (proj1 (line_head _ _ _ LT))|]. erewrite E1.
    edestruct (r_line_end (X := token) m SBlockHeaderEnd) as (m2 & C2 & E2); [exact LT|]. erewrite E2. exists m2. split; [exact C2|].
    fold indent0. rewrite sb_eq, r_bind, r_mark, r_bind. reflexivity. }
  destruct Start as (m1 & C1 & E1). rewrite E1. clear E1.
  pose proof (bt_read g literal pindent m i b r k B I1 K1 R1 R2 _ _ _ D) as RD. cbv beta iota in RD.
  destruct d as [n|]; cbn [digit_ok header_fits digit_value] in *.
  - assert (E0 : indent0 = Z.of_nat i) by (unfold indent0; replace (Z.of_N n =? 0)%Z with false by lia; lia). rewrite E0 in *. clear E0 indent0.
    specialize (RD 1%nat (tail_breaks 1 s) (S (length (w ++ rest))) [] false [] 0%Z [] m1 m1 T eq_refl (Nat.le_refl _)).
    assert (Mo : mode_ok literal Kept 1 false [] []) by (split; [right; right; reflexivity|reflexivity]). specialize (RD Mo C1 (Nat.lt_succ_diag_r _)). fold rest in RD.
    unfold bk, bind at 1 in RD. unfold bind at 1. destruct (loop (sb_body m (Z.of_nat i)) (0%Z, [], m1) (fc (w ++ rest) m1)) as [[[mx br] e] c'|er| |]; cbn [bends] in RD; try contradiction.
    unfold b_done, sb_done in RD. unfold sb_done. replace (Z.of_nat i =? 0)%Z with false in * by lia. cbv iota in *. rewrite r_ret in RD. unfold ret at 1 in RD. cbn [bends] in RD.
    destruct RD as (_ & Fc & [[[[s1 l1] t1] lb1] e1] & c2 & El & (t2 & m2 & Ec & V & Et & Em)).
    rewrite r_ret. cbv beta iota. rewrite Fc, r_cache. unfold bind at 1. rewrite Fc in El. rewrite El. subst c2 t2. unfold fin1. cbn [app holding utf8] in V.
    exists e1, m2. split; [|exact Em]. unfold ret. unfold chomped in V. fold ch in V. rewrite V. reflexivity.
  - destruct Hf as (Hp & Hb & Hk). unfold indent0 in *. clear indent0. change (0 =? 0)%Z with true in *. cbv iota in *.
    inversion D as [ | | | | |? c s' w' K D'|? c s' w' Z M1 M2 D'|]; subst; [exfalso; cbn in Hk; destruct K as [-> | [-> | ->]]; discriminate| |contradiction].
    cbn [nth] in Hb, Hk. rewrite <- app_assoc. cbn [app].
    destruct (sb_last m 0 0 [] m1 i (c :: w' ++ rest) m1 C1 (or_introl eq_refl) (or_introl Hb) Hk) as (m2 & C2 & E2).
    unfold bind at 1. rewrite E2. unfold sb_done. change (0 =? 0)%Z with true. cbv iota. rewrite r_ret.
    replace (Z.max (Z.max (Z.max 0 (Z.of_nat i)) (pindent + 1)) 1) with (Z.of_nat i) by lia. rewrite r_cache.
    pose proof (bt_read g literal pindent m i b r k B I1 K1 R1 R2 _ _ _ D') as RD'. cbv beta iota in RD'. cbn [tail_breaks] in T, ch. rewrite Hk in T. 
    specialize (RD' (tail_breaks 0 s') (length (c :: w' ++ rest)) (utf8_enc c) (next_column 1 m2) T eq_refl). fold rest in RD'.
    assert (BE : bends literal pindent (Z.of_nat i) m (value_is r k (tail_breaks 0 s') (utf8_enc c ++ utf8 s')) (length (c :: w' ++ rest)) (b_body literal pindent (Z.of_nat i) m ([], [], [], false, m1) (fc (c :: w' ++ rest) m2))).
    { apply b_line; [lia|exact Z|]. cbn [nth]. unfold joined. cbn [starts_lf]. rewrite andb_false_r. cbn [andb app]. apply bw_char; [exact Z|]. cbn [app]. apply RD'. cbn [length]. lia. }
    assert (BR := bends_round literal pindent (Z.of_nat i) m (value_is r k (tail_breaks 0 s') (utf8_enc c ++ utf8 s')) (S (length (c :: w' ++ rest))) (c :: w' ++ rest) ([], [], [], false, m1) m2 (Nat.lt_succ_diag_r _) BE).
    cbn [bends] in BR. destruct BR as (_ & _ & [[[[s1 l1] t1] lb1] e1] & c2 & El & (t2 & m3 & Ec & V & Et & Em)).
    unfold bind at 1. rewrite El. subst c2 t2. unfold fin1. exists e1, m3. split; [|exact Em]. unfold ret. unfold chomped in V. cbn [tail_breaks] in *. unfold ch in *. rewrite Hk in *. change (utf8 (c :: s')) with (utf8_enc c ++ utf8 s'). rewrite V. reflexivity.
Qed.

(* ---- what the emitter writes ---- *)
Lemma breakz_printable u c : special u c = false -> is_break c = false -> is_breakz c = false /\ is_blankz c = is_blank c.
Proof.
  intros S Bc. unfold is_blankz, is_breakz, is_z. rewrite Bc. destruct (N.eqb_spec c 0) as [->|]; [discriminate|]. cbn [orb]. rewrite orb_false_r. auto.
Qed.
Lemma wbreak_state g c p : p_column (pwrite_break g c p) = 0%Z.
Proof. unfold pwrite_break. destruct (c =? 0xA); reflexivity. Qed.
Lemma literal_text g i u : (1 <= i)%Z -> forall s (breaks : bool) p, existsb (special u) s = false ->
  (if breaks then p_indention p = true /\ p_column p = 0%Z else True) ->
  exists w, chars (literal_loop g i breaks s p) = chars p ++ w /\
    if breaks then bt g true (Z.to_nat i) (AtBreak Kept) s w else forall lb, bt g true (Z.to_nat i) (InLine lb) s w.
Proof.
  intros Hi s. induction s as [|c s IH]; intros breaks p F H.
  - exists []. cbn [literal_loop]. rewrite app_nil_r. split; [reflexivity|]. destruct breaks; [apply bt_stop; discriminate|]. intros lb. apply bt_end.
  - cbn [existsb] in F. apply orb_false_iff in F as [Fc F]. cbn [literal_loop]. destruct (is_break c) eqn:Bc.
    + destruct (IH true (set_indention (pwrite_break g c p) true) F) as (w & E & D); [split; [reflexivity|exact (wbreak_state g c p)]|].
      exists (break_text g c ++ w). rewrite E, chars_indention, chars_wbreak, <- app_assoc. split; [reflexivity|]. pose proof (printable_break u c Fc Bc) as K.
      destruct breaks; [apply bt_more; assumption|]. intros lb. apply bt_break; [exact K|]. unfold mode_after. cbn [negb andb]. exact D.
    + destruct (breakz_printable u c Fc Bc) as [Z _]. destruct breaks.
      * destruct H as [H1 H2]. destruct (indent_pad g i p ltac:(lia) H1 H2) as (E1 & _).
        destruct (IH false (set_indention (pput c (write_indent g i p)) false) F I) as (w & E & D).
        exists (repeat 0x20 (Z.to_nat i) ++ c :: w). rewrite E, chars_indention, chars_put, E1, <- !app_assoc. split; [reflexivity|]. apply bt_start; [exact Z|discriminate|discriminate|apply D].
      * destruct (IH false (set_indention (pput c p) false) F I) as (w & E & D). exists (c :: w). rewrite E, chars_indention, chars_put, <- app_assoc. split; [reflexivity|]. intros lb. apply bt_char; [exact Z|apply D].
Qed.

(* a space is followed by a character of the same line *)
Fixpoint spaces_inside (s : list N) : Prop :=
  match s with
  | [] => True
  | c :: r => (is_space c = true -> r <> [] /\ is_break (nth 0 r 0) = false) /\ spaces_inside r
  end.
Definition mode_promise (md : pending) (s : list N) : Prop :=
  match md with Kept => True | NeedBlank => is_blankz (after_breaks s) = true | NeedWord => is_blankz (after_breaks s) = false end.
Lemma special_tab u c : special u c = false -> is_tab c = false.
Proof. intros S. unfold is_tab. destruct (N.eqb_spec c 9) as [->|]; [discriminate|reflexivity]. Qed.
Lemma special_blank u c : special u c = false -> is_blank c = is_space c.
Proof. intros S. unfold is_blank. rewrite (special_tab u c S), orb_false_r. reflexivity. Qed.
(* no fold in a line that starts with a space *)
Fixpoint kept (i width : Z) (brk lead : bool) (col : Z) (s : list N) : bool :=
  match s with
  | [] => true
  | c :: r =>
      if is_break c then kept i width true lead 0 r
      else if negb brk && lead && is_space c && negb (is_space (next r)) && (col >? width)%Z then false
      else kept i width false (if brk then is_space c else lead) (if brk then i + 1 else col + 1) r
  end.
Definition outcome (g : cfg) (i : Z) (breaks leading lb : bool) (col : Z) (s v w : list N) : Prop :=
  (if breaks then forall md, mode_promise md s -> bt g false (Z.to_nat i) (AtBreak md) v w else bt g false (Z.to_nat i) (InLine lb) v w) /\
  (forall k, tail_breaks k v = tail_breaks k s) /\
  (forall c r, s = c :: r -> breaks = true \/ is_blankz c = false -> exists v', v = c :: v') /\
  (breaks = true \/ lb = leading ->
    if kept i (g_width g) breaks leading col s then v = s else exists u y z, v = u ++ 0xA :: y /\ s = u ++ 0x20 :: z).
Lemma tail_word s : is_blankz (after_breaks s) = false -> forall a b, tail_breaks a s = tail_breaks b s.
Proof. induction s as [|c s IH]; intros H a b; [discriminate|]. cbn [after_breaks tail_breaks] in *. destruct (is_break c); [apply (IH H)|reflexivity]. Qed.
Lemma differ_cons c (v s : list N) : (exists u y z, v = u ++ 0xA :: y /\ s = u ++ 0x20 :: z) -> exists u y z, c :: v = u ++ 0xA :: y /\ c :: s = u ++ 0x20 :: z.
Proof. intros (u & y & z & -> & ->). exists (c :: u), y, z. auto. Qed.
Lemma claim_cons c (v s : list N) (b : bool) : (if b then v = s else exists u y z, v = u ++ 0xA :: y /\ s = u ++ 0x20 :: z) ->
  if b then c :: v = c :: s else exists u y z, c :: v = u ++ 0xA :: y /\ c :: s = u ++ 0x20 :: z.
Proof. destruct b; [congruence|apply differ_cons]. Qed.
Lemma kept_plain i width c1 c2 s : kept i width false false c1 s = kept i width false false c2 s.
Proof. revert c1 c2. induction s as [|c s IH]; intros; cbn [kept]; [reflexivity|]. destruct (is_break c); [reflexivity|]. cbn [negb andb]. apply IH. Qed.

Lemma folded_any g i u : (1 <= i)%Z -> forall s (breaks leading lb : bool) col p, existsb (special u) s = false -> spaces_inside s ->
  (if breaks then p_indention p = true /\ p_column p = 0%Z
   else p_indention p = false /\ (leading = false -> lb = false) /\ (lb = true -> p_column p = col)) ->
  exists w v, chars (folded_loop g i breaks leading s p) = chars p ++ w /\ outcome g i breaks leading lb col s v w.
Proof.
  intros Hi s. induction s as [|c s IH]; intros breaks leading lb col p F Sp H.
  - exists [], []. cbn [folded_loop]. rewrite app_nil_r. split; [reflexivity|]. split; [|split; [reflexivity|split; [discriminate|reflexivity]]].
    destruct breaks; [|apply bt_end]. intros md M. apply bt_stop. intros ->. cbn in M. discriminate.
  - cbn [existsb] in F. apply orb_false_iff in F as [Fc F]. cbn [spaces_inside] in Sp. destruct Sp as [Sc Sp]. cbn [folded_loop].
    destruct (is_break c) eqn:Bc.
    + pose proof (printable_break u c Fc Bc) as K. cbn [after_breaks]. rewrite Bc.
      match goal with |- context [folded_loop g i true leading s ?q] => destruct (IH true leading lb 0%Z q F Sp) as (w & v & E & D & T & Hd & Cl) end.
      { split; [reflexivity|]. apply wbreak_state. }
      rewrite E, chars_indention, chars_wbreak.
      assert (Tc : forall k, tail_breaks k (c :: v) = tail_breaks k (c :: s)) by (intros k; cbn [tail_breaks]; apply T).
      assert (Hc : forall c0 r, c :: s = c0 :: r -> breaks = true \/ is_blankz c0 = false -> exists v', c :: v = c0 :: v') by (intros ? ? [= <- <-] _; eauto).
      assert (Cc : breaks = true \/ lb = leading -> if kept i (g_width g) breaks leading col (c :: s) then c :: v = c :: s else exists u y z, c :: v = u ++ 0xA :: y /\ c :: s = u ++ 0x20 :: z).
      { intros _. cbn [kept]. rewrite Bc. apply claim_cons. exact (Cl (or_introl eq_refl)). }
      destruct breaks; cbn [negb andb].
      * exists (break_text g c ++ w), (c :: v). rewrite <- app_assoc. split; [reflexivity|]. split; [|auto]. intros md M. apply bt_more; [exact K|]. apply D. destruct md; cbn [mode_promise after_breaks] in *; rewrite ?Bc in M; exact M.
      * destruct leading; cbn [negb andb].
        { destruct lb.
          { exists (break_text g c ++ w), (c :: v). rewrite <- app_assoc. split; [reflexivity|]. split; [|auto]. apply bt_break; [exact K|]. apply D. exact I. }
          (* the reader does not know that the line started with a space *)
          rewrite <- app_assoc. clear Cc. assert (NoCl : false = true \/ false = true -> if kept i (g_width g) false true col (c :: s) then c :: v = c :: s else exists u y z, c :: v = u ++ 0xA :: y /\ c :: s = u ++ 0x20 :: z) by (intros [|]; discriminate).
          destruct (N.eqb_spec c 0xA) as [->|Nl].
          2:{ exists (break_text g c ++ w), (c :: v). split; [reflexivity|]. split; [|auto]. apply bt_break; [exact K|]. unfold mode_after. replace (c =? 0xA) with false by (symmetry; apply N.eqb_neq; exact Nl). rewrite andb_false_r. apply D. exact I. }
          destruct (is_blankz (after_breaks s)) eqn:A.
          { exists (break_text g 0xA ++ w), (0xA :: v). split; [reflexivity|]. split; [|auto]. apply bt_break; [left; reflexivity|]. apply D. exact A. }
          destruct s as [|d s]; [discriminate|]. cbn [after_breaks] in A. destruct (Hd d s eq_refl (or_introl eq_refl)) as (v' & ->).
          destruct (is_break d) eqn:Bd.
          - specialize (D NeedWord ltac:(cbn [mode_promise after_breaks]; rewrite Bd; exact A)). exists (break_text g 0xA ++ w), (d :: v'). split; [reflexivity|]. split; [|split; [|split]].
            + inversion D as [ | | | | |? ? ? w' K' D'|? ? ? w' Z' M1 M2 D'|]; subst; [apply bt_extra; [reflexivity|exact K'|exact D']|]. exfalso. apply orb_false_iff in Z'. destruct Z'. congruence.
            + intros k. rewrite (T k). cbn [tail_breaks]. change (is_break 0xA) with true. rewrite Bd. cbv iota. apply tail_word. exact A.
            + intros ? ? [= <- <-] [X|X]; discriminate X.
            + intros [X|X]; discriminate X.
          - specialize (D Kept I). exists (break_text g 0xA ++ w), (0x20 :: d :: v'). split; [reflexivity|]. split; [|split; [|split]].
            + inversion D as [ | | | | |? ? ? w' K' D'|? ? ? w' Z' M1 M2 D'|]; subst; [exfalso; destruct K' as [-> | [-> | ->]]; discriminate Bd|].
              destruct (zb _ A) as (_ & A2 & _). rewrite A2 in D'. apply (bt_fold g false (Z.to_nat i) (d :: v') (d :: w')); [reflexivity|exact A|]. apply bt_char; assumption.
            + intros k. cbn [tail_breaks]. change (is_break 0x20) with false. change (is_break 0xA) with true. rewrite Bd. cbv iota. pose proof (T 0%nat) as T0. cbn [tail_breaks] in T0. rewrite Bd in T0. exact T0.
            + intros ? ? [= <- <-] [X|X]; discriminate X.
            + intros [X|X]; discriminate X. }
        destruct H as (H1 & H2 & H3). specialize (H2 eq_refl). subst lb.
        destruct (N.eqb_spec c 0xA) as [->|Nl]; cbn [andb].
        -- destruct (is_blankz (after_breaks s)) eqn:A; cbn [negb].
           ++ exists (break_text g 0xA ++ w), (0xA :: v). rewrite <- app_assoc. split; [reflexivity|]. split; [|auto]. apply bt_break; [left; reflexivity|]. apply D. exact A.
           ++ exists (break_chars g ++ break_text g 0xA ++ w), (0xA :: v). rewrite chars_break, <- !app_assoc. split; [reflexivity|]. split; [|auto]. apply bt_extra; [reflexivity|left; reflexivity|]. apply D. exact A.
        -- exists (break_text g c ++ w), (c :: v). rewrite <- app_assoc. split; [reflexivity|]. split; [|auto]. apply bt_break; [exact K|]. unfold mode_after. replace (c =? 0xA) with false by (symmetry; apply N.eqb_neq; exact Nl). rewrite andb_false_r. apply D. exact I.
    + destruct (breakz_printable u c Fc Bc) as [Z Zb]. destruct breaks; cbn [negb andb].
      * destruct H as [H1 H2]. destruct (indent_pad g i p ltac:(lia) H1 H2) as (E1 & E2 & _).
        destruct (IH false (is_blank c) (is_blank c) (i + 1)%Z (set_indention (pput c (write_indent g i p)) false) F Sp) as (w & v & E & D & T & Hd & Cl).
        { split; [reflexivity|]. split; [auto|]. intros _. change (p_column (set_indention (pput c (write_indent g i p)) false)) with (p_column (write_indent g i p) + 1)%Z. rewrite E2. reflexivity. }
        exists (repeat 0x20 (Z.to_nat i) ++ c :: w), (c :: v). rewrite E, chars_indention, chars_put, E1, <- !app_assoc. split; [reflexivity|]. split; [|split; [|split]].
        -- intros md M. apply bt_start; [exact Z| | |exact D]; intros ->; cbn [mode_promise after_breaks] in M; rewrite Bc, Zb in M; exact M.
        -- intros k. cbn [tail_breaks]. apply T.
        -- intros ? ? [= <- <-] _. eauto.
        -- intros _. cbn [kept]. rewrite Bc. cbn [negb andb]. apply claim_cons. rewrite <- (special_blank u c Fc). apply Cl. auto.
      * destruct H as (H1 & H2 & H3). destruct (is_space c && negb (is_space (next s)) && (p_column p >? g_width g)%Z) eqn:Fo.
        -- apply andb_true_iff in Fo as [Fo Wd]. apply andb_true_iff in Fo as [Fs Fn]. apply negb_true_iff in Fn. destruct (Sc Fs) as [Ne Nb]. pose proof Fs as Fs'. apply N.eqb_eq in Fs'. subst c.
           destruct (indent_break g i p ltac:(lia) (or_introl H1)) as (E1 & _).
           destruct s as [|d s]; [contradiction|]. cbn [next nth] in Fn, Nb.
           assert (Zd : is_blankz d = false) by (cbn [existsb] in F; apply orb_false_iff in F as [Fd _]; exact (printable_plain u d Fd Fn Nb)). destruct (zb _ Zd) as (Zd1 & Zd2 & Zd3).
           destruct (IH false leading false 0%Z (set_indention (write_indent g i p) false) F Sp) as (w & v & E & D & T & Hd & Cl); [split; [reflexivity|split; [auto|discriminate]]|].
           destruct (Hd d s eq_refl (or_intror Zd)) as (v' & ->).
           rewrite E, chars_indention, E1, <- !app_assoc. exists (break_chars g ++ repeat 0x20 (Z.to_nat i) ++ w). destruct lb.
           ++ (* here a space becomes a line break *)
              exists (0xA :: d :: v'). split; [reflexivity|]. assert (Ld : leading = true) by (destruct leading; [reflexivity|exfalso; discriminate (H2 eq_refl)]). subst leading. split; [|split; [|split]].
              ** inversion D as [|? ? ? w' Z' D'| |? ? ? w' K' D'|? ? w' ? K' D'| | |]; subst; try discriminate Zd; [|exfalso; destruct K' as [-> | [-> | ->]]; discriminate Zd3|exfalso; destruct K' as [-> | [-> | ->]]; discriminate Zd3].
                 change (break_chars g) with (break_text g 0xA). apply bt_break; [left; reflexivity|]. apply bt_start; [exact Z'|discriminate|discriminate|]. rewrite Zd2. exact D'.
              ** intros k. cbn [tail_breaks]. change (is_break 0x20) with false. change (is_break 0xA) with true. rewrite Zd3. cbv iota. pose proof (T 0%nat) as T0. cbn [tail_breaks] in T0. rewrite Zd3 in T0. exact T0.
              ** intros ? ? [= <- <-] [X|X]; discriminate X.
              ** intros _. cbn [kept]. change (is_break 0x20) with false. cbn [next nth]. rewrite Fn, <- (H3 eq_refl). cbn [negb andb]. change (is_space 0x20) with true. rewrite Wd. cbn [andb]. exists [], (d :: v'), (d :: s). auto.
           ++ exists (0x20 :: d :: v'). split; [reflexivity|]. split; [|split; [|split]].
              ** apply bt_fold; [reflexivity|exact Zd|exact D].
              ** intros k. cbn [tail_breaks]. change (is_break 0x20) with false. cbv iota. exact (T 0%nat).
              ** intros ? ? [= <- <-] [X|X]; discriminate X.
              ** intros [X|X]; [discriminate X|]. subst leading. change (kept i (g_width g) false false col (0x20 :: d :: s)) with (kept i (g_width g) false false (col + 1) (d :: s)). apply claim_cons. specialize (Cl (or_intror eq_refl)).
                 rewrite (kept_plain i _ _ 0%Z). exact Cl.
        -- destruct (IH false leading lb (col + 1)%Z (set_indention (pput c p) false) F Sp) as (w & v & E & D & T & Hd & Cl).
           { split; [reflexivity|]. split; [exact H2|]. intros L. change (p_column (set_indention (pput c p) false)) with (p_column p + 1)%Z. rewrite (H3 L). reflexivity. }
           exists (c :: w), (c :: v). rewrite E, chars_indention, chars_put, <- app_assoc. split; [reflexivity|]. split; [|split; [|split]].
           ++ apply bt_char; [exact Z|exact D].
           ++ intros k. cbn [tail_breaks]. rewrite Bc. apply T.
           ++ intros ? ? [= <- <-] _. eauto.
           ++ intros Q. cbn [kept]. rewrite Bc. cbn [negb andb]. assert (El : lb = leading) by (destruct Q; [discriminate|assumption]). subst leading.
              replace (lb && is_space c && negb (is_space (next s)) && (col >? g_width g)%Z) with false; [apply claim_cons; apply Cl; exact Q|].
              destruct lb; [|reflexivity]. cbn [andb]. rewrite <- (H3 eq_refl). symmetry. exact Fo.
Qed.

(* ---- which strings are kept ---- *)
Definition rest_kept (width col : Z) (s : list N) : Prop :=
  forall l v, s = l ++ 0x20 :: v -> existsb is_break l = false -> nth 0 v 0 <> 0x20 -> (col + Z.of_nat (length l) <= width)%Z.
Definition lines_kept (i width : Z) (brk : bool) (s : list N) : Prop :=
  forall u l v, s = u ++ 0x20 :: l ++ 0x20 :: v -> (u = [] /\ brk = true) \/ (u <> [] /\ is_break (last u 0) = true) -> existsb is_break l = false -> nth 0 v 0 <> 0x20 ->
    (i + 1 + Z.of_nat (length l) <= width)%Z.
Lemma lines_cons i width brk c s : is_break c = true \/ brk = false -> lines_kept i width brk (c :: s) <-> lines_kept i width (is_break c) s.
Proof.
  intros Hc. split.
  - intros H u l v E U. apply (H (c :: u) l v); [rewrite E; reflexivity|]. right. split; [discriminate|]. destruct u as [|d u]; [destruct U as [[_ U]|[U _]]; [exact U|contradiction]|]. destruct U as [[U _]|[_ U]]; [discriminate|exact U].
  - intros H u l v E U. destruct u as [|d u].
    + injection E as -> _. destruct U as [[_ U]|[U _]]; [|contradiction]. destruct Hc as [Hc|Hc]; [discriminate Hc|congruence].
    + injection E as -> E. apply (H u l v E). destruct U as [[U _]|[_ U]]; [discriminate|]. destruct u as [|d' u]; [left; auto|right]. split; [discriminate|exact U].
Qed.
Lemma rest_cons width col c s : is_break c = false -> rest_kept width col (c :: s) <-> ((c = 0x20 -> nth 0 s 0 <> 0x20 -> (col <= width)%Z) /\ rest_kept width (col + 1) s).
Proof.
  intros Bc. split.
  - intros H. split; [intros -> N; specialize (H [] s eq_refl eq_refl N); cbn in H; lia|]. intros l v -> L N. specialize (H (c :: l) v eq_refl). cbn [existsb length] in H. rewrite Bc in H. specialize (H L N). lia.
  - intros [H1 H2] l v E L N. destruct l as [|d l]; [injection E as -> ->; specialize (H1 eq_refl N); cbn; lia|]. injection E as -> E. cbn [existsb] in L. apply orb_false_iff in L as [_ L]. specialize (H2 l v E L N). cbn [length]. lia.
Qed.
Lemma lines_start i width c s : is_break c = false -> lines_kept i width true (c :: s) <-> ((c = 0x20 -> rest_kept width (i + 1) s) /\ lines_kept i width false s).
Proof.
  intros Bc. split.
  - intros H. split.
    + intros -> l v -> L N. exact (H [] l v eq_refl (or_introl (conj eq_refl eq_refl)) L N).
    + intros u l v -> [[_ U]|[U1 U2]] L N; [discriminate|]. apply (H (c :: u) l v eq_refl); [|exact L|exact N]. right. split; [discriminate|]. destruct u; [contradiction|exact U2].
  - intros [H1 H2] u l v E U L N. destruct u as [|d u]; [injection E as -> ->; exact (H1 eq_refl l v eq_refl L N)|]. injection E as -> E.
    destruct U as [[U _]|[_ U]]; [discriminate|]. destruct u as [|d' u]; [cbn in U; congruence|]. apply (H2 (d' :: u) l v E); [|exact L|exact N]. right. split; [discriminate|exact U].
Qed.
Lemma kept_spec i width s : forall brk lead col, kept i width brk lead col s = true <-> ((brk = false -> lead = true -> rest_kept width col s) /\ lines_kept i width brk s).
Proof.
  induction s as [|c s IH]; intros brk lead col.
  - split; [|reflexivity]. intros _. split; [intros _ _ l v E|intros u l v E]; destruct l, u || destruct l; discriminate E.
  - cbn [kept]. destruct (is_break c) eqn:Bc.
    + rewrite IH, (lines_cons i width brk c s) by auto. rewrite Bc. split.
      * intros [_ H]. split; [|exact H]. intros _ _ l v E L. destruct l as [|d l]; injection E as -> E; [discriminate Bc|]. cbn [existsb] in L. rewrite Bc in L. discriminate L.
      * intros [_ H]. split; [discriminate|exact H].
    + destruct brk; cbn [negb andb].
      * rewrite IH, lines_start by exact Bc. unfold is_space. split.
        -- intros [H1 H2]. split; [discriminate|]. split; [|exact H2]. intros ->. apply H1; reflexivity.
        -- intros [_ [H1 H2]]. split; [|exact H2]. intros _ Hc. apply N.eqb_eq in Hc. exact (H1 Hc).
      * rewrite (lines_cons i width false c s) by auto. rewrite Bc. destruct lead; cbn [andb].
        -- unfold is_space, next. destruct (N.eqb_spec c 0x20) as [->|Nc]; cbn [andb].
           ++ destruct (N.eqb_spec (nth 0 s 0) 0x20) as [Ns|Ns]; cbn [negb andb].
              ** rewrite IH. split; (intros [H1 H2]; split; [|exact H2]); intros X Y; specialize (H1 X Y); rewrite rest_cons in * by exact Bc; intuition.
              ** destruct (Z.gtb_spec col width); [split; [discriminate|]|].
                 { intros [X _]. specialize (X eq_refl eq_refl). apply rest_cons in X; [|exact Bc]. destruct X as [X _]. specialize (X eq_refl Ns). lia. }
                 rewrite IH. split; (intros [H1 H2]; split; [|exact H2]); intros X Y; specialize (H1 X Y); rewrite rest_cons in * by exact Bc; intuition.
           ++ rewrite IH. split; (intros [H1 H2]; split; [|exact H2]); intros X Y; specialize (H1 X Y); rewrite rest_cons in * by exact Bc; intuition.
        -- rewrite IH. split; (intros [H1 H2]; split; [discriminate|exact H2]).
Qed.
Lemma lines_kept_spec i width s : lines_kept i width true s <-> indented_lines_fit i width s.
Proof.
  split; intros H u l v E U; apply (H u l v E).
  - destruct u as [|c u]; [left; auto|right]. split; [discriminate|]. destruct U as [U|U]; [discriminate|exact U].
  - destruct U as [[-> _]|[_ U]]; auto.
Qed.

(* ---- the analysis ---- *)
Fixpoint space_then_break (ps : bool) (s : list N) : bool :=
  match s with
  | [] => false
  | c :: r => negb (is_space c) && is_break c && ps || space_then_break (is_space c) r
  end.
Lemma space_break_flag u s : forall first pre ps pb f, f_space_break (flag_loop u first pre ps pb s f) = f_space_break f || space_then_break ps s.
Proof.
  induction s as [|c r IH]; intros first pre ps pb f; cbn [flag_loop space_then_break]; cbv zeta; [rewrite orb_false_r; reflexivity|].
  destruct (indicators_at first pre (is_blankz (next r)) c) as [bi fi]. rewrite IH. cbn [f_space_break]. rewrite <- orb_assoc. reflexivity.
Qed.
Lemma inside_of s : forall ps, space_then_break ps s = false -> is_space (last s 0) = false -> spaces_inside s.
Proof.
  induction s as [|c r IH]; intros ps H L; [exact I|]. cbn [space_then_break] in H. apply orb_false_iff in H as [_ H]. cbn [spaces_inside]. destruct r as [|d r].
  - split; [|exact I]. intros S. cbn [last] in L. congruence.
  - split; [|apply (IH (is_space c) H); exact L]. intros S. split; [discriminate|]. cbn [nth]. rewrite S in H. cbn [space_then_break] in H. apply orb_false_iff in H as [H _].
    destruct (is_break d) eqn:Bd; [|reflexivity]. destruct (is_space d) eqn:Sd; [apply N.eqb_eq in Sd; subst d; discriminate|]. discriminate.
Qed.
Lemma block_facts u s d : a_block (analyze_scalar u s d) = true -> s <> [] /\ existsb (special u) s = false /\ spaces_inside s.
Proof.
  unfold analyze_scalar. destruct s as [|c r]; [discriminate|]. set (s := c :: r) in *. cbv zeta. cbn [a_block]. intros H. split; [discriminate|].
  unfold scalar_flags in H. match goal with H : context [flag_loop u true true false false s ?f0] |- _ => pose proof (flag_facts u s true true false false f0) as K; pose proof (edge_flags u s true true false false f0) as E; pose proof (space_break_flag u s true true false false f0) as W; set (f' := flag_loop u true true false false s f0) in * end.
  cbv zeta in K, E. destruct K as (_ & K & _), E as [_ E]. cbn [f_special f_tspace f_space_break orb] in K, E, W.
  apply andb_true_iff in H as [H1 H2]. rewrite negb_orb in H2. apply andb_true_iff in H2 as [H2 H3]. apply negb_true_iff in H1, H2, H3. rewrite H3 in K. rewrite H1 in E. rewrite H2 in W. symmetry in K, E, W. split; [exact K|].
  apply (inside_of s false W). replace (nlen s =? 0) with false in E; [exact E|]. symmetry. apply N.eqb_neq. unfold nlen, s. cbn [length]. lia.
Qed.
(* ---- the hints ---- *)
Lemma tail_snoc s c : forall n, tail_breaks n (s ++ [c]) = if is_break c then S (tail_breaks n s) else O.
Proof. induction s as [|x s IH]; intros n; cbn [app tail_breaks]; [reflexivity|apply IH]. Qed.
Lemma tail_pos s c n : tail_breaks (S n) (s ++ [c]) = O -> is_break c = false.
Proof. rewrite tail_snoc. destruct (is_break c); [discriminate|reflexivity]. Qed.
Lemma chomp_hint_text s : s <> [] -> fst (chomp_hint s) = chomp_text (chomp_of (tail_breaks 1 s)).
Proof.
  intros N. destruct (exists_last N) as (s' & c & ->). unfold chomp_hint. rewrite rev_app_distr. cbn [rev app]. rewrite tail_snoc. destruct (is_break c); [|reflexivity]. cbn [negb].
  destruct s' as [|x s0] eqn:Es; [reflexivity|]. assert (N' : s' <> []) by (rewrite Es; discriminate). rewrite <- Es in *. destruct (exists_last N') as (s1 & y & ->). rewrite rev_app_distr. cbn [rev app]. rewrite tail_snoc.
  destruct (is_break y); reflexivity.
Qed.
Definition digit_of (g : cfg) (s : list N) : option N := if is_space (next s) || is_break (next s) then Some (Z.to_N (g_indent g)) else None.
Lemma hints_text g s p : s <> [] -> chars (write_hints g s p) = chars p ++ digit_text (digit_of g s) ++ chomp_text (chomp_of (tail_breaks 1 s)).
Proof.
  intros N. rewrite <- (chomp_hint_text s N). unfold write_hints, digit_of.
  assert (I : forall x q, chars (write_indicator x false false false q) = chars q ++ x).
  { intros x q. destruct (indicator_text x false false false q) as (sp & E & Es & _). cbn [andb] in Es. subst sp. exact E. }
  destruct (chomp_hint s) as [h o]. cbn [fst]. destruct (is_space (next s) || is_break (next s)); cbn [digit_text app]; destruct h; rewrite ?I, ?chars_open, ?I, <- ?app_assoc; cbn [app]; rewrite ?app_nil_r; reflexivity.
Qed.

(* ---- every buffer ---- *)
Lemma block_any_buffer pindent literal c t r tok : at_text c t -> nth 0 t 0 <> 0 -> is_break (nth 0 t 0) = false ->
  (exists m', scan_block_scalar pindent literal (fc t (c_mark c)) = COk tok (fc r m')) ->
  exists c', scan_block_scalar pindent literal c = COk tok c' /\ c_text c' = r.
Proof.
  intros (T & Bd & U) Z Bk [m' E]. pose proof (free_scan_block_scalar pindent literal c (conj Bd (eq_ind_r (fun x => (c_unread c <= S (length x))%nat) (proj2 U) T))) as K. rewrite fc_full, T, E in K.
  assert (W : wp (scan_block_scalar pindent literal) c (fun _ _ => True) (epos t (c_mark c) (Some (c_mark c)))).
  { apply (p_scan_block_scalar pindent literal t (c_mark c) c); [|exact Z|exact Bk|auto]. split; [exact T|]. split; [reflexivity|]. lia. }
  unfold wp in W. destruct (scan_block_scalar pindent literal c) as [tk c'|er| |]; try contradiction; try discriminate.
  destruct K as [K _]. injection K as <- H2 _ H3. exists c'. auto.
Qed.
Lemma folded_written g i s p : (1 <= i)%Z -> s <> [] -> existsb (special (g_unicode g)) s = false -> spaces_inside s ->
  exists w v, chars (write_folded g i s p) =
    chars p ++ (if p_white p then [] else [0x20]) ++ 0x3E :: digit_text (digit_of g s) ++ chomp_text (chomp_of (tail_breaks 1 s)) ++ break_chars g ++ w /\
    bt g false (Z.to_nat i) (AtBreak Kept) v w /\ tail_breaks 1 v = tail_breaks 1 s /\ nth 0 v 0 = nth 0 s 0 /\ v <> [] /\
    if kept i (g_width g) true true 0 s then v = s else exists u y z, v = u ++ 0xA :: y /\ s = u ++ 0x20 :: z.
Proof.
  intros Hi Ns F Sp.
  assert (Hd : chars (set_white (put_break g (write_hints g s (write_indicator [0x3E] true false false p))) true true) =
    chars p ++ (if p_white p then [] else [0x20]) ++ 0x3E :: digit_text (digit_of g s) ++ chomp_text (chomp_of (tail_breaks 1 s)) ++ break_chars g).
  { rewrite chars_white, chars_break, (hints_text g s _ Ns). destruct (indicator_text [0x3E] true false false p) as (sp & E & Es & _). rewrite E, Es. destruct (p_white p); cbn [andb negb]; rewrite <- !app_assoc; cbn [app]; rewrite <- ?app_assoc; reflexivity. }
  unfold write_folded. destruct (folded_any g i (g_unicode g) Hi s true true true 0%Z (set_white (put_break g (write_hints g s (write_indicator [0x3E] true false false p))) true true) F Sp (conj eq_refl eq_refl)) as (w & v & E & D & T & H & Cl).
  exists w, v. rewrite E, Hd. split; [rewrite <- !app_assoc; cbn [app]; rewrite <- !app_assoc; reflexivity|]. split; [apply D; exact I|]. split; [apply T|].
  destruct s as [|c r]; [contradiction|]. destruct (H c r eq_refl (or_introl eq_refl)) as [v' ->]. split; [reflexivity|]. split; [discriminate|]. apply Cl. auto.
Qed.
Lemma block_text g i s p (literal : bool) : (1 <= i)%Z -> s <> [] -> existsb (special (g_unicode g)) s = false -> spaces_inside s ->
  (literal = false -> indented_lines_fit i (g_width g) s) ->
  exists w, chars (if literal then write_literal g i s p else write_folded g i s p) =
    chars p ++ (if p_white p then [] else [0x20]) ++ (if literal then 0x7C else 0x3E) :: digit_text (digit_of g s) ++ chomp_text (chomp_of (tail_breaks 1 s)) ++ break_chars g ++ w /\
    bt g literal (Z.to_nat i) (AtBreak Kept) s w.
Proof.
  intros Hi Ns F Sp Na.
  assert (Hd : forall x, chars (set_white (put_break g (write_hints g s (write_indicator [x] true false false p))) true true) =
    chars p ++ (if p_white p then [] else [0x20]) ++ x :: digit_text (digit_of g s) ++ chomp_text (chomp_of (tail_breaks 1 s)) ++ break_chars g).
  { intros x. rewrite chars_white, chars_break, (hints_text g s _ Ns). destruct (indicator_text [x] true false false p) as (sp & E & Es & _). rewrite E, Es. destruct (p_white p); cbn [andb negb]; rewrite <- !app_assoc; cbn [app]; rewrite <- ?app_assoc; reflexivity. }
  destruct literal.
  - unfold write_literal. destruct (literal_text g i (g_unicode g) Hi s true (set_white (put_break g (write_hints g s (write_indicator [0x7C] true false false p))) true true) F (conj eq_refl eq_refl)) as (w & E & D).
    exists w. rewrite E, Hd. split; [|exact D]. rewrite <- !app_assoc. cbn [app]. rewrite <- !app_assoc. reflexivity.
  - destruct (folded_written g i s p Hi Ns F Sp) as (w & v & E & D & _ & _ & _ & Cl).
    replace (kept i (g_width g) true true 0 s) with true in Cl by (symmetry; apply kept_spec; split; [discriminate|apply lines_kept_spec; exact (Na eq_refl)]).
    subst v. exists w. auto.
Qed.
Theorem block_round_trip g i s p d (literal : bool) pindent : g_break g <> AnyBreak -> (2 <= g_indent g <= 9)%Z ->
  ((pindent = -1 /\ i = g_indent g) \/ (0 <= pindent /\ i = pindent + g_indent g))%Z ->
  a_block (analyze_scalar (g_unicode g) s d) = true -> (literal = false -> indented_lines_fit i (g_width g) s) ->
  exists sp w, (sp = [] \/ sp = [0x20]) /\ written (if literal then write_literal g i s p else write_folded g i s p) = written p ++ sp ++ w /\
    forall rest r c, block_ends i s rest r -> at_text c (w ++ rest) ->
      exists c' e, scan_block_scalar pindent literal c = COk (mkToken (TScalar (utf8 s) (if literal then Literal else Folded)) (c_mark c) e false) c' /\ c_text c' = r.
Proof.
  intros B Gi Pi A Na. destruct (block_facts _ _ _ A) as (Ns & F & Sp). assert (Hi : (1 <= i)%Z) by lia.
  destruct (block_text g i s p literal Hi Ns F Sp Na) as (w & E & D).
  exists (if p_white p then [] else [0x20]), ((if literal then 0x7C else 0x3E) :: digit_text (digit_of g s) ++ chomp_text (chomp_of (tail_breaks 1 s)) ++ break_chars g ++ w).
  split; [destruct (p_white p); auto|]. split; [exact E|]. intros rest r c (b & k & -> & Hk & R1 & R2 & Tb) At.
  assert (T : tail_ok b (tail_breaks 1 s)).
  { destruct (exists_last Ns) as (s' & x & Es). rewrite Es in *. rewrite last_last in Tb. unfold tail_ok. rewrite tail_snoc. destruct (is_break x); exact Tb. }
  cbn [app] in At. rewrite <- !app_assoc in At.
  destruct (block_scanned g literal pindent (Z.to_nat i) s w b r k (digit_of g s) (if literal then 0x7C else 0x3E) (c_mark c) B ltac:(lia) ltac:(lia) R1 R2 Ns) as (e & m' & X & _).
  - unfold digit_of. destruct (is_space (next s) || is_break (next s)); cbn [digit_ok]; [lia|exact I].
  - unfold digit_of. destruct (is_space (next s) || is_break (next s)) eqn:Hs; cbn [header_fits].
    + destruct (Z.leb_spec 0 pindent); lia.
    + apply orb_false_iff in Hs as [Hs1 Hs2]. split; [lia|]. split; [|exact Hs2]. destruct s as [|x s]; [contradiction|]. cbn [existsb next nth] in *. apply orb_false_iff in F as [Fx _]. rewrite (special_blank _ _ Fx). exact Hs1.
  - exact D.
  - exact T.
  - destruct (block_any_buffer pindent literal c _ r (mkToken (TScalar (utf8 s) (if literal then Literal else Folded)) (c_mark c) e false) At) as (c' & Y1 & Y2); [destruct literal; discriminate|destruct literal; reflexivity|exists m'; exact X|]. exists c', e. auto.
Qed.
