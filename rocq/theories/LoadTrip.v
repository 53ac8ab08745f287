(* Documents are dumped, written, read and loaded back. *)
From Verif Require Import Base ReaderModel ReaderSpec Utf8Spec Types TreeSpec GrammarSpec DocModel DocSpec WriterModel WriterSpec PenModel EmitModel EmitIOModel EmitSpec RoundSpec AgreeSpec ParserModel ParserSpec LoaderModel LoaderSpec LoaderFinal DumperModel DumperSpec DumperFinal TripSpec DocTrip LoadSpec.
From Verif Require ScannerModel ScannerSpec EmitInv EmitOut EmitWrite EmitSettings EventAcc EmitLoop.

(* ---- UTF-8 and ASCII ---- *)
Lemma utf8_ascii l : Forall (fun c => c < 0x80) l -> utf8 l = l.
Proof. induction 1 as [|c l H F IH]; [reflexivity|]. unfold utf8 in *. cbn [flat_map]. rewrite IH. unfold utf8_enc. destruct (N.ltb_spec c 0x80); [reflexivity|lia]. Qed.
Lemma utf8_from_ascii d : forall t, Forall (fun c => c < 0x80) d -> utf8 t = d -> t = d.
Proof.
  intros t F. revert t. induction F as [|x d H F IH]; intros [|c t] E; try reflexivity.
  - unfold utf8, utf8_enc in E. cbn [flat_map] in E. destruct (c <? 0x80); [discriminate|]. destruct (c <? 0x800); [discriminate|]. destruct (c <? 0x10000); discriminate.
  - discriminate.
  - unfold utf8 in E. cbn [flat_map] in E. unfold utf8_enc in E at 1. destruct (c <? 0x80).
    + injection E as -> E. rewrite (IH t E). reflexivity.
    + destruct (c <? 0x800); [injection E as E _; exfalso; lia|]. destruct (c <? 0x10000); injection E as E _; exfalso; lia.
Qed.
Lemma ascii_scalar_tag : Forall (fun c => c < 0x80) default_scalar_tag. Proof. repeat constructor. Qed.
Lemma ascii_sequence_tag : Forall (fun c => c < 0x80) default_sequence_tag. Proof. repeat constructor. Qed.
Lemma ascii_mapping_tag : Forall (fun c => c < 0x80) default_mapping_tag. Proof. repeat constructor. Qed.
Lemma default_iff dt (b : bool) t : Forall (fun c => c < 0x80) dt -> (b = true <-> t = dt) -> (b = true <-> utf8 t = dt).
Proof. intros A [H1 H2]. split; [intros E; rewrite (H1 E); apply utf8_ascii; exact A|intros E; apply H2; apply utf8_from_ascii; assumption]. Qed.

(* ---- the dumped tree in UTF-8 ---- *)
Fixpoint utf8_tree (x : tree) : tree :=
  match x with
  | Alias a => Alias a
  | Scalar a t v pi qi s => Scalar a (option_map utf8 t) (utf8 v) pi qi s
  | Sequence a t i s xs => Sequence a (option_map utf8 t) i s (map utf8_tree xs)
  | Mapping a t i s ps => Mapping a (option_map utf8 t) i s (map (fun p => (utf8_tree (fst p), utf8_tree (snd p))) ps)
  end.
Definition utf8_dt (d : doc_tree) : doc_tree := mkDocTree (dt_version d) (utf8_tags (dt_tags d)) (dt_start_implicit d) (utf8_tree (dt_root d)) (dt_end_implicit d).

Lemma node_utf8 d i : node_at (utf8_doc d) i = option_map utf8_node (node_at d i).
Proof. destruct i; [reflexivity|]. cbn. apply nth_error_map. Qed.
Lemma children_utf8 n : children (utf8_node n) = children n.
Proof. unfold children, utf8_node. cbn. destruct (n_data n); reflexivity. Qed.
Lemma reachable_utf8 d i : reachable (utf8_doc d) i <-> reachable d i.
Proof.
  split; induction 1 as [|i n c R IH E I]; try constructor.
  - rewrite node_utf8 in E. destruct (node_at d i) as [m|] eqn:M; [|discriminate]. injection E as <-. rewrite children_utf8 in I. eapply R_child; eassumption.
  - eapply R_child; [exact IH|rewrite node_utf8, E; reflexivity|rewrite children_utf8; exact I].
Qed.
Lemma children_at_utf8 d i : children_at (utf8_doc d) i = children_at d i.
Proof. unfold children_at. rewrite node_utf8. destruct (node_at d i); [apply children_utf8|reflexivity]. Qed.
Lemma references_utf8 d l i : references (utf8_doc d) l i = references d l i.
Proof. unfold references. f_equal. f_equal. apply flat_map_ext. apply children_at_utf8. Qed.
Lemma flat_utf8 (ps : list (tree * tree)) : flat_map (fun p => [fst p; snd p]) (map (fun p => (utf8_tree (fst p), utf8_tree (snd p))) ps) = map utf8_tree (flat_map (fun p => [fst p; snd p]) ps).
Proof. induction ps as [|[a b] r IH]; [reflexivity|]. cbn. rewrite IH. reflexivity. Qed.
Lemma presents_list_utf8 d name ts : Forall (fun t => forall o, presents d name o t -> presents (utf8_doc d) name o (utf8_tree t)) ts ->
  forall kids, Forall2 (presents d name) kids ts -> Forall2 (presents (utf8_doc d) name) kids (map utf8_tree ts).
Proof. induction 1 as [|t ts H F IH]; intros kids K; inversion K; subst; [constructor|]. cbn. constructor; auto. Qed.
Lemma presents_utf8 d name t : forall o, presents d name o t -> presents (utf8_doc d) name o (utf8_tree t).
Proof.
  induction t as [a|a tag v pi qi st|a tag im st items IH|a tag im st pairs IH] using tree_induction; intros o P; inversion P; subst; cbn [utf8_tree option_map].
  - constructor. assumption.
  - match goal with E : node_at d _ = Some ?n, D : n_data ?n = _ |- _ => pose proof E as E'; pose proof D as D' end.
    apply (P_scalar _ _ i (utf8_node n)); [rewrite node_utf8, E'; reflexivity|unfold utf8_node; cbn; rewrite D'; reflexivity|apply (default_iff _ _ _ ascii_scalar_tag); assumption|apply (default_iff _ _ _ ascii_scalar_tag); assumption].
  - match goal with E : node_at d _ = Some ?n, D : n_data ?n = _ |- _ => pose proof E as E'; pose proof D as D' end.
    apply (P_sequence _ _ i (utf8_node n)); [rewrite node_utf8, E'; reflexivity|unfold utf8_node; cbn; rewrite D'; reflexivity|apply (default_iff _ _ _ ascii_sequence_tag); assumption|].
    apply presents_list_utf8; assumption.
  - match goal with E : node_at d _ = Some ?n, D : n_data ?n = _ |- _ => pose proof E as E'; pose proof D as D' end.
    eapply (P_mapping _ _ i (utf8_node n)); [rewrite node_utf8, E'; reflexivity|unfold utf8_node; cbn; rewrite D'; reflexivity|apply (default_iff _ _ _ ascii_mapping_tag); assumption|eassumption|].
    rewrite flat_utf8. apply presents_list_utf8; [|assumption]. apply flat_Forall. exact IH.
Qed.
Lemma dumped_utf8 d dt : dumped d dt -> dumped (utf8_doc d) (utf8_dt dt).
Proof.
  intros (V & T & S & E & o & name & OI & P & (N & R & A) & (X & I)).
  split; [exact V|]. split; [cbn; rewrite T; reflexivity|]. split; [exact S|]. split; [exact E|]. exists o, name. split; [exact OI|]. split; [apply presents_utf8; exact P|].
  split; [split; [exact N|split; [|exact A]]|split; [|exact I]].
  - intros i. rewrite R. symmetry. apply reachable_utf8.
  - intros i Ri. apply (proj1 (reachable_utf8 d i)) in Ri. rewrite (X i Ri), references_utf8. reflexivity.
Qed.

(* ---- what is read is the dumped tree up to styles ---- *)
Section Same.
Variable canonical : bool.
Notation ss := (scalar_style_read canonical).
Notation cs := (coll_styles canonical).
Notation se := (same_event ss cs).

Lemma list_same xs : Forall (fun x => forall x' o d name, presents d name o x -> agrees canonical x x' -> Forall2 se (events_of (utf8_tree x)) (events_of x')) xs ->
  forall xs' kids d name, Forall2 (presents d name) kids xs -> Forall2 (agrees canonical) xs xs' -> Forall2 se (flat_map events_of (map utf8_tree xs)) (flat_map events_of xs').
Proof.
  induction 1 as [|x xs H F IH]; intros xs' kids d name K A; inversion A; subst; inversion K; subst; [constructor|]. cbn [map flat_map]. apply Forall2_app; [eapply H; eassumption|eapply IH; eassumption].
Qed.
Lemma tag_same dt t pi : Forall (fun c => c < 0x80) dt -> (pi = true <-> t = dt) -> forall t',
  (t' = Some (utf8 t) \/ pi = true /\ t' = None) -> tag_or_default (Some (utf8 t)) dt = tag_or_default t' dt.
Proof.
  intros A H t' [->|[Hp ->]]; [reflexivity|]. destruct H as [H _]. rewrite (H Hp), (utf8_ascii _ A). cbn. destruct (list_eq_dec _ _ _); reflexivity.
Qed.
Lemma tree_same x : forall x' o d name, presents d name o x -> agrees canonical x x' -> Forall2 se (events_of (utf8_tree x)) (events_of x').
Proof.
  induction x as [a|a tag v pi qi st|a tag im st items IH|a tag im st pairs IH] using tree_induction; intros x' o d name P A; inversion A; subst; inversion P; subst; cbn [utf8_tree events_of option_map].
  - constructor; [constructor|constructor].
  - constructor; [|constructor]. constructor; [|assumption]. eapply tag_same; [exact ascii_scalar_tag|eassumption|].
    match goal with T : scalar_tag_read _ _ _ _ _ _ |- _ => unfold scalar_tag_read in T end.
    assert (E : pi = qi) by (match goal with H1 : pi = true <-> ?P, H2 : qi = true <-> ?P |- _ => destruct H1 as [Ha Hb], H2 as [Hc Hd]; clear - Ha Hb Hc Hd; destruct pi, qi; try reflexivity; [exact (eq_sym (Hd (Ha eq_refl)))|exact (Hb (Hc eq_refl))] end). subst qi.
    destruct canonical, pi; cbn [orb negb andb] in *; auto. right. split; [reflexivity|]. destruct style'; tauto.
  - constructor; [|apply Forall2_app; [eapply list_same; eassumption|constructor; [constructor|constructor]]].
    constructor; [|unfold coll_style_read, coll_styles in *; tauto]. eapply tag_same; [exact ascii_sequence_tag|eassumption|].
    match goal with T : coll_tag_read _ _ _ _ |- _ => unfold coll_tag_read in T end. destruct canonical, im; cbn [orb negb] in *; auto.
  - constructor; [|apply Forall2_app; [|constructor; [constructor|constructor]]].
    + constructor; [|unfold coll_style_read, coll_styles in *; tauto]. eapply tag_same; [exact ascii_mapping_tag|eassumption|].
      match goal with T : coll_tag_read _ _ _ _ |- _ => unfold coll_tag_read in T end. destruct canonical, im; cbn [orb negb] in *; auto.
    + rewrite !flat_events, flat_utf8. eapply list_same; [apply flat_Forall; exact IH|eassumption|].
      match goal with F : Forall2 _ pairs ?q |- _ => clear - F; induction F as [|[k w] [k' w'] r r' [F1 F2] F IHF] end; [constructor|]. cbn in *. constructor; [exact F1|]. constructor; assumption.
Qed.
Lemma doc_same d dt dt' : dumped d dt -> doc_agrees canonical dt dt' -> Forall2 se (doc_events (utf8_dt dt)) (doc_events dt').
Proof.
  intros (_ & _ & _ & _ & o & name & _ & P & _) (A1 & A2 & _ & _ & A). unfold doc_events. cbn [utf8_dt dt_version dt_tags dt_start_implicit dt_end_implicit dt_root].
  rewrite A1, A2. constructor; [constructor|]. apply Forall2_app; [eapply tree_same; eassumption|]. constructor; [constructor|constructor].
Qed.
End Same.

(* ---- depth ---- *)
Lemma nodes_app a b : nodes_of (a ++ b) = nodes_of a ++ nodes_of b.
Proof. unfold nodes_of. rewrite filter_app, map_app. reflexivity. Qed.
Lemma max_in l : l <> [] -> In (list_max l) l.
Proof.
  induction l as [|x l IH]; [congruence|]. intros _. destruct l as [|y l]; [left; cbn; lia|]. specialize (IH ltac:(discriminate)).
  change (list_max (x :: y :: l)) with (Nat.max x (list_max (y :: l))). destruct (Nat.max_spec x (list_max (y :: l))) as [[_ ->]|[_ ->]]; [right; exact IH|left; reflexivity].
Qed.
Definition has_path (d : document) (o : occ) (k : nat) : Prop :=
  k = O \/ exists l, path d (occ_id o) l /\ NoDup l /\ Forall (collection d) l /\ incl l (nodes_of (occurrences o)) /\ length l = k.
Lemma nodup_right {A} (a b : list A) : NoDup (a ++ b) -> NoDup b.
Proof. induction a as [|x a IH]; [auto|]. cbn. intros H. inversion H. auto. Qed.
Lemma nodup_left {A} (a b : list A) : NoDup (a ++ b) -> NoDup a.
Proof. induction a as [|x a IH]; [constructor|]. cbn. intros H. inversion H as [|? ? N M]; subst. constructor; [|auto]. intros I. apply N. apply in_or_app. auto. Qed.
Lemma kid_path d name i kids ts : Forall (fun t => forall o, presents d name o t -> NoDup (nodes_of (occurrences o)) -> has_path d o (height t)) ts ->
  Forall2 (presents d name) kids ts -> collection d i -> (forall k, In k kids -> In (occ_id k) (children_at d i)) ->
  NoDup (nodes_of (occurrences (ONode i kids))) -> has_path d (ONode i kids) (S (heights ts)).
Proof.
  intros F K C Ch N. right. cbn [occurrences] in *. change (nodes_of ((true, i) :: flat_map occurrences kids)) with (i :: nodes_of (flat_map occurrences kids)) in *.
  assert (B : heights ts = O \/ exists k, In k kids /\ exists l, path d (occ_id k) l /\ NoDup l /\ Forall (collection d) l /\ incl l (nodes_of (occurrences k)) /\ length l = heights ts).
  { unfold heights. destruct ts as [|t0 ts0] eqn:Et; [left; reflexivity|]. rewrite <- Et in *.
    assert (M : In (list_max (map height ts)) (map height ts)) by (apply max_in; subst ts; discriminate).
    apply in_map_iff in M as (t & E & I). apply in_split in I as (t1 & t2 & I). rewrite I in K. apply Forall2_app_inv_r in K as (k1 & k2 & K1 & K2 & ->). inversion K2 as [|k ? k3 ? Pk K3]; subst k2. subst.
    rewrite Forall_forall in F. destruct (F t ltac:(rewrite I; apply in_or_app; cbn; auto) k Pk) as [Z|Z].
    - inversion N as [|? ? _ N2]; subst. rewrite flat_map_app, nodes_app in N2. apply nodup_right in N2. cbn [flat_map] in N2. rewrite nodes_app in N2. exact (nodup_left _ _ N2).
    - left. rewrite <- E. exact Z.
    - right. exists k. split; [apply in_or_app; cbn; auto|]. rewrite <- E. exact Z. }
  inversion N as [|? ? N1 N2]; subst. destruct B as [->|(k & I & l & P & Nl & Cl & Il & Ll)].
  - exists [i]. split; [constructor|]. split; [repeat constructor; auto|]. split; [constructor; [exact C|constructor]|]. split; [|reflexivity]. intros x [<-|[]]. left. reflexivity.
  - assert (In2 : incl l (nodes_of (flat_map occurrences kids))).
    { intros x Hx. apply Il in Hx. apply in_split in I as (a & b & ->). rewrite flat_map_app. cbn [flat_map]. rewrite !nodes_app. apply in_or_app. right. apply in_or_app. auto. }
    exists (i :: l). split; [econstructor; [apply Ch; exact I|exact P]|]. split; [constructor; [intros Hx; apply N1, In2, Hx|exact Nl]|]. split; [constructor; assumption|].
    split; [|cbn; rewrite Ll; reflexivity]. intros x [<-|Hx]; [left; reflexivity|right; apply In2, Hx].
Qed.
Lemma heights_flat (ps : list (tree * tree)) : list_max (map (fun p => Nat.max (height (fst p)) (height (snd p))) ps) = heights (flat_map (fun p => [fst p; snd p]) ps).
Proof. unfold heights. induction ps as [|[a b] r IH]; [reflexivity|]. cbn [map flat_map app fst snd] in *. cbn [list_max fold_right] in *. unfold list_max in *. cbn [map fold_right]. rewrite IH. lia. Qed.
Lemma tree_path d name t : forall o, presents d name o t -> NoDup (nodes_of (occurrences o)) -> has_path d o (height t).
Proof.
  induction t as [a|a tag v pi qi st|a tag im st items IH|a tag im st pairs IH] using tree_induction; intros o P N; inversion P; subst; try (left; reflexivity); cbn [height].
  - apply (kid_path d name i kids items); try assumption.
    + exists n. split; [assumption|]. match goal with D : n_data n = _ |- _ => rewrite D end. exact I.
    + intros k Hk. unfold children_at, children. match goal with E : node_at d _ = _ |- _ => rewrite E end. match goal with D : n_data n = _ |- _ => rewrite D end. apply in_map. exact Hk.
  - rewrite heights_flat. apply (kid_path d name i kids); try assumption.
    + apply flat_Forall. exact IH.
    + exists n. split; [assumption|]. match goal with D : n_data n = _ |- _ => rewrite D end. exact I.
    + intros k Hk. unfold children_at, children. match goal with E : node_at d _ = _ |- _ => rewrite E end. match goal with D : n_data n = _ |- _ => rewrite D end.
      match goal with D : flat_map _ _ = map occ_id kids |- _ => rewrite D end. apply in_map. exact Hk.
Qed.
Lemma dumped_height d dt h : dumped d dt -> nested_at_most d h -> (height (dt_root dt) <= h)%nat.
Proof.
  intros (_ & _ & _ & _ & o & name & OI & P & (N & _) & _) H. destruct (tree_path d name _ _ P N) as [->|(l & P1 & P2 & P3 & _ & <-)]; [lia|]. rewrite OI in P1. exact (H _ P1 P2 P3).
Qed.

(* ---- the events of a dumped tree ---- *)
Definition node_event (a : option (list N)) (n : DocModel.node) (e : ev) : Prop :=
  exists pi, (pi = true <-> n_tag n = default_tag n) /\
  match n_data n with
  | NScalar v s => e = EScalar a (Some (n_tag n)) v pi pi s
  | NSequence _ s => e = ESeqStart a (Some (n_tag n)) pi s
  | NMapping _ s => e = EMapStart a (Some (n_tag n)) pi s
  end.
Definition from_nodes (d : document) (name : nat -> option (list N)) (ids : list nat) (e : ev) : Prop :=
  e = ESeqEnd \/ e = EMapEnd \/ (exists a, e = EAlias a) \/ exists i n, In i ids /\ node_at d i = Some n /\ node_event (name i) n e.
Lemma from_weaken d name l l' e : incl l l' -> from_nodes d name l e -> from_nodes d name l' e.
Proof. intros I [H|[H|[H|(i & n & H & H')]]]; [left|right; left|right; right; left|right; right; right; exists i, n; split; [apply I|]]; assumption. Qed.
Lemma list_from d name ts : Forall (fun t => forall o, presents d name o t -> Forall (from_nodes d name (nodes_of (occurrences o))) (events_of t)) ts ->
  forall kids, Forall2 (presents d name) kids ts -> Forall (from_nodes d name (nodes_of (flat_map occurrences kids))) (flat_map events_of ts).
Proof.
  induction 1 as [|t ts H F IH]; intros kids K; inversion K; subst; [constructor|]. cbn [flat_map]. rewrite nodes_app. apply Forall_app. split.
  - eapply Forall_impl; [|apply H; eassumption]. intros e. apply from_weaken. intros z Hz. apply in_or_app. left. exact Hz.
  - eapply Forall_impl; [|apply IH; eassumption]. intros e. apply from_weaken. intros z Hz. apply in_or_app. right. exact Hz.
Qed.
Lemma tree_from d name t : forall o, presents d name o t -> Forall (from_nodes d name (nodes_of (occurrences o))) (events_of t).
Proof.
  induction t as [a|a tag v pi qi st|a tag im st items IH|a tag im st pairs IH] using tree_induction; intros o P; inversion P; subst; cbn [events_of].
  - constructor; [|constructor]. right; right; left. eexists. reflexivity.
  - constructor; [|constructor]. right; right; right. exists i, n. split; [left; reflexivity|]. split; [assumption|].
    assert (E : pi = qi) by (match goal with H1 : pi = true <-> ?P, H2 : qi = true <-> ?P |- _ => destruct H1 as [Ha Hb], H2 as [Hc Hd]; clear - Ha Hb Hc Hd; destruct pi, qi; try reflexivity; [exact (eq_sym (Hd (Ha eq_refl)))|exact (Hb (Hc eq_refl))] end). subst qi.
    exists pi. unfold default_tag. match goal with D : n_data n = _ |- _ => rewrite D end. split; [assumption|reflexivity].
  - cbn [occurrences]. change (nodes_of ((true, i) :: flat_map occurrences kids)) with (i :: nodes_of (flat_map occurrences kids)). constructor; [|apply Forall_app; split].
    + right; right; right. exists i, n. split; [left; reflexivity|]. split; [assumption|]. exists im. unfold default_tag. match goal with D : n_data n = _ |- _ => rewrite D end. split; [assumption|reflexivity].
    + eapply Forall_impl; [|eapply list_from; eassumption]. intros e. apply from_weaken. intros x Hx. right. exact Hx.
    + constructor; [left; reflexivity|constructor].
  - cbn [occurrences]. change (nodes_of ((true, i) :: flat_map occurrences kids)) with (i :: nodes_of (flat_map occurrences kids)). constructor; [|apply Forall_app; split].
    + right; right; right. exists i, n. split; [left; reflexivity|]. split; [assumption|]. exists im. unfold default_tag. match goal with D : n_data n = _ |- _ => rewrite D end. split; [assumption|reflexivity].
    + rewrite flat_events. eapply Forall_impl; [|eapply list_from; [apply flat_Forall; exact IH|eassumption]]. intros e. apply from_weaken. intros x Hx. right. exact Hx.
    + constructor; [right; left; reflexivity|constructor].
Qed.
Lemma dumped_from d dt : dumped d dt -> exists name, Forall (fun e => e = ESeqEnd \/ e = EMapEnd \/ (exists a, e = EAlias a) \/ exists i n, reachable d i /\ node_at d i = Some n /\ node_event (name i) n e) (events_of (dt_root dt)).
Proof.
  intros (_ & _ & _ & _ & o & name & OI & P & (N & R & _) & _). exists name. eapply Forall_impl; [|exact (tree_from d name _ _ P)].
  intros e [H|[H|[H|(i & n & H & H')]]]; [left|right; left|right; right; left|right; right; right; exists i, n; split; [apply R|]]; assumption.
Qed.
Lemma fit_mono i i' w s : (i <= i')%Z -> indented_lines_fit i' w s -> indented_lines_fit i w s.
Proof. intros L H u l v E B X Y. specialize (H u l v E B X Y). lia. Qed.
Lemma dumped_nice c step width nest d dt : (0 <= step)%Z -> dumped d dt -> writable c step width nest d -> doc_nice c step width dt /\ shallow nest dt.
Proof.
  intros St D (Tx & Pr & h & Ne & H1 & H2 & Ni). pose proof (dumped_height _ _ _ D Ne) as Hh.
  assert (L : (doc_limit step dt <= step * (1 + Z.of_nat h))%Z) by (unfold doc_limit; apply Z.mul_le_mono_nonneg_l; lia).
  destruct (dumped_from _ _ D) as (name & F). destruct D as (_ & D2 & _). split; [|split; lia].
  split; [rewrite D2; exact Pr|]. rewrite D2. eapply Forall_impl; [|exact F].
  intros e [->|[->|[(a & ->)|(i & n & R & E & pi & P & Ev)]]]; cbn [nice]; try exact I. specialize (Ni i n R E). destruct Ni as [N1 N2].
  assert (T : c || negb pi = true -> nice_tag (env_of (d_tags d)) (n_tag n)).
  { intros Hc. apply N1. destruct c; [left; reflexivity|right]. destruct P as [_ P]. intros X. rewrite (P X) in Hc. discriminate. }
  destruct (n_data n) as [v s|items s|pairs s] eqn:Dn; subst e; cbn [nice].
  - split; [|split].
    + intros Hc x X. injection X as <-. apply T. destruct c, pi; auto.
    + destruct Tx as [_ Tx]. rewrite Forall_forall in Tx. destruct i; [discriminate|]. cbn in E. apply nth_error_In in E. specialize (Tx _ E). rewrite Dn in Tx. apply Tx.
    + intros Hc ->. apply (fit_mono _ _ _ _ L). apply N2. exact Hc.
  - intros Hc x X. injection X as <-. apply T. exact Hc.
  - intros Hc x X. injection X as <-. apply T. exact Hc.
Qed.
Lemma dumped_invisible c d dt : dumped d dt -> invisible c dt -> invisible_doc c d.
Proof.
  intros (V & T & S & E & o & name & OI & P & _) (C & I1 & I2 & I3 & t & qi & style & X & Y). unfold invisible_doc. rewrite <- V, <- T, <- S. repeat (split; [assumption|]).
  rewrite X in P. inversion P as [|i n v s pi' qi' N D T1 T2| |]; subst. cbn in OI. subst i. exists style. split; [|tauto]. rewrite N. f_equal. destruct n as [tg dd]. cbn in *. subst dd. destruct T1 as [T1 _]. rewrite (T1 eq_refl). reflexivity.
Qed.

(* ---- the anchors that are dumped ---- *)
Definition anchor_text (e : ev) : Prop :=
  match e with EAlias a => text a | EScalar a _ _ _ _ _ | ESeqStart a _ _ _ | EMapStart a _ _ _ => otext a | _ => True end.
Definition log_ok (r : dres) : Prop := match r with DOk s | DFail s => Forall anchor_text (dm_log s) | _ => True end.
Lemma log_emit s e : Forall anchor_text (dm_log s) -> anchor_text e -> log_ok (emit s e).
Proof.
  intros L A. assert (Forall anchor_text (dm_log s ++ [e])) by (apply Forall_app; split; [exact L|constructor; [exact A|constructor]]).
  unfold emit. destruct (dm_sink s) as [|[] r]; cbn; assumption.
Qed.
Lemma log_bind r k : log_ok r -> (forall s, Forall anchor_text (dm_log s) -> log_ok (k s)) -> log_ok (dbind r k).
Proof. destruct r; cbn; auto. Qed.
Lemma log_each f l : (forall s i, Forall anchor_text (dm_log s) -> log_ok (f s i)) -> forall s, Forall anchor_text (dm_log s) -> log_ok (each f l s).
Proof. intros F. induction l as [|i l IH]; intros s L; cbn [each]; [exact L|]. apply log_bind; [apply F; exact L|exact IH]. Qed.
Lemma log_anchor fuel nodes : forall s i, Forall anchor_text (dm_log s) -> log_ok (anchor_node fuel nodes s i).
Proof.
  induction fuel as [|f IH]; intros s i L; cbn [anchor_node]; [exact I|]. destruct (at_index nodes i) as [n|]; [|exact I]. destruct (at_index _ i) as [x|]; [|exact I].
  cbn [ai_refs]. destruct (_ =? 1)%nat.
  - destruct (n_data n); [exact L|apply log_each; assumption|apply log_each; assumption].
  - destruct (_ =? 2)%nat; exact L.
Qed.
Lemma dec_ascii fuel : forall n acc, Forall (fun c => c < 0x80) acc -> Forall (fun c => c < 0x80) (dec fuel n acc).
Proof.
  induction fuel as [|f IH]; intros n acc A; cbn [dec]; [exact A|]. assert (Forall (fun c => c < 0x80) ((48 + n mod 10) :: acc)) by (constructor; [pose proof (N.mod_lt n 10 ltac:(discriminate)); lia|exact A]).
  destruct (n / 10 =? 0); [assumption|apply IH; assumption].
Qed.
Lemma generate_text k : text (generate_anchor k).
Proof.
  assert (A : Forall (fun c => c < 0x80) (generate_anchor k)); [|eapply Forall_impl; [|exact A]; intros c H; unfold scalar_value; cbn in *; lia]. unfold generate_anchor, pad3, decimal. apply Forall_app. split; [repeat constructor|].
  apply Forall_app. split; [|apply dec_ascii; constructor]. apply Forall_forall. intros x Hx. apply repeat_spec in Hx. subst. reflexivity.
Qed.
Lemma log_dump fuel nodes : forall s i, Forall anchor_text (dm_log s) -> log_ok (dump_node fuel nodes s i).
Proof.
  induction fuel as [|f IH]; intros s i L; cbn [dump_node]; [exact I|]. destruct (at_index nodes i) as [n|]; [|exact I]. destruct (at_index _ i) as [x|]; [|exact I].
  assert (A : otext (if (ai_anchor x =? 0)%nat then None else Some (generate_anchor (ai_anchor x)))) by (destruct (_ =? 0)%nat; cbn; [exact I|apply generate_text]).
  set (anchor := if (ai_anchor x =? 0)%nat then _ else _) in *. clearbody anchor.
  destruct (ai_serialized x); [destruct anchor; [apply log_emit; assumption|exact I]|].
  destruct (n_data n).
  - apply log_emit; assumption.
  - apply log_bind; [apply log_emit; assumption|]. intros s1 L1. apply log_bind; [apply log_each; assumption|]. intros s2 L2. apply log_emit; [exact L2|exact I].
  - apply log_bind; [apply log_emit; assumption|]. intros s1 L1. apply log_bind; [apply log_each; assumption|]. intros s2 L2. apply log_emit; [exact L2|exact I].
Qed.
Lemma log_call fuel s d : Forall anchor_text (dm_log s) -> log_ok (DumperModel.dump fuel s d).
Proof.
  intros L. unfold DumperModel.dump.
  assert (K : forall r, log_ok r -> log_ok (finish r)) by (intros [x|x| | |]; cbn; auto; unfold cleanup; destruct (dm_anchors x); auto).
  apply K. apply log_bind.
  - destruct (dm_opened s); [exact L|]. unfold dump_open. destruct (dm_opened s); [exact I|]. apply log_bind; [apply log_emit; [exact L|exact I]|]. intros s1 L1. exact L1.
  - intros s1 L1. destruct (d_nodes d) as [|n0 r0] eqn:Ed.
    + unfold dump_close. destruct (negb _); [exact I|]. destruct (dm_closed s1); [exact L1|]. apply log_bind; [apply log_emit; [exact L1|exact I]|]. intros s2 L2. exact L2.
    + cbn zeta. apply log_bind; [apply log_emit; [exact L1|exact I]|]. intros s2 L2. apply log_bind; [apply log_anchor; exact L2|]. intros s3 L3.
      apply log_bind; [apply log_dump; exact L3|]. intros s4 L4. apply log_emit; [exact L4|exact I].
Qed.
Lemma log_dumps fuel sink ds s : dumps fuel (init_dumper sink) ds s -> Forall anchor_text (dm_log s).
Proof. induction 1 as [|ds s d s' H IH C L E]; [constructor|]. pose proof (log_call fuel s d IH) as K. rewrite E in K. exact K. Qed.

Lemma node_text d i n : document_text d -> node_at d i = Some n -> text (n_tag n) /\ match n_data n with NScalar v _ => text v | _ => True end.
Proof. intros [_ H] E. destruct i; [discriminate|]. cbn in E. apply nth_error_In in E. rewrite Forall_forall in H. exact (H _ E). Qed.
Lemma dumped_text d dt : dumped d dt -> document_text d -> Forall anchor_text (doc_events dt) -> Forall text_event (doc_events dt).
Proof.
  intros D Tx A. destruct (dumped_from _ _ D) as (name & F). unfold doc_events in *. inversion A as [|? ? _ A1]; subst. apply Forall_app in A1 as [A1 _].
  constructor; [destruct D as (_ & D & _); cbn; rewrite D; apply Tx|]. apply Forall_app. split; [|constructor; [exact I|constructor]].
  rewrite Forall_forall in F, A1 |- *. intros e He. specialize (F e He). specialize (A1 e He). destruct F as [->|[->|[(a & ->)|(i & n & R & E & pi & P & Ev)]]]; try exact I; [exact A1|].
  destruct (node_text _ _ _ Tx E) as [T1 T2]. destruct (n_data n); subst e; cbn in *; auto.
Qed.

(* ---- loading ---- *)
Lemma parse_split n : forall p a b r, parse_all n p = (a ++ b, r) -> exists q n', yields p a q /\ parse_all n' q = (b, r).
Proof.
  assert (K : forall a b p e p' q, parse p = PEvent e p' -> yields p' a q -> b = e :: a -> yields p b q).
  { intros a b p e p' q E Y. revert b. induction Y as [|es q e' q' Y IH E']; intros b ->; [exact (Y_call p [] p e p' (Y_none p) E)|].
    exact (Y_call p (e :: es) q e' q' (IH _ eq_refl) E'). }
  induction n as [|n IH]; intros p a b r H.
  - cbn in H. injection H as H <-. symmetry in H. apply app_eq_nil in H as [-> ->]. exists p, O. split; [constructor|reflexivity].
  - destruct a as [|e a]; [exists p, (S n); split; [constructor|exact H]|]. cbn [parse_all] in H. destruct (parse p) as [e0 p'|p'|p'|] eqn:E; try discriminate.
    destruct (parse_all n p') as [es r0] eqn:Ep. cbn in H. injection H as -> -> ->. destruct (IH p' a b r Ep) as (q & n' & Y & Q). exists q, n'. split; [exact (K _ _ _ _ _ _ E Y eq_refl)|exact Q].
Qed.
Definition ready (l : loader) (p : parser) : Prop :=
  (ld_started l = true /\ ld_parser l = p) \/ (ld_started l = false /\ exists e enc, parse (ld_parser l) = PEvent e p /\ e_ev e = EStreamStart enc).
Lemma ready_reading l p es q : ready l p -> yields p es q -> reading l es q.
Proof. intros [[H1 <-]|(H1 & e & enc & H2 & H3)] Y; [left; auto|right]. split; [exact H1|]. exists e, enc, p. auto. Qed.
Lemma ready_end fuel l p e p' : ready l p -> parse p = PEvent e p' -> e_ev e = EStreamEnd -> exists l', load fuel l = LNoDocument l'.
Proof.
  intros R E Ee. assert (K : exists l', load_next fuel p = LNoDocument l') by (unfold load_next; destruct (p_end p); [eexists; reflexivity|]; rewrite E, Ee; eexists; reflexivity).
  unfold load. destruct R as [[-> ->]|(-> & e0 & enc & -> & ->)]; exact K.
Qed.
Section Load.
Variables (canonical : bool) (tokens : list token) (fuel : nat).
Hypothesis Hf : (4 * length tokens < fuel)%nat.
Notation iso d d' := (exists f, isomorphic (scalar_style_read canonical) (coll_styles canonical) f (utf8_doc d) d').
Lemma map_split {A B} (f : A -> B) l : forall a b, map f l = a ++ b -> exists x y, l = x ++ y /\ map f x = a /\ map f y = b.
Proof. induction l as [|c l IH]; intros [|a0 a] b H; try discriminate; [exists [], []; auto|exists [], (c :: l); auto|]. cbn in H. injection H as <- H. destruct (IH a b H) as (x & y & -> & <- & <-). exists (c :: x), y. auto. Qed.
Lemma load_all ds dts : Forall2 dumped ds dts -> forall dts', Forall2 (doc_agrees canonical) dts dts' -> forall n p evs pre l, parse_all n p = (evs, Parsed) -> map e_ev evs = flat_map doc_events dts' ++ [EStreamEnd] ->
  load_history fuel tokens pre l -> ready l p -> exists ds' l' l'', Forall2 (fun d d' => iso d d') ds ds' /\ load_history fuel tokens (pre ++ ds') l' /\ load fuel l' = LNoDocument l''.
Proof.
  induction 1 as [|d dt ds dts D F IH]; intros dts' A n p evs pre l P M H R; inversion A as [|? dt' ? dts2 A1 A2]; subst.
  - exists [], l. cbn in M. destruct evs as [|e [|? ?]]; try discriminate. injection M as M. destruct n as [|n]; [discriminate|]. cbn [parse_all] in P. destruct (parse p) as [e0 p'|p'|p'|] eqn:E; try discriminate.
    destruct (parse_all n p') as [es r] eqn:Ep. injection P as -> -> ->. destruct (ready_end fuel l p e p' R E M) as (l'' & K). exists l''. split; [constructor|]. rewrite app_nil_r. auto.
  - cbn [flat_map] in M. rewrite <- app_assoc in M. apply map_split in M as (ex & ey & -> & M1 & M2). destruct (parse_split _ _ _ _ _ P) as (q & n' & Y & Q).
    destruct (dump_load_iso (scalar_style_read canonical) (coll_styles canonical) (utf8_doc d) (utf8_dt dt) fuel tokens pre l ex q (dumped_utf8 _ _ D) Hf H (ready_reading _ _ _ _ R Y)) as (d' & f & L & Is).
    { rewrite M1. eapply doc_same; eassumption. }
    destruct (IH dts2 A2 n' q ey (pre ++ [d']) (mkLoader q true) Q M2) as (ds' & l' & l'' & K1 & K2 & K3).
    + econstructor; eassumption.
    + left. auto.
    + exists (d' :: ds'), l', l''. split; [constructor; [exists f; exact Is|exact K1]|]. rewrite <- app_assoc in K2. auto.
Qed.
End Load.

(* ---- more fuel does not matter ---- *)
Definition enough (r : lout) : Prop := match r with LOutOfFuel => False | _ => True end.
Lemma load_nodes_mono f k : forall p s f', (f <= f')%nat -> enough (load_nodes f p s k) -> load_nodes f' p s k = load_nodes f p s k.
Proof.
  induction f as [|f IH]; intros p s [|f'] L E; try lia; [contradiction E|contradiction E|]. cbn [load_nodes] in *. destruct (parse p) as [e p'|p'|p'|]; try reflexivity.
  destruct (e_ev e); try reflexivity; (destruct (load_event s e); try reflexivity; apply IH; [lia|exact E]).
Qed.
Lemma load_mono f f' l : (f <= f')%nat -> enough (load f l) -> load f' l = load f l.
Proof.
  intros L. assert (N : forall p, enough (load_next f p) -> load_next f' p = load_next f p).
  { intros p E. unfold load_next in *. destruct (p_end p); [reflexivity|]. destruct (parse p) as [e p'|p'|p'|]; try reflexivity.
    unfold load_document in *. destruct (e_ev e); try reflexivity. apply load_nodes_mono; assumption. }
  unfold load. destruct (ld_started l); [apply N|]. destruct (parse (ld_parser l)) as [e p'|p'|p'|]; try reflexivity. destruct (e_ev e); try reflexivity. apply N.
Qed.
Lemma history_mono f f' input ds l : (f <= f')%nat -> load_history f input ds l -> load_history f' input ds l.
Proof. intros L. induction 1 as [|ds l d l' H IH E]; [constructor|]. econstructor; [exact IH|]. rewrite (load_mono f f' l L); [exact E|rewrite E; exact I]. Qed.

(* ---- all together ---- *)
Lemma final_settings g s m : Forall text_event (stream_events s) -> emit_all (init_emitter g) (stream_events s) = EOk m -> (2 <= g_indent (m_cfg m) <= 9)%Z.
Proof.
  intros Tx E. pose proof (all_emitted g _ m (ex_intro _ s eq_refl) E) as Ev.
  assert (G : p_ops (m_pen m) <> []).
  { pose proof (EmitWrite.run_out g _ Tx) as K. rewrite E in K. destruct K as (a & (I' & O & Fl) & _).
    assert (a = EventAcc.ADone).
    { pose proof (EmitLoop.run_progress g (stream_events s)) as P. rewrite E in P. destruct P as (done' & a' & P1 & P2 & P3 & P4 & _ & N).
      rewrite Ev, app_nil_r in P1. subst done'. rewrite (proj1 (EventAcc.well_formed_acc _) (ex_intro _ _ eq_refl)) in P2. injection P2 as <-. destruct P3 as [X _ _ _ _]. destruct I' as [X' _ _ _ _].
      assert (Es : m_state m = EndState) by (inversion X; congruence). rewrite Es in X'. inversion X' as [| | | |? ? ? X1]; subst; [reflexivity|]. cbn in X1. discriminate. }
    subst a. destruct (Fl eq_refl) as [ops Eo]. rewrite Eo. intros Z. apply app_eq_nil in Z as [_ Z]. discriminate. }
  destruct (EmitWrite.run_settings g _ m AnyEnc Tx E G) as [-> _]. apply (EmitSettings.normalise_ok g AnyEnc).
Qed.
Lemma log_docs enc ts : Forall anchor_text (stream_events (mkStreamTree enc ts)) -> Forall (fun t => Forall anchor_text (doc_events t)) ts.
Proof.
  unfold stream_events. cbn [st_docs]. intros H. inversion H as [|? ? _ H1]; subst. apply Forall_app in H1 as [H1 _]. clear H. induction ts as [|t ts IH]; [constructor|]. cbn [flat_map] in H1. apply Forall_app in H1 as [H1 H2]. constructor; auto.
Qed.
Lemma stream_text_events enc ds ts : Forall2 dumped ds ts -> Forall document_text ds -> Forall (fun t => Forall anchor_text (doc_events t)) ts -> Forall text_event (stream_events (mkStreamTree enc ts)).
Proof.
  intros D T A. unfold stream_events. cbn [st_docs]. constructor; [exact I|]. apply Forall_app. split; [|constructor; [exact I|constructor]].
  induction D as [|d t ds ts D F IH]; [constructor|]. inversion T; inversion A; subst. cbn [flat_map]. apply Forall_app. split; [eapply dumped_text; eassumption|auto].
Qed.
Theorem document_trip plan fuel sink g ds s e s' m w nest :
  dumps fuel (init_dumper sink) ds s -> Forall (fun d => d_nodes d <> []) ds -> d_nodes e = [] -> DumperModel.dump fuel s e = DOk s' ->
  emit_io plan g (dm_log s') = IOk m w -> nlen (accepted w) < MAX_FILE_SIZE -> (0 < nest <= 2147483647)%Z ->
  Forall (writable (g_canonical g) (g_indent (m_cfg m)) (g_width (m_cfg m)) nest) ds -> (forall d r, ds = d :: r -> ~ invisible_doc (g_canonical g) d) ->
  exists ds', loaded_as nest (accepted w) ds' /\
    Forall2 (fun d d' => exists f, isomorphic (scalar_style_read (g_canonical g)) (coll_styles (g_canonical g)) f (utf8_doc d) d') ds ds'.
Proof.
  intros Ds Ne En Ee Em Sz Nest Wr Vi.
  destruct (dumps_whole fuel sink ds s e s' Ds Ne En Ee) as (ts & L & D).
  pose proof (log_call fuel s e (log_dumps _ _ _ _ Ds)) as LA. rewrite Ee in LA. cbn [log_ok] in LA. rewrite L in LA, Em. apply log_docs in LA.
  assert (Tx : Forall text_event (stream_events (mkStreamTree AnyEnc ts))).
  { eapply stream_text_events; [exact D| |exact LA]. eapply Forall_impl; [|exact Wr]. intros d Hd. apply Hd. }
  pose proof (EmitWrite.write_failure_reported plan g _ Tx) as W. rewrite Em in W. destruct W as [W _].
  pose proof (final_settings g _ m Tx W) as Gi.
  assert (N : Forall (doc_nice (g_canonical g) (g_indent (m_cfg m)) (g_width (m_cfg m))) ts /\ Forall (shallow nest) ts).
  { clear - D Wr Gi. induction D as [|d t ds ts D F IH]; [split; constructor|]. inversion Wr as [|? ? W1 W2]; subst. destruct (IH W2) as [I1 I2].
    destruct (dumped_nice _ _ _ _ d t (Z.le_trans 0 2 _ ltac:(discriminate) (proj1 Gi)) D W1) as [K1 K2]. split; constructor; assumption. }
  destruct N as [N1 N2].
  destruct (byte_trip plan g (mkStreamTree AnyEnc ts) m w nest Tx Em Sz N1) as (dts' & A & text & R & c & tokens & Sc & c' & evs & P & M); [|exact Nest|exact N2|].
  { cbn [st_docs]. intros t r -> X. inversion D as [|d ? ds0 ? D1]; subst. exact (Vi d ds0 eq_refl (dumped_invisible _ _ _ D1 X)). }
  cbn [st_docs] in A.
  assert (Y : exists n e0 p evs', parse (init_parser tokens) = PEvent e0 p /\ e_ev e0 = EStreamStart (g_encoding (m_cfg m)) /\ parse_all n p = (evs', Parsed) /\ map e_ev evs' = flat_map doc_events dts' ++ [EStreamEnd]).
  { specialize (P (S c') ltac:(lia)). cbn [parse_all] in P. unfold stream_events in M. cbn [st_docs st_encoding] in M. destruct (parse (init_parser tokens)) as [e0 p|p|p|]; try discriminate P; [|injection P as <-; discriminate M].
    destruct (parse_all c' p) as [es r] eqn:Ep. injection P as <- ->. cbn [map] in M. injection M as M1 M2. exists c', e0, p, es. auto. }
  destruct Y as (n & e0 & p & evs' & Y1 & Y2 & Y3 & Y4).
  assert (Q : forall fuel', (4 * length tokens < fuel')%nat -> exists ds' l' l'', Forall2 (fun d d' => exists f, isomorphic (scalar_style_read (g_canonical g)) (coll_styles (g_canonical g)) f (utf8_doc d) d') ds ds' /\ load_history fuel' tokens ds' l' /\ load fuel' l' = LNoDocument l'').
  { intros fuel' Hf. apply (load_all (g_canonical g) tokens fuel' Hf ds ts D dts' A n p evs' [] (init_loader tokens) Y3 Y4); [constructor|]. right. split; [reflexivity|]. exists e0. eexists. split; eassumption. }
  destruct (Q (S (4 * length tokens)) ltac:(lia)) as (ds' & l' & l'' & Q1 & Q2 & Q3). exists ds'. split; [|exact Q1].
  exists (g_encoding (m_cfg m)), text. split; [exact R|]. exists c, tokens. split; [exact Sc|]. exists (S (4 * length tokens)). intros fuel' Hf.
  exists l', l''. split; [exact (history_mono _ _ _ _ _ Hf Q2)|]. rewrite (load_mono _ _ _ Hf); [exact Q3|rewrite Q3; exact I].
Qed.

Lemma chars_unique t : forall t', map utf8_enc t = map utf8_enc t' -> t = t'.
Proof. induction t as [|c t IH]; intros [|d t'] E; try discriminate; [reflexivity|]. cbn [map] in E. injection E as E1 E2. rewrite (utf8_injective _ _ E1), (IH t' E2). reflexivity. Qed.
Lemma history_det fuel input ds l : load_history fuel input ds l -> forall ds' l', load_history fuel input ds' l' -> length ds = length ds' -> ds = ds' /\ l = l'.
Proof.
  induction 1 as [|ds l d l1 H IH E]; intros ds' l' H' L; inversion H' as [|ds2 l2 d2 l3 H2 E2]; subst; [auto|rewrite app_length in L; cbn in L; lia|rewrite app_length in L; cbn in L; lia|].
  rewrite !app_length in L. cbn in L. destruct (IH _ _ H2 ltac:(lia)) as [-> ->]. rewrite E2 in E. injection E as <- <-. auto.
Qed.
Lemma history_split fuel input ds l : load_history fuel input ds l -> forall a d b, ds = a ++ d :: b -> exists l0 l1, load_history fuel input a l0 /\ load fuel l0 = LDocument d l1.
Proof.
  induction 1 as [|ds l d l1 H IH E]; intros a d0 b X; [destruct a; discriminate|]. destruct (exists_last (l := d0 :: b) ltac:(discriminate)) as (b' & z & Eb). rewrite Eb, app_assoc in X. apply app_inj_tail in X as [X1 X2]. subst z.
  destruct b' as [|d1 b'].
  - cbn in Eb. injection Eb as <- _. rewrite app_nil_r in X1. subst. exists l, l1. auto.
  - cbn in Eb. injection Eb as <- _. exact (IH a d0 b' X1).
Qed.
Lemma history_end fuel input ds l l1 ds' l' : load_history fuel input ds l -> load fuel l = LNoDocument l1 -> load_history fuel input ds' l' -> (length ds' <= length ds)%nat.
Proof.
  intros H E H'. destruct (le_lt_dec (length ds') (length ds)) as [L|L]; [exact L|exfalso]. rewrite <- (firstn_skipn (length ds) ds') in H'. destruct (skipn (length ds) ds') as [|d b] eqn:Es.
  - pose proof (skipn_length (length ds) ds') as K. rewrite Es in K. cbn in K. lia.
  - destruct (history_split _ _ _ _ H' _ _ _ eq_refl) as (l0 & l2 & H0 & E0). destruct (history_det _ _ _ _ H _ _ H0) as [_ <-]; [rewrite firstn_length; lia|]. congruence.
Qed.
Theorem loaded_unique nest input ds ds' : loaded_as nest input ds -> loaded_as nest input ds' -> ds = ds'.
Proof.
  intros (enc & t & R & c & l & S & k & H) (enc' & t' & R' & c' & l' & S' & k' & H').
  pose proof (R [] [] (Forall_nil _) (Forall_nil _)) as E. rewrite (R' [] [] (Forall_nil _) (Forall_nil _)) in E. injection E as E ->. apply chars_unique in E. subst t'.
  pose proof (S [] (c + c')%nat ltac:(lia)) as E. rewrite (S' [] (c + c')%nat ltac:(lia)) in E. injection E as ->.
  destruct (H (k + k')%nat ltac:(lia)) as (l1 & l2 & H1 & E1). destruct (H' (k + k')%nat ltac:(lia)) as (l3 & l4 & H3 & E3).
  apply (history_det _ _ _ _ H1 _ _ H3). pose proof (history_end _ _ _ _ _ _ _ H1 E1 H3). pose proof (history_end _ _ _ _ _ _ _ H3 E3 H1). lia.
Qed.
(* no document is nested deeper than it has nodes *)
Lemma nested_nodes d : nested_at_most d (length (d_nodes d)).
Proof.
  intros l _ N C. rewrite <- (seq_length (length (d_nodes d)) 1). apply (NoDup_incl_length N). intros i Hi. rewrite Forall_forall in C. destruct (C i Hi) as (n & E & _).
  apply in_seq. destruct i; [discriminate|]. cbn in E. assert (nth_error (d_nodes d) i <> None) as X by congruence. apply nth_error_Some in X. lia.
Qed.
