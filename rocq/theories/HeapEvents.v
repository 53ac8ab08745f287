(* Creating and deleting events. *)
From Coq Require Import Permutation.
From Verif Require Import Base ReaderModel Types DocModel HeapModel HeapSpec HeapLemmas.

Lemma version_text_at h b v : nth b (texts h) [] = version_text v -> version_at h (Some b) = Some v.
Proof. intros E. unfold version_at, opt_at. rewrite E. destruct v. reflexivity. Qed.

Lemma copy_version_does v h : good h ->
  does (copy_version v) h [] (fun r g h' => g = ptr_blocks (fst r) /\
    (if snd r then version_at h' (fst r) = v else fst r = None) /\ (generous h -> snd r = true)).
Proof.
  intros G. pose proof (ext_refl h) as X. unfold does, copy_version. destruct v as [v|].
  - call (h_malloc_does (version_text v) h G). destruct Rc as (-> & R & Y).
    eapply ends_ret; [assumption|assumption|exact Cc|]. cbn [fst snd]. split; [reflexivity|].
    destruct a as [b|]; cbn [is_null negb].
    + destruct R as [R|(b' & [= <-] & R)]; [discriminate|]. split; [apply version_text_at; exact R|auto].
    + split; [reflexivity|]. intros g. exfalso. apply (Y g). reflexivity.
  - eapply ends_ret; [assumption|assumption| |cbn [fst snd]; split; [reflexivity|split; reflexivity]]. cn.
Qed.

(* an array that holds elements has a block *)
Definition sound_arr {A} (a : arr A) : Prop := a_els a <> [] -> a_at a <> None.
Definition nonnull (p : hpair) : Prop := fst p <> None /\ snd p <> None.
Definition sound_tags (a : arr hpair) : Prop := sound_arr a /\ Forall nonnull (a_els a).

Lemma copy_tags_does ts acc h : good h -> a_at acc <> None /\ Forall nonnull (a_els acc) -> holds h (tags_blocks acc) ->
  does (copy_tags ts acc) h (tags_blocks acc) (fun r g h' =>
    let '(acc', value, ok) := r in
    g = tags_blocks acc' ++ pair_blocks value /\ (a_at acc' <> None /\ Forall nonnull (a_els acc')) /\
    (if ok : bool then value = (None, None) /\ forallb (fun t => utf8_good (fst t) && utf8_good (snd t)) ts = true /\
       map (pair_at h') (a_els acc') = map (pair_at h) (a_els acc) ++ ts
     else ~ generous h \/ forallb (fun t => utf8_good (fst t) && utf8_good (snd t)) ts = false)).
Proof.
  revert acc h. induction ts as [|[handle prefix] ts IH]; intros acc h G P H; pose proof (ext_refl h) as X; unfold does; cbn [copy_tags].
  - eapply ends_ret with (g := tags_blocks acc); [assumption|assumption|cn|]. split; [symmetry; apply app_nil_r|].
    split; [exact P|]. split; [reflexivity|]. split; [reflexivity|]. symmetry. apply app_nil_r.
  - cbn [forallb fst snd]. destruct (utf8_good handle) eqn:U1; cbn [negb andb].
    2:{ eapply ends_ret with (g := tags_blocks acc); [assumption|assumption|cn|]. split; [symmetry; apply app_nil_r|auto]. }
    destruct (utf8_good prefix) eqn:U2; cbn [negb andb].
    2:{ eapply ends_ret with (g := tags_blocks acc); [assumption|assumption|cn|]. split; [symmetry; apply app_nil_r|auto]. }
    call (h_malloc_does handle h G). destruct Rc as (-> & R1 & Y1).
    call (h_malloc_does prefix hc Gc). destruct Rc as (-> & R2 & Y2).
    destruct a as [b1|]; cbn [is_null orb].
    2:{ eapply ends_ret with (g := tags_blocks acc ++ pair_blocks (None, a0)); [assumption|assumption|cn|].
        split; [reflexivity|]. split; [exact P|]. left. intros g. apply (Y1 g). reflexivity. }
    destruct a0 as [b2|]; cbn [is_null orb].
    2:{ eapply ends_ret with (g := tags_blocks acc ++ pair_blocks (Some b1, None)); [assumption|assumption|cn|].
        split; [reflexivity|]. split; [exact P|]. left. intros g. apply Y2; [|reflexivity]. apply Xc0. exact g. }
    call (h_push_does acc (Some b1, Some b2) hc0 Gc0 (proj1 P)). destruct a as [acc' ok]. cbn [fst snd] in *. destruct Rc as (-> & P' & E & Y). destruct ok.
    + eapply ends_does; [eassumption|apply IH; [assumption|split; [exact P'|rewrite E; apply Forall_app; split; [apply P|constructor; [split; discriminate|apply Forall_nil]]]|]| |]; cbn beta.
      { unfold tags_blocks. rewrite E. cn. }
      * intros [[acc2 value] ok] g h2 G2 X2 X3 C (-> & P2 & R) _. split; [reflexivity|]. split; [exact P2|]. destruct ok.
        -- destruct R as (-> & U & M). split; [reflexivity|]. split; [exact U|]. rewrite M, E, map_app, <- app_assoc. cbn [map app].
           f_equal; [|f_equal].
           ++ eapply pairs_ext; [exact G|eassumption|]. cn.
           ++ destruct R1 as [R1|(x & [= <-] & R1)]; [discriminate|]. destruct R2 as [R2|(x & [= <-] & R2)]; [discriminate|].
              unfold pair_at. cbn [fst snd str_at]. f_equal.
              ** rewrite <- R1. eapply nth_ext; [eapply ext_trans; eassumption|]. eapply (held_below _ [b1]); [exact Gc| |left; reflexivity]. cn.
              ** rewrite <- R2. eapply nth_ext; [eassumption|]. eapply (held_below _ [b2]); [exact Gc0| |left; reflexivity]. cn.
        -- destruct R as [R|R]; [left|right; exact R]. intros g. apply R. repeat match goal with X : ext _ _ |- _ => destruct X end. auto.
      * intros [[acc2 value] ok] g h2 C (-> & P2 & R). unfold tags_blocks in C at 1. rewrite E in C. clear R E IH. cn.
    + subst acc'. eapply ends_ret with (g := tags_blocks acc ++ pair_blocks (Some b1, Some b2)); [assumption|assumption|cn|].
      split; [reflexivity|]. split; [exact P|]. left. intros g. enough (false = true) by discriminate. apply Y. apply Xc2. exact g.
Qed.
Lemma copy_tag_list_does ts h : good h ->
  does (copy_tag_list ts) h [] (fun r g h' =>
    let '(acc', value, ok) := r in
    g = tags_blocks acc' ++ pair_blocks value /\ sound_tags acc' /\
    (if ok : bool then value = (None, None) /\ forallb (fun t => utf8_good (fst t) && utf8_good (snd t)) ts = true /\
       map (pair_at h') (a_els acc') = ts
     else ~ generous h \/ forallb (fun t => utf8_good (fst t) && utf8_good (snd t)) ts = false)).
Proof.
  intros G. pose proof (ext_refl h) as X. unfold does, copy_tag_list. destruct ts as [|t ts].
  - eapply ends_ret with (g := []); [assumption|assumption|cn|]. split; [reflexivity|]. split; [split; [intros N; exfalso; apply N; reflexivity|apply Forall_nil]|auto].
  - set (l := t :: ts). clearbody l. call (@h_init_does hpair h G). destruct a as [acc ok]. cbn [fst snd] in *. destruct Rc as (-> & E & B & Y). destruct ok.
    + eapply ends_does; [eassumption|apply copy_tags_does; [assumption|split; [assumption|rewrite E; apply Forall_nil]|unfold tags_blocks; rewrite E; cn]| |]; cbn beta.
      * intros [[acc2 value] ok] g h2 G2 X2 X3 C (-> & P2 & R) _. split; [reflexivity|]. split; [split; [intros _; exact (proj1 P2)|exact (proj2 P2)]|]. destruct ok.
        -- destruct R as (-> & U & M). rewrite E in M. auto.
        -- destruct R as [R|R]; [left|right; exact R]. intros g. apply R, Xc, g.
      * intros [[acc2 value] ok] g h2 C (-> & P2 & R). unfold tags_blocks in C at 1. rewrite E in C. clear R. cn.
    + subst acc. eapply ends_ret with (g := []); [assumption|assumption|cn|]. split; [reflexivity|]. split; [split; [intros N; exfalso; apply N; reflexivity|apply Forall_nil]|].
      left. intros g. discriminate (Y g).
Qed.
Lemma drop_copies_does v tags value h : good h -> sound_tags tags -> holds h (ptr_blocks v ++ tags_blocks tags ++ pair_blocks value) ->
  does (drop_copies v tags value) h (ptr_blocks v ++ tags_blocks tags ++ pair_blocks value) (fun _ g _ => g = []).
Proof.
  intros G S H. pose proof (ext_refl h) as X. unfold does, drop_copies, h_del. freeing.
  eapply ends_bind; [eassumption|apply (empty_stack_does free_pair pair_blocks); [exact free_pair_does|assumption|exact (proj1 S)|cn]|].
  cbn beta. intros _ g h2 G2 X2 X3 C ->. freeing.
  eapply ends_does; [eassumption|apply free_pair_does; [assumption|cn]| |]; cbn beta; [tauto|]. intros _ g h3 C3 ->. cn.
Qed.
(* the tag directive list of an event is an array of strings *)
Definition sound_event (e : hev) : Prop :=
  match e with HDocStart _ tags _ => sound_tags tags | HAlias a => a <> None | HScalar _ _ v _ _ _ => v <> None | _ => True end.
Lemma document_start_event_does v ts i h : good h ->
  does (document_start_event v ts i) h [] (fun r g h' =>
    match r with
    | Some e => g = ev_blocks e /\ sound_event e /\ event_at h' e = Some (EDocStart v ts i) /\ event_strings_good (EDocStart v ts i) = true
    | None => g = [] /\ (~ generous h \/ event_strings_good (EDocStart v ts i) = false)
    end).
Proof.
  intros G. pose proof (ext_refl h) as X. unfold does, document_start_event. cbn [event_strings_good].
  call (copy_version_does v h G). destruct a as [vp ok]. cbn [fst snd] in *. destruct Rc as (-> & R & Y). destruct ok; cbn [negb].
  - call (copy_tag_list_does ts hc Gc). destruct a as [[tags value] ok]. destruct Rc as (-> & S & T). destruct ok.
    + destruct T as (-> & U & M). eapply ends_ret; [assumption|assumption| |cbn [ev_blocks]; split; [reflexivity|split; [exact S|split; [|exact U]]]].
      { cn. }
      cbn [event_at]. rewrite M. f_equal. f_equal. rewrite <- R. eapply version_ext; [exact Gc|eassumption|cn].
    + eapply ends_bind; [eassumption|apply drop_copies_does; [assumption|exact S|cn]|]. cbn beta. intros _ g h3 G3 X3 X4 C3 ->.
      eapply ends_ret; [assumption|assumption| |split; [reflexivity|]]. { cn. }
      destruct T as [T|T]; [left; intros g; apply T, Xc0, g|right; exact T].
  - subst vp. eapply ends_bind; [eassumption|apply drop_copies_does; [assumption|split; [intros N; exfalso; apply N; reflexivity|apply Forall_nil]|cn]|]. cbn beta. intros _ g h3 G3 X3 X4 C3 ->.
    eapply ends_ret; [assumption|assumption| |split; [reflexivity|]]. { cn. } left. intros g. discriminate (Y g).
Qed.
Lemma alias_event_does a h : good h ->
  does (alias_event a) h [] (fun r g h' =>
    match r with
    | Some e => g = ev_blocks e /\ sound_event e /\ event_at h' e = Some (EAlias a) /\ event_strings_good (EAlias a) = true
    | None => g = [] /\ (~ generous h \/ event_strings_good (EAlias a) = false)
    end).
Proof.
  intros G. pose proof (ext_refl h) as X. unfold does, alias_event. cbn [event_strings_good]. destruct (utf8_good a) eqn:U; cbn [negb].
  - call (h_malloc_does a h G). destruct Rc as (-> & R & Y). destruct a0 as [b|].
    + destruct R as [R|(b' & [= <-] & R)]; [discriminate|]. eapply ends_ret; [assumption|assumption|exact Cc|]. split; [reflexivity|]. split; [discriminate|].
      split; [|reflexivity]. cbn [event_at str_at]. rewrite R. reflexivity.
    + eapply ends_ret; [assumption|assumption|exact Cc|]. split; [reflexivity|]. left. intros g. apply (Y g). reflexivity.
  - eapply ends_ret with (g := []); [assumption|assumption|cn|]. auto.
Qed.
Lemma copy_opt_does s h : good h ->
  does (copy_opt s) h [] (fun r g h' => g = ptr_blocks (fst r) /\
    (if snd r then opt_at h' (fst r) = s /\ good_opt s = true else fst r = None /\ (~ generous h \/ good_opt s = false))).
Proof.
  intros G. pose proof (ext_refl h) as X. unfold does, copy_opt. destruct s as [s|]; cbn [good_opt].
  - destruct (utf8_good s) eqn:U; cbn [negb].
    + call (h_malloc_does s h G). destruct Rc as (-> & R & Y). eapply ends_ret; [assumption|assumption|exact Cc|]. cbn [fst snd].
      split; [reflexivity|]. destruct a as [b|]; cbn [is_null negb].
      * destruct R as [R|(b' & [= <-] & R)]; [discriminate|]. cbn [opt_at]. rewrite R. auto.
      * split; [reflexivity|]. left. intros g. apply (Y g). reflexivity.
    + eapply ends_ret with (g := []); [assumption|assumption|cn|]. cbn [fst snd]. auto.
  - eapply ends_ret with (g := []); [assumption|assumption|cn|]. cbn [fst snd]. auto.
Qed.
Lemma scalar_event_does a t v pi qi st h : good h ->
  does (scalar_event a t v pi qi st) h [] (fun r g h' =>
    match r with
    | Some e => g = ev_blocks e /\ sound_event e /\ event_at h' e = Some (EScalar a t v pi qi st) /\ event_strings_good (EScalar a t v pi qi st) = true
    | None => g = [] /\ (~ generous h \/ event_strings_good (EScalar a t v pi qi st) = false)
    end).
Proof.
  intros G. pose proof (ext_refl h) as X. unfold does, scalar_event. cbn [event_strings_good].
  call (copy_opt_does a h G). destruct a0 as [pa ok]. cbn [fst snd] in *. destruct Rc as (-> & Ra). destruct ok; cbn [negb].
  2:{ do 3 freeing. eapply ends_ret with (g := []); [assumption|assumption|cn|]. split; [reflexivity|]. destruct Ra as (_ & [Ra|Ra]); [auto|]. rewrite Ra. auto. }
  call (copy_opt_does t hc Gc). destruct a0 as [pt ok]. cbn [fst snd] in *. destruct Rc as (-> & Rt). destruct Ra as (Ra & Ua). rewrite Ua. destruct ok; cbn [negb].
  2:{ do 3 freeing. eapply ends_ret with (g := []); [assumption|assumption|cn|]. split; [reflexivity|].
      destruct Rt as (_ & [Rt|Rt]); [left; intros g; apply Rt, Xc, g|]. rewrite Rt. auto. }
  destruct Rt as (Rt & Ut). rewrite Ut. cbn [andb]. destruct (utf8_good v) eqn:Uv; cbn [negb].
  2:{ do 3 freeing. eapply ends_ret with (g := []); [assumption|assumption|cn|]. split; [reflexivity|]. auto. }
  call (h_malloc_does v hc0 Gc0). destruct Rc as (-> & R & Y). destruct a0 as [b|]; cbn [is_null].
  - eapply ends_ret; [assumption|assumption| |split; [reflexivity|]]. { cbn [ev_blocks]. cn. } split; [discriminate|].
    split; [|reflexivity]. destruct R as [R|(b' & [= <-] & R)]; [discriminate|]. cbn [event_at str_at]. rewrite R. f_equal. f_equal.
    + rewrite <- Ra. eapply opt_ext; [exact Gc|eapply ext_trans; eassumption|cn].
    + rewrite <- Rt. eapply opt_ext; [exact Gc0|eassumption|cn].
  - do 3 freeing. eapply ends_ret with (g := []); [assumption|assumption|cn|]. split; [reflexivity|]. left. intros g. apply Y; [apply Xc2, g|reflexivity].
Qed.
Lemma sequence_start_event_does a t i st h : good h ->
  does (sequence_start_event a t i st) h [] (fun r g h' =>
    match r with
    | Some e => g = ev_blocks e /\ sound_event e /\ event_at h' e = Some (ESeqStart a t i st) /\ event_strings_good (ESeqStart a t i st) = true
    | None => g = [] /\ (~ generous h \/ event_strings_good (ESeqStart a t i st) = false)
    end).
Proof.
  intros G. pose proof (ext_refl h) as X. unfold does, sequence_start_event. cbn [event_strings_good].
  call (copy_opt_does a h G). destruct a0 as [pa ok]. cbn [fst snd] in *. destruct Rc as (-> & Ra). destruct ok; cbn [negb].
  2:{ do 2 freeing. eapply ends_ret with (g := []); [assumption|assumption|cn|]. split; [reflexivity|]. destruct Ra as (_ & [Ra|Ra]); [auto|]. rewrite Ra. auto. }
  call (copy_opt_does t hc Gc). destruct a0 as [pt ok]. cbn [fst snd] in *. destruct Rc as (-> & Rt). destruct Ra as (Ra & Ua). rewrite Ua. destruct ok; cbn [negb].
  2:{ do 2 freeing. eapply ends_ret with (g := []); [assumption|assumption|cn|]. split; [reflexivity|].
      destruct Rt as (_ & [Rt|Rt]); [left; intros g; apply Rt, Xc, g|]. rewrite Rt. auto. }
  destruct Rt as (Rt & Ut). rewrite Ut. eapply ends_ret; [assumption|assumption| |split; [reflexivity|]]. { cbn [ev_blocks]. cn. } split; [exact I|].
  split; [|reflexivity]. cbn [event_at]. rewrite Rt. f_equal. f_equal. rewrite <- Ra. eapply opt_ext; [exact Gc|eassumption|cn].
Qed.
Lemma mapping_start_event_does a t i st h : good h ->
  does (mapping_start_event a t i st) h [] (fun r g h' =>
    match r with
    | Some e => g = ev_blocks e /\ sound_event e /\ event_at h' e = Some (EMapStart a t i st) /\ event_strings_good (EMapStart a t i st) = true
    | None => g = [] /\ (~ generous h \/ event_strings_good (EMapStart a t i st) = false)
    end).
Proof.
  intros G. pose proof (ext_refl h) as X. unfold does, mapping_start_event. cbn [event_strings_good].
  call (copy_opt_does a h G). destruct a0 as [pa ok]. cbn [fst snd] in *. destruct Rc as (-> & Ra). destruct ok; cbn [negb].
  2:{ do 2 freeing. eapply ends_ret with (g := []); [assumption|assumption|cn|]. split; [reflexivity|]. destruct Ra as (_ & [Ra|Ra]); [auto|]. rewrite Ra. auto. }
  call (copy_opt_does t hc Gc). destruct a0 as [pt ok]. cbn [fst snd] in *. destruct Rc as (-> & Rt). destruct Ra as (Ra & Ua). rewrite Ua. destruct ok; cbn [negb].
  2:{ do 2 freeing. eapply ends_ret with (g := []); [assumption|assumption|cn|]. split; [reflexivity|].
      destruct Rt as (_ & [Rt|Rt]); [left; intros g; apply Rt, Xc, g|]. rewrite Rt. auto. }
  destruct Rt as (Rt & Ut). rewrite Ut. eapply ends_ret; [assumption|assumption| |split; [reflexivity|]]. { cbn [ev_blocks]. cn. } split; [exact I|].
  split; [|reflexivity]. cbn [event_at]. rewrite Rt. f_equal. f_equal. rewrite <- Ra. eapply opt_ext; [exact Gc|eassumption|cn].
Qed.
Lemma event_initialize_does e h : good h ->
  does (event_initialize e) h [] (fun r g h' =>
    match r with
    | Some x => g = ev_blocks x /\ sound_event x /\ event_at h' x = Some e /\ event_strings_good e = true
    | None => g = [] /\ (~ generous h \/ event_strings_good e = false)
    end).
Proof.
  intros G. pose proof (ext_refl h) as X. destruct e; cbn [event_initialize]; try (eapply ends_ret with (g := []); [assumption|assumption|cn|]; cbn [ev_blocks event_at sound_event]; auto).
  - apply document_start_event_does; exact G.
  - apply alias_event_does; exact G.
  - apply scalar_event_does; exact G.
  - apply sequence_start_event_does; exact G.
  - apply mapping_start_event_does; exact G.
Qed.
Lemma event_delete_does e h : good h -> sound_event e -> holds h (ev_blocks e) ->
  does (event_delete e) h (ev_blocks e) (fun _ g _ => g = []).
Proof.
  intros G S H. pose proof (ext_refl h) as X. unfold does. destruct e; cbn [event_delete ev_blocks] in *;
    try (eapply ends_ret with (g := []); [assumption|assumption|cn|reflexivity]).
  - freeing. unfold h_for_each. eapply ends_bind; [eassumption|apply (h_pop_all_does free_pair pair_blocks); [exact free_pair_does|assumption|exact (proj1 S)|cn]|].
    cbn beta. intros _ g h2 G2 X2 X3 C ->. eapply ends_does; [eassumption|apply h_free_does; side| |]; cbn beta; [tauto|]. intros _ g h3 C3 ->. cn.
  - apply h_free_does; assumption.
  - do 2 freeing. eapply ends_does; [eassumption|apply h_free_does; side| |]; cbn beta; [tauto|]. intros _ g h3 C3 ->. cn.
  - freeing. eapply ends_does; [eassumption|apply h_free_does; side| |]; cbn beta; [tauto|]. intros _ g h3 C3 ->. cn.
  - freeing. eapply ends_does; [eassumption|apply h_free_does; side| |]; cbn beta; [tauto|]. intros _ g h3 C3 ->. cn.
Qed.

(* ---- histories ---- *)
Lemma flat_split {A} (f : A -> list nat) l k x b : nth_error l k = Some x ->
  (cnt (flat_map f l) b = cnt (f x) b + cnt (flat_map f (remove_nth k l)) b)%nat.
Proof.
  revert k. induction l as [|y l IH]; intros [|k] E; try discriminate; cbn [nth_error remove_nth flat_map] in *.
  - injection E as ->. rewrite cnt_app. reflexivity.
  - rewrite !cnt_app, (IH k E). lia.
Qed.
Lemma forall_remove {A} (P : A -> Prop) l k : Forall P l -> Forall P (remove_nth k l).
Proof. intros F. revert k. induction F; intros [|k]; cbn [remove_nth]; auto. Qed.
Lemma client_does calls evs h : good h -> Forall sound_event evs -> holds h (flat_map ev_blocks evs) ->
  does (client evs calls) h (flat_map ev_blocks evs) (fun r g h' => g = flat_map ev_blocks r /\ Forall sound_event r).
Proof.
  revert evs h. induction calls as [|c calls IH]; intros evs h G S H; pose proof (ext_refl h) as X; unfold does; cbn [client].
  - eapply ends_ret; [assumption|assumption| |split; [reflexivity|exact S]]. cn.
  - destruct c as [e|k].
    + call (event_initialize_does e h G). destruct a as [x|].
      * destruct Rc as (-> & Sx & _). eapply ends_does; [eassumption|apply IH; [assumption|apply Forall_app; auto|cn]| |]; cbn beta; [tauto|].
        intros r g h2 C (-> & _). clear IH. cn.
      * destruct Rc as (-> & _). eapply ends_does; [eassumption|apply IH; [assumption|assumption|cn]| |]; cbn beta; [tauto|].
        intros r g h2 C (-> & _). clear IH. cn.
    + destruct (nth_error evs k) as [x|] eqn:E.
      * assert (Sx : sound_event x) by (rewrite Forall_forall in S; apply S; eapply nth_error_In; exact E).
        pose proof (fun b => flat_split ev_blocks evs k x b E) as F.
        eapply ends_bind; [eassumption|apply event_delete_does; [assumption|exact Sx|]|].
        { intros b. specialize (H b). specialize (F b). lia. }
        cbn beta. intros _ g h1 G1 X1 _ C1 ->.
        eapply ends_does; [eassumption|apply IH; [assumption|apply forall_remove; exact S|]| |]; cbn beta; [|tauto|].
        { intros b. specialize (H b). specialize (F b). specialize (C1 b). rewrite cnt_nil in C1. lia. }
        intros r g h2 C (-> & _) b. specialize (F b). specialize (C1 b). specialize (C b). rewrite cnt_nil in C1. lia.
      * eapply ends_does; [eassumption|apply IH; [assumption|assumption|cn]| |]; cbn beta; [tauto|].
        intros r g h2 C (-> & _). clear IH. cn.
Qed.
Lemma good_empty answers : good (empty_heap answers).
Proof. split; [constructor|intros b []]. Qed.
Theorem event_history calls answers : exists evs h',
  client [] calls (empty_heap answers) = HOk evs h' /\ Permutation (live h') (flat_map ev_blocks evs).
Proof.
  destruct (client_does calls [] (empty_heap answers)) as (evs & g & h' & E & G & _ & C & -> & _); [apply good_empty|constructor|intros b; reflexivity|].
  exists evs, h'. split; [exact E|]. apply (Permutation_count_occ Nat.eq_dec). intros b. specialize (C b).
  cbn [flat_map] in C. unfold empty_heap in C. cbn [live] in C. rewrite !cnt_nil in C. unfold cnt in C. lia.
Qed.
Theorem event_call e h : good h ->
  match event_initialize e h with
  | HOk (Some x) h' => good h' /\ changes h [] (ev_blocks x) h' /\ event_at h' x = Some e /\
      event_strings_good e = true /\
      exists h'', event_delete x h' = HOk tt h'' /\ Permutation (live h'') (live h)
  | HOk None h' => good h' /\ Permutation (live h') (live h) /\ (~ generous h \/ event_strings_good e = false)
  | HAssert | HUndef => False
  end.
Proof.
  intros G. destruct (event_initialize_does e h G) as (r & g & h' & -> & G' & X & C & R). destruct r as [x|].
  - destruct R as (-> & S & V & U). split; [exact G'|]. split; [exact C|]. split; [exact V|]. split; [exact U|].
    destruct (event_delete_does x h' G' S) as ([] & g & h'' & E & _ & _ & C2 & ->). { cn. }
    exists h''. split; [exact E|]. apply (Permutation_count_occ Nat.eq_dec). intros b. specialize (C b). specialize (C2 b).
    rewrite !cnt_nil in *. unfold cnt in *. lia.
  - destruct R as (-> & R). split; [exact G'|]. split; [|exact R]. apply (Permutation_count_occ Nat.eq_dec). intros b. specialize (C b).
    rewrite !cnt_nil in *. unfold cnt in *. lia.
Qed.
