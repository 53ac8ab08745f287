(* Counting blocks; the allocator and the arrays. *)
From Verif Require Import Base ReaderModel Types DocModel HeapModel HeapSpec.

Lemma cnt_nil b : cnt [] b = 0%nat. Proof. reflexivity. Qed.
Lemma cnt_cons x l b : cnt (x :: l) b = (cnt [x] b + cnt l b)%nat.
Proof. unfold cnt. cbn [count_occ]. destruct (Nat.eq_dec x b); reflexivity. Qed.
Lemma cnt_two x y l b : cnt (x :: y :: l) b = (cnt [x] b + cnt (y :: l) b)%nat.
Proof. apply cnt_cons. Qed.
Lemma cnt_app l k b : cnt (l ++ k) b = (cnt l b + cnt k b)%nat.
Proof. apply count_occ_app. Qed.
Lemma cnt_one x b : cnt [x] b = if Nat.eq_dec x b then 1%nat else 0%nat.
Proof. unfold cnt. cbn [count_occ]. destruct (Nat.eq_dec x b); reflexivity. Qed.
Lemma cnt_rev l b : cnt (rev l) b = cnt l b.
Proof. induction l as [|x l IH]; [reflexivity|]. cbn [rev]. rewrite cnt_app, (cnt_cons x l), IH. lia. Qed.
Lemma cnt_flat_rev {A} (f : A -> list nat) l b : cnt (flat_map f (rev l)) b = cnt (flat_map f l) b.
Proof.
  induction l as [|x l IH]; [reflexivity|]. cbn [rev flat_map]. rewrite flat_map_app, !cnt_app, IH.
  cbn [flat_map]. rewrite app_nil_r. lia.
Qed.
Lemma cnt_in l b : (0 < cnt l b)%nat <-> In b l.
Proof. unfold cnt. symmetry. apply count_occ_In. Qed.
Lemma nodup_cnt l : NoDup l <-> forall b, (cnt l b <= 1)%nat.
Proof. apply NoDup_count_occ. Qed.
Lemma cnt_remove x l b : NoDup l -> In x l -> (cnt (remove Nat.eq_dec x l) b + cnt [x] b = cnt l b)%nat.
Proof.
  intros N I. rewrite cnt_one. destruct (Nat.eq_dec x b) as [<-|D].
  - assert (cnt (remove Nat.eq_dec x l) x = 0%nat).
    { apply count_occ_not_In. apply remove_In. }
    assert (cnt l x <= 1)%nat by (apply nodup_cnt; exact N).
    apply cnt_in in I. lia.
  - rewrite Nat.add_0_r. clear N I. induction l as [|y l IH]; [reflexivity|].
    cbn [remove]. destruct (Nat.eq_dec x y) as [<-|E].
    + rewrite (cnt_cons x l), cnt_one, IH. destruct (Nat.eq_dec x b); [congruence|lia].
    + rewrite (cnt_cons y (remove _ _ _)), (cnt_cons y l), IH. reflexivity.
Qed.
Lemma nodup_remove x (l : list nat) : NoDup l -> NoDup (remove Nat.eq_dec x l).
Proof.
  intros N. apply nodup_cnt. intros b. pose proof (proj1 (nodup_cnt l) N b).
  destruct (in_dec Nat.eq_dec x l) as [I|I].
  - pose proof (cnt_remove x l b N I). lia.
  - rewrite notin_remove by exact I. lia.
Qed.

Lemma cnt_first x l b : (cnt (x :: l) b = cnt [x] b + cnt l b)%nat.
Proof. change (x :: l) with ([x] ++ l). apply cnt_app. Qed.
Ltac cnt_split := repeat match goal with
  | |- context [cnt (?x :: ?l) ?b] => lazymatch l with [] => fail | _ => rewrite (cnt_first x l b) end
  | H : context [cnt (?x :: ?l) ?b] |- _ => lazymatch l with [] => fail | _ => rewrite (cnt_first x l b) in H end
  end.
Ltac cn := unfold holds, changes, tags_blocks, pair_blocks in *;
  cbn [ptr_blocks a_at a_els flat_map app fst snd] in *;
  let b := fresh "b" in intro b;
  repeat match goal with H : forall x : nat, (_ = _)%nat |- _ => specialize (H b) | H : forall x : nat, (_ <= _)%nat |- _ => specialize (H b) end;
  repeat (rewrite ?cnt_app, ?cnt_two, ?cnt_nil, ?flat_map_app, ?app_nil_r in *; cbn [ptr_blocks a_at a_els flat_map app fst snd] in *);
  cnt_split; rewrite ?cnt_app, ?cnt_two, ?cnt_nil, ?app_nil_r in *; try lia.

(* no string is changed and no number is used twice; an allocator that refuses
   nothing goes on refusing nothing *)
Definition ext (h h' : heap) : Prop := (exists t, texts h' = texts h ++ t) /\ (generous h -> generous h').
Lemma ext_refl h : ext h h. Proof. split; [exists []; symmetry; apply app_nil_r|auto]. Qed.
Lemma ext_trans a b c : ext a b -> ext b c -> ext a c.
Proof. intros [[t T] P] [[u U] Q]. split; [|auto]. exists (t ++ u). rewrite U, T, app_assoc. reflexivity. Qed.

Lemma allocated_in h b : allocated h b = true <-> In b (live h).
Proof.
  unfold allocated. rewrite existsb_exists. split.
  - intros (x & I & E). apply Nat.eqb_eq in E. subst. exact I.
  - intros I. exists b. split; [exact I|apply Nat.eqb_refl].
Qed.
Lemma held h l b : holds h l -> In b l -> In b (live h).
Proof. intros H I. apply cnt_in. apply cnt_in in I. specialize (H b). lia. Qed.
Lemma held_below h l b : good h -> holds h l -> In b l -> (b < length (texts h))%nat.
Proof. intros [_ G] H I. apply G. eapply held; eassumption. Qed.

(* ---- values do not change ---- *)
Lemma nth_ext h h' b : ext h h' -> (b < length (texts h))%nat -> nth b (texts h') [] = nth b (texts h) [].
Proof. intros [[t ->] _] L. apply app_nth1. exact L. Qed.
Lemma opt_ext h h' p : good h -> ext h h' -> holds h (ptr_blocks p) -> opt_at h' p = opt_at h p.
Proof.
  intros G E H. destruct p as [b|]; [|reflexivity]. cbn [opt_at]. f_equal. apply nth_ext; [exact E|].
  eapply held_below; [exact G|exact H|left; reflexivity].
Qed.
Lemma str_ext h h' p : good h -> ext h h' -> holds h (ptr_blocks p) -> str_at h' p = str_at h p.
Proof.
  intros G E H. destruct p as [b|]; [|reflexivity]. cbn [str_at]. apply nth_ext; [exact E|].
  eapply held_below; [exact G|exact H|left; reflexivity].
Qed.
Lemma version_ext h h' p : good h -> ext h h' -> holds h (ptr_blocks p) -> version_at h' p = version_at h p.
Proof. intros G E H. unfold version_at. rewrite (opt_ext h h' p G E H). reflexivity. Qed.
Lemma pair_ext h h' p : good h -> ext h h' -> holds h (pair_blocks p) -> pair_at h' p = pair_at h p.
Proof. intros G E H. unfold pair_at. f_equal; apply str_ext; auto; cn. Qed.
Lemma pairs_ext h h' l : good h -> ext h h' -> holds h (flat_map pair_blocks l) -> map (pair_at h') l = map (pair_at h) l.
Proof.
  intros G E. induction l as [|x l IH]; intros H; [reflexivity|]. cbn [map]. cbn [flat_map] in H. f_equal.
  - apply pair_ext; [exact G|exact E|]. cn.
  - apply IH. cn.
Qed.

(* ---- the allocator ---- *)
(* A call: it ends normally, uses up [taken], leaves [given] and has result [Q] *)
Definition ends {A} (r : hres A) (h : heap) (taken : list nat) (Q : A -> list nat -> heap -> Prop) : Prop :=
  exists a given h', r = HOk a h' /\ good h' /\ ext h h' /\ changes h taken given h' /\ Q a given h'.
Definition does {A} (m : hm A) (h : heap) (taken : list nat) (Q : A -> list nat -> heap -> Prop) : Prop := ends (m h) h taken Q.
Lemma ends_bind {A B} (m : hm A) (k : A -> hm B) h0 h1 taken taken1 Q1 Q :
  ext h0 h1 -> does m h1 taken1 Q1 ->
  (forall a g h2, good h2 -> ext h1 h2 -> ext h0 h2 -> changes h1 taken1 g h2 -> Q1 a g h2 -> ends (k a h2) h0 taken Q) ->
  ends (hbind m k h1) h0 taken Q.
Proof.
  intros X (a & g & h2 & E & G & X2 & C & R) K. unfold hbind. rewrite E. apply (K a g h2); auto. eapply ext_trans; eassumption.
Qed.
Lemma ends_ret {A} (a : A) g h0 h1 taken (Q : A -> list nat -> heap -> Prop) :
  good h1 -> ext h0 h1 -> changes h0 taken g h1 -> Q a g h1 -> ends (hret a h1) h0 taken Q.
Proof. intros. exists a, g, h1. auto. Qed.
Lemma ends_ok {A B} (m : hm A) (k : A -> hm B) a h0 h1 taken Q :
  m h1 = HOk a h1 -> ends (k a h1) h0 taken Q -> ends (hbind m k h1) h0 taken Q.
Proof. intros E K. unfold hbind. rewrite E. exact K. Qed.
Lemma ends_does {A} (m : hm A) h0 h1 taken taken1 Q1 (Q : A -> list nat -> heap -> Prop) :
  ext h0 h1 -> does m h1 taken1 Q1 ->
  (forall a g h2, good h2 -> ext h1 h2 -> ext h0 h2 -> changes h1 taken1 g h2 -> Q1 a g h2 -> changes h0 taken g h2 -> Q a g h2) ->
  (forall a g h2, changes h1 taken1 g h2 -> Q1 a g h2 -> changes h0 taken g h2) ->
  ends (m h1) h0 taken Q.
Proof.
  intros X (a & g & h2 & E & G & X2 & C & R) K C0. exists a, g, h2. specialize (C0 a g h2 C R). assert (ext h0 h2) by (eapply ext_trans; eassumption).
  repeat (split; [assumption|]). eapply K; eauto.
Qed.

Lemma h_malloc_does s h : good h ->
  does (h_malloc s) h [] (fun p g h' => g = ptr_blocks p /\
    (p = None \/ exists b, p = Some b /\ nth b (texts h') [] = s) /\ (generous h -> p <> None)).
Proof.
  intros [N B]. unfold h_malloc, does, ends, generous.
  assert (F : ~ In (length (texts h)) (live h)) by (intros I; apply B in I; lia).
  assert (R : forall g, ((~ In false (grants h)) -> ~ In false g) -> exists a given h',
    HOk (Some (length (texts h))) (mkHeap (length (texts h) :: live h) (texts h ++ [s]) g) = HOk a h' /\
    good h' /\ ext h h' /\ changes h [] given h' /\ given = ptr_blocks a /\ (a = None \/ exists b, a = Some b /\ nth b (texts h') [] = s) /\
    (~ In false (grants h) -> a <> None)).
  { intros g Hg. eexists (Some _), _, _. split; [reflexivity|]. cbn [ptr_blocks]. split; [|split; [|split; [|split; [reflexivity|split; [|congruence]]]]].
    - split; cbn [live texts]; [constructor; assumption|]. rewrite app_length. cbn [length].
      intros b [<-|I]; [lia|]. specialize (B b I). lia.
    - split; [exists [s]; reflexivity|exact Hg].
    - intros b. cbn [live]. rewrite cnt_cons, !cnt_nil. lia.
    - right. eexists. split; [reflexivity|]. cbn [texts]. apply nth_middle. }
  destruct (grants h) as [|[|] g] eqn:E; cbn [tl]; [apply R; intros; exact (fun F => F)|apply R; cbn [In]; tauto|].
  eexists None, [], _. split; [reflexivity|]. split; [split; assumption|].
  split; [split; [exists []; symmetry; apply app_nil_r|unfold generous; rewrite E; cbn [In grants]; tauto]|].
  split; [intros b; cbn [live]; reflexivity|]. split; [reflexivity|]. split; [left; reflexivity|cbn [In]; tauto].
Qed.
Lemma h_free_does p h : good h -> holds h (ptr_blocks p) ->
  does (h_free p) h (ptr_blocks p) (fun _ g h' => g = []).
Proof.
  intros G H. unfold does, ends, h_free. destruct p as [b|].
  - assert (I : In b (live h)) by (eapply held; [exact H|left; reflexivity]).
    rewrite (proj2 (allocated_in h b) I). eexists tt, [], _. split; [reflexivity|]. destruct G as [N B].
    split; [|split; [|split]].
    + split; cbn [live texts]; [apply nodup_remove; exact N|]. intros x X. apply in_remove in X. apply B, X.
    + split; [exists []; symmetry; apply app_nil_r|exact (fun g => g)].
    + intros x. cbn [live ptr_blocks]. rewrite cnt_nil. pose proof (cnt_remove b (live h) x N I). lia.
    + reflexivity.
  - eexists tt, [], h. split; [reflexivity|]. split; [exact G|]. split; [apply ext_refl|]. split; [|reflexivity]. intros x. reflexivity.
Qed.
Lemma h_read_ok p h : p <> None -> holds h (ptr_blocks p) -> h_read p h = HOk (str_at h p) h.
Proof.
  intros P H. destruct p as [b|]; [|congruence]. unfold h_read.
  rewrite (proj2 (allocated_in h b)); [reflexivity|]. eapply held; [exact H|left; reflexivity].
Qed.
Lemma h_touch_ok p h : p <> None -> holds h (ptr_blocks p) -> h_touch p h = HOk tt h.
Proof. intros P H. unfold h_touch, hbind. rewrite h_read_ok by assumption. reflexivity. Qed.

Ltac side := subst; first [assumption | congruence | cn].
(* run one call of which the effect is known *)
Ltac call L := eapply ends_bind; [eassumption | eapply L; solve [side] | cbn beta; intros ?a ?g ?hc ?Gc ?Xc ?Xc ?Cc ?Rc; cbn [fst snd] in *].
Ltac step := eapply ends_ok; [apply h_touch_ok; side |].

Lemma h_strdup_does p h : good h -> holds h (ptr_blocks p) ->
  does (h_strdup p) h [] (fun q g h' => g = ptr_blocks q /\
    (q = None \/ (p <> None /\ q <> None /\ str_at h' q = str_at h p)) /\ (generous h -> p <> None -> q <> None)).
Proof.
  intros G H. destruct p as [b|].
  - unfold h_strdup. eapply ends_ok; [apply h_read_ok; side|].
    eapply ends_does; [apply ext_refl|apply h_malloc_does; exact G| |intros; side].
    cbn beta. intros q g h' G' _ X _ (-> & R & Y) _. split; [reflexivity|]. split; [|auto].
    destruct R as [->|(c & -> & Hc)]; [left; reflexivity|right]. split; [congruence|]. split; [congruence|]. exact Hc.
  - eapply ends_ret; [exact G|apply ext_refl| |split; [|split; [left; reflexivity|congruence]]; reflexivity]. cn.
Qed.

(* ---- arrays ---- *)
Lemma h_init_does {A} h : good h ->
  does (@h_init A) h [] (fun r g h' => g = ptr_blocks (a_at (fst r)) /\ a_els (fst r) = [] /\
    (if snd r then a_at (fst r) <> None else fst r = null_arr) /\ (generous h -> snd r = true)).
Proof.
  intros G. pose proof (ext_refl h). unfold does, h_init. call (h_malloc_does [] h G). destruct Rc as (-> & R & Y).
  eapply ends_ret; [assumption|assumption|exact Cc|]. destruct a as [b|]; cbn [fst snd a_at a_els]; repeat split; try congruence.
  intros g. exfalso. apply (Y g). reflexivity.
Qed.
Lemma h_free_ends {B} p (k : unit -> hm B) h0 h1 taken Q : good h1 -> ext h0 h1 -> holds h1 (ptr_blocks p) ->
  (forall h2, good h2 -> ext h1 h2 -> ext h0 h2 -> changes h1 (ptr_blocks p) [] h2 -> ends (k tt h2) h0 taken Q) ->
  ends (hbind (h_free p) k h1) h0 taken Q.
Proof.
  intros G X H K. eapply ends_bind; [exact X|apply h_free_does; assumption|]. cbn beta. intros [] g h2 G2 X2 X3 C ->. apply K; assumption.
Qed.
Ltac freeing := apply h_free_ends; [assumption|assumption|side|intros ?hf ?Gf ?Xf ?Xf ?Cf].
Lemma h_push_does {A} (a : arr A) x h : good h -> a_at a <> None -> holds h (ptr_blocks (a_at a)) ->
  does (h_push a x) h (ptr_blocks (a_at a)) (fun r g h' => g = ptr_blocks (a_at (fst r)) /\
    a_at (fst r) <> None /\ (if snd r then a_els (fst r) = a_els a ++ [x] else fst r = a) /\ (generous h -> snd r = true)).
Proof.
  intros G P H. pose proof (ext_refl h). unfold does, h_push.
  assert (W : does (if Nat.eqb (a_off a + length (a_els a)) (a_cap a) then h_extend a else hret (a, true)) h (ptr_blocks (a_at a))
    (fun r g h' => g = ptr_blocks (a_at (fst r)) /\ a_at (fst r) <> None /\ a_els (fst r) = a_els a /\
       (snd r = false -> fst r = a) /\ (generous h -> snd r = true))).
  { destruct (Nat.eqb (a_off a + length (a_els a)) (a_cap a)).
    - unfold h_extend. destruct (a_at a) as [b0|] eqn:Ea; [|congruence].
      destruct (Nat.eqb (a_off a) 0).
      + unfold does. step. call (h_malloc_does [] h G). destruct Rc as (-> & R & Y). destruct a0 as [b|].
        * freeing. eapply ends_ret; [assumption|assumption| |cbn [fst snd a_at a_els]; split; [reflexivity|]; repeat split; congruence]. cn.
        * eapply ends_ret; [assumption|assumption| |cbn [fst snd a_at a_els]; rewrite Ea; split; [reflexivity|]; repeat split; try congruence].
          { cn. } intros g. exfalso. apply (Y g). reflexivity.
      + unfold does. step. eapply ends_ret; [assumption|assumption| |cbn [fst snd a_at a_els]; split; [reflexivity|]; repeat split; congruence]. cn.
    - eapply ends_ret; [assumption|assumption| |cbn [fst snd]; split; [reflexivity|]; repeat split; congruence]. cn. }
  eapply ends_bind; [exact H0|exact W|]. cbn beta. intros [a' ok] g h2 G2 X2 _ C (-> & P' & E & F & Y). cbn [fst snd] in *. destruct ok.
  - step. eapply ends_ret; [assumption|assumption|exact C|]. cbn [fst snd a_at a_els]. rewrite E. auto.
  - rewrite (F eq_refl) in *. eapply ends_ret; [assumption|assumption|exact C|]. cbn [fst snd]. auto.
Qed.
Lemma h_pop_all_does {A} (f : A -> hm unit) (blocks : A -> list nat) at_ els h :
  (forall x h, good h -> holds h (blocks x) -> does (f x) h (blocks x) (fun _ g _ => g = [])) ->
  good h -> (els <> [] -> at_ <> None) -> holds h (flat_map blocks els ++ ptr_blocks at_) ->
  does (h_pop_all f at_ els) h (flat_map blocks els) (fun _ g _ => g = []).
Proof.
  intros F. revert h. induction els as [|x els IH]; intros h G P H; pose proof (ext_refl h) as X; unfold does.
  - eapply ends_ret; [assumption|assumption| |reflexivity]. cn.
  - cbn [h_pop_all]. eapply ends_ok; [apply h_touch_ok; [apply P; congruence|cn]|].
    eapply ends_bind; [assumption|apply F; [exact G|cn]|]. cbn beta. intros _ g h1 G1 X1 _ C1 ->.
    eapply ends_does; [exact X1|apply IH; [exact G1|intros _; apply P; congruence|cn]| |]; cbn beta; [tauto|].
    intros _ g h2 C ->. cn.
Qed.
Lemma free_pair_does p h : good h -> holds h (pair_blocks p) -> does (free_pair p) h (pair_blocks p) (fun _ g _ => g = []).
Proof.
  intros G H. pose proof (ext_refl h) as X. unfold does, free_pair. freeing.
  eapply ends_does; [eassumption|apply h_free_does; side| |]; cbn beta; [tauto|]. intros _ g h2 C ->. cn.
Qed.
Lemma empty_stack_does {A} (f : A -> hm unit) (blocks : A -> list nat) (a : arr A) h :
  (forall x h, good h -> holds h (blocks x) -> does (f x) h (blocks x) (fun _ g _ => g = [])) ->
  good h -> (a_els a <> [] -> a_at a <> None) -> holds h (flat_map blocks (a_els a) ++ ptr_blocks (a_at a)) ->
  does (h_empty_stack f a) h (flat_map blocks (a_els a)) (fun _ g _ => g = []).
Proof.
  intros F G P H. eapply ends_does; [apply ext_refl|unfold h_empty_stack; eapply h_pop_all_does with (blocks := blocks); [exact F|exact G| |]| |]; cbn beta; [| |tauto|].
  - intros E. apply P. intros N. apply E. rewrite N. reflexivity.
  - intros b. specialize (H b). rewrite cnt_app in *. rewrite cnt_flat_rev. exact H.
  - intros _ g h2 C ->. intros b. specialize (C b). rewrite cnt_flat_rev in C. exact C.
Qed.
