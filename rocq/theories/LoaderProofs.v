(* Proofs about the loader. *)
From Verif Require Import Base ReaderModel Types TreeSpec EventAcc DocModel DocSpec ParserModel ParserSpec ParserProofs ParserFinal LoaderModel LoaderSpec.

Definition names (s : lstate) : anchors := map fst (l_aliases s).

(* ---- what loading a tree builds, as a function ---- *)
Fixpoint lookup (env : anchors) (a : list N) : option nat :=
  match env with
  | [] => None
  | (b, i) :: r => if str_eqb b a then Some i else lookup r a
  end.
Definition decl (env : anchors) (a : option (list N)) (i : nat) : option anchors :=
  match a with
  | None => Some env
  | Some a => match lookup env a with Some _ => None | None => Some (env ++ [(a, i)]) end
  end.
Definition scalar_node tag v s := mkNode (choose_tag tag default_scalar_tag) (NScalar v s).
Definition seq_node tag ids s := mkNode (choose_tag tag default_sequence_tag) (NSequence ids s).
Definition map_node tag ids s := mkNode (choose_tag tag default_mapping_tag) (NMapping ids s).
Section build.
  Variable build : tree -> anchors -> nat -> option (list node * nat * anchors).
  Fixpoint build_items' (ts : list tree) (env : anchors) (n : nat) : option (list node * list nat * anchors) :=
    match ts with
    | [] => Some ([], [], env)
    | t :: r =>
        match build t env n with
        | None => None
        | Some (new, i, env1) =>
            match build_items' r env1 (n + length new) with
            | None => None
            | Some (new', is, env2) => Some (new ++ new', i :: is, env2)
            end
        end
    end.
  Fixpoint build_pairs' (ps : list (tree * tree)) (env : anchors) (n : nat) : option (list node * list (nat * nat) * anchors) :=
    match ps with
    | [] => Some ([], [], env)
    | (k, v) :: r =>
        match build k env n with
        | None => None
        | Some (new, i, env1) =>
            match build v env1 (n + length new) with
            | None => None
            | Some (new1, j, env2) =>
                match build_pairs' r env2 (n + length new + length new1) with
                | None => None
                | Some (new', is, env3) => Some (new ++ new1 ++ new', (i, j) :: is, env3)
                end
            end
        end
    end.
End build.
Fixpoint build (t : tree) (env : anchors) (n : nat) : option (list node * nat * anchors) :=
  match t with
  | Alias a => match lookup env a with Some i => Some ([], i, env) | None => None end
  | Scalar a tag v _ _ s =>
      match decl env a (S n) with Some env' => Some ([scalar_node tag v s], S n, env') | None => None end
  | Sequence a tag _ s items =>
      match decl env a (S n) with
      | None => None
      | Some env1 =>
          match build_items' build items env1 (S n) with
          | None => None
          | Some (new, ids, env2) => Some (seq_node tag ids s :: new, S n, env2)
          end
      end
  | Mapping a tag _ s pairs =>
      match decl env a (S n) with
      | None => None
      | Some env1 =>
          match build_pairs' build pairs env1 (S n) with
          | None => None
          | Some (new, ids, env2) => Some (map_node tag ids s :: new, S n, env2)
          end
      end
  end.
Definition build_items := build_items' build.
Definition build_pairs := build_pairs' build.

(* ---- folding load_event ---- *)
Fixpoint load_all (s : lstate) (es : list event) : lstep :=
  match es with [] => LNext s | e :: r => lbind (load_event s e) (fun s' => load_all s' r) end.
Lemma load_all_app s a b : load_all s (a ++ b) = lbind (load_all s a) (fun s' => load_all s' b).
Proof. revert s. induction a as [|e a IH]; intros s; cbn; [reflexivity|]. destruct (load_event s e); cbn; auto. Qed.

Definition coll (n : node) : bool := match n_data n with NScalar _ _ => false | _ => true end.
Definition add_child (n : node) (i : nat) : node :=
  match n with
  | mkNode tag (NSequence items s) => mkNode tag (NSequence (items ++ [i]) s)
  | mkNode tag (NMapping pairs s) => mkNode tag (NMapping (add_to_pairs pairs i) s)
  | n => n
  end.
Definition attach (ns : list node) (ctx : list nat) (i : nat) : list node :=
  match ctx with
  | [] => ns
  | p :: _ => match node_ref ns p with Some n => node_set ns p (add_child n i) | None => ns end
  end.
Definition ctx_ok (ns : list node) (ctx : list nat) : Prop :=
  match ctx with [] => True | p :: _ => exists n, node_ref ns p = Some n /\ coll n = true end.
Definition env_ok (env : anchors) (n : nat) : Prop := Forall (fun x => (1 <= snd x <= n)%nat) env.
Definition sok (s : lstate) : Prop := ctx_ok (l_nodes s) (l_ctx s) /\ env_ok (names s) (length (l_nodes s)).

Lemma node_add_ok s i : ctx_ok (l_nodes s) (l_ctx s) ->
  load_node_add s i = LNext (mkLstate (attach (l_nodes s) (l_ctx s) i) (l_aliases s) (l_ctx s)).
Proof.
  destruct s as [ns al ctx]; cbn. unfold load_node_add, attach; cbn. destruct ctx as [|p c]; [reflexivity|].
  intros (n & E & C). rewrite E. destruct n as [tag [v st|items st|pairs st]]; cbn in *; congruence.
Qed.

Lemma find_lookup al a : find_alias al a = None <-> lookup (map fst al) a = None.
Proof.
  unfold find_alias. induction al as [|[[b i] m] al IH]; cbn; [tauto|].
  destruct (str_eqb b a); [split; discriminate|exact IH].
Qed.
Lemma find_lookup_some al a i m : find_alias al a = Some (i, m) -> lookup (map fst al) a = Some i.
Proof.
  unfold find_alias. induction al as [|[[b j] m'] al IH]; cbn; [discriminate|].
  destruct (str_eqb b a); [intros E; congruence|exact IH].
Qed.
Lemma lookup_In env a : lookup env a = None <-> ~ In a (map fst env).
Proof.
  induction env as [|[b i] r IH]; cbn; [tauto|]. destruct (str_eqb_spec b a) as [->|D].
  - split; [discriminate|intuition].
  - rewrite IH. intuition.
Qed.
Lemma lookup_some env a i : lookup env a = Some i -> In (a, i) env.
Proof.
  induction env as [|[b j] r IH]; cbn; [discriminate|]. destruct (str_eqb_spec b a) as [->|D]; [intros E; inversion E; auto|auto].
Qed.

(* the error of a step *)
Definition fails (r : lstep) (pr : pproblem) : Prop := exists e, r = LError e /\ pe_problem e = pr.

Lemma register_ok s i m a :
  match decl (names s) a i with
  | Some env' => exists al', map fst al' = env' /\ register_anchor s i m a = LNext (mkLstate (l_nodes s) al' (l_ctx s))
  | None => fails (register_anchor s i m a) DuplicateAnchor
  end.
Proof.
  destruct s as [ns al ctx]. unfold decl, register_anchor, names; cbn. destruct a as [a|]; [|eauto].
  destruct (find_alias al a) as [[j mj]|] eqn:E.
  - rewrite (find_lookup_some _ _ _ _ E). eexists. split; reflexivity.
  - rewrite (proj1 (find_lookup al a) E). eexists. split; [|reflexivity]. rewrite map_app. reflexivity.
Qed.

Lemma nth_app_l {A} (l l' : list A) k x : nth_error l k = Some x -> nth_error (l ++ l') k = Some x.
Proof. intros E. rewrite nth_error_app1; [exact E|]. apply nth_error_Some. congruence. Qed.
Lemma set_nth_app {A} k (x : A) l l' : (k < length l)%nat -> set_nth k x (l ++ l') = set_nth k x l ++ l'.
Proof. revert k. induction l as [|y l IH]; intros k H; cbn in *; [lia|]. destruct k; cbn; [reflexivity|]. rewrite IH by lia. reflexivity. Qed.
Lemma set_nth_length {A} k (x : A) l : length (set_nth k x l) = length l.
Proof. revert k. induction l as [|y l IH]; intros k; cbn; [destruct k; reflexivity|]. destruct k; cbn; auto. Qed.
Lemma set_nth_mid {A} (l : list A) x y r : set_nth (length l) y (l ++ x :: r) = l ++ y :: r.
Proof. induction l as [|z l IH]; cbn; [reflexivity|]. rewrite IH. reflexivity. Qed.
Lemma nth_mid {A} (l : list A) x r : nth_error (l ++ x :: r) (length l) = Some x.
Proof. induction l; cbn; auto. Qed.
Lemma node_ref_lt ns p n : node_ref ns p = Some n -> (1 <= p <= length ns)%nat.
Proof. destruct p; cbn; [discriminate|]. intros E. assert (p < length ns)%nat by (apply nth_error_Some; congruence). lia. Qed.
Lemma node_ref_app ns ns' p n : node_ref ns p = Some n -> node_ref (ns ++ ns') p = Some n.
Proof. destruct p; cbn; [discriminate|]. apply nth_app_l. Qed.

Lemma attach_length ns ctx i : length (attach ns ctx i) = length ns.
Proof.
  unfold attach. destruct ctx as [|[|p] c]; cbn; auto. destruct (nth_error ns p); auto. apply set_nth_length.
Qed.
Lemma attach_app ns ns' ctx i : ctx_ok ns ctx -> attach (ns ++ ns') ctx i = attach ns ctx i ++ ns'.
Proof.
  unfold attach, ctx_ok. destruct ctx as [|p c]; [auto|]. intros (n & E & _). rewrite E, (node_ref_app _ _ _ _ E).
  pose proof (node_ref_lt _ _ _ E). destruct p as [|p]; [lia|]. cbn. apply set_nth_app. lia.
Qed.
Lemma ctx_ok_app ns ns' ctx : ctx_ok ns ctx -> ctx_ok (ns ++ ns') ctx.
Proof. unfold ctx_ok. destruct ctx; auto. intros (n' & E & C). exists n'. split; auto using node_ref_app. Qed.

Lemma load_new_ok s n a m : sok s ->
  match decl (names s) a (S (length (l_nodes s))) with
  | Some env' => exists al', map fst al' = env' /\
      load_new s n a m = LNext (mkLstate (attach (l_nodes s) (l_ctx s) (S (length (l_nodes s))) ++ [n]) al' (l_ctx s))
  | None => fails (load_new s n a m) DuplicateAnchor
  end.
Proof.
  intros (C & E). unfold load_new. set (s1 := push_new s n).
  assert (L : length (l_nodes s1) = S (length (l_nodes s))) by (cbn; rewrite app_length; cbn; lia). rewrite L.
  pose proof (register_ok s1 (S (length (l_nodes s))) m a) as R. change (names s1) with (names s) in R.
  destruct (decl (names s) a (S (length (l_nodes s)))) as [env'|].
  - destruct R as (al' & A & R). exists al'. split; [exact A|]. rewrite R. cbn [lbind].
    rewrite node_add_ok by (cbn; apply ctx_ok_app; exact C). cbn. rewrite attach_app by exact C. reflexivity.
  - destruct R as (e & -> & P). exists e. auto.
Qed.

Lemma decl_ok env a n env' : decl env a (S n) = Some env' -> env_ok env n -> env_ok env' (S n).
Proof.
  unfold decl, env_ok. intros E H. assert (H' : Forall (fun x : list N * nat => (1 <= snd x <= S n)%nat) env)
    by (eapply Forall_impl; [|exact H]; cbn; intros; lia).
  destruct a as [a|]; [|inversion E; subst; exact H']. destruct (lookup env a); [discriminate|]. inversion E; subst.
  apply Forall_app. split; auto. constructor; auto. cbn. lia.
Qed.
Lemma env_ok_le env n m : env_ok env n -> (n <= m)%nat -> env_ok env m.
Proof. intros H L. eapply Forall_impl; [|exact H]. cbn. intros. lia. Qed.

(* ids and anchors made by build *)
Definition good_build (r : option (list node * nat * anchors)) (n : nat) : Prop :=
  match r with Some (new, i, env') => env_ok env' (n + length new) /\ (1 <= i <= n + length new)%nat | None => True end.
Lemma build_ok t : forall env n, env_ok env n -> good_build (build t env n) n.
Proof.
  induction t as [a|a tag v pi qi s|a tag i s items IH|a tag i s pairs IH] using tree_induction; intros env n E; cbn [build].
  - destruct (lookup env a) as [i|] eqn:L; cbn; auto. apply lookup_some in L. pose proof (proj1 (Forall_forall _ _) E _ L) as K.
    cbn in K. rewrite Nat.add_0_r. split; [exact E|lia].
  - destruct (decl env a (S n)) eqn:D; cbn; auto. rewrite Nat.add_1_r. split; [eapply decl_ok; eauto|lia].
  - destruct (decl env a (S n)) as [env1|] eqn:D; [|exact I]. pose proof (decl_ok _ _ _ _ D E) as E1.
    assert (G : forall items env n, Forall (fun t => forall env n, env_ok env n -> good_build (build t env n) n) items -> env_ok env n ->
      match build_items' build items env n with Some (new, is, env') => env_ok env' (n + length new) | None => True end).
    { clear. induction items as [|t r IH]; intros env n F E; cbn; [rewrite Nat.add_0_r; exact E|]. inversion F; subst.
      match goal with K : forall env n, _ -> good_build _ _ |- _ => specialize (K _ _ E) end.
      destruct (build t env n) as [[[new i] env1]|]; [|exact I]. match goal with K : good_build _ _ |- _ => destruct K as (K1 & K2) end.
      match goal with K : Forall _ r |- _ => specialize (IH _ _ K K1) end.
      destruct (build_items' build r env1 (n + length new)) as [[[new' is] env2]|]; [|exact I]. rewrite app_length, Nat.add_assoc. exact IH. }
    specialize (G _ _ _ IH E1). destruct (build_items' build items env1 (S n)) as [[[new is] env2]|]; [|exact I]. cbn.
    replace (n + S (length new))%nat with (S n + length new)%nat by lia. split; [exact G|lia].
  - destruct (decl env a (S n)) as [env1|] eqn:D; [|exact I]. pose proof (decl_ok _ _ _ _ D E) as E1.
    assert (G : forall pairs env n, Forall (fun kv => (forall env n, env_ok env n -> good_build (build (fst kv) env n) n) /\
         (forall env n, env_ok env n -> good_build (build (snd kv) env n) n)) pairs -> env_ok env n ->
      match build_pairs' build pairs env n with Some (new, is, env') => env_ok env' (n + length new) | None => True end).
    { clear. induction pairs as [|[k v] r IH]; intros env n F E; cbn; [rewrite Nat.add_0_r; exact E|]. inversion F as [|x y FF F']; subst.
      destruct FF as (Fk & Fv). cbn in Fk, Fv. specialize (Fk _ _ E).
      destruct (build k env n) as [[[new i] env1]|]; [|exact I]. destruct Fk as (K1 & K2). specialize (Fv _ _ K1).
      destruct (build v env1 (n + length new)) as [[[new1 j] env2]|]; [|exact I]. destruct Fv as (K3 & K4).
      specialize (IH _ _ F' K3).
      destruct (build_pairs' build r env2 _) as [[[new' is] env3]|]; [|exact I]. rewrite !app_length, !Nat.add_assoc in *. exact IH. }
    specialize (G _ _ _ IH E1). destruct (build_pairs' build pairs env1 (S n)) as [[[new is] env2]|]; [|exact I]. cbn.
    replace (n + S (length new))%nat with (S n + length new)%nat by lia. split; [exact G|lia].
Qed.

(* ---- loading the events of a tree ---- *)
Definition loaded (s : lstate) (r : lstep) (b : option (list node * nat * anchors)) : Prop :=
  match b with
  | Some (new, i, env') => exists al', map fst al' = env' /\ r = LNext (mkLstate (attach (l_nodes s) (l_ctx s) i ++ new) al' (l_ctx s))
  | None => exists e, r = LError e
  end.
Definition tree_loads (t : tree) : Prop := forall s es, map e_ev es = events_of t -> sok s ->
  loaded s (load_all s es) (build t (names s) (length (l_nodes s))).

Lemma map_split {A B} (f : A -> B) l a b : map f l = a ++ b -> exists l1 l2, l = l1 ++ l2 /\ map f l1 = a /\ map f l2 = b.
Proof.
  revert l. induction a as [|x a IH]; intros l E; cbn in E; [exists [], l; auto|].
  destruct l as [|y l]; [discriminate|]. cbn in E. inversion E as [[E1 E2]]. destruct (IH _ E2) as (l1 & l2 & -> & <- & <-).
  exists (y :: l1), l2. auto.
Qed.
Lemma map_cons {A B} (f : A -> B) l x r : map f l = x :: r -> exists y l', l = y :: l' /\ f y = x /\ map f l' = r.
Proof. destruct l; cbn; intros E; inversion E; eauto. Qed.

(* inside a sequence: node [S (length N)] is the sequence *)
Lemma items_load tag st items : Forall tree_loads items -> forall N ids M al c es,
  map e_ev es = items_events items -> env_ok (map fst al) (length (N ++ mkNode tag (NSequence ids st) :: M)) ->
  match build_items items (map fst al) (length (N ++ mkNode tag (NSequence ids st) :: M)) with
  | Some (new, is, env') => exists al', map fst al' = env' /\
      load_all (mkLstate (N ++ mkNode tag (NSequence ids st) :: M) al (S (length N) :: c)) es =
      LNext (mkLstate (N ++ mkNode tag (NSequence (ids ++ is) st) :: M ++ new) al' (S (length N) :: c))
  | None => exists e, load_all (mkLstate (N ++ mkNode tag (NSequence ids st) :: M) al (S (length N) :: c)) es = LError e
  end.
Proof.
  induction items as [|t r IH]; intros F N ids M al c es E EO.
  - cbn in *. destruct es; [|discriminate]. exists al. rewrite !app_nil_r. auto.
  - inversion F as [|x y Ft Fr]; subst. cbn in E. change (flat_map events_of r) with (items_events r) in E.
    destruct (map_split _ _ _ _ E) as (e1 & e2 & -> & E1 & E2).
    unfold build_items; cbn [build_items']. fold build_items.
    set (s := mkLstate (N ++ mkNode tag (NSequence ids st) :: M) al (S (length N) :: c)).
    assert (So : sok s).
    { split; [|exact EO]. cbn. exists (mkNode tag (NSequence ids st)). split; [apply nth_mid|reflexivity]. }
    pose proof (Ft s e1 E1 So) as L. pose proof (build_ok t (names s) (length (l_nodes s)) (proj2 So)) as G.
    change (map fst al) with (names s). change (N ++ mkNode tag (NSequence ids st) :: M) with (l_nodes s).
    rewrite load_all_app. destruct (build t (names s) (length (l_nodes s))) as [[[new i] env1]|].
    + destruct L as (al1 & A1 & L). rewrite L. cbn [lbind].
      assert (At : attach (l_nodes s) (l_ctx s) i = N ++ mkNode tag (NSequence (ids ++ [i]) st) :: M).
      { cbn. rewrite nth_mid. cbn. apply set_nth_mid. }
      rewrite At. rewrite <- app_assoc, <- app_comm_cons.
      destruct G as (G1 & G2).
      assert (LE : length (N ++ mkNode tag (NSequence (ids ++ [i]) st) :: M ++ new) = (length (l_nodes s) + length new)%nat)
        by (cbn; rewrite !app_length; cbn; rewrite app_length; lia).
      specialize (IH Fr N (ids ++ [i]) (M ++ new) al1 c e2 E2). rewrite LE, A1 in IH. specialize (IH G1).
      change (build_items' build r env1 (length (l_nodes s) + length new)) with (build_items r env1 (length (l_nodes s) + length new)).
      destruct (build_items r env1 (length (l_nodes s) + length new)) as [[[new' is] env2]|].
      * destruct IH as (al' & A' & IH). exists al'. split; [exact A'|]. change (l_ctx s) with (S (length N) :: c).
        rewrite IH. rewrite <- !app_assoc. reflexivity.
      * exact IH.
    + destruct L as (e & ->). exists e. reflexivity.
Qed.

Definition complete (pairs : list (nat * nat)) : Prop := Forall (fun p => snd p <> O) pairs.
Lemma add_key pairs k : complete pairs -> add_to_pairs pairs k = pairs ++ [(k, O)].
Proof.
  intros C. unfold add_to_pairs. destruct (rev pairs) as [|[[|x] [|y]] r] eqn:E; auto.
  exfalso. assert (In (S x, O) pairs) by (apply in_rev; rewrite E; left; reflexivity).
  pose proof (proj1 (Forall_forall _ _) C _ H). cbn in *. congruence.
Qed.
Lemma add_value pairs k v : k <> O -> add_to_pairs (pairs ++ [(k, O)]) v = pairs ++ [(k, v)].
Proof. intros K. unfold add_to_pairs. rewrite rev_app_distr. cbn. destruct k; [congruence|]. rewrite rev_involutive. reflexivity. Qed.

Lemma child_load t tag data data' N M al c es :
  tree_loads t -> map e_ev es = events_of t -> coll (mkNode tag data) = true ->
  env_ok (map fst al) (length (N ++ mkNode tag data :: M)) ->
  (forall i, (1 <= i)%nat -> add_child (mkNode tag data) i = mkNode tag (data' i)) ->
  match build t (map fst al) (length (N ++ mkNode tag data :: M)) with
  | Some (new, i, env') => exists al', map fst al' = env' /\ (1 <= i)%nat /\ env_ok env' (length (N ++ mkNode tag (data' i) :: M ++ new)) /\
      length (N ++ mkNode tag (data' i) :: M ++ new) = (length (N ++ mkNode tag data :: M) + length new)%nat /\
      load_all (mkLstate (N ++ mkNode tag data :: M) al (S (length N) :: c)) es =
      LNext (mkLstate (N ++ mkNode tag (data' i) :: M ++ new) al' (S (length N) :: c))
  | None => exists e, load_all (mkLstate (N ++ mkNode tag data :: M) al (S (length N) :: c)) es = LError e
  end.
Proof.
  intros T E C EO AC. set (s := mkLstate (N ++ mkNode tag data :: M) al (S (length N) :: c)).
  assert (So : sok s).
  { split; [|exact EO]. cbn. exists (mkNode tag data). split; [apply nth_mid|exact C]. }
  pose proof (T s es E So) as L. pose proof (build_ok t (names s) (length (l_nodes s)) (proj2 So)) as G.
  change (map fst al) with (names s). change (N ++ mkNode tag data :: M) with (l_nodes s).
  destruct (build t (names s) (length (l_nodes s))) as [[[new i] env1]|]; [|exact L].
  destruct L as (al1 & A1 & L). destruct G as (G1 & G2). exists al1. split; [exact A1|]. split; [lia|].
  assert (LE : length (N ++ mkNode tag (data' i) :: M ++ new) = (length (l_nodes s) + length new)%nat)
    by (cbn; rewrite !app_length; cbn; rewrite app_length; lia).
  rewrite LE. split; [exact G1|]. split; [reflexivity|]. rewrite L. f_equal. f_equal.
  assert (At : attach (l_nodes s) (l_ctx s) i = N ++ mkNode tag (data' i) :: M).
  { cbn [attach l_nodes l_ctx s node_ref]. rewrite nth_mid. cbn [node_set]. rewrite set_nth_mid, AC by lia. reflexivity. }
  rewrite At, <- app_assoc. reflexivity.
Qed.

Lemma pairs_load tag st pairs : Forall (fun kv => tree_loads (fst kv) /\ tree_loads (snd kv)) pairs -> forall N ids M al c es,
  map e_ev es = pairs_events pairs -> complete ids -> env_ok (map fst al) (length (N ++ mkNode tag (NMapping ids st) :: M)) ->
  match build_pairs pairs (map fst al) (length (N ++ mkNode tag (NMapping ids st) :: M)) with
  | Some (new, is, env') => exists al', map fst al' = env' /\
      load_all (mkLstate (N ++ mkNode tag (NMapping ids st) :: M) al (S (length N) :: c)) es =
      LNext (mkLstate (N ++ mkNode tag (NMapping (ids ++ is) st) :: M ++ new) al' (S (length N) :: c))
  | None => exists e, load_all (mkLstate (N ++ mkNode tag (NMapping ids st) :: M) al (S (length N) :: c)) es = LError e
  end.
Proof.
  induction pairs as [|[k v] r IH]; intros F N ids M al c es E CO EO.
  - cbn in *. destruct es; [|discriminate]. exists al. rewrite !app_nil_r. auto.
  - inversion F as [|x y Ft Fr]; subst. destruct Ft as (Fk & Fv). cbn [fst snd] in Fk, Fv.
    cbn in E. change (flat_map _ r) with (pairs_events r) in E.
    destruct (map_split _ _ _ _ E) as (e12 & e3 & -> & E12 & E3). destruct (map_split _ _ _ _ E12) as (e1 & e2 & -> & E1 & E2).
    unfold build_pairs; cbn [build_pairs'].
    pose proof (child_load k tag (NMapping ids st) (fun i => NMapping (ids ++ [(i, O)]) st) N M al c e1 Fk E1 eq_refl EO) as L1.
    lapply L1; [clear L1; intros L1|intros i Hi; cbn; rewrite add_key by exact CO; reflexivity].
    rewrite load_all_app, load_all_app.
    destruct (build k (map fst al) _) as [[[new i] env1]|]; [|destruct L1 as (e & ->); exists e; reflexivity].
    destruct L1 as (al1 & A1 & I1 & O1 & LL1 & ->). cbn [lbind]. subst env1.
    pose proof (child_load v tag (NMapping (ids ++ [(i, O)]) st) (fun j => NMapping (ids ++ [(i, j)]) st) N (M ++ new) al1 c e2 Fv E2 eq_refl O1) as L2.
    lapply L2; [clear L2; intros L2|intros j Hj; cbn; rewrite add_value by lia; reflexivity].
    rewrite LL1 in L2.
    destruct (build v (map fst al1) _) as [[[new1 j] env2]|]; [|destruct L2 as (e & ->); exists e; reflexivity].
    destruct L2 as (al2 & A2 & I2 & O2 & LL2 & ->). cbn [lbind]. subst env2.
    specialize (IH Fr N (ids ++ [(i, j)]) ((M ++ new) ++ new1) al2 c e3 E3).
    lapply IH; [clear IH; intros IH|apply Forall_app; split; [exact CO|constructor; auto; cbn; lia]].
    specialize (IH O2). rewrite LL2 in IH. change (build_pairs' build) with build_pairs.
    destruct (build_pairs r (map fst al2) _) as [[[new' is] env3]|]; [|exact IH].
    destruct IH as (al' & A' & ->). exists al'. split; [exact A'|]. rewrite <- !app_assoc. reflexivity.
Qed.

Theorem load_tree t : tree_loads t.
Proof.
  induction t as [a|a tag v pi qi st|a tag i st items IH|a tag i st pairs IH] using tree_induction; intros s es E So; cbn [events_of] in E.
  - destruct (map_cons _ _ _ _ E) as (e & r & -> & E1 & E2). destruct r; [|discriminate]. cbn [load_all]. unfold load_event. rewrite E1.
    unfold load_alias. cbn [build]. destruct (find_alias (l_aliases s) a) as [[i m]|] eqn:FA.
    + rewrite (find_lookup_some _ _ _ _ FA : lookup (names s) a = _). rewrite node_add_ok by apply So. cbn.
      exists (l_aliases s). rewrite app_nil_r. auto.
    + rewrite (proj1 (find_lookup _ _) FA : lookup (names s) a = _). cbn. eauto.
  - destruct (map_cons _ _ _ _ E) as (e & r & -> & E1 & E2). destruct r; [|discriminate]. cbn [load_all]. unfold load_event. rewrite E1.
    unfold load_scalar. cbn [build]. pose proof (load_new_ok s (mkNode (choose_tag tag default_scalar_tag) (NScalar v st)) a (e_start e) So) as L.
    unfold loaded. destruct (decl (names s) a (S (length (l_nodes s)))) as [env'|].
    + destruct L as (al' & A & ->). exists al'. split; [exact A|]. reflexivity.
    + destruct L as (er & -> & _). exists er. reflexivity.
  - destruct (map_cons _ _ _ _ E) as (e & r & -> & E1 & E2). cbn [load_all]. unfold load_event at 1. rewrite E1.
    unfold load_sequence. cbn [build].
    pose proof (load_new_ok s (mkNode (choose_tag tag default_sequence_tag) (NSequence [] st)) a (e_start e) So) as L.
    destruct (decl (names s) a (S (length (l_nodes s)))) as [env1|] eqn:D; [|destruct L as (er & -> & _); exists er; reflexivity].
    destruct L as (al1 & A1 & ->). cbn [lbind l_nodes l_aliases l_ctx push_ctx].
    destruct (map_split _ _ _ _ E2) as (e1 & e2 & -> & E3 & E4).
    set (N := attach (l_nodes s) (l_ctx s) (S (length (l_nodes s)))).
    assert (LN : length N = length (l_nodes s)) by apply attach_length.
    assert (EO : env_ok (map fst al1) (S (length (l_nodes s)))) by (rewrite A1; eapply decl_ok; [exact D|apply So]).
    pose proof (items_load (choose_tag tag default_sequence_tag) st items IH N [] [] al1 (l_ctx s) e1 E3) as IL.
    rewrite app_length in IL. cbn [length] in IL. rewrite LN, Nat.add_1_r in IL. specialize (IL EO). rewrite A1 in IL.
    unfold push_ctx; cbn [l_nodes l_aliases l_ctx]. rewrite load_all_app. change (build_items' build) with build_items.
    destruct (build_items items env1 (S (length (l_nodes s)))) as [[[new ids] env2]|]; [|destruct IL as (er & ->); exists er; reflexivity].
    destruct IL as (al' & A' & ->). cbn [lbind].
    destruct (map_cons _ _ _ _ E4) as (ee & r & -> & E5 & E6). destruct r; [|discriminate]. cbn [load_all]. unfold load_event. rewrite E5.
    unfold load_end. cbn [l_ctx l_nodes]. cbn [node_ref]. rewrite <- LN, nth_mid. cbn.
    exists al'. split; [exact A'|]. rewrite LN. reflexivity.
  - destruct (map_cons _ _ _ _ E) as (e & r & -> & E1 & E2). cbn [load_all]. unfold load_event at 1. rewrite E1.
    unfold load_mapping. cbn [build].
    pose proof (load_new_ok s (mkNode (choose_tag tag default_mapping_tag) (NMapping [] st)) a (e_start e) So) as L.
    destruct (decl (names s) a (S (length (l_nodes s)))) as [env1|] eqn:D; [|destruct L as (er & -> & _); exists er; reflexivity].
    destruct L as (al1 & A1 & ->). cbn [lbind l_nodes l_aliases l_ctx push_ctx].
    destruct (map_split _ _ _ _ E2) as (e1 & e2 & -> & E3 & E4).
    set (N := attach (l_nodes s) (l_ctx s) (S (length (l_nodes s)))).
    assert (LN : length N = length (l_nodes s)) by apply attach_length.
    assert (EO : env_ok (map fst al1) (S (length (l_nodes s)))) by (rewrite A1; eapply decl_ok; [exact D|apply So]).
    pose proof (pairs_load (choose_tag tag default_mapping_tag) st pairs IH N [] [] al1 (l_ctx s) e1 E3 (Forall_nil _)) as IL.
    rewrite app_length in IL. cbn [length] in IL. rewrite LN, Nat.add_1_r in IL. specialize (IL EO). rewrite A1 in IL.
    unfold push_ctx; cbn [l_nodes l_aliases l_ctx]. rewrite load_all_app. change (build_pairs' build) with build_pairs.
    destruct (build_pairs pairs env1 (S (length (l_nodes s)))) as [[[new ids] env2]|]; [|destruct IL as (er & ->); exists er; reflexivity].
    destruct IL as (al' & A' & ->). cbn [lbind].
    destruct (map_cons _ _ _ _ E4) as (ee & r & -> & E5 & E6). destruct r; [|discriminate]. cbn [load_all]. unfold load_event. rewrite E5.
    unfold load_end. cbn [l_ctx l_nodes]. cbn [node_ref]. rewrite <- LN, nth_mid. cbn.
    exists al'. split; [exact A'|]. rewrite LN. reflexivity.
Qed.

(* ---- what build builds is what the tree denotes ---- *)
Lemma choose_tag_spec tag d : choose_tag tag d = tag_or_default tag d.
Proof.
  destruct tag as [t|]; cbn; auto. destruct (str_eqb_spec t [33]); destruct (list_eq_dec N.eq_dec t [33]); congruence.
Qed.
Lemma decl_spec env a i env' : decl env a i = Some env' -> fresh env a /\ env' = declare env a i.
Proof.
  unfold decl, fresh, declare. destruct a as [a|]; [|intros E; inversion E; auto].
  destruct (lookup env a) eqn:L; intros E; inversion E; subst. split; auto. apply lookup_In. exact L.
Qed.
Lemma node_at_mid d pre x post : d_nodes d = pre ++ x :: post -> node_at d (S (length pre)) = Some x.
Proof. intros E. cbn. rewrite E. apply nth_mid. Qed.

Lemma build_denotes t : forall env new i env' d pre post, build t env (length pre) = Some (new, i, env') ->
  d_nodes d = pre ++ new ++ post -> denotes d env (length pre) t i env' (length pre + length new).
Proof.
  induction t as [a|a tag v pi qi st|a tag im st items IH|a tag im st pairs IH] using tree_induction;
    intros env new i env' d pre post B E; cbn [build] in B.
  - destruct (lookup env a) as [j|] eqn:L; [|discriminate]. inversion B; subst. cbn. rewrite Nat.add_0_r. constructor. apply lookup_some; auto.
  - destruct (decl env a _) as [env1|] eqn:D; [|discriminate]. inversion B; subst. destruct (decl_spec _ _ _ _ D) as (F & ->).
    cbn [length]. rewrite Nat.add_1_r. constructor; [exact F|]. rewrite <- choose_tag_spec. apply (node_at_mid _ _ _ post E).
  - destruct (decl env a _) as [env1|] eqn:D; [|discriminate]. destruct (decl_spec _ _ _ _ D) as (F & ->).
    destruct (build_items' build items _ _) as [[[new' ids] env2]|] eqn:BI; [|discriminate]. inversion B; subst.
    assert (G : forall items env new ids env' pre post, Forall (fun t => forall env new i env' d pre post, build t env (length pre) = Some (new, i, env') ->
        d_nodes d = pre ++ new ++ post -> denotes d env (length pre) t i env' (length pre + length new)) items ->
        build_items' build items env (length pre) = Some (new, ids, env') -> d_nodes d = pre ++ new ++ post ->
        denotes_items d env (length pre) items ids env' (length pre + length new)).
    { clear. induction items as [|t r IH]; intros env new ids env' pre post F B E; cbn in B.
      - inversion B; subst. cbn. rewrite Nat.add_0_r. constructor.
      - inversion F as [|x y Ft Fr]; subst. destruct (build t env (length pre)) as [[[n1 i1] e1]|] eqn:B1; [|discriminate].
        destruct (build_items' build r e1 _) as [[[n2 i2] e2]|] eqn:B2; [|discriminate]. inversion B; subst.
        rewrite <- app_assoc in E. apply DI_cons with e1 (length pre + length n1)%nat.
        + exact (Ft _ _ _ _ _ _ _ B1 E).
        + specialize (IH e1 n2 i2 env' (pre ++ n1) post Fr). rewrite app_length in IH. rewrite app_length, Nat.add_assoc. apply IH; auto.
          rewrite <- app_assoc. exact E. }
    specialize (G items (declare env a (S (length pre))) new' ids env' (pre ++ [seq_node tag ids st]) post IH).
    rewrite app_length in G. cbn [length] in G. rewrite Nat.add_1_r in G. cbn [length]. rewrite Nat.add_succ_r. apply D_sequence with ids; auto.
    + rewrite <- choose_tag_spec. apply (node_at_mid _ _ _ (new' ++ post) E).
    + apply G; auto. rewrite <- app_assoc. exact E.
  - destruct (decl env a _) as [env1|] eqn:D; [|discriminate]. destruct (decl_spec _ _ _ _ D) as (F & ->).
    destruct (build_pairs' build pairs _ _) as [[[new' ids] env2]|] eqn:BI; [|discriminate]. inversion B; subst.
    assert (G : forall pairs env new ids env' pre post,
        Forall (fun kv => (forall env new i env' d pre post, build (fst kv) env (length pre) = Some (new, i, env') ->
        d_nodes d = pre ++ new ++ post -> denotes d env (length pre) (fst kv) i env' (length pre + length new)) /\
        (forall env new i env' d pre post, build (snd kv) env (length pre) = Some (new, i, env') ->
        d_nodes d = pre ++ new ++ post -> denotes d env (length pre) (snd kv) i env' (length pre + length new))) pairs ->
        build_pairs' build pairs env (length pre) = Some (new, ids, env') -> d_nodes d = pre ++ new ++ post ->
        denotes_pairs d env (length pre) pairs ids env' (length pre + length new)).
    { clear. induction pairs as [|[k v] r IH]; intros env new ids env' pre post F B E; cbn in B.
      - inversion B; subst. cbn. rewrite Nat.add_0_r. constructor.
      - inversion F as [|x y Ft Fr]; subst. destruct Ft as (Fk & Fv). cbn [fst snd] in Fk, Fv.
        destruct (build k env (length pre)) as [[[n1 i1] e1]|] eqn:B1; [|discriminate].
        destruct (build v e1 _) as [[[n2 i2] e2]|] eqn:B2; [|discriminate].
        destruct (build_pairs' build r e2 _) as [[[n3 i3] e3]|] eqn:B3; [|discriminate]. inversion B; subst.
        rewrite <- !app_assoc in E. apply DP_cons with e1 (length pre + length n1)%nat e2 (length pre + length n1 + length n2)%nat.
        + exact (Fk _ _ _ _ _ _ _ B1 E).
        + rewrite <- app_length. eapply Fv with (pre := pre ++ n1); [rewrite app_length; exact B2|]. rewrite <- app_assoc. exact E.
        + specialize (IH e2 n3 i3 env' (pre ++ n1 ++ n2) post Fr). rewrite !app_length, !Nat.add_assoc in *. apply IH; auto.
          rewrite <- !app_assoc. exact E. }
    specialize (G pairs (declare env a (S (length pre))) new' ids env' (pre ++ [map_node tag ids st]) post IH).
    rewrite app_length in G. cbn [length] in G. rewrite Nat.add_1_r in G. cbn [length]. rewrite Nat.add_succ_r. apply D_mapping with ids; auto.
    + rewrite <- choose_tag_spec. apply (node_at_mid _ _ _ (new' ++ post) E).
    + apply G; auto. rewrite <- app_assoc. exact E.
Qed.

(* ---- composer errors ---- *)
Definition knows (s : lstate) (before : list ev) : Prop := map fst (names s) = declared before.
Lemma declared_app a b : declared (a ++ b) = declared a ++ declared b.
Proof. apply flat_map_app. Qed.

Lemma node_add_names s i s' : load_node_add s i = LNext s' -> names s' = names s.
Proof.
  unfold load_node_add. destruct (l_ctx s); [intros E; inversion E; reflexivity|].
  destruct (node_ref _ _) as [[tag [| |]]|]; intros E; inversion E; reflexivity.
Qed.
Lemma node_add_no_error s i e : load_node_add s i <> LError e.
Proof.
  unfold load_node_add. destruct (l_ctx s); [discriminate|]. destruct (node_ref _ _) as [[tag [| |]]|]; discriminate.
Qed.

Lemma load_new_names s n a m before : knows s before ->
  match load_new s n a m with
  | LNext s' => map fst (names s') = declared before ++ match a with Some a => [a] | None => [] end /\ (forall x, a = Some x -> ~ In x (declared before))
  | LError e => pe_problem e = DuplicateAnchor /\ exists x, a = Some x /\ In x (declared before)
  | _ => True
  end.
Proof.
  intros K. unfold load_new, register_anchor. destruct a as [a|].
  - cbn [push_new l_aliases]. destruct (find_alias (l_aliases s) a) as [[j mj]|] eqn:FA.
    + cbn. split; auto. exists a. split; auto. rewrite <- K. destruct (in_dec (list_eq_dec N.eq_dec) a (map fst (names s))); auto.
      apply lookup_In in n0. apply find_lookup_some in FA. unfold names in n0. congruence.
    + cbn [lbind]. destruct (load_node_add _ _) eqn:NA; auto.
      * apply node_add_names in NA. rewrite NA. unfold names in *; cbn. unfold knows, names in K. rewrite !map_app, K. split; [reflexivity|].
        intros x Ex. inversion Ex; subst. rewrite <- K. apply lookup_In. apply find_lookup. exact FA.
      * destruct (node_add_no_error _ _ _ NA).
  - cbn [lbind]. destruct (load_node_add _ _) eqn:NA; auto.
    + apply node_add_names in NA. rewrite NA. rewrite app_nil_r. split; [exact K|discriminate].
    + destruct (node_add_no_error _ _ _ NA).
Qed.

Lemma load_event_names s e before : knows s before ->
  match load_event s e with
  | LNext s' => knows s' (before ++ [e_ev e]) /\ forall pr, ~ composer_error before (e_ev e) pr
  | LError err => composer_error before (e_ev e) (pe_problem err)
  | _ => True
  end.
Proof.
  intros K. unfold knows, load_event. rewrite declared_app. destruct (e_ev e) as [| | | |name|a tag v pi qi st|a tag i st| |a tag i st|] eqn:EE; auto.
  - unfold load_alias. destruct (find_alias (l_aliases s) name) as [[j m]|] eqn:FA.
    + destruct (load_node_add s j) eqn:NA; auto; [|destruct (node_add_no_error _ _ _ NA)].
      apply node_add_names in NA. rewrite NA. cbn. rewrite app_nil_r. split; [exact K|]. intros pr C. inversion C; subst; [|discriminate].
      apply find_lookup_some in FA. match goal with H : ~ In _ _ |- _ => rewrite <- K in H; apply lookup_In in H end. unfold names in *. congruence.
    + cbn. constructor. rewrite <- K. apply lookup_In. apply find_lookup. exact FA.
  - unfold load_scalar. pose proof (load_new_names s (mkNode (choose_tag tag default_scalar_tag) (NScalar v st)) a (e_start e) before K) as L.
    destruct (load_new _ _ _ _); auto.
    + destruct L as (-> & L). split; [cbn; rewrite app_nil_r; reflexivity|]. intros pr C. inversion C; subst. eapply L; eauto.
    + destruct L as (-> & x & -> & L). econstructor; [reflexivity|exact L].
  - unfold load_sequence. pose proof (load_new_names s (mkNode (choose_tag tag default_sequence_tag) (NSequence [] st)) a (e_start e) before K) as L.
    destruct (load_new _ _ _ _); auto; cbn [lbind].
    + destruct L as (L1 & L). unfold names, push_ctx in *; cbn [l_aliases] in *. rewrite L1. split; [cbn; rewrite app_nil_r; reflexivity|]. intros pr C. inversion C; subst. eapply L; eauto.
    + destruct L as (-> & x & -> & L). econstructor; [reflexivity|exact L].
  - unfold load_end. destruct (l_ctx s); auto. destruct (node_ref _ _); auto. destruct (n_data n0); auto.
    cbn. rewrite app_nil_r. split; [exact K|]. intros pr C; inversion C; subst; discriminate.
  - unfold load_mapping. pose proof (load_new_names s (mkNode (choose_tag tag default_mapping_tag) (NMapping [] st)) a (e_start e) before K) as L.
    destruct (load_new _ _ _ _); auto; cbn [lbind].
    + destruct L as (L1 & L). unfold names, push_ctx in *; cbn [l_aliases] in *. rewrite L1. split; [cbn; rewrite app_nil_r; reflexivity|]. intros pr C. inversion C; subst. eapply L; eauto.
    + destruct L as (-> & x & -> & L). econstructor; [reflexivity|exact L].
  - unfold load_end. destruct (l_ctx s); auto. destruct (node_ref _ _); auto. destruct (n_data n0); auto.
    cbn. rewrite app_nil_r. split; [exact K|]. intros pr C; inversion C; subst; discriminate.
Qed.
