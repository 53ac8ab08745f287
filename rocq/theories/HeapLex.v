(* The token scanners with memory (HeapLexModel.v) deliver the tokens of the
   scanners without memory (ScanModel.v), or run out of memory. *)
From Verif Require Import Base ReaderModel Utf8Spec CharSpec Types CursorModel ScanModel
  DocModel HeapModel HeapSpec HeapLemmas HeapLoaderModel HeapTokenModel HeapTokenSpec HeapLexModel.

Definition str_blocks (s : hstr) : list nat := ptr_blocks (t_at s).
Definition frame_blocks (f : frame) : list nat :=
  str_blocks (f_0 f) ++ str_blocks (f_1 f) ++ str_blocks (f_2 f) ++ str_blocks (f_3 f).
(* there is room for a NUL *)
Definition sound_str (s : hstr) : Prop := t_at s = None \/ (length (t_bytes s) < t_size s)%nat.
Definition sound (f : frame) : Prop := sound_str (f_0 f) /\ sound_str (f_1 f) /\ sound_str (f_2 f) /\ sound_str (f_3 f).
Definition text (s : hstr) (bs : list N) : Prop := t_at s <> None /\ t_bytes s = bs /\ (16 <= t_size s)%nat.
Definition nonzero (bs : list N) : Prop := Forall (fun x => x <> 0) bs.

(* blocks of the callers, and the slots that the function uses *)
Record senv := mkEnv { e_blocks : list nat; e_slots : list slot }.
Definition keeps (env : senv) (f f' : frame) : Prop := forall v, ~ In v (e_slots env) -> get v f' = get v f.
Lemma keeps_refl env f : keeps env f f. Proof. intros v _. reflexivity. Qed.
Lemma keeps_trans env f g k : keeps env f g -> keeps env g k -> keeps env f k.
Proof. intros F G v N. rewrite (G v N). apply F, N. Qed.
Lemma keeps_set env v f s : In v (e_slots env) -> keeps env f (set v f s).
Proof. intros J w N. destruct v, w; try reflexivity; contradiction. Qed.

(* [m] does on memory what [v] is the result of *)
Definition sim {A B} (own : A -> list nat) (env : senv) (m : xm A) (c : cur) (f : frame) (v : cres B)
  (Q : A -> B -> frame -> heap -> Prop) : Prop :=
  forall h, good h -> holds h (e_blocks env ++ frame_blocks f) -> sound f -> v <> CBad -> v <> CFuel ->
  match m c f h with
  | XOk a c' f' h' => good h' /\ ext h h' /\ changes h (frame_blocks f) (own a ++ frame_blocks f') h' /\ sound f' /\ keeps env f f' /\
      exists b, v = COk b c' /\ Q a b f' h'
  | XErr e f' h' => good h' /\ ext h h' /\ changes h (frame_blocks f) (frame_blocks f') h' /\ keeps env f f' /\
      match e with XScan e => v = CErr e | _ => ~ generous h end
  | _ => False
  end.
Notation sim0 env m c f v Q := (sim (fun _ => []) env m c f v (fun a b f' _ => Q a b f')).

Lemma blocks_set v f s b :
  (cnt (frame_blocks (set v f s)) b + cnt (str_blocks (get v f)) b = cnt (frame_blocks f) b + cnt (str_blocks s) b)%nat.
Proof. unfold frame_blocks. destruct v; cbn [set get f_0 f_1 f_2 f_3]; rewrite !cnt_app; lia. Qed.
Lemma blocks_get v f b : (cnt (str_blocks (get v f)) b <= cnt (frame_blocks f) b)%nat.
Proof. unfold frame_blocks. destruct v; cbn [get]; rewrite !cnt_app; lia. Qed.
Lemma changes_set h v f s h' : changes h (str_blocks (get v f)) (str_blocks s) h' ->
  changes h (frame_blocks f) (frame_blocks (set v f s)) h'.
Proof. intros C b. specialize (C b). pose proof (blocks_set v f s b). pose proof (blocks_get v f b). lia. Qed.
Lemma changes_refl h l : changes h l l h.
Proof. intros b. lia. Qed.
Lemma changes_then h1 h2 h3 a b c : changes h1 a b h2 -> changes h2 b c h3 -> changes h1 a c h3.
Proof. intros C D x. specialize (C x). specialize (D x). lia. Qed.
Lemma holds_get h env v f : holds h (env ++ frame_blocks f) -> holds h (str_blocks (get v f)).
Proof. intros H b. specialize (H b). rewrite cnt_app in H. pose proof (blocks_get v f b). lia. Qed.
Lemma holds_after h h' env a b : holds h (env ++ a) -> changes h a b h' -> holds h' (env ++ b).
Proof. intros H C x. specialize (H x). specialize (C x). rewrite cnt_app in *. lia. Qed.
Lemma sound_set v f s : sound f -> sound_str s -> sound (set v f s).
Proof. unfold sound. destruct v; cbn [set f_0 f_1 f_2 f_3]; tauto. Qed.
Lemma sound_get v f : sound f -> sound_str (get v f).
Proof. unfold sound. destruct v; cbn [get]; tauto. Qed.
Lemma get_set v f s : get v (set v f s) = s. Proof. destruct v; reflexivity. Qed.
Lemma set_set v f s t : set v (set v f s) t = set v f t. Proof. destruct v; reflexivity. Qed.
Lemma set_get v f : set v f (get v f) = f. Proof. destruct v, f; reflexivity. Qed.
Lemma sound_text s bs : sound_str s -> text s bs -> (length bs < t_size s)%nat.
Proof. intros [E|L] (P & <- & _); [congruence|exact L]. Qed.

(* ---- putting programs together ---- *)
Lemma sim_ret {A B} env (a : A) (b : B) c f (Q : A -> B -> frame -> heap -> Prop) :
  (forall h, Q a b f h) -> sim (fun _ => []) env (xret a) c f (COk b c) Q.
Proof.
  intros q h G H S _ _. unfold xret. split; [exact G|]. split; [apply ext_refl|]. split; [apply changes_refl|]. split; [exact S|]. split; [apply keeps_refl|]. exists b. auto.
Qed.
Lemma sim_bind {A B A' B'} own env (m : xm A) (k : A -> xm B) (m' : cm A') (k' : A' -> cm B') c f R Q :
  sim0 env m c f (m' c) R ->
  (forall a b c' f', R a b f' -> sim own env (k a) c' f' (k' b c') Q) ->
  sim own env (xbind m k) c f (bind m' k' c) Q.
Proof.
  intros M K h G H S NB NF. unfold xbind. unfold bind in *. specialize (M h G H S).
  assert (N1 : m' c <> CBad) by (intros E; rewrite E in NB; congruence).
  assert (N2 : m' c <> CFuel) by (intros E; rewrite E in NF; congruence).
  specialize (M N1 N2). destruct (m c f h) as [a c1 f1 h1|e f1 h1| |]; [| |exact M|exact M].
  - destruct M as (G1 & X1 & C1 & S1 & K1 & b & E & q). rewrite E in *. cbn [app] in C1.
    pose proof (K a b c1 f1 q h1 G1 (holds_after _ _ _ _ _ H C1) S1 NB NF) as W.
    destruct (k a c1 f1 h1) as [a2 c2 f2 h2|e f2 h2| |]; [| |exact W|exact W].
    + destruct W as (G2 & X2 & C2 & S2 & K2 & W). split; [exact G2|]. split; [eapply ext_trans; eassumption|].
      split; [eapply changes_then; eassumption|]. split; [assumption|]. split; [eapply keeps_trans; eassumption|]. assumption.
    + destruct W as (G2 & X2 & C2 & K2 & W). split; [exact G2|]. split; [eapply ext_trans; eassumption|].
      split; [eapply changes_then; eassumption|]. split; [eapply keeps_trans; eassumption|]. destruct e; [exact W| |]; intros g; apply W, X1, g.
  - destruct M as (G1 & X1 & C1 & K1 & M). split; [exact G1|]. split; [exact X1|]. split; [exact C1|]. split; [exact K1|].
    destruct e; [rewrite M; reflexivity|exact M|exact M].
Qed.
(* a step of which the scanner without memory knows nothing *)
Lemma sim_then {A B B'} own env (m : xm A) (k : A -> xm B) c f (v : cres B') (R : A -> unit -> frame -> Prop) Q :
  sim0 env m c f (COk tt c) R -> (forall a f', R a tt f' -> sim own env (k a) c f' v Q) ->
  sim own env (xbind m k) c f v Q.
Proof.
  intros M K. change v with (bind (ret tt) (fun _ _ => v) c).
  (* the cursor is the same *)
  intros h G H S NB NF. specialize (M h G H S ltac:(congruence) ltac:(congruence)). unfold xbind, bind, ret in *.
  destruct (m c f h) as [a c1 f1 h1|e f1 h1| |]; [| |exact M|exact M].
  - destruct M as (G1 & X1 & C1 & S1 & K1 & b & E & q). injection E as <- <-. cbn [app] in C1.
    pose proof (K a f1 q h1 G1 (holds_after _ _ _ _ _ H C1) S1 NB NF) as W.
    destruct (k a c f1 h1) as [a2 c2 f2 h2|e f2 h2| |]; [| |exact W|exact W].
    + destruct W as (G2 & X2 & C2 & S2 & K2 & W). split; [exact G2|]. split; [eapply ext_trans; eassumption|].
      split; [eapply changes_then; eassumption|]. split; [assumption|]. split; [eapply keeps_trans; eassumption|]. assumption.
    + destruct W as (G2 & X2 & C2 & K2 & W). split; [exact G2|]. split; [eapply ext_trans; eassumption|].
      split; [eapply changes_then; eassumption|]. split; [eapply keeps_trans; eassumption|]. destruct e; [exact W| |]; intros g; apply W, X1, g.
  - destruct M as (G1 & X1 & C1 & K1 & M). split; [exact G1|]. split; [exact X1|]. split; [exact C1|]. split; [exact K1|].
    destruct e; [discriminate M|exact M|exact M].
Qed.
Lemma sim_weaken {A B} own env (m : xm A) c f (v : cres B) (Q R : A -> B -> frame -> heap -> Prop) :
  sim own env m c f v Q -> (forall a b f' h, Q a b f' h -> R a b f' h) -> sim own env m c f v R.
Proof.
  intros M K h G H S NB NF. specialize (M h G H S NB NF). destruct (m c f h); [|exact M|exact M|exact M].
  destruct M as (G1 & X1 & C1 & S1 & K1 & b & E & q). repeat (split; [assumption|]). exists b. auto.
Qed.
Lemma sim_io {A} env (m : cm A) c f : sim0 env (io m) c f (m c) (fun a b f' => a = b /\ f' = f).
Proof.
  intros h G H S NB NF. unfold io. destruct (m c) as [a c1|e| |]; try congruence.
  - split; [exact G|]. split; [apply ext_refl|]. split; [apply changes_refl|]. split; [exact S|]. split; [apply keeps_refl|]. exists a. auto.
  - split; [exact G|]. split; [apply ext_refl|]. split; [apply changes_refl|]. split; [apply keeps_refl|]. reflexivity.
Qed.
Lemma sim_io_bind {A B B'} own env (m : cm A) (k : A -> xm B) (k' : A -> cm B') c f Q :
  (forall a c', m c = COk a c' -> sim own env (k a) c' f (k' a c') Q) ->
  sim own env (xbind (io m) k) c f (bind m k' c) Q.
Proof.
  intros K h G H S NB NF. unfold xbind, io. unfold bind in *. destruct (m c) as [a c1|e| |]; try congruence.
  - exact (K a c1 eq_refl h G H S NB NF).
  - split; [exact G|]. split; [apply ext_refl|]. split; [apply changes_refl|]. split; [apply keeps_refl|]. reflexivity.
Qed.
Lemma sim_err {A B} own env ctx p c f (Q : A -> B -> frame -> heap -> Prop) :
  sim own env (x_err ctx p) c f (err ctx p c) Q.
Proof.
  intros h G H S _ _. unfold x_err, io, err. split; [exact G|]. split; [apply ext_refl|]. split; [apply changes_refl|]. split; [apply keeps_refl|]. reflexivity.
Qed.
Lemma sim_loop {A B A' B'} env (I : A -> A' -> frame -> Prop) (R : B -> B' -> frame -> Prop)
  (body : A -> xm (A + B)) (body' : A' -> cm (A' + B')) a a' c f :
  (forall a a' c f, I a a' f -> sim0 env (body a) c f (body' a' c) (fun r r' f' =>
     match r, r' with inl x, inl x' => I x x' f' | inr x, inr x' => R x x' f' | _, _ => False end)) ->
  I a a' f -> sim0 env (xloop body a) c f (loop body' a' c) R.
Proof.
  intros K i. unfold loop. unfold sim at 1. unfold xloop. generalize (S (length (c_text c))). intros n.
  cut (sim0 env (xloop_n n body a) c f (loop_n n body' a' c) R); [exact (fun x => x)|].
  revert a a' c f i.
  induction n as [|n IH]; intros a a' c f i h G H S NB NF; cbn [loop_n] in *; [congruence|].
  pose proof (K a a' c f i h G H S) as W.
  assert (N1 : body' a' c <> CBad) by (intros E; rewrite E in NB; congruence).
  assert (N2 : body' a' c <> CFuel) by (intros E; rewrite E in NF; congruence).
  specialize (W N1 N2). cbn [xloop_n]. destruct (body a c f h) as [r c1 f1 h1|e f1 h1| |]; [| |exact W|exact W].
  - destruct W as (G1 & X1 & C1 & S1 & K1 & r' & E & q). rewrite E in *. cbn [app] in C1.
    destruct r as [x|y], r' as [x'|y']; try contradiction.
    + pose proof (IH x x' c1 f1 q h1 G1 (holds_after _ _ _ _ _ H C1) S1 NB NF) as V.
      destruct (xloop_n n body x c1 f1 h1) as [a2 c2 f2 h2|e f2 h2| |]; [| |exact V|exact V].
      * destruct V as (G2 & X2 & C2 & S2 & K2 & V). split; [exact G2|]. split; [eapply ext_trans; eassumption|].
        split; [eapply changes_then; eassumption|]. split; [assumption|]. split; [eapply keeps_trans; eassumption|]. assumption.
      * destruct V as (G2 & X2 & C2 & K2 & V). split; [exact G2|]. split; [eapply ext_trans; eassumption|].
        split; [eapply changes_then; eassumption|]. split; [eapply keeps_trans; eassumption|]. destruct e; [exact V| |]; intros g; apply V, X1, g.
    + split; [exact G1|]. split; [exact X1|]. split; [exact C1|]. split; [exact S1|]. split; [exact K1|]. exists y'. auto.
  - destruct W as (G1 & X1 & C1 & K1 & W). split; [exact G1|]. split; [exact X1|]. split; [exact C1|]. split; [exact K1|].
    destruct e; [rewrite W; reflexivity|exact W|exact W].
Qed.

(* ---- strings ---- *)
Lemma frame_pre v h (env : list nat) f : holds h (env ++ frame_blocks f) -> t_at (get v f) <> None -> h_touch (t_at (get v f)) h = HOk tt h.
Proof. intros H P. apply h_touch_ok; [exact P|]. exact (holds_get h _ v f H). Qed.

Lemma sim_init env v c f : In v (e_slots env) -> t_at (get v f) = None ->
  sim0 env (x_init v) c f (COk tt c) (fun _ _ f' => exists s, f' = set v f s /\ text s [] /\ t_size s = 16%nat).
Proof.
  intros J P h G H S _ _. unfold x_init, xbind, xh. destruct (h_malloc_does [] h G) as (p & g & h1 & E & G1 & X1 & C1 & -> & R & Y).
  rewrite E. destruct p as [b|].
  - unfold x_set. split; [exact G1|]. split; [exact X1|]. split; [|split; [|split]].
    + cbn [app]. apply changes_set. unfold str_blocks. rewrite P. exact C1.
    + apply sound_set; [exact S|]. right. cbn [t_bytes t_size length]. lia.
    + apply keeps_set. assumption.
    + exists tt. split; [reflexivity|]. eexists. split; [reflexivity|]. split; [|reflexivity]. split; [cbn [t_at]; congruence|].
      split; [reflexivity|]. cbn [t_size]. lia.
  - unfold xfail. split; [exact G1|]. split; [exact X1|]. split; [|split; [apply keeps_refl|intros g; apply (Y g); reflexivity]].
    intros b. specialize (C1 b). cbn [ptr_blocks] in C1. rewrite cnt_nil in C1. lia.
Qed.
Lemma sim_grow env v c f bs : In v (e_slots env) -> text (get v f) bs ->
  sim0 env (x_grow v) c f (COk tt c) (fun _ _ f' => exists s, f' = set v f s /\ text s bs /\ t_size s = (2 * t_size (get v f))%nat).
Proof.
  intros J T h G H S _ _. pose proof T as (P & E0 & Z). pose proof (sound_text _ _ (sound_get v f S) T) as L.
  unfold x_grow, xbind, x_get, xh. rewrite (frame_pre v h _ f H P).
  destruct (h_malloc_does [] h G) as (p & g & h1 & E & G1 & X1 & C1 & -> & R & Y). rewrite E. destruct p as [b|].
  - assert (H1 : holds h1 (ptr_blocks (t_at (get v f)))).
    { pose proof (holds_get h _ v f H) as Hg. unfold str_blocks in Hg. clear - Hg C1. cn. }
    destruct (h_free_does (t_at (get v f)) h1 G1 H1) as (u & g & h2 & E2 & G2 & X2 & C2 & ->). rewrite E2.
    unfold x_set. split; [exact G2|]. split; [eapply ext_trans; eassumption|]. split; [|split; [|split]].
    + cbn [app]. apply changes_set. unfold str_blocks. cbn [t_at]. clear - C1 C2. cn.
    + apply sound_set; [exact S|]. right. cbn [t_bytes t_size]. rewrite E0. lia.
    + apply keeps_set. assumption.
    + exists tt. split; [reflexivity|]. eexists. split; [reflexivity|]. split; [|reflexivity]. split; [cbn [t_at]; congruence|].
      split; [exact E0|]. cbn [t_size]. lia.
  - unfold xfail. split; [exact G1|]. split; [exact X1|]. split; [|split; [apply keeps_refl|intros g; apply (Y g); reflexivity]].
    intros b. specialize (C1 b). cbn [ptr_blocks] in C1. rewrite cnt_nil in C1. lia.
Qed.
(* like sim_then, but the predicates may use that the frame is sound *)
Lemma sim_sound {A B} own env (m : xm A) c f (v : cres B) Q : (sound f -> sim own env m c f v Q) -> sim own env m c f v Q.
Proof. intros K h G H S. exact (K S h G H S). Qed.
Lemma sim_get {A B} own env v (k : hstr -> xm A) c f (w : cres B) Q :
  sim own env (k (get v f)) c f w Q -> sim own env (xbind (x_get v) k) c f w Q.
Proof. intros K. exact K. Qed.
Lemma sim_done {B} env c f (b : B) (R : unit -> B -> frame -> Prop) : R tt b f -> sim0 env (xret tt) c f (COk b c) R.
Proof. intros q. apply (sim_ret env tt b c f (fun a b f' _ => R a b f')). auto. Qed.

Lemma sim_extend env v c f bs : In v (e_slots env) -> text (get v f) bs ->
  sim0 env (x_extend v) c f (COk tt c) (fun _ _ f' => exists s, f' = set v f s /\ text s bs /\ (length bs + 5 < t_size s)%nat).
Proof.
  intros J T. apply sim_sound. intros S. unfold x_extend. apply sim_get. pose proof T as (P & E0 & Z). rewrite E0.
  destruct (length bs + 5 <? t_size (get v f))%nat eqn:C.
  - apply sim_done. exists (get v f). rewrite set_get. split; [reflexivity|]. split; [exact T|]. apply Nat.ltb_lt. exact C.
  - eapply sim_weaken; [apply sim_grow; [exact J|exact T]|]. cbn beta. intros _ _ f' _ (s & E & T' & Z'). exists s. split; [exact E|]. split; [exact T'|].
    rewrite Z'. pose proof (sound_text _ _ (sound_get v f S) T). lia.
Qed.
Lemma sim_fit env v c n f bs : In v (e_slots env) -> text (get v f) bs ->
  sim0 env (x_fit v n) c f (COk tt c) (fun _ _ f' => exists s, f' = set v f s /\ text s bs /\ (length bs + n < t_size s)%nat).
Proof.
  intros J. unfold x_fit. assert (W : forall k f, text (get v f) bs -> (n + 1 <= k + (t_size (get v f) - length bs))%nat -> 
    sim0 env (x_fit_n k v n) c f (COk tt c) (fun _ _ f' => exists s, f' = set v f s /\ text s bs /\ (length bs + n < t_size s)%nat)).
  { clear f. induction k as [|k IH]; intros f T K; apply sim_sound; intros S; pose proof (sound_text _ _ (sound_get v f S) T) as L;
      pose proof T as (P & E0 & Z); cbn [x_fit_n]; apply sim_get; rewrite E0;
      (destruct (t_size (get v f) - length bs <=? n)%nat eqn:C; [apply Nat.leb_le in C|apply Nat.leb_gt in C;
        apply sim_done; exists (get v f); rewrite set_get; split; [reflexivity|]; split; [exact T|lia]]).
    - lia.
    - eapply sim_then; [apply sim_grow; [exact J|exact T]|]. cbn beta. intros _ f' (s & -> & T' & Z').
      eapply sim_weaken; [apply IH; rewrite get_set; [exact T'|lia]|]. cbn beta. intros _ _ f' _ (s' & -> & X). exists s'. rewrite set_set. auto. }
  intros T. apply sim_sound. intros S. pose proof (sound_text _ _ (sound_get v f S) T) as L. apply W; [exact T|lia].
Qed.
Lemma sim_put env v c f bs ds : In v (e_slots env) -> text (get v f) bs -> (length bs + length ds < t_size (get v f))%nat ->
  sim0 env (x_put v ds) c f (COk tt c) (fun _ _ f' => exists s, f' = set v f s /\ text s (bs ++ ds) /\ t_size s = t_size (get v f)).
Proof.
  intros J T R h G H S _ _. pose proof T as (P & E0 & Z). unfold x_put, xbind, x_get, xh. rewrite (frame_pre v h _ f H P).
  rewrite E0, (proj2 (Nat.leb_le _ _)) by lia. unfold x_set. split; [exact G|]. split; [apply ext_refl|]. split; [|split; [|split]].
  - cbn [app]. apply changes_set. apply changes_refl.
  - apply sound_set; [exact S|]. right. cbn [t_bytes t_size]. rewrite app_length. lia.
  - apply keeps_set. assumption.
  - exists tt. split; [reflexivity|]. eexists. split; [reflexivity|]. split; [|reflexivity]. split; [exact P|]. split; [reflexivity|exact Z].
Qed.
Lemma sim_clear env v c f bs : In v (e_slots env) -> text (get v f) bs ->
  sim0 env (x_clear v) c f (COk tt c) (fun _ _ f' => exists s, f' = set v f s /\ text s []).
Proof.
  intros J T h G H S _ _. pose proof T as (P & E0 & Z). unfold x_clear, xbind, x_get, xh. rewrite (frame_pre v h _ f H P).
  unfold x_set. split; [exact G|]. split; [apply ext_refl|]. split; [|split; [|split]].
  - cbn [app]. apply changes_set. apply changes_refl.
  - apply sound_set; [exact S|]. right. cbn [t_bytes t_size length]. lia.
  - apply keeps_set. assumption.
  - exists tt. split; [reflexivity|]. eexists. split; [reflexivity|]. split; [exact P|]. split; [reflexivity|exact Z].
Qed.
Lemma sim_set env v c f s bs : In v (e_slots env) -> t_at s = t_at (get v f) -> (t_at (get v f) <> None -> length (t_bytes s) < t_size s)%nat -> t_at (get v f) <> None ->
  bs = t_bytes s -> (16 <= t_size s)%nat ->
  sim0 env (x_set v s) c f (COk tt c) (fun _ _ f' => exists s, f' = set v f s /\ text s bs).
Proof.
  intros J A L P -> Z h G H S _ _. unfold x_set. split; [exact G|]. split; [apply ext_refl|]. split; [|split; [|split]].
  - cbn [app]. apply changes_set. unfold str_blocks. rewrite A. apply changes_refl.
  - apply sound_set; [exact S|]. right. auto.
  - apply keeps_set. assumption.
  - exists tt. split; [reflexivity|]. exists s. split; [reflexivity|]. split; [congruence|auto].
Qed.
Lemma sim_join env v w c f bs ds : In v (e_slots env) -> In w (e_slots env) -> v <> w -> text (get v f) bs -> text (get w f) ds ->
  sim0 env (x_join v w) c f (COk tt c) (fun _ _ f' => exists s t, f' = set w (set v f s) t /\ text s (bs ++ ds) /\ text t []).
Proof.
  intros J J' D T U. unfold x_join. apply sim_get.
  assert (W : forall f s, get w (set v f s) = get w f) by (intros f0 s; destruct v, w; try congruence; reflexivity).
  apply sim_sound. intros S. pose proof (sound_text _ _ (sound_get w f S) U) as L. pose proof U as (P & E0 & Z).
  eapply (sim_then _ env (xh _) _ c f (COk tt c) (fun _ _ f' => f' = f)).
  { intros h G H _ _ _. unfold xh. rewrite (frame_pre w h _ f H P). split; [exact G|]. split; [apply ext_refl|]. split; [apply changes_refl|].
    split; [exact S|]. split; [apply keeps_refl|]. exists tt. auto. }
  intros _ f' ->.
  eapply (sim_then _ env _ _ c f (COk tt c) (fun _ _ f' => exists s, f' = set v f s /\ text s (bs ++ ds))).
  { rewrite E0. destruct ds as [|x ds'].
    - apply sim_done. exists (get v f). rewrite set_get, app_nil_r. auto.
    - eapply sim_then; [apply sim_fit; [exact J|exact T]|]. cbn beta. intros _ f' (s & -> & T' & Z').
      eapply sim_weaken; [apply sim_put; rewrite ?get_set; [exact J|exact T'|exact Z']|]. cbn beta. intros _ _ f' _ (s' & -> & T2 & _).
      exists s'. rewrite set_set. auto. }
  cbn beta. intros _ f' (s & -> & T').
  eapply sim_weaken; [apply (sim_set env w c (set v f s) (mkStr (t_at (get w f)) [] (t_size (get w f))) []); cbn [t_at t_bytes t_size]; rewrite ?W; auto; cbn [length]; lia|].
  cbn beta. intros _ _ f' _ (t & -> & T2). exists s, t. auto.
Qed.

Lemma sim_touch env c f s : t_at s <> None -> (forall h, holds h (e_blocks env ++ frame_blocks f) -> holds h (str_blocks s)) ->
  sim0 env (xh (h_touch (t_at s))) c f (COk tt c) (fun _ _ f' => f' = f).
Proof.
  intros P K h G H S _ _. unfold xh. rewrite h_touch_ok; [|exact P|exact (K h H)].
  split; [exact G|]. split; [apply ext_refl|]. split; [apply changes_refl|]. split; [exact S|]. split; [apply keeps_refl|]. exists tt. auto.
Qed.
Lemma sim_at env v k c f bs : text (get v f) bs -> (k < 16 \/ k < length bs)%nat ->
  sim0 env (x_at v k) c f (COk tt c) (fun a _ f' => f' = f /\ a = nth k bs 0).
Proof.
  intros T K. apply sim_sound. intros S. pose proof (sound_text _ _ (sound_get v f S) T) as L. destruct T as (P & E & Z).
  unfold x_at. apply sim_get. eapply sim_then; [apply sim_touch; [exact P|intros h H; exact (holds_get h _ v f H)]|].
  cbn beta. intros _ f' ->. rewrite (proj2 (Nat.ltb_lt _ _)) by lia. rewrite E. apply (sim_ret env _ tt c f (fun a _ f' _ => f' = f /\ a = nth k bs 0)). auto.
Qed.
Lemma sim_text env c f s : t_at s <> None -> sound_str s ->
  (forall h, holds h (e_blocks env ++ frame_blocks f) -> holds h (str_blocks s)) ->
  sim0 env (x_text s) c f (COk tt c) (fun a _ f' => f' = f /\ a = cstr (t_bytes s)).
Proof.
  intros P S K. unfold x_text. eapply sim_then; [apply sim_touch; assumption|]. cbn beta. intros _ f' ->.
  destruct S as [S|S]; [congruence|]. rewrite (proj2 (Nat.ltb_lt _ _)) by lia.
  apply (sim_ret env _ tt c f (fun a _ f' _ => f' = f /\ a = cstr (t_bytes s))). auto.
Qed.
Lemma sim_empty env v c f bs : text (get v f) bs ->
  sim0 env (x_empty v) c f (COk tt c) (fun a _ f' => f' = f /\ a = match bs with [] => true | _ => false end).
Proof.
  intros (P & E & Z). unfold x_empty. apply sim_get. rewrite E.
  apply (sim_ret env _ tt c f (fun a _ f' _ => f' = f /\ a = match bs with [] => true | _ => false end)). auto.
Qed.
Lemma sim_del env v c f : In v (e_slots env) ->
  sim0 env (x_del v) c f (COk tt c) (fun _ _ f' => f' = set v f null_str).
Proof.
  intros J h G H S _ _. unfold x_del, xbind, x_get, xh.
  destruct (h_free_does (t_at (get v f)) h G (holds_get h _ v f H)) as (u & g & h2 & E2 & G2 & X2 & C2 & ->). rewrite E2.
  unfold x_set. split; [exact G2|]. split; [exact X2|]. split; [|split; [|split]].
  - cbn [app]. apply changes_set. exact C2.
  - apply sound_set; [exact S|]. left. reflexivity.
  - apply keeps_set. assumption.
  - exists tt. auto.
Qed.
Lemma sim_malloc env v c f bs size : In v (e_slots env) -> t_at (get v f) = None -> (length bs < size)%nat ->
  sim0 env (x_malloc v bs size) c f (COk tt c) (fun _ _ f' => exists s, f' = set v f s /\ t_at s <> None /\ t_bytes s = bs).
Proof.
  intros J P L h G H S _ _. unfold x_malloc, xbind, xh. destruct (h_malloc_does [] h G) as (p & g & h1 & E & G1 & X1 & C1 & -> & R & Y).
  rewrite E. destruct p as [b|].
  - unfold x_set. split; [exact G1|]. split; [exact X1|]. split; [|split; [|split]].
    + cbn [app]. apply changes_set. unfold str_blocks. rewrite P. exact C1.
    + apply sound_set; [exact S|]. right. exact L.
    + apply keeps_set. assumption.
    + exists tt. split; [reflexivity|]. eexists. split; [reflexivity|]. split; [cbn [t_at]; congruence|reflexivity].
  - unfold xfail. split; [exact G1|]. split; [exact X1|]. split; [|split; [apply keeps_refl|intros g; apply (Y g); reflexivity]].
    intros b. specialize (C1 b). cbn [ptr_blocks] in C1. rewrite cnt_nil in C1. lia.
Qed.

(* ---- reading ---- *)
Lemma utf8_enc_length x : (length (utf8_enc x) <= 4)%nat.
Proof. unfold utf8_enc. repeat match goal with |- context [if ?b then _ else _] => destruct b end; cbn [length]; lia. Qed.
Lemma utf8_enc_nonzero x : x <> 0 -> nonzero (utf8_enc x).
Proof.
  intros N. unfold utf8_enc, nonzero. repeat match goal with |- context [if ?b then _ else _] => destruct b end;
    repeat (apply Forall_cons; [try exact N|]); try apply Forall_nil; lia.
Qed.
Lemma nonzero_app a b : nonzero a -> nonzero b -> nonzero (a ++ b).
Proof. intros A B. apply Forall_app. auto. Qed.
Lemma sim_read env v c f bs : In v (e_slots env) -> text (get v f) bs ->
  sim0 env (x_read v) c f (read bs c) (fun _ bs' f' => exists s, f' = set v f s /\ text s bs' /\ bs' = bs ++ utf8_enc (nth 0 (c_text c) 0)).
Proof.
  intros J T. unfold x_read. eapply sim_then; [apply sim_extend; [exact J|exact T]|]. cbn beta. intros _ f' (s & -> & T' & L).
  unfold read. apply sim_io_bind. intros x c1 Ex. apply sim_io_bind. intros u c2 _.
  unfold peek in Ex. destruct ((0 <? c_unread c)%nat && _) in Ex; [|discriminate]. injection Ex as <- <-.
  pose proof (utf8_enc_length (nth 0 (c_text c) 0)) as U.
  change (ret (bs ++ utf8_enc (nth 0 (c_text c) 0)) c2) with (@COk (list N) (bs ++ utf8_enc (nth 0 (c_text c) 0)) c2).
  intros h G H S _ _. assert (W := sim_put env v c2 (set v f s) bs (utf8_enc (nth 0 (c_text c) 0)) J).
  rewrite get_set in W. specialize (W T' ltac:(lia) h G H S ltac:(congruence) ltac:(congruence)).
  destruct (x_put v (utf8_enc (nth 0 (c_text c) 0)) c2 (set v f s) h) as [a c3 f3 h3|e f3 h3| |]; [| |exact W|exact W].
  - destruct W as (G1 & X1 & C1 & S1 & K1 & b & E & q). repeat (split; [assumption|]). injection E as <- <-.
    eexists. split; [reflexivity|]. destruct q as (s' & -> & T2 & _). exists s'. rewrite set_set. auto.
  - destruct W as (G1 & X1 & C1 & K1 & W). repeat (split; [assumption|]). destruct e; [discriminate W|exact W|exact W].
Qed.
Definition after (bs : list N) (r : cres (list N)) : cres (list N) :=
  match r with COk ds c' => COk (bs ++ ds) c' | e => e end.
Lemma read_line_after bs c : read_line bs c = after bs (read_line [] c).
Proof.
  unfold read_line, bind, ret. destruct (is_crlf c) as [[|] c1|e| |]; try reflexivity; cbn [after].
  - destruct (drop_line 2 c1); reflexivity.
  - destruct (peek 0 c1) as [x c2|e| |]; try reflexivity.
    destruct ((x =? 0xD) || (x =? 0xA)); [destruct (drop_line 1 c2); reflexivity|].
    destruct (x =? 0x85); [destruct (drop_line 1 c2); reflexivity|].
    destruct ((x =? 0x2028) || (x =? 0x2029)); [destruct (drop_line 1 c2); reflexivity|]. cbn [after]. rewrite app_nil_r. reflexivity.
Qed.
Lemma read_line_short c : match read_line [] c with COk ds _ => (length ds <= 4)%nat /\ nonzero ds | _ => True end.
Proof.
  assert (One : (length [0xA] <= 4)%nat /\ nonzero [0xA]) by (split; [cbn [length]; lia|apply Forall_cons; [lia|apply Forall_nil]]).
  unfold read_line, bind, ret. destruct (is_crlf c) as [[|] c1|e| |]; try exact Logic.I.
  - destruct (drop_line 2 c1); [exact One|exact Logic.I..].
  - destruct (peek 0 c1) as [x c2|e| |]; try exact Logic.I.
    destruct ((x =? 0xD) || (x =? 0xA)); [destruct (drop_line 1 c2); [exact One|exact Logic.I..]|].
    destruct (x =? 0x85); [destruct (drop_line 1 c2); [exact One|exact Logic.I..]|].
    destruct ((x =? 0x2028) || (x =? 0x2029)) eqn:E; [destruct (drop_line 1 c2); [|exact Logic.I..]|].
    + cbn [app]. split; [apply utf8_enc_length|apply utf8_enc_nonzero]. lia.
    + split; [cbn [length]; lia|apply Forall_nil].
Qed.
Lemma sim_read_line env v c f bs : In v (e_slots env) -> text (get v f) bs ->
  sim0 env (x_read_line v) c f (read_line bs c) (fun _ bs' f' => exists s, f' = set v f s /\ text s bs' /\ (nonzero bs -> nonzero bs')).
Proof.
  intros J T. unfold x_read_line. eapply sim_then; [apply sim_extend; [exact J|exact T]|]. cbn beta. intros _ f' (s & -> & T' & L).
  rewrite read_line_after. pose proof (read_line_short c) as Z. intros h G H S. unfold xbind, io.
  destruct (read_line [] c) as [ds c2|e| |]; cbn [after]; intros NB NF; try congruence.
  - destruct Z as [Z1 Z2]. assert (W := sim_put env v c2 (set v f s) bs ds J). rewrite get_set in W.
    specialize (W T' ltac:(lia) h G H S ltac:(congruence) ltac:(congruence)).
    destruct (x_put v ds c2 (set v f s) h) as [a c3 f3 h3|e f3 h3| |]; [| |exact W|exact W].
    + destruct W as (G1 & X1 & C1 & S1 & K1 & b & E & q). repeat (split; [assumption|]). injection E as <- <-.
      eexists. split; [reflexivity|]. destruct q as (s' & -> & T2 & _). exists s'. rewrite set_set. split; [reflexivity|]. split; [exact T2|].
      intros N. apply nonzero_app; assumption.
    + destruct W as (G1 & X1 & C1 & K1 & W). repeat (split; [assumption|]). destruct e; [discriminate W|exact W|exact W].
  - split; [exact G|]. split; [apply ext_refl|]. split; [apply changes_refl|]. split; [apply keeps_refl|]. reflexivity.
Qed.
Lemma check_at p c b c' : check 0 p c = COk b c' -> c' = c /\ b = p (nth 0 (c_text c) 0).
Proof. unfold check, bind, peek, ret. destruct (_ && _); [|discriminate]. intros E. injection E as <- <-. auto. Qed.
Lemma sim_read_while env v p c f bs : In v (e_slots env) -> text (get v f) bs ->
  sim0 env (x_read_while v p) c f (read_while p bs c) (fun _ bs' f' => exists s more, f' = set v f s /\ text s bs' /\ bs' = bs ++ more /\
    ((forall x, p x = true -> x <> 0) -> nonzero more)).
Proof.
  intros J T. unfold x_read_while, read_while.
  apply (sim_loop env (fun (_ : unit) bs' f' => exists s more, f' = set v f s /\ text s bs' /\ bs' = bs ++ more /\ ((forall x, p x = true -> x <> 0) -> nonzero more))).
  - intros _ bs' c1 f1 (s & more & -> & T1 & E1 & Z). apply sim_io_bind. intros b c2 E. apply check_at in E. destruct E as [-> ->].
    destruct (p (nth 0 (c_text c1) 0)) eqn:E.
    + eapply sim_bind; [apply sim_read; [exact J|rewrite get_set; exact T1]|]. cbn beta. intros _ b2 c2 f2 (s2 & -> & T2 & E2). rewrite set_set.
      apply sim_io_bind. intros u c3 _. apply (sim_ret env (@inl unit unit tt) (@inl (list N) (list N) b2) c3 _ (fun r r' f' _ => match r, r' with inl x, inl x' => _ | inr x, inr x' => _ | _, _ => False end)).
      intros _. exists s2, (more ++ utf8_enc (nth 0 (c_text c1) 0)). split; [reflexivity|]. split; [exact T2|].
      split; [rewrite E2, E1, app_assoc; reflexivity|]. intros P. apply nonzero_app; [apply Z; assumption|].
      apply utf8_enc_nonzero, P, E.
    + apply (sim_ret env (@inr unit unit tt) (@inr (list N) (list N) bs') c1 _ (fun r r' f' _ => match r, r' with inl x, inl x' => _ | inr x, inr x' => _ | _, _ => False end)).
      intros _. exists s, more. auto.
  - exists (get v f), []. rewrite set_get, app_nil_r. split; [reflexivity|]. split; [exact T|]. split; [reflexivity|]. intros _. apply Forall_nil.
Qed.

(* ---- functions ---- *)
Lemma sim_take {B} env v c f (b : B) : In v (e_slots env) ->
  sim str_blocks env (x_take v) c f (COk b c) (fun a b' f' _ => a = get v f /\ sound_str a /\ b' = b /\ f' = set v f null_str).
Proof.
  intros J h G H S _ _. unfold x_take, xbind, x_get, x_set, xret. split; [exact G|]. split; [apply ext_refl|]. split; [|split; [|split]].
  - intros x. pose proof (blocks_set v f null_str x). rewrite cnt_app. unfold null_str, str_blocks in *. cbn [t_at ptr_blocks] in *. rewrite cnt_nil in *. lia.
  - apply sound_set; [exact S|]. left. reflexivity.
  - apply keeps_set, J.
  - exists b. split; [reflexivity|]. split; [reflexivity|]. split; [apply sound_get, S|auto].
Qed.
Definition covers (del : list slot) : Prop := forall g, (forall v, ~ In v del -> t_at (get v g) = None) ->
  forall b, cnt (frame_blocks g) b = cnt (flat_map (fun v => str_blocks (get v g)) del) b.
Lemma free_slots_does del g h : good h -> holds h (flat_map (fun v => str_blocks (get v g)) del) ->
  does (free_slots del g) h (flat_map (fun v => str_blocks (get v g)) del) (fun _ given _ => given = []).
Proof.
  revert h. induction del as [|v del IH]; intros h G H; cbn [free_slots flat_map] in *; unfold does.
  - eapply ends_ret; [exact G|apply ext_refl| |reflexivity]. cn.
  - apply h_free_ends; [exact G|apply ext_refl| |].
    + unfold str_blocks in H at 1. clear - H. intros b. specialize (H b). rewrite cnt_app in H. lia.
    + intros h2 G2 X2 _ C2. eapply ends_does; [exact X2|apply IH; [exact G2|]| |]; cbn beta.
      * intros b. specialize (H b). specialize (C2 b). rewrite cnt_app in H. unfold str_blocks in H at 1. rewrite cnt_nil in C2. lia.
      * tauto.
      * intros _ g1 h3 C ->. intros b. specialize (C b). specialize (C2 b). rewrite cnt_app. unfold str_blocks at 1. rewrite cnt_nil in *. lia.
Qed.
Lemma sim_scope {A B} own env del (m : xm A) c f (v : cres B) (Q : A -> B -> heap -> Prop) : covers del ->
  sim own (mkEnv (e_blocks env ++ frame_blocks f) del) m c null_frame v (fun a b f' h => frame_blocks f' = [] /\ Q a b h) ->
  sim own env (scope del m) c f v (fun a b f' h => f' = f /\ Q a b h).
Proof.
  intros C M h G H S NB NF. unfold scope.
  assert (H0 : holds h (e_blocks (mkEnv (e_blocks env ++ frame_blocks f) del) ++ frame_blocks null_frame)).
  { change (frame_blocks null_frame) with (@nil nat). rewrite app_nil_r. exact H. }
  assert (S0 : sound null_frame) by (repeat split; left; reflexivity).
  specialize (M h G H0 S0 NB NF). destruct (m c null_frame h) as [a c1 f1 h1|e f1 h1| |]; [| |exact M|exact M].
  - destruct M as (G1 & X1 & C1 & S1 & K1 & b & E & F & q). split; [exact G1|]. split; [exact X1|]. split; [|split; [exact S|split; [apply keeps_refl|exists b; auto]]].
    rewrite F, app_nil_r in C1. intros x. specialize (C1 x). change (frame_blocks null_frame) with (@nil nat) in C1. rewrite cnt_nil in C1. rewrite cnt_app. lia.
  - destruct M as (G1 & X1 & C1 & K1 & M). change (frame_blocks null_frame) with (@nil nat) in C1.
    assert (N : forall v, ~ In v del -> t_at (get v f1) = None).
    { intros w Nw. rewrite (K1 w Nw). destruct w; reflexivity. }
    specialize (C f1 N).
    destruct (free_slots_does del f1 h1 G1) as (u & g & h2 & E & G2 & X2 & C2 & ->).
    { intros b. specialize (C1 b). rewrite cnt_nil in C1. rewrite <- C. lia. }
    rewrite E. split; [exact G2|]. split; [eapply ext_trans; eassumption|]. split; [|split; [apply keeps_refl|exact M]].
    intros b. specialize (C1 b). specialize (C2 b). rewrite <- C in C2. rewrite cnt_nil in *. lia.
Qed.
Ltac covering := intros g N b; unfold frame_blocks; cbn [flat_map get]; rewrite ?cnt_app, ?app_nil_r;
  pose proof (N V0); pose proof (N V1); pose proof (N V2); pose proof (N V3); cbn [get In] in *;
  unfold str_blocks in *;
  repeat match goal with H : _ -> ?x = None |- _ => first [rewrite H by intuition congruence; clear H | clear H] end;
  cbn [ptr_blocks]; rewrite ?cnt_app, ?cnt_nil; lia.
Lemma covers_0 : covers [V0]. Proof. covering. Qed.
Lemma covers_01 : covers [V0; V1]. Proof. covering. Qed.
Lemma covers_210 : covers [V2; V1; V0]. Proof. covering. Qed.
Lemma covers_012 : covers [V0; V1; V2]. Proof. covering. Qed.
Lemma covers_0123 : covers [V0; V1; V2; V3]. Proof. covering. Qed.

Lemma sim_call {B} env v (m : xm hstr) c f (w : cres B) (Q : hstr -> B -> Prop) : In v (e_slots env) -> t_at (get v f) = None ->
  sim str_blocks env m c f w (fun s b f' _ => f' = f /\ sound_str s /\ Q s b) ->
  sim0 env (call v m) c f w (fun _ b f' => exists s, f' = set v f s /\ Q s b).
Proof.
  intros J P M h G H S NB NF. specialize (M h G H S NB NF). unfold call, xbind, x_set.
  destruct (m c f h) as [a c1 f1 h1|e f1 h1| |]; [|exact M|exact M|exact M].
  destruct M as (G1 & X1 & C1 & S1 & K1 & b & E & -> & Sa & q). split; [exact G1|]. split; [exact X1|]. split; [|split; [|split]].
  - cbn [app]. intros x. specialize (C1 x). rewrite cnt_app in C1. pose proof (blocks_set v f a x) as B0. unfold str_blocks in B0 at 1. rewrite P in B0. cbn [ptr_blocks] in B0. rewrite cnt_nil in B0. lia.
  - apply sound_set; assumption.
  - apply keeps_set, J.
  - exists b. split; [exact E|]. exists a. auto.
Qed.
Lemma sim_call2 {B} env v x (m : xm (hstr * hstr)) c f (w : cres B) (Q : hstr * hstr -> B -> Prop) :
  v <> x -> In v (e_slots env) -> In x (e_slots env) -> t_at (get v f) = None -> t_at (get x f) = None ->
  sim (fun r => str_blocks (fst r) ++ str_blocks (snd r)) env m c f w (fun s b f' _ => f' = f /\ sound_str (fst s) /\ sound_str (snd s) /\ Q s b) ->
  sim0 env (call2 v x m) c f w (fun _ b f' => exists s, f' = set x (set v f (fst s)) (snd s) /\ Q s b).
Proof.
  intros D J J' P P' M h G H S NB NF. specialize (M h G H S NB NF). unfold call2, xbind, x_set.
  destruct (m c f h) as [a c1 f1 h1|e f1 h1| |]; [|exact M|exact M|exact M].
  destruct M as (G1 & X1 & C1 & S1 & K1 & b & E & -> & Sa & Sb & q). split; [exact G1|]. split; [exact X1|]. split; [|split; [|split]].
  - cbn [app]. intros y. specialize (C1 y). rewrite !cnt_app in C1. pose proof (blocks_set v f (fst a) y) as B0.
    pose proof (blocks_set x (set v f (fst a)) (snd a) y) as B1.
    replace (get x (set v f (fst a))) with (get x f) in B1 by (destruct v, x; try congruence; reflexivity).
    unfold str_blocks in B0 at 1, B1 at 1. rewrite P in B0. rewrite P' in B1. cbn [ptr_blocks] in *. rewrite cnt_nil in *. lia.
  - repeat apply sound_set; assumption.
  - eapply keeps_trans; apply keeps_set; assumption.
  - exists b. split; [exact E|]. exists a. auto.
Qed.
Lemma h_seal_does s t h : good h -> t_at s <> None -> sound_str s -> holds h (str_blocks s) ->
  does (h_seal s t) h (str_blocks s) (fun p g h' => g = ptr_blocks p /\ str_at h' p = t /\ p <> None).
Proof.
  intros G P S H. unfold h_seal, str_blocks in *. destruct (t_at s) as [b|] eqn:E; [|congruence].
  assert (I0 : In b (live h)) by (eapply held; [exact H|left; reflexivity]).
  assert (L : (length (t_bytes s) <? t_size s)%nat = true) by (destruct S as [S|S]; [congruence|apply Nat.ltb_lt, S]).
  unfold does, ends. rewrite (proj2 (allocated_in h b) I0), L. cbn [andb]. destruct G as [N B].
  eexists (Some _), _, _. split; [reflexivity|]. split; [|split; [|split; [|split; [reflexivity|]]]].
  - split; cbn [live texts].
    + constructor; [|apply nodup_remove, N]. intros X. apply in_remove in X. destruct X as [X _]. apply B in X. lia.
    + rewrite app_length. cbn [length]. intros x [<-|X]; [lia|]. apply in_remove in X. destruct X as [X _]. apply B in X. lia.
  - split; [exists [t]; reflexivity|exact (fun g => g)].
  - intros x. cbn [live ptr_blocks]. pose proof (cnt_remove b (live h) x N I0). rewrite cnt_cons. lia.
  - cbn [str_at texts]. (split; [apply nth_middle|discriminate]).
Qed.
Lemma sim_seal {A B} own env v tx (mk : ptr -> A) c f (b : B) (Q : A -> B -> frame -> heap -> Prop) :
  In v (e_slots env) -> t_at (get v f) <> None -> (forall p, own (mk p) = ptr_blocks p) ->
  (forall p h, p <> None -> str_at h p = tx (t_bytes (get v f)) -> Q (mk p) b (set v f null_str) h) ->
  sim own env (xbind (x_seal v tx) (fun p => xret (mk p))) c f (COk b c) Q.
Proof.
  intros J P O K h G H S _ _. unfold x_seal, xbind, x_get, xh, x_set, xret.
  destruct (h_seal_does (get v f) (tx (t_bytes (get v f))) h G P (sound_get v f S) (holds_get h _ v f H)) as (p & g & h1 & E & G1 & X1 & C1 & -> & T & Np).
  rewrite E. split; [exact G1|]. split; [exact X1|]. split; [|split; [|split]].
  - intros x. specialize (C1 x). rewrite cnt_app, O. pose proof (blocks_set v f null_str x). cbn [null_str str_blocks t_at ptr_blocks] in *.
    change (str_blocks null_str) with (@nil nat) in *. rewrite cnt_nil in *. lia.
  - apply sound_set; [exact S|left; reflexivity].
  - apply keeps_set, J.
  - exists b. auto.
Qed.
Lemma sim_seal2 {A B} own env v w tx ty (mk : ptr -> ptr -> A) c f (b : B) (Q : A -> B -> frame -> heap -> Prop) : v <> w ->
  In v (e_slots env) -> In w (e_slots env) -> t_at (get v f) <> None -> t_at (get w f) <> None ->
  (forall p q, own (mk p q) = ptr_blocks p ++ ptr_blocks q) ->
  (forall p q h, p <> None -> q <> None -> str_at h p = tx (t_bytes (get v f)) -> str_at h q = ty (t_bytes (get w f)) -> Q (mk p q) b (set w (set v f null_str) null_str) h) ->
  sim own env (xbind (x_seal v tx) (fun p => xbind (x_seal w ty) (fun q => xret (mk p q)))) c f (COk b c) Q.
Proof.
  intros D J J' P P' O K h G H S _ _.
  assert (W : forall f s, get w (set v f s) = get w f) by (intros f0 s; destruct v, w; try congruence; reflexivity).
  unfold x_seal, xbind, x_get, xh, x_set, xret.
  destruct (h_seal_does (get v f) (tx (t_bytes (get v f))) h G P (sound_get v f S) (holds_get h _ v f H)) as (p & g & h1 & E & G1 & X1 & C1 & -> & T & Np).
  rewrite E, W.
  assert (C1' : changes h (frame_blocks f) (ptr_blocks p ++ frame_blocks (set v f null_str)) h1).
  { intros x. specialize (C1 x). rewrite cnt_app. pose proof (blocks_set v f null_str x). change (str_blocks null_str) with (@nil nat) in *. rewrite cnt_nil in *. lia. }
  assert (H1 : holds h1 (ptr_blocks p ++ frame_blocks (set v f null_str))).
  { intros x. specialize (C1' x). specialize (H x). rewrite cnt_app in H. lia. }
  pose proof (holds_get h1 _ w _ H1) as H2. rewrite W in H2.
  destruct (h_seal_does (get w f) (ty (t_bytes (get w f))) h1 G1 P' (sound_get w f S) H2) as (q & g & h2 & E2 & G2 & X2 & C2 & -> & T2 & Nq).
  rewrite E2. split; [exact G2|]. split; [eapply ext_trans; eassumption|]. split; [|split; [|split]].
  - intros x. specialize (C1' x). specialize (C2 x). rewrite O, !cnt_app in *. pose proof (blocks_set w (set v f null_str) null_str x) as B1. rewrite W in B1.
    change (str_blocks null_str) with (@nil nat) in *. rewrite cnt_nil in *. lia.
  - repeat apply sound_set; try exact S; left; reflexivity.
  - eapply keeps_trans; apply keeps_set; assumption.
  - exists b. split; [reflexivity|]. apply K; [exact Np|exact Nq| |exact T2]. rewrite <- T. apply str_ext; [exact G1|exact X2|].
    intros x. specialize (H1 x). rewrite cnt_app in H1. lia.
Qed.
