(** Facts about dead code elimination. *)
From Coq Require Import ZArith Bool String List Lia.
From Verif Require Import M31 Isa Mir MirSem MirPasses MirFacts MirLocalFacts MirSim MirFuseFacts
  MirBranchFacts MirDce.
Import ListNotations.
Open Scope nat_scope.

(** ** Reachability. *)
Definition edge (bs : list block) (a b : nat) : Prop :=
  exists blk, nth_error bs a = Some blk /\ In b (targets (b_term blk)).
Inductive path (bs : list block) (a : nat) : nat -> Prop :=
| path_refl : path bs a a
| path_step b c : path bs a b -> edge bs b c -> path bs a c.

Definition degree (b : block) : nat := length (targets (b_term b)).
Fixpoint pending (bs : list block) (visited : list nat) (k n : nat) : nat :=
  match n with
  | O => O
  | S n' => (if mem_nat k visited then 0 else match nth_error bs k with Some b => degree b | None => 0 end)
            + pending bs visited (S k) n'
  end.
Lemma pending_cons : forall bs c n k visited,
  pending bs (c :: visited) k n
  + (if (Nat.leb k c && Nat.ltb c (k + n) && negb (mem_nat c visited))%bool
     then match nth_error bs c with Some b => degree b | None => 0 end else 0)
  = pending bs visited k n.
Proof.
  induction n as [|n IH]; intros k visited; cbn [pending].
  - destruct (Nat.leb_spec k c); cbn [andb]; auto. destruct (Nat.ltb_spec c (k + 0)); cbn [andb]; lia.
  - rewrite <- (IH (S k) visited). cbn [mem_nat existsb].
    fold (mem_nat k visited). destruct (Nat.eqb_spec k c) as [->|N].
    + destruct (Nat.leb_spec (S c) c); [lia|]. cbn [andb].
      destruct (Nat.leb_spec c c); [|lia]. destruct (Nat.ltb_spec c (c + S n)); [|lia]. cbn [andb orb].
      destruct (mem_nat c visited) eqn:E; cbn [negb]; lia.
    + cbn [orb]. assert ((Nat.leb k c && Nat.ltb c (k + S n))%bool = (Nat.leb (S k) c && Nat.ltb c (S k + n))%bool) as ->.
      { destruct (Nat.leb_spec k c), (Nat.leb_spec (S k) c), (Nat.ltb_spec c (k + S n)), (Nat.ltb_spec c (S k + n)); cbn; auto; lia. }
      destruct (mem_nat k visited); lia.
Qed.
Lemma degree_le : forall b, degree b <= 2.
Proof. intro b. unfold degree. destruct (b_term b); cbn; lia. Qed.
Lemma pending_le : forall bs v n k, pending bs v k n <= 2 * n.
Proof.
  induction n as [|n IH]; intros k; cbn [pending]; [lia|].
  specialize (IH (S k)). destruct (mem_nat k v); [lia|].
  destruct (nth_error bs k) as [b|]; [pose proof (degree_le b); lia|lia].
Qed.

Lemma dfs_total : forall bs fuel target visited stack,
  length stack + pending bs visited 0 (length bs) < fuel ->
  exists r, dfs bs fuel target visited stack = Some r.
Proof.
  intros bs. induction fuel as [|k IH]; intros target visited stack H; [lia|]. cbn [dfs].
  destruct stack as [|c st]; [eauto|]. cbn [length] in H.
  destruct (Nat.eqb c target); [eauto|].
  destruct (mem_nat c visited) eqn:Em; [apply IH; lia|].
  pose proof (pending_cons bs c (length bs) 0 visited) as PC. rewrite Em in PC. cbn [negb] in PC.
  rewrite andb_true_r in PC. cbn [Nat.leb andb] in PC.
  destruct (nth_error bs c) as [b|] eqn:E; apply IH.
  - assert (c < length bs) by (apply nth_error_Some; congruence).
    destruct (Nat.ltb_spec c (0 + length bs)); [|lia].
    rewrite app_length, rev_length. unfold degree in PC. lia.
  - destruct (Nat.ltb c (0 + length bs)); lia.
Qed.

Lemma dfs_sound : forall bs entry fuel target visited stack,
  (forall c, In c stack -> path bs entry c) ->
  dfs bs fuel target visited stack = Some true -> path bs entry target.
Proof.
  intros bs entry. induction fuel as [|k IH]; intros target visited stack H E; [discriminate|]. cbn [dfs] in E.
  destruct stack as [|c st]; [discriminate|].
  destruct (Nat.eqb_spec c target) as [->|N]; [apply H; left; auto|].
  destruct (mem_nat c visited); [eapply IH; [|exact E]; intros; apply H; right; auto|].
  destruct (nth_error bs c) as [b|] eqn:Eb.
  - eapply IH; [|exact E]. intros d Hd. apply in_app_iff in Hd. destruct Hd as [Hd|Hd].
    + apply in_rev in Hd. eapply path_step; [apply H; left; reflexivity|]. exists b; auto.
    + apply H; right; auto.
  - eapply IH; [|exact E]. intros; apply H; right; auto.
Qed.

(** Everything visited has its successors visited or waiting. *)
Lemma dfs_complete : forall bs fuel target visited stack,
  (forall a b, In a visited -> edge bs a b -> In b visited \/ In b stack) ->
  ~ In target visited ->
  dfs bs fuel target visited stack = Some false ->
  exists V, (forall a, In a visited \/ In a stack -> In a V) /\ ~ In target V /\
            (forall a b, In a V -> edge bs a b -> In b V).
Proof.
  intros bs. induction fuel as [|k IH]; intros target visited stack H N E; [discriminate|]. cbn [dfs] in E.
  destruct stack as [|c st].
  - exists visited. split; [intros a [Ha|[]]; exact Ha|]. split; auto. intros a b Ha He. destruct (H a b Ha He) as [|[]]; auto.
  - destruct (Nat.eqb_spec c target) as [->|Nc]; [discriminate|].
    destruct (mem_nat c visited) eqn:Em.
    + apply mem_nat_in in Em. destruct (IH target visited st) as (V & A & B & C); auto.
      { intros a b Ha He. destruct (H a b Ha He) as [|[<-|]]; auto. }
      exists V. split; [|auto]. intros a [Ha|[<-|Ha]]; auto.
    + assert (K : forall stack', (forall x, In x stack' <-> In x st \/ edge bs c x) ->
        dfs bs k target (c :: visited) stack' = Some false ->
        exists V, (forall a, In a visited \/ In a (c :: st) -> In a V) /\ ~ In target V /\
                  (forall a b, In a V -> edge bs a b -> In b V)).
      { intros stack' Hs E'. destruct (IH target (c :: visited) stack') as (V & A & B & C); auto.
        - intros a b [<-|Ha] He.
          + right. apply Hs; auto.
          + destruct (H a b Ha He) as [|[<-|]]; cbn; auto. right. apply Hs; auto.
        - intros [->|]; auto.
        - exists V. split; [|auto]. intros a [Ha|[<-|Ha]]; apply A; cbn; auto. right. apply Hs; auto. }
      destruct (nth_error bs c) as [b|] eqn:Eb; eapply K; eauto.
      * intro x. rewrite in_app_iff, <- in_rev. split; [intros [Hx|Hx]; auto|intros [Hx|(blk & E1 & E2)]; auto].
        -- right. exists b; auto.
        -- left. congruence.
      * intro x. split; auto. intros [Hx|(blk & E1 & E2)]; auto. congruence.
Qed.

Lemma path_closed : forall bs entry V b, In entry V ->
  (forall a b, In a V -> edge bs a b -> In b V) -> path bs entry b -> In b V.
Proof. intros bs entry V b H C P. induction P; auto. apply (C b); auto. Qed.
Lemma reachable_iff : forall f b, reachable f b = true <-> path (f_blocks f) (f_entry f) b.
Proof.
  intros f b. unfold reachable.
  destruct (dfs_total (f_blocks f) (2 * length (f_blocks f) + 2) b [] [f_entry f]) as (r & E).
  { pose proof (pending_le (f_blocks f) [] (length (f_blocks f)) 0). cbn [length]. lia. }
  rewrite E. destruct r; split; intro H; auto; try discriminate.
  - eapply dfs_sound; [|exact E]. intros c [<-|[]]. apply path_refl.
  - exfalso. destruct (dfs_complete (f_blocks f) _ b [] [f_entry f] (fun a c (h : In a []) => match h with end) (fun h => h) E) as (V & A & B & C).
    apply B. eapply path_closed; eauto. apply A; cbn; auto.
Qed.

(** ** Renumbering. *)
Lemma index_of_nth : forall x l n, index_of x l = Some n -> nth_error l n = Some x.
Proof.
  induction l as [|y l IH]; intros n H; cbn in H; [discriminate|].
  destruct (Nat.eqb_spec x y) as [->|N]; [injection H as <-; reflexivity|].
  destruct (index_of x l) as [m|]; [|discriminate]. injection H as <-. cbn. auto.
Qed.
Lemma index_of_in : forall x l, In x l -> exists n, index_of x l = Some n.
Proof.
  induction l as [|y l IH]; intros H; [contradiction|]. cbn.
  destruct (Nat.eqb_spec x y); [eauto|]. destruct H as [->|H]; [congruence|].
  destruct (IH H) as (k & ->). eauto.
Qed.
Lemma kept_in : forall f b, In b (kept f) <-> (b < length (f_blocks f) /\ path (f_blocks f) (f_entry f) b).
Proof.
  intros f b. unfold kept. rewrite filter_In, in_seq, reachable_iff. split; intros [A B]; split; auto; lia.
Qed.

Definition same_code (a b : block) : Prop := b_instrs b = b_instrs a /\ b_term b = b_term a.
Lemma set_term_same_code : forall orig bs id b,
  Forall2 same_code orig bs -> nth_error bs id = Some b ->
  Forall2 same_code orig (set_terminator_with_edges id (b_term b) bs).
Proof.
  intros orig bs id b F H. unfold set_terminator_with_edges. rewrite H.
  assert (HA : forall a c, same_code a c -> same_code a (add_pred id c)).
  { intros a c [A B]. unfold add_pred. destruct (mem_nat id (b_preds c)); split; auto. }
  assert (HR : forall a c, same_code a c -> same_code a (remove_pred id c)) by (intros a c [A B]; split; auto).
  apply (fold_upd_Forall2 _ _ _ same_code (fun x => x)); auto.
  pose proof (nth_fold_preds (remove_pred id) id (targets (b_term b)) bs b
                ltac:(split; reflexivity) H) as (c & Ec & Ei & Et).
  apply upd_nth_at; [apply (fold_upd_Forall2 _ _ _ same_code (fun x => x)); auto|].
  intros a d Ha Hd [S1 S2]. rewrite Ec in Hd. injection Hd as <-. split; [exact S1|].
  cbn [set_term b_term]. rewrite <- S2. symmetry; exact Et.
Qed.
Lemma reapply_same_code : forall ids orig bs,
  Forall2 same_code orig bs -> Forall2 same_code orig (fold_left reapply ids bs).
Proof.
  induction ids as [|id ids IH]; intros orig bs F; cbn; auto. apply IH. unfold reapply.
  destruct (nth_error bs id) eqn:E; auto. apply set_term_same_code; auto.
Qed.

Lemma Forall2_nth : forall A B (R : A -> B -> Prop) l r n a,
  Forall2 R l r -> nth_error l n = Some a -> exists b, nth_error r n = Some b /\ R a b.
Proof.
  intros A B R l r n a F. revert n. induction F; intros [|n] H1; cbn in *; try discriminate; eauto.
  injection H1 as <-; eauto.
Qed.

(** The phis of reachable blocks still find their source after renumbering. *)
Definition phis_stable (f : func) : Prop :=
  forall p b blk d t ss p', path (f_blocks f) (f_entry f) p -> edge (f_blocks f) p b ->
    nth_error (f_blocks f) b = Some blk -> In (IPhi d t ss) (b_instrs blk) ->
    index_of p (kept f) = Some p' -> src_from p' ss = src_from p ss.

Lemma enter_stable : forall e p p' l,
  (forall d t ss, In (d, t, ss) l -> src_from p' ss = src_from p ss) ->
  enter e (Some p') l = enter e (Some p) l.
Proof.
  intros e p p' l H. unfold enter.
  assert (omap (phi_val e (Some p')) l = omap (phi_val e (Some p)) l) as ->; auto.
  induction l as [|[[d t] ss] l IH]; cbn; auto.
  rewrite (H d t ss (or_introl eq_refl)), IH; auto. intros; eapply H; right; eauto.
Qed.
Lemma span_phi_in : forall is d t ss, In (d, t, ss) (fst (span_phi is)) -> In (IPhi d t ss) is.
Proof.
  induction is as [|i is IH]; intros d t ss H; [destruct H|].
  destruct i; cbn in H; try contradiction. destruct H as [H|H]; [injection H as <- <- <-; left; auto|right; auto].
Qed.

Section Compact.
  Variable f : func.
  Hypothesis Hs : phis_stable f.

  Lemma compact_run : forall g, compact f = Some g -> kept f <> [] -> length (kept f) <> length (f_blocks f) ->
    f_params g = f_params f /\
    exists en, f_entry g = en /\ index_of (f_entry f) (kept f) = Some en /\
    forall S (W : world S) fuel b b' prev prev' e s,
      path (f_blocks f) (f_entry f) b -> index_of b (kept f) = Some b' ->
      (prev = None /\ prev' = None \/
       exists p p', prev = Some p /\ prev' = Some p' /\ path (f_blocks f) (f_entry f) p /\
                    edge (f_blocks f) p b /\ index_of p (kept f) = Some p') ->
      run W g fuel prev' b' e s = run W f fuel prev b e s.
  Proof.
    intros g Hc _ Hne. unfold compact in Hc. apply Nat.eqb_neq in Hne. rewrite Hne in Hc.
    destruct (omap _ (kept f)) as [bs|] eqn:Eo; [|discriminate].
    destruct (index_of (f_entry f) (kept f)) as [en|] eqn:Ee; [|discriminate].
    injection Hc as <-. cbn [f_params f_entry]. split; [reflexivity|]. exists en. split; [reflexivity|].
    split; [reflexivity|].
    set (g := Func _ _ _ _ _ _).
    apply omap_Forall2 in Eo.
    pose proof (reapply_same_code (seq 0 (length bs)) bs bs (Forall2_refl _ _ (fun a => conj eq_refl eq_refl) bs)) as F.
    assert (NB : forall b b', index_of b (kept f) = Some b' ->
      exists blk blk' t', nth_error (f_blocks f) b = Some blk /\ nth_error (f_blocks g) b' = Some blk' /\
        b_instrs blk' = b_instrs blk /\ remap_term (fun x => index_of x (kept f)) (b_term blk) = Some t' /\ b_term blk' = t').
    { intros b b' H. apply index_of_nth in H.
      destruct (Forall2_nth _ _ _ _ _ _ _ Eo H) as (c & Ec & Hc). cbn in Hc.
      destruct (nth_error (f_blocks f) b) as [blk|] eqn:Eb; [|discriminate].
      unfold remap_block in Hc. destruct (remap_term _ (b_term blk)) as [t'|] eqn:Et; [|discriminate].
      injection Hc as <-. destruct (Forall2_nth _ _ _ _ _ _ _ F Ec) as (d & Ed & [D1 D2]).
      exists blk, d, t'. cbn in D1, D2. repeat split; auto. }
    intros S W. induction fuel as [|k IH]; intros b b' prev prev' e s Hp Hi Hprev; [reflexivity|].
    cbn [run]. destruct (NB b b' Hi) as (blk & blk' & t' & E1 & E2 & E3 & E4 & E5).
    rewrite E1, E2, E3.
    assert (enter e prev' (fst (span_phi (b_instrs blk))) = enter e prev (fst (span_phi (b_instrs blk)))) as ->.
    { destruct Hprev as [[-> ->]|(p & p' & -> & -> & Pp & Pe & Pi)]; [reflexivity|].
      apply enter_stable. intros d t ss Hin. apply (Hs p b blk d t ss p'); auto. apply span_phi_in; auto. }
    destruct (enter e prev _) as [e1|]; [|reflexivity]. cbn [of_opt rbind].
    change (f_types g) with (f_types f). change (f_rets g) with (f_rets f).
    destruct (exec_list W (f_types f) e1 s (snd (span_phi (b_instrs blk)))) as [[e2 s2]| | |]; try reflexivity.
    cbn [rbind fst snd].
    assert (GO : forall x x', In x (targets (b_term blk)) -> index_of x (kept f) = Some x' ->
       run W g k (Some b') x' e2 s2 = run W f k (Some b) x e2 s2).
    { intros x x' Hx Hx'. apply IH; auto.
      - eapply path_step; eauto. exists blk; auto.
      - right. exists b, b'. repeat split; auto. exists blk; auto. }
    destruct (b_term blk) as [a|c a d|op l r a d|vs|]; cbn [remap_term] in E4.
    - destruct (index_of a (kept f)) as [a'|] eqn:Ea; [|discriminate]. injection E4 as <-. rewrite E5.
      cbn [exec_term rbind]. apply GO; cbn; auto.
    - destruct (index_of a (kept f)) as [a'|] eqn:Ea; [|discriminate].
      destruct (index_of d (kept f)) as [d'|] eqn:Ed; [|discriminate]. injection E4 as <-. rewrite E5.
      cbn [exec_term]. destruct (truth e2 c) as [x|]; cbn [of_opt rbind]; [|reflexivity].
      destruct x; apply GO; cbn; auto.
    - destruct (index_of a (kept f)) as [a'|] eqn:Ea; [|discriminate].
      destruct (index_of d (kept f)) as [d'|] eqn:Ed; [|discriminate]. injection E4 as <-. rewrite E5.
      cbn [exec_term]. destruct (branch_op op); [|reflexivity].
      destruct (eval_bin e2 op l r) as [x| | |]; cbn [of_opt rbind]; try reflexivity.
      destruct x; try reflexivity. destruct b0; apply GO; cbn; auto.
    - injection E4 as <-. rewrite E5. cbn [exec_term].
      destruct (omap _ _); [|reflexivity]. cbn [of_opt rbind].
      destruct (eval_list e2 l vs); reflexivity.
    - injection E4 as <-. rewrite E5. reflexivity.
  Qed.

  Lemma compact_same : forall g, compact f = Some g -> forall S (W : world S) fuel args s,
    call_fn W g fuel args s = call_fn W f fuel args s.
  Proof.
    intros g Hc S W fuel args s.
    destruct (Nat.eq_dec (length (kept f)) (length (f_blocks f))) as [E|N].
    - unfold compact in Hc. apply Nat.eqb_eq in E. rewrite E in Hc. injection Hc as <-. reflexivity.
    - assert (K : kept f <> []).
      { intro K. unfold compact in Hc. apply Nat.eqb_neq in N. rewrite N, K in Hc. cbn in Hc. discriminate. }
      destruct (compact_run g Hc K N) as (Hp & en & He & Hi & R).
      unfold call_fn. rewrite Hp, He. destruct (bind_all _ _ _); [|reflexivity].
      apply R; auto. apply path_refl.
  Qed.
End Compact.

(** Compaction does not panic when the branch targets of reachable blocks exist. *)
Lemma remap_some : forall nu t, (forall x, In x (targets t) -> exists y, nu x = Some y) -> exists t', remap_term nu t = Some t'.
Proof.
  intros nu t H. destruct t as [a|c a b|op l r a b|vs|]; cbn in *; eauto.
  - destruct (H a) as (y & ->); auto. eauto.
  - destruct (H a) as (y & ->); auto. destruct (H b) as (z & ->); auto. eauto.
  - destruct (H a) as (y & ->); auto. destruct (H b) as (z & ->); auto. eauto.
Qed.
Lemma omap_some : forall A B (h : A -> option B) l, (forall a, In a l -> exists b, h a = Some b) -> exists r, omap h l = Some r.
Proof.
  induction l as [|a l IH]; intro H; cbn; [eauto|].
  destruct (H a (or_introl eq_refl)) as (b & ->). destruct IH as (r & ->); [intros; apply H; right; auto|]. eauto.
Qed.
Lemma compact_total : forall f,
  f_entry f < length (f_blocks f) ->
  (forall b, In b (f_blocks f) -> forall x, In x (targets (b_term b)) -> x < length (f_blocks f)) ->
  exists g, compact f = Some g.
Proof.
  intros f He Ht. unfold compact. destruct (Nat.eqb _ _); [eauto|].
  destruct (index_of_in (f_entry f) (kept f)) as (en & ->); [apply kept_in; split; auto; apply path_refl|].
  match goal with |- context [omap ?h (kept f)] => destruct (omap_some _ _ h (kept f)) as (r & ->) end; [|eauto].
  intros b Hb. apply kept_in in Hb. destruct Hb as [Hb Hp].
  destruct (nth_error (f_blocks f) b) as [blk|] eqn:E; [|apply nth_error_None in E; lia].
  unfold remap_block. destruct (remap_some (fun x => index_of x (kept f)) (b_term blk)) as (t' & ->); [|eauto].
  intros x Hx. apply index_of_in, kept_in. split; [eapply Ht; eauto; eapply nth_error_In; eauto|].
  eapply path_step; eauto. exists blk; auto.
Qed.

(** ** Removing dead instructions. *)
(** Creating an array no one uses must not be observable: the world ignores it, or there
    is none. *)
Definition array_pure {S} (W : world S) : Prop :=
  forall s d vs t c r, w_array W s d vs t c = ROk r -> snd r = s.
Definition no_arrays (f : func) : Prop :=
  forall b d es t c, In b (f_blocks f) -> ~ In (IMakeArray d es t c) (b_instrs b).

Lemma use_count_pos : forall f v b, In b (f_blocks f) ->
  (exists i, In i (b_instrs b) /\ In v (uses i)) \/ In v (term_uses (b_term b)) -> 0 < use_count f v.
Proof.
  intros f v b Hb H. destruct (use_count f v) eqn:E; [|lia]. exfalso.
  destruct (use_count_zero f v E b Hb) as [A B]. destruct H as [(i & Hi & U)|U]; [exact (A i Hi U)|auto].
Qed.

Section Sweep.
  Variable f : func.
  Let X v := use_count f v = 0.
  Let okW (S : Type) (W : world S) := array_pure W \/ no_arrays f.

  Lemma sweep_lsim : forall b blk, nth_error (f_blocks f) b = Some blk ->
    forall is pos, (forall i, In i is -> In i (b_instrs blk)) ->
    lsim f (sweep f) false X (fun _ _ _ => True) okW b pos is
      (filter (keep_instr (fun v => Nat.ltb 0 (use_count f v))) is).
  Proof.
    intros b blk Hb. induction is as [|i is IH]; intros pos Hi; [constructor|].
    assert (IH' : forall p, lsim f (sweep f) false X (fun _ _ _ => True) okW b p is
      (filter (keep_instr (fun v => Nat.ltb 0 (use_count f v))) is)) by (intro; apply IH; intros; apply Hi; right; auto).
    assert (Hin : In i (b_instrs blk)) by (apply Hi; left; auto).
    assert (HU : forall v, In v (uses i) -> ~ X v).
    { intros v Hv E. unfold X in E. pose proof (use_count_pos f v blk (nth_error_In _ _ Hb) ltac:(left; eauto)). lia. }
    cbn [filter]. destruct (keep_instr _ i) eqn:Ek.
    - destruct (is_phi i) eqn:Ep.
      + destruct i; try discriminate. apply ls_phi; auto. split; [reflexivity|].
        intros p blk' e e' x _ _ _ HR. unfold phi_val. cbn [fst snd].
        destruct (src_from p sources) as [v|] eqn:Es; [|discriminate].
        intro E. apply (proj1 (vsim_agree e e' v ltac:(
          intros j Hj; apply HR; apply HU; cbn;
          apply in_flat_map; exists v; split; auto;
          clear -Es; induction sources as [|[q w] r IHr]; cbn in *; [discriminate|];
          destruct (Nat.eqb p q); [injection Es as <-; auto|right; auto])) _ _ E).
      + apply ls_keep; auto. split; [|split; [|split]]; auto.
        intros S W s e e' _ _ HR. apply effect_agree; auto.
    - unfold keep_instr in Ek. destruct (has_side_effects i) eqn:Es; [discriminate|].
      assert (HD : i = INop \/ exists d, dest i = Some d /\ X d).
      { unfold Mir.dest. destruct i; unfold Mir.dest in Ek; cbn [Mir.dests] in Ek |- *; auto; try discriminate; right; eexists; (split; [reflexivity|]);
          unfold X; apply Nat.ltb_ge in Ek; lia. }
      destruct (is_phi i) eqn:Ep.
      + destruct i; try discriminate. destruct HD as [|(d & E & Xd)]; [discriminate|].
        cbn in E. injection E as <-. apply ls_phi_drop; auto.
      + apply ls_drop; auto. split; [auto|]. split.
        * intros d Hd. destruct HD as [->|(d' & E & Xd)]; [destruct Hd|].
          unfold dest in E. destruct (dests i) as [|x [|y l]]; try discriminate. injection E as ->.
          destruct Hd as [<-|[]]; auto.
        * intros S W s e HW _.
          destruct (effect W (f_types f) e s i) as [r| | |] eqn:Ee; auto.
          assert (K : forall (x : res val) k, rbind x (fun v : val => ROk ([v], k)) = ROk r -> snd r = k).
          { intros x k. destruct x; cbn; try discriminate. intro Q; injection Q as <-. reflexivity. }
          destruct i; try discriminate; cbn [effect] in Ee; try (eapply K; eassumption);
            try (destruct HD as [Q|(d & Q & _)]; discriminate).
          -- match type of Ee with match ?a with _ => _ end = _ => destruct a; try discriminate end;
             match type of Ee with match ?a with _ => _ end = _ => destruct a; try discriminate end; eapply K; eassumption.
          -- destruct (e (pl_base pl)); [|discriminate]. cbn [of_opt rbind] in Ee.
             destruct (omap (eval_proj e) (pl_projs pl)); [|discriminate]. cbn [of_opt rbind] in Ee.
             eapply K; eassumption.
          -- injection Ee as <-. reflexivity.
          -- destruct (f_types f dest) as [[]|]; try discriminate; eapply K; eassumption.
          -- destruct struct_ty; try discriminate; eapply K; eassumption.
          -- destruct struct_ty; try discriminate; eapply K; eassumption.
          -- destruct tuple_ty; try discriminate; eapply K; eassumption.
          -- destruct (omap _ _); [|discriminate]. cbn [of_opt rbind] in Ee.
             destruct HW as [HW|HW]; [|exfalso; eapply HW; [eapply nth_error_In; eauto|exact Hin]].
             destruct (w_array W s dest l element_ty is_const) as [q| | |] eqn:Eq; try discriminate.
             cbn in Ee. injection Ee as <-. cbn. eapply HW; eauto.
  Qed.

  Lemma sweep_sim : phis_first f -> forall S (W : world S) fuel args s,
    array_pure W \/ no_arrays f ->
    rrel false eq (call_fn W f fuel args s) (call_fn W (sweep f) fuel args s).
  Proof.
    intros Hp S W fuel args s HW.
    apply (sim_calls f (sweep f) false X (fun _ _ _ => True) okW); auto.
    intros b blk Hb. eexists. split; [|split].
    - cbn [sweep with_blocks f_blocks]. apply map_nth_error. exact Hb.
    - cbn [b_instrs]. eapply sweep_lsim; eauto.
    - cbn [b_term]. intros e e' _ HR.
      assert (AG : forall v, In v (term_uses (b_term blk)) -> e' v = e v).
      { intros v Hv. apply HR. intro E. unfold X in E.
        pose proof (use_count_pos f v blk (nth_error_In _ _ Hb) ltac:(right; auto)). lia. }
      clear -AG. change (f_types (sweep f)) with (f_types f). change (f_rets (sweep f)) with (f_rets f).
      destruct (b_term blk); cbn [exec_term term_uses] in *; try apply rrel_eq_refl.
      + rewrite (truth_sim_agree e e' cond); auto. apply rrel_eq_refl.
      + destruct (branch_op op); [|exact Logic.I].
        apply rrel_bind with (R := eq); [|intros x ? _ _ <-; apply rrel_eq_refl].
        apply eval_bin_sim; apply vsim_agree; intros; apply AG; apply in_app_iff; auto.
      + destruct (omap _ _) as [ts|]; [|exact Logic.I]. cbn [of_opt rbind].
        apply rrel_bind with (R := eq); [|intros x ? _ _ <-; apply rrel_eq_refl].
        apply rrel_of_opt. intros x Hx. rewrite <- (map_id values).
        apply (eval_list_sim e e' (fun v => v) ts values x); auto.
        intros v Hv. apply vsim_agree. intros i Hi. apply AG. apply in_flat_map. eauto.
  Qed.
End Sweep.

Lemma span_filter : forall (p : minstr -> bool) is,
  forallb (fun i => negb (is_phi i)) (snd (span_phi is)) = true ->
  forallb (fun i => negb (is_phi i)) (snd (span_phi (filter p is))) = true.
Proof.
  intro p.
  assert (NP : forall is, forallb (fun i => negb (is_phi i)) is = true ->
     forallb (fun i => negb (is_phi i)) (filter p is) = true).
  { intros is H. rewrite forallb_forall in *. intros i Hi. apply filter_In in Hi. apply H, Hi. }
  induction is as [|i is IH]; intro H; [reflexivity|]. destruct (is_phi i) eqn:E.
  - destruct i; try discriminate. cbn [filter]. destruct (p _); [cbn; apply IH, H|apply IH, H].
  - assert (span_phi (i :: is) = ([], i :: is)) as S by (destruct i; try discriminate; reflexivity).
    rewrite S in H. cbn [snd] in H. apply NP in H. rewrite (span_nophi _ H). exact H.
Qed.
Lemma sweep_phis : forall f, phis_first f -> phis_first (sweep f).
Proof.
  intros f H b Hb. cbn [sweep with_blocks f_blocks] in Hb. apply in_map_iff in Hb.
  destruct Hb as (c & <- & Hc). cbn [b_instrs]. apply span_filter. apply H; auto.
Qed.
Lemma sweep_arrays : forall f, no_arrays f -> no_arrays (sweep f).
Proof.
  intros f H b d es t c Hb Hi. cbn [sweep with_blocks f_blocks] in Hb. apply in_map_iff in Hb.
  destruct Hb as (b' & <- & Hc). cbn [b_instrs] in Hi. apply filter_In in Hi. eapply H; eauto. apply Hi.
Qed.

Lemma sweeps_sim : forall n f, phis_first f -> forall S (W : world S) fuel args s r,
  array_pure W \/ no_arrays f -> call_fn W f fuel args s = ROk r -> call_fn W (sweeps n f) fuel args s = ROk r.
Proof.
  induction n as [|n IH]; intros f Hp S W fuel args s r HW H; cbn [sweeps]; auto.
  destruct (Nat.eqb _ _); auto. apply IH; auto using sweep_phis.
  - destruct HW; auto using sweep_arrays.
  - eapply rrel_ok; [apply sweep_sim; auto|exact H].
Qed.

Lemma Forall2_nth_r : forall A B (R : A -> B -> Prop) l r n b,
  Forall2 R l r -> nth_error r n = Some b -> exists a, nth_error l n = Some a /\ R a b.
Proof.
  intros A B R l r n b F. revert n. induction F; intros [|n] H1; cbn in *; try discriminate; eauto.
  injection H1 as <-; eauto.
Qed.
Lemma compact_blocks : forall f g b, compact f = Some g -> In b (f_blocks g) ->
  exists blk, In blk (f_blocks f) /\ b_instrs b = b_instrs blk.
Proof.
  intros f g b H Hb. unfold compact in H. destruct (Nat.eqb _ _); [injection H as <-; eauto|].
  destruct (omap _ (kept f)) as [bs|] eqn:Eo; [|discriminate].
  destruct (index_of _ _) as [en|]; [|discriminate]. injection H as <-. cbn [f_blocks] in Hb.
  pose proof (reapply_same_code (seq 0 (length bs)) bs bs (Forall2_refl _ _ (fun a => conj eq_refl eq_refl) bs)) as F.
  apply In_nth_error in Hb. destruct Hb as (n & Hn).
  assert (exists c, nth_error bs n = Some c /\ same_code c b) as (c & Hc & [E1 _]).
  { clear -F Hn. revert n Hn. induction F; intros [|n] H1; cbn in *; try discriminate; [injection H1 as <-; eauto|eauto]. }
  rewrite E1. apply omap_Forall2 in Eo.
  destruct (Forall2_nth_r _ _ _ _ _ _ _ Eo Hc) as (a & Ha & Ea). cbn beta in Ea.
  destruct (nth_error (f_blocks f) a) as [blk|] eqn:Eb; [|discriminate].
  unfold remap_block in Ea. destruct (remap_term _ _); [|discriminate]. injection Ea as <-. cbn.
  exists blk. split; auto. eapply nth_error_In; eauto.
Qed.
Lemma compact_phis : forall f g, compact f = Some g -> phis_first f -> phis_first g.
Proof.
  intros f g H Hp b Hb. destruct (compact_blocks f g b H Hb) as (blk & Hin & ->). auto.
Qed.
Lemma compact_arrays : forall f g, compact f = Some g -> no_arrays f -> no_arrays g.
Proof.
  intros f g H Hp b d es t c Hb. destruct (compact_blocks f g b H Hb) as (blk & Hin & ->). apply Hp; auto.
Qed.

Lemma dce_results : forall f g, dce f = Some g -> phis_first f -> phis_stable f ->
  forall S (W : world S) fuel args s r, array_pure W \/ no_arrays f ->
  call_fn W f fuel args s = ROk r -> call_fn W g fuel args s = ROk r.
Proof.
  intros f g H Hp Hs S W fuel args s r HW E. unfold dce in H.
  destruct (compact f) as [h|] eqn:Ec; [|discriminate]. injection H as <-.
  apply sweeps_sim.
  - eapply compact_phis; eauto.
  - destruct HW; auto. right. eapply compact_arrays; eauto.
  - rewrite (compact_same f Hs h Ec). exact E.
Qed.

(** ** The sweep reaches a state in which nothing is dead. *)
Lemma filter_length_le : forall A (p : A -> bool) l, length (filter p l) <= length l.
Proof. induction l as [|a l IH]; cbn; [lia|]. destruct (p a); cbn; lia. Qed.
Lemma sweep_count : forall f, instr_count (sweep f) <= instr_count f.
Proof.
  intro f. unfold instr_count. cbn [sweep with_blocks f_blocks]. rewrite map_map. cbn [b_instrs].
  generalize (keep_instr (fun v : nat => 0 <? use_count f v)) as p. intro p.
  unfold list_sum. induction (f_blocks f) as [|b l IH]; cbn [map fold_right]; [lia|].
  pose proof (filter_length_le _ p (b_instrs b)). lia.
Qed.
Lemma sweeps_fixed : forall n f, instr_count f <= n ->
  instr_count (sweep (sweeps n f)) = instr_count (sweeps n f).
Proof.
  induction n as [|n IH]; intros f H; cbn [sweeps].
  - pose proof (sweep_count f). lia.
  - destruct (Nat.eqb_spec (instr_count (sweep f)) (instr_count f)); auto.
    apply IH. pose proof (sweep_count f). lia.
Qed.
Lemma filter_all : forall A (p : A -> bool) l, length (filter p l) = length l -> forall a, In a l -> p a = true.
Proof.
  induction l as [|x l IH]; cbn; intros H a Ha; [tauto|].
  pose proof (filter_length_le _ p l). destruct (p x) eqn:E; cbn in H; [|lia].
  destruct Ha as [<-|Ha]; auto.
Qed.
Lemma remove_dead_complete : forall f b i,
  In b (f_blocks (remove_dead f)) -> In i (b_instrs b) ->
  keep_instr (fun v => Nat.ltb 0 (use_count (remove_dead f) v)) i = true.
Proof.
  intros f b i Hb Hi. unfold remove_dead in *. pose proof (sweeps_fixed (instr_count f) f (le_n _)) as F.
  revert F Hb. generalize (sweeps (instr_count f) f) as g. intros g F Hb.
  unfold instr_count in F. cbn [sweep with_blocks f_blocks] in F. rewrite map_map in F. cbn [b_instrs] in F.
  revert F Hb. generalize (keep_instr (fun v : nat => 0 <? use_count g v)) as p. intros p F Hb.
  assert (K : forall l, In b l -> list_sum (map (fun x => length (filter p (b_instrs x))) l)
              = list_sum (map (fun b => length (b_instrs b)) l) -> p i = true).
  { unfold list_sum. induction l as [|c l IH]; cbn [map fold_right]; intros Hc E; [destruct Hc|].
    pose proof (filter_length_le _ p (b_instrs c)).
    assert (L : fold_right Nat.add 0 (map (fun x => length (filter p (b_instrs x))) l)
                <= fold_right Nat.add 0 (map (fun b => length (b_instrs b)) l)).
    { clear. induction l as [|c l IH]; cbn [map fold_right]; [lia|]. pose proof (filter_length_le _ p (b_instrs c)). lia. }
    destruct Hc as [->|Hc]; [|apply IH; auto; lia].
    eapply filter_all; [|exact Hi]. lia. }
  eapply K; eauto.
Qed.
