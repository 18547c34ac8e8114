(** Renaming operands and dropping unused definitions preserves single assignment. *)
From Coq Require Import ZArith Bool String List Lia.
From Verif Require Import M31 Isa Mir MirSem MirFacts MirSim MirSsa MirSsaFacts.
Import ListNotations.
Open Scope nat_scope.

Inductive sublist {A} : list A -> list A -> Prop :=
| sub_nil : sublist [] []
| sub_keep a l m : sublist l m -> sublist (a :: l) (a :: m)
| sub_drop a l m : sublist l m -> sublist l (a :: m).
Lemma sublist_refl : forall A (l : list A), sublist l l.
Proof. induction l; constructor; auto. Qed.
Lemma sublist_in : forall A (l m : list A) x, sublist l m -> In x l -> In x m.
Proof. induction 1; intros Hx; auto; [destruct Hx; [left|right]; auto|right; auto]. Qed.
Lemma sublist_nodup : forall A (l m : list A), sublist l m -> NoDup m -> NoDup l.
Proof.
  induction 1; intro N; auto; inversion N; subst; auto.
  constructor; auto. intro K. apply H2. eapply sublist_in; eauto.
Qed.
Lemma sublist_app : forall A (l m l' m' : list A), sublist l m -> sublist l' m' -> sublist (l ++ l') (m ++ m').
Proof. induction 1; intro K; cbn; auto; constructor; auto. Qed.
Lemma sublist_drop_l : forall A (p l m : list A), sublist l m -> sublist l (p ++ m).
Proof. induction p; intros; cbn; auto. constructor; auto. Qed.

Lemma filter_firstn_nth : forall A (p : A -> bool) l k i, nth_error (filter p l) k = Some i ->
  exists j, nth_error l j = Some i /\ p i = true /\ k = length (filter p (firstn j l)).
Proof.
  induction l as [|a l IH]; intros k i H; cbn in H; [destruct k; discriminate|].
  destruct (p a) eqn:E.
  - destruct k as [|k]; cbn in H.
    + injection H as <-. exists 0. auto.
    + destruct (IH k i H) as (j & A1 & A2 & A3). exists (S j). cbn. rewrite E. cbn. auto.
  - destruct (IH k i H) as (j & A1 & A2 & A3). exists (S j). cbn. rewrite E. auto.
Qed.
Lemma nth_filter_firstn : forall A (p : A -> bool) l j k i, nth_error l j = Some i -> p i = true -> j < k ->
  exists j', j' < length (filter p (firstn k l)) /\ nth_error (filter p l) j' = Some i.
Proof.
  intros A p l j k i H E L.
  assert (Hin : In i (filter p (firstn k l))).
  { apply filter_In. split; auto. apply (nth_error_In _ j). rewrite <- H.
    rewrite <- (firstn_skipn k l) at 2. rewrite nth_error_app1; auto.
    assert (j < length l) by (apply nth_error_Some; congruence). rewrite firstn_length. lia. }
  apply In_nth_error in Hin. destruct Hin as (j' & Hj'). exists j'.
  assert (L' : j' < length (filter p (firstn k l))) by (apply nth_error_Some; congruence).
  split; auto. rewrite <- (firstn_skipn k l) at 1. rewrite filter_app, nth_error_app1; auto.
Qed.

Lemma dests_imap : forall fv fb i, dests (imap fv fb i) = dests i.
Proof. destruct i; reflexivity. Qed.
Lemma is_phi_imap : forall fv fb i, is_phi (imap fv fb i) = is_phi i.
Proof. destruct i; reflexivity. Qed.
Lemma uses_imap : forall fv fb i w, In w (uses (imap fv fb i)) ->
  (exists x, In x (ivals i) /\ In w (val_ids (fv x))) \/ (exists b, In b (ibases i) /\ w = fb b).
Proof.
  assert (PL : forall fv ps, flat_map (fun x => match x with PIdx v => [v] | _ => [] end) (map (pmap fv) ps)
     = map fv (flat_map (fun x => match x with PIdx v => [v] | _ => [] end) ps)).
  { induction ps as [|[] ps IH]; cbn; auto. rewrite IH; reflexivity. }
  assert (IV : forall fv fb i, ivals (imap fv fb i) = map fv (ivals i)).
  { intros fv fb i. destruct i; cbn; rewrite ?PL, ?map_map; auto. }
  intros fv fb i w H. apply uses_ivals in H. destruct H as [(x & Hx & Hw)|H].
  - rewrite IV in Hx. apply in_map_iff in Hx. destruct Hx as (y & <- & Hy). eauto.
  - right. destruct i; cbn in H; try contradiction; destruct H as [<-|[]];
      (eexists; split; [cbn; left; reflexivity|reflexivity]).
Qed.
Lemma targets_tmap : forall fv t, targets (tmap fv t) = targets t.
Proof. destruct t; reflexivity. Qed.
Lemma term_uses_tmap : forall fv t w, In w (term_uses (tmap fv t)) ->
  exists x, In x (tvals t) /\ In w (val_ids (fv x)).
Proof.
  intros fv t w H. destruct t; cbn in *; try contradiction.
  - exists cond; auto.
  - apply in_app_or in H. destruct H; [exists left|exists right]; auto.
  - unfold vals_ids in H. apply in_flat_map in H. destruct H as (y & Hy & Hw).
    apply in_map_iff in Hy. destruct Hy as (x & <- & Hx). eauto.
Qed.
Lemma term_uses_tvals : forall t x v, In x (tvals t) -> In v (val_ids x) -> In v (term_uses t).
Proof.
  intros t x v Hx Hv. destruct t; cbn in *; try contradiction.
  - destruct Hx as [<-|[]]; auto.
  - apply in_or_app. destruct Hx as [<-|[<-|[]]]; auto.
  - apply in_flat_map. eauto.
Qed.

Section SsaMap.
  Variables (f g : func) (fv : value -> value) (fb : nat -> nat) (keep : nat -> minstr -> bool).
  Hypothesis Hssa : ssa f.
  Hypothesis Hentry : f_entry g = f_entry f.
  Hypothesis Hparams : f_params g = f_params f.
  Hypothesis Hlen : length (f_blocks g) = length (f_blocks f).
  Hypothesis Hblk : forall b blk, nth_error (f_blocks f) b = Some blk ->
    exists blk', nth_error (f_blocks g) b = Some blk' /\
      b_instrs blk' = filter (keep b) (map (imap fv fb) (b_instrs blk)) /\
      b_term blk' = tmap fv (b_term blk).
  (** [w] can stand for [v]. *)
  Definition stands (v w : nat) : Prop :=
    w = v \/ (~ In v (f_params f) /\ forall B K, def_at f B K v -> dom f w B K).
  Hypothesis Hfv : forall x w, In w (val_ids (fv x)) -> exists v, In v (val_ids x) /\ stands v w.
  Hypothesis Hfb : forall v, stands v (fb v).
  (** [v] is used by the reachable block [blk'] at position [b'] of the result. *)
  Definition used_by (v b' : nat) (blk' : block) : Prop :=
    (exists j, In j (b_instrs blk') /\ is_phi j = false /\ In v (uses j)) \/
    (exists d t ss p pblk', In (IPhi d t ss) (b_instrs blk') /\ nth_error (f_blocks g) p = Some pblk' /\
       In b' (targets (b_term pblk')) /\ (exists l, walk f (p :: l)) /\ src_from p ss = Some (Op v)) \/
    In v (term_uses (b_term blk')).
  Hypothesis Hkeep : forall b blk i, nth_error (f_blocks f) b = Some blk ->
    In i (map (imap fv fb) (b_instrs blk)) -> keep b i = false -> forall d, In d (dests i) ->
    forall b' blk', nth_error (f_blocks g) b' = Some blk' -> (exists l, walk f (b' :: l)) -> ~ used_by d b' blk'.

  Let sd : single_def f := proj1 Hssa.

  Lemma blk_back : forall b blk', nth_error (f_blocks g) b = Some blk' ->
    exists blk, nth_error (f_blocks f) b = Some blk /\
      b_instrs blk' = filter (keep b) (map (imap fv fb) (b_instrs blk)) /\
      b_term blk' = tmap fv (b_term blk).
  Proof.
    intros b blk' H. destruct (nth_error (f_blocks f) b) as [blk|] eqn:E.
    - destruct (Hblk b blk E) as (blk2 & A & B & C). assert (blk2 = blk') by congruence. subst. eauto.
    - apply nth_error_None in E. rewrite <- Hlen in E. apply nth_error_None in E. congruence.
  Qed.
  Lemma walk_back : forall l, walk g l -> walk f l.
  Proof.
    induction 1 as [|b b' l blk' HW IH Hb Ht].
    - rewrite Hentry. constructor.
    - destruct (blk_back b blk' Hb) as (blk & E & _ & Et). rewrite Et, targets_tmap in Ht.
      eapply w_step; eauto.
  Qed.
  Definition used_in_g (v : nat) : Prop := exists b blk',
    nth_error (f_blocks g) b = Some blk' /\ (exists l, walk f (b :: l)) /\
    used_by v b blk'.
  Lemma def_kept : forall b j blk d, nth_error (f_blocks f) b = Some blk -> def_at f b j d -> used_in_g d ->
    exists i, nth_error (map (imap fv fb) (b_instrs blk)) j = Some i /\ keep b i = true /\ In d (dests i).
  Proof.
    intros b j blk d Hb (blk0 & i & H1 & H2 & H3) (b' & blk' & Hb' & HW & HU).
    assert (blk0 = blk) by congruence. subst.
    exists (imap fv fb i). rewrite nth_error_map, H2. cbn. rewrite dests_imap. repeat split; auto.
    destruct (keep b (imap fv fb i)) eqn:E; auto. exfalso.
    apply (Hkeep b blk (imap fv fb i) Hb) with (d := d) (b' := b') (blk' := blk'); auto.
    - apply in_map. eapply nth_error_In; eauto.
    - rewrite dests_imap; auto.
  Qed.
  Lemma def_fwd : forall b j d, def_at f b j d -> used_in_g d -> exists j', def_at g b j' d.
  Proof.
    intros b j d H HU. pose proof H as (blk & _ & Hb & _).
    destruct (def_kept b j blk d Hb H HU) as (i & Hi & Kp & Hd).
    destruct (Hblk b blk Hb) as (blk' & Hb' & Ei & _).
    destruct (nth_filter_firstn _ (keep b) _ j (S j) i Hi Kp) as (j' & _ & Hj'); [lia|].
    exists j', blk', i. rewrite Ei. auto.
  Qed.
  Lemma dom_fwd : forall v b blk k, nth_error (f_blocks f) b = Some blk -> used_in_g v -> dom f v b k ->
    dom g v b (length (filter (keep b) (map (imap fv fb) (firstn k (b_instrs blk))))).
  Proof.
    intros v b blk k Hb HU HD l HW. apply walk_back in HW.
    destruct (HD l HW) as [A|[(j & Lj & A)|(c & j & Hc & A)]].
    - left. congruence.
    - right; left. destruct (def_kept b j blk v Hb A HU) as (i & Hi & Kp & Hd).
      destruct (Hblk b blk Hb) as (blk' & Hb' & Ei & _).
      destruct (nth_filter_firstn _ (keep b) _ j k i Hi Kp Lj) as (j' & Lj' & Hj').
      rewrite firstn_map in Lj'. exists j'. split; auto. exists blk', i. rewrite Ei. auto.
    - right; right. destruct (def_fwd c j v A HU) as (j' & D). eauto.
  Qed.
  Lemma dom_stands : forall v w b k, stands v w -> dom f v b k -> dom f w b k.
  Proof.
    intros v w b k [->|[Np H]] HD; auto. intros l HW.
    destruct (HD l HW) as [A|[(j & Lj & A)|(c & j & Hc & A)]]; [contradiction| |].
    - assert (D : dom f w b k) by (eapply dom_trans; eauto). exact (D l HW).
    - assert (D : dom f w b k) by (eapply dom_trans; eauto). exact (D l HW).
  Qed.
  Lemma dests_sub : sublist (all_dests g) (all_dests f).
  Proof.
    unfold all_dests.
    assert (G : forall l l' n, length l' = length l -> (forall k a, nth_error l k = Some a -> exists a', nth_error l' k = Some a' /\
        b_instrs a' = filter (keep (n + k)) (map (imap fv fb) (b_instrs a))) ->
      sublist (flat_map (fun b => flat_map dests (b_instrs b)) l') (flat_map (fun b => flat_map dests (b_instrs b)) l)).
    { induction l as [|a l IH]; intros [|a' l'] n HL H; try discriminate; [constructor|]. cbn [flat_map].
      apply sublist_app.
      - destruct (H 0 a eq_refl) as (a2 & E & Ei). cbn in E. injection E as <-. rewrite Ei.
        generalize (keep (n + 0)) as p. intro p. clear.
        induction (b_instrs a) as [|i is IH]; cbn; [constructor|]. destruct (p (imap fv fb i)).
        + cbn. rewrite dests_imap. apply sublist_app; auto. apply sublist_refl.
        + apply sublist_drop_l. auto.
      - apply (IH l' (S n)); [cbn in HL; lia|]. intros k x Hx. destruct (H (S k) x Hx) as (x' & E & Ei).
        exists x'. split; auto. rewrite <- plus_n_Sm in Ei. exact Ei. }
    apply (G _ _ 0); auto. intros k a Ha. destruct (Hblk k a Ha) as (a' & A & B & _). eauto.
  Qed.
  Lemma filter_len_all : forall (p : minstr -> bool) blk,
    filter p (map (imap fv fb) (firstn (length (b_instrs blk)) (b_instrs blk))) = filter p (map (imap fv fb) (b_instrs blk)).
  Proof. intros. rewrite firstn_all. reflexivity. Qed.

  Theorem ssa_map : ssa g.
  Proof.
    split.
    - unfold single_def. rewrite Hparams. eapply sublist_nodup; [|exact sd].
      apply sublist_app; [apply sublist_refl|apply dests_sub].
    - intros b blk' Hb'. destruct (blk_back b blk' Hb') as (blk & Hb & Ei & Et).
      destruct (proj2 Hssa b blk Hb) as (U1 & U2 & U3). split; [|split].
      + intros k i w Hk Np Hw l HW.
        assert (HU : used_in_g w).
        { exists b, blk'. split; auto. split; [exists l; apply walk_back; auto|]. left. exists i.
          split; [eapply nth_error_In; eauto|auto]. }
        rewrite Ei in Hk. destruct (filter_firstn_nth _ _ _ _ _ Hk) as (j & Hj & Kp & ->).
        rewrite nth_error_map in Hj. destruct (nth_error (b_instrs blk) j) as [i0|] eqn:E0; [|discriminate].
        cbn in Hj. injection Hj as <-. rewrite firstn_map. revert l HW. apply dom_fwd; auto.
        rewrite is_phi_imap in Np.
        apply uses_imap in Hw. destruct Hw as [(x & Hx & Hw)|(c & Hc & ->)].
        * destruct (Hfv x w Hw) as (v & Hv & St). eapply dom_stands; eauto. eapply U1; eauto.
          apply uses_ivals. left; eauto.
        * eapply dom_stands; [apply Hfb|]. eapply U1; eauto. apply uses_ivals; auto.
      + intros k d t ss p pblk' w Hk Hp Ht Hs l HW.
        assert (HU : used_in_g w).
        { exists b, blk'. split; auto. split; [exists (p :: l); apply walk_back; eapply w_step; eauto|].
          right; left. exists d, t, ss, p, pblk'. split; [eapply nth_error_In; eauto|]. split; auto.
          split; auto. split; auto. exists l; apply walk_back; auto. }
        destruct (blk_back p pblk' Hp) as (pblk & Hpb & Epi & Ept). rewrite Ept, targets_tmap in Ht.
        rewrite Ei in Hk. destruct (filter_firstn_nth _ _ _ _ _ Hk) as (j & Hj & Kp & _).
        rewrite nth_error_map in Hj. destruct (nth_error (b_instrs blk) j) as [i0|] eqn:E0; [|discriminate].
        cbn in Hj. injection Hj as Hj. destruct i0; try discriminate. cbn in Hj. injection Hj as -> -> <-.
        assert (SM : forall ss, src_from p (map (fun s : nat * value => (fst s, fv (snd s))) ss) = option_map fv (src_from p ss)).
        { clear. induction ss as [|[q v] ss IH]; cbn; auto. destruct (Nat.eqb p q); auto. }
        rewrite SM in Hs. destruct (src_from p sources) as [x|] eqn:Ex; [|discriminate]. cbn in Hs. injection Hs as Hs.
        destruct (Hfv x w) as (v & Hv & St); [rewrite Hs; cbn; auto|].
        destruct x as [|v0|]; cbn in Hv; try contradiction. destruct Hv as [<-|[]].
        rewrite Epi. rewrite <- (filter_len_all (keep p) pblk). revert l HW. apply dom_fwd; auto.
        eapply dom_stands; eauto.
      + intros w Hw l HW.
        assert (HU : used_in_g w).
        { exists b, blk'. split; auto. split; [exists l; apply walk_back; auto|]. right; right; auto. }
        rewrite Et in Hw. apply term_uses_tmap in Hw. destruct Hw as (x & Hx & Hw).
        destruct (Hfv x w Hw) as (v & Hv & St).
        rewrite Ei. rewrite <- (filter_len_all (keep b) blk). revert l HW. apply dom_fwd; auto.
        eapply dom_stands; eauto. apply U3. eapply term_uses_tvals; eauto.
  Qed.
  Theorem phis_map : phis_first f -> phis_first g.
  Proof.
    intros H blk' Hin. apply In_nth_error in Hin. destruct Hin as (b & Hb').
    destruct (blk_back b blk' Hb') as (blk & Hb & Ei & _). specialize (H blk (nth_error_In _ _ Hb)).
    rewrite Ei. clear -H. induction (b_instrs blk) as [|i is IH]; [reflexivity|].
    destruct (is_phi i) eqn:Ep.
    - destruct i; try discriminate. cbn [span_phi snd] in H. cbn [map filter imap].
      destruct (keep b _); auto.
    - assert (E : span_phi (i :: is) = ([], i :: is)) by (destruct i; try discriminate; reflexivity).
      rewrite E in H. cbn [snd] in H. clear -H.
      assert (G : forallb (fun i => negb (is_phi i)) (filter (keep b) (map (imap fv fb) (i :: is))) = true).
      { apply forallb_forall. intros x Hx. apply filter_In in Hx. destruct Hx as [Hx _].
        apply in_map_iff in Hx. destruct Hx as (y & <- & Hy). rewrite is_phi_imap.
        rewrite forallb_forall in H. auto. }
      rewrite (span_nophi _ G). exact G.
  Qed.
  Theorem rets_map : f_rets g = f_rets f -> (forall r, In r (f_rets f) -> ~ In r (all_dests f)) ->
    forall r, In r (f_rets g) -> ~ In r (all_dests g).
  Proof. intros E H r Hr K. rewrite E in Hr. apply (H r Hr). eapply sublist_in; [apply dests_sub|auto]. Qed.
End SsaMap.
