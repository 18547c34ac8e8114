(** Consequences of static single assignment. *)
From Coq Require Import ZArith Bool String List Lia.
From Verif Require Import M31 Isa Mir MirSem MirFacts MirSim MirSsa.
Import ListNotations.
Open Scope nat_scope.

Lemma NoDup_app_l : forall A (l r : list A), NoDup (l ++ r) -> NoDup l.
Proof.
  induction l as [|a l IH]; intros r H; [constructor|]. inversion H; subst. constructor; eauto.
  intro K. apply H2. apply in_or_app; auto.
Qed.
Lemma NoDup_app_r : forall A (l r : list A), NoDup (l ++ r) -> NoDup r.
Proof. induction l as [|a l IH]; intros r H; auto. inversion H; eauto. Qed.
Lemma NoDup_app_disj : forall A (l r : list A) x, NoDup (l ++ r) -> In x l -> In x r -> False.
Proof.
  induction l as [|a l IH]; intros r x H Hl Hr; [destruct Hl|]. inversion H; subst.
  destruct Hl as [->|Hl]; [|eauto]. apply H2. apply in_or_app; auto.
Qed.
Lemma NoDup_flat_map_in : forall A B (g : A -> list B) l a, NoDup (flat_map g l) -> In a l -> NoDup (g a).
Proof.
  induction l as [|c l IH]; intros a H Ha; [destruct Ha|]. cbn in H. destruct Ha as [->|Ha].
  - eapply NoDup_app_l; eauto.
  - apply IH; auto. eapply NoDup_app_r; eauto.
Qed.
Lemma NoDup_flat_map_uniq : forall A B (g : A -> list B) l i j a b x, NoDup (flat_map g l) ->
  nth_error l i = Some a -> nth_error l j = Some b -> In x (g a) -> In x (g b) -> i = j.
Proof.
  induction l as [|c l IH]; intros i j a b x H Hi Hj Ha Hb; [destruct i; discriminate|].
  cbn in H.
  destruct i as [|i], j as [|j]; cbn in Hi, Hj; auto.
  - injection Hi as ->. destruct (NoDup_app_disj _ _ _ x H Ha). apply in_flat_map.
    exists b. split; auto. eapply nth_error_In; eauto.
  - injection Hj as ->. destruct (NoDup_app_disj _ _ _ x H Hb). apply in_flat_map.
    exists a. split; auto. eapply nth_error_In; eauto.
  - f_equal. eapply IH; eauto. eapply NoDup_app_r; eauto.
Qed.

Lemma def_at_uniq : forall f b k b' k' d, single_def f -> def_at f b k d -> def_at f b' k' d -> b = b' /\ k = k'.
Proof.
  intros f b k b' k' d H (blk & i & B1 & I1 & D1) (blk' & i' & B2 & I2 & D2).
  apply NoDup_app_r in H. unfold all_dests in H.
  assert (E : b = b').
  { eapply NoDup_flat_map_uniq with (x := d); [exact H|exact B1|exact B2| |];
      apply in_flat_map; [exists i|exists i']; split; auto; eapply nth_error_In; eauto. }
  subst b'. split; auto. assert (blk' = blk) by congruence. subst blk'.
  pose proof (NoDup_flat_map_in _ _ _ _ blk H (nth_error_In _ _ B1)) as K.
  apply (NoDup_flat_map_uniq _ _ dests (b_instrs blk) k k' i i' d); auto.
Qed.
Lemma def_not_param : forall f b k d, single_def f -> def_at f b k d -> ~ In d (f_params f).
Proof.
  intros f b k d H (blk & i & B1 & I1 & D1) K. eapply (NoDup_app_disj _ _ _ d H K).
  apply in_flat_map. exists blk. split; [eapply nth_error_In; eauto|].
  apply in_flat_map. exists i. split; auto. eapply nth_error_In; eauto.
Qed.
Lemma def_at_instr : forall f b k d blk i, def_at f b k d -> nth_error (f_blocks f) b = Some blk ->
  nth_error (b_instrs blk) k = Some i -> In d (dests i).
Proof. intros f b k d blk i (blk' & i' & A & B & C) H1 H2. congruence. Qed.
Lemma def_at_lt : forall f b k d blk, def_at f b k d -> nth_error (f_blocks f) b = Some blk ->
  k < length (b_instrs blk).
Proof.
  intros f b k d blk (blk' & i' & A & B & C) H1. assert (blk' = blk) by congruence. subst.
  apply nth_error_Some. congruence.
Qed.

Lemma walk_suffix : forall f l b c, walk f (b :: l) -> In c l -> exists l', walk f (c :: l') /\ length l' < length l.
Proof.
  induction l as [|a l IH]; intros b c H Hc; [destruct Hc|].
  inversion H as [|? ? ? ? HW ? ?]; subst. destruct Hc as [->|Hc].
  - exists l. split; auto.
  - destruct (IH a c HW Hc) as (l' & W & L). exists l'. cbn. split; auto; lia.
Qed.

(** A value is not defined on every way to its own definition. *)
Lemma not_dom_self : forall f b k d, single_def f -> def_at f b k d ->
  (exists l, walk f (b :: l)) -> ~ dom f d b k.
Proof.
  intros f b k d H D (l & W) K. remember (length l) as n eqn:En. revert l W En.
  induction n as [n IH] using lt_wf_ind. intros l W ->.
  destruct (K l W) as [A|[(j & Lj & A)|(c & j & Hc & A)]].
  - exact (def_not_param _ _ _ _ H D A).
  - destruct (def_at_uniq _ _ _ _ _ _ H D A). lia.
  - destruct (def_at_uniq _ _ _ _ _ _ H D A) as [<- _].
    destruct (walk_suffix _ _ _ _ W Hc) as (l' & W' & L). eapply IH; eauto.
Qed.

(** If [s] is defined on every way to the definition of [d], then [d] is not defined on
    every way to the definition of [s]. *)
Lemma not_dom_mutual : forall f b k s B K d, single_def f ->
  def_at f b k s -> def_at f B K d -> dom f s B K -> (exists l, walk f (b :: l)) -> ~ dom f d b k.
Proof.
  intros f b k s B K d H Ds Dd Dom (l & W) Hd. remember (length l) as n eqn:En. revert l W En.
  induction n as [n IH] using lt_wf_ind. intros l W ->.
  destruct (Hd l W) as [A|[(j & Lj & A)|(c & j & Hc & A)]].
  - exact (def_not_param _ _ _ _ H Dd A).
  - destruct (def_at_uniq _ _ _ _ _ _ H Dd A) as [<- <-].
    destruct (Dom l W) as [A'|[(j' & Lj' & A')|(c & j' & Hc & A')]].
    + exact (def_not_param _ _ _ _ H Ds A').
    + destruct (def_at_uniq _ _ _ _ _ _ H Ds A'). lia.
    + destruct (def_at_uniq _ _ _ _ _ _ H Ds A') as [<- _].
      destruct (walk_suffix _ _ _ _ W Hc) as (l' & W' & L). eapply IH; eauto.
  - destruct (def_at_uniq _ _ _ _ _ _ H Dd A) as [<- <-].
    destruct (walk_suffix _ _ _ _ W Hc) as (l' & W' & L).
    destruct (Dom l' W') as [A'|[(j' & Lj' & A')|(c & j' & Hc' & A')]].
    + exact (def_not_param _ _ _ _ H Ds A').
    + destruct (def_at_uniq _ _ _ _ _ _ H Ds A') as [<- _]. eapply IH; eauto.
    + destruct (def_at_uniq _ _ _ _ _ _ H Ds A') as [<- _].
      destruct (walk_suffix _ _ _ _ W' Hc') as (l'' & W'' & L'). eapply (IH (length l'')); eauto. lia.
Qed.

Lemma dom_mono : forall f d b k k', k <= k' -> dom f d b k -> dom f d b k'.
Proof.
  intros f d b k k' L H l W. destruct (H l W) as [A|[(j & Lj & A)|A]]; [left; auto| |right; right; auto].
  right; left. exists j; split; auto; lia.
Qed.
Lemma dom_back : forall f d b k, dom f d b (S k) -> ~ def_at f b k d -> dom f d b k.
Proof.
  intros f d b k H N l W. destruct (H l W) as [A|[(j & Lj & A)|A]]; [left; auto| |right; right; auto].
  right; left. exists j; split; auto. destruct (Nat.eq_dec j k); [subst; contradiction|lia].
Qed.
Lemma dom_back_n : forall f d b n, dom f d b n -> (forall k, k < n -> ~ def_at f b k d) -> dom f d b 0.
Proof.
  induction n as [|n IH]; intros H N; auto. apply IH; [|intros k Hk; apply N; lia].
  apply dom_back; auto.
Qed.
Lemma dom_edge : forall f d b b' blk, nth_error (f_blocks f) b = Some blk -> In b' (targets (b_term blk)) ->
  dom f d b' 0 -> dom f d b (length (b_instrs blk)).
Proof.
  intros f d b b' blk Hb Ht H l W. destruct (H (b :: l)) as [A|[(j & Lj & A)|(c & j & Hc & A)]].
  - eapply w_step; eauto.
  - left; auto.
  - lia.
  - destruct Hc as [<-|Hc].
    + right; left. exists j. split; auto. eapply def_at_lt; eauto.
    + right; right. eauto.
Qed.
(** Dominance is transitive through definitions. *)
Lemma dom_trans : forall f s d B K b k, def_at f B K d -> single_def f -> dom f s B K -> dom f d b k -> dom f s b k.
Proof.
  intros f s d B K b k D H Hs Hd l W.
  destruct (Hd l W) as [A|[(j & Lj & A)|(c & j & Hc & A)]].
  - destruct (def_not_param _ _ _ _ H D A).
  - destruct (def_at_uniq _ _ _ _ _ _ H D A) as [<- <-].
    apply (dom_mono f s B K k); auto. lia.
  - destruct (def_at_uniq _ _ _ _ _ _ H D A) as [<- <-].
    clear -W Hc Hs. revert b W. induction l as [|a l IH]; intros b W; [destruct Hc|].
    inversion W as [|? ? ? ? HW ? ?]; subst. destruct Hc as [->|Hc].
    + destruct (Hs l HW) as [A|[(j & Lj & A)|(c & j & Hc & A)]]; [left; auto| |].
      * right; right. exists B, j. split; auto; left; auto.
      * right; right. exists c, j. split; auto; right; auto.
    + destruct (IH Hc a HW) as [A|[(j' & Lj & A)|(c & j' & Hc' & A)]]; [left; auto| |].
      * right; right. exists a, j'. split; auto; left; auto.
      * right; right. exists c, j'. split; auto; right; auto.
Qed.
Lemma dom_def : forall f d b k, dom f d b k -> (exists l, walk f (b :: l)) ->
  In d (f_params f) \/ exists B K, def_at f B K d /\ exists l, walk f (B :: l).
Proof.
  intros f d b k H (l & W). destruct (H l W) as [A|[(j & Lj & A)|(c & j & Hc & A)]]; auto.
  - right. exists b, j. eauto.
  - right. exists c, j. split; auto. destruct (walk_suffix _ _ _ _ W Hc) as (l' & W' & _); eauto.
Qed.

(** ** Pairs of values that are equal wherever the first is defined. *)
Section Pairs.
  Variables (f : func) (pairs : nat -> nat -> Prop).
  Hypothesis Hsd : single_def f.
  (** The first is defined by an ordinary instruction, at which the second is defined. *)
  Hypothesis Hpairs : forall d s, pairs d s -> exists B blk K i,
    nth_error (f_blocks f) B = Some blk /\ nth_error (b_instrs blk) K = Some i /\
    is_phi i = false /\ dests i = [d] /\ dom f s B K.

  Definition pinv (b pos : nat) (e : env) : Prop :=
    (exists l, walk f (b :: l)) /\ forall d s, pairs d s -> dom f d b pos -> e d = e s.

  Lemma pinv_step : forall b blk pos i e e1 vs,
    nth_error (f_blocks f) b = Some blk -> nth_error (b_instrs blk) pos = Some i ->
    pinv b pos e -> bind_all e (dests i) vs = Some e1 ->
    (forall d s, pairs d s -> dests i = [d] -> dom f s b pos -> s <> d -> e1 d = e1 s) ->
    pinv b (S pos) e1.
  Proof.
    intros b blk pos i e e1 vs Hb Hi [HW HI] HE Hnew. split; auto.
    intros d s Hp Hd. destruct (Hpairs d s Hp) as (B & blk0 & K & i0 & HB & HK & Np & Di & Ds).
    assert (DD : def_at f B K d) by (exists blk0, i0; rewrite Di; cbn; auto).
    destruct (in_dec Nat.eq_dec d (dests i)) as [Id|Nd].
    - assert (D2 : def_at f b pos d) by (exists blk, i; auto).
      destruct (def_at_uniq _ _ _ _ _ _ Hsd DD D2) as [-> ->].
      assert (blk0 = blk) by congruence. subst. assert (i0 = i) by congruence. subst.
      apply Hnew; auto. intros ->. eapply not_dom_self; eauto.
    - assert (D0 : dom f d b pos).
      { apply dom_back; auto. intros D2. apply Nd. eapply def_at_instr; eauto. }
      assert (Ns : ~ In s (dests i)).
      { intro Is. assert (D2 : def_at f b pos s) by (exists blk, i; auto).
        eapply (not_dom_mutual f b pos s B K d); eauto. }
      rewrite (bind_all_get _ _ _ _ HE d Nd), (bind_all_get _ _ _ _ HE s Ns). auto.
  Qed.

  Lemma phi_pos : forall blk k, k < nphis blk ->
    exists ph, nth_error (b_instrs blk) k = Some (IPhi (fst (fst ph)) (snd (fst ph)) (snd ph)) /\
      nth_error (fst (span_phi (b_instrs blk))) k = Some ph.
  Proof.
    intros blk k H. unfold nphis in H. destruct (nth_error (fst (span_phi (b_instrs blk))) k) as [ph|] eqn:E.
    - exists ph. split; auto. rewrite (span_phi_app (b_instrs blk)).
      rewrite nth_error_app1 by (rewrite map_length; auto). rewrite nth_error_map, E. reflexivity.
    - apply nth_error_None in E. lia.
  Qed.
  Lemma phi_dest_at : forall b blk d, nth_error (f_blocks f) b = Some blk ->
    In d (map (fun p => fst (fst p)) (fst (span_phi (b_instrs blk)))) ->
    exists k, k < nphis blk /\ def_at f b k d.
  Proof.
    intros b blk d Hb Hd. apply in_map_iff in Hd. destruct Hd as (ph & <- & Hp).
    apply In_nth_error in Hp. destruct Hp as (k & Hk). exists k.
    assert (L : k < nphis blk) by (unfold nphis; apply nth_error_Some; congruence).
    split; auto. destruct (phi_pos blk k L) as (ph' & A & B). assert (ph' = ph) by congruence. subst.
    exists blk. eexists. split; [exact Hb|]. split; [exact A|]. cbn. auto.
  Qed.

  Lemma pinv_edge : forall b blk b' blk' e e1,
    nth_error (f_blocks f) b = Some blk -> nth_error (f_blocks f) b' = Some blk' ->
    In b' (targets (b_term blk)) -> pinv b (length (b_instrs blk)) e ->
    enter e (Some b) (fst (span_phi (b_instrs blk'))) = Some e1 -> pinv b' (nphis blk') e1.
  Proof.
    intros b blk b' blk' e e1 Hb Hb' Ht [(l & HW) HI] HE.
    assert (W' : exists l, walk f (b' :: l)) by (exists (b :: l); eapply w_step; eauto).
    split; auto. intros d s Hp Hd.
    destruct (Hpairs d s Hp) as (B & blk0 & K & i0 & HB & HK & Np & Di & Ds).
    assert (DD : def_at f B K d) by (exists blk0, i0; rewrite Di; cbn; auto).
    assert (Nd : forall k, k < nphis blk' -> ~ def_at f b' k d).
    { intros k Hk D2. destruct (def_at_uniq _ _ _ _ _ _ Hsd DD D2) as [-> ->].
      destruct (phi_pos blk' k Hk) as (ph & A & _). assert (blk0 = blk') by congruence. subst.
      rewrite HK in A. injection A as ->. discriminate. }
    assert (D0 : dom f d b' 0) by (eapply dom_back_n; eauto).
    assert (De : dom f d b (length (b_instrs blk))) by (eapply dom_edge; eauto).
    unfold enter in HE. destruct (omap (phi_val e (Some b)) _) as [vs|]; [|discriminate].
    rewrite (bind_all_get _ _ _ _ HE d), (bind_all_get _ _ _ _ HE s); [auto| |].
    - intro Is. destruct (phi_dest_at _ _ _ Hb' Is) as (k & Lk & D2).
      eapply (not_dom_mutual f b' k s B K d); eauto. eapply dom_mono; [|exact D0]. lia.
    - intro Is. destruct (phi_dest_at _ _ _ Hb' Is) as (k & Lk & D2). eapply Nd; eauto.
  Qed.

  Lemma pinv_entry : forall blk args e,
    nth_error (f_blocks f) (f_entry f) = Some blk ->
    bind_all (fun _ => None) (f_params f) args = Some e -> pinv (f_entry f) 0 e.
  Proof.
    intros blk args e Hb HE. split; [exists []; constructor|].
    intros d s Hp Hd. destruct (Hpairs d s Hp) as (B & blk0 & K & i0 & HB & HK & Np & Di & Ds).
    assert (DD : def_at f B K d) by (exists blk0, i0; rewrite Di; cbn; auto).
    destruct (Hd [] (w_entry f)) as [A|[(j & Lj & A)|(c & j & [] & A)]]; [|lia].
    destruct (def_not_param _ _ _ _ Hsd DD A).
  Qed.
End Pairs.

(** ** Checking single assignment from lists of values available on block entry. *)
Definition inclb (a b : list nat) : bool := forallb (fun x => mem_nat x b) a.
Fixpoint nodupb (l : list nat) : bool :=
  match l with [] => true | a :: r => negb (mem_nat a r) && nodupb r end.
Definition blk_dests (blk : block) : list nat := flat_map dests (b_instrs blk).
Fixpoint uses_ok (acc : list nat) (is : list minstr) : bool :=
  match is with
  | [] => true
  | i :: r => (is_phi i || inclb (uses i) acc) && uses_ok (acc ++ dests i) r
  end.
Definition phi_srcs_ok (f : func) (av : nat -> list nat) (b : nat) (i : minstr) : bool :=
  match i with
  | IPhi _ _ ss =>
    forallb (fun pb => if mem_nat b (targets (b_term (snd pb)))
                       then match src_from (fst pb) ss with
                            | Some (Op v) => mem_nat v (av (fst pb) ++ blk_dests (snd pb))
                            | _ => true
                            end
                       else true) (combine (seq 0 (length (f_blocks f))) (f_blocks f))
  | _ => true
  end.
Definition ssa_cert (av : nat -> list nat) (f : func) : bool :=
  nodupb (f_params f ++ all_dests f) && inclb (av (f_entry f)) (f_params f) &&
  forallb (fun pb =>
    forallb (fun t => inclb (av t) (av (fst pb) ++ blk_dests (snd pb))) (targets (b_term (snd pb))) &&
    uses_ok (av (fst pb)) (b_instrs (snd pb)) &&
    inclb (term_uses (b_term (snd pb))) (av (fst pb) ++ blk_dests (snd pb)) &&
    forallb (phi_srcs_ok f av (fst pb)) (b_instrs (snd pb)))
   (combine (seq 0 (length (f_blocks f))) (f_blocks f)).

Lemma mem_nat_iff : forall x l, mem_nat x l = true <-> In x l.
Proof.
  intros x l. unfold mem_nat. rewrite existsb_exists. split.
  - intros (y & Hy & E). apply Nat.eqb_eq in E. subst; auto.
  - intro H. exists x. rewrite Nat.eqb_refl. auto.
Qed.
Lemma inclb_incl : forall a b, inclb a b = true -> incl a b.
Proof. intros a b H x Hx. unfold inclb in H. rewrite forallb_forall in H. apply mem_nat_iff. auto. Qed.
Lemma nodupb_NoDup : forall l, nodupb l = true -> NoDup l.
Proof.
  induction l as [|a l IH]; cbn; intro H; [constructor|]. apply andb_true_iff in H. destruct H as [H1 H2].
  constructor; auto. intro K. apply mem_nat_iff in K. rewrite K in H1. discriminate.
Qed.
Lemma in_indexed : forall A (l : list A) k a n, nth_error l k = Some a -> In (n + k, a) (combine (seq n (length l)) l).
Proof.
  induction l as [|x l IH]; intros [|k] a n H; cbn in *; try discriminate.
  - injection H as ->. left. f_equal. lia.
  - right. rewrite <- plus_n_Sm. apply (IH k a (S n) H).
Qed.
Lemma uses_ok_at : forall is acc k i v, uses_ok acc is = true -> nth_error is k = Some i ->
  is_phi i = false -> In v (uses i) -> In v (acc ++ flat_map dests (firstn k is)).
Proof.
  induction is as [|j is IH]; intros acc k i v H Hk Np Hv; [destruct k; discriminate|].
  cbn in H. apply andb_true_iff in H. destruct H as [H1 H2].
  destruct k as [|k]; cbn in Hk |- *.
  - injection Hk as ->. rewrite Np in H1. cbn in H1. rewrite app_nil_r. eapply inclb_incl; eauto.
  - rewrite app_assoc. eapply IH; eauto.
Qed.
Lemma firstn_def : forall f b blk k v, nth_error (f_blocks f) b = Some blk ->
  In v (flat_map dests (firstn k (b_instrs blk))) -> exists j, j < k /\ def_at f b j v.
Proof.
  intros f b blk k v Hb H. apply in_flat_map in H. destruct H as (i & Hi & Hv).
  apply In_nth_error in Hi. destruct Hi as (j & Hj). exists j.
  assert (Lj : j < length (firstn k (b_instrs blk))) by (apply nth_error_Some; congruence).
  rewrite firstn_length in Lj. split; [lia|]. exists blk, i. split; auto. split; auto.
  rewrite <- Hj. rewrite <- (firstn_skipn k (b_instrs blk)) at 1.
  rewrite nth_error_app1; auto. rewrite firstn_length. lia.
Qed.
Lemma ssa_cert_sound : forall av f, ssa_cert av f = true -> ssa f.
Proof.
  intros av f H. unfold ssa_cert in H. apply andb_true_iff in H. destruct H as [H HB].
  apply andb_true_iff in H. destruct H as [HN HE]. apply nodupb_NoDup in HN. apply inclb_incl in HE.
  rewrite forallb_forall in HB.
  assert (HB' : forall b blk, nth_error (f_blocks f) b = Some blk ->
    (forall t, In t (targets (b_term blk)) -> incl (av t) (av b ++ blk_dests blk)) /\
    uses_ok (av b) (b_instrs blk) = true /\ incl (term_uses (b_term blk)) (av b ++ blk_dests blk) /\
    (forall i, In i (b_instrs blk) -> phi_srcs_ok f av b i = true)).
  { intros b blk Hb. specialize (HB _ (in_indexed _ _ _ _ 0 Hb)). cbn [fst snd plus] in HB.
    repeat (apply andb_true_iff in HB; destruct HB as [HB ?]).
    split; [|split; [|split]]; auto.
    - intros t Ht. rewrite forallb_forall in HB. apply inclb_incl. auto.
    - apply inclb_incl; auto.
    - apply forallb_forall; auto. }
  assert (HA : forall w b l, w = b :: l -> walk f w -> forall v, In v (av b) -> defined_before f l b 0 v).
  { intros w b l Ew HW. revert b l Ew. induction HW as [|b1 b' l1 blk HW IH Hb Ht]; intros b l Ew v Hv; injection Ew as <- <-.
    - left. auto.
    - destruct (HB' _ _ Hb) as (T & _). specialize (T _ Ht v Hv). apply in_app_or in T.
      destruct T as [T|T].
      + destruct (IH b1 l1 eq_refl v T) as [A|[(j & Lj & A)|(c & j & Hc & A)]]; [left; auto|lia|].
        right; right. exists c, j. split; auto. right; auto.
      + right; right. exists b1. apply in_flat_map in T. destruct T as (i & Hi & Hd).
        apply In_nth_error in Hi. destruct Hi as (j & Hj). exists j. split; [left; auto|].
        exists blk, i. auto. }
  assert (HD : forall b blk k v, nth_error (f_blocks f) b = Some blk ->
     In v (av b ++ flat_map dests (firstn k (b_instrs blk))) -> dom f v b k).
  { intros b blk k v Hb Hv l HW. apply in_app_or in Hv. destruct Hv as [Hv|Hv].
    - destruct (HA _ b l eq_refl HW v Hv) as [A|[(j & Lj & A)|A]]; [left; auto|lia|right; right; auto].
    - right; left. eapply firstn_def; eauto. }
  split; [exact HN|].
  intros b blk Hb. destruct (HB' b blk Hb) as (T1 & T2 & T3 & T4).
  split; [|split].
  - intros k i v Hk Np Hv. eapply HD; eauto. eapply uses_ok_at; eauto.
  - intros k d t ss p pblk v Hk Hp Ht Hs.
    specialize (T4 _ (nth_error_In _ _ Hk)). cbn in T4. rewrite forallb_forall in T4.
    specialize (T4 _ (in_indexed _ _ _ _ 0 Hp)). cbn [fst snd plus] in T4.
    rewrite (proj2 (mem_nat_iff _ _) Ht), Hs in T4. apply mem_nat_iff in T4.
    eapply HD; eauto. rewrite firstn_all. exact T4.
  - intros v Hv. eapply HD; eauto. rewrite firstn_all. apply T3; auto.
Qed.
