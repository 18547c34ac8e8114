(** The checks of [MirType] are right. *)
From Coq Require Import ZArith Bool String List Permutation Arith Lia.
From Verif Require Import M31 Isa Mir MirSem MirFacts MirSim MirSsa MirSsaFacts MirReach MirCopyFacts MirPhi MirPhiSeq MirPhiFacts SrcFacts MirType.
Import ListNotations.
Open Scope nat_scope.

(** ** Lists. *)
Lemma numbered_in : forall f b blk, nth_error (f_blocks f) b = Some blk -> In (b, blk) (numbered f).
Proof. intros f b blk H. exact (in_indexed _ _ _ _ 0 H). Qed.
Lemma tysb_eq : forall a b, tysb a b = true -> a = b.
Proof.
  induction a as [|x a IH]; intros [|y b] H; cbn in H; try discriminate; auto.
  apply andb_true_iff in H. destruct H as [H1 H2]. apply ty_eqb_eq in H1. rewrite H1, (IH _ H2). reflexivity.
Qed.
Lemma has_ty_eq : forall f d t, has_ty f d t = true -> f_types f d = Some t.
Proof. intros f d t H. unfold has_ty in H. destruct (f_types f d); [|discriminate]. apply ty_eqb_eq in H. now subst. Qed.

(** ** Copies. *)
Lemma in_order_ok_sound : forall cs done, in_order_ok done cs = true ->
  forall l1 c l2 s, cs = l1 ++ c :: l2 -> c_src c = Op s -> ~ In s done /\ ~ In s (map c_dest l1).
Proof.
  induction cs as [|a cs IH]; intros done H l1 c l2 s E Es; [destruct l1; discriminate|].
  cbn in H. apply andb_true_iff in H. destruct H as [H1 H2]. destruct l1 as [|x l1]; cbn in E; injection E as -> ->.
  - rewrite Es in H1. split; [|intros []]. intro K. apply mem_nat_iff in K. rewrite K in H1. discriminate.
  - destruct (IH _ H2 l1 c l2 s eq_refl Es) as [A B]. split; [intro K; apply A; now right|].
    intros [K|K]; [apply A; now left | exact (B K)].
Qed.
Lemma copies_ok_sound : forall cs, copies_ok cs = true -> sequencable cs.
Proof.
  intros cs H. unfold copies_ok in H. apply orb_true_iff in H. destruct H as [H|H].
  - left. unfold order_ok in H. rewrite forallb_forall in H. split.
    + exists (rank cs). intros c s Hc Es Hs. specialize (H c Hc). rewrite Es in H. apply andb_true_iff in H. destruct H as [H _].
      apply mem_nat_iff in Hs. rewrite Hs in H. cbn in H. now apply Nat.ltb_lt.
    + intros c c' Hc Hc' Es. specialize (H c Hc). rewrite Es in H. apply andb_true_iff in H. destruct H as [_ H].
      rewrite forallb_forall in H. specialize (H c' Hc'). rewrite Nat.eqb_refl in H. cbn in H.
      destruct (c_src c'); try discriminate. eauto.
  - right. apply andb_true_iff in H. destruct H as [H1 H2]. split.
    + intros l1 c l2 s E Es. now destruct (in_order_ok_sound cs [] H1 l1 c l2 s E Es).
    + apply existsb_exists in H2. destruct H2 as (c & Hc & E). exists c. split; [exact Hc|].
      destruct (c_src c); try discriminate. apply Nat.eqb_eq in E. now subst.
Qed.
Lemma phi_copies_in : forall f p c, In c (phi_copies f p) <-> exists b d t ss v, In b (f_blocks f) /\
  In (IPhi d t ss) (b_instrs b) /\ In (p, v) ss /\ c = (d, v, t).
Proof.
  intros f p c. unfold phi_copies. rewrite in_flat_map. split.
  - intros (b & Hb & H). apply in_flat_map in H. destruct H as (i & Hi & H). destruct i; try (destruct H; fail).
    apply in_map_iff in H. destruct H as ([q v] & <- & H). apply filter_In in H. destruct H as [H E]. cbn in E. apply Nat.eqb_eq in E. subst q.
    exists b. do 4 eexists. split; [exact Hb|]. split; [exact Hi|]. split; [exact H | reflexivity].
  - intros (b & d & t & ss & v & Hb & Hi & Hv & ->). exists b. split; [exact Hb|]. apply in_flat_map. exists (IPhi d t ss). split; [exact Hi|].
    apply in_map_iff. exists (p, v). split; [reflexivity|]. apply filter_In. cbn. rewrite Nat.eqb_refl. auto.
Qed.
Lemma phi_froms_in : forall f p, In p (phi_froms f) <-> phi_copies f p <> [].
Proof.
  intros f p. unfold phi_froms. rewrite in_flat_map. split.
  - intros (b & Hb & H) E. apply in_flat_map in H. destruct H as (i & Hi & H). destruct i; try (destruct H; fail).
    apply in_map_iff in H. destruct H as ([q v] & E1 & H). cbn in E1. subst q.
    assert (K : exists c, In c (phi_copies f p)).
    { eexists. apply phi_copies_in. exists b. do 4 eexists. split; [exact Hb|]. split; [exact Hi|]. split; [exact H | reflexivity]. }
    rewrite E in K. destruct K as (c & []).
  - intro H. destruct (phi_copies f p) as [|c r] eqn:E; [congruence|].
    assert (K : In c (phi_copies f p)) by (rewrite E; now left). apply phi_copies_in in K.
    destruct K as (b & d & t & ss & v & Hb & Hi & Hv & _). exists b. split; [exact Hb|]. apply in_flat_map.
    exists (IPhi d t ss). split; [exact Hi|]. apply in_map_iff. now exists (p, v).
Qed.
Lemma phi_order_sound : forall f, phi_order_ok f = true -> phi_order f.
Proof.
  intros f H p. unfold phi_order_ok in H. rewrite forallb_forall in H.
  destruct (phi_copies f p) as [|c r] eqn:E.
  - left. split; [exists (fun x => x); intros c s []|]. intros c c' [].
  - rewrite <- E. apply copies_ok_sound, H, phi_froms_in. congruence.
Qed.
Lemma phi_preds_sound : forall f, phi_preds_ok f = true -> phi_preds f.
Proof.
  intros f H b blk d t ss Hb Hi. unfold phi_preds_ok in H. rewrite forallb_forall in H. specialize (H _ (numbered_in _ _ _ Hb)).
  cbn [fst snd] in H. rewrite forallb_forall in H. specialize (H _ Hi). cbv beta iota in H. apply andb_true_iff in H. destruct H as [H1 H2].
  split; [now apply nodupb_NoDup|]. intros p v Hv. rewrite forallb_forall in H2. specialize (H2 _ Hv). cbn [fst] in H2.
  apply mem_nat_iff in H2. unfold targets_of in H2. destruct (nth_error (f_blocks f) p) as [pb|]; [|destruct H2]. eauto.
Qed.
Lemma phis_first_sound : forall f, phis_first_ok f = true -> phis_first f.
Proof. intros f H b Hb. unfold phis_first_ok in H. rewrite forallb_forall in H. exact (H b Hb). Qed.
Lemma ssa_ok_sound : forall f, ssa_ok f = true -> ssa f.
Proof. intros f H. exact (ssa_cert_sound _ _ H). Qed.

(** ** Paths. *)
Definition free_walk (f : func) (x p : nat) : Prop := exists l, walk f (p :: l) /\ ~ In x (p :: l).
Lemma avoiding_sound : forall f x n R, (forall p, In p R -> free_walk f x p) -> forall p, In p (avoiding f x n R) -> free_walk f x p.
Proof.
  intros f x. induction n as [|n IH]; intros R H p Hp; [exact (H p Hp)|]. cbn [avoiding] in Hp. apply (IH (grow f x R)); [|exact Hp].
  intros q Hq. unfold grow in Hq. apply nodup_In in Hq. apply in_app_or in Hq. destruct Hq as [Hq|Hq]; [exact (H q Hq)|].
  apply filter_In in Hq. destruct Hq as [Hq N]. apply in_flat_map in Hq. destruct Hq as (b & Hb & Ht).
  destruct (H b Hb) as (l & Hw & Hn). unfold targets_of in Ht. destruct (nth_error (f_blocks f) b) as [blk|] eqn:E; [|destruct Ht].
  exists (b :: l). split; [exact (w_step f b q l blk Hw E Ht)|]. apply negb_true_iff, Nat.eqb_neq in N.
  intros [K|K]; [congruence | exact (Hn K)].
Qed.
Lemma reaches_sound : forall f x p, reaches f x p = true -> free_walk f x p.
Proof.
  intros f x p H. unfold reaches in H. apply mem_nat_iff in H. apply avoiding_sound in H; [exact H|].
  intros q Hq. destruct (Nat.eqb_spec (f_entry f) x) as [E|N]; [destruct Hq|]. destruct Hq as [<-|[]].
  exists []. split; [constructor|]. intros [K|[]]. congruence.
Qed.
Lemma cut_off_sound : forall f p, cut_off f p = true -> ~ exists l, walk f (p :: l).
Proof.
  intros f p H (l & Hw). unfold cut_off in H. set (R := avoiding _ _ _ _) in H.
  apply andb_true_iff in H. destruct H as [H Hp]. apply andb_true_iff in H. destruct H as [He Hc].
  rewrite forallb_forall in Hc. apply mem_nat_iff in He.
  assert (K : forall w, walk f w -> forall b l, w = b :: l -> In b R).
  { induction 1 as [|b b' l1 blk HW IH Hb Ht]; intros q m E; injection E as <- <-; [exact He|].
    specialize (IH b l1 eq_refl). specialize (Hc b IH). rewrite forallb_forall in Hc. apply mem_nat_iff, Hc.
    unfold targets_of. now rewrite Hb. }
  specialize (K _ Hw p l eq_refl). apply mem_nat_iff in K. rewrite K in Hp. discriminate.
Qed.
Lemma forward_sound : forall f, forward_ok f = true -> branches_forward f.
Proof.
  intros f H b blk d t ss p v pblk Hb Hi Hv Hp Hl Hreach Hdom.
  unfold forward_ok in H. rewrite forallb_forall in H. specialize (H _ (numbered_in _ _ _ Hb)).
  cbn [fst snd] in H. rewrite forallb_forall in H. specialize (H _ Hi). cbv beta iota in H.
  rewrite forallb_forall in H. specialize (H _ Hv). cbn [fst] in H. unfold targets_of in H at 1. rewrite Hp in H.
  apply orb_true_iff in H. destruct H as [H|H]; [apply orb_true_iff in H; destruct H as [H|H]|].
  - apply Nat.leb_le in H. lia.
  - destruct (reaches_sound _ _ _ H) as (l & Hw & Hn). exact (Hn (Hdom l Hw)).
  - exact (cut_off_sound _ _ H Hreach).
Qed.

(** ** Values along an execution. *)
Lemma bind_all_defined : forall ds e vs e1, bind_all e ds vs = Some e1 ->
  (forall x, e x <> None -> e1 x <> None) /\ (forall d, In d ds -> e1 d <> None).
Proof.
  induction ds as [|d ds IH]; intros e vs e1 H; destruct vs as [|v vs]; cbn in H; try discriminate.
  - injection H as <-. split; [auto | intros d []].
  - destruct (IH _ _ _ H) as [A B]. split.
    + intros x Hx. apply A. unfold upd. destruct (Nat.eqb x d); [discriminate | exact Hx].
    + intros y [<-|Hy]; [|exact (B y Hy)]. apply A. unfold upd. rewrite Nat.eqb_refl. discriminate.
Qed.
Lemma phi_at_front : forall blk k d, k < length (fst (span_phi (b_instrs blk))) ->
  forall i, nth_error (b_instrs blk) k = Some i -> In d (dests i) -> In d (map (fun p => fst (fst p)) (fst (span_phi (b_instrs blk)))).
Proof.
  intros blk k d L i Hi Hd. rewrite (span_phi_app (b_instrs blk)) in Hi. rewrite nth_error_app1 in Hi by (rewrite map_length; exact L).
  apply nth_error_In in Hi. apply in_map_iff in Hi. destruct Hi as ([[d' t] ss] & <- & Hin). cbn in Hd. destruct Hd as [<-|[]].
  apply in_map_iff. exists (d', t, ss). auto.
Qed.
Lemma enter_defined : forall e prev phs e1, enter e prev phs = Some e1 ->
  (forall x, e x <> None -> e1 x <> None) /\ (forall d, In d (map (fun p => fst (fst p)) phs) -> e1 d <> None).
Proof.
  intros e prev phs e1 H. unfold enter in H. destruct (omap _ phs); [|discriminate]. exact (bind_all_defined _ _ _ _ H).
Qed.
Lemma term_target : forall e rets t b, exec_term e rets t = ROk (NGo b) -> In b (targets t).
Proof.
  intros e rets t b H. destruct t as [a|c a a0|op l r a a0|vs|]; cbn in *.
  - injection H as <-. now left.
  - destruct (truth e c) as [[]|]; cbn in H; try discriminate; injection H as <-; auto.
  - destruct (branch_op op); [|discriminate]. destruct (eval_bin e op l r) as [[]| | |]; cbn in H; try discriminate.
    destruct b0; injection H as <-; auto.
  - destruct (omap _ rets); cbn in H; [|discriminate]. destruct (eval_list _ _ _); cbn in H; discriminate.
  - discriminate.
Qed.
Lemma reached_defined : forall S (W : world S) f args s0 b k e s, reached W f args s0 b k e s ->
  exists l, walk f (b :: l) /\ forall d, defined_before f l b k d -> e d <> None.
Proof.
  intros S W f args s0 b k e s H. induction H as [blk e e1 Hb Hp He|b k blk i e s e1 s1 H IH Hb Hi Hx|b b' blk blk' e s e1 H IH Hb Hb' Ht He].
  - exists []. split; [constructor|]. destruct (bind_all_defined _ _ _ _ Hp) as [_ A]. destruct (enter_defined _ _ _ _ He) as [B C].
    intros d [D|[(j & L & D)|(c & j & [] & _)]]; [apply B, A, D|].
    destruct D as (blk' & i & Hb' & Hi & Hd). rewrite Hb in Hb'. injection Hb' as <-. apply C. exact (phi_at_front blk j d L i Hi Hd).
  - destruct IH as (l & Hw & D). exists l. split; [exact Hw|]. unfold exec in Hx.
    destruct (effect W (f_types f) e s i) as [[vs s']| | |]; cbn in Hx; try discriminate.
    destruct (bind_all e (dests i) vs) as [e'|] eqn:E; cbn in Hx; [|discriminate]. injection Hx as <- <-.
    destruct (bind_all_defined _ _ _ _ E) as [A B].
    intros d [K|[(j & L & K)|K]]; [apply A, D; now left| |apply A, D; right; now right].
    destruct (Nat.eq_dec j k) as [->|N]; [|apply A, D; right; left; exists j; split; [lia | exact K]].
    apply B. destruct K as (blk' & i' & Hb' & Hi' & Hd). congruence.
  - destruct IH as (l & Hw & D). exists (b :: l). split; [exact (w_step f b b' l blk Hw Hb (term_target _ _ _ _ Ht))|].
    destruct (enter_defined _ _ _ _ He) as [A B].
    intros d [K|[(j & L & K)|(c & j & [<-|Hc] & K)]].
    + apply A, D. now left.
    + destruct K as (blk2 & i & Hb2 & Hi & Hd). rewrite Hb' in Hb2. injection Hb2 as <-. apply B. exact (phi_at_front blk' j d L i Hi Hd).
    + apply A, D. right. left. exists j. split; [|exact K]. eapply def_at_lt; eauto.
    + apply A, D. right. right. eauto.
Qed.

(** ** Types along an execution. *)
(** Calls return what the signatures say. *)
Definition world_fits {S} (sg : list msig) (W : world S) : Prop :=
  forall k args s rs s', w_call W k args s = ROk (rs, s') ->
  forall ps ts, nth_error sg k = Some (ps, Some ts) -> Forall2 fits ts rs.
Definition env_fits (f : func) (e : env) : Prop :=
  forall d v, e d = Some v -> forall t, f_types f d = Some t -> fits t v.

Lemma lit_as_fits : forall t l v, lit_as t l = Some v -> fits t v.
Proof.
  intros t l v H. destruct t, l; cbn in H; try discriminate; injection H as <-; unfold fits; cbn; auto.
  - unfold wfb. destruct (Z.mod_pos_bound n P) as [A B]; [reflexivity|]. apply andb_true_iff. split; [apply Z.leb_le; exact A | apply Z.ltb_lt; exact B].
  - unfold u32b. destruct (Z.mod_pos_bound n B32) as [A B]; [reflexivity|]. apply andb_true_iff. split; [apply Z.leb_le; exact A | apply Z.ltb_lt; exact B].
Qed.
Lemma eval_as_fits : forall e t v x, eval_as e t v = Some x -> fits t x.
Proof.
  intros e t [l|i|] x H; cbn in H; try discriminate; [exact (lit_as_fits _ _ _ H)|].
  destruct (e i) as [y|]; [|discriminate]. destruct (shape t y) eqn:E; [|discriminate]. injection H as <-. exact E.
Qed.
Lemma eval_list_fits : forall e ts vs xs, eval_list e ts vs = Some xs -> Forall2 fits ts xs.
Proof.
  intros e. induction ts as [|t ts IH]; intros [|v vs] xs H; cbn in H; try discriminate.
  - injection H as <-. constructor.
  - destruct (eval_as e t v) eqn:E; [|discriminate]. destruct (eval_list e ts vs) eqn:E2; [|discriminate]. injection H as <-.
    constructor; [exact (eval_as_fits _ _ _ _ E) | exact (IH _ _ E2)].
Qed.
Lemma bind_all_fits : forall f ds ts vs e e1, (forall k d t, nth_error ds k = Some d -> nth_error ts k = Some t -> f_types f d = Some t) ->
  Forall2 fits ts vs -> bind_all e ds vs = Some e1 -> env_fits f e -> env_fits f e1.
Proof.
  intros f. induction ds as [|d ds IH]; intros ts vs e e1 Ht HF H He; destruct vs as [|v vs]; cbn in H; try discriminate.
  - injection H as <-. exact He.
  - inversion HF as [|t v0 ts' vs0 Hv HF']; subst. apply (IH ts' vs (upd e d v) e1); auto.
    + intros k d' t' A B. exact (Ht (S k) d' t' A B).
    + intros x y Hx t' Hty. unfold upd in Hx. destruct (Nat.eqb_spec x d) as [->|N]; [|exact (He x y Hx t' Hty)].
      injection Hx as <-. rewrite (Ht 0 d t eq_refl eq_refl) in Hty. injection Hty as <-. exact Hv.
Qed.
Lemma have_tys_nth : forall f ds ts, have_tys f ds ts = true -> forall k d t, nth_error ds k = Some d -> nth_error ts k = Some t -> f_types f d = Some t.
Proof.
  intros f. induction ds as [|x ds IH]; intros [|y ts] H [|k] d t A B; cbn in *; try discriminate.
  - injection A as <-. injection B as <-. apply andb_true_iff in H. exact (has_ty_eq _ _ _ (proj1 H)).
  - apply andb_true_iff in H. exact (IH _ (proj2 H) k d t A B).
Qed.
Lemma sem_bin_fits : forall op a b v, (forall t, op_type op = Some t -> fits t a /\ fits t b) ->
  sem_bin op a b = ROk v -> fits (result_type op) v.
Proof.
  intros op a b v Ht H. unfold fits in *.
  destruct op; destruct a; try discriminate H; destruct b; try discriminate H; cbn [sem_bin] in H;
    repeat match type of H with (if ?c then _ else _) = _ => destruct c eqn:? end; try discriminate H;
    injection H as <-; cbn [result_type shape]; try reflexivity; try apply wfb_mod; try apply u32b_mod;
    destruct (Ht _ eq_refl) as [X Y]; cbn [shape] in X, Y; apply u32b_iff in X; apply u32b_iff in Y.
  - apply Z.eqb_neq in Heqb. apply u32b_iff. split.
    + apply Z.div_pos; lia.
    + apply Z.le_lt_trans with z; [|lia]. apply Z.div_le_upper_bound; [lia|]. nia.
  - apply Z.eqb_neq in Heqb. apply u32b_iff. pose proof (Z.mod_pos_bound z z0). lia.
  - apply u32b_log; [apply Z.land_nonneg; lia|].
    eapply Z.le_lt_trans; [apply Z.log2_land; lia|]. pose proof (log2_u32 z X). lia.
  - apply u32b_log; [apply Z.lor_nonneg; lia|]. rewrite Z.log2_lor by lia.
    pose proof (log2_u32 z X). pose proof (log2_u32 z0 Y). lia.
  - apply u32b_log; [apply Z.lxor_nonneg; lia|].
    eapply Z.le_lt_trans; [apply Z.log2_lxor; lia|].
    pose proof (log2_u32 z X). pose proof (log2_u32 z0 Y). lia.
Qed.
Lemma eval_bin_fits : forall e op l r v, eval_bin e op l r = ROk v -> fits (result_type op) v.
Proof.
  intros e op l r v H. unfold eval_bin in H. destruct (eval_opnd e op l) as [a|] eqn:E1; [|discriminate].
  destruct (eval_opnd e op r) as [b|] eqn:E2; [|discriminate]. cbn [of_opt rbind] in H.
  apply (sem_bin_fits op a b v); [|exact H]. intros t Ht. unfold eval_opnd in E1, E2. rewrite Ht in E1, E2.
  split; eapply eval_as_fits; eauto.
Qed.
(** What an instruction computes has the types recorded for its results. *)
Lemma effect_fits : forall S (W : world S) sg f e s i vs s1, world_fits sg W -> result_ok sg f i = true ->
  effect W (f_types f) e s i = ROk (vs, s1) ->
  exists ts, Forall2 fits ts vs /\ forall k d t, nth_error (dests i) k = Some d -> nth_error ts k = Some t -> f_types f d = Some t.
Proof.
  intros S W sg f e s i vs s1 HW Hi H.
  assert (One : forall d t v, has_ty f d t = true -> fits t v -> exists ts, Forall2 fits ts [v] /\
     forall k d' t', nth_error [d] k = Some d' -> nth_error ts k = Some t' -> f_types f d' = Some t').
  { intros d t v Hd Hv. exists [t]. split; [constructor; [exact Hv | constructor]|].
    intros [|[|k]] d' t' A B; cbn in A, B; try discriminate. injection A as <-. injection B as <-. exact (has_ty_eq _ _ _ Hd). }
  destruct i; cbn [result_ok] in Hi; try discriminate; cbn [effect] in H; cbn [Mir.dests].
  - destruct (eval_as _ _ _) as [x|] eqn:E; [|discriminate]. cbn in H. injection H as <- <-. eapply One; eauto. eapply eval_as_fits; eauto.
  - destruct (eval_any _ _) as [x|]; [|discriminate]. cbn [of_opt rbind] in H. destruct (sem_un _ x) as [y| | |] eqn:E; try discriminate.
    cbn in H. injection H as <- <-. eapply One; [exact Hi|]. destruct op, x; try discriminate E; cbn [sem_un] in E; injection E as <-; unfold fits; cbn [shape]; auto.
    apply wfb_mod.
  - destruct (eval_bin _ _ _ _) as [y| | |] eqn:E; try discriminate. cbn in H. injection H as <- <-. eapply One; [exact Hi|]. eapply eval_bin_fits; eauto.
  - destruct (eval_list _ _ _) as [xs|]; [|discriminate]. cbn [of_opt rbind] in H.
    match type of Hi with match nth_error sg ?k with _ => _ end = true => destruct (nth_error sg k) as [[ps [ts|]]|] eqn:E; try discriminate end.
    exists ts. split; [exact (HW _ _ _ _ _ H _ _ E) | exact (have_tys_nth _ _ _ Hi)].
  - match type of H with match ?a with _ => _ end = _ => destruct a; try discriminate end.
    match type of H with match ?a with _ => _ end = _ => destruct a; try discriminate end.
    destruct (eval_as _ _ _) as [[]|] eqn:E; try discriminate. cbn [of_opt rbind] in H. apply eval_as_fits in E.
    destruct (Z.ltb z P) eqn:L; [|discriminate]. cbn in H. injection H as <- <-. eapply One; [exact Hi|].
    unfold fits in *. cbn [shape] in *. apply u32b_iff in E. apply wfb_iff. apply Z.ltb_lt in L. lia.
  - injection H as <- <-. exists []. split; [constructor|]. intros [|k] d t A B; discriminate.
  - destruct (eval_any e _) as [x|]; [|discriminate]. cbn [of_opt rbind] in H. destruct (eval_any e _) as [y|]; [|discriminate]. cbn [of_opt rbind] in H.
    destruct (one_word x); [|discriminate]. destruct (one_word y); [|discriminate]. destruct (Z.eqb _ _); [|discriminate].
    injection H as <- <-. exists []. split; [constructor|]. intros [|k] d t A B; discriminate.
Qed.
Lemma types_at : forall sg f b blk i, types_ok sg f = true -> nth_error (f_blocks f) b = Some blk -> In i (b_instrs blk) -> result_ok sg f i = true.
Proof.
  intros sg f b blk i H Hb Hi. unfold types_ok in H. rewrite forallb_forall in H. specialize (H _ (nth_error_In _ _ Hb)).
  rewrite forallb_forall in H. exact (H _ Hi).
Qed.
Lemma enter_fits : forall sg f blk b e prev e1, types_ok sg f = true -> nth_error (f_blocks f) b = Some blk -> env_fits f e ->
  enter e prev (fst (span_phi (b_instrs blk))) = Some e1 -> env_fits f e1.
Proof.
  intros sg f blk b e prev e1 Ht Hb He H. unfold enter in H. destruct (omap _ _) as [vs|] eqn:E; [|discriminate].
  assert (Hp : forall d t ss, In (d, t, ss) (fst (span_phi (b_instrs blk))) -> f_types f d = Some t).
  { intros d t ss Hin. assert (K : result_ok sg f (IPhi d t ss) = true).
    { apply (types_at sg f b blk _ Ht Hb). rewrite (span_phi_app (b_instrs blk)). apply in_or_app. left. apply in_map_iff. exists (d, t, ss). auto. }
    cbn [result_ok] in K. apply andb_true_iff in K. exact (has_ty_eq _ _ _ (proj1 K)). }
  revert Hp E H. generalize (fst (span_phi (b_instrs blk))). intros phs Hp E H.
  apply (bind_all_fits f (map (fun p => fst (fst p)) phs) (map (fun p => snd (fst p)) phs) vs e e1); auto.
  - intros k d t A B. rewrite nth_error_map in A, B. destruct (nth_error phs k) as [[[d' t'] ss]|] eqn:En; [|discriminate].
    cbn in A, B. injection A as <-. injection B as <-. exact (Hp _ _ _ (nth_error_In _ _ En)).
  - clear H Hp. revert vs E. induction phs as [|[[d t] ss] phs IH]; intros vs E; cbn [omap map] in E |- *.
    + injection E as <-. constructor.
    + destruct (phi_val e prev (d, t, ss)) as [x|] eqn:Ex; [|discriminate]. destruct (omap _ phs) as [xs|]; [|discriminate]. injection E as <-.
      constructor; [|now apply IH]. unfold phi_val in Ex. cbn [fst snd] in *. destruct prev as [p|]; [|discriminate].
      destruct (src_from p ss); [|discriminate]. exact (eval_as_fits _ _ _ _ Ex).
Qed.
Lemma params_fit : forall f args e ps, omap (f_types f) (f_params f) = Some ps -> Forall2 fits ps args ->
  bind_all (fun _ => None) (f_params f) args = Some e -> env_fits f e.
Proof.
  intros f args e ps Hps Ha H. apply (bind_all_fits f (f_params f) ps args (fun _ => None) e); auto.
  - intros k d t A B. destruct (omap_nth _ _ _ _ _ Hps k d A) as (t' & E & En). congruence.
  - intros d v E. discriminate.
Qed.
Lemma reached_fits : forall S (W : world S) sg f args s0 b k e s ps, world_fits sg W -> types_ok sg f = true ->
  omap (f_types f) (f_params f) = Some ps -> Forall2 fits ps args ->
  reached W f args s0 b k e s -> env_fits f e.
Proof.
  intros S W sg f args s0 b k e s ps HW Ht Hps Ha H.
  induction H as [blk e e1 Hb Hp He|b k blk i e s e1 s1 H IH Hb Hi Hx|b b' blk blk' e s e1 H IH Hb Hb' Hterm He].
  - apply (enter_fits sg f blk _ e None e1 Ht Hb); [exact (params_fit f args e ps Hps Ha Hp) | exact He].
  - unfold exec in Hx. destruct (effect W (f_types f) e s i) as [[vs s']| | |] eqn:E; cbn in Hx; try discriminate.
    destruct (bind_all e (dests i) vs) as [e'|] eqn:Eb; cbn in Hx; [|discriminate]. injection Hx as <- <-.
    destruct (effect_fits S W sg f e s i vs s' HW (types_at sg f b blk i Ht Hb (nth_error_In _ _ Hi)) E) as (ts & A & B).
    exact (bind_all_fits f _ ts vs e e' B A Eb IH).
  - exact (enter_fits sg f blk' _ e _ e1 Ht Hb' IH He).
Qed.
Lemma src_from_in : forall p v ss, NoDup (map fst ss) -> In (p, v) ss -> src_from p ss = Some v.
Proof.
  induction ss as [|[q w] ss IH]; intros HN H; [destruct H|]. cbn in *. inversion HN as [|? ? Hq HN']; subst.
  destruct H as [E|H]; [injection E as -> ->; now rewrite Nat.eqb_refl|].
  destruct (Nat.eqb_spec p q) as [->|N]; [|now apply IH]. elim Hq. apply in_map_iff. now exists (q, v).
Qed.
(** The types of a function guarantee what phi elimination needs of its executions. *)
Theorem types_branch_values : forall S (W : world S) sg f args s0 ps, world_fits sg W -> ssa f -> phi_preds f -> types_ok sg f = true ->
  omap (f_types f) (f_params f) = Some ps -> Forall2 fits ps args -> branch_values W f args s0.
Proof.
  intros S W sg f args s0 ps HW Hssa Hpp Ht Hps Ha p pblk e s Hp Hl HR c Hc.
  apply phi_copies_in in Hc. destruct Hc as (blk & d & t & ss & v & Hblk & Hi & Hv & ->). cbn [c_ty c_src fst snd].
  apply In_nth_error in Hblk. destruct Hblk as (b & Hb).
  pose proof (types_at sg f b blk _ Ht Hb Hi) as Hok. cbn [result_ok] in Hok. apply andb_true_iff in Hok. destruct Hok as [_ Hok].
  rewrite forallb_forall in Hok. specialize (Hok _ Hv). cbn [snd] in Hok.
  destruct v as [l|x|]; cbn [src_ok] in Hok; [cbn [eval_as]; destruct (lit_as t l); discriminate| |discriminate].
  cbn [eval_as]. apply has_ty_eq in Hok.
  destruct (reached_defined _ _ _ _ _ _ _ _ _ HR) as (l & Hw & D).
  destruct (Hpp b blk d t ss Hb Hi) as [HN Hpr]. destruct (Hpr p (Op x) Hv) as (pblk' & Hp' & Htg).
  rewrite Hp in Hp'. injection Hp' as <-.
  apply In_nth_error in Hi. destruct Hi as (k & Hk).
  pose proof (proj1 (proj2 (proj2 Hssa b blk Hb)) k d t ss p pblk x Hk Hp Htg (src_from_in _ _ _ HN Hv)) as Dx.
  specialize (D x (Dx l Hw)). destruct (e x) as [y|] eqn:Ey; [|congruence].
  pose proof (reached_fits S W sg f args s0 _ _ _ _ ps HW Ht Hps Ha HR x y Ey t Hok) as F. unfold fits in F. rewrite F. discriminate.
Qed.

(** ** Hash orders. *)
Lemma some_orders_valid : forall f, valid_orders (some_orders f) f.
Proof.
  intro f. unfold valid_orders, some_orders. cbn [o_blocks o_graph o_degrees]. set (f1 := split_all f). split.
  - split; [apply NoDup_nodup|]. intro p. rewrite nodup_In. apply phi_froms_in.
  - intro p. split; split.
    + apply NoDup_filter, NoDup_nodup.
    + intro d. rewrite filter_In, nodup_In. split.
      * intros [_ H] E. rewrite E in H. discriminate.
      * intro H. destruct (deps (phi_copies f1 p) d) as [|s r] eqn:E; [congruence|]. split; [|reflexivity].
        assert (K : In s (deps (phi_copies f1 p) d)) by (rewrite E; now left). apply deps_in in K. destruct K as (c & Hc & <- & _). now apply in_map.
    + apply NoDup_nodup.
    + intro d. apply nodup_In.
Qed.
