(** The frame layout a function starts with. *)
From Coq Require Import ZArith Bool String List Lia.
From Verif Require Import M31 Mir Cg.
Import ListNotations.
Open Scope Z_scope.

Lemma msize_nonneg : forall t, 0 <= msize t.
Proof.
  fix IH 1. intros t. destruct t as [ | | |ts|n fs|e n|e| | | |]; cbn [msize]; try lia.
  - induction ts as [|t l K]; [lia|]. pose proof (IH t). lia.
  - induction fs as [|[m t] l K]; [lia|]. cbn [snd]. pose proof (IH t). lia.
Qed.
Lemma sizes_nonneg : forall ts, 0 <= sizes ts.
Proof. induction ts as [|t ts IH]; cbn; [lia|]. fold (sizes ts). pose proof (msize_nonneg t). lia. Qed.

(** Parameters take consecutive slots. *)
Lemma params_out : forall ps ts L o v, ~ In v ps -> slots (lay_params L o ps ts) v = slots L v.
Proof.
  induction ps as [|p ps IH]; intros [|t ts] L o v H; cbn [lay_params]; auto. cbn [In] in H.
  rewrite IH by tauto. cbn [set_slot slots]. destruct (Nat.eqb_spec v p); auto. subst. tauto.
Qed.
Lemma params_frame : forall ps ts L o, frame (lay_params L o ps ts) = frame L /\ nret (lay_params L o ps ts) = nret L.
Proof. induction ps as [|p ps IH]; intros [|t ts] L o; cbn [lay_params]; auto. destruct (IH ts (set_slot L p o (msize t)) (o + msize t)) as (-> & ->). auto. Qed.
Lemma params_at : forall ps ts L o k p t, NoDup ps -> nth_error ps k = Some p -> nth_error ts k = Some t ->
  slots (lay_params L o ps ts) p = Some (o + sizes (firstn k ts), msize t).
Proof.
  induction ps as [|q ps IH]; intros ts L o k p t N Hp Ht; [destruct k; discriminate|].
  inversion N as [|? ? N1 N2]; subst. destruct ts as [|u ts]; [destruct k; discriminate|]. destruct k as [|k].
  - cbn in Hp, Ht. injection Hp as ->. injection Ht as ->. cbn [lay_params firstn sizes fold_right].
    rewrite params_out by auto. cbn [set_slot slots]. rewrite Nat.eqb_refl. f_equal. f_equal. lia.
  - cbn in Hp, Ht. cbn [lay_params]. rewrite (IH ts _ _ k p t N2 Hp Ht). cbn [firstn sizes fold_right].
    fold (sizes (firstn k ts)). f_equal. f_equal. lia.
Qed.

(** The ranges of two values. *)
Definition apart_slots (x y : Z * Z) : Prop := fst x + snd x <= fst y \/ fst y + snd y <= fst x.

(** Destinations take slots from the frame size on. *)
Lemma dests_ok : forall f ds L L', lay_dests f L ds = COk L' ->
  (forall v x, slots L v = Some x -> fst x + snd x <= frame L) ->
  nret L' = nret L /\ frame L <= frame L' /\
  (forall v x, slots L v = Some x -> slots L' v = Some x) /\
  (forall d, In d ds -> slots L' d <> None) /\
  (forall v x, slots L' v = Some x -> slots L v = Some x \/
     (In v ds /\ frame L <= fst x /\ fst x + snd x <= frame L' /\
      exists t, f_types f v = Some t /\ snd x = msize t)) /\
  (forall v w x y, v <> w -> slots L' v = Some x -> slots L' w = Some y ->
     slots L v = None \/ slots L w = None -> apart_slots x y).
Proof.
  intros f. induction ds as [|d ds IH]; intros L L' H I; cbn [lay_dests] in H.
  - injection H as <-. repeat split; auto; try lia; try (intros d []; fail).
    intros v w x y _ Hv Hw [K|K]; congruence.
  - destruct (slots L d) as [x0|] eqn:E.
    + destruct (IH _ _ H I) as (A & B & C & D & F & G). repeat split; auto.
      * intros d' [<-|K]; auto. rewrite (C _ _ E). discriminate.
      * intros v x K. destruct (F v x K) as [K1|(K1 & K2)]; auto. right. split; [right|]; auto.
    + destruct (f_types f d) as [t|] eqn:Et; [|discriminate]. pose proof (msize_nonneg t) as Mt.
      set (L1 := set_frame (set_slot L d (frame L) (msize t)) (frame L + msize t)) in *.
      assert (S1 : forall v, slots L1 v = if Nat.eqb v d then Some (frame L, msize t) else slots L v) by reflexivity.
      assert (F1 : frame L1 = frame L + msize t) by reflexivity.
      destruct (IH _ _ H) as (A & B & C & D & F & G).
      { intros v x. rewrite S1, F1. destruct (Nat.eqb v d); [intros K; injection K as <-; cbn; lia|].
        intros K. apply I in K. lia. }
      rewrite F1 in *. split; [exact A|]. split; [lia|]. split.
      { intros v x K. apply C. rewrite S1. destruct (Nat.eqb_spec v d); [subst; congruence|auto]. }
      split.
      { intros d' [<-|K]; auto. rewrite (C d (frame L, msize t)); [discriminate|]. rewrite S1, Nat.eqb_refl. auto. }
      split.
      { intros v x K. destruct (F v x K) as [K1|(K1 & K2 & K3 & K4)].
        - rewrite S1 in K1. destruct (Nat.eqb_spec v d); auto. injection K1 as <-. subst v. right. cbn [fst snd].
          split; [left; auto|]. repeat split; try lia. eauto.
        - right. split; [right; auto|]. repeat split; try lia. auto. }
      intros v w x y N Kv Kw K.
      destruct (slots L1 v) as [x1|] eqn:Ev; [|apply (G v w); auto].
      destruct (slots L1 w) as [y1|] eqn:Ew; [|apply (G v w); auto].
      rewrite (C _ _ Ev) in Kv. injection Kv as ->. rewrite (C _ _ Ew) in Kw. injection Kw as ->.
      rewrite S1 in Ev, Ew. unfold apart_slots.
      destruct (Nat.eqb_spec v d); destruct (Nat.eqb_spec w d); [congruence| | |].
      * injection Ev as <-. apply I in Ew. cbn. lia.
      * injection Ew as <-. apply I in Ev. cbn. lia.
      * destruct K; congruence.
Qed.

Lemma types_of_length : forall f vs ts, types_of f vs = Some ts -> length ts = length vs.
Proof.
  induction vs as [|v vs IH]; intros ts H; cbn in H; [injection H as <-; auto|].
  destruct (f_types f v); [|discriminate]. destruct (types_of f vs); [|discriminate]. injection H as <-. cbn. auto.
Qed.
Lemma types_of_nth : forall f vs ts k v, types_of f vs = Some ts -> nth_error vs k = Some v ->
  exists t, nth_error ts k = Some t /\ f_types f v = Some t.
Proof.
  induction vs as [|w vs IH]; intros ts k v H K; [destruct k; discriminate|]. cbn in H.
  destruct (f_types f w) eqn:E; [|discriminate]. destruct (types_of f vs); [|discriminate]. injection H as <-.
  destruct k; cbn in *; [injection K as <-; eauto|eauto].
Qed.
Lemma sizes_split : forall ts k t, nth_error ts k = Some t ->
  sizes (firstn k ts) + msize t <= sizes ts /\ 0 <= sizes (firstn k ts).
Proof.
  induction ts as [|u ts IH]; intros [|k] t H; try discriminate; cbn in H.
  - injection H as ->. cbn. fold (sizes ts). pose proof (sizes_nonneg ts). lia.
  - cbn [firstn sizes fold_right]. fold (sizes ts). fold (sizes (firstn k ts)). destruct (IH _ _ H).
    pose proof (msize_nonneg u). lia.
Qed.
Lemma sizes_order : forall ts j k t, (j < k)%nat -> nth_error ts j = Some t -> (k <= length ts)%nat ->
  sizes (firstn j ts) + msize t <= sizes (firstn k ts).
Proof.
  induction ts as [|u ts IH]; intros [|j] [|k] t L H K; try discriminate; try lia; cbn in H.
  - injection H as ->. cbn [firstn sizes fold_right]. fold (sizes (firstn k ts)). pose proof (sizes_nonneg (firstn k ts)). lia.
  - cbn [firstn sizes fold_right]. fold (sizes (firstn k ts)). fold (sizes (firstn j ts)).
    cbn in K. pose proof (IH j k t ltac:(lia) H ltac:(lia)). lia.
Qed.

(** The layout of a function: with [M] parameter slots and [K] return slots, parameters
    fill [-M-K-2 .. -K-3] in order, and everything else lies in [0 .. frame-1]. *)
Theorem layout_ok : forall f L ps rs, lay_new f = COk L -> NoDup (f_params f) ->
  types_of f (f_params f) = Some ps -> types_of f (f_rets f) = Some rs ->
  nret L = sizes rs /\ 0 <= frame L /\
  (forall k p t, nth_error (f_params f) k = Some p -> nth_error ps k = Some t ->
     slots L p = Some (- sizes ps - sizes rs - 2 + sizes (firstn k ps), msize t)) /\
  (forall v x, ~ In v (f_params f) -> slots L v = Some x ->
     In v (all_dests f) /\ 0 <= fst x /\ fst x + snd x <= frame L /\
     exists t, f_types f v = Some t /\ snd x = msize t) /\
  (forall v, In v (all_dests f) -> slots L v <> None) /\
  (forall v w x y, v <> w -> slots L v = Some x -> slots L w = Some y -> apart_slots x y).
Proof.
  intros f L ps rs H N Hp Hr. unfold lay_new in H. rewrite Hp, Hr in H.
  set (L0 := lay_params (Lay (fun _ => None) 0 (sizes rs)) (- sizes ps - sizes rs - 2) (f_params f) ps) in *.
  destruct (params_frame (f_params f) ps (Lay (fun _ => None) 0 (sizes rs)) (- sizes ps - sizes rs - 2)) as (F0 & R0).
  fold L0 in F0, R0. cbn [frame nret] in F0, R0.
  pose proof (sizes_nonneg rs) as Sr. pose proof (sizes_nonneg ps) as Sp.
  assert (P0 : forall k p t, nth_error (f_params f) k = Some p -> nth_error ps k = Some t ->
     slots L0 p = Some (- sizes ps - sizes rs - 2 + sizes (firstn k ps), msize t)).
  { intros k p t K1 K2. apply params_at; auto. }
  assert (PI : forall v x, slots L0 v = Some x -> exists k t, nth_error (f_params f) k = Some v /\
     nth_error ps k = Some t /\ x = (- sizes ps - sizes rs - 2 + sizes (firstn k ps), msize t)).
  { intros v x K. destruct (in_dec Nat.eq_dec v (f_params f)) as [I|I].
    - apply In_nth_error in I. destruct I as (k & I). destruct (types_of_nth _ _ _ _ _ Hp I) as (t & Et & _).
      exists k, t. split; auto. split; auto. rewrite (P0 _ _ _ I Et) in K. congruence.
    - unfold L0 in K. rewrite params_out in K by auto. discriminate. }
  assert (I0 : forall v x, slots L0 v = Some x -> fst x + snd x <= frame L0).
  { intros v x K. destruct (PI v x K) as (k & t & _ & K2 & ->). rewrite F0. cbn [fst snd].
    destruct (sizes_split _ _ _ K2). lia. }
  destruct (dests_ok _ _ _ _ H I0) as (A & B & C & D & E & G).
  rewrite F0 in *. split; [congruence|]. split; [lia|]. split.
  { intros k p t K1 K2. apply C. eauto. }
  split.
  { intros v x Nv K. destruct (E v x K) as [K1|(K1 & K2 & K3 & K4)].
    - exfalso. apply Nv. destruct (PI v x K1) as (k & t & K2 & _). eapply nth_error_In; eauto.
    - auto. }
  split; [exact D|].
  intros v w x y Nvw Kv Kw.
  destruct (slots L0 v) as [x0|] eqn:Ev; [|apply (G v w); auto].
  destruct (slots L0 w) as [y0|] eqn:Ew; [|apply (G v w); auto].
  rewrite (C _ _ Ev) in Kv. injection Kv as ->. rewrite (C _ _ Ew) in Kw. injection Kw as ->.
  destruct (PI _ _ Ev) as (j & t & J1 & J2 & ->). destruct (PI _ _ Ew) as (k & u & K1 & K2 & ->).
  assert (j <> k) by (intros ->; congruence). unfold apart_slots. cbn [fst snd].
  assert (Lj : (j < length ps)%nat) by (apply nth_error_Some; congruence).
  assert (Lk : (k < length ps)%nat) by (apply nth_error_Some; congruence).
  destruct (Nat.lt_total j k) as [K|[K|K]]; [|contradiction|].
  - pose proof (sizes_order _ _ _ _ K J2 ltac:(lia)). lia.
  - pose proof (sizes_order _ _ _ _ K K2 ltac:(lia)). lia.
Qed.
