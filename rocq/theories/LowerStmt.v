(** Lowering of expressions and statements keeps the invariants. *)
From Coq Require Import ZArith Bool String List Lia Permutation.
From Verif Require Import M31 Isa Mir MirFacts MirSsaMap MirCopyFacts Src SrcCheck SrcFacts Lower LowerFacts LowerStep.
Import ListNotations.
Open Scope nat_scope.

(** In the final state [F], block [p] does what it did at [st] and then [t]. *)
Record ends (F st : lst) (p : nat) (t : term) : Prop := {
  n_body : map (ci F) (l_body F p) = map (ci F) (l_body st p);
  n_term : ct F (l_term F p) = ct F t;
  n_def : forall x w, l_def F x p = Some w ->
     (exists w0, l_def st x p = Some w0 /\ l_cls F w = l_cls F w0) \/
     (l_def st x p = None /\ exists o, l_ent F x p = Some o /\ l_cls F w = l_cls F o) }.
Lemma ends_intro F st s1 p t : finished s1 p = false -> t <> TUnreachable -> still st s1 p ->
  ext (set_term p t s1) F -> ends F st p t.
Proof.
  intros U NT (_ & D & B) E.
  assert (FI : finished (set_term p t s1) p = true).
  { unfold finished; cbn. unfold upf. rewrite Nat.eqb_refl. destruct t; congruence. }
  destruct (e_done _ _ E _ FI) as [EB ET].
  assert (RE : refines s1 F) by exact (e_cls _ _ E).
  constructor.
  - rewrite EB. change (l_body (set_term p t s1) p) with (l_body s1 p). eapply ci_mono; eauto.
  - rewrite ET. cbn. unfold upf. rewrite Nat.eqb_refl. reflexivity.
  - intros x w W. destruct (D x) as [D1 _]. destruct (l_def st x p) as [w0|] eqn:D0.
    + left. exists w0. split; auto. destruct (e_def _ _ E x p w0 FI ltac:(cbn; congruence)) as (w' & W' & EQ). congruence.
    + right. split; auto. apply (e_new _ _ E); auto.
Qed.

Definition nblk (st : lst) : lst := snd (new_block st).
Lemma new_block_eq st : new_block st = (l_nb st, nblk st).
Proof. reflexivity. Qed.
Lemma upf_ne {A} (f : nat -> A) i a j : j <> i -> upf f i a j = f j.
Proof. intros N. unfold upf. destruct (Nat.eqb_spec j i); congruence. Qed.

Section Stmt.
Variables (V : nat -> ty) (ps : list nat) (sg : sigs) (ret : option ty).
Variable ord : list (nat * nat) -> list (nat * nat).
Hypothesis ord_perm : forall l, Permutation (ord l) l.
Local Notation inv := (inv V ps).
Local Notation lower_stmt := (lower_stmt ord V sg).
Local Notation lower_expr := (lower_expr V sg).
Local Notation lower_exprs := (lower_exprs V sg).

Definition live (st : lst) : Prop := inv st [] /\ l_cur st < l_nb st /\ finished st (l_cur st) = false.
Lemma quiet_live st st' : live st -> quiet st st' -> inv st' [] -> live st'.
Proof. intros (_ & L & F) Q I. split; auto. rewrite (q_cur _ _ Q), (q_nb _ _ Q), (q_fin _ _ Q). auto. Qed.
Lemma emit1_live i t st : live st -> is_phi i = false -> dests i = [l_next st] -> inv (emit i (snd (fresh t st))) [] /\ quiet st (emit i (snd (fresh t st))).
Proof.
  intros (I & L & F) NP D. split; [apply emit_inv1; auto|].
  eapply quiet_trans; [eapply fresh_quiet; eauto|]. eapply emit_quiet; [apply fresh_inv; eauto|exact F].
Qed.
Definition opty (st : lst) (t : ty) (v : value) : Prop :=
  match v with Op i => l_tys st i = Some t | Lit _ => True | VErr => False end.
Lemma fresh_ty t st : l_tys (snd (fresh t st)) (l_next st) = Some t.
Proof. cbn. unfold upf. rewrite Nat.eqb_refl. reflexivity. Qed.

Lemma lower_call_eq f args st : lower_expr (ECall f args) st =
  match lower_exprs args st with
  | Some (vs, st1) => match nth_error sg f with
      | Some s => match snd s with
          | Some t => Some (Op (l_next st1), emit (ICall [l_next st1] f vs (fst s)) (snd (Lower.fresh t st1)))
          | None => None end
      | None => None end
  | None => None
  end.
Proof. reflexivity. Qed.
Lemma lower_cons_eq e es st : lower_exprs (ECons e es) st =
  match lower_expr e st with
  | Some (v, st1) => match lower_exprs es st1 with Some (vs, st2) => Some (v :: vs, st2) | None => None end
  | None => None
  end.
Proof. reflexivity. Qed.
Lemma lower_expr_spec :
  (forall e t st v st', type_of V sg e = Some t -> live st -> lower_expr e st = Some (v, st') ->
     inv st' [] /\ quiet st st' /\ opty st' t v) /\
  (forall es st vs st' ts, types_of_args V sg es ts = true -> live st -> lower_exprs es st = Some (vs, st') ->
     inv st' [] /\ quiet st st').
Proof.
  apply expr_exprs_ind.
  - intros n t u st v st' _ L [= <- <-]. split; [apply L|]. split; [eapply quiet_refl; apply L|exact Logic.I].
  - intros b u st v st' _ L [= <- <-]. split; [apply L|]. split; [eapply quiet_refl; apply L|exact Logic.I].
  - intros x u st v st' T L. cbn [Lower.lower_expr Lower.lower_exprs type_of] in *. injection T as <-.
    destruct (read _ x _ st) as [[i st1]|] eqn:R; [|discriminate]. intros [= <- <-].
    destruct L as (I & L & F). destruct (read_spec V ps _ x _ _ _ _ _ I L R) as (I1 & R1 & D1 & S1).
    split; auto. split; [apply rd_quiet; auto|]. cbn. eapply i_def_ty; eauto.
  - intros op a IH u st v st' T L. cbn [Lower.lower_expr Lower.lower_exprs]. unfold ety. rewrite T. cbn [type_of] in T.
    destruct (type_of V sg a) as [ta|] eqn:TA; [|discriminate].
    destruct (lower_expr a st) as [[w st1]|] eqn:E; [|discriminate].
    destruct (IH ta st w st1 eq_refl L E) as (I1 & Q1 & _). pose proof (quiet_live _ _ L Q1 I1) as L1.
    intros H. assert (st' = emit (IUnary op (l_next st1) w) (snd (fresh u st1)) /\ v = Op (l_next st1)) as [-> ->].
    { cbn in H. injection H as <- <-. auto. }
    destruct (emit1_live (IUnary op (l_next st1) w) u st1 L1 eq_refl eq_refl) as [I2 Q2].
    split; auto. split; [eapply quiet_trans; eauto|]. exact (fresh_ty u st1).
  - intros op l IHl r IHr u st v st' T L. cbn [Lower.lower_expr Lower.lower_exprs]. unfold ety. rewrite T. cbn [type_of] in T.
    destruct (type_of V sg l) as [tl|] eqn:TL; [|discriminate]. destruct (type_of V sg r) as [tr|] eqn:TR; [|discriminate].
    destruct (lower_expr l st) as [[w st1]|] eqn:E1; [|discriminate].
    destruct (IHl tl st w st1 eq_refl L E1) as (I1 & Q1 & _). pose proof (quiet_live _ _ L Q1 I1) as L1.
    destruct (lower_expr r st1) as [[z st2]|] eqn:E2; [|discriminate].
    destruct (IHr tr st1 z st2 eq_refl L1 E2) as (I2 & Q2 & _). pose proof (quiet_live _ _ L1 Q2 I2) as L2.
    change (fresh u st2) with (l_next st2, snd (fresh u st2)). cbv iota beta.
    destruct (from_parser op tl) as [o|]; [|discriminate].
    intros H. assert (st' = emit (IBinary o (l_next st2) w z) (snd (fresh u st2)) /\ v = Op (l_next st2)) as [-> ->].
    { split; congruence. }
    destruct (emit1_live (IBinary o (l_next st2) w z) u st2 L2 eq_refl eq_refl) as [I3 Q3].
    split; auto. split; [eapply quiet_trans; [exact Q1|]; eapply quiet_trans; eauto|]. exact (fresh_ty u st2).
  - intros f args IH u st v st' T L. rewrite lower_call_eq. cbn [type_of] in T.
    destruct (nth_error sg f) as [[ts [t|]]|] eqn:NE; try discriminate.
    destruct (types_of_args V sg args ts) eqn:TA; [|discriminate]. injection T as <-.
    destruct (lower_exprs args st) as [[vs st1]|] eqn:E; [|discriminate].
    destruct (IH st vs st1 ts TA L E) as (I1 & Q1). pose proof (quiet_live _ _ L Q1 I1) as L1.
    cbn [snd fst].
    intros H. assert (st' = emit (ICall [l_next st1] f vs ts) (snd (fresh t st1)) /\ v = Op (l_next st1)) as [-> ->].
    { split; congruence. }
    destruct (emit1_live (ICall [l_next st1] f vs ts) t st1 L1 eq_refl eq_refl) as [I2 Q2].
    split; auto. split; [eapply quiet_trans; eauto|]. exact (fresh_ty t st1).
  - intros a IH t u st v st' T L. cbn [Lower.lower_expr Lower.lower_exprs type_of] in *. unfold ety.
    destruct (type_of V sg a) as [ta|] eqn:TA; [|discriminate].
    destruct (lower_expr a st) as [[w st1]|] eqn:E; [|discriminate].
    destruct (IH ta st w st1 eq_refl L E) as (I1 & Q1 & _). pose proof (quiet_live _ _ L Q1 I1) as L1.
    change (fresh t st1) with (l_next st1, snd (fresh t st1)). cbv iota beta.
    intros H. assert (st' = emit (ICast (l_next st1) w ta t) (snd (fresh t st1)) /\ v = Op (l_next st1)) as [-> ->].
    { split; congruence. }
    destruct (emit1_live (ICast (l_next st1) w ta t) t st1 L1 eq_refl eq_refl) as [I2 Q2].
    split; auto. split; [eapply quiet_trans; eauto|].
    assert (u = t) as ->. { destruct ta; try discriminate; destruct t; try discriminate. congruence. }
    exact (fresh_ty t st1).
  - intros st vs st' ts _ L [= <- <-]. split; [apply L|]. eapply quiet_refl; apply L.
  - intros e IHe es IHes st vs st' ts T L. rewrite lower_cons_eq. destruct ts as [|t ts]; [discriminate|].
    cbn [types_of_args] in T. destruct (type_of V sg e) as [u|] eqn:TE; [|discriminate].
    apply andb_true_iff in T. destruct T as [_ T].
    destruct (lower_expr e st) as [[w st1]|] eqn:E1; [|discriminate].
    destruct (IHe u st w st1 eq_refl L E1) as (I1 & Q1 & _). pose proof (quiet_live _ _ L Q1 I1) as L1.
    destruct (lower_exprs es st1) as [[ws st2]|] eqn:E2; [|discriminate].
    destruct (IHes st1 ws st2 ts T L1 E2) as (I2 & Q2). intros [= <- <-]. split; auto.
    eapply quiet_trans; eauto.
Qed.
Lemma bind_var_spec x v st st' : live st -> opty st (V x) v -> bind_var V x v st = Some st' ->
  inv st' [] /\ quiet st st'.
Proof.
  intros L T. destruct v as [l|i|]; cbn [bind_var]; [| |discriminate].
  - change (fresh (V x) st) with (l_next st, snd (fresh (V x) st)). cbv iota beta.
    destruct (emit1_live (IAssign (l_next st) (Lit l) (V x)) (V x) st L eq_refl eq_refl) as [I1 Q1].
    set (s1 := emit _ _) in *. intros [= <-]. pose proof (quiet_live _ _ L Q1 I1) as L1.
    change (l_cur (snd (fresh (V x) st))) with (l_cur s1).
    destruct L1 as (_ & L1 & F1). split.
    + apply write_inv; auto. exact (fresh_ty (V x) st).
    + eapply quiet_trans; [exact Q1|]. exact (write_quiet V ps x (l_next st) s1 [] I1 F1).
  - intros [= <-]. destruct L as (I & L & F). split.
    + apply write_inv; auto.
    + eapply write_quiet; eauto.
Qed.

(** ** Statements. *)
Definition okt (st : lst) (t : nat) : Prop :=
  t < l_nb st /\ (l_sealed st t = false \/ virgin st t /\ t <> l_cur st).
Definition target (lc : option (nat * nat)) (b : nat) : Prop :=
  exists h x, lc = Some (h, x) /\ (b = h \/ b = x).
Definition pre (lc : option (nat * nat)) (st : lst) : Prop := live st /\ forall b, target lc b -> okt st b.
Record post (lc : option (nat * nat)) (st st' : lst) : Prop := {
  o_inv : inv st' [];
  o_step : step (eq (l_cur st)) no (target lc) st st';
  o_cur : l_cur st' = l_cur st \/ l_nb st <= l_cur st';
  o_lt : l_cur st' < l_nb st';
  o_new : forall b, l_nb st <= b -> b < l_nb st' -> l_sealed st' b = true;
  o_moved : l_cur st' <> l_cur st -> finished st' (l_cur st) = true }.
Lemma okt_open st b : okt st b -> open_for st b.
Proof. intros [L [S|[(_ & _ & _ & D) _]]]; split; auto. right. intros x. apply D. Qed.
Lemma okt_step P st st' b : step (eq (l_cur st)) no P st st' -> (l_cur st' = l_cur st \/ l_nb st <= l_cur st') ->
  okt st b -> okt st' b.
Proof.
  intros S C [L O]. pose proof (e_nb _ _ (s_ext _ _ _ _ _ S)). split; [lia|]. destruct O as [O|[O N]].
  - left. rewrite (s_sealed _ _ _ _ _ S); auto.
  - right. split; [eapply step_virgin; eauto|]. destruct C; lia.
Qed.
Lemma quiet_post lc st st' : live st -> inv st' [] -> quiet st st' -> post lc st st'.
Proof.
  intros (I & L & F) I' Q. pose proof (q_nb _ _ Q). pose proof (q_cur _ _ Q). constructor; auto; try congruence; try lia.
  eapply step_weak; [| | |apply (q_step _ _ Q)]; auto. intros b _ [].
Qed.
(** Bounds as seen from an outer state. *)
Definition tT (st : lst) (b : nat) := l_cur st = b \/ l_nb st <= b.
Definition tS (st : lst) (b : nat) := l_nb st <= b.
Definition tP lc (st : lst) (b : nat) := target lc b \/ l_nb st <= b.
Definition ostep lc (o a b : lst) := step (tT o) (tS o) (tP lc o) a b.
Lemma ostep_in lc st st' : ostep lc st st st' -> step (eq (l_cur st)) no (target lc) st st'.
Proof.
  intros H. eapply step_weak; [| | |exact H]; unfold tT, tS, tP; intros b L K.
  - destruct K; [auto|lia].
  - lia.
  - destruct K; [auto|lia].
Qed.
Lemma post_ostep lc lc' o a b : post lc' a b -> tT o (l_cur a) -> (forall t, target lc' t -> tP lc o t) -> ostep lc o a b.
Proof.
  intros H C T. eapply step_weak; [| | |apply (o_step _ _ _ H)].
  - intros c _ <-. exact C.
  - intros c _ [].
  - intros c _ K. apply T. exact K.
Qed.
Lemma quiet_ostep lc o a b : quiet a b -> tT o (l_cur a) -> ostep lc o a b.
Proof.
  intros H C. eapply step_weak; [| | |apply (q_step _ _ H)].
  - intros c _ <-. exact C.
  - intros c _ [].
  - intros c _ [].
Qed.
Lemma set_ostep lc o b t st stk : inv st stk -> finished st b = false -> tT o b ->
  (forall c, In c (targets t) -> tP lc o c) -> ostep lc o st (set_term b t st).
Proof.
  intros I F B T. eapply step_weak; [| | |eapply set_term_step; eauto].
  - intros c _ <-. exact B.
  - intros c _ [].
  - intros c _ K. auto.
Qed.

Record sealedto (b : nat) (st st' : lst) : Prop := {
  z_inv : inv st' [];
  z_step : step no (eq b) no st st';
  z_sealed : forall c, l_sealed st' c = upf (l_sealed st) b true c;
  z_nb : l_nb st' = l_nb st;
  z_cur : l_cur st' = l_cur st;
  z_fin : forall c, finished st' c = finished st c }.
Lemma seal_step b st st' : inv st [] -> virgin st b \/ finished st b = true -> seal ord b st = Some st' ->
  sealedto b st st'.
Proof.
  intros I O H. assert (LT : b < l_nb st) by (destruct O as [O|O]; [apply O|eapply block_lt; eauto]).
  destruct (seal_spec _ _ _ ord_perm _ _ _ I LT H) as (I1 & R & S).
  assert (R' : rd no st st').
  { eapply rd_fin; [|exact R]. intros c [-> N]. destruct O as [O|O]; auto.
    destruct N. eapply virgin_inc; eauto. }
  constructor; auto; [|rewrite S; auto|apply (r_nb _ _ _ R)|apply (r_cur _ _ _ R)|intros c; eapply rd_finished; eauto].
  apply rd_step; auto. intros c N. rewrite S. upd; auto. congruence.
Qed.
Lemma seal_ostep lc o b st st' : sealedto b st st' -> tS o b -> ostep lc o st st'.
Proof.
  intros H C. eapply step_weak; [| | |apply (z_step _ _ _ H)].
  - intros c _ [].
  - intros c _ <-. exact C.
  - intros c _ [].
Qed.
Lemma nblk_virgin st b : virgin st b -> virgin (nblk st) b.
Proof. intros (L & R). split; [cbn; lia|exact R]. Qed.
Lemma switch_virgin c st b : virgin st b -> virgin (switch c st) b.
Proof. auto. Qed.
Lemma set_virgin b t st c : c <> b -> virgin st c -> virgin (set_term b t st) c.
Proof. intros N (L & F & R). split; auto. split; auto. unfold finished in *. cbn. upd; auto. congruence. Qed.
Lemma set_finished b t st : t <> TUnreachable -> finished (set_term b t st) b = true.
Proof. intros N. unfold finished; cbn. unfold upf. rewrite Nat.eqb_refl. destruct t; congruence. Qed.
Lemma set_unfinished b t st c : c <> b -> finished (set_term b t st) c = finished st c.
Proof. intros N. unfold finished; cbn. upd; auto. congruence. Qed.
Lemma still_refl st b : finished st b = false -> still st st b.
Proof. repeat split; auto. Qed.

(** Blocks made since [N] are sealed, but for [X]. *)
Definition sld (N : nat) (X : nat -> Prop) (st : lst) : Prop :=
  forall b, N <= b -> b < l_nb st -> ~ X b -> l_sealed st b = true.
Lemma sld_post N X lc a b : sld N X a -> post lc a b -> sld N X b.
Proof.
  intros H P c L1 L2 K. destruct (Nat.lt_ge_cases c (l_nb a)).
  - rewrite (s_sealed _ _ _ _ _ (o_step _ _ _ P)); auto.
  - apply (o_new _ _ _ P); auto.
Qed.
Lemma sld_quiet N X a b : sld N X a -> quiet a b -> sld N X b.
Proof.
  intros H P c L1 L2 K. rewrite (q_nb _ _ P) in L2. rewrite (s_sealed _ _ _ _ _ (q_step _ _ P)); auto.
Qed.
Lemma sld_seal N X a b s : sld N X a -> sealedto s a b -> sld N (fun c => X c /\ c <> s) b.
Proof.
  intros H P c L1 L2 K. rewrite (z_nb _ _ _ P) in L2. rewrite (z_sealed _ _ _ P). upd; auto.
Qed.
Lemma sld_new N X a : sld N X a -> sld N (fun c => X c \/ c = l_nb a) (nblk a).
Proof.
  intros H c L1 L2 K. apply (H c); auto. cbn in L2. destruct (Nat.eq_dec c (l_nb a)); [subst; tauto|lia].
Qed.
Lemma sld_weak N (X Y : nat -> Prop) a : (forall b, X b -> Y b) -> sld N X a -> sld N Y a.
Proof. intros W H c L1 L2 K. apply H; auto. Qed.

Lemma okt_ostep lc o s b : okt o b -> ostep lc o o s -> tT o (l_cur s) -> okt s b.
Proof.
  intros [L O] S C. pose proof (e_nb _ _ (s_ext _ _ _ _ _ S)). split; [lia|]. destruct O as [O|[O N]].
  - left. rewrite (s_sealed _ _ _ _ _ S); auto. unfold tS. lia.
  - right. split.
    + eapply step_virgin; eauto. unfold tT. intros [K|K]; [congruence|lia].
    + destruct C; [congruence|lia].
Qed.
Lemma new_facts st : inv st [] -> inv (nblk st) [] /\ virgin (nblk st) (l_nb st) /\ l_sealed (nblk st) (l_nb st) = false.
Proof.
  intros I. split; [apply new_block_inv; auto|]. destruct (new_block_virgin _ _ _ _ I) as (A & B & _). auto.
Qed.
Lemma virgin_open st b : virgin st b -> open_for st b.
Proof. intros (L & _ & _ & D). split; auto. right. intros x. apply D. Qed.
Lemma still_step T S P a b x : step T S P a b -> x < l_nb a -> ~ T x -> finished a x = false -> still a b x.
Proof. intros H. apply (s_still _ _ _ _ _ H). Qed.

Lemma step_refl T S P st stk : inv st stk -> step T S P st st.
Proof. intros I. constructor; auto. { apply ext_refl, (i_idem _ _ _ _ I). } intros b L N U. apply still_refl. auto. Qed.

(** Jumps from several blocks to one. *)
Lemma join_spec bm l : forall s, inv s [] -> NoDup l -> virgin s bm ->
  (forall f, In f l -> f < l_nb s /\ finished s f = false /\ f <> bm) ->
  let s' := fold_left (fun s f => set_term f (TJump bm) s) l s in
  inv s' [] /\ virgin s' bm /\ step (fun b => In b l) no (eq bm) s s' /\ l_nb s' = l_nb s /\ l_cur s' = l_cur s /\
  (forall c, l_sealed s' c = l_sealed s c) /\
  (forall f st0 F, In f l -> still st0 s f -> ext s' F -> ends F st0 f (TJump bm)).
Proof.
  induction l as [|f l IH]; intros s I ND VB H; cbn [fold_left].
  - cbv zeta. split; auto. split; auto. split; [eapply step_refl; eauto|]. split; auto. split; auto. split; auto.
    intros f st0 F [].
  - destruct (H f (or_introl eq_refl)) as (Lf & Uf & Nf). apply NoDup_cons_iff in ND. destruct ND as [NI ND].
    set (s1 := set_term f (TJump bm) s).
    assert (I1 : inv s1 []).
    { apply set_term_inv; auto; [discriminate|]. intros c [<-|[]]. apply virgin_open; auto. }
    assert (V1 : virgin s1 bm) by (apply set_virgin; auto).
    assert (H1 : forall g, In g l -> g < l_nb s1 /\ finished s1 g = false /\ g <> bm).
    { intros g G. destruct (H g (or_intror G)) as (A & B & C). split; auto. split; auto.
      unfold s1. rewrite set_unfinished; auto. intros ->. auto. }
    destruct (IH s1 I1 ND V1 H1) as (I2 & V2 & S2 & N2 & C2 & Z2 & E2). cbv zeta.
    assert (S1 : step (eq f) no (fun c => In c (targets (TJump bm))) s s1) by (eapply set_term_step; eauto).
    split; auto. split; auto. split; [|split; [auto|split; [auto|split; [auto|]]]].
    + eapply step_trans.
      * eapply step_weak; [| | |exact S1]; cbn; auto. intros b _ [K|[]]. exact K.
      * eapply step_weak; [| | |exact S2]; cbn; auto.
    + intros g st0 F G ST E. destruct G as [<-|G].
      * apply (ends_intro F st0 s f); auto; [discriminate|]. eapply ext_trans; [|exact E]. apply (s_ext _ _ _ _ _ S2).
      * apply (E2 g st0 F); auto. eapply still_trans; [apply (e_cls _ _ (s_ext _ _ _ _ _ S1))|exact ST|].
        destruct (H g (or_intror G)) as (A & B & C).
        apply (still_step _ _ _ _ _ _ S1); auto. intros ->. auto.
Qed.

Definition sok (c : stmt) : Prop := forall lc st st', pre lc st -> lower_stmt lc c st = Some st' -> post lc st st'.
(** A sub-statement that starts in a block of its own. *)
Definition part (F : lst) lc c (sa sa' : lst) : Prop :=
  pre lc sa /\ virgin sa (l_cur sa) /\ lower_stmt lc c sa = Some sa' /\ ext sa' F.

Lemma if_spec lc e a b st st' : type_of V sg e = Some TBool -> sok a -> sok b -> pre lc st ->
  lower_stmt lc (SIf e a b) st = Some st' ->
  post lc st st' /\ forall F, ext st' F -> exists v st1 sa st7 sb st8,
    lower_expr e st = Some (v, st1) /\ ext st1 F /\ ends F st1 (l_cur st1) (TIf v (l_cur sa) (l_cur sb)) /\
    part F lc a sa st7 /\ part F lc b sb st8 /\
    (finished st7 (l_cur st7) = false -> ends F st7 (l_cur st7) (TJump (l_cur st')) /\ virgin st' (l_cur st')) /\
    (finished st8 (l_cur st8) = false -> ends F st8 (l_cur st8) (TJump (l_cur st')) /\ virgin st' (l_cur st')).
Proof.
  intros TE OA OB [L OT] H. cbn [Lower.lower_stmt] in H.
  destruct (lower_expr e st) as [[v st1]|] eqn:E; [|discriminate].
  destruct (proj1 lower_expr_spec e _ _ _ _ TE L E) as (I1 & Q1 & _).
  pose proof (quiet_live _ _ L Q1 I1) as (_ & C1 & U1).
  rewrite new_block_eq in H. rewrite new_block_eq in H. cbv iota beta in H.
  set (bt := l_nb st1) in *. set (st2 := nblk st1) in *. set (be := l_nb st2) in *. set (st3 := nblk st2) in *.
  destruct (new_facts _ I1) as (I2 & V2 & _). destruct (new_facts _ I2) as (I3 & V3 & _).
  fold st2 bt in V2, I2. fold st3 be in V3, I3.
  assert (EB : be = S bt) by reflexivity.
  pose proof (q_nb _ _ Q1) as NB1. pose proof (q_cur _ _ Q1) as CU1. fold bt in NB1.
  unfold terminate in H. change (l_cur st3) with (l_cur st1) in H.
  change (finished st3 (l_cur st1)) with (finished st1 (l_cur st1)) in H. rewrite U1 in H. cbv iota in H.
  set (st4 := set_term (l_cur st1) (TIf v bt be) st3) in *.
  assert (N4 : l_nb st4 = S be) by reflexivity.
  assert (I4 : inv st4 []).
  { apply set_term_inv; auto; [cbn; lia|discriminate|]. intros c [<-|[<-|[]]]; apply virgin_open; auto.
    apply nblk_virgin; auto. }
  assert (VT4 : virgin st4 bt). { apply set_virgin; [lia|]. apply nblk_virgin. auto. }
  assert (VE4 : virgin st4 be). { apply set_virgin; [lia|]. auto. }
  destruct (seal ord bt st4) as [st5|] eqn:E5; [|discriminate].
  pose proof (seal_step _ _ _ I4 (or_introl VT4) E5) as Z5.
  assert (VE5 : virgin st5 be) by (apply (step_virgin _ _ _ _ _ _ (z_step _ _ _ Z5)); auto).
  assert (VT5 : virgin st5 bt) by (apply (step_virgin _ _ _ _ _ _ (z_step _ _ _ Z5)); auto).
  destruct (seal ord be st5) as [st6|] eqn:E6; [|discriminate].
  pose proof (seal_step _ _ _ (z_inv _ _ _ Z5) (or_introl VE5) E6) as Z6.
  assert (VE6 : virgin st6 be) by (apply (step_virgin _ _ _ _ _ _ (z_step _ _ _ Z6)); auto).
  assert (VT6 : virgin st6 bt) by (apply (step_virgin _ _ _ _ _ _ (z_step _ _ _ Z6)); auto).
  pose proof (z_inv _ _ _ Z6) as I6.
  assert (N6 : l_nb st6 = S be) by (rewrite (z_nb _ _ _ Z6), (z_nb _ _ _ Z5); exact N4).
  set (sa := switch bt st6) in *.
  assert (O1 : ostep lc st st st1) by (apply quiet_ostep; auto; left; auto).
  assert (O4 : ostep lc st st1 st4).
  { eapply step_trans; [eapply new_block_step; eauto|]. eapply step_trans; [eapply new_block_step; eauto|].
    eapply set_ostep; eauto; [left; auto|]. cbn. intros c [<-|[<-|[]]]; right; lia. }
  assert (Oa : ostep lc st st1 sa).
  { eapply step_trans; [exact O4|]. eapply step_trans; [apply (seal_ostep _ _ _ _ _ Z5); unfold tS; lia|].
    eapply step_trans; [apply (seal_ostep _ _ _ _ _ Z6); unfold tS; lia|]. eapply switch_step; eauto. }
  assert (PA : pre lc sa).
  { split; [split; [apply switch_inv; auto|split; [cbn; lia|apply VT6]]|].
    intros c T. eapply okt_ostep; [apply OT; auto|eapply step_trans; [exact O1|exact Oa]|]. right. cbn. lia. }
  destruct (lower_stmt lc a sa) as [st7|] eqn:E7; [|discriminate].
  pose proof (OA _ _ _ PA E7) as P7. pose proof (o_inv _ _ _ P7) as I7.
  assert (O7 : ostep lc st sa st7).
  { eapply post_ostep; eauto; [right; cbn; lia|]. intros t T. left. auto. }
  set (sb := switch be st7) in *.
  assert (VE7 : virgin st7 be).
  { apply (step_virgin _ _ _ _ _ be (o_step _ _ _ P7)); [exact VE6|]. cbn. lia. }
  assert (PB : pre lc sb).
  { split; [split; [apply switch_inv; auto|split; [apply VE7|apply VE7]]|].
    intros c T. eapply okt_ostep; [apply OT; auto|eapply step_trans; [exact O1|eapply step_trans; [exact Oa|eapply step_trans; [exact O7|eapply switch_step; eauto]]]|]. right. cbn. lia. }
  destruct (lower_stmt lc b sb) as [st8|] eqn:E8; [|discriminate].
  pose proof (OB _ _ _ PB E8) as P8. pose proof (o_inv _ _ _ P8) as I8.
  assert (O8 : ostep lc st st7 st8).
  { eapply step_trans; [eapply switch_step; eauto|]. eapply post_ostep; eauto; [right; cbn; lia|]. intros t T. left. auto. }
  assert (O18 : ostep lc st st st8).
  { eapply step_trans; [exact O1|]. eapply step_trans; [exact Oa|]. eapply step_trans; [exact O7|exact O8]. }
  assert (X48 : ext st4 st8).
  { eapply ext_trans; [apply (s_ext _ _ _ _ _ (z_step _ _ _ Z5))|]. eapply ext_trans; [apply (s_ext _ _ _ _ _ (z_step _ _ _ Z6))|].
    eapply ext_trans; [apply (s_ext _ _ _ _ _ (switch_step V ps no no no bt st6 _ I6))|].
    eapply ext_trans; [apply (s_ext _ _ _ _ _ O7)|apply (s_ext _ _ _ _ _ O8)]. }
  assert (X14 : ext st1 st4) by apply (s_ext _ _ _ _ _ O4).
  assert (X78 : ext st7 st8) by apply (s_ext _ _ _ _ _ O8).
  assert (LT6 : l_nb sa <= l_nb st7) by apply (e_nb _ _ (s_ext _ _ _ _ _ (o_step _ _ _ P7))).
  assert (LT7 : l_nb st7 <= l_nb st8) by apply (e_nb _ _ X78).
  change (l_nb sa) with (l_nb st6) in LT6.
  assert (C7 : l_cur st7 = bt \/ S be <= l_cur st7) by (rewrite <- N6; apply (o_cur _ _ _ P7)).
  assert (C8 : l_cur st8 = be \/ l_nb st7 <= l_cur st8) by apply (o_cur _ _ _ P8).
  assert (L7 : l_cur st7 < l_nb st7) by apply (o_lt _ _ _ P7).
  assert (L8 : l_cur st8 < l_nb st8) by apply (o_lt _ _ _ P8).
  assert (F4 : finished st4 (l_cur st) = true). { rewrite <- CU1. apply set_finished. discriminate. }
  assert (SL8 : sld (l_nb st) no st8).
  { eapply sld_post; [|exact P8]. change (sld (l_nb st) no st7). eapply sld_post; [|exact P7]. change (sld (l_nb st) no st6).
    assert (SL4 : sld (l_nb st) (fun c => (no c \/ c = bt) \/ c = be) st4).
    { apply (sld_new (l_nb st) (fun c => no c \/ c = bt) st2). apply (sld_new (l_nb st) no st1).
      intros c A B. unfold bt in *. lia. }
    eapply sld_weak; [|eapply sld_seal; [eapply sld_seal; [exact SL4|exact Z5]|exact Z6]].
    intros c. cbv beta. unfold no. tauto. }
  assert (CUR : l_cur st8 <> l_cur st) by lia.
  assert (ENDS1 : forall F, ext st8 F -> ends F st1 (l_cur st1) (TIf v bt be)).
  { intros F X. apply (ends_intro F st1 st3); auto; [discriminate|repeat split; auto|].
    eapply ext_trans; [exact X48|exact X]. }
  assert (D7 : finished st7 (l_cur st7) = false -> finished st8 (l_cur st7) = false /\ still st7 st8 (l_cur st7)).
  { intros U. assert (K : still sb st8 (l_cur st7)).
    { apply (still_step _ _ _ _ _ _ (o_step _ _ _ P8)); auto. cbn. lia. }
    split; [apply K|exact K]. }
  set (fins := (if finished st7 (l_cur st7) then [] else [l_cur st7]) ++ (if finished st8 (l_cur st8) then [] else [l_cur st8])) in *.
  assert (FI : forall f, In f fins <-> f = l_cur st7 /\ finished st7 (l_cur st7) = false \/ f = l_cur st8 /\ finished st8 (l_cur st8) = false).
  { intros f. unfold fins. rewrite in_app_iff. destruct (finished st7 (l_cur st7)), (finished st8 (l_cur st8)); cbn; intuition (auto; discriminate). }
  assert (ND : NoDup fins).
  { assert (l_cur st7 <> l_cur st8) by lia. unfold fins.
    destruct (finished st7 (l_cur st7)), (finished st8 (l_cur st8)); cbn; repeat constructor; cbn; intuition. }
  clearbody fins. destruct fins as [|f0 fr].
  - injection H as <-. split.
    + constructor; auto.
      * apply ostep_in. exact O18.
      * right. lia.
      * intros _. eapply ext_fin; [exact X48|exact F4].
    + intros F X. exists v, st1, sa, st7, sb, st8. split; auto.
      split; [eapply ext_trans; [exact X14|eapply ext_trans; [exact X48|exact X]]|]. split; [apply ENDS1; auto|].
      split; [split; [auto|split; [exact VT6|split; [auto|eapply ext_trans; [exact X78|exact X]]]]|].
      split; [split; [auto|split; [exact VE7|split; auto]]|].
      split; intros U; exfalso; [destruct (proj2 (FI (l_cur st7)))|destruct (proj2 (FI (l_cur st8)))]; auto.
  - rewrite new_block_eq in H. cbv iota beta in H. set (bm := l_nb st8) in *. set (st9 := nblk st8) in *.
    destruct (new_facts _ I8) as (I9 & V9 & _). fold st9 bm in I9, V9.
    assert (HF : forall f, In f (f0 :: fr) -> f < l_nb st9 /\ finished st9 f = false /\ f <> bm).
    { intros f IF. apply FI in IF. cbn. destruct IF as [[-> U]|[-> U]].
      - destruct (D7 U) as [U8 _]. split; [lia|]. split; [exact U8|unfold bm; lia].
      - split; [lia|]. split; [exact U|unfold bm; lia]. }
    destruct (join_spec bm (f0 :: fr) st9 I9 ND V9 HF) as (I9' & V9' & S9 & N9 & C9 & Z9 & E9).
    set (st9' := fold_left _ _ st9) in *.
    destruct (seal ord bm st9') as [st10|] eqn:E10; [|discriminate]. injection H as <-.
    pose proof (seal_step _ _ _ I9' (or_introl V9') E10) as Z10.
    assert (V10 : virgin st10 bm) by (apply (step_virgin _ _ _ _ _ _ (z_step _ _ _ Z10)); auto).
    assert (O9 : ostep lc st st8 st9').
    { eapply step_trans; [eapply new_block_step; eauto|]. eapply step_weak; [| | |exact S9].
      - intros c _ K. apply FI in K. destruct K as [[-> _]|[-> _]]; right; lia.
      - intros c _ [].
      - intros c _ <-. right. unfold bm. lia. }
    assert (O10 : ostep lc st st8 (switch bm st10)).
    { eapply step_trans; [exact O9|]. eapply step_trans; [apply (seal_ostep _ _ _ _ _ Z10); unfold tS, bm; lia|].
      eapply switch_step. apply (z_inv _ _ _ Z10). }
    assert (X8 : ext st8 (switch bm st10)) by apply (s_ext _ _ _ _ _ O10).
    assert (X9 : ext st9' (switch bm st10)).
    { eapply ext_trans; [apply (s_ext _ _ _ _ _ (z_step _ _ _ Z10))|].
      apply (s_ext _ _ _ _ _ (switch_step V ps no no no bm st10 _ (z_inv _ _ _ Z10))). }
    split.
    + constructor.
      * apply switch_inv. apply (z_inv _ _ _ Z10).
      * apply ostep_in. eapply step_trans; [exact O18|exact O10].
      * right. cbn. unfold bm. lia.
      * apply V10.
      * intros c A B. change (l_sealed st10 c = true). change (c < l_nb st10) in B.
        assert (K : sld (l_nb st) (fun c => (no c \/ c = bm) /\ c <> bm) st10).
        { eapply sld_seal; [|exact Z10]. intros d A' B' K'. rewrite Z9. rewrite N9 in B'.
          apply (sld_new _ _ _ SL8); auto. }
        apply K; auto. unfold no. tauto.
      * intros _. eapply ext_fin; [exact X8|]. eapply ext_fin; [exact X48|exact F4].
    + intros F X. exists v, st1, sa, st7, sb, st8. split; auto.
      assert (X8F : ext st8 F) by (eapply ext_trans; eauto).
      assert (X9F : ext st9' F) by (eapply ext_trans; eauto).
      split; [eapply ext_trans; [exact X14|eapply ext_trans; [exact X48|exact X8F]]|]. split; [apply ENDS1; auto|].
      split; [split; [auto|split; [exact VT6|split; [auto|eapply ext_trans; [exact X78|exact X8F]]]]|].
      split; [split; [auto|split; [exact VE7|split; auto]]|].
      split; intros U; (split; [|exact V10]); apply E9; auto.
      * apply FI. auto.
      * destruct (D7 U) as [_ K]. exact K.
      * apply FI. auto.
      * repeat split; auto.
Qed.

Lemma sealed_virgin b c st st' : sealedto b st st' -> virgin st c -> virgin st' c.
Proof. intros Z H. apply (step_virgin _ _ _ _ _ _ (z_step _ _ _ Z)); auto. Qed.
Lemma sealed_ext b st st' : sealedto b st st' -> ext st st'.
Proof. intros Z. apply (s_ext _ _ _ _ _ (z_step _ _ _ Z)). Qed.
Lemma switch_ext b st : inv st [] -> ext st (switch b st).
Proof. intros I. apply (s_ext _ _ _ _ _ (switch_step V ps no no no b st _ I)). Qed.
Lemma nblk_ext st : inv st [] -> ext st (nblk st).
Proof. intros I. apply (s_ext _ _ _ _ _ (new_block_step V ps no no no st _ I)). Qed.

Lemma if1_spec lc e a st st' : type_of V sg e = Some TBool -> sok a -> pre lc st ->
  lower_stmt lc (SIf1 e a) st = Some st' ->
  post lc st st' /\ forall F, ext st' F -> exists v st1 sa st7,
    lower_expr e st = Some (v, st1) /\ ext st1 F /\ ends F st1 (l_cur st1) (TIf v (l_cur sa) (l_cur st')) /\
    part F lc a sa st7 /\ virgin st' (l_cur st') /\
    (finished st7 (l_cur st7) = false -> ends F st7 (l_cur st7) (TJump (l_cur st'))).
Proof.
  intros TE OA [L OT] H. cbn [Lower.lower_stmt] in H.
  destruct (lower_expr e st) as [[v st1]|] eqn:E; [|discriminate].
  destruct (proj1 lower_expr_spec e _ _ _ _ TE L E) as (I1 & Q1 & _).
  pose proof (quiet_live _ _ L Q1 I1) as (_ & C1 & U1).
  rewrite new_block_eq in H. rewrite new_block_eq in H. cbv iota beta in H.
  set (bt := l_nb st1) in *. set (st2 := nblk st1) in *. set (be := l_nb st2) in *. set (st3 := nblk st2) in *.
  destruct (new_facts _ I1) as (I2 & V2 & _). destruct (new_facts _ I2) as (I3 & V3 & _).
  fold st2 bt in V2, I2. fold st3 be in V3, I3.
  assert (EB : be = S bt) by reflexivity.
  pose proof (q_nb _ _ Q1) as NB1. pose proof (q_cur _ _ Q1) as CU1. fold bt in NB1.
  unfold terminate in H. change (l_cur st3) with (l_cur st1) in H.
  change (finished st3 (l_cur st1)) with (finished st1 (l_cur st1)) in H. rewrite U1 in H. cbv iota in H.
  set (st4 := set_term (l_cur st1) (TIf v bt be) st3) in *.
  assert (N4 : l_nb st4 = S be) by reflexivity.
  assert (I4 : inv st4 []).
  { apply set_term_inv; auto; [cbn; lia|discriminate|]. intros c [<-|[<-|[]]]; apply virgin_open; auto.
    apply nblk_virgin; auto. }
  assert (VT4 : virgin st4 bt). { apply set_virgin; [lia|]. apply nblk_virgin. auto. }
  assert (VE4 : virgin st4 be). { apply set_virgin; [lia|]. auto. }
  destruct (seal ord bt st4) as [st5|] eqn:E5; [|discriminate].
  pose proof (seal_step _ _ _ I4 (or_introl VT4) E5) as Z5.
  pose proof (sealed_virgin _ _ _ _ Z5 VE4) as VE5. pose proof (sealed_virgin _ _ _ _ Z5 VT4) as VT5.
  destruct (seal ord be st5) as [st6|] eqn:E6; [|discriminate].
  pose proof (seal_step _ _ _ (z_inv _ _ _ Z5) (or_introl VE5) E6) as Z6.
  pose proof (sealed_virgin _ _ _ _ Z6 VE5) as VE6. pose proof (sealed_virgin _ _ _ _ Z6 VT5) as VT6.
  pose proof (z_inv _ _ _ Z6) as I6.
  assert (N6 : l_nb st6 = S be) by (rewrite (z_nb _ _ _ Z6), (z_nb _ _ _ Z5); exact N4).
  set (sa := switch bt st6) in *.
  assert (O1 : ostep lc st st st1) by (apply quiet_ostep; auto; left; auto).
  assert (O4 : ostep lc st st1 st4).
  { eapply step_trans; [eapply new_block_step; eauto|]. eapply step_trans; [eapply new_block_step; eauto|].
    eapply set_ostep; eauto; [left; auto|]. cbn. intros c [<-|[<-|[]]]; right; lia. }
  assert (Oa : ostep lc st st1 sa).
  { eapply step_trans; [exact O4|]. eapply step_trans; [apply (seal_ostep _ _ _ _ _ Z5); unfold tS; lia|].
    eapply step_trans; [apply (seal_ostep _ _ _ _ _ Z6); unfold tS; lia|]. eapply switch_step; eauto. }
  assert (PA : pre lc sa).
  { split; [split; [apply switch_inv; auto|split; [cbn; lia|apply VT6]]|].
    intros c T. eapply okt_ostep; [apply OT; auto|eapply step_trans; [exact O1|exact Oa]|]. right. cbn. lia. }
  destruct (lower_stmt lc a sa) as [st7|] eqn:E7; [|discriminate].
  pose proof (OA _ _ _ PA E7) as P7. pose proof (o_inv _ _ _ P7) as I7.
  assert (O7 : ostep lc st sa st7).
  { eapply post_ostep; eauto; [right; cbn; lia|]. intros t T. left. auto. }
  assert (VE7 : virgin st7 be).
  { apply (step_virgin _ _ _ _ _ be (o_step _ _ _ P7)); [exact VE6|]. cbn. lia. }
  assert (O17 : ostep lc st st st7).
  { eapply step_trans; [exact O1|]. eapply step_trans; [exact Oa|exact O7]. }
  assert (X47 : ext st4 st7).
  { eapply ext_trans; [apply (sealed_ext _ _ _ Z5)|]. eapply ext_trans; [apply (sealed_ext _ _ _ Z6)|].
    eapply ext_trans; [apply (switch_ext bt st6 I6)|]. apply (s_ext _ _ _ _ _ O7). }
  assert (X14 : ext st1 st4) by apply (s_ext _ _ _ _ _ O4).
  assert (LT6 : l_nb st6 <= l_nb st7) by apply (e_nb _ _ (s_ext _ _ _ _ _ (o_step _ _ _ P7))).
  assert (C7 : l_cur st7 = bt \/ S be <= l_cur st7) by (rewrite <- N6; apply (o_cur _ _ _ P7)).
  assert (L7 : l_cur st7 < l_nb st7) by apply (o_lt _ _ _ P7).
  assert (F4 : finished st4 (l_cur st) = true). { rewrite <- CU1. apply set_finished. discriminate. }
  assert (SL7 : sld (l_nb st) no st7).
  { eapply sld_post; [|exact P7]. change (sld (l_nb st) no st6).
    assert (SL4 : sld (l_nb st) (fun c => (no c \/ c = bt) \/ c = be) st4).
    { apply (sld_new (l_nb st) (fun c => no c \/ c = bt) st2). apply (sld_new (l_nb st) no st1).
      intros c A B. unfold bt in *. lia. }
    eapply sld_weak; [|eapply sld_seal; [eapply sld_seal; [exact SL4|exact Z5]|exact Z6]].
    intros c. cbv beta. unfold no. tauto. }
  assert (ENDS1 : forall F, ext st7 F -> ends F st1 (l_cur st1) (TIf v bt be)).
  { intros F X. apply (ends_intro F st1 st3); auto; [discriminate|repeat split; auto|].
    eapply ext_trans; [exact X47|exact X]. }
  set (st8 := switch be st7) in *.
  assert (I8 : inv st8 []) by (apply switch_inv; auto).
  assert (G : ostep lc st st7 st' /\ inv st' [] /\ virgin st' be /\ l_cur st' = be /\ l_nb st' = l_nb st7 /\ l_sealed st' = l_sealed st7 /\
     (finished st7 (l_cur st7) = false -> forall F, ext st' F -> ends F st7 (l_cur st7) (TJump be))).
  { destruct (finished st7 (l_cur st7)) eqn:U7; injection H as <-.
    - split; [eapply switch_step; eauto|]. split; auto. split; auto. split; auto. split; auto. split; auto. discriminate.
    - assert (I9 : inv (set_term (l_cur st7) (TJump be) st8) []).
      { apply set_term_inv; auto; [discriminate|]. intros c [<-|[]]. apply virgin_open. exact VE7. }
      split; [|split; [auto|split; [|split; [auto|split; [auto|split; [auto|]]]]]].
      + eapply step_trans; [eapply switch_step; eauto|]. eapply set_ostep; eauto; [right; lia|].
        intros c [<-|[]]. right. lia.
      + apply set_virgin; [lia|exact VE7].
      + intros _ F X. apply (ends_intro F st7 st8); auto; [discriminate|repeat split; auto]. }
  destruct G as (O8 & I' & V' & C' & N' & S' & EN').
  assert (X8 : ext st7 st') by apply (s_ext _ _ _ _ _ O8).
  split.
  - constructor; auto.
    + apply ostep_in. eapply step_trans; [exact O17|exact O8].
    + right. lia.
    + rewrite C'. apply V'.
    + intros c A B. rewrite S'. rewrite N' in B. apply SL7; auto.
    + intros _. eapply ext_fin; [exact X8|]. eapply ext_fin; [exact X47|exact F4].
  - intros F X. exists v, st1, sa, st7. rewrite C'. split; auto.
    assert (X7F : ext st7 F) by (eapply ext_trans; eauto).
    split; [eapply ext_trans; [exact X14|eapply ext_trans; [exact X47|exact X7F]]|].
    split; [apply ENDS1; auto|].
    split; [split; [auto|split; [exact VT6|split; auto]]|]. split; [exact V'|]. intros U. apply EN'; auto.
Qed.

(** The body of a loop, and the jump back. *)
Lemma body_spec lc o h x c sb st9 st10 back : sok c -> inv sb [] -> virgin sb (l_cur sb) ->
  l_nb o <= l_cur sb -> l_nb o <= h -> l_nb o <= x -> l_nb o <= back ->
  okt sb h -> okt sb x -> okt sb back ->
  lower_stmt (Some (h, x)) c sb = Some st9 ->
  (if finished st9 (l_cur st9) then Some st9 else terminate (TJump back) st9) = Some st10 ->
  pre (Some (h, x)) sb /\ post (Some (h, x)) sb st9 /\ ostep lc o sb st10 /\ inv st10 [] /\ l_nb st10 = l_nb st9 /\
  (forall b, l_sealed st10 b = l_sealed st9 b) /\
  ext st9 st10 /\ l_cur st10 = l_cur st9 /\ finished st10 (l_cur st10) = true /\
  (forall b, virgin sb b -> b <> l_cur sb -> virgin st10 b) /\
  (finished st9 (l_cur st9) = false -> forall F, ext st10 F -> ends F st9 (l_cur st9) (TJump back)).
Proof.
  intros OC I V0 LB LH LX LK TH TX TK E9 E10.
  assert (P0 : pre (Some (h, x)) sb).
  { split; [split; [auto|split; [apply V0|apply V0]]|]. intros b (h' & x' & [= <- <-] & [->| ->]); auto. }
  pose proof (OC _ _ _ P0 E9) as P9. pose proof (o_inv _ _ _ P9) as I9.
  assert (O9 : ostep lc o sb st9).
  { eapply post_ostep; eauto; [right; auto|]. intros t (h' & x' & [= <- <-] & [->| ->]); right; auto. }
  assert (LT9 : l_nb sb <= l_nb st9) by apply (e_nb _ _ (s_ext _ _ _ _ _ O9)).
  assert (V9 : forall b, virgin sb b -> b <> l_cur sb -> virgin st9 b /\ b <> l_cur st9).
  { intros b H N. split; [eapply step_virgin; [apply (o_step _ _ _ P9)|auto|auto]|].
    destruct (o_cur _ _ _ P9); [congruence|]. destruct H. lia. }
  assert (TC : tT o (l_cur st9)). { destruct (o_cur _ _ _ P9) as [->|K]; [right; auto|]. right. destruct V0. lia. }
  split; auto. split; auto.
  destruct (finished st9 (l_cur st9)) eqn:U9.
  - injection E10 as <-. split; auto. split; auto. split; auto. split; auto.
    split; [apply ext_refl, (i_idem _ _ _ _ I9)|]. split; auto. split; auto. split; [|discriminate].
    intros b H N. apply V9; auto.
  - unfold terminate in E10. rewrite U9 in E10. injection E10 as <-.
    assert (TK9 : okt st9 back).
    { eapply okt_step; [apply (o_step _ _ _ P9)|apply (o_cur _ _ _ P9)|exact TK]. }
    assert (I10 : inv (set_term (l_cur st9) (TJump back) st9) []).
    { apply set_term_inv; auto; [apply (o_lt _ _ _ P9)|discriminate|]. intros c' [<-|[]]. apply okt_open. exact TK9. }
    assert (O10 : ostep lc o st9 (set_term (l_cur st9) (TJump back) st9)).
    { eapply set_ostep; eauto. intros c' [<-|[]]. right. auto. }
    split; [eapply step_trans; [exact O9|exact O10]|]. split; auto. split; auto. split; auto.
    split; [apply (s_ext _ _ _ _ _ O10)|]. split; auto. split; [apply set_finished; discriminate|]. split.
    + intros b H N. destruct (V9 b H N). apply set_virgin; auto.
    + intros _ F X. apply (ends_intro F st9 st9); auto; [discriminate|apply still_refl; auto].
Qed.

Lemma while_spec lc e c st st' : type_of V sg e = Some TBool -> sok c -> pre lc st ->
  lower_stmt lc (SWhile e c) st = Some st' ->
  post lc st st' /\ forall F, ext st' F -> exists v sh st5 sb st9,
    ends F st (l_cur st) (TJump (l_cur sh)) /\ live sh /\ virgin sh (l_cur sh) /\
    lower_expr e sh = Some (v, st5) /\ ext st5 F /\ ends F st5 (l_cur sh) (TIf v (l_cur sb) (l_cur st')) /\
    part F (Some (l_cur sh, l_cur st')) c sb st9 /\ virgin st' (l_cur st') /\
    (finished st9 (l_cur st9) = false -> ends F st9 (l_cur st9) (TJump (l_cur sh))).
Proof.
  intros TE OC [L OT] H. cbn [Lower.lower_stmt] in H. destruct L as (I & C & U).
  rewrite new_block_eq in H. cbv iota beta in H. rewrite new_block_eq in H. cbv iota beta in H. rewrite new_block_eq in H. cbv iota beta in H.
  set (bh := l_nb st) in *. set (st1 := nblk st) in *.
  set (bb := l_nb st1) in *. set (st2 := nblk st1) in *.
  set (bx := l_nb st2) in *. set (st3 := nblk st2) in *.
  destruct (new_facts _ I) as (I1 & V1 & Z1). destruct (new_facts _ I1) as (I2 & V2 & _). destruct (new_facts _ I2) as (I3 & V3 & _).
  fold st1 bh in V1, I1, Z1. fold st2 bb in V2, I2. fold st3 bx in V3, I3.
  assert (EB : bb = S bh) by reflexivity. assert (EX : bx = S bb) by reflexivity.
  unfold terminate in H at 1. change (l_cur st3) with (l_cur st) in H.
  change (finished st3 (l_cur st)) with (finished st (l_cur st)) in H. rewrite U in H. cbv iota in H.
  set (st4 := set_term (l_cur st) (TJump bh) st3) in *.
  assert (VH3 : virgin st3 bh) by (do 2 apply nblk_virgin; auto).
  assert (VB3 : virgin st3 bb) by (apply nblk_virgin; auto).
  assert (I4 : inv st4 []).
  { apply set_term_inv; auto; [cbn; lia|discriminate|]. intros d [<-|[]]. apply virgin_open; auto. }
  set (sh := switch bh st4) in *. assert (Ih : inv sh []) by (apply switch_inv; auto).
  assert (VH : virgin sh bh) by (apply (set_virgin (l_cur st) (TJump bh) st3); [lia|auto]).
  assert (VB : virgin sh bb) by (apply (set_virgin (l_cur st) (TJump bh) st3); [lia|auto]).
  assert (VX : virgin sh bx) by (apply (set_virgin (l_cur st) (TJump bh) st3); [lia|auto]).
  assert (Lh : live sh) by (split; [auto|split; apply VH]).
  assert (O4 : ostep lc st st sh).
  { eapply step_trans; [eapply new_block_step; eauto|]. eapply step_trans; [eapply new_block_step; eauto|].
    eapply step_trans; [eapply new_block_step; eauto|]. eapply step_trans; [|eapply switch_step; eauto].
    eapply set_ostep; eauto; [left; auto|]. intros d [<-|[]]. right. unfold bh. lia. }
  destruct (lower_expr e sh) as [[v st5]|] eqn:E5; [|discriminate].
  destruct (proj1 lower_expr_spec e _ _ _ _ TE Lh E5) as (I5 & Q5 & _).
  pose proof (quiet_live _ _ Lh Q5 I5) as (_ & C5 & U5).
  assert (CU5 : l_cur st5 = bh) by (rewrite (q_cur _ _ Q5); reflexivity).
  assert (N5 : l_nb st5 = S bx) by (rewrite (q_nb _ _ Q5); reflexivity).
  assert (VB5 : virgin st5 bb) by (apply (step_virgin _ _ _ _ _ _ (q_step _ _ Q5)); [auto|cbn; lia]).
  assert (VX5 : virgin st5 bx) by (apply (step_virgin _ _ _ _ _ _ (q_step _ _ Q5)); [auto|cbn; lia]).
  unfold terminate in H at 1. rewrite U5, CU5 in H. cbv iota in H.
  set (st6 := set_term bh (TIf v bb bx) st5) in *.
  rewrite CU5 in C5, U5.
  assert (I6 : inv st6 []).
  { apply set_term_inv; auto; [discriminate|]. intros d [<-|[<-|[]]]; apply virgin_open; auto. }
  assert (VB6 : virgin st6 bb) by (apply set_virgin; [lia|auto]).
  assert (VX6 : virgin st6 bx) by (apply set_virgin; [lia|auto]).
  destruct (seal ord bb st6) as [st7|] eqn:E7; [|discriminate].
  pose proof (seal_step _ _ _ I6 (or_introl VB6) E7) as Z7. pose proof (z_inv _ _ _ Z7) as I7.
  pose proof (sealed_virgin _ _ _ _ Z7 VB6) as VB7. pose proof (sealed_virgin _ _ _ _ Z7 VX6) as VX7.
  destruct (seal ord bx st7) as [st8|] eqn:E8; [|discriminate].
  pose proof (seal_step _ _ _ I7 (or_introl VX7) E8) as Z8. pose proof (z_inv _ _ _ Z8) as I8.
  pose proof (sealed_virgin _ _ _ _ Z8 VB7) as VB8. pose proof (sealed_virgin _ _ _ _ Z8 VX7) as VX8.
  assert (N8 : l_nb st8 = S bx) by (rewrite (z_nb _ _ _ Z8), (z_nb _ _ _ Z7); exact N5).
  set (sb := switch bb st8) in *. assert (Ib : inv sb []) by (apply switch_inv; auto).
  assert (SH : l_sealed sb bh = false).
  { change (l_sealed st8 bh = false). rewrite (z_sealed _ _ _ Z8), (upf_ne _ _ _ bh) by lia.
    rewrite (z_sealed _ _ _ Z7), (upf_ne _ _ _ bh) by lia. change (l_sealed st5 bh = false).
    rewrite (s_sealed _ _ _ _ _ (q_step _ _ Q5)); [exact Z1|apply VH|intros []]. }
  assert (O8 : ostep lc st sh sb).
  { eapply step_trans; [apply quiet_ostep; [exact Q5|right; cbn; unfold bh; lia]|].
    eapply step_trans; [eapply (set_ostep _ _ bh (TIf v bb bx)); eauto; [right; unfold bh; lia|intros d [<-|[<-|[]]]; right; lia]|].
    eapply step_trans; [apply (seal_ostep _ _ _ _ _ Z7); unfold tS; lia|].
    eapply step_trans; [apply (seal_ostep _ _ _ _ _ Z8); unfold tS; lia|]. eapply switch_step; eauto. }
  destruct (lower_stmt (Some (bh, bx)) c sb) as [st9|] eqn:E9; [|discriminate].
  destruct (if finished st9 (l_cur st9) then _ else _) as [st10|] eqn:E10; [|discriminate].
  assert (TH : okt sb bh) by (split; [cbn; lia|left; exact SH]).
  assert (TX : okt sb bx) by (split; [cbn; lia|right; split; [exact VX8|cbn; lia]]).
  destruct (body_spec lc st bh bx c sb st9 st10 bh OC Ib VB8 ltac:(cbn; lia) ltac:(unfold bh; lia) ltac:(lia) ltac:(unfold bh; lia) TH TX TH E9 E10)
    as (P9 & Q9 & O10 & I10 & N10 & S10 & X910 & C10 & F10 & V10 & EN10).
  assert (VX10 : virgin st10 bx) by (apply V10; [exact VX8|cbn; lia]).
  assert (X6b : ext st6 sb).
  { eapply ext_trans; [apply (sealed_ext _ _ _ Z7)|]. eapply ext_trans; [apply (sealed_ext _ _ _ Z8)|]. apply switch_ext; auto. }
  assert (Xb10 : ext sb st10) by apply (s_ext _ _ _ _ _ O10).
  assert (F6 : finished st6 bh = true) by (apply set_finished; discriminate).
  assert (FH : finished st10 bh = true) by (eapply ext_fin; [exact Xb10|]; eapply ext_fin; [exact X6b|exact F6]).
  destruct (seal ord bh st10) as [st11|] eqn:E11; [|discriminate]. injection H as <-.
  pose proof (seal_step _ _ _ I10 (or_intror FH) E11) as Z11. pose proof (z_inv _ _ _ Z11) as I11.
  pose proof (sealed_virgin _ _ _ _ Z11 VX10) as VX11.
  assert (O11 : ostep lc st st10 (switch bx st11)).
  { eapply step_trans; [apply (seal_ostep _ _ _ _ _ Z11); unfold tS, bh; lia|]. eapply switch_step; eauto. }
  assert (X10 : ext st10 (switch bx st11)) by apply (s_ext _ _ _ _ _ O11).
  split.
  - constructor.
    + apply switch_inv; auto.
    + apply ostep_in. eapply step_trans; [exact O4|]. eapply step_trans; [exact O8|]. eapply step_trans; [exact O10|exact O11].
    + right. cbn. lia.
    + apply VX11.
    + intros d A B. change (l_sealed st11 d = true). change (d < l_nb st11) in B. 
      assert (S3 : sld (l_nb st) (fun c => ((no c \/ c = bh) \/ c = bb) \/ c = bx) sh).
      { apply (sld_new (l_nb st) (fun c => (no c \/ c = bh) \/ c = bb) st2). apply (sld_new (l_nb st) (fun c => no c \/ c = bh) st1).
        apply (sld_new (l_nb st) no st). intros a1 a2 a3. lia. }
      pose proof (sld_quiet _ _ _ _ S3 Q5) as S5. change (sld (l_nb st) (fun c => ((no c \/ c = bh) \/ c = bb) \/ c = bx) st6) in S5.
      pose proof (sld_seal _ _ _ _ _ (sld_seal _ _ _ _ _ S5 Z7) Z8) as S8. cbv beta in S8.
      pose proof (sld_post _ _ (Some (bh, bx)) sb st9 S8 Q9) as S9.
      assert (S10' : sld (l_nb st) (fun c => (((((no c \/ c = bh) \/ c = bb) \/ c = bx) /\ c <> bb) /\ c <> bx)) st10).
      { intros a1 a2 a3 a4. rewrite S10. apply S9; auto. congruence. }
      apply (sld_seal _ _ _ _ _ S10' Z11); auto. unfold no. tauto.
    + intros _. eapply ext_fin; [exact X10|]. eapply ext_fin; [exact Xb10|]. eapply ext_fin; [apply (s_ext _ _ _ _ _ O8)|].
      apply (set_finished (l_cur st) (TJump bh) st3). discriminate.
  - intros F X. exists v, sh, st5, sb, st9.
    assert (X10F : ext st10 F) by (eapply ext_trans; eauto).
    assert (XbF : ext sb F) by (eapply ext_trans; eauto).
    assert (X6F : ext st6 F) by (eapply ext_trans; eauto).
    assert (X5F : ext st5 F).
    { eapply ext_trans; [|exact X6F]. apply (s_ext _ _ _ _ _ (set_term_step V ps bh (TIf v bb bx) st5 _ I5 U5)). }
    split.
    { apply (ends_intro F st st3); auto; [discriminate|repeat split; auto|].
      eapply ext_trans; [|exact X5F]. eapply ext_trans; [apply (switch_ext bh st4 I4)|]. apply (s_ext _ _ _ _ _ (q_step _ _ Q5)). }
    split; auto. split; [exact VH|]. split; [exact E5|]. split; [exact X5F|]. split.
    { apply (ends_intro F st5 st5); auto; [discriminate|]. apply still_refl. auto. }
    split; [split; [exact P9|split; [exact VB8|split; [exact E9|eapply ext_trans; eauto]]]|].
    split; [exact VX11|]. intros U9. apply EN10; auto.
Qed.

Lemma loop_spec lc c st st' : sok c -> pre lc st ->
  lower_stmt lc (SLoop c) st = Some st' ->
  post lc st st' /\ forall F, ext st' F -> exists sb st5,
    ends F st (l_cur st) (TJump (l_cur sb)) /\
    part F (Some (l_cur sb, l_cur st')) c sb st5 /\ virgin st' (l_cur st') /\
    (finished st5 (l_cur st5) = false -> ends F st5 (l_cur st5) (TJump (l_cur sb))).
Proof.
  intros OC [L OT] H. cbn [Lower.lower_stmt] in H. destruct L as (I & C & U).
  rewrite new_block_eq in H. cbv iota beta in H. rewrite new_block_eq in H. cbv iota beta in H.
  set (bb := l_nb st) in *. set (st1 := nblk st) in *. set (bx := l_nb st1) in *. set (st2 := nblk st1) in *.
  destruct (new_facts _ I) as (I1 & V1 & Z1). destruct (new_facts _ I1) as (I2 & V2 & _).
  fold st1 bb in V1, I1, Z1. fold st2 bx in V2, I2.
  assert (EX : bx = S bb) by reflexivity.
  unfold terminate in H at 1. change (l_cur st2) with (l_cur st) in H.
  change (finished st2 (l_cur st)) with (finished st (l_cur st)) in H. rewrite U in H. cbv iota in H.
  set (st3 := set_term (l_cur st) (TJump bb) st2) in *.
  assert (VB2 : virgin st2 bb) by (apply nblk_virgin; auto).
  assert (I3 : inv st3 []).
  { apply set_term_inv; auto; [cbn; lia|discriminate|]. intros d [<-|[]]. apply virgin_open; auto. }
  assert (VB3 : virgin st3 bb) by (apply set_virgin; [lia|auto]).
  assert (VX3 : virgin st3 bx) by (apply set_virgin; [lia|auto]).
  assert (O3 : ostep lc st st st3).
  { eapply step_trans; [eapply new_block_step; eauto|]. eapply step_trans; [eapply new_block_step; eauto|].
    eapply set_ostep; eauto; [left; auto|]. intros d [<-|[]]. right. unfold bb. lia. }
  destruct (seal ord bx st3) as [st4|] eqn:E4; [|discriminate].
  pose proof (seal_step _ _ _ I3 (or_introl VX3) E4) as Z4. pose proof (z_inv _ _ _ Z4) as I4.
  pose proof (sealed_virgin _ _ _ _ Z4 VB3) as VB4. pose proof (sealed_virgin _ _ _ _ Z4 VX3) as VX4.
  assert (N4 : l_nb st4 = S bx) by (rewrite (z_nb _ _ _ Z4); reflexivity).
  set (sb := switch bb st4) in *. assert (Ib : inv sb []) by (apply switch_inv; auto).
  assert (SH : l_sealed sb bb = false).
  { change (l_sealed st4 bb = false). rewrite (z_sealed _ _ _ Z4), (upf_ne _ _ _ bb) by lia. exact Z1. }
  assert (O4 : ostep lc st st3 sb).
  { eapply step_trans; [apply (seal_ostep _ _ _ _ _ Z4); unfold tS; lia|]. eapply switch_step; eauto. }
  destruct (lower_stmt (Some (bb, bx)) c sb) as [st5|] eqn:E5; [|discriminate].
  destruct (if finished st5 (l_cur st5) then _ else _) as [st6|] eqn:E6; [|discriminate].
  assert (TH : okt sb bb) by (split; [cbn; lia|left; exact SH]).
  assert (TX : okt sb bx) by (split; [cbn; lia|right; split; [exact VX4|cbn; lia]]).
  destruct (body_spec lc st bb bx c sb st5 st6 bb OC Ib VB4 ltac:(cbn; lia) ltac:(unfold bb; lia) ltac:(lia) ltac:(unfold bb; lia) TH TX TH E5 E6)
    as (P5 & Q5 & O6 & I6 & N6 & S6 & X56 & C6 & F6 & V6 & EN6).
  assert (VX6 : virgin st6 bx) by (apply V6; [exact VX4|cbn; lia]).
  assert (Xb6 : ext sb st6) by apply (s_ext _ _ _ _ _ O6).
  assert (X3b : ext st3 sb) by apply (s_ext _ _ _ _ _ O4).
  assert (FH : finished st6 bb = true).
  { destruct (Nat.eq_dec (l_cur st5) bb) as [K|K].
    - rewrite <- C6 in K. rewrite <- K. exact F6.
    - eapply ext_fin; [exact X56|]. apply (o_moved _ _ _ Q5). exact K. }
  destruct (seal ord bb st6) as [st7|] eqn:E7; [|discriminate]. injection H as <-.
  pose proof (seal_step _ _ _ I6 (or_intror FH) E7) as Z7. pose proof (z_inv _ _ _ Z7) as I7.
  pose proof (sealed_virgin _ _ _ _ Z7 VX6) as VX7.
  assert (O7 : ostep lc st st6 (switch bx st7)).
  { eapply step_trans; [apply (seal_ostep _ _ _ _ _ Z7); unfold tS, bb; lia|]. eapply switch_step; eauto. }
  assert (X7 : ext st6 (switch bx st7)) by apply (s_ext _ _ _ _ _ O7).
  split.
  - constructor.
    + apply switch_inv; auto.
    + apply ostep_in. eapply step_trans; [exact O3|]. eapply step_trans; [exact O4|]. eapply step_trans; [exact O6|exact O7].
    + right. cbn. lia.
    + apply VX7.
    + intros d A B. change (l_sealed st7 d = true). change (d < l_nb st7) in B.
      assert (S3 : sld (l_nb st) (fun c => (no c \/ c = bb) \/ c = bx) st3).
      { apply (sld_new (l_nb st) (fun c => no c \/ c = bb) st1). 
        apply (sld_new (l_nb st) no st). intros a1 a2 a3. lia. }
      pose proof (sld_seal _ _ _ _ _ S3 Z4) as S4. cbv beta in S4.
      pose proof (sld_post _ _ (Some (bb, bx)) sb st5 S4 Q5) as S5.
      assert (S6' : sld (l_nb st) (fun c => ((no c \/ c = bb) \/ c = bx) /\ c <> bx) st6).
      { intros a1 a2 a3 a4. rewrite S6. apply S5; auto. congruence. }
      apply (sld_seal _ _ _ _ _ S6' Z7); auto. unfold no. tauto.
    + intros _. eapply ext_fin; [exact X7|]. eapply ext_fin; [exact Xb6|]. eapply ext_fin; [exact X3b|].
      apply (set_finished (l_cur st) (TJump bb) st2). discriminate.
  - intros F X. exists sb, st5.
    assert (X6F : ext st6 F) by (eapply ext_trans; eauto).
    split.
    { apply (ends_intro F st st2); auto; [discriminate|repeat split; auto|].
      eapply ext_trans; [exact X3b|]. eapply ext_trans; [exact Xb6|exact X6F]. }
    split; [split; [exact P5|split; [exact VB4|split; [exact E5|eapply ext_trans; eauto]]]|].
    split; [exact VX7|]. intros U5. apply EN6; auto.
Qed.

(** Statements that stay in their block. *)
Lemma simple_lc c lc lc' st : simple c = true -> lower_stmt lc c st = lower_stmt lc' c st.
Proof. destruct c; cbn [simple]; try discriminate; reflexivity. Qed.
Lemma has_type_ok D e t : has_type V sg D e t = true -> type_of V sg e = Some t.
Proof.
  unfold has_type. intros H. apply andb_true_iff in H. destruct H as [_ H].
  destruct (type_of V sg e) as [u|]; [|discriminate]. apply ty_eqb_eq in H. congruence.
Qed.
Lemma simple_spec lc D D' c st st' : simple c = true -> typed V sg ret D c = Some D' -> live st ->
  lower_stmt lc c st = Some st' -> inv st' [] /\ quiet st st'.
Proof.
  intros SM T L H. destruct c; try discriminate SM; cbn [Lower.lower_stmt typed] in *.
  - destruct (has_type V sg D e (V x)) eqn:HT; [|discriminate]. apply has_type_ok in HT.
    destruct (lower_expr e st) as [[v st1]|] eqn:E; [|discriminate].
    destruct (proj1 lower_expr_spec e _ _ _ _ HT L E) as (I1 & Q1 & TY).
    destruct (bind_var_spec x v st1 st' (quiet_live _ _ L Q1 I1) TY H) as (I2 & Q2).
    split; auto. eapply quiet_trans; eauto.
  - destruct (mem_nat x D && has_type V sg D e (V x)) eqn:HT; [|discriminate].
    apply andb_true_iff in HT. destruct HT as [_ HT]. apply has_type_ok in HT.
    destruct (lower_expr e st) as [[v st1]|] eqn:E; [|discriminate].
    destruct (proj1 lower_expr_spec e _ _ _ _ HT L E) as (I1 & Q1 & TY).
    destruct (bind_var_spec x v st1 st' (quiet_live _ _ L Q1 I1) TY H) as (I2 & Q2).
    split; auto. eapply quiet_trans; eauto.
  - destruct (nth_error sg f) as [[ts [t|]]|] eqn:NE; try discriminate.
    destruct (scoped_args D args && types_of_args V sg args ts) eqn:HT; [|discriminate].
    apply andb_true_iff in HT. destruct HT as [_ HT].
    destruct (lower_exprs args st) as [[vs st1]|] eqn:E; [|discriminate]. 
    destruct (proj2 lower_expr_spec args _ _ _ _ HT L E) as (I1 & Q1).
    pose proof (quiet_live _ _ L Q1 I1) as (_ & C1 & U1).
    injection H as <-. split; [apply emit_inv0; auto|]. eapply quiet_trans; [exact Q1|]. eapply emit_quiet; eauto.
  - destruct (type_of V sg e) as [t|] eqn:HT; [|discriminate].
    destruct (lower_expr e st) as [[v st1]|] eqn:E; [|discriminate]. injection H as <-.
    destruct (proj1 lower_expr_spec e _ _ _ _ HT L E) as (I1 & Q1 & TY). auto.
  - destruct (has_type V sg D e TBool) eqn:HT; [|discriminate]. apply has_type_ok in HT.
    destruct (lower_expr e st) as [[v st1]|] eqn:E; [|discriminate].
    destruct (proj1 lower_expr_spec e _ _ _ _ HT L E) as (I1 & Q1 & TY).
    pose proof (quiet_live _ _ L Q1 I1) as (_ & C1 & U1).
    injection H as <-. split; [apply emit_inv0; auto|]. eapply quiet_trans; [exact Q1|]. eapply emit_quiet; eauto.
Qed.

Lemma for_spec lc D D1 D2 i e s c st st' : simple i = true -> typed V sg ret D i = Some D1 ->
  type_of V sg e = Some TBool -> simple s = true -> typed V sg ret D1 s = Some D2 -> sok c -> pre lc st ->
  lower_stmt lc (SFor i e s c) st = Some st' ->
  post lc st st' /\ forall F, ext st' F -> exists st0 v sh st6 sb st10 ss st13,
    lower_stmt lc i st = Some st0 /\ live st0 /\ ext st0 F /\
    ends F st0 (l_cur st0) (TJump (l_cur sh)) /\ live sh /\ virgin sh (l_cur sh) /\
    lower_expr e sh = Some (v, st6) /\ ext st6 F /\ ends F st6 (l_cur sh) (TIf v (l_cur sb) (l_cur st')) /\
    part F (Some (l_cur ss, l_cur st')) c sb st10 /\ virgin st' (l_cur st') /\
    (finished st10 (l_cur st10) = false -> ends F st10 (l_cur st10) (TJump (l_cur ss))) /\
    part F None s ss st13 /\ finished st13 (l_cur st13) = false /\ ends F st13 (l_cur st13) (TJump (l_cur sh)).
Proof.
  intros SI TI TE SS TS OC [L OT] H. cbn [Lower.lower_stmt] in H.
  destruct (lower_stmt lc i st) as [st0|] eqn:E0; [|discriminate].
  destruct (simple_spec _ _ _ _ _ _ SI TI L E0) as (I & Q0).
  pose proof (quiet_live _ _ L Q0 I) as L0. destruct L0 as (_ & C & U). rewrite U in H.
  rewrite new_block_eq in H. cbv iota beta in H. rewrite new_block_eq in H. cbv iota beta in H.
  rewrite new_block_eq in H. cbv iota beta in H. rewrite new_block_eq in H. cbv iota beta in H.
  set (bh := l_nb st0) in *. set (st1 := nblk st0) in *.
  set (bb := l_nb st1) in *. set (st2 := nblk st1) in *.
  set (bs := l_nb st2) in *. set (st3 := nblk st2) in *.
  set (bx := l_nb st3) in *. set (st4 := nblk st3) in *.
  destruct (new_facts _ I) as (I1 & V1 & Z1). destruct (new_facts _ I1) as (I2 & V2 & _).
  destruct (new_facts _ I2) as (I3 & V3 & _). destruct (new_facts _ I3) as (I4 & V4 & _).
  fold st1 bh in V1, I1, Z1. fold st2 bb in V2, I2. fold st3 bs in V3, I3. fold st4 bx in V4, I4.
  assert (EB : bb = S bh) by reflexivity. assert (ES : bs = S bb) by reflexivity. assert (EX : bx = S bs) by reflexivity.
  assert (NO : l_nb st = bh) by (symmetry; apply (q_nb _ _ Q0)).
  assert (CO : l_cur st0 = l_cur st) by apply (q_cur _ _ Q0).
  unfold terminate in H at 1. change (l_cur st4) with (l_cur st0) in H.
  change (finished st4 (l_cur st0)) with (finished st0 (l_cur st0)) in H. rewrite U in H. cbv iota in H.
  set (st5 := set_term (l_cur st0) (TJump bh) st4) in *.
  assert (VH4 : virgin st4 bh) by (do 3 apply nblk_virgin; auto).
  assert (VB4 : virgin st4 bb) by (do 2 apply nblk_virgin; auto).
  assert (VS4 : virgin st4 bs) by (apply nblk_virgin; auto).
  assert (I5 : inv st5 []).
  { apply set_term_inv; auto; [cbn; lia|discriminate|]. intros d [<-|[]]. apply virgin_open; auto. }
  set (sh := switch bh st5) in *. assert (Ih : inv sh []) by (apply switch_inv; auto).
  assert (VH : virgin sh bh) by (apply (set_virgin (l_cur st0) (TJump bh) st4); [lia|auto]).
  assert (VB : virgin sh bb) by (apply (set_virgin (l_cur st0) (TJump bh) st4); [lia|auto]).
  assert (VS : virgin sh bs) by (apply (set_virgin (l_cur st0) (TJump bh) st4); [lia|auto]).
  assert (VX : virgin sh bx) by (apply (set_virgin (l_cur st0) (TJump bh) st4); [lia|auto]).
  assert (Lh : live sh) by (split; [auto|split; apply VH]).
  assert (O0 : ostep lc st st st0) by (apply quiet_ostep; [auto|left; auto]).
  assert (O5 : ostep lc st st0 sh).
  { eapply step_trans; [eapply new_block_step; eauto|]. eapply step_trans; [eapply new_block_step; eauto|].
    eapply step_trans; [eapply new_block_step; eauto|]. eapply step_trans; [eapply new_block_step; eauto|].
    eapply step_trans; [|eapply switch_step; eauto].
    eapply set_ostep; eauto; [left; auto|]. intros d [<-|[]]. right. lia. }
  destruct (lower_expr e sh) as [[v st6]|] eqn:E6; [|discriminate].
  destruct (proj1 lower_expr_spec e _ _ _ _ TE Lh E6) as (I6 & Q6 & _).
  pose proof (quiet_live _ _ Lh Q6 I6) as (_ & C6 & U6).
  assert (CU6 : l_cur st6 = bh) by (rewrite (q_cur _ _ Q6); reflexivity).
  assert (N6 : l_nb st6 = S bx) by (rewrite (q_nb _ _ Q6); reflexivity).
  assert (VB6 : virgin st6 bb) by (apply (step_virgin _ _ _ _ _ _ (q_step _ _ Q6)); [auto|cbn; lia]).
  assert (VS6 : virgin st6 bs) by (apply (step_virgin _ _ _ _ _ _ (q_step _ _ Q6)); [auto|cbn; lia]).
  assert (VX6 : virgin st6 bx) by (apply (step_virgin _ _ _ _ _ _ (q_step _ _ Q6)); [auto|cbn; lia]).
  unfold terminate in H at 1. rewrite U6, CU6 in H. cbv iota in H.
  set (st7 := set_term bh (TIf v bb bx) st6) in *.
  rewrite CU6 in C6, U6.
  assert (I7 : inv st7 []).
  { apply set_term_inv; auto; [discriminate|]. intros d [<-|[<-|[]]]; apply virgin_open; auto. }
  assert (VB7 : virgin st7 bb) by (apply set_virgin; [lia|auto]).
  assert (VS7 : virgin st7 bs) by (apply set_virgin; [lia|auto]).
  assert (VX7 : virgin st7 bx) by (apply set_virgin; [lia|auto]).
  destruct (seal ord bb st7) as [st8|] eqn:E8; [|discriminate].
  pose proof (seal_step _ _ _ I7 (or_introl VB7) E8) as Z8. pose proof (z_inv _ _ _ Z8) as I8.
  pose proof (sealed_virgin _ _ _ _ Z8 VB7) as VB8. pose proof (sealed_virgin _ _ _ _ Z8 VX7) as VX8.
  pose proof (sealed_virgin _ _ _ _ Z8 VS7) as VS8.
  destruct (seal ord bx st8) as [st9|] eqn:E9; [|discriminate].
  pose proof (seal_step _ _ _ I8 (or_introl VX8) E9) as Z9. pose proof (z_inv _ _ _ Z9) as I9.
  pose proof (sealed_virgin _ _ _ _ Z9 VB8) as VB9. pose proof (sealed_virgin _ _ _ _ Z9 VX8) as VX9.
  pose proof (sealed_virgin _ _ _ _ Z9 VS8) as VS9.
  assert (N9 : l_nb st9 = S bx) by (rewrite (z_nb _ _ _ Z9), (z_nb _ _ _ Z8); exact N6).
  set (sb := switch bb st9) in *. assert (Ib : inv sb []) by (apply switch_inv; auto).
  assert (SH : l_sealed sb bh = false).
  { change (l_sealed st9 bh = false). rewrite (z_sealed _ _ _ Z9), (upf_ne _ _ _ bh) by lia.
    rewrite (z_sealed _ _ _ Z8), (upf_ne _ _ _ bh) by lia. change (l_sealed st6 bh = false).
    rewrite (s_sealed _ _ _ _ _ (q_step _ _ Q6)); [exact Z1|apply VH|intros []]. }
  assert (O9 : ostep lc st sh sb).
  { eapply step_trans; [apply quiet_ostep; [exact Q6|right; cbn; lia]|].
    eapply step_trans; [eapply (set_ostep _ _ bh (TIf v bb bx)); eauto; [right; lia|intros d [<-|[<-|[]]]; right; lia]|].
    eapply step_trans; [apply (seal_ostep _ _ _ _ _ Z8); unfold tS; lia|].
    eapply step_trans; [apply (seal_ostep _ _ _ _ _ Z9); unfold tS; lia|]. eapply switch_step; eauto. }
  destruct (lower_stmt (Some (bs, bx)) c sb) as [st10|] eqn:E10; [|discriminate].
  destruct (if finished st10 (l_cur st10) then _ else _) as [st11|] eqn:E11; [|discriminate].
  assert (TH : okt sb bh) by (split; [cbn; lia|left; exact SH]).
  assert (TS' : okt sb bs) by (split; [cbn; lia|right; split; [exact VS9|cbn; lia]]).
  assert (TX : okt sb bx) by (split; [cbn; lia|right; split; [exact VX9|cbn; lia]]).
  destruct (body_spec lc st bs bx c sb st10 st11 bs OC Ib VB9 ltac:(cbn; lia) ltac:(lia) ltac:(lia) ltac:(lia) TS' TX TS' E10 E11)
    as (P10 & Q10 & O11 & I11 & N11 & S11 & X1011 & C11 & F11 & V11 & EN11).
  assert (VX11 : virgin st11 bx) by (apply V11; [exact VX9|cbn; lia]).
  assert (VS11 : virgin st11 bs) by (apply V11; [exact VS9|cbn; lia]).
  assert (X7b : ext st7 sb).
  { eapply ext_trans; [apply (sealed_ext _ _ _ Z8)|]. eapply ext_trans; [apply (sealed_ext _ _ _ Z9)|]. apply switch_ext; auto. }
  assert (Xb11 : ext sb st11) by apply (s_ext _ _ _ _ _ O11).
  assert (F7 : finished st7 bh = true) by (apply set_finished; discriminate).
  assert (FH11 : finished st11 bh = true) by (eapply ext_fin; [exact Xb11|]; eapply ext_fin; [exact X7b|exact F7]).
  assert (SH11 : l_sealed st11 bh = false).
  { rewrite S11. rewrite (s_sealed _ _ _ _ _ (o_step _ _ _ Q10)); auto. cbn. lia. }
  destruct (seal ord bs st11) as [st12|] eqn:E12; [|discriminate].
  pose proof (seal_step _ _ _ I11 (or_introl VS11) E12) as Z12. pose proof (z_inv _ _ _ Z12) as I12.
  pose proof (sealed_virgin _ _ _ _ Z12 VX11) as VX12. pose proof (sealed_virgin _ _ _ _ Z12 VS11) as VS12.
  set (ss := switch bs st12) in *.
  assert (Is : inv ss []) by (apply switch_inv; auto).
  assert (Ls : live ss) by (split; [auto|split; apply VS12]).
  assert (Os : ostep lc st st11 ss).
  { eapply step_trans; [apply (seal_ostep _ _ _ _ _ Z12); unfold tS; lia|]. eapply switch_step; eauto. }
  destruct (lower_stmt lc s ss) as [st13|] eqn:E13; [|discriminate].
  destruct (simple_spec _ _ _ _ _ _ SS TS Ls E13) as (I13 & Q13).
  pose proof (quiet_live _ _ Ls Q13 I13) as (_ & C13 & U13). rewrite U13 in H.
  assert (CU13 : l_cur st13 = bs) by (rewrite (q_cur _ _ Q13); reflexivity).
  unfold terminate in H at 1. rewrite U13 in H. rewrite CU13 in C13, U13, H.
  set (st14 := set_term bs (TJump bh) st13) in *.
  assert (VX13 : virgin st13 bx) by (apply (step_virgin _ _ _ _ _ _ (q_step _ _ Q13)); [auto|cbn; lia]).
  assert (LN : bh < l_nb ss).
  { change (bh < l_nb st12). rewrite (z_nb _ _ _ Z12). eapply block_lt; eauto. }
  assert (SH13 : l_sealed st13 bh = false).
  { rewrite (s_sealed _ _ _ _ _ (q_step _ _ Q13)); [|exact LN|intros []].
    change (l_sealed st12 bh = false). rewrite (z_sealed _ _ _ Z12), (upf_ne _ _ _ bh) by lia. exact SH11. }
  assert (I14 : inv st14 []).
  { apply set_term_inv; auto; [discriminate|]. intros d [<-|[]]. split; [|auto].
    rewrite (q_nb _ _ Q13). exact LN. }
  assert (Oss : ostep lc st ss st14).
  { eapply step_trans; [apply quiet_ostep; [exact Q13|right; cbn; lia]|].
    eapply (set_ostep _ _ bs (TJump bh)); eauto; [right; lia|intros d [<-|[]]; right; lia]. }
  assert (X11s : ext st11 ss) by apply (s_ext _ _ _ _ _ Os).
  assert (Xs14 : ext ss st14) by apply (s_ext _ _ _ _ _ Oss).
  assert (FH14 : finished st14 bh = true) by (eapply ext_fin; [exact Xs14|]; eapply ext_fin; [exact X11s|exact FH11]).
  assert (VX14 : virgin st14 bx) by (apply set_virgin; [lia|exact VX13]).
  destruct (seal ord bh st14) as [st15|] eqn:E15; [|discriminate]. injection H as <-.
  pose proof (seal_step _ _ _ I14 (or_intror FH14) E15) as Z15. pose proof (z_inv _ _ _ Z15) as I15.
  pose proof (sealed_virgin _ _ _ _ Z15 VX14) as VX15.
  assert (O15 : ostep lc st st14 (switch bx st15)).
  { eapply step_trans; [apply (seal_ostep _ _ _ _ _ Z15); unfold tS; lia|]. eapply switch_step; eauto. }
  assert (X15 : ext st14 (switch bx st15)) by apply (s_ext _ _ _ _ _ O15).
  split.
  - constructor.
    + apply switch_inv; auto.
    + apply ostep_in. eapply step_trans; [exact O0|]. eapply step_trans; [exact O5|]. eapply step_trans; [exact O9|].
      eapply step_trans; [exact O11|]. eapply step_trans; [exact Os|]. eapply step_trans; [exact Oss|exact O15].
    + right. cbn. lia.
    + apply VX15.
    + intros d A B. change (l_sealed st15 d = true). change (d < l_nb st15) in B. rewrite NO in A.
      assert (S4 : sld bh (fun c => (((no c \/ c = bh) \/ c = bb) \/ c = bs) \/ c = bx) sh).
      { apply (sld_new bh (fun c => ((no c \/ c = bh) \/ c = bb) \/ c = bs) st3).
        apply (sld_new bh (fun c => (no c \/ c = bh) \/ c = bb) st2). apply (sld_new bh (fun c => no c \/ c = bh) st1).
        apply (sld_new bh no st0). intros a1 a2 a3. unfold bh in *. lia. }
      pose proof (sld_quiet _ _ _ _ S4 Q6) as S6.
      change (sld bh (fun c => (((no c \/ c = bh) \/ c = bb) \/ c = bs) \/ c = bx) st7) in S6.
      pose proof (sld_seal _ _ _ _ _ (sld_seal _ _ _ _ _ S6 Z8) Z9) as S9. cbv beta in S9.
      pose proof (sld_post _ _ (Some (bs, bx)) sb st10 S9 Q10) as S10.
      assert (S11' : sld bh (fun c => c = bh \/ c = bs) st11).
      { intros a1 a2 a3 a4. rewrite S11. apply S10; auto; [congruence|]. unfold no. tauto. }
      pose proof (sld_seal _ _ _ _ _ S11' Z12) as S12.
      pose proof (sld_quiet _ _ ss _ S12 Q13) as S13.
      change (sld bh (fun c => (c = bh \/ c = bs) /\ c <> bs) st14) in S13.
      apply (sld_seal _ _ _ _ _ S13 Z15); auto. tauto.
    + intros _. rewrite <- CO. eapply ext_fin; [exact X15|]. eapply ext_fin; [exact Xs14|]. eapply ext_fin; [exact X11s|].
      eapply ext_fin; [exact Xb11|]. eapply ext_fin; [apply (s_ext _ _ _ _ _ O9)|].
      apply (set_finished (l_cur st0) (TJump bh) st4). discriminate.
  - intros F X. exists st0, v, sh, st6, sb, st10, ss, st13.
    assert (X14F : ext st14 F) by (eapply ext_trans; eauto).
    assert (XsF : ext ss F) by (eapply ext_trans; eauto).
    assert (X11F : ext st11 F) by (eapply ext_trans; eauto).
    assert (XbF : ext sb F) by (eapply ext_trans; eauto).
    assert (X7F : ext st7 F) by (eapply ext_trans; eauto).
    assert (X6F : ext st6 F).
    { eapply ext_trans; [|exact X7F]. apply (s_ext _ _ _ _ _ (set_term_step V ps bh (TIf v bb bx) st6 _ I6 U6)). }
    assert (X5F : ext st5 F).
    { eapply ext_trans; [|exact X6F]. eapply ext_trans; [apply (switch_ext bh st5 I5)|]. apply (s_ext _ _ _ _ _ (q_step _ _ Q6)). }
    assert (X13F : ext st13 F).
    { eapply ext_trans; [|exact X14F]. apply (s_ext _ _ _ _ _ (set_term_step V ps bs (TJump bh) st13 _ I13 U13)). }
    split; [reflexivity|]. split; [split; auto|].
    split; [eapply ext_trans; [apply (s_ext _ _ _ _ _ O5)|]; eapply ext_trans; [apply (s_ext _ _ _ _ _ O9)|exact XbF]|].
    split. { apply (ends_intro F st0 st4); auto; [discriminate|repeat split; auto]. }
    split; auto. split; [exact VH|]. split; [exact E6|]. split; [exact X6F|]. split.
    { apply (ends_intro F st6 st6); auto; [discriminate|]. apply still_refl. auto. }
    split; [split; [exact P10|split; [exact VB9|split; [exact E10|eapply ext_trans; eauto]]]|].
    split; [exact VX15|]. split; [intros U10; apply EN11; auto|].
    split. { split; [split; [exact Ls|intros b (h & x & K & _); discriminate]|].
      split; [exact VS12|]. split; [rewrite (simple_lc s None lc); auto|exact X13F]. }
    rewrite CU13. split; [exact U13|].
    apply (ends_intro F st13 st13); auto; [discriminate|]. apply still_refl. auto.
Qed.

(** Ending the block. *)
Lemma term_spec lc t st st' : live st -> t <> TUnreachable -> (forall b, In b (targets t) -> target lc b /\ okt st b) ->
  terminate t st = Some st' ->
  post lc st st' /\ finished st' (l_cur st') = true /\ forall F, ext st' F -> ends F st (l_cur st) t.
Proof.
  intros (I & L & U) N T H. unfold terminate in H. rewrite U in H. injection H as <-.
  assert (I' : inv (set_term (l_cur st) t st) []).
  { apply set_term_inv; auto. intros b K. apply okt_open. apply T; auto. }
  split; [constructor; auto|].
  - apply ostep_in. eapply set_ostep; eauto; [left; auto|]. intros c K. left. apply T; auto.
  - cbn. intros; lia.
  - split; [apply set_finished; auto|]. intros F X. apply (ends_intro F st st); auto. apply still_refl. auto.
Qed.

Lemma seq_post lc a b c : post lc a b -> post lc b c -> post lc a c.
Proof.
  intros A B. pose proof (e_nb _ _ (s_ext _ _ _ _ _ (o_step _ _ _ A))). constructor.
  - apply (o_inv _ _ _ B).
  - apply ostep_in. eapply step_trans.
    + eapply post_ostep; [exact A|left; auto|]. intros t K. left. exact K.
    + eapply post_ostep; [exact B| |intros t K; left; exact K]. destruct (o_cur _ _ _ A); [left; auto|right; auto].
  - destruct (o_cur _ _ _ A), (o_cur _ _ _ B); [left; congruence|right; lia|right; lia|right; lia].
  - apply (o_lt _ _ _ B).
  - intros d L1 L2. destruct (Nat.lt_ge_cases d (l_nb b)).
    + rewrite (s_sealed _ _ _ _ _ (o_step _ _ _ B)); auto. apply (o_new _ _ _ A); auto.
    + apply (o_new _ _ _ B); auto.
  - intros N. destruct (Nat.eq_dec (l_cur b) (l_cur a)) as [K|K].
    + rewrite <- K. apply (o_moved _ _ _ B). congruence.
    + eapply ext_fin; [apply (s_ext _ _ _ _ _ (o_step _ _ _ B))|]. apply (o_moved _ _ _ A). auto.
Qed.
Lemma post_pre lc a b : pre lc a -> post lc a b -> finished b (l_cur b) = false -> pre lc b.
Proof.
  intros [L T] A U. split; [split; [apply (o_inv _ _ _ A)|split; [apply (o_lt _ _ _ A)|auto]]|].
  intros t K. eapply okt_step; [apply (o_step _ _ _ A)|apply (o_cur _ _ _ A)|auto].
Qed.

Theorem lower_stmt_spec c : forall D D', for_parts c = true -> typed V sg ret D c = Some D' -> sok c.
Proof.
  induction c as [ |c1 IHc1 c2 IHc2|x e|x e|f args|e|e|e c1 IHc1 c2 IHc2|e c IHc|e c IHc|c IHc|c1 IHc1 e c2 IHc2 c3 IHc3| | |e];
    intros D D' FP T lc st st' Pr H; cbn [for_parts typed] in FP, T.
  all: try (match type of H with Lower.lower_stmt _ _ _ _ ?c _ = _ =>
              destruct (simple_spec lc D D' c st st' eq_refl T (proj1 Pr) H); apply quiet_post; auto; apply Pr end).
  - injection H as <-. apply quiet_post; try apply Pr. eapply quiet_refl. apply Pr.
  - apply andb_true_iff in FP. destruct FP as [FA FB]. cbn [Lower.lower_stmt] in H.
    destruct (typed V sg ret D c1) as [D1|] eqn:T1; [|discriminate].
    destruct (lower_stmt lc c1 st) as [st1|] eqn:E1; [|discriminate].
    pose proof (IHc1 D D1 FA T1 lc st st1 Pr E1) as P1. destruct (finished st1 (l_cur st1)) eqn:U1; [congruence|].
    eapply seq_post; [exact P1|]. eapply (IHc2 D1 D'); eauto. eapply post_pre; eauto.
  - apply andb_true_iff in FP. destruct FP as [FA FB].
    destruct (has_type V sg D e TBool) eqn:HT; [|discriminate]. apply has_type_ok in HT.
    destruct (typed V sg ret D c1) as [D1|] eqn:T1; [|discriminate]. destruct (typed V sg ret D c2) as [D2|] eqn:T2; [|discriminate].
    exact (proj1 (if_spec lc e c1 c2 st st' HT (IHc1 _ _ FA T1) (IHc2 _ _ FB T2) Pr H)).
  - destruct (has_type V sg D e TBool) eqn:HT; [|discriminate]. apply has_type_ok in HT.
    destruct (typed V sg ret D c) as [D1|] eqn:T1; [|discriminate].
    exact (proj1 (if1_spec lc e c st st' HT (IHc _ _ FP T1) Pr H)).
  - destruct (has_type V sg D e TBool) eqn:HT; [|discriminate]. apply has_type_ok in HT.
    destruct (typed V sg ret D c) as [D1|] eqn:T1; [|discriminate].
    exact (proj1 (while_spec lc e c st st' HT (IHc _ _ FP T1) Pr H)).
  - destruct (typed V sg ret D c) as [D1|] eqn:T1; [|discriminate].
    exact (proj1 (loop_spec lc c st st' (IHc _ _ FP T1) Pr H)).
  - apply andb_true_iff in FP. destruct FP as [FP FC]. apply andb_true_iff in FP. destruct FP as [FI FS].
    destruct (typed V sg ret D c1) as [D1|] eqn:T1; [|discriminate].
    destruct (has_type V sg D1 e TBool) eqn:HT; [|discriminate]. apply has_type_ok in HT.
    destruct (typed V sg ret D1 c2) as [D2|] eqn:T2; [|discriminate].
    destruct (typed V sg ret D1 c3) as [D3|] eqn:T3; [|discriminate].
    exact (proj1 (for_spec lc _ _ _ c1 e c2 c3 st st' FI T1 HT FS T2 (IHc3 _ _ FC T3) Pr H)).
  - cbn [Lower.lower_stmt] in H. destruct lc as [[h x]|]; [|discriminate].
    apply (term_spec (Some (h, x)) (TJump x) st st' (proj1 Pr)) in H; [apply H|discriminate|].
    intros b [<-|[]]. assert (target (Some (h, x)) x) by (exists h, x; auto). split; auto. apply Pr; auto.
  - cbn [Lower.lower_stmt] in H. destruct lc as [[h x]|]; [|discriminate].
    apply (term_spec (Some (h, x)) (TJump h) st st' (proj1 Pr)) in H; [apply H|discriminate|].
    intros b [<-|[]]. assert (target (Some (h, x)) h) by (exists h, x; auto). split; auto. apply Pr; auto.
  - cbn [Lower.lower_stmt] in H. destruct e as [e|].
    + destruct ret as [t|]; [|discriminate]. destruct (has_type V sg D e t) eqn:HT; [|discriminate]. apply has_type_ok in HT.
      destruct (lower_expr e st) as [[v st1]|] eqn:E; [|discriminate].
      destruct (proj1 lower_expr_spec e _ _ _ _ HT (proj1 Pr) E) as (I1 & Q1 & _).
      pose proof (quiet_live _ _ (proj1 Pr) Q1 I1) as L1.
      apply (term_spec lc) in H; [|exact L1|discriminate|intros ? []].
      eapply seq_post; [apply quiet_post; [apply Pr|exact I1|exact Q1]|apply H].
    + apply (term_spec lc) in H; [apply H|apply Pr|discriminate|intros ? []].
Qed.
End Stmt.
