(** Lowering preserves meaning: simulation of the source by the final MIR function. *)
From Coq Require Import ZArith Bool String List Lia Permutation.
From Verif Require Import M31 Isa Mir MirFacts MirSsaMap MirCopyFacts MirSem Src SrcSem SrcCheck SrcFacts
  Lower LowerSpec LowerFacts LowerStep LowerStmt.
Import ListNotations.
Open Scope nat_scope.

Lemma bind_all_keep ds : forall vs e e' j, bind_all e ds vs = Some e' -> ~ In j ds -> e' j = e j.
Proof.
  induction ds as [|d ds IH]; intros [|v vs] e e' j H N; cbn in H; try discriminate; [congruence|].
  rewrite (IH _ _ _ _ H) by (intros K; apply N; right; auto). unfold MirSem.upd.
  destruct (Nat.eqb_spec j d); auto. subst. destruct N. left. auto.
Qed.
Lemma exec_list_keep (W : world unit) tys is : forall e e' s s' j, exec_list W tys e s is = ROk (e', s') ->
  ~ In j (flat_map dests is) -> e' j = e j.
Proof.
  induction is as [|i is IH]; intros e e' s s' j H N; cbn in H; [congruence|].
  destruct (rbind_ok _ _ _ H) as ([e1 s1] & A & B). cbn in B. unfold exec in A.
  destruct (rbind_ok _ _ _ A) as ([vs s2] & A1 & A2). destruct (rbind_ok _ _ _ A2) as (e2 & A3 & A4).
  cbn in A3, A4. injection A4 as <- <-. destruct (bind_all e (dests i) vs) as [e3|] eqn:BA; [|discriminate].
  injection A3 as <-. cbn in N. rewrite (IH _ _ _ _ _ B) by (intros K; apply N, in_or_app; auto).
  eapply bind_all_keep; eauto. intros K. apply N, in_or_app. auto.
Qed.
Lemma exec_list_app (W : world unit) tys is : forall js e s,
  exec_list W tys e s (is ++ js) = rbind (exec_list W tys e s is) (fun x => exec_list W tys (fst x) (snd x) js).
Proof.
  induction is as [|i is IH]; intros js e s; cbn; auto. destruct (exec W tys e s i) as [[e1 s1]| | |]; cbn; auto.
Qed.
Lemma skipn_app_len {A} (l m : list A) : skipn (length l) (l ++ m) = m.
Proof. induction l; cbn; auto. Qed.

(** ** Operators. *)
Lemma bin_match op t o x y : from_parser op t = Some o -> fits t x -> fits t y ->
  (op_type o = None /\ t <> TU32 \/ op_type o = Some t) /\
  (forall r, src_bin op x y = ROk r -> sem_bin o x y = ROk r) /\
  (src_bin op x y = RTrap -> sem_bin o x y = RTrap).
Proof.
  unfold fits. intros H X Y. destruct op, t; try discriminate; injection H as <-;
    destruct x; try discriminate; destruct y; try discriminate;
    (split; [(left; split; [reflexivity|discriminate]) || (right; reflexivity)|]);
    split; auto; intros; try discriminate.
Qed.
Lemma un_match op t u x : un_type op t = Some u -> fits t x -> (op = Neg -> t <> TU32) ->
  t <> TU32 /\ (forall r, src_un op x = ROk r -> sem_un op x = ROk r) /\
  (src_un op x = RTrap -> sem_un op x = RTrap).
Proof.
  unfold fits. intros H X N. destruct op, t; try discriminate; destruct x; try discriminate;
    (split; [try discriminate; try (apply N; reflexivity)|]); split; auto; intros; try discriminate;
    exfalso; apply N; reflexivity.
Qed.

Section Sim.
Variables (V : nat -> ty) (ps : list nat) (sg : sigs) (ret : option ty).
Variable ord : list (nat * nat) -> list (nat * nat).
Hypothesis ord_perm : forall l, Permutation (ord l) l.
Variables (F : lst) (g : func) (W : nat -> world unit) (call : nat -> list val -> MirSem.res (option val)).
Hypothesis IF : inv V ps F [].
Hypothesis sealed_all : forall b, b < l_nb F -> l_sealed F b = true.
Hypothesis canon_body : forall b, map (ci F) (l_body F b) = l_body F b.
Hypothesis canon_term : forall b, ct F (l_term F b) = l_term F b.
Hypothesis canon_src : forall b p q i, In p (l_phis F b) -> In (q, i) (p_src p) -> l_cls F i = i.
Hypothesis g_blocks : forall b, b < l_nb F -> nth_error (f_blocks g) b = Some (block_of F b).
Hypothesis g_types : f_types g = l_tys F.
Hypothesis rets_ok : omap (fun t => t) (map (f_types g) (f_rets g)) = Some (match ret with Some t => [t] | None => [] end).
Hypothesis call_ok : forall f ts t vs r, nth_error sg f = Some (ts, t) -> Forall2 fits ts vs -> call f vs = ROk r ->
  fit_ret t r /\ exists M, forall n, M <= n -> w_call (W n) f vs tt = ROk (outs r, tt).
Hypothesis call_trap : forall f ts t vs, nth_error sg f = Some (ts, t) -> Forall2 fits ts vs -> call f vs = RTrap ->
  exists M, forall n, M <= n -> w_call (W n) f vs tt = RTrap.

Notation inv := (inv V ps).
Notation live := (live V ps).
Notation lower_expr := (Lower.lower_expr V sg).
Notation lower_exprs := (Lower.lower_exprs V sg).
Notation lower_stmt := (Lower.lower_stmt ord V sg).
Notation pre := (pre V ps).
Notation cls := (l_cls F).

(** ** Inside a block. *)
Definition rem (st : lst) : list minstr := skipn (length (l_body st (l_cur st))) (l_body F (l_cur st)).
Definition runs (e : env) (is : list minstr) (e' : env) : Prop :=
  exists M, forall n, M <= n -> exec_list (W n) (l_tys F) e tt is = ROk (e', tt).
Definition traps (e : env) (is : list minstr) : Prop :=
  exists M, forall n, M <= n -> exec_list (W n) (l_tys F) e tt is = RTrap.
Lemma runs_nil e : runs e [] e.
Proof. exists 0. reflexivity. Qed.
Lemma runs_app e is e1 js e2 : runs e is e1 -> runs e1 js e2 -> runs e (is ++ js) e2.
Proof.
  intros (M & A) (N & B). exists (max M N). intros n L. rewrite exec_list_app, A by lia. cbn. apply B. lia.
Qed.
Lemma runs_traps e is e1 js : runs e is e1 -> traps e1 js -> traps e (is ++ js).
Proof.
  intros (M & A) (N & B). exists (max M N). intros n L. rewrite exec_list_app, A by lia. cbn. apply B. lia.
Qed.
Lemma runs_keep e is e' j : runs e is e' -> ~ In j (flat_map dests is) -> e' j = e j.
Proof. intros (M & A). eapply exec_list_keep. apply (A M). lia. Qed.

Lemma rem_eq st : ext st F -> l_body F (l_cur st) = map (ci F) (l_body st (l_cur st)) ++ rem st.
Proof.
  intros X. destruct (e_body _ _ X (l_cur st)) as (tl & E). rewrite canon_body in E.
  unfold rem. rewrite E. rewrite <- (map_length (ci F) (l_body st (l_cur st))). rewrite skipn_app_len. reflexivity.
Qed.
Lemma ext_len st st' b : ext st st' -> length (l_body st b) <= length (l_body st' b).
Proof. intros X. destruct (e_body _ _ X b) as (tl & E). apply (f_equal (@length _)) in E. rewrite app_length, !map_length in E. lia. Qed.

Definition cur_def (st : lst) (x o : nat) : Prop :=
  l_def st x (l_cur st) = Some o \/ l_def st x (l_cur st) = None /\ l_ent F x (l_cur st) = Some o.
Definition known (vis : list nat) (e : env) : Prop :=
  forall i, e i <> None -> In i ps \/ exists c, In c vis /\ In i (dests_of F c).
Definition apart (vis : list nat) : Prop :=
  forall c x o, In c vis -> l_ent F x c = Some o -> has_phi F x c o \/ ~ In (cls o) (dests_of F c).
Definition well (s : store) : Prop := forall x v, s x = Some v -> fits (V x) v.
Record at_ (vis : list nat) (st : lst) (e : env) (s : store) : Prop := {
  a_vis : In (l_cur st) vis;
  a_env : known vis e;
  a_apart : apart vis;
  a_well : well s;
  a_def : forall x o, cur_def st x o -> exists v, s x = Some v /\ e (cls o) = Some v /\ ~ In (cls o) (flat_map dests (rem st)) }.
Lemma rem_dests st j : ext st F -> In j (flat_map dests (rem st)) -> In j (dests_of F (l_cur st)).
Proof.
  intros X H. apply in_or_app. right. rewrite (rem_eq st X), flat_map_app. apply in_or_app. auto.
Qed.
Lemma at_run vis st e s st' is e' : ext st F -> at_ vis st e s -> rem st = is ++ rem st' -> runs e is e' ->
  l_cur st' = l_cur st -> (forall x o, cur_def st' x o -> exists o', cur_def st x o' /\ cls o = cls o') ->
  at_ vis st' e' s.
Proof.
  intros X A R U C D. destruct A as [A1 A2 A3 A4 A5]. constructor; auto.
  - rewrite C. auto.
  - intros i N. destruct (in_dec Nat.eq_dec i (flat_map dests is)) as [K|K].
    + right. exists (l_cur st). split; auto. apply rem_dests; auto. rewrite R, flat_map_app. apply in_or_app; auto.
    + apply A2. rewrite <- (runs_keep _ _ _ _ U K). exact N.
  - intros x o H. destruct (D x o H) as (o' & H' & E). destruct (A5 x o' H') as (v & S1 & S2 & S3).
    exists v. split; auto. rewrite E. rewrite R, flat_map_app in S3. split.
    + rewrite (runs_keep _ _ _ _ U); auto. intros K. apply S3, in_or_app. auto.
    + intros K. apply S3, in_or_app. auto.
Qed.
Lemma at_rd vis st e s t st' : rd t st st' -> ext st F -> ext st' F -> at_ vis st e s ->
  rem st' = rem st /\ at_ vis st' e s.
Proof.
  intros R X X' A. assert (RE : rem st' = rem st).
  { unfold rem. rewrite (r_cur _ _ _ R). f_equal.
    pose proof (f_equal (@length _) (r_body _ _ _ R (l_cur st))) as E. rewrite !map_length in E. exact E. }
  split; auto. apply (at_run vis st e s st' [] e); auto; [apply runs_nil|apply (r_cur _ _ _ R)|].
  intros x o H. unfold cur_def in *. rewrite (r_cur _ _ _ R) in H. destruct (l_def st x (l_cur st)) as [v|] eqn:D0.
  - destruct (r_def _ _ _ R _ _ _ D0) as (v' & D' & E). exists v. split; auto.
    destruct H as [H|[H _]]; [|congruence]. assert (o = v') by congruence. subst o.
    eapply refines_mono; [apply (e_cls _ _ X')|exact E].
  - destruct H as [H|[H1 H2]].
    + destruct (r_new _ _ _ R _ _ _ D0 H) as (o' & O & E). exists o'. split.
      * right. split; auto. apply (e_ent _ _ X'). auto.
      * eapply refines_mono; [apply (e_cls _ _ X')|exact E].
    + exists o. auto.
Qed.

(** The value of an operand. *)
Definition opv (st : lst) (e : env) (t : ty) (v : value) (x : val) : Prop :=
  match v with
  | Lit l => lit_as t l = Some x
  | Op i => e (cls i) = Some x /\ ~ In (cls i) (flat_map dests (rem st))
  | VErr => False
  end.
Fixpoint opvs (st : lst) (e : env) (ts : list ty) (vs : list value) (xs : list val) : Prop :=
  match ts, vs, xs with
  | [], [], [] => True
  | t :: ts', v :: vs', x :: xs' => opv st e t v x /\ opvs st e ts' vs' xs'
  | _, _, _ => False
  end.
Lemma opv_run st e t v x st' is e' : opv st e t v x -> rem st = is ++ rem st' -> runs e is e' -> opv st' e' t v x.
Proof.
  intros O R U. destruct v as [l|i|]; cbn in *; auto. destruct O as [O1 O2]. rewrite R, flat_map_app in O2. split.
  - rewrite (runs_keep _ _ _ _ U); auto. intros K. apply O2, in_or_app. auto.
  - intros K. apply O2, in_or_app. auto.
Qed.
Lemma opv_as st e t v x : opv st e t v x -> fits t x -> eval_as e t (cv F v) = Some x.
Proof. intros O T. destruct v as [l|i|]; cbn in *; [exact O| |destruct O]. destruct O as [-> _]. rewrite T. reflexivity. Qed.
Lemma opv_any st e t v x : opv st e t v x -> fits t x -> t = TFelt \/ t = TBool -> eval_any e (cv F v) = Some x.
Proof.
  unfold fits. intros O T K. destruct v as [l|i|]; cbn in *; [| |destruct O].
  - destruct K as [-> | ->], l; try discriminate; exact O.
  - destruct O as [-> _]. destruct K as [-> | ->], x; try discriminate; auto. cbn in T. rewrite T. reflexivity.
Qed.
Lemma opvs_list st e ts : forall vs xs, opvs st e ts vs xs -> Forall2 fits ts xs -> eval_list e ts (map (cv F) vs) = Some xs.
Proof.
  induction ts as [|t ts IH]; intros [|v vs] [|x xs] O T; cbn [opvs] in O; try (destruct O; fail); [reflexivity|].
  inversion T; subst. cbn [map eval_list]. rewrite (opv_as st e t v x) by tauto. rewrite (IH vs xs) by tauto. reflexivity.
Qed.

(** One instruction. *)
Lemma emit_rem i st st2 : l_cur st2 = l_cur st -> l_body st2 (l_cur st) = l_body st (l_cur st) ++ [i] ->
  ext st2 F -> rem st = ci F i :: rem st2.
Proof.
  intros C B X. unfold rem at 1. rewrite <- C at 2. rewrite (rem_eq st2 X), C, B, map_app, <- app_assoc.
  rewrite <- (map_length (ci F) (l_body st (l_cur st))). apply skipn_app_len.
Qed.
Lemma emit1_sim vis st e s i d u x t : ext st F -> ext (emit i (snd (fresh u st))) F -> at_ vis st e s -> dests i = [d] ->
  (exists M, forall n, M <= n -> effect (W n) (l_tys F) e tt (ci F i) = ROk ([x], tt)) ->
  let st2 := emit i (snd (fresh u st)) in
  rem st = [ci F i] ++ rem st2 /\ runs e [ci F i] (MirSem.upd e d x) /\ at_ vis st2 (MirSem.upd e d x) s /\
  opv st2 (MirSem.upd e d x) t (Op d) x.
Proof.
  intros X X2 A D E st2. fold st2 in X2.
  assert (R : rem st = ci F i :: rem st2).
  { apply (emit_rem i st st2); auto. unfold st2; cbn. unfold upf. rewrite Nat.eqb_refl. reflexivity. }
  assert (DI : dests (ci F i) = [d]) by (unfold ci; rewrite dests_imap; exact D).
  assert (U : runs e [ci F i] (MirSem.upd e d x)).
  { destruct E as (M & E). exists M. intros n L. cbn. unfold exec. rewrite (E n L), DI. reflexivity. }
  split; auto. split; auto. split.
  - apply (at_run vis st e s st2 [ci F i]); auto. intros y o H. exists o. split; auto.
  - assert (IN : In d (dests_of F (l_cur st))).
    { apply rem_dests; auto. rewrite R. cbn. rewrite DI. left. auto. }
    destruct (i_dest _ _ _ _ IF _ _ IN) as (_ & CD & _). cbn. rewrite CD. split.
    + unfold MirSem.upd. rewrite Nat.eqb_refl. reflexivity.
    + pose proof (i_nodup _ _ _ _ IF (l_cur st)) as N. unfold dests_of in N. rewrite (rem_eq st X), R in N.
      rewrite flat_map_app in N. cbn [flat_map] in N. rewrite DI in N. rewrite app_assoc in N.
      apply NoDup_remove_2 in N. intros K. apply N. apply in_or_app. right. exact K.
Qed.
Lemma emit0_sim vis st e s i : ext st F -> ext (emit i st) F -> at_ vis st e s -> dests i = [] ->
  (exists M, forall n, M <= n -> effect (W n) (l_tys F) e tt (ci F i) = ROk ([], tt)) ->
  rem st = [ci F i] ++ rem (emit i st) /\ runs e [ci F i] e /\ at_ vis (emit i st) e s.
Proof.
  intros X X2 A D E.
  assert (R : rem st = ci F i :: rem (emit i st)).
  { apply (emit_rem i st (emit i st)); auto. cbn. unfold upf. rewrite Nat.eqb_refl. reflexivity. }
  assert (DI : dests (ci F i) = []) by (unfold ci; rewrite dests_imap; exact D).
  assert (U : runs e [ci F i] e).
  { destruct E as (M & E). exists M. intros n L. cbn. unfold exec. rewrite (E n L), DI. reflexivity. }
  split; auto. split; auto. apply (at_run vis st e s (emit i st) [ci F i]); auto. intros y o H. exists o. split; auto.
Qed.
Lemma emit_trap st e i st2 : l_cur st2 = l_cur st -> l_body st2 (l_cur st) = l_body st (l_cur st) ++ [i] -> ext st2 F ->
  (exists M, forall n, M <= n -> effect (W n) (l_tys F) e tt (ci F i) = RTrap) ->
  exists tl, rem st = [ci F i] ++ tl /\ traps e [ci F i].
Proof.
  intros C B X (M & E). exists (rem st2). split; [apply (emit_rem i st st2); auto|].
  exists M. intros n L. cbn. unfold exec. rewrite (E n L). reflexivity.
Qed.
Lemma emit1_body i u st : l_body (emit i (snd (fresh u st))) (l_cur st) = l_body st (l_cur st) ++ [i].
Proof. cbn. unfold upf. rewrite Nat.eqb_refl. reflexivity. Qed.

(** ** Expressions. *)
Definition esim (vis : list nat) (st : lst) (e : env) (s : store) (st' : lst) {A} (r : MirSem.res A) (good : env -> A -> Prop) : Prop :=
  match r with
  | ROk a => exists is e', rem st = is ++ rem st' /\ runs e is e' /\ at_ vis st' e' s /\ good e' a
  | RTrap => exists is tl, rem st = is ++ tl /\ traps e is
  | _ => True
  end.
Lemma esim_bind {A B} vis st e s st1 st' (r : MirSem.res A) (k : A -> MirSem.res B) g1 g2 :
  esim vis st e s st1 r g1 ->
  (forall a e1, r = ROk a -> at_ vis st1 e1 s -> g1 e1 a -> esim vis st1 e1 s st' (k a) g2) ->
  esim vis st e s st' (rbind r k) g2.
Proof.
  intros H K. destruct r as [a| | |]; cbn in *; auto. destruct H as (is & e1 & R & U & A1 & G).
  specialize (K a e1 eq_refl A1 G). destruct (k a) as [b| | |]; cbn in *; auto.
  - destruct K as (js & e2 & R2 & U2 & A2 & G2). exists (is ++ js), e2. rewrite <- app_assoc, <- R2.
    split; auto. split; [eapply runs_app; eauto|auto].
  - destruct K as (js & tl & R2 & T). exists (is ++ js), tl. rewrite <- app_assoc, <- R2. split; auto.
    eapply runs_traps; eauto.
Qed.
Lemma esim_good {A} vis st e s st' (r : MirSem.res A) (g1 g2 : env -> A -> Prop) :
  (forall e' a, r = ROk a -> g1 e' a -> g2 e' a) -> esim vis st e s st' r g1 -> esim vis st e s st' r g2.
Proof. intros H. destruct r; cbn; auto. intros (is & e' & R & U & A1 & G). exists is, e'. auto. Qed.
(** What happens in one instruction. *)
Lemma esim_emit vis st e s i u (r : MirSem.res val) (good : env -> val -> Prop) d t : let st2 := emit i (snd (fresh u st)) in
  ext st F -> ext st2 F -> at_ vis st e s -> dests i = [d] ->
  (exists M, forall n, M <= n -> (forall x, r = ROk x -> effect (W n) (l_tys F) e tt (ci F i) = ROk ([x], tt)) /\
     (r = RTrap -> effect (W n) (l_tys F) e tt (ci F i) = RTrap)) ->
  (forall e' x, r = ROk x -> opv st2 e' t (Op d) x -> good e' x) ->
  esim vis st e s st2 r good.
Proof.
  intros st2 X X2 A D (M & E) G. destruct r as [x| | |]; cbn; auto.
  - destruct (emit1_sim vis st e s i d u x t X X2 A D) as (R & U & A2 & O).
    { exists M. intros n L. apply (E n L). auto. }
    exists [ci F i], (MirSem.upd e d x). split; [exact R|]. split; [exact U|]. split; [exact A2|]. apply G; auto.
  - destruct (emit_trap st e i st2 eq_refl (emit1_body i u st) X2) as (tl & R & T).
    { exists M. intros n L. apply (E n L). auto. }
    exists [ci F i], tl. auto.
Qed.

Lemma quiet_ext st st' : quiet st st' -> ext st' F -> ext st F.
Proof. intros Q X. eapply ext_trans; [apply (s_ext _ _ _ _ _ (q_step _ _ Q))|exact X]. Qed.
Lemma fresh_ext u i st : inv st [] -> finished st (l_cur st) = false -> ext (emit i (snd (fresh u st))) F -> ext st F.
Proof.
  intros I U X. eapply ext_trans; [|exact X]. eapply ext_trans.
  - apply (s_ext _ _ _ _ _ (q_step _ _ (fresh_quiet V ps u st _ I))).
  - apply (s_ext _ _ _ _ _ (q_step _ _ (emit_quiet V ps i (snd (fresh u st)) _ (fresh_inv V ps u st _ I) U))).
Qed.

Lemma expr_sim :
  (forall e t st v st' vis en s, type_of V sg e = Some t -> no_neg V sg e = true -> live st ->
     lower_expr e st = Some (v, st') -> ext st' F -> at_ vis st en s ->
     esim vis st en s st' (eval call s e) (fun e' x => fits t x /\ opv st' e' t v x)) /\
  (forall es ts st vs st' vis en s, types_of_args V sg es ts = true -> no_negs V sg es = true -> live st ->
     lower_exprs es st = Some (vs, st') -> ext st' F -> at_ vis st en s ->
     esim vis st en s st' (evals call s es) (fun e' xs => Forall2 fits ts xs /\ opvs st' e' ts vs xs)).
Proof.
  apply expr_exprs_ind.
  - intros n t u st v st' vis en s T _ L [= <- <-] X A. cbn [type_of] in T.
    destruct (_ && _) eqn:B in T; [|discriminate]. injection T as ->. apply andb_true_iff in B. destruct B as [B1 B2].
    apply Z.leb_le in B1. apply Z.ltb_lt in B2. cbn [eval].
    destruct u; cbn [lit_val esim]; auto; exists [], en; (split; [reflexivity|]); (split; [apply runs_nil|]); (split; [exact A|]);
      unfold fits; cbn [shape opv lit_as].
    + split; [apply wfb_iff; exact (conj B1 B2)|]. rewrite (Z.mod_small n B32) by (clear - B1 B2; unfold B32; lia).
      rewrite (Z.mod_small n P) by (exact (conj B1 B2)). reflexivity.
    + split; [apply u32b_iff; exact (conj B1 B2)|]. rewrite !(Z.mod_small n B32) by (exact (conj B1 B2)). reflexivity.
  - intros b u st v st' vis en s T _ L [= <- <-] X A. injection T as <-. cbn.
    exists [], en. split; auto. split; [apply runs_nil|]. split; auto. split; reflexivity.
  - intros x u st v st' vis en s T _ L H X A. cbn [Lower.lower_expr type_of] in *. injection T as <-.
    destruct (read _ x _ st) as [[i st1]|] eqn:R; [|discriminate]. injection H as <- <-.
    destruct L as (I & L & FI). destruct (read_spec V ps _ x _ _ _ _ _ I L R) as (I1 & R1 & D1 & S1).
    assert (X0 : ext st F) by (eapply ext_trans; [apply (rd_ext _ _ _ R1)|exact X]).
    destruct (at_rd vis st en s _ st1 R1 X0 X A) as (RE & A1).
    assert (CD : cur_def st1 x i). { left. rewrite (r_cur _ _ _ R1). exact D1. }
    destruct (a_def _ _ _ _ A1 x i CD) as (w & S2 & S3 & S4). cbn [eval]. rewrite S2. cbn.
    exists [], en. rewrite RE. split; auto. split; [apply runs_nil|]. split; auto.
    split; [exact (a_well _ _ _ _ A x w S2)|]. split; auto. rewrite <- RE. exact S4.
  - intros op a IH u st v st' vis en s T N L H X A. cbn [no_neg] in N. apply andb_true_iff in N. destruct N as [N1 N2].
    cbn [Lower.lower_expr] in H. unfold ety in H. rewrite T in H. cbn [type_of] in T.
    destruct (type_of V sg a) as [ta|] eqn:TA; [|discriminate].
    destruct (lower_expr a st) as [[w st1]|] eqn:E; [|discriminate].
    destruct (proj1 (lower_expr_spec V ps sg) a _ _ _ _ TA L E) as (I1 & Q1 & _). pose proof (quiet_live V ps _ _ L Q1 I1) as L1.
    assert (st' = emit (IUnary op (l_next st1) w) (snd (fresh u st1)) /\ v = Op (l_next st1)) as [-> ->].
    { cbn in H. injection H as <- <-. auto. }
    pose proof (fresh_ext u _ st1 I1 (proj2 (proj2 L1)) X) as X1.
    cbn [eval]. eapply esim_bind; [eapply IH; eauto|]. intros y e1 EV A1 [FY OY].
    assert (NU : op = Neg -> ta <> TU32) by (intros -> ->; discriminate).
    destruct (un_match op ta u y T FY NU) as (NT & M1 & M2).
    apply (esim_emit vis st1 e1 s (IUnary op (l_next st1) w) u (src_un op y) _ (l_next st1) u X1 X A1 eq_refl).
    + exists 0. intros n _. unfold ci. cbn [imap effect].
      rewrite (opv_any st1 e1 ta w y OY FY) by (destruct op, ta; try discriminate; auto; congruence). cbn [of_opt rbind].
      split; intros; [rewrite (M1 _ H0)|rewrite (M2 H0)]; reflexivity.
    + intros e' x' EX O. split; auto. pose proof (src_un_fits op ta u y T FY) as K. rewrite EX in K. exact K.
  - intros op l IHl r IHr u st v st' vis en s T N L H X A. cbn [no_neg] in N. apply andb_true_iff in N. destruct N as [N1 N2].
    cbn [Lower.lower_expr] in H. unfold ety in H. rewrite T in H. cbn [type_of] in T.
    destruct (type_of V sg l) as [tl|] eqn:TL; [|discriminate]. destruct (type_of V sg r) as [tr|] eqn:TR; [|discriminate].
    destruct (ty_eqb tl tr) eqn:TT; [|discriminate]. apply ty_eqb_eq in TT. subst tr.
    destruct (lower_expr l st) as [[w st1]|] eqn:E1; [|discriminate].
    destruct (proj1 (lower_expr_spec V ps sg) l _ _ _ _ TL L E1) as (I1 & Q1 & _). pose proof (quiet_live V ps _ _ L Q1 I1) as L1.
    destruct (lower_expr r st1) as [[z st2]|] eqn:E2; [|discriminate].
    destruct (proj1 (lower_expr_spec V ps sg) r _ _ _ _ TR L1 E2) as (I2 & Q2 & _). pose proof (quiet_live V ps _ _ L1 Q2 I2) as L2.
    change (fresh u st2) with (l_next st2, snd (fresh u st2)) in H. cbv iota beta in H.
    destruct (from_parser op tl) as [o|] eqn:FP; [|discriminate].
    assert (st' = emit (IBinary o (l_next st2) w z) (snd (fresh u st2)) /\ v = Op (l_next st2)) as [-> ->] by (split; congruence).
    pose proof (fresh_ext u _ st2 I2 (proj2 (proj2 L2)) X) as X2. pose proof (quiet_ext _ _ Q2 X2) as X1.
    cbn [eval]. eapply esim_bind; [eapply IHl; eauto|]. intros y e1 EV A1 [FY OY].
    eapply esim_bind.
    { instantiate (1 := fun e' x => (fits tl x /\ opv st2 e' tl z x) /\ opv st2 e' tl w y).
      instantiate (1 := st2). pose proof (IHr tl st1 z st2 vis e1 s eq_refl N2 L1 E2 X2 A1) as K.
      destruct (eval call s r) as [q| | |]; cbn in *; auto. destruct K as (is & e2 & R & U & A2 & G).
      exists is, e2. repeat (split; auto). eapply opv_run; eauto. }
    intros q e2 EQ A2 [[FQ OQ] OW].
    destruct (bin_match op tl o y q FP FY FQ) as (OT & M1 & M2).
    apply (esim_emit vis st2 e2 s (IBinary o (l_next st2) w z) u (src_bin op y q) _ (l_next st2) u X2 X A2 eq_refl).
    + exists 0. intros n _. unfold ci. cbn [imap effect]. unfold eval_bin, eval_opnd.
      assert (EW : match op_type o with Some t => eval_as e2 t (cv F w) | None => eval_any e2 (cv F w) end = Some y /\
                   match op_type o with Some t => eval_as e2 t (cv F z) | None => eval_any e2 (cv F z) end = Some q).
      { destruct OT as [[-> NT]| ->].
        - assert (tl = TFelt \/ tl = TBool) by (destruct op, tl; try discriminate; auto; congruence).
          split; eapply opv_any; eauto.
        - split; eapply opv_as; eauto. }
      destruct EW as [-> ->]. cbn [of_opt rbind].
      split; intros; [rewrite (M1 _ H0)|rewrite (M2 H0)]; reflexivity.
    + intros e' x' EX O. split; auto. pose proof (src_bin_fits op tl u y q T FY FQ) as K. rewrite EX in K. exact K.
  - intros f args IH u st v st' vis en s T N L H X A. rewrite lower_call_eq in H. cbn [type_of] in T.
    destruct (nth_error sg f) as [[ts [t|]]|] eqn:NE; try discriminate.
    destruct (types_of_args V sg args ts) eqn:TA; [|discriminate]. injection T as <-.
    destruct (lower_exprs args st) as [[vs st1]|] eqn:E; [|discriminate].
    destruct (proj2 (lower_expr_spec V ps sg) args _ _ _ _ TA L E) as (I1 & Q1). pose proof (quiet_live V ps _ _ L Q1 I1) as L1.
    cbn [snd fst] in H.
    assert (st' = emit (ICall [l_next st1] f vs ts) (snd (fresh t st1)) /\ v = Op (l_next st1)) as [-> ->] by (split; congruence).
    pose proof (fresh_ext t _ st1 I1 (proj2 (proj2 L1)) X) as X1.
    cbn [eval]. eapply esim_bind; [eapply IH; eauto|]. intros ys e1 EV A1 [FY OY].
    apply (esim_emit vis st1 e1 s (ICall [l_next st1] f vs ts) t (rbind (call f ys) of_opt) _ (l_next st1) t X1 X A1 eq_refl).
    + unfold ci. cbn [imap effect]. rewrite (opvs_list st1 e1 ts vs ys OY FY). cbn [of_opt rbind].
      destruct (call f ys) as [r| | |] eqn:C.
      * destruct (call_ok f ts (Some t) ys r NE FY C) as (FR & M & K). exists M. intros n LN. rewrite (K n LN). cbn [rbind].
        destruct r as [r|]; cbn in FR; [|destruct FR]. split; intros; [|discriminate]. cbn in *. congruence.
      * destruct (call_trap f ts (Some t) ys NE FY C) as (M & K). exists M. intros n LN. rewrite (K n LN). cbn.
        split; intros; [discriminate|reflexivity].
      * exists 0. intros; split; intros; discriminate.
      * exists 0. intros; split; intros; discriminate.
    + intros e' x' EX O. split; auto. destruct (rbind_ok _ _ _ EX) as (r & C & K).
      destruct (call_ok f ts (Some t) ys r NE FY C) as (FR & _). destruct r as [r|]; cbn in FR, K; [|destruct FR].
      congruence.
  - intros a IH t u st v st' vis en s T N L H X A. cbn [no_neg] in N.
    cbn [Lower.lower_expr type_of] in *. unfold ety in H.
    destruct (type_of V sg a) as [ta|] eqn:TA; [|discriminate].
    assert (ta = TU32 /\ t = TFelt /\ u = TFelt) as (-> & -> & ->).
    { destruct ta; try discriminate; destruct t; try discriminate. repeat split; congruence. }
    destruct (lower_expr a st) as [[w st1]|] eqn:E; [|discriminate].
    destruct (proj1 (lower_expr_spec V ps sg) a _ _ _ _ TA L E) as (I1 & Q1 & _). pose proof (quiet_live V ps _ _ L Q1 I1) as L1.
    change (fresh TFelt st1) with (l_next st1, snd (fresh TFelt st1)) in H. cbv iota beta in H.
    assert (st' = emit (ICast (l_next st1) w TU32 TFelt) (snd (fresh TFelt st1)) /\ v = Op (l_next st1)) as [-> ->] by (split; congruence).
    pose proof (fresh_ext TFelt _ st1 I1 (proj2 (proj2 L1)) X) as X1.
    cbn [eval]. eapply esim_bind; [eapply IH; eauto|]. intros y e1 EV A1 [FY OY].
    refine (esim_emit vis st1 e1 s (ICast (l_next st1) w TU32 TFelt) TFelt _ _ (l_next st1) TFelt X1 X A1 eq_refl _ _).
    + exists 0. intros n _. unfold ci. cbn [imap effect]. rewrite (opv_as st1 e1 TU32 w y OY FY). cbn [of_opt rbind].
      split; [intros x' EX|intros EX]; rewrite EX; reflexivity.
    + intros e' x' EX O. split; auto. unfold fits in FY. destruct y; try discriminate.
      destruct (z <? P)%Z eqn:ZP; [|discriminate]. injection EX as <-. unfold fits. cbn in FY |- *.
      apply u32b_iff in FY. apply wfb_iff. apply Z.ltb_lt in ZP. lia.
  - intros ts st vs st' vis en s T _ L [= <- <-] X A. destruct ts; [|discriminate]. cbn.
    exists [], en. split; auto. split; [apply runs_nil|]. split; auto.
  - intros e IHe es IHes ts st vs st' vis en s T N L H X A. cbn [no_negs] in N. apply andb_true_iff in N. destruct N as [N1 N2].
    rewrite lower_cons_eq in H. destruct ts as [|t ts]; [discriminate|].
    cbn [types_of_args] in T. destruct (type_of V sg e) as [u|] eqn:TE; [|discriminate].
    apply andb_true_iff in T. destruct T as [TT T]. apply ty_eqb_eq in TT. subst u.
    destruct (lower_expr e st) as [[w st1]|] eqn:E1; [|discriminate].
    destruct (proj1 (lower_expr_spec V ps sg) e _ _ _ _ TE L E1) as (I1 & Q1 & _). pose proof (quiet_live V ps _ _ L Q1 I1) as L1.
    destruct (lower_exprs es st1) as [[ws st2]|] eqn:E2; [|discriminate]. injection H as <- <-.
    destruct (proj2 (lower_expr_spec V ps sg) es _ _ _ _ T L1 E2) as (I2 & Q2).
    pose proof (quiet_ext _ _ Q2 X) as X1.
    change (evals call s (ECons e es)) with (rbind (eval call s e) (fun v => rbind (evals call s es) (fun vs => ROk (v :: vs)))).
    eapply esim_bind; [eapply IHe; eauto|]. intros y e1 EV A1 [FY OY].
    pose proof (IHes ts st1 ws st2 vis e1 s T N2 L1 E2 X A1) as K.
    destruct (evals call s es) as [ys| | |]; cbn in *; auto. destruct K as (is & e2 & R & U & A2 & FS & OS).
    exists is, e2. repeat (split; auto). eapply opv_run; eauto.
Qed.

(** ** Between blocks. *)
Definition rest (n fuel b : nat) (is : list minstr) (e : env) : MirSem.res (list val * unit) :=
  rbind (exec_list (W n) (l_tys F) e tt is) (fun x =>
  rbind (exec_term (fst x) (map (f_types g) (f_rets g)) (l_term F b)) (fun k =>
  match k with
  | NGo b' => run (W n) g fuel (Some b) b' (fst x) (snd x)
  | NRet vs => ROk (vs, snd x)
  end)).
Definition goes b is e b' is' e' : Prop :=
  exists M m, forall n fuel, M <= n -> rest n (m + fuel) b is e = rest n fuel b' is' e'.
Definition ends_with b is e (r : MirSem.res (list val * unit)) : Prop :=
  exists M m, forall n fuel, M <= n -> rest n (m + fuel) b is e = r.
Lemma goes_trans b is e b1 is1 e1 b2 is2 e2 : goes b is e b1 is1 e1 -> goes b1 is1 e1 b2 is2 e2 -> goes b is e b2 is2 e2.
Proof.
  intros (M & m & A) (N & k & B). exists (max M N), (m + k). intros n fuel L.
  rewrite <- Nat.add_assoc, A by lia. apply B. lia.
Qed.
Lemma goes_ends b is e b1 is1 e1 r : goes b is e b1 is1 e1 -> ends_with b1 is1 e1 r -> ends_with b is e r.
Proof.
  intros (M & m & A) (N & k & B). exists (max M N), (m + k). intros n fuel L.
  rewrite <- Nat.add_assoc, A by lia. apply B. lia.
Qed.
Lemma runs_goes b is e e' js : runs e is e' -> goes b (is ++ js) e b js e'.
Proof.
  intros (M & A). exists M, 0. intros n fuel L. unfold rest. rewrite exec_list_app, (A n L). reflexivity.
Qed.
Lemma traps_ends b is e js : traps e is -> ends_with b (is ++ js) e RTrap.
Proof.
  intros (M & A). exists M, 0. intros n fuel L. unfold rest. rewrite exec_list_app, (A n L). reflexivity.
Qed.
Lemma goes_refl b is e : goes b is e b is e.
Proof. exists 0, 0. reflexivity. Qed.

(** At the start of a block, after its phis. *)
Record begin (vis : list nat) (b : nat) (e : env) (s : store) : Prop := {
  b_vis : In b vis;
  b_env : known vis e;
  b_apart : apart vis;
  b_well : well s;
  b_def : forall x o, l_ent F x b = Some o -> exists v, s x = Some v /\ e (cls o) = Some v /\
            ~ In (cls o) (flat_map dests (l_body F b)) }.
Lemma virgin_rem st : virgin st (l_cur st) -> rem st = l_body F (l_cur st).
Proof. intros (_ & _ & B & _). unfold rem. rewrite B. reflexivity. Qed.
Lemma begin_at vis st e s : virgin st (l_cur st) -> begin vis (l_cur st) e s -> at_ vis st e s.
Proof.
  intros VG [B1 B2 B3 B4 B5]. constructor; auto. intros x o [H|[_ H]].
  - destruct VG as (_ & _ & _ & D). destruct (D x). congruence.
  - rewrite (virgin_rem st VG). apply B5. exact H.
Qed.

Definition trip (p : lphi) : nat * ty * list (nat * value) :=
  (p_dest p, p_ty p, map (fun s => (fst s, Op (snd s))) (p_src p)).
Lemma span_phis l : forall body, (forall i, In i body -> is_phi i = false) ->
  span_phi (map phi_instr l ++ body) = (map trip l, body).
Proof.
  induction l as [|p l IH]; intros body N; cbn.
  - destruct body as [|i body]; auto. specialize (N i (or_introl eq_refl)). destruct i; try reflexivity; discriminate.
  - rewrite (IH body N). reflexivity.
Qed.
Lemma src_lookup q l : src_from q (map (fun s => (fst s, Op (snd s))) l) = option_map Op (lookup q l).
Proof. induction l as [|[p i] l IH]; cbn; auto. destruct (Nat.eqb q p); auto. Qed.
Lemma lookup_in q l i : lookup q l = Some i -> In (q, i) l.
Proof. induction l as [|[p j] l IH]; cbn; [discriminate|]. destruct (Nat.eqb_spec q p); [intros [= ->]; subst; auto|auto]. Qed.
Lemma enter_phis e prev s : forall l, NoDup (map p_dest l) ->
  (forall p, In p l -> exists v, s (p_var p) = Some v /\ phi_val e prev (trip p) = Some v) ->
  exists e', enter e prev (map trip l) = Some e' /\ (forall p, In p l -> e' (p_dest p) = s (p_var p)) /\
    (forall j, ~ In j (map p_dest l) -> e' j = e j).
Proof.
  intros l ND H.
  assert (OM : exists vs, omap (phi_val e prev) (map trip l) = Some vs /\ Forall2 (fun p v => s (p_var p) = Some v) l vs).
  { clear ND. induction l as [|p l IH]; [exists []; split; [reflexivity|constructor]|].
    destruct (H p (or_introl eq_refl)) as (v & S1 & S2). destruct IH as (vs & A & B); [intros; apply H; right; auto|].
    exists (v :: vs). cbn [map omap]. rewrite S2, A. split; auto. }
  destruct OM as (vs & A & B). unfold enter. rewrite A. rewrite map_map.
  change (map (fun x => fst (fst (trip x))) l) with (map p_dest l). clear A H. revert e.
  induction B as [|p v l vs S1 B IH]; intros e; cbn [map bind_all].
  - exists e. split; auto. split; [intros ? []|auto].
  - cbn [map] in ND. apply NoDup_cons_iff in ND. destruct ND as [N1 N2].
    destruct (IH N2 (MirSem.upd e (p_dest p) v)) as (e' & E & D & K). exists e'. split; auto. split.
    + intros q [<-|Q]; [|auto]. rewrite (K _ N1). unfold MirSem.upd. rewrite Nat.eqb_refl. auto.
    + intros j N. rewrite K by (intros Q; apply N; right; auto). unfold MirSem.upd.
      destruct (Nat.eqb_spec j (p_dest p)); auto. subst. destruct N. left. auto.
Qed.

Lemma pred_lt p b : In p (l_preds F b) -> b < l_nb F.
Proof.
  intros H. destruct (Nat.lt_ge_cases b (l_nb F)) as [|G]; auto.
  destruct (i_new _ _ _ _ IF b G) as (_ & _ & _ & E & _). rewrite E in H. destruct H.
Qed.

(** Taking an edge. *)
Lemma edge_sim vis st e s t b : ext st F -> at_ vis st e s -> ends F st (l_cur st) t ->
  In b (targets t) ->
  exists vis' e', begin vis' b e' s /\
    (exec_term e (map (f_types g) (f_rets g)) (ct F t) = ROk (NGo b) ->
     goes (l_cur st) (rem st) e b (l_body F b) e').
Proof.
  intros X A E TB. set (p := l_cur st) in *. destruct E as [E1 E2 E3].
  assert (RN : rem st = []).
  { pose proof (f_equal (@length _) E1) as L. rewrite !map_length in L. unfold rem. fold p. rewrite <- L. apply skipn_all. }
  rewrite canon_term in E2.
  assert (IN : In b (targets (l_term F p))). { rewrite E2. unfold ct. rewrite targets_tmap. exact TB. }
  pose proof (i_edge _ _ _ _ IF p b IN) as PB. pose proof (pred_lt p b PB) as LB.
  assert (DF : forall x w, l_def F x p = Some w -> exists v, s x = Some v /\ e (cls w) = Some v).
  { intros x w H. destruct (E3 x w H) as [(w0 & D0 & C0)|(D0 & o & O & C0)].
    - destruct (a_def _ _ _ _ A x w0 (or_introl D0)) as (v & S1 & S2 & _). exists v. rewrite C0. auto.
    - destruct (a_def _ _ _ _ A x o (or_intror (conj D0 O))) as (v & S1 & S2 & _). exists v. rewrite C0. auto. }
  pose proof (i_nodup _ _ _ _ IF b) as ND. unfold dests_of in ND. pose proof (nodup_app_l _ _ ND) as ND1.
  destruct (enter_phis e (Some p) s (l_phis F b) ND1) as (e' & EN & EP & EK).
  { intros ph PH. destruct (i_phi _ _ _ _ IF b ph PH) as (_ & TY & [[K|[]]|(_ & K)]).
    - pose proof (sealed_all b LB). pose proof (i_inc _ _ _ _ IF _ _ _ K). congruence.
    - destruct (K p PB) as (v & i & D & L & C). destruct (DF _ _ D) as (w & S1 & S2). exists w. split; auto.
      unfold phi_val, trip. cbn [snd fst]. rewrite src_lookup, L. cbn [option_map eval_as].
      rewrite <- C, (canon_src b ph p i PH (lookup_in _ _ _ L)) in S2. rewrite S2, TY.
      rewrite (a_well _ _ _ _ A _ _ S1). reflexivity. }
  assert (AP : apart (b :: vis)).
  { intros c x o [<-|C] O; [|apply (a_apart _ _ _ _ A); auto].
    destruct (in_dec Nat.eq_dec b vis) as [K|K]; [apply (a_apart _ _ _ _ A); auto|].
    destruct (i_ent _ _ _ _ IF _ _ _ O) as [HP|(_ & _ & AS)]; [left; auto|right]. intros ID.
    destruct (AS p PB) as (v & D & C). destruct (DF _ _ D) as (w & _ & S2). rewrite C in S2.
    destruct (a_env _ _ _ _ A (cls o) ltac:(congruence)) as [Q|(c & Q1 & Q2)].
    - destruct (i_dest _ _ _ _ IF _ _ ID) as (_ & _ & NP). auto.
    - apply K. rewrite (i_one _ _ _ _ IF _ _ _ ID Q2). auto. }
  exists (b :: vis), e'. split.
  - constructor; auto.
    + left; auto.
    + intros i N. destruct (in_dec Nat.eq_dec i (map p_dest (l_phis F b))) as [K|K].
      * right. exists b. split; [left; auto|]. apply in_or_app. auto.
      * rewrite (EK i K) in N. destruct (a_env _ _ _ _ A i N) as [Q|(c & Q1 & Q2)]; auto.
        right. exists c. split; auto. right. auto.
    + apply (a_well _ _ _ _ A).
    + intros x o O. destruct (AP b x o (or_introl eq_refl) O) as [(ph & P1 & P2 & P3)|NI].
      * subst o x. rewrite (proj1 (proj2 (i_dest _ _ _ _ IF b _ (phi_in_dests F b ph P1)))).
        destruct (i_phi _ _ _ _ IF b ph P1) as (_ & _ & _).
        assert (SV : exists v, s (p_var ph) = Some v).
        { destruct (i_phi _ _ _ _ IF b ph P1) as (_ & _ & [[K|[]]|(_ & K)]).
          - pose proof (sealed_all b LB). pose proof (i_inc _ _ _ _ IF _ _ _ K). congruence.
          - destruct (K p PB) as (v & i & D & _ & _). destruct (DF _ _ D) as (w & S1 & _). eauto. }
        destruct SV as (v & SV). exists v. split; auto. rewrite (EP ph P1). split; auto.
        intros K. apply in_split in P1. destruct P1 as (l1 & l2 & P1). rewrite P1, map_app in ND. cbn [map] in ND.
        rewrite <- app_assoc in ND. cbn [app] in ND. apply NoDup_remove_2 in ND. apply ND.
        apply in_or_app. right. apply in_or_app. auto.
      * assert (NI1 : ~ In (cls o) (map p_dest (l_phis F b))) by (intros K; apply NI, in_or_app; auto).
        assert (NI2 : ~ In (cls o) (flat_map dests (l_body F b))) by (intros K; apply NI, in_or_app; auto).
        destruct (i_ent _ _ _ _ IF _ _ _ O) as [(ph & P1 & P2 & P3)|(_ & _ & AS)].
        { subst o. destruct NI. rewrite (proj1 (proj2 (i_dest _ _ _ _ IF b _ (phi_in_dests F b ph P1)))).
          apply phi_in_dests; auto. }
        destruct (AS p PB) as (v & D & C). destruct (DF _ _ D) as (w & S1 & S2). rewrite C in S2.
        exists w. split; auto. split; auto. rewrite EK; auto.
  - intros ET. exists 0, 1. intros n fuel _. unfold rest at 1. rewrite RN. cbn [exec_list rbind fst snd].
    rewrite E2, ET. cbn [rbind Nat.add run]. rewrite (g_blocks b LB). unfold block_of. cbn [b_instrs b_term].
    rewrite (span_phis (l_phis F b) (l_body F b) (fun i => i_nophi _ _ _ _ IF b i)). cbn [fst snd].
    rewrite EN. cbn [of_opt rbind]. unfold rest. rewrite g_types. reflexivity.
Qed.
Lemma jump_sim vis st e s b : ext st F -> at_ vis st e s -> ends F st (l_cur st) (TJump b) ->
  exists vis' e', begin vis' b e' s /\ goes (l_cur st) (rem st) e b (l_body F b) e'.
Proof.
  intros X A E. destruct (edge_sim vis st e s _ b X A E (or_introl eq_refl)) as (vis' & e' & B & G).
  exists vis', e'. split; auto.
Qed.
Lemma if_sim vis st e s v b1 b2 (c : bool) : ext st F -> at_ vis st e s -> ends F st (l_cur st) (TIf v b1 b2) ->
  opv st e TBool v (VBool c) ->
  exists vis' e', let b := if c then b1 else b2 in begin vis' b e' s /\ goes (l_cur st) (rem st) e b (l_body F b) e'.
Proof.
  intros X A E O. destruct (edge_sim vis st e s _ (if c then b1 else b2) X A E) as (vis' & e' & B & G).
  { cbn. destruct c; auto. }
  exists vis', e'. split; auto. apply G. cbn [ct tmap exec_term].
  assert (T : truth e (cv F v) = Some c).
  { destruct v as [l|i|]; cbn in *; [|destruct O as [-> _]; reflexivity|destruct O]. destruct l; try discriminate.
    congruence. }
  rewrite T. reflexivity.
Qed.
Lemma ends_rem st t : ends F st (l_cur st) t -> rem st = [].
Proof.
  intros [E1 _ _]. pose proof (f_equal (@length _) E1) as L. rewrite !map_length in L. unfold rem. rewrite <- L. apply skipn_all.
Qed.

(** ** Statements. *)
Definition outcome (lc : option (nat * nat)) (st' : lst) b is e (r : MirSem.res out) : Prop :=
  match r with
  | ROk (ONext s') => finished st' (l_cur st') = false /\
      exists vis' e', at_ vis' st' e' s' /\ goes b is e (l_cur st') (rem st') e'
  | ROk (OBreak s') => exists h x vis' e', lc = Some (h, x) /\ begin vis' x e' s' /\ goes b is e x (l_body F x) e'
  | ROk (OCont s') => exists h x vis' e', lc = Some (h, x) /\ begin vis' h e' s' /\ goes b is e h (l_body F h) e'
  | ROk (ORet v) => fit_ret ret v /\ ends_with b is e (ROk (outs v, tt))
  | RTrap => ends_with b is e RTrap
  | _ => True
  end.
Lemma outcome_goes lc st' b is e b1 is1 e1 r : goes b is e b1 is1 e1 -> outcome lc st' b1 is1 e1 r -> outcome lc st' b is e r.
Proof.
  intros G. destruct r as [[s|s|s|v]| | |]; cbn; auto.
  - intros (U & vis & e' & A & K). split; auto. exists vis, e'. split; auto. eapply goes_trans; eauto.
  - intros (h & x & vis & e' & L & A & K). exists h, x, vis, e'. split; auto. split; auto. eapply goes_trans; eauto.
  - intros (h & x & vis & e' & L & A & K). exists h, x, vis, e'. split; auto. split; auto. eapply goes_trans; eauto.
  - intros (T & K). split; auto. eapply goes_ends; eauto.
  - intros K. eapply goes_ends; eauto.
Qed.
(** A condition and what follows. *)
Lemma esim_outcome {A} vis st e s st1 (r : MirSem.res A) good k lc st' :
  esim vis st e s st1 r good -> l_cur st1 = l_cur st ->
  (forall a e1, r = ROk a -> at_ vis st1 e1 s -> good e1 a -> outcome lc st' (l_cur st) (rem st1) e1 (k a)) ->
  outcome lc st' (l_cur st) (rem st) e (rbind r k).
Proof.
  intros H C K. destruct r as [a| | |]; cbn in *; auto.
  - destruct H as (is & e1 & R & U & A1 & G). rewrite R. eapply outcome_goes; [apply runs_goes; exact U|]. auto.
  - destruct H as (is & tl & R & T). rewrite R. apply traps_ends. auto.
Qed.
Lemma cond_outcome vis st e s c v st1 k lc st' : type_of V sg c = Some TBool -> no_neg V sg c = true -> live st ->
  lower_expr c st = Some (v, st1) -> ext st1 F -> at_ vis st e s ->
  (forall b e1, at_ vis st1 e1 s -> opv st1 e1 TBool v (VBool b) -> outcome lc st' (l_cur st) (rem st1) e1 (k b)) ->
  outcome lc st' (l_cur st) (rem st) e (cond call s c k).
Proof.
  intros T N L E X A K. unfold cond. destruct (proj1 (lower_expr_spec V ps sg) c _ _ _ _ T L E) as (I1 & Q1 & _).
  eapply esim_outcome; [eapply (proj1 expr_sim); eauto|apply (q_cur _ _ Q1)|].
  intros a e1 EV A1 [FA OA]. unfold fits in FA. destruct a; try discriminate. apply K; auto.
Qed.

Lemma well_set s x a : well s -> fits (V x) a -> well (set s x a).
Proof. intros H T y v. unfold set. destruct (Nat.eqb_spec y x); [intros [= <-]; subst; auto|apply H]. Qed.
Lemma at_write vis st e s x i a : at_ vis st e s -> e (cls i) = Some a -> ~ In (cls i) (flat_map dests (rem st)) ->
  fits (V x) a -> at_ vis (write x (l_cur st) i st) e (set s x a).
Proof.
  intros [A1 A2 A3 A4 A5] E N T. constructor; auto; [apply well_set; auto|].
  intros y o H. change (rem (write x (l_cur st) i st)) with (rem st). unfold cur_def in H. cbn [write l_def l_cur] in H.
  unfold upf2 in H. rewrite Nat.eqb_refl, andb_true_r in H. unfold set. destruct (Nat.eqb_spec y x).
  - destruct H as [[= <-]|[H _]]; [|discriminate]. exists a. auto.
  - apply A5. exact H.
Qed.
Lemma bind_var_sim vis st e s x v a st' : inv st [] -> finished st (l_cur st) = false -> l_cur st < l_nb st ->
  at_ vis st e s -> opv st e (V x) v a -> fits (V x) a ->
  bind_var V x v st = Some st' -> ext st' F ->
  exists is e', rem st = is ++ rem st' /\ runs e is e' /\ at_ vis st' e' (set s x a).
Proof.
  intros I U C A O T H X. destruct v as [l|i|]; cbn [bind_var] in H; [| |discriminate].
  - change (fresh (V x) st) with (l_next st, snd (fresh (V x) st)) in H. cbv iota beta in H.
    set (s1 := emit _ _) in H. change (l_cur (snd (fresh (V x) st))) with (l_cur s1) in H. injection H as <-.
    assert (I1 : inv s1 []) by (apply emit_inv1; auto).
    assert (X1 : ext s1 F).
    { eapply ext_trans; [|exact X]. apply (s_ext _ _ _ _ _ (q_step _ _ (write_quiet V ps x (l_next st) s1 [] I1 U))). }
    pose proof (fresh_ext (V x) _ st I U X1) as X0.
    destruct (emit1_sim vis st e s (IAssign (l_next st) (Lit l) (V x)) (l_next st) (V x) a (V x) X0 X1 A eq_refl) as (R & RU & A1 & O1).
    { exists 0. intros n _. unfold ci. cbn [imap cv effect eval_as]. cbn [opv] in O. rewrite O. reflexivity. }
    fold s1 in R, A1, O1. destruct O1 as [O1 O2].
    exists [ci F (IAssign (l_next st) (Lit l) (V x))], (MirSem.upd e (l_next st) a).
    split; [exact R|]. split; [exact RU|]. apply (at_write vis s1); auto.
  - injection H as <-. destruct O as [O1 O2]. exists [], e. split; [reflexivity|]. split; [apply runs_nil|].
    apply at_write; auto.
Qed.

Definition simn n := forall c D D' lc vis st st' e s,
  for_parts c = true -> typed V sg ret D c = Some D' -> no_neg_stmt V sg c = true -> pre lc st ->
  lower_stmt lc c st = Some st' -> ext st' F -> at_ vis st e s ->
  outcome lc st' (l_cur st) (rem st) e (sexec call n s c).
Definition whead n := forall lc D D' e c v sh st5 sb st9 st' vis en s,
  type_of V sg e = Some TBool -> no_neg V sg e = true ->
  for_parts c = true -> typed V sg ret D c = Some D' -> no_neg_stmt V sg c = true ->
  live sh -> virgin sh (l_cur sh) -> lower_expr e sh = Some (v, st5) -> ext st5 F ->
  ends F st5 (l_cur sh) (TIf v (l_cur sb) (l_cur st')) ->
  part V ps sg ord F (Some (l_cur sh, l_cur st')) c sb st9 -> virgin st' (l_cur st') ->
  (finished st9 (l_cur st9) = false -> ends F st9 (l_cur st9) (TJump (l_cur sh))) ->
  begin vis (l_cur sh) en s ->
  outcome lc st' (l_cur sh) (l_body F (l_cur sh)) en (sexec call n s (SWhile e c)).
Definition lhead n := forall lc D D' c sb st5 st' vis en s,
  for_parts c = true -> typed V sg ret D c = Some D' -> no_neg_stmt V sg c = true ->
  part V ps sg ord F (Some (l_cur sb, l_cur st')) c sb st5 -> virgin st' (l_cur st') ->
  (finished st5 (l_cur st5) = false -> ends F st5 (l_cur st5) (TJump (l_cur sb))) ->
  begin vis (l_cur sb) en s ->
  outcome lc st' (l_cur sb) (l_body F (l_cur sb)) en (sexec call n s (SLoop c)).
Definition fhead n := forall lc D D' D2 e c p v sh st6 sb st10 ss st13 st' vis en s,
  type_of V sg e = Some TBool -> no_neg V sg e = true ->
  for_parts c = true -> typed V sg ret D c = Some D' -> no_neg_stmt V sg c = true ->
  for_parts p = true -> typed V sg ret D p = Some D2 -> no_neg_stmt V sg p = true ->
  live sh -> virgin sh (l_cur sh) -> lower_expr e sh = Some (v, st6) -> ext st6 F ->
  ends F st6 (l_cur sh) (TIf v (l_cur sb) (l_cur st')) ->
  part V ps sg ord F (Some (l_cur ss, l_cur st')) c sb st10 -> virgin st' (l_cur st') ->
  (finished st10 (l_cur st10) = false -> ends F st10 (l_cur st10) (TJump (l_cur ss))) ->
  part V ps sg ord F None p ss st13 -> ends F st13 (l_cur st13) (TJump (l_cur sh)) ->
  begin vis (l_cur sh) en s ->
  outcome lc st' (l_cur sh) (l_body F (l_cur sh)) en (sfor call n s e p c).

Lemma exit_outcome lc st' vis e s : begin vis (l_cur st') e s -> virgin st' (l_cur st') ->
  outcome lc st' (l_cur st') (l_body F (l_cur st')) e (ROk (ONext s)).
Proof.
  intros B VG. cbn. split; [apply VG|]. exists vis, e. split; [apply begin_at; auto|].
  rewrite (virgin_rem st' VG). apply goes_refl.
Qed.
Lemma body_outcome lc st' h st9 b is e r (K : store -> MirSem.res out) :
  outcome (Some (h, l_cur st')) st9 b is e r -> virgin st' (l_cur st') -> ext st9 F ->
  (finished st9 (l_cur st9) = false -> ends F st9 (l_cur st9) (TJump h)) ->
  (forall s' vis' e', begin vis' h e' s' -> outcome lc st' h (l_body F h) e' (K s')) ->
  outcome lc st' b is e (rbind r (fun o => match o with
    | ONext s' | OCont s' => K s' | OBreak s' => ROk (ONext s') | ORet v => ROk (ORet v) end)).
Proof.
  intros H VG X E HK. destruct r as [[s'|s'|s'|v]| | |]; cbn [outcome rbind] in *; auto.
  - destruct H as (U & vis & e' & A & G). eapply outcome_goes; [exact G|].
    destruct (jump_sim vis st9 e' s' h X A (E U)) as (vis2 & e2 & B & G2). eapply outcome_goes; [exact G2|]. exact (HK _ _ _ B).
  - destruct H as (h' & x & vis & e' & [= <- <-] & B & G). eapply (outcome_goes lc _ _ _ _ _ _ _ (ROk (ONext s'))); [exact G|].
    eapply exit_outcome; eauto.
  - destruct H as (h' & x & vis & e' & [= <- <-] & B & G). eapply outcome_goes; [exact G|]. exact (HK _ _ _ B).
Qed.

Lemma whead_step n : simn n -> whead n -> whead (S n).
Proof.
  intros SN WN lc D D' e c v sh st5 sb st9 st' vis en s TE NE FP TC NC L VH E5 X5 EN5 PA VX EN9 B.
  cbn [sexec]. pose proof (begin_at _ _ _ _ VH B) as A.
  destruct (proj1 (lower_expr_spec V ps sg) e _ _ _ _ TE L E5) as (_ & Q5 & _). pose proof (q_cur _ _ Q5) as C5.
  rewrite <- (virgin_rem sh VH).
  apply (cond_outcome vis sh en s e v st5 _ lc st' TE NE L E5 X5 A). intros q e1 A1 O1.
  assert (EN5' : ends F st5 (l_cur st5) (TIf v (l_cur sb) (l_cur st'))) by (rewrite C5; exact EN5).
  destruct (if_sim vis st5 e1 s v _ _ q X5 A1 EN5' O1) as (vis2 & e2 & B2 & G2). rewrite C5 in G2.
  eapply outcome_goes; [exact G2|]. destruct q.
  - destruct PA as (PB & VB & EB & XB).
    apply (body_outcome lc st' (l_cur sh) st9 (l_cur sb) (l_body F (l_cur sb)) e2 (sexec call n s c) (fun s' => sexec call n s' (SWhile e c))); auto.
    + rewrite <- (virgin_rem sb VB). eapply SN; eauto. eapply begin_at; eauto.
    + intros s' vis' e' B'. eapply (WN lc D D' e c v sh st5 sb st9 st'); eauto. repeat (split; auto).
  - eapply exit_outcome; eauto.
Qed.
Lemma lhead_step n : simn n -> lhead n -> lhead (S n).
Proof.
  intros SN WN lc D D' c sb st5 st' vis en s FP TC NC PA VX EN B. cbn [sexec].
  pose proof PA as PA'. destruct PA as (PB & VB & EB & XB).
  apply (body_outcome lc st' (l_cur sb) st5 (l_cur sb) (l_body F (l_cur sb)) en (sexec call n s c) (fun s' => sexec call n s' (SLoop c))); auto.
  - rewrite <- (virgin_rem sb VB). eapply SN; eauto. eapply begin_at; eauto.
  - intros s' vis' e' B'. eapply (WN lc D D' c sb st5 st'); eauto.
Qed.
Lemma fhead_step n : simn n -> fhead n -> fhead (S n).
Proof.
  intros SN WN lc D D' D2 e c p v sh st6 sb st10 ss st13 st' vis en s TE NE FP TC NC FPp TP NP L VH E6 X6 EN6 PA VX EN10 PS EN13 B.
  rewrite sfor_eq. pose proof (begin_at _ _ _ _ VH B) as A.
  destruct (proj1 (lower_expr_spec V ps sg) e _ _ _ _ TE L E6) as (_ & Q6 & _). pose proof (q_cur _ _ Q6) as C6.
  rewrite <- (virgin_rem sh VH).
  apply (cond_outcome vis sh en s e v st6 _ lc st' TE NE L E6 X6 A). intros q e1 A1 O1.
  assert (EN6' : ends F st6 (l_cur st6) (TIf v (l_cur sb) (l_cur st'))) by (rewrite C6; exact EN6).
  destruct (if_sim vis st6 e1 s v _ _ q X6 A1 EN6' O1) as (vis2 & e2 & B2 & G2). rewrite C6 in G2.
  eapply outcome_goes; [exact G2|]. destruct q.
  - pose proof PA as PA'. destruct PA as (PB & VB & EB & XB). pose proof PS as PS'. destruct PS as (PS1 & VS & ES & XS).
    apply (body_outcome lc st' (l_cur ss) st10 (l_cur sb) (l_body F (l_cur sb)) e2 (sexec call n s c)
      (fun s' => rbind (sexec call n s' p) (fun o' => match o' with ONext s'' => sfor call n s'' e p c | _ => RStuck end))); auto.
    + rewrite <- (virgin_rem sb VB). eapply SN; eauto. eapply begin_at; eauto.
    + intros s' vis' e' B'.
      assert (K : outcome None st13 (l_cur ss) (rem ss) e' (sexec call n s' p)) by (eapply SN; eauto; eapply begin_at; eauto).
      rewrite (virgin_rem ss VS) in K.
      destruct (sexec call n s' p) as [[s2|s2|s2|w]| | |]; cbn [rbind]; try exact Logic.I; [|exact K].
      destruct K as (U & vis3 & e3 & A3 & G3). eapply outcome_goes; [exact G3|].
      destruct (jump_sim vis3 st13 e3 s2 _ XS A3 EN13) as (vis4 & e4 & B4 & G4).
      eapply outcome_goes; [exact G4|]. eapply (WN lc D D' D2 e c p v sh st6 sb st10 ss st13 st'); eauto.
  - eapply exit_outcome; eauto.
Qed.

Lemma outcome_weak {A} vis st e s st1 (r : MirSem.res A) good k lc st' :
  esim vis st e s st1 r good -> l_cur st1 = l_cur st ->
  (forall a e1, r = ROk a -> at_ vis st1 e1 s -> good e1 a -> outcome lc st' (l_cur st1) (rem st1) e1 (k a)) ->
  outcome lc st' (l_cur st) (rem st) e (rbind r k).
Proof. intros H C K. eapply esim_outcome; eauto. intros. rewrite <- C. eapply K; eauto. Qed.

Lemma simn_step n : simn n -> whead n -> lhead n -> fhead n -> simn (S n).
Proof.
  intros SN WN LN FN c D D' lc vis st st' e s FP T N PR H X A.
  pose proof (whead_step n SN WN) as WS. pose proof (lhead_step n SN LN) as LS.
  pose proof (lower_stmt_spec V ps sg ret ord ord_perm) as SOK.
  destruct c as [ |c1 c2|x ex|x ex|f args|ex|ex|ex c1 c2|ex c1|ex c1|c1|c1 ex c2 c3| | |ex];
    cbn [for_parts typed no_neg_stmt] in FP, T, N.
  - injection H as <-. cbn. split; [apply PR|]. exists vis, e. split; auto. apply goes_refl.
  - apply andb_true_iff in FP. destruct FP as [FA FB]. apply andb_true_iff in N. destruct N as [NA NB].
    cbn [Lower.lower_stmt] in H. destruct (typed V sg ret D c1) as [D1|] eqn:T1; [|discriminate].
    destruct (lower_stmt lc c1 st) as [st1|] eqn:E1; [|discriminate].
    pose proof (SOK c1 D D1 FA T1 lc st st1 PR E1) as P1.
    assert (X1 : ext st1 F).
    { destruct (finished st1 (l_cur st1)) eqn:U1; [injection H as <-; auto|].
      pose proof (SOK c2 D1 D' FB T lc st1 st' (post_pre V ps lc st st1 PR P1 U1) H) as P2.
      eapply ext_trans; [apply (s_ext _ _ _ _ _ (o_step _ _ _ _ _ P2))|exact X]. }
    pose proof (SN c1 D D1 lc vis st st1 e s FA T1 NA PR E1 X1 A) as K.
    cbn [sexec]. destruct (sexec call n s c1) as [[s1|s1|s1|w]| | |] eqn:SE; cbn [rbind]; auto.
    + destruct K as (U1 & vis1 & e1 & A1 & G1). rewrite U1 in H. eapply outcome_goes; [exact G1|].
      eapply (SN c2 D1 D'); eauto. eapply post_pre; eauto.
  - destruct (has_type V sg D ex (V x)) eqn:HT; [|discriminate]. apply has_type_ok in HT. cbn [Lower.lower_stmt] in H.
    destruct (lower_expr ex st) as [[v st1]|] eqn:E; [|discriminate].
    destruct (proj1 (lower_expr_spec V ps sg) ex _ _ _ _ HT (proj1 PR) E) as (I1 & Q1 & TY).
    pose proof (quiet_live V ps _ _ (proj1 PR) Q1 I1) as L1. destruct (bind_var_spec V ps x v st1 st' L1 TY H) as (I2 & Q2).
    pose proof (quiet_ext _ _ Q2 X) as X1. cbn [sexec].
    eapply outcome_weak; [eapply (proj1 expr_sim); eauto; apply PR|apply (q_cur _ _ Q1)|]. intros a e1 EV A1 [FA OA].
    destruct L1 as (_ & C1 & U1).
    destruct (bind_var_sim vis st1 e1 s x v a st' I1 U1 C1 A1 OA FA H X) as (is & e2 & R & U & A2).
    rewrite R. eapply outcome_goes; [apply runs_goes; exact U|]. cbn. rewrite <- (q_cur _ _ Q2).
    split; [rewrite (q_fin _ _ Q2); rewrite (q_cur _ _ Q2); auto|]. exists vis, e2. split; auto. apply goes_refl.
  - destruct (mem_nat x D && has_type V sg D ex (V x)) eqn:HT; [|discriminate].
    apply andb_true_iff in HT. destruct HT as [_ HT]. apply has_type_ok in HT. cbn [Lower.lower_stmt] in H.
    destruct (lower_expr ex st) as [[v st1]|] eqn:E; [|discriminate].
    destruct (proj1 (lower_expr_spec V ps sg) ex _ _ _ _ HT (proj1 PR) E) as (I1 & Q1 & TY).
    pose proof (quiet_live V ps _ _ (proj1 PR) Q1 I1) as L1. destruct (bind_var_spec V ps x v st1 st' L1 TY H) as (I2 & Q2).
    pose proof (quiet_ext _ _ Q2 X) as X1. cbn [sexec].
    eapply outcome_weak; [eapply (proj1 expr_sim); eauto; apply PR|apply (q_cur _ _ Q1)|]. intros a e1 EV A1 [FA OA].
    destruct L1 as (_ & C1 & U1).
    destruct (bind_var_sim vis st1 e1 s x v a st' I1 U1 C1 A1 OA FA H X) as (is & e2 & R & U & A2).
    rewrite R. eapply outcome_goes; [apply runs_goes; exact U|]. cbn. rewrite <- (q_cur _ _ Q2).
    split; [rewrite (q_fin _ _ Q2); rewrite (q_cur _ _ Q2); auto|]. exists vis, e2. split; auto. apply goes_refl.
  - destruct (nth_error sg f) as [[ts [t|]]|] eqn:NE; try discriminate.
    destruct (scoped_args D args && types_of_args V sg args ts) eqn:HT; [|discriminate].
    apply andb_true_iff in HT. destruct HT as [_ HT]. cbn [Lower.lower_stmt] in H.
    destruct (lower_exprs args st) as [[vs st1]|] eqn:E; [|discriminate]. rewrite NE in H. injection H as <-.
    destruct (proj2 (lower_expr_spec V ps sg) args _ _ _ _ HT (proj1 PR) E) as (I1 & Q1).
    pose proof (quiet_live V ps _ _ (proj1 PR) Q1 I1) as L1. destruct L1 as (_ & C1 & U1). cbn [fst] in *.
    pose proof (quiet_ext _ _ (emit_quiet V ps (ICall [] f vs ts) st1 _ I1 U1) X) as X1. cbn [sexec].
    eapply outcome_weak; [eapply (proj2 expr_sim); eauto; apply PR|apply (q_cur _ _ Q1)|]. intros xs e1 EV A1 [FA OA].
    assert (EF : forall n0, effect (W n0) (l_tys F) e1 tt (ci F (ICall [] f vs ts)) = w_call (W n0) f xs tt).
    { intros n0. unfold ci. cbn [imap effect]. rewrite (opvs_list st1 e1 ts vs xs OA FA). reflexivity. }
    destruct (call f xs) as [r| | |] eqn:C; cbn [rbind]; try exact Logic.I.
    + destruct (call_ok f ts None xs r NE FA C) as (FR & M & K). destruct r as [r|]; cbn in FR; [destruct FR|].
      destruct (emit0_sim vis st1 e1 s (ICall [] f vs ts) X1 X A1 eq_refl) as (R & U & A2).
      { exists M. intros n0 LN0. rewrite EF. apply (K n0 LN0). }
      rewrite R. eapply outcome_goes; [apply runs_goes; exact U|]. cbn. split; [exact U1|]. exists vis, e1. split; auto. apply goes_refl.
    + destruct (call_trap f ts None xs NE FA C) as (M & K).
      destruct (emit_trap st1 e1 (ICall [] f vs ts) (emit (ICall [] f vs ts) st1) eq_refl) as (tl & R & TR); auto.
      { cbn. unfold upf. rewrite Nat.eqb_refl. reflexivity. }
      { exists M. intros n0 LN0. rewrite EF. apply (K n0 LN0). }
      rewrite R. apply traps_ends. exact TR.
  - destruct (type_of V sg ex) as [t|] eqn:HT; [|discriminate]. cbn [Lower.lower_stmt] in H.
    destruct (lower_expr ex st) as [[v st1]|] eqn:E; [|discriminate]. injection H as <-.
    destruct (proj1 (lower_expr_spec V ps sg) ex _ _ _ _ HT (proj1 PR) E) as (I1 & Q1 & TY).
    pose proof (quiet_live V ps _ _ (proj1 PR) Q1 I1) as (_ & C1 & U1). cbn [sexec].
    eapply outcome_weak; [eapply (proj1 expr_sim); eauto; apply PR|apply (q_cur _ _ Q1)|]. intros a e1 EV A1 [FA OA].
    cbn. split; auto. exists vis, e1. split; auto. apply goes_refl.
  - destruct (has_type V sg D ex TBool) eqn:HT; [|discriminate]. apply has_type_ok in HT. cbn [Lower.lower_stmt] in H.
    destruct (lower_expr ex st) as [[v st1]|] eqn:E; [|discriminate]. injection H as <-.
    destruct (proj1 (lower_expr_spec V ps sg) ex _ _ _ _ HT (proj1 PR) E) as (I1 & Q1 & TY).
    pose proof (quiet_live V ps _ _ (proj1 PR) Q1 I1) as (_ & C1 & U1).
    set (i := IAssertEq v (Lit (LInt 1))) in *.
    pose proof (quiet_ext _ _ (emit_quiet V ps i st1 _ I1 U1) X) as X1. cbn [sexec].
    eapply cond_outcome; eauto; [apply PR|]. intros q e1 A1 O1. rewrite <- (q_cur _ _ Q1).
    assert (EF : forall n0, effect (W n0) (l_tys F) e1 tt (ci F i) = if q then ROk ([], tt) else RTrap).
    { intros n0. unfold ci, i. cbn [imap effect]. rewrite (opv_any st1 e1 TBool v (VBool q) O1 eq_refl) by auto.
      destruct q; reflexivity. }
    destruct q.
    + destruct (emit0_sim vis st1 e1 s i X1 X A1 eq_refl) as (R & U & A2). { exists 0. intros. apply EF. }
      rewrite R. eapply outcome_goes; [apply runs_goes; exact U|]. cbn. split; [exact U1|]. exists vis, e1. split; auto. apply goes_refl.
    + destruct (emit_trap st1 e1 i (emit i st1) eq_refl) as (tl & R & TR); auto.
      { cbn. unfold upf. rewrite Nat.eqb_refl. reflexivity. } { exists 0. intros. apply EF. }
      rewrite R. apply traps_ends. exact TR.
  - apply andb_true_iff in FP. destruct FP as [FA FB]. apply andb_true_iff in N. destruct N as [N NB]. apply andb_true_iff in N. destruct N as [NE NA].
    destruct (has_type V sg D ex TBool) eqn:HT; [|discriminate]. apply has_type_ok in HT.
    destruct (typed V sg ret D c1) as [D1|] eqn:T1; [|discriminate]. destruct (typed V sg ret D c2) as [D2|] eqn:T2; [|discriminate].
    destruct (if_spec V ps sg ord ord_perm lc ex c1 c2 st st' HT (SOK _ _ _ FA T1) (SOK _ _ _ FB T2) PR H) as (_ & K).
    destruct (K F X) as (v & st1 & sa & st7 & sb & st8 & E & X1 & EN & (PA & VA & EA & XA) & (PB & VB & EB & XB) & J1 & J2).
    destruct (proj1 (lower_expr_spec V ps sg) ex _ _ _ _ HT (proj1 PR) E) as (_ & Q1 & _).
    cbn [sexec]. eapply cond_outcome; eauto; [apply PR|]. intros q e1 A1 O1. rewrite <- (q_cur _ _ Q1).
    destruct (if_sim vis st1 e1 s v _ _ q X1 A1 EN O1) as (vis2 & e2 & B2 & G2). eapply outcome_goes; [exact G2|]. destruct q.
    + rewrite <- (virgin_rem sa VA).
      pose proof (SN c1 D D1 lc vis2 sa st7 e2 s FA T1 NA PA EA XA (begin_at _ _ _ _ VA B2)) as O.
      destruct (sexec call n s c1) as [[s1|s1|s1|w]| | |]; cbn [outcome] in *; auto.
      destruct O as (U7 & vis3 & e3 & A3 & G3). destruct (J1 U7) as (EN7 & VM).
      destruct (jump_sim vis3 st7 e3 s1 _ XA A3 EN7) as (vis4 & e4 & B4 & G4).
      split; [apply VM|]. exists vis4, e4. split; [eapply begin_at; eauto|]. rewrite (virgin_rem st' VM). eapply goes_trans; eauto.
    + rewrite <- (virgin_rem sb VB).
      pose proof (SN c2 D D2 lc vis2 sb st8 e2 s FB T2 NB PB EB XB (begin_at _ _ _ _ VB B2)) as O.
      destruct (sexec call n s c2) as [[s1|s1|s1|w]| | |]; cbn [outcome] in *; auto.
      destruct O as (U7 & vis3 & e3 & A3 & G3). destruct (J2 U7) as (EN7 & VM).
      destruct (jump_sim vis3 st8 e3 s1 _ XB A3 EN7) as (vis4 & e4 & B4 & G4).
      split; [apply VM|]. exists vis4, e4. split; [eapply begin_at; eauto|]. rewrite (virgin_rem st' VM). eapply goes_trans; eauto.
  - apply andb_true_iff in N. destruct N as [NE NA].
    destruct (has_type V sg D ex TBool) eqn:HT; [|discriminate]. apply has_type_ok in HT.
    destruct (typed V sg ret D c1) as [D1|] eqn:T1; [|discriminate].
    destruct (if1_spec V ps sg ord ord_perm lc ex c1 st st' HT (SOK _ _ _ FP T1) PR H) as (_ & K).
    destruct (K F X) as (v & st1 & sa & st7 & E & X1 & EN & (PA & VA & EA & XA) & VM & J1).
    destruct (proj1 (lower_expr_spec V ps sg) ex _ _ _ _ HT (proj1 PR) E) as (_ & Q1 & _).
    cbn [sexec]. eapply cond_outcome; eauto; [apply PR|]. intros q e1 A1 O1. rewrite <- (q_cur _ _ Q1).
    destruct (if_sim vis st1 e1 s v _ _ q X1 A1 EN O1) as (vis2 & e2 & B2 & G2). eapply outcome_goes; [exact G2|]. destruct q.
    + rewrite <- (virgin_rem sa VA).
      pose proof (SN c1 D D1 lc vis2 sa st7 e2 s FP T1 NA PA EA XA (begin_at _ _ _ _ VA B2)) as O.
      destruct (sexec call n s c1) as [[s1|s1|s1|w]| | |]; cbn [outcome] in *; auto.
      destruct O as (U7 & vis3 & e3 & A3 & G3). pose proof (J1 U7) as EN7.
      destruct (jump_sim vis3 st7 e3 s1 _ XA A3 EN7) as (vis4 & e4 & B4 & G4).
      split; [apply VM|]. exists vis4, e4. split; [eapply begin_at; eauto|]. rewrite (virgin_rem st' VM). eapply goes_trans; eauto.
    + eapply exit_outcome; eauto.
  - apply andb_true_iff in N. destruct N as [NE NA].
    destruct (has_type V sg D ex TBool) eqn:HT; [|discriminate]. apply has_type_ok in HT.
    destruct (typed V sg ret D c1) as [D1|] eqn:T1; [|discriminate].
    destruct (while_spec V ps sg ord ord_perm lc ex c1 st st' HT (SOK _ _ _ FP T1) PR H) as (_ & K).
    destruct (K F X) as (v & sh & st5 & sb & st9 & EN & L & VH & E & X5 & EN5 & PA & VX & J).
    destruct (jump_sim vis st e s _ (quiet_ext _ _ (quiet_refl V ps st _ (proj1 (proj1 PR))) ltac:(eapply ext_trans; [|exact X]; apply (s_ext _ _ _ _ _ (o_step _ _ _ _ _ (proj1 (while_spec V ps sg ord ord_perm lc ex c1 st st' HT (SOK _ _ _ FP T1) PR H)))))) A EN) as (vis2 & e2 & B2 & G2).
    eapply outcome_goes; [exact G2|]. eapply (WS lc D D1 ex c1 v sh st5 sb st9 st'); eauto.
  - destruct (typed V sg ret D c1) as [D1|] eqn:T1; [|discriminate].
    destruct (loop_spec V ps sg ord ord_perm lc c1 st st' (SOK _ _ _ FP T1) PR H) as (PO & K).
    destruct (K F X) as (sb & st5 & EN & PA & VX & J).
    assert (X0 : ext st F) by (eapply ext_trans; [apply (s_ext _ _ _ _ _ (o_step _ _ _ _ _ PO))|exact X]).
    destruct (jump_sim vis st e s _ X0 A EN) as (vis2 & e2 & B2 & G2).
    eapply outcome_goes; [exact G2|]. eapply (LS lc D D1 c1 sb st5 st'); eauto.
  - apply andb_true_iff in FP. destruct FP as [FP FC]. apply andb_true_iff in FP. destruct FP as [FI FS].
    apply andb_true_iff in N. destruct N as [N NC]. apply andb_true_iff in N. destruct N as [N NS]. apply andb_true_iff in N. destruct N as [NI NE].
    destruct (typed V sg ret D c1) as [D1|] eqn:T1; [|discriminate].
    destruct (has_type V sg D1 ex TBool) eqn:HT; [|discriminate]. apply has_type_ok in HT.
    destruct (typed V sg ret D1 c2) as [D2|] eqn:T2; [|discriminate].
    destruct (typed V sg ret D1 c3) as [D3|] eqn:T3; [|discriminate].
    destruct (for_spec V ps sg ret ord ord_perm lc _ _ _ c1 ex c2 c3 st st' FI T1 HT FS T2 (SOK _ _ _ FC T3) PR H) as (_ & K).
    destruct (K F X) as (st0 & v & sh & st6 & sb & st10 & ss & st13 & E0 & L0 & X0 & EN0 & L & VH & E6 & X6 & EN6 & PA & VX & J & PS & U13 & EN13).
    assert (FP1 : for_parts c1 = true) by (destruct c1; try discriminate; reflexivity).
    assert (FP2 : for_parts c2 = true) by (destruct c2; try discriminate; reflexivity).
    cbn [sexec]. pose proof (SN c1 D D1 lc vis st st0 e s FP1 T1 NI PR E0 X0 A) as O.
    destruct (sexec call n s c1) as [[s1|s1|s1|w]| | |] eqn:SE; cbn [rbind]; try exact Logic.I; [|exact O].
    destruct O as (U0 & vis1 & e1 & A1 & G1). eapply outcome_goes; [exact G1|].
    destruct (jump_sim vis1 st0 e1 s1 _ X0 A1 EN0) as (vis2 & e2 & B2 & G2).
    eapply outcome_goes; [exact G2|]. eapply (FN lc D1 D3 D2 ex c3 c2 v sh st6 sb st10 ss st13 st'); eauto.
  - cbn [Lower.lower_stmt] in H. destruct lc as [[h x]|]; [|discriminate]. cbn [snd] in H.
    assert (TG : target (Some (h, x)) x) by (exists h, x; auto).
    destruct (term_spec V ps (Some (h, x)) (TJump x) st st' (proj1 PR)) as (PO & _ & K); [discriminate| |exact H|].
    { intros b [<-|[]]. split; auto. apply PR; auto. }
    assert (X0 : ext st F) by (eapply ext_trans; [apply (s_ext _ _ _ _ _ (o_step _ _ _ _ _ PO))|exact X]).
    destruct (jump_sim vis st e s x X0 A (K F X)) as (vis2 & e2 & B2 & G2). cbn. exists h, x, vis2, e2. auto.
  - cbn [Lower.lower_stmt] in H. destruct lc as [[h x]|]; [|discriminate]. cbn [fst] in H.
    assert (TG : target (Some (h, x)) h) by (exists h, x; auto).
    destruct (term_spec V ps (Some (h, x)) (TJump h) st st' (proj1 PR)) as (PO & _ & K); [discriminate| |exact H|].
    { intros b [<-|[]]. split; auto. apply PR; auto. }
    assert (X0 : ext st F) by (eapply ext_trans; [apply (s_ext _ _ _ _ _ (o_step _ _ _ _ _ PO))|exact X]).
    destruct (jump_sim vis st e s h X0 A (K F X)) as (vis2 & e2 & B2 & G2). cbn. exists h, x, vis2, e2. auto.
  - cbn [Lower.lower_stmt] in H. destruct ex as [ex|].
    + destruct ret as [t|] eqn:RT; [|discriminate]. destruct (has_type V sg D ex t) eqn:HT; [|discriminate]. apply has_type_ok in HT.
      destruct (lower_expr ex st) as [[v st1]|] eqn:E; [|discriminate].
      destruct (proj1 (lower_expr_spec V ps sg) ex _ _ _ _ HT (proj1 PR) E) as (I1 & Q1 & _).
      pose proof (quiet_live V ps _ _ (proj1 PR) Q1 I1) as L1.
      destruct (term_spec V ps lc (TReturn [v]) st1 st' L1) as (PO & _ & K); [discriminate|intros ? []|exact H|].
      assert (X1 : ext st1 F) by (eapply ext_trans; [apply (s_ext _ _ _ _ _ (o_step _ _ _ _ _ PO))|exact X]).
      cbn [sexec]. eapply outcome_weak; [eapply (proj1 expr_sim); eauto; apply PR|apply (q_cur _ _ Q1)|]. intros a e1 EV A1 [FA OA].
      cbn [outcome fit_ret]. split; [rewrite RT; exact FA|]. exists 0, 0. intros n0 fuel _. unfold rest.
      rewrite (ends_rem st1 _ (K F X)). cbn [exec_list rbind fst snd].
      rewrite <- (canon_term (l_cur st1)), (n_term _ _ _ _ (K F X)). cbn [ct tmap exec_term map].
      rewrite rets_ok. cbn [of_opt rbind eval_list]. rewrite (opv_as st1 e1 t v a OA FA). reflexivity.
    + destruct ret as [t|] eqn:RT; [discriminate|].
      destruct (term_spec V ps lc (TReturn []) st st' (proj1 PR)) as (PO & _ & K); [discriminate|intros ? []|exact H|].
      cbn [sexec outcome]. split; [rewrite RT; exact Logic.I|]. exists 0, 0. intros n0 fuel _. unfold rest.
      rewrite (ends_rem st _ (K F X)). cbn [exec_list rbind fst snd].
      rewrite <- (canon_term (l_cur st)), (n_term _ _ _ _ (K F X)). cbn [ct tmap exec_term map].
      rewrite rets_ok. reflexivity.
Qed.
Theorem sim n : simn n /\ whead n /\ lhead n /\ fhead n.
Proof.
  induction n as [|n (IH1 & IH2 & IH3 & IH4)].
  - repeat split; intros until 0; intros; exact Logic.I.
  - split; [apply simn_step; auto|]. split; [apply whead_step; auto|]. split; [apply lhead_step; auto|apply fhead_step; auto].
Qed.
End Sim.
