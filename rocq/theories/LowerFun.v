(** Lowering preserves meaning: whole functions and modules. *)
From Coq Require Import ZArith Bool String List Lia Permutation.
From Verif Require Import M31 Isa Mir MirFacts MirSsaMap MirCopyFacts MirSem Src SrcSem SrcCheck SrcFacts
  Lower LowerSpec LowerFacts LowerStep LowerStmt LowerSim CgRun.
Import ListNotations.
Open Scope nat_scope.

(** ** Renaming that does not touch the ids in use. *)
Lemma map_fix {A} (f : A -> A) l : (forall a, In a l -> f a = a) -> map f l = l.
Proof. induction l; cbn; intros H; auto. f_equal; auto. Qed.
Lemma cv_fix st v : (forall i, In i (val_ids v) -> l_cls st i = i) -> cv st v = v.
Proof. destruct v; cbn; intros H; rewrite ?H; auto. Qed.
Lemma cvs_fix st vs : (forall i, In i (vals_ids vs) -> l_cls st i = i) -> map (cv st) vs = vs.
Proof. intros H. apply map_fix. intros v I. apply cv_fix. intros i K. apply H. apply in_flat_map. eauto. Qed.
Lemma cvs2_fix {A} st (vs : list (A * value)) : (forall i, In i (vals_ids (map snd vs)) -> l_cls st i = i) ->
  map (fun s => (fst s, cv st (snd s))) vs = vs.
Proof.
  intros H. apply map_fix. intros [a v] I. cbn. f_equal. apply cv_fix. intros i K. apply H. apply in_flat_map.
  exists v. split; auto. apply (in_map snd) in I. exact I.
Qed.
Lemma place_fix st p : (forall i, In i (place_ids p) -> l_cls st i = i) -> plmap (cv st) (l_cls st) p = p.
Proof.
  destruct p as [b ps]. cbn. unfold plmap, place_ids. cbn. intros H. f_equal; [apply H; auto|]. apply map_fix. intros q Q.
  destruct q; cbn; auto. f_equal. apply cv_fix. intros i K. apply H. right. apply in_flat_map. exists (PIdx v). auto.
Qed.
Lemma ci_fix st i : (forall j, In j (uses i) -> l_cls st j = j) -> ci st i = i.
Proof.
  unfold ci. destruct i; cbn [imap uses]; intros H;
    rewrite ?cv_fix, ?cvs_fix, ?cvs2_fix, ?place_fix; auto; intros; apply H; auto; apply in_or_app; auto.
Qed.
Lemma ct_fix st t : (forall j, In j (term_uses t) -> l_cls st j = j) -> ct st t = t.
Proof.
  unfold ct. destruct t; cbn [tmap term_uses]; intros H; rewrite ?cv_fix, ?cvs_fix; auto; intros; apply H; auto; apply in_or_app; auto.
Qed.

(** ** The parameters. *)
Record pst (ts : list ty) (st : lst) : Prop := {
  p_nb : l_nb st = 1; p_phis : forall b, l_phis st b = []; p_body : forall b, l_body st b = [];
  p_term : forall b, l_term st b = TUnreachable; p_preds : forall b, l_preds st b = [];
  p_next : l_next st = length ts; p_tys : forall i, l_tys st i = nth_error ts i;
  p_def : forall x b, l_def st x b = if Nat.eqb b 0 && Nat.ltb x (length ts) then Some x else None;
  p_loc : forall x v, l_loc st x = Some v -> v = x /\ x < length ts;
  p_inc : forall b, l_inc st b = []; p_sealed : forall b, l_sealed st b = false; p_cur : l_cur st = 0;
  p_ent : forall x b, l_ent st x b = None; p_cls : forall i, l_cls st i = i }.
Lemma pst_start : pst [] start.
Proof.
  constructor; cbn; auto; try discriminate.
  - intros i. destruct i; reflexivity.
  - intros x b. rewrite andb_false_r. reflexivity.
Qed.
Lemma pst_params ts2 : forall ts1 st ds st', pst ts1 st -> lower_params (length ts1) ts2 st = (ds, st') ->
  ds = seq (length ts1) (length ts2) /\ pst (ts1 ++ ts2) st'.
Proof.
  induction ts2 as [|t ts2 IH]; intros ts1 st ds st' P H.
  - cbn in H. injection H as <- <-. rewrite app_nil_r. auto.
  - cbn [lower_params] in H. change (fresh t st) with (l_next st, snd (fresh t st)) in H. cbv iota beta in H.
    set (st1 := write _ _ _ _) in H.
    assert (P1 : pst (ts1 ++ [t]) st1).
    { destruct P. constructor; cbn; auto; rewrite ?app_length; cbn.
      - lia.
      - intros i. unfold upf. destruct (Nat.eqb_spec i (l_next st)).
        + subst i. rewrite p_next0, nth_error_app2, Nat.sub_diag by lia. reflexivity.
        + rewrite p_tys0. destruct (Nat.lt_ge_cases i (length ts1)).
          * rewrite nth_error_app1 by lia. reflexivity.
          * rewrite (proj2 (nth_error_None ts1 i)) by lia. symmetry. apply nth_error_None. rewrite app_length. cbn. lia.
      - intros x b. unfold upf2. rewrite p_def0. destruct (Nat.eqb_spec b 0); cbn; [|rewrite andb_false_r; reflexivity].
        rewrite andb_true_r. rewrite p_next0.
        change (match length ts1 with 0 => false | S m' => x <=? m' end) with (x <? length ts1).
        change (match length ts1 + 1 with 0 => false | S m' => x <=? m' end) with (x <? length ts1 + 1).
        destruct (Nat.eqb_spec x (length ts1)), (Nat.ltb_spec x (length ts1)), (Nat.ltb_spec x (length ts1 + 1)); try lia; congruence.
      - intros x v. unfold upf. destruct (Nat.eqb_spec x (length ts1)).
        + intros [= <-]. split; lia.
        + intros K. apply p_loc0 in K. lia. }
    destruct (lower_params (S (length ts1)) ts2 st1) as [ds2 st2] eqn:E.
    specialize (IH (ts1 ++ [t]) st1 ds2 st2 P1). rewrite app_length in IH. cbn in IH.
    rewrite Nat.add_1_r in IH. destruct (IH E) as (D & P2). injection H as <- <-.
    rewrite <- app_assoc in P2. split; [|exact P2]. cbn. rewrite D, (p_next _ _ P). reflexivity.
Qed.
Lemma pst_inv V ts st : pst ts st -> (forall x t, nth_error ts x = Some t -> V x = t) -> inv V (seq 0 (length ts)) st [].
Proof.
  intros P HV.
  assert (DO : forall b, dests_of st b = []) by (intros b; unfold dests_of; rewrite (p_phis _ _ P), (p_body _ _ P); reflexivity).
  assert (TY : forall x, x < length ts -> l_tys st x = Some (V x)).
  { intros x L. rewrite (p_tys _ _ P). destruct (nth_error ts x) as [t|] eqn:E; [rewrite (HV _ _ E); reflexivity|].
    apply nth_error_None in E. lia. }
  constructor.
  - intros i _. apply (p_cls _ _ P).
  - intros i. rewrite (p_cls _ _ P). auto.
  - intros i. rewrite !(p_cls _ _ P). auto.
  - intros x b v. rewrite (p_def _ _ P). destruct (Nat.eqb b 0); [|discriminate]. destruct (Nat.ltb_spec x (length ts)); [|discriminate].
    intros [= <-]. auto.
  - intros x v L. apply (p_loc _ _ P) in L. destruct L as [-> L]. auto.
  - intros i t. rewrite (p_tys _ _ P), (p_next _ _ P). intros E. apply nth_error_Some. congruence.
  - intros b d. rewrite DO. intros [].
  - intros b c d. rewrite DO. intros [].
  - intros b. rewrite DO. constructor.
  - intros d I. apply in_seq in I. rewrite (p_next _ _ P), (p_cls _ _ P). split; auto. lia.
  - intros x b o. rewrite (p_ent _ _ P). discriminate.
  - intros x b o. rewrite (p_ent _ _ P). discriminate.
  - intros x b o. rewrite (p_ent _ _ P). discriminate.
  - intros b p. rewrite (p_phis _ _ P). intros [].
  - intros x b o [K|[]]. rewrite (p_inc _ _ P) in K. destruct K.
  - intros b x o. rewrite (p_inc _ _ P). intros [].
  - intros x b o [].
  - intros b. rewrite (p_inc _ _ P). constructor.
  - constructor.
  - intros b i. rewrite (p_body _ _ P). intros [].
  - intros b p. rewrite (p_preds _ _ P). intros [].
  - intros b p. rewrite (p_term _ _ P). intros [].
  - intros b L. rewrite (p_phis _ _ P), (p_body _ _ P), (p_term _ _ P), (p_preds _ _ P), (p_inc _ _ P), (p_sealed _ _ P).
    split; [auto|]. split; [auto|]. split; [auto|]. split; [auto|]. split; [|auto].
    intros x. rewrite (p_ent _ _ P), (p_def _ _ P). split; auto. rewrite (p_nb _ _ P) in L.
    destruct (Nat.eqb_spec b 0); [lia|]. reflexivity.
Qed.

Lemma combine_types V ts : forallb (fun p => ty_eqb (V (fst p)) (snd p)) (combine (seq 0 (length ts)) ts) = true ->
  forall x t, nth_error ts x = Some t -> V x = t.
Proof.
  intros H x t E. rewrite forallb_forall in H. pose proof (H _ (combine_seq_in ts 0 x t E)) as K. cbn in K.
  apply ty_eqb_eq in K. exact K.
Qed.
Lemma bind_params vs : forall k e, exists e', bind_all e (seq k (length vs)) vs = Some e' /\
  (forall i, e' i = if Nat.leb k i then match nth_error vs (i - k) with Some v => Some v | None => e i end else e i).
Proof.
  induction vs as [|v vs IH]; intros k e; cbn.
  - exists e. split; auto. intros i. destruct (i - k); destruct (Nat.leb k i); reflexivity.
  - destruct (IH (S k) (MirSem.upd e k v)) as (e' & B & E). exists e'. split; auto. intros i. rewrite E. unfold MirSem.upd.
    destruct (Nat.leb_spec (S k) i), (Nat.leb_spec k i); try lia.
    + replace (i - k) with (S (i - S k)) by lia. cbn. destruct (nth_error vs (i - S k)); auto.
      destruct (Nat.eqb_spec i k); auto. lia.
    + replace i with k by lia. rewrite Nat.sub_diag, Nat.eqb_refl. reflexivity.
    + destruct (Nat.eqb_spec i k); auto. lia.
Qed.

(** ** Functions. *)
Section Fun.
Variable ord : list (nat * nat) -> list (nat * nat).
Hypothesis ord_perm : forall l, Permutation (ord l) l.
Variables (sg : sigs) (f : sfun) (g : func) (W : nat -> world unit) (call : nat -> list val -> MirSem.res (option val)).
Hypothesis f_ok : sfun_ok sg f = true.
Hypothesis f_neg : no_neg_stmt (s_vars f) sg (s_body f) = true.
Hypothesis lowered : lower_fun ord sg f = Some g.
Hypothesis g_clean : clean g = true.
Hypothesis call_ok : forall f ts t vs r, nth_error sg f = Some (ts, t) -> Forall2 fits ts vs -> call f vs = ROk r ->
  fit_ret t r /\ exists M, forall n, M <= n -> w_call (W n) f vs tt = ROk (outs r, tt).
Hypothesis call_trap : forall f ts t vs, nth_error sg f = Some (ts, t) -> Forall2 fits ts vs -> call f vs = RTrap ->
  exists M, forall n, M <= n -> w_call (W n) f vs tt = RTrap.

Theorem fun_sim m args : Forall2 fits (s_params f) args ->
  match frun call m f args with
  | ROk r => fit_ret (s_ret f) r /\ exists M, forall n fuel, M <= n -> M <= fuel -> call_fn (W n) g fuel args tt = ROk (outs r, tt)
  | RTrap => exists M, forall n fuel, M <= n -> M <= fuel -> call_fn (W n) g fuel args tt = RTrap
  | _ => True
  end.
Proof.
  intros FA. unfold sfun_ok in f_ok. rewrite !andb_true_iff in f_ok. destruct f_ok as ((((LO & PRV) & FP) & T) & PT).
  destruct (typed _ _ _ _ _) as [D'|] eqn:TD; [|discriminate]. clear T.
  set (V := s_vars f) in *. set (N := length (s_params f)) in *. set (ps := seq 0 N).
  unfold lower_fun, lower_state in lowered.
  destruct (lower_params 0 (s_params f) start) as [ps0 st] eqn:E0.
  destruct (pst_params (s_params f) [] start ps0 st pst_start E0) as (-> & P). cbn [app] in P. fold N in lowered, E0. fold ps in lowered, E0.
  change (length (@nil ty)) with 0 in *. fold N ps in lowered.
  destruct (seal ord 0 st) as [st1|] eqn:E1; [|discriminate].
  destruct (lower_stmt ord (s_vars f) sg None (s_body f) st1) as [st2|] eqn:E2; [|discriminate].
  pose proof (pst_inv V _ _ P (combine_types _ _ PT)) as I0. fold N ps in I0.
  destruct (seal_spec V ps ord ord_perm 0 st st1 I0 ltac:(rewrite (p_nb _ _ P); lia) E1) as (I1 & _ & _).
  assert (S1 : st1 = Lst (l_nb st) (l_phis st) (l_body st) (l_term st) (l_preds st) (l_next st) (l_tys st)
         (l_def st) (l_loc st) (upf (l_inc st) 0 []) (upf (l_sealed st) 0 true) (l_cur st) (l_ent st) (l_cls st)).
  { unfold seal in E1. rewrite (p_inc _ _ P) in E1. pose proof (Permutation_nil (Permutation_sym (ord_perm []))) as OE.
    rewrite OE in E1. cbn [complete] in E1. congruence. }
  assert (PR : pre V ps None st1).
  { split; [|intros b (h & x & K & _); discriminate]. split; auto. rewrite S1. cbn. rewrite (p_cur _ _ P), (p_nb _ _ P).
    split; [lia|]. unfold finished. cbn. rewrite (p_term _ _ P). reflexivity. }
  pose proof (lower_stmt_spec V ps sg (s_ret f) ord ord_perm (s_body f) _ _ FP TD None st1 st2 PR E2) as PO.
  set (F := match s_ret f with None => st2 | Some t => snd (fresh t st2) end).
  assert (IF : inv V ps F []).
  { unfold F. destruct (s_ret f); [apply fresh_inv|]; apply PO. }
  assert (XF : ext st2 F).
  { unfold F. destruct (s_ret f); [|apply ext_refl, (i_idem _ _ _ _ (o_inv _ _ _ _ _ PO))].
    apply (s_ext _ _ _ _ _ (q_step _ _ (fresh_quiet V ps t st2 _ (o_inv _ _ _ _ _ PO)))). }
  assert (SAME : l_nb F = l_nb st2 /\ l_sealed F = l_sealed st2 /\ l_preds F = l_preds st2)
    by (unfold F; destruct (s_ret f); auto).
  destruct SAME as (NB & SL & PD).
  assert (NB1 : l_nb st1 = 1) by (rewrite S1; apply (p_nb _ _ P)).
  assert (C1 : l_cur st1 = 0) by (rewrite S1; apply (p_cur _ _ P)).
  assert (SA : forall b, b < l_nb F -> l_sealed F b = true).
  { intros b L. rewrite SL. rewrite NB in L. destruct (Nat.lt_ge_cases b 1) as [L1|L1].
    - rewrite (s_sealed _ _ _ _ _ (o_step _ _ _ _ _ PO)) by (unfold no; auto; lia). rewrite S1. cbn.
      replace b with 0 by lia. reflexivity.
    - apply (o_new _ _ _ _ _ PO); lia. }
  assert (P0 : l_preds F 0 = []).
  { rewrite PD, (s_preds _ _ _ _ _ (o_step _ _ _ _ _ PO)); [|lia|intros (h & x & K & _); discriminate].
    rewrite S1. apply (p_preds _ _ P). }
  assert (GE : g = Func (map (block_of F) (seq 0 (l_nb F))) 0 ps (match s_ret f with None => [] | Some _ => [l_next st2] end) (l_next F) (l_tys F)).
  { unfold F in *. destruct (s_ret f); cbn in lowered |- *; congruence. }
  assert (GB : forall b, b < l_nb F -> nth_error (f_blocks g) b = Some (block_of F b)).
  { intros b L. rewrite GE. cbn [f_blocks]. rewrite nth_error_map.
    rewrite (nth_error_nth' (seq 0 (l_nb F)) 0) by (rewrite seq_length; lia). cbn. rewrite seq_nth by lia. reflexivity. }
  unfold clean in g_clean. apply andb_true_iff in g_clean. destruct g_clean as [UD EP].
  assert (USED : forall b i, b < l_nb F -> In i (flat_map uses (b_instrs (block_of F b)) ++ term_uses (b_term (block_of F b))) -> l_cls F i = i).
  { intros b i L H. unfold uses_defined in UD. rewrite forallb_forall in UD.
    assert (K : In i (used g)).
    { unfold used. apply in_flat_map. exists (block_of F b). split; auto. apply (nth_error_In _ b). auto. }
    apply UD in K. apply mem_nat_in in K. unfold defined in K. apply in_app_or in K. destruct K as [K|K].
    - rewrite GE in K. cbn in K. apply (i_ps _ _ _ _ IF _ K).
    - apply in_flat_map in K. destruct K as (bl & B1 & B2). rewrite GE in B1. cbn in B1.
      apply in_map_iff in B1. destruct B1 as (c & <- & _). cbn in B2. rewrite flat_map_app in B2.
      apply (i_dest _ _ _ _ IF c). unfold dests_of. apply in_app_or in B2. apply in_or_app. destruct B2 as [B2|B2]; auto. left.
      apply in_flat_map in B2. destruct B2 as (p & P1 & P2). apply in_map_iff in P1. destruct P1 as (q & <- & Q).
      destruct P2 as [<-|[]]. apply in_map. exact Q. }
  assert (CB : forall b, map (ci F) (l_body F b) = l_body F b).
  { intros b. apply map_fix. intros i I. apply ci_fix. intros j J. destruct (Nat.lt_ge_cases b (l_nb F)) as [L|L].
    - apply (USED b j L). cbn. apply in_or_app. left. apply in_flat_map. exists i. split; auto. apply in_or_app. auto.
    - rewrite (proj1 (proj2 (i_new _ _ _ _ IF b L))) in I. destruct I. }
  assert (CT : forall b, ct F (l_term F b) = l_term F b).
  { intros b. apply ct_fix. intros j J. destruct (Nat.lt_ge_cases b (l_nb F)) as [L|L].
    - apply (USED b j L). cbn. apply in_or_app. auto.
    - rewrite (proj1 (proj2 (proj2 (i_new _ _ _ _ IF b L)))) in J. destruct J. }
  assert (CS : forall b p q i, In p (l_phis F b) -> In (q, i) (p_src p) -> l_cls F i = i).
  { intros b p q i IP IS. destruct (Nat.lt_ge_cases b (l_nb F)) as [L|L].
    - apply (USED b i L). cbn. apply in_or_app. left. apply in_flat_map. exists (phi_instr p). split.
      + apply in_or_app. left. apply in_map. auto.
      + cbn. apply in_flat_map. exists (Op i). split; [|left; auto]. rewrite map_map. cbn.
        apply (in_map (fun s => Op (snd s))) in IS. exact IS.
    - rewrite (proj1 (i_new _ _ _ _ IF b L)) in IP. destruct IP. }
  assert (PH0 : l_phis F 0 = []).
  { unfold entry_plain in EP. rewrite GE in EP at 2. cbn [f_entry] in EP. rewrite GB in EP by (pose proof (e_nb _ _ (s_ext _ _ _ _ _ (o_step _ _ _ _ _ PO))); lia).
    cbn [block_of b_instrs] in EP. rewrite forallb_app in EP. apply andb_true_iff in EP. destruct EP as [EP _].
    destruct (l_phis F 0) as [|p l]; auto. discriminate. }
  assert (ENT0 : forall x o, l_ent F x 0 <> Some o).
  { intros x o H. destruct (i_ent _ _ _ _ IF _ _ _ H) as [(p & K & _)|(_ & K & _)].
    - rewrite PH0 in K. destruct K.
    - apply K. exact P0. }
  assert (GT : f_types g = l_tys F) by (rewrite GE; reflexivity).
  assert (RO : omap (fun t => t) (map (f_types g) (f_rets g)) = Some (match s_ret f with Some t => [t] | None => [] end)).
  { rewrite GT, GE. cbn [f_rets]. unfold F. destruct (s_ret f); auto. cbn. unfold upf. rewrite Nat.eqb_refl. reflexivity. }
  assert (X1 : ext st1 F) by (eapply ext_trans; [apply (s_ext _ _ _ _ _ (o_step _ _ _ _ _ PO))|exact XF]).
  assert (LA : length args = N) by (unfold N; clear - FA; induction FA; cbn; congruence).
  destruct (bind_params args 0 (fun _ => None)) as (e & BE & EV). rewrite LA in BE. fold ps in BE.
  destruct (init_covers V _ args PT FA) as [CF CD]. fold N in CD.
  assert (A : at_ V ps F [0] st1 e (init args)).
  { constructor.
    - rewrite C1. left. auto.
    - intros i H. left. rewrite EV in H. cbn in H. rewrite Nat.sub_0_r in H. destruct (nth_error args i) eqn:NE; [|congruence].
      apply in_seq. split; [lia|]. cbn. rewrite <- LA. apply nth_error_Some. congruence.
    - intros c x o [<-|[]] H. destruct (ENT0 _ _ H).
    - exact CF.
    - intros x o [H|[_ H]]; [|rewrite C1 in H; destruct (ENT0 _ _ H)]. rewrite C1, S1 in H. cbn in H. rewrite (p_def _ _ P) in H. cbn [Nat.eqb andb] in H.
      destruct (Nat.ltb_spec x (length (s_params f))); [|discriminate]. injection H as <-.
      assert (IP : In x ps) by (apply in_seq; fold N; lia).
      destruct (nth_error args x) as [v|] eqn:NE; [|apply nth_error_None in NE; fold N in H0; lia].
      exists v. split; [exact NE|]. rewrite (proj2 (i_ps _ _ _ _ IF _ IP)). split.
      + rewrite EV. cbn. rewrite Nat.sub_0_r, NE. reflexivity.
      + intros K. apply (rem_dests F CB st1 x X1) in K. apply (i_dest _ _ _ _ IF) in K. tauto. }
  pose proof (proj1 (sim V ps sg (s_ret f) ord ord_perm F g W call IF SA CB CT CS GB GT RO call_ok call_trap m)
    (s_body f) _ _ None [0] st1 st2 e (init args) FP TD f_neg PR E2 XF A) as O.
  assert (R0 : rem F st1 = l_body F 0).
  { unfold rem. rewrite C1. rewrite S1. cbn. rewrite (p_body _ _ P). reflexivity. }
  rewrite R0, C1 in O.
  assert (GO : forall n fuel, call_fn (W n) g (S fuel) args tt = rest F g W n fuel 0 (l_body F 0) e).
  { intros n fuel. unfold call_fn. rewrite GE at 1. cbn [f_params]. rewrite BE. cbn [run].
    assert (GN : f_entry g = 0) by (rewrite GE; reflexivity). rewrite GN.
    rewrite GB by (pose proof (e_nb _ _ (s_ext _ _ _ _ _ (o_step _ _ _ _ _ PO))); lia).
    cbn [block_of b_instrs b_term]. rewrite PH0. cbn [map app].
    pose proof (span_phis [] (l_body F 0) (fun i => i_nophi _ _ _ _ IF 0 i)) as SP. cbn [map app] in SP. rewrite SP. cbn [fst snd].
    unfold enter, rest. cbn [omap map of_opt rbind]. rewrite GT. reflexivity. }
  unfold frun. destruct (sexec call m (init args) (s_body f)) as [[s'|s'|s'|v]| | |]; cbn [rbind outcome] in *; auto.
  - destruct O as (FR & M & k & K). split; auto. exists (M + S k). intros n fuel LN LF.
    replace fuel with (S (k + (fuel - S k))) by lia. rewrite GO. apply K. lia.
  - destruct O as (M & k & K). exists (M + S k). intros n fuel LN LF.
    replace fuel with (S (k + (fuel - S k))) by lia. rewrite GO. apply K. lia.
Qed.
End Fun.

(** ** Modules. *)
Lemma forall2_nth {A B} (R : A -> B -> Prop) l m : Forall2 R l m -> forall k a, nth_error l k = Some a ->
  exists b, nth_error m k = Some b /\ R a b.
Proof. induction 1; intros [|k] z Z; cbn in *; try discriminate; [injection Z as <-|]; eauto. Qed.
Theorem module_sim fs ms : module_ok fs = true -> module_no_neg fs = true -> lowered fs ms ->
  Forall (fun m => clean (snd m) = true) ms -> forall F n k ts t args,
  nth_error (map sig_of fs) k = Some (ts, t) -> Forall2 fits ts args ->
  match src_call fs F n k args with
  | ROk r => fit_ret t r /\ exists M, forall F', M <= F' -> mir_call ms F' n k args = ROk (outs r, tt)
  | RTrap => exists M, forall F', M <= F' -> mir_call ms F' n k args = RTrap
  | _ => True
  end.
Proof.
  intros OK NN LW CL F n. induction n as [|n IH]; intros k ts t args K A; [exact Logic.I|].
  cbn [src_call]. rewrite nth_error_map in K. destruct (nth_error fs k) as [f|] eqn:E; [|discriminate].
  cbn in K. injection K as <- <-. destruct (forall2_nth _ _ _ LW _ _ E) as ((nm & g) & G & ord & OP & LF). cbn in LF.
  unfold module_ok in OK. unfold module_no_neg in NN. rewrite forallb_forall in OK, NN. rewrite Forall_forall in CL.
  pose proof (fun_sim ord OP (map sig_of fs) f g (fun m => module_world ms m n) (src_call fs F n)
    (OK f (nth_error_In _ _ E)) (NN f (nth_error_In _ _ E)) LF (CL _ (nth_error_In _ _ G))) as SM.
  assert (MC : forall F', mir_call ms F' (S n) k args = call_fn (module_world ms F' n) g F' args tt).
  { intros F'. unfold mir_call. cbn [module_world w_call]. rewrite G. reflexivity. }
  specialize (SM ltac:(intros j us u vs r J B C; specialize (IH j us u vs J B); rewrite C in IH; exact IH)
                ltac:(intros j us u vs J B C; specialize (IH j us u vs J B); rewrite C in IH; exact IH) F args A).
  destruct (frun (src_call fs F n) F f args) as [r| | |]; auto.
  - destruct SM as (FR & M & SM). split; auto. exists M. intros F' L. rewrite MC. apply SM; auto.
  - destruct SM as (M & SM). exists M. intros F' L. rewrite MC. apply SM; auto.
Qed.

(** ** One definition per id. *)
Lemma nodup_parts {A} (g : nat -> list A) l : NoDup l -> (forall b, NoDup (g b)) ->
  (forall b c d, In d (g b) -> In d (g c) -> b = c) -> NoDup (flat_map g l).
Proof.
  induction 1 as [|b l NB N IH]; intros G D; cbn; [constructor|]. specialize (IH G D).
  assert (DJ : forall d, In d (g b) -> ~ In d (flat_map g l)).
  { intros d I J. apply in_flat_map in J. destruct J as (c & C1 & C2). rewrite (D _ _ _ I C2) in NB. auto. }
  specialize (G b). clear - IH DJ G. induction (g b) as [|a m IHm]; cbn; auto. inversion G; subst. constructor.
  - intros K. apply in_app_or in K. destruct K as [K|K]; auto. apply (DJ a); auto. left. auto.
  - apply IHm; auto. intros d I. apply DJ. right. auto.
Qed.
Lemma flat_map_map {A B C} (h : A -> B) (k : B -> list C) l : flat_map k (map h l) = flat_map (fun a => k (h a)) l.
Proof. induction l; cbn; congruence. Qed.
Theorem lower_single ord sg f g : (forall l, Permutation (ord l) l) -> sfun_ok sg f = true ->
  lower_fun ord sg f = Some g -> NoDup (f_params g ++ flat_map (fun b => flat_map dests (b_instrs b)) (f_blocks g)).
Proof.
  intros OP f_ok lowered. unfold sfun_ok in f_ok. rewrite !andb_true_iff in f_ok. destruct f_ok as ((((LO & PRV) & FP) & T) & PT).
  destruct (typed _ _ _ _ _) as [D'|] eqn:TD; [|discriminate]. clear T.
  set (V := s_vars f) in *. set (N := length (s_params f)) in *. set (ps := seq 0 N).
  unfold lower_fun, lower_state in lowered.
  destruct (lower_params 0 (s_params f) start) as [ps0 st] eqn:E0.
  destruct (pst_params (s_params f) [] start ps0 st pst_start E0) as (-> & P). cbn [app] in P.
  change (length (@nil ty)) with 0 in *. fold N ps in lowered.
  destruct (seal ord 0 st) as [st1|] eqn:E1; [|discriminate].
  destruct (lower_stmt ord (s_vars f) sg None (s_body f) st1) as [st2|] eqn:E2; [|discriminate].
  pose proof (pst_inv V _ _ P (combine_types _ _ PT)) as I0. fold N ps in I0.
  destruct (seal_spec V ps ord OP 0 st st1 I0 ltac:(rewrite (p_nb _ _ P); lia) E1) as (I1 & _ & _).
  assert (PR : pre V ps None st1).
  { split; [|intros b (h & x & K & _); discriminate]. split; auto.
    unfold seal in E1. rewrite (p_inc _ _ P) in E1. pose proof (Permutation_nil (Permutation_sym (OP []))) as OE.
    rewrite OE in E1. cbn [complete] in E1. injection E1 as <-. cbn. rewrite (p_cur _ _ P), (p_nb _ _ P).
    split; [lia|]. unfold finished. cbn. rewrite (p_term _ _ P). reflexivity. }
  pose proof (lower_stmt_spec V ps sg (s_ret f) ord OP (s_body f) _ _ FP TD None st1 st2 PR E2) as PO.
  set (F := match s_ret f with None => st2 | Some t => snd (fresh t st2) end).
  assert (IF : inv V ps F []).
  { unfold F. destruct (s_ret f); [apply fresh_inv|]; apply PO. }
  assert (GE : g = Func (map (block_of F) (seq 0 (l_nb F))) 0 ps (match s_ret f with None => [] | Some _ => [l_next st2] end) (l_next F) (l_tys F)).
  { unfold F in *. destruct (s_ret f); cbn in lowered |- *; congruence. }
  rewrite GE. cbn [f_params f_blocks]. rewrite flat_map_map.
  assert (DE : forall b, flat_map dests (b_instrs (block_of F b)) = dests_of F b).
  { intros b. cbn. rewrite flat_map_app. unfold dests_of. f_equal. induction (l_phis F b); cbn; congruence. }
  assert (EQ : flat_map (fun b => flat_map dests (b_instrs (block_of F b))) (seq 0 (l_nb F)) = flat_map (dests_of F) (seq 0 (l_nb F))).
  { apply flat_map_ext. exact DE. }
  rewrite EQ. clear EQ.
  assert (ND : NoDup (flat_map (dests_of F) (seq 0 (l_nb F)))).
  { apply nodup_parts; [apply seq_NoDup|apply (i_nodup _ _ _ _ IF)|apply (i_one _ _ _ _ IF)]. }
  assert (DJ : forall d, In d ps -> ~ In d (flat_map (dests_of F) (seq 0 (l_nb F)))).
  { intros d I J. apply in_flat_map in J. destruct J as (b & _ & J). apply (i_dest _ _ _ _ IF) in J. tauto. }
  pose proof (seq_NoDup N 0) as NP. fold ps in NP. clear - ND DJ NP. induction ps as [|p q IH]; cbn; auto.
  inversion NP; subst. constructor.
  - intros K. apply in_app_or in K. destruct K as [K|K]; auto. apply (DJ p); auto. left. auto.
  - apply IH; auto. intros d I. apply DJ. right. auto.
Qed.
