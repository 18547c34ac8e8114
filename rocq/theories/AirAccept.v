(** From an accepted proof to the abstract steps of AirExec.v. *)
From Coq Require Import ZArith Bool List Lia Permutation.
From Verif Require Import M31 M31Facts Instr Isa Machine Air AirOpcodes AirSpec AirFacts AirSound AirChain AirMem AirGlobal AirRows AirExec.
Import ListNotations.
Open Scope Z_scope.

Lemma produced_zero es : Forall (fun t => fst t = 0) es -> produced es = [] /\ consumed es = [].
Proof.
  unfold produced, consumed. induction 1 as [|[m v] es Hm _ [IH1 IH2]]; [auto|]. cbn [fst] in Hm. subst m.
  split; [exact IH1|exact IH2].
Qed.
Lemma produced_perm es es' : Permutation es es' -> Permutation (produced es) (produced es').
Proof. intros H. apply Permutation_map, perm_filter, H. Qed.
Lemma consumed_perm es es' : Permutation es es' -> Permutation (consumed es) (consumed es').
Proof. intros H. apply Permutation_map, perm_filter, H. Qed.
Lemma produced_nonzero es : produced (filter (fun e => negb (fst e =? 0)) es) = produced es.
Proof.
  unfold produced. induction es as [|[m v] es IH]; [reflexivity|]. cbn [filter fst].
  destruct (Z.eqb_spec m 0) as [->|Hm]; cbn [negb filter fst]; [exact IH|].
  destruct (m =? 1); cbn [map]; rewrite IH; reflexivity.
Qed.
Lemma consumed_nonzero es : consumed (filter (fun e => negb (fst e =? 0)) es) = consumed es.
Proof.
  unfold consumed. induction es as [|[m v] es IH]; [reflexivity|]. cbn [filter fst].
  destruct (Z.eqb_spec m 0) as [->|Hm]; cbn [negb filter fst]; [exact IH|].
  destruct (m =? P - 1); cbn [map]; rewrite IH; reflexivity.
Qed.

(** Rows switched off disappear from the produced and consumed tokens. *)
Lemma flat_off {A} (g : A -> list (Z * list Z)) (on : A -> bool) l :
  (forall x, In x l -> on x = false -> Forall (fun t => fst t = 0) (g x)) ->
  produced (flat_map g l) = produced (flat_map g (filter on l)) /\
  consumed (flat_map g l) = consumed (flat_map g (filter on l)).
Proof.
  induction l as [|x l IH]; intros H; [auto|]. cbn [flat_map filter].
  destruct IH as [IH1 IH2]; [intros y Hy; apply H; right; exact Hy|].
  rewrite produced_app, consumed_app, IH1, IH2. destruct (on x) eqn:Ho.
  - cbn [flat_map]. rewrite produced_app, consumed_app. auto.
  - destruct (produced_zero _ (H x (or_introl eq_refl) Ho)) as [-> ->]. auto.
Qed.

(** The step of an enabled row. *)
Definition step_of (cr : component * list Z) (st : astep) : Prop :=
  as_s st = row_regs (snd cr) /\
  tuples Registers (evaluate (fst cr) (snd cr)) = reg_tuples (as_clk st) (as_s st) (as_t st) /\
  tuples Memory (evaluate (fst cr) (snd cr)) = mem_tuples (as_clk st) (as_accs st) /\
  good st.

Lemma step_exists cr : length (snd cr) = n_columns (fst cr) -> Forall wf (snd cr) -> enabled (snd cr) = true ->
  satisfied (evaluate (fst cr) (snd cr)) -> no_gap (fst cr) (snd cr) -> exists st, step_of cr st.
Proof.
  intros Hlen Hw Hen Hs Hg. apply Z.eqb_eq in Hen.
  destruct (row_sound _ _ Hlen Hw Hen Hs Hg) as (i & s' & accs & (_ & _ & Hr & Hm & Hp) & Hc).
  exists (AS (row_regs (snd cr)) (row_clock (snd cr)) i s' accs). split; [reflexivity|].
  cbn [as_s as_clk as_t as_accs as_i]. split; [exact Hr|]. split; [exact Hm|].
  split; [exact Hp|]. split; [exact Hc|]. cbn [as_clk as_accs]. split.
  - unfold row_clock. destruct (nth_in_or_default 3 (snd cr) 0) as [Hin| ->].
    + rewrite Forall_forall in Hw. exact (Hw _ Hin).
    + split; [discriminate|reflexivity].
  - apply Forall_forall. intros x Hx.
    assert (Hin : In (P - 1, ac_addr x :: ac_prev x :: qlist (ac_old x)) (tuples Memory (evaluate (fst cr) (snd cr)))).
    { rewrite Hm. unfold mem_tuples. apply in_flat_map. exists x. split; [exact Hx|]. left. reflexivity. }
    apply tuples_wf in Hin. inversion Hin as [|? ? _ Hin']; subst. inversion Hin'; assumption.
Qed.

Lemma Forall_exists2 {A B} (R : A -> B -> Prop) l : Forall (fun x => exists y, R x y) l -> exists l', Forall2 R l l'.
Proof.
  induction 1 as [|x l [y Hy] _ [l' IH]]; [exists []; constructor|]. exists (y :: l'). constructor; assumption.
Qed.
Lemma flat_Forall2 {A B C} (R : A -> B -> Prop) (g : A -> list C) (h : B -> list C) l l' :
  (forall x y, R x y -> g x = h y) -> Forall2 R l l' -> flat_map g l = flat_map h l'.
Proof. intros H. induction 1 as [|x y l l' Hxy _ IH]; [reflexivity|]. cbn [flat_map]. rewrite (H x y Hxy), IH. reflexivity. Qed.

Lemma reg_tokens ss : produced (flat_map (fun st => reg_tuples (as_clk st) (as_s st) (as_t st)) ss) = map rdst ss /\
  consumed (flat_map (fun st => reg_tuples (as_clk st) (as_s st) (as_t st)) ss) = map rsrc ss.
Proof.
  induction ss as [|st ss [IH1 IH2]]; [auto|]. cbn [flat_map map]. rewrite produced_app, consumed_app, IH1, IH2.
  split; reflexivity.
Qed.
Lemma mem_tokens c accs : produced (mem_tuples c accs) = map edst (map (edge_of c) accs) /\
  consumed (mem_tuples c accs) = map esrc (map (edge_of c) accs).
Proof.
  unfold mem_tuples. induction accs as [|x l [IH1 IH2]]; [auto|].
  cbn [flat_map map]. rewrite produced_app, consumed_app, IH1, IH2. split; reflexivity.
Qed.
Lemma mem_tokens_all ss : produced (flat_map (fun st => mem_tuples (as_clk st) (as_accs st)) ss) = map edst (flat_map edges_of ss) /\
  consumed (flat_map (fun st => mem_tuples (as_clk st) (as_accs st)) ss) = map esrc (flat_map edges_of ss).
Proof.
  induction ss as [|st ss [IH1 IH2]]; [auto|]. cbn [flat_map]. rewrite produced_app, consumed_app, !map_app, IH1, IH2.
  destruct (mem_tokens (as_clk st) (as_accs st)) as [-> ->]. auto.
Qed.

(** Clock updates. *)
Definition cu_of (row : list Z) : edge :=
  let v := Q (nth 3 row 0) (nth 4 row 0) (nth 5 row 0) (nth 6 row 0) in
  Edge (nth 1 row 0) (nth 2 row 0) v ((nth 2 row 0 + STEP) mod P) v.
Lemma cu_row row : row_ok 7 (cu_air row) row ->
  (enabled row = false -> Forall (fun t => fst t = 0) (tuples Memory (cu_air row))) /\
  (enabled row = true -> tuples Memory (cu_air row) = [(P - 1, esrc (cu_of row)); (1, edst (cu_of row))] /\ cu_edge (cu_of row)).
Proof.
  intros (Hlen & Hw & Hv). row_cases row Hlen. brk. unfold vanishes in Hv.
  cbn [cu_air on_row] in *. unfold clock_update_row in *. cbn [a_cons] in Hv. brk. bools.
  unfold enabled. cbn [nth]. split; intros Hen.
  - match goal with H : _ = 0 \/ _ = 1 |- _ => destruct H; subst; [|discriminate Hen] end.
    unfold tuples. cbn [a_ents filter re_rel rel_eqb map norm re_mult]. repeat constructor.
  - apply Z.eqb_eq in Hen. subst.
    split.
    + unfold cu_of, esrc, edst, tok. cbn [nth e_addr e_prev e_old e_clk e_new]. tup. reflexivity.
    + unfold cu_edge, cu_of. cbn [nth e_addr e_prev e_old e_clk e_new]. auto.
Qed.
Lemma cu_tokens l : Forall (fun row => row_ok 7 (cu_air row) row) l ->
  produced (flat_map (fun row => tuples Memory (cu_air row)) l) = map edst (map cu_of (filter enabled l)) /\
  consumed (flat_map (fun row => tuples Memory (cu_air row)) l) = map esrc (map cu_of (filter enabled l)) /\
  Forall cu_edge (map cu_of (filter enabled l)) /\ unital (flat_map (fun row => tuples Memory (cu_air row)) l).
Proof.
  induction 1 as [|row l Hr _ (IH1 & IH2 & IH3 & IH4)]; [repeat split; constructor|].
  cbn [flat_map filter]. rewrite produced_app, consumed_app, IH1, IH2.
  destruct (cu_row row Hr) as [Hoff Hon]. destruct (enabled row).
  - destruct (Hon eq_refl) as [-> Hc]. cbn [map]. split; [reflexivity|]. split; [reflexivity|].
    split; [constructor; assumption|]. unfold unital. apply Forall_app. split; [|exact IH4].
    constructor; [right; right; reflexivity|]. constructor; [right; left; reflexivity|constructor].
  - destruct (produced_zero _ (Hoff eq_refl)) as [-> ->]. split; [reflexivity|]. split; [reflexivity|].
    split; [exact IH3|]. unfold unital. apply Forall_app. split; [|exact IH4].
    eapply Forall_impl; [|exact (Hoff eq_refl)]. cbv beta. auto.
Qed.

Lemma boundary_tokens p ini fin : honest_boundary p ini fin ->
  Permutation (produced (boundary p)) (map ini_tok ini) /\
  Permutation (consumed (boundary p)) (map fin_tok fin) /\ unital (boundary p).
Proof.
  intros (_ & _ & Hp).
  assert (G : forall (A : Type) (g : A -> list Z) (l : list A),
    produced (map (fun x => (1, g x)) l) = map g l /\ consumed (map (fun x => (1, g x)) l) = [] /\
    produced (map (fun x => (P - 1, g x)) l) = [] /\ consumed (map (fun x => (P - 1, g x)) l) = map g l).
  { intros A g l. induction l as [|x l (I1 & I2 & I3 & I4)]; [repeat split|].
    unfold produced, consumed in *. cbn [map filter fst].
    change (1 =? 1) with true. change (1 =? P - 1) with false. change (P - 1 =? 1) with false. change (P - 1 =? P - 1) with true.
    cbv iota. cbn [map snd]. rewrite I1, I2, I3, I4. auto. }
  split; [|split].
  - rewrite <- produced_nonzero, (produced_perm _ _ Hp), produced_app.
    rewrite (proj1 (G _ ini_tok ini)), (proj1 (proj2 (proj2 (G _ fin_tok fin)))), app_nil_r. apply Permutation_refl.
  - rewrite <- consumed_nonzero, (consumed_perm _ _ Hp), consumed_app.
    rewrite (proj1 (proj2 (G _ ini_tok ini))), (proj2 (proj2 (proj2 (G _ fin_tok fin)))). apply Permutation_refl.
  - unfold unital. apply Forall_forall. intros e He. destruct (Z.eq_dec (fst e) 0) as [H0|H0]; [left; exact H0|right].
    assert (Hin : In e (filter (fun e => negb (fst e =? 0)) (boundary p))).
    { apply filter_In. split; [exact He|]. rewrite (proj2 (Z.eqb_neq _ _) H0). reflexivity. }
    rewrite Hp in Hin. apply in_app_or in Hin. destruct Hin as [Hin|Hin]; apply in_map_iff in Hin; destruct Hin as (x & <- & _); auto.
Qed.

Theorem accepted_execution h p ini fin :
  accepted h p -> sized p -> honest_boundary p ini fin ->
  (forall a v, In (a, v) ini -> a < ADDRS) -> wf (p_clock p) ->
  Forall (fun cr => no_gap (fst cr) (snd cr)) (on_rows p) ->
  forall f0, holds f0 ini ->
  exists tr lg f', fruns f0 (p_start p) tr lg f' (p_end p) /\
    Z.of_nat (length tr) = p_clock p /\
    Permutation (map fst tr) (map (fun cr => row_regs (snd cr)) (on_rows p)) /\
    (forall a cf v, In (a, (cf, v)) fin -> f' a = v) /\
    (forall a, ~ In a (map fst ini) -> f' a = f0 a) /\
    (forall a, In a (map fst ini) <-> In a (map fst fin)).
Proof.
  intros Ha Hsz Hb Haddr Hclk Hgap f0 Hh.
  pose proof (accepted_rows h p Ha Hsz) as Hsat.
  assert (Hops : forall cr, In cr (p_ops p) -> row_ok (n_columns (fst cr)) (evaluate (fst cr) (snd cr)) (snd cr))
    by (apply Forall_forall, (ac_ops h p Ha)).
  assert (Hoff : forall r, r = Registers \/ r = Memory -> forall cr, In cr (p_ops p) -> enabled (snd cr) = false ->
    Forall (fun t => fst t = 0) (tuples r (evaluate (fst cr) (snd cr)))).
  { intros r Hr cr Hin Hen. destruct (Hops cr Hin) as (Hlen & Hw & Hv). destruct (row_shape _ _ Hlen) as [_ Hg].
    assert (Hw0 : wf (nth 0 (snd cr) 0)).
    { destruct (nth_in_or_default 0 (snd cr) 0) as [Hi| ->]; [rewrite Forall_forall in Hw; exact (Hw _ Hi)|split; [discriminate|reflexivity]]. }
    destruct (enabler_01 _ _ Hw0 Hg Hv) as [H0|H1].
    - rewrite H0 in Hg. apply off_row; assumption.
    - unfold enabled in Hen. rewrite H1 in Hen. discriminate Hen. }
  destruct (Forall_exists2 step_of (on_rows p)) as (steps & Hsteps).
  { apply Forall_forall. intros cr Hin. pose proof Hin as Hin'. apply filter_In in Hin'. destruct Hin' as [Hi Hen].
    destruct (Hops cr Hi) as (Hlen & Hw & _). rewrite Forall_forall in Hsat, Hgap.
    apply step_exists; auto. }
  assert (Hlen : length steps = length (on_rows p)) by (clear - Hsteps; induction Hsteps as [|? ? ? ? _ _ IH]; [reflexivity|cbn [length]; rewrite IH; reflexivity]).
  assert (Hgood : Forall good steps).
  { clear - Hsteps. induction Hsteps as [|x y l l' Hxy _ IH]; constructor; [apply Hxy|exact IH]. }
  destruct (flat_off (fun cr => tuples Registers (evaluate (fst cr) (snd cr))) (fun cr => enabled (snd cr)) (p_ops p)
    (Hoff Registers (or_introl eq_refl))) as [HR1 HR2].
  destruct (flat_off (fun cr => tuples Memory (evaluate (fst cr) (snd cr))) (fun cr => enabled (snd cr)) (p_ops p)
    (Hoff Memory (or_intror eq_refl))) as [HM1 HM2].
  fold (on_rows p) in HR1, HR2, HM1, HM2. fold (op_tuples Registers p) in HR1, HR2. fold (op_tuples Memory p) in HM1, HM2.
  rewrite (flat_Forall2 step_of _ (fun st => reg_tuples (as_clk st) (as_s st) (as_t st)) _ steps) in HR1, HR2
    by (try exact Hsteps; intros x y Hxy; apply Hxy).
  rewrite (flat_Forall2 step_of _ (fun st => mem_tuples (as_clk st) (as_accs st)) _ steps) in HM1, HM2
    by (try exact Hsteps; intros x y Hxy; apply Hxy).
  destruct (reg_tokens steps) as [E1 E2]. rewrite E1 in HR1. rewrite E2 in HR2. clear E1 E2.
  destruct (mem_tokens_all steps) as [E1 E2]. rewrite E1 in HM1. rewrite E2 in HM2. clear E1 E2.
  assert (HU : forall r, r = Registers \/ r = Memory -> unital (op_tuples r p)).
  { intros r Hr. unfold unital, op_tuples. apply Forall_forall. intros t Ht. apply in_flat_map in Ht. destruct Ht as (cr & Hcr & Ht).
    destruct (enabled (snd cr)) eqn:Hen.
    - assert (Hon : In cr (on_rows p)) by (apply filter_In; auto).
      assert (Hst : exists st, step_of cr st).
      { clear - Hsteps Hon. induction Hsteps as [|x y l l' Hxy _ IH]; [destruct Hon|].
        destruct Hon as [->|Hon]; [exists y; exact Hxy|apply IH; exact Hon]. }
      destruct Hst as (st & _ & H1 & H2 & _). destruct Hr as [-> | ->].
      + rewrite H1 in Ht. destruct Ht as [<-|[<-|[]]]; auto.
      + rewrite H2 in Ht. unfold mem_tuples in Ht. apply in_flat_map in Ht. destruct Ht as (x & _ & Ht).
        destruct Ht as [<-|[<-|[]]]; auto.
    - pose proof (Hoff r Hr cr Hcr Hen) as Hz. rewrite Forall_forall in Hz. left. exact (Hz t Ht). }
  destruct Hsz as (Hs1 & Hs2 & _ & Hs4).
  (* registers *)
  assert (Hregs : Permutation (rtok (p_end p) ((p_clock p + 1) mod P) :: map rsrc steps) (rtok (p_start p) 1 :: map rdst steps)).
  { assert (Hu : unital (reg_side p)).
    { unfold unital, reg_side. constructor; [right; left; reflexivity|]. constructor; [right; right; reflexivity|].
      apply HU. left. reflexivity. }
    pose proof (balanced_perm _ Hu (ac_regs_bal h p Ha) Hs1) as Hp. unfold reg_side in Hp.
    unfold produced, consumed in Hp. cbn [filter fst] in Hp.
    change (1 =? 1) with true in Hp. change (1 =? P - 1) with false in Hp.
    change (P - 1 =? 1) with false in Hp. change (P - 1 =? P - 1) with true in Hp. cbv iota in Hp. cbn [map snd] in Hp.
    fold (consumed (op_tuples Registers p)) in Hp. fold (produced (op_tuples Registers p)) in Hp.
    rewrite HR1, HR2 in Hp. exact Hp. }
  (* memory *)
  destruct (boundary_tokens p ini fin Hb) as (HB1 & HB2 & HB3).
  destruct (cu_tokens (p_cus p) (ac_cus h p Ha)) as (HC1 & HC2 & HC3 & HC4). fold (on_cus p) in HC1, HC2, HC3.
  assert (Hmem : Permutation (map fin_tok fin ++ map esrc (flat_map edges_of steps ++ map cu_of (on_cus p)))
    (map ini_tok ini ++ map edst (flat_map edges_of steps ++ map cu_of (on_cus p)))).
  { assert (Hu : unital (mem_side p)).
    { unfold unital, mem_side. apply Forall_app. split; [exact HB3|]. apply Forall_app. split; [|exact HC4].
      apply HU. right. reflexivity. }
    pose proof (balanced_perm _ Hu (ac_mem_bal h p Ha) Hs2) as Hp. unfold mem_side in Hp.
    rewrite !produced_app, !consumed_app, HM1, HM2, HC1, HC2, HB1, HB2 in Hp. rewrite !map_app. exact Hp. }
  destruct Hb as (Hn1 & Hn2 & _).
  assert (Hsize : Z.of_nat (length steps) + STEP * (Z.of_nat (length (map cu_of (on_cus p))) + 2) < P).
  { rewrite Hlen, map_length. exact Hs4. }
  destruct (exec_all steps (map cu_of (on_cus p)) ini fin (p_start p) (p_end p) ((p_clock p + 1) mod P)
    Hgood HC3 Hsize Hn1 Hn2 Haddr Hregs Hmem f0 Hh) as (HT & ss & lg & f' & Hss & Hrun & Hend & Hkeep & Hsame).
  exists (map (fun st => (as_s st, as_i st)) ss), lg, f'. split; [exact Hrun|]. split; [|split].
  - rewrite map_length. rewrite <- (Permutation_length Hss).
    assert (Hn : Z.of_nat (length steps) + 2 < P) by (clear - Hsize; unfold STEP in Hsize; lia).
    clear - HT Hn Hclk. unfold wf, P in *.
    pose proof (Z.mod_pos_bound (p_clock p + 1) 2147483647 eq_refl).
    pose proof (Z.div_mod (p_clock p + 1) 2147483647 ltac:(discriminate)). nia.
  - rewrite map_map. cbn [fst]. rewrite <- (Permutation_map as_s Hss).
    assert (E : map as_s steps = map (fun cr => row_regs (snd cr)) (on_rows p)).
    { clear - Hsteps. induction Hsteps as [|x y l l' Hxy _ IH]; [reflexivity|]. cbn [map]. rewrite IH.
      destruct Hxy as [-> _]. reflexivity. }
    rewrite E. apply Permutation_refl.
  - split; [exact Hend|]. split; [exact Hkeep|exact Hsame].
Qed.
