(** Registers and memory of the prover's output. *)
From Coq Require Import ZArith Bool List Lia Permutation.
From Verif Require Import M31 M31Facts Instr Isa Machine Abi Air AirOpcodes AirSpec AirFacts AirChain AirMem AirGlobal Adapter AdapterSpec AdapterFacts AdapterProps Merkle MerkleFacts MerkleProps
  Trace TraceSpec TraceAll ProverSpec TraceRun Prover ProverFacts.
Import ListNotations.
Open Scope Z_scope.

Lemma tperm t l l' : Permutation l l' -> total t l = total t l'.
Proof. induction 1 as [|[m v] l l' _ IH|[m v] [m' v'] l|l1 l2 l3 _ IH1 _ IH2]; cbn [total]; lia. Qed.
Lemma tzero t l : Forall (fun e => fst e = 0) l -> total t l = 0.
Proof. induction 1 as [|[m v] l Hm _ IH]; [reflexivity|]. cbn [total fst] in *. rewrite IH, Hm. destruct (dec v t); reflexivity. Qed.
(** Rows of bundles, step by step. *)
Lemma total_steps t r (G : hstep -> list (Z * list Z)) ini h k ev s' :
  r = Registers \/ r = Memory ->
  Forall (fun x => exists c, component_of (hs_i x) = Some c /\ Permutation (tuples r (evaluate c (fill c 1 (bundle_for x)))) (G x)) (hsteps ini h k ev s') ->
  total t (flat_map (fun cr => tuples r (evaluate (fst cr) (snd cr))) (op_rows (expected ini h k ev))) = total t (flat_map G (hsteps ini h k ev s')).
Proof.
  intros Hr H. rewrite <- (hsteps_bundles ini ev s' h k). rewrite Forall_forall in H. rewrite total_ops.
  - rewrite flat_map_map. apply total_flat_ext. intros x Hx. destruct (H x Hx) as (c & E & K). cbn [bundle_for b_instr]. rewrite E. cbn [fst snd].
    apply tperm. exact K.
  - intros b Hb. apply in_map_iff in Hb. destruct Hb as (x & <- & Hx). destruct (H x Hx) as (c & E & _). exists c. exact E.
  - intros c. cbn [fst snd]. apply tzero. destruct (pad_facts c) as (_ & _ & _ & K & _). apply K, Hr.
Qed.

(** ** Registers *)
Lemma steps_regs t ini s' ev : forall h k, 0 <= k -> k + Z.of_nat (length ev) < P ->
  (total t (flat_map (fun x => reg_tuples (hs_clk x) (hs_s x) (hs_t x)) (hsteps ini h k ev s')) +
   is_tuple t (let s := match ev with [] => s' | e :: _ => ev_state e end in [pc s; fp s; k])) mod P =
  is_tuple t [pc s'; fp s'; k + Z.of_nat (length ev)] mod P.
Proof.
  induction ev as [|e ev IH]; intros h k Hk Hl.
  - cbn [hsteps flat_map total length]. rewrite Z.add_0_l, Z.add_0_r. reflexivity.
  - cbn [hsteps flat_map length] in *. rewrite Nat2Z.inj_succ in *.
    specialize (IH (rev (at_clock k (ev_log e)) ++ h) (k + 1) ltac:(lia) ltac:(lia)).
    replace (k + Z.succ (Z.of_nat (length ev))) with (k + 1 + Z.of_nat (length ev)) by lia. rewrite <- IH. clear IH.
    rewrite total_app. cbn [hs_clk hs_s hs_t reg_tuples total]. rewrite (Z.mod_small (k + 1)) by lia. cbv zeta.
    set (s1 := match ev with [] => s' | e' :: _ => ev_state e' end). unfold is_tuple.
    set (T := total t _). set (x := if dec [pc (ev_state e); _; _] t then 1 else 0).
    replace (if dec [pc (ev_state e); fp (ev_state e); k] t then P - 1 else 0) with (x * (P - 1)) by (unfold x; destruct (dec _ t); ring).
    set (y := if dec [pc s1; _; _] t then 1 else 0).
    replace (x * (P - 1) + (y + 0) + T + x) with (T + y + x * P) by ring. apply Z_mod_plus_full.
Qed.

(** ** Memory *)
Lemma steps_mem t ini s' ev : forall h k,
  total t (flat_map (fun x => mem_tuples (hs_clk x) (map acc_of (hs_ms x))) (hsteps ini h k ev s')) =
  (P - 1) * zcount t (map acc_old (moves ini h (timeline k ev))) + zcount t (map acc_new (moves ini h (timeline k ev))).
Proof.
  intros h k. rewrite <- (hsteps_moves ini ev s' h k).
  assert (Hc : forall x, In x (hsteps ini h k ev s') -> Forall (fun m => mv_clk m = hs_clk x) (hs_ms x)).
  { clear. revert h k. induction ev as [|e ev IH]; intros h k x Hx; [destruct Hx|]. cbn [hsteps] in Hx. destruct Hx as [<-|Hx]; [|eapply IH; exact Hx].
    cbn [hs_ms hs_clk]. apply Forall_forall. intros m Hm. apply (at_clock_clk _ _ _ _ _ Hm). }
  induction (hsteps ini h k ev s') as [|x l IH]; [unfold zcount; cbn [flat_map map count_occ total Z.of_nat]; ring|].
  cbn [flat_map]. rewrite total_app, !map_app, !zcount_app, IH by (intros y Hy; apply Hc; right; exact Hy).
  specialize (Hc x (or_introl eq_refl)).
  assert (K : total t (mem_tuples (hs_clk x) (map acc_of (hs_ms x))) = (P - 1) * zcount t (map acc_old (hs_ms x)) + zcount t (map acc_new (hs_ms x))).
  { unfold mem_tuples. rewrite flat_map_map. induction Hc as [|m ms Hm _ IHm]; [unfold zcount; cbn [flat_map map count_occ total Z.of_nat]; ring|].
    cbn [flat_map map]. rewrite total_app, IHm. unfold zcount. cbn [total acc_of ac_addr ac_prev ac_old ac_new count_occ].
    change (mv_addr m :: mv_start m :: qlist (mv_old m)) with (acc_old m).
    replace (mv_addr m :: hs_clk x :: qlist (mv_new m)) with (acc_new m) by (unfold acc_new, tok; rewrite Hm; reflexivity).
    destruct (dec (acc_old m) t), (dec (acc_new m) t); rewrite ?Nat2Z.inj_succ; unfold Z.succ; ring. }
  rewrite K. ring.
Qed.

(** What the adapter's memory looks like: addresses, clocks, contents and multiplicities
    in the field, one entry per address, multiplicities 0 and 1 at the start, 0 and -1 at
    the end. *)
Definition cell_sane (k : Z) (x : Z * cellv) : Prop :=
  addr_ok (fst x) /\ wf (snd (fst (snd x))) /\ qwf (fst (fst (snd x))) /\ (snd (snd x) = 0 \/ snd (snd x) = k).
Record sane (m : amem) : Prop := Sane {
  sa_ini : Forall (cell_sane 1) (a_ini m);
  sa_fin : Forall (cell_sane (P - 1)) (a_fin m);
  sa_ini_nodup : NoDup (keys (a_ini m));
  sa_fin_nodup : NoDup (keys (a_fin m));
  sa_cu : Forall (fun x : Z * Z * qm31 => let '(a, c, v) := x in wf a /\ wf c /\ wf (c + GAP) /\ qwf v) (a_cu m) }.
Lemma addr_wf a : addr_ok a -> wf a.
Proof. unfold addr_ok, wf, P. lia. Qed.
Ltac modp := repeat match goal with H : wf ?x |- context [?x mod P] => rewrite (wf_mod x H) end.


Lemma mem_row_memory e a c v k root : wf a -> wf c -> qwf v -> wf k ->
  tuples Memory (mem_air ([e; a; c] ++ qlist v ++ [k; root])) = [(k, tok a c v)].
Proof.
  intros A C (V0 & V1 & V2 & V3) K. unfold tuples, mem_air, tok, qlist. cbn -[Z.modulo Z.mul Z.add Z.sub Z.opp P].
  unfold norm. cbn [re_rel re_mult re_vals width map]. unfold pad. cbn -[Z.modulo P]. modp. reflexivity.
Qed.
Lemma mem_cells_memory t root k l : Forall (cell_sane k) l -> wf k -> k <> 0 ->
  total t (flat_map (fun row => tuples Memory (mem_air row)) (mem_cells root l)) = k * zcount t (toks k l).
Proof.
  intros H Hk H0. unfold mem_cells, toks. rewrite flat_map_map.
  induction H as [|[a [[v c] j]] l (A & C & V & J) _ IH]; [unfold zcount; cbn; ring|].
  cbn [flat_map fst snd] in *. rewrite total_app, IH. apply addr_wf in A.
  assert (Hj : wf j) by (destruct J as [->| ->]; [apply wf0|exact Hk]).
  rewrite mem_row_memory by assumption. cbn [filter]. unfold mult_is at 2. cbn [snd].
  destruct J as [->| ->].
  - destruct (Z.eqb_spec 0 k); [congruence|]. cbn [total]. destruct (dec (tok a c v) t); ring.
  - rewrite Z.eqb_refl. cbn [map total]. unfold zcount. cbn [count_occ].
    change (ctok (a, (v, c, k))) with (tok a c v). destruct (dec (tok a c v) t); [rewrite Nat2Z.inj_succ|]; unfold Z.succ; ring.
Qed.
Lemma cu_row_memory a c v : wf a -> wf c -> wf (c + GAP) -> qwf v ->
  tuples Memory (cu_air ([1; a; c] ++ qlist v)) = [(P - 1, tok a c v); (1, tok a (c + GAP) v)].
Proof.
  intros A C C' (V0 & V1 & V2 & V3). unfold tuples, cu_air, tok, qlist. cbn -[Z.modulo Z.mul Z.add Z.sub Z.opp P].
  unfold norm. cbn [re_rel re_mult re_vals width map]. unfold pad. cbn -[Z.modulo Z.add P]. change (c + 1048575) with (c + GAP). modp. reflexivity.
Qed.
Lemma cu_memory t m : sane m ->
  total t (flat_map (fun row => tuples Memory (cu_air row)) (map (fun x : Z * Z * qm31 => let '(a, c, v) := x in [1; a; c] ++ qlist v) (a_cu m))) =
  (P - 1) * zcount t (map cu_old (a_cu m)) + zcount t (map cu_new (a_cu m)).
Proof.
  intros H. destruct H as [_ _ _ _ H]. rewrite flat_map_map.
  induction H as [|[[a c] v] l (A & C & C' & V) _ IH]; [unfold zcount; cbn; ring|].
  cbn [flat_map]. rewrite total_app, IH, cu_row_memory by assumption. cbn [map total]. unfold zcount. cbn [count_occ cu_old cu_new].
  destruct (dec (tok a c v) t), (dec (tok a (c + GAP) v) t); rewrite ?Nat2Z.inj_succ; unfold Z.succ; ring.
Qed.
(** Padding rows. *)
Lemma total_padded t w (F : list Z -> list (Z * list Z)) rows :
  total t (F (repeat 0 w)) = 0 -> total t (flat_map F (padded w rows)) = total t (flat_map F rows).
Proof.
  intros H. unfold padded. rewrite flat_map_app, total_app, (total_flat_zero t F (repeat _ _)); [ring|].
  intros x Hx. apply repeat_spec in Hx. subst x. exact H.
Qed.
(** Public cells. *)
Lemma hget_sane k l a v c j : Forall (cell_sane k) l -> hget l a = Some (v, c, j) -> cell_sane k (a, (v, c, j)).
Proof.
  intros H E. rewrite Forall_forall in H. exact (H _ (hget_in _ _ _ E)).
Qed.
Definition pub_sane (x : pub) : Prop := let '(a, v, c) := x in addr_ok a /\ qwf v /\ wf c.
Lemma extract_sane k l r : Forall (cell_sane k) l -> Forall pub_sane (extract l r).
Proof.
  intros H. unfold extract. apply Forall_forall. intros x Hx. apply in_flat_map in Hx. destruct Hx as (a & _ & Hx).
  destruct (hget l (mfrom a)) as [[[v c] j]|] eqn:E; [|destruct Hx]. destruct Hx as [<-|[]].
  destruct (hget_sane k l _ _ _ _ H E) as (A & B & C & _). cbn in *. auto.
Qed.
Lemma pub_total t k l : Forall pub_sane l -> total t (map (pub_tuple k) l) = k * zcount t (map ptok l).
Proof.
  intros H. rewrite <- total_const, map_map. f_equal. apply map_ext_in. intros [[a v] c] Hx. rewrite Forall_forall in H.
  destruct (H _ Hx) as (A & (V0 & V1 & V2 & V3) & C). apply addr_wf in A. unfold pub_tuple, ptok, tok, qlist. cbn [map]. modp. reflexivity.
Qed.

Lemma mem_side_total r m xs bs p root0 root1 t :
  sane m ->
  p_mem p = mem_rows m root0 root1 -> p_cus p = cu_rows m -> p_ops p = op_rows bs ->
  p_program p = extract (a_ini m) (r_program r) -> p_input p = extract (a_ini m) (r_input r) -> p_output p = extract (a_fin m) (r_output r) ->
  (forall t, total t (op_tuples Memory p) = (P - 1) * zcount t (map acc_old xs) + zcount t (map acc_new xs)) ->
  total t (mem_side p) mod P = (zcount t (emitted r m xs) - zcount t (taken r m xs)) mod P.
Proof.
  intros Hs E1 E2 E3 E4 E5 E6 Ho. unfold mem_side, boundary. rewrite !total_app, Ho, E1, E2, E4, E5, E6. unfold mem_rows, cu_rows.
  rewrite !total_padded by (apply tzero; repeat constructor).
  rewrite cu_memory by exact Hs. rewrite flat_map_app, total_app.
  rewrite (mem_cells_memory t root0 1) by (first [apply Hs|apply wf1|discriminate]).
  rewrite (mem_cells_memory t root1 (P - 1)) by (first [apply Hs|split; reflexivity || discriminate|discriminate]).
  rewrite !pub_total by (eapply extract_sane; first [apply (sa_ini m Hs)|apply (sa_fin m Hs)]).
  unfold emitted, taken. rewrite map_app, !zcount_app.
  match goal with |- ?a mod P = ?b mod P => replace a with (b +
    (zcount t (toks (P - 1) (a_fin m)) + zcount t (map cu_old (a_cu m)) + zcount t (map acc_old xs) + zcount t (map ptok (extract (a_fin m) (r_output r)))) * P) by ring end.
  apply Z_mod_plus_full.
Qed.
