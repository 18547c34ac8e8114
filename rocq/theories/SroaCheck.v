(** Scalar replacement: checking the side conditions of concrete functions. *)
From Coq Require Import ZArith Bool String List Lia Arith.
From Verif Require Import M31 Mir MirSem MirSsa MirSsaFacts MirSim MirType MirTypeFacts MirLegalFacts MirSroa SroaSpec.
Import ListNotations.
Open Scope nat_scope.

Definition below_all (n : nat) (l : list nat) : bool := forallb (fun v => Nat.ltb v n) l.
Definition ids_ok (f : func) : bool :=
  forallb (fun b => forallb (fun i => below_all (f_next f) (dests i) && below_all (f_next f) (uses i)) (b_instrs b) &&
                    below_all (f_next f) (term_uses (b_term b))) (f_blocks f) &&
  below_all (f_next f) (f_params f) && below_all (f_next f) (f_rets f).
Lemma below_all_sound : forall n l, below_all n l = true -> forall v, In v l -> v < n.
Proof. intros n l H v Hv. unfold below_all in H. rewrite forallb_forall in H. now apply Nat.ltb_lt, H. Qed.
Lemma ids_ok_sound : forall f, ids_ok f = true -> ids_below f.
Proof.
  intros f H. unfold ids_ok in H. apply andb_true_iff in H. destruct H as [H HR]. apply andb_true_iff in H. destruct H as [H HP].
  rewrite forallb_forall in H. split.
  - intros b Hb. specialize (H b Hb). apply andb_true_iff in H. destruct H as [HI HT]. rewrite forallb_forall in HI. split.
    + intros i Hi v Hv. specialize (HI i Hi). apply andb_true_iff in HI. destruct HI as [A B].
      destruct Hv; [exact (below_all_sound _ _ A v H)|exact (below_all_sound _ _ B v H)].
    + exact (below_all_sound _ _ HT).
  - intros v [Hv|Hv]; [exact (below_all_sound _ _ HP v Hv)|exact (below_all_sound _ _ HR v Hv)].
Qed.

Definition closed_ok (f : func) : bool :=
  let D := f_params f ++ all_dests f in
  forallb (fun b => forallb (fun v => mem_nat v D) (flat_map uses (b_instrs b) ++ term_uses (b_term b))) (f_blocks f).
Lemma closed_ok_sound : forall f, closed_ok f = true -> closed f.
Proof.
  intros f H b v Hb Hv. unfold closed_ok in H. rewrite forallb_forall in H. specialize (H b Hb). rewrite forallb_forall in H.
  apply in_app_or, mem_nat_iff, H, in_or_app. destruct Hv as [(i & Hi & Hv)|Hv]; [left|right; exact Hv].
  apply in_flat_map. eauto.
Qed.

Definition arrays_ok (f g : func) : bool :=
  forallb (fun b => forallb (fun i => match i with IMakeArray d _ _ _ => mem_nat d (all_dests g) | _ => true end)
                            (b_instrs b)) (f_blocks f).
Lemma arrays_ok_sound : forall f g, arrays_ok f g = true -> arrays_kept f g.
Proof.
  intros f g H b d es t c Hb Hi. unfold arrays_ok in H. rewrite forallb_forall in H. specialize (H b Hb).
  rewrite forallb_forall in H. exact (proj1 (mem_nat_iff _ _) (H _ Hi)).
Qed.

(** What the pipeline gives the pass. *)
Definition well_formed (f : func) : Prop := ssa f /\ phis_first f /\ ids_below f /\ agg_typed f = true.
Definition wf_ok (f : func) : bool := ssa_ok f && phis_first_ok f && ids_ok f && agg_typed f.
Lemma wf_ok_sound : forall f, wf_ok f = true -> well_formed f.
Proof.
  intros f H. unfold wf_ok in H. apply andb_true_iff in H. destruct H as [H A]. apply andb_true_iff in H. destruct H as [H I].
  apply andb_true_iff in H. destruct H as [H P].
  split; [exact (ssa_ok_sound f H)|]. split; [exact (phis_first_sound f P)|]. split; [exact (ids_ok_sound f I)|exact A].
Qed.

(** ** Functions that build nothing come out as they are. *)
Definition builds (i : minstr) : bool :=
  match i with IMakeTuple _ _ | IMakeStruct _ _ _ | IMakeArray _ _ _ _ => true | _ => false end.
Lemma chain_none : forall f v p r, chain f [] v (p :: r) = None.
Proof. intros f [] p r; reflexivity. Qed.
Lemma store_chain_none : forall f v ps w, store_chain f [] v ps w = None.
Proof. intros f [] [|p r] w; reflexivity. Qed.
Lemma call_args_none : forall m args ps, call_args [] m args ps = Some (args, [], m).
Proof.
  intros m. induction args as [|a r IH]; intro ps; [reflexivity|]. cbn [call_args].
  replace (match a with Op v => _ | _ => _ end) with (@None (list value * ty))
    by (destruct a, ps as [|t ps]; try reflexivity; cbn [st_get]; destruct (agg_ty t); reflexivity).
  rewrite IH. reflexivity.
Qed.
Lemma ret_vals_none : forall f m vs, ret_vals f [] m vs = Some (vs, [], m).
Proof.
  intros f m. induction vs as [|a r IH]; [reflexivity|]. cbn [ret_vals].
  replace (match a with Op v => _ | _ => _ end) with (@None (list value * ty)) by (destruct a; reflexivity).
  rewrite IH. reflexivity.
Qed.
Lemma step_none : forall f cross is m i, builds i = false -> step f cross is [] m i = Some ([i], [], m).
Proof.
  intros f cross is m i B. destruct i; cbn [builds] in B; try discriminate; try reflexivity; cbn [step].
  - destruct source as [| |]; try reflexivity; destruct (agg_ty t); reflexivity.
  - rewrite call_args_none. reflexivity.
  - destruct (starts_const pl) eqn:E; [|reflexivity]. unfold starts_const in E. destruct (pl_projs pl) as [|p r]; [discriminate|].
    rewrite chain_none. reflexivity.
  - rewrite store_chain_none. destruct (starts_const pl), v; try reflexivity; destruct (agg_ty t); reflexivity.
  - destruct tuple; reflexivity.
  - destruct struct_val; try reflexivity. destruct (field_index _ _); reflexivity.
  - destruct struct_val; reflexivity.
  - destruct tuple_val; reflexivity.
Qed.
Lemma steps_none : forall f cross is m js, existsb builds js = false -> steps f cross is [] m js = Some (js, [], m).
Proof.
  intros f cross is m. induction js as [|j r IH]; intro B; [reflexivity|]. cbn [existsb] in B. apply orb_false_iff in B. destruct B as [B1 B2].
  cbn [steps]. rewrite (step_none _ _ _ _ _ B1), (IH B2). reflexivity.
Qed.
Lemma block_none : forall f cross m b, existsb builds (b_instrs b) = false -> sroa_block f cross m b = Some (b, [], m).
Proof.
  intros f cross m b B. unfold sroa_block. destruct (agg_phi f b); [reflexivity|].
  assert (B' : existsb builds (snd (span_phi (b_instrs b))) = false).
  { rewrite (span_phi_app (b_instrs b)), existsb_app in B. apply orb_false_iff in B. apply B. }
  cbv zeta. rewrite (steps_none _ _ _ _ _ B').
  assert (T : sroa_term f [] m (b_term b) = Some (b_term b, [], m)).
  { destruct (b_term b); try reflexivity. cbn [sroa_term]. rewrite ret_vals_none. reflexivity. }
  rewrite T. rewrite app_nil_r, <- span_phi_app. destruct b; reflexivity.
Qed.
Lemma sroa_none : forall f, existsb (fun b => existsb builds (b_instrs b)) (f_blocks f) = false -> sroa_pass f = Some f.
Proof.
  intros f H. unfold sroa_pass, sroa_run.
  assert (K : forall bs m, existsb (fun b => existsb builds (b_instrs b)) bs = false -> sroa_blocks f (cross_block f) m bs = Some (bs, [], m)).
  { induction bs as [|b bs IH]; intros m B; [reflexivity|]. cbn [existsb] in B. apply orb_false_iff in B. destruct B as [B1 B2].
    cbn [sroa_blocks]. rewrite (block_none _ _ _ _ B1), (IH _ B2). reflexivity. }
  rewrite (K _ _ H). cbn. destruct f; reflexivity.
Qed.
