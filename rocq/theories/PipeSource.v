(** From source to machine: the parts put together. *)
From Coq Require Import ZArith Bool String List Arith Lia Permutation.
From Verif Require Import M31 Isa Mir MirSem MirSsaFacts Src SrcSem SrcCheck SrcFacts Lower LowerSpec LowerFacts LowerStep LowerStmt LowerSim LowerFun
  MirType MirTypeFacts CgRun PipeLift Pipe PipeCheck.
Import ListNotations.
Open Scope nat_scope.

Definition ret_tys (f : sfun) : list ty := match s_ret f with Some t => [t] | None => [] end.

(** Lowered functions have the parameter and result types of the source. *)
Lemma omap_seq : forall (T : nat -> option ty) ts k, (forall i t, nth_error ts i = Some t -> T (k + i) = Some t) ->
  omap T (seq k (length ts)) = Some ts.
Proof.
  intros T. induction ts as [|t ts IH]; intros k H; [reflexivity|]. cbn [length seq omap].
  rewrite <- (Nat.add_0_r k) at 1. rewrite (H 0 t eq_refl). rewrite (IH (S k)); [reflexivity|].
  intros i u Hi. replace (S k + i) with (k + S i) by lia. apply H. exact Hi.
Qed.
Theorem lower_sig ord sg f g : (forall l, Permutation (ord l) l) -> sfun_ok sg f = true ->
  lower_fun ord sg f = Some g -> sig g = (Some (s_params f), Some (ret_tys f)).
Proof.
  intros OP f_ok lowered. unfold sfun_ok in f_ok. rewrite !andb_true_iff in f_ok. destruct f_ok as ((((LO & PRV) & FP) & T) & PT).
  destruct (SrcCheck.typed _ _ _ _ _) as [D'|] eqn:TD; [|discriminate]. clear T.
  set (V := s_vars f) in *. set (N := length (s_params f)) in *. set (ps := seq 0 N).
  unfold lower_fun, lower_state in lowered.
  destruct (lower_params 0 (s_params f) start) as [ps0 st] eqn:E0.
  destruct (pst_params (s_params f) [] start ps0 st pst_start E0) as (-> & P). cbn [app] in P.
  change (length (@nil ty)) with 0 in *. fold N ps in lowered.
  destruct (seal ord 0 st) as [st1|] eqn:E1; [|discriminate].
  destruct (lower_stmt ord (s_vars f) sg None (s_body f) st1) as [st2|] eqn:E2; [|discriminate].
  pose proof (pst_inv V _ _ P (combine_types _ _ PT)) as I0. fold N ps in I0.
  destruct (seal_spec V ps ord OP 0 st st1 I0 ltac:(rewrite (p_nb _ _ P); lia) E1) as (I1 & _ & _).
  assert (S1 : st1 = Lst (l_nb st) (l_phis st) (l_body st) (l_term st) (l_preds st) (l_next st) (l_tys st)
         (l_def st) (l_loc st) (upf (l_inc st) 0 []) (upf (l_sealed st) 0 true) (l_cur st) (l_ent st) (l_cls st)).
  { unfold seal in E1. rewrite (p_inc _ _ P) in E1. pose proof (Permutation_nil (Permutation_sym (OP []))) as OE.
    rewrite OE in E1. cbn [complete] in E1. congruence. }
  assert (PR : pre V ps None st1).
  { split; [|intros b (h & x & K & _); discriminate]. split; auto. rewrite S1. cbn. rewrite (p_cur _ _ P), (p_nb _ _ P).
    split; [lia|]. unfold finished. cbn. rewrite (p_term _ _ P). reflexivity. }
  pose proof (lower_stmt_spec V ps sg (s_ret f) ord OP (s_body f) _ _ FP TD None st1 st2 PR E2) as PO.
  assert (T2 : forall i t, nth_error (s_params f) i = Some t -> l_tys st2 i = Some t).
  { intros i t Hi. apply (e_tys _ _ (s_ext _ _ _ _ _ (o_step _ _ _ _ _ PO))). rewrite S1. cbn. rewrite (p_tys _ _ P). exact Hi. }
  pose proof (i_tys _ _ _ _ (o_inv _ _ _ _ _ PO)) as Below.
  unfold ret_tys. destruct (s_ret f) as [t|].
  - cbn in lowered. injection lowered as <-. unfold sig. cbn [f_types f_params f_rets omap]. f_equal.
    + apply omap_seq. intros i u Hi. cbn. unfold upf. destruct (Nat.eqb_spec i (l_next st2)) as [->|]; [|exact (T2 i u Hi)].
      pose proof (Below _ _ (T2 _ _ Hi)). lia.
    + unfold upf. rewrite Nat.eqb_refl. reflexivity.
  - injection lowered as <-. unfold sig. cbn [f_types f_params f_rets omap]. f_equal. apply omap_seq. exact T2.
Qed.
Lemma lowered_sigs : forall fs ms, module_ok fs = true -> lowered fs ms ->
  forall k f, nth_error fs k = Some f -> exists m, nth_error ms k = Some m /\ sig (snd m) = (Some (s_params f), Some (ret_tys f)).
Proof.
  intros fs ms OK LW k f K. unfold module_ok in OK. rewrite forallb_forall in OK.
  destruct (forall2_nth _ _ _ LW k f K) as (m & M & ord & OP & L). exists m. split; [exact M|].
  exact (lower_sig ord _ f _ OP (OK f (nth_error_In _ _ K)) L).
Qed.

(** One choice of hash orders. *)
Definition some_hashes : hashes := Hashes (fun f => nodup Nat.eq_dec (map fst (MirCopy.direct_copies f))) some_orders.
Lemma assoc_none : forall l d, MirCopy.assoc l d <> None <-> In d (map fst l).
Proof.
  induction l as [|[k s] l IH]; intro d; cbn; [split; [congruence|tauto]|]. specialize (IH d).
  destruct (MirCopy.assoc l d); [split; [intros _; right; apply IH|]; congruence|].
  destruct (Nat.eqb_spec k d); split; intro H; try congruence; auto.
  destruct H as [H|H]; [congruence | apply IH in H; congruence].
Qed.
Lemma some_hashes_valid : valid_hashes some_hashes.
Proof.
  intro f. split; [|exact (some_orders_valid f)]. intro d. cbn. rewrite nodup_In. unfold MirCopy.copy_src. symmetry. apply assoc_none.
Qed.
