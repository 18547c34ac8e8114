(** Row-wise facts that hold by inspection of every component: multiplicities of the
    lookups, enablers, padding. *)
From Coq Require Import ZArith Bool List Lia Permutation.
From Verif Require Import M31 M31Facts Instr Isa Machine Air AirOpcodes AirSpec AirFacts AirChain AirMem AirGlobal.
Import ListNotations.
Open Scope Z_scope.

Definition looks_once (a : air) : Prop :=
  Forall (fun e => is_lookup (re_rel e) = true -> re_mult e = -1) (a_ents a).
(** The multiplicities of register and memory tuples are plus or minus the enabler, and
    the enabler is the first column, constrained to 0 or 1. *)
Definition gated (a : air) (en : Z) : Prop :=
  Forall (fun e => re_rel e = Registers \/ re_rel e = Memory -> re_mult e = en \/ re_mult e = - en) (a_ents a) /\
  (In (en * (1 - en)) (a_cons a) \/ In (en * (en - 1)) (a_cons a)).

Ltac row_cases row Hlen :=
  repeat (destruct row as [|? row]; [discriminate Hlen|cbn [length] in Hlen; apply eq_add_S in Hlen]);
  destruct row; [clear Hlen|discriminate Hlen].
Ltac ents_tac :=
  repeat (apply Forall_cons; [cbn [re_rel re_mult is_lookup]; first
    [ intros _; reflexivity | intros H; discriminate H
    | intros _; left; reflexivity | intros _; right; reflexivity
    | intros [H|H]; discriminate H ]|]); apply Forall_nil.

Lemma row_shape c row : length row = n_columns c ->
  looks_once (evaluate c row) /\ gated (evaluate c row) (nth 0 row 0).
Proof.
  intros Hlen. destruct c; cbn [n_columns] in Hlen; row_cases row Hlen; cbn [evaluate on_row nth];
  match goal with |- looks_once ?a /\ _ =>
    let h := eval hnf in a in change a with h end;
  (split; [unfold looks_once; cbn [a_ents]; ents_tac|
    split; [cbn [a_ents]; ents_tac|cbn [a_cons]; first [left; left; reflexivity | right; left; reflexivity]]]).
Qed.

Lemma enabler_01 a en : wf en -> gated a en -> vanishes a -> en = 0 \/ en = 1.
Proof.
  intros Hw [_ H] Hv. unfold vanishes in Hv. rewrite Forall_forall in Hv.
  apply bool_col; [exact Hw|]. destruct H as [H|H]; apply Hv in H; [exact H|].
  replace (en * (1 - en)) with (- (en * (en - 1))) by ring. apply Z_mod_zero_opp_full. exact H.
Qed.

(** A row that is switched off adds nothing to the register and memory relations. *)
Lemma off_row a r : (r = Registers \/ r = Memory) -> gated a 0 -> Forall (fun t => fst t = 0) (tuples r a).
Proof.
  intros Hr [H _]. unfold tuples. apply Forall_map, Forall_forall. intros e He.
  apply filter_In in He. destruct He as [He Hre]. rewrite Forall_forall in H. specialize (H e He).
  assert (Hx : re_rel e = r) by (destruct (re_rel e), r; try reflexivity; discriminate Hre).
  cbn [norm fst]. destruct H as [-> | ->]; [rewrite Hx; exact Hr| |]; reflexivity.
Qed.

(** Every lookup of an opcode row has multiplicity -1. *)
Lemma lookup_tuples a r : is_lookup r = true -> looks_once a -> Forall (fun t => fst t = P - 1) (tuples r a).
Proof.
  intros Hr H. unfold tuples. apply Forall_map, Forall_forall. intros e He.
  apply filter_In in He. destruct He as [He Hre]. unfold looks_once in H. rewrite Forall_forall in H. specialize (H e He).
  assert (Hx : re_rel e = r) by (destruct (re_rel e), r; try reflexivity; discriminate Hre).
  cbn [norm fst]. rewrite Hx in H. rewrite (H Hr). reflexivity.
Qed.

(** Tuples hold field elements. *)
Lemma pad_wf n l : Forall wf l -> Forall wf (pad n l).
Proof.
  revert l. induction n as [|n IH]; intros l Hl; [constructor|]. destruct l as [|x l]; cbn [pad].
  - constructor; [split; [discriminate|reflexivity]|apply IH; constructor].
  - inversion Hl; subst. constructor; [assumption|apply IH; assumption].
Qed.
Lemma tuples_wf r a m v : In (m, v) (tuples r a) -> Forall wf v.
Proof.
  unfold tuples. rewrite in_map_iff. intros (e & He & _). unfold norm in He. injection He as _ <-.
  apply pad_wf, Forall_map, Forall_forall. intros x _. apply Z.mod_pos_bound. reflexivity.
Qed.

(** Lookups that balance against a table hit the table. *)
Lemma total_all t m es : Forall (fun e => fst e = m) es ->
  total t es = m * Z.of_nat (count_occ dec (map snd es) t).
Proof.
  induction 1 as [|[k v] es Hk _ IH]; [cbn; ring|]. cbn [total map snd count_occ]. cbn [fst] in Hk.
  rewrite IH, Hk. destruct (dec v t); [rewrite Nat2Z.inj_succ; ring|ring].
Qed.
Lemma total_absent t es : ~ In t (map snd es) -> total t es = 0.
Proof.
  induction es as [|[k v] es IH]; intros H; [reflexivity|]. cbn [total map snd] in *.
  destruct (dec v t) as [->|]; [exfalso; apply H; left; reflexivity|].
  rewrite IH; [reflexivity|]. intros Hin. apply H. right. exact Hin.
Qed.
Lemma lookup_hits uses tab t :
  Forall (fun e => fst e = P - 1) uses -> Z.of_nat (length uses) < P ->
  balanced (uses ++ tab) -> In t (map snd uses) -> In t (map snd tab).
Proof.
  intros Hu Hlen Hb Hin. destruct (in_dec dec t (map snd tab)) as [H|H]; [exact H|exfalso].
  specialize (Hb t). rewrite total_app, (total_absent t tab H), (total_all t (P - 1) uses Hu), Z.add_0_r in Hb.
  apply (count_occ_In dec) in Hin.
  assert (Hc : (count_occ dec (map snd uses) t <= length uses)%nat)
    by (rewrite <- (map_length snd uses); apply count_le).
  set (n := Z.of_nat (count_occ dec (map snd uses) t)) in *.
  assert (Hn : 0 < n < P) by (subst n; lia).
  replace ((P - 1) * n) with (- n + n * P) in Hb by ring. rewrite Z_mod_plus_full in Hb.
  clear - Hb Hn. unfold P in *. pose proof (Z.div_mod (- n) 2147483647 ltac:(discriminate)).
  rewrite Hb in H. assert (- n / 2147483647 = -1 \/ - n / 2147483647 >= 0 \/ - n / 2147483647 <= -2) by lia. nia.
Qed.

(** So the rows of an accepted proof are satisfied. *)
Lemma flat_map_In {A B} (g : A -> list B) x l y : In x l -> In y (g x) -> In y (flat_map g l).
Proof. intros H1 H2. apply in_flat_map. exists x. auto. Qed.
Theorem accepted_rows h p : accepted h p -> sized p ->
  Forall (fun cr => satisfied (evaluate (fst cr) (snd cr))) (p_ops p).
Proof.
  intros Ha (_ & _ & Hsz & _). apply Forall_forall. intros cr Hin.
  pose proof (ac_ops h p Ha) as Hops.
  assert (Hops' := Hops). rewrite Forall_forall in Hops'. destruct (Hops' cr Hin) as (Hlen & Hw & Hv).
  split; [exact Hv|]. apply Forall_forall. intros e He. unfold lookup_ok.
  destruct (is_lookup (re_rel e)) eqn:Hl.
  2:{ right. destruct (re_rel e); try discriminate Hl; exact I. }
  right. set (r := re_rel e) in *.
  assert (Hall : Forall (fun t => fst t = P - 1) (op_tuples r p)).
  { unfold op_tuples. apply Forall_forall. intros t Ht. apply in_flat_map in Ht. destruct Ht as (x & Hx & Ht).
    destruct (Hops' x Hx) as (Hlx & _ & _). destruct (row_shape _ _ Hlx) as [Hs _].
    pose proof (lookup_tuples _ r Hl Hs) as Hf. rewrite Forall_forall in Hf. exact (Hf t Ht). }
  pose proof (ac_lookup_bal h p Ha r Hl) as Hb. unfold lookup_side in Hb.
  assert (Ht : In (snd (norm e)) (map snd (op_tuples r p))).
  { apply in_map. unfold op_tuples. apply in_flat_map. exists cr. split; [exact Hin|].
    unfold tuples. apply in_map. apply filter_In. split; [exact He|]. unfold r. destruct (re_rel e); reflexivity. }
  apply (lookup_hits _ _ _ Hall (Hsz r Hl) Hb) in Ht.
  apply in_map_iff in Ht. destruct Ht as (t & Ht & Hti). apply in_map_iff in Hti.
  destruct Hti as ([r' t'] & Ht' & Hti). cbn [snd] in Ht'. subst t'. apply filter_In in Hti. destruct Hti as [Hti Hre].
  pose proof (ac_tab h p Ha) as Htab. rewrite Forall_forall in Htab. destruct (Htab _ Hti) as [_ Hit].
  cbn [fst snd] in *. rewrite <- Ht. destruct r', r; try discriminate Hre; exact Hit.
Qed.
