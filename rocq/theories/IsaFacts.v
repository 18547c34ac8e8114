(** Every instruction handler realises the specification [isa]. *)
From Coq Require Import ZArith Bool List Lia.
From Verif Require Import M31 M31Facts Instr VmMem VmMemFacts Vm Isa.
Import ListNotations.
Open Scope Z_scope.
Ltac Zify.zify_post_hook ::= Z.div_mod_to_equations.

(** Memory invariant: the vectors are disjoint and hold field elements. *)
Definition mok (m : mem) : Prop := minv_ok m /\ forall a, qwf (raw m a).

Lemma felt_wf m a : mok m -> wf (felt m a).
Proof. intros [_ H]. apply H. Qed.

Definition qwrites (ws : list (Z * Z)) : list (Z * qm31) := map (fun w => (fst w, qofm (snd w))) ws.
Definition read_log (m : mem) (l : list Z) : list entry := map (fun a => En a (raw m a)) l.
Definition write_log (ws : list (Z * Z)) : list entry := map (fun w => En (fst w) (qofm (snd w))) ws.

(** [runs m rd ws m']: from [m], reading [rd] then writing [ws] leads to [m']. *)
Definition runs (m : mem) (rd : list Z) (ws : list (Z * Z)) (m' : mem) : Prop :=
  mok m' /\ zlen (locals m) <= zlen (locals m') /\
  (forall b, raw m' b = upds (raw m) (qwrites ws) b) /\
  mtrace m' = mtrace m ++ read_log m rd ++ write_log ws.

Lemma upds_ext {A} (f g : Z -> A) ws b : (forall x, f x = g x) -> upds f ws b = upds g ws b.
Proof.
  revert f g; induction ws as [|[a v] r IH]; intros f g H; cbn [upds]; [apply H|].
  apply IH. intros x. destruct (x =? a); auto.
Qed.
Lemma upds_app {A} (f : Z -> A) w1 w2 : upds f (w1 ++ w2) = upds (upds f w1) w2.
Proof. revert f; induction w1 as [|[a v] r IH]; intros f; cbn [app upds]; auto. Qed.

Lemma runs_nil m : mok m -> runs m [] [] m.
Proof. intros H. repeat split; try apply H; try lia. cbn. rewrite app_nil_r. reflexivity. Qed.

Lemma runs_read m rd m' a :
  runs m rd [] m' -> runs m (rd ++ [a]) [] (log m' a (raw m' a)).
Proof.
  intros (H1 & H2 & H3 & H4). split; [exact H1|]. split; [exact H2|]. split; [exact H3|].
  cbn [log mtrace]. rewrite H4. unfold read_log. rewrite map_app. cbn [map write_log].
  rewrite !app_nil_r, app_assoc. rewrite (H3 a). reflexivity.
Qed.

Lemma qofm_wf v : wf v -> qwf (qofm v).
Proof. intros H. repeat split; cbn; try apply H; apply wf0. Qed.

Lemma upds_snoc {A} (f : Z -> A) ws a v b :
  upds f (ws ++ [(a, v)]) b = if b =? a then v else upds f ws b.
Proof. rewrite upds_app. reflexivity. Qed.

Lemma runs_write m rd ws m1 a v :
  runs m rd ws m1 -> 0 <= a -> wf v -> 
  (a <= MAX_ADDRESS /\ exists m2, insert a (qofm v) m1 = (m2, Ok tt) /\ runs m rd (ws ++ [(a, v)]) m2) \/
  (MAX_ADDRESS < a /\ exists e, insert a (qofm v) m1 = (m1, Err e)).
Proof.
  intros (H1 & H2 & H3 & H4) Ha Hv. destruct (Z_le_gt_dec a MAX_ADDRESS) as [Hm|Hm].
  - left. split; [exact Hm|].
    destruct (insert_spec m1 a (qofm v)) as (m2 & E & Hi & Ht & Hl & Hr);
      [apply H1|lia|]. exists m2. split; [exact E|]. split.
    { split; [exact Hi|]. intros b. rewrite Hr. destruct (b =? a); [apply qofm_wf, Hv|apply H1]. }
    split; [lia|]. split.
    + intros b. rewrite Hr. unfold qwrites. rewrite map_app. cbn [map fst snd].
      rewrite upds_snoc. destruct (b =? a); [reflexivity|apply H3].
    + rewrite Ht, H4. unfold write_log. rewrite map_app. cbn [map fst snd].
      rewrite !app_assoc. reflexivity.
  - right. split; [lia|]. rewrite insert_bad by lia. eauto.
Qed.

Lemma runs_felt m rd m' a : runs m rd [] m' -> felt m' a = felt m a.
Proof. intros (_ & _ & H & _). unfold felt. rewrite H. reflexivity. Qed.
Lemma runs_readable m rd m' a : runs m rd [] m' -> (readable m' a <-> readable m a).
Proof. intros (_ & _ & H & _). unfold readable. rewrite H. reflexivity. Qed.
Lemma runs_mok m rd ws m' : runs m rd ws m' -> mok m'.
Proof. intros H. apply H. Qed.

(** ** Triples: what a computation may do. *)
(** [spec m0 rd ws c Q]: started in any [m] reached by reading [rd] and writing [ws], computation [c]
    either fails, leaving a memory reached by some reads and a prefix-extension of writes,
    or satisfies [Q]. *)
Definition okwf (s : state) (i : instr) (m : mem) : Prop := swf s /\ iwf i /\ mok m.

(** The outcome predicate of a whole instruction. *)
Definition prefix {A} (l l' : list A) : Prop := exists r, l' = l ++ r.

Definition outcome (i : instr) (s : state) (m : mem) (r : mem * res state) : Prop :=
  match r with
  | (m', Ok s') =>
    exists e, isa i (felt m) s = Some e /\ s' = next e /\
      Forall (readable m) (reads e ++ peeks e) /\
      Forall (fun w => 0 <= fst w <= MAX_ADDRESS) (writes e) /\
      runs m (reads e) (writes e) m'
  | (m', Err er) =>
    exists rd ws, runs m rd ws m' /\
    match isa i (felt m) s with
    | None => ws = []
    | Some e => prefix rd (reads e) /\ prefix ws (writes e) /\ (ws <> [] -> rd = reads e) /\
        (Exists (fun a => ~ readable m a) (reads e ++ peeks e) \/
         Exists (fun w => MAX_ADDRESS < fst w) (writes e))
    end
  end.

Definition failok (i : instr) (s : state) (m : mem) (rd : list Z) (ws : list (Z * Z)) : Prop :=
  match isa i (felt m) s with
  | None => ws = []
  | Some e => prefix rd (reads e) /\ prefix ws (writes e) /\ (ws <> [] -> rd = reads e) /\
      (Exists (fun a => ~ readable m a) (reads e ++ peeks e) \/
       Exists (fun w => MAX_ADDRESS < fst w) (writes e))
  end.

Lemma o_fail i s m rd ws m1 er : runs m rd ws m1 -> failok i s m rd ws -> outcome i s m (m1, Err er).
Proof. intros H F. exists rd, ws. split; assumption. Qed.

Lemma o_get_data i s m rd m1 a (k : Z -> M state) :
  runs m rd [] m1 ->
  (readable m a -> forall m2, runs m (rd ++ [a]) [] m2 -> outcome i s m (k (felt m a) m2)) ->
  (~ readable m a -> failok i s m rd []) ->
  outcome i s m (bind (get_data a) k m1).
Proof.
  intros H Hk Hf. unfold bind. destruct (get_data_cases m1 a) as [[Hr ->]|[Hr [e ->]]].
  - rewrite (runs_felt _ _ _ a H). apply Hk; [apply (runs_readable _ _ _ a H), Hr|].
    apply runs_read, H.
  - apply (o_fail _ _ _ rd []); [exact H|]. apply Hf.
    intros Hc. apply Hr. apply (runs_readable _ _ _ a H), Hc.
Qed.

Lemma o_get_data_nt i s m rd m1 a (k : Z -> M state) :
  runs m rd [] m1 ->
  (readable m a -> outcome i s m (k (felt m a) m1)) ->
  (~ readable m a -> failok i s m rd []) ->
  outcome i s m (bind (get_data_no_trace a) k m1).
Proof.
  intros H Hk Hf. unfold bind. destruct (get_data_no_trace_cases m1 a) as [[Hr ->]|[Hr [e ->]]].
  - rewrite (runs_felt _ _ _ a H). apply Hk; apply (runs_readable _ _ _ a H), Hr.
  - apply (o_fail _ _ _ rd []); [exact H|]. apply Hf.
    intros Hc. apply Hr. apply (runs_readable _ _ _ a H), Hc.
Qed.

Lemma bind_assoc {A B C} (x : M A) (f : A -> M B) (g : B -> M C) m :
  bind (bind x f) g m = bind x (fun a => bind (f a) g) m.
Proof. unfold bind. destruct (x m) as [m' [a|e]]; reflexivity. Qed.

Lemma o_get_u32 i s m rd m1 a (k : Z -> M state) :
  mok m -> runs m rd [] m1 ->
  (readable m a -> readable m (madd a 1) -> felt m a < B16 -> felt m (madd a 1) < B16 ->
   forall m2, runs m (rd ++ [a; madd a 1]) [] m2 ->
   outcome i s m (k (felt m a + B16 * felt m (madd a 1)) m2)) ->
  (~ readable m a -> failok i s m rd []) ->
  (readable m a -> ~ readable m (madd a 1) -> failok i s m (rd ++ [a]) []) ->
  (readable m a -> readable m (madd a 1) -> ~ (felt m a < B16 /\ felt m (madd a 1) < B16) ->
   failok i s m (rd ++ [a; madd a 1]) []) ->
  outcome i s m (bind (get_u32 a) k m1).
Proof.
  intros Hm H Hk Hf1 Hf2 Hf3. unfold get_u32. rewrite bind_assoc.
  eapply o_get_data; [exact H| |exact Hf1]. intros R1 m2 H2. rewrite bind_assoc.
  eapply o_get_data; [exact H2| |intros R2; apply Hf2; assumption]. intros R2 m3 H3.
  rewrite <- app_assoc in H3. cbn [app] in H3.
  destruct (limbs_ok (felt m a) (felt m (madd a 1))) eqn:E.
  - apply limbs_ok_spec in E as [E1 E2]. unfold bind, ret.
    assert (W1 := felt_wf m a Hm). assert (W2 := felt_wf m (madd a 1) Hm). unfold wf in *.
    rewrite u32_of_limbs_spec by (unfold B16 in *; lia). apply Hk; assumption.
  - unfold bind, fail. eapply o_fail; [exact H3|]. apply Hf3; [assumption..|].
    intros Hc. apply limbs_ok_spec in Hc. congruence.
Qed.

Lemma o_get_u32_nt i s m rd m1 a (k : Z -> M state) :
  mok m -> runs m rd [] m1 ->
  (readable m a -> readable m (madd a 1) -> felt m a < B16 -> felt m (madd a 1) < B16 ->
   outcome i s m (k (felt m a + B16 * felt m (madd a 1)) m1)) ->
  (~ readable m a -> failok i s m rd []) ->
  (readable m a -> ~ readable m (madd a 1) -> failok i s m rd []) ->
  (readable m a -> readable m (madd a 1) -> ~ (felt m a < B16 /\ felt m (madd a 1) < B16) ->
   failok i s m rd []) ->
  outcome i s m (bind (get_u32_no_trace a) k m1).
Proof.
  intros Hm H Hk Hf1 Hf2 Hf3. unfold get_u32_no_trace. rewrite bind_assoc.
  eapply o_get_data_nt; [exact H| |exact Hf1]. intros R1. rewrite bind_assoc.
  eapply o_get_data_nt; [exact H| |intros R2; apply Hf2; assumption]. intros R2.
  destruct (limbs_ok (felt m a) (felt m (madd a 1))) eqn:E.
  - apply limbs_ok_spec in E as [E1 E2]. unfold bind, ret.
    assert (W1 := felt_wf m a Hm). assert (W2 := felt_wf m (madd a 1) Hm). unfold wf in *.
    rewrite u32_of_limbs_spec by (unfold B16 in *; lia). apply Hk; assumption.
  - unfold bind, fail. eapply o_fail; [exact H|]. apply Hf3; [assumption..|].
    intros Hc. apply limbs_ok_spec in Hc. congruence.
Qed.

Lemma o_insert i s m rd ws m1 a v (k : unit -> M state) :
  runs m rd ws m1 -> 0 <= a -> wf v ->
  (0 <= a <= MAX_ADDRESS -> forall m2, runs m rd (ws ++ [(a, v)]) m2 -> outcome i s m (k tt m2)) ->
  (MAX_ADDRESS < a -> failok i s m rd ws) ->
  outcome i s m (bind (insert a (qofm v)) k m1).
Proof.
  intros H Ha Hv Hk Hf. unfold bind.
  destruct (runs_write m rd ws m1 a v H Ha Hv) as [[Hm [m2 [-> H2]]]|[Hm [e ->]]].
  - apply Hk; [lia|exact H2].
  - eapply o_fail; [exact H|]. apply Hf, Hm.
Qed.

Lemma limb_wf v : 0 <= v < B16 -> wf v. Proof. unfold wf, P, B16. lia. Qed.

Lemma o_insert_u32 i s m rd ws m1 a v (k : unit -> M state) :
  runs m rd ws m1 -> 0 <= a -> 0 <= v < B32 ->
  (0 <= a <= MAX_ADDRESS -> 0 <= madd a 1 <= MAX_ADDRESS ->
   forall m2, runs m rd (ws ++ [(a, v mod B16); (madd a 1, v / B16)]) m2 -> outcome i s m (k tt m2)) ->
  (MAX_ADDRESS < a -> failok i s m rd ws) ->
  (a <= MAX_ADDRESS -> MAX_ADDRESS < madd a 1 -> failok i s m rd (ws ++ [(a, v mod B16)])) ->
  outcome i s m (bind (insert_u32 a v) k m1).
Proof.
  intros H Ha Hv Hk Hf1 Hf2. unfold insert_u32. rewrite bind_assoc.
  rewrite land_mask, shiftr16, land_mask. fold B16.
  assert (HB : 0 <= v mod B16 < B16) by (unfold B16; lia).
  assert (HC : 0 <= v / B16 < B16) by (unfold B16, B32 in *; lia).
  rewrite (Z.mod_small (v / B16)) by lia.
  unfold mfrom. rewrite !wf_mod by (apply limb_wf; assumption).
  eapply o_insert; [exact H|exact Ha|apply limb_wf, HB| |exact Hf1].
  intros A1 m2 H2.
  eapply o_insert; [exact H2|apply madd_wf|apply limb_wf, HC| |intros; apply Hf2; lia].
  intros A2 m3 H3. rewrite <- app_assoc in H3. apply Hk; assumption.
Qed.

(** 32-bit closure of the operators. *)
Lemma small_ones x n : 0 <= n -> (0 <= x < 2 ^ n <-> Z.land x (Z.ones n) = x).
Proof.
  intros Hn. rewrite Z.land_ones by exact Hn. split; intros H.
  - apply Z.mod_small, H.
  - rewrite <- H. apply Z.mod_pos_bound. apply Z.pow_pos_nonneg; lia.
Qed.
Lemma lor_bound a b n : 0 <= n -> 0 <= a < 2 ^ n -> 0 <= b < 2 ^ n -> 0 <= Z.lor a b < 2 ^ n.
Proof.
  intros Hn Ha Hb. apply small_ones; [exact Hn|]. apply small_ones in Ha, Hb; try exact Hn.
  rewrite Z.land_lor_distr_l, Ha, Hb. reflexivity.
Qed.
Lemma land_bound a b n : 0 <= n -> 0 <= a < 2 ^ n -> 0 <= b < 2 ^ n -> 0 <= Z.land a b < 2 ^ n.
Proof.
  intros Hn Ha Hb. apply small_ones; [exact Hn|]. apply small_ones in Hb; try exact Hn.
  rewrite <- Z.land_assoc, Hb. reflexivity.
Qed.
Lemma lxor_bound a b n : 0 <= n -> 0 <= a < 2 ^ n -> 0 <= b < 2 ^ n -> 0 <= Z.lxor a b < 2 ^ n.
Proof.
  intros Hn Ha Hb. apply small_ones; [exact Hn|]. apply small_ones in Ha, Hb; try exact Hn.
  apply Z.bits_inj'. intros k Hk. rewrite Z.land_spec, Z.lxor_spec.
  assert (Ta := f_equal (fun x => Z.testbit x k) Ha).
  assert (Tb := f_equal (fun x => Z.testbit x k) Hb). cbn beta in Ta, Tb.
  rewrite Z.land_spec in Ta, Tb.
  destruct (Z.testbit a k), (Z.testbit b k), (Z.testbit (Z.ones n) k); cbn in *; congruence.
Qed.

Lemma u32_bound lo hi : 0 <= lo < B16 -> 0 <= hi < B16 -> 0 <= lo + B16 * hi < B32.
Proof. unfold B16, B32. lia. Qed.
Lemma mod32_bound x : 0 <= x mod B32 < B32. Proof. unfold B32. lia. Qed.
Lemma land32 a b : 0 <= a < B32 -> 0 <= b < B32 -> 0 <= Z.land a b < B32.
Proof. apply (land_bound a b 32). lia. Qed.
Lemma lor32 a b : 0 <= a < B32 -> 0 <= b < B32 -> 0 <= Z.lor a b < B32.
Proof. apply (lor_bound a b 32). lia. Qed.
Lemma lxor32 a b : 0 <= a < B32 -> 0 <= b < B32 -> 0 <= Z.lxor a b < B32.
Proof. apply (lxor_bound a b 32). lia. Qed.
Lemma div32 a b : 0 <= a < B32 -> 0 <= b < B32 -> b <> 0 -> 0 <= a / b < B32.
Proof. intros Ha Hb Hn. split; [apply Z.div_pos; lia|]. apply Z.le_lt_trans with a; [|lia].
  apply Z.div_le_upper_bound; [lia|]. nia. Qed.
Lemma rem32 a b : 0 <= a < B32 -> 0 <= b < B32 -> b <> 0 -> 0 <= a mod b < B32.
Proof. intros Ha Hb Hn. assert (H := Z.mod_pos_bound a b). lia. Qed.

Lemma prefix_refl {A} (l : list A) : prefix l l.
Proof. exists []. rewrite app_nil_r. reflexivity. Qed.
Lemma prefix_nil {A} (l : list A) : prefix [] l.
Proof. exists l. reflexivity. Qed.
Lemma prefix_cons {A} (x : A) l l' : prefix l l' -> prefix (x :: l) (x :: l').
Proof. intros [r ->]. exists r. reflexivity. Qed.

Ltac prefixes := repeat apply prefix_cons; first [apply prefix_nil|apply prefix_refl].

(** Find the culprit access in a list. *)
Ltac find_ex := cbn [app]; repeat first
  [ apply Exists_cons_hd; cbn [fst]; assumption
  | apply Exists_cons_tl ].

Ltac bool_hyps :=
  repeat match goal with
  | H : andb _ _ = true |- _ => apply andb_true_iff in H as [? ?]
  | H : negb _ = true |- _ => apply negb_true_iff in H
  | H : (_ <? _) = true |- _ => apply Z.ltb_lt in H
  | H : (_ =? _) = false |- _ => apply Z.eqb_neq in H
  | H : (_ =? _) = true |- _ => apply Z.eqb_eq in H
  end.

Ltac bool_false :=
  repeat match goal with
  | H : andb _ _ = false |- _ => apply andb_false_iff in H; destruct H as [H|H]
  | H : negb _ = false |- _ => apply negb_false_iff in H
  | H : (_ <? _) = false |- _ => apply Z.ltb_ge in H
  | H : (_ =? _) = true |- _ => apply Z.eqb_eq in H
  | H : (_ =? _) = false |- _ => apply Z.eqb_neq in H
  end;
  match goal with
  | H : ?x < ?y, H' : ?y <= ?x |- _ => exfalso; exact (proj1 (Z.lt_nge _ _) H H')
  | |- _ => exfalso; contradiction
  | |- _ => exfalso; congruence
  end.

(** Solve a [failok] goal. *)
Ltac solve_fail :=
  intros; unfold failok, isa, madd, msub in *; cbv zeta;
  repeat match goal with
  | |- context [if ?b then _ else _] => destruct b eqn:?
  end; bool_hyps; cbn [reads writes peeks app];
  first [solve [reflexivity | exfalso; contradiction | exfalso; congruence | exfalso; tauto | bool_false] |
  (split; [prefixes|split; [prefixes|split;
     [first [reflexivity | intros Hne; exfalso; apply Hne; reflexivity]
     |first [left; solve [find_ex] | right; solve [find_ex]]]]])].

Ltac foralls := cbn [app]; repeat (apply Forall_cons; [first [assumption|cbn [fst]; assumption]|]); apply Forall_nil.

(** Close the goal once the handler returns. *)
Ltac finish H :=
  unfold ret, outcome, isa, advance_by, jump_rel, jump_abs, call_abs; cbv zeta;
  repeat match goal with
  | |- context [if ?b then Some _ else None] => destruct b eqn:?
  | |- context [if ?b then None else Some _] => destruct b eqn:?
  end; bool_hyps; unfold madd, msub, mmul in *; try solve [bool_false];
  (eexists; split; [reflexivity|]; cbn [next reads peeks writes];
   split; [try reflexivity|split; [foralls|split; [foralls|try exact H]]]).

Tactic Notation "rd" hyp(H) ident(H') :=
  eapply o_get_data; [exact H| |solve_fail]; intros ? ? H'.
Tactic Notation "rd32" hyp(H) ident(H') :=
  eapply o_get_u32; [assumption|exact H| |solve_fail|solve_fail|solve_fail]; intros ? ? ? ? ? H'.
Ltac rdn H := eapply o_get_data_nt; [exact H| |solve_fail]; intros ?.
Ltac rdn32 H := eapply o_get_u32_nt; [assumption|exact H| |solve_fail|solve_fail|solve_fail]; intros ? ? ? ?.
Ltac wf_solve := solve [eauto with wfdb | assumption | apply limb_wf; unfold B16; lia | 
  match goal with |- wf (if ?b then _ else _) => destruct b; apply wf_small; lia end ].
Tactic Notation "wr" hyp(H) ident(H') :=
  eapply o_insert; [exact H|apply madd_wf|wf_solve| |solve_fail]; intros ? ? H'.
Ltac bnd32 :=
  first [ apply mod32_bound | apply land32 | apply lor32 | apply lxor32 | apply div32 | apply rem32 ];
  first [ assumption | apply u32_bound | idtac ]; first [assumption | match goal with HF : forall a, wf (felt _ a) |- _ => split; [apply HF|assumption] end | idtac].
Tactic Notation "wr32" hyp(H) ident(H') :=
  eapply o_insert_u32; [exact H|apply madd_wf| | |solve_fail|solve_fail]; [ |intros ? ? ? H'].

Lemma imm_lo_spec lo hi : 0 <= lo < B16 -> (lo + B16 * hi) mod B16 = lo.
Proof. unfold B16. intros. lia. Qed.
Lemma imm_hi_spec lo hi : 0 <= lo < B16 -> (lo + B16 * hi) / B16 = hi.
Proof. unfold B16. intros. lia. Qed.

Ltac ifgoal E := cbv beta;
  match goal with |- outcome _ _ _ ((if ?b then _ else _) _) => destruct b eqn:E end.
Ltac ifimm E K := ifgoal E;
  [ eapply o_fail; [exact K|]; apply negb_true_iff in E;
    (assert (E' := fun H => diff_true_false (eq_trans (eq_sym (proj2 (limbs_ok_spec _ _) H)) E)));
    solve_fail
  | apply negb_false_iff in E; apply limbs_ok_spec in E as [? ?]; fold B16 in *;
    repeat match goal with
    | W : wf ?x, L : ?x < B16 |- _ =>
      lazymatch goal with
      | _ : 0 <= x < B16 |- _ => fail
      | _ => assert (0 <= x < B16) by (split; [apply W|exact L]) end end;
    rewrite ?u32_of_limbs_spec by (first [assumption | match goal with W : wf ?x |- 0 <= ?x => apply W end]); fold B16 ].

Lemma mfrom_bit (b : bool) : mfrom (if b then 1 else 0) = if b then 1 else 0.
Proof. destruct b; reflexivity. Qed.

Theorem exec_outcome i s m : okwf s i m -> outcome i s m (exec i s m).
Proof.
  intros (Hs & Hi & Hm). assert (K0 := runs_nil m Hm).
  assert (HF := fun a => felt_wf m a Hm).
  destruct i; unfold iwf in Hi; cbn [operands] in Hi; cbn [exec];
    unfold bin_fp_fp, bin_fp_imm, u32_bin_fp_fp, u32_bin_fp_imm, u32_cmp_fp_fp, u32_cmp_fp_imm;
    repeat match goal with H : Forall wf (_ :: _) |- _ =>
      let W := fresh "W" in let H' := fresh "Hi" in
      inversion H as [|? ? W H']; subst; clear H end;
    unfold u_add, u_sub, u_mul; change W32 with B32.
  - rd K0 K1. rd K1 K2. wr K2 K3. finish K3.
  - rd K0 K1. rd K1 K2. wr K2 K3. finish K3.
  - rd K0 K1. rd K1 K2. wr K2 K3. finish K3.
  - rd K0 K1. rd K1 K2. unfold mdiv. destruct (Z.eqb_spec (felt m (madd (fp s) src1_off)) 0).
    + eapply o_fail; [exact K2|]. solve_fail.
    + wr K2 K3. finish K3.
  - rd K0 K1. wr K1 K2. finish K2.
  - rd K0 K1. wr K1 K2. finish K2.
  - rd K0 K1. rewrite mfrom_bit. wr K1 K2. finish K2.
  - rd K0 K1. destruct (Z.eqb_spec (felt m (madd (fp s) src_off)) imm); cbn [negb].
    + finish K1.
    + eapply o_fail; [exact K1|]. solve_fail.
  - rd K0 K1. rd K1 K2. wr K2 K3. finish K3.
  - rd K0 K1. rd K1 K2. rd K2 K3. wr K3 K4. finish K4.
  - wr K0 K1. finish K1.
  - wr K0 K1. finish K1.
  - assert (wf (fp s)) by apply Hs. wr K0 K1. wr K1 K2. finish K2.
    unfold madd. rewrite Zplus_mod_idemp_r. f_equal. f_equal. lia.
  - rd K0 K1. rd K1 K2. finish K2.
  - finish K0.
  - finish K0.
  - rd K0 K1. destruct (Z.eqb_spec (felt m (madd (fp s) cond_off)) 0) as [E|E]; cbn [negb].
    + finish K1. unfold madd in *. apply Z.eqb_eq in E. rewrite E. reflexivity.
    + finish K1. unfold madd in *. apply Z.eqb_neq in E. rewrite E. reflexivity.
  - rd32 K0 K1. rd32 K1 K2. wr32 K2 K3; [bnd32|]. finish K3.
  - rd32 K0 K1. rd32 K1 K2. wr32 K2 K3; [bnd32|]. finish K3.
  - rd32 K0 K1. rd32 K1 K2. wr32 K2 K3; [bnd32|]. finish K3.
  - rd32 K0 K1. rd32 K1 K2. ifgoal E.
    + eapply o_fail; [exact K2|]. solve_fail.
    + apply Z.eqb_neq in E. wr32 K2 K3; [bnd32; assumption|].
      wr32 K3 K4; [bnd32; assumption|]. finish K4.
  - ifimm E K0. rd32 K0 K1. wr32 K1 K2; [bnd32|]. finish K2.
  - ifimm E K0. rd32 K0 K1. wr32 K1 K2; [bnd32|]. finish K2.
  - ifimm E K0. cbv zeta. ifgoal E2.
    + eapply o_fail; [exact K0|]. apply Z.eqb_eq in E2. solve_fail.
    + apply Z.eqb_neq in E2.
      rd32 K0 K1. wr32 K1 K2; [bnd32; assumption|]. 
      wr32 K2 K3; [bnd32; assumption|]. finish K3.
  - ifimm E K0.
    replace (qofm imm_lo) with (qofm ((imm_lo + B16 * imm_hi) mod B16))
      by (rewrite imm_lo_spec by assumption; reflexivity).
    replace (qofm imm_hi) with (qofm ((imm_lo + B16 * imm_hi) / B16))
      by (rewrite imm_hi_spec by assumption; reflexivity).
    assert (wf ((imm_lo + B16 * imm_hi) mod B16)) by (rewrite imm_lo_spec by assumption; assumption).
    assert (wf ((imm_lo + B16 * imm_hi) / B16)) by (rewrite imm_hi_spec by assumption; assumption).
    wr K0 K1. wr K1 K2. finish K2.
  - rd32 K0 K1. rd32 K1 K2. wr K2 K3. finish K3.
  - rd32 K0 K1. rd32 K1 K2. wr K2 K3. finish K3.
  - ifimm E K0. rd32 K0 K1. wr K1 K2. finish K2.
  - ifimm E K0. rd32 K0 K1. wr K1 K2. finish K2.
  - rd32 K0 K1. rd32 K1 K2. wr32 K2 K3; [bnd32|]. finish K3.
  - rd32 K0 K1. rd32 K1 K2. wr32 K2 K3; [bnd32|]. finish K3.
  - rd32 K0 K1. rd32 K1 K2. wr32 K2 K3; [bnd32|]. finish K3.
  - ifimm E K0. rd32 K0 K1. wr32 K1 K2; [bnd32|]. finish K2.
  - ifimm E K0. rd32 K0 K1. wr32 K1 K2; [bnd32|]. finish K2.
  - ifimm E K0. rd32 K0 K1. wr32 K1 K2; [bnd32|]. finish K2.
  - rd K0 K1. rd K1 K2. wr K2 K3. finish K3.
  - rd K0 K1. rd K1 K2. rd K2 K3. wr K3 K4. finish K4.
  - rdn K0. finish K0.
  - rdn32 K0. finish K0.
Qed.
