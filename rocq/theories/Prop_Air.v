(** Properties C26 and C28: what rows and balanced memory tokens establish. *)
From Coq Require Import ZArith Bool List Lia Permutation.
From Verif Require Import M31 M31Facts Instr InstrFacts VmMem Vm Isa Machine VmFacts VmPropFacts
  Air AirOpcodes AirSpec AirFacts AirSound AirChain AirMem AirGlobal AirRows AirExec AirAccept AirCheck AirVm AirWitness.
Import ListNotations.
Open Scope Z_scope.

(** ** C26: an enabled row that satisfies its component's constraints and lookups is the
    instruction.  [sound_row] (AirSpec.v) says: the row consumes its registers and clock,
    emits those after the instruction, and consumes and emits one memory token per cell
    the instruction touches, with the contents the instruction leaves.  [no_gap] excludes
    the cases refuted below. *)
Theorem C26_rows_are_instructions_partial : forall c row,
  length row = n_columns c -> Forall wf row -> nth 0 row 0 = 1 ->
  satisfied (evaluate c row) -> no_gap c row ->
  sound_row (evaluate c row) (row_regs row) (row_clock row).
Proof. exact row_sound. Qed.
Print Assumptions C26_rows_are_instructions_partial.

(** The same, read as a step: whatever memory holds the contents the row claims to have
    found, the machine executes an instruction there and leaves the contents the row
    claims to leave (for distinct cells below 2^28). *)
Theorem C26_rows_are_steps_partial : forall c row,
  length row = n_columns c -> Forall wf row -> nth 0 row 0 = 1 ->
  satisfied (evaluate c row) -> no_gap c row ->
  exists i s' accs,
    tuples Registers (evaluate c row) = reg_tuples (row_clock row) (row_regs row) s' /\
    tuples Memory (evaluate c row) = mem_tuples (row_clock row) accs /\
    (NoDup (map ac_addr accs) -> (forall x, In x accs -> ac_addr x < ADDRS) ->
     forall f, (forall x, In x accs -> f (ac_addr x) = ac_old x) ->
     exists f' lg, fstep f (row_regs row) i f' s' lg /\
       (forall x, In x accs -> f' (ac_addr x) = ac_new x) /\
       (forall a, ~ In a (map ac_addr accs) -> f' a = f a)).
Proof.
  intros c row Hl Hw He Hs Hg. destruct (row_sound c row Hl Hw He Hs Hg) as (i & s' & accs & (_ & _ & Hr & Hm & Hp) & _).
  exists i, s', accs. split; [exact Hr|]. split; [exact Hm|]. intros Hn Ha f Hf.
  destruct (performs_step i _ _ _ f Hp Hn Ha Hf) as (f' & lg & H1 & H2 & H3 & _). eauto.
Qed.
Print Assumptions C26_rows_are_steps_partial.

(** Rows that meet the hypotheses. *)
Ltac row_hyps := split; [reflexivity|]; split; [apply wfb_all; vm_compute; reflexivity|];
  split; [reflexivity|]; apply satisfiedb_ok; vm_compute; reflexivity.
Definition meets (c : component) (row : list Z) : Prop :=
  length row = n_columns c /\ Forall wf row /\ nth 0 row 0 = 1 /\ satisfied (evaluate c row).
(** [fp+3] := 42 *)
Example C26_example_store_imm :
  let row := [1; 0; 10; 1; 0; 42; 3; 0; 7] in
  meets C_store_imm row /\ no_gap C_store_imm row /\
  parse (tuples Memory (evaluate C_store_imm row)) =
    [Acc 0 0 (Q 9 42 3 0) (Q 9 42 3 0); Acc 13 0 (Q 7 0 0 0) (Q 42 0 0 0)].
Proof. split; [row_hyps|split; [exact I|vm_compute; reflexivity]]. Qed.
(** 300 * 70000 on u32 *)
Example C26_example_mul :
  let row := [1; 5; 10; 8; 0; 0; 2; 4; 44; 1; 0; 0; 3; 3; 112; 17; 1; 0; 3; 3; 0; 0; 0; 0;
              64; 111; 64; 1; 19; 3; 0; 0] in
  meets C_u32_store_mul_fp_fp row /\ no_gap C_u32_store_mul_fp_fp row.
Proof. split; [row_hyps|vm_compute; repeat split]. Qed.

(** *** The gaps *)
Ltac code_words H := match type of H with ?x = _ => let y := eval vm_compute in x in change x with y in H end.
Ltac get_accs Hm accs :=
  apply (f_equal parse) in Hm; rewrite parse_mem in Hm; vm_compute in Hm; subst accs.

(** store_fp_fp proves x / 0 = 0; the machine refuses to divide by zero. *)
Theorem C26_division_by_zero_refuted : exists row,
  meets C_store_fp_fp row /\ ~ sound_row (evaluate C_store_fp_fp row) (row_regs row) (row_clock row).
Proof.
  exists [1; 0; 10; 1; 0; 0; 1; 2; 0; 5; 0; 0; 0; 0; 0; 0; 1; 1; 0; 0].
  split; [row_hyps|intros (i & s' & accs & (_ & _ & _ & Hm & Hp) & Hc)].
  get_accs Hm accs.
  match type of Hp with performs _ _ _ ?l => destruct (Hp (mem_of l (fun _ => qzero))) as (Hat & e & He & _) end.
  { intros x [<-|[<-|[<-|[<-|[]]]]]; reflexivity. }
  destruct Hat as (rest & Hat). code_words Hat.
  destruct i; try discriminate Hat. injection Hat as <- <- <- _. vm_compute in He. discriminate He.
Qed.
Print Assumptions C26_division_by_zero_refuted.

(** store_fp_imm proves a subtraction of an immediate, opcode 5, which no instruction has. *)
Theorem C26_unknown_opcode_refuted : exists row,
  meets C_store_fp_imm row /\ ~ sound_row (evaluate C_store_fp_imm row) (row_regs row) (row_clock row).
Proof.
  exists [1; 0; 10; 1; 0; 0; 3; 1; 0; 9; 1431655765; 0; 0; 6; 0; 1; 27; 3].
  split; [row_hyps|intros (i & s' & accs & (_ & _ & _ & Hm & Hp) & Hc)].
  get_accs Hm accs.
  match type of Hp with performs _ _ _ ?l => destruct (Hp (mem_of l (fun _ => qzero))) as (Hat & _) end.
  { intros x [<-|[<-|[<-|[]]]]; reflexivity. }
  destruct Hat as (rest & Hat). code_words Hat. destruct i; discriminate Hat.
Qed.
Print Assumptions C26_unknown_opcode_refuted.

(** store_le_fp_imm proves that 7 <= 7 is false. *)
Theorem C26_less_or_equal_refuted : exists row,
  meets C_store_le_fp_imm row /\ ~ sound_row (evaluate C_store_le_fp_imm row) (row_regs row) (row_clock row).
Proof.
  exists [1; 0; 10; 1; 0; 0; 7; 1; 7; 0; 0; 0; 7; 7; 1; 0; 0; 0; 0; 7; 0; 0].
  split; [row_hyps|intros (i & s' & accs & (_ & _ & _ & Hm & Hp) & Hc)].
  get_accs Hm accs.
  match type of Hp with performs _ _ _ ?l => destruct (Hp (mem_of l (fun _ => qzero))) as (Hat & e & He & _ & _ & _ & Hperm) end.
  { intros x [<-|[<-|[<-|[]]]]; reflexivity. }
  destruct Hat as (rest & Hat). code_words Hat.
  destruct i; try discriminate Hat. injection Hat as <- <- <- _. vm_compute in He. injection He as <-.
  vm_compute in Hperm.
  assert (Hin : In (11, Q 1 0 0 0) [(0, Q 48 0 7 1); (10, Q 7 0 0 0); (11, Q 0 0 0 0)])
    by (rewrite Hperm; cbn [In]; auto).
  cbn [In] in Hin. destruct Hin as [H|[H|[H|[]]]]; discriminate H.
Qed.
Print Assumptions C26_less_or_equal_refuted.

(** u32_store_mul_fp_fp and u32_store_div_fp_fp accept a second operand whose previous
    access lies in the future. *)
Theorem C26_mul_clock_refuted : exists row,
  meets C_u32_store_mul_fp_fp row /\ ~ sound_row (evaluate C_u32_store_mul_fp_fp row) (row_regs row) (row_clock row).
Proof.
  exists [1; 0; 10; 1; 0; 0; 2; 4; 2; 0; 0; 0; 0; 0; 3; 0; 0; 0; 5; 0; 0; 0; 0; 0; 6; 0; 0; 0; 0; 0; 0; 0].
  split; [row_hyps|intros (i & s' & accs & (_ & _ & _ & Hm & Hp) & Hc)].
  get_accs Hm accs. unfold clocks_ok in Hc. rewrite Forall_forall in Hc.
  specialize (Hc (Acc 12 5 (Q 3 0 0 0) (Q 3 0 0 0))). cbn [In] in Hc.
  assert (H : (1 - 5 - 1) mod P < 1048576) by (apply Hc; auto 10). vm_compute in H. discriminate H.
Qed.
Print Assumptions C26_mul_clock_refuted.
Theorem C26_div_clock_refuted : exists row,
  meets C_u32_store_div_fp_fp row /\ ~ sound_row (evaluate C_u32_store_div_fp_fp row) (row_regs row) (row_clock row).
Proof.
  exists [1; 0; 10; 1; 0; 0; 2; 4; 6; 7; 0; 0; 0; 2; 0; 0; 0; 5; 0; 0; 0; 0; 0; 0; 0; 0; 0;
          3; 0; 0; 0; 0; 0; 0; 0; 0; 0; 0; 6; 0; 0; 0; 0; 0; 0; 0; 0; 0; 0; 0; 0; 0; 1; 0].
  split; [row_hyps|intros (i & s' & accs & (_ & _ & _ & Hm & Hp) & Hc)].
  get_accs Hm accs. unfold clocks_ok in Hc. rewrite Forall_forall in Hc.
  specialize (Hc (Acc 12 5 (Q 2 0 0 0) (Q 2 0 0 0))). cbn [In] in Hc.
  assert (H : (1 - 5 - 1) mod P < 1048576) by (apply Hc; auto 12). vm_compute in H. discriminate H.
Qed.
Print Assumptions C26_div_clock_refuted.

(** u32_store_eq_fp_imm never looks at the second word of the instruction: the
    destination is whatever the prover likes. *)
Theorem C26_eq_imm_refuted : exists row,
  meets C_u32_store_eq_fp_imm row /\ ~ sound_row (evaluate C_u32_store_eq_fp_imm row) (row_regs row) (row_clock row).
Proof.
  exists [1; 0; 10; 1; 0; 0; 0; 0; 30; 0; 0; 0; 0; 0; 0; 0].
  split; [row_hyps|intros (i & s' & accs & (_ & _ & _ & Hm & Hp) & Hc)].
  get_accs Hm accs.
  match type of Hp with performs _ _ _ ?l =>
    destruct (Hp (mem_of l (fun _ => qzero))) as ((rest & Hat) & _);
    [intros x [<-|[<-|[<-|[<-|[<-|[]]]]]]; reflexivity|];
    destruct (Hp (mem_of l (fun _ => qofm 1))) as ((rest' & Hat') & _);
    [intros x [<-|[<-|[<-|[<-|[<-|[]]]]]]; reflexivity|]
  end.
  code_words Hat. code_words Hat'. destruct i; try discriminate Hat.
  injection Hat as <- <- <- <- _. discriminate Hat'.
Qed.
Print Assumptions C26_eq_imm_refuted.

(** ** C28: memory consistency.
    Accesses [Eo] of the opcode rows and clock updates [Ec]; each consumes the token
    (address, previous clock, old content) and emits (address, clock, new content).
    [ini]: contents emitted at clock 0; [fin]: contents consumed at the end. *)
Definition flow (es : list edge) : list (Z * list Z) :=
  flat_map (fun e => [(P - 1, esrc e); (1, edst e)]) es.
Lemma flow_tokens es : unital (flow es) /\ produced (flow es) = map edst es /\ consumed (flow es) = map esrc es.
Proof.
  unfold flow. induction es as [|e es (H1 & H2 & H3)]; [repeat split; constructor|].
  cbn [flat_map map]. rewrite produced_app, consumed_app, H2, H3. split; [|split; reflexivity].
  constructor; [right; right; reflexivity|]. constructor; [right; left; reflexivity|exact H1].
Qed.
Definition ends (ini : list (Z * qm31)) (fin : list (Z * (Z * qm31))) : list (Z * list Z) :=
  map (fun x => (1, ini_tok x)) ini ++ map (fun x => (P - 1, fin_tok x)) fin.
Lemma ends_tokens ini fin : unital (ends ini fin) /\ produced (ends ini fin) = map ini_tok ini /\ consumed (ends ini fin) = map fin_tok fin.
Proof.
  unfold ends. rewrite produced_app, consumed_app.
  assert (G : forall (A : Type) (g : A -> list Z) (l : list A),
    produced (map (fun x => (1, g x)) l) = map g l /\ consumed (map (fun x => (1, g x)) l) = [] /\
    produced (map (fun x => (P - 1, g x)) l) = [] /\ consumed (map (fun x => (P - 1, g x)) l) = map g l).
  { intros A g l. induction l as [|x l (I1 & I2 & I3 & I4)]; [repeat split|].
    unfold produced, consumed in *. cbn [map filter fst].
    change (1 =? 1) with true. change (1 =? P - 1) with false. change (P - 1 =? 1) with false. change (P - 1 =? P - 1) with true.
    cbv iota. cbn [map snd]. rewrite I1, I2, I3, I4. auto. }
  destruct (G _ ini_tok ini) as (-> & -> & _). destruct (G _ fin_tok fin) as (_ & _ & -> & ->).
  split; [|split; [rewrite app_nil_r|]; reflexivity].
  apply Forall_app. split; apply Forall_map, Forall_forall; intros x _; cbn [fst]; auto.
Qed.
(** If the tokens balance, the opcode clocks lie in 1..N with range-checked gaps, and there
    are too few clock updates for clocks to wrap around, then every access finds what the
    last access with a smaller clock left there, or the initial content if there is none;
    and no cell is accessed twice at one clock. *)
Theorem C28_memory_consistent : forall N Eo Ec ini fin,
  0 <= N -> Forall (op_edge N) Eo -> Forall cu_edge Ec ->
  N + 1048575 * (Z.of_nat (length Ec) + 2) < P ->
  NoDup (map fst ini) -> NoDup (map fst fin) ->
  Z.of_nat (length (ends ini fin ++ flow (Eo ++ Ec))) < P ->
  balanced (ends ini fin ++ flow (Eo ++ Ec)) ->
  NoDup (map (fun e => (e_addr e, e_clk e)) (Eo ++ Ec)) /\
  (forall a, In a (map fst ini) <-> In a (map fst fin)) /\
  forall e, In e (Eo ++ Ec) ->
    (In (e_addr e, e_old e) ini /\
     (forall y, In y (Eo ++ Ec) -> e_addr y = e_addr e -> ~ e_clk y < e_clk e)) \/
    (exists x, In x (Eo ++ Ec) /\ e_addr x = e_addr e /\ e_clk x < e_clk e /\ e_new x = e_old e /\
       (forall y, In y (Eo ++ Ec) -> e_addr y = e_addr e -> ~ (e_clk x < e_clk y < e_clk e))).
Proof.
  intros N Eo Ec ini fin HN Ho Hc Hb Hi Hf Hl Hbal.
  destruct (ends_tokens ini fin) as (U1 & P1 & Q1). destruct (flow_tokens (Eo ++ Ec)) as (U2 & P2 & Q2).
  assert (Hperm : Permutation (map fin_tok fin ++ map esrc (Eo ++ Ec)) (map ini_tok ini ++ map edst (Eo ++ Ec))).
  { rewrite <- P1, <- Q1, <- P2, <- Q2, <- produced_app, <- consumed_app.
    apply balanced_perm; [apply Forall_app; split; assumption|exact Hbal|exact Hl]. }
  split; [exact (all_distinct N Eo Ec ini fin HN Ho Hc Hb Hi Hf Hperm)|].
  split; [exact (same_addresses N Eo Ec ini fin HN Ho Hc Hb Hi Hf Hperm)|].
  intros e He. destruct (last_access N Eo Ec ini fin HN Ho Hc Hb Hi Hf Hperm e He)
    as [(_ & H1 & H2)|(x & H1 & H2 & _ & H3 & H4 & H5)]; [left; auto|right].
  exists x. auto 10.
Qed.
Print Assumptions C28_memory_consistent.
(** Cell 10: written (5) at clock 1, read at clock 3. *)
Example C28_example :
  let Eo := [Edge 10 0 (qofm 0) 1 (qofm 5); Edge 10 1 (qofm 5) 3 (qofm 5)] in
  let ini := [(10, qofm 0)] in let fin := [(10, (3, qofm 5))] in
  Forall (op_edge 3) Eo /\ balanced (ends ini fin ++ flow (Eo ++ [])).
Proof.
  split; [|apply balancedb_ok; vm_compute; reflexivity].
  repeat (apply Forall_cons; [split; [cbn; lia|split; [split; [discriminate|reflexivity]|reflexivity]]|]). constructor.
Qed.

(** *** Without the bound on the clock updates the claim fails: 2048 of them carry a
    content written at clock 2 to the clock 2147481602, which the range check at clock 1
    takes for an earlier one.  The access at clock 1 then finds what is written later. *)
Definition chain_up (a : Z) (v : qm31) (c : Z) (n : nat) : list edge :=
  map (fun k => Edge a (c + 1048575 * Z.of_nat k) v (c + 1048575 * Z.of_nat k + 1048575) v) (seq 0 n).
Lemma total_flow t es : total t (flow es) =
  Z.of_nat (count_occ dec (map edst es) t) + (P - 1) * Z.of_nat (count_occ dec (map esrc es) t).
Proof.
  induction es as [|e es IH]; [reflexivity|]. cbn [flow flat_map app total map count_occ]. fold (flow es). rewrite IH.
  repeat match goal with |- context [dec ?x ?y] => destruct (dec x y) end; lia.
Qed.
Lemma total_ends t ini fin : total t (ends ini fin) =
  Z.of_nat (count_occ dec (map ini_tok ini) t) + (P - 1) * Z.of_nat (count_occ dec (map fin_tok fin) t).
Proof.
  unfold ends. rewrite total_app. f_equal.
  - induction ini as [|x l IH]; [reflexivity|]. cbn [total map count_occ]. rewrite IH. destruct (dec (ini_tok x) t); lia.
  - induction fin as [|x l IH]; [reflexivity|]. cbn [total map count_occ]. rewrite IH. destruct (dec (fin_tok x) t); lia.
Qed.
Lemma perm_balanced ini fin es :
  Permutation (map fin_tok fin ++ map esrc es) (map ini_tok ini ++ map edst es) -> balanced (ends ini fin ++ flow es).
Proof.
  intros H t. rewrite total_app, total_ends, total_flow.
  pose proof (proj1 (Permutation_count_occ dec _ _) H t) as Hc. rewrite !count_occ_app in Hc.
  replace (_ + _ + _) with (Z.of_nat (count_occ dec (map ini_tok ini) t + count_occ dec (map edst es) t) * P) by (clear - Hc; nia).
  apply Z_mod_mult.
Qed.
Lemma chain_tokens a v n : forall c,
  Permutation (tok a (c + 1048575 * Z.of_nat n) v :: map esrc (chain_up a v c n))
    (tok a c v :: map edst (chain_up a v c n)).
Proof.
  unfold chain_up. induction n as [|n IH]; intros c.
  - cbn [map seq]. rewrite Z.mul_0_r, Z.add_0_r. apply Permutation_refl.
  - rewrite seq_S, !map_app. cbn [map Nat.add]. unfold esrc at 2, edst at 2. cbn [e_addr e_prev e_old e_clk e_new].
    replace (c + 1048575 * Z.of_nat (S n)) with (c + 1048575 * Z.of_nat n + 1048575) by lia.
    set (X := tok a (c + 1048575 * Z.of_nat n + 1048575) v).
    apply Permutation_trans with (X :: tok a (c + 1048575 * Z.of_nat n) v :: map esrc (chain_up a v c n));
      [apply perm_skip, Permutation_sym, Permutation_cons_append|].
    apply Permutation_trans with (X :: tok a c v :: map edst (chain_up a v c n)); [apply perm_skip, IH|].
    exact (Permutation_cons_append (tok a c v :: map edst (chain_up a v c n)) X).
Qed.
Theorem C28_too_many_updates_refuted : exists N Eo Ec ini fin e,
  0 <= N /\ Forall (op_edge N) Eo /\ Forall cu_edge Ec /\
  NoDup (map fst ini) /\ NoDup (map fst fin) /\
  Z.of_nat (length (ends ini fin ++ flow (Eo ++ Ec))) < P /\
  balanced (ends ini fin ++ flow (Eo ++ Ec)) /\
  In e Eo /\ e_clk e = 1 /\ e_old e = qofm 42 /\
  (forall x, In x (Eo ++ Ec) -> e_addr x = e_addr e -> e_new x = qofm 42 -> e_clk e < e_clk x \/ x = e) /\
  In (e_addr e, qofm 0) ini.
Proof.
  set (e := Edge 10 (2 + 1048575 * 2048) (qofm 42) 1 (qofm 42)).
  exists 2, [e; Edge 10 0 (qofm 0) 2 (qofm 42)], (chain_up 10 (qofm 42) 2 2048),
    [(10, qofm 0)], [(10, (1, qofm 42))], e.
  split; [lia|]. split.
  { apply Forall_cons; [split; [cbn; lia|split; [split; [discriminate|reflexivity]|reflexivity]]|].
    apply Forall_cons; [split; [cbn; lia|split; [split; [discriminate|reflexivity]|reflexivity]]|constructor]. }
  split.
  { apply Forall_forall. intros x Hx. unfold chain_up in Hx. apply in_map_iff in Hx. destruct Hx as (k & <- & Hk).
    apply in_seq in Hk. unfold cu_edge. cbn [e_prev e_clk e_new e_old]. unfold STEP, wf, P.
    assert (0 <= Z.of_nat k < 2048) by lia. split; [lia|]. split; [|reflexivity].
    rewrite Z.mod_small by lia. reflexivity. }
  split; [repeat constructor; cbn; tauto|]. split; [repeat constructor; cbn; tauto|].
  split; [vm_compute; reflexivity|]. split.
  { apply perm_balanced. rewrite !map_app. cbn [map fin_tok ini_tok app fst snd e]. unfold e at 1 2.
    unfold esrc at 1 2, edst at 1 2. cbn [e_addr e_prev e_old e_clk e_new].
    pose proof (chain_tokens 10 (qofm 42) 2048 2) as H.
    change (2 + 1048575 * Z.of_nat 2048) with (2 + 1048575 * 2048) in H.
    set (ch := chain_up _ _ _ _) in *. set (T0 := tok 10 (2 + 1048575 * 2048) (qofm 42)) in *.
    set (T1 := tok 10 1 (qofm 42)). set (T2 := tok 10 2 (qofm 42)) in *. set (T3 := tok 10 0 (qofm 0)).
    apply Permutation_trans with (T1 :: T3 :: T0 :: map esrc ch); [apply perm_skip, perm_swap|].
    apply Permutation_trans with (T1 :: T3 :: T2 :: map edst ch); [do 2 apply perm_skip; exact H|].
    apply perm_swap. }
  split; [left; reflexivity|]. split; [reflexivity|]. split; [reflexivity|]. split; [|left; reflexivity].
  intros x Hx _ Hn. apply in_app_or in Hx. destruct Hx as [[<-|[<-|[]]]|Hx]; [auto|left; cbn; lia|].
  left. unfold chain_up in Hx. apply in_map_iff in Hx. destruct Hx as (k & <- & _). cbn [e e_clk]. lia.
Qed.
Print Assumptions C28_too_many_updates_refuted.
