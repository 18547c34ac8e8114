(** Properties C29 and C44: what an accepted proof establishes. *)
From Coq Require Import ZArith Bool List Lia Permutation.
From Verif Require Import M31 M31Facts Instr InstrFacts VmMem Vm Isa Machine VmFacts VmPropFacts
  Air AirOpcodes AirSpec AirFacts AirSound AirChain AirMem AirGlobal AirRows AirExec AirAccept AirCheck AirVm AirWitness.
Import ListNotations.
Open Scope Z_scope.

(** ** C29: an accepted proof is an execution *)
Lemma qmod v : qwf v -> map (fun z => z mod P) (qlist v) = qlist v.
Proof.
  destruct v as [a b c d]. intros (Ha & Hb & Hc & Hd). cbn [qlist map q0 q1 q2 q3] in *.
  rewrite !Z.mod_small; auto.
Qed.
Lemma pub_tuple_tok m a v c : wf a -> qwf v -> wf c -> pub_tuple m (a, v, c) = (m, tok a c v).
Proof. intros Ha Hv Hc. unfold pub_tuple, tok. cbn [map]. rewrite (qmod v Hv), !Z.mod_small; auto. Qed.
Lemma tok_inj a c v a' c' v' : tok a c v = tok a' c' v' -> a = a' /\ c = c' /\ v = v'.
Proof. destruct v, v'. unfold tok, qlist. cbn. intros H. injection H as <- <- <- <- <- <-. auto. Qed.
(** Public entries are among the first and last contents. *)
Lemma public_first h p ini fin a v c : accepted h p -> honest_boundary p ini fin ->
  In (a, v, c) (p_program p ++ p_input p) -> In (a, v) ini.
Proof.
  intros Ha (_ & _ & Hb) Hin.
  assert (Hw : wf a /\ qwf v /\ wf c).
  { pose proof (ac_pub h p Ha) as H. rewrite Forall_forall in H. apply (H (a, v, c)).
    rewrite app_assoc. apply in_or_app. left. exact Hin. }
  destruct Hw as (Hwa & Hwv & Hwc).
  assert (Hx : In (1, tok a c v) (filter (fun e => negb (fst e =? 0)) (boundary p))).
  { apply filter_In. split; [|reflexivity]. rewrite <- (pub_tuple_tok 1 a v c Hwa Hwv Hwc).
    unfold boundary. apply in_or_app. right. apply in_app_or in Hin. destruct Hin as [Hin|Hin].
    - apply in_or_app. left. apply in_map. exact Hin.
    - apply in_or_app. right. apply in_or_app. left. apply in_map. exact Hin. }
  rewrite Hb in Hx. apply in_app_or in Hx. destruct Hx as [Hx|Hx]; apply in_map_iff in Hx; destruct Hx as (x & E & Hx).
  - apply (f_equal snd) in E. cbn [snd] in E. unfold ini_tok in E. apply tok_inj in E. destruct E as (<- & _ & <-).
    destruct x; exact Hx.
  - discriminate E.
Qed.
Lemma public_last h p ini fin a v c : accepted h p -> honest_boundary p ini fin ->
  In (a, v, c) (p_output p) -> In (a, (c, v)) fin.
Proof.
  intros Ha (_ & _ & Hb) Hin.
  assert (Hw : wf a /\ qwf v /\ wf c).
  { pose proof (ac_pub h p Ha) as H. rewrite Forall_forall in H. apply (H (a, v, c)).
    apply in_or_app. right. apply in_or_app. right. exact Hin. }
  destruct Hw as (Hwa & Hwv & Hwc).
  assert (Hx : In (P - 1, tok a c v) (filter (fun e => negb (fst e =? 0)) (boundary p))).
  { apply filter_In. split; [|reflexivity]. rewrite <- (pub_tuple_tok (P - 1) a v c Hwa Hwv Hwc).
    unfold boundary. do 3 (apply in_or_app; right). apply in_map. exact Hin. }
  rewrite Hb in Hx. apply in_app_or in Hx. destruct Hx as [Hx|Hx]; apply in_map_iff in Hx; destruct Hx as (x & E & Hx).
  - discriminate E.
  - apply (f_equal snd) in E. cbn [snd] in E. unfold fin_tok in E. apply tok_inj in E. destruct E as (<- & <- & <-).
    destruct x as [? [? ?]]; exact Hx.
Qed.

(** From any memory that holds the initial contents the machine runs from the public start
    registers to the public end registers in exactly the public number of steps; the public
    program and input are in the memory it starts from and the public output is in the
    memory it ends with.  [sized] bounds the proof, [no_gap] excludes the rows refuted in
    Prop_Air.v, and [honest_boundary] is refuted below. *)
Theorem C29_accepted_proof_is_execution_partial : forall h p ini fin,
  accepted h p -> sized p -> honest_boundary p ini fin ->
  (forall a v, In (a, v) ini -> a < ADDRS) -> wf (p_clock p) ->
  Forall (fun cr => no_gap (fst cr) (snd cr)) (on_rows p) ->
  forall f0, (forall a v, In (a, v) ini -> f0 a = v) ->
  exists tr lg f',
    fruns f0 (p_start p) tr lg f' (p_end p) /\ Z.of_nat (length tr) = p_clock p /\
    (forall a v c, In (a, v, c) (p_program p ++ p_input p) -> f0 a = v) /\
    (forall a v c, In (a, v, c) (p_output p) -> f' a = v) /\
    (forall a c v, In (a, (c, v)) fin -> f' a = v) /\
    (forall a, ~ In a (map fst ini) -> f' a = f0 a).
Proof.
  intros h p ini fin Ha Hs Hb Hi Hc Hg f0 Hf.
  destruct (accepted_execution h p ini fin Ha Hs Hb Hi Hc Hg f0 Hf) as (tr & lg & f' & H1 & H2 & _ & H3 & H4 & _).
  exists tr, lg, f'. split; [exact H1|]. split; [exact H2|]. split; [|split; [|split; assumption]].
  - intros a v c Hin. apply Hf. exact (public_first h p ini fin a v c Ha Hb Hin).
  - intros a v c Hin. apply (H3 a c). exact (public_last h p ini fin a v c Ha Hb Hin).
Qed.
Print Assumptions C29_accepted_proof_is_execution_partial.

(** The same about the virtual machine itself, for rows whose code lies below its program
    and stack limit. *)
Theorem C29_accepted_proof_is_vm_run_partial : forall h p ini fin,
  accepted h p -> sized p -> honest_boundary p ini fin ->
  (forall a v, In (a, v) ini -> a < ADDRS) -> wf (p_clock p) ->
  Forall (fun cr => no_gap (fst cr) (snd cr)) (on_rows p) ->
  forall v, vok v -> v_st v = p_start p -> (forall a x, In (a, x) ini -> raw (v_mem v) a = x) ->
  (forall cr, In cr (on_rows p) -> 0 <= pc (row_regs (snd cr)) /\ pc (row_regs (snd cr)) + 1 < zlen (locals (v_mem v)) /\ pc (row_regs (snd cr)) + 1 < P) ->
  exists v', steps (Z.to_nat (p_clock p)) v v' /\ v_st v' = p_end p /\
    (forall a x c, In (a, x, c) (p_output p) -> raw (v_mem v') a = x).
Proof.
  intros h p ini fin Ha Hs Hb Hi Hc Hg v Hv Hst Hf Hcode.
  destruct (accepted_execution h p ini fin Ha Hs Hb Hi Hc Hg (raw (v_mem v)) Hf) as (tr & lg & f' & H1 & H2 & Hp & H3 & H4 & _).
  destruct (fruns_vm _ _ _ _ _ _ H1 v Hv Hst (fun a => eq_refl)) as (v' & K1 & K2 & K3).
  { intros s1 i b Hin Hbin.
    assert (Hs1 : In s1 (map (fun cr => row_regs (snd cr)) (on_rows p))).
    { rewrite <- Hp. apply in_map_iff. exists (s1, i). auto. }
    apply in_map_iff in Hs1. destruct Hs1 as (cr & E & Hcr). destruct (Hcode cr Hcr) as (Hc1 & Hc2 & Hc3). rewrite E in Hc1, Hc2, Hc3.
    unfold code_addrs in Hbin. rewrite Z.mod_small in Hbin by lia. destruct (size_m31 i <=? 4); cbn [In] in Hbin; lia. }
  exists v'. split; [rewrite <- H2, Nat2Z.id; exact K1|]. split; [exact K2|].
  intros a x c Hin. rewrite K3. apply (H3 a c). exact (public_last h p ini fin a x c Ha Hb Hin).
Qed.
Print Assumptions C29_accepted_proof_is_vm_run_partial.

(** A proof that [fp+0] := 1 was executed and 1 is the output. *)
Definition small_proof : proof := Proof
  [(C_store_imm, [1; 0; 10; 1; 0; 1; 0; 0; 0])] []
  [[0; 10; 0; 0; 0; 0; 0; 1; 0]; [0; 0; 1; 9; 1; 0; 0; P - 1; 0]]
  [(RC20, (2, [0]))] (St 0 10) (St 1 10) 1
  [(0, Q 9 1 0 0, 0)] [] [(10, Q 1 0 0 0, 1)] 7 7
  [[0; 0; 30; 9; 1; 0; 1; 1; 0; 7]; [0; 2; 30; 0; 0; 0; 1; 1; 0; 7];
   [0; 40; 30; 1; 0; 0; 1; 1; 0; 7]; [0; 42; 30; 0; 0; 0; 1; 1; 0; 7]; [0; 0; 1; 0; 0; 7; 0; 0; 2; 7]] [].
Lemma small_lookups (p : proof) : forallb (fun r => Z.of_nat (length (op_tuples r p)) <? P) [RC8; RC16; RC20; BitwiseR] = true ->
  forall r, is_lookup r = true -> Z.of_nat (length (op_tuples r p)) < P.
Proof.
  intros H r Hr. rewrite forallb_forall in H. apply Z.ltb_lt, H. destruct r; try discriminate Hr; cbn [In]; auto 10.
Qed.
Example C29_example : forall h,
  accepted h small_proof /\ sized small_proof /\
  honest_boundary small_proof [(0, Q 9 1 0 0); (10, Q 0 0 0 0)] [(0, (1, Q 9 1 0 0)); (10, (1, Q 1 0 0 0))] /\
  Forall (fun cr => no_gap (fst cr) (snd cr)) (on_rows small_proof) /\
  raw (v_mem (load [PInstr (StoreImm 1 0)])) 0 = Q 9 1 0 0 /\ raw (v_mem (load [PInstr (StoreImm 1 0)])) 10 = Q 0 0 0 0.
Proof.
  intros h. split; [apply acceptedb_ok; vm_compute; reflexivity|]. split.
  { split; [vm_compute; reflexivity|]. split; [vm_compute; reflexivity|]. split; [|vm_compute; reflexivity].
    apply small_lookups. vm_compute. reflexivity. }
  split.
  { split; [repeat constructor; cbn; lia|]. split; [repeat constructor; cbn; lia|].
    match goal with |- Permutation ?x ?y => let x' := eval vm_compute in x in let y' := eval vm_compute in y in
      change (Permutation x' y') end.
    match goal with |- Permutation [?a; ?b; ?c; ?d] [?c; ?a; ?b; ?d] =>
      apply Permutation_trans with [a; c; b; d]; [apply perm_skip, perm_swap|apply perm_swap] end. }
  split; [apply Forall_cons; [exact I|constructor]|]. split; reflexivity.
Qed.

(** *** Nothing ties the memory rows to a memory: this proof claims the output 42 for the
    program [fp+0] := 1.  Its memory rows are switched off towards the Merkle tree but
    feed the memory relation, and its Merkle rows emit the leaves without hashing
    anything. *)
Definition forged_proof : proof := Proof
  [(C_store_imm, [1; 0; 10; 1; 0; 1; 0; 0; 0])] []
  [[0; 10; 0; 0; 0; 0; 0; 1; 0]; [0; 0; 1; 9; 1; 0; 0; P - 1; 0]; [0; 10; 1; 1; 0; 0; 0; P - 1; 0]; [0; 10; 5; 42; 0; 0; 0; 1; 0]]
  [(RC20, (2, [0]))] (St 0 10) (St 1 10) 1
  [(0, Q 9 1 0 0, 0)] [] [(10, Q 42 0 0 0, 5)] 7 7
  [[0; 0; 30; 9; 1; 0; 1; 1; 0; 7]; [0; 2; 30; 0; 0; 0; 1; 1; 0; 7];
   [0; 40; 30; 42; 0; 0; 1; 1; 0; 7]; [0; 42; 30; 0; 0; 0; 1; 1; 0; 7]; [0; 0; 1; 0; 0; 7; 0; 0; 2; 7]] [].
Theorem C29_unbound_memory_refuted : exists p a v c,
  (forall h, accepted h p) /\ sized p /\ wf (p_clock p) /\
  Forall (fun cr => no_gap (fst cr) (snd cr)) (on_rows p) /\
  In (a, v, c) (p_output p) /\
  forall f0 tr lg f',
    (forall a v c, In (a, v, c) (p_program p ++ p_input p) -> f0 a = v) ->
    fruns f0 (p_start p) tr lg f' (p_end p) -> Z.of_nat (length tr) = p_clock p -> f' a <> v.
Proof.
  exists forged_proof, 10, (Q 42 0 0 0), 5.
  split; [apply acceptedb_ok; vm_compute; reflexivity|]. split.
  { split; [vm_compute; reflexivity|]. split; [vm_compute; reflexivity|]. split; [|vm_compute; reflexivity].
    apply small_lookups. vm_compute. reflexivity. }
  split; [split; [discriminate|reflexivity]|]. split; [apply Forall_cons; [exact I|constructor]|].
  split; [left; reflexivity|].
  cbn [forged_proof p_program p_input p_start p_end p_clock app]. intros f0 tr lg f' Hf Hr Hl.
  assert (H0 : f0 0 = Q 9 1 0 0) by (apply (Hf 0 (Q 9 1 0 0) 0); left; reflexivity).
  inversion Hr as [? ? ? Hx E1|? ? i f1 s1 l1 tr' l2 ? ? H1 H2 E1 E2]; subst.
  assert (tr' = []) by (destruct tr'; [reflexivity|cbn [length] in Hl; lia]). subst.
  inversion H2 as [? ? ? Hx|]; subst. rewrite Hx. clear - H0 H1.
  destruct H1 as ((rest & Hat) & e & He & _ & _ & _ & Hw & _). cbn [pc] in Hat.
  unfold qlist in Hat. rewrite H0 in Hat. cbn [q0 q1 q2 q3 app] in Hat.
  destruct i; try discriminate Hat. injection Hat as <- <- _. cbn [isa fp] in He. injection He as <-.
  rewrite Hw. vm_compute. discriminate.
Qed.
Print Assumptions C29_unbound_memory_refuted.

(** ** C44: padding rows *)
(** In an accepted proof every row is switched on or off; a row that is switched off adds
    nothing to the register and memory relations, whatever its other columns hold. *)
Theorem C44_padding_is_inert : forall h p c row,
  accepted h p -> In (c, row) (p_ops p) ->
  nth 0 row 0 = 1 \/
  nth 0 row 0 = 0 /\
  (forall t, total t (tuples Registers (evaluate c row)) = 0) /\
  (forall t, total t (tuples Memory (evaluate c row)) = 0).
Proof.
  intros h p c row Ha Hin. pose proof (ac_ops h p Ha) as H. rewrite Forall_forall in H.
  destruct (H _ Hin) as (Hlen & Hw & Hv). cbn [fst snd] in *. destruct (row_shape _ _ Hlen) as [_ Hg].
  assert (Hw0 : wf (nth 0 row 0)).
  { destruct (nth_in_or_default 0 row 0) as [Hi| ->]; [rewrite Forall_forall in Hw; exact (Hw _ Hi)|split; [discriminate|reflexivity]]. }
  destruct (enabler_01 _ _ Hw0 Hg Hv) as [H0|H1]; [right|left; exact H1].
  split; [exact H0|]. rewrite H0 in Hg.
  assert (Z0 : forall es, Forall (fun t : Z * list Z => fst t = 0) es -> forall t, total t es = 0).
  { induction 1 as [|[k v] es Hk _ IH]; intros t; [reflexivity|]. cbn [total]. cbn [fst] in Hk. subst k.
    rewrite IH. destruct (list_eq_dec _ _ _); reflexivity. }
  split; apply Z0, off_row; auto.
Qed.
Print Assumptions C44_padding_is_inert.
(** [small_proof] with a padding row: the range-check table counts it, nothing else does. *)
Example C44_example :
  let p := Proof ((C_store_imm, repeat 0 9) :: p_ops small_proof) [] (p_mem small_proof) [(RC20, (4, [0]))]
    (St 0 10) (St 1 10) 1 (p_program small_proof) [] (p_output small_proof) 7 7 (p_merkle small_proof) [] in
  forall h, accepted h p.
Proof. apply acceptedb_ok. vm_compute. reflexivity. Qed.
