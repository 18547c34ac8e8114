(** One VM step, and any number of them, against the flat machine. *)
From Coq Require Import ZArith Bool List Lia.
From Verif Require Import M31 M31Facts Instr InstrFacts VmMem VmMemFacts Vm Isa IsaFacts Machine.
Import ListNotations.
Open Scope Z_scope.
Ltac Zify.zify_post_hook ::= Z.div_mod_to_equations.

(** ** Instruction fetch *)
Lemma raw_locals m a w : znth (locals m) a = Some w -> raw m a = w.
Proof. intros H. unfold raw. rewrite H. reflexivity. Qed.

Definition acc_log (l : list access) : list entry := map (fun x => En (fst x) (snd x)) l.
Definition same_cells (m m' : mem) : Prop := locals m' = locals m /\ heap m' = heap m.
Lemma same_cells_raw m m' a : same_cells m m' -> raw m' a = raw m a.
Proof. intros [H1 H2]. unfold raw. rewrite H1, H2. reflexivity. Qed.

Lemma encode_cons i : encode i = opcode i :: operands i.
Proof. unfold encode. rewrite opcode_mfrom. reflexivity. Qed.

Lemma qlist_length q : length (qlist q) = 4%nat.
Proof. reflexivity. Qed.

Lemma div_ceil4_small sz : 1 <= sz <= 4 -> div_ceil4 sz = 1.
Proof. unfold div_ceil4. lia. Qed.
Lemma div_ceil4_big sz : 5 <= sz <= 6 -> div_ceil4 sz = 2.
Proof. unfold div_ceil4. lia. Qed.

Lemma madd_one a : madd a (mfrom 1) = (a + 1) mod P.
Proof. reflexivity. Qed.

Lemma fetch_ok m a m' ws i :
  get_instruction a m = (m', Ok ws) -> decode ws = DOk i ->
  ws = encode i /\ instr_at (raw m) a i /\ same_cells m m' /\
  (forall b, In b (code_addrs a i) -> 0 <= b < zlen (locals m)) /\
  mtrace m' = mtrace m ++ acc_log (seen (raw m) (code_addrs a i)).
Proof.
  unfold get_instruction. destruct (znth (locals m) a) as [w|] eqn:Ew; [|discriminate].
  assert (Hin := znth_some _ _ _ Ew). assert (Hraw := raw_locals _ _ _ Ew).
  destruct (opcode_size (q0 w)) as [sz|] eqn:Es.
  2:{ intros H Hd. injection H as <- <-. exfalso. apply decode_canonical in Hd.
      rewrite encode_cons in Hd. unfold qlist in Hd. injection Hd as Hop _.
      rewrite Hop, opcode_size_spec in Es. discriminate. }
  assert (Hsz := opcode_size_inv _ _ Es).
  destruct (Z_le_gt_dec sz 4) as [H4|H4].
  - rewrite div_ceil4_small by lia. cbn [fetch_more Z.sub Z.to_nat Z.add Z.opp Z.pos_sub ret].
    change (Z.to_nat (1 - 1)) with 0%nat. cbn [fetch_more ret].
    intros H Hd. injection H as <- <-. apply decode_canonical in Hd.
    assert (Hq : q0 w = opcode i /\ sz = size_m31 i).
    { assert (Hlen := f_equal (@length Z) Hd). rewrite firstn_length, qlist_length in Hlen.
      assert (He := encode_length i). assert (Z.of_nat (Nat.min (Z.to_nat sz) 4) = sz) by lia.
      split; [|lia]. rewrite encode_cons in Hd. unfold qlist in Hd.
      destruct (Z.to_nat sz) eqn:En; [lia|]. cbn [firstn] in Hd. congruence. }
    destruct Hq as [_ Hq]. split; [exact Hd|]. split.
    { exists (skipn (Z.to_nat sz) (qlist w) ++ qlist (raw m ((a + 1) mod P))).
      rewrite <- Hd, app_assoc, firstn_skipn, Hraw. reflexivity. }
    split; [split; reflexivity|].
    unfold code_addrs. rewrite <- Hq. destruct (Z.leb_spec sz 4); [|lia].
    split; [intros b [<-|[]]; exact Hin|]. cbn. rewrite Hraw. reflexivity.
  - rewrite div_ceil4_big by lia. change (Z.to_nat (2 - 1)) with 1%nat. cbn [fetch_more].
    rewrite madd_one. cbn [log locals].
    destruct (znth (locals m) ((a + 1) mod P)) as [w2|] eqn:Ew2; [|discriminate].
    assert (Hin2 := znth_some _ _ _ Ew2). assert (Hraw2 := raw_locals _ _ _ Ew2).
    cbn [ret]. intros H Hd. injection H as <- <-. apply decode_canonical in Hd.
    change (firstn (Z.to_nat sz) (qlist w ++ qlist w2) = encode i) in Hd.
    assert (Hq : sz = size_m31 i).
    { assert (Hlen := f_equal (@length Z) Hd). rewrite firstn_length in Hlen.
      change (length (qlist w ++ qlist w2)) with 8%nat in Hlen.
      assert (He := encode_length i). assert (Z.of_nat (Nat.min (Z.to_nat sz) 8) = sz) by lia. lia. }
    split; [exact Hd|]. split.
    { exists (skipn (Z.to_nat sz) (qlist w ++ qlist w2)).
      rewrite <- Hd, firstn_skipn, Hraw, Hraw2. reflexivity. }
    split; [split; reflexivity|].
    unfold code_addrs. rewrite <- Hq. destruct (Z.leb_spec sz 4); [lia|].
    split; [intros b [<-|[<-|[]]]; assumption|]. cbn. rewrite Hraw, Hraw2, <- app_assoc. reflexivity.
Qed.

Lemma instr_at_head f a i : instr_at f a i -> q0 (f a) = opcode i.
Proof. intros [r H]. rewrite encode_cons in H. unfold qlist in H. cbn in H. congruence. Qed.

Lemma fetch_complete m a i :
  instr_at (raw m) a i -> (forall b, In b (code_addrs a i) -> 0 <= b < zlen (locals m)) ->
  exists m', get_instruction a m = (m', Ok (encode i)) /\ same_cells m m' /\
    mtrace m' = mtrace m ++ acc_log (seen (raw m) (code_addrs a i)).
Proof.
  intros Hi Hb. assert (Hop := instr_at_head _ _ _ Hi). destruct Hi as [r Hr].
  assert (Hl := encode_length i). assert (Hsz := size_m31_bounds i).
  assert (Ha : 0 <= a < zlen (locals m)).
  { apply Hb. unfold code_addrs. destruct (size_m31 i <=? 4); left; reflexivity. }
  destruct (znth_in _ _ Ha) as [w Hw]. assert (Hraw := raw_locals _ _ _ Hw).
  unfold get_instruction. rewrite Hw. rewrite <- Hraw, Hop, opcode_size_spec, Hraw.
  unfold code_addrs in *. destruct (Z.leb_spec (size_m31 i) 4) as [H4|H4].
  - rewrite div_ceil4_small by lia. change (Z.to_nat (1 - 1)) with 0%nat. cbn [fetch_more ret].
    exists (log m a w). split; [|split; [split; reflexivity|cbn; rewrite Hraw; reflexivity]].
    do 2 f_equal. rewrite Hraw in Hr.
    assert (Hf := f_equal (firstn (Z.to_nat (size_m31 i))) Hr).
    rewrite !firstn_app in Hf. rewrite <- Hl, Nat2Z.id in *. rewrite Nat.sub_diag in Hf.
    rewrite firstn_all, firstn_O, app_nil_r in Hf.
    rewrite qlist_length in Hf. replace (length (encode i) - 4)%nat with 0%nat in Hf by lia.
    rewrite firstn_O, app_nil_r in Hf. exact Hf.
  - rewrite div_ceil4_big by lia. change (Z.to_nat (2 - 1)) with 1%nat. cbn [fetch_more].
    rewrite madd_one. cbn [log locals].
    destruct (znth_in (locals m) ((a + 1) mod P)) as [w2 Hw2]; [apply Hb; right; left; reflexivity|].
    assert (Hraw2 := raw_locals _ _ _ Hw2). rewrite Hw2. cbn [ret].
    exists (log (log m a w) ((a + 1) mod P) w2).
    split; [|split; [split; reflexivity|cbn; rewrite Hraw, Hraw2, <- app_assoc; reflexivity]].
    do 2 f_equal. rewrite Hraw, Hraw2 in Hr. rewrite Hr.
    rewrite <- Hl, Nat2Z.id, firstn_app, Nat.sub_diag, firstn_all, firstn_O, app_nil_r. reflexivity.
Qed.

(** The instruction at an address is unique. *)
Lemma instr_at_unique f a i j : instr_at f a i -> instr_at f a j -> i = j.
Proof.
  intros Hi Hj. assert (Hop : opcode i = opcode j)
    by (rewrite <- (instr_at_head _ _ _ Hi); apply instr_at_head, Hj).
  assert (Hs : size_m31 i = size_m31 j).
  { assert (H := opcode_size_spec i). rewrite Hop, opcode_size_spec in H. congruence. }
  destruct Hi as [r Hr], Hj as [r' Hr']. rewrite Hr in Hr'.
  assert (Hf := f_equal (firstn (length (encode i))) Hr').
  assert (Hl : length (encode i) = length (encode j)).
  { assert (H1 := encode_length i). assert (H2 := encode_length j). lia. }
  rewrite !firstn_app, Nat.sub_diag, firstn_all, firstn_O, app_nil_r in Hf.
  rewrite Hl, Nat.sub_diag, firstn_all, firstn_O, app_nil_r in Hf.
  assert (Hd := decode_encode i). rewrite Hf, decode_encode in Hd. congruence.
Qed.

(** ** One step *)
Definition vok (v : vm) : Prop := mok (v_mem v) /\ swf (v_st v).

Lemma instr_at_iwf f a i : (forall b, qwf (f b)) -> instr_at f a i -> iwf i.
Proof.
  intros Hf [r Hr]. apply encode_iwf. apply Forall_forall. intros x Hx.
  assert (Hi : In x (qlist (f a) ++ qlist (f ((a + 1) mod P)))) by (rewrite Hr; apply in_or_app; auto).
  apply in_app_or in Hi. unfold qlist in Hi.
  destruct (Hf a) as (A0 & A1 & A2 & A3), (Hf ((a + 1) mod P)) as (B0 & B1 & B2 & B3).
  cbn in Hi. destruct Hi as [Hi|Hi]; repeat (destruct Hi as [<-|Hi]; [assumption|]); destruct Hi.
Qed.

Lemma same_cells_mok m m' : same_cells m m' -> mok m -> mok m'.
Proof.
  intros H [H1 H2]. split.
  - unfold minv_ok in *. destruct H as [-> ->]. exact H1.
  - intros a. rewrite (same_cells_raw _ _ _ H). apply H2.
Qed.

Lemma felt_ext_isa i f g s : (forall a, f a = g a) -> isa i f s = isa i g s.
Proof.
  intros H. destruct i; cbn [isa]; repeat rewrite (H _); try reflexivity;
  repeat (rewrite H; try reflexivity).
Qed.

Lemma readable_flat m a : readable m a <-> a < ADDRS /\ is_felt (raw m a).
Proof.
  unfold readable, is_felt, ADDRS, MAX_ADDRESS. rewrite qprojb_spec.
  split; intros [H1 H2]; (split; [lia|exact H2]).
Qed.

Lemma isa_next_wf i f s e :
  swf s -> iwf i -> (forall a, wf (f a)) -> isa i f s = Some e -> swf (next e).
Proof.
  intros Hs Hi Hf. unfold iwf in Hi.
  assert (HW : forall n, swf (St ((pc s + n) mod P) (fp s)))
    by (intros n; split; [apply mod_wf|apply Hs]).
  destruct i; cbn [isa operands] in *;
  repeat match goal with |- context [if ?b then _ else _] => destruct b end;
  intros H; try discriminate H; injection H as <-; cbn [next];
  try apply HW; repeat (let K := fresh in let K' := fresh in apply Forall_cons_iff in Hi as [K Hi]);
  split; cbn [pc fp]; try assumption; try apply mod_wf; try apply Hf; apply Hs.
Qed.

Lemma stored_qwrites ws : stored ws = qwrites ws.
Proof. reflexivity. Qed.

Lemma runs_after m m1 rd ws m' lg :
  same_cells m m1 -> mtrace m1 = mtrace m ++ lg -> runs m1 rd ws m' ->
  (forall b, raw m' b = upds (raw m) (stored ws) b) /\
  mtrace m' = mtrace m ++ lg ++ acc_log (seen (raw m) rd ++ stored ws) /\
  zlen (locals m) <= zlen (locals m') /\ mok m'.
Proof.
  intros Hc Ht (H1 & H2 & H3 & H4). split; [|split; [|split]].
  - intros b. rewrite H3. apply upds_ext. intros x. apply same_cells_raw, Hc.
  - rewrite H4, Ht, <- app_assoc. unfold acc_log, seen, stored. rewrite map_app, !map_map.
    f_equal. f_equal. f_equal. unfold read_log. apply map_ext. intros x. cbn.
    rewrite (same_cells_raw _ _ _ Hc). reflexivity.
  - destruct Hc as [<- _]. exact H2.
  - exact H1.
Qed.

Theorem step_ok v v' :
  vok v -> step v = (v', None) ->
  exists i lg, fstep (raw (v_mem v)) (v_st v) i (raw (v_mem v')) (v_st v') lg /\ iwf i /\ vok v' /\
    (forall b, In b (code_addrs (pc (v_st v)) i) -> 0 <= b < zlen (locals (v_mem v))) /\
    mtrace (v_mem v') = mtrace (v_mem v) ++ acc_log lg /\
    v_trace v' = v_trace v ++ [v_st v] /\
    zlen (locals (v_mem v)) <= zlen (locals (v_mem v')) /\
    v_final v' = v_final v /\ v_init_locals v' = v_init_locals v /\
    v_init_heap v' = v_init_heap v /\ v_segs v' = v_segs v.
Proof.
  intros [Hm Hs]. unfold step.
  destruct (get_instruction (pc (v_st v)) (v_mem v)) as [m1 [ws|e]] eqn:Eg; [|discriminate].
  destruct (decode ws) as [i|e] eqn:Ed; [|discriminate].
  destruct (fetch_ok _ _ _ _ _ Eg Ed) as (-> & Hat & Hc & Hb & Ht).
  assert (Hi : iwf i) by (eapply instr_at_iwf; [apply Hm|exact Hat]).
  assert (Hm1 : mok m1) by (eapply same_cells_mok; eassumption).
  assert (Ho := exec_outcome i (v_st v) m1 (conj Hs (conj Hi Hm1))).
  destruct (exec i (v_st v) m1) as [m2 [s'|e]] eqn:Ee; [|discriminate].
  intros H. injection H as <-. cbn [outcome] in Ho.
  destruct Ho as (e & He & -> & Hr & Hw & Hrun).
  destruct (runs_after _ _ _ _ _ _ Hc Ht Hrun) as (K1 & K2 & K3 & K4).
  assert (Hfelt : forall a, felt m1 a = q0 (raw (v_mem v) a))
    by (intros a; unfold felt; rewrite (same_cells_raw _ _ _ Hc); reflexivity).
  exists i, (seen (raw (v_mem v)) (code_addrs (pc (v_st v)) i) ++ seen (raw (v_mem v)) (reads e) ++ stored (writes e)).
  split; [|split; [exact Hi|split; [|split; [exact Hb|split; [|cbn; auto 10]]]]].
  - split; [exact Hat|]. exists e. rewrite (felt_ext_isa _ _ _ _ Hfelt) in He.
    split; [exact He|]. rewrite Forall_forall in Hr, Hw. split.
    { intros a Ha. apply Hr, readable_flat in Ha. rewrite (same_cells_raw _ _ _ Hc) in Ha. exact Ha. }
    split; [intros w Hin; apply Hw in Hin; unfold ADDRS, MAX_ADDRESS in *; lia|].
    split; [reflexivity|]. split; [exact K1|reflexivity].
  - split; [exact K4|]. cbn. eapply isa_next_wf; [exact Hs|exact Hi| |exact He].
    intros a. apply felt_wf, Hm1.
  - cbn [set_st set_mem push_trace v_mem]. rewrite K2. unfold acc_log. rewrite !map_app. reflexivity.
Qed.

Theorem step_complete v i f' s' lg :
  vok v -> fstep (raw (v_mem v)) (v_st v) i f' s' lg ->
  (forall b, In b (code_addrs (pc (v_st v)) i) -> 0 <= b < zlen (locals (v_mem v))) ->
  exists v', step v = (v', None) /\ v_st v' = s' /\ (forall b, raw (v_mem v') b = f' b).
Proof.
  intros [Hm Hs] (Hat & e & He & Hr & Hw & -> & Hf & _) Hb. unfold step.
  destruct (fetch_complete _ _ _ Hat Hb) as (m1 & -> & Hc & Ht). rewrite decode_encode.
  assert (Hi : iwf i) by (eapply instr_at_iwf; [apply Hm|exact Hat]).
  assert (Hm1 : mok m1) by (eapply same_cells_mok; eassumption).
  assert (Ho := exec_outcome i (v_st v) m1 (conj Hs (conj Hi Hm1))).
  assert (Hfelt : forall a, felt m1 a = q0 (raw (v_mem v) a))
    by (intros a; unfold felt; rewrite (same_cells_raw _ _ _ Hc); reflexivity).
  destruct (exec i (v_st v) m1) as [m2 [s'|er]] eqn:Ee; cbn [outcome] in Ho.
  - destruct Ho as (e' & He' & -> & _ & _ & Hrun). rewrite (felt_ext_isa _ _ _ _ Hfelt), He in He'.
    injection He' as <-. eexists. split; [reflexivity|]. split; [reflexivity|].
    intros b. cbn. destruct (runs_after _ _ _ _ _ _ Hc Ht Hrun) as (K1 & _).
    rewrite K1, Hf. reflexivity.
  - exfalso. destruct Ho as (rd & ws & Hrun & Ho). rewrite (felt_ext_isa _ _ _ _ Hfelt), He in Ho.
    destruct Ho as (_ & _ & _ & [Hx|Hx]); apply Exists_exists in Hx as (x & Hin & Hx).
    + apply Hx, readable_flat. rewrite (same_cells_raw _ _ _ Hc). apply Hr, Hin.
    + apply Hw in Hin. unfold ADDRS, MAX_ADDRESS in *. lia.
Qed.

(** A failing step: registers kept; memory changed at most by a prefix of the
    instruction's own writes; untouched when the failure is one the instruction
    documents (limb out of range, division by zero, failed assertion). *)
Theorem step_err v v' er :
  vok v -> step v = (v', Some er) ->
  v_st v' = v_st v /\ vok v' /\
  (forall b, raw (v_mem v') b = raw (v_mem v) b) \/
  exists i e, instr_at (raw (v_mem v)) (pc (v_st v)) i /\
    isa i (felt (v_mem v)) (v_st v) = Some e /\
    v_st v' = v_st v /\ vok v' /\
    exists done_ rest, writes e = done_ ++ rest /\
      (forall b, raw (v_mem v') b = upds (raw (v_mem v)) (stored done_) b).
Proof.
  intros [Hm Hs]. unfold step.
  assert (Hfetch : forall m1 r, get_instruction (pc (v_st v)) (v_mem v) = (m1, r) -> same_cells (v_mem v) m1).
  { intros m1 r. unfold get_instruction. destruct (znth (locals (v_mem v)) (pc (v_st v))) as [w|];
    [|intros H; injection H as <- <-; split; reflexivity].
    destruct (opcode_size (q0 w)) as [sz|]; [|intros H; injection H as <- <-; split; reflexivity].
    assert (Hfm : forall n k a acc m, same_cells m (fst (fetch_more n k a acc m))).
    { induction n as [|n IH]; intros k a acc m; cbn [fetch_more]; [split; reflexivity|].
      destruct (znth (locals m) (madd a (mfrom k))); [|split; reflexivity].
      exact (IH (k + 1) a (acc ++ qlist q) (log m (madd a (mfrom k)) q)). }
    specialize (Hfm (Z.to_nat (div_ceil4 sz - 1)) 1 (pc (v_st v)) (qlist w) (log (v_mem v) (pc (v_st v)) w)).
    destruct (fetch_more _ _ _ _ _) as [m2 [l|e]]; cbn [fst] in Hfm; intros H; injection H as <- <-; exact Hfm. }
  destruct (get_instruction (pc (v_st v)) (v_mem v)) as [m1 [ws|e]] eqn:Eg.
  2:{ intros H. injection H as <- <-. left. cbn.
      assert (Hc := Hfetch _ _ eq_refl). split; [reflexivity|]. split.
      - split; [eapply same_cells_mok; eassumption|exact Hs].
      - intros b. apply same_cells_raw, Hc. }
  assert (Hc := Hfetch _ _ eq_refl).
  destruct (decode ws) as [i|e] eqn:Ed.
  2:{ intros H. injection H as <- <-. left. cbn. split; [reflexivity|]. split.
      - split; [eapply same_cells_mok; eassumption|exact Hs].
      - intros b. apply same_cells_raw, Hc. }
  destruct (fetch_ok _ _ _ _ _ Eg Ed) as (-> & Hat & _ & Hb & Ht).
  assert (Hi : iwf i) by (eapply instr_at_iwf; [apply Hm|exact Hat]).
  assert (Hm1 : mok m1) by (eapply same_cells_mok; eassumption).
  assert (Ho := exec_outcome i (v_st v) m1 (conj Hs (conj Hi Hm1))).
  assert (Hfelt : forall a, felt m1 a = felt (v_mem v) a)
    by (intros a; unfold felt; rewrite (same_cells_raw _ _ _ Hc); reflexivity).
  destruct (exec i (v_st v) m1) as [m2 [s'|er']] eqn:Ee; [discriminate|].
  intros H. injection H as <- <-. cbn [outcome] in Ho. destruct Ho as (rd & ws & Hrun & Ho).
  destruct (runs_after _ _ _ _ _ _ Hc Ht Hrun) as (K1 & K2 & K3 & K4).
  rewrite (felt_ext_isa _ _ _ _ Hfelt) in Ho.
  destruct (isa i (felt (v_mem v)) (v_st v)) as [e|] eqn:He.
  - right. exists i, e. destruct Ho as (_ & [r Hp] & _). split; [exact Hat|]. split; [exact He|].
    split; [reflexivity|]. split; [split; [exact K4|exact Hs]|]. exists ws, r. split; [exact Hp|exact K1].
  - left. subst ws. cbn. split; [reflexivity|]. split; [split; [exact K4|exact Hs]|exact K1].
Qed.
