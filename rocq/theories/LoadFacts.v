(** Loading a program and preparing a call. *)
From Coq Require Import ZArith Bool List Lia.
From Verif Require Import M31 M31Facts Instr InstrFacts VmMem VmMemFacts Vm Isa IsaFacts Machine VmFacts RunFacts.
Import ListNotations.
Open Scope Z_scope.
Ltac Zify.zify_post_hook ::= Z.div_mod_to_equations.

(** Word offset of item [k]. *)
Definition start_of (p : list pdata) (k : nat) : Z := zlen (flat_map pwords (firstn k p)).

Lemma flat_map_split p k d :
  nth_error p k = Some d ->
  flat_map pwords p = flat_map pwords (firstn k p) ++ pwords d ++ flat_map pwords (skipn (S k) p).
Proof.
  intros H. rewrite <- (firstn_skipn k p) at 1. rewrite flat_map_app. f_equal.
  revert k H; induction p as [|x p IH]; intros [|k] H; try discriminate.
  - cbn in H. injection H as ->. reflexivity.
  - cbn in H. cbn [skipn]. rewrite (IH _ H). reflexivity.
Qed.

Lemma start_of_succ p k d :
  nth_error p k = Some d -> start_of p (S k) = start_of p k + zlen (pwords d).
Proof.
  intros H. unfold start_of. rewrite <- zlen_app. f_equal.
  revert k H; induction p as [|x p IH]; intros [|k] H; try discriminate.
  - cbn in H. injection H as ->. cbn. rewrite app_nil_r. reflexivity.
  - cbn in H. cbn [firstn flat_map]. rewrite <- app_assoc, <- (IH _ H). reflexivity.
Qed.

Lemma znth_mid {A} (l1 l2 : list A) x : znth (l1 ++ x :: l2) (zlen l1) = Some x.
Proof. rewrite znth_app2 by lia. rewrite Z.sub_diag. reflexivity. Qed.
Lemma znth_mid2 {A} (l1 l2 : list A) x y : znth (l1 ++ x :: y :: l2) (zlen l1 + 1) = Some y.
Proof. rewrite znth_app2 by lia. replace (zlen l1 + 1 - zlen l1) with 1 by lia. reflexivity. Qed.

Lemma to_words_cases i :
  (exists w r, to_words i = [w] /\ qlist w = encode i ++ r /\ size_m31 i <= 4) \/
  (exists w w' r, to_words i = [w; w'] /\ qlist w ++ qlist w' = encode i ++ r /\ 4 < size_m31 i).
Proof.
  destruct (to_words_concat i) as (n & Hc & Hn). assert (Hl := to_words_length i).
  destruct (size_qm31_cases i) as [[H1 H2]|[H1 H2]]; rewrite H1 in Hl.
  - left. destruct (to_words i) as [|w [|? ?]]; cbn [length] in Hl; try lia.
    exists w, (repeat 0 n). cbn [flat_map] in Hc. rewrite app_nil_r in Hc. auto.
  - right. destruct (to_words i) as [|w [|w' [|? ?]]]; cbn [length] in Hl; try lia.
    exists w, w', (repeat 0 n). cbn [flat_map] in Hc. rewrite app_nil_r in Hc. auto.
Qed.

Theorem load_fetch p k i :
  zlen (flat_map pwords p) <= ADDRS -> nth_error p k = Some (PInstr i) ->
  instr_at (raw (v_mem (load p))) (start_of p k) i /\
  (forall b, In b (code_addrs (start_of p k) i) -> 0 <= b < zlen (locals (v_mem (load p)))) /\
  start_of p (S k) = start_of p k + size_qm31 i.
Proof.
  intros Hlen H. assert (Hs := start_of_succ _ _ _ H). assert (Hsp := flat_map_split _ _ _ H).
  assert (Hz : zlen (pwords (PInstr i)) = size_qm31 i) by (unfold zlen; apply to_words_length).
  rewrite Hz in Hs. split; [|split; [|exact Hs]].
  - unfold load, instr_at, raw. cbn [v_mem locals heap]. rewrite Hsp in *. unfold start_of in *.
    set (A := flat_map pwords (firstn k p)) in *. set (B := flat_map pwords (skipn (S k) p)) in *.
    cbn [pwords] in *. rewrite !zlen_app in Hlen.
    assert (HA := zlen_nonneg A). assert (HB := zlen_nonneg B).
    destruct (to_words_cases i) as [(w & r & Hw & Hq & _)|(w & w' & r & Hw & Hq & _)]; rewrite Hw in *.
    + cbn [app]. rewrite znth_mid. rewrite Hq, <- app_assoc. eauto.
    + cbn [app]. rewrite znth_mid. unfold zlen in Hlen at 2. cbn [length] in Hlen.
      rewrite Z.mod_small by (unfold ADDRS, P in *; lia). rewrite znth_mid2. eauto.
  - unfold load. cbn [v_mem locals]. rewrite Hsp. rewrite Hsp in Hlen. rewrite !zlen_app, Hz. rewrite !zlen_app, Hz in Hlen. unfold start_of.
    set (A := flat_map pwords (firstn k p)) in *. set (B := flat_map pwords (skipn (S k) p)) in *.
    assert (HA := zlen_nonneg A). assert (HB := zlen_nonneg B).
    unfold code_addrs. intros b. destruct (size_qm31_cases i) as [[E1 E2]|[E1 E2]]; rewrite E1 in *;
    destruct (Z.leb_spec (size_m31 i) 4); try lia.
    + intros [<-|[]]. lia.
    + rewrite Z.mod_small by (unfold ADDRS, P in *; lia). intros [<-|[<-|[]]]; lia.
Qed.

Theorem load_data p k q :
  nth_error p k = Some (PValue q) -> raw (v_mem (load p)) (start_of p k) = q.
Proof.
  intros H. unfold load, raw. cbn [v_mem locals heap]. rewrite (flat_map_split _ _ _ H).
  cbn [pwords app]. unfold start_of. rewrite znth_mid. reflexivity.
Qed.

(** ** Preparing a call *)
Definition pdwf (d : pdata) : Prop := match d with PInstr i => iwf i | PValue q => qwf q end.

Lemma qwf_qzero : qwf qzero.
Proof. repeat split; apply wf0. Qed.

Lemma to_words_wf i : iwf i -> Forall qwf (to_words i).
Proof.
  intros H. assert (He := encode_wf i H).
  assert (G : forall w, In w (to_words i) -> Forall wf (qlist w)).
  { intros w Hw. destruct (to_words_concat i) as (n & Hc & _).
    apply Forall_forall. intros x Hx.
    assert (Hin : In x (flat_map qlist (to_words i))) by (apply in_flat_map; eauto).
    rewrite Hc in Hin. apply in_app_or in Hin as [Hin|Hin].
    - rewrite Forall_forall in He. apply He, Hin.
    - apply repeat_spec in Hin. subst x. apply wf0. }
  apply Forall_forall. intros w Hw. specialize (G w Hw). unfold qlist in G.
  inversion G as [|? ? G0 G']; subst. inversion G' as [|? ? G1 G'']; subst.
  inversion G'' as [|? ? G2 G3']; subst. inversion G3' as [|? ? G3 _]; subst. repeat split; try apply G0; try apply G1; try apply G2; apply G3.
Qed.

Lemma raw_wf l h t a : Forall qwf l -> Forall qwf h -> qwf (raw (Mem l h t) a).
Proof.
  intros Hl Hh. unfold raw. cbn [locals heap]. rewrite Forall_forall in Hl, Hh.
  destruct (znth l a) as [w|] eqn:E.
  - unfold znth in E. destruct (a <? 0); [discriminate|]. eapply Hl, nth_error_In, E.
  - destruct (znth h (MAX_ADDRESS - a)) as [w|] eqn:E2; [|apply qwf_qzero].
    unfold znth in E2. destruct (MAX_ADDRESS - a <? 0); [discriminate|]. eapply Hh, nth_error_In, E2.
Qed.

Theorem load_ok p :
  Forall pdwf p -> zlen (flat_map pwords p) <= ADDRS -> vok (load p).
Proof.
  intros Hp Hlen. split; [split|].
  - unfold minv_ok, load; cbn. unfold ADDRS, MAX_ADDRESS in *. lia.
  - intros a. apply raw_wf; [|constructor]. apply Forall_forall. intros w Hw.
    apply in_flat_map in Hw as (d & Hd & Hw). rewrite Forall_forall in Hp. specialize (Hp d Hd).
    destruct d as [i|q]; cbn in Hw, Hp.
    + assert (Hf := to_words_wf i Hp). rewrite Forall_forall in Hf. apply Hf, Hw.
    + destruct Hw as [<-|[]]. exact Hp.
  - assert (Hn := zlen_nonneg (flat_map pwords p)). unfold load. cbn. unfold swf; cbn.
    unfold wf, ADDRS, P in *. lia.
Qed.

(** The argument loop writes the arguments to consecutive cells. *)
Lemma write_args_spec args : forall nf nargs nret i m,
  minv_ok m -> heap m = [] ->
  0 <= i -> i + zlen args <= nargs -> 0 <= nret ->
  nargs + nret + 2 <= nf -> nf <= 134217728 -> zlen (locals m) <= nf ->
  exists m', write_args nf nargs nret i args m = (m', Ok tt) /\ minv_ok m' /\ heap m' = [] /\
    mtrace m' = mtrace m /\ zlen (locals m) <= zlen (locals m') <= nf /\
    (forall b, raw m' b =
       match znth args (b - (nf - 2 - nret - nargs + i)) with Some x => qofm x | None => raw m b end).
Proof.
  induction args as [|x r IH]; intros nf nargs nret i m Hinv Hh Hi Hn Hr Hf Hmax Hloc.
  - exists m. cbn. split; [reflexivity|]. split; [exact Hinv|]. split; [exact Hh|]. split; [reflexivity|].
    split; [lia|]. intros b. rewrite znth_out; [reflexivity|]. change (zlen (@nil Z)) with 0. lia.
  - cbn [write_args]. unfold bind. rewrite zlen_cons in Hn. assert (Hzr := zlen_nonneg r).
    set (a := msub nf (mfrom (nargs + nret + 2 - i))).
    assert (Ha : a = nf - 2 - nret - nargs + i).
    { unfold a, msub, mfrom. rewrite (Z.mod_small (nargs + nret + 2 - i)) by (unfold P; lia).
      rewrite Z.mod_small by (unfold P; lia). lia. }
    assert (Hm1 : exists m1, insert_no_trace a (qofm x) m = (m1, Ok tt) /\ minv_ok m1 /\ heap m1 = [] /\
              mtrace m1 = mtrace m /\ zlen (locals m) <= zlen (locals m1) <= nf /\
              (forall b, raw m1 b = if b =? a then qofm x else raw m b)).
    { destruct (insert_no_trace_spec m a (qofm x) Hinv) as (m1 & E & K1 & K2 & K3 & K4);
        [unfold MAX_ADDRESS; lia|].
      exists m1. split; [exact E|]. split; [exact K1|].
      assert (HH : heap m1 = [] /\ zlen (locals m1) <= nf).
      { unfold insert_no_trace in E. destruct (valid_addr a); cbn [negb] in E; [|discriminate].
        rewrite Hh in E. change (zlen (@nil qm31)) with 0 in E. assert (Hl0 := zlen_nonneg (locals m)).
        destruct (Z.ltb_spec a (zlen (locals m))).
        - injection E as <-. cbn. rewrite zset_length. split; [reflexivity|lia].
        - destruct (Z.ltb_spec (MAX_ADDRESS - a) 0); [unfold MAX_ADDRESS in *; lia|].
          destruct (Z.ltb_spec (a - zlen (locals m)) (MAX_ADDRESS - a - 0)).
          + injection E as <-. cbn. rewrite zset_length, zgrow_length by lia. split; [reflexivity|lia].
          + unfold MAX_ADDRESS in *. lia. }
      destruct HH as [HH1 HH2]. auto 10. }
    destruct Hm1 as (m1 & -> & K1 & K2 & K3 & K4 & K5).
    destruct (IH nf nargs nret (i + 1) m1 K1 K2 ltac:(lia) ltac:(lia) Hr Hf Hmax ltac:(lia))
      as (m' & -> & J1 & J2 & J3 & J4 & J5).
    exists m'. split; [reflexivity|]. split; [exact J1|]. split; [exact J2|]. split; [congruence|].
    split; [lia|]. intros b. rewrite J5. rewrite K5.
    set (c := b - (nf - 2 - nret - nargs + i)).
    replace (b - (nf - 2 - nret - nargs + (i + 1))) with (c - 1) by (unfold c; lia).
    destruct (Z.eqb_spec b a) as [->|Hne].
    + assert (c = 0) by (unfold c; lia). rewrite H. reflexivity.
    + destruct (Z_lt_le_dec c 0).
      { rewrite (znth_out r), (znth_out (x :: r)) by lia. reflexivity. }
      assert (c <> 0) by (unfold c; lia). change (x :: r) with ([x] ++ r).
      rewrite znth_app2 by (unfold zlen; cbn; lia). reflexivity.
Qed.

(** After preparation: program kept, arguments then return slots then the saved frame
    (own fp and final pc) just below the new frame pointer. *)
Theorem prepare_spec v entry off args nret :
  vok v -> heap (v_mem v) = [] -> mtrace (v_mem v) = [] -> v_trace v = [] ->
  wf entry -> Forall wf args -> wf (v_final v) -> v_final v <> 0 ->
  0 <= nret -> zlen args + nret + 2 <= off ->
  fp (v_st v) + off <= 134217728 -> zlen (locals (v_mem v)) <= fp (v_st v) + off - 2 ->
  let nf := fp (v_st v) + off in
  exists v', prepare v entry off args nret = (v', Ok tt) /\ fresh v' /\
    v_st v' = St entry nf /\ v_final v' = v_final v /\ v_segs v' = v_segs v /\
    heap (v_mem v') = [] /\ zlen (locals (v_mem v')) = nf /\
    (forall b, raw (v_mem v') b =
       if b =? nf - 2 then qofm nf
       else if b =? nf - 1 then qofm (v_final v)
       else match znth args (b - (nf - 2 - nret - zlen args)) with
            | Some x => qofm x
            | None => raw (v_mem v) b
            end).
Proof.
  intros [[Hinv Hwf] Hs] Hh Hmt Htr He Hargs Hfin Hfin0 Hnr Hoff Hmax Hloc nf.
  assert (Hza := zlen_nonneg args). assert (Hfp0 : 0 <= fp (v_st v)) by apply Hs.
  assert (Hzl := zlen_nonneg (locals (v_mem v))).
  assert (Hnf : madd (fp (v_st v)) (mfrom off) = nf).
  { unfold madd, mfrom, nf. rewrite (Z.mod_small off) by (unfold P; lia). apply Z.mod_small. unfold P; lia. }
  unfold prepare. rewrite Hnf.
  destruct (write_args_spec args nf (zlen args) nret 0 (v_mem v) Hinv Hh) as (m1 & -> & K1 & K2 & K3 & K4 & K5);
    try (unfold nf; lia).
  unfold insert_entrypoint_call.
  assert (E2 : msub nf 2 = nf - 2) by (unfold msub; apply Z.mod_small; unfold nf, P; lia).
  assert (E1 : msub nf 1 = nf - 1) by (unfold msub; apply Z.mod_small; unfold nf, P; lia).
  rewrite E1, E2.
  assert (V2 : valid_addr (nf - 2) = true) by (apply valid_addr_spec; unfold nf, MAX_ADDRESS; lia).
  assert (V1 : valid_addr (nf - 1) = true) by (apply valid_addr_spec; unfold nf, MAX_ADDRESS; lia).
  rewrite V1, V2. cbn [negb].
  set (l := if zlen (locals m1) <=? nf - 1 then zgrow (locals m1) (nf - 1 + 1) else locals m1).
  assert (Hl : zlen l = nf /\ forall b, match znth l b with Some q => q | None => qzero end =
                match znth (locals m1) b with Some q => q | None => qzero end).
  { unfold l. destruct (Z.leb_spec (zlen (locals m1)) (nf - 1)).
    - split; [rewrite zgrow_length; lia|]. intros b. destruct (Z_lt_le_dec b 0).
      { rewrite !znth_out by lia. reflexivity. }
      destruct (Z_lt_le_dec b nf).
      + rewrite znth_zgrow by lia. reflexivity.
      + rewrite (znth_out (zgrow _ _)) by (rewrite zgrow_length by lia; lia). rewrite znth_out by lia. reflexivity.
    - split; [lia|reflexivity]. }
  destruct Hl as [Hl1 Hl2].
  eexists. split; [reflexivity|]. cbn [v_st v_final v_segs v_mem heap locals].
  assert (Hraw : forall b, raw (Mem (zset (zset l (nf - 2) (qofm nf)) (nf - 1) (qofm (v_final v))) (heap m1) (mtrace m1)) b =
     if b =? nf - 2 then qofm nf else if b =? nf - 1 then qofm (v_final v)
     else match znth args (b - (nf - 2 - nret - zlen args)) with Some x => qofm x | None => raw (v_mem v) b end).
  { intros b. unfold raw at 1. cbn [locals heap]. rewrite K2.
    rewrite (znth_out (@nil qm31)) by (change (zlen (@nil qm31)) with 0; lia).
    rewrite znth_zset by (rewrite zset_length; unfold nf in *; lia).
    rewrite znth_zset by (unfold nf in *; lia).
    destruct (Z.eqb_spec b (nf - 1)), (Z.eqb_spec b (nf - 2)); try lia; try reflexivity.
    rewrite Hl2. specialize (K5 b). unfold raw at 1 in K5. rewrite K2 in K5.
    rewrite (znth_out (@nil qm31)) in K5 by (change (zlen (@nil qm31)) with 0; lia).
    rewrite Z.add_0_r in K5. exact K5. }
  assert (Hll : zlen (zset (zset l (nf - 2) (qofm nf)) (nf - 1) (qofm (v_final v))) = nf)
    by (rewrite !zset_length; exact Hl1).
  split.
  { split; [split; [split|]|].
    - unfold minv_ok. cbn [v_mem locals heap]. rewrite Hll, K2. unfold nf, MAX_ADDRESS. change (zlen (@nil qm31)) with 0. lia.
    - intros a. cbn [v_mem]. rewrite Hraw. destruct (a =? nf - 2); [apply qofm_wf; unfold nf, wf, P in *; lia|].
      destruct (a =? nf - 1); [apply qofm_wf, Hfin|].
      destruct (znth args (a - (nf - 2 - nret - zlen args))) as [x|] eqn:Ex; [|apply Hwf].
      apply qofm_wf. rewrite Forall_forall in Hargs. apply Hargs. unfold znth in Ex.
      destruct (_ <? 0); [discriminate|]. eapply nth_error_In, Ex.
    - split; cbn; [exact He|]. unfold nf, wf, P. lia.
    - cbn. rewrite K3, Hmt. auto. }
  split; [reflexivity|]. split; [reflexivity|]. split; [reflexivity|]. split; [exact K2|].
  split; [exact Hll|exact Hraw].
Qed.
