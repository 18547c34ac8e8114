(** The proof of an honest run is accepted. *)
From Coq Require Import ZArith Bool List Lia Permutation.
From Verif Require Import M31 M31Facts Instr InstrFacts VmMem Abi Isa IsaFacts Machine VmFacts RunFacts SpaceFacts Air AirOpcodes AirSpec AirFacts AirChain AirMem AirGlobal
  Adapter AdapterSpec AdapterFacts AdapterRun AdapterProps Merkle MerkleSpec MerkleFacts MerkleProps MerkleSegs
  Trace TraceSpec TraceAll ProverSpec TraceRun Prover ProverFacts ProverMem ProverTree.
Import ListNotations.
Open Scope Z_scope.

(** ** The adapter's memory *)
Definition mults (m : amem) : Prop :=
  (forall a v c k, hget (a_ini m) a = Some (v, c, k) -> k = 0 \/ k = 1) /\
  (forall a v c k, hget (a_fin m) a = Some (v, c, k) -> k = 0 \/ k = P - 1).
Lemma set_mult_mults l a j (Q : Z -> Prop) : (forall b v c k, hget l b = Some (v, c, k) -> Q k) -> Q j ->
  forall b v c k, hget (set_mult l a j) b = Some (v, c, k) -> Q k.
Proof.
  intros H Hj b v c k. unfold set_mult. destruct (hget l a) as [[[v' c'] k']|] eqn:E; [|apply H].
  rewrite hget_hset. destruct (b =? a); [intros K; injection K as _ _ <-; exact Hj|apply H].
Qed.
Lemma publish_in_mults m a : mults m -> mults (publish_in m a).
Proof.
  intros [A B]. unfold publish_in. split; cbn [a_ini a_fin].
  - apply set_mult_mults; [exact A|auto].
  - intros b v c k. destruct (hget (a_fin m) (mfrom a)) as [[[v' c'] k']|] eqn:E; [|apply B].
    destruct (k' =? 0); [|apply B]. rewrite hget_hset. destruct (b =? mfrom a); [intros K; injection K as _ _ <-; auto|apply B].
Qed.
Lemma publish_out_mults m a : mults m -> mults (publish_out m a).
Proof. intros [A B]. unfold publish_out. split; cbn [a_ini a_fin]; (apply set_mult_mults; [assumption|auto]). Qed.
Lemma fold_mults (g : amem -> Z -> amem) : (forall m a, mults m -> mults (g m a)) -> forall l m, mults m -> mults (fold_left g l m).
Proof. intros H. induction l as [|x l IH]; intros m Hm; [exact Hm|]. cbn [fold_left]. apply IH, H, Hm. Qed.
Lemma update_mults r m : mults m -> mults (update_multiplicities r m).
Proof. intros H. unfold update_multiplicities. apply fold_mults; [exact publish_out_mults|]. apply fold_mults; [exact publish_in_mults|exact H]. Qed.
Lemma ainv_mults now m : ainv now m -> mults m.
Proof.
  intros (_ & _ & H). split; intros a v c k E; specialize (H a); rewrite E in H; cbn [cell_ok] in H.
  - destruct (hget (a_fin m) a) as [[[? ?] ?]|]; [|contradiction]. destruct H as (_ & [(-> & _)|(-> & _)]); auto.
  - destruct (hget (a_ini m) a) as [[[? ?] ?]|]; [|contradiction]. destruct H as (_ & [(_ & -> & _)|(_ & -> & _)]); auto.
Qed.
Lemma update_cu r m : a_cu (update_multiplicities r m) = a_cu m.
Proof.
  unfold update_multiplicities.
  assert (K1 : forall l m, a_cu (fold_left publish_out l m) = a_cu m) by (induction l as [|x l IH]; intros m0; [reflexivity|]; cbn [fold_left]; rewrite IH; reflexivity).
  assert (K2 : forall l m, a_cu (fold_left publish_in l m) = a_cu m) by (induction l as [|x l IH]; intros m0; [reflexivity|]; cbn [fold_left]; rewrite IH; reflexivity).
  rewrite K1, K2. reflexivity.
Qed.
Lemma sane_list k l : NoDup (keys l) -> (forall a v c j, hget l a = Some (v, c, j) -> cell_sane k (a, (v, c, j))) -> Forall (cell_sane k) l.
Proof.
  intros Hn H. apply Forall_forall. intros [a [[v c] j]] Hx. apply H. apply hget_nodup; assumption.
Qed.
Lemma moves_in ini l : forall h x, In x (moves ini h l) -> exists l1 y l2, l = l1 ++ y :: l2 /\ x = move_of ini (rev l1 ++ h) y.
Proof.
  induction l as [|y l IH]; intros h x Hx; [destruct Hx|]. cbn [moves] in Hx. destruct Hx as [<-|Hx].
  - exists [], y, l. auto.
  - destruct (IH _ _ Hx) as (l1 & z & l2 & -> & ->). exists (y :: l1), z, l2. split; [reflexivity|]. cbn [rev]. rewrite <- app_assoc. reflexivity.
Qed.
Lemma first_at_in h a v : first_at h a = Some v -> exists c, In (a, v, c) h.
Proof. intros E. destruct (first_at_split _ _ _ E) as (l1 & c & l2 & -> & _). exists c. apply in_or_app. right. left. reflexivity. Qed.
Lemma timeline_in ev : forall k a v c, In (a, v, c) (timeline k ev) -> k <= c < k + Z.of_nat (length ev) /\ exists e, In e ev /\ In (a, v) (ev_log e).
Proof.
  induction ev as [|e ev IH]; intros k a v c H; [destruct H|]. cbn [timeline] in H. apply in_app_or in H. cbn [length].
  destruct H as [H|H].
  - unfold at_clock in H. apply in_map_iff in H. destruct H as ([b w] & E & Hi). cbn [fst snd] in E. injection E as -> -> <-. split; [lia|].
    exists e. split; [left; reflexivity|exact Hi].
  - destruct (IH _ _ _ _ H) as (A & e' & B & C). split; [lia|]. exists e'. split; [right; exact B|exact C].
Qed.
Lemma import_sane i0 r ev m :
  ainv P m -> tracks i0 (rev (timeline 1 ev)) m -> a_cu m = map cu_of (flat_map mv_bridges (moves (ini_of i0) [] (timeline 1 ev))) ->
  blank i0 -> Z.of_nat (length ev) < P -> Forall (fun e => Forall entry_ok (ev_log e)) ev -> (forall a v, ini_of i0 a = Some v -> entry_ok (a, v)) ->
  sane (update_multiplicities r m).
Proof.
  intros Hinv [Tf Ti] Hcu [Hb1 Hb2] Hl Hen Hi0. rewrite Forall_forall in Hen.
  assert (Ht : forall a v c, In (a, v, c) (timeline 1 ev) -> addr_ok a /\ qwf v /\ wf c).
  { intros a v c H. destruct (timeline_in ev 1 a v c H) as (A & e & B & C). specialize (Hen e B). rewrite Forall_forall in Hen.
    destruct (Hen _ C) as (D & E). cbn [fst snd] in D, E. split; [exact D|]. split; [exact E|]. split; lia. }
  assert (Hi : forall a v c k, hget i0 a = Some (v, c, k) -> addr_ok a /\ qwf v /\ wf c).
  { intros a v c k E. destruct (Hb2 _ _ _ _ E) as [-> _]. destruct (Hi0 a v) as (A & B); [unfold ini_of; rewrite E; reflexivity|].
    split; [exact A|]. split; [exact B|apply wf0]. }
  destruct (update_nodup r m) as [N1 N2]; [split; apply Hinv|].
  destruct (update_mults r m (ainv_mults _ _ Hinv)) as [M1 M2]. destruct (view_update r m) as [V1 V2].
  assert (Hfirst : forall h a v, incl h (timeline 1 ev) -> first_at h a = Some v -> qwf v).
  { intros h a v Hincl E. destruct (first_at_in h a v E) as (c & Hc). apply (Ht a v c), Hincl, Hc. }
  split; try assumption.
  - apply sane_list; [exact N1|]. intros a v c k E. pose proof (M1 _ _ _ _ E) as Hk.
    specialize (V1 a). unfold view in V1. rewrite E, Ti in V1.
    destruct (last_at (rev (timeline 1 ev)) a) as [[u cc]|] eqn:El.
    + assert (Ec : c = 0) by congruence. assert (Ev : v = or_else (ini_of i0 a) (or_else (first_at (rev (timeline 1 ev)) a) qzero)) by congruence.
      destruct (Ht a u cc) as (Ha & _); [apply in_rev, last_at_in, El|].
      assert (Hv : qwf v).
      { rewrite Ev. destruct (ini_of i0 a) as [w|] eqn:Ei; [apply (Hi0 a w Ei)|]. cbn [or_else].
        destruct (first_at (rev (timeline 1 ev)) a) as [w|] eqn:Ef; [|repeat split; discriminate || reflexivity]. cbn [or_else].
        apply (Hfirst _ a w) in Ef; [exact Ef|]. intros x Hx. apply in_rev, Hx. }
      rewrite Ec. split; [exact Ha|]. split; [apply wf0|]. split; [exact Hv|exact Hk].
    + destruct (hget i0 a) as [[[v' c'] k']|] eqn:Ei; [|discriminate V1]. assert (v = v' /\ c = c') as [-> ->] by (split; congruence).
      destruct (Hi _ _ _ _ Ei) as (A & B & C). split; [exact A|]. split; [exact C|]. split; [exact B|exact Hk].
  - apply sane_list; [exact N2|]. intros a v c k E. pose proof (M2 _ _ _ _ E) as Hk.
    specialize (V2 a). unfold view in V2. rewrite E, Tf in V2.
    destruct (last_at (rev (timeline 1 ev)) a) as [[u cc]|] eqn:El.
    + assert (v = u /\ c = cc) as [-> ->] by (split; congruence).
      destruct (Ht a u cc) as (A & B & C); [apply in_rev, last_at_in, El|]. split; [exact A|]. split; [exact C|]. split; [exact B|exact Hk].
    + destruct (hget i0 a) as [[[v' c'] k']|] eqn:Ei; [|discriminate V2]. assert (v = v' /\ c = c') as [-> ->] by (split; congruence).
      destruct (Hi _ _ _ _ Ei) as (A & B & C). split; [exact A|]. split; [exact C|]. split; [exact B|exact Hk].
  - rewrite update_cu, Hcu. apply Forall_forall. intros [[a c] v] Hx. apply in_map_iff in Hx. destruct Hx as ([[a' v'] c'] & E & Hx).
    cbn [cu_of] in E. assert (a' = a /\ v' = v /\ c' = c) as (-> & -> & ->) by (repeat split; congruence). clear E.
    apply in_flat_map in Hx. destruct Hx as (x & Hm & Hx). unfold mv_bridges in Hx. apply in_map_iff in Hx. destruct Hx as (k & E & Hk).
    assert (mv_addr x = a /\ mv_first x = v /\ mv_from x + Z.of_nat k * GAP = c) as (<- & <- & <-) by (repeat split; congruence). clear E.
    apply in_seq in Hk. pose proof (timeline_bound _ _ _ _ _ Hm) as Hb. destruct (timeline_order _ ev Hl x Hm) as [Hf0 Hf1].
    assert (Hgap : mv_from x + Z.of_nat k * GAP + GAP <= mv_clk x).
    { unfold bridges in Hk. destruct (Z.ltb_spec GAP (mv_clk x - mv_from x)) as [Hg|Hg]; [|cbn in Hk; lia].
      assert (Hd : (mv_clk x - mv_from x) / GAP * GAP <= mv_clk x - mv_from x) by (rewrite Z.mul_comm; apply Z.mul_div_le; reflexivity).
      assert (Z.of_nat k + 1 <= (mv_clk x - mv_from x) / GAP) by lia. unfold GAP in *. nia. }
    destruct (moves_in _ _ _ _ Hm) as (l1 & [[a v] c] & l2 & Es & Ex). rewrite app_nil_r in Ex.
    destruct (Ht a v c) as (A & B & C); [rewrite Es; apply in_or_app; right; left; reflexivity|].
    assert (Ea : mv_addr x = a) by (rewrite Ex; reflexivity).
    assert (Ef : mv_first x = or_else (ini_of i0 a) (or_else (first_at (rev l1) a) v)) by (rewrite Ex; reflexivity).
    rewrite Ea. split; [apply addr_wf, A|]. unfold GAP in *. split; [split; lia|]. split; [split; lia|]. rewrite Ef.
    destruct (ini_of i0 a) as [w|] eqn:Ei; [apply (Hi0 a w Ei)|]. cbn [or_else].
    destruct (first_at (rev l1) a) as [w|] eqn:E1; [|exact B]. cbn [or_else]. apply (Hfirst _ a w) in E1; [exact E1|].
    intros y Hy. apply in_rev in Hy. rewrite Es. apply in_or_app. left. exact Hy.
Qed.

(** ** Rows *)
Lemma padded_all (Q : list Z -> Prop) w rows : Forall Q rows -> Q (repeat 0 w) -> Forall Q (padded w rows).
Proof. intros H1 H2. unfold padded. apply Forall_app. split; [exact H1|]. apply Forall_forall. intros x Hx. apply repeat_spec in Hx. subst. exact H2. Qed.
Lemma zero_wf n : Forall wf (repeat 0 n).
Proof. apply Forall_forall. intros x Hx. apply repeat_spec in Hx. subst. apply wf0. Qed.
Lemma mem_cells_ok k root l : Forall (cell_sane k) l -> wf k -> wf root -> Forall (fun row => row_ok 9 (mem_air row) row) (mem_cells root l).
Proof.
  intros H Hk Hr. unfold mem_cells. apply Forall_forall. intros row Hrow. apply in_map_iff in Hrow. destruct Hrow as ([a [[v c] j]] & <- & Hx).
  rewrite Forall_forall in H. destruct (H _ Hx) as (A & C & (V0 & V1 & V2 & V3) & J). cbn [fst snd] in *. apply addr_wf in A.
  assert (Hj : wf j) by (destruct J as [->| ->]; [apply wf0|exact Hk]).
  split; [reflexivity|]. split.
  - unfold qlist. cbn [app]. repeat (apply Forall_cons; [first [assumption|apply wf1]|]). apply Forall_nil.
  - repeat apply Forall_cons; try apply Forall_nil; reflexivity.
Qed.
Lemma cu_rows_ok m : sane m -> Forall (fun row => row_ok 7 (cu_air row) row) (cu_rows m).
Proof.
  intros H. unfold cu_rows. apply padded_all.
  - apply Forall_forall. intros row Hrow. apply in_map_iff in Hrow. destruct Hrow as ([[a c] v] & <- & Hx).
    pose proof (sa_cu m H) as K. rewrite Forall_forall in K. destruct (K _ Hx) as (A & C & _ & (V0 & V1 & V2 & V3)).
    split; [reflexivity|]. split.
    + unfold qlist. cbn [app]. repeat (apply Forall_cons; [first [assumption|apply wf1]|]). apply Forall_nil.
    + repeat apply Forall_cons; try apply Forall_nil; reflexivity.
  - split; [reflexivity|]. split; [apply zero_wf|]. repeat apply Forall_cons; try apply Forall_nil; reflexivity.
Qed.
Lemma op_rows_ok bs : (forall b, In b bs -> exists c, component_of (b_instr b) = Some c /\ length (fill c 1 b) = n_columns c /\ Forall wf (fill c 1 b) /\ satisfied (evaluate c (fill c 1 b))) ->
  Forall (fun cr => row_ok (n_columns (fst cr)) (evaluate (fst cr) (snd cr)) (snd cr)) (op_rows bs).
Proof.
  intros H. apply Forall_forall. intros [c row] Hx. cbn [fst snd]. unfold op_rows in Hx. apply in_flat_map in Hx. destruct Hx as (d & _ & Hx).
  apply in_map_iff in Hx. destruct Hx as (row' & E & Hx). assert (d = c /\ row' = row) as [-> ->] by (split; congruence). clear E.
  unfold trace_of in Hx. apply in_app_or in Hx. destruct Hx as [Hx|Hx].
  - apply in_map_iff in Hx. destruct Hx as (b & <- & Hb). apply filter_In in Hb. destruct Hb as [Hb Hm]. apply mine_own in Hm.
    destruct (H b Hb) as (d & E & A & B & C). assert (d = c) by congruence. subst d. split; [exact A|]. split; [exact B|apply C].
  - apply repeat_spec in Hx. subst row. destruct (pad_facts c) as (A & B & C & _). split; [exact A|]. split; [exact B|apply C].
Qed.

(** ** Sizes *)
Lemma NoDup_app_l {A} (l m : list A) : NoDup (l ++ m) -> NoDup l.
Proof. induction l as [|x l IH]; intros H; [constructor|]. cbn [app] in H. inversion H as [|? ? H1 H2]; subst. constructor; [|apply IH, H2]. intros K. apply H1, in_or_app. left. exact K. Qed.
Lemma nodup_bound N l : 0 <= N -> NoDup l -> Forall (fun a => 0 <= a < N) l -> Z.of_nat (length l) <= N.
Proof.
  intros H0 Hn Hb. assert (Hi : incl l (map Z.of_nat (seq 0 (Z.to_nat N)))).
  { intros a Ha. rewrite Forall_forall in Hb. specialize (Hb a Ha). apply in_map_iff. exists (Z.to_nat a). split; [lia|]. apply in_seq. lia. }
  apply NoDup_incl_length in Hi; [|exact Hn]. rewrite map_length, seq_length in Hi. lia.
Qed.
Lemma not_in_keys l a : hget l a = None -> ~ In a (keys l).
Proof. apply hget_none. Qed.
Lemma room_size k l b : NoDup (keys l) -> Forall (cell_sane k) l -> addr_ok b -> ~ In b (keys l) -> Z.of_nat (length l) < 268435456.
Proof.
  intros Hn Hs Hb Hi. assert (H : Z.of_nat (length (b :: keys l)) <= 268435456).
  { apply nodup_bound; [lia|constructor; assumption|]. constructor; [exact Hb|]. apply Forall_forall. intros a Ha. apply in_map_iff in Ha.
    destruct Ha as (x & <- & Hx). rewrite Forall_forall in Hs. apply Hs, Hx. }
  cbn [length] in H. unfold keys in H. rewrite map_length in H. lia.
Qed.
Lemma log_entries f s ev f' s' : eruns f s ev f' s' -> swf s -> (forall a, qwf (f a)) -> Forall (fun e => Forall (fun a => 0 <= a < ADDRS) (ev_code e)) ev ->
  Forall (fun e => Forall entry_ok (ev_log e)) ev.
Proof.
  induction 1 as [|f s i f1 s1 lg ev f2 s2 Hs He IH]; intros Hw Hq Hc; [constructor|]. inversion Hc as [|? ? C1 C2]; subst.
  destruct (fstep_wf _ _ _ _ _ _ Hw Hq Hs) as [Hw1 Hq1]. constructor; [|apply IH; assumption].
  cbn [ev_log snd]. eapply fstep_space; [exact Hw| |exact Hq|exact C1|exact Hs]. eapply instr_at_iwf; [exact Hq|apply Hs].
Qed.
Lemma tree_wf hash f n i : (forall x y, wf (hash x y)) -> wf (tree hash f (Datatypes.S n) i).
Proof. intros H. cbn [tree]. apply H. Qed.
Lemma root_wf hash f : (forall x y, wf (hash x y)) -> wf (root hash f).
Proof. intros H. exact (tree_wf hash f 29 0 H). Qed.

Lemma calm_dec x : {calm x} + {~ calm x}.
Proof.
  unfold calm. destruct (Z_lt_dec GAP (mv_clk x - mv_from x)) as [H|H]; [|left; intros K; contradiction].
  assert (D : {mv_old x = mv_first x} + {mv_old x <> mv_first x}) by (repeat decide equality).
  destruct D as [E|E]; [left; auto|right; intros K; auto].
Qed.

(** The run leaves at least one of the 2^28 words alone. *)
Definition spare (i0 : amap) (ev : list event) : Prop :=
  exists b, 0 <= b < 2 ^ 28 /\ ~ In b (keys i0) /\ forall e, In e ev -> ~ In b (map fst (ev_log e)).

Theorem honest_proof h r i0 f s ev f' s' :
  (forall l, wf (h l)) -> eruns f s ev f' s' -> blank i0 -> agrees (ini_of i0) f -> swf s -> (forall a, qwf (f a)) ->
  ev <> [] -> Z.of_nat (length ev) < P - 1 -> plain (ini_of i0) f ev -> ranges_ok r ->
  Forall (fun e => Forall (fun a => 0 <= a < 2 ^ 28) (ev_code e)) ev -> Forall (fun a => 0 <= a < 2 ^ 28) (keys i0) -> spare i0 ev ->
  exists A p, import (map ev_state ev ++ [s']) (acc_log (concat (map ev_log ev))) i0 r = AdOk A /\ prove h r A = Some p /\
    (accepted h p <-> Forall calm (moves (ini_of i0) [] (timeline 1 ev))) /\
    p_start p = s /\ p_end p = s' /\ p_clock p = Z.of_nat (length ev) /\
    p_program p = extract (a_ini (ad_mem A)) (r_program r) /\ p_input p = extract (a_ini (ad_mem A)) (r_input r) /\
    p_output p = extract (a_fin (ad_mem A)) (r_output r) /\
    p_root0 p = root (hash_of h) (present (a_ini (ad_mem A))) /\ p_root1 p = root (hash_of h) (present (a_fin (ad_mem A))).
Proof.
  intros Hh He Hb Ha Hs Hq Hne Hl Hpl Hr Hcode Hk0 (b & Hb1 & Hb2 & Hb3).
  assert (Hlen : Z.of_nat (length ev) < P) by lia.
  assert (Hprint : Forall (fun e => is_print (ev_instr e) = false) ev).
  { eapply Forall_impl; [|exact (pl_instr _ _ _ Hpl)]. intros e. cbv beta. destruct (ev_instr e); intros K; try reflexivity; discriminate K. }
  pose proof (log_entries f s ev f' s' He Hs Hq Hcode) as Hent.
  assert (Hini : forall a v, ini_of i0 a = Some v -> entry_ok (a, v)).
  { intros a v E. split; [|cbn [snd]; rewrite (Ha a v E); apply Hq]. cbn [fst]. rewrite Forall_forall in Hk0. apply Hk0.
    unfold ini_of in E. destruct (hget i0 a) as [[[w c] k]|] eqn:Eh; [|discriminate]. apply hget_in in Eh. exact (in_map fst _ _ Eh). }
  destruct (import_run i0 r f s ev f' s' He Hprint Hb Hlen) as (m & Eimp & Hinv & Htr & Hcu & Hfl).
  pose proof (import_sane i0 r ev m Hinv Htr Hcu Hb Hlen Hent Hini) as Hsane.
  pose proof (import_balanced r m _ Hr Hinv Hfl) as Hperm.
  set (M := update_multiplicities r m) in *. set (bs := expected (ini_of i0) [] 1 ev) in *.
  (* sizes *)
  assert (Hb4 : last_at (rev (timeline 1 ev)) b = None).
  { apply last_at_none. intros Hin. apply in_map_iff in Hin. destruct Hin as ([[b' v] c] & E & Hin). cbn [fst] in E. subst b'.
    apply in_rev in Hin. destruct (timeline_in ev 1 b v c Hin) as (_ & e & Hie & Hil). apply (Hb3 e Hie). exact (in_map fst _ _ Hil). }
  assert (Hb0 : hget i0 b = None) by (apply hget_none; exact Hb2).
  destruct (view_update r m) as [V1 V2]. fold M in V1, V2.
  assert (Hv1 : hget (a_ini M) b = None).
  { specialize (V1 b). unfold view in V1. destruct Htr as [_ Ti]. rewrite Ti, Hb4, Hb0 in V1. destruct (hget (a_ini M) b) as [[[? ?] ?]|]; [discriminate V1|reflexivity]. }
  assert (Hv2 : hget (a_fin M) b = None).
  { specialize (V2 b). unfold view in V2. destruct Htr as [Tf _]. rewrite Tf, Hb4, Hb0 in V2. destruct (hget (a_fin M) b) as [[[? ?] ?]|]; [discriminate V2|reflexivity]. }
  assert (L0 : Z.of_nat (length (a_ini M)) < 268435456) by (eapply room_size; [apply Hsane|apply Hsane|exact Hb1|apply hget_none, Hv1]).
  assert (L1 : Z.of_nat (length (a_fin M)) < 268435456) by (eapply room_size; [apply Hsane|apply Hsane|exact Hb1|apply hget_none, Hv2]).
  assert (Hne0 : a_ini M <> [] /\ a_fin M <> []).
  { destruct ev as [|e ev0] eqn:Eev; [congruence|]. pose proof (eruns_code _ _ _ _ _ He) as Hc. inversion Hc as [|? ? C1 _]; subst.
    destruct (code_addrs_pos (pc (ev_state e)) (ev_instr e)) as (tl & Ec). unfold ev_code in C1. rewrite Ec in C1.
    specialize (C1 (pc (ev_state e)) (or_introl eq_refl)). set (a := pc (ev_state e)) in *.
    assert (Hla : last_at (rev (timeline 1 (e :: ev0))) a <> None).
    { intros E. apply last_at_none in E. apply E. apply in_map_iff in C1. destruct C1 as ([a' v] & Ea & Hi). cbn [fst] in Ea. subst a'.
      apply in_map_iff. exists (a, v, 1). split; [reflexivity|]. apply in_rev. rewrite rev_involutive. cbn [timeline]. apply in_or_app. left.
      unfold at_clock. apply in_map_iff. exists (a, v). auto. }
    destruct Htr as [Tf Ti]. specialize (Tf a). specialize (Ti a). specialize (V1 a). specialize (V2 a). unfold view in V1, V2. rewrite Ti in V1. rewrite Tf in V2.
    destruct (last_at (rev (timeline 1 (e :: ev0))) a) as [[u cc]|]; [|congruence].
    split; intros E; [rewrite E in V1; discriminate V1|rewrite E in V2; discriminate V2]. }
  destruct Hne0 as [Ne0 Ne1].
  (* trees *)
  assert (Hhash : forall x y, wf (hash_of h x y)) by (intros x y; apply Hh).
  assert (Ak0 : Forall addr_ok (keys (a_ini M))). { apply Forall_forall. intros a Hi. apply in_map_iff in Hi. destruct Hi as (x & <- & Hx). pose proof (sa_ini M Hsane) as K. rewrite Forall_forall in K. apply K, Hx. }
  assert (Ak1 : Forall addr_ok (keys (a_fin M))). { apply Forall_forall. intros a Hi. apply in_map_iff in Hi. destruct Hi as (x & <- & Hx). pose proof (sa_fin M Hsane) as K. rewrite Forall_forall in K. apply K, Hx. }
  destruct (build_tree_root (hash_of h) TInitial r (a_ini M) Ne0 (sa_ini_nodup M Hsane) Ak0 L0) as (ns0 & T0 & _).
  destruct (build_tree_root (hash_of h) TFinal r (a_fin M) Ne1 (sa_fin_nodup M Hsane) Ak1 L1) as (ns1 & T1 & _).
  pose proof (root_wf (hash_of h) (present (a_ini M)) Hhash) as R0. pose proof (root_wf (hash_of h) (present (a_fin M)) Hhash) as R1.
  set (root0 := root (hash_of h) (present (a_ini M))) in *. set (root1 := root (hash_of h) (present (a_fin M))) in *.
  assert (Q0 : Forall (fun x : Z * cellv => qwf (fst (fst (snd x)))) (a_ini M)) by (eapply Forall_impl; [|exact (sa_ini M Hsane)]; intros x Hx; apply Hx).
  assert (Q1 : Forall (fun x : Z * cellv => qwf (fst (fst (snd x)))) (a_fin M)) by (eapply Forall_impl; [|exact (sa_fin M Hsane)]; intros x Hx; apply Hx).
  pose proof (tree_nodes (hash_of h) Hhash TInitial r (a_ini M) ns0 root0 Ne0 (sa_ini_nodup M Hsane) Ak0 Q0 L0 T0) as N0.
  pose proof (tree_nodes (hash_of h) Hhash TFinal r (a_fin M) ns1 root1 Ne1 (sa_fin_nodup M Hsane) Ak1 Q1 L1 T1) as N1.
  (* rows of the run *)
  pose proof (run_rows (ini_of i0) f s ev f' s' He Ha Hs Hq Hl Hpl) as Hrows. rewrite Forall_forall in Hrows.
  assert (Hbs : forall b, In b bs -> exists x, In x (hsteps (ini_of i0) [] 1 ev s') /\ b = bundle_for x).
  { intros b0 Hb0'. unfold bs in Hb0'. rewrite <- (hsteps_bundles (ini_of i0) ev s' [] 1) in Hb0'. apply in_map_iff in Hb0'. destruct Hb0' as (x & <- & Hx). exists x. auto. }
  assert (Hlog : logged bs).
  { apply Forall_forall. intros b0 Hi. destruct (Hbs b0 Hi) as (x & Hx & ->). destruct (Hrows x Hx) as (c & E & F & G). exists c. split; [exact E|]. split; [apply F|exact G]. }
  destruct (tables_ok bs Hlog) as (tab & Etab & Htab & Hbal).
  assert (Hlb : length bs = length ev) by apply expected_length.
  (* the proof *)
  eexists. eexists. split; [exact Eimp|]. split.
  { unfold prove. cbn [ad_mem ad_bundles ad_first ad_last]. fold M bs. rewrite T0, T1, Etab. reflexivity. }
  match goal with |- (accepted h ?p <-> _) /\ _ => set (p0 := p) end.
  assert (Ecl : p_clock p0 = Z.of_nat (length ev)).
  { unfold p0. cbn [p_clock]. rewrite Hlb. unfold mfrom. apply Z.mod_small. lia. }
  split.
  2:{ split; [reflexivity|]. split; [reflexivity|]. split; [exact Ecl|]. repeat split; reflexivity. }
  assert (WP1 : wf (P - 1)) by (split; reflexivity || discriminate).
  assert (Hmem : forall t, total t (mem_side p0) mod P =
    (zcount t (emitted r M (moves (ini_of i0) [] (timeline 1 ev))) - zcount t (taken r M (moves (ini_of i0) [] (timeline 1 ev)))) mod P).
  { intros t0. apply (mem_side_total r M (moves (ini_of i0) [] (timeline 1 ev)) bs p0 root0 root1 t0 Hsane); try reflexivity.
    intros t. rewrite <- (steps_mem t (ini_of i0) s' ev [] 1).
    unfold op_tuples, p0. cbn [p_ops]. apply total_steps; [right; reflexivity|]. apply Forall_forall. intros x Hx. destruct (Hrows x Hx) as (c & E & F & _).
    exists c. split; [exact E|]. apply (fa_mem _ _ _ _ _ _ F). }
  split.
  { intros Hac. destruct (Forall_dec calm calm_dec (moves (ini_of i0) [] (timeline 1 ev))) as [Hc|Hc]; [exact Hc|]. exfalso.
    destruct (import_unbalanced r m (ini_of i0) (timeline 1 ev) Hr Hinv) as (t & Ht); try assumption.
    { apply (ascending_weaken 1); [|apply ascending_timeline; lia]. lia. }
    pose proof (ac_mem_bal h p0 Hac t) as K. rewrite Hmem in K. change (zcount t (emitted r M (moves (ini_of i0) [] (timeline 1 ev)))) with (zc (emitted r M (moves (ini_of i0) [] (timeline 1 ev))) t) in K.
    change (zcount t (taken r M (moves (ini_of i0) [] (timeline 1 ev)))) with (zc (taken r M (moves (ini_of i0) [] (timeline 1 ev))) t) in K.
    unfold zc in *. fold M in Ht. match type of K with ?x mod P = 0 => replace x with 1 in K by lia end. discriminate K. }
  intros Hcalm. specialize (Hperm Hcalm). split.
  - unfold p0. cbn [p_ops]. apply op_rows_ok. intros b0 Hi. destruct (Hbs b0 Hi) as (x & Hx & ->). destruct (Hrows x Hx) as (c & E & F & _).
    exists c. split; [exact E|]. split; [apply F|]. split; apply F.
  - unfold p0. cbn [p_cus]. apply cu_rows_ok, Hsane.
  - unfold p0. cbn [p_mem]. apply padded_all.
    + apply Forall_app. split; [eapply mem_cells_ok; [apply (sa_ini M Hsane)|apply wf1|exact R0]|eapply mem_cells_ok; [apply (sa_fin M Hsane)|exact WP1|exact R1]].
    + split; [reflexivity|]. split; [apply zero_wf|]. repeat apply Forall_cons; try apply Forall_nil; reflexivity.
  - unfold p0. cbn [p_merkle]. apply padded_all.
    + apply Forall_app. split; apply Forall_forall; intros row Hrow; apply in_map_iff in Hrow; destruct Hrow as (n & <- & Hn).
      * rewrite Forall_forall in N0. eapply node_row_ok; [apply N0, Hn|exact R0].
      * rewrite Forall_forall in N1. eapply node_row_ok; [apply N1, Hn|exact R1].
    + split; [reflexivity|]. split; [apply zero_wf|]. repeat apply Forall_cons; try apply Forall_nil; reflexivity.
  - unfold p0. cbn [p_hash]. apply Forall_forall. intros x Hx. apply in_map_iff in Hx. destruct Hx as (n & <- & Hn). cbn [fst snd].
    split; [reflexivity|]. split; [|reflexivity].
    assert (K : node_sane (hash_of h) n) by (apply in_app_or in Hn; rewrite Forall_forall in N0, N1; destruct Hn; auto).
    destruct K as (_ & _ & (K1 & _) & (K2 & _) & _). unfold hash_input.
    change (pad 16 [mv_value (nd_left n); mv_value (nd_right n)]) with ([mv_value (nd_left n); mv_value (nd_right n)] ++ repeat 0 14).
    apply Forall_app. split; [|apply zero_wf]. apply Forall_cons; [exact K1|]. apply Forall_cons; [exact K2|apply Forall_nil].
  - unfold p0. cbn [p_program p_input p_output]. rewrite !Forall_app.
    assert (K : forall l, Forall pub_sane l -> Forall (fun x : pub => let '(a, v, c) := x in wf a /\ qwf v /\ wf c) l).
    { intros l H. eapply Forall_impl; [|exact H]. intros [[a v] c] (A & B & C). split; [apply addr_wf, A|]. split; assumption. }
    split; [|split]; apply K; eapply extract_sane; apply Hsane.
  - exact Htab.
  - intros t. unfold reg_side. cbn [total]. 
    assert (Et : total t (op_tuples Registers p0) = total t (flat_map (fun x => reg_tuples (hs_clk x) (hs_s x) (hs_t x)) (hsteps (ini_of i0) [] 1 ev s'))).
    { unfold op_tuples, p0. cbn [p_ops]. apply total_steps; [left; reflexivity|]. apply Forall_forall. intros x Hx. destruct (Hrows x Hx) as (c & E & F & _).
      exists c. split; [exact E|]. rewrite (fa_reg _ _ _ _ _ _ F). apply Permutation_refl. }
    rewrite Et, Ecl. pose proof (steps_regs t (ini_of i0) s' ev [] 1 ltac:(lia) ltac:(lia)) as K. cbv zeta in K.
    rewrite (eruns_start _ _ _ _ _ He) in K. unfold p0. cbn [p_start p_end].
    rewrite (Z.mod_small (Z.of_nat (length ev) + 1)) by lia. rewrite (Z.add_comm (Z.of_nat (length ev)) 1).
    unfold is_tuple in K. set (X := if dec [pc s; fp s; 1] t then 1 else 0) in *. set (T := total t (flat_map (fun x => reg_tuples (hs_clk x) (hs_s x) (hs_t x)) _)) in *. set (d := dec [pc s'; _; _] t) in *.
    replace (if d then P - 1 else 0) with ((P - 1) * (if d then 1 else 0)) by (destruct d; ring).
    clear Et.
    set (Y := if d then 1 else 0) in *. clearbody X T Y.
    apply (f_equal (fun z => (z - Y) mod P)) in K. rewrite !Zminus_mod_idemp_l in K.
    replace (Y - Y) with 0 in K by ring. change (0 mod P) with 0 in K. rewrite <- K.
    replace (X + ((P - 1) * Y + T)) with (T + X - Y + Y * P) by ring. apply Z_mod_plus_full.
  - intros t. rewrite Hmem. apply (zcount_perm t) in Hperm. fold M in Hperm. rewrite Hperm, Z.sub_diag. reflexivity.
  - intros t. unfold merkle_side, p0. cbn [p_root0 p_root1 p_program p_input p_output p_mem p_merkle].
    destruct Hr as [Hw Hnd]. rewrite !Forall_app in Hw. destruct Hw as (W1 & W2 & W3).
    assert (D0 : NoDup (listed TInitial r)) by (cbn [listed]; rewrite app_assoc in Hnd; apply (NoDup_app_l _ _ Hnd)).
    assert (D1 : NoDup (listed TFinal r)) by (apply ranged_nodup).
    pose proof (tree_balanced (hash_of h) TInitial r 1 (a_ini M) ns0 root0 t Hhash Ne0 (sa_ini_nodup M Hsane) (sa_ini M Hsane) L0 T0 R0 D0) as B0.
    pose proof (tree_balanced (hash_of h) TFinal r (P - 1) (a_fin M) ns1 root1 t Hhash Ne1 (sa_fin_nodup M Hsane) (sa_fin M Hsane) L1 T1 R1 D1) as B1.
    cbn [listed] in B0, B1. rewrite zsum_app in B0.
    unfold mem_rows, merkle_rows. rewrite !total_app, !total_padded by (apply tzero; repeat constructor).
    rewrite !flat_map_app, !total_app. rewrite (extract_leaves t 1 root0 (a_ini M) (r_program r) (sa_ini M Hsane) W1).
    rewrite (extract_leaves t 1 root0 (a_ini M) (r_input r) (sa_ini M Hsane) W2), (extract_leaves t (P - 1) root1 (a_fin M) (r_output r) (sa_fin M Hsane) W3).
    change (total t [(1, [0; 0; root0; root0]); (1, [0; 0; root1; root1])]) with (total t ([(1, [0; 0; root0; root0])] ++ [(1, [0; 0; root1; root1])])).
    rewrite total_app.
    match type of B0 with ?x mod P = 0 => match type of B1 with ?y mod P = 0 => match goal with |- ?z mod P = 0 => replace z with (x + y) by ring end end end.
    rewrite Zplus_mod, B0, B1. reflexivity.
  - intros t. unfold hash_side, p0. cbn [p_merkle p_hash].
    pose proof (nodes_hash_balanced h root0 ns0 t N0) as B0. pose proof (nodes_hash_balanced h root1 ns1 t N1) as B1.
    unfold merkle_rows. rewrite total_app, total_padded by (apply tzero; repeat constructor).
    rewrite map_app, !flat_map_app, !total_app.
    match type of B0 with ?x mod P = 0 => match type of B1 with ?y mod P = 0 => match goal with |- ?z mod P = 0 => replace z with (x + y) by ring end end end.
    rewrite Zplus_mod, B0, B1. reflexivity.
  - intros rr Hrr. unfold lookup_side, op_tuples, p0. cbn [p_ops p_tab]. rewrite (ops_looked_up rr bs Hrr Hlog). apply Hbal, Hrr.
Qed.
