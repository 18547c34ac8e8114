(** Clock gaps, contents, and the segments of a VM run. *)
From Coq Require Import ZArith Bool List Lia Permutation.
From Verif Require Import M31 M31Facts Instr InstrFacts VmMem VmMemFacts Vm Abi Isa IsaFacts Machine VmFacts RunFacts VmPropFacts AirChain AirMem Adapter AdapterSpec AdapterFacts AdapterRun.
Import ListNotations.
Open Scope Z_scope.

(** *** Clock gaps *)
Lemma gap_range x : 0 <= mv_from x -> mv_from x <= mv_clk x ->
  (0 <= clock_gap x < 1048576 <->
   mv_from x < mv_clk x /\ ~ (GAP < mv_clk x - mv_from x /\ (mv_clk x - mv_from x) mod GAP = 0)).
Proof.
  intros H0 H1. unfold clock_gap, mv_start, bridges.
  destruct (Z.ltb_spec GAP (mv_clk x - mv_from x)) as [Hg|Hg].
  - pose proof (Z.div_mod (mv_clk x - mv_from x) GAP ltac:(unfold GAP; lia)) as E.
    pose proof (Z.mod_pos_bound (mv_clk x - mv_from x) GAP ltac:(unfold GAP; lia)) as B.
    set (q := (mv_clk x - mv_from x) / GAP) in *. set (u := (mv_clk x - mv_from x) mod GAP) in *.
    clearbody q u. unfold GAP in *. lia.
  - unfold GAP in *. lia.
Qed.
Lemma gap_bad x : 0 <= mv_from x -> mv_from x <= mv_clk x -> ~ (0 <= clock_gap x < 1048576) -> clock_gap x = -1.
Proof.
  intros H0 H1. unfold clock_gap, mv_start, bridges.
  destruct (Z.ltb_spec GAP (mv_clk x - mv_from x)) as [Hg|Hg].
  - pose proof (Z.div_mod (mv_clk x - mv_from x) GAP ltac:(unfold GAP; lia)) as E.
    pose proof (Z.mod_pos_bound (mv_clk x - mv_from x) GAP ltac:(unfold GAP; lia)) as B.
    set (q := (mv_clk x - mv_from x) / GAP) in *. set (u := (mv_clk x - mv_from x) mod GAP) in *.
    clearbody q u. unfold GAP in *. lia.
  - unfold GAP in *. lia.
Qed.
(** The clock at which a move starts is that of the latest earlier access. *)
Lemma move_order ini l : forall h now, ascending now l -> (forall a v c, last_at h a = Some (v, c) -> 0 <= c <= now) -> 0 <= now ->
  forall x, In x (moves ini h l) -> 0 <= mv_from x <= mv_clk x.
Proof.
  induction l as [|[[b w] k] l IH]; intros h now Ha Hh Hn x Hx; [destruct Hx|].
  destruct Ha as (A & B & C). cbn [snd] in *. destruct Hx as [<-|Hx].
  - unfold move_of, mv_from, mv_clk. destruct (last_at h b) as [[v c]|] eqn:E; [|lia]. specialize (Hh _ _ _ E). lia.
  - apply (IH ((b, w, k) :: h) k C); try assumption; [|lia].
    intros a v c. cbn [last_at]. destruct (b =? a); intros E; [injection E as <- <-; lia|]. specialize (Hh _ _ _ E). lia.
Qed.
Lemma at_clock_clk k l x ini h : In x (moves ini h (at_clock k l)) -> mv_clk x = k.
Proof.
  revert h. induction l as [|[a v] l IH]; intros h Hx; [destruct Hx|].
  destruct Hx as [<-|Hx]; [reflexivity|eapply IH; exact Hx].
Qed.
Lemma last_at_app h h' a : last_at (h ++ h') a = match last_at h a with Some x => Some x | None => last_at h' a end.
Proof. induction h as [|[[b v] c] h IH]; [reflexivity|]. cbn [app last_at]. destruct (b =? a); [reflexivity|exact IH]. Qed.
Lemma last_at_in h a v c : last_at h a = Some (v, c) -> In (a, v, c) h.
Proof.
  induction h as [|[[b w] k] h IH]; cbn [last_at]; [discriminate|].
  destruct (Z.eqb_spec b a) as [->|]; intros E; [injection E as -> ->; left; reflexivity|right; auto].
Qed.
Lemma last_at_none h a : last_at h a = None <-> ~ In a (map (fun x => fst (fst x)) h).
Proof.
  induction h as [|[[b w] k] h IH]; cbn [last_at map In fst]; [tauto|].
  destruct (Z.eqb_spec b a) as [->|Hn]; [split; [discriminate|]; intros H; elim H; left; reflexivity|].
  rewrite IH. tauto.
Qed.

(** Inside one instruction: no cell twice, so every move starts strictly earlier. *)
Lemma step_moves_strict ini k l : forall h, NoDup (map fst l) ->
  (forall a v c, In a (map fst l) -> last_at h a = Some (v, c) -> c < k) -> 0 < k ->
  forall x, In x (moves ini h (at_clock k l)) -> mv_from x < k.
Proof.
  induction l as [|[a v] l IH]; intros h Hn Hh Hk x Hx; [destruct Hx|].
  cbn [map fst] in *. inversion Hn as [|? ? Hni Hn']; subst. cbn [at_clock map fst snd moves] in Hx.
  destruct Hx as [<-|Hx].
  - unfold move_of, mv_from. destruct (last_at h a) as [[w c]|] eqn:E; [|lia]. eapply Hh; [left; reflexivity|exact E].
  - eapply IH; [exact Hn'| |exact Hk|exact Hx].
    intros b w c Hb E. cbn [last_at] in E. destruct (Z.eqb_spec a b) as [->|]; [contradiction|].
    eapply Hh; [right; exact Hb|exact E].
Qed.
Definition hist_before (k : Z) (h : list timed) : Prop := forall a v c, last_at h a = Some (v, c) -> 0 <= c < k.
Lemma hist_step k l h : hist_before k h -> 0 <= k -> hist_before (k + 1) (rev (at_clock k l) ++ h).
Proof.
  intros Hh Hk a v c E. rewrite last_at_app in E.
  destruct (last_at (rev (at_clock k l)) a) as [[w d]|] eqn:E1.
  - injection E as -> ->. apply last_at_in in E1. apply in_rev in E1. unfold at_clock in E1. apply in_map_iff in E1.
    destruct E1 as (y & Ey & _). injection Ey as _ _ <-. lia.
  - specialize (Hh _ _ _ E). lia.
Qed.
Lemma timeline_strict ini ev : forall k h, hist_before k h -> 0 < k ->
  Forall (fun e => NoDup (map fst (ev_log e))) ev ->
  forall x, In x (moves ini h (timeline k ev)) -> mv_from x < mv_clk x.
Proof.
  induction ev as [|e ev IH]; intros k h Hh Hk Hn x Hx; [destruct Hx|].
  inversion Hn as [|? ? Hn1 Hn2]; subst. cbn [timeline] in Hx. rewrite moves_app in Hx. apply in_app_or in Hx.
  destruct Hx as [Hx|Hx].
  - rewrite (at_clock_clk _ _ _ _ _ Hx). eapply step_moves_strict; [exact Hn1| |exact Hk|exact Hx].
    intros a v c _ E. apply (Hh _ _ _ E).
  - eapply IH; [apply hist_step; [exact Hh|lia]|lia|exact Hn2|exact Hx].
Qed.
Lemma timeline_order ini ev : Z.of_nat (length ev) < P ->
  forall x, In x (moves ini [] (timeline 1 ev)) -> 0 <= mv_from x <= mv_clk x.
Proof.
  intros Hl. apply (move_order ini (timeline 1 ev) [] 1); [|discriminate|lia]. apply ascending_timeline; lia.
Qed.
(** A cell accessed twice by one instruction gives a move that starts at its own clock. *)
Lemma step_moves_twice ini k l : forall h, ~ NoDup (map fst l) ->
  exists x, In x (moves ini h (at_clock k l)) /\ mv_from x = k /\ mv_clk x = k.
Proof.
  assert (Hin : forall l h a v, last_at h a = Some (v, k) -> In a (map fst l) ->
    exists x, In x (moves ini h (at_clock k l)) /\ mv_from x = k /\ mv_clk x = k).
  { clear. induction l as [|[b w] l IH]; intros h a v E Hin; [destruct Hin|]. cbn [at_clock map fst snd moves In] in *.
    destruct (Z.eq_dec b a) as [->|Hn].
    - exists (move_of ini h (a, w, k)). split; [left; reflexivity|]. unfold move_of, mv_from. rewrite E. split; reflexivity.
    - destruct Hin as [|Hin]; [contradiction|]. destruct (IH ((b, w, k) :: h) a v) as (x & Hx & H1 & H2); [|exact Hin|].
      + cbn [last_at]. rewrite (proj2 (Z.eqb_neq b a)) by exact Hn. exact E.
      + exists x. split; [right; exact Hx|]. split; assumption. }
  induction l as [|[a v] l IH]; intros h Hn; [elim Hn; constructor|]. cbn [at_clock map fst snd moves In] in *.
  destruct (in_dec Z.eq_dec a (map fst l)) as [Hi|Hi].
  - destruct (Hin l ((a, v, k) :: h) a v) as (x & Hx & H1 & H2); [cbn [last_at]; rewrite Z.eqb_refl; reflexivity|exact Hi|].
    exists x. split; [right; exact Hx|]. split; assumption.
  - destruct (IH ((a, v, k) :: h)) as (x & Hx & H1 & H2).
    + intros K. apply Hn. constructor; assumption.
    + exists x. split; [right; exact Hx|]. split; assumption.
Qed.
Lemma timeline_twice ini ev : forall k h e, In e ev -> ~ NoDup (map fst (ev_log e)) ->
  exists x, In x (moves ini h (timeline k ev)) /\ mv_from x = mv_clk x.
Proof.
  induction ev as [|e0 ev IH]; intros k h e He Hn; [destruct He|]. cbn [timeline]. rewrite moves_app.
  destruct He as [<-|He].
  - destruct (step_moves_twice ini k (ev_log e0) h Hn) as (x & Hx & H1 & H2).
    exists x. split; [apply in_or_app; left; exact Hx|]. congruence.
  - destruct (IH (k + 1) (rev (at_clock k (ev_log e0)) ++ h) e He Hn) as (x & Hx & H1).
    exists x. split; [apply in_or_app; right; exact Hx|exact H1].
Qed.

(** *** Contents *)
Definition agrees (ini : Z -> option qm31) (f : flat) : Prop := forall a v, ini a = Some v -> v = f a.
(** The history tells the flat memory's contents. *)
Definition tells (ini : Z -> option qm31) (h : list timed) (g : flat) : Prop :=
  forall a, match last_at h a with
            | Some (v, _) => v = g a
            | None => forall v, ini a = Some v -> v = g a end.
Lemma tells_snoc ini h g a v k : tells ini h g -> tells ini ((a, v, k) :: h) (fun b => if b =? a then v else g b).
Proof.
  intros H b. cbn [last_at]. rewrite (Z.eqb_sym a b). destruct (b =? a); [reflexivity|]. apply H.
Qed.
Lemma tells_ext ini h g g' : (forall a, g' a = g a) -> tells ini h g -> tells ini h g'.
Proof. intros E H a. rewrite E. apply H. Qed.
Lemma tells_log ini k l : forall h g, tells ini h g -> tells ini (rev (at_clock k l) ++ h) (upds g l).
Proof.
  induction l as [|[a v] l IH]; intros h g H; [exact H|]. cbn [at_clock map fst snd rev upds]. rewrite <- app_assoc.
  apply IH. apply tells_snoc. exact H.
Qed.
Lemma tells_run ini f s ev f' s' : eruns f s ev f' s' -> forall k h, tells ini h f -> tells ini (rev (timeline k ev) ++ h) f'.
Proof.
  induction 1 as [f f' s H|f s i f1 s1 lg ev f2 s2 H1 H2 IH]; intros k h Ht.
  - cbn [timeline rev app]. eapply tells_ext; [|exact Ht]. exact H.
  - cbn [timeline ev_log snd]. rewrite rev_app_distr, <- app_assoc. apply IH.
    eapply tells_ext; [|apply tells_log; exact Ht]. intros a. symmetry. eapply fstep_replay. exact H1.
Qed.
(** Reading accesses leave the content alone. *)
Lemma reads_keep ini k as_ : forall h g, tells ini h g ->
  Forall (fun x => mv_old x = g (mv_addr x) /\ mv_new x = g (mv_addr x)) (moves ini h (at_clock k (seen g as_))) /\
  tells ini (rev (at_clock k (seen g as_)) ++ h) g.
Proof.
  induction as_ as [|a as_ IH]; intros h g H; [split; [constructor|exact H]|].
  cbn [seen at_clock map fst snd moves rev]. rewrite <- app_assoc.
  destruct (IH ((a, g a, k) :: h) g) as [A B].
  - eapply tells_ext; [|apply tells_snoc; exact H]. intros b. cbn beta. destruct (Z.eqb_spec b a) as [->|]; reflexivity.
  - split; [|exact B]. constructor; [|exact A]. cbn [move_of mv_old mv_new mv_addr]. split; [|reflexivity].
    specialize (H a). destruct (last_at h a) as [[v c]|]; [exact H|].
    destruct (ini a) as [v|]; cbn [or_else]; [|reflexivity]. apply H. reflexivity.
Qed.

(** *** Segments *)
Lemma hget_locals l n : forall k a,
  hget (map (fun j => (Z.of_nat j, match znth l (Z.of_nat j) with Some q => (q, 0, 0) | None => (qzero, 0, 0) end)) (seq k n)) a =
  if (Z.of_nat k <=? a) && (a <? Z.of_nat (k + n)) then Some (match znth l a with Some q => (q, 0, 0) | None => (qzero, 0, 0) end) else None.
Proof.
  induction n as [|n IH]; intros k a.
  - cbn [seq map hget]. rewrite Nat.add_0_r. destruct (Z.leb_spec (Z.of_nat k) a), (Z.ltb_spec a (Z.of_nat k)); try reflexivity. lia.
  - cbn [seq map hget]. rewrite IH. destruct (Z.eqb_spec (Z.of_nat k) a) as [<-|Hn].
    + rewrite (proj2 (Z.leb_le (Z.of_nat k) (Z.of_nat k))), (proj2 (Z.ltb_lt (Z.of_nat k) _)) by lia. reflexivity.
    + replace (S k + n)%nat with (k + S n)%nat by lia.
      destruct (Z.leb_spec (Z.of_nat (S k)) a), (Z.leb_spec (Z.of_nat k) a); try lia; reflexivity.
Qed.
Lemma nodup_locals (F : nat -> cellv) n : forall k, NoDup (keys (map (fun j => (Z.of_nat j, F j)) (seq k n))).
Proof.
  intros k. unfold keys. rewrite map_map. cbn [fst]. apply FinFun.Injective_map_NoDup; [|apply seq_NoDup].
  intros x y. apply Nat2Z.inj.
Qed.
Lemma hget_heap he n : forall k l a, (k + n <= length he)%nat -> Z.of_nat (k + n) <= MAX_ADDRESS + 1 ->
  hget (fold_left (fun l j => match znth he (Z.of_nat j) with
      | Some q => hset l (mfrom (MAX_ADDRESS - Z.of_nat j)) (q, 0, 0) | None => l end) (seq k n) l) a =
  if (Z.of_nat k <=? MAX_ADDRESS - a) && (MAX_ADDRESS - a <? Z.of_nat (k + n))
  then match znth he (MAX_ADDRESS - a) with Some q => Some (q, 0, 0) | None => hget l a end else hget l a.
Proof.
  induction n as [|n IH]; intros k l a H1 H2.
  - cbn [seq fold_left]. rewrite Nat.add_0_r. destruct (Z.leb_spec (Z.of_nat k) (MAX_ADDRESS - a)), (Z.ltb_spec (MAX_ADDRESS - a) (Z.of_nat k)); try reflexivity. lia.
  - cbn [seq fold_left]. rewrite IH by lia.
    destruct (znth_in he (Z.of_nat k)) as [q Hq]; [unfold zlen; lia|]. rewrite Hq.
    assert (Ek : mfrom (MAX_ADDRESS - Z.of_nat k) = MAX_ADDRESS - Z.of_nat k).
    { unfold mfrom. apply Z.mod_small. unfold MAX_ADDRESS, P in *. lia. }
    rewrite Ek. rewrite hget_hset. replace (S k + n)%nat with (k + S n)%nat by lia.
    destruct (Z.eqb_spec a (MAX_ADDRESS - Z.of_nat k)) as [->|Hn].
    + replace (MAX_ADDRESS - (MAX_ADDRESS - Z.of_nat k)) with (Z.of_nat k) by ring. rewrite Hq.
      rewrite (proj2 (Z.leb_le (Z.of_nat k) (Z.of_nat k))), (proj2 (Z.ltb_lt (Z.of_nat k) _)) by lia.
      destruct ((Z.of_nat (S k) <=? Z.of_nat k) && true); reflexivity.
    + destruct (Z.leb_spec (Z.of_nat (S k)) (MAX_ADDRESS - a)), (Z.leb_spec (Z.of_nat k) (MAX_ADDRESS - a)); try lia; reflexivity.
Qed.
Lemma fold_heap_nodup he l : forall m : amap, NoDup (keys m) -> NoDup (keys (fold_left (fun l j => match znth he (Z.of_nat j) with
      | Some q => hset l (mfrom (MAX_ADDRESS - Z.of_nat j)) (q, 0, 0) | None => l end) l m)).
Proof.
  induction l as [|j l IH]; intros m H; [exact H|]. cbn [fold_left]. apply IH.
  destruct (znth he (Z.of_nat j)); [apply hset_nodup|]; exact H.
Qed.
Definition seg_fits (sg : segment) : Prop := zlen (seg_locals sg) + zlen (seg_heap sg) <= MAX_ADDRESS + 1.
Lemma seg_map_get sg a : seg_fits sg ->
  hget (seg_map sg) a = match seg_initial sg a with Some q => Some (q, 0, 0) | None => None end.
Proof.
  unfold seg_fits, seg_map, seg_initial. intros H. pose proof (zlen_nonneg (seg_locals sg)). pose proof (zlen_nonneg (seg_heap sg)).
  rewrite hget_heap by (cbn [Nat.add]; unfold zlen in *; lia). rewrite hget_locals. cbn [Nat.add Z.of_nat].
  assert (Hloc : forall x, (if (0 <=? a) && (a <? Z.of_nat (length (seg_locals sg)))
      then Some (match znth (seg_locals sg) a with Some q => (q, 0, 0) | None => (qzero, 0, 0) end) else x) =
      match znth (seg_locals sg) a with Some q => Some (q, 0, 0) | None => x end).
  { intros x. destruct (Z.leb_spec 0 a), (Z.ltb_spec a (Z.of_nat (length (seg_locals sg)))); cbn [andb].
    - destruct (znth_in (seg_locals sg) a) as [q Hq]; [unfold zlen; lia|]. rewrite Hq. reflexivity.
    - rewrite znth_out by (unfold zlen; lia). reflexivity.
    - rewrite znth_out by (unfold zlen; lia). reflexivity.
    - rewrite znth_out by (unfold zlen; lia). reflexivity. }
  rewrite Hloc.
  destruct (Z.leb_spec 0 (MAX_ADDRESS - a)), (Z.ltb_spec (MAX_ADDRESS - a) (Z.of_nat (length (seg_heap sg)))); cbn [andb].
  - destruct (znth (seg_heap sg) (MAX_ADDRESS - a)); [reflexivity|]. destruct (znth (seg_locals sg) a); reflexivity.
  - rewrite (znth_out (seg_heap sg)) by (unfold zlen; lia). destruct (znth (seg_locals sg) a); reflexivity.
  - rewrite (znth_out (seg_heap sg)) by (unfold zlen; lia). destruct (znth (seg_locals sg) a); reflexivity.
  - rewrite (znth_out (seg_heap sg)) by (unfold zlen; lia). destruct (znth (seg_locals sg) a); reflexivity.
Qed.
Lemma seg_map_blank sg : seg_fits sg -> blank (seg_map sg).
Proof.
  intros H. split.
  - unfold seg_map. apply fold_heap_nodup, nodup_locals.
  - intros a v c k. rewrite seg_map_get by exact H. destruct (seg_initial sg a); [|discriminate]. intros E. injection E as _ <- <-. auto.
Qed.
Lemma seg_map_ini sg a : seg_fits sg -> ini_of (seg_map sg) a = seg_initial sg a.
Proof. intros H. unfold ini_of. rewrite seg_map_get by exact H. destruct (seg_initial sg a); reflexivity. Qed.

Lemma seg_loop_fits fuel sfuel k : forall v v', 1 <= k -> fresh v -> Forall seg_fits (v_segs v) ->
  seg_loop fuel sfuel k v = (v', LOk tt) -> Forall seg_fits (v_segs v').
Proof.
  induction fuel as [|fuel IH]; intros v v' Hk Hv Hs; cbn [seg_loop]; [discriminate|].
  pose proof Hv as (Hok & Htr & Hmt & Hil & Hih & Hfin).
  destruct (execute sfuel k v) as [w [[]|e|]] eqn:Ee; try discriminate.
  - intros H. injection H as <-. destruct (execute_ok _ _ _ _ _ Hfin Ee) as (n & u & Hn & Hr & -> & Hkk & Hp).
    destruct (run_to_fruns _ _ _ Hok Hr) as (tr & lg & Hf & Hok' & _ & K1 & K2 & _ & K3 & K4 & K5 & K6).
    cbn [finalize_segment push_trace v_segs]. rewrite K6. apply Forall_app. split; [exact Hs|].
    constructor; [|constructor]. unfold seg_fits. cbn [seg_locals seg_heap v_init_locals v_init_heap push_trace]. cbn [seg_locals seg_heap].
    change (zlen (v_init_locals u) + zlen (v_init_heap u) <= MAX_ADDRESS + 1). rewrite K4, K5, Hil, Hih. apply Hok.
  - destruct (execute_ok _ _ _ _ _ Hfin Ee) as (n & u & Hn & Hr & -> & Hkk & Hp).
    destruct (run_to_fruns _ _ _ Hok Hr) as (tr & lg & Hf & Hok' & _ & K1 & K2 & _ & K3 & K4 & K5 & K6).
    apply IH; [exact Hk| |].
    + apply fresh_next; [exact Hok'|]. cbn [push_trace v_final]. congruence.
    + cbn [finalize_segment push_trace v_segs]. rewrite K6. apply Forall_app. split; [exact Hs|].
      constructor; [|constructor]. unfold seg_fits. cbn [seg_locals seg_heap v_init_locals v_init_heap push_trace]. cbn [seg_locals seg_heap].
      change (zlen (v_init_locals u) + zlen (v_init_heap u) <= MAX_ADDRESS + 1). rewrite K4, K5, Hil, Hih. apply Hok.
Qed.

Lemma chain_in f s segs f' s' : chain f s segs f' s' -> forall sg, In sg segs ->
  exists g t tr lg g' t', (forall a, match seg_initial sg a with Some q => q = g a | None => g a = qzero end) /\
    fruns g t tr lg g' t' /\ seg_trace sg = map fst tr ++ [t'] /\ seg_mtrace sg = acc_log lg.
Proof.
  induction 1 as [f f' s H|f s sg segs tr lg f1 s1 f2 s2 H1 H2 H3 H4 H5 IH]; intros x Hx; [destruct Hx|].
  destruct Hx as [<-|Hx]; [|auto]. exists f, s, tr, lg, f1, s1. auto.
Qed.
Lemma moves_ext ini ini' l : (forall a, ini a = ini' a) -> forall h, moves ini h l = moves ini' h l.
Proof.
  intros E. induction l as [|[[a v] c] l IH]; intros h; [reflexivity|]. cbn [moves]. rewrite IH. f_equal.
  unfold move_of. rewrite E. reflexivity.
Qed.
Lemma expected_ext ini ini' ev : (forall a, ini a = ini' a) -> forall h k, expected ini h k ev = expected ini' h k ev.
Proof.
  intros E. induction ev as [|[[s i] lg] ev IH]; intros h k; [reflexivity|]. cbn [expected]. rewrite IH.
  rewrite (moves_ext ini ini') by exact E. reflexivity.
Qed.
(** Contents after the import. *)
Lemma tracks_views i0 f f' s s' ev m r :
  eruns f s ev f' s' -> tracks i0 (rev (timeline 1 ev)) m -> blank i0 -> agrees (ini_of i0) f ->
  let m' := update_multiplicities r m in
  (forall a, view (a_fin m') a = match last_at (rev (timeline 1 ev)) a with
     | Some (_, c) => Some (f' a, c)
     | None => option_map (fun v => (v, 0)) (ini_of i0 a) end) /\
  (forall a, view (a_ini m') a = option_map (fun v => (v, 0))
     (match ini_of i0 a with Some v => Some v | None => first_at (rev (timeline 1 ev)) a end)) /\
  (forall a v, ini_of i0 a = Some v -> last_at (rev (timeline 1 ev)) a = None -> f' a = v).
Proof.
  intros He [Tf Ti] [_ Hb] Hag m'. destruct (view_update r m) as [V1 V2]. fold m' in V1, V2.
  pose proof (tells_run (ini_of i0) f s ev f' s' He 1 []) as Ht. rewrite app_nil_r in Ht.
  assert (Ht' : tells (ini_of i0) (rev (timeline 1 ev)) f') by (apply Ht; intros a; cbn [last_at]; apply Hag).
  split; [|split].
  - intros a. rewrite V2. unfold view. rewrite Tf. specialize (Ht' a).
    destruct (last_at (rev (timeline 1 ev)) a) as [[v c]|]; [rewrite Ht'; reflexivity|].
    unfold ini_of. destruct (hget i0 a) as [[[v c] k]|] eqn:E; [|reflexivity].
    destruct (Hb _ _ _ _ E) as [-> _]. reflexivity.
  - intros a. rewrite V1. unfold view. rewrite Ti. pose proof (last_first (rev (timeline 1 ev)) a) as Hl.
    unfold ini_of. destruct (hget i0 a) as [[[v c] k]|] eqn:E.
    + destruct (Hb _ _ _ _ E) as [-> _]. destruct (last_at _ a) as [[? ?]|]; reflexivity.
    + destruct (last_at _ a) as [[w d]|].
      * destruct (first_at _ a); [reflexivity|]. destruct Hl as [_ Hl]. discriminate (Hl eq_refl).
      * destruct Hl as [Hl _]. rewrite (Hl eq_refl). reflexivity.
  - intros a v E1 E2. specialize (Ht' a). rewrite E2 in Ht'. symmetry. apply Ht'. exact E1.
Qed.
(** Around one instruction. *)
Lemma eruns_split ev1 : forall f s st i lg ev2 f' s', eruns f s (ev1 ++ (st, i, lg) :: ev2) f' s' ->
  exists g g' t', eruns f s ev1 g st /\ fstep g st i g' t' lg /\ eruns g' t' ev2 f' s'.
Proof.
  induction ev1 as [|e ev1 IH]; intros f s st i lg ev2 f' s' H; cbn [app] in H.
  - inversion H as [|? ? ? f1 s1 ? ? ? ? H1 H2]; subst. exists f, f1, s1. split; [constructor; reflexivity|]. auto.
  - inversion H as [|? ? j f1 s1 lg1 ? ? ? H1 H2]; subst. destruct (IH _ _ _ _ _ _ _ _ H2) as (g & g' & t' & A & B & C).
    exists g, g', t'. split; [econstructor; eassumption|]. auto.
Qed.

Lemma expected_length ini ev : forall h k, length (expected ini h k ev) = length ev.
Proof. induction ev as [|[[s i] lg] ev IH]; intros h k; [reflexivity|]. cbn [expected length]. rewrite IH. reflexivity. Qed.
Lemma moves_addr ini l : forall h, map mv_addr (moves ini h l) = map (fun x => fst (fst x)) l.
Proof. induction l as [|[[a v] c] l IH]; intros h; [reflexivity|]. cbn [moves map]. rewrite IH. reflexivity. Qed.
Lemma moves_new ini l : forall h, map mv_new (moves ini h l) = map (fun x => snd (fst x)) l.
Proof. induction l as [|[[a v] c] l IH]; intros h; [reflexivity|]. cbn [moves map]. rewrite IH. reflexivity. Qed.
Lemma expected_nth_gen ini ev : forall h c k e, nth_error ev k = Some e ->
  exists b hh, nth_error (expected ini h c ev) k = Some b /\
    b_st b = ev_state e /\ b_instr b = ev_instr e /\ b_clock b = c + Z.of_nat k /\
    map d_addr (b_acc b) = skipn (length (code_addrs (pc (ev_state e)) (ev_instr e))) (map fst (ev_log e)) /\
    map d_val (b_acc b) = skipn (length (code_addrs (pc (ev_state e)) (ev_instr e))) (map (fun x => q0 (snd x)) (ev_log e)) /\
    hh = rev (timeline c (firstn k ev)) ++ h /\
    b_acc b = map access_of (skipn (length (code_addrs (pc (ev_state e)) (ev_instr e)))
                                   (moves ini hh (at_clock (c + Z.of_nat k) (ev_log e)))).
Proof.
  induction ev as [|[[s i] lg] ev IH]; intros h c k e H; [destruct k; discriminate H|].
  destruct k as [|k]; cbn [nth_error] in H.
  - injection H as <-. cbn [expected nth_error firstn timeline rev app Z.of_nat]. rewrite Z.add_0_r.
    eexists. exists h. split; [reflexivity|]. cbn [b_st b_instr b_clock b_acc ev_state ev_instr ev_log fst snd].
    do 3 (split; [reflexivity|]). split; [|split; [|split; reflexivity]].
    + rewrite map_map. cbn [access_of d_addr]. rewrite <- skipn_map, moves_addr. unfold at_clock. rewrite map_map. reflexivity.
    + rewrite map_map. cbn [access_of d_val]. rewrite <- skipn_map, <- (map_map mv_new q0), moves_new. unfold at_clock. rewrite !map_map. reflexivity.
  - destruct (IH (rev (at_clock c lg) ++ h) (c + 1) k e H) as (b & hh & H1 & H2 & H3 & H4 & H5 & H6 & H7 & H8).
    exists b, hh. cbn [expected nth_error firstn timeline ev_log snd]. replace (c + Z.of_nat (S k)) with (c + 1 + Z.of_nat k) by lia.
    repeat (split; [assumption|]). split; [|assumption]. rewrite rev_app_distr, <- app_assoc. exact H7.
Qed.
Lemma expected_nth ini ev k e : nth_error ev k = Some e ->
  exists b h, nth_error (expected ini [] 1 ev) k = Some b /\
    b_st b = ev_state e /\ b_instr b = ev_instr e /\ b_clock b = 1 + Z.of_nat k /\
    map d_addr (b_acc b) = skipn (length (code_addrs (pc (ev_state e)) (ev_instr e))) (map fst (ev_log e)) /\
    map d_val (b_acc b) = skipn (length (code_addrs (pc (ev_state e)) (ev_instr e))) (map (fun x => q0 (snd x)) (ev_log e)) /\
    h = rev (timeline 1 (firstn k ev)) /\
    b_acc b = map access_of (skipn (length (code_addrs (pc (ev_state e)) (ev_instr e)))
                                   (moves ini h (at_clock (1 + Z.of_nat k) (ev_log e)))).
Proof. intros H. rewrite <- (app_nil_r (rev (timeline 1 (firstn k ev)))). apply (expected_nth_gen ini ev [] 1 k e H). Qed.
Lemma timeline_bound ini ev : forall h k x, In x (moves ini h (timeline k ev)) -> k <= mv_clk x < k + Z.of_nat (length ev).
Proof.
  induction ev as [|e ev IH]; intros h k x Hx; [destruct Hx|]. cbn [timeline] in Hx. rewrite moves_app in Hx. apply in_app_or in Hx.
  cbn [length]. destruct Hx as [Hx|Hx]; [rewrite (at_clock_clk _ _ _ _ _ Hx); lia|]. apply IH in Hx. lia.
Qed.
Lemma ascending_weaken now now' l : now' <= now -> ascending now l -> ascending now' l.
Proof. intros H. destruct l as [|x l]; [auto|]. intros (A & B & C). split; [lia|]. auto. Qed.
Lemma ranged_in r x : In x (ranged r) <-> fst r <= x < snd r.
Proof.
  unfold ranged. rewrite in_map_iff. split.
  - intros (k & <- & Hk). apply in_seq in Hk. lia.
  - intros H. exists (Z.to_nat (x - fst r)). split; [lia|]. apply in_seq. lia.
Qed.
Lemma ranged_nodup r : NoDup (ranged r).
Proof. unfold ranged. apply FinFun.Injective_map_NoDup; [|apply seq_NoDup]. intros x y H. lia. Qed.
Lemma nodup_app {A} (l m : list A) : NoDup l -> NoDup m -> (forall x, In x l -> ~ In x m) -> NoDup (l ++ m).
Proof.
  induction l as [|x l IH]; intros H1 H2 H3; [exact H2|]. inversion H1; subst. cbn [app]. constructor.
  - intros H. apply in_app_or in H. destruct H as [H|H]; [contradiction|]. apply (H3 x); [left; reflexivity|exact H].
  - apply IH; try assumption. intros y Hy. apply H3. right. exact Hy.
Qed.
Lemma public_ranges_ok n a b : 0 <= n -> 0 <= a -> 0 <= b -> n + a + b <= P -> ranges_ok (public_ranges n a b).
Proof.
  intros Hn Ha Hb Hp. unfold ranges_ok, public_ranges. cbn [r_program r_input r_output]. split.
  - apply Forall_forall. intros x Hx. rewrite !in_app_iff, !ranged_in in Hx. cbn [fst snd] in Hx. unfold wf. lia.
  - repeat apply nodup_app; try apply ranged_nodup; intros x Hx; rewrite ?in_app_iff, ?ranged_in in *; cbn [fst snd] in *; lia.
Qed.
