(** From the events of a run to the rows of the prover. *)
From Coq Require Import ZArith Bool List Lia Permutation.
From Verif Require Import M31 M31Facts Abi Instr InstrFacts Isa IsaFacts Machine VmFacts SpaceFacts Air AirOpcodes AirSpec AirMem
  Adapter AdapterSpec AdapterFacts AdapterRun AdapterProps Trace TraceSpec TraceFacts TraceAll ProverSpec.
Import ListNotations.
Open Scope Z_scope.

(** An instruction depends only on the cells it reads. *)
Lemma isa_reads i m m' s e : isa i m s = Some e -> (forall a, In a (reads e ++ peeks e) -> m' a = m a) -> isa i m' s = Some e.
Proof.
  intros E H. destruct i; cbv beta iota zeta delta [isa] in *;
    repeat match type of E with context [if ?b then Some _ else None] => destruct b eqn:? | context [if ?b then None else Some _] => destruct b eqn:? end;
    try discriminate E; injection E as <-; cbn [reads peeks app] in H;
    repeat (match goal with |- context[m' ?x] => rewrite (H x) by (cbn [In]; tauto) end);
    repeat match goal with H : ?b = _ |- context[if ?b then _ else _] => rewrite H end; reflexivity.
Qed.

(** Histories. *)
Definition clock_at (h : list timed) (a : Z) : Z := match last_at h a with Some (_, c) => c | None => 0 end.
Lemma last_at_cons_other h a b v c : b <> a -> last_at ((b, v, c) :: h) a = last_at h a.
Proof. intros H. cbn [last_at]. destruct (Z.eqb_spec b a); [contradiction|reflexivity]. Qed.
Lemma first_at_cons_other h a b v c : b <> a -> or_else (first_at ((b, v, c) :: h) a) = or_else (first_at h a).
Proof.
  intros H. cbn [first_at]. destruct (first_at h a); [reflexivity|]. destruct (Z.eqb_spec b a); [contradiction|reflexivity].
Qed.
Lemma moves_nodup ini k l : forall h, NoDup (map fst l) ->
  moves ini h (at_clock k l) = map (fun x => move_of ini h (fst x, snd x, k)) l.
Proof.
  induction l as [|[a v] l IH]; intros h Hn; [reflexivity|]. cbn [at_clock map moves fst snd]. cbn [map fst] in Hn. inversion Hn as [|? ? Ha Hn']; subst.
  f_equal. fold (at_clock k l). rewrite IH by exact Hn'. apply map_ext_in. intros [b w] Hb. cbn [fst snd].
  assert (a <> b). { intros ->. apply Ha. apply in_map_iff. exists (b, w). auto. }
  unfold move_of. rewrite last_at_cons_other by assumption. rewrite first_at_cons_other by assumption. reflexivity.
Qed.
Lemma clock_at_log h k l a : clock_at (rev (at_clock k l) ++ h) a = if existsb (fun x => fst x =? a) l then k else clock_at h a.
Proof.
  revert h. induction l as [|[b v] l IH]; intros h; [reflexivity|]. cbn [at_clock map rev existsb fst snd]. rewrite <- app_assoc.
  fold (at_clock k l). rewrite IH. cbn [app]. unfold clock_at at 1. cbn [last_at].
  destruct (existsb _ l); [rewrite orb_true_r; reflexivity|]. rewrite orb_false_r. destruct (b =? a); reflexivity.
Qed.
Lemma existsb_addr l a : existsb (fun x : Z * qm31 => fst x =? a) l = true <-> In a (map fst l).
Proof.
  rewrite existsb_exists, in_map_iff. split; intros (x & A & B); exists x; [apply Z.eqb_eq in B|]; split; auto. apply Z.eqb_eq. exact A.
Qed.
(** Two cells that are always accessed together have the same clock. *)
Lemma together a b ev : Forall (fun e => In a (map fst (ev_log e)) <-> In b (map fst (ev_log e))) ev ->
  forall k h, clock_at h a = clock_at h b -> clock_at (rev (timeline k ev) ++ h) a = clock_at (rev (timeline k ev) ++ h) b.
Proof.
  induction 1 as [|e ev He _ IH]; intros k h Hh; [exact Hh|]. cbn [timeline]. rewrite rev_app_distr, <- app_assoc. apply IH.
  rewrite !clock_at_log. destruct (existsb (fun x => fst x =? a) (ev_log e)) eqn:Ea, (existsb (fun x => fst x =? b) (ev_log e)) eqn:Eb; try reflexivity; try exact Hh; exfalso.
  - apply existsb_addr in Ea. apply He in Ea. apply existsb_addr in Ea. congruence.
  - apply existsb_addr in Eb. apply He in Eb. apply existsb_addr in Eb. congruence.
Qed.

(** Well-formed memories and states stay so. *)
Lemma instr_at_iwf f a i : (forall b, qwf (f b)) -> instr_at f a i -> iwf i.
Proof.
  intros Hf (rest & E). unfold iwf.
  assert (H : Forall wf (encode i ++ rest)).
  { rewrite <- E. apply Forall_app. split; apply Forall_forall; intros x Hx; cbn [qlist In] in Hx;
      match goal with H : context[f ?b] |- _ => destruct (Hf b) as (?&?&?&?) end; intuition subst; assumption. }
  apply Forall_app in H. destruct H as [H _]. unfold encode in H. inversion H; assumption.
Qed.
Lemma fstep_wf f s i f' s' lg : swf s -> (forall a, qwf (f a)) -> fstep f s i f' s' lg -> swf s' /\ forall a, qwf (f' a).
Proof.
  intros Hs Hf (Hi & e & He & _ & _ & -> & Hf' & _). pose proof (instr_at_iwf _ _ _ Hf Hi) as Hw.
  split; [eapply isa_next_wf; [exact Hs|exact Hw| |exact He]; intros a; apply Hf|].
  destruct (isa_space i _ s e Hs Hw (fun a => proj1 (Hf a)) He) as [_ B].
  intros a. rewrite Hf'. clear Hf' He Hi. revert f Hf. induction (writes e) as [|[b v] ws IH]; intros f Hf; [apply Hf|].
  cbn [stored map upds fst snd]. inversion B as [|? ? [_ Hv] B']; subst. apply IH; [exact B'|]. intros c. destruct (c =? b); [|apply Hf].
  apply qofm_wf. exact Hv.
Qed.
Lemma eruns_wf f s ev f' s' : eruns f s ev f' s' -> swf s -> (forall a, qwf (f a)) -> swf s' /\ forall a, qwf (f' a).
Proof.
  induction 1 as [f f' s H|f s i f1 s1 lg ev f2 s2 H1 H2 IH]; intros Hs Hf; [split; [exact Hs|]; intros a; rewrite H; apply Hf|].
  destruct (fstep_wf _ _ _ _ _ _ Hs Hf H1). apply IH; assumption.
Qed.
Lemma upds_felt (f : flat) ws a : is_felt (f a) -> is_felt (upds f (stored ws) a).
Proof.
  revert f. induction ws as [|[b v] ws IH]; intros f H; [exact H|]. cbn [stored map upds fst snd]. apply IH. cbv beta.
  destruct (a =? b); [reflexivity|exact H].
Qed.
Lemma eruns_felt f s ev f' s' a : eruns f s ev f' s' -> is_felt (f a) -> is_felt (f' a).
Proof.
  induction 1 as [f f' s H|f s i f1 s1 lg ev f2 s2 H1 H2 IH]; intros Hf; [rewrite H; exact Hf|].
  apply IH. destruct H1 as (_ & e & _ & _ & _ & _ & Hf1 & _). rewrite Hf1. apply upds_felt. exact Hf.
Qed.

(** The memory as a step sees it: a cell the segment does not have counts as holding what
    the access leaves there. *)
Definition before (ini : Z -> option qm31) (h : list timed) (g : flat) (lg : list Machine.access) (a : Z) : qm31 :=
  match last_at h a with
  | Some (u, _) => u
  | None => or_else (ini a) (match find (fun x => fst x =? a) lg with Some x => snd x | None => g a end)
  end.
Lemma find_nodup (l : list Machine.access) a v : NoDup (map fst l) -> In (a, v) l -> find (fun x => fst x =? a) l = Some (a, v).
Proof.
  induction l as [|[b w] l IH]; intros Hn Hi; [destruct Hi|]. cbn [find fst]. cbn [map fst] in Hn. inversion Hn as [|? ? Hb Hn']; subst.
  destruct Hi as [E|Hi].
  - injection E as -> ->. rewrite Z.eqb_refl. reflexivity.
  - destruct (Z.eqb_spec b a) as [->|]; [|apply IH; assumption]. exfalso. apply Hb. apply in_map_iff. exists (a, v). auto.
Qed.
Lemma before_old ini h g lg a v k : NoDup (map fst lg) -> In (a, v) lg -> mv_old (move_of ini h (a, v, k)) = before ini h g lg a.
Proof. intros Hn Hi. unfold before. cbn [move_of mv_old]. rewrite (find_nodup lg a v Hn Hi). reflexivity. Qed.
Lemma before_seen ini h g lg a : NoDup (map fst lg) -> tells ini h g -> In (a, g a) lg -> before ini h g lg a = g a.
Proof.
  intros Hn Ht Hi. unfold before. specialize (Ht a). destruct (last_at h a) as [[u c]|]; [exact Ht|].
  destruct (ini a) as [v|]; cbn [or_else]; [apply Ht; reflexivity|]. rewrite (find_nodup lg a (g a) Hn Hi). reflexivity.
Qed.
Lemma with_clocks_moves ini h (gm : flat) k (start : Machine.access -> Z) l :
  (forall x, In x l -> mv_old (move_of ini h (fst x, snd x, k)) = gm (fst x)) ->
  (forall x, start x = mv_start (move_of ini h (fst x, snd x, k))) ->
  with_clocks gm l (map start l) = map acc_of (map (fun x => move_of ini h (fst x, snd x, k)) l).
Proof.
  intros H Hs. induction l as [|[a v] l IH]; [reflexivity|]. cbn [with_clocks map]. rewrite IH by (intros x Hx; apply H; right; exact Hx).
  f_equal. unfold acc_of. rewrite H by (left; reflexivity). rewrite Hs. reflexivity.
Qed.
Definition start_of (ini : Z -> option qm31) (h : list timed) (k : Z) (x : Machine.access) : Z := mv_start (move_of ini h (fst x, snd x, k)).
Lemma mv_start_clock ini h a v k : mv_start (move_of ini h (a, v, k)) = clock_at h a + bridges (k - clock_at h a) * GAP.
Proof. reflexivity. Qed.

Lemma skipn_app_exact {A} (l m : list A) : skipn (length l) (l ++ m) = m.
Proof. induction l; [reflexivity|assumption]. Qed.
Lemma firstn_app_exact {A} (l m : list A) : firstn (length l) (l ++ m) = l.
Proof. induction l as [|x l IH]; [reflexivity|]. cbn [length app firstn]. rewrite IH. reflexivity. Qed.
Lemma seen_fst f l : map fst (seen f l) = l.
Proof. unfold seen. rewrite map_map. apply map_id. Qed.
Lemma stored_fst ws : map fst (stored ws) = map fst ws.
Proof. unfold stored. rewrite map_map. reflexivity. Qed.
Lemma code_addrs_pos a i : exists r, code_addrs a i = a :: r.
Proof. unfold code_addrs. destruct (size_m31 i <=? 4); eexists; reflexivity. Qed.

(** One event. *)
Lemma event_row ini g h clk st i lg g' st' :
  tells ini h g -> swf st -> (forall a, qwf (g a)) -> fstep g st i g' st' lg -> 0 < clk < P ->
  provable i = true -> NoDup (map fst lg) ->
  Forall (fun x => 0 <= mv_start x /\ 0 <= clock_gap x < 2 ^ 20) (moves ini h (at_clock clk lg)) ->
  (exists k, flat_map (fun x => qlist (snd x)) (firstn (length (code_addrs (pc st) i)) lg) = Instr.encode i ++ repeat 0 k) ->
  (forall a, In a (code_addrs (pc st) i) -> clock_at h a = clock_at h (pc st)) ->
  (forall a, In a (map fst (skipn (length (code_addrs (pc st) i)) lg)) -> is_felt (g a)) ->
  (forall a u c, last_at h a = Some (u, c) -> u = g a) ->
  let ms := moves ini h (at_clock clk lg) in
  let b := Bundle st clk i (match ms with m :: _ => mv_start m | [] => 0 end)
             (map access_of (skipn (length (code_addrs (pc st) i)) ms)) in
  exists c, component_of i = Some c /\ faithful c (fill c 1 b) st clk st' (map acc_of ms) /\ same_logup c 1 b.
Proof.
  intros Ht Hs Hq Hst Hclk Hp Hn Hgap Hcode Htog Hfelt Hlast ms b.
  pose proof Hst as (Hi & e & He & Hr & Hw & -> & _ & Hlg).
  assert (Hpk : peeks e = []).
  { destruct i; cbn [provable] in Hp; try discriminate Hp; cbv beta iota zeta delta [isa] in He;
      repeat match type of He with context [if ?b then Some _ else None] => destruct b | context [if ?b then None else Some _] => destruct b end;
      try discriminate He; injection He as <-; reflexivity. }
  pose proof (instr_at_iwf _ _ _ Hq Hi) as Hiw.
  set (gm := before ini h g lg).
  set (code := code_addrs (pc st) i) in *.
  assert (Hseen : forall a, In a (code ++ reads e) -> gm a = g a).
  { intros a Ha. apply before_seen; [exact Hn|exact Ht|]. rewrite Hlg, app_assoc. apply in_or_app. left.
    unfold seen. rewrite <- map_app. apply in_map_iff. exists a. auto. }
  assert (Elg : lg = seen gm code ++ seen gm (reads e) ++ stored (writes e)).
  { rewrite Hlg. rewrite !app_assoc. f_equal. unfold seen. rewrite <- !map_app. apply map_ext_in. intros a Ha. rewrite Hseen by exact Ha. reflexivity. }
  assert (Ems : ms = map (fun x => move_of ini h (fst x, snd x, clk)) lg) by (apply moves_nodup; exact Hn).
  assert (He' : isa i (fun a => q0 (gm a)) st = Some e).
  { eapply isa_reads; [exact He|]. cbv beta. rewrite Hpk, app_nil_r. intros a Ha. rewrite Hseen; [reflexivity|]. apply in_or_app. right. exact Ha. }
  assert (Hold : forall x, In x lg -> mv_old (move_of ini h (fst x, snd x, clk)) = gm (fst x)).
  { intros [a v] Hx. cbn [fst snd]. apply before_old; assumption. }
  set (p := clock_at h (pc st) + bridges (clk - clock_at h (pc st)) * GAP).
  set (data := seen gm (reads e) ++ stored (writes e)) in *.
  set (ps := map (start_of ini h clk) data).
  assert (Lcode : length (seen gm code) = length code) by (unfold seen; apply map_length).
  assert (Edata : skipn (length code) lg = data) by (rewrite Elg, <- Lcode; apply skipn_app_exact).
  assert (Ewords : firstn (length code) lg = seen gm code) by (rewrite Elg, <- Lcode; apply firstn_app_exact).
  assert (Edms : skipn (length code) ms = map (fun x => move_of ini h (fst x, snd x, clk)) data) by (rewrite Ems, skipn_map, Edata; reflexivity).
  assert (Hpstart : forall a, In a code -> mv_start (move_of ini h (a, gm a, clk)) = p).
  { intros a Ha. rewrite mv_start_clock, (Htog a Ha). reflexivity. }
  assert (Ecodems : map acc_of (map (fun x => move_of ini h (fst x, snd x, clk)) (seen gm code)) = code_accs gm (pc st) i p).
  { unfold code_accs, seen. fold code. rewrite !map_map. apply map_ext_in. intros a Ha. cbn [fst snd]. unfold acc_of.
    assert (Ho : mv_old (move_of ini h (a, gm a, clk)) = gm a).
    { apply (Hold (a, gm a)). rewrite Elg. apply in_or_app. left. apply in_map_iff. exists a. auto. }
    rewrite (Hpstart a Ha), Ho. reflexivity. }
  assert (Edatams : with_clocks gm data ps = map acc_of (map (fun x => move_of ini h (fst x, snd x, clk)) data)).
  { apply with_clocks_moves; [|reflexivity]. intros x Hx. apply Hold. rewrite Elg. apply in_or_app. right. exact Hx. }
  assert (Eb : b = bundle_of gm st i e clk p ps).
  { unfold b, bundle_of, data_accs. fold data. rewrite Edatams. f_equal.
    - rewrite Ems, Elg. destruct (code_addrs_pos (pc st) i) as (r & Ec). fold code in Ec. rewrite Ec. cbn [seen map app fst snd].
      apply Hpstart. rewrite Ec. left. reflexivity.
    - fold code. rewrite Edms, !map_map. reflexivity. }
  assert (Eacc : map acc_of ms = code_accs gm (pc st) i p ++ data_accs gm e ps).
  { unfold data_accs. fold data. rewrite Edatams, <- Ecodems, <- map_app. f_equal. rewrite <- map_app, Ems. f_equal. exact Elg. }
  assert (Hex : executed gm st i e clk p ps).
  { assert (Hfr : Forall (fun x => fresh_clock clk (start_of ini h clk x)) lg).
    { apply Forall_forall. intros x Hx. rewrite Forall_forall in Hgap.
      assert (Hin : In (move_of ini h (fst x, snd x, clk)) ms) by (rewrite Ems; apply in_map_iff; exists x; auto).
      destruct (Hgap _ Hin) as [A B]. unfold clock_gap in B. unfold start_of, fresh_clock.
      assert (E : mv_clk (move_of ini h (fst x, snd x, clk)) = clk) by reflexivity. rewrite E in B. clear - A B. lia. }
    constructor; try assumption.
    - intros a Ha. assert (Hd : In a (map fst data)).
      { unfold data. rewrite map_app, seen_fst, stored_fst. exact Ha. }
      assert (Hq0 : is_felt (gm a) /\ qwf (gm a)).
      { unfold gm, before. destruct (last_at h a) as [[u c]|] eqn:El.
        - rewrite (Hlast _ _ _ El). split; [apply Hfelt; rewrite Edata; exact Hd|apply Hq].
        - destruct (ini a) as [v|] eqn:Ei; cbn [or_else].
          + specialize (Ht a). rewrite El in Ht. rewrite (Ht v Ei). split; [apply Hfelt; rewrite Edata; exact Hd|apply Hq].
          + assert (Hin : exists v, In (a, v) data).
            { apply in_map_iff in Hd. destruct Hd as ([a' v] & <- & Hv). exists v. exact Hv. }
            destruct Hin as (v & Hv).
            assert (Hvl : In (a, v) lg) by (rewrite Elg; apply in_or_app; right; exact Hv).
            rewrite (find_nodup lg a v Hn Hvl). cbn [snd]. unfold data in Hv. apply in_app_or in Hv. destruct Hv as [Hv|Hv].
            * apply in_map_iff in Hv. destruct Hv as (a' & E & Ha'). injection E as -> <-.
              assert (E' : gm a = g a) by (apply Hseen, in_or_app; right; exact Ha'). fold gm. rewrite E'.
              split; [apply Hfelt; rewrite Edata; exact Hd|apply Hq].
            * apply in_map_iff in Hv. destruct Hv as (w & E & Hw'). injection E as <- <-. split; [reflexivity|].
              destruct (isa_space i _ st e Hs Hiw (fun a => proj1 (Hq a)) He) as [_ B]. rewrite Forall_forall in B.
              apply qofm_wf. apply B. exact Hw'. }
      split; [apply Hq0|apply Hq0].
    - destruct Hcode as (k & Hk). exists k. rewrite <- Hk, Ewords. unfold seen. fold code. rewrite !flat_map_concat_map, map_map. reflexivity.
    - apply Forall_cons.
      + destruct (code_addrs_pos (pc st) i) as (r & Ec). fold code in Ec.
        rewrite <- (Hpstart (pc st)) by (rewrite Ec; left; reflexivity). rewrite Forall_forall in Hfr. apply (Hfr (pc st, gm (pc st))).
        rewrite Elg, Ec. left. reflexivity.
      + unfold ps. apply Forall_forall. intros z Hz. apply in_map_iff in Hz. destruct Hz as (x & <- & Hx). rewrite Forall_forall in Hfr.
        apply Hfr. rewrite Elg. apply in_or_app. right. exact Hx.
    - unfold ps. rewrite map_length. unfold data. rewrite !app_length. unfold seen, stored. rewrite !map_length. reflexivity. }
  assert (Hc : exists c, component_of i = Some c) by (destruct i; cbn [provable] in Hp; try discriminate Hp; eexists; reflexivity).
  destruct Hc as (c & Hc). exists c. split; [exact Hc|]. rewrite Eb, Eacc.
  exact (all_complete i Hp gm st e clk p ps c Hex Hc).
Qed.

Lemma hsteps_bundles ini ev s' : forall h k, map bundle_for (hsteps ini h k ev s') = expected ini h k ev.
Proof.
  induction ev as [|[[st i] lg] ev IH]; intros h k; [reflexivity|]. cbn [hsteps map expected ev_log snd]. rewrite IH. reflexivity.
Qed.
Lemma hsteps_moves ini ev s' : forall h k, flat_map hs_ms (hsteps ini h k ev s') = moves ini h (timeline k ev).
Proof.
  induction ev as [|e ev IH]; intros h k; [reflexivity|]. cbn [hsteps flat_map timeline hs_ms]. rewrite IH, moves_app. reflexivity.
Qed.
Lemma hsteps_in ini ev s' : forall h k x, In x (hsteps ini h k ev s') ->
  exists ev1 e ev2, ev = ev1 ++ e :: ev2 /\
    x = HS (k + Z.of_nat (length ev1)) (ev_state e) (match ev2 with [] => s' | e' :: _ => ev_state e' end) (ev_instr e)
          (moves ini (rev (timeline k ev1) ++ h) (at_clock (k + Z.of_nat (length ev1)) (ev_log e))).
Proof.
  induction ev as [|e ev IH]; intros h k x Hx; [destruct Hx|]. destruct Hx as [<-|Hx].
  - exists [], e, ev. split; [reflexivity|]. cbn [length Z.of_nat timeline rev app]. rewrite Z.add_0_r. reflexivity.
  - destruct (IH _ _ _ Hx) as (ev1 & e1 & ev2 & -> & ->). exists (e :: ev1), e1, ev2. split; [reflexivity|].
    cbn [length timeline]. rewrite rev_app_distr, <- app_assoc. replace (k + Z.of_nat (S (length ev1))) with (k + 1 + Z.of_nat (length ev1)) by lia.
    reflexivity.
Qed.
Lemma eruns_code f s ev f' s' : eruns f s ev f' s' -> Forall (fun e => incl (ev_code e) (map fst (ev_log e))) ev.
Proof.
  induction 1 as [f f' s H|f s i f1 s1 lg ev f2 s2 H1 H2 IH]; [constructor|]. constructor; [|exact IH].
  destruct H1 as (_ & e & _ & _ & _ & _ & _ & ->). unfold ev_code, ev_state, ev_instr, ev_log. cbn [fst snd].
  intros a Ha. rewrite map_app, seen_fst. apply in_or_app. left. exact Ha.
Qed.
Lemma eruns_start f s ev f' s' : eruns f s ev f' s' -> match ev with [] => s' | e :: _ => ev_state e end = s.
Proof. intros H. destruct H; reflexivity. Qed.
Lemma start_nonneg ini ev x : Z.of_nat (length ev) < P -> In x (moves ini [] (timeline 1 ev)) -> 0 <= mv_start x.
Proof.
  intros Hl Hx. destruct (timeline_order ini ev Hl x Hx) as [A B]. unfold mv_start, bridges.
  destruct (Z.ltb_spec GAP (mv_clk x - mv_from x)) as [K|K]; [|lia].
  assert (0 <= (mv_clk x - mv_from x) / GAP) by (apply Z.div_pos; unfold GAP in *; lia). unfold GAP in *. lia.
Qed.

Theorem run_rows ini f s ev f' s' :
  eruns f s ev f' s' -> agrees ini f -> swf s -> (forall a, qwf (f a)) -> Z.of_nat (length ev) < P - 1 -> plain ini f ev ->
  Forall (fun x => exists c, component_of (hs_i x) = Some c /\
    faithful c (fill c 1 (bundle_for x)) (hs_s x) (hs_clk x) (hs_t x) (map acc_of (hs_ms x)) /\ same_logup c 1 (bundle_for x))
    (hsteps ini [] 1 ev s').
Proof.
  intros He Ha Hs Hq Hl [P1 P2 P3 P4 P5 P6]. apply Forall_forall. intros x Hx.
  destruct (hsteps_in _ _ _ _ _ _ Hx) as (ev1 & [[st i] lg] & ev2 & Eev & ->). rewrite app_nil_r.
  pose proof (eruns_code _ _ _ _ _ He) as Hcode.
  assert (Hlen : Z.of_nat (length ev) = Z.of_nat (length ev1) + 1 + Z.of_nat (length ev2)) by (rewrite Eev, app_length; cbn [length]; lia).
  rewrite Eev in He. destruct (eruns_split _ _ _ _ _ _ _ _ _ He) as (g & g' & t' & A & B & C).
  assert (Hin : In (st, i, lg) ev) by (rewrite Eev; apply in_or_app; right; left; reflexivity).
  assert (Hin1 : forall e, In e ev1 -> In e ev) by (intros e H; rewrite Eev; apply in_or_app; left; exact H).
  pose proof (tells_run ini f s ev1 g st A 1 []) as Ht. rewrite app_nil_r in Ht.
  assert (Ht' : tells ini (rev (timeline 1 ev1)) g) by (apply Ht; intros a; cbn [last_at]; apply Ha). clear Ht.
  destruct (eruns_wf _ _ _ _ _ A Hs Hq) as [Hst Hqg].
  rewrite Forall_forall in P1, P2, P4, P6, Hcode.
  unfold ev_state, ev_instr, ev_log. cbn [fst snd].
  unfold bundle_for. cbn [hs_s hs_clk hs_i hs_ms hs_t].
  assert (Est : match ev2 with [] => s' | e' :: _ => fst (fst e') end = t') by (exact (eruns_start _ _ _ _ _ C)). rewrite Est.
  assert (Hsub : forall m, In m (moves ini (rev (timeline 1 ev1)) (at_clock (1 + Z.of_nat (length ev1)) lg)) -> In m (moves ini [] (timeline 1 ev))).
  { intros m Hm. rewrite <- (hsteps_moves ini ev s'). apply in_flat_map. eexists. split; [exact Hx|]. cbn [hs_ms]. rewrite app_nil_r. exact Hm. }
  apply (event_row ini g (rev (timeline 1 ev1)) (1 + Z.of_nat (length ev1)) st i lg g' t'); try assumption.
  - lia.
  - apply (P1 _ Hin).
  - apply (P2 _ Hin).
  - apply Forall_forall. intros m Hm. apply Hsub in Hm. split; [apply (start_nonneg ini ev); [lia|exact Hm]|].
    rewrite Forall_forall in P3. specialize (P3 m Hm). destruct (timeline_order ini ev ltac:(lia) m Hm) as [H1 H2].
    apply gap_range; try assumption. split; [|intros [X Y]; exact (P3 X Y)].
    eapply (timeline_strict ini ev 1 []); [intros a v c H; discriminate H|lia|apply Forall_forall; exact P2|exact Hm].
  - apply (P4 _ Hin).
  - intros a Hac. rewrite <- (app_nil_r (rev (timeline 1 ev1))). apply together; [|reflexivity].
    destruct (code_addrs_pos (pc st) i) as (r & Ec).
    assert (Hpc : In (pc st) (ev_code (st, i, lg))) by (unfold ev_code; cbn [ev_state ev_instr fst snd]; rewrite Ec; left; reflexivity).
    apply Forall_forall. intros e2 H2. split; intros H.
    + pose proof (P5 _ _ a Hin (Hin1 _ H2) Hac H) as E. apply (Hcode _ (Hin1 _ H2)). rewrite E. exact Hpc.
    + pose proof (P5 _ _ (pc st) Hin (Hin1 _ H2) Hpc H) as E. apply (Hcode _ (Hin1 _ H2)). rewrite E. exact Hac.
  - intros a Had. eapply eruns_felt; [exact A|]. specialize (P6 _ Hin). rewrite Forall_forall in P6. apply P6. exact Had.
  - intros a u c Hla. specialize (Ht' a). rewrite Hla in Ht'. exact Ht'.
Qed.
