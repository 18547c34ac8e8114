(** The adapter's bundles for a run of the flat machine. *)
From Coq Require Import ZArith Bool List Lia Permutation.
From Verif Require Import M31 M31Facts Instr InstrFacts VmMem Vm Abi Isa IsaFacts Machine VmFacts VmPropFacts AirChain AirMem Adapter AdapterSpec AdapterFacts.
Import ListNotations.
Open Scope Z_scope.

Lemma fruns_eruns f s tr lg f' s' : fruns f s tr lg f' s' ->
  exists ev, eruns f s ev f' s' /\ map fst ev = tr /\ concat (map ev_log ev) = lg.
Proof.
  induction 1 as [f f' s H|f s i f1 s1 l1 tr l2 f2 s2 H1 _ (ev & He & <- & <-)].
  - exists []. split; [constructor; exact H|]. split; reflexivity.
  - exists ((s, i, l1) :: ev). split; [econstructor; eassumption|]. split; reflexivity.
Qed.
Lemma eruns_fruns f s ev f' s' : eruns f s ev f' s' -> fruns f s (map fst ev) (concat (map ev_log ev)) f' s'.
Proof. induction 1; cbn [map concat ev_log snd fst]; [constructor; assumption|econstructor; eassumption]. Qed.

Definition da_of (g : marg) : daccess := DA (g_addr g) (g_prev_clock g) (q0 (g_prev_val g)) (q0 (g_val g)).
Lemma operand_pushes l : forall m rest clk,
  operand_accesses (length l) m (acc_log l ++ rest) clk =
  AdOk (fst (pushes m (at_clock clk l)), rest, map da_of (snd (pushes m (at_clock clk l)))).
Proof.
  induction l as [|[a v] l IH]; intros m rest clk; [reflexivity|].
  cbn [length operand_accesses acc_log map app at_clock fst snd pushes VmMem.e_addr VmMem.e_val].
  destruct (push m a v clk) as [m1 g].
  change (map (fun x : access => En (fst x) (snd x)) l) with (acc_log l). rewrite IH.
  change (map (fun x : access => (fst x, snd x, clk)) l) with (at_clock clk l).
  destruct (pushes m1 (at_clock clk l)) as [m2 gs]. reflexivity.
Qed.
Lemma pushes_app l1 : forall m l2,
  pushes m (l1 ++ l2) =
  (fst (pushes (fst (pushes m l1)) l2), snd (pushes m l1) ++ snd (pushes (fst (pushes m l1)) l2)).
Proof.
  induction l1 as [|[[a v] clk] l1 IH]; intros m l2; cbn [app pushes fst snd].
  - destruct (pushes m l2). reflexivity.
  - destruct (push m a v clk) as [m1 g]. rewrite IH. destruct (pushes m1 l1) as [m2 gs]. reflexivity.
Qed.
Lemma acc_log_app l l' : acc_log (l ++ l') = acc_log l ++ acc_log l'.
Proof. apply map_app. Qed.

Lemma firstn_qlist w (rest : list Z) n e :
  qlist w ++ rest = e -> (n <= 4)%nat -> firstn n (qlist w) = firstn n e.
Proof. intros <- H. rewrite firstn_app, qlist_length. replace (n - 4)%nat with 0%nat by lia. rewrite app_nil_r. reflexivity. Qed.

(** One step: the bundle is the expected one and the memory is that of the pushes. *)
Lemma next_bundle_spec f s i f1 s1 lg m rest clk :
  fstep f s i f1 s1 lg -> is_print i = false -> 1 <= clk < P ->
  let p := pushes m (at_clock clk lg) in
  next_bundle m (acc_log lg ++ rest) clk s =
  AdOk (Bundle s clk i (match snd p with g :: _ => g_prev_clock g | [] => 0 end)
               (map da_of (skipn (length (code_addrs (pc s) i)) (snd p))), fst p, rest).
Proof.
  intros Hs Hp Hclk p. pose proof (fstep_log_length _ _ _ _ _ _ Hs Hp) as Hlen.
  destruct Hs as (Hi & e & He & _ & _ & _ & _ & Hlg).
  pose proof (instr_at_head _ _ _ Hi) as Hop. destruct Hi as [r Hr].
  pose proof (encode_length i) as Hel. pose proof (size_m31_bounds i) as Hsz.
  assert (Hk : mfrom clk = clk) by (unfold mfrom; apply Z.mod_small; lia).
  set (ops := seen f (reads e) ++ stored (writes e)) in *.
  assert (Hops : length ops = Z.to_nat (memory_accesses i)).
  { rewrite Hlg, app_length in Hlen. unfold seen at 1 in Hlen. rewrite map_length, Nat2Z.inj_add, code_addrs_length in Hlen. lia. }
  unfold p. rewrite Hlg. unfold at_clock at 1 2 3. rewrite !map_app.
  change (map (fun x : access => (fst x, snd x, clk)) (seen f (code_addrs (pc s) i))) with (at_clock clk (seen f (code_addrs (pc s) i))).
  change (map (fun x : access => (fst x, snd x, clk)) ops) with (at_clock clk ops).
  rewrite acc_log_app, <- app_assoc. unfold code_addrs.
  destruct (Z.leb_spec (size_m31 i) 4) as [H4|H4].
  - unfold seen at 1 2 3 4. cbn [map acc_log at_clock app fst snd length pushes next_bundle VmMem.e_addr VmMem.e_val].
    rewrite Hk. destruct (push m (pc s) (f (pc s)) clk) as [m1 g] eqn:Ep.
    rewrite Hop, opcode_size_spec, div_ceil4_small by lia. cbn [Z.ltb Z.compare].
    change (1 <? 1) with false. cbv iota.
    assert (Hd : firstn (Z.to_nat (size_m31 i)) (qlist (f (pc s))) ++ [] = Instr.encode i).
    { rewrite app_nil_r. erewrite firstn_qlist; [|exact Hr|lia].
      rewrite <- Hel, Nat2Z.id, firstn_app, Nat.sub_diag, firstn_all, firstn_O, app_nil_r. reflexivity. }
    rewrite Hd, decode_encode, <- Hops, operand_pushes.
    destruct (pushes m1 (at_clock clk ops)) as [m2 gs]. reflexivity.
  - unfold seen at 1 2 3 4. cbn [map acc_log at_clock app fst snd length pushes next_bundle VmMem.e_addr VmMem.e_val].
    rewrite Hk. destruct (push m (pc s) (f (pc s)) clk) as [m1 g] eqn:Ep.
    rewrite Hop, opcode_size_spec, div_ceil4_big by lia. change (1 <? 2) with true. cbv iota.
    destruct (push m1 ((pc s + 1) mod P) (f ((pc s + 1) mod P)) clk) as [m2 g2] eqn:Ep2.
    set (w2 := f ((pc s + 1) mod P)) in *.
    assert (Hd : firstn (Z.to_nat (size_m31 i)) (qlist (f (pc s))) ++
      (if 4 <? size_m31 i then [q0 w2] else []) ++ (if 5 <? size_m31 i then [q1 w2] else []) = Instr.encode i).
    { assert (Hf := f_equal (firstn (Z.to_nat (size_m31 i))) Hr).
      rewrite <- Hel, Nat2Z.id in Hf at 1. rewrite <- Hel, Nat2Z.id in Hf at 1.
      rewrite (firstn_app (length (Instr.encode i)) (Instr.encode i)), Nat.sub_diag, firstn_all, firstn_O, app_nil_r in Hf.
      rewrite <- Hf. assert (Hc : size_m31 i = 5 \/ size_m31 i = 6) by lia.
      assert (Hn : length (Instr.encode i) = Z.to_nat (size_m31 i)) by lia. rewrite Hn.
      destruct Hc as [-> | ->]; reflexivity. }
    rewrite Hd, decode_encode, <- Hops, operand_pushes.
    destruct (pushes m2 (at_clock clk ops)) as [m3 gs]. reflexivity.
Qed.

Lemma ascending_at clk l : 1 <= clk < P -> ascending clk (at_clock clk l).
Proof.
  intros H. induction l as [|x l IH]; [exact I|]. cbn [at_clock map ascending snd]. split; [lia|]. split; [lia|]. exact IH.
Qed.
Lemma ascending_le now now' l : now' <= now -> ascending now l -> ascending now' l.
Proof. destruct l as [|x l]; intros H; [auto|]. cbn [ascending]. intros (A & B & C). split; [lia|]. auto. Qed.
Lemma ascending_app now l l' k : ascending now l -> ascending k l' -> Forall (fun x => snd x <= k) l -> now <= k -> ascending now (l ++ l').
Proof.
  revert now. induction l as [|x l IH]; intros now H1 H2 H3 H4; [apply ascending_le with k; assumption|].
  destruct H1 as (A & B & C). inversion H3; subst. cbn [app ascending]. split; [exact A|]. split; [exact B|]. auto.
Qed.
Lemma ascending_timeline ev : forall clk, 1 <= clk -> clk + Z.of_nat (length ev) <= P -> ascending clk (timeline clk ev).
Proof.
  induction ev as [|e ev IH]; intros clk H1 H2; [exact I|]. cbn [timeline length] in *.
  apply ascending_app with (clk + 1).
  - apply ascending_at. lia.
  - apply IH; lia.
  - unfold at_clock. apply Forall_forall. intros x Hx. apply in_map_iff in Hx. destruct Hx as (y & <- & _). cbn [snd]. lia.
  - lia.
Qed.
Lemma moves_app ini l1 : forall h l2, moves ini h (l1 ++ l2) = moves ini h l1 ++ moves ini (rev l1 ++ h) l2.
Proof.
  induction l1 as [|x l1 IH]; intros h l2; [reflexivity|]. cbn [app moves rev]. rewrite IH, <- app_assoc. reflexivity.
Qed.

Lemma bundles_cons s r m lg clk b m1 lg1 bs f m2 : r <> [] ->
  next_bundle m lg clk s = AdOk (b, m1, lg1) -> bundles r m1 lg1 (clk + 1) = AdOk (bs, f, m2) ->
  bundles (s :: r) m lg clk = AdOk (b :: bs, f, m2).
Proof.
  intros Hr H1 H2. destruct r as [|y r]; [congruence|].
  change (match next_bundle m lg clk s with
      | AdOk (b, m1, lg1) =>
        match bundles (y :: r) m1 lg1 (clk + 1) with
        | AdOk (bs, f, m2) => AdOk (b :: bs, f, m2)
        | AdEmptyTrace => AdEmptyTrace | AdUnexpectedEnd => AdUnexpectedEnd
        | AdBadOpcode => AdBadOpcode | AdBadInstr => AdBadInstr
        end
      | AdEmptyTrace => AdEmptyTrace | AdUnexpectedEnd => AdUnexpectedEnd
      | AdBadOpcode => AdBadOpcode | AdBadInstr => AdBadInstr
      end = AdOk (b :: bs, f, m2)).
  rewrite H1, H2. reflexivity.
Qed.
Lemma bundles_spec i0 f s ev f' s' : eruns f s ev f' s' -> forall h now m clk rest,
  Forall (fun e => is_print (ev_instr e) = false) ev ->
  blank i0 -> ainv now m -> tracks i0 h m -> 0 <= now <= clk -> 1 <= clk -> clk + Z.of_nat (length ev) <= P ->
  bundles (map ev_state ev ++ [s']) m (acc_log (concat (map ev_log ev)) ++ rest) clk =
  AdOk (expected (ini_of i0) h clk ev, s', fst (pushes m (timeline clk ev))).
Proof.
  induction 1 as [f f' s H|f s i f1 s1 lg ev f2 s2 H1 H2 IH]; intros h now m clk rest Hp Hb Hinv Ht Hnow Hclk Hlen.
  - reflexivity.
  - inversion Hp as [|? ? Hp1 Hp2]; subst. cbn [ev_instr fst snd] in Hp1. cbn [length] in Hlen.
    destruct (pushes_spec i0 (at_clock clk lg) h now m Hb Hinv Ht ltac:(lia)) as (Hg & Ht1 & Hinv1 & Hl1 & Hcu & _).
    { apply ascending_le with clk; [lia|]. apply ascending_at. lia. }
    pose proof (next_bundle_spec f s i f1 s1 lg m (acc_log (concat (map ev_log ev)) ++ rest) clk H1 Hp1 ltac:(lia)) as Hb1.
    cbn [map concat ev_log ev_state fst snd app].
    assert (Hnil : map ev_state ev ++ [s2] <> []) by (destruct (map ev_state ev); discriminate).
    rewrite acc_log_app, <- app_assoc.
    set (m1 := fst (pushes m (at_clock clk lg))) in *.
    assert (Hlast : last (map snd (at_clock clk lg)) now <= clk).
    { unfold at_clock. rewrite map_map. cbn [snd]. clear - Hnow. induction lg as [|x lg IHl]; cbn [map last]; [lia|].
      destruct (map (fun _ : access => clk) lg) as [|z l] eqn:E; [lia|exact IHl]. }
    pose proof (IH (rev (at_clock clk lg) ++ h) _ m1 (clk + 1) rest Hp2 Hb Hinv1 Ht1 ltac:(lia) ltac:(lia) ltac:(lia)) as Hb2.
    rewrite (bundles_cons _ _ _ _ _ _ _ _ _ _ _ Hnil Hb1 Hb2).
    cbn [timeline ev_log snd expected]. rewrite pushes_app. cbn [fst]. fold m1.
    do 4 f_equal. rewrite Hg. f_equal.
    + destruct (moves (ini_of i0) h (at_clock clk lg)); reflexivity.
    + rewrite skipn_map, map_map. reflexivity.
Qed.

(** *** The whole import *)
Lemma import_run i0 r f s ev f' s' :
  eruns f s ev f' s' -> Forall (fun e => is_print (ev_instr e) = false) ev ->
  blank i0 -> Z.of_nat (length ev) < P ->
  exists m,
    import (map ev_state ev ++ [s']) (acc_log (concat (map ev_log ev))) i0 r =
      AdOk (Adapted (expected (ini_of i0) [] 1 ev) s s' (update_multiplicities r m)) /\
    ainv P m /\ tracks i0 (rev (timeline 1 ev)) m /\
    a_cu m = map cu_of (flat_map mv_bridges (moves (ini_of i0) [] (timeline 1 ev))) /\
    flows m (flat_map mv_gives (moves (ini_of i0) [] (timeline 1 ev)))
            (flat_map mv_takes (moves (ini_of i0) [] (timeline 1 ev))).
Proof.
  intros He Hp Hb Hlen.
  assert (Ht : tracks i0 [] (amem_new i0)) by (split; intros a; reflexivity).
  pose proof (bundles_spec i0 f s ev f' s' He [] 0 (amem_new i0) 1 [] Hp Hb (blank_ainv i0 Hb) Ht ltac:(lia) ltac:(lia) ltac:(lia)) as Hbs.
  rewrite app_nil_r in Hbs.
  destruct (pushes_spec i0 (timeline 1 ev) [] 0 (amem_new i0) Hb (blank_ainv i0 Hb) Ht ltac:(lia)) as (_ & Ht' & Hinv & _ & Hcu & Hfl).
  { apply ascending_le with 1; [lia|]. apply ascending_timeline; lia. }
  exists (fst (pushes (amem_new i0) (timeline 1 ev))).
  assert (Hs : exists r0, map ev_state ev ++ [s'] = s :: r0).
  { destruct He; cbn [map app ev_state fst]; eauto. }
  destruct Hs as [r0 Hs]. split.
  { unfold import. rewrite Hbs, Hs. reflexivity. }
  split; [|split; [|split]].
  - destruct Hinv as (N1 & N2 & Hc). split; [exact N1|]. split; [exact N2|]. intros a. specialize (Hc a).
    assert (Hl : forall now l, ascending now l -> now <= P -> last (map snd l) now <= P).
    { clear. intros now l. revert now. induction l as [|x l IH]; intros now Ha Hn; [exact Hn|].
      destruct Ha as (A & B & C). cbn [map]. specialize (IH (snd x) C ltac:(lia)).
      assert (El : forall (r : list Z) y d d', last (y :: r) d = last (y :: r) d').
      { induction r as [|z r IHr]; intros y d d'; [reflexivity|]. exact (IHr z d d'). }
      destruct (map snd l) as [|y l'] eqn:E; [cbn [last] in *; exact IH|].
      change (last (y :: l') now <= P). rewrite (El l' y now (snd x)). exact IH. }
    assert (Hl' : last (map snd (timeline 1 ev)) 0 <= P).
    { apply Hl; [|unfold P; lia]. apply ascending_le with 1; [lia|]. apply ascending_timeline; lia. }
    clear - Hc Hl'. destruct (hget (a_ini (fst (pushes (amem_new i0) (timeline 1 ev)))) a) as [[[? ?] ?]|],
      (hget (a_fin (fst (pushes (amem_new i0) (timeline 1 ev)))) a) as [[[? ?] ?]|]; cbn [cell_ok] in *; try exact Hc.
    destruct Hc as (? & [?|?]); split; auto. right. lia.
  - rewrite app_nil_r in Ht'. exact Ht'.
  - exact Hcu.
  - apply (Hfl [] []). unfold flows. cbn [amem_new a_ini a_fin a_cu map app]. rewrite !app_nil_r.
    assert (Hz : forall k, k <> 0 -> toks k i0 = []).
    { intros k Hk. unfold toks. destruct Hb as [N Hb]. assert (Hb' : forall x, In x i0 -> snd (snd x) = 0).
      { intros [a [[v c] k']] Hx. apply (hget_nodup _ _ _ N) in Hx. apply (Hb _ _ _ _ Hx). }
      clear - Hk Hb'. induction i0 as [|x l IH]; [reflexivity|]. cbn [filter].
      unfold mult_is at 1. rewrite (Hb' x (or_introl eq_refl)). rewrite (proj2 (Z.eqb_neq 0 k)) by lia.
      apply IH. intros y Hy. apply Hb'. right. exact Hy. }
    rewrite !Hz by (unfold P; lia). constructor.
Qed.

(** *** Balance *)
Lemma bridges_nonneg d : 0 <= bridges d.
Proof. apply n_updates_nonneg. Qed.
Lemma start_ge x : mv_from x <= mv_start x.
Proof. unfold mv_start. pose proof (bridges_nonneg (mv_clk x - mv_from x)). unfold GAP. lia. Qed.
Lemma no_bridges d : d <= GAP -> bridges d = 0.
Proof. intros H. unfold bridges. rewrite (proj2 (Z.ltb_ge GAP d)) by exact H. reflexivity. Qed.
Lemma bridges_pos d : GAP < d -> 1 <= bridges d.
Proof.
  intros H. unfold bridges. rewrite (proj2 (Z.ltb_lt GAP d)) by exact H.
  apply Z.div_le_lower_bound; unfold GAP in *; lia.
Qed.

(** What a move contributes to (emitted) - (consumed) at token [t]. *)
Definition occ (t t' : list Z) : Z := if cdec t t' then 1 else 0.
Definition defect (t : list Z) (x : move) : Z :=
  occ (tok (mv_addr x) (mv_from x) (mv_old x)) t - occ (tok (mv_addr x) (mv_from x) (mv_first x)) t +
  occ (tok (mv_addr x) (mv_start x) (mv_first x)) t - occ (tok (mv_addr x) (mv_start x) (mv_old x)) t.
Fixpoint defects (t : list Z) (xs : list move) : Z := match xs with [] => 0 | x :: r => defect t x + defects t r end.
Lemma defects_app t l l' : defects t (l ++ l') = defects t l + defects t l'.
Proof. induction l as [|x l IH]; cbn [app defects]; lia. Qed.
Lemma calm_defect t x : calm x -> defect t x = 0.
Proof.
  intros H. unfold defect. destruct (Z_lt_le_dec GAP (mv_clk x - mv_from x)) as [Hl|Hl].
  - rewrite (H Hl). lia.
  - unfold mv_start. rewrite no_bridges by exact Hl. replace (mv_from x + 0 * GAP) with (mv_from x) by ring. lia.
Qed.
Definition zc (l : list (list Z)) (t : list Z) : Z := Z.of_nat (count_occ cdec l t).
Lemma zc_app l l' t : zc (l ++ l') t = zc l t + zc l' t.
Proof. unfold zc. rewrite count_occ_app. lia. Qed.
Lemma zc_cons x l t : zc (x :: l) t = occ x t + zc l t.
Proof. unfold zc, occ. cbn [count_occ]. destruct (cdec x t); lia. Qed.
Lemma gives_takes t xs : zc (flat_map mv_gives xs) t - zc (flat_map mv_takes xs) t =
  zc (map acc_new xs) t - zc (map acc_old xs) t - defects t xs.
Proof.
  induction xs as [|x xs IH]; [reflexivity|]. cbn [flat_map map defects]. rewrite !zc_app, !zc_cons.
  unfold mv_gives at 1. unfold mv_takes at 1. unfold acc_new at 1. unfold acc_old at 1. unfold defect.
  rewrite !zc_cons. change (zc [] t) with 0. lia.
Qed.
Lemma import_count r m xs t : ranges_ok r -> ainv P m ->
  flows m (flat_map mv_gives xs) (flat_map mv_takes xs) ->
  let m' := update_multiplicities r m in
  zc (emitted r m' xs) t - zc (taken r m' xs) t = defects t xs.
Proof.
  intros Hr Hi Hf m'. pose proof (update_flow P r m _ _ Hr Hi Hf) as H. fold m' in H. cbv zeta in H.
  unfold flows in H. rewrite (Permutation_count_occ cdec) in H. specialize (H t). rewrite !count_occ_app in H.
  pose proof (gives_takes t xs) as G. unfold emitted, taken, zc in *. rewrite !count_occ_app.
  set (Em := map ptok (extract (a_ini m') (r_program r) ++ extract (a_ini m') (r_input r))) in *.
  clearbody Em. clear - H G. lia.
Qed.
Theorem import_balanced r m xs : ranges_ok r -> ainv P m ->
  flows m (flat_map mv_gives xs) (flat_map mv_takes xs) -> Forall calm xs ->
  Permutation (emitted r (update_multiplicities r m) xs) (taken r (update_multiplicities r m) xs).
Proof.
  intros Hr Hi Hf Hc. rewrite (Permutation_count_occ cdec). intros t.
  pose proof (import_count r m xs t Hr Hi Hf) as H. cbv zeta in H.
  assert (Hd : defects t xs = 0).
  { clear - Hc. induction Hc as [|x xs Hx Hxs IH]; [reflexivity|]. cbn [defects]. rewrite IH, calm_defect by exact Hx. reflexivity. }
  unfold zc in H. lia.
Qed.

(** Later moves of a cell start at the clock of an earlier access or after it. *)
Lemma moves_from ini l : forall h now a v c, ascending now l -> last_at h a = Some (v, c) -> c <= now ->
  forall y, In y (moves ini h l) -> mv_addr y = a -> c <= mv_from y.
Proof.
  induction l as [|[[b w] k] l IH]; intros h now a v c Ha Hl Hc y Hy Hya; [destruct Hy|].
  destruct Ha as (A & B & C). cbn [snd] in *. cbn [moves] in Hy. destruct Hy as [<-|Hy].
  - unfold move_of, mv_addr in Hya. subst b. unfold move_of, mv_from. rewrite Hl. lia.
  - destruct (Z.eq_dec b a) as [->|Hn].
    + assert (Hk : k <= mv_from y); [|lia].
      apply (IH ((a, w, k) :: h) k a w k C); try assumption; [|lia]. cbn [last_at]. rewrite Z.eqb_refl. reflexivity.
    + apply (IH ((b, w, k) :: h) k a v c C); try assumption; [|lia].
      cbn [last_at]. rewrite (proj2 (Z.eqb_neq b a)) by exact Hn. exact Hl.
Qed.
Lemma moves_split ini l : forall h now xs1 x xs2, ascending now l -> moves ini h l = xs1 ++ x :: xs2 ->
  forall y, In y xs2 -> mv_addr y = mv_addr x -> mv_clk x <= mv_from y.
Proof.
  induction l as [|[[b w] k] l IH]; intros h now xs1 x xs2 Ha E y Hy Hya; [destruct xs1; discriminate|].
  destruct Ha as (A & B & C). cbn [snd] in *. cbn [moves] in E. destruct xs1 as [|z xs1]; cbn [app] in E; injection E as E1 E2.
  - subst x. rewrite <- E2 in Hy. cbn [move_of mv_clk mv_addr] in *.
    apply (moves_from ini l ((b, w, k) :: h) k b w k C); try assumption; [|lia].
    cbn [last_at]. rewrite Z.eqb_refl. reflexivity.
  - eapply IH; eassumption.
Qed.
Lemma not_calm_first xs : ~ Forall calm xs -> exists xs1 x xs2, xs = xs1 ++ x :: xs2 /\ Forall calm xs1 /\ ~ calm x.
Proof.
  induction xs as [|x xs IH]; intros H; [elim H; constructor|].
  assert (D : calm x \/ ~ calm x).
  { unfold calm. destruct (Z_lt_le_dec GAP (mv_clk x - mv_from x)) as [Hl|Hl]; [|left; lia].
    assert (Dq : forall q q' : qm31, {q = q'} + {q <> q'}) by (repeat decide equality).
    destruct (Dq (mv_old x) (mv_first x)) as [E|E]; [left; auto|right; intros K; elim E; auto]. }
  destruct D as [D|D].
  - destruct IH as (xs1 & y & xs2 & -> & H1 & H2).
    + intros K. apply H. constructor; assumption.
    + exists (x :: xs1), y, xs2. split; [reflexivity|]. split; [constructor; assumption|exact H2].
  - exists [], x, xs. split; [reflexivity|]. split; [constructor|exact D].
Qed.
Theorem import_unbalanced r m ini l : ranges_ok r -> ainv P m -> ascending 0 l ->
  let xs := moves ini [] l in
  flows m (flat_map mv_gives xs) (flat_map mv_takes xs) -> ~ Forall calm xs ->
  exists t, zc (emitted r (update_multiplicities r m) xs) t = zc (taken r (update_multiplicities r m) xs) t + 1.
Proof.
  intros Hr Hi Ha xs Hf Hn. destruct (not_calm_first xs Hn) as (xs1 & x & xs2 & E & H1 & H2).
  exists (tok (mv_addr x) (mv_from x) (mv_old x)). set (t := tok (mv_addr x) (mv_from x) (mv_old x)).
  pose proof (import_count r m xs t Hr Hi Hf) as H. cbv zeta in H.
  assert (Hd : defects t xs = 1); [|lia].
  rewrite E, defects_app. cbn [defects].
  assert (D1 : defects t xs1 = 0).
  { clear - H1. induction H1 as [|y ys Hy Hys IH]; [reflexivity|]. cbn [defects]. rewrite IH, calm_defect by exact Hy. reflexivity. }
  assert (Hgap : GAP < mv_clk x - mv_from x /\ mv_old x <> mv_first x).
  { destruct (Z_lt_le_dec GAP (mv_clk x - mv_from x)) as [Hl|Hl]; [|elim H2; unfold calm; lia].
    split; [exact Hl|]. intros K. apply H2. intros _. exact K. }
  destruct Hgap as [Hg Hne].
  assert (Hst : mv_from x < mv_start x).
  { unfold mv_start. pose proof (bridges_pos _ Hg). unfold GAP. lia. }
  assert (Hoff : forall c v, c <> mv_from x -> occ (tok (mv_addr x) c v) t = 0).
  { intros c v Hc. unfold occ. destruct (cdec _ t) as [K|]; [|reflexivity]. apply tok_inj in K. lia. }
  assert (D2 : defect t x = 1).
  { unfold defect. rewrite !(Hoff (mv_start x)) by lia. unfold occ. fold t.
    destruct (cdec t t) as [_|K]; [|congruence]. destruct (cdec (tok _ _ (mv_first x)) t) as [K|_]; [|lia].
    apply tok_inj in K. destruct K as (_ & _ & K). congruence. }
  assert (D3 : defects t xs2 = 0).
  { assert (Hy : forall y, In y xs2 -> mv_addr y = mv_addr x -> mv_from x < mv_from y).
    { intros y Hy1 Hy2. pose proof (moves_split ini l [] 0 xs1 x xs2 Ha E y Hy1 Hy2). unfold GAP in Hg. lia. }
    clear - Hy. induction xs2 as [|y ys IH]; [reflexivity|]. cbn [defects]. rewrite IH by (intros; apply Hy; [right|]; assumption).
    assert (Dy : forall c v, mv_from y <= c -> occ (tok (mv_addr y) c v) t = 0).
    { intros c v Hc. unfold occ. destruct (cdec _ t) as [K|]; [|reflexivity]. apply tok_inj in K.
      destruct K as (K1 & K2 & _). specialize (Hy y (or_introl eq_refl) K1). lia. }
    unfold defect. pose proof (start_ge y). rewrite !Dy by lia. reflexivity. }
  lia.
Qed.
