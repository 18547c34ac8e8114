(** An accepted proof is an execution of the flat machine. *)
From Coq Require Import ZArith Bool List Lia Permutation.
From Verif Require Import M31 M31Facts Instr Isa Machine Air AirOpcodes AirSpec AirFacts AirSound AirChain AirMem AirGlobal AirRows.
Import ListNotations.
Open Scope Z_scope.

(** *** Applying writes *)
Lemma upds_out {A} ws : forall (f : Z -> A) b, ~ In b (map fst ws) -> upds f ws b = f b.
Proof.
  induction ws as [|[a v] ws IH]; intros f b Hb; [reflexivity|]. cbn [upds map fst] in *.
  rewrite IH by (intros H; apply Hb; right; exact H).
  destruct (Z.eqb_spec b a) as [->|]; [exfalso; apply Hb; left; reflexivity|reflexivity].
Qed.
Lemma upds_in {A} ws : forall (f : Z -> A) a v, NoDup (map fst ws) -> In (a, v) ws -> upds f ws a = v.
Proof.
  induction ws as [|[b w] ws IH]; intros f a v Hn Hin; [destruct Hin|]. cbn [upds map fst] in *.
  inversion Hn as [|? ? Hb Hn']; subst. destruct Hin as [H|Hin].
  - injection H as -> ->. rewrite upds_out by exact Hb. rewrite Z.eqb_refl. reflexivity.
  - apply IH; assumption.
Qed.

(** *** Abstract steps *)
Record astep : Set := AS { as_s : state; as_clk : Z; as_i : instr; as_t : state; as_accs : list acc }.
Definition good (st : astep) : Prop :=
  performs (as_i st) (as_s st) (as_t st) (as_accs st) /\ clocks_ok (as_clk st) (as_accs st) /\
  wf (as_clk st) /\ Forall (fun x => wf (ac_prev x)) (as_accs st).
Definition rtok (s : state) (c : Z) : list Z := [pc s; fp s; c].
Definition rsrc (st : astep) : list Z := rtok (as_s st) (as_clk st).
Definition rdst (st : astep) : list Z := rtok (as_t st) ((as_clk st + 1) mod P).
Definition edge_of (c : Z) (x : acc) : edge := Edge (ac_addr x) (ac_prev x) (ac_old x) c (ac_new x).
Definition edges_of (st : astep) : list edge := map (edge_of (as_clk st)) (as_accs st).

Lemma rtok_inj s c s' c' : rtok s c = rtok s' c' -> s = s' /\ c = c'.
Proof. destruct s, s'. unfold rtok. cbn. intros H. injection H as -> -> ->. auto. Qed.

(** *** The machine follows the ordered steps *)
Section Exec.
  Variable steps : list astep.
  Variable Ec : list edge.
  Variable ini : list (Z * qm31).
  Variable fin : list (Z * (Z * qm31)).
  Variable s0 sN : state.
  Let N := Z.of_nat (length steps).
  Let Eo := flat_map edges_of steps.
  Let E := Eo ++ Ec.
  Variable T : Z.
  Hypothesis Hgood : Forall good steps.
  Hypothesis Hcu : Forall cu_edge Ec.
  Hypothesis Hsize : N + STEP * (Z.of_nat (length Ec) + 2) < P.
  Hypothesis Hini : NoDup (map fst ini).
  Hypothesis Hfin : NoDup (map fst fin).
  Hypothesis Haddr : forall a v, In (a, v) ini -> a < ADDRS.
  Hypothesis Hregs : Permutation (rtok sN T :: map rsrc steps) (rtok s0 1 :: map rdst steps).
  Hypothesis Hbal : Permutation (map fin_tok fin ++ map esrc E) (map ini_tok ini ++ map edst E).

  Lemma N_small : N < P.
  Proof. clear - Hsize. unfold STEP in Hsize. lia. Qed.
  Lemma N_pos : 0 <= N.
  Proof. unfold N. lia. Qed.

  Lemma steps_acyclic : acyclic rsrc rdst steps.
  Proof.
    apply (clock_acyclic rsrc rdst (fun t => nth 2 t 0)); [|exact N_small].
    eapply Forall_impl; [|exact Hgood]. intros st (_ & _ & Hw & _). split; [exact Hw|reflexivity].
  Qed.
  Lemma ordered : exists ss, Permutation steps ss /\ walk rsrc rdst (rtok s0 1) ss (rtok sN T).
  Proof. exact (walk_exists rsrc rdst dec steps _ _ steps_acyclic Hregs). Qed.

  Section Order.
    Variable ss : list astep.
    Hypothesis Hss : Permutation steps ss.
    Hypothesis Hwalk : walk rsrc rdst (rtok s0 1) ss (rtok sN T).

    (** The k-th step has clock k. *)
    Lemma walk_clock l : forall s k t, walk rsrc rdst (rtok s k) l t ->
      0 <= k -> k + Z.of_nat (length l) <= P ->
      forall st, In st l -> k <= as_clk st < k + Z.of_nat (length l).
    Proof.
      induction l as [|x l IH]; intros s k t Hw Hk Hl st Hin; [destruct Hin|].
      cbn [walk] in Hw. destruct Hw as [Hx Hw]. apply rtok_inj in Hx. destruct Hx as [_ Hxk].
      cbn [length] in *. destruct Hin as [->|Hin]; [lia|].
      unfold rdst in Hw. rewrite Hxk in Hw.
      destruct (Z.eq_dec (k + 1) P) as [HP|HP].
      - destruct l; [destruct Hin|cbn [length] in Hl; lia].
      - rewrite Z.mod_small in Hw by lia.
        specialize (IH _ _ _ Hw ltac:(lia) ltac:(lia) st Hin). lia.
    Qed.
    Lemma clock_range st : In st steps -> 1 <= as_clk st <= N.
    Proof.
      intros Hin. rewrite Hss in Hin.
      pose proof (walk_clock _ _ _ _ Hwalk ltac:(lia)) as H.
      assert (Hl : length ss = length steps) by (apply Permutation_length, Permutation_sym, Hss).
      rewrite Hl in H. pose proof N_small as Hn. fold N in H.
      specialize (H ltac:(clear - Hn; lia) st Hin). lia.
    Qed.

    Lemma op_edges : Forall (op_edge N) Eo.
    Proof.
      apply Forall_forall. intros e He. apply in_flat_map in He. destruct He as (st & Hst & He).
      apply in_map_iff in He. destruct He as (x & <- & Hx).
      pose proof (clock_range st Hst) as Hr. rewrite Forall_forall in Hgood.
      destruct (Hgood st Hst) as (_ & Hck & _ & Hpw). unfold clocks_ok in Hck. rewrite Forall_forall in Hck, Hpw.
      split; [exact Hr|]. split; [exact (Hpw x Hx)|exact (Hck x Hx)].
    Qed.
    Let distinct := all_distinct N Eo Ec ini fin N_pos op_edges Hcu Hsize Hini Hfin Hbal.
    Let cont := content Eo Ec.

    Lemma edges_in st e : In st steps -> In e (edges_of st) -> In e E.
    Proof. intros H1 H2. apply in_or_app. left. apply in_flat_map. exists st. auto. Qed.

    (** Within one step the addresses are distinct. *)
    Lemma step_distinct st : In st steps -> NoDup (map ac_addr (as_accs st)).
    Proof.
      intros Hst. pose proof distinct as Hd. rewrite map_app in Hd.
      assert (Hd' : NoDup (map (fun e => (e_addr e, e_clk e)) Eo)).
      { clear - Hd. revert Hd. generalize (map (fun e => (e_addr e, e_clk e)) Eo) as l.
        generalize (map (fun e => (e_addr e, e_clk e)) Ec) as l'. intros l' l.
        induction l as [|x l IH]; intros H; [constructor|]. cbn [app] in H. inversion H as [|? ? H1 H2]; subst.
        constructor; [|apply IH; exact H2]. intros Hin. apply H1. apply in_or_app. left. exact Hin. }
      assert (Hsub : NoDup (map (fun e => (e_addr e, e_clk e)) (edges_of st))).
      { clear - Hd' Hst. unfold Eo in Hd'. induction steps as [|x l IH]; [destruct Hst|].
        cbn [flat_map] in Hd'. rewrite map_app in Hd'. destruct Hst as [->|Hst].
        - revert Hd'. generalize (map (fun e => (e_addr e, e_clk e)) (edges_of st)) as u.
          generalize (map (fun e => (e_addr e, e_clk e)) (flat_map edges_of l)) as w. intros w u.
          induction u as [|y u IHu]; intros H; [constructor|]. cbn [app] in H. inversion H as [|? ? H1 H2]; subst.
          constructor; [|apply IHu; exact H2]. intros Hin. apply H1. apply in_or_app. left. exact Hin.
        - apply IH; [exact Hst|].
          revert Hd'. generalize (map (fun e => (e_addr e, e_clk e)) (edges_of x)) as u. intros u.
          induction u as [|y u IHu]; intros H; [exact H|]. cbn [app] in H. inversion H; subst. auto. }
      unfold edges_of in Hsub. rewrite map_map in Hsub. cbn [edge_of e_addr e_clk] in Hsub.
      apply (NoDup_map_inv (fun a => (a, as_clk st))). rewrite map_map. exact Hsub.
    Qed.
    (** The steps have distinct clocks. *)
    Lemma walk_distinct l : forall s k t, walk rsrc rdst (rtok s k) l t ->
      0 <= k -> k + Z.of_nat (length l) <= P -> NoDup (map as_clk l).
    Proof.
      induction l as [|x l IH]; intros s k t Hw Hk Hl; [constructor|].
      cbn [walk] in Hw. destruct Hw as [Hx Hw]. apply rtok_inj in Hx. destruct Hx as [_ Hxk].
      cbn [length map] in *. unfold rdst in Hw. rewrite Hxk in Hw.
      destruct l as [|y l]; [constructor; [intros []|constructor]|].
      rewrite Z.mod_small in Hw by (cbn [length] in Hl; lia).
      constructor; [|apply (IH _ _ _ Hw); cbn [length] in *; lia].
      intros Hin. apply in_map_iff in Hin. destruct Hin as (z & Hz & Hin).
      pose proof (walk_clock (y :: l) _ _ _ Hw ltac:(lia) ltac:(cbn [length] in *; lia) z Hin). lia.
    Qed.
    Lemma clocks_distinct st st' : In st steps -> In st' steps -> as_clk st = as_clk st' -> st = st'.
    Proof.
      intros H1 H2 Hc. rewrite Hss in H1, H2.
      assert (Hl : length ss = length steps) by (apply Permutation_length, Permutation_sym, Hss).
      pose proof N_small as Hn.
      pose proof (walk_distinct ss _ _ _ Hwalk ltac:(lia)) as Hd. rewrite Hl in Hd. fold N in Hd.
      specialize (Hd ltac:(clear - Hn; lia)). clear - H1 H2 Hc Hd.
      induction ss as [|x l IH]; [destruct H1|]. cbn [map] in Hd. inversion Hd as [|? ? Ho Hd']; subst.
      destruct H1 as [->|H1], H2 as [->|H2]; auto.
      - exfalso. apply Ho. rewrite Hc. apply in_map. exact H2.
      - exfalso. apply Ho. rewrite <- Hc. apply in_map. exact H1.
    Qed.

    (** One step. *)
    Lemma exec_step f0 f st : holds f0 ini -> In st steps -> cont f0 (as_clk st - 1) f ->
      exists f' lg, fstep f (as_s st) (as_i st) f' (as_t st) lg /\ cont f0 (as_clk st) f' /\
        Permutation lg (map (fun x => (ac_addr x, ac_new x)) (as_accs st)).
    Proof.
      intros Hh Hst Hf. destruct (proj1 (Forall_forall _ _) Hgood st Hst) as (Hp & _).
      assert (Hcells : forall x, In x (as_accs st) -> f (ac_addr x) = ac_old x).
      { intros x Hx. apply (content_old N Eo Ec ini fin N_pos op_edges Hcu Hsize Hini Hfin Hbal f0 f (edge_of (as_clk st) x) Hh Hf).
        apply (edges_in st _ Hst). apply in_map. exact Hx. }
      destruct (Hp f Hcells) as (Hat & e & He & Hn & Hpk & Hfelt & Hperm).
      pose proof (step_distinct st Hst) as Hnd.
      assert (Hin_ini : forall a, In a (map ac_addr (as_accs st)) -> a < ADDRS).
      { intros a Ha. apply in_map_iff in Ha. destruct Ha as (x & <- & Hx).
        assert (Hxe : In (edge_of (as_clk st) x) (at_addr Eo Ec (ac_addr x))).
        { apply in_at. split; [|reflexivity]. apply (edges_in st _ Hst). apply in_map. exact Hx. }
        destruct (chain_of N Eo Ec ini fin N_pos op_edges Hcu Hsize Hini Hfin Hbal f0 _ _ Hh Hxe) as (ch & cf & vf & _ & _ & _ & Hi).
        apply in_map_iff in Hi. destruct Hi as ([a' v] & Ha' & Hi). cbn [fst] in Ha'. subst a'. exact (Haddr _ _ Hi). }
      set (sn := seen f (code_addrs (pc (as_s st)) (as_i st)) ++ seen f (reads e)).
      assert (Hperm' : Permutation (map (fun x => (ac_addr x, ac_new x)) (as_accs st)) (sn ++ stored (writes e)))
        by (unfold sn; rewrite <- app_assoc; exact Hperm).
      assert (Haddrs : Permutation (map ac_addr (as_accs st)) (map fst sn ++ map fst (stored (writes e)))).
      { rewrite <- map_app. rewrite <- (Permutation_map fst Hperm'). rewrite map_map. cbn [fst]. apply Permutation_refl. }
      assert (Hnd2 : NoDup (map fst sn ++ map fst (stored (writes e))))
        by (apply (Permutation_NoDup Haddrs Hnd)).
      assert (Hndw : NoDup (map fst (stored (writes e)))).
      { clear - Hnd2. induction (map fst sn) as [|x l IH]; [exact Hnd2|]. cbn [app] in Hnd2. inversion Hnd2; auto. }
      assert (Hdisj : forall a, In a (map fst sn) -> ~ In a (map fst (stored (writes e)))).
      { clear - Hnd2. induction (map fst sn) as [|x l IH]; intros a Ha; [destruct Ha|].
        cbn [app] in Hnd2. inversion Hnd2 as [|? ? H1 H2]; subst. destruct Ha as [->|Ha].
        - intros Hx. apply H1. apply in_or_app. right. exact Hx.
        - exact (IH H2 a Ha). }
      set (f' := upds f (stored (writes e))).
      exists f', (seen f (code_addrs (pc (as_s st)) (as_i st)) ++ seen f (reads e) ++ stored (writes e)).
      split; [|split].
      - split; [exact Hat|]. exists e. split; [exact He|]. split.
        { rewrite Hpk, app_nil_r. intros a Ha. split; [|exact (Hfelt a Ha)]. apply Hin_ini. rewrite Haddrs.
          apply in_or_app. left. unfold sn, seen. rewrite map_app, !map_map. cbn [fst]. rewrite !map_id.
          apply in_or_app. right. exact Ha. }
        split.
        { intros w Hw. apply Hin_ini. rewrite Haddrs. apply in_or_app. right. unfold stored. rewrite map_map. cbn [fst].
          apply in_map_iff. exists w. auto. }
        split; [exact Hn|]. split; [reflexivity|reflexivity].
      - assert (Hnew : forall x, In x (as_accs st) -> f' (ac_addr x) = ac_new x).
        { intros x Hx. assert (Hi : In (ac_addr x, ac_new x) (sn ++ stored (writes e))).
          { rewrite <- Hperm'. apply in_map_iff. exists x. auto. }
          apply in_app_or in Hi. destruct Hi as [Hi|Hi].
          - assert (Hv : ac_new x = f (ac_addr x)).
            { unfold sn, seen in Hi. rewrite <- map_app in Hi. apply in_map_iff in Hi. destruct Hi as (b & Hb & _). congruence. }
            rewrite Hv. apply upds_out. apply Hdisj. apply (in_map fst) in Hi. exact Hi.
          - apply upds_in; assumption. }
        assert (Hkeep : forall a, ~ In a (map ac_addr (as_accs st)) -> f' a = f a).
        { intros a Ha. apply upds_out. intros Hi. apply Ha. rewrite Haddrs. apply in_or_app. right. exact Hi. }
        apply (content_next N Eo Ec ini fin N_pos op_edges Hcu Hsize Hbal f0 (as_clk st) f f' Hh Hf).
        + intros e0 He0 Hk. apply in_app_or in He0 as He0'. destruct He0' as [Ho|Hc].
          * apply in_flat_map in Ho. destruct Ho as (st' & Hst' & Ho).
            apply in_map_iff in Ho. destruct Ho as (x & <- & Hx). cbn [edge_of e_clk e_addr e_new] in *.
            assert (st' = st) by (apply clocks_distinct; assumption). subst st'. exact (Hnew x Hx).
          * destruct (in_dec Z.eq_dec (e_addr e0) (map ac_addr (as_accs st))) as [Ha|Ha].
            { exfalso. apply in_map_iff in Ha. destruct Ha as (x & Hx & Hxi).
              pose proof distinct as Hd. rewrite map_app in Hd.
              assert (G1 : In (e_addr e0, e_clk e0) (map (fun e => (e_addr e, e_clk e)) Eo)).
              { apply in_map_iff. exists (edge_of (as_clk st) x). cbn [edge_of e_addr e_clk]. split; [congruence|].
                apply in_flat_map. exists st. split; [exact Hst|]. apply in_map. exact Hxi. }
              assert (G2 : In (e_addr e0, e_clk e0) (map (fun e => (e_addr e, e_clk e)) Ec))
                by (apply (in_map (fun e => (e_addr e, e_clk e))); exact Hc).
              clear - Hd G1 G2. induction (map (fun e => (e_addr e, e_clk e)) Eo) as [|y l IH]; [destruct G1|].
              cbn [app] in Hd. inversion Hd as [|? ? H1 H2]; subst. destruct G1 as [->|G1]; [|exact (IH H2 G1)].
              apply H1. apply in_or_app. right. exact G2. }
            { rewrite (Hkeep _ Ha). destruct (proj1 (Forall_forall _ _) Hcu e0 Hc) as (_ & _ & Hno). rewrite Hno.
              rewrite <- Hk in Hf.
              apply (content_old N Eo Ec ini fin N_pos op_edges Hcu Hsize Hini Hfin Hbal f0 f e0 Hh Hf He0). }
        + intros a Hno. apply Hkeep. intros Ha. apply in_map_iff in Ha. destruct Ha as (x & Hx & Hxi).
          apply (Hno (edge_of (as_clk st) x)); [|reflexivity|exact Hx].
          apply (edges_in st _ Hst). apply in_map. exact Hxi.
      - apply Permutation_sym. exact Hperm.
    Qed.

    Lemma exec_walk f0 : holds f0 ini -> forall l s k f,
      (forall st, In st l -> In st steps) -> walk rsrc rdst (rtok s k) l (rtok sN T) ->
      1 <= k -> k + Z.of_nat (length l) = N + 1 -> cont f0 (k - 1) f ->
      T = N + 1 /\
      exists lg f', fruns f s (map (fun st => (as_s st, as_i st)) l) lg f' sN /\ cont f0 N f'.
    Proof.
      intros Hh. induction l as [|st l IH]; intros s k f Hsub Hw Hk Hl Hf.
      - cbn [walk] in Hw. apply rtok_inj in Hw. destruct Hw as [-> HT]. cbn [length] in Hl.
        split; [lia|]. exists [], f. split; [constructor; reflexivity|].
        replace N with (k - 1) by lia. exact Hf.
      - cbn [walk] in Hw. destruct Hw as [Hx Hw]. apply rtok_inj in Hx. destruct Hx as [Hs Hkk].
        assert (Hst : In st steps) by (apply Hsub; left; reflexivity).
        rewrite <- Hkk in Hf.
        destruct (exec_step f0 f st Hh Hst Hf) as (f1 & lg1 & Hstep & Hf1 & _).
        unfold rdst in Hw. rewrite Hkk in Hw. cbn [length] in Hl. assert (Hn : N + 2 < P) by (clear - Hsize; unfold STEP in Hsize; lia).
        rewrite Z.mod_small in Hw by lia.
        destruct (IH (as_t st) (k + 1) f1) as (HT & lg2 & f2 & Hr & Hf2).
        + intros x Hxx. apply Hsub. right. exact Hxx.
        + exact Hw.
        + lia.
        + lia.
        + replace (k + 1 - 1) with (as_clk st) by lia. exact Hf1.
        + split; [exact HT|]. exists (lg1 ++ lg2), f2. split; [|exact Hf2].
          cbn [map]. rewrite Hs. rewrite Hs in Hstep. econstructor; eassumption.
    Qed.
  End Order.

  Theorem exec_all f0 : holds f0 ini ->
    T = N + 1 /\
    exists ss lg f', Permutation steps ss /\
      fruns f0 s0 (map (fun st => (as_s st, as_i st)) ss) lg f' sN /\
      (forall a cf vf, In (a, (cf, vf)) fin -> f' a = vf) /\
      (forall a, ~ In a (map fst ini) -> f' a = f0 a) /\
      (forall a, In a (map fst ini) <-> In a (map fst fin)).
  Proof.
    intros Hh. destruct ordered as (ss & Hss & Hw).
    assert (Hl : length ss = length steps) by (apply Permutation_length, Permutation_sym, Hss).
    destruct (exec_walk ss Hss Hw f0 Hh ss s0 1 f0) as (HT & lg & f' & Hr & Hf).
    - intros st Hst. rewrite Hss. exact Hst.
    - exact Hw.
    - lia.
    - rewrite Hl. fold N. lia.
    - apply content_start with (N := N) (ini := ini) (fin := fin); try assumption.
      + exact N_pos.
      + exact (op_edges ss Hss Hw).
    - split; [exact HT|]. exists ss, lg, f'. split; [exact Hss|]. split; [exact Hr|]. split; [|split].
      + intros a cf vf Hin. eapply (content_end N Eo Ec ini fin); try eassumption.
        * exact N_pos.
        * exact (op_edges ss Hss Hw).
      + intros a Ha. destruct (Hf a) as [H _]. apply H.
        destruct (addr_cases N Eo Ec ini fin N_pos (op_edges ss Hss Hw) Hcu Hsize Hini Hfin Hbal a) as [(_ & _ & H0)|(v & cf & vf & ch & Hi & _)]; [exact H0|].
        exfalso. apply Ha. apply (in_map fst) in Hi. exact Hi.
      + exact (same_addresses N Eo Ec ini fin N_pos (op_edges ss Hss Hw) Hcu Hsize Hini Hfin Hbal).
  Qed.
End Exec.
