(** The memories committed to for the segments of a run. *)
From Coq Require Import ZArith Bool List Lia Permutation.
From Verif Require Import M31 M31Facts Instr InstrFacts VmMem VmMemFacts Vm Abi Isa IsaFacts Machine VmFacts RunFacts SpaceFacts
  AirChain AirMem Adapter AdapterSpec AdapterFacts AdapterRun AdapterProps Merkle MerkleSpec MerkleFacts MerkleProps.
Import ListNotations.
Open Scope Z_scope.

Lemma publish_in_nodup m a : NoDup (keys (a_ini m)) /\ NoDup (keys (a_fin m)) ->
  NoDup (keys (a_ini (publish_in m a))) /\ NoDup (keys (a_fin (publish_in m a))).
Proof.
  intros [A B]. unfold publish_in. cbn [a_ini a_fin]. split; [apply set_mult_nodup; exact A|].
  destruct (hget (a_fin m) (mfrom a)) as [[[v c] k]|]; [|exact B]. destruct (k =? 0); [apply hset_nodup|]; exact B.
Qed.
Lemma publish_out_nodup m a : NoDup (keys (a_ini m)) /\ NoDup (keys (a_fin m)) ->
  NoDup (keys (a_ini (publish_out m a))) /\ NoDup (keys (a_fin (publish_out m a))).
Proof. intros [A B]. unfold publish_out. cbn [a_ini a_fin]. split; apply set_mult_nodup; assumption. Qed.
Lemma update_nodup r m : NoDup (keys (a_ini m)) /\ NoDup (keys (a_fin m)) ->
  NoDup (keys (a_ini (update_multiplicities r m))) /\ NoDup (keys (a_fin (update_multiplicities r m))).
Proof.
  intros H. unfold update_multiplicities.
  assert (K : forall l m, NoDup (keys (a_ini m)) /\ NoDup (keys (a_fin m)) ->
    NoDup (keys (a_ini (fold_left publish_out l m))) /\ NoDup (keys (a_fin (fold_left publish_out l m)))).
  { induction l as [|x l IH]; intros m0 H0; [exact H0|]. cbn [fold_left]. apply IH, publish_out_nodup, H0. }
  apply K. clear K. revert m H. generalize (ranged (r_program r) ++ ranged (r_input r)) as l.
  induction l as [|x l IH]; intros m0 H0; [exact H0|]. cbn [fold_left]. apply IH, publish_in_nodup, H0.
Qed.
Lemma in_keys_view l a : In a (keys l) -> view l a <> None.
Proof.
  unfold view. induction l as [|[b [[v c] k]] l IH]; [intros []|]. cbn [keys map hget]. intros [<-|H].
  - cbn [fst]. rewrite Z.eqb_refl. discriminate.
  - destruct (b =? a); [discriminate|]. apply IH, H.
Qed.
Lemma present_view l a : present l a = match view l a with Some (v, _) => v | None => qzero end.
Proof. unfold present, view. destruct (hget l a) as [[[v c] k]|]; reflexivity. Qed.

(** A segment is a run of the flat machine. *)
Definition seg_run (sg : segment) (f : flat) (s : state) (ev : list event) (f' : flat) (s' : state) : Prop :=
  eruns f s ev f' s' /\ (forall a, match seg_initial sg a with Some q => q = f a | None => f a = qzero end) /\
  seg_trace sg = map ev_state ev ++ [s'] /\ seg_mtrace sg = acc_log (concat (map ev_log ev)).

Lemma chain_pair f s l1 a b l2 f' s' : chain f s (l1 ++ a :: b :: l2) f' s' ->
  exists f1 s1 e1 f2 s2 e2 f3 s3, seg_run a f1 s1 e1 f2 s2 /\ seg_run b f2 s2 e2 f3 s3.
Proof.
  revert f s. induction l1 as [|x l1 IH]; intros f s H; cbn [app] in H.
  - inversion H as [|? ? ? ? tr lg f1 s1 ? ? H1 H2 H3 H4 H5]; subst. inversion H5 as [|? ? ? ? tr' lg' f3 s3 ? ? J1 J2 J3 J4 J5]; subst.
    destruct (fruns_eruns _ _ _ _ _ _ H2) as (ev & He & <- & <-). destruct (fruns_eruns _ _ _ _ _ _ J2) as (ev' & He' & <- & <-).
    exists f, s, ev, f1, s1, ev', f3, s3. unfold seg_run. rewrite H3, J3, !map_map. auto 10.
  - inversion H as [|? ? ? ? tr lg f1 s1 ? ? H1 H2 H3 H4 H5]; subst. apply (IH f1 s1 H5).
Qed.

(** First accesses of new cells leave zero. *)
Definition opens_zero (sg : segment) : Prop :=
  forall l1 e l2, seg_mtrace sg = l1 ++ e :: l2 -> seg_initial sg (VmMem.e_addr e) = None ->
    ~ In (VmMem.e_addr e) (map VmMem.e_addr l1) -> VmMem.e_val e = qzero.

Lemma opens_old sg : seg_fits sg -> forallb (fun e => match ini_of (seg_map sg) (VmMem.e_addr e) with Some _ => true | None => false end) (seg_mtrace sg) = true ->
  opens_zero sg.
Proof.
  intros Hf H l1 e l2 E Hn _. rewrite forallb_forall in H. specialize (H e). rewrite E in H.
  rewrite seg_map_ini, Hn in H by exact Hf. discriminate H. apply in_or_app. right. left. reflexivity.
Qed.
Lemma opens_new sg n e : nth_error (seg_mtrace sg) n = Some e -> seg_fits sg -> ini_of (seg_map sg) (VmMem.e_addr e) = None ->
  existsb (Z.eqb (VmMem.e_addr e)) (map VmMem.e_addr (firstn n (seg_mtrace sg))) = false -> VmMem.e_val e <> qzero -> ~ opens_zero sg.
Proof.
  intros E Hf Hn He Hv H. rewrite seg_map_ini in Hn by exact Hf. apply Hv. apply (H (firstn n (seg_mtrace sg)) e (skipn (S n) (seg_mtrace sg))); [|exact Hn|].
  - clear - E. revert n E. induction (seg_mtrace sg) as [|x l IH]; intros [|n] E; try discriminate.
    + injection E as ->. reflexivity.
    + cbn [firstn skipn app]. f_equal. apply IH, E.
  - intros Hin. apply existsb_eqb in Hin. congruence.
Qed.

Definition taddr (x : timed) : Z := fst (fst x).
Definition tval (x : timed) : qm31 := snd (fst x).
Lemma timeline_log ev : forall k, map (fun x => En (taddr x) (tval x)) (timeline k ev) = acc_log (concat (map ev_log ev)).
Proof.
  induction ev as [|e ev IH]; intros k; [reflexivity|]. cbn [timeline map concat]. unfold acc_log. rewrite !map_app.
  fold (acc_log (concat (map ev_log ev))). rewrite IH. f_equal. unfold at_clock. rewrite map_map. reflexivity.
Qed.
Lemma first_at_split h a v : first_at h a = Some v ->
  exists l1 c l2, h = l1 ++ (a, v, c) :: l2 /\ ~ In a (map taddr l2).
Proof.
  induction h as [|[[b w] c] h IH]; [discriminate|]. cbn [first_at]. destruct (first_at h a) as [x|] eqn:E.
  - intros K. injection K as ->. destruct (IH eq_refl) as (l1 & d & l2 & -> & Hn). exists ((b, w, c) :: l1), d, l2. auto.
  - destruct (Z.eqb_spec b a) as [->|]; [|discriminate]. intros K. injection K as ->. exists [], c, h. split; [reflexivity|].
    clear IH. intros Hin. revert E Hin. induction h as [|[[b w] d] h IH]; [intros _ []|]. cbn [first_at map].
    destruct (first_at h a) eqn:E'; [discriminate|]. destruct (Z.eqb_spec b a); [discriminate|]. intros _ [K|K]; [cbn in K; contradiction|]. apply IH; auto.
Qed.

Lemma untouched f s ev f' s' a : eruns f s ev f' s' -> last_at (rev (timeline 1 ev)) a = None -> f' a = f a.
Proof.
  intros He Hn. pose proof (tells_run (fun b => Some (f b)) f s ev f' s' He 1 []) as Ht. rewrite app_nil_r in Ht.
  specialize (Ht ltac:(intros b v; cbn [last_at]; intros E; injection E as <-; reflexivity) a). rewrite Hn in Ht. symmetry. apply Ht. reflexivity.
Qed.
Lemma last_at_in h a v c : last_at h a = Some (v, c) -> In (a, v, c) h.
Proof.
  induction h as [|[[b w] d] h IH]; [discriminate|]. cbn [last_at]. destruct (Z.eqb_spec b a) as [->|].
  - intros E. injection E as -> ->. left. reflexivity.
  - intros E. right. auto.
Qed.

Theorem seg_memories sg r f s ev f' s' : seg_ok sg -> seg_fits sg -> seg_run sg f s ev f' s' ->
  Forall (fun e => is_print (ev_instr e) = false) ev -> Z.of_nat (length ev) < P ->
  exists m, import (seg_trace sg) (seg_mtrace sg) (seg_map sg) r = AdOk (Adapted (expected (seg_initial sg) [] 1 ev) s s' m) /\
    NoDup (keys (a_ini m)) /\ NoDup (keys (a_fin m)) /\ Forall addr_ok (keys (a_ini m)) /\ Forall addr_ok (keys (a_fin m)) /\
    (forall a, present (a_fin m) a = f' a) /\ (opens_zero sg -> forall a, present (a_ini m) a = f a).
Proof.
  intros (Hlog & _ & Hini) Hfit (He & H1 & Et & H4) Hp Hl.
  pose proof (seg_map_blank sg Hfit) as Hb.
  assert (Ha : agrees (ini_of (seg_map sg)) f).
  { intros a w. rewrite seg_map_ini by exact Hfit. intros E. specialize (H1 a). rewrite E in H1. exact H1. }
  destruct (import_run (seg_map sg) r f s ev f' s' He Hp Hb Hl) as (m & E & Hinv & Ht & _).
  destruct (tracks_views (seg_map sg) f f' s s' ev m r He Ht Hb Ha) as (V & W & U).
  exists (update_multiplicities r m). rewrite Et, H4. split.
  { rewrite (expected_ext (seg_initial sg) (ini_of (seg_map sg))); [exact E|]. intros a. symmetry. apply seg_map_ini. exact Hfit. }
  destruct (update_nodup r m) as [N1 N2]; [split; apply Hinv|]. split; [exact N1|]. split; [exact N2|].
  assert (Htl : forall x, In x (timeline 1 ev) -> entry_ok (taddr x, tval x)).
  { intros x Hx. unfold log_ok in Hlog. rewrite H4, <- (timeline_log ev 1) in Hlog. rewrite Forall_forall in Hlog.
    exact (Hlog _ (in_map _ _ _ Hx)). }
  assert (Hini' : forall a v, ini_of (seg_map sg) a = Some v -> entry_ok (a, v)) by (intros a v; rewrite seg_map_ini by exact Hfit; apply Hini).
  split; [|split].
  - apply Forall_forall. intros a Hin. apply in_keys_view in Hin. rewrite W in Hin.
    destruct (ini_of (seg_map sg) a) as [v|] eqn:Ei; [apply (Hini' _ _ Ei)|].
    destruct (first_at (rev (timeline 1 ev)) a) as [v|] eqn:Ef; [|exfalso; apply Hin; reflexivity].
    destruct (first_at_split _ _ _ Ef) as (l1 & c & l2 & Es & _).
    apply (Htl (a, v, c)). apply in_rev. rewrite Es. apply in_or_app. right. left. reflexivity.
  - apply Forall_forall. intros a Hin. apply in_keys_view in Hin. rewrite V in Hin.
    destruct (last_at (rev (timeline 1 ev)) a) as [[v c]|] eqn:Ef.
    + apply (Htl (a, v, c)). apply in_rev. apply last_at_in. exact Ef.
    + destruct (ini_of (seg_map sg) a) as [v|] eqn:Ei; [apply (Hini' _ _ Ei)|]. exfalso; apply Hin; reflexivity.
  - split.
    + intros a. rewrite present_view, V. destruct (last_at (rev (timeline 1 ev)) a) as [[v c]|] eqn:Ef; [reflexivity|].
      destruct (ini_of (seg_map sg) a) as [v|] eqn:Ei; cbn [option_map]; [symmetry; apply U; assumption|].
      rewrite (untouched f s ev f' s' a He Ef). specialize (H1 a). rewrite <- (seg_map_ini sg a Hfit), Ei in H1. symmetry. exact H1.
    + intros Hz a. rewrite present_view, W. specialize (H1 a). rewrite <- (seg_map_ini sg a Hfit) in H1.
      destruct (ini_of (seg_map sg) a) as [v|] eqn:Ei; cbn [option_map]; [exact H1|].
      destruct (first_at (rev (timeline 1 ev)) a) as [v|] eqn:Ef; cbn [option_map]; [|symmetry; exact H1].
      rewrite H1. destruct (first_at_split _ _ _ Ef) as (l1 & c & l2 & Es & Hn).
      apply (f_equal (@rev timed)) in Es. rewrite rev_involutive, rev_app_distr in Es. cbn [rev] in Es. rewrite <- app_assoc in Es. cbn [app] in Es.
      apply (f_equal (map (fun x => En (taddr x) (tval x)))) in Es. rewrite timeline_log, map_app in Es. cbn [map] in Es.
      rewrite <- H4 in Es. apply (Hz _ _ _ Es); cbn [VmMem.e_addr taddr fst].
      * rewrite <- (seg_map_ini sg a Hfit). exact Ei.
      * rewrite map_map. cbn [VmMem.e_addr]. rewrite map_rev. intros Hin. apply in_rev in Hin. exact (Hn Hin).
Qed.

Lemma build_tree_inv hash t r m ns x : NoDup (keys m) -> Forall addr_ok (keys m) -> build_tree hash t r m = Some (ns, Some x) ->
  x = root hash (present m).
Proof.
  intros Hn Ha E. assert (m <> []) by (intros ->; discriminate).
  assert (Hl : Z.of_nat (length m) < 268435456).
  { unfold build_tree in E. destruct m as [|y m]; [discriminate|]. destruct (Z.ltb_spec (Z.of_nat (length (y :: m))) 268435456); [assumption|discriminate]. }
  destruct (build_tree_root hash t r m H Hn Ha Hl) as (ns' & E' & _). rewrite E' in E. injection E as _ <-. reflexivity.
Qed.
