(** Lemmas about the adapter's memory: every push keeps the token flow balanced. *)
From Coq Require Import ZArith Bool List Lia Permutation.
From Verif Require Import M31 M31Facts Instr VmMem Vm Abi AirChain AirMem Adapter Machine AdapterSpec.
Import ListNotations.
Open Scope Z_scope.

Notation cdec := (list_eq_dec Z.eq_dec).
(** *** Maps *)
Lemma hget_in l a v : hget l a = Some v -> In (a, v) l.
Proof.
  induction l as [|[k w] l IH]; cbn [hget]; [discriminate|].
  destruct (Z.eqb_spec k a) as [->|Hn]; intros H.
  - injection H as ->. left. reflexivity.
  - right. auto.
Qed.
Lemma hget_none l a : hget l a = None <-> ~ In a (keys l).
Proof.
  induction l as [|[k w] l IH]; cbn [hget keys map fst In]; [tauto|].
  destruct (Z.eqb_spec k a) as [->|Hn].
  - split; [discriminate|]. intros H. elim H. left. reflexivity.
  - rewrite IH. unfold keys. tauto.
Qed.
Lemma hget_nodup l a v : NoDup (keys l) -> In (a, v) l -> hget l a = Some v.
Proof.
  induction l as [|[k w] l IH]; intros Hn Hin; [destruct Hin|].
  cbn [keys map fst] in Hn. inversion Hn as [|? ? Hk Hn']; subst. cbn [hget].
  destruct Hin as [E|Hin].
  - injection E as -> ->. rewrite Z.eqb_refl. reflexivity.
  - destruct (Z.eqb_spec k a) as [->|]; [|auto].
    elim Hk. apply (in_map fst) in Hin. exact Hin.
Qed.
Lemma hget_hset l a v b : hget (hset l a v) b = if b =? a then Some v else hget l b.
Proof.
  induction l as [|[k w] l IH]; cbn [hset hget].
  - rewrite (Z.eqb_sym b a). reflexivity.
  - destruct (Z.eqb_spec k a) as [->|Hka]; cbn [hget].
    + destruct (Z.eqb_spec a b) as [->|Hab]; [rewrite Z.eqb_refl; reflexivity|].
      rewrite (proj2 (Z.eqb_neq b a)) by congruence. reflexivity.
    + destruct (Z.eqb_spec k b) as [->|Hkb].
      * rewrite (proj2 (Z.eqb_neq b a)) by congruence. reflexivity.
      * exact IH.
Qed.
Lemma hset_fresh l a v : hget l a = None -> hset l a v = l ++ [(a, v)].
Proof.
  induction l as [|[k w] l IH]; cbn [hset hget app]; [reflexivity|].
  destruct (Z.eqb_spec k a); [discriminate|]. intros H. rewrite IH by exact H. reflexivity.
Qed.
Lemma hset_perm l a v w : hget l a = Some w -> Permutation ((a, v) :: l) ((a, w) :: hset l a v).
Proof.
  induction l as [|[k u] l IH]; cbn [hset hget]; [discriminate|].
  destruct (Z.eqb_spec k a) as [->|Hn]; intros H.
  - injection H as ->. apply perm_swap.
  - apply perm_trans with ((k, u) :: (a, v) :: l); [apply perm_swap|].
    apply perm_trans with ((k, u) :: (a, w) :: hset l a v); [apply perm_skip; auto|apply perm_swap].
Qed.
Lemma hset_keys_in l a v w : hget l a = Some w -> keys (hset l a v) = keys l.
Proof.
  induction l as [|[k u] l IH]; cbn [hset hget keys map fst]; [discriminate|].
  destruct (Z.eqb_spec k a) as [->|Hn]; intros H; cbn [map fst]; [reflexivity|].
  f_equal. apply IH. exact H.
Qed.
Lemma hset_nodup l a v : NoDup (keys l) -> NoDup (keys (hset l a v)).
Proof.
  intros Hn. destruct (hget l a) as [w|] eqn:E.
  - rewrite (hset_keys_in _ _ _ _ E). exact Hn.
  - rewrite hset_fresh by exact E. unfold keys. rewrite map_app. cbn [map fst].
    apply (Permutation_NoDup (l := a :: map fst l)); [apply Permutation_cons_append|].
    constructor; [|exact Hn]. apply hget_none. exact E.
Qed.

Definition one (k : Z) (a : Z) (c : option cellv) : list (list Z) :=
  match c with Some v => toks k [(a, v)] | None => [] end.

Lemma filter_perm {A} (f : A -> bool) l l' : Permutation l l' -> Permutation (filter f l) (filter f l').
Proof.
  induction 1; cbn [filter].
  - constructor.
  - destruct (f x); [apply perm_skip; assumption|assumption].
  - destruct (f x), (f y); try apply Permutation_refl. apply perm_swap.
  - eapply perm_trans; eassumption.
Qed.
Lemma toks_perm k l l' : Permutation l l' -> Permutation (toks k l) (toks k l').
Proof. intros H. apply Permutation_map, filter_perm, H. Qed.
Lemma toks_app k l l' : toks k (l ++ l') = toks k l ++ toks k l'.
Proof. unfold toks. rewrite filter_app, map_app. reflexivity. Qed.
Lemma toks_cons k x l : toks k (x :: l) = toks k [x] ++ toks k l.
Proof. apply (toks_app k [x] l). Qed.
(** Replacing a cell exchanges its token. *)
Lemma toks_hset k l a v :
  Permutation (toks k [(a, v)] ++ toks k l) (one k a (hget l a) ++ toks k (hset l a v)).
Proof.
  destruct (hget l a) as [w|] eqn:E; unfold one.
  - rewrite <- !toks_cons. apply toks_perm. apply hset_perm. exact E.
  - rewrite hset_fresh by exact E. rewrite toks_app. cbn [app]. apply Permutation_app_comm.
Qed.

(** *** The invariant *)
(** Untouched cells have clock 0 and multiplicity 0 in both maps; touched cells have
    multiplicity 1 in the initial map and -1, with the clock of the last access, in the
    final one. *)
Definition cell_ok (now : Z) (i f : option cellv) : Prop :=
  match i, f with
  | None, None => True
  | Some (iv, ic, im), Some (v, c, k) =>
    ic = 0 /\ (im = 0 /\ k = 0 /\ c = 0 /\ v = iv \/ im = 1 /\ k = P - 1 /\ 1 <= c <= now)
  | _, _ => False
  end.
Definition ainv (now : Z) (m : amem) : Prop :=
  NoDup (keys (a_ini m)) /\ NoDup (keys (a_fin m)) /\
  forall a, cell_ok now (hget (a_ini m) a) (hget (a_fin m) a).

Definition g_old (g : marg) : list Z := tok (g_addr g) (g_prev_clock g) (g_prev_val g).
(** [pr] and [co]: the tokens emitted and consumed so far by the accesses. *)
Definition flows (m : amem) (pr co : list (list Z)) : Prop :=
  Permutation (toks 1 (a_ini m) ++ map cu_new (a_cu m) ++ pr)
              (toks (P - 1) (a_fin m) ++ map cu_old (a_cu m) ++ co).

(** The clock and content a push finds. *)
Definition prev_clk (m : amem) (a : Z) : Z := match hget (a_fin m) a with Some (_, c, _) => c | None => 0 end.
Lemma cu_steps_spec n : forall a c v, 0 <= c -> c + Z.of_nat n * RC20_LIMIT < P ->
  snd (cu_steps n a c v) = c + Z.of_nat n * RC20_LIMIT /\
  Permutation (tok a c v :: map cu_new (fst (cu_steps n a c v)))
              (tok a (c + Z.of_nat n * RC20_LIMIT) v :: map cu_old (fst (cu_steps n a c v))) /\
  (forall x, In x (fst (cu_steps n a c v)) -> exists k, 0 <= k < Z.of_nat n /\ x = (a, c + k * RC20_LIMIT, v)).
Proof.
  induction n as [|n IH]; intros a c v H0 H1.
  - cbn [cu_steps fst snd map Z.of_nat]. replace (c + 0 * RC20_LIMIT) with c by ring.
    split; [reflexivity|]. split; [apply Permutation_refl|]. intros x [].
  - assert (E : madd c (mfrom RC20_LIMIT) = c + RC20_LIMIT).
    { unfold madd, mfrom. unfold RC20_LIMIT, P in *. rewrite !Z.mod_small; lia. }
    cbn [cu_steps]. rewrite E.
    destruct (IH a (c + RC20_LIMIT) v) as (A & B & C); [unfold RC20_LIMIT in *; lia|unfold RC20_LIMIT in *; lia|].
    destruct (cu_steps n a (c + RC20_LIMIT) v) as [l z]. cbn [fst snd] in *. cbn [map].
    replace (c + Z.of_nat (S n) * RC20_LIMIT) with (c + RC20_LIMIT + Z.of_nat n * RC20_LIMIT) by lia.
    split; [exact A|]. split.
    + change (cu_new (a, c, v)) with (tok a (c + RC20_LIMIT) v).
      change (cu_old (a, c, v)) with (tok a c v).
      apply perm_trans with (tok a c v :: tok a (c + RC20_LIMIT + Z.of_nat n * RC20_LIMIT) v :: map cu_old l).
      * apply perm_skip. exact B.
      * apply perm_swap.
    + intros x [<-|Hx].
      * exists 0. split; [lia|]. f_equal; f_equal. lia.
      * destruct (C x Hx) as (k & Hk & ->). exists (k + 1). split; [lia|]. f_equal; f_equal. lia.
Qed.

(** [gap]: number of clock updates. *)
Definition n_updates (d : Z) : Z := if RC20_LIMIT <? d then d / RC20_LIMIT else 0.
Lemma n_updates_nonneg d : 0 <= n_updates d.
Proof. unfold n_updates. destruct (Z.ltb_spec RC20_LIMIT d); [|lia]. apply Z.div_pos; unfold RC20_LIMIT in *; lia. Qed.
Lemma n_updates_le d : 0 <= d -> n_updates d * RC20_LIMIT <= d.
Proof.
  intros H. unfold n_updates. destruct (Z.ltb_spec RC20_LIMIT d); [|lia].
  rewrite Z.mul_comm. apply Z.mul_div_le. reflexivity.
Qed.

Definition opt_val (o : option cellv) (d : qm31) : qm31 := match o with Some (v, _, _) => v | None => d end.
Lemma push_spec now m a v clk :
  ainv now m -> 0 <= now <= clk -> 1 <= clk < P ->
  let c := prev_clk m a in
  let g := snd (push m a v clk) in
  let m' := fst (push m a v clk) in
  let iv := opt_val (hget (a_ini m) a) v in
  let us := fst (cu_steps (Z.to_nat (n_updates (clk - c))) a c iv) in
  g = MArg a (opt_val (hget (a_fin m) a) v) v (c + n_updates (clk - c) * RC20_LIMIT) /\
  a_fin m' = hset (a_fin m) a (v, clk, P - 1) /\
  (forall b, hget (a_ini m') b = if b =? a then Some (iv, 0, 1) else hget (a_ini m) b) /\
  a_cu m' = a_cu m ++ us /\ ainv clk m' /\
  0 <= c <= now /\
  (forall pr co, flows m pr co ->
     flows m' (pr ++ [tok a clk v; tok a c iv]) (co ++ [tok a (g_prev_clock g) iv; tok a c (g_prev_val g)])).
Proof.
  intros (Ni & Nf & Hc) Hnow Hclk c g m' iv us.
  pose proof (Hc a) as Ha.
  assert (Hcn : 0 <= c <= Z.max 0 now).
  { unfold c, prev_clk. destruct (hget (a_ini m) a) as [[[? ?] ?]|], (hget (a_fin m) a) as [[[? ?] ?]|]; cbn [cell_ok] in Ha; try lia. }
  assert (Hn0 : 0 <= c <= clk) by lia.
  pose proof (n_updates_le (clk - c) ltac:(lia)) as Hnu.
  pose proof (n_updates_nonneg (clk - c)) as Hnn.
  destruct (cu_steps_spec (Z.to_nat (n_updates (clk - c))) a c iv ltac:(lia)) as (S1 & S2 & _).
  { rewrite Z2Nat.id by lia. unfold RC20_LIMIT, P in *. lia. }
  rewrite Z2Nat.id in S1, S2 by lia.
  set (ini' := if c =? 0 then match hget (a_ini m) a with
      | Some (iv, ic, _) => hset (a_ini m) a (iv, ic, 1) | None => hset (a_ini m) a (v, 0, 1) end else a_ini m).
  assert (Hini : forall b, hget ini' b = if b =? a then Some (iv, 0, 1) else hget (a_ini m) b).
  { intros b. unfold ini', iv. unfold c, prev_clk in *. clear - Ha.
    destruct (hget (a_ini m) a) as [[[x y] z]|] eqn:Ei, (hget (a_fin m) a) as [[[x' y'] z']|] eqn:Ef; cbn [cell_ok] in Ha; try contradiction; cbn [opt_val].
    - destruct Ha as (-> & Ha). destruct (Z.eqb_spec y' 0).
      + rewrite hget_hset. reflexivity.
      + destruct Ha as [Ha|Ha]; [lia|]. destruct Ha as (-> & _).
        destruct (Z.eqb_spec b a) as [->|]; [exact Ei|reflexivity].
    - cbn [Z.eqb]. rewrite hget_hset. reflexivity. }
  assert (Hpush : push m a v clk =
    (AMem ini' (hset (a_fin m) a (v, clk, P - 1)) (a_cu m ++ us),
     MArg a (opt_val (hget (a_fin m) a) v) v (c + n_updates (clk - c) * RC20_LIMIT))).
  { unfold push. fold ini'. replace (match hget (a_fin m) a with Some c0 => c0 | None => (v, 0, P - 1) end)
      with (opt_val (hget (a_fin m) a) v, c, match hget (a_fin m) a with Some (_, _, k) => k | None => P - 1 end)
      by (unfold c, prev_clk; destruct (hget (a_fin m) a) as [[[? ?] ?]|]; reflexivity).
    fold ini'. rewrite Hini, Z.eqb_refl.
    unfold n_updates in *. destruct (Z.ltb_spec RC20_LIMIT (clk - c)) as [Hl|Hl].
    - rewrite (proj2 (Z.ltb_lt c clk)) by (unfold RC20_LIMIT in Hl; lia). cbn [andb].
      unfold us in *. clear Hini. destruct (cu_steps (Z.to_nat ((clk - c) / RC20_LIMIT)) a c iv) as [l z]. cbn [fst snd] in *.
      rewrite S1. reflexivity.
    - rewrite andb_false_r. unfold us. cbn [cu_steps Z.to_nat fst]. do 2 f_equal. lia. }
  unfold m', g. rewrite Hpush. cbn [fst snd a_fin a_ini a_cu].
  split; [reflexivity|]. split; [reflexivity|]. split; [exact Hini|]. split; [reflexivity|].
  assert (Hinv : ainv clk (AMem ini' (hset (a_fin m) a (v, clk, P - 1)) (a_cu m ++ us))).
  { split; [|split]; cbn [a_ini a_fin].
    - unfold ini'. destruct (c =? 0); [|exact Ni]. destruct (hget (a_ini m) a) as [[[? ?] ?]|]; apply hset_nodup; exact Ni.
    - apply hset_nodup. exact Nf.
    - intros b. rewrite Hini, hget_hset. destruct (Z.eqb_spec b a); [cbn [cell_ok]; split; [reflexivity|right; lia]|].
      specialize (Hc b). clear - Hc Hnow.
      destruct (hget (a_ini m) b) as [[[? ?] ?]|], (hget (a_fin m) b) as [[[? ?] ?]|]; cbn [cell_ok] in *; try exact Hc.
      destruct Hc as (? & [?|?]); split; auto. right. lia. }
  split; [exact Hinv|]. split.
  { clear - Ha Hcn Hnow. unfold c, prev_clk in *.
    destruct (hget (a_ini m) a) as [[[? ?] ?]|], (hget (a_fin m) a) as [[[? ?] ?]|]; cbn [cell_ok] in *; lia. }
  intros pr co Hfl. unfold flows in *. cbn [a_ini a_fin a_cu].
  rewrite (Permutation_count_occ cdec) in Hfl |- *. intros t. specialize (Hfl t).
  rewrite !map_app. rewrite !count_occ_app in *. cbn [count_occ].
  pose proof (toks_hset (P - 1) (a_fin m) a (v, clk, P - 1)) as Tf.
  rewrite (Permutation_count_occ cdec) in Tf. specialize (Tf t). rewrite !count_occ_app in Tf.
  change (toks (P - 1) [(a, (v, clk, P - 1))]) with [tok a clk v] in Tf. cbn [count_occ] in Tf.
  rewrite (Permutation_count_occ cdec) in S2. specialize (S2 t). cbn [count_occ] in S2.
  fold us in S2. cbn [g_addr g_prev_clock g_prev_val].
  assert (Ti : (count_occ cdec (toks 1 ini') t + count_occ cdec (one (P - 1) a (hget (a_fin m) a)) t =
     count_occ cdec (toks 1 (a_ini m)) t + (if cdec (tok a c (opt_val (hget (a_fin m) a) v)) t then 1 else 0))%nat).
  { pose proof (toks_hset 1 (a_ini m) a (iv, 0, 1)) as Tp.
    rewrite (Permutation_count_occ cdec) in Tp. specialize (Tp t). rewrite !count_occ_app in Tp.
    change (toks 1 [(a, (iv, 0, 1))]) with [tok a 0 iv] in Tp. cbn [count_occ] in Tp.
    clear - Ha Tp. unfold ini', iv, c, prev_clk in *.
    destruct (hget (a_ini m) a) as [[[x y] z]|] eqn:Ei, (hget (a_fin m) a) as [[[x' y'] z']|] eqn:Ef;
      cbn [cell_ok] in Ha; try contradiction; cbn [opt_val one] in *.
    - destruct Ha as (-> & [(-> & -> & -> & ->)|(-> & -> & Hy)]).
      + change (toks (P - 1) [(a, (x, 0, 0))]) with (@nil (list Z)). change (toks 1 [(a, (x, 0, 0))]) with (@nil (list Z)) in Tp.
        cbn [count_occ Z.eqb] in *. lia.
      + rewrite (proj2 (Z.eqb_neq y' 0)) by lia.
        change (toks (P - 1) [(a, (x', y', P - 1))]) with [tok a y' x']. cbn [count_occ]. lia.
    - cbn [count_occ Z.eqb] in *. lia. }
  clear - Hfl Tf S2 Ti.
  repeat match goal with |- context [if ?d then _ else _] => destruct d | H : context [if ?d then _ else _] |- _ => destruct d end; lia.
Qed.

(** *** Histories *)
(** The maps hold exactly what the history says. *)
Definition tracks (i0 : amap) (h : list timed) (m : amem) : Prop :=
  (forall a, hget (a_fin m) a = match last_at h a with Some (v, c) => Some (v, c, P - 1) | None => hget i0 a end) /\
  (forall a, hget (a_ini m) a = match last_at h a with
     | Some _ => Some (or_else (ini_of i0 a) (or_else (first_at h a) qzero), 0, 1)
     | None => hget i0 a end).
Lemma blank_ainv i0 : blank i0 -> ainv 0 (amem_new i0).
Proof.
  intros [H1 H2]. split; [exact H1|]. split; [exact H1|]. intros a. cbn [amem_new a_ini a_fin].
  destruct (hget i0 a) as [[[v c] k]|] eqn:E; [|exact I]. destruct (H2 _ _ _ _ E) as [-> ->].
  cbn [cell_ok]. split; [reflexivity|]. left. auto.
Qed.
Lemma last_first h a : last_at h a = None <-> first_at h a = None.
Proof.
  induction h as [|[[b v] c] h IH]; cbn [last_at first_at]; [tauto|].
  destruct (Z.eqb_spec b a).
  - destruct (first_at h a); split; discriminate.
  - rewrite IH. destruct (first_at h a); split; intros; try discriminate; try reflexivity.
Qed.

Fixpoint pushes (m : amem) (l : list timed) : amem * list marg :=
  match l with
  | [] => (m, [])
  | (a, v, clk) :: r =>
    let (m1, g) := push m a v clk in
    let (m2, gs) := pushes m1 r in (m2, g :: gs)
  end.
Definition arg_of (x : move) : marg := MArg (mv_addr x) (mv_old x) (mv_new x) (mv_start x).
(** (address, content, clock) to the order used by the code. *)
Definition cu_of (x : timed) : Z * Z * qm31 := let '(a, v, c) := x in (a, c, v).
(** The net flow of a move with its bridges; see [pushes_spec]. *)
Definition mv_gives (x : move) : list (list Z) :=
  [tok (mv_addr x) (mv_clk x) (mv_new x); tok (mv_addr x) (mv_from x) (mv_first x)].
Definition mv_takes (x : move) : list (list Z) :=
  [tok (mv_addr x) (mv_start x) (mv_first x); tok (mv_addr x) (mv_from x) (mv_old x)].

Lemma cu_steps_list n : forall a c v, 0 <= c -> c + Z.of_nat n * GAP < P ->
  fst (cu_steps n a c v) = map cu_of (map (fun k => (a, v, c + Z.of_nat k * GAP)) (seq 0 n)).
Proof.
  induction n as [|n IH]; intros a c v H0 H1; [reflexivity|].
  assert (E : madd c (mfrom RC20_LIMIT) = c + RC20_LIMIT).
  { unfold madd, mfrom. unfold RC20_LIMIT, GAP, P in *. rewrite !Z.mod_small; lia. }
  cbn [cu_steps]. rewrite E. specialize (IH a (c + RC20_LIMIT) v).
  destruct (cu_steps n a (c + RC20_LIMIT) v) as [l z]. cbn [fst] in *.
  rewrite IH by (unfold RC20_LIMIT, GAP in *; lia). cbn [seq map cu_of].
  f_equal; [f_equal; f_equal; lia|].
  rewrite <- seq_shift, !map_map. apply map_ext. intros k. cbn [cu_of]. f_equal; f_equal.
  unfold RC20_LIMIT, GAP. lia.
Qed.

Lemma tracks_old i0 h m a v : tracks i0 h m -> opt_val (hget (a_fin m) a) v = mv_old (move_of (ini_of i0) h (a, v, 0)).
Proof.
  intros [Hf _]. rewrite Hf. unfold move_of, ini_of, opt_val, mv_old, or_else. destruct (last_at h a) as [[u c]|]; [reflexivity|].
  destruct (hget i0 a) as [[[? ?] ?]|]; reflexivity.
Qed.
Lemma tracks_from i0 h m a v : blank i0 -> tracks i0 h m -> prev_clk m a = mv_from (move_of (ini_of i0) h (a, v, 0)).
Proof.
  intros [_ Hb] [Hf _]. unfold prev_clk. rewrite Hf. unfold move_of, mv_from.
  destruct (last_at h a) as [[u c]|]; [reflexivity|].
  destruct (hget i0 a) as [[[w c] k]|] eqn:E; [|reflexivity]. apply (Hb _ _ _ _ E).
Qed.
Lemma tracks_first i0 h m a v : tracks i0 h m -> opt_val (hget (a_ini m) a) v = mv_first (move_of (ini_of i0) h (a, v, 0)).
Proof.
  intros [_ Hi]. rewrite Hi. unfold move_of, ini_of, opt_val, mv_first, or_else.
  pose proof (last_first h a) as Hl. destruct (last_at h a) as [[u c]|].
  - destruct (first_at h a); [reflexivity|]. destruct Hl as [_ Hl]. discriminate (Hl eq_refl).
  - destruct Hl as [Hl _]. rewrite (Hl eq_refl). destruct (hget i0 a) as [[[? ?] ?]|]; reflexivity.
Qed.

Lemma push_tracks i0 h now m a v clk :
  blank i0 -> ainv now m -> tracks i0 h m -> 0 <= now <= clk -> 1 <= clk < P ->
  let x := move_of (ini_of i0) h (a, v, clk) in
  let m' := fst (push m a v clk) in
  snd (push m a v clk) = arg_of x /\ tracks i0 ((a, v, clk) :: h) m' /\ ainv clk m' /\
  a_cu m' = a_cu m ++ map cu_of (mv_bridges x) /\ 0 <= mv_from x <= now /\
  (forall pr co, flows m pr co -> flows m' (pr ++ mv_gives x) (co ++ mv_takes x)).
Proof.
  intros Hb Hinv Ht Hnow Hclk x m'.
  destruct (push_spec now m a v clk Hinv Hnow Hclk) as (Hg & Hf & Hi & Hcu & Hinv' & Hc & Hfl).
  rewrite (tracks_from i0 h m a v Hb Ht) in *. rewrite (tracks_first i0 h m a v Ht) in *.
  rewrite (tracks_old i0 h m a v Ht) in *.
  change (mv_from (move_of (ini_of i0) h (a, v, 0))) with (mv_from x) in *.
  change (mv_old (move_of (ini_of i0) h (a, v, 0))) with (mv_old x) in *.
  change (mv_first (move_of (ini_of i0) h (a, v, 0))) with (mv_first x) in *.
  change (n_updates (clk - mv_from x)) with (bridges (mv_clk x - mv_from x)) in *.
  assert (Ex : snd (push m a v clk) = arg_of x) by (rewrite Hg; reflexivity).
  split; [exact Ex|]. split; [|split; [exact Hinv'|]]; [|split; [|split; [exact Hc|]]].
  - destruct Ht as [Tf Ti]. split; intros b.
    + unfold m'. rewrite Hf, hget_hset. cbn [last_at]. rewrite Tf, (Z.eqb_sym b a). destruct (a =? b); reflexivity.
    + unfold m'. rewrite Hi. cbn [last_at first_at]. rewrite (Z.eqb_sym b a). destruct (Z.eqb_spec a b) as [->|Hn].
      * unfold x, move_of, mv_first. destruct (first_at h b); reflexivity.
      * rewrite Ti. destruct (last_at h b) as [[? ?]|] eqn:El; [|reflexivity].
        destruct (first_at h b) eqn:Ef; [reflexivity|]. apply last_first in Ef. congruence.
  - unfold m'. rewrite Hcu. f_equal.
    pose proof (n_updates_le (clk - mv_from x) ltac:(lia)) as Hl.
    pose proof (n_updates_nonneg (clk - mv_from x)) as Hn.
    change (n_updates (clk - mv_from x)) with (bridges (mv_clk x - mv_from x)) in *.
    unfold mv_bridges. rewrite cu_steps_list; [reflexivity|lia|].
    rewrite Z2Nat.id by lia. unfold RC20_LIMIT, GAP in *. lia.
  - intros pr co Hf0. specialize (Hfl pr co Hf0). rewrite Hg in Hfl. exact Hfl.
Qed.

Fixpoint ascending (now : Z) (l : list timed) : Prop :=
  match l with [] => True | x :: r => now <= snd x < P /\ 1 <= snd x /\ ascending (snd x) r end.
Lemma pushes_spec i0 l : forall h now m,
  blank i0 -> ainv now m -> tracks i0 h m -> 0 <= now -> ascending now l ->
  let xs := moves (ini_of i0) h l in
  let m' := fst (pushes m l) in
  snd (pushes m l) = map arg_of xs /\ tracks i0 (rev l ++ h) m' /\
  ainv (last (map snd l) now) m' /\ now <= last (map snd l) now /\
  a_cu m' = a_cu m ++ map cu_of (flat_map mv_bridges xs) /\
  (forall pr co, flows m pr co -> flows m' (pr ++ flat_map mv_gives xs) (co ++ flat_map mv_takes xs)).
Proof.
  induction l as [|[[a v] clk] l IH]; intros h now m Hb Hinv Ht Hnow Hasc xs m'.
  - unfold m', xs. cbn [pushes moves fst snd map flat_map rev app last]. rewrite app_nil_r.
    split; [reflexivity|]. split; [exact Ht|]. split; [exact Hinv|]. split; [lia|]. split; [reflexivity|].
    intros pr co H. rewrite !app_nil_r. exact H.
  - destruct Hasc as (Hc1 & Hc2 & Hasc). cbn [snd] in *.
    destruct (push_tracks i0 h now m a v clk Hb Hinv Ht ltac:(lia) ltac:(lia)) as (Hg & Ht1 & Hinv1 & Hcu1 & _ & Hfl1).
    unfold m', xs. cbn [pushes moves].
    destruct (push m a v clk) as [m1 g] eqn:Ep. cbn [fst snd] in *.
    destruct (IH _ clk m1 Hb Hinv1 Ht1 ltac:(lia) Hasc) as (Hg2 & Ht2 & Hinv2 & Hl2 & Hcu2 & Hfl2).
    destruct (pushes m1 l) as [m2 gs] eqn:Eps. cbn [fst snd] in *.
    set (x := move_of (ini_of i0) h (a, v, clk)) in *. set (ys := moves (ini_of i0) ((a, v, clk) :: h) l) in *.
    cbn [map flat_map rev].
    split; [rewrite Hg, Hg2; reflexivity|].
    split; [rewrite <- app_assoc; exact Ht2|].
    assert (El : last (clk :: map snd l) now = last (map snd l) clk).
    { clear. revert clk now. induction (map snd l) as [|y r IHr]; intros; [reflexivity|].
      change (last (y :: r) now = last (y :: r) clk). rewrite (IHr y now), (IHr y clk). reflexivity. }
    change (snd (a, v, clk)) with clk. rewrite El. split; [exact Hinv2|]. split; [lia|].
    split; [rewrite Hcu2, Hcu1, map_app, app_assoc; reflexivity|].
    intros pr co H0. specialize (Hfl1 _ _ H0). specialize (Hfl2 _ _ Hfl1).
    rewrite <- !app_assoc in Hfl2. exact Hfl2.
Qed.

(** *** Public cells *)
Definition same_view (l l' : amap) : Prop := forall a, view l' a = view l a.
Lemma view_hset l a v c k k' : hget l a = Some (v, c, k) -> same_view l (hset l a (v, c, k')).
Proof.
  intros H b. unfold view. rewrite hget_hset. destruct (Z.eqb_spec b a) as [->|]; [rewrite H|]; reflexivity.
Qed.
Lemma view_set_mult l a k : same_view l (set_mult l a k).
Proof.
  unfold set_mult. destruct (hget l a) as [[[v c] k0]|] eqn:E; [|intros b; reflexivity].
  eapply view_hset. exact E.
Qed.
Lemma hget_set_mult_other l a k b : b <> a -> hget (set_mult l a k) b = hget l b.
Proof.
  intros H. unfold set_mult. destruct (hget l a) as [[[v c] k0]|]; [|reflexivity].
  rewrite hget_hset, (proj2 (Z.eqb_neq b a)) by exact H. reflexivity.
Qed.
Lemma view_publish_in m a : same_view (a_ini m) (a_ini (publish_in m a)) /\ same_view (a_fin m) (a_fin (publish_in m a)).
Proof.
  split; cbn [publish_in a_ini a_fin]; [apply view_set_mult|].
  destruct (hget (a_fin m) (mfrom a)) as [[[v c] k]|] eqn:E; [|intros b; reflexivity].
  destruct (k =? 0); [eapply view_hset; exact E|intros b; reflexivity].
Qed.
Lemma view_publish_out m a : same_view (a_ini m) (a_ini (publish_out m a)) /\ same_view (a_fin m) (a_fin (publish_out m a)).
Proof. split; cbn [publish_out a_ini a_fin]; apply view_set_mult. Qed.
Lemma view_fold (g : amem -> Z -> amem) :
  (forall m a, same_view (a_ini m) (a_ini (g m a)) /\ same_view (a_fin m) (a_fin (g m a))) ->
  forall l m, same_view (a_ini m) (a_ini (fold_left g l m)) /\ same_view (a_fin m) (a_fin (fold_left g l m)).
Proof.
  intros Hg. induction l as [|a l IH]; intros m; cbn [fold_left]; [split; intros b; reflexivity|].
  destruct (Hg m a) as [A B], (IH (g m a)) as [C D]. split; intros b; [rewrite C, A|rewrite D, B]; reflexivity.
Qed.
Lemma view_update r m : same_view (a_ini m) (a_ini (update_multiplicities r m)) /\ same_view (a_fin m) (a_fin (update_multiplicities r m)).
Proof.
  unfold update_multiplicities.
  destruct (view_fold publish_in view_publish_in (ranged (r_program r) ++ ranged (r_input r)) m) as [A B].
  destruct (view_fold publish_out view_publish_out (ranged (r_output r))
    (fold_left publish_in (ranged (r_program r) ++ ranged (r_input r)) m)) as [C D].
  split; intros b; [rewrite C, A|rewrite D, B]; reflexivity.
Qed.
Definition view_entries (l : amap) (as_ : list Z) : list (Z * qm31 * Z) :=
  flat_map (fun a => match view l (mfrom a) with Some (v, c) => [(mfrom a, v, c)] | None => [] end) as_.
Lemma extract_view l r : extract l r = view_entries l (ranged r).
Proof.
  unfold extract, view_entries. induction (ranged r) as [|a l' IH]; [reflexivity|]. cbn [flat_map]. rewrite IH. f_equal.
  unfold view. destruct (hget l (mfrom a)) as [[[v c] k]|]; reflexivity.
Qed.
Lemma view_entries_same l l' as_ : same_view l l' -> view_entries l' as_ = view_entries l as_.
Proof. intros H. induction as_ as [|a as_ IH]; [reflexivity|]. unfold view_entries in *. cbn [flat_map]. rewrite IH, (H (mfrom a)). reflexivity. Qed.

(** The addresses of [l] have not been published yet. *)
Definition pending (now : Z) (l : list Z) (m : amem) : Prop :=
  NoDup (keys (a_ini m)) /\ NoDup (keys (a_fin m)) /\
  forall a, In a l -> cell_ok now (hget (a_ini m) a) (hget (a_fin m) a).
Lemma set_mult_nodup l a k : NoDup (keys l) -> NoDup (keys (set_mult l a k)).
Proof. intros H. unfold set_mult. destruct (hget l a) as [[[v c] k0]|]; [apply hset_nodup|]; exact H. Qed.
Lemma toks_count k l a v t : let n l := count_occ cdec l t in
  (n (toks k [(a, v)]) + n (toks k l) = n (one k a (hget l a)) + n (toks k (hset l a v)))%nat.
Proof.
  pose proof (toks_hset k l a v) as H. rewrite (Permutation_count_occ cdec) in H. specialize (H t).
  rewrite !count_occ_app in H. exact H.
Qed.

Lemma publish_in_flow now m a l pr co :
  wf a -> ~ In a l -> pending now (a :: l) m -> flows m pr co ->
  pending now l (publish_in m a) /\
  flows (publish_in m a) (pr ++ map ptok (view_entries (a_ini m) [a])) co.
Proof.
  intros Hwf Hni (N1 & N2 & Hc) Hf.
  assert (Ea : mfrom a = a) by (unfold mfrom; apply Z.mod_small; exact Hwf).
  pose proof (Hc a (or_introl eq_refl)) as Ha. split.
  - unfold publish_in. rewrite Ea. split; [|split]; cbn [a_ini a_fin].
    + apply set_mult_nodup. exact N1.
    + destruct (hget (a_fin m) a) as [[[v c] k]|]; [|exact N2]. destruct (k =? 0); [apply hset_nodup|]; exact N2.
    + intros b Hb. assert (Hab : b <> a) by congruence. rewrite hget_set_mult_other by exact Hab.
      replace (hget (match hget (a_fin m) a with Some (v, c, k) => if k =? 0 then hset (a_fin m) a (v, c, P - 1) else a_fin m | None => a_fin m end) b)
        with (hget (a_fin m) b).
      * apply Hc. right. exact Hb.
      * destruct (hget (a_fin m) a) as [[[v c] k]|]; [|reflexivity]. destruct (k =? 0); [|reflexivity].
        rewrite hget_hset, (proj2 (Z.eqb_neq b a)) by exact Hab. reflexivity.
  - unfold flows in *. rewrite (Permutation_count_occ cdec) in *. intros t. specialize (Hf t).
    unfold publish_in, view_entries, view. cbn [flat_map]. rewrite Ea. cbn [a_ini a_fin a_cu].
    rewrite !count_occ_app in *. unfold set_mult.
    destruct (hget (a_ini m) a) as [[[iv ic] im]|] eqn:Ei, (hget (a_fin m) a) as [[[v c] k]|] eqn:Ef; cbn [cell_ok] in Ha; try contradiction.
    + pose proof (toks_count 1 (a_ini m) a (iv, ic, 0) t) as T1. cbv zeta in T1. rewrite Ei in T1. cbn [one] in T1.
      change (toks 1 [(a, (iv, ic, 0))]) with (@nil (list Z)) in T1.
      cbn [app map ptok].
      destruct Ha as (-> & [(-> & -> & -> & ->)|(-> & -> & Hk)]).
      * change (toks 1 [(a, (iv, 0, 0))]) with (@nil (list Z)) in T1. change (0 =? 0) with true. cbv iota.
        pose proof (toks_count (P - 1) (a_fin m) a (iv, 0, P - 1) t) as T2. cbv zeta in T2. rewrite Ef in T2. cbn [one] in T2.
        change (toks (P - 1) [(a, (iv, 0, P - 1))]) with [tok a 0 iv] in T2.
        change (toks (P - 1) [(a, (iv, 0, 0))]) with (@nil (list Z)) in T2.
        cbn [count_occ] in *. destruct (cdec (tok a 0 iv) t); lia.
      * change (toks 1 [(a, (iv, 0, 1))]) with [tok a 0 iv] in T1. change (P - 1 =? 0) with false. cbv iota.
        cbn [count_occ] in *. destruct (cdec (tok a 0 iv) t); lia.
    + cbn [app map count_occ]. lia.
Qed.
Lemma publish_out_flow now m a l pr co :
  wf a -> ~ In a l -> pending now (a :: l) m -> flows m pr co ->
  pending now l (publish_out m a) /\
  flows (publish_out m a) pr (co ++ map ptok (view_entries (a_fin m) [a])).
Proof.
  intros Hwf Hni (N1 & N2 & Hc) Hf.
  assert (Ea : mfrom a = a) by (unfold mfrom; apply Z.mod_small; exact Hwf).
  pose proof (Hc a (or_introl eq_refl)) as Ha. split.
  - unfold publish_out. rewrite Ea. split; [|split]; cbn [a_ini a_fin].
    + apply set_mult_nodup. exact N1.
    + apply set_mult_nodup. exact N2.
    + intros b Hb. assert (Hab : b <> a) by congruence. rewrite !hget_set_mult_other by exact Hab.
      apply Hc. right. exact Hb.
  - unfold flows in *. rewrite (Permutation_count_occ cdec) in *. intros t. specialize (Hf t).
    unfold publish_out, view_entries, view. cbn [flat_map]. rewrite Ea. cbn [a_ini a_fin a_cu].
    rewrite !count_occ_app in *. unfold set_mult.
    destruct (hget (a_ini m) a) as [[[iv ic] im]|] eqn:Ei, (hget (a_fin m) a) as [[[v c] k]|] eqn:Ef; cbn [cell_ok] in Ha; try contradiction.
    + pose proof (toks_count 1 (a_ini m) a (iv, ic, 1) t) as T1. cbv zeta in T1. rewrite Ei in T1. cbn [one] in T1.
      pose proof (toks_count (P - 1) (a_fin m) a (v, c, 0) t) as T2. cbv zeta in T2. rewrite Ef in T2. cbn [one] in T2.
      change (toks 1 [(a, (iv, ic, 1))]) with [tok a ic iv] in T1.
      change (toks (P - 1) [(a, (v, c, 0))]) with (@nil (list Z)) in T2.
      cbn [app map ptok].
      destruct Ha as (-> & [(-> & -> & -> & ->)|(-> & -> & Hk)]).
      * change (toks 1 [(a, (iv, 0, 0))]) with (@nil (list Z)) in T1.
        change (toks (P - 1) [(a, (iv, 0, 0))]) with (@nil (list Z)) in T2.
        cbn [count_occ] in *. destruct (cdec (tok a 0 iv) t); lia.
      * change (toks 1 [(a, (iv, 0, 1))]) with [tok a 0 iv] in T1.
        change (toks (P - 1) [(a, (v, c, P - 1))]) with [tok a c v] in T2.
        cbn [count_occ] in *. destruct (cdec (tok a 0 iv) t), (cdec (tok a c v) t); lia.
    + cbn [app map count_occ]. lia.
Qed.
Lemma view_entries_cons l a as_ : view_entries l (a :: as_) = view_entries l [a] ++ view_entries l as_.
Proof. unfold view_entries. cbn [flat_map]. rewrite app_nil_r. reflexivity. Qed.
Lemma pending_incl now l l' m : incl l' l -> pending now l m -> pending now l' m.
Proof. intros H (A & B & C). split; [exact A|]. split; [exact B|]. auto. Qed.
Lemma publish_ins now l : forall l' m pr co,
  Forall wf l -> NoDup (l ++ l') -> pending now (l ++ l') m -> flows m pr co ->
  pending now l' (fold_left publish_in l m) /\
  flows (fold_left publish_in l m) (pr ++ map ptok (view_entries (a_ini m) l)) co.
Proof.
  induction l as [|a l IH]; intros l' m pr co Hw Hn Hp Hf.
  - cbn [fold_left app] in *. unfold view_entries. cbn [flat_map map]. rewrite app_nil_r. auto.
  - cbn [app] in Hn. inversion Hn as [|? ? Hni Hn']; subst. inversion Hw as [|? ? Hwa Hwl]; subst.
    destruct (publish_in_flow now m a (l ++ l') pr co Hwa Hni Hp Hf) as [P1 F1].
    destruct (IH l' (publish_in m a) _ co Hwl Hn' P1 F1) as [P2 F2]. cbn [fold_left]. split; [exact P2|].
    rewrite (view_entries_same (a_ini m) (a_ini (publish_in m a)) l) in F2 by apply view_publish_in.
    rewrite <- app_assoc, <- map_app, <- view_entries_cons in F2. exact F2.
Qed.
Lemma publish_outs now l : forall m pr co,
  Forall wf l -> NoDup l -> pending now l m -> flows m pr co ->
  flows (fold_left publish_out l m) pr (co ++ map ptok (view_entries (a_fin m) l)).
Proof.
  induction l as [|a l IH]; intros m pr co Hw Hn Hp Hf.
  - cbn [fold_left app] in *. unfold view_entries. cbn [flat_map map]. rewrite app_nil_r. auto.
  - inversion Hn as [|? ? Hni Hn']; subst. inversion Hw as [|? ? Hwa Hwl]; subst.
    destruct (publish_out_flow now m a l pr co Hwa Hni Hp Hf) as [P1 F1].
    pose proof (IH (publish_out m a) pr _ Hwl Hn' P1 F1) as F2. cbn [fold_left].
    rewrite (view_entries_same (a_fin m) (a_fin (publish_out m a)) l) in F2 by apply view_publish_out.
    rewrite <- app_assoc, <- map_app, <- view_entries_cons in F2. exact F2.
Qed.
Lemma update_flow now r m pr co : ranges_ok r -> ainv now m -> flows m pr co ->
  let m' := update_multiplicities r m in
  flows m' (pr ++ map ptok (extract (a_ini m') (r_program r) ++ extract (a_ini m') (r_input r)))
           (co ++ map ptok (extract (a_fin m') (r_output r))).
Proof.
  intros [Hw Hn] (N1 & N2 & Hc) Hf m'.
  rewrite app_assoc in Hw, Hn. apply Forall_app in Hw. destruct Hw as [Hw1 Hw2].
  assert (Hp : pending now ((ranged (r_program r) ++ ranged (r_input r)) ++ ranged (r_output r)) m)
    by (split; [exact N1|split; [exact N2|auto]]).
  destruct (publish_ins now _ _ m pr co Hw1 Hn Hp Hf) as [P1 F1].
  assert (Hn2 : NoDup (ranged (r_output r))).
  { clear - Hn. induction (ranged (r_program r) ++ ranged (r_input r)) as [|x l IH]; [exact Hn|].
    inversion Hn; subst. auto. }
  pose proof (publish_outs now _ _ _ _ Hw2 Hn2 P1 F1) as F2.
  change (fold_left publish_out (ranged (r_output r))
    (fold_left publish_in (ranged (r_program r) ++ ranged (r_input r)) m)) with m' in F2.
  destruct (view_fold publish_in view_publish_in (ranged (r_program r) ++ ranged (r_input r)) m) as [_ V1].
  destruct (view_update r m) as [V2 V3]. fold m' in V2, V3.
  rewrite !extract_view. rewrite !(view_entries_same (a_ini m) (a_ini m')) by exact V2.
  rewrite (view_entries_same (a_fin m) (a_fin m')) by exact V3.
  rewrite (view_entries_same _ _ (ranged (r_output r)) V1) in F2.
  unfold view_entries in F2 at 1. rewrite flat_map_app in F2. exact F2.
Qed.
