(** Encoding lays arguments out as specified; decoding reads the layout back. *)
From Coq Require Import ZArith Bool List Lia.
From Verif Require Import M31 M31Facts Instr VmMem VmMemFacts Vm Isa Machine VmFacts Cli CliFacts Abi AbiSpec.
Import ListNotations.
Open Scope Z_scope.

Lemma abi_rect' (Q : abi -> Prop) :
  Q AFelt -> Q ABool -> Q AU32 -> (forall e l, Q e -> Q (APointer e l)) ->
  (forall l, Forall Q l -> Q (ATuple l)) -> (forall fs, Forall Q (map snd fs) -> Q (AStruct fs)) ->
  (forall e n, Q e -> Q (AArray e n)) -> Q AUnit -> forall t, Q t.
Proof.
  intros H1 H2 H3 H4 H5 H6 H7 H8. fix IH 1. intros t. destruct t as [| | |e l|l|fs|e n|].
  - exact H1.
  - exact H2.
  - exact H3.
  - apply H4, IH.
  - apply H5. induction l as [|x l IHl]; constructor; [apply IH|exact IHl].
  - apply H6. induction fs as [|[k x] l IHl]; cbn [map snd]; constructor; [apply IH|exact IHl].
  - apply H7, IH.
  - exact H8.
Qed.

(** ** The loops of the encoder *)
Definition enc_elems (e : abi) : list input -> mem -> Z -> ares (mem * Z * list Z) :=
  fix go (vs : list input) (m : mem) (cur : Z) : ares (mem * Z * list Z) :=
    match vs with
    | [] => AOk (m, cur, [])
    | v :: r =>
      let? (m1, c1, s1) := encode e v m cur in
      let? (m2, c2, s2) := go r m1 c1 in
      AOk (m2, c2, s1 ++ s2)
    end.
Definition inline (e : abi) (vs : list input) (m : mem) (cur : Z) : ares (mem * Z * list Z) :=
  let? (m1, base, ms) := enc_elems e vs m cur in
  let? m2 := put_cells base 0 ms m1 in
  AOk (m2, madd base (mfrom (zlen ms)), [base]).
Lemma encode_array e n vs m cur : encode (AArray e n) (IList vs) m cur =
  if n =? zlen vs then inline e vs m cur else AErr ATypeMismatch.
Proof. reflexivity. Qed.
Lemma encode_sized e n vs m cur : encode (APointer e (Some n)) (IList vs) m cur =
  if n =? zlen vs then inline e vs m cur else AErr ATypeMismatch.
Proof. reflexivity. Qed.
Lemma encode_pointer e vs m cur : encode (APointer e None) (IList vs) m cur = inline e vs m cur.
Proof. reflexivity. Qed.
Lemma encode_tuple ts vs m cur : encode (ATuple ts) (IList vs) m cur =
  if zlen ts =? zlen vs then encode_all ts vs m cur else AErr ATypeMismatch.
Proof. reflexivity. Qed.
Lemma encode_struct fs vs m cur : encode (AStruct fs) (IStruct vs) m cur =
  if zlen fs =? zlen vs then encode_all (map snd fs) vs m cur else AErr ATypeMismatch.
Proof.
  cbn [encode]. destruct (zlen fs =? zlen vs); [|reflexivity].
  revert vs m cur. induction fs as [|[k t] fs IH]; intros vs m cur; [reflexivity|].
  destruct vs as [|v vs]; [reflexivity|]. cbn [map snd encode_all].
  destruct (encode t v m cur) as [[[m1 c1] s1]|]; [|reflexivity]. cbn [abind]. rewrite IH. reflexivity.
Qed.

(** ** What encoding does to the memory between the cursors *)
Record grown (m : mem) (cur : Z) (m' : mem) (cur' : Z) : Prop := Grown {
  g_inv : minv_ok m'; g_cur : cur <= cur' <= ADDRS; g_log : mtrace m' = mtrace m;
  g_out : forall a, a < cur \/ cur' <= a -> raw m' a = raw m a;
  g_len : zlen (locals m) <= zlen (locals m');
  g_stack : heap m = [] -> zlen (locals m) <= cur -> cur' <= 134217728 -> heap m' = [] /\ zlen (locals m') <= cur';
  g_wf : (forall a, qwf (raw m a)) -> forall a, qwf (raw m' a) }.
Lemma grown_refl m cur : minv_ok m -> cur <= ADDRS -> grown m cur m cur.
Proof. intros H1 H2. constructor; auto; lia. Qed.
Lemma grown_trans m c m1 c1 m2 c2 : grown m c m1 c1 -> grown m1 c1 m2 c2 -> grown m c m2 c2.
Proof.
  intros [A1 A2 A3 A4 A5 A6 A7] [B1 B2 B3 B4 B5 B6 B7]. constructor; auto; try lia.
  - congruence.
  - intros a H. rewrite B4, A4 by lia. reflexivity.
  - intros H1 H2 H3. destruct (A6 H1 H2) as [K1 K2]; [lia|]. apply B6; assumption.
Qed.

Lemma insert_stack m a v m' : insert_no_trace a v m = (m', Ok tt) -> heap m = [] ->
  0 <= a < 134217728 -> heap m' = [] /\ zlen (locals m') <= Z.max (zlen (locals m)) (a + 1).
Proof.
  unfold insert_no_trace. destruct (negb (valid_addr a)); [discriminate|]. intros H Hh Ha. rewrite Hh in H.
  change (zlen (@nil qm31)) with 0 in H. unfold MAX_ADDRESS in H. pose proof (zlen_nonneg (locals m)).
  destruct (Z.ltb_spec a (zlen (locals m))).
  { injection H as <-. cbn [heap locals]. rewrite zset_length. split; [first [exact Hh|reflexivity]|lia]. }
  destruct (Z.ltb_spec (268435455 - a) 0); [lia|].
  destruct (Z.ltb_spec (a - zlen (locals m)) (268435455 - a - 0)); [|lia].
  injection H as <-. cbn [heap locals]. rewrite zset_length, zgrow_length by lia. split; [first [exact Hh|reflexivity]|lia].
Qed.
Lemma qwf_qofm x : wf x -> qwf (qofm x).
Proof. intros H. repeat split; try apply H; discriminate. Qed.
Lemma mfrom_small x : 0 <= x < P -> mfrom x = x.
Proof. intros H. unfold mfrom. apply Z.mod_small. exact H. Qed.
Lemma madd_small x y : 0 <= x -> 0 <= y -> x + y < P -> madd x y = x + y.
Proof. intros H1 H2 H3. unfold madd. apply Z.mod_small. lia. Qed.

Lemma put_cells_spec ms : Forall wf ms -> forall base i m m',
  put_cells base i ms m = AOk m' -> minv_ok m -> 0 <= base -> 0 <= i -> base + i <= ADDRS ->
  minv_ok m' /\ base + i + zlen ms <= ADDRS /\ mtrace m' = mtrace m /\ zlen (locals m) <= zlen (locals m') /\
  (forall b, raw m' b = match znth ms (b - (base + i)) with Some x => qofm x | None => raw m b end) /\
  (heap m = [] -> zlen (locals m) <= base + i -> base + i + zlen ms <= 134217728 ->
     heap m' = [] /\ zlen (locals m') <= base + i + zlen ms).
Proof.
  induction 1 as [|x ms Hx Hms IH]; intros base i m m' H Hm Hb Hi Ha.
  - cbn [put_cells] in H. injection H as <-. change (zlen (@nil Z)) with 0.
    split; [exact Hm|]. split; [lia|]. split; [reflexivity|]. split; [lia|]. split; [|intros; split; [assumption|lia]].
    intros b. rewrite znth_out by (change (zlen (@nil Z)) with 0; lia). reflexivity.
  - cbn [put_cells] in H. unfold ADDRS in *. rewrite mfrom_small in H by (unfold P; lia).
    rewrite madd_small in H by (unfold P; lia).
    destruct (Z.le_gt_cases (base + i) MAX_ADDRESS) as [Hle|Hgt].
    2:{ rewrite insert_no_trace_bad in H by lia. discriminate. }
    destruct (insert_no_trace_spec m (base + i) (qofm x) Hm ltac:(lia)) as (m1 & E & Hm1 & Ht1 & Hl1 & Hr1).
    rewrite E in H. apply IH in H; [|exact Hm1|exact Hb|lia|unfold MAX_ADDRESS in *; lia].
    replace (base + (i + 1)) with (base + i + 1) in H by lia.
    destruct H as (K1 & K2 & K3 & K4 & K5 & K6). rewrite zlen_cons. pose proof (zlen_nonneg ms).
    split; [exact K1|]. split; [lia|]. split; [congruence|]. split; [lia|]. split.
    + intros b. rewrite K5, Hr1. destruct (Z.eqb_spec b (base + i)) as [->|Hne].
      * rewrite znth_out by lia. rewrite Z.sub_diag. reflexivity.
      * destruct (Z_lt_le_dec (b - (base + i)) 0).
        { rewrite !znth_out by (try lia; left; lia). reflexivity. }
        replace (znth (x :: ms) (b - (base + i))) with (znth ms (b - (base + i + 1))); [reflexivity|].
        change (x :: ms) with ([x] ++ ms). rewrite znth_app2 by (change (zlen [x]) with 1; lia).
        change (zlen [x]) with 1. f_equal. lia.
    + intros Hh Hz Hs. destruct (insert_stack _ _ _ _ E Hh) as [S1 S2]; [lia|].
      destruct K6 as [L1 L2]; [exact S1|lia|lia|]. split; [exact L1|lia].
Qed.

(** ** Encoding *)
Definition agrees (g f : Z -> qm31) (lo hi : Z) : Prop := forall a, lo <= a < hi -> g a = f a.
Definition encodes (t : abi) : Prop := forall v m cur m' cur' s,
  encode t v m cur = AOk (m', cur', s) -> minv_ok m -> 0 <= cur <= ADDRS ->
  grown m cur m' cur' /\ zlen s = call_slots t /\ Forall wf s /\
  exists c, forall g, agrees g (raw m') cur cur' -> layout g t v s c.

Lemma znth_Forall {A} (Q : A -> Prop) l i x : Forall Q l -> znth l i = Some x -> Q x.
Proof.
  intros H E. unfold znth in E. destruct (i <? 0); [discriminate|]. rewrite Forall_forall in H. apply H.
  eapply nth_error_In. exact E.
Qed.
Lemma enc_elems_spec e : encodes e -> forall vs m cur m' cur' s,
  enc_elems e vs m cur = AOk (m', cur', s) -> minv_ok m -> 0 <= cur <= ADDRS ->
  grown m cur m' cur' /\ zlen s = zlen vs * call_slots e /\ Forall wf s /\
  exists cs, forall g, agrees g (raw m') cur cur' -> elems g e vs s cs.
Proof.
  intros He. induction vs as [|v vs IH]; intros m cur m' cur' s H Hm Hc; cbn [enc_elems] in H.
  - injection H as <- <- <-. split; [apply grown_refl; [exact Hm|lia]|]. split; [reflexivity|]. split; [constructor|].
    exists []. intros g _. constructor.
  - destruct (encode e v m cur) as [[[m1 c1] s1]|] eqn:E1; [|discriminate]. cbn [abind] in H.
    fold (enc_elems e) in H. destruct (enc_elems e vs m1 c1) as [[[m2 c2] s2]|] eqn:E2; [|discriminate]. cbn [abind] in H.
    injection H as <- <- <-. destruct (He v m cur m1 c1 s1 E1 Hm Hc) as (G1 & L1 & W1 & c & C1).
    pose proof (g_cur _ _ _ _ G1). destruct (IH m1 c1 m2 c2 s2 E2 (g_inv _ _ _ _ G1)) as (G2 & L2 & W2 & cs & C2); [lia|].
    pose proof (g_cur _ _ _ _ G2).
    split; [exact (grown_trans _ _ _ _ _ _ G1 G2)|]. split; [rewrite zlen_app, zlen_cons; lia|].
    split; [apply Forall_app; split; assumption|]. exists (c :: cs). intros g Hg. constructor.
    + apply C1. intros a Ha. rewrite Hg by lia. apply (g_out _ _ _ _ G2). lia.
    + apply C2. intros a Ha. apply Hg. lia.
Qed.
Lemma inline_spec e : encodes e -> forall vs m cur m' cur' s,
  inline e vs m cur = AOk (m', cur', s) -> minv_ok m -> 0 <= cur <= ADDRS ->
  grown m cur m' cur' /\ Forall wf s /\
  exists p cells cs, s = [p] /\ forall g, agrees g (raw m') cur cur' -> elems g e vs cells cs /\ cells_at g p cells.
Proof.
  intros He vs m cur m' cur' s H Hm Hc. unfold inline in H.
  destruct (enc_elems e vs m cur) as [[[m1 base] ms]|] eqn:E1; [|discriminate]. cbn [abind] in H.
  destruct (put_cells base 0 ms m1) as [m2|] eqn:E2; [|discriminate]. cbn [abind] in H. injection H as <- <- <-.
  destruct (enc_elems_spec e He vs m cur m1 base ms E1 Hm Hc) as (G1 & L1 & W1 & cs & C1).
  pose proof (g_cur _ _ _ _ G1) as Hcur. pose proof (zlen_nonneg ms).
  destruct (put_cells_spec ms W1 base 0 m1 m2 E2 (g_inv _ _ _ _ G1)) as (K1 & K2 & K3 & K4 & K5 & K6); [lia|lia|lia|].
  rewrite Z.add_0_r in *. unfold ADDRS in *. rewrite mfrom_small by (unfold P; lia). rewrite madd_small by (unfold P; lia).
  assert (G2 : grown m1 base m2 (base + zlen ms)).
  { constructor; auto; try (unfold ADDRS; lia).
    - intros a Ha. rewrite K5. rewrite znth_out by lia. reflexivity.
    - intros Hw a. rewrite K5. destruct (znth ms (a - base)) as [x|] eqn:E; [|apply Hw].
      apply qwf_qofm. exact (znth_Forall wf ms _ x W1 E). }
  split; [exact (grown_trans _ _ _ _ _ _ G1 G2)|]. split; [constructor; [unfold wf, P; lia|constructor]|].
  exists base, ms, cs. split; [reflexivity|]. intros g Hg. split.
  - apply C1. intros a Ha. rewrite Hg by lia. apply (g_out _ _ _ _ G2). lia.
  - split; [lia|]. split; [exact K2|]. intros i x Hi. assert (Hr := znth_some _ _ _ Hi). rewrite Hg by lia.
    rewrite K5. replace (base + i - base) with i by lia. rewrite Hi. reflexivity.
Qed.
Lemma encode_all_spec ts : Forall encodes ts -> forall vs m cur m' cur' s,
  encode_all ts vs m cur = AOk (m', cur', s) -> zlen ts = zlen vs -> minv_ok m -> 0 <= cur <= ADDRS ->
  grown m cur m' cur' /\ zlen s = zsum (map call_slots ts) /\ Forall wf s /\
  exists cs, forall g, agrees g (raw m') cur cur' -> parts g ts vs s cs.
Proof.
  induction 1 as [|t ts Ht _ IH]; intros vs m cur m' cur' s H Hl Hm Hc.
  - destruct vs; [|rewrite zlen_cons in Hl; change (zlen (@nil abi)) with 0 in Hl; pose proof (zlen_nonneg vs); lia].
    cbn [encode_all] in H. injection H as <- <- <-. split; [apply grown_refl; [exact Hm|lia]|]. split; [reflexivity|].
    split; [constructor|]. exists []. intros g _. constructor.
  - destruct vs as [|v vs]; [rewrite zlen_cons in Hl; change (zlen (@nil input)) with 0 in Hl; pose proof (zlen_nonneg ts); lia|].
    rewrite !zlen_cons in Hl. cbn [encode_all] in H.
    destruct (encode t v m cur) as [[[m1 c1] s1]|] eqn:E1; [|discriminate]. cbn [abind] in H.
    destruct (encode_all ts vs m1 c1) as [[[m2 c2] s2]|] eqn:E2; [|discriminate]. cbn [abind] in H.
    injection H as <- <- <-. destruct (Ht v m cur m1 c1 s1 E1 Hm Hc) as (G1 & L1 & W1 & c & C1).
    pose proof (g_cur _ _ _ _ G1). destruct (IH vs m1 c1 m2 c2 s2 E2 ltac:(lia) (g_inv _ _ _ _ G1)) as (G2 & L2 & W2 & cs & C2); [lia|].
    pose proof (g_cur _ _ _ _ G2).
    split; [exact (grown_trans _ _ _ _ _ _ G1 G2)|]. split; [rewrite zlen_app; cbn [map zsum fold_right]; unfold zsum in L2; lia|].
    split; [apply Forall_app; split; assumption|]. exists (c :: cs). intros g Hg. constructor.
    + apply C1. intros a Ha. rewrite Hg by lia. apply (g_out _ _ _ _ G2). lia.
    + apply C2. intros a Ha. apply Hg. lia.
Qed.
Lemma wf_0 : wf 0. Proof. split; [discriminate|reflexivity]. Qed.
Lemma wf_1 : wf 1. Proof. split; [discriminate|reflexivity]. Qed.
Theorem encode_spec : forall t, encodes t.
Proof.
  assert (Hdone : forall t v m cur m' cur' s sl c, (AOk (m, cur, sl) = AOk (m', cur', s)) -> minv_ok m -> 0 <= cur <= ADDRS ->
    zlen sl = call_slots t -> Forall wf sl -> (forall g, layout g t v sl c) ->
    grown m cur m' cur' /\ zlen s = call_slots t /\ Forall wf s /\
    exists c, forall g, agrees g (raw m') cur cur' -> layout g t v s c).
  { intros t v m cur m' cur' s sl c H Hm Hc Hl Hw Hlay. injection H as <- <- <-.
    split; [apply grown_refl; [exact Hm|lia]|]. split; [exact Hl|]. split; [exact Hw|]. exists c. auto. }
  induction t as [| | |e l IH|l IH|fs IH|e n IH|] using abi_rect'; intros v m cur m' cur' s H Hm Hc.
  - destruct v as [n| | | |]; try discriminate H. cbn [encode] in H. destruct (m31_from_i64_spec n) as [W E]. rewrite E in *.
    eapply (Hdone _ _ _ _ _ _ _ _ _ H); [exact Hm|exact Hc|reflexivity|constructor; [exact W|constructor]|intros g; constructor].
  - destruct v as [n|b| | |]; try discriminate H; cbn [encode] in H.
    + destruct (Z.eqb_spec n 0) as [->|_]; [|destruct (Z.eqb_spec n 1) as [->|_]; [|discriminate]].
      * eapply (Hdone _ _ _ _ _ _ _ _ _ H); [exact Hm|exact Hc|reflexivity|constructor; [apply wf_0|constructor]|intros g; apply (l_bool g 0); auto].
      * eapply (Hdone _ _ _ _ _ _ _ _ _ H); [exact Hm|exact Hc|reflexivity|constructor; [apply wf_1|constructor]|intros g; apply (l_bool g 1); auto].
    + eapply (Hdone _ _ _ _ _ _ _ _ _ H); [exact Hm|exact Hc|reflexivity|destruct b; constructor; auto using wf_0, wf_1|intros g; constructor].
  - destruct v as [n| | | |]; try discriminate H. cbn [encode] in H.
    destruct (Z.ltb_spec n 0); [discriminate|]. destruct (Z.ltb_spec U32_MAX n); [discriminate|]. cbn [orb] in H. unfold U32_MAX in *.
    change 65535 with U32_LIMB_MASK in H. rewrite land_mask, shiftr16 in H.
    assert (Hlo : 0 <= n mod 65536 < 65536) by (apply Z.mod_pos_bound; lia).
    assert (Hhi : 0 <= n / 65536 < 65536) by (split; [apply Z.div_pos; lia|apply Z.div_lt_upper_bound; lia]).
    rewrite !mfrom_small in H by (unfold P; lia).
    eapply (Hdone _ _ _ _ _ _ _ _ _ H); [exact Hm|exact Hc|reflexivity| |intros g; constructor; lia].
    constructor; [unfold wf, P; lia|constructor; [unfold wf, P; lia|constructor]].
  - destruct v as [| |vs| |]; try (destruct l; discriminate H). destruct l as [k|].
    + rewrite encode_sized in H. destruct (Z.eqb_spec k (zlen vs)) as [Hk|]; [|discriminate].
      destruct (inline_spec e IH vs m cur m' cur' s H Hm Hc) as (G & W & p & cells & cs & -> & C).
      split; [exact G|]. split; [reflexivity|]. split; [exact W|]. exists (VArray cs). intros g Hg. destruct (C g Hg). econstructor; eassumption.
    + rewrite encode_pointer in H.
      destruct (inline_spec e IH vs m cur m' cur' s H Hm Hc) as (G & W & p & cells & cs & -> & C).
      split; [exact G|]. split; [reflexivity|]. split; [exact W|]. exists (VPointer p). intros g Hg. destruct (C g Hg). econstructor; eassumption.
  - destruct v as [| |vs| |]; try discriminate H. rewrite encode_tuple in H. destruct (Z.eqb_spec (zlen l) (zlen vs)) as [Hk|]; [|discriminate].
    destruct (encode_all_spec l IH vs m cur m' cur' s H Hk Hm Hc) as (G & L & W & cs & C).
    split; [exact G|]. split; [exact L|]. split; [exact W|]. exists (VTuple cs). intros g Hg. constructor. auto.
  - destruct v as [| | |vs|]; try discriminate H. rewrite encode_struct in H. destruct (Z.eqb_spec (zlen fs) (zlen vs)) as [Hk|]; [|discriminate].
    destruct (encode_all_spec (map snd fs) IH vs m cur m' cur' s H) as (G & L & W & cs & C); auto.
    { unfold zlen in *. rewrite map_length. exact Hk. }
    split; [exact G|]. split; [rewrite L, map_map; reflexivity|]. split; [exact W|].
    exists (VStruct (combine (map fst fs) cs)). intros g Hg. constructor. auto.
  - destruct v as [| |vs| |]; try discriminate H. rewrite encode_array in H. destruct (Z.eqb_spec n (zlen vs)) as [Hk|]; [|discriminate].
    destruct (inline_spec e IH vs m cur m' cur' s H Hm Hc) as (G & W & p & cells & cs & -> & C).
    split; [exact G|]. split; [reflexivity|]. split; [exact W|]. exists (VArray cs). intros g Hg. destruct (C g Hg). econstructor; eassumption.
  - destruct v as [| | | |]; try discriminate H. cbn [encode] in H.
    eapply (Hdone _ _ _ _ _ _ _ _ _ H); [exact Hm|exact Hc|reflexivity|constructor|intros g; constructor].
Qed.
