(** Decoding reads a layout back; the reserved array space matches what encoding uses. *)
From Coq Require Import ZArith Bool List Lia.
From Verif Require Import M31 M31Facts Instr VmMem VmMemFacts Vm Isa Machine VmFacts RunFacts LoadFacts Cli CliFacts Abi AbiSpec AbiFacts.
Import ListNotations.
Open Scope Z_scope.

Scheme layout_mut := Minimality for layout Sort Prop
  with elems_mut := Minimality for elems Sort Prop
  with parts_mut := Minimality for parts Sort Prop.
Combined Scheme layout_elems_parts from layout_mut, elems_mut, parts_mut.

(** ** The loops of the decoder *)
Definition dec_array (e : abi) (m : mem) (base : Z) : nat -> Z -> ares (list cval) :=
  fix go (k : nat) (o : Z) : ares (list cval) :=
    match k with
    | O => AOk []
    | S k' =>
      let a := madd base (mfrom o) in
      let? (x, used) := decode e m (fun i => peek m (madd a (mfrom i))) 0 in
      let? r := go k' (o + used) in
      AOk (x :: r)
    end.
Definition dec_parts (m : mem) (rd : Z -> ares Z) (off : Z) : list abi -> Z -> ares (list cval * Z) :=
  fix go ts o := match ts with
    | [] => AOk ([], 0)
    | t :: r =>
      let? (x, u) := decode t m rd (off + o) in
      let? (l, n) := go r (o + u) in
      AOk (x :: l, u + n)
    end.
Lemma decode_struct fs m rd off : decode (AStruct fs) m rd off =
  let? (l, n) := dec_parts m rd off (map snd fs) 0 in AOk (VStruct (combine (map fst fs) l), n).
Proof.
  cbn [decode].
  assert (G : forall fs o,
    (fix go (fs : list (list Z * abi)) (o : Z) : ares (list (list Z * cval) * Z) := match fs with
         | [] => AOk ([], 0)
         | (name, t) :: r =>
           let? (x, u) := decode t m rd (off + o) in
           let? (l, n) := go r (o + u) in
           AOk ((name, x) :: l, u + n)
         end) fs o =
    let? (l, n) := dec_parts m rd off (map snd fs) o in AOk (combine (map fst fs) l, n)).
  { clear. induction fs as [|[k t] fs IH]; intros o; [reflexivity|]. cbn [map snd fst dec_parts].
    destruct (decode t m rd (off + o)) as [[x u]|]; [|reflexivity]. cbn [abind]. rewrite IH. fold (dec_parts m rd off).
    destruct (dec_parts m rd off (map snd fs) (o + u)) as [[l n]|]; reflexivity. }
  rewrite G. destruct (dec_parts m rd off (map snd fs) 0) as [[l n]|]; reflexivity.
Qed.

Lemma peek_cell m a x : raw m a = Q x 0 0 0 -> a < ADDRS -> peek m a = AOk x.
Proof.
  intros H Ha. unfold peek, get_qm31. replace (valid_addr a) with true by (symmetry; apply valid_addr_spec; unfold ADDRS, MAX_ADDRESS in *; lia).
  cbn [negb]. rewrite H. reflexivity.
Qed.
Lemma znth_app_l {A} (l l' : list A) i x : znth l i = Some x -> znth (l ++ l') i = Some x.
Proof. intros H. rewrite znth_app1; [exact H|]. apply znth_some in H. lia. Qed.
Lemma znth_app_r {A} (l l' : list A) i x : znth l' i = Some x -> znth (l ++ l') (zlen l + i) = Some x.
Proof. intros H. pose proof (znth_some _ _ _ H). rewrite znth_app2 by lia. replace (zlen l + i - zlen l) with i by lia. exact H. Qed.

Theorem decode_layout m :
  (forall t v s c, layout (raw m) t v s c -> forall rd off,
     (forall i x, znth s i = Some x -> rd (off + i) = AOk x) -> decode t m rd off = AOk (c, zlen s)) /\
  (forall e vs cells cs, elems (raw m) e vs cells cs -> forall base o, 0 <= base -> 0 <= o ->
     base + o + zlen cells <= ADDRS ->
     (forall i x, znth cells i = Some x -> raw m (base + o + i) = Q x 0 0 0) ->
     dec_array e m base (length vs) o = AOk cs) /\
  (forall ts vs s cs, parts (raw m) ts vs s cs -> forall rd off o,
     (forall i x, znth s i = Some x -> rd (off + o + i) = AOk x) ->
     dec_parts m rd off ts o = AOk (cs, zlen s)).
Proof.
  apply layout_elems_parts.
  - intros n rd off H. cbn [decode]. rewrite <- (Z.add_0_r off), (H 0 (n mod P)) by reflexivity. reflexivity.
  - intros n Hn rd off H. cbn [decode]. rewrite <- (Z.add_0_r off), (H 0 n) by reflexivity. destruct Hn as [-> | ->]; reflexivity.
  - intros b rd off H. cbn [decode]. rewrite <- (Z.add_0_r off), (H 0 (if b then 1 else 0)) by reflexivity. destruct b; reflexivity.
  - intros n Hn rd off H. cbn [decode]. rewrite (H 1 (n / 65536)) by reflexivity.
    rewrite <- (Z.add_0_r off), (H 0 (n mod 65536)) by reflexivity. cbn [abind].
    assert (Hlo : 0 <= n mod 65536 < 65536) by (apply Z.mod_pos_bound; lia).
    assert (Hhi : 0 <= n / 65536 < 65536) by (split; [apply Z.div_pos; lia|apply Z.div_lt_upper_bound; lia]).
    unfold to_u32. destruct (Z.ltb_spec 65535 (n mod 65536)); [lia|]. destruct (Z.ltb_spec 65535 (n / 65536)); [lia|].
    cbn [orb abind]. rewrite Z.lor_comm. fold (u32_of_limbs (n mod 65536) (n / 65536)). rewrite u32_of_limbs_spec by lia.
    do 3 f_equal. pose proof (Z.div_mod n 65536). lia.
  - intros e n vs p cells cs -> _ IH (Hp & Hb & Hc) rd off H. cbn [decode]. rewrite <- (Z.add_0_r off), (H 0 p) by reflexivity. cbn [abind].
    unfold zlen at 1. rewrite Nat2Z.id. change (fix go (k : nat) (o : Z) {struct k} : ares (list cval) := _) with (dec_array e m p).
    rewrite (IH p 0); [reflexivity|lia|lia|unfold ADDRS; lia|]. intros i x Hi. rewrite Z.add_0_r. auto.
  - intros e n vs p cells cs -> _ IH (Hp & Hb & Hc) rd off H. cbn [decode]. rewrite <- (Z.add_0_r off), (H 0 p) by reflexivity. cbn [abind].
    unfold zlen at 1. rewrite Nat2Z.id. change (fix go (k : nat) (o : Z) {struct k} : ares (list cval) := _) with (dec_array e m p).
    rewrite (IH p 0); [reflexivity|lia|lia|unfold ADDRS; lia|]. intros i x Hi. rewrite Z.add_0_r. auto.
  - intros e vs p cells cs _ _ _ rd off H. cbn [decode]. rewrite <- (Z.add_0_r off), (H 0 p) by reflexivity. reflexivity.
  - intros ts vs s cs _ IH rd off H. cbn [decode]. fold (dec_parts m rd off). rewrite (IH rd off 0); [reflexivity|].
    intros i x Hi. rewrite Z.add_0_r. auto.
  - intros fs vs s cs _ IH rd off H. rewrite decode_struct. rewrite (IH rd off 0); [reflexivity|].
    intros i x Hi. rewrite Z.add_0_r. auto.
  - intros rd off _. reflexivity.
  - intros e base o _ _ _ _. reflexivity.
  - intros e v vs s ss c cs _ IHv _ IHs base o Hb Ho Hlen Hc. rewrite zlen_app in Hlen. pose proof (zlen_nonneg s). pose proof (zlen_nonneg ss).
    unfold ADDRS in *. cbn [length dec_array]. rewrite mfrom_small by (unfold P; lia). rewrite madd_small by (unfold P; lia).
    rewrite (IHv _ 0).
    2:{ intros i x Hi. pose proof (znth_some _ _ _ Hi). rewrite Z.add_0_l. rewrite mfrom_small by (unfold P; lia). rewrite madd_small by (unfold P; lia).
        apply peek_cell; [|unfold ADDRS; lia]. apply Hc. apply znth_app_l. exact Hi. }
    cbn [abind]. fold (dec_array e m base). rewrite (IHs base (o + zlen s)); [reflexivity|lia|lia|lia|].
    intros i x Hi. replace (base + (o + zlen s) + i) with (base + o + (zlen s + i)) by lia. apply Hc. apply znth_app_r. exact Hi.
  - intros rd off o _. reflexivity.
  - intros t ts v vs s ss c cs _ IHv _ IHs rd off o H. cbn [dec_parts].
    rewrite (IHv rd (off + o)); [|intros i x Hi; apply H, znth_app_l, Hi]. cbn [abind]. fold (dec_parts m rd off).
    rewrite (IHs rd off (o + zlen s)); [cbn [abind]; rewrite zlen_app; reflexivity|].
    intros i x Hi. replace (off + (o + zlen s) + i) with (off + o + (zlen s + i)) by lia. apply H, znth_app_r, Hi.
Qed.

(** ** The value a layout represents *)
Lemma parts_length f ts vs s cs : parts f ts vs s cs -> length cs = length ts.
Proof. induction 1; cbn [length]; congruence. Qed.
Theorem layout_denote f :
  (forall t v s c, layout f t v s c -> lengths_known t = true -> denote t v = Some c) /\
  (forall e vs cells cs, elems f e vs cells cs -> lengths_known e = true -> omap (denote e) vs = Some cs) /\
  (forall ts vs s cs, parts f ts vs s cs -> forallb lengths_known ts = true ->
     (fix go ts vs := match ts, vs with
      | [], [] => Some []
      | t :: ts', v :: vs' => match denote t v, go ts' vs' with Some y, Some ys => Some (y :: ys) | _, _ => None end
      | _, _ => None
      end) ts vs = Some cs).
Proof.
  apply layout_elems_parts.
  - reflexivity.
  - intros n [-> | ->] _; reflexivity.
  - intros b _. reflexivity.
  - intros n Hn _. cbn [denote]. destruct (Z.leb_spec 0 n); [|lia]. destruct (Z.ltb_spec n 4294967296); [reflexivity|lia].
  - intros e n vs p cells cs -> _ IH _ H. cbn [denote]. rewrite Z.eqb_refl. rewrite (IH H). reflexivity.
  - intros e n vs p cells cs -> _ IH _ H. cbn [denote]. rewrite Z.eqb_refl. rewrite (IH H). reflexivity.
  - intros e vs p cells cs _ _ _ H. discriminate H.
  - intros ts vs s cs _ IH H. cbn [denote lengths_known] in *. rewrite (IH H). reflexivity.
  - intros fs vs s cs Hp IH H. cbn [denote lengths_known] in *.
    assert (H' : forallb lengths_known (map snd fs) = true).
    { clear - H. induction fs as [|[k t] fs IH]; [reflexivity|]. cbn [forallb map snd] in *. apply andb_true_iff in H. destruct H as [-> H]. exact (IH H). }
    specialize (IH H'). clear H H' Hp.
    assert (G : forall fs vs cs,
      (fix go ts vs := match ts, vs with
      | [], [] => Some []
      | t :: ts', v :: vs' => match denote t v, go ts' vs' with Some y, Some ys => Some (y :: ys) | _, _ => None end
      | _, _ => None
      end) (map snd fs) vs = Some cs ->
      (fix go fs vs := match fs, vs with
      | [], [] => Some []
      | (n, t) :: fs', v :: vs' => match denote t v, go fs' vs' with Some y, Some ys => Some ((n, y) :: ys) | _, _ => None end
      | _, _ => None
      end) fs vs = Some (combine (map fst fs) cs : list (list Z * cval))).
    { clear. induction fs as [|[k t] fs IH]; intros vs cs H.
      - destruct vs; [|discriminate]. injection H as <-. reflexivity.
      - destruct vs as [|v vs]; [discriminate|]. cbn [map snd fst] in *. destruct (denote t v) as [y|]; [|discriminate].
        match type of H with match ?x with _ => _ end = _ => destruct x as [ys|] eqn:E; [|discriminate] end.
        injection H as <-. rewrite (IH vs ys E). reflexivity. }
    rewrite (G fs vs cs IH). reflexivity.
  - reflexivity.
  - reflexivity.
  - intros e v vs s ss c cs _ IHv _ IHs H. cbn [omap]. rewrite (IHv H), (IHs H). reflexivity.
  - reflexivity.
  - intros t ts v vs s ss c cs _ IHv _ IHs H. cbn [forallb] in H. apply andb_true_iff in H. destruct H as [H1 H2].
    rewrite (IHv H1), (IHs H2). reflexivity.
Qed.

(** ** Reserved space *)
Lemma enc_elems_cells e : (forall v m cur m' cur' s, encode e v m cur = AOk (m', cur', s) -> minv_ok m -> 0 <= cur <= ADDRS ->
    cur' = cur + array_cells e) ->
  forall vs m cur m' cur' s, enc_elems e vs m cur = AOk (m', cur', s) -> minv_ok m -> 0 <= cur <= ADDRS ->
  cur' = cur + zlen vs * array_cells e.
Proof.
  intros He. induction vs as [|v vs IH]; intros m cur m' cur' s H Hm Hc; cbn [enc_elems] in H.
  - injection H as _ <- _. change (zlen (@nil input)) with 0. lia.
  - destruct (encode e v m cur) as [[[m1 c1] s1]|] eqn:E1; [|discriminate]. cbn [abind] in H. fold (enc_elems e) in H.
    destruct (enc_elems e vs m1 c1) as [[[m2 c2] s2]|] eqn:E2; [|discriminate]. injection H as _ <- _.
    destruct (encode_spec e v m cur m1 c1 s1 E1 Hm Hc) as (G & _). pose proof (g_cur _ _ _ _ G).
    apply He in E1; [|exact Hm|exact Hc]. apply IH in E2; [|exact (g_inv _ _ _ _ G)|lia]. rewrite zlen_cons. lia.
Qed.
Lemma inline_cells e : (forall v m cur m' cur' s, encode e v m cur = AOk (m', cur', s) -> minv_ok m -> 0 <= cur <= ADDRS ->
    cur' = cur + array_cells e) ->
  forall vs m cur m' cur' s, inline e vs m cur = AOk (m', cur', s) -> minv_ok m -> 0 <= cur <= ADDRS ->
  cur' = cur + zlen vs * (call_slots e + array_cells e).
Proof.
  intros He vs m cur m' cur' s H Hm Hc. unfold inline in H.
  destruct (enc_elems e vs m cur) as [[[m1 base] ms]|] eqn:E1; [|discriminate]. cbn [abind] in H.
  destruct (put_cells base 0 ms m1) as [m2|] eqn:E2; [|discriminate]. cbn [abind] in H. injection H as _ <- _.
  destruct (enc_elems_spec e (encode_spec e) vs m cur m1 base ms E1 Hm Hc) as (G & L & W & _).
  pose proof (g_cur _ _ _ _ G). apply (enc_elems_cells e He) in E1; [|exact Hm|exact Hc].
  destruct (put_cells_spec ms W base 0 m1 m2 E2 (g_inv _ _ _ _ G)) as (_ & K & _); [lia|lia|lia|].
  pose proof (zlen_nonneg ms). unfold ADDRS in *. rewrite mfrom_small by (unfold P; lia). rewrite madd_small by (unfold P; lia). lia.
Qed.
Definition cells_exact (t : abi) : Prop := forall v m cur m' cur' s,
  encode t v m cur = AOk (m', cur', s) -> minv_ok m -> 0 <= cur <= ADDRS -> cur' = cur + array_cells t.
Lemma encode_all_cells ts : Forall cells_exact ts -> forall vs m cur m' cur' s,
  encode_all ts vs m cur = AOk (m', cur', s) -> zlen ts = zlen vs -> minv_ok m -> 0 <= cur <= ADDRS ->
  cur' = cur + zsum (map array_cells ts).
Proof.
  induction 1 as [|t ts Ht _ IH]; intros vs m cur m' cur' s H Hl Hm Hc.
  - cbn [encode_all] in H. injection H as _ <- _. cbn. lia.
  - destruct vs as [|v vs]; [rewrite zlen_cons in Hl; change (zlen (@nil input)) with 0 in Hl; pose proof (zlen_nonneg ts); lia|].
    rewrite !zlen_cons in Hl. cbn [encode_all] in H.
    destruct (encode t v m cur) as [[[m1 c1] s1]|] eqn:E1; [|discriminate]. cbn [abind] in H.
    destruct (encode_all ts vs m1 c1) as [[[m2 c2] s2]|] eqn:E2; [|discriminate]. injection H as _ <- _.
    destruct (encode_spec t v m cur m1 c1 s1 E1 Hm Hc) as (G & _). pose proof (g_cur _ _ _ _ G).
    pose proof (Ht _ _ _ _ _ _ E1 Hm Hc). apply IH in E2; [|lia|exact (g_inv _ _ _ _ G)|lia]. cbn [map zsum fold_right]. unfold zsum in E2. lia.
Qed.
Lemma no_pointer_cells : forall t, no_pointer t = true -> cells_exact t.
Proof.
  induction t as [| | |e l IH|l IH|fs IH|e n IH|] using abi_rect'; intros Hn v m cur m' cur' s H Hm Hc; cbn [array_cells].
  - destruct v; try discriminate H. injection H as _ <- _. lia.
  - destruct v; try discriminate H; cbn [encode] in H.
    + destruct (n =? 0); [|destruct (n =? 1); [|discriminate]]; injection H as _ <- _; lia.
    + injection H as _ <- _. lia.
  - destruct v; try discriminate H. cbn [encode] in H. destruct ((n <? 0) || (U32_MAX <? n)); [discriminate|]. injection H as _ <- _. lia.
  - discriminate Hn.
  - destruct v as [| |vs| |]; try discriminate H. rewrite encode_tuple in H. destruct (Z.eqb_spec (zlen l) (zlen vs)) as [Hk|]; [|discriminate].
    refine (encode_all_cells l _ vs m cur m' cur' s H Hk Hm Hc). cbn [no_pointer] in Hn. rewrite forallb_forall in Hn.
    rewrite Forall_forall in *. intros t Ht. auto.
  - destruct v as [| | |vs|]; try discriminate H. rewrite encode_struct in H. destruct (Z.eqb_spec (zlen fs) (zlen vs)) as [Hk|]; [|discriminate].
    replace (map (fun f => array_cells (snd f)) fs) with (map array_cells (map snd fs)) by apply map_map.
    refine (encode_all_cells (map snd fs) _ vs m cur m' cur' s H _ Hm Hc).
    + cbn [no_pointer] in Hn. rewrite forallb_forall in Hn. rewrite Forall_forall in *. intros t Ht. apply IH; [exact Ht|].
      apply in_map_iff in Ht. destruct Ht as (f & <- & Hf). auto.
    + unfold zlen in *. rewrite map_length. exact Hk.
  - destruct v as [| |vs| |]; try discriminate H. rewrite encode_array in H. destruct (Z.eqb_spec n (zlen vs)) as [->|]; [|discriminate].
    exact (inline_cells e (IH Hn) vs m cur m' cur' s H Hm Hc).
  - destruct v; try discriminate H. injection H as _ <- _. lia.
Qed.
Definition value_exact (t : abi) : Prop := forall v m cur m' cur' s n,
  encode t v m cur = AOk (m', cur', s) -> minv_ok m -> 0 <= cur <= ADDRS -> value_cells t v = Some n -> cur' = cur + n.
Lemma all_cells_exact ts : Forall value_exact ts -> forall vs m cur m' cur' s n,
  encode_all ts vs m cur = AOk (m', cur', s) -> zlen ts = zlen vs -> minv_ok m -> 0 <= cur <= ADDRS ->
  all_cells ts vs = Some n -> cur' = cur + n.
Proof.
  induction 1 as [|t ts Ht _ IH]; intros vs m cur m' cur' s n H Hl Hm Hc Hn.
  - cbn [encode_all] in H. injection H as _ <- _. injection Hn as <-. lia.
  - destruct vs as [|v vs]; [rewrite zlen_cons in Hl; change (zlen (@nil input)) with 0 in Hl; pose proof (zlen_nonneg ts); lia|].
    rewrite !zlen_cons in Hl. cbn [encode_all] in H. cbn [all_cells] in Hn.
    destruct (encode t v m cur) as [[[m1 c1] s1]|] eqn:E1; [|discriminate]. cbn [abind] in H.
    destruct (encode_all ts vs m1 c1) as [[[m2 c2] s2]|] eqn:E2; [|discriminate]. injection H as _ <- _.
    destruct (encode_spec t v m cur m1 c1 s1 E1 Hm Hc) as (G & _). pose proof (g_cur _ _ _ _ G).
    destruct (value_cells t v) as [n1|] eqn:N1; [|discriminate]. destruct (all_cells ts vs) as [n2|] eqn:N2; [|discriminate]. injection Hn as <-.
    pose proof (Ht _ _ _ _ _ _ n1 E1 Hm Hc N1). apply (IH _ _ _ _ _ _ n2) in E2; [lia|lia|exact (g_inv _ _ _ _ G)|lia|exact N2].
Qed.
Lemma value_cells_struct fs vs : value_cells (AStruct fs) (IStruct vs) = all_cells (map snd fs) vs.
Proof.
  cbn [value_cells]. revert vs. induction fs as [|[k t] fs IH]; intros vs; [reflexivity|]. destruct vs as [|v vs]; [reflexivity|].
  cbn [map snd all_cells]. rewrite IH. reflexivity.
Qed.
Lemma shallow_cells : forall t, shallow t = true -> value_exact t.
Proof.
  induction t as [| | |e l IH|l IH|fs IH|e n IH|] using abi_rect'; intros Hn v m cur m' cur' s k H Hm Hc Hk.
  - destruct v; try discriminate H. injection H as _ <- _. injection Hk as <-. lia.
  - destruct v; try discriminate H; cbn [encode] in H; injection Hk as <-.
    + destruct (n =? 0); [|destruct (n =? 1); [|discriminate]]; injection H as _ <- _; lia.
    + injection H as _ <- _. lia.
  - destruct v; try discriminate H. cbn [encode] in H. destruct ((n <? 0) || (U32_MAX <? n)); [discriminate|]. injection H as _ <- _. injection Hk as <-. lia.
  - destruct v as [| |vs| |]; try (destruct l; discriminate H). cbn [shallow] in Hn. pose proof (no_pointer_cells e Hn) as He.
    cbn [value_cells] in Hk. injection Hk as <-. destruct l as [j|].
    + rewrite encode_sized in H. destruct (Z.eqb_spec j (zlen vs)) as [->|]; [|discriminate]. exact (inline_cells e He vs m cur m' cur' s H Hm Hc).
    + rewrite encode_pointer in H. exact (inline_cells e He vs m cur m' cur' s H Hm Hc).
  - destruct v as [| |vs| |]; try discriminate H. rewrite encode_tuple in H. destruct (Z.eqb_spec (zlen l) (zlen vs)) as [Hl|]; [|discriminate].
    refine (all_cells_exact l _ vs m cur m' cur' s k H Hl Hm Hc Hk). cbn [shallow] in Hn. rewrite forallb_forall in Hn.
    rewrite Forall_forall in *. intros t Ht. auto.
  - destruct v as [| | |vs|]; try discriminate H. rewrite encode_struct in H. destruct (Z.eqb_spec (zlen fs) (zlen vs)) as [Hl|]; [|discriminate].
    rewrite value_cells_struct in Hk. refine (all_cells_exact (map snd fs) _ vs m cur m' cur' s k H _ Hm Hc Hk).
    + cbn [shallow] in Hn. rewrite forallb_forall in Hn. rewrite Forall_forall in *. intros t Ht. apply IH; [exact Ht|].
      apply in_map_iff in Ht. destruct Ht as (f & <- & Hf). auto.
    + unfold zlen in *. rewrite map_length. exact Hl.
  - destruct v as [| |vs| |]; try discriminate H. rewrite encode_array in H. cbn [value_cells] in Hk.
    destruct (Z.eqb_spec n (zlen vs)) as [->|]; [|discriminate]. injection Hk as <-.
    exact (inline_cells e (no_pointer_cells e Hn) vs m cur m' cur' s H Hm Hc).
  - destruct v; try discriminate H. injection H as _ <- _. injection Hk as <-. lia.
Qed.

(** ** Decoding a whole frame *)
Lemma decode_all_parts m ts vs s cs : parts (raw m) ts vs s cs -> forall pre,
  decode_all ts (pre ++ s) (zlen pre) m = AOk cs.
Proof.
  induction 1 as [|t ts v vs s ss c cs Hv _ IH]; intros pre.
  - cbn [decode_all]. rewrite app_nil_r, Z.eqb_refl. reflexivity.
  - cbn [decode_all]. rewrite (proj1 (decode_layout m) t v s c Hv).
    2:{ intros i x Hi. unfold slot. rewrite Z.add_0_l. rewrite (znth_app_r pre (s ++ ss) i x); [reflexivity|apply znth_app_l, Hi]. }
    cbn [abind]. specialize (IH (pre ++ s)). rewrite zlen_app, <- app_assoc in IH. rewrite IH. reflexivity.
Qed.
Lemma return_frame_cells v s : forall i k, cells_at (raw (v_mem v)) (fp (v_st v) - 2 - k) s -> wf (fp (v_st v)) ->
  0 <= i <= k -> k <= ADDRS -> zlen s = k -> return_frame (Z.to_nat (k - i)) i k v = AOk (skipn (Z.to_nat i) s).
Proof.
  intros i k (H1 & H2 & H3) Hfp Hi Hk Hs. remember (Z.to_nat (k - i)) as n eqn:En. revert i Hi En.
  induction n as [|n IH]; intros i Hi En; cbn [return_frame].
  - rewrite skipn_all2; [reflexivity|]. unfold zlen in Hs. lia.
  - assert (Hik : i < k) by lia. destruct (znth s i) as [x|] eqn:E; [|exfalso; unfold znth in E; destruct (Z.ltb_spec i 0); [lia|]; apply nth_error_None in E; unfold zlen in Hs; lia].
    assert (EA : msub (fp (v_st v)) (mfrom (k + 2 - i)) = fp (v_st v) - 2 - k + i).
    { unfold ADDRS in *. rewrite mfrom_small by (unfold P; lia). unfold msub. rewrite Z.mod_small by (unfold wf, P in *; lia). lia. }
    rewrite EA. rewrite (peek_cell (v_mem v) _ x); [|apply H3, E|unfold ADDRS; rewrite Hs in H2; lia].
    cbn [abind]. rewrite IH by lia. cbn [abind].
    assert (En1 : nth_error s (Z.to_nat i) = Some x).
    { unfold znth in E. destruct (i <? 0); [discriminate|exact E]. }
    replace (Z.to_nat (i + 1)) with (S (Z.to_nat i)) by lia.
    f_equal. clear - En1. revert s En1. induction (Z.to_nat i) as [|j IH]; intros [|y s] H; try discriminate.
    + injection H as <-. reflexivity.
    + exact (IH s H).
Qed.

(** ** Preparing a call *)
Theorem setup_spec p ep args v slots nret cells :
  let n := zlen (flat_map pwords p) in
  let nf := n + cells + zlen slots + nret + 2 in
  Forall pdwf p -> 0 < n <= 134217728 -> wf (ep_pc ep) -> Forall (fun t => shallow t = true) (ep_params ep) ->
  0 <= nret -> all_cells (ep_params ep) args = Some cells -> nf <= 134217728 ->
  setup p ep args = AOk (v, slots, nret) ->
  fresh v /\ v_st v = St (ep_pc ep) nf /\ v_final v = n /\ 0 <= cells /\
  zlen slots = zsum (map call_slots (ep_params ep)) /\ nret = zsum (map call_slots (ep_returns ep)) /\
  (forall a, a < n -> raw (v_mem v) a = raw (v_mem (load p)) a) /\
  cells_at (raw (v_mem v)) (n + cells) slots /\
  raw (v_mem v) (nf - 2) = qofm nf /\ raw (v_mem v) (nf - 1) = qofm n /\
  exists cs, parts (raw (v_mem v)) (ep_params ep) args slots cs.
Proof.
  intros n nf Hp Hn Hpc Hsh Hnr Hcells Hmax H. unfold setup in H.
  destruct (Z.eqb_spec (zlen (ep_params ep)) (zlen args)) as [Hl|]; [|discriminate]. cbn [negb] in H. rewrite Hcells in H.
  assert (Hfp : fp (v_st (load p)) = n) by reflexivity. rewrite Hfp in H.
  destruct (encode_all (ep_params ep) args (v_mem (load p)) n) as [[[m c] s]|] eqn:E; [|discriminate]. cbn [abind] in H.
  match type of H with match ?x with _ => _ end = _ => destruct x as [v' [[]|?]] eqn:EP end; [|discriminate].
  injection H as -> -> Hret.
  rewrite Hret in EP. pose proof (zlen_nonneg slots) as Hz.
  assert (Hok : vok (load p)) by (apply load_ok; [exact Hp|unfold ADDRS; fold n; lia]).
  destruct (encode_all_spec (ep_params ep)) with (2 := E) as (G & L & W & cs & C); [|exact Hl|apply Hok|unfold ADDRS; lia|].
  { rewrite Forall_forall. intros t _. apply encode_spec. }
  assert (Hc : c = n + cells).
  { refine (all_cells_exact (ep_params ep) _ args _ n m c slots cells E Hl _ _ Hcells); [|apply Hok|unfold ADDRS; lia].
    rewrite Forall_forall in *. intros t Ht. apply shallow_cells. auto. }
  pose proof (g_cur _ _ _ _ G) as Gc. subst c.
  destruct (g_stack _ _ _ _ G) as [Gh Gl]; [reflexivity|cbn [load v_mem locals]; fold n; lia|unfold nf in *; lia|].
  assert (Hoff : cells + zsum (map call_slots (ep_params ep)) + nret + 2 = cells + zlen slots + nret + 2) by lia.
  rewrite Hoff in EP.
  destruct (prepare_spec (set_mem (load p) m) (ep_pc ep) (cells + zlen slots + nret + 2) slots nret) as (v'' & E' & F1 & F2 & F3 & F4 & F5 & F6 & F7).
  - split; [split|].
    + exact (g_inv _ _ _ _ G).
    + intros a. apply (g_wf _ _ _ _ G). apply Hok.
    + exact (proj2 Hok).
  - exact Gh.
  - cbn [set_mem v_mem]. rewrite (g_log _ _ _ _ G). reflexivity.
  - reflexivity.
  - exact Hpc.
  - exact W.
  - cbn [set_mem v_final load]. fold n. unfold wf, P. lia.
  - cbn [set_mem v_final load]. fold n. lia.
  - exact Hnr.
  - lia.
  - cbn [set_mem v_st load fp]. fold n. unfold nf in Hmax. lia.
  - cbn [set_mem v_st v_mem load fp]. fold n. lia.
  - rewrite E' in EP. injection EP as ->.
    assert (Enf : fp (v_st (set_mem (load p) m)) + (cells + zlen slots + nret + 2) = nf) by (cbn [set_mem v_st load fp]; fold n; unfold nf; lia).
    rewrite Enf in *. cbn [set_mem v_mem v_final load] in F7. fold n in F7.
    assert (Ebase : nf - 2 - nret - zlen slots = n + cells) by (unfold nf; lia). rewrite Ebase in F7.
    assert (Hout : forall a, a < n + cells -> raw (v_mem v) a = raw m a).
    { intros a Ha. rewrite F7. destruct (Z.eqb_spec a (nf - 2)); [unfold nf in *; lia|]. destruct (Z.eqb_spec a (nf - 1)); [unfold nf in *; lia|].
      rewrite znth_out by lia. reflexivity. }
    split; [exact F1|]. split; [exact F2|]. split; [exact F3|]. split; [lia|]. split; [exact L|]. split; [congruence|]. split; [|split; [|split; [|split]]].
    + intros a Ha. rewrite Hout by lia. apply (g_out _ _ _ _ G). lia.
    + split; [lia|]. split; [unfold nf in *; lia|]. intros i x Hi. pose proof (znth_some _ _ _ Hi). rewrite F7.
      destruct (Z.eqb_spec (n + cells + i) (nf - 2)); [unfold nf in *; lia|]. destruct (Z.eqb_spec (n + cells + i) (nf - 1)); [unfold nf in *; lia|].
      replace (n + cells + i - (n + cells)) with i by lia. rewrite Hi. reflexivity.
    + rewrite F7, Z.eqb_refl. reflexivity.
    + rewrite F7. destruct (Z.eqb_spec (nf - 1) (nf - 2)); [lia|]. rewrite Z.eqb_refl. reflexivity.
    + exists cs. apply C. intros a Ha. apply Hout. lia.
Qed.

(** ** Why encoding fails *)
Definition is_vm (e : aerr) : Prop := exists x, e = AVm x.
Lemma put_cells_error ms : forall base i m e, put_cells base i ms m = AErr e -> is_vm e.
Proof.
  induction ms as [|x ms IH]; intros base i m e H; [discriminate|]. cbn [put_cells] in H.
  destruct (insert_no_trace _ _ m) as [m' [u|x']]; [eapply IH, H|]. injection H as <-. eexists. reflexivity.
Qed.
Definition refuses (t : abi) : Prop := forall v m cur e, encode t v m cur = AErr e ->
  is_vm e \/ (e = ATypeMismatch /\ (lengths_known t = true -> denote t v = None)).
Lemma enc_elems_error t : refuses t -> forall vs m cur e, enc_elems t vs m cur = AErr e ->
  is_vm e \/ (e = ATypeMismatch /\ (lengths_known t = true -> omap (denote t) vs = None)).
Proof.
  intros Ht. induction vs as [|v vs IH]; intros m cur e H; cbn [enc_elems] in H; [discriminate|].
  destruct (encode t v m cur) as [[[m1 c1] s1]|e1] eqn:E1; cbn [abind] in H.
  - fold (enc_elems t) in H. destruct (enc_elems t vs m1 c1) as [[[m2 c2] s2]|e2] eqn:E2; [discriminate|]. injection H as <-.
    destruct (IH _ _ _ E2) as [K|[K1 K2]]; [left; exact K|right]. split; [exact K1|]. intros HL. cbn [omap]. rewrite (K2 HL).
    destruct (denote t v); reflexivity.
  - injection H as <-. destruct (Ht _ _ _ _ E1) as [K|[K1 K2]]; [left; exact K|right]. split; [exact K1|]. intros HL. cbn [omap].
    rewrite (K2 HL). reflexivity.
Qed.
Lemma inline_error t : refuses t -> forall vs m cur e, inline t vs m cur = AErr e ->
  is_vm e \/ (e = ATypeMismatch /\ (lengths_known t = true -> omap (denote t) vs = None)).
Proof.
  intros Ht vs m cur e H. unfold inline in H. destruct (enc_elems t vs m cur) as [[[m1 base] ms]|e1] eqn:E1; cbn [abind] in H.
  - destruct (put_cells base 0 ms m1) as [m2|e2] eqn:E2; [discriminate|]. injection H as <-. left. eapply put_cells_error, E2.
  - injection H as <-. eapply enc_elems_error; eassumption.
Qed.
Lemma denote_all_length ts : forall vs cs, denote_all ts vs = Some cs -> zlen ts = zlen vs /\ length cs = length ts.
Proof.
  induction ts as [|t ts IH]; intros [|v vs] cs H; try discriminate.
  - injection H as <-. split; reflexivity.
  - cbn [denote_all] in H. destruct (denote t v); [|discriminate]. destruct (denote_all ts vs) as [ys|] eqn:E; [|discriminate]. injection H as <-.
    destruct (IH _ _ E) as [H1 H2]. rewrite !zlen_cons. cbn [length]. split; [lia|congruence].
Qed.
Lemma denote_struct fs vs : denote (AStruct fs) (IStruct vs) =
  option_map (fun cs => VStruct (combine (map fst fs) cs)) (denote_all (map snd fs) vs).
Proof.
  cbn [denote].
  assert (G : forall fs vs,
      (fix go (fs : list (list Z * abi)) (vs : list input) : option (list (list Z * cval)) := match fs, vs with
      | [], [] => Some []
      | (n, t) :: fs', v :: vs' => match denote t v, go fs' vs' with Some y, Some ys => Some ((n, y) :: ys) | _, _ => None end
      | _, _ => None
      end) fs vs = option_map (fun cs => combine (map fst fs) cs) (denote_all (map snd fs) vs)).
  { clear. induction fs as [|[k t] fs IH]; intros [|v vs]; try reflexivity. cbn [map snd fst denote_all].
    rewrite IH. destruct (denote t v); [|reflexivity]. destruct (denote_all (map snd fs) vs); reflexivity. }
  rewrite G. destruct (denote_all (map snd fs) vs); reflexivity.
Qed.
Lemma encode_all_error ts : Forall refuses ts -> forall vs m cur e, encode_all ts vs m cur = AErr e ->
  is_vm e \/ (e = ATypeMismatch /\ (forallb lengths_known ts = true -> denote_all ts vs = None)).
Proof.
  induction 1 as [|t ts Ht _ IH]; intros vs m cur e H; [discriminate|]. destruct vs as [|v vs]; [discriminate|].
  cbn [encode_all] in H. destruct (encode t v m cur) as [[[m1 c1] s1]|e1] eqn:E1; cbn [abind] in H.
  - destruct (encode_all ts vs m1 c1) as [[[m2 c2] s2]|e2] eqn:E2; [discriminate|]. injection H as <-.
    destruct (IH _ _ _ _ E2) as [K|[K1 K2]]; [left; exact K|right]. split; [exact K1|]. intros HL. cbn [forallb] in HL. apply andb_true_iff in HL.
    cbn [denote_all]. rewrite (K2 (proj2 HL)). destruct (denote t v); reflexivity.
  - injection H as <-. destruct (Ht _ _ _ _ E1) as [K|[K1 K2]]; [left; exact K|right]. split; [exact K1|]. intros HL. cbn [forallb] in HL.
    apply andb_true_iff in HL. cbn [denote_all]. rewrite (K2 (proj1 HL)). reflexivity.
Qed.
Lemma encode_refuses : forall t, refuses t.
Proof.
  assert (Hmis : forall (e : aerr) (Q : Prop) (A B : Prop), @AErr (mem * Z * list Z) ATypeMismatch = AErr e -> Q -> A \/ (e = ATypeMismatch /\ (B -> Q))).
  { intros e Q A B H HQ. injection H as <-. right. auto. }
  induction t as [| | |t l IH|l IH|fs IH|t n IH|] using abi_rect'; intros v m cur e H.
  - destruct v; try discriminate H; (apply (Hmis _ _ _ _ H); reflexivity).
  - destruct v; try discriminate H; try (apply (Hmis _ _ _ _ H); reflexivity). cbn [encode denote] in *.
    destruct (n =? 0); [discriminate|]. destruct (n =? 1); [discriminate|]. apply (Hmis _ _ _ _ H). reflexivity.
  - destruct v; try discriminate H; try (apply (Hmis _ _ _ _ H); reflexivity). cbn [encode denote] in *. unfold U32_MAX in H.
    destruct (Z.ltb_spec n 0); [|destruct (Z.ltb_spec 4294967295 n); [|discriminate]]; apply (Hmis _ _ _ _ H).
    + destruct (Z.leb_spec 0 n); [lia|reflexivity].
    + destruct (Z.ltb_spec n 4294967296); [lia|]. rewrite andb_false_r. reflexivity.
  - destruct v as [| |vs| |]; try (destruct l; apply (Hmis _ _ _ _ H); reflexivity). destruct l as [k|].
    + rewrite encode_sized in H. cbn [denote lengths_known]. destruct (k =? zlen vs); [|apply (Hmis _ _ _ _ H); reflexivity].
      destruct (inline_error t IH _ _ _ _ H) as [K|[K1 K2]]; [left; exact K|right]. split; [exact K1|]. intros HL. rewrite (K2 HL). reflexivity.
    + rewrite encode_pointer in H. destruct (inline_error t IH _ _ _ _ H) as [K|[K1 K2]]; [left; exact K|right]. split; [exact K1|]. discriminate.
  - destruct v as [| |vs| |]; try (apply (Hmis _ _ _ _ H); reflexivity). rewrite encode_tuple in H. change (denote (ATuple l) (IList vs)) with (option_map VTuple (denote_all l vs)).
    cbn [lengths_known]. destruct (Z.eqb_spec (zlen l) (zlen vs)) as [Hl|Hl].
    + destruct (encode_all_error l IH _ _ _ _ H) as [K|[K1 K2]]; [left; exact K|right]. split; [exact K1|]. intros HL. rewrite (K2 HL). reflexivity.
    + apply (Hmis _ _ _ _ H). destruct (denote_all l vs) as [cs|] eqn:E; [|reflexivity]. apply denote_all_length in E. destruct E. contradiction.
  - destruct v as [| | |vs|]; try (apply (Hmis _ _ _ _ H); reflexivity). rewrite encode_struct in H. rewrite denote_struct.
    cbn [lengths_known]. destruct (Z.eqb_spec (zlen fs) (zlen vs)) as [Hl|Hl].
    + destruct (encode_all_error (map snd fs) IH _ _ _ _ H) as [K|[K1 K2]]; [left; exact K|right]. split; [exact K1|]. intros HL. rewrite K2; [reflexivity|].
      clear - HL. induction fs as [|[k t] fs IH]; [reflexivity|]. cbn [forallb map snd] in *. apply andb_true_iff in HL. destruct HL as [-> HL]. exact (IH HL).
    + apply (Hmis _ _ _ _ H). destruct (denote_all (map snd fs) vs) as [cs|] eqn:E; [|reflexivity]. apply denote_all_length in E.
      destruct E as [E _]. unfold zlen in *. rewrite map_length in E. contradiction.
  - destruct v as [| |vs| |]; try (apply (Hmis _ _ _ _ H); reflexivity). rewrite encode_array in H. cbn [denote lengths_known].
    destruct (n =? zlen vs); [|apply (Hmis _ _ _ _ H); reflexivity].
    destruct (inline_error t IH _ _ _ _ H) as [K|[K1 K2]]; [left; exact K|right]. split; [exact K1|]. intros HL. rewrite (K2 HL). reflexivity.
  - destruct v; try discriminate H; (apply (Hmis _ _ _ _ H); reflexivity).
Qed.
