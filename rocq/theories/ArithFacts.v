(** u32 and felt instructions on concrete operand values (C08, C09). *)
From Coq Require Import ZArith Bool List Lia.
From Verif Require Import M31 M31Facts Instr InstrFacts VmMem VmMemFacts Vm Isa IsaFacts Machine VmFacts.
Import ListNotations.
Open Scope Z_scope.
Ltac Zify.zify_post_hook ::= Z.div_mod_to_equations.

Tactic Notation "fall" tactic(t) := repeat first [apply Forall_nil | apply Forall_cons; [solve [t]|]].

(** A 32-bit value stored at [a]: low 16 bits at [a], high 16 bits at [a+1]. *)
Definition u32_at (f : flat) (a x : Z) : Prop :=
  0 <= x < 4294967296 /\ 0 <= a /\ a + 1 < ADDRS /\
  f a = Q (x mod 65536) 0 0 0 /\ f (a + 1) = Q (x / 65536) 0 0 0.
Definition felt_at (f : flat) (a x : Z) : Prop := 0 <= a < ADDRS /\ f a = Q x 0 0 0.
(** [k] consecutive cells can be written at [a]. *)
Definition room (a k : Z) : Prop := 0 <= a /\ a + k <= ADDRS.

(** The mathematical operation of each u32 instruction, with operand positions. *)
Definition u32_fp_fp (i : instr) : option (Z * Z * Z * (Z -> Z -> Z)) :=
  match i with
  | U32StoreAddFpFp a b d => Some (a, b, d, fun x y => (x + y) mod 4294967296)
  | U32StoreSubFpFp a b d => Some (a, b, d, fun x y => (x - y) mod 4294967296)
  | U32StoreMulFpFp a b d => Some (a, b, d, fun x y => (x * y) mod 4294967296)
  | U32StoreAndFpFp a b d => Some (a, b, d, Z.land)
  | U32StoreOrFpFp a b d => Some (a, b, d, Z.lor)
  | U32StoreXorFpFp a b d => Some (a, b, d, Z.lxor)
  | _ => None
  end.
Definition u32_fp_imm (i : instr) : option (Z * Z * Z * Z * (Z -> Z -> Z)) :=
  match i with
  | U32StoreAddFpImm a lo hi d => Some (a, lo, hi, d, fun x y => (x + y) mod 4294967296)
  | U32StoreMulFpImm a lo hi d => Some (a, lo, hi, d, fun x y => (x * y) mod 4294967296)
  | U32StoreAndFpImm a lo hi d => Some (a, lo, hi, d, Z.land)
  | U32StoreOrFpImm a lo hi d => Some (a, lo, hi, d, Z.lor)
  | U32StoreXorFpImm a lo hi d => Some (a, lo, hi, d, Z.lxor)
  | _ => None
  end.
Definition u32_cmp2 (i : instr) : option (Z * Z * Z * (Z -> Z -> bool)) :=
  match i with
  | U32StoreEqFpFp a b d => Some (a, b, d, Z.eqb)
  | U32StoreLtFpFp a b d => Some (a, b, d, Z.ltb)
  | _ => None
  end.
Definition u32_cmp1 (i : instr) : option (Z * Z * Z * Z * (Z -> Z -> bool)) :=
  match i with
  | U32StoreEqFpImm a lo hi d => Some (a, lo, hi, d, Z.eqb)
  | U32StoreLtFpImm a lo hi d => Some (a, lo, hi, d, Z.ltb)
  | _ => None
  end.

Lemma exec_total i s m e :
  okwf s i m -> isa i (felt m) s = Some e ->
  Forall (readable m) (reads e ++ peeks e) ->
  Forall (fun w => fst w <= MAX_ADDRESS) (writes e) ->
  exists m', exec i s m = (m', Ok (next e)) /\ runs m (reads e) (writes e) m'.
Proof.
  intros Hok He Hr Hw. assert (Ho := exec_outcome i s m Hok).
  destruct (exec i s m) as [m' [s'|er]]; cbn [outcome] in Ho.
  - destruct Ho as (e' & He' & -> & _ & _ & Hrun). rewrite He in He'. injection He' as <-. eauto.
  - exfalso. destruct Ho as (rd & ws & _ & Ho). rewrite He in Ho.
    destruct Ho as (_ & _ & _ & [Hx|Hx]); apply Exists_exists in Hx as (x & Hin & Hx).
    + rewrite Forall_forall in Hr. apply Hx, Hr, Hin.
    + rewrite Forall_forall in Hw. specialize (Hw _ Hin). cbn in Hw. lia.
Qed.

Lemma exec_refused i s m :
  okwf s i m -> isa i (felt m) s = None ->
  exists m' er, exec i s m = (m', Err er) /\ forall b, raw m' b = raw m b.
Proof.
  intros Hok He. assert (Ho := exec_outcome i s m Hok).
  destruct (exec i s m) as [m' [s'|er]]; cbn [outcome] in Ho.
  - destruct Ho as (e' & He' & _). congruence.
  - destruct Ho as (rd & ws & Hrun & Ho). rewrite He in Ho. subst ws. exists m', er. split; [reflexivity|].
    destruct Hrun as (_ & _ & H & _). exact H.
Qed.

Definition at_ (s : state) (o : Z) : Z := (fp s + o) mod P.
Lemma hi_addr a : 0 <= a -> a + 1 < ADDRS -> (a + 1) mod P = a + 1.
Proof. intros. apply Z.mod_small. unfold ADDRS, P in *. lia. Qed.

Lemma u32_at_facts m a x :
  u32_at (raw m) a x ->
  (a + 1) mod P = a + 1 /\ felt m a = x mod 65536 /\ felt m (a + 1) = x / 65536 /\
  readable m a /\ readable m (a + 1) /\
  (felt m a <? B16) && (felt m (a + 1) <? B16) = true /\ felt m a + B16 * felt m (a + 1) = x.
Proof.
  intros (Hx & Ha & Ha1 & H0 & H1). assert (E0 : felt m a = x mod 65536) by (unfold felt; rewrite H0; reflexivity).
  assert (E1 : felt m (a + 1) = x / 65536) by (unfold felt; rewrite H1; reflexivity).
  split; [apply hi_addr; assumption|]. split; [exact E0|]. split; [exact E1|].
  split; [apply readable_flat; split; [lia|]; unfold is_felt; rewrite H0; reflexivity|].
  split; [apply readable_flat; split; [lia|]; unfold is_felt; rewrite H1; reflexivity|].
  rewrite E0, E1. unfold B16. split.
  - destruct (Z.ltb_spec (x mod 65536) 65536); [|lia]. destruct (Z.ltb_spec (x / 65536) 65536); [reflexivity|lia].
  - lia.
Qed.

Lemma put_u32 m rd m' d v :
  runs m rd [(d, v mod B16); ((d + 1) mod P, v / B16)] m' -> 0 <= v < 4294967296 -> room d 2 ->
  u32_at (raw m') d v /\ forall b, b <> d -> b <> d + 1 -> raw m' b = raw m b.
Proof.
  intros (_ & _ & Hr & _) Hv [Hd1 Hd2]. rewrite hi_addr in Hr by lia. cbn in Hr.
  split.
  - split; [exact Hv|]. split; [lia|]. split; [lia|]. unfold B16 in Hr. split; rewrite Hr.
    + destruct (Z.eqb_spec d (d + 1)); [lia|]. rewrite Z.eqb_refl. reflexivity.
    + rewrite Z.eqb_refl. reflexivity.
  - intros b H1 H2. rewrite Hr. destruct (Z.eqb_spec b (d + 1)); [contradiction|].
    destruct (Z.eqb_spec b d); [contradiction|reflexivity].
Qed.

Lemma put_felt m rd m' d v :
  runs m rd [(d, v)] m' -> 0 <= d < ADDRS ->
  felt_at (raw m') d v /\ forall b, b <> d -> raw m' b = raw m b.
Proof.
  intros (_ & _ & Hr & _) Hd. cbn in Hr. split.
  - split; [exact Hd|]. rewrite Hr, Z.eqb_refl. reflexivity.
  - intros b H1. rewrite Hr. destruct (Z.eqb_spec b d); [contradiction|reflexivity].
Qed.

Lemma readable_pair m a : readable m a -> readable m (a + 1) -> Forall (readable m) [a; a + 1].
Proof. intros. fall assumption. Qed.

Lemma room_wr d k v v' : room d k -> 2 <= k -> Forall (fun w : Z * Z => fst w <= MAX_ADDRESS) [(d, v); (d + 1, v')].
Proof. intros [H1 H2] Hk. cbn [app]; fall (cbn; unfold ADDRS, MAX_ADDRESS in *; lia). Qed.

Lemma u32_fp_fp_ok i a b d op s m x y :
  u32_fp_fp i = Some (a, b, d, op) -> okwf s i m ->
  u32_at (raw m) (at_ s a) x -> u32_at (raw m) (at_ s b) y -> room (at_ s d) 2 ->
  exists m', exec i s m = (m', Ok (St ((pc s + 1) mod P) (fp s))) /\
    u32_at (raw m') (at_ s d) (op x y) /\
    forall c, c <> at_ s d -> c <> at_ s d + 1 -> raw m' c = raw m c.
Proof.
  intros Ht Hok Hx Hy Hd. assert (Hxr := proj1 Hx). assert (Hyr := proj1 Hy).
  destruct (u32_at_facts _ _ _ Hx) as (X1 & X2 & X3 & X4 & X5 & X6 & X7).
  destruct (u32_at_facts _ _ _ Hy) as (Y1 & Y2 & Y3 & Y4 & Y5 & Y6 & Y7).
  assert (Hop : 0 <= op x y < 4294967296).
  { destruct i; cbn in Ht; try discriminate Ht; injection Ht as <- <- <- <-; cbn beta;
    try (apply Z.mod_pos_bound; lia); [apply land32|apply lor32|apply lxor32]; assumption. }
  assert (He : isa i (felt m) s = Some (Eff ([at_ s a; at_ s a + 1] ++ [at_ s b; at_ s b + 1]) []
     [(at_ s d, op x y mod B16); ((at_ s d + 1) mod P, op x y / B16)] (St ((pc s + 1) mod P) (fp s)))).
  { destruct i; cbn in Ht; try discriminate Ht; injection Ht as <- <- <- <-; cbn [isa];
    fold (at_ s src0_off); fold (at_ s src1_off); fold (at_ s dst_off);
    rewrite X1, Y1, X6, Y6, X7, Y7; reflexivity. }
  destruct (exec_total _ _ _ _ Hok He) as (m' & E & Hrun).
  - cbn [reads peeks app]. fall assumption.
  - cbn [writes]. rewrite hi_addr by (destruct Hd; lia). eapply room_wr; [exact Hd|lia].
  - exists m'. split; [exact E|]. eapply put_u32; eassumption.
Qed.

Lemma u32_fp_imm_ok i a lo hi d op s m x :
  u32_fp_imm i = Some (a, lo, hi, d, op) -> okwf s i m ->
  lo < 65536 -> hi < 65536 ->
  u32_at (raw m) (at_ s a) x -> room (at_ s d) 2 ->
  exists m', exec i s m = (m', Ok (St ((pc s + 2) mod P) (fp s))) /\
    u32_at (raw m') (at_ s d) (op x (lo + 65536 * hi)) /\
    forall c, c <> at_ s d -> c <> at_ s d + 1 -> raw m' c = raw m c.
Proof.
  intros Ht Hok Hlo Hhi Hx Hd. assert (Hxr := proj1 Hx).
  destruct (u32_at_facts _ _ _ Hx) as (X1 & X2 & X3 & X4 & X5 & X6 & X7).
  assert (Himm : 0 <= lo + 65536 * hi < 4294967296).
  { destruct Hok as (_ & Hi & _). unfold iwf in Hi.
    assert (wf lo /\ wf hi) as [W1 W2].
    { destruct i; cbn in Ht; try discriminate Ht; injection Ht as <- <- <- <- <-; cbn in Hi;
      repeat (apply Forall_cons_iff in Hi as [? Hi]); auto. }
    unfold wf in *. lia. }
  assert (Hop : 0 <= op x (lo + 65536 * hi) < 4294967296).
  { destruct i; cbn in Ht; try discriminate Ht; injection Ht as <- <- <- <- <-; cbn beta;
    try (apply Z.mod_pos_bound; lia); [apply land32|apply lor32|apply lxor32]; assumption. }
  assert (Hl : (lo <? B16) && (hi <? B16) = true).
  { unfold B16. destruct (Z.ltb_spec lo 65536); [|lia]. destruct (Z.ltb_spec hi 65536); [reflexivity|lia]. }
  assert (He : isa i (felt m) s = Some (Eff [at_ s a; at_ s a + 1] []
     [(at_ s d, op x (lo + 65536 * hi) mod B16); ((at_ s d + 1) mod P, op x (lo + 65536 * hi) / B16)] (St ((pc s + 2) mod P) (fp s)))).
  { destruct i; cbn in Ht; try discriminate Ht; injection Ht as <- <- <- <- <-; cbn [isa];
    fold (at_ s src_off); fold (at_ s dst_off);
    rewrite X1, X6, X7, Hl; reflexivity. }
  destruct (exec_total _ _ _ _ Hok He) as (m' & E & Hrun).
  - cbn [reads peeks app]. fall assumption.
  - cbn [writes]. rewrite hi_addr by (destruct Hd; lia). eapply room_wr; [exact Hd|lia].
  - exists m'. split; [exact E|]. eapply put_u32; eassumption.
Qed.

Lemma u32_cmp2_ok i a b d op s m x y :
  u32_cmp2 i = Some (a, b, d, op) -> okwf s i m ->
  u32_at (raw m) (at_ s a) x -> u32_at (raw m) (at_ s b) y -> room (at_ s d) 1 ->
  exists m', exec i s m = (m', Ok (St ((pc s + 1) mod P) (fp s))) /\
    felt_at (raw m') (at_ s d) (if op x y then 1 else 0) /\
    forall c, c <> at_ s d -> raw m' c = raw m c.
Proof.
  intros Ht Hok Hx Hy Hd.
  destruct (u32_at_facts _ _ _ Hx) as (X1 & X2 & X3 & X4 & X5 & X6 & X7).
  destruct (u32_at_facts _ _ _ Hy) as (Y1 & Y2 & Y3 & Y4 & Y5 & Y6 & Y7).
  assert (He : isa i (felt m) s = Some (Eff ([at_ s a; at_ s a + 1] ++ [at_ s b; at_ s b + 1]) []
     [(at_ s d, if op x y then 1 else 0)] (St ((pc s + 1) mod P) (fp s)))).
  { destruct i; cbn in Ht; try discriminate Ht; injection Ht as <- <- <- <-; cbn [isa];
    fold (at_ s src0_off); fold (at_ s src1_off); fold (at_ s dst_off);
    rewrite X1, Y1, X6, Y6, X7, Y7; reflexivity. }
  destruct (exec_total _ _ _ _ Hok He) as (m' & E & Hrun).
  - cbn [reads peeks app]. fall assumption.
  - cbn [writes]. destruct Hd. fall (cbn; unfold ADDRS, MAX_ADDRESS in *; lia).
  - exists m'. split; [exact E|]. eapply put_felt; [exact Hrun|destruct Hd; lia].
Qed.

Lemma u32_cmp1_ok i a lo hi d op s m x :
  u32_cmp1 i = Some (a, lo, hi, d, op) -> okwf s i m ->
  lo < 65536 -> hi < 65536 ->
  u32_at (raw m) (at_ s a) x -> room (at_ s d) 1 ->
  exists m', exec i s m = (m', Ok (St ((pc s + 2) mod P) (fp s))) /\
    felt_at (raw m') (at_ s d) (if op x (lo + 65536 * hi) then 1 else 0) /\
    forall c, c <> at_ s d -> raw m' c = raw m c.
Proof.
  intros Ht Hok Hlo Hhi Hx Hd.
  destruct (u32_at_facts _ _ _ Hx) as (X1 & X2 & X3 & X4 & X5 & X6 & X7).
  assert (Hl : (lo <? B16) && (hi <? B16) = true).
  { unfold B16. destruct (Z.ltb_spec lo 65536); [|lia]. destruct (Z.ltb_spec hi 65536); [reflexivity|lia]. }
  assert (He : isa i (felt m) s = Some (Eff [at_ s a; at_ s a + 1] []
     [(at_ s d, if op x (lo + 65536 * hi) then 1 else 0)] (St ((pc s + 2) mod P) (fp s)))).
  { destruct i; cbn in Ht; try discriminate Ht; injection Ht as <- <- <- <- <-; cbn [isa];
    fold (at_ s src_off); fold (at_ s dst_off);
    rewrite X1, X6, X7, Hl; reflexivity. }
  destruct (exec_total _ _ _ _ Hok He) as (m' & E & Hrun).
  - cbn [reads peeks app]. fall assumption.
  - cbn [writes]. destruct Hd. fall (cbn; unfold ADDRS, MAX_ADDRESS in *; lia).
  - exists m'. split; [exact E|]. eapply put_felt; [exact Hrun|destruct Hd; lia].
Qed.

(** Division: the two results must not share a cell (the code does not check this). *)
Definition apart (a b : Z) : Prop := a + 1 < b \/ b + 1 < a.

Lemma put_two_u32 m rd m' d r v w :
  runs m rd ([(d, v mod B16); ((d + 1) mod P, v / B16)] ++ [(r, w mod B16); ((r + 1) mod P, w / B16)]) m' ->
  0 <= v < 4294967296 -> 0 <= w < 4294967296 -> room d 2 -> room r 2 -> apart d r ->
  u32_at (raw m') d v /\ u32_at (raw m') r w /\
  forall b, b <> d -> b <> d + 1 -> b <> r -> b <> r + 1 -> raw m' b = raw m b.
Proof.
  intros (_ & _ & Hr & _) Hv Hw [Hd1 Hd2] [Hr1 Hr2] Hap. rewrite !hi_addr in Hr by lia.
  cbn in Hr. unfold apart in Hap. unfold u32_at, B16 in *.
  split; [|split].
  - split; [exact Hv|]. split; [lia|]. split; [lia|]. split; rewrite Hr;
    repeat match goal with |- context [?x =? ?y] => destruct (Z.eqb_spec x y); try lia end; reflexivity.
  - split; [exact Hw|]. split; [lia|]. split; [lia|]. split; rewrite Hr;
    repeat match goal with |- context [?x =? ?y] => destruct (Z.eqb_spec x y); try lia end; reflexivity.
  - intros b N1 N2 N3 N4. rewrite Hr.
    repeat match goal with |- context [?x =? ?y] => destruct (Z.eqb_spec x y); try lia end; reflexivity.
Qed.

Lemma room_wr4 d r v v' w w' : room d 2 -> room r 2 ->
  Forall (fun w : Z * Z => fst w <= MAX_ADDRESS) ([(d, v); (d + 1, v')] ++ [(r, w); (r + 1, w')]).
Proof. intros [H1 H2] [H3 H4]. cbn [app]; fall (cbn; unfold ADDRS, MAX_ADDRESS in *; lia). Qed.

Lemma u32_div_ok a b d r s m x y :
  okwf s (U32StoreDivRemFpFp a b d r) m ->
  u32_at (raw m) (at_ s a) x -> u32_at (raw m) (at_ s b) y ->
  room (at_ s d) 2 -> room (at_ s r) 2 -> apart (at_ s d) (at_ s r) -> y <> 0 ->
  exists m', exec (U32StoreDivRemFpFp a b d r) s m = (m', Ok (St ((pc s + 2) mod P) (fp s))) /\
    u32_at (raw m') (at_ s d) (x / y) /\ u32_at (raw m') (at_ s r) (x mod y) /\
    forall c, c <> at_ s d -> c <> at_ s d + 1 -> c <> at_ s r -> c <> at_ s r + 1 -> raw m' c = raw m c.
Proof.
  intros Hok Hx Hy Hd Hr Hap Hy0. assert (Hxr := proj1 Hx). assert (Hyr := proj1 Hy).
  destruct (u32_at_facts _ _ _ Hx) as (X1 & X2 & X3 & X4 & X5 & X6 & X7).
  destruct (u32_at_facts _ _ _ Hy) as (Y1 & Y2 & Y3 & Y4 & Y5 & Y6 & Y7).
  assert (He : isa (U32StoreDivRemFpFp a b d r) (felt m) s =
    Some (Eff ([at_ s a; at_ s a + 1] ++ [at_ s b; at_ s b + 1]) []
     ([(at_ s d, (x / y) mod B16); ((at_ s d + 1) mod P, (x / y) / B16)] ++
      [(at_ s r, (x mod y) mod B16); ((at_ s r + 1) mod P, (x mod y) / B16)]) (St ((pc s + 2) mod P) (fp s)))).
  { cbn [isa]. fold (at_ s a) (at_ s b) (at_ s d) (at_ s r).
    rewrite X1, Y1, X6, Y6, X7, Y7. destruct (Z.eqb_spec y 0); [contradiction|]. reflexivity. }
  destruct (exec_total _ _ _ _ Hok He) as (m' & E & Hrun).
  - cbn [reads peeks app]. fall assumption.
  - cbn [writes]. rewrite !hi_addr by (destruct Hd, Hr; lia).
    apply room_wr4; assumption.
  - exists m'. split; [exact E|]. eapply put_two_u32; try eassumption.
    + apply div32; first [assumption|clear - Hyr Hy0; lia].
    + apply rem32; first [assumption|clear - Hyr Hy0; lia].
Qed.

Lemma u32_div_imm_ok a lo hi d r s m x :
  okwf s (U32StoreDivRemFpImm a lo hi d r) m -> lo < 65536 -> hi < 65536 ->
  u32_at (raw m) (at_ s a) x ->
  room (at_ s d) 2 -> room (at_ s r) 2 -> apart (at_ s d) (at_ s r) -> lo + 65536 * hi <> 0 ->
  exists m', exec (U32StoreDivRemFpImm a lo hi d r) s m = (m', Ok (St ((pc s + 2) mod P) (fp s))) /\
    u32_at (raw m') (at_ s d) (x / (lo + 65536 * hi)) /\ u32_at (raw m') (at_ s r) (x mod (lo + 65536 * hi)) /\
    forall c, c <> at_ s d -> c <> at_ s d + 1 -> c <> at_ s r -> c <> at_ s r + 1 -> raw m' c = raw m c.
Proof.
  intros Hok Hlo Hhi Hx Hd Hr Hap Hy0. assert (Hxr := proj1 Hx).
  destruct (u32_at_facts _ _ _ Hx) as (X1 & X2 & X3 & X4 & X5 & X6 & X7).
  assert (Hl : (lo <? B16) && (hi <? B16) = true).
  { unfold B16. destruct (Z.ltb_spec lo 65536); [|lia]. destruct (Z.ltb_spec hi 65536); [reflexivity|lia]. }
  assert (Himm : 0 <= lo + 65536 * hi < 4294967296).
  { destruct Hok as (_ & Hi & _). unfold iwf in Hi. cbn in Hi.
    repeat (apply Forall_cons_iff in Hi as [? Hi]). unfold wf in *. lia. }
  set (y := lo + 65536 * hi) in *.
  assert (He : isa (U32StoreDivRemFpImm a lo hi d r) (felt m) s =
    Some (Eff [at_ s a; at_ s a + 1] []
     ([(at_ s d, (x / y) mod B16); ((at_ s d + 1) mod P, (x / y) / B16)] ++
      [(at_ s r, (x mod y) mod B16); ((at_ s r + 1) mod P, (x mod y) / B16)]) (St ((pc s + 2) mod P) (fp s)))).
  { cbn [isa]. fold (at_ s a) (at_ s d) (at_ s r). change (lo + B16 * hi) with y.
    rewrite X1, X6, X7, Hl. destruct (Z.eqb_spec y 0); [contradiction|]. reflexivity. }
  destruct (exec_total _ _ _ _ Hok He) as (m' & E & Hrun).
  - cbn [reads peeks app]. fall assumption.
  - cbn [writes]. rewrite !hi_addr by (destruct Hd, Hr; lia).
    apply room_wr4; assumption.
  - exists m'. split; [exact E|]. eapply put_two_u32; try eassumption.
    + apply div32; first [assumption|clear - Himm Hy0; lia].
    + apply rem32; first [assumption|clear - Himm Hy0; lia].
Qed.

Lemma u32_imm_ok lo hi d s m :
  okwf s (U32StoreImm lo hi d) m -> lo < 65536 -> hi < 65536 -> room (at_ s d) 2 ->
  exists m', exec (U32StoreImm lo hi d) s m = (m', Ok (St ((pc s + 1) mod P) (fp s))) /\
    u32_at (raw m') (at_ s d) (lo + 65536 * hi) /\
    forall c, c <> at_ s d -> c <> at_ s d + 1 -> raw m' c = raw m c.
Proof.
  intros Hok Hlo Hhi Hd.
  assert (Hl : (lo <? B16) && (hi <? B16) = true).
  { unfold B16. destruct (Z.ltb_spec lo 65536); [|lia]. destruct (Z.ltb_spec hi 65536); [reflexivity|lia]. }
  assert (Himm : 0 <= lo + 65536 * hi < 4294967296).
  { destruct Hok as (_ & Hi & _). unfold iwf in Hi. cbn in Hi.
    repeat (apply Forall_cons_iff in Hi as [? Hi]). unfold wf in *. lia. }
  assert (He : isa (U32StoreImm lo hi d) (felt m) s =
    Some (Eff [] [] [(at_ s d, (lo + 65536 * hi) mod B16); ((at_ s d + 1) mod P, (lo + 65536 * hi) / B16)]
              (St ((pc s + 1) mod P) (fp s)))).
  { cbn [isa]. fold (at_ s d). rewrite Hl. reflexivity. }
  destruct (exec_total _ _ _ _ Hok He) as (m' & E & Hrun).
  - constructor.
  - cbn [writes]. rewrite hi_addr by (destruct Hd; lia). eapply room_wr; [exact Hd|lia].
  - exists m'. split; [exact E|]. eapply put_u32; eassumption.
Qed.

(** Refusals. *)
Definition bad_limbs (f : flat) (a : Z) : Prop := 65536 <= q0 (f a) \/ 65536 <= q0 (f ((a + 1) mod P)).
(** Positions of the u32 operands in memory and of u32 immediates. *)
Definition u32_operands (i : instr) : list Z :=
  match i with
  | U32StoreAddFpFp a b _ | U32StoreSubFpFp a b _ | U32StoreMulFpFp a b _
  | U32StoreDivRemFpFp a b _ _ | U32StoreEqFpFp a b _ | U32StoreLtFpFp a b _
  | U32StoreAndFpFp a b _ | U32StoreOrFpFp a b _ | U32StoreXorFpFp a b _ => [a; b]
  | U32StoreAddFpImm a _ _ _ | U32StoreMulFpImm a _ _ _ | U32StoreDivRemFpImm a _ _ _ _
  | U32StoreEqFpImm a _ _ _ | U32StoreLtFpImm a _ _ _
  | U32StoreAndFpImm a _ _ _ | U32StoreOrFpImm a _ _ _ | U32StoreXorFpImm a _ _ _ => [a]
  | PrintU32 a => [a]
  | _ => []
  end.
Definition u32_immediate (i : instr) : option (Z * Z) :=
  match i with
  | U32StoreAddFpImm _ lo hi _ | U32StoreMulFpImm _ lo hi _ | U32StoreDivRemFpImm _ lo hi _ _
  | U32StoreEqFpImm _ lo hi _ | U32StoreLtFpImm _ lo hi _
  | U32StoreAndFpImm _ lo hi _ | U32StoreOrFpImm _ lo hi _ | U32StoreXorFpImm _ lo hi _
  | U32StoreImm lo hi _ => Some (lo, hi)
  | _ => None
  end.

Lemma bad_limbs_false m a :
  bad_limbs (raw m) a -> (felt m a <? B16) && (felt m ((a + 1) mod P) <? B16) = false.
Proof.
  unfold bad_limbs, felt, B16. intros [H|H].
  - destruct (Z.ltb_spec (q0 (raw m a)) 65536); [lia|reflexivity].
  - destruct (Z.ltb_spec (q0 (raw m ((a + 1) mod P))) 65536); [lia|apply andb_false_r].
Qed.

Lemma u32_bad_operand i s m o :
  okwf s i m -> In o (u32_operands i) -> bad_limbs (raw m) (at_ s o) ->
  exists m' er, exec i s m = (m', Err er) /\ forall b, raw m' b = raw m b.
Proof.
  intros Hok Hin Hb. apply bad_limbs_false in Hb. apply exec_refused; [exact Hok|].
  destruct i; cbn [u32_operands] in Hin; try contradiction Hin; cbn [isa];
  destruct Hin as [<-|Hin]; try (destruct Hin as [<-|Hin]; try contradiction Hin); try contradiction Hin;
  unfold at_ in Hb; rewrite Hb; rewrite ?andb_false_r; reflexivity.
Qed.

Lemma u32_bad_imm i s m lo hi :
  okwf s i m -> u32_immediate i = Some (lo, hi) -> 65536 <= lo \/ 65536 <= hi ->
  exists m' er, exec i s m = (m', Err er) /\ forall b, raw m' b = raw m b.
Proof.
  intros Hok Hi Hb. assert (Hl : (lo <? B16) && (hi <? B16) = false).
  { unfold B16. destruct Hb; [destruct (Z.ltb_spec lo 65536); [lia|reflexivity]|].
    destruct (Z.ltb_spec hi 65536); [lia|apply andb_false_r]. }
  apply exec_refused; [exact Hok|].
  destruct i; cbn [u32_immediate] in Hi; try discriminate Hi; injection Hi as -> ->; cbn [isa];
  rewrite Hl; reflexivity.
Qed.

Lemma u32_div_zero a b d r s m :
  okwf s (U32StoreDivRemFpFp a b d r) m -> u32_at (raw m) (at_ s b) 0 ->
  exists m' er, exec (U32StoreDivRemFpFp a b d r) s m = (m', Err er) /\ forall c, raw m' c = raw m c.
Proof.
  intros Hok Hy. destruct (u32_at_facts _ _ _ Hy) as (Y1 & Y2 & Y3 & Y4 & Y5 & Y6 & Y7).
  apply exec_refused; [exact Hok|]. cbn [isa]. fold (at_ s b). rewrite Y1, Y7. rewrite andb_false_r. reflexivity.
Qed.
Lemma u32_div_imm_zero a d r s m :
  okwf s (U32StoreDivRemFpImm a 0 0 d r) m ->
  exists m' er, exec (U32StoreDivRemFpImm a 0 0 d r) s m = (m', Err er) /\ forall c, raw m' c = raw m c.
Proof. intros Hok. apply exec_refused; [exact Hok|]. reflexivity. Qed.

(** ** Felts *)
Definition felt_fp_fp (i : instr) : option (Z * Z * Z * (Z -> Z -> Z -> Prop)) :=
  match i with
  | StoreAddFpFp a b d => Some (a, b, d, fun x y z => z = (x + y) mod P)
  | StoreSubFpFp a b d => Some (a, b, d, fun x y z => z = (x - y) mod P)
  | StoreMulFpFp a b d => Some (a, b, d, fun x y z => z = (x * y) mod P)
  | StoreDivFpFp a b d => Some (a, b, d, fun x y z => (z * y) mod P = x)
  | _ => None
  end.
Definition felt_fp_imm (i : instr) : option (Z * Z * Z * (Z -> Z -> Z)) :=
  match i with
  | StoreAddFpImm a imm d => Some (a, imm, d, fun x y => (x + y) mod P)
  | StoreMulFpImm a imm d => Some (a, imm, d, fun x y => (x * y) mod P)
  | StoreLeFpImm a imm d => Some (a, imm, d, fun x y => if x <=? y then 1 else 0)
  | _ => None
  end.

Lemma felt_at_facts m a x : felt_at (raw m) a x -> felt m a = x /\ readable m a.
Proof.
  intros [Ha H]. split; [unfold felt; rewrite H; reflexivity|].
  apply readable_flat. split; [lia|]. unfold is_felt. rewrite H. reflexivity.
Qed.

Lemma felt_fp_fp_ok i a b d R s m x y :
  felt_fp_fp i = Some (a, b, d, R) -> okwf s i m ->
  felt_at (raw m) (at_ s a) x -> felt_at (raw m) (at_ s b) y -> at_ s d < ADDRS ->
  (opcode i = 3 -> y <> 0) ->
  exists m' z, exec i s m = (m', Ok (St ((pc s + 1) mod P) (fp s))) /\
    0 <= z < P /\ R x y z /\ felt_at (raw m') (at_ s d) z /\
    forall c, c <> at_ s d -> raw m' c = raw m c.
Proof.
  intros Ht Hok Hx Hy Hd Hy0.
  destruct (felt_at_facts _ _ _ Hx) as [X1 X2]. destruct (felt_at_facts _ _ _ Hy) as [Y1 Y2].
  assert (Wx : wf x) by (rewrite <- X1; apply felt_wf, Hok).
  assert (Wy : wf y) by (rewrite <- Y1; apply felt_wf, Hok).
  assert (He : exists z, isa i (felt m) s = Some (Eff [at_ s a; at_ s b] [] [(at_ s d, z)] (St ((pc s + 1) mod P) (fp s)))
     /\ wf z /\ R x y z).
  { destruct i; cbn [felt_fp_fp] in Ht; try discriminate Ht; injection Ht as <- <- <- <-; cbn [isa];
    fold (at_ s src0_off); fold (at_ s src1_off); fold (at_ s dst_off); rewrite X1, Y1.
    1-3: eexists; split; [reflexivity|split; [apply mod_wf|reflexivity]].
    assert (Hyn := Hy0 eq_refl). destruct (Z.eqb_spec y 0); [contradiction|].
    eexists; split; [reflexivity|]. split; [apply mod_wf|].
    destruct (mdiv_total x y Hyn) as [q Hq]. 
    assert (Hq' := mdiv_spec x y q Wx Wy Hq). unfold mdiv in Hq. destruct (Z.eqb_spec y 0); [contradiction|].
    injection Hq as Hq. unfold mmul in Hq. rewrite Hq. apply Hq'. }
  destruct He as (z & He & Wz & HR).
  destruct (exec_total _ _ _ _ Hok He) as (m' & E & Hrun).
  - cbn [reads peeks app]. fall assumption.
  - cbn [writes]. fall (cbn; unfold ADDRS, MAX_ADDRESS in *; lia).
  - exists m', z. split; [exact E|]. split; [exact Wz|]. split; [exact HR|].
    eapply put_felt; [exact Hrun|]. assert (W := mod_wf (fp s + d)). unfold wf in W. unfold at_ in *. lia.
Qed.

Lemma felt_fp_imm_ok i a imm d op s m x :
  felt_fp_imm i = Some (a, imm, d, op) -> okwf s i m ->
  felt_at (raw m) (at_ s a) x -> at_ s d < ADDRS ->
  exists m', exec i s m = (m', Ok (St ((pc s + 1) mod P) (fp s))) /\
    felt_at (raw m') (at_ s d) (op x imm) /\
    forall c, c <> at_ s d -> raw m' c = raw m c.
Proof.
  intros Ht Hok Hx Hd. destruct (felt_at_facts _ _ _ Hx) as [X1 X2].
  assert (He : isa i (felt m) s = Some (Eff [at_ s a] [] [(at_ s d, op x imm)] (St ((pc s + 1) mod P) (fp s)))).
  { destruct i; cbn [felt_fp_imm] in Ht; try discriminate Ht; injection Ht as <- <- <- <-; cbn [isa];
    fold (at_ s src_off); fold (at_ s dst_off); rewrite X1; reflexivity. }
  destruct (exec_total _ _ _ _ Hok He) as (m' & E & Hrun).
  - cbn [reads peeks app]. fall assumption.
  - cbn [writes]. fall (cbn; unfold ADDRS, MAX_ADDRESS in *; lia).
  - exists m'. split; [exact E|]. eapply put_felt; [exact Hrun|].
    assert (W := mod_wf (fp s + d)). unfold wf in W. unfold at_ in *. lia.
Qed.

Lemma felt_div_zero a b d s m :
  okwf s (StoreDivFpFp a b d) m -> felt_at (raw m) (at_ s b) 0 ->
  exists m' er, exec (StoreDivFpFp a b d) s m = (m', Err er) /\ forall c, raw m' c = raw m c.
Proof.
  intros Hok Hy. destruct (felt_at_facts _ _ _ Hy) as [Y1 Y2].
  apply exec_refused; [exact Hok|]. cbn [isa]. fold (at_ s b). rewrite Y1. reflexivity.
Qed.
