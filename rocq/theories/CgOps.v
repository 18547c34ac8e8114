(** The code for u32 operators, comparisons and booleans. *)
From Coq Require Import ZArith Bool String List Lia.
From Verif Require Import M31 M31Facts Instr InstrFacts Isa IsaFacts Mir MirSem MirPasses MirLocalFacts MirIsa MirIsaFacts
  Cg CgLink CgSpec CgPassFacts CgStepFacts CgBoolFacts CgLinkFacts CgExec CgArith.
Import ListNotations.
Open Scope Z_scope.

(** The immediate forms of the u32 operators. *)
Definition opcode_imm (op : binop) (a n d t : Z) : option instr :=
  match op with
  | U32Add => Some (U32StoreAddFpImm a (lo16 n) (hi16 n) d)
  | U32Sub => Some (U32StoreAddFpImm a (lo16 (neg32 n)) (hi16 (neg32 n)) d)
  | U32Mul => Some (U32StoreMulFpImm a (lo16 n) (hi16 n) d)
  | U32Div => Some (U32StoreDivRemFpImm a (lo16 n) (hi16 n) d t)
  | U32Rem => Some (U32StoreDivRemFpImm a (lo16 n) (hi16 n) t d)
  | U32Eq => Some (U32StoreEqFpImm a (lo16 n) (hi16 n) d)
  | U32Less => Some (U32StoreLtFpImm a (lo16 n) (hi16 n) d)
  | U32BitwiseAnd => Some (U32StoreAndFpImm a (lo16 n) (hi16 n) d)
  | U32BitwiseOr => Some (U32StoreOrFpImm a (lo16 n) (hi16 n) d)
  | U32BitwiseXor => Some (U32StoreXorFpImm a (lo16 n) (hi16 n) d)
  | _ => None
  end.
Lemma imm_limbs : forall n, 0 <= n < B32 -> (lo16 n <? B16) && (hi16 n <? B16) = true /\ lo16 n + B16 * hi16 n = n.
Proof.
  intros n H. destruct (limbs n H) as (A & B & C). unfold lo16, hi16. change 65536 with B16. split; auto.
  apply andb_true_iff. split; apply Z.ltb_lt; lia.
Qed.
Lemma neg32_range : forall n, 0 <= neg32 n < B32.
Proof. intros. apply Z.mod_pos_bound. reflexivity. Qed.
Lemma opcode_imm_ok : forall op a n d t i m s x,
  opcode_imm op a n d t = Some i -> (op = U32Div -> apart s d t) -> 0 <= n < B32 -> (n = 0 -> op <> U32Div /\ op <> U32Rem) ->
  holds m (slot s a) (VU32 x) ->
  exists v eff, sem_bin op (VU32 x) (VU32 n) = ROk v /\ isa i m s = Some eff /\ holds (upds m (writes eff)) (slot s d) v.
Proof.
  intros op a n d t i m s x Ho Hd Hn H0 Hx.
  pose proof (fun o => Z.mod_pos_bound (fp s + o) P ltac:(reflexivity)) as SL.
  pose proof (proj1 Hx) as Rx. destruct (u32_cells _ _ _ Hx) as [Ux Ox].
  destruct (imm_limbs n Hn) as (Li & Lv). destruct (imm_limbs _ (neg32_range n)) as (Ni & Nv).
  destruct op; cbn [opcode_imm] in Ho; try discriminate; injection Ho as <-; cbn [sem_bin isa]; unfold slot in *;
    rewrite ?Li, ?Ni, ?Lv, ?Nv, ?Ux, ?Ox; cbn [andb].
  1,2,3: do 2 eexists; split; [reflexivity|]; split; [reflexivity|]; cbn [writes].
  - apply put_holds. apply Z.mod_pos_bound. reflexivity.
  - replace ((x + neg32 n) mod B32) with ((x - n) mod B32).
    + apply put_holds. apply Z.mod_pos_bound. reflexivity.
    + unfold neg32. change 4294967296 with B32. rewrite Zplus_mod_idemp_r. replace (x + (B32 - n)) with (x - n + 1 * B32) by lia.
      rewrite Z_mod_plus_full. reflexivity.
  - apply put_holds. apply Z.mod_pos_bound. reflexivity.
  - destruct (Z.eqb_spec n 0) as [E|E]; [destruct (H0 E) as (K & _); destruct (K eq_refl)|]. cbn [negb].
    do 2 eexists; split; [reflexivity|]; split; [reflexivity|]; cbn [writes]. apply put2_holds; auto.
    + exact (Hd eq_refl).
    + apply div32; auto.
  - destruct (Z.eqb_spec n 0) as [E|E]; [destruct (H0 E) as (_ & K); destruct (K eq_refl)|]. cbn [negb].
    do 2 eexists; split; [reflexivity|]; split; [reflexivity|]; cbn [writes]. rewrite upds_app. apply put_holds. apply rem32; auto.
  - do 2 eexists; split; [reflexivity|]; split; [reflexivity|]; cbn [writes upds holds]. rewrite Z.eqb_refl. reflexivity.
  - do 2 eexists; split; [reflexivity|]; split; [reflexivity|]; cbn [writes upds holds]. rewrite Z.eqb_refl. reflexivity.
  - do 2 eexists; split; [reflexivity|]; split; [reflexivity|]; cbn [writes]. apply put_holds, land32; auto.
  - do 2 eexists; split; [reflexivity|]; split; [reflexivity|]; cbn [writes]. apply put_holds, lor32; auto.
  - do 2 eexists; split; [reflexivity|]; split; [reflexivity|]; cbn [writes]. apply put_holds, lxor32; auto.
Qed.
(** The slots an operator's result takes, and where its instruction writes. *)
Definition width (v : val) : Z := match v with VU32 _ => 2 | _ => 1 end.
Definition res_width (op : binop) : Z :=
  match op with U32Eq | U32Less | Add | Sub | Mul | Div => 1 | _ => 2 end.
Definition writes_at (s : state) (d n : Z) (t : option Z) (e : Isa.effect) : Prop :=
  forall w, In w (writes e) -> fst w = slot s d \/ (n = 2 /\ fst w = (slot s d + 1) mod P) \/
    exists t', t = Some t' /\ (fst w = slot s t' \/ fst w = (slot s t' + 1) mod P).
Definition scratch (op : binop) (t : Z) : option Z := match op with U32Div | U32Rem => Some t | _ => None end.
Lemma opcode_writes : forall op a b d t i m s e, opcode op a b d t = Some i -> isa i m s = Some e ->
  writes_at s d (res_width op) (scratch op t) e.
Proof.
  intros op a b d t i m s e Ho E w Hw. destruct op; cbn [opcode] in Ho; try discriminate; injection Ho as <-;
    cbn [isa] in E; repeat match type of E with context [if ?c then _ else _] => destruct c; try discriminate end;
    injection E as <-; cbn [writes app In] in Hw; cbn [res_width scratch]; unfold slot;
    repeat (destruct Hw as [<-|Hw]; [cbn [fst]; eauto 7|]); try destruct Hw; eauto 7.
Qed.
Lemma opcode_imm_writes : forall op a n d t i m s e, opcode_imm op a n d t = Some i -> isa i m s = Some e ->
  writes_at s d (res_width op) (scratch op t) e.
Proof.
  intros op a n d t i m s e Ho E w Hw. destruct op; cbn [opcode_imm] in Ho; try discriminate; injection Ho as <-;
    cbn [isa] in E; repeat match type of E with context [if ?c then _ else _] => destruct c; try discriminate end;
    injection E as <-; cbn [writes app In] in Hw; cbn [res_width scratch]; unfold slot;
    repeat (destruct Hw as [<-|Hw]; [cbn [fst]; eauto 7|]); try destruct Hw; eauto 7.
Qed.
Lemma sem_width : forall op x y v, sem_bin op (VU32 x) (VU32 y) = ROk v -> res_width op = width v \/ op = U32Neq \/
  op = U32Greater \/ op = U32LessEqual \/ op = U32GreaterEqual.
Proof.
  intros op x y v H. destruct op; cbn [sem_bin] in H; try discriminate H; auto 6;
    try (destruct (y =? 0); [discriminate|]); injection H as <-; auto.
Qed.

Set Default Proof Using "All".
Section Ops.
Variable M : machine.
Variable lab : string -> option Z.
Hypothesis lab_ok : forall l b, lab l = Some b -> 0 <= b < P.
Hypothesis code_ok : forall a i, code M a = Some i -> (0 <= a < P /\ 0 <= fp_min M a) /\ iwf i.
Variable FS : Z.
Variables NS LO : Z.
Hypothesis FS_lo : 0 <= NS <= LO /\ NS <= FS.
Hypothesis FS_hi : fp_max M + FS < P.
Variable FL : Z.
Hypothesis FL_ok : 0 <= FL.
Hypothesis FL_le : FL <= FS.
Variable b : Z.
Hypothesis b_ok : LO <= b <= fp_max M.
Notation xp := (xp M lab FS LO FL).
Notation keeps := (keeps b).
Notation wordv := (wordv NS b).
Notation run_s := (CgArith.run_s M lab lab_ok code_ok FS NS LO FS_lo FS_hi FL FL_ok FL_le b b_ok).
Notation run_t := (CgArith.run_t M lab lab_ok code_ok FS NS LO FS_lo FS_hi FL FL_ok FL_le b b_ok).
Notation run_store := (CgArith.run_store M lab lab_ok code_ok FS NS LO FS_lo FS_hi FL FL_ok FL_le b b_ok).
Notation slot_lin := (CgExec.slot_lin M lab lab_ok code_ok FS NS LO FS_lo FS_hi).
Notation xp_cons := (CgExec.xp_cons M lab lab_ok code_ok FS NS LO FS_lo FS_hi FL FL_ok).
Notation xp_app := (CgExec.xp_app M lab lab_ok code_ok FS NS LO FS_lo FS_hi FL FL_ok).
Notation xp_stable := (CgExec.xp_stable M lab lab_ok code_ok FS NS LO FS_lo FS_hi FL FL_ok).
Notation xp_range := (CgExec.xp_range M lab lab_ok code_ok FS NS LO FS_lo FS_hi FL FL_ok).
Notation felt_arith_ok := (CgArith.felt_arith_ok M lab lab_ok code_ok FS NS LO FS_lo FS_hi FL FL_ok FL_le b b_ok).
Notation msteps_felts := (CgExec.msteps_felts M lab lab_ok code_ok FS NS LO FS_lo FS_hi).
Notation no_second := (CgArith.no_second M lab lab_ok code_ok FS NS LO FS_lo FS_hi FL FL_ok FL_le b b_ok).

(** The cells of a value at slot [k]. *)
Definition cel (m : Z -> Z) (k : Z) (v : val) : Prop :=
  match v with
  | VFelt z => m (b + k) = z /\ 0 <= z < P
  | VBool c => m (b + k) = bz c
  | VU32 z => 0 <= z < B32 /\ m (b + k) = z mod B16 /\ m (b + (k + 1)) = z / B16
  | _ => False
  end.
Lemma cel_holds : forall m s k v, fp s = b -> - NS <= k -> k + width v <= FS + 1 -> cel m k v <-> holds m (slot s k) v.
Proof.
  intros m s k v Hs K1 K2. destruct v; cbn [cel holds width] in *; try tauto.
  - rewrite slot_lin by lia. rewrite Hs. tauto.
  - rewrite slot_hi, !slot_lin by lia. rewrite Hs. tauto.
  - rewrite slot_lin by lia. rewrite Hs. tauto.
Qed.
Lemma cel_ext : forall m m' k v, (forall c, b + k <= c < b + k + width v -> m' c = m c) -> cel m k v -> cel m' k v.
Proof.
  intros m m' k v H C. destruct v; cbn [cel width] in *; auto; rewrite ?H by lia; auto.
Qed.
Lemma cel_keeps : forall d n lo m m' k v, keeps d n lo m m' -> k + width v <= lo ->
  (k + width v <= d \/ d + n <= k) -> cel m k v -> cel m' k v.
Proof. intros d n lo m m' k v H K D. apply cel_ext. intros c Hc. apply H; lia. Qed.

(** Outcome of executing code from [a] to [z]: the value at slot [d]. *)
Definition gives (m : Z -> Z) (a z d lo : Z) (r : res val) : Prop :=
  match r with
  | ROk v => exists m', msteps M m (St a b) m' (St z b) /\ felts m' /\ cel m' d v /\ keeps d (width v) lo m m'
  | RTrap => mtraps M m (St a b)
  | _ => True
  end.
Lemma gives_low : forall m a z d lo lo' r, gives m a z d lo r -> lo' <= lo -> gives m a z d lo' r.
Proof.
  intros m a z d lo lo' [v| | |] H L; cbn in *; auto. destruct H as (m' & A & B & C & D). exists m'. split; auto. split; auto. split; auto.
  intros c Hc. apply D. lia.
Qed.

(** One u32 instruction with result at [d] and a scratch area at [t]. *)
Lemma run_u32 : forall a i z m e d t lo n v, xp a [CI i None] z -> straight i = true -> felts m -> second_ok NS FL i ->
  isa i m (St a b) = Some e -> writes_at (St a b) d n t e -> holds (upds m (writes e)) (slot (St a b) d) v ->
  n = width v -> - NS <= d -> d + n <= lo -> (forall t', t = Some t' -> lo <= t' /\ t' + 2 <= FS) -> lo <= FL ->
  gives m a z d lo (ROk v).
Proof.
  intros a i z m e d t lo n v X S Hm H2 E W Hh Hn D1 D2 T Lo.
  destruct (run_s a i z m e X S Hm H2 E) as (m' & R & F & K). exists m'. split; auto. split; auto.
  assert (1 <= n <= 2) by (subst n; destruct v; cbn; lia).
  assert (U : forall c, c < b + lo -> (c < b + d \/ b + d + n <= c) -> upds m (writes e) c = m c).
  { intros c Hc Hd. apply upds_out. intros Hin. apply in_map_iff in Hin. destruct Hin as (w & Ew & Hin).
    apply W in Hin. rewrite Ew in Hin.
    destruct Hin as [Hin|[(Hn2 & Hin)|(t' & Ht & [Hin|Hin])]].
    - rewrite slot_lin in Hin by (cbn [fp]; lia). cbn [fp] in Hin. clear - Hin Hd H. lia.
    - rewrite slot_hi, slot_lin in Hin by (cbn [fp]; lia). cbn [fp] in Hin. clear - Hin Hd H Hn2. lia.
    - destruct (T _ Ht). rewrite slot_lin in Hin by (cbn [fp]; lia). cbn [fp] in Hin. clear - Hin Hc H0. lia.
    - destruct (T _ Ht). rewrite slot_hi, slot_lin in Hin by (cbn [fp]; lia). cbn [fp] in Hin. clear - Hin Hc H0. lia. }
  split.
  - rewrite <- cel_holds in Hh; auto; try lia.
    eapply cel_ext; [|exact Hh]. intros c Hc. apply K. lia.
  - intros c Hc Hd. rewrite <- Hn in Hd. rewrite K by lia. apply U; auto.
Qed.

(** u32 operands. *)
Definition u32v (L : layout) (m : Z -> Z) (v : value) (n : Z) : Prop :=
  match v with
  | Lit (LInt k) => k = n /\ 0 <= n < B32
  | Op i => exists o w, slots L i = Some (o, w) /\ - NS <= o /\ o + 2 <= frame L /\ cel m o (VU32 n)
  | _ => False
  end.
Definition is_cmp (op : binop) : bool := match op with U32Eq | U32Less => true | _ => false end.

Lemma run_u32imm : forall a z m n d, xp a [CI (U32StoreImm (lo16 n) (hi16 n) (mfrom d)) None] z -> felts m -> 0 <= n < B32 ->
  - NS <= d -> d + 2 <= FL -> gives m a z d FL (ROk (VU32 n)).
Proof.
  intros a z m n d X Hm Hn D1 D2. destruct (imm_limbs n Hn) as (Li & Lv).
  assert (E : isa (U32StoreImm (lo16 n) (hi16 n) (mfrom d)) m (St a b) =
    Some (Eff [] [] [(slot (St a b) d, n mod B16); ((slot (St a b) d + 1) mod P, n / B16)] (St ((a + 1) mod P) b))).
  { cbn [isa]. rewrite Li, Lv, slot_mfrom. reflexivity. }
  destruct (run_s a (U32StoreImm (lo16 n) (hi16 n) (mfrom d)) z m _ X eq_refl Hm (no_second (U32StoreImm (lo16 n) (hi16 n) (mfrom d)) eq_refl) E) as (m' & R & F & K).
  exists m'. split; auto. split; auto. cbn [writes] in K. clear E Li Lv. rewrite slot_hi, !slot_lin in K by (cbn [fp]; lia). cbn [fp upds] in K.
  split.
  - cbn [cel]. split; auto. rewrite !K by lia. rewrite !Z.eqb_refl. destruct (Z.eqb_spec (b + d) (b + (d + 1))); [lia|]. auto.
  - intros c Hc Hd. cbn [width] in Hd. rewrite K by lia. destruct (Z.eqb_spec c (b + (d + 1))); [lia|]. destruct (Z.eqb_spec c (b + d)); [lia|]. auto.
Qed.

Lemma u2_ok : forall op x y d st u is st' a z m vx vy, u32_fp_fp op x y d st = COk (u, is, st') -> xp a is z -> felts m ->
  frame (lay st') <= FL -> - NS <= x -> x + 2 <= FL -> - NS <= y -> y + 2 <= FL ->
  - NS <= d -> d + res_width op <= frame (lay st) -> cel m x (VU32 vx) -> cel m y (VU32 vy) ->
  gives m a z d (frame (lay st)) (sem_bin op (VU32 vx) (VU32 vy)).
Proof.
  intros op x y d st u is st' a z m vx vy H X Hm Fr X1 X2 Y1 Y2 D1 D2 Cx Cy.
  assert (Q : exists t i, opcode op (mfrom x) (mfrom y) (mfrom d) (mfrom t) = Some i /\ is = [CI i None] /\
     frame (lay st) <= FL /\ (forall t', scratch op t = Some t' -> frame (lay st) = t' /\ t' + 2 <= FL)).
  { unfold u32_fp_fp in H. destruct op; try discriminate H;
    try (apply out_ok in H; destruct H as (-> & ->); exists 0; eexists; split; [reflexivity|]; split; [reflexivity|];
         split; [lia|]; cbn [scratch]; discriminate).
    all: take H r j0 st0 E0; apply reserve_ok in E0; destruct E0 as (-> & -> & ->); apply out_ok in H;
      destruct H as (-> & ->); cbn [with_lay lay set_frame frame] in Fr; exists (frame (lay st)); eexists; split; [reflexivity|]; split; [reflexivity|];
      split; [lia|]; cbn [scratch]; intros t' E; injection E as <-; lia. }
  destruct Q as (t & i & Q & -> & Fl & Tt).
  assert (Qi : straight i = true) by (destruct op; cbn in Q; try discriminate Q; injection Q as <-; reflexivity).
  assert (Q2 : second_ok NS FL i).
  { intros y' n E. destruct op; cbn in Q; try discriminate Q; injection Q as <-; cbn in E; try discriminate E;
      injection E as <- <-; exists y; split; auto; lia. }
  assert (Qm : forall x d, i <> U32StoreMulFpImm x 0 0 d) by (destruct op; cbn in Q; try discriminate Q; injection Q as <-; discriminate).
  assert (Hx : holds m (slot (St a b) (mfrom x)) (VU32 vx)).
  { unfold slot. rewrite slot_mfrom. apply cel_holds; auto. cbn; lia. }
  assert (Hy : holds m (slot (St a b) (mfrom y)) (VU32 vy)).
  { unfold slot. rewrite slot_mfrom. apply cel_holds; auto. cbn; lia. }
  assert (Ap : op = U32Div -> apart (St a b) (mfrom d) (mfrom t)).
  { intros ->. destruct (Tt _ eq_refl) as (T1 & T2). cbn [res_width] in D2. intros i0 j0 I0 J0.
    unfold slot. rewrite !slot_mfrom. rewrite !slot_lin by (cbn [fp]; lia). cbn [fp].
    rewrite !Z.mod_small by (clear - I0 J0 D1 D2 T1 T2 FS_lo FS_hi b_ok FL_le; lia).
    clear - I0 J0 D1 D2 T1 T2. lia. }
  pose proof (opcode_ok op _ _ _ _ i m (St a b) _ _ Q Ap Hx Hy) as O.
  destruct (sem_bin op (VU32 vx) (VU32 vy)) as [v| | |] eqn:Es; auto.
  - destruct O as (e & E & Hh).
    assert (Hw : res_width op = width v).
    { destruct (sem_width _ _ _ _ Es) as [K|[K|[K|[K|K]]]]; auto; subst op; discriminate Q. }
    pose proof (opcode_writes _ _ _ _ _ _ _ _ _ Q E) as W.
    eapply run_u32; [exact X|exact Qi|exact Hm|exact Q2|exact E| | |exact Hw|lia|lia| |exact Fl].
    + instantiate (1 := scratch op t). intros w Hin. destruct (W w Hin) as [K|[K|(t' & K & K')]].
      * left. rewrite K. unfold slot at 1. rewrite slot_mfrom. auto.
      * right. left. unfold slot in K. rewrite slot_mfrom in K. exact K.
      * right. right. exists t. destruct op; try discriminate K; cbn [scratch] in K; injection K as <-; split; auto;
          unfold slot in K' |- *; rewrite slot_mfrom in K'; exact K'.
    + unfold slot in Hh. rewrite slot_mfrom in Hh. exact Hh.
    + intros t' K. destruct (Tt _ K). lia.
  - cbn [gives]. eapply run_t; eauto.
Qed.

Lemma u1_ok : forall op x n d st u is st' a z m vx, u32_fp_imm op x n d st = COk (u, is, st') -> xp a is z -> felts m ->
  frame (lay st') <= FL -> - NS <= x -> x + 2 <= FL -> 0 <= n < B32 -> (n = 0 -> op <> U32Div /\ op <> U32Rem) ->
  - NS <= d -> d + res_width op <= frame (lay st) -> cel m x (VU32 vx) ->
  gives m a z d (frame (lay st)) (sem_bin op (VU32 vx) (VU32 n)).
Proof.
  intros op x n d st u is st' a z m vx H X Hm Fr X1 X2 Hn H0 D1 D2 Cx.
  assert (Q : exists t i, opcode_imm op (mfrom x) n (mfrom d) (mfrom t) = Some i /\ is = [CI i None] /\
     frame (lay st) <= FL /\ (forall t', scratch op t = Some t' -> frame (lay st) = t' /\ t' + 2 <= FL)).
  { unfold u32_fp_imm in H. destruct op; try discriminate H;
    try (apply out_ok in H; destruct H as (-> & ->); exists 0; eexists; split; [reflexivity|]; split; [reflexivity|];
         split; [lia|]; cbn [scratch]; discriminate).
    all: take H r j0 st0 E0; apply reserve_ok in E0; destruct E0 as (-> & -> & ->); apply out_ok in H;
      destruct H as (-> & ->); cbn [with_lay lay set_frame frame] in Fr; exists (frame (lay st)); eexists; split; [reflexivity|]; split; [reflexivity|];
      split; [lia|]; cbn [scratch]; intros t' E; injection E as <-; lia. }
  destruct Q as (t & i & Q & -> & Fl & Tt).
  assert (Qi : straight i = true) by (destruct op; cbn in Q; try discriminate Q; injection Q as <-; reflexivity).
  assert (Q2 : second_ok NS FL i).
  { apply no_second. destruct op; cbn in Q; try discriminate Q; injection Q as <-; reflexivity. }
  assert (Hx : holds m (slot (St a b) (mfrom x)) (VU32 vx)).
  { unfold slot. rewrite slot_mfrom. apply cel_holds; auto. cbn; lia. }
  assert (Ap : op = U32Div -> apart (St a b) (mfrom d) (mfrom t)).
  { intros ->. destruct (Tt _ eq_refl) as (T1 & T2). cbn [res_width] in D2. intros i0 j0 I0 J0.
    unfold slot. rewrite !slot_mfrom. rewrite !slot_lin by (cbn [fp]; lia). cbn [fp].
    rewrite !Z.mod_small by (clear - I0 J0 D1 D2 T1 T2 FS_lo FS_hi b_ok FL_le; lia).
    clear - I0 J0 D1 D2 T1 T2. lia. }
  destruct (opcode_imm_ok op _ _ _ _ i m (St a b) _ Q Ap Hn H0 Hx) as (v & e & Es & E & Hh).
  rewrite Es.
  assert (Hw : res_width op = width v).
  { destruct (sem_width _ _ _ _ Es) as [K|[K|[K|[K|K]]]]; auto; subst op; discriminate Q. }
  pose proof (opcode_imm_writes _ _ _ _ _ _ _ _ _ Q E) as W.
  eapply run_u32; [exact X|exact Qi|exact Hm|exact Q2|exact E| | |exact Hw|lia|lia| |exact Fl].
  + instantiate (1 := scratch op t). intros w Hin. destruct (W w Hin) as [K|[K|(t' & K & K')]].
    * left. rewrite K. unfold slot at 1. rewrite slot_mfrom. auto.
    * right. left. unfold slot in K. rewrite slot_mfrom in K. exact K.
    * right. right. exists t. destruct op; try discriminate K; cbn [scratch] in K; injection K as <-; split; auto;
        unfold slot in K' |- *; rewrite slot_mfrom in K'; exact K'.
  + unfold slot in Hh. rewrite slot_mfrom in Hh. exact Hh.
  + intros t' K. destruct (Tt _ K). lia.
Qed.

Lemma swap_u32 : forall op x y, commutes_u32 op = true -> sem_bin op (VU32 x) (VU32 y) = sem_bin op (VU32 y) (VU32 x).
Proof.
  intros op x y H. destruct op; try discriminate H; cbn [sem_bin]; do 2 f_equal.
  - f_equal. lia. - f_equal. lia. - apply Z.eqb_sym. - f_equal. apply Z.eqb_sym.
  - apply Z.land_comm. - apply Z.lor_comm. - apply Z.lxor_comm.
Qed.
Lemma store_u32_ok : forall n d st u is st' a z m, store_u32 n d st = COk (u, is, st') -> xp a is z -> felts m -> 0 <= n < B32 ->
  - NS <= d -> d + 2 <= FL -> st' = st /\ gives m a z d FL (ROk (VU32 n)).
Proof.
  intros n d st u is st' a z m H X Hm Hn D1 D2. apply out_ok in H. destruct H as (-> & ->). split; auto. apply run_u32imm; auto.
Qed.
Lemma store_bool_ok : forall c d st u is st' a z m, store_imm (bz c) d st = COk (u, is, st') -> xp a is z -> felts m ->
  - NS <= d -> d + 1 <= FL -> st' = st /\ gives m a z d FL (ROk (VBool c)).
Proof.
  intros c d st u is st' a z m H X Hm D1 D2. apply out_ok in H. destruct H as (-> & ->). split; auto.
  destruct (run_store a z m _ d X Hm D1 D2) as (m' & R & F & V & K). exists m'. split; auto. split; auto. split; auto.
  cbn [cel]. rewrite V. destruct c; reflexivity.
Qed.

Lemma u32_op_ok : forall op d l r st u is st' a z m x y, u32_op op d l r st = COk (u, is, st') ->
  xp a is z -> felts m -> frame (lay st') <= FL -> - NS <= d -> d + res_width op <= frame (lay st) ->
  u32v (lay st) m l x -> u32v (lay st) m r y ->
  gives m a z d (frame (lay st)) (sem_bin op (VU32 x) (VU32 y)).
Proof.
  intros op d l r st u is st' a z m x y H X Hm Fr D1 D2 Wl Wr.
  destruct (quiet_u32_op op d l r st u is st' H) as (_ & _ & Fm).
  unfold u32_op in H.
  assert (OI : forall i n x y, u32v (lay st) m (Op i) x -> n = y -> 0 <= y < B32 ->
     (x0 <- offset i ;; match op with
      | U32Div | U32Rem => if n =? 0 then fail else u32_fp_imm op x0 n d
      | _ => u32_fp_imm op x0 n d end) st = COk (u, is, st') ->
     gives m a z d (frame (lay st)) (sem_bin op (VU32 x) (VU32 y))).
  { intros i n x0 y0 (o & w & A & B & C & D) -> R0 H0. take H0 o' j0 st0 E0. apply offset_ok in E0. destruct E0 as (-> & -> & k' & E0).
    rewrite A in E0. injection E0 as <- <-. cbn [app] in X.
    assert (Hz : y0 = 0 -> op <> U32Div /\ op <> U32Rem).
    { intros ->. split; intros ->; discriminate H0. }
    match type of H0 with _ = ?R => assert (H1 : u32_fp_imm op o y0 d st = R) end.
    { destruct op; try exact H0; destruct (y0 =? 0); try discriminate H0; exact H0. }
    eapply u1_ok; [exact H1|exact X|exact Hm|lia|lia|lia|exact R0|exact Hz|lia|lia|exact D]. }
  assert (LO_ : forall j n x y, u32v (lay st) m (Op j) y -> n = x -> 0 <= x < B32 ->
     (y <- offset j ;; t <- reserve 2 ;; store_u32 n t ;;; u32_fp_fp op t y d) st = COk (u, is, st') ->
     gives m a z d (frame (lay st)) (sem_bin op (VU32 x) (VU32 y))).
  { intros j n x0 y0 (o & w & A & B & C & D) -> R0 H0. take H0 o' j0 st0 E0. apply offset_ok in E0. destruct E0 as (-> & -> & k' & E0).
    rewrite A in E0. injection E0 as <- <-.
    take H0 t j1 st1 E1. apply reserve_ok in E1. destruct E1 as (-> & -> & ->).
    take H0 u2 j2 st2 E2. cbn [app] in X. destruct (xp_app _ _ _ _ X) as (a1 & X1 & X2).
    assert (E2' := E2). apply out_ok in E2'. destruct E2' as (_ & ->).
    assert (Q : frame (lay st) + 2 <= frame (lay st')).
    { unfold u32_fp_fp in H0. clear - H0. destruct op; try discriminate H0; try (apply out_ok in H0; destruct H0 as (_ & ->); cbn; lia).
      all: take H0 r j0 st0 E0; apply reserve_ok in E0; destruct E0 as (-> & -> & ->); apply out_ok in H0; destruct H0 as (_ & ->); cbn; lia. }
    destruct (store_u32_ok _ _ _ _ _ _ a a1 m E2 X1 Hm R0 ltac:(lia) ltac:(lia)) as (_ & m1 & R1 & F1 & C1 & K1). cbn [width] in K1.
    pose proof (u2_ok op (frame (lay st)) o d _ _ _ _ a1 z m1 x0 y0 H0 X2 F1 ltac:(lia) ltac:(lia) ltac:(lia) ltac:(lia) ltac:(lia) ltac:(lia)) as G.
    cbn [with_lay lay set_frame frame] in G. specialize (G ltac:(lia) C1).
    assert (C2 : cel m1 o (VU32 y0)) by (eapply cel_keeps; [exact K1| | |exact D]; cbn [width]; lia).
    specialize (G C2). destruct (sem_bin op (VU32 x0) (VU32 y0)) as [v| | |]; cbn [gives] in *; auto.
    - destruct G as (m' & R2 & F2 & C3 & K2). exists m'. split; [eapply msteps_trans; eauto|]. split; auto. split; auto.
      intros c Hc Hd. rewrite K2, K1; auto; lia.
    - eapply mtraps_after; eauto. }
  assert (LL : forall n k, n = x -> k = y -> 0 <= x < B32 -> 0 <= y < B32 ->
     match op with
      | U32Eq => store_imm (bz (n =? k)) d
      | U32Less => store_imm (bz (n <? k)) d
      | U32Add => store_u32 ((n + k) mod 4294967296) d
      | U32Sub => store_u32 ((n - k) mod 4294967296) d
      | U32Mul => store_u32 ((n * k) mod 4294967296) d
      | U32Div => if k =? 0 then fail
                  else store_u32 (n / k) d ;;; r <- reserve 2 ;; store_u32 (n mod k) r
      | U32Rem => if k =? 0 then fail else store_u32 (n mod k) d
      | U32BitwiseAnd => store_u32 (Z.land n k) d
      | U32BitwiseOr => store_u32 (Z.lor n k) d
      | U32BitwiseXor => store_u32 (Z.lxor n k) d
      | _ => fail
      end st = COk (u, is, st') -> gives m a z d (frame (lay st)) (sem_bin op (VU32 x) (VU32 y))).
  { intros n k -> -> Rx Ry H0. clear H OI LO_. pose proof (fun t => Z.mod_pos_bound t B32 ltac:(reflexivity)) as Mb.
    change 4294967296 with B32 in H0. cbn [res_width] in D2.
    destruct op; try discriminate H0; cbn [sem_bin] in *; cbn [res_width] in D2.
    1,2,3: eapply gives_low; [eapply store_u32_ok; [exact H0|exact X|exact Hm|apply Mb|lia|lia]|lia].
    - destruct (y =? 0) eqn:Ey; [discriminate|]. apply Z.eqb_neq in Ey.
      take H0 u1 j1 st1 E1. destruct (xp_app _ _ _ _ X) as (a1 & X1 & X2).
      assert (E1' := E1). apply out_ok in E1'. destruct E1' as (_ & ->).
      take H0 t j2 st2 E2. apply reserve_ok in E2. destruct E2 as (-> & -> & ->). cbn [app] in X2.
      assert (E3' := H0). apply out_ok in E3'. destruct E3' as (_ & ->). cbn [with_lay lay set_frame frame] in Fr.
      assert (Rd : 0 <= x / y < B32) by (apply div32; auto). assert (Rm : 0 <= x mod y < B32) by (apply rem32; auto).
      destruct (store_u32_ok _ _ _ _ _ _ a a1 m E1 X1 Hm Rd ltac:(lia) ltac:(lia)) as (_ & m1 & R1 & F1 & C1 & K1). cbn [width] in K1.
      destruct (store_u32_ok _ _ _ _ _ _ a1 z m1 H0 X2 F1 Rm ltac:(lia) ltac:(lia)) as (_ & m2 & R2 & F2 & C2 & K2). cbn [width] in K2.
      exists m2. split; [eapply msteps_trans; eauto|]. split; auto. split.
      + eapply cel_keeps; [exact K2| | |exact C1]; cbn [width]; lia.
      + intros c Hc Hd. cbn [width] in Hd. rewrite K2, K1; auto; lia.
    - destruct (y =? 0) eqn:Ey; [discriminate|]. apply Z.eqb_neq in Ey.
      assert (Rm : 0 <= x mod y < B32) by (apply rem32; auto).
      eapply gives_low; [eapply store_u32_ok; [exact H0|exact X|exact Hm|exact Rm|lia|lia]|lia].
    - eapply gives_low; [eapply store_bool_ok; [exact H0|exact X|exact Hm|lia|lia]|lia].
    - eapply gives_low; [eapply store_bool_ok; [exact H0|exact X|exact Hm|lia|lia]|lia].
    - eapply gives_low; [eapply store_u32_ok; [exact H0|exact X|exact Hm|apply land32; auto|lia|lia]|lia].
    - eapply gives_low; [eapply store_u32_ok; [exact H0|exact X|exact Hm|apply lor32; auto|lia|lia]|lia].
    - eapply gives_low; [eapply store_u32_ok; [exact H0|exact X|exact Hm|apply lxor32; auto|lia|lia]|lia]. }
  assert (H' : match swap_imm (commutes_u32 op) l r with
    | (Op a, Op b) => x <- offset a ;; y <- offset b ;; u32_fp_fp op x y d
    | (Op a, Lit (LInt n)) =>
      x <- offset a ;;
      match op with
      | U32Div | U32Rem => if n =? 0 then fail else u32_fp_imm op x n d
      | _ => u32_fp_imm op x n d
      end
    | (Lit (LInt n), Op b) =>
      y <- offset b ;;
      match op with
      | U32Add | U32Mul | U32Eq | U32BitwiseAnd | U32BitwiseOr | U32BitwiseXor => u32_fp_imm op y n d
      | U32Sub | U32Div | U32Rem | U32Less =>
        t <- reserve 2 ;; store_u32 n t ;;; u32_fp_fp op t y d
      | _ => fail
      end
    | (Lit (LInt n), Lit (LInt k)) =>
     match op with
      | U32Eq => store_imm (bz (n =? k)) d
      | U32Less => store_imm (bz (n <? k)) d
      | U32Add => store_u32 ((n + k) mod 4294967296) d
      | U32Sub => store_u32 ((n - k) mod 4294967296) d
      | U32Mul => store_u32 ((n * k) mod 4294967296) d
      | U32Div => if k =? 0 then fail
                  else store_u32 (n / k) d ;;; r <- reserve 2 ;; store_u32 (n mod k) r
      | U32Rem => if k =? 0 then fail else store_u32 (n mod k) d
      | U32BitwiseAnd => store_u32 (Z.land n k) d
      | U32BitwiseOr => store_u32 (Z.lor n k) d
      | U32BitwiseXor => store_u32 (Z.lxor n k) d
      | _ => fail
      end
    | _ => fail
    end st = COk (u, is, st')).
  { destruct op; try discriminate H; exact H. }
  clear H.
  destruct l as [[n| |]|i|]; try (destruct Wl; fail); destruct r as [[k| |]|j|]; try (destruct Wr; fail).
  - replace (swap_imm (commutes_u32 op) (Lit (LInt n)) (Lit (LInt k))) with (Lit (LInt n), Lit (LInt k)) in H' by (destruct (commutes_u32 op); reflexivity).
    destruct Wl as (Wl & Rl), Wr as (Wr & Rr). exact (LL n k Wl Wr Rl Rr H').
  - destruct Wl as (Wl & Rl). destruct (commutes_u32 op) eqn:Cc; cbn [swap_imm] in H'.
    + rewrite swap_u32 by auto. eapply OI; eauto.
    + eapply LO_; eauto. destruct op; try discriminate Cc; try exact H'; take H' o j0 st0 E0; try discriminate H'.
  - replace (swap_imm (commutes_u32 op) (Op i) (Lit (LInt k))) with (Op i, Lit (LInt k)) in H' by (destruct (commutes_u32 op); reflexivity).
    destruct Wr as (Wr & Rr). eapply OI; eauto.
  - replace (swap_imm (commutes_u32 op) (Op i) (Op j)) with (Op i, Op j) in H' by (destruct (commutes_u32 op); reflexivity).
    take H' o j0 st0 E0. apply offset_ok in E0. destruct E0 as (-> & -> & k0 & E0).
    take H' o1 j1 st1 E1. apply offset_ok in E1. destruct E1 as (-> & -> & k1 & E1). cbn [app] in X.
    destruct Wl as (o' & k & A & B & C & D). rewrite A in E0. injection E0 as <- <-.
    destruct Wr as (o2 & k2 & A2 & B2 & C2 & D3). rewrite A2 in E1. injection E1 as <- <-.
    eapply u2_ok; [exact H'|exact X|exact Hm|lia|lia|lia|lia|lia|lia|lia|exact D|exact D3].
Qed.

(** Tests for zero turned into booleans. *)
Lemma set_bool_ok : forall d oz nz e st u is st' a z m, set_bool d oz nz e st = COk (u, is, st') -> xp a is z -> felts m ->
  - NS <= d -> d + 1 <= FL ->
  gives m a z d FL (ROk (VBool (if m (b + d) =? 0 then oz else negb oz))).
Proof.
  intros d oz nz e st u is st' a z m H X Hm D1 D2.
  pose proof (calm_set_bool d oz nz e st u is st' H) as Q.
  destruct (xp_range _ _ _ X) as (Ra & Rz). assert (Ra0 : 0 <= a) by lia.
  pose proof (xp_stable _ _ _ Q X) as HP. pose proof (xp_fit _ _ _ _ _ _ _ _ _ b_ok X) as XF. clear X Q. unfold set_bool in H.
  take H u1 i1 s1 E1. apply emit_ok in E1. destruct E1 as (-> & ->).
  take H u2 i2 s2 E2. apply out_ok in E2. destruct E2 as (-> & ->).
  take H u3 i3 s3 E3. apply emit_ok in E3. destruct E3 as (-> & ->).
  take H u4 i4 s4 E4. apply label_ok in E4. destruct E4 as (-> & ->).
  take H u5 i5 s5 E5. apply out_ok in E5. destruct E5 as (-> & ->).
  apply label_ok in H. destruct H as (-> & ->). cbn [app] in HP.
  destruct (run_jnz M lab lab_ok _ _ _ _ _ m (St a b) HP eq_refl Ra0 Rz ltac:(fit XF)) as (c & Lb & HP1 & Rb).
  replace (slot (St a b) (mfrom d)) with (b + d) in Rb by (unfold slot; rewrite slot_mfrom, slot_lin; auto; lia).
  destruct (run_imm M lab lab_ok _ _ d _ z m (St (a + 1) b) HP1 eq_refl ltac:(lia) Rz ltac:(fit XF)) as (R1 & HP2).
  match type of R1 with msteps _ _ _ ?q _ => set (m1 := q) in * end.
  destruct (run_jump M lab lab_ok _ _ _ _ m1 (St (a + 1 + 1) b) HP2 eq_refl ltac:(fit XF)) as (be & Lj & Rj & HP3).
  destruct HP3 as (Lz & HP4).
  destruct (run_imm M lab lab_ok _ _ d _ z m (St (a + 1 + 1 + 1) b) HP4 eq_refl ltac:(lia) Rz ltac:(fit XF)) as (R2 & (Le & Ez)).
  assert (c = a + 1 + 1 + 1) by (clear - Lb Lz; congruence). cbn [placed] in Ez. rewrite Ez in R2, Le.
  assert (be = z) by (clear - Lj Le; congruence). subst c be.
  assert (G : forall v s, fp s = b -> msteps M m (St a b) (upds m [(slot s d, mfrom (bz v))]) (St z b) -> gives m a z d FL (ROk (VBool v))).
  { intros v s Hs R. eexists. split; [exact R|]. split; [eapply msteps_felts; eauto|].
    rewrite slot_lin by (rewrite ?Hs; lia). rewrite Hs. cbn [cel width upds]. split.
    - rewrite Z.eqb_refl. destruct v; reflexivity.
    - intros c Hc Hd. destruct (Z.eqb_spec c (b + d)); auto. lia. }
  destruct (m (b + d) =? 0).
  - apply (G _ (St (a + 1) b) eq_refl). eapply msteps_trans; [exact Rb|]. eapply msteps_trans; [exact R1|exact Rj].
  - apply (G _ (St (a + 1 + 1 + 1) b) eq_refl). eapply msteps_trans; [exact Rb|exact R2].
Qed.

(** Operands that stand for run-time values. *)
Definition rep (L : layout) (m : Z -> Z) (v : value) (x : val) : Prop :=
  match v with
  | Lit (LInt n) => (x = VFelt n /\ 0 <= n < P) \/ (x = VU32 n /\ 0 <= n < B32)
  | Lit (LBool c) => x = VBool c
  | Op i => exists o w, slots L i = Some (o, w) /\ - NS <= o /\ o + width x <= frame L /\ cel m o x
  | _ => False
  end.
Lemma rep_lay : forall L L' m v x, (forall i, v = Op i -> slots L' i = slots L i) -> frame L <= frame L' -> rep L m v x -> rep L' m v x.
Proof.
  intros L L' m [[n|c|]|i|] x E F H; cbn [rep] in *; auto. destruct H as (o & w & A & B & C & D). exists o, w.
  rewrite (E i eq_refl). split; auto. split; auto. split; auto. lia.
Qed.
Lemma rep_word : forall L m v x w, rep L m v x -> one_word x = Some w -> wordv L m v w.
Proof.
  intros L m [[n|c|]|i|] x w H E; cbn [rep wordv lw] in *; try contradiction.
  - destruct H as [[-> H]|[-> H]]; [|discriminate]. injection E as <-. auto.
  - subst x. injection E as <-. reflexivity.
  - destruct H as (o & k & A & B & C & D). exists o, k. split; auto. split; auto.
    destruct x; try discriminate E; cbn [width] in C; injection E as <-; cbn [cel] in D; split; auto; tauto.
Qed.
Lemma rep_u32 : forall L m v x, rep L m v (VU32 x) -> u32v L m v x.
Proof.
  intros L m [[n|c|]|i|] x H; cbn [rep u32v] in *; try contradiction; try discriminate; auto.
  destruct H as [[H _]|[H R]]; [discriminate|]. injection H as ->. auto.
Qed.
Lemma rep_bool : forall L m v c s, rep L m v (VBool c) -> fp s = b -> frame L <= FS -> is_true L m s v c.
Proof.
  intros L m [[n|k|]|i|] c s H Hs F; cbn [rep is_true] in *; try contradiction.
  - destruct H as [[H _]|[H _]]; discriminate.
  - congruence.
  - destruct H as (o & w & A & B & C & D). exists o, w. split; auto. cbn [width] in C. rewrite slot_lin by lia. rewrite Hs.
    cbn [cel] in D. rewrite D. destruct c; reflexivity.
Qed.

Definition apart_from (L : layout) (d : Z) (v : value) : Prop := forall i o n, v = Op i -> slots L i = Some (o, n) -> o <> d.
Lemma apart_elsewhere : forall L m v x d s, rep L m v x -> apart_from L d v -> fp s = b -> frame L <= FS -> 1 <= width x ->
  - NS <= d -> d + 1 <= FS -> elsewhere L s d v.
Proof.
  intros L m v x d s H A Hs F W D1 D2 i o n -> S. cbn [rep] in H. destruct H as (o' & w & S' & B & C & _).
  rewrite S in S'. injection S' as <- <-. rewrite !slot_lin by lia. specialize (A i o n eq_refl S). lia.
Qed.

Lemma leaves_gives : forall m a z d c, leaves M m (St a b) z d c -> felts m -> - NS <= d -> d + 1 <= FL -> gives m a z d FL (ROk (VBool c)).
Proof.
  intros m a z d c (m' & R & V & K) Hm D1 D2. cbn [fp] in R. rewrite slot_lin in V, K by (cbn [fp]; lia). cbn [fp] in V, K.
  exists m'. split; auto. split; [eapply msteps_felts; eauto|]. split; auto. intros c' Hc Hd. cbn [width] in Hd. apply K. lia.
Qed.

Lemma fsem_range : forall op x y w, fsem op x y = Some w -> 0 <= w < P.
Proof.
  intros op x y w H. assert (B : forall t, 0 <= t mod P < P) by (intros; apply Z.mod_pos_bound; reflexivity).
  destruct op; cbn [fsem] in H; try (injection H as <-; apply B); try (injection H as <-; unfold P; lia).
  destruct (y =? 0); [discriminate|]. injection H as <-. apply B.
Qed.
Lemma bz_range : forall c, 0 <= bz c < P. Proof. intros []; unfold P; cbn; lia. Qed.
Lemma felt_sub_zero : forall x y, 0 <= x < P -> 0 <= y < P -> ((x - y) mod P =? 0) = (x =? y).
Proof.
  intros x y Hx Hy. destruct (Z.eqb_spec x y) as [->|N].
  - rewrite Z.sub_diag. reflexivity.
  - apply Z.eqb_neq. intros E. apply N. apply Z.mod_divide in E; [|discriminate]. destruct E as (k & E).
    assert (k = 0) by (unfold P in *; nia). subst k. lia.
Qed.
Lemma wordv_range : forall L m v w, felts m -> wordv L m v w -> 0 <= w < P.
Proof.
  intros L m [l|i|] w F H; cbn [wordv] in H; [exact (proj1 (lw_range _ _ H))| |contradiction].
  destruct H as (o & n & _ & _ & _ & <-). apply F.
Qed.

(** Equality tests. *)
Lemma felt_test_ok : forall oz n1 n2 d l r st u is st' a z m x y,
  (felt_arith Sub d l r ;;; nz <- fresh n1 ;; e <- fresh n2 ;; set_bool d oz nz e) st = COk (u, is, st') ->
  xp a is z -> felts m -> frame (lay st') <= FL -> - NS <= d -> d + 1 <= frame (lay st) ->
  wordv (lay st) m l x -> wordv (lay st) m r y ->
  gives m a z d (frame (lay st)) (ROk (VBool (if x =? y then oz else negb oz))).
Proof.
  intros oz n1 n2 d l r st u is st' a z m x y H X Hm Fr D1 D2 Wl Wr.
  take H u1 j1 st1 E1. destruct (quiet_felt_arith _ _ _ _ _ _ _ _ E1) as (_ & _ & Q1).
  take H nz j2 st2 E2. apply fresh_ok in E2. destruct E2 as (-> & -> & V2).
  take H e j3 st3 E3. apply fresh_ok in E3. destruct E3 as (-> & -> & V3). cbn [app] in X.
  assert (lay st2 = lay st1) by exact V2. assert (lay st3 = lay st2) by exact V3.
  assert (Fs : frame (lay st1) <= FL).
  { assert (lay st' = lay st3).
    { unfold set_bool in H. take H v1 k1 s1 F1. apply emit_ok in F1. destruct F1 as (-> & ->).
      take H v2 k2 s2 F2. apply out_ok in F2. destruct F2 as (-> & ->).
      take H v3 k3 s3 F3. apply emit_ok in F3. destruct F3 as (-> & ->).
      take H v4 k4 s4 F4. apply label_ok in F4. destruct F4 as (-> & ->).
      take H v5 k5 s5 F5. apply out_ok in F5. destruct F5 as (-> & ->).
      apply label_ok in H. destruct H as (-> & ->). reflexivity. }
    congruence. }
  destruct (xp_app _ _ _ _ X) as (a1 & X1 & X2).
  pose proof (felt_arith_ok Sub d l r st _ _ _ a a1 m x y E1 X1 Hm Fs D1 D2 Wl Wr) as G. cbn [fsem] in G.
  destruct G as (m1 & R1 & F1 & C1 & K1).
  pose proof (set_bool_ok _ _ _ _ _ _ _ _ a1 z m1 H X2 F1 D1 ltac:(lia)) as (m2 & R2 & F2 & C2 & K2).
  rewrite C1, felt_sub_zero in C2; [|eapply wordv_range; [exact Hm|exact Wl]|eapply wordv_range; [exact Hm|exact Wr]].
  exists m2. split; [eapply msteps_trans; eauto|]. split; auto. split; auto.
  intros c Hc Hd. cbn [width] in *. rewrite K2, K1; auto; lia.
Qed.
End Ops.
