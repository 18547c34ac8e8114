(** The MIR operators agree with the machine instructions that implement them. *)
From Coq Require Import ZArith Bool List Lia.
From Verif Require Import M31 M31Facts Instr Isa IsaFacts Mir MirSem MirPasses MirLocalFacts MirIsa.
Import ListNotations.
Open Scope Z_scope.

Lemma limbs : forall z, 0 <= z < B32 -> 0 <= z mod B16 < B16 /\ 0 <= z / B16 < B16 /\ z mod B16 + B16 * (z / B16) = z.
Proof.
  intros z H. pose proof (Z.mod_pos_bound z B16 ltac:(reflexivity)).
  pose proof (Z.div_mod z B16 ltac:(discriminate)).
  repeat split; try lia. apply Z.div_pos; [lia|reflexivity].
  apply Z.div_lt_upper_bound; [reflexivity|]. change (B16 * B16) with B32. lia.
Qed.
Lemma next_cell : forall a, (a + 1) mod P <> a.
Proof.
  intros a H. assert (0 <= a < P) by (rewrite <- H; apply Z.mod_pos_bound; reflexivity).
  destruct (Z.eq_dec a (P - 1)).
  - subst a. revert H. cbv. discriminate.
  - rewrite Z.mod_small in H; lia.
Qed.

Lemma u32_cells : forall m a z, holds m a (VU32 z) ->
  m a + B16 * m ((a + 1) mod P) = z /\ (m a <? B16) && (m ((a + 1) mod P) <? B16) = true.
Proof.
  intros m a z (H & -> & ->). destruct (limbs z H) as (A & B & C). split; [exact C|].
  apply andb_true_iff. split; apply Z.ltb_lt; lia.
Qed.
Lemma put_holds : forall (m : Z -> Z) a z, 0 <= z < B32 ->
  holds (upds m [(a, z mod B16); ((a + 1) mod P, z / B16)]) a (VU32 z).
Proof.
  intros m a z H. cbn [holds upds]. split; auto. rewrite Z.eqb_refl.
  destruct (Z.eqb_spec a ((a + 1) mod P)); [symmetry in e; destruct (next_cell a e)|].
  rewrite Z.eqb_refl. split; reflexivity.
Qed.
Lemma put2_holds : forall (m : Z -> Z) a b y z,
  (forall i j, (i = 0 \/ i = 1) -> (j = 0 \/ j = 1) -> (a + i) mod P <> (b + j) mod P) ->
  0 <= a < P -> 0 <= b < P -> 0 <= z < B32 ->
  holds (upds m ([(a, z mod B16); ((a + 1) mod P, z / B16)] ++ [(b, y mod B16); ((b + 1) mod P, y / B16)])) a (VU32 z).
Proof.
  intros m a b y z D Ha Hb H. cbn [app holds upds]. split; auto.
  pose proof (D 0 0 (or_introl eq_refl) (or_introl eq_refl)) as D00.
  pose proof (D 0 1 (or_introl eq_refl) (or_intror eq_refl)) as D01.
  pose proof (D 1 0 (or_intror eq_refl) (or_introl eq_refl)) as D10.
  pose proof (D 1 1 (or_intror eq_refl) (or_intror eq_refl)) as D11.
  rewrite !Z.add_0_r in *. rewrite (Z.mod_small a), (Z.mod_small b) in * by auto.
  apply Z.eqb_neq in D00, D01, D10, D11. rewrite D00, D01, D10, D11, !Z.eqb_refl.
  destruct (Z.eqb_spec a ((a + 1) mod P)); [symmetry in e; destruct (next_cell a e)|].
  split; reflexivity.
Qed.

Lemma opcode_ok : forall op a b d t i m s x y,
  opcode op a b d t = Some i -> (op = U32Div -> apart s d t) ->
  holds m (slot s a) x -> holds m (slot s b) y ->
  match sem_bin op x y with
  | ROk z => exists eff, isa i m s = Some eff /\ holds (upds m (writes eff)) (slot s d) z
  | RTrap => isa i m s = None
  | _ => True
  end.
Proof.
  intros op a b d t i m s x y Ho Hd Hx Hy.
  pose proof (fun o => Z.mod_pos_bound (fp s + o) P ltac:(reflexivity)) as SL.
  destruct op; cbn [opcode] in Ho; try discriminate; injection Ho as <-;
    destruct x, y; cbn [sem_bin]; try exact I; unfold slot in *; cbn [isa].
  1-3: destruct Hx as [Hx ?], Hy as [Hy ?]; eexists; split; [reflexivity|]; cbn [writes upds holds];
    rewrite Hx, Hy, Z.eqb_refl; split; [reflexivity|apply Z.mod_pos_bound; reflexivity].
  1: { destruct Hx as [Hx ?], Hy as [Hy ?]. rewrite Hy. destruct (z0 =? 0); [reflexivity|].
       eexists; split; [reflexivity|]; cbn [writes upds holds].
       rewrite Hx, Z.eqb_refl; split; [reflexivity|apply Z.mod_pos_bound; reflexivity]. }
  all: pose proof (proj1 Hx) as Rx; pose proof (proj1 Hy) as Ry;
    destruct (u32_cells _ _ _ Hx) as [Ux Ox], (u32_cells _ _ _ Hy) as [Uy Oy];
    rewrite ?Ox, ?Oy, ?Ux, ?Uy; cbn [andb].
  1-3: eexists; split; [reflexivity|]; cbn [writes]; apply put_holds; apply Z.mod_pos_bound; reflexivity.
  - destruct (Z.eqb_spec z0 0); cbn [negb]; [reflexivity|].
    eexists; split; [reflexivity|]. cbn [writes]. apply put2_holds; auto.
    + exact (Hd eq_refl).
    + apply div32; auto.
  - destruct (Z.eqb_spec z0 0); cbn [negb]; [reflexivity|].
    eexists; split; [reflexivity|]. cbn [writes]. rewrite upds_app. apply put_holds.
    apply rem32; auto.
  - eexists; split; [reflexivity|]; cbn [writes upds holds]. rewrite Z.eqb_refl. reflexivity.
  - eexists; split; [reflexivity|]; cbn [writes upds holds]. rewrite Z.eqb_refl. reflexivity.
  - eexists; split; [reflexivity|]; cbn [writes]. apply put_holds, land32; auto.
  - eexists; split; [reflexivity|]; cbn [writes]. apply put_holds, lor32; auto.
  - eexists; split; [reflexivity|]; cbn [writes]. apply put_holds, lxor32; auto.
Qed.

(** The branch instruction tests the first cell of its condition: exactly [truth]. *)
Lemma branch_cell_ok : forall (e : env) i v m s c o,
  e i = Some v -> holds m (slot s c) v ->
  exists eff, isa (JnzFpImm c o) m s = Some eff /\
    (truth e (Op i) = Some true -> next eff = St ((pc s + o) mod P) (fp s)) /\
    (truth e (Op i) = Some false -> next eff = St ((pc s + 1) mod P) (fp s)).
Proof.
  intros e i v m s c o He Hv. cbn [isa].
  eexists; split; [reflexivity|]. cbn [next truth]. rewrite He. unfold slot in Hv.
  destruct v as [z|z|b| |l|l|z]; cbn [holds] in Hv; try contradiction.
  - destruct Hv as [-> _]. destruct (wfb z); [|split; discriminate].
    destruct (z =? 0); cbn; split; intro H; try discriminate; reflexivity.
  - destruct Hv as (_ & -> & _). destruct (u32b z); [|split; discriminate].
    destruct (z mod B16 =? 0); cbn; split; intro H; try discriminate; reflexivity.
  - rewrite Hv. destruct b; split; intro H; try discriminate; reflexivity.
Qed.
