(** Operand de-duplication and canonicalisation keep the effect of instructions. *)
From Coq Require Import ZArith Bool String List Lia.
From Verif Require Import M31 M31Facts Instr Isa Mir MirSem MirIsa MirIsaFacts Cg CgLink CgSpec.
Import ListNotations.
Open Scope Z_scope.

Definition felts (m : Z -> Z) : Prop := forall a, 0 <= m a < P.
(** The second source of an instruction that may read a cell twice, and its cells. *)
Definition second (i : instr) : option (Z * Z) :=
  match i with
  | StoreAddFpFp _ b _ | StoreSubFpFp _ b _ | StoreMulFpFp _ b _ | StoreDivFpFp _ b _ => Some (b, 1)
  | U32StoreAddFpFp _ b _ | U32StoreSubFpFp _ b _ | U32StoreMulFpFp _ b _ | U32StoreDivRemFpFp _ b _ _
  | U32StoreEqFpFp _ b _ | U32StoreLtFpFp _ b _ => Some (b, 2)
  | _ => None
  end.
(** The temporaries from [f] on that rewriting [i] takes are not the second source. *)
Definition temps_apart (f : Z) (i : linstr) (s : state) : Prop :=
  forall b n k j, second (fst i) = Some (b, n) -> f <= k < snd (dedup1 f i) -> 0 <= j < n ->
    slot s k <> slot s (b + j).

Lemma slot_mfrom : forall s k, (fp s + mfrom k) mod P = slot s k.
Proof. intros. unfold slot, mfrom. rewrite Zplus_mod_idemp_r. reflexivity. Qed.
Lemma slot_hi : forall s k, (slot s k + 1) mod P = slot s (k + 1).
Proof. intros. unfold slot. rewrite Zplus_mod_idemp_l. f_equal. lia. Qed.
Lemma copy_val : forall x, 0 <= x < P -> (x + 0) mod P = x.
Proof. intros. rewrite Z.add_0_r. apply Z.mod_small. auto. Qed.
Lemma copy_u32 : forall x y, 0 <= x < B16 -> 0 <= y < B16 ->
  ((x + B16 * y + (0 + B16 * 0)) mod B32) mod B16 = x /\ ((x + B16 * y + (0 + B16 * 0)) mod B32) / B16 = y.
Proof.
  intros x y Hx Hy. rewrite (Z.mod_small _ B32).
  - replace (x + B16 * y + (0 + B16 * 0)) with (x + y * B16) by lia. split.
    + rewrite Z_mod_plus_full. apply Z.mod_small; auto.
    + rewrite Z_div_plus_full by discriminate. rewrite Z.div_small by auto. lia.
  - unfold B16, B32 in *. lia.
Qed.

Lemma upds_app : forall A (m : Z -> A) a b, upds m (a ++ b) = upds (upds m a) b.
Proof. intros A m a. revert m. induction a as [|[x v] a IH]; intros m b; cbn; auto. Qed.
Lemma upds_agree : forall (ws : list (Z * Z)) m m' a, m' a = m a -> upds m' ws a = upds m ws a.
Proof.
  induction ws as [|[x v] ws IH]; intros m m' a H; cbn; auto. apply IH. destruct (a =? x); auto.
Qed.
Lemma upds_out : forall A (ws : list (Z * A)) (m : Z -> A) a, ~ In a (map fst ws) -> upds m ws a = m a.
Proof.
  induction ws as [|[x v] ws IH]; intros m a H; cbn in *; auto.
  rewrite IH by tauto. destruct (Z.eqb_spec a x); auto. subst. tauto.
Qed.
Lemma goes_twice : forall s a b, goes_on (goes_on s a) b = goes_on s (a + b).
Proof.
  intros. unfold goes_on. cbn. f_equal. rewrite Zplus_mod_idemp_l. f_equal. lia.
Qed.

(** A felt operation whose first operand was copied. *)
Lemma felt_dup : forall (op : Z -> instr) (F : Z -> Z -> Z) (G : Z -> bool) f a b d m s,
  (forall t m s, isa (op t) m s =
     if G (m (slot s b)) then
     Some (Eff [(fp s + t) mod P; slot s b] [] [(slot s d, F (m ((fp s + t) mod P)) (m (slot s b)))] (goes_on s 1))
     else None) ->
  (forall t, size_qm31 (op t) = 1) ->
  felts m -> slot s f <> slot s b ->
  match isa (op a) m s with
  | Some e => stands_for s f (f + 1) [StoreAddFpImm a 0 (mfrom f); op (mfrom f)] m e
  | None => seq [StoreAddFpImm a 0 (mfrom f); op (mfrom f)] m s = None
  end.
Proof.
  intros op F G f a b d m s HF HS Hm Hb. rewrite HF.
  assert (E : seq [StoreAddFpImm a 0 (mfrom f); op (mfrom f)] m s =
              match isa (op (mfrom f)) (upds m [(slot s f, m (slot s a))]) (goes_on s 1) with
              | Some e => Some (upds (upds m [(slot s f, m (slot s a))]) (writes e), next e)
              | None => None end).
  { cbn [seq isa writes next]. rewrite slot_mfrom. fold (slot s a). rewrite copy_val by apply Hm.
    fold (goes_on s 1). reflexivity. }
  rewrite HF in E. change (fp (goes_on s 1)) with (fp s) in E.
  change (slot (goes_on s 1) b) with (slot s b) in E.
  change (slot (goes_on s 1) d) with (slot s d) in E. fold (slot s a).
  assert (U1 : upds m [(slot s f, m (slot s a))] (slot s b) = m (slot s b)).
  { cbn. destruct (Z.eqb_spec (slot s b) (slot s f)); congruence. }
  assert (U2 : upds m [(slot s f, m (slot s a))] ((fp s + mfrom f) mod P) = m (slot s a)).
  { rewrite slot_mfrom. cbn. rewrite Z.eqb_refl. reflexivity. }
  rewrite U1, U2 in E. destruct (G (m (slot s b))).
  - cbn [writes next] in E. unfold stands_for. do 2 eexists. split; [exact E|]. split.
    + intros c Hc. cbn [writes upds]. specialize (Hc f). destruct (Z.eqb_spec c (slot s d)); auto.
      destruct (Z.eqb_spec c (slot s f)); [exfalso; apply Hc; [lia|auto]|]. auto.
    + right. exists 1. cbn [next]. split; auto. rewrite goes_twice. unfold total. cbn [fold_right].
      rewrite HS. reflexivity.
  - exact E.
Qed.

(** A u32 operation whose first operand was copied. *)
Lemma u32_dup : forall (op : Z -> instr) (W : Z -> Z -> list (Z * Z)) (G : Z -> bool) n f a b m s,
  (forall t m s, isa (op t) m s =
     let x := (fp s + t) mod P in
     let hx := (x + 1) mod P in
     let hb := (slot s b + 1) mod P in
     if ((m x <? B16) && (m hx <? B16)) && ((m (slot s b) <? B16) && (m hb <? B16))
        && G (m (slot s b) + B16 * m hb) then
     Some (Eff [x; hx; slot s b; hb] []
               (map (fun w => (slot s (fst w), snd w)) (W (m x + B16 * m hx) (m (slot s b) + B16 * m hb)))
               (goes_on s n))
     else None) ->
  (forall t, size_qm31 (op t) = n) ->
  felts m ->
  (forall k, f <= k < f + 2 -> slot s k <> slot s b /\ slot s k <> (slot s b + 1) mod P) ->
  match isa (op a) m s with
  | Some e => stands_for s f (f + 2) [U32StoreAddFpImm a 0 0 (mfrom f); op (mfrom f)] m e
  | None => seq [U32StoreAddFpImm a 0 0 (mfrom f); op (mfrom f)] m s = None
  end.
Proof.
  intros op W G n f a b m s HF HS Hm Hb. rewrite HF. cbv zeta. fold (slot s a).
  set (ha := (slot s a + 1) mod P). set (hb := (slot s b + 1) mod P).
  assert (E : seq [U32StoreAddFpImm a 0 0 (mfrom f); op (mfrom f)] m s =
    if (m (slot s a) <? B16) && (m ha <? B16) then
      let m1 := upds m [(slot s f, m (slot s a)); (slot s (f + 1), m ha)] in
      match isa (op (mfrom f)) m1 (goes_on s 2) with
      | Some e => Some (upds m1 (writes e), next e)
      | None => None
      end
    else None).
  { cbn [seq isa]. fold (slot s a). rewrite slot_mfrom. change (0 <? B16) with true.
    change (true && true) with true. rewrite andb_true_l. fold ha.
    destruct ((m (slot s a) <? B16) && (m ha <? B16)) eqn:Ea; [|reflexivity].
    apply andb_true_iff in Ea. destruct Ea as (E1 & E2). apply Z.ltb_lt in E1. apply Z.ltb_lt in E2.
    destruct (copy_u32 (m (slot s a)) (m ha)) as (C1 & C2).
    { split; auto. apply Hm. } { split; auto. apply Hm. }
    cbv zeta. cbn [writes next]. fold (slot s a). fold ha. rewrite C1, C2, slot_hi. fold (goes_on s 2). reflexivity. }
  destruct ((m (slot s a) <? B16) && (m ha <? B16)) eqn:Ea; cbn [andb]; [|exact E].
  apply andb_true_iff in Ea. destruct Ea as (E1 & E2). cbv zeta in E.
  set (m1 := upds m [(slot s f, m (slot s a)); (slot s (f + 1), m ha)]) in *.
  rewrite HF in E. cbv zeta in E. change (fp (goes_on s 2)) with (fp s) in E.
  change (slot (goes_on s 2) b) with (slot s b) in E. fold hb in E. rewrite slot_mfrom, slot_hi in E.
  assert (Nf : slot s f <> slot s (f + 1)) by (rewrite <- slot_hi; intro X; symmetry in X; destruct (next_cell _ X)).
  assert (U1 : m1 (slot s b) = m (slot s b)).
  { unfold m1. apply upds_out. cbn [map fst In]. destruct (Hb f ltac:(lia)). destruct (Hb (f + 1) ltac:(lia)).
    intros [X|[X|[]]]; auto. }
  assert (U2 : m1 hb = m hb).
  { unfold m1. apply upds_out. cbn [map fst In]. destruct (Hb f ltac:(lia)). destruct (Hb (f + 1) ltac:(lia)).
    intros [X|[X|[]]]; auto. }
  assert (U3 : m1 (slot s f) = m (slot s a)).
  { unfold m1. cbn. destruct (Z.eqb_spec (slot s f) (slot s (f + 1))); [contradiction|]. rewrite Z.eqb_refl. auto. }
  assert (U4 : m1 (slot s (f + 1)) = m ha) by (unfold m1; cbn; rewrite Z.eqb_refl; auto).
  rewrite U1, U2, U3, U4, E1, E2 in E. cbn [andb] in E.
  destruct (((m (slot s b) <? B16) && (m hb <? B16)) && G (m (slot s b) + B16 * m hb)); [|exact E].
  cbn [writes next] in E. unfold stands_for. cbn [writes next].
  do 2 eexists. split; [exact E|]. split.
  - intros c Hc. apply upds_agree. unfold m1. apply upds_out. cbn [map fst In].
    pose proof (Hc f ltac:(lia)). pose proof (Hc (f + 1) ltac:(lia)). intros [X|[X|[]]]; auto.
  - right. exists n. split; auto. rewrite goes_twice. unfold total. cbn [fold_right]. rewrite HS.
    f_equal. change (size_qm31 (U32StoreAddFpImm a 0 0 (mfrom f))) with 2. lia.
Qed.

Lemma alone : forall s f g i m e, isa i m s = Some e -> stands_for s f g [i] m e.
Proof.
  intros s f g i m e H. unfold stands_for. cbn [seq]. rewrite H. do 2 eexists. split; [reflexivity|].
  split; auto. intros a _. reflexivity.
Qed.

Lemma dedup1_ok : forall f i s m, felts m -> temps_apart f i s ->
  match isa (fst i) m s with
  | Some e => stands_for s f (snd (dedup1 f i)) (map fst (fst (dedup1 f i))) m e
  | None => seq (map fst (fst (dedup1 f i))) m s = None
  end.
Proof.
  intros f [i t] s m Hm HT. cbn [fst].
  assert (A : forall g, match isa i m s with
                        | Some e => stands_for s f g [i] m e
                        | None => seq [i] m s = None end).
  { intros g. destruct (isa i m s) eqn:E; [apply alone; auto|]. cbn. rewrite E. reflexivity. }
  unfold temps_apart in HT. cbn [fst] in HT.
  destruct i; cbn [dedup1 fst snd] in *; try (apply A); unfold dup1, dup2 in *; cbn [second] in HT;
    match goal with |- context [if ?c then _ else _] => destruct c end;
    cbn [fst snd map] in *; try (apply A).
  all: match goal with
  | |- context [isa (StoreAddFpFp ?a ?b ?d)] =>
    apply (felt_dup (fun t => StoreAddFpFp t b d) (fun x y => (x + y) mod P) (fun _ => true) f a b d)
  | |- context [isa (StoreSubFpFp ?a ?b ?d)] =>
    apply (felt_dup (fun t => StoreSubFpFp t b d) (fun x y => (x - y) mod P) (fun _ => true) f a b d)
  | |- context [isa (StoreMulFpFp ?a ?b ?d)] =>
    apply (felt_dup (fun t => StoreMulFpFp t b d) (fun x y => (x * y) mod P) (fun _ => true) f a b d)
  | |- context [isa (StoreDivFpFp ?a ?b ?d)] =>
    apply (felt_dup (fun t => StoreDivFpFp t b d) (fun x y => (x * minv y) mod P) (fun y => negb (y =? 0)) f a b d)
  | |- context [isa (U32StoreAddFpFp ?a ?b ?d)] =>
    apply (u32_dup (fun t => U32StoreAddFpFp t b d)
      (fun x y => [(d, ((x + y) mod B32) mod B16); (d + 1, ((x + y) mod B32) / B16)]) (fun _ => true) 1 f a b)
  | |- context [isa (U32StoreSubFpFp ?a ?b ?d)] =>
    apply (u32_dup (fun t => U32StoreSubFpFp t b d)
      (fun x y => [(d, ((x - y) mod B32) mod B16); (d + 1, ((x - y) mod B32) / B16)]) (fun _ => true) 1 f a b)
  | |- context [isa (U32StoreMulFpFp ?a ?b ?d)] =>
    apply (u32_dup (fun t => U32StoreMulFpFp t b d)
      (fun x y => [(d, ((x * y) mod B32) mod B16); (d + 1, ((x * y) mod B32) / B16)]) (fun _ => true) 1 f a b)
  | |- context [isa (U32StoreDivRemFpFp ?a ?b ?d ?r)] =>
    apply (u32_dup (fun t => U32StoreDivRemFpFp t b d r)
      (fun x y => [(d, (x / y) mod B16); (d + 1, (x / y) / B16); (r, (x mod y) mod B16); (r + 1, (x mod y) / B16)])
      (fun y => negb (y =? 0)) 2 f a b)
  | |- context [isa (U32StoreEqFpFp ?a ?b ?d)] =>
    apply (u32_dup (fun t => U32StoreEqFpFp t b d) (fun x y => [(d, if x =? y then 1 else 0)]) (fun _ => true) 1 f a b)
  | |- context [isa (U32StoreLtFpFp ?a ?b ?d)] =>
    apply (u32_dup (fun t => U32StoreLtFpFp t b d) (fun x y => [(d, if x <? y then 1 else 0)]) (fun _ => true) 1 f a b)
  end; try reflexivity; auto.
  all: try (intros; cbn [isa fst snd map]; rewrite <- ?slot_hi; cbv zeta; unfold slot, goes_on;
            rewrite ?andb_true_r;
            match goal with |- context [if ?c then _ else _] => destruct c end; reflexivity).
  all: try (specialize (HT _ _ f 0 eq_refl ltac:(lia) ltac:(lia)); rewrite Z.add_0_r in HT; exact HT).
  all: try (intros k Hk; pose proof (HT _ _ k 0 eq_refl ltac:(lia) ltac:(lia)) as H0; pose proof (HT _ _ k 1 eq_refl ltac:(lia) ltac:(lia)) as H1;
            rewrite Z.add_0_r in H0; rewrite slot_hi; auto).
Qed.

(** Multiplications by 0 and 1. *)
Lemma stands_one : forall s f i j m e e', isa j m s = Some e' ->
  (forall a, upds m (writes e') a = upds m (writes e) a) ->
  (next e' = next e \/ exists n, next e = goes_on s n /\ next e' = goes_on s (size_qm31 j)) ->
  isa i m s = Some e -> stands_for s f f [j] m e.
Proof.
  intros s f i j m e e' Hj Hw Hn Hi. unfold stands_for. cbn [seq]. rewrite Hj. do 2 eexists.
  split; [reflexivity|]. split; [intros a _; apply Hw|]. destruct Hn as [->|(n & E1 & E2)]; auto.
  right. exists n. split; auto. rewrite E2. f_equal. cbn [total fold_right]. lia.
Qed.
Lemma canon_ok : forall i s m e f, isa i m s = Some e -> stands_for s f f [canon i] m e.
Proof.
  intros i s m e f H. destruct i; cbn [canon]; try (apply alone; exact H).
  - destruct (Z.eqb_spec imm 1); [|destruct (Z.eqb_spec imm 0)]; try (apply alone; exact H); subst imm.
    + eapply stands_one; [reflexivity| |left|exact H]; cbn [isa] in H; injection H as <-; [|reflexivity].
      intros a. cbn [writes]. rewrite Z.mul_1_r, Z.add_0_r. reflexivity.
    + eapply stands_one; [reflexivity| |left|exact H]; cbn [isa] in H; injection H as <-; [|reflexivity].
      intros a. cbn [writes]. rewrite Z.mul_0_r. reflexivity.
  - destruct ((imm_lo =? 1) && (imm_hi =? 0)) eqn:E1; [|destruct ((imm_lo =? 0) && (imm_hi =? 0)) eqn:E0];
      try (apply alone; exact H);
      [apply andb_true_iff in E1; destruct E1 as (E1 & E2)|apply andb_true_iff in E0; destruct E0 as (E0 & E2)];
      [apply Z.eqb_eq in E1|apply Z.eqb_eq in E0]; apply Z.eqb_eq in E2; subst imm_lo imm_hi.
    + eapply stands_one; [| |left|exact H]; cbn [isa] in H |- *;
        change (1 <? B16) with true in *; change (0 <? B16) with true in *; cbn [andb] in H |- *;
        match type of H with (if ?c then _ else _) = _ => destruct c; [|discriminate] end;
        injection H as <-; [reflexivity| |reflexivity].
      intros a. cbn [writes]. rewrite !Z.mul_0_r, !Z.add_0_r, !Z.mul_1_r. reflexivity.
    + eapply stands_one; [reflexivity| | |exact H]; cbn [isa] in H |- *;
        change (0 <? B16) with true in *; cbn [andb] in H |- *;
        match type of H with (if ?c then _ else _) = _ => destruct c; [|discriminate] end;
        injection H as <-; cbn [writes next].
      * intros a. change (0 + B16 * 0) with 0. rewrite Z.mul_0_r. reflexivity.
      * right. exists 2. split; reflexivity.
Qed.
(** The other direction; multiplying by 0 no longer inspects the operand. *)
Lemma canon_none : forall i s m, isa i m s = None -> (forall a d, i <> U32StoreMulFpImm a 0 0 d) ->
  isa (canon i) m s = None.
Proof.
  intros i s m H N. destruct i; cbn [canon]; auto.
  - cbn in H. discriminate.
  - destruct ((imm_lo =? 1) && (imm_hi =? 0)) eqn:E1; [|destruct ((imm_lo =? 0) && (imm_hi =? 0)) eqn:E0]; auto;
      [apply andb_true_iff in E1; destruct E1 as (E1 & E2)|apply andb_true_iff in E0; destruct E0 as (E0 & E2)];
      [apply Z.eqb_eq in E1|apply Z.eqb_eq in E0]; apply Z.eqb_eq in E2; subst imm_lo imm_hi;
      [|destruct (N src_off dst_off eq_refl)].
    cbn [isa] in H |- *. change (1 <? B16) with true in H. change (0 <? B16) with true in *.
    cbn [andb] in H |- *. match type of H with (if ?c then _ else _) = _ => destruct c; [discriminate|reflexivity] end.
Qed.

(** Both passes together. *)
Lemma dedup1_cases : forall f i, (fst (dedup1 f i) = [i] /\ snd (dedup1 f i) = f) \/
  map (fun x => canon (fst x)) (fst (dedup1 f i)) = map fst (fst (dedup1 f i)).
Proof.
  intros f [i t]. destruct i; cbn [dedup1 fst]; auto; unfold dup1, dup2;
  match goal with |- context [if ?c then _ else _] => destruct c end; auto.
Qed.
Lemma rewrite_ok : forall f i t s m e,
  felts m -> temps_apart f (i, t) s -> isa i m s = Some e ->
  stands_for s f (snd (dedup1 f (i, t))) (map (fun x => canon (fst x)) (fst (dedup1 f (i, t)))) m e.
Proof.
  intros f i t s m e Hm HT H. pose proof (dedup1_ok f (i, t) s m Hm HT) as D. cbn [fst] in D. rewrite H in D.
  destruct (dedup1_cases f (i, t)) as [(E & F)| E]; [|rewrite E; auto]. rewrite E, F. apply canon_ok. auto.
Qed.
Lemma rewrite_none : forall f i t s m,
  felts m -> temps_apart f (i, t) s -> isa i m s = None -> (forall a d, i <> U32StoreMulFpImm a 0 0 d) ->
  CgSpec.seq (map (fun x => canon (fst x)) (fst (dedup1 f (i, t)))) m s = None.
Proof.
  intros f i t s m Hm HT H N. pose proof (dedup1_ok f (i, t) s m Hm HT) as D. cbn [fst] in D. rewrite H in D.
  destruct (dedup1_cases f (i, t)) as [(E & F)| E]; [|rewrite E; auto]. rewrite E.
  cbn [map fst CgSpec.seq]. rewrite canon_none; auto.
Qed.
Lemma dedup1_le : forall f i, f <= snd (dedup1 f i).
Proof.
  intros f [i t]. destruct i; cbn [dedup1 snd fst]; try lia; unfold dup1, dup2;
  match goal with |- context [if ?c then _ else _] => destruct c end; cbn [snd]; lia.
Qed.
Lemma dedup_le : forall is f, f <= snd (dedup f is).
Proof. induction is as [|i is IH]; intros f; cbn [dedup snd]; [lia|]. pose proof (dedup1_le f i). pose proof (IH (snd (dedup1 f i))). lia. Qed.
Lemma dedup_temps : forall is f k i, nth_error is k = Some i ->
  exists f1, f <= f1 /\ nth_error (fst (dedup f is)) k = Some (fst (dedup1 f1 i)) /\
    f1 <= snd (dedup1 f1 i) <= snd (dedup f is) /\
    (forall j i', (j < k)%nat -> nth_error is j = Some i' ->
       exists f2, nth_error (fst (dedup f is)) j = Some (fst (dedup1 f2 i')) /\ snd (dedup1 f2 i') <= f1).
Proof.
  induction is as [|x is IH]; intros f k i H; [destruct k; discriminate|]. destruct k as [|k]; cbn in H.
  - injection H as ->. exists f. split; [lia|]. cbn [dedup fst snd nth_error]. split; auto. split; [|intros; lia].
    split; [apply dedup1_le|apply dedup_le].
  - destruct (IH (snd (dedup1 f x)) k i H) as (f1 & A & B & C & D). exists f1. pose proof (dedup1_le f x).
    split; [lia|]. cbn [dedup fst snd nth_error]. split; auto. split; auto.
    intros [|j] i' Lt E; cbn in E |- *.
    + injection E as ->. exists f. auto.
    + apply D; auto. lia.
Qed.
