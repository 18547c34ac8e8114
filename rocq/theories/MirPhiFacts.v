(** Phi elimination: correctness on functions whose copies can be ordered. *)
From Coq Require Import ZArith Bool String List Permutation Arith Lia.
From Verif Require Import M31 Isa Mir MirSem MirFacts MirSim MirSsa MirSsaFacts MirReach MirPhi MirPhiSeq.
Import ListNotations.
Open Scope nat_scope.

(** ** What is asked of the function. *)
(** The predecessors named by the phis are predecessors, each named once. *)
Definition phi_preds (f : func) : Prop :=
  forall b blk d t ss, nth_error (f_blocks f) b = Some blk -> In (IPhi d t ss) (b_instrs blk) ->
    NoDup (map fst ss) /\
    forall p v, In (p, v) ss -> exists pblk, nth_error (f_blocks f) p = Some pblk /\ In b (targets (b_term pblk)).
(** The copies for each predecessor can be ordered, or are in order. *)
Definition phi_order (f : func) : Prop := forall p, sequencable (phi_copies f p).
(** A block with phis that can be reached from a branch does not lie on every path to it. *)
Definition dominates (f : func) (b p : nat) : Prop := forall l, walk f (p :: l) -> In b (p :: l).
Definition branches_forward (f : func) : Prop :=
  forall b blk d t ss p v pblk, nth_error (f_blocks f) b = Some blk -> In (IPhi d t ss) (b_instrs blk) ->
    In (p, v) ss -> nth_error (f_blocks f) p = Some pblk -> 1 < length (targets (b_term pblk)) ->
    (exists l, walk f (p :: l)) -> ~ dominates f b p.
(** At the end of a block with several successors, the values that phis take from it exist
    and have the types of those phis, whichever way the block branches. *)
Definition branch_values {S} (W : world S) (f : func) (args : list val) (s0 : S) : Prop :=
  forall p pblk e s, nth_error (f_blocks f) p = Some pblk -> 1 < length (targets (b_term pblk)) ->
    reached W f args s0 p (length (b_instrs pblk)) e s ->
    forall c, In c (phi_copies f p) -> eval_as e (c_ty c) (c_src c) <> None.

(** ** Lists. *)
Lemma nth_on_block : forall k bs n m, nth_error (on_block n k bs) m =
  if Nat.eqb m n then option_map k (nth_error bs m) else nth_error bs m.
Proof.
  induction bs as [|b bs IH]; intros n m.
  - replace (on_block n k []) with (@nil block) by (destruct n; reflexivity).
    replace (nth_error [] m) with (@None block) by (destruct m; reflexivity). destruct (Nat.eqb m n); reflexivity.
  - destruct n, m; cbn; try reflexivity. apply IH.
Qed.
Lemma map_on_block : forall A (h : block -> A) k bs n, (forall b, h (k b) = h b) -> map h (on_block n k bs) = map h bs.
Proof.
  intros A h k bs n H. revert n. induction bs as [|b bs IH]; intros [|n]; cbn; try reflexivity.
  - now rewrite H.
  - now rewrite IH.
Qed.
Lemma on_block_length : forall k bs n, length (on_block n k bs) = length bs.
Proof. induction bs as [|b bs IH]; intros [|n]; cbn; auto. Qed.

(** ** Edge splitting. *)
Definition tmap (s : nat -> nat) (t : term) : term :=
  match t with
  | TJump a => TJump (s a)
  | TIf c a b => TIf c (s a) (s b)
  | TCmp op l r a b => TCmp op l r (s a) (s b)
  | TReturn _ | TUnreachable => t
  end.
Definition leads (bs : list block) (nb y x : nat) : Prop :=
  y = x \/ (nb <= y /\ exists blk, nth_error bs y = Some blk /\ b_instrs blk = [] /\ b_term blk = TJump x).

Definition splits (f f1 : func) : Prop :=
  f_entry f1 = f_entry f /\ f_params f1 = f_params f /\ f_rets f1 = f_rets f /\ f_types f1 = f_types f /\
  (exists m, map b_instrs (f_blocks f1) = map b_instrs (f_blocks f) ++ repeat [] m) /\
  forall b blk, nth_error (f_blocks f) b = Some blk -> exists blk1 s,
    nth_error (f_blocks f1) b = Some blk1 /\ b_term blk1 = tmap s (b_term blk) /\
    forall x, In x (targets (b_term blk)) -> leads (f_blocks f1) (length (f_blocks f)) (s x) x.

Lemma tmap_id : forall t, tmap (fun x => x) t = t. Proof. destruct t; reflexivity. Qed.
Lemma splits_refl : forall f, splits f f.
Proof.
  intro f. repeat (split; [reflexivity|]). split.
  - exists 0. cbn. now rewrite app_nil_r.
  - intros b blk Hb. exists blk, (fun x => x). split; [exact Hb|]. split; [now rewrite tmap_id|]. intros x _. now left.
Qed.

Lemma splits_len : forall f f1, splits f f1 -> length (f_blocks f) <= length (f_blocks f1).
Proof.
  intros f f1 (_ & _ & _ & _ & (m & E) & _). apply (f_equal (@length _)) in E. rewrite app_length, !map_length in E. lia.
Qed.
(** The instructions of a block after one split: unchanged; its terminator likewise, unless
    it is the source of the edge. *)
Lemma split_edge_nth : forall f p s b blk, nth_error (f_blocks f) b = Some blk -> exists pr,
  nth_error (f_blocks (split_edge f (p, s))) b =
    Some (Block (b_instrs blk) (if Nat.eqb b p then replace_target s (length (f_blocks f)) (b_term blk) else b_term blk) pr).
Proof.
  intros f p s b blk Hb. assert (Hlt : b < length (f_blocks f)) by (apply nth_error_Some; congruence).
  cbn [split_edge f_blocks with_blocks]. rewrite nth_on_block.
  set (n := length (f_blocks f)) in *.
  assert (E : exists pr, nth_error (on_block s (add_pred n) (on_block n (add_pred p)
               (on_block s (remove_pred p) (f_blocks f ++ [Block [] (TJump s) []])))) b = Some (Block (b_instrs blk) (b_term blk) pr)).
  { rewrite !nth_on_block. rewrite nth_error_app1 by exact Hlt. rewrite Hb.
    destruct (Nat.eqb_spec b n); [lia|].
    destruct (Nat.eqb b s); cbn [option_map].
    - unfold add_pred. destruct (mem_nat n _); eexists; reflexivity.
    - exists (b_preds blk). destruct blk; reflexivity. }
  destruct E as (pr & E). rewrite E. destruct (Nat.eqb b p); cbn; eexists; reflexivity.
Qed.
Lemma split_edge_new : forall f p s, p < length (f_blocks f) -> exists pr,
  nth_error (f_blocks (split_edge f (p, s))) (length (f_blocks f)) = Some (Block [] (TJump s) pr).
Proof.
  intros f p s Hp. cbn [split_edge f_blocks with_blocks]. set (n := length (f_blocks f)) in *. rewrite !nth_on_block.
  rewrite Nat.eqb_refl. destruct (Nat.eqb_spec n p); [lia|].
  rewrite nth_error_app2 by lia. replace (n - length (f_blocks f)) with 0 by lia. cbn [nth_error].
  destruct (Nat.eqb n s); cbn [option_map]; unfold add_pred, remove_pred; cbn;
    repeat match goal with |- context [if ?c then _ else _] => destruct c; cbn end; eexists; reflexivity.
Qed.
Lemma split_edge_instrs : forall f e, map b_instrs (f_blocks (split_edge f e)) = map b_instrs (f_blocks f) ++ [[]].
Proof.
  intros f [p s]. cbn [split_edge f_blocks with_blocks]. rewrite !map_on_block.
  - rewrite map_app. reflexivity.
  - reflexivity.
  - intros b. unfold add_pred. destruct (mem_nat _ _); reflexivity.
  - intros b. unfold add_pred. destruct (mem_nat _ _); reflexivity.
  - reflexivity.
Qed.
Lemma replace_tmap : forall s n sg t, replace_target s n (tmap sg t) = tmap (fun x => if Nat.eqb (sg x) s then n else sg x) t.
Proof. intros s n sg []; reflexivity. Qed.

Lemma split_edge_splits : forall f f1 p s, splits f f1 -> p < length (f_blocks f) -> s < length (f_blocks f) ->
  splits f (split_edge f1 (p, s)).
Proof.
  intros f f1 p s HS Hp Hs. assert (HL := splits_len f f1 HS). destruct HS as (A & B & C & D & (m & E) & F).
  split; [exact A|]. split; [exact B|]. split; [exact C|]. split; [exact D|]. split.
  - exists (m + 1). rewrite split_edge_instrs, E, <- app_assoc, repeat_app. reflexivity.
  - intros b blk Hb. destruct (F b blk Hb) as (blk1 & sg & Hb1 & Et & Hld).
    destruct (split_edge_nth f1 p s b blk1 Hb1) as (pr & Hn).
    assert (Hlead : forall y x, leads (f_blocks f1) (length (f_blocks f)) y x ->
              leads (f_blocks (split_edge f1 (p, s))) (length (f_blocks f)) y x).
    { intros y x [->|(Hy & b1 & H1 & H2 & H3)]; [now left|]. right. split; [exact Hy|].
      destruct (split_edge_nth f1 p s y b1 H1) as (pr1 & Hn1). eexists. split; [exact Hn1|]. cbn. split; [exact H2|].
      destruct (Nat.eqb_spec y p); [lia | exact H3]. }
    destruct (Nat.eqb_spec b p) as [->|N].
    + eexists. exists (fun x => if Nat.eqb (sg x) s then length (f_blocks f1) else sg x). split; [exact Hn|]. cbn [b_term].
      split; [now rewrite Et, replace_tmap|]. intros x Hx. specialize (Hld x Hx).
      destruct (Nat.eqb_spec (sg x) s) as [Es|Ns]; [|now apply Hlead].
      assert (x = s). { destruct Hld as [Hd|(Hge & _)]; [congruence | lia]. } subst x.
      right. split; [exact HL|]. destruct (split_edge_new f1 p s) as (pr1 & Hnew); [lia|].
      eexists. split; [exact Hnew|]. split; reflexivity.
    + eexists. exists sg. split; [exact Hn|]. cbn [b_term]. split; [exact Et|]. intros x Hx. apply Hlead, Hld, Hx.
Qed.

Lemma number_in : forall A (l : list A) n k a, In (k, a) (number n l) -> n <= k < n + length l.
Proof.
  induction l as [|x l IH]; intros n k a H; [destruct H|]. cbn in *. destruct H as [H|H].
  - injection H as <- <-. lia.
  - apply IH in H. lia.
Qed.
Lemma critical_edges_in : forall f p s, In (p, s) (critical_edges f) -> p < length (f_blocks f) /\ s < length (f_blocks f).
Proof.
  intros f p s H. unfold critical_edges in H. apply in_flat_map in H. destruct H as ([k b] & Hk & H).
  apply in_map_iff in H. destruct H as (s' & E & Hs'). cbn in E. injection E as -> ->. apply filter_In in Hs'. destruct Hs' as [_ Hc].
  apply number_in in Hk. split; [lia|]. unfold critical, pred_count in Hc. apply andb_true_iff in Hc. destruct Hc as [_ Hc].
  destruct (nth_error (f_blocks f) s) eqn:En; [|discriminate]. apply nth_error_Some. congruence.
Qed.
Lemma split_all_splits : forall f, splits f (split_all f).
Proof.
  intro f. unfold split_all.
  assert (K : forall es f1, (forall p s, In (p, s) es -> p < length (f_blocks f) /\ s < length (f_blocks f)) ->
            splits f f1 -> splits f (fold_left split_edge es f1)).
  { induction es as [|[p s] es IH]; intros f1 Hin HS; [exact HS|]. cbn [fold_left]. apply IH.
    - intros p' s' H. apply Hin. now right.
    - destruct (Hin p s (or_introl eq_refl)) as [Hp Hs]. now apply split_edge_splits. }
  apply K; [apply critical_edges_in | apply splits_refl].
Qed.

(** ** The copies. *)
Definition phi_of (p : nat) (i : minstr) : list copy :=
  match i with
  | IPhi d t ss => map (fun s => (d, snd s, t)) (filter (fun s => Nat.eqb (fst s) p) ss)
  | _ => []
  end.
Lemma phi_copies_instrs : forall f p, phi_copies f p = flat_map (flat_map (phi_of p)) (map b_instrs (f_blocks f)).
Proof. intros f p. unfold phi_copies. induction (f_blocks f) as [|b bs IH]; [reflexivity|]. cbn. now rewrite <- IH. Qed.
Lemma phi_copies_split : forall f f1 p, splits f f1 -> phi_copies f1 p = phi_copies f p.
Proof.
  intros f f1 p (_ & _ & _ & _ & (m & E) & _). rewrite !phi_copies_instrs, E, flat_map_app.
  assert (K : flat_map (flat_map (phi_of p)) (repeat [] m) = []) by (clear; induction m; cbn; auto).
  rewrite K. apply app_nil_r.
Qed.
Lemma phi_copies_in : forall f p c, In c (phi_copies f p) <->
  exists b blk d t ss v, nth_error (f_blocks f) b = Some blk /\ In (IPhi d t ss) (b_instrs blk) /\ In (p, v) ss /\ c = (d, v, t).
Proof.
  intros f p c. unfold phi_copies. rewrite in_flat_map. split.
  - intros (blk & Hblk & H). apply in_flat_map in H. destruct H as (i & Hi & H). destruct i; try (destruct H; fail).
    apply in_map_iff in H. destruct H as ([q v] & <- & H). apply filter_In in H. destruct H as [H Hq]. cbn in Hq.
    apply Nat.eqb_eq in Hq. subst q. apply In_nth_error in Hblk. destruct Hblk as (b & Hb).
    do 6 eexists. split; [exact Hb|]. split; [exact Hi|]. split; [exact H|]. reflexivity.
  - intros (b & blk & d & t & ss & v & Hb & Hi & Hs & ->). exists blk. split; [exact (nth_error_In _ _ Hb)|].
    apply in_flat_map. exists (IPhi d t ss). split; [exact Hi|]. apply in_map_iff. exists (p, v). split; [reflexivity|].
    apply filter_In. split; [exact Hs|]. cbn. apply Nat.eqb_refl.
Qed.
Lemma src_from_in : forall p v ss, NoDup (map fst ss) -> In (p, v) ss -> src_from p ss = Some v.
Proof.
  induction ss as [|[q w] ss IH]; intros HN H; [destruct H|]. cbn in HN. inversion HN as [|? ? Hq HN']; subst. cbn.
  destruct H as [H|H].
  - injection H as -> ->. now rewrite Nat.eqb_refl.
  - destruct (Nat.eqb_spec p q) as [->|]; [|now apply IH]. elim Hq. apply in_map_iff. now exists (q, v).
Qed.
Lemma src_from_some : forall p v ss, src_from p ss = Some v -> In (p, v) ss.
Proof.
  induction ss as [|[q w] ss IH]; intro H; [discriminate|]. cbn in H. destruct (Nat.eqb_spec p q) as [->|].
  - injection H as ->. now left.
  - right. auto.
Qed.
Lemma nodup_flat_sub : forall A B C (g : A -> list B) (h : A -> list C) (k : C -> B) l, NoDup (flat_map g l) ->
  (forall a, In a l -> NoDup (map k (h a)) /\ incl (map k (h a)) (g a)) -> NoDup (map k (flat_map h l)).
Proof.
  intros A B C g h k l. induction l as [|a l IH]; intros HN H; [constructor|]. cbn in *. rewrite map_app.
  destruct (H a (or_introl eq_refl)) as [N1 I1].
  assert (N2 : NoDup (map k (flat_map h l))).
  { apply IH; [exact (NoDup_app_r _ _ _ HN)|]. intros b Hb. apply H. now right. }
  assert (D : forall x, In x (map k (h a)) -> ~ In x (map k (flat_map h l))).
  { intros x Hx Hx'. apply (NoDup_app_disj _ _ _ x HN); [now apply I1|].
    apply in_map_iff in Hx'. destruct Hx' as (c & <- & Hc). apply in_flat_map in Hc. destruct Hc as (b & Hb & Hc).
    apply in_flat_map. exists b. split; [exact Hb|]. destruct (H b (or_intror Hb)) as [_ I2]. apply I2. now apply in_map. }
  clear - N1 N2 D. induction (map k (h a)) as [|x r IH]; [exact N2|]. inversion N1; subst. cbn. constructor.
  - intro K. apply in_app_or in K. destruct K as [K|K]; [contradiction|]. apply (D x); [now left | exact K].
  - apply IH; [assumption|]. intros y Hy. apply D. now right.
Qed.
Lemma phi_copies_nodup : forall f p, single_def f -> phi_preds f -> NoDup (map c_dest (phi_copies f p)).
Proof.
  intros f p HS HP. assert (HA : NoDup (all_dests f)) by exact (NoDup_app_r _ _ _ HS).
  unfold phi_copies, all_dests in *.
  apply (nodup_flat_sub _ _ _ (fun b => flat_map dests (b_instrs b))); [exact HA|].
  intros blk Hblk. apply In_nth_error in Hblk. destruct Hblk as (b & Hb).
  assert (HB : NoDup (flat_map dests (b_instrs blk))) by exact (NoDup_flat_map_in _ _ _ _ _ HA (nth_error_In _ _ Hb)).
  assert (Hone : forall d t ss, NoDup (map fst ss) -> exists r,
     map c_dest (map (fun s => (d, snd s, t)) (filter (fun s : nat * value => Nat.eqb (fst s) p) ss)) = r /\ (r = [] \/ r = [d])).
  { intros d t ss HN. eexists. split; [reflexivity|].
    assert (K : filter (fun s : nat * value => Nat.eqb (fst s) p) ss = [] \/ exists s, filter (fun s : nat * value => Nat.eqb (fst s) p) ss = [s]).
    { induction ss as [|[q v] ss IH]; [now left|]. cbn in *. inversion HN as [|? ? Hq HN']; subst.
      destruct (Nat.eqb_spec q p) as [->|]; [|exact (IH HN')]. right. exists (p, v). f_equal.
      clear - Hq. induction ss as [|[q w] ss IH]; [reflexivity|]. cbn in *. destruct (Nat.eqb_spec q p); [tauto|]. apply IH. tauto. }
    destruct K as [->|[s ->]]; [now left | now right]. }
  split.
  - apply (nodup_flat_sub _ _ _ dests); [exact HB|]. intros i Hi. destruct i; try (split; [constructor | intros x []]).
    match type of Hi with In (IPhi ?d ?t ?ss) _ => destruct (HP b blk d t ss Hb Hi) as [HN _]; destruct (Hone d t ss HN) as (r & -> & [->| ->]) end.
    + split; [constructor | intros x []].
    + split; [repeat constructor; intros [] | apply incl_refl].
  - intros x Hx. apply in_map_iff in Hx. destruct Hx as (c & <- & Hc). apply in_flat_map in Hc. destruct Hc as (i & Hi & Hc).
    apply in_flat_map. exists i. split; [exact Hi|]. destruct i; try (destruct Hc; fail).
    apply in_map_iff in Hc. destruct Hc as (sv & <- & _). now left.
Qed.

(** ** The pass, block by block. *)
Lemma insert_copies_spec : forall o f0 seqs bs f, NoDup bs ->
  (forall p, In p bs -> sequence (o_graph o p) (o_degrees o p) (phi_copies f0 p) (f_next f) = Some (seqs p, f_next f)) ->
  exists f2, insert_copies o f0 bs f = Some f2 /\
    f_entry f2 = f_entry f /\ f_params f2 = f_params f /\ f_rets f2 = f_rets f /\ f_types f2 = f_types f /\
    forall b, nth_error (f_blocks f2) b =
      option_map (fun blk => Block (b_instrs blk ++ if mem_nat b bs then seqs b else []) (b_term blk) (b_preds blk)) (nth_error (f_blocks f) b).
Proof.
  intros o f0 seqs bs. induction bs as [|p bs IH]; intros f HN Hs.
  - exists f. cbn. repeat (split; [reflexivity|]). intro b. destruct (nth_error (f_blocks f) b) as [[is t pr]|]; cbn; [|reflexivity].
    now rewrite app_nil_r.
  - inversion HN as [|? ? Hp HN']; subst. cbn [insert_copies]. rewrite (Hs p (or_introl eq_refl)).
    edestruct IH as (f2 & E & A & B & C & D & F); [exact HN' | | exists f2; split; [exact E|]].
    + intros q Hq. cbn [f_next]. apply Hs. now right.
    + cbn [f_entry f_params f_rets f_types f_blocks] in *. repeat (split; [assumption|]). intro b. rewrite F, nth_on_block.
      cbn [mem_nat existsb]. fold (mem_nat b bs). destruct (Nat.eqb_spec b p) as [->|N]; [|reflexivity].
      assert (M : mem_nat p bs = false). { destruct (mem_nat p bs) eqn:M; [|reflexivity]. apply mem_nat_iff in M. contradiction. }
      rewrite M. destruct (nth_error (f_blocks f) p); cbn; [|reflexivity]. now rewrite app_nil_r.
Qed.

Lemma filter_copies : forall cs, filter (fun i => negb (is_phi i)) (map c_instr cs) = map c_instr cs.
Proof. induction cs as [|c cs IH]; [reflexivity|]. cbn. now rewrite IH. Qed.
Lemma filter_nophi : forall is, forallb (fun i => negb (is_phi i)) is = true -> filter (fun i => negb (is_phi i)) is = is.
Proof.
  induction is as [|i is IH]; intro H; [reflexivity|]. cbn in *. apply andb_true_iff in H. destruct H as [H1 H2]. rewrite H1. now rewrite IH.
Qed.
Lemma filter_span : forall is, forallb (fun i => negb (is_phi i)) (snd (span_phi is)) = true ->
  filter (fun i => negb (is_phi i)) is = snd (span_phi is).
Proof.
  intros is H. rewrite (span_phi_app is) at 1. rewrite filter_app, (filter_nophi _ H).
  assert (K : filter (fun i => negb (is_phi i)) (map (fun p => IPhi (fst (fst p)) (snd (fst p)) (snd p)) (fst (span_phi is))) = []).
  { induction (fst (span_phi is)); cbn; auto. }
  now rewrite K.
Qed.

Section Pass.
  Variables (f g : func) (o : orders).
  Hypothesis Hssa : ssa f.
  Hypothesis Hfirst : phis_first f.
  Hypothesis Hpreds : phi_preds f.
  Hypothesis Horder : phi_order f.
  Hypothesis Hvalid : valid_orders o f.

  Definition seq_of (p : nat) (cs : list copy) : Prop :=
    Permutation (phi_copies f p) cs /\
    forall l1 c l2 s, cs = l1 ++ c :: l2 -> c_src c = Op s -> ~ In s (map c_dest l1).

  (** The block of [g] that stands for block [b] of [f]. *)
  Definition stands (b : nat) (blk gb : block) : Prop :=
    exists cs sg, seq_of b cs /\ b_instrs gb = snd (span_phi (b_instrs blk)) ++ map c_instr cs /\
      b_term gb = tmap sg (b_term blk) /\
      forall x, In x (targets (b_term blk)) -> leads (f_blocks g) (length (f_blocks f)) (sg x) x.

  Lemma seqs_exist : exists seqs : nat -> list copy, forall p, seq_of p (seqs p) /\
    sequence (o_graph o p) (o_degrees o p) (phi_copies (split_all f) p) (f_next (split_all f)) = Some (map c_instr (seqs p), f_next (split_all f)).
  Proof.
    set (F := fun p => match sequence (o_graph o p) (o_degrees o p) (phi_copies (split_all f) p) (f_next (split_all f)) with
                       | Some (is, _) => flat_map (fun i => match i with IAssign d v t => [(d, v, t)] | _ => [] end) is
                       | None => [] end).
    exists F. intro p. destruct Hvalid as [_ HO]. specialize (HO p). rewrite (phi_copies_split f _ p (split_all_splits f)) in *.
    destruct (sequence_order (o_graph o p) (o_degrees o p) (phi_copies f p) (f_next (split_all f)) HO) as (cs' & E & Pc & Ho).
    - apply phi_copies_nodup; [exact (proj1 Hssa) | exact Hpreds].
    - apply Horder.
    - assert (EF : F p = cs').
      { unfold F. rewrite (phi_copies_split f _ p (split_all_splits f)), E.
        clear. induction cs' as [|[[d v] t] cs IH]; [reflexivity|]. cbn. now f_equal. }
      rewrite EF. split; [split; [exact Pc | exact Ho] | exact E].
  Qed.

  Lemma no_copies_new : forall b, length (f_blocks f) <= b -> phi_copies f b = [].
  Proof.
    intros b Hb. destruct (phi_copies f b) as [|c r] eqn:E; [reflexivity|].
    assert (K : In c (phi_copies f b)) by (rewrite E; now left). apply phi_copies_in in K.
    destruct K as (q & blk & d & t & ss & v & Hq & Hi & Hs & _). destruct (Hpreds q blk d t ss Hq Hi) as [_ H].
    destruct (H b v Hs) as (pb & Hpb & _). assert (b < length (f_blocks f)) by (apply nth_error_Some; congruence). lia.
  Qed.

  Theorem phi_elim_spec : exists g', phi_elim o f = Some g'.
  Proof.
    unfold phi_elim. destruct seqs_exist as (seqs & Hseqs). destruct Hvalid as [[HN _] _].
    destruct (o_blocks o) as [|p bs]; [eexists; reflexivity|].
    destruct (insert_copies_spec o (split_all f) (fun p => map c_instr (seqs p)) (p :: bs) (split_all f) HN) as (f2 & E & _).
    - intros q _. apply Hseqs.
    - rewrite E. eexists. reflexivity.
  Qed.

  Hypothesis Hg : phi_elim o f = Some g.

  Lemma g_head : f_entry g = f_entry f /\ f_params g = f_params f /\ f_rets g = f_rets f /\ f_types g = f_types f.
  Proof.
    unfold phi_elim in Hg. destruct (split_all_splits f) as (A & B & C & D & _). destruct seqs_exist as (seqs & Hseqs).
    destruct Hvalid as [[HN _] _]. destruct (o_blocks o) as [|p bs].
    - injection Hg as <-. auto.
    - destruct (insert_copies_spec o (split_all f) (fun p => map c_instr (seqs p)) (p :: bs) (split_all f) HN) as (f2 & E & A2 & B2 & C2 & D2 & _).
      + intros q _. apply Hseqs.
      + rewrite E in Hg. injection Hg as <-. cbn. repeat split; congruence.
  Qed.

  (** Blocks: those of [f] get their copies; a block without phis and any block when there
      are copies anywhere lose their phis. *)
  Lemma g_blocks : forall b blk, nth_error (f_blocks f) b = Some blk ->
    (fst (span_phi (b_instrs blk)) = [] \/ exists p, phi_copies f p <> []) ->
    exists gb, nth_error (f_blocks g) b = Some gb /\ stands b blk gb.
  Proof.
    intros b blk Hb Hcase. pose proof (split_all_splits f) as HS. destruct HS as (_ & _ & _ & _ & (m & Em) & Hblk).
    destruct (Hblk b blk Hb) as (blk1 & sg & Hb1 & Et & Hld).
    assert (Ei : b_instrs blk1 = b_instrs blk).
    { apply (map_nth_error b_instrs) in Hb1. rewrite Em in Hb1. rewrite nth_error_app1 in Hb1.
      - apply (map_nth_error b_instrs) in Hb. congruence.
      - rewrite map_length. apply nth_error_Some. congruence. }
    assert (HF := Hfirst blk (nth_error_In _ _ Hb)).
    unfold phi_elim in Hg. destruct seqs_exist as (seqs & Hseqs). destruct Hvalid as [[HN HNi] _].
    destruct (o_blocks o) as [|p bs] eqn:Eo.
    - assert (Eg : split_all f = g) by congruence. clear Hg. unfold stands. rewrite <- Eg. exists blk1. split; [exact Hb1|]. exists [], sg.
      assert (K : phi_copies f b = []).
      { rewrite <- (phi_copies_split f _ b (split_all_splits f)). destruct (phi_copies (split_all f) b) eqn:E; [reflexivity|].
        elim (proj2 (HNi b)). congruence. }
      split; [|split; [|split]].
      + split; [rewrite K; constructor|]. intros l1 c l2 s E. destruct l1; discriminate.
      + rewrite Ei. cbn [map]. rewrite app_nil_r. destruct Hcase as [Hc|(q & Hc)].
        * rewrite (span_phi_app (b_instrs blk)) at 1. rewrite Hc. reflexivity.
        * exfalso. rewrite <- (phi_copies_split f _ q (split_all_splits f)) in Hc. elim (proj2 (HNi q) Hc).
      + exact Et.
      + exact Hld.
    - destruct (insert_copies_spec o (split_all f) (fun p => map c_instr (seqs p)) (p :: bs) (split_all f) HN) as (f2 & E & A2 & B2 & C2 & D2 & F2).
      { intros q _. apply Hseqs. }
      rewrite E in Hg. assert (Eg : remove_phis f2 = g) by congruence. clear Hg. unfold stands. rewrite <- Eg.
      assert (Hcs : forall q, (if mem_nat q (p :: bs) then map c_instr (seqs q) else []) = map c_instr (seqs q)).
      { intro q. destruct (mem_nat q (p :: bs)) eqn:M; [reflexivity|].
        assert (K : phi_copies f q = []).
        { rewrite <- (phi_copies_split f _ q (split_all_splits f)). destruct (phi_copies (split_all f) q) eqn:E'; [reflexivity|].
          exfalso. assert (K : mem_nat q (p :: bs) = true) by (apply mem_nat_iff, HNi; congruence). congruence. }
        destruct (Hseqs q) as [[Pq _] _]. rewrite K in Pq. apply Permutation_nil in Pq. now rewrite Pq. }
      eexists. split.
      { unfold remove_phis. cbn [f_blocks with_blocks]. apply map_nth_error. rewrite F2, Hb1. cbn [option_map]. reflexivity. }
      exists (seqs b), sg. cbn [b_instrs b_term]. split; [apply Hseqs|]. split; [|split].
      + rewrite Hcs, Ei, filter_app, filter_copies, filter_span by exact HF. reflexivity.
      + exact Et.
      + intros x Hx. destruct (Hld x Hx) as [->|(Hge & eb & He1 & He2 & He3)]; [now left|]. right. split; [exact Hge|].
        eexists. split.
        * unfold remove_phis. cbn [f_blocks with_blocks]. apply map_nth_error. rewrite F2, He1. cbn [option_map]. reflexivity.
        * cbn [b_instrs b_term]. split; [|exact He3]. rewrite Hcs, He2. destruct (Hseqs (sg x)) as [[Pq _] _].
          rewrite (no_copies_new _ Hge) in Pq. apply Permutation_nil in Pq. now rewrite Pq.
  Qed.
End Pass.

(** ** Simulation. *)
Lemma exec_list_app : forall S (W : world S) tys a b e s,
  exec_list W tys e s (a ++ b) = rbind (exec_list W tys e s a) (fun x => exec_list W tys (fst x) (snd x) b).
Proof.
  induction a as [|i a IH]; intros b e s; [reflexivity|]. cbn [app exec_list].
  destruct (exec W tys e s i) as [[e1 s1]| | |]; cbn [rbind]; auto.
Qed.
Lemma forallb_copies : forall cs, forallb (fun i => negb (is_phi i)) (map c_instr cs) = true.
Proof. induction cs; cbn; auto. Qed.
Lemma phi_def_at : forall f b blk d t ss, nth_error (f_blocks f) b = Some blk -> In (IPhi d t ss) (b_instrs blk) ->
  exists k, def_at f b k d.
Proof.
  intros f b blk d t ss Hb Hi. apply In_nth_error in Hi. destruct Hi as (k & Hk). exists k, blk, (IPhi d t ss).
  split; [exact Hb|]. split; [exact Hk | now left].
Qed.
Lemma span_phi_in : forall is d t ss, forallb (fun i => negb (is_phi i)) (snd (span_phi is)) = true ->
  In (IPhi d t ss) is <-> In (d, t, ss) (fst (span_phi is)).
Proof.
  intros is d t ss F. split; intro H.
  - rewrite (span_phi_app is) in H. apply in_app_or in H. destruct H as [H|H].
    + apply in_map_iff in H. destruct H as ([[d' t'] ss'] & E & H). cbn in E. injection E as -> -> ->. exact H.
    + rewrite forallb_forall in F. specialize (F _ H). discriminate.
  - rewrite (span_phi_app is). apply in_or_app. left. apply in_map_iff. exists (d, t, ss). auto.
Qed.
Lemma phi_pos : forall f b blk k d, nth_error (f_blocks f) b = Some blk -> k < nphis blk -> def_at f b k d ->
  In d (map (fun p => fst (fst p)) (fst (span_phi (b_instrs blk)))).
Proof.
  intros f b blk k d Hb Hk (blk' & i & Hb' & Hi & Hd). assert (blk' = blk) by congruence. subst blk'.
  unfold nphis in Hk. rewrite (span_phi_app (b_instrs blk)) in Hi. rewrite nth_error_app1 in Hi by (rewrite map_length; exact Hk).
  apply nth_error_In in Hi. apply in_map_iff in Hi. destruct Hi as (ph & <- & Hin). cbn in Hd. destruct Hd as [<-|[]].
  apply in_map_iff. exists ph. auto.
Qed.

Definition finished {A} (r : res A) : Prop := match r with ROk _ | RTrap => True | _ => False end.

Section SimPhi.
  Variables (f g : func).
  Hypothesis Hssa : ssa f.
  Hypothesis Hfirst : phis_first f.
  Hypothesis Hpreds : phi_preds f.
  Hypothesis Hfwd : branches_forward f.
  Hypothesis Hhead : f_entry g = f_entry f /\ f_params g = f_params f /\ f_rets g = f_rets f /\ f_types g = f_types f.
  Hypothesis Hblocks : forall b blk, nth_error (f_blocks f) b = Some blk ->
    (fst (span_phi (b_instrs blk)) = [] \/ exists p, phi_copies f p <> []) ->
    exists gb, nth_error (f_blocks g) b = Some gb /\ stands f g b blk gb.
  Context {S : Type} (W : world S) (args : list val) (s0 : S).
  Hypothesis Hvals : branch_values W f args s0.

  Definition agree (b k : nat) (e e' : env) : Prop := forall v, dom f v b k -> e' v = e v.

  Lemma exec_agree : forall b blk k i e e' s, nth_error (f_blocks f) b = Some blk -> nth_error (b_instrs blk) k = Some i ->
    is_phi i = false -> agree b k e e' ->
    match exec W (f_types f) e s i with
    | ROk (e1, s1) => exists e1', exec W (f_types g) e' s i = ROk (e1', s1) /\ agree b (Datatypes.S k) e1 e1'
    | RTrap => exec W (f_types g) e' s i = RTrap
    | _ => True
    end.
  Proof.
    intros b blk k i e e' s Hb Hi Hp Ha. destruct Hhead as (_ & _ & _ & Ht).
    assert (HE : rrel true eq (effect W (f_types f) e s i) (effect W (f_types g) e' s i)).
    { apply effect_agree.
      - intros v Hv. apply Ha. destruct Hssa as [_ Hst]. destruct (Hst b blk Hb) as (H1 & _). exact (H1 k i v Hi Hp Hv).
      - intros; now rewrite Ht.
      - intros; now rewrite Ht. }
    unfold exec. destruct (effect W (f_types f) e s i) as [[vs s1]| | |]; cbn [rbind fst snd]; auto.
    - cbn in HE. destruct HE as (y & -> & <-). cbn [rbind fst snd].
      destruct (bind_all e (Mir.dests i) vs) as [e1|] eqn:E; cbn [of_opt rbind]; [|exact Logic.I].
      destruct (bind_all_sim _ _ e' _ _ E) as (e1' & E' & A & B). rewrite E'. cbn [of_opt rbind].
      exists e1'. split; [reflexivity|]. intros v Hv. destruct (in_dec Nat.eq_dec v (Mir.dests i)) as [Hin|Hout]; [now apply A|].
      rewrite (B v Hout), (bind_all_get _ _ _ _ E v Hout). apply Ha. apply dom_back; [exact Hv|].
      intros (blk' & i' & Hb' & Hi' & Hd). assert (blk' = blk) by congruence. subst blk'. assert (i' = i) by congruence. now subst.
    - cbn in HE. rewrite HE by reflexivity. reflexivity.
  Qed.

  Lemma list_agree : forall b blk is k e e' s, nth_error (f_blocks f) b = Some blk ->
    (forall j i, nth_error is j = Some i -> nth_error (b_instrs blk) (k + j) = Some i) ->
    forallb (fun i => negb (is_phi i)) is = true ->
    reached W f args s0 b k e s -> agree b k e e' ->
    match exec_list W (f_types f) e s is with
    | ROk (e1, s1) => exists e1', exec_list W (f_types g) e' s is = ROk (e1', s1) /\
        agree b (k + length is) e1 e1' /\ reached W f args s0 b (k + length is) e1 s1
    | RTrap => exec_list W (f_types g) e' s is = RTrap
    | _ => True
    end.
  Proof.
    intros b blk is. induction is as [|i is IH]; intros k e e' s Hb Hn HF HR Ha.
    - cbn. exists e'. rewrite Nat.add_0_r. auto.
    - cbn in HF. apply andb_true_iff in HF. destruct HF as [H1 HF]. apply negb_true_iff in H1.
      assert (Hi : nth_error (b_instrs blk) k = Some i). { rewrite <- (Nat.add_0_r k). now apply Hn. }
      pose proof (exec_agree b blk k i e e' s Hb Hi H1 Ha) as K. cbn [exec_list].
      destruct (exec W (f_types f) e s i) as [[e1 s1]| | |] eqn:Ee; cbn [rbind]; auto.
      + destruct K as (e1' & E' & Ha'). rewrite E'. cbn [rbind fst snd length].
        rewrite <- plus_n_Sm. apply (IH (Datatypes.S k)); auto.
        * intros j i' Hj. rewrite plus_Sn_m, plus_n_Sm. now apply Hn.
        * exact (r_step W f args s0 b k blk i e s e1 s1 HR Hb Hi Ee).
      + rewrite K. reflexivity.
  Qed.

  (** What the copies of a block leave. *)
  Lemma copies_run : forall p pblk cs e e' s, nth_error (f_blocks f) p = Some pblk -> seq_of f p cs ->
    agree p (length (b_instrs pblk)) e e' ->
    (forall c, In c (phi_copies f p) -> eval_as e (c_ty c) (c_src c) <> None) ->
    exists e2, exec_list W (f_types g) e' s (map c_instr cs) = ROk (e2, s) /\
      (forall c, In c (phi_copies f p) -> e2 (c_dest c) = eval_as e (c_ty c) (c_src c)) /\
      (forall x, ~ In x (map c_dest (phi_copies f p)) -> e2 x = e' x).
  Proof.
    intros p pblk cs e e' s Hp [Pc Ho] Ha Hd.
    assert (Hin : forall c, In c cs -> In c (phi_copies f p)) by (intros c Hc; exact (Permutation_in _ (Permutation_sym Pc) Hc)).
    destruct (exec_copies S W (f_types g) s cs e e') as (e2 & E & A & B).
    - apply (Permutation_NoDup (l := map c_dest (phi_copies f p))); [now apply Permutation_map|].
      apply phi_copies_nodup; [exact (proj1 Hssa) | exact Hpreds].
    - exact Ho.
    - intros c Hc. apply Hd, Hin, Hc.
    - intros c i Hc Ei. apply Ha. apply Hin in Hc. apply phi_copies_in in Hc.
      destruct Hc as (b & blk & d & t & ss & v & Hb & Hi & Hs & ->). cbn in Ei. subst v.
      destruct (Hpreds b blk d t ss Hb Hi) as [HN Hreal]. destruct (Hreal p (Op i) Hs) as (pb & Hpb & Hbt).
      assert (pb = pblk) by congruence. subst pb.
      destruct Hssa as [_ Hst]. destruct (Hst b blk Hb) as (_ & H2 & _). apply In_nth_error in Hi. destruct Hi as (k & Hk).
      exact (H2 k d t ss p pblk i Hk Hp Hbt (src_from_in _ _ _ HN Hs)).
    - exists e2. split; [exact E|]. split.
      + intros c Hc. apply A. exact (Permutation_in _ Pc Hc).
      + intros x Hx. apply B. intro K. apply Hx. apply in_map_iff in K. destruct K as (c & <- & Hc). apply in_map, Hin, Hc.
  Qed.

  (** On a branch, the destinations of the copies are not defined yet. *)
  Lemma branch_fresh : forall p pblk l x, nth_error (f_blocks f) p = Some pblk -> 1 < length (targets (b_term pblk)) ->
    walk f (p :: l) -> In x (map c_dest (phi_copies f p)) -> ~ dom f x p (length (b_instrs pblk)).
  Proof.
    intros p pblk l x Hp Hm Hw Hx Hdom. apply in_map_iff in Hx. destruct Hx as (c & <- & Hc). apply phi_copies_in in Hc.
    destruct Hc as (b & blk & d & t & ss & v & Hb & Hi & Hs & ->). cbn [c_dest fst] in Hdom.
    apply (Hfwd b blk d t ss p v pblk Hb Hi Hs Hp Hm (ex_intro _ l Hw)). intros l' Hw'.
    destruct (phi_def_at f b blk d t ss Hb Hi) as (k & Hk). destruct Hssa as [Hsd _].
    destruct (Hdom l' Hw') as [H|[(j & _ & H)|(c & j & Hc & H)]].
    - elim (def_not_param _ _ _ _ Hsd Hk H).
    - destruct (def_at_uniq _ _ _ _ _ _ Hsd Hk H) as [-> _]. now left.
    - destruct (def_at_uniq _ _ _ _ _ _ Hsd Hk H) as [-> _]. now right.
  Qed.

  Lemma phi_dests_nodup : forall b blk, nth_error (f_blocks f) b = Some blk ->
    NoDup (map (fun p => fst (fst p)) (fst (span_phi (b_instrs blk)))).
  Proof.
    intros b blk Hb. destruct Hssa as [Hsd _]. apply NoDup_app_r in Hsd.
    apply (NoDup_flat_map_in _ _ _ _ blk) in Hsd; [|exact (nth_error_In _ _ Hb)].
    cbv beta in Hsd. rewrite (span_phi_app (b_instrs blk)), flat_map_app in Hsd. apply NoDup_app_l in Hsd.
    clear -Hsd. induction (fst (span_phi (b_instrs blk))) as [|ph l IH]; [constructor|]. cbn in *.
    inversion Hsd as [|? ? H1 H2]; subst. constructor; [|now apply IH]. intro K. apply H1.
    clear -K. induction l as [|q l IH]; [destruct K|]. cbn in *. destruct K as [->|K]; [now left | right; now apply IH].
  Qed.

  Lemma arrive : forall p pblk b blk l e e' e2 e1, nth_error (f_blocks f) p = Some pblk -> nth_error (f_blocks f) b = Some blk ->
    In b (targets (b_term pblk)) -> walk f (p :: l) ->
    agree p (length (b_instrs pblk)) e e' ->
    (forall c, In c (phi_copies f p) -> e2 (c_dest c) = eval_as e (c_ty c) (c_src c)) ->
    (forall x, ~ In x (map c_dest (phi_copies f p)) -> e2 x = e' x) ->
    enter e (Some p) (fst (span_phi (b_instrs blk))) = Some e1 ->
    agree b (nphis blk) e1 e2.
  Proof.
    intros p pblk b blk l e e' e2 e1 Hp Hb Ht Hw Ha A B HE v Hv.
    assert (HF := Hfirst blk (nth_error_In _ _ Hb)).
    unfold enter in HE. destruct (omap _ _) as [vs|] eqn:Eo; [|discriminate].
    destruct (bind_all_at _ _ _ _ (phi_dests_nodup b blk Hb) HE) as [I1 I2].
    destruct (in_dec Nat.eq_dec v (map (fun p => fst (fst p)) (fst (span_phi (b_instrs blk))))) as [Hin|Hout].
    - apply in_map_iff in Hin. destruct Hin as ([[d t] ss] & <- & Hin). cbn [fst].
      assert (Hphi : In (IPhi d t ss) (b_instrs blk)) by now apply span_phi_in.
      apply In_nth_error in Hin. destruct Hin as (k & Hk).
      destruct (omap_nth _ _ _ _ _ Eo k _ Hk) as (y & Ey & Hy). cbn in Ey.
      destruct (src_from p ss) as [w|] eqn:Es; [|discriminate].
      rewrite (I1 k d), Hy by exact (map_nth_error (fun p => fst (fst p)) k _ Hk).
      rewrite <- Ey. apply (A (d, w, t)). apply phi_copies_in. exists b, blk, d, t, ss, w. split; [exact Hb|]. split; [exact Hphi|].
      split; [now apply src_from_some | reflexivity].
    - rewrite I2 by exact Hout.
      assert (Hdp : dom f v p (length (b_instrs pblk))).
      { apply (dom_edge f v p b pblk Hp Ht). apply (dom_back_n f v b (nphis blk) Hv). intros k Hk Hd. apply Hout.
        exact (phi_pos f b blk k v Hb Hk Hd). }
      rewrite <- (Ha v Hdp). apply B. intro Hc.
      destruct (Nat.le_gt_cases (length (targets (b_term pblk))) 1) as [L|L].
      + apply in_map_iff in Hc. destruct Hc as (c & <- & Hc). apply phi_copies_in in Hc.
        destruct Hc as (b' & blk' & d & t & ss & w & Hb' & Hi & Hs & ->). cbn [c_dest fst] in *.
        destruct (Hpreds b' blk' d t ss Hb' Hi) as [_ Hreal]. destruct (Hreal p w Hs) as (pb & Hpb & Hbt).
        assert (pb = pblk) by congruence. subst pb.
        assert (b' = b). { destruct (targets (b_term pblk)) as [|x [|y r]]; cbn in *; [tauto | intuition congruence | lia]. }
        subst b'. assert (blk' = blk) by congruence. subst blk'. apply Hout. apply in_map_iff. exists (d, t, ss). split; [reflexivity|].
        apply span_phi_in; [exact HF | exact Hi].
      + exact (branch_fresh p pblk l v Hp L Hw Hc Hdp).
  Qed.

  Lemma term_agree : forall e e2 rets sg t, (forall v, In v (term_uses t) -> e2 v = e v) ->
    match exec_term e rets t with
    | ROk (NGo b) => exec_term e2 rets (tmap sg t) = ROk (NGo (sg b)) /\ In b (targets t)
    | ROk (NRet vs) => exec_term e2 rets (tmap sg t) = ROk (NRet vs)
    | RTrap => exec_term e2 rets (tmap sg t) = RTrap
    | _ => True
    end.
  Proof.
    intros e e2 rets sg t H. destruct t as [b|c a b|op l r a b|vs|]; cbn [exec_term tmap targets] in *.
    - split; [reflexivity | now left].
    - rewrite (truth_sim_agree e e2 c) by (intros i Hi; apply H; exact Hi).
      destruct (truth e c) as [x|]; cbn [of_opt rbind]; [|exact Logic.I]. split; [destruct x; reflexivity | destruct x; cbn; auto].
    - destruct (branch_op op); [|exact Logic.I].
      assert (HE : rrel true eq (eval_bin e op l r) (eval_bin e2 op l r)).
      { apply eval_bin_sim; apply vsim_agree; intros i Hi; apply H; cbn; apply in_or_app; auto. }
      destruct (eval_bin e op l r) as [x| | |]; cbn [rbind]; auto.
      + cbn in HE. destruct HE as (y & -> & <-). destruct x; cbn [rbind]; auto. split; [destruct b0; reflexivity | destruct b0; cbn; auto].
      + cbn in HE. rewrite HE by reflexivity. reflexivity.
    - destruct (omap _ rets) as [ts|]; cbn [of_opt rbind]; [|exact Logic.I].
      destruct (eval_list e ts vs) as [xs|] eqn:E; cbn [of_opt rbind]; [|exact Logic.I].
      assert (K : eval_list e2 ts (map (fun v => v) vs) = Some xs).
      { apply (eval_list_sim e e2 (fun v => v) ts vs xs); [|exact E]. intros v Hv. apply vsim_agree. intros i Hi. apply H.
        cbn. unfold vals_ids. apply in_flat_map. exists v. auto. }
      rewrite map_id in K. rewrite K. reflexivity.
    - exact Logic.I.
  Qed.

  (** The rest of a run, after the phis of block [b]. *)
  Definition rest (k b : nat) (blk : block) (e : env) (s : S) : res (list val * S) :=
    rbind (exec_list W (f_types f) e s (snd (span_phi (b_instrs blk)))) (fun x =>
    rbind (exec_term (fst x) (map (f_types f) (f_rets f)) (b_term blk)) (fun n =>
    match n with
    | NGo b' => run W f k (Some b) b' (fst x) (snd x)
    | NRet vs => ROk (vs, snd x)
    end)).

  Lemma g_step : forall k b blk gb cs sg prev e' s, nth_error (f_blocks f) b = Some blk -> nth_error (f_blocks g) b = Some gb ->
    b_instrs gb = snd (span_phi (b_instrs blk)) ++ map c_instr cs -> b_term gb = tmap sg (b_term blk) ->
    run W g (Datatypes.S k) prev b e' s =
      rbind (exec_list W (f_types g) e' s (snd (span_phi (b_instrs blk)))) (fun x =>
      rbind (exec_list W (f_types g) (fst x) (snd x) (map c_instr cs)) (fun y =>
      rbind (exec_term (fst y) (map (f_types g) (f_rets g)) (tmap sg (b_term blk))) (fun n =>
      match n with NGo b' => run W g k (Some b) b' (fst y) (snd y) | NRet vs => ROk (vs, snd y) end))).
  Proof.
    intros k b blk gb cs sg prev e' s Hb Hgb Ei Et. cbn [run]. rewrite Hgb, Ei, Et.
    rewrite span_nophi.
    - cbn [fst snd]. assert (E0 : enter e' prev [] = Some e') by reflexivity. rewrite E0. cbn [of_opt rbind].
      rewrite exec_list_app. destruct (exec_list W (f_types g) e' s (snd (span_phi (b_instrs blk)))) as [[e1 s1]| | |]; reflexivity.
    - rewrite forallb_app, forallb_copies, (Hfirst blk (nth_error_In _ _ Hb)). reflexivity.
  Qed.

  Lemma g_edge : forall k y x prev e s, nth_error (f_blocks f) x <> None ->
    leads (f_blocks g) (length (f_blocks f)) y x -> 
    (forall prev', exists k', run W g k' prev' x e s = k) -> exists k', run W g k' prev y e s = k.
  Proof.
    intros k y x prev e s Hx [->|(Hge & eb & Hn & Hi & Ht)] H; [apply H|].
    destruct (H (Some y)) as (k' & E). exists (Datatypes.S k'). cbn [run]. rewrite Hn, Hi, Ht. cbn [span_phi fst snd enter omap map bind_all of_opt rbind exec_list exec_term].
    exact E.
  Qed.

  Theorem phi_sim : forall k b blk e e' s l, nth_error (f_blocks f) b = Some blk ->
    reached W f args s0 b (nphis blk) e s -> walk f (b :: l) -> agree b (nphis blk) e e' ->
    (fst (span_phi (b_instrs blk)) = [] \/ exists p, phi_copies f p <> []) ->
    forall r, finished r -> rest k b blk e s = r -> forall prev, exists k', run W g k' prev b e' s = r.
  Proof.
    induction k as [k IH] using (well_founded_induction Wf_nat.lt_wf).
    intros b blk e e' s l Hb HR Hw Ha Hcase r Hfin Hrest prev.
    destruct (Hblocks b blk Hb Hcase) as (gb & Hgb & cs & sg & Hseq & Ei & Et & Hld).
    assert (HF := Hfirst blk (nth_error_In _ _ Hb)).
    pose proof (list_agree b blk (snd (span_phi (b_instrs blk))) (nphis blk) e e' s Hb (nth_rest blk) HF HR Ha) as K.
    unfold rest in Hrest. rewrite nphis_len in K.
    destruct (exec_list W (f_types f) e s (snd (span_phi (b_instrs blk)))) as [[x s1]| | |] eqn:EL; cbn [rbind fst snd] in Hrest.
    2:{ exists 1. rewrite (g_step 0 b blk gb cs sg prev e' s Hb Hgb Ei Et). rewrite K. exact Hrest. }
    2:{ subst r. destruct Hfin. }
    2:{ subst r. destruct Hfin. }
    destruct K as (x' & EL' & Ha' & HR').
    (* the copies can be evaluated *)
    assert (Hdef : forall c, In c (phi_copies f b) -> eval_as x (c_ty c) (c_src c) <> None).
    { destruct (Nat.le_gt_cases (length (targets (b_term blk))) 1) as [L|L]; [|exact (Hvals b blk x s1 Hb L HR')].
      intros c Hc. apply phi_copies_in in Hc. destruct Hc as (b' & blk' & d & t & ss & v & Hb' & Hi & Hs & ->).
      destruct (Hpreds b' blk' d t ss Hb' Hi) as [HN Hreal]. destruct (Hreal b v Hs) as (pb & Hpb & Hbt).
      assert (pb = blk) by congruence. subst pb.
      destruct (b_term blk) as [j|c0 a0 b0|op l0 r0 a0 b0|vs|] eqn:Etm; cbn in L, Hbt; try lia; try (destruct Hbt; fail).
      destruct Hbt as [<-|[]]. cbn [exec_term rbind] in Hrest. destruct k as [|k2]; [subst r; destruct Hfin|].
      cbn [run] in Hrest. rewrite Hb' in Hrest.
      destruct (enter x (Some b) (fst (span_phi (b_instrs blk')))) as [e1|] eqn:Een; [|subst r; destruct Hfin].
      unfold enter in Een. destruct (omap _ _) as [ws|] eqn:Eo; [|discriminate].
      assert (Hin : In (d, t, ss) (fst (span_phi (b_instrs blk')))).
      { apply span_phi_in; [exact (Hfirst blk' (nth_error_In _ _ Hb')) | exact Hi]. }
      apply In_nth_error in Hin. destruct Hin as (q & Hq). destruct (omap_nth _ _ _ _ _ Eo q _ Hq) as (y & Ey & _).
      cbn in Ey. rewrite (src_from_in _ _ _ HN Hs) in Ey. cbn. congruence. }
    destruct (copies_run b blk cs x x' s1 Hb Hseq Ha' Hdef) as (e2 & E2 & A & B).
    destruct Hhead as (_ & _ & Hrets & Htys).
    assert (Hterm : forall v, In v (term_uses (b_term blk)) -> e2 v = x v).
    { intros v Hv. assert (Hd : dom f v b (length (b_instrs blk))).
      { destruct Hssa as [_ Hst]. destruct (Hst b blk Hb) as (_ & _ & H3). exact (H3 v Hv). }
      rewrite <- (Ha' v Hd). apply B. intro Hc. 
      destruct (Nat.le_gt_cases (length (targets (b_term blk))) 1) as [L|L]; [|exact (branch_fresh b blk l v Hb L Hw Hc Hd)].
      apply in_map_iff in Hc. destruct Hc as (c & <- & Hc). apply phi_copies_in in Hc.
      destruct Hc as (b' & blk' & d & t & ss & w & Hb' & Hi & Hs & ->).
      destruct (Hpreds b' blk' d t ss Hb' Hi) as [_ Hreal]. destruct (Hreal b w Hs) as (pb & Hpb & Hbt).
      assert (pb = blk) by congruence. subst pb. destruct (b_term blk); cbn in *; try lia; contradiction. }
    pose proof (term_agree x e2 (map (f_types f) (f_rets f)) sg (b_term blk) Hterm) as T.
    assert (Hg : forall k', run W g (Datatypes.S k') prev b e' s =
       rbind (exec_term e2 (map (f_types f) (f_rets f)) (tmap sg (b_term blk))) (fun n =>
       match n with NGo b' => run W g k' (Some b) b' e2 s1 | NRet vs => ROk (vs, s1) end)).
    { intro k'. rewrite (g_step k' b blk gb cs sg prev e' s Hb Hgb Ei Et), EL'. cbn [rbind fst snd]. rewrite E2. cbn [rbind fst snd].
      rewrite Hrets, Htys. reflexivity. }
    destruct (exec_term x (map (f_types f) (f_rets f)) (b_term blk)) as [[b'|vs]| | |] eqn:ET; cbn [rbind] in Hrest.
    - destruct T as [T HT]. destruct k as [|k2]; [subst r; destruct Hfin|]. cbn [run] in Hrest.
      destruct (nth_error (f_blocks f) b') as [blk'|] eqn:Hb'; [|subst r; destruct Hfin].
      destruct (enter x (Some b) (fst (span_phi (b_instrs blk')))) as [e1|] eqn:Een; [|subst r; destruct Hfin].
      cbn [of_opt rbind] in Hrest.
      assert (Hnext : exists k', run W g k' (Some b) (sg b') e2 s1 = r).
      { apply (g_edge r (sg b') b'); [congruence | now apply Hld|]. intro prev'.
        apply (IH k2 (Nat.lt_succ_diag_r k2) b' blk' e1 e2 s1 (b :: l) Hb').
        - exact (r_edge W f args s0 b b' blk blk' x s1 e1 HR' Hb Hb' ET Een).
        - exact (w_step f b b' l blk Hw Hb HT).
        - exact (arrive b blk b' blk' l x x' e2 e1 Hb Hb' HT Hw Ha' A B Een).
        - destruct (fst (span_phi (b_instrs blk'))) as [|[[d t] ss] phs] eqn:Ep; [now left|]. right. exists b.
          intro Z. unfold enter in Een. cbn [omap phi_val] in Een. destruct (src_from b (snd (d, t, ss))) as [w|] eqn:Es; [|discriminate].
          assert (Hin : In (d, w, t) (phi_copies f b)).
          { apply phi_copies_in. exists b', blk', d, t, ss, w. split; [exact Hb'|]. split; [|split; [now apply src_from_some | reflexivity]].
            apply span_phi_in; [exact (Hfirst blk' (nth_error_In _ _ Hb'))|]. rewrite Ep. now left. }
          rewrite Z in Hin. destruct Hin.
        - exact Hfin.
        - exact Hrest. }
      destruct Hnext as (k' & E). exists (Datatypes.S k'). rewrite Hg, T. exact E.
    - exists 1. rewrite Hg, T. exact Hrest.
    - exists 1. rewrite Hg, T. exact Hrest.
    - subst r. destruct Hfin.
    - subst r. destruct Hfin.
  Qed.

  Theorem phi_call : forall fuel r, finished r -> call_fn W f fuel args s0 = r -> exists fuel', call_fn W g fuel' args s0 = r.
  Proof.
    intros fuel r Hfin H. unfold call_fn in *. destruct Hhead as (He & Hp & _). rewrite Hp, He.
    destruct (bind_all (fun _ => None) (f_params f) args) as [e|] eqn:Eb; [|subst r; destruct Hfin].
    destruct fuel as [|k]; [subst r; destruct Hfin|]. cbn [run] in H.
    destruct (nth_error (f_blocks f) (f_entry f)) as [blk|] eqn:Hb; [|subst r; destruct Hfin].
    destruct (fst (span_phi (b_instrs blk))) as [|ph phs] eqn:Ep; [|cbn in H; subst r; destruct Hfin].
    cbn [enter omap map bind_all of_opt rbind] in H.
    apply (phi_sim k (f_entry f) blk e e s0 [] Hb); try assumption.
    - unfold nphis. apply (r_entry W f args s0 blk e e Hb Eb). rewrite Ep. reflexivity.
    - constructor.
    - intros v _. reflexivity.
    - now left.
  Qed.
End SimPhi.

Theorem phi_elim_same : forall f o, ssa f -> phis_first f -> phi_preds f -> phi_order f -> branches_forward f -> valid_orders o f ->
  exists g, phi_elim o f = Some g /\
    forall S (W : world S) fuel args s r, branch_values W f args s -> finished r -> call_fn W f fuel args s = r ->
    exists fuel', call_fn W g fuel' args s = r.
Proof.
  intros f o H1 H2 H3 H4 H5 H6. destruct (phi_elim_spec f o H1 H3 H4 H6) as (g & Hg).
  exists g. split; [exact Hg|]. intros S W fuel args s r Hv Hfin.
  apply (phi_call f g H1 H2 H3 H5 (g_head f g o H1 H3 H4 H6 Hg) (g_blocks f g o H1 H2 H3 H4 H6 Hg) W args s Hv fuel r Hfin).
Qed.
