(** Property C38: phi elimination. *)
From Coq Require Import ZArith Bool String List Permutation Lia.
From Verif Require Import M31 Isa Mir MirSem MirFacts MirSim MirSsa MirSsaFacts MirReach MirPhi MirPhiSeq MirPhiFacts Prop_Mir Prop_Cse.
Import ListNotations.
Open Scope nat_scope.

(** ** C38: the copies inserted for phis act as one simultaneous assignment *)

(** Copies with distinct destinations that can be ordered so that each is performed before
    its source is overwritten, none reading the destination of a copied literal; or copies
    that are in such an order already, some value being copied to itself: whatever
    the iteration orders of the hash maps, the emitted sequence uses no temporary and
    leaves exactly what reading all sources and then writing all destinations leaves.
    Missing: copies that form a cycle, and copies out of order next to one of a value to
    itself; for both the statement is false (below). *)
Theorem C38_sequence_partial : forall ks ts cs next,
  seq_orders ks ts cs -> NoDup (map c_dest cs) -> sequencable cs ->
  exists is, sequence ks ts cs next = Some (is, next) /\
    forall S (W : world S) tys s e e1, parallel e cs = Some e1 ->
    exists e2, exec_list W tys e s is = ROk (e2, s) /\ forall x, e2 x = e1 x.
Proof. exact sequence_effect. Qed.
Print Assumptions C38_sequence_partial.

(** Whole functions in single assignment form whose phis name predecessors of their block,
    once each, whose copies can be ordered, and whose branches to blocks with phis are not
    backward: the pass succeeds and the result returns what the function returns and fails
    where it fails. *)
Theorem C38_function_partial : forall f o, ssa f -> phis_first f -> phi_preds f -> phi_order f -> branches_forward f ->
  valid_orders o f ->
  exists g, phi_elim o f = Some g /\
    forall S (W : world S) fuel args s r, branch_values W f args s ->
      r = RTrap \/ (exists x, r = ROk x) ->
      call_fn W f fuel args s = r -> exists fuel', call_fn W g fuel' args s = r.
Proof.
  intros f o H1 H2 H3 H4 H5 H6. destruct (phi_elim_same f o H1 H2 H3 H4 H5 H6) as (g & Hg & K).
  exists g. split; [exact Hg|]. intros S W fuel args s r Hv Hr. apply K; [exact Hv|].
  destruct Hr as [->|(x & ->)]; exact Logic.I.
Qed.
Print Assumptions C38_function_partial.

(** The result has no phi left. *)
Theorem C38_no_phi : forall f o g p, phi_elim o f = Some g -> In p (o_blocks o) ->
  forall b i, In b (f_blocks g) -> In i (b_instrs b) -> is_phi i = false.
Proof.
  intros f o g p H Hp b i Hb Hi. unfold phi_elim in H. destruct (o_blocks o) as [|q bs]; [destruct Hp|].
  destruct (insert_copies o (split_all f) (q :: bs) (split_all f)); [|discriminate]. injection H as <-.
  unfold remove_phis in Hb. cbn [f_blocks with_blocks] in Hb. apply in_map_iff in Hb. destruct Hb as (b0 & <- & _). cbn in Hi.
  apply filter_In in Hi. destruct Hi as [_ Hi]. now apply negb_true_iff.
Qed.
Print Assumptions C38_no_phi.

(** Swapping two values does nothing: the code emitted for [a, b = b, a] leaves both as
    they were, for all values and whatever the hash orders. *)
Lemma two_keys : forall (ks : list nat) a b, a <> b -> NoDup ks -> (forall d, In d ks <-> d = a \/ d = b) -> ks = [a; b] \/ ks = [b; a].
Proof.
  intros ks a b N HN H. assert (P : Permutation [a; b] ks).
  { apply NoDup_Permutation; [|exact HN|].
    - constructor; [intros [E|[]]; congruence|]. constructor; [intros []|constructor].
    - intro x. rewrite H. cbn. intuition congruence. }
  apply Permutation_length_2_inv in P. intuition.
Qed.
Theorem C38_swap_refuted : forall a b t next ks ts x y, a <> b -> a < next -> b < next -> x <> y ->
  let cs := [(a, Op b, t); (b, Op a, t)] in
  seq_orders ks ts cs ->
  exists is, sequence ks ts cs next = Some (is, S next) /\
    forall St (W : world St) tys s e, e a = Some x -> e b = Some y -> shape t x = true -> shape t y = true ->
    exists e1 e2, parallel e cs = Some e1 /\ exec_list W tys e s is = ROk (e2, s) /\
      (e1 a = Some y /\ e1 b = Some x) /\ (e2 a = Some x /\ e2 b = Some y).
Proof.
  intros a b t next ks ts x y N La Lb Nxy cs [[HK HKi] _].
  assert (E1 : Nat.eqb a b = false) by now apply Nat.eqb_neq. assert (E2 : Nat.eqb b a = false) by (apply Nat.eqb_neq; congruence).
  assert (Da : deps cs a = [b]).
  { unfold deps, cs, op_dests, mem_nat. cbn. rewrite Nat.eqb_refl, E2. cbn. rewrite ?Nat.eqb_refl, ?E1, ?E2. cbn. reflexivity. }
  assert (Db : deps cs b = [a]).
  { unfold deps, cs, op_dests, mem_nat. cbn. rewrite Nat.eqb_refl, E1. cbn. rewrite ?Nat.eqb_refl, ?E1, ?E2. cbn. reflexivity. }
  assert (Hks : ks = [a; b] \/ ks = [b; a]).
  { apply two_keys; [exact N | exact HK|]. intro d. rewrite HKi. split.
    - intro H. destruct (deps cs d) as [|s r] eqn:E; [congruence|]. assert (K : In s (deps cs d)) by (rewrite E; now left).
      apply deps_in in K. destruct K as (c & [<-|[<-|[]]] & <- & _); cbn; auto.
    - intros [->| ->]; congruence. }
  assert (Hseq : sequence ks ts cs next = Some ([IAssign next (Op b) t; IAssign a (Op a) t; IAssign b (Op next) t], S next)).
  { assert (Hd : forall d1 d2, Nat.eqb d1 d2 = false -> Nat.eqb d2 d1 = false -> deps cs d1 = [d2] -> deps cs d2 = [d1] ->
               find_cycles 3 (deps cs) [d1; d2] ([], []) = Some [[d1; d2]]).
    { generalize (deps cs). intros g d1 d2 N1 N2 G1 G2.
      repeat (progress (cbn; rewrite ?G1, ?G2, ?N1, ?N2, ?Nat.eqb_refl)). reflexivity. }
    unfold sequence. cbn [cs]. fold cs. change (length cs) with 2.
    assert (Hfin : forall d1 d2, (d1 = a /\ d2 = b) \/ (d1 = b /\ d2 = a) ->
       (let '(is, done, n) := break_cycles [[d1; d2]] cs next in
        match topo_sort ts (deps cs) (filter (fun c => negb (mem_nat (c_dest c) done)) cs) with
        | Some sorted => Some (is ++ map c_instr sorted, n) | None => None end) =
       Some ([IAssign next (Op b) t; IAssign a (Op a) t; IAssign b (Op next) t], S next)).
    { intros d1 d2 H. cbn [break_cycles length Nat.leb cs filter c_dest fst mem_nat existsb].
      assert (Ma : Nat.eqb a d1 || (Nat.eqb a d2 || false) = true). { destruct H as [[-> ->]|[-> ->]]; rewrite ?Nat.eqb_refl, ?orb_true_r; reflexivity. }
      assert (Mb : Nat.eqb b d1 || (Nat.eqb b d2 || false) = true). { destruct H as [[-> ->]|[-> ->]]; rewrite ?Nat.eqb_refl, ?orb_true_r; reflexivity. }
      rewrite Ma, Mb. cbn. rewrite !Nat.eqb_refl. cbn. rewrite ?orb_true_r. cbn.
      unfold topo_sort. cbn. unfold mem_nat. 
      assert (Ef : forall (A : Type) (l : list A), filter (fun _ => false) l = []) by (induction l; auto).
      cbn. rewrite Ef. reflexivity. }
    destruct Hks as [-> | ->].
    - rewrite (Hd a b E1 E2 Da Db). apply Hfin. now left.
    - rewrite (Hd b a E2 E1 Db Da). apply Hfin. now right. }
  eexists. split; [exact Hseq|]. intros St W tys s e Ha Hb Sx Sy.
  assert (Fa : Nat.eqb a next = false) by (apply Nat.eqb_neq; lia). assert (Fb : Nat.eqb b next = false) by (apply Nat.eqb_neq; lia).
  do 2 eexists. split; [|split; [|split]].
  - unfold parallel, cs. cbn. rewrite Ha, Hb, Sx, Sy. reflexivity.
  - assert (K : forall e0 d i z, e0 i = Some z -> shape t z = true -> exec W tys e0 s (IAssign d (Op i) t) = ROk (upd e0 d z, s)).
    { intros e0 d i z E Sz. unfold exec. cbn. rewrite E, Sz. reflexivity. }
    cbn [exec_list]. rewrite (K e next b y Hb Sy). cbn [rbind fst snd].
    rewrite (K _ a a x) by (unfold upd; rewrite ?Fa; assumption). cbn [rbind fst snd].
    assert (G : Nat.eqb next a = false) by (apply Nat.eqb_neq; lia).
    rewrite (K _ b next y) by (unfold upd; rewrite ?G, ?Nat.eqb_refl; auto). reflexivity.
  - unfold upd; cbn [fst]. rewrite ?Nat.eqb_refl, ?E1, ?E2. split; reflexivity.
  - unfold upd; cbn [fst]. rewrite ?Nat.eqb_refl, ?E1, ?E2. split; reflexivity.
Qed.
Print Assumptions C38_swap_refuted.

(** A copied literal is not ordered against the copies that read its destination: for
    [a, b = 5, a] one of the two iteration orders gives [b] the new value of [a]. *)
Theorem C38_literal_refuted : forall a b x next, a <> b -> x <> VFelt 5 -> shape TFelt x = true ->
  let cs := [(a, Lit (LInt 5), TFelt); (b, Op a, TFelt)] in
  exists ks ts is, seq_orders ks ts cs /\ sequence ks ts cs next = Some (is, next) /\
    forall St (W : world St) tys s e, e a = Some x ->
    exists e1 e2, parallel e cs = Some e1 /\ exec_list W tys e s is = ROk (e2, s) /\
      e1 b = Some x /\ e2 b = Some (VFelt 5).
Proof.
  intros a b x next N Nx Sx cs.
  assert (E1 : Nat.eqb a b = false) by now apply Nat.eqb_neq. assert (E2 : Nat.eqb b a = false) by (apply Nat.eqb_neq; congruence).
  assert (Hdeps : forall d, deps cs d = []).
  { intro d. unfold deps, cs. cbn. rewrite E1. cbn. rewrite andb_false_r. reflexivity. }
  exists [], [a; b], [IAssign a (Lit (LInt 5)) TFelt; IAssign b (Op a) TFelt]. split; [|split].
  - split; split.
    + constructor.
    + intro d. rewrite Hdeps. split; [intros []|congruence].
    + constructor; [intros [E|[]]; congruence|]. constructor; [intros []|constructor].
    + intro d. cbn. tauto.
  - assert (Hdg : forall d, degree (deps cs) cs d = 0).
    { intro d. unfold degree, cs at 2. cbn [map flat_map app]. rewrite !Hdeps. reflexivity. }
    unfold sequence. unfold cs at 1. fold cs. cbn [find_cycles snd break_cycles app].
    assert (Hr : filter (fun c0 => negb (mem_nat (c_dest c0) [])) cs = cs) by reflexivity. rewrite Hr.
    unfold topo_sort. change (map c_dest cs) with [a; b]. change (length cs) with 2.
    assert (Hq : filter (fun v => mem_nat v [a; b] && Nat.eqb (degree (deps cs) cs v) 0) [a; b] = [a; b]).
    { cbn [filter]. rewrite !Hdg. cbn. rewrite !Nat.eqb_refl, E2. reflexivity. }
    rewrite Hq.
    assert (Hk : kahn 3 (deps cs) [a; b] (degree (deps cs) cs) [a; b] = Some [a; b]).
    { cbn [kahn]. rewrite !Hdeps. cbn [lower kahn]. rewrite !Hdeps. reflexivity. }
    rewrite Hk. unfold cs. cbn. rewrite ?Nat.eqb_refl, ?E1, ?E2. cbn. rewrite ?Nat.eqb_refl. reflexivity.
  - intros St W tys s e Ha. do 2 eexists. split; [|split; [|split]].
    + unfold parallel, cs. cbn [omap c_dest c_src c_ty fst snd eval_as lit_as map]. rewrite Ha, Sx. reflexivity.
    + assert (K : forall e0 q i w, e0 i = Some w -> shape TFelt w = true -> exec W tys e0 s (IAssign q (Op i) TFelt) = ROk (upd e0 q w, s)).
      { intros e0 q i w E Sw. unfold exec. cbn [effect eval_as]. rewrite E, Sw. reflexivity. }
      cbn [exec_list]. assert (K0 : exec W tys e s (IAssign a (Lit (LInt 5)) TFelt) = ROk (upd e a (VFelt 5), s)) by reflexivity.
      rewrite K0. cbn [rbind fst snd]. rewrite (K _ b a (VFelt 5)) by (unfold upd; rewrite ?Nat.eqb_refl; reflexivity). reflexivity.
    + unfold upd. rewrite Nat.eqb_refl. reflexivity.
    + unfold upd; cbn [fst]. rewrite Nat.eqb_refl. reflexivity.
Qed.
Print Assumptions C38_literal_refuted.

(** A value copied to itself makes the pass give up on sorting: the copies [b = x],
    [a = b], [c = c] are emitted in this order, and [a] gets the value of [x] instead of
    the one [b] had, for all values and whatever the hash orders.  Performing [a = b] first
    would have been right. *)
Theorem C38_self_copy_refuted : forall a b c x t next ks ts v w u, NoDup [a; b; c; x] -> v <> w ->
  let cs := [(b, Op x, t); (a, Op b, t); (c, Op c, t)] in
  seq_orders ks ts cs ->
  exists is, sequence ks ts cs next = Some (is, next) /\
    forall St (W : world St) tys s e, e b = Some v -> e x = Some w -> e c = Some u ->
      shape t v = true -> shape t w = true -> shape t u = true ->
    exists e1 e2, parallel e cs = Some e1 /\ exec_list W tys e s is = ROk (e2, s) /\
      e1 a = Some v /\ e2 a = Some w.
Proof.
  intros a b c x t next ks ts v w u HN Nvw cs HO.
  assert (Nab : Nat.eqb a b = false /\ Nat.eqb a c = false /\ Nat.eqb b c = false /\ Nat.eqb x a = false /\ Nat.eqb x b = false /\ Nat.eqb x c = false).
  { inversion HN as [|? ? H1 H2]; subst. inversion H2 as [|? ? H3 H4]; subst. inversion H4 as [|? ? H5 H6]; subst. cbn in H1, H3, H5.
    rewrite !Nat.eqb_neq. intuition congruence. }
  destruct Nab as (Nab & Nac & Nbc & Nxa & Nxb & Nxc).
  assert (Hd : NoDup (map c_dest cs)).
  { apply Nat.eqb_neq in Nab, Nac, Nbc. constructor; [intros [E|[E|[]]]; cbn in E; congruence|].
    constructor; [intros [E|[]]; cbn in E; congruence|]. constructor; [intros []|constructor]. }
  exists (map c_instr cs). split.
  - apply (sequence_gives_up ks ts cs next (fun y => if Nat.eqb y a then 0 else 1) HO Hd).
    + intros k s [<-|[<-|[<-|[]]]] E Hs; cbn in E |- *; injection E as <-; auto.
      * exfalso. apply Nat.eqb_neq in Nxa, Nxb, Nxc. destruct Hs as [E|[E|[E|[]]]]; cbn in E; congruence.
      * right. rewrite Nat.eqb_refl, Nat.eqb_sym, Nab. lia.
    + exists (c, Op c, t). split; [right; right; now left | reflexivity].
  - intros St W tys s e Eb Ex Ec Sv Sw Su. eexists _, _.
    split; [unfold parallel, cs; cbn; rewrite Ex, Sw, Eb, Sv, Ec, Su; cbn; reflexivity|].
    assert (Ncb : Nat.eqb c b = false) by (rewrite Nat.eqb_sym; exact Nbc).
    assert (Nca : Nat.eqb c a = false) by (rewrite Nat.eqb_sym; exact Nac).
    assert (K : forall e0 q i y, e0 i = Some y -> shape t y = true -> exec W tys e0 s (IAssign q (Op i) t) = ROk (upd e0 q y, s)).
    { intros e0 q i y E Sy. unfold exec. cbn [effect eval_as]. rewrite E, Sy. reflexivity. }
    change (map c_instr cs) with [IAssign b (Op x) t; IAssign a (Op b) t; IAssign c (Op c) t].
    cbn [exec_list]. rewrite (K e b x w Ex Sw). cbn [rbind fst snd].
    rewrite (K _ a b w) by (unfold upd; rewrite ?Nat.eqb_refl; auto). cbn [rbind fst snd].
    rewrite (K _ c c u) by (unfold upd; rewrite ?Nca, ?Ncb; auto). cbn [rbind fst snd].
    split; [reflexivity|]. unfold upd. rewrite ?Nac, ?Nat.eqb_refl. auto.
Qed.
Print Assumptions C38_self_copy_refuted.

(** Backward branches: the copy for the header is placed before the branch that may leave
    the loop instead, so after the loop the old value is gone.  Here
    [x = 0; loop { y = x + 1; if y == 3 { break } x = y } return x]. *)
Definition nothing : world nat :=
  World nat (fun _ _ _ _ _ => RStuck) (fun _ _ _ _ _ _ => RStuck) (fun _ _ _ _ _ => RStuck)
        (fun _ _ => RStuck) (fun _ _ _ => RStuck).
Definition lost_copy : func :=
  Func [Block [] (TJump 1) [];
        Block [IPhi 1 TFelt [(0, Lit (LInt 0)); (1, Op 2)]; IBinary Add 2 (Op 1) (Lit (LInt 1));
               IBinary Eq 3 (Op 2) (Lit (LInt 3))] (TIf (Op 3) 2 1) [0; 1];
        Block [] (TReturn [Op 1]) [1]]
       0 [] [4] 5 (fun v => Some (if Nat.eqb v 3 then TBool else TFelt)).
Definition lost_orders : orders := Orders [0; 1] (fun _ => []) (fun p => match p with 0 | 1 => [1] | _ => [] end).
Theorem C38_lost_copy_refuted : exists f o g, ssa f /\ phis_first f /\ phi_preds f /\ phi_order f /\ valid_orders o f /\
  phi_elim o f = Some g /\
  call_fn nothing f 9 [] 0 = ROk ([VFelt 2], 0) /\ call_fn nothing g 9 [] 0 = ROk ([VFelt 3], 0).
Proof.
  exists lost_copy, lost_orders. eexists.
  assert (Hc : forall p, phi_copies lost_copy p = match p with 0 => [(1, Lit (LInt 0), TFelt)] | 1 => [(1, Op 2, TFelt)] | _ => [] end)
    by (intros [|[|p]]; reflexivity).
  split; [apply (ssa_cert_sound (fun b => match b with 0 => [] | 1 => [] | _ => [1; 2; 3] end)); reflexivity|].
  split; [|split; [|split; [|split; [|split; [reflexivity|split; reflexivity]]]]].
  - intros b Hb. cbn in Hb. destruct Hb as [<-|[<-|[<-|[]]]]; reflexivity.
  - intros b blk d t ss Hb Hi. destruct b as [|[|[|b]]]; cbn in Hb; try (destruct b; discriminate); injection Hb as <-; cbn in Hi.
    + destruct Hi.
    + destruct Hi as [Hi|[Hi|[Hi|[]]]]; try discriminate. injection Hi as <- <- <-. split.
      * cbn. constructor; [intros [E|[]]; discriminate|]. constructor; [intros []|constructor].
      * intros p v [E|[E|[]]]; injection E as <- <-; eexists; (split; [reflexivity|]); cbn; auto.
    + destruct Hi.
  - intro p. rewrite Hc. left. destruct p as [|[|p]].
    + split; [exists (fun x => x)|]; intros c s [<-|[]]; [discriminate|]. intros [<-|[]]. discriminate.
    + split; [exists (fun x => x)|].
      * intros c s [<-|[]] E [<-|[]]. discriminate.
      * intros c c' [<-|[]] [<-|[]] E. discriminate.
    + split; [exists (fun x => x); intros c s [] | intros c c' []].
  - split.
    + split; [constructor; [intros [E|[]]; discriminate|]; constructor; [intros []|constructor]|].
      intro p. rewrite (phi_copies_split lost_copy _ p (split_all_splits lost_copy)), Hc.
      destruct p as [|[|p]]; cbn; [intuition discriminate..|]. split; [intros [E|[E|[]]]; discriminate | congruence].
    + intro p. rewrite (phi_copies_split lost_copy _ p (split_all_splits lost_copy)), Hc.
      split; split.
      * constructor.
      * intro d. destruct p as [|[|p]]; cbn; (split; [intros []|]); try congruence. rewrite andb_false_r. cbn. congruence.
      * destruct p as [|[|p]]; cbn; [constructor; [intros []|constructor]..|constructor].
      * intro d. destruct p as [|[|p]]; cbn; tauto.
Qed.
Print Assumptions C38_lost_copy_refuted.

(** Two variables exchanged in a loop: [a, b = 1, 2; while i != n { a, b = b, a; i += 1 }
    return a] always returns 1. *)
Definition swap_loop : func :=
  Func [Block [] (TJump 1) [];
        Block [IPhi 1 TFelt [(0, Lit (LInt 1)); (2, Op 2)]; IPhi 2 TFelt [(0, Lit (LInt 2)); (2, Op 1)];
               IPhi 3 TFelt [(0, Lit (LInt 0)); (2, Op 5)]; IBinary Neq 4 (Op 3) (Op 0)] (TIf (Op 4) 2 3) [0; 2];
        Block [IBinary Add 5 (Op 3) (Lit (LInt 1))] (TJump 1) [1];
        Block [] (TReturn [Op 1]) [1]]
       0 [0] [6] 7 (fun v => Some (if Nat.eqb v 4 then TBool else TFelt)).
Definition swap_orders : orders :=
  Orders [0; 2] (fun p => match p with 2 => [1; 2] | _ => [] end) (fun p => match p with 0 | 2 => [1; 2; 3] | _ => [] end).
Theorem C38_swap_function_refuted : exists f o g, ssa f /\ phis_first f /\ phi_preds f /\ branches_forward f /\ valid_orders o f /\
  phi_elim o f = Some g /\
  call_fn nothing f 9 [VFelt 1] 0 = ROk ([VFelt 2], 0) /\ call_fn nothing g 9 [VFelt 1] 0 = ROk ([VFelt 1], 0).
Proof.
  exists swap_loop, swap_orders. eexists.
  assert (Hc : forall p, phi_copies swap_loop p = match p with
     | 0 => [(1, Lit (LInt 1), TFelt); (2, Lit (LInt 2), TFelt); (3, Lit (LInt 0), TFelt)]
     | 2 => [(1, Op 2, TFelt); (2, Op 1, TFelt); (3, Op 5, TFelt)] | _ => [] end)
    by (intros [|[|[|p]]]; reflexivity).
  split; [apply (ssa_cert_sound (fun b => match b with 0 => [0] | 1 => [0] | _ => [0; 1; 2; 3; 4] end)); reflexivity|].
  assert (Hphi : forall b blk d t ss, nth_error (f_blocks swap_loop) b = Some blk -> In (IPhi d t ss) (b_instrs blk) ->
     b = 1 /\ exists x y, ss = [(0, x); (2, y)]).
  { intros b blk d t ss Hb Hi. destruct b as [|[|[|[|b]]]]; cbn in Hb; try (destruct b; discriminate); injection Hb as <-; cbn in Hi.
    - destruct Hi.
    - split; [reflexivity|]. destruct Hi as [Hi|[Hi|[Hi|[Hi|[]]]]]; try discriminate; injection Hi as <- <- <-; eauto.
    - destruct Hi as [Hi|[]]; discriminate.
    - destruct Hi. }
  split; [|split; [|split; [|split; [|split; [reflexivity|split; reflexivity]]]]].
  - intros b Hb. cbn in Hb. destruct Hb as [<-|[<-|[<-|[<-|[]]]]]; reflexivity.
  - intros b blk d t ss Hb Hi. destruct (Hphi b blk d t ss Hb Hi) as (-> & x & y & ->). split.
    + cbn. constructor; [intros [E|[]]; discriminate|]. constructor; [intros []|constructor].
    + intros p v [E|[E|[]]]; injection E as <- <-; eexists; (split; [reflexivity|]); cbn; auto.
  - intros b blk d t ss p v pblk Hb Hi Hs Hp Hl. destruct (Hphi b blk d t ss Hb Hi) as (-> & x & y & ->).
    destruct Hs as [E|[E|[]]]; injection E as <- <-; injection Hp as <-; cbn in Hl; lia.
  - split.
    + split; [constructor; [intros [E|[]]; discriminate|]; constructor; [intros []|constructor]|].
      intro p. rewrite (phi_copies_split swap_loop _ p (split_all_splits swap_loop)), Hc.
      destruct p as [|[|[|p]]]; cbn; [intuition discriminate..|]. split; [intros [E|[E|[]]]; discriminate | congruence].
    + intro p. rewrite (phi_copies_split swap_loop _ p (split_all_splits swap_loop)), Hc.
      split; split.
      * destruct p as [|[|[|p]]]; cbn; try constructor; [intros [E|[]]; discriminate|]. constructor; [intros []|constructor].
      * intro d. destruct p as [|[|[|p]]]; cbn; try (split; [intros [] | congruence]).
        destruct d as [|[|[|[|d]]]]; cbn; intuition (try discriminate; try congruence).
      * destruct p as [|[|[|p]]]; cbn; repeat (constructor; [cbn; intuition discriminate|]); constructor.
      * intro d. destruct p as [|[|[|p]]]; cbn; tauto.
Qed.
Print Assumptions C38_swap_function_refuted.

(** The hypotheses are met by a loop whose copies depend on each other and which contains
    an [if] without [else], that is, an edge that gets split:
    [a, b, i = 0, 1, 0; while i != n { s = a + b; if s == 5 { s = s * 2 } a, b, i = b, s, i + 1 } return a]. *)
Definition fib_loop : func :=
  Func [Block [] (TJump 1) [];
        Block [IPhi 1 TFelt [(0, Lit (LInt 0)); (4, Op 2)]; IPhi 2 TFelt [(0, Lit (LInt 1)); (4, Op 8)];
               IPhi 3 TFelt [(0, Lit (LInt 0)); (4, Op 6)]; IBinary Neq 4 (Op 3) (Op 0)] (TIf (Op 4) 2 5) [0; 4];
        Block [IBinary Add 5 (Op 1) (Op 2); IBinary Eq 7 (Op 5) (Lit (LInt 5))] (TIf (Op 7) 3 4) [1];
        Block [IBinary Mul 9 (Op 5) (Lit (LInt 2))] (TJump 4) [2];
        Block [IPhi 8 TFelt [(2, Op 5); (3, Op 9)]; IBinary Add 6 (Op 3) (Lit (LInt 1))] (TJump 1) [2; 3];
        Block [] (TReturn [Op 1]) [1]]
       0 [0] [10] 11 (fun v => Some (match v with 4 | 7 => TBool | _ => TFelt end)).
Definition fib_orders : orders :=
  Orders [4; 0; 3; 2] (fun p => match p with 4 => [1] | _ => [] end)
         (fun p => match p with 0 => [2; 3; 1] | 4 => [3; 2; 1] | 2 | 3 => [8] | _ => [] end).
Lemma wfb_mod : forall z, wfb (z mod P) = true.
Proof. intro z. unfold wfb. assert (0 < P)%Z by reflexivity. assert (K := Z.mod_pos_bound z P H). apply andb_true_iff.
  split; [apply Z.leb_le | apply Z.ltb_lt]; lia. Qed.
Lemma fib_step2 : forall S (W : world S) args s0 k e s, reached W fib_loop args s0 2 (Datatypes.S k) e s ->
  exists i e0 s1, nth_error (nth 2 (map b_instrs (f_blocks fib_loop)) []) k = Some i /\ reached W fib_loop args s0 2 k e0 s1 /\
    exec W (f_types fib_loop) e0 s1 i = ROk (e, s).
Proof.
  intros S W args s0 k e s H. remember 2 as b eqn:Eb. remember (Datatypes.S k) as k' eqn:Ek. destruct H as [blk e0 e1 H1 H2 H3|b k0 blk i e0 s1 e1 s2 H1 H2 H3 H4|b b' blk blk' e0 s1 e1 H1 H2 H3 H4 H5].
  - discriminate.
  - subst b. injection Ek as ->. injection H2 as <-. exists i, e0, s1. auto.
  - subst b'. injection H3 as <-. discriminate.
Qed.
Example C38_ex : exists g, phi_elim fib_orders fib_loop = Some g /\
  (forall S (W : world S) fuel args s r, call_fn W fib_loop fuel args s = ROk r ->
     exists fuel', call_fn W g fuel' args s = ROk r) /\
  length (f_blocks g) = 7 /\
  call_fn nothing fib_loop 30 [VFelt 5] 0 = ROk ([VFelt 10], 0) /\ call_fn nothing g 30 [VFelt 5] 0 = ROk ([VFelt 10], 0).
Proof.
  assert (Hc : forall p, phi_copies fib_loop p = match p with
     | 0 => [(1, Lit (LInt 0), TFelt); (2, Lit (LInt 1), TFelt); (3, Lit (LInt 0), TFelt)]
     | 2 => [(8, Op 5, TFelt)] | 3 => [(8, Op 9, TFelt)]
     | 4 => [(1, Op 2, TFelt); (2, Op 8, TFelt); (3, Op 6, TFelt)] | _ => [] end)
    by (intros [|[|[|[|[|p]]]]]; reflexivity).
  assert (Hphi : forall b blk d t ss, nth_error (f_blocks fib_loop) b = Some blk -> In (IPhi d t ss) (b_instrs blk) ->
     (b = 1 /\ exists x y, ss = [(0, x); (4, y)]) \/ (b = 4 /\ exists x y, ss = [(2, x); (3, y)])).
  { intros b blk d t ss Hb Hi. destruct b as [|[|[|[|[|[|b]]]]]]; cbn in Hb; try (destruct b; discriminate); injection Hb as <-; cbn in Hi.
    - destruct Hi.
    - left. split; [reflexivity|]. destruct Hi as [Hi|[Hi|[Hi|[Hi|[]]]]]; try discriminate; injection Hi as <- <- <-; eauto.
    - destruct Hi as [Hi|[Hi|[]]]; discriminate.
    - destruct Hi as [Hi|[]]; discriminate.
    - right. split; [reflexivity|]. destruct Hi as [Hi|[Hi|[]]]; try discriminate; injection Hi as <- <- <-; eauto.
    - destruct Hi. }
  destruct (C38_function_partial fib_loop fib_orders) as (g & Hg & K).
  - apply (ssa_cert_sound (fun b => match b with 0 => [0] | 1 => [0] | 2 => [0; 1; 2; 3; 4] | 5 => [0; 1; 2; 3; 4] | 3 => [0; 1; 2; 3; 4; 5; 7] | _ => [0; 1; 2; 3; 4; 5; 7] end)). reflexivity.
  - intros b Hb. cbn in Hb. destruct Hb as [<-|[<-|[<-|[<-|[<-|[<-|[]]]]]]]; reflexivity.
  - intros b blk d t ss Hb Hi. destruct (Hphi b blk d t ss Hb Hi) as [(-> & x & y & ->)|(-> & x & y & ->)]; split.
    + cbn. constructor; [intros [E|[]]; discriminate|]. constructor; [intros []|constructor].
    + intros p v [E|[E|[]]]; injection E as <- <-; eexists; (split; [reflexivity|]); cbn; auto.
    + cbn. constructor; [intros [E|[]]; discriminate|]. constructor; [intros []|constructor].
    + intros p v [E|[E|[]]]; injection E as <- <-; eexists; (split; [reflexivity|]); cbn; auto.
  - intro p. rewrite Hc. left. destruct p as [|[|[|[|[|p]]]]].
    + split; [exists (fun x => x)|]; intros c s [<-|[<-|[<-|[]]]] ; try discriminate; intros _ E; discriminate.
    + split; [exists (fun x => x); intros c s [] | intros c c' []].
    + split; [exists (fun x => x)|].
      * intros c s [<-|[]] E [<-|[]]. discriminate.
      * intros c c' [<-|[]] [<-|[]] E. discriminate.
    + split; [exists (fun x => x)|].
      * intros c s [<-|[]] E [<-|[]]. discriminate.
      * intros c c' [<-|[]] [<-|[]] E. discriminate.
    + split; [exists (fun x => x)|].
      * intros c s [<-|[<-|[<-|[]]]] E H; cbn in E, H; injection E as <-; cbn; intuition lia.
      * intros c c' _ [<-|[<-|[<-|[]]]] E; eexists; reflexivity.
    + split; [exists (fun x => x); intros c s [] | intros c c' []].
  - intros b blk d t ss p v pblk Hb Hi Hs Hp Hl Hreach Hdom. 
    destruct (Hphi b blk d t ss Hb Hi) as [(-> & x & y & ->)|(-> & x & y & ->)];
      destruct Hs as [E|[E|[]]]; injection E as <- <-; injection Hp as <-; cbn in Hl; try lia.
    assert (Hw : walk fib_loop [2; 1; 0]).
    { apply (w_step fib_loop 1 2 [0] _ (w_step fib_loop 0 1 [] _ (w_entry fib_loop) eq_refl (or_introl eq_refl)) eq_refl). cbn. auto. }
    specialize (Hdom [1; 0] Hw). destruct Hdom as [E|[E|[E|[]]]]; discriminate.
  - split.
    + split; [cbn; repeat (constructor; [cbn; intuition discriminate|]); constructor|].
      intro p. rewrite (phi_copies_split fib_loop _ p (split_all_splits fib_loop)), Hc.
      destruct p as [|[|[|[|[|p]]]]]; cbn; [intuition discriminate..|].
      split; [intros [E|[E|[E|[E|[]]]]]; discriminate | congruence].
    + intro p. rewrite (phi_copies_split fib_loop _ p (split_all_splits fib_loop)), Hc.
      split; split.
      * destruct p as [|[|[|[|[|p]]]]]; cbn; repeat (constructor; [cbn; intuition discriminate|]); constructor.
      * intro d. destruct p as [|[|[|[|[|p]]]]]; cbn; try (split; [intros [] | congruence]).
        -- rewrite andb_false_r. cbn. split; [intros [] | congruence].
        -- rewrite andb_false_r. cbn. split; [intros [] | congruence].
        -- destruct d as [|[|[|[|d]]]]; cbn; intuition (try discriminate; try congruence).
      * destruct p as [|[|[|[|[|p]]]]]; cbn; repeat (constructor; [cbn; intuition discriminate|]); constructor.
      * intro d. destruct p as [|[|[|[|[|p]]]]]; cbn; tauto.
  - exists g. split; [exact Hg|]. split; [|vm_compute in Hg; injection Hg as <-; split; [reflexivity | split; reflexivity]].
    intros S W fuel args s r Hr. apply (K S W fuel args s (ROk r)); [|right; eauto | exact Hr].
    intros p pblk e s1 Hp Hl HR c Hin. rewrite Hc in Hin.
    destruct p as [|[|[|[|[|p]]]]]; cbn in Hp; try (injection Hp as <-; cbn in Hl; lia); try (destruct Hin; fail).
    injection Hp as <-. destruct Hin as [<-|[]]. cbn [b_instrs length] in HR.
    assert (H5 : exists z, e 5 = Some (VFelt (z mod P)%Z)).
    { destruct (fib_step2 _ _ _ _ _ _ _ HR) as (i & e0 & s0 & Hi1 & HR1 & Hx1). cbn in Hi1. injection Hi1 as <-.
      assert (H5 : exists z, e0 5 = Some (VFelt (z mod P)%Z)).
      { destruct (fib_step2 _ _ _ _ _ _ _ HR1) as (i2 & e2 & s2 & Hi2 & _ & Hx2). cbn in Hi2. injection Hi2 as <-.
        unfold exec in Hx2. cbn [effect] in Hx2. apply rbind_ok in Hx2. destruct Hx2 as ([vs s3] & Hx2 & Hy2). apply rbind_ok in Hx2.
        destruct Hx2 as (w & Hw & Hx2). injection Hx2 as <- <-. cbn in Hy2. injection Hy2 as <- _. cbn [upd Nat.eqb].
        unfold eval_bin in Hw. apply rbind_ok in Hw. destruct Hw as (x & _ & Hw). apply rbind_ok in Hw. destruct Hw as (y & _ & Hw).
        destruct x; try discriminate; destruct y; try discriminate. cbn [sem_bin] in Hw. injection Hw as <-. eexists. reflexivity. }
      unfold exec in Hx1. apply rbind_ok in Hx1. destruct Hx1 as ([vs s3] & _ & Hx1). apply rbind_ok in Hx1. destruct Hx1 as (e2 & He2 & Hx1).
      injection Hx1 as <- _. destruct (bind_all e0 (Mir.dests (IBinary Eq 7 (Op 5) (Lit (LInt 5)))) (fst (vs, s3))) as [e3|] eqn:Eb; [|discriminate].
      injection He2 as <-. rewrite (bind_all_get _ _ _ _ Eb 5) by (cbn; intuition discriminate). exact H5. }
    destruct H5 as (z & H5). cbn [c_ty c_src fst snd eval_as]. rewrite H5. cbn [shape]. rewrite wfb_mod. discriminate.
Qed.
