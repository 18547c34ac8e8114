(** Sequencing of parallel copies: when the copies can be ordered, the emitted sequence
    has the effect of the simultaneous assignment. *)
From Coq Require Import ZArith Bool String List Permutation Arith Lia.
From Verif Require Import M31 Isa Mir MirSem MirSim MirSsa MirSsaFacts MirPhi.
Import ListNotations.
Open Scope nat_scope.

(** Specification: all sources are read, then all destinations are written. *)
Definition parallel (e : env) (cs : list copy) : option env :=
  match omap (fun c => eval_as e (c_ty c) (c_src c)) cs with
  | Some vs => bind_all e (map c_dest cs) vs
  | None => None
  end.
(** Every copy can be performed before its source is overwritten. *)
Definition orderable (cs : list copy) : Prop :=
  exists rank : nat -> nat, forall c s, In c cs -> c_src c = Op s -> In s (map c_dest cs) -> rank (c_dest c) < rank s.
(** No copy reads the destination of a copy of a literal. *)
Definition lits_unread (cs : list copy) : Prop :=
  forall c c', In c cs -> In c' cs -> c_src c = Op (c_dest c') -> exists s, c_src c' = Op s.
(** No copy reads what an earlier one in the list wrote. *)
Definition in_order (cs : list copy) : Prop :=
  forall l1 c l2 s, cs = l1 ++ c :: l2 -> c_src c = Op s -> ~ In s (map c_dest l1).
(** Either there is an order, or the copies are in order already and some value is copied
    to itself.  (A value copied to itself makes the pass give up on sorting.) *)
Definition sequencable (cs : list copy) : Prop :=
  (orderable cs /\ lits_unread cs) \/
  (in_order cs /\ exists c, In c cs /\ c_src c = Op (c_dest c)).

(** ** Kahn's algorithm on a graph with at most one successor. *)
Section Kahn.
  Variables (g : nat -> list nat) (ds : list nat) (rank : nat -> nat).
  Hypothesis Hg1 : forall d, g d = [] \/ exists s, g d = [s].
  Hypothesis Hr : forall d s, In s (g d) -> In d ds -> In s ds -> d = s \/ rank d < rank s.

  Definition readers (U : list nat) (x : nat) : nat := length (filter (fun d => mem_nat x (g d)) U).

  Lemma min_rank : forall U : list nat, U <> [] -> exists x, In x U /\ forall y, In y U -> rank x <= rank y.
  Proof.
    induction U as [|a U IH]; intro HU; [congruence|].
    destruct U as [|b U].
    - exists a. split; [now left|]. intros y [<-|[]]. lia.
    - destruct IH as (x & Hx & Hm); [congruence|].
      destruct (Nat.le_gt_cases (rank a) (rank x)) as [L|L].
      + exists a. split; [now left|]. intros y [<-|Hy]; [lia|]. specialize (Hm y Hy). lia.
      + exists x. split; [now right|]. intros y [<-|Hy]; [lia|]. apply Hm, Hy.
  Qed.
  Lemma readers_pos : forall U x, readers U x <> 0 -> exists d, In d U /\ In x (g d).
  Proof.
    intros U x H. unfold readers in H. destruct (filter _ U) as [|d r] eqn:E; [now elim H|].
    assert (K : In d (filter (fun d => mem_nat x (g d)) U)) by (rewrite E; now left).
    apply filter_In in K. destruct K as [K1 K2]. exists d. split; [exact K1|]. now apply mem_nat_iff.
  Qed.
  Lemma readers_zero : forall U x d, readers U x = 0 -> In d U -> ~ In x (g d).
  Proof.
    intros U x d H Hd Hx. unfold readers in H.
    assert (K : In d (filter (fun d => mem_nat x (g d)) U)).
    { apply filter_In. split; [exact Hd|]. now apply mem_nat_iff. }
    destruct (filter _ U); [destruct K | discriminate].
  Qed.

  Definition drop (n : nat) (U : list nat) : list nat := filter (fun x => negb (Nat.eqb x n)) U.
  Lemma drop_in : forall n U x, In x (drop n U) <-> In x U /\ x <> n.
  Proof.
    intros. unfold drop. rewrite filter_In. split; intros [A B]; split; try exact A.
    - apply negb_true_iff, Nat.eqb_neq in B. exact B.
    - apply negb_true_iff, Nat.eqb_neq. exact B.
  Qed.
  Lemma drop_id : forall n U, ~ In n U -> drop n U = U.
  Proof.
    induction U as [|a U IH]; intro H; [reflexivity|]. cbn. destruct (Nat.eqb_spec a n) as [->|N].
    - elim H. now left.
    - cbn. f_equal. apply IH. intro K. apply H. now right.
  Qed.
  Lemma drop_perm : forall n U, NoDup U -> In n U -> Permutation U (n :: drop n U).
  Proof.
    induction U as [|a U IH]; intros HN HI; [destruct HI|]. inversion HN as [|? ? Ha HN']; subst. cbn.
    destruct (Nat.eqb_spec a n) as [->|N].
    - cbn. fold (drop n U). now rewrite drop_id.
    - cbn. fold (drop n U). destruct HI as [->|HI]; [congruence|].
      etransitivity; [apply perm_skip, IH; assumption | apply perm_swap].
  Qed.
  Lemma readers_drop : forall n U x, NoDup U -> In n U ->
    readers U x = (if mem_nat x (g n) then 1 else 0) + readers (drop n U) x.
  Proof.
    intros n U x HN HI. unfold readers.
    rewrite (Permutation_length (l' := filter (fun d => mem_nat x (g d)) (n :: drop n U))).
    - cbn. destruct (mem_nat x (g n)); reflexivity.
    - assert (K := drop_perm n U HN HI). clear HN HI.
      induction K; cbn.
      + constructor.
      + destruct (mem_nat x (g x0)); [now constructor | exact IHK].
      + destruct (mem_nat x (g x0)), (mem_nat x (g y)); try reflexivity. apply perm_swap.
      + now rewrite IHK1.
  Qed.

  Definition later_ok (l R : list nat) : Prop :=
    forall l1 x l2, l = l1 ++ x :: l2 -> forall d, In d ((x :: l2) ++ R) -> ~ In x (g d).

  Lemma kahn_spec : forall fuel U cnt queue,
    length U < fuel -> NoDup U -> incl U ds ->
    (forall x, In x U -> cnt x = readers U x) ->
    NoDup queue -> (forall x, In x queue <-> In x U /\ cnt x = 0) ->
    (forall d s, In d U -> In s (g d) -> In s ds -> In s U) ->
    exists l R, kahn fuel g ds cnt queue = Some l /\ Permutation U (l ++ R) /\ later_ok l R /\
      forall x, In x R -> readers R x <> 0.
  Proof.
    induction fuel as [|fuel IH]; intros U cnt queue Hf HN Hi Hc Hq Hqi Hcl; [lia|].
    cbn [kahn]. destruct queue as [|n q].
    - exists [], U. split; [reflexivity|]. split; [reflexivity|]. split; [intros l1 x l2 E; destruct l1; discriminate|].
      intros x Hx Z. rewrite <- (Hc x Hx) in Z. destruct (proj2 (Hqi x) (conj Hx Z)).
    - destruct (proj1 (Hqi n) (or_introl eq_refl)) as [HnU Hn0].
      assert (Hnr : forall d, In d U -> ~ In n (g d)).
      { intros d Hd. apply (readers_zero U); [rewrite <- (Hc n HnU); exact Hn0 | exact Hd]. }
      inversion Hq as [|? ? Hnq Hq']; subst.
      assert (Hlen : length (drop n U) < fuel).
      { assert (K := Permutation_length (drop_perm n U HN HnU)). cbn in K. lia. }
      assert (HN' : NoDup (drop n U)) by (apply NoDup_filter; exact HN).
      assert (Hi' : incl (drop n U) ds). { intros x Hx. apply drop_in in Hx. now apply Hi. }
      assert (Hcl' : forall d s, In d (drop n U) -> In s (g d) -> In s ds -> In s (drop n U)).
      { intros d s Hd Hs Hsd. apply drop_in in Hd. destruct Hd as [Hd Hdn]. apply drop_in. split; [now apply (Hcl d)|].
        intros ->. exact (Hnr d Hd Hs). }
      assert (Hfin : forall cnt' q' l R, lower ds (g n) cnt q = (cnt', q') ->
                kahn fuel g ds cnt' q' = Some l -> Permutation (drop n U) (l ++ R) -> later_ok l R ->
                (forall x, In x R -> readers R x <> 0) ->
                exists l0 R0, (let (cnt'0, q'0) := lower ds (g n) cnt q in
                   match kahn fuel g ds cnt'0 q'0 with Some l0 => Some (n :: l0) | None => None end) = Some l0
                   /\ Permutation U (l0 ++ R0) /\ later_ok l0 R0 /\ forall x, In x R0 -> readers R0 x <> 0).
      { intros cnt' q' l R E1 E2 Pl Ol OR. exists (n :: l), R. rewrite E1, E2. split; [reflexivity|].
        assert (PU : Permutation U ((n :: l) ++ R)).
        { etransitivity; [exact (drop_perm n U HN HnU)|]. cbn. now constructor. }
        split; [exact PU|]. split; [|exact OR]. intros l1 x l2 E d Hd. destruct l1 as [|a l1]; cbn in E; injection E as E1' E2'.
        - subst x l2. apply Hnr. apply Permutation_sym in PU. exact (Permutation_in _ PU Hd).
        - exact (Ol l1 x l2 E2' d Hd). }
      destruct (Hg1 n) as [Eg | [s Eg]].
      + destruct (IH (drop n U) cnt q) as (l & R & E & Pl & Ol & OR); try assumption.
        * intros x Hx. apply drop_in in Hx. destruct Hx as [Hx Hxn]. rewrite (Hc x Hx).
          rewrite (readers_drop n U x HN HnU), Eg. reflexivity.
        * intro x. rewrite drop_in. split.
          -- intro Hx. destruct (proj1 (Hqi x) (or_intror Hx)) as [A B]. repeat split; try assumption. intros ->. contradiction.
          -- intros [[A N] B]. destruct (proj2 (Hqi x) (conj A B)) as [->|K]; [congruence | exact K].
        * apply (Hfin cnt q l R); try assumption. rewrite Eg. reflexivity.
      + destruct (mem_nat s ds) eqn:Es.
        * apply mem_nat_iff in Es.
          assert (HsU : In s U). { apply (Hcl n s); try assumption. rewrite Eg. now left. }
          assert (Hsn : s <> n). { intros ->. apply (Hnr n HnU). rewrite Eg. now left. }
          set (cnt' := fun x => if Nat.eqb x s then cnt s - 1 else cnt x).
          set (q' := if Nat.eqb (cnt s - 1) 0 then q ++ [s] else q).
          assert (Hpos : cnt s = 1 + readers (drop n U) s).
          { rewrite (Hc s HsU), (readers_drop n U s HN HnU), Eg. cbn. now rewrite Nat.eqb_refl. }
          assert (Hsq : ~ In s q). { intro K. destruct (proj1 (Hqi s) (or_intror K)) as [_ Z]. lia. }
          destruct (IH (drop n U) cnt' q') as (l & R & E & Pl & Ol & OR); try assumption.
          -- intros x Hx. apply drop_in in Hx. destruct Hx as [Hx Hxn]. unfold cnt'.
             destruct (Nat.eqb_spec x s) as [->|N]; [lia|]. rewrite (Hc x Hx), (readers_drop n U x HN HnU), Eg.
             cbn. destruct (Nat.eqb_spec x s); [congruence | reflexivity].
          -- unfold q'. destruct (Nat.eqb (cnt s - 1) 0); [|assumption].
             apply (Permutation_NoDup (l := s :: q)); [apply Permutation_cons_append | now constructor].
          -- intro x. rewrite drop_in. unfold q', cnt'. split.
             ++ intro Hx.
                assert (Hx' : In x q \/ (x = s /\ cnt s - 1 = 0)).
                { destruct (Nat.eqb_spec (cnt s - 1) 0); [|now left]. apply in_app_or in Hx.
                  destruct Hx as [Hx|[<-|[]]]; [now left | now right]. }
                destruct Hx' as [Hx'|[-> Z]].
                ** destruct (proj1 (Hqi x) (or_intror Hx')) as [A B]. destruct (Nat.eqb_spec x s) as [->|N]; [contradiction|].
                   repeat split; try assumption. intros ->. contradiction.
                ** rewrite Nat.eqb_refl. repeat split; assumption.
             ++ intros [[A N] B]. destruct (Nat.eqb_spec x s) as [->|Ns].
                ** rewrite B. cbn. apply in_or_app. right. now left.
                ** destruct (proj2 (Hqi x) (conj A B)) as [->|K]; [congruence|].
                   destruct (Nat.eqb (cnt s - 1) 0); [apply in_or_app; now left | exact K].
          -- apply (Hfin cnt' q' l R); try assumption. rewrite Eg. cbn [lower].
             assert (Em : mem_nat s ds = true) by now apply mem_nat_iff. rewrite Em. reflexivity.
        * destruct (IH (drop n U) cnt q) as (l & R & E & Pl & Ol & OR); try assumption.
          -- intros x Hx. apply drop_in in Hx. destruct Hx as [Hx Hxn]. rewrite (Hc x Hx).
             rewrite (readers_drop n U x HN HnU), Eg. cbn. destruct (Nat.eqb_spec x s) as [->|N]; [|reflexivity].
             exfalso. assert (K : mem_nat s ds = true) by (apply mem_nat_iff; now apply Hi). congruence.
          -- intro x. rewrite drop_in. split.
             ++ intro Hx. destruct (proj1 (Hqi x) (or_intror Hx)) as [A B]. repeat split; try assumption. intros ->. contradiction.
             ++ intros [[A N] B]. destruct (proj2 (Hqi x) (conj A B)) as [->|K]; [congruence | exact K].
          -- apply (Hfin cnt q l R); try assumption. rewrite Eg. cbn [lower]. rewrite Es. reflexivity.
  Qed.

  (** Everything is sorted unless a value is copied to itself. *)
  Lemma all_sorted : forall R, incl R ds -> (forall x, In x R -> readers R x <> 0) ->
    (forall x, In x R -> ~ In x (g x)) -> R = [].
  Proof.
    intros R Hi HR Hn. destruct R as [|a R0] eqn:EU; [reflexivity|]. rewrite <- EU in *. exfalso.
    destruct (min_rank R) as (x & Hx & Hm); [rewrite EU; congruence|].
    destruct (readers_pos R x (HR x Hx)) as (d & Hd & Hdx).
    destruct (Hr d x Hdx (Hi _ Hd) (Hi _ Hx)) as [->|L]; [exact (Hn x Hx Hdx)|]. specialize (Hm d Hd). lia.
  Qed.

  (** ** No cycle of more than one copy is reported. *)
  Definition trivial (cs : list (list nat)) : Prop := forall c, In c cs -> length c <= 1.
  Lemma suffix_last : forall path node, ~ In node path -> suffix_from node (path ++ [node]) = [node].
  Proof.
    induction path as [|a path IH]; intros node H; cbn.
    - now rewrite Nat.eqb_refl.
    - destruct (Nat.eqb_spec a node) as [->|N]; [elim H; now left|]. apply IH. intro K. apply H. now right.
  Qed.
  Lemma dfs_none : forall fuel path node vis cyc, trivial cyc ->
    NoDup path -> (forall x, In x path -> rank x < rank node) -> incl path ds -> In node ds ->
    length ds < fuel + length path ->
    (forall d s, In s (g d) -> In s ds) ->
    exists vis' cyc', dfs fuel g path node (vis, cyc) = Some (vis', cyc') /\ trivial cyc'.
  Proof.
    induction fuel as [|fuel IH]; intros path node vis cyc HT HN Hp Hi Hn Hf Hc.
    - exfalso. assert (K : length (node :: path) <= length ds).
      { apply NoDup_incl_length.
        - constructor; [|exact HN]. intro K. specialize (Hp node K). lia.
        - intros x [<-|Hx]; [exact Hn | now apply Hi]. }
      cbn in K, Hf. lia.
    - cbn [dfs fst snd].
      assert (HN' : NoDup (path ++ [node])).
      { apply (Permutation_NoDup (l := node :: path)); [apply Permutation_cons_append|]. constructor; [|exact HN].
        intro K. specialize (Hp node K). lia. }
      destruct (Hg1 node) as [Eg | [s Eg]]; rewrite Eg.
      + eexists _, _. split; [reflexivity | exact HT].
      + assert (Hs : In s (g node)) by (rewrite Eg; now left). cbn [fst snd].
        assert (Hnp : ~ In node path) by (intro K; specialize (Hp node K); lia).
        destruct (Hr node s Hs Hn (Hc _ _ Hs)) as [<-|Hlt].
        * assert (E1 : mem_nat node (node :: vis) = true) by (apply mem_nat_iff; now left).
          assert (E2 : mem_nat node (path ++ [node]) = true) by (apply mem_nat_iff, in_or_app; right; now left).
          rewrite E1, E2. cbn [negb]. eexists _, _. split; [reflexivity|]. intros c Hcin. apply in_app_or in Hcin.
          destruct Hcin as [Hcin|[<-|[]]]; [now apply HT|]. rewrite (suffix_last path node Hnp). cbn. lia.
        * assert (Hp' : forall x, In x (path ++ [node]) -> rank x < rank s).
          { intros x Hx. apply in_app_or in Hx. destruct Hx as [Hx|[<-|[]]]; [specialize (Hp x Hx); lia | exact Hlt]. }
          destruct (negb (mem_nat s (node :: vis))).
          -- destruct (IH (path ++ [node]) s (node :: vis) cyc) as (vis' & cyc' & E & T'); try assumption.
             ++ intros x Hx. apply in_app_or in Hx. destruct Hx as [Hx|[<-|[]]]; [now apply Hi | exact Hn].
             ++ exact (Hc _ _ Hs).
             ++ rewrite app_length. cbn. lia.
             ++ rewrite E. eexists _, _. split; [reflexivity | exact T'].
          -- destruct (mem_nat s (path ++ [node])) eqn:Em.
             ++ apply mem_nat_iff in Em. specialize (Hp' s Em). lia.
             ++ eexists _, _. split; [reflexivity | exact HT].
  Qed.
  Lemma find_cycles_none : forall fuel ks vis cyc, trivial cyc -> length ds < fuel -> (forall d s, In s (g d) -> In s ds) ->
    incl ks ds -> exists cyc', find_cycles fuel g ks (vis, cyc) = Some cyc' /\ trivial cyc'.
  Proof.
    induction ks as [|n ks IH]; intros vis cyc HT Hf Hc Hi; [exists cyc; split; [reflexivity | exact HT]|].
    assert (Hi' : incl ks ds) by (intros x Hx; apply Hi; now right).
    cbn [find_cycles fst]. destruct (mem_nat n vis); [now apply IH|].
    destruct (dfs_none fuel [] n vis cyc HT) as (vis' & cyc' & E & T').
    - constructor.
    - intros x [].
    - intros x [].
    - apply Hi. now left.
    - cbn. lia.
    - exact Hc.
    - rewrite E. now apply IH.
  Qed.
End Kahn.

(** ** The dependency graph of copies with distinct destinations. *)
Lemma deps_in : forall cs d s, In s (deps cs d) <->
  exists c, In c cs /\ c_dest c = d /\ c_src c = Op s /\ In s (op_dests cs).
Proof.
  intros cs d s. unfold deps. rewrite in_flat_map. split.
  - intros (c & Hc & H). destruct (c_src c) as [l|s'|] eqn:E; try (destruct H).
    destruct (Nat.eqb_spec (c_dest c) d) as [Hd|]; cbn in H; [|destruct H].
    destruct (mem_nat s' (op_dests cs)) eqn:M; [|destruct H]. destruct H as [<-|[]].
    exists c. apply mem_nat_iff in M. auto.
  - intros (c & Hc & Hd & E & M). exists c. split; [exact Hc|]. rewrite E, Hd, Nat.eqb_refl. cbn.
    apply mem_nat_iff in M. rewrite M. now left.
Qed.
Lemma op_dests_in : forall cs d, In d (op_dests cs) <-> exists c s, In c cs /\ c_dest c = d /\ c_src c = Op s.
Proof.
  intros. unfold op_dests. rewrite in_flat_map. split.
  - intros (c & Hc & H). destruct (c_src c) as [l|s|] eqn:E; try (destruct H; fail). destruct H as [<-|[]].
    exists c, s. auto.
  - intros (c & s & Hc & <- & E). exists c. rewrite E. split; [exact Hc | now left].
Qed.
Lemma op_dests_dests : forall cs d, In d (op_dests cs) -> In d (map c_dest cs).
Proof. intros cs d H. apply op_dests_in in H. destruct H as (c & s & Hc & <- & _). now apply in_map. Qed.
Lemma dest_uniq : forall cs c c', NoDup (map c_dest cs) -> In c cs -> In c' cs -> c_dest c = c_dest c' -> c = c'.
Proof.
  induction cs as [|a cs IH]; intros c c' HN Hc Hc' E; [destruct Hc|]. cbn in HN. inversion HN as [|? ? Ha HN']; subst.
  destruct Hc as [->|Hc], Hc' as [->|Hc']; try reflexivity.
  - elim Ha. rewrite E. now apply in_map.
  - elim Ha. rewrite <- E. now apply in_map.
  - now apply IH.
Qed.
Lemma deps_one : forall cs d, NoDup (map c_dest cs) -> deps cs d = [] \/ exists s, deps cs d = [s].
Proof.
  intros cs d HN.
  assert (K : forall m l, NoDup (map c_dest l) ->
     let r := flat_map (fun c => match c_src c with Op s => if Nat.eqb (c_dest c) d && mem_nat s m then [s] else [] | _ => [] end) l in
     (~ In d (map c_dest l) -> r = []) /\ (r = [] \/ exists s, r = [s])).
  { intro m. induction l as [|a l IH]; intro HL; cbn; [split; [reflexivity | now left]|].
    cbn in HL. inversion HL as [|? ? Ha HL']; subst. destruct (IH HL') as [I1 I2]. split.
    - intro N. assert (N1 : c_dest a <> d) by tauto. rewrite I1 by tauto. apply Nat.eqb_neq in N1. rewrite N1.
      destruct (c_src a); reflexivity.
    - destruct (Nat.eqb_spec (c_dest a) d) as [E|N].
      + rewrite I1 by (rewrite <- E; exact Ha). destruct (c_src a) as [l0|i|]; try (now left). destruct (true && mem_nat i m); [right; now exists i | now left].
      + cbn. destruct (c_src a); exact I2. }
  exact (proj2 (K (op_dests cs) cs HN)).
Qed.
Lemma degree_readers : forall g cs d, (forall x, g x = [] \/ exists s, g x = [s]) ->
  degree g cs d = readers g (map c_dest cs) d.
Proof.
  intros g cs d Hg. unfold degree, readers. induction cs as [|c cs IH]; [reflexivity|].
  cbn. rewrite filter_app, app_length, IH. destruct (Hg (c_dest c)) as [E|[s E]]; rewrite E; cbn; [reflexivity|].
  destruct (Nat.eqb d s); reflexivity.
Qed.
Lemma last_copy_in : forall cs c, NoDup (map c_dest cs) -> In c cs -> last_copy (c_dest c) cs = Some c.
Proof.
  induction cs as [|a cs IH]; intros c HN Hc; [destruct Hc|]. cbn in HN. inversion HN as [|? ? Ha HN']; subst. cbn.
  destruct Hc as [->|Hc].
  - assert (K : last_copy (c_dest c) cs = None).
    { clear - Ha. induction cs as [|b cs IH]; [reflexivity|]. cbn in *. rewrite IH by tauto.
      destruct (Nat.eqb_spec (c_dest b) (c_dest c)); [tauto | reflexivity]. }
    rewrite K, Nat.eqb_refl. reflexivity.
  - now rewrite IH.
Qed.
Lemma last_copies : forall cs l, NoDup (map c_dest cs) -> incl l (map c_dest cs) ->
  exists cs', flat_map (fun d => match last_copy d cs with Some c => [c] | None => [] end) l = cs' /\
    map c_dest cs' = l /\ incl cs' cs.
Proof.
  intros cs l HN. induction l as [|d l IH]; intro Hi; cbn.
  - exists []. split; [reflexivity|]. split; [reflexivity|]. intros x [].
  - destruct IH as (cs' & E & Ed & Hi'); [intros x Hx; apply Hi; now right|].
    assert (Hd : In d (map c_dest cs)) by (apply Hi; now left). apply in_map_iff in Hd. destruct Hd as (c & <- & Hc).
    rewrite (last_copy_in cs c HN Hc), E. exists (c :: cs'). split; [reflexivity|]. cbn. split; [now rewrite Ed|].
    intros x [<-|Hx]; [exact Hc | now apply Hi'].
Qed.

Lemma break_trivial : forall cycles cs next, trivial cycles -> break_cycles cycles cs next = ([], [], next).
Proof.
  induction cycles as [|c cycles IH]; intros cs next HT; [reflexivity|]. cbn [break_cycles].
  assert (E : (length c <=? 1) = true) by (apply Nat.leb_le, HT; now left). rewrite E. apply IH. intros x Hx. apply HT. now right.
Qed.
Lemma sequencable_rank : forall cs, NoDup (map c_dest cs) -> sequencable cs -> exists rank : nat -> nat, forall c s,
  In c cs -> c_src c = Op s -> In s (map c_dest cs) -> c_dest c = s \/ rank (c_dest c) < rank s.
Proof.
  intros cs HN [[[rank Hrank] _]|[Ho _]]; [exists rank; right; eauto|].
  assert (K : forall cs, NoDup (map c_dest cs) -> in_order cs -> exists rank : nat -> nat, 
     (forall c s, In c cs -> c_src c = Op s -> In s (map c_dest cs) -> c_dest c = s \/ rank (c_dest c) < rank s)).
  { clear. induction cs as [|a cs IH]; intros HN Ho; [exists (fun _ => 0); intros c s []|].
    cbn in HN. inversion HN as [|? ? Ha HN']; subst.
    destruct (IH HN') as (rank & Hrank).
    { intros l1 c l2 s E Es K. apply (Ho (a :: l1) c l2 s); [now rewrite E | exact Es | now right]. }
    exists (fun x => if Nat.eqb x (c_dest a) then 0 else S (rank x)). intros c s Hc Es Hs.
    assert (Hsa : s = c_dest a -> c = a).
    { intros ->. destruct Hc as [->|Hc]; [reflexivity|]. exfalso. apply in_split in Hc. destruct Hc as (l1 & l2 & ->).
      apply (Ho (a :: l1) c l2 (c_dest a)); [reflexivity | exact Es | now left]. }
    destruct (Nat.eqb_spec s (c_dest a)) as [->|N]; [left; now rewrite (Hsa eq_refl)|].
    destruct (Nat.eqb_spec (c_dest c) (c_dest a)) as [E|N']; [right; lia|].
    destruct Hc as [->|Hc]; [congruence|]. destruct Hs as [<-|Hs]; [congruence|].
    destruct (Hrank c s Hc Es Hs); [now left | right; lia]. }
  exact (K cs HN Ho).
Qed.

Lemma sequence_split : forall ks ts cs next (rank : nat -> nat), seq_orders ks ts cs -> NoDup (map c_dest cs) ->
  (forall c s, In c cs -> c_src c = Op s -> In s (map c_dest cs) -> c_dest c = s \/ rank (c_dest c) < rank s) ->
  1 < length cs ->
  exists l R cs', Permutation (map c_dest cs) (l ++ R) /\ later_ok (deps cs) l R /\
    (forall x, In x R -> readers (deps cs) R x <> 0) /\ map c_dest cs' = l /\ incl cs' cs /\
    sequence ks ts cs next = Some (map c_instr (if Nat.eqb (length cs') (length cs) then cs' else cs), next).
Proof.
  intros ks ts cs next rank [[HK HKi] [HT HTi]] HN Hrank Hlen.
  assert (Hg1 := fun d => deps_one cs d HN).
  assert (Hr : forall d s, In s (deps cs d) -> In d (map c_dest cs) -> In s (map c_dest cs) -> d = s \/ rank d < rank s).
  { intros d s H _ Hs. apply deps_in in H. destruct H as (c & Hc & <- & E & _). now apply (Hrank c s). }
  assert (Hc : forall d s, In s (deps cs d) -> In s (map c_dest cs)).
  { intros d s H. apply deps_in in H. destruct H as (c & _ & _ & _ & H). now apply op_dests_dests. }
  assert (Hks : incl ks (map c_dest cs)).
  { intros d Hd. apply HKi in Hd. destruct (deps cs d) as [|s r] eqn:E; [congruence|].
    assert (K : In s (deps cs d)) by (rewrite E; now left). apply deps_in in K. destruct K as (c & Hcc & <- & _). now apply in_map. }
  destruct (find_cycles_none (deps cs) (map c_dest cs) rank Hg1 Hr (S (length cs)) ks [] []) as (cyc & Ef & Et).
  { intros c []. } { rewrite map_length; lia. } { exact Hc. } { exact Hks. }
  destruct (kahn_spec (deps cs) (map c_dest cs) rank Hg1 Hr (S (length cs)) (map c_dest cs) (degree (deps cs) cs)
             (filter (fun d => mem_nat d (map c_dest cs) && Nat.eqb (degree (deps cs) cs d) 0) ts)) as (l & R & El & Pl & Ol & OR).
  - rewrite map_length. lia.
  - exact HN.
  - apply incl_refl.
  - intros x _. now apply degree_readers.
  - apply NoDup_filter, HT.
  - intro x. rewrite filter_In, andb_true_iff, mem_nat_iff, Nat.eqb_eq, HTi. tauto.
  - intros d s Hd Hs _. exact (Hc d s Hs).
  - destruct (last_copies cs l HN) as (cs' & E1 & E2 & E3).
    { intros x Hx. apply (Permutation_in _ (Permutation_sym Pl)), in_or_app. now left. }
    exists l, R, cs'. split; [exact Pl|]. split; [exact Ol|]. split; [exact OR|]. split; [exact E2|]. split; [exact E3|].
    unfold sequence. destruct cs as [|c0 [|c1 cs0]]; [cbn in Hlen; lia | cbn in Hlen; lia|].
    remember (c0 :: c1 :: cs0) as cs eqn:Ecs. rewrite Ef, (break_trivial _ _ _ Et).
    assert (Erest : filter (fun c => negb (mem_nat (c_dest c) [])) cs = cs).
    { clear. induction cs as [|c cs IH]; [reflexivity|]. cbn. now f_equal. }
    rewrite Erest. unfold topo_sort. rewrite El, E1. reflexivity.
Qed.
(** A value copied to itself is never sorted: the copies stay as they are. *)
Theorem sequence_gives_up : forall ks ts cs next (rank : nat -> nat), seq_orders ks ts cs -> NoDup (map c_dest cs) ->
  (forall c s, In c cs -> c_src c = Op s -> In s (map c_dest cs) -> c_dest c = s \/ rank (c_dest c) < rank s) ->
  (exists c, In c cs /\ c_src c = Op (c_dest c)) ->
  sequence ks ts cs next = Some (map c_instr cs, next).
Proof.
  intros ks ts cs next rank HO HN Hrank (c & Hcin & Es).
  destruct (Nat.le_gt_cases (length cs) 1) as [L|L].
  { destruct cs as [|c0 [|c1 cs0]]; [reflexivity | reflexivity | cbn in L; lia]. }
  destruct (sequence_split ks ts cs next rank HO HN Hrank L) as (l & R & cs' & Pl & Ol & OR & E2 & E3 & E).
  assert (Elen : length (map c_dest cs) = length cs' + length R).
  { rewrite (Permutation_length Pl), app_length, <- E2, map_length. reflexivity. }
  rewrite map_length in Elen.
  assert (HR : In (c_dest c) R).
  { assert (K : In (c_dest c) (l ++ R)) by (apply (Permutation_in _ Pl); now apply in_map). apply in_app_or in K.
    destruct K as [K|K]; [|exact K]. exfalso. apply in_split in K. destruct K as (l1 & l2 & El12).
    apply (Ol l1 (c_dest c) l2 El12 (c_dest c)); [now left|]. apply deps_in. exists c. split; [exact Hcin|].
    split; [reflexivity|]. split; [exact Es|]. apply op_dests_in. now exists c, (c_dest c). }
  rewrite E. destruct R; [destruct HR|]. cbn in Elen. destruct (Nat.eqb_spec (length cs') (length cs)); [lia | reflexivity].
Qed.
Theorem sequence_order : forall ks ts cs next, seq_orders ks ts cs -> NoDup (map c_dest cs) -> sequencable cs ->
  exists cs', sequence ks ts cs next = Some (map c_instr cs', next) /\ Permutation cs cs' /\ in_order cs'.
Proof.
  intros ks ts cs next HO HN HS. destruct (sequencable_rank cs HN HS) as (rank & Hrank).
  destruct HS as [[[rk Hrk] HL]|[Ho Hself]].
  2:{ exists cs. split; [exact (sequence_gives_up ks ts cs next rank HO HN Hrank Hself)|]. split; [reflexivity | exact Ho]. }
  destruct (Nat.le_gt_cases (length cs) 1) as [L|L].
  { exists cs. split; [destruct cs as [|c0 [|c1 cs0]]; [reflexivity | reflexivity | cbn in L; lia]|]. split; [reflexivity|].
    intros l1 c l2 s E _. destruct l1 as [|a l1]; [intros []|]. rewrite E in L. cbn in L. rewrite app_length in L. cbn in L. lia. }
  destruct (sequence_split ks ts cs next rank HO HN Hrank L) as (l & R & cs' & Pl & Ol & OR & E2 & E3 & E).
  assert (Elen : length (map c_dest cs) = length cs' + length R).
  { rewrite (Permutation_length Pl), app_length, <- E2, map_length. reflexivity. }
  rewrite map_length in Elen.
  assert (ER : R = []).
  { apply (all_sorted (deps cs) (map c_dest cs) rk (fun d => deps_one cs d HN)); [| |exact OR|].
    - intros d s H _ Hs. apply deps_in in H. destruct H as (c & Hc & <- & Es & _). right. now apply (Hrk c s).
    - intros x Hx. apply (Permutation_in _ (Permutation_sym Pl)), in_or_app. now right.
    - intros x _ K. apply deps_in in K. destruct K as (c & Hcc & Hd & Es & Hin). apply op_dests_dests in Hin.
      specialize (Hrk c x Hcc Es Hin). rewrite Hd in Hrk. lia. }
  subst R. rewrite app_nil_r in Pl. cbn in Elen. rewrite Nat.add_0_r in Elen.
  assert (HN' : NoDup (map c_dest cs')) by (rewrite E2; exact (Permutation_NoDup Pl HN)).
  assert (Pc : Permutation cs cs').
  { apply NoDup_Permutation.
    - exact (NoDup_map_inv _ _ HN).
    - exact (NoDup_map_inv _ _ HN').
    - intro c. split; [|apply E3]. intro Hcin.
      assert (Kd : In (c_dest c) (map c_dest cs')).
      { rewrite E2. apply (Permutation_in _ Pl). now apply in_map. }
      apply in_map_iff in Kd. destruct Kd as (c' & Ed & Hc'). assert (c' = c) by (apply (dest_uniq cs); auto). now subst. }
  exists cs'. split; [|split; [exact Pc|]].
  - rewrite E, <- Elen, Nat.eqb_refl. reflexivity.
  - intros l1 c l2 s Ecs' Es Hs. apply in_map_iff in Hs. destruct Hs as (c' & Ed & Hc').
    apply in_split in Hc'. destruct Hc' as (m1 & m2 & Em).
    assert (Hcin : In c cs). { apply E3. rewrite Ecs'. apply in_or_app. right. now left. }
    assert (Hc'in : In c' cs). { apply E3. rewrite Ecs', Em, <- app_assoc. apply in_or_app. right. now left. }
    apply (Ol (map c_dest m1) s (map c_dest (m2 ++ c :: l2))) with (d := c_dest c).
    + rewrite <- E2, Ecs', Em, <- app_assoc, map_app. cbn [app map]. rewrite Ed. reflexivity.
    + right. rewrite app_nil_r, map_app. apply in_or_app. right. now left.
    + apply deps_in. exists c. split; [exact Hcin|]. split; [reflexivity|]. split; [exact Es|].
      subst s. destruct (HL c c' Hcin Hc'in Es) as (s' & Es'). apply op_dests_in. now exists c', s'.
Qed.

(** ** Effect. *)
Lemma bind_all_at : forall ds e vs e1, NoDup ds -> bind_all e ds vs = Some e1 ->
  (forall k d, nth_error ds k = Some d -> e1 d = nth_error vs k) /\ (forall x, ~ In x ds -> e1 x = e x).
Proof.
  induction ds as [|d ds IH]; intros e vs e1 HN H; destruct vs as [|v vs]; cbn in H; try discriminate.
  - injection H as <-. split; [intros [|k] d E; discriminate | reflexivity].
  - inversion HN as [|? ? Hd HN']; subst. destruct (IH _ _ _ HN' H) as [I1 I2]. split.
    + intros [|k] d' E; cbn in E.
      * injection E as <-. rewrite I2 by exact Hd. unfold upd. now rewrite Nat.eqb_refl.
      * now apply I1.
    + intros x Hx. rewrite I2 by (intro K; apply Hx; now right). unfold upd. destruct (Nat.eqb_spec x d); [|reflexivity].
      elim Hx. now left.
Qed.
Lemma omap_nth : forall A B (f : A -> option B) l r, omap f l = Some r ->
  forall k a, nth_error l k = Some a -> exists b, f a = Some b /\ nth_error r k = Some b.
Proof.
  induction l as [|x l IH]; intros r H k a E; [destruct k; discriminate|]. cbn in H.
  destruct (f x) eqn:Ex; [|discriminate]. destruct (omap f l) eqn:El; [|discriminate]. injection H as <-.
  destruct k; cbn in *; [injection E as <-; eauto | exact (IH _ eq_refl _ _ E)].
Qed.
Lemma parallel_at : forall e cs e1, NoDup (map c_dest cs) -> parallel e cs = Some e1 ->
  (forall c, In c cs -> e1 (c_dest c) = eval_as e (c_ty c) (c_src c) /\ eval_as e (c_ty c) (c_src c) <> None) /\
  (forall x, ~ In x (map c_dest cs) -> e1 x = e x).
Proof.
  intros e cs e1 HN H. unfold parallel in H. destruct (omap _ cs) as [vs|] eqn:E; [|discriminate].
  destruct (bind_all_at _ _ _ _ HN H) as [I1 I2]. split; [|exact I2].
  intros c Hc. apply In_nth_error in Hc. destruct Hc as (k & Hk).
  destruct (omap_nth _ _ _ _ _ E k c Hk) as (b & Eb & Hb). cbv beta in Eb.
  rewrite (I1 k (c_dest c)), Hb, Eb; [split; [reflexivity | discriminate] | exact (map_nth_error c_dest k cs Hk)].
Qed.
Lemma eval_as_ext : forall e e' t v, (forall i, v = Op i -> e' i = e i) -> eval_as e' t v = eval_as e t v.
Proof. intros e e' t [l|i|] H; try reflexivity. cbn. now rewrite H. Qed.

(** Copies performed one after the other, none reading what an earlier one wrote. *)
Lemma exec_copies : forall S (W : world S) tys s cs e0 e,
  NoDup (map c_dest cs) ->
  (forall l1 c l2 i, cs = l1 ++ c :: l2 -> c_src c = Op i -> ~ In i (map c_dest l1)) ->
  (forall c, In c cs -> eval_as e0 (c_ty c) (c_src c) <> None) ->
  (forall c i, In c cs -> c_src c = Op i -> e i = e0 i) ->
  exists e2, exec_list W tys e s (map c_instr cs) = ROk (e2, s) /\
    (forall c, In c cs -> e2 (c_dest c) = eval_as e0 (c_ty c) (c_src c)) /\
    (forall x, ~ In x (map c_dest cs) -> e2 x = e x).
Proof.
  intros S W tys s. induction cs as [|c cs IH]; intros e0 e HN Ho Hd He.
  - exists e. split; [reflexivity|]. split; [intros c []|reflexivity].
  - cbn in HN. inversion HN as [|? ? Hc HN']; subst.
    assert (Ev : eval_as e (c_ty c) (c_src c) = eval_as e0 (c_ty c) (c_src c)).
    { apply eval_as_ext. intros i Ei. apply (He c i); [now left | exact Ei]. }
    destruct (eval_as e0 (c_ty c) (c_src c)) as [x|] eqn:Ex; [|elim (Hd c); [now left | exact Ex]].
    destruct (IH e0 (upd e (c_dest c) x)) as (e2 & E2 & A & B).
    + exact HN'.
    + intros l1 c' l2 i E Ei Hi. apply (Ho (c :: l1) c' l2 i); [now rewrite E | exact Ei | now right].
    + intros c' Hc'. apply Hd. now right.
    + intros c' i Hc' Ei. unfold upd. destruct (Nat.eqb_spec i (c_dest c)) as [->|N].
      * exfalso. apply in_split in Hc'. destruct Hc' as (l1 & l2 & ->).
        apply (Ho (c :: l1) c' l2 (c_dest c)); [reflexivity | exact Ei | now left].
      * apply (He c'); [now right | exact Ei].
    + exists e2. split; [|split].
      * cbn [map exec_list]. unfold exec at 1. unfold c_instr at 1. cbn [effect]. rewrite Ev.
        cbn [of_opt rbind dests bind_all c_instr fst snd]. exact E2.
      * intros c' [<-|Hc']; [|now apply A]. rewrite B by exact Hc. unfold upd. rewrite Nat.eqb_refl. now rewrite Ex.
      * intros y Hy. rewrite B by (intro K; apply Hy; now right). unfold upd. destruct (Nat.eqb_spec y (c_dest c)); [|reflexivity].
        elim Hy. now left.
Qed.

Theorem sequence_effect : forall ks ts cs next, seq_orders ks ts cs -> NoDup (map c_dest cs) -> sequencable cs ->
  exists is, sequence ks ts cs next = Some (is, next) /\
    forall S (W : world S) tys s e e1, parallel e cs = Some e1 ->
    exists e2, exec_list W tys e s is = ROk (e2, s) /\ forall x, e2 x = e1 x.
Proof.
  intros ks ts cs next HO HN HS. destruct (sequence_order ks ts cs next HO HN HS) as (cs' & E & Pc & Ho).
  exists (map c_instr cs'). split; [exact E|]. intros S W tys s e e1 He.
  destruct (parallel_at _ _ _ HN He) as [I1 I2].
  assert (HN' : NoDup (map c_dest cs')). { apply (Permutation_NoDup (l := map c_dest cs)); [now apply Permutation_map | exact HN]. }
  destruct (exec_copies S W tys s cs' e e HN' Ho) as (e2 & E2 & A & B).
  - intros c Hc. apply I1. exact (Permutation_in _ (Permutation_sym Pc) Hc).
  - reflexivity.
  - exists e2. split; [exact E2|]. intro x.
    destruct (in_dec Nat.eq_dec x (map c_dest cs)) as [Hx|Hx].
    + apply in_map_iff in Hx. destruct Hx as (c & <- & Hc). rewrite (proj1 (I1 c Hc)). apply A. exact (Permutation_in _ Pc Hc).
    + rewrite I2 by exact Hx. apply B. intro K. apply Hx. apply in_map_iff in K. destruct K as (c & Ec & Hc).
      rewrite <- Ec. apply in_map. exact (Permutation_in _ (Permutation_sym Pc) Hc).
Qed.
