(** Memory consistency from balance: the accesses to one address, ordered by clock, form
    a chain in which every access sees what the previous one left. *)
From Coq Require Import ZArith Bool List Lia Permutation.
From Verif Require Import M31 M31Facts Air AirChain.
Import ListNotations.
Open Scope Z_scope.

(** One access: consumes the token (address, previous clock, old content) and emits the
    token (address, clock, new content). *)
Record edge : Set := Edge { e_addr : Z; e_prev : Z; e_old : qm31; e_clk : Z; e_new : qm31 }.
Definition tok (a c : Z) (v : qm31) : list Z := a :: c :: qlist v.
Definition esrc (e : edge) : list Z := tok (e_addr e) (e_prev e) (e_old e).
Definition edst (e : edge) : list Z := tok (e_addr e) (e_clk e) (e_new e).

Lemma tok_inj a c v a' c' v' : tok a c v = tok a' c' v' -> a = a' /\ c = c' /\ v = v'.
Proof.
  unfold tok, qlist. intros H. injection H as -> -> H0 H1 H2 H3.
  destruct v as [x0 x1 x2 x3], v' as [y0 y1 y2 y3]; cbn [q0 q1 q2 q3] in *; subst. auto.
Qed.

(** *** One chain *)
Fixpoint after (k : Z) (v : qm31) (ch : list edge) : qm31 :=
  match ch with
  | [] => v
  | e :: r => if e_clk e <=? k then after k (e_new e) r else v
  end.
Definition up (e : edge) : Prop := e_prev e < e_clk e.

Section Chain.
  Variable a : Z.
  Notation path := (walk esrc edst).
  Lemma path_cons c v e r t : path (tok a c v) (e :: r) t ->
    e_addr e = a /\ e_prev e = c /\ e_old e = v /\ path (tok a (e_clk e) (e_new e)) r t.
  Proof.
    intros [H Hr]. apply tok_inj in H. destruct H as (H1 & H2 & H3).
    repeat split; try assumption. unfold edst in Hr. rewrite H1 in Hr. exact Hr.
  Qed.
  Lemma path_later ch : forall c v t, path (tok a c v) ch t -> Forall up ch ->
    forall e, In e ch -> c < e_clk e.
  Proof.
    induction ch as [|e ch IH]; intros c v t Hp Hu x Hx; [destruct Hx|].
    apply path_cons in Hp. destruct Hp as (_ & Hc & _ & Hp). inversion Hu as [|? ? He Hu']; subst.
    unfold up in He. destruct Hx as [->|Hx]; [exact He|].
    specialize (IH _ _ _ Hp Hu' x Hx). lia.
  Qed.
  Lemma after_stop k ch v : (forall e, In e ch -> k < e_clk e) -> after k v ch = v.
  Proof.
    destruct ch as [|e ch]; intros H; [reflexivity|]. cbn [after].
    specialize (H e (or_introl eq_refl)). rewrite (proj2 (Z.leb_gt _ _) H). reflexivity.
  Qed.
  Lemma after_before ch : forall c v t e, path (tok a c v) ch t -> Forall up ch -> In e ch ->
    after (e_clk e - 1) v ch = e_old e.
  Proof.
    induction ch as [|x ch IH]; intros c v t e Hp Hu Hin; [destruct Hin|].
    apply path_cons in Hp. destruct Hp as (_ & Hc & Hv & Hp). inversion Hu as [|? ? Hx Hu']; subst.
    cbn [after]. destruct Hin as [->|Hin].
    - rewrite (proj2 (Z.leb_gt _ _)) by lia. reflexivity.
    - pose proof (path_later _ _ _ _ Hp Hu' e Hin) as Hl.
      rewrite (proj2 (Z.leb_le _ _)) by lia. eapply IH; eassumption.
  Qed.
  Lemma after_at ch : forall c v t e, path (tok a c v) ch t -> Forall up ch -> In e ch ->
    after (e_clk e) v ch = e_new e.
  Proof.
    induction ch as [|x ch IH]; intros c v t e Hp Hu Hin; [destruct Hin|].
    apply path_cons in Hp. destruct Hp as (_ & Hc & Hv & Hp). inversion Hu as [|? ? Hx Hu']; subst.
    cbn [after]. destruct Hin as [->|Hin].
    - rewrite (proj2 (Z.leb_le _ _)) by lia. apply after_stop.
      intros y Hy. eapply path_later; eassumption.
    - pose proof (path_later _ _ _ _ Hp Hu' e Hin) as Hl.
      rewrite (proj2 (Z.leb_le _ _)) by lia. eapply IH; eassumption.
  Qed.
  Lemma after_same k ch : forall c v t, path (tok a c v) ch t -> Forall up ch ->
    (forall e, In e ch -> e_clk e <> k) -> after k v ch = after (k - 1) v ch.
  Proof.
    induction ch as [|x ch IH]; intros c v t Hp Hu Hn; [reflexivity|].
    apply path_cons in Hp. destruct Hp as (_ & Hc & Hv & Hp). inversion Hu as [|? ? Hx Hu']; subst.
    assert (Hk : e_clk x <> k) by (apply Hn; left; reflexivity). cbn [after].
    destruct (Z.leb_spec (e_clk x) k); destruct (Z.leb_spec (e_clk x) (k - 1)); try lia; [|reflexivity].
    eapply IH; try eassumption. intros e He. apply Hn. right. exact He.
  Qed.
  Lemma after_end n ch : forall c v cf vf, path (tok a c v) ch (tok a cf vf) -> Forall up ch ->
    (forall e, In e ch -> n < e_clk e -> e_new e = e_old e) -> after n v ch = vf.
  Proof.
    induction ch as [|x ch IH]; intros c v cf vf Hp Hu Hn.
    - cbn [walk] in Hp. apply tok_inj in Hp. cbn [after]. tauto.
    - apply path_cons in Hp. destruct Hp as (_ & Hc & Hv & Hp). inversion Hu as [|? ? Hx Hu']; subst.
      assert (Hn' : forall e, In e ch -> n < e_clk e -> e_new e = e_old e)
        by (intros e He; apply Hn; right; exact He).
      cbn [after]. destruct (Z.leb_spec (e_clk x) n) as [Hle|Hlt]; [eapply IH; eassumption|].
      rewrite <- (IH _ _ _ _ Hp Hu' Hn'). rewrite after_stop.
      + symmetry. apply Hn; [left; reflexivity|exact Hlt].
      + intros e He. pose proof (path_later _ _ _ _ Hp Hu' e He). lia.
  Qed.
  Lemma path_distinct ch : forall c v t, path (tok a c v) ch t -> Forall up ch -> NoDup (map e_clk ch).
  Proof.
    induction ch as [|x ch IH]; intros c v t Hp Hu; [constructor|].
    apply path_cons in Hp. destruct Hp as (_ & Hc & Hv & Hp). inversion Hu as [|? ? Hx Hu']; subst.
    cbn [map]. constructor; [|eapply IH; eassumption].
    intros Hin. apply in_map_iff in Hin. destruct Hin as (e & He & Hin).
    pose proof (path_later _ _ _ _ Hp Hu' e Hin). lia.
  Qed.
  (** The access before [e], if any, is the last one at an earlier clock. *)
  Lemma path_pred ch : forall c v t e, path (tok a c v) ch t -> Forall up ch -> In e ch ->
    (e_prev e = c /\ e_old e = v /\ (forall y, In y ch -> ~ e_clk y < e_clk e)) \/
    (exists x, In x ch /\ e_clk x = e_prev e /\ e_new x = e_old e /\ e_clk x < e_clk e /\
       (forall y, In y ch -> ~ (e_clk x < e_clk y < e_clk e))).
  Proof.
    induction ch as [|x ch IH]; intros c v t e Hp Hu Hin; [destruct Hin|].
    apply path_cons in Hp. destruct Hp as (_ & Hc & Hv & Hp). inversion Hu as [|? ? Hx Hu']; subst.
    destruct Hin as [->|Hin].
    - left. split; [reflexivity|]. split; [reflexivity|]. intros y [->|Hy]; [lia|].
      pose proof (path_later _ _ _ _ Hp Hu' y Hy). lia.
    - right. destruct (IH _ _ _ e Hp Hu' Hin) as [(H1 & H2 & H3)|(z & H1 & H2 & H3 & H4 & H5)].
      + exists x. split; [left; reflexivity|]. split; [congruence|]. split; [congruence|].
        split; [apply (path_later _ _ _ _ Hp Hu' e Hin)|].
        intros y [->|Hy]; [lia|]. specialize (H3 y Hy). lia.
      + exists z. split; [right; exact H1|]. split; [exact H2|]. split; [exact H3|]. split; [exact H4|].
        intros y [->|Hy]; [|exact (H5 y Hy)]. pose proof (path_later _ _ _ _ Hp Hu' z H1). lia.
  Qed.
End Chain.

(** *** All addresses *)
Definition STEP : Z := 1048575.
(** An access of an opcode row at a clock of the execution. *)
Definition op_edge (N : Z) (e : edge) : Prop :=
  1 <= e_clk e <= N /\ wf (e_prev e) /\ (e_clk e - e_prev e - 1) mod P < 1048576.
(** A clock update moves the token forward without changing it. *)
Definition cu_edge (e : edge) : Prop :=
  wf (e_prev e) /\ e_clk e = (e_prev e + STEP) mod P /\ e_new e = e_old e.

Definition ini_tok (x : Z * qm31) : list Z := tok (fst x) 0 (snd x).
Definition fin_tok (x : Z * (Z * qm31)) : list Z := tok (fst x) (fst (snd x)) (snd (snd x)).

Section Mem.
  Variable N : Z.
  Variable Eo Ec : list edge.
  Variable ini : list (Z * qm31).
  Variable fin : list (Z * (Z * qm31)).
  Hypothesis HN : 0 <= N.
  Hypothesis Ho : Forall (op_edge N) Eo.
  Hypothesis Hc : Forall cu_edge Ec.
  Hypothesis Hbound : N + STEP * (Z.of_nat (length Ec) + 2) < P.
  Hypothesis Hini : NoDup (map fst ini).
  Hypothesis Hfin : NoDup (map fst fin).
  Let E := Eo ++ Ec.
  Hypothesis Hbal : Permutation (map fin_tok fin ++ map esrc E) (map ini_tok ini ++ map edst E).

  (** A consumed token was produced. *)
  Lemma source_of e : In e E -> 0 < e_prev e -> exists x, In x E /\ edst x = esrc e.
  Proof.
    intros He Hp.
    assert (Hin : In (esrc e) (map ini_tok ini ++ map edst E)).
    { rewrite <- Hbal. apply in_or_app. right. apply in_map. exact He. }
    apply in_app_or in Hin. destruct Hin as [Hin|Hin].
    - apply in_map_iff in Hin. destruct Hin as (x & Hx & _). unfold ini_tok, esrc in Hx.
      apply tok_inj in Hx. lia.
    - apply in_map_iff in Hin. destruct Hin as (x & Hx & Hin). exists x. auto.
  Qed.
  Lemma late_source e : In e E -> N < e_prev e -> STEP <= e_prev e ->
    exists x, In x Ec /\ e_clk x = e_prev e /\ e_prev x = e_prev e - STEP.
  Proof.
    intros He Hp Hs. destruct (source_of e He) as (x & Hx & Hxe); [lia|].
    apply tok_inj in Hxe. destruct Hxe as (_ & Hck & _).
    apply in_app_or in Hx. destruct Hx as [Hx|Hx].
    - rewrite Forall_forall in Ho. destruct (Ho x Hx) as [Hb _]. lia.
    - exists x. split; [exact Hx|]. split; [exact Hck|].
      rewrite Forall_forall in Hc. destruct (Hc x Hx) as (Hw & Hm & _).
      unfold wf in Hw. unfold STEP in *.
      rewrite Hck in Hm. clear - Hw Hm Hs. unfold P in *.
      pose proof (Z.mod_pos_bound (e_prev x + 1048575) 2147483647 eq_refl).
      pose proof (Z.div_mod (e_prev x + 1048575) 2147483647 ltac:(discriminate)). nia.
  Qed.
  Lemma all_up : Forall up E.
  Proof.
    apply Forall_forall. intros e He. unfold up.
    destruct (Z.lt_ge_cases (e_prev e) (e_clk e)) as [H|H]; [exact H|exfalso].
    assert (Hx0 : P - STEP <= e_prev e).
    { apply in_app_or in He. destruct He as [He|He].
      - rewrite Forall_forall in Ho. destruct (Ho e He) as (Hb & Hw & Hd).
        clear - Hb Hw Hd H HN. unfold wf, P, STEP in *.
        pose proof (Z.mod_pos_bound (e_clk e - e_prev e - 1) 2147483647 eq_refl).
        pose proof (Z.div_mod (e_clk e - e_prev e - 1) 2147483647 ltac:(discriminate)). nia.
      - rewrite Forall_forall in Hc. destruct (Hc e He) as (Hw & Hm & _).
        clear - Hm Hw H. unfold wf, P, STEP in *.
        pose proof (Z.mod_pos_bound (e_prev e + 1048575) 2147483647 eq_refl).
        pose proof (Z.div_mod (e_prev e + 1048575) 2147483647 ltac:(discriminate)). nia. }
    apply (pigeon (fun j => e_prev e - STEP * Z.of_nat j) (map e_clk Ec)); rewrite map_length.
    - intros i j _ _ Hij. unfold STEP in Hij. lia.
    - assert (Hall : forall j, (j <= length Ec)%nat ->
        exists x, In x Ec /\ e_clk x = e_prev e - STEP * Z.of_nat j /\ e_prev x = e_prev e - STEP * Z.of_nat (S j)).
      { induction j as [|j IH]; intros Hj.
        - destruct (late_source e He) as (x & Hx & Hx1 & Hx2); [unfold STEP in *; lia..|].
          exists x. split; [exact Hx|]. unfold STEP in *. lia.
        - destruct IH as (y & Hy & Hy1 & Hy2); [lia|].
          assert (HyE : In y E) by (apply in_or_app; right; exact Hy).
          destruct (late_source y HyE) as (x & Hx & Hx1 & Hx2); [unfold STEP in *; lia..|].
          exists x. split; [exact Hx|]. unfold STEP in *. lia. }
      intros j Hj. destruct (Hall j Hj) as (x & Hx & Hx1 & _). rewrite <- Hx1. apply in_map. exact Hx.
  Qed.

  (** *** One address at a time *)
  Definition at_addr (a : Z) : list edge := filter (fun e => e_addr e =? a) E.
  Lemma in_at a e : In e (at_addr a) <-> In e E /\ e_addr e = a.
  Proof. unfold at_addr. rewrite filter_In, Z.eqb_eq. reflexivity. Qed.

  Lemma bal_addr a :
    Permutation (map fin_tok (filter (fun x => fst x =? a) fin) ++ map esrc (at_addr a))
                (map ini_tok (filter (fun x => fst x =? a) ini) ++ map edst (at_addr a)).
  Proof.
    pose (hd_is := fun t : list Z => match t with [] => false | x :: _ => x =? a end).
    assert (H : Permutation (filter hd_is (map fin_tok fin ++ map esrc E)) (filter hd_is (map ini_tok ini ++ map edst E)))
      by (apply perm_filter, Hbal).
    rewrite !filter_app in H.
    assert (G : forall (A : Type) (g : A -> list Z) (k : A -> bool) (l : list A),
      (forall x, hd_is (g x) = k x) -> filter hd_is (map g l) = map g (filter k l)).
    { intros A g k l Hg. induction l as [|x l IH]; [reflexivity|]. cbn [map filter]. rewrite Hg, IH.
      destruct (k x); reflexivity. }
    rewrite (G _ fin_tok (fun x => fst x =? a)) in H by reflexivity.
    rewrite (G _ ini_tok (fun x => fst x =? a)) in H by reflexivity.
    rewrite (G _ esrc (fun e => e_addr e =? a)) in H by reflexivity.
    rewrite (G _ edst (fun e => e_addr e =? a)) in H by reflexivity.
    exact H.
  Qed.
  Lemma filter_key {B} (l : list (Z * B)) a : NoDup (map fst l) ->
    (~ In a (map fst l) /\ filter (fun x => fst x =? a) l = []) \/
    (exists b, In (a, b) l /\ filter (fun x => fst x =? a) l = [(a, b)]).
  Proof.
    induction l as [|[k b] l IH]; cbn [map fst filter]; intros Hn.
    - left. split; [tauto|reflexivity].
    - inversion Hn as [|? ? Hk Hn']; subst. destruct (Z.eqb_spec k a) as [->|Hka].
      + right. exists b. split; [left; reflexivity|].
        destruct (IH Hn') as [[_ ->]|(b' & Hin & _)]; [reflexivity|].
        exfalso. apply Hk. apply in_map_iff. exists (a, b'). auto.
      + destruct (IH Hn') as [[Hout ->]|(b' & Hin & ->)].
        * left. split; [|reflexivity]. intros [H|H]; [lia|contradiction].
        * right. exists b'. split; [right; exact Hin|reflexivity].
  Qed.
  Lemma at_up a : Forall up (at_addr a).
  Proof.
    apply Forall_forall. intros e He. apply in_at in He. pose proof all_up as H.
    rewrite Forall_forall in H. apply H. tauto.
  Qed.
  Lemma at_acyclic a : acyclic esrc edst (at_addr a).
  Proof.
    apply (ranked_acyclic esrc edst (fun t => nth 1 t 0)). exact (at_up a).
  Qed.

  Theorem addr_cases a :
    (~ In a (map fst ini) /\ ~ In a (map fst fin) /\ at_addr a = []) \/
    (exists v cf vf ch, In (a, v) ini /\ In (a, (cf, vf)) fin /\
       Permutation (at_addr a) ch /\ walk esrc edst (tok a 0 v) ch (tok a cf vf)).
  Proof.
    pose proof (bal_addr a) as Hb.
    destruct (filter_key ini a Hini) as [[Hi Ei]|(v & Hi & Ei)];
    destruct (filter_key fin a Hfin) as [[Hf Ef]|([cf vf] & Hf & Ef)]; rewrite Ei, Ef in Hb;
    cbn [map app] in Hb.
    - left. split; [exact Hi|]. split; [exact Hf|]. eapply no_source; [apply at_acyclic|exact Hb].
    - apply Permutation_length in Hb. cbn [length] in Hb. rewrite !map_length in Hb. lia.
    - apply Permutation_length in Hb. cbn [length] in Hb. rewrite !map_length in Hb. lia.
    - right. destruct (walk_exists esrc edst (list_eq_dec Z.eq_dec) (at_addr a) _ _ (at_acyclic a) Hb)
        as (ch & Hch & Hw).
      exists v, cf, vf, ch. auto.
  Qed.
  Lemma at_distinct a : NoDup (map e_clk (at_addr a)).
  Proof.
    destruct (addr_cases a) as [(_ & _ & ->)|(v & cf & vf & ch & _ & _ & Hp & Hw)]; [constructor|].
    apply (Permutation_NoDup (Permutation_sym (Permutation_map e_clk Hp))).
    eapply path_distinct; [exact Hw|].
    apply Forall_forall. intros e He. pose proof (at_up a) as H. rewrite Forall_forall in H.
    apply H. rewrite Hp. exact He.
  Qed.
  (** No address is accessed twice at the same clock. *)
  Theorem all_distinct : NoDup (map (fun e => (e_addr e, e_clk e)) E).
  Proof.
    assert (H : forall l, (forall a, NoDup (map e_clk (filter (fun e => e_addr e =? a) l))) ->
      NoDup (map (fun e => (e_addr e, e_clk e)) l)).
    { induction l as [|e l IH]; intros Hl; [constructor|]. cbn [map]. constructor.
      - intros Hin. apply in_map_iff in Hin. destruct Hin as (x & Hx & Hin). injection Hx as Ha Hck.
        specialize (Hl (e_addr e)). cbn [filter] in Hl. rewrite Z.eqb_refl in Hl. cbn [map] in Hl.
        inversion Hl as [|? ? Hno _]; subst. apply Hno. rewrite <- Hck.
        apply in_map. apply filter_In. split; [exact Hin|]. apply Z.eqb_eq. exact Ha.
      - apply IH. intros a. specialize (Hl a). cbn [filter] in Hl.
        destruct (e_addr e =? a); [|exact Hl]. cbn [map] in Hl. inversion Hl; assumption. }
    apply H. exact at_distinct.
  Qed.
  Theorem same_addresses a : In a (map fst ini) <-> In a (map fst fin).
  Proof.
    destruct (addr_cases a) as [(Hi & Hf & _)|(v & cf & vf & ch & Hi & Hf & _)]; [tauto|].
    split; intros _; [apply (in_map fst) in Hf|apply (in_map fst) in Hi]; assumption.
  Qed.

  Theorem last_access e : In e E ->
    (e_prev e = 0 /\ In (e_addr e, e_old e) ini /\
     (forall y, In y E -> e_addr y = e_addr e -> ~ e_clk y < e_clk e)) \/
    (exists x, In x E /\ e_addr x = e_addr e /\ e_clk x = e_prev e /\ e_new x = e_old e /\ e_clk x < e_clk e /\
       (forall y, In y E -> e_addr y = e_addr e -> ~ (e_clk x < e_clk y < e_clk e))).
  Proof.
    intros He. assert (Ha : In e (at_addr (e_addr e))) by (apply in_at; auto).
    destruct (addr_cases (e_addr e)) as [(_ & _ & E0)|(v & cf & vf & ch & Hi & _ & Hp & Hw)].
    - rewrite E0 in Ha. destruct Ha.
    - assert (Hu : Forall up ch).
      { apply Forall_forall. intros x Hx. pose proof (at_up (e_addr e)) as H. rewrite Forall_forall in H.
        apply H. rewrite Hp. exact Hx. }
      assert (Hin : In e ch) by (rewrite <- Hp; exact Ha).
      assert (Hto : forall y, In y E -> e_addr y = e_addr e -> In y ch)
        by (intros y Hy Hya; rewrite <- Hp; apply in_at; auto).
      destruct (path_pred (e_addr e) ch _ _ _ e Hw Hu Hin) as [(H1 & H2 & H3)|(x & H1 & H2 & H3 & H4 & H5)].
      + left. split; [exact H1|]. split; [rewrite H2; exact Hi|]. intros y Hy Hya. apply H3. auto.
      + right. exists x. assert (Hx : In x (at_addr (e_addr e))) by (rewrite Hp; exact H1).
        apply in_at in Hx. destruct Hx as [Hx1 Hx2].
        split; [exact Hx1|]. split; [exact Hx2|]. split; [exact H2|]. split; [exact H3|]. split; [exact H4|].
        intros y Hy Hya. apply H5. auto.
  Qed.

  (** The content of memory after clock [k], started from a memory [f0] that holds [ini]. *)
  Definition holds (f : Z -> qm31) (l : list (Z * qm31)) : Prop := forall a v, In (a, v) l -> f a = v.
  Definition content (f0 : Z -> qm31) (k : Z) (f : Z -> qm31) : Prop :=
    forall a, (at_addr a = [] -> f a = f0 a) /\
      (forall ch t, Permutation (at_addr a) ch -> walk esrc edst (tok a 0 (f0 a)) ch t -> f a = after k (f0 a) ch).

  Lemma ch_up a ch : Permutation (at_addr a) ch -> Forall up ch.
  Proof.
    intros Hp. apply Forall_forall. intros e He. pose proof (at_up a) as H. rewrite Forall_forall in H.
    apply H. rewrite Hp. exact He.
  Qed.
  Lemma content_start f0 : content f0 0 f0.
  Proof.
    intros a. split; [reflexivity|]. intros ch t Hp Hw. symmetry. apply after_stop.
    intros e He. eapply path_later; [exact Hw|exact (ch_up a ch Hp)|exact He].
  Qed.
  Lemma chain_of f0 a e : holds f0 ini -> In e (at_addr a) ->
    exists ch cf vf, Permutation (at_addr a) ch /\ In (a, (cf, vf)) fin /\
      walk esrc edst (tok a 0 (f0 a)) ch (tok a cf vf) /\ In a (map fst ini).
  Proof.
    intros Hh He. destruct (addr_cases a) as [(_ & _ & E0)|(v & cf & vf & ch & Hi & Hf & Hp & Hw)].
    - rewrite E0 in He. destruct He.
    - exists ch, cf, vf. rewrite (Hh a v Hi). split; [exact Hp|]. split; [exact Hf|]. split; [exact Hw|].
      apply (in_map fst) in Hi. exact Hi.
  Qed.
  (** An access sees the content left by the clocks before it. *)
  Lemma content_old f0 f e : holds f0 ini -> content f0 (e_clk e - 1) f -> In e E -> f (e_addr e) = e_old e.
  Proof.
    intros Hh Hf He. assert (Ha : In e (at_addr (e_addr e))) by (apply in_at; auto).
    destruct (chain_of f0 _ e Hh Ha) as (ch & cf & vf & Hp & _ & Hw & _).
    destruct (Hf (e_addr e)) as [_ Hc2]. rewrite (Hc2 ch _ Hp Hw).
    eapply after_before; [exact Hw|exact (ch_up _ _ Hp)|]. rewrite <- Hp. exact Ha.
  Qed.
  (** Moving from clock [k - 1] to clock [k]. *)
  Lemma content_next f0 k f f' : holds f0 ini -> content f0 (k - 1) f ->
    (forall e, In e E -> e_clk e = k -> f' (e_addr e) = e_new e) ->
    (forall a, (forall e, In e E -> e_clk e = k -> e_addr e <> a) -> f' a = f a) ->
    content f0 k f'.
  Proof.
    intros Hh Hf Hnew Hold a. split.
    - intros E0. rewrite Hold; [apply Hf; exact E0|].
      intros e He _ Ha. assert (In e (at_addr a)) as Hin by (apply in_at; auto). rewrite E0 in Hin. destruct Hin.
    - intros ch t Hp Hw.
      destruct (in_dec Z.eq_dec k (map e_clk ch)) as [Hin|Hout].
      + apply in_map_iff in Hin. destruct Hin as (e & Hk & Hin).
        assert (He : In e (at_addr a)) by (rewrite Hp; exact Hin). apply in_at in He.
        destruct He as [He <-]. rewrite (Hnew e He Hk). rewrite <- Hk. symmetry.
        eapply after_at; [exact Hw|exact (ch_up _ _ Hp)|exact Hin].
      + rewrite Hold.
        * destruct (Hf a) as [_ Hc2]. rewrite (Hc2 ch t Hp Hw). symmetry.
          eapply after_same; [exact Hw|exact (ch_up _ _ Hp)|].
          intros e He Hk. apply Hout. rewrite <- Hk. apply in_map. exact He.
        * intros e He Hk Ha. apply Hout. rewrite <- Hk. apply in_map. rewrite <- Hp. apply in_at. auto.
  Qed.
  (** After the last clock, memory holds the final contents. *)
  Lemma content_end f0 f : holds f0 ini -> content f0 N f ->
    forall a cf vf, In (a, (cf, vf)) fin -> f a = vf.
  Proof.
    intros Hh Hf a cf vf Hin.
    destruct (addr_cases a) as [(_ & Hn & _)|(v & cf' & vf' & ch & Hi & Hf' & Hp & Hw)].
    - exfalso. apply Hn. apply (in_map fst) in Hin. exact Hin.
    - assert (E1 : (cf, vf) = (cf', vf')).
      { clear - Hfin Hin Hf'. induction fin as [|[k b] l IH]; [destruct Hin|].
        cbn [map fst] in Hfin. inversion Hfin as [|? ? Hk Hn]; subst.
        destruct Hin as [Hin|Hin]; destruct Hf' as [Hf'|Hf'].
        - congruence.
        - injection Hin as -> ->. exfalso. apply Hk. apply (in_map fst) in Hf'. exact Hf'.
        - injection Hf' as -> ->. exfalso. apply Hk. apply (in_map fst) in Hin. exact Hin.
        - exact (IH Hn Hin Hf'). }
      injection E1 as -> ->.
      destruct (Hf a) as [_ Hc2]. rewrite <- (Hh a v Hi) in Hw. rewrite (Hc2 ch _ Hp Hw).
      eapply after_end; [exact Hw|exact (ch_up _ _ Hp)|].
      intros e He Hlt. assert (HeE : In e E) by (assert (In e (at_addr a)) as G by (rewrite Hp; exact He); apply in_at in G; tauto).
      apply in_app_or in HeE. destruct HeE as [HeE|HeE].
      + rewrite Forall_forall in Ho. destruct (Ho e HeE) as [Hb _]. lia.
      + rewrite Forall_forall in Hc. apply Hc. exact HeE.
  Qed.
End Mem.
