(** Lemmas for [Wasm]: the lowered graph has the code of the DAG. *)
From Coq Require Import ZArith Bool List Lia Permutation.
From Verif Require Import M31 Isa Mir MirSem Wasm WasmSpec WasmOps WasmFlow.
Import ListNotations.
Local Open Scope nat_scope.

Ltac sf := cbn [nb ph body tm nx tys maps labs cur loops defer push new_value insert_value set_tm set_cur add_block set_maps add_label set_loops add_deferred add_phi fst snd] in *.
Definition src (x : nat * nat * nat * value) : nat := snd (fst x).
Definition open (b : nat) (s : st) : Prop := Forall (fun x => src x <> b) (defer s).

(** ** How the state grows; only blocks in [T] get new instructions or branches. *)
Definition grow (T : nat -> Prop) (s s' : st) : Prop :=
  nb s <= nb s' /\ nx s <= nx s' /\ (exists l, labs s' = l ++ labs s) /\
  (forall b, b < nb s -> ph s' b = ph s b) /\
  (forall b, b < nb s -> ~ T b -> body s' b = body s b /\ tm s' b = tm s b) /\
  (forall b, b < nb s -> exists l, body s' b = body s b ++ l) /\
  (exists ds, defer s' = defer s ++ ds /\ Forall (fun x => nb s <= src x \/ T (src x)) ds).
Lemma grow_refl T s : grow T s s.
Proof.
  split; [lia|]. split; [lia|]. split; [exists []; reflexivity|]. split; [auto|]. split; [auto|]. split; [intros b _; exists []; rewrite app_nil_r; reflexivity|].
  exists []. rewrite app_nil_r. auto.
Qed.
Lemma grow_trans (T T1 T2 : nat -> Prop) s s1 s2 : grow T1 s s1 -> grow T2 s1 s2 -> (forall b, b < nb s -> T1 b \/ T2 b -> T b) -> grow T s s2.
Proof.
  intros (A1 & A2 & (l1 & A3) & A4 & A5 & A6 & (d1 & A7 & A8)) (B1 & B2 & (l2 & B3) & B4 & B5 & B6 & (d2 & B7 & B8)) H.
  split; [lia|]. split; [lia|]. split; [exists (l2 ++ l1); rewrite B3, A3, app_assoc; reflexivity|].
  split; [intros b Hb; rewrite (B4 b), (A4 b) by lia; reflexivity|].
  split; [|split].
  - intros b Hb Hn. destruct (A5 b Hb) as [X Y]; [intros Hx; apply Hn, H; auto|]. destruct (B5 b) as [X' Y']; [lia|intros Hx; apply Hn, H; auto|]. split; congruence.
  - intros b Hb. destruct (A6 b Hb) as (x & X). destruct (B6 b) as (y & Y); [lia|]. exists (x ++ y). rewrite Y, X, app_assoc. reflexivity.
  - exists (d1 ++ d2). split; [rewrite B7, A7, app_assoc; reflexivity|]. apply Forall_app. split.
    + eapply Forall_impl; [|exact A8]. intros x Hx. cbn beta in *. destruct (Nat.le_gt_cases (nb s) (src x)); [auto|]. right. apply H; [exact H0|]. destruct Hx; [lia|auto].
    + eapply Forall_impl; [|exact B8]. intros x Hx. cbn beta in *. destruct (Nat.le_gt_cases (nb s) (src x)); [auto|]. right. apply H; [exact H0|]. destruct Hx; [lia|auto].
Qed.
Lemma grow_sub (T T' : nat -> Prop) s s' : grow T s s' -> (forall b, b < nb s -> T b -> T' b) -> grow T' s s'.
Proof. intros H G. eapply grow_trans; [apply (grow_refl (fun _ => False))|exact H|]. intros b Hb [[]|X]. auto. Qed.

Lemma look_app_nodup {A} (l1 l2 : list (nat * A)) id x : NoDup (map fst (l1 ++ l2)) -> look Nat.eqb id l2 = Some x -> look Nat.eqb id (l1 ++ l2) = Some x.
Proof.
  intros N H. induction l1 as [|[i a] l1 IH]; [exact H|]. cbn [app map fst] in N. inversion N as [|? ? N1 N2]; subst. unfold look. cbn [app find fst].
  destruct (Nat.eqb_spec i id) as [->|]; [|exact (IH N2)]. elim N1. rewrite map_app. apply in_or_app. right. unfold look in H. destruct (find _ l2) as [[j y]|] eqn:F; [|discriminate].
  apply find_some in F as [F1 F2]. cbn in F2. apply Nat.eqb_eq in F2. subst j. apply (in_map fst) in F1. exact F1.
Qed.
Lemma look_in_nat {A} id (x : A) l : look Nat.eqb id l = Some x -> In (id, x) l.
Proof.
  unfold look. destruct (find _ l) as [[j y]|] eqn:F; [|discriminate]. intros H; injection H as <-. apply find_some in F as [F1 F2]. cbn in F2. apply Nat.eqb_eq in F2. subst j. exact F1.
Qed.
Lemma grow_nodup T s s' : grow T s s' -> NoDup (map fst (labs s')) -> NoDup (map fst (labs s)).
Proof. intros (_ & _ & (l & L) & _) N. rewrite L, map_app in N. apply nodup_app in N as (_ & N & _). exact N. Qed.
Lemma grow_look T s s' id x : grow T s s' -> NoDup (map fst (labs s')) -> look Nat.eqb id (labs s) = Some x -> look Nat.eqb id (labs s') = Some x.
Proof. intros (_ & _ & (l & L) & _) N H. rewrite L in *. apply look_app_nodup; assumption. Qed.
Lemma grow_open T s s' b : grow T s s' -> b < nb s -> ~ T b -> open b s -> open b s'.
Proof.
  intros (_ & _ & _ & _ & _ & _ & (ds & D & S)) L N O. unfold open. rewrite D. apply Forall_app. split; [exact O|]. eapply Forall_impl; [|exact S].
  intros x Hx Eb. cbn beta in Hx. rewrite Eb in Hx. destruct Hx; [lia|contradiction].
Qed.

(** ** Invariants of the state *)
Definition wfs (s : st) : Prop :=
  cur s < nb s /\ (forall b, nb s <= b -> ph s b = [] /\ body s b = []) /\ Forall (fun x => src x < nb s) (defer s) /\
  okm (maps s) (nx s) /\ maps s <> [] /\ Forall (fun l => NoDup (snd l) /\ fst l < nb s) (loops s) /\
  Forall (fun l => fst (snd l) < nb s /\ NoDup (snd (snd l))) (labs s) /\ forall b, Forall not_phi (body s b).

(** ** Single steps *)
Lemma new_values_spec : forall ts s, exists t, new_values ts s = St (nb s) (ph s) (body s) (tm s) (nx s + length ts) t (maps s) (labs s) (cur s) (loops s) (defer s).
Proof.
  induction ts as [|t ts IH]; intros s; cbn [new_values length]; [exists (tys s); rewrite Nat.add_0_r; destruct s; reflexivity|].
  destruct (IH (snd (new_value t s))) as (x & ->). sf. exists x. replace (nx s + S (length ts)) with (S (nx s) + length ts) by lia. reflexivity.
Qed.
Lemma get_inputs_ids s : forall os vs, get_inputs os s = Some vs -> exists ids, vs = map Op ids /\ Forall2 (gets (maps s)) os ids.
Proof.
  induction os as [|o os IH]; intros vs H; cbn [get_inputs] in H; [injection H as <-; exists []; split; [reflexivity|constructor]|].
  destruct (get_value o (maps s)) as [v|] eqn:G; [|discriminate]. destruct (get_inputs os s) as [l|]; [|discriminate]. injection H as <-.
  destruct (IH l eq_refl) as (ids & -> & F). exists (v :: ids). split; [reflexivity|]. constructor; assumption.
Qed.
Lemma code_result params w vs n is ts r : code params w vs n = Some (is, ts, r) ->
  Forall not_phi is /\ match r with Some i => n <= i < n + length ts | None => True end.
Proof.
  intros C. unfold code in C.
  destruct w; try discriminate C; try (destruct vs as [|a [|b l]]; try discriminate C); cbn [bin_opcode signed_opcode] in C.
  all: try (destruct (params f) as [ps|]; [|discriminate C]; destruct (mir_types ps); [|discriminate C]).
  all: unfold address_code in C; injection C as <- <- <-; cbn [length]; split; [repeat (apply Forall_cons; [exact I|]); apply Forall_nil|try exact I; lia].
Qed.

Lemma upf_same {A} (f : nat -> A) k a : upf f k a k = a.
Proof. unfold upf. rewrite Nat.eqb_refl. reflexivity. Qed.
Lemma upf_other {A} (f : nat -> A) k a x : x <> k -> upf f k a x = f x.
Proof. intros H. unfold upf. destruct (Nat.eqb_spec x k); [contradiction|reflexivity]. Qed.

Lemma okm_with k r ms n n' : okm ms n -> n <= n' -> match r with Some i => n <= i < n' | None => True end -> okm (with_result k r ms) n'.
Proof.
  intros [N F] L H. assert (F' : Forall (fun i => i < n') (map snd (concat ms))) by (eapply Forall_impl; [|exact F]; cbn; lia).
  destruct r as [i|]; [|split; assumption]. destruct ms as [|m ms]; [split; constructor|]. cbn [with_result]. split; cbn [concat app map snd] in *.
  - constructor; [|exact N]. intros I. pose proof (proj1 (Forall_forall _ _) F i I). cbn in *. lia.
  - constructor; [lia|exact F'].
Qed.
Lemma op_step params k w ins s s1 : wfs s -> lower_op params k w ins s = Some s1 -> exists ids is ts r, Forall2 (gets (maps s)) ins ids /\
  code params w (map Op ids) (nx s) = Some (is, ts, r) /\ maps s1 = with_result k r (maps s) /\ nx s1 = nx s + length ts /\ loops s1 = loops s /\ labs s1 = labs s /\ cur s1 = cur s /\
  body s1 (cur s) = body s (cur s) ++ is /\ defer s1 = defer s /\ grow (fun b => b = cur s) s s1 /\ wfs s1.
Proof.
  intros (W1 & W2 & W3 & W4 & W5 & W6 & W7 & W8) H. unfold lower_op, obind in H. destruct (get_inputs ins s) as [vs|] eqn:G; [|discriminate].
  destruct (get_inputs_ids _ _ _ G) as (ids & -> & Fi). destruct (code params w (map Op ids) (nx s)) as [[[is ts] r]|] eqn:C; [|discriminate].
  destruct (code_result _ _ _ _ _ _ _ C) as [Np Hr]. destruct (new_values_spec ts s) as (ty' & Hn). rewrite Hn in H. sf.
  exists ids, is, ts, r. split; [exact Fi|]. split; [exact C|].
  assert (E : s1 = St (nb s) (ph s) (upf (body s) (cur s) (body s (cur s) ++ is)) (tm s) (nx s + length ts) ty' (with_result k r (maps s)) (labs s) (cur s) (loops s) (defer s)).
  { destruct r; injection H as <-; reflexivity. }
  clear H. subst s1. sf. do 5 (split; [reflexivity|]). split; [apply upf_same|]. split; [reflexivity|]. split.
  - unfold grow. sf. split; [lia|]. split; [lia|]. split; [exists []; reflexivity|]. split; [auto|]. split; [intros b _ Hb; rewrite upf_other by exact Hb; auto|].
    split; [|exists []; rewrite app_nil_r; auto]. intros b _. destruct (Nat.eq_dec b (cur s)) as [->|Hb]; [rewrite upf_same; eauto|rewrite upf_other by exact Hb; exists []; rewrite app_nil_r; reflexivity].
  - unfold wfs. sf. split; [exact W1|]. split; [intros b Hb; rewrite upf_other by lia; auto|]. split; [exact W3|]. split; [apply (okm_with k r _ (nx s)); [exact W4|lia|exact Hr]|].
    split; [apply with_result_ext; exact W5|]. split; [exact W6|]. split; [exact W7|]. intros b. destruct (Nat.eq_dec b (cur s)) as [->|Hb]; [rewrite upf_same; apply Forall_app; auto|rewrite upf_other by exact Hb; auto].
Qed.

(** *** Branches *)
Definition linked (lb : list (nat * (nat * list nat))) (ms : list (list (origin * nat))) (ls : list (nat * list nat)) (from : nat)
  (t : target) (tgt : nat) (os : list origin) (ds : list (nat * nat * nat * value)) : Prop :=
  match t with
  | ToLabel id _ => exists phis ids, look Nat.eqb id lb = Some (tgt, phis) /\ Forall2 (gets ms) os ids /\ ds = edges tgt phis from (map Op ids)
  | ToLoop j => forall h phis, nth_error ls j = Some (h, phis) -> tgt = h /\ exists ids, Forall2 (gets ms) os ids /\ ds = edges h phis from (map Op ids)
  end.
Lemma edges_src b phis from vs : Forall (fun x => src x = from) (edges b phis from vs).
Proof. unfold edges. apply Forall_forall. intros x Hx. apply in_map_iff in Hx as (p & <- & _). reflexivity. Qed.
Definition aims (lb : list (nat * (nat * list nat))) (ls : list (nat * list nat)) (t : target) (tgt : nat) : Prop :=
  match t with
  | ToLabel id _ => exists phis, look Nat.eqb id lb = Some (tgt, phis)
  | ToLoop j => forall h phis, nth_error ls j = Some (h, phis) -> tgt = h
  end.
Lemma record_spec op t ins s s2 tgt : record_edge_values op t ins s = Some s2 -> aims (labs s) (loops s) t tgt ->
  exists ds, s2 = add_deferred ds s /\ Forall (fun x => src x = cur s) ds /\ linked (labs s) (maps s) (loops s) (cur s) t tgt (data op ins) ds.
Proof.
  unfold record_edge_values. destruct t as [id dp|j]; cbn [aims linked]; intros H A.
  - destruct A as (phis & A). rewrite A in H. destruct (get_inputs (data op ins) s) as [vs|] eqn:G; [|discriminate]. injection H as <-. destruct (get_inputs_ids _ _ _ G) as (ids & -> & F).
    eexists. split; [reflexivity|]. split; [apply edges_src|]. eauto.
  - destruct (nth_error (loops s) j) as [[h phis]|] eqn:N.
    + destruct (get_inputs (data op ins) s) as [vs|] eqn:G; [|discriminate]. injection H as <-. destruct (get_inputs_ids _ _ _ G) as (ids & -> & F).
      eexists. split; [reflexivity|]. split; [apply edges_src|]. intros h' phis' E. injection E as <- <-. split; [exact (A h phis eq_refl)|]. eauto.
    + injection H as <-. exists []. split; [unfold add_deferred; rewrite app_nil_r; destruct s; reflexivity|]. split; [constructor|]. discriminate.
Qed.
Lemma resolve_spec t ins s b s1 : wfs s -> resolve t ins s = Some (b, s1) -> aims (labs s) (loops s) t b /\ b < nb s1 /\
  (s1 = s \/ exists t', s1 = set_tm (nb s) t' (snd (add_block s))) /\
  match t with ToLoop j => nth_error (loops s) j = None -> b = nb s /\ exists ids, Forall2 (gets (maps s)) ins ids /\ s1 = set_tm (nb s) (TReturn (map Op ids)) (snd (add_block s)) | _ => True end.
Proof.
  intros (W1 & W2 & W3 & W4 & W5 & W6 & W7 & W8) H. unfold resolve in H. destruct t as [id dp|j]; cbn [aims].
  - destruct (look Nat.eqb id (labs s)) as [[b' phis]|] eqn:L; [|discriminate]. injection H as <- <-. split; [eauto|]. split; [|auto].
    apply look_in_nat in L. exact (proj1 (proj1 (Forall_forall _ _) W7 _ L)).
  - destruct (nth_error (loops s) j) as [[h phis]|] eqn:N.
    + injection H as <- <-. split; [intros h' phis' E; congruence|]. split; [|split; [auto|discriminate]]. apply nth_error_In in N. exact (proj2 (proj1 (Forall_forall _ _) W6 _ N)).
    + destruct (loops s); [|discriminate]. cbn [add_block] in H. destruct (get_inputs ins s) as [vs|] eqn:G; [|discriminate]. injection H as <- <-. destruct (get_inputs_ids _ _ _ G) as (ids & -> & F).
      split; [discriminate|]. split; [sf; lia|]. split; [right; eauto|]. intros _. split; [reflexivity|]. eauto.
Qed.
Lemma br_step t ins s s1 : wfs s -> lower_br t ins s = Some s1 -> exists tgt ds, maps s1 = maps s /\ nx s1 = nx s /\ loops s1 = loops s /\ labs s1 = labs s /\
  body s1 = body s /\ tm s1 (cur s) = TJump tgt /\ defer s1 = defer s ++ ds /\ linked (labs s) (maps s) (loops s) (cur s) t tgt ins ds /\
  match t with ToLoop j => nth_error (loops s) j = None -> nb s <= tgt < nb s1 /\ exists ids, Forall2 (gets (maps s)) ins ids /\ tm s1 tgt = TReturn (map Op ids) | _ => True end /\
  ph s1 = ph s /\ grow (fun b => b = cur s) s s1 /\ wfs s1.
Proof.
  intros Wf H. unfold lower_br, obind in H. destruct (resolve t ins s) as [[tgt sr]|] eqn:R; [|discriminate]. destruct (resolve_spec _ _ _ _ _ Wf R) as (Ai & Lt & Sr & Rt).
  destruct (record_edge_values (OBr t) t ins sr) as [s2|] eqn:Rc; [|discriminate]. 
  assert (Same : labs sr = labs s /\ loops sr = loops s /\ cur sr = cur s /\ maps sr = maps s) by (destruct Sr as [->|(t' & ->)]; sf; auto). destruct Same as (S1 & S2 & S3 & S4).
  destruct (record_spec _ _ _ _ _ tgt Rc ltac:(rewrite S1, S2; exact Ai)) as (ds & -> & Sd & Lk). rewrite S1, S2, S3, S4 in Lk. cbn [data] in Lk. rewrite S3 in Sd.
  exists tgt, ds. destruct Wf as (W1 & W2 & W3 & W4 & W5 & W6 & W7 & W8).
  destruct Sr as [->|(t' & ->)]; injection H as <-; sf.
  - do 5 (split; [reflexivity|]). split; [apply upf_same|]. split; [reflexivity|]. split; [exact Lk|]. split; [destruct t; [exact I|]; intros N; destruct (Rt N) as [-> _]; lia|]. split; [reflexivity|]. split.
    + unfold grow. sf. split; [lia|]. split; [lia|]. split; [exists []; reflexivity|]. split; [auto|]. split; [intros b _ Hb; rewrite upf_other by exact Hb; auto|].
      split; [intros b _; exists []; rewrite app_nil_r; reflexivity|]. exists ds. split; [reflexivity|]. eapply Forall_impl; [|exact Sd]. auto.
    + unfold wfs. sf. split; [exact Lt|]. split; [exact W2|]. split; [apply Forall_app; split; [exact W3|eapply Forall_impl; [|exact Sd]; cbn; intros x ->; exact W1]|]. auto 7.
  - do 5 (split; [reflexivity|]). split; [apply upf_same|]. split; [reflexivity|]. split; [exact Lk|]. split.
    { destruct t; [exact I|]. intros N. destruct (Rt N) as [-> (ids & G & E)]. split; [lia|]. exists ids. split; [exact G|]. rewrite upf_other by lia.
      assert (E' : t' = TReturn (map Op ids)) by (apply (f_equal (fun s => tm s (nb s - 1))) in E; sf; replace (S (nb s) - 1) with (nb s) in E by lia; rewrite !upf_same in E; exact E). rewrite upf_same. exact E'. }
    split; [reflexivity|]. split.
    + unfold grow. sf. split; [lia|]. split; [lia|]. split; [exists []; reflexivity|]. split; [auto|]. split; [intros b Lb Hb; rewrite upf_other by exact Hb; rewrite upf_other by lia; auto|].
      split; [intros b _; exists []; rewrite app_nil_r; reflexivity|]. exists ds. split; [reflexivity|]. eapply Forall_impl; [|exact Sd]. auto.
    + unfold wfs. sf. split; [exact Lt|]. split; [intros b Hb; apply W2; lia|].
      split; [apply Forall_app; split; [eapply Forall_impl; [|exact W3]; cbn; lia|eapply Forall_impl; [|exact Sd]; cbn; intros x ->; lia]|].
      split; [exact W4|]. split; [exact W5|]. split; [eapply Forall_impl; [|exact W6]; cbn; intros a [? ?]; split; [assumption|lia]|].
      split; [eapply Forall_impl; [|exact W7]; cbn; intros a [? ?]; split; [lia|assumption]|exact W8].
Qed.
Lemma br_if_step zero t ins s s1 : wfs s -> lower_br_if zero t ins s = Some s1 -> exists o c tgt ds, last_input ins = Some o /\ gets (maps s) o c /\
  maps s1 = maps s /\ nx s1 = nx s /\ loops s1 = loops s /\ labs s1 = labs s /\ body s1 = body s /\
  tm s1 (cur s) = (if zero then TIf (Op c) (cur s1) tgt else TIf (Op c) tgt (cur s1)) /\ defer s1 = defer s ++ ds /\
  linked (labs s) (maps s) (loops s) (cur s) t tgt (removelast ins) ds /\ Forall (fun x => src x = cur s) ds /\ nb s <= cur s1 /\
  ph s1 = ph s /\ grow (fun b => b = cur s) s s1 /\ wfs s1.
Proof.
  intros Wf H. unfold lower_br_if, obind in H. destruct (last_input ins) as [o|] eqn:Li; [|discriminate]. destruct (get_value o (maps s)) as [c|] eqn:G; [|discriminate].
  destruct (resolve t ins s) as [[tgt sr]|] eqn:R; [|discriminate]. destruct (resolve_spec _ _ _ _ _ Wf R) as (Ai & Lt & Sr & _).
  cbn [add_block] in H. match type of H with match ?x with _ => _ end = _ => destruct x as [s2|] eqn:Rc; [|discriminate] end.
  assert (Same : labs sr = labs s /\ loops sr = loops s /\ cur sr = cur s /\ maps sr = maps s) by (destruct Sr as [->|(t' & ->)]; sf; auto). destruct Same as (S1 & S2 & S3 & S4).
  destruct (record_spec _ _ _ _ _ tgt Rc ltac:(sf; rewrite S1, S2; exact Ai)) as (ds & -> & Sd & Lk). sf. rewrite S1, S2, S3, S4 in Lk. cbn [data] in Lk. rewrite S3 in Sd.
  exists o, c, tgt, ds. split; [reflexivity|]. split; [exact G|]. destruct Wf as (W1 & W2 & W3 & W4 & W5 & W6 & W7 & W8).
  assert (Nb : nb s <= nb sr /\ nx sr = nx s /\ body sr = body s /\ ph sr = ph s /\ defer sr = defer s /\ forall b, b < nb s -> tm sr b = tm s b).
  { destruct Sr as [->|(t' & ->)]; sf; [auto 7|]. split; [lia|]. do 4 (split; [reflexivity|]). intros b Hb. apply upf_other. lia. }
  destruct Nb as (N1 & N2 & N3 & N4 & N5 & N6).
  injection H as <-. sf. rewrite S1, S2, S3, S4, N2, N3, N4, N5. do 5 (split; [reflexivity|]). split; [destruct zero; apply upf_same|]. split; [reflexivity|]. split; [exact Lk|]. split; [exact Sd|]. split; [exact N1|]. split; [reflexivity|]. split.
  - unfold grow. sf. rewrite ?S1, ?S2, ?S3, ?S4, ?N2, ?N3, ?N4, ?N5. split; [lia|]. split; [lia|]. split; [exists []; reflexivity|]. split; [auto|].
    split; [intros b Lb Hb; rewrite upf_other by exact Hb; auto|].
    split; [intros b _; exists []; rewrite app_nil_r; reflexivity|]. exists ds. split; [reflexivity|]. eapply Forall_impl; [|exact Sd]. auto.
  - unfold wfs. sf. rewrite ?S1, ?S2, ?S3, ?S4, ?N2, ?N3, ?N4, ?N5. split; [lia|]. split; [intros b Hb; apply W2; lia|].
    split; [apply Forall_app; split; [eapply Forall_impl; [|exact W3]; cbn; lia|eapply Forall_impl; [|exact Sd]; cbn; intros x ->; lia]|].
    split; [exact W4|]. split; [exact W5|]. split; [eapply Forall_impl; [|exact W6]; cbn; intros a [? ?]; split; [assumption|lia]|].
    split; [eapply Forall_impl; [|exact W7]; cbn; intros a [? ?]; split; [lia|assumption]|exact W8].
Qed.

(** *** Labels and loops *)
Lemma phis_spec b : forall ts s, exists p t, create_phi_nodes b ts s = (seq (nx s) (length ts), St (nb s) p (body s) (tm s) (nx s + length ts) t (maps s) (labs s) (cur s) (loops s) (defer s)) /\
  p b = ph s b ++ seq (nx s) (length ts) /\ forall x, x <> b -> p x = ph s x.
Proof.
  induction ts as [|t ts IH]; intros s; cbn [create_phi_nodes length seq].
  - exists (ph s), (tys s). rewrite Nat.add_0_r, app_nil_r. split; [destruct s; reflexivity|auto].
  - cbn [new_value]. match goal with |- context [create_phi_nodes b ts ?x] => destruct (IH x) as (p & t' & -> & P1 & P2) end. sf.
    exists p, t'. split; [f_equal; f_equal; lia|]. split; [rewrite P1, upf_same, <- app_assoc; reflexivity|]. intros x Hx. rewrite P2, upf_other by exact Hx. reflexivity.
Qed.
Lemma outputs_spec k : forall vs i s m r, maps s = m :: r -> exists m', insert_outputs k i vs s = St (nb s) (ph s) (body s) (tm s) (nx s) (tys s) (m' :: r) (labs s) (cur s) (loops s) (defer s) /\
  map snd m' = rev vs ++ map snd m /\ (forall o, fst o <> k \/ snd o < i -> look origin_eqb o m' = look origin_eqb o m) /\ (forall x p, nth_error vs x = Some p -> look origin_eqb (k, i + x) m' = Some p).
Proof.
  induction vs as [|v vs IH]; intros i s m r Hm; cbn [insert_outputs].
  - exists m. split; [rewrite <- Hm; destruct s; reflexivity|]. split; [reflexivity|]. split; [auto|]. intros [|x]; discriminate.
  - destruct (IH (S i) (insert_value (k, i) v s) (((k, i), v) :: m) r) as (m' & -> & A & B & C); [sf; rewrite Hm; reflexivity|]. sf.
    exists m'. split; [reflexivity|]. split; [rewrite A; cbn [rev map snd]; rewrite <- app_assoc; reflexivity|]. split.
    + intros o Ho. rewrite (B o) by lia. rewrite look_cons. destruct (origin_eqb (k, i) o) eqn:E; [|reflexivity]. apply origin_eqb_eq in E. subst o. cbn in Ho. lia.
    + intros [|x] p Hx; cbn [nth_error] in Hx.
      * injection Hx as ->. rewrite Nat.add_0_r, (B (k, i)) by (cbn; lia). rewrite look_cons, (proj2 (origin_eqb_eq _ _) eq_refl). reflexivity.
      * replace (i + S x) with (S i + x) by lia. exact (C x p Hx).
Qed.
Lemma mir_types_length : forall ws ts, mir_types ws = Some ts -> length ts = length ws.
Proof. intros ws ts H. rewrite (mir_types_u32 _ _ H). apply repeat_length. Qed.
Lemma okm_phis m m' ms n len : okm (m :: ms) n -> map snd m' = rev (seq n len) ++ map snd m -> okm (m' :: ms) (n + len).
Proof.
  intros [N F] E. unfold okm. cbn [concat] in *. rewrite map_app in *. rewrite E, <- app_assoc. split.
  - apply nodup_app. split; [apply NoDup_rev, seq_NoDup|]. split; [exact N|]. intros x Hx I. apply in_rev, in_seq in Hx. pose proof (proj1 (Forall_forall _ _) F x I). cbn in *. lia.
  - apply Forall_app. split; [|eapply Forall_impl; [|exact F]; cbn; lia]. apply Forall_forall. intros x Hx. apply in_rev, in_seq in Hx. lia.
Qed.
Lemma own_find id : forall d k, In id (own_labels d) -> exists x, find_label id d k = Some x.
Proof.
  induction d as [|op ins outs rest IH|ins sub _ rest IH]; intros k H; cbn [own_labels find_label] in *; [contradiction| |auto].
  destruct op; cbn [app] in H; auto. destruct (Nat.eqb_spec id0 id); [eauto|]. destruct H; [contradiction|auto].
Qed.
Lemma find_own id : forall d k x, find_label id d k = Some x -> In id (own_labels d).
Proof.
  induction d as [|op ins outs rest IH|ins sub _ rest IH]; intros k x H; cbn [own_labels find_label] in *; [discriminate| |eauto].
  destruct op; cbn [app]; eauto. destruct (Nat.eqb_spec id0 id); [left; assumption|right; eauto].
Qed.
Lemma find_after id : forall d k j outs r, find_label id d k = Some (j, outs, r) -> k <= j.
Proof.
  induction d as [|op ins outs rest IH|ins sub _ rest IH]; intros k j o r H; cbn [find_label] in H; [discriminate| |apply IH in H; lia].
  destruct op; try (apply IH in H; lia). destruct (Nat.eqb id0 id); [injection H as <- _ _; lia|apply IH in H; lia].
Qed.

Definition labelled (lo : nat) (d : dag) (k : nat) (s : st) : Prop :=
  forall id j outs rest', find_label id d k = Some (j, outs, rest') -> exists b phis, look Nat.eqb id (labs s) = Some (b, phis) /\ length phis = length outs /\ lo <= b < nb s /\
    ph s b = phis /\ mapped j phis (hd [] (maps s)).
Definition distinct (d : dag) (s : st) : Prop :=
  forall id id' b p p', In id (own_labels d) -> In id' (own_labels d) -> look Nat.eqb id (labs s) = Some (b, p) -> look Nat.eqb id' (labs s) = Some (b, p') -> id = id'.

Lemma allocate_spec : forall d k s s', allocate d k s = Some s' -> wfs s -> NoDup (map fst (labs s')) ->
  grow (fun _ => False) s s' /\ wfs s' /\ cur s' = cur s /\ loops s' = loops s /\ defer s' = defer s /\ body s' = body s /\ tm s' = tm s /\ tl (maps s') = tl (maps s) /\
  (forall o, fst o < k -> look origin_eqb o (hd [] (maps s')) = look origin_eqb o (hd [] (maps s))) /\ map fst (labs s') = rev (own_labels d) ++ map fst (labs s) /\
  labelled (nb s) d k s' /\ distinct d s'.
Proof.
  induction d as [|op ins outs rest IH|ins sub _ rest IH]; intros k s s' H Wf Nd.
  - injection H as <-. split; [apply grow_refl|]. split; [exact Wf|]. do 6 (split; [reflexivity|]). split; [auto|]. split; [reflexivity|]. split; [discriminate|]. intros id id' b p p' [].
  - assert (Go : (forall id, op <> OLabel id) -> allocate rest (S k) s = Some s' -> own_labels (Next op ins outs rest) = own_labels rest ->
      (forall id, find_label id (Next op ins outs rest) k = find_label id rest (S k)) ->
      grow (fun _ => False) s s' /\ wfs s' /\ cur s' = cur s /\ loops s' = loops s /\ defer s' = defer s /\ body s' = body s /\ tm s' = tm s /\ tl (maps s') = tl (maps s) /\
      (forall o, fst o < k -> look origin_eqb o (hd [] (maps s')) = look origin_eqb o (hd [] (maps s))) /\ map fst (labs s') = rev (own_labels (Next op ins outs rest)) ++ map fst (labs s) /\
      labelled (nb s) (Next op ins outs rest) k s' /\ distinct (Next op ins outs rest) s').
    { intros _ A Ow Fi. destruct (IH _ _ _ A Wf Nd) as (I1 & I2 & I3 & I4 & I5 & I6 & I7 & I8 & I9 & I10 & I11 & I12).
      do 8 (split; [assumption|]). split; [intros o Ho; apply I9; lia|]. split; [rewrite Ow; exact I10|]. split; [|unfold distinct; rewrite Ow; exact I12].
      intros id j outs' r Hf. rewrite Fi in Hf. eauto. }
    destruct op; try (apply Go; [discriminate|exact H|reflexivity|reflexivity]).
    clear Go. cbn [allocate add_block] in H. destruct (mir_types outs) as [ts|] eqn:Mt; [|discriminate].
    match type of H with context [create_phi_nodes ?b ts ?x] => destruct (phis_spec b ts x) as (p & t & Hp & P1 & P2) end. rewrite Hp in H. sf. clear Hp.
    destruct (maps s) as [|m r] eqn:Ms; [destruct Wf as (_ & _ & _ & _ & X & _); congruence|].
    match type of H with context [insert_outputs k 0 ?vs ?x] => destruct (outputs_spec k vs 0 x m r) as (m' & Ho & O1 & O2 & O3); [sf; first [exact Ms|reflexivity]|] end. rewrite Ho in H. sf. clear Ho.
    rewrite (mir_types_length _ _ Mt) in *.
    match type of H with allocate rest (S k) ?x = _ => set (s1 := x) in * end.
    destruct Wf as (W1 & W2 & W3 & W4 & W5 & W6 & W7 & W8).
    assert (Pb : p (nb s) = seq (nx s) (length outs)) by (rewrite P1, (proj1 (W2 (nb s) ltac:(lia))); reflexivity).
    assert (Wf1 : wfs s1).
    { unfold wfs, s1. sf. split; [lia|]. split; [intros b Hb; rewrite P2 by lia; apply W2; lia|]. split; [eapply Forall_impl; [|exact W3]; cbn; lia|].
      split; [eapply okm_phis; [rewrite <- Ms; exact W4|exact O1]|]. split; [discriminate|]. split; [eapply Forall_impl; [|exact W6]; cbn; intros a [? ?]; split; [assumption|lia]|].
      split; [|exact W8]. constructor; [cbn; split; [lia|apply seq_NoDup]|]. eapply Forall_impl; [|exact W7]; cbn; intros a [? ?]; split; [lia|assumption]. }
    assert (G1 : grow (fun _ => False) s s1).
    { unfold grow, s1. sf. split; [lia|]. split; [lia|]. split; [eexists [_]; reflexivity|]. split; [intros b Hb; apply P2; lia|]. split; [auto|].
      split; [intros b _; exists []; rewrite app_nil_r; reflexivity|]. exists []. rewrite app_nil_r. auto. }
    destruct (IH _ _ _ H Wf1 Nd) as (I1 & I2 & I3 & I4 & I5 & I6 & I7 & I8 & I9 & I10 & I11 & I12).
    split; [eapply grow_trans; [exact G1|exact I1|tauto]|]. split; [exact I2|].
    split; [exact I3|]. split; [exact I4|]. split; [exact I5|]. split; [exact I6|]. split; [exact I7|]. split; [exact I8|].
    assert (Hd1 : hd [] (maps s1) = m') by reflexivity. rewrite Hd1 in *. cbn [hd].
    split; [intros o Ho; rewrite (I9 o) by lia; apply O2; lia|].
    split; [rewrite I10; cbn [own_labels app rev]; rewrite <- app_assoc; reflexivity|].
    assert (Lk : look Nat.eqb id (labs s') = Some (nb s, seq (nx s) (length outs))).
    { eapply grow_look; [exact I1|exact Nd|]. unfold s1, look. sf. cbn [find fst]. rewrite Nat.eqb_refl. reflexivity. }
    assert (Nid : ~ In id (own_labels rest)).
    { intros X. rewrite I10 in Nd. apply nodup_app in Nd as (_ & _ & Nd). apply (Nd id); [rewrite <- in_rev; exact X|]. unfold s1. sf. cbn [map fst]. left; reflexivity. }
    assert (Gt : nb s < nb s') by (destruct I1 as (X & _); unfold s1 in X; sf; lia).
    split.
    + intros id' j outs' rest' Hf. cbn [find_label] in Hf. destruct (Nat.eqb_spec id id') as [<-|Ne].
      * injection Hf as <- <- <-. exists (nb s), (seq (nx s) (length outs)). split; [exact Lk|]. split; [apply seq_length|]. split; [lia|]. split.
        -- destruct I1 as (_ & _ & _ & X & _). rewrite X by (unfold s1; sf; lia). exact Pb.
        -- intros i q Hq. rewrite I9 by (cbn; lia). exact (O3 i q Hq).
      * destruct (I11 id' j outs' rest' Hf) as (b & phis & X1 & X2 & X3 & X4). exists b, phis. split; [exact X1|]. split; [exact X2|]. split; [unfold s1 in X3; sf; lia|exact X4].
    + assert (Fresh : forall i b q, In i (own_labels rest) -> look Nat.eqb i (labs s') = Some (b, q) -> b <> nb s).
      { intros i b q Hi Hl. destruct (own_find i rest (S k) Hi) as ([[j o] r'] & Hf). destruct (I11 i j o r' Hf) as (b' & ph' & X1 & _ & X3 & _). rewrite Hl in X1. injection X1 as <- <-. unfold s1 in X3. sf. lia. }
      intros i i' b q q' Hi Hi' L1 L2. cbn [own_labels app] in Hi, Hi'. destruct Hi as [<-|Hi], Hi' as [<-|Hi'].
      * reflexivity.
      * rewrite Lk in L1. injection L1 as <- _. elim (Fresh _ _ _ Hi' L2). reflexivity.
      * rewrite Lk in L2. injection L2 as <- _. elim (Fresh _ _ _ Hi L1). reflexivity.
      * exact (I12 i i' b q q' Hi Hi' L1 L2).
  - cbn [allocate] in H. destruct (IH _ _ _ H Wf Nd) as (I1 & I2 & I3 & I4 & I5 & I6 & I7 & I8 & I9 & I10 & I11 & I12).
    do 8 (split; [assumption|]). split; [intros o Ho; apply I9; lia|]. split; [exact I10|]. split; [exact I11|exact I12].
Qed.

Lemma loop_step ins sub s s1 : wfs s -> enter_loop ins sub s = Some s1 -> NoDup (map fst (labs s1)) ->
  exists ins0 outs r phis ids, sub = Next OInputs ins0 outs r /\ length outs = length phis /\ Forall2 (gets (maps s)) (firstn (length phis) ins) ids /\
  cur s1 = S (nb s) /\ S (nb s) < nb s1 /\ loops s1 = (nb s, phis) :: loops s /\ tl (maps s1) = maps s /\ mapped 0 phis (hd [] (maps s1)) /\
  tm s1 (cur s) = TJump (nb s) /\ tm s1 (nb s) = TJump (S (nb s)) /\ ph s1 (nb s) = phis /\ ph s1 (S (nb s)) = [] /\ body s1 = body s /\
  defer s1 = defer s ++ edges (nb s) phis (cur s) (map Op ids) /\ NoDup phis /\
  grow (fun b => b = cur s) s s1 /\ wfs s1 /\ labelled (S (S (nb s))) sub 0 s1 /\ distinct sub s1 /\ map fst (labs s1) = rev (own_labels sub) ++ map fst (labs s).
Proof.
  intros Wf H Nd. unfold enter_loop in H. destruct sub as [|[] ins0 outs r|]; try discriminate H. cbn [add_block] in H. unfold obind in H.
  destruct (mir_types outs) as [ts|] eqn:Mt; [|discriminate].
  match type of H with context [create_phi_nodes ?b ts ?x] => destruct (phis_spec b ts x) as (p & t & Hp & P1 & P2) end. rewrite Hp in H. sf. clear Hp.
  rewrite (mir_types_length _ _ Mt) in *. set (phis := seq (nx s) (length outs)) in *.
  match type of H with context [get_inputs ?a ?b] => destruct (get_inputs a b) as [vs|] eqn:G; [|discriminate] end.
  destruct (get_inputs_ids _ _ _ G) as (ids & -> & Fi). sf.
  match type of H with context [insert_outputs 0 0 ?vs ?x] => destruct (outputs_spec 0 vs 0 x [] (maps s)) as (m' & Ho & O1 & O2 & O3); [reflexivity|] end. rewrite Ho in H. sf. clear Ho.
  change (allocate (Next OInputs ins0 outs r) 0) with (allocate r 1) in H.
  match type of H with allocate r 1 ?x = _ => set (s0 := x) in * end.
  destruct Wf as (W1 & W2 & W3 & W4 & W5 & W6 & W7 & W8).
  assert (Pb : p (nb s) = phis) by (rewrite P1, (proj1 (W2 (nb s) ltac:(lia))); reflexivity).
  assert (Len : length phis = length outs) by apply seq_length.
  assert (Np : NoDup phis) by apply seq_NoDup.
  assert (Wf0 : wfs s0).
  { unfold wfs, s0. sf. split; [lia|]. split; [intros b Hb; rewrite P2 by lia; apply W2; lia|].
    split; [apply Forall_app; split; [eapply Forall_impl; [|exact W3]; cbn; lia|eapply Forall_impl; [|apply edges_src]; cbn; intros x ->; lia]|].
    split; [eapply okm_phis; [|exact O1]; exact W4|]. split; [discriminate|].
    split; [constructor; [cbn; split; [exact Np|lia]|]; eapply Forall_impl; [|exact W6]; cbn; intros a [? ?]; split; [assumption|lia]|].
    split; [eapply Forall_impl; [|exact W7]; cbn; intros a [? ?]; split; [lia|assumption]|exact W8]. }
  assert (G0 : grow (fun b => b = cur s) s s0).
  { unfold grow, s0. sf. split; [lia|]. split; [lia|]. split; [exists []; reflexivity|]. split; [intros b Hb; apply P2; lia|].
    split; [intros b Lb Hb; rewrite upf_other by lia; rewrite upf_other by exact Hb; auto|].
    split; [intros b _; exists []; rewrite app_nil_r; reflexivity|]. eexists. split; [reflexivity|]. eapply Forall_impl; [|apply edges_src]. auto. }
  destruct (allocate_spec _ _ _ _ H Wf0 Nd) as (I1 & I2 & I3 & I4 & I5 & I6 & I7 & I8 & I9 & I10 & I11 & I12).
  exists ins0, outs, r, phis, ids. split; [reflexivity|]. split; [symmetry; exact Len|]. split; [exact Fi|].
  pose proof I1 as (J1 & _ & _ & J4 & _).
  split; [rewrite I3; reflexivity|]. split; [unfold s0 in J1; sf; lia|]. split; [rewrite I4; reflexivity|]. split; [rewrite I8; reflexivity|].
  split; [intros i q Hq; rewrite I9 by (cbn; lia); exact (O3 i q Hq)|].
  rewrite I7, I6, I5. unfold s0. sf. split; [rewrite upf_other by lia; apply upf_same|]. split; [apply upf_same|].
  split; [rewrite J4 by (unfold s0; sf; lia); exact Pb|]. split; [rewrite J4 by (unfold s0; sf; lia); unfold s0; sf; rewrite P2 by lia; apply W2; lia|].
  split; [reflexivity|]. split; [reflexivity|]. split; [exact Np|]. split; [eapply grow_trans; [exact G0|exact I1|tauto]|]. split; [exact I2|].
  split; [exact I11|]. split; [exact I12|]. exact I10.
Qed.

(** ** Lowering only touches the current block and the blocks of the labels *)
Lemma allocate_labs : forall d k s s', allocate d k s = Some s' -> exists l, labs s' = l ++ labs s.
Proof.
  induction d as [|op ins outs rest IH|ins sub _ rest IH]; intros k s s' H; [injection H as <-; exists []; reflexivity| |eapply IH, H].
  destruct op; try (eapply IH, H). cbn [allocate add_block] in H. destruct (mir_types outs) as [ts|]; [|discriminate].
  match type of H with context [create_phi_nodes ?b ts ?x] => destruct (phis_spec b ts x) as (p & t & Hp & _) end. rewrite Hp in H. sf.
  assert (X : forall vs i s, labs (insert_outputs k i vs s) = labs s) by (clear; induction vs as [|v vs IH]; intros i s; cbn [insert_outputs]; [reflexivity|rewrite IH; reflexivity]).
  destruct (IH _ _ _ H) as (l & ->). sf. rewrite X. sf. exists (l ++ [(id, (nb s, seq (nx s) (length ts)))]). rewrite <- app_assoc. reflexivity.
Qed.
Section Facts.
  Variable params : nat -> option (list wty).
  Lemma enter_labs ins sub s s1 : enter_loop ins sub s = Some s1 -> exists l, labs s1 = l ++ labs s.
  Proof.
    unfold enter_loop, obind. destruct sub as [|[] ins0 outs r|]; try discriminate. cbn [add_block]. destruct (mir_types outs) as [ts|]; [|discriminate].
    match goal with |- context [create_phi_nodes ?b ts ?x] => destruct (phis_spec b ts x) as (p & t & Hp & _) end. rewrite Hp. sf. destruct (get_inputs _ _); [|discriminate].
    intros H. apply allocate_labs in H. destruct H as (l0 & ->).
    assert (X : forall vs i s, labs (insert_outputs 0 i vs s) = labs s) by (clear; induction vs as [|v vs IH]; intros i s; cbn [insert_outputs]; [reflexivity|rewrite IH; reflexivity]).
    exists l0. rewrite X. reflexivity.
  Qed.
  Lemma node_labs op k ins s s1 : match op with
      | OInputs => Some s
      | OWasm w => lower_op params k w ins s
      | OLabel id => match look Nat.eqb id (labs s) with Some (b, _) => Some (set_cur b s) | None => None end
      | OBr t => lower_br t ins s
      | OBrIf t => lower_br_if false t ins s
      | OBrIfZero t => lower_br_if true t ins s
      | OBrTable => None
      end = Some s1 -> labs s1 = labs s.
  Proof.
    intros E. destruct op; try discriminate E.
    + injection E as <-; reflexivity.
    + unfold lower_op, obind in E. destruct (get_inputs ins s); [|discriminate]. destruct (code _ _ _ _) as [[[is ts] r]|]; [|discriminate]. destruct (new_values_spec ts s) as (t & Hn). rewrite Hn in E.
      destruct r; injection E as <-; reflexivity.
    + destruct (look _ _ _) as [[b p]|]; [|discriminate]. injection E as <-. reflexivity.
    + unfold lower_br, obind in E. destruct (resolve t ins s) as [[b sr]|] eqn:R; [|discriminate].
      assert (Lr : labs sr = labs s) by (unfold resolve in R; destruct t; [destruct (look _ _ _) as [[? ?]|]; [|discriminate]; congruence|]; destruct (nth_error _ _) as [[? ?]|]; [congruence|]; destruct (loops s); [|discriminate]; cbn [add_block] in R; destruct (get_inputs ins s); [|discriminate]; injection R as <- <-; reflexivity).
      destruct (record_edge_values _ _ _ _) as [s2|] eqn:Rc; [|discriminate]. injection E as <-. sf. rewrite <- Lr.
      unfold record_edge_values in Rc. destruct t; [destruct (get_inputs _ _); [|discriminate]; destruct (look _ _ _) as [[? ?]|]; [|discriminate]|destruct (nth_error _ _) as [[? ?]|]; [destruct (get_inputs _ _); [|discriminate]|]]; injection Rc as <-; reflexivity.
    + unfold lower_br_if, obind in E. destruct (last_input ins); [|discriminate]. destruct (get_value _ _); [|discriminate]. destruct (resolve t ins s) as [[b sr]|] eqn:R; [|discriminate].
      assert (Lr : labs sr = labs s) by (unfold resolve in R; destruct t; [destruct (look _ _ _) as [[? ?]|]; [|discriminate]; congruence|]; destruct (nth_error _ _) as [[? ?]|]; [congruence|]; destruct (loops s); [|discriminate]; cbn [add_block] in R; destruct (get_inputs ins s); [|discriminate]; injection R as <- <-; reflexivity).
      cbn [add_block] in E. destruct (record_edge_values _ _ _ _) as [s2|] eqn:Rc; [|discriminate]. injection E as <-. sf. rewrite <- Lr.
      unfold record_edge_values in Rc. destruct t; [destruct (get_inputs _ _); [|discriminate]; destruct (look _ _ _) as [[? ?]|]; [|discriminate]|destruct (nth_error _ _) as [[? ?]|]; [destruct (get_inputs _ _); [|discriminate]|]]; injection Rc as <-; reflexivity.
    + unfold lower_br_if, obind in E. destruct (last_input ins); [|discriminate]. destruct (get_value _ _); [|discriminate]. destruct (resolve t ins s) as [[b sr]|] eqn:R; [|discriminate].
      assert (Lr : labs sr = labs s) by (unfold resolve in R; destruct t; [destruct (look _ _ _) as [[? ?]|]; [|discriminate]; congruence|]; destruct (nth_error _ _) as [[? ?]|]; [congruence|]; destruct (loops s); [|discriminate]; cbn [add_block] in R; destruct (get_inputs ins s); [|discriminate]; injection R as <- <-; reflexivity).
      cbn [add_block] in E. destruct (record_edge_values _ _ _ _) as [s2|] eqn:Rc; [|discriminate]. injection E as <-. sf. rewrite <- Lr.
      unfold record_edge_values in Rc. destruct t; [destruct (get_inputs _ _); [|discriminate]; destruct (look _ _ _) as [[? ?]|]; [|discriminate]|destruct (nth_error _ _) as [[? ?]|]; [destruct (get_inputs _ _); [|discriminate]|]]; injection Rc as <-; reflexivity.
  Qed.
  Lemma lower_labs : forall d k s s', lower params d k s = Some s' -> exists l, labs s' = l ++ labs s.
  Proof.
    assert (Tr : forall a b c : list (nat * (nat * list nat)), (exists l, b = l ++ a) -> (exists l, c = l ++ b) -> exists l, c = l ++ a).
    { intros a b c (x & ->) (y & ->). exists (y ++ x). apply app_assoc. }
    induction d as [|op ins outs rest IH|ins sub IHs rest IH]; intros k s s' H; cbn [lower] in H; [injection H as <-; exists []; reflexivity| |].
    - unfold obind at 1 in H. match type of H with match ?x with _ => _ end = _ => destruct x as [s1|] eqn:E; [|discriminate] end. apply IH in H. eapply Tr; [|exact H].
      exists []. rewrite (node_labs _ _ _ _ _ E). reflexivity.
    - unfold obind at 1 in H. destruct (enter_loop ins sub s) as [s1|] eqn:E1; [|discriminate]. unfold obind in H. destruct (lower params sub 0 s1) as [s2|] eqn:E2; [|discriminate].
      apply IH in H. sf. eapply Tr; [eapply enter_labs, E1|]. eapply Tr; [eapply IHs, E2|exact H].
  Qed.

  Definition own (d : dag) (s : st) (b : nat) : Prop := exists id phis, In id (own_labels d) /\ look Nat.eqb id (labs s) = Some (b, phis).
  Definition touch (live : bool) (d : dag) (s : st) (b : nat) : Prop := (live = true /\ b = cur s) \/ own d s b.
  Definition known (d : dag) (s : st) : Prop := forall id, In id (own_labels d) -> exists x, look Nat.eqb id (labs s) = Some x.
  Lemma own_same T d s s1 b : grow T s s1 -> NoDup (map fst (labs s1)) -> known d s -> own d s1 b -> own d s b.
  Proof.
    intros G N K (id & phis & I & L). destruct (K id I) as ([b' p'] & L'). pose proof (grow_look _ _ _ _ _ G N L') as X. rewrite L in X. injection X as -> ->. exists id, p'. auto.
  Qed.
  Lemma known_same T d s s1 : grow T s s1 -> NoDup (map fst (labs s1)) -> known d s -> known d s1.
  Proof. intros G N K id I. destruct (K id I) as (x & L). exists x. eapply grow_look; eassumption. Qed.
  Lemma leave_wfs ms ls s : wfs s -> tl (maps s) = ms -> ms <> [] -> tl (loops s) = ls -> wfs (set_maps ms (set_loops ls s)).
  Proof.
    intros (W1 & W2 & W3 & W4 & W5 & W6 & W7 & W8) E N L. unfold wfs. sf. split; [exact W1|]. split; [exact W2|]. split; [exact W3|].
    split; [destruct (maps s) as [|m r]; [congruence|]; cbn [tl] in E; subst r; exact (proj2 (proj2 (okm_head _ _ _ W4)))|]. split; [exact N|].
    split; [destruct (loops s); cbn [tl] in L; subst ls; [constructor|inversion W6; assumption]|]. auto.
  Qed.
  Lemma label_wfs b id p s : wfs s -> look Nat.eqb id (labs s) = Some (b, p) -> wfs (set_cur b s).
  Proof.
    intros (W1 & W) L. split; [|exact W]. sf. destruct W as (_ & _ & _ & _ & _ & W7 & _). apply look_in_nat in L. exact (proj1 (proj1 (Forall_forall _ _) W7 _ L)).
  Qed.
  Lemma grow_cur T b s : grow T s (set_cur b s).
  Proof. exact (grow_refl T s). Qed.

  Lemma lower_grow : forall d k live s s', lower params d k s = Some s' -> tidy live d = true -> wfs s -> NoDup (map fst (labs s')) -> known d s ->
    grow (touch live d s) s s' /\ wfs s' /\ tl (maps s') = tl (maps s) /\ loops s' = loops s.
  Proof.
    induction d as [|op ins outs rest IH|ins sub IHs rest IH]; intros k live s s' H Ti Wf Nd Kn; cbn [lower] in H.
    - injection H as <-. split; [apply grow_refl|auto].
    - unfold obind at 1 in H. match type of H with match ?x with _ => _ end = _ => destruct x as [s1|] eqn:E; [|discriminate] end.
      destruct (lower_labs _ _ _ _ H) as (lab & Ll). assert (Nd1 : NoDup (map fst (labs s1))) by (rewrite Ll, map_app in Nd; apply nodup_app in Nd; tauto).
      assert (Kr : known rest s) by (intros id Hi; apply Kn; cbn [own_labels]; apply in_or_app; right; exact Hi).
      assert (Or : forall b, own rest s b -> own (Next op ins outs rest) s b) by (intros b (id & p & X & Y); exists id, p; split; [cbn [own_labels]; apply in_or_app; right; exact X|exact Y]).
      assert (Step : forall live', live = true -> grow (fun b => b = cur s) s s1 -> wfs s1 -> tidy live' rest = true -> (live' = true -> cur s1 = cur s \/ nb s <= cur s1) -> tl (maps s1) = tl (maps s) -> loops s1 = loops s ->
        grow (touch live (Next op ins outs rest) s) s s' /\ wfs s' /\ tl (maps s') = tl (maps s) /\ loops s' = loops s).
      { intros live' -> G Wf1 Ti' Cu Mp Lp. destruct (IH _ live' _ _ H Ti' Wf1 Nd (known_same _ _ _ _ G Nd1 Kr)) as (A & B & C & D).
        split; [|split; [exact B|split; congruence]]. eapply grow_trans; [exact G|exact A|]. intros b Hb [->|[[L ->]|O]]; [left; auto| |].
        - destruct (Cu L) as [->|X]; [left; auto|lia].
        - right. apply Or. eapply own_same; eassumption. }
      destruct op; cbn [tidy] in Ti.
      + injection E as <-. apply andb_true_iff in Ti as [-> Ti]. apply (Step true); auto. apply grow_refl.
      + apply andb_true_iff in Ti as [Ti1 Ti]. apply andb_true_iff in Ti1 as [_ ->]. destruct (op_step _ _ _ _ _ _ Wf E) as (ids & is & ts & r & _ & _ & E1 & _ & E3 & _ & E5 & _ & _ & G & Wf1).
        apply (Step true); auto. rewrite E1. apply with_result_ext.
      + destruct (look Nat.eqb id (labs s)) as [[b p]|] eqn:L; [|discriminate]. injection E as <-.
        destruct (IH _ true _ _ H Ti (label_wfs _ _ _ _ Wf L) Nd Kr) as (A & B & C & D). sf. split; [|auto]. eapply grow_trans; [apply (grow_cur (fun _ => False) b s)|exact A|].
        intros b' Hb [[]|[[_ X]|O]]; sf; [subst b'|]; right; [|apply Or; exact O]. exists id, p. split; [left; reflexivity|exact L].
      + apply andb_true_iff in Ti as [-> Ti]. destruct (br_step _ _ _ _ Wf E) as (tgt & ds & E1 & _ & E3 & _ & _ & _ & _ & _ & _ & _ & G & Wf1). apply (Step false); auto; [discriminate|congruence].
      + apply andb_true_iff in Ti as [-> Ti]. destruct (br_if_step _ _ _ _ _ Wf E) as (o & c & tgt & ds & _ & _ & E1 & _ & E3 & _ & _ & _ & _ & _ & _ & Cu & _ & G & Wf1). apply (Step true); auto. congruence.
      + apply andb_true_iff in Ti as [-> Ti]. destruct (br_if_step _ _ _ _ _ Wf E) as (o & c & tgt & ds & _ & _ & E1 & _ & E3 & _ & _ & _ & _ & _ & _ & Cu & _ & G & Wf1). apply (Step true); auto. congruence.
      + discriminate E.
    - unfold obind at 1 in H. destruct (enter_loop ins sub s) as [s1|] eqn:E1; [|discriminate]. unfold obind in H. destruct (lower params sub 0 s1) as [s2|] eqn:E2; [|discriminate].
      cbn [tidy] in Ti. apply andb_true_iff in Ti as [Ti Tr]. apply andb_true_iff in Ti as [-> Ts].
      destruct (lower_labs _ _ _ _ H) as (l3 & L3). sf. assert (Nd2 : NoDup (map fst (labs s2))) by (rewrite L3, map_app in Nd; apply nodup_app in Nd; tauto).
      destruct (lower_labs _ _ _ _ E2) as (l2 & L2). assert (Nd1 : NoDup (map fst (labs s1))) by (rewrite L2, map_app in Nd2; apply nodup_app in Nd2; tauto).
      destruct (loop_step _ _ _ _ Wf E1 Nd1) as (ins0 & outs & r & phis & ids & Es & _ & _ & Cu & Nb & Lp & Mp & _ & _ & _ & _ & _ & _ & _ & _ & G1 & Wf1 & Lab & _ & _).
      assert (Ks : known sub s1). { intros id Hi. destruct (own_find id sub 0 Hi) as ([[j o] r'] & Hf). destruct (Lab _ _ _ _ Hf) as (b & p & X & _). eauto. }
      destruct (IHs _ true _ _ E2 Ts Wf1 Nd2 Ks) as (G2 & Wf2 & Mp2 & Lp2).
      assert (G12 : grow (fun b => b = cur s) s s2).
      { eapply grow_trans; [exact G1|exact G2|]. intros b Hb [X|[[_ X]|(id & p & Hi & L)]]; [exact X|lia|]. destruct (own_find id sub 0 Hi) as ([[j o] r'] & Hf).
        destruct (Lab _ _ _ _ Hf) as (b' & p' & X & _ & Y & _). rewrite L in X. injection X as <- <-. lia. }
      assert (Kr : known rest s) by (intros id Hi; apply Kn; exact Hi).
      assert (Wn : maps s <> []) by (destruct Wf as (_ & _ & _ & _ & X & _); exact X).
      assert (Wx : wfs (set_maps (tl (maps s2)) (set_loops (tl (loops s2)) s2))) by (apply leave_wfs; [exact Wf2|reflexivity|congruence|reflexivity]).
      destruct (IH _ false _ _ H Tr Wx Nd (known_same _ _ _ _ G12 Nd2 Kr)) as (G3 & Wf3 & Mp3 & Lp3). sf.
      split; [|split; [exact Wf3|split; [rewrite Mp3, Mp2, Mp; reflexivity|rewrite Lp3, Lp2, Lp; reflexivity]]].
      eapply grow_trans; [exact G12|exact G3|]. intros b Hb [X|[[X _]|O]]; [left; auto|discriminate|]. right.
      assert (O' : own rest s b) by (eapply own_same; [exact G12|exact Nd2|exact Kr|exact O]). exact O'.
  Qed.

  (** ** The graph has the code *)
  Definition inv (live : bool) (d : dag) (k : nat) (s : st) : Prop :=
    wfs s /\ NoDup (own_labels d) /\ labelled 0 d k s /\ distinct d s /\
    (forall b, own d s b -> body s b = [] /\ open b s /\ (live = true -> b <> cur s)) /\ (live = true -> open (cur s) s).
  Lemma inv_known live d k s : inv live d k s -> known d s.
  Proof. intros (_ & _ & L & _) id Hi. destruct (own_find id d k Hi) as ([[j o] r] & Hf). destruct (L _ _ _ _ Hf) as (b & p & X & _). eauto. Qed.
  Lemma inv_own live d k s b : inv live d k s -> own d s b -> b < nb s.
  Proof. intros (_ & _ & L & _) (id & p & Hi & X). destruct (own_find id d k Hi) as ([[j o] r] & Hf). destruct (L _ _ _ _ Hf) as (b' & p' & Y & _ & Z & _). rewrite X in Y. injection Y as <- <-. lia. Qed.
  Lemma inv_step live' d rest k s s1 : inv true d k s -> own_labels rest = own_labels d -> (forall id, find_label id rest (S k) = find_label id d k) ->
    grow (fun b => b = cur s) s s1 -> wfs s1 -> NoDup (map fst (labs s1)) ->
    (forall o, k < fst o -> look origin_eqb o (hd [] (maps s1)) = look origin_eqb o (hd [] (maps s))) ->
    (live' = true -> open (cur s1) s1 /\ (cur s1 = cur s \/ nb s <= cur s1)) -> inv live' rest (S k) s1.
  Proof.
    intros I Ow Fi G Wf1 Nd Lk Op. pose proof (inv_known _ _ _ _ I) as Kn. pose proof (fun b => inv_own _ _ _ _ b I) as Lt. destruct I as (Wf & N & L & D & O & C).
    assert (Oe : forall b, own rest s1 b -> own d s b).
    { intros b (id & p & X & Y). apply (own_same _ _ _ _ _ G Nd Kn). exists id, p. rewrite <- Ow. auto. }
    split; [exact Wf1|]. split; [rewrite Ow; exact N|]. split; [|split; [|split]].
    - intros id j outs r Hf. pose proof (find_after _ _ _ _ _ _ Hf) as Lj. rewrite Fi in Hf. destruct (L _ _ _ _ Hf) as (b & phis & X1 & X2 & X3 & X4 & X5). exists b, phis.
      split; [exact (grow_look _ _ _ _ _ G Nd X1)|]. split; [exact X2|]. pose proof G as (G1 & _ & _ & G4 & _). split; [lia|]. split; [rewrite G4 by lia; exact X4|].
      intros i p Hp. rewrite Lk by (cbn; lia). apply X5, Hp.
    - intros id id' b p p' Hi Hi' L1 L2. rewrite Ow in Hi, Hi'. destruct (Kn id Hi) as (x & K1), (Kn id' Hi') as (x' & K2).
      pose proof (grow_look _ _ _ _ _ G Nd K1) as M1. pose proof (grow_look _ _ _ _ _ G Nd K2) as M2. rewrite L1 in M1. rewrite L2 in M2. injection M1 as <-. injection M2 as <-.
      exact (D id id' b p p' Hi Hi' K1 K2).
    - intros b Hb. apply Oe in Hb. destruct (O b Hb) as (X1 & X2 & X3). specialize (X3 eq_refl). pose proof (Lt b Hb) as Lb. pose proof G as (_ & _ & _ & _ & G5 & _).
      split; [rewrite (proj1 (G5 b Lb X3)); exact X1|]. split; [eapply grow_open; eassumption|]. intros Lv. destruct (Op Lv) as [_ [->|]]; [exact X3|lia].
    - intros Lv. exact (proj1 (Op Lv)).
  Qed.

  Lemma src_from_app b l1 l2 : src_from b (l1 ++ l2) = match src_from b l1 with Some v => Some v | None => src_from b l2 end.
  Proof. induction l1 as [|[q v] l1 IH]; cbn [app src_from]; [reflexivity|]. destruct (Nat.eqb b q); [reflexivity|exact IH]. Qed.
  Lemma fed_edges phi b tgt phis ids D1 D2 : defer phi = D1 ++ edges tgt phis b (map Op ids) ++ D2 -> Forall (fun x => src x <> b) D1 -> NoDup phis -> fed phi b tgt phis ids.
  Proof.
    intros Hd Ho Np i p id Hp Hi. unfold operands. rewrite Hd, !flat_map_app, !src_from_app.
    assert (N : forall p, src_from b (flat_map (fun x => let '(b', d', from, v) := x in if Nat.eqb b' tgt && Nat.eqb d' p then [(from, v)] else []) D1) = None).
    { clear -Ho. intros p. induction D1 as [|[[[b' d'] from] v] D1 IH]; [reflexivity|]. inversion Ho; subst. cbn [flat_map]. rewrite src_from_app, IH by assumption.
      destruct (Nat.eqb b' tgt && Nat.eqb d' p); cbn [src_from]; [|reflexivity]. unfold src in H1. cbn in H1. destruct (Nat.eqb_spec b from); [congruence|reflexivity]. }
    rewrite N. clear N Hd Ho.
    assert (X : src_from b (flat_map (fun x => let '(b', d', from, v) := x in if Nat.eqb b' tgt && Nat.eqb d' p then [(from, v)] else []) (edges tgt phis b (map Op ids))) = Some (Op id)); [|rewrite X; reflexivity].
    revert ids i Hp Hi. induction phis as [|q phis IH]; intros ids i Hp Hi; [destruct i; discriminate|]. inversion Np as [|? ? N1 N2]; subst.
    destruct ids as [|a ids]; [destruct i; discriminate|]. unfold edges. cbn [map combine flat_map fst snd]. rewrite Nat.eqb_refl. cbn [andb].
    destruct i as [|i]; cbn [nth_error] in Hp, Hi.
    - injection Hp as ->. injection Hi as ->. rewrite Nat.eqb_refl. cbn [app src_from]. rewrite Nat.eqb_refl. reflexivity.
    - destruct (Nat.eqb_spec q p) as [->|]; [elim N1; eapply nth_error_In, Hp|]. exact (IH N2 ids i Hp Hi).
  Qed.
  Lemma linked_wired T phi s s1 t tgt os ds : wfs s -> open (cur s) s -> defer s1 = defer s ++ ds -> labs s1 = labs s -> grow T s1 phi -> NoDup (map fst (labs phi)) ->
    linked (labs s) (maps s) (loops s) (cur s) t tgt os ds -> wired phi (loops s) (cur s) t tgt os (maps s).
  Proof.
    intros (W1 & W2 & W3 & W4 & W5 & W6 & W7 & W8) Op Hd Hl G Nd Lk. pose proof G as (_ & _ & _ & _ & _ & _ & (d2 & D & _)). rewrite Hd, <- app_assoc in D.
    destruct t as [id dp|j]; cbn [linked wired] in *.
    - destruct Lk as (phis & ids & L & F & ->). exists phis, ids. split; [eapply grow_look; [exact G|exact Nd|rewrite Hl; exact L]|]. split; [exact F|].
      eapply fed_edges; [exact D|exact Op|]. apply look_in_nat in L. exact (proj2 (proj1 (Forall_forall _ _) W7 _ L)).
    - intros h phis Hn. destruct (Lk h phis Hn) as (-> & ids & F & ->). split; [reflexivity|]. exists ids. split; [exact F|]. eapply fed_edges; [exact D|exact Op|].
      apply nth_error_In in Hn. exact (proj1 (proj1 (Forall_forall _ _) W6 _ Hn)).
  Qed.
  Lemma skipn_length_nil {A} (l : list A) : skipn (length l) l = [].
  Proof. apply skipn_all. Qed.

  Lemma lower_has phi : NoDup (map fst (labs phi)) -> forall d k live s s' T, lower params d k s = Some s' -> tidy live d = true -> inv live d k s ->
    grow T s' phi -> (forall b, T b -> b < nb s /\ ~ touch live d s b) ->
    forall b off, (live = true -> b = cur s /\ off = length (body s (cur s))) -> has params phi d k (maps s) (loops s) (nx s) b off.
  Proof.
    intros NdP. induction d as [|op ins outs rest IH|ins sub IHs rest IH]; intros k live s s' T H Ti I G HT b off At; cbn [lower] in H.
    - destruct I as ((_ & _ & _ & W4 & W5 & _) & _). cbn [has]. auto.
    - pose proof I as ((W1 & W2 & W3 & W4 & W5 & W6 & W7 & W8) & _). pose proof (proj1 I) as Wf.
      pose proof (inv_known _ _ _ _ I) as Kn. pose proof (fun b => inv_own _ _ _ _ b I) as Lt.
      pose proof (grow_nodup _ _ _ G NdP) as Nd'. unfold obind at 1 in H. match type of H with match ?x with _ => _ end = _ => destruct x as [s1|] eqn:E; [|discriminate] end.
      destruct (lower_labs _ _ _ _ H) as (lab & Ll). assert (Nd1 : NoDup (map fst (labs s1))) by (rewrite Ll, map_app in Nd'; apply nodup_app in Nd'; tauto).
      assert (Kr : known rest s) by (intros id Hi; apply Kn; cbn [own_labels]; apply in_or_app; right; exact Hi).
      assert (Or : forall b, own rest s b -> own (Next op ins outs rest) s b) by (intros x (id & p & X & Y); exists id, p; split; [cbn [own_labels]; apply in_or_app; right; exact X|exact Y]).
      (* what later steps do to the blocks that are there now *)
      assert (After : forall live', live = true -> tidy live' rest = true -> grow (fun b => b = cur s) s s1 -> wfs s1 -> (live' = true -> cur s1 = cur s \/ nb s <= cur s1) ->
        grow (fun b => touch live' rest s1 b \/ T b) s1 phi /\ (forall b, T b -> b < nb s1 /\ ~ touch live' rest s1 b) /\
        (live' = false \/ cur s1 <> cur s -> ~ (touch live' rest s1 (cur s) \/ T (cur s)))).
      { intros live' -> Ti' G1 Wf1 Cu. destruct (lower_grow _ _ _ _ _ H Ti' Wf1 Nd' (known_same _ _ _ _ G1 Nd1 Kr)) as (G2 & _).
        assert (Os : forall b, own rest s1 b -> own (Next op ins outs rest) s b) by (intros x Hx; apply Or; eapply own_same; [exact G1|exact Nd1|exact Kr|exact Hx]).
        split; [eapply grow_trans; [exact G2|exact G|tauto]|]. pose proof G1 as (Nb & _). split.
        - intros x Hx. destruct (HT x Hx) as [A B]. split; [lia|]. intros [[L ->]|O]; [destruct (Cu L) as [Y|Y]; [apply B; left; auto|lia]|apply B; right; auto].
        - intros Hc [[[L X]|O]|X].
          + destruct Hc as [->|Hc]; [discriminate|]. congruence.
          + apply Os in O. destruct I as (_ & _ & _ & _ & I5 & _). destruct (I5 _ O) as (_ & _ & Y). apply Y; reflexivity.
          + apply (proj2 (HT _ X)). left; auto. }
      destruct op; cbn [tidy] in Ti.
      + injection E as <-. apply andb_true_iff in Ti as [-> Ti]. cbn [has]. split; [exact W4|]. split; [exact W5|].
        destruct (After true eq_refl Ti (grow_refl _ s) Wf ltac:(auto)) as (_ & HT1 & _).
        refine (IH _ true _ _ T H Ti _ G HT1 b off At).
        eapply inv_step; [exact I|reflexivity|reflexivity|apply grow_refl|exact Wf|exact Nd1|reflexivity|]. intros _. destruct I as (_ & _ & _ & _ & _ & I6). auto.
      + apply andb_true_iff in Ti as [Ti1 Ti]. apply andb_true_iff in Ti1 as [Of ->].
        destruct (op_step _ _ _ _ _ _ Wf E) as (ids & is & ts & r & Fi & C & E1 & E2 & E3 & E4 & E5 & E6 & E7 & G1 & Wf1).
        destruct (After true eq_refl Ti G1 Wf1 ltac:(auto)) as (G2 & HT1 & _). destruct (At eq_refl) as [-> ->].
        cbn [has]. split; [exact W4|]. split; [exact W5|]. split; [exact Of|].
        pose proof G2 as (_ & _ & _ & _ & _ & G26 & _). destruct (G26 (cur s)) as (post & Hb); [destruct G1; lia|]. rewrite E6 in Hb.
        exists ids, is, ts, r, post. split; [exact Fi|]. split; [exact C|]. split; [rewrite Hb, <- app_assoc, skipn_app, skipn_all, Nat.sub_diag; reflexivity|].
        rewrite <- E1, <- E2, <- E3. refine (IH _ true _ _ T H Ti _ G HT1 _ _ _).
        * eapply inv_step; [exact I|reflexivity|reflexivity|exact G1|exact Wf1|exact Nd1| |].
          -- intros o Ho. rewrite E1. apply with_result_ext. lia.
          -- intros _. unfold open. rewrite E7, E5. destruct I as (_ & _ & _ & _ & _ & I6). split; [exact (I6 eq_refl)|auto].
        * intros _. rewrite E5, E6, app_length. auto.
      + destruct (look Nat.eqb id (labs s)) as [[b' phis']|] eqn:L; [|discriminate]. injection E as <-.
        pose proof I as (_ & I2 & I3 & I4 & I5 & _). cbn [own_labels app] in I2. inversion I2 as [|? ? N1 N2]; subst.
        destruct (I3 id k outs rest) as (b2 & phis & X1 & X2 & X3 & X4 & X5); [cbn [find_label]; rewrite Nat.eqb_refl; reflexivity|]. rewrite L in X1. injection X1 as <- <-.
        assert (Ob : own (Next (OLabel id) ins outs rest) s b') by (exists id, phis'; split; [left; reflexivity|exact L]).
        destruct (I5 b' Ob) as (Y1 & Y2 & _). pose proof (label_wfs _ _ _ _ Wf L) as Wf1.
        destruct (lower_grow _ _ true _ _ H Ti Wf1 Nd' Kr) as (G2 & _). pose proof (grow_trans _ _ _ _ _ _ G2 G (fun b _ X => X)) as G3.
        cbn [has]. split; [exact W4|]. split; [exact W5|]. exists b', phis'. split; [eapply grow_look; [exact G3|exact NdP|exact L]|]. split; [exact X2|].
        pose proof G3 as (G31 & _ & _ & G34 & _). sf. split; [lia|]. split; [rewrite G34 by lia; exact X4|]. split; [exact X5|].
        refine (IH _ true (set_cur b' s) _ T H Ti _ G _ b' 0 _).
        * split; [exact Wf1|]. split; [exact N2|]. split; [|split; [|split]].
          -- intros id' j outs' r Hf. apply (I3 id' j outs' r). cbn [find_label]. destruct (Nat.eqb_spec id id') as [<-|]; [elim N1; eapply find_own, Hf|exact Hf].
          -- intros i i' x p p' Hi Hi' L1 L2. eapply I4; [right; exact Hi|right; exact Hi'|exact L1|exact L2].
          -- intros x Hx. sf. destruct (I5 x (Or x Hx)) as (Z1 & Z2 & _). split; [exact Z1|]. split; [exact Z2|]. intros _ ->. destruct Hx as (i & p & Hi & Li).
             assert (i = id) by (eapply (I4 i id b' p phis'); [right; exact Hi|left; reflexivity|exact Li|exact L]). subst i. contradiction.
          -- intros _. exact Y2.
        * intros x Hx. destruct (HT x Hx) as [A B]. split; [exact A|]. intros [[_ Z]|O]; sf; [subst x; apply B; right; exact Ob|apply B; right; apply Or; exact O].
        * intros _. sf. rewrite Y1. auto.
      + apply andb_true_iff in Ti as [-> Ti]. destruct (br_step _ _ _ _ Wf E) as (tgt & ds & E1 & E2 & E3 & E4 & E5 & E6 & E7 & Lk & Ret & E8 & G1 & Wf1).
        destruct (After false eq_refl Ti G1 Wf1 ltac:(discriminate)) as (G2 & HT1 & Cl). specialize (Cl (or_introl eq_refl)). destruct (At eq_refl) as [-> ->].
        pose proof G2 as (G21 & _ & _ & G24 & G25 & _). destruct (G25 (cur s)) as [B1 B2]; [destruct G1; lia|exact Cl|].
        cbn [has]. split; [exact W4|]. split; [exact W5|]. split; [rewrite B1, E5; apply skipn_length_nil|]. exists tgt. split; [rewrite B2; exact E6|].
        split; [eapply linked_wired; [exact Wf|exact (proj2 (proj2 (proj2 (proj2 (proj2 I)))) eq_refl)|exact E7|exact E4|exact G2|exact NdP|exact Lk]|]. split.
        { destruct t as [|j]; [exact Logic.I|]. intros N. destruct (Ret N) as (Lr & ids & F & Tr). split; [lia|]. destruct (W2 tgt ltac:(lia)) as [P1 P2].
          split; [rewrite G24 by lia; rewrite E8; exact P1|]. destruct (G25 tgt) as [C1 C2]; [lia| |split; [rewrite C1, E5; exact P2|exists ids; split; [exact F|congruence]]].
          intros [[[X _]|O]|X]; [discriminate| |]; [|destruct (HT _ X); lia]. apply (own_same _ _ _ _ _ G1 Nd1 Kr) in O. apply Or, Lt in O. lia. }
        rewrite <- E1, <- E2, <- E3. refine (IH _ false _ _ T H Ti _ G HT1 0 0 _); [|discriminate].
        eapply inv_step; [exact I|reflexivity|reflexivity|exact G1|exact Wf1|exact Nd1|rewrite E1; reflexivity|discriminate].
      + apply andb_true_iff in Ti as [-> Ti]. destruct (br_if_step _ _ _ _ _ Wf E) as (o & c & tgt & ds & Li & Gc & E1 & E2 & E3 & E4 & E5 & E6 & E7 & Lk & Sd & Cu & E8 & G1 & Wf1).
        destruct (After true eq_refl Ti G1 Wf1 ltac:(auto)) as (G2 & HT1 & Cl). specialize (Cl ltac:(right; lia)). destruct (At eq_refl) as [-> ->].
        pose proof G2 as (G21 & _ & _ & G24 & G25 & _). destruct (G25 (cur s)) as [B1 B2]; [destruct G1; lia|exact Cl|]. destruct (W2 (cur s1) Cu) as [P1 P2]. pose proof (proj1 Wf1) as Lc.
        cbn [has]. split; [exact W4|]. split; [exact W5|]. split; [rewrite B1, E5; apply skipn_length_nil|]. exists o, c, tgt, (cur s1). split; [exact Li|]. split; [exact Gc|]. split; [rewrite B2; exact E6|].
        split; [eapply linked_wired; [exact Wf|exact (proj2 (proj2 (proj2 (proj2 (proj2 I)))) eq_refl)|exact E7|exact E4|exact G2|exact NdP|exact Lk]|]. split; [lia|]. split; [rewrite G24 by lia; rewrite E8; exact P1|].
        rewrite <- E1, <- E2, <- E3. refine (IH _ true _ _ T H Ti _ G HT1 _ _ _); [|intros _; rewrite E5, P2; auto].
        eapply inv_step; [exact I|reflexivity|reflexivity|exact G1|exact Wf1|exact Nd1|rewrite E1; reflexivity|]. intros _. split; [|auto].
        unfold open. rewrite E7. apply Forall_app. split; [eapply Forall_impl; [|exact W3]; cbn; lia|eapply Forall_impl; [|exact Sd]; cbn; lia].
      + apply andb_true_iff in Ti as [-> Ti]. destruct (br_if_step _ _ _ _ _ Wf E) as (o & c & tgt & ds & Li & Gc & E1 & E2 & E3 & E4 & E5 & E6 & E7 & Lk & Sd & Cu & E8 & G1 & Wf1).
        destruct (After true eq_refl Ti G1 Wf1 ltac:(auto)) as (G2 & HT1 & Cl). specialize (Cl ltac:(right; lia)). destruct (At eq_refl) as [-> ->].
        pose proof G2 as (G21 & _ & _ & G24 & G25 & _). destruct (G25 (cur s)) as [B1 B2]; [destruct G1; lia|exact Cl|]. destruct (W2 (cur s1) Cu) as [P1 P2]. pose proof (proj1 Wf1) as Lc.
        cbn [has]. split; [exact W4|]. split; [exact W5|]. split; [rewrite B1, E5; apply skipn_length_nil|]. exists o, c, tgt, (cur s1). split; [exact Li|]. split; [exact Gc|]. split; [rewrite B2; exact E6|].
        split; [eapply linked_wired; [exact Wf|exact (proj2 (proj2 (proj2 (proj2 (proj2 I)))) eq_refl)|exact E7|exact E4|exact G2|exact NdP|exact Lk]|]. split; [lia|]. split; [rewrite G24 by lia; rewrite E8; exact P1|].
        rewrite <- E1, <- E2, <- E3. refine (IH _ true _ _ T H Ti _ G HT1 _ _ _); [|intros _; rewrite E5, P2; auto].
        eapply inv_step; [exact I|reflexivity|reflexivity|exact G1|exact Wf1|exact Nd1|rewrite E1; reflexivity|]. intros _. split; [|auto].
        unfold open. rewrite E7. apply Forall_app. split; [eapply Forall_impl; [|exact W3]; cbn; lia|eapply Forall_impl; [|exact Sd]; cbn; lia].
      + discriminate E.
    - pose proof I as ((W1 & W2 & W3 & W4 & W5 & W6 & W7 & W8) & _). pose proof (proj1 I) as Wf.
      pose proof (inv_known _ _ _ _ I) as Kn. pose proof (fun b => inv_own _ _ _ _ b I) as Lt. pose proof (grow_nodup _ _ _ G NdP) as Nd'.
      unfold obind at 1 in H. destruct (enter_loop ins sub s) as [s1|] eqn:E1; [|discriminate]. unfold obind in H. destruct (lower params sub 0 s1) as [s2|] eqn:E2; [|discriminate].
      cbn [tidy] in Ti. apply andb_true_iff in Ti as [Ti Tr]. apply andb_true_iff in Ti as [-> Ts]. destruct (At eq_refl) as [-> ->].
      destruct (lower_labs _ _ _ _ H) as (l3 & L3). sf. assert (Nd2 : NoDup (map fst (labs s2))) by (rewrite L3, map_app in Nd'; apply nodup_app in Nd'; tauto).
      destruct (lower_labs _ _ _ _ E2) as (l2 & L2). assert (Nd1 : NoDup (map fst (labs s1))) by (rewrite L2, map_app in Nd2; apply nodup_app in Nd2; tauto).
      destruct (loop_step _ _ _ _ Wf E1 Nd1) as (ins0 & outs & r & phis & ids & Es & Len & Fi & Cu & Nb & Lp & Mp & Mapped & T1 & T2 & P1 & P2 & Bd & Df & Np & G1 & Wf1 & Lab & Dis & Lb).
      assert (Ks : known sub s1). { intros id Hi. destruct (own_find id sub 0 Hi) as ([[j o] r'] & Hf). destruct (Lab _ _ _ _ Hf) as (b & p & X & _). eauto. }
      assert (Hi : forall b, own sub s1 b -> S (S (nb s)) <= b).
      { intros b (id & p & Hi & L). destruct (own_find id sub 0 Hi) as ([[j o] r'] & Hf). destruct (Lab _ _ _ _ Hf) as (b' & p' & X & _ & Y & _). rewrite L in X. injection X as <- <-. lia. }
      destruct (lower_grow _ _ true _ _ E2 Ts Wf1 Nd2 Ks) as (G2 & Wf2 & Mp2 & Lp2).
      assert (G12 : grow (fun b => b = cur s) s s2).
      { eapply grow_trans; [exact G1|exact G2|]. intros b Hb [X|[[_ X]|O]]; [exact X|lia|apply Hi in O; lia]. }
      set (x2 := set_maps (tl (maps s2)) (set_loops (tl (loops s2)) s2)) in *.
      assert (Mx : maps x2 = maps s) by (unfold x2; sf; congruence). assert (Lx : loops x2 = loops s) by (unfold x2; sf; rewrite Lp2, Lp; reflexivity).
      assert (Wx : wfs x2) by (apply leave_wfs; [exact Wf2|reflexivity|unfold x2 in Mx; sf; congruence|reflexivity]).
      assert (Gx : grow (fun b => b = cur s) s x2) by exact G12.
      assert (Ix : inv false rest (S k) x2).
      { eapply inv_step; [exact I|reflexivity|reflexivity|exact Gx|exact Wx|exact Nd2|rewrite Mx; reflexivity|discriminate]. }
      assert (Kr : known rest s) by (intros id X; apply Kn; exact X).
      destruct (lower_grow _ _ false _ _ H Tr Wx Nd' (inv_known _ _ _ _ Ix)) as (G3 & _).
      assert (Ox : forall b, touch false rest x2 b -> own (Loop ins sub rest) s b).
      { intros b [[X _]|O]; [discriminate|]. pose proof (own_same _ _ _ _ _ Gx Nd2 Kr O) as O'. exact O'. }
      assert (G4 : grow (fun b => touch false rest x2 b \/ T b) s2 phi) by (pose proof (grow_trans _ _ _ _ _ _ G3 G (fun b _ X => X)) as X; exact X).
      assert (G5 : grow (fun b => touch true sub s1 b \/ touch false rest x2 b \/ T b) s1 phi) by (eapply grow_trans; [exact G2|exact G4|tauto]).
      pose proof G5 as (G51 & _ & _ & G54 & G55 & _ & (d5 & D5 & _)).
      assert (Ncur : ~ (touch true sub s1 (cur s) \/ touch false rest x2 (cur s) \/ T (cur s))).
      { intros [[[_ X]|X]|[X|X]]; [lia|apply Hi in X; lia| |].
        - apply Ox in X. destruct I as (_ & _ & _ & _ & I5 & _). destruct (I5 _ X) as (_ & _ & Y). apply Y; reflexivity.
        - apply (proj2 (HT _ X)). left; auto. }
      assert (Nh : ~ (touch true sub s1 (nb s) \/ touch false rest x2 (nb s) \/ T (nb s))).
      { intros [[[_ X]|X]|[X|X]]; [lia|apply Hi in X; lia|apply Ox, Lt in X; lia|destruct (HT _ X); lia]. }
      destruct (G55 (cur s)) as [C1 C2]; [lia|exact Ncur|]. destruct (G55 (nb s)) as [H1 H2]; [lia|exact Nh|].
      cbn [has]. split; [exact W4|]. split; [exact W5|]. split; [rewrite C1, Bd; apply skipn_length_nil|]. exists (nb s), phis, ids, (nx x2). split; [congruence|]. split; [exact Fi|].
      split; [eapply fed_edges; [rewrite D5, Df, <- app_assoc; reflexivity|exact (proj2 (proj2 (proj2 (proj2 (proj2 I)))) eq_refl)|exact Np]|]. split.
      + unfold header. split; [lia|]. split; [rewrite G54 by lia; exact P1|]. split; [rewrite H1, Bd; apply W2; lia|]. split; [rewrite Es; exact Len|].
        exists (S (nb s)), (hd [] (maps s1)), (nx s1). split; [congruence|]. split; [lia|]. split; [rewrite G54 by lia; exact P2|]. split; [exact Mapped|].
        assert (Em : hd [] (maps s1) :: maps s = maps s1) by (rewrite <- Mp; destruct Wf1 as (_ & _ & _ & _ & X & _); destruct (maps s1); [congruence|reflexivity]).
        rewrite Em, <- Lp. refine (IHs _ true _ _ _ E2 Ts _ G4 _ _ _ _).
        * assert (Fresh : forall b, nb s <= b -> open b s1).
          { intros b Hb. unfold open. rewrite Df. apply Forall_app. split; [eapply Forall_impl; [|exact W3]; cbn; lia|eapply Forall_impl; [|apply edges_src]; cbn; lia]. }
          split; [exact Wf1|]. split; [rewrite Lb in Nd1; apply nodup_app in Nd1 as (X & _); apply NoDup_rev in X; rewrite rev_involutive in X; exact X|].
          split; [intros id j o r' Hf; destruct (Lab _ _ _ _ Hf) as (b & p & X1 & X2 & X3 & X4); exists b, p; split; [exact X1|]; split; [exact X2|]; split; [lia|exact X4]|]. split; [exact Dis|]. split.
          -- intros b Hb. apply Hi in Hb. split; [rewrite Bd; apply W2; lia|]. split; [apply Fresh; lia|]. intros _. lia.
          -- intros _. rewrite Cu. apply Fresh. lia.
        * intros b [X|X]; [apply Ox, Lt in X|destruct (HT _ X) as [X' _]; clear X; rename X' into X]; (split; [lia|]); intros [[_ Y]|Y]; [lia|apply Hi in Y; lia|lia|apply Hi in Y; lia].
        * intros _. rewrite Cu, Bd. split; [reflexivity|]. rewrite (proj2 (W2 (S (nb s)) ltac:(lia))). reflexivity.
      + rewrite <- Mx, <- Lx. refine (IH _ false _ _ T H Tr Ix G _ 0 0 _); [|discriminate].
        intros b X. destruct (HT b X) as [A B]. pose proof Gx as (Gx1 & _). split; [lia|]. intros Y. apply B. right. apply Ox, Y.
  Qed.

  (** ** Labels are added once *)
  Fixpoint nested (d : dag) : list nat :=
    match d with
    | Done => []
    | Next _ _ _ rest => nested rest
    | Loop _ sub rest => all_labels sub ++ nested rest
    end.
  Lemma all_own_nested : forall d, Permutation (all_labels d) (own_labels d ++ nested d).
  Proof.
    induction d as [|op ins outs rest IH|ins sub _ rest IH]; cbn [all_labels own_labels nested]; [constructor| |].
    - rewrite <- app_assoc. apply Permutation_app_head, IH.
    - rewrite IH. rewrite app_assoc, (Permutation_app_comm (all_labels sub)), <- app_assoc. reflexivity.
  Qed.
  Lemma outputs_labs k : forall vs i s, labs (insert_outputs k i vs s) = labs s.
  Proof. induction vs as [|v vs IH]; intros i s; cbn [insert_outputs]; [reflexivity|rewrite IH; reflexivity]. Qed.
  Lemma allocate_names : forall d k s s', allocate d k s = Some s' -> map fst (labs s') = rev (own_labels d) ++ map fst (labs s).
  Proof.
    induction d as [|op ins outs rest IH|ins sub _ rest IH]; intros k s s' H; [injection H as <-; reflexivity| |exact (IH _ _ _ H)].
    destruct op; try exact (IH _ _ _ H). cbn [allocate add_block] in H. destruct (mir_types outs) as [ts|]; [|discriminate].
    match type of H with context [create_phi_nodes ?b ts ?x] => destruct (phis_spec b ts x) as (p & t & Hp & _) end. rewrite Hp in H. sf.
    rewrite (IH _ _ _ H). sf. rewrite outputs_labs. sf. cbn [own_labels app rev map fst]. rewrite <- app_assoc. reflexivity.
  Qed.
  Lemma enter_names ins sub s s1 : enter_loop ins sub s = Some s1 -> map fst (labs s1) = rev (own_labels sub) ++ map fst (labs s).
  Proof.
    unfold enter_loop, obind. destruct sub as [|[] ins0 outs r|]; try discriminate. cbn [add_block]. destruct (mir_types outs) as [ts|]; [|discriminate].
    match goal with |- context [create_phi_nodes ?b ts ?x] => destruct (phis_spec b ts x) as (p & t & Hp & _) end. rewrite Hp. sf. destruct (get_inputs _ _); [|discriminate].
    intros H. rewrite (allocate_names _ _ _ _ H), outputs_labs. reflexivity.
  Qed.
  Lemma lower_names : forall d k s s', lower params d k s = Some s' -> Permutation (map fst (labs s')) (nested d ++ map fst (labs s)).
  Proof.
    induction d as [|op ins outs rest IH|ins sub IHs rest IH]; intros k s s' H; cbn [lower nested] in *; [injection H as <-; reflexivity| |].
    - unfold obind at 1 in H. match type of H with match ?x with _ => _ end = _ => destruct x as [s1|] eqn:E; [|discriminate] end. rewrite (IH _ _ _ H), (node_labs _ _ _ _ _ E). reflexivity.
    - unfold obind at 1 in H. destruct (enter_loop ins sub s) as [s1|] eqn:E1; [|discriminate]. unfold obind in H. destruct (lower params sub 0 s1) as [s2|] eqn:E2; [|discriminate].
      rewrite (IH _ _ _ H). sf. rewrite (IHs _ _ _ E2), (enter_names _ _ _ _ E1), all_own_nested, <- (Permutation_rev (own_labels sub)).
      rewrite <- app_assoc, !app_assoc. apply Permutation_app_tail. rewrite <- app_assoc, (Permutation_app_comm (nested rest)). apply Permutation_app_tail, Permutation_app_comm.
  Qed.

  (** ** Functions *)
  Lemma params_spec : forall ts k s m r, maps s = m :: r -> exists m' t, param_values k ts s = (seq (nx s) (length ts), St (nb s) (ph s) (body s) (tm s) (nx s + length ts) t (m' :: r) (labs s) (cur s) (loops s) (defer s)) /\
    map snd m' = rev (seq (nx s) (length ts)) ++ map snd m /\ (forall o, fst o <> 0 \/ snd o < k -> look origin_eqb o m' = look origin_eqb o m) /\
    (forall x p, nth_error (seq (nx s) (length ts)) x = Some p -> look origin_eqb (0, k + x) m' = Some p).
  Proof.
    induction ts as [|t ts IH]; intros k s m r Hm; cbn [param_values length seq].
    - exists m, (tys s). rewrite Nat.add_0_r. split; [rewrite <- Hm; destruct s; reflexivity|]. split; [reflexivity|]. split; [auto|]. intros [|x]; discriminate.
    - cbn [new_value]. match goal with |- context [param_values (S k) ts ?x] => destruct (IH (S k) x (((0, k), nx s) :: m) r) as (m' & t' & -> & A & B & C); [sf; rewrite Hm; reflexivity|] end. sf.
      exists m', t'. split; [f_equal; f_equal; lia|]. split; [rewrite A; cbn [rev map snd]; rewrite <- app_assoc; reflexivity|]. split.
      + intros o Ho. rewrite (B o) by lia. rewrite look_cons. destruct (origin_eqb (0, k) o) eqn:E; [|reflexivity]. apply origin_eqb_eq in E. subst o. cbn in Ho. lia.
      + intros [|x] p Hx; cbn [nth_error] in Hx.
        * injection Hx as <-. rewrite Nat.add_0_r, (B (0, k)) by (cbn; lia). rewrite look_cons, (proj2 (origin_eqb_eq _ _) eq_refl). reflexivity.
        * replace (k + S x) with (S k + x) by lia. exact (C x p Hx).
  Qed.
  Lemma new_types : forall ts s, map (tys (new_values ts s)) (seq (nx s) (length ts)) = map Some ts /\ forall i, i < nx s -> tys (new_values ts s) i = tys s i.
  Proof.
    induction ts as [|t ts IH]; intros s; cbn [new_values length seq map]; [auto|]. destruct (IH (snd (new_value t s))) as [A B]. sf. split.
    - rewrite A, (B (nx s)) by lia. rewrite upf_same. reflexivity.
    - intros i Hi. rewrite (B i) by lia. apply upf_other. lia.
  Qed.

  Theorem lowered_runs size callee call ptys rtys d f : (size <= 2 ^ 28)%Z ->
    (forall f zs m c, Forall num zs -> is_memory m -> holds size m c ->
      match callee f zs m with
      | ROk (rs, m') => Forall num rs /\ is_memory m' /\ exists c', call f (map VU32 zs) c = ROk (map VU32 rs, c') /\ holds size m' c'
      | RTrap => call f (map VU32 zs) c = RTrap
      | _ => True
      end) ->
    well_made d -> function_to_mir params ptys rtys d = Some f ->
    forall fuel args m c, length args = length ptys -> Forall num args -> is_memory m -> holds size m c ->
    match dcall size (arity params) callee (length rtys) true fuel d args m with
    | ROk (vs, m') => is_memory m' /\ Forall num vs /\ exists fuel' c', call_fn (cell_world call) f fuel' (map VU32 args) c = ROk (map VU32 vs, c') /\ holds size m' c'
    | RTrap => exists fuel', call_fn (cell_world call) f fuel' (map VU32 args) c = RTrap
    | _ => True
    end.
  Proof.
    intros Size Calls [Ti Na] H fuel args m c La Nz M Hc.
    unfold function_to_mir, obind in H. destruct (mir_types ptys) as [pts|] eqn:Mp; [|discriminate]. destruct (mir_types rtys) as [rts|] eqn:Mr; [|discriminate].
    destruct (params_spec pts 0 start [] [] eq_refl) as (m0 & t0 & Hp & Ms & _ & Pm). rewrite Hp in H. clear Hp. rewrite (mir_types_length _ _ Mp) in *. unfold start in *. sf. cbn [map Nat.add] in *.
    match type of H with context [allocate d 0 ?x] => set (s0 := x) in * end.
    destruct (allocate d 0 s0) as [s1|] eqn:Al; [|discriminate]. destruct (lower params d 0 s1) as [phi|] eqn:Lo; [|discriminate].
    assert (Nd : NoDup (map fst (labs phi))).
    { eapply Permutation_NoDup; [symmetry; apply (lower_names _ _ _ _ Lo)|]. rewrite (allocate_names _ _ _ _ Al). unfold s0. sf. cbn [map]. rewrite app_nil_r.
      eapply Permutation_NoDup; [|exact Na]. rewrite all_own_nested, Permutation_app_comm. apply Permutation_app_head, Permutation_rev. }
    assert (Wf0 : wfs s0).
    { unfold wfs, s0. sf. split; [lia|]. split; [auto|]. split; [constructor|]. split; [|split; [discriminate|split; [constructor|split; [constructor|intros b; constructor]]]].
      refine (okm_phis [] m0 [] 0 (length ptys) _ Ms). split; constructor. }
    destruct (lower_labs _ _ _ _ Lo) as (l1 & L1). assert (Nd1 : NoDup (map fst (labs s1))) by (rewrite L1, map_app in Nd; apply nodup_app in Nd; tauto).
    destruct (allocate_spec _ _ _ _ Al Wf0 Nd1) as (G1 & Wf1 & Cu & Lp & Df & Bd & _ & Tl & _ & Nm & Lab & Dis).
    assert (Hi : forall b, own d s1 b -> 1 <= b).
    { intros b (id & p & X & L). destruct (own_find id d 0 X) as ([[j o] r'] & Hf). destruct (Lab _ _ _ _ Hf) as (b' & p' & Y & _ & Z & _). rewrite L in Y. injection Y as <- <-. unfold s0 in Z. sf. lia. }
    assert (I : inv true d 0 s1).
    { split; [exact Wf1|]. split; [rewrite Nm in Nd1; apply nodup_app in Nd1 as (X & _); apply NoDup_rev in X; rewrite rev_involutive in X; exact X|].
      split; [intros id j o r' Hf; destruct (Lab _ _ _ _ Hf) as (b & p & X1 & X2 & X3 & X4); exists b, p; split; [exact X1|]; split; [exact X2|]; split; [lia|exact X4]|]. split; [exact Dis|]. unfold open. rewrite Df, Bd, Cu. split; [|intros _; constructor].
      intros b Hb. apply Hi in Hb. split; [reflexivity|]. split; [constructor|]. intros _. unfold s0. sf. lia. }
    destruct (lower_grow _ _ true _ _ Lo Ti Wf1 Nd (inv_known _ _ _ _ I)) as (G2 & Wf2 & _).
    pose proof (lower_has phi Nd d 0 true s1 phi (fun _ => False) Lo Ti I (grow_refl _ phi) ltac:(intros b []) (cur s1) (length (body s1 (cur s1))) ltac:(auto)) as Has.
    rewrite Cu, Bd, Lp in Has. unfold s0 in Has. sf. cbn [length] in Has.
    (* the first node is not a label, or the run is stuck at once *)
    destruct fuel as [|fuel]; [exact Logic.I|]. unfold dcall.
    assert (First : (exists id ins outs rest, d = Next (OLabel id) ins outs rest) \/ forall o, fst o < 1 -> look origin_eqb o (hd [] (maps s1)) = look origin_eqb o m0).
    { destruct d as [|op ins outs rest|ins sub rest].
      - right. injection Al as <-. reflexivity.
      - destruct op; try (right; change (allocate rest 1 s0 = Some s1) in Al; destruct (allocate_spec _ _ _ _ Al Wf0 Nd1) as (_ & _ & _ & _ & _ & _ & _ & _ & X & _); exact X). left. eauto.
      - right. change (allocate rest 1 s0 = Some s1) in Al. destruct (allocate_spec _ _ _ _ Al Wf0 Nd1) as (_ & _ & _ & _ & _ & _ & _ & _ & X & _). exact X. }
    destruct First as [(id & ins & outs & rest & ->)|First]; [exact Logic.I|].
    injection H as <-. set (s3 := new_values rts phi) in *.
    assert (Bind : exists E, bind_all (fun _ => None) (seq 0 (length ptys)) (map VU32 args) = Some E /\
      (forall i q v, nth_error (seq 0 (length ptys)) i = Some q -> nth_error (map VU32 args) i = Some v -> E q = Some v) /\ forall x, ~ In x (seq 0 (length ptys)) -> E x = None).
    { apply bind_all_ok; [rewrite seq_length, map_length; symmetry; exact La|apply seq_NoDup]. }
    destruct Bind as (E & Be & V1 & _).
    match goal with |- context [call_fn _ ?F _ _ _] => set (F0 := F) in * end.
    assert (Rets : map (f_types F0) (f_rets F0) = repeat (Some TU32) (length rtys)).
    { unfold F0. cbn [f_types f_rets]. destruct (new_types rts phi) as [X _]. unfold s3. rewrite X, (mir_types_u32 _ _ Mr). clear. induction (length rtys); cbn; [reflexivity|f_equal; assumption]. }
    assert (Ph0 : ph phi 0 = []).
    { destruct G1 as (N1 & _ & _ & P1 & _), G2 as (N2 & _ & _ & P2 & _). unfold s0 in *. sf. rewrite P2, P1 by lia. reflexivity. }
    assert (NoPhi : forall b, Forall not_phi (body phi b)) by (destruct Wf2 as (_ & _ & _ & _ & _ & _ & _ & X); exact X).
    assert (Nb0 : 0 < nb phi) by (destruct Wf2; lia).
    assert (Call : forall fl, call_fn (cell_world call) F0 (S fl) (map VU32 args) c = mid call phi F0 0 0 E c fl).
    { intros fl. unfold call_fn. change (f_params F0) with (seq 0 (length ptys)). rewrite Be. apply run_block; [reflexivity|exact NoPhi|exact Nb0|].
      unfold phi_list. rewrite Ph0. reflexivity. }
    assert (A : agrees size (drun size (arity params) callee (length rtys) true (S fuel) [] 0 d (set_outs nothing 0 0 (map (fun z => (z, false)) args)) m) (mid call phi F0 0 0 E c)).
    { eapply (sim size params callee call Size Calls phi F0 (length rtys) eq_refl NoPhi Rets (S fuel)); [exact Has|reflexivity| |exact M|exact Hc].
      intros o v Ho. destruct (set_outs_spec _ _ _ _ _ _ Ho) as [(i & -> & _ & N)|[_ X]]; [|discriminate]. rewrite Nat.sub_0_r, nth_error_map in N. destruct (nth_error args i) as [z|] eqn:Ez; [|discriminate]. injection N as <-.
      split; [apply num_ok; eapply Forall_forall; [exact Nz|eapply nth_error_In, Ez]|]. split; [cbn; lia|].
      assert (Li : i < length ptys) by (rewrite <- La; apply nth_error_Some; congruence).
      assert (Ns : nth_error (seq 0 (length ptys)) i = Some i) by (rewrite (nth_error_nth' _ 0) by (rewrite seq_length; exact Li); rewrite seq_nth by exact Li; reflexivity).
      exists i. split; [rewrite First by (cbn; lia); exact (Pm i i Ns)|]. eapply V1; [exact Ns|]. rewrite nth_error_map, Ez. reflexivity. }
    unfold agrees in A. destruct (drun _ _ _ _ _ (S fuel) _ _ _ _ _) as [[vs m']| | |]; auto.
    - destruct A as (A1 & A2 & fl & c' & A3 & A4). split; [exact A1|]. split; [exact A2|]. exists (S fl), c'. rewrite Call. auto.
    - destruct A as (fl & A). exists (S fl). rewrite Call. exact A.
  Qed.
End Facts.

(** ** Modules *)
Theorem module_runs size M call compiled : (size <= 2 ^ 28)%Z ->
  (forall f g, M f = Some g -> well_made (w_dag g) /\ exists F, compiled f = Some F /\ function_to_mir (fun h => option_map w_params (M h)) (w_params g) (w_results g) (w_dag g) = Some F) ->
  runs_as compiled call ->
  forall fuel f args m c, Forall num args -> is_memory m -> holds size m c ->
  match mrun size M true fuel f args m with
  | ROk (vs, m') => Forall num vs /\ is_memory m' /\ exists c', call f (map VU32 args) c = ROk (map VU32 vs, c') /\ holds size m' c'
  | RTrap => call f (map VU32 args) c = RTrap
  | _ => True
  end.
Proof.
  intros Size Co Ru. induction fuel as [|n IH]; intros f args m c Na Me Ho; cbn [mrun]; [exact I|].
  destruct (M f) as [g|] eqn:Mf; [|exact I]. destruct (Nat.eqb (length args) (length (w_params g))) eqn:La; [|exact I]. apply Nat.eqb_eq in La.
  destruct (Co _ _ Mf) as (Wm & F & Cf & Lo).
  pose proof (lowered_runs (fun h => option_map w_params (M h)) size (mrun size M true n) call (w_params g) (w_results g) (w_dag g) F Size IH Wm Lo n args m c La Na Me Ho) as R.
  unfold arity in R. destruct (dcall _ _ _ _ _ n _ _ _) as [[vs m']| | |]; try exact I.
  - destruct R as (Mm & Nv & fl & c' & X & Y). split; [exact Nv|]. split; [exact Mm|]. exists c'. split; [|exact Y]. pose proof (Ru f F fl (map VU32 args) c Cf) as Z. rewrite X in Z. exact Z.
  - destruct R as (fl & X). pose proof (Ru f F fl (map VU32 args) c Cf) as Z. rewrite X in Z. exact Z.
Qed.
