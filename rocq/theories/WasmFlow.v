(** Lemmas for [Wasm]: a finished graph that has the code of a DAG does what the DAG does. *)
From Coq Require Import ZArith Bool List Lia.
From Verif Require Import M31 Isa Mir MirSem Wasm WasmSpec WasmOps.
Import ListNotations.
Local Open Scope nat_scope.

Definition gets (ms : list (list (origin * nat))) (o : origin) (i : nat) : Prop := get_value o ms = Some i.
Definition okm (ms : list (list (origin * nat))) (n : nat) : Prop :=
  NoDup (map snd (concat ms)) /\ Forall (fun i => i < n) (map snd (concat ms)).
Definition mapped (k : nat) (phis : list nat) (m : list (origin * nat)) : Prop :=
  forall i p, nth_error phis i = Some p -> look origin_eqb (k, i) m = Some p.
Definition with_result (k : nat) (r : option nat) (ms : list (list (origin * nat))) : list (list (origin * nat)) :=
  match r with Some v => match ms with m :: t => (((k, O), v) :: m) :: t | [] => [] end | None => ms end.

Lemma origin_eqb_eq a b : origin_eqb a b = true <-> a = b.
Proof.
  destruct a as [a1 a2], b as [b1 b2]. unfold origin_eqb. cbn [fst snd]. rewrite andb_true_iff, !Nat.eqb_eq. split; [intros [-> ->]; reflexivity|]. intros H; injection H as -> ->; auto.
Qed.
Lemma look_in o i (m : list (origin * nat)) : look origin_eqb o m = Some i -> In (o, i) m.
Proof.
  unfold look. destruct (find _ m) as [[o' i']|] eqn:F; [|discriminate]. intros H; injection H as <-. apply find_some in F. cbn [fst snd] in *.
  destruct F as [F1 F2]. apply origin_eqb_eq in F2. subst o'. exact F1.
Qed.
Lemma look_cons o o' i (m : list (origin * nat)) : look origin_eqb o ((o', i) :: m) = if origin_eqb o' o then Some i else look origin_eqb o m.
Proof. unfold look. cbn [find fst snd]. destruct (origin_eqb o' o); reflexivity. Qed.
Lemma nodup_snd (l : list (origin * nat)) a b i : NoDup (map snd l) -> In (a, i) l -> In (b, i) l -> a = b.
Proof.
  induction l as [|[o j] l IH]; cbn [map snd In]; intros N A B; [contradiction|]. inversion N as [|? ? N1 N2]; subst.
  destruct A as [A|A], B as [B|B].
  - congruence.
  - injection A as -> ->. elim N1. apply (in_map snd) in B. exact B.
  - injection B as -> ->. elim N1. apply (in_map snd) in A. exact A.
  - exact (IH N2 A B).
Qed.
Lemma nodup_app {A} (a b : list A) : NoDup (a ++ b) <-> NoDup a /\ NoDup b /\ (forall x, In x a -> ~ In x b).
Proof.
  induction a as [|x a IH]; cbn [app].
  - split; [intros H; split; [constructor|split; [exact H|intros ? []]]|intros (_ & H & _); exact H].
  - split.
    + intros H. inversion H as [|? ? N1 N2]; subst. apply IH in N2 as (A1 & A2 & A3). split; [|split; [exact A2|]].
      * constructor; [|exact A1]. intros I. apply N1, in_or_app. auto.
      * intros y [<-|Hy] I; [apply N1, in_or_app; auto|exact (A3 y Hy I)].
    + intros (A1 & A2 & A3). inversion A1 as [|? ? N1 N2]; subst. constructor.
      * intros I. apply in_app_or in I as [I|I]; [exact (N1 I)|]. exact (A3 x (or_introl eq_refl) I).
      * apply IH. split; [exact N2|]. split; [exact A2|]. intros y Hy. apply A3. right; exact Hy.
Qed.
Lemma okm_head m ms n : okm (m :: ms) n -> NoDup (map snd m) /\ (forall o i, In (o, i) m -> ~ In i (map snd (concat ms))) /\ okm ms n.
Proof.
  intros [N F]. cbn [concat] in *. rewrite map_app in N, F. apply nodup_app in N as (N1 & N2 & N3). apply Forall_app in F as [F1 F2].
  split; [exact N1|]. split; [|split; assumption]. intros o i I. apply N3. apply (in_map snd) in I. exact I.
Qed.
Lemma mapped_nodup k phis m : NoDup (map snd m) -> mapped k phis m -> NoDup phis.
Proof.
  intros N M. apply NoDup_nth_error. intros i j L E. apply nth_error_Some in L. destruct (nth_error phis i) as [p|] eqn:Ei; [|congruence].
  symmetry in E. pose proof (look_in _ _ _ (M i p Ei)) as A. pose proof (look_in _ _ _ (M j p E)) as B. pose proof (nodup_snd _ _ _ _ N A B). congruence.
Qed.

Section Flow.
  Variables (params : nat -> option (list wty)) (phi : st).
  Definition fed (b tgt : nat) (phis ids : list nat) : Prop :=
    forall i p id, nth_error phis i = Some p -> nth_error ids i = Some id -> src_from b (operands phi tgt p) = Some (Op id).
  Definition wired (ls : list (nat * list nat)) (b : nat) (t : target) (tgt : nat) (os : list origin) (ms : list (list (origin * nat))) : Prop :=
    match t with
    | ToLabel id _ => exists phis ids, look Nat.eqb id (labs phi) = Some (tgt, phis) /\ Forall2 (gets ms) os ids /\ fed b tgt phis ids
    | ToLoop j => forall h phis, nth_error ls j = Some (h, phis) -> tgt = h /\ exists ids, Forall2 (gets ms) os ids /\ fed b h phis ids
    end.
  Definition header (hs : dag -> list (list (origin * nat)) -> nat -> nat -> Prop) (h : nat) (phis : list nat) (sub : dag) (ms : list (list (origin * nat))) : Prop :=
    h < nb phi /\ ph phi h = phis /\ body phi h = [] /\
    match sub with Next OInputs _ outs _ => length outs = length phis | _ => False end /\
    exists b0 m0 n0, tm phi h = TJump b0 /\ b0 < nb phi /\ ph phi b0 = [] /\ mapped 0 phis m0 /\ hs sub (m0 :: ms) n0 b0.

  (** The graph has the code of [d], from the instruction [off] of the block [b] on. *)
  Fixpoint has (d : dag) (k : nat) (ms : list (list (origin * nat))) (ls : list (nat * list nat)) (n b off : nat) {struct d} : Prop :=
    okm ms n /\ ms <> [] /\
    match d with
    | Done => True
    | Next op ins outs rest =>
      match op with
      | OInputs => has rest (S k) ms ls n b off
      | OWasm w => offset_ok w = true /\ exists ids is ts r post, Forall2 (gets ms) ins ids /\
          code params w (map Op ids) n = Some (is, ts, r) /\ skipn off (body phi b) = is ++ post /\
          has rest (S k) (with_result k r ms) ls (n + length ts) b (off + length is)
      | OLabel id => exists b' phis, look Nat.eqb id (labs phi) = Some (b', phis) /\ length phis = length outs /\ b' < nb phi /\
          ph phi b' = phis /\ mapped k phis (hd [] ms) /\ has rest (S k) ms ls n b' 0
      | OBr t => skipn off (body phi b) = [] /\ exists tgt, tm phi b = TJump tgt /\ wired ls b t tgt ins ms /\
          match t with
          | ToLoop j => nth_error ls j = None -> tgt < nb phi /\ ph phi tgt = [] /\ body phi tgt = [] /\
                        exists ids, Forall2 (gets ms) ins ids /\ tm phi tgt = TReturn (map Op ids)
          | _ => True
          end /\ has rest (S k) ms ls n 0 0
      | OBrIf t | OBrIfZero t => skipn off (body phi b) = [] /\ exists o c tgt next, last_input ins = Some o /\ gets ms o c /\
          tm phi b = match op with OBrIf _ => TIf (Op c) tgt next | _ => TIf (Op c) next tgt end /\ wired ls b t tgt (removelast ins) ms /\
          next < nb phi /\ ph phi next = [] /\ has rest (S k) ms ls n next 0
      | OBrTable => False
      end
    | Loop ins sub rest => skipn off (body phi b) = [] /\ exists h phis ids n1, tm phi b = TJump h /\
        Forall2 (gets ms) (firstn (length phis) ins) ids /\ fed b h phis ids /\
        header (fun d ms n b => has d 0 ms ((h, phis) :: ls) n b 0) h phis sub ms /\ has rest (S k) ms ls n1 0 0
    end.

  Lemma has_ok d k ms ls n b off : has d k ms ls n b off -> okm ms n /\ ms <> [].
  Proof. destruct d; cbn [has]; intros (A & B & _); auto. Qed.

  Lemma with_result_ext k r ms : tl (with_result k r ms) = tl ms /\ (ms <> [] -> with_result k r ms <> []) /\
    forall o, fst o <> k -> look origin_eqb o (hd [] (with_result k r ms)) = look origin_eqb o (hd [] ms).
  Proof.
    destruct r as [v|]; [|auto]. destruct ms as [|m ms]; [auto|]. cbn [with_result tl hd]. split; [reflexivity|]. split; [discriminate|].
    intros o Ho. rewrite look_cons. destruct (origin_eqb (k, 0) o) eqn:E; [|reflexivity]. apply origin_eqb_eq in E. subst o. elim Ho. reflexivity.
  Qed.

  Lemma has_find id : forall d k ms ls n b off j outs rest', has d k ms ls n b off -> find_label id d k = Some (j, outs, rest') ->
    exists ms' n' b' phis, k <= j /\ look Nat.eqb id (labs phi) = Some (b', phis) /\ length phis = length outs /\ b' < nb phi /\
      ph phi b' = phis /\ mapped j phis (hd [] ms') /\ tl ms' = tl ms /\
      (forall o, fst o < k -> look origin_eqb o (hd [] ms') = look origin_eqb o (hd [] ms)) /\ has rest' (S j) ms' ls n' b' 0.
  Proof.
    assert (Go : forall rest k ms ls n b off j (outs : list wty) rest',
      (exists ms' n' b' phis, S k <= j /\ look Nat.eqb id (labs phi) = Some (b', phis) /\ length phis = length outs /\ b' < nb phi /\
        ph phi b' = phis /\ mapped j phis (hd [] ms') /\ tl ms' = tl ms /\
        (forall o, fst o < S k -> look origin_eqb o (hd [] ms') = look origin_eqb o (hd [] ms)) /\ has rest' (S j) ms' ls n' b' 0) ->
      has rest (S k) ms ls n b off ->
      exists ms' n' b' phis, k <= j /\ look Nat.eqb id (labs phi) = Some (b', phis) /\ length phis = length outs /\ b' < nb phi /\
        ph phi b' = phis /\ mapped j phis (hd [] ms') /\ tl ms' = tl ms /\
        (forall o, fst o < k -> look origin_eqb o (hd [] ms') = look origin_eqb o (hd [] ms)) /\ has rest' (S j) ms' ls n' b' 0).
    { intros rest k ms ls n b off j outs rest' (ms' & n' & b' & phis & A & B & C & D & E & F & G & H & I) _.
      exists ms', n', b', phis. split; [lia|]. do 6 (split; [assumption|]). split; [intros o Ho; apply H; lia|exact I]. }
    induction d as [|op ins outs0 rest IH|ins sub _ rest IH]; intros k ms ls n b off j outs rest' H F; [discriminate F| |].
    - cbn [has] in H. destruct H as (_ & _ & H). destruct op; cbn [find_label] in F.
      + eapply Go; [eapply IH; eassumption|exact H].
      + destruct H as (_ & ids & is & ts & r & post & _ & _ & _ & H).
        destruct (IH _ _ _ _ _ _ _ _ _ H F) as (ms' & n' & b' & phis & A & B & C & D & E & F' & G & H' & I).
        destruct (with_result_ext k r ms) as (T & _ & X).
        exists ms', n', b', phis. split; [lia|]. do 5 (split; [assumption|]). split; [congruence|]. split; [|exact I].
        intros o Ho. rewrite (H' o) by lia. apply X. lia.
      + destruct H as (b' & phis & A & B & C & D & E & H). destruct (Nat.eqb_spec id0 id).
        * injection F as <- <- <-. subst id0. exists ms, n, b', phis. split; [lia|]. do 5 (split; [assumption|]). split; [reflexivity|]. split; [reflexivity|exact H].
        * eapply Go; [eapply IH; eassumption|exact H].
      + destruct H as (_ & tgt & _ & _ & _ & H). eapply Go; [eapply IH; eassumption|exact H].
      + destruct H as (_ & o & c & tgt & next & _ & _ & _ & _ & _ & _ & H). eapply Go; [eapply IH; eassumption|exact H].
      + destruct H as (_ & o & c & tgt & next & _ & _ & _ & _ & _ & _ & H). eapply Go; [eapply IH; eassumption|exact H].
      + contradiction.
    - cbn [has] in H. destruct H as (_ & _ & _ & h & phis & ids & n1 & _ & _ & _ & _ & H). cbn [find_label] in F. eapply Go; [eapply IH; eassumption|exact H].
  Qed.

  (** ** Values *)
  Definition env_rel (k : nat) (e : denv) (m : list (origin * nat)) (E : env) : Prop :=
    forall o v, e o = Some v -> dval_ok v /\ fst o <= pred k /\ exists i, look origin_eqb o m = Some i /\ E i = Some (mval v).
  Fixpoint around (fs : list frame) (ms : list (list (origin * nat))) (ls : list (nat * list nat)) (E : env) : Prop :=
    match fs with
    | [] => ls = []
    | f :: fs' =>
      match ms, ls with
      | m :: ms', (h, phis) :: ls' =>
        header (fun d ms n b => has d 0 ms ls n b 0) h phis (fr_sub f) ms /\ (exists n, has (fr_rest f) (fr_node f) ms ls' n 0 0) /\
        (env_rel (fr_node f) (fr_env f) m E /\ 0 < fr_node f) /\ around fs' ms' ls' E
      | _, _ => False
      end
    end.
  Lemma env_rel_agree k e m E E' : env_rel k e m E -> (forall o i, In (o, i) m -> E' i = E i) -> env_rel k e m E'.
  Proof.
    intros R A o v Ho. destruct (R o v Ho) as (D & L & i & I & V). split; [exact D|]. split; [exact L|]. exists i. split; [exact I|].
    rewrite (A o i) by (apply look_in; exact I). exact V.
  Qed.
  Lemma around_agree : forall fs ms ls E E', around fs ms ls E -> (forall i, In i (map snd (concat ms)) -> E' i = E i) -> around fs ms ls E'.
  Proof.
    induction fs as [|f fs IH]; intros ms ls E E' A H; [exact A|]. cbn [around] in *. destruct ms as [|m ms]; [contradiction|]. destruct ls as [|[h phis] ls]; [contradiction|].
    destruct A as (B & C & D & F). split; [exact B|]. split; [exact C|]. cbn [concat] in H. split.
    - split; [|exact (proj2 D)]. eapply env_rel_agree; [exact (proj1 D)|]. intros o i Hi. apply H. rewrite map_app. apply in_or_app. left. apply (in_map snd) in Hi. exact Hi.
    - eapply IH; [exact F|]. intros i Hi. apply H. rewrite map_app. apply in_or_app. right. exact Hi.
  Qed.
  Lemma around_nth : forall j fs ms ls E f, around fs ms ls E -> nth_error fs j = Some f ->
    exists m ms' h phis ls', skipn j ms = m :: ms' /\ nth_error ls j = Some (h, phis) /\ skipn j fs = f :: skipn (S j) fs /\
      header (fun d ms n b => has d 0 ms ((h, phis) :: ls') n b 0) h phis (fr_sub f) (m :: ms') /\ (exists n, has (fr_rest f) (fr_node f) (m :: ms') ls' n 0 0) /\
      (env_rel (fr_node f) (fr_env f) m E /\ 0 < fr_node f) /\ around (skipn (S j) fs) ms' ls' E.
  Proof.
    induction j as [|j IH]; intros fs ms ls E f A H; (destruct fs as [|f' fs]; [discriminate|]); cbn [nth_error] in H; cbn [around] in A;
      (destruct ms as [|m ms]; [contradiction|]); (destruct ls as [|[h phis] ls]; [contradiction|]); destruct A as (B & C & D & F).
    - injection H as ->. exists m, ms, h, phis, ls. cbn [skipn nth_error]. auto 8.
    - destruct (IH fs ms ls E f F H) as (m' & ms' & h' & phis' & ls' & X). exists m', ms', h', phis', ls'. cbn [skipn nth_error] in *. exact X.
  Qed.
  Lemma around_length : forall fs ms ls E, around fs ms ls E -> length fs = length ls.
  Proof.
    induction fs as [|f fs IH]; intros ms ls E A; cbn [around] in A; [rewrite A; reflexivity|]. destruct ms as [|m ms]; [contradiction|]. destruct ls as [|[h phis] ls]; [contradiction|].
    destruct A as (_ & _ & _ & A). cbn. f_equal. eapply IH, A.
  Qed.
  Lemma numbers_get k e ms E : ms <> [] -> env_rel k e (hd [] ms) E -> forall os zs ids, numbers true os e = ROk zs -> Forall2 (gets ms) os ids ->
    Forall num zs /\ map E ids = map (fun z => Some (VU32 z)) zs /\ length zs = length os /\ Forall (fun i => In i (map snd (concat ms))) ids.
  Proof.
    intros Hms R. induction os as [|o os IH]; intros zs ids H F; inversion F as [|? i ? ids' G F']; subst; cbn [numbers] in H.
    - injection H as <-. auto.
    - destruct (e o) as [v|] eqn:Eo; cbn [of_opt rbind] in H; [|discriminate]. unfold number in H. destruct (snd v) eqn:Sv; cbn [andb rbind] in H; [discriminate|].
      destruct (numbers true os e) as [l| | |] eqn:En; cbn [rbind] in H; try discriminate. injection H as <-.
      destruct (IH l ids' eq_refl F') as (A & B & C & D). destruct (R o v Eo) as (Dv & _ & i' & I & V). destruct ms as [|m ms]; [congruence|]. cbn [hd] in I.
      unfold gets in G. cbn [get_value] in G. rewrite I in G. injection G as ->.
      split; [constructor; [exact (proj1 Dv)|exact A]|]. cbn [map length]. split; [|split; [f_equal; exact C|constructor; [|exact D]]].
      + rewrite V. unfold mval. rewrite Sv. f_equal. exact B.
      + cbn [concat]. rewrite map_app. apply in_or_app. left. apply look_in in I. apply (in_map snd) in I. exact I.
  Qed.

  (** ** Entering a block with phis *)
  Lemma bind_all_ok : forall ds vs E, length ds = length vs -> NoDup ds -> exists E', bind_all E ds vs = Some E' /\
    (forall i d v, nth_error ds i = Some d -> nth_error vs i = Some v -> E' d = Some v) /\ (forall x, ~ In x ds -> E' x = E x).
  Proof.
    induction ds as [|d ds IH]; intros [|v vs] E L N; try discriminate L.
    - exists E. split; [reflexivity|]. split; [intros [|i]; discriminate|auto].
    - inversion N as [|? ? N1 N2]; subst. destruct (IH vs (upd E d v) ltac:(injection L as L; exact L) N2) as (E' & A & B & C).
      exists E'. split; [exact A|]. split.
      + intros [|i] d' v' Hd Hv; cbn [nth_error] in *; [|eapply B; eassumption]. injection Hd as ->. injection Hv as ->. rewrite (C d' N1). apply upd_same.
      + intros x Hx. rewrite C by (intros I; apply Hx; right; exact I). apply upd_other. intros ->. apply Hx. left; reflexivity.
  Qed.
  Definition phi_list (b : nat) : list (nat * ty * list (nat * value)) := map (fun d => (d, TU32, operands phi b d)) (ph phi b).
  Lemma enter_ok E from tgt phis ids zs : ph phi tgt = phis -> NoDup phis -> fed from tgt phis ids -> Forall num zs ->
    map E ids = map (fun z => Some (VU32 z)) zs -> length zs = length phis ->
    exists E', enter E (Some from) (phi_list tgt) = Some E' /\
      (forall i p z, nth_error phis i = Some p -> nth_error zs i = Some z -> E' p = Some (VU32 z)) /\ (forall x, ~ In x phis -> E' x = E x).
  Proof.
    intros Ph Nd Fd Nz HE Len.
    assert (V : omap (phi_val E (Some from)) (phi_list tgt) = Some (map VU32 zs)).
    { unfold phi_list. rewrite Ph. clear Ph Nd. unfold fed in Fd. revert ids zs Fd Nz HE Len. induction phis as [|p phis IH]; intros ids zs Fd Nz HE Len; (destruct zs as [|z zs]; try discriminate Len); [reflexivity|].
      destruct ids as [|i ids]; [discriminate HE|]. inversion Nz; subst. injection HE as H3 H4. cbn [map omap].
      pose proof (Fd 0 p i eq_refl eq_refl) as F0. unfold phi_val at 1. cbn [fst snd]. rewrite F0, (eval_num E i z) by assumption.
      rewrite (IH ids zs); [reflexivity| |assumption|assumption|injection Len as Len; exact Len].
      intros i' p' id' A B. exact (Fd (S i') p' id' A B). }
    destruct (bind_all_ok phis (map VU32 zs) E) as (E' & A & B & C); [rewrite map_length; lia|exact Nd|].
    exists E'. split; [|split; [|exact C]].
    - unfold enter. rewrite V. unfold phi_list. rewrite map_map. cbn [fst]. rewrite map_id, Ph. exact A.
    - intros i p z Hp Hz. eapply B; [exact Hp|]. rewrite nth_error_map, Hz. reflexivity.
  Qed.
  Lemma set_outs_spec k : forall vs e i o v, set_outs e k i vs o = Some v ->
    (exists j, o = (k, j) /\ i <= j /\ nth_error vs (j - i) = Some v) \/ ((fst o <> k \/ snd o < i \/ i + length vs <= snd o) /\ e o = Some v).
  Proof.
    induction vs as [|w vs IH]; intros e i o v H; cbn [set_outs] in H.
    - right. split; [|exact H]. cbn. lia.
    - destruct (IH _ _ _ _ H) as [(j & -> & L & N)|[D Ho]].
      + left. exists j. split; [reflexivity|]. split; [lia|]. replace (j - i) with (S (j - S i)) by lia. exact N.
      + unfold set_out in Ho. destruct (origin_eqb o (k, i)) eqn:Eo.
        * apply origin_eqb_eq in Eo. injection Ho as <-. left. exists i. split; [exact Eo|]. split; [lia|]. rewrite Nat.sub_diag. reflexivity.
        * right. split; [|exact Ho]. cbn [length]. destruct o as [o1 o2]. cbn [fst snd] in *. destruct (Nat.eq_dec o1 k) as [->|]; [|auto]. right.
          assert (o2 <> i) by (intros ->; rewrite (proj2 (origin_eqb_eq _ _) eq_refl) in Eo; discriminate). lia.
  Qed.
  (** Landing at a label or a header. *)
  Lemma land_rel k j e m ms n phis zs E E' : env_rel k e m E -> okm (m :: ms) n -> mapped j phis m -> Forall num zs -> length zs = length phis ->
    (forall o v, e o = Some v -> fst o <> j) -> k <= j ->
    (forall i p z, nth_error phis i = Some p -> nth_error zs i = Some z -> E' p = Some (VU32 z)) -> (forall x, ~ In x phis -> E' x = E x) ->
    env_rel (S j) (set_outs e j 0 (map (fun z => (z, false)) zs)) m E'.
  Proof.
    intros R Ok Mp Nz Len Dj Lj A B o v H. destruct (okm_head _ _ _ Ok) as (Nd & _).
    destruct (set_outs_spec _ _ _ _ _ _ H) as [(i & -> & _ & N)|[D Ho]].
    - rewrite Nat.sub_0_r, nth_error_map in N. destruct (nth_error zs i) as [z|] eqn:Ez; [|discriminate]. injection N as <-.
      assert (Li : i < length phis) by (rewrite <- Len; apply nth_error_Some; congruence). destruct (nth_error phis i) as [p|] eqn:Ep; [|apply nth_error_Some in Li; congruence].
      split; [apply num_ok; eapply Forall_forall; [exact Nz|eapply nth_error_In, Ez]|]. split; [cbn; lia|]. exists p. split; [apply Mp, Ep|exact (A i p z Ep Ez)].
    - destruct (R o v Ho) as (Dv & Lo & i & I & V). split; [exact Dv|]. split; [lia|]. exists i. split; [exact I|]. rewrite B; [exact V|].
      intros Hi. apply In_nth_error in Hi as (x & Hx). pose proof (nodup_snd _ _ _ _ Nd (look_in _ _ _ (Mp x i Hx)) (look_in _ _ _ I)) as Eo. apply (Dj o v Ho). rewrite <- Eo. reflexivity.
  Qed.
End Flow.

(** ** Running *)
Section Sim.
  Variables (size : Z) (params : nat -> option (list wty)) (callee : nat -> list Z -> bytes -> res (list Z * bytes)).
  Variable call : nat -> list val -> cells -> res (list val * cells).
  Let W := cell_world call.
  Hypothesis Size : (size <= 2 ^ 28)%Z.
  Hypothesis Calls : forall f zs m c, Forall num zs -> is_memory m -> holds size m c ->
    match callee f zs m with
    | ROk (rs, m') => Forall num rs /\ is_memory m' /\ exists c', call f (map VU32 zs) c = ROk (map VU32 rs, c') /\ holds size m' c'
    | RTrap => call f (map VU32 zs) c = RTrap
    | _ => True
    end.
  Variables (phi : st) (F : func) (results : nat).
  Definition not_phi (i : minstr) : Prop := match i with IPhi _ _ _ => False | _ => True end.
  Hypothesis Blocks : f_blocks F = map (finish_block phi) (seq 0 (nb phi)).
  Hypothesis NoPhi : forall b, Forall not_phi (body phi b).
  Hypothesis Rets : map (f_types F) (f_rets F) = repeat (Some TU32) results.

  Definition mid (b off : nat) (E : env) (c : cells) (fl : nat) : res (list val * cells) :=
    rbind (exec_list W (f_types F) E c (skipn off (body phi b))) (fun x =>
    rbind (exec_term (fst x) (map (f_types F) (f_rets F)) (tm phi b)) (fun n =>
    match n with
    | NGo b' => run W F fl (Some b) b' (fst x) (snd x)
    | NRet vs => ROk (vs, snd x)
    end)).
  Lemma span_phis b : forall l, Forall not_phi (body phi b) ->
    span_phi (map (fun d => IPhi d TU32 (operands phi b d)) l ++ body phi b) = (map (fun d => (d, TU32, operands phi b d)) l, body phi b).
  Proof.
    induction l as [|d l IH]; intros H; cbn [map app span_phi].
    - destruct (body phi b) as [|i is]; [reflexivity|]. inversion H as [|? ? Hi _]. destruct i; try reflexivity. contradiction Hi.
    - rewrite (IH H). reflexivity.
  Qed.
  Lemma run_block b prev E E1 c fl : b < nb phi -> enter E prev (phi_list phi b) = Some E1 -> run W F (S fl) prev b E c = mid b 0 E1 c fl.
  Proof.
    intros L H. cbn [run]. rewrite Blocks, nth_error_map.
    assert (N : nth_error (seq 0 (nb phi)) b = Some b).
    { rewrite (nth_error_nth' _ 0) by (rewrite seq_length; exact L). rewrite seq_nth by exact L. reflexivity. }
    rewrite N. cbn [option_map finish_block b_instrs b_term]. rewrite (span_phis b _ (NoPhi b)). cbn [fst snd]. fold (phi_list phi b). rewrite H. cbn [of_opt rbind]. reflexivity.
  Qed.
  Definition agrees (r : res (list Z * bytes)) (x : nat -> res (list val * cells)) : Prop :=
    match r with
    | ROk (vs, m') => is_memory m' /\ Forall num vs /\ exists fl c', x fl = ROk (map VU32 vs, c') /\ holds size m' c'
    | RTrap => exists fl, x fl = RTrap
    | _ => True
    end.
  Lemma agrees_next r x y : (forall fl, x (S fl) = y fl) -> agrees r y -> agrees r x.
  Proof.
    intros H. unfold agrees. destruct r as [[vs m']| | |]; auto.
    - intros (A & B & fl & c' & C & D). split; [exact A|]. split; [exact B|]. exists (S fl), c'. rewrite H. auto.
    - intros (fl & C). exists (S fl). rewrite H. exact C.
  Qed.
  Lemma agrees_same r x y : (forall fl, x fl = y fl) -> agrees r y -> agrees r x.
  Proof.
    intros H. unfold agrees. destruct r as [[vs m']| | |]; auto.
    - intros (A & B & fl & c' & C & D). split; [exact A|]. split; [exact B|]. exists fl, c'. rewrite H. auto.
    - intros (fl & C). exists fl. rewrite H. exact C.
  Qed.
  Notation has' := (has params phi).
  Notation drun' := (drun size (arity params) callee results true).

  (** A branch, as in [drun]. *)
  Definition goes (n : nat) (fs : list frame) (k : nat) (e : denv) (m : bytes) (t : target) (conditional : bool) (vs : list Z) (rest : dag) : res (list Z * bytes) :=
    let vals := map (fun z => (z, false)) vs in
    let land (fs : list frame) (k : nat) (rest : dag) (e : denv) (id : nat) :=
      match find_label id rest k with
      | Some (j, outs, rest') =>
        if Nat.eqb (length vs) (length outs) then drun' n fs (S j) rest' (set_outs e j 0 vals) m else RStuck
      | None => RStuck
      end in
    match t with
    | ToLabel id O => land fs (S k) rest e id
    | ToLabel id (S j) =>
      match nth_error fs j with
      | Some f => land (skipn (S j) fs) (fr_node f) (fr_rest f) (fr_env f) id
      | None => RStuck
      end
    | ToLoop j =>
      match nth_error fs j with
      | Some f => match fr_sub f with
                  | Next OInputs _ outs _ =>
                    if Nat.eqb (length vs) (length outs) then drun' n (skipn j fs) 0 (fr_sub f) (set_outs nothing 0 0 vals) m else RStuck
                  | _ => RStuck
                  end
      | None => if Nat.eqb j (length fs) && Nat.eqb (length vs) results && negb (true && conditional) then ROk (vs, m) else RStuck
      end
    end.
  Definition sim_at (n : nat) : Prop := forall fs k d e m E c ms ls nx b off, has' d k ms ls nx b off -> around params phi fs (tl ms) ls E ->
    env_rel k e (hd [] ms) E -> is_memory m -> holds size m c -> agrees (drun' n fs k d e m) (mid b off E c).

  (** Landing at a label. *)
  Lemma land_ok n fs k e m E c ms ls nx b0 off0 rest id j outs rest' from tgt phis ids zs : sim_at n -> 0 < k ->
    has' rest k ms ls nx b0 off0 -> around params phi fs (tl ms) ls E -> env_rel k e (hd [] ms) E -> is_memory m -> holds size m c ->
    find_label id rest k = Some (j, outs, rest') -> length zs = length outs ->
    look Nat.eqb id (labs phi) = Some (tgt, phis) -> fed phi from tgt phis ids -> Forall num zs -> map E ids = map (fun z => Some (VU32 z)) zs ->
    agrees (drun' n fs (S j) rest' (set_outs e j 0 (map (fun z => (z, false)) zs)) m) (fun fl => run W F fl (Some from) tgt E c).
  Proof.
    intros IH Pk H A R M Hc Fl Len Lk Fd Nz HE.
    destruct (has_find params phi id _ _ _ _ _ _ _ _ _ _ H Fl) as (ms' & n' & b' & phis' & Lj & Lk' & Lp & Lb & Hp & Mp & Tl & Look & H').
    rewrite Lk in Lk'. injection Lk' as <- <-. destruct (has_ok _ _ _ _ _ _ _ _ _ H') as [Ok Nn].
    destruct ms' as [|m1 ms1]; [congruence|]. cbn [tl hd] in *. subst ms1. destruct (okm_head _ _ _ Ok) as (Nd & Dis & _).
    pose proof (mapped_nodup _ _ _ Nd Mp) as Np.
    destruct (enter_ok phi E from tgt phis ids zs Hp Np Fd Nz HE ltac:(lia)) as (E' & En & V1 & V2).
    eapply agrees_next; [intros fl; apply (run_block _ _ _ _ _ _ Lb En)|].
    eapply IH; [exact H'| | |exact M|exact Hc].
    - cbn [tl]. eapply around_agree; [exact A|]. intros i Hi. apply V2. intros Hin. apply In_nth_error in Hin as (x & Hx). exact (Dis _ _ (look_in _ _ _ (Mp x i Hx)) Hi).
    - cbn [hd]. eapply (land_rel k j e m1 _ _ phis zs E E'); [|exact Ok|exact Mp|exact Nz|lia| |exact Lj|exact V1|exact V2].
      + intros o v Ho. destruct (R o v Ho) as (D & Lo & i & I & V). split; [exact D|]. split; [exact Lo|]. exists i. rewrite Look by lia. auto.
      + intros o v Ho. destruct (R o v Ho) as (_ & Lo & _). lia.
  Qed.
  (** Starting a loop, or starting it again. *)
  Lemma loop_ok n fs m E c ms ls h phis f from ids zs : sim_at n ->
    header phi (fun d ms n b => has' d 0 ms ((h, phis) :: ls) n b 0) h phis (fr_sub f) ms ->
    around params phi (f :: fs) ms ((h, phis) :: ls) E -> is_memory m -> holds size m c ->
    fed phi from h phis ids -> Forall num zs -> map E ids = map (fun z => Some (VU32 z)) zs -> length zs = length phis ->
    agrees (drun' n (f :: fs) 0 (fr_sub f) (set_outs nothing 0 0 (map (fun z => (z, false)) zs)) m) (fun fl => run W F fl (Some from) h E c).
  Proof.
    intros IH (Lh & Hp & Hb & _ & b0 & m0 & n0 & Ht & Lb & Hpb & Mp & H) A M Hc Fd Nz HE Len.
    destruct (has_ok _ _ _ _ _ _ _ _ _ H) as [Ok _]. destruct (okm_head _ _ _ Ok) as (Nd & Dis & _). pose proof (mapped_nodup _ _ _ Nd Mp) as Np.
    destruct (enter_ok phi E from h phis ids zs Hp Np Fd Nz HE Len) as (E' & En & V1 & V2).
    eapply agrees_next; [intros fl; apply (run_block _ _ _ _ _ _ Lh En)|].
    eapply agrees_next with (y := mid b0 0 E' c).
    { intros fl. unfold mid at 1. rewrite Hb, Ht. cbn [skipn exec_list rbind exec_term fst snd]. apply run_block; [exact Lb|]. unfold phi_list. rewrite Hpb. reflexivity. }
    assert (A' : around params phi (f :: fs) ms ((h, phis) :: ls) E').
    { eapply around_agree; [exact A|]. intros i Hi. apply V2. intros Hin. apply In_nth_error in Hin as (x & Hx). exact (Dis _ _ (look_in _ _ _ (Mp x i Hx)) Hi). }
    assert (R : env_rel 1 (set_outs nothing 0 0 (map (fun z => (z, false)) zs)) m0 E').
    { eapply (land_rel 0 0 nothing m0 _ _ phis zs E E'); [|exact Ok|exact Mp|exact Nz|lia| |lia|exact V1|exact V2]; discriminate. }
    eapply IH; [exact H|exact A'|exact R|exact M|exact Hc].
  Qed.

  Lemma gets_head m ms o i i' : look origin_eqb o m = Some i -> gets (m :: ms) o i' -> i' = i.
  Proof. unfold gets. cbn [get_value]. intros ->. congruence. Qed.
  Lemma goes_ok n fs k e m E c ms ls nx b0 off0 from t conditional rest tgt os zs : sim_at n ->
    has' rest (S k) ms ls nx b0 off0 -> around params phi fs (tl ms) ls E -> env_rel (S k) e (hd [] ms) E -> is_memory m -> holds size m c ->
    numbers true os e = ROk zs -> wired phi ls from t tgt os ms ->
    (conditional = false -> match t with
      | ToLoop j => nth_error ls j = None -> tgt < nb phi /\ ph phi tgt = [] /\ body phi tgt = [] /\
                    exists ids, Forall2 (gets ms) os ids /\ tm phi tgt = TReturn (map Op ids)
      | _ => True
      end) ->
    agrees (goes n fs k e m t conditional zs rest) (fun fl => run W F fl (Some from) tgt E c).
  Proof.
    intros IH H A R M Hc Hz Wi Ret. destruct (has_ok _ _ _ _ _ _ _ _ _ H) as [Ok Nn]. unfold goes. cbn zeta.
    destruct t as [id j|j]; cbn [wired] in Wi.
    - destruct Wi as (phis & ids & Lk & G & Fd). destruct (numbers_get _ _ _ _ Nn R _ _ _ Hz G) as (Nz & HE & Len & _).
      destruct j as [|j].
      + destruct (find_label id rest (S k)) as [[[j outs] rest']|] eqn:Fl; [|exact I]. destruct (Nat.eqb_spec (length zs) (length outs)); [|exact I].
        eapply (land_ok n fs (S k) e m E c ms ls nx b0 off0 rest id j outs rest' from tgt phis ids zs); auto; lia.
      + destruct (nth_error fs j) as [f|] eqn:Ef; [|exact I].
        destruct (around_nth _ _ j fs _ ls E f A Ef) as (m1 & ms1 & h & phis1 & ls1 & _ & _ & _ & _ & (n1 & H1) & [R1 P1] & A1).
        destruct (find_label id (fr_rest f) (fr_node f)) as [[[j1 outs] rest']|] eqn:Fl; [|exact I]. destruct (Nat.eqb_spec (length zs) (length outs)); [|exact I].
        eapply (land_ok n (skipn (S j) fs) (fr_node f) (fr_env f) m E c (m1 :: ms1) ls1 n1 0 0 (fr_rest f) id j1 outs rest' from tgt phis ids zs); auto; lia.
    - destruct (nth_error fs j) as [f|] eqn:Ef.
      + destruct (around_nth _ _ j fs _ ls E f A Ef) as (m1 & ms1 & h & phis1 & ls1 & _ & El & Sk & Hd & H1 & R1 & A1).
        destruct (Wi h phis1 El) as (-> & ids & G & Fd). destruct (numbers_get _ _ _ _ Nn R _ _ _ Hz G) as (Nz & HE & Len & _).
        pose proof Hd as (_ & _ & _ & Outs & _). destruct (fr_sub f) as [|[] ins outs r|] eqn:Sub; try contradiction Outs.
        destruct (Nat.eqb_spec (length zs) (length outs)); [|exact I]. rewrite <- Sub in *. rewrite Sk.
        eapply loop_ok; [exact IH|exact Hd| |exact M|exact Hc|exact Fd|exact Nz|exact HE|lia].
        cbn [around]. split; [exact Hd|]. split; [exact H1|]. split; [exact R1|exact A1].
      + destruct (Nat.eqb_spec j (length fs)) as [Ej|]; [|exact I]. destruct (Nat.eqb_spec (length zs) results) as [Er|]; [|exact I].
        destruct conditional; [exact I|]. cbn [andb negb].
        pose proof (around_length _ _ _ _ _ _ A) as Al. assert (En : nth_error ls j = None) by (apply nth_error_None; lia).
        destruct (Ret eq_refl En) as (Lt & Hp & Hb & ids & G & Ht). destruct (numbers_get _ _ _ _ Nn R _ _ _ Hz G) as (Nz & HE & Len & _).
        cbn [agrees]. split; [exact M|]. split; [exact Nz|]. exists 1, c. split; [|exact Hc].
        rewrite (run_block tgt (Some from) E E c 0 Lt) by (unfold phi_list; rewrite Hp; reflexivity). unfold mid. rewrite Hb, Ht, Rets. cbn [skipn exec_list rbind exec_term fst snd].
        assert (Om : forall k, omap (fun t => t) (repeat (Some TU32) k) = Some (repeat TU32 k)) by (clear; induction k; cbn; [reflexivity|rewrite IHk; reflexivity]).
        rewrite Om. cbn [of_opt rbind]. rewrite <- Er, (eval_nums E ids zs Nz HE). reflexivity.
  Qed.

  Lemma skipn_app_length {A} (l a b : list A) off : skipn off l = a ++ b -> skipn (off + length a) l = b.
  Proof.
    intros H. assert (X : forall n k (l : list A), skipn (n + k) l = skipn k (skipn n l)).
    { clear. induction n as [|n IH]; intros k l; [reflexivity|]. destruct l; cbn [plus skipn]; [rewrite skipn_nil; reflexivity|apply IH]. }
    rewrite X, H, skipn_app, skipn_all, Nat.sub_diag. reflexivity.
  Qed.
  Lemma numbers_no_trap e : forall os, numbers true os e <> RTrap.
  Proof.
    induction os as [|o os IH]; cbn [numbers]; [discriminate|]. destruct (e o) as [v|]; [|discriminate]. cbn [of_opt rbind]. unfold number.
    destruct (true && snd v); cbn [rbind]; [discriminate|]. destruct (numbers true os e); cbn [rbind]; congruence.
  Qed.
  Lemma condition_truth k e ms E o i v c : ms <> [] -> env_rel k e (hd [] ms) E -> gets ms o i -> e o = Some v -> condition true v = ROk c -> truth E (Op i) = Some c.
  Proof.
    intros Nn R G Ho Hc. destruct (R o v Ho) as (D & _ & i' & I & V). destruct ms as [|m ms]; [congruence|]. cbn [hd] in I. rewrite (gets_head _ _ _ _ _ I G).
    cbn [truth]. rewrite V. unfold condition in Hc. destruct v as [z b]. cbn [fst snd] in *. unfold mval. cbn [fst snd]. destruct b.
    - cbn [andb negb] in Hc. injection Hc as <-. reflexivity.
    - cbn [andb negb] in Hc. rewrite (u32b_num z (proj1 D)). change B16 with (2 ^ 16)%Z. destruct (Z.eqb_spec z 0) as [->|Nz]; cbn [negb andb] in Hc.
      + rewrite andb_false_r in Hc. injection Hc as <-. reflexivity.
      + rewrite andb_true_r in Hc. destruct (Z.eqb (z mod 2 ^ 16) 0) eqn:Ez; [discriminate|]. injection Hc as <-. reflexivity.
  Qed.
  Lemma branch_ok n fs k e m E c ms ls nx b off t (zero : bool) ins outs rest : sim_at n -> has' (Next (if zero then OBrIfZero t else OBrIf t) ins outs rest) k ms ls nx b off ->
    around params phi fs (tl ms) ls E -> env_rel k e (hd [] ms) E -> is_memory m -> holds size m c ->
    agrees (drun' (S n) fs k (Next (if zero then OBrIfZero t else OBrIf t) ins outs rest) e m) (mid b off E c).
  Proof.
    intros IH H A R M Hc. destruct (has_ok _ _ _ _ _ _ _ _ _ H) as [Ok Nn].
    assert (R' : env_rel (S k) e (hd [] ms) E) by (intros o v Ho; destruct (R o v Ho) as (D & L & X); split; [exact D|]; split; [cbn; lia|exact X]).
    assert (H' : skipn off (body phi b) = [] /\ exists o c tgt next, last_input ins = Some o /\ gets ms o c /\
          tm phi b = (if zero then TIf (Op c) next tgt else TIf (Op c) tgt next) /\ wired phi ls b t tgt (removelast ins) ms /\
          next < nb phi /\ ph phi next = [] /\ has' rest (S k) ms ls nx next 0) by (destruct zero; exact (proj2 (proj2 H))).
    clear H. destruct H' as (Sk & o & ci & tgt & next & Li & G & Ht & Wi & Ln & Hp & H).
    assert (Dr : drun' (S n) fs k (Next (if zero then OBrIfZero t else OBrIf t) ins outs rest) e m =
      rbind (of_opt (last_input ins)) (fun o => rbind (of_opt (e o)) (fun v => rbind (condition true v) (fun c =>
          if Bool.eqb c (negb zero) then rbind (numbers true (removelast ins) e) (fun vs => goes n fs k e m t true vs rest)
          else drun' n fs (S k) rest e m)))) by (destruct zero; reflexivity).
    rewrite Dr, Li. cbn [of_opt rbind]. destruct (e o) as [v|] eqn:Ho; [|exact I]. cbn [of_opt rbind].
    destruct (condition true v) as [cb| | |] eqn:Cv; cbn [rbind]; try exact I.
    2:{ unfold condition in Cv. destruct (true && _ && _ && _); discriminate. }
    pose proof (condition_truth _ _ _ _ _ _ _ _ Nn R G Ho Cv) as Tr.
    assert (Mid : forall fl, mid b off E c fl = run W F fl (Some b) (if Bool.eqb cb (negb zero) then tgt else next) E c).
    { intros fl. unfold mid. rewrite Sk, Ht. cbn [exec_list rbind fst snd]. destruct zero; cbn [exec_term]; rewrite Tr; cbn [of_opt rbind]; destruct cb; reflexivity. }
    eapply agrees_same; [exact Mid|]. destruct (Bool.eqb cb (negb zero)).
    - destruct (numbers true (removelast ins) e) as [zs| | |] eqn:Hz; try exact I; cbn [rbind]; [|elim (numbers_no_trap _ _ Hz)].
      eapply (goes_ok n fs k e m E c ms ls nx next 0 b t true rest tgt (removelast ins) zs IH H A R' M Hc Hz Wi). discriminate.
    - eapply agrees_next; [intros fl; apply (run_block next (Some b) E E c fl Ln); unfold phi_list; rewrite Hp; reflexivity|].
      eapply IH; eassumption.
  Qed.
  Theorem sim : forall n, sim_at n.
  Proof.
    induction n as [|n IH]; intros fs k d e m E c ms ls nx b off H A R M Hc; [exact I|].
    pose proof H as H0. destruct (has_ok _ _ _ _ _ _ _ _ _ H0) as [Ok Nn].
    destruct d as [|op ins outs rest|ins sub rest]; cbn [has] in H; destruct H as (_ & _ & H); [exact I| |].
    - destruct op.
      + change (drun' (S n) fs k (Next OInputs ins outs rest) e m) with (drun' n fs (S k) rest e m).
        eapply IH; [exact H|exact A| |exact M|exact Hc]. intros o v Ho. destruct (R o v Ho) as (D & L & X). split; [exact D|]. split; [cbn; lia|exact X].
      + destruct H as (Off & ids & is & ts & r & post & G & C & Sk & H).
        change (drun' (S n) fs k (Next (OWasm w) ins outs rest) e m) with
          (rbind (numbers true ins e) (fun vs => rbind (operate size (arity params) callee true w vs m) (fun r => drun' n fs (S k) rest (set_outs e k 0 (fst r)) (snd r)))).
        destruct (numbers true ins e) as [zs| | |] eqn:Hz; try exact I. cbn [rbind].
        2:{ elim (numbers_no_trap _ _ Hz). }
        destruct (numbers_get _ _ _ _ Nn R _ _ _ Hz G) as (Nz & HE & Len & Ids).
        assert (Lids : Forall (fun i => i < nx) ids) by (eapply Forall_impl; [|exact Ids]; intros i Hi; exact (proj1 (Forall_forall _ _) (proj2 Ok) i Hi)).
        assert (Off' : forall off, w = WLoad off \/ w = WStore off -> (0 <= off)%Z) by (intros o [->| ->]; cbn in Off; apply Z.leb_le in Off; exact Off).
        pose proof (code_runs size params callee call (f_types F) Size Calls w ids zs nx E c m is ts r Nz Lids HE M Hc Off' C) as X.
        assert (Mid : forall E' c', exec_list W (f_types F) E c is = ROk (E', c') -> forall fl, mid b off E c fl = mid b (off + length is) E' c' fl).
        { intros E' c' Y fl. unfold mid. rewrite (skipn_app_length _ _ _ _ Sk), Sk, (exec_list_app _ _ _ post _ _ _ _ Y). reflexivity. }
        destruct (operate size (arity params) callee true w zs m) as [[outs' m']| | |]; cbn [rbind fst snd]; try exact I.
        * destruct X as (Dok & M' & E' & c' & Y & Hc' & Lv & Out). eapply agrees_same; [exact (Mid E' c' Y)|].
          assert (Ag : forall i, In i (map snd (concat ms)) -> E' i = E i) by (intros i Hi; apply Lv; exact (proj1 (Forall_forall _ _) (proj2 Ok) i Hi)).
          destruct ms as [|m1 ms1]; [congruence|]. cbn [hd tl] in *.
          assert (Agm : forall o i, In (o, i) m1 -> E' i = E i) by (intros o i Hi; apply Ag; cbn [concat]; rewrite map_app; apply in_or_app; left; apply (in_map snd) in Hi; exact Hi).
          eapply IH; [exact H| | |exact M'|exact Hc'].
          -- rewrite (proj1 (with_result_ext k r (m1 :: ms1))). eapply around_agree; [exact A|]. intros i Hi. apply Ag. cbn [concat]. rewrite map_app. apply in_or_app. right; exact Hi.
          -- destruct outs' as [|v [|? ?]]; [| |contradiction].
             ++ subst r. cbn [with_result hd set_outs]. intros o v Ho. destruct (env_rel_agree _ _ _ _ _ R Agm o v Ho) as (D & L & Y'). split; [exact D|]. split; [cbn; lia|exact Y'].
             ++ destruct Out as (i & -> & Ev & _). cbn [with_result hd set_outs]. intros o v' Ho. unfold set_out in Ho. rewrite look_cons.
                destruct (origin_eqb o (k, 0)) eqn:Eo.
                ** apply origin_eqb_eq in Eo. subst o. injection Ho as <-. rewrite (proj2 (origin_eqb_eq _ _) eq_refl). inversion Dok; subst. split; [assumption|]. split; [cbn; lia|]. exists i. auto.
                ** destruct (origin_eqb (k, 0) o) eqn:Eo'; [apply origin_eqb_eq in Eo'; subst o; rewrite (proj2 (origin_eqb_eq _ _) eq_refl) in Eo; discriminate|].
                   destruct (env_rel_agree _ _ _ _ _ R Agm o v' Ho) as (D & L & Y'). split; [exact D|]. split; [cbn; lia|exact Y'].
        * exists 0. unfold mid. rewrite Sk. assert (T : forall l1 l2 E c, exec_list W (f_types F) E c l1 = RTrap -> exec_list W (f_types F) E c (l1 ++ l2) = RTrap).
          { clear. induction l1 as [|i l1 IH]; intros l2 E c; cbn [exec_list app]; [discriminate|]. destruct (exec W (f_types F) E c i) as [[E2 c2]| | |]; cbn [rbind]; auto. }
          rewrite (T _ post _ _ X). reflexivity.
      + exact I.
      + destruct H as (Sk & tgt & Ht & Wi & Ret & H).
        change (drun' (S n) fs k (Next (OBr t) ins outs rest) e m) with (rbind (numbers true ins e) (fun vs => goes n fs k e m t false vs rest)).
        destruct (numbers true ins e) as [zs| | |] eqn:Hz; try exact I; cbn [rbind].
        2:{ elim (numbers_no_trap _ _ Hz). }
        eapply agrees_same; [|eapply (goes_ok n fs k e m E c ms ls nx 0 0 b t false rest tgt ins zs IH H A); [|exact M|exact Hc|exact Hz|exact Wi|intros _; exact Ret]].
        * intros fl. unfold mid. rewrite Sk, Ht. reflexivity.
        * intros o v Ho. destruct (R o v Ho) as (D & L & X). split; [exact D|]. split; [cbn; lia|exact X].
      + exact (branch_ok n fs k e m E c ms ls nx b off t false ins outs rest IH H0 A R M Hc).
      + exact (branch_ok n fs k e m E c ms ls nx b off t true ins outs rest IH H0 A R M Hc).
      + contradiction.
    - destruct H as (Sk & h & phis & ids & n1 & Ht & G & Fd & Hd & H).
      change (drun' (S n) fs k (Loop ins sub rest) e m) with (rbind (numbers true ins e) (fun vs =>
        match sub with
        | Next OInputs _ outs _ =>
          if Nat.eqb (length vs) (length outs)
          then drun' n (Frame sub (S k) rest e :: fs) 0 sub (set_outs nothing 0 0 (map (fun z => (z, false)) vs)) m else RStuck
        | _ => RStuck
        end)).
      destruct (numbers true ins e) as [zs| | |] eqn:Hz; try exact I; cbn [rbind]; [|elim (numbers_no_trap _ _ Hz)].
      pose proof Hd as (_ & _ & _ & Outs & _). destruct sub as [|[] ins0 outs r|] eqn:Sub; try contradiction Outs.
      destruct (Nat.eqb_spec (length zs) (length outs)) as [El|]; [|exact I]. rewrite <- Sub in *.
      assert (Lz : forall os zs, numbers true os e = ROk zs -> length zs = length os).
      { clear. induction os as [|o os IH]; intros zs; cbn [numbers]; [intros H; injection H as <-; reflexivity|]. destruct (e o) as [v|]; [|discriminate]. cbn [of_opt rbind].
        destruct (number true v); cbn [rbind]; try discriminate. destruct (numbers true os e) as [l| | |]; cbn [rbind]; try discriminate. intros H; injection H as <-. cbn. f_equal. apply IH. reflexivity. }
      assert (Fn : firstn (length phis) ins = ins) by (apply firstn_all2; rewrite <- (Lz _ _ Hz); lia). rewrite Fn in G.
      destruct (numbers_get _ _ _ _ Nn R _ _ _ Hz G) as (Nz & HE & Len & _).
      assert (R' : env_rel (S k) e (hd [] ms) E) by (intros o v Ho; destruct (R o v Ho) as (D & L & X); split; [exact D|]; split; [cbn; lia|exact X]).
      eapply agrees_same with (y := fun fl => run W F fl (Some b) h E c); [intros fl; unfold mid; rewrite Sk, Ht; reflexivity|].
      eapply (loop_ok n fs m E c ms ls h phis (Frame sub (S k) rest e) b ids zs IH Hd); [|exact M|exact Hc|exact Fd|exact Nz|exact HE|lia].
      cbn [around fr_sub fr_rest fr_node fr_env]. destruct ms as [|m1 ms1]; [congruence|]. split; [exact Hd|]. split; [exists n1; exact H|]. split; [split; [exact R'|lia]|exact A].
  Qed.
End Sim.
