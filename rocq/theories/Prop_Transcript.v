(** Property C73: a proof is bound to its public data. *)
From Coq Require Import ZArith List Bool Lia.
From Verif Require Import Transcript.
Import ListNotations.
Open Scope Z_scope.

(** ** Lemmas *)
Lemma numbers_inj : forall l l', flat_map numbers l = flat_map numbers l' -> l = l'.
Proof.
  induction l as [|x l IH]; intros [|y l'] H; try discriminate H; [reflexivity|]. destruct x, y. cbn in H. injection H as -> -> -> -> -> -> H. f_equal. apply IH, H.
Qed.
Definition short (l : list (option entry)) : Prop := Z.of_nat (length l) < 2 ^ 32.
Lemma as_u32_inj l l' : short l -> short l' -> as_u32 (length l) = as_u32 (length l') -> length l = length l'.
Proof. unfold short, as_u32. intros A B H. rewrite !Z.mod_small in H by lia. lia. Qed.
Lemma present_full {A} : forall l l' : list (option A), ~ In None l -> ~ In None l' -> present l = present l' -> l = l'.
Proof.
  induction l as [|[x|] l IH]; intros [|[y|] l'] A1 A2 H; cbn in *; try discriminate H; try tauto. injection H as -> H. f_equal. apply IH; tauto.
Qed.

(** ** C73: a proof is bound to its public data *)
(** If the numbers that are mixed into the channel are the same, then so are registers, clock, roots,
    the number of public cells, and the contents that are present, in order; and everything, if no
    content is missing. *)
Theorem C73_bound_partial : forall p q,
  (forall e, e = public_memory p \/ e = public_memory q -> short (program e) /\ short (input e) /\ short (output e)) ->
  mix_public p = mix_public q ->
  (pc0 p, fp0 p, pc1 p, fp1 p, clock p, root0 p, root1 p) = (pc0 q, fp0 q, pc1 q, fp1 q, clock q, root0 q, root1 q) /\
  (forall part, part = program \/ part = input \/ part = output ->
    length (part (public_memory p)) = length (part (public_memory q)) /\ present (part (public_memory p)) = present (part (public_memory q))) /\
  ((forall part, part = program \/ part = input \/ part = output -> ~ In None (part (public_memory p)) /\ ~ In None (part (public_memory q))) -> p = q).
Proof.
  intros p q S H. destruct (S _ (or_introl eq_refl)) as (S1 & S2 & S3), (S _ (or_intror eq_refl)) as (T1 & T2 & T3).
  unfold mix_public, mix_entries in H. injection H as H1 H2 H3 H4 H5 H6 H7 L1 L2 L3 E1 E2 E3.
  apply numbers_inj in E1, E2, E3. apply as_u32_inj in L1; auto. apply as_u32_inj in L2; auto. apply as_u32_inj in L3; auto.
  split; [congruence|]. split; [intros part [->|[->| ->]]; auto|].
  intros F. destruct (F program ltac:(auto)) as [F1 F1'], (F input ltac:(auto)) as [F2 F2'], (F output ltac:(auto)) as [F3 F3'].
  destruct p as [a b c d e f g [x y z]], q as [a' b' c' d' e' f' g' [x' y' z']]. cbn in *.
  f_equal; auto. f_equal; apply present_full; auto.
Qed.
Print Assumptions C73_bound_partial.

(** Public data that the prover makes is bound even if contents are missing, when the ranges are known. *)
Lemma present_above (m : memory) : forall l start x, In x (present (map (fun i => let a := start + Z.of_nat i in
  match m a with Some (v0, v1, v2, v3, c) => Some (Entry a v0 v1 v2 v3 c) | None => None end) l)) -> exists i, In i l /\ e_addr x = start + Z.of_nat i.
Proof.
  induction l as [|i l IH]; intros start x H; cbn in H; [destruct H|].
  destruct (m (start + Z.of_nat i)) as [[[[[v0 v1] v2] v3] c]|]; [destruct H as [<-|H]; [exists i; split; [left; reflexivity|reflexivity]|]|]; destruct (IH _ _ H) as (j & J & E); exists j; (split; [right; exact J|exact E]).
Qed.
Lemma extract_same (m m' : memory) start : forall len k,
  let f m := map (fun i => let a := start + Z.of_nat i in match m a with Some (v0, v1, v2, v3, c) => Some (Entry a v0 v1 v2 v3 c) | None => None end) (seq k len) in
  present (f m) = present (f m') -> f m = f m'.
Proof.
  induction len as [|n IH]; intros k f H; [reflexivity|]. subst f. cbn [seq map] in *. cbv zeta in *.
  pose proof (present_above m (seq (S k) n) start) as A. pose proof (present_above m' (seq (S k) n) start) as B. cbv zeta in A, B.
  destruct (m (start + Z.of_nat k)) as [[[[[v0 v1] v2] v3] c]|], (m' (start + Z.of_nat k)) as [[[[[w0 w1] w2] w3] c']|]; cbn [present] in H.
  - injection H as -> -> -> -> -> H. f_equal. apply (IH (S k) H).
  - exfalso. destruct (B _ ltac:(rewrite <- H; left; reflexivity)) as (i & I & E). cbn in E. apply in_seq in I. lia.
  - exfalso. destruct (A _ ltac:(rewrite H; left; reflexivity)) as (i & I & E). cbn in E. apply in_seq in I. lia.
  - f_equal. apply (IH (S k) H).
Qed.
Theorem C73_made_data_bound : forall initial final initial' final' rp ri ro p q,
  public_memory p = new_entries initial final rp ri ro -> public_memory q = new_entries initial' final' rp ri ro ->
  mix_public p = mix_public q -> p = q.
Proof.
  intros i f i' f' rp ri ro p q A B H. unfold mix_public, mix_entries in H. injection H as H1 H2 H3 H4 H5 H6 H7 _ _ _ E1 E2 E3. apply numbers_inj in E1, E2, E3. rewrite A, B in *.
  destruct p as [a b c d e f0 g m], q as [a' b' c' d' e' f0' g' m']. cbn in *. subst. f_equal. unfold new_entries in *. cbn in *.
  f_equal; [exact (extract_same i i' (fst rp) (snd rp) 0 E1)|exact (extract_same i i' (fst ri) (snd ri) 0 E2)|exact (extract_same f f' (fst ro) (snd ro) 0 E3)].
Qed.
Print Assumptions C73_made_data_bound.

(** Prover and verifier see the same challenges: if the proof of work and the STARK prover do what
    they promise on any channel, for the traces of the run, and the sums balance for all challenges, then the proof is accepted. *)
Theorem C73_same_challenges : forall Ch Root Claim IClaim Rel K Pow Stark mix_u32s mix_root mix_claim mix_iclaim mix_pow fresh enough draw zero add mul neg inv is_zero one minus_one
  registers merkle mem components_sum verify_stark prime height grind write_interaction prove_stark p (k0 k1 : Root) (claim : Claim),
  (forall c : Ch, enough (mix_pow (grind c : Pow) c) = true) ->
  (forall c (r : Rel), let ic := fst (write_interaction r : IClaim * Root) in verify_stark c claim ic r (prove_stark c claim ic r : Stark) = true) ->
  (forall r, is_zero (add (initial_logup_sum Rel K zero add mul neg inv one minus_one registers merkle mem prime height p r) (components_sum (fst (write_interaction r : IClaim * Root)))) = true) ->
  verify Ch Root Claim IClaim Rel K Pow Stark mix_u32s mix_root mix_claim mix_iclaim mix_pow fresh enough draw zero add mul neg inv is_zero one minus_one
    registers merkle mem components_sum verify_stark prime height
    (prove Ch Root Claim IClaim Rel Pow Stark mix_u32s mix_root mix_claim mix_iclaim mix_pow fresh draw grind write_interaction prove_stark p k0 claim k1) = true.
Proof.
  intros. unfold prove, verify.
  match goal with |- context [draw ?c] => destruct (draw c) as [r c4] eqn:D end. destruct (write_interaction r) as [ic k2] eqn:W. cbn [p_roots p_public p_claim p_pow p_iclaim p_stark].
  rewrite H, D. specialize (H1 r). rewrite W in H1. cbn [fst] in H1. rewrite H1.
  match goal with |- verify_stark ?c _ _ _ _ = true => specialize (H0 c r) end. rewrite W in H0. exact H0.
Qed.
Print Assumptions C73_same_challenges.

(** If different inputs never lead to the same state of the channel, then proofs with the same challenges
    have the same public data: registers, clock, roots, numbers of cells and the contents that are present. *)
Theorem C73_one_statement_partial : forall Ch Root Claim IClaim Rel K Pow Stark mix_u32s mix_root mix_claim mix_iclaim mix_pow fresh enough draw zero add mul neg inv is_zero one minus_one
  registers merkle mem components_sum verify_stark prime height challenges x y,
  let good := fun x => verify Ch Root Claim IClaim Rel K Pow Stark mix_u32s mix_root mix_claim mix_iclaim mix_pow fresh enough draw zero add mul neg inv is_zero one minus_one
    registers merkle mem components_sum (fun c cl ic r s => challenges r && verify_stark c cl ic r s)%bool prime height x = true in
  let p := p_public _ _ _ _ _ x in let q := p_public _ _ _ _ _ y in
  (forall l l' c c', mix_u32s l c = mix_u32s l' c' -> l = l' /\ c = c') -> (forall l l' c c', mix_root l c = mix_root l' c' -> l = l' /\ c = c') ->
  (forall l l' c c', mix_claim l c = mix_claim l' c' -> l = l' /\ c = c') -> (forall l l' c c', mix_pow l c = mix_pow l' c' -> l = l' /\ c = c') ->
  (forall c c', challenges (fst (draw c)) = true -> challenges (fst (draw c')) = true -> c = c') ->
  (forall e, e = public_memory p \/ e = public_memory q -> short (program e) /\ short (input e) /\ short (output e)) ->
  good x -> good y ->
  (pc0 p, fp0 p, pc1 p, fp1 p, clock p, root0 p, root1 p) = (pc0 q, fp0 q, pc1 q, fp1 q, clock q, root0 q, root1 q) /\
  (forall part, part = program \/ part = input \/ part = output ->
    length (part (public_memory p)) = length (part (public_memory q)) /\ present (part (public_memory p)) = present (part (public_memory q))) /\
  ((forall part, part = program \/ part = input \/ part = output -> ~ In None (part (public_memory p)) /\ ~ In None (part (public_memory q))) -> p = q).
Proof.
  intros Ch Root Claim IClaim Rel K Pow Stark mix_u32s mix_root mix_claim mix_iclaim mix_pow fresh enough draw zero add mul neg inv is_zero one minus_one
    registers merkle mem components_sum verify_stark prime height challenges x y good p q IU IR IC IP ID S GX GY.
  apply C73_bound_partial; [exact S|]. subst good p q. cbv beta in GX, GY. unfold verify in GX, GY.
  destruct (p_roots _ _ _ _ _ x) as [[k0 k1] k2], (p_roots _ _ _ _ _ y) as [[k0' k1'] k2'].
  match type of GX with context [draw ?c] => set (cx := c) in GX; destruct (enough cx); [|discriminate GX] end.
  match type of GY with context [draw ?c] => set (cy := c) in GY; destruct (enough cy); [|discriminate GY] end.
  assert (E : cx = cy).
  { apply ID.
    - destruct (draw cx) as [r c4]. destruct (is_zero _) in GX; [|discriminate GX]. apply andb_prop in GX. apply GX.
    - destruct (draw cy) as [r c4]. destruct (is_zero _) in GY; [|discriminate GY]. apply andb_prop in GY. apply GY. }
  subst cx cy. apply IP in E. destruct E as [_ E]. apply IR in E. destruct E as [_ E]. apply IC in E. destruct E as [_ E]. apply IR in E. destruct E as [_ E].
  unfold mix_all, mix_public, mix_entries in *. cbn [fold_left] in E.
  apply IU in E. destruct E as [-> E]. apply IU in E. destruct E as [-> E]. apply IU in E. destruct E as [-> E]. apply IU in E. destruct E as [-> E]. apply IU in E. destruct E as [-> _]. reflexivity.
Qed.
Print Assumptions C73_one_statement_partial.

(** ** C73: refutations *)
(** Whatever the channel, the hash and the verifier of the STARK are: missing contents can be moved.
    A proof for outputs (v, nothing) is accepted exactly if the same proof for outputs
    (nothing, v) is. *)
Definition content : entry := Entry 100 5 0 0 0 9.
Definition with_output (o : list (option entry)) : public_data := PublicData 0 0 4 8 9 1 2 (Entries [] [] o).
Theorem C73_moved_output_refuted : exists p q, get_output_values (public_memory p) = [Some (5, 0, 0, 0); None] /\
  get_output_values (public_memory q) = [None; Some (5, 0, 0, 0)] /\
  forall Ch Root Claim IClaim Rel K Pow Stark mix_u32s mix_root mix_claim mix_iclaim mix_pow fresh enough draw zero add mul neg inv is_zero one minus_one
    registers merkle mem components_sum verify_stark prime height (claim : Claim) (iclaim : IClaim) roots (stark : Stark) (pow : Pow),
  let accepts p := verify Ch Root Claim IClaim Rel K Pow Stark mix_u32s mix_root mix_claim mix_iclaim mix_pow fresh enough draw zero add mul neg inv is_zero one minus_one
    registers merkle mem components_sum verify_stark prime height (Proof Root Claim IClaim Pow Stark claim iclaim p roots stark pow) in
  accepts p = accepts q.
Proof.
  exists (with_output [Some content; None]), (with_output [None; Some content]). split; [reflexivity|]. split; [reflexivity|]. intros. reflexivity.
Qed.
Print Assumptions C73_moved_output_refuted.

(** Nothing ties a content to its place in the list: with the contents of two outputs exchanged the
    public data passes the verifier's check of the sums for exactly the same challenges. *)
Theorem C73_exchanged_outputs_refuted : exists p q, get_output_values (public_memory p) = [Some (5, 0, 0, 0); Some (6, 0, 0, 0)] /\
  get_output_values (public_memory q) = [Some (6, 0, 0, 0); Some (5, 0, 0, 0)] /\
  forall Rel K zero add mul neg inv one minus_one registers merkle mem prime height (r : Rel),
  (forall a b c : K, add a (add b c) = add (add a b) c) -> (forall a b, add a b = add b a) ->
  initial_logup_sum Rel K zero add mul neg inv one minus_one registers merkle mem prime height p r =
  initial_logup_sum Rel K zero add mul neg inv one minus_one registers merkle mem prime height q r.
Proof.
  exists (with_output [Some content; Some (Entry 101 6 0 0 0 9)]), (with_output [Some (Entry 101 6 0 0 0 9); Some content]). split; [reflexivity|]. split; [reflexivity|].
  intros Rel K zero add mul neg inv one minus_one registers merkle mem prime height r A C. unfold initial_logup_sum. cbv zeta. rewrite !map_app, !fold_left_app.
  unfold with_output. cbn [public_memory program input output present flat_map pc0 fp0 pc1 fp1 clock root0 root1 map fold_left app].
  match goal with |- context [entry_terms Rel K mul neg merkle mem prime height r minus_one 2 content] => set (x := entry_terms Rel K mul neg merkle mem prime height r minus_one 2 content) end.
  match goal with |- context [entry_terms Rel K mul neg merkle mem prime height r minus_one 2 (Entry 101 6 0 0 0 9)] => set (y := entry_terms Rel K mul neg merkle mem prime height r minus_one 2 (Entry 101 6 0 0 0 9)) end.
  assert (F : forall l a b, fold_left add l (add a b) = add a (fold_left add l b)).
  { induction l as [|z l IH]; intros a b; cbn [fold_left]; [reflexivity|]. rewrite <- A. apply IH. }
  assert (G : forall l l' a, fold_left add l (fold_left add l' a) = fold_left add l' (fold_left add l a)).
  { induction l as [|z l IH]; intros l' a; cbn [fold_left]; [reflexivity|]. rewrite <- IH. f_equal. rewrite C, <- F. f_equal. apply C. }
  rewrite !app_nil_r, !map_app, !fold_left_app. apply G.
Qed.
Print Assumptions C73_exchanged_outputs_refuted.

(** *** Examples *)
Example C73_made_example : exists m : memory, new_entries m m (0, 2%nat) (2, 1%nat) (3, 2%nat) =
  Entries [Some (Entry 0 7 1 1 0 0); None] [Some (Entry 2 9 0 0 0 0)] [None; Some (Entry 4 3 0 0 0 6)].
Proof.
  exists (fun a => if a =? 0 then Some (7, 1, 1, 0, 0) else if a =? 2 then Some (9, 0, 0, 0, 0) else if a =? 4 then Some (3, 0, 0, 0, 6) else None). reflexivity.
Qed.
Example C73_bound_example : short (output (public_memory (with_output [Some content]))) /\ ~ In None (output (public_memory (with_output [Some content]))) /\
  mix_public (with_output [Some content]) <> mix_public (with_output [Some (Entry 100 6 0 0 0 9)]).
Proof. split; [reflexivity|]. split; [cbn; intros [H|[]]; discriminate H|discriminate]. Qed.

(** A channel that remembers all that was mixed into it, challenges that depend on all of it, and a
    STARK proof that is the channel: the proof of [with_output [Some content]] is accepted, and with
    another public clock it is not. *)
Definition toy_sum (p : public_data) (r : Z) : Z :=
  initial_logup_sum Z Z 0 Z.add Z.mul Z.opp (fun x => x) 1 (-1) (fun r l => r + fold_left Z.add l 0) (fun r l => r + fold_left Z.mul l 1) (fun r l => r * fold_left Z.add l 0) 2147483647 30 p r.
Definition toy_verify := verify (list Z) Z Z Z Z Z Z (list Z) (fun l c => c ++ l) (fun k c => c ++ [k]) (fun k c => c ++ [k]) (fun k c => c ++ [k]) (fun k c => c ++ [k])
  [3] (fun c => last c 0 mod 2 =? 0) (fun c => (fold_left Z.add c 0, c)) 0 Z.add Z.mul Z.opp (fun x => x) (fun x => x =? 0) 1 (-1)
  (fun r l => r + fold_left Z.add l 0) (fun r l => r + fold_left Z.mul l 1) (fun r l => r * fold_left Z.add l 0) (fun x => x)
  (fun c _ _ _ s => if list_eq_dec Z.eq_dec c s then true else false) 2147483647 30.
Definition toy_prove (p : public_data) := prove (list Z) Z Z Z Z Z (list Z) (fun l c => c ++ l) (fun k c => c ++ [k]) (fun k c => c ++ [k]) (fun k c => c ++ [k]) (fun k c => c ++ [k])
  [3] (fun c => (fold_left Z.add c 0, c)) (fun _ => 4) (fun r => (- toy_sum p r, r)) (fun c _ _ _ => c) p.
Example C73_same_challenges_example : forall k0 claim k1, toy_verify (toy_prove (with_output [Some content]) k0 claim k1) = true.
Proof.
  intros. apply C73_same_challenges.
  - intros c. rewrite last_last. reflexivity.
  - intros c r. cbv beta zeta. destruct (list_eq_dec Z.eq_dec c c); [reflexivity|contradiction].
  - intros r. cbn [fst]. apply Z.eqb_eq. unfold toy_sum. apply Z.add_opp_diag_r.
Qed.
Example C73_other_clock_example : let x := toy_prove (with_output [Some content]) 1 2 5 in let p := p_public _ _ _ _ _ x in
  toy_verify (Proof _ _ _ _ _ (p_claim _ _ _ _ _ x) (p_iclaim _ _ _ _ _ x) (PublicData (pc0 p) (fp0 p) (pc1 p) (fp1 p) (clock p + 1) (root0 p) (root1 p) (public_memory p))
    (p_roots _ _ _ _ _ x) (p_stark _ _ _ _ _ x) (p_pow _ _ _ _ _ x)) = false.
Proof. vm_compute. reflexivity. Qed.

(** A channel as in [C73_one_statement_partial]: the list of all that was mixed in. *)
Definition note_verify (challenges : list (list Z) -> bool) := verify (list (list Z)) Z Z Z (list (list Z)) Z Z unit cons (fun k c => [k] :: c) (fun k c => [k] :: c) (fun k c => [k] :: c) (fun k c => [k] :: c)
  [] (fun _ => true) (fun c => (c, c)) 0 Z.add Z.mul Z.opp (fun x => x) (fun x => x =? 0) 1 (-1)
  (fun r l => fold_left Z.add l 0) (fun r l => fold_left Z.add l 0) (fun r l => fold_left Z.add l 0) (fun x => x)
  (fun c cl ic r s => challenges r && true)%bool 2147483647 30.
Example C73_one_statement_example : exists challenges x, note_verify challenges x = true /\
  (forall c c', challenges c = true -> challenges c' = true -> c = c') /\ get_output_values (public_memory (p_public _ _ _ _ _ x)) = [Some (5, 0, 0, 0)].
Proof.
  set (p := with_output [Some content]).
  exists (fun c => if list_eq_dec (list_eq_dec Z.eq_dec) c ([4] :: [3] :: [2] :: [1] :: rev (mix_public p)) then true else false).
  exists (Proof _ _ _ _ _ 2 (- initial_logup_sum (list (list Z)) Z 0 Z.add Z.mul Z.opp (fun x => x) 1 (-1) (fun r l => fold_left Z.add l 0) (fun r l => fold_left Z.add l 0) (fun r l => fold_left Z.add l 0) 2147483647 30 p [])
    p (1, 3, 9) tt 4).
  split; [vm_compute; reflexivity|]. split; [|reflexivity].
  intros c c' A B. destruct (list_eq_dec _ c _) as [->|]; [|discriminate A]. destruct (list_eq_dec _ c' _) as [->|]; [reflexivity|discriminate B].
Qed.
