(** Boolean checkers for concrete rows and proofs (used by examples and refutations). *)
From Coq Require Import ZArith Bool List Lia.
From Verif Require Import M31 M31Facts Air AirOpcodes AirSpec AirChain AirMem AirGlobal.
Import ListNotations.
Open Scope Z_scope.

Definition in_tableb (r : relation) (v : list Z) : bool :=
  match r, v with
  | RC8, [x] => (0 <=? x) && (x <? 256)
  | RC16, [x] => (0 <=? x) && (x <? 65536)
  | RC20, [x] => (0 <=? x) && (x <? 1048576)
  | BitwiseR, [o; x; y; z] =>
    (0 <=? x) && (x <? 256) && ((0 <=? y) && (y <? 256)) &&
    ((o =? 0) && (z =? Z.land x y) || (o =? 1) && (z =? Z.lor x y) || (o =? 2) && (z =? Z.lxor x y))
  | (RC8 | RC16 | RC20 | BitwiseR), _ => false
  | _, _ => true
  end.
Ltac bool_hyps :=
  repeat match goal with
  | H : _ && _ = true |- _ => apply andb_true_iff in H; destruct H
  | H : _ || _ = true |- _ => apply orb_true_iff in H; destruct H
  | H : (_ <=? _) = true |- _ => apply Z.leb_le in H
  | H : (_ <? _) = true |- _ => apply Z.ltb_lt in H
  | H : (_ =? _) = true |- _ => apply Z.eqb_eq in H
  end.
Lemma in_tableb_ok r v : in_tableb r v = true -> in_table r v.
Proof.
  destruct r; cbn [in_table]; try (intros _; exact I).
  all: destruct v as [|x v]; [discriminate|]; cbn [in_tableb].
  2-4: destruct v; [|discriminate]; intros H; bool_hyps; auto.
  destruct v as [|y v]; [discriminate|]. destruct v as [|z v]; [discriminate|]. destruct v as [|w v]; [discriminate|].
  destruct v; [|discriminate]. intros H. bool_hyps; auto 10.
Qed.
Definition lookup_okb (e : entry) : bool := (fst (norm e) =? 0) || in_tableb (re_rel e) (snd (norm e)).
Definition vanishesb (a : air) : bool := forallb (fun c => c mod P =? 0) (a_cons a).
Definition satisfiedb (a : air) : bool := vanishesb a && forallb lookup_okb (a_ents a).
Lemma forallb_Forall {A} (f : A -> bool) (Q : A -> Prop) l :
  (forall x, f x = true -> Q x) -> forallb f l = true -> Forall Q l.
Proof. intros H Hf. apply Forall_forall. intros x Hx. apply H. rewrite forallb_forall in Hf. auto. Qed.
Lemma vanishesb_ok a : vanishesb a = true -> vanishes a.
Proof. apply forallb_Forall. intros x. apply Z.eqb_eq. Qed.
Lemma satisfiedb_ok a : satisfiedb a = true -> satisfied a.
Proof.
  intros H. apply andb_true_iff in H. destruct H as [H1 H2]. split; [exact (vanishesb_ok a H1)|].
  revert H2. apply forallb_Forall. intros e H. apply orb_true_iff in H. destruct H as [H|H].
  - left. apply Z.eqb_eq. exact H.
  - right. apply in_tableb_ok. exact H.
Qed.

Definition wfb (x : Z) : bool := (0 <=? x) && (x <? P).
Lemma wfb_ok x : wfb x = true -> wf x.
Proof. unfold wfb. intros H. bool_hyps. split; assumption. Qed.
Lemma wfb_all l : forallb wfb l = true -> Forall wf l.
Proof. apply forallb_Forall. exact wfb_ok. Qed.

Definition balancedb (es : list (Z * list Z)) : bool := forallb (fun e => total (snd e) es mod P =? 0) es.
Lemma total_no t es : ~ In t (map snd es) -> total t es = 0.
Proof.
  induction es as [|[k v] es IH]; intros H; [reflexivity|]. cbn [total map snd] in *.
  destruct (list_eq_dec Z.eq_dec v t) as [->|]; [exfalso; apply H; left; reflexivity|].
  rewrite IH; [reflexivity|]. intros Hin. apply H. right. exact Hin.
Qed.
Lemma balancedb_ok es : balancedb es = true -> balanced es.
Proof.
  intros H t. unfold balancedb in H. rewrite forallb_forall in H.
  destruct (in_dec (list_eq_dec Z.eq_dec) t (map snd es)) as [Hin|Hout].
  - apply in_map_iff in Hin. destruct Hin as (e & <- & He). apply Z.eqb_eq. exact (H e He).
  - rewrite (total_no t es Hout). reflexivity.
Qed.

Definition row_okb (n : nat) (a : air) (row : list Z) : bool :=
  Nat.eqb (length row) n && forallb wfb row && vanishesb a.
Lemma row_okb_ok n a row : row_okb n a row = true -> row_ok n a row.
Proof.
  unfold row_okb. intros H. bool_hyps. split; [apply Nat.eqb_eq; assumption|].
  split; [apply wfb_all; assumption|apply vanishesb_ok; assumption].
Qed.
Definition pub_okb (x : pub) : bool :=
  let '(a, v, c) := x in wfb a && forallb wfb (qlist v) && wfb c.
Lemma pub_okb_ok x : pub_okb x = true -> let '(a, v, c) := x in wf a /\ qwf v /\ wf c.
Proof.
  destruct x as [[a v] c]. unfold pub_okb. intros H. apply andb_true_iff in H. destruct H as [H Hc].
  apply andb_true_iff in H. destruct H as [Ha Hv].
  split; [apply wfb_ok; assumption|]. split; [|apply wfb_ok; assumption].
  apply wfb_all in Hv. unfold qlist in Hv. inversion Hv as [|? ? H1 Hv1]; subst. inversion Hv1 as [|? ? H2 Hv2]; subst.
  inversion Hv2 as [|? ? H3 Hv3]; subst. inversion Hv3 as [|? ? H4 _]; subst. repeat split; assumption || apply H1 || apply H2 || apply H3 || apply H4.
Qed.
(** Every condition of [accepted], computed (for proofs without hash rows). *)
Definition acceptedb (p : proof) : bool :=
  forallb (fun cr => row_okb (n_columns (fst cr)) (evaluate (fst cr) (snd cr)) (snd cr)) (p_ops p) &&
  (forallb (fun row => row_okb 7 (cu_air row) row) (p_cus p) &&
  (forallb (fun row => row_okb 9 (mem_air row) row) (p_mem p) &&
  (forallb (fun row => row_okb 10 (merkle_air row) row) (p_merkle p) &&
  ((match p_hash p with [] => true | _ => false end) &&
  (forallb pub_okb (p_program p ++ p_input p ++ p_output p) &&
  (forallb (fun t => is_lookup (fst t) && in_tableb (fst t) (snd (snd t))) (p_tab p) &&
  (balancedb (reg_side p) && (balancedb (mem_side p) && (balancedb (merkle_side p) && (balancedb (hash_side p) &&
  forallb (fun r => balancedb (lookup_side r p)) [RC8; RC16; RC20; BitwiseR])))))))))).
Lemma acceptedb_ok p : acceptedb p = true -> forall h, accepted h p.
Proof.
  unfold acceptedb. intros H h.
  repeat match type of H with _ && _ = true => let H1 := fresh "K" in apply andb_true_iff in H; destruct H as [H1 H] end.
  split.
  - revert K. apply forallb_Forall. intros x. apply row_okb_ok.
  - revert K0. apply forallb_Forall. intros x. apply row_okb_ok.
  - revert K1. apply forallb_Forall. intros x. apply row_okb_ok.
  - revert K2. apply forallb_Forall. intros x. apply row_okb_ok.
  - destruct (p_hash p); [constructor|discriminate K3].
  - revert K4. apply forallb_Forall. exact pub_okb_ok.
  - revert K5. apply forallb_Forall. intros x Hx. apply andb_true_iff in Hx. destruct Hx as [Hx1 Hx2].
    split; [exact Hx1|apply in_tableb_ok; exact Hx2].
  - apply balancedb_ok; assumption.
  - apply balancedb_ok; assumption.
  - apply balancedb_ok; assumption.
  - apply balancedb_ok; assumption.
  - rewrite forallb_forall in H. intros r Hr. apply balancedb_ok, H.
    destruct r; try discriminate Hr; cbn [In]; auto 10.
Qed.
