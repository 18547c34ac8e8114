(** All functions of a module: where they are, and that calling any of them works. *)
From Coq Require Import ZArith Bool String List Lia.
From Verif Require Import M31 M31Facts Instr InstrFacts Isa Mir MirSem MirIsa MirLegal Vm
  Cg CgLink CgSpec CgRun CgPassFacts CgStepFacts CgBoolFacts CgLinkFacts CgLayoutFacts CgCheck CgExec CgArith CgOps CgCompute CgInstr CgCall CgSim.
Import ListNotations.
Open Scope Z_scope.

(** The code of a checked function, somewhere in the machine. *)
Definition sits (M : machine) (lab : string -> option Z) (FS base : Z) (ms : funcs) (fn : string) (g : func) : Prop :=
  exists L live cn bs h is s a z, lay_new g = COk L /\ gen_func ms fn g (est0 L cn bs h) = COk (tt, is, s) /\
    xp M lab FS (base + depth g) (frame (lay s)) a is z /\
    func_ok ms FS (depth g) g fn live (est0 L cn bs h) = true /\ depth g <= FS.

Lemma depth_of : forall g ps rs, types_of g (f_params g) = Some ps -> types_of g (f_rets g) = Some rs ->
  depth g = sizes ps + sizes rs + 2 /\ 2 <= depth g.
Proof.
  intros g ps rs A B. unfold depth. rewrite A, B. pose proof (sizes_nonneg ps). pose proof (sizes_nonneg rs). lia.
Qed.
Lemma func_frame : forall ms FS NS fn g live L cn bs h u is s, lay_new g = COk L -> gen_func ms fn g (est0 L cn bs h) = COk (u, is, s) ->
  func_ok ms FS NS g fn live (est0 L cn bs h) = true -> 0 <= frame (lay s).
Proof.
  intros ms FS NS fn g live L cn bs h u is s Hl H Ok. unfold gen_func in H.
  take H u1 j1 st1 E1. apply label_ok in E1. destruct E1 as (-> & ->). unfold func_ok in Ok.
  destruct (types_of g (f_params g)) as [ps|] eqn:Tp; [|discriminate]. destruct (types_of g (f_rets g)) as [rs|] eqn:Tr; [|discriminate].
  apply andb_true_iff in Ok. destruct Ok as (Ok & Bo). apply andb_true_iff in Ok. destruct Ok as (Ok & Sz). apply andb_true_iff in Ok. destruct Ok as (Ok & Nr).
  apply andb_true_iff in Ok. destruct Ok as (Ok & Sr). apply andb_true_iff in Ok. destruct Ok as (Ok & Sp). apply andb_true_iff in Ok. destruct Ok as (En & Nd).
  apply nodupb_ok in Nd. destruct (layout_ok g L ps rs Hl Nd Tp Tr) as (_ & F0 & _).
  destruct (blocks_grow _ _ _ _ _ _ _ _ _ _ _ _ _ H Bo) as (_ & G). cbn [est0 lay] in G. lia.
Qed.

(** Every function, called with a frame that leaves room for [n] nested calls. *)
Section Module.
Variable M : machine.
Variable lab : string -> option Z.
Hypothesis lab_ok : forall l b, lab l = Some b -> 0 <= b < P.
Hypothesis code_ok : forall a i, code M a = Some i -> (0 <= a < P /\ 0 <= fp_min M a) /\ iwf i.
Variables FS base : Z.
Hypothesis FS_hi : fp_max M + FS < P.
Hypothesis FS_pos : 0 <= FS.
Hypothesis base_pos : 0 <= base.
Variable ms : funcs.
Hypothesis all_sit : forall c fn g, nth_error ms c = Some (fn, g) -> sits M lab FS base ms fn g.

Lemma module_sound : forall F n, call_sound M lab ms (module_world ms F n) base (fp_max M + FS - Z.of_nat n * FS).
Proof.
  intros F. induction n as [|n IH]; intros c fn g ps rs addr bb m args Ng Tp Tr La Rb Hm T C; cbn [module_world w_call]; [exact Logic.I|].
  rewrite Ng. destruct (all_sit _ _ _ Ng) as (L & live & cn & bs & h & is & s & a & z & Hl & Hg & X & Ok & Df).
  destruct (depth_of g ps rs Tp Tr) as (De & D2).
  assert (F0 : 0 <= frame (lay s)) by (eapply func_frame; eauto).
  assert (FF : frame (lay s) <= FS).
  { destruct X as (_ & _ & _ & F1 & A & B & _). pose proof (fend_le is F1). lia. }
  assert (LO : 0 <= depth g <= base + depth g /\ depth g <= FS) by lia.
  assert (Nn : 0 <= Z.of_nat n * FS) by (apply Z.mul_nonneg_nonneg; lia).
  assert (Sn : Z.of_nat (Datatypes.S n) * FS = Z.of_nat n * FS + FS) by lia.
  destruct (func_step M lab lab_ok code_ok FS (depth g) (base + depth g) LO FS_hi (frame (lay s)) F0 FF bb ltac:(lia) D2
    ms g (module_world ms F n) base (fp_max M + FS - Z.of_nat n * FS) IH ltac:(lia) ltac:(lia)
    fn live L cn bs h tt is s a z ps rs F m args Hl Hg X ltac:(lia) Ok Tp Tr Hm T C) as (La' & R).
  rewrite La in La'. injection La' as <-. exact R.
Qed.
End Module.

(** ** Where the linker puts the functions *)
Lemma placed_words : forall C lab is a z, placed C lab a is z -> z = a + words (fst (split 0 is)).
Proof.
  intros C lab. induction is as [|[i t|l] is IH]; intros a z H; cbn [placed split fst words fold_right] in *.
  - lia.
  - destruct H as (_ & H). apply IH in H. rewrite (split_code is 1%nat). unfold words in H. lia.
  - destruct H as (_ & H). apply IH in H. exact H.
Qed.

Lemma emitted_sits : forall lab M FS base ms lives c bs h fs Ls r es a z,
  emitted ms c bs h fs Ls r es -> funcs_ok ms FS c bs h fs Ls lives = true -> lay_all fs = COk Ls ->
  placed (code M) lab a r z -> 0 <= a -> z < P ->
  (forall x, a <= x < z -> fp_min M x = base + span_depth (spans ms c bs h fs Ls) (x - a)) ->
  forall fn g, In (fn, g) fs -> sits M lab FS base ms fn g.
Proof.
  intros lab M FS base ms lives c bs h fs Ls r es a z H. revert lives a z.
  induction H as [|c bs h fn f L fs Ls is s r es Hg En H IH]; intros lives a z Ok Hl Pl A Z0 Fl fn' g I; [destruct I|].
  cbn [funcs_ok] in Ok. destruct lives as [|live lives]; [discriminate|]. rewrite Hg in Ok.
  apply andb_true_iff in Ok. destruct Ok as (Ok & Ok2). apply andb_true_iff in Ok. destruct Ok as (Ok & Df).
  apply andb_true_iff in Ok2. destruct Ok2 as (Fd & Ok2). cbn [lay_all] in Hl.
  destruct (lay_new f) as [L0| |] eqn:Hf; [|discriminate|discriminate]. destruct (lay_all fs) as [Ls0| |] eqn:Ha; [|discriminate|discriminate].
  injection Hl as -> ->. apply placed_app in Pl. destruct Pl as (y & P1 & P2).
  pose proof (placed_le _ _ _ _ _ P1) as L1. pose proof (placed_le _ _ _ _ _ P2) as L2.
  pose proof (placed_words _ _ _ _ _ P1) as W. rewrite expand_code in W.
  cbn [spans] in Fl. rewrite Hg in Fl. destruct I as [I|I].
  - injection I as <- <-. exists L, live, c, bs, h, is, s, a, y. split; auto. split; auto. split; [|split; [auto|lia]].
    split; [lia|]. split; [lia|]. split.
    + intros x Hx. rewrite Fl by lia. cbn [span_depth]. destruct (Z.ltb_spec (x - a) (words (map canon_l (concat (fst (dedup (frame (lay s)) (fst (split 0 is)))))))); lia.
    + exists (frame (lay s)). split; [lia|]. rewrite fend_dedup. split; [lia|]. exact P1.
  - eapply (IH lives y z); eauto; [lia|]. intros x Hx. rewrite Fl by lia. cbn [span_depth].
    destruct (Z.ltb_spec (x - a) (words (map canon_l (concat (fst (dedup (frame (lay s)) (fst (split 0 is)))))))); [lia|].
    f_equal. f_equal. lia.
Qed.

(** Entry points are labels. *)
Lemma emitted_entries : forall ms c bs h fs Ls r es, emitted ms c bs h fs Ls r es ->
  (forall l n, In (l, n) es -> In (l, n) (snd (split 0 r))) /\ map fst es = map fst fs.
Proof.
  intros ms c bs h fs Ls r es H. induction H as [|c bs h fn f L fs Ls is s r es Hg En H (IH & IH2)]; [split; [intros l n []|reflexivity]|].
  split.
  - intros l n I. rewrite split_app. cbn [snd]. apply in_or_app. destruct I as [I|I].
    + injection I as <- <-. left. unfold gen_func in Hg. take Hg u1 j1 st1 E1. apply label_ok in E1. destruct E1 as (-> & ->).
      cbn [app expand split snd]. left. reflexivity.
    + right. unfold shift in *. apply in_map_iff in I. destruct I as ([l0 n0] & E & I). cbn [fst snd] in E. injection E as <- <-.
      apply in_map_iff. exists (l0, n0). cbn [fst snd]. split; auto.
  - cbn [map fst]. f_equal. rewrite <- IH2. unfold shift. rewrite map_map. reflexivity.
Qed.
Lemma find_entry_in : forall fn es, In fn (map fst es) -> exists a, find_entry fn es = Some a /\ In (fn, a) es.
Proof.
  intros fn es H. unfold find_entry. destruct (find (fun e => String.eqb (fst e) fn) es) as [[l a]|] eqn:E.
  - apply find_some in E. destruct E as (I & E). cbn [fst] in E. apply String.eqb_eq in E. subst. exists a. auto.
  - exfalso. apply in_map_iff in H. destruct H as ([l a] & <- & I). pose proof (find_none _ _ E _ I) as K. cbn [fst] in K.
    rewrite String.eqb_refl in K. discriminate.
Qed.

(** The program of a checked module: every function sits somewhere, entry points are the
    addresses of functions. *)
Lemma compile_sits : forall fs p FS lives, compile fs = COk p -> checked fs FS lives = true ->
  exists Ls lab, lay_all (legal_funcs fs) = COk Ls /\
  (forall l b, lab l = Some b -> 0 <= b < LIMIT) /\ total (p_code p) < LIMIT /\
  code_fits FS (spans (legal_funcs fs) 0 [] false (legal_funcs fs) Ls) 0 (p_code p) = true /\
  (forallb (fun z => (0 <=? z) && (z <? P)) (p_data p) = true /\ p_code p <> []) /\
  (forall c fn g, nth_error (legal_funcs fs) c = Some (fn, g) -> exists a, find_entry fn (p_entries p) = Some a /\ lab fn = Some a) /\
  forall base fmax c fn g, nth_error (legal_funcs fs) c = Some (fn, g) ->
    sits (Mach (fetch (p_code p)) (fun x => base + span_depth (spans (legal_funcs fs) 0 [] false (legal_funcs fs) Ls) x) fmax)
      lab FS base (legal_funcs fs) fn g.
Proof.
  intros fs p FS lives H Ok. unfold checked in Ok. destruct (lay_all (legal_funcs fs)) as [Ls| |] eqn:EL; [|discriminate|discriminate].
  destruct (gen_module fs) as [g| |] eqn:Eg; [|discriminate|discriminate]. rewrite H in Ok.
  apply andb_true_iff in Ok. destruct Ok as (Ok & Ne). apply andb_true_iff in Ok. destruct Ok as (Ok & Da). apply andb_true_iff in Ok. destruct Ok as (Ok & Cf). apply andb_true_iff in Ok. destruct Ok as (Ok & En). apply andb_true_iff in Ok. destruct Ok as (Fo & Di).
  apply distinct_nodup in Di. change (all_labels g) with (names g) in Di.
  assert (HL : forall fn f, In (fn, f) (legal_funcs fs) -> last_term f = true).
  { intros fn f I. rewrite forallb_forall in En. specialize (En _ I). exact En. }
  unfold compile in H. destruct (valid_module fs); [|discriminate]. rewrite Eg in H. unfold gen_module in Eg. rewrite EL in Eg.
  destruct (gen_all_emitted _ _ _ _ _ HL (lay_all_length _ _ EL) Eg) as (r & es & A & B & C & D).
  cbn [gst0 g_code g_labels g_entries app length] in *. rewrite shift0 in C, D.
  unfold link in H. destruct (table g) as [t|] eqn:Et; [|discriminate].
  destruct (place_marks (g_code g) (g_entries g)) as [en|] eqn:Ee; [|discriminate].
  destruct (resolve t 0 (g_code g)) as [js|] eqn:Er; [|discriminate]. injection H as <-. cbn [p_code p_entries] in *.
  assert (Pl : placed (fetch js) (fun l => lookup l t) 0 r (total js)).
  { rewrite B in Er. pose proof (placed_resolved t r js [] [] Er) as K. cbn [app] in K.
    change (total []) with 0 in K. rewrite app_nil_r in K. apply K. intros l n Hin. cbn.
    rewrite <- C in Hin. destruct (table_labels _ _ Et Di _ _ Hin) as (_ & X). rewrite X, B. reflexivity. }
  destruct (table_range _ _ Et) as (T1 & T2).
  assert (Tt : total js < LIMIT) by (rewrite (resolve_total _ _ _ _ Er); auto).
  exists Ls, (fun l => lookup l t). split; auto. split; auto. split; auto. split; auto.
  split; [split; [exact Da|intros Ec; cbn [p_code] in Ne; rewrite Ec in Ne; discriminate Ne]|]. split.
  - intros c fn g0 I. apply nth_error_In in I. destruct (emitted_entries _ _ _ _ _ _ _ _ A) as (E1 & E2).
    destruct (place_marks_in _ _ _ Ee) as (N1 & N2 & _). rewrite D, E2 in N1.
    destruct (find_entry_in fn en) as (a & F1 & F2).
    { rewrite N1. apply in_map_iff. exists (fn, g0). auto. }
    exists a. split; auto. destruct (place_marks_inv _ _ _ _ _ Ee F2) as (n & I2 & ->).
    rewrite D in I2. apply E1 in I2. rewrite <- C in I2. destruct (table_labels _ _ Et Di _ _ I2) as (_ & X). exact X.
  - intros base fmax c fn g0 I. eapply emitted_sits; [exact A|exact Fo|exact EL|exact Pl|lia|unfold LIMIT, P in *; lia| |eapply nth_error_In; exact I].
    intros x Hx. cbn [fp_min]. rewrite Z.sub_0_r. reflexivity.
Qed.
