(** Lemmas for [Wasm]: single operations. *)
From Coq Require Import ZArith Bool List Lia.
From Verif Require Import M31 Isa Mir MirSem Wasm WasmSpec.
Import ListNotations.
Open Scope Z_scope.

(** How a value of the DAG is represented. *)
Definition mval (v : dval) : val := if snd v then VBool (negb (fst v =? 0)) else VU32 (fst v).
Definition dval_ok (v : dval) : Prop := 0 <= fst v < 2 ^ 32 /\ (snd v = true -> fst v = 0 \/ fst v = 1).
Definition num (z : Z) : Prop := 0 <= z < 2 ^ 32.

Lemma u32b_num z : num z -> u32b z = true.
Proof. unfold num, u32b. intros H. apply andb_true_iff. split; [apply Z.leb_le|apply Z.ltb_lt]; change B32 with (2 ^ 32); lia. Qed.
Lemma bits_below a n : 0 <= a -> 0 <= n -> (forall i, n <= i -> Z.testbit a i = false) -> a < 2 ^ n.
Proof.
  intros Ha Hn H. destruct (Z.eq_dec a 0) as [->|N]; [apply Z.pow_pos_nonneg; lia|].
  apply Z.log2_lt_pow2; [lia|]. apply Z.nle_gt. intros C. pose proof (H (Z.log2 a) C) as K.
  rewrite Z.bit_log2 in K by lia. discriminate.
Qed.
Lemma high_bits a i : num a -> 32 <= i -> Z.testbit a i = false.
Proof. intros [A B] Hi. rewrite Z.testbit_false by lia. rewrite Z.div_small; [reflexivity|]. split; [lia|]. apply Z.lt_le_trans with (2 ^ 32); [lia|]. apply Z.pow_le_mono_r; lia. Qed.
Lemma land_num a b : num a -> num b -> num (Z.land a b).
Proof. intros A B. split; [apply Z.land_nonneg; left; apply A|]. apply bits_below; [apply Z.land_nonneg; left; apply A|lia|]. intros i Hi. rewrite Z.land_spec, (high_bits a i A Hi). reflexivity. Qed.
Lemma lor_num a b : num a -> num b -> num (Z.lor a b).
Proof. intros A B. assert (0 <= Z.lor a b) by (apply Z.lor_nonneg; split; [apply A|apply B]). split; [assumption|]. apply bits_below; [assumption|lia|]. intros i Hi. rewrite Z.lor_spec, (high_bits a i A Hi), (high_bits b i B Hi). reflexivity. Qed.
Lemma lxor_num a b : num a -> num b -> num (Z.lxor a b).
Proof. intros A B. assert (0 <= Z.lxor a b) by (apply Z.lxor_nonneg; split; intros _; [apply B|apply A]). split; [assumption|]. apply bits_below; [assumption|lia|]. intros i Hi. rewrite Z.lxor_spec, (high_bits a i A Hi), (high_bits b i B Hi). reflexivity. Qed.
Lemma div_num a b : num a -> num b -> b <> 0 -> num (a / b).
Proof. intros A B N. unfold num in *. split; [apply Z.div_pos; lia|]. apply Z.le_lt_trans with a; [|lia]. apply Z.div_le_upper_bound; nia. Qed.
Lemma mod_num a : num (a mod 2 ^ 32).
Proof. apply Z.mod_pos_bound. reflexivity. Qed.

Lemma num_ok z : num z -> dval_ok (z, false).
Proof. intros H. split; [exact H|discriminate]. Qed.
(** Results of arithmetic are numbers. *)
Lemma arith_ok w zs v : Forall num zs -> arith w zs = ROk v -> dval_ok v.
Proof.
  intros F H. assert (Bit : forall b : bool, dval_ok (bit b, true)) by (intros []; split; cbn; auto; lia).
  assert (N : forall z, num z -> dval_ok (z, false)) by (intros z Hz; split; [exact Hz|discriminate]).
  destruct w; cbn [arith] in H; try discriminate H; destruct zs as [|x [|y [|? ?]]]; try discriminate H;
    try (injection H as <-; apply Bit); try (injection H as <-; apply N, mod_num);
    inversion F as [|? ? Hx F1]; inversion F1 as [|? ? Hy F2]; subst.
  - destruct (Z.eqb_spec y 0); [discriminate|]. injection H as <-. apply N, div_num; assumption.
  - injection H as <-. apply N, land_num; assumption.
  - injection H as <-. apply N, lor_num; assumption.
  - injection H as <-. apply N, lxor_num; assumption.
Qed.

(** Signed comparisons by adding 2^31. *)
Lemma flip z : num z -> (z + 2 ^ 31) mod 2 ^ 32 = signed z + 2 ^ 31.
Proof.
  intros [A B]. unfold signed. change (2 ^ 32) with 4294967296 in *. change (2 ^ 31) with 2147483648 in *. destruct (Z.ltb_spec z 2147483648).
  - apply Z.mod_small. lia.
  - symmetry. apply Z.mod_unique with 1; lia.
Qed.
Lemma ltb_add a b c : (a + c <? b + c) = (a <? b).
Proof. destruct (Z.ltb_spec a b), (Z.ltb_spec (a + c) (b + c)); auto; lia. Qed.
Lemma leb_add a b c : (a + c <=? b + c) = (a <=? b).
Proof. destruct (Z.leb_spec a b), (Z.leb_spec (a + c) (b + c)); auto; lia. Qed.

(** ** Memory *)
Lemma heap_address a off : 0 <= a -> 0 <= off -> even_access a off = true -> a + off + 4 <= 2 ^ 28 ->
  exists k, 0 <= k /\ a + off = 4 * k /\ (heap_constant off mod P - a / 2) mod P = MAX_ADDRESS - 1 - 2 * k /\ a / 2 < P.
Proof.
  intros Ha Ho E L. unfold even_access in E. apply andb_true_iff in E. destruct E as [E M]. apply andb_true_iff in E. destruct E as [Ea Eo].
  apply Z.eqb_eq in M. apply Z.even_spec in Ea, Eo. destruct Ea as [a' ->], Eo as [o' ->].
  change (2 ^ 28) with 268435456 in L.
  exists ((2 * a' + 2 * o') / 4). pose proof (Z_div_mod_eq_full (2 * a' + 2 * o') 4) as D. rewrite M in D.
  split; [apply Z.div_pos; lia|]. split; [lia|]. generalize dependent ((2 * a' + 2 * o') / 4). intros k D.
  unfold heap_constant, i32. rewrite !(Z.mul_comm 2), !Z.div_mul by lia.
  change (2 ^ 31) with 2147483648. change (2 ^ 32) with 4294967296. change MAX_ADDRESS with 268435455. change P with 2147483647.
  rewrite (Z.mod_small (o' + 2147483648)) by lia. rewrite (Z.mod_small (268435455 + _) 4294967296) by lia.
  rewrite (Z.mod_small (268435455 + _) 2147483647) by lia. rewrite Z.mod_small by lia. lia.
Qed.
Lemma word_num m a : is_memory m -> num (word m a).
Proof. intros H. unfold word, num. pose proof (H a). pose proof (H (a + 1)). pose proof (H (a + 2)). pose proof (H (a + 3)). lia. Qed.
Lemma set_word_memory m a v : is_memory m -> is_memory (set_word m a v).
Proof. intros H x. unfold set_word. destruct (_ && _); [apply Z.mod_pos_bound; reflexivity|apply H]. Qed.
Lemma set_word_same m a v : num v -> word (set_word m a v) a = v.
Proof.
  intros [V1 V2]. unfold word, set_word.
  replace (a <=? a) with true by (symmetry; apply Z.leb_le; lia).
  replace (a <? a + 4) with true by (symmetry; apply Z.ltb_lt; lia).
  assert (L : forall i, 0 < i -> a <=? a + i = true) by (intros; apply Z.leb_le; lia).
  assert (U : forall i, i < 4 -> a + i <? a + 4 = true) by (intros; apply Z.ltb_lt; lia).
  rewrite !L, !U by lia. cbn [andb]. rewrite Z.sub_diag. rewrite !(Z.add_comm a), !Z.add_simpl_r.
  change (8 * 0) with 0. change (8 * 1) with 8. change (8 * 2) with 16. change (8 * 3) with 24. change (2 ^ 0) with 1. rewrite Z.div_1_r.
  change (2 ^ 8) with 256. change (2 ^ 16) with (256 * 256). change (2 ^ 24) with (256 * 256 * 256).
  rewrite <- !Z.div_div by lia. change (2 ^ 32) with 4294967296 in V2.
  pose proof (Z_div_mod_eq_full v 256) as D0. pose proof (Z_div_mod_eq_full (v / 256) 256) as D1. pose proof (Z_div_mod_eq_full (v / 256 / 256) 256) as D2.
  assert (v / 256 / 256 / 256 < 256) by (rewrite !Z.div_div by lia; apply Z.div_lt_upper_bound; lia).
  assert (0 <= v / 256 / 256 / 256) by (repeat apply Z.div_pos; lia).
  rewrite (Z.mod_small (v / 256 / 256 / 256)) by lia. lia.
Qed.
Lemma set_word_other m a v b : b + 4 <= a \/ a + 4 <= b -> word (set_word m a v) b = word m b.
Proof.
  intros H. unfold word, set_word.
  assert (K : forall i, 0 <= i < 4 -> (a <=? b + i) && (b + i <? a + 4) = false).
  { intros i Hi. apply andb_false_iff. rewrite Z.leb_gt, Z.ltb_ge. lia. }
  pose proof (K 0 ltac:(lia)) as K0. rewrite Z.add_0_r in K0. rewrite K0. rewrite !K by lia. reflexivity.
Qed.
Lemma holds_store size m c k v : num v -> holds size m c -> 0 <= k -> 4 * k + 4 <= size ->
  holds size (set_word m (4 * k) v) (store_u32 c (MAX_ADDRESS - 1 - 2 * k) v).
Proof.
  intros V H Hk Hs j Hj Js. unfold num in V.
  assert (V1 : 0 <= v mod 2 ^ 16 < 2 ^ 16) by (apply Z.mod_pos_bound; reflexivity).
  assert (V2 : 0 <= v / 2 ^ 16 < 2 ^ 16) by (split; [apply Z.div_pos; lia|apply Z.div_lt_upper_bound; lia]).
  destruct (Z.eq_dec j k) as [->|N].
  - rewrite set_word_same by exact V. unfold load_u32, store_u32.
    replace (MAX_ADDRESS - 1 - 2 * k + 1) with (MAX_ADDRESS - 2 * k) by ring. rewrite !Z.eqb_refl.
    replace (MAX_ADDRESS - 2 * k =? MAX_ADDRESS - 1 - 2 * k) with false by (symmetry; apply Z.eqb_neq; lia).
    split; [|split; assumption]. pose proof (Z_div_mod_eq_full v (2 ^ 16)). lia.
  - rewrite set_word_other by lia. destruct (H j Hj Js) as (A & B & C). unfold load_u32, store_u32 in *.
    assert (E : forall x, x = MAX_ADDRESS - 1 - 2 * j \/ x = MAX_ADDRESS - 2 * j ->
      (if x =? MAX_ADDRESS - 1 - 2 * k then v mod 2 ^ 16 else if x =? MAX_ADDRESS - 1 - 2 * k + 1 then v / 2 ^ 16 else c x) = c x).
    { intros x Hx. replace (x =? MAX_ADDRESS - 1 - 2 * k) with false by (symmetry; apply Z.eqb_neq; lia).
      replace (x =? MAX_ADDRESS - 1 - 2 * k + 1) with false by (symmetry; apply Z.eqb_neq; lia). reflexivity. }
    rewrite !E by lia. auto.
Qed.

(** ** The code of an operation *)
Lemma exec_list_app {S} (W : world S) T : forall is1 is2 E c E1 c1,
  exec_list W T E c is1 = ROk (E1, c1) -> exec_list W T E c (is1 ++ is2) = exec_list W T E1 c1 is2.
Proof.
  induction is1 as [|i is1 IH]; intros is2 E c E1 c1 H; cbn [exec_list app] in *; [injection H as <- <-; reflexivity|].
  destruct (exec W T E c i) as [[E2 c2]| | |]; try discriminate. cbn [rbind fst snd] in *. apply IH, H.
Qed.
Section Code.
  Variables (size : Z) (params : nat -> option (list wty)) (callee : nat -> list Z -> bytes -> res (list Z * bytes)).
  Variable call : nat -> list val -> cells -> res (list val * cells).
  Variable T : nat -> option ty.
  Definition arity (f : nat) : option nat := option_map (@length wty) (params f).
  Let W := cell_world call.
  Hypothesis Size : size <= 2 ^ 28.
  (** Calls do what the functions of the DAG do. *)
  Hypothesis Calls : forall f zs m c, Forall num zs -> is_memory m -> holds size m c ->
    match callee f zs m with
    | ROk (rs, m') => Forall num rs /\ is_memory m' /\ exists c', call f (map VU32 zs) c = ROk (map VU32 rs, c') /\ holds size m' c'
    | RTrap => call f (map VU32 zs) c = RTrap
    | _ => True
    end.

  Lemma eval_num E i z : num z -> E i = Some (VU32 z) -> eval_as E TU32 (Op i) = Some (VU32 z).
  Proof. intros N H. cbn. rewrite H, (u32b_num z N). reflexivity. Qed.
  Lemma mir_types_u32 : forall ps ts, mir_types ps = Some ts -> ts = repeat TU32 (length ps).
  Proof.
    induction ps as [|p ps IH]; intros ts H; cbn in H; [injection H as <-; reflexivity|].
    destruct p; cbn in H; [|discriminate]. destruct (mir_types ps) as [l|]; [|discriminate]. injection H as <-. cbn. rewrite (IH l eq_refl). reflexivity.
  Qed.
  Lemma eval_nums E : forall ids zs, Forall num zs -> map E ids = map (fun z => Some (VU32 z)) zs ->
    eval_list E (repeat TU32 (length zs)) (map Op ids) = Some (map VU32 zs).
  Proof.
    induction ids as [|i ids IH]; intros [|z zs] F H; try discriminate; [reflexivity|].
    inversion F; subst. injection H as Ha Hb. cbn [length repeat map eval_list]. rewrite (eval_num E i z), (IH zs) by assumption. reflexivity.
  Qed.
  Definition leaves (n : nat) (E E' : env) : Prop := forall i, (i < n)%nat -> E' i = E i.

  Lemma two_ids (E : env) ids zs x y : map E ids = map (fun z => Some (VU32 z)) zs -> zs = [x; y] ->
    exists i j, ids = [i; j] /\ E i = Some (VU32 x) /\ E j = Some (VU32 y).
  Proof. intros H ->. destruct ids as [|i [|j [|? ?]]]; try discriminate H. injection H as A B. eauto 6. Qed.
  Lemma one_id (E : env) ids zs x : map E ids = map (fun z => Some (VU32 z)) zs -> zs = [x] -> exists i, ids = [i] /\ E i = Some (VU32 x).
  Proof. intros H ->. destruct ids as [|i [|? ?]]; try discriminate H. injection H as A. eauto. Qed.
  Lemma upd_same E d v : upd E d v d = Some v.
  Proof. unfold upd. rewrite Nat.eqb_refl. reflexivity. Qed.
  Lemma upd_other E d v i : i <> d -> upd E d v i = E i.
  Proof. unfold upd. intros H. destruct (Nat.eqb_spec i d); [contradiction|reflexivity]. Qed.
  Lemma leaves_upd n E E' d v : leaves n E E' -> (n <= d)%nat -> leaves n E (upd E' d v).
  Proof. intros H L i Hi. rewrite upd_other by lia. apply H, Hi. Qed.
  Lemma leaves_refl n E : leaves n E E.
  Proof. intros i _. reflexivity. Qed.

  (** The address computation. *)
  Lemma address_runs E c i a off k n : num a -> E i = Some (VU32 a) -> a / 2 < P ->
    (heap_constant off mod P - a / 2) mod P = k -> 0 <= k < P ->
    exists E', exec_list W T E c (address_code n (Op i) off) = ROk (E', c) /\ leaves n E E' /\ E' (2 + n)%nat = Some (VFelt k).
  Proof.
    intros N Ei Lp K Kp. unfold address_code.
    eexists. split; [|split].
    - cbn [exec_list exec effect]. unfold exec, effect, eval_bin. cbn [op_type eval_opnd]. unfold eval_opnd. cbn [op_type].
      rewrite (eval_num E i a N Ei). cbn [of_opt rbind eval_as lit_as]. change (2 mod B32) with 2. cbn [sem_bin Z.eqb rbind dests bind_all of_opt fst snd].
      rewrite upd_same. assert (N2 : num (a / 2)) by (apply div_num; unfold num; lia || exact N).
      cbn [shape]. rewrite (u32b_num _ N2). cbn [of_opt rbind]. rewrite (proj2 (Z.ltb_lt _ _) Lp). cbn [rbind fst snd bind_all of_opt].
      rewrite upd_same. cbn [shape]. replace (wfb (a / 2)) with true by (symmetry; unfold wfb; apply andb_true_iff; split; [apply Z.leb_le|apply Z.ltb_lt]; unfold num in N2; lia).
      cbn [of_opt rbind sem_bin fst snd bind_all]. reflexivity.
    - repeat apply leaves_upd; try lia. apply leaves_refl.
    - cbn [plus]. rewrite upd_same. rewrite K. reflexivity.
  Qed.

  Lemma signed_runs E c i j x y n op b : num x -> num y -> E i = Some (VU32 x) -> E j = Some (VU32 y) -> (j < n)%nat -> op_type op = Some TU32 ->
    sem_bin op (VU32 (signed x + 2 ^ 31)) (VU32 (signed y + 2 ^ 31)) = ROk (VBool b) ->
    exists E', exec_list W T E c [ IBinary U32Add n (Op i) (Lit (LInt (2 ^ 31))); IBinary U32Add (S n) (Op j) (Lit (LInt (2 ^ 31)));
                         IBinary op (S (S n)) (Op n) (Op (S n)) ] = ROk (E', c) /\ leaves n E E' /\ E' (S (S n)) = Some (VBool b).
  Proof.
    intros Nx Ny Ei Ej Lj Ot S.
    assert (Step : forall (E0 : env) d k z is, num z -> E0 k = Some (VU32 z) ->
      exec_list W T E0 c (IBinary U32Add d (Op k) (Lit (LInt (2 ^ 31))) :: is) = exec_list W T (upd E0 d (VU32 (signed z + 2 ^ 31))) c is).
    { intros E0 d k z is Nz Ek. cbn [exec_list]. unfold exec, effect, eval_bin, eval_opnd. cbn [op_type]. rewrite (eval_num E0 k z Nz Ek).
      cbn [of_opt rbind eval_as lit_as]. change (2 ^ 31 mod B32) with (2 ^ 31). cbn [sem_bin]. change B32 with (2 ^ 32). rewrite (flip z Nz). reflexivity. }
    rewrite (Step E n i x _ Nx Ei). rewrite (Step _ (Datatypes.S n) j y _ Ny) by (rewrite upd_other by lia; exact Ej).
    assert (Sg : forall z, num z -> num (signed z + 2 ^ 31)) by (intros z Hz; rewrite <- flip by exact Hz; apply mod_num).
    exists (upd (upd (upd E n (VU32 (signed x + 2 ^ 31))) (Datatypes.S n) (VU32 (signed y + 2 ^ 31))) (Datatypes.S (Datatypes.S n)) (VBool b)).
    split; [|split].
    - cbn [exec_list]. unfold exec, effect, eval_bin, eval_opnd. rewrite Ot.
      rewrite (eval_num _ n (signed x + 2 ^ 31) (Sg x Nx)) by (rewrite upd_other by lia; apply upd_same).
      rewrite (eval_num _ (Datatypes.S n) (signed y + 2 ^ 31) (Sg y Ny)) by apply upd_same. cbn [of_opt rbind]. rewrite S. reflexivity.
    - repeat apply leaves_upd; try lia. apply leaves_refl.
    - apply upd_same.
  Qed.

  (** An operation of a careful run: its code computes the same, or fails as well. *)
  Lemma code_runs w ids zs n E c m is ts r : Forall num zs -> Forall (fun i => (i < n)%nat) ids -> map E ids = map (fun z => Some (VU32 z)) zs ->
    is_memory m -> holds size m c -> (forall off, w = WLoad off \/ w = WStore off -> 0 <= off) ->
    code params w (map Op ids) n = Some (is, ts, r) ->
    match operate size arity callee true w zs m with
    | ROk (outs, m') => Forall dval_ok outs /\ is_memory m' /\ exists E' c',
        exec_list W T E c is = ROk (E', c') /\ holds size m' c' /\ leaves n E E' /\
        match outs with
        | [] => r = None
        | [v] => exists i, r = Some i /\ E' i = Some (mval v) /\ (n <= i < n + length ts)%nat
        | _ => False
        end
    | RTrap => exec_list W T E c is = RTrap
    | _ => True
    end.
  Proof.
    intros F Below HE M H Off C.
    assert (Arith : forall op x y i j b t, zs = [x; y] -> ids = [i; j] -> E i = Some (VU32 x) -> E j = Some (VU32 y) ->
      num x -> num y -> op_type op = Some TU32 -> is = [IBinary op n (Op i) (Op j)] -> ts = [t] -> r = Some n ->
      forall A : res dval, arith w zs = A -> (forall v, A = ROk v -> snd v = b) ->
      sem_bin op (VU32 x) (VU32 y) = rbind A (fun v => ROk (mval v)) ->
      match rbind A (fun v => ROk ([v], m)) with
      | ROk (outs, m') => Forall dval_ok outs /\ is_memory m' /\ exists E' c',
          exec_list W T E c is = ROk (E', c') /\ holds size m' c' /\ leaves n E E' /\
          match outs with
          | [] => r = None
          | [v] => exists i, r = Some i /\ E' i = Some (mval v) /\ (n <= i < n + length ts)%nat
          | _ => False
          end
      | RTrap => exec_list W T E c is = RTrap
      | _ => True
      end).
    { intros op x y i j b t Z I Ei Ej Nx Ny Ot -> -> -> A EA _ S.
      assert (X : exec_list W T E c [IBinary op n (Op i) (Op j)] =
        rbind (rbind A (fun v => ROk (mval v))) (fun v => ROk (upd E n v, c))).
      { cbn [exec_list]. unfold exec, effect, eval_bin, eval_opnd. rewrite Ot, (eval_num E i x Nx Ei), (eval_num E j y Ny Ej). cbn [of_opt rbind]. rewrite S.
        destruct A as [v| | |]; reflexivity. }
      rewrite X. destruct A as [v| | |]; cbn [rbind]; auto.
      split; [constructor; [exact (arith_ok w zs v F EA)|constructor]|]. split; [exact M|]. exists (upd E n (mval v)), c.
      split; [reflexivity|]. split; [exact H|]. split; [apply leaves_upd; [apply leaves_refl|lia]|]. exists n. split; [reflexivity|]. split; [apply upd_same|cbn; lia]. }
    assert (Two : forall vs : list value, vs = map Op ids -> match vs with a :: b :: _ => True | _ => False end ->
      forall x y, zs = [x; y] -> exists i j, ids = [i; j] /\ E i = Some (VU32 x) /\ E j = Some (VU32 y) /\ num x /\ num y).
    { intros vs _ _ x y Ez. destruct (two_ids E ids zs x y HE Ez) as (i & j & Ei & A & B). rewrite Ez in F. inversion F as [|? ? Nx F1]; inversion F1; subst. eauto 8. }
    clear Two.
    assert (Bin : forall op t, op_type op = Some TU32 -> is = is -> 
      (forall a b l, map Op ids = a :: b :: l -> is = [IBinary op n a b] /\ ts = [t] /\ r = Some n) ->
      (forall x y, zs = [x; y] -> num x -> num y -> sem_bin op (VU32 x) (VU32 y) = rbind (arith w zs) (fun v => ROk (mval v))) ->
      (forall zs, arith w zs <> RStuck -> exists x y, zs = [x; y]) ->
      match rbind (arith w zs) (fun v => ROk ([v], m)) with
      | ROk (outs, m') => Forall dval_ok outs /\ is_memory m' /\ exists E' c',
          exec_list W T E c is = ROk (E', c') /\ holds size m' c' /\ leaves n E E' /\
          match outs with
          | [] => r = None
          | [v] => exists i, r = Some i /\ E' i = Some (mval v) /\ (n <= i < n + length ts)%nat
          | _ => False
          end
      | RTrap => exec_list W T E c is = RTrap
      | _ => True
      end).
    { intros op t Ot _ Hc Hs Ht.
      assert (D : arith w zs = RStuck \/ arith w zs <> RStuck) by (destruct (arith w zs); auto; right; discriminate).
      destruct D as [D|D]; [rewrite D; exact I|]. destruct (Ht zs D) as (x & y & Ez).
      destruct (two_ids E ids zs x y HE Ez) as (i & j & Ei & A & B). assert (Nxy : num x /\ num y) by (rewrite Ez in F; inversion F as [|? ? Nx F1]; inversion F1; auto).
      destruct Nxy as [Nx Ny]. rewrite Ei in Hc. destruct (Hc _ _ _ eq_refl) as (-> & -> & ->).
      refine (Arith op x y i j match arith w zs with ROk v => snd v | _ => true end t Ez Ei A B Nx Ny Ot eq_refl eq_refl eq_refl (arith w zs) eq_refl _ (Hs x y Ez Nx Ny)).
      intros v ->. reflexivity. }
    assert (Ht2 : forall zs, match w with WAdd | WSub | WMul | WDivU | WAnd | WOr | WXor | WEq | WNe | WGtU | WGeU | WLtU | WLeU | WLtS | WGtS | WLeS | WGeS => True | _ => False end ->
      arith w zs <> RStuck -> exists x y, zs = [x; y]).
    { clear. intros zs Hw Hn. destruct w; try contradiction; destruct zs as [|x [|y [|? ?]]]; cbn in Hn; try congruence; eauto. }
    assert (Hcode : forall op t, code params w (map Op ids) n = match map Op ids with a :: b :: _ => Some ([IBinary op n a b], [t], Some n) | _ => None end ->
      forall a b l, map Op ids = a :: b :: l -> is = [IBinary op n a b] /\ ts = [t] /\ r = Some n).
    { intros op t Hc a b l El. rewrite Hc, El in C. injection C as <- <- <-. auto. }
    assert (Bits : forall z, mval (bit z, true) = VBool z) by (intros []; reflexivity).
    assert (Sgn : forall op b, op_type op = Some TU32 ->
      (forall a b l, map Op ids = a :: b :: l ->
        is = [ IBinary U32Add n a (Lit (LInt (2 ^ 31))); IBinary U32Add (S n) b (Lit (LInt (2 ^ 31))); IBinary op (S (S n)) (Op n) (Op (S n)) ] /\
        ts = [TU32; TU32; TBool] /\ r = Some (S (S n))) ->
      (forall x y, zs = [x; y] -> arith w zs = ROk (bit (b x y), true) /\ sem_bin op (VU32 (signed x + 2 ^ 31)) (VU32 (signed y + 2 ^ 31)) = ROk (VBool (b x y))) ->
      (forall zs, arith w zs <> RStuck -> exists x y, zs = [x; y]) ->
      match rbind (arith w zs) (fun v => ROk ([v], m)) with
      | ROk (outs, m') => Forall dval_ok outs /\ is_memory m' /\ exists E' c',
          exec_list W T E c is = ROk (E', c') /\ holds size m' c' /\ leaves n E E' /\
          match outs with
          | [] => r = None
          | [v] => exists i, r = Some i /\ E' i = Some (mval v) /\ (n <= i < n + length ts)%nat
          | _ => False
          end
      | RTrap => exec_list W T E c is = RTrap
      | _ => True
      end).
    { intros op b Ot Hc Hs Ht.
      assert (D : arith w zs = RStuck \/ arith w zs <> RStuck) by (destruct (arith w zs); auto; right; discriminate).
      destruct D as [D|D]; [rewrite D; exact I|]. destruct (Ht zs D) as (x & y & Ez).
      destruct (two_ids E ids zs x y HE Ez) as (i & j & Ei & A & B). assert (Nxy : num x /\ num y) by (rewrite Ez in F; inversion F as [|? ? Nx F1]; inversion F1; auto).
      destruct Nxy as [Nx Ny]. destruct (Hs x y Ez) as [R S]. pose proof (arith_ok w zs _ F R) as Ok. rewrite R. cbn [rbind].
      rewrite Ei in Hc, Below. destruct (Hc _ _ _ eq_refl) as (-> & -> & ->).
      assert (Lj : (j < n)%nat) by (inversion Below as [|? ? _ B1]; inversion B1; assumption).
      destruct (signed_runs E c i j x y n op (b x y) Nx Ny A B Lj Ot S) as (E' & X & L & V).
      split; [constructor; [exact Ok|constructor]|]. split; [exact M|]. exists E', c. split; [exact X|]. split; [exact H|]. split; [exact L|].
      exists (Datatypes.S (Datatypes.S n)). split; [reflexivity|]. split; [rewrite Bits; exact V|cbn; lia]. }
    assert (Scode : forall op, code params w (map Op ids) n = match map Op ids with a :: b :: _ =>
        Some ([ IBinary U32Add n a (Lit (LInt (2 ^ 31))); IBinary U32Add (S n) b (Lit (LInt (2 ^ 31))); IBinary op (S (S n)) (Op n) (Op (S n)) ], [TU32; TU32; TBool], Some (S (S n))) | _ => None end ->
      forall a b l, map Op ids = a :: b :: l ->
        is = [ IBinary U32Add n a (Lit (LInt (2 ^ 31))); IBinary U32Add (S n) b (Lit (LInt (2 ^ 31))); IBinary op (S (S n)) (Op n) (Op (S n)) ] /\
        ts = [TU32; TU32; TBool] /\ r = Some (S (S n))).
    { intros op Hc a b l El. rewrite Hc, El in C. injection C as <- <- <-. auto. }
    destruct w; try discriminate C; cbn [operate].
    1: (eapply (Bin U32Add TU32); [reflexivity|reflexivity|apply Hcode; reflexivity|intros x y -> _ _; reflexivity|intros; apply Ht2; auto]).
    1: (eapply (Bin U32Sub TU32); [reflexivity|reflexivity|apply Hcode; reflexivity|intros x y -> _ _; reflexivity|intros; apply Ht2; auto]).
    1: (eapply (Bin U32Mul TU32); [reflexivity|reflexivity|apply Hcode; reflexivity|intros x y -> _ _; reflexivity|intros; apply Ht2; auto]).
    1: (eapply (Bin U32Div TU32); [reflexivity|reflexivity|apply Hcode; reflexivity|intros x y -> _ _; cbn [arith sem_bin]; destruct (y =? 0); reflexivity|intros; apply Ht2; auto]).
    1: (eapply (Bin U32BitwiseAnd TU32); [reflexivity|reflexivity|apply Hcode; reflexivity|intros x y -> _ _; reflexivity|intros; apply Ht2; auto]).
    1: (eapply (Bin U32BitwiseOr TU32); [reflexivity|reflexivity|apply Hcode; reflexivity|intros x y -> _ _; reflexivity|intros; apply Ht2; auto]).
    1: (eapply (Bin U32BitwiseXor TU32); [reflexivity|reflexivity|apply Hcode; reflexivity|intros x y -> _ _; reflexivity|intros; apply Ht2; auto]).
    1: (eapply (Bin U32Eq TBool); [reflexivity|reflexivity|apply Hcode; reflexivity|intros x y -> _ _; cbn [arith sem_bin rbind]; rewrite Bits; reflexivity|intros; apply Ht2; auto]).
    1: (eapply (Bin U32Neq TBool); [reflexivity|reflexivity|apply Hcode; reflexivity|intros x y -> _ _; cbn [arith sem_bin rbind]; rewrite Bits; reflexivity|intros; apply Ht2; auto]).
    1: (eapply (Bin U32Greater TBool); [reflexivity|reflexivity|apply Hcode; reflexivity|intros x y -> _ _; cbn [arith sem_bin rbind]; rewrite Bits; reflexivity|intros; apply Ht2; auto]).
    1: (eapply (Bin U32GreaterEqual TBool); [reflexivity|reflexivity|apply Hcode; reflexivity|intros x y -> _ _; cbn [arith sem_bin rbind]; rewrite Bits; reflexivity|intros; apply Ht2; auto]).
    1: (eapply (Bin U32Less TBool); [reflexivity|reflexivity|apply Hcode; reflexivity|intros x y -> _ _; cbn [arith sem_bin rbind]; rewrite Bits; reflexivity|intros; apply Ht2; auto]).
    1: (eapply (Bin U32LessEqual TBool); [reflexivity|reflexivity|apply Hcode; reflexivity|intros x y -> _ _; cbn [arith sem_bin rbind]; rewrite Bits; reflexivity|intros; apply Ht2; auto]).
    1: (apply (Sgn U32Less (fun x y => signed x <? signed y)); [reflexivity|apply Scode; reflexivity|intros x y ->; split; [reflexivity|cbn [sem_bin]; rewrite ltb_add; reflexivity]|intros; apply Ht2; auto]).
    1: (apply (Sgn U32Greater (fun x y => signed y <? signed x)); [reflexivity|apply Scode; reflexivity|intros x y ->; split; [reflexivity|cbn [sem_bin]; rewrite ltb_add; reflexivity]|intros; apply Ht2; auto]).
    1: (apply (Sgn U32LessEqual (fun x y => signed x <=? signed y)); [reflexivity|apply Scode; reflexivity|intros x y ->; split; [reflexivity|cbn [sem_bin]; rewrite leb_add; reflexivity]|intros; apply Ht2; auto]).
    1: (apply (Sgn U32GreaterEqual (fun x y => signed y <=? signed x)); [reflexivity|apply Scode; reflexivity|intros x y ->; split; [reflexivity|cbn [sem_bin]; rewrite leb_add; reflexivity]|intros; apply Ht2; auto]).
    - (* i32.eqz *)
      destruct zs as [|x [|? ?]]; cbn [arith rbind]; try exact I. destruct (one_id E ids [x] x HE eq_refl) as (i & -> & Ei).
      cbn [map code] in C. injection C as <- <- <-. inversion F as [|? ? Nx _]; subst.
      split; [constructor; [exact (arith_ok WEqz [x] (bit (x =? 0), true) F eq_refl)|constructor]|]. split; [exact M|]. exists (upd E n (VBool (x =? 0))), c.
      split; [|split; [exact H|split; [apply leaves_upd; [apply leaves_refl|lia]|]]].
      + cbn [exec_list]. unfold exec, effect, eval_bin, eval_opnd. cbn [op_type]. rewrite (eval_num E i x Nx Ei). reflexivity.
      + exists n. split; [reflexivity|]. split; [rewrite Bits; apply upd_same|cbn; lia].
    - (* i32.const *)
      destruct zs as [|? ?]; cbn [arith rbind]; try exact I. cbn [code] in C.
      assert (C' : is = [IAssign n (Lit (LInt (v mod 2 ^ 32))) TU32] /\ ts = [TU32] /\ r = Some n) by (destruct (map Op ids); injection C as <- <- <-; auto).
      destruct C' as (-> & -> & ->). split; [constructor; [apply num_ok, mod_num|constructor]|]. split; [exact M|].
      exists (upd E n (VU32 (v mod 2 ^ 32))), c. split; [|split; [exact H|split; [apply leaves_upd; [apply leaves_refl|lia]|]]].
      + cbn [exec_list]. unfold exec, effect. cbn [eval_as lit_as of_opt rbind]. change B32 with (2 ^ 32). rewrite Z.mod_mod by discriminate. reflexivity.
      + exists n. split; [reflexivity|]. split; [apply upd_same|cbn; lia].
    - (* call *)
      unfold arity. cbn [code] in C.
      assert (C' : exists ps, params f = Some ps /\ is = [ICall [n] f (map Op ids) (repeat TU32 (length ps))] /\ ts = [TU32] /\ r = Some n).
      { destruct (params f) as [ps|]; [|destruct (map Op ids); discriminate C]. destruct (mir_types ps) as [l|] eqn:Em; [|destruct (map Op ids); discriminate C].
        exists ps. rewrite <- (mir_types_u32 ps l Em). split; [reflexivity|]. destruct (map Op ids); injection C as <- <- <-; auto. }
      destruct C' as (ps & -> & -> & -> & ->). cbn [option_map]. 
      assert (Goal : match (if Nat.eqb (length zs) (length ps) then rbind (callee f zs m) (fun r0 => if true && negb (Nat.eqb (length (fst r0)) 1) then RStuck
                       else ROk (map (fun z => (z, false)) (fst r0), snd r0)) else RStuck) with
        | ROk (outs, m') => Forall dval_ok outs /\ is_memory m' /\ exists E' c',
          exec_list W T E c [ICall [n] f (map Op ids) (repeat TU32 (length ps))] = ROk (E', c') /\ holds size m' c' /\ leaves n E E' /\
          match outs with
          | [] => Some n = None
          | [v] => exists i, Some n = Some i /\ E' i = Some (mval v) /\ (n <= i < n + length [TU32])%nat
          | _ => False
          end
        | RTrap => exec_list W T E c [ICall [n] f (map Op ids) (repeat TU32 (length ps))] = RTrap
        | _ => True
        end).
      { destruct (Nat.eqb_spec (length zs) (length ps)) as [Len|]; [|exact I]. rewrite <- Len.
        pose proof (Calls f zs m c F M H) as K. 
        assert (X : forall q, call f (map VU32 zs) c = q ->
          exec_list W T E c [ICall [n] f (map Op ids) (repeat TU32 (length zs))] = rbind q (fun r => rbind (of_opt (bind_all E [n] (fst r))) (fun e' => ROk (e', snd r)))).
        { intros q <-. cbn [exec_list]. unfold exec, effect. rewrite (eval_nums E ids zs F HE). cbn [of_opt rbind W cell_world w_call dests].
          destruct (call f (map VU32 zs) c) as [[q1 q2]| | |]; cbn [rbind fst snd]; try reflexivity. destruct (bind_all E [n] q1); reflexivity. }
        destruct (callee f zs m) as [[rs m']| | |]; cbn [rbind fst snd]; try exact I.
        - destruct rs as [|z [|? ?]]; cbn [length Nat.eqb negb andb]; try exact I.
          destruct K as (K1 & K2 & c' & K3 & K4). inversion K1 as [|? ? Nz _]; subst.
          split; [constructor; [apply num_ok, Nz|constructor]|]. split; [exact K2|]. exists (upd E n (VU32 z)), c'.
          split; [rewrite (X _ K3); reflexivity|]. split; [exact K4|]. split; [apply leaves_upd; [apply leaves_refl|lia]|].
          exists n. split; [reflexivity|]. split; [apply upd_same|cbn; lia].
        - rewrite (X _ K). reflexivity. }
      destruct zs as [|z0 zs0]; exact Goal.
    - (* load *)
      destruct zs as [|a [|? ?]]; try exact I. destruct (one_id E ids [a] a HE eq_refl) as (i & -> & Ei). inversion F as [|? ? Na _]; subst.
      assert (C' : is = address_code n (Op i) offset ++ [ILoad (3 + n)%nat (Place (2 + n)%nat []) TU32] /\ ts = [TU32; TFelt; TFelt; TU32] /\ r = Some (3 + n)%nat) by (injection C as <- <- <-; auto).
      destruct C' as (-> & -> & ->). unfold access. cbn [andb].
      destruct (even_access a offset) eqn:Ev; cbn [negb rbind]; [|exact I]. destruct (Z.leb_spec (a + offset + 4) size) as [L|]; [|exact I]. cbn [rbind].
      destruct (heap_address a offset (proj1 Na) (Off offset (or_introl eq_refl)) Ev ltac:(lia)) as (k & K0 & K1 & K2 & K3).
      assert (Kp : 0 <= MAX_ADDRESS - 1 - 2 * k < P) by (change MAX_ADDRESS with 268435455; change P with 2147483647; change (2 ^ 28) with 268435456 in Size; lia).
      destruct (address_runs E c i a offset _ n Na Ei K3 K2 Kp) as (E' & X & Lv & V).
      destruct (H k K0 ltac:(lia)) as (W1 & _ & _). rewrite K1.
      split; [constructor; [apply num_ok, word_num, M|constructor]|]. split; [exact M|].
      exists (upd E' (3 + n)%nat (VU32 (word m (4 * k)))), c.
      split; [|split; [exact H|split; [apply leaves_upd; [exact Lv|lia]|]]].
      + rewrite (exec_list_app W T _ _ _ _ _ _ X). cbn [exec_list]. unfold exec, effect. cbn [pl_base pl_projs omap]. rewrite V. cbn [of_opt rbind W cell_world w_load]. rewrite W1. reflexivity.
      + exists (3 + n)%nat. split; [reflexivity|]. split; [apply upd_same|cbn; lia].
    - (* store *)
      destruct zs as [|a [|v [|? ?]]]; try exact I. destruct (two_ids E ids [a; v] a v HE eq_refl) as (i & j & -> & Ei & Ej).
      inversion F as [|? ? Na F1]; inversion F1 as [|? ? Nv _]; subst. inversion Below as [|? ? _ B1]; inversion B1 as [|? ? Lj _]; subst.
      assert (C' : is = address_code n (Op i) offset ++ [IStore (Place (2 + n)%nat []) (Op j) TU32] /\ ts = [TU32; TFelt; TFelt] /\ r = None) by (injection C as <- <- <-; auto).
      destruct C' as (-> & -> & ->). unfold access. cbn [andb].
      destruct (even_access a offset) eqn:Ev; cbn [negb rbind]; [|exact I]. destruct (Z.leb_spec (a + offset + 4) size) as [L|]; [|exact I]. cbn [rbind].
      destruct (heap_address a offset (proj1 Na) (Off offset (or_intror eq_refl)) Ev ltac:(lia)) as (k & K0 & K1 & K2 & K3).
      assert (Kp : 0 <= MAX_ADDRESS - 1 - 2 * k < P) by (change MAX_ADDRESS with 268435455; change P with 2147483647; change (2 ^ 28) with 268435456 in Size; lia).
      destruct (address_runs E c i a offset _ n Na Ei K3 K2 Kp) as (E' & X & Lv & V). rewrite K1.
      split; [constructor|]. split; [apply set_word_memory, M|].
      exists E', (store_u32 c (MAX_ADDRESS - 1 - 2 * k) v).
      split; [|split; [apply holds_store; try assumption; lia|split; [exact Lv|reflexivity]]].
      rewrite (exec_list_app W T _ _ _ _ _ _ X). cbn [exec_list]. unfold exec, effect. cbn [pl_base pl_projs omap]. rewrite V. cbn [of_opt rbind].
      rewrite (eval_num E' j v Nv) by (rewrite (Lv j Lj); exact Ej). reflexivity.
  Qed.
End Code.
