(** Round trip of the JSON form. *)
From Coq Require Import ZArith Bool List Lia.
From Verif Require Import M31 M31Facts Instr InstrFacts Hex.
Import ListNotations.
Open Scope Z_scope.
Ltac Zify.zify_post_hook ::= Z.div_mod_to_equations.

Lemma digit_val_hex d : 0 <= d < 16 -> digit_val (hex_digit d) = Some d.
Proof.
  intros H. unfold hex_digit, digit_val.
  destruct (Z.ltb_spec d 10).
  - destruct (Z.leb_spec 48 (48 + d)); [|lia]. destruct (Z.leb_spec (48 + d) 57); [|lia]. cbn [andb]. f_equal. lia.
  - destruct (Z.leb_spec (87 + d) 57); [lia|]. rewrite andb_false_r.
    destruct (Z.leb_spec 97 (87 + d)); [|lia]. destruct (Z.leb_spec (87 + d) 102); [|lia]. cbn [andb]. f_equal. lia.
Qed.

Lemma hexd_val f : forall n, 0 <= n < 4294967296 -> n < 16 ^ (Z.of_nat f + 1) ->
  fold_left push_digit (hexd f n) (Some 0) = Some n.
Proof.
  induction f as [|f IH]; intros n Hn Hp; cbn [hexd].
  - change (16 ^ (Z.of_nat 0 + 1)) with 16 in Hp. rewrite Z.mod_small by lia. cbn [fold_left push_digit].
    unfold push_digit. rewrite digit_val_hex by lia. cbn zeta.
    destruct (Z.ltb_spec (0 * 16 + n) 4294967296); [f_equal; lia|lia].
  - destruct (Z.ltb_spec n 16).
    + cbn [fold_left]. unfold push_digit. rewrite digit_val_hex by lia. cbn zeta.
      destruct (Z.ltb_spec (0 * 16 + n) 4294967296); [f_equal; lia|lia].
    + rewrite fold_left_app. rewrite IH.
      * cbn [fold_left]. unfold push_digit. rewrite digit_val_hex by lia. cbn zeta.
        destruct (Z.ltb_spec (n / 16 * 16 + n mod 16) 4294967296); [f_equal; lia|lia].
      * lia.
      * apply Z.div_lt_upper_bound; [lia|].
        replace (Z.of_nat (S f) + 1) with (1 + (Z.of_nat f + 1)) in Hp by lia.
        rewrite Z.pow_add_r in Hp by lia. exact Hp.
Qed.

Lemma hex_digit_range d : 0 <= d < 16 -> 48 <= hex_digit d <= 57 \/ 97 <= hex_digit d <= 102.
Proof. intros H. unfold hex_digit. destruct (Z.ltb_spec d 10); lia. Qed.

Lemma hexd_chars f : forall n, 0 <= n ->
  hexd f n <> [] /\ Forall (fun c => 48 <= c <= 57 \/ 97 <= c <= 102) (hexd f n).
Proof.
  induction f as [|f IH]; intros n Hn; cbn [hexd].
  - split; [discriminate|]. constructor; [apply hex_digit_range; lia|constructor].
  - destruct (Z.ltb_spec n 16).
    + split; [discriminate|]. constructor; [apply hex_digit_range; lia|constructor].
    + destruct (IH (n / 16) ltac:(lia)) as [H1 H2]. split.
      * intros E. apply app_eq_nil in E as [_ E]. discriminate.
      * apply Forall_app. split; [exact H2|]. constructor; [apply hex_digit_range; lia|constructor].
Qed.

Lemma trim_hex l : Forall (fun c => 48 <= c <= 57 \/ 97 <= c <= 102) l -> trim0x l = l.
Proof.
  intros H. destruct l as [|a [|b r]]; [reflexivity| |].
  - cbn. destruct a as [|p|p]; try reflexivity. repeat (destruct p; try reflexivity).
  - inversion H as [|? ? _ H']; subst. inversion H' as [|? ? Hb _]; subst.
    assert (b <> 120) by lia. cbn [trim0x].
    destruct a as [|p|p]; try reflexivity; repeat (destruct p; try reflexivity);
    destruct b as [|q|q]; try reflexivity; repeat (destruct q; try reflexivity); lia.
Qed.

Lemma radix_hex l :
  l <> [] -> Forall (fun c => 48 <= c <= 57 \/ 97 <= c <= 102) l ->
  from_radix16 l = fold_left push_digit l (Some 0).
Proof.
  intros Hn H. destruct l as [|a r]; [contradiction|]. inversion H as [|? ? Ha _]; subst.
  assert (a <> 43) by lia. assert (a <> 45) by lia. unfold from_radix16.
  destruct a as [|p|p]; try (destruct r; reflexivity).
  repeat (destruct p as [p|p|]; try (destruct r; reflexivity)); lia.
Qed.

Lemma hex_roundtrip n : 0 <= n < 4294967296 -> from_radix16 (trim0x (hex_str n)) = Some n.
Proof.
  intros H. unfold hex_str. cbn [trim0x]. destruct (hexd_chars 7 n ltac:(lia)) as [H1 H2].
  rewrite trim_hex by exact H2. rewrite radix_hex by assumption. apply hexd_val; [exact H|].
  change (16 ^ (Z.of_nat 7 + 1)) with 4294967296. lia.
Qed.

Lemma hexes_roundtrip l : Forall wf l -> hexes (map hex_str l) = Some l.
Proof.
  induction 1 as [|x l Hx Hl IH]; [reflexivity|]. cbn [map hexes].
  rewrite hex_roundtrip by (unfold wf, P in Hx; lia). rewrite IH. unfold mfrom. rewrite wf_mod by exact Hx. reflexivity.
Qed.

Theorem json_roundtrip i : iwf i -> of_json (to_json i) = JOk i.
Proof.
  intros H. unfold to_json, of_json.
  rewrite (hexes_roundtrip _ (encode_wf _ H)). rewrite decode_encode, map_length.
  assert (Hl := encode_length i). assert (Hs := size_m31_bounds i).
  destruct (map hex_str (encode i)) eqn:E; [unfold encode in E; discriminate|].
  destruct (Z.leb_spec (Z.of_nat (length (encode i))) 6); [reflexivity|lia].
Qed.

(** Parsing only succeeds on representations of the instruction's own encoding. *)
Theorem json_sound l i : of_json l = JOk i -> hexes l = Some (encode i).
Proof.
  unfold of_json. destruct l as [|s r]; [discriminate|].
  destruct (Z.of_nat (length (s :: r)) <=? 6); [|discriminate].
  destruct (hexes (s :: r)) as [vs|]; [|discriminate].
  destruct (decode vs) as [j|e] eqn:E; [|discriminate]. intros H. injection H as <-.
  apply decode_canonical in E. congruence.
Qed.
