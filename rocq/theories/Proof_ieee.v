(** The IEEE interchange formats (Spec_ieee.v): every bit pattern denotes a valid number, encoding and decoding are inverse, the sign bit. *)
From Coq Require Import ZArith Lia Bool List Floats.SpecFloat ZifyBool.
From Verif Require Import Spec_ieee Spec_polar_float Lib_float.
Local Open Scope Z_scope.
Ltac Zify.zify_post_hook ::= idtac.

Section Format.
Variables mw ew : Z.
Hypothesis F : ieee_format mw ew.
Notation w := (ieee_width mw ew).
Notation prec := (ieee_prec mw).
Notation emax := (ieee_emax ew).
Notation emin := (ieee_emin mw ew).
Notation num := (float_of_bits mw ew).
Notation bits := (bits_of_float mw ew).
Notation valid := (fun x => valid_binary prec emax x = true).

Lemma emin_eq : SpecFloat.emin prec emax = emin. Proof. reflexivity. Qed.
Lemma Hprec : 1 < prec. Proof. destruct F. unfold ieee_prec. lia. Qed.
Lemma Hemax : prec < emax. Proof. apply F. Qed.
Lemma pow_ew : 2 ^ ew = 2 * emax.
Proof. destruct F as (_ & H & _). unfold ieee_emax. rewrite <- Z.pow_succ_r by lia. f_equal. lia. Qed.
Lemma pow_mw : 0 < 2 ^ mw. Proof. apply Z.pow_pos_nonneg; destruct F; lia. Qed.
Lemma fexp_eq k : fexp prec emax k = Z.max (k - prec) emin. Proof. reflexivity. Qed.

Lemma fields_range z : 0 <= exponent_field mw ew z < 2 ^ ew /\ 0 <= mantissa_field mw z < 2 ^ mw.
Proof. pose proof pow_mw. pose proof pow_ew. pose proof Hprec. pose proof Hemax. split; apply Z.mod_pos_bound; lia. Qed.
Lemma num_valid z : valid (num z).
Proof.
  pose proof pow_mw. pose proof pow_ew. pose proof Hprec. pose proof Hemax. destruct (fields_range z) as (E & M). destruct F as (F1 & F2 & F3). unfold float_of_bits. set (e := exponent_field _ _ _) in *. set (m := mantissa_field _ _) in *.
  destruct (e =? 2 ^ ew - 1) eqn:E1; [destruct (m =? 0); reflexivity|]. destruct (e =? 0) eqn:E2; [destruct (m =? 0) eqn:E3; [reflexivity|]|]; cbn [valid_binary]; apply bounded_iff; rewrite fexp_eq.
  - assert (Zpos (digits2_pos (Z.to_pos m)) <= mw).
    { rewrite digits_log, Z2Pos.id by lia. assert (Z.log2 m < mw); [|lia]. apply Z.log2_lt_pow2; lia. }
    unfold ieee_emin, ieee_prec in *. split; lia.
  - assert (Zpos (digits2_pos (Z.to_pos (2 ^ mw + m))) = mw + 1) as ->.
    { apply digits_iff; [lia|]. rewrite Z2Pos.id by lia. rewrite Z.pow_add_r by lia. lia. }
    unfold ieee_emin, ieee_prec in *. split; lia.
Qed.

(** fields of a pattern put together *)
Lemma fields_join s e m : 0 <= e < 2 ^ ew -> 0 <= m < 2 ^ mw ->
  let z := (if s : bool then 2 ^ (mw + ew) else 0) + e * 2 ^ mw + m in
  sign_field mw ew z = s /\ exponent_field mw ew z = e /\ mantissa_field mw z = m /\ 0 <= z < 2 ^ w.
Proof.
  intros E M z. destruct F as (F1 & F2 & _). assert (P : 2 ^ (mw + ew) = 2 ^ ew * 2 ^ mw) by (rewrite Z.pow_add_r by lia; ring).
  assert (D : z / 2 ^ mw = (if s then 2 ^ ew else 0) + e) by (unfold z; destruct s; symmetry; apply (Z.div_unique _ _ _ m); lia).
  unfold sign_field, exponent_field, mantissa_field. rewrite D. split; [|split; [|split]].
  - rewrite (Z.add_comm mw ew), <- (Z.div_pow2_bits z mw ew) by lia. rewrite D. destruct s.
    + rewrite Z.testbit_true, (Z.add_comm _ e) by lia. replace ((e + 2 ^ ew) / 2 ^ ew) with 1; [reflexivity|]. apply (Z.div_unique _ _ _ e); lia.
    + rewrite Z.testbit_false by lia. rewrite Z.div_small by lia. reflexivity.
  - destruct s; symmetry; [apply (Z.mod_unique _ _ 1)|apply (Z.mod_unique _ _ 0)]; lia.
  - symmetry. apply (Z.mod_unique _ _ ((if s then 2 ^ ew else 0) + e)); [lia|]. unfold z. destruct s; lia.
  - unfold ieee_width. rewrite (Z.add_comm _ 1), Z.pow_add_r by lia. unfold z. destruct s; nia.
Qed.
Lemma bits_ok nan x : valid x -> (is_nan x = true -> 0 <= nan < 2 ^ w /\ num nan = S754_nan) -> num (bits nan x) = x /\ 0 <= bits nan x < 2 ^ w.
Proof.
  intros V HN. pose proof pow_mw. pose proof pow_ew as PE. pose proof Hprec. pose proof Hemax. destruct x as [s|s| |s m e]; cbn [bits_of_float].
  - destruct (fields_join s 0 0 ltac:(lia) ltac:(lia)) as (A & B & C & D). rewrite Z.mul_0_l, !Z.add_0_r in *. split; [|exact D]. unfold float_of_bits. rewrite A, B, C.
    replace (0 =? 2 ^ ew - 1) with false by lia. reflexivity.
  - destruct (fields_join s (2 ^ ew - 1) 0 ltac:(lia) ltac:(lia)) as (A & B & C & D). rewrite !Z.add_0_r in *. split; [|exact D]. unfold float_of_bits. rewrite A, B, C.
    rewrite Z.eqb_refl. reflexivity.
  - destruct (HN eq_refl); auto.
  - cbn [valid_binary] in V. apply bounded_iff in V. rewrite fexp_eq in V. destruct V as (V1 & V2). destruct F as (F1 & F2 & F3).
    destruct (Zpos m <? 2 ^ mw) eqn:L.
    + destruct (fields_join s 0 (Zpos m) ltac:(lia) ltac:(lia)) as (A & B & C & D). rewrite Z.mul_0_l, Z.add_0_r in *. split; [|exact D]. unfold float_of_bits. rewrite A, B, C.
      replace (0 =? 2 ^ ew - 1) with false by lia. cbn [Z.eqb]. f_equal.
      assert (Zpos (digits2_pos m) <= mw); [|unfold ieee_prec in *; lia]. rewrite digits_log. assert (Z.log2 (Zpos m) < mw); [|lia]. apply Z.log2_lt_pow2; lia.
    + assert (mw < Zpos (digits2_pos m)). { rewrite digits_log. pose proof (Z.log2_le_mono _ _ (proj1 (Z.ltb_ge _ _) L)) as G. rewrite Z.log2_pow2 in G by lia. lia. }
      assert (Dm : Zpos (digits2_pos m) = mw + 1) by (unfold ieee_prec in *; lia). apply digits_iff in Dm; [|lia]. rewrite Z.pow_add_r in Dm by lia.
      destruct (fields_join s (e - emin + 1) (Zpos m - 2 ^ mw)) as (A & B & C & D); [|lia|].
      { rewrite PE. unfold ieee_emin, ieee_prec in *. lia. }
      split; [|exact D]. unfold float_of_bits. rewrite A, B, C. replace (e - emin + 1 =? 2 ^ ew - 1) with false by (rewrite PE; unfold ieee_emin, ieee_prec in *; lia).
      replace (e - emin + 1 =? 0) with false by (unfold ieee_emin, ieee_prec in *; lia). f_equal; [|lia]. replace (2 ^ mw + (Zpos m - 2 ^ mw)) with (Zpos m) by lia. reflexivity.
Qed.

(** changing the sign bit only *)
Lemma num_sign x y : y mod 2 ^ (mw + ew) = x mod 2 ^ (mw + ew) -> num y = set_sign (sign_field mw ew y) (num x).
Proof.
  intros E. destruct F as (F1 & F2 & _).
  assert (M : mantissa_field mw y = mantissa_field mw x).
  { unfold mantissa_field. rewrite (Znumtheory.Zmod_div_mod (2 ^ mw) (2 ^ (mw + ew)) y), (Znumtheory.Zmod_div_mod (2 ^ mw) (2 ^ (mw + ew)) x), E; try reflexivity; try (apply Z.pow_pos_nonneg; lia); exists (2 ^ ew); rewrite Z.pow_add_r by lia; ring. }
  assert (X : exponent_field mw ew y = exponent_field mw ew x).
  { unfold exponent_field. rewrite <- (Z.shiftr_div_pow2 _ mw), <- (Z.shiftr_div_pow2 _ mw) by lia. apply Z.bits_inj'. intros k Hk. destruct (Z.lt_ge_cases k ew) as [L|L].
    - rewrite !Z.mod_pow2_bits_low by lia. rewrite !Z.shiftr_spec by lia. rewrite <- (Z.mod_pow2_bits_low y (mw + ew)), <- (Z.mod_pow2_bits_low x (mw + ew)) by lia. rewrite E. reflexivity.
    - rewrite !Z.mod_pow2_bits_high by lia. reflexivity. }
  unfold float_of_bits. rewrite M, X. destruct (_ =? _); [destruct (_ =? _); reflexivity|]. destruct (_ =? _); [destruct (_ =? _); reflexivity|]. reflexivity.
Qed.
Lemma num_sign_id x : num x = set_sign (sign_field mw ew x) (num x).
Proof. apply num_sign. reflexivity. Qed.
Lemma set_sign_set s t x : set_sign s (set_sign t x) = set_sign s x.
Proof. destruct x; reflexivity. Qed.
Lemma set_abs x : set_sign false x = SFabs x.
Proof. destruct x; reflexivity. Qed.
Lemma set_neg s x : set_sign (negb s) (set_sign s x) = SFopp (set_sign s x).
Proof. destruct x; reflexivity. Qed.
Lemma negz_eq : bits 0 (S754_zero true) = 2 ^ (mw + ew). Proof. reflexivity. Qed.
Lemma width_eq : w - 1 = mw + ew. Proof. unfold ieee_width. lia. Qed.

Lemma low_same (op : Z -> Z -> Z) (f : bool -> bool -> bool) x y : (forall a b k, 0 <= k -> Z.testbit (op a b) k = f (Z.testbit a k) (Z.testbit b k)) ->
  (forall k, 0 <= k < mw + ew -> f (Z.testbit x k) (Z.testbit y k) = Z.testbit x k) -> op x y mod 2 ^ (mw + ew) = x mod 2 ^ (mw + ew).
Proof.
  intros H1 H2. destruct F as (F1 & F2 & _). apply Z.bits_inj'. intros k Hk. destruct (Z.lt_ge_cases k (mw + ew)) as [L|L].
  - rewrite !Z.mod_pow2_bits_low by lia. rewrite H1 by lia. apply H2. lia.
  - rewrite !Z.mod_pow2_bits_high by lia. reflexivity.
Qed.
Lemma negz_bit k : 0 <= k -> Z.testbit (2 ^ (mw + ew)) k = (k =? mw + ew).
Proof. intros H. destruct F as (F1 & F2 & _). rewrite Z.pow2_bits_eqb by lia. apply Z.eqb_sym. Qed.
Lemma num_abs x : num (Z.ldiff x (2 ^ (mw + ew))) = SFabs (num x).
Proof.
  destruct F as (F1 & F2 & _). rewrite (num_sign x (Z.ldiff x (2 ^ (mw + ew)))).
  - unfold sign_field. rewrite Z.ldiff_spec, negz_bit, Z.eqb_refl by lia. rewrite andb_false_r. apply set_abs.
  - apply (low_same Z.ldiff (fun a b => a && negb b)); [intros; apply Z.ldiff_spec|]. intros k Hk. rewrite negz_bit by lia. replace (k =? mw + ew) with false by lia. apply andb_true_r.
Qed.
Lemma num_abs_mod x : num (x mod 2 ^ (w - 1)) = SFabs (num x).
Proof.
  destruct F as (F1 & F2 & _). rewrite width_eq. rewrite (num_sign x (x mod 2 ^ (mw + ew))).
  - unfold sign_field. rewrite Z.mod_pow2_bits_high by lia. apply set_abs.
  - apply Z.mod_mod. apply Z.pow_nonzero; lia.
Qed.
(** the sign bit of [y] *)
Lemma sign_bit y k : 0 <= k -> Z.testbit (Z.land (2 ^ (mw + ew)) y) k = (k =? mw + ew) && sign_field mw ew y.
Proof. intros H. rewrite Z.land_spec, negz_bit by lia. unfold sign_field. destruct (k =? mw + ew) eqn:E; [replace k with (mw + ew) by lia; reflexivity|reflexivity]. Qed.
Lemma num_copysign x y : num (Z.lor (Z.ldiff x (2 ^ (mw + ew))) (Z.land (2 ^ (mw + ew)) y)) = set_sign (sign_field mw ew y) (num x).
Proof.
  destruct F as (F1 & F2 & _). rewrite (num_sign x (Z.lor _ _)).
  - f_equal. unfold sign_field at 1. rewrite Z.lor_spec, Z.ldiff_spec, sign_bit, negz_bit, Z.eqb_refl by lia. rewrite andb_false_r. reflexivity.
  - apply Z.bits_inj'. intros k Hk. destruct (Z.lt_ge_cases k (mw + ew)) as [L|L]; [|rewrite !Z.mod_pow2_bits_high by lia; reflexivity].
    rewrite !Z.mod_pow2_bits_low by lia. rewrite Z.lor_spec, Z.ldiff_spec, sign_bit, negz_bit by lia. replace (k =? mw + ew) with false by lia. rewrite andb_true_r. apply orb_false_r.
Qed.
Lemma num_xorsign x y : num (Z.lxor x (Z.land (2 ^ (mw + ew)) y)) = if sign_field mw ew y then SFopp (num x) else num x.
Proof.
  destruct F as (F1 & F2 & _). rewrite (num_sign x (Z.lxor _ _)).
  - unfold sign_field at 1. rewrite Z.lxor_spec, sign_bit, Z.eqb_refl by lia. cbn [andb]. fold (sign_field mw ew x). rewrite (num_sign_id x), set_sign_set.
    destruct (sign_field mw ew y); [|rewrite xorb_false_r; reflexivity]. rewrite xorb_true_r. apply (eq_trans (eq_sym (set_sign_set _ (sign_field mw ew x) _))). apply set_neg.
  - apply (low_same Z.lxor xorb); [intros; apply Z.lxor_spec|]. intros k Hk. rewrite sign_bit by lia. replace (k =? mw + ew) with false by lia. apply xorb_false_r.
Qed.
Lemma sign_field_num x : num x <> S754_nan -> fsgn (num x) <> 0 -> sign_field mw ew x = (fsgn (num x) <? 0).
Proof. intros H1 H2. rewrite (num_sign_id x) in *. set (s := sign_field mw ew x) in *. destruct (num x); cbn [set_sign fsgn] in *; try congruence; destruct s; reflexivity. Qed.
Lemma num_zero : num 0 = S754_zero false.
Proof. pose proof (bits_ok 0 (S754_zero false) eq_refl ltac:(discriminate)) as (A & _). exact A. Qed.
End Format.
