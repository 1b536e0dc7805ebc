(** Property C70: the floating point lanes of simd.hh, sse4_1.hh, avx2.hh and neon.hh.

    [flanes mw ew N r] are the numbers in the lanes of the registers [r] of [N] bits, [lanes_u N w r] their bits; the theorems hold for
    any number of registers and for every IEEE format, so for float (23, 8) and double (52, 11), for SSE ([N] = 128), AVX2
    ([N] = 256) and NEON, and for the single and multi register files.  [fv_add], ... are the loops of simd.hh on numbers. *)
From Coq Require Import ZifyBool ZifyNat Floats.SpecFloat.
From Verif Require Import Cpp Model_simd Model_simd2 Model_intrin Model_backend Model_polar Model_polar_float Model_fsimd Spec_ieee Spec_simd Spec_polar_float
  Lib_float Lib_float2 Proof_simd Proof_simd2 Proof_intrin Proof_backend Proof_polar2 Proof_polarf2 Proof_ieee Proof_fsimd1 Prop_backend Prop_backend_shuf.
Open Scope Z_scope.
Ltac Zify.zify_post_hook ::= idtac.
Ltac conjs := repeat match goal with |- _ /\ _ => split end.

(** the arithmetic instructions return some NaN pattern where the result is NaN *)
Definition returns_nan (mw ew : Z) (nan : Z -> Z -> Z) : Prop :=
  forall x y, 0 <= nan x y < 2 ^ ieee_width mw ew /\ float_of_bits mw ew (nan x y) = S754_nan.
(** the same number; +0 and -0 are not distinguished *)
Definition same_number (x y : spec_float) : Prop := x = y \/ is_zero x = true /\ is_zero y = true.

Section Format.
Variables mw ew : Z.
Hypothesis F : ieee_format mw ew.
Notation w := (ieee_width mw ew).
Notation prec := (ieee_prec mw).
Notation emax := (ieee_emax ew).
Notation num := (float_of_bits mw ew).
Notation fl := (flanes mw ew).
Notation neg := (sign_field mw ew).
Let W : 0 < w := w_pos mw ew F.
Let Hp : 1 < prec := Hprec mw ew F.
Let He : prec < emax := Hemax mw ew F.

Lemma arith_lane (op : spec_float -> spec_float -> spec_float) N nan a b : returns_nan mw ew nan -> length a = length b ->
  (forall x y, valid_binary prec emax x = true -> valid_binary prec emax y = true -> valid_binary prec emax (op x y) = true) ->
  fl N (map2 (lanewise_2 N w (fun x y => bits_of_float mw ew (nan x y) (op (num x) (num y)))) a b) = map2 op (fl N a) (fl N b).
Proof.
  intros HN L V. eapply (flanes_2 mw ew F N); [exact L|intros; apply lanes_lw2; lia|]. intros x y X Y. cbv beta.
  destruct (bits_ok mw ew F (nan x y) (op (num x) (num y))) as (A & B); [apply V; apply (num_valid mw ew F)|intros _; apply HN|]. rewrite to_u_id by exact B. exact A.
Qed.
(** C70: sums, differences and products are the correctly rounded ones *)
Theorem C70_arithmetic : forall N nan a b, returns_nan mw ew nan -> length a = length b ->
  fl N (x86_fadd mw ew N nan a b) = fv_add prec emax (fl N a) (fl N b) /\
  fl N (x86_fsub mw ew N nan a b) = fv_sub prec emax (fl N a) (fl N b) /\
  fl N (x86_fmul mw ew N nan a b) = fv_mul prec emax (fl N a) (fl N b) /\
  fl 128 (neon_fadd mw ew nan a b) = fv_add prec emax (fl 128 a) (fl 128 b) /\
  fl 128 (neon_fsub mw ew nan a b) = fv_sub prec emax (fl 128 a) (fl 128 b) /\
  fl 128 (neon_fmul mw ew nan a b) = fv_mul prec emax (fl 128 a) (fl 128 b).
Proof.
  intros N nan a b HN L. conjs; (apply arith_lane; [exact HN|exact L|intros x y X Y]); (apply add_valid || apply sub_valid || apply mul_valid); assumption.
Qed.
(** C70: the absolute value and the sign copy are exact, for all bit patterns, NaNs included *)
Theorem C70_abs_copysign : forall N a b, length a = length b ->
  fl N (x86_fabs mw ew N a) = fv_abs (fl N a) /\
  fl 128 (neon_fabs mw ew a) = fv_abs (fl 128 a) /\
  lanes_u N w (x86_fcopysign mw ew N a b) = fv_copysign mw ew (lanes_u N w a) (lanes_u N w b) /\
  lanes_u 128 w (neon_fcopysign mw ew a b) = fv_copysign mw ew (lanes_u 128 w a) (lanes_u 128 w b) /\
  map num (fv_copysign mw ew (lanes_u N w a) (lanes_u N w b)) = map2 (fun x y => set_sign (neg y) (num x)) (lanes_u N w a) (lanes_u N w b).
Proof.
  intros N a b L.
  assert (CP : forall x y, uint_range w x -> Z.lor (Z.land x (2 ^ w - 1 - 2 ^ (mw + ew))) (Z.land (2 ^ (mw + ew)) y) = Z.lor (Z.ldiff x (2 ^ (mw + ew))) (Z.land (2 ^ (mw + ew)) y)).
  { intros x y X. f_equal. apply Z.bits_inj'. intros k Hk. rewrite Z.land_spec, Z.ldiff_spec. destruct (Z.lt_ge_cases k w) as [G|G]; [|rewrite (bits_high w x k X G); reflexivity]. f_equal.
    replace (2 ^ w - 1 - 2 ^ (mw + ew)) with (Z.ldiff (Z.ones w) (2 ^ (mw + ew))).
    - rewrite Z.ldiff_spec, Z.ones_spec_low by lia. reflexivity.
    - rewrite <- (Z.sub_nocarry_ldiff); [rewrite Z.ones_equiv; lia|]. apply Z.bits_inj'. intros j Hj. rewrite Z.ldiff_spec, Z.bits_0. rewrite (negz_bit mw ew F) by lia.
      destruct (j =? mw + ew) eqn:E; [|reflexivity]. unfold ieee_width in *. rewrite Z.ones_spec_low by lia. reflexivity. }
  conjs.
  - eapply (flanes_1 mw ew F N).
    + intros x. unfold mm_andnot, mm_set1_p, negz_bits. rewrite lanes_ldiff by lia. rewrite negz_eq, set1_lanes by (assumption || apply (S_range mw ew F)). apply map2_const_r.
    + intros x X. cbv beta. apply (num_abs mw ew F).
  - eapply (flanes_1 mw ew F 128).
    + intros x. unfold vabsq_f. rewrite lanes_lw1 by lia. reflexivity.
    + intros x X. cbv beta. rewrite to_u_id; [apply (num_abs_mod mw ew F)|]. split; [apply Z.mod_pos_bound, Z.pow_pos_nonneg; lia|]. apply (Z.lt_le_trans _ (2 ^ (w - 1))); [apply Z.mod_pos_bound, Z.pow_pos_nonneg; lia|apply Z.pow_le_mono_r; lia].
  - eapply lanes_uu_2; [exact W|exact L| |].
    + intros x y. unfold mm_or, mm_andnot, mm_and, mm_set1_p, negz_bits. rewrite negz_eq, lanes_lor, lanes_ldiff, (lanes_signbit mw ew F), set1_lanes by (assumption || apply (S_range mw ew F) || lia).
      rewrite (map2_const_r mw ew), map2_map. reflexivity.
    + intros x y X Y. cbv beta. rewrite negz_eq. symmetry. apply CP. exact X.
  - eapply lanes_uu_2; [exact W|exact L| |].
    + intros x y. unfold vorrq, vbicq, vandq, vdupq_n_f, vdupq_n, negz_bits. fold (mm_set1 128 w (bits_of_float mw ew 0 (S754_zero true))). rewrite negz_eq, (Z.land_comm y), lanes_lor, lanes_ldiff, (lanes_signbit mw ew F), set1_lanes by (assumption || apply (S_range mw ew F) || lia).
      rewrite (map2_const_r mw ew), map2_map. reflexivity.
    + intros x y X Y. cbv beta. rewrite negz_eq. symmetry. apply CP. exact X.
  - unfold fv_copysign. rewrite map_map2. apply (map2_ext_in _ _ (uint_range w) (uint_range w)); [apply lanes_u_range; lia..|]. intros x y X Y. cbv zeta. rewrite negz_eq, CP by exact X. apply (num_copysign mw ew F).
Qed.
(** C70: the comparisons give the masks of the portable loops, for all bit patterns *)
Theorem C70_compare : forall N a b, length a = length b ->
  lanes_u N w (x86_fceqz mw ew N a) = fv_ceqz w (fl N a) /\ lanes_u N w (x86_fcgtz mw ew N a) = fv_cgtz w (fl N a) /\
  lanes_u N w (x86_fcltz mw ew N a) = fv_cltz w (fl N a) /\ lanes_u N w (x86_fclez mw ew N a) = fv_clez w (fl N a) /\
  lanes_u N w (x86_fceq mw ew N a b) = fv_ceq w (fl N a) (fl N b) /\
  lanes_u 128 w (neon_fceqz mw ew a) = fv_ceqz w (fl 128 a) /\ lanes_u 128 w (neon_fcgtz mw ew a) = fv_cgtz w (fl 128 a) /\
  lanes_u 128 w (neon_fcltz mw ew a) = fv_cltz w (fl 128 a) /\ lanes_u 128 w (neon_fclez mw ew a) = fv_clez w (fl 128 a) /\
  lanes_u 128 w (neon_fceq mw ew a b) = fv_ceq w (fl 128 a) (fl 128 b).
Proof.
  intros N a b L. assert (Z0 := num_zero mw ew F).
  assert (D : forall M, lanes w (count M w) 0 = repeat 0 (count M w)) by (intros; apply lanes_zero; lia).
  assert (E : lanes w (count 128 w) (vdupq_n_f mw ew 0) = repeat 0 (count 128 w)).
  { unfold vdupq_n_f, vdupq_n. fold (mm_set1 128 w 0). apply (set1_lanes mw ew F). split; [lia|apply Z.pow_pos_nonneg; lia]. }
  conjs; match goal with
  | |- lanes_u ?M _ _ = fv_ceq _ _ _ => apply (masks_2 mw ew F M _ (fun x y => SFeqb (num x) (num y)) SFeqb); [exact L|intros; apply lanes_lw2; lia|reflexivity]
  | |- lanes_u ?M _ (?f _ _ _ _) = ?g _ _ => unfold f, g
  | |- lanes_u ?M _ (?f _ _ _) = ?g _ _ => unfold f, g
  end.
  all: unfold mm_cmpeq_p, mm_cmpgt_p, mm_cmplt_p, mm_cmple_p, mm_setzero_p.
  all: match goal with |- lanes_u ?M _ _ = map (fun x => mask_lane _ (@?h x)) _ =>
    apply (masks_1 mw ew F M _ (fun x => h (num x)) h); [|reflexivity] end.
  all: intros x; erewrite lanes_lw2_c by (apply D || apply E || lia); rewrite ?Z0; reflexivity.
Qed.

(** the value of [vsignum] in one lane *)
Lemma one_sign : neg (one_bits mw ew) = false.
Proof.
  destruct (one_bits_ok mw ew F) as (A & R). rewrite (sign_field_num mw ew F); rewrite A; unfold of_int; rewrite of_one by assumption; [reflexivity|discriminate|discriminate].
Qed.
Lemma signum_or x : num (Z.lor (one_bits mw ew) (Z.land (2 ^ (mw + ew)) x)) = hard_value prec (if neg x then -1 else 1).
Proof.
  pose proof (num_copysign mw ew F (one_bits mw ew) x) as C. rewrite <- (Z.land_comm x) in *.
  assert (D : Z.ldiff (one_bits mw ew) (2 ^ (mw + ew)) = one_bits mw ew).
  { apply Z.bits_inj'. intros k Hk. rewrite Z.ldiff_spec, (negz_bit mw ew F) by lia. destruct (k =? mw + ew) eqn:E; [|apply andb_true_r]. replace k with (mw + ew) by lia. pose proof one_sign as O. unfold sign_field in O. rewrite O. reflexivity. }
  rewrite D in C. rewrite C. destruct (one_bits_ok mw ew F) as (-> & _). rewrite of_int_emb by (assumption || (unfold tern; lia)). destruct (neg x); reflexivity.
Qed.
Lemma signum_xor x : num (Z.lxor (one_bits mw ew) (Z.land (2 ^ (mw + ew)) x)) = hard_value prec (if neg x then -1 else 1).
Proof.
  rewrite (num_xorsign mw ew F). destruct (one_bits_ok mw ew F) as (-> & _). rewrite of_int_emb by (assumption || (unfold tern; lia)). destruct (neg x); reflexivity.
Qed.
Definition signum_lane (x : Z) : spec_float := if is_nan (num x) then hard_value prec (if neg x then -1 else 1) else hard_value prec (fsgn (num x)).
Lemma signum_lane_ok x z : num z = hard_value prec (if neg x then -1 else 1) ->  num (if is_zero (num x) then 0 else z) = signum_lane x.
Proof.
  intros E. unfold signum_lane. destruct (is_zero (num x)) eqn:Z.
  - rewrite (num_zero mw ew F). destruct (num x); try discriminate. reflexivity.
  - rewrite E. destruct (is_nan (num x)) eqn:N; [reflexivity|]. rewrite (sign_field_num mw ew F x); [|intros H; rewrite H in N; discriminate|destruct (num x) as [| | |[] ? ?]; cbn in *; try discriminate; destruct s; discriminate].
    f_equal. destruct (num x) as [[]|[]| |[] ? ?]; try discriminate; reflexivity.
Qed.
(** C70: [vsignum] is -1, +0 or 1 after the sign of the number; only on NaN do the back ends (the sign bit of the NaN) and the portable
    loop (0) differ *)
Theorem C70_signum : forall N a,
  fl N (x86_fsignum mw ew N a) = map signum_lane (lanes_u N w a) /\
  fl 128 (neon_fsignum mw ew a) = map signum_lane (lanes_u 128 w a) /\
  fv_signum prec emax (fl N a) = map (fun x => hard_value prec (fsgn x)) (fl N a).
Proof.
  intros N a. destruct (one_bits_ok mw ew F) as (_ & OR). conjs.
  - eapply (flanes_1b mw ew F N).
    + intros x. unfold mm_andnot, mm_or, mm_and, mm_set1_p, mm_setzero_p, negz_bits. rewrite negz_eq, lanes_ldiff, lanes_lor, (lanes_signbit mw ew F), (lanes_eqz mw ew F), set1_lanes by (assumption || lia).
      rewrite <- (length_lanes w (count N w) x) at 1. rewrite <- (map_length (Z.land (2 ^ (mw + ew))) (lanes w (count N w) x)), map2_repeat_l, map_map, map2_same. reflexivity.
    + intros x X. cbv beta. rewrite ldiff_ones by (lia || (apply lor_range; [lia|exact OR|apply (land_S_range mw ew F); exact X])). apply signum_lane_ok. apply signum_or.
  - eapply (flanes_1b mw ew F 128).
    + intros x. unfold vbicq, veorq, vandq, vdupq_n_f, vdupq_n, negz_bits. rewrite negz_eq. fold (mm_set1 128 w (2 ^ (mw + ew))). fold (mm_set1 128 w (one_bits mw ew)). fold (mm_set1 128 w 0).
      assert (mm_set1 128 w 0 = 0) as -> by (unfold mm_set1; induction (count 128 w) as [|n IH]; [reflexivity|]; cbn [repeat pack]; rewrite IH, Z.mod_0_l by (apply Z.pow_nonzero; lia); lia).
      rewrite lanes_ldiff, lanes_lxor, (lanes_signbit mw ew F), (lanes_eqz mw ew F), set1_lanes by (assumption || lia).
      rewrite <- (length_lanes w (count 128 w) x) at 1. rewrite <- (map_length (Z.land (2 ^ (mw + ew))) (lanes w (count 128 w) x)), map2_repeat_l, map_map, map2_same. reflexivity.
    + intros x X. cbv beta. rewrite ldiff_ones by (lia || (apply lxor_range; [lia|exact OR|apply (land_S_range mw ew F); exact X])). apply signum_lane_ok. apply signum_xor.
  - unfold fv_signum. apply map_ext. intros x. apply signumf_ok; assumption.
Qed.

(** the value of [vsign(a, b)] in one lane *)
Definition sign_lane (x y : Z) : spec_float := if is_zero (num y) then S754_zero false else if neg y then SFopp (num x) else num x.
(** C70: [vsign(a, b)] keeps, negates or clears [a] by the sign of [b] in the back ends; the portable product gives the same number unless
    [b] is NaN, or [b] is zero and [a] infinite or NaN *)
Theorem C70_sign : forall N a b, length a = length b ->
  fl N (x86_fsign mw ew N a b) = map2 sign_lane (lanes_u N w a) (lanes_u N w b) /\
  fl 128 (neon_fsign mw ew a b) = map2 sign_lane (lanes_u 128 w a) (lanes_u 128 w b) /\
  fv_sign prec emax (fl N a) (fl N b) = map2 (fun x y => SFmul prec emax (hard_value prec (fsgn (num y))) (num x)) (lanes_u N w a) (lanes_u N w b) /\
  (forall x y, let product := SFmul prec emax (hard_value prec (fsgn (num y))) (num x) in
    (is_nan (num y) = false -> is_zero (num y) = false -> product = sign_lane x y) /\
    (is_zero (num y) = true -> SFeqb (num x) (num x) = true -> SFeqb (SFabs (num x)) (S754_infinity false) = false -> same_number product (sign_lane x y))).
Proof.
  intros N a b L. assert (ZS : mm_set1 128 w 0 = 0) by (unfold mm_set1; induction (count 128 w) as [|n IH]; [reflexivity|]; cbn [repeat pack]; rewrite IH, Z.mod_0_l by (apply Z.pow_nonzero; lia); lia).
  assert (SL : forall x y, uint_range w x -> uint_range w y -> num (Z.ldiff (Z.lxor x (Z.land (2 ^ (mw + ew)) y)) (to_u w (ones w (is_zero (num y))))) = sign_lane x y).
  { intros x y X Y. rewrite ldiff_ones by (lia || (apply lxor_range; [lia|exact X|apply (land_S_range mw ew F); exact Y])). unfold sign_lane. destruct (is_zero (num y)); [apply (num_zero mw ew F)|apply (num_xorsign mw ew F)]. }
  conjs.
  - eapply (flanes_2b mw ew F N); [exact L| |exact SL]. intros x y. unfold mm_andnot, mm_xor, mm_and, mm_set1_p, mm_setzero_p, negz_bits.
    rewrite negz_eq, lanes_ldiff, lanes_lxor, (lanes_signbit mw ew F), (lanes_eqz mw ew F) by lia. rewrite map2_r. generalize (lanes w (count N w) x) (lanes w (count N w) y). unfold map2.
    intros l. induction l as [|u l IH]; intros [|v m]; try reflexivity. cbn [combine map fst snd]. rewrite IH. reflexivity.
  - eapply (flanes_2b mw ew F 128); [exact L| |exact SL]. intros x y. unfold vbicq, veorq, vandq, vdupq_n_f, vdupq_n, negz_bits. rewrite negz_eq. fold (mm_set1 128 w (2 ^ (mw + ew))). fold (mm_set1 128 w 0). rewrite ZS.
    rewrite lanes_ldiff, lanes_lxor, (lanes_signbit mw ew F), (lanes_eqz mw ew F) by lia. rewrite map2_r. generalize (lanes w (count 128 w) x) (lanes w (count 128 w) y). unfold map2.
    intros l. induction l as [|u l IH]; intros [|v m]; try reflexivity. cbn [combine map fst snd]. rewrite IH. reflexivity.
  - unfold fv_sign, flanes. rewrite map2_map. apply (map2_ext_in _ _ (fun _ => True) (fun _ => True)); [apply Forall_forall; auto..|]. intros x y _ _. rewrite signumf_ok by assumption. reflexivity.
  - intros x y product. unfold product, sign_lane. clear product. split.
    + intros N1 N2. rewrite N2. rewrite (sign_field_num mw ew F y); [|intros H; rewrite H in N1; discriminate|destruct (num y) as [|[]| |[] ? ?]; cbn in *; try discriminate; destruct s; discriminate].
      pose proof (num_valid mw ew F x) as V. cbv beta in V. destruct (num y) as [|[]| |[] ? ?]; try discriminate; cbn [fsgn];
        (change (-1 <? 0) with true || change (1 <? 0) with false); cbv iota.
      * rewrite <- mone_emb by assumption. apply mul_minus_one; assumption.
      * rewrite <- one_emb' by assumption. apply mul_one; assumption.
      * rewrite <- mone_emb by assumption. apply mul_minus_one; assumption.
      * rewrite <- one_emb' by assumption. apply mul_one; assumption.
    + intros N1 N2 N3. rewrite N1. destruct (num y); try discriminate. cbn [fsgn hard_value Z.eqb]. right. split; [|reflexivity]. destruct (num x) as [|[]| |]; cbn in *; try discriminate; reflexivity.
Qed.

Lemma lt_same p q y : same_number p q -> SFltb p y = SFltb q y /\ SFltb y p = SFltb y q.
Proof. intros [-> |(Zp & Zq)]; [auto|]. destruct p; try discriminate. destruct q; try discriminate. destruct y as [[]|[]| |[] ? ?]; split; reflexivity. Qed.
Lemma nan_same p q : same_number p q -> is_nan p = is_nan q.
Proof. intros [-> |(Zp & Zq)]; [reflexivity|]. destruct p; try discriminate. destruct q; try discriminate. reflexivity. Qed.
(** a choice of the smaller / larger number that may take either of two equal ones *)
Definition chooses_min (f : Z -> Z -> Z) : Prop := forall x y, is_nan (num x) = false -> is_nan (num y) = false ->
  (SFltb (num x) (num y) = true -> num (f x y) = num x) /\ (SFltb (num y) (num x) = true -> num (f x y) = num y) /\ (num (f x y) = num x \/ num (f x y) = num y).
Definition chooses_max (f : Z -> Z -> Z) : Prop := forall x y, is_nan (num x) = false -> is_nan (num y) = false ->
  (SFltb (num x) (num y) = true -> num (f x y) = num y) /\ (SFltb (num y) (num x) = true -> num (f x y) = num x) /\ (num (f x y) = num x \/ num (f x y) = num y).
Lemma same_min f x y q : chooses_min f -> is_nan (num x) = false -> is_nan (num y) = false -> same_number (num x) q -> same_number (num (f x y)) (minf q (num y)).
Proof.
  intros C Nx Ny S. destruct (C x y Nx Ny) as (C1 & C2 & C3). destruct (lt_same _ _ (num y) S) as (_ & L). unfold minf. rewrite <- L.
  destruct (trichotomy (num x) (num y) Nx Ny) as [(A & B)|[(A & B)|(A & B & _ & E)]]; rewrite ?B.
  - rewrite C1 by exact A. exact S.
  - rewrite C2 by exact B. left. reflexivity.
  - destruct C3 as [-> | ->]; [exact S|]. destruct E as [<- |(Z1 & Z2)]; [exact S|]. right. split; [exact Z2|]. destruct S as [<- |(_ & S)]; assumption.
Qed.
Lemma same_max f x y : chooses_max f -> is_nan (num x) = false -> is_nan (num y) = false -> same_number (num (f x y)) (maxf (num x) (num y)).
Proof.
  intros C Nx Ny. destruct (C x y Nx Ny) as (C1 & C2 & C3). unfold maxf.
  destruct (trichotomy (num x) (num y) Nx Ny) as [(A & B)|[(A & B)|(A & B & _ & E)]]; rewrite ?A.
  - rewrite C1 by exact A. left. reflexivity.
  - rewrite C2 by exact B. left. reflexivity.
  - destruct C3 as [-> | ->]; [left; reflexivity|]. destruct E as [<- |(Z1 & Z2)]; [left; reflexivity|]. right. auto.
Qed.
Lemma order_lanes N (mn mx : Z -> Z -> Z) a b lo hi k dup : chooses_min mn -> chooses_max mx ->
  (forall x y, uint_range w x -> uint_range w y -> uint_range w (mn x y)) -> (forall x y, uint_range w x -> uint_range w y -> uint_range w (mx x y)) ->
  (forall c, uint_range w c -> lanes w (count N w) (dup c) = repeat c (count N w)) ->
  length a = length b -> uint_range w lo -> uint_range w hi -> is_nan (num lo) = false -> is_nan (num hi) = false ->
  is_nan (nth k (fl N a) S754_nan) = false -> is_nan (nth k (fl N b) S754_nan) = false ->
  same_number (nth k (fl N (map2 (lanewise_2 N w mn) a b)) S754_nan) (nth k (fv_min (fl N a) (fl N b)) S754_nan) /\
  same_number (nth k (fl N (map2 (lanewise_2 N w mx) a b)) S754_nan) (nth k (fv_max (fl N a) (fl N b)) S754_nan) /\
  same_number (nth k (fl N (map (fun x => lanewise_2 N w mn (lanewise_2 N w mx x (dup lo)) (dup hi)) a)) S754_nan) (nth k (fv_clamp (fl N a) (num lo) (num hi)) S754_nan).
Proof.
  intros C1 C2 R1 R2 HD L Rlo Rhi Nlo Nhi Na Nb.
  assert (Ka : (k < length (lanes_u N w a))%nat).
  { destruct (Nat.lt_ge_cases k (length (lanes_u N w a))) as [G|G]; [exact G|]. unfold flanes in Na. rewrite nth_overflow in Na by (rewrite map_length; exact G). discriminate. }
  assert (Kb : (k < length (lanes_u N w b))%nat) by (rewrite length_lanes_u in *; rewrite <- L; exact Ka).
  unfold flanes in Na, Nb. rewrite (nth_map1 _ _ _ 0) in Na by assumption. rewrite (nth_map1 _ _ _ 0) in Nb by assumption.
  assert (LL : length (lanes_u N w a) = length (lanes_u N w b)) by (rewrite !length_lanes_u, L; reflexivity).
  assert (Fa := lanes_u_range N w a ltac:(lia)). assert (Fb := lanes_u_range N w b ltac:(lia)). rewrite Forall_forall in Fa, Fb.
  assert (Ra := Fa _ (nth_In _ 0 Ka)). assert (Rb := Fb _ (nth_In _ 0 Kb)). clear Fa Fb.
  assert (NM : forall (f : Z -> Z -> Z), (forall x y, uint_range w x -> uint_range w y -> uint_range w (f x y)) ->
     nth k (fl N (map2 (lanewise_2 N w f) a b)) S754_nan = num (f (nth k (lanes_u N w a) 0) (nth k (lanes_u N w b) 0))).
  { intros f Rf. unfold flanes. rewrite (lanes_u_2 N w _ (fun x y => to_u w (f x y)) a b L) by (intros; apply lanes_lw2; lia).
    rewrite map_map2. rewrite (nth_map2 _ _ _ k 0 0) by assumption. rewrite to_u_id by (apply Rf; assumption). reflexivity. }
  rewrite (NM mn R1), (NM mx R2). conjs.
  - unfold fv_min, flanes. rewrite map2_map. rewrite (nth_map2 _ _ _ k 0 0) by assumption. apply same_min; [exact C1|exact Na|exact Nb|left; reflexivity].
  - unfold fv_max, flanes. rewrite map2_map. rewrite (nth_map2 _ _ _ k 0 0) by assumption. apply same_max; assumption.
  - unfold fv_clamp, flanes. rewrite map_map, (nth_map1 _ (lanes_u N w a) _ 0) by assumption.
    rewrite (lanes_u_1 N w _ (fun x => to_u w (mn (to_u w (mx x lo)) hi)) a).
    2: { intros x. rewrite (lanes_lw2_c N w _ _ _ hi) by (try apply HD; assumption || lia). rewrite (lanes_lw2_c N w _ _ _ lo) by (try apply HD; assumption || lia). rewrite map_map. reflexivity. }
    rewrite map_map, (nth_map1 _ _ _ 0) by assumption. cbv beta. set (x := nth k (lanes_u N w a) 0) in *. assert (Rx : uint_range w (mx x lo)) by (apply R2; assumption). rewrite (to_u_id w (mx x lo)) by assumption.
    rewrite to_u_id by (apply R1; assumption). assert (S := same_max mx x lo C2 Na Nlo). apply same_min; [exact C1| |exact Nhi|exact S].
    rewrite (nan_same _ _ S). unfold maxf. destruct (SFltb _ _); assumption.
Qed.
(** C70: minimum, maximum and clamping give the number of the portable loops in every lane without NaN; only the sign of a zero may differ *)
Theorem C70_order : forall N nan a b lo hi k, length a = length b -> 0 <= lo < 2 ^ w -> 0 <= hi < 2 ^ w -> returns_nan mw ew nan ->
  let A n := nth k (fl n a) S754_nan in let B n := nth k (fl n b) S754_nan in
  let lane l := nth k l S754_nan in
  is_nan (num lo) = false -> is_nan (num hi) = false ->
  (is_nan (A N) = false -> is_nan (B N) = false ->
   same_number (lane (fl N (x86_fmin mw ew N a b))) (lane (fv_min (fl N a) (fl N b))) /\
   same_number (lane (fl N (x86_fmax mw ew N a b))) (lane (fv_max (fl N a) (fl N b))) /\
   same_number (lane (fl N (x86_fclamp mw ew N a lo hi))) (lane (fv_clamp (fl N a) (num lo) (num hi)))) /\
  (is_nan (A 128) = false -> is_nan (B 128) = false ->
   same_number (lane (fl 128 (neon_fmin mw ew nan a b))) (lane (fv_min (fl 128 a) (fl 128 b))) /\
   same_number (lane (fl 128 (neon_fmax mw ew nan a b))) (lane (fv_max (fl 128 a) (fl 128 b))) /\
   same_number (lane (fl 128 (neon_fclamp mw ew nan a lo hi))) (lane (fv_clamp (fl 128 a) (num lo) (num hi)))).
Proof.
  intros N nan a b lo hi k L Rlo Rhi HN A B lane Nlo Nhi. split; intros Na Nb.
  - apply (order_lanes N (fun x y => if SFltb (num x) (num y) then x else y) (fun x y => if SFltb (num y) (num x) then x else y) a b lo hi k (mm_set1_p mw ew N)); try assumption.
    + intros x y Nx Ny. destruct (trichotomy _ _ Nx Ny) as [(P & Q)|[(P & Q)|(P & Q & _)]]; rewrite P; repeat split; try congruence; auto.
    + intros x y Nx Ny. destruct (trichotomy _ _ Nx Ny) as [(P & Q)|[(P & Q)|(P & Q & _)]]; rewrite Q; repeat split; try congruence; auto.
    + intros x y X Y. destruct (SFltb _ _); assumption.
    + intros x y X Y. destruct (SFltb _ _); assumption.
    + intros c Hc. apply (set1_lanes mw ew F). exact Hc.
  - apply (order_lanes 128 (fun x y => if is_nan (num x) || is_nan (num y) then nan x y
    else if SFltb (num x) (num y) then x else if SFltb (num y) (num x) then y else if sign_field mw ew x then x else y)
    (fun x y => if is_nan (num x) || is_nan (num y) then nan x y
    else if SFltb (num x) (num y) then y else if SFltb (num y) (num x) then x else if sign_field mw ew x then y else x) a b lo hi k (vdupq_n_f mw ew)); try assumption.
    + intros x y Nx Ny. rewrite Nx, Ny. cbn [orb]. destruct (trichotomy _ _ Nx Ny) as [(P & Q)|[(P & Q)|(P & Q & _)]]; rewrite P, ?Q; repeat split; try congruence; auto. destruct (neg x); auto.
    + intros x y Nx Ny. rewrite Nx, Ny. cbn [orb]. destruct (trichotomy _ _ Nx Ny) as [(P & Q)|[(P & Q)|(P & Q & _)]]; rewrite P, ?Q; repeat split; try congruence; auto. destruct (neg x); auto.
    + intros x y X Y. destruct (_ || _); [apply HN|]. destruct (SFltb _ _); [assumption|]. destruct (SFltb _ _); [assumption|]. destruct (sign_field _ _ _); assumption.
    + intros x y X Y. destruct (_ || _); [apply HN|]. destruct (SFltb _ _); [assumption|]. destruct (SFltb _ _); [assumption|]. destruct (sign_field _ _ _); assumption.
    + intros c Hc. apply (set1_lanes mw ew F 128). exact Hc.
Qed.
(** C70: broadcasting, zero *)
Theorem C70_dup : forall N K c m, 0 <= c < 2 ^ w ->
  fl N (x86_fdup mw ew N K c) = repeat (num c) (K * count N w) /\ fl N (x86_fzero K) = repeat (S754_zero false) (K * count N w) /\
  fl 128 (neon_fdup mw ew K c) = repeat (num c) (K * count 128 w) /\ fl 128 (neon_fzero m) = repeat (S754_zero false) (length m * count 128 w).
Proof.
  intros N K c m R. assert (D : forall M, fl M (repeat (mm_set1 M w c) K) = repeat (num c) (K * count M w)).
  { intros M. unfold flanes, lanes_u. rewrite map_repeat', set1_lanes by assumption. rewrite concat_repeat, map_repeat'. reflexivity. }
  conjs; [apply D| |apply (D 128)|].
  - unfold flanes, lanes_u, x86_fzero, mm_setzero_p. rewrite map_repeat', lanes_zero by lia. rewrite concat_repeat, map_repeat', (num_zero mw ew F). reflexivity.
  - unfold flanes. destruct (C54_neon_dup w 0 0 m W) as (_ & _ & E). unfold neon_fzero. unfold neon_vzero in E. rewrite E. unfold vzero. rewrite map_repeat', (num_zero mw ew F). reflexivity.
Qed.
End Format.
(** C70: what the portable minimum, maximum and clamping are: the smaller and the larger number; the nearest number of an interval *)
Lemma leb_lt x y : is_nan x = false -> is_nan y = false -> SFleb x y = negb (SFltb y x).
Proof.
  intros Nx Ny. unfold SFleb, SFltb. rewrite (compare_sym x y). destruct (SFcompare x y) as [[]|] eqn:E; try reflexivity. apply compare_nan in E. destruct E; congruence.
Qed.
Lemma leb_refl x : is_nan x = false -> SFleb x x = true.
Proof. intros Nx. rewrite leb_lt by assumption. destruct (trichotomy x x Nx Nx) as [(A & B)|[(A & B)|(A & B & _)]]; rewrite ?B; congruence || reflexivity. Qed.
Theorem C70_minimum_maximum : forall x y lo hi, is_nan x = false -> is_nan y = false -> is_nan lo = false -> is_nan hi = false ->
  (SFleb (minf x y) x = true /\ SFleb (minf x y) y = true /\ (minf x y = x \/ minf x y = y)) /\
  (SFleb x (maxf x y) = true /\ SFleb y (maxf x y) = true /\ (maxf x y = x \/ maxf x y = y)) /\
  (SFleb lo hi = true -> SFleb lo (minf (maxf x lo) hi) = true /\ SFleb (minf (maxf x lo) hi) hi = true /\
   (SFleb lo x = true -> SFleb x hi = true -> minf (maxf x lo) hi = x)).
Proof.
  assert (MN : forall x y, is_nan x = false -> is_nan y = false -> SFleb (minf x y) x = true /\ SFleb (minf x y) y = true /\ (minf x y = x \/ minf x y = y)).
  { intros x y Nx Ny. unfold minf. destruct (trichotomy x y Nx Ny) as [(A & B)|[(A & B)|(A & B & _)]]; rewrite B; rewrite !leb_lt by assumption; rewrite ?A, ?B;
      (assert (R := leb_refl x Nx); assert (R' := leb_refl y Ny); rewrite leb_lt in R, R' by assumption); auto. }
  assert (MX : forall x y, is_nan x = false -> is_nan y = false -> SFleb x (maxf x y) = true /\ SFleb y (maxf x y) = true /\ (maxf x y = x \/ maxf x y = y)).
  { intros x y Nx Ny. unfold maxf. destruct (trichotomy x y Nx Ny) as [(A & B)|[(A & B)|(A & B & _)]]; rewrite A; rewrite !leb_lt by assumption; rewrite ?A, ?B;
      (assert (R := leb_refl x Nx); assert (R' := leb_refl y Ny); rewrite leb_lt in R, R' by assumption); auto. }
  intros x y lo hi Nx Ny Nl Nh. split; [apply MN; assumption|]. split; [apply MX; assumption|]. intros LH.
  destruct (MX x lo Nx Nl) as (X1 & X2 & X3). assert (Nm : is_nan (maxf x lo) = false) by (destruct X3 as [-> | ->]; assumption).
  destruct (MN _ _ Nm Nh) as (M1 & M2 & M3). split; [|split; [exact M2|]].
  - destruct M3 as [-> | ->]; assumption.
  - intros L1 L2. rewrite leb_lt in L1, L2 by assumption. unfold maxf. apply negb_true_iff in L1, L2. rewrite L1. unfold minf. rewrite L2. reflexivity.
Qed.
(** C70: the AVX2 shuffle of float lanes (one or two registers) moves lane [b[i]] to lane [i] *)
Theorem C70_shuffle : forall a b, (1 <= length a <= 2)%nat -> Forall (fun i => i < 8 * Z.of_nat (length a)) (lanes_u 256 32 b) ->
  flanes 23 8 256 (avx_vshuf32 a b) = fv_shuf (flanes 23 8 256 a) (lanes_u 256 32 b).
Proof.
  intros a b L H. unfold flanes. change (ieee_width 23 8) with 32. rewrite C54_avx2_shuffle32 by assumption. unfold vshuf, fv_shuf. rewrite map_map, map_length. apply map_ext. intros i.
  destruct (i <? Z.of_nat (length (lanes_u 256 32 a))); [|reflexivity].
  change (S754_zero false) with (float_of_bits 23 8 0). rewrite map_nth. reflexivity.
Qed.
Print Assumptions C70_arithmetic.
Print Assumptions C70_abs_copysign.
Print Assumptions C70_compare.
Print Assumptions C70_signum.
Print Assumptions C70_sign.
Print Assumptions C70_order.
Print Assumptions C70_dup.
Print Assumptions C70_minimum_maximum.
Print Assumptions C70_shuffle.

(** ** The hypotheses are met *)
Lemma float_format : ieee_format 23 8. Proof. unfold ieee_format, ieee_prec, ieee_emax. lia. Qed.
Lemma double_format : ieee_format 52 11. Proof. unfold ieee_format, ieee_prec, ieee_emax. lia. Qed.
Example C70_nonvacuous :
  returns_nan 23 8 (fun _ _ => 0x7fc00000) /\ returns_nan 52 11 (fun _ _ => 0xfff8000000000000) /\
  (* 1.5, -0.0, -3.0, the smallest subnormal *)
  let a := [pack 32 [0x3fc00000; 0x80000000; 0xc0400000; 1]] in
  let b := [pack 32 [0x40000000; 0x3f800000; 0x7f800000; 1]] in
  flanes 23 8 128 a = [S754_finite false 12582912 (-23); S754_zero true; S754_finite true 12582912 (-22); S754_finite false 1 (-149)] /\
  lanes_u 128 32 (x86_fadd 23 8 128 (fun _ _ => 0x7fc00000) a b) = [0x40600000; 0x3f800000; 0x7f800000; 2] /\
  lanes_u 128 32 (neon_fmul 23 8 (fun _ _ => 0x7fc00000) a b) = [0x40400000; 0x80000000; 0xff800000; 0] /\
  lanes_u 128 32 (x86_fsignum 23 8 128 a) = [0x3f800000; 0; 0xbf800000; 0x3f800000] /\
  lanes_u 128 32 (neon_fsign 23 8 a b) = [0x3fc00000; 0x80000000; 0xc0400000; 1] /\
  lanes_u 128 32 (x86_fclamp 23 8 128 a 0xbf800000 0x3f800000) = [0x3f800000; 0x80000000; 0xbf800000; 1].
Proof. split; [intros x y; split; [cbn; lia|reflexivity]|]. split; [intros x y; split; [cbn; lia|reflexivity]|]. vm_compute. repeat split; reflexivity. Qed.
(** where the back ends and the portable loops differ: signum and minimum of NaN, the sign of an infinity by zero, the minimum of two zeros *)
Example C70_differences :
  let nan := 0xffc00000 in let inf := 0x7f800000 in let one := 0x3f800000 in let mzero := 0x80000000 in
  flanes 23 8 128 (x86_fsignum 23 8 128 [pack 32 [nan; 0; 0; 0]]) <> fv_signum 24 128 (flanes 23 8 128 [pack 32 [nan; 0; 0; 0]]) /\
  flanes 23 8 128 (x86_fmin 23 8 128 [pack 32 [one; 0; 0; 0]] [pack 32 [nan; 0; 0; 0]]) <>
    fv_min (flanes 23 8 128 [pack 32 [one; 0; 0; 0]]) (flanes 23 8 128 [pack 32 [nan; 0; 0; 0]]) /\
  flanes 23 8 128 (x86_fsign 23 8 128 [pack 32 [inf; 0; 0; 0]] [pack 32 [0; 0; 0; 0]]) <>
    fv_sign 24 128 (flanes 23 8 128 [pack 32 [inf; 0; 0; 0]]) (flanes 23 8 128 [pack 32 [0; 0; 0; 0]]) /\
  flanes 23 8 128 (x86_fmin 23 8 128 [pack 32 [0; 0; 0; 0]] [pack 32 [mzero; 0; 0; 0]]) <>
    fv_min (flanes 23 8 128 [pack 32 [0; 0; 0; 0]]) (flanes 23 8 128 [pack 32 [mzero; 0; 0; 0]]).
Proof. vm_compute. repeat split; discriminate. Qed.

(** C70: the portable comparisons give all ones in a lane where the comparison holds and zero elsewhere (also next to a NaN, which is
    neither less, equal nor greater); negation changes the sign of each lane only; reinterpreting keeps every bit *)
Definition sign_of (x : spec_float) : bool :=
  match x with S754_zero s => s | S754_infinity s => s | S754_nan => false | S754_finite s _ _ => s end.
Definition mask_of (w : Z) (c : bool) : Z := if c then 2 ^ w - 1 else 0.
Theorem C70_portable_masks : forall w a b i, 0 < w -> length a = length b -> (i < length a)%nat ->
  let x := nth i a (S754_zero false) in let y := nth i b (S754_zero false) in let zero := S754_zero false in
  nth i (fv_cgt w a b) 0 = mask_of w (SFltb y x) /\ nth i (fv_ceq w a b) 0 = mask_of w (SFeqb x y) /\
  nth i (fv_cgtz w a) 0 = mask_of w (SFltb zero x) /\ nth i (fv_ceqz w a) 0 = mask_of w (SFeqb x zero) /\
  nth i (fv_cltz w a) 0 = mask_of w (SFltb x zero) /\ nth i (fv_clez w a) 0 = mask_of w (SFleb x zero) /\
  (SFabs (nth i (fv_neg a) zero) = SFabs x /\ (is_nan x = false -> sign_of (nth i (fv_neg a) zero) = negb (sign_of x)) /\
   SFeqb (nth i (fv_abs a) zero) (SFabs x) = negb (is_nan x)).
Proof.
  intros w a b i Hw L Hi. cbv zeta.
  assert (forall c, mask_lane w c = mask_of w c) as M.
  { intros c. unfold mask_lane, mask_of. pose proof (Z.pow_pos_nonneg 2 w ltac:(lia) ltac:(lia)) as Hpos.
    assert (2 <= 2 ^ w) by (apply (Z.pow_le_mono_r 2 1 w); lia). destruct c; cbn [b2z Z.opp].
    - symmetry. apply (Z.mod_unique _ _ (-1)); lia.
    - apply Z.mod_0_l. lia. }
  unfold fv_cgt, fv_ceq, fv_cgtz, fv_ceqz, fv_cltz, fv_clez, fv_neg, fv_abs.
  rewrite !(nth_map2 _ a b i (S754_zero false) (S754_zero false) 0) by lia.
  rewrite !(nth_map1 _ a i (S754_zero false) 0) by lia. rewrite !(nth_map1 _ a i (S754_zero false) (S754_zero false)) by lia.
  rewrite !M. set (x := nth i a (S754_zero false)). clearbody x. clear. conjs; try reflexivity.
  - destruct x; reflexivity.
  - destruct x; cbn; congruence.
  - destruct x as [| | |s m e]; cbn; try reflexivity. unfold SFeqb. cbn. rewrite Z.compare_refl, Pos.compare_refl. reflexivity.
Qed.
Print Assumptions C70_portable_masks.
Theorem C70_reinterpret : forall N w a, lanes_u N w (x86_freinterpret a) = lanes_u N w a /\ lanes_u N w (neon_freinterpret a) = lanes_u N w a.
Proof. split; reflexivity. Qed.
Print Assumptions C70_reinterpret.
