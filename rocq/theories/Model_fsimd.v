(** Model of the floating point lanes ([SIMD<float, WIDTH>], [SIMD<double, WIDTH>]) of simd.hh and of the back ends sse4_1.hh,
    avx2.hh and neon.hh with their multi-register versions.  Definitions only.

    Registers are integers and values are lists of registers, see Model_backend.v; a lane of [w = 1 + ew + mw] bits holds a number of
    the IEEE 754 interchange format [(mw, ew)], see Spec_ieee.v: (23, 8) for float, (52, 11) for double (NEON: float only).  [float_of_bits]
    reads [v[i]] of the union, the bits are [u[i]].  Arithmetic rounds to nearest, ties to even (the default mode), and
    subnormal numbers are kept (no FTZ/DAZ; 32 bit ARM's NEON, which flushes them to zero, is not modelled).  Which NaN an arithmetic
    instruction returns is left open: [nan x y] is its bit pattern for the operands [x], [y]. *)
From Coq Require Import Floats.SpecFloat.
From Verif Require Import Cpp Model_simd Model_intrin Model_backend Model_polar Model_polar_float Spec_ieee.
Open Scope Z_scope.

(** ** simd.hh: lane by lane on numbers *)
Section Portable.
Variables prec emax : Z.
(** simd.hh:230-246, 285-293 ([std::abs] of [float] and [double] clears the sign) *)
Definition fv_neg (a : list spec_float) : list spec_float := map SFopp a.
Definition fv_abs (a : list spec_float) : list spec_float := map SFabs a.
(** simd.hh:1067-1083, 1139-1155, 1229-1245 *)
Definition fv_add (a b : list spec_float) : list spec_float := map2 (SFadd prec emax) a b.
Definition fv_sub (a b : list spec_float) : list spec_float := map2 (SFsub prec emax) a b.
Definition fv_mul (a b : list spec_float) : list spec_float := map2 (SFmul prec emax) a b.
(** simd.hh:545-561, 599-615, 653-669, 707-723: [-(a.v[i] > 0.f)] ... stored in an unsigned lane of [w] bits *)
Definition mask_lane (w : Z) (c : bool) : Z := (- b2z c) mod 2 ^ w.
Definition fv_cgtz (w : Z) (a : list spec_float) : list Z := map (fun x => mask_lane w (SFltb (S754_zero false) x)) a.
Definition fv_ceqz (w : Z) (a : list spec_float) : list Z := map (fun x => mask_lane w (SFeqb x (S754_zero false))) a.
Definition fv_cltz (w : Z) (a : list spec_float) : list Z := map (fun x => mask_lane w (SFltb x (S754_zero false))) a.
Definition fv_clez (w : Z) (a : list spec_float) : list Z := map (fun x => mask_lane w (SFleb x (S754_zero false))) a.
(** simd.hh:761-777, 851-867 *)
Definition fv_cgt (w : Z) (a b : list spec_float) : list Z := map2 (fun x y => mask_lane w (SFltb y x)) a b.
Definition fv_ceq (w : Z) (a b : list spec_float) : list Z := map2 (fun x y => mask_lane w (SFeqb x y)) a b.
(** simd.hh:905-921, 959-975, 1013-1029: [std::min(x, y)] is [y < x ? y : x], [std::max(x, y)] is [x < y ? y : x] *)
Definition fv_min (a b : list spec_float) : list spec_float := map2 minf a b.
Definition maxf (a b : spec_float) : spec_float := if SFltb a b then b else a.
Definition fv_max (a b : list spec_float) : list spec_float := map2 maxf a b.
Definition fv_clamp (x : list spec_float) (a b : spec_float) : list spec_float := map (fun x => minf (maxf x a) b) x.
(** simd.hh:1283-1299 *)
Definition fv_signum (a : list spec_float) : list spec_float := map (signumf prec emax) a.
(** simd.hh:1337-1353: the [int] is converted, then multiplied *)
Definition fv_sign (a b : list spec_float) : list spec_float := map2 (fun x y => SFmul prec emax (signumf prec emax y) x) a b.
End Portable.
(** simd.hh:1391-1407, on the bits [u[i]]; [~negz.u[i]] has [w] bits *)
Definition fv_copysign (mw ew : Z) (a b : list Z) : list Z :=
  let w := ieee_width mw ew in
  let negz := bits_of_float mw ew 0 (S754_zero true) in
  map2 (fun x y => Z.lor (Z.land x (2 ^ w - 1 - negz)) (Z.land negz y)) a b.
(** simd.hh:1481-1497 *)
Definition fv_shuf (a : list spec_float) (b : list Z) : list spec_float :=
  map (fun i => if i <? Z.of_nat (length a) then nth (Z.to_nat i) a (S754_zero false) else S754_zero false) b.

(** ** The intrinsics on floating point lanes *)
Section Intrinsics.
Variables mw ew : Z.
Notation w := (ieee_width mw ew).
Notation prec := (ieee_prec mw).
Notation emax := (ieee_emax ew).
Notation num := (float_of_bits mw ew).
Notation bits := (bits_of_float mw ew).
(** the literals 1.f, -0.f *)
Definition one_bits : Z := bits 0 (of_int prec emax 1).
Definition negz_bits : Z := bits 0 (S754_zero true).

(** _mm_set1_ps/pd, _mm256_set1_ps/pd; the argument is given by its bits.  _mm_setzero_ps/pd *)
Definition mm_set1_p (N a : Z) : Z := mm_set1 N w a.
Definition mm_setzero_p : Z := 0.
(** _mm_add_ps/pd, _mm_sub_ps/pd, _mm_mul_ps/pd; also vaddq_f32, vsubq_f32, vmulq_f32 with [N] = 128 *)
Definition mm_add_p (N : Z) (nan : Z -> Z -> Z) (a b : Z) : Z := lanewise_2 N w (fun x y => bits (nan x y) (SFadd prec emax (num x) (num y))) a b.
Definition mm_sub_p (N : Z) (nan : Z -> Z -> Z) (a b : Z) : Z := lanewise_2 N w (fun x y => bits (nan x y) (SFsub prec emax (num x) (num y))) a b.
Definition mm_mul_p (N : Z) (nan : Z -> Z -> Z) (a b : Z) : Z := lanewise_2 N w (fun x y => bits (nan x y) (SFmul prec emax (num x) (num y))) a b.
(** _mm_min_ps/pd, _mm_max_ps/pd: the second operand if one is NaN or if both are zeros *)
Definition mm_min_p (N a b : Z) : Z := lanewise_2 N w (fun x y => if SFltb (num x) (num y) then x else y) a b.
Definition mm_max_p (N a b : Z) : Z := lanewise_2 N w (fun x y => if SFltb (num y) (num x) then x else y) a b.
(** _mm_cmpeq_ps, _mm_cmpgt_ps, _mm_cmplt_ps, _mm_cmple_ps; _mm256_cmp_ps with _CMP_EQ_OQ, _CMP_GT_OQ, _CMP_LT_OQ, _CMP_LE_OQ: false
    if one is NaN; also vceqq_f32, vcgtq_f32, vcltq_f32, vcleq_f32 *)
Definition mm_cmpeq_p (N a b : Z) : Z := lanewise_2 N w (fun x y => ones w (SFeqb (num x) (num y))) a b.
Definition mm_cmpgt_p (N a b : Z) : Z := lanewise_2 N w (fun x y => ones w (SFltb (num y) (num x))) a b.
Definition mm_cmplt_p (N a b : Z) : Z := lanewise_2 N w (fun x y => ones w (SFltb (num x) (num y))) a b.
Definition mm_cmple_p (N a b : Z) : Z := lanewise_2 N w (fun x y => ones w (SFleb (num x) (num y))) a b.
(** vabsq_f32: clears the sign bit *)
Definition vabsq_f (a : Z) : Z := lanewise_1 128 w (fun x => x mod 2 ^ (w - 1)) a.
(** vminq_f32, vmaxq_f32: NaN if one is NaN; -0 is below +0 *)
Definition vminq_f (nan : Z -> Z -> Z) (a b : Z) : Z :=
  lanewise_2 128 w (fun x y =>
    if is_nan (num x) || is_nan (num y) then nan x y
    else if SFltb (num x) (num y) then x else if SFltb (num y) (num x) then y
    else if sign_field mw ew x then x else y) a b.
Definition vmaxq_f (nan : Z -> Z -> Z) (a b : Z) : Z :=
  lanewise_2 128 w (fun x y =>
    if is_nan (num x) || is_nan (num y) then nan x y
    else if SFltb (num x) (num y) then y else if SFltb (num y) (num x) then x
    else if sign_field mw ew x then y else x) a b.
(** vdupq_n_f32, the argument is given by its bits *)
Definition vdupq_n_f (a : Z) : Z := vdupq_n w a.

(** ** SSE4.1 ([N] = 128), AVX2 ([N] = 256) *)
(** sse4_1.hh 217-231, 265-279, avx2.hh 217-231, 265-279; [K] registers *)
Definition x86_fdup (N : Z) (K : nat) (a : Z) : list Z := repeat (mm_set1_p N a) K.
Definition x86_fzero (K : nat) : list Z := repeat mm_setzero_p K.
(** sse4_1.hh 121-151, avx2.hh 121-151: casts between float and unsigned registers keep the register *)
Definition x86_freinterpret (a : list Z) : list Z := a.
(** sse4_1.hh 313-327, 377-391, 457-471; the same lines in avx2.hh *)
Definition x86_fadd (N : Z) (nan : Z -> Z -> Z) (a b : list Z) : list Z := map2 (mm_add_p N nan) a b.
Definition x86_fsub (N : Z) (nan : Z -> Z -> Z) (a b : list Z) : list Z := map2 (mm_sub_p N nan) a b.
Definition x86_fmul (N : Z) (nan : Z -> Z -> Z) (a b : list Z) : list Z := map2 (mm_mul_p N nan) a b.
(** sse4_1.hh 473-487, avx2.hh 473-487: [_mm_andnot_ps(_mm_set1_ps(-0.f), a.m)] *)
Definition x86_fabs (N : Z) (a : list Z) : list Z := map (fun a => mm_andnot (mm_set1_p N negz_bits) a) a.
(** sse4_1.hh 513-531, avx2.hh 513-531 *)
Definition x86_fsignum (N : Z) (a : list Z) : list Z :=
  map (fun a => mm_andnot
    (mm_cmpeq_p N a mm_setzero_p)
    (mm_or (mm_set1_p N one_bits) (mm_and (mm_set1_p N negz_bits) a))) a.
(** sse4_1.hh 557-575, avx2.hh 557-575 *)
Definition x86_fsign (N : Z) (a b : list Z) : list Z :=
  map2 (fun a b => mm_andnot
    (mm_cmpeq_p N b mm_setzero_p)
    (mm_xor a (mm_and (mm_set1_p N negz_bits) b))) a b.
(** sse4_1.hh 601-619, avx2.hh 601-619 *)
Definition x86_fcopysign (N : Z) (a b : list Z) : list Z :=
  map2 (fun a b => mm_or
    (mm_andnot (mm_set1_p N negz_bits) a)
    (mm_and (mm_set1_p N negz_bits) b)) a b.
(** sse4_1.hh 781-795, 830-844, 878-892, 926-940, 974-988; avx2.hh 781-795, 829-843, 877-891, 925-939, 973-987 *)
Definition x86_fceqz (N : Z) (a : list Z) : list Z := map (fun a => mm_cmpeq_p N a mm_setzero_p) a.
Definition x86_fceq (N : Z) (a b : list Z) : list Z := map2 (mm_cmpeq_p N) a b.
Definition x86_fcgtz (N : Z) (a : list Z) : list Z := map (fun a => mm_cmpgt_p N a mm_setzero_p) a.
Definition x86_fcltz (N : Z) (a : list Z) : list Z := map (fun a => mm_cmplt_p N a mm_setzero_p) a.
Definition x86_fclez (N : Z) (a : list Z) : list Z := map (fun a => mm_cmple_p N a mm_setzero_p) a.
(** sse4_1.hh 1030-1044, 1070-1084, 1110-1124; avx2.hh 1029-1043, 1069-1083, 1109-1123 *)
Definition x86_fmin (N : Z) (a b : list Z) : list Z := map2 (mm_min_p N) a b.
Definition x86_fmax (N : Z) (a b : list Z) : list Z := map2 (mm_max_p N) a b.
Definition x86_fclamp (N : Z) (x : list Z) (a b : Z) : list Z :=
  map (fun x => mm_min_p N (mm_max_p N x (mm_set1_p N a)) (mm_set1_p N b)) x.

(** ** NEON *)
(** neon.hh 174-180, 246-252 (see [neon_vzero]), 110-126 *)
Definition neon_fdup (K : nat) (a : Z) : list Z := repeat (vdupq_n_f a) K.
Definition neon_fzero (m : list Z) : list Z := map (fun r => veorq r r) m.
Definition neon_freinterpret (a : list Z) : list Z := a.
(** neon.hh 318-324, 374-380, 446-452 *)
Definition neon_fadd (nan : Z -> Z -> Z) (a b : list Z) : list Z := map2 (mm_add_p 128 nan) a b.
Definition neon_fsub (nan : Z -> Z -> Z) (a b : list Z) : list Z := map2 (mm_sub_p 128 nan) a b.
Definition neon_fmul (nan : Z -> Z -> Z) (a b : list Z) : list Z := map2 (mm_mul_p 128 nan) a b.
(** neon.hh 462-468 *)
Definition neon_fabs (a : list Z) : list Z := map vabsq_f a.
(** neon.hh 486-494, 505-513, 525-533 *)
Definition neon_fsignum (a : list Z) : list Z :=
  map (fun a => vbicq
    (veorq (vdupq_n_f one_bits) (vandq (vdupq_n_f negz_bits) a))
    (mm_cmpeq_p 128 a (vdupq_n_f 0))) a.
Definition neon_fsign (a b : list Z) : list Z :=
  map2 (fun a b => vbicq
    (veorq a (vandq (vdupq_n_f negz_bits) b))
    (mm_cmpeq_p 128 b (vdupq_n_f 0))) a b.
Definition neon_fcopysign (a b : list Z) : list Z :=
  map2 (fun a b => vorrq
    (vbicq a (vdupq_n_f negz_bits))
    (vandq b (vdupq_n_f negz_bits))) a b.
(** neon.hh 695-701, 727-733, 759-765, 791-797, 823-829 *)
Definition neon_fceqz (a : list Z) : list Z := map (fun a => mm_cmpeq_p 128 a (vdupq_n_f 0)) a.
Definition neon_fceq (a b : list Z) : list Z := map2 (mm_cmpeq_p 128) a b.
Definition neon_fcgtz (a : list Z) : list Z := map (fun a => mm_cmpgt_p 128 a (vdupq_n_f 0)) a.
Definition neon_fcltz (a : list Z) : list Z := map (fun a => mm_cmplt_p 128 a (vdupq_n_f 0)) a.
Definition neon_fclez (a : list Z) : list Z := map (fun a => mm_cmple_p 128 a (vdupq_n_f 0)) a.
(** neon.hh 855-861, 887-893, 919-925 *)
Definition neon_fmin (nan : Z -> Z -> Z) (a b : list Z) : list Z := map2 (vminq_f nan) a b.
Definition neon_fmax (nan : Z -> Z -> Z) (a b : list Z) : list Z := map2 (vmaxq_f nan) a b.
Definition neon_fclamp (nan : Z -> Z -> Z) (x : list Z) (a b : Z) : list Z :=
  map (fun x => vminq_f nan (vmaxq_f nan x (vdupq_n_f a)) (vdupq_n_f b)) x.

(** ** polar_helper.hh:60-102 PolarHelper<SIMD<VALUE, WIDTH>>, for VALUE = float or double, calling the back ends *)
Definition opsf_x86 (N : Z) (nan : Z -> Z -> Z) (K : nat) : polar_ops (list Z) :=
  mk_ops (list Z)
    (x86_fdup N K one_bits)
    (x86_fsignum N)
    (x86_fmul N nan)
    (fun a b => x86_fmul N nan (x86_fmul N nan (x86_fsignum N a) (x86_fsignum N b)) (x86_fmin N (x86_fabs N a) (x86_fabs N b)))
    (fun a b c => x86_fadd N nan (x86_fmul N nan a b) c).
Definition opsf_neon (nan : Z -> Z -> Z) (K : nat) : polar_ops (list Z) :=
  mk_ops (list Z)
    (neon_fdup K one_bits)
    neon_fsignum
    (neon_fmul nan)
    (fun a b => neon_fmul nan (neon_fmul nan (neon_fsignum a) (neon_fsignum b)) (neon_fmin nan (neon_fabs a) (neon_fabs b)))
    (fun a b c => neon_fadd nan (neon_fmul nan a b) c).
End Intrinsics.
