(** Model of the floating point instances of polar_helper.hh: [PolarHelper<float>] ([prec] = 24, [emax] = 128),
    [PolarHelper<double>] ([prec] = 53, [emax] = 1024) and [PolarHelper<SIMD<float or double, WIDTH>>] with the generic
    functions of simd.hh; the encoders and the decoder of Model_polar.v are instantiated with them.  Definitions only.
    IEEE arithmetic, round to nearest even, is Coq's Floats.SpecFloat (NaNs have no sign and no payload).  The compiler may
    fuse [a * b + c]: the hard value [a] is a zero or +1 or -1, so the product is exact and fusing changes nothing. *)
From Coq Require Import Floats.SpecFloat.
From Verif Require Import Cpp Model_simd Model_polar.
Local Open Scope Z_scope.

Section Format.
Variables prec emax : Z.
(** conversion of the integers -1, 0, 1 *)
Definition of_int (z : Z) : spec_float := binary_normalize prec emax z 0 false.
Definition fzero : spec_float := of_int 0.
(** polar_helper.hh:25-28, simd.hh:1283-1299 per lane *)
Definition signumf (v : spec_float) : spec_float := of_int (b2z (SFltb fzero v) - b2z (SFltb v fzero)).
(** std::min: polar_helper.hh:38-41, simd.hh:905-920 per lane *)
Definition minf (a b : spec_float) : spec_float := if SFltb b a then b else a.
(** polar_helper.hh:50-53 *)
Definition prodf (a b : spec_float) : spec_float :=
  SFmul prec emax (SFmul prec emax (signumf a) (signumf b)) (minf (SFabs a) (SFabs b)).
(** polar_helper.hh:54-57 *)
Definition maddf (a b c : spec_float) : spec_float := SFadd prec emax (SFmul prec emax a b) c.
(** polar_helper.hh:13-58 PolarHelper<TYPE>; one(), signum, qmul, prod, madd *)
Definition opsf : polar_ops spec_float := mk_ops spec_float (of_int 1) signumf (SFmul prec emax) prodf maddf.

(** two and three operand lane functions of simd.hh *)
Definition lanes2 (f : spec_float -> spec_float -> spec_float) (a b : list spec_float) : list spec_float :=
  map (fun p => f (fst p) (snd p)) (combine a b).
(** polar_helper.hh:60-102 PolarHelper<SIMD<VALUE, WIDTH>> for VALUE = float, double *)
Definition opsfv (WIDTH : nat) : polar_ops (list spec_float) :=
  let vmul := lanes2 (SFmul prec emax) in
  mk_ops (list spec_float)
    (repeat (of_int 1) WIDTH)
    (map signumf)
    vmul
    (fun a b => vmul (vmul (map signumf a) (map signumf b)) (lanes2 minf (map SFabs a) (map SFabs b)))
    (fun a b c => lanes2 (SFadd prec emax) (vmul a b) c).
End Format.

(** polar_helper.hh:172-176 PolarHelper<int8_t>::quant<double or float>: [std::nearbyint] in the default rounding mode (to nearest, ties
    to even) gives an integer, exactly; the comparisons of [std::max], [std::min] with -127 and 127 are exact, and converting NaN to
    int8_t is undefined. *)
Definition nearby (m : positive) (e : Z) : Z :=
  if 0 <=? e then Zpos m * 2 ^ e
  else let q := Zpos m / 2 ^ (- e) in
       let r := 2 * (Zpos m mod 2 ^ (- e)) in
       match r ?= 2 ^ (- e) with
       | Lt => q
       | Eq => if Z.even q then q else q + 1
       | Gt => q + 1
       end.
Definition quant8 (x : spec_float) : res Z :=
  match x with
  | S754_nan => Undef
  | S754_zero _ => Ok 0
  | S754_infinity s => Ok (if s then -127 else 127)
  | S754_finite s m e => Ok (Z.min (Z.max (if s then - nearby m e else nearby m e) (-127)) 127)
  end.
