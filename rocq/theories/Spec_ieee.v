(** The binary interchange formats of IEEE 754.  Definitions only; nothing of the model is used.
    A number occupies [1 + ew + mw] bits: the sign, [ew] exponent bits and [mw] trailing mantissa bits, most significant first.
    [float] is ([mw] = 23, [ew] = 8), [double] is ([mw] = 52, [ew] = 11).  Numbers are Coq's Floats.SpecFloat: a finite one is
    [S754_finite sign mantissa exponent], of value [mantissa * 2 ^ exponent]. *)
From Coq Require Import ZArith Bool List Floats.SpecFloat.
Local Open Scope Z_scope.

Section Format.
Variables mw ew : Z.
Definition ieee_width : Z := mw + ew + 1.
Definition ieee_prec : Z := mw + 1.
Definition ieee_emax : Z := 2 ^ (ew - 1).
(** the exponent of the subnormal numbers' last place *)
Definition ieee_emin : Z := 3 - ieee_emax - ieee_prec.
Definition sign_field (z : Z) : bool := Z.testbit z (mw + ew).
Definition exponent_field (z : Z) : Z := (z / 2 ^ mw) mod 2 ^ ew.
Definition mantissa_field (z : Z) : Z := z mod 2 ^ mw.
(** the number that a bit pattern denotes *)
Definition float_of_bits (z : Z) : spec_float :=
  let s := sign_field z in
  let e := exponent_field z in
  let m := mantissa_field z in
  if e =? 2 ^ ew - 1 then (if m =? 0 then S754_infinity s else S754_nan)
  else if e =? 0 then (if m =? 0 then S754_zero s else S754_finite s (Z.to_pos m) ieee_emin)
  else S754_finite s (Z.to_pos (2 ^ mw + m)) (ieee_emin + (e - 1)).
(** the bit pattern of a number; [nan] is the pattern chosen for NaN, which has many *)
Definition bits_of_float (nan : Z) (x : spec_float) : Z :=
  let sign (s : bool) := if s then 2 ^ (mw + ew) else 0 in
  match x with
  | S754_zero s => sign s
  | S754_infinity s => sign s + (2 ^ ew - 1) * 2 ^ mw
  | S754_nan => nan
  | S754_finite s m e =>
      if Zpos m <? 2 ^ mw then sign s + Zpos m
      else sign s + (e - ieee_emin + 1) * 2 ^ mw + (Zpos m - 2 ^ mw)
  end.
End Format.

(** the format makes sense: at least one mantissa bit, and an exponent range that contains the mantissa's length *)
Definition ieee_format (mw ew : Z) : Prop := 1 <= mw /\ 2 <= ew /\ ieee_prec mw < ieee_emax ew.

(** a number with the sign of another *)
Definition set_sign (s : bool) (x : spec_float) : spec_float :=
  match x with
  | S754_zero _ => S754_zero s
  | S754_infinity _ => S754_infinity s
  | S754_nan => S754_nan
  | S754_finite _ m e => S754_finite s m e
  end.
Definition is_nan (x : spec_float) : bool := match x with S754_nan => true | _ => false end.
Definition is_zero (x : spec_float) : bool := match x with S754_zero _ => true | _ => false end.
(** finite, and at most [2 ^ k] in magnitude (for [k] at least the exponent [emin] of the last place of the smallest numbers) *)
Definition at_most (emin k : Z) (x : spec_float) : Prop :=
  match x with
  | S754_zero _ => True
  | S754_finite _ m e => Zpos m * 2 ^ (e - emin) <= 2 ^ (k - emin)
  | _ => False
  end.
