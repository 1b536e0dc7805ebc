(** Specification vocabulary for polar codes with floating point soft values.  Definitions only; nothing of the model is used.
    Numbers and IEEE arithmetic (round to nearest, ties to even) are those of Coq's Floats.SpecFloat, for any precision [prec] and
    exponent bound [emax]: 24 and 128 for float, 53 and 1024 for double. *)
From Coq Require Import List ZArith Arith Bool Floats.SpecFloat.
From Verif Require Import Spec_polar.
Import ListNotations.
Local Open Scope Z_scope.

(** the sign of a number: -1 or 1, and 0 for both zeros and for NaN *)
Definition fsgn (x : spec_float) : Z :=
  match x with
  | S754_finite s _ _ | S754_infinity s => if s then -1 else 1
  | _ => 0
  end.
(** the numbers -1, +0 and 1: the mantissa [2^(prec-1)] and the exponent [1-prec] *)
Definition hard_value (prec : Z) (z : Z) : spec_float :=
  if z =? 0 then S754_zero false else S754_finite (z <? 0) (Z.to_pos (2 ^ (prec - 1))) (1 - prec).

(** Successive cancellation decoding, plainly, see Spec_polar.v, in floating point arithmetic *)
Section Format.
Variables prec emax : Z.
Definition smaller (a b : spec_float) : spec_float := if SFltb b a then b else a.
Definition combine_left_f (a b : spec_float) : spec_float :=
  SFmul prec emax (SFmul prec emax (hard_value prec (fsgn a)) (hard_value prec (fsgn b))) (smaller (SFabs a) (SFabs b)).
Definition combine_right_f (h a b : spec_float) : spec_float := SFadd prec emax (SFmul prec emax h a) b.
Fixpoint successive_cancellation_f (n : nat) (fl : list bool) (soft : list spec_float) : list spec_float * list spec_float :=
  match n with
  | O =>
      let x := hard_value prec (fsgn (hd S754_nan soft)) in
      if hd true fl then ([], [hard_value prec 1]) else ([x], [x])
  | S m =>
      let h := (2 ^ m)%nat in
      let a := firstn h soft in
      let b := skipn h soft in
      let '(m1, x1) := successive_cancellation_f m (firstn h fl) (zip2 combine_left_f a b) in
      let '(m2, x2) := successive_cancellation_f m (skipn h fl) (zip3 combine_right_f x1 a b) in
      (m1 ++ m2, zip2 (SFmul prec emax) x1 x2 ++ x2)
  end.
End Format.
