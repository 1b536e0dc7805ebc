(** Model of the systematic polar coding chain of tests/polar_regression_test.cc.  Definitions only.
    Simplification: the noise, the quantisation (C65) and the statistics between sender and receiver are left out. *)
From Verif Require Import Cpp Model_polar.
Local Open Scope nat_scope.

Section Type_.
Context {A : Type}.
Variable P : polar_ops A.
(** tests/polar_regression_test.cc:142-144: the symbols of [temp] at the unfrozen positions become [decoded]; get_bit (lines 20-23) is the library's *)
Definition chain_extract (len : nat) (temp : list A) (frozen : list N) (decoded : list A) : res (list A) :=
  '(_, decoded) <- for_up 0 len (fun i '(j, decoded) =>
      b <- polar_get frozen i ;;
      if (b : bool) then Ok (j, decoded)
      else (x <- rd temp i ;; decoded <- wr decoded j x ;; Ok (j + 1, decoded))) (0, decoded) ;;
  Ok decoded.
(** tests/polar_regression_test.cc:133-145: decode, encode what was decoded, take the data from the codeword; gives the decoder's members, [temp] and [decoded] *)
Definition chain_receive (MAX_M : nat) (soft hard : list A) (decoded codeword temp : list A) (frozen : list N) (level : nat)
  : res (list A * list A * list A * list A) :=
  '(soft, hard, decoded) <- polar_decode P MAX_M soft hard decoded codeword frozen level ;;
  temp <- polar_encode P temp decoded frozen level ;;
  decoded <- chain_extract (2 ^ level) temp frozen decoded ;;
  Ok (soft, hard, temp, decoded).
End Type_.
