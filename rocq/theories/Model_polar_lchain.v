(** Model of the systematic polar coding chain of tests/polar_list_regression_test.cc (with PolarListDecoder).  Definitions only.
    Simplification: the noise, the quantisation (C65) and the statistics between sender and receiver are left out; the CRC is in Model_polar_crc.v. *)
From Verif Require Import Cpp Model_polar Model_polar_list Model_polar_chain.
Local Open Scope nat_scope.

(** tests/polar_list_regression_test.cc:170, 176-182: decode, encode all lanes of what was decoded, take the data from the codewords (the loop is that of
    tests/polar_regression_test.cc); gives the decoder's members, the ranks, [temp] and [decoded] *)
Definition lchain_receive (W : nat) (P : polar_ops (list Z)) (MAX_M : nat) (soft hard maps : list (list Z)) (rank : option (list Z)) (decoded : list (list Z))
  (codeword : list Z) (temp : list (list Z)) (frozen : list N) (level : nat)
  : res (list (list Z) * list (list Z) * list (list Z) * option (list Z) * list (list Z) * list (list Z)) :=
  '(soft, hard, maps, rank, decoded) <- list_decode W P MAX_M soft hard maps rank decoded codeword frozen level ;;
  temp <- polar_encode P temp decoded frozen level ;;
  decoded <- chain_extract (2 ^ level) temp frozen decoded ;;
  Ok (soft, hard, maps, rank, temp, decoded).
