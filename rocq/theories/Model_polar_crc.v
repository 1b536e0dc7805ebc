(** Model of the CRC aided list decoding of tests/polar_list_regression_test.cc.  Definitions only.
    The 8 bit soft values are integers, vectors of soft values are lists of them; the CRC object is that of Model_crc. *)
From Verif Require Import Cpp Model_crc.
Local Open Scope nat_scope.

(** tests/polar_list_regression_test.cc:118-129: the message is made of the random bits [data] (K - C of them) and of the C bits of the register; [data]'s
    bits come from a random generator there.  [crc() >> i] is undefined from the width of the promoted type on. *)
Definition crc_attach (o : crc_obj) (C : nat) (message : list Z) (data : list bool) : res (crc_obj * list Z) :=
  let o := crc_reset o 0 in
  '(o, message) <- for_up 0 (length data) (fun i '(o, message) =>
      let bit := nth i data false in
      let o := crc_bit o bit in
      message <- wr message i (1 - 2 * Z.b2z bit)%Z ;;
      Ok (o, message)) (o, message) ;;
  message <- for_up 0 C (fun i message =>
      _ <- require (N.of_nat i <? N.max 32 (crc_w o))%N ;;
      let bit := negb (N.land (N.shiftr (crc_get o) (N.of_nat i)) 1 =? 0)%N in
      wr message (length data + i) (1 - 2 * Z.b2z bit)%Z) message ;;
  Ok (o, message).

(** tests/polar_list_regression_test.cc:186-199: the first lane whose bits leave the register at zero; gives [best] and [error] *)
Definition crc_select (o : crc_obj) (W K : nat) (decoded : list (list Z)) : res (crc_obj * nat * bool) :=
  r <- for_ret 0 W (fun k o =>
      let o := crc_reset o 0 in
      o <- for_up 0 K (fun i o => v <- rd decoded i ;; x <- rd v k ;; Ok (crc_bit o (x <? 0)%Z)) o ;;
      if (crc_get o =? 0)%N then Ok (inr (o, k)) else Ok (inl o)) o ;;
  match r with inl o => Ok (o, 0, true) | inr (o, k) => Ok (o, k, false) end.
