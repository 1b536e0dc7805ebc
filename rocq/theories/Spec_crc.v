(** Specification vocabulary for C05/C06. *)
From Coq Require Import List NArith Bool.
From Verif Require Import Model_crc Spec_bits.
Import ListNotations.

(** The bits an argument stands for, least significant bit (hence byte) first. *)
Definition in_bits (x : crc_in) : list bool :=
  match x with
  | InBit b => [b]
  | In8 v => low_bits v 8
  | In16 v => low_bits v 16
  | In32 v => low_bits v 32
  | In64 v => low_bits v 64
  end.
(** Arguments are values of their unsigned type. *)
Definition in_ok (x : crc_in) : Prop :=
  match x with
  | InBit _ => True
  | In8 v => (v < 2 ^ 8)%N
  | In16 v => (v < 2 ^ 16)%N
  | In32 v => (v < 2 ^ 32)%N
  | In64 v => (v < 2 ^ 64)%N
  end.
(** Position-wise exclusive-or of two messages. *)
Definition xor_bits (a b : list bool) : list bool := map (fun '(x, y) => xorb x y) (combine a b).

(** Division with remainder of binary polynomials, the textbook way, on lists of coefficients with
    the highest degree first: [g] is the divisor without its leading 1 (length = degree),
    the window holds the current remainder (same length as [g]). *)
Fixpoint poly_rem (g window : list bool) (msg : list bool) : list bool :=
  match msg with
  | [] => window
  | d :: msg' =>
      let lead := hd false window in
      let shifted := tl window ++ [d] in
      poly_rem g (if lead then xor_bits shifted g else shifted) msg'
  end.

(** The register value passed as one argument of the register's own type. *)
Definition word_in (w v : N) : crc_in :=
  if (w =? 8)%N then In8 v else if (w =? 16)%N then In16 v else if (w =? 32)%N then In32 v else In64 v.
