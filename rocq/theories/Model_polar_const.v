(** Model of polar_freezer.hh and polar_sequence.hh.  Definitions only.
    The [double] arithmetic used is the three operations of [arith]; [binary64] (below) is IEEE double precision with
    round to nearest even, as formalised by Coq's standard library (Floats.SpecFloat, executable and free of axioms).
    Excess precision (x87) is not modelled.  [uint32_t] words are [N]; indices are [nat]. *)
From Coq Require Import Floats.SpecFloat.
From Verif Require Import Cpp.

Record arith := { num : Type; mul : num -> num -> num; two_minus : num -> num; less : num -> num -> bool }.
(** [double]: [a * b], [2 - a] and [a < b] *)
Definition binary64 : arith :=
  {| num := spec_float; mul := SFmul 53 1024; two_minus := SFsub 53 1024 (S754_finite false 4503599627370496 (-51)); less := SFltb |}.

Section Arith.
Variable A : arith.

(** polar_freezer.hh:19-23 PolarFreezer::set_bit.  [~(1 << s)] and [1 << s] are the 32 bit words with the bit [s] clear and set.
    polar_freezer.hh:15-18 get_bit is never called and not modelled. *)
Definition set_bit (bits : list N) (idx : nat) (val : bool) : res (list N) :=
  w <- rd bits (idx / 32) ;;
  bits <- wr bits (idx / 32) (N.clearbit w (N.of_nat (idx mod 32))) ;;
  w <- rd bits (idx / 32) ;;
  wr bits (idx / 32) (N.lor w (N.shiftl (N.b2n val) (N.of_nat (idx mod 32)))).

(** polar_freezer.hh:24-32 PolarFreezer::freeze; [fuel] bounds the depth of the recursion *)
Fixpoint freeze (fuel : nat) (bits : list N) (pe th : num A) (i h : nat) : res (list N) :=
  match fuel with
  | O => Fuel
  | S fuel =>
      if h =? 0 then set_bit bits i (less A th pe)
      else
        bits <- freeze fuel bits (mul A pe (two_minus A pe)) th i (h / 2) ;;
        freeze fuel bits (mul A pe pe) th (i + h) (h / 2)
  end.

(** polar_freezer.hh:34-42 PolarFreezer::operator(): the returned K and the words.  A shift by more than 30 is not representable. *)
Definition polar_freezer (frozen : list N) (level : nat) (pe th : num A) : res (Z * list N) :=
  require (level <=? 30) ;;;
  let length := 2 ^ level in
  frozen <- freeze (S level) frozen pe th 0 (length / 2) ;;
  K <- for_up 0 length (fun i K =>
         w <- rd frozen (i / 32) ;;
         Ok (K - Z.b2z (N.testbit w (N.of_nat (i mod 32))))%Z) (Z.of_nat length) ;;
  Ok (K, frozen).

(** polar_freezer.hh:48-51 PolarCodeConst0::inform_bit *)
Definition inform_bit (bits : list N) (idx : nat) : res (list N) :=
  w <- rd bits (idx / 32) ;;
  wr bits (idx / 32) (N.clearbit w (N.of_nat (idx mod 32))).
(** polar_freezer.hh:52-55 PolarCodeConst0::frozen_bit *)
Definition frozen_bit (bits : list N) (idx : nat) : res (list N) :=
  w <- rd bits (idx / 32) ;;
  wr bits (idx / 32) (N.setbit w (N.of_nat (idx mod 32))).

(** polar_freezer.hh:56-64 PolarCodeConst0::compute = polar_sequence.hh:17-25 PolarSeqConst0::compute;
    [prob] is the member array, indeterminate before the first call *)
Fixpoint compute (fuel : nat) (prob : list (option (num A))) (pe : num A) (i h : nat) : res (list (option (num A))) :=
  match fuel with
  | O => Fuel
  | S fuel =>
      if h =? 0 then wru prob i pe
      else
        prob <- compute fuel prob (mul A pe (two_minus A pe)) i (h / 2) ;;
        compute fuel prob (mul A pe pe) (i + h) (h / 2)
  end.

(** the comparison [prob[a] < prob[b]] (polar_freezer.hh:75, swapped in polar_sequence.hh:35).  The library calls it on
    elements of the range only: all are below [length], where [prob] has been written. *)
Definition lower (prob : list (option (num A))) (a b : nat) : bool :=
  match nth a prob None, nth b prob None with Some x, Some y => less A x y | _, _ => false end.

(** polar_freezer.hh:68-80 PolarCodeConst0<MAX_M>::operator().  [nth_element] stands for std::nth_element: it gets the
    comparison, the number of elements before [nth] and the range.  Gives the member [prob], [index] and the words. *)
Definition polar_code_const0 (nth_element : (nat -> nat -> bool) -> nat -> list nat -> list nat) (MAX_M : nat)
    (prob : list (option (num A))) (index : list nat) (frozen : list N) (level K : nat) (pe : num A)
    : res (list (option (num A)) * list nat * list N) :=
  assert_ (level <=? MAX_M) ;;;
  require (level <=? 30) ;;;
  let length := 2 ^ level in
  prob <- compute (S level) prob pe 0 (length / 2) ;;
  index <- for_up 0 length (fun i index => wr index i i) index ;;
  require (K <=? length) ;;;
  let index := nth_element (lower prob) K (firstn length index) ++ skipn length index in
  frozen <- for_up 0 K (fun i frozen => x <- rd index i ;; inform_bit frozen x) frozen ;;
  frozen <- for_up K length (fun i frozen => x <- rd index i ;; frozen_bit frozen x) frozen ;;
  Ok (prob, index, frozen).

(** polar_sequence.hh:29-37 PolarSeqConst0<MAX_M>::operator().  [sort] stands for std::sort.  The member [index] is unused. *)
Definition polar_seq_const0 (sort : (nat -> nat -> bool) -> list nat -> list nat) (MAX_M : nat)
    (prob : list (option (num A))) (sequence : list nat) (level : nat) (pe : num A)
    : res (list (option (num A)) * list nat) :=
  assert_ (level <=? MAX_M) ;;;
  require (level <=? 30) ;;;
  let length := 2 ^ level in
  prob <- compute (S level) prob pe 0 (length / 2) ;;
  sequence <- for_up 0 length (fun i sequence => wr sequence i i) sequence ;;
  Ok (prob, sort (fun a b => lower prob b a) (firstn length sequence) ++ skipn length sequence).
End Arith.
