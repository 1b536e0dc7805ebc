(** Cyclic-style binary codes given by a generator polynomial: words are numbers, bit i is the coefficient of x^i. *)
From Verif Require Import Cpp Spec_gf Spec_wht.
Local Open Scope N_scope.

(** the codewords of length [n]: the multiples of the generator *)
Definition codeword (n : nat) (g c : N) : Prop := c < 2 ^ N.of_nat n /\ exists q, c = clmul q g.
(** number of one bits, Hamming distance *)
Fixpoint ones_pos (p : positive) : nat :=
  match p with xH => 1%nat | xO p => ones_pos p | xI p => S (ones_pos p) end.
Definition ones (x : N) : nat := match x with N0 => 0%nat | Npos p => ones_pos p end.
Definition distance (a b : N) : nat := ones (N.lxor a b).
(** any two different codewords differ in at least [d] bits *)
Definition min_distance (n : nat) (g : N) (d : nat) : Prop :=
  forall a b, codeword n g a -> codeword n g b -> a <> b -> (d <= distance a b)%nat.
(** the +1/-1 form of a word *)
Definition bpsk (n : nat) (c : N) : list Z := word n (fun i => if N.testbit c (N.of_nat i) then (-1)%Z else 1%Z).
(** the hard decision on a soft word: bit i is one exactly if element i is negative *)
Definition hard_decision (n : nat) (soft : list Z) (x : N) : Prop :=
  x < 2 ^ N.of_nat n /\ forall i, (i < n)%nat -> N.testbit x (N.of_nat i) = (nth i soft 0 <? 0)%Z.
(** [c] is the only most likely codeword *)
Definition best_codeword (n : nat) (g : N) (soft : list Z) (c : N) : Prop :=
  codeword n g c /\ forall c', codeword n g c' -> c' <> c -> (dot (bpsk n c') soft < dot (bpsk n c) soft)%Z.
