(** Specification vocabulary for C49-C52: binary linear codes given by a generator matrix, and correlations. *)
From Coq Require Import List ZArith Bool.
From Verif Require Import Spec_gf Spec_bch.
Import ListNotations.

(** the parity of the first [n] values *)
Fixpoint parity (n : nat) (f : nat -> bool) : bool :=
  match n with 0 => false | S n => xorb (parity n f) (f n) end.
(** entry in row [j] and column [i] of a matrix with [N] columns stored row by row *)
Definition entry (N : nat) (genmat : list Z) (j i : nat) : bool := negb (nth (N * j + i) genmat 0 =? 0)%Z.
(** all stored values are zero or one *)
Definition binary (genmat : list Z) : Prop := Forall (fun x => x = 0 \/ x = 1)%Z genmat.
(** bit [i] of the product of the row vector [m] of [K] bits with a matrix *)
Definition product (K : nat) (M : nat -> nat -> bool) (m : nat -> bool) (i : nat) : bool :=
  parity K (fun j => m j && M j i).
(** the code generated by the first [K] rows *)
Definition in_code (N K : nat) (M : nat -> nat -> bool) (c : nat -> bool) : Prop :=
  exists m, forall i, i < N -> c i = product K M m i.
(** only the zero message gives the zero word: the rank is [K] *)
Definition full_rank (N K : nat) (M : nat -> nat -> bool) : Prop :=
  forall m, (forall i, i < N -> product K M m i = false) -> forall j, j < K -> m j = false.

(** int8_t values *)
Definition int8 (x : Z) : Prop := (-128 <= x <= 127)%Z.
(** soft values as the decoders use them: -128 counts as -127 *)
Definition soft_at (soft : list Z) (i : nat) : Z := Z.max (nth i soft 0%Z) (-127).
(** the correlation of a word with the soft values: a zero bit counts +, a one bit counts - *)
Definition correlation (N : nat) (soft : list Z) (c : nat -> bool) : Z :=
  fold_right Z.add 0%Z (map (fun i => if c i then (- soft_at soft i)%Z else soft_at soft i) (seq 0 N)).
(** the hard decision *)
Definition decided (soft : list Z) (i : nat) : bool := (nth i soft 0 <? 0)%Z.
(** position [a] is more reliable than position [b]; of equally reliable ones the first *)
Definition more_reliable (soft : list Z) (a b : nat) : Prop :=
  (Z.abs (soft_at soft b) < Z.abs (soft_at soft a))%Z \/ (Z.abs (soft_at soft b) = Z.abs (soft_at soft a) /\ a < b).

(** [B] is the most reliable basis: [K] positions that determine the codeword and can be chosen freely, and at every other
    position the bits of the codewords are already determined by the basis positions that are more reliable *)
Definition most_reliable_basis (N K : nat) (M : nat -> nat -> bool) (soft : list Z) (B : list nat) : Prop :=
  NoDup B /\ length B = K /\ (forall b, In b B -> b < N) /\
  (forall c, in_code N K M c -> (forall b, In b B -> c b = false) -> forall i, i < N -> c i = false) /\
  (forall b, In b B -> exists c, in_code N K M c /\ c b = true /\ forall b', In b' B -> b' <> b -> c b' = false) /\
  (forall p, p < N -> ~ In p B -> forall c, in_code N K M c -> (forall b, In b B -> more_reliable soft b p -> c b = false) -> c p = false).
(** how many of the positions [B] of [c] differ from the hard decisions *)
Definition flips (soft : list Z) (B : list nat) (c : nat -> bool) : nat :=
  length (filter (fun b => xorb (c b) (decided soft b)) B).
(** the codewords a decoder of order [d] tries: those that differ from the hard decisions in at most [d] positions of the basis *)
Definition searched (N K : nat) (M : nat -> nat -> bool) (soft : list Z) (B : list nat) (d : nat) (c : nat -> bool) : Prop :=
  in_code N K M c /\ flips soft B c <= d.
(** equal in the first [N] bits *)
Definition agree (N : nat) (c c' : nat -> bool) : Prop := forall i, i < N -> c i = c' i.
(** the polynomial whose coefficients are the first [N] bits of [c], the first one being the coefficient of the highest power *)
Definition poly_of (N : nat) (c : nat -> bool) : BinNums.N := word_poly (map (fun i => N.b2n (c i)) (seq 0 N)).
