(** What augmented Hadamard and simplex codes are, independent of the code of /repo. *)
From Verif Require Import Cpp.
Local Open Scope Z_scope.

(** is the number of one bits odd? *)
Fixpoint odd_ones_pos (p : positive) : bool :=
  match p with xH => true | xO p => odd_ones_pos p | xI p => negb (odd_ones_pos p) end.
Definition odd_ones (x : N) : bool := match x with N0 => false | Npos p => odd_ones_pos p end.
(** the Walsh function: minus one to the inner product of the bit vectors of [a] and [b] *)
Definition walsh (a b : N) : Z := if odd_ones (N.land a b) then -1 else 1.

(** the word with elements f 0, ..., f (n-1) *)
Definition word (n : nat) (f : nat -> Z) : list Z := map f (seq 0 n).
(** augmented Hadamard code: bit K-1 of the message is the sign, the other bits select the Walsh function *)
Definition hadamard_word (K : nat) (m : N) : list Z :=
  word (2 ^ (K - 1)) (fun i => (if N.testbit m (N.of_nat (K - 1)) then -1 else 1) * walsh (m mod 2 ^ N.of_nat (K - 1)) (N.of_nat i)).
(** simplex code: the Walsh function of the message without its first element *)
Definition simplex_word (K : nat) (m : N) : list Z :=
  word (2 ^ K - 1) (fun i => walsh m (N.of_nat (i + 1))).

Fixpoint dot (a b : list Z) : Z :=
  match a, b with x :: a', y :: b' => x * y + dot a' b' | _, _ => 0 end.

Definition int8 (x : Z) : Prop := -128 <= x <= 127.

(** [r] is what a maximum likelihood decoder answers for [soft] when the message [m < size] is sent as [enc m]:
    the message with the largest correlation if there is only one, otherwise -1 *)
Definition most_likely (enc : N -> list Z) (size : N) (soft : list Z) (m : N) : Prop :=
  (m < size)%N /\ forall m', (m' < size)%N -> m' <> m -> dot (enc m') soft < dot (enc m) soft.
Definition ml_answer (enc : N -> list Z) (size : N) (soft : list Z) (r : Z) : Prop :=
  (exists m, r = Z.of_N m /\ most_likely enc size soft m) \/
  (r = -1 /\ forall m, ~ most_likely enc size soft m).
