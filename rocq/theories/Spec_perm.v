(** Specification vocabulary for C12-C16. *)
From Coq Require Import List Arith NArith ZArith Bool.
Import ListNotations.

(** All elements except the one at index [i], in order. *)
Definition without {A} (i : nat) (l : list A) : list A := firstn i l ++ skipn (S i) l.
(** op(op(x0, x1), x2) ... of a non-empty list *)
Definition reduction {A} (op : A -> A -> A) (l : list A) : option A :=
  match l with [] => None | x :: l' => Some (fold_left op l' x) end.

(** [r] is the index whose [m] binary digits are those of [i] in reverse. *)
Definition reversed_index (m : nat) (i r : nat) : Prop :=
  r < 2 ^ m /\ forall b, b < m -> Nat.testbit r b = Nat.testbit i (m - 1 - b).

(** lane (n + s) mod WIDTH of [out] is lane n of [a], for every n < WIDTH *)
Definition rotated {A} (WIDTH : nat) (s : Z) (a : list A) (lane : nat -> option A) : Prop :=
  forall n, n < WIDTH ->
    lane (Z.to_nat ((Z.of_nat n + s) mod Z.of_nat WIDTH)) = nth_error a n.

(** A rotation done by table lookup: in addition all lanes from WIDTH on are zero. *)
Definition table_rotation (SIZE : nat) (W : nat) (s : Z) (a b : list N) : Prop :=
  length b = SIZE /\ rotated W s a (fun l => nth_error b l) /\
  forall l, W <= l < SIZE -> nth_error b l = Some 0%N.
