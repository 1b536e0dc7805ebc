(** What the SIMD primitives are documented to do, lane by lane.  Independent of the model: plain arithmetic on
    integers. *)
From Coq Require Import ZArith List.
Import ListNotations.
Open Scope Z_scope.

(** the values of a signed / unsigned lane of [w] bits *)
Definition int_range (w z : Z) : Prop := - 2 ^ (w - 1) <= z < 2 ^ (w - 1).
Definition uint_range (w z : Z) : Prop := 0 <= z < 2 ^ w.
(** a vector of [n] signed / unsigned lanes *)
Definition svec (w : Z) (n : nat) (a : list Z) : Prop := length a = n /\ Forall (int_range w) a.
Definition uvec (w : Z) (n : nat) (a : list Z) : Prop := length a = n /\ Forall (uint_range w) a.

(** the nearest value of the lane type *)
Definition saturated (w z r : Z) : Prop :=
  (int_range w z -> r = z) /\ (z < - 2 ^ (w - 1) -> r = - 2 ^ (w - 1)) /\ (2 ^ (w - 1) <= z -> r = 2 ^ (w - 1) - 1).
(** the value of the lane type congruent to [z]: two's complement wrap around *)
Definition wraps_to (w z r : Z) : Prop := int_range w r /\ exists k, z = r + k * 2 ^ w.
(** a comparison mask: all ones if the condition holds, otherwise all zeros *)
Definition is_mask (w : Z) (P : Prop) (r : Z) : Prop := (P -> r = 2 ^ w - 1) /\ (~ P -> r = 0).
(** [x] with the sign of [y] applied: itself, nothing, or its negation *)
Definition signed_by (w x y r : Z) : Prop := (0 < y -> r = x) /\ (y = 0 -> r = 0) /\ (y < 0 -> wraps_to w (- x) r).

(** every lane of [r] is related to the lanes of the operands at the same place *)
Definition lanewise1 (n : nat) (R : Z -> Z -> Prop) (a r : list Z) : Prop :=
  length r = n /\ forall i, (i < n)%nat -> R (nth i a 0) (nth i r 0).
Definition lanewise2 (n : nat) (R : Z -> Z -> Z -> Prop) (a b r : list Z) : Prop :=
  length r = n /\ forall i, (i < n)%nat -> R (nth i a 0) (nth i b 0) (nth i r 0).
Definition lanewise3 (n : nat) (R : Z -> Z -> Z -> Z -> Prop) (a b c r : list Z) : Prop :=
  length r = n /\ forall i, (i < n)%nat -> R (nth i a 0) (nth i b 0) (nth i c 0) (nth i r 0).
