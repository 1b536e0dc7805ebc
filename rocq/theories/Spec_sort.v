(** Specification vocabulary for C17-C19. *)
From Coq Require Import List Arith Bool Permutation.
Import ListNotations.

(** The requirements C++ puts on a comparison: a strict weak ordering. *)
Definition equiv {A} (comp : A -> A -> bool) (x y : A) : bool := negb (comp x y) && negb (comp y x).
Definition strict_weak_order {A} (comp : A -> A -> bool) : Prop :=
  (forall x, comp x x = false) /\
  (forall x y z, comp x y = true -> comp y z = true -> comp x z = true) /\
  (forall x y z, equiv comp x y = true -> equiv comp y z = true -> equiv comp x z = true).

(** [b] is [a] sorted stably: a rearrangement, no later element compares less than an earlier one, and
    the elements equivalent to any given one appear in the same order as in [a]. *)
Definition stably_sorted {A} (comp : A -> A -> bool) (a b : list A) : Prop :=
  Permutation a b /\
  (forall i j x y, i < j -> nth_error b i = Some x -> nth_error b j = Some y -> comp y x = false) /\
  (forall z, filter (equiv comp z) b = filter (equiv comp z) a).
