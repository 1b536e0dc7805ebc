(** Specification vocabulary for the construction of polar codes.  Definitions only; nothing of the model is used. *)
From Coq Require Import List Arith Permutation.
From Verif Require Import Spec_sort.
Import ListNotations.

(** The erasure probability of position [i] at [level]: starting from [pe], each bit of [i] from the most significant
    one downwards turns p into p * (2 - p) (zero bit, [worse]) or p * p (one bit, [better]). *)
Fixpoint channel {P : Type} (worse better : P -> P) (level : nat) (pe : P) (i : nat) : P :=
  match level with
  | O => pe
  | S l => channel worse better l (if Nat.testbit i l then better pe else worse pe) i
  end.

(** The requirement on the comparison passed to the algorithms of the C++ library: a strict weak order of the elements of the range *)
Definition orders {A} (comp : A -> A -> bool) (l : list A) : Prop :=
  (forall x, In x l -> comp x x = false) /\
  (forall x y z, In x l -> In y l -> In z l -> comp x y = true -> comp y z = true -> comp x z = true) /\
  (forall x y z, In x l -> In y l -> In z l -> equiv comp x y = true -> equiv comp y z = true -> equiv comp x z = true).
(** What the C++ standard says of std::nth_element(first, first + n, last, comp): the range is rearranged so that no
    element from [n] on compares less than one before [n]. *)
Definition partitions (nth_element : (nat -> nat -> bool) -> nat -> list nat -> list nat) : Prop :=
  forall comp n l, orders comp l -> n <= length l ->
    Permutation l (nth_element comp n l) /\
    (forall a b, In a (firstn n (nth_element comp n l)) -> In b (skipn n (nth_element comp n l)) -> comp b a = false).
(** What the C++ standard says of std::sort *)
Definition sorts (sort : (nat -> nat -> bool) -> list nat -> list nat) : Prop :=
  forall comp l, orders comp l ->
    Permutation l (sort comp l) /\
    (forall i j, i < j -> j < length l -> comp (nth j (sort comp l) 0) (nth i (sort comp l) 0) = false).
