(** Specification vocabulary for C69: distances and how far the soft values are from a clean codeword. *)
From Coq Require Import List ZArith Bool.
From Verif Require Import Spec_osd.
Import ListNotations.

(** the number of positions below [N] where two words differ *)
Definition distance (N : nat) (c c' : nat -> bool) : nat := length (filter (fun i => xorb (c i) (c' i)) (seq 0 N)).
(** any two different words of the code differ in at least [d] positions *)
Definition min_distance (N K : nat) (M : nat -> nat -> bool) (d : nat) : Prop :=
  forall c c', in_code N K M c -> in_code N K M c' -> ~ agree N c c' -> d <= distance N c c'.
(** the soft value seen from the transmitted bit: positive when it speaks for the bit, negative when it speaks against it *)
Definition towards (soft : list Z) (c : nat -> bool) (i : nat) : Z := if c i then (- soft_at soft i)%Z else soft_at soft i.
(** how much is missing in total from the ideal amplitude [A] *)
Definition shortfall (N : nat) (A : Z) (soft : list Z) (c : nat -> bool) : Z :=
  fold_right Z.add 0%Z (map (fun i => (A - towards soft c i)%Z) (seq 0 N)).
