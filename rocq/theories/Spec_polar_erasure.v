(** Specification vocabulary for C83: erasures and independent chances.  Definitions only. *)
From Coq Require Import List Arith ZArith QArith Bool.
From Verif Require Import Spec_polar.
Import ListNotations.
Local Open Scope nat_scope.

(** A pattern says of each place whether it is erased.  [ambiguous n e i]: even with all earlier symbols given, the symbol of position [i] is not
    determined by what is not erased: there are two words, equal before [i] and different there, whose transforms agree outside the erased places. *)
Definition ambiguous (n : nat) (e : list bool) (i : nat) : Prop :=
  exists u v, length u = 2 ^ n /\ length v = 2 ^ n /\ Forall pm1 u /\ Forall pm1 v /\
    (forall j, j < i -> nth j u 1%Z = nth j v 1%Z) /\ nth i u 1%Z <> nth i v 1%Z /\
    (forall j, j < 2 ^ n -> nth j e true = false -> nth j (transform n u) 1%Z = nth j (transform n v) 1%Z).

(** The mean of [f] over patterns of [len] places each of which is erased with chance [p], independently of the others *)
Fixpoint mean (p : Q) (len : nat) (f : list bool -> Q) : Q :=
  match len with
  | O => f []
  | S len => (p * mean p len (fun e => f (true :: e)) + (1 - p) * mean p len (fun e => f (false :: e)))%Q
  end.
Definition chance (p : Q) (len : nat) (A : list bool -> bool) : Q := mean p len (fun e => if A e then 1%Q else 0%Q).
(** the sum of [f i] for the unfrozen positions *)
Definition sum_unfrozen (fl : list bool) (f : nat -> Q) : Q := fold_right Qplus 0%Q (map (fun i => if nth i fl true then 0%Q else f i) (seq 0 (length fl))).
