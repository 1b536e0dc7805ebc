(** Which positions the soft decision decoder of short_bch_code_decoder.hh tries to flip. *)
From Verif Require Import Cpp.
Local Open Scope Z_scope.

(** Position [q] is weaker than [p]: it has the smaller magnitude; of two equal ones the later counts as weaker. *)
Definition weaker (soft : list Z) (q p : nat) : Prop :=
  Z.abs (nth q soft 0) < Z.abs (nth p soft 0) \/
  (Z.abs (nth q soft 0) = Z.abs (nth p soft 0) /\ (p < q)%nat).
(** [p] is among the [t] weakest positions, and not stronger than the first. *)
Definition weak_position (t : nat) (soft : list Z) (p : nat) : Prop :=
  (p < length soft)%nat /\
  Z.abs (nth p soft 0) <= Z.abs (nth 0 soft 0) /\
  (forall l, NoDup l -> (forall q, In q l -> (q < length soft)%nat /\ weaker soft q p) -> (length l < t)%nat).
