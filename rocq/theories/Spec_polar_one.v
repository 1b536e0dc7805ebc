(** Specification vocabulary for C89: following one path only.  Definitions only; nothing of the model is used. *)
From Coq Require Import List ZArith Arith Bool.
From Verif Require Import Spec_polar Spec_polar_list.
Import ListNotations.
Local Open Scope nat_scope.

(** Successive cancellation for positions with roles: a message symbol is the sign of its value, 1 for a value of zero; a parity symbol is the
    product [par] of the message symbols since the preceding one, whatever its value.  Gives the message, the word and the product at the end. *)
Fixpoint one_path (n : nat) (rs : list role) (par : Z) (soft : list Z) : list Z * list Z * Z :=
  match n with
  | O =>
      let x := if (hd 0 soft <? 0)%Z then (-1)%Z else 1%Z in
      match hd Frozen rs with
      | Frozen => ([], [1%Z], par)
      | Data => ([x], [x], (par * x)%Z)
      | Parity => ([], [par], 1%Z)
      end
  | S m =>
      let h := 2 ^ m in
      let a := firstn h soft in
      let b := skipn h soft in
      let '(m1, x1, par) := one_path m (firstn h rs) par (zip2 combine_left a b) in
      let '(m2, x2, par) := one_path m (skipn h rs) par (zip3 combine_right x1 a b) in
      (m1 ++ m2, zip2 Z.mul x1 x2 ++ x2, par)
  end.
