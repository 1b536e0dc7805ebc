(** Specification vocabulary for C32-C35 and C55: Reed-Solomon codes.  Symbols are numbers below 2^M, that is residues of
    binary polynomials modulo POLY (Spec_gf); "x" is the primitive element the code uses. *)
From Coq Require Import NArith List.
From Verif Require Import Spec_gf.
Import ListNotations.
Local Open Scope N_scope.

(** [v] is the value at [x] of the polynomial with the coefficients [l], the first one being the highest
    ([acc] is the value of the coefficients already consumed) *)
Fixpoint value_at (M POLY x acc : N) (l : list N) (v : N) : Prop :=
  match l with
  | [] => v = acc
  | c :: l' => exists p, is_product_mod M POLY x acc p /\ value_at M POLY x (N.lxor p c) l' v
  end.
(** a word vanishing at the NR consecutive powers of x from x^FCR *)
Definition rs_codeword (M POLY : N) (NR FCR : nat) (w : list N) : Prop :=
  Forall (fun c => c < 2 ^ M) w /\
  forall i, (i < NR)%nat -> exists r, is_power_of_x M POLY (FCR + i) r /\ value_at M POLY r 0 w 0.

(** the positions at which two words of the same length differ *)
Definition differing (u v : list N) : list nat := filter (fun t => negb (nth t u 0 =? nth t v 0)) (seq 0 (length u)).
(** those not among the positions declared as erased: the errors *)
Definition errors_outside (er : list N) (u v : list N) : list nat :=
  filter (fun t => negb (existsb (N.eqb (N.of_nat t)) er)) (differing u v).

(** Two positions a, b of a word of n symbols.  Xa = x^(n-1-a) and Xb = x^(n-1-b) satisfy
    Xa Xb = N (Xa + Xb)^2 where N is the symbol with all bits set. *)
Definition unlucky_pair (M POLY : N) (n a b : nat) : Prop :=
  exists xa xb p s q, is_power_of_x M POLY (n - 1 - a) xa /\ is_power_of_x M POLY (n - 1 - b) xb /\
    is_product_mod M POLY xa xb p /\ s = N.lxor xa xb /\ is_product_mod M POLY s s q /\ is_product_mod M POLY (2 ^ M - 1) q p.
(** such pairs exist only if the equation y(y+1) = N has a solution *)
Definition solvable (M POLY : N) : Prop := exists y, y < 2 ^ M /\ is_product_mod M POLY y (N.lxor y 1) (2 ^ M - 1).
