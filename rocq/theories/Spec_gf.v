(** Specification vocabulary for C11, C20-C22: binary polynomials.  A number stands for the polynomial
    over GF(2) whose coefficient of x^i is bit i. *)
From Coq Require Import NArith List.
Local Open Scope N_scope.

(** product of binary polynomials ("carry-less" multiplication) *)
Fixpoint clmul_pos (p : positive) (b : N) : N :=
  match p with
  | xH => b
  | xO q => 2 * clmul_pos q b
  | xI q => N.lxor b (2 * clmul_pos q b)
  end.
Definition clmul (a b : N) : N := match a with 0 => 0 | Npos p => clmul_pos p b end.

(** POLY is a polynomial of degree M *)
Definition has_degree (POLY M : N) : Prop := 2 ^ M <= POLY < 2 ^ (M + 1).

(** [r] is the remainder of the product a*b on division by POLY *)
Definition is_product_mod (M POLY a b r : N) : Prop :=
  r < 2 ^ M /\ exists q, clmul a b = N.lxor (clmul q POLY) r.

(** no proper factors *)
Definition irreducible (POLY : N) : Prop :=
  1 < POLY /\ forall p q, clmul p q = POLY -> p = 1 \/ q = 1.

(** powers of x modulo POLY *)
Fixpoint is_power_of_x (M POLY : N) (i : nat) (r : N) : Prop :=
  match i with
  | O => r = 1
  | S i' => exists r', is_power_of_x M POLY i' r' /\ is_product_mod M POLY 2 r' r
  end.

(** [c] is the quotient of a by b *)
Definition is_quotient_mod (M POLY a b c : N) : Prop := c < 2 ^ M /\ is_product_mod M POLY c b a.
(** [d] is a*b+c *)
Definition is_fma_mod (M POLY a b c d : N) : Prop := exists p, is_product_mod M POLY a b p /\ d = N.lxor p c.

(** The field axioms, for numbers below [q]. *)
Definition field_axioms (q : N) (add mul : N -> N -> N) (zero one : N) : Prop :=
  zero < q /\ one < q /\ zero <> one /\
  (forall a b, a < q -> b < q -> add a b < q /\ mul a b < q) /\
  (forall a b, a < q -> b < q -> add a b = add b a /\ mul a b = mul b a) /\
  (forall a b c, a < q -> b < q -> c < q ->
     add (add a b) c = add a (add b c) /\ mul (mul a b) c = mul a (mul b c) /\ mul (add a b) c = add (mul a c) (mul b c)) /\
  (forall a, a < q -> add zero a = a /\ mul one a = a) /\
  (forall a, a < q -> exists b, b < q /\ add b a = zero) /\
  (forall a, a < q -> a <> zero -> exists b, b < q /\ mul b a = one).
