(** Model of prime_field.hh.  Definitions only.
    [w] is the number of bits of the unsigned type TYPE, [P] the prime.  TYPE is at least as wide as [int]
    (for narrower types the operands would be promoted to int), so the arithmetic is modulo 2^w.
    A PrimeField object is its member [v]. *)
From Verif Require Import Cpp.
Local Open Scope N_scope.

(** prime_field.hh:43-47 reduce *)
Definition pf_reduce (P a : N) : N := a mod P.
(** prime_field.hh:49-59 == and != *)
Definition pf_eq (a b : N) : bool := a =? b.
Definition pf_neq (a b : N) : bool := negb (a =? b).
(** prime_field.hh:61-65 add; 67-71 operator + *)
Definition pf_add (w a b : N) : N := wrap w (a + b).
Definition pf_plus (w P a b : N) : N := pf_reduce P (pf_add w a b).
(** prime_field.hh:73-77 sub; 79-83 operator -.  Unsigned a - b is a + (2^w - b) modulo 2^w. *)
Definition pf_sub (w P a b : N) : N := wrap w (wrap w (a + (2 ^ w - b)) + (if a <? b then P else 0)).
Definition pf_minus (w P a b : N) : N := pf_reduce P (pf_sub w P a b).
(** prime_field.hh:85-89 neg; 91-95 unary operator - *)
Definition pf_neg (w P a : N) : N := wrap w (P + (2 ^ w - a)).
Definition pf_opp (w P a : N) : N := pf_reduce P (pf_neg w P a).
(** prime_field.hh:97-101 mul; 103-107 operator * *)
Definition pf_mul (w a b : N) : N := wrap w (a * b).
Definition pf_times (w P a b : N) : N := pf_reduce P (pf_mul w a b).
(** prime_field.hh:109-117 pow; state (m, a, t); a w bit m is zero after w shifts *)
Definition pf_pow (w P a m : N) : res N :=
  '(_, _, t) <- while_ (S (N.to_nat w))
     (fun '(m, a, t) => Ok (negb (m =? 0)))
     (fun '(m, a, t) =>
        let t := if N.odd m then pf_times w P t a else t in
        Ok (N.shiftr m 1, pf_times w P a a, t))
     (m, a, 1) ;;
  Ok t.
(** prime_field.hh:119-123 rcp; 125-129 div; 131-135 operator / *)
Definition pf_rcp (w P a : N) : res N := pf_pow w P a (wrap w (P + (2 ^ w - 2))).
Definition pf_div (w P a b : N) : res N := r <- pf_rcp w P b ;; Ok (pf_mul w a r).
Definition pf_over (w P a b : N) : res N := d <- pf_div w P a b ;; Ok (pf_reduce P d).
(** prime_field.hh:20-35 the assignment operators: the new value of the left operand *)
Definition pf_times_assign (w P x a : N) : N := pf_times w P x a.
Definition pf_over_assign (w P x a : N) : res N := pf_over w P x a.
Definition pf_plus_assign (w P x a : N) : N := pf_plus w P x a.
Definition pf_minus_assign (w P x a : N) : N := pf_minus w P x a.
