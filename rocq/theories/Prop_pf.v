(** Property C23: prime_field.hh. *)
From Coq Require Import ZifyBool ZifyNat ZifyN Znumtheory.
From Verif Require Import Cpp Model_pf Lib_orbit Lib_fermat Lib_prime Proof_pf.
Local Open Scope N_scope.

(** For every prime P with (P-1)^2 representable in the [w] bit TYPE and operands below P: each operator
    returns a number below P, congruent to the operation on integers.  Subtraction, negation, reciprocal and
    division are stated by what they undo. *)
Theorem C23_ring_operators : forall w P a b, prime (Z.of_N P) -> P < 2 ^ w -> (P - 1) * (P - 1) < 2 ^ w -> a < P -> b < P ->
  pf_plus w P a b = (a + b) mod P /\
  pf_times w P a b = (a * b) mod P /\
  (pf_minus w P a b < P /\ (pf_minus w P a b + b) mod P = a) /\
  (pf_opp w P a < P /\ (pf_opp w P a + a) mod P = 0) /\
  pf_eq a b = (a =? b) /\ pf_neq a b = negb (a =? b).
Proof.
  intros w P a b HP HW HM Ha Hb. pose proof (prime_pos P HP) as H1.
  split; [apply pf_plus_ok; assumption|]. split; [apply pf_times_ok; assumption|].
  split; [apply pf_minus_ok; assumption|]. split; [apply pf_opp_ok; assumption|]. split; reflexivity.
Qed.
Print Assumptions C23_ring_operators.

Theorem C23_pow_rcp_div : forall w P a b m, prime (Z.of_N P) -> P < 2 ^ w -> (P - 1) * (P - 1) < 2 ^ w -> a < P -> b < P -> m < 2 ^ w ->
  pf_pow w P a m = Ok (a ^ m mod P) /\
  (b <> 0 ->
    (exists r, pf_rcp w P b = Ok r /\ r < P /\ (r * b) mod P = 1 /\ pf_times w P r b = 1) /\
    (exists q, pf_over w P a b = Ok q /\ q < P /\ (q * b) mod P = a)).
Proof.
  intros w P a b m HP HW HM Ha Hb Hm. pose proof (prime_pos P HP) as H1.
  split; [apply pf_pow_ok; assumption|]. intros Nb.
  destruct (pf_rcp_ok w P HP HW HM b Nb Hb) as (r & E & Hr & Hm1). split.
  - exists r. repeat split; try assumption. rewrite pf_times_ok by assumption. exact Hm1.
  - destruct (pf_over_ok w P HP HW HM a b Nb Ha Hb) as (q & Eq & Hq & Hq2). exists q. auto.
Qed.
Print Assumptions C23_pow_rcp_div.

(** both instances used by the tests: 257 with 32 bit, 65537 with 64 bit *)
Example C23_nonvacuous : prime (Z.of_N 257) /\ prime (Z.of_N 65537) /\ 256 * 256 < 2 ^ 32 /\ 65536 * 65536 < 2 ^ 64 /\
  pf_minus 32 257 3 200 = 60 /\ pf_rcp 32 257 3 = Ok 86 /\ pf_over 64 65537 1 3 = Ok 21846.
Proof.
  split; [apply is_prime_ok; vm_compute; reflexivity|]. split; [apply is_prime_ok; vm_compute; reflexivity|]. vm_compute. auto.
Qed.

(** the assignment operators: the new value of the left operand [x] *)
Theorem C23_assign_operators : forall w P x a, prime (Z.of_N P) -> P < 2 ^ w -> (P - 1) * (P - 1) < 2 ^ w -> x < P -> a < P ->
  pf_plus_assign w P x a = (x + a) mod P /\
  pf_times_assign w P x a = (x * a) mod P /\
  (pf_minus_assign w P x a < P /\ (pf_minus_assign w P x a + a) mod P = x) /\
  (a <> 0 -> exists q, pf_over_assign w P x a = Ok q /\ q < P /\ (q * a) mod P = x).
Proof.
  intros w P x a HP HW HM Hx Ha. destruct (C23_ring_operators w P x a HP HW HM Hx Ha) as (A & B & C & _).
  split; [exact A|]. split; [exact B|]. split; [exact C|]. intros Hn.
  pose proof (prime_pos P HP) as H1.
  destruct (C23_pow_rcp_div w P x a 0 HP HW HM Hx Ha ltac:(lia)) as (_ & H). apply (H Hn).
Qed.
Print Assumptions C23_assign_operators.
