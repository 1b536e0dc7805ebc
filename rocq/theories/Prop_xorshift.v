(** Properties C07-C10: xorshift.hh. *)
From Verif Require Import Cpp Model_xorshift Spec_xorshift Lib_gf2lin Proof_xorshift.
Local Open Scope N_scope.

(** C07 *)
Theorem C07_xorshift32_full_period : full_period 32 xs32.
Proof. exact xs32_period. Qed.
Print Assumptions C07_xorshift32_full_period.

Theorem C07_xorshift32_bijection : forall y, y < 2 ^ 32 ->
  exists x, x < 2 ^ 32 /\ xs32 x = y /\ forall x', x' < 2 ^ 32 -> xs32 x' = y -> x' = x.
Proof. exact (bijection 32 xs32 eq_refl xs32_linear xs32_lt xs32_period). Qed.
Print Assumptions C07_xorshift32_bijection.

Example C07_nonvacuous : 0 < xs32_Y < 2 ^ 32 /\ N.iter 3 xs32 xs32_Y = 2064144800.
Proof. vm_compute. auto. Qed.

(** C08 *)
Theorem C08_xorshift64_full_period : full_period 64 xs64.
Proof. exact xs64_period. Qed.
Print Assumptions C08_xorshift64_full_period.

Theorem C08_xorshift64_bijection : forall y, y < 2 ^ 64 ->
  exists x, x < 2 ^ 64 /\ xs64 x = y /\ forall x', x' < 2 ^ 64 -> xs64 x' = y -> x' = x.
Proof. exact (bijection 64 xs64 eq_refl xs64_linear xs64_lt xs64_period). Qed.
Print Assumptions C08_xorshift64_bijection.

Example C08_nonvacuous : 0 < xs64_X < 2 ^ 64 /\ xs64 xs64_X = 8748534153485358512.
Proof. vm_compute. auto. Qed.

(** C09: the four members hold 32 bit values *)
Theorem C09_xorshift128_period :
  one_cycle (fun s => x1_x s < 2 ^ 32 /\ x1_y s < 2 ^ 32 /\ x1_z s < 2 ^ 32 /\ x1_w s < 2 ^ 32)
    {| x1_x := 0; x1_y := 0; x1_z := 0; x1_w := 0 |}
    (fun s => fst (xs128_next s)) (2 ^ 128 - 1).
Proof. exact xs128_period. Qed.
Print Assumptions C09_xorshift128_period.

Example C09_nonvacuous :
  (x1_x xs128_seed < 2 ^ 32 /\ x1_y xs128_seed < 2 ^ 32 /\ x1_z xs128_seed < 2 ^ 32 /\ x1_w xs128_seed < 2 ^ 32) /\
  xs128_seed <> {| x1_x := 0; x1_y := 0; x1_z := 0; x1_w := 0 |} /\ snd (xs128_next xs128_seed) = 3701687786.
Proof. vm_compute. repeat split; discriminate. Qed.

(** C10: some word of the xorshift part is non-zero *)
Theorem C10_xorwow_period : forall s,
  ww_x s < 2 ^ 32 -> ww_y s < 2 ^ 32 -> ww_z s < 2 ^ 32 -> ww_w s < 2 ^ 32 -> ww_v s < 2 ^ 32 -> ww_d s < 2 ^ 32 ->
  ww_x s <> 0 \/ ww_y s <> 0 \/ ww_z s <> 0 \/ ww_w s <> 0 \/ ww_v s <> 0 ->
  let step := fun s => fst (xorwow_next s) in
  N.iter ((2 ^ 160 - 1) * 2 ^ 32) step s = s /\
  (forall k, 0 < k < (2 ^ 160 - 1) * 2 ^ 32 -> N.iter k step s <> s).
Proof.
  intros s A B C D E F Z. apply xorwow_period; [repeat split; assumption|].
  unfold ww5_of, ww5_zero. intros H. injection H as H1 H2 H3 H4 H5. tauto.
Qed.
Print Assumptions C10_xorwow_period.

Example C10_nonvacuous : ww_x xorwow_seed <> 0 /\ ww_d xorwow_seed < 2 ^ 32 /\ snd (xorwow_next xorwow_seed) = 246875399.
Proof. vm_compute. repeat split; discriminate. Qed.
