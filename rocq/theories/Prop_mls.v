(** Property C11: mls.hh. *)
From Verif Require Import Cpp Model_mls Spec_gf Lib_orbit Lib_gf2poly Lib_gf Proof_mls.
Local Open Scope N_scope.

(** After [k] calls on a generator with register [r] the register is [s]. *)
Definition reaches (poly r : N) (k : nat) (s : N) : Prop :=
  exists outs g, mls_calls k (mls_ctor poly r) = Ok (outs, g) /\ mls_reg g = s.

(** C11: [r0] is whatever the register held before the call. *)
Theorem C11_bad_decides_maximality : forall n poly r0 r : N,
  1 <= n <= 30 -> has_degree poly n -> 0 < r < 2 ^ n ->
  exists b g, mls_bad (mls_ctor poly r0) r = Ok (b, g) /\
    (b = false <->
       reaches poly r (N.to_nat (2 ^ n - 1)) r /\
       forall s, 0 < s < 2 ^ n -> exists k, (k < N.to_nat (2 ^ n - 1))%nat /\ reaches poly r k s).
Proof.
  intros n poly r0 r Hn Hp Hr. rewrite (ctor_st n poly Hn Hp).
  destruct (bad_st n poly Hn Hp r0 r ltac:(lia)) as (b & g & E & H). exists b, g. split; [exact E|].
  rewrite H, (full_iff n poly Hn Hp r Hr). clear H E.
  assert (R : forall k s, reaches poly r k s <-> N.iter (N.of_nat k) (mulx n poly) r = s).
  { intros k s. unfold reaches. rewrite (ctor_st n poly Hn Hp), (calls_st n poly Hn Hp) by lia. split.
    - intros (o & g' & E & <-). injection E as <- <-. reflexivity.
    - intros <-. eexists _, _. split; reflexivity. }
  rewrite R, N2Nat.id. split; intros (H1 & H2); (split; [exact H1|]); intros s Hs; destruct (H2 s Hs) as (k & Hk & E);
    exists k; (split; [exact Hk|]); apply R; exact E.
Qed.
Print Assumptions C11_bad_decides_maximality.


Theorem C11_balanced : forall (n poly r0 r : N) (g : mls),
  1 <= n <= 30 -> has_degree poly n -> 0 < r < 2 ^ n ->
  mls_bad (mls_ctor poly r0) r = Ok (false, g) ->
  exists outs g', mls_calls (N.to_nat (2 ^ n - 1)) (mls_ctor poly r) = Ok (outs, g') /\ mls_reg g' = r /\
    count_occ bool_dec outs true = N.to_nat (2 ^ (n - 1)) /\
    count_occ bool_dec outs false = N.to_nat (2 ^ (n - 1) - 1).
Proof.
  intros n poly r0 r g Hn Hp Hr HB. rewrite (ctor_st n poly Hn Hp) in *.
  destruct (bad_st n poly Hn Hp r0 r ltac:(lia)) as (b & g2 & E & H). rewrite E in HB. injection HB as -> ->.
  destruct (proj1 H eq_refl) as (Hper & Hmin).
  rewrite (calls_st n poly Hn Hp) by lia. eexists _, _. split; [reflexivity|]. cbn [mls_reg st].
  rewrite N2Nat.id. split; [exact Hper|].
  assert (T : count_occ bool_dec (map (fun i => N.testbit (N.iter (N.of_nat i) (mulx n poly) r) (n - 1)) (seq 0 (N.to_nat (2 ^ n - 1)))) true = N.to_nat (2 ^ (n - 1))).
  { rewrite <- (balanced n poly Hn Hp r Hr Hper Hmin), <- count_map_testbit. unfold orbit. rewrite map_map. reflexivity. }
  split; [exact T|].
  assert (C : forall l, (count_occ bool_dec l true + count_occ bool_dec l false = length l)%nat).
  { induction l as [|[] l IH]; cbn [count_occ length]; [reflexivity| |]; destruct (bool_dec _ _), (bool_dec _ _); try discriminate; lia. }
  match goal with |- count_occ _ ?l false = _ => pose proof (C l) as CL end.
  rewrite map_length, seq_length, T in CL.
  assert (2 ^ n = 2 * 2 ^ (n - 1)) by (rewrite <- N.pow_succ_r'; f_equal; lia).
  assert (0 < 2 ^ (n - 1)) by (apply N.neq_0_lt_0, N.pow_nonzero; lia). lia.
Qed.
Print Assumptions C11_balanced.

(** x^5+x^2+1 is accepted, x^4+x^3+x^2+x+1 (irreducible but of order 5) is not. *)
Example C11_nonvacuous :
  (exists g, mls_bad (mls_ctor 37 1) 1 = Ok (false, g)) /\ has_degree 37 5 /\
  (exists g, mls_bad (mls_ctor 31 1) 1 = Ok (true, g)) /\ has_degree 31 4.
Proof. unfold has_degree. repeat split; try (eexists; vm_compute; reflexivity); vm_compute; congruence. Qed.
