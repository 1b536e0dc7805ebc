(** Lemmas about Model_pf. *)
From Coq Require Import ZifyBool ZifyNat ZifyN Znumtheory.
From Verif Require Import Cpp Model_pf Lib_fermat Lib_prime.
Local Open Scope N_scope.

Section PF.
Variables w P : N.
Hypothesis HP : prime (Z.of_N P).
Hypothesis HW : P < 2 ^ w.
Hypothesis HM : (P - 1) * (P - 1) < 2 ^ w.

Lemma P1 : 1 < P. Proof. apply prime_pos, HP. Qed.
Lemma w_two : 2 * P - 2 < 2 ^ w.
Proof.
  pose proof P1. destruct (N.eq_dec P 2) as [->|]; [exact HW|]. enough (2 * (P - 1) <= (P - 1) * (P - 1)) by lia.
  apply N.mul_le_mono_r. lia.
Qed.
Lemma pf_plus_ok a b : a < P -> b < P -> pf_plus w P a b = (a + b) mod P.
Proof.
  intros Ha Hb. unfold pf_plus, pf_add, pf_reduce, wrap. pose proof w_two. rewrite (N.mod_small (a + b)) by lia. reflexivity.
Qed.
Lemma mul_small a b : a < P -> b < P -> a * b < 2 ^ w.
Proof. intros Ha Hb. enough (a * b <= (P - 1) * (P - 1)) by lia. apply N.mul_le_mono; lia. Qed.
Lemma pf_times_ok a b : a < P -> b < P -> pf_times w P a b = (a * b) mod P.
Proof. intros Ha Hb. unfold pf_times, pf_mul, pf_reduce, wrap. rewrite (N.mod_small (a * b)) by (apply mul_small; assumption). reflexivity. Qed.
Lemma pf_sub_ok a b : a < P -> b < P -> pf_sub w P a b = if a <? b then a + P - b else a - b.
Proof.
  intros Ha Hb. unfold pf_sub, wrap. destruct (N.ltb_spec a b) as [H|H].
  - rewrite (N.mod_small (a + _)) by lia. replace (a + (2 ^ w - b) + P) with (a + P - b + 1 * 2 ^ w) by lia.
    rewrite N.mod_add by lia. apply N.mod_small. lia.
  - replace (a + (2 ^ w - b)) with (a - b + 1 * 2 ^ w) by lia. rewrite N.mod_add by lia. rewrite N.add_0_r, !N.mod_small; rewrite ?N.mod_small; lia.
Qed.
Lemma pf_minus_ok a b : a < P -> b < P -> pf_minus w P a b < P /\ (pf_minus w P a b + b) mod P = a.
Proof.
  intros Ha Hb. unfold pf_minus, pf_reduce. rewrite pf_sub_ok by assumption. destruct (N.ltb_spec a b) as [H|H].
  - rewrite (N.mod_small (a + P - b)) by lia. split; [lia|]. replace (a + P - b + b) with (a + 1 * P) by lia. rewrite N.mod_add by lia. apply N.mod_small; lia.
  - rewrite (N.mod_small (a - b)) by lia. split; [lia|]. replace (a - b + b) with a by lia. apply N.mod_small; lia.
Qed.
Lemma pf_opp_ok a : a < P -> pf_opp w P a < P /\ (pf_opp w P a + a) mod P = 0.
Proof.
  intros Ha. unfold pf_opp, pf_reduce, pf_neg, wrap. replace (P + (2 ^ w - a)) with (P - a + 1 * 2 ^ w) by lia. rewrite N.mod_add by lia.
  rewrite (N.mod_small (P - a)) by lia. split; [apply N.mod_lt; lia|]. rewrite N.add_mod_idemp_l by lia. replace (P - a + a) with P by lia. apply N.mod_same. lia.
Qed.
Lemma pf_pow_ok a m : a < P -> m < 2 ^ w -> pf_pow w P a m = Ok (a ^ m mod P).
Proof.
  intros Ha Hm. pose proof P1 as H1. unfold pf_pow.
  edestruct (while_inv (fun '((m', x, t) : N * N * N) => x < P /\ t < P /\ m' < 2 ^ w /\ (t * x ^ m') mod P = a ^ m mod P)
    (fun '((m', x, t) : N * N * N) => N.to_nat (N.size m'))) as (s & E & I & C).
  4: { rewrite E. destruct s as ((m' & x) & t). destruct I as (Hx & Ht & Hm' & HI). injection C as C. apply negb_false_iff, N.eqb_eq in C. subst m'.
       cbn [bind]. rewrite N.pow_0_r, N.mul_1_r, (N.mod_small t) in HI by assumption. rewrite HI. reflexivity. }
  - intros ((m' & x) & t) (Hx & Ht & Hm' & HI). cbv beta iota. eexists. split; [reflexivity|]. intros C. apply negb_true_iff, N.eqb_neq in C.
    eexists. split; [reflexivity|]. rewrite <- N.div2_spec. split.
    + assert (D : m' = 2 * N.div2 m' + N.b2n (N.odd m')) by (apply N.div2_odd).
      split; [rewrite pf_times_ok by assumption; apply N.mod_lt; lia|].
      split; [destruct (N.odd m'); [rewrite pf_times_ok by assumption; apply N.mod_lt; lia|assumption]|].
      split; [lia|].
      rewrite <- HI, (pf_times_ok x x) by assumption. assert (DX : x ^ m' = x ^ (2 * N.div2 m' + N.b2n (N.odd m'))) by (f_equal; exact D). rewrite DX, N.pow_add_r, N.pow_mul_r.
      rewrite <- N.mul_mod_idemp_r by lia. rewrite pow_mod_l by lia. rewrite N.mul_mod_idemp_r by lia.
      replace (x ^ 2) with (x * x) by (rewrite N.pow_2_r; reflexivity).
      destruct (N.odd m').
      * rewrite pf_times_ok by assumption. rewrite N.mul_mod_idemp_l by lia. change (N.b2n true) with 1. rewrite N.pow_1_r. f_equal. lia.
      * change (N.b2n false) with 0. rewrite N.pow_0_r, N.mul_1_r. reflexivity.
    + destruct (N.eq_dec (N.div2 m') 0) as [->|Z]; [destruct m'; [congruence|cbn; lia]|].
      rewrite !N.size_log2 by assumption.
      assert (L : N.log2 (N.div2 m') < N.log2 m').
      { assert (D : m' = 2 * N.div2 m' + N.b2n (N.odd m')) by (apply N.div2_odd).
        rewrite D at 2. destruct (N.odd m'); cbn [N.b2n].
        - rewrite N.log2_succ_double by lia. lia.
        - rewrite N.add_0_r, N.log2_double by lia. lia. }
      lia.
  - split; [assumption|]. split; [exact H1|]. split; [assumption|]. rewrite N.mul_1_l. reflexivity.
  - cbv beta iota. destruct (N.eq_dec m 0) as [->|Z]; [cbn; lia|]. rewrite N.size_log2 by assumption.
    assert (N.log2 m < w) by (apply N.log2_lt_pow2; lia). lia.
Qed.
Lemma pf_rcp_ok b : b <> 0 -> b < P -> exists r, pf_rcp w P b = Ok r /\ r < P /\ (r * b) mod P = 1.
Proof.
  intros Nb Hb. pose proof P1. unfold pf_rcp.
  assert (E : wrap w (P + (2 ^ w - 2)) = P - 2).
  { unfold wrap. destruct (N.eq_dec (2 ^ w) 1) as [Z|Z]; [lia|].
    replace (P + (2 ^ w - 2)) with (P - 2 + 1 * 2 ^ w) by lia. rewrite N.mod_add by lia. apply N.mod_small. lia. }
  rewrite E, pf_pow_ok by (try assumption; lia). eexists. split; [reflexivity|]. split; [apply N.mod_lt; lia|].
  rewrite N.mul_mod_idemp_l by lia. replace (b ^ (P - 2) * b) with (b ^ (P - 1)).
  - apply fermat_1; [exact HP|]. rewrite N.mod_small by assumption. exact Nb.
  - replace (P - 1) with (N.succ (P - 2)) by lia. rewrite N.pow_succ_r'. lia.
Qed.
Lemma pf_over_ok a b : b <> 0 -> a < P -> b < P -> exists q, pf_over w P a b = Ok q /\ q < P /\ (q * b) mod P = a.
Proof.
  intros Nb Ha Hb. pose proof P1. destruct (pf_rcp_ok b Nb Hb) as (r & E & Hr & Hm). unfold pf_over, pf_div. rewrite E. cbn [bind].
  eexists. split; [reflexivity|]. fold (pf_times w P a r). rewrite pf_times_ok by assumption. split; [apply N.mod_lt; lia|].
  rewrite N.mul_mod_idemp_l, <- N.mul_assoc by lia. rewrite <- N.mul_mod_idemp_r, Hm by lia. rewrite N.mul_1_r. apply N.mod_small. assumption.
Qed.
End PF.
