(** Primality certificates (Pocklington with one prime factor).  General mathematics. *)
From Coq Require Import List ZArith NArith Lia Bool Znumtheory ZifyBool ZifyNat ZifyN.
From Verif Require Import Lib_orbit Lib_fermat.
Import ListNotations.
Local Open Scope N_scope.

Lemma prime_pos p : prime (Z.of_N p) -> 1 < p.
Proof. intros [H _]. lia. Qed.

Lemma divide_Z_N a b : (Z.of_N a | Z.of_N b)%Z <-> (a | b).
Proof.
  split.
  - intros (c & E). destruct (N.eq_dec a 0) as [->|Ha].
    + exists 0. rewrite Z.mul_0_r in E. lia.
    + exists (Z.to_N c). assert (0 <= c)%Z by nia. apply N2Z.inj. rewrite N2Z.inj_mul, Z2N.id by assumption. exact E.
  - intros (c & ->). exists (Z.of_N c). apply N2Z.inj_mul.
Qed.

Lemma mod0_divide a b : b <> 0 -> (a mod b = 0 <-> (b | a)).
Proof. intros H. apply N.mod_divide. exact H. Qed.

Lemma prime_mult_N p a b : prime (Z.of_N p) -> (p | a * b) -> (p | a) \/ (p | b).
Proof.
  intros Hp H. apply divide_Z_N in H. rewrite N2Z.inj_mul in H. apply prime_mult in H; [|exact Hp].
  destruct H as [H|H]; apply divide_Z_N in H; auto.
Qed.

(** Fermat: a^(p-1) = 1 for a not divisible by p. *)
Lemma fermat_1 p a : prime (Z.of_N p) -> a mod p <> 0 -> a ^ (p - 1) mod p = 1.
Proof.
  intros Hp Ha. pose proof (prime_pos p Hp) as P.
  pose proof (fermat_N p a Hp) as F.
  assert (D : (p | a * (a ^ (p - 1) - 1))).
  { rewrite N.mul_sub_distr_l, N.mul_1_r. replace (a * a ^ (p - 1)) with (a ^ p).
    - apply mod0_divide; [lia|]. 
      assert (A : a <= a ^ p).
      { rewrite <- (N.pow_1_r a) at 1. destruct (N.eq_dec a 0) as [->|]; [rewrite N.pow_0_l; lia|].
        apply N.pow_le_mono_r; lia. }
      apply N2Z.inj. rewrite N2Z.inj_mod, N2Z.inj_sub by exact A.
      apply (f_equal Z.of_N) in F. rewrite !N2Z.inj_mod in F.
      rewrite Zminus_mod, F, Z.sub_diag. apply Z.mod_0_l. lia.
    - replace p with (N.succ (p - 1)) at 1 by lia. apply N.pow_succ_r'. }
  apply prime_mult_N in D; [|exact Hp]. destruct D as [D|D].
  - exfalso. apply Ha. apply mod0_divide; [lia|exact D].
  - destruct D as (c & E).
    assert (a ^ (p - 1) <> 0) by (apply N.pow_nonzero; intros ->; apply Ha; apply N.mod_0_l; lia).
    replace (a ^ (p - 1)) with (1 + c * p) by lia.
    rewrite N.mod_add by lia. apply N.mod_small. lia.
Qed.

Lemma pow_mod_l a e m : m <> 0 -> (a mod m) ^ e mod m = a ^ e mod m.
Proof.
  intros Hm. induction e as [|e IH] using N.peano_ind; [reflexivity|].
  rewrite !N.pow_succ_r', N.mul_mod by exact Hm. rewrite IH, N.mod_mod by exact Hm.
  rewrite <- N.mul_mod by exact Hm. reflexivity.
Qed.

Lemma pow_one a e m : 1 < m -> a mod m = 1 -> a ^ e mod m = 1.
Proof. intros Hm Ha. rewrite <- pow_mod_l, Ha, N.pow_1_l by lia. apply N.mod_small. exact Hm. Qed.

(** order argument *)
Lemma order_divides q b r :
  1 < q -> prime (Z.of_N q) -> prime (Z.of_N r) -> b ^ r mod q = 1 -> b mod q <> 1 -> (r | q - 1).
Proof.
  intros Hq Pq Pr Hr Hb. pose proof (prime_pos r Pr) as R.
  assert (B0 : b mod q <> 0).
  { intros E. rewrite <- pow_mod_l, E, N.pow_0_l, N.mod_0_l in Hr by lia. discriminate. }
  pose proof (fermat_1 q b Pq B0) as F.
  destruct (N.eq_dec (N.gcd r (q - 1)) 1) as [G|G].
  - exfalso. destruct (N.gcd_bezout_pos r (q - 1) ltac:(lia)) as (u & v & E). rewrite G in E.
    apply Hb. 
    assert (X : b ^ (u * r) mod q = 1) by (rewrite N.mul_comm, N.pow_mul_r; apply pow_one; assumption).
    rewrite E, N.pow_add_r, N.pow_1_r in X.
    rewrite N.mul_mod in X by lia.
    replace (b ^ (v * (q - 1)) mod q) with 1 in X
      by (symmetry; rewrite N.mul_comm, N.pow_mul_r; apply pow_one; assumption).
    rewrite N.mul_1_r, N.mod_mod in X by lia. exact X.
  - destruct (N.gcd_divide_l r (q - 1)) as (c & Ec).
    assert (D : (N.gcd r (q - 1) | r)) by apply N.gcd_divide_l.
    apply divide_Z_N in D. apply prime_divisors in D; [|exact Pr].
    assert (N.gcd r (q - 1) = r) by lia. rewrite <- H. apply N.gcd_divide_r.
Qed.

(** modular exponentiation, computable *)
Fixpoint powmod_pos (a : N) (e : positive) (m : N) : N :=
  match e with
  | xH => a mod m
  | xO e' => let b := powmod_pos a e' m in (b * b) mod m
  | xI e' => let b := powmod_pos a e' m in (a * ((b * b) mod m)) mod m
  end.
Lemma powmod_pos_ok a e m : m <> 0 -> powmod_pos a e m = a ^ Npos e mod m.
Proof.
  intros Hm. induction e as [e IH|e IH|]; cbn [powmod_pos]; cbv zeta.
  - rewrite IH. rewrite <- N.mul_mod by exact Hm. rewrite N.mul_mod_idemp_r by exact Hm.
    rewrite <- N.pow_add_r, <- N.pow_succ_r'. f_equal. f_equal. lia.
  - rewrite IH. rewrite <- N.mul_mod by exact Hm. rewrite <- N.pow_add_r. f_equal. f_equal. lia.
  - rewrite N.pow_1_r. reflexivity.
Qed.
Definition powmod (a e m : N) : N := match e with 0 => 1 mod m | Npos p => powmod_pos a p m end.
Lemma powmod_ok a e m : m <> 0 -> powmod a e m = a ^ e mod m.
Proof. intros Hm. destruct e; cbn [powmod]; [reflexivity|apply powmod_pos_ok; exact Hm]. Qed.

(** certificate check for a prime n: r prime, r | n-1, witness a *)
Definition pock (n r a : N) : bool :=
  (2 <? n) && ((n - 1) mod r =? 0) && (powmod a (n - 1) n =? 1) &&
  (N.gcd (powmod a ((n - 1) / r) n + n - 1) n =? 1) &&
  forallb (fun k => negb (n mod (1 + N.of_nat k * r) =? 0)) (seq 1 (N.to_nat (N.sqrt n / r))).

Lemma pock_ok n r a : is_prime r = true -> pock n r a = true -> prime (Z.of_N n).
Proof.
  intros Hr H. apply is_prime_ok in Hr. pose proof (prime_pos r Hr) as R.
  unfold pock in H. repeat (apply andb_prop in H; destruct H as [H ?H]).
  apply N.ltb_lt in H. rename H into Hn. rename H3 into Hdiv. rename H2 into Hp.
  rename H1 into Hg. rename H0 into Hk.
  apply N.eqb_eq in Hdiv, Hp, Hg.
  destruct (prime_dec (Z.of_N n)) as [P|P]; [exact P|exfalso].
  assert (E : exists q, prime (Z.of_N q) /\ q * q <= n /\ (q | n)).
  { destruct (not_prime_divide (Z.of_N n) ltac:(lia) P) as (m & Hm & Hd).
    assert (E : exists q, (1 < q)%Z /\ (q * q <= Z.of_N n)%Z /\ (q | Z.of_N n)%Z).
    { pose proof Hd as (c & Ec). destruct (Z.le_gt_cases (m * m) (Z.of_N n)) as [L|L].
      - exists m. split; [lia|]. split; [exact L|exact Hd].
      - exists c. assert (1 < c)%Z by nia. split; [assumption|]. split; [nia|]. exists m. lia. }
    destruct E as (c & C1 & C2 & C3).
    destruct (prime_divisor_exists c C1) as (q & Pq & Dq).
    assert (Q1 : (1 < q)%Z) by (destruct Pq; assumption).
    assert (Q2 : (q <= c)%Z) by (apply Z.divide_pos_le; [lia|exact Dq]).
    exists (Z.to_N q). rewrite Z2N.id by lia. split; [exact Pq|]. split; [nia|].
    apply divide_Z_N. rewrite Z2N.id by lia. apply Z.divide_trans with c; assumption. }
  destruct E as (q & Pq & Hq2 & Hqn). pose proof (prime_pos q Pq) as Q.
  destruct Hqn as (c & Hc).
  assert (MM : forall x, (x mod n) mod q = x mod q).
  { intros x. rewrite (N.div_mod x n) at 2 by lia. rewrite Hc at 2.
    replace (c * q * (x / n) + x mod n) with (x mod n + (c * (x / n)) * q) by lia.
    rewrite N.mod_add by lia. reflexivity. }
  rewrite powmod_ok in Hp, Hg by lia.
  set (b := a ^ ((n - 1) / r)) in *.
  assert (Hb : b ^ r mod q = 1).
  { unfold b. rewrite <- N.pow_mul_r.
    replace ((n - 1) / r * r) with (n - 1).
    - rewrite <- MM, Hp. apply N.mod_small. exact Q.
    - pose proof (N.div_mod (n - 1) r ltac:(lia)). lia. }
  clearbody b. clear Hp Hdiv.
  assert (Hb1 : b mod q <> 1).
  { intros E. assert (D : (q | N.gcd (b mod n + n - 1) n)).
    - apply N.gcd_greatest.
      + apply mod0_divide; [lia|].
        assert (X : (b mod n) mod q = 1) by (rewrite MM; exact E).
        assert (b mod n <> 0) by (intros Y; rewrite Y, N.mod_0_l in X by lia; discriminate).
        pose proof (N.div_mod (b mod n) q ltac:(lia)) as DM. rewrite X in DM.
        assert (Z1 : b mod n + n - 1 = (b mod n / q + c) * q).
        { revert DM Hc. generalize (b mod n / q). generalize (b mod n). clear. intros; nia. }
        rewrite Z1. apply N.mod_mul. lia.
      + exists c. exact Hc.
    - rewrite Hg in D. apply N.divide_1_r in D. lia. }
  destruct (order_divides q b r Q Pq Hr Hb Hb1) as (k & Ek).
  rewrite forallb_forall in Hk.
  assert (K1 : 1 <= k) by (destruct (N.eq_dec k 0); [subst; lia|lia]).
  assert (K2 : k <= N.sqrt n / r).
  { apply N.div_le_lower_bound; [lia|].
    assert (q <= N.sqrt n) by (apply N.sqrt_le_square; exact Hq2). lia. }
  specialize (Hk (N.to_nat k)). rewrite N2Nat.id in Hk.
  assert (I : In (N.to_nat k) (seq 1 (N.to_nat (N.sqrt n / r)))) by (apply in_seq; lia).
  specialize (Hk I). replace (1 + k * r) with q in Hk by (clear - Ek Q; lia).
  rewrite Hc, N.mod_mul in Hk by (clear - Q; lia). discriminate.
Qed.
