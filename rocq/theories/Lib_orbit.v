(** Orbits of iterated functions: exact periods from a factorisation of the period.
    General mathematics, no model of code. *)
From Coq Require Import List ZArith NArith Lia Bool Znumtheory ZifyBool ZifyNat ZifyN.
Import ListNotations.
Local Open Scope N_scope.

Lemma iter_plus {A} (f : A -> A) a b x : N.iter (a + b) f x = N.iter a f (N.iter b f x).
Proof.
  induction a as [|a IH] using N.peano_ind; [reflexivity|].
  rewrite N.add_succ_l, !N.iter_succ, IH. reflexivity.
Qed.

Lemma iter_succ_r {A} (f : A -> A) a x : N.iter (N.succ a) f x = N.iter a f (f x).
Proof. rewrite <- N.add_1_r, iter_plus. reflexivity. Qed.

Lemma iter_mult {A} (f : A -> A) a b x : N.iter b f x = x -> N.iter (a * b) f x = x.
Proof.
  intros H. induction a as [|a IH] using N.peano_ind; [reflexivity|].
  rewrite N.mul_succ_l, iter_plus, H. exact IH.
Qed.

Lemma iter_inv {A} (P : A -> Prop) (f : A -> A) : (forall x, P x -> P (f x)) ->
  forall k x, P x -> P (N.iter k f x).
Proof.
  intros H k. induction k as [|k IH] using N.peano_ind; intros x Hx; [exact Hx|].
  rewrite N.iter_succ. apply H, IH, Hx.
Qed.

(** ** Prime factors *)
Definition prod (l : list N) : N := fold_right N.mul 1 l.

Lemma prod_pos l : Forall (fun p => prime (Z.of_N p)) l -> 0 < prod l.
Proof.
  induction 1 as [|p l Hp Hl IH]; cbn [prod fold_right]; [lia|].
  fold (prod l). destruct Hp. assert (0 < p) by lia. apply N.mul_pos_pos; assumption.
Qed.

Lemma prime_divisor_exists (n : Z) : (1 < n)%Z -> exists p, prime p /\ (p | n)%Z.
Proof.
  intros H. assert (P : (0 <= n)%Z) by lia. revert H. pattern n. apply Zlt_0_ind; [|exact P].
  clear n P. intros n IH _ H. destruct (prime_dec n) as [Hp|Hp].
  - exists n. split; [exact Hp|apply Z.divide_refl].
  - destruct (not_prime_divide n H Hp) as (m & Hm & Hd).
    destruct (IH m) as (p & Pp & Pd); [lia|lia|].
    exists p. split; [exact Pp|]. apply Z.divide_trans with m; assumption.
Qed.

Lemma prime_in_list p l :
  prime p -> Forall (fun q => prime (Z.of_N q)) l -> (p | Z.of_N (prod l))%Z ->
  exists q, In q l /\ p = Z.of_N q.
Proof.
  intros Hp Hl. induction Hl as [|q l Hq Hl IH]; cbn [prod fold_right]; intros Hd.
  - destruct Hp as [Hp _]. apply Z.divide_1_r_nonneg in Hd; lia.
  - fold (prod l) in Hd. rewrite N2Z.inj_mul in Hd. apply prime_mult in Hd; [|exact Hp].
    destruct Hd as [Hd|Hd].
    + exists q. split; [left; reflexivity|]. apply prime_div_prime; assumption.
    + destruct (IH Hd) as (r & Hr & E). exists r. split; [right; exact Hr|exact E].
Qed.

Lemma proper_divisor l d :
  Forall (fun q => prime (Z.of_N q)) l -> (d | prod l) -> d < prod l ->
  exists q, In q l /\ (d | prod l / q) /\ q <> 0.
Proof.
  intros Hl (e & E) Hlt. pose proof (prod_pos l Hl) as Hpos.
  assert (Hd : d <> 0) by (intros ->; lia).
  assert (He : 1 < e) by (destruct (N.lt_ge_cases 1 e); [assumption|]; nia).
  destruct (prime_divisor_exists (Z.of_N e)) as (p & Hp & Hdiv); [lia|].
  destruct (prime_in_list p l Hp Hl) as (q & Hq & ->).
  { rewrite E, N2Z.inj_mul. apply Z.divide_mul_l. exact Hdiv. }
  assert (Q0 : q <> 0) by (destruct Hp; lia).
  exists q. split; [exact Hq|]. split; [|exact Q0].
  destruct Hdiv as (c & Ec). exists (Z.to_N c).
  rewrite E. replace e with (Z.to_N c * q).
  - rewrite <- N.mul_assoc, (N.mul_comm q d), N.mul_assoc, N.div_mul by exact Q0. reflexivity.
  - assert (0 <= c)%Z by nia. apply N2Z.inj. rewrite N2Z.inj_mul, Z2N.id by assumption. lia.
Qed.

(** ** Exact period *)
Lemma exact_period {A} (f : A -> A) (x : A) (l : list N) :
  Forall (fun q => prime (Z.of_N q)) l ->
  N.iter (prod l) f x = x ->
  (forall q, In q l -> N.iter (prod l / q) f x <> x) ->
  forall k, 0 < k < prod l -> N.iter k f x <> x.
Proof.
  intros Hl Hn Hq k Hk Hx.
  assert (G : N.iter (N.gcd k (prod l)) f x = x).
  { destruct (N.gcd_bezout_pos k (prod l) (proj1 Hk)) as (a & b & E).
    rewrite <- Hx at 2.
    assert (Ha : N.iter (a * k) f x = x) by (apply iter_mult; exact Hx).
    rewrite E in Ha. rewrite iter_plus in Ha. rewrite (iter_mult f b (prod l) x Hn) in Ha.
    rewrite Ha. symmetry. exact Hx. }
  destruct (proper_divisor l (N.gcd k (prod l)) Hl) as (q & Iq & (c & Ec) & Q0).
  - apply N.gcd_divide_r.
  - apply N.le_lt_trans with k; [|lia]. apply N.divide_pos_le; [lia|apply N.gcd_divide_l].
  - apply (Hq q Iq). rewrite Ec. apply iter_mult. exact G.
Qed.

(** All iterates before the first return are different. *)
Lemma iter_distinct {A} (f : A -> A) (x : A) (n i j : N) :
  N.iter n f x = x -> (forall k, 0 < k < n -> N.iter k f x <> x) ->
  i < n -> j < n -> N.iter i f x = N.iter j f x -> i = j.
Proof.
  assert (G : forall i j, N.iter n f x = x -> (forall k, 0 < k < n -> N.iter k f x <> x) ->
    i < j -> j < n -> N.iter i f x = N.iter j f x -> False).
  { clear i j. intros i j Hn Hmin Hij Hj E.
    assert (E2 : N.iter (n - j) f (N.iter i f x) = x).
    { rewrite E, <- iter_plus. replace (n - j + j) with n by lia. exact Hn. }
    rewrite <- iter_plus in E2. apply (Hmin (n - j + i)); [lia|exact E2]. }
  intros Hn Hmin Hi Hj E. destruct (N.lt_trichotomy i j) as [H|[H|H]]; [|exact H|].
  - exfalso. apply (G i j); auto.
  - exfalso. apply (G j i); auto.
Qed.

Lemma nth_map_seq0 {A} (f : nat -> A) n i d : (i < n)%nat -> nth i (map f (seq 0 n)) d = f i.
Proof.
  intros L. rewrite nth_indep with (d' := f 0%nat) by (rewrite map_length, seq_length; exact L).
  rewrite map_nth, seq_nth by exact L. reflexivity.
Qed.

(** Pigeonhole: an orbit as long as the (finite) set it lives in covers the set. *)
Lemma orbit_covers (f : N -> N) (x n : N) :
  (forall k, 0 < N.iter k f x <= n) ->
  N.iter n f x = x -> (forall k, 0 < k < n -> N.iter k f x <> x) ->
  forall y, 0 < y <= n -> exists k, k < n /\ N.iter k f x = y.
Proof.
  intros Hr Hn Hmin y Hy.
  set (L := map (fun k => N.iter (N.of_nat k) f x) (seq 0 (N.to_nat n))).
  set (U := map N.of_nat (seq 1 (N.to_nat n))).
  assert (IU : forall z, In z U <-> 0 < z <= n).
  { intros z. unfold U. rewrite in_map_iff. split.
    - intros (k & <- & Hk). apply in_seq in Hk. lia.
    - intros Hz. exists (N.to_nat z). split; [lia|]. apply in_seq. lia. }
  assert (HI : incl U L).
  { apply NoDup_length_incl.
    - unfold L. apply NoDup_nth with (d := x). rewrite map_length, seq_length. intros i j Hi Hj.
      rewrite !nth_map_seq0 by assumption. intros E.
      apply (iter_distinct f x n) in E; [lia|exact Hn|exact Hmin|lia|lia].
    - unfold L, U. rewrite !map_length, !seq_length. lia.
    - intros z Hz. unfold L in Hz. apply in_map_iff in Hz. destruct Hz as (k & <- & _).
      apply IU. apply Hr. }
  assert (HyL : In y L) by (apply HI, IU; exact Hy).
  unfold L in HyL. apply in_map_iff in HyL. destruct HyL as (k & <- & Hk).
  apply in_seq in Hk. exists (N.of_nat k). split; [lia|reflexivity].
Qed.

(** ** Primality by trial division *)
Definition trial_step (p : N) (s : N * bool) : N * bool :=
  let '(d, ok) := s in (d + 2, if ok then negb (p mod d =? 0) else false).
Definition trial (cnt p : N) : bool := snd (N.iter cnt (trial_step p) (3, true)).

Lemma trial_spec cnt p : trial cnt p = true ->
  forall k, k < cnt -> p mod (3 + 2 * k) <> 0.
Proof.
  unfold trial.
  assert (G : forall c, let s := N.iter c (trial_step p) (3, true) in
     fst s = 3 + 2 * c /\ (snd s = true -> forall k, k < c -> p mod (3 + 2 * k) <> 0)).
  { induction c as [|c IH] using N.peano_ind; cbv zeta; [split; [reflexivity|intros; lia]|].
    cbv zeta in IH. rewrite N.iter_succ.
    destruct (N.iter c _ _) as [d ok]. cbn [fst snd trial_step] in *. destruct IH as (-> & IH). split; [lia|].
    destruct ok; [|discriminate]. intros Ht k Hk.
    destruct (N.eq_dec k c) as [->|Hne]; [|apply IH; [reflexivity|lia]].
    destruct (N.eqb_spec (p mod (3 + 2 * c)) 0); [discriminate|assumption]. }
  intros H. exact (proj2 (G cnt) H).
Qed.

Definition is_prime (p : N) : bool :=
  (2 <? p) && N.odd p && trial (N.sqrt p / 2) p.

Lemma is_prime_ok p : is_prime p = true -> prime (Z.of_N p).
Proof.
  unfold is_prime. intros H. apply andb_prop in H. destruct H as [H T].
  apply andb_prop in H. destruct H as [H2 Ho]. apply N.ltb_lt in H2.
  destruct (prime_dec (Z.of_N p)) as [Hp|Hp]; [exact Hp|exfalso].
  (* a prime divisor q of p with q * q <= p *)
  assert (E : exists q, (1 < q)%Z /\ (q * q <= Z.of_N p)%Z /\ (q | Z.of_N p)%Z).
  { destruct (not_prime_divide (Z.of_N p) ltac:(lia) Hp) as (m & Hm & Hd).
    pose proof Hd as (c & Ec).
    destruct (Z.le_gt_cases (m * m) (Z.of_N p)) as [L|L].
    - exists m. split; [lia|]. split; [exact L|exact Hd].
    - exists c. assert (1 < c)%Z by nia. split; [assumption|]. split; [nia|].
      exists m. lia. }
  destruct E as (q & Hq1 & Hq2 & (c & Hc)).
  assert (Oq : Z.odd q = true).
  { assert (O : Z.odd (Z.of_N p) = true).
    { revert Ho. destruct p as [|[|[]|]]; cbn; auto. }
    rewrite Hc, Z.odd_mul in O. apply andb_prop in O. apply O. }
  apply Z.odd_spec in Oq. destruct Oq as (k & Hk).
  assert (K : (0 < k)%Z) by lia.
  apply (trial_spec _ _ T (Z.to_N (k - 1))).
  - assert (S : Z.to_N q <= N.sqrt p).
    { apply N.sqrt_le_square. lia. }
    rewrite Hk in S.
    pose proof (N.div_mod (N.sqrt p) 2 ltac:(lia)). pose proof (N.mod_lt (N.sqrt p) 2 ltac:(lia)). lia.
  - replace (3 + 2 * Z.to_N (k - 1)) with (Z.to_N q) by lia.
    replace p with (Z.to_N c * Z.to_N q).
    + apply N.mod_mul. lia.
    + assert (0 <= c)%Z by nia. rewrite <- Z2N.inj_mul by lia. rewrite <- Hc. lia.
Qed.
