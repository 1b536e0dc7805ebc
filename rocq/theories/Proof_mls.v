From Coq Require Import Permutation ZifyBool ZifyNat ZifyN.
From Verif Require Import Cpp Model_mls Spec_gf Lib_orbit Lib_gf2lin Lib_gf2poly Lib_gf.
Local Open Scope N_scope.

Lemma smear k x y : (forall i, N.testbit y i = true <-> exists j, j < k /\ N.testbit x (i + j) = true) ->
  forall i, N.testbit (N.lor y (N.shiftr y k)) i = true <-> exists j, j < 2 * k /\ N.testbit x (i + j) = true.
Proof.
  intros H i. rewrite N.lor_spec, N.shiftr_spec', orb_true_iff, !H. split.
  - intros [(j & Hj & E)|(j & Hj & E)]; [exists j; split; [lia|exact E]|].
    exists (k + j). split; [lia|]. rewrite <- E. f_equal. lia.
  - intros (j & Hj & E). destruct (N.lt_ge_cases j k) as [L|L]; [left; exists j; auto|].
    right. exists (j - k). split; [lia|]. rewrite <- E. f_equal. lia.
Qed.

Lemma hibit_ok n : 0 < n < 2 ^ 32 -> hibit n = 2 ^ N.log2 n.
Proof.
  intros Hn. unfold hibit. cbv zeta. rewrite wrap_small by lia.
  set (y := N.lor _ (N.shiftr _ 16)).
  assert (H : forall i, N.testbit y i = true <-> exists j, j < 32 /\ N.testbit n (i + j) = true).
  { unfold y. change 32 with (2 * 16). apply smear. change 16 with (2 * 8) at 1. apply smear.
    change 8 with (2 * 4) at 1. apply smear. change 4 with (2 * 2) at 1. apply smear. change 2 with (2 * 1) at 1. apply smear.
    intros i. split; [intros E; exists 0; rewrite N.add_0_r; split; [lia|exact E]|].
    intros (j & Hj & E). replace j with 0 in E by lia. rewrite N.add_0_r in E. exact E. }
  assert (HL : N.log2 n < 32) by (apply N.log2_lt_pow2; lia).
  assert (G : forall i, N.testbit y i = (i <=? N.log2 n)).
  { intros i. apply eq_true_iff_eq. rewrite H, N.leb_le. split.
    - intros (j & Hj & E). destruct (N.le_gt_cases i (N.log2 n)) as [|L]; [assumption|].
      rewrite N.bits_above_log2 in E by lia. discriminate.
    - intros L. exists (N.log2 n - i). split; [lia|]. replace (i + (N.log2 n - i)) with (N.log2 n) by lia.
      apply N.bit_log2. lia. }
  apply N.bits_inj. intros i. rewrite N.lxor_spec, N.shiftr_spec', !G, N.pow2_bits_eqb.
  destruct (N.eqb_spec (N.log2 n) i), (N.leb_spec i (N.log2 n)), (N.leb_spec (i + 1) (N.log2 n)); try reflexivity; lia.
Qed.

Section Mls.
Variables n poly : N.
Hypothesis Hn : 1 <= n <= 30.
Hypothesis Hp : has_degree poly n.
Notation nx := (mulx n poly).

Lemma p_log : N.log2 poly = n /\ 0 < poly < 2 ^ 32.
Proof.
  destruct (P_log n poly ltac:(lia) Hp) as (E & H). split; [exact E|]. split; [lia|].
  destruct Hp as (_ & H2). eapply N.lt_le_trans; [exact H2|]. apply N.pow_le_mono_r; lia.
Qed.
Definition st (r : N) : mls := {| mls_poly := poly; mls_test := 2 ^ (n - 1); mls_reg := r |}.
Lemma ctor_st r : mls_ctor poly r = st r.
Proof.
  destruct p_log as (E & H). unfold mls_ctor, st. rewrite hibit_ok by exact H. rewrite E.
  rewrite N.shiftr_div_pow2, <- N.pow_sub_r by lia. reflexivity.
Qed.
Lemma next_st r : r < 2 ^ n -> mls_next (st r) = Ok (N.testbit r (n - 1), st (nx r)).
Proof.
  intros Hr. unfold mls_next, st. cbn [mls_reg mls_test mls_poly mls_reset].
  assert (B : 2 ^ n <= 2 ^ 30) by (apply N.pow_le_mono_r; lia).
  destruct (N.ltb_spec (2 * r) (2 ^ 31)) as [_|L]; [|change (2 ^ 31) with (2 * 2 ^ 30) in L; lia]. cbn [require bind].
  assert (F : negb (N.land r (2 ^ (n - 1)) =? 0) = N.testbit r (n - 1)).
  { destruct (N.testbit r (n - 1)) eqn:T.
    - destruct (N.eqb_spec (N.land r (2 ^ (n - 1))) 0) as [E|E]; [|reflexivity].
      apply (f_equal (fun z => N.testbit z (n - 1))) in E. rewrite N.land_spec, T, N.pow2_bits_true, N.bits_0 in E. discriminate.
    - replace (N.land r (2 ^ (n - 1))) with 0; [reflexivity|]. symmetry. apply N.bits_inj. intros i.
      rewrite N.land_spec, N.pow2_bits_eqb, N.bits_0. destruct (N.eqb_spec (n - 1) i) as [<-|]; [rewrite T; reflexivity|apply andb_false_r]. }
  rewrite F. do 2 f_equal. unfold mls_reset. cbn [mls_poly mls_test]. f_equal.
  rewrite nx_alt. unfold dbl. f_equal. replace (N.testbit (2 * r) n) with (N.testbit r (n - 1)); [reflexivity|].
  change (2 * r) with (dbl r). rewrite dbl_shiftl, N.shiftl_spec_high' by lia. reflexivity.
Qed.
Lemma nx_lt' r : r < 2 ^ n -> nx r < 2 ^ n.
Proof. apply nx_lt; [lia|exact Hp]. Qed.
Lemma iter_lt k r : r < 2 ^ n -> N.iter k nx r < 2 ^ n.
Proof. apply (iter_inv (fun x => x < 2 ^ n) nx nx_lt'). Qed.

Lemma calls_st k : forall r, r < 2 ^ n ->
  mls_calls k (st r) = Ok (map (fun i => N.testbit (N.iter (N.of_nat i) nx r) (n - 1)) (seq 0 k), st (N.iter (N.of_nat k) nx r)).
Proof.
  induction k as [|k IH]; intros r Hr; [reflexivity|]. cbn [mls_calls]. rewrite next_st by exact Hr. cbn [bind].
  rewrite IH by (apply nx_lt'; exact Hr). cbn [bind seq map]. do 2 f_equal.
  - f_equal. rewrite <- seq_shift, map_map. apply map_ext. intros i.
    rewrite Nat2N.inj_succ, iter_succ_r. reflexivity.
  - rewrite Nat2N.inj_succ, iter_succ_r. reflexivity.
Qed.

Notation Q1 := (2 ^ n - 1).
Lemma Q1p : 0 < Q1. Proof. pose proof (one_lt n ltac:(lia)). lia. Qed.
Lemma bad_st r0 r : r < 2 ^ n ->
  exists b s, mls_bad (st r0) r = Ok (b, s) /\
    (b = false <-> N.iter Q1 nx r = r /\ forall k, 0 < k < Q1 -> N.iter k nx r <> r).
Proof.
  intros Hr. unfold mls_bad. change (mls_reset (st r0) r) with (st r). cbn [mls_poly st].
  destruct p_log as (E & H). rewrite hibit_ok by exact H. rewrite E. pose proof Q1p as HQ.
  change (mls_reset (st r0) r) with (st r).
  edestruct (for_ret_inv (fun i s => s = st (N.iter (N.of_nat i - 1) nx r) /\ forall k, 0 < k < N.of_nat i -> N.iter k nx r <> r)
     (fun v : bool * mls => fst v = true /\ exists k, 0 < k < Q1 /\ N.iter k nx r = r)) as (x & Ex & Hx).
  4: { rewrite Ex. cbn [bind]. destruct x as [s|(b & s)].
       - destruct Hx as (-> & HK). rewrite next_st by (apply iter_lt; exact Hr). cbn [bind mls_reg st].
         rewrite <- N.iter_succ. replace (N.succ (N.of_nat (N.to_nat Q1) - 1)) with Q1 by lia.
         eexists _, _. split; [reflexivity|]. cbn [fst mls_reg].
         destruct (N.eqb_spec (N.iter Q1 nx r) r) as [Er|Er]; cbn [negb]; split; try discriminate.
         + intros _. split; [exact Er|]. intros k Hk. apply HK. lia.
         + reflexivity.
         + intros (Er' & _). contradiction.
       - destruct Hx as (Hb & k & Hk & Ek). cbn [fst] in Hb. subst b. eexists _, _. split; [reflexivity|]. split; [discriminate|].
         intros (_ & Hmin). destruct (Hmin k Hk Ek). }
  - lia.
  - intros j s Hj (-> & HK). rewrite next_st by (apply iter_lt; exact Hr). cbn [bind]. cbn [mls_reg st].
    rewrite <- N.iter_succ. replace (N.succ (N.of_nat j - 1)) with (N.of_nat j) by lia.
    destruct (N.eqb_spec (N.iter (N.of_nat j) nx r) r) as [Er|Er].
    + eexists. split; [reflexivity|]. cbv beta iota. split; [reflexivity|]. exists (N.of_nat j). split; [lia|exact Er].
    + eexists. split; [reflexivity|]. cbv beta iota. split; [f_equal; f_equal; lia|].
      intros k Hk. destruct (N.eq_dec k (N.of_nat j)) as [->|]; [exact Er|apply HK; lia].
  - cbv beta. split; [reflexivity|]. intros k Hk. lia.
Qed.

(** counting *)
Definition range (a c : nat) : list N := map N.of_nat (seq a c).
Lemma filter_range_all f a c : (forall i, (a <= i < a + c)%nat -> f (N.of_nat i) = true) -> length (filter f (range a c)) = c.
Proof.
  revert a; induction c as [|c IH]; intros a H; [reflexivity|]. unfold range. cbn [seq map filter].
  rewrite H by lia. cbn [length]. f_equal. apply IH. intros i Hi. apply H. lia.
Qed.
Lemma filter_range_none f a c : (forall i, (a <= i < a + c)%nat -> f (N.of_nat i) = false) -> length (filter f (range a c)) = 0%nat.
Proof.
  revert a; induction c as [|c IH]; intros a H; [reflexivity|]. unfold range. cbn [seq map filter].
  rewrite H by lia. apply IH. intros i Hi. apply H. lia.
Qed.
Lemma top_count : length (filter (fun s => N.testbit s (n - 1)) (range 1 (N.to_nat Q1))) = N.to_nat (2 ^ (n - 1)).
Proof.
  assert (E : 2 ^ n = 2 * 2 ^ (n - 1)) by (rewrite <- N.pow_succ_r'; f_equal; lia).
  assert (P0 : 0 < 2 ^ (n - 1)) by (apply N.neq_0_lt_0, N.pow_nonzero; lia).
  replace (N.to_nat Q1) with ((N.to_nat (2 ^ (n - 1)) - 1) + N.to_nat (2 ^ (n - 1)))%nat by lia.
  unfold range. rewrite seq_app, map_app, filter_app, app_length.
  fold (range 1 (N.to_nat (2 ^ (n - 1)) - 1)). fold (range (1 + (N.to_nat (2 ^ (n - 1)) - 1)) (N.to_nat (2 ^ (n - 1)))).
  rewrite filter_range_none, filter_range_all; [lia| |].
  - intros i Hi. assert (L : N.log2 (N.of_nat i) = n - 1).
    { apply N.log2_unique; [lia|]. replace (N.succ (n - 1)) with n by lia. lia. }
    rewrite <- L. apply N.bit_log2. lia.
  - intros i Hi. apply (tb_ge _ (n - 1)); lia.
Qed.
Lemma NoDup_range a c : NoDup (range a c).
Proof. apply FinFun.Injective_map_NoDup; [intros x y; lia|apply seq_NoDup]. Qed.
Lemma in_range a c z : In z (range a c) <-> N.of_nat a <= z < N.of_nat (a + c).
Proof.
  unfold range. rewrite in_map_iff. split.
  - intros (k & <- & Hk). apply in_seq in Hk. lia.
  - intros Hz. exists (N.to_nat z). split; [lia|]. apply in_seq. lia.
Qed.
Definition orbit (r : N) : list N := map (fun i => N.iter (N.of_nat i) nx r) (seq 0 (N.to_nat Q1)).
Lemma nz_orbit r : 0 < r < 2 ^ n -> N.iter Q1 nx r = r -> forall k, 0 < N.iter k nx r <= Q1.
Proof.
  intros Hr Hper k. pose proof (iter_lt k r ltac:(lia)). split; [|lia].
  destruct (N.eq_dec (N.iter k nx r) 0) as [E|]; [|lia]. exfalso.
  assert (F : forall j, N.iter (j + k) nx r = 0).
  { intros j. rewrite iter_plus, E. induction j using N.peano_ind; [reflexivity|]. rewrite N.iter_succ, IHj. apply linear_0, linear_nx. }
  pose proof Q1p as HQ. pose proof (iter_mult nx k Q1 r Hper) as G.
  specialize (F (k * Q1 - k)). replace (k * Q1 - k + k) with (k * Q1) in F by nia. lia.
Qed.
Lemma full_iff r : 0 < r < 2 ^ n ->
  (N.iter Q1 nx r = r /\ forall k, 0 < k < Q1 -> N.iter k nx r <> r) <->
  (N.iter Q1 nx r = r /\ forall s, 0 < s < 2 ^ n -> exists k, (k < N.to_nat Q1)%nat /\ N.iter (N.of_nat k) nx r = s).
Proof.
  intros Hr. pose proof Q1p as HQ. split; intros (Hper & H); (split; [exact Hper|]).
  - intros s Hs. destruct (orbit_covers nx r Q1 (nz_orbit r Hr Hper) Hper H s) as (k & Hk & E); [lia|].
    exists (N.to_nat k). rewrite N2Nat.id. split; [lia|exact E].
  - assert (ND : NoDup (orbit r)).
    { apply (@NoDup_incl_NoDup N (range 1 (N.to_nat Q1)) (orbit r)).
      - apply NoDup_range.
      - unfold orbit, range. rewrite !map_length, !seq_length. lia.
      - intros s Hs. apply in_range in Hs. destruct (H s) as (k & Hk & <-); [lia|].
        unfold orbit. apply in_map_iff. exists k. split; [reflexivity|]. apply in_seq. lia. }
    intros k Hk E. unfold orbit in ND. pose proof (proj1 (NoDup_nth _ 0) ND) as ND'. clear ND. rename ND' into ND.
    specialize (ND (N.to_nat k) 0%nat). rewrite map_length, seq_length in ND.
    rewrite !nth_map_seq0 in ND by lia. rewrite N2Nat.id in ND. cbn in ND.
    specialize (ND ltac:(lia) ltac:(lia) E). lia.
Qed.
Lemma balanced r : 0 < r < 2 ^ n -> N.iter Q1 nx r = r -> (forall k, 0 < k < Q1 -> N.iter k nx r <> r) ->
  length (filter (fun s => N.testbit s (n - 1)) (orbit r)) = N.to_nat (2 ^ (n - 1)).
Proof.
  intros Hr Hper Hmin. rewrite <- top_count.
  assert (P : Permutation (range 1 (N.to_nat Q1)) (orbit r)).
  { apply NoDup_Permutation_bis; [apply NoDup_range| |].
    - unfold orbit, range. rewrite !map_length, !seq_length. lia.
    - intros s Hs. apply in_range in Hs.
      destruct (proj1 (full_iff r Hr) (conj Hper Hmin)) as (_ & H). destruct (H s) as (k & Hk & <-); [lia|].
      unfold orbit. apply in_map_iff. exists k. split; [reflexivity|]. apply in_seq. lia. }
  apply Permutation_length. clear - P. induction P; cbn [filter]; try reflexivity.
  - destruct (N.testbit x (n - 1)); [constructor|]; assumption.
  - destruct (N.testbit x (n - 1)), (N.testbit y (n - 1)); try constructor; apply Permutation_refl.
  - etransitivity; eassumption.
Qed.
Lemma count_map_testbit (l : list N) i :
  count_occ bool_dec (map (fun s => N.testbit s i) l) true = length (filter (fun s => N.testbit s i) l).
Proof.
  induction l as [|x l IH]; [reflexivity|]. cbn [map count_occ filter]. destruct (bool_dec (N.testbit x i) true) as [E|E].
  - rewrite E. cbn [length]. rewrite IH. reflexivity.
  - apply not_true_is_false in E. rewrite E. exact IH.
Qed.
End Mls.
