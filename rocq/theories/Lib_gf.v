(** Binary polynomials and their residues.  General mathematics, no model of code. *)
From Coq Require Import List ZArith NArith Lia Bool Znumtheory ZifyBool ZifyNat ZifyN.
From Verif Require Import Lib_orbit Lib_gf2lin Lib_gf2poly Spec_gf.
Local Open Scope N_scope.

Definition dbl (x : N) : N := 2 * x.
Lemma dbl_double x : dbl x = N.double x. Proof. unfold dbl. destruct x; reflexivity. Qed.
Lemma dbl_shiftl x : dbl x = N.shiftl x 1.
Proof. unfold dbl. rewrite N.shiftl_mul_pow2. apply N.mul_comm. Qed.
Lemma linear_dbl : linear dbl.
Proof. intros a b. rewrite !dbl_shiftl. apply N.shiftl_lxor. Qed.

Lemma clmul_ev a b : clmul a b = ev dbl a b.
Proof. destruct a as [|p]; [reflexivity|]. cbn. induction p; cbn; rewrite ?IHp; reflexivity. Qed.

Lemma ev_dbl_1 a : ev dbl a 1 = a.
Proof.
  destruct a as [|p]; [reflexivity|]. cbn [ev]. induction p as [p IH|p IH|]; cbn [evp]; rewrite ?IH; reflexivity.
Qed.
Lemma clmul_lxor_l a b c : clmul (N.lxor a b) c = N.lxor (clmul a c) (clmul b c).
Proof. rewrite !clmul_ev. apply ev_lxor, linear_dbl. Qed.
Lemma clmul_lxor_r a b c : clmul a (N.lxor b c) = N.lxor (clmul a b) (clmul a c).
Proof. rewrite !clmul_ev. apply ev_linear, linear_dbl. Qed.
Lemma clmul_comm a b : clmul a b = clmul b a.
Proof.
  rewrite !clmul_ev. rewrite <- (ev_dbl_1 b) at 1. rewrite (ev_comm dbl linear_dbl), ev_dbl_1. reflexivity.
Qed.
Lemma clmul_assoc a b c : clmul (clmul a b) c = clmul a (clmul b c).
Proof.
  rewrite !clmul_ev. rewrite <- (ev_dbl_1 c) at 1. rewrite (ev_comm dbl linear_dbl), ev_dbl_1.
  rewrite (ev_comm dbl linear_dbl). f_equal.
  rewrite <- (ev_dbl_1 b) at 1. rewrite (ev_comm dbl linear_dbl), ev_dbl_1. reflexivity.
Qed.
Lemma clmul_0_l a : clmul 0 a = 0. Proof. reflexivity. Qed.
Lemma clmul_0_r a : clmul a 0 = 0. Proof. rewrite clmul_comm. reflexivity. Qed.
Lemma clmul_1_l a : clmul 1 a = a. Proof. reflexivity. Qed.
Lemma clmul_1_r a : clmul a 1 = a. Proof. rewrite clmul_comm. reflexivity. Qed.
Lemma clmul_2_l a : clmul 2 a = 2 * a. Proof. reflexivity. Qed.
Lemma clmul_dbl_l a b : clmul (2 * a) b = 2 * clmul a b.
Proof. rewrite <- clmul_2_l, clmul_assoc, clmul_2_l. reflexivity. Qed.
Lemma clmul_dbl_r a b : clmul a (2 * b) = 2 * clmul a b.
Proof. rewrite clmul_comm, clmul_dbl_l, clmul_comm. reflexivity. Qed.
Lemma clmul_pow2 k a : clmul (2 ^ k) a = N.shiftl a k.
Proof.
  rewrite N.shiftl_mul_pow2. induction k as [|k IH] using N.peano_ind.
  - rewrite N.pow_0_r, N.mul_1_r. reflexivity.
  - rewrite N.pow_succ_r', clmul_dbl_l, IH. lia.
Qed.
Lemma clmul_shiftl_l a b k : clmul (N.shiftl a k) b = N.shiftl (clmul a b) k.
Proof. rewrite <- !clmul_pow2. apply clmul_assoc. Qed.
Lemma clmul_shiftl_r a b k : clmul a (N.shiftl b k) = N.shiftl (clmul a b) k.
Proof. rewrite clmul_comm, clmul_shiftl_l, clmul_comm. reflexivity. Qed.

Lemma lxor_lt a b w : a < 2 ^ w -> b < 2 ^ w -> N.lxor a b < 2 ^ w.
Proof.
  intros Ha Hb. destruct (N.eq_dec (N.lxor a b) 0) as [E|E]; [rewrite E; apply N.neq_0_lt_0, N.pow_nonzero; lia|].
  apply N.log2_lt_pow2; [lia|]. eapply N.le_lt_trans; [apply N.log2_lxor|].
  destruct (N.eq_dec a 0) as [->|Ea], (N.eq_dec b 0) as [->|Eb].
  - destruct E. reflexivity.
  - rewrite N.log2_nonpos at 1 by lia. rewrite N.max_0_l. apply N.log2_lt_pow2; lia.
  - rewrite (N.log2_nonpos 0) by lia. rewrite N.max_0_r. apply N.log2_lt_pow2; lia.
  - apply N.max_lub_lt; apply N.log2_lt_pow2; lia.
Qed.

Lemma log2_unique_testbit a n : (N.testbit a n = true) -> (forall m, n < m -> N.testbit a m = false) -> N.log2 a = n.
Proof. intros H1 H2. apply N.log2_bits_unique; assumption. Qed.

Lemma clmul_top a b : a <> 0 -> b <> 0 -> clmul a b <> 0 /\ N.log2 (clmul a b) = N.log2 a + N.log2 b.
Proof.
  intros Ha Hb. destruct a as [|p]; [congruence|]. clear Ha. cbn [clmul].
  induction p as [p IHp|p IHp|]; cbn [clmul_pos]; [destruct IHp as (IH0 & IH)|destruct IHp as (IH0 & IH)|].
  - generalize dependent (clmul_pos p b). intros c IH0 IH.
    assert (L2 : N.log2 (2 * c) = N.succ (N.log2 c)) by (apply N.log2_double; lia).
    assert (LP : N.log2 (N.pos p~1) = N.succ (N.log2 (N.pos p))) by (change (N.pos p~1) with (2 * N.pos p + 1); apply N.log2_succ_double; lia).
    assert (L : N.log2 (N.lxor b (2 * c)) = N.log2 (2 * c)).
    { assert (Hlt : N.log2 b < N.log2 (2 * c)) by lia.
      apply log2_unique_testbit.
      - rewrite N.lxor_spec, N.bit_log2 by lia. rewrite N.bits_above_log2 by exact Hlt. reflexivity.
      - intros m Hm. rewrite N.lxor_spec, !N.bits_above_log2 by lia. reflexivity. }
    split; [|lia].
    intros E. rewrite E in L. change (N.log2 0) with 0 in L. lia.
  - generalize dependent (clmul_pos p b). intros c IH0 IH.
    assert (L2 : N.log2 (2 * c) = N.succ (N.log2 c)) by (apply N.log2_double; lia).
    assert (LP : N.log2 (N.pos p~0) = N.succ (N.log2 (N.pos p))) by (change (N.pos p~0) with (2 * N.pos p); apply N.log2_double; lia).
    split; lia.
  - split; [exact Hb|]. cbn. lia.
Qed.
Lemma clmul_eq0 a b : clmul a b = 0 -> a = 0 \/ b = 0.
Proof.
  intros H. destruct (N.eq_dec a 0) as [|Ha]; [auto|]. destruct (N.eq_dec b 0) as [|Hb]; [auto|].
  destruct (clmul_top a b Ha Hb). contradiction.
Qed.
Lemma log2_lt a n : a <> 0 -> (a < 2 ^ n <-> N.log2 a < n).
Proof. intros H. apply N.log2_lt_pow2. lia. Qed.
Lemma lxor_eq0 a b : N.lxor a b = 0 <-> a = b.
Proof. apply N.lxor_eq_0_iff. Qed.

Lemma tb_lt a n : (forall i, n <= i -> N.testbit a i = false) -> a < 2 ^ n.
Proof.
  intros H. destruct (N.eq_dec a 0) as [->|E]; [apply N.neq_0_lt_0, N.pow_nonzero; lia|].
  apply log2_lt; [exact E|]. destruct (N.lt_ge_cases (N.log2 a) n) as [|G]; [assumption|].
  apply H in G. rewrite N.bit_log2 in G by exact E. discriminate.
Qed.
Lemma tb_ge a n i : a < 2 ^ n -> n <= i -> N.testbit a i = false.
Proof.
  intros H Hi. destruct (N.eq_dec a 0) as [->|E]; [apply N.bits_0|]. apply N.bits_above_log2.
  apply log2_lt in H; [lia|exact E].
Qed.

(** ** residues modulo POLY *)
Section Res.
Variables M P : N.
Hypothesis HM : 1 <= M.
Hypothesis HP : has_degree P M.

Notation nx := (mulx M P).
Lemma P_log : N.log2 P = M /\ P <> 0.
Proof.
  destruct HP as (H1 & H2). assert (P <> 0) by (pose proof (N.pow_nonzero 2 M ltac:(lia)); lia). split; [|assumption].
  apply N.log2_unique; lia.
Qed.
Lemma P_bit : N.testbit P M = true.
Proof. destruct P_log as (E & H). rewrite <- E. apply N.bit_log2. exact H. Qed.
Lemma P_high i : M < i -> N.testbit P i = false.
Proof. destruct P_log as (E & H). rewrite <- E. apply N.bits_above_log2. Qed.

Lemma nx_alt w : nx w = N.lxor (dbl w) (if N.testbit (dbl w) M then P else 0).
Proof. unfold mulx. cbv zeta. rewrite <- (dbl_double w). destruct (N.testbit _ _); [reflexivity|]. rewrite N.lxor_0_r. reflexivity. Qed.
Lemma linear_nx : linear nx.
Proof.
  intros a b. rewrite !nx_alt. rewrite linear_dbl, N.lxor_spec.
  apply N.bits_inj. intros i. rewrite !N.lxor_spec.
  destruct (N.testbit (dbl a) M), (N.testbit (dbl b) M); cbn [xorb]; rewrite ?N.bits_0;
  destruct (N.testbit (dbl a) i), (N.testbit (dbl b) i), (N.testbit P i); reflexivity.
Qed.
Lemma nx_lt w : w < 2 ^ M -> nx w < 2 ^ M.
Proof.
  intros H. rewrite nx_alt. apply tb_lt. intros i Hi. rewrite N.lxor_spec.
  assert (D : forall j, M < j -> N.testbit (dbl w) j = false).
  { intros j Hj. rewrite dbl_shiftl, N.shiftl_spec_high' by lia. apply tb_ge with M; [exact H|lia]. }
  destruct (N.eq_dec i M) as [->|E].
  - destruct (N.testbit (dbl w) M); [rewrite P_bit|rewrite N.bits_0]; reflexivity.
  - rewrite D by lia. destruct (N.testbit (dbl w) M); [rewrite P_high by lia|rewrite N.bits_0]; reflexivity.
Qed.

Definition gmul (a b : N) : N := ev nx a b.

Lemma gmul_lt a b : b < 2 ^ M -> gmul a b < 2 ^ M.
Proof.
  intros Hb. unfold gmul. destruct a as [|p]; cbn [ev]; [apply N.neq_0_lt_0, N.pow_nonzero; lia|].
  induction p as [p IH|p IH|]; cbn [evp]; [apply lxor_lt; [exact Hb|]| |exact Hb]; apply nx_lt; exact IH.
Qed.
Lemma gmul_cong a b : exists q, clmul a b = N.lxor (clmul q P) (gmul a b).
Proof.
  unfold gmul. destruct a as [|p]; cbn [ev clmul]; [exists 0; reflexivity|].
  induction p as [p (q & IH)|p (q & IH)|]; cbn [evp clmul_pos].
  - set (t := N.testbit (dbl (evp nx p b)) M).
    exists (N.lxor (2 * q) (if t then 1 else 0)).
    rewrite clmul_lxor_l, clmul_dbl_l, IH. change (2 * N.lxor ?x ?y) with (dbl (N.lxor x y)).
    rewrite linear_dbl, nx_alt. fold t. change (2 * ?x) with (dbl x).
    replace (clmul (if t then 1 else 0) P) with (if t then P else 0) by (destruct t; reflexivity).
    generalize (if t then P else 0). intros z. clear.
    apply N.bits_inj. intros i. rewrite !N.lxor_spec.
    destruct (N.testbit b i), (N.testbit (dbl (clmul q P)) i), (N.testbit (dbl (evp nx p b)) i), (N.testbit z i); reflexivity.
  - set (t := N.testbit (dbl (evp nx p b)) M).
    exists (N.lxor (2 * q) (if t then 1 else 0)).
    rewrite clmul_lxor_l, clmul_dbl_l, IH. change (2 * N.lxor ?x ?y) with (dbl (N.lxor x y)).
    rewrite linear_dbl, nx_alt. fold t. change (2 * ?x) with (dbl x).
    replace (clmul (if t then 1 else 0) P) with (if t then P else 0) by (destruct t; reflexivity).
    generalize (if t then P else 0). intros z. clear.
    apply N.bits_inj. intros i. rewrite !N.lxor_spec.
    destruct (N.testbit (dbl (clmul q P)) i), (N.testbit (dbl (evp nx p b)) i), (N.testbit z i); reflexivity.
  - exists 0. reflexivity.
Qed.
Lemma clP_small q r : clmul q P = r -> r < 2 ^ M -> q = 0.
Proof.
  intros E Hr. destruct (N.eq_dec q 0) as [|Hq]; [assumption|]. exfalso. destruct P_log as (HL & HP0).
  destruct (clmul_top q P Hq HP0) as (H0 & HLq). rewrite E in *. apply log2_lt in Hr; [|exact H0]. lia.
Qed.
(** the remainder is unique *)
Lemma residue_unique x q1 r1 q2 r2 : x = N.lxor (clmul q1 P) r1 -> x = N.lxor (clmul q2 P) r2 ->
  r1 < 2 ^ M -> r2 < 2 ^ M -> r1 = r2.
Proof.
  intros E1 E2 H1 H2.
  assert (E : clmul (N.lxor q1 q2) P = N.lxor r1 r2).
  { rewrite clmul_lxor_l. assert (X : N.lxor (clmul q1 P) r1 = N.lxor (clmul q2 P) r2) by congruence.
    apply N.bits_inj. intros i. apply (f_equal (fun z => N.testbit z i)) in X. rewrite !N.lxor_spec in *.
    destruct (N.testbit (clmul q1 P) i), (N.testbit (clmul q2 P) i), (N.testbit r1 i), (N.testbit r2 i); cbn in *; congruence. }
  pose proof (clP_small _ _ E (lxor_lt _ _ _ H1 H2)) as Z. rewrite Z in E. symmetry in E. apply lxor_eq0. exact E.
Qed.
Lemma gmul_product_mod a b : b < 2 ^ M -> is_product_mod M P a b (gmul a b).
Proof. intros H. split; [apply gmul_lt; exact H|apply gmul_cong]. Qed.
Lemma product_mod_gmul a b r : b < 2 ^ M -> is_product_mod M P a b r -> r = gmul a b.
Proof.
  intros Hb (Hr & q & E). destruct (gmul_cong a b) as (q' & E').
  exact (residue_unique _ _ _ _ _ E E' Hr (gmul_lt a b Hb)).
Qed.

Lemma gmul_lxor_l a b c : gmul (N.lxor a b) c = N.lxor (gmul a c) (gmul b c).
Proof. apply ev_lxor, linear_nx. Qed.
Lemma gmul_lxor_r a b c : gmul a (N.lxor b c) = N.lxor (gmul a b) (gmul a c).
Proof. apply ev_linear, linear_nx. Qed.
Lemma gmul_1_r a : a < 2 ^ M -> gmul a 1 = a.
Proof.
  intros Ha. symmetry. apply product_mod_gmul; [|split; [exact Ha|exists 0]].
  - change 1 with (2 ^ 0). apply N.pow_lt_mono_r; lia.
  - rewrite clmul_1_r. reflexivity.
Qed.
Lemma gmul_1_l a : gmul 1 a = a. Proof. reflexivity. Qed.
Lemma gmul_0_l a : gmul 0 a = 0. Proof. reflexivity. Qed.
Lemma gmul_0_r a : gmul a 0 = 0. Proof. apply linear_0. apply ev_linear, linear_nx. Qed.
Lemma gmul_comm a b : a < 2 ^ M -> b < 2 ^ M -> gmul a b = gmul b a.
Proof.
  intros Ha Hb. unfold gmul. rewrite <- (gmul_1_r b Hb) at 1. unfold gmul.
  rewrite (ev_comm nx linear_nx). fold (gmul a 1). rewrite gmul_1_r by exact Ha. reflexivity.
Qed.
Lemma gmul_assoc a b c : a < 2 ^ M -> b < 2 ^ M -> c < 2 ^ M -> gmul (gmul a b) c = gmul a (gmul b c).
Proof.
  intros Ha Hb Hc. rewrite (gmul_comm b c), (gmul_comm (gmul a b) c) by (auto; apply gmul_lt; auto).
  unfold gmul. apply ev_comm, linear_nx.
Qed.
Lemma gmul_2 a : gmul 2 a = nx a. Proof. reflexivity. Qed.
Lemma gmul_nx_l a b : a < 2 ^ M -> b < 2 ^ M -> gmul (nx a) b = nx (gmul a b).
Proof.
  intros Ha Hb. rewrite (gmul_comm _ b) by (auto; apply nx_lt; auto). unfold gmul at 1. rewrite (ev_f nx linear_nx).
  fold (gmul b a). rewrite gmul_comm by assumption. reflexivity.
Qed.

Definition gpow (i : N) : N := N.iter i nx 1.
Lemma one_lt : 1 < 2 ^ M. Proof. change 1 with (2 ^ 0) at 1. apply N.pow_lt_mono_r; lia. Qed.
Lemma gpow_lt i : gpow i < 2 ^ M.
Proof. apply (iter_inv (fun x => x < 2 ^ M) nx nx_lt). apply one_lt. Qed.
Lemma gpow_succ i : gpow (N.succ i) = nx (gpow i).
Proof. apply N.iter_succ. Qed.
Lemma iter_nx i w : w < 2 ^ M -> N.iter i nx w = gmul (gpow i) w.
Proof.
  intros Hw. induction i as [|i IH] using N.peano_ind; [reflexivity|].
  rewrite N.iter_succ, gpow_succ, gmul_nx_l, IH by (auto using gpow_lt). reflexivity.
Qed.
Lemma gpow_add i j : gpow (i + j) = gmul (gpow i) (gpow j).
Proof. unfold gpow at 1. rewrite iter_plus. apply iter_nx. apply gpow_lt. Qed.
End Res.

(** ** primitive polynomials *)
Section Prim.
Variables M P : N.
Hypothesis HM : 1 <= M.
Hypothesis HP : has_degree P M.
Notation nx := (mulx M P).
Notation Q1 := (2 ^ M - 1).
Hypothesis Hper : gpow M P Q1 = 1.
Hypothesis Hmin : forall k, 0 < k < Q1 -> gpow M P k <> 1.

Lemma Q1_pos : 0 < Q1. Proof. pose proof (one_lt M HM). lia. Qed.
Lemma gpow_nz i : gpow M P i <> 0.
Proof.
  intros E. assert (F : forall k, gpow M P (k + i) = 0).
  { intros k. rewrite (gpow_add M P HM HP), E. apply gmul_0_r. }
  pose proof Q1_pos as HQ.
  assert (G : forall k, gpow M P (k * Q1) = 1).
  { intros k. unfold gpow. apply iter_mult. exact Hper. }
  specialize (F (i * Q1 - i)). replace (i * Q1 - i + i) with (i * Q1) in F by nia. rewrite G in F. discriminate.
Qed.
Lemma gpow_mod i : gpow M P (i mod Q1) = gpow M P i.
Proof.
  pose proof Q1_pos. rewrite (N.div_mod i Q1) at 2 by lia. rewrite N.add_comm, N.mul_comm. unfold gpow.
  rewrite iter_plus, (iter_mult nx); [reflexivity|exact Hper].
Qed.
Lemma gpow_inj i j : i < Q1 -> j < Q1 -> gpow M P i = gpow M P j -> i = j.
Proof. intros Hi Hj. apply (iter_distinct nx 1 Q1); [exact Hper|exact Hmin|exact Hi|exact Hj]. Qed.
Lemma gpow_covers y : 0 < y < 2 ^ M -> exists k, k < Q1 /\ gpow M P k = y.
Proof.
  intros Hy. apply (orbit_covers nx 1 Q1); [|exact Hper|exact Hmin|lia].
  intros k. pose proof (gpow_nz k). pose proof (gpow_lt M P HM HP k). unfold gpow in *. lia.
Qed.
Lemma gmul_nz a b : a < 2 ^ M -> b < 2 ^ M -> gmul M P a b = 0 -> a = 0 \/ b = 0.
Proof.
  intros Ha Hb E. destruct (N.eq_dec a 0) as [|Na]; [auto|]. destruct (N.eq_dec b 0) as [|Nb]; [auto|].
  destruct (gpow_covers a ltac:(lia)) as (i & Hi & <-). destruct (gpow_covers b ltac:(lia)) as (j & Hj & <-).
  rewrite <- (gpow_add M P HM HP) in E. destruct (gpow_nz _ E).
Qed.
Lemma primitive_irreducible : irreducible P.
Proof.
  destruct (P_log M P HM HP) as (HL & HP0). pose proof (one_lt M HM).
  split; [destruct HP; lia|]. intros p q E.
  assert (Hp : p <> 0) by (intros ->; rewrite clmul_0_l in E; congruence).
  assert (Hq : q <> 0) by (intros ->; rewrite clmul_0_r in E; congruence).
  destruct (clmul_top p q Hp Hq) as (_ & L). rewrite E, HL in L.
  destruct (N.eq_dec (N.log2 p) 0) as [Z1|N1]; [left; apply N.log2_null in Z1; lia|].
  destruct (N.eq_dec (N.log2 q) 0) as [Z2|N2]; [right; apply N.log2_null in Z2; lia|].
  exfalso. assert (Lp : p < 2 ^ M) by (apply log2_lt; [exact Hp|lia]). assert (Lq : q < 2 ^ M) by (apply log2_lt; [exact Hq|lia]).
  assert (Z : 0 = gmul M P p q).
  { apply (product_mod_gmul M P HM HP p q 0 Lq). split; [lia|]. exists 1. rewrite clmul_1_l, E, N.lxor_0_r. reflexivity. }
  symmetry in Z. apply gmul_nz in Z; [|exact Lp|exact Lq]. tauto.
Qed.
End Prim.
