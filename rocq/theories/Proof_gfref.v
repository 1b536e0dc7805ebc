From Coq Require Import ZifyBool ZifyNat ZifyN Eqdep_dec Field.
From Verif Require Import Cpp Model_gf Spec_gf Lib_orbit Lib_gf2lin Lib_gf2poly Lib_gf Lib_field Proof_gf.
Local Open Scope N_scope.

Section Ref.
Variables w M P : N.
Hypothesis HM : 1 <= M.
Hypothesis Hw : M <= w.
Hypothesis HP : has_degree P M.
Notation gm := (gmul M P).

Lemma half' : wrap w (N.shiftl 1 (M - 1)) = 2 ^ (M - 1).
Proof. rewrite N.shiftl_1_l. apply wrap_small. apply N.pow_lt_mono_r; lia. Qed.

Lemma ref_mul_ok a b : a < 2 ^ M -> b < 2 ^ M -> ref_mul w M P a b = Ok (gm a b).
Proof.
  intros Ha Hb. unfold ref_mul.
  edestruct (for_up_inv (fun i '(p, x, y) => x < 2 ^ M /\ y = N.shiftr b (N.of_nat i) /\ N.lxor p (gm y x) = gm b a))
    as (((p & x) & y) & E & (Hx & Hy & HE)).
  4: { rewrite E. cbn [bind]. rewrite N2Nat.id in Hy. f_equal.
       assert (y = 0) by (rewrite Hy, N.shiftr_div_pow2; apply N.div_small; exact Hb). subst y. rewrite H in HE.
       rewrite gmul_0_l, N.lxor_0_r in HE. rewrite HE. apply gmul_comm; assumption. }
  - lia.
  - intros i ((p & x) & y) Hi (Hx & Hy & HE). eexists. split; [reflexivity|]. cbv beta iota zeta.
    rewrite half', land_pow2, (step_common w M P HM Hw HP x Hx).
    split; [apply nx_lt; assumption|]. split.
    + rewrite Hy, N.shiftr_shiftr. f_equal. lia.
    + rewrite <- HE. unfold gmul. rewrite (ev_unfold (mulx M P) y x) by apply linear_nx.
      rewrite <- N.div2_spec, (ev_f (mulx M P)) by apply linear_nx.
      set (z := mulx M P (ev _ _ _)). destruct (N.odd y); [|rewrite N.lxor_0_l; reflexivity].
      apply N.lxor_assoc.
  - cbv beta iota. split; [exact Ha|]. split; [rewrite N.shiftr_0_r; reflexivity|]. apply N.lxor_0_l.
Qed.

(** ** reciprocal *)
Hypothesis H32 : M <= 32.
Hypothesis Hirr : irreducible P.

Lemma shl_ok x j : N.shiftl x (Z.to_N j) < 2 ^ M -> (0 <= j < 32)%Z -> ref_shl w x j = Ok (N.shiftl x (Z.to_N j)).
Proof.
  intros H Hj. unfold ref_shl. replace ((0 <=? j) && (j <? 32))%Z with true by lia. cbn [require bind].
  rewrite wrap_small; [reflexivity|]. pose proof (pow2_le M w Hw). lia.
Qed.
Lemma degree_ok x : x <> 0 -> x < 2 ^ M -> ref_degree x = Ok (Z.of_N (N.log2 x)).
Proof.
  intros H0 H. unfold ref_degree, nz. pose proof (pow2_le M 32 H32).
  destruct (N.eqb_spec x 0); [contradiction|]. destruct (N.ltb_spec x (2 ^ 32)); [reflexivity|lia].
Qed.
Lemma shiftl_log2 x j : x <> 0 -> N.shiftl x j <> 0 /\ N.log2 (N.shiftl x j) = N.log2 x + j.
Proof. intros H. split; [apply N.shiftl_eq_0_iff in H || (intros E; apply N.shiftl_eq_0_iff in E; contradiction)|apply N.log2_shiftl; exact H]. Qed.
Lemma lxor_same_log x y : x <> 0 -> y <> 0 -> N.log2 x = N.log2 y -> N.lxor x y < 2 ^ N.log2 x.
Proof.
  intros Hx Hy E. apply tb_lt. intros i Hi. rewrite N.lxor_spec.
  destruct (N.eq_dec i (N.log2 x)) as [->|Ni].
  - rewrite E at 2. rewrite !N.bit_log2 by assumption. reflexivity.
  - rewrite !N.bits_above_log2 by lia. reflexivity.
Qed.
Lemma gm_shiftl t a r j : a < 2 ^ M -> gm t a = r -> N.shiftl r j < 2 ^ M -> gm (N.shiftl t j) a = N.shiftl r j.
Proof.
  intros Ha E Hs. symmetry. apply (product_mod_gmul M P HM HP); [exact Ha|]. split; [exact Hs|].
  destruct (gmul_cong M P t a) as (q & Eq). exists (N.shiftl q j).
  rewrite clmul_shiftl_l, Eq, E, N.shiftl_lxor, clmul_shiftl_l. reflexivity.
Qed.

Definition RI (a : N) '((newr, r, newt, t, k) : N * N * N * N * Z) : Prop :=
  newr <> 0 /\ newr < 2 ^ M /\ 1 < r < 2 ^ M /\ newt < 2 ^ M /\ t < 2 ^ M /\ k = Z.of_N (N.log2 r) /\
  gm newt a = newr /\ gm t a = r /\ N.lxor (clmul r newt) (clmul newr t) = P /\
  (t = 0 \/ N.log2 t + N.log2 newr <= M) /\ (newt = 0 \/ N.log2 newt + N.log2 r <= M).

Lemma log2_ge1 x : 1 < x -> 1 <= N.log2 x.
Proof. intros H. apply N.log2_le_pow2; lia. Qed.
Lemma no_factor r s : 1 < r < 2 ^ M -> clmul r s = P -> False.
Proof.
  intros Hr E. destruct Hirr as (_ & H). destruct (H r s E) as [->| ->]; [lia|]. rewrite clmul_1_r in E. destruct HP. lia.
Qed.
(** one reduction step, degrees already in order *)
Lemma red_step a newr r newt t : a < 2 ^ M -> RI a (newr, r, newt, t, Z.of_N (N.log2 r)) -> 1 < newr -> N.log2 r <= N.log2 newr ->
  let j := (Z.of_N (N.log2 newr) - Z.of_N (N.log2 r))%Z in
  exists x y, ref_shl w r j = Ok x /\ ref_shl w t j = Ok y /\ RI a (N.lxor newr x, r, N.lxor newt y, t, Z.of_N (N.log2 r)) /\
    N.log2 (N.lxor newr x) < N.log2 newr.
Proof.
  intros Ha (N0 & Nl & Hr & Ntl & Ht & _ & En & Et & D & B1 & B2) N1 Hl j.
  pose proof (log2_ge1 r ltac:(lia)) as Lr.
  assert (Ln : N.log2 newr < M) by (apply log2_lt; assumption).
  assert (HJ : Z.to_N j = N.log2 newr - N.log2 r) by lia. set (J := Z.to_N j) in *.
  destruct (shiftl_log2 r J ltac:(lia)) as (X0 & XL).
  assert (Xlt : N.shiftl r J < 2 ^ M) by (apply log2_lt; [exact X0|lia]).
  assert (Ylt : N.shiftl t J < 2 ^ M /\ (N.shiftl t J = 0 \/ N.log2 (N.shiftl t J) + N.log2 r <= M)).
  { destruct (N.eq_dec t 0) as [->|T0]; [rewrite N.shiftl_0_l; split; [lia|left; reflexivity]|].
    destruct (shiftl_log2 t J T0) as (Y0 & YL). destruct B1 as [B1|B1]; [contradiction|].
    split; [apply log2_lt; [exact Y0|lia]|right; lia]. }
  destruct Ylt as (Ylt & Yd).
  exists (N.shiftl r J), (N.shiftl t J).
  split; [apply shl_ok; [exact Xlt|lia]|]. split; [apply shl_ok; [exact Ylt|lia]|].
  pose proof (lxor_same_log newr (N.shiftl r J) N0 X0 ltac:(lia)) as Small.
  assert (ND : N.lxor (clmul r (N.lxor newt (N.shiftl t J))) (clmul (N.lxor newr (N.shiftl r J)) t) = P).
  { rewrite clmul_lxor_r, clmul_lxor_l, clmul_shiftl_l, clmul_shiftl_r, <- D.
    apply N.bits_inj. intros i. rewrite !N.lxor_spec.
    destruct (N.testbit (clmul r newt) i), (N.testbit (clmul newr t) i), (N.testbit (N.shiftl (clmul r t) J) i); reflexivity. }
  assert (NZ : N.lxor newr (N.shiftl r J) <> 0).
  { intros Z. rewrite Z, clmul_0_l, N.lxor_0_r in ND. exact (no_factor r _ Hr ND). }
  assert (Ll : N.log2 (N.lxor newr (N.shiftl r J)) < N.log2 newr) by (apply log2_lt; assumption).
  split; [|exact Ll].
  split; [exact NZ|]. split; [apply lxor_lt; assumption|]. split; [exact Hr|]. split; [apply lxor_lt; assumption|]. split; [exact Ht|].
  split; [reflexivity|]. split; [rewrite gmul_lxor_l, En; f_equal; apply gm_shiftl; assumption|]. split; [exact Et|]. split; [exact ND|].
  split; [destruct B1; [left; assumption|right; lia]|].
  destruct (N.eq_dec (N.lxor newt (N.shiftl t J)) 0) as [Z|Z]; [left; exact Z|right].
  pose proof (N.log2_lxor newt (N.shiftl t J)) as LX.
  assert (C1 : newt = 0 \/ N.log2 newt <= M - N.log2 r) by (destruct B2; [left; assumption|right; lia]).
  assert (C2 : N.shiftl t J = 0 \/ N.log2 (N.shiftl t J) <= M - N.log2 r) by (destruct Yd; [left; assumption|right; lia]).
  assert (C3 : N.log2 newt <= M - N.log2 r) by (destruct C1 as [->|]; [cbn; lia|assumption]).
  assert (C4 : N.log2 (N.shiftl t J) <= M - N.log2 r) by (destruct C2 as [->|]; [cbn; lia|assumption]).
  assert (N.log2 r < M) by (apply log2_lt; lia). lia.
Qed.
Lemma RI_swap a newr r newt t : 1 < newr -> RI a (newr, r, newt, t, Z.of_N (N.log2 r)) ->
  RI a (r, newr, t, newt, Z.of_N (N.log2 newr)).
Proof.
  intros H (N0 & Nl & Hr & Ntl & Ht & _ & En & Et & D & B1 & B2).
  repeat split; try assumption; try lia. rewrite N.lxor_comm. exact D.
Qed.

Lemma ref_rcp_ok fuel a : a <> 0 -> a < 2 ^ M -> (N.to_nat (2 * M) < fuel)%nat ->
  exists c, ref_rcp fuel w M P a = Ok c /\ c < 2 ^ M /\ gm c a = 1.
Proof.
  intros H0 Ha Hf. unfold ref_rcp, nz. destruct (N.eqb_spec a 0); [contradiction|]. cbn [negb assert_ bind].
  destruct (N.eqb_spec a 1) as [->|N1].
  { exists 1. split; [reflexivity|]. split; [exact Ha|reflexivity]. }
  rewrite degree_ok by assumption. cbn [bind].
  pose proof (log2_ge1 a ltac:(lia)) as La. assert (La2 : N.log2 a < M) by (apply log2_lt; assumption).
  set (j := (Z.of_N M - Z.of_N (N.log2 a))%Z). set (J := Z.to_N j). assert (HJ : J = M - N.log2 a) by lia.
  destruct (P_log M P HM HP) as (PL & P0). destruct (shiftl_log2 a J H0) as (X0 & XL).
  assert (Small : N.lxor P (N.shiftl a J) < 2 ^ M).
  { pose proof (lxor_same_log P (N.shiftl a J) P0 X0 ltac:(lia)) as SS. rewrite PL in SS. exact SS. }
  assert (S1 : ref_shl w a j = Ok (wrap w (N.shiftl a J))).
  { unfold ref_shl. replace ((0 <=? j) && (j <? 32))%Z with true by lia. reflexivity. }
  assert (Y : N.shiftl 1 J < 2 ^ M) by (rewrite N.shiftl_1_l; apply N.pow_lt_mono_r; lia).
  assert (S2 : ref_shl w 1 j = Ok (N.shiftl 1 J)) by (apply shl_ok; [exact Y|lia]).
  rewrite S1, S2. cbn [bind]. rewrite <- wrap_lxor, wrap_small by (pose proof (pow2_le M w Hw); lia).
  rewrite N.lxor_0_l.
  assert (I0 : RI a (N.lxor P (N.shiftl a J), a, N.shiftl 1 J, 1, Z.of_N (N.log2 a))).
  { assert (NZ : N.lxor P (N.shiftl a J) <> 0).
    { intros Z. apply (proj1 (lxor_eq0 _ _)) in Z. apply (no_factor a (2 ^ J)); [lia|]. rewrite clmul_comm, clmul_pow2. symmetry. exact Z. }
    split; [exact NZ|]. split; [exact Small|]. split; [lia|]. split; [exact Y|]. split; [lia|]. split; [reflexivity|].
    split.
    { symmetry. apply (product_mod_gmul M P HM HP); [exact Ha|]. split; [exact Small|]. exists 1.
      rewrite clmul_shiftl_l, !clmul_1_l, <- N.lxor_assoc, N.lxor_nilpotent, N.lxor_0_l. reflexivity. }
    split; [reflexivity|]. split.
    { rewrite clmul_shiftl_r, !clmul_1_r, N.lxor_comm, N.lxor_assoc, N.lxor_nilpotent, N.lxor_0_r. reflexivity. }
    split.
    { right. change (N.log2 1) with 0. apply log2_lt in Small; [lia|exact NZ]. }
    right. rewrite N.shiftl_1_l, N.log2_pow2 by lia. lia. }
  edestruct (while_inv (RI a) (fun '(newr, r, _, _, _) => N.to_nat (N.log2 newr + N.log2 r)))
    as (((((newr & r) & newt) & t) & k) & E & I & C).
  4: { rewrite E. cbn [bind]. injection C as C. apply negb_false_iff, N.eqb_eq in C. subst newr.
       destruct I as (_ & _ & _ & Ntl & _ & _ & En & _). exists newt. unfold refmk, assert_.
       destruct (N.leb_spec newt (2 ^ M - 1)); [|lia]. split; [reflexivity|]. split; [exact Ntl|exact En]. }
  - intros ((((newr & r) & newt) & t) & k) I. eexists. split; [reflexivity|]. intros C. apply negb_true_iff, N.eqb_neq in C.
    pose proof I as (N0 & Nl & Hr & Ntl & Ht & -> & _).
    rewrite degree_ok by assumption. cbn [bind].
    destruct (Z.ltb_spec (Z.of_N (N.log2 newr) - Z.of_N (N.log2 r)) 0) as [L|L].
    + apply RI_swap in I; [|lia].
      destruct (red_step a r newr t newt Ha I ltac:(lia) ltac:(lia)) as (x & y & E1 & E2 & I' & Lt).
      replace (- (Z.of_N (N.log2 newr) - Z.of_N (N.log2 r)))%Z with (Z.of_N (N.log2 r) - Z.of_N (N.log2 newr))%Z by lia.
      rewrite E1, E2. cbn [bind]. eexists. split; [reflexivity|]. split; [exact I'|]. lia.
    + destruct (red_step a newr r newt t Ha I ltac:(lia) ltac:(lia)) as (x & y & E1 & E2 & I' & Lt).
      rewrite E1, E2. cbn [bind]. eexists. split; [reflexivity|]. split; [exact I'|]. lia.
  - exact I0.
  - destruct I0 as (NZ & _). cbv beta iota. apply log2_lt in Small; [|exact NZ]. lia.
Qed.
Lemma ref_div_ok fuel a b : b <> 0 -> a < 2 ^ M -> b < 2 ^ M -> (N.to_nat (2 * M) < fuel)%nat ->
  exists c, ref_div fuel w M P a b = Ok c /\ c < 2 ^ M /\ gm c b = a.
Proof.
  intros H0 Ha Hb Hf. destruct (ref_rcp_ok fuel b H0 Hb Hf) as (c & E & Hc & G).
  unfold ref_div, nz. destruct (N.eqb_spec b 0); [contradiction|]. cbn [negb assert_ bind]. rewrite E. cbn [bind].
  rewrite ref_mul_ok by assumption. eexists. split; [reflexivity|]. split; [apply gmul_lt; assumption|].
  rewrite gmul_assoc by assumption. rewrite G. apply gmul_1_r; assumption.
Qed.
End Ref.
