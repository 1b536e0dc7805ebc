(** C54: the SSE4.1, AVX2 and NEON implementations of the lane-wise primitives and of the byte shuffles give the lanes
    the portable loops give, for every register content.

    [lanes_s N w r] and [lanes_u N w r] are the signed and unsigned [w] bit lanes of the registers [r] of [N] bits; the
    theorems hold for any number of registers, so they cover the single and the multi register files.  Where the
    portable code is undefined (signed overflow of 32 and 64 bit lanes) nothing is claimed: "whenever the portable
    primitive yields [v], the back end yields [v]". *)
From Coq Require Import ZifyBool ZifyNat.
From Verif Require Import Cpp Model_simd Model_simd2 Model_intrin Model_backend Spec_simd Proof_simd Proof_simd2 Proof_intrin
  Proof_backend.
Open Scope Z_scope.
Ltac Zify.zify_post_hook ::= idtac.
Ltac conjs := repeat match goal with |- _ /\ _ => split end.

(** ** x86: SSE4.1 ([N] = 128) and AVX2 ([N] = 256) *)

(** saturating arithmetic of 8 and 16 bit lanes *)
Theorem C54_x86_saturating N w a b : w = 8 \/ w = 16 -> length a = length b ->
  lanes_s N w (x86_vqadd N w a b) = vqadd w (lanes_s N w a) (lanes_s N w b) /\
  lanes_s N w (x86_vqsub N w a b) = vqsub w (lanes_s N w a) (lanes_s N w b) /\
  lanes_u N w (x86_vqsub_u N w a b) = vqsub_u w (lanes_u N w a) (lanes_u N w b).
Proof.
  intros W L. assert (0 < w) by lia. conjs.
  - eapply lanes_s_2; [assumption..|intros; apply lanes_lw2; lia|]. intros x y X Y. cbn beta.
    rewrite to_s_to_u_w by assumption. destruct (wide_range w x y W X Y) as (R1 & R2 & R3). rewrite sat_eq by assumption. reflexivity.
  - eapply lanes_s_2; [assumption..|intros; apply lanes_lw2; lia|]. intros x y X Y. cbn beta.
    rewrite to_s_to_u_w by assumption. destruct (wide_range w x y W X Y) as (R1 & R2 & R3). rewrite sat_eq by assumption. reflexivity.
  - eapply lanes_uu_2; [assumption..|intros; apply lanes_lw2; lia|]. intros x y X Y. apply usat_eq; assumption.
Qed.

(** wrapping addition and subtraction of lanes of any width *)
Theorem C54_x86_arith N w a b v : 0 < w -> length a = length b ->
  (vadd_c w (lanes_s N w a) (lanes_s N w b) = Ok v -> lanes_s N w (x86_vadd N w a b) = v) /\
  (vsub_c w (lanes_s N w a) (lanes_s N w b) = Ok v -> lanes_s N w (x86_vsub N w a b) = v).
Proof.
  intros W L. split; intros E; apply map2_res_arith in E; try (apply lanes_s_len, L); subst v.
  - eapply lanes_s_2; [assumption..|intros; apply lanes_lw2; lia|]. intros x y X Y. cbn beta.
    apply to_s_cong; [exact W|]. rewrite to_u_add by exact W. unfold to_u. rewrite Z.mod_mod; [reflexivity|].
    pose proof (pow_pos w ltac:(lia)). lia.
  - eapply lanes_s_2; [assumption..|intros; apply lanes_lw2; lia|]. intros x y X Y. cbn beta.
    apply to_s_cong; [exact W|]. rewrite to_u_sub by exact W. unfold to_u. rewrite Z.mod_mod; [reflexivity|].
    pose proof (pow_pos w ltac:(lia)). lia.
Qed.

(** absolute value, sign functions *)
Lemma to_s_opp_u w x : 0 < w -> to_s w (- to_s w x) = to_s w (- x).
Proof. intros W. apply to_s_cong; [exact W|]. apply to_u_opp, W. Qed.
Lemma to_s_to_s w x : 0 < w -> to_s w (to_s w x) = to_s w x.
Proof. intros W. apply to_s_id; [exact W|]. apply to_s_range, W. Qed.

Theorem C54_x86_sign N w a b v : 1 < w -> length a = length b ->
  (vqabs_c w (lanes_s N w a) = Ok v -> lanes_s N w (x86_vqabs N w a) = v) /\
  (vsignum_c w (lanes_s N w a) = Ok v -> lanes_s N w (x86_vsignum N w a) = v) /\
  (vsign_c w (lanes_s N w a) (lanes_s N w b) = Ok v -> lanes_s N w (x86_vsign N w a b) = v).
Proof.
  intros W L. assert (0 < w) as W0 by lia. conjs; intros E.
  - apply map_res_arith in E. subst v. eapply lanes_s_1; [assumption| |].
    + intros x. unfold mm_abs. rewrite lanes_lw1 by lia. unfold mm_max.
      rewrite (lanes_lw2_c N w _ x _ (to_u w (- s_max w))) by (try apply lanes_set1; lia). rewrite map_map. reflexivity.
    + intros x X. cbn beta. rewrite to_s_to_u_w by assumption. f_equal. f_equal.
      rewrite (to_s_to_u_w w (- s_max w)) by assumption.
      assert (S : to_s w (- s_max w) = - s_max w).
      { apply to_s_id; [assumption|]. pose proof (pow_pos (w - 1) ltac:(lia)). unfold int_range, s_max. lia. }
      rewrite S. destruct (Z.ltb_spec (- s_max w) (to_s w x)).
      * rewrite to_s_to_u_w by assumption. lia.
      * rewrite to_s_to_u_w, to_s_to_u_w, S by assumption. lia.
  - apply map_res_arith in E. subst v. eapply lanes_s_1; [assumption| |].
    + intros x. unfold mm_sign. apply (lanes_lw2_cl N w _ x _ (to_u w 1)); [lia|apply lanes_set1; lia].
    + intros x X. cbn beta. rewrite to_s_to_u_w by assumption.
      assert (O : to_u w 1 = 1).
      { apply to_u_id. pose proof (pow_split w W0). pose proof (Z.pow_gt_1 2 (w - 1) ltac:(lia)). unfold uint_range. lia. }
      rewrite O, <- (to_s_u_zero w x) by assumption. unfold b2z.
      destruct (Z.ltb_spec (to_s w x) 0), (Z.eqb_spec (to_s w x) 0), (Z.ltb_spec 0 (to_s w x)); try lia; reflexivity.
  - apply map2_res_arith in E; [|apply lanes_s_len, L]. subst v.
    eapply lanes_s_2; [assumption..|intros; apply lanes_lw2; lia|]. intros x y X Y. cbn beta.
    rewrite to_s_to_u_w by assumption. rewrite <- (to_s_u_zero w y) by assumption. unfold b2z.
    destruct (Z.ltb_spec (to_s w y) 0), (Z.eqb_spec (to_s w y) 0), (Z.ltb_spec 0 (to_s w y)); try lia; cbn [Z.sub Z.opp Z.add Z.mul].
    + rewrite <- to_s_opp_u by assumption. f_equal.
    + reflexivity.
    + change (to_s w x = to_s w (1 * to_s w x)). rewrite Z.mul_1_l, to_s_to_s by assumption. reflexivity.
Qed.

(** minimum, maximum, clamping to bounds of the lane type *)
Theorem C54_x86_order N w a b lo hi : 0 < w -> length a = length b -> int_range w lo -> int_range w hi ->
  lanes_s N w (x86_vmin N w a b) = vmin (lanes_s N w a) (lanes_s N w b) /\
  lanes_s N w (x86_vmax N w a b) = vmax (lanes_s N w a) (lanes_s N w b) /\
  lanes_s N w (x86_vclamp N w a lo hi) = vclamp (lanes_s N w a) lo hi.
Proof.
  intros W L Rlo Rhi. conjs.
  - eapply lanes_s_2; [assumption..|intros; apply lanes_lw2; lia|]. intros x y X Y. cbn beta.
    rewrite to_s_to_u_w by assumption. destruct (Z.ltb_spec (to_s w x) (to_s w y)); lia.
  - eapply lanes_s_2; [assumption..|intros; apply lanes_lw2; lia|]. intros x y X Y. cbn beta.
    rewrite to_s_to_u_w by assumption. destruct (Z.ltb_spec (to_s w y) (to_s w x)); lia.
  - eapply lanes_s_1; [assumption| |].
    + intros x. unfold mm_min, mm_max.
      rewrite (lanes_lw2_c N w _ _ _ (to_u w hi)) by (try apply lanes_set1; lia).
      rewrite (lanes_lw2_c N w _ _ _ (to_u w lo)) by (try apply lanes_set1; lia).
      rewrite map_map. reflexivity.
    + intros x X. cbn beta. rewrite !to_s_to_u_w by assumption. rewrite (to_s_id w lo), (to_s_id w hi) by assumption.
      destruct (Z.ltb_spec lo (to_s w x)); rewrite ?to_s_to_u_w, ?(to_s_id w lo) by assumption.
      * destruct (Z.ltb_spec (to_s w x) hi); rewrite ?to_s_to_u_w, ?(to_s_id w hi) by assumption; lia.
      * destruct (Z.ltb_spec lo hi); rewrite ?to_s_to_u_w, ?(to_s_id w hi), ?(to_s_id w lo) by assumption; lia.
Qed.

(** comparison masks *)
Theorem C54_x86_compare N w a b : 0 < w -> length a = length b ->
  lanes_u N w (x86_vceqz N w a) = vceqz w (lanes_s N w a) /\
  lanes_u N w (x86_vcgtz N w a) = vcgtz w (lanes_s N w a) /\
  lanes_u N w (x86_vcltz N w a) = vcltz w (lanes_s N w a) /\
  lanes_u N w (x86_vclez N w a) = vclez w (lanes_s N w a) /\
  lanes_u N w (x86_vceq N w a b) = vceq w (lanes_s N w a) (lanes_s N w b).
Proof.
  intros W L. assert (Z0 : forall n, lanes w n mm_setzero = repeat 0 n) by (intros; apply lanes_zero; lia). conjs.
  - eapply lanes_su_1; [assumption|intros x; apply (lanes_lw2_c N w _ _ _ 0); [lia|apply Z0]|].
    intros x X. cbn beta. rewrite to_u_ones, to_s_u_zero by assumption. reflexivity.
  - eapply lanes_su_1; [assumption|intros x; apply (lanes_lw2_c N w _ _ _ 0); [lia|apply Z0]|].
    intros x X. cbn beta. rewrite to_u_ones, to_s_0 by assumption. reflexivity.
  - eapply lanes_su_1; [assumption|intros x; apply (lanes_lw2_cl N w _ _ _ 0); [lia|apply Z0]|].
    intros x X. cbn beta. rewrite to_u_ones, to_s_0 by assumption. reflexivity.
  - eapply lanes_su_1; [assumption| |].
    + intros x. unfold mm_or. rewrite lanes_lor by lia. unfold mm_cmpeq, mm_cmpgt.
      rewrite (lanes_lw2_c N w _ _ _ 0) by (try apply Z0; lia). rewrite (lanes_lw2_cl N w _ _ _ 0) by (try apply Z0; lia).
      rewrite map2_map. unfold map2. set (l := lanes _ _ _). clearbody l.
      transitivity (map (fun x => Z.lor (to_u w (ones w (x =? 0))) (to_u w (ones w (to_s w x <? to_s w 0)))) l); [|reflexivity].
      induction l as [|u l IH]; [reflexivity|]. cbn. f_equal. exact IH.
    + intros x X. cbn beta. rewrite !to_u_ones, <- !ones_mask, to_s_0, <- (to_s_u_zero w x) by assumption.
      destruct (Z.eqb_spec (to_s w x) 0), (Z.ltb_spec (to_s w x) 0), (Z.leb_spec (to_s w x) 0); try lia; cbn [ones];
        rewrite ?Z.lor_0_l, ?Z.lor_0_r; reflexivity.
  - eapply lanes_su_2; [assumption..|intros; apply lanes_lw2; lia|]. intros x y X Y. cbn beta.
    rewrite to_u_ones, to_s_u_eq by assumption. reflexivity.
Qed.

(** bitwise logic and selection *)
Theorem C54_x86_bitwise N w a b c : 0 < w -> length a = length b -> length a = length c ->
  lanes_u N w (x86_vorr a b) = vorr w (lanes_u N w a) (lanes_u N w b) /\
  lanes_u N w (x86_vand a b) = vand w (lanes_u N w a) (lanes_u N w b) /\
  lanes_u N w (x86_veor a b) = veor w (lanes_u N w a) (lanes_u N w b) /\
  lanes_u N w (x86_vbic a b) = vbic w (lanes_u N w a) (lanes_u N w b) /\
  lanes_u N w (x86_vbsl a b c) = vbsl w (lanes_u N w a) (lanes_u N w b) (lanes_u N w c).
Proof. intros W L L'. exact (bitwise_lanes N w a b c W L L'). Qed.

(** broadcasting a value of the lane type, zero, reinterpretation *)
Lemma concat_repeat {A} (x : A) n k : concat (repeat (repeat x n) k) = repeat x (k * n).
Proof. induction k as [|k IH]; [reflexivity|]. cbn [repeat concat]. rewrite IH, <- repeat_app. reflexivity. Qed.
Theorem C54_x86_dup N w K x : 0 < w ->
  (int_range w x -> lanes_s N w (x86_vdup N w K x) = vdup (K * count N w) x) /\
  (uint_range w x -> lanes_u N w (x86_vdup N w K x) = vdup (K * count N w) x) /\
  lanes_u N w (x86_vzero K) = vzero (K * count N w).
Proof.
  intros W. assert (E : lanes_u N w (x86_vdup N w K x) = repeat (to_u w x) (K * count N w)).
  { unfold lanes_u, x86_vdup. rewrite map_repeat', lanes_set1 by lia. apply concat_repeat. }
  conjs.
  - intros R. unfold lanes_s. rewrite E, map_repeat', to_s_to_u_w, to_s_id by assumption. reflexivity.
  - intros R. rewrite E, to_u_id by assumption. reflexivity.
  - unfold lanes_u, x86_vzero. rewrite map_repeat'. unfold mm_setzero. rewrite lanes_zero by lia. apply concat_repeat.
Qed.
Theorem C54_x86_reinterpret N w a : 0 < w ->
  lanes_u N w (x86_vreinterpret a) = vunsigned w (lanes_s N w a) /\
  lanes_u N w (x86_vreinterpret a) = vmask w (lanes_s N w a) /\
  lanes_s N w (x86_vreinterpret a) = vsigned w (lanes_u N w a).
Proof.
  intros W. assert (E : lanes_u N w a = map (to_u w) (lanes_s N w a)).
  { unfold lanes_s. rewrite map_map. rewrite <- (map_to_u_id w (lanes_u N w a)) at 1 by (apply lanes_u_range; lia).
    apply map_ext. intros x. symmetry. apply to_u_to_s, W. }
  conjs; [exact E|exact E|reflexivity].
Qed.

(** ** NEON (128 bit registers) *)
Theorem C54_neon_saturating w a b : w = 8 \/ w = 16 -> length a = length b ->
  lanes_s 128 w (neon_vqadd w a b) = vqadd w (lanes_s 128 w a) (lanes_s 128 w b) /\
  lanes_s 128 w (neon_vqsub w a b) = vqsub w (lanes_s 128 w a) (lanes_s 128 w b) /\
  lanes_u 128 w (neon_vqsub_u w a b) = vqsub_u w (lanes_u 128 w a) (lanes_u 128 w b).
Proof. exact (C54_x86_saturating 128 w a b). Qed.

Theorem C54_neon_arith w a b v : 0 < w -> length a = length b ->
  (vadd_c w (lanes_s 128 w a) (lanes_s 128 w b) = Ok v -> lanes_s 128 w (neon_vadd w a b) = v) /\
  (vsub_c w (lanes_s 128 w a) (lanes_s 128 w b) = Ok v -> lanes_s 128 w (neon_vsub w a b) = v) /\
  (vmul_c w (lanes_s 128 w a) (lanes_s 128 w b) = Ok v -> lanes_s 128 w (neon_vmul w a b) = v).
Proof.
  intros W L. destruct (C54_x86_arith 128 w a b v W L) as [A B]. conjs; [exact A|exact B|].
  intros E; apply map2_res_arith in E; try (apply lanes_s_len, L); subst v.
  eapply lanes_s_2; [assumption..|intros; apply lanes_lw2; lia|]. intros x y X Y. cbn beta.
  apply to_s_cong; [exact W|]. rewrite to_u_mul by exact W. unfold to_u. rewrite Z.mod_mod; [reflexivity|].
  pose proof (pow_pos w ltac:(lia)). lia.
Qed.

(** a mask selects: all ones keep the value, zeros clear it *)
Lemma land_mask w c x : 0 < w -> uint_range w x -> Z.land (to_u w (- b2z c)) x = if c then x else 0.
Proof.
  intros W X. rewrite <- ones_mask by exact W. destruct c; cbn [ones]; [|apply Z.land_0_l].
  replace (2 ^ w - 1) with (Z.ones w) by (rewrite Z.ones_equiv; lia). rewrite Z.land_comm, Z.land_ones by lia. apply Z.mod_small, X.
Qed.

Theorem C54_neon_sign w a b v : 1 < w -> length a = length b ->
  (vqabs_c w (lanes_s 128 w a) = Ok v -> lanes_s 128 w (neon_vqabs w a) = v) /\
  (vsignum_c w (lanes_s 128 w a) = Ok v -> lanes_s 128 w (neon_vsignum w a) = v) /\
  (vsign_c w (lanes_s 128 w a) (lanes_s 128 w b) = Ok v -> lanes_s 128 w (neon_vsign w a b) = v).
Proof.
  intros W L. assert (0 < w) as W0 by lia.
  assert (P : 2 <= 2 ^ (w - 1)).
  { replace (w - 1) with (Z.succ (w - 2)) by lia. rewrite Z.pow_succ_r by lia. pose proof (pow_pos (w - 2) ltac:(lia)). lia. }
  pose proof (pow_split w W0) as SP.
  assert (D0 : lanes w (count 128 w) (vdupq_n w 0) = repeat 0 (count 128 w)).
  { unfold vdupq_n. fold (mm_set1 128 w 0). fold (mm_set1 128 w 1). rewrite lanes_set1 by lia. unfold to_u.
    rewrite Z.mod_0_l by lia. reflexivity. }
  assert (D1 : lanes w (count 128 w) (vdupq_n w 1) = repeat 1 (count 128 w)).
  { unfold vdupq_n. fold (mm_set1 128 w 0). fold (mm_set1 128 w 1). rewrite lanes_set1 by lia. unfold to_u.
    rewrite Z.mod_small by lia. reflexivity. }
  conjs; intros E.
  - apply map_res_arith in E. subst v. eapply lanes_s_1; [assumption|intros; apply lanes_lw1; lia|].
    intros x X. cbn beta. rewrite to_s_to_u_w by assumption. f_equal.
    pose proof (to_s_range w x W0) as R. unfold int_range in R. unfold SignedSat, s_min, s_max.
    destruct (Z.ltb_spec (Z.abs (to_s w x)) (- 2 ^ (w - 1))); [lia|].
    destruct (Z.ltb_spec (2 ^ (w - 1) - 1) (Z.abs (to_s w x))); lia.
  - apply map_res_arith in E. subst v. eapply lanes_s_1; [assumption| |].
    + intros x. unfold vorrq, vandq. rewrite lanes_lor, lanes_land by lia. unfold vcgtq_s.
      rewrite (lanes_lw2_c 128 w _ x (vdupq_n w 0) 0) by (try apply D0; lia). rewrite (lanes_lw2_cl 128 w _ x (vdupq_n w 0) 0) by (try apply D0; lia).
      rewrite D1. rewrite <- (length_lanes w (count 128 w) x) at 3. set (l := lanes _ _ _). clearbody l.
      transitivity (map (fun x => Z.lor (to_u w (ones w (to_s w x <? to_s w 0)))
         (Z.land (to_u w (ones w (to_s w 0 <? to_s w x))) 1)) l); [|reflexivity].
      unfold map2. induction l as [|u l IH]; [reflexivity|]. cbn. f_equal. exact IH.
    + intros x X. cbn beta. rewrite !to_u_ones, to_s_0 by assumption. rewrite land_mask by (unfold uint_range; lia).
      rewrite <- ones_mask by assumption. unfold b2z.
      destruct (Z.ltb_spec (to_s w x) 0), (Z.ltb_spec 0 (to_s w x)); try lia; cbn [ones];
        rewrite ?Z.lor_0_l, ?Z.lor_0_r; try reflexivity.
      apply to_s_cong; [assumption|]. unfold to_u. change (0 - 1) with (- (1)). rewrite <- (Z.mod_add (- (1)) 1) by lia.
      f_equal. lia.
  - apply map2_res_arith in E; [|apply lanes_s_len, L]. subst v.
    eapply (lanes_s_2 128 w _ (fun x y => Z.lor (Z.land (to_u w (- b2z (to_s w y <? 0))) (to_u w (- x)))
       (Z.land (to_u w (- b2z (0 <? to_s w y))) x))); [assumption..| |].
    + intros x y. unfold vorrq, vandq. rewrite lanes_lor, !lanes_land by lia. unfold vcgtq_s, vnegq.
      rewrite (lanes_lw2_c 128 w _ y (vdupq_n w 0) 0) by (try apply D0; lia). rewrite (lanes_lw2_cl 128 w _ y (vdupq_n w 0) 0) by (try apply D0; lia).
      rewrite lanes_lw1 by lia. generalize (lanes w (count 128 w) x) (lanes w (count 128 w) y). intros p q.
      rewrite to_s_0 by assumption. unfold map2. revert q. induction p as [|u p IH]; intros [|t q]; [reflexivity..|]. cbn.
      rewrite !to_u_ones by assumption. f_equal. apply IH.
    + intros x y X Y. cbn beta. rewrite !land_mask by (try assumption; apply to_u_range; lia). unfold b2z.
      destruct (Z.ltb_spec (to_s w y) 0), (Z.ltb_spec 0 (to_s w y)); try lia; rewrite ?Z.lor_0_l, ?Z.lor_0_r.
      * rewrite to_s_to_u_w, <- to_s_opp_u by assumption. f_equal.
      * change (to_s w x = to_s w (1 * to_s w x)). rewrite Z.mul_1_l, to_s_to_s by assumption. reflexivity.
      * reflexivity.
Qed.

Theorem C54_neon_order w a b lo hi : 0 < w -> length a = length b -> int_range w lo -> int_range w hi ->
  lanes_s 128 w (neon_vmin w a b) = vmin (lanes_s 128 w a) (lanes_s 128 w b) /\
  lanes_s 128 w (neon_vmax w a b) = vmax (lanes_s 128 w a) (lanes_s 128 w b) /\
  lanes_s 128 w (neon_vclamp w a lo hi) = vclamp (lanes_s 128 w a) lo hi.
Proof.
  intros W L Rlo Rhi.
  assert (M : forall p q, int_range w p -> int_range w q -> to_s w (Z.min p q) = Z.min p q /\ to_s w (Z.max p q) = Z.max p q).
  { intros p q Hp Hq. split; apply to_s_id; try assumption; unfold int_range in *; lia. }
  pose proof (fun z => to_s_range w z W) as R.
  conjs.
  - eapply lanes_s_2; [assumption..|intros; apply lanes_lw2; lia|]. intros x y X Y. cbn beta.
    rewrite to_s_to_u_w by assumption. apply M; apply R.
  - eapply lanes_s_2; [assumption..|intros; apply lanes_lw2; lia|]. intros x y X Y. cbn beta.
    rewrite to_s_to_u_w by assumption. apply M; apply R.
  - eapply lanes_s_1; [assumption| |].
    + intros x. unfold vminq_s, vmaxq_s.
      rewrite (lanes_lw2_c 128 w _ _ _ (to_u w hi)) by (try apply lanes_set1; lia).
      rewrite (lanes_lw2_c 128 w _ _ _ (to_u w lo)) by (try apply lanes_set1; lia).
      rewrite map_map. reflexivity.
    + intros x X. cbn beta. rewrite !to_s_to_u_w by assumption. rewrite (to_s_id w lo), (to_s_id w hi) by assumption.
      pose proof (R x) as Rx. unfold int_range in *.
      rewrite (proj2 (M _ _ (R x) Rlo)). apply M; unfold int_range; lia.
Qed.

Theorem C54_neon_compare w a b : 0 < w -> length a = length b ->
  lanes_u 128 w (neon_vceqz w a) = vceqz w (lanes_s 128 w a) /\
  lanes_u 128 w (neon_vcgtz w a) = vcgtz w (lanes_s 128 w a) /\
  lanes_u 128 w (neon_vcltz w a) = vcltz w (lanes_s 128 w a) /\
  lanes_u 128 w (neon_vclez w a) = vclez w (lanes_s 128 w a) /\
  lanes_u 128 w (neon_vceq w a b) = vceq w (lanes_s 128 w a) (lanes_s 128 w b).
Proof.
  intros W L. assert (0 < 2 ^ w) by (apply pow_pos; lia).
  assert (D0 : lanes w (count 128 w) (vdupq_n w 0) = repeat 0 (count 128 w)).
  { unfold vdupq_n. fold (mm_set1 128 w 0). fold (mm_set1 128 w 1). rewrite lanes_set1 by lia. unfold to_u.
    rewrite Z.mod_0_l by lia. reflexivity. }
  conjs.
  1-4: eapply lanes_su_1; [assumption|intros x; apply (lanes_lw2_c 128 w _ _ _ 0); [lia|apply D0]|];
    intros x X; cbn beta; rewrite to_u_ones, to_s_0 by assumption; reflexivity.
  eapply lanes_su_2; [assumption..|intros; apply lanes_lw2; lia|]. intros x y X Y. cbn beta.
  rewrite to_u_ones by assumption. reflexivity.
Qed.

Theorem C54_neon_bitwise w a b c : 0 < w -> length a = length b -> length a = length c ->
  lanes_u 128 w (neon_vorr a b) = vorr w (lanes_u 128 w a) (lanes_u 128 w b) /\
  lanes_u 128 w (neon_vand a b) = vand w (lanes_u 128 w a) (lanes_u 128 w b) /\
  lanes_u 128 w (neon_veor a b) = veor w (lanes_u 128 w a) (lanes_u 128 w b) /\
  lanes_u 128 w (neon_vbic a b) = vbic w (lanes_u 128 w a) (lanes_u 128 w b) /\
  lanes_u 128 w (neon_vbsl a b c) = vbsl w (lanes_u 128 w a) (lanes_u 128 w b) (lanes_u 128 w c).
Proof. intros W L L'. exact (bitwise_lanes 128 w a b c W L L'). Qed.

Theorem C54_neon_dup w K x m : 0 < w ->
  (int_range w x -> lanes_s 128 w (neon_vdup w K x) = vdup (K * count 128 w) x) /\
  (uint_range w x -> lanes_u 128 w (neon_vdup w K x) = vdup (K * count 128 w) x) /\
  lanes_u 128 w (neon_vzero m) = vzero (length m * count 128 w).
Proof.
  intros W. destruct (C54_x86_dup 128 w K x W) as (A & B & _). conjs; [exact A|exact B|].
  unfold lanes_u, neon_vzero, veorq. rewrite map_map.
  rewrite (map_ext _ (fun _ => repeat 0 (count 128 w))) by (intros r; rewrite Z.lxor_nilpotent; apply lanes_zero; lia).
  unfold vzero. rewrite <- concat_repeat. f_equal. induction m as [|y m IH]; [reflexivity|]. cbn. f_equal. exact IH.
Qed.

(** a concrete case: one SSE register of 16 bytes against its portable result, with saturation, wrap around and signs *)
Example C54_case :
  let a := [pack 8 [100; 156; 128; 255; 0; 7; 127; 1; 2; 3; 4; 5; 6; 7; 8; 9]] in
  let b := [pack 8 [100; 156; 128; 1; 0; 249; 255; 1; 2; 3; 4; 5; 6; 7; 8; 9]] in
  lanes_s 128 8 (x86_vqadd 128 8 a b) = [127; -128; -128; 0; 0; 0; 126; 2; 4; 6; 8; 10; 12; 14; 16; 18] /\
  vadd_c 8 (lanes_s 128 8 a) (lanes_s 128 8 b) = Ok [-56; 56; 0; 0; 0; 0; 126; 2; 4; 6; 8; 10; 12; 14; 16; 18] /\
  lanes_s 128 8 (x86_vadd 128 8 a b) = [-56; 56; 0; 0; 0; 0; 126; 2; 4; 6; 8; 10; 12; 14; 16; 18] /\
  vsign_c 8 (lanes_s 128 8 a) (lanes_s 128 8 b) = Ok [100; 100; -128; -1; 0; -7; -127; 1; 2; 3; 4; 5; 6; 7; 8; 9] /\
  lanes_s 128 8 (neon_vsign 8 a b) = [100; 100; -128; -1; 0; -7; -127; 1; 2; 3; 4; 5; 6; 7; 8; 9].
Proof. vm_compute. repeat split; reflexivity. Qed.
