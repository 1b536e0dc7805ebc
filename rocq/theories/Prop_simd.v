(** C53: the portable SIMD primitives act lane by lane with their documented semantics. *)
From Coq Require Import ZifyBool ZifyNat.
From Verif Require Import Cpp Model_simd Model_simd2 Spec_simd Proof_simd Proof_simd2.
Open Scope Z_scope.
Ltac Zify.zify_post_hook ::= idtac.
Ltac conjs := repeat match goal with |- _ /\ _ => split end.

Lemma narrow w : w = 8 \/ w = 16 -> 0 < w <= 16 /\ 2 ^ (w - 1) <= 32768 /\ 2 ^ (2 * w - 1) = 2 * (2 ^ (w - 1) * 2 ^ (w - 1)) /\ 2 ^ w = 2 * 2 ^ (w - 1) /\ 128 <= 2 ^ (w - 1).
Proof. intros [-> | ->]; repeat split; vm_compute; congruence. Qed.

Lemma clamp_sat w z : w = 8 \/ w = 16 -> int_range (2 * w) z ->
  saturated w z (to_s w (Z.min (Z.max (to_s (2 * w) z) (s_min w)) (s_max w))).
Proof.
  intros W R. destruct (narrow w W) as (H1 & H2 & H3 & H4 & H5). rewrite (to_s_id (2 * w)) by (lia || assumption).
  assert (E : to_s w (Z.min (Z.max z (s_min w)) (s_max w)) = Z.min (Z.max z (s_min w)) (s_max w))
    by (apply to_s_id; unfold int_range, s_min, s_max; lia).
  rewrite E. unfold saturated, int_range, s_min, s_max. lia.
Qed.

(** ** the saturating operations: the exact result, or the nearest end of the range *)
Theorem C53_saturating w n a b : w = 8 \/ w = 16 -> svec w n a -> svec w n b ->
  lanewise2 n (fun x y r => saturated w (x + y) r) a b (vqadd w a b) /\
  lanewise2 n (fun x y r => saturated w (x - y) r) a b (vqsub w a b) /\
  lanewise1 n (fun x r => saturated w (Z.abs x) r) a (vqabs w a).
Proof.
  intros W (La & Fa) (Lb & Fb). destruct (narrow w W) as (H1 & H2 & H3 & H4 & H5). conjs.
  - unfold vqadd. eapply lanewise2_impl; [exact La|exact Lb|exact Fa|exact Fb| |apply lane2; eassumption].
    cbv beta. intros x y r Hx Hy ->. apply (clamp_sat w (x + y)); [exact W|]. unfold int_range in *. nia.
  - unfold vqsub. eapply lanewise2_impl; [exact La|exact Lb|exact Fa|exact Fb| |apply lane2; eassumption].
    cbv beta. intros x y r Hx Hy ->. apply (clamp_sat w (x - y)); [exact W|]. unfold int_range in *. nia.
  - unfold vqabs. eapply lanewise1_impl; [exact La|exact Fa| |apply lane1; eassumption].
    cbv beta. intros x r Hx ->. rewrite to_s_id by (unfold int_range, s_max in *; lia).
    unfold saturated, int_range, s_max in *. lia.
Qed.
Print Assumptions C53_saturating.

(** the unsigned saturating subtraction stops at zero *)
Theorem C53_saturating_unsigned w n a b : w = 8 \/ w = 16 -> uvec w n a -> uvec w n b ->
  lanewise2 n (fun x y r => r = Z.max (x - y) 0) a b (vqsub_u w a b).
Proof.
  intros W (La & Fa) (Lb & Fb). destruct (narrow w W) as (H1 & H2 & H3 & H4 & H5).
  unfold vqsub_u. eapply lanewise2_impl; [exact La|exact Lb|exact Fa|exact Fb| |apply lane2; eassumption].
  cbv beta. intros x y r Hx Hy ->. unfold uint_range in *. rewrite to_s_id by (unfold int_range; nia).
  apply Z.mod_small. lia.
Qed.
Print Assumptions C53_saturating_unsigned.

(** ** the wrapping operations on 8 and 16 bit lanes: the exact result modulo the range of the type *)
Theorem C53_wrapping w n a b : w = 8 \/ w = 16 -> svec w n a -> svec w n b ->
  lanewise1 n (fun x r => wraps_to w (- x) r) a (vneg w a) /\
  lanewise1 n (fun x r => wraps_to w (Z.abs x) r) a (vabs w a) /\
  lanewise2 n (fun x y r => wraps_to w (x + y) r) a b (vadd w a b) /\
  lanewise2 n (fun x y r => wraps_to w (x - y) r) a b (vsub w a b) /\
  lanewise2 n (fun x y r => wraps_to w (x * y) r) a b (vmul w a b).
Proof.
  intros W (La & Fa) (Lb & Fb). destruct (narrow w W) as (H1 & H2 & H3 & H4 & H5). conjs.
  1, 2: eapply lanewise1_impl; [exact La|exact Fa| |apply lane1; eassumption];
        cbv beta; intros x r Hx ->; apply to_s_wraps; lia.
  all: eapply lanewise2_impl; [exact La|exact Lb|exact Fa|exact Fb| |apply lane2; eassumption];
        cbv beta; intros x y r Hx Hy ->; apply to_s_wraps; lia.
Qed.
Print Assumptions C53_wrapping.

(** ** sign, minimum, maximum and clamping *)
Theorem C53_sign w n a b : w = 8 \/ w = 16 -> svec w n a -> svec w n b ->
  lanewise1 n (fun x r => r = Z.sgn x) a (vsignum a) /\
  lanewise2 n (fun x y r => signed_by w x y r) a b (vsign w a b).
Proof.
  intros W (La & Fa) (Lb & Fb). destruct (narrow w W) as (H1 & H2 & H3 & H4 & H5). split.
  - eapply lanewise1_impl; [exact La|exact Fa| |apply lane1; eassumption]. cbv beta. intros x r Hx ->. apply sgn_b2z.
  - eapply lanewise2_impl; [exact La|exact Lb|exact Fa|exact Fb| |apply lane2; eassumption].
    cbv beta. intros x y r Hx Hy ->. rewrite sgn_b2z. unfold signed_by. conjs; intros S.
    + rewrite Z.sgn_pos, Z.mul_1_l by lia. apply to_s_id; [lia|exact Hx].
    + subst y. cbn [Z.sgn]. rewrite Z.mul_0_l. apply to_s_id; [lia|]. unfold int_range; lia.
    + rewrite Z.sgn_neg by lia. replace (-1 * x) with (- x) by lia. apply to_s_wraps; lia.
Qed.
Print Assumptions C53_sign.
Theorem C53_order n a b lo hi : length a = n -> length b = n ->
  lanewise2 n (fun x y r => r = Z.min x y) a b (vmin a b) /\
  lanewise2 n (fun x y r => r = Z.max x y) a b (vmax a b) /\
  (lo <= hi ->
   lanewise1 n (fun x r => (x < lo -> r = lo) /\ (lo <= x <= hi -> r = x) /\ (hi < x -> r = hi)) a (vclamp a lo hi)).
Proof.
  intros La Lb. conjs; [apply lane2; assumption..|]. intros H.
  assert (F : Forall (fun _ => True) a) by (apply Forall_forall; auto).
  eapply lanewise1_impl; [exact La|exact F| |apply lane1; eassumption]. cbv beta. intros x r _ ->. lia.
Qed.
Print Assumptions C53_order.

(** ** comparisons give all ones or all zeros *)
Lemma mask_ok w (b : bool) (P : Prop) : 0 < w -> (b = true <-> P) -> is_mask w P (to_u w (- b2z b)).
Proof.
  intros W E. pose proof (pow_split w W). pose proof (pow_pos (w - 1) ltac:(lia)). unfold is_mask, to_u, b2z. split; intros HP.
  - apply E in HP. rewrite HP. rewrite <- (Z.mod_add (- 1) 1) by lia. rewrite Z.mod_small; lia.
  - destruct b; [exfalso; apply HP, E; reflexivity|]. apply Z.mod_0_l. lia.
Qed.
Theorem C53_masks w n a b : 0 < w -> length a = n -> length b = n ->
  lanewise1 n (fun x r => is_mask w (x > 0) r) a (vcgtz w a) /\
  lanewise1 n (fun x r => is_mask w (x = 0) r) a (vceqz w a) /\
  lanewise1 n (fun x r => is_mask w (x < 0) r) a (vcltz w a) /\
  lanewise1 n (fun x r => is_mask w (x <= 0) r) a (vclez w a) /\
  lanewise2 n (fun x y r => is_mask w (x > y) r) a b (vcgt w a b) /\
  lanewise2 n (fun x y r => is_mask w (x = y) r) a b (vceq w a b).
Proof.
  intros W La Lb.
  assert (Fa : Forall (fun _ => True) a) by (apply Forall_forall; auto).
  assert (Fb : Forall (fun _ => True) b) by (apply Forall_forall; auto). conjs.
  1-4: eapply lanewise1_impl; [exact La|exact Fa| |apply lane1; eassumption];
        cbv beta; intros x r _ ->; apply mask_ok; lia.
  all: eapply lanewise2_impl; [exact La|exact Lb|exact Fa|exact Fb| |apply lane2; eassumption];
        cbv beta; intros x y r _ _ ->; apply mask_ok; lia.
Qed.
Print Assumptions C53_masks.

(** ** the bitwise operations on unsigned lanes *)
Lemma bits_u w z k : 0 <= w -> Z.testbit (to_u w z) k = (if k <? w then Z.testbit z k else false).
Proof.
  intros W. unfold to_u. destruct (Z.ltb_spec k w).
  - apply Z.mod_pow2_bits_low; lia.
  - apply Z.mod_pow2_bits_high; lia.
Qed.
Definition bits_are (w r : Z) (f : Z -> bool) : Prop := uint_range w r /\ forall k, 0 <= k < w -> Z.testbit r k = f k.
Theorem C53_bitwise w n a b c : 0 < w -> uvec w n a -> uvec w n b -> uvec w n c ->
  lanewise1 n (fun x r => bits_are w r (fun k => negb (Z.testbit x k))) a (vnot w a) /\
  lanewise2 n (fun x y r => bits_are w r (fun k => Z.testbit x k || Z.testbit y k)) a b (vorr w a b) /\
  lanewise2 n (fun x y r => bits_are w r (fun k => Z.testbit x k && Z.testbit y k)) a b (vand w a b) /\
  lanewise2 n (fun x y r => bits_are w r (fun k => xorb (Z.testbit x k) (Z.testbit y k))) a b (veor w a b) /\
  lanewise2 n (fun x y r => bits_are w r (fun k => Z.testbit x k && negb (Z.testbit y k))) a b (vbic w a b) /\
  lanewise3 n (fun x y z r => bits_are w r (fun k => if Z.testbit x k then Z.testbit y k else Z.testbit z k))
    a b c (vbsl w a b c).
Proof.
  intros W (La & Fa) (Lb & Fb) (Lc & Fc). conjs.
  1: eapply lanewise1_impl; [exact La|exact Fa| |apply lane1; eassumption]; cbv beta; intros x r Hx ->.
  2-5: eapply lanewise2_impl; [exact La|exact Lb|exact Fa|exact Fb| |apply lane2; eassumption];
        cbv beta; intros x y r Hx Hy ->.
  6: eapply lanewise3_impl; [exact La|exact Lb|exact Lc|exact Fa|exact Fb|exact Fc| |apply lane3; eassumption];
        cbv beta; intros x y z r Hx Hy Hz ->.
  all: split; [apply to_u_range; lia|]; intros k Hk; rewrite bits_u by lia; replace (k <? w) with true by lia.
  - apply Z.lnot_spec. lia.
  - apply Z.lor_spec.
  - apply Z.land_spec.
  - apply Z.lxor_spec.
  - rewrite Z.land_spec, Z.lnot_spec by lia. reflexivity.
  - rewrite Z.lor_spec, !Z.land_spec, Z.lnot_spec by lia.
    destruct (Z.testbit x k), (Z.testbit y k), (Z.testbit z k); reflexivity.
Qed.
Print Assumptions C53_bitwise.

(** selecting with a comparison mask takes whole lanes: [vbsl(vcgt(x, y), b, c)] is lane-wise
    [x > y ? b : c] *)
Theorem C53_select w n x y b c : 0 < w -> length x = n -> length y = n -> uvec w n b -> uvec w n c ->
  forall i, (i < n)%nat ->
  nth i (vbsl w (vcgt w x y) b c) 0 = if nth i x 0 >? nth i y 0 then nth i b 0 else nth i c 0.
Proof.
  intros W Lx Ly (Lb & Fb) (Lc & Fc) i Hi. rewrite Forall_forall in Fb, Fc.
  assert (Hb : uint_range w (nth i b 0)) by (apply Fb, nth_In; lia).
  assert (Hc : uint_range w (nth i c 0)) by (apply Fc, nth_In; lia).
  destruct (C53_masks w n x y W Lx Ly) as (_ & _ & _ & _ & (LM & M) & _). specialize (M i Hi). destruct M as (M1 & M2).
  unfold vbsl. rewrite (nth_map3 _ _ _ _ i 0 0 0) by lia.
  pose proof (pow_split w W). pose proof (pow_pos (w - 1) ltac:(lia)).
  destruct (Z.gtb_spec (nth i x 0) (nth i y 0)) as [G|G].
  - rewrite M1 by lia. replace (2 ^ w - 1) with (Z.ones w) by (rewrite Z.ones_equiv; lia).
    apply Z.bits_inj'. intros k Hk. rewrite bits_u by lia. destruct (Z.ltb_spec k w).
    + rewrite Z.lor_spec, !Z.land_spec, Z.lnot_spec, Z.ones_spec_low by lia. cbn. apply orb_false_r.
    + symmetry. rewrite <- (to_u_id w (nth i b 0) Hb). rewrite bits_u by lia. replace (k <? w) with false by lia. reflexivity.
  - rewrite M2 by lia. rewrite Z.land_0_l, Z.lor_0_l. change (Z.lnot 0) with (-1). rewrite Z.land_m1_l. apply to_u_id, Hc.
Qed.
Print Assumptions C53_select.

(** ** reinterpreting lanes keeps the bits *)
Theorem C53_reinterpret w n a u : 0 < w -> svec w n a -> uvec w n u ->
  vsigned w (vunsigned w a) = a /\ vunsigned w (vsigned w u) = u /\
  lanewise1 n (fun x r => wraps_to w x r) u (vsigned w u) /\
  lanewise1 n (fun x r => uint_range w r /\ exists k, x = r + k * 2 ^ w) a (vunsigned w a).
Proof.
  intros W (La & Fa) (Lu & Fu). unfold vsigned, vunsigned. conjs.
  - rewrite map_map. rewrite <- (map_id a) at 2. apply map_ext_in. intros x Hx. rewrite to_s_to_u_w by lia.
    apply to_s_id; [lia|]. rewrite Forall_forall in Fa. apply Fa, Hx.
  - rewrite map_map. rewrite <- (map_id u) at 2. apply map_ext_in. intros x Hx. rewrite to_u_to_s by lia.
    apply to_u_id. rewrite Forall_forall in Fu. apply Fu, Hx.
  - eapply lanewise1_impl; [exact Lu|exact Fu| |apply lane1; eassumption]. cbv beta. intros x r Hx ->. apply to_s_wraps; lia.
  - eapply lanewise1_impl; [exact La|exact Fa| |apply lane1; eassumption]. cbv beta. intros x r Hx ->.
    split; [apply to_u_range; lia|]. exists (x / 2 ^ w). unfold to_u. pose proof (pow_pos w ltac:(lia)).
    pose proof (Z.div_mod x (2 ^ w) ltac:(lia)). lia.
Qed.
Print Assumptions C53_reinterpret.

(** ** shuffling: lane [i] of the result is lane [b[i]] of [a], or zero if there is no such lane *)
Theorem C53_shuffle w n a b : uvec w n b -> length a = n ->
  lanewise1 n (fun y r => (y < Z.of_nat n -> exists j, (j < n)%nat /\ Z.of_nat j = y /\ r = nth j a 0) /\
                          (Z.of_nat n <= y -> r = 0)) b (vshuf a b).
Proof.
  intros (Lb & Fb) La. eapply lanewise1_impl; [exact Lb|exact Fb| |apply lane1; eassumption].
  cbv beta. intros y r Hy ->. unfold uint_range in Hy. rewrite La. split; intros H.
  - replace (y <? Z.of_nat n) with true by lia. exists (Z.to_nat y). repeat split; lia.
  - replace (y <? Z.of_nat n) with false by lia. reflexivity.
Qed.
Print Assumptions C53_shuffle.

(** ** the arithmetic of 8 and 16 bit lanes is never undefined: it is the total model the decoders are proved with *)
Theorem C53_narrow_defined w n a b : w = 8 \/ w = 16 -> svec w n a -> svec w n b ->
  vneg_c w a = Ok (vneg w a) /\ vabs_c w a = Ok (vabs w a) /\ vqabs_c w a = Ok (vqabs w a) /\
  vadd_c w a b = Ok (vadd w a b) /\ vsub_c w a b = Ok (vsub w a b) /\ vmul_c w a b = Ok (vmul w a b) /\
  vsignum_c w a = Ok (vsignum a) /\ vsign_c w a b = Ok (vsign w a b).
Proof.
  intros W Ha Hb. destruct (narrow w W) as (H1 & H2 & H3 & H4 & H5).
  assert (P31 : 2 ^ (32 - 1) = 2147483648) by reflexivity. conjs.
  - apply (narrow1 w n (fun x => - x)); [lia|exact Ha|]. unfold int_range. rewrite P31. intros; lia.
  - apply (narrow1 w n (fun x => Z.abs x)); [lia|exact Ha|]. unfold int_range. rewrite P31. intros; lia.
  - apply (narrow1 w n (fun x => Z.abs (Z.max x (- s_max w)))); [lia|exact Ha|]. unfold int_range, s_max. rewrite P31. intros; lia.
  - apply (narrow2 w n (fun x y => x + y)); [lia|exact Ha|exact Hb|]. unfold int_range. rewrite P31. intros; lia.
  - apply (narrow2 w n (fun x y => x - y)); [lia|exact Ha|exact Hb|]. unfold int_range. rewrite P31. intros; lia.
  - apply (narrow2 w n (fun x y => x * y)); [lia|exact Ha|exact Hb|]. unfold int_range. rewrite P31. intros; nia.
  - unfold vsignum_c. rewrite (narrow1 w n (fun x => b2z (0 <? x) - b2z (x <? 0))); [|lia|exact Ha|].
    + f_equal. unfold vsignum. apply map_ext. intros x. apply to_s_id; [lia|]. unfold int_range, b2z.
      destruct (0 <? x), (x <? 0); lia.
    + intros x _. unfold int_range, b2z. rewrite P31. destruct (0 <? x), (x <? 0); lia.
  - apply (narrow2 w n (fun x y => (b2z (0 <? y) - b2z (y <? 0)) * x)); [lia|exact Ha|exact Hb|].
    intros x y Hx Hy. rewrite sgn_b2z. unfold int_range in *. rewrite P31. destruct y; cbn [Z.sgn]; lia.
Qed.
Print Assumptions C53_narrow_defined.

(** ** 32 and 64 bit lanes: the exact result when it fits the type in every lane, undefined otherwise *)
Theorem C53_wide w n a b : w = 32 \/ w = 64 -> svec w n a -> svec w n b ->
  ((forall i, (i < n)%nat -> int_range w (nth i a 0 + nth i b 0)) ->
     exists v, vadd_c w a b = Ok v /\ lanewise2 n (fun x y r => r = x + y) a b v) /\
  (~ (forall i, (i < n)%nat -> int_range w (nth i a 0 + nth i b 0)) -> vadd_c w a b = Undef) /\
  ((forall i, (i < n)%nat -> int_range w (nth i a 0 - nth i b 0)) ->
     exists v, vsub_c w a b = Ok v /\ lanewise2 n (fun x y r => r = x - y) a b v) /\
  (~ (forall i, (i < n)%nat -> int_range w (nth i a 0 - nth i b 0)) -> vsub_c w a b = Undef) /\
  ((forall i, (i < n)%nat -> int_range w (nth i a 0 * nth i b 0)) ->
     exists v, vmul_c w a b = Ok v /\ lanewise2 n (fun x y r => r = x * y) a b v) /\
  (~ (forall i, (i < n)%nat -> int_range w (nth i a 0 * nth i b 0)) -> vmul_c w a b = Undef) /\
  ((forall i, (i < n)%nat -> int_range w (Z.sgn (nth i b 0) * nth i a 0)) ->
     exists v, vsign_c w a b = Ok v /\ lanewise2 n (fun x y r => r = Z.sgn y * x) a b v) /\
  (~ (forall i, (i < n)%nat -> int_range w (Z.sgn (nth i b 0) * nth i a 0)) -> vsign_c w a b = Undef).
Proof.
  intros W (La & Fa) (Lb & Fb). assert (W' : 32 <= w) by lia.
  destruct (exact2 w n (fun x y => x + y) a b W' La Lb) as (A1 & A2).
  destruct (exact2 w n (fun x y => x - y) a b W' La Lb) as (B1 & B2).
  destruct (exact2 w n (fun x y => x * y) a b W' La Lb) as (C1 & C2).
  destruct (exact2 w n (fun x y => (b2z (0 <? y) - b2z (y <? 0)) * x) a b W' La Lb) as (D1 & D2).
  assert (G : forall i, (b2z (0 <? nth i b 0) - b2z (nth i b 0 <? 0)) * nth i a 0 = Z.sgn (nth i b 0) * nth i a 0)
    by (intros i; rewrite sgn_b2z; reflexivity).
  split; [exact A1|]. split; [exact A2|]. split; [exact B1|]. split; [exact B2|]. split; [exact C1|]. split; [exact C2|].
  split.
  - intros H. destruct D1 as (v & E & (Lv & N)); [intros i Hi; cbv beta; rewrite G; auto|]. exists v. split; [exact E|].
    split; [exact Lv|]. intros i Hi. rewrite <- G. apply N, Hi.
  - intros H. apply D2. intros H'. apply H. intros i Hi. rewrite <- G. apply H', Hi.
Qed.
Print Assumptions C53_wide.
Theorem C53_wide_unary w n a : w = 32 \/ w = 64 -> svec w n a ->
  ((forall i, (i < n)%nat -> int_range w (- nth i a 0)) ->
     exists v, vneg_c w a = Ok v /\ lanewise1 n (fun x r => r = - x) a v) /\
  (~ (forall i, (i < n)%nat -> int_range w (- nth i a 0)) -> vneg_c w a = Undef) /\
  ((forall i, (i < n)%nat -> int_range w (Z.abs (nth i a 0))) ->
     exists v, vabs_c w a = Ok v /\ lanewise1 n (fun x r => r = Z.abs x) a v) /\
  (~ (forall i, (i < n)%nat -> int_range w (Z.abs (nth i a 0))) -> vabs_c w a = Undef) /\
  (exists v, vqabs_c w a = Ok v /\ lanewise1 n (fun x r => saturated w (Z.abs x) r) a v) /\
  (exists v, vsignum_c w a = Ok v /\ lanewise1 n (fun x r => r = Z.sgn x) a v).
Proof.
  intros W (La & Fa). assert (W' : 32 <= w) by lia.
  assert (PW : 2147483648 <= 2 ^ (w - 1)) by (destruct W as [-> | ->]; vm_compute; congruence).
  assert (R : forall i, (i < n)%nat -> int_range w (nth i a 0))
    by (intros i Hi; rewrite Forall_forall in Fa; apply Fa, nth_In; lia).
  destruct (exact1 w n (fun x => - x) a W' La) as (A1 & A2).
  destruct (exact1 w n (fun x => Z.abs x) a W' La) as (B1 & B2).
  destruct (exact1 w n (fun x => Z.abs (Z.max x (- s_max w))) a W' La) as (C1 & _).
  destruct (exact1 w n (fun x => b2z (0 <? x) - b2z (x <? 0)) a W' La) as (D1 & _).
  split; [exact A1|]. split; [exact A2|]. split; [exact B1|]. split; [exact B2|]. split.
  - destruct C1 as (v & E & N).
    { intros i Hi. specialize (R i Hi). unfold int_range, s_max in *. lia. }
    exists v. split; [exact E|]. eapply lanewise1_impl; [exact La|exact Fa| |exact N]. cbv beta. intros x r Hx ->.
    unfold saturated, int_range, s_max in *. lia.
  - destruct D1 as (v & E & (Lv & N)).
    { intros i Hi. rewrite sgn_b2z. unfold int_range. lia. }
    exists v. split; [exact E|]. split; [exact Lv|]. intros i Hi. rewrite N by exact Hi. apply sgn_b2z.
Qed.
Print Assumptions C53_wide_unary.

(** non-vacuity: a concrete vector on which every interesting case occurs *)
Definition ex_a : list Z := [-128; -127; -1; 0; 1; 100; 127].
Definition ex_b : list Z := [-1; -128; 127; -5; 0; 100; 127].
Example C53_case : svec 8 7 ex_a /\ svec 8 7 ex_b /\
  vqadd 8 ex_a ex_b = [-128; -128; 126; -5; 1; 127; 127] /\
  vqsub 8 ex_a ex_b = [-127; 1; -128; 5; 1; 0; 0] /\
  vqabs 8 ex_a = [127; 127; 1; 0; 1; 100; 127] /\
  vsign 8 ex_a ex_b = [-128; 127; -1; 0; 0; 100; 127] /\
  vcgt 8 ex_a ex_b = [0; 255; 0; 255; 255; 0; 0] /\
  vbsl 8 (vcgt 8 ex_a ex_b) (vunsigned 8 ex_a) (vunsigned 8 ex_b) = [255; 129; 127; 0; 1; 100; 127].
Proof.
  split; [|split]; [split; [reflexivity|]; repeat (apply Forall_cons; [unfold int_range; cbn; lia|]); apply Forall_nil..|].
  vm_compute. repeat split.
Qed.
Example C53_wide_case : vadd_c 32 [1; 2147483647] [2; 0] = Ok [3; 2147483647] /\ vadd_c 32 [1; 2147483647] [2; 1] = Undef /\
  vneg_c 32 [-2147483648] = Undef /\ vqabs_c 32 [-2147483648] = Ok [2147483647].
Proof. vm_compute. repeat split. Qed.
