(** What the list decoders use of the back ends, lane by lane: the operations of polar_helper.hh, broadcasts, lanes written one by one, shuffles. *)
From Coq Require Import ZifyBool ZifyNat Floats.SpecFloat.
From Verif Require Import Cpp Lib_sim Model_simd Model_simd2 Model_sort Model_intrin Model_backend Model_polar Model_polar_list Model_polar_float Model_fsimd Model_polar_listf Model_polar_listg
  Spec_polar Spec_ieee Spec_simd Spec_polar_float
  Lib_list Lib_wht Lib_float Lib_float2 Proof_bits Proof_simd Proof_simd2 Proof_intrin Proof_polar1 Proof_polar2 Proof_polar3 Proof_polar4 Proof_polar5 Proof_polarf0 Proof_polarf2 Proof_polar7
  Proof_ieee Proof_fsimd1 Prop_backend_shuf Prop_fsimd Proof_fsimd2 Prop_fsimd2 Proof_plist1 Proof_plf1 Proof_plg1.
Local Open Scope nat_scope.
Ltac Zify.zify_post_hook ::= idtac.

(** ** Registers *)
Section Regs.
Variables (mw ew N : Z).
Notation w := (ieee_width mw ew).
Notation c := (count N w).
Lemma registers_len K : forall l, length (registers mw ew N K l) = K.
Proof. induction K as [|K IH]; intros l; [reflexivity|]. cbn [registers length]. rewrite IH. reflexivity. Qed.
Lemma registers_lanes K : (0 <= w)%Z -> forall l, length l = K * c -> lanes_u N w (registers mw ew N K l) = map (to_u w) l.
Proof.
  intros Hw. induction K as [|K IH]; intros l L.
  - destruct l; [reflexivity|]. cbn in L. discriminate.
  - unfold lanes_u in *. cbn [registers map concat]. rewrite lanes_pack_n by (try exact Hw; rewrite firstn_length; lia). rewrite IH by (rewrite skipn_length; lia).
    rewrite <- map_app, firstn_skipn. reflexivity.
Qed.
End Regs.
Lemma map_registers_len K : forall l, length (map_registers K l) = K.
Proof. induction K as [|K IH]; intros l; [reflexivity|]. cbn [map_registers length]. rewrite IH. reflexivity. Qed.
Lemma map_registers_lanes K : forall l, length l = K * 8 -> lanes_u 256 32 (map_registers K l) = map (to_u 32) l.
Proof.
  induction K as [|K IH]; intros l L.
  - destruct l; [reflexivity|]. cbn in L. discriminate.
  - unfold lanes_u in *. cbn [map_registers map concat]. change (count 256 32) with 8 in *. rewrite lanes_pack_n by (try lia; rewrite firstn_length; lia). rewrite IH by (rewrite skipn_length; lia).
    rewrite <- map_app, firstn_skipn. reflexivity.
Qed.

Section Backend.
Variables (mw ew N : Z) (K : nat).
Hypothesis F : ieee_format mw ew.
Notation w := (ieee_width mw ew).
Notation prec := (ieee_prec mw).
Notation emax := (ieee_emax ew).
Notation num := (float_of_bits mw ew).
Notation fl := (flanes mw ew N).
Let Hp : (1 < prec)%Z := Hprec mw ew F.
Let He : (prec < emax)%Z := Hemax mw ew F.
Notation W := (K * count N w).
Notation Pf := (opsfv prec emax W).
Notation number x := (is_nan x = false).
Definition reg (v : list Z) : Prop := length v = K.

(** what a back end has to provide *)
Record serves (Q : list_ops (list Z)) : Prop := mk_serves {
  sv_lanes : forall v, lo_lanes Q v = fl v;
  sv_one : Rv Q reg (p_one Pf) (p_one (lo_polar Q));
  sv_mul : forall a b, reg a -> reg b -> Rv Q reg (p_mul Pf (fl a) (fl b)) (p_mul (lo_polar Q) a b);
  sv_prod : forall a b, reg a -> reg b -> Forall (fun x => number x) (fl a) -> Forall (fun x => number x) (fl b) -> Rv Q reg (p_prod Pf (fl a) (fl b)) (p_prod (lo_polar Q) a b);
  sv_madd : forall h a b, reg h -> reg a -> reg b -> Rv Q reg (p_madd Pf (fl h) (fl a) (fl b)) (p_madd (lo_polar Q) h a b);
  sv_dup : forall x, valid_binary prec emax x = true -> number x -> Rv Q reg (repeat x W) (lo_dup Q x);
  sv_make : forall l, length l = W -> Forall (hardf prec) l -> Rv Q reg l (lo_make Q l);
  sv_shuf : forall a m, reg a -> is_map W m -> Rv Q reg (fv_shuf (fl a) m) (lo_shuf Q a m);
  sv_mshuf : forall a m, is_map W a -> is_map W m -> lo_mshuf Q a m = vshuf a m }.

Lemma make_ok nanv l : length l = W -> Forall (fun x => valid_binary prec emax x = true /\ number x) l ->
  length (make_lanes mw ew N K nanv l) = K /\ fl (make_lanes mw ew N K nanv l) = l.
Proof.
  intros L Fl. pose proof (w_pos mw ew F) as PW. unfold make_lanes. split; [apply registers_len|]. unfold flanes. rewrite registers_lanes by (try lia; rewrite map_length; exact L).
  rewrite !map_map. rewrite <- (map_id l) at 2. apply map_ext_in. intros x Hx. rewrite Forall_forall in Fl. destruct (Fl x Hx) as (Vx & Nx).
  destruct (bits_ok mw ew F nanv x Vx) as (A & B); [congruence|]. rewrite to_u_id by exact B. exact A.
Qed.
Lemma generic_ok a m : reg a -> is_map W m -> length (generic_shuf mw ew N K a m) = K /\ fl (generic_shuf mw ew N K a m) = fv_shuf (fl a) m.
Proof.
  intros La (Lm & _). pose proof (w_pos mw ew F) as PW. unfold generic_shuf. split; [apply registers_len|]. unfold flanes. rewrite registers_lanes by (try lia; rewrite map_length; exact Lm).
  rewrite !map_map. unfold fv_shuf. rewrite map_length. apply map_ext. intros i. destruct (i <? _)%Z eqn:E.
  - rewrite to_u_id.
    + rewrite <- (map_nth num). rewrite (num_zero mw ew F). reflexivity.
    + destruct (Nat.lt_ge_cases (Z.to_nat i) (length (lanes_u N w a))) as [C0|C0].
      * pose proof (lanes_u_range N w a ltac:(lia)) as R. rewrite Forall_forall in R. apply R. apply nth_In. exact C0.
      * rewrite nth_overflow by exact C0. split; [lia|]. apply Z.pow_pos_nonneg; lia.
  - rewrite to_u_id by (split; [lia|apply Z.pow_pos_nonneg; lia]). apply (num_zero mw ew F).
Qed.
Lemma hard_number x : hardf prec x -> valid_binary prec emax x = true /\ number x.
Proof. intros H. split; [apply hardf_valid; assumption|]. destruct H as [(s & ->)|[-> | ->]]; reflexivity. Qed.

Section Ops.
Variables (dup1 : list Z) (sg ab : list Z -> list Z) (mul add mn : list Z -> list Z -> list Z) (dup : spec_float -> list Z) (nanv : Z) (shuf : list Z -> list Z -> list Z) (mshuf : list Z -> list Z -> list Z).
Notation P := (mk_ops (list Z) dup1 sg mul (fun a b => mul (mul (sg a) (sg b)) (mn (ab a) (ab b))) (fun a b c => add (mul a b) c)).
Notation Q := (mk_lops (list Z) P dup (fun v => map num (lanes_u N w v)) (make_lanes mw ew N K nanv) shuf mshuf).
Hypothesis Ldup : length dup1 = K.
Hypothesis Lsg : forall a, length a = K -> length (sg a) = K.
Hypothesis Lab : forall a, length a = K -> length (ab a) = K.
Hypothesis Lmul : forall a b, length a = K -> length b = K -> length (mul a b) = K.
Hypothesis Ladd : forall a b, length a = K -> length b = K -> length (add a b) = K.
Hypothesis Lmn : forall a b, length a = K -> length b = K -> length (mn a b) = K.
Hypothesis Edup : fl dup1 = repeat (of_int prec emax 1) W.
Hypothesis Esg : forall a, length a = K -> Forall (fun x => number x) (fl a) -> fl (sg a) = map (signumf prec emax) (fl a).
Hypothesis Emul : forall a b, length a = K -> length b = K -> fl (mul a b) = map2 (SFmul prec emax) (fl a) (fl b).
Hypothesis Eadd : forall a b, length a = K -> length b = K -> fl (add a b) = map2 (SFadd prec emax) (fl a) (fl b).
Hypothesis Emn : forall a b, length a = K -> length b = K -> Forall (fun x => number x) (fl a) -> Forall (fun x => number x) (fl b) -> fl (mn (ab a) (ab b)) = map2 minf (map SFabs (fl a)) (map SFabs (fl b)).
Hypothesis Ddup : forall x, valid_binary prec emax x = true -> number x -> length (dup x) = K /\ fl (dup x) = repeat x W.
Hypothesis Dshuf : forall a m, reg a -> is_map W m -> length (shuf a m) = K /\ fl (shuf a m) = fv_shuf (fl a) m.
Hypothesis Dmshuf : forall a m, is_map W a -> is_map W m -> mshuf a m = vshuf a m.
Lemma ops_serve : serves Q.
Proof.
  constructor; unfold Rv; cbn [lo_polar lo_dup lo_lanes lo_make lo_shuf lo_mshuf p_one p_signum p_mul p_prod p_madd opsfv]; try reflexivity; try assumption.
  - split; [exact Ldup|exact Edup].
  - intros a b La Lb. split; [apply Lmul; assumption|]. apply Emul; assumption.
  - intros a b La Lb Na Nb. assert (Lsa := Lsg a La). assert (Lsb := Lsg b Lb). assert (Laa := Lab a La). assert (Lbb := Lab b Lb). split; [apply Lmul; [apply Lmul; assumption|apply Lmn; assumption]|].
    change (map num (lanes_u N w ?x)) with (fl x). pose proof (Lmul _ _ Lsa Lsb). pose proof (Lmn _ _ Laa Lbb).
    etransitivity; [apply Emul; assumption|]. rewrite Emul, Emn, !Esg by assumption. reflexivity.
  - intros h a b Lh La Lb. assert (Lm := Lmul _ _ Lh La). split; [apply Ladd; assumption|]. etransitivity; [apply Eadd; assumption|]. rewrite Emul by assumption. reflexivity.
  - intros l L Fl. apply make_ok; [exact L|]. eapply Forall_impl; [|exact Fl]. intros x. apply hard_number.
Qed.
End Ops.
End Backend.

Section Instances.
Variables (mw ew : Z).
Hypothesis F : ieee_format mw ew.
Notation w := (ieee_width mw ew).
Notation prec := (ieee_prec mw).
Notation emax := (ieee_emax ew).
Notation num := (float_of_bits mw ew).
Notation fl := (flanes mw ew).
Variables (nan : Z -> Z -> Z) (K : nat).
Hypothesis HN : returns_nan mw ew nan.

Lemma x86_ops N nanv shuf mshuf :
  (forall a m, reg K a -> is_map (K * count N w) m -> length (shuf a m) = K /\ fl N (shuf a m) = fv_shuf (fl N a) m) ->
  (forall a m, is_map (K * count N w) a -> is_map (K * count N w) m -> mshuf a m = vshuf a m) ->
  serves mw ew N K (mk_lops (list Z) (opsf_x86 mw ew N nan K) (fun x => x86_fdup mw ew N K (bits_of_float mw ew nanv x)) (fun v => map num (lanes_u N w v)) (make_lanes mw ew N K nanv) shuf mshuf).
Proof.
  intros HS HM. destruct (one_bits_ok mw ew F) as (O1 & O2). unfold opsf_x86. apply (ops_serve mw ew N K F) with (ab := x86_fabs mw ew N) (mn := x86_fmin mw ew N); try assumption.
  - apply repeat_length.
  - intros a L. unfold x86_fsignum. rewrite map_length. exact L.
  - intros a L. unfold x86_fabs. rewrite map_length. exact L.
  - intros a b La Lb. unfold x86_fmul. rewrite length_map2. lia.
  - intros a b La Lb. unfold x86_fadd. rewrite length_map2. lia.
  - intros a b La Lb. unfold x86_fmin. rewrite length_map2. lia.
  - rewrite (proj1 (C70_dup mw ew F N K (one_bits mw ew) [] O2)), O1. reflexivity.
  - intros a La Fa. rewrite (proj1 (C70_signum mw ew F N a)). apply signum_same; assumption.
  - intros a b La Lb. apply (C70_arithmetic mw ew F N nan a b HN). congruence.
  - intros a b La Lb. apply (C70_arithmetic mw ew F N nan a b HN). congruence.
  - intros a b La Lb Fa Fb. unfold x86_fmin, mm_min_p. destruct (C70_abs_copysign mw ew F N a a eq_refl) as (Ea & _). destruct (C70_abs_copysign mw ew F N b b eq_refl) as (Eb & _). unfold fv_abs in Ea, Eb. rewrite <- Ea, <- Eb.
    apply abs_lanes_min; [exact F| | | | |].
    + intros x y Nx Ny. destruct (trichotomy _ _ Nx Ny) as [(A & B)|[(A & B)|(A & B & _)]]; rewrite A; repeat split; try congruence; auto.
    + unfold x86_fabs. rewrite !map_length. congruence.
    + intros x y X Y. destruct (SFltb _ _); assumption.
    + rewrite Ea. apply abs_idem. exact Fa.
    + rewrite Eb. apply abs_idem. exact Fb.
  - intros x Vx Nx. destruct (bits_ok mw ew F nanv x Vx) as (A & B); [congruence|]. split; [apply repeat_length|]. rewrite (proj1 (C70_dup mw ew F N K (bits_of_float mw ew nanv x) [] B)), A. reflexivity.
Qed.
Lemma x86_serves N nanv : serves mw ew N K (lops_x86 mw ew N nan nanv K).
Proof. apply x86_ops; [|reflexivity]. intros a m La Hm. apply generic_ok; assumption. Qed.
Lemma neon_serves nanv : serves mw ew 128 K (lops_neon mw ew nan nanv K).
Proof.
  destruct (one_bits_ok mw ew F) as (O1 & O2). unfold lops_neon, opsf_neon. apply (ops_serve mw ew 128 K F) with (ab := neon_fabs mw ew) (mn := neon_fmin mw ew nan).
  - apply repeat_length.
  - intros a L. unfold neon_fsignum. rewrite map_length. exact L.
  - intros a L. unfold neon_fabs. rewrite map_length. exact L.
  - intros a b La Lb. unfold neon_fmul. rewrite length_map2. lia.
  - intros a b La Lb. unfold neon_fadd. rewrite length_map2. lia.
  - intros a b La Lb. unfold neon_fmin. rewrite length_map2. lia.
  - destruct (C70_dup mw ew F 128 K (one_bits mw ew) [] O2) as (_ & _ & E & _). rewrite E, O1. reflexivity.
  - intros a La Fa. destruct (C70_signum mw ew F 128 a) as (_ & E & _). rewrite E. apply signum_same; assumption.
  - intros a b La Lb. apply (C70_arithmetic mw ew F 128 nan a b HN). congruence.
  - intros a b La Lb. apply (C70_arithmetic mw ew F 128 nan a b HN). congruence.
  - intros a b La Lb Fa Fb. unfold neon_fmin, vminq_f. destruct (C70_abs_copysign mw ew F 128 a a eq_refl) as (_ & Ea & _). destruct (C70_abs_copysign mw ew F 128 b b eq_refl) as (_ & Eb & _). unfold fv_abs in Ea, Eb. rewrite <- Ea, <- Eb.
    apply abs_lanes_min; [exact F| | | | |].
    + intros x y Nx Ny. rewrite Nx, Ny. cbn [orb]. destruct (trichotomy _ _ Nx Ny) as [(A & B)|[(A & B)|(A & B & _)]]; rewrite A, ?B; repeat split; try congruence; auto. destruct (sign_field mw ew x); auto.
    + unfold neon_fabs. rewrite !map_length. congruence.
    + intros x y X Y. destruct (_ || _); [apply HN|]. destruct (SFltb _ _); [assumption|]. destruct (SFltb _ _); [assumption|]. destruct (sign_field _ _ _); assumption.
    + rewrite Ea. apply abs_idem. exact Fa.
    + rewrite Eb. apply abs_idem. exact Fb.
  - intros x Vx Nx. destruct (bits_ok mw ew F nanv x Vx) as (A & B); [congruence|]. split; [apply repeat_length|]. destruct (C70_dup mw ew F 128 K (bits_of_float mw ew nanv x) [] B) as (_ & _ & E & _). rewrite E, A. reflexivity.
  - intros a m La Hm. apply generic_ok; assumption.
  - reflexivity.
Qed.
End Instances.
(** AVX2's shuffles of 32 bit lanes *)
Lemma small_map K m : 1 <= K <= 2 -> is_map (K * count 256 32) m -> lanes_u 256 32 (map_registers K m) = m /\ Forall (fun i => (i < 8 * Z.of_nat K)%Z) m.
Proof.
  change (count 256 32) with 8. intros HK (Lm & Fm). rewrite map_registers_lanes by exact Lm. split.
  - apply map_to_u_id. eapply Forall_impl; [|exact Fm]. intros i Hi. cbv beta in Hi. split; [lia|]. apply (Z.lt_trans _ 16); [lia|]. reflexivity.
  - eapply Forall_impl; [|exact Fm]. intros i Hi. cbv beta in Hi. lia.
Qed.
Lemma avx_len a b : 1 <= length a <= 2 -> length (avx_vshuf32 a b) = length b.
Proof. intros L. destruct a as [|x [|y [|]]]; cbn [length] in L; try lia; apply map_length. Qed.
Lemma avx2_serves nan nanv K : returns_nan 23 8 nan -> 1 <= K <= 2 -> serves 23 8 256 K (lops_avx2_float nan nanv K).
Proof.
  intros HN HK. unfold lops_avx2_float. apply (x86_ops 23 8 float_format nan K HN 256); change (ieee_width 23 8) with 32%Z.
  - intros a m La Hm. unfold reg in La. destruct (small_map K m HK Hm) as (E & B). split.
    + rewrite avx_len by lia. apply map_registers_len.
    + rewrite C70_shuffle; [rewrite E; reflexivity|lia|]. rewrite E, La. exact B.
  - intros a m Ha Hm. destruct (small_map K m HK Hm) as (E & B). destruct (small_map K a HK Ha) as (Ea & _).
    rewrite C54_avx2_shuffle32; rewrite ?map_registers_len, ?E, ?Ea; try lia; auto.
Qed.
