(** Property C71: the polar encoders and the decoder on float and double vectors, with the SSE4.1, AVX2 and NEON back ends. *)
From Coq Require Import ZifyBool ZifyNat Floats.SpecFloat.
From Verif Require Import Cpp Lib_sim Model_simd Model_simd2 Model_intrin Model_backend Model_polar Model_polar_float Model_fsimd Spec_polar Spec_ieee Spec_simd Spec_polar_float
  Lib_list Lib_wht Lib_float Lib_float2 Proof_bits Proof_simd Proof_simd2 Proof_intrin Proof_polar1 Proof_polar2 Proof_polar3 Proof_polar4 Proof_polar5 Proof_polarf0 Proof_polarf2
  Prop_polar Prop_polar_float Proof_ieee Proof_fsimd1 Prop_fsimd Proof_fsimd2.
Local Open Scope nat_scope.
Ltac Zify.zify_post_hook ::= idtac.

(** the numbers in lane [k] of a buffer of vectors *)
Definition lane_of (mw ew N : Z) (k : nat) (l : list (list Z)) : list spec_float := map (fun v => nth k (flanes mw ew N v) S754_nan) l.

Section Format.
Variables (mw ew : Z).
Hypothesis F : ieee_format mw ew.
Notation w := (ieee_width mw ew).
Notation prec := (ieee_prec mw).
Notation emax := (ieee_emax ew).
Notation emin := (ieee_emin mw ew).
Notation num := (float_of_bits mw ew).
Notation fl := (flanes mw ew).
Let Hp : (1 < prec)%Z := Hprec mw ew F.
Let He : (prec < emax)%Z := Hemax mw ew F.

Lemma signum_same N l : Forall (fun x => is_nan x = false) (map num (lanes_u N w l)) -> map (signum_lane mw ew) (lanes_u N w l) = map (signumf prec emax) (map num (lanes_u N w l)).
Proof.
  intros H. apply Forall_map in H. rewrite map_map. apply map_ext_in. intros x Hx. rewrite Forall_forall in H. unfold signum_lane. rewrite (H x Hx). rewrite signumf_ok by assumption. reflexivity.
Qed.
Lemma min_tie x y : SFltb x y = false -> SFltb y x = false -> x = SFabs x -> y = SFabs y -> is_nan x = false -> is_nan y = false -> x = y.
Proof. intros A B Ex Ey Nx Ny. rewrite Ex, Ey in *. apply abs_min; try assumption; rewrite <- ?Ex, <- ?Ey in *; assumption. Qed.

Section One.
Variables (nan : Z -> Z -> Z) (K : nat).
Hypothesis HN : returns_nan mw ew nan.
Lemma abs_lanes_min (f : Z -> Z -> Z) N (a b : list Z) : chooses_min mw ew f ->
  length a = length b -> (forall x y, uint_range w x -> uint_range w y -> uint_range w (f x y)) ->
  Forall (fun x => is_nan x = false /\ x = SFabs x) (fl N a) -> Forall (fun x => is_nan x = false /\ x = SFabs x) (fl N b) ->
  fl N (map2 (lanewise_2 N w f) a b) = map2 minf (fl N a) (fl N b).
Proof.
  intros C L R Fa Fb. pose proof (w_pos mw ew F). unfold flanes in *. rewrite (lanes_u_2 N w _ (fun x y => to_u w (f x y)) a b L) by (intros; apply lanes_lw2; lia). rewrite map_map2, map2_map.
  apply (map2_ext_in _ _ (fun x => uint_range w x /\ is_nan (num x) = false /\ num x = SFabs (num x)) (fun x => uint_range w x /\ is_nan (num x) = false /\ num x = SFabs (num x))).
  - apply Forall_and; [apply lanes_u_range; lia|]. apply Forall_map in Fa. exact Fa.
  - apply Forall_and; [apply lanes_u_range; lia|]. apply Forall_map in Fb. exact Fb.
  - intros x y (X & Nx & Ex) (Y & Ny & Ey). rewrite to_u_id by (apply R; assumption). destruct (C x y Nx Ny) as (C1 & C2 & C3). unfold minf.
    destruct (trichotomy _ _ Nx Ny) as [(A & B)|[(A & B)|(A & B & _)]]; rewrite B; auto. pose proof (min_tie _ _ A B Ex Ey Nx Ny) as E. rewrite <- E in C3. destruct C3; assumption.
Qed.
Lemma abs_idem l : Forall (fun x => is_nan x = false) l -> Forall (fun x => is_nan x = false /\ x = SFabs x) (map SFabs l).
Proof. intros H. apply Forall_map. eapply Forall_impl; [|exact H]. intros x Hx. destruct x; auto. Qed.

Lemma x86_node N T level : (emin <= T - Z.of_nat level)%Z -> (T <= emax - 1)%Z ->
  forall n fr, hom2 (fl N) (soft_v mw ew N K T level) (hard_v mw ew N K) n (fnode (opsf_x86 mw ew N nan K) n fr) (fnode (opsfv prec emax (K * count N w)) n fr).
Proof.
  intros T1 T2. destruct (one_bits_ok mw ew F) as (O1 & O2). unfold opsf_x86. apply backend_node; try assumption.
  - apply repeat_length.
  - intros a L. unfold x86_fsignum. rewrite map_length. exact L.
  - intros a L. unfold x86_fabs. rewrite map_length. exact L.
  - intros a b La Lb. unfold x86_fmul. rewrite length_map2. lia.
  - intros a b La Lb. unfold x86_fadd. rewrite length_map2. lia.
  - intros a b La Lb. unfold x86_fmin. rewrite length_map2. lia.
  - rewrite (proj1 (C70_dup mw ew F N K (one_bits mw ew) [] O2)), O1. reflexivity.
  - intros a La Fa. rewrite (proj1 (C70_signum mw ew F N a)). apply signum_same. exact Fa.
  - intros a La. apply (C70_abs_copysign mw ew F N a a eq_refl).
  - intros a b La Lb. apply (C70_arithmetic mw ew F N nan a b HN). congruence.
  - intros a b La Lb. apply (C70_arithmetic mw ew F N nan a b HN). congruence.
  - intros a b La Lb Fa Fb. unfold x86_fmin, mm_min_p. destruct (C70_abs_copysign mw ew F N a a eq_refl) as (Ea & _). destruct (C70_abs_copysign mw ew F N b b eq_refl) as (Eb & _). unfold fv_abs in Ea, Eb. rewrite <- Ea, <- Eb.
    apply abs_lanes_min.
    + intros x y Nx Ny. destruct (trichotomy _ _ Nx Ny) as [(A & B)|[(A & B)|(A & B & _)]]; rewrite A; repeat split; try congruence; auto.
    + unfold x86_fabs. rewrite !map_length. congruence.
    + intros x y X Y. destruct (SFltb _ _); assumption.
    + rewrite Ea. apply abs_idem. exact Fa.
    + rewrite Eb. apply abs_idem. exact Fb.
Qed.
Lemma neon_node T level : (emin <= T - Z.of_nat level)%Z -> (T <= emax - 1)%Z ->
  forall n fr, hom2 (fl 128) (soft_v mw ew 128 K T level) (hard_v mw ew 128 K) n (fnode (opsf_neon mw ew nan K) n fr) (fnode (opsfv prec emax (K * count 128 w)) n fr).
Proof.
  intros T1 T2. destruct (one_bits_ok mw ew F) as (O1 & O2). unfold opsf_neon. apply backend_node; try assumption.
  - apply repeat_length.
  - intros a L. unfold neon_fsignum. rewrite map_length. exact L.
  - intros a L. unfold neon_fabs. rewrite map_length. exact L.
  - intros a b La Lb. unfold neon_fmul. rewrite length_map2. lia.
  - intros a b La Lb. unfold neon_fadd. rewrite length_map2. lia.
  - intros a b La Lb. unfold neon_fmin. rewrite length_map2. lia.
  - destruct (C70_dup mw ew F 128 K (one_bits mw ew) [] O2) as (_ & _ & E & _). rewrite E, O1. reflexivity.
  - intros a La Fa. destruct (C70_signum mw ew F 128 a) as (_ & E & _). rewrite E. apply signum_same. exact Fa.
  - intros a La. apply (C70_abs_copysign mw ew F 128 a a eq_refl).
  - intros a b La Lb. apply (C70_arithmetic mw ew F 128 nan a b HN). congruence.
  - intros a b La Lb. apply (C70_arithmetic mw ew F 128 nan a b HN). congruence.
  - intros a b La Lb Fa Fb. unfold neon_fmin, vminq_f. destruct (C70_abs_copysign mw ew F 128 a a eq_refl) as (_ & Ea & _). destruct (C70_abs_copysign mw ew F 128 b b eq_refl) as (_ & Eb & _). unfold fv_abs in Ea, Eb. rewrite <- Ea, <- Eb.
    apply abs_lanes_min.
    + intros x y Nx Ny. rewrite Nx, Ny. cbn [orb]. destruct (trichotomy _ _ Nx Ny) as [(A & B)|[(A & B)|(A & B & _)]]; rewrite A, ?B; repeat split; try congruence; auto. destruct (sign_field mw ew x); auto.
    + unfold neon_fabs. rewrite !map_length. congruence.
    + intros x y X Y. destruct (_ || _); [apply HN|]. destruct (SFltb _ _); [assumption|]. destruct (SFltb _ _); [assumption|]. destruct (sign_field _ _ _); assumption.
    + rewrite Ea. apply abs_idem. exact Fa.
    + rewrite Eb. apply abs_idem. exact Fb.
Qed.
End One.

(** a decoder [P] whose nodes are those of the portable vectors *)
Lemma decode_lanes (P : polar_ops (list Z)) N K T MAX_M soft hard out received frozen level :
  (forall n fr, hom2 (fl N) (soft_v mw ew N K T level) (hard_v mw ew N K) n (fnode P n fr) (fnode (opsfv prec emax (K * count N w)) n fr)) ->
  decoder_buffers MAX_M soft hard out received frozen level -> Forall (fun v => length v = K) received ->
  Forall (fun v => Forall (at_most emin (T - Z.of_nat level)) (fl N v)) received ->
  exists soft' hard' message', polar_decode P MAX_M soft hard out received frozen level = Ok (soft', hard', message') /\
  forall k, k < K * count N w -> forall soft1 hard1, length soft1 = 2 * 2 ^ MAX_M -> length hard1 = 2 ^ MAX_M ->
  exists soft1' hard1', polar_decode (opsf prec emax) MAX_M soft1 hard1 (lane_of mw ew N k out) (lane_of mw ew N k received) frozen level = Ok (soft1', hard1', lane_of mw ew N k message') /\
    firstn (2 ^ level) hard1' = lane_of mw ew N k (firstn (2 ^ level) hard').
Proof.
  intros HP HB HK HR. pose proof (decode_gen' P [] MAX_M soft hard out received frozen level HB) as D.
  set (sl := firstn (2 ^ level) received) in *.
  assert (Fs : Forall (soft_v mw ew N K T level level) sl).
  { unfold sl. apply Forall_firstn_. apply Forall_forall. intros v Hv. rewrite Forall_forall in HK, HR. split; [apply HK; exact Hv|]. split; [lia|]. apply HR. exact Hv. }
  destruct (HP level (flags frozen (2 ^ level)) sl Fs) as (E1 & _). destruct (fnode P level (flags frozen (2 ^ level)) sl) as [m x]. cbn [fst snd] in E1.
  destruct D as (Lm & Lx & soft' & _ & D). rewrite D. do 3 eexists. split; [reflexivity|].
  intros k Hk s1 h1 Hs1 Hh1.
  assert (IW : Forall (fun v => length v = K * count N w) (map (fl N) sl)).
  { apply Forall_map. eapply Forall_impl; [|exact Fs]. intros v (L & _). apply fl_len. exact L. }
  destruct (lanesf_node prec emax (K * count N w) k Hk level (flags frozen (2 ^ level)) (map (fl N) sl) IW) as (E2 & _). rewrite E1 in E2. cbn [fst snd] in E2. rewrite !map_map in E2.
  assert (decoder_buffers MAX_M s1 h1 (lane_of mw ew N k out) (lane_of mw ew N k received) frozen level) as HB1.
  { destruct HB as (H1 & H2 & H3 & H4 & H5 & H6 & H7 & H8). unfold decoder_buffers, lane_of. rewrite !map_length. auto 10. }
  pose proof (decode_gen' (opsf prec emax) S754_nan MAX_M s1 h1 _ _ frozen level HB1) as D1.
  assert (firstn (2 ^ level) (lane_of mw ew N k received) = map (fun v => nth k (fl N v) S754_nan) sl) as Es by (unfold lane_of, sl; rewrite firstn_map; reflexivity).
  rewrite Es, E2 in D1. destruct D1 as (Lm1 & Lx1 & soft1' & _ & D1). rewrite D1. do 2 eexists. split.
  - do 2 f_equal. unfold lane_of. rewrite map_app, skipn_map, map_length. reflexivity.
  - rewrite !firstn_app, map_length, Lx, Nat.sub_diag, !firstn_O, !app_nil_r. unfold lane_of. rewrite !firstn_all2 by (rewrite ?map_length; lia). reflexivity.
Qed.
(** C71: every lane of the vectorised decoders gives, bit for bit, the message and the word of the scalar decoder of the portable code on the
    numbers of that lane, if these are finite and so far below the largest number that sums of [2 ^ level] of them do not overflow *)
Theorem C71_decode_x86 : forall N K nan MAX_M soft hard out received frozen level bound,
  returns_nan mw ew nan -> decoder_buffers MAX_M soft hard out received frozen level -> Forall (fun v => length v = K) received ->
  (emin <= bound)%Z -> (bound + Z.of_nat level <= emax - 1)%Z -> Forall (fun v => Forall (at_most emin bound) (fl N v)) received ->
  exists soft' hard' message', polar_decode (opsf_x86 mw ew N nan K) MAX_M soft hard out received frozen level = Ok (soft', hard', message') /\
  forall k, k < K * count N w -> forall soft1 hard1, length soft1 = 2 * 2 ^ MAX_M -> length hard1 = 2 ^ MAX_M ->
  exists soft1' hard1', polar_decode (opsf prec emax) MAX_M soft1 hard1 (lane_of mw ew N k out) (lane_of mw ew N k received) frozen level = Ok (soft1', hard1', lane_of mw ew N k message') /\
    firstn (2 ^ level) hard1' = lane_of mw ew N k (firstn (2 ^ level) hard').
Proof.
  intros N K nan MAX_M soft hard out r f n bd HN HB HK B1 B2 HR. apply (decode_lanes _ N K (bd + Z.of_nat n)); try assumption.
  - apply x86_node; [exact HN|lia|lia].
  - replace (bd + Z.of_nat n - Z.of_nat n)%Z with bd by lia. exact HR.
Qed.
Theorem C71_decode_neon : forall K nan MAX_M soft hard out received frozen level bound,
  returns_nan mw ew nan -> decoder_buffers MAX_M soft hard out received frozen level -> Forall (fun v => length v = K) received ->
  (emin <= bound)%Z -> (bound + Z.of_nat level <= emax - 1)%Z -> Forall (fun v => Forall (at_most emin bound) (fl 128 v)) received ->
  exists soft' hard' message', polar_decode (opsf_neon mw ew nan K) MAX_M soft hard out received frozen level = Ok (soft', hard', message') /\
  forall k, k < K * count 128 w -> forall soft1 hard1, length soft1 = 2 * 2 ^ MAX_M -> length hard1 = 2 ^ MAX_M ->
  exists soft1' hard1', polar_decode (opsf prec emax) MAX_M soft1 hard1 (lane_of mw ew 128 k out) (lane_of mw ew 128 k received) frozen level = Ok (soft1', hard1', lane_of mw ew 128 k message') /\
    firstn (2 ^ level) hard1' = lane_of mw ew 128 k (firstn (2 ^ level) hard').
Proof.
  intros K nan MAX_M soft hard out r f n bd HN HB HK B1 B2 HR. apply (decode_lanes _ 128 K (bd + Z.of_nat n)); try assumption.
  - apply neon_node; [exact HN|lia|lia].
  - replace (bd + Z.of_nat n - Z.of_nat n)%Z with bd by lia. exact HR.
Qed.

(** encoders *)
Lemma encode_lanes (P : polar_ops (list Z)) N K k : k < K * count N w ->
  length (p_one P) = K /\ fl N (p_one P) = repeat (of_int prec emax 1) (K * count N w) ->
  (forall a b, length a = K -> length b = K -> length (p_mul P a b) = K /\ fl N (p_mul P a b) = map2 (SFmul prec emax) (fl N a) (fl N b)) ->
  forall codeword message frozen level, Forall (fun v => length v = K) codeword -> Forall (fun v => length v = K) message ->
  let in_lane x y := match x with Ok l => y = Ok (lane_of mw ew N k l) | Abort => y = Abort | Undef => y = Undef | Fuel => y = Fuel end in
  in_lane (polar_encode P codeword message frozen level) (polar_encode (opsf prec emax) (lane_of mw ew N k codeword) (lane_of mw ew N k message) frozen level) /\
  in_lane (polar_sysenc P codeword message frozen level) (polar_sysenc (opsf prec emax) (lane_of mw ew N k codeword) (lane_of mw ew N k message) frozen level).
Proof.
  intros Hk (O1 & O2) HM cw m f n Fc Fm inl.
  set (R := fun (v : list Z) (x : spec_float) => length v = K /\ nth k (fl N v) S754_nan = x).
  assert (R1 : R (p_one P) (p_one (opsf prec emax))).
  { split; [exact O1|]. rewrite O2. cbn [p_one opsf]. rewrite (nth_indep _ _ (of_int prec emax 1)) by (rewrite repeat_length; exact Hk). apply nth_repeat. }
  assert (R2 : forall a x b y, R a x -> R b y -> R (p_mul P a b) (p_mul (opsf prec emax) x y)).
  { intros a x b y (La & <-) (Lb & <-). destruct (HM a b La Lb) as (L & E). split; [exact L|]. rewrite E. cbn [p_mul opsf]. apply nth_map2; rewrite !(fl_len mw ew N K) by assumption; [reflexivity|exact Hk]. }
  assert (RL : forall l, Forall (fun v => length v = K) l -> Forall2 R l (lane_of mw ew N k l)).
  { intros l H. induction H as [|v l Hv H IH]; cbn [lane_of map]; constructor; [split; [exact Hv|reflexivity]|exact IH]. }
  assert (RM : forall l l', Forall2 R l l' -> l' = lane_of mw ew N k l).
  { intros l l' H. induction H as [|v x l l' (_ & <-) H IH]; [reflexivity|]. cbn [lane_of map]. rewrite IH. reflexivity. }
  assert (G : forall x y, rel (Forall2 R) x y -> inl x y).
  { intros [l| | |] [l'| | |] H; cbn [rel] in H; try contradiction; try reflexivity. apply RM in H. rewrite H. reflexivity. }
  split; apply G.
  - apply (two_encode P (opsf prec emax) R R1 R2); apply RL; assumption.
  - apply (two_sysenc P (opsf prec emax) R R1 R2); apply RL; assumption.
Qed.
(** C71: every lane of the vectorised encoders encodes like the scalar ones, whatever the buffers contain *)
Theorem C71_encode : forall N K nan codeword message frozen level k,
  returns_nan mw ew nan -> Forall (fun v => length v = K) codeword -> Forall (fun v => length v = K) message ->
  let in_lane n x y := match x with Ok l => y = Ok (lane_of mw ew n k l) | Abort => y = Abort | Undef => y = Undef | Fuel => y = Fuel end in
  (k < K * count N w ->
   in_lane N (polar_encode (opsf_x86 mw ew N nan K) codeword message frozen level) (polar_encode (opsf prec emax) (lane_of mw ew N k codeword) (lane_of mw ew N k message) frozen level) /\
   in_lane N (polar_sysenc (opsf_x86 mw ew N nan K) codeword message frozen level) (polar_sysenc (opsf prec emax) (lane_of mw ew N k codeword) (lane_of mw ew N k message) frozen level)) /\
  (k < K * count 128 w ->
   in_lane 128%Z (polar_encode (opsf_neon mw ew nan K) codeword message frozen level) (polar_encode (opsf prec emax) (lane_of mw ew 128 k codeword) (lane_of mw ew 128 k message) frozen level) /\
   in_lane 128%Z (polar_sysenc (opsf_neon mw ew nan K) codeword message frozen level) (polar_sysenc (opsf prec emax) (lane_of mw ew 128 k codeword) (lane_of mw ew 128 k message) frozen level)).
Proof.
  intros N K nan cw m f n k HN Fc Fm inl. destruct (one_bits_ok mw ew F) as (O1 & O2). destruct (C70_dup mw ew F N K (one_bits mw ew) [] O2) as (D1 & _ & D2 & _).
  split; intros Hk; [apply (encode_lanes _ N K)|apply (encode_lanes _ 128%Z K)]; try assumption; cbn [p_one p_mul opsf_x86 opsf_neon].
  - split; [apply repeat_length|]. rewrite D1, O1. reflexivity.
  - intros a b La Lb. split; [unfold x86_fmul; rewrite length_map2; lia|]. apply (C70_arithmetic mw ew F N nan a b HN). congruence.
  - split; [apply repeat_length|]. rewrite D2, O1. reflexivity.
  - intros a b La Lb. split; [unfold neon_fmul; rewrite length_map2; lia|]. apply (C70_arithmetic mw ew F 128 nan a b HN). congruence.
Qed.
End Format.
Print Assumptions C71_decode_x86.
Print Assumptions C71_decode_neon.
Print Assumptions C71_encode.

(** a non-trivial case: two registers of four floats; lane 0 holds the codeword of [ex_message] with different magnitudes, lane 5 its opposite
    (which is the codeword of the message with the last value changed), lane 6 a wrong sign *)
Definition exv_bits (s : bool) (m : Z) : Z := ((if s then 0x80000000 else 0) + m)%Z.
Definition exv_received : list (list Z) :=
  map (fun p => let i := Z.of_nat (fst p) in let s := (snd p <? 0)%Z in
    [pack 32 [exv_bits s (0x3e800000 + 0x20000 * i)%Z; exv_bits (Z.odd i) 0x3f000000; exv_bits s 0x3f000001; 0%Z];
     pack 32 [exv_bits s 0x00000001; exv_bits (negb s) 0x3eabcdef; exv_bits (xorb s (Z.eqb i 60)) (0x3e800000 + 0x20000 * (63 - i))%Z; exv_bits true 0%Z]])
    (combine (seq 0 64) ex_cw).
Definition at_most_b (emin k : Z) (x : spec_float) : bool :=
  match x with S754_finite _ m e => (Zpos m * 2 ^ (e - emin) <=? 2 ^ (k - emin))%Z | S754_zero _ => true | _ => false end.
Lemma at_most_b_ok emin k x : at_most_b emin k x = true -> at_most emin k x.
Proof. destruct x; cbn [at_most_b at_most]; try discriminate; auto. intros H. apply Z.leb_le. exact H. Qed.
Example C71_nonvacuous :
  let nan := fun _ _ : Z => 0x7fc00000%Z in
  returns_nan 23 8 nan /\ decoder_buffers 6 (repeat [0; 0]%Z 128) (repeat [0; 0]%Z 64) (repeat [0; 0]%Z 22) exv_received ex_frozen 6 /\
  Forall (fun v => length v = 2) exv_received /\ Forall (fun v => Forall (at_most (-149) 0) (flanes 23 8 128 v)) exv_received /\ (0 + Z.of_nat 6 <= ieee_emax 8 - 1)%Z /\
  (x <- polar_decode (opsf_x86 23 8 128 nan 2) 6 (repeat [0; 0]%Z 128) (repeat [0; 0]%Z 64) (repeat [0; 0]%Z 22) exv_received ex_frozen 6 ;; Ok (lane_of 23 8 128 0 (snd x), lane_of 23 8 128 5 (snd x)))
    = Ok (map (hard_value 24) ex_message, map (hard_value 24) (firstn 21 ex_message ++ [- nth 21 ex_message 0]%Z)) /\
  (x <- polar_decode (opsf_neon 23 8 nan 2) 6 (repeat [0; 0]%Z 128) (repeat [0; 0]%Z 64) (repeat [0; 0]%Z 22) exv_received ex_frozen 6 ;; Ok (lane_of 23 8 128 0 (snd x), lane_of 23 8 128 6 (snd x)))
    = Ok (map (hard_value 24) ex_message, map (hard_value 24) ex_message).
Proof.
  cbv zeta. split; [intros x y; split; [cbn; lia|reflexivity]|].
  destruct C40_C43_nonvacuous as ((B1 & B2 & B3 & B4) & _ & _ & _ & (D1 & D2 & D3 & D4 & D5 & D6 & D7 & D8) & _).
  split. { unfold decoder_buffers. repeat split; auto; vm_compute; try reflexivity; lia. }
  split. { apply Forall_forall. assert (forallb (fun v => length v =? 2) exv_received = true) as H by (vm_compute; reflexivity). rewrite forallb_forall in H. intros v Hv. apply Nat.eqb_eq. apply H. exact Hv. }
  split. { apply Forall_forall. assert (forallb (fun v => forallb (at_most_b (-149) 0) (flanes 23 8 128 v)) exv_received = true) as H by (vm_compute; reflexivity). rewrite forallb_forall in H. intros v Hv.
    specialize (H v Hv). rewrite forallb_forall in H. apply Forall_forall. intros x Hx. apply at_most_b_ok. apply H. exact Hx. }
  split; [vm_compute; discriminate|]. split; vm_compute; reflexivity.
Qed.
