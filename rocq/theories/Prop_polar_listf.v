(** Property C72: polar_list_decoder.hh and polar_parity_aided.hh with floating point lanes. *)
From Coq Require Import ZifyBool ZifyNat ZifyN Floats.SpecFloat.
From Verif Require Import Cpp Lib_sim Model_simd Model_sort Model_polar Model_polar_list Model_polar_float Model_fsimd Model_polar_listf Spec_ieee Spec_polar Spec_polar_float Spec_polar_list Spec_polar_listf
  Lib_list Lib_wht Lib_float Lib_float2 Lib_float3 Proof_bits Proof_simd Proof_polar1 Proof_polar2 Proof_polar3 Proof_polar4 Proof_polar5 Proof_polar6 Proof_polar7 Proof_polarf0 Proof_polarf1 Proof_polarf2
  Proof_plist1 Proof_plist2 Proof_plist4 Proof_plist5 Proof_plist6 Proof_plist7 Proof_plf0 Proof_plf1 Proof_plf2 Proof_plf3 Proof_plf4 Proof_plf5 Proof_plf6 Proof_plf7 Proof_plf8 Proof_plf9 Prop_polar Prop_polar_list Prop_polar_float.
Local Open Scope nat_scope.
Ltac Zify.zify_post_hook ::= idtac.

(** sizes of the object's arrays and the caller's buffers for [K] message symbols; lane numbers fit the lanes of a map *)
Definition list_buffersf (ub : Z) (W MAX_M : nat) (soft hard : list (list spec_float)) (maps : list (list Z)) (rank : option (list Z)) (message : list (list spec_float))
    (received : list spec_float) (frozen : list N) (level K : nat) : Prop :=
  1 <= W /\ (Z.of_nat W <= 2 ^ ub)%Z /\ 5 <= level <= MAX_M /\ MAX_M <= 16 /\ length soft = 2 * 2 ^ MAX_M /\ length hard = 2 ^ MAX_M /\ length maps = 2 ^ MAX_M /\
  K <= length message /\ (forall r, rank = Some r -> W <= length r) /\
  2 ^ level <= length received /\ 2 ^ level <= 32 * length frozen /\ Forall (fun w => (w < 2 ^ 32)%N) frozen.
(** finite numbers so small that no soft value computed from them overflows: at most [2^bound] *)
Definition moderate (prec emax : Z) (level : nat) (received : list spec_float) : Prop := exists bound,
  (emin prec emax <= bound)%Z /\ (bound + Z.of_nat level <= emax - 1)%Z /\
  Forall (fun x => valid_binary prec emax x = true /\ at_most (emin prec emax) bound x) received.
(** the contents of an array of vectors of +1.0 and -1.0 *)
Definition hard_values (prec : Z) (vs : list (list Z)) : list (list spec_float) := map (map (hard_value prec)) vs.

Lemma lane_repeat W k (l : list spec_float) : k < W -> lane_off k (map (fun x => repeat x W) l) = l.
Proof.
  intros Hk. unfold lane_off. rewrite map_map. rewrite <- (map_id l) at 2. apply map_ext. intros x. rewrite (nth_indep _ _ x) by (rewrite repeat_length; lia). apply nth_repeat.
Qed.
Lemma moderate_calm prec emax level received : format prec emax -> moderate prec emax level received -> Forall (calm prec emax level) received.
Proof.
  intros (Hp & He) (bound & B1 & B2 & F). eapply Forall_impl; [|exact F]. intros x (V & A). split; [lia|]. split; [exact V|].
  destruct x; cbn [at_most] in *; try exact A; try exact I. pose proof (Z.pow_le_mono_r 2 (bound - emin prec emax) (emax - 1 - Z.of_nat level - emin prec emax) ltac:(lia) ltac:(lia)). lia.
Qed.
Lemma repeat_calm (Q : spec_float -> Prop) W l : Forall Q l -> Forall (fun v => length v = W /\ Forall Q v) (map (fun x => repeat x W) l).
Proof.
  intros F. apply Forall_map. eapply Forall_impl; [|exact F]. intros x Hx. split; [apply repeat_length|]. apply Forall_forall. intros y Hy. apply repeat_spec in Hy. rewrite Hy. exact Hx.
Qed.

Section Summary.
Variables (prec emax ub : Z) (W : nat) (next : nat -> role * nat) (tr : bool) (rate1 : nat -> list_statef -> res (list Z * list_statef)).
Variables (MAX_M first : nat) (soft hard : list (list spec_float)) (maps : list (list Z)) (rank : option (list Z)) (message : list (list spec_float)) (received : list spec_float) (frozen : list N) (level : nat).
Notation fl := (flags frozen (2 ^ level)).
Notation rs := (groles next fl first).
Notation K := (payload rs).
Notation rcv := (firstn (2 ^ level) received).
Notation zero := (S754_zero false).
Notation below m := (SFltb m (penalty prec emax) = true).
Hypothesis FM : format prec emax.
Hypothesis HB : list_buffersf ub W MAX_M soft hard maps rank message received frozen level K.
Hypothesis next_ok : forall c, fst (next c) <> Frozen.
Hypothesis rate1_good : forall SI MI msg0 maps0 hoff, fgoodf prec W next SI MI msg0 maps0 tr 0 hoff [false] (rate1 hoff) (gleaf prec emax W next).
Hypothesis Hfirst : fst (next first) = Data.
Hypothesis HK : 1 <= K.

Lemma summaryf : exists soft' maps' word out metric (real : nat -> bool),
  list_decode_withf prec emax ub W rate1 MAX_M first soft hard maps rank message received frozen level =
    Ok (soft', hard_values prec word ++ skipn (2 ^ level) hard, maps', option_map (fun r => ranksf metric ++ skipn W r) rank, hard_values prec out ++ skipn K message) /\
  length word = 2 ^ level /\ length out = K /\ length metric = W /\
  (forall k, k < W -> let m := lane_of k out in Forall pm1 m /\
     (~ In Parity rs -> lane_of k word = transform level (symbols rs 1 m) /\
       nth k metric zero = path_metric prec emax level fl (symbols rs 1 m) rcv (if real k then zero else penalty prec emax))) /\
  (forall k l, k < W -> l < W -> k <> l -> real k = true -> real l = true -> ~ In Parity rs -> lane_of k out <> lane_of l out) /\
  (moderate prec emax level rcv ->
    (forall k, k < W -> below (nth k metric zero) -> let m := lane_of k out in
       real k = true /\ lane_of k word = transform level (symbols rs 1 m) /\ nth k metric zero = path_metric prec emax level fl (symbols rs 1 m) rcv zero) /\
    (forall k l, k < W -> l < W -> k <> l -> below (nth k metric zero) -> below (nth l metric zero) -> lane_of k out <> lane_of l out) /\
    (last fl true = false -> nondecreasingf metric) /\
    ((forall m, length m = K -> Forall pm1 m -> below (path_metric prec emax level fl (symbols rs 1 m) rcv zero)) ->
       forall k, k < W -> SFltb (nth k metric zero) (penalty prec emax) = (k <? 2 ^ K)) /\
    (forall M, length M = K -> Forall pm1 M -> map fsgn rcv = transform level (symbols rs 1 M) ->
       lane_of 0 out = M /\ lane_of 0 word = transform level (symbols rs 1 M) /\ nth 0 metric zero = zero /\ forall k, 0 < k -> k < W -> SFltb zero (nth k metric zero) = true)).
Proof.
  destruct FM as (Hp & He). destruct HB as (HW & HU & HL & HM & Ls & Lh & Lm & Hm & Hr & Hrec & Hf & Fz).
  pose proof (Nat.pow_le_mono_r 2 level MAX_M ltac:(lia) ltac:(lia)) as Hpw. assert (length fl = 2 ^ level) as Lf by apply length_flags.
  assert (K <= 2 ^ level) as HK2 by (pose proof (payload_le rs); rewrite length_groles, Lf in *; lia).
  assert (length rcv = 2 ^ level) as Lr by (rewrite firstn_length; lia).
  assert (length (symbols rs 1 []) = 2 ^ level) as Lsy by (rewrite length_symbols, length_groles; exact Lf).
  assert (forall m, length (symbols rs 1 m) = 2 ^ level) as Lsm by (intros m; rewrite length_symbols, length_groles; exact Lf).
  set (TI := fun (_ : nat) (_ : spec_float) => True). set (TM := fun _ : spec_float => True).
  assert (T1 : forall m a b, TI (S m) a -> TI (S m) b -> TI m (combine_left_f prec emax a b)) by (intros; exact I).
  assert (T2 : forall m h a b, pm1 h -> TI (S m) a -> TI (S m) b -> TI m (combine_right_f prec emax (hard_value prec h) a b)) by (intros; exact I).
  assert (T3 : forall n u m x, pm1 u -> TM m -> TI n x -> TM (step_metric prec emax u m x)) by (intros; exact I).
  assert (T4 : forall n u m x, pm1 u -> TM m -> TI n x -> TM m -> TM (step_metric prec emax u m x)) by (intros; exact I).
  assert (forall l, Forall (TI level) l) as FT by (intros l; apply Forall_forall; intros; exact I).
  pose proof (decode_wholef prec emax ub W Hp He HW HU TI TM next next_ok T1 T2 T3 I I tr rate1 (rate1_good TI TM) MAX_M first soft hard maps rank message received frozen level
    ltac:(lia) ltac:(lia) ltac:(lia) ltac:(lia) Hrec Hf Fz (FT _) Hfirst HK Hm ltac:(cbv zeta; lia) Hr) as D.
  pose proof (startf_wf prec emax ub W HW TI TM next next_ok T1 T2 T3 I I first Hfirst) as Aw.
  set (sl := map (fun x => repeat x W) rcv) in *. assert (length sl = 2 ^ level) as Lsl by (unfold sl; rewrite map_length; exact Lr).
  assert (forall k, k < W -> lane_off k sl = rcv) as Esl by (intros k Hk; apply lane_repeat; exact Hk).
  pose proof (gnode_sem prec emax ub W Hp He HW next next_ok TI TM T1 T2 T3 I TM I T4 level fl Lf ltac:(lia) (startf prec emax W first) sl Aw Lsl (repeat_calm _ _ _ (FT _))) as T.
  set (S2 := fun (_ : moderate prec emax level rcv) => repeat_calm _ W _ (moderate_calm prec emax level rcv FM ltac:(assumption))).
  pose proof (startf_wf prec emax ub W HW (calm prec emax) (nonneg prec emax) next next_ok (calm_left prec emax Hp He) (calm_right prec emax Hp He)
    (step_nonneg prec emax Hp) (nonneg_million prec emax Hp He) (nonneg_zero prec emax) first Hfirst) as Bw.
  pose proof (fun Q => gnode_sem prec emax ub W Hp He HW next next_ok (calm prec emax) (nonneg prec emax) (calm_left prec emax Hp He) (calm_right prec emax Hp He)
    (step_nonneg prec emax Hp) (nonneg_million prec emax Hp He) (big prec emax) (big_million prec emax) (step_big prec emax Hp He) level fl Lf ltac:(lia) (startf prec emax W first) sl Bw Lsl (S2 Q)) as TB.
  pose proof (fun Q => gnode_sorted prec emax ub W Hp He HW next next_ok level fl Lf ltac:(lia) (startf prec emax W first) sl Bw Lsl (S2 Q)) as So.
  pose proof (fun Q => gnode_count prec emax ub W Hp He HW next next_ok level fl Lf ltac:(lia) (startf prec emax W first) sl 1 Bw Lsl (S2 Q)) as Co.
  pose proof (fun Q M => gnode_clean prec emax ub W Hp He HW next next_ok level fl Lf ltac:(lia) (startf prec emax W first) sl M Bw Lsl (S2 Q)) as Cl.
  pose proof (gnode_good prec emax ub W Hp He HW next next_ok TI TM T1 T2 T3 I level fl Lf ltac:(lia) (startf prec emax W first) sl Aw Lsl (repeat_calm _ _ _ (FT _))) as G.
  destruct (gnode prec emax W next level fl (startf prec emax W first) sl) as [[mp x] a]. destruct D as (soft' & maps' & out & _ & _ & Lo & E & La & Hbits).
  destruct G as (G1 & G2 & _). destruct T as (A1 & A2). cbn [startf g_left g_metric g_par g_hist] in A1, A2.
  assert (forall o, o < W -> flane o (zero :: repeat (penalty prec emax) (W - 1)) = if o =? 0 then zero else penalty prec emax) as Es.
  { intros [|o] Ho; [reflexivity|]. unfold flane. cbn [nth Nat.eqb]. rewrite (nth_indep _ _ (penalty prec emax)) by (rewrite repeat_length; lia). apply nth_repeat. }
  assert (forall o, o < W -> lane o (repeat 1%Z W) = 1%Z) as E1.
  { intros o Ho. unfold lane. rewrite (nth_indep _ _ 1%Z) by (rewrite repeat_length; lia). apply nth_repeat. }
  assert (forall k, bits (g_hist (startf prec emax W first)) k = []) as Eb0 by reflexivity.
  exists soft', maps', x, out, (g_metric a), (fun k => at_ mp k =? 0).
  split; [exact E|]. split; [exact G2|]. split; [exact Lo|]. split; [exact La|]. split; [|split].
  - intros k Hk. destruct (A1 k Hk) as ((M & LM & FMs & Eb & Hd) & _). pose proof (at_lt W mp k G1 Hk) as Ho. rewrite Eb0 in Eb. cbn [Datatypes.app] in Eb. cbv zeta. rewrite Hbits, Eb by exact Hk.
    split; [exact FMs|]. intros NP. destruct Hd as [(D1 & D2 & _)|(Hd & _)]; [|contradiction]. cbn [startf g_left g_metric g_par] in D1, D2. rewrite E1 in D1, D2 by exact Ho.
    split; [rewrite D1; apply ptr_transform; apply Lsm|]. change (nth k (g_metric a) zero) with (flane k (g_metric a)). rewrite D2. rewrite Esl by exact Ho. f_equal. apply Es. exact Ho.
  - intros k l Hk Hl Hne Rk Rl NP. rewrite !Hbits by assumption. apply A2; try assumption; [lia|left; exact NP].
  - intros Q. specialize (TB Q). specialize (So Q). specialize (Co Q). specialize (Cl Q). destruct TB as (B1 & B2). cbn [startf g_left g_metric g_par g_hist] in B1, B2, Co, Cl.
    assert (forall k, k < W -> below (nth k (g_metric a) zero) -> (at_ mp k =? 0) = true) as Rl.
    { intros k Hk Hlt. destruct (B1 k Hk) as (_ & Hmin). pose proof (at_lt W mp k G1 Hk) as Ho. destruct (Nat.eqb_spec (at_ mp k) 0) as [|Hne]; [reflexivity|]. exfalso.
      change (zero :: repeat (million prec emax) (W - 1)) with (zero :: repeat (penalty prec emax) (W - 1)) in Hmin. rewrite Es in Hmin by exact Ho.
      replace (at_ mp k =? 0) with false in Hmin by lia. specialize (Hmin (big_million prec emax)). unfold big in Hmin. unfold flane in Hmin. change (million prec emax) with (penalty prec emax) in Hmin. congruence. }
    split; [|split; [|split; [|split]]].
    + intros k Hk Hlt. split; [apply Rl; assumption|]. destruct (B1 k Hk) as ((M & LM & FMs & Eb & Hd) & _). pose proof (at_lt W mp k G1 Hk) as Ho. rewrite Eb0 in Eb. cbn [Datatypes.app] in Eb. cbv zeta. rewrite Hbits, Eb by exact Hk.
      specialize (Rl k Hk Hlt). apply Nat.eqb_eq in Rl.
      destruct Hd as [(D1 & D2 & _)|(_ & Hd)].
      2: { exfalso. unfold big, flane in Hd. change (million prec emax) with (penalty prec emax) in Hd. congruence. }
      cbn [startf g_left g_metric g_par] in D1, D2. rewrite Rl in D1, D2. rewrite E1 in D1, D2 by lia. rewrite Esl in D2 by lia.
      split; [rewrite D1; apply ptr_transform; apply Lsm|]. exact D2.
    + intros k l Hk Hl Hne Bk Bl. rewrite !Hbits by assumption. pose proof (Rl k Hk Bk). pose proof (Rl l Hl Bl). apply B2; try assumption; [lia|right].
      unfold big, flane. change (million prec emax) with (penalty prec emax). split; congruence.
    + intros Hl. exact (So Hl).
    + intros Hall k Hk. assert (counted prec emax W 1 (z0 :: repeat (million prec emax) (W - 1))) as C1.
      { intros j Hj. change (z0 :: repeat (million prec emax) (W - 1)) with (zero :: repeat (penalty prec emax) (W - 1)). rewrite Es by exact Hj. destruct (Nat.eqb_spec j 0) as [-> |Hne].
        - exact (pos_million prec emax Hp He).
        - replace (j <? 1) with false by lia. exact (big_million prec emax). }
      specialize (Co C1). cbv zeta in Co. rewrite Nat.mul_1_l in Co. apply Co; [|exact Hk].
      intros o M Ho Ho1 LM FMs. replace o with 0 by lia. rewrite E1, Esl by lia. exact (Hall M LM FMs).
    + intros M LM FMs EM. specialize (Cl M). cbv zeta in Cl. rewrite E1, Esl in Cl by lia. rewrite ptr_transform in Cl by apply Lsm.
      destruct Cl as (_ & (C2 & C2') & C3 & C4 & _); try assumption.
      { split; [reflexivity|]. intros k Hk Hk2. change (z0 :: repeat (million prec emax) (W - 1)) with (zero :: repeat (penalty prec emax) (W - 1)). rewrite Es by exact Hk2.
        replace (k =? 0) with false by lia. exact (pos_million prec emax Hp He). }
      rewrite Hbits by lia. split; [exact C3|]. split; [exact C4|]. split; [exact C2|exact C2'].
Qed.
End Summary.

(** ** PolarListDecoder *)
Section Plain.
Variables (prec emax ub : Z) (W MAX_M : nat) (soft hard : list (list spec_float)) (maps : list (list Z)) (rank : option (list Z)) (message : list (list spec_float)) (received : list spec_float) (frozen : list N) (level : nat).
Notation fl := (flags frozen (2 ^ level)).
Notation K := (unfrozen fl).
Notation rcv := (firstn (2 ^ level) received).
Notation zero := (S754_zero false).
Notation below m := (SFltb m (penalty prec emax) = true).
Lemma plain_summaryf : format prec emax -> list_buffersf ub W MAX_M soft hard maps rank message received frozen level K -> 1 <= K ->
  exists soft' maps' word out metric (real : nat -> bool),
  list_decodef prec emax ub W MAX_M soft hard maps rank message received frozen level =
    Ok (soft', hard_values prec word ++ skipn (2 ^ level) hard, maps', option_map (fun r => ranksf metric ++ skipn W r) rank, hard_values prec out ++ skipn K message) /\
  length word = 2 ^ level /\ length out = K /\ length metric = W /\
  (forall k, k < W -> let m := lane_of k out in length m = K /\ Forall pm1 m /\ lane_of k word = transform level (expand fl m) /\
     nth k metric zero = path_metric prec emax level fl (expand fl m) rcv (if real k then zero else penalty prec emax)) /\
  (forall k l, k < W -> l < W -> k <> l -> real k = true -> real l = true -> lane_of k out <> lane_of l out) /\
  (moderate prec emax level rcv ->
    (forall k, k < W -> below (nth k metric zero) -> real k = true) /\
    (last fl true = false -> nondecreasingf metric) /\
    ((forall m, length m = K -> Forall pm1 m -> below (path_metric prec emax level fl (expand fl m) rcv zero)) ->
       forall k, k < W -> SFltb (nth k metric zero) (penalty prec emax) = (k <? 2 ^ K)) /\
    (forall M, length M = K -> Forall pm1 M -> map fsgn rcv = transform level (expand fl M) ->
       lane_of 0 out = M /\ lane_of 0 word = transform level (expand fl M) /\ nth 0 metric zero = zero /\ forall k, 0 < k -> k < W -> SFltb zero (nth k metric zero) = true)).
Proof.
  intros FM HB HK. assert (HB' := HB). destruct HB' as (HW & HU & _).
  pose proof (summaryf prec emax ub W plain_next false (list_rate1f prec emax ub W) MAX_M 0 soft hard maps rank message received frozen level FM) as S.
  rewrite !groles_plain, payload_plain in S. pose proof (plain_no_parity fl) as NP.
  destruct (S HB plain_next_ok (fun SI MI a b h => list_rate1f_good prec emax ub W (proj1 FM) (proj2 FM) HW HU SI MI a b h) eq_refl HK) as (soft' & maps' & word & out & metric & real & S1 & S2 & S3 & S4 & S5 & S6 & S7). clear S.
  exists soft', maps', word, out, metric, real. split; [exact S1|]. split; [exact S2|]. split; [exact S3|]. split; [exact S4|]. split; [|split].
  - intros k Hk. cbv zeta. destruct (S5 k Hk) as (Q1 & Q2). rewrite symbols_plain in Q2. destruct (Q2 NP) as (Q3 & Q4). split; [rewrite length_lane_of; exact S3|]. auto.
  - intros. apply S6; auto.
  - intros Q. destruct (S7 Q) as (Q1 & Q2 & Q3 & Q4 & Q5). split; [intros k Hk Hb; apply (Q1 k Hk Hb)|]. split; [exact Q3|]. split.
    + intros Hall. apply Q4. intros m Lm Fm. rewrite symbols_plain. apply Hall; assumption.
    + intros M LM FMs EM. specialize (Q5 M). rewrite symbols_plain in Q5. apply Q5; assumption.
Qed.
End Plain.

(** C72: for all received values, NaNs and infinities included: there is a metric such that the rank array counts its changes; lane [k] of the
    output is a message, exactly +1.0 and -1.0, lane [k] of the hard values its codeword, and the metric is that of its path, which started with 0 or,
    if it never was a real path, with 1000000.  Real lanes carry different messages.  Only [K] message vectors and [W] ranks are written. *)
Theorem C72_every_lane_is_a_path : forall prec emax ub W MAX_M soft hard maps rank message received frozen level,
  let fl := flags frozen (2 ^ level) in let K := unfrozen fl in
  format prec emax -> list_buffersf ub W MAX_M soft hard maps rank message received frozen level K -> 1 <= K ->
  exists soft' maps' word out metric (real : nat -> bool),
    list_decodef prec emax ub W MAX_M soft hard maps rank message received frozen level =
      Ok (soft', hard_values prec word ++ skipn (2 ^ level) hard, maps', option_map (fun r => ranksf metric ++ skipn W r) rank, hard_values prec out ++ skipn K message) /\
    length word = 2 ^ level /\ length out = K /\ length metric = W /\
    (forall k, k < W -> let m := lane_of k out in length m = K /\ Forall pm1 m /\ lane_of k word = transform level (expand fl m) /\
       nth k metric (S754_zero false) = path_metric prec emax level fl (expand fl m) (firstn (2 ^ level) received) (if real k then S754_zero false else penalty prec emax)) /\
    (forall k l, k < W -> l < W -> k <> l -> real k = true -> real l = true -> lane_of k out <> lane_of l out) /\
    (moderate prec emax level (firstn (2 ^ level) received) ->
      (forall k, k < W -> SFltb (nth k metric (S754_zero false)) (penalty prec emax) = true -> real k = true) /\ (last fl true = false -> nondecreasingf metric)).
Proof.
  intros prec emax ub W MAX_M soft hard maps rank message received frozen level fl K FM HB HK.
  destruct (plain_summaryf prec emax ub W MAX_M soft hard maps rank message received frozen level FM HB HK) as (soft' & maps' & word & out & metric & real & S1 & S2 & S3 & S4 & S5 & S6 & S7).
  exists soft', maps', word, out, metric, real. split; [exact S1|]. split; [exact S2|]. split; [exact S3|]. split; [exact S4|]. split; [exact S5|]. split; [exact S6|].
  intros Q. destruct (S7 Q) as (Q1 & Q2 & _). auto.
Qed.
Print Assumptions C72_every_lane_is_a_path.
(** C72: if the received values cannot overflow, no message costs 1000000 or more, and the list is large enough for all messages, it contains each of them, and none
    has a metric below that of lane 0 *)
Theorem C72_complete_list : forall prec emax ub W MAX_M soft hard maps rank message received frozen level,
  let fl := flags frozen (2 ^ level) in let K := unfrozen fl in
  let cost m := path_metric prec emax level fl (expand fl m) (firstn (2 ^ level) received) (S754_zero false) in
  format prec emax -> list_buffersf ub W MAX_M soft hard maps rank message received frozen level K -> 1 <= K ->
  moderate prec emax level (firstn (2 ^ level) received) -> (forall m, length m = K -> Forall pm1 m -> SFltb (cost m) (penalty prec emax) = true) ->
  2 ^ K <= W -> last fl true = false ->
  exists soft' hard' maps' rank' out,
    list_decodef prec emax ub W MAX_M soft hard maps rank message received frozen level = Ok (soft', hard', maps', rank', hard_values prec out ++ skipn K message) /\ length out = K /\
    forall m, length m = K -> Forall pm1 m -> (exists k, k < 2 ^ K /\ lane_of k out = m) /\ SFltb (cost m) (cost (lane_of 0 out)) = false.
Proof.
  intros prec emax ub W MAX_M soft hard maps rank message received frozen level fl K cost FM HB HK HQ Hall HW2 Hl. pose proof (pow2_pos K) as Hp.
  destruct (plain_summaryf prec emax ub W MAX_M soft hard maps rank message received frozen level FM HB HK) as (soft' & maps' & word & out & metric & real & S1 & S2 & S3 & S4 & S5 & S6 & S7).
  destruct (S7 HQ) as (Q1 & Q2 & Q3 & _). specialize (Q2 Hl). specialize (Q3 Hall). do 5 eexists. split; [exact S1|]. split; [exact S3|]. intros m Lm Fm.
  fold fl in S3, S5, Q3. fold K in S3, S5, Q3.
  assert (forall k, k < 2 ^ K -> real k = true) as Rl by (intros k Hk; apply Q1; [lia|]; rewrite Q3 by lia; lia).
  destruct (all_found K (fun k => lane_of k out)) with (m := m) as (k & Hk & Ek); try assumption.
  - intros k Hk. destruct (S5 k ltac:(lia)) as (R1 & R2 & _). auto.
  - intros k l Hk Hl2 Hne. apply S6; try lia; apply Rl; lia.
  - split; [exists k; auto|]. rewrite <- Ek. destruct (S5 0 ltac:(lia)) as (_ & _ & _ & M0). destruct (S5 k ltac:(lia)) as (_ & _ & _ & Mk). rewrite Rl in M0, Mk by lia.
    unfold cost. rewrite <- M0, <- Mk. destruct k as [|k]; [|apply (Q2 0 (S k)); lia].
    apply ltb_irrefl.
Qed.
Print Assumptions C72_complete_list.
(** C72: a code without message symbols makes the decoder read in front of its array *)
Theorem C72_all_frozen_undefined : forall prec emax ub W MAX_M soft hard maps rank message received frozen level,
  format prec emax -> list_buffersf ub W MAX_M soft hard maps rank message received frozen level 0 -> unfrozen (flags frozen (2 ^ level)) = 0 ->
  list_decodef prec emax ub W MAX_M soft hard maps rank message received frozen level = Undef.
Proof.
  intros prec emax ub W MAX_M soft hard maps rank message received frozen level (Hp & He) (HW & HU & HL & HM & Ls & Lh & Lm & Hm & Hr & Hrec & Hf & Fz) H0.
  pose proof (Nat.pow_le_mono_r 2 level MAX_M ltac:(lia) ltac:(lia)) as Hpw. unfold list_decodef.
  apply (decode_emptyf prec emax ub W Hp He HW HU (fun _ _ => True) (fun _ => True) plain_next plain_next_ok ltac:(intros; exact I) ltac:(intros; exact I) ltac:(intros; exact I) I I false (list_rate1f prec emax ub W)
    (fun a b h => list_rate1f_good prec emax ub W Hp He HW HU _ _ a b h)); try assumption; try lia.
  - apply Forall_forall. intros. exact I.
  - reflexivity.
  - rewrite groles_plain, payload_plain. exact H0.
Qed.
Print Assumptions C72_all_frozen_undefined.
(** C72: the other levels are refused by an assertion, by both decoders *)
Theorem C72_other_levels_refused : forall prec emax ub W rate1 MAX_M first soft hard maps rank out received frozen level,
  1 <= W -> length soft = 2 * 2 ^ MAX_M -> MAX_M <= 16 -> 2 ^ level <= length received -> level < 5 \/ MAX_M < level ->
  list_decode_withf prec emax ub W rate1 MAX_M first soft hard maps rank out received frozen level = Abort.
Proof.
  intros prec emax ub W rate1 MAX_M first soft hard maps rank out r f n HW Ls HM Hr H. unfold list_decode_withf. destruct (Nat.leb_spec n MAX_M) as [C|C]; [|reflexivity]. cbn [assert_ bind].
  destruct H as [H|H]; [|lia]. replace (n <=? 30) with true by lia. pose proof (Nat.pow_le_mono_r 2 n MAX_M ltac:(lia) C).
  rewrite wr_Ok by (rewrite repeat_length; lia). cbn [bind].
  edestruct (for_up_inv (fun i (l : list spec_float) => length l = W) (fun k metric => wr metric k (million prec emax)) 1 W (upd (repeat (fzero prec emax) W) 0 (fzero prec emax))) as (l & E & _).
  4: { rewrite E. cbn [bind require]. rewrite (fill_ok (2 ^ n) (2 ^ n) (fun i => repeat (nth i r S754_nan) W)); [|lia|].
       - cbn [bind]. replace (n =? 5) with false by lia. replace ((6 <=? n) && (n <=? 16)) with false by lia. reflexivity.
       - intros i cur Hi _. rewrite (rd_nth _ _ S754_nan) by lia. reflexivity. }
  - lia.
  - intros i l Hi Hl. rewrite wr_Ok by lia. eexists. split; [reflexivity|]. rewrite length_upd. exact Hl.
  - rewrite length_upd. apply repeat_length.
Qed.
Print Assumptions C72_other_levels_refused.
Lemma ranksf_first metric : (1 <= length metric)%nat -> nth 0 metric z0 = z0 -> (forall k, 0 < k -> k < length metric -> SFltb z0 (nth k metric z0) = true) ->
  length (ranksf metric) = length metric /\ nth 0 (ranksf metric) 0%Z = 0%Z /\ forall k, 0 < k -> k < length metric -> (0 < nth k (ranksf metric) 0)%Z.
Proof.
  intros L H0 H1. unfold ranksf. split; [rewrite map_length, seq_length; reflexivity|]. split.
  - rewrite nth_map_seq. replace (0 <? length metric) with true by lia. reflexivity.
  - intros k Hk Hk2. rewrite nth_map_seq. replace (k <? length metric) with true by lia. cbn [Nat.add]. destruct k as [|k]; [lia|]. cbn [seq filter]. change (S754_zero false) with z0. rewrite H0. specialize (H1 1 ltac:(lia) ltac:(lia)).
    replace (SFeqb z0 (nth 1 metric z0)) with false.
    + cbn [negb length]. lia.
    + unfold SFltb in H1. unfold SFeqb. destruct (SFcompare z0 (nth 1 metric z0)) as [[]|]; congruence.
Qed.
(** C72: from values with the signs of a codeword lane 0 recovers the message and the codeword, with rank 0; all other lanes have larger rank *)
Theorem C72_noiseless : forall prec emax ub W MAX_M soft hard maps rank out received frozen level message codeword cw,
  let fl := flags frozen (2 ^ level) in let K := unfrozen fl in
  format prec emax -> list_buffersf ub W MAX_M soft hard maps rank out received frozen level K -> 1 <= K ->
  moderate prec emax level (firstn (2 ^ level) received) ->
  Forall pm1 message -> length message = K -> 2 ^ level <= length codeword ->
  polar_encode (opsf prec emax) codeword (map (hard_value prec) message) frozen level = Ok cw ->
  (forall i, i < 2 ^ level -> fsgn (nth i received S754_nan) = fsgn (nth i cw S754_nan)) ->
  exists soft' hard' maps' order decoded,
    list_decodef prec emax ub W MAX_M soft hard maps rank out received frozen level =
      Ok (soft', hard', maps', option_map (fun r => order ++ skipn W r) rank, decoded ++ skipn K out) /\
    length decoded = K /\ lane_off 0 decoded = map (hard_value prec) message /\ lane_off 0 (firstn (2 ^ level) hard') = firstn (2 ^ level) cw /\
    length order = W /\ nth 0 order 0%Z = 0%Z /\ forall k, 0 < k -> k < W -> (0 < nth k order 0)%Z.
Proof.
  intros prec emax ub W MAX_M soft hard maps rank out received frozen level message codeword cw fl K FM HB HK HQ Fm Lm Hc E HS.
  assert (HB' := HB). destruct HB' as (HW & HU & HL & HM & _ & _ & _ & _ & _ & Hrec & Hf & _).
  destruct (plain_summaryf prec emax ub W MAX_M soft hard maps rank out received frozen level FM HB HK) as (soft' & maps' & word & dec & metric & real & S1 & S2 & S3 & S4 & S5 & _ & S7).
  destruct (S7 HQ) as (_ & _ & _ & S8). fold fl in S1, S3, S8. fold K in S1, S3, S8.
  destruct (enc8 message frozen level ltac:(lia) Hf ltac:(fold fl; fold K; lia) Fm) as (E8 & Fw). rewrite (encodef prec emax (proj1 FM) (proj2 FM) message frozen level codeword _ Fm Hc E8 Fw) in E. injection E as <-. fold fl in HS, Fw |- *.
  assert (length (transform level (expand fl message)) = 2 ^ level) as Lt by apply length_transform.
  assert (forall (vs : list (list Z)), lane_off 0 (hard_values prec vs) = map (hard_value prec) (lane_of 0 vs)) as EL.
  { intros vs. unfold lane_off, hard_values, lane_of. rewrite !map_map. apply map_ext. intros v. exact (map_nth (hard_value prec) v 0%Z 0). }
  destruct (S8 message Lm Fm) as (Q1 & Q2 & Q3 & Q4).
  { apply (list_ext _ _ 0%Z); [rewrite map_length, firstn_length, Lt; lia|].
    intros i Hi. rewrite map_length, firstn_length in Hi. rewrite (nth_map1 _ _ _ S754_nan) by (rewrite firstn_length; lia).
    rewrite nth_firstn'. replace (i <? 2 ^ level) with true by lia. rewrite HS by lia. rewrite app_nth1 by (rewrite map_length; lia). rewrite (nth_map1 _ _ _ 0%Z) by lia.
    apply fsgn_emb. rewrite Forall_forall in Fw. apply pm1_tern. apply Fw. apply nth_In. lia. }
  do 3 eexists. exists (ranksf metric), (hard_values prec dec). split; [exact S1|]. split; [unfold hard_values; rewrite map_length; exact S3|]. split; [rewrite EL, Q1; reflexivity|]. split.
  - rewrite firstn_app_l by (unfold hard_values; rewrite map_length; exact S2). rewrite EL, Q2. rewrite firstn_app_l by (rewrite map_length; exact Lt). reflexivity.
  - destruct (ranksf_first metric) as (R1 & R2 & R3); [lia|exact Q3|rewrite S4; exact Q4|]. rewrite S4 in *. auto.
Qed.
Print Assumptions C72_noiseless.

(** ** PolarParityEncoder and PolarParityDecoder *)
(** C72: on messages of +1.0 and -1.0 the parity aided encoder computes the transform of the message with its parity symbols, in every format *)
Theorem C72_parity_encoder : forall prec emax codeword message frozen level stride first,
  let rs := parity_roles stride (flags frozen (2 ^ level)) first in
  format prec emax -> 1 <= level <= 30 -> 2 ^ level <= 32 * length frozen -> 2 ^ level <= length codeword -> payload rs <= length message -> Forall pm1 message ->
  exists cw, parity_encode (opsf prec emax) codeword (map (hard_value prec) message) frozen level stride first = Ok cw /\
    firstn (2 ^ level) cw = map (hard_value prec) (transform level (symbols rs 1 message)) /\ skipn (2 ^ level) cw = skipn (2 ^ level) codeword.
Proof.
  intros prec emax cw0 m f n stride first rs (Hp & He) Hn Hf Hc Hm F.
  pose proof (parity_encode_ok (repeat 0%Z (2 ^ n)) m f n stride first Hn Hf ltac:(rewrite repeat_length; lia) Hm F) as E. rewrite skipn_all2 in E by (rewrite repeat_length; lia). rewrite app_nil_r in E. fold rs in E.
  assert (length (symbols rs 1 m) = 2 ^ n) as Le by (rewrite length_symbols; unfold rs; rewrite <- groles_parity, length_groles; apply length_flags).
  assert (Forall pm1 (transform n (symbols rs 1 m))) as Fw by (apply pm1_transform; [exact Le|apply pm1_symbols; [left; reflexivity|exact F]]).
  rewrite (paritycf prec emax Hp He m f n stride first cw0 _ F Hc E Fw). eexists. split; [reflexivity|].
  rewrite firstn_app_l, skipn_app_l by (rewrite map_length; apply length_transform). auto.
Qed.
Print Assumptions C72_parity_encoder.
Section Parity.
Variables (prec emax ub : Z) (W MAX_M : nat) (soft hard : list (list spec_float)) (maps : list (list Z)) (rank : option (list Z)) (message : list (list spec_float)) (received : list spec_float) (frozen : list N) (level stride first : nat).
Notation fl := (flags frozen (2 ^ level)).
Notation rs := (parity_roles stride fl first).
Notation K := (payload rs).
Notation rcv := (firstn (2 ^ level) received).
Notation zero := (S754_zero false).
Notation below m := (SFltb m (penalty prec emax) = true).
Lemma parity_summaryf : format prec emax -> list_buffersf ub W MAX_M soft hard maps rank message received frozen level K -> 1 <= K -> 1 <= first ->
  exists soft' maps' word out metric,
  parity_decodef prec emax ub W MAX_M soft hard maps rank message received frozen level stride first =
    Ok (soft', hard_values prec word ++ skipn (2 ^ level) hard, maps', option_map (fun r => ranksf metric ++ skipn W r) rank, hard_values prec out ++ skipn K message) /\
  length word = 2 ^ level /\ length out = K /\ length metric = W /\
  (forall k, k < W -> let m := lane_of k out in length m = K /\ Forall pm1 m) /\
  (moderate prec emax level rcv ->
    (forall k, k < W -> below (nth k metric zero) -> let m := lane_of k out in
       lane_of k word = transform level (symbols rs 1 m) /\ nth k metric zero = path_metric prec emax level fl (symbols rs 1 m) rcv zero) /\
    (forall k l, k < W -> l < W -> k <> l -> below (nth k metric zero) -> below (nth l metric zero) -> lane_of k out <> lane_of l out) /\
    (last fl true = false -> nondecreasingf metric) /\
    ((forall m, length m = K -> Forall pm1 m -> below (path_metric prec emax level fl (symbols rs 1 m) rcv zero)) ->
       forall k, k < W -> SFltb (nth k metric zero) (penalty prec emax) = (k <? 2 ^ K)) /\
    (forall M, length M = K -> Forall pm1 M -> map fsgn rcv = transform level (symbols rs 1 M) ->
       lane_of 0 out = M /\ lane_of 0 word = transform level (symbols rs 1 M) /\ nth 0 metric zero = zero /\ forall k, 0 < k -> k < W -> SFltb zero (nth k metric zero) = true)).
Proof.
  intros FM HB HK Hf1. assert (HB' := HB). destruct HB' as (HW & HU & _).
  pose proof (summaryf prec emax ub W (parity_next stride) true (parity_rate1f prec emax ub W stride) MAX_M first soft hard maps rank message received frozen level FM) as S. rewrite !groles_parity in S.
  destruct (S HB (parity_next_ok stride) (fun SI MI a b h => parity_rate1f_good prec emax ub W (proj1 FM) (proj2 FM) HW HU SI MI a b stride h)) as (soft' & maps' & word & out & metric & real & S1 & S2 & S3 & S4 & S5 & S6 & S7).
  { destruct first; [lia|reflexivity]. }
  { exact HK. }
  exists soft', maps', word, out, metric. split; [exact S1|]. split; [exact S2|]. split; [exact S3|]. split; [exact S4|]. split.
  - intros k Hk. destruct (S5 k Hk) as (Q1 & _). cbv zeta. rewrite length_lane_of. auto.
  - intros Q. destruct (S7 Q) as (Q1 & Q2 & Q3 & Q4 & Q5). split; [intros k Hk Hb; apply (Q1 k Hk Hb)|]. auto.
Qed.
End Parity.
(** C72: the parity aided decoder, for all received values, NaNs and infinities included, returns messages of +1.0 and -1.0; if the received values cannot overflow,
    the lanes with a metric below 1000000 are paths that obey the parity symbols, all different; the metrics are in order if the last position is not frozen; if no
    message costs 1000000 or more there are [2^K] such lanes (or [W]), and they come first *)
Theorem C72_lanes_obey_parity : forall prec emax ub W MAX_M soft hard maps rank message received frozen level stride first,
  let fl := flags frozen (2 ^ level) in let rs := parity_roles stride fl first in let K := payload rs in
  let cost m := path_metric prec emax level fl (symbols rs 1 m) (firstn (2 ^ level) received) (S754_zero false) in
  let below m := SFltb m (penalty prec emax) in
  format prec emax -> list_buffersf ub W MAX_M soft hard maps rank message received frozen level K -> 1 <= K -> 1 <= first ->
  exists soft' maps' word out metric,
    parity_decodef prec emax ub W MAX_M soft hard maps rank message received frozen level stride first =
      Ok (soft', hard_values prec word ++ skipn (2 ^ level) hard, maps', option_map (fun r => ranksf metric ++ skipn W r) rank, hard_values prec out ++ skipn K message) /\
    length word = 2 ^ level /\ length out = K /\ length metric = W /\
    (forall k, k < W -> let m := lane_of k out in length m = K /\ Forall pm1 m) /\
    (moderate prec emax level (firstn (2 ^ level) received) ->
      (forall k, k < W -> let m := lane_of k out in below (nth k metric (S754_zero false)) = true ->
         lane_of k word = transform level (symbols rs 1 m) /\ nth k metric (S754_zero false) = cost m) /\
      (forall k l, k < W -> l < W -> k <> l -> below (nth k metric (S754_zero false)) = true -> below (nth l metric (S754_zero false)) = true -> lane_of k out <> lane_of l out) /\
      (last fl true = false -> nondecreasingf metric) /\
      ((forall m, length m = K -> Forall pm1 m -> below (cost m) = true) -> forall k, k < W -> below (nth k metric (S754_zero false)) = (k <? 2 ^ K))).
Proof.
  intros prec emax ub W MAX_M soft hard maps rank message received frozen level stride first fl rs K cost below FM HB HK Hf1.
  destruct (parity_summaryf prec emax ub W MAX_M soft hard maps rank message received frozen level stride first FM HB HK Hf1) as (soft' & maps' & word & out & metric & S1 & S2 & S3 & S4 & S5 & S6).
  exists soft', maps', word, out, metric. split; [exact S1|]. split; [exact S2|]. split; [exact S3|]. split; [exact S4|]. split; [exact S5|].
  intros Q. destruct (S6 Q) as (Q1 & Q2 & Q3 & Q4 & _). split; [exact Q1|]. split; [exact Q2|]. split; [exact Q3|exact Q4].
Qed.
Print Assumptions C72_lanes_obey_parity.
(** C72: the parity aided decoder with a complete list: if the received values cannot overflow and no message costs 1000000 or more,
    every message is in the list, and none has a metric below that of lane 0 *)
Theorem C72_parity_complete_list : forall prec emax ub W MAX_M soft hard maps rank message received frozen level stride first,
  let fl := flags frozen (2 ^ level) in let rs := parity_roles stride fl first in let K := payload rs in
  let cost m := path_metric prec emax level fl (symbols rs 1 m) (firstn (2 ^ level) received) (S754_zero false) in
  format prec emax -> list_buffersf ub W MAX_M soft hard maps rank message received frozen level K -> 1 <= K -> 1 <= first ->
  moderate prec emax level (firstn (2 ^ level) received) -> (forall m, length m = K -> Forall pm1 m -> SFltb (cost m) (penalty prec emax) = true) ->
  2 ^ K <= W -> last fl true = false ->
  exists soft' maps' rank' word out,
    parity_decodef prec emax ub W MAX_M soft hard maps rank message received frozen level stride first =
      Ok (soft', hard_values prec word ++ skipn (2 ^ level) hard, maps', rank', hard_values prec out ++ skipn K message) /\
    length word = 2 ^ level /\ length out = K /\ Forall pm1 (lane_of 0 out) /\ lane_of 0 word = transform level (symbols rs 1 (lane_of 0 out)) /\
    forall m, length m = K -> Forall pm1 m -> (exists k, k < 2 ^ K /\ lane_of k out = m) /\ SFltb (cost m) (cost (lane_of 0 out)) = false.
Proof.
  intros prec emax ub W MAX_M soft hard maps rank message received frozen level stride first fl rs K cost FM HB HK Hf1 HQ Hall HW2 Hl. pose proof (pow2_pos K) as Hp.
  destruct (parity_summaryf prec emax ub W MAX_M soft hard maps rank message received frozen level stride first FM HB HK Hf1) as (soft' & maps' & word & out & metric & S1 & S2 & S3 & S4 & S5 & S6).
  destruct (S6 HQ) as (Q1 & Q2 & Q3 & Q4 & _). specialize (Q3 Hl). specialize (Q4 Hall).
  fold fl in S1, S3, S5, Q4, Q1. fold rs in S1, S3, S5, Q4, Q1. fold K in S1, S3, S5, Q4.
  assert (forall k, k < 2 ^ K -> SFltb (nth k metric (S754_zero false)) (penalty prec emax) = true) as Rl by (intros k Hk; rewrite Q4 by lia; lia).
  destruct (Q1 0 ltac:(lia) ltac:(apply Rl; lia)) as (W0 & M0).
  do 5 eexists. split; [exact S1|]. split; [exact S2|]. split; [exact S3|]. split; [apply S5; lia|]. split; [exact W0|]. intros m Lm Fm.
  destruct (all_found K (fun k => lane_of k out)) with (m := m) as (k & Hk & Ek); try assumption.
  - intros k Hk. destruct (S5 k ltac:(lia)) as (R1 & R2). auto.
  - intros k l Hk Hl2 Hne. apply Q2; try lia; apply Rl; lia.
  - split; [exists k; auto|]. rewrite <- Ek. destruct (Q1 k ltac:(lia) ltac:(apply Rl; lia)) as (_ & Mk).
    unfold cost. rewrite <- M0, <- Mk. destruct k as [|k]; [|apply (Q3 0 (S k)); lia].
    apply ltb_irrefl.
Qed.
Print Assumptions C72_parity_complete_list.
(** C72: from values with the signs of a codeword lane 0 recovers the message *)
Theorem C72_parity_noiseless : forall prec emax ub W MAX_M soft hard maps rank out received frozen level stride first message codeword cw,
  let fl := flags frozen (2 ^ level) in let rs := parity_roles stride fl first in let K := payload rs in
  format prec emax -> list_buffersf ub W MAX_M soft hard maps rank out received frozen level K -> 1 <= K -> 1 <= first ->
  moderate prec emax level (firstn (2 ^ level) received) ->
  Forall pm1 message -> length message = K -> 2 ^ level <= length codeword ->
  parity_encode (opsf prec emax) codeword (map (hard_value prec) message) frozen level stride first = Ok cw ->
  (forall i, i < 2 ^ level -> fsgn (nth i received S754_nan) = fsgn (nth i cw S754_nan)) ->
  exists soft' hard' maps' order decoded,
    parity_decodef prec emax ub W MAX_M soft hard maps rank out received frozen level stride first =
      Ok (soft', hard', maps', option_map (fun r => order ++ skipn W r) rank, decoded ++ skipn K out) /\
    length decoded = K /\ lane_off 0 decoded = map (hard_value prec) message /\ lane_off 0 (firstn (2 ^ level) hard') = firstn (2 ^ level) cw /\
    length order = W /\ nth 0 order 0%Z = 0%Z /\ forall k, 0 < k -> k < W -> (0 < nth k order 0)%Z.
Proof.
  intros prec emax ub W MAX_M soft hard maps rank out received frozen level stride first message codeword cw fl rs K FM HB HK Hf1 HQ Fm Lm Hc E HS.
  assert (HB' := HB). destruct HB' as (HW & HU & HL & HM & _ & _ & _ & _ & _ & Hrec & Hf & _).
  destruct (parity_summaryf prec emax ub W MAX_M soft hard maps rank out received frozen level stride first FM HB HK Hf1) as (soft' & maps' & word & dec & metric & S1 & S2 & S3 & S4 & _ & S7).
  destruct (S7 HQ) as (_ & _ & _ & _ & S8). fold fl in S1, S3, S8. fold rs in S1, S3, S8. fold K in S1, S3, S8.
  destruct (C72_parity_encoder prec emax codeword message frozen level stride first FM ltac:(lia) Hf Hc ltac:(fold fl; fold rs; fold K; lia) Fm) as (cw' & E' & Ec & _). rewrite E in E'. injection E' as <-. fold fl in Ec. fold rs in Ec.
  assert (length (transform level (symbols rs 1 message)) = 2 ^ level) as Lt by apply length_transform.
  assert (length (symbols rs 1 message) = 2 ^ level) as Le by (rewrite length_symbols; unfold rs; rewrite <- groles_parity, length_groles; apply length_flags).
  assert (Forall pm1 (transform level (symbols rs 1 message))) as Fw by (apply pm1_transform; [exact Le|apply pm1_symbols; [left; reflexivity|exact Fm]]).
  assert (forall (vs : list (list Z)), lane_off 0 (hard_values prec vs) = map (hard_value prec) (lane_of 0 vs)) as EL.
  { intros vs. unfold lane_off, hard_values, lane_of. rewrite !map_map. apply map_ext. intros v. exact (map_nth (hard_value prec) v 0%Z 0). }
  destruct (S8 message Lm Fm) as (Q1 & Q2 & Q3 & Q4).
  { apply (list_ext _ _ 0%Z); [rewrite map_length, firstn_length, Lt; lia|].
    intros i Hi. rewrite map_length, firstn_length in Hi. rewrite (nth_map1 _ _ _ S754_nan) by (rewrite firstn_length; lia).
    rewrite nth_firstn'. replace (i <? 2 ^ level) with true by lia. rewrite HS by lia.
    replace (nth i cw S754_nan) with (nth i (firstn (2 ^ level) cw) S754_nan) by (rewrite nth_firstn'; replace (i <? 2 ^ level) with true by lia; reflexivity).
    rewrite Ec. rewrite (nth_map1 _ _ _ 0%Z) by lia.
    apply fsgn_emb. rewrite Forall_forall in Fw. apply pm1_tern. apply Fw. apply nth_In. lia. }
  do 3 eexists. exists (ranksf metric), (hard_values prec dec). split; [exact S1|]. split; [unfold hard_values; rewrite map_length; exact S3|]. split; [rewrite EL, Q1; reflexivity|]. split.
  - rewrite firstn_app_l by (unfold hard_values; rewrite map_length; exact S2). rewrite EL, Q2. rewrite Ec. reflexivity.
  - destruct (ranksf_first metric) as (R1 & R2 & R3); [lia|exact Q3|rewrite S4; exact Q4|]. rewrite S4 in *. auto.
Qed.
Print Assumptions C72_parity_noiseless.

(** ** The hypotheses are met: float, a list of 8 for 3 message symbols; received values of different magnitudes, none zero *)
Definition exl_float (z e : Z) : spec_float := binary_normalize 24 128 z e false.
Definition exl_received : list spec_float := map (fun i => exl_float (2 * (Z.of_nat (i * i * 7 mod 61)) - 61) (Z.of_nat (i mod 5) - 7)) (seq 0 32).
Lemma moderate_b prec emax level bound l : (emin prec emax <=? bound)%Z && (bound + Z.of_nat level <=? emax - 1)%Z &&
  forallb (fun x => valid_binary prec emax x && match x with S754_finite _ m e => (Zpos m * 2 ^ (e - emin prec emax) <=? 2 ^ (bound - emin prec emax))%Z | S754_zero _ => true | _ => false end) l = true -> moderate prec emax level l.
Proof.
  intros H. apply andb_prop in H as (H & F). apply andb_prop in H as (H1 & H2). exists bound. split; [lia|]. split; [lia|].
  apply Forall_forall. intros x Hx. rewrite forallb_forall in F. specialize (F x Hx). apply andb_prop in F as (F1 & F2). split; [exact F1|]. destruct x; cbn [at_most]; try discriminate; auto. apply Z.leb_le. exact F2.
Qed.
Lemma pm1_lists n : forall m, length m = n -> Forall pm1 m -> In m (fold_right (fun _ ls => map (cons 1%Z) ls ++ map (cons (-1)%Z) ls) [[]] (seq 0 n)).
Proof.
  generalize 0. induction n as [|n IH]; intros i m L F; [destruct m; [left; reflexivity|discriminate]|]. destruct m as [|x m]; [discriminate|]. cbn [seq fold_right].
  pose proof (Forall_inv F) as Hx. pose proof (IH (S i) m ltac:(cbn in L; lia) (Forall_inv_tail F)) as Hin.
  apply in_app_iff. destruct Hx as [-> | ->]; [left|right]; apply in_map; exact Hin.
Qed.
Ltac small_buffersf := unfold list_buffersf; split; [lia|split; [vm_compute; discriminate|split; [lia|split; [lia|split; [reflexivity|split; [reflexivity|split; [reflexivity|split; [|split; [|split; [cbn; lia|split; [cbn; lia|]]]]]]]]]]].
Example C72_nonvacuous :
  let fl := flags ex_frozen 32 in
  format 24 128 /\ format 53 1024 /\
  list_buffersf 32 8 5 (repeat [] 64) (repeat [] 32) (repeat [] 32) (Some (repeat 9%Z 8)) (repeat [] 4) exl_received ex_frozen 5 (unfrozen fl) /\
  unfrozen fl = 3 /\ last fl true = false /\ moderate 24 128 5 (firstn (2 ^ 5) exl_received) /\
  (forall m, length m = 3 -> Forall pm1 m -> SFltb (path_metric 24 128 5 fl (expand fl m) (firstn (2 ^ 5) exl_received) (S754_zero false)) (penalty 24 128) = true) /\
  ('(_, _, _, rank, out) <- list_decodef 24 128 32 8 5 (repeat [] 64) (repeat [] 32) (repeat [] 32) (Some (repeat 9%Z 8)) (repeat [] 4) exl_received ex_frozen 5 ;; Ok (rank, map (map fsgn) out)) =
    Ok (Some [0; 1; 2; 3; 4; 5; 6; 7]%Z, [[-1; 1; 1; -1; -1; 1; 1; -1]; [-1; 1; -1; 1; 1; -1; 1; -1]; [1; -1; -1; -1; 1; 1; 1; -1]; []]%Z).
Proof.
  cbv zeta. split; [unfold format; lia|]. split; [unfold format; lia|]. split.
  { small_buffersf.
    - replace (unfrozen (flags ex_frozen 32)) with 3 by (vm_compute; reflexivity). cbn. lia.
    - intros r E. injection E as <-. cbn. lia.
    - constructor; [reflexivity|constructor]. }
  split; [vm_compute; reflexivity|]. split; [vm_compute; reflexivity|]. split; [apply (moderate_b _ _ _ 10); vm_compute; reflexivity|]. split.
  { intros m L F. pose proof (pm1_lists 3 m L F) as Hin. revert m Hin L F. 
    assert (forallb (fun m => SFltb (path_metric 24 128 5 (flags ex_frozen 32) (expand (flags ex_frozen 32) m) (firstn (2 ^ 5) exl_received) (S754_zero false)) (penalty 24 128))
      (fold_right (fun _ ls => map (cons 1%Z) ls ++ map (cons (-1)%Z) ls) [[]] (seq 0 3)) = true) as H by (vm_compute; reflexivity).
    rewrite forallb_forall in H. intros m Hin _ _. apply H. exact Hin. }
  vm_compute. reflexivity.
Qed.

(** the bound on the costs is needed: from values of 2^20 the lanes that never were real paths take over, and the list of 8 for 3 message symbols
    holds one message eight times instead of all of them *)
Example C72_large_values_crowd_out :
  let received := map (fun i => exl_float (if (i =? 3) then -1 else 1) 20) (seq 0 32) in
  moderate 24 128 5 received /\
  ('(_, _, _, _, out) <- list_decodef 24 128 32 8 5 (repeat [] 64) (repeat [] 32) (repeat [] 32) None (repeat [] 3) received ex_frozen 5 ;; Ok (map (map fsgn) out)) =
    Ok (repeat (repeat 1%Z 8) 3).
Proof. cbv zeta. split; [apply (moderate_b _ _ _ 20); vm_compute; reflexivity|vm_compute; reflexivity]. Qed.
(** the hypotheses of the noiseless theorems are met, in both formats *)
Example C72_noiseless_nonvacuous :
  let received cw := map (fun p => SFmul 53 1024 (binary_normalize 53 1024 (1 + Z.of_nat (fst p mod 7)) (Z.of_nat (fst p) - 40) false) (snd p)) (combine (seq 0 32) cw) in
  (cw <- polar_encode (opsf 53 1024) (repeat S754_nan 32) (map (hard_value 53) [-1; 1; -1]%Z) ex_frozen 5 ;;
   '(_, _, _, rank, out) <- list_decodef 53 1024 64 4 5 (repeat [] 64) (repeat [] 32) (repeat [] 32) (Some [9; 9; 9; 9]%Z) (repeat [] 3) (received cw) ex_frozen 5 ;;
   Ok (rank, map fsgn (lane_off 0 out), if list_eq_dec Z.eq_dec (map fsgn (received cw)) (map fsgn cw) then true else false)) = Ok (Some [0; 1; 2; 3]%Z, [-1; 1; -1]%Z, true) /\
  (cw <- parity_encode (opsf 53 1024) (repeat S754_nan 32) (map (hard_value 53) [-1; 1; -1]%Z) ex_frozen2 5 1 2 ;;
   '(_, _, _, rank, out) <- parity_decodef 53 1024 64 4 5 (repeat [] 64) (repeat [] 32) (repeat [] 32) (Some [9; 9; 9; 9]%Z) (repeat [] 3) (received cw) ex_frozen2 5 1 2 ;;
   Ok (rank, map fsgn (lane_off 0 out), if list_eq_dec Z.eq_dec (map fsgn (received cw)) (map fsgn cw) then true else false)) = Ok (Some [0; 1; 2; 3]%Z, [-1; 1; -1]%Z, true).
Proof. cbv zeta. split; vm_compute; reflexivity. Qed.
