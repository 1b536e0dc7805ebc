(** Properties C44 - C46: polar_list_decoder.hh and polar_parity_aided.hh. *)
From Coq Require Import ZifyBool ZifyNat.
From Verif Require Import Cpp Model_simd Model_polar Model_polar_list Spec_polar Spec_polar_list Lib_list Lib_wht Proof_bits Proof_simd
  Proof_polar1 Proof_polar2 Proof_polar3 Proof_polar4 Proof_polar5 Proof_polar6 Proof_polar7 Proof_plist1 Proof_plist2 Proof_plist3 Proof_plist4 Proof_plist5 Proof_plist6 Proof_plist7.
Local Open Scope nat_scope.
Ltac Zify.zify_post_hook ::= idtac.

(** the vector helper functions: portable or x86, and NEON *)
Definition back_end (W : nat) (P : polar_ops (list Z)) : Prop := P = ops8v W \/ P = ops8v_neon W.
(** sizes of the object's arrays and the caller's buffers for [K] message symbols; the soft values are 8 bit *)
Definition list_buffers (W MAX_M : nat) (soft hard maps : list (list Z)) (rank : option (list Z)) (message : list (list Z))
    (received : list Z) (frozen : list N) (level K : nat) : Prop :=
  1 <= W <= 256 /\ 5 <= level <= MAX_M /\ MAX_M <= 16 /\ length soft = 2 * 2 ^ MAX_M /\ length hard = 2 ^ MAX_M /\ length maps = 2 ^ MAX_M /\
  K <= length message /\ (forall r, rank = Some r -> W <= length r) /\
  2 ^ level <= length received /\ Forall int8 received /\ 2 ^ level <= 32 * length frozen /\ Forall (fun w => (w < 2 ^ 32)%N) frozen.

Lemma back_end_ok W P : back_end W P -> vops_ok W P.
Proof. intros [-> | ->]; [apply ops8v_ok|apply ops8v_neon_ok]. Qed.
Lemma payload_le rs : payload rs <= length rs.
Proof. induction rs as [|r rs IH]; [cbn; lia|]. rewrite payload_cons. destruct r; cbn [length]; lia. Qed.
Lemma lane_dups W k l : k < W -> lane_of k (map (vdup W) l) = l.
Proof. intros Hk. unfold lane_of. rewrite map_map. rewrite <- (map_id l) at 2. apply map_ext. intros x. apply (lane_dup W x k Hk). Qed.
Lemma path_cost_range n : forall fl u soft, length u = 2 ^ n -> length soft = 2 ^ n -> Forall int8 soft -> Forall pm1 u -> (0 <= path_cost n fl u soft <= 128 * Z.of_nat (2 ^ n))%Z.
Proof.
  induction n as [|m IH]; intros fl u soft Lu Ls F Fu.
  - cbn [Nat.pow] in *. destruct u as [|x [|? ?]], soft as [|y [|? ?]]; cbn [length] in *; try lia. cbn [path_cost hd]. inversion F; inversion Fu; subst. unfold int8, pm1 in *. lia.
  - rewrite path_cost_S. cbn [Nat.pow] in *. assert (length (firstn (2 ^ m) u) = 2 ^ m) as Lu1 by (rewrite firstn_length; lia). assert (length (skipn (2 ^ m) u) = 2 ^ m) as Lu2 by (rewrite skipn_length; lia).
    assert (Forall int8 (firstn (2 ^ m) soft)) as F1 by (apply Forall_firstn_; exact F). assert (Forall int8 (skipn (2 ^ m) soft)) as F2 by (apply Forall_skipn_; exact F).
    assert (forall f v s, length v = 2 ^ m -> length s = 2 ^ m -> Forall int8 s -> Forall pm1 v -> (0 <= ccost m f v s <= 128 * Z.of_nat (2 ^ m))%Z) as Hc.
    { intros f v s L1 L2 Fs Fv. unfold ccost. destruct (_ && _); [|apply IH; assumption]. rewrite <- L2. apply charge_le. exact Fs. }
    pose proof (Hc (firstn (2 ^ m) fl) (firstn (2 ^ m) u) (sleft m soft)) as C1. pose proof (Hc (skipn (2 ^ m) fl) (skipn (2 ^ m) u) (sright m (transform m (firstn (2 ^ m) u)) soft)) as C2.
    enough ((0 <= ccost m (firstn (2 ^ m) fl) (firstn (2 ^ m) u) (sleft m soft) <= 128 * Z.of_nat (2 ^ m))%Z /\ (0 <= ccost m (skipn (2 ^ m) fl) (skipn (2 ^ m) u) (sright m (transform m (firstn (2 ^ m) u)) soft) <= 128 * Z.of_nat (2 ^ m))%Z) by lia.
    split; [apply C1|apply C2]; try assumption.
    + unfold sleft. rewrite length_zip2, firstn_length, skipn_length. lia.
    + unfold sleft. eapply (Forall_zip2 _ int8 int8 int8); [|exact F1|exact F2]. intros a b Ha Hb. unfold combine_left, int8 in *.
      destruct (Z.lt_total a 0) as [A|[->|A]], (Z.lt_total b 0) as [B|[->|B]]; rewrite ?(Z.sgn_neg a), ?(Z.sgn_pos a), ?(Z.sgn_neg b), ?(Z.sgn_pos b) by assumption; cbn [Z.sgn]; lia.
    + apply Forall_firstn_; exact Fu.
    + unfold sright. rewrite length_zip3, length_transform, firstn_length, skipn_length. lia.
    + unfold sright. eapply (Forall_zip3 _ (fun _ => True) int8 int8 int8); [| |exact F1|exact F2].
      * intros h a b _ _ _. unfold combine_right, clamp, int8. lia.
      * apply Forall_forall. auto.
    + apply Forall_skipn_; exact Fu.
Qed.

(** everything about one call, for both decoders *)
Section Summary.
Variables (W : nat) (P : polar_ops (list Z)) (next : nat -> role * nat) (tr : bool) (rate1 : nat -> list_state -> res (list Z * list_state)).
Variables (MAX_M first : nat) (soft hard maps : list (list Z)) (rank : option (list Z)) (message : list (list Z)) (received : list Z) (frozen : list N) (level : nat).
Notation fl := (flags frozen (2 ^ level)).
Notation rs := (groles next fl first).
Notation K := (payload rs).
Notation rcv := (firstn (2 ^ level) received).
Hypothesis HB : list_buffers W MAX_M soft hard maps rank message received frozen level K.
Hypothesis BE : back_end W P.
Hypothesis next_ok : forall c, fst (next c) <> Frozen.
Hypothesis rate1_good : forall msg0 maps0 hoff, lgood W next msg0 maps0 tr 0 hoff [false] (rate1 hoff) (leaf W P next).
Hypothesis Hfirst : fst (next first) = Data.
Hypothesis HK : 1 <= K.

Lemma summary : exists soft' hard' maps' out metric (real : nat -> bool),
  list_decode_with W P rate1 MAX_M first soft hard maps rank message received frozen level =
    Ok (soft', hard', maps', option_map (fun r => ranks metric ++ skipn W r) rank, out ++ skipn K message) /\
  length out = K /\ length metric = W /\
  (forall k, k < W -> let m := lane_of k out in Forall pm1 m /\
     ((lane_of k (firstn (2 ^ level) hard') = transform level (symbols rs 1 m) /\
       nth k metric 0%Z = (path_cost level fl (symbols rs 1 m) rcv + (if real k then 0 else 1000000))%Z) \/ (In Parity rs /\ (1000000 <= nth k metric 0)%Z)) /\
     (real k = false -> (1000000 <= nth k metric 0)%Z)) /\
  (forall k l, k < W -> l < W -> k <> l -> real k = true -> real l = true -> (~ In Parity rs \/ (nth k metric 0 < 1000000 /\ nth l metric 0 < 1000000)%Z) ->
     lane_of k out <> lane_of l out) /\
  (last fl true = false -> nondecreasing metric) /\
  (level <= 12 -> forall k, k < W -> (nth k metric 0%Z < 1000000)%Z <-> k < 2 ^ K) /\
  (forall M, length M = K -> Forall pm1 M -> map Z.sgn rcv = transform level (symbols rs 1 M) ->
     lane_of 0 out = M /\ lane_of 0 (firstn (2 ^ level) hard') = transform level (symbols rs 1 M) /\ nth 0 metric 0%Z = 0%Z /\ forall k, 0 < k -> k < W -> (0 < nth k metric 0)%Z).
Proof.
  destruct HB as (HW & HL & HM & Ls & Lh & Lm & Hm & Hr & Hrec & F8 & Hf & Fz). pose proof (back_end_ok W P BE) as HP.
  pose proof (Nat.pow_le_mono_r 2 level MAX_M ltac:(lia) ltac:(lia)) as Hpw. assert (length fl = 2 ^ level) as Lf by apply length_flags.
  assert (K <= 2 ^ level) as HK2 by (pose proof (payload_le rs); rewrite length_groles, Lf in *; lia).
  assert (Forall int8 rcv) as F8' by (apply Forall_firstn_; exact F8). assert (length rcv = 2 ^ level) as Lr by (rewrite firstn_length; lia).
  pose proof (decode_whole W HW P HP next next_ok tr rate1 rate1_good MAX_M first soft hard maps rank message received frozen level
    ltac:(lia) ltac:(lia) ltac:(lia) ltac:(lia) Hrec Hf Fz F8' Hfirst HK Hm ltac:(cbv zeta; lia) Hr) as D.
  pose proof (start_wf W HW P HP next next_ok first Hfirst) as Aw.
  set (sl := map (vdup W) rcv) in *. assert (length sl = 2 ^ level) as Lsl by (unfold sl; rewrite map_length; exact Lr).
  assert (Forall (lanes_are W int8) sl) as Fsl by (unfold sl; apply Forall_map; eapply Forall_impl; [|exact F8']; intros x Hx; apply lanes_dup; exact Hx).
  pose proof (lnode_fgood W HW P HP next next_ok level fl Lf ltac:(lia) 1000000%Z (start W P first) sl ltac:(lia) Aw Lsl Fsl) as G.
  pose proof (lnode_sem W HW P HP next next_ok level fl Lf ltac:(lia) 1000000%Z (start W P first) sl ltac:(lia) Aw Lsl Fsl) as T.
  pose proof (lnode_sorted W HW P next next_ok level fl (start W P first) sl Lf) as So.
  assert (level <= 12 -> let '(mp, x, a') := lnode W P next level fl (start W P first) sl in counted W (Nat.min W (1 * 2 ^ K)) (0 + 128 * Z.of_nat (2 ^ level)) (a_metric a')) as Co.
  { intros H12. assert (Z.of_nat (2 ^ level) <= 4096)%Z as Q.
    { pose proof (Nat.pow_le_mono_r 2 level 12 ltac:(lia) H12) as Q. change (2 ^ 12) with 4096 in Q. lia. }
    apply (lnode_count W HW P HP next next_ok level fl Lf ltac:(lia) 1000000%Z (start W P first) sl 1 0%Z); try assumption; try lia.
    intros k Hk. cbn [start a_metric]. destruct k as [|k]; [unfold lane; cbn; lia|]. replace (S k <? 1) with false by lia. unfold lane. cbn [nth].
    rewrite (nth_indep _ 0%Z 1000000%Z) by (rewrite repeat_length; lia). rewrite nth_repeat. lia. }
  assert (forall M, length M = K -> Forall pm1 M -> map Z.sgn rcv = transform level (symbols rs 1 M) -> let '(mp, x, a') := lnode W P next level fl (start W P first) sl in
    leads W (a_metric a') /\ bits (a_hist a') 0 = M /\ lane_of 0 x = ptr level (symbols rs 1 M)) as Cl.
  { intros M LM FM EM. pose proof (lnode_clean W HW P HP next next_ok level fl Lf ltac:(lia) 1000000%Z (start W P first) sl M ltac:(lia) Aw Lsl Fsl) as C. cbv zeta in C.
    assert (lane 0 (a_par (start W P first)) = 1%Z) as E1 by (apply (vk_one _ _ HP); lia). rewrite E1 in C. specialize (C LM FM). cbn [start a_left] in C.
    assert (leads W (a_metric (start W P first))) as Hl.
    { split; [reflexivity|]. intros k Hk Hk2. destruct k as [|k]; [lia|]. unfold lane. cbn [start a_metric nth]. rewrite (nth_indep _ 0%Z 1000000%Z) by (rewrite repeat_length; lia). rewrite nth_repeat. lia. }
    specialize (C Hl). unfold sl in C at 1. rewrite lane_dups in C by lia. rewrite ptr_transform in C by (rewrite length_symbols, length_groles; exact Lf). specialize (C EM).
    fold (start W P first) in C. rewrite ptr_transform by (rewrite length_symbols, length_groles; exact Lf).
    destruct (lnode W P next level fl (start W P first) sl) as [[mp x] a']. destruct C as (_ & C2 & C3 & C4 & _). auto. }
  destruct (lnode W P next level fl (start W P first) sl) as [[mp x] a]. destruct D as (soft' & maps' & out & _ & _ & Lo & E & La & Hbits).
  destruct G as (G1 & G2 & _). destruct T as (T1 & T2). cbn [start a_left a_metric a_par] in T1, T2.
  assert (forall o, o < W -> lane o (0%Z :: repeat 1000000%Z (W - 1)) = if o =? 0 then 0%Z else 1000000%Z) as Es.
  { intros [|o] Ho; [reflexivity|]. unfold lane. cbn [nth Nat.eqb]. rewrite (nth_indep _ 0%Z 1000000%Z) by (rewrite repeat_length; lia). apply nth_repeat. }
  assert (forall k, k < W -> lane k (a_metric a) = nth k (a_metric a) 0%Z) as En by reflexivity.
  assert (firstn (2 ^ level) (x ++ skipn (2 ^ level) hard) = x) as Eh by (apply firstn_app_l; exact G2).
  assert (forall k, k < W -> let m := lane_of k out in Forall pm1 m /\
     ((lane_of k x = transform level (symbols rs 1 m) /\
       nth k (a_metric a) 0%Z = (path_cost level fl (symbols rs 1 m) rcv + (if (at_ mp k =? 0)%nat then 0 else 1000000))%Z) \/ (In Parity rs /\ (1000000 <= nth k (a_metric a) 0)%Z)) /\
     ((at_ mp k =? 0) = false -> (1000000 <= nth k (a_metric a) 0)%Z)) as Tk.
  { intros k Hk. destruct (T1 k Hk) as ((M & LM & FM & Eb & Hd) & Hmin). pose proof (at_lt W mp k G1 Hk) as Ho. rewrite Es in Hmin by exact Ho.
    assert (bits (a_hist (start W P first)) (at_ mp k) = []) as Eb0 by reflexivity. rewrite Eb0 in Eb. cbn [Datatypes.app] in Eb. cbv zeta. rewrite Hbits, Eb by exact Hk.
    split; [exact FM|]. split.
    - destruct Hd as [(D1 & D2 & D3)|Hd]; [left|right; exact Hd]. cbn [start a_left a_metric a_par] in D1, D2.
      assert (lane (at_ mp k) (p_one P) = 1%Z) as Eo by (apply (vk_one _ _ HP); exact Ho). rewrite Eo in D1, D2. split; [rewrite D1; apply ptr_transform; rewrite length_symbols, length_groles; exact Lf|].
      rewrite Es in D2 by exact Ho. rewrite <- En by exact Hk. rewrite D2. unfold sl. rewrite lane_dups by exact Ho. destruct (at_ mp k =? 0); lia.
    - intros Ez. rewrite Ez in Hmin. rewrite <- En by exact Hk. lia. }
  exists soft', (x ++ skipn (2 ^ level) hard), maps', out, (a_metric a), (fun k => at_ mp k =? 0). rewrite Eh.
  split; [exact E|]. split; [exact Lo|]. split; [exact La|]. split; [exact Tk|]. split; [|split; [exact So|split]].
  - intros k l Hk Hl Hne Rk Rl Hal. rewrite !Hbits by assumption. apply T2; try assumption. lia.
  - intros H12 k Hk. specialize (Co H12 k Hk). rewrite <- En by exact Hk.
    assert (128 * Z.of_nat (2 ^ level) < 1000000)%Z as Q.
    { pose proof (Nat.pow_le_mono_r 2 level 12 ltac:(lia) H12) as Q. change (2 ^ 12) with 4096 in Q. lia. }
    replace (k <? Nat.min W (1 * 2 ^ K)) with (k <? 2 ^ K) in Co by lia. destruct (Nat.ltb_spec k (2 ^ K)); lia.
  - intros M LM FM EM. destruct (Cl M LM FM EM) as ((C1 & C1') & C2 & C3). rewrite Hbits by lia. split; [exact C2|]. split; [rewrite C3; apply ptr_transform; rewrite length_symbols, length_groles; exact Lf|].
    split; [exact C1|exact C1'].
Qed.
End Summary.

(** ** C44 *)
Section Plain.
Variables (W : nat) (P : polar_ops (list Z)) (MAX_M : nat) (soft hard maps : list (list Z)) (rank : option (list Z)) (message : list (list Z)) (received : list Z) (frozen : list N) (level : nat).
Notation fl := (flags frozen (2 ^ level)).
Notation K := (unfrozen fl).
Notation rcv := (firstn (2 ^ level) received).
Lemma plain_summary : back_end W P -> list_buffers W MAX_M soft hard maps rank message received frozen level K -> 1 <= K ->
  exists soft' hard' maps' out metric (real : nat -> bool),
  list_decode W P MAX_M soft hard maps rank message received frozen level =
    Ok (soft', hard', maps', option_map (fun r => ranks metric ++ skipn W r) rank, out ++ skipn K message) /\
  length out = K /\ length metric = W /\
  (forall k, k < W -> let m := lane_of k out in length m = K /\ Forall pm1 m /\ lane_of k (firstn (2 ^ level) hard') = transform level (expand fl m) /\
     nth k metric 0%Z = (path_cost level fl (expand fl m) rcv + (if real k then 0 else 1000000))%Z) /\
  (forall k l, k < W -> l < W -> k <> l -> real k = true -> real l = true -> lane_of k out <> lane_of l out) /\
  (last fl true = false -> nondecreasing metric) /\
  (level <= 12 -> forall k, k < W -> real k = (k <? 2 ^ K)) /\
  (forall M, length M = K -> Forall pm1 M -> map Z.sgn rcv = transform level (expand fl M) ->
     lane_of 0 out = M /\ lane_of 0 (firstn (2 ^ level) hard') = transform level (expand fl M) /\ nth 0 metric 0%Z = 0%Z /\ forall k, 0 < k -> k < W -> (0 < nth k metric 0)%Z).
Proof.
  intros BE HB HK. assert (HB' := HB). destruct HB' as (HW & HL & HM & _ & _ & _ & _ & _ & Hrec & F8 & _).
  pose proof (summary W P plain_next false (list_rate1 W) MAX_M 0 soft hard maps rank message received frozen level) as S.
  rewrite !groles_plain, payload_plain in S. pose proof (plain_no_parity fl) as NP.
  destruct (S HB BE plain_next_ok (fun a b h => list_rate1_good W HW P a b h) eq_refl HK) as (soft' & hard' & maps' & out & metric & real & S1 & S2 & S3 & S4 & S5 & S6 & S7 & S8).
  exists soft', hard', maps', out, metric, real. split; [exact S1|]. split; [exact S2|]. split; [exact S3|].
  assert (forall k, k < W -> let m := lane_of k out in length m = K /\ Forall pm1 m /\ lane_of k (firstn (2 ^ level) hard') = transform level (expand fl m) /\
     nth k metric 0%Z = (path_cost level fl (expand fl m) rcv + (if real k then 0 else 1000000))%Z) as T.
  { intros k Hk. cbv zeta. destruct (S4 k Hk) as (Q1 & Q2 & Q3). rewrite symbols_plain in Q2. split; [rewrite length_lane_of; exact S2|]. split; [exact Q1|]. tauto. }
  split; [exact T|]. split; [intros; apply S5; auto|]. split; [exact S6|]. split.
  - intros H12 k Hk. specialize (S7 H12 k Hk). destruct (S4 k Hk) as (Q1 & Q2 & Q3). destruct (T k Hk) as (_ & _ & _ & E).
    assert (128 * Z.of_nat (2 ^ level) < 1000000)%Z as Q.
    { pose proof (Nat.pow_le_mono_r 2 level 12 ltac:(lia) H12) as Q. change (2 ^ 12) with 4096 in Q. lia. }
    pose proof (path_cost_range level fl (expand fl (lane_of k out)) rcv ltac:(rewrite length_expand, length_flags; reflexivity) ltac:(rewrite firstn_length; lia) ltac:(apply Forall_firstn_; exact F8) ltac:(apply pm1_expand; exact Q1)) as R.
    destruct (real k); destruct (Nat.ltb_spec k (2 ^ K)); lia.
  - intros M LM FM EM. specialize (S8 M). rewrite symbols_plain in S8. apply S8; assumption.
Qed.
End Plain.

(** C44: there is a metric such that the rank array counts its changes; lane [k] of the output is a message, lane [k] of
    the hard values its codeword, and the metric is its cost, except that lanes that never were real paths carry a
    penalty of 1000000.  Real lanes carry different messages.  If the last position is not frozen the metrics are in order, and up
    to level 12 the real lanes are exactly the first [2^K].  Only [K] message vectors and [W] ranks are written. *)
Theorem C44_every_lane_is_a_path : forall W P MAX_M soft hard maps rank message received frozen level,
  let fl := flags frozen (2 ^ level) in let K := unfrozen fl in
  back_end W P -> list_buffers W MAX_M soft hard maps rank message received frozen level K -> 1 <= K ->
  exists soft' hard' maps' out metric (real : nat -> bool),
    list_decode W P MAX_M soft hard maps rank message received frozen level =
      Ok (soft', hard', maps', option_map (fun r => ranks metric ++ skipn W r) rank, out ++ skipn K message) /\
    length out = K /\ length metric = W /\
    (forall k, k < W -> let m := lane_of k out in
       length m = K /\ Forall pm1 m /\ lane_of k (firstn (2 ^ level) hard') = transform level (expand fl m) /\
       nth k metric 0%Z = (path_cost level fl (expand fl m) (firstn (2 ^ level) received) + (if real k then 0 else 1000000))%Z) /\
    (forall k l, k < W -> l < W -> k <> l -> real k = true -> real l = true -> lane_of k out <> lane_of l out) /\
    (last fl true = false -> nondecreasing metric) /\
    (level <= 12 -> forall k, k < W -> real k = (k <? 2 ^ K)).
Proof.
  intros W P MAX_M soft hard maps rank message received frozen level fl K BE HB HK.
  destruct (plain_summary W P MAX_M soft hard maps rank message received frozen level BE HB HK) as (soft' & hard' & maps' & out & metric & real & S1 & S2 & S3 & S4 & S5 & S6 & S7 & _).
  exists soft', hard', maps', out, metric, real. split; [exact S1|]. split; [exact S2|]. split; [exact S3|]. split; [exact S4|]. split; [exact S5|]. split; [exact S6|exact S7].
Qed.
Print Assumptions C44_every_lane_is_a_path.
(** C44: if the list is large enough for all messages it contains each of them, and lane 0 one of least cost *)
Theorem C44_complete_list : forall W P MAX_M soft hard maps rank message received frozen level,
  let fl := flags frozen (2 ^ level) in let K := unfrozen fl in
  back_end W P -> list_buffers W MAX_M soft hard maps rank message received frozen level K -> 1 <= K ->
  level <= 12 -> 2 ^ K <= W -> last fl true = false ->
  exists soft' hard' maps' rank' out,
    list_decode W P MAX_M soft hard maps rank message received frozen level = Ok (soft', hard', maps', rank', out ++ skipn K message) /\ length out = K /\
    forall m, length m = K -> Forall pm1 m ->
      (exists k, k < 2 ^ K /\ lane_of k out = m) /\
      (path_cost level fl (expand fl (lane_of 0 out)) (firstn (2 ^ level) received) <= path_cost level fl (expand fl m) (firstn (2 ^ level) received))%Z.
Proof.
  intros W P MAX_M soft hard maps rank message received frozen level fl K BE HB HK H12 HW2 Hl. pose proof (pow2_pos K) as Hp.
  destruct (plain_summary W P MAX_M soft hard maps rank message received frozen level BE HB HK) as (soft' & hard' & maps' & out & metric & real & S1 & S2 & S3 & S4 & S5 & S6 & S7 & _).
  fold fl in S1, S2, S4, S6, S7. fold K in S1, S2, S4, S7. specialize (S6 Hl). specialize (S7 H12). do 5 eexists. split; [exact S1|]. split; [exact S2|]. intros m Lm Fm.
  destruct (all_found K (fun k => lane_of k out)) with (m := m) as (k & Hk & Ek); try assumption.
  - intros k Hk. destruct (S4 k ltac:(lia)) as (Q1 & Q2 & _). auto.
  - intros k l Hk Hl2 Hne. apply S5; try lia; rewrite S7 by lia; lia.
  - split; [exists k; auto|]. rewrite <- Ek. destruct (S4 0 ltac:(lia)) as (_ & _ & _ & M0). destruct (S4 k ltac:(lia)) as (_ & _ & _ & Mk). rewrite S7 in M0, Mk by lia.
    replace (0 <? 2 ^ K) with true in M0 by lia. replace (k <? 2 ^ K) with true in Mk by lia. destruct k as [|k]; [lia|]. specialize (S6 0 (S k) ltac:(lia) ltac:(lia)). lia.
Qed.
Print Assumptions C44_complete_list.
(** C44: if moreover nothing can saturate, lane 0 is a most likely message: its codeword contradicts the received values
    least *)
Theorem C44_most_likely : forall W P MAX_M soft hard maps rank message received frozen level,
  let fl := flags frozen (2 ^ level) in let K := unfrozen fl in let r := firstn (2 ^ level) received in
  back_end W P -> list_buffers W MAX_M soft hard maps rank message received frozen level K -> 1 <= K ->
  level <= 12 -> 2 ^ K <= W -> last fl true = false -> (sum (map Z.abs r) <= 127)%Z ->
  exists soft' hard' maps' rank' out,
    list_decode W P MAX_M soft hard maps rank message received frozen level = Ok (soft', hard', maps', rank', out ++ skipn K message) /\ length out = K /\
    forall m, length m = K -> Forall pm1 m ->
      (discrepancy (transform level (expand fl (lane_of 0 out))) r <= discrepancy (transform level (expand fl m)) r)%Z.
Proof.
  intros W P MAX_M soft hard maps rank message received frozen level fl K r BE HB HK H12 HW2 Hl Hs. pose proof (pow2_pos K) as Hp.
  destruct (C44_complete_list W P MAX_M soft hard maps rank message received frozen level BE HB HK H12 HW2 Hl) as (soft' & hard' & maps' & rank' & out & E & Lo & C).
  fold fl in C, E, Lo. fold K in C, E, Lo. fold r in C. do 5 eexists. split; [exact E|]. split; [exact Lo|]. intros m Lm Fm. destruct (C m Lm Fm) as (_ & Q).
  assert (length fl = 2 ^ level) as Lf by apply length_flags.
  assert (forall m, Forall pm1 m -> path_cost level fl (expand fl m) r = discrepancy (transform level (expand fl m)) r) as X.
  { intros w Fw. rewrite path_cost_exact; try assumption.
    - rewrite ptr_transform by (rewrite length_expand; exact Lf). reflexivity.
    - rewrite length_expand. exact Lf.
    - destruct HB as (_ & _ & _ & _ & _ & _ & _ & _ & Hrec & _). unfold r. rewrite firstn_length. lia.
    - apply pm1_expand. exact Fw.
    - intros i Hi Ei. rewrite nth_expand by lia. rewrite Ei. reflexivity. }
  assert (Forall pm1 (lane_of 0 out)) as F0.
  { destruct (C (repeat 1%Z K)) as ((k & _ & _) & _); [apply repeat_length|apply Forall_forall; intros x Hx; apply repeat_spec in Hx; left; exact Hx|].
    destruct (plain_summary W P MAX_M soft hard maps rank message received frozen level BE HB HK) as (s2 & h2 & m2 & out2 & metric & real & S1 & S2 & _ & S4 & _).
    fold fl in S1, S2, S4. fold K in S1, S2, S4. rewrite E in S1. injection S1 as _ _ _ _ Eo. assert (out = out2) as ->.
    { apply (f_equal (firstn K)) in Eo. rewrite !firstn_app_l in Eo by assumption. exact Eo. }
    destruct (S4 0 ltac:(lia)) as (_ & Q2 & _). exact Q2. }
  rewrite <- !X by assumption. exact Q.
Qed.
Print Assumptions C44_most_likely.
(** C44: a code without message symbols makes the decoder read in front of its array *)
Theorem C44_all_frozen_undefined : forall W P MAX_M soft hard maps rank message received frozen level,
  back_end W P -> list_buffers W MAX_M soft hard maps rank message received frozen level 0 -> unfrozen (flags frozen (2 ^ level)) = 0 ->
  list_decode W P MAX_M soft hard maps rank message received frozen level = Undef.
Proof.
  intros W P MAX_M soft hard maps rank message received frozen level BE (HW & HL & HM & Ls & Lh & Lm & Hm & Hr & Hrec & F8 & Hf & Fz) H0. pose proof (back_end_ok W P BE) as HP.
  pose proof (Nat.pow_le_mono_r 2 level MAX_M ltac:(lia) ltac:(lia)) as Hpw. unfold list_decode.
  apply (decode_empty W HW P HP plain_next plain_next_ok false (list_rate1 W) (fun a b h => list_rate1_good W HW P a b h)); try assumption; try lia.
  - apply Forall_firstn_. exact F8.
  - reflexivity.
  - rewrite groles_plain, payload_plain. exact H0.
Qed.
Print Assumptions C44_all_frozen_undefined.
Ltac small_buffers := unfold list_buffers; split; [lia|split; [lia|split; [lia|split; [reflexivity|split; [reflexivity|split; [reflexivity|split; [|split; [|split; [cbn; lia|split; [|split; [cbn; lia|]]]]]]]]]]].
Lemma squares_int8 (f : nat -> nat) : Forall int8 (map (fun i => (Z.of_nat (f i mod 61) - 30)%Z) (seq 0 32)).
Proof. apply Forall_forall. intros x Hx. apply in_map_iff in Hx. destruct Hx as (i & <- & _). unfold int8. pose proof (Nat.mod_upper_bound (f i) 61 ltac:(lia)). lia. Qed.
(** a list of 4 for 3 message symbols *)
Definition ex_frozen : list N := [4294967295 - 2 ^ 15 - 2 ^ 30 - 2 ^ 31]%N.
Definition ex_received : list Z := map (fun i => (Z.of_nat (i * i * 7 mod 61) - 30)%Z) (seq 0 32).
Example C44_nonvacuous :
  list_buffers 4 5 (repeat [] 64) (repeat [] 32) (repeat [] 32) (Some [9; 9; 9; 9; 9]%Z) (repeat [] 4) ex_received ex_frozen 5 (unfrozen (flags ex_frozen 32)) /\
  unfrozen (flags ex_frozen 32) = 3 /\ last (flags ex_frozen 32) true = false /\
  ('(_, _, _, rank, out) <- list_decode 4 (ops8v 4) 5 (repeat [] 64) (repeat [] 32) (repeat [] 32) (Some [9; 9; 9; 9; 9]%Z) (repeat [] 4) ex_received ex_frozen 5 ;; Ok (rank, out)) =
    Ok (Some [0; 1; 2; 3; 9]%Z, [[1; -1; -1; 1]; [-1; 1; -1; 1]; [1; 1; -1; -1]; []]%Z).
Proof.
  split; [|split; [vm_compute; reflexivity|split; [vm_compute; reflexivity|vm_compute; reflexivity]]].
  small_buffers.
  - replace (unfrozen (flags ex_frozen 32)) with 3 by (vm_compute; reflexivity). cbn. lia.
  - intros r E. injection E as <-. cbn. lia.
  - apply squares_int8.
  - constructor; [reflexivity|constructor].
Qed.
(** if the last position is frozen the order of the lanes need not be that of their costs: lane 1 costs less than lane 0 *)
Example C44_last_frozen_unordered :
  let frozen := [4294967295 - 2 ^ 15 - 2 ^ 24]%N in
  let received := map (fun i => (Z.of_nat ((i * i * 7 + 217 + i * 91 + i * i * i * 5) mod 61) - 30)%Z) (seq 0 32) in
  let cost out k := path_cost 5 (flags frozen 32) (expand (flags frozen 32) (lane_of k out)) received in
  ('(_, _, _, rank, out) <- list_decode 2 (ops8v 2) 5 (repeat [] 64) (repeat [] 32) (repeat [] 32) (Some [9; 9]%Z) (repeat [] 2) received frozen 5 ;; Ok (rank, cost out 0, cost out 1)) =
    Ok (Some [0; 1], 171, 140)%Z.
Proof. vm_compute. reflexivity. Qed.

(** ** C45 *)
Lemma ranks_first metric : (1 <= length metric)%nat -> nth 0 metric 0%Z = 0%Z -> (forall k, 0 < k -> k < length metric -> (0 < nth k metric 0)%Z) ->
  length (ranks metric) = length metric /\ nth 0 (ranks metric) 0%Z = 0%Z /\ forall k, 0 < k -> k < length metric -> (0 < nth k (ranks metric) 0)%Z.
Proof.
  intros L H0 H1. unfold ranks. split; [rewrite map_length, seq_length; reflexivity|]. split.
  - rewrite nth_map_seq. replace (0 <? length metric) with true by lia. reflexivity.
  - intros k Hk Hk2. rewrite nth_map_seq. replace (k <? length metric) with true by lia. cbn [Nat.add]. destruct k as [|k]; [lia|]. cbn [seq filter]. rewrite H0. specialize (H1 1 ltac:(lia) ltac:(lia)).
    replace (0 =? nth 1 metric 0)%Z with false by lia. cbn [negb length]. lia.
Qed.
(** C45: from values with the signs of a codeword (and any non-zero magnitudes) lane 0 recovers the message and the
    codeword, with rank 0; all other lanes have larger rank *)
Theorem C45_noiseless : forall W P MAX_M soft hard maps rank out received frozen level message codeword cw,
  let fl := flags frozen (2 ^ level) in let K := unfrozen fl in
  back_end W P -> list_buffers W MAX_M soft hard maps rank out received frozen level K -> 1 <= K ->
  Forall pm1 message -> length message = K -> 2 ^ level <= length codeword ->
  polar_encode ops8 codeword message frozen level = Ok cw ->
  (forall i, i < 2 ^ level -> Z.sgn (nth i received 0%Z) = nth i cw 0%Z) ->
  exists soft' hard' maps' order decoded,
    list_decode W P MAX_M soft hard maps rank out received frozen level =
      Ok (soft', hard', maps', option_map (fun r => order ++ skipn W r) rank, decoded ++ skipn K out) /\
    length decoded = K /\ lane_of 0 decoded = message /\ lane_of 0 (firstn (2 ^ level) hard') = firstn (2 ^ level) cw /\
    length order = W /\ nth 0 order 0%Z = 0%Z /\ forall k, 0 < k -> k < W -> (0 < nth k order 0)%Z.
Proof.
  intros W P MAX_M soft hard maps rank out received frozen level message codeword cw fl K BE HB HK Fm Lm Hc E HS.
  assert (HB' := HB). destruct HB' as (HW & HL & HM & _ & _ & _ & _ & _ & Hrec & F8 & Hf & _).
  destruct (plain_summary W P MAX_M soft hard maps rank out received frozen level BE HB HK) as (soft' & hard' & maps' & dec & metric & real & S1 & S2 & S3 & _ & _ & _ & _ & S8).
  fold fl in S1, S2, S8. fold K in S1, S2, S8. rewrite encode_ok in E; try assumption; [|lia|fold fl; lia]. injection E as <-. fold fl in HS.
  assert (length (expand fl message) = 2 ^ level) as Le by (rewrite length_expand; apply length_flags).
  destruct (S8 message Lm Fm) as (Q1 & Q2 & Q3 & Q4).
  { apply (list_ext _ _ 0%Z); [rewrite map_length, firstn_length, length_transform; lia|].
    intros i Hi. rewrite map_length, firstn_length in Hi. rewrite (nth_map1 _ _ _ 0%Z) by (rewrite firstn_length; lia).
    rewrite nth_firstn'. replace (i <? 2 ^ level) with true by lia. rewrite HS by lia. rewrite app_nth1 by (rewrite length_transform; lia). reflexivity. }
  exists soft', hard', maps', (ranks metric), dec. split; [exact S1|]. split; [exact S2|]. split; [exact Q1|]. split.
  - rewrite Q2. fold fl. rewrite firstn_app_l by apply length_transform. reflexivity.
  - destruct (ranks_first metric) as (R1 & R2 & R3); [lia|exact Q3|rewrite S3; exact Q4|]. rewrite S3 in *. auto.
Qed.
Print Assumptions C45_noiseless.
(** C45: the other levels are refused by an assertion, by both decoders *)
Theorem C45_other_levels_refused : forall W P rate1 MAX_M first soft hard maps rank out received frozen level,
  1 <= W -> length soft = 2 * 2 ^ MAX_M -> MAX_M <= 16 -> 2 ^ level <= length received -> level < 5 \/ MAX_M < level ->
  list_decode_with W P rate1 MAX_M first soft hard maps rank out received frozen level = Abort.
Proof.
  intros W P rate1 MAX_M first soft hard maps rank out r f n HW Ls HM Hr H. unfold list_decode_with. destruct (Nat.leb_spec n MAX_M) as [C|C]; [|reflexivity]. cbn [assert_ bind].
  destruct H as [H|H]; [|lia]. replace (n <=? 30) with true by lia. pose proof (Nat.pow_le_mono_r 2 n MAX_M ltac:(lia) C).
  rewrite wr_Ok by (rewrite repeat_length; lia). cbn [bind].
  edestruct (for_up_inv (fun i (l : list Z) => length l = W) (fun k metric => wr metric k 1000000%Z) 1 W (upd (repeat 0%Z W) 0 0%Z)) as (l & E & _).
  4: { rewrite E. cbn [bind require]. rewrite (fill_ok (2 ^ n) (2 ^ n) (fun i => vdup W (nth i r 0%Z))); [|lia|].
       - cbn [bind]. replace (n =? 5) with false by lia. replace ((6 <=? n) && (n <=? 16)) with false by lia. reflexivity.
       - intros i cur Hi _. rewrite (rd_nth _ _ 0%Z) by lia. reflexivity. }
  - lia.
  - intros i l Hi Hl. rewrite wr_Ok by lia. eexists. split; [reflexivity|]. rewrite length_upd. exact Hl.
  - rewrite length_upd. apply repeat_length.
Qed.
Print Assumptions C45_other_levels_refused.
Example C45_nonvacuous :
  (cw <- polar_encode ops8 (repeat 0%Z 32) [-1; 1; -1]%Z ex_frozen 5 ;;
   '(_, _, _, rank, out) <- list_decode 4 (ops8v_neon 4) 5 (repeat [] 64) (repeat [] 32) (repeat [] 32) (Some [9; 9; 9; 9]%Z) (repeat [] 3) (map (fun x => (5 * x)%Z) cw) ex_frozen 5 ;;
   Ok (nth 0 (match rank with Some r => r | None => [] end) 9%Z, lane_of 0 out)) = Ok (0, [-1; 1; -1])%Z.
Proof. vm_compute. reflexivity. Qed.

(** ** C46 *)
(** C46: the encoder sends the message symbols with parity symbols inserted: after the first [first] message symbols,
    then after every [stride] *)
Theorem C46_encoder : forall codeword message frozen level stride first,
  let rs := parity_roles stride (flags frozen (2 ^ level)) first in
  1 <= level <= 30 -> 2 ^ level <= 32 * length frozen -> 2 ^ level <= length codeword -> payload rs <= length message -> Forall pm1 message ->
  exists cw, parity_encode ops8 codeword message frozen level stride first = Ok cw /\
    firstn (2 ^ level) cw = transform level (symbols rs 1 message) /\ skipn (2 ^ level) cw = skipn (2 ^ level) codeword.
Proof.
  intros cw0 m f n stride first rs Hn Hf Hc Hm F. rewrite parity_encode_ok by assumption. eexists. split; [reflexivity|].
  rewrite firstn_app_l, skipn_app_l by apply length_transform. auto.
Qed.
Print Assumptions C46_encoder.
(** C46: a parity symbol is the product of the message symbols since the preceding parity symbol *)
Theorem C46_parity_symbols : forall rs message i,
  length message = payload rs -> i < length rs -> nth i rs Frozen = Parity ->
  exists j, j <= i /\ (j = 0 \/ nth (j - 1) rs Frozen = Parity) /\ (forall l, j <= l -> l < i -> nth l rs Frozen <> Parity) /\
    nth i (symbols rs 1 message) 0%Z = product (firstn (payload (firstn i rs) - payload (firstn j rs)) (skipn (payload (firstn j rs)) message)).
Proof.
  assert (forall rs i, i <= length rs -> exists j, j <= i /\ (j = 0 \/ nth (j - 1) rs Frozen = Parity) /\ forall l, j <= l -> l < i -> nth l rs Frozen <> Parity) as Find.
  { intros rs i. induction i as [|i IH]; intros Hi; [exists 0; repeat split; [lia|auto|lia]|]. destruct (IH ltac:(lia)) as (j & J1 & J2 & J3).
    destruct (nth i rs Frozen) eqn:Er.
    1,2: exists j; split; [lia|]; split; [exact J2|]; intros l H1 H2; destruct (Nat.eq_dec l i) as [-> | Hne]; [congruence|apply J3; lia].
    exists (S i). split; [lia|]. split; [right; replace (S i - 1) with i by lia; exact Er|lia]. }
  intros rs message i Lm Hi Ei. destruct (Find rs i ltac:(lia)) as (j & J1 & J2 & J3). exists j. split; [exact J1|]. split; [exact J2|]. split; [exact J3|].
  assert (rs = firstn i rs ++ Parity :: skipn (S i) rs) as Ers.
  { rewrite <- (firstn_skipn i rs) at 1. f_equal. rewrite <- Ei. clear - Hi. revert i Hi. induction rs as [|r rs IH]; intros [|i] Hi; cbn [length] in *; try lia; [reflexivity|]. cbn. apply IH. lia. }
  assert (nth i (symbols rs 1 message) 0%Z = pafter (firstn i rs) 1 message) as ->.
  { rewrite Ers at 1. destruct (symbols_app' (firstn i rs) (Parity :: skipn (S i) rs) 1 message) as (-> & _). rewrite app_nth2 by (rewrite length_symbols, firstn_length; lia).
    rewrite length_symbols, firstn_length. replace (i - Nat.min i (length rs)) with 0 by lia. reflexivity. }
  set (a := firstn j rs). set (b := skipn j (firstn i rs)).
  assert (firstn i rs = a ++ b) as Eab by (unfold a, b; rewrite <- (firstn_skipn j (firstn i rs)) at 1; rewrite firstn_firstn; do 2 f_equal; lia).
  rewrite Eab. destruct (symbols_app' a b 1 message) as (_ & ->). rewrite payload_app. replace (payload a + payload b - payload a) with (payload b) by lia.
  assert (pafter a 1 message = 1%Z) as ->.
  { destruct J2 as [-> | J2]; [reflexivity|]. destruct j as [|j]; [reflexivity|]. replace (S j - 1) with j in J2 by lia.
    assert (a = firstn j rs ++ [Parity]) as -> by (unfold a; rewrite <- J2; apply firstn_snoc; lia). destruct (symbols_app' (firstn j rs) [Parity] 1 message) as (_ & ->). reflexivity. }
  assert (~ In Parity b) as Nb.
  { intros C. apply (In_nth _ _ Frozen) in C. destruct C as (l & Hl & El). unfold b in *. rewrite skipn_length, firstn_length in Hl. rewrite nth_skipn', nth_firstn' in El.
    replace (j + l <? i) with true in El by lia. apply (J3 (j + l)); (lia || exact El). }
  assert (payload b <= length (skipn (payload a) message)) as Lb.
  { rewrite skipn_length, Lm. rewrite Ers, Eab, !payload_app. lia. }
  revert Lb Nb. generalize (skipn (payload a) message). clear. intros M Lb Nb.
  assert (forall par M, payload b <= length M -> pafter b par M = (par * product (firstn (payload b) M))%Z) as G; [|rewrite G by exact Lb; lia]. clear M Lb.
  induction b as [|r b IH]; intros par M Lb; [cbn; lia|]. rewrite payload_cons in *. destruct r; cbn [pafter Nat.add] in *.
  - apply IH; [intros C; apply Nb; right; exact C|exact Lb].
  - destruct M as [|x M]; cbn [length] in Lb; [lia|]. cbn [hd tl firstn]. rewrite IH; [|intros C; apply Nb; right; exact C|lia]. unfold product. cbn [fold_right]. lia.
  - exfalso. apply Nb. left. reflexivity.
Qed.
Print Assumptions C46_parity_symbols.
Section Parity.
Variables (W : nat) (P : polar_ops (list Z)) (MAX_M : nat) (soft hard maps : list (list Z)) (rank : option (list Z)) (message : list (list Z)) (received : list Z) (frozen : list N) (level stride first : nat).
Notation fl := (flags frozen (2 ^ level)).
Notation rs := (parity_roles stride fl first).
Notation K := (payload rs).
Notation rcv := (firstn (2 ^ level) received).
Lemma parity_summary : back_end W P -> list_buffers W MAX_M soft hard maps rank message received frozen level K -> 1 <= K -> 1 <= first ->
  exists soft' hard' maps' out metric,
  parity_decode W P MAX_M soft hard maps rank message received frozen level stride first =
    Ok (soft', hard', maps', option_map (fun r => ranks metric ++ skipn W r) rank, out ++ skipn K message) /\
  length out = K /\ length metric = W /\
  (forall k, k < W -> let m := lane_of k out in length m = K /\ Forall pm1 m /\
     ((nth k metric 0 < 1000000)%Z -> lane_of k (firstn (2 ^ level) hard') = transform level (symbols rs 1 m) /\
       nth k metric 0%Z = path_cost level fl (symbols rs 1 m) rcv)) /\
  (forall k l, k < W -> l < W -> k <> l -> (nth k metric 0 < 1000000)%Z -> (nth l metric 0 < 1000000)%Z -> lane_of k out <> lane_of l out) /\
  (last fl true = false -> nondecreasing metric) /\
  (level <= 12 -> forall k, k < W -> (nth k metric 0 < 1000000)%Z <-> k < 2 ^ K) /\
  (forall M, length M = K -> Forall pm1 M -> map Z.sgn rcv = transform level (symbols rs 1 M) ->
     lane_of 0 out = M /\ lane_of 0 (firstn (2 ^ level) hard') = transform level (symbols rs 1 M) /\ nth 0 metric 0%Z = 0%Z /\ forall k, 0 < k -> k < W -> (0 < nth k metric 0)%Z).
Proof.
  intros BE HB HK Hf1. assert (HB' := HB). destruct HB' as (HW & HL & HM & _ & _ & _ & _ & _ & Hrec & F8 & _).
  pose proof (summary W P (parity_next stride) true (parity_rate1 W P stride) MAX_M first soft hard maps rank message received frozen level) as S. rewrite !groles_parity in S.
  destruct (S HB BE (parity_next_ok stride) (fun a b h => parity_rate1_good W HW P a b stride h)) as (soft' & hard' & maps' & out & metric & real & S1 & S2 & S3 & S4 & S5 & S6 & S7 & S8).
  { destruct first; [lia|reflexivity]. }
  { exact HK. }
  exists soft', hard', maps', out, metric. split; [exact S1|]. split; [exact S2|]. split; [exact S3|].
  assert (forall k, k < W -> (nth k metric 0 < 1000000)%Z -> real k = true) as Rl.
  { intros k Hk Hlt. destruct (S4 k Hk) as (_ & _ & Q3). destruct (real k); [reflexivity|]. specialize (Q3 eq_refl). lia. }
  split.
  { intros k Hk. cbv zeta. destruct (S4 k Hk) as (Q1 & Q2 & Q3). split; [rewrite length_lane_of; exact S2|]. split; [exact Q1|]. intros Hlt.
    destruct Q2 as [(D1 & D2)|(_ & D)]; [|lia]. rewrite (Rl k Hk Hlt) in D2. split; [exact D1|]. lia. }
  split; [intros k l Hk Hl Hne H1 H2; apply S5; auto|]. split; [exact S6|]. split; [exact S7|]. exact S8.
Qed.
End Parity.
(** C46: the same for the parity aided decoder: lanes with a metric below 1000000 are paths that obey the parity symbols, and all
    different; up to level 12 there are [2^K] of them (or [W]), and they come first *)
Theorem C46_lanes_obey_parity : forall W P MAX_M soft hard maps rank message received frozen level stride first,
  let fl := flags frozen (2 ^ level) in let rs := parity_roles stride fl first in let K := payload rs in
  back_end W P -> list_buffers W MAX_M soft hard maps rank message received frozen level K -> 1 <= K -> 1 <= first ->
  exists soft' hard' maps' out metric,
    parity_decode W P MAX_M soft hard maps rank message received frozen level stride first =
      Ok (soft', hard', maps', option_map (fun r => ranks metric ++ skipn W r) rank, out ++ skipn K message) /\
    length out = K /\ length metric = W /\
    (forall k, k < W -> let m := lane_of k out in length m = K /\ Forall pm1 m /\
       ((nth k metric 0 < 1000000)%Z -> lane_of k (firstn (2 ^ level) hard') = transform level (symbols rs 1 m) /\
         nth k metric 0%Z = path_cost level fl (symbols rs 1 m) (firstn (2 ^ level) received))) /\
    (forall k l, k < W -> l < W -> k <> l -> (nth k metric 0 < 1000000)%Z -> (nth l metric 0 < 1000000)%Z -> lane_of k out <> lane_of l out) /\
    (last fl true = false -> nondecreasing metric) /\
    (level <= 12 -> forall k, k < W -> (nth k metric 0 < 1000000)%Z <-> k < 2 ^ K).
Proof.
  intros W P MAX_M soft hard maps rank message received frozen level stride first fl rs K BE HB HK Hf1.
  destruct (parity_summary W P MAX_M soft hard maps rank message received frozen level stride first BE HB HK Hf1) as (soft' & hard' & maps' & out & metric & S1 & S2 & S3 & S4 & S5 & S6 & S7 & _).
  exists soft', hard', maps', out, metric. split; [exact S1|]. split; [exact S2|]. split; [exact S3|]. split; [exact S4|]. split; [exact S5|]. split; [exact S6|exact S7].
Qed.
Print Assumptions C46_lanes_obey_parity.
(** frozen positions carry [1] *)
Lemma symbols_frozen_1 stride fl : forall c par m i, i < length fl -> nth i fl true = true -> nth i (symbols (parity_roles stride fl c) par m) 1%Z = 1%Z.
Proof.
  induction fl as [|[|] fl IH]; intros c par m [|i] Hi E; cbn [length nth] in *; try lia; try discriminate; try (destruct c; discriminate).
  - reflexivity.
  - cbn [parity_roles symbols nth]. apply IH; [lia|exact E].
  - destruct c as [|c]; cbn [parity_roles symbols nth]; apply IH; (lia || exact E).
Qed.
(** C46: if the list is large enough for all messages, it contains each of them, and lane 0 one whose codeword - parity
    symbols included - costs least *)
Theorem C46_complete_list : forall W P MAX_M soft hard maps rank message received frozen level stride first,
  let fl := flags frozen (2 ^ level) in let rs := parity_roles stride fl first in let K := payload rs in
  back_end W P -> list_buffers W MAX_M soft hard maps rank message received frozen level K -> 1 <= K -> 1 <= first ->
  level <= 12 -> 2 ^ K <= W -> last fl true = false ->
  exists soft' hard' maps' rank' out,
    parity_decode W P MAX_M soft hard maps rank message received frozen level stride first = Ok (soft', hard', maps', rank', out ++ skipn K message) /\ length out = K /\
    Forall pm1 (lane_of 0 out) /\ lane_of 0 (firstn (2 ^ level) hard') = transform level (symbols rs 1 (lane_of 0 out)) /\
    forall m, length m = K -> Forall pm1 m ->
      (exists k, k < 2 ^ K /\ lane_of k out = m) /\
      (path_cost level fl (symbols rs 1 (lane_of 0 out)) (firstn (2 ^ level) received) <= path_cost level fl (symbols rs 1 m) (firstn (2 ^ level) received))%Z.
Proof.
  intros W P MAX_M soft hard maps rank message received frozen level stride first fl rs K BE HB HK Hf1 H12 HW2 Hl. pose proof (pow2_pos K) as Hp.
  destruct (parity_summary W P MAX_M soft hard maps rank message received frozen level stride first BE HB HK Hf1) as (soft' & hard' & maps' & out & metric & S1 & S2 & S3 & S4 & S5 & S6 & S7 & _).
  fold fl in S1, S2, S4, S6, S7. fold rs in S1, S2, S4, S7. fold K in S1, S2, S4, S7. specialize (S6 Hl). specialize (S7 H12).
  destruct (S4 0 ltac:(lia)) as (_ & F0 & M0). destruct (M0 ltac:(apply S7; lia)) as (C0 & E0).
  do 5 eexists. split; [exact S1|]. split; [exact S2|]. split; [exact F0|]. split; [exact C0|]. intros m Lm Fm.
  destruct (all_found K (fun k => lane_of k out)) with (m := m) as (k & Hk & Ek); try assumption.
  - intros k Hk. destruct (S4 k ltac:(lia)) as (Q1 & Q2 & _). auto.
  - intros k l Hk Hl2 Hne. apply S5; try lia; apply S7; lia.
  - split; [exists k; auto|]. rewrite <- Ek. destruct (S4 k ltac:(lia)) as (_ & _ & Mk). destruct (Mk ltac:(apply S7; lia)) as (_ & E1).
    rewrite <- E0, <- E1. destruct k as [|k]; [lia|]. apply (S6 0 (S k)); lia.
Qed.
Print Assumptions C46_complete_list.
(** C46: if moreover nothing can saturate, lane 0 is a most likely message: no codeword with the parity symbols contradicts the
    received values less *)
Theorem C46_most_likely : forall W P MAX_M soft hard maps rank message received frozen level stride first,
  let fl := flags frozen (2 ^ level) in let rs := parity_roles stride fl first in let K := payload rs in let r := firstn (2 ^ level) received in
  back_end W P -> list_buffers W MAX_M soft hard maps rank message received frozen level K -> 1 <= K -> 1 <= first ->
  level <= 12 -> 2 ^ K <= W -> last fl true = false -> (sum (map Z.abs r) <= 127)%Z ->
  exists soft' hard' maps' rank' out,
    parity_decode W P MAX_M soft hard maps rank message received frozen level stride first = Ok (soft', hard', maps', rank', out ++ skipn K message) /\ length out = K /\
    Forall pm1 (lane_of 0 out) /\ lane_of 0 (firstn (2 ^ level) hard') = transform level (symbols rs 1 (lane_of 0 out)) /\
    forall m, length m = K -> Forall pm1 m ->
      (discrepancy (transform level (symbols rs 1 (lane_of 0 out))) r <= discrepancy (transform level (symbols rs 1 m)) r)%Z.
Proof.
  intros W P MAX_M soft hard maps rank message received frozen level stride first fl rs K r BE HB HK Hf1 H12 HW2 Hl Hs.
  destruct (C46_complete_list W P MAX_M soft hard maps rank message received frozen level stride first BE HB HK Hf1 H12 HW2 Hl) as (soft' & hard' & maps' & rank' & out & E & Lo & F0 & C0 & C).
  fold fl in C, E, Lo, C0. fold rs in C, E, Lo, C0. fold K in C, E, Lo. fold r in C. do 5 eexists. split; [exact E|]. split; [exact Lo|]. split; [exact F0|]. split; [exact C0|].
  intros m Lm Fm. destruct (C m Lm Fm) as (_ & Q).
  assert (length fl = 2 ^ level) as Lf by apply length_flags.
  assert (forall m, Forall pm1 m -> path_cost level fl (symbols rs 1 m) r = discrepancy (transform level (symbols rs 1 m)) r) as X.
  { intros w Fw. assert (length (symbols rs 1 w) = 2 ^ level) as Le by (rewrite length_symbols; unfold rs; rewrite <- groles_parity, length_groles; exact Lf).
    rewrite path_cost_exact; try assumption.
    - rewrite ptr_transform by exact Le. reflexivity.
    - destruct HB as (_ & _ & _ & _ & _ & _ & _ & _ & Hrec & _). unfold r. rewrite firstn_length. lia.
    - apply (proj1 (pm1_symbols rs 1%Z w ltac:(left; reflexivity) Fw)).
    - intros i Hi Ei. apply symbols_frozen_1; [rewrite Lf; exact Hi|exact Ei]. }
  rewrite <- !X by assumption. exact Q.
Qed.
Print Assumptions C46_most_likely.
(** C46: from values with the signs of a codeword lane 0 recovers the message *)
Theorem C46_noiseless : forall W P MAX_M soft hard maps rank out received frozen level stride first message codeword cw,
  let fl := flags frozen (2 ^ level) in let rs := parity_roles stride fl first in let K := payload rs in
  back_end W P -> list_buffers W MAX_M soft hard maps rank out received frozen level K -> 1 <= K -> 1 <= first ->
  Forall pm1 message -> length message = K -> 2 ^ level <= length codeword ->
  parity_encode ops8 codeword message frozen level stride first = Ok cw ->
  (forall i, i < 2 ^ level -> Z.sgn (nth i received 0%Z) = nth i cw 0%Z) ->
  exists soft' hard' maps' order decoded,
    parity_decode W P MAX_M soft hard maps rank out received frozen level stride first =
      Ok (soft', hard', maps', option_map (fun r => order ++ skipn W r) rank, decoded ++ skipn K out) /\
    length decoded = K /\ lane_of 0 decoded = message /\ lane_of 0 (firstn (2 ^ level) hard') = firstn (2 ^ level) cw /\
    length order = W /\ nth 0 order 0%Z = 0%Z /\ forall k, 0 < k -> k < W -> (0 < nth k order 0)%Z.
Proof.
  intros W P MAX_M soft hard maps rank out received frozen level stride first message codeword cw fl rs K BE HB HK Hf1 Fm Lm Hc E HS.
  assert (HB' := HB). destruct HB' as (HW & HL & HM & _ & _ & _ & _ & _ & Hrec & F8 & Hf & _).
  destruct (parity_summary W P MAX_M soft hard maps rank out received frozen level stride first BE HB HK Hf1) as (soft' & hard' & maps' & dec & metric & S1 & S2 & S3 & _ & _ & _ & _ & S8).
  fold fl in S1, S2, S8. fold rs in S1, S2, S8. fold K in S1, S2, S8. rewrite parity_encode_ok in E; try assumption; [|lia|fold fl; fold rs; fold K; lia]. injection E as <-. fold fl in HS. fold rs in HS.
  assert (length (symbols rs 1 message) = 2 ^ level) as Le by (rewrite length_symbols; unfold rs; rewrite <- groles_parity, length_groles; apply length_flags).
  destruct (S8 message Lm Fm) as (Q1 & Q2 & Q3 & Q4).
  { apply (list_ext _ _ 0%Z); [rewrite map_length, firstn_length, length_transform; lia|].
    intros i Hi. rewrite map_length, firstn_length in Hi. rewrite (nth_map1 _ _ _ 0%Z) by (rewrite firstn_length; lia).
    rewrite nth_firstn'. replace (i <? 2 ^ level) with true by lia. rewrite HS by lia. rewrite app_nth1 by (rewrite length_transform; lia). reflexivity. }
  exists soft', hard', maps', (ranks metric), dec. split; [exact S1|]. split; [exact S2|]. split; [exact Q1|]. split.
  - rewrite Q2. fold fl. fold rs. rewrite firstn_app_l by apply length_transform. reflexivity.
  - destruct (ranks_first metric) as (R1 & R2 & R3); [lia|exact Q3|rewrite S3; exact Q4|]. rewrite S3 in *. auto.
Qed.
Print Assumptions C46_noiseless.
(** two parity symbols: after the first two message symbols and after the third *)
Definition ex_frozen2 : list N := [4294967295 - 2 ^ 15 - 2 ^ 23 - 2 ^ 27 - 2 ^ 30 - 2 ^ 31]%N.
Example C46_nonvacuous :
  filter (fun r => match r with Frozen => false | _ => true end) (parity_roles 1 (flags ex_frozen2 32) 2) = [Data; Data; Parity; Data; Parity] /\
  (cw <- parity_encode ops8 (repeat 0%Z 32) [-1; 1; -1]%Z ex_frozen2 5 1 2 ;;
   '(_, _, _, rank, out) <- parity_decode 4 (ops8v 4) 5 (repeat [] 64) (repeat [] 32) (repeat [] 32) (Some [9; 9; 9; 9]%Z) (repeat [] 3) (map (fun x => (3 * x)%Z) cw) ex_frozen2 5 1 2 ;;
   Ok (nth 0 (match rank with Some r => r | None => [] end) 9%Z, lane_of 0 out)) = Ok (0, [-1; 1; -1])%Z.
Proof. split; vm_compute; reflexivity. Qed.
(** C46: with [first] = 0 the encoder sends a parity symbol before any message symbol, but the decoder then reads in
    front of the message array *)
Example C46_first_zero_undefined :
  (exists cw, parity_encode ops8 (repeat 0%Z 32) [-1; 1; -1]%Z ex_frozen2 5 2 0 = Ok cw) /\ (cw <- parity_encode ops8 (repeat 0%Z 32) [-1; 1; -1]%Z ex_frozen2 5 2 0 ;;
   parity_decode 4 (ops8v 4) 5 (repeat [] 64) (repeat [] 32) (repeat [] 32) None (repeat [] 3) cw ex_frozen2 5 2 0) = Undef.
Proof.
  split; [|vm_compute; reflexivity]. destruct (C46_encoder (repeat 0%Z 32) [-1; 1; -1]%Z ex_frozen2 5 2 0) as (cw & E & _).
  - lia.
  - cbn. lia.
  - cbn. lia.
  - replace (payload _) with 3 by (vm_compute; reflexivity). cbn. lia.
  - repeat constructor; (left; reflexivity) || (right; reflexivity).
  - exists cw. exact E.
Qed.
