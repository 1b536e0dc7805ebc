(** Property C86: the list decoders with float and double lanes on the SSE4.1, AVX2 and NEON back ends.

    [float_backend mw ew N K Q]: [Q] is what the decoders call on vectors of [K] registers of [N] bits with lanes of the format (mw, ew): float
    (23, 8) or double (52, 11).  [flanes mw ew N v] are the numbers in the lanes of [v].  [list_decodef] and [parity_decodef] are the decoders
    on lists of lanes, with the loops of simd.hh, whose results C72 describes. *)
From Coq Require Import ZifyBool ZifyNat Floats.SpecFloat.
From Verif Require Import Cpp Lib_sim Model_simd Model_simd2 Model_sort Model_intrin Model_backend Model_polar Model_polar_list Model_polar_float Model_fsimd Model_polar_listf Model_polar_listg
  Spec_polar Spec_ieee Spec_simd Spec_polar_float Spec_polar_list Spec_polar_listf
  Lib_list Lib_wht Proof_bits Proof_polar1 Proof_polar2 Proof_ieee Proof_fsimd1 Prop_fsimd Proof_plg1 Proof_plg2 Prop_polar_float Prop_polar_list Prop_polar_listf.
Local Open Scope nat_scope.
Ltac Zify.zify_post_hook ::= idtac.

(** SSE4.1 and AVX2 with the shuffle of simd.hh, AVX2 with its own shuffle of 32 bit lanes, NEON; any NaNs may result from the arithmetic *)
Definition float_backend (mw ew N : Z) (K : nat) (Q : list_ops (list Z)) : Prop :=
  exists nan nanv, returns_nan mw ew nan /\
  (Q = lops_x86 mw ew N nan nanv K \/
   mw = 23%Z /\ ew = 8%Z /\ N = 256%Z /\ 1 <= K <= 2 /\ Q = lops_avx2_float nan nanv K \/
   N = 128%Z /\ Q = lops_neon mw ew nan nanv K).

Section Format.
Variables (mw ew N : Z) (K : nat) (Q : list_ops (list Z)).
Hypothesis F : ieee_format mw ew.
Hypothesis B : float_backend mw ew N K Q.
Notation prec := (ieee_prec mw).
Notation emax := (ieee_emax ew).
Notation w := (ieee_width mw ew).
Notation W := (K * count N w).
(** the lanes of an array of vectors *)
Notation lanes_of := (map (flanes mw ew N)).
Notation regs := (Forall (fun v : list Z => length v = K)).

Lemma backend_serves : serves mw ew N K Q.
Proof.
  destruct B as (nan & nanv & HN & [->|[(-> & -> & -> & HK & ->)|(-> & ->)]]); [apply x86_serves|apply avx2_serves|apply neon_serves]; assumption.
Qed.
Lemma fmt : format prec emax. Proof. split; [apply (Hprec mw ew F)|apply (Hemax mw ew F)]. Qed.
Lemma lanes_related l : regs l -> Forall2 (Rv Q (reg K)) (lanes_of l) l.
Proof. intros H. induction H as [|v l Hv H IH]; cbn [map]; constructor; [|exact IH]. split; [exact Hv|]. apply (sv_lanes mw ew N K Q backend_serves). Qed.
Lemma related_lanes a l : Forall2 (Rv Q (reg K)) a l -> lanes_of l = a /\ regs l.
Proof.
  intros H. induction H as [|x v a l (Hv & Ex) H (IH1 & IH2)]; cbn [map]; [auto|]. split; [|constructor; assumption]. rewrite IH1, <- Ex. f_equal. symmetry. apply (sv_lanes mw ew N K Q backend_serves).
Qed.

(** a decoder run on the registers that has exactly these lanes as result *)
Definition on_registers (run : res (list (list Z) * list (list Z) * list (list Z) * option (list Z) * list (list Z)))
  (result : list (list spec_float) * list (list spec_float) * list (list Z) * option (list Z) * list (list spec_float)) : Prop :=
  let '(soft, hard, maps, rank, message) := result in exists vsoft vhard vmessage,
    run = Ok (vsoft, vhard, maps, rank, vmessage) /\ lanes_of vsoft = soft /\ lanes_of vhard = hard /\ lanes_of vmessage = message /\ regs vsoft /\ regs vhard /\ regs vmessage.
Lemma leads_on run1 run2 r : leads (same_lanes Q (reg K)) run1 run2 -> run1 = Ok r -> on_registers run2 r.
Proof.
  intros L E. destruct (L r E) as (q & Eq & S). destruct r as [[[[soft hard] maps] rank] message]. destruct q as [[[[soft' hard'] maps'] rank'] message'].
  destruct S as (S1 & S2 & -> & -> & S3). destruct (related_lanes _ _ S1). destruct (related_lanes _ _ S2). destruct (related_lanes _ _ S3). exists soft', hard', message'. auto 10.
Qed.
(** C86: PolarListDecoder on the registers: for finite received values so small that no soft value overflows, in every lane the same soft and hard
    values, decisions, maps and ranks as the decoder on lists of lanes, whatever the arrays contained *)
Theorem C86_list : forall MAX_M soft hard maps rank message received frozen level result,
  1 <= W -> (Z.of_nat W <= 2 ^ w)%Z -> regs soft -> regs hard -> regs message -> moderate prec emax level (firstn (2 ^ level) received) ->
  list_decodef prec emax w W MAX_M (lanes_of soft) (lanes_of hard) maps rank (lanes_of message) received frozen level = Ok result ->
  on_registers (list_decodeg prec emax w W Q MAX_M soft hard maps rank message received frozen level) result.
Proof.
  intros MAX_M soft hard maps rank message received frozen level result HW HU R1 R2 R3 (bound & B1 & B2 & FR) E. destruct fmt as (Hp & He). destruct backend_serves as [s1 s2 s3 s4 s5 s6 s7 s8 s9].
  eapply leads_on; [|exact E].
  eapply (list_leads prec emax w W Hp He HW HU Q (reg K) (bound + Z.of_nat level) level); try lia; try assumption; try (apply lanes_related; assumption).
  - intros v Hv. rewrite s1. apply (Proof_fsimd2.fl_len mw ew N K). exact Hv.
  - intros v Hv. rewrite s1. apply (Proof_fsimd2.fl_valid mw ew N F).
  - intros a b Ha Hb. rewrite !s1. apply s3; assumption.
  - intros a b Ha Hb Na Nb. rewrite s1 in Na, Nb. rewrite !s1. apply s4; assumption.
  - intros h a b Hh Ha Hb. rewrite !s1. apply s5; assumption.
  - intros a m Ha Hm. rewrite s1. apply s8; assumption.
  - replace (bound + Z.of_nat level - Z.of_nat level)%Z with bound by lia. exact FR.
Qed.
(** C86: PolarParityDecoder *)
Theorem C86_parity : forall MAX_M soft hard maps rank message received frozen level stride first result,
  1 <= W -> (Z.of_nat W <= 2 ^ w)%Z -> regs soft -> regs hard -> regs message -> moderate prec emax level (firstn (2 ^ level) received) ->
  parity_decodef prec emax w W MAX_M (lanes_of soft) (lanes_of hard) maps rank (lanes_of message) received frozen level stride first = Ok result ->
  on_registers (parity_decodeg prec emax w W Q MAX_M soft hard maps rank message received frozen level stride first) result.
Proof.
  intros MAX_M soft hard maps rank message received frozen level stride first result HW HU R1 R2 R3 (bound & B1 & B2 & FR) E. destruct fmt as (Hp & He). destruct backend_serves as [s1 s2 s3 s4 s5 s6 s7 s8 s9].
  eapply leads_on; [|exact E].
  eapply (parity_leads prec emax w W Hp He HW HU Q (reg K) (bound + Z.of_nat level) level); try lia; try assumption; try (apply lanes_related; assumption).
  - intros v Hv. rewrite s1. apply (Proof_fsimd2.fl_len mw ew N K). exact Hv.
  - intros v Hv. rewrite s1. apply (Proof_fsimd2.fl_valid mw ew N F).
  - intros a b Ha Hb. rewrite !s1. apply s3; assumption.
  - intros a b Ha Hb Na Nb. rewrite s1 in Na, Nb. rewrite !s1. apply s4; assumption.
  - intros h a b Hh Ha Hb. rewrite !s1. apply s5; assumption.
  - intros a m Ha Hm. rewrite s1. apply s8; assumption.
  - replace (bound + Z.of_nat level - Z.of_nat level)%Z with bound by lia. exact FR.
Qed.

(** C86: so on every back end the plain decoder ends, its output is +1.0 and -1.0 in every lane, and each lane is a codeword with its message
    and metric; lanes below the penalty differ, and the metrics are in order unless the last position is frozen *)
Theorem C86_every_lane_is_a_path : forall MAX_M soft hard maps rank message received frozen level,
  let fl := flags frozen (2 ^ level) in let U := unfrozen fl in
  list_buffersf w W MAX_M (lanes_of soft) (lanes_of hard) maps rank (lanes_of message) received frozen level U -> 1 <= U ->
  regs soft -> regs hard -> regs message -> moderate prec emax level (firstn (2 ^ level) received) ->
  exists vsoft vhard maps' vmessage word out metric (real : nat -> bool),
    list_decodeg prec emax w W Q MAX_M soft hard maps rank message received frozen level =
      Ok (vsoft, vhard, maps', option_map (fun r => ranksf metric ++ skipn W r) rank, vmessage) /\
    lanes_of vhard = hard_values prec word ++ skipn (2 ^ level) (lanes_of hard) /\ lanes_of vmessage = hard_values prec out ++ skipn U (lanes_of message) /\
    length word = 2 ^ level /\ length out = U /\ length metric = W /\
    (forall k, k < W -> let m := lane_of k out in length m = U /\ Forall pm1 m /\ lane_of k word = transform level (expand fl m) /\
       nth k metric (S754_zero false) = path_metric prec emax level fl (expand fl m) (firstn (2 ^ level) received) (if real k then S754_zero false else penalty prec emax)) /\
    (forall k l, k < W -> l < W -> k <> l -> real k = true -> real l = true -> lane_of k out <> lane_of l out) /\
    (forall k, k < W -> SFltb (nth k metric (S754_zero false)) (penalty prec emax) = true -> real k = true) /\ (last fl true = false -> nondecreasingf metric).
Proof.
  intros MAX_M soft hard maps rank message received frozen level fl U HB HU R1 R2 R3 HM.
  destruct (C72_every_lane_is_a_path prec emax w W MAX_M _ _ maps rank _ received frozen level fmt HB HU) as (soft' & maps' & word & out & metric & real & E & L1 & L2 & L3 & P1 & P2 & P3).
  assert (G := HB). destruct G as (HW & HU' & _).
  destruct (C86_list MAX_M soft hard maps rank message received frozen level _ HW HU' R1 R2 R3 HM E) as (vs & vh & vm & E' & _ & Eh & Em & _).
  destruct (P3 HM) as (P4 & P5). exists vs, vh, maps', vm, word, out, metric, real. auto 15.
Qed.
(** C86: on every back end a complete list contains every message and lane 0 carries one of least metric *)
Theorem C86_complete_list : forall MAX_M soft hard maps rank message received frozen level,
  let fl := flags frozen (2 ^ level) in let U := unfrozen fl in
  let cost m := path_metric prec emax level fl (expand fl m) (firstn (2 ^ level) received) (S754_zero false) in
  list_buffersf w W MAX_M (lanes_of soft) (lanes_of hard) maps rank (lanes_of message) received frozen level U -> 1 <= U ->
  regs soft -> regs hard -> regs message -> moderate prec emax level (firstn (2 ^ level) received) ->
  (forall m, length m = U -> Forall pm1 m -> SFltb (cost m) (penalty prec emax) = true) -> 2 ^ U <= W -> last fl true = false ->
  exists vsoft vhard maps' rank' vmessage out,
    list_decodeg prec emax w W Q MAX_M soft hard maps rank message received frozen level = Ok (vsoft, vhard, maps', rank', vmessage) /\
    lanes_of vmessage = hard_values prec out ++ skipn U (lanes_of message) /\ length out = U /\
    forall m, length m = U -> Forall pm1 m -> (exists k, k < 2 ^ U /\ lane_of k out = m) /\ SFltb (cost m) (cost (lane_of 0 out)) = false.
Proof.
  intros MAX_M soft hard maps rank message received frozen level fl U cost HB HU R1 R2 R3 HM HC HW2 HL.
  destruct (C72_complete_list prec emax w W MAX_M _ _ maps rank _ received frozen level fmt HB HU HM HC HW2 HL) as (soft' & hard' & maps' & rank' & out & E & L1 & P1).
  assert (G := HB). destruct G as (HW & HU' & _).
  destruct (C86_list MAX_M soft hard maps rank message received frozen level _ HW HU' R1 R2 R3 HM E) as (vs & vh & vm & E' & _ & Eh & Em & _).
  exists vs, vh, maps', rank', vm, out. auto 10.
Qed.
(** C86: the parity aided decoder on every back end: lanes below the penalty obey the parity checks and carry their metric *)
Theorem C86_lanes_obey_parity : forall MAX_M soft hard maps rank message received frozen level stride first,
  let fl := flags frozen (2 ^ level) in let rs := parity_roles stride fl first in let U := payload rs in
  let cost m := path_metric prec emax level fl (symbols rs 1 m) (firstn (2 ^ level) received) (S754_zero false) in
  let below m := SFltb m (penalty prec emax) in
  list_buffersf w W MAX_M (lanes_of soft) (lanes_of hard) maps rank (lanes_of message) received frozen level U -> 1 <= U -> 1 <= first ->
  regs soft -> regs hard -> regs message -> moderate prec emax level (firstn (2 ^ level) received) ->
  exists vsoft vhard maps' vmessage word out metric,
    parity_decodeg prec emax w W Q MAX_M soft hard maps rank message received frozen level stride first =
      Ok (vsoft, vhard, maps', option_map (fun r => ranksf metric ++ skipn W r) rank, vmessage) /\
    lanes_of vhard = hard_values prec word ++ skipn (2 ^ level) (lanes_of hard) /\ lanes_of vmessage = hard_values prec out ++ skipn U (lanes_of message) /\
    length word = 2 ^ level /\ length out = U /\ length metric = W /\
    (forall k, k < W -> let m := lane_of k out in length m = U /\ Forall pm1 m) /\
    (forall k, k < W -> let m := lane_of k out in below (nth k metric (S754_zero false)) = true ->
       lane_of k word = transform level (symbols rs 1 m) /\ nth k metric (S754_zero false) = cost m) /\
    (forall k l, k < W -> l < W -> k <> l -> below (nth k metric (S754_zero false)) = true -> below (nth l metric (S754_zero false)) = true -> lane_of k out <> lane_of l out) /\
    (last fl true = false -> nondecreasingf metric) /\
    ((forall m, length m = U -> Forall pm1 m -> below (cost m) = true) -> forall k, k < W -> below (nth k metric (S754_zero false)) = (k <? 2 ^ U)).
Proof.
  intros MAX_M soft hard maps rank message received frozen level stride first fl rs U cost below HB HU H1 R1 R2 R3 HM.
  destruct (C72_lanes_obey_parity prec emax w W MAX_M _ _ maps rank _ received frozen level stride first fmt HB HU H1) as (soft' & maps' & word & out & metric & E & L1 & L2 & L3 & P1 & P2).
  assert (G := HB). destruct G as (HW & HU' & _).
  destruct (C86_parity MAX_M soft hard maps rank message received frozen level stride first _ HW HU' R1 R2 R3 HM E) as (vs & vh & vm & E' & _ & Eh & Em & _).
  destruct (P2 HM) as (Q1 & Q2 & Q3 & Q4). exists vs, vh, maps', vm, word, out, metric.
  split; [exact E'|]. split; [exact Eh|]. split; [exact Em|]. auto 15.
Qed.
End Format.
Print Assumptions C86_list.
Print Assumptions C86_parity.
Print Assumptions C86_every_lane_is_a_path.
Print Assumptions C86_complete_list.
Print Assumptions C86_lanes_obey_parity.

(** ** The hypotheses are met: the received values of C72_nonvacuous, eight float lanes in an AVX2 register, in two SSE registers and in two NEON
    registers; arrays with arbitrary contents *)
Definition exg_nan : Z -> Z -> Z := fun _ _ => 0x7fc00000%Z.
Definition exg_vec (K : nat) : list Z := repeat 0x80000000ff800001%Z K.
Definition exg_run (N : Z) (K : nat) (Q : list_ops (list Z)) :=
  '(_, _, _, rank, out) <- list_decodeg 24 128 32 8 Q 5 (repeat (exg_vec K) 64) (repeat (exg_vec K) 32) (repeat [] 32) (Some (repeat 9%Z 8)) (repeat (exg_vec K) 3) exl_received Prop_polar_list.ex_frozen 5 ;;
  Ok (rank, map (fun v => map fsgn (flanes 23 8 N v)) out).
Example C86_nonvacuous :
  let fl := flags Prop_polar_list.ex_frozen 32 in
  float_backend 23 8 256 1 (lops_avx2_float exg_nan 0 1) /\ float_backend 23 8 128 2 (lops_x86 23 8 128 exg_nan 0 2) /\ float_backend 23 8 128 2 (lops_neon 23 8 exg_nan 0 2) /\
  Forall (fun v : list Z => length v = 1) (repeat (exg_vec 1) 64) /\
  list_buffersf 32 8 5 (map (flanes 23 8 256) (repeat (exg_vec 1) 64)) (map (flanes 23 8 256) (repeat (exg_vec 1) 32)) (repeat [] 32) (Some (repeat 9%Z 8)) (map (flanes 23 8 256) (repeat (exg_vec 1) 3)) exl_received Prop_polar_list.ex_frozen 5 (unfrozen fl) /\
  moderate 24 128 5 (firstn (2 ^ 5) exl_received) /\
  let result := Ok (Some [0; 1; 2; 3; 4; 5; 6; 7]%Z, [[-1; 1; 1; -1; -1; 1; 1; -1]; [-1; 1; -1; 1; 1; -1; 1; -1]; [1; -1; -1; -1; 1; 1; 1; -1]]%Z) in
  exg_run 256 1 (lops_avx2_float exg_nan 0 1) = result /\ exg_run 128 2 (lops_x86 23 8 128 exg_nan 0 2) = result /\ exg_run 128 2 (lops_neon 23 8 exg_nan 0 2) = result.
Proof.
  cbv zeta. assert (HN : returns_nan 23 8 exg_nan) by (intros x y; split; [vm_compute; split; congruence|reflexivity]).
  split; [exists exg_nan, 0%Z; split; [exact HN|]; right; left; repeat split; solve [reflexivity|lia]|].
  split; [exists exg_nan, 0%Z; split; [exact HN|]; left; reflexivity|].
  split; [exists exg_nan, 0%Z; split; [exact HN|]; right; right; split; reflexivity|].
  split; [apply Forall_forall; intros v Hv; apply repeat_spec in Hv; rewrite Hv; reflexivity|]. split.
  { small_buffersf.
    - replace (unfrozen (flags Prop_polar_list.ex_frozen 32)) with 3 by (vm_compute; reflexivity). rewrite map_length, repeat_length. lia.
    - intros r E. injection E as <-. cbn. lia.
    - constructor; [reflexivity|constructor]. }
  split; [apply (moderate_b _ _ _ 10); vm_compute; reflexivity|]. split; [vm_compute; reflexivity|]. split; vm_compute; reflexivity.
Qed.
(** the parity aided decoder on two NEON registers of doubles: the message of a received codeword *)
Example C86_parity_nonvacuous :
  let nan := fun _ _ : Z => 0x7ff8000000000000%Z in
  let received cw := map (fun p => SFmul 53 1024 (binary_normalize 53 1024 (1 + Z.of_nat (fst p mod 7)) (Z.of_nat (fst p) - 40) false) (snd p)) (combine (seq 0 32) cw) in
  let run Q := cw <- parity_encode (opsf 53 1024) (repeat S754_nan 32) (map (hard_value 53) [-1; 1; -1]%Z) ex_frozen2 5 1 2 ;;
   '(_, _, _, rank, out) <- parity_decodeg 53 1024 64 4 Q 5 (repeat [7; 8]%Z 64) (repeat [9; 10]%Z 32) (repeat [] 32) (Some [9; 9; 9; 9]%Z) (repeat [11; 12]%Z 3) (received cw) ex_frozen2 5 1 2 ;;
   Ok (rank, map (fun v => fsgn (nth 0 (flanes 52 11 128 v) S754_nan)) out) in
  returns_nan 52 11 nan /\ run (lops_neon 52 11 nan 0 2) = Ok (Some [0; 1; 2; 3]%Z, [-1; 1; -1]%Z) /\ run (lops_x86 52 11 128 nan 0 2) = Ok (Some [0; 1; 2; 3]%Z, [-1; 1; -1]%Z).
Proof. cbv zeta. split; [intros x y; split; [vm_compute; split; congruence|reflexivity]|]. split; vm_compute; reflexivity. Qed.
