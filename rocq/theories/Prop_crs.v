(** Properties C24 and C25: cauchy_reed_solomon_erasure_coding.hh. *)
From Coq Require Import ZifyBool ZifyNat ZifyN.
From Verif Require Import Cpp Lib_list Model_gf Model_perm Model_crs Spec_gf Lib_gf2lin Lib_gf2poly Lib_gf Lib_field Lib_poly Proof_gf Proof_gffield Proof_crs1 Proof_crs2.
Local Open Scope N_scope.

Definition symbols (M : N) (l : list N) : Prop := Forall (fun x => x < 2 ^ M) l.
(** block [i] of a buffer of blocks of [len] symbols *)
Definition block_of (l : list N) (len i : nat) : list N := firstn len (skipn (len * i) l).

(** C24: any [cnt] different identifiers from [cnt .. 2^M-1], in any order; any data; any previous content of the
    buffers and of the object; any instruction set and any alignments on either side. *)
Theorem C24_any_blocks_recover : forall w M POLY G Be Bd ale ald ids cnt len data blocks0 data0 st,
  1 <= M -> M <= w -> has_degree POLY M -> gf_create w M POLY = Ok G ->
  length ids = cnt -> NoDup ids -> (forall id, In id ids -> N.of_nat cnt <= id <= 2 ^ M - 1) ->
  symbols M data -> symbols M blocks0 -> symbols M data0 ->
  length data = (len * cnt)%nat -> length blocks0 = (len * cnt)%nat -> length data0 = (len * cnt)%nat ->
  exists blocks, crs_encode_all G Be ale data blocks0 ids len cnt = Ok blocks /\ length blocks = (len * cnt)%nat /\ symbols M blocks /\
    crs_decode_all G Bd ald data0 blocks ids len cnt st = Ok data.
Proof.
  intros w M POLY G Be Bd ale ald ids cnt len data blocks0 data0 st HM Hw HP HC LI ND RI Hd Hb Hd0 Ld Lb Ld0.
  destruct (create_ok w M POLY G HM Hw HP HC) as (OK & _ & EM & EP). subst M POLY.
  assert (QP : 0 < 2 ^ gf_M G) by (apply N.neq_0_lt_0, N.pow_nonzero; discriminate).
  assert (RI' : forall id, In id ids -> N.of_nat cnt <= id /\ id < 2 ^ gf_M G) by (intros id Hi; specialize (RI id Hi); lia).
  destruct (encode_all_ok G OK ids cnt LI RI' Be ale data blocks0 len Hd Hb ltac:(lia) Lb) as (blocks & E & L & S' & R).
  exists blocks. split; [exact E|]. split; [exact L|]. split; [exact S'|].
  apply (decode_all_ok G OK ids cnt LI ND RI' Bd ald data0 data blocks len st); assumption.
Qed.
Print Assumptions C24_any_blocks_recover.

(** every single call of decode restores its block, whatever was decoded before *)
Theorem C24_each_block_recovers : forall w M POLY G Be Bd ale ald ids cnt len data blocks0 buf doff i st,
  1 <= M -> M <= w -> has_degree POLY M -> gf_create w M POLY = Ok G ->
  length ids = cnt -> NoDup ids -> (forall id, In id ids -> N.of_nat cnt <= id <= 2 ^ M - 1) ->
  symbols M data -> symbols M blocks0 -> symbols M buf ->
  length data = (len * cnt)%nat -> length blocks0 = (len * cnt)%nat -> (doff + len <= length buf)%nat -> (i < cnt)%nat ->
  exists blocks buf' st', crs_encode_all G Be ale data blocks0 ids len cnt = Ok blocks /\
    crs_decode G Bd ald buf doff blocks ids i len cnt st = Ok (buf', st') /\
    buf' = firstn doff buf ++ block_of data len i ++ skipn (doff + len) buf.
Proof.
  intros w M POLY G Be Bd ale ald ids cnt len data blocks0 buf doff i st HM Hw HP HC LI ND RI Hd Hb Hbuf Ld Lb Lbuf Hi.
  destruct (create_ok w M POLY G HM Hw HP HC) as (OK & _ & EM & EP). subst M POLY.
  assert (QP : 0 < 2 ^ gf_M G) by (apply N.neq_0_lt_0, N.pow_nonzero; discriminate).
  assert (RI' : forall id, In id ids -> N.of_nat cnt <= id /\ id < 2 ^ gf_M G) by (intros id H; specialize (RI id H); lia).
  destruct (encode_all_ok G OK ids cnt LI RI' Be ale data blocks0 len Hd Hb ltac:(lia) Lb) as (blocks & E & L & S' & R).
  destruct (decode_ok G OK ids cnt LI ND RI' Bd ald buf doff blocks i len st Hi Hbuf S' ltac:(lia) Lbuf) as (o & st' & Eo & Lo).
  exists blocks, o, st'. split; [exact E|]. split; [exact Eo|].
  pose proof (decode_symbol G OK ids cnt LI ND RI' buf data blocks doff len i o Hi Hd R Lo) as HS. destruct Lo as (L1 & L2 & L3 & L4).
  assert (LB : length (block_of data len i) = len).
  { unfold block_of. rewrite firstn_length, skipn_length. nia. }
  apply (list_ext _ _ 0).
  - rewrite L1, !app_length, LB, firstn_length, skipn_length. lia.
  - intros p Hp. destruct (Nat.lt_ge_cases p doff) as [H1|H1].
    + rewrite app_nth1 by (rewrite firstn_length; lia). rewrite nth_firstn'. destruct (Nat.ltb_spec p doff); [|lia]. apply L3. lia.
    + rewrite app_nth2 by (rewrite firstn_length; lia). rewrite firstn_length, Nat.min_l by lia. destruct (Nat.lt_ge_cases p (doff + len)) as [H2|H2].
      * rewrite app_nth1 by lia. unfold block_of. rewrite nth_slice. destruct (Nat.ltb_spec (p - doff) len); [|lia].
        rewrite <- HS by lia. f_equal. lia.
      * rewrite app_nth2 by lia. rewrite LB, nth_skipn'. rewrite L3 by lia. f_equal. lia.
Qed.
Print Assumptions C24_each_block_recovers.

(** an inadmissible identifier is refused before anything is written *)
Theorem C24_bad_identifier_aborts : forall G B al data block boff id len cnt,
  (id < cnt)%nat \/ 2 ^ gf_M G - 1 < N.of_nat id -> crs_encode G B al data block boff id len cnt = Abort.
Proof.
  intros G B al data block boff id len cnt H. unfold crs_encode, gf_N, gf_Q.
  destruct (Nat.leb_spec cnt id) as [H1|H1], (N.leb_spec (N.of_nat id) (2 ^ gf_M G - 1)) as [H2|H2]; try reflexivity. lia.
Qed.
Print Assumptions C24_bad_identifier_aborts.

(** C25: the vector code equals the scalar loop, element for element, for every instruction set *)
Theorem C25_simd8_equals_scalar : forall w POLY G B c coff a aoff b n init,
  8 <= w -> has_degree POLY 8 -> gf_create w 8 POLY = Ok G ->
  symbols 8 a -> symbols 8 c -> b < 255 ->
  (coff + n * vwidth B <= length c)%nat -> (aoff + n * vwidth B <= length a)%nat ->
  exists o, mac_simd8 G B c coff a aoff b (n * vwidth B) init = Ok o /\ mac_scalar G c coff a aoff b (n * vwidth B) init = Ok o.
Proof.
  intros w POLY G B c coff a aoff b n init Hw HP HC Ha Hc Hb Lc La.
  destruct (create_ok w 8 POLY G ltac:(lia) Hw HP HC) as (OK & _ & EM & EP).
  assert (Hb' : b < 2 ^ gf_M G - 1) by (rewrite EM; exact Hb).
  assert (Ha' : small G a) by (unfold small; rewrite EM; exact Ha). assert (Hc' : small G c) by (unfold small; rewrite EM; exact Hc).
  destruct (mac_simd8_ok G OK B c coff a aoff b n init EM Ha' Hc' Hb' Lc La) as (o & E & R).
  destruct (mac_scalar_ok G OK c coff a aoff b (n * vwidth B) init Ha' Hc' Hb' Lc La) as (o' & E' & R').
  exists o. rewrite (mac_rel_unique _ _ _ _ _ _ _ _ R R') in *. auto.
Qed.
Print Assumptions C25_simd8_equals_scalar.

Theorem C25_simd16_equals_scalar : forall w POLY G B c coff a aoff b n init,
  16 <= w -> has_degree POLY 16 -> gf_create w 16 POLY = Ok G ->
  symbols 16 a -> symbols 16 c -> b < 65535 ->
  (coff + n * vwidth B <= length c)%nat -> (aoff + n * vwidth B <= length a)%nat ->
  exists o, mac_simd16 G B c coff a aoff b (n * vwidth B) init = Ok o /\ mac_scalar G c coff a aoff b (n * vwidth B) init = Ok o.
Proof.
  intros w POLY G B c coff a aoff b n init Hw HP HC Ha Hc Hb Lc La.
  destruct (create_ok w 16 POLY G ltac:(lia) Hw HP HC) as (OK & _ & EM & EP).
  assert (Hb' : b < 2 ^ gf_M G - 1) by (rewrite EM; exact Hb).
  assert (Ha' : small G a) by (unfold small; rewrite EM; exact Ha). assert (Hc' : small G c) by (unfold small; rewrite EM; exact Hc).
  destruct (mac_simd16_ok G OK B c coff a aoff b n init EM Ha' Hc' Hb' Lc La) as (o & E & R).
  destruct (mac_scalar_ok G OK c coff a aoff b (n * vwidth B) init Ha' Hc' Hb' Lc La) as (o' & E' & R').
  exists o. rewrite (mac_rel_unique _ _ _ _ _ _ _ _ R R') in *. auto.
Qed.
Print Assumptions C25_simd16_equals_scalar.

(** so the choice multiply_accumulate makes is not observable, and its result is c := [c +] value(b) * a *)
Theorem C25_dispatch_unobservable : forall w M POLY G B al c coff a aoff b len init,
  1 <= M -> M <= w -> has_degree POLY M -> gf_create w M POLY = Ok G ->
  symbols M a -> symbols M c -> b < 2 ^ M - 1 ->
  (coff + len <= length c)%nat -> (aoff + len <= length a)%nat ->
  exists o, mac G B al c coff a aoff b len init = Ok o /\ mac_scalar G c coff a aoff b len init = Ok o /\
    length o = length c /\
    forall p, (p < length c)%nat ->
      if ((coff <=? p) && (p <? coff + len))%nat
      then exists v x, gf_value G b = Ok v /\ is_product_mod M POLY v (nth (aoff + (p - coff)) a 0) x /\
             nth p o 0 = if init then x else N.lxor x (nth p c 0)
      else nth p o 0 = nth p c 0.
Proof.
  intros w M POLY G B al c coff a aoff b len init HM Hw HP HC Ha Hc Hb Lc La.
  destruct (create_ok w M POLY G HM Hw HP HC) as (OK & _ & EM & EP). subst M POLY.
  destruct (mac_ok G OK B al c coff a aoff b len init Ha Hc Hb Lc La) as (o & E & R).
  destruct (mac_scalar_ok G OK c coff a aoff b len init Ha Hc Hb Lc La) as (o' & E' & R').
  rewrite <- (mac_rel_unique _ _ _ _ _ _ _ _ R R') in E'.
  exists o. split; [exact E|]. split; [exact E'|]. destruct R as (R1 & R2). split; [exact R1|]. intros p Hp. rewrite R2.
  destruct (_ && _)%bool; [|reflexivity]. eexists _, _. split; [apply value_ok; assumption|]. split.
  - apply gmul_product_mod; try assumption. apply small_nth; assumption.
  - unfold mach. destruct init; reflexivity.
Qed.
Print Assumptions C25_dispatch_unobservable.

(** GF(16): three blocks of two symbols under the identifiers 9, 3, 14 *)
Example C24_nonvacuous :
  has_degree 19 4 /\
  (exists G, gf_create 8 4 19 = Ok G /\
     crs_encode_all G None (fun _ _ => false) [1; 2; 3; 4; 5; 15] [0; 0; 0; 0; 0; 0] [9; 3; 14] 2 3 = Ok [2; 11; 3; 2; 12; 12] /\
     crs_decode_all G None (fun _ _ => false) [7; 7; 7; 7; 7; 7] [2; 11; 3; 2; 12; 12] [9; 3; 14] 2 3 (None, None) = Ok [1; 2; 3; 4; 5; 15]) /\
  NoDup [9; 3; 14] /\ (forall id, In id [9; 3; 14] -> 3 <= id <= 15).
Proof.
  split; [split; vm_compute; congruence|].
  split; [eexists; split; [vm_compute; reflexivity|split; vm_compute; reflexivity]|].
  split; [repeat constructor; cbn; intuition discriminate|]. intros id Hi. cbn in Hi. intuition subst; lia.
Qed.

(** the fields of the regression test are accepted: the 8 bit one by computation, the 16 bit one by the order of 2 *)
Example C25_nonvacuous_8 : has_degree 285 8 /\ exists G, gf_create 8 8 285 = Ok G /\ exists o,
  mac_simd8 G SSE (map N.of_nat (seq 0 16)) 0 (map N.of_nat (seq 240 16)) 0 77 16 false = Ok o /\
  mac_scalar G (map N.of_nat (seq 0 16)) 0 (map N.of_nat (seq 240 16)) 0 77 16 false = Ok o.
Proof. split; [split; vm_compute; congruence|]. eexists. split; [vm_compute; reflexivity|]. eexists. split; vm_compute; reflexivity. Qed.
Example C25_nonvacuous_16 : has_degree 69643 16 /\ exists G, gf_create 16 16 69643 = Ok G.
Proof.
  assert (HD : has_degree 69643 16) by (split; vm_compute; congruence). split; [exact HD|].
  destruct (ctor_complete 16 16 69643) as (log & exp & E); try exact HD; try lia.
  - split; [vm_compute; reflexivity|]. intros k Hk. unfold gpow. apply (Lib_orbit.exact_period _ 1 [3; 5; 17; 257]); [| | |exact Hk].
    + repeat (apply Forall_cons; [apply Lib_orbit.is_prime_ok; vm_compute; reflexivity|]); apply Forall_nil.
    + vm_compute. reflexivity.
    + intros q Hq. cbn [In] in Hq. destruct Hq as [<-|[<-|[<-|[<-|[]]]]]; vm_compute; discriminate.
  - eexists. unfold gf_create. rewrite E. reflexivity.
Qed.
