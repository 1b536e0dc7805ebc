(** Property C74: encode and decode of cauchy_reed_solomon_erasure_coding.hh on untyped memory. *)
From Coq Require Import ZifyBool ZifyNat ZifyN.
From Verif Require Import Cpp Lib_list Model_gf Model_perm Model_crs Model_crs_bytes Spec_gf Lib_gf2lin Lib_gf2poly Lib_gf Lib_field Lib_poly Proof_gf Proof_gffield Proof_crs1 Proof_crs2 Proof_crs_bytes Prop_crs.
Ltac Zify.zify_post_hook ::= idtac.
Local Open Scope N_scope.

(** every value_type in memory is an element of the field: no condition at all when the field fills the type *)
Definition symbols_in (e : order) (S : nat) (M : N) (mem : list N) : Prop :=
  forall i, (S * i + S <= length mem)%nat -> obj_value e (firstn S (skipn (S * i) mem)) < 2 ^ M.

Lemma symbols_objects e S M mem : (0 < S)%nat -> symbols_in e S M mem -> symbols M (objects e S mem).
Proof.
  intros HS H. unfold objects. apply Forall_forall. intros v Hv. apply in_map_iff in Hv. destruct Hv as (i & <- & Hi). apply in_seq in Hi. apply H.
  pose proof (Nat.mul_div_le (length mem) S ltac:(lia)). nia.
Qed.
Lemma all_symbols e S mem : bytes mem -> symbols_in e S (8 * N.of_nat S) mem.
Proof.
  intros HB i Hi. assert (L : length (firstn S (skipn (S * i) mem)) = S) by (rewrite firstn_length, skipn_length; lia).
  replace (2 ^ (8 * N.of_nat S)) with (256 ^ N.of_nat (length (firstn S (skipn (S * i) mem)))) by (rewrite L, N.pow_mul_r; reflexivity).
  apply obj_value_lt. apply Forall_forall. intros x Hx. unfold bytes in HB. rewrite Forall_forall in HB. apply HB.
  rewrite <- (firstn_skipn (S * i) mem), <- (firstn_skipn S (skipn (S * i) mem)). apply in_or_app. right. apply in_or_app. left. exact Hx.
Qed.
Lemma small_obj G S l : gf_w G = 8 * N.of_nat S -> gf_M G <= gf_w G -> small G l -> Forall (fun v => v < 256 ^ N.of_nat S) l.
Proof.
  intros EW HM H. eapply Forall_impl; [|exact H]. intros v Hv. cbv beta in *. eapply N.lt_le_trans; [exact Hv|].
  change 256 with (2 ^ 8). rewrite <- N.pow_mul_r, <- EW. apply N.pow_le_mono_r; [discriminate|exact HM].
Qed.
Lemma gf_bytes_eq G S : gf_w G = 8 * N.of_nat S -> gf_bytes G = S.
Proof. intros E. unfold gf_bytes. rewrite E, (N.mul_comm 8), N.div_mul by discriminate. apply Nat2N.id. Qed.
Lemma create_w w M POLY G : gf_create w M POLY = Ok G -> gf_w G = w.
Proof. unfold gf_create. destruct (tables_ctor w M POLY None) as [t| | |]; intros H; try discriminate H. cbn [bind] in H. injection H as <-. reflexivity. Qed.

Lemma off_bytes S (Spos : (0 < S)%nat) len i : ((S * len) * i mod S = 0 /\ (S * len) * i / S = len * i)%nat.
Proof.
  replace (S * len * i)%nat with (len * i * S)%nat by lia. split; [apply Nat.mod_mul; lia|apply Nat.div_mul; lia].
Qed.
Lemma len_bytes S (Spos : (0 < S)%nat) len : ((S * len) mod S = 0 /\ (S * len) / S = len)%nat.
Proof. rewrite Nat.mul_comm. split; [apply Nat.mod_mul; lia|apply Nat.div_mul; lia]. Qed.

Section B.
Variables (e : order) (G : gf) (S : nat).
Hypothesis OK : gf_ok G.
Hypothesis EW : gf_w G = 8 * N.of_nat S.
Hypothesis HM : gf_M G <= gf_w G.
Hypothesis Spos : (0 < S)%nat.
Variables (ids : list N) (cnt : nat).
Hypothesis LI : length ids = cnt.
Hypothesis ND : NoDup ids.
Hypothesis RI : forall id, In id ids -> N.of_nat cnt <= id /\ id < 2 ^ gf_M G.

Lemma encode_all_bytes B al data mem0 len vals' :
  bytes mem0 -> small G (objects e S data) -> small G (objects e S mem0) -> length data = (S * len * cnt)%nat -> length mem0 = (S * len * cnt)%nat ->
  crs_encode_all G B al (objects e S data) (objects e S mem0) ids len cnt = Ok vals' ->
  crs_encode_all_bytes e G B al data mem0 ids (S * len) cnt = Ok (memory e S vals' mem0) /\ small G vals' /\ length vals' = (len * cnt)%nat.
Proof.
  intros HB Hd Hm Ld Lm HE. unfold crs_encode_all in HE. unfold crs_encode_all_bytes.
  assert (LS : forall mem : list N, length mem = (S * len * cnt)%nat -> (length mem / S = len * cnt)%nat).
  { intros mem ->. apply (off_bytes S Spos len cnt). }
  match type of HE with for_up _ _ ?f _ = _ => destruct (for_up_follow (fun mem vals => mem = memory e S vals mem0 /\ small G vals /\ length vals = (len * cnt)%nat) f
    (fun i blocks => id <- rd ids i ;; crs_encode_bytes e G B (al i) data blocks (S * len * i) (N.to_nat id) (S * len) cnt) 0 cnt (objects e S mem0) mem0 vals') as (t' & E & -> & R); [| |exact HE|split; [exact E|exact R]] end.
  - intros i s t s' Hi (-> & Hs & Ls) HF. cbv beta in *. rewrite (rd_id G OK ids cnt LI i) in HF |- * by lia. cbn [bind] in HF |- *.
    destruct (encode_ok G OK ids cnt LI RI B (al i) (objects e S data) s (len * i) i len ltac:(lia) Hd Hs) as (o & Eo & (R1 & R2 & _ & _)).
    { rewrite objects_length, LS by assumption. lia. }
    { rewrite Ls. nia. }
    rewrite Eo in HF. injection HF as <-. exists (memory e S o mem0). split; [|split; [reflexivity|split; [exact R2|congruence]]].
    unfold crs_encode_bytes. rewrite (gf_bytes_eq G S EW). destruct (len_bytes S Spos len) as (-> & ->), (off_bytes S Spos len i) as (-> & ->). cbn [Nat.eqb assert_ require bind].
    rewrite (objects_memory e S Spos); [|rewrite LS by exact Lm; exact Ls|apply (small_obj G S s EW HM Hs)].
    rewrite Eo. cbn [bind]. f_equal. apply (memory_memory e S Spos); [congruence|]. rewrite Ls, Lm. lia.
  - split; [symmetry; apply (memory_objects e S Spos); exact HB|]. split; [exact Hm|]. rewrite objects_length. apply LS, Lm.
Qed.

Lemma decode_all_bytes B al buf0 mem len st vals' :
  bytes buf0 -> small G (objects e S buf0) -> small G (objects e S mem) -> length buf0 = (S * len * cnt)%nat -> length mem = (S * len * cnt)%nat ->
  crs_decode_all G B al (objects e S buf0) (objects e S mem) ids len cnt st = Ok vals' ->
  crs_decode_all_bytes e G B al buf0 mem ids (S * len) cnt st = Ok (memory e S vals' buf0).
Proof.
  intros HB Hd Hm Ld Lm HE. unfold crs_decode_all in HE. unfold crs_decode_all_bytes.
  assert (LS : forall mem : list N, length mem = (S * len * cnt)%nat -> (length mem / S = len * cnt)%nat).
  { intros m ->. apply (off_bytes S Spos len cnt). }
  match type of HE with bind ?l _ = _ => destruct l as [(v & st1)| | |] eqn:EL; try discriminate HE end. cbn [bind] in HE. injection HE as ->.
  match type of EL with for_up _ _ ?f _ = _ => destruct (for_up_follow (fun '((m, st) : list N * crs_state) '((vals, st') : list N * crs_state) => st = st' /\ m = memory e S vals buf0 /\ small G vals /\ length vals = (len * cnt)%nat) f
    (fun i '(data, st) => crs_decode_bytes e G B (al i) data (S * len * i) mem ids i (S * len) cnt st) 0 cnt (objects e S buf0, st) (buf0, st) (vals', st1)) as ((m1 & st2) & E & -> & -> & R); [| |exact EL|] end.
  - intros i (s & st0) (t & st0') (s' & st') Hi (-> & -> & Hs & Ls) HF. cbv beta iota in *.
    destruct (decode_ok G OK ids cnt LI ND RI B (al i) s (len * i) (objects e S mem) i len st0 ltac:(lia) Hs Hm) as (o & st3 & Eo & (R1 & R2 & _ & _)).
    { rewrite objects_length, LS by assumption. lia. }
    { rewrite Ls. nia. }
    rewrite Eo in HF. injection HF as <- <-. exists (memory e S o buf0, st3). split; [|split; [reflexivity|split; [reflexivity|split; [exact R2|congruence]]]].
    unfold crs_decode_bytes. rewrite (gf_bytes_eq G S EW). destruct (len_bytes S Spos len) as (-> & ->), (off_bytes S Spos len i) as (-> & ->). cbn [Nat.eqb assert_ require bind].
    rewrite (objects_memory e S Spos); [|rewrite LS by exact Ld; exact Ls|apply (small_obj G S s EW HM Hs)].
    rewrite Eo. cbn [bind]. f_equal. f_equal. apply (memory_memory e S Spos); [congruence|]. rewrite Ls, Ld. lia.
  - split; [reflexivity|]. split; [symmetry; apply (memory_objects e S Spos); exact HB|]. split; [exact Hd|]. rewrite objects_length. apply LS, Ld.
  - rewrite E. reflexivity.
Qed.
End B.

(** any [cnt] different identifiers, any data, any contents of the buffers before: the same bytes come back *)
Theorem C74_any_blocks_recover_bytes : forall e w M POLY G S Be Bd ale ald ids cnt block_bytes data blocks0 data0 st,
  1 <= M -> M <= w -> has_degree POLY M -> gf_create w M POLY = Ok G ->
  w = 8 * N.of_nat S -> (block_bytes mod S = 0)%nat ->
  length ids = cnt -> NoDup ids -> (forall id, In id ids -> N.of_nat cnt <= id <= 2 ^ M - 1) ->
  bytes data -> bytes blocks0 -> bytes data0 ->
  symbols_in e S M data -> symbols_in e S M blocks0 -> symbols_in e S M data0 ->
  length data = (block_bytes * cnt)%nat -> length blocks0 = (block_bytes * cnt)%nat -> length data0 = (block_bytes * cnt)%nat ->
  exists blocks, crs_encode_all_bytes e G Be ale data blocks0 ids block_bytes cnt = Ok blocks /\ bytes blocks /\ length blocks = (block_bytes * cnt)%nat /\
    crs_decode_all_bytes e G Bd ald data0 blocks ids block_bytes cnt st = Ok data.
Proof.
  intros e w M POLY G S Be Bd ale ald ids cnt bb data blocks0 data0 st H1 Hw HP HC EW HB LI ND RI Hd Hb Hd0 Sd Sb Sd0 Ld Lb Ld0.
  assert (Spos : (0 < S)%nat) by lia.
  assert (exists len, bb = (S * len)%nat) as (len & ->). { exists (bb / S)%nat. apply Nat.div_exact in HB; [exact HB|lia]. }
  pose proof (create_w _ _ _ _ HC) as EGW.
  destruct (create_ok w M POLY G H1 Hw HP HC) as (OK & _ & EM & EP).
  assert (QP : 0 < 2 ^ M) by (apply N.neq_0_lt_0, N.pow_nonzero; discriminate).
  assert (RI' : forall id, In id ids -> N.of_nat cnt <= id /\ id < 2 ^ gf_M G) by (intros id Hi; specialize (RI id Hi); rewrite EM; lia).
  assert (LS : forall mem : list N, length mem = (S * len * cnt)%nat -> length (objects e S mem) = (len * cnt)%nat).
  { intros mem HL. rewrite objects_length, HL. apply (off_bytes S Spos). }
  assert (SM : forall mem, symbols_in e S M mem -> small G (objects e S mem)).
  { intros mem HS. unfold small. rewrite EM. apply symbols_objects; assumption. }
  destruct (C24_any_blocks_recover w M POLY G Be Bd ale ald ids cnt len (objects e S data) (objects e S blocks0) (objects e S data0) st) as (vb & E1 & L1 & S1 & E2); try assumption; try (apply symbols_objects; assumption); try (apply LS; assumption).
  assert (EW' : gf_w G = 8 * N.of_nat S) by congruence. assert (HM : gf_M G <= gf_w G) by lia.
  destruct (encode_all_bytes e G S OK EW' HM Spos ids cnt LI RI' Be ale data blocks0 len vb Hb (SM _ Sd) (SM _ Sb) Ld Lb E1) as (E3 & S3 & L3).
  assert (OB : objects e S (memory e S vb blocks0) = vb).
  { apply (objects_memory e S Spos); [|apply (small_obj G S vb EW' HM S3)]. rewrite <- (objects_length e). rewrite LS by exact Lb. exact L1. }
  assert (LM : length (memory e S vb blocks0) = (S * len * cnt)%nat) by (rewrite (memory_length e S Spos); [exact Lb|rewrite Lb, L3; lia]).
  exists (memory e S vb blocks0). split; [exact E3|]. split; [apply memory_bytes; exact Hb|]. split; [exact LM|].
  rewrite (decode_all_bytes e G S OK EW' HM Spos ids cnt LI ND RI' Bd ald data0 (memory e S vb blocks0) len st (objects e S data)); try assumption.
  - f_equal. transitivity (memory e S (objects e S data) data); [|apply (memory_objects e S Spos); assumption].
    unfold memory. f_equal. rewrite !skipn_all2; [reflexivity| |]; rewrite objects_length; [rewrite Ld|rewrite Ld, Ld0]; destruct (off_bytes S Spos len cnt) as (_ & ->); lia.
  - apply SM, Sd0.
  - rewrite OB. exact S3.
  - rewrite OB. exact E2.
Qed.
Print Assumptions C74_any_blocks_recover_bytes.

(** fields of 8 bits in uint8_t and of 16 bits in uint16_t take any bytes whatsoever *)
Theorem C74_any_bytes_recover : forall e POLY G S Be Bd ale ald ids cnt block_bytes data blocks0 data0 st,
  (0 < S)%nat -> has_degree POLY (8 * N.of_nat S) -> gf_create (8 * N.of_nat S) (8 * N.of_nat S) POLY = Ok G ->
  (block_bytes mod S = 0)%nat ->
  length ids = cnt -> NoDup ids -> (forall id, In id ids -> N.of_nat cnt <= id <= 2 ^ (8 * N.of_nat S) - 1) ->
  bytes data -> bytes blocks0 -> bytes data0 ->
  length data = (block_bytes * cnt)%nat -> length blocks0 = (block_bytes * cnt)%nat -> length data0 = (block_bytes * cnt)%nat ->
  exists blocks, crs_encode_all_bytes e G Be ale data blocks0 ids block_bytes cnt = Ok blocks /\ bytes blocks /\ length blocks = (block_bytes * cnt)%nat /\
    crs_decode_all_bytes e G Bd ald data0 blocks ids block_bytes cnt st = Ok data.
Proof.
  intros e POLY G S Be Bd ale ald ids cnt bb data blocks0 data0 st HS HP HC HB LI ND RI Hd Hb Hd0 Ld Lb Ld0.
  apply (C74_any_blocks_recover_bytes e (8 * N.of_nat S) (8 * N.of_nat S) POLY G S); try assumption; try lia; apply all_symbols; assumption.
Qed.
Print Assumptions C74_any_bytes_recover.

(** decoding one block writes the bytes of that block and no others *)
Theorem C74_each_block_recovers_bytes : forall e POLY G S Be Bd ale ald ids cnt block_bytes data blocks0 buf doff i st,
  (0 < S)%nat -> has_degree POLY (8 * N.of_nat S) -> gf_create (8 * N.of_nat S) (8 * N.of_nat S) POLY = Ok G ->
  (block_bytes mod S = 0)%nat -> (doff mod S = 0)%nat ->
  length ids = cnt -> NoDup ids -> (forall id, In id ids -> N.of_nat cnt <= id <= 2 ^ (8 * N.of_nat S) - 1) ->
  bytes data -> bytes blocks0 -> bytes buf ->
  length data = (block_bytes * cnt)%nat -> length blocks0 = (block_bytes * cnt)%nat -> (doff + block_bytes <= length buf)%nat -> (i < cnt)%nat ->
  exists blocks st', crs_encode_all_bytes e G Be ale data blocks0 ids block_bytes cnt = Ok blocks /\
    crs_decode_bytes e G Bd ald buf doff blocks ids i block_bytes cnt st =
      Ok (firstn doff buf ++ firstn block_bytes (skipn (block_bytes * i) data) ++ skipn (doff + block_bytes) buf, st').
Proof.
  intros e POLY G S Be Bd ale ald ids cnt bb data blocks0 buf doff i st Spos HP HC HB HD LI ND RI Hd Hb Hbuf Ld Lb Lbuf Hi.
  assert (exists len, bb = (S * len)%nat) as (len & ->). { exists (bb / S)%nat. apply Nat.div_exact in HB; [exact HB|lia]. }
  assert (exists d, doff = (S * d)%nat) as (d & ->). { exists (doff / S)%nat. apply Nat.div_exact in HD; [exact HD|lia]. }
  set (M := 8 * N.of_nat S) in *.
  pose proof (create_w _ _ _ _ HC) as EW'.
  destruct (create_ok M M POLY G ltac:(lia) ltac:(lia) HP HC) as (OK & _ & EM & EP).
  assert (QP : 0 < 2 ^ M) by (apply N.neq_0_lt_0, N.pow_nonzero; discriminate).
  assert (RI' : forall id, In id ids -> N.of_nat cnt <= id /\ id < 2 ^ gf_M G) by (intros id H; specialize (RI id H); rewrite EM; lia).
  assert (LS : forall mem : list N, length mem = (S * len * cnt)%nat -> length (objects e S mem) = (len * cnt)%nat).
  { intros mem HL. rewrite objects_length, HL. apply (off_bytes S Spos). }
  assert (SY : forall mem, bytes mem -> symbols M (objects e S mem)).
  { intros mem HS. apply symbols_objects; [exact Spos|apply all_symbols; exact HS]. }
  assert (SM : forall mem, bytes mem -> small G (objects e S mem)).
  { intros mem HS. unfold small. rewrite EM. apply SY. exact HS. }
  assert (LV : (d + len <= length (objects e S buf))%nat).
  { rewrite objects_length. apply Nat.div_le_lower_bound; [lia|]. lia. }
  destruct (C24_each_block_recovers M M POLY G Be Bd ale ald ids cnt len (objects e S data) (objects e S blocks0) (objects e S buf) d i st) as (vb & o & st' & E1 & E2 & ->); try assumption; try lia; try (apply SY; assumption); try (apply LS; assumption).
  assert (HM : gf_M G <= gf_w G) by lia.
  destruct (encode_all_bytes e G S OK EW' HM Spos ids cnt LI RI' Be ale data blocks0 len vb Hb (SM _ Hd) (SM _ Hb) Ld Lb E1) as (E3 & S3 & L3).
  assert (OB : objects e S (memory e S vb blocks0) = vb).
  { apply (objects_memory e S Spos); [|apply (small_obj G S vb EW' HM S3)]. rewrite <- (objects_length e). rewrite LS by exact Lb. exact L3. }
  exists (memory e S vb blocks0), st'. split; [exact E3|].
  unfold crs_decode_bytes. rewrite (gf_bytes_eq G S EW'), OB. destruct (len_bytes S Spos len) as (-> & ->), (len_bytes S Spos d) as (-> & ->). cbn [Nat.eqb assert_ require bind].
  rewrite E2. cbn [bind]. f_equal. f_equal.
  apply memory_block; try assumption. rewrite Ld. nia.
Qed.
Print Assumptions C74_each_block_recovers_bytes.

(** a length that is no multiple of the size of value_type is refused *)
Theorem C74_odd_length_aborts : forall e G B al data block boff id block_bytes cnt,
  (block_bytes mod gf_bytes G <> 0)%nat -> crs_encode_bytes e G B al data block boff id block_bytes cnt = Abort /\
  forall blocks ids i st, crs_decode_bytes e G B al data boff blocks ids i block_bytes cnt st = Abort.
Proof.
  intros e G B al data block boff id bb cnt H. apply Nat.eqb_neq in H. unfold crs_encode_bytes, crs_decode_bytes. rewrite H. split; reflexivity.
Qed.
Print Assumptions C74_odd_length_aborts.

(** two blocks of three bytes over GF(256); and GF(16) in uint16_t on a machine of either byte order *)
Example C74_nonvacuous : has_degree 285 8 /\
  (G <- gf_create 8 8 285 ;;
   blocks <- crs_encode_all_bytes Little G (Some SSE) (fun _ _ => true) [1; 255; 0; 128; 7; 64] [9; 9; 9; 9; 9; 9] [200; 2] 3 2 ;;
   data <- crs_decode_all_bytes Little G None (fun _ _ => false) [7; 7; 7; 7; 7; 7] blocks [200; 2] 3 2 (None, None) ;;
   Ok (gf_bytes G, blocks, data)) = Ok (1%nat, [196; 4; 11; 5; 7; 203], [1; 255; 0; 128; 7; 64]) /\
  (G <- gf_create 16 4 19 ;;
   little <- crs_encode_all_bytes Little G None (fun _ _ => false) [1; 0; 15; 0; 6; 0; 9; 0] [0; 0; 0; 0; 0; 0; 0; 0] [11; 2] 4 2 ;;
   big <- crs_encode_all_bytes Big G None (fun _ _ => false) [0; 1; 0; 15; 0; 6; 0; 9] [0; 0; 0; 0; 0; 0; 0; 0] [11; 2] 4 2 ;;
   data <- crs_decode_all_bytes Big G None (fun _ _ => false) [0; 0; 0; 0; 0; 0; 0; 0] big [11; 2] 4 2 (None, None) ;;
   Ok (little, big, data)) = Ok ([11; 0; 0; 0; 11; 0; 9; 0], [0; 11; 0; 0; 0; 11; 0; 9], [0; 1; 0; 15; 0; 6; 0; 9]).
Proof. split; [split; vm_compute; congruence|]. split; vm_compute; reflexivity. Qed.
