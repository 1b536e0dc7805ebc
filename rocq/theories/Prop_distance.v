(** C62: the minimum distance of the Reed-Solomon and BCH codes: different codewords of the same length differ in at least
    NR + 1 places, so different messages are encoded to words that far apart and any 1 to NR wrong symbols are
    detected (the word is no codeword). *)
From Coq Require Import ZifyBool ZifyNat ZifyN.
From Verif Require Import Cpp Lib_list Model_gf Model_rs Model_bch Spec_gf Spec_rs Spec_bits Spec_bch Lib_field Lib_poly Lib_rs Proof_gf Proof_gffield
  Proof_rs5 Proof_rs6 Proof_rs7 Prop_rs Proof_bch5 Prop_bch.
Local Open Scope N_scope.
Ltac Zify.zify_post_hook ::= idtac.

Lemma In_differing u v t : In t (differing u v) <-> (t < length u)%nat /\ nth t u 0 <> nth t v 0.
Proof.
  unfold differing. rewrite filter_In, in_seq. destruct (N.eqb_spec (nth t u 0) (nth t v 0)); cbn [negb]; intuition (try lia; try congruence).
Qed.
Lemma NoDup_differing u v : NoDup (differing u v).
Proof. apply NoDup_filter, seq_NoDup. Qed.

(** any two codewords *)
Theorem C62_minimum_distance : forall w M POLY G NR FCR, rs_params w M POLY G NR FCR ->
  forall u v, length u = length v -> (NR < length u)%nat -> N.of_nat (length u) <= 2 ^ M - 1 ->
  rs_codeword M POLY NR FCR u -> rs_codeword M POLY NR FCR v -> u <> v -> (NR + 1 <= length (differing u v))%nat.
Proof.
  intros w M POLY G NR FCR HPar. destruct (params_ok _ _ _ _ _ _ HPar) as (OK & EM & EP & H1 & H2 & H3). subst M POLY.
  intros u v L Hn HN CU CV NE. destruct (Nat.le_gt_cases (NR + 1) (length (differing u v))) as [D|D]; [exact D|]. exfalso. apply NE.
  apply (codeword_syn G OK) in CU, CV. destruct CU as (SU & CU), CV as (SV & CV).
  set (len := (length u - NR)%nat). set (er := map N.of_nat (differing u v)). set (f := length (differing u v)) in *.
  assert (EU : word len (firstn len u) (skipn len u) = u).
  { unfold word. rewrite firstn_firstn, Nat.min_id. apply firstn_skipn. }
  assert (Ler : length er = f) by (unfold er; rewrite map_length; reflexivity).
  assert (Ef : firstn f er = er) by (apply firstn_all2; lia).
  rewrite <- EU.
  apply (syn_zero_same G OK NR FCR H1 H2 H3 len f (firstn len u) (skipn len u) er v).
  - apply Forall_firstn'. exact SU.
  - rewrite <- (firstn_skipn len u) in SU. apply Forall_app in SU. apply SU.
  - rewrite skipn_length. unfold len. lia.
  - unfold rs_K, gf_N, gf_Q. unfold len. lia.
  - unfold len. rewrite firstn_length. lia.
  - lia.
  - intros i Hi. unfold er. rewrite (nth_indep _ 0 (N.of_nat 0)) by (rewrite map_length; exact Hi). rewrite map_nth.
    assert (I : In (nth i (differing u v) 0%nat) (differing u v)) by (apply nth_In; exact Hi).
    apply In_differing in I. unfold len. lia.
  - exact SV.
  - unfold len. lia.
  - exact CV.
  - rewrite Ef. unfold er. apply NoDup_map_inj; [intros; lia|apply NoDup_differing].
  - rewrite Ef, EU. replace (errors_outside er v u) with (@nil nat); [cbn; lia|]. symmetry.
    destruct (errors_outside er v u) as [|t l] eqn:E; [reflexivity|exfalso].
    assert (I : In t (t :: l)) by (left; reflexivity). rewrite <- E in I. apply In_errors_outside in I. destruct I as (A & B & C).
    apply C. unfold er. apply in_map. apply In_differing. split; [lia|congruence].
  - rewrite EU. exact CU.
Qed.

(** detection: a word that differs from a codeword in 1 to NR places is no codeword *)
Theorem C62_detects : forall w M POLY G NR FCR, rs_params w M POLY G NR FCR ->
  forall u r, length u = length r -> (NR < length u)%nat -> N.of_nat (length u) <= 2 ^ M - 1 ->
  rs_codeword M POLY NR FCR u -> (1 <= length (differing u r) <= NR)%nat -> ~ rs_codeword M POLY NR FCR r.
Proof.
  intros w M POLY G NR FCR HPar u r L Hn HN CU D CR.
  assert (NE : u <> r).
  { intros ->. destruct (differing r r) as [|t l] eqn:E; [cbn in D; lia|]. assert (I : In t (t :: l)) by (left; reflexivity).
    rewrite <- E in I. apply In_differing in I. destruct I as (_ & I). congruence. }
  pose proof (C62_minimum_distance w M POLY G NR FCR HPar u r L Hn HN CU CR NE). lia.
Qed.

(** compute_syndromes counts no non-zero syndrome for codewords only, so 1 to NR wrong symbols always show *)
Theorem C62_syndromes_notice : forall w M POLY G NR FCR, rs_params w M POLY G NR FCR ->
  forall len data parity er count, rs_buffers M NR len data parity er count ->
  exists syn nonzero, Model_rs.rs_syndromes G NR FCR data parity (uninit N NR) len = Ok (syn, nonzero) /\
    (nonzero = 0%nat <-> rs_codeword M POLY NR FCR (firstn len data ++ parity)) /\
    (forall cw, rs_codeword M POLY NR FCR cw -> length cw = (len + NR)%nat -> (1 <= length (differing cw (firstn len data ++ parity)) <= NR)%nat -> (1 <= nonzero)%nat).
Proof.
  intros w M POLY G NR FCR HPar. destruct (params_ok _ _ _ _ _ _ HPar) as (OK & EM & EP & H1 & H2 & H3). subst M POLY.
  intros len data parity er f HB. pose proof HB as (_ & _ & _ & _ & HN & _). apply buffers_ok in HB. destruct HB as (B1 & B2 & B3 & B4 & B5 & B6 & B7 & B8).
  destruct (Proof_rs2.syndromes_ok G OK NR FCR H1 H2 H3 data parity (uninit N NR) len B1 B2 B3 B4 B5) as (s & nonzero & E & L & V & Z0).
  { unfold uninit. apply repeat_length. }
  exists s, nonzero. split; [exact E|].
  assert (I : nonzero = 0%nat <-> rs_codeword (gf_M G) (gf_POLY G) NR FCR (firstn len data ++ parity)).
  { rewrite Z0. split.
    - intros S. apply (codeword_syn G OK). split; [apply Forall_app; split; [apply Forall_firstn'; exact B1|exact B2]|]. exact S.
    - intros CW. apply (codeword_syn G OK) in CW. exact (proj2 CW). }
  split; [exact I|]. intros cw CW LC D. destruct nonzero; [|lia]. exfalso.
  refine (C62_detects w _ _ G NR FCR HPar cw _ _ _ _ CW D (proj1 I eq_refl)).
  - rewrite app_length, firstn_length. lia.
  - lia.
  - rewrite LC. lia.
Qed.
Print Assumptions C62_syndromes_notice.

(** the Reed-Solomon encoder: different data blocks of the same length *)
Theorem C62_encoder_distance : forall w M POLY G NR FCR, rs_params w M POLY G NR FCR ->
  exists gen, rs_generator G NR FCR = Ok gen /\
  forall len d1 d2 p1 p2, rs_symbols M d1 -> rs_symbols M d2 -> length p1 = NR -> length p2 = NR -> (1 <= len)%nat ->
  N.of_nat (len + NR) <= 2 ^ M - 1 -> (len <= length d1)%nat -> (len <= length d2)%nat -> firstn len d1 <> firstn len d2 ->
  exists q1 q2, rs_encode G NR gen d1 p1 len = Ok q1 /\ rs_encode G NR gen d2 p2 len = Ok q2 /\
    (NR + 1 <= length (differing (firstn len d1 ++ q1) (firstn len d2 ++ q2)))%nat.
Proof.
  intros w M POLY G NR FCR HPar. destruct (C32_encoder_makes_codewords w M POLY G NR FCR HPar) as (gen & E & H).
  exists gen. split; [exact E|]. intros len d1 d2 p1 p2 S1 S2 L1 L2 Hl Hn Hd1 Hd2 NE.
  destruct (H len d1 p1 S1 L1 Hl Hn Hd1) as (q1 & E1 & Lq1 & C1). destruct (H len d2 p2 S2 L2 Hl Hn Hd2) as (q2 & E2 & Lq2 & C2).
  exists q1, q2. split; [exact E1|]. split; [exact E2|].
  apply (C62_minimum_distance w M POLY G NR FCR HPar); try assumption.
  - rewrite !app_length, !firstn_length. lia.
  - rewrite app_length, firstn_length. lia.
  - rewrite app_length, firstn_length. lia.
  - intros X. apply NE. apply (f_equal (firstn len)) in X. rewrite !firstn_app, !firstn_firstn, !Nat.min_id, !firstn_length in X.
    replace (len - Nat.min len (length d1))%nat with 0%nat in X by lia. replace (len - Nat.min len (length d2))%nat with 0%nat in X by lia.
    rewrite !firstn_O, !app_nil_r in X. exact X.
Qed.

(** the BCH encoder, packed bytes: [g] is the bit string of a generator polynomial vanishing at the NR powers *)
Theorem C62_bch_encoder_distance : forall w M POLY G NR FCR K NP ms, bch_params w M POLY G NR FCR K NP ->
  Forall (fun m => 0 < m < 2 ^ 31) ms -> has_degree (poly_product ms) (N.of_nat NP) ->
  forall g, is_word g -> word_poly g = poly_product ms -> rs_codeword M POLY NR FCR g ->
  exists gen, bch_generator NP ms = Ok gen /\
  forall len d1 d2 p1 p2, bytes d1 -> bytes d2 -> bytes p1 -> bytes p2 -> (1 <= len <= K)%nat ->
  (len <= 8 * length d1)%nat -> (len <= 8 * length d2)%nat -> (NP <= 8 * length p1)%nat -> (NP <= 8 * length p2)%nat ->
  firstn len (be_bits d1) <> firstn len (be_bits d2) ->
  exists q1 q2, bch_encode K NP gen d1 p1 len = Ok q1 /\ bch_encode K NP gen d2 p2 len = Ok q2 /\
    (NR + 1 <= length (differing (firstn len (be_bits d1) ++ firstn NP (be_bits q1)) (firstn len (be_bits d2) ++ firstn NP (be_bits q2))))%nat.
Proof.
  intros w M POLY G NR FCR K NP ms HPar HM HD g Wg EGg HG. pose proof HPar as (B1 & B2 & B3 & B4 & B5 & B6 & B7 & B8).
  destruct (C36_packed_encoder K NP ms ltac:(lia) HM HD) as (gen & E & LG & EG & _ & H). exists gen. split; [exact E|].
  assert (WB : forall b n, is_word (firstn n (be_bits b))).
  { intros b n. apply Forall_firstn'. unfold be_bits. apply Forall_forall. intros x Hx. apply in_map_iff in Hx. destruct Hx as (i & <- & _).
    destruct (be_bit_of b i); cbn; auto. }
  assert (CG : rs_codeword M POLY NR FCR (1 :: firstn NP (be_bits gen))).
  { apply (C37_multiples_are_codewords w M POLY G NR FCR B1 B2 B3 B4 g); try assumption; [constructor; [auto|apply WB]|].
    rewrite EG, EGg. exists 1. reflexivity. }
  intros len d1 d2 p1 p2 S1 S2 T1 T2 Hl Hd1 Hd2 Hp1 Hp2 NE.
  destruct (H len d1 p1 S1 T1 Hl Hd1 Hp1) as (q1 & E1 & _ & Lq1 & D1 & _). destruct (H len d2 p2 S2 T2 Hl Hd2 Hp2) as (q2 & E2 & _ & Lq2 & D2 & _).
  exists q1, q2. split; [exact E1|]. split; [exact E2|].
  assert (LB : forall b n, (n <= 8 * length b)%nat -> length (firstn n (be_bits b)) = n).
  { intros b n Hb. unfold be_bits. rewrite firstn_length, map_length, seq_length. lia. }
  assert (C : forall d q, poly_divides (poly_product ms) (word_poly (firstn len (be_bits d) ++ firstn NP (be_bits q))) ->
     rs_codeword M POLY NR FCR (firstn len (be_bits d) ++ firstn NP (be_bits q))).
  { intros d q HDv. apply (C37_multiples_are_codewords w M POLY G NR FCR B1 B2 B3 B4 (1 :: firstn NP (be_bits gen)));
      [constructor; [auto|apply WB]|exact CG|apply Forall_app; split; apply WB|rewrite EG; exact HDv]. }
  apply (C62_minimum_distance w M POLY G NR FCR).
  - unfold rs_params. do 4 (split; [assumption|]). split; [lia|]. split; [lia|assumption].
  - rewrite !app_length, !LB by lia. reflexivity.
  - rewrite app_length, !LB by lia. lia.
  - rewrite app_length, !LB by lia. lia.
  - apply C, D1.
  - apply C, D2.
  - intros X. apply NE. apply (f_equal (firstn len)) in X. rewrite !firstn_app, !LB in X by lia. rewrite Nat.sub_diag, !firstn_O, !app_nil_r in X.
    rewrite !firstn_firstn, !Nat.min_id in X. exact X.
Qed.

(** concrete codes: the [15, 9] Reed-Solomon code and the [15, 5] BCH code over GF(16), with NR = 6, meet the hypotheses; the two words of
    the BCH code shown differ in exactly 7 bits, so the bound is met with equality *)
Example C62_nonvacuous : exists gen,
  rs_params 8 4 19 gf16 6 1 /\ bch_params 8 4 19 gf16 6 1 5 10 /\ has_degree (poly_product [19; 31; 7]) 10 /\
  word_poly [1;0;1;0;0;1;1;0;1;1;1] = poly_product [19; 31; 7] /\ rs_codeword 4 19 6 1 [1;0;1;0;0;1;1;0;1;1;1] /\
  bch_generator 10 [19; 31; 7] = Ok gen /\
  bch_encode 5 10 gen [8] [0; 0] 5 = Ok [77; 192] /\ bch_encode 5 10 gen [0] [0; 0] 5 = Ok [0; 0] /\
  length (differing (firstn 5 (be_bits [8]) ++ firstn 10 (be_bits [77; 192])) (repeat 0 15)) = 7%nat.
Proof.
  eexists. split; [repeat split; vm_compute; try congruence; try lia; reflexivity|].
  split; [repeat split; vm_compute; try congruence; try lia; reflexivity|]. split; [split; vm_compute; congruence|].
  split; [vm_compute; reflexivity|]. split; [apply codeword_check_iff; [lia|split; vm_compute; congruence|vm_compute; reflexivity]|].
  split; [vm_compute; reflexivity|]. repeat split; vm_compute; reflexivity.
Qed.
