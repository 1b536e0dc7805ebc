(** Properties C32-C35 and C55: reed_solomon_encoder.hh, reed_solomon_error_correction.hh, reed_solomon_decoder.hh.
    A word is the first [len] symbols of the data buffer followed by the parity buffer. *)
From Coq Require Import ZifyBool ZifyNat ZifyN.
From Verif Require Import Cpp Lib_list Model_gf Model_rs Spec_gf Spec_rs Lib_gf2lin Lib_gf2poly Lib_gf Lib_field Lib_poly Lib_rs Proof_gf Proof_gffield Proof_crs1 Proof_crs2 Proof_rs1 Proof_rs2 Proof_rs3 Proof_rs4 Proof_rs5 Proof_rs6 Proof_rs7 Proof_rs8.
Local Open Scope N_scope.

Definition rs_symbols (M : N) (l : list N) : Prop := Forall (fun x => x < 2 ^ M) l.
(** the template parameters the static assertions and the field accept *)
Definition rs_params (w M POLY : N) (G : gf) (NR FCR : nat) : Prop :=
  1 <= M /\ M <= w /\ has_degree POLY M /\ gf_create w M POLY = Ok G /\
  (1 <= NR)%nat /\ N.of_nat NR < 2 ^ M - 1 /\ N.of_nat FCR < 2 ^ M - 1.
(** buffers: [len] data symbols, NR parity symbols, at most NR erasures, each the index of a symbol of the word *)
Definition rs_buffers (M : N) (NR len : nat) (data parity erasures : list N) (count : nat) : Prop :=
  rs_symbols M data /\ rs_symbols M parity /\ length parity = NR /\ (1 <= len)%nat /\ N.of_nat (len + NR) <= 2 ^ M - 1 /\ (len <= length data)%nat /\
  (count <= NR)%nat /\ (count <= length erasures)%nat /\ Forall (fun e => e < N.of_nat (len + NR)) (firstn count erasures).

Lemma params_ok w M POLY G NR FCR : rs_params w M POLY G NR FCR ->
  gf_ok G /\ gf_M G = M /\ gf_POLY G = POLY /\ (1 <= NR)%nat /\ (NR < N.to_nat (2 ^ M - 1))%nat /\ (FCR < N.to_nat (2 ^ M - 1))%nat.
Proof.
  intros (HM & Hw & HP & HC & H1 & H2 & H3). destruct (create_ok w M POLY G HM Hw HP HC) as (OK & _ & EM & EP). split; [exact OK|]. split; [exact EM|]. split; [exact EP|]. lia.
Qed.
Lemma buffers_ok G NR len data parity er f : rs_buffers (gf_M G) NR len data parity er f ->
  Forall (fun x => x < 2 ^ gf_M G) data /\ Forall (fun x => x < 2 ^ gf_M G) parity /\ length parity = NR /\ (1 <= len <= rs_K G NR)%nat /\ (len <= length data)%nat /\
  (f <= NR)%nat /\ (f <= length er)%nat /\ (forall i, (i < f)%nat -> nth i er 0 < N.of_nat (len + NR)).
Proof.
  intros (A & B & C & D & E & H & K & L & P). do 3 (split; [assumption|]). split; [unfold rs_K, gf_N, gf_Q; lia|]. do 3 (split; [assumption|]).
  intros i Hi. pose proof (proj1 (Forall_nth (fun e => e < N.of_nat (len + NR)) (firstn f er)) P i 0) as HH. rewrite firstn_length, nth_firstn' in HH.
  replace (i <? f)%nat with true in HH by lia. apply HH. lia.
Qed.

(** C32 *)
Theorem C32_encoder_makes_codewords : forall w M POLY G NR FCR, rs_params w M POLY G NR FCR ->
  exists gen, rs_generator G NR FCR = Ok gen /\
  forall len data parity, rs_symbols M data -> length parity = NR -> (1 <= len)%nat -> N.of_nat (len + NR) <= 2 ^ M - 1 -> (len <= length data)%nat ->
  exists parity', rs_encode G NR gen data parity len = Ok parity' /\ length parity' = NR /\
    rs_codeword M POLY NR FCR (firstn len data ++ parity').
Proof.
  intros w M POLY G NR FCR HPar. destruct (params_ok _ _ _ _ _ _ HPar) as (OK & EM & EP & H1 & H2 & H3). subst M POLY.
  destruct (generator_ok G OK NR FCR H1 H2 H3) as (gen & g & E & HG). exists gen. split; [exact E|].
  intros len data parity SD LP Hl Hn Hd. destruct (encode_ok G OK NR FCR H1 H2 H3 gen g data parity len HG SD LP) as (p' & Ep & Sp & Lp & HZ); [unfold rs_K, gf_N, gf_Q; lia|exact Hd|].
  exists p'. split; [exact Ep|]. split; [exact Lp|]. apply (codeword_syn G OK). split; [|exact HZ].
  apply Forall_app. split; [apply Forall_firstn'; exact SD|exact Sp].
Qed.
Print Assumptions C32_encoder_makes_codewords.

(** the parity is the only one that completes the data to a codeword *)
Theorem C32_parity_unique : forall w M POLY G NR FCR, rs_params w M POLY G NR FCR ->
  forall len data p p', (1 <= len)%nat -> N.of_nat (len + NR) <= 2 ^ M - 1 -> (len <= length data)%nat -> length p = NR -> length p' = NR ->
  rs_codeword M POLY NR FCR (firstn len data ++ p) -> rs_codeword M POLY NR FCR (firstn len data ++ p') -> p = p'.
Proof.
  intros w M POLY G NR FCR HPar. destruct (params_ok _ _ _ _ _ _ HPar) as (OK & EM & EP & H1 & H2 & H3). subst M POLY.
  intros len data p p' Hl Hn Hd L L' CW CW'. apply (codeword_syn G OK) in CW, CW'. destruct CW as (SC & CW), CW' as (SC' & CW').
  set (d := firstn len data) in *. assert (Ld : length d = len) by (unfold d; rewrite firstn_length; lia).
  assert (EW : firstn len d = d) by (apply firstn_all2; lia).
  assert (E : word len d p = word len d p'); [|unfold word in E; apply app_inv_head in E; exact E].
  assert (Hno : errors_outside (firstn NR (map N.of_nat (seq len NR))) (word len d p') (word len d p) = []).
  { rewrite firstn_all2 by (rewrite map_length, seq_length; lia). destruct (errors_outside _ _ _) as [|t l] eqn:EE; [reflexivity|exfalso].
    assert (Hin : In t (t :: l)) by (left; reflexivity). rewrite <- EE in Hin. apply In_errors_outside in Hin. destruct Hin as (A & B & D).
    rewrite length_word in A by lia. rewrite !nth_word in B by lia. destruct (Nat.ltb_spec t len); [congruence|]. apply D. apply in_map. apply in_seq. lia. }
  apply (syn_zero_same G OK NR FCR H1 H2 H3 len NR d p (map N.of_nat (seq len NR)) (word len d p')).
  - apply Forall_app in SC. apply SC.
  - apply Forall_app in SC. apply SC.
  - exact L.
  - unfold rs_K, gf_N, gf_Q. lia.
  - lia.
  - rewrite map_length, seq_length. lia.
  - intros i Hi. rewrite (nth_indep _ 0 (N.of_nat 0)) by (rewrite map_length, seq_length; exact Hi). rewrite map_nth, seq_nth by exact Hi. lia.
  - unfold word. rewrite EW. exact SC'.
  - rewrite length_word by lia. lia.
  - unfold word. rewrite EW. exact CW'.
  - rewrite firstn_all2 by (rewrite map_length, seq_length; lia). apply NoDup_map_inj; [intros; lia|apply seq_NoDup].
  - rewrite Hno. cbn. lia.
  - unfold word at 1. rewrite EW. exact CW.
Qed.
Print Assumptions C32_parity_unique.

(** a codeword passes the decoder unchanged with result 0, whatever is declared erased *)
Theorem C32_codeword_passes : forall w M POLY G NR FCR imap, rs_params w M POLY G NR FCR -> rs_imap G = Ok imap ->
  forall len data parity er count, rs_buffers M NR len data parity er count -> rs_codeword M POLY NR FCR (firstn len data ++ parity) ->
  exists er', rs_decode G NR FCR imap data parity er count len = Ok (data, parity, er', 0%Z).
Proof.
  intros w M POLY G NR FCR imap HPar HI. destruct (params_ok _ _ _ _ _ _ HPar) as (OK & EM & EP & H1 & H2 & H3). subst M POLY.
  intros len data parity er f HB CW. apply buffers_ok in HB. destruct HB as (B1 & B2 & B3 & B4 & B5 & B6 & B7 & B8).
  destruct (imap_create G OK ltac:(lia)) as (im & EI & IO). assert (im = imap) as -> by congruence.
  destruct (decode_ok G OK NR FCR H1 H2 H3 imap data parity er f len IO B1 B2 B3 B4 B5 B6 B7 B8) as (d' & p' & er' & z & E & O).
  apply (codeword_syn G OK) in CW. destruct CW as (_ & CW). exists er'. rewrite E.
  destruct O as (_ & _ & _ & _ & _ & _ & _ & [(-> & -> & -> & _)|(s & z0 & locs & mags & C & L & deg & _ & _ & (i & Hi & SN) & _)]); [reflexivity|].
  exfalso. apply SN. apply CW. exact Hi.
Qed.
Print Assumptions C32_codeword_passes.

(** C33: [cw] is the transmitted codeword, the buffers hold what was received.  The erased positions are distinct; the symbols
    there may be wrong or right.  The only exception is that of C55. *)
Theorem C33_corrects_errors_and_erasures : forall w M POLY G NR FCR imap, rs_params w M POLY G NR FCR -> rs_imap G = Ok imap ->
  forall len data parity er count cw, rs_buffers M NR len data parity er count -> NoDup (firstn count er) ->
  rs_codeword M POLY NR FCR cw -> length cw = (len + NR)%nat ->
  let rw := firstn len data ++ parity in
  let errors := errors_outside (firstn count er) cw rw in
  (2 * length errors + count <= NR)%nat ->
  (forall a b, a <> b -> (forall t, In (N.of_nat t) (firstn count er) \/ In t errors <-> t = a \/ t = b) -> ~ unlucky_pair M POLY (len + NR) a b) ->
  exists data' parity' er', rs_decode G NR FCR imap data parity er count len = Ok (data', parity', er', Z.of_nat (length (differing cw rw))) /\
    firstn len data' ++ parity' = cw /\ skipn len data' = skipn len data.
Proof.
  intros w M POLY G NR FCR imap HPar HI. destruct (params_ok _ _ _ _ _ _ HPar) as (OK & EM & EP & H1 & H2 & H3). subst M POLY.
  intros len data parity er f cw HB ND CW LC rw errors HC LU. apply buffers_ok in HB. destruct HB as (B1 & B2 & B3 & B4 & B5 & B6 & B7 & B8).
  destruct (imap_create G OK ltac:(lia)) as (im & EI & IO). assert (im = imap) as -> by congruence.
  destruct (decode_ok G OK NR FCR H1 H2 H3 imap data parity er f len IO B1 B2 B3 B4 B5 B6 B7 B8) as (d' & p' & er' & z & E & O).
  apply (codeword_syn G OK) in CW. destruct CW as (SC & CW).
  destruct (decoded G OK NR FCR H1 H2 H3 len f data parity er cw B1 B2 B3 B4 B5 B7 B8 SC LC CW ND HC d' p' er' z O) as (EW & Ez).
  { intros a b Hab HT. apply LU; [exact Hab|]. intros t. rewrite <- HT. unfold located. rewrite in_app_iff, in_map_iff. split; (intros [H|H]; [left|right; exact H]).
    - exists (N.of_nat t). split; [apply Nat2N.id|exact H].
    - destruct H as (x & <- & Hx). rewrite N2Nat.id. exact Hx. }
  exists d', p', er'. rewrite E, Ez. split; [reflexivity|]. split; [exact EW|]. apply O.
Qed.
Print Assumptions C33_corrects_errors_and_erasures.

(** there is no exception in the fields where y(y+1) = N has no solution *)
Theorem C33_no_exception : forall w M POLY G NR FCR imap, rs_params w M POLY G NR FCR -> rs_imap G = Ok imap -> ~ solvable M POLY ->
  forall len data parity er count cw, rs_buffers M NR len data parity er count -> NoDup (firstn count er) ->
  rs_codeword M POLY NR FCR cw -> length cw = (len + NR)%nat ->
  let rw := firstn len data ++ parity in
  let errors := errors_outside (firstn count er) cw rw in
  (2 * length errors + count <= NR)%nat ->
  exists data' parity' er', rs_decode G NR FCR imap data parity er count len = Ok (data', parity', er', Z.of_nat (length (differing cw rw))) /\
    firstn len data' ++ parity' = cw /\ skipn len data' = skipn len data.
Proof.
  intros w M POLY G NR FCR imap HPar HI NS len data parity er f cw HB ND CW LC rw errors HC.
  apply (C33_corrects_errors_and_erasures w M POLY); try assumption. intros a b Hab HT HU. apply NS.
  destruct (params_ok _ _ _ _ _ _ HPar) as (OK & EM & EP & H1 & H2 & H3). subst M POLY.
  assert (LT : forall t, In (N.of_nat t) (firstn f er) \/ In t errors -> (t < len + NR)%nat).
  { intros t [H|H]; [|apply In_errors_outside in H; lia]. destruct HB as (_ & _ & _ & _ & _ & _ & _ & _ & HB). apply (proj1 (Forall_forall _ _) HB) in H. cbv beta in H. lia. }
  destruct HB as (_ & _ & _ & _ & Hn & _). apply (unlucky_solvable G OK (len + NR) a b); try assumption; try (apply LT, HT; auto). lia.
Qed.
Print Assumptions C33_no_exception.

(** C55: the exception.  Two located positions forming an unlucky pair are not corrected although 2e+f <= NR. *)
Theorem C55_unlucky_pair_refused : forall w M POLY G NR FCR imap, rs_params w M POLY G NR FCR -> rs_imap G = Ok imap ->
  forall len data parity er count cw, rs_buffers M NR len data parity er count -> NoDup (firstn count er) ->
  rs_codeword M POLY NR FCR cw -> length cw = (len + NR)%nat ->
  let rw := firstn len data ++ parity in
  let errors := errors_outside (firstn count er) cw rw in
  (2 * length errors + count <= NR)%nat -> rw <> cw ->
  forall a b, a <> b -> (forall t, In (N.of_nat t) (firstn count er) \/ In t errors <-> t = a \/ t = b) -> unlucky_pair M POLY (len + NR) a b ->
  exists er', rs_decode G NR FCR imap data parity er count len = Ok (data, parity, er', (-1)%Z).
Proof.
  intros w M POLY G NR FCR imap HPar HI. destruct (params_ok _ _ _ _ _ _ HPar) as (OK & EM & EP & H1 & H2 & H3). subst M POLY.
  intros len data parity er f cw HB ND CW LC rw errors HC NE a b Hab HT HU. apply buffers_ok in HB. destruct HB as (B1 & B2 & B3 & B4 & B5 & B6 & B7 & B8).
  destruct (imap_create G OK ltac:(lia)) as (im & EI & IO). assert (im = imap) as -> by congruence.
  destruct (decode_ok G OK NR FCR H1 H2 H3 imap data parity er f len IO B1 B2 B3 B4 B5 B6 B7 B8) as (d' & p' & er' & z & E & O).
  apply (codeword_syn G OK) in CW. destruct CW as (SC & CW).
  destruct (undecoded G OK NR FCR H1 H2 H3 len f data parity er cw B1 B2 B3 B4 B5 B7 B8 SC LC CW ND HC d' p' er' z a b O NE Hab) as (-> & -> & ->).
  { intros t. rewrite <- HT. unfold located. rewrite in_app_iff, in_map_iff. split; (intros [H|H]; [left|right; exact H]).
    - destruct H as (x & <- & Hx). rewrite N2Nat.id. exact Hx.
    - exists (N.of_nat t). split; [apply Nat2N.id|exact H]. }
  { exact HU. }
  exists er'. exact E.
Qed.
Print Assumptions C55_unlucky_pair_refused.

(** C34: any received word, any positions declared erased, even repeatedly *)
Theorem C34_total_and_failure_changes_nothing : forall w M POLY G NR FCR, rs_params w M POLY G NR FCR ->
  exists imap, rs_imap G = Ok imap /\
  forall len data parity er count, rs_buffers M NR len data parity er count ->
  exists data' parity' er' z, rs_decode G NR FCR imap data parity er count len = Ok (data', parity', er', z) /\
    length data' = length data /\ length parity' = NR /\ rs_symbols M data' /\ rs_symbols M parity' /\ skipn len data' = skipn len data /\
    (** the caller's erasure list is shifted by the shortening of the code *)
    length er' = length er /\ (forall i, (i < count)%nat -> nth i er' 0 = nth i er 0 + (2 ^ M - 1 - N.of_nat (len + NR))) /\
    ((z <= 0)%Z -> data' = data /\ parity' = parity) /\
    (z = (-1)%Z \/ (z = Z.of_nat (length (differing (firstn len data ++ parity) (firstn len data' ++ parity'))) /\ (z <= Z.of_nat NR)%Z)).
Proof.
  intros w M POLY G NR FCR HPar. destruct (params_ok _ _ _ _ _ _ HPar) as (OK & EM & EP & H1 & H2 & H3). subst M POLY.
  destruct (imap_create G OK ltac:(lia)) as (imap & EI & IO). exists imap. split; [exact EI|].
  intros len data parity er f HB. apply buffers_ok in HB. destruct HB as (B1 & B2 & B3 & B4 & B5 & B6 & B7 & B8).
  destruct (decode_ok G OK NR FCR H1 H2 H3 imap data parity er f len IO B1 B2 B3 B4 B5 B6 B7 B8) as (d' & p' & er' & z & E & O).
  exists d', p', er', z. split; [exact E|].
  assert (TU : (z <= 0)%Z -> d' = data /\ p' = parity) by (apply (total_unchanged G OK NR FCR H1 H2 H3 len f data parity er B1 B2 B3 B4 B5 B7 B8 d' p' er' z O)).
  pose proof (total G OK NR FCR H1 H2 H3 len f data parity er B1 B2 B3 B4 B5 B7 B8 d' p' er' z O) as T.
  destruct O as (A1 & A2 & A3 & A4 & A5 & A6 & A7 & _).
  do 6 (split; [assumption|]). split.
  - intros i Hi. rewrite A7 by exact Hi. f_equal. unfold rs_K, gf_N, gf_Q in *. lia.
  - split; [exact TU|]. destruct T as [(T & _)|T]; [left; exact T|right; exact T].
Qed.
Print Assumptions C34_total_and_failure_changes_nothing.

(** C35, what holds: when at most one check symbol is left for errors, a non-negative result means a codeword.
    In general it does not (C35_counterexample). *)
Theorem C35_codeword_if_erasures_use_the_checks : forall w M POLY G NR FCR imap, rs_params w M POLY G NR FCR -> rs_imap G = Ok imap ->
  forall len data parity er count data' parity' er' z, rs_buffers M NR len data parity er count -> NoDup (firstn count er) -> (NR <= count + 1)%nat ->
  rs_decode G NR FCR imap data parity er count len = Ok (data', parity', er', z) -> (0 <= z)%Z ->
  rs_codeword M POLY NR FCR (firstn len data' ++ parity').
Proof.
  intros w M POLY G NR FCR imap HPar HI. destruct (params_ok _ _ _ _ _ _ HPar) as (OK & EM & EP & H1 & H2 & H3). subst M POLY.
  intros len data parity er f data' parity' er2 z2 HB ND HN HD Hz. apply buffers_ok in HB. destruct HB as (B1 & B2 & B3 & B4 & B5 & B6 & B7 & B8).
  destruct (imap_create G OK ltac:(lia)) as (im & EI & IO). assert (im = imap) as -> by congruence.
  destruct (decode_ok G OK NR FCR H1 H2 H3 imap data parity er f len IO B1 B2 B3 B4 B5 B6 B7 B8) as (d' & p' & er' & z & E & O).
  rewrite E in HD. injection HD as -> -> -> ->. apply (codeword_syn G OK). split.
  - destruct O as (_ & A2 & _ & A4 & _). apply Forall_app. split; [apply Forall_firstn'; exact A2|exact A4].
  - apply (codeword_when G OK NR FCR H1 H2 H3 len f data parity er B3 B4 B5 B7 B8 data' parity' er2 z2 O ND HN Hz).
Qed.
Print Assumptions C35_codeword_if_erasures_use_the_checks.

(** ** concrete cases *)
Ltac rs_par := repeat split; vm_compute; try congruence; try reflexivity; auto.
Definition gf16 := match gf_create 8 4 19 with Ok G => G | _ => {| gf_w := 0; gf_M := 0; gf_POLY := 0; gf_T := None |} end.
Definition gf32 := match gf_create 8 5 37 with Ok G => G | _ => {| gf_w := 0; gf_M := 0; gf_POLY := 0; gf_T := None |} end.
Lemma nth_value M POLY x l v a : a < 2 ^ M -> 1 <= M -> has_degree POLY M -> Forall (fun c => c < 2 ^ M) l ->
  fold_left (fun acc c => N.lxor (gmul M POLY x acc) c) l a = v -> value_at M POLY x a l v.
Proof.
  intros Ha HM HP HL. revert a Ha. induction HL as [|c l Hc HL IH]; intros a Ha; cbn [fold_left value_at]; [intros <-; reflexivity|].
  intros E. exists (gmul M POLY x a). split; [apply gmul_product_mod; assumption|]. apply IH; [|exact E]. apply lxor_lt; [|exact Hc]. apply gmul_lt; assumption.
Qed.
(** decides rs_codeword on concrete words *)
Definition codeword_check (M POLY : N) (NR FCR : nat) (w : list N) : bool :=
  forallb (fun c => c <? 2 ^ M) w &&
  forallb (fun i => fold_left (fun acc c => N.lxor (gmul M POLY (gpow M POLY (N.of_nat (FCR + i))) acc) c) w 0 =? 0) (seq 0 NR).
Lemma codeword_check_iff M POLY NR FCR w : 1 <= M -> has_degree POLY M -> codeword_check M POLY NR FCR w = true <-> rs_codeword M POLY NR FCR w.
Proof.
  intros HM HP. unfold codeword_check, rs_codeword. rewrite andb_true_iff, !forallb_forall, Forall_forall.
  assert (Q0 : 0 < 2 ^ M) by (apply N.neq_0_lt_0, N.pow_nonzero; discriminate).
  split; intros (A & B); (split; [intros x Hx; specialize (A x Hx); lia|]).
  - intros i Hi. exists (gpow M POLY (N.of_nat (FCR + i))). split; [apply Prop_gf.power_gpow; auto|]. apply nth_value; try assumption.
    + apply Forall_forall. intros x Hx. specialize (A x Hx). lia.
    + apply N.eqb_eq. apply (B i). apply in_seq. lia.
  - intros i Hi. apply in_seq in Hi. destruct (B i ltac:(lia)) as (r & Hr & HV). apply Prop_gf.power_gpow in Hr; [|assumption..]. subst r.
    apply N.eqb_eq. revert HV. generalize (gpow M POLY (N.of_nat (FCR + i))). intros x. clear - A HM HP Q0.
    assert (H : forall a, a < 2 ^ M -> value_at M POLY x a w 0 -> fold_left (fun acc c => N.lxor (gmul M POLY x acc) c) w a = 0).
    { induction w as [|c w IH]; intros a Ha; cbn [fold_left value_at]; [auto|]. intros (p & Hp & HV). apply product_mod_gmul in Hp; [|assumption..]. subst p.
      apply IH; [intros; apply A; right; assumption| |exact HV]. apply lxor_lt; [apply gmul_lt; assumption|]. specialize (A c (or_introl eq_refl)). exact A. }
    apply H. exact Q0.
Qed.
Lemma not_solvable_check M POLY : 1 <= M -> has_degree POLY M ->
  forallb (fun y => negb (gmul M POLY (N.of_nat y) (N.lxor (N.of_nat y) 1) =? 2 ^ M - 1)) (seq 0 (N.to_nat (2 ^ M))) = true -> ~ solvable M POLY.
Proof.
  intros HM HP H (y & Hy & HS). rewrite forallb_forall in H. specialize (H (N.to_nat y) ltac:(apply in_seq; lia)). rewrite N2Nat.id in H.
  assert (Hx : N.lxor y 1 < 2 ^ M). { apply lxor_lt; [exact Hy|]. change 1 with (2 ^ 0). apply N.pow_lt_mono_r; lia. }
  rewrite <- (product_mod_gmul M POLY HM HP y (N.lxor y 1) _ Hx HS), N.eqb_refl in H. discriminate.
Qed.

(** GF(16) and GF(256) as in the tests have no exception; the 16 bit field of the regression tests has *)
Example C33_gf16_no_exception : ~ solvable 4 19.
Proof. apply not_solvable_check; [lia|split; vm_compute; congruence|vm_compute; reflexivity]. Qed.
Example C33_gf256_no_exception : ~ solvable 8 285.
Proof. apply not_solvable_check; [lia|split; vm_compute; congruence|vm_compute; reflexivity]. Qed.
Example C55_gf65536_exception : solvable 16 69643.
Proof. exists 52726. split; [vm_compute; reflexivity|]. split; [vm_compute; reflexivity|]. exists 21763. vm_compute. reflexivity. Qed.

(** GF(16), NR = 4, FCR = 1: 3 data symbols encode to this parity; one error and two erasures are corrected *)
Example C33_nonvacuous : exists gen imap, rs_params 8 4 19 gf16 4 1 /\ rs_generator gf16 4 1 = Ok gen /\ rs_imap gf16 = Ok imap /\
  rs_encode gf16 4 gen [5; 0; 11; 9] [7; 7; 7; 7] 3 = Ok [12; 14; 10; 7] /\
  rs_codeword 4 19 4 1 ([5; 0; 11] ++ [12; 14; 10; 7]) /\
  rs_buffers 4 4 3 [5; 3; 2; 9] [12; 14; 0; 7] [5; 1; 0] 2 /\ NoDup (firstn 2 [5; 1; 0]) /\
  errors_outside [5; 1] [5; 0; 11; 12; 14; 10; 7] [5; 3; 2; 12; 14; 0; 7] = [2]%nat /\
  rs_decode gf16 4 1 imap [5; 3; 2; 9] [12; 14; 0; 7] [5; 1; 0] 2 3 = Ok ([5; 0; 11; 9], [12; 14; 10; 7], [13; 9; 0], 3%Z) /\
  rs_decode gf16 4 1 imap [5; 0; 11; 9] [12; 14; 10; 7] [5; 1; 0] 2 3 = Ok ([5; 0; 11; 9], [12; 14; 10; 7], [13; 9; 0], 0%Z).
Proof.
  eexists _, _. split; [rs_par|]. split; [vm_compute; reflexivity|]. split; [vm_compute; reflexivity|]. split; [vm_compute; reflexivity|].
  split; [apply codeword_check_iff; [lia|split; vm_compute; congruence|vm_compute; reflexivity]|].
  split; [repeat split; try (vm_compute; congruence); cbn; repeat (constructor; try (vm_compute; reflexivity)); try lia|].
  split; [repeat constructor; cbn; intuition discriminate|]. split; [vm_compute; reflexivity|]. split; vm_compute; reflexivity.
Qed.

(** GF(32), NR = 4: the word 1 0 0 0 1 differs from the codeword 0 in two symbols and is refused *)
Example C55_nonvacuous : exists imap, rs_params 8 5 37 gf32 4 1 /\ rs_imap gf32 = Ok imap /\
  rs_codeword 5 37 4 1 [0; 0; 0; 0; 0] /\ rs_buffers 5 4 1 [1] [0; 0; 0; 1] [] 0 /\
  errors_outside [] [0; 0; 0; 0; 0] [1; 0; 0; 0; 1] = [0; 4]%nat /\ unlucky_pair 5 37 5 0 4 /\
  rs_decode gf32 4 1 imap [1] [0; 0; 0; 1] [] 0 1 = Ok ([1], [0; 0; 0; 1], [], (-1)%Z) /\
  rs_decode gf32 4 1 imap [1] [0; 0; 1; 0] [] 0 1 = Ok ([0], [0; 0; 0; 0], [], 2%Z).
Proof.
  eexists. split; [rs_par|]. split; [vm_compute; reflexivity|].
  split; [apply codeword_check_iff; [lia|split; vm_compute; congruence|vm_compute; reflexivity]|].
  split; [repeat split; try (vm_compute; congruence); cbn; repeat (constructor; try (vm_compute; reflexivity)); try lia|].
  split; [vm_compute; reflexivity|]. split; [|split; vm_compute; reflexivity].
  exists 16, 1, 16, 17, 12. repeat split; try (vm_compute; reflexivity); cbn [is_power_of_x Nat.sub].
  - exists 8. split; [|split; [vm_compute; reflexivity|exists 0; vm_compute; reflexivity]].
    exists 4. split; [|split; [vm_compute; reflexivity|exists 0; vm_compute; reflexivity]].
    exists 2. split; [|split; [vm_compute; reflexivity|exists 0; vm_compute; reflexivity]].
    exists 1. split; [reflexivity|split; [vm_compute; reflexivity|exists 0; vm_compute; reflexivity]].
  - exists 0. vm_compute. reflexivity.
  - exists 9. vm_compute. reflexivity.
  - exists 4. vm_compute. reflexivity.
Qed.

(** C35 as listed is false: this word of GF(16) with NR = 4 is reported as correct (0) but is not a codeword *)
Example C35_counterexample : exists imap, rs_params 8 4 19 gf16 4 1 /\ rs_imap gf16 = Ok imap /\
  rs_buffers 4 4 1 [0] [1; 15; 1; 10] [] 0 /\
  rs_decode gf16 4 1 imap [0] [1; 15; 1; 10] [] 0 1 = Ok ([0], [1; 15; 1; 10], [], 0%Z) /\
  ~ rs_codeword 4 19 4 1 [0; 1; 15; 1; 10].
Proof.
  eexists. split; [rs_par|]. split; [vm_compute; reflexivity|].
  split; [repeat split; try (vm_compute; congruence); cbn; repeat (constructor; try (vm_compute; reflexivity)); try lia|].
  split; [vm_compute; reflexivity|]. rewrite <- codeword_check_iff; [vm_compute; discriminate|lia|split; vm_compute; congruence].
Qed.
(** four erasures, NR = 4, of a word that is no codeword: repaired to one *)
Example C35_nonvacuous : exists imap, rs_params 8 4 19 gf16 4 1 /\ rs_imap gf16 = Ok imap /\
  rs_buffers 4 4 3 [5; 3; 2; 9] [12; 14; 0; 7] [5; 1; 0; 2] 4 /\ NoDup (firstn 4 [5; 1; 0; 2]) /\
  rs_decode gf16 4 1 imap [5; 3; 2; 9] [12; 14; 0; 7] [5; 1; 0; 2] 4 3 = Ok ([5; 0; 11; 9], [12; 14; 10; 7], [13; 9; 8; 10], 3%Z).
Proof.
  eexists. split; [rs_par|]. split; [vm_compute; reflexivity|].
  split; [repeat split; try (vm_compute; congruence); cbn; repeat (constructor; try (vm_compute; reflexivity)); try lia|].
  split; [repeat constructor; cbn; intuition discriminate|]. vm_compute. reflexivity.
Qed.
