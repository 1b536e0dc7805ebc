(** Property C78: reed_solomon_decoder.hh, bose_chaudhuri_hocquenghem_decoder.hh.
    What the algebraic decoders do to the errors of a received word does not depend on the codeword that was sent: for every error word, within the
    correction capability or beyond it, decoded right, wrongly or refused. *)
From Coq Require Import ZifyBool ZifyNat ZifyN.
From Verif Require Import Cpp Lib_list Proof_bits Model_bits Spec_bits Model_gf Model_rs Model_bch Spec_gf Spec_rs Spec_bch Lib_gf2lin Lib_gf2poly Lib_gf Lib_field Lib_rs Proof_gf Proof_gffield Proof_crs1 Proof_crs2 Proof_rs1 Proof_rs2 Proof_rs3 Proof_rs4 Proof_rs5 Proof_rs6
  Proof_bch1 Proof_bch2 Proof_bch3 Proof_bch4 Proof_bch5 Prop_rs Proof_translate.
Local Open Scope N_scope.

(** [c] is the symbol by symbol sum of [a] and [b] *)
Definition sum_of (a b c : list N) : Prop := length a = length c /\ length b = length c /\ forall t, (t < length c)%nat -> nth t c 0 = N.lxor (nth t a 0) (nth t b 0).

Definition addl (a b : list N) : list N := map (fun t => N.lxor (nth t a 0) (nth t b 0)) (seq 0 (length a)).
Lemma length_addl a b : length (addl a b) = length a. Proof. unfold addl. rewrite map_length, seq_length. reflexivity. Qed.
Lemma nth_addl a b t : (t < length a)%nat -> nth t (addl a b) 0 = N.lxor (nth t a 0) (nth t b 0).
Proof. intros Ht. unfold addl. rewrite nth_map_seq. replace (t <? length a)%nat with true by lia. reflexivity. Qed.
Lemma addl_codeword G (OK : gf_ok G) NR FCR a b : (1 <= NR)%nat -> (NR < N.to_nat (2 ^ gf_M G - 1))%nat -> (FCR < N.to_nat (2 ^ gf_M G - 1))%nat -> length a = length b -> (length a <= N.to_nat (2 ^ gf_M G - 1))%nat ->
  rs_codeword (gf_M G) (gf_POLY G) NR FCR a -> rs_codeword (gf_M G) (gf_POLY G) NR FCR b -> rs_codeword (gf_M G) (gf_POLY G) NR FCR (addl a b).
Proof.
  intros H1 H2 H3 L Hn CA CB. apply (codeword_syn G OK) in CA, CB. destruct CA as (SA & CA), CB as (SB & CB). apply (codeword_syn G OK). split.
  - apply Forall_nth. intros t d Ht. rewrite length_addl in Ht. rewrite (nth_indep _ d 0), nth_addl by (rewrite ?length_addl; exact Ht). apply lxor_lt; apply small_nth; assumption.
  - intros i Hi. rewrite (syn_plus G OK NR FCR H1 H2 H3 (length a) b a (addl a b)); try assumption; try (rewrite ?length_addl; congruence); [apply CA; exact Hi| |apply CB; exact Hi].
    intros t Ht. apply nth_addl. exact Ht.
Qed.
Lemma addl_word a b : is_word a -> is_word b -> length a = length b -> is_word (addl a b).
Proof.
  intros A B L. apply word_binary in A, B. apply word_binary. apply (bin_plus (length a) b a); auto; [apply length_addl|]. intros t Ht. apply nth_addl. exact Ht.
Qed.
Lemma sums_plus s1 s2 e u v n : length u = n -> sum_of s1 e u -> sum_of s2 e v -> plus_word n (addl s1 s2) u v /\ length s1 = n /\ length s2 = n /\ length v = n.
Proof.
  intros L (A1 & A2 & A3) (B1 & B2 & B3). split; [|lia]. intros t Ht. rewrite A3, B3, nth_addl by lia.
  rewrite (N.lxor_comm (nth t s1 0) (nth t e 0)), N.lxor_assoc, <- (N.lxor_assoc (nth t s1 0)), N.lxor_nilpotent, N.lxor_0_l. apply N.lxor_comm.
Qed.
Lemma plus_sums s1 s2 u v n : length u = n -> length v = n -> length s1 = n -> length s2 = n -> plus_word n (addl s1 s2) u v -> sum_of s1 (addl u s1) u /\ sum_of s2 (addl u s1) v.
Proof.
  intros L1 L2 L3 L4 H. split; (split; [congruence|]); (split; [rewrite length_addl; congruence|]); intros t Ht; rewrite nth_addl by lia.
  - rewrite (N.lxor_comm (nth t u 0)), <- N.lxor_assoc, N.lxor_nilpotent, N.lxor_0_l. reflexivity.
  - rewrite (H t), nth_addl by lia. rewrite <- N.lxor_assoc. rewrite (N.lxor_comm (N.lxor (nth t u 0) _)). reflexivity.
Qed.

(** [sent1] and [sent2] are codewords, [errors] hits both on the way.  Both decodings return the same result and leave the same [residue] of errors. *)
Theorem C78_reed_solomon : forall w M POLY G NR FCR imap, rs_params w M POLY G NR FCR -> rs_imap G = Ok imap ->
  forall len data1 parity1 data2 parity2 er count sent1 sent2 errors,
  rs_buffers M NR len data1 parity1 er count -> rs_buffers M NR len data2 parity2 er count ->
  rs_codeword M POLY NR FCR sent1 -> rs_codeword M POLY NR FCR sent2 ->
  sum_of sent1 errors (firstn len data1 ++ parity1) -> sum_of sent2 errors (firstn len data2 ++ parity2) ->
  exists data1' parity1' data2' parity2' er' z residue,
    rs_decode G NR FCR imap data1 parity1 er count len = Ok (data1', parity1', er', z) /\
    rs_decode G NR FCR imap data2 parity2 er count len = Ok (data2', parity2', er', z) /\
    sum_of sent1 residue (firstn len data1' ++ parity1') /\ sum_of sent2 residue (firstn len data2' ++ parity2').
Proof.
  intros w M POLY G NR FCR imap HPar HI len d1 p1 d2 p2 er f s1 s2 e HB1 HB2 C1 C2 S1 S2. destruct (params_ok _ _ _ _ _ _ HPar) as (OK & EM & EP & H1 & H2 & H3). subst M POLY.
  destruct (imap_create G OK ltac:(lia)) as (im & EI & IO). assert (im = imap) as -> by congruence.
  apply buffers_ok in HB1. apply buffers_ok in HB2. destruct HB1 as (B1 & B2 & B3 & B4 & B5 & B6 & B7 & B8). destruct HB2 as (D1 & D2 & D3 & D4 & D5 & D6 & D7 & D8).
  assert (Hn : (len + NR <= N.to_nat (2 ^ gf_M G - 1))%nat) by (unfold rs_K, gf_N, gf_Q in B4; lia).
  assert (Lu : length (firstn len d1 ++ p1) = (len + NR)%nat) by (rewrite app_length, firstn_length; lia).
  destruct (sums_plus s1 s2 e _ _ _ Lu S1 S2) as (PL & L1 & L2 & _).
  assert (CC : rs_codeword (gf_M G) (gf_POLY G) NR FCR (addl s1 s2)) by (apply (addl_codeword G OK); try assumption; lia).
  apply (codeword_syn G OK) in CC. destruct CC as (SC & ZC).
  destruct (rs_translate G OK NR FCR H1 H2 H3 imap d1 p1 d2 p2 er f len (addl s1 s2) IO B1 B2 B3 B4 B5 B6 B7 B8) as (d1' & p1' & d2' & p2' & er' & z & E1 & E2 & P); try assumption.
  { rewrite length_addl. exact L1. }
  destruct (decode_ok G OK NR FCR H1 H2 H3 imap d1 p1 er f len IO B1 B2 B3 B4 B5 B6 B7 B8) as (a & b & c & y & E & O). rewrite E1 in E. injection E as <- <- <- <-. destruct O as (O1 & _ & O2 & _).
  destruct (decode_ok G OK NR FCR H1 H2 H3 imap d2 p2 er f len IO D1 D2 D3 D4 D5 D6 D7 D8) as (a & b & c & y & E & O). rewrite E2 in E. injection E as <- <- <- <-. destruct O as (O3 & _ & O4 & _).
  destruct (plus_sums s1 s2 (firstn len d1' ++ p1') (firstn len d2' ++ p2') (len + NR)) as (Q1 & Q2); try assumption; try (rewrite app_length, firstn_length; lia).
  exists d1', p1', d2', p2', er', z, (addl (firstn len d1' ++ p1') s1). split; [exact E1|]. split; [exact E2|]. split; [exact Q1|exact Q2].
Qed.
Print Assumptions C78_reed_solomon.

Section B.
Variables (w M POLY : N) (G : gf) (NR FCR K NP : nat) (imap : list N).
Hypothesis HPar : bch_params w M POLY G NR FCR K NP.
Hypothesis HI : rs_imap G = Ok imap.
Variables (A : bch_access) (ok : list N -> Prop) (view : list N -> list N).
Hypothesis AO : gf_ok G -> access_ok G A ok view.
Hypothesis VI : forall a b, ok a -> ok b -> view a = view b -> a = b.
Lemma bch_both len d1 p1 d2 p2 er count s1 s2 e : ok d1 -> ok p1 -> ok d2 -> ok p2 ->
  bch_sizes NR K NP len (length (view d1)) (length (view p1)) er count -> bch_sizes NR K NP len (length (view d2)) (length (view p2)) er count ->
  is_word s1 -> rs_codeword M POLY NR FCR s1 -> is_word s2 -> rs_codeword M POLY NR FCR s2 ->
  sum_of s1 e (firstn len (view d1) ++ firstn NP (view p1)) -> sum_of s2 e (firstn len (view d2) ++ firstn NP (view p2)) ->
  exists d1' p1' d2' p2' er' z r,
    bch_decode A G K NP NR FCR imap d1 p1 er count len = Ok (d1', p1', er', z) /\
    bch_decode A G K NP NR FCR imap d2 p2 er count len = Ok (d2', p2', er', z) /\
    sum_of s1 r (firstn len (view d1') ++ firstn NP (view p1')) /\ sum_of s2 r (firstn len (view d2') ++ firstn NP (view p2')).
Proof.
  intros OD1 OP1 OD2 OP2 HS1 HS2 W1 C1 W2 C2 S1 S2.
  pose proof (rsp w M POLY G NR FCR K NP HPar ok view VI len er) as RP. destruct (params_ok _ _ _ _ _ _ RP) as (OK & EM & EP & H1 & H2 & H3).
  pose proof HPar as (P1 & P2 & P3 & P4 & P5 & P6 & P7 & P8). pose proof HS1 as (T1 & T2 & T3 & _). pose proof HS2 as (U1 & U2 & U3 & _).
  assert (Lu : length (firstn len (view d1) ++ firstn NP (view p1)) = (len + NP)%nat) by (rewrite app_length, !firstn_length; lia).
  destruct (sums_plus s1 s2 e _ _ _ Lu S1 S2) as (PL & L1 & L2 & _).
  assert (CC : rs_codeword M POLY NR FCR (addl s1 s2)) by (subst M POLY; apply (addl_codeword G OK); try assumption; lia).
  destruct (btranslate w M POLY G NR FCR K NP imap HPar HI A ok view AO VI len d1 p1 d2 p2 er count OD1 OP1 OD2 OP2 HS1 HS2 (addl s1 s2)) as (d1' & p1' & d2' & p2' & er' & z & E1 & E2 & O1 & O2 & O3 & O4 & P); try assumption.
  { apply addl_word; congruence || assumption. } { rewrite length_addl. exact L1. }
  destruct (btotal w M POLY G NR FCR K NP imap HPar HI A ok view AO VI len d1 p1 er count OD1 OP1 HS1) as (a & b & c & y & E & _ & _ & X1 & X2 & _). rewrite E1 in E. injection E as <- <- <- <-.
  destruct (btotal w M POLY G NR FCR K NP imap HPar HI A ok view AO VI len d2 p2 er count OD2 OP2 HS2) as (a & b & c & y & E & _ & _ & Y1 & Y2 & _). rewrite E2 in E. injection E as <- <- <- <-.
  destruct (plus_sums s1 s2 (firstn len (view d1') ++ firstn NP (view p1')) (firstn len (view d2') ++ firstn NP (view p2')) (len + NP)) as (Q1 & Q2); try assumption; try (rewrite app_length, !firstn_length; lia).
  exists d1', p1', d2', p2', er', z, (addl (firstn len (view d1') ++ firstn NP (view p1')) s1). split; [exact E1|]. split; [exact E2|]. split; [exact Q1|exact Q2].
Qed.
End B.

Theorem C78_bch_packed : forall w M POLY G NR FCR K NP imap, bch_params w M POLY G NR FCR K NP -> rs_imap G = Ok imap ->
  forall len data1 parity1 data2 parity2 er count sent1 sent2 errors, bytes data1 -> bytes parity1 -> bytes data2 -> bytes parity2 ->
  bch_sizes NR K NP len (8 * length data1) (8 * length parity1) er count -> bch_sizes NR K NP len (8 * length data2) (8 * length parity2) er count ->
  is_word sent1 -> rs_codeword M POLY NR FCR sent1 -> is_word sent2 -> rs_codeword M POLY NR FCR sent2 ->
  sum_of sent1 errors (firstn len (be_bits data1) ++ firstn NP (be_bits parity1)) -> sum_of sent2 errors (firstn len (be_bits data2) ++ firstn NP (be_bits parity2)) ->
  exists data1' parity1' data2' parity2' er' z residue,
    bch_decode (bch_packed G) G K NP NR FCR imap data1 parity1 er count len = Ok (data1', parity1', er', z) /\
    bch_decode (bch_packed G) G K NP NR FCR imap data2 parity2 er count len = Ok (data2', parity2', er', z) /\
    sum_of sent1 residue (firstn len (be_bits data1') ++ firstn NP (be_bits parity1')) /\ sum_of sent2 residue (firstn len (be_bits data2') ++ firstn NP (be_bits parity2')).
Proof.
  intros w M POLY G NR FCR K NP imap HPar HI len d1 p1 d2 p2 er count s1 s2 e B1 B2 B3 B4 HS1 HS2.
  refine (bch_both w M POLY G NR FCR K NP imap HPar HI (bch_packed G) bytes be_bits (packed_access G) be_bits_inj len d1 p1 d2 p2 er count s1 s2 e B1 B2 B3 B4 _ _); rewrite !length_be_bits; assumption.
Qed.
Print Assumptions C78_bch_packed.
Theorem C78_bch_reference : forall w M POLY G NR FCR K NP imap, bch_params w M POLY G NR FCR K NP -> rs_imap G = Ok imap ->
  forall len data1 parity1 data2 parity2 er count sent1 sent2 errors, is_word data1 -> is_word parity1 -> is_word data2 -> is_word parity2 ->
  bch_sizes NR K NP len (length data1) (length parity1) er count -> bch_sizes NR K NP len (length data2) (length parity2) er count ->
  is_word sent1 -> rs_codeword M POLY NR FCR sent1 -> is_word sent2 -> rs_codeword M POLY NR FCR sent2 ->
  sum_of sent1 errors (firstn len data1 ++ firstn NP parity1) -> sum_of sent2 errors (firstn len data2 ++ firstn NP parity2) ->
  exists data1' parity1' data2' parity2' er' z residue,
    bch_decode (bch_reference G) G K NP NR FCR imap data1 parity1 er count len = Ok (data1', parity1', er', z) /\
    bch_decode (bch_reference G) G K NP NR FCR imap data2 parity2 er count len = Ok (data2', parity2', er', z) /\
    sum_of sent1 residue (firstn len data1' ++ firstn NP parity1') /\ sum_of sent2 residue (firstn len data2' ++ firstn NP parity2').
Proof.
  intros w M POLY G NR FCR K NP imap HPar HI len d1 p1 d2 p2 er count s1 s2 e B1 B2 B3 B4. apply word_binary in B1, B2, B3, B4.
  exact (bch_both w M POLY G NR FCR K NP imap HPar HI (bch_reference G) binary (fun l => l) (reference_access G) (fun a b _ _ E => E) len d1 p1 d2 p2 er count s1 s2 e B1 B2 B3 B4).
Qed.
Print Assumptions C78_bch_reference.

(** ** concrete cases.  Three or more errors where two can be corrected: both decodings go to another codeword with two corrections; other errors are refused for both. *)
Ltac sums := split; [reflexivity|]; split; [reflexivity|]; let t := fresh in let H := fresh in intros t H; cbn in H; do 20 (try destruct t as [|t]); try reflexivity; exfalso; lia.
Example C78_reed_solomon_nonvacuous : exists imap, rs_params 8 4 19 gf16 4 1 /\ rs_imap gf16 = Ok imap /\
  let sent1 := [0; 0; 0; 0; 0; 0; 0] in let sent2 := [1; 2; 3; 2; 12; 7; 13] in let errors := [5; 0; 11; 12; 0; 0; 7] in
  rs_codeword 4 19 4 1 sent1 /\ rs_codeword 4 19 4 1 sent2 /\
  rs_buffers 4 4 3 [5; 0; 11; 9] [12; 0; 0; 7] [] 0 /\ rs_buffers 4 4 3 [4; 2; 8] [14; 12; 7; 10] [] 0 /\
  sum_of sent1 errors ([5; 0; 11] ++ [12; 0; 0; 7]) /\ sum_of sent2 errors ([4; 2; 8] ++ [14; 12; 7; 10]) /\
  rs_decode gf16 4 1 imap [5; 0; 11; 9] [12; 0; 0; 7] [] 0 3 = Ok ([5; 0; 11; 9], [12; 14; 10; 7], [], 2%Z) /\
  rs_decode gf16 4 1 imap [4; 2; 8] [14; 12; 7; 10] [] 0 3 = Ok ([4; 2; 8], [14; 2; 13; 10], [], 2%Z).
Proof.
  eexists. split; [rs_par|]. split; [vm_compute; reflexivity|]. cbv zeta.
  split; [apply codeword_check_iff; [lia|split; vm_compute; congruence|vm_compute; reflexivity]|].
  split; [apply codeword_check_iff; [lia|split; vm_compute; congruence|vm_compute; reflexivity]|].
  split; [repeat split; try (vm_compute; congruence); cbn; repeat (constructor; try (vm_compute; reflexivity)); try lia|].
  split; [repeat split; try (vm_compute; congruence); cbn; repeat (constructor; try (vm_compute; reflexivity)); try lia|].
  split; [sums|]. split; [sums|]. split; vm_compute; reflexivity.
Qed.
Example C78_bch_nonvacuous : exists imap, bch_params 8 4 19 gf16 6 1 5 10 /\ rs_imap gf16 = Ok imap /\
  let sent1 := repeat 0 14 in let sent2 := [1;0;1;0;0;1;1;0;1;1;1;0;0;0] in let errors := [0;1;1;0;1;0;0;0;0;0;0;1;0;0] in
  rs_codeword 4 19 6 1 sent1 /\ rs_codeword 4 19 6 1 sent2 /\ bch_sizes 6 5 10 4 8 24 [] 0 /\
  sum_of sent1 errors (firstn 4 (be_bits [96]) ++ firstn 10 (be_bits [129; 0; 9])) /\ sum_of sent2 errors (firstn 4 (be_bits [192]) ++ firstn 10 (be_bits [239; 0; 9])) /\
  bch_decode (bch_packed gf16) gf16 5 10 6 1 imap [96] [129; 0; 9] [] 0 4 = Ok ([96], [225; 64; 9], [], 3%Z) /\
  bch_decode (bch_packed gf16) gf16 5 10 6 1 imap [192] [239; 0; 9] [] 0 4 = Ok ([192], [143; 64; 9], [], 3%Z) /\
  bch_decode (bch_packed gf16) gf16 5 10 6 1 imap [48] [129; 0; 9] [] 0 4 = Ok ([48], [129; 0; 9], [], (-1)%Z) /\
  bch_decode (bch_packed gf16) gf16 5 10 6 1 imap [144] [239; 0; 9] [] 0 4 = Ok ([144], [239; 0; 9], [], (-1)%Z).
Proof.
  eexists. split; [repeat split; vm_compute; try congruence; try lia; reflexivity|]. split; [vm_compute; reflexivity|]. cbv zeta.
  split; [apply codeword_check_iff; [lia|split; vm_compute; congruence|vm_compute; reflexivity]|].
  split; [apply codeword_check_iff; [lia|split; vm_compute; congruence|vm_compute; reflexivity]|].
  split; [repeat split; try (vm_compute; lia); repeat (constructor; try (vm_compute; reflexivity))|].
  split; [sums|]. split; [sums|]. split; [vm_compute; reflexivity|]. split; [vm_compute; reflexivity|]. split; vm_compute; reflexivity.
Qed.
