(** C49 to C52 and C61: linear codes given by a generator matrix, and ordered statistics decoding. *)
From Coq Require Import ZifyBool ZifyNat ZifyN Permutation.
From Verif Require Import Cpp Lib_list Model_bits Spec_bits Proof_bits Spec_gf Model_gf Model_bch Spec_bch Proof_bch2 Proof_bch3 Proof_bch5 Prop_bch Model_osd Spec_osd Proof_osd1 Proof_osd2 Proof_osd4 Proof_osd6 Proof_osd7 Proof_osd8.
Ltac Zify.zify_post_hook ::= idtac.
Local Open Scope nat_scope.

(** C49 *)
Theorem C49_linear_encoder : forall N K codeword message genmat, 1 <= K -> bytes codeword -> bytes message ->
  N <= 8 * length codeword -> K <= 8 * length message -> N * K <= length genmat -> binary genmat ->
  exists codeword', linear_encode N K codeword message genmat = Ok codeword' /\ bytes codeword' /\ length codeword' = length codeword /\
    (forall i, i < N -> be_bit_of codeword' i = parity K (fun j => be_bit_of message j && entry N genmat j i)) /\
    (forall i, N <= i -> be_bit_of codeword' i = be_bit_of codeword i).
Proof.
  intros N K codeword message genmat HK BC BM LC LM LG HB. destruct (linear_encode_ok N K codeword message genmat HK BC BM LC LM LG HB) as (c & E & B & L & H).
  exists c. split; [exact E|]. split; [exact B|]. split; [exact L|]. split; intros i Hi; rewrite H.
  - replace (i <? N) with true by lia. reflexivity.
  - replace (i <? N) with false by lia. reflexivity.
Qed.
Print Assumptions C49_linear_encoder.
(** encoding 1011 with a systematic Hamming code *)
Definition hamming : list Z := [1;0;0;0;1;0;1; 0;1;0;0;1;1;1; 0;0;1;0;1;1;0; 0;0;0;1;0;1;1]%Z.
Lemma hamming_binary : binary hamming.
Proof. unfold binary, hamming. repeat (apply Forall_cons; [auto|]). constructor. Qed.
Example C49_nonvacuous : binary hamming /\ linear_encode 7 4 [255%N] [176%N] hamming = Ok [177%N].
Proof. split; [exact hamming_binary|vm_compute; reflexivity]. Qed.
(** with an even matrix value in the first row the encoder takes bit 0, with one in another row it takes the value to be true *)
Example C49_needs_binary : linear_encode 1 1 [0%N] [128%N] [2%Z] = Ok [0%N] /\ linear_encode 1 2 [0%N] [64%N] [0%Z; 2%Z] = Ok [128%N].
Proof. split; vm_compute; reflexivity. Qed.

(** C50: [allowed] minimal polynomials are odd, larger than 1 and fit an int *)
Theorem C50_generator_matrix : forall N K genmat systematic ms, 1 <= K < N -> length genmat = N * K ->
  Forall (fun m => N.odd m = true /\ 1 < m < 2 ^ 31)%N ms -> has_degree (poly_product ms) (N.of_nat (N - K)) ->
  exists genmat', osd_matrix N K genmat systematic ms = Ok genmat' /\ length genmat' = N * K /\ binary genmat' /\ full_rank N K (entry N genmat') /\
    (forall c, in_code N K (entry N genmat') c <-> poly_divides (poly_product ms) (poly_of N c)) /\
    (systematic = false -> forall j, j < K -> poly_of N (entry N genmat' j) = clmul (2 ^ N.of_nat (K - 1 - j)) (poly_product ms)) /\
    (systematic = true -> forall j i, j < K -> i < K -> entry N genmat' j i = (j =? i)).
Proof.
  intros N K genmat systematic ms HK HL HM HD. apply has_degree_log2 in HD. destruct HD as (_ & HD).
  destruct (matrix_ok N K genmat systematic ms HK HL) as (G & E & L & B & R & C & S1 & S2); [apply Forall_impl with (2 := HM); intros m (Ho & Hm); split; [exact Ho|lia]|exact HD|].
  exists G. split; [exact E|]. split; [exact L|]. split; [exact B|]. split; [exact R|]. split; [exact C|]. split; [|exact S2].
  intros HS j Hj. rewrite (S1 HS j Hj). symmetry. apply Lib_gf.clmul_pow2.
Qed.
Print Assumptions C50_generator_matrix.
Theorem C50_generator_polynomial : forall NP genpoly ms, 1 <= NP -> NP < length genpoly ->
  Forall (fun m => N.odd m = true /\ 1 < m < 2 ^ 31)%N ms -> has_degree (poly_product ms) (N.of_nat NP) ->
  exists genpoly', osd_poly NP genpoly ms = Ok genpoly' /\ length genpoly' = length genpoly /\
    Forall (fun x => x = 0 \/ x = 1)%Z (firstn (NP + 1) genpoly') /\ skipn (NP + 1) genpoly' = skipn (NP + 1) genpoly /\
    poly_of (NP + 1) (fun i => negb (nth i genpoly' 0 =? 0)%Z) = poly_product ms.
Proof.
  intros NP genpoly ms HNP HL HM HD. apply has_degree_log2 in HD. destruct HD as (_ & HD).
  destruct (proj1 (poly_ok NP genpoly ms HNP HL ltac:(apply Forall_impl with (2 := HM); intros m (Ho & Hm); split; [exact Ho|lia])) HD) as (G & E & L & HV & HT & HO).
  exists G. split; [exact E|]. split; [exact L|]. split; [|split].
  - apply Forall_forall. intros x Hx. apply (In_nth _ _ 0%Z) in Hx. destruct Hx as (i & Hi & <-). rewrite firstn_length in Hi. rewrite nth_firstn by lia.
    specialize (HT (NP - i) ltac:(lia)). replace (NP - (NP - i)) with i in HT by lia. rewrite HT. destruct (N.testbit _ _); auto.
  - apply (list_ext _ _ 0%Z); [rewrite !skipn_length; lia|]. intros i Hi. rewrite !nth_skipn'. apply HO. lia.
  - rewrite <- (word_poly_bits (NP + 1) (poly_product ms) HV). unfold poly_of. f_equal. apply map_ext_in. intros i Hi. apply in_seq in Hi. f_equal.
    specialize (HT (NP - i) ltac:(lia)). replace (NP - (NP - i)) with i in HT by lia. rewrite HT. replace (NP + 1 - 1 - i) with (NP - i) by lia. destruct (N.testbit _ _); reflexivity.
Qed.
Print Assumptions C50_generator_polynomial.
(** polynomials of the wrong degree, zero and even ones make an assertion fail *)
Theorem C50_wrong_polynomials_rejected : forall N K genmat systematic ms, 1 <= K < N -> length genmat = N * K ->
  (Forall (fun m => N.odd m = true /\ 1 < m < 2 ^ 31)%N ms /\ ~ has_degree (poly_product ms) (N.of_nat (N - K))) \/
  (exists ms1 m ms2, ms = ms1 ++ m :: ms2 /\ Forall (fun m => N.odd m = true /\ 1 < m < 2 ^ 31)%N ms1 /\ N.odd m = false) ->
  osd_matrix N K genmat systematic ms = Abort.
Proof.
  intros N K genmat systematic ms HK HL [(HM & HD)|(ms1 & m & ms2 & -> & HM & Ho)].
  - apply (matrix_abort N K genmat systematic ms HK HL); [apply Forall_impl with (2 := HM); intros m (Ho & Hm); split; [exact Ho|lia]|].
    intros E. apply HD. apply has_degree_log2. split; [|exact E]. apply product_pos. apply Forall_impl with (2 := HM). intros m (_ & Hm). lia.
  - assert (NK : N <= N * K) by (assert (N * 1 <= N * K) by (apply Nat.mul_le_mono_l; lia); lia).
    unfold osd_matrix. cbv zeta. enough (E : osd_poly (N - K) genmat (ms1 ++ m :: ms2) = Abort) by (rewrite E; reflexivity).
    apply poly_rejects; [lia|lia| |exact Ho]. apply Forall_impl with (2 := HM). intros x (Hx & Hx'). split; [exact Hx|lia].
Qed.
Print Assumptions C50_wrong_polynomials_rejected.
Example C50_nonvacuous : Forall (fun m => N.odd m = true /\ 1 < m < 2 ^ 31)%N [19; 31]%N /\ has_degree (poly_product [19; 31]%N) (N.of_nat (15 - 7)) /\
  osd_matrix 7 4 (repeat 9%Z 28) true [11%N] = Ok hamming /\ osd_matrix 7 4 (repeat 9%Z 28) false [11%N] = Ok [1;0;1;1;0;0;0; 0;1;0;1;1;0;0; 0;0;1;0;1;1;0; 0;0;0;1;0;1;1]%Z /\
  (exists g, osd_matrix 15 7 (repeat 9%Z 105) true [19; 31]%N = Ok g).
Proof.
  split; [repeat constructor; reflexivity|]. split; [split; vm_compute; congruence|]. split; [vm_compute; reflexivity|]. split; [vm_compute; reflexivity|]. eexists. vm_compute. reflexivity.
Qed.
(** the trivial polynomial 1 after a complete product reads before the array *)
Example C50_trivial_polynomial_undefined : osd_matrix 7 4 (repeat 9%Z 28) true [11%N; 1%N] = Undef.
Proof. vm_compute. reflexivity. Qed.

(** C51: the sizes of the members of OrderedStatisticsDecoder and OrderedStatisticsListDecoder *)
Definition osd_object (N K L : nat) (o : osd_members) : Prop :=
  length (om_G o) = osd_W N * K /\ length (om_codeword o) = osd_W N /\ length (om_candidate o) = osd_W N * L /\
  length (om_softperm o) = osd_W N /\ length (om_perm o) = osd_W N /\ N <= length (om_tmp o).
Theorem C51_ordered_statistics : forall N K O o hard soft genmat, 1 <= K <= N -> (Z.of_nat N <= 32768)%Z ->
  osd_object N K 1 o -> bytes hard -> N <= 8 * length hard -> Forall int8 soft -> N <= length soft ->
  N * K <= length genmat -> binary genmat -> full_rank N K (entry N genmat) ->
  exists hard' unique B, osd_decode N K O o hard soft genmat = Ok (hard', unique) /\
    bytes hard' /\ length hard' = length hard /\ (forall p, N <= p -> be_bit_of hard' p = be_bit_of hard p) /\
    most_reliable_basis N K (entry N genmat) soft B /\
    searched N K (entry N genmat) soft B (min O 6) (be_bit_of hard') /\
    (forall c, searched N K (entry N genmat) soft B (min O 6) c -> (correlation N soft c <= correlation N soft (be_bit_of hard'))%Z) /\
    ((0 <= correlation N soft (be_bit_of hard'))%Z ->
      (unique = true <-> forall c, searched N K (entry N genmat) soft B (min O 6) c ->
         correlation N soft c = correlation N soft (be_bit_of hard') -> agree N c (be_bit_of hard'))).
Proof.
  intros N K O o hard soft genmat HK HN (H1 & H2 & H3 & H4 & H5 & H6) HB HL HI HS HG HBi HR.
  apply decode_single; auto; [|lia]. unfold osd_sizes. auto.
Qed.
Print Assumptions C51_ordered_statistics.
(** the set of positions of a most reliable basis is determined by the code and the soft values *)
Theorem C51_basis_unique : forall N K M soft B B', Forall int8 soft -> most_reliable_basis N K M soft B -> most_reliable_basis N K M soft B' -> Permutation B B'.
Proof.
  intros N K M soft B B' HI HB HB'. apply NoDup_Permutation; [apply HB|apply HB'|]. apply (basis_unique N K M soft); assumption.
Qed.
Print Assumptions C51_basis_unique.
(** with order at least K (and K at most six) the result is a maximum likelihood decision *)
Theorem C51_maximum_likelihood : forall N K O o hard soft genmat, 1 <= K <= N -> (Z.of_nat N <= 32768)%Z -> K <= O -> K <= 6 ->
  osd_object N K 1 o -> bytes hard -> N <= 8 * length hard -> Forall int8 soft -> N <= length soft ->
  N * K <= length genmat -> binary genmat -> full_rank N K (entry N genmat) ->
  exists hard' unique, osd_decode N K O o hard soft genmat = Ok (hard', unique) /\ in_code N K (entry N genmat) (be_bit_of hard') /\
    forall c, in_code N K (entry N genmat) c -> (correlation N soft c <= correlation N soft (be_bit_of hard'))%Z.
Proof.
  intros N K O o hard soft genmat HK HN HO H6 HOb HB HL HI HS HG HBi HR.
  destruct (C51_ordered_statistics N K O o hard soft genmat HK HN HOb HB HL HI HS HG HBi HR) as (hard' & unique & B & E & _ & _ & _ & MB & (HC & _) & HM & _).
  exists hard', unique. split; [exact E|]. split; [exact HC|]. intros c Hc. apply HM. split; [exact Hc|]. pose proof (flips_le soft B c). destruct MB as (_ & LB & _). lia.
Qed.
Print Assumptions C51_maximum_likelihood.

Definition fresh (N K L : nat) : osd_members :=
  {| om_G := repeat 77%Z (osd_W N * K); om_codeword := repeat 5%Z (osd_W N); om_candidate := repeat 6%Z (osd_W N * L); om_softperm := repeat 7%Z (osd_W N);
     om_perm := repeat 8 (osd_W N); om_tmp := repeat None N |}.
Lemma hamming_rank : full_rank 7 4 (entry 7 hamming).
Proof.
  destruct (C50_generator_matrix 7 4 (repeat 9%Z 28) true [11%N]) as (G & E & _ & _ & R & _); [lia|reflexivity|repeat constructor; reflexivity|split; vm_compute; congruence|].
  assert (E' : osd_matrix 7 4 (repeat 9%Z 28) true [11%N] = Ok hamming) by (vm_compute; reflexivity). rewrite E' in E. injection E as <-. exact R.
Qed.
(** 1011000 with one unreliable wrong bit *)
Example C51_nonvacuous : osd_object 7 4 1 (fresh 7 4 1) /\ binary hamming /\ full_rank 7 4 (entry 7 hamming) /\
  osd_decode 7 4 1 (fresh 7 4 1) [1%N] [-50; 40; 10; -128; 60; 30; 127]%Z hamming = Ok ([177%N], true).
Proof. split; [repeat split; vm_compute; lia|]. split; [exact hamming_binary|]. split; [exact hamming_rank|]. vm_compute. reflexivity. Qed.
(** when the best correlation is negative the returned flag says nothing: the three times repeated bit, order 0 *)
Example C51_negative_best : osd_decode 3 1 0 (fresh 3 1 1) [255%N] [3; -2; -2]%Z [1; 1; 1]%Z = Ok ([31%N], false).
Proof. vm_compute. reflexivity. Qed.

(** C52 *)
Theorem C52_ordered_statistics_list : forall N K O L o score cperm rank hard soft genmat, 1 <= K <= N -> (Z.of_nat N <= 32768)%Z -> 1 <= L ->
  osd_object N K L o -> length score = L -> length cperm = L -> L <= length rank ->
  bytes hard -> L * ((N + 7) / 8) <= length hard -> Forall int8 soft -> N <= length soft ->
  N * K <= length genmat -> binary genmat -> full_rank N K (entry N genmat) ->
  let word h j := fun p => be_bit_of h (8 * (j * ((N + 7) / 8)) + p) in
  exists rank' hard' n B, osdl_decode N K O L o score cperm rank hard soft genmat = Ok (rank', hard') /\
    bytes hard' /\ length hard' = length hard /\ length rank' = length rank /\
    (forall p, (forall j, j < L -> ~ 8 * (j * ((N + 7) / 8)) <= p < 8 * (j * ((N + 7) / 8)) + N) -> be_bit_of hard' p = be_bit_of hard p) /\
    (forall j, L <= j -> nth j rank' 0%Z = nth j rank 0%Z) /\
    most_reliable_basis N K (entry N genmat) soft B /\ n <= L /\
    (* the first n words are distinct codewords of the search set, best first *)
    (forall j, j < n -> searched N K (entry N genmat) soft B (min O 6) (word hard' j) /\ (0 <= correlation N soft (word hard' j))%Z) /\
    (forall i j, i < j < n -> (correlation N soft (word hard' j) <= correlation N soft (word hard' i))%Z /\ ~ agree N (word hard' i) (word hard' j)) /\
    (* and no better one is missing *)
    (forall c, searched N K (entry N genmat) soft B (min O 6) c -> (0 <= correlation N soft c)%Z ->
       (exists j, j < n /\ agree N c (word hard' j)) \/ (n = L /\ forall j, j < n -> (correlation N soft c <= correlation N soft (word hard' j))%Z)) /\
    searched N K (entry N genmat) soft B (min O 6) (word hard' 0) /\
    (* the ranks *)
    nth 0 rank' 0%Z = 0%Z /\
    (forall j, S j < n -> nth (S j) rank' 0%Z = (nth j rank' 0 + if correlation N soft (word hard' j) =? correlation N soft (word hard' (S j)) then 0 else 1)%Z).
Proof.
  intros N K O L o score cperm rank hard soft genmat HK HN HL (H1 & H2 & H3 & H4 & H5 & H6) LS LC LR HB HLh HI HS HG HBi HR.
  apply decode_list; auto. unfold osd_sizes. auto.
Qed.
Print Assumptions C52_ordered_statistics_list.
Example C52_nonvacuous : osd_object 7 4 4 (fresh 7 4 4) /\
  osdl_decode 7 4 2 4 (fresh 7 4 4) [9;9;9;9]%Z [9;9;9;9] [7;7;7;7]%Z [1;1;1;1]%N [-50; 40; 10; -128; 60; 30; 127]%Z hamming = Ok ([0;1;2;3]%Z, [177; 157; 117; 89]%N).
Proof. split; [repeat split; vm_compute; lia|]. vm_compute. reflexivity. Qed.

(** entries that were not filled show whatever the object held before: the code has two words, three are asked for *)
Example C52_unfilled_entry : osdl_decode 3 1 1 3 (fresh 3 1 3) [9;9;9]%Z [9;9;9] [7;7;7]%Z [1;1;1]%N [3; -2; -2]%Z [1;1;1]%Z = Ok ([0;1;1]%Z, [225; 1; 225]%N).
Proof. vm_compute. reflexivity. Qed.

(** C61: encoding with the systematic generator matrix gives the same codeword as the BCH encoder *)
Theorem C61_encoders_agree : forall N K genmat ms data parity codeword, 1 <= K < N -> length genmat = N * K ->
  Forall (fun m => N.odd m = true /\ 1 < m < 2 ^ 31)%N ms -> has_degree (poly_product ms) (N.of_nat (N - K)) ->
  bytes data -> bytes parity -> bytes codeword -> K <= 8 * length data -> N - K <= 8 * length parity -> N <= 8 * length codeword ->
  exists genmat' generator codeword' parity', osd_matrix N K genmat true ms = Ok genmat' /\ bch_generator (N - K) ms = Ok generator /\
    linear_encode N K codeword data genmat' = Ok codeword' /\ bch_encode K (N - K) generator data parity K = Ok parity' /\
    firstn N (be_bits codeword') = firstn K (be_bits data) ++ firstn (N - K) (be_bits parity').
Proof.
  intros N K genmat ms data parity codeword HK HL HM HD BD BP BC LD LP LC.
  destruct (C50_generator_matrix N K genmat true ms HK HL HM HD) as (G & E1 & L1 & B1 & R1 & C1 & _ & S1).
  destruct (C36_packed_encoder K (N - K) ms ltac:(lia) ltac:(apply Forall_impl with (2 := HM); intros m (_ & Hm); lia) HD) as (gen & E2 & _ & _ & _ & HE).
  destruct (HE K data parity BD BP ltac:(lia) LD LP) as (par & E3 & BPr & LPr & DV & _).
  destruct (C49_linear_encoder N K codeword data G ltac:(lia) BC BD LC LD ltac:(lia) B1) as (cw & E4 & BCw & LCw & HC & _).
  exists G, gen, cw, par. split; [exact E1|]. split; [exact E2|]. split; [exact E4|]. split; [exact E3|].
  assert (SYS : forall i, i < K -> be_bit_of cw i = be_bit_of data i).
  { intros i Hi. rewrite HC by lia. rewrite (parity_one K _ i Hi); [rewrite S1, Nat.eqb_refl, andb_true_r by auto; reflexivity|]. intros j Hj Hne. rewrite S1 by auto. replace (j =? i) with false by lia. apply andb_false_r. }
  assert (WL : firstn N (be_bits cw) = map (fun i => N.b2n (be_bit_of cw i)) (seq 0 N)).
  { apply (list_ext _ _ 0%N); [rewrite firstn_length, map_length, seq_length, length_be_bits; lia|]. intros i Hi. rewrite firstn_length, length_be_bits in Hi. rewrite nth_firstn, nth_map_seq, nth_be_bits by lia. replace (i <? N) with true by lia. reflexivity. }
  assert (DC : poly_divides (poly_product ms) (word_poly (firstn N (be_bits cw)))).
  { rewrite WL. apply (C1 (be_bit_of cw)). exists (be_bit_of data). exact HC. }
  assert (SP : firstn N (be_bits cw) = firstn K (be_bits data) ++ firstn (N - K) (skipn K (be_bits cw))).
  { transitivity (firstn K (be_bits cw) ++ firstn (N - K) (skipn K (be_bits cw))).
    - rewrite <- (firstn_skipn K (be_bits cw)) at 1. replace N with (length (firstn K (be_bits cw)) + (N - K)) at 1 by (rewrite firstn_length, length_be_bits; lia). apply firstn_app_2.
    - f_equal. apply (list_ext _ _ 0%N); [rewrite !firstn_length, !length_be_bits; lia|]. intros i Hi. rewrite firstn_length in Hi. rewrite !nth_firstn, !nth_be_bits, SYS by lia. reflexivity. }
  rewrite SP in DC |- *. f_equal. apply (C36_parity_unique (N - K) (poly_product ms) (firstn K (be_bits data))); try assumption; try lia.
  - apply is_word_firstn, is_word_be_bits.
  - apply is_word_firstn. unfold is_word. rewrite Forall_forall. intros x Hx. pose proof (is_word_be_bits cw) as HW. unfold is_word in HW. rewrite Forall_forall in HW. apply HW. rewrite <- (firstn_skipn K (be_bits cw)). apply in_or_app. right. exact Hx.
  - apply is_word_firstn, is_word_be_bits.
  - rewrite firstn_length, skipn_length, length_be_bits. lia.
  - rewrite firstn_length, length_be_bits. lia.
Qed.
Print Assumptions C61_encoders_agree.
Example C61_nonvacuous : (genmat' <- osd_matrix 7 4 (repeat 9%Z 28) true [11%N] ;; generator <- bch_generator 3 [11%N] ;;
  c <- linear_encode 7 4 [0%N] [176%N] genmat' ;; p <- bch_encode 4 3 generator [176%N] [0%N] 4 ;; Ok (firstn 7 (be_bits c), firstn 3 (be_bits p))) = Ok ([1; 0; 1; 1; 0; 0; 0]%N, [0; 0; 0]%N).
Proof. vm_compute. reflexivity. Qed.
