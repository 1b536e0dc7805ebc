(** Properties C36 and C37: bose_chaudhuri_hocquenghem_encoder.hh, bose_chaudhuri_hocquenghem_decoder.hh.
    A code of K data bits and NP parity bits.  A word is the list of the first [len] data bits followed by the NP parity bits. *)
From Coq Require Import ZifyBool ZifyNat ZifyN.
From Verif Require Import Cpp Lib_list Proof_bits Model_bits Spec_bits Model_gf Model_rs Model_bch Spec_gf Spec_rs Spec_bch Lib_gf2lin Lib_gf2poly Lib_gf Proof_gf Proof_rs5 Proof_rs6 Proof_bch1 Proof_bch2 Proof_bch3 Proof_bch4 Proof_bch5 Prop_rs.
Local Open Scope N_scope.

(** C36, packed encoder: the generator is the product (its leading coefficient is not stored), data and parity are a multiple of it, the rest of the last
    parity byte is zero, further bytes are untouched *)
Theorem C36_packed_encoder : forall K NP ms, (1 <= NP)%nat -> Forall (fun m => 0 < m < 2 ^ 31) ms -> has_degree (poly_product ms) (N.of_nat NP) ->
  exists gen, bch_generator NP ms = Ok gen /\ length gen = ((NP + 8) / 8)%nat /\
  word_poly (1 :: firstn NP (be_bits gen)) = poly_product ms /\ Forall (fun b => b = 0) (skipn NP (be_bits gen)) /\
  forall len data parity, bytes data -> bytes parity -> (1 <= len <= K)%nat -> (len <= 8 * length data)%nat -> (NP <= 8 * length parity)%nat ->
  exists parity', bch_encode K NP gen data parity len = Ok parity' /\ bytes parity' /\ length parity' = length parity /\
    poly_divides (poly_product ms) (word_poly (firstn len (be_bits data) ++ firstn NP (be_bits parity'))) /\
    (forall i, (NP <= i < 8 * ((NP + 7) / 8))%nat -> nth i (be_bits parity') 0 = 0) /\
    skipn ((NP + 7) / 8) parity' = skipn ((NP + 7) / 8) parity.
Proof.
  intros K NP ms HNP HM HD. pose proof HD as HD'. apply has_degree_log2 in HD'. destruct HD' as (G0 & GL).
  destruct (proj1 (generator_ok NP HNP ms ltac:(revert HM; apply Forall_impl; intros m Hm; lia)) GL) as (gen & E & HG). exists gen. split; [exact E|].
  pose proof HG as (GB & GLen & GT). split; [rewrite GLen; f_equal; lia|]. split; [|split].
  - set (g := poly_product ms) in *.
    assert (EW : firstn NP (be_bits gen) = map (fun i => N.b2n (N.testbit (g mod 2 ^ N.of_nat NP) (N.of_nat (NP - 1 - i)))) (seq 0 NP)).
    { apply (list_ext _ _ 0); [rewrite firstn_length, map_length, seq_length, length_be_bits, GLen; lia|].
      intros i Hi. rewrite firstn_length, length_be_bits in Hi. rewrite nth_firstn', nth_map_seq, nth_be_bits, GT. replace (i <? NP)%nat with true by lia. cbn [andb]. rewrite tb_mod.
      cbn [Nat.add]. replace (N.of_nat (NP - 1 - i) <? N.of_nat NP) with true by lia. rewrite andb_true_r. reflexivity. }
    change (1 :: firstn NP (be_bits gen)) with ([1] ++ firstn NP (be_bits gen)). rewrite word_poly_app by (try (apply is_word_firstn, is_word_be_bits); repeat constructor; auto).
    rewrite EW, map_length, seq_length, word_poly_bits by (apply N.mod_lt, N.pow_nonzero; discriminate). change (word_poly [1]) with 1.
    apply N.bits_inj. intros i. rewrite N.lxor_spec, tb_mod, tb_shiftl. destruct (N.ltb_spec i (N.of_nat NP)) as [C|C].
    + replace (N.of_nat NP <=? i) with false by lia. rewrite andb_true_r. cbn [andb]. apply xorb_false_l.
    + replace (N.of_nat NP <=? i) with true by lia. rewrite andb_false_r, xorb_false_r. cbn [andb]. destruct (N.eq_dec i (N.of_nat NP)) as [->|Hne].
      * rewrite N.sub_diag. rewrite <- GL. symmetry. rewrite N.bit_log2 by exact G0. reflexivity.
      * rewrite (N.bits_above_log2 g i) by lia. rewrite (N.bits_above_log2 1) by (cbn; lia). reflexivity.
  - apply Forall_nth. intros i d Hi. rewrite (nth_indep _ d 0), nth_skipn', nth_be_bits, GT by exact Hi. replace (NP + i <? NP)%nat with false by lia. reflexivity.
  - intros len data parity BD BP Hl HLD HLP. destruct (encode_ok NP HNP K gen _ data parity len HD HG BD BP Hl HLD ltac:(lia)) as (par' & EE & P & HP & HV).
    exists par'. pose proof (prep_word NP parity par' P HNP HP HLP) as EP. destruct HP as (B & L & HPn & HT & HTl). split; [exact EE|]. split; [exact B|]. split; [exact L|]. split; [|split].
    + rewrite word_poly_app, EP, firstn_length, length_be_bits by apply is_word_firstn, is_word_be_bits. replace (Nat.min NP (8 * length par')) with NP by lia. exact HV.
    + intros i Hi. rewrite nth_be_bits, HT by lia. replace (i <? NP)%nat with false by lia. reflexivity.
    + apply (list_ext _ _ 0); [rewrite !skipn_length; lia|]. intros i Hi. rewrite !nth_skipn'. apply HTl. lia.
Qed.
Print Assumptions C36_packed_encoder.

(** a list whose product has another degree than NP is rejected by an assertion *)
Theorem C36_wrong_degree_rejected : forall NP ms, (1 <= NP)%nat -> Forall (fun m => 0 < m < 2 ^ 31) ms -> ~ has_degree (poly_product ms) (N.of_nat NP) ->
  bch_generator NP ms = Abort.
Proof.
  intros NP ms HNP HM HD. apply (generator_ok NP HNP ms); [revert HM; apply Forall_impl; intros m Hm; lia|]. intros E. apply HD. apply has_degree_log2. split; [|exact E].
  apply product_pos. revert HM. apply Forall_impl. intros m Hm. lia.
Qed.
Print Assumptions C36_wrong_degree_rejected.

(** C36, reference encoder: one value per bit; the generator array has the lowest coefficient first *)
Theorem C36_reference_encoder : forall w M POLY G K NP ms, 1 <= M -> M <= w -> has_degree POLY M -> gf_create w M POLY = Ok G ->
  (1 <= NP)%nat -> Forall (fun m => 2 <= m < 2 ^ (M + 1)) ms -> has_degree (poly_product ms) (N.of_nat NP) ->
  exists gen, bchref_generator G NP ms = Ok gen /\ is_word gen /\ length gen = (NP + 1)%nat /\ word_poly (rev gen) = poly_product ms /\
  forall len data parity, is_word data -> (1 <= len <= K)%nat -> (len <= length data)%nat -> (NP <= length parity)%nat ->
  exists parity', bchref_encode G K NP gen data parity len = Ok parity' /\ is_word (firstn NP parity') /\ length parity' = length parity /\
    poly_divides (poly_product ms) (word_poly (firstn len data ++ firstn NP parity')) /\
    skipn NP parity' = skipn NP parity.
Proof.
  intros w M POLY G K NP ms H1 H2 H3 H4 HNP HM HD. destruct (create_ok w M POLY G H1 H2 H3 H4) as (OK & _ & EM & _). pose proof HD as HD'. apply has_degree_log2 in HD'. destruct HD' as (G0 & GL).
  destruct (refgenerator_ok NP HNP G OK ms ltac:(rewrite EM; exact HM) GL) as (gen & E & HG). exists gen. split; [exact E|]. pose proof HG as (GLen & GV & GT).
  split. { apply Forall_nth. intros i d Hi. rewrite (nth_indep _ d 0), GT by lia. destruct (N.testbit _ _); auto. }
  split; [lia|]. split.
  - assert (ER : rev gen = map (fun i => N.b2n (N.testbit (poly_product ms) (N.of_nat (NP + 1 - 1 - i)))) (seq 0 (NP + 1))).
    { apply (list_ext _ _ 0); [rewrite rev_length, map_length, seq_length; lia|]. intros i Hi. rewrite rev_length in Hi. rewrite rev_nth, nth_map_seq, GT by lia. replace (i <? NP + 1)%nat with true by lia. do 3 f_equal. lia. }
    rewrite ER. apply word_poly_bits. exact GV.
  - intros len data parity WD Hl HLD HLP. destruct (refencode_ok NP HNP G OK K gen _ data parity len HD HG WD Hl HLD HLP) as (par' & EE & P & HP & HV).
    exists par'. pose proof (vrep_word NP parity par' P HNP HP HLP) as EP. destruct HP as (L & HPn & HT & HTl). split; [exact EE|]. split; [rewrite EP; apply is_word_b2n|]. split; [exact L|]. split.
    + rewrite word_poly_app by (try (rewrite EP; apply is_word_b2n); apply is_word_firstn; exact WD). rewrite EP, map_length, seq_length, word_poly_bits by exact HPn. exact HV.
    + apply (list_ext _ _ 0); [rewrite !skipn_length; lia|]. intros i Hi. rewrite !nth_skipn'. apply HTl. lia.
Qed.
Print Assumptions C36_reference_encoder.

(** the parity is determined by the data *)
Theorem C36_parity_unique : forall NP g d p q, (1 <= NP)%nat -> has_degree g (N.of_nat NP) -> is_word d -> is_word p -> is_word q -> length p = NP -> length q = NP ->
  poly_divides g (word_poly (d ++ p)) -> poly_divides g (word_poly (d ++ q)) -> p = q.
Proof.
  intros NP g d p q HNP HD Wd Wp Wq Lp Lq Dp Dq. rewrite word_poly_app in Dp, Dq by assumption. rewrite Lp in Dp. rewrite Lq in Dq.
  apply word_poly_inj; try assumption; [congruence|]. apply (divides_unique g (N.of_nat NP) (N.shiftl (word_poly d) (N.of_nat NP))); try assumption; [lia| |].
  - rewrite <- Lp. apply word_poly_bound. exact Wp.
  - rewrite <- Lq. apply word_poly_bound. exact Wq.
Qed.
Print Assumptions C36_parity_unique.

(** C36: both encoders, given the same bits, make the same parity bits *)
Theorem C36_packed_equals_reference : forall w M POLY G K NP ms gen genr, 1 <= M -> M <= w -> M < 31 -> has_degree POLY M -> gf_create w M POLY = Ok G ->
  (1 <= NP)%nat -> Forall (fun m => 2 <= m < 2 ^ (M + 1)) ms -> bch_generator NP ms = Ok gen -> bchref_generator G NP ms = Ok genr ->
  forall len data parity datar parityr, bytes data -> bytes parity -> is_word datar -> (1 <= len <= K)%nat -> (len <= 8 * length data)%nat -> (len <= length datar)%nat ->
  (NP <= 8 * length parity)%nat -> (NP <= length parityr)%nat ->
  firstn len (be_bits data) = firstn len datar ->
  exists parity' parityr', bch_encode K NP gen data parity len = Ok parity' /\ bchref_encode G K NP genr datar parityr len = Ok parityr' /\
    firstn NP (be_bits parity') = firstn NP parityr'.
Proof.
  intros w M POLY G K NP ms gen genr H1 H2 H31 H3 H4 HNP HM EG EGr.
  assert (HM' : Forall (fun m => 0 < m < 2 ^ 31) ms).
  { revert HM. apply Forall_impl. intros m Hm. assert (2 ^ (M + 1) <= 2 ^ 31) by (apply N.pow_le_mono_r; lia). lia. }
  assert (HD : has_degree (poly_product ms) (N.of_nat NP)).
  { apply has_degree_log2. split; [apply product_pos; revert HM'; apply Forall_impl; intros m Hm; lia|].
    destruct (N.eq_dec (N.log2 (poly_product ms)) (N.of_nat NP)) as [E|E]; [exact E|].
    rewrite (proj2 (generator_ok NP HNP ms ltac:(revert HM'; apply Forall_impl; intros m Hm; lia)) E) in EG. discriminate. }
  intros len data parity datar parityr BD BP WD Hl HLD HLDr HLP HLPr EQ.
  destruct (C36_packed_encoder K NP ms HNP HM' HD) as (g1 & E1 & _ & _ & _ & S1). rewrite EG in E1. injection E1 as <-.
  destruct (C36_reference_encoder w M POLY G K NP ms H1 H2 H3 H4 HNP HM HD) as (g2 & E2 & _ & _ & _ & S2). rewrite EGr in E2. injection E2 as <-.
  destruct (S1 len data parity BD BP Hl HLD HLP) as (p1 & P1 & B1 & L1 & D1 & _). destruct (S2 len datar parityr WD Hl HLDr HLPr) as (p2 & P2 & W2 & L2 & D2 & _).
  exists p1, p2. split; [exact P1|]. split; [exact P2|].
  apply (C36_parity_unique NP (poly_product ms) (firstn len datar)); try assumption.
  - apply is_word_firstn. exact WD.
  - apply is_word_firstn, is_word_be_bits.
  - rewrite firstn_length, length_be_bits. lia.
  - rewrite firstn_length. lia.
  - rewrite <- EQ. exact D1.
Qed.
Print Assumptions C36_packed_equals_reference.

(** ** C37 *)
(** a word divisible by a generator that vanishes at the NR powers from x^FCR vanishes there as well *)
Theorem C37_multiples_are_codewords : forall w M POLY G NR FCR, 1 <= M -> M <= w -> has_degree POLY M -> gf_create w M POLY = Ok G ->
  forall g cw, is_word g -> rs_codeword M POLY NR FCR g -> is_word cw -> poly_divides (word_poly g) (word_poly cw) -> rs_codeword M POLY NR FCR cw.
Proof.
  intros w M POLY G NR FCR H1 H2 H3 H4. destruct (create_ok w M POLY G H1 H2 H3 H4) as (OK & _ & <- & <-). intros g cw Wg CG W D. apply (divisible_codeword G OK NR FCR g cw); assumption.
Qed.
Print Assumptions C37_multiples_are_codewords.

(** [cw] is the transmitted word, the buffers hold what was received.  The only exception is that of C55. *)
Theorem C37_packed_corrects : forall w M POLY G NR FCR K NP imap, bch_params w M POLY G NR FCR K NP -> rs_imap G = Ok imap ->
  forall len data parity er count cw, bytes data -> bytes parity -> bch_sizes NR K NP len (8 * length data) (8 * length parity) er count -> NoDup (firstn count er) ->
  is_word cw -> rs_codeword M POLY NR FCR cw -> length cw = (len + NP)%nat ->
  let rw := firstn len (be_bits data) ++ firstn NP (be_bits parity) in
  let errors := errors_outside (firstn count er) cw rw in
  (2 * length errors + count <= NR)%nat ->
  (forall a b, a <> b -> (forall t, In (N.of_nat t) (firstn count er) \/ In t errors <-> t = a \/ t = b) -> ~ unlucky_pair M POLY (len + NP) a b) ->
  exists data' parity' er', bch_decode (bch_packed G) G K NP NR FCR imap data parity er count len = Ok (data', parity', er', Z.of_nat (length (differing cw rw))) /\
    bytes data' /\ bytes parity' /\ firstn len (be_bits data') ++ firstn NP (be_bits parity') = cw /\
    skipn len (be_bits data') = skipn len (be_bits data) /\ skipn NP (be_bits parity') = skipn NP (be_bits parity).
Proof.
  intros w M POLY G NR FCR K NP imap HPar HI len data parity er count cw BD BP HS ND WC CW LC rw errors HC LU.
  refine (bdecoded w M POLY G NR FCR K NP imap HPar HI (bch_packed G) bytes be_bits (packed_access G) be_bits_inj len data parity er count BD BP _ cw ND WC CW LC HC LU).
  rewrite !length_be_bits. exact HS.
Qed.
Print Assumptions C37_packed_corrects.
Theorem C37_reference_corrects : forall w M POLY G NR FCR K NP imap, bch_params w M POLY G NR FCR K NP -> rs_imap G = Ok imap ->
  forall len data parity er count cw, is_word data -> is_word parity -> bch_sizes NR K NP len (length data) (length parity) er count -> NoDup (firstn count er) ->
  is_word cw -> rs_codeword M POLY NR FCR cw -> length cw = (len + NP)%nat ->
  let rw := firstn len data ++ firstn NP parity in
  let errors := errors_outside (firstn count er) cw rw in
  (2 * length errors + count <= NR)%nat ->
  (forall a b, a <> b -> (forall t, In (N.of_nat t) (firstn count er) \/ In t errors <-> t = a \/ t = b) -> ~ unlucky_pair M POLY (len + NP) a b) ->
  exists data' parity' er', bch_decode (bch_reference G) G K NP NR FCR imap data parity er count len = Ok (data', parity', er', Z.of_nat (length (differing cw rw))) /\
    is_word data' /\ is_word parity' /\ firstn len data' ++ firstn NP parity' = cw /\
    skipn len data' = skipn len data /\ skipn NP parity' = skipn NP parity.
Proof.
  intros w M POLY G NR FCR K NP imap HPar HI len data parity er count cw BD BP HS ND WC CW LC rw errors HC LU. apply word_binary in BD, BP.
  destruct (bdecoded w M POLY G NR FCR K NP imap HPar HI (bch_reference G) binary (fun l => l) (reference_access G) (fun a b _ _ E => E) len data parity er count BD BP HS cw ND WC CW LC HC LU) as (d & p & e & E & A1 & A2 & A3).
  exists d, p, e. split; [exact E|]. split; [apply word_binary; exact A1|]. split; [apply word_binary; exact A2|exact A3].
Qed.
Print Assumptions C37_reference_corrects.

(** the exception *)
Theorem C37_unlucky_pair_refused : forall w M POLY G NR FCR K NP imap, bch_params w M POLY G NR FCR K NP -> rs_imap G = Ok imap ->
  forall len data parity er count cw, bytes data -> bytes parity -> bch_sizes NR K NP len (8 * length data) (8 * length parity) er count -> NoDup (firstn count er) ->
  is_word cw -> rs_codeword M POLY NR FCR cw -> length cw = (len + NP)%nat ->
  let rw := firstn len (be_bits data) ++ firstn NP (be_bits parity) in
  let errors := errors_outside (firstn count er) cw rw in
  (2 * length errors + count <= NR)%nat -> rw <> cw ->
  forall a b, a <> b -> (forall t, In (N.of_nat t) (firstn count er) \/ In t errors <-> t = a \/ t = b) -> unlucky_pair M POLY (len + NP) a b ->
  exists er', bch_decode (bch_packed G) G K NP NR FCR imap data parity er count len = Ok (data, parity, er', (-1)%Z).
Proof.
  intros w M POLY G NR FCR K NP imap HPar HI len data parity er count cw BD BP HS ND WC CW LC rw errors HC NE a b Hab HT HU.
  refine (brefused w M POLY G NR FCR K NP imap HPar HI (bch_packed G) bytes be_bits (packed_access G) be_bits_inj len data parity er count BD BP _ cw ND WC CW LC HC NE a b Hab HT HU).
  - rewrite !length_be_bits. exact HS.
Qed.
Print Assumptions C37_unlucky_pair_refused.

(** any received word and any positions declared erased *)
Theorem C37_packed_total_and_failure_changes_nothing : forall w M POLY G NR FCR K NP imap, bch_params w M POLY G NR FCR K NP -> rs_imap G = Ok imap ->
  forall len data parity er count, bytes data -> bytes parity -> bch_sizes NR K NP len (8 * length data) (8 * length parity) er count ->
  exists data' parity' er' z, bch_decode (bch_packed G) G K NP NR FCR imap data parity er count len = Ok (data', parity', er', z) /\
    bytes data' /\ bytes parity' /\ length data' = length data /\ length parity' = length parity /\
    skipn len (be_bits data') = skipn len (be_bits data) /\ skipn NP (be_bits parity') = skipn NP (be_bits parity) /\
    length er' = length er /\ (forall i, (i < count)%nat -> nth i er' 0 = nth i er 0 + N.of_nat (K - len)) /\
    ((z <= 0)%Z -> data' = data /\ parity' = parity) /\
    (z = (-1)%Z \/ (z = Z.of_nat (length (differing (firstn len (be_bits data) ++ firstn NP (be_bits parity)) (firstn len (be_bits data') ++ firstn NP (be_bits parity')))) /\ (z <= Z.of_nat NR)%Z)).
Proof.
  intros w M POLY G NR FCR K NP imap HPar HI len data parity er count BD BP HS.
  destruct (btotal w M POLY G NR FCR K NP imap HPar HI (bch_packed G) bytes be_bits (packed_access G) be_bits_inj) with (len := len) (data := data) (parity := parity) (er := er) (count := count) as (d & p & e & z & E & A1 & A2 & A3 & A4 & A5); try assumption.
  - rewrite !length_be_bits. exact HS.
  - rewrite !length_be_bits in A3, A4. exists d, p, e, z. split; [exact E|]. split; [exact A1|]. split; [exact A2|]. split; [lia|]. split; [lia|exact A5].
Qed.
Print Assumptions C37_packed_total_and_failure_changes_nothing.
Theorem C37_reference_total_and_failure_changes_nothing : forall w M POLY G NR FCR K NP imap, bch_params w M POLY G NR FCR K NP -> rs_imap G = Ok imap ->
  forall len data parity er count, is_word data -> is_word parity -> bch_sizes NR K NP len (length data) (length parity) er count ->
  exists data' parity' er' z, bch_decode (bch_reference G) G K NP NR FCR imap data parity er count len = Ok (data', parity', er', z) /\
    is_word data' /\ is_word parity' /\ length data' = length data /\ length parity' = length parity /\
    skipn len data' = skipn len data /\ skipn NP parity' = skipn NP parity /\
    length er' = length er /\ (forall i, (i < count)%nat -> nth i er' 0 = nth i er 0 + N.of_nat (K - len)) /\
    ((z <= 0)%Z -> data' = data /\ parity' = parity) /\
    (z = (-1)%Z \/ (z = Z.of_nat (length (differing (firstn len data ++ firstn NP parity) (firstn len data' ++ firstn NP parity'))) /\ (z <= Z.of_nat NR)%Z)).
Proof.
  intros w M POLY G NR FCR K NP imap HPar HI len data parity er count BD BP HS. apply word_binary in BD, BP.
  destruct (btotal w M POLY G NR FCR K NP imap HPar HI (bch_reference G) binary (fun l => l) (reference_access G) (fun a b _ _ E => E) len data parity er count BD BP HS) as (d & p & e & z & E & A1 & A2 & A3).
  exists d, p, e, z. split; [exact E|]. split; [apply word_binary; exact A1|]. split; [apply word_binary; exact A2|exact A3].
Qed.
Print Assumptions C37_reference_total_and_failure_changes_nothing.

(** ** concrete case: BCH(15, 5) over GF(16), NR = 6, FCR = 1.  4 data bits 1010; the parity 0110111000 is followed by zeros.  Two errors and two
    erasures are corrected. *)
Example C36_C37_nonvacuous : exists imap gen genr, bch_params 8 4 19 gf16 6 1 5 10 /\ rs_imap gf16 = Ok imap /\
  has_degree (poly_product [19; 31; 7]) 10 /\ bch_generator 10 [19; 31; 7] = Ok gen /\ bchref_generator gf16 10 [19; 31; 7] = Ok genr /\
  word_poly [1;0;1;0;0;1;1;0;1;1;1] = poly_product [19; 31; 7] /\ rs_codeword 4 19 6 1 [1;0;1;0;0;1;1;0;1;1;1] /\
  bch_encode 5 10 gen [175] [255; 255; 9] 4 = Ok [110; 0; 9] /\ bchref_encode gf16 5 10 genr [1;0;1;0;1] [0;0;0;0;0;0;0;0;0;0;5] 4 = Ok [0;1;1;0;1;1;1;0;0;0;5] /\
  let cw := [1;0;1;0;0;1;1;0;1;1;1;0;0;0] in rs_codeword 4 19 6 1 cw /\
  bch_sizes 6 5 10 4 8 24 [13; 0] 2 /\ NoDup [13; 0] /\
  errors_outside [13; 0] cw [0;0;1;0;1;1;1;0;1;1;1;1;0;0] = [4; 11]%nat /\
  bch_decode (bch_packed gf16) gf16 5 10 6 1 imap [47] [239; 0; 9] [13; 0] 2 4 = Ok ([175], [110; 0; 9], [14; 1], 3%Z).
Proof.
  eexists _, _, _. split; [repeat split; vm_compute; try congruence; try lia; reflexivity|]. split; [vm_compute; reflexivity|]. split; [split; vm_compute; congruence|].
  split; [vm_compute; reflexivity|]. split; [vm_compute; reflexivity|]. split; [vm_compute; reflexivity|].
  split; [apply codeword_check_iff; [lia|split; vm_compute; congruence|vm_compute; reflexivity]|].
  split; [vm_compute; reflexivity|]. split; [vm_compute; reflexivity|]. cbv zeta.
  split; [apply codeword_check_iff; [lia|split; vm_compute; congruence|vm_compute; reflexivity]|].
  split; [repeat split; try (vm_compute; lia); repeat (constructor; try (vm_compute; reflexivity))|].
  split; [repeat constructor; cbn; intuition discriminate|]. split; vm_compute; reflexivity.
Qed.
