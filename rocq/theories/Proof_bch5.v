(** Proofs about Model_bch: from the simulation of the Reed-Solomon decoder to the properties of the decoder, for both ways to access a buffer;
    the words the encoders make. *)
From Coq Require Import ZifyBool ZifyNat ZifyN.
From Verif Require Import Cpp Lib_list Proof_bits Model_bits Spec_bits Model_gf Model_rs Model_bch Spec_gf Spec_rs Spec_bch Lib_gf2lin Lib_gf2poly Lib_gf Lib_field Lib_poly Lib_rs Proof_gf Proof_gffield Proof_crs1 Proof_crs2 Proof_rs1 Proof_rs2 Proof_rs3 Proof_rs4 Proof_rs5 Proof_rs6 Proof_rs7 Proof_rs8 Proof_bch1 Proof_bch2 Proof_bch3 Proof_bch4 Prop_rs.
Local Open Scope N_scope.

Lemma be_bits_inj x y : bytes x -> bytes y -> be_bits x = be_bits y -> x = y.
Proof.
  intros Bx By E. assert (L : length x = length y) by (assert (LL := f_equal (@length _) E); rewrite !length_be_bits in LL; lia). apply byte_array_ext; try assumption.
  intros i Hi. assert (EN := f_equal (fun l => nth i l 0) E). cbv beta in EN. rewrite !nth_be_bits in EN. destruct (be_bit_of x i), (be_bit_of y i); auto; discriminate.
Qed.
Lemma has_degree_log2 g n : has_degree g n <-> g <> 0 /\ N.log2 g = n.
Proof.
  unfold has_degree. assert (2 ^ n <> 0) by (apply N.pow_nonzero; discriminate). split.
  - intros (A & B). assert (g <> 0) by lia. split; [assumption|]. apply N.log2_unique; [lia|]. rewrite N.add_1_r in B. lia.
  - intros (A & <-). rewrite N.add_1_r. apply N.log2_spec. lia.
Qed.
Lemma divides_unique g n D p q : 1 <= n -> has_degree g n -> p < 2 ^ n -> q < 2 ^ n -> poly_divides g (N.lxor D p) -> poly_divides g (N.lxor D q) -> p = q.
Proof.
  intros Hn HG Hp Hq (a & Ea) (b & Eb). apply (residue_unique n g Hn HG D a p b q); try assumption.
  - rewrite <- Ea, N.lxor_assoc, N.lxor_nilpotent, N.lxor_0_r. reflexivity.
  - rewrite <- Eb, N.lxor_assoc, N.lxor_nilpotent, N.lxor_0_r. reflexivity.
Qed.
Lemma prep_word NP par0 par P : (1 <= NP)%nat -> prep NP par0 par P -> (NP <= 8 * length par0)%nat -> word_poly (firstn NP (be_bits par)) = P.
Proof.
  intros HNP (B & L & HP & T & _) HL. rewrite <- (word_poly_bits NP P HP). f_equal. apply (list_ext _ _ 0).
  - rewrite firstn_length, map_length, seq_length, length_be_bits. lia.
  - intros i Hi. rewrite firstn_length, length_be_bits in Hi. rewrite nth_firstn', nth_map_seq, nth_be_bits. replace (i <? NP)%nat with true by lia.
    rewrite T by lia. replace (i <? NP)%nat with true by lia. reflexivity.
Qed.
Lemma vrep_word NP par0 par P : (1 <= NP)%nat -> vrep NP par0 par P -> (NP <= length par0)%nat -> firstn NP par = map (fun i => N.b2n (N.testbit P (N.of_nat (NP - 1 - i)))) (seq 0 NP).
Proof.
  intros HNP (L & HP & T & _) HL. apply (list_ext _ _ 0).
  - rewrite firstn_length, map_length, seq_length. lia.
  - intros i Hi. rewrite firstn_length in Hi. rewrite nth_firstn', nth_map_seq. replace (i <? NP)%nat with true by lia. apply T. lia.
Qed.
Lemma product_pos ms : Forall (fun m => 0 < m) ms -> poly_product ms <> 0.
Proof. intros H. apply fold_clmul_pos; [discriminate|]. revert H. apply Forall_impl. intros m Hm. lia. Qed.

(** two words of the same length with the same polynomial are equal *)
Lemma word_poly_inj u v : is_word u -> is_word v -> length u = length v -> word_poly u = word_poly v -> u = v.
Proof.
  revert v. induction u as [|a u IH] using rev_ind; intros v HU HV L E.
  - destruct v; [reflexivity|discriminate].
  - destruct v as [|b v _] using rev_ind; [rewrite app_length in L; cbn in L; lia|]. rewrite !app_length in L. cbn [length] in L.
    apply Forall_app in HU, HV. destruct HU as (HU & Ha), HV as (HV & Hb). inversion Ha as [|? ? Ha' _]; inversion Hb as [|? ? Hb' _]; subst. rewrite !word_poly_snoc in E.
    assert (word_poly u = word_poly v /\ a = b) as (E1 & ->) by (destruct Ha' as [-> | ->], Hb' as [-> | ->]; lia). rewrite (IH v HU HV ltac:(lia) E1). reflexivity.
Qed.

(** the template parameters: N = K + NP = 2^M - 1 *)
Definition bch_params (w M POLY : N) (G : gf) (NR FCR K NP : nat) : Prop :=
  1 <= M /\ M <= w /\ has_degree POLY M /\ gf_create w M POLY = Ok G /\
  (1 <= NR <= NP)%nat /\ (1 <= K)%nat /\ N.of_nat (K + NP) = 2 ^ M - 1 /\ N.of_nat FCR < 2 ^ M - 1.
(** [len] data bits, NP parity bits, erasures as for the Reed-Solomon code *)
Definition bch_sizes (NR K NP len dbits pbits : nat) (er : list N) (count : nat) : Prop :=
  (1 <= len <= K)%nat /\ (len <= dbits)%nat /\ (NP <= pbits)%nat /\ (count <= NR)%nat /\ (count <= length er)%nat /\
  Forall (fun e => e < N.of_nat (len + NP)) (firstn count er).

Section D.
Variables (w M POLY : N) (G : gf) (NR FCR K NP : nat) (imap : list N).
Hypothesis HPar : bch_params w M POLY G NR FCR K NP.
Hypothesis HI : rs_imap G = Ok imap.
Variables (A : bch_access) (ok : list N -> Prop) (view : list N -> list N).
Hypothesis AO : gf_ok G -> access_ok G A ok view.
Hypothesis VI : forall a b, ok a -> ok b -> view a = view b -> a = b.
Variables (len : nat) (data parity er : list N) (count : nat).
Hypothesis OD : ok data.
Hypothesis OP : ok parity.
Hypothesis HS : bch_sizes NR K NP len (length (view data)) (length (view parity)) er count.
Let wd (d p : list N) : list N := firstn len (view d) ++ firstn NP (view p).
Notation dec := (bch_decode A G K NP NR FCR imap data parity er count len).

Lemma rsp : rs_params w M POLY G NR FCR.
Proof. destruct HPar as (H1 & H2 & H3 & H4 & H5 & H6 & H7 & H8). unfold rs_params. split; [exact H1|]. split; [exact H2|]. split; [exact H3|]. split; [exact H4|]. lia. Qed.
Lemma gok : gf_ok G /\ gf_M G = M /\ gf_POLY G = POLY.
Proof. destruct (params_ok _ _ _ _ _ _ rsp) as (OK & EM & EP & _). auto. Qed.
Lemma wd_len : length (wd data parity) = (len + NP)%nat.
Proof. destruct HS as (H1 & H2 & H3 & _). unfold wd. rewrite app_length, !firstn_length. lia. Qed.
Lemma wd_bin d p : ok d -> ok p -> binary (wd d p).
Proof. intros. destruct gok as (OK & _). specialize (AO OK). apply Forall_app. split; apply Forall_firstn'; apply (ao_bin _ _ _ _ AO); assumption. Qed.
Notation lr := (len + NP - NR)%nat.
Lemma wd_split : firstn lr (firstn lr (wd data parity)) ++ skipn lr (wd data parity) = wd data parity.
Proof. rewrite firstn_firstn, Nat.min_id. apply firstn_skipn. Qed.
Lemma rs_bufs : rs_buffers M NR lr (firstn lr (wd data parity)) (skipn lr (wd data parity)) er count.
Proof.
  destruct HPar as (H1 & H2 & H3 & H4 & H5 & H6 & H7 & H8). destruct HS as (S1 & S2 & S3 & S4 & S5 & S6). destruct gok as (OK & EM & EP). pose proof (Q1' G OK) as HQ. rewrite EM in HQ.
  assert (SW : rs_symbols M (wd data parity)).
  { pose proof (wd_bin data parity OD OP) as B. revert B. apply Forall_impl. intros x Hx. assert (x = 0 \/ x = 1) as [-> | ->] by lia; lia. }
  split; [apply Forall_firstn'; exact SW|]. split; [rewrite <- (firstn_skipn lr (wd data parity)) in SW; apply Forall_app in SW; apply SW|].
  rewrite skipn_length, firstn_length, wd_len. replace (lr + NR)%nat with (len + NP)%nat by lia.
  split; [lia|]. split; [lia|]. split; [lia|]. split; [lia|]. split; [exact S4|]. split; [exact S5|exact S6].
Qed.
Lemma bsim : exists d'' p'' er' z, rs_decode G NR FCR imap (firstn lr (wd data parity)) (skipn lr (wd data parity)) er count lr = Ok (d'', p'', er', z) /\
  length d'' = lr /\ length p'' = NR /\ bch_result G NR FCR K NP A ok view imap data parity er count len (d'' ++ p'') er' z.
Proof.
  destruct HPar as (H1 & H2 & H3 & H4 & H5 & H6 & H7 & H8). destruct HS as (S1 & S2 & S3 & S4 & S5 & S6). destruct gok as (OK & EM & EP).
  destruct (imap_create G OK ltac:(rewrite EM; lia)) as (im & EI & IO). assert (im = imap) as -> by congruence.
  apply (sim G OK NR FCR K NP); try assumption; try lia; try (rewrite EM; lia).
  - apply AO. exact OK.
  - intros i Hi. pose proof (proj1 (Forall_nth (fun e => e < N.of_nat (len + NP)) (firstn count er)) S6 i 0) as HH. rewrite firstn_length, nth_firstn' in HH.
    replace (i <? count)%nat with true in HH by lia. apply HH. lia.
Qed.
Lemma view_same d p : ok d -> ok p -> wd d p = wd data parity -> skipn len (view d) = skipn len (view data) -> skipn NP (view p) = skipn NP (view parity) -> d = data /\ p = parity.
Proof.
  intros Hd Hp E Ed Ep. destruct HS as (S1 & S2 & S3 & _). unfold wd in E.
  assert (LD : length (view d) = length (view data) \/ (length (view d) <= len)%nat /\ length (view data) = len).
  { assert (LL := f_equal (@length _) Ed). rewrite !skipn_length in LL. lia. }
  assert (LP : length (view p) = length (view parity) \/ (length (view p) <= NP)%nat /\ length (view parity) = NP).
  { assert (LL := f_equal (@length _) Ep). rewrite !skipn_length in LL. lia. }
  assert (LE := f_equal (@length _) E). rewrite !app_length, !firstn_length in LE.
  assert (EQ : firstn len (view d) = firstn len (view data) /\ firstn NP (view p) = firstn NP (view parity)).
  { assert (L1 : length (firstn len (view d)) = length (firstn len (view data))) by (rewrite !firstn_length; lia). clear - E L1. revert L1 E. generalize (firstn len (view d)), (firstn len (view data)).
    induction l as [|a l IH]; intros [|b m] L1 E; try discriminate; [auto|]. cbn in *. injection E as -> E. destruct (IH m ltac:(lia) E) as (-> & ->). auto. }
  destruct EQ as (E1 & E2). split; apply VI; try assumption.
  - rewrite <- (firstn_skipn len (view d)), E1, Ed. apply firstn_skipn.
  - rewrite <- (firstn_skipn NP (view p)), E2, Ep. apply firstn_skipn.
Qed.

Lemma bdecoded cw : NoDup (firstn count er) -> is_word cw -> rs_codeword M POLY NR FCR cw -> length cw = (len + NP)%nat ->
  let rw := wd data parity in
  let errors := errors_outside (firstn count er) cw rw in
  (2 * length errors + count <= NR)%nat ->
  (forall a b, a <> b -> (forall t, In (N.of_nat t) (firstn count er) \/ In t errors <-> t = a \/ t = b) -> ~ unlucky_pair M POLY (len + NP) a b) ->
  exists data' parity' er', dec = Ok (data', parity', er', Z.of_nat (length (differing cw rw))) /\ ok data' /\ ok parity' /\
    wd data' parity' = cw /\ skipn len (view data') = skipn len (view data) /\ skipn NP (view parity') = skipn NP (view parity).
Proof.
  intros ND WC CW LC rw errors HC LU. destruct HPar as (H1 & H2 & H3 & H4 & H5 & H6 & H7 & H8).
  destruct bsim as (d'' & p'' & er' & z & E & L1 & L2 & (HB & _)).
  assert (LL : (len + NP)%nat = (lr + NR)%nat) by (destruct HS; lia).
  pose proof (C33_corrects_errors_and_erasures w M POLY G NR FCR imap rsp HI lr _ _ er count cw rs_bufs ND CW ltac:(rewrite LC; exact LL)) as H. cbv zeta in H. rewrite wd_split in H. fold rw in H, E.
  rewrite <- LL in H. destruct (H HC LU) as (d & p & e & E' & EW & _). rewrite E in E'. injection E' as -> -> -> ->. rewrite firstn_all2 in EW by lia.
  destruct HB as (data' & parity' & ED & A1 & A2 & A3 & A4 & A5); [rewrite EW; apply word_binary; exact WC|]. exists data', parity', e. rewrite EW in A3.
  split; [exact ED|]. split; [exact A1|]. split; [exact A2|]. split; [exact A3|]. split; [exact A4|exact A5].
Qed.
Lemma brefused cw : NoDup (firstn count er) -> is_word cw -> rs_codeword M POLY NR FCR cw -> length cw = (len + NP)%nat ->
  let rw := wd data parity in
  let errors := errors_outside (firstn count er) cw rw in
  (2 * length errors + count <= NR)%nat -> rw <> cw ->
  forall a b, a <> b -> (forall t, In (N.of_nat t) (firstn count er) \/ In t errors <-> t = a \/ t = b) -> unlucky_pair M POLY (len + NP) a b ->
  exists er', dec = Ok (data, parity, er', (-1)%Z).
Proof.
  intros ND WC CW LC rw errors HC NE a b Hab HT HU. destruct HPar as (H1 & H2 & H3 & H4 & H5 & H6 & H7 & H8).
  destruct bsim as (d'' & p'' & er' & z & E & L1 & L2 & (HB & _)).
  assert (LL : (len + NP)%nat = (lr + NR)%nat) by (destruct HS; lia).
  pose proof (C55_unlucky_pair_refused w M POLY G NR FCR imap rsp HI lr _ _ er count cw rs_bufs ND CW ltac:(rewrite LC; exact LL)) as H. cbv zeta in H. rewrite wd_split in H. fold rw in H, E.
  rewrite <- LL in H. destruct (H HC NE a b Hab HT HU) as (e & E'). rewrite E in E'. injection E' as -> -> -> ->.
  rewrite firstn_skipn in HB. destruct (HB (wd_bin data parity OD OP)) as (data' & parity' & ED & A1 & A2 & A3 & A4 & A5).
  destruct (view_same data' parity' A1 A2 A3 A4 A5) as (-> & ->). exists e. exact ED.
Qed.
Lemma btotal : exists data' parity' er' z, dec = Ok (data', parity', er', z) /\ ok data' /\ ok parity' /\
    length (view data') = length (view data) /\ length (view parity') = length (view parity) /\
    skipn len (view data') = skipn len (view data) /\ skipn NP (view parity') = skipn NP (view parity) /\
    length er' = length er /\ (forall i, (i < count)%nat -> nth i er' 0 = nth i er 0 + N.of_nat (K - len)) /\
    ((z <= 0)%Z -> data' = data /\ parity' = parity) /\
    (z = (-1)%Z \/ (z = Z.of_nat (length (differing (wd data parity) (wd data' parity'))) /\ (z <= Z.of_nat NR)%Z)).
Proof.
  destruct bsim as (d'' & p'' & er' & z & E & L1 & L2 & (HB & HN)).
  destruct (C34_total_and_failure_changes_nothing w M POLY G NR FCR rsp) as (im & EI & H). assert (im = imap) as -> by congruence.
  destruct (H lr _ _ er count rs_bufs) as (d & p & e & y & E' & A1 & A2 & A3 & A4 & A5 & A6 & A7 & A8 & A9). rewrite E in E'. injection E' as <- <- <- <-.
  assert (SH : forall i, (i < count)%nat -> nth i er' 0 = nth i er 0 + N.of_nat (K - len)).
  { intros i Hi. rewrite A7 by exact Hi. f_equal. destruct HPar as (H1 & H2 & H3 & H4 & H5 & H6 & H7 & H8). destruct HS as (S1 & _). lia. }
  rewrite wd_split in A9. rewrite firstn_all2 in A9 by lia. assert (LE : (firstn lr (wd data parity)) ++ skipn lr (wd data parity) = wd data parity) by apply firstn_skipn.
  assert (DB : binary (d'' ++ p'') \/ ~ binary (d'' ++ p'')).
  { destruct (forallb (fun x => x <? 2) (d'' ++ p'')) eqn:FB.
    - left. apply Forall_forall. intros x Hx. rewrite forallb_forall in FB. specialize (FB x Hx). lia.
    - right. intros C. assert (forallb (fun x => x <? 2) (d'' ++ p'') = true); [|congruence]. apply forallb_forall. intros x Hx. apply (proj1 (Forall_forall _ _) C) in Hx. cbv beta in Hx. lia. }
  destruct DB as [DB|DB].
  - destruct (HB DB) as (data' & parity' & ED & B1 & B2 & B3 & B4 & B5). exists data', parity', er', z. split; [exact ED|]. split; [exact B1|]. split; [exact B2|].
    assert (LV : length (view data') = length (view data) /\ length (view parity') = length (view parity)).
    { assert (LL := f_equal (@length _) B3). assert (LL1 := f_equal (@length _) B4). assert (LL2 := f_equal (@length _) B5). rewrite !app_length, !firstn_length, L1, L2 in LL. rewrite !skipn_length in LL1, LL2.
      destruct HPar as (H1 & H2 & H3 & H4 & H5 & H6 & H7 & H8). destruct HS as (S1 & S2 & S3 & _). lia. }
    split; [apply LV|]. split; [apply LV|]. split; [exact B4|]. split; [exact B5|]. split; [exact A6|]. split; [exact SH|]. split.
    + intros Hz. apply A8 in Hz. destruct Hz as (-> & ->). rewrite LE in B3. apply view_same; assumption.
    + unfold wd at 2. rewrite B3. exact A9.
  - exists data, parity, er', (-1)%Z. split; [exact (HN DB)|]. split; [exact OD|]. split; [exact OP|]. do 4 (split; [reflexivity|]). split; [exact A6|]. split; [exact SH|]. split; [auto|left; reflexivity].
Qed.
End D.
