(** Proofs about Model_osd: the generator matrix. *)
From Coq Require Import ZifyBool ZifyNat ZifyN.
From Verif Require Import Cpp Lib_list Model_bits Spec_bits Proof_bits Spec_gf Lib_gf Model_gf Model_bch Spec_bch Proof_bch2 Proof_bch3 Proof_bch5 Model_osd Spec_osd Proof_osd1 Proof_osd2 Proof_osd3 Proof_osd7.
Ltac Zify.zify_post_hook ::= idtac.
Local Open Scope nat_scope.

Lemma fill_off (f : nat -> Z) (body : nat -> list Z -> res (list Z)) off lo hi buf : lo <= hi -> off + hi <= length buf ->
  (forall i b, lo <= i < hi -> length b = length buf -> (forall p, p < off + lo -> nth p b 0%Z = nth p buf 0%Z) -> body i b = wr b (off + i) (f i)) ->
  exists b', for_up lo hi body buf = Ok b' /\ length b' = length buf /\ forall p, nth p b' 0%Z = if (off + lo <=? p) && (p <? off + hi) then f (p - off) else nth p buf 0%Z.
Proof.
  intros Hle HL HB.
  edestruct (for_up_inv (fun k b => length b = length buf /\ forall p, nth p b 0%Z = if (off + lo <=? p) && (p <? off + k) then f (p - off) else nth p buf 0%Z)) as (b' & E & L & H).
  4: { exists b'. split; [exact E|]. auto. }
  - exact Hle.
  - intros k b Hk (L & H). rewrite HB; [|exact Hk|exact L|intros p Hp; rewrite H; replace (off + lo <=? p) with false by lia; reflexivity].
    rewrite wr_Ok by lia. eexists. split; [reflexivity|]. rewrite length_upd. split; [exact L|]. intros p. rewrite nth_upd. destruct (Nat.eqb_spec (off + k) p) as [<-|Hne].
    + replace (off + k <? length b) with true by lia. replace (off + lo <=? off + k) with true by lia. replace (off + k <? off + S k) with true by lia. cbn [andb]. f_equal. lia.
    + cbn [andb]. rewrite H. replace (p <? off + S k) with (p <? off + k) by lia. reflexivity.
  - split; [reflexivity|]. intros p. replace ((off + lo <=? p) && (p <? off + lo)) with false by lia. reflexivity.
Qed.

Section M.
Variables N K : nat.
Hypothesis HK : 1 <= K < N.
Notation NP := (N - K).
Variable g : BinNums.N.
Hypothesis Hg : g <> 0%N.
Hypothesis Hdeg : N.log2 g = N.of_nat NP.
(** the rows of the matrix: shifted copies of the generator polynomial *)
Definition shifted (j i : nat) : bool := (j <=? i) && (i - j <=? NP) && N.testbit g (N.of_nat (NP - (i - j))).

Lemma rows_ok G0 G1 : length G0 = N * K -> zrep NP G0 G1 g ->
  exists G2, (genmat <- for_up (NP + 1) N (fun i genmat => wr genmat i 0%Z) G1 ;;
    for_up 1 K (fun j genmat =>
      genmat <- for_up 0 j (fun i genmat => wr genmat (N * j + i) 0%Z) genmat ;;
      genmat <- for_up 0 (NP + 1) (fun i genmat => x <- rd genmat i ;; wr genmat ((N + 1) * j + i) x) genmat ;;
      for_up (j + NP + 1) N (fun i genmat => wr genmat (N * j + i) 0%Z) genmat) genmat) = Ok G2 /\ rep N N K G2 shifted.
Proof.
  intros L0 (L1 & _ & HT & _).
  assert (NK : N <= N * K) by (assert (N * 1 <= N * K) by (apply Nat.mul_le_mono_l; lia); lia).
  destruct (fill_off (fun _ => 0%Z) (fun i genmat => wr genmat i 0%Z) 0 (NP + 1) N G1) as (G2 & E2 & L2 & H2); [lia|lia|reflexivity|]. rewrite E2. cbn [bind].
  edestruct (for_up_inv (fun k G => length G = N * K /\ forall j i, j < k -> i < N -> nth (N * j + i) G 0%Z = Z.b2z (shifted j i))) as (G3 & E3 & L3 & H3).
  4: { exists G3. split; [exact E3|]. split; [exact L3|exact H3]. }
  - lia.
  - intros j G Hj (L & H). cbv beta. assert (LJ : N * S j <= N * K) by (apply Nat.mul_le_mono_l; lia). assert (NJ : N * 1 <= N * j) by (apply Nat.mul_le_mono_l; lia).
    destruct (fill_off (fun _ => 0%Z) (fun i genmat => wr genmat (N * j + i) 0%Z) (N * j) 0 j G) as (Ga & Ea & La & Ha); [lia|lia|reflexivity|]. rewrite Ea. cbn [bind].
    destruct (fill_off (fun i => nth i G 0%Z) (fun i genmat => x <- rd genmat i ;; wr genmat ((N + 1) * j + i) x) (N * j + j) 0 (NP + 1) Ga) as (Gb & Eb & Lb & Hb); [lia|lia| |].
    { intros i b Hi Lb Hb. rewrite (rd_nth b i 0%Z) by lia. cbn [bind]. rewrite Hb, Ha by lia. replace (N * j + 0 <=? i) with false by lia. cbn [andb]. f_equal. lia. }
    rewrite Eb. cbn [bind].
    destruct (fill_off (fun _ => 0%Z) (fun i genmat => wr genmat (N * j + i) 0%Z) (N * j) (j + NP + 1) N Gb) as (Gc & Ec & Lc & Hc); [lia|lia|reflexivity|]. rewrite Ec.
    exists Gc. split; [reflexivity|]. split; [lia|]. intros r i Hr Hi. rewrite Hc, Hb, Ha. destruct (Nat.eq_dec r j) as [->|Hne].
    + unfold shifted. destruct (Nat.leb_spec j i) as [Hji|Hji]; cbn [andb].
      * destruct (Nat.leb_spec (i - j) NP) as [Hn|Hn]; cbn [andb].
        -- replace (N * j + (j + NP + 1) <=? N * j + i) with false by lia. cbn [andb]. replace (N * j + j + 0 <=? N * j + i) with true by lia. replace (N * j + i <? N * j + j + (NP + 1)) with true by lia. cbn [andb].
           replace (N * j + i - (N * j + j)) with (i - j) by lia. pose proof (H 0 (i - j) ltac:(lia) ltac:(lia)) as H0. rewrite Nat.mul_0_r in H0. cbn [Nat.add] in H0. rewrite H0. unfold shifted.
           rewrite Nat.sub_0_r. replace (i - j <=? NP) with true by lia. reflexivity.
        -- replace (N * j + (j + NP + 1) <=? N * j + i) with true by lia. replace (N * j + i <? N * j + N) with true by lia. reflexivity.
      * replace (N * j + (j + NP + 1) <=? N * j + i) with false by lia. cbn [andb]. replace (N * j + j + 0 <=? N * j + i) with false by lia. cbn [andb]. replace (N * j + 0 <=? N * j + i) with true by lia. replace (N * j + i <? N * j + j) with true by lia. reflexivity.
    + assert (N * S r <= N * j) by (apply Nat.mul_le_mono_l; lia). replace (N * j + (j + NP + 1) <=? N * r + i) with false by lia. replace (N * j + j + 0 <=? N * r + i) with false by lia. replace (N * j + 0 <=? N * r + i) with false by lia. cbn [andb]. apply H; lia.
  - split; [lia|]. intros j i Hj Hi. replace j with 0 by lia. rewrite Nat.mul_0_r. cbn [Nat.add]. rewrite H2. cbn [Nat.add]. unfold shifted. rewrite Nat.sub_0_r. cbn [Nat.leb andb]. replace (i <? N) with true by lia. rewrite andb_true_r.
    destruct (Nat.leb_spec (NP + 1) i) as [H|H]; [replace (i <=? NP) with false by lia; reflexivity|]. replace (i <=? NP) with true by lia. cbn [andb].
    rewrite <- (HT (NP - i)) by lia. f_equal. lia.
Qed.

Lemma shifted_ech : ech K K shifted.
Proof.
  intros c Hc. split.
  - unfold shifted. rewrite Nat.sub_diag, Nat.sub_0_r, Nat.leb_refl. cbn [Nat.leb andb]. rewrite <- Hdeg. apply N.bit_log2. exact Hg.
  - intros j Hj. unfold shifted. replace (j <=? c) with false by lia. reflexivity.
Qed.
Lemma ech_rank (X : nat -> nat -> bool) : ech K K X -> full_rank N K X.
Proof.
  intros HE m Hm j. induction j as [j IH] using lt_wf_ind. intros Hj. pose proof (Hm j ltac:(lia)) as H. unfold product in H. rewrite (parity_one K _ j Hj) in H.
  - destruct (HE j Hj) as (H1 & _). rewrite H1, andb_true_r in H. exact H.
  - intros i Hi Hne. destruct (Nat.lt_ge_cases i j) as [Hl|Hl]; [rewrite IH by lia; reflexivity|]. destruct (HE j Hj) as (_ & H2). rewrite H2 by lia. apply andb_false_r.
Qed.

(** ** words of the code as polynomials *)
Lemma poly_of_ext n c c' : agree n c c' -> poly_of n c = poly_of n c'.
Proof. intros H. unfold poly_of. f_equal. apply map_ext_in. intros i Hi. apply in_seq in Hi. rewrite H by lia. reflexivity. Qed.
Lemma poly_of_S n c : poly_of (S n) c = (2 * poly_of n c + N.b2n (c n))%N.
Proof. unfold poly_of. rewrite seq_S, map_app. cbn [map Nat.add]. apply word_poly_snoc. Qed.
Lemma dbl_b2n x b : (2 * x + N.b2n b = N.lxor (N.shiftl x 1) (N.b2n b))%N.
Proof. destruct x, b; reflexivity. Qed.
Lemma poly_of_xor n c c' : poly_of n (fun i => xorb (c i) (c' i)) = N.lxor (poly_of n c) (poly_of n c').
Proof.
  induction n as [|n IH]; [reflexivity|]. rewrite !poly_of_S, IH, !dbl_b2n, N.shiftl_lxor.
  replace (N.b2n (xorb (c n) (c' n))) with (N.lxor (N.b2n (c n)) (N.b2n (c' n))) by (destruct (c n), (c' n); reflexivity).
  rewrite !N.lxor_assoc. f_equal. rewrite <- !N.lxor_assoc. f_equal. apply N.lxor_comm.
Qed.
Lemma poly_of_false n : poly_of n (fun _ => false) = 0%N.
Proof. induction n as [|n IH]; [reflexivity|]. rewrite poly_of_S, IH. reflexivity. Qed.
Lemma poly_of_bits n P : (P < 2 ^ N.of_nat n)%N -> poly_of n (fun i => N.testbit P (N.of_nat (n - 1 - i))) = P.
Proof. intros H. apply word_poly_bits. exact H. Qed.
Lemma poly_of_inj n c c' : poly_of n c = poly_of n c' -> agree n c c'.
Proof.
  intros E i Hi. unfold poly_of in E. apply word_poly_inj in E; [|apply is_word_b2n|apply is_word_b2n|rewrite !map_length; reflexivity].
  apply (f_equal (fun l => nth i l 0%N)) in E. rewrite !nth_map_seq in E. replace (i <? n) with true in E by lia. cbn [Nat.add] in E. destruct (c i), (c' i); try reflexivity; discriminate.
Qed.
Lemma row_poly j : j < K -> poly_of N (shifted j) = N.shiftl g (N.of_nat (K - 1 - j)).
Proof.
  intros Hj. assert (HB : (N.shiftl g (N.of_nat (K - 1 - j)) < 2 ^ N.of_nat N)%N).
  { rewrite N.shiftl_mul_pow2. destruct (N.log2_spec g ltac:(lia)) as (_ & HU). rewrite Hdeg in HU.
    apply N.lt_le_trans with (2 ^ N.succ (N.of_nat NP) * 2 ^ N.of_nat (K - 1 - j))%N; [apply N.mul_lt_mono_pos_r; [apply N.neq_0_lt_0, N.pow_nonzero; discriminate|exact HU]|].
    rewrite <- N.pow_add_r. apply N.pow_le_mono_r; lia. }
  rewrite <- (poly_of_bits N _ HB). apply poly_of_ext. intros i Hi. unfold shifted.
  destruct (Nat.leb_spec j i) as [Hji|Hji]; cbn [andb].
  - destruct (Nat.leb_spec (i - j) NP) as [Hn|Hn]; cbn [andb].
    + rewrite N.shiftl_spec_high' by lia. f_equal. lia.
    + rewrite N.shiftl_spec_low by lia. reflexivity.
  - rewrite N.shiftl_spec_high' by lia. symmetry. apply N.bits_above_log2. lia.
Qed.
Lemma product_poly m n : n <= K -> poly_of N (product n shifted m) = clmul (N.shiftl (poly_of n m) (N.of_nat (K - n))) g.
Proof.
  induction n as [|n IH]; intros Hn.
  - rewrite (poly_of_ext N (product 0 shifted m) (fun _ => false)) by (intros i _; reflexivity). rewrite poly_of_false. change (poly_of 0 m) with 0%N. rewrite N.shiftl_0_l. reflexivity.
  - rewrite (poly_of_ext N _ (fun i => xorb (product n shifted m i) (m n && shifted n i))) by (intros i _; reflexivity). rewrite poly_of_xor, IH by lia.
    rewrite poly_of_S, dbl_b2n, N.shiftl_lxor, clmul_lxor_l. rewrite N.shiftl_shiftl. replace (1 + N.of_nat (K - S n))%N with (N.of_nat (K - n)) by lia. f_equal.
    destruct (m n); cbn [N.b2n andb].
    + rewrite N.shiftl_1_l, clmul_pow2. rewrite row_poly by lia. f_equal. lia.
    + rewrite N.shiftl_0_l. apply poly_of_false.
Qed.
Lemma product_poly_K m : poly_of N (product K shifted m) = clmul (poly_of K m) g.
Proof. rewrite product_poly by lia. rewrite Nat.sub_diag. change (N.of_nat 0) with 0%N. rewrite N.shiftl_0_r. reflexivity. Qed.
Lemma poly_of_bound n c : (poly_of n c < 2 ^ N.of_nat n)%N.
Proof. unfold poly_of. pose proof (word_poly_bound (map (fun i => N.b2n (c i)) (seq 0 n)) (is_word_b2n c (seq 0 n))) as H. rewrite map_length, seq_length in H. exact H. Qed.
Lemma shifted_code c : in_code N K shifted c <-> poly_divides g (poly_of N c).
Proof.
  split.
  - intros (m & Hm). exists (poly_of K m). rewrite <- product_poly_K. apply poly_of_ext. exact Hm.
  - intros (q & Hq).
    assert (HQ : (q < 2 ^ N.of_nat K)%N).
    { destruct (N.eq_dec q 0) as [->|Hq0]; [apply N.neq_0_lt_0, N.pow_nonzero; discriminate|]. apply lt_log2; [exact Hq0|]. destruct (clmul_top q g Hq0 Hg) as (H1 & H2).
      pose proof (poly_of_bound N c) as HB. rewrite Hq in HB. apply lt_log2 in HB; [lia|exact H1]. }
    exists (fun i => N.testbit q (N.of_nat (K - 1 - i))). apply poly_of_inj. rewrite product_poly_K, poly_of_bits by exact HQ. exact Hq.
Qed.
End M.

Lemma rep_entry N K G X : 1 <= N -> rep N N K G X -> forall j i, j < K -> i < N -> entry N G j i = X j i.
Proof. intros HN (_ & H) j i Hj Hi. unfold entry. rewrite H by assumption. destruct (X j i); reflexivity. Qed.
Lemma rep_binary N K G X : 1 <= N -> rep N N K G X -> binary G.
Proof.
  intros HN (L & H). apply Forall_forall. intros x Hx. apply (In_nth _ _ 0%Z) in Hx. destruct Hx as (p & Hp & <-). rewrite L in Hp.
  assert (HD : p = N * (p / N) + p mod N) by (apply Nat.div_mod; lia). assert (p mod N < N) by (apply Nat.mod_upper_bound; lia). assert (p / N < K) by (apply Nat.div_lt_upper_bound; lia).
  rewrite HD, H by assumption. destruct (X _ _); auto.
Qed.
Lemma matrix_ok N K genmat systematic ms : 1 <= K < N -> length genmat = N * K -> Forall allowed ms -> N.log2 (poly_product ms) = N.of_nat (N - K) ->
  exists G, osd_matrix N K genmat systematic ms = Ok G /\ length G = N * K /\ binary G /\ full_rank N K (entry N G) /\
    (forall c, in_code N K (entry N G) c <-> poly_divides (poly_product ms) (poly_of N c)) /\
    (systematic = false -> forall j, j < K -> poly_of N (entry N G j) = N.shiftl (poly_product ms) (N.of_nat (K - 1 - j))) /\
    (systematic = true -> forall j i, j < K -> i < K -> entry N G j i = (j =? i)).
Proof.
  intros HK HL HM HD. assert (NK : N <= N * K) by (assert (N * 1 <= N * K) by (apply Nat.mul_le_mono_l; lia); lia).
  assert (PP : poly_product ms <> 0%N). { apply fold_clmul_pos; [discriminate|]. apply Forall_impl with (2 := HM). intros x (_ & Hx & _). lia. }
  destruct (proj1 (poly_ok (N - K) genmat ms ltac:(lia) ltac:(lia) HM) HD) as (G1 & E1 & Z1). unfold osd_matrix. cbv zeta. rewrite E1. cbn [bind].
  destruct (rows_ok N K HK (poly_product ms) PP HD genmat G1 HL Z1) as (G2 & E2 & R2).
  assert (CODE : forall G X, rep N N K G X -> requiv N K (shifted N K (poly_product ms)) X -> forall c, in_code N K (entry N G) c <-> poly_divides (poly_product ms) (poly_of N c)).
  { intros G X HR HQ c. rewrite <- (shifted_code N K HK _ PP HD). rewrite (requiv_code N K _ _ c HQ). apply (requiv_code N K). apply requiv_refl. intros j i Hj Hi. apply (rep_entry N K G X); auto; lia. }
  assert (RANK : forall G X, rep N N K G X -> requiv N K (shifted N K (poly_product ms)) X -> full_rank N K (entry N G)).
  { intros G X HR HQ. apply (requiv_rank N K (shifted N K (poly_product ms))); [|apply (ech_rank N K HK _ PP HD), shifted_ech; assumption].
    apply (requiv_trans N K _ X); [exact HQ|]. apply requiv_refl. intros j i Hj Hi. symmetry. apply (rep_entry N K G X); auto; lia. }
  match type of E2 with bind ?a ?f = _ => destruct a as [Gz| | |] eqn:EZ; cbn [bind] in E2; try discriminate end. cbn [bind]. rewrite E2. cbn [bind].
  destruct systematic.
  - destruct (systematic_ok N N K ltac:(lia) ltac:(lia) (shifted N K (poly_product ms)) (fun i => i) G2 _ R2 (shifted_ech N K HK _ PP HD)) as (G3 & X & E3 & R3 & Q3 & _ & S3).
    exists G3. split; [exact E3|]. split; [apply R3|]. split; [apply (rep_binary N K G3 X); [lia|exact R3]|]. split; [apply (RANK G3 X); assumption|]. split; [apply (CODE G3 X); assumption|].
    split; [discriminate|]. intros _ j i Hj Hi. rewrite (rep_entry N K G3 X ltac:(lia) R3) by lia. apply S3; assumption.
  - exists G2. assert (Q2 : requiv N K (shifted N K (poly_product ms)) (shifted N K (poly_product ms))) by (apply requiv_refl; reflexivity).
    split; [reflexivity|]. split; [apply R2|]. split; [apply (rep_binary N K G2 _ ltac:(lia) R2)|]. split; [apply (RANK G2 _ R2 Q2)|]. split; [apply (CODE G2 _ R2 Q2)|].
    split; [|discriminate]. intros _ j Hj. rewrite (poly_of_ext N K HK _ PP HD N _ (shifted N K (poly_product ms) j)) by (intros i Hi; apply (rep_entry N K G2 _ ltac:(lia) R2); assumption). apply row_poly; assumption.
Qed.
Lemma matrix_abort N K genmat systematic ms : 1 <= K < N -> length genmat = N * K -> Forall allowed ms -> N.log2 (poly_product ms) <> N.of_nat (N - K) -> osd_matrix N K genmat systematic ms = Abort.
Proof.
  intros HK HL HM HD. assert (NK : N <= N * K) by (assert (N * 1 <= N * K) by (apply Nat.mul_le_mono_l; lia); lia).
  unfold osd_matrix. cbv zeta. rewrite (proj2 (poly_ok (N - K) genmat ms ltac:(lia) ltac:(lia) HM) HD). reflexivity.
Qed.
