(** C69: what ordered statistics decoding is guaranteed to correct. *)
From Coq Require Import ZifyBool ZifyNat ZifyN Permutation.
From Verif Require Import Cpp Lib_list Model_bits Spec_bits Proof_bits Spec_gf Model_gf Model_bch Spec_rs Spec_bch Proof_bch3 Proof_bch5 Prop_bch Proof_rs5 Prop_rs Prop_distance.
From Verif Require Import Model_osd Spec_osd Spec_osd2 Proof_osd1 Proof_osd4 Proof_osd9 Prop_osd.
Ltac Zify.zify_post_hook ::= idtac.
Local Open Scope nat_scope.

(** ** sums *)
Definition zs (l : list Z) : Z := fold_right Z.add 0%Z l.
Lemma gap soft c c' A l : (forall i, In i l -> (Z.abs (soft_at soft i) <= A)%Z) ->
  (2 * (A * Z.of_nat (length (filter (fun i => xorb (c i) (c' i)) l)) - zs (map (fun i => A - towards soft c i) l))
   <= zs (map (towards soft c) l) - zs (map (towards soft c') l))%Z.
Proof.
  induction l as [|x l IH]; intros H; cbn [filter map zs fold_right length]; [lia|]. fold (zs (map (fun i => (A - towards soft c i)%Z) l)) (zs (map (towards soft c) l)) (zs (map (towards soft c') l)).
  specialize (IH ltac:(intros i Hi; apply H; right; exact Hi)). pose proof (H x ltac:(left; reflexivity)) as HX. revert IH.
  set (S1 := zs (map (fun i => (A - towards soft c i)%Z) l)). set (S2 := zs (map (towards soft c) l)). set (S3 := zs (map (towards soft c') l)). clearbody S1 S2 S3. unfold towards.
  destruct (c x), (c' x); cbn [xorb length]; rewrite ?Nat2Z.inj_succ; nia.
Qed.
Lemma total soft c A l : zs (map (towards soft c) l) = (A * Z.of_nat (length l) - zs (map (fun i => (A - towards soft c i)%Z) l))%Z.
Proof. induction l as [|x l IH]; cbn [map zs fold_right length]; [lia|]. fold (zs (map (fun i => (A - towards soft c i)%Z) l)) (zs (map (towards soft c) l)). rewrite Nat2Z.inj_succ. lia. Qed.
Lemma wrong_le soft c A l : (forall i, In i l -> (Z.abs (soft_at soft i) <= A)%Z) ->
  (A * Z.of_nat (length (filter (fun i => xorb (c i) (decided soft i)) l)) <= zs (map (fun i => A - towards soft c i) l))%Z.
Proof.
  induction l as [|x l IH]; intros H; cbn [filter map zs fold_right length]; [lia|]. fold (zs (map (fun i => (A - towards soft c i)%Z) l)).
  specialize (IH ltac:(intros i Hi; apply H; right; exact Hi)). pose proof (H x ltac:(left; reflexivity)) as HX. revert IH.
  assert (DX : decided soft x = (soft_at soft x <? 0)%Z) by (unfold decided, soft_at; lia). rewrite DX.
  set (S1 := zs (map (fun i => (A - towards soft c i)%Z) l)). clearbody S1. unfold towards.
  destruct (c x), (Z.ltb_spec (soft_at soft x) 0); cbn [xorb length]; rewrite ?Nat2Z.inj_succ; nia.
Qed.
Lemma flips_distance N K M soft B c : most_reliable_basis N K M soft B -> flips soft B c <= distance N c (decided soft).
Proof.
  intros (ND & _ & HB & _). unfold flips, distance. apply NoDup_incl_length; [apply NoDup_filter; exact ND|].
  intros x Hx. apply filter_In in Hx. destruct Hx as (Hx & E). apply filter_In. split; [apply in_seq; specialize (HB x Hx); lia|exact E].
Qed.
Lemma agree_dec N c c' : {agree N c c'} + {~ agree N c c'}.
Proof.
  destruct (forallb (fun i => eqb (c i) (c' i)) (seq 0 N)) eqn:E.
  - left. intros i Hi. rewrite forallb_forall in E. apply eqb_prop, E, in_seq. lia.
  - right. intros H. enough (forallb (fun i => eqb (c i) (c' i)) (seq 0 N) = true) by congruence. apply forallb_forall. intros i Hi. apply in_seq in Hi. rewrite H by lia. apply eqb_reflx.
Qed.
Lemma correlation_agree N soft c c' : agree N c c' -> correlation N soft c = correlation N soft c'.
Proof. intros H. unfold correlation. f_equal. apply map_ext_in. intros i Hi. apply in_seq in Hi. rewrite H by lia. reflexivity. Qed.
Lemma agree_sym N c c' : agree N c c' -> agree N c' c.
Proof. intros H i Hi. symmetry. apply H. exact Hi. Qed.
Lemma in_code_agree N K M c c' : agree N c c' -> in_code N K M c -> in_code N K M c'.
Proof. intros H (m & Hm). exists m. intros i Hi. rewrite <- H by exact Hi. apply Hm. exact Hi. Qed.

(** ** the strictly best codeword within reach *)
Definition strictly_best (N K : nat) (M : nat -> nat -> bool) (soft : list Z) (c : nat -> bool) : Prop :=
  in_code N K M c /\ forall c', in_code N K M c' -> ~ agree N c' c -> (correlation N soft c' < correlation N soft c)%Z.

Theorem C69_best_codeword_found : forall N K O o hard soft genmat c, 1 <= K <= N -> (Z.of_nat N <= 32768)%Z ->
  osd_object N K 1 o -> bytes hard -> N <= 8 * length hard -> Forall int8 soft -> N <= length soft ->
  N * K <= length genmat -> binary genmat -> full_rank N K (entry N genmat) ->
  strictly_best N K (entry N genmat) soft c -> (0 <= correlation N soft c)%Z ->
  (forall B, most_reliable_basis N K (entry N genmat) soft B -> flips soft B c <= min O 6) ->
  exists hard', osd_decode N K O o hard soft genmat = Ok (hard', true) /\ agree N (be_bit_of hard') c.
Proof.
  intros N K O o hard soft genmat c HK HN HO HB HL HI HS HG HBi HR (CC & CB) CP FL.
  destruct (C51_ordered_statistics N K O o hard soft genmat HK HN HO HB HL HI HS HG HBi HR) as (hard' & unique & B & E & _ & _ & _ & MB & (HC & _) & HM & HU).
  assert (SC : searched N K (entry N genmat) soft B (min O 6) c) by (split; [exact CC|apply FL; exact MB]).
  assert (AG : agree N (be_bit_of hard') c).
  { destruct (agree_dec N (be_bit_of hard') c) as [A|A]; [exact A|]. specialize (CB _ HC A). specialize (HM c SC). lia. }
  exists hard'. split; [|exact AG]. rewrite E. do 2 f_equal. apply HU; [rewrite (correlation_agree N soft _ c AG); exact CP|].
  intros c' (HC' & _) EQ. destruct (agree_dec N c' (be_bit_of hard')) as [A|A]; [exact A|]. exfalso. rewrite (correlation_agree N soft _ c AG) in EQ.
  enough (correlation N soft c' < correlation N soft c)%Z by lia. apply CB; [exact HC'|]. intros A'. apply A. intros i Hi. rewrite A', AG by exact Hi. reflexivity.
Qed.
Print Assumptions C69_best_codeword_found.

Theorem C69_best_codeword_leads_list : forall N K O L o score cperm rank hard soft genmat c, 1 <= K <= N -> (Z.of_nat N <= 32768)%Z -> 1 <= L ->
  osd_object N K L o -> length score = L -> length cperm = L -> L <= length rank ->
  bytes hard -> L * ((N + 7) / 8) <= length hard -> Forall int8 soft -> N <= length soft ->
  N * K <= length genmat -> binary genmat -> full_rank N K (entry N genmat) ->
  strictly_best N K (entry N genmat) soft c -> (0 <= correlation N soft c)%Z ->
  (forall B, most_reliable_basis N K (entry N genmat) soft B -> flips soft B c <= min O 6) ->
  exists rank' hard', osdl_decode N K O L o score cperm rank hard soft genmat = Ok (rank', hard') /\ agree N (be_bit_of hard') c /\ nth 0 rank' 0%Z = 0%Z.
Proof.
  intros N K O L o score cperm rank hard soft genmat c HK HN HL HO LS LC LR HB HLh HI HS HG HBi HR (CC & CB) CP FL.
  pose proof (C52_ordered_statistics_list N K O L o score cperm rank hard soft genmat HK HN HL HO LS LC LR HB HLh HI HS HG HBi HR) as H. cbv zeta in H.
  destruct H as (rank' & hard' & n & B & E & _ & _ & _ & _ & _ & MB & Hn & H1 & H2 & H3 & H4 & H5 & _).
  exists rank', hard'. split; [exact E|]. split; [|exact H5].
  set (word := fun j p => be_bit_of hard' (8 * (j * ((N + 7) / 8)) + p)) in *.
  assert (W0 : forall p, word 0 p = be_bit_of hard' p) by (intros p; reflexivity).
  assert (SC : searched N K (entry N genmat) soft B (min O 6) c) by (split; [exact CC|apply FL; exact MB]).
  destruct (agree_dec N (word 0) c) as [A|A]; [exact A|]. exfalso.
  assert (LT : (correlation N soft (word 0%nat) < correlation N soft c)%Z) by (apply CB; [apply H4|exact A]).
  destruct (H3 c SC CP) as [(j & Hj & AJ)|(-> & AJ)].
  - destruct j as [|j]; [apply A, agree_sym; exact AJ|]. destruct (H2 0 (S j) ltac:(lia)) as (LE & _). rewrite (correlation_agree N soft c _ AJ) in LT.
    exact (Z.lt_irrefl _ (Z.lt_le_trans _ _ _ LT LE)).
  - specialize (AJ 0 ltac:(lia)). exact (Z.lt_irrefl _ (Z.lt_le_trans _ _ _ LT AJ)).
Qed.
Print Assumptions C69_best_codeword_leads_list.

(** ** when a codeword is within reach *)
Lemma close_best N K M soft c d A : in_code N K M c -> min_distance N K M d -> (forall i, i < N -> (Z.abs (soft_at soft i) <= A)%Z) ->
  (shortfall N A soft c < A * Z.of_nat d)%Z -> strictly_best N K M soft c.
Proof.
  intros CC MD HA SH. split; [exact CC|]. intros c' CC' NA. pose proof (gap soft c c' A (seq 0 N) ltac:(intros i Hi; apply in_seq in Hi; apply HA; lia)) as G.
  assert (D : d <= distance N c c') by (apply MD; try assumption; intros X; apply NA, agree_sym; exact X).
  change (zs (map (towards soft c) (seq 0 N))) with (correlation N soft c) in G. change (zs (map (towards soft c') (seq 0 N))) with (correlation N soft c') in G.
  change (zs (map (fun i => (A - towards soft c i)%Z) (seq 0 N))) with (shortfall N A soft c) in G. change (length (filter (fun i => xorb (c i) (c' i)) (seq 0 N))) with (distance N c c') in G.
  destruct (Nat.eq_dec N 0) as [->|N0]; [exfalso; apply NA; intros i Hi; lia|].
  assert (A0 : (0 <= A)%Z) by (specialize (HA 0 ltac:(lia)); lia). assert (A * Z.of_nat d <= A * Z.of_nat (distance N c c'))%Z by (apply Z.mul_le_mono_nonneg_l; lia). lia.
Qed.
Lemma nonzero_word N K M : 1 <= K <= N -> full_rank N K M -> exists c, in_code N K M c /\ ~ agree N c (fun _ => false).
Proof.
  intros HK HR. exists (product K M (fun j => j =? 0)). split; [exists (fun j => j =? 0); reflexivity|]. intros H.
  specialize (HR (fun j => j =? 0) H 0 ltac:(lia)). discriminate.
Qed.
Lemma distance_le N c c' : distance N c c' <= N.
Proof. unfold distance. rewrite <- (seq_length N 0) at 2. generalize (seq 0 N). induction l as [|x l IH]; cbn; [lia|]. destruct (xorb _ _); cbn; lia. Qed.
Lemma zero_code N K M : in_code N K M (fun _ => false).
Proof. exists (fun _ => false). intros i _. symmetry. apply product_zero. reflexivity. Qed.
Lemma close_positive N K M soft c d A : 1 <= K <= N -> full_rank N K M -> min_distance N K M d -> (forall i, i < N -> (Z.abs (soft_at soft i) <= A)%Z) ->
  (shortfall N A soft c < A * Z.of_nat d)%Z -> (0 <= correlation N soft c)%Z.
Proof.
  intros HK HR MD HA SH. destruct (nonzero_word N K M HK HR) as (w & HW & NW). pose proof (MD w _ HW (zero_code N K M) NW) as D. pose proof (distance_le N w (fun _ => false)) as D'.
  pose proof (total soft c A (seq 0 N)) as T. rewrite seq_length in T. change (zs (map (towards soft c) (seq 0 N))) with (correlation N soft c) in T.
  change (zs (map (fun i => (A - towards soft c i)%Z) (seq 0 N))) with (shortfall N A soft c) in T.
  assert (A0 : (0 <= A)%Z) by (specialize (HA 0 ltac:(lia)); lia). assert (A * Z.of_nat d <= A * Z.of_nat N)%Z by (apply Z.mul_le_mono_nonneg_l; lia). lia.
Qed.

(** soft values of amplitude at most [A]: when the total shortfall stays below A times the minimum distance, and the order of the decoder
    covers the wrong hard decisions, the transmitted word is returned and reported as unique *)
Theorem C69_guaranteed_correction : forall N K O o hard soft genmat c d A, 1 <= K <= N -> (Z.of_nat N <= 32768)%Z ->
  osd_object N K 1 o -> bytes hard -> N <= 8 * length hard -> Forall int8 soft -> N <= length soft ->
  N * K <= length genmat -> binary genmat -> full_rank N K (entry N genmat) ->
  in_code N K (entry N genmat) c -> min_distance N K (entry N genmat) d ->
  (forall i, i < N -> (Z.abs (soft_at soft i) <= A)%Z) -> (shortfall N A soft c < A * Z.of_nat d)%Z ->
  distance N c (decided soft) <= min O 6 ->
  exists hard', osd_decode N K O o hard soft genmat = Ok (hard', true) /\ agree N (be_bit_of hard') c.
Proof.
  intros N K O o hard soft genmat c d A HK HN HO HB HL HI HS HG HBi HR CC MD HA SH HD. apply C69_best_codeword_found; try assumption.
  - apply (close_best N K _ soft c d A); assumption.
  - apply (close_positive N K (entry N genmat) soft c d A); assumption.
  - intros B MB. apply (flips_distance N K _ soft B c) in MB. lia.
Qed.
Print Assumptions C69_guaranteed_correction.
(** the wrong hard decisions are fewer than the minimum distance in that case: order d - 1 always suffices (when d is at most 7) *)
Theorem C69_sufficient_order : forall N soft c d A, 1 <= N -> (forall i, i < N -> (Z.abs (soft_at soft i) <= A)%Z) ->
  (shortfall N A soft c < A * Z.of_nat d)%Z -> distance N c (decided soft) < d.
Proof.
  intros N soft c d A HN HA SH. pose proof (wrong_le soft c A (seq 0 N) ltac:(intros i Hi; apply in_seq in Hi; apply HA; lia)) as G.
  change (zs (map (fun i => (A - towards soft c i)%Z) (seq 0 N))) with (shortfall N A soft c) in G. change (length (filter (fun i => xorb (c i) (decided soft i)) (seq 0 N))) with (distance N c (decided soft)) in G.
  assert (A0 : (0 <= A)%Z) by (specialize (HA 0 ltac:(lia)); lia). destruct (Nat.lt_ge_cases (distance N c (decided soft)) d) as [H|H]; [exact H|].
  assert (A * Z.of_nat d <= A * Z.of_nat (distance N c (decided soft)))%Z by (apply Z.mul_le_mono_nonneg_l; lia). lia.
Qed.
Print Assumptions C69_sufficient_order.

(** hard decisions: all soft values are +A or -A *)
Lemma hard_shortfall soft c A l : (0 < A)%Z -> (forall i, In i l -> soft_at soft i = A \/ soft_at soft i = (- A)%Z) ->
  zs (map (fun i => (A - towards soft c i)%Z) l) = (2 * A * Z.of_nat (length (filter (fun i => xorb (c i) (decided soft i)) l)))%Z.
Proof.
  intros HA. induction l as [|x l IH]; intros H; cbn [filter map zs fold_right length]; [lia|]. fold (zs (map (fun i => (A - towards soft c i)%Z) l)).
  rewrite (IH ltac:(intros i Hi; apply H; right; exact Hi)). clear IH. pose proof (H x ltac:(left; reflexivity)) as HX.
  assert (DX : decided soft x = (soft_at soft x <? 0)%Z) by (unfold decided, soft_at; lia). rewrite DX. unfold towards.
  destruct (c x), (Z.ltb_spec (soft_at soft x) 0); cbn [xorb length]; rewrite ?Nat2Z.inj_succ; nia.
Qed.
Theorem C69_corrects_half_distance : forall N K O o hard soft genmat c d A, 1 <= K <= N -> (Z.of_nat N <= 32768)%Z ->
  osd_object N K 1 o -> bytes hard -> N <= 8 * length hard -> Forall int8 soft -> N <= length soft ->
  N * K <= length genmat -> binary genmat -> full_rank N K (entry N genmat) ->
  in_code N K (entry N genmat) c -> min_distance N K (entry N genmat) d ->
  (0 < A)%Z -> (forall i, i < N -> soft_at soft i = A \/ soft_at soft i = (- A)%Z) ->
  2 * distance N c (decided soft) < d -> distance N c (decided soft) <= min O 6 ->
  exists hard', osd_decode N K O o hard soft genmat = Ok (hard', true) /\ agree N (be_bit_of hard') c.
Proof.
  intros N K O o hard soft genmat c d A HK HN HO HB HL HI HS HG HBi HR CC MD HA HH H2 HD. apply (C69_guaranteed_correction N K O o hard soft genmat c d A); try assumption.
  - intros i Hi. destruct (HH i Hi); lia.
  - change (shortfall N A soft c) with (zs (map (fun i => (A - towards soft c i)%Z) (seq 0 N))). rewrite hard_shortfall; [|exact HA|intros i Hi; apply in_seq in Hi; apply HH; lia].
    fold (distance N c (decided soft)). nia.
Qed.
Print Assumptions C69_corrects_half_distance.

(** without noise every order suffices, and no minimum distance is needed *)
Lemma clean_gap soft c c' l : (forall i, In i l -> (0 < towards soft c i)%Z) ->
  (zs (map (towards soft c') l) <= zs (map (towards soft c) l))%Z /\ ((exists i, In i l /\ c' i <> c i) -> (zs (map (towards soft c') l) < zs (map (towards soft c) l))%Z).
Proof.
  induction l as [|x l IH]; intros H; cbn [map zs fold_right]; [split; [lia|intros (i & [] & _)]|]. fold (zs (map (towards soft c) l)) (zs (map (towards soft c') l)).
  destruct (IH ltac:(intros i Hi; apply H; right; exact Hi)) as (IH1 & IH2). pose proof (H x ltac:(left; reflexivity)) as HX. unfold towards in HX.
  set (S2 := zs (map (towards soft c) l)) in *. set (S3 := zs (map (towards soft c') l)) in *. clearbody S2 S3. unfold towards. split.
  - destruct (c x), (c' x); lia.
  - intros (i & [->|Hi] & NE); [destruct (c i), (c' i); try congruence; lia|]. specialize (IH2 ltac:(exists i; auto)). destruct (c x), (c' x); lia.
Qed.
Theorem C69_noiseless : forall N K O o hard soft genmat c, 1 <= K <= N -> (Z.of_nat N <= 32768)%Z ->
  osd_object N K 1 o -> bytes hard -> N <= 8 * length hard -> Forall int8 soft -> N <= length soft ->
  N * K <= length genmat -> binary genmat -> full_rank N K (entry N genmat) ->
  in_code N K (entry N genmat) c -> (forall i, i < N -> if c i then (nth i soft 0 < 0)%Z else (0 < nth i soft 0)%Z) ->
  exists hard', osd_decode N K O o hard soft genmat = Ok (hard', true) /\ agree N (be_bit_of hard') c.
Proof.
  intros N K O o hard soft genmat c HK HN HO HB HL HI HS HG HBi HR CC HC.
  assert (T : forall i, In i (seq 0 N) -> (0 < towards soft c i)%Z).
  { intros i Hi. apply in_seq in Hi. specialize (HC i ltac:(lia)). unfold towards, soft_at. destruct (c i); lia. }
  apply C69_best_codeword_found; try assumption.
  - split; [exact CC|]. intros c' _ NA. apply (clean_gap soft c c' (seq 0 N) T).
    destruct (existsb (fun i => xorb (c' i) (c i)) (seq 0 N)) eqn:E.
    + apply existsb_exists in E. destruct E as (i & Hi & E). exists i. split; [exact Hi|]. intros EQ. rewrite EQ, xorb_nilpotent in E. discriminate.
    + exfalso. apply NA. intros i Hi. destruct (Bool.bool_dec (c' i) (c i)) as [D|D]; [exact D|]. enough (existsb (fun i => xorb (c' i) (c i)) (seq 0 N) = true) by congruence.
      apply existsb_exists. exists i. split; [apply in_seq; lia|]. destruct (c' i), (c i); try reflexivity; congruence.
  - change (correlation N soft c) with (zs (map (towards soft c) (seq 0 N))). revert T. generalize (seq 0 N). induction l as [|x l IH]; intros T; cbn [map zs fold_right]; [lia|].
    fold (zs (map (towards soft c) l)). pose proof (T x ltac:(left; reflexivity)). specialize (IH ltac:(intros i Hi; apply T; right; exact Hi)). lia.
  - intros B MB. apply (flips_distance N K _ soft B c) in MB. enough (distance N c (decided soft) = 0) by lia. unfold distance.
    rewrite (Proof_sort.filter_none (fun i => xorb (c i) (decided soft i)) (seq 0 N)); [reflexivity|]. intros i Hi. apply in_seq in Hi. specialize (HC i ltac:(lia)). unfold decided.
    destruct (c i), (Z.ltb_spec (nth i soft 0%Z) 0); try reflexivity; lia.
Qed.
Print Assumptions C69_noiseless.

(** ** a matrix without full rank *)
Theorem C69_rank_deficient_rejected : forall N K O o hard soft genmat, 1 <= K <= N -> (Z.of_nat N <= 32768)%Z ->
  osd_object N K 1 o -> N <= length soft -> N * K <= length genmat -> binary genmat -> ~ full_rank N K (entry N genmat) ->
  osd_decode N K O o hard soft genmat = Abort.
Proof.
  intros N K O o hard soft genmat HK HN (H1 & H2 & H3 & H4 & H5 & H6) HS HG HB NR. unfold osd_decode. cbv zeta. rewrite prepare_abort; try assumption; [reflexivity|]. unfold osd_sizes. auto.
Qed.
Print Assumptions C69_rank_deficient_rejected.
Theorem C69_rank_deficient_rejected_list : forall N K O L o score cperm rank hard soft genmat, 1 <= K <= N -> (Z.of_nat N <= 32768)%Z ->
  osd_object N K L o -> N <= length soft -> N * K <= length genmat -> binary genmat -> ~ full_rank N K (entry N genmat) ->
  osdl_decode N K O L o score cperm rank hard soft genmat = Abort.
Proof.
  intros N K O L o score cperm rank hard soft genmat HK HN (H1 & H2 & H3 & H4 & H5 & H6) HS HG HB NR. unfold osdl_decode. cbv zeta. rewrite prepare_abort; try assumption; [reflexivity|]. unfold osd_sizes. auto.
Qed.
Print Assumptions C69_rank_deficient_rejected_list.

(** ** BCH codes: the matrix of the generator, decoded with ordered statistics, corrects NR / 2 errors like the algebraic decoder *)
Lemma distance_differing N c c' : distance N c c' = length (differing (map (fun i => N.b2n (c i)) (seq 0 N)) (map (fun i => N.b2n (c' i)) (seq 0 N))).
Proof.
  unfold distance, differing. rewrite map_length, seq_length. f_equal. apply filter_ext_in. intros i Hi. apply in_seq in Hi. rewrite !nth_map_seq. replace (i <? N) with true by lia. cbn [Nat.add].
  destruct (c i), (c' i); reflexivity.
Qed.
Theorem C69_bch_distance : forall w M POLY G NR FCR K NP ms genmat systematic, bch_params w M POLY G NR FCR K NP ->
  Forall (fun m => N.odd m = true /\ 1 < m < 2 ^ 31)%N ms -> has_degree (poly_product ms) (N.of_nat NP) ->
  forall g, is_word g -> word_poly g = poly_product ms -> rs_codeword M POLY NR FCR g ->
  length genmat = (K + NP) * K ->
  exists genmat', osd_matrix (K + NP) K genmat systematic ms = Ok genmat' /\ full_rank (K + NP) K (entry (K + NP) genmat') /\
    min_distance (K + NP) K (entry (K + NP) genmat') (NR + 1).
Proof.
  intros w M POLY G NR FCR K NP ms genmat systematic HPar HM HD g Wg EGg HG LG. pose proof HPar as (B1 & B2 & B3 & B4 & B5 & B6 & B7 & B8).
  destruct (C50_generator_matrix (K + NP) K genmat systematic ms ltac:(lia) LG HM) as (G' & E & _ & _ & R & C & _); [replace (K + NP - K) with NP by lia; exact HD|].
  exists G'. split; [exact E|]. split; [exact R|]. intros c c' CC CC' NA. rewrite distance_differing.
  assert (WD : forall c, is_word (map (fun i => N.b2n (c i)) (seq 0 (K + NP)))).
  { intros x. apply Forall_forall. intros y Hy. apply in_map_iff in Hy. destruct Hy as (i & <- & _). destruct (x i); cbn; auto. }
  assert (CW : forall c, in_code (K + NP) K (entry (K + NP) G') c -> rs_codeword M POLY NR FCR (map (fun i => N.b2n (c i)) (seq 0 (K + NP)))).
  { intros x Hx. apply (C37_multiples_are_codewords w M POLY G NR FCR B1 B2 B3 B4 g); try assumption; [apply WD|]. rewrite EGg. apply C. exact Hx. }
  apply (C62_minimum_distance w M POLY G NR FCR).
  - unfold rs_params. do 4 (split; [assumption|]). split; [lia|]. split; [lia|assumption].
  - rewrite !map_length. reflexivity.
  - rewrite map_length, seq_length. lia.
  - rewrite map_length, seq_length, B7. apply N.le_refl.
  - apply CW, CC.
  - apply CW, CC'.
  - intros X. apply NA. intros i Hi. apply (f_equal (fun l => nth i l 0%N)) in X. rewrite !nth_map_seq in X. replace (i <? K + NP) with true in X by lia.
    cbn [Nat.add] in X. destruct (c i), (c' i); cbn [N.b2n] in X; congruence.
Qed.
Print Assumptions C69_bch_distance.

(** ** concrete cases *)
(** the Hamming code has minimum distance 3 and corrects one hard error: 1011000 received with its second bit wrong *)
Lemma hamming_distance : min_distance 7 4 (entry 7 hamming) 3.
Proof.
  intros c c' (m & Hm) (m' & Hm') NA. unfold distance.
  rewrite (filter_ext_in _ (fun i => product 4 (entry 7 hamming) (fun j => xorb (m j) (m' j)) i)).
  - assert (NZ : ~ (m 0 = m' 0 /\ m 1 = m' 1 /\ m 2 = m' 2 /\ m 3 = m' 3)).
    { intros (E0 & E1 & E2 & E3). apply NA. intros i Hi. rewrite Hm, Hm' by exact Hi. apply product_ext; [|reflexivity]. intros j Hj. do 4 (destruct j as [|j]; [assumption|]). lia. }
    cbn [seq filter]. unfold product, parity. destruct (m 0), (m' 0), (m 1), (m' 1), (m 2), (m' 2), (m 3), (m' 3); try (exfalso; apply NZ; repeat split; reflexivity); vm_compute; lia.
  - intros i Hi. apply in_seq in Hi. rewrite Hm, Hm', product_xor by lia. reflexivity.
Qed.
Definition sent : list bool := [true; false; true; true; false; false; false].
Example C69_nonvacuous : in_code 7 4 (entry 7 hamming) (fun i => nth i sent false) /\
  2 * distance 7 (fun i => nth i sent false) (decided [-9; -9; -9; -9; 9; 9; 9]%Z) < 3 /\
  (exists hard', osd_decode 7 4 1 (fresh 7 4 1) [255%N] [-9; -9; -9; -9; 9; 9; 9]%Z hamming = Ok (hard', true) /\ agree 7 (be_bit_of hard') (fun i => nth i sent false)) /\
  (shortfall 7 9 [-9; 3; -9; -2; 0; 5; 9] (fun i => nth i sent false) < 9 * 3)%Z.
Proof.
  assert (IC : in_code 7 4 (entry 7 hamming) (fun i => nth i sent false)).
  { exists (fun j => nth j sent false). intros i Hi. do 7 (destruct i as [|i]; [vm_compute; reflexivity|]). lia. }
  split; [exact IC|]. split; [vm_compute; lia|]. split.
  - assert (OB : osd_object 7 4 1 (fresh 7 4 1)) by (repeat split; vm_compute; lia).
    assert (I8 : Forall int8 [-9; -9; -9; -9; 9; 9; 9]%Z) by (repeat constructor; cbv; congruence).
    assert (BY : bytes [255%N]) by (repeat constructor).
    assert (AM : forall i, i < 7 -> soft_at [-9; -9; -9; -9; 9; 9; 9]%Z i = 9%Z \/ soft_at [-9; -9; -9; -9; 9; 9; 9]%Z i = (-9)%Z) by (intros i Hi; do 7 (destruct i as [|i]; [vm_compute; auto|]); lia).
    apply (C69_corrects_half_distance 7 4 1 _ _ _ hamming _ 3 9); try assumption; try exact hamming_binary; try exact hamming_rank; try exact hamming_distance; try lia; vm_compute; lia.
  - vm_compute. reflexivity.
Qed.
(** a matrix with two equal rows *)
Example C69_rank_nonvacuous : binary [1; 0; 1; 1; 0; 1]%Z /\ ~ full_rank 3 2 (entry 3 [1; 0; 1; 1; 0; 1]%Z) /\ osd_decode 3 2 1 (fresh 3 2 1) [0%N] [5; -6; 7]%Z [1; 0; 1; 1; 0; 1]%Z = Abort.
Proof.
  split; [unfold binary; repeat (apply Forall_cons; [auto|]); constructor|]. split; [|vm_compute; reflexivity]. intros H. specialize (H (fun _ => true)). assert (X : true = false); [|discriminate]. apply (H ltac:(intros i Hi; do 3 (destruct i as [|i]; [reflexivity|]); lia) 0). lia.
Qed.
(** one error more than half the distance is too many, and an order too small misses a word that is closer than any other *)
Example C69_tight : osd_decode 7 4 4 (fresh 7 4 1) [0%N] [-9; -9; -9; -9; -9; 9; 9]%Z hamming = Ok ([232%N], true) /\
  osd_decode 7 4 0 (fresh 7 4 1) [0%N] [-9; -9; -9; -9; 9; 9; 9]%Z hamming = Ok ([254%N], true).
Proof. split; vm_compute; reflexivity. Qed.
