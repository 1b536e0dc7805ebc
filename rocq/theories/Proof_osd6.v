(** Proofs about Model_osd: the two decoders as a whole. *)
From Coq Require Import ZifyBool ZifyNat Permutation Sorted.
From Verif Require Import Cpp Model_bits Spec_bits Proof_bits Model_osd Spec_osd Proof_osd1 Proof_osd2 Proof_osd3 Proof_osd4 Proof_osd5.
Ltac Zify.zify_post_hook ::= idtac.
Local Open Scope nat_scope.

(** ** the most reliable basis is unique *)
Lemma basis_unique N K M soft B B' : Forall int8 soft -> most_reliable_basis N K M soft B -> most_reliable_basis N K M soft B' -> forall p, In p B <-> In p B'.
Proof.
  intros HI HB HB'.
  assert (BD : forall p, (Z.abs (soft_at soft p) <= 127)%Z).
  { intros p. unfold soft_at. destruct (Nat.lt_ge_cases p (length soft)) as [H|H]; [|rewrite nth_overflow by exact H; cbn; lia]. rewrite Forall_forall in HI. specialize (HI _ (nth_In soft 0%Z H)). unfold int8 in HI. lia. }
  assert (ST : forall B B', most_reliable_basis N K M soft B -> most_reliable_basis N K M soft B' -> forall p, (forall q, q < N -> more_reliable soft q p -> In q B <-> In q B') -> In p B -> In p B').
  { clear B B' HB HB'. intros B B' (_ & _ & LB & _ & FB & _) (_ & _ & LB' & _ & _ & DB') p IH Hp.
    destruct (in_dec Nat.eq_dec p B') as [H|H]; [exact H|]. exfalso. destruct (FB p Hp) as (c & Hc & Hcp & Hco).
    enough (c p = false) by congruence. apply (DB' p (LB p Hp) H c Hc). intros b Hb Hr. apply Hco; [apply IH; [apply LB'; exact Hb|exact Hr|exact Hb]|].
    intros ->. contradiction. }
  assert (GEN : forall n p, p < N -> Z.to_nat (127 - Z.abs (soft_at soft p)) * N + p < n -> In p B <-> In p B').
  { induction n as [|n IH]; intros p Hp Hn; [exfalso; exact (Nat.nlt_0_r _ Hn)|].
    assert (IH' : forall q, q < N -> more_reliable soft q p -> In q B <-> In q B').
    { intros q Hq HR. apply IH; [exact Hq|]. pose proof (BD p). pose proof (BD q). destruct HR as [HR|(HR & HR')].
      - assert (Z.to_nat (127 - Z.abs (soft_at soft q)) + 1 <= Z.to_nat (127 - Z.abs (soft_at soft p))) by lia. nia.
      - rewrite HR in Hn. lia. }
    split; apply ST; auto. intros q Hq HR. symmetry. apply IH'; assumption. }
  intros p. assert (LB : In p B -> p < N) by apply HB. assert (LB' : In p B' -> p < N) by apply HB'.
  split; intros H; apply (GEN (S (Z.to_nat (127 - Z.abs (soft_at soft p)) * N + p)) p); auto; lia.
Qed.

(** the codewords the basis can produce are all there are, when as many flips are allowed as the basis has positions *)
Lemma flips_le soft B c : flips soft B c <= length B.
Proof. unfold flips. induction B as [|b B IH]; [reflexivity|]. cbn [filter]. destruct (xorb (c b) (decided soft b)); cbn [length]; lia. Qed.
Section D.
Variables N K : nat.
Notation W := (osd_W N).
Variables soft genmat : list Z.
Hypothesis HK : 1 <= K <= N.
Hypothesis HN : (Z.of_nat N <= 32768)%Z.
Hypothesis Hint8 : Forall int8 soft.
Hypothesis Hsoft : N <= length soft.
Hypothesis Hgen : N * K <= length genmat.
Hypothesis Hbin : binary genmat.
Hypothesis Hrank : full_rank N K (entry N genmat).
Notation M := (entry N genmat).

Lemma tob_b2z' b : tob (Z.b2z b) = b.
Proof. destruct b; reflexivity. Qed.
Lemma flips_ext B c c' : (forall b, In b B -> c b = c' b) -> flips soft B c = flips soft B c'.
Proof. intros H. unfold flips. f_equal. apply filter_ext_in. intros b Hb. rewrite H by exact Hb. reflexivity. Qed.
Lemma in_code_ext (X : nat -> nat -> bool) c c' : agree N c c' -> in_code N K X c -> in_code N K X c'.
Proof. intros H (m & Hm). exists m. intros i Hi. rewrite <- H by exact Hi. apply Hm. exact Hi. Qed.

Lemma decode_single O o hard : osd_sizes N K o -> length (om_candidate o) = W -> bytes hard -> N <= 8 * length hard ->
  exists hard' unique B, osd_decode N K O o hard soft genmat = Ok (hard', unique) /\
    bytes hard' /\ length hard' = length hard /\ (forall p, N <= p -> be_bit_of hard' p = be_bit_of hard p) /\
    most_reliable_basis N K M soft B /\ searched N K M soft B (min O 6) (be_bit_of hard') /\
    (forall c, searched N K M soft B (min O 6) c -> (correlation N soft c <= correlation N soft (be_bit_of hard'))%Z) /\
    ((0 <= correlation N soft (be_bit_of hard'))%Z ->
      (unique = true <-> forall c, searched N K M soft B (min O 6) c -> correlation N soft c = correlation N soft (be_bit_of hard') -> agree N c (be_bit_of hard'))).
Proof.
  intros HS LC HB HL. destruct (prepare_ok N K soft genmat HK HN Hsoft Hgen Hbin Hrank o HS) as (G & perm & softperm & codeword & X & pi & EP & HP).
  unfold osd_decode. cbv zeta. rewrite EP. cbn [bind]. pose proof (osd_W_ge N) as HW.
  pose proof (p_word _ _ _ _ _ _ _ _ _ _ HP) as (LW & _).
  destruct (copy_ok N K soft genmat HK Hsoft Hgen codeword (om_candidate o) LW LC) as (cand & E1 & L1 & H1). rewrite E1. cbn [bind].
  rewrite (rword_metric N K soft genmat HK HN Hint8 Hsoft Hgen _ _ _ _ _ _ HP [] codeword (rword_nil N K soft genmat _ _ _ _ _ _ HP)). cbn [bind].
  destruct (single_search N K soft genmat HK HN Hint8 Hsoft Hgen _ _ _ _ _ _ HP (min O 6) (corr N K soft X pi []) cand) as (cw' & ((best, next), cand') & E2 & HX).
  { apply (rword_metric N K soft genmat HK HN Hint8 Hsoft Hgen _ _ _ _ _ _ HP), (rword_nil N K soft genmat _ _ _ _ _ _ HP). }
  { exact L1. }
  { exact H1. }
  rewrite E2. cbn [bind].
  destruct (single_means N K soft genmat HK Hsoft Hgen _ _ _ _ _ _ HP _ _ _ _ HX) as (e & PE & LE & EB & LC' & HC & HM & HU).
  pose proof (p_perm _ _ _ _ _ _ _ _ _ _ HP) as (LP & NP).
  destruct (output_ok N K soft genmat HK Hsoft Hgen hard 0 perm pi (fun i => rd cand' i) (cword N K soft X pi e) (p_bij _ _ _ _ _ _ _ _ _ _ HP) ltac:(lia) NP) as (hard' & E3 & B3 & L3 & H3); [ |exact HB|lia|].
  { intros i Hi. exists (nth i cand' 0%Z). rewrite (rd_nth cand' i 0%Z) by lia. split; [reflexivity|]. rewrite HC by exact Hi. apply tob_b2z'. }
  match type of E3 with ?l = _ => match goal with |- context [bind (for_up 0 N ?f hard) ?g] => change (for_up 0 N f hard) with l end end. rewrite E3. cbn [bind].
  assert (EQ : agree N (be_bit_of hard') (cword N K soft X pi e)).
  { intros i Hi. rewrite H3. replace (i <? 0 + N) with true by lia. cbn [Nat.leb andb]. rewrite Nat.sub_0_r. reflexivity. }
  assert (EC : correlation N soft (be_bit_of hard') = best) by (rewrite EB; apply (corr_ext N K soft genmat HK Hsoft Hgen); exact EQ).
  pose proof (p_basis _ _ _ _ _ _ _ _ _ _ HP) as MB.
  exists hard', (negb (best =? next)%Z), (map pi (seq 0 K)). split; [reflexivity|]. split; [exact B3|]. split; [exact L3|]. split; [intros p Hp; rewrite H3; replace (p <? 0 + N) with false by lia; rewrite andb_false_r; reflexivity|].
  split; [exact MB|]. split; [|split].
  - split.
    + apply (in_code_ext M (cword N K soft X pi e)); [intros i Hi; symmetry; apply EQ; exact Hi|]. apply (cword_code N K soft genmat HK Hsoft Hgen _ _ _ _ _ _ HP).
    + rewrite (flips_cword N K soft genmat HK Hsoft Hgen _ _ _ _ _ _ HP e) by (try exact PE; exact EQ). exact LE.
  - intros c (Hc & Hf). rewrite EC. apply HM; assumption.
  - intros H0. rewrite EC in H0 |- *. rewrite negb_true_iff. rewrite (HU H0). split.
    + intros H c (Hc & Hf) Hco i Hi. rewrite (H c Hc Hf Hco i Hi). symmetry. apply EQ. exact Hi.
    + intros H c Hc Hf Hco i Hi. rewrite <- EQ by exact Hi. apply H; [split; assumption|exact Hco|exact Hi].
Qed.

Lemma decode_list O L o score cperm rank hard : 1 <= L -> osd_sizes N K o -> length (om_candidate o) = W * L -> length score = L -> length cperm = L -> L <= length rank ->
  bytes hard -> L * ((N + 7) / 8) <= length hard ->
  let word h j := fun p => be_bit_of h (8 * (j * ((N + 7) / 8)) + p) in
  exists rank' hard' n B, osdl_decode N K O L o score cperm rank hard soft genmat = Ok (rank', hard') /\
    bytes hard' /\ length hard' = length hard /\ length rank' = length rank /\
    (forall p, (forall j, j < L -> ~ 8 * (j * ((N + 7) / 8)) <= p < 8 * (j * ((N + 7) / 8)) + N) -> be_bit_of hard' p = be_bit_of hard p) /\
    (forall j, L <= j -> nth j rank' 0%Z = nth j rank 0%Z) /\
    most_reliable_basis N K M soft B /\ n <= L /\
    (forall j, j < n -> searched N K M soft B (min O 6) (word hard' j) /\ (0 <= correlation N soft (word hard' j))%Z) /\
    (forall i j, i < j < n -> (correlation N soft (word hard' j) <= correlation N soft (word hard' i))%Z /\ ~ agree N (word hard' i) (word hard' j)) /\
    (forall c, searched N K M soft B (min O 6) c -> (0 <= correlation N soft c)%Z ->
       (exists j, j < n /\ agree N c (word hard' j)) \/ (n = L /\ forall j, j < n -> (correlation N soft c <= correlation N soft (word hard' j))%Z)) /\
    searched N K M soft B (min O 6) (word hard' 0) /\ nth 0 rank' 0%Z = 0%Z /\
    (forall j, S j < n -> nth (S j) rank' 0%Z = (nth j rank' 0 + if correlation N soft (word hard' j) =? correlation N soft (word hard' (S j)) then 0 else 1)%Z).
Proof.
  intros HL HS LC LSc LCp LRk HB HLh word. destruct (prepare_ok N K soft genmat HK HN Hsoft Hgen Hbin Hrank o HS) as (G & perm & softperm & codeword & X & pi & EP & HP).
  unfold osdl_decode. cbv zeta. rewrite EP. cbn [bind]. pose proof (osd_W_ge N) as HW.
  pose proof (p_word _ _ _ _ _ _ _ _ _ _ HP) as (LW & _).
  destruct (fill_from (fun i => nth i codeword 0%Z) (fun i candidate => c <- rd codeword i ;; wr candidate i c) 0 W (om_candidate o) 0%Z) as (cand & E1 & L1 & H1); [lia|rewrite LC; nia| |].
  { intros i b Hi _ _. rewrite (rd_nth codeword i 0%Z) by lia. reflexivity. }
  rewrite E1. cbn [bind].
  pose proof (rword_metric N K soft genmat HK HN Hint8 Hsoft Hgen _ _ _ _ _ _ HP [] codeword (rword_nil N K soft genmat _ _ _ _ _ _ HP)) as EM. rewrite EM. cbn [bind].
  rewrite wr_Ok by lia. cbn [bind].
  destruct (fill_from (fun i => (-1)%Z) (fun i score => wr score i (-1)%Z) 1 L (upd score 0 (corr N K soft X pi [])) 0%Z) as (sc & E2 & L2 & H2); [exact HL|rewrite length_upd; lia|reflexivity|].
  rewrite E2. cbn [bind].
  destruct (fill_from (fun i => i) (fun i cperm => wr cperm i i) 0 L cperm 0) as (cp & E3 & L3 & H3); [lia|lia|reflexivity|].
  rewrite E3. cbn [bind]. rewrite length_upd in L2.
  destruct (list_search N K soft genmat HK HN Hint8 Hsoft Hgen _ _ _ _ _ _ HP L (min O 6) cand sc cp HL) as (cw' & ((cand', sc'), cp') & E4 & HX).
  { lia. } { lia. } { lia. }
  { intros i Hi. rewrite H1. replace (i <? W) with true by lia. reflexivity. }
  { rewrite EM. f_equal. rewrite H2. cbn [Nat.leb andb]. rewrite nth_upd. replace (0 <? length score) with true by lia. reflexivity. }
  { intros i Hi. rewrite H2. replace (1 <=? i) with true by lia. replace (i <? L) with true by lia. reflexivity. }
  { intros i Hi. rewrite H3. replace (i <? L) with true by lia. reflexivity. }
  rewrite E4. cbn [bind].
  destruct (listed_means N K soft genmat HK Hsoft Hgen _ _ _ _ _ _ HP _ _ _ _ _ HX) as (LC' & LS' & LP' & PB & es & LE & NDe & PE & (e0 & P0 & D0 & S0 & T0) & HE & HD & HA).
  pose proof (p_perm _ _ _ _ _ _ _ _ _ _ HP) as (LP & NP).
  set (b8 := (N + 7) / 8) in *.
  assert (NB8 : N <= 8 * b8). { unfold b8. pose proof (Nat.div_mod (N + 7) 8). pose proof (Nat.mod_upper_bound (N + 7) 8). lia. }
  assert (ZB8 : ((Z.of_nat N + 7) / 8 = Z.of_nat b8)%Z). { unfold b8. rewrite Nat2Z.inj_div. f_equal. lia. }
  rewrite ZB8.
  set (cl := fun j i => tob (nth (nth j cp' 0 * W + i) cand' 0%Z)).
  edestruct (for_up_inv (fun j '(r, rk, h) => length rk = length rank /\ bytes h /\ length h = length hard /\ (1 <= j -> r = nth (j - 1) rk 0%Z) /\ (j = 0 -> r = 0%Z) /\
      (forall x, j <= x -> nth x rk 0%Z = nth x rank 0%Z) /\ (1 <= j -> nth 0 rk 0%Z = 0%Z) /\
      (forall x, S x < j -> nth (S x) rk 0%Z = (nth x rk 0 + if nth x sc' 0 =? nth (S x) sc' 0 then 0 else 1)%Z) /\
      (forall x i, x < j -> i < N -> be_bit_of h (8 * (x * b8) + pi i) = cl x i) /\
      (forall p, (forall x, x < j -> ~ 8 * (x * b8) <= p < 8 * (x * b8) + N) -> be_bit_of h p = be_bit_of hard p)))
    as (((r & rk) & h) & E5 & LRK & BH & LH & _ & _ & RK0 & RK1 & RK2 & HW1 & HW2).
  4: { rewrite E5. cbn [bind].
       assert (WC : forall j e, j < L -> slot N K soft X pi cand' (nth j cp' 0) e -> agree N (word h j) (cword N K soft X pi e)).
       { intros j e Hj HSl p Hp. destruct (pi_onto N K soft genmat HK Hsoft Hgen _ _ _ _ _ _ HP p Hp) as (i & Hi & <-). unfold word. rewrite HW1 by assumption. unfold cl. rewrite (HSl i Hi), tob_b2z'.
         symmetry. apply (cword_pi N K soft genmat HK Hsoft Hgen _ _ _ _ _ _ HP). exact Hi. }
       assert (SEA : forall j e, j < L -> slot N K soft X pi cand' (nth j cp' 0) e -> pattern 0 K e -> length e <= min O 6 -> searched N K M soft (map pi (seq 0 K)) (min O 6) (word h j) /\ correlation N soft (word h j) = corr N K soft X pi e).
       { intros j e Hj HSl PEe LEe. pose proof (WC j e Hj HSl) as EQ. split; [split|].
         - apply (in_code_ext M (cword N K soft X pi e)); [intros i Hi; symmetry; apply EQ; exact Hi|]. apply (cword_code N K soft genmat HK Hsoft Hgen _ _ _ _ _ _ HP).
         - rewrite (flips_cword N K soft genmat HK Hsoft Hgen _ _ _ _ _ _ HP e) by (try exact PEe; exact EQ). exact LEe.
         - apply (corr_ext N K soft genmat HK Hsoft Hgen). exact EQ. }
       assert (SEN : forall j, j < length es -> searched N K M soft (map pi (seq 0 K)) (min O 6) (word h j) /\ correlation N soft (word h j) = corr N K soft X pi (nth j es []) /\ nth j sc' 0%Z = corr N K soft X pi (nth j es []) /\ (0 <= corr N K soft X pi (nth j es []))%Z).
       { intros j Hj. destruct (HE j Hj) as (X1 & X2 & X3). destruct (PE _ (nth_In es [] Hj)) as (Y1 & Y2). destruct (SEA j _ ltac:(lia) X2 Y1 Y2). auto. }
       exists rk, h, (length es), (map pi (seq 0 K)). split; [reflexivity|]. split; [exact BH|]. split; [exact LH|]. split; [exact LRK|]. split; [exact HW2|]. split; [exact RK0|].
       split; [exact (p_basis _ _ _ _ _ _ _ _ _ _ HP)|]. split; [exact LE|]. split; [|split; [|split; [|split; [|split]]]].
       - intros j Hj. destruct (SEN j Hj) as (X1 & X2 & _ & X3). rewrite X2. split; assumption.
       - intros i j Hij. destruct (SEN i ltac:(lia)) as (_ & X2 & _). destruct (SEN j ltac:(lia)) as (_ & Y2 & _). rewrite X2, Y2. split; [apply HD; exact Hij|].
         intros HAg. destruct (HE i ltac:(lia)) as (_ & A2 & _). destruct (HE j ltac:(lia)) as (_ & B2 & _).
         pose proof (WC i _ ltac:(lia) A2) as Q1. pose proof (WC j _ ltac:(lia) B2) as Q2.
         assert (EQ : nth i es [] = nth j es []).
         { apply (cword_distinct N K soft genmat HK Hsoft Hgen _ _ _ _ _ _ HP); [apply PE, nth_In; lia|apply PE, nth_In; lia|]. intros p Hp. rewrite <- Q1, <- Q2 by exact Hp. apply HAg. exact Hp. }
         apply (proj1 (NoDup_nth es []) NDe) in EQ; lia.
       - intros c (Hc & Hf) H0. destruct (HA c Hc Hf H0) as [(j & Hj & Hag)|(HF & HA')].
         + left. exists j. split; [exact Hj|]. intros i Hi. destruct (HE j Hj) as (_ & A2 & _). rewrite (WC j _ ltac:(lia) A2) by exact Hi. apply Hag. exact Hi.
         + right. split; [exact HF|]. intros j Hj. destruct (SEN j Hj) as (_ & X2 & _). rewrite X2. apply HA'. lia.
       - apply (SEA 0 e0); auto.
       - apply RK1. exact HL.
       - intros j Hj. rewrite RK2 by lia. destruct (SEN j ltac:(lia)) as (_ & X2 & X3 & _). destruct (SEN (S j) ltac:(lia)) as (_ & Y2 & Y3 & _). rewrite X2, Y2, X3, Y3. reflexivity. }
  - lia.
  - intros j ((r & rk) & h) Hj (LRK & BH & LH & R1 & R0 & RK0 & RK1 & RK2 & HW1 & HW2). cbv beta iota.
    assert (exists r', (if 0 <? j then (x <- rd sc' (j - 1) ;; y <- rd sc' j ;; Ok (if negb (x =? y)%Z then (r + 1)%Z else r)) else Ok r) = Ok r' /\ (j = 0 -> r' = 0%Z) /\
       (1 <= j -> r' = (nth (j - 1) rk 0 + if nth (j - 1) sc' 0 =? nth j sc' 0 then 0 else 1)%Z)) as (r' & ER & R0' & R1').
    { destruct (Nat.ltb_spec 0 j) as [H|H].
      - rewrite (rd_nth sc' (j - 1) 0%Z), (rd_nth sc' j 0%Z) by lia. cbn [bind]. eexists. split; [reflexivity|]. split; [lia|]. intros _. rewrite <- R1 by lia. destruct (nth (j - 1) sc' 0 =? nth j sc' 0)%Z; cbn [negb]; lia.
      - eexists. split; [reflexivity|]. split; [exact R0|lia]. }
    rewrite ER. cbn [bind]. rewrite wr_Ok by lia. cbn [bind]. rewrite (rd_nth cp' j 0) by lia. cbn [bind].
    destruct (output_ok N K soft genmat HK Hsoft Hgen h (8 * (j * b8)) perm pi (fun i => rd cand' (nth j cp' 0 * W + i)) (fun p => cl j (pinv N pi p)) (p_bij _ _ _ _ _ _ _ _ _ _ HP) ltac:(lia) NP) as (h' & E' & B' & L' & H'); [ |exact BH|rewrite LH; nia|].
    { intros i Hi. pose proof (PB j ltac:(lia)) as Hp. assert (HX' : nth j cp' 0 * W + i < W * L) by (rewrite (Nat.mul_comm (nth j cp' 0)); apply (index_lt W N); lia).
      exists (nth (nth j cp' 0 * W + i) cand' 0%Z). rewrite (rd_nth cand' _ 0%Z) by lia. split; [reflexivity|]. rewrite (pinv_pi N K soft genmat HK Hsoft Hgen _ _ _ _ _ _ HP) by exact Hi. reflexivity. }
    replace (8 * (Z.of_nat j * Z.of_nat b8))%Z with (Z.of_nat (8 * (j * b8))) by lia. rewrite E'. cbn [bind]. eexists. split; [reflexivity|].
    cbv beta iota. rewrite length_upd. split; [exact LRK|]. split; [exact B'|]. split; [lia|].
    split; [intros _; replace (S j - 1) with j by lia; rewrite nth_upd, Nat.eqb_refl; replace (j <? length rk) with true by lia; reflexivity|]. split; [lia|].
    split; [|split; [|split; [|split]]].
    + intros x Hx. rewrite nth_upd. replace (j =? x) with false by lia. cbn [andb]. apply RK0. lia.
    + intros _. rewrite nth_upd. destruct (Nat.eqb_spec j 0) as [Hz|Hz]; [replace (j <? length rk) with true by lia; cbn [andb]; apply R0'; exact Hz|cbn [andb]; apply RK1; lia].
    + intros x Hx. rewrite !nth_upd. replace (j =? x) with false by lia. cbn [andb]. destruct (Nat.eqb_spec j (S x)) as [Hz|Hz]; [|cbn [andb]; apply RK2; lia].
      replace (j <? length rk) with true by lia. cbn [andb]. rewrite R1' by lia. rewrite Hz. replace (S x - 1) with x by lia. reflexivity.
    + intros x i Hx Hi. pose proof (pi_lt N K soft genmat HK Hsoft Hgen _ _ _ _ _ _ HP i Hi). rewrite H'. destruct (Nat.eq_dec x j) as [->|Hne].
      * replace (8 * (j * b8) <=? 8 * (j * b8) + pi i) with true by lia. replace (8 * (j * b8) + pi i <? 8 * (j * b8) + N) with true by lia. cbn [andb].
        replace (8 * (j * b8) + pi i - 8 * (j * b8)) with (pi i) by lia. rewrite (pinv_pi N K soft genmat HK Hsoft Hgen _ _ _ _ _ _ HP) by exact Hi. reflexivity.
      * assert ((8 * (j * b8) <=? 8 * (x * b8) + pi i) = false) as -> by (apply Nat.leb_gt; nia). cbn [andb]. apply HW1; lia.
    + intros p Hp. rewrite H'. pose proof (Hp j ltac:(lia)). replace ((8 * (j * b8) <=? p) && (p <? 8 * (j * b8) + N)) with false by lia. apply HW2. intros x Hx. apply Hp. lia.
  - split; [reflexivity|]. split; [exact HB|]. split; [reflexivity|]. split; [lia|]. split; [reflexivity|]. split; [reflexivity|]. split; [lia|]. split; [lia|]. split; [lia|]. reflexivity.
Qed.
End D.
