(** Proofs about Model_osd: the linear encoder and the generator polynomial. *)
From Coq Require Import ZifyBool ZifyNat ZifyN.
From Verif Require Import Cpp Model_bits Spec_bits Proof_bits Spec_gf Lib_gf Model_gf Model_bch Spec_bch Proof_bch2 Model_osd Spec_osd Proof_osd1 Proof_osd2.
Ltac Zify.zify_post_hook ::= idtac.
Local Open Scope nat_scope.

Lemma binary_entry N0 genmat j i : binary genmat -> nth (N0 * j + i) genmat 0%Z = Z.b2z (entry N0 genmat j i).
Proof.
  intros HB. unfold entry. destruct (Nat.lt_ge_cases (N0 * j + i) (length genmat)) as [H|H]; [|rewrite nth_overflow by exact H; reflexivity].
  unfold binary in HB. rewrite Forall_forall in HB. destruct (HB _ (nth_In genmat 0%Z H)) as [-> | ->]; reflexivity.
Qed.
Lemma linear_encode_ok N0 K codeword message genmat : 1 <= K -> bytes codeword -> bytes message -> N0 <= 8 * length codeword -> K <= 8 * length message -> N0 * K <= length genmat -> binary genmat ->
  exists c', linear_encode N0 K codeword message genmat = Ok c' /\ bytes c' /\ length c' = length codeword /\
    forall i, be_bit_of c' i = if i <? N0 then product K (entry N0 genmat) (be_bit_of message) i else be_bit_of codeword i.
Proof.
  intros HK BC BM LC LM LG HB. unfold linear_encode.
  assert (IX : forall j i, j < K -> i < N0 -> N0 * j + i < length genmat) by (intros j i Hj Hi; assert (N0 * S j <= N0 * K) by (apply Nat.mul_le_mono_l; lia); lia).
  edestruct (for_up_inv (fun k c => bytes c /\ length c = length codeword /\ forall i, be_bit_of c i = if i <? k then product 1 (entry N0 genmat) (be_bit_of message) i else be_bit_of codeword i)) as (c1 & E1 & B1 & L1 & H1).
  4: { rewrite E1. cbn [bind].
       edestruct (for_up_inv (fun j c => bytes c /\ length c = length codeword /\ forall i, be_bit_of c i = if i <? N0 then product j (entry N0 genmat) (be_bit_of message) i else be_bit_of codeword i)) as (c2 & E2 & B2 & L2 & H2).
       4: { exists c2. split; [exact E2|]. auto. }
       - exact HK.
       - intros j c Hj (B & L & H). cbv beta. rewrite get_be_bit_ok by (try assumption; lia). cbn [bind]. destruct (be_bit_of message j) eqn:MJ.
         + edestruct (for_up_inv (fun k c' => bytes c' /\ length c' = length codeword /\ forall i, be_bit_of c' i = if i <? k then xorb (be_bit_of c i) (entry N0 genmat j i) else be_bit_of c i)) as (c3 & E3 & B3 & L3 & H3).
           4: { exists c3. split; [exact E3|]. split; [exact B3|]. split; [exact L3|]. intros i. rewrite H3. destruct (Nat.ltb_spec i N0) as [Hi|Hi].
                - rewrite H. replace (i <? N0) with true by lia. unfold product. cbn [parity]. rewrite MJ. reflexivity.
                - rewrite H. replace (i <? N0) with false by lia. reflexivity. }
           * lia.
           * intros k c' Hk (B' & L' & H'). cbv beta. rewrite (rd_nth genmat _ 0%Z) by (apply IX; lia). cbn [bind]. destruct (xor_be_bit_ok c' k B' ltac:(lia) (tob (nth (N0 * j + k) genmat 0%Z))) as (c4 & E4 & L4 & B4 & H4 & _).
             exists c4. split; [exact E4|]. split; [exact B4|]. split; [lia|]. intros i. rewrite H4. destruct (Nat.eqb_spec i k) as [->|Hne].
             -- rewrite H'. replace (k <? k) with false by lia. replace (k <? S k) with true by lia. reflexivity.
             -- rewrite H'. replace (i <? S k) with (i <? k) by lia. reflexivity.
           * split; [exact B|]. split; [exact L|]. reflexivity.
         + exists c. split; [reflexivity|]. split; [exact B|]. split; [exact L|]. intros i. rewrite H. destruct (i <? N0); [|reflexivity]. unfold product. cbn [parity]. rewrite MJ, andb_false_l, xorb_false_r. reflexivity.
       - split; [exact B1|]. split; [exact L1|]. exact H1. }
  - lia.
  - intros k c Hk (B & L & H). cbv beta. change 0%Z with (Z.of_nat 0). rewrite get_be_bit_ok by (try assumption; lia). cbn [bind]. rewrite (rd_nth genmat _ 0%Z) by (specialize (IX 0 k); lia). cbn [bind].
    destruct (set_be_bit_ok c k B ltac:(lia) (tob (Z.land (Z.b2z (be_bit_of message 0)) (nth k genmat 0%Z)))) as (c4 & E4 & L4 & B4 & H4 & _).
    exists c4. split; [exact E4|]. split; [exact B4|]. split; [lia|]. intros i. rewrite H4. destruct (Nat.eqb_spec i k) as [->|Hne].
    + replace (k <? S k) with true by lia. unfold product. cbn [parity]. rewrite xorb_false_l. pose proof (binary_entry N0 genmat 0 k HB) as EE. rewrite Nat.mul_0_r in EE. cbn [Nat.add] in EE. rewrite EE.
      destruct (be_bit_of message 0), (entry N0 genmat 0 k); reflexivity.
    + rewrite H. replace (i <? S k) with (i <? k) by lia. reflexivity.
  - split; [exact BC|]. split; [reflexivity|]. reflexivity.
Qed.

(** ** the generator polynomial *)
Section P.
Variable NP : nat.
Hypothesis HNP : 1 <= NP.
Notation np := (Z.of_nat NP).
Local Open Scope N_scope.
Variable old : list Z.
Hypothesis Hold : (NP < length old)%nat.
Definition zrep (gen : list Z) (v : N) : Prop := length gen = length old /\ v < 2 ^ N.of_nat (NP + 1) /\
  (forall i, (i <= NP)%nat -> nth (NP - i) gen 0%Z = Z.b2z (N.testbit v (N.of_nat i))) /\ forall k, (NP < k)%nat -> nth k gen 0%Z = nth k old 0%Z.
Lemma zrep_upd gen v i b : zrep gen v -> (i <= NP)%nat -> zrep (upd gen (NP - i) (Z.b2z b)) (N.lxor v (if Bool.eqb (N.testbit v (N.of_nat i)) b then 0 else 2 ^ N.of_nat i)).
Proof.
  intros (L & HV & HT & HO) Hi. split; [rewrite length_upd; exact L|]. split; [|split].
  - apply lt_lxor; [exact HV|]. destruct (Bool.eqb _ _); [apply N.neq_0_lt_0, N.pow_nonzero; discriminate|apply N.pow_lt_mono_r; lia].
  - intros j Hj. rewrite nth_upd, N.lxor_spec. destruct (Nat.eqb_spec (NP - i) (NP - j)) as [E|Hne].
    + replace j with i by lia. replace (NP - i <? length gen)%nat with true by lia. cbn [andb]. destruct (N.testbit v (N.of_nat i)), b; cbn [Bool.eqb]; rewrite ?N.bits_0, ?pow2_tb, ?N.eqb_refl; reflexivity.
    + cbn [andb]. rewrite HT by exact Hj. destruct (Bool.eqb _ _); rewrite ?N.bits_0, ?pow2_tb, ?xorb_false_r; [reflexivity|]. replace (N.of_nat i =? N.of_nat j) with false by lia. rewrite xorb_false_r. reflexivity.
  - intros k Hk. rewrite nth_upd. replace (NP - i =? k)%nat with false by lia. apply HO. exact Hk.
Qed.
Lemma zrd gen v i : zrep gen v -> (i <= NP)%nat -> rdZ gen (np - Z.of_nat i) = Ok (Z.b2z (N.testbit v (N.of_nat i))).
Proof. intros (L & _ & HT & _) Hi. rewrite (rdZ_nth gen _ 0%Z) by lia. replace (Z.to_nat (np - Z.of_nat i)) with (NP - i)%nat by lia. rewrite HT by exact Hi. reflexivity. Qed.
Lemma zwr gen v i b : zrep gen v -> (i <= NP)%nat -> wrZ gen (np - Z.of_nat i) (Z.b2z b) = Ok (upd gen (NP - i) (Z.b2z b)).
Proof. intros (L & _) Hi. rewrite wrZ_Ok by lia. replace (Z.to_nat (np - Z.of_nat i)) with (NP - i)%nat by lia. reflexivity. Qed.
Definition zmul_body (m : N) (md : nat) : nat -> list Z -> res (list Z) := fun i genpoly =>
  x <- rdZ genpoly (np - Z.of_nat i) ;;
  if negb (tob x) then Ok genpoly else
  genpoly <- wrZ genpoly (np - Z.of_nat i) (Z.b2z (N.odd m)) ;;
  for_up 1 (S md) (fun j genpoly =>
    x <- rdZ genpoly (np - (Z.of_nat i + Z.of_nat j)) ;;
    wrZ genpoly (np - (Z.of_nat i + Z.of_nat j)) (Z.lxor x (Z.b2z (N.odd (N.shiftr m (N.of_nat j)))))) genpoly.
Lemma zmul_ok gen g m : zrep gen g -> g <> 0 -> 2 <= m -> (N.to_nat (N.log2 g) + N.to_nat (N.log2 m) <= NP)%nat ->
  exists gen', for_down (S (S (N.to_nat (N.log2 g)))) 0 (zmul_body m (N.to_nat (N.log2 m))) gen = Ok gen' /\ zrep gen' (clmul g m).
Proof.
  intros HG Hg Hm2 Hd. assert (Hm : m <> 0) by lia. assert (Hl : 1 <= N.log2 m) by (change 1 with (N.log2 2); apply N.log2_le_mono; exact Hm2).
  set (dg := N.to_nat (N.log2 g)) in *. set (md := N.to_nat (N.log2 m)) in *.
  edestruct (for_down_inv (fun i gen => zrep gen (mstate g m (N.of_nat i)))) as (gen' & E & HI).
  4: { exists gen'. split; [exact E|]. rewrite <- (mstate_0 g m). exact HI. }
  - lia.
  - intros i gn Hi HR. unfold zmul_body. replace (N.of_nat (S i)) with (N.of_nat i + 1) in HR by lia.
    assert (Hle : (i <= NP)%nat) by lia.
    rewrite (zrd gn _ i HR Hle). cbn [bind]. rewrite tob_b2z. rewrite mstate_low by lia. rewrite (mstate_step g m (N.of_nat i)).
    destruct (N.testbit g (N.of_nat i)) eqn:B; cbn [negb]; [|eauto].
    assert (Hid : (i <= dg)%nat). { destruct (Nat.le_gt_cases i dg) as [H|H]; [exact H|]. exfalso. rewrite N.bits_above_log2 in B by lia. discriminate. }
    rewrite (zwr gn _ i _ HR Hle). cbn [bind]. pose proof (zrep_upd gn _ i (N.odd m) HR Hle) as H1. rewrite <- (partial_1 NP HNP) in H1 by (rewrite mstate_low by lia; exact B).
    edestruct (for_up_inv (fun j gen => zrep gen (partial (mstate g m (N.of_nat i + 1)) m i j))) as (g2 & E2 & H2).
    4: { exists g2. split; [exact E2|]. rewrite partial_all in H2; [exact H2|]. apply lt_log2; [exact Hm|lia]. }
    * lia.
    * intros j g3 Hj H3. cbv beta. replace (Z.of_nat i + Z.of_nat j)%Z with (Z.of_nat (i + j)) by lia. rewrite (zrd g3 _ (i + j) H3) by lia. cbn [bind]. rewrite lxor_b2z.
      rewrite (zwr g3 _ (i + j) _ H3) by lia. eexists. split; [reflexivity|]. rewrite (partial_S NP HNP), odd_shiftr.
      pose proof (zrep_upd g3 _ (i + j) (xorb (N.testbit (partial (mstate g m (N.of_nat i + 1)) m i j) (N.of_nat (i + j))) (N.testbit m (N.of_nat j))) H3 ltac:(lia)) as H4.
      replace (if N.testbit m (N.of_nat j) then 2 ^ N.of_nat (i + j) else 0) with (if Bool.eqb (N.testbit (partial (mstate g m (N.of_nat i + 1)) m i j) (N.of_nat (i + j))) (xorb (N.testbit (partial (mstate g m (N.of_nat i + 1)) m i j) (N.of_nat (i + j))) (N.testbit m (N.of_nat j))) then 0 else 2 ^ N.of_nat (i + j)); [exact H4|].
      destruct (N.testbit (partial _ _ _ _) _), (N.testbit m (N.of_nat j)); reflexivity.
    * exact H1.
  - rewrite mstate_hi; [exact HG|]. apply lt_log2; [exact Hg|lia].
Qed.
Definition zeach_body : N -> list Z * nat -> res (list Z * nat) := fun m '(genpoly, genpoly_degree) =>
     assert_ (nz m) ;;;
     assert_ (N.odd m) ;;;
     m_degree <- bch_degree m ;;
     assert_ (genpoly_degree + m_degree <=? NP + 1)%nat ;;;
     genpoly <- for_down (S genpoly_degree) 0 (zmul_body m m_degree) genpoly ;;
     Ok (genpoly, genpoly_degree + m_degree)%nat.
(** an allowed minimal polynomial: odd, not 1, fits an int *)
Definition allowed (m : N) : Prop := N.odd m = true /\ 2 <= m /\ m < 2 ^ 31.
Lemma zeach_ok ms : forall gen g, zrep gen g -> g <> 0 -> Forall allowed ms ->
  (N.log2 (fold_left clmul ms g) <= N.of_nat NP /\ exists gen', bch_each ms zeach_body (gen, S (N.to_nat (N.log2 g))) = Ok (gen', S (N.to_nat (N.log2 (fold_left clmul ms g)))) /\ zrep gen' (fold_left clmul ms g)) \/
  (N.of_nat NP < N.log2 (fold_left clmul ms g) /\ bch_each ms zeach_body (gen, S (N.to_nat (N.log2 g))) = Abort).
Proof.
  induction ms as [|m ms IH]; intros gen g HG Hg HM; cbn [bch_each fold_left].
  - left. split; [|eauto]. destruct HG as (_ & HV & _). apply (lt_log2 g) in HV; [lia|exact Hg].
  - inversion HM as [|? ? (Ho & Hm & Hm') HM']; subst. unfold zeach_body at 1 3. unfold nz. replace (negb (m =? 0)) with true by lia. rewrite Ho. cbn [assert_ bind].
    assert (Hm0 : m <> 0) by lia. rewrite degree_ok by assumption. cbn [bind].
    destruct (clmul_top g m Hg Hm0) as (Hgm & Lgm). destruct (fold_clmul_pos ms (clmul g m) Hgm) as (_ & HH); [apply Forall_impl with (2 := HM'); intros x (_ & Hx & _); lia|].
    destruct (Nat.leb_spec (S (N.to_nat (N.log2 g)) + N.to_nat (N.log2 m)) (NP + 1)) as [HL|HL]; cbn [assert_ bind].
    + destruct (zmul_ok gen g m HG Hg Hm ltac:(lia)) as (gen' & E & HG'). rewrite E. cbn [bind].
      replace (S (N.to_nat (N.log2 g)) + N.to_nat (N.log2 m))%nat with (S (N.to_nat (N.log2 (clmul g m)))) by lia. apply IH; assumption.
    + right. split; [lia|reflexivity].
Qed.
End P.
Lemma poly_ok NP (genpoly : list Z) ms : 1 <= NP -> NP < length genpoly -> Forall allowed ms ->
  (N.log2 (poly_product ms) = N.of_nat NP -> exists g', osd_poly NP genpoly ms = Ok g' /\ zrep NP genpoly g' (poly_product ms)) /\
  (N.log2 (poly_product ms) <> N.of_nat NP -> osd_poly NP genpoly ms = Abort).
Proof.
  intros HNP HL HM. unfold osd_poly. cbv zeta.
  edestruct (for_up_inv (fun k g => length g = length genpoly /\ forall i, nth i g 0%Z = if i <? k then 0%Z else nth i genpoly 0%Z)) as (g0 & E0 & L0 & H0).
  4: { rewrite E0. cbn [bind]. rewrite wr_Ok by lia. cbn [bind]. change (fun (m : BinNums.N) '(genpoly0, genpoly_degree) => assert_ (nz m);;; _) with (zeach_body NP).
       assert (H1 : zrep NP genpoly (upd g0 NP 1%Z) 1%N).
       { split; [rewrite length_upd; exact L0|]. split; [change 1%N with (2 ^ 0)%N at 1; apply N.pow_lt_mono_r; lia|]. split.
         - intros i Hi. rewrite nth_upd. destruct (Nat.eqb_spec NP (NP - i)) as [E|E].
           + replace (NP <? length g0) with true by lia. replace i with 0 by lia. reflexivity.
           + cbn [andb]. rewrite H0. replace (NP - i <? NP) with true by lia. rewrite (testbit_high 1 1) by (try (cbn; lia); lia). reflexivity.
         - intros k Hk. rewrite nth_upd. replace (NP =? k) with false by lia. cbn [andb]. rewrite H0. replace (k <? NP) with false by lia. reflexivity. }
       assert (PP : poly_product ms <> 0%N). { apply fold_clmul_pos; [discriminate|]. apply Forall_impl with (2 := HM). intros x (_ & Hx & _). lia. }
       assert (OD : forall ms g, Forall allowed ms -> N.odd g = true -> N.odd (fold_left clmul ms g) = true).
       { clear. induction ms as [|m ms IH]; intros g HM Hg; [exact Hg|]. inversion HM as [|? ? (Ho & _) HM']; subst. cbn [fold_left]. apply IH; [exact HM'|].
         rewrite <- N.bit0_odd in *. clear IH HM HM'. destruct m as [|[p|p|]]; try discriminate; [|rewrite clmul_1_r; exact Hg].
         replace (N.pos p~1) with (N.lxor (2 * N.pos p) 1) by (destruct p; reflexivity). rewrite clmul_lxor_r, clmul_1_r, clmul_dbl_r, N.lxor_spec, Hg. rewrite N.testbit_even_0. reflexivity. }
       destruct (zeach_ok NP HNP genpoly HL ms _ 1%N H1 ltac:(discriminate) HM) as [(LL & gen & E & HG)|(LL & E)];
         change (S (N.to_nat (N.log2 1))) with 1 in E; change (fold_left clmul ms 1%N) with (poly_product ms) in *; rewrite E; cbn [bind]; [|split; [lia|reflexivity]].
       split; intros HD.
       - replace (S (N.to_nat (N.log2 (poly_product ms))) =? NP + 1) with true by lia. cbn [assert_ bind]. pose proof HG as (LG & _ & HT & _).
         pose proof (HT NP ltac:(lia)) as T0. pose proof (HT 0 ltac:(lia)) as T1. rewrite Nat.sub_diag in T0. rewrite Nat.sub_0_r in T1.
         rewrite (rd_nth gen 0 0%Z), (rd_nth gen NP 0%Z) by lia. cbn [bind]. rewrite T0, T1, <- HD, N.bit_log2, N.bit0_odd by exact PP. unfold poly_product. rewrite OD by (try assumption; reflexivity). cbn. eauto.
       - replace (S (N.to_nat (N.log2 (poly_product ms))) =? NP + 1) with false by lia. reflexivity. }
  - lia.
  - intros k g Hk (L & H). cbv beta. rewrite wr_Ok by lia. eexists. split; [reflexivity|]. rewrite length_upd. split; [exact L|]. intros i. rewrite nth_upd. destruct (Nat.eqb_spec k i) as [->|Hne].
    + replace (i <? length g) with true by lia. replace (i <? S i) with true by lia. reflexivity.
    + cbn [andb]. rewrite H. replace (i <? S k) with (i <? k) by lia. reflexivity.
  - split; [reflexivity|]. reflexivity.
Qed.
Lemma bch_each_app {S} ms1 ms2 (body : N -> S -> res S) s : bch_each (ms1 ++ ms2) body s = (s <- bch_each ms1 body s ;; bch_each ms2 body s).
Proof. revert s. induction ms1 as [|m ms1 IH]; intros s; [reflexivity|]. cbn [Datatypes.app bch_each]. destruct (body m s); cbn [bind]; auto. Qed.
Lemma poly_init NP (genpoly : list Z) : 1 <= NP -> NP < length genpoly ->
  exists g0, (genpoly <- for_up 0 NP (fun i genpoly => wr genpoly i 0%Z) genpoly ;; wr genpoly NP 1%Z) = Ok g0 /\ zrep NP genpoly g0 1%N.
Proof.
  intros HNP HL.
  edestruct (for_up_inv (fun k g => length g = length genpoly /\ forall i, nth i g 0%Z = if i <? k then 0%Z else nth i genpoly 0%Z)) as (g0 & E0 & L0 & H0).
  4: { rewrite E0. cbn [bind]. rewrite wr_Ok by lia. eexists. split; [reflexivity|]. split; [rewrite length_upd; exact L0|]. split; [change 1%N with (2 ^ 0)%N at 1; apply N.pow_lt_mono_r; lia|]. split.
         - intros i Hi. rewrite nth_upd. destruct (Nat.eqb_spec NP (NP - i)) as [E|E].
           + replace (NP <? length g0) with true by lia. replace i with 0 by lia. reflexivity.
           + cbn [andb]. rewrite H0. replace (NP - i <? NP) with true by lia. rewrite (testbit_high 1 1) by (try (cbn; lia); lia). reflexivity.
         - intros k Hk. rewrite nth_upd. replace (NP =? k) with false by lia. cbn [andb]. rewrite H0. replace (k <? NP) with false by lia. reflexivity. }
  - lia.
  - intros k g Hk (L & H). cbv beta. rewrite wr_Ok by lia. eexists. split; [reflexivity|]. rewrite length_upd. split; [exact L|]. intros i. rewrite nth_upd. destruct (Nat.eqb_spec k i) as [->|Hne].
    + replace (i <? length g) with true by lia. replace (i <? S i) with true by lia. reflexivity.
    + cbn [andb]. rewrite H. replace (i <? S k) with (i <? k) by lia. reflexivity.
  - split; [reflexivity|]. reflexivity.
Qed.
Lemma poly_rejects NP (genpoly : list Z) ms1 m ms2 : 1 <= NP -> NP < length genpoly -> Forall allowed ms1 -> N.odd m = false -> osd_poly NP genpoly (ms1 ++ m :: ms2) = Abort.
Proof.
  intros HNP HL HM Ho. destruct (poly_init NP genpoly HNP HL) as (g0 & E0 & Z0). unfold osd_poly. cbv zeta.
  destruct (for_up 0 NP (fun i genpoly => wr genpoly i 0%Z) genpoly) as [gz| | |]; cbn [bind] in E0 |- *; try discriminate. rewrite E0. cbn [bind].
  change (fun (m : BinNums.N) '(genpoly0, genpoly_degree) => assert_ (nz m);;; _) with (zeach_body NP). rewrite bch_each_app.
  destruct (zeach_ok NP HNP genpoly HL ms1 _ 1%N Z0 ltac:(discriminate) HM) as [(_ & gen & E & _)|(_ & E)];
    change (S (N.to_nat (N.log2 1))) with 1 in E; rewrite E; cbn [bind]; [|reflexivity].
  cbn [bch_each]. unfold zeach_body at 1. rewrite Ho. destruct (nz m); reflexivity.
Qed.
