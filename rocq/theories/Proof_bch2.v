(** Proofs about Model_bch: the constructors of the encoders. *)
From Coq Require Import ZifyBool ZifyNat ZifyN.
From Verif Require Import Cpp Lib_list Proof_bits Model_bits Spec_bits Model_gf Model_bch Spec_gf Spec_bch Lib_gf2lin Lib_gf2poly Lib_gf.
Local Open Scope N_scope.

Lemma pow2_tb i j : N.testbit (2 ^ i) j = (i =? j).
Proof. destruct (N.eqb_spec i j) as [->|H]; [apply N.pow2_bits_true|apply N.pow2_bits_false; exact H]. Qed.
Lemma tb_mod x k i : N.testbit (x mod 2 ^ k) i = (N.testbit x i && (i <? k))%bool.
Proof. apply wrap_testbit. Qed.
Lemma lt_log2 x k : x <> 0 -> (x < 2 ^ k <-> N.log2 x < k).
Proof. intros H. apply N.log2_lt_pow2. lia. Qed.
Lemma lt_lxor x y k : x < 2 ^ k -> y < 2 ^ k -> N.lxor x y < 2 ^ k.
Proof. intros Hx Hy. apply lt_pow2_testbit. intros i Hi. rewrite N.lxor_spec, (testbit_high k x i Hx Hi), (testbit_high k y i Hy Hi). reflexivity. Qed.

(** ** the multiplication in place *)
(** the state when the coefficients from i on of g have been replaced *)
Definition mstate (g m : N) (i : N) : N := N.lxor (clmul (N.shiftl (N.shiftr g i) i) m) (g mod 2 ^ i).
Lemma mstate_hi g m i : g < 2 ^ i -> mstate g m i = g.
Proof.
  intros H. unfold mstate. rewrite N.shiftr_div_pow2, N.div_small, N.shiftl_0_l by exact H. rewrite N.mod_small by exact H. reflexivity.
Qed.
Lemma mstate_0 g m : mstate g m 0 = clmul g m.
Proof. unfold mstate. rewrite N.shiftr_0_r, N.shiftl_0_r, N.pow_0_r, N.mod_1_r, N.lxor_0_r. reflexivity. Qed.
Lemma mstate_low g m i j : j < i -> N.testbit (mstate g m i) j = N.testbit g j.
Proof.
  intros H. unfold mstate. rewrite clmul_shiftl_l, N.lxor_spec, N.shiftl_spec_low, tb_mod by exact H. replace (j <? i) with true by lia. rewrite andb_true_r. apply xorb_false_l.
Qed.
Lemma mstate_step g m i : mstate g m i = if N.testbit g i then N.lxor (N.lxor (mstate g m (i + 1)) (2 ^ i)) (N.shiftl m i) else mstate g m (i + 1).
Proof.
  unfold mstate.
  assert (E1 : g mod 2 ^ (i + 1) = N.lxor (g mod 2 ^ i) (if N.testbit g i then 2 ^ i else 0)).
  { apply N.bits_inj. intros j. rewrite N.lxor_spec, !tb_mod. destruct (N.testbit g i) eqn:B.
    - rewrite pow2_tb. destruct (N.eqb_spec i j) as [<-|]; [rewrite B; replace (i <? i + 1) with true by lia; replace (i <? i) with false by lia; reflexivity|].
      replace (j <? i + 1) with (j <? i) by lia. rewrite xorb_false_r. reflexivity.
    - rewrite N.bits_0, xorb_false_r. destruct (N.eq_dec i j) as [<-|]; [rewrite B; reflexivity|]. replace (j <? i + 1) with (j <? i) by lia. reflexivity. }
  assert (E2 : N.shiftl (N.shiftr g i) i = N.lxor (N.shiftl (N.shiftr g (i + 1)) (i + 1)) (if N.testbit g i then 2 ^ i else 0)).
  { apply N.bits_inj. intros j. rewrite N.lxor_spec, !tb_shiftl, !N.shiftr_spec by lia. destruct (N.testbit g i) eqn:B.
    - rewrite pow2_tb. destruct (N.eqb_spec i j) as [<-|]; [rewrite N.leb_refl; replace (i - i + i) with i by lia; rewrite B; replace (i + 1 <=? i) with false by lia; reflexivity|].
      rewrite xorb_false_r. replace (i + 1 <=? j) with (i <=? j) by lia. destruct (N.leb_spec i j); [|reflexivity]. do 2 f_equal. lia.
    - rewrite N.bits_0, xorb_false_r. destruct (N.eq_dec i j) as [<-|]; [rewrite N.leb_refl; replace (i - i + i) with i by lia; rewrite B; replace (i + 1 <=? i) with false by lia; reflexivity|].
      replace (i + 1 <=? j) with (i <=? j) by lia. destruct (N.leb_spec i j); [|reflexivity]. do 2 f_equal. lia. }
  rewrite E1, E2. destruct (N.testbit g i); rewrite ?N.lxor_0_r; [|reflexivity]. rewrite clmul_lxor_l, clmul_pow2.
  set (X := clmul _ m). set (Y := N.shiftl m i). set (Z := g mod 2 ^ i). set (T := 2 ^ i).
  apply N.bits_inj. intros j. rewrite !N.lxor_spec. destruct (N.testbit X j), (N.testbit Y j), (N.testbit Z j), (N.testbit T j); reflexivity.
Qed.

Lemma fold_clmul_pos ms : forall g, g <> 0 -> Forall (fun m => m <> 0) ms -> fold_left clmul ms g <> 0 /\ N.log2 g <= N.log2 (fold_left clmul ms g).
Proof.
  induction ms as [|m ms IH]; intros g Hg HM; [cbn; split; [exact Hg|lia]|]. inversion HM as [|? ? Hm HM']; subst. cbn [fold_left].
  destruct (clmul_top g m Hg Hm) as (H1 & H2). destruct (IH _ H1 HM') as (H3 & H4). split; [exact H3|lia].
Qed.

(** ** degree of a minimal polynomial *)
Lemma shiftr_nz m d : m <> 0 -> nz (N.shiftr m (N.of_nat d)) = (N.of_nat d <=? N.log2 m).
Proof.
  intros Hm. unfold nz. rewrite N.shiftr_div_pow2. pose proof (N.log2_spec m ltac:(lia)) as HL.
  destruct (N.leb_spec (N.of_nat d) (N.log2 m)) as [H|H].
  - assert (2 ^ N.of_nat d <= 2 ^ N.log2 m) by (apply N.pow_le_mono_r; lia). assert (P : 0 < 2 ^ N.of_nat d) by (apply N.neq_0_lt_0, N.pow_nonzero; discriminate).
    assert (m / 2 ^ N.of_nat d <> 0) by (apply N.neq_0_lt_0, N.div_str_pos; lia). lia.
  - assert (2 ^ N.succ (N.log2 m) <= 2 ^ N.of_nat d) by (apply N.pow_le_mono_r; lia). rewrite N.div_small by lia. reflexivity.
Qed.
Lemma degree_ok m : m <> 0 -> m < 2 ^ 31 -> bch_degree m = Ok (N.to_nat (N.log2 m)).
Proof.
  intros Hm HB. assert (N.log2 m < 31) by (apply N.log2_lt_pow2; lia). unfold bch_degree.
  edestruct (while_inv (fun d => (d <= S (N.to_nat (N.log2 m)))%nat) (fun d => (S (N.to_nat (N.log2 m)) - d)%nat)
     (fun d => Ok (nz (N.shiftr m (N.of_nat d)))) (fun d => Ok (S d))) as (d & E & H1 & H2).
  4: { rewrite E. cbn [bind]. f_equal. injection H2 as H2. rewrite shiftr_nz in H2 by exact Hm. lia. }
  - intros d Hd. cbv beta. eexists. split; [reflexivity|]. rewrite shiftr_nz by exact Hm. destruct (N.leb_spec (N.of_nat d) (N.log2 m)); [intros _|discriminate].
    eexists. split; [reflexivity|]. lia.
  - cbn. lia.
  - cbn. lia.
Qed.
Lemma refdegree_ok m d : m <> 0 -> N.log2 m <= N.of_nat d -> bchref_degree m d = Ok (N.to_nat (N.log2 m)).
Proof.
  intros Hm. induction d as [|d IH]; intros H; cbn [bchref_degree]; rewrite shiftr_nz by exact Hm.
  - replace (N.of_nat 0 <=? N.log2 m) with true by lia. f_equal. lia.
  - destruct (N.leb_spec (N.of_nat (S d)) (N.log2 m)); [f_equal; lia|]. apply IH. lia.
Qed.

Section P.
Variable NP : nat.
Hypothesis HNP : (1 <= NP)%nat.
Notation np := (Z.of_nat NP).

(** the array holds the coefficients of [v] *)
Definition grep (gen : list N) (v : N) : Prop :=
  bytes gen /\ length gen = ((NP + 1 + 7) / 8)%nat /\ v < 2 ^ N.of_nat (NP + 1) /\ forall i, be_bit_of gen i = ((i <=? NP)%nat && N.testbit v (N.of_nat (NP - i)))%bool.
Lemma grep_len gen v i : grep gen v -> (i <= NP)%nat -> (NP - i < 8 * length gen)%nat.
Proof. intros (_ & L & _). rewrite L. lia. Qed.
Lemma grep_get gen v i : grep gen v -> (i <= NP)%nat -> get_be_bit gen (np - Z.of_nat i) = Ok (N.testbit v (N.of_nat i)).
Proof.
  intros HG Hi. pose proof (grep_len _ _ i HG Hi). destruct HG as (B & L & _ & HT). replace (np - Z.of_nat i)%Z with (Z.of_nat (NP - i)) by lia.
  rewrite get_be_bit_ok by assumption. rewrite HT. replace (NP - i <=? NP)%nat with true by lia. replace (NP - (NP - i))%nat with i by lia. reflexivity.
Qed.
Lemma grep_get_top gen v : grep gen v -> get_be_bit gen (np - Z.of_nat (NP + 1)) = Ok false.
Proof.
  intros (B & L & _). replace (np - Z.of_nat (NP + 1))%Z with (-1)%Z by lia. unfold get_be_bit. change (Z.quot (-1) 8) with 0%Z. rewrite (rdZ_nth gen 0 0) by lia. cbn [bind].
  change (7 - Z.rem (-1) 8)%Z with 8%Z. rewrite odd_shiftr. f_equal. apply (testbit_high 8); [apply bytes_nth; exact B|cbn; lia].
Qed.
Lemma grep_set gen v i b : grep gen v -> (i <= NP)%nat -> exists gen', set_be_bit gen (np - Z.of_nat i) b = Ok gen' /\
  grep gen' (N.lxor v (if Bool.eqb (N.testbit v (N.of_nat i)) b then 0 else 2 ^ N.of_nat i)).
Proof.
  intros HG Hi. pose proof (grep_len _ _ i HG Hi) as HL. destruct HG as (B & L & HV & HT). replace (np - Z.of_nat i)%Z with (Z.of_nat (NP - i)) by lia.
  destruct (set_be_bit_ok gen (NP - i) B HL b) as (g' & E & L' & B' & T' & _). exists g'. split; [exact E|]. split; [exact B'|]. split; [lia|]. split.
  - apply lt_lxor; [exact HV|]. destruct (Bool.eqb _ _); [apply N.neq_0_lt_0, N.pow_nonzero; discriminate|apply N.pow_lt_mono_r; lia].
  - intros j. rewrite T', HT, N.lxor_spec. destruct (Nat.eqb_spec j (NP - i)) as [->|Hne].
    + replace (NP - i <=? NP)%nat with true by lia. replace (N.of_nat (NP - (NP - i))) with (N.of_nat i) by lia. cbn [andb].
      destruct (N.testbit v (N.of_nat i)), b; cbn [Bool.eqb]; rewrite ?N.bits_0, ?pow2_tb, ?N.eqb_refl; reflexivity.
    + destruct (Nat.leb_spec j NP); [|reflexivity]. cbn [andb]. destruct (Bool.eqb _ _); rewrite ?N.bits_0, ?pow2_tb; [rewrite xorb_false_r; reflexivity|].
      replace (N.of_nat i =? N.of_nat (NP - j)) with false by lia. rewrite xorb_false_r. reflexivity.
Qed.
Lemma grep_xor gen v i b : grep gen v -> (i <= NP)%nat -> exists gen', xor_be_bit gen (np - Z.of_nat i) b = Ok gen' /\
  grep gen' (N.lxor v (if b then 2 ^ N.of_nat i else 0)).
Proof.
  intros HG Hi. pose proof (grep_len _ _ i HG Hi) as HL. destruct HG as (B & L & HV & HT). replace (np - Z.of_nat i)%Z with (Z.of_nat (NP - i)) by lia.
  destruct (xor_be_bit_ok gen (NP - i) B HL b) as (g' & E & L' & B' & T' & _). exists g'. split; [exact E|]. split; [exact B'|]. split; [lia|]. split.
  - apply lt_lxor; [exact HV|]. destruct b; [apply N.pow_lt_mono_r; lia|apply N.neq_0_lt_0, N.pow_nonzero; discriminate].
  - intros j. rewrite T', HT, N.lxor_spec. destruct (Nat.eqb_spec j (NP - i)) as [->|Hne].
    + replace (NP - i <=? NP)%nat with true by lia. replace (N.of_nat (NP - (NP - i))) with (N.of_nat i) by lia. cbn [andb].
      destruct b; rewrite ?N.bits_0, ?pow2_tb, ?N.eqb_refl; reflexivity.
    + destruct (Nat.leb_spec j NP); [|reflexivity]. cbn [andb]. destruct b; rewrite ?N.bits_0, ?pow2_tb; [|rewrite xorb_false_r; reflexivity].
      replace (N.of_nat i =? N.of_nat (NP - j)) with false by lia. rewrite xorb_false_r. reflexivity.
Qed.

(** xoring the bits of m one by one *)
Definition partial (v m : N) (i j : nat) : N := N.lxor (N.lxor v (2 ^ N.of_nat i)) (N.shiftl (m mod 2 ^ N.of_nat j) (N.of_nat i)).
Lemma partial_S v m i j : partial v m i (S j) = N.lxor (partial v m i j) (if N.testbit m (N.of_nat j) then 2 ^ N.of_nat (i + j) else 0).
Proof.
  unfold partial. generalize (N.lxor v (2 ^ N.of_nat i)). intros u. rewrite N.lxor_assoc. f_equal. apply N.bits_inj. intros k. rewrite N.lxor_spec, !tb_shiftl, !tb_mod.
  destruct (N.testbit m (N.of_nat j)) eqn:B; rewrite ?N.bits_0, ?xorb_false_r, ?pow2_tb.
  - destruct (N.eqb_spec (N.of_nat (i + j)) k) as [<-|Hne].
    + replace (N.of_nat (i + j) - N.of_nat i) with (N.of_nat j) by lia. rewrite B. replace (N.of_nat i <=? N.of_nat (i + j)) with true by lia.
      replace (N.of_nat j <? N.of_nat (S j)) with true by lia. replace (N.of_nat j <? N.of_nat j) with false by lia. reflexivity.
    + rewrite xorb_false_r. destruct (N.leb_spec (N.of_nat i) k); [|reflexivity]. f_equal. f_equal. lia.
  - destruct (N.leb_spec (N.of_nat i) k); [|reflexivity]. cbn [andb]. destruct (N.eq_dec (k - N.of_nat i) (N.of_nat j)) as [->|]; [rewrite B; reflexivity|]. f_equal. lia.
Qed.
Lemma partial_1 v m i : N.testbit v (N.of_nat i) = true -> partial v m i 1 = N.lxor v (if Bool.eqb (N.testbit v (N.of_nat i)) (N.odd m) then 0 else 2 ^ N.of_nat i).
Proof.
  intros ->. rewrite partial_S. unfold partial. change (2 ^ N.of_nat 0) with 1. rewrite N.mod_1_r, N.shiftl_0_l, N.lxor_0_r, Nat.add_0_r, N.bit0_odd.
  destruct (N.odd m); cbn [Bool.eqb]; [|rewrite N.lxor_0_r; reflexivity]. rewrite N.lxor_assoc, N.lxor_nilpotent. reflexivity.
Qed.
Lemma partial_all v m i d : m < 2 ^ N.of_nat d -> partial v m i d = N.lxor (N.lxor v (2 ^ N.of_nat i)) (N.shiftl m (N.of_nat i)).
Proof. intros H. unfold partial. rewrite N.mod_small by exact H. reflexivity. Qed.

Definition mul_body (m : N) (md : nat) : nat -> list N -> res (list N) := fun i generator =>
  b <- get_be_bit generator (np - Z.of_nat i) ;;
  if negb b then Ok generator else
  generator <- set_be_bit generator (np - Z.of_nat i) (N.odd m) ;;
  for_up 1 (S md) (fun j generator => xor_be_bit generator (np - (Z.of_nat i + Z.of_nat j)) (N.odd (N.shiftr m (N.of_nat j)))) generator.
Lemma mul_ok gen g m : grep gen g -> g <> 0 -> m <> 0 -> (N.to_nat (N.log2 g) + N.to_nat (N.log2 m) <= NP)%nat ->
  exists gen', for_down (S (S (N.to_nat (N.log2 g)))) 0 (mul_body m (N.to_nat (N.log2 m))) gen = Ok gen' /\ grep gen' (clmul g m).
Proof.
  intros HG Hg Hm Hd. set (dg := N.to_nat (N.log2 g)) in *. set (md := N.to_nat (N.log2 m)) in *.
  edestruct (for_down_inv (fun i gen => grep gen (mstate g m (N.of_nat i)))) as (gen' & E & HI).
  4: { exists gen'. split; [exact E|]. rewrite <- (mstate_0 g m). exact HI. }
  - lia.
  - intros i gn Hi HR. unfold mul_body. replace (N.of_nat (S i)) with (N.of_nat i + 1) in HR by lia.
    destruct (Nat.le_gt_cases i NP) as [Hle|Hgt].
    + rewrite (grep_get gn _ i HR Hle). cbn [bind]. rewrite mstate_low by lia. rewrite (mstate_step g m (N.of_nat i)).
      destruct (N.testbit g (N.of_nat i)) eqn:B; cbn [negb]; [|eauto].
      assert (Hid : (i <= dg)%nat). { destruct (Nat.le_gt_cases i dg) as [H|H]; [exact H|]. exfalso. rewrite N.bits_above_log2 in B by lia. discriminate. }
      destruct (grep_set gn _ i (N.odd m) HR Hle) as (g1 & E1 & H1). rewrite E1. cbn [bind]. rewrite <- partial_1 in H1 by (rewrite mstate_low by lia; exact B).
      edestruct (for_up_inv (fun j gen => grep gen (partial (mstate g m (N.of_nat i + 1)) m i j))) as (g2 & E2 & H2).
      4: { exists g2. split; [exact E2|]. rewrite partial_all in H2; [exact H2|]. apply lt_log2; [exact Hm|lia]. }
      * lia.
      * intros j g3 Hj H3. cbv beta. replace (np - (Z.of_nat i + Z.of_nat j))%Z with (np - Z.of_nat (i + j))%Z by lia.
        destruct (grep_xor g3 _ (i + j) (N.odd (N.shiftr m (N.of_nat j))) H3 ltac:(lia)) as (g4 & E4 & H4). exists g4. split; [exact E4|].
        rewrite odd_shiftr in H4. rewrite partial_S. exact H4.
      * exact H1.
    + assert (i = NP + 1)%nat as -> by lia. rewrite (grep_get_top gn _ HR). cbn [bind negb]. exists gn. split; [reflexivity|].
      rewrite mstate_hi in HR |- *; [exact HR| |]; apply lt_log2; try assumption; lia.
  - rewrite mstate_hi; [exact HG|]. apply lt_log2; [exact Hg|lia].
Qed.

Definition each_body : N -> list N * nat -> res (list N * nat) := fun m '(generator, generator_degree) =>
  assert_ (nz m) ;;;
  m_degree <- bch_degree m ;;
  assert_ (generator_degree + m_degree <=? NP + 1)%nat ;;;
  generator <- for_down (S generator_degree) 0 (mul_body m m_degree) generator ;;
  Ok (generator, generator_degree + m_degree)%nat.
Lemma each_ok ms : forall gen g, grep gen g -> g <> 0 -> Forall (fun m => m <> 0 /\ m < 2 ^ 31) ms ->
  (N.log2 (fold_left clmul ms g) <= N.of_nat NP /\ exists gen', bch_each ms each_body (gen, S (N.to_nat (N.log2 g))) = Ok (gen', S (N.to_nat (N.log2 (fold_left clmul ms g)))) /\ grep gen' (fold_left clmul ms g)) \/
  (N.of_nat NP < N.log2 (fold_left clmul ms g) /\ bch_each ms each_body (gen, S (N.to_nat (N.log2 g))) = Abort).
Proof.
  induction ms as [|m ms IH]; intros gen g HG Hg HM; cbn [bch_each fold_left].
  - left. split; [|eauto]. destruct HG as (_ & _ & HV & _). apply (lt_log2 g) in HV; [lia|exact Hg].
  - inversion HM as [|? ? (Hm & Hm') HM']; subst. unfold each_body at 1 3. unfold nz at 1 2. replace (negb (m =? 0)) with true by lia. cbn [assert_ bind]. rewrite degree_ok by assumption. cbn [bind].
    destruct (clmul_top g m Hg Hm) as (Hgm & Lgm).
    destruct (Nat.leb_spec (S (N.to_nat (N.log2 g)) + N.to_nat (N.log2 m)) (NP + 1)) as [H|H]; cbn [assert_ bind].
    + destruct (mul_ok gen g m HG Hg Hm ltac:(lia)) as (gen' & E & HG'). rewrite E. cbn [bind].
      replace (S (N.to_nat (N.log2 g)) + N.to_nat (N.log2 m))%nat with (S (N.to_nat (N.log2 (clmul g m)))) by lia. apply IH; assumption.
    + right. split; [|reflexivity]. destruct (fold_clmul_pos ms (clmul g m) Hgm) as (_ & HH); [apply Forall_impl with (2 := HM'); tauto|]. lia.
Qed.

(** the array without the leading coefficient *)
Definition grep' (gen : list N) (v : N) : Prop :=
  bytes gen /\ length gen = ((NP + 1 + 7) / 8)%nat /\ forall i, be_bit_of gen i = ((i <? NP)%nat && N.testbit v (N.of_nat (NP - 1 - i)))%bool.
Lemma be_bit_repeat k i : be_bit_of (repeat 0 k) i = false.
Proof. unfold be_bit_of. rewrite nth_repeat. apply N.bits_0. Qed.
Lemma generator_ok ms : Forall (fun m => m <> 0 /\ m < 2 ^ 31) ms ->
  (N.log2 (poly_product ms) = N.of_nat NP -> exists gen, bch_generator NP ms = Ok gen /\ grep' gen (poly_product ms)) /\
  (N.log2 (poly_product ms) <> N.of_nat NP -> bch_generator NP ms = Abort).
Proof.
  intros HM. unfold bch_generator, poly_product. cbv zeta. set (z := repeat 0 ((NP + 1 + 7) / 8)).
  assert (LZ : length z = ((NP + 1 + 7) / 8)%nat) by apply repeat_length.
  assert (BZ : bytes z) by (apply Forall_forall; intros x Hx; apply repeat_spec in Hx; subst x; reflexivity).
  assert (GZ : grep z 0). { split; [exact BZ|]. split; [exact LZ|]. split; [apply N.neq_0_lt_0, N.pow_nonzero; discriminate|]. intros i. unfold z. rewrite be_bit_repeat, N.bits_0, andb_false_r. reflexivity. }
  destruct (grep_set z 0 0 true GZ ltac:(lia)) as (g1 & E1 & H1). replace (np - Z.of_nat 0)%Z with np in E1 by lia. rewrite E1. cbn [bind].
  rewrite N.bits_0 in H1. cbn [Bool.eqb] in H1. change (N.lxor 0 (2 ^ N.of_nat 0)) with 1 in H1.
  change (fun (m : N) '(generator, generator_degree) =>
     assert_ (nz m);;;
     m_degree <- bch_degree m;;
     assert_ (generator_degree + m_degree <=? NP + 1)%nat;;;
     generator0 <-
     for_down (S generator_degree) 0
       (fun (i : nat) (generator0 : list N) =>
        b <- get_be_bit generator0 (np - Z.of_nat i);;
        (if negb b
         then Ok generator0
         else
          generator1 <- set_be_bit generator0 (np - Z.of_nat i) (N.odd m);;
          for_up 1 (S m_degree)
            (fun (j : nat) (generator2 : list N) =>
             xor_be_bit generator2 (np - (Z.of_nat i + Z.of_nat j))
               (N.odd (N.shiftr m (N.of_nat j)))) generator1)) generator;;
     Ok (generator0, (generator_degree + m_degree)%nat)) with each_body.
  pose proof (each_ok ms g1 1 H1 ltac:(discriminate) HM) as HE. change (S (N.to_nat (N.log2 1))) with 1%nat in HE. change (@fold_left N N clmul ms 1) with (poly_product ms) in *.
  destruct HE as [(HL & g2 & E2 & H2)|(HL & E2)]; rewrite E2; cbn [bind]; [|split; [lia|reflexivity]].
  destruct (Nat.eqb_spec (S (N.to_nat (N.log2 (poly_product ms)))) (NP + 1)) as [HD|HD]; cbn [assert_ bind]; [|split; [lia|reflexivity]].
  split; [intros _|lia]. set (g := poly_product ms) in *. destruct H2 as (B2 & L2 & V2 & T2).
  edestruct (for_up_inv (fun n gen => bytes gen /\ length gen = ((NP + 1 + 7) / 8)%nat /\ forall i, be_bit_of gen i = if (i <? n)%nat then be_bit_of g2 (i + 1) else be_bit_of g2 i)) as (g3 & E3 & B3 & L3 & T3).
  4: { rewrite E3. cbn [bind]. destruct (set_be_bit_ok g3 NP B3 ltac:(lia) false) as (g4 & E4 & L4 & B4 & T4 & _). exists g4. split; [exact E4|].
    split; [exact B4|]. split; [lia|]. intros i. rewrite T4, T3. destruct (Nat.eqb_spec i NP) as [->|Hne]; [rewrite Nat.ltb_irrefl; reflexivity|].
    rewrite !T2. destruct (Nat.ltb_spec i NP) as [Hi|Hi]; [|replace (i <=? NP)%nat with false by lia; reflexivity].
    replace (i + 1 <=? NP)%nat with true by lia. do 2 f_equal. lia. }
  - lia.
  - intros n gn Hn (Bn & Ln & Tn). cbv beta. replace (Z.of_nat n + 1)%Z with (Z.of_nat (n + 1)) by lia. rewrite get_be_bit_ok by (try exact Bn; lia). cbn [bind].
    destruct (set_be_bit_ok gn n Bn ltac:(lia) (be_bit_of gn (n + 1))) as (g4 & E4 & L4 & B4 & T4 & _). exists g4. split; [exact E4|]. split; [exact B4|]. split; [lia|].
    intros i. rewrite T4, !Tn. replace (n + 1 <? n)%nat with false by lia. destruct (Nat.eqb_spec i n) as [->|Hne]; [replace (n <? S n)%nat with true by lia; reflexivity|].
    replace (i <? S n)%nat with (i <? n)%nat by lia. reflexivity.
  - auto.
Qed.
End P.
