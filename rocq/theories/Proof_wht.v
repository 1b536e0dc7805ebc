(** Proofs about Model_wht. *)
From Coq Require Import ZifyBool ZifyNat ZifyN.
From Verif Require Import Cpp Lib_list Model_wht Spec_wht Lib_wht.
Local Open Scope Z_scope.

(** ** parity *)
Lemma odd_ones_split x k : odd_ones x = xorb (odd_ones (x mod 2 ^ k)) (odd_ones (N.shiftr x k)).
Proof.
  assert (E : x = N.lxor (x mod 2 ^ k) (N.shiftl (N.shiftr x k) k)).
  { apply N.bits_inj. intros i. rewrite N.lxor_spec. destruct (N.lt_ge_cases i k).
    - rewrite N.mod_pow2_bits_low, N.shiftl_spec_low, xorb_false_r by assumption. reflexivity.
    - rewrite N.mod_pow2_bits_high, N.shiftl_spec_high', N.shiftr_spec' by assumption. rewrite xorb_false_l. f_equal. lia. }
  rewrite E at 1. rewrite odd_ones_lxor, odd_ones_shiftl. reflexivity.
Qed.
Lemma fold_step x k : (x < 2 ^ (k + k))%N -> odd_ones (N.lxor x (N.shiftr x k) mod 2 ^ k) = odd_ones x.
Proof.
  intros H. rewrite (odd_ones_split x k), <- odd_ones_lxor. f_equal.
  apply N.bits_inj. intros i. rewrite N.lxor_spec. destruct (N.lt_ge_cases i k).
  - rewrite !N.mod_pow2_bits_low, N.lxor_spec by assumption. reflexivity.
  - rewrite !N.mod_pow2_bits_high, N.shiftr_spec' by assumption. rewrite (testbit_high (k + k) x) by (assumption || lia). reflexivity.
Qed.
Lemma lxor_shiftr_mod x k n : (n + k <= n + n)%N -> (N.lxor x (N.shiftr x k) mod 2 ^ n = N.lxor (x mod 2 ^ (n + k)) (N.shiftr (x mod 2 ^ (n + k)) k) mod 2 ^ n)%N.
Proof.
  intros H. apply N.bits_inj. intros i. destruct (N.lt_ge_cases i n).
  - rewrite !N.mod_pow2_bits_low, !N.lxor_spec, !N.shiftr_spec' by assumption. rewrite !N.mod_pow2_bits_low by lia. reflexivity.
  - rewrite !N.mod_pow2_bits_high by assumption. reflexivity.
Qed.
Lemma fold_step' x k : odd_ones (N.lxor x (N.shiftr x k) mod 2 ^ k) = odd_ones (x mod 2 ^ (k + k)).
Proof. rewrite lxor_shiftr_mod by lia. apply fold_step. apply N.mod_lt, N.pow_nonzero. discriminate. Qed.

Lemma parity_ok x : (x < 2 ^ 32)%N -> wht_parity x = odd_ones x.
Proof.
  intros H. unfold wht_parity.
  set (x1 := N.lxor x (N.shiftr x 16)). set (x2 := N.lxor x1 (N.shiftr x1 8)). set (x3 := N.lxor x2 (N.shiftr x2 4)).
  set (x4 := N.lxor x3 (N.shiftr x3 2)). set (x5 := N.lxor x4 (N.shiftr x4 1)).
  assert (E1 : odd_ones (x1 mod 2 ^ 16) = odd_ones x) by (unfold x1; rewrite fold_step'; f_equal; apply N.mod_small; exact H).
  assert (E2 : odd_ones (x2 mod 2 ^ 8) = odd_ones x) by (unfold x2; rewrite fold_step'; exact E1).
  assert (E3 : odd_ones (x3 mod 2 ^ 4) = odd_ones x) by (unfold x3; rewrite fold_step'; exact E2).
  assert (E4 : odd_ones (x4 mod 2 ^ 2) = odd_ones x) by (unfold x4; rewrite fold_step'; exact E3).
  assert (E5 : odd_ones (x5 mod 2 ^ 1) = odd_ones x) by (unfold x5; rewrite fold_step'; exact E4).
  rewrite <- E5. clearbody x5. change (N.land x5 1) with (N.land x5 (N.ones 1)). rewrite N.land_ones.
  assert (HL : (x5 mod 2 ^ 1 < 2)%N) by (apply N.mod_lt; discriminate).
  destruct (x5 mod 2 ^ 1)%N as [|[p|p|]]; try lia; reflexivity.
Qed.

(** ** encoders *)
Lemma mod_ok K : (K <= 31)%nat -> exists m, wht_mod K = Ok m /\ length m = (2 ^ K)%nat /\
  forall i, (i < 2 ^ K)%nat -> nth i m None = Some (if odd_ones (N.of_nat i) then -1 else 1).
Proof.
  intros HK. unfold wht_mod.
  assert (HP : (N.of_nat (2 ^ K) <= 2 ^ 31)%N) by (rewrite pow2_of_nat; apply N.pow_le_mono_r; lia).
  assert (H32 : (2 ^ 31 < 2 ^ 32)%N) by reflexivity.
  edestruct (for_up_inv (fun i (m : list (option Z)) => length m = (2 ^ K)%nat /\
    forall j, (j < i)%nat -> nth j m None = Some (if odd_ones (N.of_nat j) then -1 else 1))) as (m & E & L & V).
  4: { exists m. split; [exact E|]. split; [exact L|exact V]. }
  - lia.
  - intros i m Hi (L & V). cbv beta. unfold wru. rewrite wr_Ok by lia. eexists; split; [reflexivity|].
    rewrite length_upd. split; [exact L|]. intros j Hj. rewrite nth_upd.
    destruct (Nat.eqb_spec i j) as [->|Hn].
    + destruct (Nat.ltb_spec j (length m)); [|lia]. cbn [andb]. rewrite parity_ok by lia. destruct (odd_ones (N.of_nat j)); reflexivity.
    + cbn [andb]. apply V. lia.
  - split; [unfold uninit; apply repeat_length|intros; lia].
Qed.

Lemma rduZ_mod K m idx : (K <= 31)%nat -> length m = (2 ^ K)%nat ->
  (forall i, (i < 2 ^ K)%nat -> nth i m None = Some (if odd_ones (N.of_nat i) then -1 else 1)) ->
  (idx < 2 ^ N.of_nat K)%N -> rduZ m (Z.of_N idx) = Ok (if odd_ones idx then -1 else 1).
Proof.
  intros HK L V H. unfold rduZ. destruct (Z.ltb_spec (Z.of_N idx) 0); [lia|]. apply rdu_nth.
  replace (Z.to_nat (Z.of_N idx)) with (N.to_nat idx) by lia. rewrite V by (rewrite <- pow2_of_nat in H; lia).
  rewrite N2Nat.id. reflexivity.
Qed.

Lemma write_all (n : nat) (f : nat -> Z) (g : nat -> res Z) (code : list Z) :
  (n <= length code)%nat -> (forall i, (i < n)%nat -> g i = Ok (f i)) ->
  for_up 0 n (fun i code => x <- g i ;; wr code i x) code = Ok (word n f ++ skipn n code).
Proof.
  intros Hn Hg.
  edestruct (for_up_inv (fun i (c : list Z) => length c = length code /\
    (forall j, (j < i)%nat -> nth j c 0 = f j) /\ forall j, (i <= j)%nat -> nth j c 0 = nth j code 0)) as (c & E & L & V & R).
  4: { rewrite E. f_equal. apply (list_ext _ _ 0).
       - unfold word. rewrite app_length, map_length, seq_length, skipn_length. lia.
       - intros i Hi. destruct (Nat.lt_ge_cases i n) as [H|H].
         + rewrite V by exact H. unfold word. rewrite app_nth1 by (rewrite map_length, seq_length; lia).
           rewrite (nth_indep _ 0 (f O)) by (rewrite map_length, seq_length; lia). rewrite map_nth, seq_nth by lia. reflexivity.
         + rewrite R by exact H. unfold word. rewrite app_nth2 by (rewrite map_length, seq_length; lia).
           rewrite map_length, seq_length, nth_skipn'. f_equal. lia. }
  - lia.
  - intros i c Hi (L & V & R). cbv beta. rewrite Hg by lia. cbn [bind]. rewrite wr_Ok by lia. eexists; split; [reflexivity|].
    rewrite length_upd. split; [exact L|]. split.
    + intros j Hj. rewrite nth_upd. destruct (Nat.eqb_spec i j) as [->|Hne].
      * destruct (Nat.ltb_spec j (length c)); [reflexivity|lia].
      * cbn [andb]. apply V. lia.
    + intros j Hj. rewrite nth_upd_neq by lia. apply R. lia.
  - split; [reflexivity|]. split; [intros; lia|reflexivity].
Qed.

Definition low (K : nat) (msg : Z) : N := Z.to_N (msg mod 2 ^ Z.of_nat K).
Lemma low_lt K msg : (low K msg < 2 ^ N.of_nat K)%N.
Proof.
  unfold low. assert (0 <= msg mod 2 ^ Z.of_nat K < 2 ^ Z.of_nat K) by (apply Z.mod_pos_bound, Z.pow_pos_nonneg; lia).
  assert (E : Z.of_N (2 ^ N.of_nat K) = 2 ^ Z.of_nat K) by (rewrite N2Z.inj_pow; f_equal; lia). lia.
Qed.
Lemma low_small K msg : 0 <= msg < 2 ^ Z.of_nat K -> low K msg = Z.to_N msg.
Proof. intros H. unfold low. rewrite Z.mod_small by exact H. reflexivity. Qed.
Lemma land_low K msg x : (x < 2 ^ N.of_nat K)%N -> Z.land msg (Z.of_N x) = Z.of_N (N.land (low K msg) x).
Proof.
  intros H. apply Z.bits_inj'. intros i Hi. rewrite Z.land_spec, <- (Z2N.id i) by lia. rewrite !Z.testbit_of_N, N.land_spec.
  destruct (N.lt_ge_cases (Z.to_N i) (N.of_nat K)) as [Hk|Hk].
  - f_equal. unfold low. rewrite <- (Z.testbit_of_N (Z.to_N (msg mod _))).
    rewrite (Z2N.id (msg mod 2 ^ Z.of_nat K)) by (apply Z.mod_pos_bound, Z.pow_pos_nonneg; lia). rewrite Z.mod_pow2_bits_low by lia. reflexivity.
  - rewrite (testbit_high (N.of_nat K) x) by assumption. rewrite !andb_false_r. reflexivity.
Qed.

Lemma of_N_lor a b : Z.lor (Z.of_N a) (Z.of_N b) = Z.of_N (N.lor a b).
Proof. destruct a, b; reflexivity. Qed.
Lemma had_encode_ok K m code msg : (1 <= K <= 31)%nat -> wht_mod K = Ok m -> (2 ^ (K - 1) <= length code)%nat ->
  had_encode K m code msg = Ok (hadamard_word K (low K msg) ++ skipn (2 ^ (K - 1)) code).
Proof.
  intros HK Hm HL. destruct (mod_ok K ltac:(lia)) as (m' & E & L & V). rewrite Hm in E. injection E as <-.
  unfold had_encode, hadamard_word. apply write_all; [exact HL|]. intros i Hi.
  pose proof (low_lt K msg) as Hlow. set (u := low K msg) in *.
  assert (PK : (2 ^ N.of_nat K = 2 * 2 ^ N.of_nat (K - 1))%N) by (rewrite <- N.pow_succ_r'; f_equal; lia).
  assert (PS : (2 ^ K)%nat = (2 * 2 ^ (K - 1))%nat) by (change (2 * 2 ^ (K - 1))%nat with (2 ^ S (K - 1))%nat; f_equal; lia).
  assert (Hi' : (N.of_nat i < 2 ^ N.of_nat (K - 1))%N) by (rewrite <- pow2_of_nat; lia).
  assert (ELor : Z.lor (Z.of_nat i) (Z.of_nat (2 ^ (K - 1))) = Z.of_N (N.of_nat i + 2 ^ N.of_nat (K - 1))).
  { rewrite <- !nat_N_Z, pow2_of_nat. rewrite add_pow2_lxor by exact Hi'. rewrite N.lxor_lor.
    - apply of_N_lor.
    - rewrite land_pow2, (testbit_high (N.of_nat (K - 1))) by (exact Hi' || lia). reflexivity. }
  rewrite ELor, (land_low K) by lia. fold u. rewrite (rduZ_mod K) by (first [assumption|lia
    | apply lt_pow2_testbit; intros j Hj; rewrite N.land_spec, (testbit_high (N.of_nat K) u) by assumption; reflexivity]).
  f_equal. set (a := (u mod 2 ^ N.of_nat (K - 1))%N).
  assert (Ha : (a < 2 ^ N.of_nat (K - 1))%N) by (apply N.mod_lt, N.pow_nonzero; discriminate).
  assert (Eu : u = (if N.testbit u (N.of_nat (K - 1)) then a + 2 ^ N.of_nat (K - 1) else a)%N).
  { rewrite N.testbit_eqb. unfold a. set (q := (2 ^ N.of_nat (K - 1))%N) in *.
    assert (q <> 0)%N by (apply N.pow_nonzero; discriminate). pose proof (N.div_mod' u q) as D.
    assert (H0 : (u / q < 2)%N) by (apply N.div_lt_upper_bound; lia).
    clear Ha. clearbody a. clear a. revert D H0. generalize (u mod q)%N. generalize (u / q)%N. intros d r D Hd.
    assert (d = 0 \/ d = 1)%N as [-> | ->] by lia; [change (0 mod 2 =? 1)%N with false|change (1 mod 2 =? 1)%N with true]; cbv iota; lia. }
  fold (walsh u (N.of_nat i + 2 ^ N.of_nat (K - 1))). rewrite Eu at 1.
  destruct (N.testbit u (N.of_nat (K - 1))); [rewrite walsh_rr by assumption|rewrite walsh_ll by assumption]; lia.
Qed.

Lemma spx_encode_ok K m code msg : (K <= 31)%nat -> wht_mod K = Ok m -> (2 ^ K - 1 <= length code)%nat ->
  spx_encode K m code msg = Ok (simplex_word K (low K msg) ++ skipn (2 ^ K - 1) code).
Proof.
  intros HK Hm HL. destruct (mod_ok K ltac:(lia)) as (m' & E & L & V). rewrite Hm in E. injection E as <-.
  unfold spx_encode, simplex_word. apply write_all; [exact HL|]. intros i Hi.
  pose proof (low_lt K msg) as Hlow. set (u := low K msg) in *.
  replace (Z.of_nat i + 1) with (Z.of_N (N.of_nat (i + 1))) by lia.
  rewrite (land_low K) by (rewrite <- pow2_of_nat; lia). fold u. rewrite (rduZ_mod K) by (first [assumption|lia
    | apply lt_pow2_testbit; intros j Hj; rewrite N.land_spec, (testbit_high (N.of_nat K) u) by assumption; reflexivity]).
  reflexivity.
Qed.

(** ** butterflies *)
Definition holds (size : nat) (v : nat -> Z) (sum : list (option Z)) : Prop :=
  length sum = size /\ forall i, (i < size)%nat -> nth i sum None = Some (v i).
Lemma holds_rdu size v sum i : holds size v sum -> (i < size)%nat -> rdu sum i = Ok (v i).
Proof. intros (L & V) H. apply rdu_nth. apply V. exact H. Qed.
Lemma holds_wru size v sum i x : holds size v sum -> (i < size)%nat ->
  exists sum', wru sum i x = Ok sum' /\ holds size (fun j => if (j =? i)%nat then x else v j) sum'.
Proof.
  intros (L & V) H. unfold wru. rewrite wr_Ok by lia. eexists; split; [reflexivity|]. split; [rewrite length_upd; exact L|].
  intros j Hj. rewrite nth_upd. rewrite (Nat.eqb_sym j i). destruct (Nat.eqb_spec i j) as [->|].
  - destruct (Nat.ltb_spec j (length sum)); [reflexivity|lia].
  - cbn [andb]. apply V. exact Hj.
Qed.
Lemma holds_ext size v v' sum : holds size v sum -> (forall i, (i < size)%nat -> v i = v' i) -> holds size v' sum.
Proof. intros (L & V) H. split; [exact L|]. intros i Hi. rewrite V, H by exact Hi. reflexivity. Qed.

Definition bfly (h i : nat) (n : nat) (v : nat -> Z) (j : nat) : Z :=
  if ((i <=? j) && (j <? i + n))%nat then v j + v (j + h)%nat
  else if ((i + h <=? j) && (j <? i + h + n))%nat then v (j - h)%nat - v j else v j.
Lemma div_block b r n : (r < n)%nat -> ((b * n + r) / n = b)%nat.
Proof. intros H. rewrite Nat.div_add_l by lia. rewrite Nat.div_small by lia. lia. Qed.
Lemma mod_block b r n : (r < n)%nat -> ((b * n + r) mod n = r)%nat.
Proof. intros H. rewrite Nat.add_comm, Nat.mod_add by lia. apply Nat.mod_small. exact H. Qed.

(** the array after the stages of block length 2^s *)
Definition stage (c : nat -> Z) (s j : nat) : Z := wblock c s (j / 2 ^ s) (j mod 2 ^ s).
Lemma stage_ok n s c sum : (forall i, Z.abs (c i) <= 128) -> (s < n <= 23)%nat -> holds (2 ^ n) (stage c s) sum ->
  exists sum', for_step 0 (2 ^ n) (2 * 2 ^ s) (wht_block (2 ^ s)) sum = Ok sum' /\ holds (2 ^ n) (stage c (S s)) sum'.
Proof.
  intros Hc Hn HS. pose proof (pow2_pos s) as Hp.
  assert (EN : (2 ^ n)%nat = (2 ^ (n - S s) * (2 * 2 ^ s))%nat).
  { change (2 * 2 ^ s)%nat with (2 ^ S s)%nat. rewrite <- Nat.pow_add_r. f_equal. lia. }
  cut (exists sum', for_step 0 (2 ^ (n - S s) * (2 * 2 ^ s)) (2 * 2 ^ s) (wht_block (2 ^ s)) sum = Ok sum' /\ holds (2 ^ n) (stage c (S s)) sum').
  { rewrite <- EN. auto. }
  edestruct (for_step_inv (fun k sm => holds (2 ^ n) (fun j => if (j <? k * (2 * 2 ^ s))%nat then stage c (S s) j else stage c s j) sm)) as (sm & E & H).
  4: { exists sm. split; [exact E|]. eapply holds_ext; [exact H|]. intros j Hj. cbv beta. rewrite <- EN.
       destruct (Nat.ltb_spec j (2 ^ n)); [reflexivity|lia]. }
  - lia.
  - intros k sm Hk H. cbv beta.
    assert (HB : 128 * 2 ^ Z.of_nat s <= 1073741823).
    { assert (2 ^ Z.of_nat s <= 2 ^ 22) by (apply Z.pow_le_mono_r; lia). change (2 ^ 22) with 4194304 in *. lia. }
    assert (HB0 : 0 <= 2 ^ Z.of_nat s) by (apply Z.pow_nonneg; lia).
    edestruct (for_up_inv (fun j' s' => holds (2 ^ n) (fun j => if (j <? k * (2 * 2 ^ s))%nat then stage c (S s) j else bfly (2 ^ s) (k * (2 * 2 ^ s)) (j' - k * (2 * 2 ^ s)) (stage c s) j) s')) as (s' & E' & H').
    4: { exists s'. split; [exact E'|]. eapply holds_ext; [exact H'|]. intros j Hj. cbv beta.
         replace (k * (2 * 2 ^ s) + 2 ^ s - k * (2 * 2 ^ s))%nat with (2 ^ s)%nat by lia.
         destruct (Nat.ltb_spec j (k * (2 * 2 ^ s))) as [J1|J1].
         { destruct (Nat.ltb_spec j (S k * (2 * 2 ^ s))); [reflexivity|lia]. }
         unfold bfly. set (r := (j - k * (2 * 2 ^ s))%nat). assert (Ej : j = (k * (2 * 2 ^ s) + r)%nat) by (unfold r; lia).
         clearbody r. subst j. destruct (Nat.ltb_spec (k * (2 * 2 ^ s) + r) (S k * (2 * 2 ^ s))) as [J2|J2].
         - unfold stage. change (2 ^ S s)%nat with (2 * 2 ^ s)%nat. rewrite div_block, mod_block by lia.
           destruct (Nat.lt_ge_cases r (2 ^ s)) as [R|R].
           + replace ((k * (2 * 2 ^ s) <=? k * (2 * 2 ^ s) + r) && (k * (2 * 2 ^ s) + r <? k * (2 * 2 ^ s) + 2 ^ s))%nat with true by lia.
             replace (k * (2 * 2 ^ s) + r)%nat with ((2 * k) * 2 ^ s + r)%nat by lia.
             replace ((2 * k) * 2 ^ s + r + 2 ^ s)%nat with ((2 * k + 1) * 2 ^ s + r)%nat by lia.
             rewrite !div_block, !mod_block by lia. rewrite wblock_lo by lia. reflexivity.
           + replace ((k * (2 * 2 ^ s) <=? k * (2 * 2 ^ s) + r) && (k * (2 * 2 ^ s) + r <? k * (2 * 2 ^ s) + 2 ^ s))%nat with false by lia.
             replace ((k * (2 * 2 ^ s) + 2 ^ s <=? k * (2 * 2 ^ s) + r) && (k * (2 * 2 ^ s) + r <? k * (2 * 2 ^ s) + 2 ^ s + 2 ^ s))%nat with true by lia.
             set (q := (r - 2 ^ s)%nat). assert (Er : r = (q + 2 ^ s)%nat) by (unfold q; lia). clearbody q. subst r.
             replace (k * (2 * 2 ^ s) + (q + 2 ^ s) - 2 ^ s)%nat with ((2 * k) * 2 ^ s + q)%nat by lia.
             replace (k * (2 * 2 ^ s) + (q + 2 ^ s))%nat with ((2 * k + 1) * 2 ^ s + q)%nat by lia.
             rewrite !div_block, !mod_block by lia. rewrite wblock_hi by lia. reflexivity.
         - replace ((k * (2 * 2 ^ s) <=? k * (2 * 2 ^ s) + r) && (k * (2 * 2 ^ s) + r <? k * (2 * 2 ^ s) + 2 ^ s))%nat with false by lia.
           replace ((k * (2 * 2 ^ s) + 2 ^ s <=? k * (2 * 2 ^ s) + r) && (k * (2 * 2 ^ s) + r <? k * (2 * 2 ^ s) + 2 ^ s + 2 ^ s))%nat with false by lia.
           reflexivity. }
    + lia.
    + set (i := (k * (2 * 2 ^ s))%nat) in *. set (h := (2 ^ s)%nat) in *.
      assert (Hih : (i + 2 * h <= 2 ^ n)%nat) by (rewrite EN; unfold i, h; nia).
      intros j sm' Hj Hsm. cbv beta.
      assert (E1 : bfly h i (j - i) (stage c s) j = stage c s j).
      { unfold bfly. replace ((i <=? j) && (j <? i + (j - i)))%nat with false by lia.
        replace ((i + h <=? j) && (j <? i + h + (j - i)))%nat with false by lia. reflexivity. }
      assert (E2 : bfly h i (j - i) (stage c s) (j + h)%nat = stage c s (j + h)%nat).
      { unfold bfly. replace ((i <=? j + h) && (j + h <? i + (j - i)))%nat with false by lia.
        replace ((i + h <=? j + h) && (j + h <? i + h + (j - i)))%nat with false by lia. reflexivity. }
      rewrite (holds_rdu _ _ _ _ Hsm) by lia. cbn [bind]. rewrite (holds_rdu _ _ _ _ Hsm) by lia. cbn [bind].
      replace (j <? i)%nat with false by lia. replace (j + h <? i)%nat with false by lia. rewrite E1, E2.
      assert (Bj : forall j, Z.abs (stage c s j) <= 128 * 2 ^ Z.of_nat s) by (intros; apply wblock_bound; exact Hc).
      pose proof (Bj j) as Bj1. pose proof (Bj (j + h)%nat) as Bj2.
      rewrite chk_ok by lia. cbn [bind]. rewrite chk_ok by lia. cbn [bind].
      destruct (holds_wru _ _ _ j (stage c s j + stage c s (j + h)%nat) Hsm ltac:(lia)) as (s1 & Es1 & H1). rewrite Es1. cbn [bind].
      destruct (holds_wru _ _ _ (j + h)%nat (stage c s j - stage c s (j + h)%nat) H1 ltac:(lia)) as (s2 & Es2 & H2). rewrite Es2.
      exists s2. split; [reflexivity|]. eapply holds_ext; [exact H2|]. intros p Hpp. cbv beta.
      replace (S j - i)%nat with (S (j - i)) by lia.
      destruct (Nat.eqb_spec p (j + h)) as [->|N1].
      { replace (j + h <? i)%nat with false by lia. unfold bfly. replace ((i <=? j + h) && (j + h <? i + S (j - i)))%nat with false by lia.
        replace ((i + h <=? j + h) && (j + h <? i + h + S (j - i)))%nat with true by lia.
        replace (j + h - h)%nat with j by lia. reflexivity. }
      destruct (Nat.eqb_spec p j) as [->|N2].
      { replace (j <? i)%nat with false by lia. unfold bfly. replace ((i <=? j) && (j <? i + S (j - i)))%nat with true by lia. reflexivity. }
      destruct (p <? i)%nat; [reflexivity|]. unfold bfly.
      replace ((i <=? p) && (p <? i + S (j - i)))%nat with ((i <=? p) && (p <? i + (j - i)))%nat by lia.
      replace ((i + h <=? p) && (p <? i + h + S (j - i)))%nat with ((i + h <=? p) && (p <? i + h + (j - i)))%nat by lia. reflexivity.
    + eapply holds_ext; [exact H|]. intros j Hj. cbv beta. destruct (j <? k * (2 * 2 ^ s))%nat; [reflexivity|]. unfold bfly.
      set (i := (k * (2 * 2 ^ s))%nat). set (h := (2 ^ s)%nat). replace ((i <=? j) && (j <? i + (i - i)))%nat with false by lia.
      replace ((i + h <=? j) && (j <? i + h + (i - i)))%nat with false by lia. reflexivity.
  - eapply holds_ext; [exact HS|]. intros j Hj. destruct (Nat.ltb_spec j (0 * (2 * 2 ^ s))); [lia|reflexivity].
Qed.

(** all the stages: the full transform *)
Lemma stages_ok n c sum : (forall i, Z.abs (c i) <= 128) -> (1 <= n <= 23)%nat -> holds (2 ^ n) (stage c 1) sum ->
  exists sum', wht_stages (2 ^ n) sum = Ok sum' /\ holds (2 ^ n) (fun j => zsum (2 ^ n) (fun t => wn j t * c t)) sum'.
Proof.
  intros Hc Hn HS. unfold wht_stages.
  edestruct (while_inv (fun '((h, sm) : nat * list (option Z)) => exists s, (1 <= s <= n)%nat /\ h = (2 ^ s)%nat /\ holds (2 ^ n) (stage c s) sm)
    (fun '(h, sm) => (2 ^ n - h)%nat)) as ([h sm] & E & (s & Hs & Eh & H) & C).
  4: { rewrite E. cbn [bind]. exists sm. split; [reflexivity|]. cbv beta iota in C. injection C as C. apply Nat.ltb_ge in C.
       assert (s = n). { destruct (Nat.eq_dec s n); [assumption|]. assert (2 ^ s < 2 ^ n)%nat by (apply Nat.pow_lt_mono_r; lia). lia. } subst s.
       eapply holds_ext; [exact H|]. intros j Hj. unfold stage. rewrite Nat.div_small, Nat.mod_small by exact Hj. reflexivity. }
  - intros [h sm] (s & Hs & -> & H). eexists. split; [reflexivity|]. intros C. apply Nat.ltb_lt in C.
    assert (s < n)%nat. { destruct (Nat.eq_dec s n); [subst; lia|lia]. }
    destruct (stage_ok n s c sm Hc ltac:(lia) H) as (sm' & E & H'). rewrite E. cbn [bind]. eexists. split; [reflexivity|].
    split.
    + exists (S s). split; [lia|]. split; [cbn [Nat.pow]; lia|exact H'].
    + pose proof (pow2_pos s). lia.
  - exists 1%nat. split; [lia|]. split; [reflexivity|exact HS].
  - cbv beta iota. lia.
Qed.

(** ** the searches *)
Definition found (f msg : nat -> Z) (i : nat) (s : Z * Z * Z) : Prop :=
  let '(w, best, next) := s in
  0 <= next <= best /\
  ((best = 0 /\ w = 0 /\ next = 0 /\ forall j, (j < i)%nat -> f j <= 0) \/
   (0 < best /\ exists j, (j < i)%nat /\ f j = best /\ w = msg j /\ (forall k, (k < i)%nat -> k <> j -> f k <= next) /\
      (next = 0 \/ exists k, (k < i)%nat /\ k <> j /\ f k = next))).
Lemma found_step f msg i s : found f msg i s -> found f msg (S i) (wht_update (f i) (msg i) s).
Proof.
  destruct s as [[w best] next]. intros (R & H). unfold wht_update.
  destruct (Z.ltb_spec best (f i)) as [C|C].
  - split; [lia|]. right. split; [lia|]. exists i. split; [lia|]. split; [reflexivity|]. split; [reflexivity|].
    destruct H as [(-> & -> & -> & H)|(B & j & Hj & Ej & Ew & Ho & Hn)].
    + split; [intros k Hk Hne; apply H; lia|left; reflexivity].
    + split.
      * intros k Hk Hne. destruct (Nat.eq_dec k j) as [->|Hkj]; [lia|]. specialize (Ho k ltac:(lia) Hkj). lia.
      * right. exists j. split; [lia|]. split; [lia|exact Ej].
  - destruct (Z.ltb_spec next (f i)) as [C2|C2].
    + split; [lia|]. destruct H as [(-> & -> & -> & H)|(B & j & Hj & Ej & Ew & Ho & Hn)]; [lia|].
      right. split; [exact B|]. exists j. split; [lia|]. split; [exact Ej|]. split; [exact Ew|]. split.
      * intros k Hk Hne. destruct (Nat.eq_dec k i) as [->|Hki]; [lia|]. specialize (Ho k ltac:(lia) Hne). lia.
      * right. exists i. split; [lia|]. split; [lia|reflexivity].
    + split; [lia|]. destruct H as [(-> & -> & -> & H)|(B & j & Hj & Ej & Ew & Ho & Hn)].
      * left. repeat split; try lia. intros k Hk. destruct (Nat.eq_dec k i) as [->|Hki]; [lia|]. apply H. lia.
      * right. split; [exact B|]. exists j. split; [lia|]. split; [exact Ej|]. split; [exact Ew|]. split.
        -- intros k Hk Hne. destruct (Nat.eq_dec k i) as [->|Hki]; [lia|]. apply Ho; lia.
        -- destruct Hn as [Hn|(k & Hk & Hne & Ek)]; [left; exact Hn|right; exists k; split; [lia|auto]].
Qed.
(** the answer: the position of the unique positive maximum *)
Definition unique_max (f : nat -> Z) (n j : nat) : Prop := (j < n)%nat /\ 0 < f j /\ forall k, (k < n)%nat -> k <> j -> f k < f j.
Lemma found_answer f msg n w best next : found f msg n (w, best, next) ->
  let r := if best =? next then -1 else w in
  (exists j, unique_max f n j /\ r = msg j) \/ (r = -1 /\ forall j, ~ unique_max f n j).
Proof.
  intros (R & H). cbv zeta. destruct (Z.eqb_spec best next) as [E|E].
  - right. split; [reflexivity|]. intros j (Hj & Pj & Uj).
    destruct H as [(-> & -> & -> & H)|(B & i & Hi & Ei & Ew & Ho & Hn)]; [specialize (H j Hj); lia|].
    destruct Hn as [Hn|(k & Hk & Hne & Ek)]; [lia|]. destruct (Nat.eq_dec j i) as [->|Hji].
    + specialize (Uj k Hk Hne). lia.
    + specialize (Uj i Hi ltac:(lia)). specialize (Ho j Hj Hji). lia.
  - destruct H as [(-> & -> & -> & H)|(B & i & Hi & Ei & Ew & Ho & Hn)]; [lia|].
    left. exists i. split; [|exact Ew]. split; [exact Hi|]. split; [lia|]. intros k Hk Hne. specialize (Ho k Hk Hne). lia.
Qed.

Lemma had_search_ok n v sum : (n <= 23)%nat -> holds (2 ^ n) v sum -> (forall i, (i < 2 ^ n)%nat -> Z.abs (v i) <= 1073741824) ->
  exists r, had_search (2 ^ n) sum = Ok r /\
  ((exists j, unique_max (fun i => Z.abs (v i)) (2 ^ n) j /\ r = Z.of_nat j + Z.of_nat (2 ^ n) * Z.b2z (v j <? 0)) \/
   (r = -1 /\ forall j, ~ unique_max (fun i => Z.abs (v i)) (2 ^ n) j)).
Proof.
  intros Hn H Hv. unfold had_search.
  assert (HP : Z.of_nat (2 ^ n) <= 8388608).
  { rewrite Nat2Z.inj_pow. change 8388608 with (2 ^ 23). apply Z.pow_le_mono_r; lia. }
  edestruct (for_up_inv (found (fun i => Z.abs (v i)) (fun j => Z.of_nat j + Z.of_nat (2 ^ n) * Z.b2z (v j <? 0)))) as ([[w best] next] & E & F).
  4: { rewrite E. cbn [bind]. eexists. split; [reflexivity|]. apply found_answer in F. exact F. }
  - lia.
  - intros i s Hi F. cbv beta. rewrite (holds_rdu _ _ _ _ H) by lia. cbn [bind]. unfold abs_int.
    rewrite chk_ok by (specialize (Hv i ltac:(lia)); lia). cbn [bind].
    rewrite chk_ok by (destruct (v i <? 0); cbn [Z.b2z]; lia). cbn [bind]. eexists. split; [reflexivity|].
    apply (found_step (fun i => Z.abs (v i)) (fun j => Z.of_nat j + Z.of_nat (2 ^ n) * Z.b2z (v j <? 0))). exact F.
  - split; [lia|]. left. repeat split; try reflexivity. intros; lia.
Qed.
Lemma spx_search_ok W v sum : holds W v sum -> exists r, spx_search W sum = Ok r /\
  ((exists j, unique_max v W j /\ r = Z.of_nat j) \/ (r = -1 /\ forall j, ~ unique_max v W j)).
Proof.
  intros H. unfold spx_search.
  edestruct (for_up_inv (found v Z.of_nat)) as ([[w best] next] & E & F).
  4: { rewrite E. cbn [bind]. eexists. split; [reflexivity|]. apply found_answer in F. exact F. }
  - lia.
  - intros i s Hi F. cbv beta. rewrite (holds_rdu _ _ _ _ H) by lia. cbn [bind]. eexists. split; [reflexivity|].
    apply (found_step v Z.of_nat). exact F.
  - split; [lia|]. left. repeat split; try reflexivity. intros; lia.
Qed.
