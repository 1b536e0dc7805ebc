(** More about Coq's IEEE floats: sums, differences and products of valid numbers are valid, underflow included; the magnitude of a sum. *)
From Coq Require Import ZArith Lia Bool Floats.SpecFloat ZifyBool.
From Verif Require Import Spec_polar_float Spec_ieee Lib_float.
Local Open Scope Z_scope.
Ltac Zify.zify_post_hook ::= idtac.

Section Format.
Variables prec emax : Z.
Hypothesis Hp : 1 < prec.
Hypothesis He : prec < emax.
Notation emin := (SpecFloat.emin prec emax).
Notation fexp := (SpecFloat.fexp prec emax).
Notation valid := (fun x => valid_binary prec emax x = true).

Lemma fexp_def k : fexp k = Z.max (k - prec) emin. Proof. reflexivity. Qed.
Lemma emin_neg : emin < 0. Proof. unfold SpecFloat.emin. lia. Qed.
Lemma small_div m n : Zpos (digits2_pos m) <= n -> Zpos m / 2 ^ n = 0.
Proof.
  intros H. apply Z.div_small. split; [lia|]. assert (D : Zpos (digits2_pos m) = (Zpos (digits2_pos m) - 1) + 1) by lia. apply digits_iff in D; [|lia].
  replace (Z.pos (digits2_pos m) - 1 + 1) with (Zpos (digits2_pos m)) in D by lia. pose proof (Z.pow_le_mono_r 2 (Zpos (digits2_pos m)) n ltac:(lia) ltac:(lia)). lia.
Qed.
(** rounding gives a valid number also below the smallest subnormal *)
Lemma aux_valid s m e : e <= fexp (Zpos (digits2_pos m) + e) -> valid (binary_round_aux prec emax s (Zpos m) e loc_Exact).
Proof.
  intros H. destruct (Z.lt_ge_cases emin (Zpos (digits2_pos m) + e)) as [L|L]; [apply round_aux_ok; assumption|].
  rewrite fexp_def in H. unfold binary_round_aux. destruct (shr_fexp_m prec emax m e) as (E1 & E2); [rewrite fexp_def; lia|]. rewrite fexp_def in E1, E2.
  rewrite (Z.max_r _ emin) in E1, E2 by lia. destruct (shr_fexp prec emax (Zpos m) e loc_Exact) as [mrs e']. cbn [fst snd] in *. subst e'. rewrite small_div in E1 by lia. rewrite E1.
  replace (e + (emin - e)) with emin by lia. destruct (round_cases 0 (loc_of_shr_record mrs)) as [-> | ->].
  - unfold shr_fexp. cbn [Zdigits2]. rewrite fexp_def. replace (Z.max (0 + emin - prec) emin - emin) with 0 by lia. reflexivity.
  - cbn [Z.add]. unfold shr_fexp. cbn [Zdigits2 digits2_pos]. rewrite fexp_def. replace (Z.max (1 + emin - prec) emin - emin) with 0 by lia. cbn.
    assert (emin <= emax - prec) by (unfold SpecFloat.emin; lia). replace (emin <=? emax - prec) with true by lia. cbn [valid_binary]. apply bounded_iff. cbn [digits2_pos]. rewrite fexp_def. lia.
Qed.
Lemma mul_valid x y : valid x -> valid y -> valid (SFmul prec emax x y).
Proof.
  intros Vx Vy. pose proof emin_neg. destruct x as [sx|sx| |sx mx ex], y as [sy|sy| |sy my ey]; cbn [SFmul]; try reflexivity.
  cbn [valid_binary] in Vx, Vy. apply bounded_iff in Vx, Vy. rewrite fexp_def in Vx, Vy. apply aux_valid. rewrite fexp_def.
  assert (Zpos (digits2_pos mx) + Zpos (digits2_pos my) - 1 <= Zpos (digits2_pos (mx * my))).
  { rewrite !digits_log, Pos2Z.inj_mul. pose proof (Z.log2_mul_below (Zpos mx) (Zpos my) ltac:(lia) ltac:(lia)). lia. }
  lia.
Qed.
Lemma sub_add x y : SFsub prec emax x y = SFadd prec emax x (SFopp y).
Proof.
  destruct x as [sx|sx| |sx mx ex], y as [sy|sy| |sy my ey]; cbn [SFsub SFadd SFopp]; try reflexivity; try (destruct sx, sy; reflexivity).
Qed.
Lemma sub_valid x y : valid x -> valid y -> valid (SFsub prec emax x y).
Proof. intros Vx Vy. rewrite sub_add. apply add_valid; try assumption. rewrite valid_opp. exact Vy. Qed.

(** magnitudes *)
Notation le2 := (fun k x => at_most emin k x).
Lemma finish_le s r e K : emin <= e -> emin <= K <= emax - 1 -> 0 <= r -> r * 2 ^ (e - emin) <= 2 ^ (K - emin) ->
  e <= fexp (Zdigits2 r + e) \/ r = 0 -> le2 K (finish prec emax s r e).
Proof.
  intros Hm HK Hr HB Hf. unfold finish. destruct r as [|r|r]; [| |lia].
  - unfold shr_fexp. cbn [Zdigits2]. rewrite fexp_def, Z.add_0_l. destruct (Z.max (e - prec) emin - e) as [|p|p] eqn:E; [exact I|lia|]. unfold shr. exact I.
  - destruct Hf as [Hf|]; [|lia]. cbn [Zdigits2] in Hf. destruct (shr_fexp_m prec emax r e ltac:(lia)) as (E1 & E2). set (n := fexp (Zpos (digits2_pos r) + e) - e) in *.
    destruct (shr_fexp prec emax (Zpos r) e loc_Exact) as [mrs e'']. cbn [fst snd] in *. subst e''. rewrite E1.
    assert (Zpos r = 2 ^ (Z.log2 (Zpos r)) \/ 2 ^ (Z.log2 (Zpos r)) < Zpos r) as _ by (pose proof (Z.log2_spec (Zpos r) ltac:(lia)); lia).
    assert (DK : Zpos (digits2_pos r) - 1 + (e - emin) <= K - emin).
    { pose proof (Z.log2_spec (Zpos r) ltac:(lia)) as LS. pose proof (Z.log2_nonneg (Zpos r)). rewrite digits_log in *. apply (Z.pow_le_mono_r_iff 2); [lia|lia|]. replace (Z.log2 (Z.pos r) + 1 - 1 + (e - emin)) with (Z.log2 (Zpos r) + (e - emin)) by lia. rewrite Z.pow_add_r by lia.
      assert (0 < 2 ^ (e - emin)) by (apply Z.pow_pos_nonneg; lia). nia. }
    assert (emin <= emax - prec) by (unfold SpecFloat.emin; lia).
    assert (e + n <= emax - prec) by (unfold n; rewrite fexp_def; lia).
    assert (P : 0 < 2 ^ n) by (apply Z.pow_pos_nonneg; lia). pose proof (Z.div_pos (Zpos r) (2 ^ n) ltac:(lia) P).
    destruct (Zpos r / 2 ^ n) as [|q|q] eqn:Q; [exact I| |lia]. replace (Zle_bool (e + n) (emax - prec)) with true by (symmetry; apply Z.leb_le; lia). cbn [at_most].
    replace (e + n - emin) with (n + (e - emin)) by lia. rewrite Z.pow_add_r by lia. pose proof (Z.mul_div_le (Zpos r) (2 ^ n) P) as B. rewrite Q in B.
    assert (0 < 2 ^ (e - emin)) by (apply Z.pow_pos_nonneg; lia). nia.
Qed.
Lemma aux_le s m e K : emin <= e -> emin <= K <= emax - 1 -> Zpos m * 2 ^ (e - emin) <= 2 ^ (K - emin) -> e <= fexp (Zpos (digits2_pos m) + e) ->
  le2 K (binary_round_aux prec emax s (Zpos m) e loc_Exact).
Proof.
  intros Hm HK HB Hf. assert (P0 : 0 < 2 ^ (e - emin)) by (apply Z.pow_pos_nonneg; lia).
  assert (DK : Zpos (digits2_pos m) - 1 + (e - emin) <= K - emin).
  { pose proof (Z.log2_spec (Zpos m) ltac:(lia)) as LS. pose proof (Z.log2_nonneg (Zpos m)). rewrite digits_log in *. apply (Z.pow_le_mono_r_iff 2); [lia|lia|]. replace (Z.log2 (Z.pos m) + 1 - 1 + (e - emin)) with (Z.log2 (Zpos m) + (e - emin)) by lia. rewrite Z.pow_add_r by lia. nia. }
  set (n := fexp (Zpos (digits2_pos m) + e) - e) in *. assert (Hn : 0 <= n) by lia. assert (En : e + n = Z.max (Zpos (digits2_pos m) + e - prec) emin) by (unfold n; rewrite fexp_def; lia).
  assert (P : 0 < 2 ^ n) by (apply Z.pow_pos_nonneg; lia).
  assert (HB' : Zpos m <= 2 ^ (K - e)).
  { replace (K - emin) with ((K - e) + (e - emin)) in HB by lia. destruct (Z.le_gt_cases e K); [rewrite Z.pow_add_r in HB by lia; nia|]. lia. }
  assert (Ke : e + n <= K) by lia. replace (K - e) with ((K - (e + n)) + n) in HB' by lia. rewrite Z.pow_add_r in HB' by lia. set (T := K - (e + n)) in *.
  assert (exists r, round_nearest_even (shr_m (fst (shr_fexp prec emax (Zpos m) e loc_Exact))) (loc_of_shr_record (fst (shr_fexp prec emax (Zpos m) e loc_Exact))) = r /\ (r = Zpos m / 2 ^ n \/ r = Zpos m / 2 ^ n + 1) /\ 0 <= r <= 2 ^ T) as (r & Er & Cr & Br).
  { destruct (shr_fexp_m prec emax m e Hn) as (E1 & _). fold n in E1. rewrite E1. pose proof (Z.div_pos (Zpos m) (2 ^ n) ltac:(lia) P) as Q0.
    destruct (Z.eq_dec (Zpos m) (2 ^ T * 2 ^ n)) as [E|E].
    - exists (Zpos m / 2 ^ n). assert (Zpos m / 2 ^ n = 2 ^ T) as Q by (rewrite E; apply Z.div_mul; lia). rewrite Q. split; [|split; [left; reflexivity|lia]].
      assert (loc_of_shr_record (fst (shr_fexp prec emax (Z.pos m) e loc_Exact)) = loc_Exact) as ->; [|reflexivity].
      unfold shr_fexp. cbn [Zdigits2 shr_record_of_loc]. fold n. rewrite E. unfold shr. clearbody n. destruct n as [|k|k]; [reflexivity| |lia]. cbn [fst]. rewrite iter_nat, <- (positive_nat_Z k), shr_iter_exact by (apply Z.pow_nonneg; lia). reflexivity.
    - assert (Zpos m / 2 ^ n < 2 ^ T) by (apply Z.div_lt_upper_bound; lia). destruct (round_cases (Zpos m / 2 ^ n) (loc_of_shr_record (fst (shr_fexp prec emax (Z.pos m) e loc_Exact)))) as [-> | ->]; eexists; split; [reflexivity|lia|reflexivity|lia]. }
  unfold binary_round_aux. destruct (shr_fexp_m prec emax m e Hn) as (_ & E2). fold n in E2. destruct (shr_fexp prec emax (Zpos m) e loc_Exact) as [mrs e']. cbn [fst snd] in *. subst e'. rewrite Er.
  fold (finish prec emax s r (e + n)). apply finish_le; [lia|lia|lia| |].
  - replace (K - emin) with (T + (e + n - emin)) by (unfold T; lia). rewrite Z.pow_add_r by (unfold T; lia). apply Z.mul_le_mono_nonneg_r; [apply Z.pow_nonneg; lia|lia].
  - destruct r as [|r|r]; [right; reflexivity| |lia]. left. cbn [Zdigits2]. rewrite fexp_def. destruct (Z.le_gt_cases (Zpos (digits2_pos m)) n) as [L|L].
    + assert (e + n = emin) by lia. lia.
    + assert (Zpos (digits2_pos m) - n <= Zpos (digits2_pos r)); [|lia]. destruct (div_digits m n ltac:(lia)) as (q & Eq & Dq). rewrite <- Dq, !digits_log. apply Z.add_le_mono_r. apply Z.log2_le_mono. lia.
Qed.
Lemma round_le s m e K : emin <= e -> emin <= K <= emax - 1 -> Zpos m * 2 ^ (e - emin) <= 2 ^ (K - emin) -> le2 K (binary_round prec emax s m e).
Proof.
  intros Hm HK HB. unfold binary_round. set (d := Zpos (digits2_pos m)).
  destruct (shl_align_m m e (fexp (d + e))) as [(E1 & E2)|(E1 & E2)].
  - destruct (shl_align m e (fexp (d + e))) as [mz ez]. cbn [fst snd] in *. pose proof E1 as E3. apply digits_shift in E3; [|lia]. fold d in E3. assert (emin <= fexp (d + e)) by (rewrite fexp_def; lia).
    apply aux_le; [lia|exact HK| |].
    + rewrite E1, <- Z.mul_assoc, <- Z.pow_add_r by lia. replace (Z.max 0 (e - fexp (d + e)) + (ez - emin)) with (e - emin) by lia. exact HB.
    + rewrite E3, E2. replace (d + Z.max 0 (e - fexp (d + e)) + Z.min e (fexp (d + e))) with (d + e) by lia. lia.
  - rewrite E2. apply aux_le; try assumption. fold d. lia.
Qed.
Lemma add_le x y k : valid x -> valid y -> emin <= k -> k + 1 <= emax - 1 -> le2 k x -> le2 k y -> le2 (k + 1) (SFadd prec emax x y).
Proof.
  intros Vx Vy K1 K2 Bx By. assert (Q : 2 ^ (k + 1 - emin) = 2 * 2 ^ (k - emin)) by (replace (k + 1 - emin) with (Z.succ (k - emin)) by lia; rewrite Z.pow_succ_r by lia; reflexivity).
  assert (Pk : 0 < 2 ^ (k - emin)) by (apply Z.pow_pos_nonneg; lia).
  destruct x as [sx|sx| |sx mx ex], y as [sy|sy| |sy my ey]; cbn [at_most] in Bx, By; try contradiction; cbn [SFadd]; try exact I; try (cbn [at_most]; lia); try (destruct (Bool.eqb _ _); exact I).
  cbn [valid_binary] in Vx, Vy. apply bounded_iff in Vx, Vy. rewrite fexp_def in Vx, Vy. set (ez := Z.min ex ey).
  assert (Al : forall m e, emin <= e -> ez <= e -> Zpos (fst (shl_align m e ez)) * 2 ^ (ez - emin) = Zpos m * 2 ^ (e - emin)).
  { intros m e L1 L2. destruct (shl_align_m m e ez) as [(E1 & E2)|(E1 & E2)]; [|lia]. rewrite E1, <- Z.mul_assoc, <- Z.pow_add_r by lia. do 2 f_equal. lia. }
  rewrite <- (Al mx ex) in Bx by lia. rewrite <- (Al my ey) in By by lia. set (a := Zpos (fst (shl_align mx ex ez))) in *. set (b := Zpos (fst (shl_align my ey ez))) in *.
  assert (P : 0 < 2 ^ (ez - emin)) by (apply Z.pow_pos_nonneg; lia).
  assert (Z.abs (cond_Zopp sx a + cond_Zopp sy b) <= a + b) as AB by (destruct sx, sy; cbn [cond_Zopp]; unfold a, b; lia).
  unfold binary_normalize. destruct (cond_Zopp sx a + cond_Zopp sy b) as [|p|p]; [exact I| |]; (apply round_le; [lia|lia|]; cbn [Z.abs] in AB; rewrite Q; nia).
Qed.
End Format.
