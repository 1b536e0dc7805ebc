(** More about Coq's IEEE floats: adding something that is not negative never gives less. *)
From Coq Require Import ZArith Lia Bool Floats.SpecFloat ZifyBool.
From Verif Require Import Spec_polar_float Spec_ieee Lib_float Lib_float2.
Local Open Scope Z_scope.
Ltac Zify.zify_post_hook ::= idtac.

Section Format.
Variables prec emax : Z.
Hypothesis Hp : 1 < prec.
Hypothesis He : prec < emax.
Notation emin := (SpecFloat.emin prec emax).
Notation fexp := (SpecFloat.fexp prec emax).
Notation valid := (fun x => valid_binary prec emax x = true).
Notation dig m := (Zpos (digits2_pos m)).

(** the value of [m*2^e] in units of [2^emin] *)
Notation val m e := (Zpos m * 2 ^ (e - emin)).
Lemma val_digits m e m' e' : emin <= e -> emin <= e' -> val m e <= val m' e' -> dig m + e <= dig m' + e'.
Proof.
  intros H H' L. rewrite !digits_log. pose proof (Z.log2_mul_pow2 (Zpos m) (e - emin) ltac:(lia) ltac:(lia)) as A. pose proof (Z.log2_mul_pow2 (Zpos m') (e' - emin) ltac:(lia) ltac:(lia)) as B.
  apply Z.log2_le_mono in L. lia.
Qed.
Lemma val_lt m e m' e' : emin <= e -> emin <= e' -> dig m + e < dig m' + e' -> val m e <= val m' e'.
Proof.
  intros H H' L. rewrite !digits_log in L. pose proof (Z.log2_spec (Zpos m) ltac:(lia)) as A. pose proof (Z.log2_spec (Zpos m') ltac:(lia)) as B. pose proof (Z.log2_nonneg (Zpos m)). pose proof (Z.log2_nonneg (Zpos m')).
  set (a := Z.log2 (Zpos m)) in *. set (b := Z.log2 (Zpos m')) in *.
  transitivity (2 ^ (Z.succ a + (e - emin))); [rewrite Z.pow_add_r by lia; apply Z.mul_le_mono_nonneg_r; [apply Z.pow_nonneg; lia|lia]|].
  transitivity (2 ^ (b + (e' - emin))); [apply Z.pow_le_mono_r; lia|]. rewrite Z.pow_add_r by lia. apply Z.mul_le_mono_nonneg_r; [apply Z.pow_nonneg; lia|lia].
Qed.
(** comparing a number that went through rounding with one that needs no rounding *)
Lemma finish_ge mx ex r e : bounded prec emax mx ex = true -> emin <= e -> e <= fexp (dig r + e) -> val mx ex <= val r e ->
  SFltb (finish prec emax false (Zpos r) e) (S754_finite false mx ex) = false.
Proof.
  intros B Hm Hf V. apply bounded_iff in B. destruct B as (B & _). rewrite fexp_def in B.
  assert (D : dig mx + ex <= dig r + e) by (apply val_digits; lia).
  unfold finish. destruct (shr_fexp_m prec emax r e ltac:(lia)) as (E1 & E2). assert (EF : fexp (dig r + e) = Z.max (dig r + e - prec) emin) by apply fexp_def.
  set (n := fexp (dig r + e) - e) in *. destruct (shr_fexp prec emax (Zpos r) e loc_Exact) as [mrs e'']. cbn [fst snd] in *. subst e''. rewrite E1.
  destruct (div_digits r n ltac:(lia)) as (q & Eq & Dq). rewrite Eq. destruct (Zle_bool _ _); [|reflexivity].
  assert (En : e + n = Z.max (dig r + e - prec) emin) by lia.
  unfold SFltb, SFcompare. destruct (Z.compare_spec (e + n) ex) as [E|L|G]; [|lia|reflexivity].
  assert (Zpos mx <= Zpos q).
  { rewrite <- Eq. assert (0 < 2 ^ n) by (apply Z.pow_pos_nonneg; lia). apply Z.div_le_lower_bound; [lia|]. assert (0 < 2 ^ (e - emin)) by (apply Z.pow_pos_nonneg; lia).
    replace (ex - emin) with (n + (e - emin)) in V by lia. rewrite Z.pow_add_r in V by lia. nia. }
  change (Pos.compare_cont Datatypes.Eq q mx) with (q ?= mx)%positive. destruct (Pos.compare_spec q mx); [reflexivity|lia|reflexivity].
Qed.
Lemma aux_ge mx ex m e : bounded prec emax mx ex = true -> emin <= e -> e <= fexp (dig m + e) -> val mx ex <= val m e ->
  SFltb (binary_round_aux prec emax false (Zpos m) e loc_Exact) (S754_finite false mx ex) = false.
Proof.
  intros B Hm Hf V. pose proof B as B'. apply bounded_iff in B'. destruct B' as (B' & _). rewrite fexp_def in B'.
  assert (D : dig mx + ex <= dig m + e) by (apply val_digits; lia).
  unfold binary_round_aux. destruct (shr_fexp_m prec emax m e ltac:(lia)) as (E1 & E2). assert (EF : fexp (dig m + e) = Z.max (dig m + e - prec) emin) by apply fexp_def.
  set (n := fexp (dig m + e) - e) in *. destruct (shr_fexp prec emax (Zpos m) e loc_Exact) as [mrs e'']. cbn [fst snd] in *. subst e''. rewrite E1.
  destruct (div_digits m n ltac:(lia)) as (q & Eq & Dq). rewrite Eq. assert (0 < 2 ^ n) by (apply Z.pow_pos_nonneg; lia).
  assert (V' : val mx ex <= val q (e + n)).
  { assert (ex <= e + n) by lia. destruct (Z.eq_dec ex (e + n)) as [X|X]; [|apply val_lt; lia].
    assert (Zpos mx <= Zpos q).
    { rewrite <- Eq. apply Z.div_le_lower_bound; [lia|]. assert (0 < 2 ^ (e - emin)) by (apply Z.pow_pos_nonneg; lia).
      replace (ex - emin) with (n + (e - emin)) in V by lia. rewrite Z.pow_add_r in V by lia. nia. }
    rewrite X. apply Z.mul_le_mono_nonneg_r; [apply Z.pow_nonneg; lia|lia]. }
  assert (exists r, round_nearest_even (Zpos q) (loc_of_shr_record mrs) = Zpos r /\ Zpos q <= Zpos r) as (r & -> & Hr).
  { destruct (round_cases (Zpos q) (loc_of_shr_record mrs)) as [-> | ->]; [exists q|exists (q + 1)%positive]; lia. }
  fold (finish prec emax false (Zpos r) (e + n)).
  assert (dig q <= dig r) by (rewrite !digits_log; pose proof (Z.log2_le_mono (Zpos q) (Zpos r) Hr); lia).
  apply finish_ge; [exact B|lia|rewrite fexp_def; lia|]. etransitivity; [exact V'|]. apply Z.mul_le_mono_nonneg_r; [apply Z.pow_nonneg; lia|exact Hr].
Qed.
Lemma round_ge mx ex m e : bounded prec emax mx ex = true -> emin <= e -> val mx ex <= val m e ->
  SFltb (binary_round prec emax false m e) (S754_finite false mx ex) = false.
Proof.
  intros B Hm V. unfold binary_round. set (d := dig m). assert (EF : fexp (d + e) = Z.max (d + e - prec) emin) by apply fexp_def.
  destruct (shl_align_m m e (fexp (d + e))) as [(E1 & E2)|(E1 & E2)].
  - destruct (shl_align m e (fexp (d + e))) as [mz ez]. cbn [fst snd] in *. pose proof E1 as E3. apply digits_shift in E3; [|lia]. fold d in E3.
    apply aux_ge; [exact B|lia| |].
    + rewrite E3, E2. replace (d + Z.max 0 (e - fexp (d + e)) + Z.min e (fexp (d + e))) with (d + e) by lia. lia.
    + rewrite E1, <- Z.mul_assoc, <- Z.pow_add_r by lia. replace (Z.max 0 (e - fexp (d + e)) + (ez - emin)) with (e - emin) by lia. exact V.
  - rewrite E2. apply aux_ge; try assumption. fold d. lia.
Qed.
(** valid, and not negative and not NaN: +0, a positive number or +infinity *)
Definition nonneg (x : spec_float) : Prop := valid x /\ match x with S754_zero false | S754_infinity false | S754_finite false _ _ => True | _ => False end.
Lemma add_ge x y : nonneg x -> nonneg y -> nonneg (SFadd prec emax x y) /\ SFltb (SFadd prec emax x y) x = false.
Proof.
  intros (Vx & Nx) (Vy & Ny). assert (VA : valid (SFadd prec emax x y)) by (apply add_valid; assumption).
  destruct x as [[]|[]| |[] mx ex]; try contradiction; destruct y as [[]|[]| |[] my ey]; try contradiction; try (split; [split; [exact VA|exact I]|reflexivity]).
  - split; [split; [exact VA|exact I]|]. cbn [SFadd]. unfold SFltb, SFcompare. rewrite Z.compare_refl. change (Pos.compare_cont Eq mx mx) with (mx ?= mx)%positive. rewrite Pos.compare_refl. reflexivity.
  - cbn [valid_binary] in Vx, Vy. pose proof Vx as Vx'. pose proof Vy as Vy'. apply bounded_iff in Vx', Vy'. rewrite fexp_def in Vx', Vy'. set (ez := Z.min ex ey).
    assert (E : SFadd prec emax (S754_finite false mx ex) (S754_finite false my ey) = binary_round prec emax false (fst (shl_align mx ex ez) + fst (shl_align my ey ez)) ez) by reflexivity.
    split.
    + split; [exact VA|]. destruct (round_ok prec emax Hp false (fst (shl_align mx ex ez) + fst (shl_align my ey ez)) ez ltac:(lia)) as (_ & S). rewrite <- E in S. destruct (SFadd _ _ _ _) as [[]|[]| |[] ? ?]; cbn [fsgn] in S; try exact I; lia.
    + rewrite E. apply round_ge; [exact Vx|lia|]. assert (0 < 2 ^ (ez - emin)) by (apply Z.pow_pos_nonneg; lia).
      destruct (shl_align_m mx ex ez) as [(E1 & E2)|(E1 & E2)]; [|lia]. rewrite Pos2Z.inj_add, E1. assert (Zpos mx * 2 ^ Z.max 0 (ex - ez) * 2 ^ (ez - emin) = val mx ex) as X; [|nia].
      rewrite <- Z.mul_assoc, <- Z.pow_add_r by lia. do 2 f_equal. lia.
Qed.
End Format.
