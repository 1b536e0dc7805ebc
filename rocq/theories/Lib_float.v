(** Facts about Coq's IEEE floats (Floats.SpecFloat): rounding a number that is not below the smallest subnormal keeps its sign,
    does not give zero or NaN, and gives a valid float; products with +1 and -1 are exact. *)
From Coq Require Import ZArith Lia Bool Floats.SpecFloat.
From Verif Require Import Spec_polar_float Proof_pconst2.
Local Open Scope Z_scope.

Lemma digits_log p : Zpos (digits2_pos p) = Z.log2 (Zpos p) + 1.
Proof.
  induction p as [p IH|p IH|]; cbn [digits2_pos]; [| |reflexivity]; rewrite Pos2Z.inj_succ, IH.
  - change (Z.pos p~1) with (2 * Z.pos p + 1). rewrite Z.log2_succ_double by lia. lia.
  - change (Z.pos p~0) with (2 * Z.pos p). rewrite Z.log2_double by lia. lia.
Qed.
Lemma digits_iff p d : 0 <= d -> Zpos (digits2_pos p) = d + 1 <-> 2 ^ d <= Zpos p < 2 ^ (d + 1).
Proof. intros Hd. rewrite digits_log. split; intros H; [pose proof (Z.log2_spec (Zpos p) ltac:(lia)); replace d with (Z.log2 (Zpos p)) by lia; assumption|].
  assert (Z.log2 (Zpos p) = d); [|lia]. apply Z.log2_unique; assumption. Qed.
Lemma digits_shift d m : 0 <= d -> forall p, Zpos p = Zpos m * 2 ^ d -> Zpos (digits2_pos p) = Zpos (digits2_pos m) + d.
Proof. intros Hd p E. rewrite !digits_log, E, Z.log2_mul_pow2 by lia. lia. Qed.
Lemma shift_pos_mul d p : Zpos (shift_pos d p) = Zpos p * 2 ^ Zpos d.
Proof. rewrite shift_pos_correct. change (Z.pow_pos 2 d) with (2 ^ Zpos d). apply Z.mul_comm. Qed.

Lemma iter_add {T} (f : T -> T) a b x : Nat.iter (a + b) f x = Nat.iter a f (Nat.iter b f x).
Proof. induction a as [|a IH]; [reflexivity|]. cbn [Nat.iter Nat.add]. change (f (Nat.iter (a + b) f x) = f (Nat.iter a f (Nat.iter b f x))). rewrite IH. reflexivity. Qed.
Lemma iter_succ_in {T} (f : T -> T) n x : Nat.iter (S n) f x = Nat.iter n f (f x).
Proof. replace (S n) with (n + 1)%nat by lia. rewrite iter_add. reflexivity. Qed.
Lemma iter_nat {T} (f : T -> T) p x : SpecFloat.iter_pos f p x = Nat.iter (Pos.to_nat p) f x.
Proof.
  revert x. induction p as [p IH|p IH|]; intros x; cbn [SpecFloat.iter_pos].
  - rewrite !IH, Pos2Nat.inj_xI. replace (S (2 * Pos.to_nat p))%nat with (Pos.to_nat p + (Pos.to_nat p + 1))%nat by lia. rewrite !iter_add. reflexivity.
  - rewrite !IH, Pos2Nat.inj_xO. replace (2 * Pos.to_nat p)%nat with (Pos.to_nat p + Pos.to_nat p)%nat by lia. rewrite iter_add. reflexivity.
  - reflexivity.
Qed.
Lemma shr1_m r : 0 <= shr_m r -> shr_m (shr_1 r) = shr_m r / 2.
Proof.
  destruct r as [m r s]. cbn [shr_m]. intros H. destruct m as [|[p|p|]|p]; cbn [shr_1 shr_m]; [reflexivity| | |reflexivity|lia].
  - change (Z.pos p~1) with (2 * Z.pos p + 1). apply Z.div_unique with 1; lia.
  - change (Z.pos p~0) with (2 * Z.pos p). apply Z.div_unique with 0; lia.
Qed.
Lemma shr_iter_m n r : 0 <= shr_m r -> shr_m (Nat.iter n shr_1 r) = shr_m r / 2 ^ Z.of_nat n.
Proof.
  intros H. induction n as [|n IH]; [cbn [Nat.iter Nat.add]; rewrite Z.div_1_r; reflexivity|].
  cbn [Nat.iter]. change (shr_m (shr_1 (Nat.iter n shr_1 r)) = shr_m r / 2 ^ Z.of_nat (S n)).
  assert (0 < 2 ^ Z.of_nat n) by (apply Z.pow_pos_nonneg; lia).
  rewrite shr1_m by (rewrite IH; apply Z.div_pos; lia). rewrite IH, Z.div_div by lia. f_equal.
  rewrite Nat2Z.inj_succ, Z.pow_succ_r by lia. lia.
Qed.
Lemma shr1_exact m : 0 <= m -> shr_1 (Build_shr_record (2 * m) false false) = Build_shr_record m false false.
Proof. intros H. destruct m as [|p|p]; [reflexivity|reflexivity|lia]. Qed.
Lemma shr_iter_exact n m : 0 <= m -> Nat.iter n shr_1 (Build_shr_record (m * 2 ^ Z.of_nat n) false false) = Build_shr_record m false false.
Proof.
  intros H. induction n as [|n IH]; [cbn; rewrite Z.mul_1_r; reflexivity|]. rewrite iter_succ_in.
  replace (m * 2 ^ Z.of_nat (S n)) with (2 * (m * 2 ^ Z.of_nat n)) by (rewrite Nat2Z.inj_succ, Z.pow_succ_r by lia; lia).
  assert (0 < 2 ^ Z.of_nat n) by (apply Z.pow_pos_nonneg; lia). rewrite shr1_exact by nia. exact IH.
Qed.

Section Format.
Variables prec emax : Z.
Hypothesis Hp : 1 < prec.
Hypothesis He : prec < emax.
Notation emin := (SpecFloat.emin prec emax).
Notation fexp := (SpecFloat.fexp prec emax).
Notation valid := (fun x => valid_binary prec emax x = true).

Lemma bounded_iff m e : bounded prec emax m e = true <-> fexp (Zpos (digits2_pos m) + e) = e /\ e <= emax - prec.
Proof.
  unfold bounded, canonical_mantissa. rewrite andb_true_iff. rewrite Z.leb_le. split; intros (A & B); (split; [|assumption]).
  - apply Zeq_bool_eq. exact A.
  - apply Zeq_is_eq_bool. exact A.
Qed.
Lemma shr_fexp_m m e : let n := fexp (Zpos (digits2_pos m) + e) - e in 0 <= n ->
  shr_m (fst (shr_fexp prec emax (Zpos m) e loc_Exact)) = Zpos m / 2 ^ n /\ snd (shr_fexp prec emax (Zpos m) e loc_Exact) = e + n.
Proof.
  intros n Hn. unfold shr_fexp. cbn [Zdigits2 shr_record_of_loc]. fold n. unfold shr. clearbody n; destruct n as [|k|k]; cbn [fst snd shr_m]; [rewrite Z.div_1_r; split; [reflexivity|lia]| |lia].
  rewrite iter_nat, shr_iter_m by (cbn; lia). cbn [shr_m]. rewrite positive_nat_Z. split; reflexivity.
Qed.
Lemma div_digits m n : 0 <= n < Zpos (digits2_pos m) -> exists q, Zpos m / 2 ^ n = Zpos q /\ Zpos (digits2_pos q) = Zpos (digits2_pos m) - n.
Proof.
  intros Hn. assert (P : 0 < 2 ^ n) by (apply Z.pow_pos_nonneg; lia). set (d := Zpos (digits2_pos m) - 1) in *.
  assert (D : 2 ^ d <= Zpos m < 2 ^ (d + 1)) by (apply digits_iff; unfold d; lia).
  assert (A : 2 ^ (d - n) <= Zpos m / 2 ^ n < 2 ^ (d - n + 1)).
  { split.
    - apply Z.div_le_lower_bound; [exact P|]. rewrite <- Z.pow_add_r by (unfold d; lia). replace (n + (d - n)) with d by lia. lia.
    - apply Z.div_lt_upper_bound; [exact P|]. rewrite <- Z.pow_add_r by (unfold d; lia). replace (n + (d - n + 1)) with (d + 1) by lia. lia. }
  assert (0 < 2 ^ (d - n)) by (apply Z.pow_pos_nonneg; unfold d; lia).
  destruct (Zpos m / 2 ^ n) as [|q|q]; try lia. exists q. split; [reflexivity|]. apply digits_iff in A; [lia|unfold d; lia].
Qed.
Lemma round_cases mx l : round_nearest_even mx l = mx \/ round_nearest_even mx l = mx + 1.
Proof. destruct l as [|[| |]]; cbn [round_nearest_even]; auto. destruct (Z.even mx); auto. Qed.

(** the second normalisation *)
Definition finish (s : bool) (r e : Z) : spec_float :=
  let '(mrs'', e'') := shr_fexp prec emax r e loc_Exact in
  match shr_m mrs'' with
  | Z0 => S754_zero s
  | Zpos m => if Zle_bool e'' (emax - prec) then S754_finite s m e'' else S754_infinity s
  | _ => S754_nan
  end.
Lemma finish_ok s r e : let n := fexp (Zpos (digits2_pos r) + e) - e in 0 <= n < Zpos (digits2_pos r) ->
  (n = 0 \/ (n = 1 /\ exists k, 0 <= k /\ Zpos r = 2 ^ k)) -> valid (finish s (Zpos r) e) /\ fsgn (finish s (Zpos r) e) = if s then -1 else 1.
Proof.
  intros n Hn C. unfold finish. destruct (shr_fexp_m r e ltac:(lia)) as (E1 & E2). fold n in E1, E2. destruct (shr_fexp prec emax (Zpos r) e loc_Exact) as [mrs e'']. cbn [fst snd] in *.
  subst e''. rewrite E1. destruct (div_digits r n Hn) as (q & Eq & Dq). rewrite Eq.
  destruct (Zle_bool (e + n) (emax - prec)) eqn:L; [|split; reflexivity]. split; [|reflexivity]. cbn [valid_binary]. apply bounded_iff. split; [|apply Z.leb_le; exact L].
  rewrite Dq. replace (Z.pos (digits2_pos r) - n + (e + n)) with (Zpos (digits2_pos r) + e) by lia. lia.
Qed.
Lemma round_aux_ok s m e : let d := Zpos (digits2_pos m) in emin < d + e -> e <= fexp (d + e) ->
  valid (binary_round_aux prec emax s (Zpos m) e loc_Exact) /\ fsgn (binary_round_aux prec emax s (Zpos m) e loc_Exact) = if s then -1 else 1.
Proof.
  intros d Hd Hf. unfold binary_round_aux. destruct (shr_fexp_m m e ltac:(fold d; lia)) as (E1 & E2). fold d in E1, E2. set (n := fexp (d + e) - e) in *.
  destruct (shr_fexp prec emax (Zpos m) e loc_Exact) as [mrs e']. cbn [fst snd] in *. subst e'.
  assert (F : fexp (d + e) = Z.max (d + e - prec) emin) by reflexivity.
  destruct (div_digits m n ltac:(fold d; lia)) as (q & Eq & Dq). fold d in Dq. rewrite E1, Eq. fold (finish s (round_nearest_even (Z.pos q) (loc_of_shr_record mrs)) (e + n)).
  assert (G : forall k, fexp k = Z.max (k - prec) emin) by reflexivity.
  destruct (round_cases (Zpos q) (loc_of_shr_record mrs)) as [-> | ->].
  - apply finish_ok; rewrite Dq, G; [lia|left; lia].
  - change (Zpos q + 1) with (Z.succ (Zpos q)). rewrite <- Pos2Z.inj_succ. set (r := Pos.succ q).
    assert (DQ : 2 ^ (d - n - 1) <= Zpos q < 2 ^ (d - n - 1 + 1)) by (apply digits_iff; lia).
    destruct (Z.eq_dec (Zpos r) (2 ^ (d - n))) as [R|R].
    + assert (Dr : Zpos (digits2_pos r) = d - n + 1).
      { apply digits_iff; [lia|]. rewrite R. split; [lia|]. apply Z.pow_lt_mono_r; lia. }
      apply finish_ok; rewrite Dr, G; [lia|]. destruct (Z.eq_dec (Z.max (d - n + 1 + (e + n) - prec) emin - (e + n)) 0) as [Z0|Z0]; [left; exact Z0|right].
      split; [lia|]. exists (d - n). split; [lia|exact R].
    + assert (Dr : Zpos (digits2_pos r) = d - n).
      { replace (d - n) with (d - n - 1 + 1) by lia. apply digits_iff; [lia|]. replace (d - n - 1 + 1) with (d - n) in * by lia. unfold r in *. rewrite Pos2Z.inj_succ in *. lia. }
      apply finish_ok; rewrite Dr, G; [lia|left; lia].
Qed.
Lemma shl_align_m m e e' : Zpos (fst (shl_align m e e')) = Zpos m * 2 ^ (Z.max 0 (e - e')) /\ snd (shl_align m e e') = Z.min e e' \/ e < e' /\ shl_align m e e' = (m, e).
Proof.
  unfold shl_align. destruct (e' - e) as [|d|d] eqn:E; cbn [fst snd].
  - left. replace (Z.max 0 (e - e')) with 0 by lia. lia.
  - right. split; [lia|reflexivity].
  - left. rewrite shift_pos_mul. replace (Z.max 0 (e - e')) with (Zpos d) by lia. split; [reflexivity|lia].
Qed.
Lemma round_ok s m e : emin <= e -> valid (binary_round prec emax s m e) /\ fsgn (binary_round prec emax s m e) = if s then -1 else 1.
Proof.
  intros H. unfold binary_round. set (d := Zpos (digits2_pos m)).
  assert (G : forall k, fexp k = Z.max (k - prec) emin) by reflexivity.
  destruct (shl_align_m m e (fexp (d + e))) as [(E1 & E2)|(E1 & E2)].
  - destruct (shl_align m e (fexp (d + e))) as [mz ez]. cbn [fst snd] in *. apply digits_shift in E1; [|lia]. fold d in E1.
    apply round_aux_ok; rewrite E1; [lia|]. rewrite E2. destruct (Z.le_gt_cases e (fexp (d + e))); [replace (Z.max 0 _) with 0 by lia; rewrite Z.min_l by lia; rewrite Z.add_0_r; assumption|].
    replace (d + Z.max 0 (e - fexp (d + e)) + Z.min e (fexp (d + e))) with (d + e) by lia. lia.
  - rewrite E2. apply round_aux_ok; fold d; lia.
Qed.

(** addition keeps validity; with equal signs it keeps the sign *)
Lemma add_valid x y : valid x -> valid y -> valid (SFadd prec emax x y).
Proof.
  intros Vx Vy. destruct x as [sx|sx| |sx mx ex], y as [sy|sy| |sy my ey]; cbn [SFadd]; try assumption; try reflexivity; try (destruct (Bool.eqb _ _); reflexivity).
  cbn [valid_binary] in Vx, Vy. apply bounded_iff in Vx, Vy. destruct Vx as (Vx & _), Vy as (Vy & _).
  assert (emin <= Z.min ex ey) by (unfold SpecFloat.fexp in *; lia).
  unfold binary_normalize. destruct (cond_Zopp sx _ + cond_Zopp sy _); [reflexivity|apply round_ok; assumption..].
Qed.
Lemma add_sign x y : valid x -> valid y -> fsgn x <> 0 -> fsgn x = fsgn y -> fsgn (SFadd prec emax x y) = fsgn y.
Proof.
  intros Vx Vy Nx E. destruct x as [sx|sx| |sx mx ex], y as [sy|sy| |sy my ey]; cbn [fsgn] in *; try lia; cbn [SFadd].
  - assert (sx = sy) as -> by (destruct sx, sy; try reflexivity; lia). rewrite Bool.eqb_reflx. reflexivity.
  - exact E.
  - reflexivity.
  - assert (sx = sy) as -> by (destruct sx, sy; try reflexivity; lia).
    cbn [valid_binary] in Vx, Vy. apply bounded_iff in Vx, Vy. destruct Vx as (Vx & _), Vy as (Vy & _).
    assert (emin <= Z.min ex ey) by (unfold SpecFloat.fexp in *; lia).
    destruct sy; cbn [cond_Zopp Z.opp Z.add]; unfold binary_normalize; apply round_ok; assumption.
Qed.
Definition one_ := S754_finite false (shift_pos (Z.to_pos (prec - 1)) 1) (1 - prec).
Lemma one_m : Zpos (shift_pos (Z.to_pos (prec - 1)) 1) = 2 ^ (prec - 1).
Proof. rewrite shift_pos_mul, Z2Pos.id by lia. lia. Qed.
Lemma one_digits : Zpos (digits2_pos (shift_pos (Z.to_pos (prec - 1)) 1)) = prec.
Proof. replace prec with (prec - 1 + 1) at 2 by lia. apply digits_iff; [lia|]. rewrite one_m. split; [lia|]. apply Z.pow_lt_mono_r; lia. Qed.
Lemma exact_aux s m e n : bounded prec emax m e = true -> 0 <= n -> forall p, Zpos p = Zpos m * 2 ^ n ->
  binary_round_aux prec emax s (Zpos p) (e - n) loc_Exact = S754_finite s m e.
Proof.
  intros B Hn p Ep. apply bounded_iff in B. destruct B as (F & L). unfold binary_round_aux. unfold shr_fexp at 1. cbn [Zdigits2 shr_record_of_loc].
  rewrite (digits_shift n m Hn p Ep). replace (Z.pos (digits2_pos m) + n + (e - n)) with (Z.pos (digits2_pos m) + e) by lia. rewrite F.
  replace (e - (e - n)) with n by lia.
  assert (E : shr {| shr_m := Z.pos p; shr_r := false; shr_s := false |} (e - n) n = ({| shr_m := Z.pos m; shr_r := false; shr_s := false |}, e)).
  { rewrite Ep. unfold shr. destruct n as [|n|n]; [rewrite Z.mul_1_r; f_equal; lia| |lia]. rewrite iter_nat, <- (positive_nat_Z n), shr_iter_exact by lia. f_equal. lia. }
  rewrite E. cbn [shr_m loc_of_shr_record round_nearest_even]. unfold shr_fexp. cbn [Zdigits2 shr_record_of_loc]. rewrite F, Z.sub_diag. cbn [shr shr_m].
  replace (Zle_bool e (emax - prec)) with true; [reflexivity|]. symmetry. apply Z.leb_le. exact L.
Qed.
Lemma of_one : binary_normalize prec emax 1 0 false = one_.
Proof.
  unfold binary_normalize, binary_round. cbn [digits2_pos]. assert (F : fexp (1 + 0) = 1 - prec) by (unfold SpecFloat.fexp, SpecFloat.emin; lia). rewrite F.
  unfold shl_align. destruct (1 - prec - 0) as [|d|d] eqn:E; [lia|lia|]. replace d with (Z.to_pos (prec - 1)) by lia.
  replace (1 - prec) with ((1 - prec) - 0) at 1 by lia. apply exact_aux; [|lia|lia]. apply bounded_iff. rewrite one_digits. unfold SpecFloat.fexp, SpecFloat.emin. lia.
Qed.
Lemma of_minus_one : binary_normalize prec emax (-1) 0 false = SFopp one_.
Proof.
  unfold binary_normalize, binary_round. cbn [digits2_pos]. assert (F : fexp (1 + 0) = 1 - prec) by (unfold SpecFloat.fexp, SpecFloat.emin; lia). rewrite F.
  unfold shl_align. destruct (1 - prec - 0) as [|d|d] eqn:E; [lia|lia|]. replace d with (Z.to_pos (prec - 1)) by lia.
  replace (1 - prec) with ((1 - prec) - 0) at 1 by lia. apply exact_aux; [|lia|lia]. apply bounded_iff. rewrite one_digits. unfold SpecFloat.fexp, SpecFloat.emin. lia.
Qed.
Lemma one_valid : valid one_.
Proof. cbn [valid_binary one_]. apply bounded_iff. rewrite one_digits. unfold SpecFloat.fexp, SpecFloat.emin. lia. Qed.
Lemma mul_one x : valid x -> SFmul prec emax one_ x = x.
Proof.
  intros V. destruct x as [s|s| |s m e]; cbn [SFmul one_ xorb]; try reflexivity; try (destruct s; reflexivity). cbn [valid_binary] in V.
  assert (X : (if s then true else false) = s) by (destruct s; reflexivity). rewrite ?X. clear X. replace (1 - prec + e) with (e - (prec - 1)) by lia. apply exact_aux; [exact V|lia|]. rewrite Pos2Z.inj_mul, one_m. lia.
Qed.
Lemma mul_minus_one x : valid x -> SFmul prec emax (SFopp one_) x = SFopp x.
Proof.
  intros V. destruct x as [s|s| |s m e]; cbn [SFmul SFopp one_ xorb negb]; try reflexivity; try (destruct s; reflexivity). cbn [valid_binary] in V.
  replace (1 - prec + e) with (e - (prec - 1)) by lia. assert (X : (if s then false else true) = negb s) by (destruct s; reflexivity). rewrite ?X. clear X.
  apply exact_aux; [exact V|lia|]. rewrite Pos2Z.inj_mul, one_m. lia.
Qed.
End Format.
Lemma fsgn_opp x : fsgn (SFopp x) = - fsgn x.
Proof. destruct x as [[]|[]| |[] m e]; reflexivity. Qed.
Lemma valid_opp prec emax x : valid_binary prec emax (SFopp x) = valid_binary prec emax x.
Proof. destruct x; reflexivity. Qed.
Lemma valid_abs prec emax x : valid_binary prec emax (SFabs x) = valid_binary prec emax x.
Proof. destruct x; reflexivity. Qed.
