(** Property C65: polar_helper.hh, [PolarHelper<int8_t>::quant]. *)
From Coq Require Import QArith Qpower Qabs Floats.SpecFloat.
From Verif Require Import Cpp Model_polar_float.
From Coq Require Import Lqa.
Local Open Scope Z_scope.

(** the number a finite float stands for *)
Definition value (x : spec_float) : Q :=
  match x with
  | S754_finite s m e => let n := if s then Zneg m else Zpos m in if 0 <=? e then inject_Z (n * 2 ^ e) else n # Z.to_pos (2 ^ (- e))
  | _ => 0%Q
  end.
Definition finite (x : spec_float) : Prop := match x with S754_finite _ _ _ | S754_zero _ => True | _ => False end.
(** [v] limited to -127 .. 127 *)
Definition limit (v : Q) : Q := if Qle_bool v (-127 # 1) then -127 # 1 else if Qle_bool (127 # 1) v then 127 # 1 else v.
(** [q] is the integer nearest to [v], the even one of two equally near *)
Definition nearest_even (q : Z) (v : Q) : Prop := (Qabs (inject_Z q - v) <= 1 # 2)%Q /\ ((Qabs (inject_Z q - v) == 1 # 2)%Q -> Z.even q = true).

Lemma Qabs_half x : (Qabs x <= 1 # 2 <-> - (1 # 2) <= x <= 1 # 2)%Q.
Proof. apply Qabs_Qle_condition. Qed.

(** C65 on integers: [m / D] rounded *)
Lemma nearby_neg m e : e < 0 -> let D := 2 ^ (- e) in 2 * Z.abs (nearby m e * D - Zpos m) <= D /\ (2 * Z.abs (nearby m e * D - Zpos m) = D -> Z.even (nearby m e) = true).
Proof.
  intros H D. unfold nearby. replace (0 <=? e) with false by lia. fold D. assert (0 < D) by (apply Z.pow_pos_nonneg; lia).
  pose proof (Z.div_mod (Zpos m) D ltac:(lia)) as DM. pose proof (Z.mod_pos_bound (Zpos m) D ltac:(lia)) as B. set (q := Zpos m / D) in *. set (r := Zpos m mod D) in *. rewrite DM.
  destruct (Z.compare_spec (2 * r) D) as [C|C|C].
  - destruct (Z.even q) eqn:E.
    + split; [nia|]. intros _. exact E.
    + split; [nia|]. intros _. rewrite Z.even_add, E. reflexivity.
  - replace (q * D - (D * q + r)) with (- r) by lia. split; [lia|]. intros; lia.
  - replace ((q + 1) * D - (D * q + r)) with (D - r) by lia. split; [lia|]. intros; lia.
Qed.
Lemma nearest_frac q n D : 0 < D -> 2 * Z.abs (q * D - n) <= D -> (2 * Z.abs (q * D - n) = D -> Z.even q = true) -> nearest_even q (n # Z.to_pos D).
Proof.
  intros HD H1 H2.
  assert (Qabs (inject_Z q - (n # Z.to_pos D)) == Z.abs (q * D - n) # Z.to_pos D)%Q as E.
  { assert (inject_Z q - (n # Z.to_pos D) == (q * D - n) # Z.to_pos D)%Q as -> by (unfold inject_Z, Qminus, Qplus, Qopp, Qeq; cbn [Qnum Qden]; rewrite ?Pos.mul_1_l, ?Z2Pos.id by lia; lia). reflexivity. }
  unfold nearest_even. rewrite E. unfold Qle, Qeq. cbn [Qnum Qden]. rewrite Z2Pos.id by lia. split; [lia|]. intros X. apply H2. lia.
Qed.
Lemma nearest_int q : nearest_even q (inject_Z q).
Proof.
  assert (Qabs (inject_Z q - inject_Z q) == 0)%Q as E by (unfold Qminus; rewrite Qplus_opp_r; reflexivity). unfold nearest_even. rewrite E. split; [discriminate|]. intros X. discriminate.
Qed.
Lemma nearest_limit n v : nearest_even n v -> nearest_even (Z.min (Z.max n (-127)) 127) (limit v).
Proof.
  intros (A & B). apply Qabs_half in A. unfold limit. destruct (Qle_bool v (-127 # 1)) eqn:C1.
  - apply Qle_bool_iff in C1. assert (inject_Z n <= (-127 # 1) + (1 # 2))%Q as K by lra. unfold Qle in K. cbn in K. replace (Z.min (Z.max n (-127)) 127) with (-127) by lia. apply (nearest_int (-127)).
  - destruct (Qle_bool (127 # 1) v) eqn:C2.
    + apply Qle_bool_iff in C2. assert ((127 # 1) - (1 # 2) <= inject_Z n)%Q as K by lra. unfold Qle in K. cbn in K. replace (Z.min (Z.max n (-127)) 127) with 127 by lia. apply (nearest_int 127).
    + assert (-127 # 1 < v)%Q as L1 by (apply Qnot_le_lt; intros X; apply Qle_bool_iff in X; congruence).
      assert (v < 127 # 1)%Q as L2 by (apply Qnot_le_lt; intros X; apply Qle_bool_iff in X; congruence).
      assert (inject_Z n < (127 # 1) + (1 # 2))%Q as K1 by lra. assert ((-127 # 1) - (1 # 2) < inject_Z n)%Q as K2 by lra. unfold Qlt in K1, K2. cbn in K1, K2.
      replace (Z.min (Z.max n (-127)) 127) with n by lia. split; [apply Qabs_half; exact A|exact B].
Qed.
(** C65: a finite value is limited to -127 .. 127 and rounded to the nearest integer, to the even one of two; infinities give -127 and 127;
    NaN must not be passed (converting it is undefined) *)
Theorem C65_quant_nearest : forall x, finite x -> exists q, quant8 x = Ok q /\ -127 <= q <= 127 /\ nearest_even q (limit (value x)).
Proof.
  intros [s|s| |s m e] F; try contradiction; cbn [quant8].
  - exists 0. split; [reflexivity|]. split; [lia|]. apply (nearest_int 0).
  - eexists. split; [reflexivity|]. split; [lia|]. apply nearest_limit. cbn [value]. destruct (Z.leb_spec 0 e) as [C|C].
    + unfold nearby. replace (0 <=? e) with true by lia. destruct s; [|apply nearest_int].
      replace (- (Zpos m * 2 ^ e)) with (Zneg m * 2 ^ e) by lia. apply nearest_int.
    + destruct (nearby_neg m e C) as (N1 & N2). assert (0 < 2 ^ (- e)) by (apply Z.pow_pos_nonneg; lia). apply nearest_frac; [assumption| |].
      * destruct s; [|exact N1]. change (Zneg m) with (- Zpos m). replace (- nearby m e * 2 ^ (- e) - - Zpos m) with (- (nearby m e * 2 ^ (- e) - Zpos m)) by lia. rewrite Z.abs_opp. exact N1.
      * destruct s; [|exact N2]. change (Zneg m) with (- Zpos m). replace (- nearby m e * 2 ^ (- e) - - Zpos m) with (- (nearby m e * 2 ^ (- e) - Zpos m)) by lia. rewrite Z.abs_opp, Z.even_opp. exact N2.
Qed.
Print Assumptions C65_quant_nearest.
Theorem C65_quant_special : quant8 (S754_infinity false) = Ok 127 /\ quant8 (S754_infinity true) = Ok (-127) /\ quant8 S754_nan = Undef.
Proof. auto. Qed.
Print Assumptions C65_quant_special.
(** C65: larger values never give smaller results, and the sign is respected *)
Lemma limit_mono u v : (u <= v)%Q -> (limit u <= limit v)%Q.
Proof.
  intros H. unfold limit.
  assert (forall a b, Qle_bool a b = true -> (a <= b)%Q) as T by (intros; apply Qle_bool_iff; assumption).
  assert (forall a b, Qle_bool a b = false -> (b < a)%Q) as F by (intros a b X; apply Qnot_le_lt; intros Y; apply Qle_bool_iff in Y; congruence).
  destruct (Qle_bool u (-127 # 1)) eqn:A1; [apply T in A1|apply F in A1]; (destruct (Qle_bool v (-127 # 1)) eqn:A2; [apply T in A2|apply F in A2]);
   (destruct (Qle_bool (127 # 1) u) eqn:A3; [apply T in A3|apply F in A3]); (destruct (Qle_bool (127 # 1) v) eqn:A4; [apply T in A4|apply F in A4]); lra.
Qed.
Theorem C65_quant_monotone : forall x y p q, finite x -> finite y -> (value x <= value y)%Q -> quant8 x = Ok p -> quant8 y = Ok q -> p <= q.
Proof.
  intros x y p q Fx Fy H Ep Eq. destruct (C65_quant_nearest x Fx) as (p' & Ep' & _ & (A1 & A2)). destruct (C65_quant_nearest y Fy) as (q' & Eq' & _ & (B1 & B2)).
  rewrite Ep in Ep'. rewrite Eq in Eq'. injection Ep' as <-. injection Eq' as <-. apply limit_mono in H. set (u := limit (value x)) in *. set (v := limit (value y)) in *.
  destruct (Z_le_gt_dec p q) as [C|C]; [exact C|exfalso]. apply Qabs_half in A1, B1.
  assert (inject_Z q + 1 <= inject_Z p)%Q as K by (unfold Qle; cbn; lia).
  assert (inject_Z q + 1 == inject_Z p)%Q as K2 by (apply Qle_antisym; lra).
  assert (p = q + 1) as -> by (unfold Qeq in K2; cbn in K2; lia).
  assert (Z.even (q + 1) = true) as E1 by (apply A2; rewrite Qabs_pos by lra; lra).
  assert (Z.even q = true) as E2 by (apply B2; rewrite Qabs_neg by lra; lra).
  rewrite Z.even_add, E2 in E1. discriminate.
Qed.
Print Assumptions C65_quant_monotone.
(** C65: quantizing the negated value gives the negated result *)
Theorem C65_quant_odd : forall x q, quant8 x = Ok q -> quant8 (SFopp x) = Ok (- q).
Proof.
  intros [s|s| |s m e] q H; cbn [quant8 SFopp] in *; try discriminate; injection H as <-; [reflexivity|destruct s; reflexivity|]. destruct s; cbn [negb]; f_equal; lia.
Qed.
Print Assumptions C65_quant_odd.
(** 0.5, 1.5, -2.5 and 127.75 in binary64 *)
Example C65_nonvacuous : quant8 (S754_finite false 4503599627370496 (-53)) = Ok 0 /\ quant8 (S754_finite false 6755399441055744 (-52)) = Ok 2 /\
  quant8 (S754_finite true 5629499534213120 (-51)) = Ok (-2) /\ quant8 (S754_finite false 8989607068696576 (-46)) = Ok 127 /\
  (value (S754_finite false 8989607068696576 (-46)) == 511 # 4)%Q /\ valid_binary 53 1024 (S754_finite false 8989607068696576 (-46)) = true.
Proof. repeat split; vm_compute; reflexivity. Qed.
