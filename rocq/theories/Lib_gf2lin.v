(** Linear maps on bit vectors (numbers below 2^n with exclusive-or), matrices as lists of columns,
    and exact periods of linear maps.  General mathematics, no model of code. *)
From Coq Require Import List ZArith NArith Lia Bool Znumtheory ZifyBool ZifyNat ZifyN.
From Verif Require Import Lib_orbit.
Import ListNotations.
Local Open Scope N_scope.

Fixpoint app (cols : list N) (x : N) : N :=
  match cols with
  | [] => 0
  | c :: cols' => N.lxor (if N.odd x then c else 0) (app cols' (N.div2 x))
  end.

Definition basis (n : nat) : list N := map (fun i => N.shiftl 1 (N.of_nat i)) (seq 0 n).
Definition mmul (A B : list N) : list N := map (app A) B.
(** M, M^2, M^4, ... *)
Fixpoint squares (cnt : nat) (M : list N) : list (list N) :=
  match cnt with
  | O => []
  | S c => M :: squares c (mmul M M)
  end.
(** apply M^p to x using the table of squares; [None] if the table is too short *)
Fixpoint pow_app (S : list (list N)) (p : positive) (x : N) : option N :=
  match S, p with
  | [], _ => None
  | M :: _, xH => Some (app M x)
  | M :: S', xO p' => pow_app S' p' x
  | M :: S', xI p' => pow_app S' p' (app M x)
  end.

Definition linear (f : N -> N) : Prop := forall a b, f (N.lxor a b) = N.lxor (f a) (f b).

Lemma odd_lxor a b : N.odd (N.lxor a b) = xorb (N.odd a) (N.odd b).
Proof. rewrite <- !N.bit0_odd, N.lxor_spec. reflexivity. Qed.

Lemma div2_lxor a b : N.div2 (N.lxor a b) = N.lxor (N.div2 a) (N.div2 b).
Proof. rewrite !N.div2_spec. apply N.shiftr_lxor. Qed.

Lemma lxor_swap a b c d : N.lxor (N.lxor a b) (N.lxor c d) = N.lxor (N.lxor a c) (N.lxor b d).
Proof. rewrite !N.lxor_assoc. f_equal. rewrite <- !N.lxor_assoc. f_equal. apply N.lxor_comm. Qed.

Lemma app_linear A : linear (app A).
Proof.
  induction A as [|c A IH]; intros a b; cbn [app]; [reflexivity|].
  rewrite odd_lxor, div2_lxor, IH.
  rewrite (lxor_swap _ (app A (N.div2 a))). f_equal.
  destruct (N.odd a), (N.odd b); cbn [xorb]; rewrite ?N.lxor_nilpotent, ?N.lxor_0_r, ?N.lxor_0_l; reflexivity.
Qed.

Lemma linear_0 f : linear f -> f 0 = 0.
Proof. intros H. rewrite <- (N.lxor_nilpotent 0) at 1. rewrite H. apply N.lxor_nilpotent. Qed.

Lemma app_mmul A B x : app (mmul A B) x = app A (app B x).
Proof.
  revert x; induction B as [|c B IH]; intros x; cbn [app mmul map].
  - symmetry. apply linear_0, app_linear.
  - rewrite (app_linear A). fold (mmul A B). rewrite IH. f_equal.
    destruct (N.odd x); [reflexivity|]. symmetry. apply linear_0, app_linear.
Qed.

Lemma split_odd y : y = N.lxor (N.b2n (N.odd y)) (N.shiftl (N.div2 y) 1).
Proof.
  apply N.bits_inj. intros i. rewrite N.lxor_spec. destruct (N.eq_dec i 0) as [->|Hi].
  - rewrite N.shiftl_spec_low by lia. rewrite N.bit0_odd, xorb_false_r. destruct (N.odd y); reflexivity.
  - rewrite N.shiftl_spec_high' by lia. rewrite N.div2_spec, N.shiftr_spec'.
    replace (N.testbit (N.b2n (N.odd y)) i) with false.
    + rewrite xorb_false_l. f_equal. lia.
    + destruct i; [lia|]. destruct (N.odd y); reflexivity.
Qed.

Lemma app_columns f : linear f -> forall n k y, y < 2 ^ N.of_nat n ->
  app (map f (map (fun i => N.shiftl 1 (N.of_nat i)) (seq k n))) y = f (N.shiftl y (N.of_nat k)).
Proof.
  intros Hf. induction n as [|n IH]; intros k y Hy; cbn [seq map app].
  - cbn in Hy. replace y with 0 by lia. rewrite N.shiftl_0_l. symmetry. apply linear_0. exact Hf.
  - rewrite IH.
    + rewrite (split_odd y) at 3. rewrite N.shiftl_lxor, Hf.
      f_equal.
      * destruct (N.odd y); cbn [N.b2n]; [reflexivity|]. rewrite N.shiftl_0_l. symmetry. apply linear_0, Hf.
      * rewrite N.shiftl_shiftl. do 2 f_equal. lia.
    + rewrite N.div2_div. apply N.div_lt_upper_bound; [lia|].
      replace (N.of_nat (S n)) with (N.succ (N.of_nat n)) in Hy by lia. rewrite N.pow_succ_r' in Hy. exact Hy.
Qed.

Lemma app_basis n x : x < 2 ^ N.of_nat n -> app (basis n) x = x.
Proof.
  intros H. unfold basis. rewrite <- (map_id (map _ _)).
  rewrite (app_columns (fun x => x)); [apply N.shiftl_0_r| |exact H]. intros a b. reflexivity.
Qed.

Definition matrix (f : N -> N) (n : nat) : list N := map f (basis n).

Lemma app_matrix f n x : linear f -> x < 2 ^ N.of_nat n -> app (matrix f n) x = f x.
Proof. intros Hf Hx. unfold matrix, basis. rewrite (app_columns f Hf) by exact Hx. rewrite N.shiftl_0_r. reflexivity. Qed.

Lemma pow_app_ok f n : linear f -> (forall x, x < 2 ^ N.of_nat n -> f x < 2 ^ N.of_nat n) ->
  forall cnt M e, (forall x, x < 2 ^ N.of_nat n -> app M x = N.iter e f x) ->
  forall p x y, x < 2 ^ N.of_nat n -> pow_app (squares cnt M) p x = Some y -> y = N.iter (e * Npos p) f x.
Proof.
  intros Hf Hr.
  assert (R : forall k x, x < 2 ^ N.of_nat n -> N.iter k f x < 2 ^ N.of_nat n).
  { intros k x Hx. apply (iter_inv (fun x => x < 2 ^ N.of_nat n)); assumption. }
  induction cnt as [|cnt IH]; intros M e HM p x y Hx; cbn [squares pow_app]; [destruct p; discriminate|].
  assert (HM2 : forall x, x < 2 ^ N.of_nat n -> app (mmul M M) x = N.iter (2 * e) f x).
  { intros z Hz. rewrite app_mmul, (HM z Hz), HM by (apply R; exact Hz). rewrite <- iter_plus. f_equal. lia. }
  destruct p as [p|p|]; intros H.
  - rewrite (HM x Hx) in H. rewrite (IH _ _ HM2 p _ _ (R e x Hx) H).
    rewrite <- iter_plus. f_equal. lia.
  - rewrite (IH _ _ HM2 p _ _ Hx H). f_equal. lia.
  - injection H as <-. rewrite (HM x Hx). f_equal. lia.
Qed.

(** ** Exact period of one vector under a linear map *)
Definition eqb_opt (a : option N) (b : N) : bool := match a with Some x => x =? b | None => false end.
Definition neqb_opt (a : option N) (b : N) : bool := match a with Some x => negb (x =? b) | None => false end.
Definition period_check (n : nat) (M : list N) (l : list N) (x : N) : bool :=
  let S := squares n M in
  match prod l with
  | 0 => false
  | Npos p =>
      eqb_opt (pow_app S p x) x &&
      forallb (fun q => match (prod l / q) with
                        | 0 => false
                        | Npos k => neqb_opt (pow_app S k x) x
                        end) l
  end.

Theorem linear_period f n l x :
  linear f -> (forall x, x < 2 ^ N.of_nat n -> f x < 2 ^ N.of_nat n) ->
  Forall (fun q => prime (Z.of_N q)) l ->
  x < 2 ^ N.of_nat n ->
  period_check n (matrix f n) l x = true ->
  N.iter (prod l) f x = x /\ forall k, 0 < k < prod l -> N.iter k f x <> x.
Proof.
  intros Hf Hr Hl Hx H. unfold period_check in H. cbv zeta in H.
  pose proof (exact_period f x l Hl) as EP.
  assert (HM : forall x, x < 2 ^ N.of_nat n -> app (matrix f n) x = N.iter 1 f x).
  { intros z Hz. apply app_matrix; assumption. }
  destruct (prod l) as [|p]; [discriminate|].
  apply andb_prop in H. destruct H as [H1 H2].
  assert (E : N.iter (Npos p) f x = x).
  { destruct (pow_app _ p x) as [y|] eqn:Y in H1; [|discriminate]. apply N.eqb_eq in H1. subst y.
    rewrite (pow_app_ok f n Hf Hr n (matrix f n) 1 HM p x x Hx Y) at 2. f_equal. }
  split; [exact E|]. apply EP; [exact E|].
  intros q Hq. rewrite forallb_forall in H2. specialize (H2 q Hq).
  destruct (Npos p / q) as [|k]; [discriminate|].
  destruct (pow_app _ k x) as [y|] eqn:Y in H2; [|discriminate].
  cbn [neqb_opt] in H2. destruct (N.eqb_spec y x) as [|Hne]; [discriminate|].
  rewrite (pow_app_ok f n Hf Hr n (matrix f n) 1 HM k x y Hx Y), N.mul_1_l in Hne. exact Hne.
Qed.

Corollary linear_nonzero f x P :
  linear f -> 0 < P -> N.iter P f x = x -> x <> 0 -> forall k, N.iter k f x <> 0.
Proof.
  intros Hf HP Hx Hx0 k E. apply Hx0.
  assert (Z : forall m, N.iter m f 0 = 0).
  { induction m as [|m IH] using N.peano_ind; [reflexivity|]. rewrite N.iter_succ, IH. apply linear_0, Hf. }
  rewrite <- (iter_mult f k P x Hx). replace (k * P) with ((k * P - k) + k) by nia.
  rewrite iter_plus, E. apply Z.
Qed.

(** ** Building linear maps *)
Lemma linear_id : linear (fun x => x).
Proof. intros a b. reflexivity. Qed.
Lemma linear_comp f g : linear f -> linear g -> linear (fun x => f (g x)).
Proof. intros Hf Hg a b. rewrite Hg, Hf. reflexivity. Qed.
Lemma linear_lxor f g : linear f -> linear g -> linear (fun x => N.lxor (f x) (g x)).
Proof. intros Hf Hg a b. rewrite Hg, Hf. apply lxor_swap. Qed.
Lemma linear_shiftl k : linear (fun x => N.shiftl x k).
Proof. intros a b. apply N.shiftl_lxor. Qed.
Lemma linear_shiftr k : linear (fun x => N.shiftr x k).
Proof. intros a b. apply N.shiftr_lxor. Qed.
Lemma linear_mod w : linear (fun x => x mod 2 ^ w).
Proof.
  intros a b. apply N.bits_inj. intros i. rewrite N.lxor_spec. destruct (N.lt_ge_cases i w).
  - rewrite !N.mod_pow2_bits_low by assumption. apply N.lxor_spec.
  - rewrite !N.mod_pow2_bits_high by assumption. reflexivity.
Qed.
