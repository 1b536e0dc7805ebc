(** Sums, products and polynomials over a field; interpolation.  General mathematics, no model of code. *)
From Coq Require Import List Arith Lia Field Ring.
From Verif Require Import Lib_field.
Import ListNotations.

Declare Scope fld_scope.
Delimit Scope fld_scope with F.
Notation "0" := f0 : fld_scope.
Notation "1" := f1 : fld_scope.
Infix "+" := fadd : fld_scope.
Infix "*" := fmul : fld_scope.
Infix "-" := fsub : fld_scope.
Notation "- x" := (fopp x) : fld_scope.
Infix "/" := fdiv : fld_scope.

Section Poly.
Variable F : fld.
Local Open Scope fld_scope.
Lemma fring : ring_theory (@f0 F) f1 fadd fmul fsub fopp eq. Proof. apply (F_R (fth F)). Qed.
Add Field FF : (fth F).

Lemma f1_neq_0 : (1 : F) <> 0. Proof. apply (F_1_neq_0 (fth F)). Qed.
Lemma fmul_0 (x y : F) : x * y = 0 -> x = 0 \/ y = 0.
Proof.
  intros H. destruct (fdec x 0) as [E|E]; [left; exact E|right].
  assert (y = finv x * (x * y)) as -> by (field; exact E). rewrite H. ring.
Qed.
Lemma fmul_neq (x y : F) : x <> 0 -> y <> 0 -> x * y <> 0.
Proof. intros Hx Hy H. apply fmul_0 in H. tauto. Qed.
Lemma finv_neq (x : F) : x <> 0 -> finv x <> 0.
Proof. intros H E. apply f1_neq_0. transitivity (finv x * x); [field; exact H|]. rewrite E. ring. Qed.
Lemma fsub_0 (x y : F) : x - y = 0 -> x = y.
Proof.
  intros H. transitivity (x - y + y); [ring|]. rewrite H. ring.
Qed.
Lemma fmul_cancel_l (x y z : F) : x <> 0 -> x * y = x * z -> y = z.
Proof. intros Hx H. assert (y = finv x * (x * y)) as -> by (field; exact Hx). rewrite H. field. exact Hx. Qed.

(** ** Sums and products over 0 .. n-1 *)
Fixpoint fsum (n : nat) (f : nat -> F) : F := match n with O => 0 | S m => fsum m f + f m end.
Fixpoint fprod (n : nat) (f : nat -> F) : F := match n with O => 1 | S m => fprod m f * f m end.

Lemma fsum_ext n f g : (forall i, (i < n)%nat -> f i = g i) -> fsum n f = fsum n g.
Proof. induction n as [|n IH]; intros H; cbn; [reflexivity|]. rewrite IH, (H n) by (intros; try apply H; lia). reflexivity. Qed.
Lemma fprod_ext n f g : (forall i, (i < n)%nat -> f i = g i) -> fprod n f = fprod n g.
Proof. induction n as [|n IH]; intros H; cbn; [reflexivity|]. rewrite IH, (H n) by (intros; try apply H; lia). reflexivity. Qed.
Lemma fsum_0 n f : (forall i, (i < n)%nat -> f i = 0) -> fsum n f = 0.
Proof. induction n as [|n IH]; intros H; cbn; [reflexivity|]. rewrite IH, (H n) by (intros; try apply H; lia). ring. Qed.
Lemma fsum_add n f g : fsum n (fun i => f i + g i) = fsum n f + fsum n g.
Proof. induction n as [|n IH]; cbn; [ring|]. rewrite IH. ring. Qed.
Lemma fsum_sub n f g : fsum n (fun i => f i - g i) = fsum n f - fsum n g.
Proof. induction n as [|n IH]; cbn; [ring|]. rewrite IH. ring. Qed.
Lemma fsum_scale n c f : fsum n (fun i => c * f i) = c * fsum n f.
Proof. induction n as [|n IH]; cbn; [ring|]. rewrite IH. ring. Qed.
Lemma fsum_scale_r n c f : fsum n (fun i => f i * c) = fsum n f * c.
Proof. induction n as [|n IH]; cbn; [ring|]. rewrite IH. ring. Qed.
Lemma fsum_swap n m (f : nat -> nat -> F) : fsum n (fun i => fsum m (f i)) = fsum m (fun j => fsum n (fun i => f i j)).
Proof.
  induction n as [|n IH]; cbn.
  - symmetry. apply fsum_0. reflexivity.
  - rewrite IH, <- fsum_add. reflexivity.
Qed.
Lemma fsum_S_l n f : fsum (S n) f = f 0%nat + fsum n (fun i => f (S i)).
Proof. induction n as [|n IH]; [cbn; ring|]. change (fsum (S (S n)) f) with (fsum (S n) f + f (S n)). rewrite IH. cbn. ring. Qed.
Lemma fsum_single n f k : (k < n)%nat -> (forall i, (i < n)%nat -> i <> k -> f i = 0) -> fsum n f = f k.
Proof.
  induction n as [|n IH]; intros Hk H; [lia|]. cbn. destruct (Nat.eq_dec k n) as [->|Hn].
  - rewrite fsum_0; [ring|]. intros i Hi. apply H; lia.
  - rewrite IH by (try lia; intros; apply H; lia). rewrite (H n) by lia. ring.
Qed.
Lemma fsum_split n m f : fsum (n + m) f = fsum n f + fsum m (fun i => f (n + i)%nat).
Proof.
  induction m as [|m IH]; [rewrite Nat.add_0_r; cbn; ring|]. rewrite Nat.add_succ_r. cbn. rewrite IH. ring.
Qed.
Lemma fsum_rev n f : fsum n f = fsum n (fun i => f (n - 1 - i)%nat).
Proof.
  induction n as [|n IH]; [reflexivity|]. rewrite (fsum_S_l n (fun i => f (S n - 1 - i)%nat)). cbn [fsum].
  replace (S n - 1 - 0)%nat with n by lia. rewrite IH.
  rewrite (fsum_ext n (fun i => f (S n - 1 - S i)%nat) (fun i => f (n - 1 - i)%nat)) by (intros; f_equal; lia). ring.
Qed.
Lemma fprod_mul n f g : fprod n (fun i => f i * g i) = fprod n f * fprod n g.
Proof. induction n as [|n IH]; cbn; [ring|]. rewrite IH. ring. Qed.
Lemma fprod_neq n f : (forall i, (i < n)%nat -> f i <> 0) -> fprod n f <> 0.
Proof.
  induction n as [|n IH]; intros H; cbn; [apply f1_neq_0|]. apply fmul_neq; [apply IH; intros; apply H; lia|apply H; lia].
Qed.
Lemma fprod_0 n f k : (k < n)%nat -> f k = 0 -> fprod n f = 0.
Proof.
  induction n as [|n IH]; intros Hk H; [lia|]. cbn. destruct (Nat.eq_dec k n) as [->|Hn]; [rewrite H; ring|].
  rewrite IH by (try lia; assumption). ring.
Qed.
(** product without the factor [k] *)
Definition fprod_but (n k : nat) (f : nat -> F) : F := fprod n (fun m => if m =? k then 1 else f m).
Lemma fprod_but_ge n k f : (n <= k)%nat -> fprod_but n k f = fprod n f.
Proof. intros H. apply fprod_ext. intros i Hi. destruct (Nat.eqb_spec i k); [lia|reflexivity]. Qed.
Lemma fprod_split n k f : (k < n)%nat -> fprod n f = fprod_but n k f * f k.
Proof.
  unfold fprod_but. induction n as [|n IH]; intros Hk; [lia|]. cbn. destruct (Nat.eqb_spec n k) as [->|Hn].
  - fold (fprod_but k k f). rewrite fprod_but_ge by lia. ring.
  - rewrite IH by lia. ring.
Qed.
Lemma fprod_but_neq n k f : (forall i, (i < n)%nat -> i <> k -> f i <> 0) -> fprod_but n k f <> 0.
Proof. intros H. apply fprod_neq. intros i Hi. destruct (Nat.eqb_spec i k); [apply f1_neq_0|apply H; assumption]. Qed.

Fixpoint fpow (x : F) (n : nat) : F := match n with O => 1 | S m => x * fpow x m end.
Lemma fpow_add x n m : fpow x (n + m) = fpow x n * fpow x m.
Proof. induction n as [|n IH]; cbn; [ring|]. rewrite IH. ring. Qed.
Lemma fpow_mul x y n : fpow (x * y) n = fpow x n * fpow y n.
Proof. induction n as [|n IH]; cbn; [ring|]. rewrite IH. ring. Qed.
Lemma fpow_1 n : fpow 1 n = 1.
Proof. induction n as [|n IH]; cbn; [reflexivity|]. rewrite IH. ring. Qed.
Lemma fpow_fpow x n m : fpow (fpow x n) m = fpow x (n * m).
Proof.
  induction m as [|m IH]; [rewrite Nat.mul_0_r; reflexivity|]. rewrite Nat.mul_succ_r, Nat.add_comm, fpow_add. cbn. rewrite IH. reflexivity.
Qed.
Lemma fpow_neq x n : x <> 0 -> fpow x n <> 0.
Proof. intros H. induction n as [|n IH]; cbn; [apply f1_neq_0|]. apply fmul_neq; assumption. Qed.
Lemma fpow_inv x n : x <> 0 -> fpow (finv x) n * fpow x n = 1.
Proof. intros H. rewrite <- fpow_mul. replace (finv x * x) with (1 : F) by (field; exact H). apply fpow_1. Qed.

(** ** Polynomials as coefficient lists, lowest first *)
Fixpoint eval (p : list F) (x : F) : F := match p with [] => 0 | c :: q => c + x * eval q x end.
Lemma eval_sum p x : eval p x = fsum (length p) (fun i => nth i p 0 * fpow x i).
Proof.
  induction p as [|c q IH]; [reflexivity|]. cbn [length]. rewrite fsum_S_l. cbn [eval nth fpow].
  rewrite IH, <- fsum_scale. rewrite (fsum_ext _ (fun i => x * (nth i q 0 * fpow x i)) (fun i => nth i q 0 * (x * fpow x i))) by (intros; ring). ring.
Qed.
Lemma eval_0 p x : (forall i, nth i p 0 = 0) -> eval p x = 0.
Proof. intros H. rewrite eval_sum. apply fsum_0. intros. rewrite H. ring. Qed.
Fixpoint padd (p q : list F) : list F :=
  match p, q with [], _ => q | _, [] => p | a :: p', b :: q' => (a + b) :: padd p' q' end.
Lemma eval_padd p q x : eval (padd p q) x = eval p x + eval q x.
Proof. revert q. induction p as [|a p IH]; intros [|b q]; cbn; try ring. rewrite IH. ring. Qed.
Lemma length_padd p q : length (padd p q) = Nat.max (length p) (length q).
Proof. revert q. induction p as [|a p IH]; intros [|b q]; cbn; try lia. rewrite IH. lia. Qed.
Lemma nth_padd p q i : nth i (padd p q) 0 = nth i p 0 + nth i q 0.
Proof. revert q i. induction p as [|a p IH]; intros [|b q] [|i]; cbn; try ring. apply IH. Qed.
Definition pscale (c : F) (p : list F) : list F := map (fun a => c * a) p.
Lemma eval_pscale c p x : eval (pscale c p) x = c * eval p x.
Proof. induction p as [|a p IH]; cbn; [ring|]. fold (pscale c p). rewrite IH. ring. Qed.
Lemma nth_pscale c p i : nth i (pscale c p) 0 = c * nth i p 0.
Proof.
  revert i. induction p as [|a p IH]; intros [|i]; cbn; try ring. apply IH.
Qed.

(** division by a linear factor: quotient and remainder *)
Fixpoint pdiv (p : list F) (r : F) : list F * F :=
  match p with
  | [] => ([], 0)
  | c :: q => let '(d, e) := pdiv q r in (e :: d, c + r * e)
  end.
Lemma pdiv_rem p r : snd (pdiv p r) = eval p r.
Proof. induction p as [|c q IH]; [reflexivity|]. cbn. destruct (pdiv q r) as (d & e). cbn in *. rewrite IH. ring. Qed.
Lemma pdiv_length p r : length (fst (pdiv p r)) = length p.
Proof. induction p as [|c q IH]; [reflexivity|]. cbn. destruct (pdiv q r) as (d & e). cbn in *. lia. Qed.
Lemma pdiv_eval p r x : eval p x = (x - r) * eval (fst (pdiv p r)) x + eval p r.
Proof.
  rewrite <- (pdiv_rem p r). induction p as [|c q IH]; [cbn; ring|]. cbn. destruct (pdiv q r) as (d & e). cbn in *. rewrite IH. ring.
Qed.
Lemma pdiv_last p r n : length p = S n -> nth n (fst (pdiv p r)) 0 = 0.
Proof.
  revert n. induction p as [|c q IH]; intros n H; [discriminate|]. cbn in H. injection H as H. cbn. destruct (pdiv q r) as (d & e) eqn:E.
  cbn. destruct n as [|n]; [destruct q; [|discriminate]; cbn in E; injection E as <- <-; reflexivity|]. specialize (IH n H). rewrite ?E in IH. exact IH.
Qed.
Lemma pdiv_zero p r : eval p r = 0 -> (forall i, nth i (fst (pdiv p r)) 0 = 0) -> forall i, nth i p 0 = 0.
Proof.
  rewrite <- pdiv_rem. induction p as [|c q IH]; intros E H i; [destruct i; reflexivity|]. cbn in E, H. destruct (pdiv q r) as (d & e) eqn:ED. cbn in *.
  assert (E0 : e = 0) by exact (H 0%nat). subst e. destruct i as [|i]; [rewrite <- E; ring|]. apply IH; [reflexivity|]. intros j. exact (H (S j)).
Qed.

(** a polynomial with at least as many roots as coefficients is zero *)
Lemma too_many_roots n p (x : nat -> F) : (forall i, (n <= i)%nat -> nth i p 0 = 0) ->
  (forall i j, (i < j < n)%nat -> x i <> x j) -> (forall i, (i < n)%nat -> eval p (x i) = 0) -> forall i, nth i p 0 = 0.
Proof.
  revert p. induction n as [|n IH]; intros p HL HD HR i; [apply HL; lia|]. revert i. apply (pdiv_zero p (x n)); [apply HR; lia|].
  assert (HQ : forall i, nth i (fst (pdiv p (x n))) 0 = nth (S i) p 0 + x n * nth (S i) (fst (pdiv p (x n))) 0).
  { generalize (x n) as r. clear. intros r. induction p as [|c q IH]; intros i; [destruct i; cbn; ring|].
    cbn. destruct (pdiv q r) as (d & e) eqn:E. cbn in *. destruct i as [|i].
    - destruct q as [|c' q']; cbn in E; [injection E as <- <-; cbn; ring|]. destruct (pdiv q' r) as (d' & e'). injection E as <- <-. cbn. ring.
    - rewrite IH. destruct q as [|c' q']; [destruct i; reflexivity|]. reflexivity. }
  apply IH.
  - assert (HH : forall k i, (n <= i)%nat -> (length p <= i + k)%nat -> nth i (fst (pdiv p (x n))) 0 = 0).
    { induction k as [|k IHk]; intros i Hi Hk; [apply nth_overflow; rewrite pdiv_length; lia|].
      rewrite HQ, HL, IHk by lia. ring. }
    intros i Hi. apply (HH (length p)); lia.
  - intros i j Hij. apply HD. lia.
  - intros i Hi. pose proof (pdiv_eval p (x n) (x i)) as E. rewrite (HR i), (HR n) in E by lia.
    destruct (fmul_0 (x i - x n) (eval (fst (pdiv p (x n))) (x i))) as [Z|Z]; [rewrite E; ring| |exact Z].
    apply fsub_0 in Z. exfalso. apply (HD i n); [lia|exact Z].
Qed.

(** ** Functions given by a polynomial with at most [n] coefficients *)
Definition ispoly (n : nat) (f : F -> F) : Prop := exists p, length p <= n /\ forall x, f x = eval p x.
Lemma ispoly_ext n f g : (forall x, f x = g x) -> ispoly n g -> ispoly n f.
Proof. intros H (p & HL & HE). exists p. split; [exact HL|]. intros x. rewrite H. apply HE. Qed.
Lemma ispoly_mono n m f : (n <= m)%nat -> ispoly n f -> ispoly m f.
Proof. intros H (p & HL & HE). exists p. split; [lia|exact HE]. Qed.
Lemma ispoly_const c : ispoly 1 (fun _ => c).
Proof. exists [c]. split; [cbn; lia|]. intros x. cbn. ring. Qed.
Lemma ispoly_add n f g : ispoly n f -> ispoly n g -> ispoly n (fun x => f x + g x).
Proof.
  intros (p & HL & HE) (q & HL' & HE'). exists (padd p q). split; [rewrite length_padd; apply Nat.max_lub; assumption|]. intros x. rewrite eval_padd, HE, HE'. reflexivity.
Qed.
Lemma ispoly_scale n c f : ispoly n f -> ispoly n (fun x => c * f x).
Proof.
  intros (p & HL & HE). exists (pscale c p). split; [unfold pscale; rewrite map_length; exact HL|]. intros x. rewrite eval_pscale, HE. reflexivity.
Qed.
Lemma ispoly_linear n a f : ispoly n f -> ispoly (S n) (fun x => f x * (x - a)).
Proof.
  intros (p & HL & HE). exists (padd (0 :: p) (pscale (- a) p)). split.
  - rewrite length_padd. unfold pscale. rewrite map_length. cbn [length]. lia.
  - intros x. rewrite eval_padd, eval_pscale, HE. cbn. ring.
Qed.
Lemma ispoly_sum n m (f : nat -> F -> F) : (forall k, (k < m)%nat -> ispoly n (f k)) -> ispoly n (fun x => fsum m (fun k => f k x)).
Proof.
  induction m as [|m IH]; intros H; cbn.
  - exists []. split; [cbn; lia|reflexivity].
  - apply ispoly_add; [apply IH; intros; apply H; lia|apply H; lia].
Qed.
Lemma ispoly_prod n (a : nat -> F) : ispoly (S n) (fun x => fprod n (fun m => x - a m)).
Proof. induction n as [|n IH]; cbn; [apply ispoly_const|]. apply ispoly_linear. exact IH. Qed.
Lemma ispoly_prod_but n k (a : nat -> F) : (k < n)%nat -> ispoly n (fun x => fprod_but n k (fun m => x - a m)).
Proof.
  unfold fprod_but. induction n as [|n IH]; intros Hk; [lia|]. cbn. destruct (Nat.eqb_spec n k) as [->|Hn].
  - apply (ispoly_ext _ _ (fun x => fprod k (fun m => x - a m))); [|apply ispoly_prod].
    intros x. rewrite (fprod_ext k _ (fun m => x - a m)); [ring|]. intros i Hi. destruct (Nat.eqb_spec i k); [lia|reflexivity].
  - apply ispoly_linear. apply IH. lia.
Qed.
Lemma ispoly_agree n f g (x : nat -> F) : ispoly n f -> ispoly n g -> (forall i j, (i < j < n)%nat -> x i <> x j) ->
  (forall i, (i < n)%nat -> f (x i) = g (x i)) -> forall z, f z = g z.
Proof.
  intros Hf Hg HD HA z.
  assert (Hd : ispoly n (fun z => f z + (- (1)) * g z)) by (apply ispoly_add; [exact Hf|apply ispoly_scale; exact Hg]).
  destruct Hd as (p & HL & HE). assert (Z : eval p z = 0).
  { apply eval_0. apply (too_many_roots n p x); [|exact HD|].
    - intros i Hi. apply nth_overflow. lia.
    - intros i Hi. rewrite <- HE, HA by exact Hi. ring. }
  rewrite <- HE in Z. apply fsub_0. rewrite <- Z. ring.
Qed.

(** ** The Cauchy matrix and its inverse *)
Section Cauchy.
Variable n : nat.
Variables x y : nat -> F.
Hypothesis HX : forall i j, (i < n)%nat -> (j < n)%nat -> i <> j -> x i <> x j.
Hypothesis HY : forall i j, (i < n)%nat -> (j < n)%nat -> i <> j -> y i <> y j.
Hypothesis HXY : forall i j, (i < n)%nat -> (j < n)%nat -> x i + y j <> 0.

Definition cauchy (k j : nat) : F := finv (x k + y j).
(** entry (i,k) of the inverse *)
Definition cauchy_inv (i k : nat) : F :=
  (fprod n (fun m => x m + y i) * fprod n (fun m => x k + y m))
  / ((x k + y i) * (fprod_but n i (fun m => y i - y m) * fprod_but n k (fun m => x k - x m))).

Lemma interpolate (f : F -> F) z : ispoly n f ->
  f z = fsum n (fun k => f (x k) * (fprod_but n k (fun m => z - x m) / fprod_but n k (fun m => x k - x m))).
Proof.
  intros Hf.
  apply (ispoly_agree n f (fun z => fsum n (fun k => f (x k) * (fprod_but n k (fun m => z - x m) / fprod_but n k (fun m => x k - x m)))) x).
  - exact Hf.
  - apply ispoly_sum. intros k Hk.
    assert (D : fprod_but n k (fun m => x k - x m) <> 0).
    { apply fprod_but_neq. intros i Hi Hn E. apply fsub_0 in E. apply (HX k i); try assumption. lia. }
    apply (ispoly_ext _ _ (fun z => (f (x k) / fprod_but n k (fun m => x k - x m)) * fprod_but n k (fun m => z - x m))).
    + intros u. field. exact D.
    + apply ispoly_scale. apply ispoly_prod_but. exact Hk.
  - intros i j Hij. apply HX; lia.
  - intros i Hi. symmetry.
    assert (D : fprod_but n i (fun m => x i - x m) <> 0).
    { apply fprod_but_neq. intros j Hj Hn E. apply fsub_0 in E. apply (HX i j); try assumption. lia. }
    rewrite (fsum_single n _ i Hi).
    + field. exact D.
    + intros k Hk Hn.
      assert (D' : fprod_but n k (fun m => x k - x m) <> 0).
      { apply fprod_but_neq. intros j Hj Hn' E. apply fsub_0 in E. apply (HX k j); try assumption. lia. }
      replace (fprod_but n k (fun m => x i - x m)) with (0 : F); [field; exact D'|].
      symmetry. apply (fprod_0 _ _ i Hi). destruct (Nat.eqb_spec i k); [lia|]. ring.
Qed.

Lemma cauchy_inv_spec i j : (i < n)%nat -> (j < n)%nat ->
  fsum n (fun k => cauchy_inv i k * cauchy k j) = if Nat.eqb i j then 1 else 0.
Proof.
  intros Hi Hj.
  assert (Dx : forall k, (k < n)%nat -> fprod_but n k (fun m => x k - x m) <> 0).
  { intros k Hk. apply fprod_but_neq. intros m Hm Hn E. apply fsub_0 in E. apply (HX k m); try assumption. lia. }
  assert (Dy : fprod_but n i (fun m => y i - y m) <> 0).
  { apply fprod_but_neq. intros m Hm Hn E. apply fsub_0 in E. apply (HY i m); try assumption. lia. }
  assert (Pj : fprod n (fun m => x m + y j) <> 0) by (apply fprod_neq; intros m Hm; apply HXY; assumption).
  (* f(z) = prod over m <> i of (z + y m) *)
  set (f := fun z : F => fprod_but n i (fun m => z - - y m)).
  assert (Hf : ispoly n f) by (apply (ispoly_prod_but n i (fun m => - y m)); exact Hi).
  pose proof (interpolate f (- y j) Hf) as E.
  set (s := fprod (n - 1) (fun _ => - (1) : F)).
  assert (SG : forall k g, (k < n)%nat -> fprod_but n k (fun m => - g m) = s * fprod_but n k g).
  { intros k g Hk. unfold fprod_but at 1. rewrite (fprod_ext n _ (fun m => (if m =? k then 1 else - (1)) * (if m =? k then 1 else g m))) by (intros m Hm; destruct (m =? k); ring).
    rewrite fprod_mul. unfold fprod_but. f_equal. unfold s. clear -Hk. revert k Hk. induction n as [|n' IH]; intros k Hk; [lia|].
    cbn [fprod]. replace (S n' - 1)%nat with n' by lia. destruct (Nat.eqb_spec n' k) as [->|Hn].
    - rewrite (fprod_ext k _ (fun _ => - (1))); [ring|]. intros m Hm. destruct (Nat.eqb_spec m k); [lia|reflexivity].
    - destruct n' as [|n'']; [lia|]. rewrite IH by lia. replace (S n'' - 1)%nat with n'' by lia. cbn. ring. }
  assert (Hs : s <> 0).
  { apply fprod_neq. intros m _ E'. apply f1_neq_0. transitivity (- - (1 : F)); [ring|]. rewrite E'. ring. }
  (* value of f at -y_j *)
  assert (Ef : f (- y j) = if Nat.eqb i j then s * fprod_but n i (fun m => y i - y m) else 0).
  { unfold f. destruct (Nat.eqb_spec i j) as [<-|Hn].
    - rewrite <- SG by exact Hi. apply fprod_ext. intros m Hm. destruct (m =? i); ring.
    - apply (fprod_0 _ _ j Hj). destruct (Nat.eqb_spec j i); [lia|]. ring. }
  rewrite Ef in E.
  rewrite (fsum_ext _ _ (fun k => cauchy_inv i k * cauchy k j * (s * fprod n (fun m => x m + y j) * fprod_but n i (fun m => y i - y m) / fprod n (fun m => x m + y i)))) in E.
  - rewrite fsum_scale_r in E.
    assert (Pi : fprod n (fun m => x m + y i) <> 0) by (apply fprod_neq; intros m Hm; apply HXY; assumption).
    set (A := s * fprod n (fun m => x m + y j) * fprod_but n i (fun m => y i - y m) / fprod n (fun m => x m + y i)) in E.
    assert (HA : A <> 0).
    { unfold A. intros Z. assert (Z' : s * fprod n (fun m => x m + y j) * fprod_but n i (fun m => y i - y m) = 0).
      { transitivity (s * fprod n (fun m => x m + y j) * fprod_but n i (fun m => y i - y m) / fprod n (fun m => x m + y i) * fprod n (fun m => x m + y i)); [field; exact Pi|].
        rewrite Z. ring. }
      apply fmul_0 in Z'. destruct Z' as [Z'|Z']; [|tauto]. apply fmul_0 in Z'. tauto. }
    destruct (Nat.eqb_spec i j) as [<-|Hn].
    + apply (fmul_cancel_l A); [exact HA|]. transitivity (fsum n (fun k => cauchy_inv i k * cauchy k i) * A); [ring|]. rewrite <- E. unfold A. field. exact Pi.
    + apply (fmul_cancel_l A); [exact HA|]. transitivity (fsum n (fun k => cauchy_inv i k * cauchy k j) * A); [ring|]. rewrite <- E. ring.
  - intros k Hk. unfold cauchy_inv, cauchy.
    assert (Pi : fprod n (fun m => x m + y i) <> 0) by (apply fprod_neq; intros m Hm; apply HXY; assumption).
    rewrite (fprod_split n i (fun m => x k + y m)) by exact Hi.
    rewrite (fprod_split n k (fun m => x m + y j)) by exact Hk.
    assert (E1 : f (x k) = fprod_but n i (fun m => x k + y m)) by (apply fprod_ext; intros m Hm; destruct (m =? i); ring).
    assert (E2 : fprod_but n k (fun m => - y j - x m) = s * fprod_but n k (fun m => x m + y j)).
    { rewrite <- SG by exact Hk. apply fprod_ext. intros m Hm. destruct (m =? k); ring. }
    rewrite E1, E2. field. repeat split; try assumption; try (apply HXY; assumption). apply Dx; assumption.
Qed.
End Cauchy.
End Poly.
Arguments fsum {F}. Arguments fprod {F}. Arguments fprod_but {F}. Arguments fpow {F}. Arguments eval {F}.
Arguments padd {F}. Arguments pscale {F}. Arguments cauchy {F}. Arguments cauchy_inv {F}. Arguments ispoly {F}.
