(** The mathematics of decoding Reed-Solomon codes over a field of characteristic 2: the Berlekamp-Massey
    recursion started with an erasure locator, and Forney's formula.  No model of code. *)
From Coq Require Import List Arith Lia Field Ring ZifyBool.
From Verif Require Import Lib_field Lib_poly.
Import ListNotations.

Section RS.
Variable F : fld.
Hypothesis C2 : forall x : F, fadd x x = f0.
Local Open Scope fld_scope.
Add Field FFrs : (fth F).

Notation "p .[ i ]" := (nth i p f0) (at level 2, left associativity, format "p .[ i ]").

Lemma sub_add (x y : F) : x - y = x + y.
Proof. transitivity (x + y - (y + y)); [ring|]. rewrite C2. ring. Qed.
Lemma opp_id (x : F) : - x = x.
Proof. transitivity (0 - x); [ring|]. rewrite sub_add. ring. Qed.
Lemma add_0_eq (x y : F) : x + y = 0 -> x = y.
Proof. intros H. apply fsub_0. rewrite sub_add. exact H. Qed.

Lemma finv_finv (x : F) : x <> 0 -> finv (finv x) = x.
Proof.
  intros Hx. apply (fmul_cancel_l F (finv x)); [apply finv_neq; exact Hx|]. transitivity (1 : F).
  - field. split; [exact Hx|apply f1_neq_0].
  - field. exact Hx.
Qed.
Lemma fsum_more n m (f : nat -> F) : n <= m -> (forall i, n <= i < m -> f i = 0) -> fsum m f = fsum n f.
Proof.
  intros H Z. replace m with (n + (m - n))%nat by lia. rewrite fsum_split.
  rewrite (fsum_0 F (m - n)) by (intros i Hi; apply Z; lia). ring.
Qed.
Lemma eval_bound n (p : list F) x : (forall i, n <= i -> p.[i] = 0) -> eval p x = fsum n (fun i => p.[i] * fpow x i).
Proof.
  intros H. rewrite eval_sum. destruct (Nat.le_ge_cases n (length p)) as [L|L].
  - apply fsum_more; [exact L|]. intros i Hi. rewrite H by lia. ring.
  - symmetry. apply fsum_more; [exact L|]. intros i Hi. rewrite nth_overflow by lia. ring.
Qed.
Lemma eval_ext (p q : list F) x : (forall i, p.[i] = q.[i]) -> eval p x = eval q x.
Proof.
  intros H. rewrite (eval_bound (Nat.max (length p) (length q)) p) by (intros; apply nth_overflow; lia).
  rewrite (eval_bound (Nat.max (length p) (length q)) q) by (intros; apply nth_overflow; lia). apply fsum_ext. intros i _. rewrite H. reflexivity.
Qed.
Lemma eval_shift m (p : list F) x : eval (repeat 0 m ++ p) x = fpow x m * eval p x.
Proof. induction m as [|m IH]; cbn; [ring|]. rewrite IH. ring. Qed.
Lemma nth_shift m (p : list F) i : (repeat 0 m ++ p).[i] = if m <=? i then p.[i - m] else 0.
Proof.
  destruct (Nat.leb_spec m i).
  - rewrite app_nth2; rewrite repeat_length; [reflexivity|lia].
  - rewrite app_nth1 by (rewrite repeat_length; lia). apply nth_repeat.
Qed.

(** coefficient [j] of the product of [c] with the power series [s] *)
Definition disc (c : list F) (s : nat -> F) (j : nat) : F := fsum (S j) (fun i => c.[i] * s (j - i)%nat).
(** t = c + d x^m b *)
Definition combine (t c b : list F) (d : F) (m : nat) : Prop :=
  forall i, t.[i] = c.[i] + (if m <=? i then d * b.[i - m] else 0).
Lemma eval_combine t c b d m x : combine t c b d m -> eval t x = eval c x + d * fpow x m * eval b x.
Proof.
  intros H. rewrite (eval_ext t (padd c (repeat 0 m ++ pscale d b))).
  - rewrite eval_padd, eval_shift, eval_pscale. ring.
  - intros i. rewrite nth_padd, nth_shift, nth_pscale. apply H.
Qed.
Lemma disc_combine t c b d m s j : combine t c b d m ->
  disc t s j = disc c s j + (if m <=? j then d * disc b s (j - m) else 0).
Proof.
  intros H. unfold disc. rewrite (fsum_ext F (S j) _ (fun i => c.[i] * s (j - i)%nat + (if m <=? i then d * b.[i - m] * s (j - i)%nat else 0))).
  2: { intros i Hi. rewrite H. destruct (m <=? i); ring. }
  rewrite fsum_add. f_equal. destruct (Nat.leb_spec m j) as [L|L].
  - replace (S j) with (m + S (j - m))%nat by lia. rewrite fsum_split. rewrite (fsum_0 F m).
    2: { intros i Hi. destruct (Nat.leb_spec m i); [lia|reflexivity]. }
    rewrite <- fsum_scale. replace (0 + _) with (fsum (S (j - m)) (fun i => if m <=? m + i then d * b.[m + i - m] * s (m + S (j - m) - 1 - (m + i))%nat else 0)).
    + apply fsum_ext. intros i Hi. destruct (Nat.leb_spec m (m + i)); [|lia]. replace (m + i - m)%nat with i by lia.
      replace (m + S (j - m) - 1 - (m + i))%nat with (j - m - i)%nat by lia. ring.
    + match goal with |- _ = 0 + ?b => transitivity b; [|ring] end. apply fsum_ext. intros i Hi. destruct (m <=? m + i); [|reflexivity]. do 3 f_equal. lia.
  - apply fsum_0. intros i Hi. destruct (Nat.leb_spec m i); [lia|reflexivity].
Qed.

(** ** Berlekamp-Massey.  [f] is the degree of the erasure locator, [n] the next syndrome. *)
Definition bm_inv (s : nat -> F) (f n : nat) (c b : list F) (L m : nat) : Prop :=
  f <= L <= n /\ 1 <= m /\ c.[0] = 1 /\ (forall i, L < i -> c.[i] = 0) /\
  (forall j, L <= j < n -> disc c s j = 0) /\
  exists LB, (LB + m + L = n + f + 1)%nat /\ (forall i, LB < i -> b.[i] = 0) /\
    (L = f \/ (m <= n /\ (forall i, LB <= i < n - m -> disc b s i = 0) /\ disc b s (n - m) = 1)).

Lemma bm_init s f (c : list F) : c.[0] = 1 -> (forall i, f < i -> c.[i] = 0) -> bm_inv s f f c c f 1.
Proof.
  intros H0 HD. split; [lia|]. split; [lia|]. split; [exact H0|]. split; [exact HD|]. split; [intros; lia|].
  exists f. split; [lia|]. split; [exact HD|left; reflexivity].
Qed.
Lemma bm_zero s f n c b L m : bm_inv s f n c b L m -> disc c s n = 0 -> bm_inv s f (S n) c b L (S m).
Proof.
  intros (HL & Hm & H0 & HC & HZ & LB & E & HB & HR) D. split; [lia|]. split; [lia|]. split; [exact H0|]. split; [exact HC|]. split.
  - intros j Hj. destruct (Nat.eq_dec j n) as [->|]; [exact D|apply HZ; lia].
  - exists LB. split; [lia|]. split; [exact HB|]. destruct HR as [HR|(R1 & R2 & R3)]; [left; exact HR|right].
    split; [lia|]. replace (S n - S m)%nat with (n - m)%nat by lia. split; assumption.
Qed.
Lemma bm_disc_t s f n c b L m t L' : bm_inv s f n c b L m -> disc c s n <> 0 -> combine t c b (disc c s n) m ->
  L <= L' -> n + f + 1 - L <= L' -> forall j, L' <= j < S n -> disc t s j = 0.
Proof.
  intros (HL & Hm & H0 & HC & HZ & LB & E & HB & HR) D HT H1 H2 j Hj. rewrite (disc_combine _ _ _ _ _ _ _ HT).
  destruct HR as [HR|(R1 & R2 & R3)]; [lia|]. destruct (Nat.leb_spec m j) as [M|M]; [|lia].
  destruct (Nat.eq_dec j n) as [->|N].
  - rewrite R3. transitivity (disc c s n + disc c s n); [ring|]. apply C2.
  - rewrite HZ, R2 by lia. ring.
Qed.
Lemma bm_deg_t s f n c b L m t d L' : bm_inv s f n c b L m -> combine t c b d m ->
  L <= L' -> n + f + 1 - L <= L' -> forall i, L' < i -> t.[i] = 0.
Proof.
  intros (HL & Hm & H0 & HC & HZ & LB & E & HB & HR) HT H1 H2 i Hi. rewrite HT, HC by lia. destruct (Nat.leb_spec m i); [|ring].
  rewrite HB by lia. ring.
Qed.
Lemma bm_lead_t s f n c b L m t d : bm_inv s f n c b L m -> combine t c b d m -> t.[0] = 1.
Proof.
  intros (HL & Hm & H0 & HC & HZ & LB & E & HB & HR) HT. rewrite HT, H0. destruct (Nat.leb_spec m 0); [lia|]. ring.
Qed.
Lemma bm_same s f n c b L m t : bm_inv s f n c b L m -> disc c s n <> 0 -> combine t c b (disc c s n) m -> n + f < 2 * L ->
  bm_inv s f (S n) t b L (S m).
Proof.
  intros HI D HT HL2. pose proof (bm_disc_t _ _ _ _ _ _ _ _ L HI D HT ltac:(lia) ltac:(lia)) as ZT.
  pose proof (bm_deg_t _ _ _ _ _ _ _ _ _ L HI HT ltac:(lia) ltac:(lia)) as DT. pose proof (bm_lead_t _ _ _ _ _ _ _ _ _ HI HT) as LT.
  destruct HI as (HL & Hm & H0 & HC & HZ & LB & E & HB & HR). split; [lia|]. split; [lia|]. split; [exact LT|]. split; [exact DT|]. split; [exact ZT|].
  exists LB. split; [lia|]. split; [exact HB|]. destruct HR as [HR|(R1 & R2 & R3)]; [left; exact HR|right].
  split; [lia|]. replace (S n - S m)%nat with (n - m)%nat by lia. split; assumption.
Qed.
Lemma disc_scale c k s j b : (forall i, b.[i] = c.[i] * k) -> disc b s j = disc c s j * k.
Proof. intros H. unfold disc. rewrite <- fsum_scale_r. apply fsum_ext. intros i Hi. rewrite H. ring. Qed.
Lemma bm_change s f n c b L m t b' : bm_inv s f n c b L m -> disc c s n <> 0 -> combine t c b (disc c s n) m -> 2 * L <= n + f ->
  (forall i, b'.[i] = c.[i] / disc c s n) -> bm_inv s f (S n) t b' (n + f + 1 - L) 1.
Proof.
  intros HI D HT HL2 HB'. set (L' := (n + f + 1 - L)%nat).
  pose proof (bm_disc_t _ _ _ _ _ _ _ _ L' HI D HT ltac:(lia) ltac:(lia)) as ZT.
  pose proof (bm_deg_t _ _ _ _ _ _ _ _ _ L' HI HT ltac:(lia) ltac:(lia)) as DT. pose proof (bm_lead_t _ _ _ _ _ _ _ _ _ HI HT) as LT.
  destruct HI as (HL & Hm & H0 & HC & HZ & LB & E & HB & HR). split; [unfold L'; lia|]. split; [lia|]. split; [exact LT|]. split; [exact DT|]. split; [exact ZT|].
  assert (SC : forall j, disc b' s j = disc c s j * finv (disc c s n)).
  { intros j. apply disc_scale. intros i. rewrite HB'. field. exact D. }
  exists L. split; [unfold L'; lia|]. split.
  - intros i Hi. rewrite HB', HC by exact Hi. field. exact D.
  - right. split; [lia|]. replace (S n - 1)%nat with n by lia. split.
    + intros i Hi. rewrite SC, HZ by lia. ring.
    + rewrite SC. field. exact D.
Qed.
(** without length change the register is the initial one; with L = 0 all syndromes so far are zero *)
Lemma bm_zero_len s n c b m : bm_inv s 0 n c b 0 m -> forall j, j < n -> s j = 0.
Proof.
  intros (HL & Hm & H0 & HC & HZ & _) j Hj. specialize (HZ j ltac:(lia)). unfold disc in HZ. rewrite (fsum_single F (S j) _ 0) in HZ.
  - rewrite H0, Nat.sub_0_r in HZ. rewrite <- HZ. ring.
  - lia.
  - intros i Hi Hne. rewrite HC by lia. ring.
Qed.
(** common roots are preserved *)
Lemma bm_root t c b d m x : combine t c b d m -> eval c x = 0 -> eval b x = 0 -> eval t x = 0.
Proof. intros HT HC HB. rewrite (eval_combine _ _ _ _ _ _ HT), HC, HB. ring. Qed.
Lemma eval_scale (b c : list F) k x : (forall i, b.[i] = c.[i] * k) -> eval b x = eval c x * k.
Proof.
  intros H. rewrite (eval_ext b (pscale k c)); [rewrite eval_pscale; ring|]. intros i. rewrite nth_pscale, H. ring.
Qed.

(** ** sums of geometric sequences *)
Lemma fpow_div (x : F) i j : x <> 0 -> i <= j -> fpow x (j - i) = fpow x j * fpow (finv x) i.
Proof.
  intros Hx Hij. replace j with (j - i + i)%nat at 2 by lia. rewrite fpow_add.
  transitivity (fpow x (j - i) * (fpow (finv x) i * fpow x i)); [rewrite fpow_inv by exact Hx; ring|ring].
Qed.
Lemma disc_powers q (W X : nat -> F) s c L j : (forall k, k < q -> X k <> 0) -> (forall i, L < i -> c.[i] = 0) -> L <= j ->
  (forall i, i <= j -> s i = fsum q (fun k => W k * fpow (X k) i)) ->
  disc c s j = fsum q (fun k => W k * eval c (finv (X k)) * fpow (X k) j).
Proof.
  intros HX HC HL HS. unfold disc.
  rewrite (fsum_ext F (S j) _ (fun i => fsum q (fun k => W k * (c.[i] * fpow (finv (X k)) i) * fpow (X k) j))).
  - rewrite fsum_swap. apply fsum_ext. intros k Hk. rewrite fsum_scale_r, fsum_scale. rewrite (eval_bound (S j) c); [reflexivity|].
    intros i Hi. apply HC. lia.
  - intros i Hi. rewrite HS by lia. rewrite <- fsum_scale. apply fsum_ext. intros k Hk. rewrite (fpow_div (X k) i j); [ring|apply HX; exact Hk|lia].
Qed.
(** Vandermonde *)
Lemma vandermonde e (v X : nat -> F) j0 : (forall k, k < e -> X k <> 0) -> (forall i j, i < j < e -> X i <> X j) ->
  (forall j, j0 <= j < j0 + e -> fsum e (fun k => v k * fpow (X k) j) = 0) -> forall k, k < e -> v k = 0.
Proof.
  intros HX HD HZ k Hk.
  assert (P : forall p, length p <= e -> fsum e (fun k => v k * fpow (X k) j0 * eval p (X k)) = 0).
  { intros p Hp. rewrite (fsum_ext F e _ (fun k => fsum (length p) (fun i => p.[i] * (v k * fpow (X k) (j0 + i))))).
    - rewrite fsum_swap. apply fsum_0. intros i Hi. rewrite fsum_scale, HZ by lia. ring.
    - intros i Hi. rewrite eval_sum, <- fsum_scale. apply fsum_ext. intros a Ha. rewrite fpow_add. ring. }
  destruct (ispoly_prod_but F e k X Hk) as (p & Lp & Ep). specialize (P p Lp).
  rewrite (fsum_single F e _ k) in P.
  - destruct (fmul_0 F _ _ P) as [Z|Z].
    + destruct (fmul_0 F _ _ Z) as [Z'|Z']; [exact Z'|]. exfalso. revert Z'. apply fpow_neq, HX, Hk.
    + exfalso. rewrite <- Ep in Z. revert Z. apply fprod_but_neq. intros i Hi Hne E. apply fsub_0 in E.
      destruct (Nat.lt_ge_cases i k); [apply (HD i k); [lia|congruence]|apply (HD k i); [lia|congruence]].
  - exact Hk.
  - intros i Hi Hne. rewrite <- Ep. unfold fprod_but. rewrite (fprod_0 F e _ i); [ring|exact Hi|]. destruct (Nat.eqb_spec i k); [contradiction|]. ring.
Qed.

(** ** the errors: positions 0 .. f-1 are erasures, f .. f+e-1 errors with nonzero weight *)
Section Errors.
Variables (f e NR : nat) (W X : nat -> F) (s : nat -> F).
Hypothesis HX : forall k, k < f + e -> X k <> 0.
Hypothesis HD : forall i j, i < j < f + e -> X i <> X j.
Hypothesis HW : forall k, f <= k < f + e -> W k <> 0.
Hypothesis HS : forall i, i < NR -> s i = fsum (f + e) (fun k => W k * fpow (X k) i).
Lemma disc_errors c L j : (forall k, k < f -> eval c (finv (X k)) = 0) -> (forall i, L < i -> c.[i] = 0) -> L <= j < NR ->
  disc c s j = fsum e (fun k => (W (f + k)%nat * eval c (finv (X (f + k)%nat))) * fpow (X (f + k)%nat) j).
Proof.
  intros HE HC Hj. rewrite (disc_powers (f + e) W X s c L j) by (try assumption; try lia; intros; apply HS; lia).
  rewrite fsum_split, (fsum_0 F f); [ring|]. intros k Hk. rewrite HE by exact Hk. ring.
Qed.
Lemma errors_zero c L : (forall k, k < f -> eval c (finv (X k)) = 0) -> (forall i, L < i -> c.[i] = 0) ->
  forall n, L + e <= n -> n <= NR -> (forall j, L <= j < n -> disc c s j = 0) ->
  forall k, k < f + e -> eval c (finv (X k)) = 0.
Proof.
  intros HE HC n Hn HN HZ k Hk. destruct (Nat.lt_ge_cases k f) as [Kf|Kf]; [apply HE; exact Kf|].
  pose proof (vandermonde e (fun k => W (f + k)%nat * eval c (finv (X (f + k)%nat))) (fun k => X (f + k)%nat) L) as V.
  assert (V0 : W k * eval c (finv (X k)) = 0).
  { replace k with (f + (k - f))%nat by lia. apply V.
    - intros i Hi. apply HX. lia.
    - intros i j Hij. apply HD. lia.
    - intros j Hj. rewrite <- (disc_errors c L j HE HC ltac:(lia)). apply HZ. lia.
    - lia. }
  destruct (fmul_0 F _ _ V0) as [Z|Z]; [|exact Z]. exfalso. apply (HW k); [lia|exact Z].
Qed.
(** a nonzero discrepancy needs a short register *)
Lemma bm_short n c b L m : bm_inv s f n c b L m -> n < NR -> (forall k, k < f -> eval c (finv (X k)) = 0) -> disc c s n <> 0 -> n + 1 <= L + e.
Proof.
  intros (HL & Hm & H0 & HC & HZ & _) Hn HE D. destruct (Nat.le_gt_cases (n + 1) (L + e)) as [G|G]; [exact G|exfalso]. apply D.
  pose proof (errors_zero c L HE HC n ltac:(lia) ltac:(lia) HZ) as EZ.
  rewrite (disc_errors c L n HE HC ltac:(lia)). apply fsum_0. intros k Hk. rewrite EZ by lia. ring.
Qed.
Lemma bm_final c b L m : bm_inv s f NR c b L m -> 2 * e + f <= NR -> L <= f + e -> (forall k, k < f -> eval c (finv (X k)) = 0) ->
  L = (f + e)%nat /\ c.[f + e] <> 0 /\ forall k, k < f + e -> eval c (finv (X k)) = 0.
Proof.
  intros (HL & Hm & H0 & HC & HZ & _) H2 HLe HE.
  pose proof (errors_zero c L HE HC NR ltac:(lia) ltac:(lia) HZ) as EZ.
  assert (NZ : c.[f + e] <> 0).
  { intros Z. apply (f1_neq_0 F). rewrite <- H0. apply (too_many_roots F (f + e) c (fun k => finv (X k))).
    - intros i Hi. destruct (Nat.eq_dec i (f + e)) as [->|]; [exact Z|]. apply HC. lia.
    - intros i j Hij E. apply (HD i j Hij). pose proof (HX i ltac:(lia)). pose proof (HX j ltac:(lia)).
      transitivity (X i * X j * finv (X j)); [field; assumption|]. rewrite <- E. field. assumption.
    - intros i Hi. apply EZ. exact Hi. }
  split; [|split; assumption]. destruct (Nat.lt_ge_cases L (f + e)) as [G|G]; [exfalso; apply NZ, HC; lia|lia].
Qed.
End Errors.

(** ** Forney *)
(** the formal derivative in characteristic 2 *)
Fixpoint deriv (p : list F) (x : F) : F := match p with [] => 0 | c :: q => eval q x + x * deriv q x end.
Lemma deriv_quotient p r : deriv p r = eval (fst (pdiv F p r)) r.
Proof.
  induction p as [|c q IH]; [reflexivity|]. cbn [deriv pdiv]. pose proof (pdiv_rem F q r) as R. destruct (pdiv F q r) as (d & ee). cbn [fst snd] in *.
  cbn [eval]. rewrite IH, R. reflexivity.
Qed.
Lemma deriv_ext p q x : (forall i, p.[i] = q.[i]) -> deriv p x = deriv q x.
Proof.
  assert (Z : forall q, (forall i, q.[i] = 0) -> deriv q x = 0).
  { clear. induction q as [|c q IH]; intros H; [reflexivity|]. cbn [deriv]. rewrite IH, (eval_0 F); [ring| |]; intros i; exact (H (S i)). }
  revert q. induction p as [|c p IH]; intros [|d q] H.
  - reflexivity.
  - symmetry. apply Z. intros i. rewrite <- H. destruct i; reflexivity.
  - apply Z. intros i. rewrite H. destruct i; reflexivity.
  - cbn [deriv]. rewrite (IH q), (eval_ext p q); [reflexivity| |]; intros i; exact (H (S i)).
Qed.
Lemma deriv_odd (p : list F) x m : (length p <= 2 * m)%nat -> deriv p x = fsum m (fun i => p.[2 * i + 1] * fpow (x * x) i).
Proof.
  revert p. induction m as [|m IH]; intros p Hp.
  - destruct p; [reflexivity|cbn in Hp; lia].
  - rewrite fsum_S_l. change (2 * 0 + 1)%nat with 1%nat.
    destruct p as [|a [|b p]].
    + cbn [deriv]. rewrite (fsum_0 F); [cbn; ring|]. intros i Hi. rewrite nth_overflow by (cbn [length]; lia). ring.
    + cbn [deriv eval]. rewrite (fsum_0 F); [cbn; ring|]. intros i Hi. rewrite nth_overflow by (cbn [length]; lia). ring.
    + cbn [deriv eval]. rewrite (IH p) by (cbn [length] in Hp; lia).
      rewrite (fsum_ext F m (fun i => (a :: b :: p).[2 * S i + 1] * fpow (x * x) (S i)) (fun i => (x * x) * (p.[2 * i + 1] * fpow (x * x) i))).
      2: { intros i Hi. replace (2 * S i + 1)%nat with (S (S (2 * i + 1))) by lia. cbn [nth fpow]. ring. }
      rewrite fsum_scale. cbn [nth fpow].
      transitivity (b + (x * eval p x + x * eval p x) + x * x * fsum m (fun i => p.[2 * i + 1] * fpow (x * x) i)); [ring|].
      rewrite C2. ring.
Qed.
Lemma pdiv_nth (p : list F) r i : (fst (pdiv F p r)).[i] = p.[S i] + r * (fst (pdiv F p r)).[S i].
Proof.
  revert i. induction p as [|c q IH]; intros i; [destruct i; cbn; ring|].
  cbn. destruct (pdiv F q r) as (d & e) eqn:E. cbn in *. destruct i as [|i].
  - destruct q as [|c' q']; cbn in E; [injection E as <- <-; cbn; ring|]. destruct (pdiv F q' r) as (d' & e'). injection E as <- <-. cbn. ring.
  - rewrite IH. destruct q as [|c' q']; [destruct i; reflexivity|]. reflexivity.
Qed.
Lemma pdiv_nth0 (p : list F) r : eval p r = p.[0] + r * (fst (pdiv F p r)).[0].
Proof. destruct p as [|c q]; cbn; [ring|]. rewrite <- (pdiv_rem F q r). destruct (pdiv F q r) as (d & ee). cbn. reflexivity. Qed.
Lemma pdiv_high (p : list F) r n : (forall i, n < i -> p.[i] = 0) -> forall i, n <= i -> (fst (pdiv F p r)).[i] = 0.
Proof.
  intros H. assert (HH : forall k i, n <= i -> length p <= i + k -> (fst (pdiv F p r)).[i] = 0).
  { induction k as [|k IHk]; intros i Hi Hk; [apply nth_overflow; rewrite pdiv_length; lia|]. rewrite pdiv_nth, H, IHk by lia. ring. }
  intros i Hi. apply (HH (length p)); lia.
Qed.
(** the coefficients of c/(1 - x/r) are those of the quotient by x - r, up to a factor *)
Lemma geometric_quotient (c : list F) r i : r <> 0 -> eval c r = 0 ->
  fsum (S i) (fun a => c.[a] * fpow (finv r) (i - a)) = r * (fst (pdiv F c r)).[i].
Proof.
  intros Hr E. induction i as [|i IH].
  - cbn. pose proof (pdiv_nth0 c r) as P. rewrite E in P. transitivity (c.[0]); [ring|]. apply add_0_eq. rewrite <- P. reflexivity.
  - cbn [fsum]. cbn [fsum] in IH. rewrite Nat.sub_diag.
    rewrite (fsum_ext F i _ (fun a => finv r * (c.[a] * fpow (finv r) (i - a)))).
    2: { intros a Ha. replace (S i - a)%nat with (S (i - a)) by lia. cbn [fpow]. ring. }
    rewrite fsum_scale. replace (S i - i)%nat with (S (i - i))%nat by lia. cbn [fpow].
    transitivity (finv r * (fsum i (fun i0 => c.[i0] * fpow (finv r) (i - i0)) + c.[i] * fpow (finv r) (i - i)) + c.[S i]); [ring|].
    rewrite IH. rewrite (pdiv_nth c r i). transitivity ((c.[S i] + c.[S i]) + r * (fst (pdiv F c r)).[S i]); [field; exact Hr|]. rewrite C2. ring.
Qed.
(** the evaluator at a root *)
Lemma forney q (W X : nat -> F) s c : (forall k, k < q -> X k <> 0) -> (forall i j, i < j < q -> X i <> X j) ->
  (forall i, q < i -> c.[i] = 0) -> (forall k, k < q -> eval c (finv (X k)) = 0) ->
  (forall i, i < q -> s i = fsum q (fun k => W k * fpow (X k) i)) ->
  forall l, l < q -> fsum q (fun i => disc c s i * fpow (finv (X l)) i) = finv (X l) * W l * deriv c (finv (X l)).
Proof.
  intros HX HD HC HE HS l Hl.
  assert (FI : forall x : F, x <> 0 -> finv (finv x) = x). { exact finv_finv. }
  assert (D : forall i, i < q -> disc c s i = fsum q (fun k => W k * (finv (X k) * (fst (pdiv F c (finv (X k)))).[i]))).
  { intros i Hi. unfold disc. rewrite (fsum_ext F (S i) _ (fun a => fsum q (fun k => W k * (c.[a] * fpow (finv (finv (X k))) (i - a))))).
    - rewrite fsum_swap. apply fsum_ext. intros k Hk. rewrite fsum_scale. rewrite geometric_quotient; [reflexivity|apply finv_neq, HX, Hk|apply HE; exact Hk].
    - intros a Ha. rewrite HS by lia. rewrite <- fsum_scale. apply fsum_ext. intros k Hk. rewrite FI by (apply HX; exact Hk). ring. }
  rewrite (fsum_ext F q _ (fun i => fsum q (fun k => W k * finv (X k) * ((fst (pdiv F c (finv (X k)))).[i] * fpow (finv (X l)) i)))).
  2: { intros i Hi. rewrite D by exact Hi. rewrite <- fsum_scale_r. apply fsum_ext. intros k Hk. ring. }
  rewrite fsum_swap. rewrite (fsum_ext F q _ (fun k => W k * finv (X k) * eval (fst (pdiv F c (finv (X k)))) (finv (X l)))).
  2: { intros k Hk. rewrite fsum_scale. rewrite (eval_bound q); [reflexivity|]. apply pdiv_high. exact HC. }
  rewrite (fsum_single F q _ l).
  - rewrite deriv_quotient. ring.
  - exact Hl.
  - intros k Hk Hne. pose proof (pdiv_eval F c (finv (X k)) (finv (X l))) as P. rewrite !HE in P by assumption.
    destruct (fmul_0 F (finv (X l) - finv (X k)) (eval (fst (pdiv F c (finv (X k)))) (finv (X l)))) as [Z|Z]; [rewrite P; ring| |rewrite Z; ring].
    exfalso. apply fsub_0 in Z. assert (X l = X k) as EX by (rewrite <- (FI (X l)), <- (FI (X k)), Z by (apply HX; assumption); reflexivity).
    destruct (Nat.lt_ge_cases k l); [apply (HD k l); [lia|congruence]|apply (HD l k); [lia|congruence]].
Qed.
(** distinct roots: the derivative does not vanish *)
Lemma deriv_neq n c (r : nat -> F) : (forall i, n < i -> c.[i] = 0) -> c.[0] <> 0 -> (forall i j, i < j < n -> r i <> r j) ->
  (forall k, k < n -> eval c (r k) = 0) -> forall k, k < n -> deriv c (r k) <> 0.
Proof.
  intros HC H0 HD HE k Hk Z. rewrite deriv_quotient in Z.
  apply H0. apply (pdiv_zero F c (r k)); [apply HE; exact Hk|].
  apply (too_many_roots F n _ r).
  - apply pdiv_high. exact HC.
  - exact HD.
  - intros i Hi. destruct (Nat.eq_dec i k) as [->|Hne]; [exact Z|].
    pose proof (pdiv_eval F c (r k) (r i)) as P. rewrite !HE in P by assumption.
    destruct (fmul_0 F (r i - r k) (eval (fst (pdiv F c (r k))) (r i))) as [Y|Y]; [rewrite P; ring| |exact Y].
    exfalso. apply fsub_0 in Y. destruct (Nat.lt_ge_cases i k); [apply (HD i k); [lia|congruence]|apply (HD k i); [lia|congruence]].
Qed.
(** every sequence obeying a recursion with distinct roots is a sum of geometric sequences with Forney's weights *)
Lemma forney_complete q NR (X : nat -> F) s c : (forall k, k < q -> X k <> 0) -> (forall i j, i < j < q -> X i <> X j) ->
  c.[0] = 1 -> (forall i, q < i -> c.[i] = 0) -> (forall k, k < q -> eval c (finv (X k)) = 0) ->
  (forall j, q <= j < NR -> disc c s j = 0) ->
  forall i, i < NR -> s i = fsum q (fun k => X k * fsum q (fun a => disc c s a * fpow (finv (X k)) a) / deriv c (finv (X k)) * fpow (X k) i).
Proof.
  intros HX HD H0 HC HE HZ.
  set (W := fun k => X k * fsum q (fun a => disc c s a * fpow (finv (X k)) a) / deriv c (finv (X k))).
  set (s' := fun i => fsum q (fun k => W k * fpow (X k) i)). intros i Hi. change (s i = s' i).
  assert (FI : forall x : F, x <> 0 -> finv (finv x) = x). { exact finv_finv. }
  assert (DI : forall i j, i < j < q -> finv (X i) <> finv (X j)).
  { intros a b Hab E. apply (HD a b Hab). rewrite <- (FI (X a)), <- (FI (X b)), E by (apply HX; lia). reflexivity. }
  assert (DN : forall k, k < q -> deriv c (finv (X k)) <> 0).
  { apply (deriv_neq q c (fun k => finv (X k))); try assumption. rewrite H0. apply f1_neq_0. }
  set (t := fun i => s i + s' i).
  assert (DT : forall j, disc c t j = disc c s j + disc c s' j).
  { intros j. unfold disc. rewrite <- fsum_add. apply fsum_ext. intros a Ha. unfold t. ring. }
  assert (Z1 : forall j, q <= j < NR -> disc c t j = 0).
  { intros j Hj. rewrite DT, HZ by exact Hj. rewrite (disc_powers q W X s' c q j HX HC) by (try lia; reflexivity). rewrite fsum_0; [ring|].
    intros k Hk. rewrite HE by exact Hk. ring. }
  assert (Z2 : forall j, j < q -> disc c t j = 0).
  { pose proof (too_many_roots F q (map (disc c t) (seq 0 q)) (fun k => finv (X k))) as TM.
    assert (NM : forall i, i < q -> (map (disc c t) (seq 0 q)).[i] = disc c t i).
    { intros a Ha. rewrite (nth_indep _ 0 (disc c t 0)) by (rewrite map_length, seq_length; exact Ha). rewrite map_nth, seq_nth by exact Ha. reflexivity. }
    intros j Hj. rewrite <- NM by exact Hj. apply TM.
    - intros a Ha. apply nth_overflow. rewrite map_length, seq_length. exact Ha.
    - exact DI.
    - intros l Hl. rewrite (eval_bound q) by (intros a Ha; apply nth_overflow; rewrite map_length, seq_length; exact Ha).
      rewrite (fsum_ext F q _ (fun a => disc c s a * fpow (finv (X l)) a + disc c s' a * fpow (finv (X l)) a)).
      2: { intros a Ha. rewrite NM, DT by exact Ha. ring. }
      rewrite fsum_add. rewrite (forney q W X s' c HX HD HC HE (fun i _ => eq_refl) l Hl).
      set (O := fsum q (fun a => disc c s a * fpow (finv (X l)) a)). unfold W. fold O.
      transitivity (O + O); [field; split; [apply DN; exact Hl|apply HX; exact Hl]|apply C2]. }
  assert (TZ : forall j, j < NR -> t j = 0).
  { intros j. induction j as [j IH] using lt_wf_ind. intros Hj.
    assert (E : disc c t j = 0) by (destruct (Nat.lt_ge_cases j q); [apply Z2; assumption|apply Z1; lia]).
    unfold disc in E. rewrite (fsum_single F (S j) _ 0) in E.
    - rewrite H0, Nat.sub_0_r in E. rewrite <- E. ring.
    - lia.
    - intros a Ha Hne. rewrite IH by lia. ring. }
  apply add_0_eq. apply TZ. exact Hi.
Qed.
End RS.
