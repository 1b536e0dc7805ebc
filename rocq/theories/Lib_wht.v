(** Sums, Walsh functions and the fast Walsh-Hadamard transform (no model code here). *)
From Coq Require Import ZifyBool ZifyNat ZifyN.
From Verif Require Import Cpp Spec_wht.
Local Open Scope Z_scope.

Fixpoint zsum (n : nat) (f : nat -> Z) : Z :=
  match n with O => 0 | S n' => zsum n' f + f n' end.
Lemma zsum_ext n f g : (forall i, (i < n)%nat -> f i = g i) -> zsum n f = zsum n g.
Proof. induction n as [|n IH]; intros H; cbn [zsum]; [reflexivity|]. rewrite IH, H by (intros; try apply H; lia). reflexivity. Qed.
Lemma zsum_plus n f g : zsum n (fun i => f i + g i) = zsum n f + zsum n g.
Proof. induction n as [|n IH]; cbn [zsum]; [lia|rewrite IH; lia]. Qed.
Lemma zsum_minus n f g : zsum n (fun i => f i - g i) = zsum n f - zsum n g.
Proof. induction n as [|n IH]; cbn [zsum]; [lia|rewrite IH; lia]. Qed.
Lemma zsum_scale n c f : zsum n (fun i => c * f i) = c * zsum n f.
Proof. induction n as [|n IH]; cbn [zsum]; [lia|rewrite IH; lia]. Qed.
Lemma zsum_0 n f : (forall i, (i < n)%nat -> f i = 0) -> zsum n f = 0.
Proof. induction n as [|n IH]; intros H; cbn [zsum]; [reflexivity|]. rewrite IH, H by (intros; try apply H; lia). reflexivity. Qed.
Lemma zsum_app n m f : zsum (n + m) f = zsum n f + zsum m (fun i => f (n + i)%nat).
Proof. induction m as [|m IH]; [rewrite Nat.add_0_r; cbn [zsum]; rewrite Z.add_0_r; reflexivity|]. rewrite Nat.add_succ_r. cbn [zsum]. rewrite IH. lia. Qed.
Lemma zsum_shift n f : zsum (S n) f = f O + zsum n (fun i => f (S i)).
Proof. change (S n) with (1 + n)%nat. rewrite zsum_app. reflexivity. Qed.
Lemma zsum_swap n m (f : nat -> nat -> Z) : zsum n (fun i => zsum m (f i)) = zsum m (fun j => zsum n (fun i => f i j)).
Proof.
  induction n as [|n IH]; cbn [zsum]; [symmetry; apply zsum_0; reflexivity|]. rewrite IH, <- zsum_plus. reflexivity.
Qed.
Lemma zsum_bound n f B : (forall i, (i < n)%nat -> Z.abs (f i) <= B) -> Z.abs (zsum n f) <= Z.of_nat n * B.
Proof.
  induction n as [|n IH]; intros H; cbn [zsum]; [lia|].
  assert (Z.abs (zsum n f) <= Z.of_nat n * B) by (apply IH; intros; apply H; lia). specialize (H n ltac:(lia)). lia.
Qed.
Lemma zsum_nonpos n f : (forall i, (i < n)%nat -> f i <= 0) -> zsum n f <= 0.
Proof. induction n as [|n IH]; intros H; cbn [zsum]; [lia|]. specialize (IH ltac:(intros; apply H; lia)). specialize (H n ltac:(lia)). lia. Qed.
Lemma zsum_neg n f i : (forall i, (i < n)%nat -> f i <= 0) -> (i < n)%nat -> f i < 0 -> zsum n f < 0.
Proof.
  intros H Hi Hf. induction n as [|n IH]; [lia|]. cbn [zsum].
  assert (zsum n f <= 0) by (apply zsum_nonpos; intros; apply H; lia). pose proof (H n ltac:(lia)).
  destruct (Nat.eq_dec i n) as [->|]; [lia|]. assert (zsum n f < 0) by (apply IH; [intros; apply H; lia|lia]). lia.
Qed.

Lemma dot_zsum n f g : dot (word n f) (word n g) = zsum n (fun i => f i * g i).
Proof.
  unfold word. assert (forall k, dot (map f (seq k n)) (map g (seq k n)) = zsum n (fun i => f (k + i)%nat * g (k + i)%nat)) as H.
  { induction n as [|n IH]; intros k; [reflexivity|]. rewrite zsum_shift. cbn [seq map dot]. rewrite IH, Nat.add_0_r. f_equal.
    apply zsum_ext. intros i _. replace (S k + i)%nat with (k + S i)%nat by lia. reflexivity. }
  rewrite H. reflexivity.
Qed.
Lemma word_of_list (l : list Z) : l = word (length l) (fun i => nth i l 0).
Proof.
  unfold word. apply (list_ext _ _ 0). { rewrite map_length, seq_length. reflexivity. }
  intros i Hi. symmetry. rewrite (nth_indep _ 0 (nth O l 0)) by (rewrite map_length, seq_length; exact Hi).
  rewrite (map_nth (fun i => nth i l 0)), seq_nth by exact Hi. reflexivity.
Qed.
Lemma dot_word n f l : length l = n -> dot (word n f) l = zsum n (fun i => f i * nth i l 0).
Proof. intros <-. transitivity (dot (word (length l) f) (word (length l) (fun i => nth i l 0))); [f_equal; apply word_of_list | apply dot_zsum]. Qed.

(** ** parity *)
Lemma odd_ones_double x : odd_ones (2 * x) = odd_ones x.
Proof. destruct x; reflexivity. Qed.
Lemma odd_ones_double1 x : odd_ones (2 * x + 1) = negb (odd_ones x).
Proof. destruct x; reflexivity. Qed.
Lemma odd_ones_b2n x b : odd_ones (2 * x + N.b2n b) = xorb b (odd_ones x).
Proof. destruct b; cbn [N.b2n]; [rewrite odd_ones_double1|rewrite N.add_0_r, odd_ones_double]; destruct (odd_ones x); reflexivity. Qed.
Lemma odd_ones_step x : odd_ones x = xorb (N.testbit x 0) (odd_ones (N.div2 x)).
Proof. rewrite (N.div2_odd x) at 1. rewrite odd_ones_b2n, N.bit0_odd. reflexivity. Qed.
Lemma odd_ones_lxor_aux n : forall a b, (a < 2 ^ N.of_nat n)%N -> (b < 2 ^ N.of_nat n)%N -> odd_ones (N.lxor a b) = xorb (odd_ones a) (odd_ones b).
Proof.
  induction n as [|n IH]; intros a b Ha Hb.
  - change (2 ^ N.of_nat 0)%N with 1%N in *. assert (a = 0)%N by lia. assert (b = 0)%N by lia. subst. reflexivity.
  - rewrite Nat2N.inj_succ, N.pow_succ_r' in Ha, Hb. rewrite (odd_ones_step (N.lxor a b)), (odd_ones_step a), (odd_ones_step b).
    rewrite N.div2_spec, N.shiftr_lxor, <- !N.div2_spec, N.lxor_spec, IH.
    + destruct (N.testbit a 0), (N.testbit b 0), (odd_ones (N.div2 a)), (odd_ones (N.div2 b)); reflexivity.
    + rewrite N.div2_div. apply N.div_lt_upper_bound; lia.
    + rewrite N.div2_div. apply N.div_lt_upper_bound; lia.
Qed.
Lemma lt_pow2_of_nat x : (x < 2 ^ N.of_nat (N.to_nat x))%N.
Proof. rewrite N2Nat.id. apply N.pow_gt_lin_r. lia. Qed.
Lemma odd_ones_lxor a b : odd_ones (N.lxor a b) = xorb (odd_ones a) (odd_ones b).
Proof.
  apply (odd_ones_lxor_aux (N.to_nat (a + b))).
  - eapply N.lt_le_trans; [apply (lt_pow2_of_nat a)|]. apply N.pow_le_mono_r; lia.
  - eapply N.lt_le_trans; [apply (lt_pow2_of_nat b)|]. apply N.pow_le_mono_r; lia.
Qed.
Lemma odd_ones_pow2 n : odd_ones (2 ^ n) = true.
Proof.
  induction n as [|n IH] using N.peano_ind; [reflexivity|]. rewrite N.pow_succ_r', odd_ones_double. exact IH.
Qed.
Lemma odd_ones_shiftl x n : odd_ones (N.shiftl x n) = odd_ones x.
Proof.
  rewrite N.shiftl_mul_pow2. induction n as [|n IH] using N.peano_ind; [rewrite N.mul_1_r; reflexivity|].
  rewrite N.pow_succ_r'. replace (x * (2 * 2 ^ n))%N with (2 * (x * 2 ^ n))%N by lia. rewrite odd_ones_double. exact IH.
Qed.

Lemma land_lxor_r a b c : N.land a (N.lxor b c) = N.lxor (N.land a b) (N.land a c).
Proof. apply N.bits_inj. intros i. rewrite !N.lxor_spec, !N.land_spec, N.lxor_spec. destruct (N.testbit a i); reflexivity. Qed.
Lemma land_pow2 a s : N.land a (2 ^ s) = if N.testbit a s then (2 ^ s)%N else 0%N.
Proof.
  apply N.bits_inj. intros i. rewrite N.land_spec, N.pow2_bits_eqb. destruct (N.eqb_spec s i) as [->|Hn].
  - destruct (N.testbit a i); [rewrite N.pow2_bits_true; reflexivity|rewrite N.bits_0; reflexivity].
  - destruct (N.testbit a s); [rewrite N.pow2_bits_false by lia|rewrite N.bits_0]; apply andb_false_r.
Qed.
Lemma walsh_lxor a b c : walsh a (N.lxor b c) = walsh a b * walsh a c.
Proof. unfold walsh. rewrite land_lxor_r, odd_ones_lxor. destruct (odd_ones (N.land a b)), (odd_ones (N.land a c)); reflexivity. Qed.
Lemma walsh_sym a b : walsh a b = walsh b a.
Proof. unfold walsh. rewrite N.land_comm. reflexivity. Qed.
Lemma walsh_pow2 a s : walsh a (2 ^ s) = if N.testbit a s then -1 else 1.
Proof. unfold walsh. rewrite land_pow2. destruct (N.testbit a s); [rewrite odd_ones_pow2|]; reflexivity. Qed.
Lemma walsh_0 a : walsh a 0 = 1.
Proof. unfold walsh. rewrite N.land_0_r. reflexivity. Qed.
Lemma walsh_sq a b : walsh a b * walsh a b = 1.
Proof. unfold walsh. destruct (odd_ones (N.land a b)); reflexivity. Qed.
Lemma walsh_abs a b : Z.abs (walsh a b) = 1.
Proof. unfold walsh. destruct (odd_ones (N.land a b)); reflexivity. Qed.

Lemma add_pow2_lxor b s : (b < 2 ^ s)%N -> (b + 2 ^ s = N.lxor b (2 ^ s))%N.
Proof.
  intros H. apply N.add_nocarry_lxor. rewrite land_pow2, (testbit_high s b s H) by lia. reflexivity.
Qed.
Lemma testbit_add_pow2 b s i : (b < 2 ^ s)%N -> N.testbit (b + 2 ^ s) i = xorb (N.testbit b i) (s =? i)%N.
Proof. intros H. rewrite add_pow2_lxor, N.lxor_spec, N.pow2_bits_eqb by exact H. reflexivity. Qed.
(** splitting one bit off both arguments *)
Lemma walsh_ll s a b : (a < 2 ^ s)%N -> (b < 2 ^ s)%N -> walsh a (b + 2 ^ s) = walsh a b.
Proof. intros Ha Hb. rewrite add_pow2_lxor, walsh_lxor, walsh_pow2, (testbit_high s a s) by (assumption || lia). lia. Qed.
Lemma walsh_lr s a b : (a < 2 ^ s)%N -> (b < 2 ^ s)%N -> walsh (a + 2 ^ s) b = walsh a b.
Proof. intros Ha Hb. rewrite walsh_sym, walsh_ll, walsh_sym by assumption. reflexivity. Qed.
Lemma walsh_rr s a b : (a < 2 ^ s)%N -> (b < 2 ^ s)%N -> walsh (a + 2 ^ s) (b + 2 ^ s) = - walsh a b.
Proof.
  intros Ha Hb. rewrite (add_pow2_lxor b s Hb), walsh_lxor, walsh_pow2, walsh_lr, testbit_add_pow2 by assumption.
  rewrite (testbit_high s a s Ha), N.eqb_refl by lia. cbn [xorb]. lia.
Qed.

Definition wn (a b : nat) : Z := walsh (N.of_nat a) (N.of_nat b).
Lemma pow2_of_nat s : N.of_nat (2 ^ s) = (2 ^ N.of_nat s)%N.
Proof. induction s as [|s IH]; [reflexivity|]. rewrite Nat2N.inj_succ, N.pow_succ_r', <- IH. cbn [Nat.pow]. lia. Qed.
Lemma pow2_pos s : (0 < 2 ^ s)%nat.
Proof. pose proof (Nat.pow_nonzero 2 s). lia. Qed.
Lemma wn_ll s a b : (a < 2 ^ s)%nat -> (b < 2 ^ s)%nat -> wn a (b + 2 ^ s) = wn a b.
Proof. intros Ha Hb. unfold wn. rewrite Nat2N.inj_add, pow2_of_nat. apply walsh_ll; rewrite <- pow2_of_nat; lia. Qed.
Lemma wn_lr s a b : (a < 2 ^ s)%nat -> (b < 2 ^ s)%nat -> wn (a + 2 ^ s) b = wn a b.
Proof. intros Ha Hb. unfold wn. rewrite Nat2N.inj_add, pow2_of_nat. apply walsh_lr; rewrite <- pow2_of_nat; lia. Qed.
Lemma wn_rr s a b : (a < 2 ^ s)%nat -> (b < 2 ^ s)%nat -> wn (a + 2 ^ s) (b + 2 ^ s) = - wn a b.
Proof. intros Ha Hb. unfold wn. rewrite !Nat2N.inj_add, pow2_of_nat. apply walsh_rr; rewrite <- pow2_of_nat; lia. Qed.

(** ** the transform of the blocks of length 2^s *)
Definition wblock (c : nat -> Z) (s b r : nat) : Z := zsum (2 ^ s) (fun t => wn r t * c (b * 2 ^ s + t)%nat).
Lemma wblock_lo c s b r : (r < 2 ^ s)%nat -> wblock c (S s) b r = wblock c s (2 * b) r + wblock c s (2 * b + 1) r.
Proof.
  intros Hr. unfold wblock. replace (2 ^ S s)%nat with (2 ^ s + 2 ^ s)%nat by (cbn [Nat.pow]; lia). rewrite zsum_app. f_equal.
  - apply zsum_ext. intros t Ht. f_equal. f_equal. lia.
  - apply zsum_ext. intros t Ht. rewrite (Nat.add_comm _ t), wn_ll by assumption. f_equal. f_equal. lia.
Qed.
Lemma wblock_hi c s b r : (r < 2 ^ s)%nat -> wblock c (S s) b (r + 2 ^ s) = wblock c s (2 * b) r - wblock c s (2 * b + 1) r.
Proof.
  intros Hr. unfold wblock. replace (2 ^ S s)%nat with (2 ^ s + 2 ^ s)%nat by (cbn [Nat.pow]; lia). rewrite zsum_app. unfold Z.sub. f_equal.
  - apply zsum_ext. intros t Ht. rewrite wn_lr by assumption. f_equal. f_equal. lia.
  - rewrite <- Z.mul_1_l at 1. replace (- zsum (2 ^ s) (fun t => wn r t * c ((2 * b + 1) * 2 ^ s + t)%nat)) with (-1 * zsum (2 ^ s) (fun t => wn r t * c ((2 * b + 1) * 2 ^ s + t)%nat)) by lia.
    rewrite Z.mul_1_l, <- zsum_scale. apply zsum_ext. intros t Ht. rewrite (Nat.add_comm _ t), wn_rr by assumption.
    replace (b * (2 ^ s + 2 ^ s) + (t + 2 ^ s))%nat with ((2 * b + 1) * 2 ^ s + t)%nat by lia. lia.
Qed.
Lemma wblock_bound c s b r : (forall i, Z.abs (c i) <= 128) -> Z.abs (wblock c s b r) <= 128 * 2 ^ Z.of_nat s.
Proof.
  intros H. unfold wblock. replace (128 * 2 ^ Z.of_nat s) with (Z.of_nat (2 ^ s) * 128) by (rewrite Nat2Z.inj_pow; lia).
  apply zsum_bound. intros i _. unfold wn. rewrite Z.abs_mul, walsh_abs, Z.mul_1_l. apply H.
Qed.
(** a sum of Walsh functions *)
Lemma wn_sum s t : (0 < t < 2 ^ s)%nat -> zsum (2 ^ s) (fun m => wn m t) = 0.
Proof.
  revert t; induction s as [|s IH]; intros t Ht; [cbn in Ht; lia|].
  replace (2 ^ S s)%nat with (2 ^ s + 2 ^ s)%nat in * by (cbn [Nat.pow]; lia). rewrite zsum_app.
  destruct (Nat.lt_ge_cases t (2 ^ s)) as [H|H].
  - rewrite (zsum_ext _ (fun i => wn (2 ^ s + i) t) (fun i => wn i t)) by (intros i Hi; rewrite Nat.add_comm; apply wn_lr; assumption).
    rewrite IH by lia. lia.
  - replace t with (t - 2 ^ s + 2 ^ s)%nat by lia. set (u := (t - 2 ^ s)%nat). assert (Hu : (u < 2 ^ s)%nat) by (unfold u; lia).
    rewrite (zsum_ext _ (fun i => wn (2 ^ s + i) (u + 2 ^ s)) (fun i => -1 * wn i (u + 2 ^ s))), zsum_scale; [lia|].
    intros i Hi. rewrite Nat.add_comm, wn_rr, wn_ll by assumption. lia.
Qed.
