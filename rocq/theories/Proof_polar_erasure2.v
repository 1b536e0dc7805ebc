(** Independent chances, and how the erasure probabilities of the code construction come out. *)
From Coq Require Import ZifyBool ZifyNat QArith Lqa Setoid.
From Verif Require Import Cpp Model_simd Model_polar Spec_polar Spec_polar_const Spec_polar_erasure Lib_list Lib_wht Proof_polar1 Proof_polar_erasure.
Local Open Scope nat_scope.
Ltac Zify.zify_post_hook ::= idtac.

Lemma mean_ext p len : forall f g, (forall e, length e = len -> f e == g e)%Q -> (mean p len f == mean p len g)%Q.
Proof.
  induction len as [|len IH]; intros f g H; cbn [mean]; [apply H; reflexivity|].
  rewrite (IH (fun e => f (true :: e)) (fun e => g (true :: e))), (IH (fun e => f (false :: e)) (fun e => g (false :: e))); [reflexivity| |]; intros e L; apply H; cbn [length]; congruence.
Qed.
Lemma mean_le p len : (0 <= p)%Q -> (p <= 1)%Q -> forall f g, (forall e, length e = len -> f e <= g e)%Q -> (mean p len f <= mean p len g)%Q.
Proof.
  intros P0 P1. induction len as [|len IH]; intros f g H; cbn [mean]; [apply H; reflexivity|].
  assert (A := IH (fun e => f (true :: e)) (fun e => g (true :: e)) ltac:(intros e L; apply H; cbn [length]; congruence)).
  assert (B := IH (fun e => f (false :: e)) (fun e => g (false :: e)) ltac:(intros e L; apply H; cbn [length]; congruence)).
  cbn beta in *. assert (P2 : (0 <= 1 - p)%Q) by lra. assert (C := Qmult_le_compat_r _ _ p A P0). assert (D := Qmult_le_compat_r _ _ (1 - p) B P2). lra.
Qed.
Lemma mean_plus p len : forall f g, (mean p len (fun e => f e + g e) == mean p len f + mean p len g)%Q.
Proof. induction len as [|len IH]; intros f g; cbn [mean]; [reflexivity|]. rewrite (IH (fun e => f (true :: e)) (fun e => g (true :: e))), (IH (fun e => f (false :: e)) (fun e => g (false :: e))). ring. Qed.
Lemma mean_scale p c len : forall f, (mean p len (fun e => c * f e) == c * mean p len f)%Q.
Proof. induction len as [|len IH]; intros f; cbn [mean]; [reflexivity|]. rewrite (IH (fun e => f (true :: e))), (IH (fun e => f (false :: e))). ring. Qed.
Lemma mean_const p c len : (mean p len (fun _ => c) == c)%Q.
Proof. induction len as [|len IH]; cbn [mean]; [reflexivity|]. rewrite IH. ring. Qed.
Lemma mean_app p a b : forall f, (mean p (a + b) f == mean p a (fun x => mean p b (fun y => f (x ++ y))))%Q.
Proof.
  induction a as [|a IH]; intros f; [reflexivity|]. cbn [Nat.add mean Datatypes.app]. rewrite (IH (fun e => f (true :: e))), (IH (fun e => f (false :: e))). reflexivity.
Qed.
Lemma mean_op p q (op : bool -> bool -> bool) :
  (forall s t : Q, p * (p * (if op true true then s else t) + (1 - p) * (if op true false then s else t)) + (1 - p) * (p * (if op false true then s else t) + (1 - p) * (if op false false then s else t)) == q * s + (1 - q) * t)%Q ->
  forall k g, (mean p k (fun x => mean p k (fun y => g (zip2 op x y))) == mean q k g)%Q.
Proof.
  intros H. induction k as [|k IH]; intros g; [reflexivity|]. cbn [mean zip2].
  rewrite <- (H (mean q k (fun e => g (true :: e))) (mean q k (fun e => g (false :: e)))).
  assert (S : forall b b', (mean p k (fun x => p * mean p k (fun y => g (b :: zip2 op x y)) + (1 - p) * mean p k (fun y => g (b' :: zip2 op x y))) ==
    p * mean q k (fun e => g (b :: e)) + (1 - p) * mean q k (fun e => g (b' :: e)))%Q).
  { intros b b'. rewrite mean_plus, !mean_scale. rewrite (IH (fun e => g (b :: e))), (IH (fun e => g (b' :: e))). reflexivity. }
  rewrite !S. destruct (op true true), (op true false), (op false true), (op false false); reflexivity.
Qed.
Notation wq := (fun p : Q => p * (2 - p))%Q.
Notation bq := (fun p : Q => p * p)%Q.
Lemma mean_or p k g : (mean p k (fun x => mean p k (fun y => g (zip2 orb x y))) == mean (p * (2 - p)) k g)%Q.
Proof. apply mean_op. intros s t. cbn [orb]. ring. Qed.
Lemma mean_and p k g : (mean p k (fun x => mean p k (fun y => g (zip2 andb x y))) == mean (p * p) k g)%Q.
Proof. apply mean_op. intros s t. cbn [andb]. ring. Qed.

Lemma channel_bits {P} (w b : P -> P) n : forall pe i j, (forall k, k < n -> Nat.testbit i k = Nat.testbit j k) -> channel w b n pe i = channel w b n pe j.
Proof. induction n as [|n IH]; intros pe i j H; [reflexivity|]. cbn [channel]. rewrite (H n) by lia. apply IH. intros k Hk. apply H. lia. Qed.
Lemma unknown_chance n : forall p i, i < 2 ^ n -> (chance p (2 ^ n) (fun e => unknown n e i) == channel wq bq n p i)%Q.
Proof.
  induction n as [|m IH]; intros p i Hi.
  - cbn. ring.
  - change (2 ^ S m) with (2 * 2 ^ m) in *. replace (2 * 2 ^ m) with (2 ^ m + 2 ^ m) by lia. unfold chance in *. rewrite mean_app. cbn [channel].
    assert (SP : forall x y : list bool, length x = 2 ^ m -> firstn (2 ^ m) (x ++ y) = x /\ skipn (2 ^ m) (x ++ y) = y) by (intros x y L; split; [apply Proof_polar6.firstn_app_l|apply Proof_polar6.skipn_app_l]; exact L).
    destruct (Nat.lt_ge_cases i (2 ^ m)) as [Hk|Hk].
    + assert (T : Nat.testbit i m = false) by (rewrite Nat.testbit_false, Nat.div_small by lia; reflexivity). rewrite T. rewrite <- IH by exact Hk. rewrite <- mean_or. apply mean_ext. intros x Lx. apply mean_ext. intros y Ly. cbn [unknown].
      replace (i <? 2 ^ m) with true by lia. destruct (SP x y Lx) as (-> & ->). reflexivity.
    + assert (T : Nat.testbit i m = true).
      { replace i with ((i - 2 ^ m) + 1 * 2 ^ m) by lia. rewrite Nat.testbit_true. rewrite Nat.div_add by (apply Nat.pow_nonzero; lia). rewrite Nat.div_small by lia. reflexivity. }
      rewrite T. rewrite (channel_bits _ _ m _ i (i - 2 ^ m)).
      * rewrite <- IH by lia. rewrite <- mean_and. apply mean_ext. intros x Lx. apply mean_ext. intros y Ly. cbn [unknown].
        replace (i <? 2 ^ m) with false by lia. destruct (SP x y Lx) as (-> & ->). reflexivity.
      * intros k Hm. replace i with ((i - 2 ^ m) + 2 ^ m) at 1 by lia. rewrite <- (Nat.mod_pow2_bits_low ((i - 2 ^ m) + 2 ^ m) m) by exact Hm.
        replace (((i - 2 ^ m) + 2 ^ m) mod 2 ^ m) with ((i - 2 ^ m) mod 2 ^ m); [apply Nat.mod_pow2_bits_low; exact Hm|].
        replace ((i - 2 ^ m) + 2 ^ m) with ((i - 2 ^ m) + 1 * 2 ^ m) by lia. rewrite Nat.mod_add by (apply Nat.pow_nonzero; lia). reflexivity.
Qed.
(** ** The union of chances *)
Definition ind (b : bool) : Q := if b then 1%Q else 0%Q.
Lemma union_mean {I} p len (g : list bool -> I -> bool) l :
  (mean p len (fun e => fold_right Qplus 0%Q (map (fun i => ind (g e i)) l)) == fold_right Qplus 0%Q (map (fun i => chance p len (fun e => g e i)) l))%Q.
Proof. induction l as [|i l IH]; cbn [map fold_right]; [apply mean_const|]. rewrite mean_plus, IH. reflexivity. Qed.
Lemma ind_sum {I} (h : I -> bool) l : (0 <= fold_right Qplus 0%Q (map (fun i => ind (h i)) l))%Q /\ (ind (existsb h l) <= fold_right Qplus 0%Q (map (fun i => ind (h i)) l))%Q.
Proof. induction l as [|i l (A & B)]; cbn [map fold_right existsb]; [split; cbn; lra|]. destruct (h i), (existsb h l); cbn [orb ind] in *; split; lra. Qed.
Lemma union_bound {I} p len (g : list bool -> I -> bool) l : (0 <= p)%Q -> (p <= 1)%Q ->
  (chance p len (fun e => existsb (g e) l) <= fold_right Qplus 0%Q (map (fun i => chance p len (fun e => g e i)) l))%Q.
Proof. intros P0 P1. rewrite <- union_mean. unfold chance. apply mean_le; try assumption. intros e _. apply (ind_sum (g e) l). Qed.
Lemma chance_le p len A B : (0 <= p)%Q -> (p <= 1)%Q -> (forall e, length e = len -> A e = true -> B e = true) -> (chance p len A <= chance p len B)%Q.
Proof. intros P0 P1 H. apply mean_le; try assumption. intros e L. specialize (H e L). destruct (A e); [rewrite H by reflexivity; lra|]. destruct (B e); lra. Qed.
Lemma chance_ext p len A B : (forall e, length e = len -> A e = B e) -> (chance p len A == chance p len B)%Q.
Proof. intros H. apply mean_ext. intros e L. rewrite H by exact L. reflexivity. Qed.
Lemma chance_false p len : (chance p len (fun _ => false) == 0)%Q.
Proof. unfold chance. apply (mean_const p 0%Q len). Qed.
Lemma fold_ext (f g : nat -> Q) l : (forall i, In i l -> f i == g i)%Q -> (fold_right Qplus 0%Q (map f l) == fold_right Qplus 0%Q (map g l))%Q.
Proof. induction l as [|i l IH]; intros H; [reflexivity|]. cbn [map fold_right]. rewrite (H i) by (left; reflexivity). rewrite IH; [reflexivity|]. intros j Hj. apply H. right. exact Hj. Qed.
Lemma lost_chance n fl p : length fl = 2 ^ n -> (0 <= p)%Q -> (p <= 1)%Q ->
  (chance p (2 ^ n) (lost n fl) <= sum_unfrozen fl (channel wq bq n p))%Q /\
  (forall i, i < 2 ^ n -> nth i fl true = false -> (channel wq bq n p i <= chance p (2 ^ n) (lost n fl))%Q).
Proof.
  intros L P0 P1. split.
  - unfold lost. eapply Qle_trans; [apply (union_bound p (2 ^ n) (fun e i => negb (nth i fl true) && unknown n e i)); assumption|]. unfold sum_unfrozen. rewrite L. apply Qle_lteq. right.
    apply fold_ext. intros i Hi. apply in_seq in Hi. destruct (nth i fl true); cbn [negb andb]; [apply chance_false|]. apply unknown_chance. lia.
  - intros i Hi Hf. rewrite <- unknown_chance by exact Hi. apply chance_le; try assumption. intros e _ H. unfold lost. apply existsb_exists. exists i. split; [apply in_seq; lia|]. rewrite Hf, H. reflexivity.
Qed.

(** ** Sums over unfrozen positions *)
Lemma sum_le_count fl f (c : Q) : (forall i, i < length fl -> nth i fl true = false -> (f i <= c)%Q) -> (sum_unfrozen fl f <= inject_Z (Z.of_nat (unfrozen fl)) * c)%Q.
Proof.
  unfold sum_unfrozen, unfrozen. revert f. induction fl as [|b fl IH]; intros f H; [change (0 <= 0 * c)%Q; lra|].
  cbn [length seq map fold_right nth]. rewrite <- seq_shift, map_map. cbn [nth].
  specialize (IH (fun i => f (S i)) ltac:(intros i Hi Hf; apply (H (S i)); [cbn [length]; lia|exact Hf])). cbn beta in IH.
  destruct b; cbn [filter negb].
  - lra.
  - cbn [length]. rewrite Nat2Z.inj_succ. unfold Z.succ. rewrite inject_Z_plus. assert (A := H 0 ltac:(cbn [length]; lia) eq_refl). change (inject_Z 1) with 1%Q. lra.
Qed.
Lemma lower (r : list Q) : exists t, Forall (fun x => t <= x)%Q r.
Proof.
  induction r as [|x r (t & IH)]; [exists 0%Q; constructor|]. destruct (Qlt_le_dec x t) as [C|C].
  - exists x. constructor; [lra|]. eapply Forall_impl; [|exact IH]. cbn beta. intros; lra.
  - exists t. constructor; assumption.
Qed.
Lemma between (l r : list Q) : (forall x y, In x l -> In y r -> x <= y)%Q -> exists t, (forall x, In x l -> x <= t)%Q /\ (forall y, In y r -> t <= y)%Q.
Proof.
  induction l as [|x l IH]; intros H.
  - destruct (lower r) as (t & Ht). exists t. split; [intros x []|]. rewrite Forall_forall in Ht. exact Ht.
  - destruct IH as (t & A & B); [intros a b Ha Hb; apply H; [right; exact Ha|exact Hb]|]. destruct (Qlt_le_dec x t) as [C|C].
    + exists t. split; [intros a [<-|Ha]; [lra|apply A; exact Ha]|exact B].
    + exists x. split; [intros a [<-|Ha]; [lra|specialize (A a Ha); lra]|]. intros y Hy. apply H; [left; reflexivity|exact Hy].
Qed.
Lemma sum_shifted t fl : forall f, (sum_unfrozen fl f == sum_unfrozen fl (fun i => f i - t) + inject_Z (Z.of_nat (unfrozen fl)) * t)%Q.
Proof.
  unfold sum_unfrozen, unfrozen. induction fl as [|b fl IH]; intros f; [change (0 == 0 + 0 * t)%Q; lra|].
  cbn [length seq map fold_right nth]. rewrite <- seq_shift, !map_map. cbn [nth]. specialize (IH (fun i => f (S i))). cbn beta in IH. rewrite IH.
  destruct b; cbn [filter negb]; [lra|]. cbn [length]. rewrite Nat2Z.inj_succ. unfold Z.succ. rewrite inject_Z_plus. change (inject_Z 1) with 1%Q. lra.
Qed.
Lemma sum_mono fl fl' f : length fl = length fl' -> (forall i, i < length fl -> ((if nth i fl true then 0 else f i) <= (if nth i fl' true then 0 else f i))%Q) -> (sum_unfrozen fl f <= sum_unfrozen fl' f)%Q.
Proof.
  intros L H. unfold sum_unfrozen. rewrite <- L. assert (K : forall l, (forall i, In i l -> i < length fl) ->
    (fold_right Qplus 0%Q (map (fun i => if nth i fl true then 0%Q else f i) l) <= fold_right Qplus 0%Q (map (fun i => if nth i fl' true then 0%Q else f i) l))%Q).
  { induction l as [|i l IH]; intros Hl; cbn [map fold_right]; [lra|]. assert (A := H i (Hl i (or_introl eq_refl))). specialize (IH (fun j Hj => Hl j (or_intror Hj))). lra. }
  apply K. intros i Hi. apply in_seq in Hi. lia.
Qed.
Lemma least_sum fl fl' f : length fl = length fl' -> unfrozen fl = unfrozen fl' ->
  (forall i j, i < length fl -> j < length fl -> nth i fl true = false -> nth j fl true = true -> (f i <= f j)%Q) -> (sum_unfrozen fl f <= sum_unfrozen fl' f)%Q.
Proof.
  intros L U H. destruct (between (map f (filter (fun i => negb (nth i fl true)) (seq 0 (length fl)))) (map f (filter (fun i => nth i fl true) (seq 0 (length fl))))) as (t & A & B).
  { intros x y Hx Hy. apply in_map_iff in Hx, Hy. destruct Hx as (i & <- & Hi), Hy as (j & <- & Hj). apply filter_In in Hi, Hj. destruct Hi as (Hi & Fi), Hj as (Hj & Fj). apply in_seq in Hi, Hj.
    apply H; try lia; [destruct (nth i fl true); [discriminate|reflexivity]|exact Fj]. }
  rewrite (sum_shifted t fl f), (sum_shifted t fl' f), U. assert (M : (sum_unfrozen fl (fun i => f i - t) <= sum_unfrozen fl' (fun i => f i - t))%Q); [|lra].
  apply sum_mono; [exact L|]. intros i Hi. destruct (nth i fl true) eqn:E, (nth i fl' true); try lra.
  - assert (t <= f i)%Q; [|lra]. apply B. apply in_map. apply filter_In. split; [apply in_seq; lia|exact E].
  - assert (f i <= t)%Q; [|lra]. apply A. apply in_map. apply filter_In. split; [apply in_seq; lia|rewrite E; reflexivity].
Qed.
