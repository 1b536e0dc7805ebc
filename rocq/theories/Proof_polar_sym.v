(** Polar decoder: what a sign change of the received values by a codeword does (generic). *)
From Coq Require Import ZifyBool ZifyNat.
From Verif Require Import Cpp Model_simd Model_polar Spec_polar Lib_list Lib_wht Proof_bits Proof_simd Proof_polar1 Proof_polar2 Proof_polar3 Proof_polar4 Proof_polar5 Proof_polar6.
Local Open Scope nat_scope.
Ltac Zify.zify_post_hook ::= idtac.

Inductive all3 {X A B : Type} (R : X -> A -> B -> Prop) : list X -> list A -> list B -> Prop :=
| all3_nil : all3 R [] [] []
| all3_cons x a b xs l m : R x a b -> all3 R xs l m -> all3 R (x :: xs) (a :: l) (b :: m).
Section Lists.
Context {X A B : Type}.
Lemma all3_len (R : X -> A -> B -> Prop) xs l m : all3 R xs l m -> length l = length xs /\ length m = length xs.
Proof. induction 1; cbn [length]; lia. Qed.
Lemma all3_app (R : X -> A -> B -> Prop) xs l m xs2 l2 m2 : all3 R xs l m -> all3 R xs2 l2 m2 -> all3 R (xs ++ xs2) (l ++ l2) (m ++ m2).
Proof. induction 1; intros H2; cbn [Datatypes.app]; [exact H2|constructor; auto]. Qed.
Lemma all3_firstn (R : X -> A -> B -> Prop) n : forall xs l m, all3 R xs l m -> all3 R (firstn n xs) (firstn n l) (firstn n m).
Proof. induction n as [|n IH]; intros xs l m H; [constructor|]. destruct H; cbn [firstn]; constructor; auto. Qed.
Lemma all3_skipn (R : X -> A -> B -> Prop) n : forall xs l m, all3 R xs l m -> all3 R (skipn n xs) (skipn n l) (skipn n m).
Proof. induction n as [|n IH]; intros xs l m H; [exact H|]. destruct H; cbn [skipn]; [constructor|auto]. Qed.
Lemma all3_map {A' B'} (R : X -> A -> B -> Prop) (S : X -> A' -> B' -> Prop) f g xs l m :
  (forall x a b, R x a b -> S x (f a) (g b)) -> all3 R xs l m -> all3 S xs (map f l) (map g m).
Proof. intros H. induction 1; cbn [map]; constructor; auto. Qed.
Lemma all3_impl (R S : X -> A -> B -> Prop) xs l m : (forall x a b, R x a b -> S x a b) -> all3 R xs l m -> all3 S xs l m.
Proof. intros H. induction 1; constructor; auto. Qed.
Lemma all3_nth (R : X -> A -> B -> Prop) xs l m dx da db : length l = length xs -> length m = length xs ->
  (forall i, i < length xs -> R (nth i xs dx) (nth i l da) (nth i m db)) -> all3 R xs l m.
Proof.
  revert l m. induction xs as [|x xs IH]; intros [|a l] [|b m] L1 L2 H; try discriminate; constructor.
  - apply (H 0). cbn. lia.
  - apply IH; [injection L1 as L1; exact L1|injection L2 as L2; exact L2|]. intros i Hi. apply (H (S i)). cbn. lia.
Qed.
Lemma all3_at (R : X -> A -> B -> Prop) xs l m dx da db : all3 R xs l m -> forall i, i < length xs -> R (nth i xs dx) (nth i l da) (nth i m db).
Proof. induction 1; intros i Hi; cbn in Hi; [lia|]. destruct i as [|i]; cbn [nth]; [assumption|]. apply IHall3. lia. Qed.
End Lists.

Lemma pm1_zip2 x1 : forall x2, Forall pm1 x1 -> Forall pm1 x2 -> Forall pm1 (zip2 Z.mul x1 x2).
Proof.
  intros x2 Q1. revert x2. induction Q1 as [|a x1 Ha Q1 IH]; intros x2 Q2; [constructor|]. destruct Q2 as [|b x2 Hb Q2]; [constructor|].
  cbn [zip2]. constructor; [|apply IH; exact Q2]. destruct Ha as [-> | ->], Hb as [-> | ->]; [left|right|right|left]; reflexivity.
Qed.

Section Sym.
Context {A : Type} (P : polar_ops A).
(** [RS s a b]: [b] is the soft value [a] with its sign changed by [s]; [RH] the same for hard values *)
Variables RS RH : Z -> A -> A -> Prop.
Hypothesis H_one : RH 1 (p_one P) (p_one P).
Hypothesis H_sgn : forall s a b, pm1 s -> RS s a b -> RH s (p_signum P a) (p_signum P b).
Hypothesis H_mul : forall s t a b c d, pm1 s -> pm1 t -> RH s a b -> RH t c d -> RH (s * t) (p_mul P a c) (p_mul P b d).
Hypothesis H_prod : forall s t a b c d, pm1 s -> pm1 t -> RS s a b -> RS t c d -> RS (s * t) (p_prod P a c) (p_prod P b d).
Hypothesis H_madd : forall s t h h' a b c d, pm1 s -> pm1 t -> RH s h h' -> RS (s * t) a b -> RS t c d -> RS t (p_madd P h a c) (p_madd P h' b d).

Lemma all3_zip2_mul xs ys l m l2 m2 : Forall pm1 xs -> Forall pm1 ys -> all3 RH xs l m -> all3 RH ys l2 m2 ->
  all3 RH (zip2 Z.mul xs ys) (zip2 (p_mul P) l l2) (zip2 (p_mul P) m m2).
Proof.
  intros F1 F2 H. revert ys l2 m2 F2. induction H as [|x a b xs l m Hx H IH]; intros ys l2 m2 F2 H2; [constructor|].
  destruct H2; cbn [zip2]; constructor; inversion F1; inversion F2; subst; auto.
Qed.
Lemma ptr_zip n : forall ss l m, Forall pm1 ss -> all3 RH ss l m -> all3 RH (ptr n ss) (gtr P n l) (gtr P n m).
Proof.
  induction n as [|n IH]; intros ss l m F H; [exact H|]. cbn [ptr gtr].
  assert (all3 RH (ptr n (skipn (2 ^ n) ss)) (gtr P n (skipn (2 ^ n) l)) (gtr P n (skipn (2 ^ n) m))) as H2 by (apply IH; [apply Forall_skipn_; exact F|apply all3_skipn; exact H]).
  apply all3_app; [|exact H2]. apply all3_zip2_mul.
  - apply pm1_ptr. apply Forall_firstn_. exact F.
  - apply pm1_ptr. apply Forall_skipn_. exact F.
  - apply IH; [apply Forall_firstn_; exact F|apply all3_firstn; exact H].
  - exact H2.
Qed.
Definition turns (n : nat) (fl : list bool) (F : list A -> list A * list A) : Prop := forall msg sl sl',
  length msg = unfrozen fl -> Forall pm1 msg -> all3 RS (ptr n (expand fl msg)) sl sl' ->
  all3 RH msg (fst (F sl)) (fst (F sl')) /\ all3 RH (ptr n (expand fl msg)) (snd (F sl)) (snd (F sl')).
Lemma all3_map_sgn xs l m : Forall pm1 xs -> all3 RS xs l m -> all3 RH xs (map (p_signum P) l) (map (p_signum P) m).
Proof. intros F H. induction H; cbn [map]; inversion F; subst; constructor; auto. Qed.
Lemma all3_ones k : all3 RH (repeat 1%Z k) (repeat (p_one P) k) (repeat (p_one P) k).
Proof. induction k; cbn [repeat]; constructor; auto. Qed.
Lemma child_turns n fl F : length fl = 2 ^ n -> (1 <= n -> turns n fl F) -> turns n fl (fchild P n fl F).
Proof.
  intros Lf HF msg sl sl' Lm Fm H. unfold fchild. destruct ((n <=? 5) && forallb (fun b => b) fl) eqn:E1.
  - apply andb_true_iff in E1. destruct E1 as [_ E1]. rewrite unfrozen_all in Lm by exact E1. destruct msg; [|discriminate]. unfold r0. cbn [fst snd].
    rewrite expand_all by exact E1. rewrite Lf, ptr_ones. split; [constructor|]. apply all3_ones.
  - destruct ((n <=? 5) && forallb negb fl) eqn:E2.
    + apply andb_true_iff in E2. destruct E2 as [_ E2]. rewrite unfrozen_none in Lm by exact E2. rewrite expand_none in * by assumption.
      assert (Forall pm1 (ptr n msg)) as Fp by (apply pm1_ptr; exact Fm). unfold r1. cbn [fst snd].
      assert (all3 RH (ptr n msg) (map (p_signum P) sl) (map (p_signum P) sl')) as HH by (apply all3_map_sgn; assumption). split; [|exact HH].
      rewrite <- (ptr_invol n msg) at 1 by (assumption || lia). apply ptr_zip; assumption.
    + apply HF; try assumption. destruct n; [|lia]. exfalso. destruct fl as [|b [|c fl]]; cbn in Lf; try discriminate. destruct b; discriminate.
Qed.
Lemma all3_left xs ys a b c d : Forall pm1 xs -> Forall pm1 ys -> all3 RS xs a b -> all3 RS ys c d -> all3 RS (zip2 Z.mul xs ys) (zip2 (p_prod P) a c) (zip2 (p_prod P) b d).
Proof.
  intros F1 F2 H. revert ys c d F2. induction H as [|x a0 b0 xs l m Hx H IH]; intros ys c d F2 H2; [constructor|].
  destruct H2; cbn [zip2]; constructor; inversion F1; inversion F2; subst; auto.
Qed.
Lemma all3_right xs ys h h' a b c d : Forall pm1 xs -> Forall pm1 ys -> length xs = length ys -> all3 RH xs h h' -> all3 RS (zip2 Z.mul xs ys) a b -> all3 RS ys c d ->
  all3 RS ys (zip3 (p_madd P) h a c) (zip3 (p_madd P) h' b d).
Proof.
  intros F1 F2 L HH Ha Hc. revert xs h h' a b F1 L HH Ha. induction Hc as [|y c0 d0 ys c d Hy Hc IH]; intros xs h h' a b F1 L HH Ha.
  - destruct xs; [|discriminate]. inversion HH; subst. constructor.
  - destruct xs as [|x xs]; [discriminate|]. cbn [zip2] in Ha. inversion HH; subst. inversion Ha; subst. inversion F1; inversion F2; subst. cbn [zip3]. constructor.
    + eapply H_madd; [| |eassumption|eassumption|eassumption]; assumption.
    + cbn [length] in L. apply (IH ltac:(assumption) xs); try assumption; lia.
Qed.
Lemma zip2_sq' x1 : forall x2, length x1 = length x2 -> Forall pm1 x2 -> zip2 Z.mul (zip2 Z.mul x1 x2) x2 = x1.
Proof.
  induction x1 as [|a x1 IH]; intros [|b x2] L F; try discriminate; [reflexivity|]. cbn [zip2]. inversion F as [|? ? Hb F']; subst. f_equal; [destruct Hb as [-> | ->]; lia|].
  apply IH; [injection L as L; exact L|exact F'].
Qed.
Lemma join_turns m fl F G : length fl = 2 ^ S m -> turns m (firstn (2 ^ m) fl) F -> turns m (skipn (2 ^ m) fl) G -> turns (S m) fl (fjoin P F G m).
Proof.
  intros Lf HF HG msg sl sl' Lm Fm H. set (f1 := firstn (2 ^ m) fl) in *. set (f2 := skipn (2 ^ m) fl) in *. cbn [Nat.pow] in Lf.
  assert (length f1 = 2 ^ m) as L1 by (unfold f1; rewrite firstn_length; lia). assert (length f2 = 2 ^ m) as L2 by (unfold f2; rewrite skipn_length; lia).
  assert (expand fl msg = expand f1 (firstn (unfrozen f1) msg) ++ expand f2 (skipn (unfrozen f1) msg)) as EX by (rewrite <- expand_app; unfold f1, f2; rewrite firstn_skipn; reflexivity).
  rewrite EX in *. rewrite (unfrozen_split (2 ^ m)) in Lm. fold f1 f2 in Lm.
  set (m1 := firstn (unfrozen f1) msg) in *. set (m2 := skipn (unfrozen f1) msg) in *.
  assert (length m1 = unfrozen f1) as Lm1 by (unfold m1; rewrite firstn_length; lia). assert (length m2 = unfrozen f2) as Lm2 by (unfold m2; rewrite skipn_length; lia).
  assert (Forall pm1 m1) as Fm1 by (apply Forall_firstn_; exact Fm). assert (Forall pm1 m2) as Fm2 by (apply Forall_skipn_; exact Fm).
  cbn [ptr] in *. rewrite firstn_app_l, skipn_app_l in * by (rewrite length_expand; assumption).
  pose proof (length_ptr m (expand f1 m1) ltac:(rewrite length_expand; exact L1)) as P1. pose proof (length_ptr m (expand f2 m2) ltac:(rewrite length_expand; exact L2)) as P2.
  pose proof (pm1_ptr m _ (pm1_expand f1 m1 Fm1)) as Q1. pose proof (pm1_ptr m _ (pm1_expand f2 m2 Fm2)) as Q2.
  pose proof (HF m1) as HF1. pose proof (HG m2) as HG2.
  set (x1 := ptr m (expand f1 m1)) in *. set (x2 := ptr m (expand f2 m2)) in *.
  assert (length (zip2 Z.mul x1 x2) = 2 ^ m) as Lz by (rewrite length_zip2; lia).
  pose proof (all3_firstn _ (2 ^ m) _ _ _ H) as Ha. pose proof (all3_skipn _ (2 ^ m) _ _ _ H) as Hb.
  rewrite firstn_app_l in Ha by exact Lz. rewrite skipn_app_l in Hb by exact Lz.
  assert (Forall pm1 (zip2 Z.mul x1 x2)) as Qz.
  { apply pm1_zip2; assumption. }
  assert (all3 RS x1 (fleft P m sl) (fleft P m sl')) as HL.
  { unfold fleft. rewrite <- (zip2_sq' x1 x2) by (assumption || lia). apply all3_left; assumption. }
  destruct (HF1 _ _ Lm1 Fm1 HL) as (HM1 & HX1). unfold fjoin.
  destruct (F (fleft P m sl)) as [a1 h1]. destruct (F (fleft P m sl')) as [a1' h1']. cbn [fst snd] in *.
  assert (all3 RS x2 (fright P m h1 sl) (fright P m h1' sl')) as HR.
  { unfold fright. apply (all3_right x1 x2); try assumption; lia. }
  destruct (HG2 _ _ Lm2 Fm2 HR) as (HM2 & HX2).
  destruct (G (fright P m h1 sl)) as [a2 h2]. destruct (G (fright P m h1' sl')) as [a2' h2']. cbn [fst snd] in *. split.
  - rewrite <- (firstn_skipn (unfrozen f1) msg). apply all3_app; assumption.
  - apply all3_app; [|exact HX2]. apply all3_zip2_mul; assumption.
Qed.
Lemma node_turns n : forall fl, 1 <= n -> length fl = 2 ^ n -> turns n fl (fnode P n fl).
Proof.
  induction n as [|n IH]; intros fl Hn Lf; [lia|]. cbn [Nat.pow] in Lf.
  apply (join_turns n fl); [cbn [Nat.pow]; lia| |]; apply child_turns; try (rewrite ?firstn_length, ?skipn_length; lia);
    intros Hn1; apply IH; try exact Hn1; rewrite ?firstn_length, ?skipn_length; lia.
Qed.
End Sym.
