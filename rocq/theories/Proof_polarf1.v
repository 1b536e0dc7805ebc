(** The polar encoders and the decoder over any type of soft values whose operations act on the signs as expected. *)
From Coq Require Import ZifyBool ZifyNat.
From Verif Require Import Cpp Lib_sim Proof_polarf0 Model_simd Model_polar Spec_polar Lib_list Lib_wht Proof_bits Proof_simd Proof_polar1 Proof_polar2 Proof_polar3 Proof_polar4 Proof_polar5 Proof_polar6.
Local Open Scope nat_scope.
Ltac Zify.zify_post_hook ::= idtac.

(** plain successive cancellation over operations *)
Section Plain.
Context {A : Type} (P : polar_ops A) (d : A).
Fixpoint gsc (n : nat) (fl : list bool) (soft : list A) : list A * list A :=
  match n with
  | O => let x := p_signum P (hd d soft) in if hd true fl then ([], [p_one P]) else ([x], [x])
  | S m =>
      let h := 2 ^ m in
      let '(m1, x1) := gsc m (firstn h fl) (zip2 (p_prod P) (firstn h soft) (skipn h soft)) in
      let '(m2, x2) := gsc m (skipn h fl) (zip3 (p_madd P) x1 (firstn h soft) (skipn h soft)) in
      (m1 ++ m2, zip2 (p_mul P) x1 x2 ++ x2)
  end.
Lemma gsc_len n : forall fl sl, length fl = 2 ^ n -> length sl = 2 ^ n -> length (fst (gsc n fl sl)) = unfrozen fl /\ length (snd (gsc n fl sl)) = 2 ^ n.
Proof.
  induction n as [|n IH]; intros fl sl Lf Ls.
  - destruct fl as [|b [|c fl]]; cbn in Lf; try discriminate. destruct b; cbn; auto.
  - cbn [gsc]. cbn [Nat.pow] in *.
    assert (length (firstn (2 ^ n) fl) = 2 ^ n) as Lfa by (rewrite firstn_length; lia). assert (length (skipn (2 ^ n) fl) = 2 ^ n) as Lfb by (rewrite skipn_length; lia).
    assert (length (zip2 (p_prod P) (firstn (2 ^ n) sl) (skipn (2 ^ n) sl)) = 2 ^ n) as Ll by (rewrite length_zip2, firstn_length, skipn_length; lia).
    destruct (IH _ _ Lfa Ll) as (M1 & X1). destruct (gsc n (firstn (2 ^ n) fl) _) as [m1 x1]. cbn [fst snd] in *.
    assert (length (zip3 (p_madd P) x1 (firstn (2 ^ n) sl) (skipn (2 ^ n) sl)) = 2 ^ n) as Lr by (rewrite length_zip3, firstn_length, skipn_length; lia).
    destruct (IH _ _ Lfb Lr) as (M2 & X2). destruct (gsc n (skipn (2 ^ n) fl) _) as [m2 x2]. cbn [fst snd] in *.
    rewrite !app_length, length_zip2, (unfrozen_split (2 ^ n) fl). lia.
Qed.
End Plain.

Section Signs.
Context {A : Type} (P : polar_ops A) (d : A) (sg : A -> Z) (emb : Z -> A) (Is Ih : A -> Prop).
(** [Is]: soft values, [Ih]: hard values *)
Hypothesis sg_tern : forall x, tern (sg x).
Hypothesis sg_emb : forall z, tern z -> sg (emb z) = z.
Hypothesis Ih_emb : forall z, tern z -> Ih (emb z).
Hypothesis one_emb : p_one P = emb 1.
Hypothesis signum_emb : forall x, p_signum P x = emb (sg x).
Hypothesis Ih_sg : forall x, Ih x -> sg x <> 0%Z -> x = emb (sg x).
Hypothesis mul_ok : forall a b, Ih a -> Ih b -> Ih (p_mul P a b) /\ sg (p_mul P a b) = (sg a * sg b)%Z.
Hypothesis prod_ok : forall a b, Is a -> Is b -> Is (p_prod P a b) /\ sg (p_prod P a b) = (sg a * sg b)%Z.
Hypothesis madd_Is : forall h a b, Ih h -> Is a -> Is b -> Is (p_madd P h a b).
Hypothesis madd_ok : forall a b, Is a -> Is b -> sg a <> 0%Z -> sg b <> 0%Z -> sg (p_madd P (emb (sg a * sg b)) a b) = sg b.
Notation SC := (gsc P d).
Notation nz l := (nonzero (map sg l)).

Lemma tern_0 : tern 0. Proof. unfold tern. lia. Qed.
Lemma mul_emb a b : pm1 a -> pm1 b -> p_mul P (emb a) (emb b) = emb (a * b).
Proof.
  intros Ha Hb. assert (pm1 (a * b)) as Hab by (unfold pm1 in *; lia).
  destruct (mul_ok (emb a) (emb b)) as (I1 & E1); [apply Ih_emb, pm1_tern; assumption..|]. rewrite !sg_emb in E1 by (apply pm1_tern; assumption).
  rewrite (Ih_sg _ I1) by (rewrite E1; unfold pm1 in Hab; lia). rewrite E1. reflexivity.
Qed.
Lemma emb_zip2 a : forall b, Forall pm1 a -> Forall pm1 b -> zip2 (p_mul P) (map emb a) (map emb b) = map emb (zip2 Z.mul a b).
Proof. intros b Fa Fb. apply (map_zip2 emb pm1); try assumption. intros; apply mul_emb; assumption. Qed.
Lemma sg_zip2 a b : Forall Ih a -> Forall Ih b -> map sg (zip2 (p_mul P) a b) = zip2 Z.mul (map sg a) (map sg b).
Proof. intros Fa Fb. symmetry. apply (map_zip2 sg Ih); try assumption. intros x y Hx Hy. symmetry. apply mul_ok; assumption. Qed.
Lemma Ih_zip2 a b : Forall Ih a -> Forall Ih b -> Forall Ih (zip2 (p_mul P) a b).
Proof. apply (Forall_zip2 Ih). intros; apply mul_ok; assumption. Qed.
Lemma gtr_sg n : forall u, Forall Ih u -> map sg (gtr P n u) = ptr n (map sg u) /\ Forall Ih (gtr P n u).
Proof.
  induction n as [|n IH]; intros u F; cbn [gtr ptr]; [auto|]. rewrite firstn_map, skipn_map.
  destruct (IH _ (Forall_firstn_ Ih (2 ^ n) u F)) as (E1 & F1). destruct (IH _ (Forall_skipn_ Ih (2 ^ n) u F)) as (E2 & F2).
  rewrite map_app, sg_zip2, E1, E2 by assumption. split; [reflexivity|]. apply Forall_app. split; [apply Ih_zip2; assumption|exact F2].
Qed.
Lemma gtr_emb n : forall u, Forall pm1 u -> gtr P n (map emb u) = map emb (ptr n u).
Proof.
  induction n as [|n IH]; intros u F; cbn [gtr ptr]; [reflexivity|]. rewrite firstn_map, skipn_map.
  rewrite (IH _ (Forall_firstn_ pm1 (2 ^ n) u F)), (IH _ (Forall_skipn_ pm1 (2 ^ n) u F)).
  rewrite emb_zip2, map_app by (apply pm1_ptr; [apply Forall_firstn_ || apply Forall_skipn_]; exact F). reflexivity.
Qed.
Lemma map_sg_left m sl : Forall Is sl -> map sg (fleft P m sl) = zip2 Z.mul (map sg (firstn (2 ^ m) sl)) (map sg (skipn (2 ^ m) sl)) /\ Forall Is (fleft P m sl).
Proof.
  intros F. unfold fleft. split.
  - symmetry. apply (map_zip2 sg Is); [intros a b Ha Hb; symmetry; apply prod_ok; assumption|apply Forall_firstn_; exact F|apply Forall_skipn_; exact F].
  - apply (Forall_zip2 Is); [intros; apply prod_ok; assumption|apply Forall_firstn_; exact F|apply Forall_skipn_; exact F].
Qed.
Lemma Is_right m x1 sl : Forall Is sl -> Forall Ih x1 -> Forall Is (fright P m x1 sl).
Proof. intros F Fx. unfold fright. apply (Forall_zip3 Ih Is); [intros; apply madd_Is; assumption|exact Fx|apply Forall_firstn_; exact F|apply Forall_skipn_; exact F]. Qed.
(** the right half, when the left decisions are the signs' products *)
Lemma map_sg_right m x1 sl : Forall Is sl -> length sl = 2 ^ S m ->
  Forall (fun x => x <> 0%Z) (map sg (firstn (2 ^ m) sl)) -> Forall (fun x => x <> 0%Z) (map sg (skipn (2 ^ m) sl)) ->
  x1 = map emb (zip2 Z.mul (map sg (firstn (2 ^ m) sl)) (map sg (skipn (2 ^ m) sl))) ->
  map sg (fright P m x1 sl) = map sg (skipn (2 ^ m) sl).
Proof.
  intros F L N1 N2 ->. cbn [Nat.pow] in L. unfold fright.
  assert (Fa := Forall_firstn_ Is (2 ^ m) sl F). assert (Fb := Forall_skipn_ Is (2 ^ m) sl F).
  assert (La : length (firstn (2 ^ m) sl) = length (skipn (2 ^ m) sl)) by (rewrite firstn_length, skipn_length; lia).
  revert N1 N2 Fa Fb La. generalize (firstn (2 ^ m) sl) (skipn (2 ^ m) sl). intros a. induction a as [|x a IH]; intros [|y b] N1 N2 Fa Fb La; cbn in La; try discriminate; [reflexivity|].
  cbn [map zip2 zip3] in *. inversion N1; inversion N2; inversion Fa; inversion Fb; subst. f_equal; [apply madd_ok; assumption|]. apply IH; try assumption. lia.
Qed.
Lemma nz_pm1 x : tern x -> x <> 0%Z -> pm1 x.
Proof. unfold tern, pm1. lia. Qed.
Lemma nz_list l : Forall (fun x => x <> 0%Z) (map sg l) -> Forall pm1 (map sg l).
Proof. rewrite !Forall_map. intros H. eapply Forall_impl; [|exact H]. intros x Hx. apply nz_pm1; [apply sg_tern|exact Hx]. Qed.

(** ** noiseless *)
Definition ginverts (n : nat) (fl : list bool) (F : list A -> list A * list A) : Prop := forall msg sl,
  length msg = unfrozen fl -> Forall pm1 msg -> length sl = 2 ^ n -> Forall Is sl -> map sg sl = ptr n (expand fl msg) -> F sl = (map emb msg, map emb (ptr n (expand fl msg))).
Lemma map_signum_emb sl : map (p_signum P) sl = map emb (map sg sl).
Proof. rewrite map_map. apply map_ext. exact signum_emb. Qed.
Lemma child_ginverts n fl F : length fl = 2 ^ n -> ginverts n fl F -> ginverts n fl (fchild P n fl F).
Proof.
  intros Lf HF msg sl Lm Fm Ls Fs E. unfold fchild. destruct ((n <=? 5) && forallb (fun b => b) fl) eqn:E1.
  - apply andb_true_iff in E1. destruct E1 as [_ E1]. rewrite expand_all in * by exact E1. rewrite Lf in *. rewrite ptr_ones. rewrite unfrozen_all in Lm by exact E1.
    destruct msg; [|discriminate]. unfold r0. rewrite one_emb. cbn [map]. f_equal. clear. generalize (2 ^ n). intros k. induction k as [|k IH]; cbn [repeat map]; congruence.
  - destruct ((n <=? 5) && forallb negb fl) eqn:E2; [|apply HF; assumption]. apply andb_true_iff in E2. destruct E2 as [_ E2].
    rewrite unfrozen_none in Lm by exact E2. rewrite expand_none in * by assumption. unfold r1. rewrite map_signum_emb, E.
    rewrite gtr_emb by (apply pm1_ptr; exact Fm). rewrite ptr_invol by (assumption || lia). reflexivity.
Qed.
Lemma join_ginverts m fl F G : length fl = 2 ^ S m -> ginverts m (firstn (2 ^ m) fl) F -> ginverts m (skipn (2 ^ m) fl) G -> ginverts (S m) fl (fjoin P F G m).
Proof.
  intros Lf HF HG msg sl Lm Fm Ls Fs E. set (f1 := firstn (2 ^ m) fl) in *. set (f2 := skipn (2 ^ m) fl) in *. cbn [Nat.pow] in Lf. pose proof Ls as Ls'. cbn [Nat.pow] in Ls.
  assert (length f1 = 2 ^ m) as L1 by (unfold f1; rewrite firstn_length; lia). assert (length f2 = 2 ^ m) as L2 by (unfold f2; rewrite skipn_length; lia).
  assert (expand fl msg = expand f1 (firstn (unfrozen f1) msg) ++ expand f2 (skipn (unfrozen f1) msg)) as EX by (rewrite <- expand_app; unfold f1, f2; rewrite firstn_skipn; reflexivity).
  rewrite EX in *. rewrite (unfrozen_split (2 ^ m)) in Lm. fold f1 f2 in Lm.
  set (m1 := firstn (unfrozen f1) msg) in *. set (m2 := skipn (unfrozen f1) msg) in *.
  assert (length m1 = unfrozen f1) as Lm1 by (unfold m1; rewrite firstn_length; lia). assert (length m2 = unfrozen f2) as Lm2 by (unfold m2; rewrite skipn_length; lia).
  assert (Forall pm1 m1) as Fm1 by (apply Forall_firstn_; exact Fm). assert (Forall pm1 m2) as Fm2 by (apply Forall_skipn_; exact Fm).
  cbn [ptr] in *. rewrite firstn_app_l, skipn_app_l in * by (rewrite length_expand; assumption).
  pose proof (length_ptr m (expand f1 m1) ltac:(rewrite length_expand; exact L1)) as P1. pose proof (length_ptr m (expand f2 m2) ltac:(rewrite length_expand; exact L2)) as P2.
  pose proof (pm1_ptr m _ (pm1_expand f1 m1 Fm1)) as Q1. pose proof (pm1_ptr m _ (pm1_expand f2 m2 Fm2)) as Q2.
  set (x1 := ptr m (expand f1 m1)) in *. set (x2 := ptr m (expand f2 m2)) in *.
  assert (map sg (firstn (2 ^ m) sl) = zip2 Z.mul x1 x2) as Ea.
  { rewrite <- firstn_map, E. apply firstn_app_l. rewrite length_zip2. lia. }
  assert (map sg (skipn (2 ^ m) sl) = x2) as Eb.
  { rewrite <- skipn_map, E. apply skipn_app_l. rewrite length_zip2. lia. }
  destruct (map_sg_left m sl Fs) as (EL & FL). rewrite Ea, Eb in EL. rewrite zip2_sq in EL by (lia || exact Q2).
  assert (NZ : forall l, Forall pm1 l -> Forall (fun x => x <> 0%Z) l) by (intros l Hl; eapply Forall_impl; [|exact Hl]; unfold pm1; intros; lia).
  assert (FI : forall l, Forall pm1 l -> Forall Ih (map emb l)) by (intros l Hl; apply Forall_map; eapply Forall_impl; [|exact Hl]; intros x Hx; apply Ih_emb, pm1_tern; exact Hx).
  unfold fjoin. rewrite (HF m1); try assumption.
  - fold x1. rewrite (HG m2); try assumption; fold x2.
    + rewrite emb_zip2, <- !map_app by assumption. f_equal. f_equal. apply firstn_skipn.
    + unfold fright. rewrite length_zip3, map_length, firstn_length, skipn_length. lia.
    + apply Is_right; [exact Fs|apply FI; exact Q1].
    + rewrite map_sg_right; [exact Eb|assumption|assumption| | |].
      * rewrite Ea. apply NZ. apply (Forall_zip2 pm1); try assumption. unfold pm1; intros; lia.
      * rewrite Eb. apply NZ. exact Q2.
      * rewrite Ea, Eb. rewrite zip2_sq by (lia || exact Q2). reflexivity.
  - unfold fleft. rewrite length_zip2, firstn_length, skipn_length. lia.
Qed.
Lemma node_ginverts n : forall fl, 1 <= n -> length fl = 2 ^ n -> ginverts n fl (fnode P n fl).
Proof.
  induction n as [|n IH]; intros fl Hn Lf; [lia|].
  assert (forall f, length f = 2 ^ n -> ginverts n f (fchild P n f (fnode P n f))) as C.
  { intros f L. destruct n as [|n].
    - destruct f as [|b [|c f]]; cbn in L; try discriminate. intros msg sl Lm Fm Ls Fs E. destruct sl as [|x [|y sl]]; cbn in Ls; try discriminate.
      cbn [map ptr] in E. destruct b.
      + destruct msg; [|discriminate]. cbn [expand] in E. unfold fchild, r0. cbn. rewrite one_emb. reflexivity.
      + destruct msg as [|y [|z msg]]; cbn in Lm; try discriminate. cbn [expand hd tl] in *. injection E as E. unfold fchild, r1. cbn [forallb negb andb Nat.leb map gtr ptr expand hd tl].
        rewrite signum_emb, E. reflexivity.
    - apply child_ginverts; [exact L|]. apply IH; [lia|exact L]. }
  cbn [Nat.pow] in Lf. apply (join_ginverts n fl); [cbn [Nat.pow]; lia| |]; apply C; rewrite ?firstn_length, ?skipn_length; lia.
Qed.

(** ** plain successive cancellation *)
Lemma gsc_Ih n : forall fl sl, Forall Ih (fst (SC n fl sl)) /\ Forall Ih (snd (SC n fl sl)).
Proof.
  induction n as [|n IH]; intros fl sl; cbn [gsc].
  - assert (Ih (p_signum P (hd d sl))) by (rewrite signum_emb; apply Ih_emb, sg_tern).
    assert (Ih (p_one P)) by (rewrite one_emb; apply Ih_emb; unfold tern; lia).
    destruct (hd true fl); cbn [fst snd]; auto.
  - destruct (IH (firstn (2 ^ n) fl) (zip2 (p_prod P) (firstn (2 ^ n) sl) (skipn (2 ^ n) sl))) as (A1 & B1). destruct (SC n (firstn (2 ^ n) fl) _) as [m1 x1].
    destruct (IH (skipn (2 ^ n) fl) (zip3 (p_madd P) x1 (firstn (2 ^ n) sl) (skipn (2 ^ n) sl))) as (A2 & B2). destruct (SC n (skipn (2 ^ n) fl) _) as [m2 x2].
    cbn [fst snd] in *. split; apply Forall_app; split; try assumption. apply Ih_zip2; assumption.
Qed.
Lemma gsc_nonzero n : forall fl sl, nz (fst (SC n fl sl)) -> nz (snd (SC n fl sl)).
Proof.
  induction n as [|n IH]; intros fl sl H; cbn [gsc] in *.
  - destruct (hd true fl); cbn [fst snd map] in *; [rewrite one_emb, sg_emb by (unfold tern; lia); constructor; [lia|constructor]|exact H].
  - pose proof (IH (firstn (2 ^ n) fl) (zip2 (p_prod P) (firstn (2 ^ n) sl) (skipn (2 ^ n) sl))) as I1. destruct (gsc_Ih n (firstn (2 ^ n) fl) (zip2 (p_prod P) (firstn (2 ^ n) sl) (skipn (2 ^ n) sl))) as (_ & F1).
    destruct (SC n (firstn (2 ^ n) fl) _) as [m1 x1].
    pose proof (IH (skipn (2 ^ n) fl) (zip3 (p_madd P) x1 (firstn (2 ^ n) sl) (skipn (2 ^ n) sl))) as I2. destruct (gsc_Ih n (skipn (2 ^ n) fl) (zip3 (p_madd P) x1 (firstn (2 ^ n) sl) (skipn (2 ^ n) sl))) as (_ & F2).
    destruct (SC n (skipn (2 ^ n) fl) _) as [m2 x2].
    cbn [fst snd] in *. rewrite map_app in H |- *. apply Forall_app in H. destruct H as [Ha Hb]. apply Forall_app. rewrite sg_zip2 by assumption.
    split; [apply zip2_nonzero; [apply I1; exact Ha|apply I2; exact Hb]|apply I2; exact Hb].
Qed.
Lemma one_one k : zip2 (p_mul P) (repeat (p_one P) k) (repeat (p_one P) k) = repeat (p_one P) k.
Proof. induction k as [|k IH]; cbn [repeat zip2]; [reflexivity|]. rewrite IH, one_emb, mul_emb by (left; reflexivity). reflexivity. Qed.
Lemma gsc_frozen n : forall fl sl, length fl = 2 ^ n -> length sl = 2 ^ n -> forallb (fun b => b) fl = true -> SC n fl sl = ([], repeat (p_one P) (2 ^ n)).
Proof.
  induction n as [|n IH]; intros fl sl Lf Ls H; cbn [gsc].
  - destruct fl as [|b [|c fl]]; cbn in Lf; try discriminate. cbn [forallb] in H. destruct b; [reflexivity|discriminate].
  - cbn [Nat.pow] in *. rewrite IH; try (rewrite ?length_zip2, ?firstn_length, ?skipn_length; lia); [|apply forallb_firstn; exact H].
    rewrite IH; try (rewrite ?length_zip3, ?repeat_length, ?firstn_length, ?skipn_length; lia); [|apply forallb_skipn; exact H].
    replace (2 * 2 ^ n) with (2 ^ n + 2 ^ n) by lia. rewrite repeat_app, one_one. reflexivity.
Qed.
Lemma zip2_nz_inv a : forall b, length a = length b -> nonzero (zip2 Z.mul a b) -> nonzero a /\ nonzero b.
Proof.
  induction a as [|x a IH]; intros [|y b] L H; cbn in L; try discriminate; [split; constructor|]. cbn [zip2] in H. inversion H as [|? ? H1 H2]; subst.
  destruct (IH b ltac:(lia) H2). split; constructor; auto; intros ->; apply H1; lia.
Qed.
(** a ring of unfrozen positions: decisions are those of the transform of the signs, up to the first tie *)
Lemma gsc_free n : forall fl sl, length fl = 2 ^ n -> length sl = 2 ^ n -> Forall Is sl -> forallb negb fl = true ->
  same_until_tie (ptr n (map sg sl)) (map sg (fst (SC n fl sl))) /\
  (nz (fst (SC n fl sl)) -> fst (SC n fl sl) = map emb (ptr n (map sg sl)) /\ snd (SC n fl sl) = map emb (map sg sl) /\ nz sl).
Proof.
  induction n as [|n IH]; intros fl sl Lf Ls Fs H.
  - destruct fl as [|b [|c fl]]; cbn in Lf; try discriminate. destruct sl as [|x [|y sl]]; cbn in Ls; try discriminate. cbn [forallb] in H. destruct b; [discriminate|].
    cbn [gsc hd fst snd map ptr]. rewrite signum_emb, sg_emb by apply sg_tern. split; [apply sut_refl|]. intros N. split; [reflexivity|]. split; [reflexivity|exact N].
  - cbn [gsc]. pose proof Ls as Ls'. cbn [Nat.pow] in Lf, Ls.
    assert (length (firstn (2 ^ n) fl) = 2 ^ n) as Lfa by (rewrite firstn_length; lia). assert (length (skipn (2 ^ n) fl) = 2 ^ n) as Lfb by (rewrite skipn_length; lia).
    fold (fleft P n sl). destruct (map_sg_left n sl Fs) as (EL & FL).
    assert (length (fleft P n sl) = 2 ^ n) as Ll by (unfold fleft; rewrite length_zip2, firstn_length, skipn_length; lia).
    destruct (IH _ _ Lfa Ll FL (forallb_firstn _ _ _ H)) as (S1 & N1). pose proof (gsc_len P d n _ _ Lfa Ll) as (K1 & K2).
    destruct (gsc_Ih n (firstn (2 ^ n) fl) (fleft P n sl)) as (I1 & I2).
    destruct (SC n (firstn (2 ^ n) fl) _) as [m1 x1]. cbn [fst snd] in *. fold (fright P n x1 sl).
    assert (length (fright P n x1 sl) = 2 ^ n) as Lr by (unfold fright; rewrite length_zip3, firstn_length, skipn_length; lia).
    pose proof (Is_right n x1 sl Fs I2) as FR.
    destruct (IH _ _ Lfb Lr FR (forallb_skipn _ _ _ H)) as (S2 & N2). pose proof (gsc_len P d n _ _ Lfb Lr) as (K3 & K4).
    destruct (SC n (skipn (2 ^ n) fl) _) as [m2 x2]. cbn [fst snd] in *.
    assert (LA : length (map sg (firstn (2 ^ n) sl)) = 2 ^ n) by (rewrite map_length, firstn_length; lia).
    assert (LB : length (map sg (skipn (2 ^ n) sl)) = 2 ^ n) by (rewrite map_length, skipn_length; lia).
    assert (ER : nz m1 -> map sg (fright P n x1 sl) = map sg (skipn (2 ^ n) sl) /\ nonzero (map sg (firstn (2 ^ n) sl)) /\ nonzero (map sg (skipn (2 ^ n) sl))).
    { intros N. destruct (N1 N) as (_ & Ex & Nl). rewrite EL in Nl, Ex. destruct (zip2_nz_inv _ _ (eq_trans LA (eq_sym LB)) Nl) as (Na & Nb). split; [|split; assumption].
      apply map_sg_right; assumption. }
    cbn [ptr]. rewrite map_app, !firstn_map, !skipn_map. rewrite EL, ptr_mul in S1 by assumption. split.
    + apply sut_app; [exact S1| |].
      * intros N. apply sut_nonzero in S1; [|left; exact N]. rewrite S1 in N. destruct (ER N) as (E2 & _). rewrite E2 in S2. exact S2.
      * rewrite length_ptr by assumption. rewrite map_length, K3, unfrozen_none, Lfb by (apply forallb_skipn; exact H). reflexivity.
    + intros N. apply Forall_app in N. destruct N as [Na Nb]. destruct (ER Na) as (E2 & Z1 & Z2). destruct (N1 Na) as (-> & -> & _). destruct (N2 Nb) as (-> & -> & _).
      rewrite E2, EL. split; [|split].
      * rewrite map_app. f_equal. f_equal. apply ptr_mul; assumption.
      * rewrite emb_zip2; [|apply (Forall_zip2 pm1); [clear; unfold pm1; intros; nia|apply nz_list; exact Z1|apply nz_list; exact Z2]|apply nz_list; exact Z2].
        rewrite <- map_app. f_equal. rewrite zip2_sq by (first [apply nz_list; assumption | clear - LA LB; lia]). rewrite <- map_app, firstn_skipn. reflexivity.
      * unfold nonzero. rewrite <- (firstn_skipn (2 ^ n) sl), map_app. apply Forall_app. split; assumption.
Qed.
Definition gagrees (a b : list A * list A) : Prop := same_until_tie (map sg (fst a)) (map sg (fst b)) /\ (nz (fst a) -> a = b).
Lemma gagrees_r1 n fl sl : length fl = 2 ^ n -> length sl = 2 ^ n -> Forall Is sl -> forallb negb fl = true -> gagrees (r1 P n sl) (SC n fl sl).
Proof.
  intros Lf Ls Fs H. destruct (gsc_free n fl sl Lf Ls Fs H) as (M & X). unfold gagrees, r1. cbn [fst snd]. rewrite map_signum_emb.
  assert (FI : Forall Ih (map emb (map sg sl))) by (rewrite map_map; apply Forall_map, Forall_forall; intros; apply Ih_emb, sg_tern).
  destruct (gtr_sg n _ FI) as (E & FG). assert (map sg (map emb (map sg sl)) = map sg sl) as EE.
  { rewrite map_map. rewrite <- (map_id (map sg sl)) at 2. apply map_ext_in. intros z Hz. apply sg_emb. apply in_map_iff in Hz. destruct Hz as (x & <- & _). apply sg_tern. }
  rewrite EE in E. rewrite E. split; [exact M|]. intros N. pose proof (sut_nonzero _ _ M (or_introl N)) as EM. rewrite EM in N. destruct (X N) as (X1 & X2 & X3).
  destruct (SC n fl sl) as [m x]. cbn [fst snd] in *. rewrite gtr_emb by (apply nz_list; exact X3). congruence.
Qed.
Lemma gagrees_child n fl sl : length fl = 2 ^ n -> length sl = 2 ^ n -> Forall Is sl -> (1 <= n -> gagrees (fnode P n fl sl) (SC n fl sl)) ->
  gagrees (fchild P n fl (fnode P n fl) sl) (SC n fl sl).
Proof.
  intros Lf Ls Fs H. unfold fchild. destruct ((n <=? 5) && forallb (fun b => b) fl) eqn:E1.
  - apply andb_true_iff in E1. destruct E1 as [_ E1]. rewrite (gsc_frozen n fl sl) by assumption. split; [exact I|reflexivity].
  - destruct ((n <=? 5) && forallb negb fl) eqn:E2.
    + apply andb_true_iff in E2. apply gagrees_r1; tauto.
    + apply H. destruct n; [|lia]. destruct fl as [|b [|c fl]]; cbn in Lf; try discriminate. destruct b; discriminate.
Qed.
Lemma gagrees_node n : forall fl sl, 1 <= n -> length fl = 2 ^ n -> length sl = 2 ^ n -> Forall Is sl -> gagrees (fnode P n fl sl) (SC n fl sl).
Proof.
  induction n as [|n IH]; intros fl sl Hn Lf Ls Fs; [lia|].
  cbn [fnode gsc]. cbn [Nat.pow] in Lf, Ls. unfold fjoin. fold (fleft P n sl). destruct (map_sg_left n sl Fs) as (_ & FL).
  assert (length (firstn (2 ^ n) fl) = 2 ^ n) as Lfa by (rewrite firstn_length; lia). assert (length (skipn (2 ^ n) fl) = 2 ^ n) as Lfb by (rewrite skipn_length; lia).
  assert (length (fleft P n sl) = 2 ^ n) as Ll by (unfold fleft; rewrite length_zip2, firstn_length, skipn_length; lia).
  destruct (gagrees_child n (firstn (2 ^ n) fl) (fleft P n sl) Lfa Ll FL) as (S1 & N1); [intros; apply IH; auto|].
  pose proof (gsc_len P d n _ _ Lfa Ll) as (LM1 & LX1). destruct (gsc_Ih n (firstn (2 ^ n) fl) (fleft P n sl)) as (_ & I2).
  destruct (SC n (firstn (2 ^ n) fl) (fleft P n sl)) as [m1 x1]. destruct (fchild P n (firstn (2 ^ n) fl) _ (fleft P n sl)) as [m1' x1'] eqn:EF1. cbn [fst snd] in *.
  fold (fright P n x1 sl). pose proof (Is_right n x1 sl Fs I2) as FR.
  assert (length (fright P n x1 sl) = 2 ^ n) as Lr by (unfold fright; rewrite length_zip3, firstn_length, skipn_length; lia).
  destruct (gagrees_child n (skipn (2 ^ n) fl) (fright P n x1 sl) Lfb Lr FR) as (S2 & N2); [intros; apply IH; auto|].
  pose proof (gsc_len P d n _ _ Lfb Lr) as (LM2 & LX2).
  assert (length (fst (fchild P n (skipn (2 ^ n) fl) (fnode P n (skipn (2 ^ n) fl)) (fright P n x1' sl))) = unfrozen (skipn (2 ^ n) fl)) as LM2'.
  { pose proof (child_len_all P n (firstn (2 ^ n) fl) (fleft P n sl) Lfa Ll) as (_ & LX1'). rewrite EF1 in LX1'. cbn [snd] in LX1'.
    assert (length (fright P n x1' sl) = 2 ^ n) as Lr' by (unfold fright; rewrite length_zip3, firstn_length, skipn_length; lia).
    apply child_len_all; assumption. }
  destruct (SC n (skipn (2 ^ n) fl) (fright P n x1 sl)) as [m2 x2]. destruct (fchild P n (skipn (2 ^ n) fl) _ (fright P n x1' sl)) as [m2' x2'] eqn:EF2. cbn [fst snd] in *.
  split.
  - cbn [fst]. rewrite !map_app. apply sut_app; [exact S1| |rewrite !map_length; lia]. intros N. injection (N1 N) as -> ->. rewrite EF2 in S2. exact S2.
  - cbn [fst]. rewrite map_app. intros N. apply Forall_app in N. destruct N as [Na Nb]. injection (N1 Na) as -> ->. rewrite EF2 in N2. injection (N2 Nb) as -> ->. reflexivity.
Qed.

(** ** the encoders, by simulation of the 8 bit ones *)
Definition sim (z : Z) (x : A) : Prop := tern z /\ (pm1 z -> x = emb z).
Lemma sim_mul a x b y : sim a x -> sim b y -> sim (qmul8 a b) (p_mul P x y).
Proof.
  intros (Ta & Ha) (Tb & Hb). rewrite qmul8_tern by assumption. split; [apply tern_mul; assumption|]. intros H.
  assert (pm1 a /\ pm1 b) as [Pa Pb] by (unfold pm1, tern in *; nia). rewrite (Ha Pa), (Hb Pb). apply mul_emb; assumption.
Qed.
Lemma sim_one : sim 1 (p_one P).
Proof. split; [unfold tern; lia|]. intros _. exact one_emb. Qed.
Lemma sim_encode msg msg' frozen level l m : Forall2 sim msg msg' -> Forall2 sim l m -> rel (Forall2 sim) (polar_encode ops8 l msg frozen level) (polar_encode P m msg' frozen level).
Proof. apply (two_encode ops8 P sim sim_one sim_mul). Qed.
Lemma sim_sysenc msg msg' frozen level l m : Forall2 sim msg msg' -> Forall2 sim l m -> rel (Forall2 sim) (polar_sysenc ops8 l msg frozen level) (polar_sysenc P m msg' frozen level).
Proof. apply (two_sysenc ops8 P sim sim_one sim_mul). Qed.
Lemma sim_junk (m : list A) : Forall2 sim (repeat 0%Z (length m)) m.
Proof. induction m as [|x m IH]; cbn [repeat length]; constructor; [|exact IH]. split; [apply tern_0|]. unfold pm1. intros H. lia. Qed.
Lemma sim_msg l : Forall pm1 l -> Forall2 sim l (map emb l).
Proof. intros H. induction H as [|x l Hx H IH]; cbn [map]; constructor; [|exact IH]. split; [apply pm1_tern; exact Hx|reflexivity]. Qed.
Lemma sim_word l : forall m tl tl', Forall pm1 l -> Forall2 sim (l ++ tl) (m ++ tl') -> length l = length m -> m = map emb l.
Proof.
  induction l as [|x l IH]; intros [|y m] tl tl' F H L; cbn in L; try discriminate; [reflexivity|]. cbn [Datatypes.app map] in *. inversion H as [|? ? ? ? S1 S2]; subst. inversion F; subst.
  f_equal; [apply S1; assumption|]. apply (IH m tl tl'); try assumption. lia.
Qed.
Lemma sim_whole w m : Forall pm1 w -> Forall2 sim w m -> m = map emb w.
Proof. intros F H. apply (sim_word w m [] []); [exact F|rewrite !app_nil_r; exact H|eapply Forall2_len; exact H]. Qed.
Lemma genc msg frozen level codeword w : Forall pm1 msg -> 2 ^ level <= length codeword ->
  polar_encode ops8 (repeat 0%Z (2 ^ level)) msg frozen level = Ok w -> Forall pm1 w ->
  polar_encode P codeword (map emb msg) frozen level = Ok (map emb w ++ skipn (2 ^ level) codeword).
Proof.
  intros Fm Hc E Fw. pose proof (sim_encode msg (map emb msg) frozen level (repeat 0%Z (2 ^ level)) (firstn (2 ^ level) codeword) (sim_msg msg Fm)) as S1.
  assert (length (firstn (2 ^ level) codeword) = 2 ^ level) as LF by (rewrite firstn_length; lia).
  specialize (S1 ltac:(rewrite <- LF at 1; apply sim_junk)). rewrite E in S1. cbn [rel] in S1.
  destruct (polar_encode P (firstn (2 ^ level) codeword) (map emb msg) frozen level) as [m'| | |] eqn:EP; try contradiction. apply sim_whole in S1; [|exact Fw]. subst m'.
  destruct (frame_encode P (skipn (2 ^ level) codeword) (map emb msg) frozen level (firstn (2 ^ level) codeword) codeword) with (a := map emb w) as (b & Eb & Rb);
    [symmetry; apply firstn_skipn|exact EP|]. rewrite Eb, Rb. reflexivity.
Qed.
Lemma gsysenc msg frozen level codeword w : Forall pm1 msg -> 2 ^ level <= length codeword ->
  polar_sysenc ops8 (repeat 0%Z (2 ^ level)) msg frozen level = Ok w -> Forall pm1 w ->
  polar_sysenc P codeword (map emb msg) frozen level = Ok (map emb w ++ skipn (2 ^ level) codeword).
Proof.
  intros Fm Hc E Fw. pose proof (sim_sysenc msg (map emb msg) frozen level (repeat 0%Z (2 ^ level)) (firstn (2 ^ level) codeword) (sim_msg msg Fm)) as S1.
  assert (length (firstn (2 ^ level) codeword) = 2 ^ level) as LF by (rewrite firstn_length; lia).
  specialize (S1 ltac:(rewrite <- LF at 1; apply sim_junk)). rewrite E in S1. cbn [rel] in S1.
  destruct (polar_sysenc P (firstn (2 ^ level) codeword) (map emb msg) frozen level) as [m'| | |] eqn:EP; try contradiction. apply sim_whole in S1; [|exact Fw]. subst m'.
  destruct (frame_sysenc P (skipn (2 ^ level) codeword) (map emb msg) frozen level (firstn (2 ^ level) codeword) codeword) with (a := map emb w) as (b & Eb & Rb);
    [symmetry; apply firstn_skipn|exact EP|]. rewrite Eb, Rb. reflexivity.
Qed.
End Signs.
