(** Polar decoding with bounds that grow towards the leaves; the vector back ends against the portable float lanes. *)
From Coq Require Import ZifyBool ZifyNat Floats.SpecFloat.
From Verif Require Import Cpp Model_simd Model_intrin Model_backend Model_polar Model_polar_float Model_fsimd Spec_polar Spec_ieee Spec_simd Spec_polar_float
  Lib_list Lib_wht Lib_float Lib_float2 Proof_bits Proof_simd Proof_simd2 Proof_intrin Proof_polar1 Proof_polar2 Proof_polar3 Proof_polar4 Proof_polar5 Proof_polarf2 Proof_ieee Proof_fsimd1 Prop_fsimd.
Local Open Scope nat_scope.
Ltac Zify.zify_post_hook ::= idtac.

Section Hom2.
Context {A B : Type} (PA : polar_ops A) (PB : polar_ops B) (h : A -> B) (Is : nat -> A -> Prop) (Ih : A -> Prop).
Hypothesis H1 : Ih (p_one PA) /\ h (p_one PA) = p_one PB.
Hypothesis Hs : forall n x, Is n x -> Ih (p_signum PA x) /\ p_signum PB (h x) = h (p_signum PA x).
Hypothesis Hm : forall a b, Ih a -> Ih b -> Ih (p_mul PA a b) /\ p_mul PB (h a) (h b) = h (p_mul PA a b).
Hypothesis Hp : forall n a b, Is (S n) a -> Is (S n) b -> Is n (p_prod PA a b) /\ p_prod PB (h a) (h b) = h (p_prod PA a b).
Hypothesis Ha : forall n x a b, Ih x -> Is (S n) a -> Is (S n) b -> Is n (p_madd PA x a b) /\ p_madd PB (h x) (h a) (h b) = h (p_madd PA x a b).
Definition hom2 (n : nat) (F : list A -> list A * list A) (G : list B -> list B * list B) : Prop := forall sl, Forall (Is n) sl ->
  G (map h sl) = (map h (fst (F sl)), map h (snd (F sl))) /\ Forall Ih (fst (F sl)) /\ Forall Ih (snd (F sl)).
Lemma r0_hom2 n : hom2 n (r0 PA n) (r0 PB n).
Proof. intros sl F. apply (r0_hom PA PB h (Is n) Ih H1 n sl F). Qed.
Lemma r1_hom2 n : hom2 n (r1 PA n) (r1 PB n).
Proof. intros sl F. apply (r1_hom PA PB h (Is n) Ih (Hs n) Hm n sl F). Qed.
Lemma fjoin_hom2 F1 G1 F2 G2 m : hom2 m F1 G1 -> hom2 m F2 G2 -> hom2 (S m) (fjoin PA F1 F2 m) (fjoin PB G1 G2 m).
Proof.
  intros A1 A2 sl F. unfold fjoin, fleft, fright. rewrite !firstn_map, !skipn_map.
  pose proof (Forall_firstn_ (Is (S m)) (2 ^ m) sl F) as Fa. pose proof (Forall_skipn_ (Is (S m)) (2 ^ m) sl F) as Fb.
  rewrite (map_zip2 h (Is (S m)) (p_prod PA) (p_prod PB)) by (try assumption; intros; apply (Hp m); assumption).
  destruct (A1 (zip2 (p_prod PA) (firstn (2 ^ m) sl) (skipn (2 ^ m) sl))) as (E1 & M1 & X1).
  { apply (Forall_zip2 (Is (S m))); try assumption. intros; apply Hp; assumption. }
  rewrite E1. destruct (F1 _) as [m1 x1]. cbn [fst snd] in *.
  rewrite (map_zip3 h Ih (Is (S m)) (p_madd PA) (p_madd PB)) by (try assumption; intros; apply (Ha m); assumption).
  destruct (A2 (zip3 (p_madd PA) x1 (firstn (2 ^ m) sl) (skipn (2 ^ m) sl))) as (E2 & M2 & X2).
  { apply (Forall_zip3 Ih (Is (S m))); try assumption. intros; apply Ha; assumption. }
  rewrite E2. destruct (F2 _) as [m2 x2]. cbn [fst snd] in *.
  rewrite (map_zip2 h Ih (p_mul PA) (p_mul PB)) by (try assumption; intros; apply Hm; assumption).
  rewrite !map_app. split; [reflexivity|]. split; apply Forall_app; split; try assumption.
  apply (Forall_zip2 Ih); try assumption. intros; apply Hm; assumption.
Qed.
Lemma fchild_hom2 n fl F G : hom2 n F G -> hom2 n (fchild PA n fl F) (fchild PB n fl G).
Proof. intros H. unfold fchild. destruct (_ && _); [apply r0_hom2|]. destruct (_ && _); [apply r1_hom2|exact H]. Qed.
Lemma fnode_hom2 n : forall fl, hom2 n (fnode PA n fl) (fnode PB n fl).
Proof.
  induction n as [|n IH]; intros fl.
  - intros sl F. cbn [fnode fst snd map]. auto.
  - apply fjoin_hom2; apply fchild_hom2; apply IH.
Qed.
End Hom2.

(** what both back ends provide *)
Section Backend.
Variables (mw ew N : Z) (K : nat).
Hypothesis F : ieee_format mw ew.
Notation w := (ieee_width mw ew).
Notation prec := (ieee_prec mw).
Notation emax := (ieee_emax ew).
Notation emin := (ieee_emin mw ew).
Notation num := (float_of_bits mw ew).
Notation fl := (flanes mw ew N).
Notation one := (one_ prec).
Let Hp : (1 < prec)%Z := Hprec mw ew F.
Let He : (prec < emax)%Z := Hemax mw ew F.
Notation W := (K * count N w).

Lemma fl_len v : length v = K -> length (fl v) = W.
Proof. intros L. unfold flanes. rewrite map_length, length_lanes_u, L. reflexivity. Qed.
Lemma fl_valid v : Forall (fun x => valid_binary prec emax x = true) (fl v).
Proof. unfold flanes. apply Forall_map. apply Forall_forall. intros x _. apply (num_valid mw ew F). Qed.
Lemma lanes2_map2 (f : spec_float -> spec_float -> spec_float) a b : lanes2 f a b = map2 f a b.
Proof. reflexivity. Qed.

Lemma le_abs k x : at_most emin k (SFabs x) <-> at_most emin k x. Proof. destruct x; reflexivity. Qed.
Lemma le_opp k x : at_most emin k (SFopp x) <-> at_most emin k x. Proof. destruct x; reflexivity. Qed.
Lemma le_nan k x : at_most emin k x -> is_nan x = false. Proof. destruct x; cbn; auto; contradiction. Qed.
Lemma le_mono k x : (emin <= k)%Z -> at_most emin k x -> at_most emin (k + 1) x.
Proof.
  intros Hk. destruct x; cbn [at_most]; auto. intros H. etransitivity; [exact H|]. apply Z.pow_le_mono_r; lia.
Qed.
(** a hard value times a number *)
Lemma hard_le k h x : hardf prec h -> valid_binary prec emax x = true -> at_most emin k x -> at_most emin k (SFmul prec emax h x).
Proof.
  intros [(s & ->)|[-> | ->]] V B.
  - destruct x; try contradiction; exact I.
  - rewrite mul_one by assumption. exact B.
  - rewrite mul_minus_one by assumption. apply le_opp. exact B.
Qed.
Lemma min_le k a b : at_most emin k a -> at_most emin k b -> at_most emin k (minf a b).
Proof. intros A B. unfold minf. destruct (SFltb b a); assumption. Qed.
(** equal magnitudes are the same number *)
Lemma abs_min a b : is_nan a = false -> is_nan b = false -> SFltb (SFabs b) (SFabs a) = false -> SFltb (SFabs a) (SFabs b) = false -> SFabs a = SFabs b.
Proof.
  intros Na Nb A B. assert (Na' : is_nan (SFabs a) = false) by (destruct a; auto). assert (Nb' : is_nan (SFabs b) = false) by (destruct b; auto).
  destruct (trichotomy _ _ Na' Nb') as [(C & _)|[(_ & C)|(_ & _ & _ & [E|(Z1 & Z2)])]]; try congruence. destruct a; try discriminate. destruct b; try discriminate. reflexivity.
Qed.
Definition hard_v (v : list Z) : Prop := length v = K /\ Forall (hardf prec) (fl v).
Definition soft_v (T : Z) (level n : nat) (v : list Z) : Prop := length v = K /\ n <= level /\ Forall (at_most emin (T - Z.of_nat n)) (fl v).

Variables (dup1 : list Z) (sg ab : list Z -> list Z) (mul add mn : list Z -> list Z -> list Z).
Notation P := (mk_ops (list Z) dup1 sg mul (fun a b => mul (mul (sg a) (sg b)) (mn (ab a) (ab b))) (fun a b c => add (mul a b) c)).
Hypothesis Ldup : length dup1 = K.
Hypothesis Lsg : forall a, length a = K -> length (sg a) = K.
Hypothesis Lab : forall a, length a = K -> length (ab a) = K.
Hypothesis Lmul : forall a b, length a = K -> length b = K -> length (mul a b) = K.
Hypothesis Ladd : forall a b, length a = K -> length b = K -> length (add a b) = K.
Hypothesis Lmn : forall a b, length a = K -> length b = K -> length (mn a b) = K.
Hypothesis Edup : fl dup1 = repeat (of_int prec emax 1) W.
Hypothesis Esg : forall a, length a = K -> Forall (fun x => is_nan x = false) (fl a) -> fl (sg a) = map (signumf prec emax) (fl a).
Hypothesis Eab : forall a, length a = K -> fl (ab a) = map SFabs (fl a).
Hypothesis Emul : forall a b, length a = K -> length b = K -> fl (mul a b) = map2 (SFmul prec emax) (fl a) (fl b).
Hypothesis Eadd : forall a b, length a = K -> length b = K -> fl (add a b) = map2 (SFadd prec emax) (fl a) (fl b).
Hypothesis Emn : forall a b, length a = K -> length b = K -> Forall (fun x => is_nan x = false) (fl a) -> Forall (fun x => is_nan x = false) (fl b) -> fl (mn (ab a) (ab b)) = map2 minf (map SFabs (fl a)) (map SFabs (fl b)).

Lemma no_nan k l : Forall (at_most emin k) l -> Forall (fun x => is_nan x = false) l.
Proof. intros H. eapply Forall_impl; [|exact H]. intros x. apply le_nan. Qed.
Lemma Forall_map2 {X Y Z'} (Q : X -> Prop) (R : Y -> Prop) (O : Z' -> Prop) (f : X -> Y -> Z') a : (forall x y, Q x -> R y -> O (f x y)) -> forall b, Forall Q a -> Forall R b -> Forall O (map2 f a b).
Proof. intros H. unfold map2. induction a as [|x a IH]; intros [|y b] Fa Fb; cbn; try constructor; inversion Fa; inversion Fb; subst; auto. Qed.
Lemma hard_valid l : Forall (hardf prec) l -> Forall (fun x => valid_binary prec emax x = true) l.
Proof. intros H. eapply Forall_impl; [|exact H]. intros x. apply hardf_valid; assumption. Qed.
Lemma signum_hard l : Forall (hardf prec) (map (signumf prec emax) l).
Proof. apply Forall_map. apply Forall_forall. intros x _. rewrite signumf_ok by assumption. apply hardf_emb; [assumption|]. apply fsgn_tern. Qed.
Lemma backend_node T level : (emin <= T - Z.of_nat level)%Z -> (T <= emax - 1)%Z ->
  forall n fr, hom2 fl (soft_v T level) hard_v n (fnode P n fr) (fnode (opsfv prec emax W) n fr).
Proof.
  intros T1 T2. apply fnode_hom2; cbn [p_one p_signum p_mul p_prod p_madd opsfv].
  - split; [|exact Edup]. split; [exact Ldup|]. rewrite Edup. apply Forall_forall. intros x Hx. apply repeat_spec in Hx. subst. rewrite of_int_emb by (assumption || (unfold tern; lia)). apply hardf_emb; [assumption|unfold tern; lia].
  - intros n a (La & _ & Fa). pose proof (Esg a La (no_nan _ _ Fa)) as E. split; [split; [apply Lsg; exact La|rewrite E; apply signum_hard]|symmetry; exact E].
  - intros a b (La & Fa) (Lb & Fb). split; [|symmetry; apply Emul; assumption]. split; [apply Lmul; assumption|]. rewrite Emul by assumption.
    apply (Forall_map2 (hardf prec) (hardf prec)); try assumption. intros x y Hx Hy. apply mulf_ok; assumption.
  - intros n a b (La & Ln & Fa) (Lb & _ & Fb). assert (Lsa := Lsg a La). assert (Lsb := Lsg b Lb). assert (Laa := Lab a La). assert (Lbb := Lab b Lb).
    assert (Lm := Lmul _ _ Lsa Lsb). assert (Ln' := Lmn _ _ Laa Lbb). rewrite !lanes2_map2.
    assert (E : fl (mul (mul (sg a) (sg b)) (mn (ab a) (ab b))) = map2 (SFmul prec emax) (map2 (SFmul prec emax) (map (signumf prec emax) (fl a)) (map (signumf prec emax) (fl b))) (map2 minf (map SFabs (fl a)) (map SFabs (fl b)))).
    { rewrite Emul, Emul, Emn, !Esg by (assumption || (eapply no_nan; eassumption)). reflexivity. }
    split; [|symmetry; exact E]. split; [apply Lmul; assumption|]. split; [lia|]. rewrite E.
    apply (Forall_map2 (hardf prec) (fun x => valid_binary prec emax x = true /\ at_most emin (T - Z.of_nat (S n)) x)).
    + intros x y Hx (Vy & By). replace (T - Z.of_nat n)%Z with (T - Z.of_nat (S n) + 1)%Z by lia. apply le_mono; [lia|]. apply hard_le; assumption.
    + apply (Forall_map2 (hardf prec) (hardf prec)); try apply signum_hard. intros x y Hx Hy. apply mulf_ok; assumption.
    + apply (Forall_map2 (fun x => valid_binary prec emax x = true /\ at_most emin (T - Z.of_nat (S n)) x) (fun x => valid_binary prec emax x = true /\ at_most emin (T - Z.of_nat (S n)) x)).
      * intros x y (V1 & B1) (V2 & B2). split; [apply minf_valid; assumption|apply min_le; assumption].
      * apply Forall_map. apply Forall_and; [|].
        -- eapply Forall_impl; [|apply fl_valid]. intros x Hx. cbv beta in *. rewrite valid_abs. exact Hx.
        -- eapply Forall_impl; [|exact Fa]. intros x Hx. apply le_abs. exact Hx.
      * apply Forall_map. apply Forall_and; [|].
        -- eapply Forall_impl; [|apply fl_valid]. intros x Hx. cbv beta in *. rewrite valid_abs. exact Hx.
        -- eapply Forall_impl; [|exact Fb]. intros x Hx. apply le_abs. exact Hx.
  - intros n x a b (Lx & Fx) (La & Ln & Fa) (Lb & _ & Fb). rewrite !lanes2_map2. assert (Lm := Lmul _ _ Lx La).
    assert (E : fl (add (mul x a) b) = map2 (SFadd prec emax) (map2 (SFmul prec emax) (fl x) (fl a)) (fl b)) by (rewrite Eadd, Emul by assumption; reflexivity).
    split; [|symmetry; exact E]. split; [apply Ladd; assumption|]. split; [lia|]. rewrite E.
    apply (Forall_map2 (fun x => valid_binary prec emax x = true /\ at_most emin (T - Z.of_nat (S n)) x) (fun x => valid_binary prec emax x = true /\ at_most emin (T - Z.of_nat (S n)) x)).
    + intros p q (V1 & B1) (V2 & B2). replace (T - Z.of_nat n)%Z with (T - Z.of_nat (S n) + 1)%Z by lia. rewrite <- emin_eq in *. apply add_le; try assumption; rewrite ?emin_eq in *; lia.
    + apply (Forall_map2 (hardf prec) (fun x => valid_binary prec emax x = true /\ at_most emin (T - Z.of_nat (S n)) x)); [|exact Fx|].
      * intros p q Hq (V2 & B2). split; [apply mul_valid; try assumption; apply hardf_valid; assumption|apply hard_le; assumption].
      * apply Forall_and; [apply fl_valid|exact Fa].
    + apply Forall_and; [apply fl_valid|exact Fb].
Qed.
End Backend.
