(** Polar codes on the erasure channel. *)
From Coq Require Import ZifyBool ZifyNat QArith Lqa.
From Verif Require Import Cpp Model_simd Model_polar Spec_polar Spec_polar_const Spec_polar_erasure Lib_list Lib_wht Proof_bits Proof_simd Proof_polar1 Proof_polar2 Proof_polar3 Proof_polar4 Proof_polar5 Proof_polar6.
Local Open Scope nat_scope.
Ltac Zify.zify_post_hook ::= idtac.

Lemma existsb_ext_in' {A} (f g : A -> bool) l : (forall x, In x l -> f x = g x) -> existsb f l = existsb g l.
Proof. induction l as [|x l IH]; intros H; [reflexivity|]. cbn [existsb]. rewrite H by (left; reflexivity). rewrite IH; [reflexivity|]. intros y Hy. apply H. right. exact Hy. Qed.
Lemma existsb_map' {A B} (f : A -> B) g l : existsb g (map f l) = existsb (fun x => g (f x)) l.
Proof. induction l as [|x l IH]; [reflexivity|]. cbn [map existsb]. rewrite IH. reflexivity. Qed.
Lemma seq_shift_by k n : seq (0 + k) n = map (fun i => k + i) (seq 0 n).
Proof. rewrite Nat.add_0_l. replace k with (k + 0) at 1 by lia. generalize 0. induction n as [|n IH]; intros s; cbn [seq map]; [reflexivity|]. f_equal. rewrite <- IH. f_equal. lia. Qed.

(** ** Which positions are unknown *)
Fixpoint unknown (n : nat) (e : list bool) (i : nat) : bool :=
  match n with
  | O => hd false e
  | S m => if i <? 2 ^ m then unknown m (zip2 orb (firstn (2 ^ m) e) (skipn (2 ^ m) e)) i
           else unknown m (zip2 andb (firstn (2 ^ m) e) (skipn (2 ^ m) e)) (i - 2 ^ m)
  end.
Definition lost (n : nat) (fl : list bool) (e : list bool) : bool := existsb (fun i => negb (nth i fl true) && unknown n e i) (seq 0 (2 ^ n)).

Lemma lost_split m fl e : length fl = 2 ^ S m ->
  lost (S m) fl e = lost m (firstn (2 ^ m) fl) (zip2 orb (firstn (2 ^ m) e) (skipn (2 ^ m) e)) || lost m (skipn (2 ^ m) fl) (zip2 andb (firstn (2 ^ m) e) (skipn (2 ^ m) e)).
Proof.
  intros L. unfold lost. replace (2 ^ S m) with (2 ^ m + 2 ^ m) by (cbn [Nat.pow]; lia). rewrite seq_app, existsb_app. f_equal.
  - apply existsb_ext_in'. intros i Hi. apply in_seq in Hi. cbn [unknown]. replace (i <? 2 ^ m) with true by lia. rewrite nth_firstn'. replace (i <? 2 ^ m) with true by lia. reflexivity.
  - rewrite (seq_shift_by (2 ^ m)), existsb_map'. apply existsb_ext_in'. intros i Hi. apply in_seq in Hi. cbn [unknown]. replace (2 ^ m + i <? 2 ^ m) with false by lia.
    rewrite nth_skipn'. replace (2 ^ m + i - 2 ^ m) with i by lia. reflexivity.
Qed.
Lemma unknown_first n : forall e, length e = 2 ^ n -> unknown n e 0 = existsb (fun b => b) e.
Proof.
  induction n as [|m IH]; intros e L; cbn [unknown].
  - destruct e as [|x [|? ?]]; cbn in L; try lia. cbn. rewrite orb_false_r. reflexivity.
  - assert (P : 2 ^ m <> 0) by (apply Nat.pow_nonzero; lia). replace (0 <? 2 ^ m) with true by lia. cbn [Nat.pow] in L. rewrite IH by (rewrite length_zip2, firstn_length, skipn_length; lia).
    rewrite <- (firstn_skipn (2 ^ m) e) at 3. rewrite existsb_app. assert (LL : length (firstn (2 ^ m) e) = length (skipn (2 ^ m) e)) by (rewrite firstn_length, skipn_length; lia).
    revert LL. generalize (firstn (2 ^ m) e) (skipn (2 ^ m) e). clear. induction l as [|x a IH]; intros [|y b] L; cbn [length] in L; try lia; [reflexivity|].
    cbn [zip2 existsb]. rewrite IH by lia. destruct x, y, (existsb (fun b => b) a), (existsb (fun b => b) b); reflexivity.
Qed.
Lemma unknown_none n : forall e i, existsb (fun b => b) e = false -> unknown n e i = false.
Proof.
  assert (Z : forall op : bool -> bool -> bool, op false false = false -> forall a b, existsb (fun b => b) a = false -> existsb (fun b => b) b = false -> existsb (fun b => b) (zip2 op a b) = false).
  { intros op H. induction a as [|x a IH]; intros [|y b] A B; cbn [existsb zip2] in *; try reflexivity. apply orb_false_iff in A, B. destruct A as (-> & A), B as (-> & B). rewrite H. cbn [orb]. apply IH; assumption. }
  assert (SP : forall k e, existsb (fun b : bool => b) e = false -> existsb (fun b => b) (firstn k e) = false /\ existsb (fun b => b) (skipn k e) = false).
  { intros k e H. rewrite <- (firstn_skipn k e), existsb_app in H. apply orb_false_iff in H. exact H. }
  induction n as [|m IH]; intros e i H; cbn [unknown].
  - destruct e as [|x e]; [reflexivity|]. cbn [existsb] in H. apply orb_false_iff in H. destruct H as (-> & _). reflexivity.
  - destruct (SP (2 ^ m) e H) as (A & B). destruct (i <? 2 ^ m); apply IH, Z; auto.
Qed.

(** ** The decoder *)
(** a value which is absent or right *)
Definition part (x y : Z) : Prop := y = 0%Z \/ y = x.
Definition fits (x s : Z) : Prop := part x (Z.sgn s).
Definition holes (sl : list Z) : list bool := map (Z.eqb 0) sl.

Lemma Forall2_zip2 {A B} (P Q R : A -> B -> Prop) (f : A -> A -> A) (g : B -> B -> B) : (forall a b x y, P a x -> Q b y -> R (f a b) (g x y)) ->
  forall la lx, Forall2 P la lx -> forall lb ly, Forall2 Q lb ly -> Forall2 R (zip2 f la lb) (zip2 g lx ly).
Proof. intros H. induction 1 as [|a x la lx P1 _ IH]; intros lb ly F; [constructor|]. destruct F as [|b y lb ly Q1 F]; cbn [zip2]; constructor; auto. Qed.
Lemma Forall2_firstn' {A B} (P : A -> B -> Prop) n l l' : Forall2 P l l' -> Forall2 P (firstn n l) (firstn n l').
Proof. intros F. revert n. induction F; intros [|n]; cbn [firstn]; constructor; auto. Qed.
Lemma Forall2_skipn' {A B} (P : A -> B -> Prop) n l l' : Forall2 P l l' -> Forall2 P (skipn n l) (skipn n l').
Proof. intros F. revert n. induction F; intros [|n]; cbn [skipn]; auto. Qed.
Lemma Forall2_map_r {A B C} (P : A -> C -> Prop) (f : B -> C) l l' : Forall2 (fun a b => P a (f b)) l l' -> Forall2 P l (map f l').
Proof. induction 1; cbn [map]; constructor; auto. Qed.
Lemma part_mul a b x y : part a x -> part b y -> part (a * b) (x * y).
Proof. unfold part. intros [-> | ->] [-> | ->]; lia. Qed.
Lemma part_ptr n : forall u v, Forall2 part u v -> Forall2 part (ptr n u) (ptr n v).
Proof.
  induction n as [|m IH]; intros u v F; cbn [ptr]; [exact F|]. apply Forall2_app.
  - apply (Forall2_zip2 part part part Z.mul Z.mul part_mul); apply IH; [apply Forall2_firstn'|apply Forall2_skipn']; exact F.
  - apply IH, Forall2_skipn'. exact F.
Qed.
Lemma part_in u v : Forall2 part u v -> u = v \/ In 0%Z v.
Proof. induction 1 as [|a x u v [-> | ->] _ IH]; [auto|right; left; reflexivity|]. destruct IH as [-> |IH]; [auto|right; right; exact IH]. Qed.
Lemma hd_ptr n : forall u, length u = 2 ^ n -> (hd 1 (ptr n u))%Z = product u.
Proof.
  induction n as [|m IH]; intros u L.
  - cbn [ptr]. destruct u as [|x [|? ?]]; cbn in L; try lia. unfold product. cbn [hd fold_right]. lia.
  - cbn [ptr]. set (h := 2 ^ m). cbn [Nat.pow] in L. fold h in L. assert (P : h <> 0) by (apply Nat.pow_nonzero; lia).
    assert (A := IH (firstn h u) ltac:(rewrite firstn_length; fold h; lia)). assert (B := IH (skipn h u) ltac:(rewrite skipn_length; fold h; lia)).
    assert (LA := length_ptr m (firstn h u) ltac:(rewrite firstn_length; fold h; lia)). assert (LB := length_ptr m (skipn h u) ltac:(rewrite skipn_length; fold h; lia)). fold h in LA, LB.
    destruct (ptr m (firstn h u)) as [|x a]; [cbn in LA; lia|]. destruct (ptr m (skipn h u)) as [|y b]; [cbn in LB; lia|]. cbn [zip2 Datatypes.app hd] in *.
    rewrite <- (firstn_skipn h u), product_app. lia.
Qed.
Lemma product_zero u : In 0%Z u -> product u = 0%Z.
Proof. unfold product. induction u as [|x u IH]; intros H; [contradiction|]. cbn [fold_right]. destruct H as [-> |H]; [reflexivity|]. rewrite IH by exact H. lia. Qed.
Lemma zero_ptr n u : length u = 2 ^ n -> In 0%Z u -> In 0%Z (ptr n u).
Proof.
  intros L H. assert (E := hd_ptr n u L). rewrite (product_zero u H) in E. assert (LP := length_ptr n u L). assert (2 ^ n <> 0) by (apply Nat.pow_nonzero; lia).
  destruct (ptr n u) as [|x p]; [cbn in LP; lia|]. cbn [hd] in E. left. exact E.
Qed.

Lemma zero_sgn z : (0 =? z)%Z = (Z.sgn z =? 0)%Z.
Proof. destruct z; reflexivity. Qed.
Lemma fits_left a b s t : pm1 a -> pm1 b -> fits (a * b) s -> fits b t -> fits a (combine_left s t) /\ (0 =? combine_left s t)%Z = (0 =? s)%Z || (0 =? t)%Z.
Proof.
  intros Ha Hb Hs Ht. unfold fits, part in *. rewrite !zero_sgn, sgn_left. unfold pm1 in *.
  destruct Hs as [-> | ->], Ht as [-> | ->]; destruct Ha, Hb; subst; cbn; auto.
Qed.
Lemma fits_right x1 x2 h a b : pm1 x1 -> pm1 x2 -> fits (x1 * x2) a -> fits x2 b -> part x1 h ->
  fits x2 (combine_right h a b) /\ (h = x1 -> (0 =? combine_right h a b)%Z = (0 =? a)%Z && (0 =? b)%Z).
Proof.
  intros H1 H2 Ha Hb Hh. unfold fits, part, pm1, combine_right in *. rewrite sgn_clamp. rewrite (zero_sgn (clamp _)), sgn_clamp, <- zero_sgn.
  destruct H1 as [-> | ->], H2 as [-> | ->], Hh as [-> | ->]; split; try intros; lia.
Qed.
Lemma fits_lefts x1 : forall x2 a b, Forall pm1 x1 -> Forall pm1 x2 -> length x1 = length x2 -> Forall2 fits (zip2 Z.mul x1 x2) a -> Forall2 fits x2 b ->
  Forall2 fits x1 (zip2 combine_left a b) /\ holes (zip2 combine_left a b) = zip2 orb (holes a) (holes b).
Proof.
  induction x1 as [|p x1 IH]; intros [|q x2] a b F1 F2 L Fa Fb; cbn [length] in L; try lia.
  - inversion Fa. inversion Fb. subst. split; [constructor|reflexivity].
  - cbn [zip2] in Fa. inversion Fa as [|? s ? a' Ha Fa']; subst. inversion Fb as [|? t ? b' Hb Fb']; subst. inversion F1; subst. inversion F2; subst.
    destruct (fits_left p q s t) as (A & B); try assumption. destruct (IH x2 a' b') as (C & D); try assumption; [lia|].
    cbn [zip2 holes map]. split; [constructor; assumption|]. unfold holes in *. rewrite B, D. reflexivity.
Qed.
Lemma fits_rights x1 : forall x2 h a b, Forall pm1 x1 -> Forall pm1 x2 -> length x1 = length x2 -> Forall2 fits (zip2 Z.mul x1 x2) a -> Forall2 fits x2 b -> Forall2 part x1 h ->
  Forall2 fits x2 (zip3 combine_right h a b) /\ (h = x1 -> holes (zip3 combine_right h a b) = zip2 andb (holes a) (holes b)).
Proof.
  induction x1 as [|p x1 IH]; intros [|q x2] h a b F1 F2 L Fa Fb Fh; cbn [length] in L; try lia.
  - inversion Fa. inversion Fb. inversion Fh. subst. split; [constructor|reflexivity].
  - cbn [zip2] in Fa. inversion Fa as [|? s ? a' Ha Fa']; subst. inversion Fb as [|? t ? b' Hb Fb']; subst. inversion F1; subst. inversion F2; subst. inversion Fh as [|? k ? h' Hk Fh']; subst.
    destruct (fits_right p q k s t) as (A & B); try assumption. destruct (IH x2 h' a' b') as (C & D); try assumption; [lia|].
    cbn [zip3 holes map]. split; [constructor; assumption|]. intros E. injection E as E1 E2. unfold holes in *. cbn [map zip2]. rewrite (B E1), (D E2). reflexivity.
Qed.

Definition survives (n : nat) (fl : list bool) (F : list Z -> list Z * list Z) : Prop := forall msg sl,
  length msg = unfrozen fl -> Forall pm1 msg -> length sl = 2 ^ n -> Forall2 fits (ptr n (expand fl msg)) sl ->
  Forall2 part msg (fst (F sl)) /\ Forall2 part (ptr n (expand fl msg)) (snd (F sl)) /\
  (lost n fl (holes sl) = false -> F sl = (msg, ptr n (expand fl msg))) /\ (lost n fl (holes sl) = true -> In 0%Z (fst (F sl))).

Lemma part_refl l : Forall2 part l l.
Proof. induction l; constructor; [right; reflexivity|assumption]. Qed.
Lemma lost_all n fl e : length fl = 2 ^ n -> forallb (fun b => b) fl = true -> lost n fl e = false.
Proof.
  intros L H. unfold lost. apply not_true_iff_false. intros E. apply existsb_exists in E. destruct E as (i & Hi & E). apply in_seq in Hi.
  rewrite forallb_forall in H. rewrite (H (nth i fl true)) in E by (apply nth_In; lia). discriminate.
Qed.
Lemma lost_none n fl e : length fl = 2 ^ n -> forallb negb fl = true -> length e = 2 ^ n -> lost n fl e = existsb (fun b => b) e.
Proof.
  intros L H Le. assert (P : 2 ^ n <> 0) by (apply Nat.pow_nonzero; lia). rewrite <- (unknown_first n) by exact Le. unfold lost. destruct (unknown n e 0) eqn:E.
  - apply existsb_exists. exists 0. split; [apply in_seq; lia|]. rewrite E, andb_true_r. rewrite forallb_forall in H. apply (H (nth 0 fl true)). apply nth_In. lia.
  - rewrite unknown_first in E by exact Le. apply not_true_iff_false. intros X. apply existsb_exists in X. destruct X as (i & _ & X). rewrite unknown_none in X by exact E.
    rewrite andb_false_r in X. discriminate.
Qed.
Lemma fits_sgn x sl : Forall2 fits x sl -> Forall2 part x (map Z.sgn sl).
Proof. intros F. apply Forall2_map_r. exact F. Qed.
Lemma no_holes x sl : Forall2 fits x sl -> existsb (fun b => b) (holes sl) = false -> map Z.sgn sl = x.
Proof.
  induction 1 as [|a s x sl H _ IH]; intros E; [reflexivity|]. cbn [holes map existsb] in *. apply orb_false_iff in E. destruct E as (E & E'). rewrite IH by exact E'. f_equal.
  rewrite zero_sgn in E. destruct H as [H|H]; [rewrite H in E; discriminate|exact H].
Qed.
Lemma some_hole sl : existsb (fun b => b) (holes sl) = true -> In 0%Z (map Z.sgn sl).
Proof. intros E. apply existsb_exists in E. destruct E as (b & Hb & ->). apply in_map_iff in Hb. destruct Hb as (z & Ez & Hz). apply in_map_iff. exists z. split; [destruct z; cbn in *; congruence|exact Hz]. Qed.
Lemma child_survives n fl F : length fl = 2 ^ n -> (forallb (fun b => b) fl = false -> forallb negb fl = false -> n <= 5 -> survives n fl F) -> (5 < n -> survives n fl F) -> survives n fl (fchild zops n fl F).
Proof.
  intros Lf HF HF' msg sl Lm Fm Ls E. unfold fchild. destruct ((n <=? 5) && forallb (fun b => b) fl) eqn:E1.
  - apply andb_true_iff in E1. destruct E1 as [_ E1]. rewrite expand_all in * by exact E1. rewrite Lf in *. rewrite ptr_ones in *. rewrite unfrozen_all in Lm by exact E1.
    destruct msg; [|discriminate]. unfold r0. cbn [fst snd p_one zops]. rewrite lost_all by assumption. split; [constructor|]. split; [apply part_refl|]. split; [reflexivity|discriminate].
  - destruct ((n <=? 5) && forallb negb fl) eqn:E2; [|destruct (Nat.leb_spec n 5); cbn [andb] in E1, E2; [apply HF|apply HF']; assumption]. apply andb_true_iff in E2. destruct E2 as [_ E2].
    rewrite unfrozen_none in Lm by exact E2. rewrite expand_none in * by assumption. unfold r1. cbn [p_signum zops fst snd]. rewrite gtr_ptr.
    rewrite lost_none by (try assumption; unfold holes; rewrite map_length; exact Ls). assert (PS := fits_sgn _ _ E). assert (LM : length msg = 2 ^ n) by lia.
    split; [|split; [exact PS|split]].
    + apply (part_ptr n) in PS. rewrite ptr_invol in PS by assumption. exact PS.
    + intros H. rewrite (no_holes _ _ E H). rewrite ptr_invol by assumption. reflexivity.
    + intros H. apply zero_ptr; [rewrite map_length; exact Ls|]. apply some_hole. exact H.
Qed.
Lemma Forall2_app_split {A B} (P : A -> B -> Prop) a1 a2 b n : Forall2 P (a1 ++ a2) b -> length a1 = n -> Forall2 P a1 (firstn n b) /\ Forall2 P a2 (skipn n b).
Proof.
  intros F <-. split.
  - apply (Forall2_firstn' P (length a1)) in F. rewrite firstn_app_l in F by reflexivity. exact F.
  - apply (Forall2_skipn' P (length a1)) in F. rewrite skipn_app_l in F by reflexivity. exact F.
Qed.
Lemma Forall2_len {A B} (P : A -> B -> Prop) a b : Forall2 P a b -> length a = length b.
Proof. induction 1; cbn [length]; congruence. Qed.
Lemma holes_firstn n sl : holes (firstn n sl) = firstn n (holes sl).
Proof. unfold holes. symmetry. apply firstn_map. Qed.
Lemma holes_skipn n sl : holes (skipn n sl) = skipn n (holes sl).
Proof. unfold holes. symmetry. apply skipn_map. Qed.
Lemma join_survives m fl F G : length fl = 2 ^ S m -> survives m (firstn (2 ^ m) fl) F -> survives m (skipn (2 ^ m) fl) G -> survives (S m) fl (fjoin zops F G m).
Proof.
  intros Lf HF HG msg sl Lm Fm Ls E. assert (Lf' := Lf). cbn [Nat.pow] in Lf, Ls. rewrite lost_split by exact Lf'. clear Lf'.
  set (f1 := firstn (2 ^ m) fl) in *. set (f2 := skipn (2 ^ m) fl) in *.
  assert (length f1 = 2 ^ m) as L1 by (unfold f1; rewrite firstn_length; lia). assert (length f2 = 2 ^ m) as L2 by (unfold f2; rewrite skipn_length; lia).
  assert (expand fl msg = expand f1 (firstn (unfrozen f1) msg) ++ expand f2 (skipn (unfrozen f1) msg)) as EX by (rewrite <- expand_app; unfold f1, f2; rewrite firstn_skipn; reflexivity).
  rewrite EX in *. rewrite (unfrozen_split (2 ^ m)) in Lm. fold f1 f2 in Lm.
  set (m1 := firstn (unfrozen f1) msg) in *. set (m2 := skipn (unfrozen f1) msg) in *.
  assert (length m1 = unfrozen f1) as Lm1 by (unfold m1; rewrite firstn_length; lia). assert (length m2 = unfrozen f2) as Lm2 by (unfold m2; rewrite skipn_length; lia).
  assert (Forall pm1 m1) as Fm1 by (apply Forall_firstn_; exact Fm). assert (Forall pm1 m2) as Fm2 by (apply Forall_skipn_; exact Fm).
  assert (MM : msg = m1 ++ m2) by (unfold m1, m2; rewrite firstn_skipn; reflexivity).
  cbn [ptr] in *. rewrite firstn_app_l, skipn_app_l in * by (rewrite length_expand; assumption).
  pose proof (length_ptr m (expand f1 m1) ltac:(rewrite length_expand; exact L1)) as P1. pose proof (length_ptr m (expand f2 m2) ltac:(rewrite length_expand; exact L2)) as P2.
  pose proof (pm1_ptr m _ (pm1_expand f1 m1 Fm1)) as Q1. pose proof (pm1_ptr m _ (pm1_expand f2 m2 Fm2)) as Q2.
  assert (HF' := HF m1). assert (HG' := HG m2). clear HF HG. clearbody m1 m2 f1 f2.
  set (x1 := ptr m (expand f1 m1)) in *. set (x2 := ptr m (expand f2 m2)) in *. clearbody x1 x2.
  apply (Forall2_app_split _ _ _ _ (2 ^ m)) in E; [|rewrite length_zip2; lia]. destruct E as (Ea & Eb).
  rewrite <- holes_firstn, <- holes_skipn.
  destruct (fits_lefts x1 x2 (firstn (2 ^ m) sl) (skipn (2 ^ m) sl)) as (SL & HL); [assumption|assumption|lia|assumption|assumption|].
  unfold fjoin, fleft, fright. cbn [p_prod p_madd p_mul zops]. rewrite <- HL.
  destruct (HF' (zip2 combine_left (firstn (2 ^ m) sl) (skipn (2 ^ m) sl)) Lm1 Fm1) as (A1 & A2 & A3 & A4); [rewrite length_zip2, firstn_length, skipn_length; lia|exact SL|].
  destruct (F (zip2 combine_left (firstn (2 ^ m) sl) (skipn (2 ^ m) sl))) as [p1 h1]. cbn [fst snd] in *.
  destruct (fits_rights x1 x2 h1 (firstn (2 ^ m) sl) (skipn (2 ^ m) sl)) as (SR & HR); [assumption|assumption|lia|assumption|assumption|assumption|].
  assert (LH : length h1 = length x1) by (symmetry; exact (Forall2_len _ _ _ A2)).
  destruct (HG' (zip3 combine_right h1 (firstn (2 ^ m) sl) (skipn (2 ^ m) sl)) Lm2 Fm2) as (B1 & B2 & B3 & B4); [rewrite length_zip3, firstn_length, skipn_length; lia|exact SR|].
  destruct (G (zip3 combine_right h1 (firstn (2 ^ m) sl) (skipn (2 ^ m) sl))) as [p2 h2]. cbn [fst snd] in *.
  split; [rewrite MM; apply Forall2_app; assumption|]. split; [apply Forall2_app; [apply (Forall2_zip2 part part part Z.mul Z.mul part_mul); assumption|assumption]|].
  destruct (lost m f1 (holes (zip2 combine_left (firstn (2 ^ m) sl) (skipn (2 ^ m) sl)))) eqn:LS.
  - cbn [orb]. split; [discriminate|]. intros _. apply in_or_app. left. apply A4. reflexivity.
  - cbn [orb]. specialize (A3 eq_refl). injection A3 as -> ->. rewrite <- (HR eq_refl). split.
    + intros H. specialize (B3 H). injection B3 as -> ->. rewrite MM. reflexivity.
    + intros H. apply in_or_app. right. apply B4. exact H.
Qed.
Lemma node_survives n : forall fl, 1 <= n -> length fl = 2 ^ n -> survives n fl (fnode zops n fl).
Proof.
  induction n as [|n IH]; intros fl Hn Lf; [lia|].
  assert (C : forall f, length f = 2 ^ n -> survives n f (fchild zops n f (fnode zops n f))).
  { intros f L. destruct n as [|n].
    - apply child_survives; [exact L| |lia]. destruct f as [|b [|c f]]; cbn in L; try discriminate. destruct b; cbn; discriminate.
    - assert (I := IH f ltac:(lia) L). apply child_survives; auto. }
  cbn [Nat.pow] in Lf. apply (join_survives n fl); [cbn [Nat.pow]; lia| |]; apply C; rewrite ?firstn_length, ?skipn_length; lia.
Qed.

(** ** Unknown positions are the ambiguous ones *)
Definition amb (n : nat) (e : list bool) (i : nat) : Prop :=
  exists u v, length u = 2 ^ n /\ length v = 2 ^ n /\ Forall pm1 u /\ Forall pm1 v /\
    (forall j, j < i -> nth j u 1%Z = nth j v 1%Z) /\ nth i u 1%Z <> nth i v 1%Z /\
    (forall j, j < 2 ^ n -> nth j e true = false -> nth j (ptr n u) 1%Z = nth j (ptr n v) 1%Z).
Lemma ambiguous_amb n e i : ambiguous n e i <-> amb n e i.
Proof.
  split; intros (u & v & A & B & C & D & E & F & G); exists u, v; repeat (split; [assumption|]); intros j Hj He; specialize (G j Hj He).
  - rewrite !ptr_transform by assumption. exact G.
  - rewrite !ptr_transform in G by assumption. exact G.
Qed.
Lemma nth_pm1 l j : Forall pm1 l -> pm1 (nth j l 1%Z).
Proof. intros F. destruct (nth_in_or_default j l 1%Z) as [H | ->]; [rewrite Forall_forall in F; apply F; exact H|left; reflexivity]. Qed.
Lemma nth_app_lo {X} (a b : list X) j d : j < length a -> nth j (a ++ b) d = nth j a d.
Proof. apply app_nth1. Qed.
Lemma pm1_ones k : Forall pm1 (repeat 1%Z k).
Proof. apply Forall_forall. intros x H. apply repeat_spec in H. subst. left. reflexivity. Qed.
Lemma nth_repeat1 k j : nth j (repeat 1%Z k) 1%Z = 1%Z.
Proof. apply nth_repeat. Qed.
Lemma unknown_amb n : forall e i, length e = 2 ^ n -> i < 2 ^ n -> unknown n e i = true -> amb n e i.
Proof.
  induction n as [|m IH]; intros e i Le Hi H; cbn [unknown] in H.
  - destruct e as [|x [|? ?]]; cbn in Le; try lia. cbn in H, Hi. subst x. replace i with 0 by lia. exists [1%Z], [(-1)%Z]. cbn [length Nat.pow ptr].
    split; [reflexivity|]. split; [reflexivity|]. split; [repeat constructor|]. split; [constructor; [right; reflexivity|constructor]|]. split; [intros; lia|]. split; [cbn; lia|].
    intros [|j] Hj Hf; [cbn in Hf; discriminate|lia].
  - cbn [Nat.pow] in Le, Hi. set (k := 2 ^ m) in *. assert (LA : length (firstn k e) = k) by (rewrite firstn_length; lia). assert (LB : length (skipn k e) = k) by (rewrite skipn_length; lia).
    assert (NA : forall j, j < k -> nth j e true = nth j (firstn k e) true) by (intros j Hj; rewrite nth_firstn'; replace (j <? k) with true by lia; reflexivity).
    assert (NB : forall j, nth (k + j) e true = nth j (skipn k e) true) by (intros j; rewrite nth_skipn'; reflexivity).
    set (e1 := firstn k e) in *. set (e2 := skipn k e) in *. clearbody e1 e2.
    destruct (Nat.ltb_spec i k) as [Hk|Hk].
    + destruct (IH (zip2 orb e1 e2) i) as (u & v & Lu & Lv & Pu & Pv & EQ & NE & TR); [rewrite length_zip2; fold k; lia|exact Hk|exact H|]. fold k in Lu, Lv, TR.
      set (x := map (fun j => if nth j e2 true then (nth j (ptr m u) 1 * nth j (ptr m v) 1)%Z else 1%Z) (seq 0 k)).
      assert (QU := pm1_ptr m u Pu). assert (QV := pm1_ptr m v Pv). assert (LU := length_ptr m u Lu). assert (LV := length_ptr m v Lv). fold k in LU, LV.
      assert (Px : Forall pm1 x). { apply Forall_forall. intros z Hz. apply in_map_iff in Hz. destruct Hz as (j & <- & _). destruct (nth j e2 true); [|left; reflexivity].
        assert (A := nth_pm1 _ j QU). assert (B := nth_pm1 _ j QV). unfold pm1 in *. destruct A as [-> | ->], B as [-> | ->]; lia. }
      assert (Lx : length x = k) by (unfold x; rewrite map_length, seq_length; reflexivity).
      assert (Nx : forall j, j < k -> nth j x 1%Z = if nth j e2 true then (nth j (ptr m u) 1 * nth j (ptr m v) 1)%Z else 1%Z) by (intros j Hj; unfold x; rewrite nth_map_seq; replace (j <? k) with true by lia; reflexivity).
      clearbody x. exists (u ++ repeat 1%Z k), (v ++ ptr m x). assert (LX := length_ptr m x Lx). fold k in LX.
      split; [rewrite app_length, repeat_length; cbn [Nat.pow]; fold k; lia|]. split; [rewrite app_length, LX; cbn [Nat.pow]; fold k; lia|].
      split; [apply Forall_app; split; [assumption|apply pm1_ones]|]. split; [apply Forall_app; split; [assumption|apply pm1_ptr; assumption]|].
      split; [intros j Hj; rewrite !app_nth1 by lia; apply EQ; exact Hj|]. split; [rewrite !app_nth1 by lia; exact NE|].
      intros j Hj Hf. cbn [Nat.pow] in Hj. fold k in Hj. cbn [ptr]. fold k. rewrite !firstn_app_l, !skipn_app_l by lia. unfold k at 1 2. rewrite ptr_ones, ptr_invol by assumption. fold k.
      destruct (Nat.lt_ge_cases j k) as [J|J].
      * rewrite !app_nth1 by (rewrite length_zip2, ?repeat_length; lia). rewrite !(nth_zip2 Z.mul _ _ j 1%Z 1%Z 1%Z) by (rewrite ?repeat_length; lia). rewrite nth_repeat1, Nx by exact J.
        rewrite NA in Hf by exact J. specialize (TR j J). rewrite (nth_zip2 orb _ _ j true true true) in TR by lia. rewrite Hf in TR. cbn [orb] in TR.
        assert (A := nth_pm1 _ j QU). assert (B := nth_pm1 _ j QV). destruct (nth j e2 true).
        -- unfold pm1 in *. destruct A as [-> | ->], B as [-> | ->]; lia.
        -- rewrite TR by reflexivity. reflexivity.
      * rewrite !app_nth2 by (rewrite length_zip2, ?repeat_length; lia). rewrite !length_zip2, repeat_length, LU, LV, Lx, !Nat.min_id. rewrite nth_repeat1, Nx by lia.
        replace j with (k + (j - k)) in Hf by lia. rewrite NB in Hf. rewrite Hf. reflexivity.
    + destruct (IH (zip2 andb e1 e2) (i - k)) as (u & v & Lu & Lv & Pu & Pv & EQ & NE & TR); [rewrite length_zip2; fold k; lia|fold k; lia|exact H|]. fold k in Lu, Lv, TR.
      assert (LU := length_ptr m u Lu). assert (LV := length_ptr m v Lv). fold k in LU, LV.
      exists (repeat 1%Z k ++ u), (repeat 1%Z k ++ v).
      split; [rewrite app_length, repeat_length; cbn [Nat.pow]; fold k; lia|]. split; [rewrite app_length, repeat_length; cbn [Nat.pow]; fold k; lia|].
      split; [apply Forall_app; split; [apply pm1_ones|assumption]|]. split; [apply Forall_app; split; [apply pm1_ones|assumption]|].
      split; [|split].
      * intros j Hj. destruct (Nat.lt_ge_cases j k) as [J|J]; [rewrite !app_nth1 by (rewrite repeat_length; lia); reflexivity|]. rewrite !app_nth2 by (rewrite repeat_length; lia). rewrite repeat_length. apply EQ. lia.
      * rewrite !app_nth2 by (rewrite repeat_length; lia). rewrite repeat_length. exact NE.
      * intros j Hj Hf. cbn [Nat.pow] in Hj. fold k in Hj. cbn [ptr]. fold k. rewrite !firstn_app_l, !skipn_app_l by (rewrite repeat_length; lia). unfold k at 1 2. rewrite ptr_ones. fold k.
        destruct (Nat.lt_ge_cases j k) as [J|J].
        -- rewrite !app_nth1 by (rewrite length_zip2, ?repeat_length; lia). rewrite !(nth_zip2 Z.mul _ _ j 1%Z 1%Z 1%Z) by (rewrite ?repeat_length; lia). f_equal. apply TR; [exact J|].
           rewrite NA in Hf by exact J. rewrite (nth_zip2 andb _ _ j true true true) by lia. rewrite Hf. reflexivity.
        -- rewrite !app_nth2 by (rewrite length_zip2, ?repeat_length; lia). rewrite !length_zip2, repeat_length, LU, LV, !Nat.min_id. apply TR; [lia|].
           replace j with (k + (j - k)) in Hf by lia. rewrite NB in Hf. rewrite (nth_zip2 andb _ _ (j - k) true true true) by lia. rewrite Hf. apply andb_false_r.
Qed.
Lemma amb_unknown n : forall e i, length e = 2 ^ n -> i < 2 ^ n -> amb n e i -> unknown n e i = true.
Proof.
  induction n as [|m IH]; intros e i Le Hi (u & v & Lu & Lv & Pu & Pv & EQ & NE & TR); cbn [unknown].
  - destruct e as [|x [|? ?]]; cbn in Le; try lia. cbn in Hi. replace i with 0 in * by lia. cbn [hd]. destruct x; [reflexivity|]. exfalso. apply NE.
    exact (TR 0 ltac:(cbn; lia) eq_refl).
  - cbn [Nat.pow] in Le, Hi, Lu, Lv. cbn [ptr] in TR. change (2 ^ S m) with (2 * 2 ^ m) in TR. set (k := 2 ^ m) in *.
    assert (LA : length (firstn k e) = k) by (rewrite firstn_length; lia). assert (LB : length (skipn k e) = k) by (rewrite skipn_length; lia).
    assert (NA : forall j, j < k -> nth j e true = nth j (firstn k e) true) by (intros j Hj; rewrite nth_firstn'; replace (j <? k) with true by lia; reflexivity).
    assert (NB : forall j, nth (k + j) e true = nth j (skipn k e) true) by (intros j; rewrite nth_skipn'; reflexivity).
    assert (US : forall j, nth j (firstn k u) 1%Z = if j <? k then nth j u 1%Z else 1%Z) by (intros j; apply nth_firstn').
    assert (VS : forall j, nth j (firstn k v) 1%Z = if j <? k then nth j v 1%Z else 1%Z) by (intros j; apply nth_firstn').
    assert (UT : forall j, nth j (skipn k u) 1%Z = nth (k + j) u 1%Z) by (intros j; apply nth_skipn').
    assert (VT : forall j, nth j (skipn k v) 1%Z = nth (k + j) v 1%Z) by (intros j; apply nth_skipn').
    assert (P1 : Forall pm1 (firstn k u)) by (apply Forall_firstn_; exact Pu). assert (P2 : Forall pm1 (skipn k u)) by (apply Forall_skipn_; exact Pu).
    assert (P3 : Forall pm1 (firstn k v)) by (apply Forall_firstn_; exact Pv). assert (P4 : Forall pm1 (skipn k v)) by (apply Forall_skipn_; exact Pv).
    assert (L1 : length (firstn k u) = k) by (rewrite firstn_length; lia). assert (L2 : length (skipn k u) = k) by (rewrite skipn_length; lia).
    assert (L3 : length (firstn k v) = k) by (rewrite firstn_length; lia). assert (L4 : length (skipn k v) = k) by (rewrite skipn_length; lia).
    set (e1 := firstn k e) in *. set (e2 := skipn k e) in *. set (u1 := firstn k u) in *. set (u2 := skipn k u) in *. set (v1 := firstn k v) in *. set (v2 := skipn k v) in *. clearbody e1 e2 u1 u2 v1 v2.
    assert (Q1 := length_ptr m _ L1). assert (Q2 := length_ptr m _ L2). assert (Q3 := length_ptr m _ L3). assert (Q4 := length_ptr m _ L4). fold k in Q1, Q2, Q3, Q4.
    apply pm1_ptr with (n := m) in P1 as R1. apply pm1_ptr with (n := m) in P2 as R2. apply pm1_ptr with (n := m) in P3 as R3. apply pm1_ptr with (n := m) in P4 as R4.
    assert (HI : forall j, j < k -> nth j e2 true = false -> nth j (ptr m u2) 1%Z = nth j (ptr m v2) 1%Z).
    { intros j J Hf. specialize (TR (k + j) ltac:(lia)). rewrite NB in TR. specialize (TR Hf). rewrite !app_nth2 in TR by (rewrite length_zip2; lia).
      rewrite !length_zip2, Q1, Q2, Q3, Q4, Nat.min_id in TR. replace (k + j - k) with j in TR by lia. exact TR. }
    assert (LO : forall j, j < k -> nth j e1 true = false -> (nth j (ptr m u1) 1 * nth j (ptr m u2) 1 = nth j (ptr m v1) 1 * nth j (ptr m v2) 1)%Z).
    { intros j J Hf. specialize (TR j ltac:(lia)). rewrite NA in TR by exact J. specialize (TR Hf). rewrite !app_nth1 in TR by (rewrite length_zip2; lia).
      rewrite !(nth_zip2 Z.mul _ _ j 1%Z 1%Z 1%Z) in TR by lia. exact TR. }
    destruct (Nat.ltb_spec i k) as [Hk|Hk].
    + apply IH; [rewrite length_zip2; lia|exact Hk|]. exists u1, v1. repeat (split; [assumption|]). split; [|split].
      * intros j J. rewrite US, VS. rewrite EQ by exact J. reflexivity.
      * rewrite US, VS. replace (i <? k) with true by lia. exact NE.
      * intros j J Hf. rewrite (nth_zip2 orb _ _ j true true true) in Hf by lia. apply orb_false_iff in Hf. destruct Hf as (F1 & F2). specialize (HI j J F2). specialize (LO j J F1).
        rewrite HI in LO. assert (A := nth_pm1 _ j R4). unfold pm1 in A. destruct A as [A | A]; rewrite A in LO; lia.
    + assert (E1 : u1 = v1). { apply (list_ext _ _ 1%Z); [lia|]. intros j J. rewrite US, VS. replace (j <? k) with true by lia. apply EQ. lia. }
      subst v1. apply IH; [rewrite length_zip2; lia|fold k; lia|]. exists u2, v2. repeat (split; [assumption|]). split; [|split].
      * intros j J. rewrite UT, VT. apply EQ. lia.
      * rewrite UT, VT. replace (k + (i - k)) with i by lia. exact NE.
      * intros j J Hf. rewrite (nth_zip2 andb _ _ j true true true) in Hf by lia. apply andb_false_iff in Hf. destruct Hf as [Hf|Hf]; [|apply HI; assumption].
        specialize (LO j J Hf). assert (A := nth_pm1 _ j R1). unfold pm1 in A. destruct A as [A | A]; rewrite A in LO; lia.
Qed.
Lemma unknown_ambiguous n e i : length e = 2 ^ n -> i < 2 ^ n -> unknown n e i = true <-> ambiguous n e i.
Proof. intros L H. rewrite ambiguous_amb. split; [apply unknown_amb|apply amb_unknown]; assumption. Qed.
