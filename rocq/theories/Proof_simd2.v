(** Lane facts for all lane widths. *)
From Coq Require Import ZifyBool ZifyNat.
From Verif Require Import Cpp Model_simd Model_simd2 Spec_simd Proof_simd.
Open Scope Z_scope.
Ltac Zify.zify_post_hook ::= idtac.

Lemma pow_split w : 0 < w -> 2 ^ w = 2 * 2 ^ (w - 1).
Proof. intros H. replace w with (Z.succ (w - 1)) at 1 by lia. apply Z.pow_succ_r. lia. Qed.
Lemma pow_pos w : 0 <= w -> 0 < 2 ^ w.
Proof. intros. apply Z.pow_pos_nonneg; lia. Qed.

Lemma to_s_wraps w z : 0 < w -> wraps_to w z (to_s w z).
Proof.
  intros H. pose proof (pow_split w H) as S. pose proof (pow_pos (w - 1) ltac:(lia)) as P. unfold to_s.
  split.
  - pose proof (Z.mod_pos_bound (z + 2 ^ (w - 1)) (2 ^ w) ltac:(lia)). unfold int_range. lia.
  - exists ((z + 2 ^ (w - 1)) / 2 ^ w). pose proof (Z.div_mod (z + 2 ^ (w - 1)) (2 ^ w) ltac:(lia)). lia.
Qed.
Lemma to_s_id w z : 0 < w -> int_range w z -> to_s w z = z.
Proof.
  intros H R. pose proof (pow_split w H) as S. pose proof (pow_pos (w - 1) ltac:(lia)) as P. unfold to_s, int_range in *.
  rewrite Z.mod_small by lia. lia.
Qed.
Lemma to_s_range w z : 0 < w -> int_range w (to_s w z).
Proof. intros H. apply to_s_wraps, H. Qed.
Lemma to_u_range w z : 0 <= w -> uint_range w (to_u w z).
Proof. intros H. apply Z.mod_pos_bound. apply pow_pos, H. Qed.
Lemma to_u_id w z : uint_range w z -> to_u w z = z.
Proof. intros H. apply Z.mod_small, H. Qed.
Lemma wraps_unique w z r r' : 0 < w -> wraps_to w z r -> wraps_to w z r' -> r = r'.
Proof.
  intros H (R & k & E) (R' & k' & E'). pose proof (pow_split w H) as S. pose proof (pow_pos (w - 1) ltac:(lia)) as P.
  unfold int_range in *. assert (k = k') by nia. subst. lia.
Qed.
Lemma to_s_to_u_w w z : 0 < w -> to_s w (to_u w z) = to_s w z.
Proof.
  intros H. unfold to_s, to_u. pose proof (pow_pos w ltac:(lia)). rewrite Z.add_mod_idemp_l by lia. reflexivity.
Qed.
Lemma to_u_to_s w z : 0 < w -> to_u w (to_s w z) = to_u w z.
Proof.
  intros H. unfold to_s, to_u. pose proof (pow_pos w ltac:(lia)) as P.
  rewrite Zminus_mod, Z.mod_mod, <- Zminus_mod by lia. f_equal. lia.
Qed.
Lemma to_s_pos w u : 0 < w -> uint_range w u -> to_s w u = if u <? 2 ^ (w - 1) then u else u - 2 ^ w.
Proof.
  intros H R. pose proof (pow_split w H) as S. pose proof (pow_pos (w - 1) ltac:(lia)) as P. unfold uint_range in R.
  unfold to_s. destruct (Z.ltb_spec u (2 ^ (w - 1))).
  - rewrite Z.mod_small by lia. lia.
  - replace (u + 2 ^ (w - 1)) with (u - 2 ^ (w - 1) + 1 * 2 ^ w) by lia. rewrite Z.mod_add, Z.mod_small by lia. lia.
Qed.
Lemma to_u_neg w z : 0 < w -> int_range w z -> to_u w z = if z <? 0 then z + 2 ^ w else z.
Proof.
  intros H R. pose proof (pow_split w H) as S. pose proof (pow_pos (w - 1) ltac:(lia)) as P. unfold int_range in R.
  unfold to_u. destruct (Z.ltb_spec z 0).
  - rewrite <- (Z.mod_add z 1) by lia. rewrite Z.mod_small; lia.
  - apply Z.mod_small. lia.
Qed.

(** lists of lanes *)
Lemma lane1 n f a : length a = n -> lanewise1 n (fun x r => r = f x) a (map f a).
Proof. intros L. split; [rewrite map_length; exact L|]. intros i Hi. apply nth_map1. lia. Qed.
Lemma lane2 n f a b : length a = n -> length b = n -> lanewise2 n (fun x y r => r = f x y) a b (map2 f a b).
Proof. intros L L'. split; [rewrite length_map2; lia|]. intros i Hi. apply nth_map2; lia. Qed.
Lemma lane3 n f a b c : length a = n -> length b = n -> length c = n ->
  lanewise3 n (fun x y z r => r = f x y z) a b c (map3 f a b c).
Proof. intros L L' L2. split; [rewrite length_map3; lia|]. intros i Hi. apply nth_map3; lia. Qed.
Lemma lanewise1_impl n (R R' : Z -> Z -> Prop) P a r : length a = n -> Forall P a ->
  (forall x r, P x -> R x r -> R' x r) -> lanewise1 n R a r -> lanewise1 n R' a r.
Proof.
  intros L F H (Lr & N). split; [exact Lr|]. intros i Hi. apply H, N, Hi. rewrite Forall_forall in F. apply F, nth_In. lia.
Qed.
Lemma lanewise2_impl n (R R' : Z -> Z -> Z -> Prop) P Q a b r : length a = n -> length b = n -> Forall P a -> Forall Q b ->
  (forall x y r, P x -> Q y -> R x y r -> R' x y r) -> lanewise2 n R a b r -> lanewise2 n R' a b r.
Proof.
  intros L Lb F Fb H (Lr & N). split; [exact Lr|]. intros i Hi. rewrite Forall_forall in F, Fb.
  apply H, N, Hi; [apply F|apply Fb]; apply nth_In; lia.
Qed.
Lemma lanewise3_impl n (R R' : Z -> Z -> Z -> Z -> Prop) P Q T a b c r :
  length a = n -> length b = n -> length c = n -> Forall P a -> Forall Q b -> Forall T c ->
  (forall x y z r, P x -> Q y -> T z -> R x y z r -> R' x y z r) -> lanewise3 n R a b c r -> lanewise3 n R' a b c r.
Proof.
  intros L Lb Lc F Fb Fc H (Lr & N). split; [exact Lr|]. intros i Hi. rewrite Forall_forall in F, Fb, Fc.
  apply H, N, Hi; [apply F|apply Fb|apply Fc]; apply nth_In; lia.
Qed.

(** checked arithmetic *)
Lemma fits_iff w z : fits w z = true <-> int_range w z.
Proof. unfold fits, s_min, s_max, int_range. lia. Qed.
Lemma arith_ok w z : int_range (Z.max 32 w) z -> arith w z = Ok (to_s w z).
Proof. intros H. unfold arith. apply fits_iff in H. rewrite H. reflexivity. Qed.
Lemma map_res_ok (f : Z -> res Z) (g : Z -> Z) a : Forall (fun x => f x = Ok (g x)) a -> map_res f a = Ok (map g a).
Proof. intros F. induction F as [|x a E F IH]; cbn [map_res map]; [reflexivity|]. rewrite E. cbn [bind]. rewrite IH. reflexivity. Qed.
Lemma map2_res_ok (f : Z -> Z -> res Z) (g : Z -> Z -> Z) a b :
  Forall (fun p => f (fst p) (snd p) = Ok (g (fst p) (snd p))) (combine a b) -> map2_res f a b = Ok (map2 g a b).
Proof.
  revert b. induction a as [|x a IH]; intros b F; [reflexivity|]. destruct b as [|y b]; [reflexivity|].
  cbn [combine] in F. inversion F as [|? ? E F']. cbn [fst snd] in E. cbn [map2_res]. rewrite E. cbn [bind].
  unfold map2_res in IH. rewrite IH by exact F'. reflexivity.
Qed.
Lemma map_res_inv (f : Z -> res Z) a v : map_res f a = Ok v ->
  length v = length a /\ forall i, (i < length a)%nat -> f (nth i a 0) = Ok (nth i v 0).
Proof.
  revert v. induction a as [|x a IH]; intros v E; cbn [map_res] in E.
  - inversion E. split; [reflexivity|]. cbn. intros; lia.
  - apply bind_Ok_inv in E. destruct E as (y & E1 & E2). apply bind_Ok_inv in E2. destruct E2 as (r & E2 & E3).
    inversion E3. subst v. destruct (IH r E2) as (L & N). split; [cbn; lia|]. intros [|i] Hi; cbn [nth]; [exact E1|].
    apply N. cbn in Hi. lia.
Qed.
Lemma map2_res_inv (f : Z -> Z -> res Z) a b v : length a = length b -> map2_res f a b = Ok v ->
  length v = length a /\ forall i, (i < length a)%nat -> f (nth i a 0) (nth i b 0) = Ok (nth i v 0).
Proof.
  revert b v. induction a as [|x a IH]; intros [|y b] v L E; try discriminate.
  - inversion E. split; [reflexivity|]. cbn. intros; lia.
  - cbn [map2_res] in E. apply bind_Ok_inv in E. destruct E as (z & E1 & E2). apply bind_Ok_inv in E2.
    destruct E2 as (r & E2 & E3). inversion E3. subst v. destruct (IH b r ltac:(cbn in L; lia) E2) as (Lr & N).
    split; [cbn; lia|]. intros [|i] Hi; cbn [nth]; [exact E1|]. apply N. cbn in Hi. lia.
Qed.
Lemma arith_inv w z r : arith w z = Ok r -> int_range (Z.max 32 w) z /\ r = to_s w z.
Proof. unfold arith. destruct (fits _ _) eqn:F; [|discriminate]. intros H. inversion H. apply fits_iff in F. auto. Qed.
(** the only outcomes are a value and undefined behaviour *)
Lemma map_res_or (f : Z -> res Z) a : (forall x, (exists r, f x = Ok r) \/ f x = Undef) ->
  (exists v, map_res f a = Ok v) \/ map_res f a = Undef.
Proof.
  intros H. induction a as [|x a IH]; cbn [map_res]; [left; eauto|].
  destruct (H x) as [(r & ->)| ->]; cbn [bind]; [|right; reflexivity].
  destruct IH as [(v & ->)| ->]; cbn [bind]; [left; eauto|right; reflexivity].
Qed.
Lemma map2_res_or (f : Z -> Z -> res Z) a b : (forall x y, (exists r, f x y = Ok r) \/ f x y = Undef) ->
  (exists v, map2_res f a b = Ok v) \/ map2_res f a b = Undef.
Proof.
  intros H. revert b. induction a as [|x a IH]; intros [|y b]; cbn [map2_res]; try (left; eauto; fail).
  destruct (H x y) as [(r & ->)| ->]; cbn [bind]; [|right; reflexivity].
  destruct (IH b) as [(v & E)|E]; unfold map2_res in E; rewrite E; cbn [bind]; [left; eauto|right; reflexivity].
Qed.
Lemma arith_or w z : (exists r, arith w z = Ok r) \/ arith w z = Undef.
Proof. unfold arith. destruct (fits _ _); eauto. Qed.

(** an operation computed exactly when every lane fits, undefined otherwise *)
Lemma exact1 w n (f : Z -> Z) a : 32 <= w -> length a = n ->
  let r := map_res (fun x => arith w (f x)) a in
  ((forall i, (i < n)%nat -> int_range w (f (nth i a 0))) -> exists v, r = Ok v /\ lanewise1 n (fun x z => z = f x) a v) /\
  (~ (forall i, (i < n)%nat -> int_range w (f (nth i a 0))) -> r = Undef).
Proof.
  intros W L r. assert (M : Z.max 32 w = w) by lia. split.
  - intros H. exists (map f a). split.
    + apply map_res_ok. apply Forall_forall. intros x Hx. destruct (In_nth a x 0 Hx) as (i & Hi & E). subst x.
      specialize (H i ltac:(lia)). rewrite arith_ok by (rewrite M; exact H). f_equal. apply to_s_id; [lia|exact H].
    + apply lane1, L.
  - intros H. destruct (map_res_or (fun x => arith w (f x)) a) as [(v & E)|E]; [intros; apply arith_or| |exact E].
    exfalso. apply H. intros i Hi. apply map_res_inv in E. destruct E as (_ & E). specialize (E i ltac:(lia)).
    apply arith_inv in E. rewrite M in E. apply E.
Qed.
Lemma exact2 w n (f : Z -> Z -> Z) a b : 32 <= w -> length a = n -> length b = n ->
  let r := map2_res (fun x y => arith w (f x y)) a b in
  ((forall i, (i < n)%nat -> int_range w (f (nth i a 0) (nth i b 0))) ->
     exists v, r = Ok v /\ lanewise2 n (fun x y z => z = f x y) a b v) /\
  (~ (forall i, (i < n)%nat -> int_range w (f (nth i a 0) (nth i b 0))) -> r = Undef).
Proof.
  intros W L Lb r. assert (M : Z.max 32 w = w) by lia. split.
  - intros H. exists (map2 f a b). split.
    + apply map2_res_ok. apply Forall_forall. intros [x y] Hx. destruct (In_nth _ _ (0, 0) Hx) as (i & Hi & E).
      rewrite combine_length in Hi. rewrite combine_nth in E by lia. inversion E. cbn [fst snd].
      specialize (H i ltac:(lia)). rewrite arith_ok by (rewrite M; exact H). f_equal. apply to_s_id; [lia|exact H].
    + apply lane2; assumption.
  - intros H. destruct (map2_res_or (fun x y => arith w (f x y)) a b) as [(v & E)|E]; [intros; apply arith_or| |exact E].
    exfalso. apply H. intros i Hi. apply map2_res_inv in E; [|lia]. destruct E as (_ & E). specialize (E i ltac:(lia)).
    apply arith_inv in E. rewrite M in E. apply E.
Qed.
Lemma narrow1 w n (f : Z -> Z) a : 0 < w <= 32 -> svec w n a -> (forall x, int_range w x -> int_range 32 (f x)) ->
  map_res (fun x => arith w (f x)) a = Ok (map (fun x => to_s w (f x)) a).
Proof.
  intros W (L & F) H. apply map_res_ok. eapply Forall_impl; [|exact F]. intros x Hx. cbv beta. apply arith_ok.
  rewrite Z.max_l by lia. apply H, Hx.
Qed.
Lemma narrow2 w n (f : Z -> Z -> Z) a b : 0 < w <= 32 -> svec w n a -> svec w n b ->
  (forall x y, int_range w x -> int_range w y -> int_range 32 (f x y)) ->
  map2_res (fun x y => arith w (f x y)) a b = Ok (map2 (fun x y => to_s w (f x y)) a b).
Proof.
  intros W (L & F) (Lb & Fb) H. apply (map2_res_ok (fun x y => arith w (f x y)) (fun x y => to_s w (f x y))).
  eapply Forall_impl; [|apply Forall_combine; [exact F|exact Fb]]. intros [x y] [Hx Hy]. cbv beta. apply arith_ok.
  rewrite Z.max_l by lia. apply H; assumption.
Qed.
