(** Floating point lanes: comparisons of numbers, lanes of the intrinsics. *)
From Coq Require Import ZifyBool Floats.SpecFloat.
From Verif Require Import Cpp Model_simd Model_simd2 Model_intrin Model_backend Model_polar Model_polar_float Model_fsimd Spec_ieee Spec_simd Spec_polar_float
  Lib_float Lib_float2 Proof_simd Proof_simd2 Proof_intrin Proof_backend Proof_ieee.
Open Scope Z_scope.
Ltac Zify.zify_post_hook ::= idtac.

Lemma compare_sym x y : SFcompare y x = match SFcompare x y with Some c => Some (CompOpp c) | None => None end.
Proof.
  destruct x as [sx|sx| |sx mx ex], y as [sy|sy| |sy my ey]; cbn [SFcompare]; try reflexivity; try (destruct sx; reflexivity); try (destruct sy; reflexivity); try (destruct sx, sy; reflexivity).
  destruct sx, sy; try reflexivity; rewrite (Z.compare_antisym ex ey); destruct (ex ?= ey) eqn:E; cbn [CompOpp]; try reflexivity;
    rewrite (Pos.compare_cont_antisym mx my); destruct (Pos.compare_cont Eq mx my) eqn:P; cbn [CompOpp]; reflexivity.
Qed.
Lemma compare_eq x y : SFcompare x y = Some Eq -> x = y \/ is_zero x = true /\ is_zero y = true.
Proof.
  destruct x as [sx|sx| |sx mx ex], y as [sy|sy| |sy my ey]; cbn [SFcompare]; intros H; try discriminate; try (destruct sx; discriminate); try (destruct sy; discriminate); try (destruct sx, sy; discriminate); auto.
  - destruct sx, sy; try discriminate; auto.
  - left. destruct sx, sy; try discriminate; destruct (ex ?= ey) eqn:E; try discriminate; apply Z.compare_eq in E; subst ey;
      (destruct (Pos.compare_cont Eq mx my) eqn:P; try discriminate; change (Pos.compare mx my = Eq) in P; apply Pos.compare_eq in P; subst my; reflexivity).
Qed.
Lemma compare_nan x y : SFcompare x y = None -> is_nan x = true \/ is_nan y = true.
Proof. destruct x as [sx|sx| |sx mx ex], y as [sy|sy| |sy my ey]; cbn [SFcompare is_nan]; auto; try discriminate; try (destruct sx; discriminate); try (destruct sy; discriminate); destruct sx, sy; try discriminate; destruct (ex ?= ey); discriminate. Qed.
(** how two numbers compare *)
Lemma trichotomy x y : is_nan x = false -> is_nan y = false ->
  (SFltb x y = true /\ SFltb y x = false) \/ (SFltb x y = false /\ SFltb y x = true) \/
  (SFltb x y = false /\ SFltb y x = false /\ SFeqb x y = true /\ (x = y \/ is_zero x = true /\ is_zero y = true)).
Proof.
  intros Nx Ny. unfold SFltb, SFeqb. rewrite (compare_sym x y). destruct (SFcompare x y) as [[]|] eqn:E; cbn [CompOpp]; auto.
  - right. right. auto using compare_eq.
  - apply compare_nan in E. destruct E; congruence.
Qed.
Lemma ltb_nan_l y : SFltb S754_nan y = false. Proof. destruct y; reflexivity. Qed.
Lemma ltb_nan_r x : SFltb x S754_nan = false. Proof. destruct x; reflexivity. Qed.
Lemma eqz x : SFeqb x (S754_zero false) = is_zero x.
Proof. destruct x as [[]|[]| |[] m e]; reflexivity. Qed.

(** selecting with a mask of ones *)
Lemma ldiff_ones w c x : 0 <= w -> uint_range w x -> Z.ldiff x (to_u w (ones w c)) = if c then 0 else x.
Proof.
  intros W R. unfold ones. destruct c.
  - unfold to_u. rewrite Z.mod_small by (pose proof (pow_pos w W); lia). apply Z.bits_inj'. intros k Hk. rewrite Z.ldiff_spec, Z.bits_0.
    destruct (Z.lt_ge_cases k w) as [L|L]; [|rewrite (bits_high w x k R L); reflexivity]. replace (2 ^ w - 1) with (Z.ones w) by (rewrite Z.ones_equiv; lia). rewrite Z.ones_spec_low by lia. apply andb_false_r.
  - unfold to_u. rewrite Z.mod_0_l by (pose proof (pow_pos w W); lia). apply Z.ldiff_0_r.
Qed.
Lemma mask_eq w c : 0 <= w -> to_u w (ones w c) = mask_lane w c.
Proof.
  intros W. pose proof (pow_pos w W). unfold mask_lane, ones, to_u. destruct c; cbn [b2z]; [|reflexivity].
  rewrite Z.mod_small by lia. apply (Z.mod_unique _ _ (-1)); lia.
Qed.

Section Lanes.
Variables mw ew : Z.
Hypothesis F : ieee_format mw ew.
Notation w := (ieee_width mw ew).
Notation num := (float_of_bits mw ew).
Notation bits := (bits_of_float mw ew).
Notation prec := (ieee_prec mw).
Notation emax := (ieee_emax ew).
Notation S := (2 ^ (mw + ew)).
(** the numbers in the lanes *)
Definition flanes (N : Z) (m : list Z) : list spec_float := map num (lanes_u N w m).
Lemma w_pos : 0 < w. Proof. destruct F as (A & B & _). unfold ieee_width. lia. Qed.
Lemma flanes_2 N (f h : Z -> Z -> Z) (g : spec_float -> spec_float -> spec_float) a b : length a = length b ->
  (forall x y, lanes w (count N w) (f x y) = map2 h (lanes w (count N w) x) (lanes w (count N w) y)) ->
  (forall x y, uint_range w x -> uint_range w y -> num (h x y) = g (num x) (num y)) ->
  flanes N (map2 f a b) = map2 g (flanes N a) (flanes N b).
Proof.
  intros L H G. pose proof w_pos. unfold flanes. rewrite (lanes_u_2 N w f h) by assumption. rewrite map_map2, map2_map.
  apply (map2_ext_in _ _ (uint_range w) (uint_range w)); [apply lanes_u_range; lia..|exact G].
Qed.
(** the same when the result depends on the bits *)
Lemma flanes_2b N (f h : Z -> Z -> Z) (g : Z -> Z -> spec_float) a b : length a = length b ->
  (forall x y, lanes w (count N w) (f x y) = map2 h (lanes w (count N w) x) (lanes w (count N w) y)) ->
  (forall x y, uint_range w x -> uint_range w y -> num (h x y) = g x y) ->
  flanes N (map2 f a b) = map2 g (lanes_u N w a) (lanes_u N w b).
Proof.
  intros L H G. pose proof w_pos. unfold flanes. rewrite (lanes_u_2 N w f h) by assumption. rewrite map_map2.
  apply (map2_ext_in _ _ (uint_range w) (uint_range w)); [apply lanes_u_range; lia..|exact G].
Qed.
Lemma flanes_1b N (f h : Z -> Z) (g : Z -> spec_float) a :
  (forall x, lanes w (count N w) (f x) = map h (lanes w (count N w) x)) ->
  (forall x, uint_range w x -> num (h x) = g x) -> flanes N (map f a) = map g (lanes_u N w a).
Proof.
  intros H G. pose proof w_pos. unfold flanes. rewrite (lanes_u_1 N w f h) by assumption. rewrite map_map.
  apply map_ext_in. intros x Hx. apply G. pose proof (lanes_u_range N w a ltac:(lia)) as Fr. rewrite Forall_forall in Fr. apply Fr, Hx.
Qed.
Lemma flanes_1 N (f h : Z -> Z) (g : spec_float -> spec_float) a :
  (forall x, lanes w (count N w) (f x) = map h (lanes w (count N w) x)) ->
  (forall x, uint_range w x -> num (h x) = g (num x)) -> flanes N (map f a) = map g (flanes N a).
Proof. intros H G. rewrite (flanes_1b N f h (fun x => g (num x)) a H G). unfold flanes. rewrite map_map. reflexivity. Qed.
(** masks *)
Lemma masks_2 N (f : Z -> Z -> Z) (c : Z -> Z -> bool) (g : spec_float -> spec_float -> bool) a b : length a = length b ->
  (forall x y, lanes w (count N w) (f x y) = map2 (fun x y => to_u w (ones w (c x y))) (lanes w (count N w) x) (lanes w (count N w) y)) ->
  (forall x y, c x y = g (num x) (num y)) -> lanes_u N w (map2 f a b) = map2 (fun x y => mask_lane w (g x y)) (flanes N a) (flanes N b).
Proof.
  intros L H G. pose proof w_pos. rewrite (lanes_u_2 N w f _ a b L H). unfold flanes. rewrite map2_map.
  apply (map2_ext_in _ _ (uint_range w) (uint_range w)); [apply lanes_u_range; lia..|]. intros x y _ _. rewrite mask_eq, G by lia. reflexivity.
Qed.
Lemma masks_1 N (f : Z -> Z) (c : Z -> bool) (g : spec_float -> bool) a :
  (forall x, lanes w (count N w) (f x) = map (fun x => to_u w (ones w (c x))) (lanes w (count N w) x)) ->
  (forall x, c x = g (num x)) -> lanes_u N w (map f a) = map (fun x => mask_lane w (g x)) (flanes N a).
Proof.
  intros H G. pose proof w_pos. rewrite (lanes_u_1 N w f _ a H). unfold flanes. rewrite map_map. apply map_ext. intros x. rewrite mask_eq, G by lia. reflexivity.
Qed.

Lemma set1_lanes N x : uint_range w x -> lanes w (count N w) (mm_set1 N w x) = repeat x (count N w).
Proof. intros R. pose proof w_pos. rewrite lanes_set1, to_u_id by (assumption || lia). reflexivity. Qed.
Lemma map2_const_l (h : Z -> Z -> Z) N c x : map2 h (repeat c (count N w)) (lanes w (count N w) x) = map (h c) (lanes w (count N w) x).
Proof. rewrite <- (length_lanes w (count N w) x) at 1. apply map2_repeat_l. Qed.
Lemma map2_const_r (h : Z -> Z -> Z) N c x : map2 h (lanes w (count N w) x) (repeat c (count N w)) = map (fun y => h y c) (lanes w (count N w) x).
Proof. rewrite <- (length_lanes w (count N w) x) at 2. apply map2_repeat_r. Qed.
Lemma map2_same (h : Z -> Z -> Z) (f g : Z -> Z) l : map2 h (map f l) (map g l) = map (fun x => h (f x) (g x)) l.
Proof. rewrite map2_map. unfold map2. induction l as [|x l IH]; [reflexivity|]. cbn. rewrite IH. reflexivity. Qed.
Lemma map2_l {A B C D} (h : D -> B -> C) (f : A -> D) a b : map2 h (map f a) b = map2 (fun x y => h (f x) y) a b.
Proof. rewrite <- (map_id b) at 1. apply map2_map. Qed.
Lemma map2_r {A B C D} (h : A -> D -> C) (f : B -> D) a b : map2 h a (map f b) = map2 (fun x y => h x (f y)) a b.
Proof. rewrite <- (map_id a) at 1. apply map2_map. Qed.

Lemma S_range : uint_range w S.
Proof. destruct F as (A & B & _). unfold uint_range, ieee_width. rewrite (Z.pow_add_r 2 (mw + ew) 1) by lia. assert (0 < S) by (apply Z.pow_pos_nonneg; lia). lia. Qed.
Lemma one_valid' : valid_binary prec emax (of_int prec emax 1) = true.
Proof. unfold of_int. rewrite of_one by (apply (Hprec mw ew F) || apply (Hemax mw ew F)). apply one_valid; [apply (Hprec mw ew F)|apply (Hemax mw ew F)]. Qed.
Lemma one_bits_ok : num (one_bits mw ew) = of_int prec emax 1 /\ uint_range w (one_bits mw ew).
Proof. apply (bits_ok mw ew F); [apply one_valid'|]. unfold of_int. rewrite of_one by (apply (Hprec mw ew F) || apply (Hemax mw ew F)). discriminate. Qed.

(** lanes of the composite expressions *)
Lemma lanes_eqz N x : lanes w (count N w) (mm_cmpeq_p mw ew N x 0) = map (fun x => to_u w (ones w (is_zero (num x)))) (lanes w (count N w) x).
Proof.
  pose proof w_pos. unfold mm_cmpeq_p. rewrite (lanes_lw2_c N w _ x 0 0) by (try apply lanes_zero; lia). apply map_ext. intros y. rewrite (num_zero mw ew F), eqz. reflexivity.
Qed.
Lemma lanes_signbit N x : lanes w (count N w) (Z.land (mm_set1 N w S) x) = map (Z.land S) (lanes w (count N w) x).
Proof. pose proof w_pos. rewrite lanes_land, set1_lanes by (apply S_range || lia). apply map2_const_l. Qed.
Lemma land_S_range x : uint_range w x -> uint_range w (Z.land S x).
Proof. pose proof w_pos. intros R. apply land_range; [lia|apply S_range|exact R]. Qed.
End Lanes.
