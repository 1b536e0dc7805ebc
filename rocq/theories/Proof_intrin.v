(** Lanes of registers, and the intrinsics lane by lane. *)
From Coq Require Import ZifyBool ZifyNat.
From Verif Require Import Cpp Model_simd Model_intrin Model_backend Spec_simd Proof_simd Proof_simd2.
Open Scope Z_scope.
Ltac Zify.zify_post_hook ::= idtac.

Lemma length_lanes w n r : length (lanes w n r) = n.
Proof. revert r. induction n as [|n IH]; intros r; cbn [lanes length]; [reflexivity|]. rewrite IH. reflexivity. Qed.
Lemma lanes_range w n r : 0 <= w -> Forall (uint_range w) (lanes w n r).
Proof.
  intros W. revert r. induction n as [|n IH]; intros r; cbn [lanes]; constructor; [|apply IH].
  apply Z.mod_pos_bound, pow_pos, W.
Qed.
Lemma length_map2_eq {A B C} (f : A -> B -> C) a b : length a = length b -> length (map2 f a b) = length a.
Proof. intros L. rewrite length_map2. lia. Qed.

(** the lanes of a packed list *)
Lemma lanes_pack w l : 0 <= w -> lanes w (length l) (pack w l) = map (to_u w) l.
Proof.
  intros W. pose proof (pow_pos w W) as P. induction l as [|x l IH]; cbn [length lanes pack map]; [reflexivity|].
  pose proof (Z.mod_pos_bound x (2 ^ w) P) as B. f_equal.
  - rewrite Z.mul_comm, Z.mod_add, Z.mod_mod by lia. reflexivity.
  - rewrite Z.mul_comm, Z.div_add, Z.div_small, Z.add_0_l by lia. exact IH.
Qed.
Lemma lanes_pack_n w n l : 0 <= w -> length l = n -> lanes w n (pack w l) = map (to_u w) l.
Proof. intros W <-. apply lanes_pack, W. Qed.
Lemma map_to_u_id w l : Forall (uint_range w) l -> map (to_u w) l = l.
Proof. intros F. induction F as [|x l H F IH]; cbn [map]; [reflexivity|]. rewrite IH. f_equal. apply to_u_id, H. Qed.
Lemma pack_range w l : 0 <= w -> 0 <= pack w l < 2 ^ (w * Z.of_nat (length l)).
Proof.
  intros W. pose proof (pow_pos w W) as P. induction l as [|x l IH]; cbn [pack length].
  - rewrite Z.mul_0_r. cbn. lia.
  - pose proof (Z.mod_pos_bound x (2 ^ w) P) as B.
    replace (w * Z.of_nat (S (length l))) with (w + w * Z.of_nat (length l)) by lia.
    rewrite Z.pow_add_r by lia. nia.
Qed.

(** bitwise operations act on every lane *)
Lemma mod_bits (op : Z -> Z -> Z) (f : bool -> bool -> bool) a b w :
  (forall x y k, 0 <= k -> Z.testbit (op x y) k = f (Z.testbit x k) (Z.testbit y k)) -> f false false = false -> 0 <= w ->
  op a b mod 2 ^ w = op (a mod 2 ^ w) (b mod 2 ^ w).
Proof.
  intros H F W. apply Z.bits_inj'. intros k Hk. rewrite H by exact Hk. destruct (Z.ltb_spec k w).
  - rewrite !Z.mod_pow2_bits_low by lia. apply H, Hk.
  - rewrite !Z.mod_pow2_bits_high by lia. symmetry. exact F.
Qed.
Lemma div_bits (op : Z -> Z -> Z) (f : bool -> bool -> bool) a b w :
  (forall x y k, 0 <= k -> Z.testbit (op x y) k = f (Z.testbit x k) (Z.testbit y k)) -> 0 <= w ->
  op a b / 2 ^ w = op (a / 2 ^ w) (b / 2 ^ w).
Proof.
  intros H W. apply Z.bits_inj'. intros k Hk. rewrite H by exact Hk. rewrite <- !Z.shiftr_div_pow2 by exact W.
  rewrite !Z.shiftr_spec by exact Hk. apply H. lia.
Qed.
Lemma lanes_bits (op : Z -> Z -> Z) (f : bool -> bool -> bool) w n a b :
  (forall x y k, 0 <= k -> Z.testbit (op x y) k = f (Z.testbit x k) (Z.testbit y k)) -> f false false = false -> 0 <= w ->
  lanes w n (op a b) = map2 op (lanes w n a) (lanes w n b).
Proof.
  intros H F W. revert a b. induction n as [|n IH]; intros a b; [reflexivity|]. cbn [lanes].
  rewrite (mod_bits op f) by assumption. rewrite (div_bits op f) by assumption. rewrite IH. reflexivity.
Qed.
Lemma lanes_land w n a b : 0 <= w -> lanes w n (Z.land a b) = map2 Z.land (lanes w n a) (lanes w n b).
Proof. intros W. apply (lanes_bits Z.land andb); [intros; apply Z.land_spec|reflexivity|exact W]. Qed.
Lemma lanes_lor w n a b : 0 <= w -> lanes w n (Z.lor a b) = map2 Z.lor (lanes w n a) (lanes w n b).
Proof. intros W. apply (lanes_bits Z.lor orb); [intros; apply Z.lor_spec|reflexivity|exact W]. Qed.
Lemma lanes_lxor w n a b : 0 <= w -> lanes w n (Z.lxor a b) = map2 Z.lxor (lanes w n a) (lanes w n b).
Proof. intros W. apply (lanes_bits Z.lxor xorb); [intros; apply Z.lxor_spec|reflexivity|exact W]. Qed.
Lemma lanes_ldiff w n a b : 0 <= w -> lanes w n (Z.ldiff a b) = map2 Z.ldiff (lanes w n a) (lanes w n b).
Proof.
  intros W. apply (lanes_bits Z.ldiff (fun x y => x && negb y)); [intros; apply Z.ldiff_spec|reflexivity|exact W].
Qed.
(** they stay in the range of the lane *)
Lemma u_bits w x : 0 <= w -> (forall k, w <= k -> Z.testbit x k = false) -> 0 <= x -> uint_range w x.
Proof.
  intros W H P. split; [exact P|]. destruct (Z.eq_dec x 0) as [->|N]; [apply pow_pos, W|].
  apply Z.log2_lt_pow2; [lia|]. destruct (Z.lt_ge_cases (Z.log2 x) w) as [L|L]; [exact L|].
  specialize (H _ L). rewrite Z.bit_log2 in H by lia. discriminate.
Qed.
Lemma bits_high w x k : uint_range w x -> w <= k -> Z.testbit x k = false.
Proof.
  intros [P L] H. destruct (Z.eq_dec x 0) as [->|N]; [apply Z.bits_0|]. apply Z.bits_above_log2; [lia|].
  assert (Z.log2 x < w) by (apply Z.log2_lt_pow2; lia). lia.
Qed.
Lemma land_range w x y : 0 <= w -> uint_range w x -> uint_range w y -> uint_range w (Z.land x y).
Proof.
  intros W X Y. apply u_bits; [exact W| |apply Z.land_nonneg; left; apply X]. intros k Hk.
  rewrite Z.land_spec, (bits_high w x k X Hk). reflexivity.
Qed.
Lemma lor_range w x y : 0 <= w -> uint_range w x -> uint_range w y -> uint_range w (Z.lor x y).
Proof.
  intros W X Y. apply u_bits; [exact W| |apply Z.lor_nonneg; split; [apply X|apply Y]]. intros k Hk.
  rewrite Z.lor_spec, (bits_high w x k X Hk), (bits_high w y k Y Hk). reflexivity.
Qed.
Lemma lxor_range w x y : 0 <= w -> uint_range w x -> uint_range w y -> uint_range w (Z.lxor x y).
Proof.
  intros W X Y. apply u_bits; [exact W| |apply Z.lxor_nonneg; split; intros; [apply Y|apply X]]. intros k Hk.
  rewrite Z.lxor_spec, (bits_high w x k X Hk), (bits_high w y k Y Hk). reflexivity.
Qed.
Lemma ldiff_range w x y : 0 <= w -> uint_range w x -> uint_range w y -> uint_range w (Z.ldiff x y).
Proof.
  intros W X Y. apply u_bits; [exact W| |apply Z.ldiff_nonneg; left; apply X]. intros k Hk.
  rewrite Z.ldiff_spec, (bits_high w x k X Hk). reflexivity.
Qed.

(** lists of registers *)
Lemma concat_map_map2 {A B} (g : A -> list B) (f : A -> A -> A) (h : B -> B -> B) (a b : list A) :
  (forall x y, g (f x y) = map2 h (g x) (g y)) -> (forall x y, length (g x) = length (g y)) ->
  length a = length b -> concat (map g (map2 f a b)) = map2 h (concat (map g a)) (concat (map g b)).
Proof.
  intros H L. revert b. induction a as [|x a IH]; intros [|y b] E; try discriminate; [reflexivity|].
  unfold map2 in *. cbn [combine map concat fst snd]. rewrite H, IH by (cbn in E; congruence).
  assert (K : forall (p q : list B) p' q', length p = length q ->
     combine (p ++ p') (q ++ q') = combine p q ++ combine p' q').
  { clear. induction p as [|u p IH]; intros [|v q] p' q' E; try discriminate; [reflexivity|]. cbn. rewrite IH by (cbn in E; lia). reflexivity. }
  rewrite K by apply L. rewrite map_app. reflexivity.
Qed.
Lemma lanes_u_2 N w (f : Z -> Z -> Z) (h : Z -> Z -> Z) a b : length a = length b ->
  (forall x y, lanes w (count N w) (f x y) = map2 h (lanes w (count N w) x) (lanes w (count N w) y)) ->
  lanes_u N w (map2 f a b) = map2 h (lanes_u N w a) (lanes_u N w b).
Proof.
  intros L H. unfold lanes_u. apply concat_map_map2; [exact H|intros; rewrite !length_lanes; reflexivity|exact L].
Qed.
Lemma lanes_u_1 N w (f : Z -> Z) (h : Z -> Z) a :
  (forall x, lanes w (count N w) (f x) = map h (lanes w (count N w) x)) ->
  lanes_u N w (map f a) = map h (lanes_u N w a).
Proof.
  intros H. unfold lanes_u. induction a as [|x a IH]; [reflexivity|]. cbn [map concat]. rewrite map_app, H, IH. reflexivity.
Qed.
Lemma length_lanes_u N w a : length (lanes_u N w a) = (length a * count N w)%nat.
Proof.
  unfold lanes_u. induction a as [|x a IH]; [reflexivity|]. cbn [map concat length]. rewrite app_length, length_lanes, IH. lia.
Qed.
Lemma lanes_u_range N w a : 0 <= w -> Forall (uint_range w) (lanes_u N w a).
Proof.
  intros W. unfold lanes_u. induction a as [|x a IH]; cbn [map concat]; [constructor|]. apply Forall_app. split; [|exact IH].
  apply lanes_range, W.
Qed.
Lemma map2_ext_in {A B C} (f g : A -> B -> C) (P : A -> Prop) (Q : B -> Prop) a b : Forall P a -> Forall Q b ->
  (forall x y, P x -> Q y -> f x y = g x y) -> map2 f a b = map2 g a b.
Proof.
  intros Fa Fb H. unfold map2. apply map_ext_in. intros [x y] I. cbn [fst snd].
  pose proof (in_combine_l _ _ _ _ I). pose proof (in_combine_r _ _ _ _ I). rewrite Forall_forall in Fa, Fb. auto.
Qed.
Lemma map_map2 {A B C D} (g : C -> D) (f : A -> B -> C) a b : map g (map2 f a b) = map2 (fun x y => g (f x y)) a b.
Proof. unfold map2. apply map_map. Qed.
Lemma map2_map {A B C D E} (f : C -> D -> E) (g : A -> C) (h : B -> D) a b :
  map2 f (map g a) (map h b) = map2 (fun x y => f (g x) (h y)) a b.
Proof.
  unfold map2. revert b. induction a as [|x a IH]; intros [|y b]; [reflexivity..|]. cbn. rewrite IH. reflexivity.
Qed.
Lemma map3_map2 {A B C D} (f : A -> B -> C -> D) a b c :
  map3 f a b c = map2 (fun p z => f (fst p) (snd p) z) (combine a b) c.
Proof. reflexivity. Qed.
Lemma map2_repeat_r {A B C} (f : A -> B -> C) a y : map2 f a (repeat y (length a)) = map (fun x => f x y) a.
Proof. unfold map2. induction a as [|x a IH]; [reflexivity|]. cbn. rewrite IH. reflexivity. Qed.
Lemma map2_repeat_l {A B C} (f : A -> B -> C) x b : map2 f (repeat x (length b)) b = map (fun y => f x y) b.
Proof. unfold map2. induction b as [|y b IH]; [reflexivity|]. cbn. rewrite IH. reflexivity. Qed.
Lemma map_repeat' {A B} (f : A -> B) x n : map f (repeat x n) = repeat (f x) n.
Proof. induction n as [|n IH]; [reflexivity|]. cbn. rewrite IH. reflexivity. Qed.

(** lane-wise intrinsics *)
Lemma lanes_lw2 N w f a b : 0 <= w ->
  lanes w (count N w) (lanewise_2 N w f a b) =
  map2 (fun x y => to_u w (f x y)) (lanes w (count N w) a) (lanes w (count N w) b).
Proof.
  intros W. unfold lanewise_2. rewrite lanes_pack_n; [apply map_map2|exact W|].
  rewrite length_map2_eq; rewrite ?length_lanes; reflexivity.
Qed.
Lemma lanes_lw1 N w f a : 0 <= w ->
  lanes w (count N w) (lanewise_1 N w f a) = map (fun x => to_u w (f x)) (lanes w (count N w) a).
Proof.
  intros W. unfold lanewise_1. rewrite lanes_pack_n; [apply map_map|exact W|]. rewrite map_length, length_lanes. reflexivity.
Qed.
Lemma lanes_set1 N w a : 0 <= w -> lanes w (count N w) (mm_set1 N w a) = repeat (to_u w a) (count N w).
Proof. intros W. unfold mm_set1. rewrite lanes_pack_n; [apply map_repeat'|exact W|apply repeat_length]. Qed.
Lemma lanes_zero w n : 0 <= w -> lanes w n 0 = repeat 0 n.
Proof.
  intros W. pose proof (pow_pos w W). induction n as [|n IH]; [reflexivity|]. cbn [lanes repeat].
  rewrite Z.mod_0_l, Z.div_0_l by lia. rewrite IH. reflexivity.
Qed.
(** an operation with a constant second / first operand *)
Lemma lanes_lw2_c N w f a c y : 0 <= w -> lanes w (count N w) c = repeat y (count N w) ->
  lanes w (count N w) (lanewise_2 N w f a c) = map (fun x => to_u w (f x y)) (lanes w (count N w) a).
Proof.
  intros W E. rewrite lanes_lw2, E by exact W. rewrite <- (length_lanes w (count N w) a) at 2. apply map2_repeat_r.
Qed.
Lemma lanes_lw2_cl N w f a c x : 0 <= w -> lanes w (count N w) c = repeat x (count N w) ->
  lanes w (count N w) (lanewise_2 N w f c a) = map (fun y => to_u w (f x y)) (lanes w (count N w) a).
Proof.
  intros W E. rewrite lanes_lw2, E by exact W. rewrite <- (length_lanes w (count N w) a) at 1. apply map2_repeat_l.
Qed.

(** signed views *)
Lemma lanes_s_2 N w (f : Z -> Z -> Z) (h g : Z -> Z -> Z) a b : 0 < w -> length a = length b ->
  (forall x y, lanes w (count N w) (f x y) = map2 h (lanes w (count N w) x) (lanes w (count N w) y)) ->
  (forall x y, uint_range w x -> uint_range w y -> to_s w (h x y) = g (to_s w x) (to_s w y)) ->
  lanes_s N w (map2 f a b) = map2 g (lanes_s N w a) (lanes_s N w b).
Proof.
  intros W L H G. unfold lanes_s. rewrite (lanes_u_2 N w f h) by assumption. rewrite map_map2, map2_map.
  apply (map2_ext_in _ _ (uint_range w) (uint_range w)); [apply lanes_u_range; lia..|exact G].
Qed.
Lemma lanes_s_1 N w (f : Z -> Z) (h g : Z -> Z) a : 0 < w ->
  (forall x, lanes w (count N w) (f x) = map h (lanes w (count N w) x)) ->
  (forall x, uint_range w x -> to_s w (h x) = g (to_s w x)) ->
  lanes_s N w (map f a) = map g (lanes_s N w a).
Proof.
  intros W H G. unfold lanes_s. rewrite (lanes_u_1 N w f h) by assumption. rewrite !map_map.
  apply map_ext_in. intros x Hx. apply G. pose proof (lanes_u_range N w a ltac:(lia)) as F.
  rewrite Forall_forall in F. apply F, Hx.
Qed.
(** unsigned result of signed lanes: the comparisons *)
Lemma lanes_su_2 N w (f : Z -> Z -> Z) (h g : Z -> Z -> Z) a b : 0 < w -> length a = length b ->
  (forall x y, lanes w (count N w) (f x y) = map2 h (lanes w (count N w) x) (lanes w (count N w) y)) ->
  (forall x y, uint_range w x -> uint_range w y -> h x y = g (to_s w x) (to_s w y)) ->
  lanes_u N w (map2 f a b) = map2 g (lanes_s N w a) (lanes_s N w b).
Proof.
  intros W L H G. unfold lanes_s. rewrite (lanes_u_2 N w f h) by assumption. rewrite map2_map.
  apply (map2_ext_in _ _ (uint_range w) (uint_range w)); [apply lanes_u_range; lia..|exact G].
Qed.
Lemma lanes_su_1 N w (f : Z -> Z) (h g : Z -> Z) a : 0 < w ->
  (forall x, lanes w (count N w) (f x) = map h (lanes w (count N w) x)) ->
  (forall x, uint_range w x -> h x = g (to_s w x)) ->
  lanes_u N w (map f a) = map g (lanes_s N w a).
Proof.
  intros W H G. unfold lanes_s. rewrite (lanes_u_1 N w f h) by assumption. rewrite !map_map.
  apply map_ext_in. intros x Hx. apply G. pose proof (lanes_u_range N w a ltac:(lia)) as F.
  rewrite Forall_forall in F. apply F, Hx.
Qed.
Lemma lanes_uu_2 N w (f : Z -> Z -> Z) (h g : Z -> Z -> Z) a b : 0 < w -> length a = length b ->
  (forall x y, lanes w (count N w) (f x y) = map2 h (lanes w (count N w) x) (lanes w (count N w) y)) ->
  (forall x y, uint_range w x -> uint_range w y -> h x y = g x y) ->
  lanes_u N w (map2 f a b) = map2 g (lanes_u N w a) (lanes_u N w b).
Proof.
  intros W L H G. rewrite (lanes_u_2 N w f h) by assumption.
  apply (map2_ext_in _ _ (uint_range w) (uint_range w)); [apply lanes_u_range; lia..|exact G].
Qed.
