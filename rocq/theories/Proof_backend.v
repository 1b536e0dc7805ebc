(** Lane-level agreement of the back ends with the portable code. *)
From Coq Require Import ZifyBool ZifyNat.
From Verif Require Import Cpp Model_simd Model_simd2 Model_intrin Model_backend Spec_simd Proof_simd Proof_simd2 Proof_intrin.
Open Scope Z_scope.
Ltac Zify.zify_post_hook ::= idtac.

Lemma to_s_cong w z z' : 0 < w -> to_u w z = to_u w z' -> to_s w z = to_s w z'.
Proof. intros W E. rewrite <- (to_s_to_u_w w z W), E. apply to_s_to_u_w, W. Qed.
Lemma to_u_add w x y : 0 < w -> to_u w (to_s w x + to_s w y) = to_u w (x + y).
Proof.
  intros W. pose proof (pow_pos w ltac:(lia)). unfold to_u. rewrite Zplus_mod. fold (to_u w (to_s w x)) (to_u w (to_s w y)).
  rewrite !to_u_to_s by exact W. unfold to_u. symmetry. apply Zplus_mod.
Qed.
Lemma to_u_sub w x y : 0 < w -> to_u w (to_s w x - to_s w y) = to_u w (x - y).
Proof.
  intros W. pose proof (pow_pos w ltac:(lia)). unfold to_u. rewrite Zminus_mod. fold (to_u w (to_s w x)) (to_u w (to_s w y)).
  rewrite !to_u_to_s by exact W. unfold to_u. symmetry. apply Zminus_mod.
Qed.
Lemma to_u_mul w x y : 0 < w -> to_u w (to_s w x * to_s w y) = to_u w (x * y).
Proof.
  intros W. pose proof (pow_pos w ltac:(lia)). unfold to_u. rewrite Zmult_mod. fold (to_u w (to_s w x)) (to_u w (to_s w y)).
  rewrite !to_u_to_s by exact W. unfold to_u. symmetry. apply Zmult_mod.
Qed.
Lemma to_u_opp w x : 0 < w -> to_u w (- to_s w x) = to_u w (- x).
Proof.
  intros W. pose proof (to_u_sub w 0 x W) as E. rewrite (to_s_id w 0) in E; [|exact W|].
  - exact E.
  - pose proof (pow_pos (w - 1) ltac:(lia)). unfold int_range. lia.
Qed.
Lemma to_s_u_zero w x : 0 < w -> uint_range w x -> (to_s w x =? 0) = (x =? 0).
Proof.
  intros W R. pose proof (pow_split w W). pose proof (pow_pos (w - 1) ltac:(lia)). rewrite to_s_pos by assumption.
  unfold uint_range in R. destruct (Z.ltb_spec x (2 ^ (w - 1))); lia.
Qed.
Lemma to_s_u_eq w x y : 0 < w -> uint_range w x -> uint_range w y -> (to_s w x =? to_s w y) = (x =? y).
Proof.
  intros W R R'. pose proof (pow_split w W). pose proof (pow_pos (w - 1) ltac:(lia)). rewrite !to_s_pos by assumption.
  unfold uint_range in *. destruct (Z.ltb_spec x (2 ^ (w - 1))), (Z.ltb_spec y (2 ^ (w - 1))); lia.
Qed.
Lemma zero_range w : 0 < w -> uint_range w 0 /\ int_range w 0.
Proof. intros W. pose proof (pow_pos w ltac:(lia)). pose proof (pow_pos (w - 1) ltac:(lia)). unfold uint_range, int_range. lia. Qed.
Lemma to_s_0 w : 0 < w -> to_s w 0 = 0.
Proof. intros W. apply to_s_id; [exact W|apply zero_range, W]. Qed.
Lemma ones_mask w b : 0 < w -> ones w b = to_u w (- b2z b).
Proof.
  intros W. pose proof (pow_pos w ltac:(lia)). unfold ones, to_u, b2z. destruct b.
  - rewrite <- (Z.mod_add (- (1)) 1) by lia. rewrite Z.mod_small; lia.
  - rewrite Z.mod_0_l by lia. reflexivity.
Qed.
Lemma ones_range w b : 0 < w -> uint_range w (ones w b).
Proof. intros W. rewrite ones_mask by exact W. apply to_u_range. lia. Qed.
Lemma to_u_ones w b : 0 < w -> to_u w (ones w b) = to_u w (- b2z b).
Proof. intros W. rewrite to_u_id by (apply ones_range, W). apply ones_mask, W. Qed.

(** saturation *)
Lemma sat_eq w z : w = 8 \/ w = 16 -> int_range (2 * w) z ->
  SignedSat w z = Z.min (Z.max (to_s (2 * w) z) (s_min w)) (s_max w).
Proof.
  intros W R. rewrite (to_s_id (2 * w)) by (lia || exact R). unfold SignedSat.
  assert (s_min w <= s_max w) by (destruct W as [-> | ->]; vm_compute; congruence).
  destruct (Z.ltb_spec z (s_min w)); [lia|]. destruct (Z.ltb_spec (s_max w) z); lia.
Qed.
Lemma wide_range w x y : w = 8 \/ w = 16 -> uint_range w x -> uint_range w y ->
  int_range (2 * w) (to_s w x + to_s w y) /\ int_range (2 * w) (to_s w x - to_s w y) /\ int_range (2 * w) (x - y).
Proof.
  intros W X Y. pose proof (to_s_range w x ltac:(lia)) as A. pose proof (to_s_range w y ltac:(lia)) as B.
  unfold int_range, uint_range in *. destruct W as [-> | ->].
  - change (2 ^ (8 - 1)) with 128 in *. change (2 ^ (2 * 8 - 1)) with 32768. change (2 ^ 8) with 256 in *. lia.
  - change (2 ^ (16 - 1)) with 32768 in *. change (2 ^ (2 * 16 - 1)) with 2147483648. change (2 ^ 16) with 65536 in *. lia.
Qed.
Lemma usat_eq w x y : w = 8 \/ w = 16 -> uint_range w x -> uint_range w y ->
  to_u w (UnsignedSat w (x - y)) = to_u w (Z.max (to_s (2 * w) (x - y)) 0).
Proof.
  intros W X Y. destruct (wide_range w x y W X Y) as (_ & _ & R). rewrite (to_s_id (2 * w)) by (lia || exact R).
  unfold UnsignedSat, uint_range in *. f_equal. destruct (Z.ltb_spec (x - y) 0); [lia|].
  destruct (Z.ltb_spec (2 ^ w - 1) (x - y)); lia.
Qed.

(** the result of checked arithmetic when it is defined *)
Lemma map2_res_arith w (f : Z -> Z -> Z) a b v : length a = length b ->
  map2_res (fun x y => arith w (f x y)) a b = Ok v -> v = map2 (fun x y => to_s w (f x y)) a b.
Proof.
  intros L E. apply map2_res_inv in E; [|exact L]. destruct E as (Lv & N). apply list_ext with (d := 0).
  - rewrite length_map2. lia.
  - intros i Hi. specialize (N i ltac:(lia)). apply arith_inv in N. rewrite (nth_map2 _ _ _ i 0 0) by lia. apply N.
Qed.
Lemma map_res_arith w (f : Z -> Z) a v : map_res (fun x => arith w (f x)) a = Ok v -> v = map (fun x => to_s w (f x)) a.
Proof.
  intros E. apply map_res_inv in E. destruct E as (Lv & N). apply list_ext with (d := 0).
  - rewrite map_length. exact Lv.
  - intros i Hi. specialize (N i ltac:(lia)). apply arith_inv in N. rewrite (nth_map1 _ _ i 0) by lia. apply N.
Qed.
Lemma length_lanes_s N w a : length (lanes_s N w a) = (length a * count N w)%nat.
Proof. unfold lanes_s. rewrite map_length. apply length_lanes_u. Qed.
Lemma lanes_s_len N w a b : length a = length b -> length (lanes_s N w a) = length (lanes_s N w b).
Proof. intros L. rewrite !length_lanes_s, L. reflexivity. Qed.

(** three operand selection is two operand operations *)
Lemma map3_split {A} (g h k : A -> A -> A) (a b c : list A) : length a = length b -> length a = length c ->
  map3 (fun a b c => g (h a b) (k a c)) a b c = map2 g (map2 h a b) (map2 k a c).
Proof.
  unfold map3, map2. revert b c. induction a as [|x a IH]; intros [|y b] [|z c] L L'; try discriminate; [reflexivity|].
  cbn. rewrite IH by (cbn in L, L'; lia). reflexivity.
Qed.
Lemma u_lor w x y : 0 <= w -> uint_range w x -> uint_range w y -> Z.lor x y = to_u w (Z.lor x y).
Proof. intros W X Y. symmetry. apply to_u_id, lor_range; assumption. Qed.
Lemma u_land w x y : 0 <= w -> uint_range w x -> uint_range w y -> Z.land x y = to_u w (Z.land x y).
Proof. intros W X Y. symmetry. apply to_u_id, land_range; assumption. Qed.
Lemma u_lxor w x y : 0 <= w -> uint_range w x -> uint_range w y -> Z.lxor x y = to_u w (Z.lxor x y).
Proof. intros W X Y. symmetry. apply to_u_id, lxor_range; assumption. Qed.
Lemma u_ldiff w x y : 0 <= w -> uint_range w x -> uint_range w y -> Z.ldiff x y = to_u w (Z.land x (Z.lnot y)).
Proof. intros W X Y. rewrite <- Z.ldiff_land. symmetry. apply to_u_id, ldiff_range; assumption. Qed.
Lemma bitwise_lanes N w (a b c : list Z) : 0 < w -> length a = length b -> length a = length c ->
  lanes_u N w (map2 Z.lor a b) = vorr w (lanes_u N w a) (lanes_u N w b) /\
  lanes_u N w (map2 Z.land a b) = vand w (lanes_u N w a) (lanes_u N w b) /\
  lanes_u N w (map2 Z.lxor a b) = veor w (lanes_u N w a) (lanes_u N w b) /\
  lanes_u N w (map2 Z.ldiff a b) = vbic w (lanes_u N w a) (lanes_u N w b) /\
  lanes_u N w (map3 (fun a b c => Z.lor (Z.land a b) (Z.ldiff c a)) a b c) =
    vbsl w (lanes_u N w a) (lanes_u N w b) (lanes_u N w c).
Proof.
  intros W L L'. assert (W' : 0 <= w) by lia. split; [|split; [|split; [|split]]].
  - apply (lanes_uu_2 N w Z.lor Z.lor); auto using lanes_lor, u_lor.
  - apply (lanes_uu_2 N w Z.land Z.land); auto using lanes_land, u_land.
  - apply (lanes_uu_2 N w Z.lxor Z.lxor); auto using lanes_lxor, u_lxor.
  - apply (lanes_uu_2 N w Z.ldiff Z.ldiff); auto using lanes_ldiff, u_ldiff.
  - rewrite (map3_split Z.lor Z.land (fun x z => Z.ldiff z x)) by assumption.
    assert (Lx : length (map2 Z.land a b) = length (map2 (fun x z => Z.ldiff z x) a c)) by (rewrite !length_map2; lia).
    rewrite (lanes_u_2 N w Z.lor Z.lor) by (auto using lanes_lor).
    rewrite (lanes_u_2 N w Z.land Z.land) by (auto using lanes_land).
    rewrite (lanes_u_2 N w (fun x z => Z.ldiff z x) (fun x z => Z.ldiff z x)).
    2: exact L'.
    2: { intros x y. rewrite lanes_ldiff by exact W'. unfold map2. set (p := lanes _ _ x). set (q := lanes _ _ y).
         clearbody p q. revert q. induction p as [|u p IH]; intros [|v q]; [reflexivity..|]. cbn. rewrite IH. reflexivity. }
    rewrite <- map3_split by (rewrite !length_lanes_u; lia). unfold vbsl, map3. apply map_ext_in.
    intros [[x y] z] I. cbn [fst snd].
    pose proof (in_combine_l _ _ _ _ I) as I1. pose proof (in_combine_r _ _ _ _ I) as Iz.
    pose proof (in_combine_l _ _ _ _ I1) as Ix. pose proof (in_combine_r _ _ _ _ I1) as Iy.
    assert (X : uint_range w x) by (pose proof (lanes_u_range N w a W') as F; rewrite Forall_forall in F; auto).
    assert (Y : uint_range w y) by (pose proof (lanes_u_range N w b W') as F; rewrite Forall_forall in F; auto).
    assert (Zz : uint_range w z) by (pose proof (lanes_u_range N w c W') as F; rewrite Forall_forall in F; auto).
    symmetry. rewrite (Z.land_comm (Z.lnot x) z), <- Z.ldiff_land. apply to_u_id.
    apply lor_range; [exact W'|apply land_range; assumption|apply ldiff_range; assumption].
Qed.
