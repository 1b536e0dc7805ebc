(** Lane-wise facts about the SIMD primitives. *)
From Coq Require Import ZifyBool ZifyNat ZifyN.
From Verif Require Import Cpp Model_simd.
Open Scope Z_scope.
Ltac Zify.zify_post_hook ::= idtac.

Lemma length_map2 {A B C} (f : A -> B -> C) a b : length (map2 f a b) = Nat.min (length a) (length b).
Proof. unfold map2. rewrite map_length, combine_length. reflexivity. Qed.
Lemma nth_map2 {A B C} (f : A -> B -> C) a b i da db d : length a = length b -> (i < length a)%nat ->
  nth i (map2 f a b) d = f (nth i a da) (nth i b db).
Proof.
  intros L Hi. unfold map2.
  rewrite (nth_indep _ d (f (fst (da, db)) (snd (da, db)))) by (rewrite map_length, combine_length; lia).
  rewrite (map_nth (fun p => f (fst p) (snd p))). rewrite combine_nth by exact L. reflexivity.
Qed.
Lemma length_map3 {A B C D} (f : A -> B -> C -> D) a b c :
  length (map3 f a b c) = Nat.min (Nat.min (length a) (length b)) (length c).
Proof. unfold map3. rewrite map_length, !combine_length. reflexivity. Qed.
Lemma nth_map3 {A B C D} (f : A -> B -> C -> D) a b c i da db dc d :
  length a = length b -> length a = length c -> (i < length a)%nat ->
  nth i (map3 f a b c) d = f (nth i a da) (nth i b db) (nth i c dc).
Proof.
  intros L L2 Hi. unfold map3.
  rewrite (nth_indep _ d (f (fst (fst ((da, db), dc))) (snd (fst ((da, db), dc))) (snd ((da, db), dc))))
    by (rewrite map_length, !combine_length; lia).
  rewrite (map_nth (fun p => f (fst (fst p)) (snd (fst p)) (snd p))).
  rewrite !combine_nth by (rewrite ?combine_length; lia). reflexivity.
Qed.
Lemma nth_map1 {A B} (f : A -> B) a i da d : (i < length a)%nat -> nth i (map f a) d = f (nth i a da).
Proof. intros H. rewrite (nth_indep _ d (f da)) by (rewrite map_length; exact H). apply map_nth. Qed.

Definition i8 (x : Z) : Prop := -128 <= x <= 127.
Lemma to_s8_range x : i8 (to_s 8 x).
Proof.
  unfold i8, to_s. change (2 ^ (8 - 1)) with 128. change (2 ^ 8) with 256.
  pose proof (Z.mod_pos_bound (x + 128) 256 ltac:(lia)). lia.
Qed.
Lemma to_s8_id x : i8 x -> to_s 8 x = x.
Proof.
  unfold i8, to_s. change (2 ^ (8 - 1)) with 128. change (2 ^ 8) with 256. intros H.
  rewrite Z.mod_small by lia. lia.
Qed.
Lemma to_u8_range x : 0 <= to_u 8 x < 256.
Proof. unfold to_u. change (2 ^ 8) with 256. apply Z.mod_pos_bound. lia. Qed.
Lemma to_u8_id x : 0 <= x < 256 -> to_u 8 x = x.
Proof. intros H. unfold to_u. change (2 ^ 8) with 256. apply Z.mod_small. lia. Qed.

(** a vector of [D] int8_t lanes *)
Definition vec (D : nat) (v : list Z) : Prop := length v = D /\ Forall i8 v.
Lemma vec_map (f : Z -> Z) D a : (forall x, i8 x -> i8 (f x)) -> vec D a -> vec D (map f a).
Proof.
  intros Hf (L & F). split; [rewrite map_length; exact L|]. apply Forall_map. eapply Forall_impl; [|exact F]. exact Hf.
Qed.
Lemma Forall_combine {A B} (P : A -> Prop) (Q : B -> Prop) a b :
  Forall P a -> Forall Q b -> Forall (fun p => P (fst p) /\ Q (snd p)) (combine a b).
Proof.
  intros Ha. revert b. induction Ha as [|x a Hx Ha IH]; intros b Hb; cbn; [constructor|].
  destruct Hb as [|y b Hy Hb]; constructor; auto.
Qed.
Lemma vec_map2 (f : Z -> Z -> Z) D a b : (forall x y, i8 x -> i8 y -> i8 (f x y)) -> vec D a -> vec D b -> vec D (map2 f a b).
Proof.
  intros Hf (La & Fa) (Lb & Fb). split; [rewrite length_map2, La, Lb; lia|]. unfold map2. apply Forall_map.
  eapply Forall_impl; [|apply (Forall_combine i8 i8); eassumption]. intros p [H1 H2]. apply Hf; assumption.
Qed.
Lemma vec_to_s D a : length a = D -> vec D (map (to_s 8) a).
Proof.
  intros L. split; [rewrite map_length; exact L|]. apply Forall_map. apply Forall_forall. intros; apply to_s8_range.
Qed.
Lemma vec_dup D x : i8 x -> vec D (vdup D x).
Proof. intros H. split; [apply repeat_length|]. apply Forall_forall. intros y Hy. apply repeat_spec in Hy. subst; exact H. Qed.
Lemma vec_nth D v n : vec D v -> i8 (nth n v 0).
Proof.
  intros (L & F). destruct (le_lt_dec (length v) n) as [H|H].
  - rewrite nth_overflow by exact H. unfold i8; lia.
  - rewrite Forall_forall in F. apply F, nth_In, H.
Qed.
Lemma vec_upd D v n x : vec D v -> i8 x -> vec D (upd v n x).
Proof.
  intros (L & F) Hx. split; [rewrite length_upd; exact L|]. clear L.
  revert n. induction F as [|y v Hy F IH]; intros [|n]; cbn [upd]; constructor; auto.
Qed.

(** sign of a value as the code computes it *)
Lemma sgn_b2z y : b2z (0 <? y) - b2z (y <? 0) = Z.sgn y.
Proof. unfold b2z. destruct (Z.ltb_spec 0 y), (Z.ltb_spec y 0); lia. Qed.

(** bit facts about 8 bit lanes *)
Definition range8 : list Z := map (fun n => Z.of_nat n) (seq 0 256).
Lemma in_range8 y : 0 <= y < 256 -> In y range8.
Proof. intros H. apply in_map_iff. exists (Z.to_nat y). split; [lia|]. apply in_seq. lia. Qed.
Lemma all8 (f : Z -> bool) : forallb f range8 = true -> forall y, 0 <= y < 256 -> f y = true.
Proof. intros H y Hy. rewrite forallb_forall in H. apply H, in_range8, Hy. Qed.

Lemma or127 y : 0 <= y < 256 -> Z.lor y 127 = if y <? 128 then 127 else 255.
Proof.
  intros H. apply Z.eqb_eq.
  apply (all8 (fun y => Z.lor y 127 =? (if y <? 128 then 127 else 255))); [vm_compute; reflexivity|exact H].
Qed.
Lemma and255 y : 0 <= y < 256 -> Z.land 255 y = y.
Proof. intros H. apply Z.eqb_eq. apply (all8 (fun y => Z.land 255 y =? y)); [vm_compute; reflexivity|exact H]. Qed.
Lemma andn255 y : 0 <= y < 256 -> Z.land (Z.lnot 255) y = 0.
Proof. intros H. apply Z.eqb_eq. apply (all8 (fun y => Z.land (Z.lnot 255) y =? 0)); [vm_compute; reflexivity|exact H]. Qed.

Lemma to_s_to_u x : to_s 8 (to_u 8 x) = to_s 8 x.
Proof.
  unfold to_s, to_u. change (2 ^ (8 - 1)) with 128. change (2 ^ 8) with 256. rewrite Z.add_mod_idemp_l by lia. reflexivity.
Qed.
Lemma to_u_to_u x : to_u 8 (to_u 8 x) = to_u 8 x.
Proof. unfold to_u. apply Z.mod_mod. discriminate. Qed.
Lemma to_u8_neg x : i8 x -> to_u 8 x = if x <? 0 then x + 256 else x.
Proof.
  unfold i8, to_u. change (2 ^ 8) with 256. intros H. destruct (Z.ltb_spec x 0).
  - rewrite <- (Z.mod_add x 1) by lia. apply Z.mod_small. lia.
  - apply Z.mod_small. lia.
Qed.
Lemma to_s8_pos y : 0 <= y < 256 -> to_s 8 y = if y <? 128 then y else y - 256.
Proof.
  intros H. unfold to_s. change (2 ^ (8 - 1)) with 128. change (2 ^ 8) with 256. destruct (Z.ltb_spec y 128).
  - rewrite Z.mod_small by lia. lia.
  - rewrite <- (Z.mod_add _ (-1)) by lia. rewrite Z.mod_small by lia. lia.
Qed.
Lemma bit7 y : 0 <= y < 256 -> Z.testbit y 7 = (128 <=? y).
Proof.
  intros H. apply eqb_prop.
  apply (all8 (fun y => eqb (Z.testbit y 7) (128 <=? y))); [vm_compute; reflexivity|exact H].
Qed.
Lemma lxor8_range x y : 0 <= x < 256 -> 0 <= y < 256 -> 0 <= Z.lxor x y < 256.
Proof.
  intros Hx Hy. split; [apply Z.lxor_nonneg; lia|].
  destruct (Z.eq_dec (Z.lxor x y) 0) as [->|Hne]; [lia|].
  assert (0 <= Z.lxor x y) by (apply Z.lxor_nonneg; lia).
  change 256 with (2 ^ 8). apply Z.log2_lt_pow2; [lia|].
  assert (forall z, 0 <= z < 256 -> Z.log2 z < 8) as Hl.
  { intros z Hz. destruct (Z.eq_dec z 0) as [->|]; [reflexivity|]. apply Z.log2_lt_pow2; [lia|]. exact (proj2 Hz). }
  pose proof (Z.log2_lxor x y ltac:(lia) ltac:(lia)). pose proof (Hl x Hx). pose proof (Hl y Hy). lia.
Qed.

(** +1 for a non-negative, -1 for a negative value *)
Definition sg (x : Z) : Z := if x <? 0 then -1 else 1.
Lemma eor_sg x y : i8 x -> i8 y -> sg (to_s 8 (to_u 8 (Z.lxor (to_u 8 x) (to_u 8 y)))) = sg x * sg y.
Proof.
  intros Hx Hy. pose proof (to_u8_range x) as Rx. pose proof (to_u8_range y) as Ry.
  rewrite to_s_to_u. pose proof (lxor8_range _ _ Rx Ry) as Rz. rewrite to_s8_pos by exact Rz.
  assert (forall z, i8 z -> sg z = if Z.testbit (to_u 8 z) 7 then -1 else 1) as Hs.
  { intros z Hz. rewrite bit7 by apply to_u8_range. rewrite to_u8_neg by exact Hz. unfold sg, i8 in *.
    destruct (Z.ltb_spec z 0); (replace (128 <=? _) with true by lia) || (replace (128 <=? _) with false by lia); reflexivity. }
  assert (sg (if Z.lxor (to_u 8 x) (to_u 8 y) <? 128 then Z.lxor (to_u 8 x) (to_u 8 y) else Z.lxor (to_u 8 x) (to_u 8 y) - 256)
          = if Z.testbit (Z.lxor (to_u 8 x) (to_u 8 y)) 7 then -1 else 1) as ->.
  { rewrite bit7 by exact Rz. revert Rz. generalize (Z.lxor (to_u 8 x) (to_u 8 y)). intros z Rz. unfold sg.
    destruct (Z.ltb_spec z 128), (Z.leb_spec 128 z); try lia.
    - destruct (Z.ltb_spec z 0); lia.
    - destruct (Z.ltb_spec (z - 256) 0); lia. }
  rewrite Z.lxor_spec, (Hs x Hx), (Hs y Hy).
  destruct (Z.testbit (to_u 8 x) 7), (Z.testbit (to_u 8 y) 7); reflexivity.
Qed.
Lemma or127_s x : i8 x -> to_s 8 (to_u 8 (Z.lor (to_u 8 x) (to_u 8 127))) = if x <? 0 then -1 else 127.
Proof.
  intros H. change (to_u 8 127) with 127. rewrite or127 by apply to_u8_range. rewrite (to_u8_neg x) by exact H. unfold i8 in H.
  destruct (Z.ltb_spec x 0).
  - replace (x + 256 <? 128) with false by lia. reflexivity.
  - replace (x <? 128) with true by lia. reflexivity.
Qed.
Lemma bsl_s (m : bool) c b : i8 c -> i8 b ->
  to_s 8 (to_u 8 (Z.lor (Z.land (to_u 8 (- b2z m)) (to_u 8 c)) (Z.land (Z.lnot (to_u 8 (- b2z m))) (to_u 8 b)))) =
  if m then c else b.
Proof.
  intros Hc Hb. destruct m.
  - change (to_u 8 (- b2z true)) with 255. rewrite and255, andn255, Z.lor_0_r by apply to_u8_range.
    rewrite !to_s_to_u. apply to_s8_id. exact Hc.
  - change (to_u 8 (- b2z false)) with 0. rewrite Z.land_0_l, Z.lor_0_l. change (Z.lnot 0) with (-1).
    rewrite Z.land_m1_l. rewrite !to_s_to_u. apply to_s8_id. exact Hb.
Qed.
(** the mask of [selfcorr] *)
Lemma selfcorr_s a b : i8 b ->
  to_s 8 (to_u 8 (Z.land (to_u 8 b) (to_u 8 (Z.lor (to_u 8 (- b2z (a =? 0)))
    (to_u 8 (Z.lxor (to_u 8 (- b2z (0 <? a))) (to_u 8 (- b2z (b <? 0))))))))) =
  if (0 <? a) && (b <? 0) || (a <? 0) && (0 <? b) then 0 else b.
Proof.
  intros Hb. pose proof (to_u8_range b) as Rb.
  assert (Z.land (to_u 8 b) 255 = to_u 8 b) as H255 by (rewrite Z.land_comm; apply and255; exact Rb).
  destruct (Z.eqb_spec a 0) as [->|Ha].
  - cbn [Z.ltb Z.compare andb orb]. destruct (b <? 0); cbn [b2z];
    match goal with |- context [Z.land _ ?m] => let v := eval vm_compute in m in change m with v end;
    rewrite H255, !to_s_to_u; apply to_s8_id; exact Hb.
  - destruct (Z.ltb_spec 0 a), (Z.ltb_spec a 0), (Z.ltb_spec b 0), (Z.ltb_spec 0 b); cbn [andb orb b2z]; try lia;
    match goal with |- context [Z.land _ ?m] => let v := eval vm_compute in m in change m with v end;
    rewrite ?H255, ?Z.land_0_r, ?to_s_to_u; try (apply to_s8_id; exact Hb); try reflexivity.
    assert (b = 0) by lia. subst b. reflexivity.
Qed.

(** saturating arithmetic *)
Definition sat8 (x : Z) : Z := Z.max (-128) (Z.min 127 x).
Lemma qadd_s x y : i8 x -> i8 y ->
  to_s 8 (Z.min (Z.max (to_s (2 * 8) (x + y)) (s_min 8)) (s_max 8)) = sat8 (x + y).
Proof.
  intros Hx Hy. unfold i8, sat8 in *.
  assert (to_s (2 * 8) (x + y) = x + y) as ->.
  { unfold to_s. change (2 ^ (2 * 8 - 1)) with 32768. change (2 ^ (2 * 8)) with 65536. rewrite Z.mod_small by lia. lia. }
  change (s_min 8) with (-128). change (s_max 8) with 127. rewrite to_s8_id by (unfold i8; lia). lia.
Qed.
Lemma qsub_s x y : i8 x -> i8 y ->
  to_s 8 (Z.min (Z.max (to_s (2 * 8) (x - y)) (s_min 8)) (s_max 8)) = sat8 (x - y).
Proof.
  intros Hx Hy. unfold i8, sat8 in *.
  assert (to_s (2 * 8) (x - y) = x - y) as ->.
  { unfold to_s. change (2 ^ (2 * 8 - 1)) with 32768. change (2 ^ (2 * 8)) with 65536. rewrite Z.mod_small by lia. lia. }
  change (s_min 8) with (-128). change (s_max 8) with 127. rewrite to_s8_id by (unfold i8; lia). lia.
Qed.
Lemma qabs_s x : i8 x -> to_s 8 (Z.abs (Z.max x (- s_max 8))) = Z.min 127 (Z.abs x).
Proof. intros Hx. change (- s_max 8) with (-127). unfold i8 in Hx. rewrite to_s8_id by (unfold i8; lia). lia. Qed.
Lemma qsubu_s x y : 0 <= x <= 127 -> 0 <= y <= 255 ->
  to_s 8 (to_u 8 (Z.max (to_s (2 * 8) (to_u 8 x - to_u 8 y)) 0)) = Z.max 0 (x - y).
Proof.
  intros Hx Hy. rewrite (to_u8_id x), (to_u8_id y) by lia.
  assert (to_s (2 * 8) (x - y) = x - y) as ->.
  { unfold to_s. change (2 ^ (2 * 8 - 1)) with 32768. change (2 ^ (2 * 8)) with 65536. rewrite Z.mod_small by lia. lia. }
  rewrite to_s_to_u, to_s8_id by (unfold i8; lia). lia.
Qed.
Lemma sat8_i8 x : i8 (sat8 x).
Proof. unfold i8, sat8. lia. Qed.
