(** LDPC decoder: one layer of [update] is offset min-sum; [update] never fails. *)
From Coq Require Import ZifyBool Permutation.
From Verif Require Import Cpp Model_simd Model_ldpc Spec_ldpc Lib_list Proof_bits Proof_simd Proof_ldpc1 Proof_ldpc2 Proof_ldpc3 Proof_ldpc4 Proof_ldpc5 Proof_ldpc6.
Open Scope Z_scope.
Ltac Zify.zify_post_hook ::= idtac.

Lemma skipn_nth_cons {A} (xs : list A) k d : (k < length xs)%nat -> skipn k xs = nth k xs d :: skipn (S k) xs.
Proof.
  revert k. induction xs as [|x xs IH]; intros [|k] H; cbn [length] in H; try lia; [reflexivity|].
  cbn [skipn nth]. rewrite (IH k) by lia. reflexivity.
Qed.

(** the two smallest of a list, capped at 127 *)
Definition two_step (s : Z * Z) (a : Z) : Z * Z := (Z.min (fst s) a, Z.min (snd s) (Z.max (fst s) a)).
Definition two_min (l : list Z) : Z * Z := fold_left two_step l (127, 127).
Lemma two_min_snoc l a : two_min (l ++ [a]) = two_step (two_min l) a.
Proof. unfold two_min. rewrite fold_left_app. reflexivity. Qed.
Definition cap_min (l : list Z) : Z := fold_right Z.min 127 l.
Lemma cap_min_app a b : cap_min (a ++ b) = Z.min (cap_min a) (cap_min b).
Proof.
  unfold cap_min. induction a as [|x a IH]; cbn [fold_right Datatypes.app].
  - assert (fold_right Z.min 127 b <= 127) by (induction b; cbn; lia). lia.
  - rewrite IH. lia.
Qed.
Lemma cap_min_le l : cap_min l <= 127.
Proof. unfold cap_min. induction l; cbn; lia. Qed.
Lemma others_snoc {A} (l : list A) a k : (k < length l)%nat -> others (l ++ [a]) k = others l k ++ [a].
Proof.
  intros H. unfold others. rewrite firstn_app, skipn_app.
  replace (k - length l)%nat with 0%nat by lia. replace (S k - length l)%nat with 0%nat by lia.
  cbn [firstn skipn]. rewrite app_nil_r, app_assoc. reflexivity.
Qed.
Lemma others_last {A} (l : list A) a : others (l ++ [a]) (length l) = l.
Proof.
  unfold others. rewrite firstn_app, firstn_all, Nat.sub_diag. cbn [firstn]. rewrite app_nil_r.
  rewrite skipn_all2 by (rewrite app_length; cbn; lia). apply app_nil_r.
Qed.
Lemma two_min_ok l : Forall (fun a => a <= 127) l ->
  fst (two_min l) = cap_min l /\ fst (two_min l) <= snd (two_min l) <= 127 /\
  forall k, (k < length l)%nat -> fst (two_min l) <= nth k l 0 /\
    cap_min (others l k) = if nth k l 0 =? fst (two_min l) then snd (two_min l) else fst (two_min l).
Proof.
  induction l as [|a l IH] using rev_ind; intros F.
  - cbn. split; [reflexivity|]. split; [lia|]. intros k Hk. lia.
  - apply Forall_app in F. destruct F as [F Fa]. apply Forall_cons_iff in Fa. destruct Fa as [Fa _].
    destruct (IH F) as (I1 & I2 & I3). rewrite two_min_snoc. unfold two_step. cbn [fst snd].
    set (m0 := fst (two_min l)) in *. set (m1 := snd (two_min l)) in *. split; [|split].
    + rewrite cap_min_app, <- I1. cbn. lia.
    + lia.
    + intros k Hk. rewrite app_length in Hk. cbn [length] in Hk. destruct (Nat.eq_dec k (length l)) as [->|Hne].
      * rewrite others_last, <- I1. rewrite app_nth2, Nat.sub_diag by lia. cbn [nth]. split; [lia|].
        destruct (Z.eqb_spec a (Z.min m0 a)); lia.
      * rewrite others_snoc by lia. rewrite app_nth1 by lia. destruct (I3 k ltac:(lia)) as (J1 & J2). split; [lia|].
        rewrite cap_min_app, J2. cbn [cap_min fold_right]. set (x := nth k l 0) in *.
        destruct (Z.eqb_spec x m0), (Z.eqb_spec x (Z.min m0 a)); lia.
Qed.
Lemma node_min_map beta xs : node_min beta xs = cap_min (map (magnitude beta) xs).
Proof. unfold node_min, cap_min. induction xs as [|x xs IH]; cbn [map fold_right]; [reflexivity|]. rewrite IH. reflexivity. Qed.
Lemma others_map {A B} (f : A -> B) l k : others (map f l) k = map f (others l k).
Proof. unfold others. rewrite map_app, firstn_map, skipn_map. reflexivity. Qed.
Lemma node_sign_app a b : node_sign (a ++ b) = node_sign a * node_sign b.
Proof. unfold node_sign. induction a as [|x a IH]; cbn [fold_right Datatypes.app]; [lia|]. rewrite IH. lia. Qed.
Lemma positive_sq x : positive x * positive x = 1.
Proof. unfold positive. destruct (x <? 0); reflexivity. Qed.
Lemma node_sign_others xs k : (k < length xs)%nat -> node_sign (others xs k) = node_sign xs * positive (nth k xs 0).
Proof.
  intros H. rewrite <- (firstn_skipn k xs) at 2. rewrite (skipn_nth_cons xs k 0 H).
  unfold others. rewrite !node_sign_app.
  cbn [node_sign fold_right]. pose proof (positive_sq (nth k xs 0)) as Hq.
  fold (node_sign (skipn (S k) xs)).
  transitivity (node_sign (firstn k xs) * node_sign (skipn (S k) xs) * (positive (nth k xs 0) * positive (nth k xs 0))); [|ring].
  rewrite Hq. ring.
Qed.
Lemma magnitude_range beta x : 0 <= beta -> 0 <= magnitude beta x <= 127.
Proof. unfold magnitude. lia. Qed.
Lemma node_sign_pm xs : node_sign xs = 1 \/ node_sign xs = -1.
Proof.
  induction xs as [|x xs IH]; cbn [node_sign fold_right]; [auto|]. fold (node_sign xs). unfold positive.
  destruct (x <? 0), IH as [->| ->]; auto.
Qed.
Lemma cap_min_nonneg l : Forall (fun a => 0 <= a) l -> 0 <= cap_min l.
Proof. unfold cap_min. induction 1; cbn [fold_right]; lia. Qed.

(** lanes of the compound operations *)
Section Lanes.
Variable D : nat.
Lemma nth_vdup n x d : (n < D)%nat -> nth n (vdup D x) d = x.
Proof. intros H. unfold vdup. rewrite nth_indep with (d' := x) by (rewrite repeat_length; exact H). apply nth_repeat. Qed.
Lemma lane_qsub a b n : vec D a -> vec D b -> (n < D)%nat -> nth n (vqsub 8 a b) 0 = sat8 (nth n a 0 - nth n b 0).
Proof.
  intros Va Vb Hn. unfold vqsub. rewrite (nth_map2 _ _ _ _ 0 0) by (destruct Va, Vb; lia).
  apply qsub_s; [apply (vec_nth D)|apply (vec_nth D)]; assumption.
Qed.
Lemma lane_qadd a b n : vec D a -> vec D b -> (n < D)%nat -> nth n (vqadd 8 a b) 0 = sat8 (nth n a 0 + nth n b 0).
Proof.
  intros Va Vb Hn. unfold vqadd. rewrite (nth_map2 _ _ _ _ 0 0) by (destruct Va, Vb; lia).
  apply qadd_s; [apply (vec_nth D)|apply (vec_nth D)]; assumption.
Qed.
Lemma lane_qabs a n : vec D a -> (n < D)%nat -> nth n (vqabs 8 a) 0 = Z.min 127 (Z.abs (nth n a 0)).
Proof.
  intros Va Hn. unfold vqabs. rewrite (nth_map1 _ _ _ 0) by (destruct Va; lia). apply qabs_s. apply (vec_nth D). exact Va.
Qed.
Lemma lane_beta beta a n : vec D a -> (n < D)%nat -> 0 <= nth n a 0 -> 0 <= beta <= 255 ->
  nth n (vsigned 8 (vqsub_u 8 (vunsigned 8 a) (vunsigned 8 (vdup D beta)))) 0 = Z.max 0 (nth n a 0 - beta).
Proof.
  intros Va Hn H0 Hb. pose proof (vec_nth D a n Va) as R. unfold i8 in R. destruct Va as (La & _).
  unfold vsigned, vqsub_u, vunsigned. unfold vdup.
  rewrite (nth_map1 _ _ _ 0) by (rewrite length_map2, !map_length, repeat_length; lia).
  rewrite (nth_map2 _ _ _ _ 0 0) by (rewrite !map_length, ?repeat_length; lia).
  rewrite !(nth_map1 _ _ _ 0) by (rewrite ?repeat_length; lia).
  fold (vdup D beta). rewrite nth_vdup by exact Hn. rewrite to_u_to_u || idtac. apply qsubu_s; lia.
Qed.
Lemma lane_eor a b n : vec D a -> vec D b -> (n < D)%nat -> sg (nth n (ld_eor a b) 0) = sg (nth n a 0) * sg (nth n b 0).
Proof.
  intros Va Vb Hn. rewrite <- eor_sg by (apply (vec_nth D); assumption). destruct Va as (La & _), Vb as (Lb & _).
  unfold ld_eor, vreinterpret_s, veor, vmask. rewrite (nth_map1 _ _ _ 0) by (rewrite length_map2, !map_length; lia).
  rewrite (nth_map2 _ _ _ _ 0 0) by (rewrite !map_length; lia). rewrite !(nth_map1 _ _ _ 0) by lia. reflexivity.
Qed.
Lemma lane_mine a b n : vec D a -> vec D b -> (n < D)%nat ->
  nth n (ld_mine D a b) 0 = if (sg (nth n a 0) * sg (nth n b 0) <? 0) then -1 else 127.
Proof.
  intros Va Vb Hn. rewrite <- lane_eor by assumption. pose proof (vec_eor D a b Va Vb) as Ve.
  unfold ld_mine. set (e := ld_eor a b) in *. pose proof (vec_nth D e n Ve) as Re. destruct Ve as (Le & _).
  unfold ld_orr, vreinterpret_s, vorr, vmask.
  rewrite (nth_map1 _ _ _ 0) by (rewrite length_map2, !map_length; unfold vdup; rewrite repeat_length; lia).
  rewrite (nth_map2 _ _ _ _ 0 0) by (rewrite !map_length; unfold vdup; rewrite ?repeat_length; lia).
  rewrite !(nth_map1 _ _ _ 0) by (unfold vdup; rewrite ?repeat_length; lia). rewrite nth_vdup by exact Hn.
  rewrite or127_s by exact Re. unfold sg. destruct (nth n e 0 <? 0); reflexivity.
Qed.
Lemma lane_other a b c n : vec D a -> vec D b -> vec D c -> (n < D)%nat ->
  nth n (ld_other a b c) 0 = if nth n a 0 =? nth n b 0 then nth n c 0 else nth n b 0.
Proof.
  intros Va Vb Vc Hn. rewrite <- (bsl_s _ (nth n c 0) (nth n b 0)) by (apply (vec_nth D); assumption).
  destruct Va as (La & _), Vb as (Lb & _), Vc as (Lc & _).
  unfold ld_other, vreinterpret_s, vbsl, vceq, vmask.
  rewrite (nth_map1 _ _ _ 0) by (rewrite length_map3, length_map2, !map_length; lia).
  rewrite (nth_map3 _ _ _ _ _ 0 0 0) by (rewrite ?length_map2, ?map_length; lia).
  rewrite (nth_map2 _ _ _ _ 0 0) by lia. rewrite !(nth_map1 _ _ _ 0) by lia. reflexivity.
Qed.
Lemma lane_selfcorr a b n : vec D a -> vec D b -> (n < D)%nat ->
  nth n (ld_selfcorr a b) 0 = self_corrected (nth n a 0) (nth n b 0).
Proof.
  intros Va Vb Hn. pose proof (vec_nth D b n Vb) as Rb. destruct Va as (La & _), Vb as (Lb & _).
  unfold ld_selfcorr, vreinterpret_s, vand, vorr, veor, vceqz, vcgtz, vcltz, vmask.
  rewrite (nth_map1 _ _ _ 0) by (rewrite !length_map2, !map_length; lia).
  rewrite !(nth_map2 _ _ _ _ 0 0) by (rewrite ?length_map2, ?map_length; lia).
  rewrite !(nth_map1 _ _ _ 0) by lia. rewrite selfcorr_s by exact Rb. unfold self_corrected.
  set (x := nth n a 0). set (y := nth n b 0).
  destruct (Z.ltb_spec 0 x), (Z.ltb_spec x 0), (Z.ltb_spec 0 y), (Z.ltb_spec y 0), (Z.ltb_spec (x * y) 0); cbn [andb orb]; nia || reflexivity.
Qed.
Lemma lane_clamp a lo hi n : vec D a -> (n < D)%nat -> nth n (vclamp a lo hi) 0 = Z.min (Z.max (nth n a 0) lo) hi.
Proof. intros (La & _) Hn. unfold vclamp. rewrite (nth_map1 _ _ _ 0) by lia. reflexivity. Qed.
Lemma lane_sign a b n : vec D a -> vec D b -> (n < D)%nat -> nth n (vsign 8 a b) 0 = to_s 8 (Z.sgn (nth n b 0) * nth n a 0).
Proof.
  intros (La & _) (Lb & _) Hn. unfold vsign. rewrite (nth_map2 _ _ _ _ 0 0) by lia. rewrite sgn_b2z. reflexivity.
Qed.
Lemma lane_min a b n : vec D a -> vec D b -> (n < D)%nat -> nth n (vmin a b) 0 = Z.min (nth n a 0) (nth n b 0).
Proof. intros (La & _) (Lb & _) Hn. unfold vmin. rewrite (nth_map2 _ _ _ _ 0 0) by lia. reflexivity. Qed.
Lemma lane_max a b n : vec D a -> vec D b -> (n < D)%nat -> nth n (vmax a b) 0 = Z.max (nth n a 0) (nth n b 0).
Proof. intros (La & _) (Lb & _) Hn. unfold vmax. rewrite (nth_map2 _ _ _ _ 0 0) by lia. reflexivity. Qed.

(** the message computed for link [k] *)
Lemma lane_out beta xs k min0 min1 signs inp mag b n :
  vec D min0 -> vec D min1 -> vec D signs -> vec D inp -> vec D mag -> vec D b -> (n < D)%nat ->
  0 <= beta -> (k < length xs)%nat ->
  (nth n min0 0, nth n min1 0) = two_min (map (magnitude beta) xs) ->
  sg (nth n signs 0) = node_sign xs ->
  nth n inp 0 = nth k xs 0 -> nth n mag 0 = magnitude beta (nth k xs 0) ->
  nth n (ldpc_out D min0 min1 signs inp mag b) 0 = self_corrected (nth n b 0) (node_message beta xs k).
Proof.
  intros V0 V1 Vs Vi Vm Vb Hn Hb Hk Hm Hs Ei Em. unfold ldpc_out.
  pose proof (vec_other D _ _ _ Vm V0 V1) as Vo. pose proof (vec_mine D _ _ Vs Vi) as Vn.
  pose proof (vec_vsign D _ _ Vo Vn) as Vg.
  rewrite lane_selfcorr; [|exact Vb|apply vec_vclamp; [unfold i8; lia|unfold i8; lia|exact Vg]|exact Hn].
  f_equal. rewrite lane_clamp by assumption. rewrite lane_sign by assumption.
  rewrite lane_mine, lane_other by assumption. rewrite Em, Ei, Hs.
  set (ms := map (magnitude beta) xs) in *.
  assert (Forall (fun a => a <= 127) ms) as F.
  { unfold ms. apply Forall_map. apply Forall_forall. intros x _. apply magnitude_range. exact Hb. }
  destruct (two_min_ok ms F) as (T1 & T2 & T3). destruct (T3 k) as (_ & T4); [unfold ms; rewrite map_length; exact Hk|].
  unfold node_message. rewrite node_sign_others by exact Hk. rewrite node_min_map, <- others_map. fold ms.
  replace (nth k ms 0) with (magnitude beta (nth k xs 0)) in T4.
  2: { unfold ms. rewrite (nth_map1 _ _ _ 0) by exact Hk. reflexivity. }
  assert (nth n min0 0 = fst (two_min ms)) as -> by (rewrite <- Hm; reflexivity).
  assert (nth n min1 0 = snd (two_min ms)) as -> by (rewrite <- Hm; reflexivity).
  rewrite <- T4. assert (0 <= cap_min (others ms k) <= 127) as Hc.
  { split; [|apply cap_min_le]. apply cap_min_nonneg. unfold ms. rewrite others_map. apply Forall_map. apply Forall_forall.
    intros x _. apply magnitude_range. exact Hb. }
  unfold positive. fold (sg (nth k xs 0)). set (c := cap_min (others ms k)) in *.
  assert (sg (nth k xs 0) = 1 \/ sg (nth k xs 0) = -1) as Hg by (unfold sg; destruct (_ <? 0); auto).
  destruct (node_sign_pm xs) as [->| ->], Hg as [->| ->];
    match goal with |- context [Z.sgn ?e] => let v := eval vm_compute in (Z.sgn e) in change (Z.sgn e) with v end;
    rewrite to_s8_id by (unfold i8; lia); lia.
Qed.
End Lanes.
