(** LDPC decoder: rotation, shapes of the vectors computed in a layer, memory layout. *)
From Coq Require Import ZifyBool ZifyNat ZifyN Permutation.
From Verif Require Import Cpp Model_simd Model_ldpc Spec_ldpc Lib_list Proof_bits Proof_simd Proof_ldpc1 Proof_ldpc2 Proof_ldpc3.
Open Scope nat_scope.
Ltac Zify.zify_post_hook ::= idtac.

Lemma all_init_ok {A} (a : list (option A)) (f : nat -> A) :
  (forall n, n < length a -> nth n a None = Some (f n)) -> all_init a = Ok (map f (seq 0 (length a))).
Proof.
  revert f. induction a as [|x a IH]; intros f H; [reflexivity|].
  pose proof (H 0 ltac:(cbn; lia)) as H0. cbn [nth] in H0. subst x. cbn [all_init].
  rewrite (IH (fun n => f (S n))) by (intros n Hn; apply (H (S n)); cbn; lia). cbn [bind length seq map].
  rewrite <- seq_shift, map_map. reflexivity.
Qed.

(** lane [n] of a vector rotated by [s] places *)
Definition rot_idx (D : nat) (s : Z) (n : nat) : nat := Z.to_nat ((Z.of_nat n - s) mod Z.of_nat D).
Lemma rotate_ok D a s : length a = D -> 0 < D -> (- Z.of_nat D <= s < Z.of_nat D)%Z ->
  rotate D a s = Ok (map (fun n => nth (rot_idx D s n) a 0%Z) (seq 0 D)).
Proof.
  intros La HD Hs. unfold rotate.
  set (s' := (if s <? 0 then s + Z.of_nat D else s)%Z).
  assert (0 <= s' < Z.of_nat D)%Z as Hs' by (unfold s'; destruct (Z.ltb_spec s 0); lia).
  assert (forall n, n < D -> rot_idx D s n = if n <? Z.to_nat s' then n + (D - Z.to_nat s') else n - Z.to_nat s') as Hidx.
  { intros n Hn. unfold rot_idx.
    assert ((Z.of_nat n - s) mod Z.of_nat D = (Z.of_nat n - s') mod Z.of_nat D)%Z as ->.
    { unfold s'. destruct (s <? 0)%Z; [|reflexivity].
      replace (Z.of_nat n - (s + Z.of_nat D))%Z with (Z.of_nat n - s + (-1) * Z.of_nat D)%Z by lia.
      rewrite Z.mod_add by lia. reflexivity. }
    destruct (Nat.ltb_spec n (Z.to_nat s')).
    - rewrite <- (Z.mod_add _ 1) by lia. rewrite Z.mod_small by lia. lia.
    - rewrite Z.mod_small by lia. lia. }
  replace (0 <=? s')%Z with true by lia. cbn [require bind].
  edestruct (for_up_inv (fun k ret => length ret = D /\ forall n, n < k -> nth n ret None = Some (nth (rot_idx D s n) a 0%Z)))
    as (ret & E & Lr & Hr).
  4: { rewrite E. cbn [bind].
       edestruct (for_up_inv (fun k ret => length ret = D /\
           forall n, n < Z.to_nat s' + k -> nth n ret None = Some (nth (rot_idx D s n) a 0%Z))) as (ret' & E' & Lr' & Hr').
       4: { rewrite E'. cbn [bind]. rewrite (all_init_ok _ (fun n => nth (rot_idx D s n) a 0%Z)); [rewrite Lr'; reflexivity|].
            intros n Hn. apply Hr'. lia. }
       - lia.
       - cbv beta. intros n r Hn (L & H). rewrite (rd_nth _ _ 0%Z) by lia. cbn [bind]. unfold wru. rewrite wr_Ok by lia.
         eexists. split; [reflexivity|]. rewrite length_upd. split; [exact L|]. intros m Hm.
         destruct (Nat.eq_dec m (n + Z.to_nat s')) as [->|Hne].
         + rewrite nth_upd_eq by lia. rewrite Hidx by lia. replace (n + Z.to_nat s' <? Z.to_nat s') with false by lia.
           do 2 f_equal. lia.
         + rewrite nth_upd_neq by lia. apply H. lia.
       - split; [exact Lr|]. intros n Hn. apply Hr. lia. }
  - lia.
  - cbv beta. intros n r Hn (L & H). rewrite (rdZ_nth _ _ 0%Z) by lia. cbn [bind]. unfold wru. rewrite wr_Ok by lia.
    eexists. split; [reflexivity|]. rewrite length_upd. split; [exact L|]. intros m Hm.
    destruct (Nat.eq_dec m n) as [->|Hne].
    + rewrite nth_upd_eq by lia. rewrite Hidx by lia. replace (n <? Z.to_nat s') with true by lia. do 2 f_equal. lia.
    + rewrite nth_upd_neq by lia. apply H. lia.
  - split; [unfold uninit; apply repeat_length|]. intros n Hn. lia.
Qed.
Lemma rotate_vec D a s : vec D a -> 0 < D -> (- Z.of_nat D <= s < Z.of_nat D)%Z ->
  exists v, rotate D a s = Ok v /\ vec D v /\ forall n, n < D -> nth n v 0%Z = nth (rot_idx D s n) a 0%Z.
Proof.
  intros V HD Hs. pose proof V as (La & _). rewrite rotate_ok by assumption. eexists. split; [reflexivity|]. split.
  - split; [rewrite map_length, seq_length; reflexivity|]. apply Forall_map, Forall_forall. intros n _. apply (vec_nth D). exact V.
  - intros n Hn. rewrite (nth_map1 _ _ _ 0) by (rewrite seq_length; exact Hn). rewrite seq_nth by exact Hn. reflexivity.
Qed.
Lemma rot_neg D n s : s < D -> n < D -> rot_idx D (- Z.of_nat s) n = (n + s) mod D.
Proof.
  intros Hs Hn. unfold rot_idx. replace (Z.of_nat n - - Z.of_nat s)%Z with (Z.of_nat (n + s)) by lia.
  rewrite <- Nat2Z.inj_mod. lia.
Qed.
Lemma rot_one D n : 0 < n -> n < D -> rot_idx D 1 n = n - 1.
Proof. intros H0 Hn. unfold rot_idx. rewrite Z.mod_small by lia. lia. Qed.

(** vectors stay vectors *)
Section Shapes.
Variable D : nat.
Lemma vec_vqsub a b : vec D a -> vec D b -> vec D (vqsub 8 a b).
Proof. apply vec_map2. intros; apply to_s8_range. Qed.
Lemma vec_vqadd a b : vec D a -> vec D b -> vec D (vqadd 8 a b).
Proof. apply vec_map2. intros; apply to_s8_range. Qed.
Lemma vec_vqabs a : vec D a -> vec D (vqabs 8 a).
Proof. apply vec_map. intros; apply to_s8_range. Qed.
Lemma vec_vmin a b : vec D a -> vec D b -> vec D (vmin a b).
Proof. apply vec_map2. unfold i8. intros; lia. Qed.
Lemma vec_vmax a b : vec D a -> vec D b -> vec D (vmax a b).
Proof. apply vec_map2. unfold i8. intros; lia. Qed.
Lemma vec_vsign a b : vec D a -> vec D b -> vec D (vsign 8 a b).
Proof. apply vec_map2. intros; apply to_s8_range. Qed.
Lemma vec_eor a b : vec D a -> vec D b -> vec D (ld_eor a b).
Proof.
  intros (La & _) (Lb & _). apply vec_to_s. unfold veor, vmask. rewrite length_map2, !map_length. lia.
Qed.
Lemma vec_orr a b : vec D a -> vec D b -> vec D (ld_orr a b).
Proof.
  intros (La & _) (Lb & _). apply vec_to_s. unfold vorr, vmask. rewrite length_map2, !map_length. lia.
Qed.
Lemma vec_other a b c : vec D a -> vec D b -> vec D c -> vec D (ld_other a b c).
Proof.
  intros (La & _) (Lb & _) (Lc & _). apply vec_to_s. unfold vbsl, vceq, vmask.
  rewrite length_map3, length_map2, !map_length. lia.
Qed.
Lemma vec_mine a b : vec D a -> vec D b -> vec D (ld_mine D a b).
Proof. intros. apply vec_orr; [apply vec_eor; assumption|]. apply vec_dup. unfold i8; lia. Qed.
Lemma vec_selfcorr a b : vec D a -> vec D b -> vec D (ld_selfcorr a b).
Proof.
  intros (La & _) (Lb & _). apply vec_to_s. unfold vand, vorr, veor, vceqz, vcgtz, vcltz, vmask.
  rewrite !length_map2, !map_length. lia.
Qed.
Lemma vec_vclamp a lo hi : i8 lo -> i8 hi -> vec D a -> vec D (vclamp a lo hi).
Proof. intros Hl Hh. apply vec_map. unfold i8 in *. intros; lia. Qed.
Lemma vec_beta beta a : vec D a -> vec D (vsigned 8 (vqsub_u 8 (vunsigned 8 a) (vunsigned 8 (vdup D beta)))).
Proof.
  intros (La & _). apply vec_to_s. unfold vqsub_u, vunsigned, vdup. rewrite length_map2, !map_length, repeat_length. lia.
Qed.
Lemma vec_out min0 min1 signs inp mag b :
  vec D min0 -> vec D min1 -> vec D signs -> vec D inp -> vec D mag -> vec D b ->
  vec D (ldpc_out D min0 min1 signs inp mag b).
Proof.
  intros. unfold ldpc_out. apply vec_selfcorr; [assumption|]. apply vec_vclamp; [unfold i8; lia|unfold i8; lia|].
  apply vec_vsign; [apply vec_other|apply vec_mine]; assumption.
Qed.
End Shapes.
