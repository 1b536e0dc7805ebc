(** LDPC decoder: one layer of [update]. *)
From Coq Require Import ZifyBool Permutation.
From Verif Require Import Cpp Model_simd Model_ldpc Spec_ldpc Lib_list Proof_bits Proof_simd Proof_ldpc1 Proof_ldpc2 Proof_ldpc3 Proof_ldpc4 Proof_ldpc5 Proof_ldpc6 Proof_ldpc7.
Open Scope nat_scope.
Ltac Zify.zify_post_hook ::= idtac.

Lemma rot_pos D n s : s < D -> n < D -> rot_idx D (Z.of_nat s) ((n + s) mod D) = n.
Proof.
  intros Hs Hn. unfold rot_idx. rewrite Nat2Z.inj_mod, Nat2Z.inj_add. rewrite Zminus_mod_idemp_l.
  replace (Z.of_nat n + Z.of_nat s - Z.of_nat s)%Z with (Z.of_nat n) by lia. rewrite Z.mod_small by lia. lia.
Qed.
Lemma rot_minus D n : n + 1 < D -> rot_idx D (-1) n = n + 1.
Proof. intros H. unfold rot_idx. rewrite Z.mod_small by lia. lia. Qed.
Lemma rot_minus_last D : 0 < D -> rot_idx D (-1) (D - 1) = 0.
Proof.
  intros H. unfold rot_idx. replace (Z.of_nat (D - 1) - -1)%Z with (Z.of_nat D) by lia. rewrite Z.mod_same by lia. reflexivity.
Qed.

Section Layer.
Variable T : table.
Variable D : nat.
Hypothesis DOK : decoder_ok T D.
Notation OK := (ok_table T D DOK).
Notation M := (t_M T).
Notation q := (t_q T).
Notation rows := (rows_of T).
Notation cl i := (cls M q i 0 rows).
Notation W := (d_W T D).
Variable C : ldpc_const.
Hypothesis HC : counts T (lc_cnc C).
Hypothesis HS : segs T D (fun _ _ => True) (lc_loc C).

(** where the messages of layer [(i, j)] start in [bnl] *)
Definition bbase (i j : nat) : nat := base T D i j + 2 * (W * i + j).
Lemma bbase_next i j : bbase i j + (length (cl i) + 2) = bbase i (S j).
Proof. unfold bbase. rewrite <- base_next. lia. Qed.
Lemma bbase_wrap i : bbase i W = bbase (S i) 0.
Proof. unfold bbase. rewrite base_wrap. lia. Qed.
Lemma bbase_BNL i j : i < q -> j < W -> bbase i j + (length (cl i) + 2) <= d_BNL T D.
Proof.
  intros Hi Hj. pose proof (base_LOC T D DOK i j Hi Hj) as H. rewrite (LOC_eq T D DOK) in H.
  rewrite (BNL_eq T D DOK). unfold bbase. nia.
Qed.

(** the value arriving on link [k] in lane [n] *)
Definition arriving (bnl msg pty : list (list Z)) (i j n k : nat) : Z :=
  saturate (fetched T D C msg pty i j k n - lane bnl (bbase i j + k) n).
Definition arrivals (bnl msg pty : list (list Z)) (i j n : nat) : list Z :=
  map (arriving bnl msg pty i j n) (seq 0 (length (cl i) + 2)).

Lemma arrivals_nth bnl msg pty i j n k : k < length (cl i) + 2 ->
  nth k (arrivals bnl msg pty i j n) 0%Z = arriving bnl msg pty i j n k.
Proof. intros H. unfold arrivals. rewrite (nth_map1 _ _ _ 0) by (rewrite seq_length; exact H). rewrite seq_nth by exact H. reflexivity. Qed.

(** writing parity vectors *)
Lemma cell_inj i j i' j' : j < W -> j' < W -> W * i + j = W * i' + j' -> i = i' /\ j = j'.
Proof.
  intros Hj Hj' E. destruct (qdm W i j Hj) as [D1 M1]. destruct (qdm W i' j' Hj') as [D2 M2].
  rewrite E in D1, M1. split; congruence.
Qed.
Lemma pview_upd pty i j i' j' n v : vecs D (d_PTY T D) pty -> i < q -> j < W -> i' < q -> j' < W -> n < D ->
  nth (d_pty_at T D i j n) (pty_view T D (upd pty (W * i' + j') v)) 0%Z =
  if W * i + j =? W * i' + j' then nth n v 0%Z else nth (d_pty_at T D i j n) (pty_view T D pty) 0%Z.
Proof.
  intros (Lp & _) Hi Hj Hi' Hj' Hn. rewrite !(proj2 (pty_view_at T D DOK _ i j n Hi Hj Hn)). unfold lane.
  assert (W * i' + j' < W * q) by nia. pose proof (PTY_eq T D DOK).
  destruct (Nat.eqb_spec (W * i + j) (W * i' + j')) as [->|Hne].
  - rewrite nth_upd_eq by lia. reflexivity.
  - rewrite nth_upd_neq by lia. reflexivity.
Qed.
Lemma vecs_upd L v x w : vecs D L v -> vec D w -> vecs D L (upd v x w).
Proof.
  intros (Lv & Vv) Vw. split; [rewrite length_upd; exact Lv|]. intros y Hy. rewrite nth_upd.
  destruct ((x =? y) && (x <? length v)); [exact Vw|apply Vv; exact Hy].
Qed.
Lemma own_write pty i j v : vecs D (d_PTY T D) pty -> vec D v -> i < q -> j < W ->
  exists pty', wr pty (W * i + j) v = Ok pty' /\ vecs D (d_PTY T D) pty' /\
    (forall n, n < D -> nth (d_pty_at T D i j n) (pty_view T D pty') 0%Z = nth n v 0%Z) /\
    (forall p, p < t_R T -> (forall n, n < D -> p <> d_pty_at T D i j n) ->
       nth p (pty_view T D pty') 0%Z = nth p (pty_view T D pty) 0%Z).
Proof.
  intros Vp Vv Hi Hj. pose proof (PTY_eq T D DOK) as EP. pose proof (proj1 Vp) as Lp.
  rewrite wr_Ok by nia. eexists. split; [reflexivity|]. split; [apply vecs_upd; assumption|]. split.
  - intros n Hn. rewrite pview_upd by assumption. rewrite Nat.eqb_refl. reflexivity.
  - intros p Hp Hall. destruct (pty_pos T D DOK p Hp) as (i' & j' & n' & Hi' & Hj' & Hn' & ->).
    rewrite pview_upd by assumption. destruct (Nat.eqb_spec (W * i' + j') (W * i + j)) as [Eq|]; [|reflexivity].
    destruct (cell_inj _ _ _ _ Hj' Hj Eq) as [-> ->]. exfalso. apply (Hall n' Hn'). reflexivity.
Qed.

Definition write_prev (pty : list (list Z)) (i j : nat) (tmp : list Z) : res (list (list Z)) :=
  if negb (i =? 0) then wr pty (W * (i - 1) + j) tmp
  else if negb (j =? 0) then wr pty (W * (q - 1) + j - 1) tmp
  else
    v <- rdZ pty (Z.of_nat (d_PTY T D) - 1) ;;
    x <- rdZ v (Z.of_nat D - 1) ;;
    tmp <- wr tmp 0 x ;;
    tmp <- rotate D tmp (-1) ;;
    wrZ pty (Z.of_nat (d_PTY T D) - 1) tmp.
Lemma prev_write pty i j v : vecs D (d_PTY T D) pty -> vec D v -> i < q -> j < W ->
  exists pty', write_prev pty i j v = Ok pty' /\ vecs D (d_PTY T D) pty' /\
    (forall n, n < D -> d_pty_at T D i j n <> 0 ->
       nth (d_pty_at T D i j n - 1) (pty_view T D pty') 0%Z = nth n v 0%Z) /\
    (forall p, p < t_R T -> (forall n, n < D -> S p <> d_pty_at T D i j n) ->
       nth p (pty_view T D pty') 0%Z = nth p (pty_view T D pty) 0%Z).
Proof.
  intros Vp Vv Hi Hj. pose proof (PTY_eq T D DOK) as EP. pose proof (proj1 Vp) as Lp.
  pose proof (W_pos T D DOK) as HW. pose proof (ok_D T D DOK) as HD2. pose proof (ok_q T OK) as Hq.
  unfold write_prev. destruct (Nat.eqb_spec i 0) as [->|Hi0]; cbn [negb].
  - destruct (Nat.eqb_spec j 0) as [->|Hj0]; cbn [negb].
    + assert (d_PTY T D - 1 = W * (q - 1) + (W - 1)) as EL by (rewrite EP; nia).
      assert (0 < d_PTY T D) as HP by nia.
      rewrite (rdZ_nth _ _ []) by lia. cbn [bind].
      replace (Z.to_nat (Z.of_nat (d_PTY T D) - 1)) with (d_PTY T D - 1) by lia.
      pose proof (proj2 Vp (d_PTY T D - 1) ltac:(lia)) as VL. pose proof (proj1 VL) as LL.
      rewrite (rdZ_nth _ _ 0%Z) by lia. cbn [bind].
      replace (Z.to_nat (Z.of_nat D - 1)) with (D - 1) by lia.
      pose proof (proj1 Vv) as Lv. rewrite wr_Ok by lia. cbn [bind].
      set (w := upd v 0 (nth (D - 1) (nth (d_PTY T D - 1) pty []) 0%Z)).
      assert (vec D w) as Vw by (apply vec_upd; [exact Vv|apply (vec_nth D); exact VL]).
      destruct (rotate_vec D w (-1) Vw ltac:(lia) ltac:(lia)) as (u & E & Vu & Hu). rewrite E. cbn [bind].
      rewrite wrZ_Ok by lia. replace (Z.to_nat (Z.of_nat (d_PTY T D) - 1)) with (d_PTY T D - 1) by lia.
      eexists. split; [reflexivity|]. split; [apply vecs_upd; assumption|]. rewrite EL. split.
      * intros n Hn Hp. destruct n as [|n].
        { exfalso. apply Hp. unfold d_pty_at. lia. }
        assert (d_pty_at T D 0 0 (S n) - 1 = d_pty_at T D (q - 1) (W - 1) n) as ->.
        { unfold d_pty_at. replace (W * S n + 0) with (S (W * n + (W - 1))) by lia. nia. }
        rewrite pview_upd by (try assumption; lia). rewrite Nat.eqb_refl. rewrite Hu by lia. rewrite rot_minus by lia.
        unfold w. rewrite nth_upd_neq by lia. f_equal. lia.
      * intros p Hp Hall. destruct (pty_pos T D DOK p Hp) as (i' & j' & n' & Hi' & Hj' & Hn' & ->).
        rewrite pview_upd by (try assumption; lia).
        destruct (Nat.eqb_spec (W * i' + j') (W * (q - 1) + (W - 1))) as [Eq|]; [|reflexivity].
        destruct (cell_inj i' j' (q - 1) (W - 1) Hj' ltac:(lia) Eq) as [-> ->].
        destruct (Nat.eq_dec n' (D - 1)) as [->|Hne].
        { rewrite Hu by lia. rewrite rot_minus_last by lia. unfold w. rewrite nth_upd_eq by lia.
          rewrite (proj2 (pty_view_at T D DOK pty (q - 1) (W - 1) (D - 1) ltac:(lia) ltac:(lia) ltac:(lia))).
          unfold lane. rewrite <- EL. reflexivity. }
        { exfalso. apply (Hall (S n') ltac:(lia)). unfold d_pty_at.
          replace (W * S n' + 0) with (S (W * n' + (W - 1))) by lia. nia. }
    + rewrite <- (Nat.add_sub_assoc (W * (q - 1)) j 1) by (destruct j; [contradiction|apply le_n_S, Nat.le_0_l]).
      destruct (own_write pty (q - 1) (j - 1) v Vp Vv ltac:(lia) ltac:(lia)) as (pty' & E & Vp' & H1 & H2).
      exists pty'. split; [exact E|]. split; [exact Vp'|].
      assert (forall n, d_pty_at T D 0 j n = S (d_pty_at T D (q - 1) (j - 1) n)) as EQ.
      { intros n. unfold d_pty_at. replace (W * n + j) with (S (W * n + (j - 1))) by lia. nia. }
      split.
      * intros n Hn _. rewrite EQ. rewrite Nat.sub_succ, Nat.sub_0_r. apply H1. exact Hn.
      * intros p Hp Hall. apply H2; [exact Hp|]. intros n Hn Eq. apply (Hall n Hn). rewrite EQ. lia.
  - destruct (own_write pty (i - 1) j v Vp Vv ltac:(lia) ltac:(lia)) as (pty' & E & Vp' & H1 & H2).
    exists pty'. split; [exact E|]. split; [exact Vp'|].
    assert (forall n, d_pty_at T D i j n = S (d_pty_at T D (i - 1) j n)) as EQ by (intros n; unfold d_pty_at; lia).
    split.
    + intros n Hn _. rewrite EQ. rewrite Nat.sub_succ, Nat.sub_0_r. apply H1. exact Hn.
    + intros p Hp Hall. apply H2; [exact Hp|]. intros n Hn Eq. apply (Hall n Hn). rewrite EQ. lia.
Qed.
Variable BETA : Z.
Hypothesis HB : (0 <= BETA <= 255)%Z.

Definition pass1_post (bnl msg pty : list (list Z)) (i j : nat) (min0 min1 signs : list Z)
    (inps mags : list (option (list Z))) : Prop :=
  vec D min0 /\ vec D min1 /\ vec D signs /\
  (forall n, n < D -> (nth n min0 0%Z, nth n min1 0%Z) = two_min (map (magnitude BETA) (arrivals bnl msg pty i j n)) /\
     sg (nth n signs 0%Z) = node_sign (arrivals bnl msg pty i j n)) /\
  forall k, k < length (cl i) + 2 -> exists inp mag, nth k inps None = Some inp /\ nth k mags None = Some mag /\
    vec D inp /\ vec D mag /\ forall n, n < D ->
      nth n inp 0%Z = arriving bnl msg pty i j n k /\ nth n mag 0%Z = magnitude BETA (arriving bnl msg pty i j n k).

Lemma pass1_ok bnl msg pty i j :
  vecs D (d_BNL T D) bnl -> vecs D (d_MSG T D) msg -> vecs D (d_PTY T D) pty -> i < q -> j < W ->
  exists min0 min1 signs inps mags,
    ldpc_pass1 T D BETA C bnl msg pty (length (cl i)) (bbase i j) (base T D i j) i j = Ok (min0, min1, signs, inps, mags) /\
    pass1_post bnl msg pty i j min0 min1 signs inps mags.
Proof.
  intros (Lb & Vb) Vm Vp Hi Hj. unfold ldpc_pass1. pose proof (bbase_BNL i j Hi Hj) as HBL.
  edestruct (for_up_inv (fun k (s : list Z * list Z * list Z * list (option (list Z)) * list (option (list Z))) =>
     let '(min0, min1, signs, inps, mags) := s in
     length inps = length (cl i) + 2 /\ length mags = length (cl i) + 2 /\
     vec D min0 /\ vec D min1 /\ vec D signs /\
     (forall n, n < D -> (nth n min0 0%Z, nth n min1 0%Z) = two_min (map (magnitude BETA) (map (arriving bnl msg pty i j n) (seq 0 k))) /\
       sg (nth n signs 0%Z) = node_sign (map (arriving bnl msg pty i j n) (seq 0 k))) /\
     forall k', k' < k -> exists inp mag, nth k' inps None = Some inp /\ nth k' mags None = Some mag /\
       vec D inp /\ vec D mag /\ forall n, n < D ->
        nth n inp 0%Z = arriving bnl msg pty i j n k' /\ nth n mag 0%Z = magnitude BETA (arriving bnl msg pty i j n k')))
    as ([[[[min0 min1] signs] inps] mags] & E & _ & _ & V0 & V1 & Vs & Hm & Hk).
  4: { exists min0, min1, signs, inps, mags. split; [exact E|]. repeat split; try assumption; try apply V0; try apply V1; try apply Vs; apply Hm; assumption. }
  - lia.
  - cbv beta. intros k [[[[min0 min1] signs] inps] mags] Hk (Li & Lm & V0 & V1 & Vs & Hm & Hprev).
    destruct (fetch_ok T D DOK C HS msg pty i j k Vm Vp Hi Hj) as (v & E & Vv & Hv); [lia|]. rewrite E. cbn [bind].
    rewrite (rd_nth _ _ []) by lia. cbn [bind].
    pose proof (Vb (bbase i j + k) ltac:(lia)) as Vbk.
    pose proof (vec_vqsub D _ _ Vv Vbk) as Vinp.
    set (inp := vqsub 8 v (nth (bbase i j + k) bnl [])) in *.
    assert (forall n, n < D -> nth n inp 0%Z = arriving bnl msg pty i j n k) as Hinp.
    { intros n Hn. unfold inp. rewrite (lane_qsub D) by assumption. rewrite Hv by exact Hn. reflexivity. }
    set (mag := if (BETA =? 0)%Z then vqabs 8 inp else vsigned 8 (vqsub_u 8 (vunsigned 8 (vqabs 8 inp)) (vunsigned 8 (vdup D BETA)))).
    assert (vec D mag /\ forall n, n < D -> nth n mag 0%Z = magnitude BETA (arriving bnl msg pty i j n k)) as (Vmag & Hmag).
    { pose proof (vec_vqabs D _ Vinp) as Va. unfold mag. destruct (Z.eqb_spec BETA 0) as [->|Hne].
      - split; [exact Va|]. intros n Hn. rewrite (lane_qabs D) by assumption. rewrite Hinp by exact Hn. unfold magnitude. lia.
      - split; [apply vec_beta; exact Va|]. intros n Hn. rewrite (lane_beta D) by
          (try assumption; rewrite (lane_qabs D) by assumption; lia).
        rewrite (lane_qabs D) by assumption. rewrite Hinp by exact Hn. reflexivity. }
    clearbody mag. clearbody inp.
    unfold wru. rewrite !wr_Ok by lia. cbn [bind]. eexists. split; [reflexivity|]. cbv beta iota.
    rewrite !length_upd. split; [exact Li|]. split; [exact Lm|].
    split; [apply vec_vmin; assumption|]. split; [apply vec_vmin; [assumption|apply vec_vmax; assumption]|].
    split; [apply vec_eor; assumption|]. split.
    + intros n Hn. destruct (Hm n Hn) as (H1 & H2). rewrite seq_S, !map_app. cbn [map Nat.add].
      rewrite two_min_snoc, <- H1. unfold two_step. cbn [fst snd].
      rewrite node_sign_app, <- H2. rewrite !(lane_min D), (lane_max D) by (try assumption; apply vec_vmax; assumption).
      rewrite Hmag by exact Hn. split; [reflexivity|]. rewrite (lane_eor D) by assumption. rewrite Hinp by exact Hn.
      cbn [node_sign fold_right]. unfold positive, sg. lia.
    + intros k' Hk'. destruct (Nat.eq_dec k' k) as [->|Hne].
      * exists inp, mag. rewrite !nth_upd_eq by lia. repeat split; try reflexivity; try apply Vinp; try apply Vmag; auto.
      * rewrite !nth_upd_neq by lia. apply Hprev. lia.
  - cbv beta iota. unfold uninit; rewrite !repeat_length. split; [reflexivity|]. split; [reflexivity|].
    assert (i8 127) as I127 by (unfold i8; lia).
    split; [apply vec_dup; exact I127|]. split; [apply vec_dup; exact I127|]. split; [apply vec_dup; exact I127|].
    split; [|intros; lia]. intros n Hn. rewrite !nth_vdup by exact Hn. split; reflexivity.
Qed.

(** the message sent back on link [k], and the value it gives *)
Definition sent (bnl msg pty : list (list Z)) (i j n k : nat) : Z :=
  self_corrected (lane bnl (bbase i j + k) n) (node_message BETA (arrivals bnl msg pty i j n) k).
Definition result (bnl msg pty : list (list Z)) (i j n k : nat) : Z :=
  saturate (arriving bnl msg pty i j n k + sent bnl msg pty i j n k).

End Layer.
