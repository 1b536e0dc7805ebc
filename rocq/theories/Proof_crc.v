(** Proofs about crc.hh. *)
From Coq Require Import ZifyBool ZifyNat ZifyN.
From Verif Require Import Cpp Model_crc Spec_bits Spec_crc Proof_bits.
Local Open Scope N_scope.
Ltac Zify.zify_post_hook ::= Z.div_mod_to_equations.

(** ** The step *)
Definition sel (b : bool) (p : N) : N := if b then p else 0.

Lemma land1 t : N.land t 1 = N.b2n (N.odd t).
Proof.
  apply N.bits_inj. intros i. rewrite N.land_spec, tb_one, tb_b2n.
  destruct (N.eqb_spec i 0) as [->|]; rewrite ?andb_true_r, ?andb_false_r; [apply N.bit0_odd|reflexivity].
Qed.

Lemma lxor_lt w a b : a < 2 ^ w -> b < 2 ^ w -> N.lxor a b < 2 ^ w.
Proof.
  intros Ha Hb. apply lt_pow2_testbit. intros i Hi.
  rewrite N.lxor_spec, !(testbit_high w) by assumption. reflexivity.
Qed.

Lemma shiftr_lt w a k : a < 2 ^ w -> N.shiftr a k < 2 ^ w.
Proof.
  intros Ha. apply lt_pow2_testbit. intros i Hi.
  rewrite N.shiftr_spec', (testbit_high w) by (assumption || lia). reflexivity.
Qed.

Lemma b2n_lt w b : 0 < w -> N.b2n b < 2 ^ w.
Proof.
  intros H. apply N.lt_le_trans with (2 ^ 1); [destruct b; reflexivity|].
  apply N.pow_le_mono_r; lia.
Qed.

Lemma sel_lt w b p : p < 2 ^ w -> sel b p < 2 ^ w.
Proof. destruct b; cbn [sel]; auto. intros. apply N.neq_0_lt_0, N.pow_nonzero. discriminate. Qed.

Lemma odd_lxor a b : N.odd (N.lxor a b) = xorb (N.odd a) (N.odd b).
Proof. rewrite <- !N.bit0_odd, N.lxor_spec. reflexivity. Qed.

Lemma odd_b2n b : N.odd (N.b2n b) = b.
Proof. destruct b; reflexivity. Qed.

Section W.
Variables (w poly : N).
Hypothesis Hw : 8 <= w.
Hypothesis Hp : poly < 2 ^ w.

Definition st (r : N) (d : bool) : N := N.lxor (N.shiftr r 1) (sel (xorb (N.odd r) d) poly).

Lemma update_st r d : r < 2 ^ w -> crc_update w poly r d = st r d.
Proof.
  intros Hr. unfold crc_update, st. cbv zeta.
  rewrite (wrap_small w (N.lxor r _)) by (apply lxor_lt; [exact Hr|apply b2n_lt; lia]).
  rewrite land1, odd_lxor, odd_b2n.
  replace (N.b2n (xorb (N.odd r) d) * poly) with (sel (xorb (N.odd r) d) poly)
    by (destruct (xorb (N.odd r) d); cbn [sel N.b2n]; lia).
  apply wrap_small. apply lxor_lt; [apply shiftr_lt; exact Hr|apply sel_lt; exact Hp].
Qed.

Lemma st_lt r d : r < 2 ^ w -> st r d < 2 ^ w.
Proof. intros Hr. apply lxor_lt; [apply shiftr_lt; exact Hr|apply sel_lt; exact Hp]. Qed.

Lemma sel_xorb a b : sel (xorb a b) poly = N.lxor (sel a poly) (sel b poly).
Proof. destruct a, b; cbn [xorb sel]; rewrite ?N.lxor_0_r, ?N.lxor_0_l, ?N.lxor_nilpotent; reflexivity. Qed.

Lemma st_lxor a b x y : st (N.lxor a b) (xorb x y) = N.lxor (st a x) (st b y).
Proof.
  unfold st. rewrite N.shiftr_lxor, odd_lxor.
  replace (xorb (xorb (N.odd a) (N.odd b)) (xorb x y))
    with (xorb (xorb (N.odd a) x) (xorb (N.odd b) y))
    by (destruct (N.odd a), (N.odd b), x, y; reflexivity).
  rewrite sel_xorb.
  rewrite !N.lxor_assoc. f_equal. rewrite <- !N.lxor_assoc. f_equal. apply N.lxor_comm.
Qed.

Definition sts (r : N) (l : list bool) : N := fold_left st l r.

Lemma sts_lt l : forall r, r < 2 ^ w -> sts r l < 2 ^ w.
Proof. induction l as [|x l IH]; intros r Hr; [exact Hr|]. apply IH, st_lt, Hr. Qed.

Lemma sts_app r l1 l2 : sts r (l1 ++ l2) = sts (sts r l1) l2.
Proof. apply fold_left_app. Qed.

Lemma sts_lxor l1 : forall l2 r1 r2, length l1 = length l2 ->
  sts (N.lxor r1 r2) (xor_bits l1 l2) = N.lxor (sts r1 l1) (sts r2 l2).
Proof.
  induction l1 as [|x l1 IH]; intros [|y l2] r1 r2 H; try discriminate; [reflexivity|].
  cbn. rewrite st_lxor. apply IH. cbn in H. lia.
Qed.

Definition z (n : nat) (r : N) : N := sts r (repeat false n).

Lemma z_lxor n a b : z n (N.lxor a b) = N.lxor (z n a) (z n b).
Proof.
  unfold z. rewrite <- sts_lxor by reflexivity. f_equal.
  induction n as [|n IH]; cbn; [reflexivity|]. f_equal. exact IH.
Qed.

(** A register whose low [n] bits are zero is just shifted. *)
Lemma z_shift n : forall a, z n (N.shiftl a (N.of_nat n)) = a.
Proof.
  induction n as [|n IH]; intros a; [apply N.shiftl_0_r|].
  unfold z. cbn [repeat sts fold_left]. unfold st at 2.
  replace (N.odd (N.shiftl a (N.of_nat (S n)))) with false.
  - cbn [xorb sel]. rewrite N.lxor_0_r.
    replace (N.shiftr (N.shiftl a (N.of_nat (S n))) 1) with (N.shiftl a (N.of_nat n)); [apply IH|].
    apply N.bits_inj. intros i. tbits.
    replace (N.of_nat (S n) <=? i + 1) with (N.of_nat n <=? i) by lia. f_equal. f_equal. lia.
  - rewrite <- N.bit0_odd. tbits. replace (N.of_nat (S n) <=? 0) with false by lia. reflexivity.
Qed.

(** Feeding [n] data bits equals [n] zero bits on the register xored with the data. *)
Lemma feed_low_bits n : forall r v, v < 2 ^ N.of_nat n -> sts r (low_bits v n) = z n (N.lxor r v).
Proof.
  induction n as [|n IH]; intros r v Hv.
  - cbn in Hv. replace v with 0 by lia. rewrite N.lxor_0_r. reflexivity.
  - replace (low_bits v (S n)) with (N.odd v :: low_bits (N.shiftr v 1) n).
    + unfold z. cbn [repeat sts fold_left]. fold (sts (st r (N.odd v)) (low_bits (N.shiftr v 1) n)).
      rewrite IH.
      * unfold z, sts. f_equal. unfold st. rewrite N.shiftr_lxor, odd_lxor, xorb_false_r.
        rewrite !N.lxor_assoc. f_equal. apply N.lxor_comm.
      * apply lt_pow2_testbit. intros i Hi. rewrite N.shiftr_spec'. apply (testbit_high (N.of_nat (S n))); lia.
    + change (N.odd v :: low_bits (N.shiftr v 1) n) with ([N.odd v] ++ low_bits (N.shiftr v 1) n).
      replace [N.odd v] with (low_bits v 1) by (cbn; rewrite N.bit0_odd; reflexivity).
      change (N.shiftr v 1) with (N.shiftr v (N.of_nat 1)). apply (low_bits_app v 1 n).
Qed.

Lemma split8 r : r = N.lxor (N.shiftl (N.shiftr r 8) 8) (N.land r 255).
Proof.
  apply N.bits_inj. intros i. change 255 with (N.ones 8). tbits.
  destruct (N.ltb_spec i 8).
  - rewrite N.ones_spec_low by assumption. replace (8 <=? i) with false by lia.
    cbn [andb]. rewrite andb_true_r, xorb_false_l. reflexivity.
  - rewrite N.ones_spec_high by assumption. replace (8 <=? i) with true by lia.
    cbn [andb]. rewrite andb_false_r, xorb_false_r. f_equal. lia.
Qed.

Lemma byte_step r v : v < 2 ^ 8 ->
  sts r (low_bits v 8) = N.lxor (N.shiftr r 8) (z 8 (N.land (N.lxor r v) 255)).
Proof.
  intros Hv. rewrite (feed_low_bits 8) by exact Hv.
  rewrite (split8 (N.lxor r v)) at 1. rewrite z_lxor. f_equal.
  change (z 8 (N.shiftl (N.shiftr (N.lxor r v) 8) (N.of_nat 8)) = N.shiftr r 8).
  rewrite z_shift, N.shiftr_lxor.
  replace (N.shiftr v 8) with 0; [apply N.lxor_0_r|].
  symmetry. apply N.bits_inj. intros i. tbits. apply (testbit_high 8); [exact Hv|lia].
Qed.

(** ** The table *)
Lemma zero_steps n : forall r, r < 2 ^ w ->
  loop n 0 (fun _ tmp => Ok (crc_update w poly tmp false)) r = Ok (z n r).
Proof.
  assert (G : forall n i r, r < 2 ^ w ->
    loop n i (fun _ tmp => Ok (crc_update w poly tmp false)) r = Ok (z n r)).
  { clear n. induction n as [|n IH]; intros i r Hr; [reflexivity|]. cbn [loop bind].
    rewrite IH; rewrite update_st by exact Hr; [reflexivity|apply st_lt; exact Hr]. }
  intros r Hr. apply G. exact Hr.
Qed.

Lemma pow_w : 256 <= 2 ^ w.
Proof. change 256 with (2 ^ 8). apply N.pow_le_mono_r; lia. Qed.

Lemma crc_new_ok crc :
  exists lut, crc_new w poly crc = Ok {| crc_w := w; crc_lut := lut; crc_poly := poly; crc_reg := crc |}
    /\ forall j, j < 256 -> nth (N.to_nat j) lut None = Some (z 8 j).
Proof.
  unfold crc_new.
  edestruct (for_up_inv (fun i lut => length lut = 256%nat /\
     forall k, (k < i)%nat -> nth k lut None = Some (z 8 (N.of_nat k)))) as (lut & E & L & H).
  4: { rewrite E. cbn [bind]. eexists; split; [reflexivity|]. intros j Hj.
       rewrite H by lia. rewrite N2Nat.id. reflexivity. }
  - lia.
  - intros j lut Hj (L & H). cbv zeta. pose proof pow_w.
    rewrite wrap_small by lia. unfold for_down. cbv beta. change (9 - 1)%nat with 8%nat.
    rewrite zero_steps by lia. cbn [bind].
    unfold wru. rewrite wr_Ok by lia. eexists; split; [reflexivity|].
    split; [rewrite length_upd; exact L|]. intros k Hk.
    destruct (Nat.eq_dec k j) as [->|Hn].
    + rewrite nth_upd_eq by lia. reflexivity.
    + rewrite nth_upd_neq by lia. apply H. lia.
  - split; [reflexivity|]. intros k Hk. lia.
Qed.

(** ** Objects whose table is right *)
Definition good (o : crc_obj) : Prop :=
  crc_w o = w /\ crc_poly o = poly /\ crc_reg o < 2 ^ w /\
  forall j, j < 256 -> nth (N.to_nat j) (crc_lut o) None = Some (z 8 j).

Lemma good_set o v : good o -> v < 2 ^ w -> good (crc_set o v).
Proof. intros (A & B & C & D) Hv. repeat split; auto. Qed.

Lemma crc_bit_good o b : good o -> crc_bit o b = crc_set o (st (crc_reg o) b) /\ good (crc_bit o b).
Proof.
  intros G. pose proof G as (A & B & C & D).
  assert (E : crc_bit o b = crc_set o (st (crc_reg o) b)).
  { unfold crc_bit. rewrite A, B, update_st by exact C. reflexivity. }
  split; [exact E|]. rewrite E. apply good_set; [exact G|]. apply st_lt. exact C.
Qed.

Lemma land255_lt x : N.land x 255 < 256.
Proof. change 255 with (N.ones 8). rewrite N.land_ones. apply N.mod_lt. discriminate. Qed.

Lemma land255_id x : x < 256 -> N.land x 255 = x.
Proof. intros H. change 255 with (N.ones 8). rewrite N.land_ones. apply N.mod_small. exact H. Qed.

Lemma crc_byte_good o v : good o -> v < 2 ^ 8 ->
  crc_byte o v = Ok (crc_set o (sts (crc_reg o) (low_bits v 8))).
Proof.
  intros G Hv. pose proof G as (A & B & C & D). unfold crc_byte. rewrite A.
  pose proof pow_w. rewrite byte_step by exact Hv.
  destruct (N.eqb_spec w 8) as [E|E].
  - assert (L : N.lxor (crc_reg o) v < 256).
    { change 256 with (2 ^ 8). apply lxor_lt; [rewrite <- E; exact C|exact Hv]. }
    rewrite (rdu_nth _ _ (z 8 (N.lxor (crc_reg o) v))) by (apply D; exact L). cbn [bind].
    rewrite land255_id by exact L.
    replace (N.shiftr (crc_reg o) 8) with 0; [rewrite N.lxor_0_l; reflexivity|].
    symmetry. apply N.bits_inj. intros i. tbits. apply (testbit_high w); [exact C|lia].
  - cbv zeta. rewrite wrap_small.
    + rewrite (rdu_nth _ _ (z 8 (N.land (N.lxor (crc_reg o) v) 255))) by (apply D, land255_lt).
      cbn [bind]. rewrite wrap_small; [reflexivity|].
      apply lxor_lt; [apply shiftr_lt; exact C|]. unfold z. apply sts_lt.
      pose proof (land255_lt (N.lxor (crc_reg o) v)). lia.
    + apply lxor_lt; [exact C|]. change (2 ^ 8) with 256 in Hv. lia.
Qed.

Lemma low_bits_ext v u n : (forall i, (i < n)%nat -> N.testbit v (N.of_nat i) = N.testbit u (N.of_nat i)) ->
  low_bits v n = low_bits u n.
Proof. intros H. apply map_ext_in. intros i Hi. apply in_seq in Hi. apply H. lia. Qed.

Lemma low_bits_land v k : low_bits (N.land (N.shiftr v k) 255) 8 = low_bits (N.shiftr v k) 8.
Proof.
  apply low_bits_ext. intros i Hi. change 255 with (N.ones 8).
  rewrite N.land_spec, N.ones_spec_low by lia. apply andb_true_r.
Qed.

Lemma crc_set_set o a b : crc_set (crc_set o a) b = crc_set o b.
Proof. reflexivity. Qed.

Lemma crc_step_byte o v k l : good o ->
  (o' <- crc_byte (crc_set o (sts (crc_reg o) l)) (N.land (N.shiftr v k) 255) ;; Ok o')
  = Ok (crc_set o (sts (crc_reg o) (l ++ low_bits (N.shiftr v k) 8))).
Proof.
  intros G. pose proof G as (_ & _ & C & _). rewrite crc_byte_good.
  - cbn [bind]. rewrite crc_set_set. cbn [crc_set crc_reg]. rewrite low_bits_land, sts_app. reflexivity.
  - apply good_set; [exact G|]. apply sts_lt. exact C.
  - apply land255_lt.
Qed.

Lemma crc_step_byte' o v k l : good o ->
  crc_byte (crc_set o (sts (crc_reg o) l)) (N.land (N.shiftr v k) 255)
  = Ok (crc_set o (sts (crc_reg o) (l ++ low_bits (N.shiftr v k) 8))).
Proof.
  intros G. rewrite <- (crc_step_byte o v k l G).
  destruct (crc_byte _ _); reflexivity.
Qed.

Lemma crc_step_first o v : good o ->
  crc_byte o (N.land v 255) = Ok (crc_set o (sts (crc_reg o) (low_bits v 8))).
Proof.
  intros G. pose proof (crc_step_byte' o v 0 [] G) as E. cbn [sts fold_left app] in E.
  rewrite N.shiftr_0_r in E. replace (crc_set o (crc_reg o)) with o in E by (destruct o; reflexivity).
  exact E.
Qed.

Lemma crc_feed_good o x : good o -> in_ok x ->
  crc_feed o x = Ok (crc_set o (sts (crc_reg o) (in_bits x))).
Proof.
  intros G Hx. destruct x as [b|v|v|v|v]; cbn [crc_feed in_bits in_ok] in *.
  - rewrite (proj1 (crc_bit_good o b G)). reflexivity.
  - apply crc_byte_good; assumption.
  - unfold crc_u16. rewrite crc_step_first by exact G. cbn [bind].
    rewrite crc_step_byte' by exact G.
    rewrite (low_bits_app v 8 8 : _ ++ low_bits (N.shiftr v 8) 8 = low_bits v 16). reflexivity.
  - unfold crc_u32. rewrite crc_step_first by exact G. cbn [bind].
    repeat (rewrite crc_step_byte' by exact G; cbn [bind]).
    rewrite (low_bits_app v 8 8 : _ ++ low_bits (N.shiftr v 8) 8 = low_bits v 16),
            (low_bits_app v 16 8 : _ ++ low_bits (N.shiftr v 16) 8 = low_bits v 24),
            (low_bits_app v 24 8 : _ ++ low_bits (N.shiftr v 24) 8 = low_bits v 32). reflexivity.
  - unfold crc_u64. rewrite crc_step_first by exact G. cbn [bind].
    repeat (rewrite crc_step_byte' by exact G; cbn [bind]).
    rewrite (low_bits_app v 8 8 : _ ++ low_bits (N.shiftr v 8) 8 = low_bits v 16),
            (low_bits_app v 16 8 : _ ++ low_bits (N.shiftr v 16) 8 = low_bits v 24),
            (low_bits_app v 24 8 : _ ++ low_bits (N.shiftr v 24) 8 = low_bits v 32),
            (low_bits_app v 32 8 : _ ++ low_bits (N.shiftr v 32) 8 = low_bits v 40),
            (low_bits_app v 40 8 : _ ++ low_bits (N.shiftr v 40) 8 = low_bits v 48),
            (low_bits_app v 48 8 : _ ++ low_bits (N.shiftr v 48) 8 = low_bits v 56),
            (low_bits_app v 56 8 : _ ++ low_bits (N.shiftr v 56) 8 = low_bits v 64). reflexivity.
Qed.

Lemma crc_run_good l : forall o, good o -> Forall in_ok l ->
  crc_run o l = Ok (crc_set o (sts (crc_reg o) (flat_map in_bits l))).
Proof.
  induction l as [|x l IH]; intros o G Hl; cbn [crc_run flat_map].
  - destruct o; reflexivity.
  - inversion Hl as [|? ? Hx Hl']; subst. rewrite crc_feed_good by assumption. cbn [bind].
    pose proof G as (_ & _ & C & _). rewrite IH.
    + rewrite crc_set_set, sts_app. reflexivity.
    + apply good_set; [exact G|]. apply sts_lt. exact C.
    + exact Hl'.
Qed.

Lemma crc_of_good start l : start < 2 ^ w -> Forall in_ok l ->
  crc_of w poly start l = Ok (sts start (flat_map in_bits l)).
Proof.
  intros Hs Hl. unfold crc_of. destruct (crc_new_ok start) as (lut & E & H). rewrite E. cbn [bind].
  rewrite crc_run_good; [reflexivity| |exact Hl]. repeat split; auto.
Qed.

Lemma flat_InBit bits : flat_map in_bits (map InBit bits) = bits.
Proof. induction bits as [|b l IH]; cbn; [reflexivity|]. f_equal. exact IH. Qed.

Lemma ok_InBit bits : Forall in_ok (map InBit bits).
Proof. apply Forall_forall. intros x Hx. apply in_map_iff in Hx. destruct Hx as (b & <- & _). exact I. Qed.

Lemma crc_of_bits start bits : start < 2 ^ w -> crc_of w poly start (map InBit bits) = Ok (sts start bits).
Proof. intros Hs. rewrite crc_of_good by (auto using ok_InBit). rewrite flat_InBit. reflexivity. Qed.

(** ** C06 *)
Lemma sts_residue r : r < 2 ^ w -> sts r (low_bits r (N.to_nat w)) = 0.
Proof.
  intros Hr. rewrite feed_low_bits by (rewrite N2Nat.id; exact Hr).
  rewrite N.lxor_nilpotent. replace 0 with (N.shiftl 0 (N.of_nat (N.to_nat w))) at 1 by apply N.shiftl_0_l.
  apply z_shift.
Qed.

(** The register is the remainder of the message times x^w: [pr] is one step of the textbook
    division, where the new coefficient enters at the low end. *)
Definition pr (r : N) (d : bool) : N := N.lxor (st r false) (sel d (2 ^ (w - 1))).

Lemma z_S n r : z (S n) r = z n (st r false).
Proof. reflexivity. Qed.

Lemma z_add n m r : z (n + m) r = z m (z n r).
Proof. unfold z. rewrite repeat_app. apply sts_app. Qed.

Lemma z_comm n r : z n (st r false) = st (z n r) false.
Proof. change (st (z n r) false) with (z 1 (z n r)). rewrite <- z_add, Nat.add_comm. reflexivity. Qed.

Lemma st_data r d : st r d = st (N.lxor r (N.b2n d)) false.
Proof.
  unfold st. rewrite N.shiftr_lxor, odd_lxor, odd_b2n, xorb_false_r.
  replace (N.shiftr (N.b2n d) 1) with 0 by (destruct d; reflexivity). rewrite N.lxor_0_r. reflexivity.
Qed.

Lemma z_0 n : z n 0 = 0.
Proof. replace 0 with (N.shiftl 0 (N.of_nat n)) at 1 by apply N.shiftl_0_l. apply z_shift. Qed.

Lemma z_top d : z (N.to_nat w) (sel d (2 ^ (w - 1))) = st (N.b2n d) false.
Proof.
  destruct d; cbn [sel N.b2n].
  - replace (N.to_nat w) with (N.to_nat (w - 1) + 1)%nat by lia. rewrite z_add.
    replace (2 ^ (w - 1)) with (N.shiftl 1 (N.of_nat (N.to_nat (w - 1))))
      by (rewrite N2Nat.id, N.shiftl_1_l; reflexivity).
    rewrite z_shift. reflexivity.
  - rewrite z_0. reflexivity.
Qed.

Lemma sts_pr l : forall r, sts (z (N.to_nat w) r) l = z (N.to_nat w) (fold_left pr l r).
Proof.
  induction l as [|d l IH]; intros r; cbn [sts fold_left]; [reflexivity|].
  fold (sts (st (z (N.to_nat w) r) d) l). rewrite <- IH. f_equal.
  unfold pr. rewrite z_lxor, z_comm, z_top, st_data.
  rewrite <- st_lxor. reflexivity.
Qed.

Lemma low_bits_cons v n : low_bits v (S n) = N.odd v :: low_bits (N.shiftr v 1) n.
Proof.
  change (N.odd v :: low_bits (N.shiftr v 1) n) with ([N.odd v] ++ low_bits (N.shiftr v 1) n).
  replace [N.odd v] with (low_bits v 1) by (cbn; rewrite N.bit0_odd; reflexivity).
  symmetry. apply (low_bits_app v 1 n).
Qed.

Lemma low_bits_lxor a b n : low_bits (N.lxor a b) n = xor_bits (low_bits a n) (low_bits b n).
Proof.
  revert a b; induction n as [|n IH]; intros a b; [reflexivity|]. rewrite !low_bits_cons.
  rewrite odd_lxor, N.shiftr_lxor, IH. reflexivity.
Qed.

Lemma pr_window r d : r < 2 ^ w ->
  low_bits (pr r d) (N.to_nat w) =
  let window := low_bits r (N.to_nat w) in
  let shifted := tl window ++ [d] in
  if hd false window then xor_bits shifted (low_bits poly (N.to_nat w)) else shifted.
Proof.
  intros Hr. cbv zeta.
  assert (S : tl (low_bits r (N.to_nat w)) ++ [d]
              = low_bits (N.lxor (N.shiftr r 1) (sel d (2 ^ (w - 1)))) (N.to_nat w)).
  { apply (list_ext _ _ false).
    - rewrite app_length, low_bits_length. replace (N.to_nat w) with (S (N.to_nat (w - 1))) by lia.
      rewrite low_bits_cons. cbn [tl length]. rewrite low_bits_length. lia.
    - intros i Hi. rewrite nth_low_bits, N.lxor_spec, N.shiftr_spec'.
      replace (N.to_nat w) with (S (N.to_nat (w - 1))) in * by lia.
      rewrite low_bits_cons in *. cbn [tl] in *. rewrite app_length, low_bits_length in Hi. cbn [length] in Hi.
      destruct (Nat.eq_dec i (N.to_nat (w - 1))) as [->|Hne].
      + rewrite app_nth2 by (rewrite low_bits_length; lia). rewrite low_bits_length, Nat.sub_diag. cbn [nth].
        replace (N.to_nat (w - 1) <? S (N.to_nat (w - 1)))%nat with true by lia.
        rewrite (testbit_high w r) by (assumption || lia). cbn [andb]. rewrite xorb_false_l, N2Nat.id.
        destruct d; cbn [sel]; [rewrite N.pow2_bits_true|rewrite N.bits_0]; reflexivity.
      + rewrite app_nth1 by (rewrite low_bits_length; lia). rewrite nth_low_bits, N.shiftr_spec'.
        replace (i <? N.to_nat (w - 1))%nat with true by lia.
        replace (i <? S (N.to_nat (w - 1)))%nat with true by lia. cbn [andb].
        replace (N.testbit (sel d (2 ^ (w - 1))) (N.of_nat i)) with false; [rewrite xorb_false_r; reflexivity|].
        destruct d; cbn [sel]; [rewrite N.pow2_bits_false by lia|rewrite N.bits_0]; reflexivity. }
  rewrite S. replace (hd false (low_bits r (N.to_nat w))) with (N.odd r)
    by (replace (N.to_nat w) with (Datatypes.S (N.to_nat (w - 1))) by lia; rewrite low_bits_cons; reflexivity).
  unfold pr, st. rewrite xorb_false_r. destruct (N.odd r); cbn [sel].
  - rewrite <- low_bits_lxor. f_equal.
    rewrite !N.lxor_assoc. f_equal. apply N.lxor_comm.
  - rewrite N.lxor_0_r. reflexivity.
Qed.

Lemma pr_lt r d : r < 2 ^ w -> pr r d < 2 ^ w.
Proof.
  intros Hr. apply lxor_lt; [apply st_lt; exact Hr|]. apply sel_lt. apply N.pow_lt_mono_r; lia.
Qed.

Lemma poly_rem_pr l : forall r, r < 2 ^ w ->
  poly_rem (low_bits poly (N.to_nat w)) (low_bits r (N.to_nat w)) l
  = low_bits (fold_left pr l r) (N.to_nat w).
Proof.
  induction l as [|d l IH]; intros r Hr; [reflexivity|]. cbn [poly_rem fold_left].
  rewrite <- IH by (apply pr_lt; exact Hr). f_equal. symmetry. apply pr_window. exact Hr.
Qed.

Lemma fold_pr_zeros n : forall r, fold_left pr (repeat false n) r = z n r.
Proof.
  induction n as [|n IH]; intros r; [reflexivity|]. cbn [repeat fold_left]. rewrite IH, z_S.
  unfold pr. cbn [sel]. rewrite N.lxor_0_r. reflexivity.
Qed.

Lemma crc_is_remainder bits :
  low_bits (sts 0 bits) (N.to_nat w)
  = poly_rem (low_bits poly (N.to_nat w)) (repeat false (N.to_nat w)) (bits ++ repeat false (N.to_nat w)).
Proof.
  replace (repeat false (N.to_nat w)) with (low_bits 0 (N.to_nat w)) at 1.
  - rewrite poly_rem_pr by (apply N.neq_0_lt_0, N.pow_nonzero; discriminate).
    rewrite fold_left_app, fold_pr_zeros, <- sts_pr, z_0. reflexivity.
  - apply (list_ext _ _ false); [rewrite low_bits_length, repeat_length; reflexivity|].
    intros i _. rewrite nth_low_bits, N.bits_0, andb_false_r, nth_repeat. reflexivity.
Qed.

Hypothesis Htop : N.testbit poly (w - 1) = true.

Lemma st_top r d : r < 2 ^ w -> N.testbit (st r d) (w - 1) = xorb (N.odd r) d.
Proof.
  intros Hr. unfold st. rewrite N.lxor_spec, N.shiftr_spec', (testbit_high w r) by (assumption || lia).
  rewrite xorb_false_l. destruct (xorb (N.odd r) d); cbn [sel]; [exact Htop|apply N.bits_0].
Qed.

Lemma st_inj r1 r2 d : r1 < 2 ^ w -> r2 < 2 ^ w -> st r1 d = st r2 d -> r1 = r2.
Proof.
  intros H1 H2 E.
  assert (O : N.odd r1 = N.odd r2).
  { pose proof (st_top r1 d H1) as T1. pose proof (st_top r2 d H2) as T2. rewrite E in T1.
    rewrite T1 in T2. destruct (N.odd r1), (N.odd r2), d; cbn in T2; congruence. }
  unfold st in E. rewrite O in E.
  assert (S : N.shiftr r1 1 = N.shiftr r2 1).
  { rewrite <- (N.lxor_0_r (N.shiftr r1 1)), <- (N.lxor_0_r (N.shiftr r2 1)).
    rewrite <- (N.lxor_nilpotent (sel (xorb (N.odd r2) d) poly)).
    rewrite <- !N.lxor_assoc, E. reflexivity. }
  apply N.bits_inj. intros i. destruct (N.eq_dec i 0) as [->|Hi].
  - rewrite !N.bit0_odd. exact O.
  - replace i with (N.pred i + 1) by lia. rewrite <- !N.shiftr_spec', S. reflexivity.
Qed.

Lemma sts_inj l : forall r1 r2, r1 < 2 ^ w -> r2 < 2 ^ w -> sts r1 l = sts r2 l -> r1 = r2.
Proof.
  induction l as [|d l IH]; intros r1 r2 H1 H2 E; [exact E|].
  apply (st_inj r1 r2 d H1 H2). apply IH; [apply st_lt|apply st_lt|]; assumption.
Qed.

(** a set bit at position >= p moves down by at most one per step *)
Lemma st_keeps r d p : r < 2 ^ w -> (exists i, p + 1 <= i /\ N.testbit r i = true) ->
  exists i, p <= i /\ N.testbit (st r d) i = true.
Proof.
  intros Hr (i & Hi & T). destruct (xorb (N.odd r) d) eqn:X.
  - exists (w - 1). split; [|rewrite st_top by exact Hr; exact X].
    assert (i < w); [|lia]. destruct (N.lt_ge_cases i w); [assumption|].
    rewrite (testbit_high w) in T by assumption. discriminate.
  - exists (i - 1). split; [lia|]. unfold st. rewrite X. cbn [sel]. rewrite N.lxor_0_r, N.shiftr_spec'.
    replace (i - 1 + 1) with i by lia. exact T.
Qed.

Lemma sts_keeps l : forall r p, r < 2 ^ w ->
  (exists i, p + N.of_nat (length l) <= i /\ N.testbit r i = true) ->
  exists i, p <= i /\ N.testbit (sts r l) i = true.
Proof.
  induction l as [|d l IH]; intros r p Hr (i & Hi & T); cbn [sts fold_left].
  - exists i. split; [cbn in Hi; lia|exact T].
  - apply IH; [apply st_lt; exact Hr|]. apply st_keeps; [exact Hr|].
    exists i. split; [cbn [length] in Hi; lia|exact T].
Qed.

Lemma burst_zero l : (length l <= N.to_nat w)%nat -> In true l -> sts 0 l <> 0.
Proof.
  induction l as [|d l IH]; intros L HI; [contradiction|].
  cbn [sts fold_left]. destruct d.
  - replace (st 0 true) with poly by (unfold st; cbn; reflexivity).
    intros E. destruct (sts_keeps l poly 0 Hp) as (i & _ & T).
    + exists (w - 1). split; [cbn [length] in L; lia|exact Htop].
    + unfold sts in T. rewrite E, N.bits_0 in T. discriminate.
  - replace (st 0 false) with 0 by reflexivity. apply IH; [cbn [length] in L; lia|].
    destruct HI as [H|H]; [discriminate|exact H].
Qed.

Lemma xor_bits_true a : forall b, length a = length b -> a <> b -> In true (xor_bits a b).
Proof.
  induction a as [|x a IH]; intros [|y b] L H; try discriminate; [congruence|].
  cbn. destruct (xorb x y) eqn:X; [left; reflexivity|]. right. apply xorb_eq in X. subst y.
  apply IH; [cbn in L; lia|]. congruence.
Qed.

Lemma xor_bits_length a b : length a = length b -> length (xor_bits a b) = length a.
Proof. intros H. unfold xor_bits. rewrite map_length, combine_length. lia. Qed.

Lemma burst start pre x1 x2 suf :
  start < 2 ^ w -> length x1 = length x2 -> (length x1 <= N.to_nat w)%nat -> x1 <> x2 ->
  sts start (pre ++ x1 ++ suf) <> sts start (pre ++ x2 ++ suf).
Proof.
  intros Hs L Lw Hx E. rewrite !sts_app in E.
  pose proof (sts_lt pre start Hs) as H0.
  apply sts_inj in E; [|apply sts_lt; exact H0|apply sts_lt; exact H0].
  apply (burst_zero (xor_bits x1 x2)).
  - rewrite xor_bits_length by exact L. exact Lw.
  - apply xor_bits_true; assumption.
  - rewrite <- (N.lxor_nilpotent (sts start pre)) at 1. rewrite sts_lxor by exact L.
    rewrite E. apply N.lxor_nilpotent.
Qed.
End W.

(** ** Packaged statements *)
Lemma crc_serial w poly start l :
  8 <= w -> poly < 2 ^ w -> start < 2 ^ w -> Forall in_ok l ->
  exists v, crc_of w poly start l = Ok v /\ v < 2 ^ w /\
            crc_of w poly start (map InBit (flat_map in_bits l)) = Ok v.
Proof.
  intros Hw Hp Hs Hl. exists (sts poly start (flat_map in_bits l)).
  split; [apply crc_of_good; assumption|]. split; [apply sts_lt; assumption|].
  apply crc_of_bits; assumption.
Qed.

Lemma crc_linear w poly s1 s2 m1 m2 :
  8 <= w -> poly < 2 ^ w -> s1 < 2 ^ w -> s2 < 2 ^ w -> length m1 = length m2 ->
  exists v1 v2, crc_of w poly s1 (map InBit m1) = Ok v1 /\ crc_of w poly s2 (map InBit m2) = Ok v2 /\
    crc_of w poly (N.lxor s1 s2) (map InBit (xor_bits m1 m2)) = Ok (N.lxor v1 v2).
Proof.
  intros Hw Hp H1 H2 L. exists (sts poly s1 m1), (sts poly s2 m2).
  rewrite !crc_of_bits by (auto; apply lxor_lt; assumption).
  rewrite (sts_lxor w) by assumption. auto.
Qed.

Lemma crc_residue w poly start l :
  8 <= w -> poly < 2 ^ w -> start < 2 ^ w -> Forall in_ok l ->
  exists v, crc_of w poly start l = Ok v /\
            crc_of w poly start (l ++ map InBit (low_bits v (N.to_nat w))) = Ok 0.
Proof.
  intros Hw Hp Hs Hl. exists (sts poly start (flat_map in_bits l)).
  split; [apply crc_of_good; assumption|].
  rewrite crc_of_good; auto.
  - rewrite flat_map_app, flat_InBit, sts_app, sts_residue; auto. apply sts_lt; assumption.
  - apply Forall_app. split; [exact Hl|apply ok_InBit].
Qed.

Lemma crc_residue_word w poly start l :
  In w [8; 16; 32; 64] -> poly < 2 ^ w -> start < 2 ^ w -> Forall in_ok l ->
  exists v, crc_of w poly start l = Ok v /\ crc_of w poly start (l ++ [word_in w v]) = Ok 0.
Proof.
  intros Hw Hp Hs Hl.
  assert (W : 8 <= w) by (cbn in Hw; lia).
  exists (sts poly start (flat_map in_bits l)).
  pose proof (sts_lt w poly Hp (flat_map in_bits l) start Hs) as Hv.
  split; [apply crc_of_good; assumption|].
  rewrite crc_of_good; auto.
  - rewrite flat_map_app. cbn [flat_map]. rewrite app_nil_r, sts_app.
    replace (in_bits (word_in w (sts poly start (flat_map in_bits l))))
      with (low_bits (sts poly start (flat_map in_bits l)) (N.to_nat w)).
    + rewrite sts_residue; auto.
    + cbn in Hw. destruct Hw as [<-|[<-|[<-|[<-|[]]]]]; reflexivity.
  - apply Forall_app. split; [exact Hl|]. constructor; [|constructor].
    cbn in Hw. destruct Hw as [<-|[<-|[<-|[<-|[]]]]]; exact Hv.
Qed.

Lemma crc_burst w poly start pre x1 x2 suf :
  8 <= w -> poly < 2 ^ w -> N.testbit poly (w - 1) = true -> start < 2 ^ w ->
  length x1 = length x2 -> N.of_nat (length x1) <= w -> x1 <> x2 ->
  crc_of w poly start (map InBit (pre ++ x1 ++ suf)) <> crc_of w poly start (map InBit (pre ++ x2 ++ suf)).
Proof.
  intros Hw Hp Ht Hs L Lw Hx. rewrite !crc_of_bits by assumption. intros E. injection E as E.
  revert E. apply (burst w); auto. lia.
Qed.

Lemma crc_remainder w poly bits :
  8 <= w -> poly < 2 ^ w ->
  exists v, crc_of w poly 0 (map InBit bits) = Ok v /\
    low_bits v (N.to_nat w) =
    poly_rem (low_bits poly (N.to_nat w)) (repeat false (N.to_nat w)) (bits ++ repeat false (N.to_nat w)).
Proof.
  intros Hw Hp. exists (sts poly 0 bits). split.
  - apply crc_of_bits; auto. apply N.neq_0_lt_0, N.pow_nonzero. discriminate.
  - apply crc_is_remainder; assumption.
Qed.
