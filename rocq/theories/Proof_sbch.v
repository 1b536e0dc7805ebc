(** Proofs about Model_sbch: encoder and hard decoder. *)
From Coq Require Import ZifyBool ZifyNat ZifyN.
From Verif Require Import Cpp Lib_list Model_sbch Spec_gf Spec_wht Spec_sbch Lib_gf2lin Lib_gf2poly Lib_gf Lib_wht.
Local Open Scope N_scope.

(** ** Z and N bit operations *)
Lemma Z_lxor_N a b : Z.lxor (Z.of_N a) (Z.of_N b) = Z.of_N (N.lxor a b).
Proof. destruct a, b; reflexivity. Qed.
Lemma Z_lor_N a b : Z.lor (Z.of_N a) (Z.of_N b) = Z.of_N (N.lor a b).
Proof. destruct a, b; reflexivity. Qed.
Lemma Z_land_N a b : Z.land (Z.of_N a) (Z.of_N b) = Z.of_N (N.land a b).
Proof. destruct a, b; reflexivity. Qed.
Lemma Z_pow2_N s : (2 ^ Z.of_nat s)%Z = Z.of_N (2 ^ N.of_nat s).
Proof. rewrite N2Z.inj_pow. f_equal. lia. Qed.
Lemma Z_shiftl_N a s : Z.shiftl (Z.of_N a) (Z.of_nat s) = Z.of_N (N.shiftl a (N.of_nat s)).
Proof. rewrite Z.shiftl_mul_pow2, N.shiftl_mul_pow2, N2Z.inj_mul, Z_pow2_N by lia. reflexivity. Qed.
Lemma Z_shiftr_N a s : Z.shiftr (Z.of_N a) (Z.of_nat s) = Z.of_N (N.shiftr a (N.of_nat s)).
Proof. rewrite Z.shiftr_div_pow2, N.shiftr_div_pow2, N2Z.inj_div, Z_pow2_N by lia. reflexivity. Qed.

Lemma pow2_31 m : (m <= 31)%nat -> 2 ^ N.of_nat m <= 2147483648.
Proof. intros H. change 2147483648 with (2 ^ 31). apply N.pow_le_mono_r; lia. Qed.
Lemma shl_ok a s m : a < 2 ^ N.of_nat m -> (m + s <= 31)%nat -> shl (Z.of_N a) s = Ok (Z.of_N (N.shiftl a (N.of_nat s))).
Proof.
  intros H Hs. unfold shl. rewrite Z_shiftl_N. apply chk_ok.
  assert (N.shiftl a (N.of_nat s) < 2 ^ N.of_nat (m + s)).
  { rewrite N.shiftl_mul_pow2. replace (N.of_nat (m + s)) with (N.of_nat m + N.of_nat s) by lia. rewrite N.pow_add_r.
    apply N.mul_lt_mono_pos_r; [|exact H]. apply N.neq_0_lt_0, N.pow_nonzero. discriminate. }
  pose proof (pow2_31 (m + s) Hs). lia.
Qed.
Lemma shiftl_lt a s m : a < 2 ^ m -> N.shiftl a s < 2 ^ (m + s).
Proof. intros H. rewrite N.shiftl_mul_pow2, N.pow_add_r. apply N.mul_lt_mono_pos_r; [|exact H]. apply N.neq_0_lt_0, N.pow_nonzero. discriminate. Qed.

Lemma to_nat_of_N x : Z.to_nat (Z.of_N x) = N.to_nat x.
Proof. lia. Qed.

(** ** counting ones *)
Lemma ones_double x : ones (2 * x) = ones x. Proof. destruct x; reflexivity. Qed.
Lemma ones_double1 x : ones (2 * x + 1) = S (ones x). Proof. destruct x; reflexivity. Qed.
Lemma ones_0 : ones 0 = 0%nat. Proof. reflexivity. Qed.
Lemma ones_b2n x b : ones (2 * x + N.b2n b) = ((if b then 1 else 0) + ones x)%nat.
Proof. destruct b; cbn [N.b2n]; [apply ones_double1|rewrite N.add_0_r; apply ones_double]. Qed.
Lemma ones_zero x : ones x = 0%nat -> x = 0.
Proof.
  destruct x as [|q]; [reflexivity|]. cbn [ones]. intros H. exfalso. revert H. induction q; cbn [ones_pos]; intros H; try lia; auto.
Qed.
Lemma ones_set e : forall x, N.testbit x (N.of_nat e) = false -> ones (N.lxor x (2 ^ N.of_nat e)) = S (ones x).
Proof.
  induction e as [|e IH]; intros x H.
  - change (N.of_nat 0) with 0 in *. change (2 ^ 0) with 1. rewrite (N.div2_odd x) at 1 2. rewrite N.bit0_odd in H. rewrite H. cbn [N.b2n]. rewrite N.add_0_r.
    replace (N.lxor (2 * N.div2 x) 1) with (2 * N.div2 x + 1); [rewrite ones_double, ones_double1; reflexivity|]. destruct (N.div2 x); reflexivity.
  - rewrite (N.div2_odd x) at 1 2. set (d := N.div2 x). set (b := N.odd x).
    assert (Hd : N.testbit d (N.of_nat e) = false).
    { unfold d. rewrite N.div2_spec, N.shiftr_spec'. rewrite <- H. f_equal. lia. }
    replace (N.lxor (2 * d + N.b2n b) (2 ^ N.of_nat (S e))) with (2 * N.lxor d (2 ^ N.of_nat e) + N.b2n b).
    + rewrite !ones_b2n. rewrite IH by exact Hd. lia.
    + rewrite Nat2N.inj_succ, N.pow_succ_r'. generalize (2 ^ N.of_nat e). intros y. destruct b; cbn [N.b2n]; rewrite ?N.add_0_r; destruct d, y; try reflexivity; cbn; destruct (Pos.lxor _ _); reflexivity.
Qed.
Lemma lxor_cancel a b : N.lxor (N.lxor a b) b = a.
Proof. rewrite N.lxor_assoc, N.lxor_nilpotent, N.lxor_0_r. reflexivity. Qed.
(** splitting off the highest one *)
Lemma ones_top x : x <> 0 -> exists e y, x = N.lxor y (2 ^ N.of_nat e) /\ y < 2 ^ N.of_nat e /\ N.of_nat e = N.log2 x /\ ones x = S (ones y).
Proof.
  intros Hx. exists (N.to_nat (N.log2 x)), (N.lxor x (2 ^ N.log2 x)). rewrite N2Nat.id.
  assert (E : x = N.lxor (N.lxor x (2 ^ N.log2 x)) (2 ^ N.log2 x)) by (symmetry; apply lxor_cancel).
  assert (B : N.lxor x (2 ^ N.log2 x) < 2 ^ N.log2 x).
  { apply tb_lt. intros i Hi. rewrite N.lxor_spec, N.pow2_bits_eqb. destruct (N.eqb_spec (N.log2 x) i) as [<-|Hne].
    - rewrite N.bit_log2 by exact Hx. reflexivity.
    - rewrite N.bits_above_log2 by lia. reflexivity. }
  split; [exact E|]. split; [exact B|]. split; [reflexivity|].
  rewrite E at 1. rewrite <- (N2Nat.id (N.log2 x)) at 2. apply ones_set. rewrite N2Nat.id. apply tb_ge with (N.log2 x); [exact B|lia].
Qed.

Section Code.
Variables n k : nat.
Variable g : N.
Hypothesis Hk : (1 <= k < n)%nat.
Hypothesis Hn : (n <= 31)%nat.
Hypothesis Hp : (n - k <= 15)%nat.
Let p := (n - k)%nat.
Hypothesis HG : has_degree g (N.of_nat (n - k)).

Definition isrem (x r : N) : Prop := r < 2 ^ N.of_nat (n - k) /\ exists q, x = N.lxor (clmul q g) r.
Lemma isrem_unique x r s : isrem x r -> isrem x s -> r = s.
Proof. intros (H1 & q1 & E1) (H2 & q2 & E2). apply (residue_unique (N.of_nat (n - k)) g ltac:(lia) HG x q1 r q2 s); assumption. Qed.
Lemma isrem_lxor a b r s : isrem a r -> isrem b s -> isrem (N.lxor a b) (N.lxor r s).
Proof.
  intros (H1 & q1 & E1) (H2 & q2 & E2). split; [apply lxor_lt; assumption|]. exists (N.lxor q1 q2). rewrite clmul_lxor_l, E1, E2.
  rewrite (lxor_swap (clmul q1 g)). reflexivity.
Qed.
Lemma isrem_small r : r < 2 ^ N.of_nat (n - k) -> isrem r r.
Proof. intros H. split; [exact H|]. exists 0. reflexivity. Qed.
Lemma pow2_nz m : 0 < 2 ^ m. Proof. apply N.neq_0_lt_0, N.pow_nonzero. discriminate. Qed.
Lemma codeword_isrem c : codeword n g c <-> c < 2 ^ N.of_nat n /\ isrem c 0.
Proof.
  unfold codeword, isrem. split.
  - intros (H & q & E). split; [exact H|]. split; [apply pow2_nz|]. exists q. rewrite N.lxor_0_r. exact E.
  - intros (H & _ & q & E). split; [exact H|]. exists q. rewrite N.lxor_0_r in E. exact E.
Qed.

Lemma g_bits : N.testbit g (N.of_nat (n - k)) = true /\ forall i, N.of_nat (n - k) < i -> N.testbit g i = false.
Proof. split; [apply P_bit; first [assumption|lia]|intros; apply P_high with (N.of_nat (n - k)); first [assumption|lia]]. Qed.

Lemma modgen_ok x : x < 2 ^ N.of_nat n -> exists r, sb_modgen n k (Z.of_N g) (Z.of_N x) = Ok (Z.of_N r) /\ isrem x r.
Proof.
  intros Hx. unfold sb_modgen. destruct g_bits as (GB & GH).
  edestruct (for_down_inv (fun i s => exists r q, s = Z.of_N r /\ r < 2 ^ N.of_nat (i + (n - k)) /\ x = N.lxor (clmul q g) r)) as (s & E & r & q & -> & B & X).
  4: { exists r. split; [exact E|]. split; [exact B|]. exists q. exact X. }
  - lia.
  - intros j s Hj (r & q & -> & B & X). cbv beta zeta.
    rewrite (shl_ok g j (n - k + 1)).
    2: { destruct HG as (_ & H). replace (N.of_nat (n - k + 1)) with (N.of_nat (n - k) + 1) by lia. exact H. }
    2: lia.
    cbn [bind]. rewrite Z_shiftr_N. change 1%Z with (Z.of_N 1). rewrite Z_land_N.
    set (b := N.testbit r (N.of_nat (j + (n - k)))).
    assert (Eb : N.land (N.shiftr r (N.of_nat (j + (n - k)))) 1 = N.b2n b).
    { change 1 with (N.ones 1). rewrite N.land_ones. change (2 ^ 1) with 2. rewrite <- N.bit0_mod, N.shiftr_spec', N.add_0_l. reflexivity. }
    rewrite Eb, <- N2Z.inj_mul, Z_lxor_N. eexists. split; [reflexivity|].
    exists (N.lxor r (N.b2n b * N.shiftl g (N.of_nat j))), (N.lxor q (N.b2n b * 2 ^ N.of_nat j)). split; [reflexivity|]. split.
    + apply tb_lt. intros i Hi. rewrite N.lxor_spec. destruct (N.eq_dec i (N.of_nat (j + (n - k)))) as [->|Hne].
      * fold b. destruct b; cbn [N.b2n]; [rewrite N.mul_1_l, N.shiftl_spec_high' by lia|rewrite N.mul_0_l, N.bits_0; reflexivity].
        replace (N.of_nat (j + (n - k)) - N.of_nat j) with (N.of_nat (n - k)) by lia. rewrite GB. reflexivity.
      * rewrite (tb_ge r (N.of_nat (S j + (n - k)))) by (assumption || lia).
        destruct b; cbn [N.b2n]; [rewrite N.mul_1_l, N.shiftl_spec_high' by lia|rewrite N.mul_0_l, N.bits_0; reflexivity].
        rewrite GH by lia. reflexivity.
    + rewrite clmul_lxor_l, X. replace (clmul (N.b2n b * 2 ^ N.of_nat j) g) with (N.b2n b * N.shiftl g (N.of_nat j)).
      * rewrite lxor_swap, N.lxor_nilpotent, N.lxor_0_r. reflexivity.
      * destruct b; cbn [N.b2n]; [rewrite !N.mul_1_l, clmul_pow2; reflexivity|reflexivity].
  - exists x, 0. split; [reflexivity|]. split; [|reflexivity]. replace (k + (n - k))%nat with n by lia. exact Hx.
Qed.
Lemma isrem_ex x : x < 2 ^ N.of_nat n -> exists r, isrem x r.
Proof. intros H. destruct (modgen_ok x H) as (r & _ & R). exists r. exact R. Qed.

(** ** the parity table *)
Definition parOK (par : list (option Z)) : Prop :=
  length par = (2 ^ k)%nat /\
  forall i, (i < 2 ^ k)%nat -> exists r, nth i par None = Some (Z.of_N r) /\ isrem (N.shiftl (N.of_nat i) (N.of_nat (n - k))) r.
Lemma msg_shift i : (i < 2 ^ k)%nat -> N.shiftl (N.of_nat i) (N.of_nat (n - k)) < 2 ^ N.of_nat n.
Proof.
  intros H. replace (N.of_nat n) with (N.of_nat k + N.of_nat (n - k)) by lia. apply shiftl_lt. rewrite <- pow2_of_nat. lia.
Qed.
Lemma par_ok : exists par, sb_par n k (Z.of_N g) = Ok par /\ parOK par.
Proof.
  unfold sb_par.
  edestruct (for_up_inv (fun i par => length par = (2 ^ k)%nat /\
     forall j, (j < i)%nat -> exists r, nth j par None = Some (Z.of_N r) /\ isrem (N.shiftl (N.of_nat j) (N.of_nat (n - k))) r)) as (par & E & L & V).
  4: { exists par. split; [exact E|]. split; [exact L|exact V]. }
  - lia.
  - intros i par Hi (L & V). cbv beta. rewrite <- nat_N_Z. rewrite (shl_ok _ _ k) by (try (rewrite <- pow2_of_nat); lia). cbn [bind].
    destruct (modgen_ok _ (msg_shift i ltac:(lia))) as (r & E & R). rewrite E. cbn [bind].
    assert (Es : to_short (Z.of_N r) = Z.of_N r).
    { destruct R as (B & _). assert (2 ^ N.of_nat (n - k) <= 2 ^ 15) by (apply N.pow_le_mono_r; lia). change (2 ^ 15) with 32768 in *.
      unfold to_short. rewrite Z.mod_small by lia. lia. }
    rewrite Es. unfold wru. rewrite wr_Ok by lia. eexists. split; [reflexivity|]. rewrite length_upd. split; [exact L|].
    intros j Hj. rewrite nth_upd. destruct (Nat.eqb_spec i j) as [->|Hne].
    + destruct (Nat.ltb_spec j (length par)); [|lia]. cbn [andb]. exists r. split; [reflexivity|exact R].
    + cbn [andb]. apply V. lia.
  - split; [unfold uninit; apply repeat_length|intros; lia].
Qed.
Lemma rd_par par m : parOK par -> m < 2 ^ N.of_nat k -> exists r, rduZ' par (Z.of_N m) = Ok (Z.of_N r) /\ isrem (N.shiftl m (N.of_nat (n - k))) r.
Proof.
  intros (L & V) H. destruct (V (N.to_nat m)) as (r & E & R); [rewrite <- pow2_of_nat in H; lia|]. rewrite N2Nat.id in R.
  exists r. split; [|exact R]. unfold rduZ'. destruct (Z.ltb_spec (Z.of_N m) 0); [lia|]. apply rdu_nth.
  rewrite to_nat_of_N. exact E.
Qed.

Lemma lor_low m r s : r < 2 ^ s -> N.lor (N.shiftl m s) r = N.lxor (N.shiftl m s) r /\ N.shiftr (N.lor (N.shiftl m s) r) s = m /\ N.lor (N.shiftl m s) r mod 2 ^ s = r.
Proof.
  intros H. repeat split.
  - apply N.bits_inj. intros i. rewrite N.lor_spec, N.lxor_spec. destruct (N.lt_ge_cases i s).
    + rewrite N.shiftl_spec_low by assumption. destruct (N.testbit r i); reflexivity.
    + rewrite (tb_ge r s i) by assumption. destruct (N.testbit (N.shiftl m s) i); reflexivity.
  - apply N.bits_inj. intros i. rewrite N.shiftr_spec', N.lor_spec, N.shiftl_spec_high' by lia. rewrite (tb_ge r s (i + s)) by (assumption || lia).
    rewrite orb_false_r. f_equal. lia.
  - apply N.bits_inj. intros i. destruct (N.lt_ge_cases i s).
    + rewrite N.mod_pow2_bits_low, N.lor_spec, N.shiftl_spec_low by assumption. reflexivity.
    + rewrite N.mod_pow2_bits_high by assumption. rewrite (tb_ge r s i) by assumption. reflexivity.
Qed.
Lemma encode_ok par m : parOK par -> m < 2 ^ N.of_nat k ->
  exists c, sb_encode n k par (Z.of_N m) = Ok (Z.of_N c) /\ codeword n g c /\ N.shiftr c (N.of_nat (n - k)) = m.
Proof.
  intros HP Hm. unfold sb_encode. rewrite (shl_ok _ _ k) by (assumption || lia). cbn [bind].
  destruct (rd_par par m HP Hm) as (r & E & R). rewrite E. cbn [bind]. rewrite Z_lor_N. eexists. split; [reflexivity|].
  pose proof R as (B & _). destruct (lor_low m r _ B) as (X1 & X2 & _). split; [|exact X2]. rewrite X1. apply codeword_isrem. split.
  - apply lxor_lt.
    + replace (N.of_nat n) with (N.of_nat k + N.of_nat (n - k)) by lia. apply shiftl_lt. exact Hm.
    + eapply N.lt_le_trans; [exact B|]. apply N.pow_le_mono_r; lia.
  - rewrite <- (N.lxor_nilpotent r). apply isrem_lxor; [exact R|]. apply isrem_small. exact B.
Qed.
(** codewords with the same message part are equal *)
Lemma codeword_msg c c' : codeword n g c -> codeword n g c' -> N.shiftr c (N.of_nat (n - k)) = N.shiftr c' (N.of_nat (n - k)) -> c = c'.
Proof.
  intros (H1 & q1 & E1) (H2 & q2 & E2) E. apply (proj1 (lxor_eq0 _ _)).
  assert (B : N.lxor c c' < 2 ^ N.of_nat (n - k)).
  { apply tb_lt. intros i Hi. rewrite N.lxor_spec. replace i with (i - N.of_nat (n - k) + N.of_nat (n - k)) by lia.
    rewrite <- !N.shiftr_spec'. rewrite E. apply xorb_nilpotent. }
  apply (isrem_unique (N.lxor c c')).
  - apply isrem_small. exact B.
  - split; [apply pow2_nz|]. exists (N.lxor q1 q2). rewrite clmul_lxor_l, N.lxor_0_r, E1, E2. reflexivity.
Qed.
(** every codeword is the encoding of its message part *)
Lemma codeword_encode par c : parOK par -> codeword n g c ->
  sb_encode n k par (Z.of_N (N.shiftr c (N.of_nat (n - k)))) = Ok (Z.of_N c) /\ N.shiftr c (N.of_nat (n - k)) < 2 ^ N.of_nat k.
Proof.
  intros HP HC. assert (B : N.shiftr c (N.of_nat (n - k)) < 2 ^ N.of_nat k).
  { destruct HC as (H & _). apply tb_lt. intros i Hi. rewrite N.shiftr_spec'. apply tb_ge with (N.of_nat n); [exact H|lia]. }
  split; [|exact B]. destruct (encode_ok par _ HP B) as (c' & E & C' & S'). rewrite E. do 2 f_equal. apply codeword_msg; assumption.
Qed.

(** ** the error table *)
Variable t : nat.
Definition errOK (err : list Z) : Prop :=
  length err = (2 ^ (n - k))%nat /\
  forall i, (i < 2 ^ (n - k))%nat -> exists e, nth i err 0%Z = Z.of_N e /\ (e <> 0 -> e < 2 ^ N.of_nat n /\ (ones e <= t)%nat /\ isrem e (N.of_nat i)).
Definition covers (err : list Z) (e : N) : Prop := forall r, isrem e r -> nth (N.to_nat r) err 0%Z <> 0%Z.
Definition einv (D : N -> Prop) (err : list Z) : Prop := errOK err /\ forall e, D e -> covers err e.
Lemma einv_mono (D D' : N -> Prop) err : einv D err -> (forall e, D' e -> D e) -> einv D' err.
Proof. intros (H1 & H2) H. split; [exact H1|]. intros e He. apply H2, H, He. Qed.
Lemma set_ok D err e : einv D err -> e <> 0 -> e < 2 ^ N.of_nat n -> (ones e <= t)%nat ->
  exists err', sb_set n k (Z.of_N g) (Z.of_N e) err = Ok err' /\ einv (fun x => D x \/ x = e) err'.
Proof.
  intros ((L & V) & C) He Hb Ho. unfold sb_set. destruct (modgen_ok e Hb) as (r & E & R). rewrite E. cbn [bind].
  pose proof R as (B & _). rewrite <- pow2_of_nat in B. rewrite wrZ_Ok by lia. eexists. split; [reflexivity|].
  rewrite to_nat_of_N. split; [split|].
  - rewrite length_upd. exact L.
  - intros i Hi. rewrite nth_upd. destruct (Nat.eqb_spec (N.to_nat r) i) as [<-|Hne].
    + destruct (Nat.ltb_spec (N.to_nat r) (length err)); [|lia]. cbn [andb]. exists e. split; [reflexivity|]. intros _. rewrite N2Nat.id. auto.
    + cbn [andb]. apply V. exact Hi.
  - intros x Hx s Hs. rewrite nth_upd. destruct (Nat.eqb_spec (N.to_nat r) (N.to_nat s)) as [Ers|Hne].
    + destruct (Nat.ltb_spec (N.to_nat r) (length err)); [cbn [andb]; lia|lia].
    + cbn [andb]. destruct Hx as [Hx| ->]; [apply (C x Hx); exact Hs|]. exfalso. apply Hne. f_equal. eapply isrem_unique; eassumption.
Qed.

Definition top (e : nat) : Z := Z.shiftr (Z.of_N (2 ^ N.of_nat e)) 1.
Lemma top_S e : top (S e) = Z.of_N (2 ^ N.of_nat e).
Proof. unfold top. change 1%Z with (Z.of_nat 1). rewrite Z_shiftr_N. f_equal. change (N.of_nat 1) with 1. rewrite N.shiftr_div_pow2, Nat2N.inj_succ, N.pow_succ_r'. change (2 ^ 1) with 2.
  rewrite N.mul_comm, N.div_mul by discriminate. reflexivity. Qed.
Lemma top_0 : top 0 = 0%Z. Proof. reflexivity. Qed.
Lemma halving_inv {S'} (I : nat -> S' -> Prop) body e s : (e <= 32)%nat ->
  (forall j s, (j < e)%nat -> I (S j) s -> exists s', body (Z.of_N (2 ^ N.of_nat j)) s = Ok s' /\ I j s') ->
  I e s -> exists s', halving true body (top e) s = Ok s' /\ I 0%nat s'.
Proof.
  intros He Hb Hi. unfold halving.
  edestruct (while_inv (fun '((a, s) : Z * S') => exists j, (j <= e)%nat /\ a = top j /\ I j s) (fun '(a, _) => match N.size_nat (Z.to_N a) with O => O | S m => S m end)) as ([a s'] & E & (j & Hj & -> & HI) & C).
  4: { rewrite E. cbn [bind]. exists s'. split; [reflexivity|]. cbv beta iota in C. injection C as C.
       destruct j as [|j]; [exact HI|]. rewrite top_S in C. pose proof (pow2_nz (N.of_nat j)). cbn [andb] in C. exfalso. destruct (Z.eqb_spec (Z.of_N (2 ^ N.of_nat j)) 0); [lia|discriminate]. }
  - intros [a s'] (j & Hj & -> & HI). eexists. split; [reflexivity|]. intros C. destruct j as [|j]; [discriminate|]. rewrite top_S in *.
    destruct (Hb j s' ltac:(lia) HI) as (s2 & E2 & I2). rewrite E2. cbn [bind]. eexists. split; [reflexivity|]. split.
    + exists j. split; [lia|]. split; [reflexivity|exact I2].
    + fold (top j). rewrite N2Z.id. assert (SZ : forall m, N.size_nat (2 ^ N.of_nat m) = S m).
      { clear. induction m as [|m IH]; [reflexivity|]. rewrite Nat2N.inj_succ, N.pow_succ_r'. destruct (2 ^ N.of_nat m) as [|q]; [discriminate|]. cbn in *. lia. }
      rewrite SZ. destruct j as [|j]; [cbn; lia|]. rewrite top_S, N2Z.id, SZ. lia.
  - exists e. split; [lia|]. split; [reflexivity|exact Hi].
  - cbv beta iota. destruct e as [|e]; [cbn; lia|]. rewrite top_S, N2Z.id.
    assert (SZ : forall m, N.size_nat (2 ^ N.of_nat m) = S m).
    { clear. induction m as [|m IH]; [reflexivity|]. rewrite Nat2N.inj_succ, N.pow_succ_r'. destruct (2 ^ N.of_nat m) as [|q]; [discriminate|]. cbn in *. lia. }
    rewrite SZ. lia.
Qed.
Lemma halving_off {S'} body a (s : S') : halving false body a s = Ok s. Proof. reflexivity. Qed.

Lemma pow2_ltn e : (e < n)%nat -> 2 ^ N.of_nat e < 2 ^ N.of_nat n.
Proof. intros H. apply N.pow_lt_mono_r; lia. Qed.
Lemma lor_bit x e : N.testbit x (N.of_nat e) = false -> Z.lor (Z.of_N x) (Z.of_N (2 ^ N.of_nat e)) = Z.of_N (N.lxor x (2 ^ N.of_nat e)).
Proof. intros H. rewrite Z_lor_N. f_equal. rewrite N.lxor_lor; [reflexivity|]. rewrite land_pow2, H. reflexivity. Qed.
Lemma bit_pow2 a b : a <> b -> N.testbit (2 ^ N.of_nat a) (N.of_nat b) = false.
Proof. intros H. apply N.pow2_bits_false. lia. Qed.

Lemma err_ok : (1 <= t <= 3)%nat -> exists err, sb_err n k (Z.of_N g) t = Ok err /\
  einv (fun e => e <> 0 /\ e < 2 ^ N.of_nat n /\ (ones e <= t)%nat) err.
Proof.
  intros Ht. unfold sb_err. change 1%Z with (Z.of_N 1). rewrite (shl_ok 1 (n - 1) 1) by (try reflexivity; lia). cbn [bind].
  replace (Z.of_N (N.shiftl 1 (N.of_nat (n - 1)))) with (top n).
  2: { replace n with (S (n - 1)) at 1 by lia. rewrite top_S. f_equal. rewrite N.shiftl_1_l. reflexivity. }
  replace (1 <=? t)%nat with true by lia.
  set (P1 := fun a => 2 ^ N.of_nat a). set (P2 := fun a b => N.lxor (P1 a) (P1 b)). set (P3 := fun a b c => N.lxor (P2 a b) (P1 c)).
  set (D3 := fun a b lo => fun e => (3 <= t)%nat /\ exists c, (lo <= c < b)%nat /\ e = P3 a b c).
  set (D2 := fun a lo => fun e => (2 <= t)%nat /\ exists b, (lo <= b < a)%nat /\ (e = P2 a b \/ D3 a b 0%nat e)).
  set (D1 := fun lo => fun e => exists a, (lo <= a < n)%nat /\ (e = P1 a \/ D2 a 0%nat e)).
  assert (O1 : forall a, ones (P1 a) = 1%nat).
  { intros a. unfold P1. rewrite <- (N.lxor_0_l (2 ^ N.of_nat a)). rewrite ones_set by apply N.bits_0. reflexivity. }
  assert (O2 : forall a b, (b < a)%nat -> ones (P2 a b) = 2%nat).
  { intros a b H. unfold P2, P1. rewrite ones_set by (apply bit_pow2; lia). fold (P1 a). rewrite O1. reflexivity. }
  assert (O3 : forall a b c, (c < b < a)%nat -> ones (P3 a b c) = 3%nat).
  { intros a b c H. unfold P3. unfold P1 at 1. rewrite ones_set; [rewrite O2 by lia; reflexivity|].
    unfold P2, P1. rewrite N.lxor_spec, !bit_pow2 by lia. reflexivity. }
  assert (NZ : forall e, (0 < ones e)%nat -> e <> 0) by (intros e H ->; cbn in H; lia).
  edestruct (halving_inv (fun lo err => einv (D1 lo) err) (fun a err =>
    err <- sb_set n k (Z.of_N g) a err ;;
    halving (2 <=? t)%nat (fun b err =>
      err <- sb_set n k (Z.of_N g) (Z.lor a b) err ;;
      halving (3 <=? t)%nat (fun c err => sb_set n k (Z.of_N g) (Z.lor (Z.lor a b) c) err) (Z.shiftr b 1) err)
      (Z.shiftr a 1) err) n) as (err & E & I).
  4: { exists err. split; [exact E|]. eapply einv_mono; [exact I|]. intros e (E0 & EB & EO).
       destruct (ones_top e E0) as (a & y & Ey & By & La & Oy).
       assert (Ha : (a < n)%nat). { apply log2_lt in EB; [|exact E0]. lia. }
       exists a. split; [lia|]. destruct (N.eq_dec y 0) as [->|Y0]; [left; rewrite Ey; apply N.lxor_0_l|right].
       destruct (ones_top y Y0) as (b & z & Ez & Bz & Lb & Oz). apply log2_lt in By; [|exact Y0].
       split; [lia|]. exists b. split; [lia|]. destruct (N.eq_dec z 0) as [->|Z0].
       { left. rewrite Ey, Ez, N.lxor_0_l. unfold P2, P1. apply N.lxor_comm. }
       right. destruct (ones_top z Z0) as (c & w & Ew & Bw & Lc & Ow). apply log2_lt in Bz; [|exact Z0].
       split; [lia|]. exists c. split; [lia|]. assert (w = 0) by (apply ones_zero; lia). subst w.
       rewrite Ey, Ez, Ew, N.lxor_0_l. unfold P3, P2, P1. apply N.bits_inj. intros i. rewrite !N.lxor_spec.
       destruct (N.testbit (2 ^ N.of_nat a) i), (N.testbit (2 ^ N.of_nat b) i), (N.testbit (2 ^ N.of_nat c) i); reflexivity. }
  - lia.
  - intros a err Ha HI. cbv beta. fold (P1 a).
    destruct (set_ok _ err (P1 a) HI) as (err1 & E1 & I1); [apply NZ; rewrite O1; lia|apply pow2_ltn; lia|rewrite O1; lia|].
    rewrite E1. cbn [bind]. destruct (Nat.leb_spec 2 t) as [T2|T2].
    2: { rewrite halving_off. eexists. split; [reflexivity|]. eapply einv_mono; [exact I1|]. intros e (a' & Ha' & [->|(T & _)]); [|lia].
         destruct (Nat.eq_dec a' a) as [->|]; [right; reflexivity|left]. exists a'. split; [lia|left; reflexivity]. }
    change (Z.shiftr (Z.of_N (P1 a)) 1) with (top a).
    edestruct (halving_inv (fun lo err => einv (fun e => (D1 (S a) e \/ e = P1 a) \/ D2 a lo e) err)) as (err2 & E2 & I2).
    4: { rewrite E2. eexists. split; [reflexivity|]. eapply einv_mono; [exact I2|]. intros e (a' & Ha' & He).
         destruct (Nat.eq_dec a' a) as [->|].
         - destruct He as [->|He]; [left; right; reflexivity|right; exact He].
         - left; left. exists a'. split; [lia|exact He]. }
    + lia.
    + intros b errb Hb HIb. cbv beta. rewrite (lor_bit (P1 a) b) by (apply bit_pow2; lia). change (N.lxor (P1 a) (2 ^ N.of_nat b)) with (P2 a b).
      destruct (set_ok _ errb (P2 a b) HIb) as (err3 & E3 & I3); [apply NZ; rewrite O2; lia|apply lxor_lt; apply pow2_ltn; lia|rewrite O2; lia|].
      rewrite E3. cbn [bind]. destruct (Nat.leb_spec 3 t) as [T3|T3].
      2: { rewrite halving_off. eexists. split; [reflexivity|]. eapply einv_mono; [exact I3|]. intros e [He|(_ & b' & Hb' & [->|(T & _)])]; [left; left; exact He| |lia].
           destruct (Nat.eq_dec b' b) as [->|]; [right; reflexivity|left; right]. split; [lia|]. exists b'. split; [lia|left; reflexivity]. }
      change (Z.shiftr (Z.of_N (2 ^ N.of_nat b)) 1) with (top b).
      edestruct (halving_inv (fun lo err => einv (fun e => (((D1 (S a) e \/ e = P1 a) \/ D2 a (S b) e) \/ e = P2 a b) \/ D3 a b lo e) err)) as (err4 & E4 & I4).
      4: { rewrite E4. eexists. split; [reflexivity|]. eapply einv_mono; [exact I4|]. intros e [He|(T & b' & Hb' & He)]; [left; left; left; exact He|].
           destruct (Nat.eq_dec b' b) as [->|].
           - destruct He as [->|He]; [left; right; reflexivity|right; exact He].
           - left; left; right. split; [lia|]. exists b'. split; [lia|exact He]. }
      * lia.
      * intros c errc Hc HIc. cbv beta. 
        rewrite (lor_bit (P2 a b) c) by (unfold P2, P1; rewrite N.lxor_spec, !bit_pow2 by lia; reflexivity). change (N.lxor (P2 a b) (2 ^ N.of_nat c)) with (P3 a b c).
        destruct (set_ok _ errc (P3 a b c) HIc) as (err5 & E5 & I5); [apply NZ; rewrite O3; lia|apply lxor_lt; [apply lxor_lt|]; apply pow2_ltn; lia|rewrite O3; lia|].
        rewrite E5. eexists. split; [reflexivity|]. eapply einv_mono; [exact I5|]. intros e [He|(T & c' & Hc' & ->)]; [left; left; exact He|].
        destruct (Nat.eq_dec c' c) as [->|]; [right; reflexivity|left; right]. split; [lia|]. exists c'. split; [lia|reflexivity].
      * eapply einv_mono; [exact I3|]. intros e [[He|He]|(T & c' & Hc' & _)]; [left; exact He|right; exact He|lia].
    + eapply einv_mono; [exact I1|]. intros e [[He|He]|(T & b' & Hb' & _)]; [left; exact He|right; exact He|lia].
  - split; [split|].
    + apply repeat_length.
    + intros i Hi. exists 0. split; [|congruence]. rewrite nth_repeat. reflexivity.
    + intros e (a & Ha & _). lia.
Qed.

(** ** hard decision decoding *)
Lemma hard_ok par err x : parOK par -> einv (fun e => e <> 0 /\ e < 2 ^ N.of_nat n /\ (ones e <= t)%nat) err -> x < 2 ^ N.of_nat n ->
  exists r, sb_hard n k par err (Z.of_N x) = Ok r /\
  ((exists c, r = Z.of_N c /\ codeword n g c /\ (distance x c <= t)%nat) \/
   (r = (-1)%Z /\ forall c, codeword n g c -> (t < distance x c)%nat)).
Proof.
  intros HP ((L & V) & C) Hx. unfold sb_hard. rewrite Z_shiftr_N.
  set (hi := N.shiftr x (N.of_nat (n - k))).
  assert (Bhi : hi < 2 ^ N.of_nat k).
  { apply tb_lt. intros i Hi. unfold hi. rewrite N.shiftr_spec'. apply tb_ge with (N.of_nat n); [exact Hx|lia]. }
  destruct (rd_par par hi HP Bhi) as (r & E & R). rewrite E. cbn [bind]. pose proof R as (Br & _).
  rewrite Z_lxor_N. replace (2 ^ Z.of_nat (n - k) - 1)%Z with (Z.of_N (N.ones (N.of_nat (n - k)))).
  2: { rewrite N.ones_equiv, N.pred_sub, Z_pow2_N. pose proof (pow2_nz (N.of_nat (n - k))). lia. }
  rewrite Z_land_N, N.land_ones. set (lo := x mod 2 ^ N.of_nat (n - k)).
  assert (Blo : lo < 2 ^ N.of_nat (n - k)) by (apply N.mod_lt, N.pow_nonzero; discriminate).
  assert (Ex : x = N.lxor (N.shiftl hi (N.of_nat (n - k))) lo).
  { apply N.bits_inj. intros i. rewrite N.lxor_spec. unfold lo, hi. destruct (N.lt_ge_cases i (N.of_nat (n - k))).
    - rewrite N.mod_pow2_bits_low, N.shiftl_spec_low by assumption. symmetry. apply xorb_false_l.
    - rewrite N.mod_pow2_bits_high, N.shiftl_spec_high', N.shiftr_spec', xorb_false_r by assumption. f_equal. lia. }
  assert (ES : N.lxor r x mod 2 ^ N.of_nat (n - k) = N.lxor r lo).
  { apply N.bits_inj. intros i. rewrite N.lxor_spec. unfold lo. destruct (N.lt_ge_cases i (N.of_nat (n - k))).
    - rewrite !N.mod_pow2_bits_low, N.lxor_spec by assumption. reflexivity.
    - rewrite !N.mod_pow2_bits_high by assumption. rewrite (tb_ge r (N.of_nat (n - k)) i) by assumption. reflexivity. }
  rewrite ES. set (syn := N.lxor r lo).
  assert (RS : isrem x syn). { rewrite Ex. apply isrem_lxor; [exact R|apply isrem_small; exact Blo]. }
  pose proof RS as (BS & _). rewrite <- pow2_of_nat in BS.
  rewrite (rdZ_nth err (Z.of_N syn) 0%Z) by lia. cbn [bind]. rewrite to_nat_of_N.
  destruct (V (N.to_nat syn) ltac:(lia)) as (e & Ee & He). rewrite Ee. rewrite N2Nat.id in He.
  destruct (Z.eqb_spec (Z.of_N e) 0) as [E0|E0]; cbn [negb orb].
  - destruct (Z.eqb_spec (Z.of_N syn) 0) as [S0|S0].
    + eexists. split; [reflexivity|]. left. exists x. rewrite E0. split; [apply Z.lxor_0_r|].
      assert (syn = 0) by lia. split; [apply codeword_isrem; split; [exact Hx|]; congruence|]. unfold distance. rewrite N.lxor_nilpotent. cbn. lia.
    + eexists. split; [reflexivity|]. right. split; [reflexivity|]. intros c HC. destruct (Nat.lt_ge_cases t (distance x c)) as [|D]; [assumption|exfalso].
      apply codeword_isrem in HC. destruct HC as (Bc & Rc).
      assert (Rd : isrem (N.lxor x c) syn) by (rewrite <- (N.lxor_0_r syn); apply isrem_lxor; assumption).
      refine (C (N.lxor x c) _ syn Rd _); [|rewrite Ee; exact E0].
      split; [|split; [apply lxor_lt; assumption|exact D]]. intros Z. rewrite Z in Rd. apply S0.
      rewrite (isrem_unique 0 syn 0 Rd); [reflexivity|]. apply isrem_small. apply pow2_nz.
  - destruct (He ltac:(lia)) as (Be & Oe & Re). rewrite Z_lxor_N. eexists. split; [reflexivity|]. left. exists (N.lxor x e). split; [reflexivity|]. split.
    + apply codeword_isrem. split; [apply lxor_lt; assumption|]. rewrite <- (N.lxor_nilpotent syn). apply isrem_lxor; assumption.
    + unfold distance. rewrite <- N.lxor_assoc, N.lxor_nilpotent, N.lxor_0_l. exact Oe.
Qed.
End Code.
