(** Proofs about permute.hh. *)
From Coq Require Import ZifyBool ZifyNat ZifyN Permutation.
From Verif Require Import Cpp Lib_list Model_xorshift Model_perm Spec_perm.

(** ** swap *)
Definition swp {A} (a : list A) (i j : nat) : list A :=
  match nth_error a i, nth_error a j with
  | Some x, Some y => upd (upd a i y) j x
  | _, _ => a
  end.

Lemma swap_swp {A} (a : list A) i j : i < length a -> j < length a -> swap a i j = Ok (swp a i j).
Proof.
  intros Hi Hj. unfold swap, swp, rd.
  destruct (nth_error a i) eqn:Ei; [|apply nth_error_None in Ei; lia].
  destruct (nth_error a j) eqn:Ej; [|apply nth_error_None in Ej; lia].
  cbn [bind]. rewrite wr_Ok by lia. cbn [bind]. rewrite wr_Ok by (rewrite length_upd; lia). reflexivity.
Qed.
Lemma length_swp {A} (a : list A) i j : length (swp a i j) = length a.
Proof. unfold swp. destruct (nth_error a i), (nth_error a j); rewrite ?length_upd; reflexivity. Qed.
Lemma nth_error_swp {A} (a : list A) i j x : i < length a -> j < length a ->
  nth_error (swp a i j) x = if x =? j then nth_error a i else if x =? i then nth_error a j else nth_error a x.
Proof.
  intros Hi Hj. unfold swp.
  destruct (nth_error a i) eqn:Ei; [|apply nth_error_None in Ei; lia].
  destruct (nth_error a j) eqn:Ej; [|apply nth_error_None in Ej; lia].
  rewrite !nth_error_upd, length_upd.
  destruct (Nat.eqb_spec j x), (Nat.eqb_spec x j); try lia.
  - destruct (Nat.ltb_spec j (length a)); [reflexivity|lia].
  - cbn [andb]. destruct (Nat.eqb_spec i x), (Nat.eqb_spec x i); try lia; [|reflexivity].
    destruct (Nat.ltb_spec i (length a)); [reflexivity|lia].
Qed.
Lemma swp_swp {A} (a : list A) i j : i < length a -> j < length a -> swp (swp a i j) i j = a.
Proof.
  intros Hi Hj. apply nth_error_ext'; [rewrite !length_swp; reflexivity|]. intros x _.
  rewrite nth_error_swp by (rewrite length_swp; assumption). rewrite !nth_error_swp by assumption.
  destruct (Nat.eqb_spec x j) as [->|]; [|destruct (Nat.eqb_spec x i) as [->|]; [|reflexivity]].
  - rewrite !Nat.eqb_refl. destruct (Nat.eqb_spec i j) as [->|]; reflexivity.
  - rewrite Nat.eqb_refl. reflexivity.
Qed.
Lemma swp_perm {A} (a : list A) i j : i < length a -> j < length a -> Permutation a (swp a i j).
Proof.
  intros Hi Hj. apply Permutation_nth_error. split; [rewrite length_swp; reflexivity|].
  exists (fun x => if x =? j then i else if x =? i then j else x). split.
  - intros x y. destruct (Nat.eqb_spec x j), (Nat.eqb_spec y j), (Nat.eqb_spec x i), (Nat.eqb_spec y i); lia.
  - intros x. rewrite nth_error_swp by assumption.
    destruct (x =? j); [reflexivity|]. destruct (x =? i); reflexivity.
Qed.

(** ** Fisher-Yates *)
Section FY.
Context {A : Type} (SIZE : nat).
Definition fy_y (i : nat) : N := N.iter (N.of_nat i) xs32 xs32_Y.
Definition fy_k (i : nat) : nat := snd (fy_pick SIZE i (fy_y i)).
Lemma fy_pick_eq i : fy_pick SIZE i (fy_y i) = (fy_y (S i), fy_k i).
Proof.
  unfold fy_k, fy_pick. cbn [snd]. f_equal. unfold fy_y.
  replace (N.of_nat (S i)) with (N.succ (N.of_nat i)) by lia. rewrite N.iter_succ. reflexivity.
Qed.
Lemma fy_k_range i : i < SIZE - 1 -> i <= fy_k i < SIZE.
Proof.
  intros H. unfold fy_k, fy_pick. cbn [snd].
  pose proof (N.mod_lt (xs32 (fy_y i)) (N.of_nat (SIZE - i)) ltac:(lia)). lia.
Qed.

Fixpoint fwd (n : nat) (a : list A) : list A :=
  match n with O => a | S k => swp (fwd k a) k (fy_k k) end.
Fixpoint bwd (n : nat) (a : list A) : list A :=
  match n with O => a | S k => bwd k (swp a k (fy_k k)) end.
Lemma length_fwd n a : length (fwd n a) = length a.
Proof. induction n; cbn [fwd]; rewrite ?length_swp; auto. Qed.
Lemma length_bwd n a : length (bwd n a) = length a.
Proof. revert a; induction n; intros a; cbn [bwd]; [reflexivity|]. rewrite IHn, length_swp. reflexivity. Qed.
Lemma bwd_fwd n a : n <= SIZE - 1 -> SIZE <= length a -> bwd n (fwd n a) = a.
Proof.
  revert a. induction n as [|n IH]; intros a Hn Hl; cbn [bwd fwd]; [reflexivity|].
  pose proof (fy_k_range n ltac:(lia)).
  rewrite swp_swp by (rewrite length_fwd; lia). apply IH; lia.
Qed.
Lemma fwd_bwd n a : n <= SIZE - 1 -> SIZE <= length a -> fwd n (bwd n a) = a.
Proof.
  revert a. induction n as [|n IH]; intros a Hn Hl; cbn [bwd fwd]; [reflexivity|].
  pose proof (fy_k_range n ltac:(lia)).
  rewrite IH by (rewrite ?length_swp; lia). apply swp_swp; lia.
Qed.
Lemma fwd_perm n a : n <= SIZE - 1 -> SIZE <= length a -> Permutation a (fwd n a).
Proof.
  induction n as [|n IH]; intros Hn Hl; cbn [fwd]; [apply Permutation_refl|].
  pose proof (fy_k_range n ltac:(lia)).
  eapply Permutation_trans; [apply IH; lia|]. apply swp_perm; rewrite length_fwd; lia.
Qed.

Lemma fisher_yates_fwd a : SIZE <= length a -> fisher_yates SIZE a = Ok (fwd (SIZE - 1) a).
Proof.
  intros Hl. unfold fisher_yates.
  edestruct (for_up_inv (fun i '(y, b) => y = fy_y i /\ b = fwd i a)) as ((y & b) & E & (_ & ->)).
  4: rewrite E; reflexivity.
  - lia.
  - intros i (y & b) Hi (-> & ->). rewrite fy_pick_eq. pose proof (fy_k_range i ltac:(lia)).
    rewrite swap_swp by (rewrite length_fwd; lia). cbn [bind]. eexists. split; [reflexivity|]. split; reflexivity.
  - split; reflexivity.
Qed.

Lemma rfy_ctor_ok : exists sq, rfy_ctor SIZE = Ok sq /\ length sq = SIZE - 1 /\
  forall i, i < SIZE - 1 -> nth i sq None = Some (fy_k i).
Proof.
  unfold rfy_ctor.
  edestruct (for_up_inv (fun i '(y, sq) => y = fy_y i /\ length sq = SIZE - 1 /\
      forall x, x < i -> nth x sq None = Some (fy_k x))) as ((y & sq) & E & (_ & H)).
  4: { rewrite E. exists sq. split; [reflexivity|]. exact H. }
  - lia.
  - intros i (y & sq) Hi (-> & L & H). rewrite fy_pick_eq. unfold wru. rewrite wr_Ok by lia. cbn [bind].
    eexists. split; [reflexivity|]. cbv beta iota. split; [reflexivity|]. rewrite length_upd. split; [exact L|].
    intros x Hx. rewrite nth_upd. destruct (Nat.eqb_spec i x) as [->|].
    + destruct (Nat.ltb_spec x (length sq)); [reflexivity|lia].
    + cbn [andb]. apply H. lia.
  - split; [reflexivity|]. split; [unfold uninit; apply repeat_length|intros; lia].
Qed.

Lemma reverse_fisher_yates_bwd (a : list A) : SIZE <= length a -> reverse_fisher_yates SIZE a = Ok (bwd (SIZE - 1) a).
Proof.
  intros Hl. unfold reverse_fisher_yates. destruct rfy_ctor_ok as (sq & E & L & H). rewrite E. cbn [bind].
  unfold rfy_apply.
  edestruct (for_down_inv (fun i b => length b = length a /\ bwd i b = bwd (SIZE - 1) a)) as (b & E2 & (_ & I2)).
  4: { rewrite E2. cbn [bwd] in I2. rewrite I2. reflexivity. }
  - lia.
  - intros i b Hi (Lb & Hb). rewrite (rdu_nth sq i (fy_k i)) by (apply H; lia). cbn [bind].
    pose proof (fy_k_range i ltac:(lia)). rewrite swap_swp by lia. eexists. split; [reflexivity|].
    rewrite length_swp. split; [exact Lb|]. exact Hb.
  - split; reflexivity.
Qed.

Lemma fy_roundtrip (a : list A) : SIZE <= length a ->
  exists b, fisher_yates SIZE a = Ok b /\ Permutation a b /\ reverse_fisher_yates SIZE b = Ok a.
Proof.
  intros Hl. exists (fwd (SIZE - 1) a). split; [apply fisher_yates_fwd; exact Hl|]. split.
  - apply fwd_perm; lia.
  - rewrite reverse_fisher_yates_bwd by (rewrite length_fwd; exact Hl). rewrite bwd_fwd by lia. reflexivity.
Qed.
Lemma fy_roundtrip' (a : list A) : SIZE <= length a ->
  exists b, reverse_fisher_yates SIZE a = Ok b /\ Permutation a b /\ fisher_yates SIZE b = Ok a.
Proof.
  intros Hl. exists (bwd (SIZE - 1) a). split; [apply reverse_fisher_yates_bwd; exact Hl|].
  assert (E : fwd (SIZE - 1) (bwd (SIZE - 1) a) = a) by (apply fwd_bwd; lia).
  split.
  - apply Permutation_sym. rewrite <- E at 2. apply fwd_perm; rewrite ?length_bwd; lia.
  - rewrite fisher_yates_fwd by (rewrite length_bwd; exact Hl). rewrite E. reflexivity.
Qed.
Lemma fy_tail (a b : list A) x : SIZE <= length a -> fisher_yates SIZE a = Ok b -> SIZE <= x -> nth_error b x = nth_error a x.
Proof.
  intros Hl E Hx. rewrite fisher_yates_fwd in E by exact Hl. injection E as <-.
  assert (G : forall n, n <= SIZE - 1 -> nth_error (fwd n a) x = nth_error a x).
  { induction n as [|n IH]; intros Hn; cbn [fwd]; [reflexivity|]. pose proof (fy_k_range n ltac:(lia)).
    rewrite nth_error_swp by (rewrite length_fwd; lia).
    destruct (Nat.eqb_spec x (fy_k n)); [lia|]. destruct (Nat.eqb_spec x n); [lia|]. apply IH. lia. }
  apply G. lia.
Qed.
Lemma rfy_tail (a b : list A) x : SIZE <= length a -> reverse_fisher_yates SIZE a = Ok b -> SIZE <= x -> nth_error b x = nth_error a x.
Proof.
  intros Hl E Hx. destruct (fy_roundtrip' a Hl) as (b' & E1 & P & E2). rewrite E in E1. injection E1 as <-.
  symmetry. apply (fy_tail b a); auto. rewrite <- (Permutation_length P). exact Hl.
Qed.
End FY.

(** ** Bit reversal *)
Local Open Scope N_scope.
(** the index with the m binary digits reversed *)
Fixpoint brev (m : nat) (i : N) : N :=
  match m with
  | O => 0
  | S k => N.lor (N.shiftl (N.b2n (N.testbit i (N.of_nat k))) 0) (N.shiftl (brev k i) 1)
  end.
(** brev m i: bit b of the result is bit m-1-b of i *)
Lemma tb0 b x : N.testbit (N.b2n b) x = if x =? 0 then b else false.
Proof. destruct x as [|x]; destruct b; reflexivity. Qed.
Lemma brev_testbit m i b : N.testbit (brev m i) b = (N.testbit i (N.of_nat m - 1 - b) && (b <? N.of_nat m))%bool.
Proof.
  revert b. induction m as [|m IH]; intros b; cbn [brev].
  - rewrite N.bits_0. destruct (N.ltb_spec b (N.of_nat 0)); [lia|]. symmetry. apply andb_false_r.
  - rewrite N.lor_spec, N.shiftl_0_r, tb0. destruct (N.eqb_spec b 0) as [->|Hb].
    + rewrite N.shiftl_spec_low by lia. rewrite orb_false_r.
      destruct (N.ltb_spec 0 (N.of_nat (S m))); [|lia]. rewrite andb_true_r. f_equal. lia.
    + rewrite N.shiftl_spec_high' by lia. rewrite IH. cbn [orb].
      destruct (N.ltb_spec (b - 1) (N.of_nat m)), (N.ltb_spec b (N.of_nat (S m))); try lia.
      * rewrite !andb_true_r. f_equal. lia.
Qed.
Lemma brev_lt m i : brev m i < 2 ^ N.of_nat m.
Proof.
  apply lt_pow2_testbit. intros x Hx. rewrite brev_testbit.
  destruct (N.ltb_spec x (N.of_nat m)); [lia|]. apply andb_false_r.
Qed.
Lemma brev_brev m i : i < 2 ^ N.of_nat m -> brev m (brev m i) = i.
Proof.
  intros Hi. apply N.bits_inj. intros x. rewrite !brev_testbit.
  destruct (N.ltb_spec x (N.of_nat m)).
  - destruct (N.ltb_spec (N.of_nat m - 1 - x) (N.of_nat m)); [|lia]. rewrite !andb_true_r. f_equal. lia.
  - rewrite andb_false_r. symmetry. apply (testbit_high (N.of_nat m)); [exact Hi|lia].
Qed.

(** adding one: the lowest zero bit t is set, the bits below are cleared *)
Lemma succ_testbit i t : N.testbit i t = false -> (forall b, b < t -> N.testbit i b = true) ->
  forall b, N.testbit (i + 1) b = if b <? t then false else if b =? t then true else N.testbit i b.
Proof.
  intros Ht Hb.
  set (h := N.shiftr i (t + 1)).
  assert (Ei : i = h * 2 ^ (t + 1) + (2 ^ t - 1)).
  { apply N.bits_inj. intros b. rewrite <- N.shiftl_mul_pow2.
    assert (P : 0 < 2 ^ t) by (apply N.neq_0_lt_0, N.pow_nonzero; lia).
    replace (2 ^ t - 1) with (N.ones t) by (rewrite N.ones_equiv; lia).

    rewrite N.add_nocarry_lxor.
    - rewrite N.lxor_spec. unfold h. destruct (N.lt_ge_cases b t) as [L|L].
      + rewrite N.ones_spec_low by exact L. rewrite N.shiftl_spec_low by lia. rewrite Hb by exact L. reflexivity.
      + rewrite N.ones_spec_high by exact L. rewrite xorb_false_r.
        destruct (N.eq_dec b t) as [->|Nb].
        * rewrite N.shiftl_spec_low by lia. exact Ht.
        * rewrite N.shiftl_spec_high' by lia. rewrite N.shiftr_spec'. f_equal. lia.
    - apply N.bits_inj. intros c. rewrite N.land_spec, N.bits_0.
      destruct (N.lt_ge_cases c t); [rewrite N.shiftl_spec_low by lia|rewrite N.ones_spec_high by lia; apply andb_false_r].
      reflexivity. }
  assert (Es : i + 1 = h * 2 ^ (t + 1) + 2 ^ t).
  { assert (P : 0 < 2 ^ t) by (apply N.neq_0_lt_0, N.pow_nonzero; lia). lia. }
  intros b. rewrite Es. rewrite <- N.shiftl_mul_pow2.
  rewrite N.add_nocarry_lxor.
  - rewrite N.lxor_spec, N.pow2_bits_eqb. destruct (N.ltb_spec b t).
    + rewrite N.shiftl_spec_low by lia. destruct (N.eqb_spec t b); [lia|]. reflexivity.
    + destruct (N.eqb_spec b t) as [->|].
      * rewrite N.shiftl_spec_low by lia. rewrite N.eqb_refl. reflexivity.
      * destruct (N.eqb_spec t b); [lia|]. rewrite xorb_false_r, N.shiftl_spec_high' by lia.
        unfold h. rewrite N.shiftr_spec'. f_equal. lia.
  - apply N.bits_inj. intros c. rewrite N.land_spec, N.bits_0, N.pow2_bits_eqb.
    destruct (N.eqb_spec t c) as [->|]; [rewrite N.shiftl_spec_low by lia; reflexivity|apply andb_false_r].
Qed.

Lemma land_pow2 j k : (N.land j (2 ^ k) =? 0) = negb (N.testbit j k).
Proof.
  destruct (N.testbit j k) eqn:E; cbn [negb].
  - apply N.eqb_neq. intros H. assert (X : N.testbit (N.land j (2 ^ k)) k = false) by (rewrite H; apply N.bits_0).
    rewrite N.land_spec, E, N.pow2_bits_true in X. discriminate.
  - apply N.eqb_eq. apply N.bits_inj. intros b. rewrite N.land_spec, N.bits_0, N.pow2_bits_eqb.
    destruct (N.eqb_spec k b) as [->|]; [rewrite E; reflexivity|apply andb_false_r].
Qed.

Lemma brp_next_ok m i : i + 1 < 2 ^ N.of_nat m -> brp_next (2 ^ N.of_nat m) (brev m i) = Ok (brev m (i + 1)).
Proof.
  intros Hi. unfold brp_next.
  assert (M : (m > 0)%nat) by (destruct m; [cbn in Hi; lia|lia]).
  (* a zero bit exists *)
  assert (Z : exists t, t < N.of_nat m /\ N.testbit i t = false /\ forall b, b < t -> N.testbit i b = true).
  { assert (D : forall n, (exists t, t < N.of_nat n /\ N.testbit i t = false /\ forall b, b < t -> N.testbit i b = true) \/
                  (forall b, b < N.of_nat n -> N.testbit i b = true)).
    { induction n as [|n [IH|IH]]; [right; intros; lia| |].
      - destruct IH as (t & Ht & R). left. exists t. split; [lia|exact R].
      - destruct (N.testbit i (N.of_nat n)) eqn:E.
        + right. intros b Hb. destruct (N.eq_dec b (N.of_nat n)) as [->|]; [exact E|apply IH; lia].
        + left. exists (N.of_nat n). split; [lia|]. split; [exact E|exact IH]. }
    destruct (D m) as [D1|D1]; [exact D1|exfalso].
    assert (i = N.ones (N.of_nat m)).
    { apply N.bits_inj. intros b. destruct (N.lt_ge_cases b (N.of_nat m)).
      - rewrite N.ones_spec_low by assumption. apply D1; assumption.
      - rewrite N.ones_spec_high by assumption. apply (testbit_high (N.of_nat m)); [lia|assumption]. }
    subst i. rewrite N.ones_equiv in Hi. pose proof (N.pow_nonzero 2 (N.of_nat m)). lia. }
  destruct Z as (t & Ht & Zt & Ot).
  set (j0 := brev m i) in *.
  set (inv := fun '(j, k) => exists c, c <= t /\ k = 2 ^ (N.of_nat m - 1 - c) /\
     forall b, N.testbit j b = (N.testbit j0 b && (b <? N.of_nat m - c))%bool).
  edestruct (while_inv inv (fun '(j, k) => N.size_nat k)) as ((j & k) & E & I & C).
  4: { rewrite E. cbn [bind]. f_equal. destruct I as (c & Hc & -> & Hj).
       injection C as C. apply negb_false_iff in C. rewrite land_pow2 in C. apply negb_true_iff in C.
       rewrite Hj in C. assert (c = t).
       { destruct (N.eq_dec c t) as [|Nc]; [assumption|exfalso].
         destruct (N.ltb_spec (N.of_nat m - 1 - c) (N.of_nat m - c)); [|lia].
         rewrite andb_true_r in C. unfold j0 in C. rewrite brev_testbit in C.
         replace (N.of_nat m - 1 - (N.of_nat m - 1 - c)) with c in C by lia.
         rewrite Ot in C by lia. destruct (N.ltb_spec (N.of_nat m - 1 - c) (N.of_nat m)); [discriminate|lia]. }
       subst c. apply N.bits_inj. intros b. rewrite N.lxor_spec, Hj, N.pow2_bits_eqb, brev_testbit.
       rewrite (succ_testbit i t Zt Ot). unfold j0. rewrite brev_testbit.
       destruct (N.ltb_spec b (N.of_nat m)) as [Lb|Lb].
       - rewrite !andb_true_r.
         destruct (N.ltb_spec (N.of_nat m - 1 - b) t) as [L1|L1].
         + destruct (N.ltb_spec b (N.of_nat m - t)); [lia|]. rewrite andb_false_r.
           destruct (N.eqb_spec (N.of_nat m - 1 - t) b); [lia|reflexivity].
         + destruct (N.ltb_spec b (N.of_nat m - t)); [|lia]. rewrite andb_true_r.
           destruct (N.eqb_spec (N.of_nat m - 1 - b) t) as [Eb|Nb].
           * rewrite Eb, Zt. destruct (N.eqb_spec (N.of_nat m - 1 - t) b); [reflexivity|lia].
           * destruct (N.eqb_spec (N.of_nat m - 1 - t) b); [lia|]. apply xorb_false_r.
       - rewrite !andb_false_r. destruct (N.eqb_spec (N.of_nat m - 1 - t) b); [lia|reflexivity]. }
  - intros (j & k) (c & Hc & -> & Hj). eexists. split; [reflexivity|]. rewrite land_pow2, negb_involutive. intros B.
    eexists. split; [reflexivity|].
    assert (c < t).
    { destruct (N.eq_dec c t) as [->|]; [exfalso|lia]. rewrite Hj in B. unfold j0 in B. rewrite brev_testbit in B.
      replace (N.of_nat m - 1 - (N.of_nat m - 1 - t)) with t in B by lia. rewrite Zt in B. discriminate. }
    split.
    + exists (c + 1). split; [lia|]. split.
      * rewrite N.shiftr_div_pow2. replace (N.of_nat m - 1 - c) with (N.succ (N.of_nat m - 1 - (c + 1))) by lia.
        rewrite N.pow_succ_r', N.mul_comm. apply N.div_mul. discriminate.
      * intros b. rewrite N.lxor_spec, Hj, N.pow2_bits_eqb.
        destruct (N.eqb_spec (N.of_nat m - 1 - c) b) as [<-|Nb].
        -- rewrite Hj in B. destruct (N.ltb_spec (N.of_nat m - 1 - c) (N.of_nat m - c)); [|lia].
           rewrite andb_true_r in *. rewrite B. destruct (N.ltb_spec (N.of_nat m - 1 - c) (N.of_nat m - (c + 1))); [lia|reflexivity].
        -- rewrite xorb_false_r. f_equal.
           destruct (N.ltb_spec b (N.of_nat m - c)), (N.ltb_spec b (N.of_nat m - (c + 1))); lia.
    + cbv beta iota. rewrite N.shiftr_div_pow2. replace (N.of_nat m - 1 - c) with (N.succ (N.of_nat m - 1 - (c + 1))) by lia.
      rewrite N.pow_succ_r', N.mul_comm. change (2 ^ 1) with 2. rewrite N.div_mul by discriminate. rewrite N.mul_comm.
      assert (P : 2 ^ (N.of_nat m - 1 - (c + 1)) <> 0) by (apply N.pow_nonzero; discriminate).
      destruct (2 ^ (N.of_nat m - 1 - (c + 1))); [congruence|]. cbn. lia.
  - exists 0. split; [lia|]. split.
    + rewrite N.shiftr_div_pow2. replace (N.of_nat m) with (N.succ (N.of_nat m - 1)) at 1 by lia.
      rewrite N.pow_succ_r', N.mul_comm. change (2 ^ 1) with 2. rewrite N.div_mul by discriminate. f_equal. lia.
    + intros b. rewrite N.sub_0_r. unfold j0. rewrite brev_testbit. destruct (b <? N.of_nat m); rewrite ?andb_true_r, ?andb_false_r; reflexivity.
  - cbv beta iota. assert (P : 2 ^ N.of_nat m <> 0) by (apply N.pow_nonzero; discriminate).
    destruct (2 ^ N.of_nat m) as [|[p|p|]]; [congruence| | |]; cbn; lia.
Qed.

Lemma bit_reversal_ok {A} (m : nat) (a : list A) : length a = (2 ^ m)%nat ->
  exists b, bit_reversal_permute (2 ^ m) a = Ok b /\ length b = length a /\
    forall x, (x < 2 ^ m)%nat -> nth_error b (N.to_nat (brev m (N.of_nat x))) = nth_error a x.
Proof.
  intros Hl. unfold bit_reversal_permute.
  assert (P2 : N.of_nat (2 ^ m) = 2 ^ N.of_nat m).
  { clear. induction m as [|m IH]; [reflexivity|]. replace (N.of_nat (S m)) with (N.succ (N.of_nat m)) by lia.
    rewrite N.pow_succ_r', <- IH. cbn [Nat.pow]. lia. }
  assert (Pp : (0 < 2 ^ m)%nat) by (clear; induction m; cbn; lia).
  set (R := fun x => N.to_nat (brev m (N.of_nat x))).
  assert (R1 : forall x, (R x < 2 ^ m)%nat).
  { intros x. unfold R. pose proof (brev_lt m (N.of_nat x)). lia. }
  assert (R2 : forall x, (x < 2 ^ m)%nat -> R (R x) = x).
  { intros x Hx. unfold R. rewrite N2Nat.id, brev_brev by lia. lia. }
  edestruct (for_up_inv (fun i '(j, b) => (j = brev m (N.of_nat i) \/ (i >= 2 ^ m - 1)%nat) /\ length b = length a /\
     forall x, (x < 2 ^ m)%nat -> nth_error b x =
        if ((x <? i) || (R x <? i))%nat then nth_error a (R x) else nth_error a x)) as ((j & b) & E & (_ & L & H)).
  4: { rewrite E. cbn [bind]. exists b. split; [reflexivity|]. split; [exact L|].
       intros x Hx. fold (R x). rewrite H by apply R1. rewrite R2 by exact Hx.
       destruct (Nat.ltb_spec (R x) (2 ^ m - 1)); cbn [orb]; [reflexivity|].
       destruct (Nat.ltb_spec x (2 ^ m - 1)); [reflexivity|].
       pose proof (R1 x). assert (R x = x) by lia. congruence. }
  - lia.
  - intros i (j & b) Hi (Hj & L & H). destruct Hj as [->|]; [|lia].
    assert (NX : exists j', brp_next (N.of_nat (2 ^ m)) (brev m (N.of_nat i)) = Ok j' /\ j' = brev m (N.of_nat (S i))).
    { rewrite P2, brp_next_ok by lia. eexists. split; [reflexivity|]. f_equal. lia. }
    destruct NX as (j' & EN & Ej').
    destruct (N.ltb_spec (N.of_nat i) (brev m (N.of_nat i))) as [L1|L1].
    + fold (R i). assert (Ri : (i < R i)%nat) by (unfold R; lia).
      rewrite swap_swp by (rewrite ?L, ?Hl; auto; lia). cbn [bind]. rewrite EN. cbn [bind].
      eexists. split; [reflexivity|]. cbv beta iota. split; [left; exact Ej'|]. rewrite length_swp. split; [exact L|].
      intros x Hx. rewrite nth_error_swp by (rewrite L, Hl; auto; lia). rewrite !H by (auto; lia).
      rewrite (R2 i) by lia.
      destruct (Nat.ltb_spec i i); [lia|]. destruct (Nat.ltb_spec (R i) i); [lia|]. cbn [orb].
      destruct (Nat.eqb_spec x (R i)) as [->|Nx].
      * rewrite R2 by lia. destruct (Nat.ltb_spec (R i) (S i)); [lia|]. destruct (Nat.ltb_spec i (S i)); [reflexivity|lia].
      * destruct (Nat.eqb_spec x i) as [->|Nx2].
        -- destruct (Nat.ltb_spec i (S i)); [reflexivity|lia].
        -- assert (R x <> i) by (intros X; apply Nx; rewrite <- X; symmetry; apply R2; exact Hx).
           destruct (Nat.ltb_spec x i), (Nat.ltb_spec x (S i)), (Nat.ltb_spec (R x) i), (Nat.ltb_spec (R x) (S i)); try lia; reflexivity.
    + cbn [bind]. rewrite EN. cbn [bind]. eexists. split; [reflexivity|]. cbv beta iota. split; [left; exact Ej'|].
      split; [exact L|]. intros x Hx. rewrite H by exact Hx.
      assert (Ri : (R i <= i)%nat) by (unfold R; lia).
      destruct (Nat.eq_dec x i) as [->|Nx].
      * destruct (Nat.ltb_spec i i), (Nat.ltb_spec i (S i)); try lia. cbn [orb].
        destruct (Nat.ltb_spec (R i) i); [reflexivity|]. assert (Q : R i = i) by lia. rewrite Q. reflexivity.
      * destruct (Nat.eq_dec (R x) i) as [Rx|Nr].
        -- assert (x = R i) by (rewrite <- Rx; symmetry; apply R2; exact Hx).
           destruct (Nat.ltb_spec x i), (Nat.ltb_spec x (S i)); try lia. reflexivity.
        -- destruct (Nat.ltb_spec x i), (Nat.ltb_spec x (S i)), (Nat.ltb_spec (R x) i), (Nat.ltb_spec (R x) (S i)); try lia; reflexivity.
  - split; [left|split; [reflexivity|]].
    + symmetry. apply N.bits_inj. intros b. rewrite brev_testbit, !N.bits_0. reflexivity.
    + intros x Hx. destruct (Nat.ltb_spec x 0), (Nat.ltb_spec (R x) 0); try lia. reflexivity.
Qed.

Lemma brev_reversed m i : (i < 2 ^ m)%nat -> reversed_index m i (N.to_nat (brev m (N.of_nat i))).
Proof.
  intros Hi.
  assert (P2 : N.of_nat (2 ^ m) = 2 ^ N.of_nat m).
  { clear. induction m as [|m IH]; [reflexivity|]. replace (N.of_nat (S m)) with (N.succ (N.of_nat m)) by lia.
    rewrite N.pow_succ_r', <- IH. cbn [Nat.pow]. lia. }
  assert (TB : forall v b, Nat.testbit v b = N.testbit (N.of_nat v) (N.of_nat b)).
  { clear. intros v b. revert v. induction b as [|b IH]; intros v.
    - cbn [Nat.testbit]. rewrite N.bit0_odd. rewrite <- Nat.negb_even, <- N.negb_even. f_equal.
      destruct (Nat.even v) eqn:E.
      + apply Nat.even_spec in E. destruct E as (c & ->). symmetry. apply N.even_spec. exists (N.of_nat c). lia.
      + symmetry. apply not_true_iff_false. intros X. apply N.even_spec in X. destruct X as (c & X).
        assert (Nat.even v = true) by (apply Nat.even_spec; exists (N.to_nat c); lia). congruence.
    - cbn [Nat.testbit]. rewrite IH. replace (N.of_nat (S b)) with (N.succ (N.of_nat b)) by lia.
      rewrite <- N.div2_bits. f_equal. rewrite ?N.div2_div, Nat.div2_div. pose proof (Nat.div_mod v 2). pose proof (N.div_mod (N.of_nat v) 2). pose proof (Nat.mod_upper_bound v 2). pose proof (N.mod_lt (N.of_nat v) 2). lia. }
  split.
  - pose proof (brev_lt m (N.of_nat i)). lia.
  - intros b Hb. rewrite !TB, N2Nat.id, brev_testbit. destruct (N.ltb_spec (N.of_nat b) (N.of_nat m)); [|lia].
    rewrite andb_true_r. f_equal. lia.
Qed.
Lemma reversed_index_unique m i r r' : reversed_index m i r -> reversed_index m i r' -> r = r'.
Proof.
  intros (H1 & H2) (H1' & H2'). apply Nat.bits_inj. intros b. destruct (Nat.lt_ge_cases b m).
  - rewrite H2, H2' by assumption. reflexivity.
  - assert (G : forall v, (v < 2 ^ m)%nat -> Nat.testbit v b = false).
    { intros v Hv. destruct (Nat.eq_dec v 0) as [->|]; [apply Nat.bits_0|]. apply Nat.bits_above_log2.
      apply Nat.lt_le_trans with m; [|assumption]. apply Nat.log2_lt_pow2; lia. }
    rewrite !G by assumption. reflexivity.
Qed.
Lemma reversed_index_sym m i r : (i < 2 ^ m)%nat -> reversed_index m i r -> reversed_index m r i.
Proof.
  intros Hi (H1 & H2). split; [exact Hi|]. intros b Hb. rewrite H2 by lia. f_equal. lia.
Qed.
