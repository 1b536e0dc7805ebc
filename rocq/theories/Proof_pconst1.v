(** The loops of the polar code constructions. *)
From Coq Require Import ZifyBool ZifyNat ZifyN Permutation.
From Verif Require Import Cpp Model_polar_const Spec_polar Spec_polar_const Lib_list Proof_bits Proof_polar2.
Ltac Zify.zify_post_hook ::= idtac.
Local Open Scope nat_scope.

Definition words (l : list N) : Prop := Forall (fun w => (w < 2 ^ 32)%N) l.

(** channels *)
Lemma channel_ext {P} (w b : P -> P) n : forall pe i j, (forall k, k < n -> Nat.testbit i k = Nat.testbit j k) -> channel w b n pe i = channel w b n pe j.
Proof.
  induction n as [|n IH]; intros pe i j H; [reflexivity|]. cbn [channel]. rewrite (H n) by lia. apply IH. intros k Hk. apply H. lia.
Qed.
Lemma channel_low {P} (w b : P -> P) n pe i : i < 2 ^ n -> channel w b (S n) pe i = channel w b n (w pe) i.
Proof. intros H. cbn [channel]. rewrite <- (Nat.mod_small i (2 ^ n)) by exact H. rewrite Nat.mod_pow2_bits_high by lia. reflexivity. Qed.
Lemma channel_high {P} (w b : P -> P) n pe i : i < 2 ^ n -> channel w b (S n) pe (2 ^ n + i) = channel w b n (b pe) i.
Proof.
  intros H. cbn [channel]. assert (2 ^ n + i = i + 1 * 2 ^ n) as E by lia.
  assert (Nat.testbit (2 ^ n + i) n = true) as ->.
  { apply Nat.testbit_true. rewrite E, Nat.div_add by (apply Nat.pow_nonzero; lia). rewrite Nat.div_small by exact H. reflexivity. }
  apply channel_ext. intros k Hk. rewrite <- (Nat.mod_pow2_bits_low (2 ^ n + i) n k) by exact Hk. rewrite E, Nat.mod_add by (apply Nat.pow_nonzero; lia).
  rewrite Nat.mod_small by exact H. reflexivity.
Qed.

(** one flag *)
Lemma is_frozen_upd bits q w j : q < length bits ->
  is_frozen (upd bits q w) j = if j / 32 =? q then N.testbit w (N.of_nat (j mod 32)) else is_frozen bits j.
Proof. intros H. unfold is_frozen. rewrite nth_upd. replace (q <? length bits) with true by lia. rewrite andb_true_r, Nat.eqb_sym. destruct (j / 32 =? q); reflexivity. Qed.
Lemma same_pos i j : i / 32 = j / 32 -> i mod 32 = j mod 32 -> i = j.
Proof. intros A B. rewrite (Nat.div_mod_eq i 32), (Nat.div_mod_eq j 32). congruence. Qed.
Lemma word_bound w : (forall k, (32 <= k)%N -> N.testbit w k = false) -> (w < 2 ^ 32)%N.
Proof.
  intros H. destruct (N.eq_dec w 0) as [-> | Hn]; [reflexivity|]. apply N.log2_lt_pow2; [lia|].
  destruct (N.lt_ge_cases (N.log2 w) 32) as [C|C]; [exact C|]. specialize (H _ C). rewrite N.bit_log2 in H by exact Hn. discriminate.
Qed.
Lemma bound_word w k : (w < 2 ^ 32)%N -> (32 <= k)%N -> N.testbit w k = false.
Proof. intros H Hk. rewrite <- (N.mod_small w (2 ^ 32)) by exact H. apply N.mod_pow2_bits_high. exact Hk. Qed.
Lemma words_upd bits q w : words bits -> (w < 2 ^ 32)%N -> words (upd bits q w).
Proof.
  unfold words. intros F H. revert q. induction F as [|x l Hx F IH]; intros [|q]; cbn [upd]; constructor; auto.
Qed.
Lemma words_nth bits q : words bits -> (nth q bits 0 < 2 ^ 32)%N.
Proof. intros F. destruct (Nat.lt_ge_cases q (length bits)) as [C|C]; [|rewrite nth_overflow by exact C; reflexivity]. unfold words in F; rewrite Forall_forall in F. apply F. apply nth_In. exact C. Qed.
Definition put_flag (bits bits' : list N) (idx : nat) (v : bool) : Prop :=
  length bits' = length bits /\ (words bits -> words bits') /\ forall j, is_frozen bits' j = if j =? idx then v else is_frozen bits j.
Lemma flag_word bits idx v w : idx < 32 * length bits ->
  (forall k, N.testbit w k = if (k =? N.of_nat (idx mod 32))%N then v else N.testbit (nth (idx / 32) bits 0%N) k) ->
  put_flag bits (upd bits (idx / 32) w) idx v.
Proof.
  intros Hi Hw. assert (idx / 32 < length bits) as Hq by (apply Nat.div_lt_upper_bound; lia). pose proof (Nat.mod_upper_bound idx 32 ltac:(lia)) as Hm.
  split; [apply length_upd|]. split.
  - intros F. apply words_upd; [exact F|]. apply word_bound. intros k Hk. rewrite Hw. replace (k =? N.of_nat (idx mod 32))%N with false by lia.
    apply bound_word; [apply words_nth; exact F|exact Hk].
  - intros j. rewrite is_frozen_upd by exact Hq. rewrite Hw. unfold is_frozen. destruct (Nat.eqb_spec (j / 32) (idx / 32)) as [E|E].
    + destruct (Nat.eqb_spec j idx) as [-> | Hne]; [rewrite N.eqb_refl; reflexivity|].
      destruct (N.eqb_spec (N.of_nat (j mod 32)) (N.of_nat (idx mod 32))) as [C|C]; [exfalso; apply Hne; apply same_pos; [exact E|lia]|]. rewrite E. reflexivity.
    + destruct (Nat.eqb_spec j idx) as [-> | Hne]; [congruence|reflexivity].
Qed.
Lemma set_bit_ok bits idx v : idx < 32 * length bits -> exists bits', set_bit bits idx v = Ok bits' /\ put_flag bits bits' idx v.
Proof.
  intros Hi. assert (idx / 32 < length bits) as Hq by (apply Nat.div_lt_upper_bound; lia). unfold set_bit.
  rewrite (rd_nth _ _ 0%N) by exact Hq. cbn [bind]. rewrite wr_Ok by exact Hq. cbn [bind]. rewrite (rd_nth _ _ 0%N) by (rewrite length_upd; exact Hq). cbn [bind].
  rewrite wr_Ok by (rewrite length_upd; exact Hq). rewrite nth_upd_eq by exact Hq.
  assert (forall (a : list N) i x y, upd (upd a i x) i y = upd a i y) as UU by (intros a; induction a as [|z a IH]; intros [|i] x y; cbn; congruence).
  rewrite UU. eexists. split; [reflexivity|]. apply flag_word; [exact Hi|]. intros k. rewrite N.lor_spec. destruct (N.eqb_spec k (N.of_nat (idx mod 32))) as [-> | Hne].
  - rewrite N.clearbit_eq. rewrite N.shiftl_spec_high' by lia. rewrite N.sub_diag. destruct v; reflexivity.
  - rewrite N.clearbit_neq by congruence. destruct (N.lt_ge_cases k (N.of_nat (idx mod 32))) as [C|C]; [rewrite N.shiftl_spec_low by exact C; apply orb_false_r|].
    rewrite N.shiftl_spec_high' by exact C. destruct (k - N.of_nat (idx mod 32))%N eqn:Ek; [lia|]. destruct v; apply orb_false_r.
Qed.
Lemma inform_ok bits idx : idx < 32 * length bits -> exists bits', inform_bit bits idx = Ok bits' /\ put_flag bits bits' idx false.
Proof.
  intros Hi. assert (idx / 32 < length bits) as Hq by (apply Nat.div_lt_upper_bound; lia). unfold inform_bit.
  rewrite (rd_nth _ _ 0%N) by exact Hq. cbn [bind]. rewrite wr_Ok by exact Hq. eexists. split; [reflexivity|]. apply flag_word; [exact Hi|].
  intros k. destruct (N.eqb_spec k (N.of_nat (idx mod 32))) as [-> | Hne]; [apply N.clearbit_eq|apply N.clearbit_neq; congruence].
Qed.
Lemma frozen_ok bits idx : idx < 32 * length bits -> exists bits', frozen_bit bits idx = Ok bits' /\ put_flag bits bits' idx true.
Proof.
  intros Hi. assert (idx / 32 < length bits) as Hq by (apply Nat.div_lt_upper_bound; lia). unfold frozen_bit.
  rewrite (rd_nth _ _ 0%N) by exact Hq. cbn [bind]. rewrite wr_Ok by exact Hq. eexists. split; [reflexivity|]. apply flag_word; [exact Hi|].
  intros k. destruct (N.eqb_spec k (N.of_nat (idx mod 32))) as [-> | Hne]; [apply N.setbit_eq|apply N.setbit_neq; congruence].
Qed.

Section Arith.
Variable A : arith.
Notation worse := (fun p => mul A p (two_minus A p)).
Notation better := (fun p => mul A p p).

Lemma half_pow n : 2 ^ S n / 2 = 2 ^ n.
Proof. cbn [Nat.pow]. rewrite Nat.mul_comm. apply Nat.div_mul. lia. Qed.
Lemma freeze_ok n : forall bits pe th i, i + 2 ^ n <= 32 * length bits ->
  exists bits', freeze A (S n) bits pe th i (2 ^ n / 2) = Ok bits' /\ length bits' = length bits /\ (words bits -> words bits') /\
    (forall j, j < 2 ^ n -> is_frozen bits' (i + j) = less A th (channel worse better n pe j)) /\
    (forall j, j < i \/ i + 2 ^ n <= j -> is_frozen bits' j = is_frozen bits j).
Proof.
  induction n as [|n IH]; intros bits pe th i H.
  - cbn [freeze]. change (2 ^ 0 / 2 =? 0) with true. cbn iota. change (2 ^ 0) with 1 in *. destruct (set_bit_ok bits i (less A th pe)) as (b & E & L & F & G); [lia|].
    exists b. split; [exact E|]. split; [exact L|]. split; [exact F|]. split; intros j Hj; rewrite G.
    + replace j with 0 by lia. replace (i + 0 =? i) with true by lia. reflexivity.
    + replace (j =? i) with false by lia. reflexivity.
  - pose proof (Nat.pow_nonzero 2 n ltac:(lia)) as Hp. assert (2 ^ S n = 2 ^ n + 2 ^ n) as E2 by (cbn [Nat.pow]; lia).
    change (freeze A (S (S n)) bits pe th i (2 ^ S n / 2)) with (if 2 ^ S n / 2 =? 0 then set_bit bits i (less A th pe) else
      bits <- freeze A (S n) bits (mul A pe (two_minus A pe)) th i (2 ^ S n / 2 / 2) ;; freeze A (S n) bits (mul A pe pe) th (i + 2 ^ S n / 2) (2 ^ S n / 2 / 2)).
    rewrite half_pow. replace (2 ^ n =? 0) with false by lia.
    destruct (IH bits (mul A pe (two_minus A pe)) th i ltac:(lia)) as (b1 & E1 & L1 & F1 & G1 & H1). rewrite E1. cbn [bind].
    destruct (IH b1 (mul A pe pe) th (i + 2 ^ n) ltac:(lia)) as (b2 & E2' & L2 & F2 & G2 & H2). exists b2. split; [exact E2'|]. split; [lia|]. split; [auto|]. split.
    + intros j Hj. destruct (Nat.lt_ge_cases j (2 ^ n)) as [C|C].
      * rewrite H2 by lia. rewrite G1 by exact C. rewrite channel_low by exact C. reflexivity.
      * replace (i + j) with (i + 2 ^ n + (j - 2 ^ n)) by lia. rewrite G2 by lia. replace j with (2 ^ n + (j - 2 ^ n)) at 2 by lia. rewrite channel_high by lia. reflexivity.
    + intros j Hj. rewrite H2 by lia. apply H1. lia.
Qed.
Lemma compute_ok n : forall prob pe i, i + 2 ^ n <= length prob ->
  exists prob', compute A (S n) prob pe i (2 ^ n / 2) = Ok prob' /\ length prob' = length prob /\
    (forall j, j < 2 ^ n -> nth (i + j) prob' None = Some (channel worse better n pe j)) /\
    (forall j, j < i \/ i + 2 ^ n <= j -> nth j prob' None = nth j prob None).
Proof.
  induction n as [|n IH]; intros prob pe i H.
  - cbn [compute]. change (2 ^ 0 / 2 =? 0) with true. cbn iota. change (2 ^ 0) with 1 in *. unfold wru. rewrite wr_Ok by lia.
    eexists. split; [reflexivity|]. split; [apply length_upd|]. split; intros j Hj.
    + replace j with 0 by lia. rewrite Nat.add_0_r. apply nth_upd_eq. lia.
    + apply nth_upd_neq. lia.
  - pose proof (Nat.pow_nonzero 2 n ltac:(lia)) as Hp. assert (2 ^ S n = 2 ^ n + 2 ^ n) as E2 by (cbn [Nat.pow]; lia).
    change (compute A (S (S n)) prob pe i (2 ^ S n / 2)) with (if 2 ^ S n / 2 =? 0 then wru prob i pe else
      prob <- compute A (S n) prob (mul A pe (two_minus A pe)) i (2 ^ S n / 2 / 2) ;; compute A (S n) prob (mul A pe pe) (i + 2 ^ S n / 2) (2 ^ S n / 2 / 2)).
    rewrite half_pow. replace (2 ^ n =? 0) with false by lia.
    destruct (IH prob (mul A pe (two_minus A pe)) i ltac:(lia)) as (b1 & E1 & L1 & G1 & H1). rewrite E1. cbn [bind].
    destruct (IH b1 (mul A pe pe) (i + 2 ^ n) ltac:(lia)) as (b2 & E2' & L2 & G2 & H2). exists b2. split; [exact E2'|]. split; [lia|]. split.
    + intros j Hj. destruct (Nat.lt_ge_cases j (2 ^ n)) as [C|C].
      * rewrite H2 by lia. rewrite G1 by exact C. rewrite channel_low by exact C. reflexivity.
      * replace (i + j) with (i + 2 ^ n + (j - 2 ^ n)) by lia. rewrite G2 by lia. replace j with (2 ^ n + (j - 2 ^ n)) at 2 by lia. rewrite channel_high by lia. reflexivity.
    + intros j Hj. rewrite H2 by lia. apply H1. lia.
Qed.

Lemma unfrozen_snoc fl b : unfrozen (fl ++ [b]) = unfrozen fl + Nat.b2n (negb b).
Proof. unfold unfrozen. rewrite filter_app, app_length. destruct b; reflexivity. Qed.
Lemma flags_S bits n : flags bits (S n) = flags bits n ++ [is_frozen bits n].
Proof. unfold flags. rewrite seq_S, map_app. reflexivity. Qed.
Lemma freezer_ok bits level pe th : level <= 30 -> 2 ^ level <= 32 * length bits ->
  exists bits', polar_freezer A bits level pe th = Ok (Z.of_nat (unfrozen (flags bits' (2 ^ level))), bits') /\ length bits' = length bits /\ (words bits -> words bits') /\
    (forall j, j < 2 ^ level -> is_frozen bits' j = less A th (channel worse better level pe j)) /\
    (forall j, 2 ^ level <= j -> is_frozen bits' j = is_frozen bits j).
Proof.
  intros Hl H. unfold polar_freezer. replace (level <=? 30) with true by lia. cbn [require bind].
  destruct (freeze_ok level bits pe th 0 ltac:(lia)) as (b & E & L & F & G & O). rewrite E. cbn [bind].
  edestruct (for_up_inv (fun i (K : Z) => K = (Z.of_nat (2 ^ level) - Z.of_nat (i - unfrozen (flags b i)))%Z /\ unfrozen (flags b i) <= i)) as (K & EK & (IK & IU)).
  4: { rewrite EK. cbn [bind]. exists b. rewrite IK. split; [|split; [exact L|split; [exact F|split; [exact G|]]]].
       - do 3 f_equal. lia.
       - intros j Hj. apply O. lia. }
  - lia.
  - intros i K Hi (-> & HU). rewrite (rd_nth _ _ 0%N) by (apply Nat.div_lt_upper_bound; lia). cbn [bind]. eexists. split; [reflexivity|].
    change (N.testbit _ _) with (is_frozen b i). rewrite flags_S, unfrozen_snoc. destruct (is_frozen b i); cbn [negb Nat.b2n Z.b2z]; lia.
  - cbn. lia.
Qed.

(** writing the identity *)
Lemma identity_ok l n : n <= length l -> for_up 0 n (fun i s => wr s i i) l = Ok (seq 0 n ++ skipn n l).
Proof.
  intros H. edestruct (for_up_inv (fun i (s : list nat) => s = seq 0 i ++ skipn i l)) as (s & E & ->).
  4: { exact E. }
  - lia.
  - intros i s Hi ->. rewrite wr_Ok by (rewrite app_length, seq_length, skipn_length; lia). eexists. split; [reflexivity|].
    apply (list_ext _ _ 0); [rewrite length_upd, !app_length, !seq_length, !skipn_length; lia|].
    intros j Hj. rewrite nth_upd. destruct (Nat.eqb_spec i j) as [<- | Hne]; cbn [andb].
    + replace (i <? length (seq 0 i ++ skipn i l)) with true by (rewrite app_length, seq_length, skipn_length; lia).
      rewrite app_nth1 by (rewrite seq_length; lia). rewrite seq_nth by lia. reflexivity.
    + destruct (Nat.lt_ge_cases j i) as [C|C].
      * rewrite !app_nth1 by (rewrite seq_length; lia). rewrite !seq_nth by lia. reflexivity.
      * rewrite !app_nth2 by (rewrite seq_length; lia). rewrite !seq_length, !nth_skipn'. f_equal. lia.
  - reflexivity.
Qed.
Lemma seq_firstn n (l : list nat) : firstn n (seq 0 n ++ skipn n l) = seq 0 n.
Proof. rewrite firstn_app, seq_length, Nat.sub_diag, app_nil_r. rewrite <- (seq_length n 0) at 1. apply firstn_all. Qed.
Lemma seq_skipn n (l : list nat) : skipn n (seq 0 n ++ skipn n l) = skipn n l.
Proof. rewrite skipn_app, seq_length, Nat.sub_diag. rewrite <- (seq_length n 0) at 1. rewrite skipn_all. reflexivity. Qed.

(** setting a flag for a list of positions *)
Lemma mark_ok (f : list N -> nat -> res (list N)) v : (forall bits idx, idx < 32 * length bits -> exists bits', f bits idx = Ok bits' /\ put_flag bits bits' idx v) ->
  forall l lo hi bits, lo <= hi -> hi <= length l -> (forall x, In x (firstn (hi - lo) (skipn lo l)) -> x < 32 * length bits) ->
  exists bits', for_up lo hi (fun i bits => x <- rd l i ;; f bits x) bits = Ok bits' /\ length bits' = length bits /\ (words bits -> words bits') /\
    forall j, is_frozen bits' j = if existsb (Nat.eqb j) (firstn (hi - lo) (skipn lo l)) then v else is_frozen bits j.
Proof.
  intros Hf l lo hi bits H1 H2 HB.
  edestruct (for_up_inv (fun i (b : list N) => length b = length bits /\ (words bits -> words b) /\
    forall j, is_frozen b j = if existsb (Nat.eqb j) (firstn (i - lo) (skipn lo l)) then v else is_frozen bits j)) as (b & E & I).
  4: { exists b. split; [exact E|exact I]. }
  - exact H1.
  - intros i b Hi (L & F & G). rewrite (rd_nth _ _ 0) by lia. cbn [bind].
    assert (nth i l 0 = nth (i - lo) (firstn (hi - lo) (skipn lo l)) 0) as En.
    { rewrite nth_firstn'. replace (i - lo <? hi - lo) with true by lia. rewrite nth_skipn'. f_equal. lia. }
    destruct (Hf b (nth i l 0)) as (b' & E & L' & F' & G').
    { rewrite L. apply HB. rewrite En. apply nth_In. rewrite firstn_length, skipn_length. lia. }
    exists b'. split; [exact E|]. split; [lia|]. split; [auto|]. intros j. rewrite G', G. replace (S i - lo) with (S (i - lo)) by lia.
    rewrite (firstn_snoc _ _ 0) by (rewrite skipn_length; lia). rewrite existsb_app. cbn [existsb]. rewrite orb_false_r.
    rewrite nth_skipn'. replace (lo + (i - lo)) with i by lia. destruct (j =? nth i l 0); [rewrite orb_true_r; reflexivity|rewrite orb_false_r; reflexivity].
  - rewrite Nat.sub_diag. cbn. auto.
Qed.
End Arith.
