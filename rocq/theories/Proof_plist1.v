(** Polar list decoders: what happens at one position. *)
From Coq Require Import ZifyBool ZifyNat Permutation.
From Verif Require Import Cpp Model_simd Model_sort Model_polar Model_polar_list Spec_sort Spec_polar Spec_polar_list Lib_list Lib_wht
  Proof_bits Proof_simd Proof_polar1 Proof_polar2 Proof_polar3 Proof_polar4 Proof_polar7 Prop_sort.
Local Open Scope nat_scope.
Ltac Zify.zify_post_hook ::= idtac.

(** ** Lists made of pairs *)
Definition pairs (f g : nat -> Z) (W : nat) : list Z := flat_map (fun k => [f k; g k]) (seq 0 W).
Lemma pairs_S f g W : pairs f g (S W) = pairs f g W ++ [f W; g W].
Proof. unfold pairs. rewrite seq_S, flat_map_app. reflexivity. Qed.
Lemma length_pairs f g W : length (pairs f g W) = 2 * W.
Proof. induction W as [|W IH]; [reflexivity|]. rewrite pairs_S, app_length, IH. cbn [length]. lia. Qed.
Lemma nth_pairs f g W k : k < W -> nth (2 * k) (pairs f g W) 0%Z = f k /\ nth (2 * k + 1) (pairs f g W) 0%Z = g k.
Proof.
  induction W as [|W IH]; intros H; [lia|]. rewrite pairs_S. destruct (Nat.eq_dec k W) as [->|Hne].
  - rewrite !app_nth2 by (rewrite length_pairs; lia). rewrite length_pairs. replace (2 * W - 2 * W) with 0 by lia. replace (2 * W + 1 - 2 * W) with 1 by lia. auto.
  - rewrite !app_nth1 by (rewrite length_pairs; lia). apply IH. lia.
Qed.
Lemma even_odd_case i : exists k, i = 2 * k \/ i = 2 * k + 1.
Proof. induction i as [|i (k & [-> | ->])]; [exists 0; lia|exists k; lia|exists (S k); lia]. Qed.
Lemma pairs_ext (l : list Z) f g W : length l = 2 * W -> (forall k, k < W -> nth (2 * k) l 0%Z = f k /\ nth (2 * k + 1) l 0%Z = g k) -> l = pairs f g W.
Proof.
  intros L H. apply (list_ext _ _ 0%Z); [rewrite length_pairs; exact L|]. intros i Hi. rewrite L in Hi.
  destruct (even_odd_case i) as (k & [-> | ->]).
  - destruct (H k ltac:(lia)) as (-> & _). symmetry. apply nth_pairs. lia.
  - destruct (H k ltac:(lia)) as (_ & ->). symmetry. apply nth_pairs. lia.
Qed.

Section Width.
Variable W : nat.

(** ** Vectors *)
Definition is_map (v : list Z) : Prop := lanes_are W (fun x => (0 <= x < Z.of_nat W)%Z) v.
Definition at_ (map : list Z) (k : nat) : nat := Z.to_nat (lane k map).
Lemma at_lt map k : is_map map -> k < W -> at_ map k < W.
Proof.
  intros (L & F) H. unfold at_, lane. rewrite Forall_forall in F. assert (In (nth k map 0%Z) map) as I by (apply nth_In; lia). specialize (F _ I). cbv beta in F. lia.
Qed.
Lemma length_vshuf a m : length (vshuf a m) = length m.
Proof. apply map_length. Qed.
Lemma lane_vshuf a map k Q : lanes_are W Q a -> is_map map -> k < W -> lane k (vshuf a map) = lane (at_ map k) a.
Proof.
  intros (La & _) Hm H. pose proof (at_lt map k Hm H) as Hl. destruct Hm as (L & F). unfold vshuf, lane. rewrite (nth_map1 _ _ _ 0%Z) by lia.
  rewrite Forall_forall in F. assert (In (nth k map 0%Z) map) as I by (apply nth_In; lia). specialize (F _ I). cbv beta in F.
  rewrite La. replace (nth k map 0 <? Z.of_nat W)%Z with true by lia. reflexivity.
Qed.
Lemma lanes_intro v (Q : Z -> Prop) : length v = W -> (forall k, k < W -> Q (lane k v)) -> lanes_are W Q v.
Proof.
  intros L H. split; [exact L|]. apply Forall_forall. intros x Hx. apply (In_nth _ _ 0%Z) in Hx. destruct Hx as (k & Hk & <-). apply H. lia.
Qed.
Lemma lanes_get v (Q : Z -> Prop) k : lanes_are W Q v -> k < W -> Q (lane k v).
Proof. intros (L & F) H. rewrite Forall_forall in F. apply F. apply nth_In. lia. Qed.
Lemma lanes_vshuf a map Q : lanes_are W Q a -> is_map map -> lanes_are W Q (vshuf a map).
Proof.
  intros Ha Hm. apply lanes_intro; [rewrite length_vshuf; apply Hm|]. intros k Hk. rewrite (lane_vshuf a map k Q) by assumption. apply lanes_get; [exact Ha|]. apply at_lt; assumption.
Qed.
Lemma at_vshuf a map k : is_map a -> is_map map -> k < W -> at_ (vshuf a map) k = at_ a (at_ map k).
Proof. intros Ha Hm H. unfold at_ at 1 2. rewrite (lane_vshuf _ _ _ _ Ha) by assumption. reflexivity. Qed.

Hypothesis HW : 1 <= W <= 256.
(** ** fill_lanes *)
Lemma fill_lanes_ok f g : (forall k, k < W -> f k = Ok (g k)) -> fill_lanes W f = Ok (map g (seq 0 W)).
Proof.
  intros H. unfold fill_lanes.
  edestruct (for_up_inv (fun i (v : list Z) => v = map g (seq 0 i)) (fun k v => x <- f k ;; Ok (v ++ [x])) 0 W []) as (v & E & I).
  4: { rewrite E, I. reflexivity. }
  - lia.
  - intros i v Hi ->. rewrite H by lia. cbn [bind]. eexists. split; [reflexivity|]. rewrite seq_S, map_app. reflexivity.
  - reflexivity.
Qed.
Definition iota : list Z := map Z.of_nat (seq 0 W).
Lemma iota_ok : iota_map W = Ok iota.
Proof.
  unfold iota_map. rewrite (fill_lanes_ok _ Z.of_nat); [reflexivity|]. intros k Hk. f_equal. unfold to_u. apply Z.mod_small. change (2 ^ 8)%Z with 256%Z. lia.
Qed.
Lemma lane_iota k : k < W -> lane k iota = Z.of_nat k.
Proof. intros H. unfold lane, iota. rewrite (nth_map1 _ _ _ 0) by (rewrite seq_length; lia). rewrite seq_nth by lia. reflexivity. Qed.
Lemma iota_is_map : is_map iota.
Proof. apply lanes_intro; [unfold iota; rewrite map_length, seq_length; reflexivity|]. intros k Hk. rewrite lane_iota by exact Hk. lia. Qed.
Lemma at_iota k : k < W -> at_ iota k = k.
Proof. intros H. unfold at_. rewrite lane_iota by exact H. lia. Qed.

(** ** Forking *)
Definition neg_part (x : Z) : Z := Z.max 0 (- x).
Definition ffork (metric sft : list Z) : list Z :=
  pairs (fun k => (lane k metric + neg_part (lane k sft))%Z) (fun k => (lane k metric + neg_part (- lane k sft))%Z) W.
Lemma fork_ok metric sft B : lanes_are W (fun x => (0 <= x <= B)%Z) metric -> lanes_are W int8 sft -> (B + 128 <= 2147483647)%Z ->
  list_fork W metric sft = Ok (ffork metric sft).
Proof.
  intros Hm Hs HB. unfold list_fork.
  edestruct (for_up_inv (fun i (f : list Z) => length f = 2 * W /\ forall k, k < i -> nth (2 * k) f 0%Z = lane k metric /\ nth (2 * k + 1) f 0%Z = lane k metric)
    (fun k fork => m <- rd metric k ;; fork <- wr fork (2 * k + 1) m ;; wr fork (2 * k) m) 0 W (repeat 0%Z (2 * W))) as (f1 & E1 & L1 & I1).
  4: { rewrite E1. cbn [bind].
    edestruct (for_up_inv (fun i (f : list Z) => length f = 2 * W /\ (forall k, k < i -> nth (2 * k) f 0%Z = (lane k metric + neg_part (lane k sft))%Z /\ nth (2 * k + 1) f 0%Z = (lane k metric + neg_part (- lane k sft))%Z)
        /\ (forall k, i <= k < W -> nth (2 * k) f 0%Z = lane k metric /\ nth (2 * k + 1) f 0%Z = lane k metric))
      (fun k fork => x <- rd sft k ;; if (x <? 0)%Z then (m <- rd fork (2 * k) ;; m <- chk (m - x) ;; wr fork (2 * k) m)
        else (m <- rd fork (2 * k + 1) ;; m <- chk (m + x) ;; wr fork (2 * k + 1) m)) 0 W f1) as (f2 & E2 & L2 & I2 & _).
    4: { rewrite E2. f_equal. apply pairs_ext; [exact L2|]. exact I2. }
    - lia.
    - intros i f Hi (L & Ia & Ib). destruct (Ib i ltac:(lia)) as (B0 & B1). pose proof (lanes_get _ _ i Hm ltac:(lia)) as Rm. cbv beta in Rm. pose proof (lanes_get _ _ i Hs ltac:(lia)) as Rs. unfold int8 in Rs.
      rewrite (rd_nth sft i 0%Z) by (destruct Hs; lia). cbn [bind]. fold (lane i sft). destruct (Z.ltb_spec (lane i sft) 0) as [C|C].
      + rewrite (rd_nth f _ 0%Z) by lia. cbn [bind]. rewrite B0, chk_ok by lia. cbn [bind]. rewrite wr_Ok by lia. eexists. split; [reflexivity|]. rewrite length_upd. split; [exact L|]. split.
        * intros k Hk. destruct (Nat.eq_dec k i) as [->|Hne].
          -- rewrite nth_upd_eq, nth_upd_neq by lia. rewrite B1. unfold neg_part. lia.
          -- rewrite !nth_upd_neq by lia. apply Ia. lia.
        * intros k Hk. rewrite !nth_upd_neq by lia. apply Ib. lia.
      + rewrite (rd_nth f _ 0%Z) by lia. cbn [bind]. rewrite B1, chk_ok by lia. cbn [bind]. rewrite wr_Ok by lia. eexists. split; [reflexivity|]. rewrite length_upd. split; [exact L|]. split.
        * intros k Hk. destruct (Nat.eq_dec k i) as [->|Hne].
          -- rewrite nth_upd_eq, nth_upd_neq by lia. rewrite B0. unfold neg_part. lia.
          -- rewrite !nth_upd_neq by lia. apply Ia. lia.
        * intros k Hk. rewrite !nth_upd_neq by lia. apply Ib. lia.
    - split; [exact L1|]. split; [intros; lia|]. intros k Hk. apply I1. lia. }
  - lia.
  - intros i f Hi (L & I). rewrite (rd_nth metric i 0%Z) by (destruct Hm; lia). cbn [bind]. rewrite wr_Ok by lia. cbn [bind]. rewrite wr_Ok by (rewrite length_upd; lia).
    eexists. split; [reflexivity|]. rewrite !length_upd. split; [exact L|]. intros k Hk. destruct (Nat.eq_dec k i) as [->|Hne].
    + rewrite nth_upd_eq by (rewrite length_upd; lia). rewrite nth_upd_neq by lia. rewrite nth_upd_eq by lia. auto.
    + rewrite !nth_upd_neq by lia. apply I. lia.
  - split; [apply repeat_length|]. intros; lia.
Qed.
Definition fkill (par fork : list Z) : list Z :=
  pairs (fun k => if (lane k par <? 0)%Z then 1000000%Z else nth (2 * k) fork 0%Z) (fun k => if (lane k par <? 0)%Z then nth (2 * k + 1) fork 0%Z else 1000000%Z) W.
Lemma kill_ok par fork : length par = W -> length fork = 2 * W -> parity_kill W par fork = Ok (fkill par fork).
Proof.
  intros Lp Lf. unfold parity_kill.
  edestruct (for_up_inv (fun i (f : list Z) => length f = 2 * W /\ (forall k, k < i -> nth (2 * k) f 0%Z = (if (lane k par <? 0)%Z then 1000000%Z else nth (2 * k) fork 0%Z) /\
        nth (2 * k + 1) f 0%Z = if (lane k par <? 0)%Z then nth (2 * k + 1) fork 0%Z else 1000000%Z)
        /\ (forall j, 2 * i <= j -> nth j f 0%Z = nth j fork 0%Z))
      (fun k fork => c <- rd par k ;; if (c <? 0)%Z then wr fork (2 * k) 1000000%Z else wr fork (2 * k + 1) 1000000%Z) 0 W fork) as (f2 & E2 & L2 & I2 & _).
  4: { rewrite E2. f_equal. apply pairs_ext; [exact L2|]. exact I2. }
  - lia.
  - intros i f Hi (L & Ia & Ib). rewrite (rd_nth par i 0%Z) by lia. cbn [bind]. fold (lane i par). destruct (lane i par <? 0)%Z eqn:C.
    + rewrite wr_Ok by lia. eexists. split; [reflexivity|]. rewrite length_upd. split; [exact L|]. split.
      * intros k Hk. destruct (Nat.eq_dec k i) as [->|Hne].
        -- rewrite C. rewrite nth_upd_eq, nth_upd_neq by lia. rewrite Ib by lia. auto.
        -- rewrite !nth_upd_neq by lia. apply Ia. lia.
      * intros j Hj. rewrite nth_upd_neq by lia. apply Ib. lia.
    + rewrite wr_Ok by lia. eexists. split; [reflexivity|]. rewrite length_upd. split; [exact L|]. split.
      * intros k Hk. destruct (Nat.eq_dec k i) as [->|Hne].
        -- rewrite C. rewrite nth_upd_eq, nth_upd_neq by lia. rewrite Ib by lia. auto.
        -- rewrite !nth_upd_neq by lia. apply Ia. lia.
      * intros j Hj. rewrite nth_upd_neq by lia. apply Ib. lia.
  - split; [exact Lf|]. split; [intros; lia|reflexivity].
Qed.

(** ** Selecting *)
Lemma ltb_swo : strict_weak_order Z.ltb.
Proof. split; [|split]; unfold equiv; intros; lia. Qed.
(** the permutation and the sorted values *)
Definition sorting (fork : list Z) : list nat * list Z :=
  match insertion_sort_index Z.ltb (2 * W) (uninit nat (2 * W)) fork with
  | Ok (p, s) => (map (fun o => match o with Some x => x | None => 0 end) p, s)
  | _ => ([], [])
  end.
Definition sel_metric (fork : list Z) : list Z := firstn W (snd (sorting fork)).
Definition sel_map (fork : list Z) : list Z := map (fun k => Z.of_nat (nth k (fst (sorting fork)) 0 / 2)) (seq 0 W).
Definition sel_bit (fork : list Z) : list Z := map (fun k => if Nat.even (nth k (fst (sorting fork)) 0) then 1%Z else (-1)%Z) (seq 0 W).
Lemma sorting_ok fork : length fork = 2 * W -> let '(p, s) := sorting fork in
  insertion_sort_index Z.ltb (2 * W) (uninit nat (2 * W)) fork = Ok (map Some p, s) /\
  Permutation (seq 0 (2 * W)) p /\ length p = 2 * W /\ length s = 2 * W /\
  (forall i, i < 2 * W -> nth i p 0 < 2 * W /\ nth i s 0%Z = nth (nth i p 0) fork 0%Z) /\
  nondecreasing s.
Proof.
  intros L. unfold sorting. destruct (C18_index_sort Z Z.ltb fork [] (uninit nat (2 * W)) [] ltb_swo ltac:(lia)) as (s & p & E & (PS & SS & _) & PP & V & _).
  { unfold uninit. rewrite repeat_length. lia. }
  rewrite !app_nil_r, L in E. rewrite E.
  assert (map (fun o => match o with Some x => x | None => 0 end) (map Some p) = p) as -> by (rewrite map_map; apply map_id).
  assert (length p = 2 * W) as Lp by (apply Permutation_length in PP; rewrite seq_length in PP; lia).
  assert (length s = 2 * W) as Ls by (apply Permutation_length in PS; lia).
  rewrite L in PP, V. split; [reflexivity|]. split; [exact PP|]. split; [exact Lp|]. split; [exact Ls|]. split.
  - intros i Hi. destruct (V i Hi) as (k & x & E1 & E2 & E3). apply (nth_error_nth _ _ 0) in E1 as Q1. apply (nth_error_nth _ _ 0%Z) in E2 as Q2. apply (nth_error_nth _ _ 0%Z) in E3 as Q3.
    rewrite Q1, Q2, Q3. split; [|reflexivity]. rewrite <- L. apply nth_error_Some. congruence.
  - intros i j Hij Hj. specialize (SS i j (nth i s 0%Z) (nth j s 0%Z) Hij). rewrite !nth_error_nth' with (d := 0%Z) in SS by lia. specialize (SS eq_refl eq_refl). lia.
Qed.
Lemma select_ok metric fork : length metric = W -> length fork = 2 * W ->
  list_select W metric fork = Ok (sel_metric fork, sel_map fork, sel_bit fork).
Proof.
  intros Lm L. pose proof (sorting_ok fork L) as S. unfold sel_metric, sel_map, sel_bit. destruct (sorting fork) as [p s]. destruct S as (E & PP & Lp & Ls & V & _).
  unfold list_select. rewrite E. cbn [bind fst snd].
  rewrite (fill_ok W 0 (fun i => nth i s 0%Z)); [|lia|].
  2: { intros i cur Hi _. rewrite (rd_nth _ _ 0%Z) by lia. reflexivity. }
  cbn [bind].
  rewrite (fill_lanes_ok _ (fun k => Z.of_nat (nth k p 0 / 2))).
  2: { intros k Hk. rewrite (rdu_nth _ _ (nth k p 0)).
       2: { rewrite (nth_map1 _ _ _ 0) by lia. reflexivity. }
       cbn [bind]. f_equal. destruct (V k ltac:(lia)) as (Q & _). rewrite Z.shiftr_div_pow2 by lia. change (2 ^ 1)%Z with 2%Z.
       rewrite Nat2Z.inj_div. change (Z.of_nat 2) with 2%Z. unfold to_u. apply Z.mod_small. change (2 ^ 8)%Z with 256%Z.
       split; [apply Z.div_pos; lia|]. apply Z.div_lt_upper_bound; lia. }
  cbn [bind].
  rewrite (fill_lanes_ok _ (fun k => if Nat.even (nth k p 0) then 1%Z else (-1)%Z)).
  2: { intros k Hk. rewrite (rdu_nth _ _ (nth k p 0)).
       2: { rewrite (nth_map1 _ _ _ 0) by lia. reflexivity. }
       cbn [bind]. f_equal. generalize (nth k p 0). intros q. change 1%Z with (Z.ones 1) at 2. rewrite Z.land_ones by lia. change (2 ^ 1)%Z with 2%Z.
       destruct (Nat.even q) eqn:C.
       - apply Nat.even_spec in C. destruct C as (j & ->). replace (Z.of_nat (2 * j) mod 2)%Z with 0%Z; [reflexivity|]. symmetry. apply Z.mod_divide; [lia|]. exists (Z.of_nat j). lia.
       - assert (Nat.Odd q) as (j & ->) by (apply Nat.odd_spec; rewrite <- Nat.negb_even, C; reflexivity).
         replace (Z.of_nat (2 * j + 1) mod 2)%Z with 1%Z; [reflexivity|]. apply (Z.mod_unique _ _ (Z.of_nat j)); lia. }
  cbn [bind]. do 3 f_equal. rewrite <- (map_nth_seq (firstn W s) W 0%Z) by (rewrite firstn_length; lia).
  apply (list_ext _ _ 0%Z); [rewrite length_put; rewrite !map_length, !seq_length; lia|]. intros i Hi. rewrite length_put in Hi by (rewrite map_length, seq_length; lia).
  rewrite nth_put by (rewrite map_length, seq_length; lia). rewrite map_length, seq_length. replace ((0 <=? i) && (i <? 0 + W)) with true by lia.
  rewrite !nth_map_seq. replace (i - 0) with i by lia. replace (i <? W) with true by lia. rewrite nth_firstn'. cbn [Nat.add]. replace (i <? W) with true by lia. reflexivity.
Qed.
(** lane [k] continues path [at_ map k] with [bit]: its metric is that of the fork; the forks are the best ones *)
Definition fork_index (map bit : list Z) (k : nat) : nat := 2 * at_ map k + (if (lane k bit =? 1)%Z then 0 else 1).
Lemma select_spec fork : length fork = 2 * W ->
  is_map (sel_map fork) /\ lanes_are W pm1 (sel_bit fork) /\ length (sel_metric fork) = W /\ nondecreasing (sel_metric fork) /\
  (forall k, k < W -> lane k (sel_metric fork) = nth (fork_index (sel_map fork) (sel_bit fork) k) fork 0%Z) /\
  (forall k l, k < W -> l < W -> k <> l -> fork_index (sel_map fork) (sel_bit fork) k <> fork_index (sel_map fork) (sel_bit fork) l) /\
  (forall j, j < 2 * W -> (exists k, k < W /\ fork_index (sel_map fork) (sel_bit fork) k = j) \/
     forall k, k < W -> (lane k (sel_metric fork) <= nth j fork 0)%Z).
Proof.
  intros L. pose proof (sorting_ok fork L) as S. unfold sel_metric, sel_map, sel_bit. destruct (sorting fork) as [p s]. destruct S as (_ & PP & Lp & Ls & V & NS).
  cbn [fst snd]. set (mp := map (fun k => Z.of_nat (nth k p 0 / 2)) (seq 0 W)). set (bt := map (fun k => if Nat.even (nth k p 0) then 1%Z else (-1)%Z) (seq 0 W)).
  assert (forall k, k < W -> lane k mp = Z.of_nat (nth k p 0 / 2)) as Em.
  { intros k Hk. unfold lane, mp. rewrite nth_map_seq. replace (k <? W) with true by lia. reflexivity. }
  assert (forall k, k < W -> lane k bt = if Nat.even (nth k p 0) then 1%Z else (-1)%Z) as Eb.
  { intros k Hk. unfold lane, bt. rewrite nth_map_seq. replace (k <? W) with true by lia. reflexivity. }
  assert (forall k, k < W -> fork_index mp bt k = nth k p 0) as Ei.
  { intros k Hk. unfold fork_index, at_. rewrite Em, Eb by exact Hk. generalize (nth k p 0). intros q. rewrite Nat2Z.id.
    destruct (Nat.even q) eqn:C.
    - apply Nat.even_spec in C. destruct C as (j & ->). rewrite (Nat.mul_comm 2 j), Nat.div_mul by lia. change (1 =? 1)%Z with true. cbv iota. lia.
    - assert (Nat.Odd q) as (j & ->) by (apply Nat.odd_spec; rewrite <- Nat.negb_even, C; reflexivity).
      replace ((2 * j + 1) / 2) with j by (apply (Nat.div_unique _ _ _ 1); lia). change (-1 =? 1)%Z with false. cbv iota. lia. }
  split; [|split; [|split; [|split; [|split; [|split]]]]].
  - apply lanes_intro; [unfold mp; rewrite map_length, seq_length; reflexivity|]. intros k Hk. rewrite Em by exact Hk. destruct (V k ltac:(lia)) as (Q & _).
    split; [lia|]. apply Nat2Z.inj_lt. apply Nat.div_lt_upper_bound; lia.
  - apply lanes_intro; [unfold bt; rewrite map_length, seq_length; reflexivity|]. intros k Hk. rewrite Eb by exact Hk. unfold pm1. destruct (Nat.even _); auto.
  - rewrite firstn_length. lia.
  - intros i j Hij Hj. rewrite firstn_length in Hj. rewrite !nth_firstn'. replace (i <? W) with true by lia. replace (j <? W) with true by lia. apply NS; lia.
  - intros k Hk. rewrite Ei by exact Hk. unfold lane. rewrite nth_firstn'. replace (k <? W) with true by lia. apply V. lia.
  - intros k l Hk Hl Hne. rewrite !Ei by assumption. intros E. apply Hne. assert (NoDup p) as ND by (eapply Permutation_NoDup; [exact PP|apply seq_NoDup]).
    rewrite (NoDup_nth p 0) in ND. apply ND; [lia|lia|exact E].
  - intros j Hj. assert (In j p) as I by (eapply Permutation_in; [exact PP|apply in_seq; lia]). apply (In_nth _ _ 0) in I. destruct I as (k & Hk & Ek).
    destruct (Nat.lt_ge_cases k W) as [C|C].
    + left. exists k. split; [exact C|]. rewrite Ei by exact C. exact Ek.
    + right. intros i Hi. unfold lane. rewrite nth_firstn'. replace (i <? W) with true by lia. rewrite <- Ek. destruct (V k ltac:(lia)) as (_ & <-).
      apply NS; lia.
Qed.
End Width.
