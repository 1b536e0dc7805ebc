(** Polar list decoders: order of the lanes, number of real paths, and decoding without noise. *)
From Coq Require Import ZifyBool ZifyNat ZifyN Permutation.
From Verif Require Import Cpp Model_simd Model_sort Model_polar Model_polar_list Spec_polar Spec_polar_list Lib_list Lib_wht
  Proof_bits Proof_simd Proof_polar1 Proof_polar2 Proof_polar3 Proof_polar4 Proof_polar5 Proof_polar6 Proof_polar7 Proof_plist1 Proof_plist2 Proof_plist3 Proof_plist4 Proof_plist5.
Local Open Scope nat_scope.
Ltac Zify.zify_post_hook ::= idtac.

Lemma last_nth {X} (l : list X) d : last l d = nth (length l - 1) l d.
Proof.
  induction l as [|x [|y l] IH]; [reflexivity|reflexivity|]. change (last (x :: y :: l) d) with (last (y :: l) d). rewrite IH. cbn [length]. replace (S (S (length l)) - 1) with (S (S (length l) - 1)) by lia. reflexivity.
Qed.
Lemma last_skipn {X} (l : list X) n d : n < length l -> last (skipn n l) d = last l d.
Proof. intros H. rewrite !last_nth, skipn_length, nth_skipn'. f_equal. lia. Qed.
Lemma forallb_last fl : forallb (fun b => b) fl = true -> last fl true = true.
Proof.
  induction fl as [|b [|c fl] IH]; intros H; [reflexivity| |].
  - cbn in *. rewrite andb_true_r in H. exact H.
  - cbn [forallb] in H. apply andb_true_iff in H. destruct H as [_ H]. change (last (b :: c :: fl) true) with (last (c :: fl) true). apply IH. exact H.
Qed.

(** ** Sorted lists and counting *)
Definition below (x : Z) : bool := (x <? 1000000)%Z.
Definition count (l : list Z) : nat := length (filter below l).
Lemma count_perm a b : Permutation a b -> count a = count b.
Proof. unfold count. induction 1 as [|x a b H IH|x y a|a b c H1 IH1 H2 IH2]; [reflexivity| | |congruence]; cbn [filter]; [destruct (below x); cbn [length]; congruence|destruct (below x), (below y); reflexivity]. Qed.
Lemma nondecreasing_tl x s : nondecreasing (x :: s) -> nondecreasing s /\ forall y, In y s -> (x <= y)%Z.
Proof.
  intros H. split.
  - intros i j Hij Hj. apply (H (S i) (S j)); cbn [length]; lia.
  - intros y Hy. apply (In_nth _ _ 0%Z) in Hy. destruct Hy as (i & Hi & <-). apply (H 0 (S i)); cbn [length]; lia.
Qed.
Lemma count_above s : (forall y, In y s -> (1000000 <= y)%Z) -> count s = 0.
Proof. unfold count. induction s as [|x s IH]; intros H; [reflexivity|]. cbn [filter]. unfold below at 1. replace (x <? 1000000)%Z with false by (specialize (H x (or_introl eq_refl)); lia). apply IH. intros y Hy. apply H. right. exact Hy. Qed.
Lemma sorted_below s : nondecreasing s -> forall k, k < length s -> ((nth k s 0 < 1000000)%Z <-> k < count s).
Proof.
  induction s as [|x s IH]; intros N k Hk; [cbn in Hk; lia|]. destruct (nondecreasing_tl _ _ N) as (Nt & Nx). unfold count. cbn [filter]. fold (count s).
  destruct (below x) eqn:E; unfold below in E; cbn [length].
  - fold (count s). destruct k as [|k]; cbn [nth]; [lia|]. cbn [length] in Hk. rewrite (IH Nt k ltac:(lia)). lia.
  - fold (count s). rewrite (count_above s) by (intros y Hy; specialize (Nx y Hy); lia).
    split; [|lia]. destruct k as [|k]; cbn [nth]; intros C; [lia|]. cbn [length] in Hk. specialize (Nx (nth k s 0%Z) ltac:(apply nth_In; lia)). lia.
Qed.
Lemma count_app a b : count (a ++ b) = count a + count b.
Proof. unfold count. rewrite filter_app, app_length. reflexivity. Qed.
Lemma count_pairs f g W c q : (forall k, k < W -> count [f k; g k] = if k <? c then q else 0) -> count (pairs f g W) = q * Nat.min c W.
Proof.
  intros H. induction W as [|w IH]; [rewrite Nat.min_0_r, Nat.mul_0_r; reflexivity|]. rewrite pairs_S, count_app, H, IH by lia || (intros; apply H; lia).
  destruct (Nat.ltb_spec w c); [replace (Nat.min c (S w)) with (S (Nat.min c w)) by lia; lia|replace (Nat.min c (S w)) with (Nat.min c w) by lia; lia].
Qed.

Section Decoder.
Variable W : nat.
Hypothesis HW : 1 <= W <= 256.
Variable P : polar_ops (list Z).
Hypothesis HP : vops_ok W P.
Variable next : nat -> role * nat.
Hypothesis next_ok : forall c, fst (next c) <> Frozen.
Notation Is := (lanes_are W int8).
Notation Iv := (lanes_are W pm1).
Notation is_map := (is_map W).
Notation groles := (groles next).

(** ** The metrics are sorted if the last position is not frozen *)
Lemma lnode_sorted n : forall fl a sl, length fl = 2 ^ n -> last fl true = false -> nondecreasing (a_metric (snd (lnode W P next n fl a sl))).
Proof.
  induction n as [|m IH]; intros fl a sl L Hl.
  - cbn [lnode]. unfold leaf. destruct (next (a_left a)) as [[| |] c]; cbn [snd a_metric]; apply select_spec; (exact HW || apply length_pairs).
  - cbn [lnode]. unfold ljoin. destruct (lchild _ _ _ (firstn _ _) _ _ _) as [[lm x1] a1].
    pose proof (pow2_pos m) as Hp. cbn [Nat.pow] in L. rewrite <- (last_skipn fl (2 ^ m)) in Hl by lia. set (f := skipn (2 ^ m) fl) in *.
    specialize (IH f a1 (lright P m lm x1 sl) ltac:(unfold f; rewrite skipn_length; lia) Hl). unfold lchild. destruct ((m <=? 5) && forallb (fun b => b) f) eqn:C.
    + exfalso. apply andb_true_iff in C. destruct C as [_ C]. apply forallb_last in C. congruence.
    + destruct (lnode W P next m f a1 _) as [[rm x2] a2]. exact IH.
Qed.

(** ** The number of real paths *)
Definition counted (c : nat) (A : Z) (metric : list Z) : Prop :=
  forall k, k < W -> if k <? c then (0 <= lane k metric <= A)%Z else (1000000 <= lane k metric)%Z.
Lemma select_count fork A c : length fork = 2 * W -> (A < 1000000)%Z -> (forall j, j < 2 * W -> (0 <= nth j fork 0 <= A \/ 1000000 <= nth j fork 0)%Z) -> count fork = c ->
  counted (Nat.min W c) A (sel_metric W fork).
Proof.
  intros L HA Hr Hc k Hk. pose proof (sorting_ok W HW fork L) as S. unfold sel_metric. destruct (sorting W fork) as [p s]. destruct S as (_ & PP & Lp & Ls & V & NS). cbn [snd].
  assert (Permutation s fork) as PS.
  { assert (s = map (fun i => nth i fork 0%Z) p) as ->.
    { apply (list_ext _ _ 0%Z); [rewrite map_length; lia|]. intros i Hi. rewrite (nth_map1 _ _ _ 0) by lia. apply V. lia. }
    eapply Permutation_trans; [apply Permutation_map; apply Permutation_sym; exact PP|]. rewrite (map_nth_seq fork) by exact L. apply Permutation_refl. }
  apply count_perm in PS. rewrite Hc in PS. pose proof (sorted_below s NS k ltac:(lia)) as Q. rewrite PS in Q.
  destruct (V k ltac:(lia)) as (V1 & V2). specialize (Hr _ V1). unfold lane. rewrite nth_firstn'. replace (k <? W) with true by lia. rewrite V2 in *.
  replace (k <? Nat.min W c) with (k <? c) by lia. destruct (Nat.ltb_spec k c); lia.
Qed.
Definition fcount (n : nat) (fl : list bool) (F : fn) : Prop := forall B a sl c A,
  (1000000 <= B)%Z -> awf W next B a -> length sl = 2 ^ n -> Forall Is sl ->
  (0 <= A)%Z -> (A + 128 * Z.of_nat (2 ^ n) < 1000000)%Z -> counted c A (a_metric a) ->
  let '(mp, x, a') := F a sl in
  counted (Nat.min W (c * 2 ^ payload (groles fl (a_left a)))) (A + 128 * Z.of_nat (2 ^ n)) (a_metric a').
Lemma counted_min c A m : counted c A m -> counted (Nat.min W c) A m.
Proof. intros H k Hk. specialize (H k Hk). replace (k <? Nat.min W c) with (k <? c) by lia. exact H. Qed.
Lemma fork_split c A m s j : counted c A m -> Is s -> j < 2 * W -> (0 <= nth j (ffork W m s) 0 <= A + 128 \/ 1000000 <= nth j (ffork W m s) 0)%Z.
Proof.
  intros Hc Hs Hj. destruct (even_odd_case j) as (k & Ek). assert (k < W) as Hk by lia. specialize (Hc k Hk). pose proof (lanes_get W _ _ k Hs Hk) as Rs. unfold ffork.
  destruct (nth_pairs (fun k => (lane k m + neg_part (lane k s))%Z) (fun k => (lane k m + neg_part (- lane k s))%Z) W k Hk) as (E0 & E1).
  destruct Ek as [-> | ->]; rewrite ?E0, ?E1; destruct (k <? c); unfold neg_part, int8 in *; lia.
Qed.
Lemma leaf_count : fcount 0 [false] (leaf W P next).
Proof.
  intros B a sl c A HB (Hm & Hp & Hh & Hn) L F HA HA2 Hc. destruct sl as [|v [|? ?]]; try discriminate. inversion F as [|? ? Hv _]; subst. unfold leaf. cbn [hd].
  change (Z.of_nat (2 ^ 0)) with 1%Z in *. rewrite Z.mul_1_r in *.
  pose proof (next_ok (a_left a)) as Hnx. cbn [Proof_plist2.groles]. destruct (next (a_left a)) as [r n] eqn:En. cbn [fst snd] in *.
  assert (r = Data \/ r = Parity) as [-> | ->] by (destruct r; [congruence|auto|auto]); cbn [a_metric].
  - change (2 ^ payload [Data]) with 2. replace (Nat.min W (c * 2)) with (Nat.min W (2 * Nat.min c W)) by lia. apply select_count; [apply length_pairs|lia| |].
    + intros j Hj. apply (fork_split c); assumption.
    + unfold ffork. apply count_pairs. intros k Hk. specialize (Hc k Hk). pose proof (lanes_get W _ _ k Hv Hk) as Rs. unfold int8 in Rs. unfold count, filter, below, neg_part.
      destruct (k <? c).
      * replace (_ <? _)%Z with true by lia. replace (_ <? _)%Z with true by lia. reflexivity.
      * replace (_ <? _)%Z with false by lia. replace (_ <? _)%Z with false by lia. reflexivity.
  - change (2 ^ payload [Parity]) with 1. replace (Nat.min W (c * 1)) with (Nat.min W (1 * Nat.min c W)) by lia. apply select_count; [apply length_pairs|lia| |].
    + intros j Hj. destruct (even_odd_case j) as (k & Ek). assert (k < W) as Hk by lia. pose proof (fork_split c A _ v j Hc Hv Hj) as Q. unfold fkill.
      destruct (nth_pairs (fun k => if (lane k (a_par a) <? 0)%Z then 1000000%Z else nth (2 * k) (ffork W (a_metric a) v) 0%Z) (fun k => if (lane k (a_par a) <? 0)%Z then nth (2 * k + 1) (ffork W (a_metric a) v) 0%Z else 1000000%Z) W k Hk) as (E0 & E1).
      destruct Ek as [-> | ->]; rewrite ?E0, ?E1; destruct (lane k (a_par a) <? 0)%Z; lia.
    + unfold fkill. apply count_pairs. intros k Hk. specialize (Hc k Hk). pose proof (lanes_get W _ _ k Hv Hk) as Rs. unfold int8 in Rs.
      destruct (nth_pairs (fun k => (lane k (a_metric a) + neg_part (lane k v))%Z) (fun k => (lane k (a_metric a) + neg_part (- lane k v))%Z) W k Hk) as (E0 & E1).
      fold (ffork W (a_metric a) v) in E0, E1. rewrite E0, E1. unfold count, filter, below, neg_part.
      destruct (lane k (a_par a) <? 0)%Z; destruct (k <? c).
      * change (1000000 <? 1000000)%Z with false. replace (_ <? _)%Z with true by lia. reflexivity.
      * change (1000000 <? 1000000)%Z with false. replace (_ <? _)%Z with false by lia. reflexivity.
      * change (1000000 <? 1000000)%Z with false. replace (_ <? _)%Z with true by lia. reflexivity.
      * change (1000000 <? 1000000)%Z with false. replace (_ <? _)%Z with false by lia. reflexivity.
Qed.
Lemma lr0_count n fl : length fl = 2 ^ n -> forallb (fun b => b) fl = true -> fcount n fl (lr0 W P n).
Proof.
  intros Lf Af B a sl c A HB (Hm & Hp & Hh & Hn) L F HA HA2 Hc. unfold lr0. destruct (groles_all next fl (a_left a) Af) as (Er & Ea). rewrite Er, payload_frozen. cbn [a_metric].
  cbn [Nat.pow]. rewrite Nat.mul_1_r. apply counted_min. intros k Hk. rewrite (lane_charged W HW next next_ok) by exact Hk. specialize (Hc k Hk).
  pose proof (charge_le _ (lane_word_int8 W k sl F Hk)) as C. rewrite length_lane_of, L in C. destruct (k <? c); lia.
Qed.
Lemma ljoin_count m fl FL FR : fgood W next m (firstn (2 ^ m) fl) FL -> fcount m (firstn (2 ^ m) fl) FL -> fcount m (skipn (2 ^ m) fl) FR -> fcount (S m) fl (ljoin P FL FR m).
Proof.
  intros GL SL SR B a sl c A HB Ha L F HA HA2 Hc. unfold ljoin. destruct (fleft_wf W HW P HP next next_ok m sl L F) as (L1 & F1). cbn [Nat.pow] in HA2.
  specialize (GL B a _ HB Ha L1 F1). specialize (SL B a _ c A HB Ha L1 F1 HA ltac:(lia) Hc).
  destruct (FL a (fleft P m sl)) as [[lm x1] a1]. destruct GL as (M1 & X1 & V1 & A1 & H1 & C1).
  destruct (lright_wf W HW P HP next next_ok m lm x1 sl L F M1 X1 V1) as (L2 & F2).
  specialize (SR (B + 128 * Z.of_nat (2 ^ m))%Z a1 _ _ (A + 128 * Z.of_nat (2 ^ m))%Z ltac:(lia) A1 L2 F2 ltac:(lia) ltac:(lia) SL).
  destruct (FR a1 (lright P m lm x1 sl)) as [[rm x2] a2].
  assert (groles fl (a_left a) = groles (firstn (2 ^ m) fl) (a_left a) ++ groles (skipn (2 ^ m) fl) (a_left a1)) as Er.
  { rewrite <- (firstn_skipn (2 ^ m) fl) at 1. rewrite groles_app, C1. reflexivity. }
  rewrite Er, payload_app, Nat.pow_add_r.
  replace (A + 128 * Z.of_nat (2 ^ S m))%Z with (A + 128 * Z.of_nat (2 ^ m) + 128 * Z.of_nat (2 ^ m))%Z by (cbn [Nat.pow]; lia).
  replace (Nat.min W (c * (2 ^ payload (groles (firstn (2 ^ m) fl) (a_left a)) * 2 ^ payload (groles (skipn (2 ^ m) fl) (a_left a1)))))
    with (Nat.min W (Nat.min W (c * 2 ^ payload (groles (firstn (2 ^ m) fl) (a_left a))) * 2 ^ payload (groles (skipn (2 ^ m) fl) (a_left a1)))); [exact SR|].
  pose proof (pow2_pos (payload (groles (skipn (2 ^ m) fl) (a_left a1)))) as Q. rewrite Nat.mul_assoc. revert Q. generalize (2 ^ payload (groles (skipn (2 ^ m) fl) (a_left a1))). intros e Q.
  generalize (c * 2 ^ payload (groles (firstn (2 ^ m) fl) (a_left a))). intros d. destruct (Nat.min_spec W d) as [(C & ->)|(C & ->)]; nia.
Qed.
Lemma lnode_count n : forall fl, length fl = 2 ^ n -> (n = 0 -> fl = [false]) -> fcount n fl (lnode W P next n fl).
Proof.
  induction n as [|m IH]; intros fl L H0; [rewrite H0 by reflexivity; exact leaf_count|]. cbn [lnode].
  assert (forall f, length f = 2 ^ m -> fcount m f (lchild W P m f (lnode W P next m f))) as Hc.
  { intros f Lf. unfold lchild. destruct ((m <=? 5) && forallb (fun b => b) f) eqn:C.
    - apply lr0_count; [exact Lf|]. apply andb_true_iff in C. apply C.
    - apply IH; [exact Lf|]. intros ->. destruct f as [|[|] [|? ?]]; cbn in Lf, C; try discriminate; try lia. reflexivity. }
  cbn [Nat.pow] in L.
  assert (length (firstn (2 ^ m) fl) = 2 ^ m) as Lf1 by (rewrite firstn_length; lia). assert (length (skipn (2 ^ m) fl) = 2 ^ m) as Lf2 by (rewrite skipn_length; lia).
  apply ljoin_count; [apply (lchild_fgood W HW P HP next next_ok); exact Lf1|apply Hc; assumption..].
Qed.

(** ** Without noise lane 0 follows the message *)
Definition leads (metric : list Z) : Prop := lane 0 metric = 0%Z /\ forall k, 0 < k -> k < W -> (0 < lane k metric)%Z.
Definition fclean (n : nat) (fl : list bool) (F : fn) : Prop := forall B a sl M,
  (1000000 <= B)%Z -> awf W next B a -> length sl = 2 ^ n -> Forall Is sl ->
  let rs := groles fl (a_left a) in
  length M = payload rs -> Forall pm1 M -> leads (a_metric a) -> map Z.sgn (lane_of 0 sl) = ptr n (symbols rs (lane 0 (a_par a)) M) ->
  let '(mp, x, a') := F a sl in
  at_ mp 0 = 0 /\ leads (a_metric a') /\ bits (a_hist a') 0 = bits (a_hist a) 0 ++ M /\ lane_of 0 x = ptr n (symbols rs (lane 0 (a_par a)) M) /\
  lane 0 (a_par a') = pafter rs (lane 0 (a_par a)) M.
Lemma select_clean fork b : length fork = 2 * W -> pm1 b -> nth (if (b =? 1)%Z then 0 else 1) fork 0%Z = 0%Z ->
  (forall j, j < 2 * W -> j <> (if (b =? 1)%Z then 0 else 1) -> (0 < nth j fork 0)%Z) ->
  at_ (sel_map W fork) 0 = 0 /\ lane 0 (sel_bit W fork) = b /\ leads (sel_metric W fork).
Proof.
  intros L Hb H0 H1. destruct (select_spec W HW fork L) as (S1 & S2 & S3 & S4 & S5 & S6 & S7). set (j0 := if (b =? 1)%Z then 0 else 1) in *.
  assert (j0 < 2 * W) as Hj by (unfold j0; destruct (b =? 1)%Z; lia). pose proof (fork_index_lt W HW next next_ok (sel_map W fork) (sel_bit W fork) 0 S1 ltac:(lia)) as R0.
  assert (lane 0 (sel_metric W fork) <= 0)%Z as Hle.
  { destruct (S7 j0 Hj) as [(k & Hk & Ek)|H].
    - assert (lane k (sel_metric W fork) = 0%Z) as E by (rewrite S5, Ek by exact Hk; exact H0). destruct k as [|k]; [lia|]. specialize (S4 0 (S k) ltac:(lia) ltac:(lia)). unfold lane in *. lia.
    - specialize (H 0 ltac:(lia)). lia. }
  assert (fork_index (sel_map W fork) (sel_bit W fork) 0 = j0) as E0.
  { destruct (Nat.eq_dec (fork_index (sel_map W fork) (sel_bit W fork) 0) j0) as [E|E]; [exact E|]. specialize (H1 _ R0 E). rewrite S5 in Hle by lia. lia. }
  assert (at_ (sel_map W fork) 0 = 0 /\ lane 0 (sel_bit W fork) = b) as (Ea & Eb).
  { unfold fork_index, j0 in E0. pose proof (lanes_get W _ _ 0 S2 ltac:(lia)) as Q. unfold pm1 in *. destruct (Z.eqb_spec (lane 0 (sel_bit W fork)) 1), (Z.eqb_spec b 1); lia. }
  split; [exact Ea|]. split; [exact Eb|]. split.
  - rewrite S5 by lia. rewrite E0. exact H0.
  - intros k Hk Hk2. rewrite S5 by exact Hk2. apply H1; [apply (fork_index_lt W HW next next_ok); assumption|]. rewrite <- E0. apply S6; lia.
Qed.
Lemma sgn_pm1 x b : Z.sgn x = b -> pm1 b -> neg_part (b * x) = 0%Z /\ (0 < neg_part (- b * x))%Z.
Proof. intros <- Hb. unfold neg_part, pm1 in *. destruct x; cbn in *; lia. Qed.
Lemma leaf_clean : fclean 0 [false] (leaf W P next).
Proof.
  intros B a sl M HB (Hm & Hp & Hh & Hn) L F. destruct sl as [|v [|? ?]]; try discriminate. inversion F as [|? ? Hv _]; subst. unfold leaf. cbn [hd].
  pose proof (next_ok (a_left a)) as Hnx. cbn [Proof_plist2.groles]. destruct (next (a_left a)) as [r c] eqn:En. cbn [fst snd] in *. set (rs := [r]). intros LM FM (Z0 & Z1) E. cbn [map lane_of] in E.
  assert (forall j b, pm1 b -> Z.sgn (lane 0 v) = b -> j < 2 * W -> nth j (ffork W (a_metric a) v) 0%Z = 0%Z /\ j = (if (b =? 1)%Z then 0 else 1) \/ (0 < nth j (ffork W (a_metric a) v) 0)%Z /\ j <> (if (b =? 1)%Z then 0 else 1)) as Fk.
  { intros j b Hb Es Hj. destruct (even_odd_case j) as (k & Ek). assert (k < W) as Hk by lia.
    destruct (sgn_pm1 _ _ Es Hb) as (N1 & N2). unfold ffork.
    destruct (nth_pairs (fun k => (lane k (a_metric a) + neg_part (lane k v))%Z) (fun k => (lane k (a_metric a) + neg_part (- lane k v))%Z) W k Hk) as (E0 & E1).
    destruct (Nat.eq_dec k 0) as [-> | Hne].
    - destruct Hb as [-> | ->]; cbn [Z.eqb Pos.eqb]; rewrite ?Z.mul_1_l in *; destruct Ek as [-> | ->]; rewrite ?E0, ?E1, ?Z0; unfold neg_part in *; lia.
    - right. specialize (Z1 k ltac:(lia) Hk). split; [|destruct (b =? 1)%Z; lia]. destruct Ek as [-> | ->]; rewrite ?E0, ?E1; unfold neg_part in *; lia. }
  assert (r = Data \/ r = Parity) as [-> | ->] by (destruct r; [congruence|auto|auto]).
  - destruct M as [|b [|? ?]]; cbn [payload filter length rs] in LM; try discriminate. inversion FM as [|? ? Hb _]; subst. cbn [symbols rs hd tl ptr] in E.
    assert (Z.sgn (lane 0 v) = b) as Es by (injection E; auto). cbn [a_metric a_hist a_par]. set (fork := ffork W (a_metric a) v) in *.
    assert ((if (b =? 1)%Z then 0 else 1) < 2 * W) as Hj0 by (destruct (b =? 1)%Z; lia).
    destruct (select_clean fork b) as (Ea & Eb & Hl); [apply length_pairs|exact Hb| | |].
    + destruct (Fk _ b Hb Es Hj0); lia.
    + intros j Hj Hne. destruct (Fk j b Hb Es Hj); lia.
    + destruct (select_spec W HW fork ltac:(apply length_pairs)) as (S1 & S2 & _).
      split; [exact Ea|]. split; [exact Hl|]. split; [cbn [bits]; rewrite Ea, Eb; reflexivity|]. split; [cbn [ptr symbols rs hd lane_of map]; f_equal; exact Eb|].
      cbn [pafter rs hd tl]. rewrite (lane_mul W P HP) by (try apply lanes_vshuf; (assumption || lia)). rewrite (lane_vshuf W _ _ _ pm1) by (assumption || lia). rewrite Ea, Eb. reflexivity.
  - destruct M; [|discriminate]. cbn [symbols rs ptr] in E. assert (Z.sgn (lane 0 v) = lane 0 (a_par a)) as Es by (injection E; auto).
    pose proof (lanes_get W _ _ 0 Hp ltac:(lia)) as Hb. set (b := lane 0 (a_par a)) in *. cbn [a_metric a_hist a_par].
    specialize (Hn eq_refl). destruct (a_hist a) as [|[m p] h] eqn:Eh; [congruence|]. inversion Hh as [|? ? (H1 & H2) H3]; subst. cbn [fst snd] in *.
    set (f0 := ffork W (a_metric a) v) in *. set (fork := fkill W (a_par a) f0).
    assert ((if (b =? 1)%Z then 0 else 1) < 2 * W) as Hj0 by (destruct (b =? 1)%Z; lia).
    assert (forall j, j < 2 * W -> nth j fork 0%Z = nth j f0 0%Z \/ nth j fork 0%Z = 1000000%Z /\ j <> (if (b =? 1)%Z then 0 else 1)) as Kv.
    { intros j Hj. destruct (even_odd_case j) as (k & Ek). assert (k < W) as Hk by lia. unfold fork, fkill.
      destruct (nth_pairs (fun k => if (lane k (a_par a) <? 0)%Z then 1000000%Z else nth (2 * k) f0 0%Z) (fun k => if (lane k (a_par a) <? 0)%Z then nth (2 * k + 1) f0 0%Z else 1000000%Z) W k Hk) as (E0 & E1).
      destruct (Nat.eq_dec k 0) as [-> | Hne].
      - fold b in E0, E1. destruct Hb as [Hb | Hb]; rewrite Hb in *; cbn [Z.eqb Pos.eqb Z.ltb Z.compare] in *; destruct Ek as [-> | ->]; rewrite ?E0, ?E1; lia.
      - assert (j <> (if (b =? 1)%Z then 0 else 1)) by (destruct (b =? 1)%Z; lia). destruct Ek as [-> | ->]; rewrite ?E0, ?E1; destruct (lane k (a_par a) <? 0)%Z; auto. }
    destruct (select_clean fork b) as (Ea & Eb & Hl); [apply length_pairs|exact Hb| | |].
    + destruct (Kv _ Hj0) as [-> | K]; [|lia]. destruct (Fk _ b Hb Es Hj0); lia.
    + intros j Hj Hne. destruct (Kv _ Hj) as [-> | K]; [|lia]. destruct (Fk j b Hb Es Hj); lia.
    + destruct (select_spec W HW fork ltac:(apply length_pairs)) as (S1 & S2 & _).
      split; [exact Ea|]. split; [exact Hl|]. split; [|split].
      * cbn [bits]. rewrite app_nil_r, (at_vshuf W) by (assumption || lia). rewrite (lane_vshuf W _ _ _ pm1) by (assumption || lia). rewrite Ea. reflexivity.
      * cbn [ptr symbols rs hd lane_of map]. f_equal. exact Eb.
      * apply (vk_one _ _ HP). lia.
Qed.
Lemma charge_pos l n : map Z.sgn l = repeat 1%Z n -> charge l = 0%Z.
Proof.
  revert n. induction l as [|x l IH]; intros [|n] E; try discriminate; [reflexivity|]. cbn [map repeat] in E. assert (map Z.sgn l = repeat 1%Z n) as E2 by (injection E; auto).
  assert (Z.sgn x = 1%Z) as E1 by (injection E; auto). unfold charge, sum in *. cbn [map fold_right]. rewrite (IH n E2). destruct x; cbn in *; lia.
Qed.
Lemma lr0_clean n fl : length fl = 2 ^ n -> forallb (fun b => b) fl = true -> fclean n fl (lr0 W P n).
Proof.
  intros Lf Af B a sl M HB (Hm & Hp & Hh & Hn) L F rs LM FM (Z0 & Z1) E. unfold lr0. destruct (groles_all next fl (a_left a) Af) as (Er & Ea). unfold rs in *. rewrite Er, Lf in *.
  rewrite payload_frozen in LM. destruct M; [|discriminate]. destruct (symbols_frozen (2 ^ n) (lane 0 (a_par a)) []) as (Es & Ep). rewrite Es in *. rewrite Ep. rewrite ptr_ones in *.
  cbn [a_metric a_hist a_par]. split; [apply at_iota; lia|]. split; [split|split; [rewrite app_nil_r; reflexivity|split; [apply (lane_of_ones W P HP); lia|reflexivity]]].
  - rewrite (lane_charged W HW next next_ok) by lia. rewrite Z0, (charge_pos _ _ E). reflexivity.
  - intros k Hk Hk2. rewrite (lane_charged W HW next next_ok) by lia. specialize (Z1 k Hk Hk2). pose proof (charge_le _ (lane_word_int8 W k sl F Hk2)). lia.
Qed.
Lemma sgn_max x : Z.sgn (Z.max (-127) x) = Z.sgn x.
Proof. destruct (Z.lt_total x 0) as [H|[->|H]]; [rewrite !Z.sgn_neg by lia|reflexivity|rewrite !Z.sgn_pos by lia]; reflexivity. Qed.
Lemma sgn_sright m x1 sl : length sl = 2 ^ S m -> length x1 = 2 ^ m ->
  x1 = zip2 Z.mul (map Z.sgn (firstn (2 ^ m) sl)) (map Z.sgn (skipn (2 ^ m) sl)) -> map Z.sgn (sright m x1 sl) = map Z.sgn (skipn (2 ^ m) sl).
Proof.
  intros L Lx H. cbn [Nat.pow] in L. apply (list_ext _ _ 0%Z).
  - unfold sright. rewrite !map_length, length_zip3, firstn_length, skipn_length. lia.
  - intros i Hi. unfold sright in *. rewrite map_length, length_zip3, firstn_length, skipn_length in Hi. rewrite !(nth_map1 _ _ _ 0%Z) by (rewrite ?length_zip3, ?firstn_length, ?skipn_length; lia).
    rewrite (nth_zip3 _ _ _ _ _ 0%Z 0%Z 0%Z) by (rewrite ?firstn_length, ?skipn_length; lia). apply sgn_right. right. rewrite sgn_max, H.
    rewrite (nth_zip2 _ _ _ _ 0%Z 0%Z) by (rewrite map_length, ?firstn_length, ?skipn_length; lia). rewrite !(nth_map1 _ _ _ 0%Z) by (rewrite ?firstn_length, ?skipn_length; lia). reflexivity.
Qed.
Lemma ljoin_clean m fl FL FR : length fl = 2 ^ S m -> fgood W next m (firstn (2 ^ m) fl) FL -> fgood W next m (skipn (2 ^ m) fl) FR ->
  fclean m (firstn (2 ^ m) fl) FL -> fclean m (skipn (2 ^ m) fl) FR -> fclean (S m) fl (ljoin P FL FR m).
Proof.
  intros Lfl GL GR SL SR B a sl M HB Ha L F rs LM FM Hl E. unfold ljoin. destruct (fleft_wf W HW P HP next next_ok m sl L F) as (L1 & F1). pose proof (pow2_pos m) as Hpw.
  assert (rs = groles (firstn (2 ^ m) fl) (a_left a) ++ groles (skipn (2 ^ m) fl) (gafter next (firstn (2 ^ m) fl) (a_left a))) as Er.
  { unfold rs. rewrite <- (firstn_skipn (2 ^ m) fl) at 1. apply groles_app. }
  cbn [Nat.pow] in Lfl. assert (length (firstn (2 ^ m) fl) = 2 ^ m) as Lf1 by (rewrite firstn_length; lia). assert (length (skipn (2 ^ m) fl) = 2 ^ m) as Lf2 by (rewrite skipn_length; lia).
  set (r1 := groles (firstn (2 ^ m) fl) (a_left a)) in *. set (r2 := groles (skipn (2 ^ m) fl) (gafter next (firstn (2 ^ m) fl) (a_left a))) in *.
  assert (length r1 = 2 ^ m) as Lr1 by (unfold r1; rewrite length_groles; exact Lf1). assert (length r2 = 2 ^ m) as Lr2 by (unfold r2; rewrite length_groles; exact Lf2).
  rewrite Er, payload_app in LM.
  set (M1 := firstn (payload r1) M). set (M2 := skipn (payload r1) M). assert (M = M1 ++ M2) as EM by (symmetry; apply firstn_skipn).
  assert (length M1 = payload r1) as LM1 by (unfold M1; rewrite firstn_length; lia). assert (length M2 = payload r2) as LM2 by (unfold M2; rewrite skipn_length; lia).
  assert (Forall pm1 M1) as FM1 by (apply Forall_firstn_; exact FM). assert (Forall pm1 M2) as FM2 by (apply Forall_skipn_; exact FM).
  set (par := lane 0 (a_par a)) in *. destruct Ha as (Am & Ap & Ah). pose proof (lanes_get W _ _ 0 Ap ltac:(lia)) as Hpar. fold par in Hpar.
  destruct (symbols_app r1 r2 par M1 M2 LM1) as (Es & Epf). rewrite <- EM, <- Er in Es, Epf. rewrite Es, Epf in *.
  destruct (pm1_symbols r1 par M1 Hpar FM1) as (Q1 & Q1'). destruct (pm1_symbols r2 _ M2 Q1' FM2) as (Q2 & Q2').
  assert (length (symbols r1 par M1) = 2 ^ m) as Ls1 by (rewrite length_symbols; exact Lr1). assert (length (symbols r2 (pafter r1 par M1) M2) = 2 ^ m) as Ls2 by (rewrite length_symbols; exact Lr2).
  cbn [ptr] in *. rewrite firstn_app_l, skipn_app_l in * by exact Ls1.
  pose proof (length_ptr m _ Ls1) as P1. pose proof (length_ptr m _ Ls2) as P2. pose proof (pm1_ptr m _ Q1) as R1. pose proof (pm1_ptr m _ Q2) as R2.
  set (x := ptr m (symbols r1 par M1)) in *. set (y := ptr m (symbols r2 (pafter r1 par M1) M2)) in *.
  assert (length (lane_of 0 sl) = 2 ^ S m) as L0 by (rewrite length_lane_of; exact L).
  assert (map Z.sgn (firstn (2 ^ m) (lane_of 0 sl)) = zip2 Z.mul x y) as Ea by (rewrite <- firstn_map, E; apply firstn_app_l; rewrite length_zip2; lia).
  assert (map Z.sgn (skipn (2 ^ m) (lane_of 0 sl)) = y) as Eb by (rewrite <- skipn_map, E; apply skipn_app_l; rewrite length_zip2; lia).
  assert (zip2 Z.mul (zip2 Z.mul x y) y = x) as Exy by (apply zip2_sq; [lia|exact R2]).
  specialize (GL B a _ HB (conj Am (conj Ap Ah)) L1 F1). specialize (SL B a _ M1 HB (conj Am (conj Ap Ah)) L1 F1 LM1 FM1 Hl).
  rewrite (lane_fleft W P HP) in SL by (assumption || lia). specialize (SL ltac:(change (sleft m (lane_of 0 sl)) with (fleft zops m (lane_of 0 sl)); rewrite map_sgn_left by exact L0; rewrite Ea, Eb, Exy; reflexivity)).
  destruct (FL a (fleft P m sl)) as [[lm x1] a1]. destruct GL as (N1 & X1 & V1 & A1 & H1 & C1). destruct SL as (T1 & T2 & T3 & T4 & T5). fold r1 in T4, T5. fold par in T4, T5. fold x in T4.
  destruct (lright_wf W HW P HP next next_ok m lm x1 sl L F N1 X1 V1) as (L2 & F2). specialize (GR (B + 128 * Z.of_nat (2 ^ m))%Z a1 _ ltac:(lia) A1 L2 F2).
  specialize (SR (B + 128 * Z.of_nat (2 ^ m))%Z a1 _ M2 ltac:(lia) A1 L2 F2). cbv zeta in SR. rewrite C1, T5 in SR. fold r2 in SR. specialize (SR LM2 FM2 T2).
  rewrite (lane_lright W P HP) in SR by (assumption || lia). rewrite T1, T4 in SR. specialize (SR ltac:(rewrite sgn_sright; [exact Eb|exact L0|lia|rewrite Ea, Eb; symmetry; exact Exy])).
  destruct (FR a1 (lright P m lm x1 sl)) as [[rm x2] a2]. destruct GR as (N2 & X2 & V2 & A2 & H2 & C2). destruct SR as (U1 & U2 & U3 & U4 & U5).
  split; [rewrite (at_vshuf W) by (assumption || lia); rewrite U1; exact T1|]. split; [exact U2|]. split; [rewrite U3, T3, EM, app_assoc; reflexivity|]. split; [|exact U5].
  rewrite lane_of_app, (lane_join W P HP) by (assumption || lia). rewrite U1, T4, U4. reflexivity.
Qed.
Lemma lnode_clean n : forall fl, length fl = 2 ^ n -> (n = 0 -> fl = [false]) -> fclean n fl (lnode W P next n fl).
Proof.
  induction n as [|m IH]; intros fl L H0; [rewrite H0 by reflexivity; exact leaf_clean|]. cbn [lnode].
  assert (forall f, length f = 2 ^ m -> fclean m f (lchild W P m f (lnode W P next m f))) as Hc.
  { intros f Lf. unfold lchild. destruct ((m <=? 5) && forallb (fun b => b) f) eqn:C.
    - apply lr0_clean; [exact Lf|]. apply andb_true_iff in C. apply C.
    - apply IH; [exact Lf|]. intros ->. destruct f as [|[|] [|? ?]]; cbn in Lf, C; try discriminate; try lia. reflexivity. }
  pose proof L as L'. cbn [Nat.pow] in L.
  assert (length (firstn (2 ^ m) fl) = 2 ^ m) as Lf1 by (rewrite firstn_length; lia). assert (length (skipn (2 ^ m) fl) = 2 ^ m) as Lf2 by (rewrite skipn_length; lia).
  apply ljoin_clean; [exact L'|apply (lchild_fgood W HW P HP next next_ok); assumption..|apply Hc; assumption|apply Hc; assumption].
Qed.
End Decoder.
