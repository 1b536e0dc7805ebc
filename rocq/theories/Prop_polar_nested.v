(** Property C84: the constructions of polar codes agree with each other and are nested. *)
From Coq Require Import ZifyBool ZifyNat Permutation QArith Lqa Floats.SpecFloat.
From Verif Require Import Cpp Model_polar_const Spec_sort Spec_polar Spec_polar_const Lib_list Proof_bits Proof_polar2 Proof_pconst1 Proof_pconst2 Prop_polar_const.
Local Open Scope nat_scope.
Ltac Zify.zify_post_hook ::= idtac.

(** ** Counting *)
Lemma filter_length_le {T} (f : T -> bool) l : length (filter f l) <= length l.
Proof. induction l as [|x l IH]; cbn [filter length]; [lia|]. destruct (f x); cbn [length]; lia. Qed.
Lemma filter_perm_length {T} (f : T -> bool) l l' : Permutation l l' -> length (filter f l) = length (filter f l').
Proof. induction 1; cbn [filter]; try congruence; try (destruct (f x); cbn [length]; congruence); destruct (f x), (f y); reflexivity. Qed.
Lemma count_lt (fl : list bool) : forall fl' i, length fl = length fl' -> (forall k, nth k fl true = true -> nth k fl' true = true) -> nth i fl true = false -> nth i fl' true = true -> unfrozen fl' < unfrozen fl.
Proof.
  assert (LE : forall a b, length a = length b -> (forall k, nth k a true = true -> nth k b true = true) -> unfrozen b <= unfrozen a).
  { unfold unfrozen. induction a as [|x a IH]; intros [|y b] L H; cbn [length] in L; try lia. specialize (IH b ltac:(lia) (fun k => H (S k))). assert (H0 := H 0). cbn [nth] in H0. cbn [filter].
    destruct x, y; cbn [negb length]; try lia; specialize (H0 eq_refl); discriminate. }
  unfold unfrozen in *. induction fl as [|x fl IH]; intros [|y fl'] i L H Hi Hi'; cbn [length] in L; try lia; [destruct i; discriminate|].
  destruct i as [|i]; cbn [nth] in Hi, Hi'.
  - subst x y. assert (A := LE fl fl' ltac:(lia) (fun k => H (S k))). cbn [filter negb length]. lia.
  - specialize (IH fl' i ltac:(lia) (fun k => H (S k)) Hi Hi'). assert (H0 := H 0). cbn [nth] in H0. cbn [filter]. destruct x, y; cbn [negb length]; try lia; specialize (H0 eq_refl); discriminate.
Qed.
Lemma flags_default frozen n k : nth k (flags frozen n) true = if k <? n then is_frozen frozen k else true.
Proof.
  destruct (Nat.ltb_spec k n); [|apply nth_overflow; rewrite length_flags; lia]. rewrite (nth_indep _ true false) by (rewrite length_flags; lia). apply nth_flags. assumption.
Qed.
(** from an unfrozen position more in [a], one more in [b] when [b] has as many *)
Lemma exchange a b n i : unfrozen (flags a n) <= unfrozen (flags b n) -> i < n -> is_frozen a i = false -> is_frozen b i = true ->
  exists j, j < n /\ is_frozen a j = true /\ is_frozen b j = false.
Proof.
  intros U Hi Fa Fb. destruct (existsb (fun j => is_frozen a j && negb (is_frozen b j)) (seq 0 n)) eqn:E.
  - apply existsb_exists in E. destruct E as (j & Hj & E). apply in_seq in Hj. apply andb_true_iff in E. destruct E as (E1 & E2). exists j. split; [lia|]. split; [exact E1|]. destruct (is_frozen b j); [discriminate|reflexivity].
  - exfalso. assert (unfrozen (flags b n) < unfrozen (flags a n)); [|lia]. apply (count_lt _ _ i); [rewrite !length_flags; reflexivity| | |].
    + intros k. rewrite !flags_default. destruct (Nat.ltb_spec k n); [|auto]. intros Fk. destruct (is_frozen b k) eqn:Bk; [reflexivity|]. exfalso. apply not_true_iff_false in E. apply E.
      apply existsb_exists. exists k. split; [apply in_seq; lia|]. rewrite Fk, Bk. reflexivity.
    + rewrite flags_default. replace (i <? n) with true by lia. exact Fa.
    + rewrite flags_default. replace (i <? n) with true by lia. exact Fb.
Qed.

(** ** C84 *)
(** no two positions have the same erasure probability *)
Definition no_ties (A : arith) (level : nat) (pe : num A) : Prop := forall i j, i < 2 ^ level -> j < 2 ^ level -> i <> j ->
  less A (erasure A level pe i) (erasure A level pe j) = true \/ less A (erasure A level pe j) (erasure A level pe i) = true.

(** C84: without ties PolarCodeConst0's choice for K1 positions is contained in that for K2 >= K1, whatever implementations of std::nth_element and whatever
    objects and arrays are used *)
Theorem C84_const0_nested : forall A ne1 ne2 M1 M2 prob1 prob2 index1 index2 frozen1 frozen2 level K1 K2 pe p1 i1 f1 p2 i2 f2,
  partitions ne1 -> partitions ne2 -> orders (fun i j => less A (erasure A level pe i) (erasure A level pe j)) (seq 0 (2 ^ level)) ->
  level <= M1 <= 30 -> length prob1 = 2 ^ M1 -> length index1 = 2 ^ M1 -> 2 ^ level <= 32 * length frozen1 ->
  level <= M2 <= 30 -> length prob2 = 2 ^ M2 -> length index2 = 2 ^ M2 -> 2 ^ level <= 32 * length frozen2 ->
  K1 <= K2 -> K2 <= 2 ^ level -> no_ties A level pe ->
  polar_code_const0 A ne1 M1 prob1 index1 frozen1 level K1 pe = Ok (p1, i1, f1) ->
  polar_code_const0 A ne2 M2 prob2 index2 frozen2 level K2 pe = Ok (p2, i2, f2) ->
  (forall i, i < 2 ^ level -> is_frozen f1 i = false -> is_frozen f2 i = false) /\
  (K1 = K2 -> flags f1 (2 ^ level) = flags f2 (2 ^ level)).
Proof.
  intros A ne1 ne2 M1 M2 pr1 pr2 ix1 ix2 fz1 fz2 n K1 K2 pe p1 i1 f1 p2 i2 f2 N1 N2 OR HM1 Lp1 Li1 Lf1 HM2 Lp2 Li2 Lf2 HK HK2 NT E1 E2.
  destruct (C47_const0 A ne1 M1 pr1 ix1 fz1 n K1 pe N1 OR HM1 Lp1 Li1 Lf1 ltac:(lia)) as (q1 & j1 & g1 & D1 & _ & _ & _ & _ & U1 & R1 & _).
  destruct (C47_const0 A ne2 M2 pr2 ix2 fz2 n K2 pe N2 OR HM2 Lp2 Li2 Lf2 HK2) as (q2 & j2 & g2 & D2 & _ & _ & _ & _ & U2 & R2 & _).
  rewrite D1 in E1. rewrite D2 in E2. assert (g1 = f1) as <- by congruence. assert (g2 = f2) as <- by congruence. clear E1 E2 D1 D2.
  assert (X : forall i, i < 2 ^ n -> is_frozen g1 i = false -> is_frozen g2 i = false).
  { intros i Hi F1. destruct (is_frozen g2 i) eqn:F2; [|reflexivity]. exfalso. destruct (exchange g1 g2 (2 ^ n) i ltac:(lia) Hi F1 F2) as (j & Hj & Gj1 & Gj2).
    specialize (R1 i j Hi Hj F1 Gj1). specialize (R2 j i Hj Hi Gj2 F2). destruct (NT i j Hi Hj) as [T|T]; [intros ->; congruence| |]; congruence. }
  split; [exact X|]. intros EK. apply (list_ext _ _ true); [rewrite !length_flags; reflexivity|]. intros k Hk. rewrite length_flags in Hk. rewrite !flags_default. replace (k <? 2 ^ n) with true by lia.
  destruct (is_frozen g1 k) eqn:F1; [|symmetry; apply X; assumption]. destruct (is_frozen g2 k) eqn:F2; [reflexivity|]. exfalso.
  destruct (exchange g2 g1 (2 ^ n) k ltac:(lia) Hk F2 F1) as (j & Hj & Gj2 & Gj1). rewrite (X j Hj Gj1) in Gj2. discriminate.
Qed.
Print Assumptions C84_const0_nested.

Definition separates (A : arith) (level : nat) (pe th : num A) : Prop := forall i j, i < 2 ^ level -> j < 2 ^ level ->
  less A th (erasure A level pe i) = false -> less A th (erasure A level pe j) = true -> less A (erasure A level pe i) (erasure A level pe j) = true.
Lemma freezer_const0 A ne MAX_M prob index fz1 fz2 level pe th K f1 p i f2 : partitions ne -> orders (fun i j => less A (erasure A level pe i) (erasure A level pe j)) (seq 0 (2 ^ level)) -> separates A level pe th ->
  level <= MAX_M <= 30 -> length prob = 2 ^ MAX_M -> length index = 2 ^ MAX_M -> 2 ^ level <= 32 * length fz1 -> 2 ^ level <= 32 * length fz2 ->
  polar_freezer A fz1 level pe th = Ok (K, f1) -> polar_code_const0 A ne MAX_M prob index fz2 level (Z.to_nat K) pe = Ok (p, i, f2) ->
  flags f1 (2 ^ level) = flags f2 (2 ^ level).
Proof.
  intros NE OR SP HM Lp Li L1 L2 E1 E2. destruct (C47_freezer A fz1 level pe th ltac:(lia) L1) as (K' & g1 & D1 & _ & _ & HK & T & _). rewrite D1 in E1.
  assert (g1 = f1) as <- by congruence. assert (K' = K) as <- by congruence. clear E1 D1.
  assert (KL : unfrozen (flags g1 (2 ^ level)) <= 2 ^ level). { unfold unfrozen. rewrite <- (length_flags g1 (2 ^ level)) at 2. apply filter_length_le. }
  destruct (C47_const0 A ne MAX_M prob index fz2 level (Z.to_nat K') pe NE OR HM Lp Li L2 ltac:(lia)) as (q & j & g2 & D2 & _ & _ & _ & _ & U & R & _). rewrite D2 in E2.
  assert (g2 = f2) as <- by congruence. clear E2 D2.
  assert (NO : forall a b, a < 2 ^ level -> b < 2 ^ level -> is_frozen g1 a = false -> is_frozen g1 b = true -> is_frozen g2 a = true -> is_frozen g2 b = false -> False).
  { intros a b Ha Hb F1 F2 G1 G2. rewrite T in F1, F2 by assumption. specialize (R b a Hb Ha G2 G1). rewrite (SP a b Ha Hb F1 F2) in R. discriminate. }
  apply (list_ext _ _ true); [rewrite !length_flags; reflexivity|]. intros k Hk. rewrite length_flags in Hk. rewrite !flags_default. replace (k <? 2 ^ level) with true by lia.
  destruct (is_frozen g1 k) eqn:F1, (is_frozen g2 k) eqn:F2; try reflexivity; exfalso.
  - destruct (exchange g2 g1 (2 ^ level) k ltac:(lia) Hk F2 F1) as (b & Hb & B2 & B1). exact (NO b k Hb Hk B1 F1 B2 F2).
  - destruct (exchange g1 g2 (2 ^ level) k ltac:(lia) Hk F1 F2) as (b & Hb & B1 & B2). exact (NO k b Hk Hb F1 B1 F2 B2).
Qed.
(** C84: PolarFreezer and PolarCodeConst0 (for as many positions as the former left unfrozen) give the same flags: in doubles, whatever the probability and
    the threshold, ties or not, NaN or not *)
Theorem C84_freezer_is_const0 : forall nth_element MAX_M prob index frozen1 frozen2 level pe th K frozen1' prob' index' frozen2',
  partitions nth_element -> level <= MAX_M <= 30 -> length prob = 2 ^ MAX_M -> length index = 2 ^ MAX_M -> 2 ^ level <= 32 * length frozen1 -> 2 ^ level <= 32 * length frozen2 ->
  polar_freezer binary64 frozen1 level pe th = Ok (K, frozen1') ->
  polar_code_const0 binary64 nth_element MAX_M prob index frozen2 level (Z.to_nat K) pe = Ok (prob', index', frozen2') ->
  flags frozen1' (2 ^ level) = flags frozen2' (2 ^ level).
Proof.
  intros ne MAX_M prob index fz1 fz2 n pe th K f1 p i f2 NE HM Lp Li L1 L2 E1 E2.
  apply (freezer_const0 binary64 ne MAX_M prob index fz1 fz2 n pe th K f1 p i f2 NE (binary64_orders n pe _)); try assumption.
  intros a b _ _ F1 F2. assert (is_number pe \/ pe = S754_nan) as [HN| ->] by (destruct pe; (right; reflexivity) || (left; discriminate)).
  - assert (is_number th \/ th = S754_nan) as [HT| ->] by (destruct th; (right; reflexivity) || (left; discriminate)).
    + assert (A := channel_number n pe a HN). assert (B := channel_number n pe b HN). change (erasure binary64 n pe a) with (chan64 n pe a) in *. change (erasure binary64 n pe b) with (chan64 n pe b) in *.
      apply less_key in F2; try assumption. apply less_key; try assumption. apply not_true_iff_false in F1. rewrite (less_key _ _ HT A) in F1.
      destruct (key th) as ((t1 & t2) & t3), (key (chan64 n pe a)) as ((a1 & a2) & a3), (key (chan64 n pe b)) as ((b1 & b2) & b3). cbn [klt] in *. lia.
    + cbn in F2. discriminate.
  - change (erasure binary64 n S754_nan b) with (chan64 n S754_nan b) in F2. rewrite channel_nan in F2. destruct th as [| | |[|]]; cbn in F2; discriminate.
Qed.
Print Assumptions C84_freezer_is_const0.
(** C84: a larger threshold unfreezes more *)
Theorem C84_freezer_nested : forall frozen1 frozen2 level pe th1 th2 K1 K2 frozen1' frozen2', level <= 30 -> 2 ^ level <= 32 * length frozen1 -> 2 ^ level <= 32 * length frozen2 ->
  is_number th1 -> SFltb th2 th1 = false ->
  polar_freezer binary64 frozen1 level pe th1 = Ok (K1, frozen1') -> polar_freezer binary64 frozen2 level pe th2 = Ok (K2, frozen2') ->
  (forall i, i < 2 ^ level -> is_frozen frozen1' i = false -> is_frozen frozen2' i = false) /\ (K1 <= K2)%Z.
Proof.
  intros fz1 fz2 n pe t1 t2 K1 K2 f1 f2 Hl L1 L2 N1 LT E1 E2.
  destruct (C47_freezer binary64 fz1 n pe t1 Hl L1) as (K1' & g1 & D1 & _ & _ & HK1 & T1 & _). destruct (C47_freezer binary64 fz2 n pe t2 Hl L2) as (K2' & g2 & D2 & _ & _ & HK2 & T2 & _).
  rewrite D1 in E1. rewrite D2 in E2. assert (g1 = f1) as <- by congruence. assert (K1' = K1) as <- by congruence. assert (g2 = f2) as <- by congruence. assert (K2' = K2) as <- by congruence. clear E1 E2 D1 D2.
  assert (X : forall i, i < 2 ^ n -> is_frozen g1 i = false -> is_frozen g2 i = false).
  { intros i Hi F. rewrite T1 in F by exact Hi. rewrite T2 by exact Hi. destruct (less binary64 t2 (erasure binary64 n pe i)) eqn:F2; [|reflexivity]. exfalso.
    assert (is_number pe \/ pe = S754_nan) as [HN| ->] by (destruct pe; (right; reflexivity) || (left; discriminate)).
    - assert (is_number t2 \/ t2 = S754_nan) as [HT| ->] by (destruct t2; (right; reflexivity) || (left; discriminate)).
      + assert (A := channel_number n pe i HN). change (erasure binary64 n pe i) with (chan64 n pe i) in *. apply less_key in F2; try assumption.
        apply not_true_iff_false in F. rewrite (less_key _ _ N1 A) in F. change (SFltb t2 t1) with (less binary64 t2 t1) in LT. apply not_true_iff_false in LT. rewrite (less_key _ _ HT N1) in LT.
        destruct (key t1) as ((a1 & a2) & a3), (key t2) as ((b1 & b2) & b3), (key (chan64 n pe i)) as ((c1 & c2) & c3). cbn [klt] in *. lia.
      + cbn in F2. discriminate.
    - change (erasure binary64 n S754_nan i) with (chan64 n S754_nan i) in F2. rewrite channel_nan in F2. destruct t2 as [| | |[|]]; cbn in F2; discriminate. }
  split; [exact X|]. rewrite HK1, HK2. apply Nat2Z.inj_le. apply Nat.nlt_ge. intros C.
  assert (H : forallb (fun i => orb (is_frozen g1 i) (negb (is_frozen g2 i))) (seq 0 (2 ^ n)) = true).
  { apply forallb_forall. intros i Hi. apply in_seq in Hi. specialize (X i ltac:(lia)). destruct (is_frozen g1 i); [reflexivity|]. rewrite X by reflexivity. reflexivity. }
  revert C. unfold unfrozen, flags. clear - H. induction (seq 0 (2 ^ n)) as [|i l IH]; cbn [map filter length forallb] in *; [lia|]. apply andb_true_iff in H. destruct H as (H & H'). specialize (IH H').
  destruct (is_frozen g1 i), (is_frozen g2 i); cbn in *; try discriminate; lia.
Qed.
Print Assumptions C84_freezer_nested.
(** C84: without ties the positions PolarCodeConst0 leaves unfrozen are the last K of PolarSeqConst0's sequence *)
Theorem C84_sequence_gives_const0 : forall A sort nth_element M1 M2 prob1 prob2 index frozen sequence level K pe p1 s p2 i2 f2,
  sorts sort -> partitions nth_element -> orders (fun i j => less A (erasure A level pe i) (erasure A level pe j)) (seq 0 (2 ^ level)) ->
  level <= M1 <= 30 -> length prob1 = 2 ^ M1 -> length sequence = 2 ^ level ->
  level <= M2 <= 30 -> length prob2 = 2 ^ M2 -> length index = 2 ^ M2 -> 2 ^ level <= 32 * length frozen -> K <= 2 ^ level -> no_ties A level pe ->
  polar_seq_const0 A sort M1 prob1 sequence level pe = Ok (p1, s) ->
  polar_code_const0 A nth_element M2 prob2 index frozen level K pe = Ok (p2, i2, f2) ->
  forall i, i < 2 ^ level -> is_frozen f2 i = false <-> In i (skipn (2 ^ level - K) s).
Proof.
  intros A so ne M1 M2 pr1 pr2 ix fz sq n K pe p1 s p2 i2 f2 SO NE OR HM1 Lp1 Ls HM2 Lp2 Li Lf HK NT E1 E2.
  destruct (C48_sequence A so M1 pr1 sq n pe SO OR HM1 Lp1 ltac:(lia)) as (q1 & s' & D1 & PM & ST).
  destruct (C47_const0 A ne M2 pr2 ix fz n K pe NE OR HM2 Lp2 Li Lf HK) as (q & j & g & D2 & _ & _ & _ & _ & U & R & _).
  rewrite D1 in E1. rewrite D2 in E2. assert (g = f2) as <- by congruence. assert (s' ++ skipn (2 ^ n) sq = s) as <- by congruence. clear E1 E2 D1 D2.
  rewrite (skipn_all2 sq) by lia. rewrite app_nil_r. assert (LS : length s' = 2 ^ n) by (rewrite <- (Permutation_length PM); apply seq_length).
  set (W := 2 ^ n) in *.
  assert (ND : NoDup s') by (apply (Permutation_NoDup PM), seq_NoDup).
  assert (IN : forall i, i < W <-> In i s'). { intros i. split; [intros H; apply (Permutation_in _ PM), in_seq; lia|]. intros H. apply (Permutation_in _ (Permutation_sym PM)), in_seq in H. lia. }
  (* later in the sequence means smaller *)
  assert (SM : forall x y, In x (firstn (W - K) s') -> In y (skipn (W - K) s') -> less A (erasure A n pe y) (erasure A n pe x) = true).
  { intros x y Hx Hy. apply (In_nth _ _ 0) in Hx, Hy. destruct Hx as (a & Ha & Ea), Hy as (b & Hb & Eb). rewrite firstn_length in Ha. rewrite skipn_length in Hb.
    assert (Ea' : nth a s' 0 = x) by (rewrite <- Ea, nth_firstn'; replace (a <? W - K) with true by lia; reflexivity).
    assert (Eb' : nth (W - K + b) s' 0 = y) by (rewrite <- Eb, nth_skipn'; reflexivity).
    assert (Hs := ST a (W - K + b) ltac:(lia) ltac:(lia)). rewrite Ea', Eb' in Hs.
    assert (x < W) by (apply IN; rewrite <- Ea'; apply nth_In; lia). assert (y < W) by (apply IN; rewrite <- Eb'; apply nth_In; lia).
    destruct (NT x y) as [T|T]; try assumption; [|congruence]. intros ->. rewrite <- Eb' in Ea'. apply NoDup_nth in Ea'; [lia|exact ND|lia|lia]. }
  (* the last K, as a set of flags of the same size *)
  assert (CNT : length (filter (fun i => negb (is_frozen g i)) s') = K).
  { rewrite <- U. unfold unfrozen, flags. fold W. rewrite <- (filter_perm_length (fun i => negb (is_frozen g i)) _ _ PM). clear. induction (seq 0 W) as [|i l IH]; [reflexivity|].
    cbn [filter map]. destruct (is_frozen g i); cbn [negb length]; lia. }
  assert (SPL := firstn_skipn (W - K) s'). assert (ND' := ND). rewrite <- SPL in ND', CNT. rewrite filter_app, app_length in CNT.
  assert (LK : length (skipn (W - K) s') = K) by (rewrite skipn_length; lia).
  (* no unfrozen one among the first and frozen one among the last together *)
  assert (NO : forall x y, In x (firstn (W - K) s') -> In y (skipn (W - K) s') -> is_frozen g x = false -> is_frozen g y = true -> False).
  { intros x y Hx Hy Fx Fy. assert (In x s') by (rewrite <- SPL; apply in_or_app; left; exact Hx). assert (In y s') by (rewrite <- SPL; apply in_or_app; right; exact Hy).
    assert (Q := R x y ltac:(apply IN; assumption) ltac:(apply IN; assumption) Fx Fy). rewrite (SM x y Hx Hy) in Q. discriminate. }
  assert (ALL : forall l (p : nat -> bool), length (filter p l) = length l -> forall x, In x l -> p x = true).
  { clear. intros l p. induction l as [|y l IH]; intros H x []; cbn [filter] in H; destruct (p y) eqn:E; cbn [length] in H; try (assert (Q := filter_length_le p l); lia).
    - subst. exact E.
    - apply IH; [lia|assumption]. }
  assert (FIRST : forall x, In x (firstn (W - K) s') -> is_frozen g x = true).
  { intros x Hx. destruct (is_frozen g x) eqn:Fx; [reflexivity|]. exfalso. assert (P : 0 < length (filter (fun i => negb (is_frozen g i)) (firstn (W - K) s'))).
    { assert (Q : In x (filter (fun i => negb (is_frozen g i)) (firstn (W - K) s'))) by (apply filter_In; split; [exact Hx|rewrite Fx; reflexivity]). destruct (filter _ (firstn (W - K) s')); [contradiction|cbn; lia]. }
    assert (Q : exists y, In y (skipn (W - K) s') /\ is_frozen g y = true).
    { destruct (existsb (is_frozen g) (skipn (W - K) s')) eqn:Ex; [apply existsb_exists in Ex; exact Ex|]. exfalso.
      assert (Z : filter (fun i => negb (is_frozen g i)) (skipn (W - K) s') = skipn (W - K) s').
      { revert Ex. generalize (skipn (W - K) s'). clear. induction l as [|y l IH]; intros H; [reflexivity|]. cbn [existsb filter] in *. apply orb_false_iff in H. destruct H as (-> & H). cbn [negb]. rewrite IH by exact H. reflexivity. }
      rewrite Z in CNT. lia. }
    destruct Q as (y & Hy & Fy). exact (NO x y Hx Hy Fx Fy). }
  assert (LAST : forall y, In y (skipn (W - K) s') -> is_frozen g y = false).
  { assert (Z : filter (fun i => negb (is_frozen g i)) (firstn (W - K) s') = []).
    { revert FIRST. generalize (firstn (W - K) s'). clear. induction l as [|y l IH]; intros H; [reflexivity|]. cbn [filter]. rewrite (H y) by (left; reflexivity). cbn [negb]. apply IH. intros x Hx. apply H. right. exact Hx. }
    rewrite Z in CNT. cbn [length] in CNT. intros y Hy. assert (Q := ALL (skipn (W - K) s') (fun i => negb (is_frozen g i)) ltac:(lia) y Hy). cbn beta in Q. destruct (is_frozen g y); [discriminate|reflexivity]. }
  intros i Hi. split; [|apply LAST]. intros Fi. apply IN in Hi. rewrite <- SPL in Hi. apply in_app_or in Hi. destruct Hi as [Hi|Hi]; [rewrite (FIRST i Hi) in Fi; discriminate|exact Hi].
Qed.
Print Assumptions C84_sequence_gives_const0.
(** the hypotheses are met: level 4, probability 1/2 *)
Definition ex_ne (comp : nat -> nat -> bool) (_ : nat) (l : list nat) : list nat := isort comp l.
Definition ex_ne' (comp : nat -> nat -> bool) (n : nat) (l : list nat) : list nat := rev (isort (fun a b => comp b a) l).
Lemma no_ties_check A level pe : forallb (fun i => forallb (fun j => (i =? j) || less A (erasure A level pe i) (erasure A level pe j) || less A (erasure A level pe j) (erasure A level pe i)) (seq 0 (2 ^ level))) (seq 0 (2 ^ level)) = true -> no_ties A level pe.
Proof.
  intros H i j Hi Hj Hne. rewrite forallb_forall in H. specialize (H i ltac:(apply in_seq; lia)). rewrite forallb_forall in H. specialize (H j ltac:(apply in_seq; lia)).
  apply orb_true_iff in H. destruct H as [H|H]; [|auto]. apply orb_true_iff in H. destruct H as [H|H]; [lia|auto].
Qed.
Lemma ex_ne'_partitions : partitions ex_ne'.
Proof.
  intros comp n l O Hn. assert (O' : orders (fun a b => comp b a) l).
  { destruct O as (A & B & C). split; [exact A|]. split; [intros x y z Hx Hy Hz H1 H2; apply (B z y x); assumption|]. intros x y z Hx Hy Hz. specialize (C x y z Hx Hy Hz). rewrite !equiv_iff in *. tauto. }
  destruct (isort_sorts (fun a b => comp b a) l O') as (P & SS). unfold ex_ne'. split; [rewrite P at 1; apply Permutation_rev|].
  set (s := isort (fun a b => comp b a) l) in *. assert (L := Permutation_length P). intros a b Ha Hb.
  apply (In_nth _ _ 0) in Ha, Hb. destruct Ha as (x & Hx & <-), Hb as (y & Hy & <-). rewrite firstn_length, rev_length in Hx. rewrite skipn_length, rev_length in Hy.
  rewrite nth_firstn', nth_skipn'. replace (x <? n) with true by lia. rewrite !rev_nth by lia. apply (SS (length s - S (n + y)) (length s - S x)); lia.
Qed.
Example C84_nonvacuous :
  partitions ex_ne /\ partitions ex_ne' /\ sorts isort /\ no_ties binary64 4 half /\ orders (fun i j => less binary64 (erasure binary64 4 half i) (erasure binary64 4 half j)) (seq 0 (2 ^ 4)) /\
  ('(_, _, f) <- polar_code_const0 binary64 ex_ne 4 (repeat None 16) (repeat 0 16) [0%N] 4 6 half ;; Ok f) = Ok [1919%N] /\
  ('(_, _, f) <- polar_code_const0 binary64 ex_ne' 5 (repeat None 32) (repeat 0 32) [0%N] 4 8 half ;; Ok f) = Ok [383%N] /\
  ('(_, s) <- polar_seq_const0 binary64 isort 4 (repeat None 16) (repeat 0 16) 4 half ;; Ok s) = Ok [0; 1; 2; 4; 8; 3; 5; 6; 9; 10; 12; 7; 11; 13; 14; 15] /\
  polar_freezer binary64 [0%N] 4 half quarter = Ok (6%Z, [1919%N]).
Proof.
  split; [exact isort_partitions|]. split; [exact ex_ne'_partitions|]. split; [exact isort_sorts|]. split; [apply no_ties_check; vm_compute; reflexivity|].
  split; [apply binary64_orders|]. split; [vm_compute; reflexivity|]. split; [vm_compute; reflexivity|]. split; vm_compute; reflexivity.
Qed.
(** with ties two implementations may choose different positions: probability 0 *)
Example C84_ties : exists f1 f2,
  ('(_, _, f) <- polar_code_const0 exact ex_ne 2 (repeat None 4) (repeat 0 4) [0%N] 2 1 0%Q ;; Ok f) = Ok f1 /\
  ('(_, _, f) <- polar_code_const0 exact ex_ne' 2 (repeat None 4) (repeat 0 4) [0%N] 2 1 0%Q ;; Ok f) = Ok f2 /\ f1 <> f2.
Proof. do 2 eexists. split; [vm_compute; reflexivity|]. split; [vm_compute; reflexivity|discriminate]. Qed.
