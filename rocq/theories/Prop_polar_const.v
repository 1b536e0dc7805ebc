(** C47, C48 and C60: construction of polar codes. *)
From Coq Require Import ZifyBool ZifyNat ZifyN Permutation QArith Lqa Floats.SpecFloat.
From Verif Require Import Cpp Model_polar_const Spec_sort Spec_polar Spec_polar_const Lib_list Proof_bits Proof_polar2 Proof_pconst1 Proof_pconst2.
Ltac Zify.zify_post_hook ::= idtac.
Local Open Scope nat_scope.

(** the erasure probability of a position, computed with the arithmetic [A] *)
Definition erasure (A : arith) (level : nat) (pe : num A) (i : nat) : num A :=
  channel (fun p => mul A p (two_minus A p)) (fun p => mul A p p) level pe i.

(** ** C47 *)
(** C47: PolarFreezer freezes exactly the positions whose erasure probability exceeds the threshold, returns the number of
    unfrozen ones and changes no flag beyond them.  Any arithmetic, any probability and threshold (even NaN). *)
Theorem C47_freezer : forall A frozen level pe th,
  level <= 30 -> 2 ^ level <= 32 * length frozen ->
  exists K frozen', polar_freezer A frozen level pe th = Ok (K, frozen') /\ length frozen' = length frozen /\
    (Forall (fun w => (w < 2 ^ 32)%N) frozen -> Forall (fun w => (w < 2 ^ 32)%N) frozen') /\
    K = Z.of_nat (unfrozen (flags frozen' (2 ^ level))) /\
    (forall i, i < 2 ^ level -> is_frozen frozen' i = less A th (erasure A level pe i)) /\
    (forall i, 2 ^ level <= i -> is_frozen frozen' i = is_frozen frozen i).
Proof.
  intros A frozen level pe th Hl Hf. destruct (freezer_ok A frozen level pe th Hl Hf) as (b & E & L & F & G & O).
  eexists _, b. split; [exact E|]. repeat split; auto.
Qed.
Print Assumptions C47_freezer.

Lemma existsb_In j l : existsb (Nat.eqb j) l = true <-> In j l.
Proof. rewrite existsb_exists. split; [intros (x & H & E); apply Nat.eqb_eq in E; congruence|intros H; exists j; split; [exact H|apply Nat.eqb_refl]]. Qed.
Lemma existsb_not_In j l : existsb (Nat.eqb j) l = false <-> ~ In j l.
Proof. rewrite <- existsb_In. destruct (existsb _ _); intuition congruence. Qed.
Lemma unfrozen_map (f : nat -> bool) l l' : Permutation l l' -> unfrozen (map f l) = unfrozen (map f l').
Proof.
  intros P. unfold unfrozen. induction P as [|x l l' P IH|x y l|l l2 l3 P1 IH1 P2 IH2]; [reflexivity| | |congruence].
  - cbn. destruct (negb (f x)); cbn; lia.
  - cbn. destruct (negb (f x)), (negb (f y)); reflexivity.
Qed.
Lemma unfrozen_const f b (l : list nat) : (forall x, In x l -> f x = b) -> unfrozen (map f l) = if b then 0 else length l.
Proof.
  intros H. unfold unfrozen. induction l as [|x l IH]; [destruct b; reflexivity|]. cbn [map filter length]. rewrite (H x) by (left; reflexivity).
  specialize (IH ltac:(intros y Hy; apply H; right; exact Hy)). destruct b; cbn [negb length]; lia.
Qed.
(** C47: PolarCodeConst0 leaves exactly K positions unfrozen and none of them has a larger erasure probability than a
    frozen one.  [nth_element] may be any function that does what the standard says of std::nth_element. *)
Theorem C47_const0 : forall A nth_element MAX_M prob index frozen level K pe,
  partitions nth_element -> orders (fun i j => less A (erasure A level pe i) (erasure A level pe j)) (seq 0 (2 ^ level)) ->
  level <= MAX_M <= 30 -> length prob = 2 ^ MAX_M -> length index = 2 ^ MAX_M -> 2 ^ level <= 32 * length frozen -> K <= 2 ^ level ->
  exists prob' index' frozen', polar_code_const0 A nth_element MAX_M prob index frozen level K pe = Ok (prob', index', frozen') /\
    length prob' = 2 ^ MAX_M /\ length index' = 2 ^ MAX_M /\ length frozen' = length frozen /\
    (Forall (fun w => (w < 2 ^ 32)%N) frozen -> Forall (fun w => (w < 2 ^ 32)%N) frozen') /\
    unfrozen (flags frozen' (2 ^ level)) = K /\
    (forall i j, i < 2 ^ level -> j < 2 ^ level -> is_frozen frozen' i = false -> is_frozen frozen' j = true ->
       less A (erasure A level pe j) (erasure A level pe i) = false) /\
    (forall i, 2 ^ level <= i -> is_frozen frozen' i = is_frozen frozen i).
Proof.
  intros A ne MAX_M prob index frozen level K pe HP HO HM Lp Li Hf HK. pose proof (Nat.pow_le_mono_r 2 level MAX_M ltac:(lia) ltac:(lia)) as Hw.
  unfold polar_code_const0. replace (level <=? MAX_M) with true by lia. replace (level <=? 30) with true by lia. cbn [assert_ require bind].
  destruct (compute_ok A level prob pe 0 ltac:(lia)) as (p1 & E1 & L1 & G1 & O1). rewrite E1. cbn [bind]. rewrite identity_ok by lia. cbn [bind]. replace (K <=? 2 ^ level) with true by lia. cbn [require bind].
  rewrite seq_firstn, seq_skipn. set (n := 2 ^ level) in *.
  assert (forall i j, In i (seq 0 n) -> In j (seq 0 n) -> lower A p1 i j = less A (erasure A level pe i) (erasure A level pe j)) as Elow.
  { intros i j Hi Hj. apply in_seq in Hi, Hj. unfold lower. pose proof (G1 i ltac:(lia)) as Gi. pose proof (G1 j ltac:(lia)) as Gj. cbn [Nat.add] in Gi, Gj. rewrite Gi, Gj. reflexivity. }
  assert (orders (lower A p1) (seq 0 n)) as Ho.
  { destruct HO as (H1 & H2 & H3). assert (forall i j, In i (seq 0 n) -> In j (seq 0 n) -> equiv (lower A p1) i j = equiv (fun i j => less A (erasure A level pe i) (erasure A level pe j)) i j) as Eq.
    { intros i j Hi Hj. unfold equiv. rewrite !Elow by assumption. reflexivity. }
    split; [|split].
    - intros x Hx. rewrite Elow by assumption. auto.
    - intros x y z Hx Hy Hz. rewrite !Elow by assumption. apply H2; assumption.
    - intros x y z Hx Hy Hz. rewrite !Eq by assumption. apply H3; assumption. }
  destruct (HP (lower A p1) K (seq 0 n) Ho ltac:(rewrite seq_length; exact HK)) as (Pm & Part). set (s := ne (lower A p1) K (seq 0 n)) in *. clearbody s.
  assert (length s = n) as Ls by (rewrite <- (Permutation_length Pm); apply seq_length).
  assert (forall x, In x s -> x < n) as Hs by (intros x Hx; apply (Permutation_in _ (Permutation_sym Pm)) in Hx; apply in_seq in Hx; lia).
  assert (forall x, In x (firstn K s) -> In x s) as S1 by (intros x Hx; rewrite <- (firstn_skipn K s); apply in_or_app; auto).
  assert (forall x, In x (skipn K s) -> In x s) as S2 by (intros x Hx; rewrite <- (firstn_skipn K s); apply in_or_app; auto).
  assert (firstn (K - 0) (skipn 0 (s ++ skipn n index)) = firstn K s) as Q1.
  { rewrite Nat.sub_0_r. cbn [skipn]. rewrite firstn_app. replace (K - length s) with 0 by lia. apply app_nil_r. }
  assert (firstn (n - K) (skipn K (s ++ skipn n index)) = skipn K s) as Q2.
  { rewrite skipn_app. rewrite firstn_app. replace (n - K - length (skipn K s)) with 0 by (rewrite skipn_length; lia). rewrite firstn_O, app_nil_r.
    rewrite firstn_all2; [reflexivity|rewrite skipn_length; lia]. }
  destruct (mark_ok inform_bit false inform_ok (s ++ skipn n index) 0 K frozen) as (b1 & B1 & BL1 & BF1 & BG1); [lia|rewrite app_length; lia|rewrite Q1; intros x Hx; specialize (Hs x (S1 x Hx)); lia|].
  rewrite B1. cbn [bind].
  destruct (mark_ok frozen_bit true frozen_ok (s ++ skipn n index) K n b1) as (b2 & B2 & BL2 & BF2 & BG2); [lia|rewrite app_length; lia|rewrite Q2; intros x Hx; specialize (Hs x (S2 x Hx)); lia|].
  rewrite B2. cbn [bind]. rewrite Q1 in BG1. rewrite Q2 in BG2.
  eexists p1, _, b2. split; [reflexivity|]. split; [lia|]. split; [rewrite app_length, skipn_length; lia|]. split; [lia|]. split; [unfold words in *; auto|].
  assert (NoDup s) as ND by (apply (Permutation_NoDup Pm); apply seq_NoDup).
  assert (forall x, In x (firstn K s) -> In x (skipn K s) -> False) as Dj.
  { intros x Ha Hb. rewrite <- (firstn_skipn K s) in ND. revert ND Ha Hb. generalize (firstn K s) (skipn K s). intros a b ND Ha Hb. induction a as [|y a IH]; [destruct Ha|].
    cbn in ND. inversion ND as [|? ? Hn ND']; subst. destruct Ha as [->|Ha]; [apply Hn; apply in_or_app; auto|apply IH; auto]. }
  assert (forall x, In x (firstn K s) -> is_frozen b2 x = false) as T1.
  { intros x Hx. rewrite BG2. replace (existsb (Nat.eqb x) (skipn K s)) with false by (symmetry; apply existsb_not_In; intros C; exact (Dj x Hx C)).
    rewrite BG1. replace (existsb (Nat.eqb x) (firstn K s)) with true by (symmetry; apply existsb_In; exact Hx). reflexivity. }
  assert (forall x, In x (skipn K s) -> is_frozen b2 x = true) as T2.
  { intros x Hx. rewrite BG2. replace (existsb (Nat.eqb x) (skipn K s)) with true by (symmetry; apply existsb_In; exact Hx). reflexivity. }
  assert (forall x, x < n -> In x (firstn K s) \/ In x (skipn K s)) as Cov.
  { intros x Hx. apply in_app_or. rewrite firstn_skipn. apply (Permutation_in _ Pm). apply in_seq. lia. }
  split; [|split].
  - unfold flags. rewrite (unfrozen_map _ _ _ Pm). rewrite <- (firstn_skipn K s), map_app. unfold unfrozen. rewrite filter_app, app_length.
    pose proof (unfrozen_const _ false _ T1) as U1. pose proof (unfrozen_const _ true _ T2) as U2. unfold unfrozen in U1, U2. rewrite U1, U2, firstn_length. lia.
  - intros i j Hi Hj Fi Fj. destruct (Cov i Hi) as [Ci|Ci]; [|rewrite T2 in Fi by exact Ci; discriminate]. destruct (Cov j Hj) as [Cj|Cj]; [rewrite T1 in Fj by exact Cj; discriminate|].
    rewrite <- Elow by (apply in_seq; lia). apply Part; assumption.
  - intros i Hi. rewrite BG2, BG1. replace (existsb (Nat.eqb i) (skipn K s)) with false by (symmetry; apply existsb_not_In; intros C; specialize (Hs i (S2 i C)); lia).
    replace (existsb (Nat.eqb i) (firstn K s)) with false by (symmetry; apply existsb_not_In; intros C; specialize (Hs i (S1 i C)); lia). reflexivity.
Qed.
Print Assumptions C47_const0.
(** C47: for doubles the comparison is a strict weak order whatever the probability (even NaN), so the result holds for all of them *)
Theorem C47_const0_double : forall nth_element MAX_M prob index frozen level K pe,
  partitions nth_element ->
  level <= MAX_M <= 30 -> length prob = 2 ^ MAX_M -> length index = 2 ^ MAX_M -> 2 ^ level <= 32 * length frozen -> K <= 2 ^ level ->
  exists prob' index' frozen', polar_code_const0 binary64 nth_element MAX_M prob index frozen level K pe = Ok (prob', index', frozen') /\
    unfrozen (flags frozen' (2 ^ level)) = K /\
    (forall i j, i < 2 ^ level -> j < 2 ^ level -> is_frozen frozen' i = false -> is_frozen frozen' j = true ->
       SFltb (erasure binary64 level pe j) (erasure binary64 level pe i) = false) /\
    (forall i, 2 ^ level <= i -> is_frozen frozen' i = is_frozen frozen i).
Proof.
  intros ne MAX_M prob index frozen level K pe HP HM Lp Li Hf HK.
  destruct (C47_const0 binary64 ne MAX_M prob index frozen level K pe HP (binary64_orders level pe _) HM Lp Li Hf HK) as (p & i & b & E & _ & _ & _ & _ & R1 & R2 & R3).
  exists p, i, b. auto.
Qed.
Print Assumptions C47_const0_double.
(** too large a level is refused, too many positions are an invalid call of std::nth_element *)
Theorem C47_refused : forall A nth_element MAX_M prob index frozen level K pe,
  (MAX_M < level -> polar_code_const0 A nth_element MAX_M prob index frozen level K pe = Abort) /\
  (level <= MAX_M <= 30 -> length prob = 2 ^ MAX_M -> length index = 2 ^ MAX_M -> 2 ^ level < K ->
   polar_code_const0 A nth_element MAX_M prob index frozen level K pe = Undef).
Proof.
  intros A ne MAX_M prob index frozen level K pe. unfold polar_code_const0. split.
  - intros H. replace (level <=? MAX_M) with false by lia. reflexivity.
  - intros HM Lp Li HK. pose proof (Nat.pow_le_mono_r 2 level MAX_M ltac:(lia) ltac:(lia)) as Hw. replace (level <=? MAX_M) with true by lia. replace (level <=? 30) with true by lia. cbn [assert_ require bind].
    destruct (compute_ok A level prob pe 0 ltac:(lia)) as (p1 & E1 & L1 & G1 & O1). rewrite E1. cbn [bind]. rewrite identity_ok by lia. cbn [bind]. replace (K <=? 2 ^ level) with false by lia. reflexivity.
Qed.
Print Assumptions C47_refused.
Definition half : spec_float := S754_finite false 4503599627370496 (-53).
Definition quarter : spec_float := S754_finite false 4503599627370496 (-54).
Example C47_nonvacuous : partitions (fun comp _ l => isort comp l) /\
  polar_freezer binary64 [5%N; 0%N] 3 half half = Ok (4%Z, [23%N; 0%N]) /\
  ('(_, index, frozen) <- polar_code_const0 binary64 (fun comp _ l => isort comp l) 4 (repeat None 16) (repeat 0 16) [4294967040%N] 3 4 half ;; Ok (firstn 8 index, frozen)) =
    Ok ([7; 6; 5; 3; 4; 2; 1; 0], [4294967063%N]).
Proof. split; [exact isort_partitions|]. split; vm_compute; reflexivity. Qed.

(** ** C48 *)
(** C48: the sequence is a rearrangement of 0 .. 2^level - 1 with non-increasing erasure probabilities; the rest of the array is untouched *)
Theorem C48_sequence : forall A sort MAX_M prob sequence level pe,
  sorts sort -> orders (fun i j => less A (erasure A level pe i) (erasure A level pe j)) (seq 0 (2 ^ level)) ->
  level <= MAX_M <= 30 -> length prob = 2 ^ MAX_M -> 2 ^ level <= length sequence ->
  exists prob' s, polar_seq_const0 A sort MAX_M prob sequence level pe = Ok (prob', s ++ skipn (2 ^ level) sequence) /\
    Permutation (seq 0 (2 ^ level)) s /\
    (forall i j, i < j -> j < 2 ^ level -> less A (erasure A level pe (nth i s 0)) (erasure A level pe (nth j s 0)) = false).
Proof.
  intros A sort MAX_M prob sequence level pe HS HO HM Lp Ls. pose proof (Nat.pow_le_mono_r 2 level MAX_M ltac:(lia) ltac:(lia)) as Hw.
  unfold polar_seq_const0. replace (level <=? MAX_M) with true by lia. replace (level <=? 30) with true by lia. cbn [assert_ require bind].
  destruct (compute_ok A level prob pe 0 ltac:(lia)) as (p1 & E1 & L1 & G1 & O1). rewrite E1. cbn [bind]. rewrite identity_ok by lia. cbn [bind].
  rewrite seq_firstn, seq_skipn. set (n := 2 ^ level) in *.
  assert (forall i j, In i (seq 0 n) -> In j (seq 0 n) -> lower A p1 i j = less A (erasure A level pe i) (erasure A level pe j)) as Elow.
  { intros i j Hi Hj. apply in_seq in Hi, Hj. unfold lower. pose proof (G1 i ltac:(lia)) as Gi. pose proof (G1 j ltac:(lia)) as Gj. cbn [Nat.add] in Gi, Gj. rewrite Gi, Gj. reflexivity. }
  assert (orders (fun a b => lower A p1 b a) (seq 0 n)) as Ho.
  { destruct HO as (H1 & H2 & H3). split; [|split].
    - intros x Hx. rewrite Elow by assumption. auto.
    - intros x y z Hx Hy Hz. rewrite !Elow by assumption. intros A1 A2. apply (H2 z y x); assumption.
    - intros x y z Hx Hy Hz. rewrite !equiv_iff. rewrite !Elow by assumption. intros A1 A2.
      specialize (H3 x y z Hx Hy Hz). rewrite !equiv_iff in H3. tauto. }
  destruct (HS (fun a b => lower A p1 b a) (seq 0 n) Ho) as (Pm & So). set (s := sort _ (seq 0 n)) in *. clearbody s.
  exists p1, s. split; [reflexivity|]. split; [exact Pm|]. assert (length s = n) as Ln by (rewrite <- (Permutation_length Pm); apply seq_length).
  intros i j Hi Hj. rewrite <- Elow; [apply So; rewrite ?seq_length; lia| |]; apply (Permutation_in _ (Permutation_sym Pm)); apply nth_In; lia.
Qed.
Print Assumptions C48_sequence.
Theorem C48_sequence_double : forall sort MAX_M prob sequence level pe,
  sorts sort -> level <= MAX_M <= 30 -> length prob = 2 ^ MAX_M -> 2 ^ level <= length sequence ->
  exists prob' s, polar_seq_const0 binary64 sort MAX_M prob sequence level pe = Ok (prob', s ++ skipn (2 ^ level) sequence) /\
    Permutation (seq 0 (2 ^ level)) s /\
    (forall i j, i < j -> j < 2 ^ level -> SFltb (erasure binary64 level pe (nth i s 0)) (erasure binary64 level pe (nth j s 0)) = false).
Proof.
  intros sort MAX_M prob sequence level pe HS HM Lp Ls. apply (C48_sequence binary64 sort MAX_M prob sequence level pe HS (binary64_orders level pe _) HM Lp Ls).
Qed.
Print Assumptions C48_sequence_double.
Theorem C48_refused : forall A sort MAX_M prob sequence level pe, MAX_M < level -> polar_seq_const0 A sort MAX_M prob sequence level pe = Abort.
Proof. intros A sort MAX_M prob sequence level pe H. unfold polar_seq_const0. replace (level <=? MAX_M) with false by lia. reflexivity. Qed.
Print Assumptions C48_refused.
Example C48_nonvacuous : sorts isort /\
  ('(_, s) <- polar_seq_const0 binary64 isort 4 (repeat None 16) (repeat 9 9) 3 half ;; Ok s) = Ok [0; 1; 2; 4; 3; 5; 6; 7; 9].
Proof. split; [exact isort_sorts|]. vm_compute. reflexivity. Qed.

(** ** C60 *)
(** exact (rational) arithmetic *)
Definition exact : arith := {| num := Q; mul := Qmult; two_minus := fun p => (2 - p)%Q; less := fun x y => negb (Qle_bool y x) |}.
Lemma exact_less x y : less exact x y = true <-> (x < y)%Q.
Proof. cbn [less exact]. rewrite negb_true_iff. split; [intros H; apply Qnot_le_lt; rewrite <- Qle_bool_iff; congruence|intros H; destruct (Qle_bool y x) eqn:E; [|reflexivity]; apply Qle_bool_iff in E; lra]. Qed.
Lemma exact_nless x y : less exact x y = false <-> (y <= x)%Q.
Proof. rewrite <- not_true_iff_false, exact_less. split; [apply Qnot_lt_le|lra]. Qed.
Notation wq := (fun p : Q => p * (2 - p))%Q.
Notation bq := (fun p : Q => p * p)%Q.
Lemma channel_mono n : forall (p q : Q) i j, (0 <= p)%Q -> (p <= q)%Q -> (q <= 1)%Q -> (forall k, k < n -> Nat.testbit i k = true -> Nat.testbit j k = true) ->
  (channel wq bq n p j <= channel wq bq n q i)%Q.
Proof.
  induction n as [|n IH]; intros p q i j H0 H1 H2 Hb; [exact H1|]. cbn [channel]. apply IH; [| | |intros k Hk; apply Hb; lia].
  - destruct (Nat.testbit j n); nra.
  - destruct (Nat.testbit i n) eqn:Ei; [rewrite (Hb n ltac:(lia) Ei); nra|]. destruct (Nat.testbit j n); nra.
  - destruct (Nat.testbit i n); nra.
Qed.
Lemma channel_strict n : forall (p q : Q) i j, (0 < p)%Q -> (p <= q)%Q -> (q < 1)%Q -> (forall k, k < n -> Nat.testbit i k = true -> Nat.testbit j k = true) ->
  (p < q)%Q \/ (exists k, k < n /\ Nat.testbit i k <> Nat.testbit j k) -> (channel wq bq n p j < channel wq bq n q i)%Q.
Proof.
  induction n as [|n IH]; intros p q i j H0 H1 H2 Hb Hs; [destruct Hs as [Hs|(k & Hk & _)]; [exact Hs|lia]|]. cbn [channel]. apply IH; [| | |intros k Hk; apply Hb; lia|].
  - destruct (Nat.testbit j n); nra.
  - destruct (Nat.testbit i n) eqn:Ei; [rewrite (Hb n ltac:(lia) Ei); nra|]. destruct (Nat.testbit j n); nra.
  - destruct (Nat.testbit i n); nra.
  - destruct Hs as [Hs|(k & Hk & Hd)].
    + left. destruct (Nat.testbit i n) eqn:Ei; [rewrite (Hb n ltac:(lia) Ei); nra|]. destruct (Nat.testbit j n); nra.
    + destruct (Nat.eq_dec k n) as [->|Hne]; [|right; exists k; split; [lia|exact Hd]]. left.
      destruct (Nat.testbit i n) eqn:Ei; [rewrite (Hb n ltac:(lia) Ei) in Hd; congruence|]. destruct (Nat.testbit j n); [nra|congruence].
Qed.
Lemma dominated i j : Nat.land i j = i -> forall k, Nat.testbit i k = true -> Nat.testbit j k = true.
Proof. intros H k E. rewrite <- H, Nat.land_spec in E. destruct (Nat.testbit i k); [exact E|discriminate]. Qed.
(** C60: computed exactly, the unfrozen positions PolarFreezer chooses are closed upwards in the domination order (so that systematic encoding works, C41) *)
Theorem C60_exact_freezer_closed : forall frozen level pe th K frozen',
  level <= 30 -> 2 ^ level <= 32 * length frozen -> (0 <= pe <= 1)%Q ->
  polar_freezer exact frozen level pe th = Ok (K, frozen') -> domination_closed (flags frozen' (2 ^ level)).
Proof.
  intros frozen level pe th K frozen' Hl Hf (P0 & P1) E. destruct (C47_freezer exact frozen level pe th Hl Hf) as (K' & f' & E' & _ & _ & _ & G & _).
  rewrite E' in E. injection E as <- <-. intros i j Hi Hj Hd Fi. rewrite length_flags in Hi, Hj. rewrite nth_flags in * by assumption. rewrite G in * by assumption.
  apply exact_nless in Fi. apply exact_nless. eapply Qle_trans; [|exact Fi]. apply channel_mono; try assumption; [apply Qle_refl|]. intros k _. apply dominated. exact Hd.
Qed.
Print Assumptions C60_exact_freezer_closed.
Lemma exact_orders level pe l : orders (fun i j => less exact (erasure exact level pe i) (erasure exact level pe j)) l.
Proof.
  split; [|split].
  - intros x _. apply exact_nless. apply Qle_refl.
  - intros x y z _ _ _. rewrite !exact_less. apply Qlt_trans.
  - intros x y z _ _ _. rewrite !equiv_iff, !exact_nless. intros (A1 & A2) (B1 & B2). split; eapply Qle_trans; eassumption.
Qed.
(** C60: the same of PolarCodeConst0, for probabilities strictly between 0 and 1 and any std::nth_element *)
Theorem C60_exact_const0_closed : forall nth_element MAX_M prob index frozen level K pe prob' index' frozen',
  partitions nth_element -> level <= MAX_M <= 30 -> length prob = 2 ^ MAX_M -> length index = 2 ^ MAX_M -> 2 ^ level <= 32 * length frozen -> K <= 2 ^ level ->
  (0 < pe < 1)%Q -> polar_code_const0 exact nth_element MAX_M prob index frozen level K pe = Ok (prob', index', frozen') ->
  domination_closed (flags frozen' (2 ^ level)).
Proof.
  intros ne MAX_M prob index frozen level K pe p' i' f' HP HM Lp Li Hf HK (P0 & P1) E.
  destruct (C47_const0 exact ne MAX_M prob index frozen level K pe HP (exact_orders level pe _) HM Lp Li Hf HK) as (p2 & i2 & f2 & E2 & _ & _ & _ & _ & _ & R & _).
  rewrite E2 in E. assert (f2 = f') as <- by congruence. clear E E2. intros i j Hi Hj Hd Fi. rewrite length_flags in Hi, Hj. rewrite nth_flags in * by assumption.
  destruct (is_frozen f2 j) eqn:Fj; [|reflexivity]. exfalso. specialize (R i j Hi Hj Fi Fj). apply exact_nless in R.
  assert (i <> j) as Hne by congruence.
  assert (exists k, k < level /\ Nat.testbit i k <> Nat.testbit j k) as Hx.
  { destruct (forallb (fun k => Bool.eqb (Nat.testbit i k) (Nat.testbit j k)) (seq 0 level)) eqn:Fa.
    - exfalso. apply Hne. apply Nat.bits_inj. intros k. destruct (Nat.lt_ge_cases k level) as [C|C].
      + rewrite forallb_forall in Fa. apply Bool.eqb_prop. apply Fa. apply in_seq. lia.
      + rewrite <- (Nat.mod_small i (2 ^ level)), <- (Nat.mod_small j (2 ^ level)) by assumption. rewrite !Nat.mod_pow2_bits_high by exact C. reflexivity.
    - assert (existsb (fun k => negb (Bool.eqb (Nat.testbit i k) (Nat.testbit j k))) (seq 0 level) = true) as Ex.
      { clear - Fa. induction (seq 0 level) as [|x l IH]; [discriminate|]. cbn [forallb existsb] in *. destruct (Bool.eqb (Nat.testbit i x) (Nat.testbit j x)); [apply IH; exact Fa|reflexivity]. }
      apply existsb_exists in Ex. destruct Ex as (k & Hk & Ek). apply in_seq in Hk. exists k. split; [lia|]. intros C. rewrite C, Bool.eqb_reflx in Ek. discriminate. }
  pose proof (channel_strict level pe pe i j P0 (Qle_refl pe) P1 (fun k _ => dominated i j Hd k) (or_intror Hx)) as S.
  apply (Qlt_not_le _ _ S). exact R.
Qed.
Print Assumptions C60_exact_const0_closed.
(** C60 fails for doubles once the best probabilities underflow to zero: with probability 1/2 that is the case from level 12
    on.  An implementation of std::nth_element (here: stable sorting) may then choose a position other than the last one. *)
Example C60_double_underflow :
  erasure binary64 12 half 4095 = S754_zero false /\ erasure binary64 12 half 4094 = S754_zero false /\ N.land 4094 4095 = 4094%N.
Proof. repeat split; vm_compute; reflexivity. Qed.
Definition tiny : spec_float := S754_finite false 4503599627370496 (-252).
Example C60_double_ties : partitions (fun comp _ l => isort comp l) /\
  ('(_, index, frozen) <- polar_code_const0 binary64 (fun comp _ l => isort comp l) 4 (repeat None 16) (repeat 0 16) (repeat 0%N 1) 4 1 tiny ;;
    Ok (nth 0 index 0, unfrozen (flags frozen 16), is_frozen frozen 15)) = Ok (7, 1, true) /\ Nat.land 7 15 = 7.
Proof. split; [exact isort_partitions|]. split; [vm_compute; reflexivity|reflexivity]. Qed.
