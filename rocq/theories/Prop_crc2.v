(** Property C67: which errors a CRC from crc.hh is guaranteed to reveal. *)
From Coq Require Import ZifyBool ZifyNat ZifyN Znumtheory.
From Verif Require Import Cpp Model_crc Spec_bits Spec_crc Proof_crc Lib_orbit Lib_gf2lin Spec_wht Lib_wht.
Ltac Zify.zify_post_hook ::= idtac.
Local Open Scope N_scope.

(** in how many positions two messages of the same length differ *)
Definition bit_errors (a b : list bool) : nat :=
  length (filter (fun '(x, y) => xorb x y) (combine a b)).

Section W.
Variables (w poly : N).
Hypothesis (Hw : 8 <= w) (Hp : poly < 2 ^ w).
Notation st := (st poly).
Notation sts := (sts poly).

Lemma parity_st (Ho : odd_ones poly = true) r d : odd_ones (st r d) = xorb (odd_ones r) d.
Proof.
  unfold Proof_crc.st. rewrite odd_ones_lxor, <- N.div2_spec, (odd_ones_step r), N.bit0_odd.
  assert (E : odd_ones (sel (xorb (N.odd r) d) poly) = xorb (N.odd r) d).
  { destruct (xorb (N.odd r) d); cbn [sel]; [exact Ho|reflexivity]. }
  rewrite E. destruct (N.odd r), d, (odd_ones (N.div2 r)); reflexivity.
Qed.
Lemma parity_sts (Ho : odd_ones poly = true) a : forall b r1 r2, length a = length b ->
  xorb (odd_ones (sts r1 a)) (odd_ones (sts r2 b)) =
  xorb (xorb (odd_ones r1) (odd_ones r2)) (Nat.odd (bit_errors a b)).
Proof.
  induction a as [|x a IH]; intros [|y b] r1 r2 L; try discriminate.
  - cbn. rewrite xorb_false_r. reflexivity.
  - cbn [Proof_crc.sts fold_left]. unfold Proof_crc.sts in IH. rewrite IH by (cbn in L; lia).
    rewrite !parity_st by exact Ho. unfold bit_errors. cbn [combine filter].
    destruct (xorb x y) eqn:X; cbn [length]; rewrite ?Nat.odd_succ, <- ?Nat.negb_odd;
    destruct x, y, (odd_ones r1), (odd_ones r2), (Nat.odd _); try discriminate X; reflexivity.
Qed.

Hypothesis Htop : N.testbit poly (w - 1) = true.
Let f (r : N) := st r false.
Lemma st_zero_one : st 1 true = 0. Proof. reflexivity. Qed.
Lemma one_lt : 1 < 2 ^ w. Proof. pose proof (pow_w w poly Hw Hp). lia. Qed.
Lemma z_iter n : forall r, z poly n r = N.iter (N.of_nat n) f r.
Proof.
  induction n as [|n IH]; intros r; [reflexivity|].
  rewrite Nat2N.inj_succ, iter_succ_r. rewrite z_S. apply IH.
Qed.
Lemma gap_reg n : sts 0 (true :: repeat false n) = N.iter (N.of_nat (S n)) f 1.
Proof.
  cbn [Proof_crc.sts fold_left]. change (st 0 true) with (f 1).
  rewrite Nat2N.inj_succ, iter_succ_r. apply z_iter.
Qed.
Lemma xor_self l : xor_bits l l = repeat false (length l).
Proof. unfold xor_bits. induction l as [|x l IH]; [reflexivity|]. cbn. rewrite xorb_nilpotent. f_equal. exact IH. Qed.
Lemma two_bits start pre a mid b suf : start < 2 ^ w ->
  (sts start (pre ++ a :: mid ++ b :: suf) = sts start (pre ++ negb a :: mid ++ negb b :: suf) <->
   N.iter (N.of_nat (S (length mid))) f 1 = 1).
Proof.
  intros Hs. pose proof (sts_lt w poly Hp pre start Hs) as H0.
  set (r := sts start pre) in *.
  assert (K : sts r (a :: mid ++ [b]) = sts r (negb a :: mid ++ [negb b]) <-> N.iter (N.of_nat (S (length mid))) f 1 = 1).
  { assert (E : N.lxor (sts r (a :: mid ++ [b])) (sts r (negb a :: mid ++ [negb b])) =
                st (N.iter (N.of_nat (S (length mid))) f 1) true).
    { rewrite <- gap_reg. rewrite <- (sts_lxor w poly Hw Hp) by (cbn; rewrite !app_length; reflexivity).
      rewrite N.lxor_nilpotent. unfold xor_bits. cbn [combine map].
      assert (C : map (fun '(x, y) => xorb x y) (combine (mid ++ [b]) (mid ++ [negb b])) = repeat false (length mid) ++ [true]).
      { clear. induction mid as [|x l IH]; cbn; [destruct b; reflexivity|]. rewrite xorb_nilpotent. f_equal. exact IH. }
      rewrite C. replace (xorb a (negb a)) with true by (destruct a; reflexivity).
      rewrite app_comm_cons, sts_app. reflexivity. }
    split; intros H.
    - rewrite H, N.lxor_nilpotent in E. rewrite <- st_zero_one in E.
      assert (B : N.iter (N.of_nat (S (length mid))) f 1 < 2 ^ w).
      { apply (iter_inv (fun x => x < 2 ^ w)); [|apply one_lt]. intros x Hx. apply st_lt; assumption. }
      symmetry. eapply (st_inj w poly Hw Hp Htop); [apply one_lt|exact B|exact E].
    - rewrite H, st_zero_one in E. apply N.lxor_eq. exact E. }
  rewrite <- K.
  assert (A : forall x y, pre ++ x :: mid ++ y :: suf = pre ++ (x :: mid ++ [y]) ++ suf).
  { intros x y. cbn. rewrite <- app_assoc. reflexivity. }
  rewrite !A, !(sts_app poly start), !sts_app. fold r.
  split; intros H.
  - apply (sts_inj w poly Hw Hp Htop suf) in H; [exact H| |]; apply sts_lt; assumption.
  - rewrite H. reflexivity.
Qed.
End W.

(** Any number of errors, as long as it is odd, is revealed when the polynomial has an odd number of
    one bits (that is, when x + 1 divides x^w + poly). *)
Theorem C67_odd_errors : forall w poly start m1 m2,
  8 <= w -> poly < 2 ^ w -> start < 2 ^ w -> odd_ones poly = true ->
  length m1 = length m2 -> Nat.odd (bit_errors m1 m2) = true ->
  crc_of w poly start (map InBit m1) <> crc_of w poly start (map InBit m2).
Proof.
  intros w poly start m1 m2 Hw Hp Hs Ho L D E.
  rewrite !crc_of_bits in E by assumption. injection E as E.
  pose proof (parity_sts w poly Hw Hp Ho m1 m2 start start L) as P.
  rewrite E, D, !xorb_nilpotent in P. discriminate P.
Qed.
Print Assumptions C67_odd_errors.

(** Two flipped bits, [length mid + 1] positions apart, stay unnoticed exactly when a one followed by
    [length mid] zeros leaves 1 in a register which started at 0: it depends neither on the message
    nor on the start value nor on where in the message they are. *)
Theorem C67_two_errors : forall w poly start pre a mid b suf,
  8 <= w -> poly < 2 ^ w -> N.testbit poly (w - 1) = true -> start < 2 ^ w ->
  (crc_of w poly start (map InBit (pre ++ a :: mid ++ b :: suf)) =
   crc_of w poly start (map InBit (pre ++ negb a :: mid ++ negb b :: suf)) <->
   crc_of w poly 0 (map InBit (true :: repeat false (length mid))) = Ok 1).
Proof.
  intros w poly start pre a mid b suf Hw Hp Ht Hs.
  rewrite !crc_of_bits by (assumption || (pose proof (pow_w w poly Hw Hp); lia)).
  rewrite gap_reg. pose proof (two_bits w poly Hw Hp Ht start pre a mid b suf Hs) as T.
  split; intros H.
  - f_equal. apply T. injection H as H. exact H.
  - f_equal. apply T. injection H as H. exact H.
Qed.
Print Assumptions C67_two_errors.

(** The polynomials the library's tests use (crc_test.cc, polar_list_regression_test.cc), with the
    smallest distance of two flipped bits that stays unnoticed. *)
Definition crc_reach : list (N * N * N) :=
  [(32, 0xEDB88320, 4294967295); (32, 0xC8DF352F, 65534); (32, 0xD419CC15, 65537);
   (16, 0xA8F4, 64897); (8, 0x8C, 127)].
Definition factors : list (N * N * list N) :=
  [(32, 0xEDB88320, [3; 5; 17; 257; 65537]); (32, 0xC8DF352F, [2; 7; 31; 151]); (32, 0xD419CC15, [65537]);
   (16, 0xA8F4, [7; 73; 127]); (8, 0x8C, [127])].

Lemma factors_ok : forallb (fun '(w, poly, l) =>
   (8 <=? w) && (poly <? 2 ^ w) && N.testbit poly (w - 1) && forallb (fun q => (q =? 2) || is_prime q) l &&
   period_check (N.to_nat w) (matrix (fun r => st poly r false) (N.to_nat w)) l 1) factors = true.
Proof. vm_compute. reflexivity. Qed.
Lemma reach_factors w poly n : In (w, poly, n) crc_reach -> exists l, In (w, poly, l) factors /\ n = prod l.
Proof.
  unfold crc_reach, factors. cbn [In]. intros H.
  repeat (destruct H as [H|H]; [injection H as <- <- <-; eexists; split; [eauto 10|vm_compute; reflexivity]|]).
  contradiction.
Qed.
Lemma reach_period w poly n : In (w, poly, n) crc_reach ->
  8 <= w /\ poly < 2 ^ w /\ N.testbit poly (w - 1) = true /\
  N.iter n (fun r => st poly r false) 1 = 1 /\
  forall k, 0 < k < n -> N.iter k (fun r => st poly r false) 1 <> 1.
Proof.
  intros H. destruct (reach_factors w poly n H) as (l & Hl & ->).
  pose proof factors_ok as F. rewrite forallb_forall in F. specialize (F _ Hl). cbv beta iota in F.
  repeat (apply andb_prop in F; destruct F as [F ?]).
  assert (Hw : 8 <= w) by (apply N.leb_le; assumption).
  assert (Hp : poly < 2 ^ w) by (apply N.ltb_lt; assumption).
  split; [exact Hw|]. split; [exact Hp|]. split; [assumption|].
  apply (linear_period (fun r => st poly r false) (N.to_nat w) l 1).
  - intros a b. rewrite <- (st_lxor poly a b false false). reflexivity.
  - rewrite N2Nat.id. intros x Hx. apply st_lt; assumption.
  - apply Forall_forall. intros q Hq.
    match goal with X : forallb _ l = true |- _ => rewrite forallb_forall in X; specialize (X q Hq); apply orb_prop in X; destruct X as [X|X] end.
    + apply N.eqb_eq in H1. subst q. exact prime_2.
    + apply is_prime_ok. assumption.
  - rewrite N2Nat.id. pose proof (pow_w w poly Hw Hp). lia.
  - assumption.
Qed.

(** With these polynomials two flipped bits closer than that are always revealed, and the distance is
    exact: two flipped bits that far apart never are. *)
Theorem C67_two_errors_reach : forall w poly n start pre a mid b suf,
  In (w, poly, n) crc_reach -> start < 2 ^ w ->
  (N.of_nat (length mid) + 1 < n ->
   crc_of w poly start (map InBit (pre ++ a :: mid ++ b :: suf)) <>
   crc_of w poly start (map InBit (pre ++ negb a :: mid ++ negb b :: suf))) /\
  (N.of_nat (length mid) + 1 = n ->
   crc_of w poly start (map InBit (pre ++ a :: mid ++ b :: suf)) =
   crc_of w poly start (map InBit (pre ++ negb a :: mid ++ negb b :: suf))).
Proof.
  intros w poly n start pre a mid b suf H Hs.
  destruct (reach_period w poly n H) as (Hw & Hp & Ht & P & M).
  rewrite !crc_of_bits by assumption.
  pose proof (two_bits w poly Hw Hp Ht start pre a mid b suf Hs) as T.
  replace (N.of_nat (S (length mid))) with (N.of_nat (length mid) + 1) in T by lia.
  split; intros L.
  - intros E. injection E as E. apply T in E. revert E. apply M. lia.
  - f_equal. apply T. rewrite L. exact P.
Qed.
Print Assumptions C67_two_errors_reach.

(** up to two errors, in positions below [n], one or both ends *)
Lemma bit_errors_0 a : forall b, length a = length b -> bit_errors a b = 0%nat -> a = b.
Proof.
  induction a as [|x a IH]; intros [|y b] L H; try discriminate; [reflexivity|].
  unfold bit_errors in H. cbn [combine filter] in H. destruct (xorb x y) eqn:X; [discriminate|].
  apply xorb_eq in X. subst y. f_equal. apply IH; [cbn in L; lia|exact H].
Qed.
Lemma bit_errors_S a : forall b n, length a = length b -> bit_errors a b = S n ->
  exists pre x sa sb, a = pre ++ x :: sa /\ b = pre ++ negb x :: sb /\ length sa = length sb /\ bit_errors sa sb = n.
Proof.
  induction a as [|x a IH]; intros [|y b] n L H; try discriminate.
  unfold bit_errors in H. cbn [combine filter] in H. destruct (xorb x y) eqn:X.
  - exists [], x, a, b. cbn [app length] in *. injection H as H.
    assert (y = negb x) by (destruct x, y; (discriminate || reflexivity)). subst y. auto with arith.
  - apply xorb_eq in X. subst y. destruct (IH b n) as (pre & c & sa & sb & -> & -> & E1 & E2); [cbn in L; lia|exact H|].
    exists (x :: pre), c, sa, sb. auto.
Qed.

(** The two polynomials with an odd number of one bits reveal every error of up to three bits in
    everything fed (message, or message followed by its CRC) of at most 65534 (127) bits. *)
Theorem C67_three_errors : forall w poly n start m1 m2,
  In (w, poly, n) [(32, 0xC8DF352F, 65534); (8, 0x8C, 127)] -> start < 2 ^ w ->
  length m1 = length m2 -> N.of_nat (length m1) <= n ->
  (1 <= bit_errors m1 m2 <= 3)%nat ->
  crc_of w poly start (map InBit m1) <> crc_of w poly start (map InBit m2).
Proof.
  intros w poly n start m1 m2 H Hs L Ln Hb.
  assert (Hr : In (w, poly, n) crc_reach).
  { unfold crc_reach. cbn [In] in H |- *. tauto. }
  assert (Ho : odd_ones poly = true).
  { cbn [In] in H. destruct H as [H|[H|[]]]; injection H as <- <- <-; reflexivity. }
  destruct (reach_period w poly n Hr) as (Hw & Hp & Ht & _).
  destruct (Nat.odd (bit_errors m1 m2)) eqn:O; [apply C67_odd_errors; assumption|].
  assert (E2 : bit_errors m1 m2 = 2%nat).
  { destruct (bit_errors m1 m2) as [|[|[|[|k]]]]; cbn in O; try discriminate; lia. }
  destruct (bit_errors_S m1 m2 1 L E2) as (pre & a & s1 & s2 & -> & -> & L1 & E1).
  destruct (bit_errors_S s1 s2 0 L1 E1) as (mid & b & t1 & t2 & -> & -> & L2 & E0).
  apply bit_errors_0 in E0; [|exact L2]. subst t2.
  apply (C67_two_errors_reach w poly n start pre a mid b t1 Hr Hs).
  rewrite !app_length in Ln. cbn [length] in Ln. rewrite app_length in Ln. cbn [length] in Ln. lia.
Qed.
Print Assumptions C67_three_errors.

Example C67_nonvacuous :
  odd_ones 0x8C = true /\
  bit_errors [true; false; true; true] [true; true; false; false] = 3%nat /\
  crc_of 8 0x8C 0 (map InBit [true; false; true; true]) = Ok 87 /\
  crc_of 8 0x8C 0 (map InBit [true; true; false; false]) = Ok 190 /\
  crc_of 8 0x8C 0 (map InBit (true :: repeat false 126)) = Ok 1 /\
  crc_of 8 0x8C 0 (map InBit (true :: repeat false 125)) <> Ok 1.
Proof. vm_compute. repeat split; congruence. Qed.
