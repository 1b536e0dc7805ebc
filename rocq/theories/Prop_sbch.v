(** C29, C30, C31: the short BCH encoder and decoder.
    [sb_par], [sb_err] are the tables the constructors fill; [n], [k], [g], [t] are the template parameters N, K, G, T. *)
From Coq Require Import ZifyBool ZifyNat ZifyN.
From Verif Require Import Cpp Lib_list Model_sbch Spec_gf Spec_wht Spec_sbch Lib_gf2lin Lib_gf2poly Lib_gf Lib_wht Proof_wht Proof_sbch Proof_sbch2.
Local Open Scope Z_scope.

(** the template parameters the headers accept: static_assert N < 32, N - K < 16, 0 < T <= 3, and the generator has degree N - K *)
Definition sb_params (n k : nat) (g : N) : Prop :=
  (1 <= k < n)%nat /\ (n <= 31)%nat /\ (n - k <= 15)%nat /\ has_degree g (N.of_nat (n - k)).

(** the constructors always succeed *)
Theorem C29_constructors : forall n k g t, sb_params n k g -> (1 <= t <= 3)%nat ->
  (exists par, sb_par n k (Z.of_N g) = Ok par) /\ (exists err, sb_err n k (Z.of_N g) t = Ok err).
Proof.
  intros n k g t (Hk & Hn & Hp & HG) Ht. split.
  - destruct (par_ok n k g Hk Hn Hp HG) as (par & E & _). eauto.
  - destruct (err_ok n k g Hk Hn Hp HG t Ht) as (err & E & _). eauto.
Qed.
Print Assumptions C29_constructors.

Lemma the_par n k g par : sb_params n k g -> sb_par n k (Z.of_N g) = Ok par -> parOK n k g par.
Proof. intros (Hk & Hn & Hp & HG) E. destruct (par_ok n k g Hk Hn Hp HG) as (p & E' & H). congruence. Qed.
Lemma the_err n k g t err : sb_params n k g -> (1 <= t <= 3)%nat -> sb_err n k (Z.of_N g) t = Ok err ->
  einv n k g t (fun e => (e <> 0)%N /\ (e < 2 ^ N.of_nat n)%N /\ (ones e <= t)%nat) err.
Proof. intros (Hk & Hn & Hp & HG) Ht E. destruct (err_ok n k g Hk Hn Hp HG t Ht) as (p & E' & H). congruence. Qed.

(** the codeword is a multiple of the generator with the message in its top K bits *)
Theorem C29_encoder_systematic : forall n k g par m,
  sb_params n k g -> sb_par n k (Z.of_N g) = Ok par -> (m < 2 ^ N.of_nat k)%N ->
  exists c, sb_encode n k par (Z.of_N m) = Ok (Z.of_N c) /\ codeword n g c /\ N.shiftr c (N.of_nat (n - k)) = m.
Proof.
  intros n k g par m HP HE Hm. pose proof (the_par _ _ _ _ HP HE) as HPar. destruct HP as (Hk & Hn & Hp & HG).
  apply encode_ok; assumption.
Qed.
Print Assumptions C29_encoder_systematic.

(** every codeword is the encoding of its top K bits *)
Theorem C29_encoder_onto : forall n k g par c,
  sb_params n k g -> sb_par n k (Z.of_N g) = Ok par -> codeword n g c ->
  (N.shiftr c (N.of_nat (n - k)) < 2 ^ N.of_nat k)%N /\ sb_encode n k par (Z.of_N (N.shiftr c (N.of_nat (n - k)))) = Ok (Z.of_N c).
Proof.
  intros n k g par c HP HE HC. pose proof (the_par _ _ _ _ HP HE) as HPar. destruct HP as (Hk & Hn & Hp & HG).
  destruct (codeword_encode n k g Hk Hn Hp HG par c HPar HC). auto.
Qed.
Print Assumptions C29_encoder_onto.

Lemma codeword_lxor n g a b : codeword n g a -> codeword n g b -> codeword n g (N.lxor a b).
Proof.
  intros (La & qa & ->) (Lb & qb & ->). split; [apply lxor_lt; assumption|]. exists (N.lxor qa qb).
  rewrite clmul_lxor_l. reflexivity.
Qed.
Theorem C29_encoder_linear : forall n k g par a b ca cb,
  sb_params n k g -> sb_par n k (Z.of_N g) = Ok par -> (a < 2 ^ N.of_nat k)%N -> (b < 2 ^ N.of_nat k)%N ->
  sb_encode n k par (Z.of_N a) = Ok ca -> sb_encode n k par (Z.of_N b) = Ok cb ->
  sb_encode n k par (Z.lxor (Z.of_N a) (Z.of_N b)) = Ok (Z.lxor ca cb).
Proof.
  intros n k g par a b ca cb HP HE Ha Hb Ea Eb. pose proof (the_par _ _ _ _ HP HE) as HPar.
  destruct (C29_encoder_systematic n k g par a HP HE Ha) as (x & Ex & Cx & Sx).
  destruct (C29_encoder_systematic n k g par b HP HE Hb) as (y & Ey & Cy & Sy).
  rewrite Ex in Ea. rewrite Ey in Eb. injection Ea as <-. injection Eb as <-. rewrite !Z_lxor_N.
  destruct (C29_encoder_onto n k g par (N.lxor x y) HP HE (codeword_lxor n g x y Cx Cy)) as (_ & E).
  rewrite N.shiftr_lxor, Sx, Sy in E. exact E.
Qed.
Print Assumptions C29_encoder_linear.

Lemma bpsk_bit c i : 1 - 2 * Z.land (Z.shiftr (Z.of_N c) (Z.of_nat i)) 1 = (if N.testbit c (N.of_nat i) then -1 else 1).
Proof.
  rewrite Z_shiftr_N. change 1 with (Z.of_N 1) at 2. rewrite Z_land_N.
  rewrite (N.land_ones _ 1 : N.land _ 1 = _). change (2 ^ 1)%N with 2%N. rewrite <- N.bit0_mod, N.shiftr_spec'. rewrite N.add_0_l.
  destruct (N.testbit c (N.of_nat i)); reflexivity.
Qed.
(** the soft form overwrites the first N elements of the caller's array with +1/-1 and returns the same codeword *)
Theorem C29_encoder_soft : forall n k g par code m c,
  sb_params n k g -> sb_par n k (Z.of_N g) = Ok par -> (m < 2 ^ N.of_nat k)%N -> (n <= length code)%nat ->
  sb_encode n k par (Z.of_N m) = Ok (Z.of_N c) ->
  sb_encode_soft n k par code (Z.of_N m) = Ok (bpsk n c ++ skipn n code, Z.of_N c).
Proof.
  intros n k g par code m c HP HE Hm HL EC. unfold sb_encode_soft. rewrite EC. cbn [bind].
  assert (E : for_up 0 n (fun i code => x <- (fun i => Ok (1 - 2 * Z.land (Z.shiftr (Z.of_N c) (Z.of_nat i)) 1)) i ;; wr code i x) code = Ok (bpsk n c ++ skipn n code)).
  { apply write_all; [exact HL|]. intros i Hi. rewrite bpsk_bit. reflexivity. }
  cbn [bind] in E. rewrite E. reflexivity.
Qed.
Print Assumptions C29_encoder_soft.

(** BCH(15,5) with generator x^10+x^8+x^5+x^4+x^2+x+1: the hypotheses are met *)
Example C29_nonvacuous : sb_params 15 5 1335 /\ exists par, sb_par 15 5 1335 = Ok par /\ sb_encode 15 5 par 0 = Ok 0 /\ sb_encode 15 5 par 19 = Ok 19906.
Proof.
  split.
  { repeat split; try lia; cbv; congruence. }
  eexists. split; [vm_compute; reflexivity|]. split; vm_compute; reflexivity.
Qed.

(** C30: the answer is a codeword at distance at most T, or -1; and -1 exactly if no codeword is that close *)
Theorem C30_hard_decoder : forall n k g t par err x,
  sb_params n k g -> (1 <= t <= 3)%nat -> sb_par n k (Z.of_N g) = Ok par -> sb_err n k (Z.of_N g) t = Ok err ->
  (x < 2 ^ N.of_nat n)%N ->
  exists r, sb_hard n k par err (Z.of_N x) = Ok r /\
    ((exists c, r = Z.of_N c /\ codeword n g c /\ (distance x c <= t)%nat) \/
     (r = -1 /\ forall c, codeword n g c -> (t < distance x c)%nat)).
Proof.
  intros n k g t par err x HP Ht HE HR Hx. pose proof (the_par _ _ _ _ HP HE) as HPar. pose proof (the_err _ _ _ _ _ HP Ht HR) as HErr.
  destruct HP as (Hk & Hn & Hp & HG). apply hard_ok; assumption.
Qed.
Print Assumptions C30_hard_decoder.

Lemma popcount_lxor_pos : forall p q, (ones (Pos.lxor p q) <= ones_pos p + ones_pos q)%nat.
Proof.
  assert (D : forall x, ones (Pos.Ndouble x) = ones x) by (intros []; reflexivity).
  assert (SD : forall x, ones (Pos.Nsucc_double x) = S (ones x)) by (intros []; reflexivity).
  induction p as [p IH|p IH|]; intros [q|q|]; cbn [Pos.lxor ones_pos]; rewrite ?D, ?SD; try (specialize (IH q)); cbn [ones ones_pos]; lia.
Qed.
Lemma ones_lxor a b : (ones (N.lxor a b) <= ones a + ones b)%nat.
Proof. destruct a as [|p], b as [|q]; cbn [N.lxor ones]; try lia. apply popcount_lxor_pos. Qed.
Lemma distance_triangle a b c : (distance a c <= distance a b + distance b c)%nat.
Proof.
  unfold distance. replace (N.lxor a c) with (N.lxor (N.lxor a b) (N.lxor b c)); [apply ones_lxor|].
  rewrite N.lxor_assoc, <- (N.lxor_assoc b b c), N.lxor_nilpotent, N.lxor_0_l. reflexivity.
Qed.
Lemma distance_sym a b : distance a b = distance b a. Proof. unfold distance. rewrite N.lxor_comm. reflexivity. Qed.
(** up to T flipped bits are corrected when different codewords differ in at least 2T+1 bits *)
Theorem C30_corrects : forall n k g t par err c x,
  sb_params n k g -> (1 <= t <= 3)%nat -> sb_par n k (Z.of_N g) = Ok par -> sb_err n k (Z.of_N g) t = Ok err ->
  min_distance n g (2 * t + 1) -> codeword n g c -> (x < 2 ^ N.of_nat n)%N -> (distance x c <= t)%nat ->
  sb_hard n k par err (Z.of_N x) = Ok (Z.of_N c).
Proof.
  intros n k g t par err c x HP Ht HE HR HD HC Hx Hdist.
  destruct (C30_hard_decoder n k g t par err x HP Ht HE HR Hx) as (r & E & [(c' & -> & HC' & Hd')|(-> & Hno)]).
  - rewrite E. do 2 f_equal. destruct (N.eq_dec c' c) as [H|H]; [exact H|]. specialize (HD c' c HC' HC H).
    pose proof (distance_triangle c' x c). rewrite (distance_sym c' x) in *. lia.
  - specialize (Hno c HC). lia.
Qed.
Print Assumptions C30_corrects.
(** a codeword is accepted unchanged when different codewords differ in at least T+1 bits *)
Theorem C30_codeword_unchanged : forall n k g t par err c,
  sb_params n k g -> (1 <= t <= 3)%nat -> sb_par n k (Z.of_N g) = Ok par -> sb_err n k (Z.of_N g) t = Ok err ->
  min_distance n g (t + 1) -> codeword n g c -> sb_hard n k par err (Z.of_N c) = Ok (Z.of_N c).
Proof.
  intros n k g t par err c HP Ht HE HR HD HC.
  destruct (C30_hard_decoder n k g t par err c HP Ht HE HR (proj1 HC)) as (r & E & [(c' & -> & HC' & Hd')|(-> & Hno)]).
  - rewrite E. do 2 f_equal. destruct (N.eq_dec c' c) as [H|H]; [exact H|]. specialize (HD c c' HC HC' ltac:(congruence)). lia.
  - specialize (Hno c HC). unfold distance in Hno. rewrite N.lxor_nilpotent in Hno. cbn in Hno. lia.
Qed.
Print Assumptions C30_codeword_unchanged.

(** the minimum distance of the BCH(15,5) code is 7 and three errors are corrected *)
Lemma weights_15_5 : forallb (fun q => (7 <=? ones (clmul (N.of_nat (S q)) 1335))%nat) (seq 0 31) = true.
Proof. vm_compute. reflexivity. Qed.
Lemma distance_15_5 : min_distance 15 1335 7.
Proof.
  intros a b Ha Hb Hne. unfold distance. pose proof (codeword_lxor 15 1335 a b Ha Hb) as (L & q & E).
  assert (N.lxor a b <> 0%N) by (intros H; apply Hne, N.lxor_eq; exact H). rewrite E in *. set (c := clmul q 1335) in *.
  assert (Hq : (0 < q < 32)%N).
  { split; [destruct q; [exfalso; apply H; reflexivity|lia]|]. destruct (N.lt_ge_cases q 32) as [G|G]; [exact G|exfalso].
    assert (Q0 : (q <> 0)%N) by lia. assert (5 <= N.log2 q)%N by (change 5%N with (N.log2 32); apply N.log2_le_mono; exact G).
    assert (N.log2 c = N.log2 q + N.log2 1335)%N as LC by (apply clmul_top; [exact Q0|discriminate]).
    assert (15 <= N.log2 c)%N by (rewrite LC; change (N.log2 1335) with 10%N; lia).
    assert (2 ^ 15 <= c)%N; [|lia]. eapply N.le_trans; [apply N.pow_le_mono_r with (c := N.log2 c); [discriminate|assumption]|]. apply N.log2_spec. lia. }
  pose proof (proj1 (forallb_forall _ _) weights_15_5 (N.to_nat q - 1)%nat ltac:(apply in_seq; lia)) as W. cbv beta in W.
  replace (N.of_nat (S (N.to_nat q - 1))) with q in W by lia. fold c in W. apply Nat.leb_le in W. exact W.
Qed.
Example C30_nonvacuous : sb_params 15 5 1335 /\ min_distance 15 1335 (2 * 3 + 1) /\
  exists par err, sb_par 15 5 1335 = Ok par /\ sb_err 15 5 1335 3 = Ok err /\
    sb_hard 15 5 par err (Z.lxor 19906 (2 ^ 14 + 2 ^ 7 + 1)) = Ok 19906 /\ sb_hard 15 5 par err 24 = Ok 0.
Proof.
  split; [exact (proj1 C29_nonvacuous)|]. split; [exact distance_15_5|].
  eexists. eexists. split; [vm_compute; reflexivity|]. split; [vm_compute; reflexivity|]. split; vm_compute; reflexivity.
Qed.

(** C31 *)
Lemma the_signs n soft x : length soft = n -> hard_decision n soft x -> x = signs soft n.
Proof.
  intros HL (Hx & B). apply N.bits_inj. intros i. destruct (N.lt_ge_cases i (N.of_nat n)) as [L|L].
  - replace i with (N.of_nat (N.to_nat i)) by lia. rewrite B, signs_bit by lia. replace (N.to_nat i <? n)%nat with true by lia. reflexivity.
  - rewrite (tb_ge x (N.of_nat n)), (tb_ge (signs soft n) (N.of_nat n)) by (assumption || apply signs_lt). reflexivity.
Qed.
Lemma dot_lt n soft c c' : length soft = n -> (dot (bpsk n c') soft < dot (bpsk n c) soft <-> met n soft c' < met n soft c).
Proof. intros HL. rewrite !dot_bpsk by exact HL. lia. Qed.

(** -1 or a codeword at least as likely as the codeword the hard decoder finds for the signs *)
Theorem C31_soft_decoder : forall n k g t par err soft x,
  sb_params n k g -> (1 <= t <= 3)%nat -> sb_par n k (Z.of_N g) = Ok par -> sb_err n k (Z.of_N g) t = Ok err ->
  length soft = n -> Forall int8 soft -> hard_decision n soft x ->
  exists r, sb_soft n k t par err soft = Ok r /\
    (r = -1 \/ exists c, r = Z.of_N c /\ codeword n g c /\
       forall c0, sb_hard n k par err (Z.of_N x) = Ok (Z.of_N c0) -> dot (bpsk n c0) soft <= dot (bpsk n c) soft).
Proof.
  intros n k g t par err soft x HP Ht HE HR HL HB HX. pose proof (the_par _ _ _ _ HP HE) as HPar. pose proof (the_err _ _ _ _ _ HP Ht HR) as HErr.
  destruct HP as (Hk & Hn & Hp & HG). rewrite (the_signs n soft x HL HX).
  destruct (soft_ok n k t g Hk Hn Hp HG Ht par err HPar HErr soft HL HB) as (r & E & [H|(c & -> & HC & Hbest)]); eexists.
  - split; [exact E|left; exact H].
  - split; [exact E|right]. exists c. split; [reflexivity|]. split; [exact HC|]. intros c0 H0. rewrite !dot_bpsk by exact HL. specialize (Hbest c0 H0). lia.
Qed.
Print Assumptions C31_soft_decoder.

(** for K <= 4 the decoder is an exact maximum likelihood decoder *)
Theorem C31_maximum_likelihood : forall n k g t par err soft,
  sb_params n k g -> (1 <= t <= 3)%nat -> sb_par n k (Z.of_N g) = Ok par -> sb_err n k (Z.of_N g) t = Ok err ->
  (k <= 4)%nat -> length soft = n -> Forall int8 soft ->
  exists r, sb_soft n k t par err soft = Ok r /\
    ((exists c, r = Z.of_N c /\ best_codeword n g soft c) \/ (r = -1 /\ forall c, ~ best_codeword n g soft c)).
Proof.
  intros n k g t par err soft HP Ht HE HR Hk4 HL HB. pose proof (the_par _ _ _ _ HP HE) as HPar. pose proof (the_err _ _ _ _ _ HP Ht HR) as HErr.
  destruct HP as (Hk & Hn & Hp & HG).
  assert (EQ : forall c, best_codeword n g soft c <-> codeword n g c /\ forall c', codeword n g c' -> c' <> c -> met n soft c' < met n soft c).
  { intros c. unfold best_codeword. split; intros (H1 & H2); (split; [exact H1|]); intros c' H3 H4; apply (dot_lt n soft c c' HL); apply H2; assumption. }
  destruct (soft_ml n k t g Hk Hn Hp HG Ht par err HPar HErr soft HL HB Hk4) as (r & E & [(c & -> & H)|(-> & H)]); eexists; (split; [exact E|]).
  - left. exists c. split; [reflexivity|]. apply EQ. exact H.
  - right. split; [reflexivity|]. intros c. rewrite EQ. apply H.
Qed.
Print Assumptions C31_maximum_likelihood.

(** for every K: a codeword received without sign errors, each element with any amplitude, is returned *)
Theorem C31_roundtrip : forall n k g t par err soft c,
  sb_params n k g -> (1 <= t <= 3)%nat -> sb_par n k (Z.of_N g) = Ok par -> sb_err n k (Z.of_N g) t = Ok err ->
  min_distance n g (t + 1) -> codeword n g c -> length soft = n -> Forall int8 soft ->
  (forall i, (i < n)%nat -> if N.testbit c (N.of_nat i) then nth i soft 0 < 0 else 0 < nth i soft 0) ->
  sb_soft n k t par err soft = Ok (Z.of_N c).
Proof.
  intros n k g t par err soft c HP Ht HE HR HD HC HL HB HS.
  pose proof (the_par _ _ _ _ HP HE) as HPar. pose proof (the_err _ _ _ _ _ HP Ht HR) as HErr.
  assert (HX : hard_decision n soft c).
  { split; [exact (proj1 HC)|]. intros i Hi. specialize (HS i Hi). destruct (N.testbit c (N.of_nat i)); lia. }
  assert (NN : forall m c', (m <= n)%nat -> met m soft c' <= met m soft c /\ 0 <= met m soft c /\ (met m soft c' = met m soft c -> forall i, (i < m)%nat -> N.testbit c' (N.of_nat i) = N.testbit c (N.of_nat i))).
  { intros m c'. induction m as [|m IH]; intros Hm; [cbn; repeat split; lia|]. unfold met in *. cbn [zsum]. specialize (HS m ltac:(lia)). destruct IH as (IH1 & IH0 & IH2); [lia|].
    destruct (N.testbit c (N.of_nat m)) eqn:B; destruct (N.testbit c' (N.of_nat m)) eqn:B'; cbn [Z.b2z]; (split; [lia|split; [lia|]]); intros HQ i Hi;
      (destruct (Nat.eq_dec i m) as [->|]; [first [congruence|lia]|apply IH2; lia]). }
  apply (soft_keeps n k t g) with (c := c); try exact (proj1 HP); try apply HP; try assumption.
  - apply (NN n c). lia.
  - intros c' HC' Hne. destruct (NN n c' ltac:(lia)) as (H1 & _ & H2). destruct (Z.eq_dec (met n soft c') (met n soft c)) as [E|E]; [exfalso|lia].
    apply Hne. apply N.bits_inj. intros i. destruct (N.lt_ge_cases i (N.of_nat n)) as [L|L].
    + replace i with (N.of_nat (N.to_nat i)) by lia. apply H2; [exact E|lia].
    + rewrite (tb_ge c' (N.of_nat n)), (tb_ge c (N.of_nat n)) by (assumption || apply HC || apply HC'). reflexivity.
  - rewrite <- (the_signs n soft c HL HX). eapply C30_codeword_unchanged; eassumption.
Qed.
Print Assumptions C31_roundtrip.

Example C31_nonvacuous : sb_params 7 4 11 /\ (exists par err, sb_par 7 4 11 = Ok par /\ sb_err 7 4 11 1 = Ok err /\
    sb_soft 7 4 1 par err [5;-1;2;-3;4;1;1] = Ok 78 /\ sb_soft 7 4 1 par err [0;0;0;0;0;0;0] = Ok (-1)) /\
  exists par err, sb_par 15 5 1335 = Ok par /\ sb_err 15 5 1335 3 = Ok err /\
    sb_soft 15 5 3 par err [-3;-9;100;-1;-2;7;-8;-128;-4;-5;20;-6;-7;1;-99] = Ok 31432 /\
    sb_soft 15 5 3 par err (bpsk 15 19906) = Ok 19906.
Proof.
  split. { repeat split; try lia; cbv; congruence. }
  split; (eexists; eexists; split; [vm_compute; reflexivity|]; split; [vm_compute; reflexivity|]; split; vm_compute; reflexivity).
Qed.
