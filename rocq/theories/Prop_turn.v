(** Property C79: short_bch_code_decoder.hh, hadamard_decoder.hh, simplex_decoder.hh.
    What these decoders answer for noise does not depend on the codeword the noise hits: the answer to a received word plus a codeword is the answer plus
    that codeword (or its message), and -1 stays -1. *)
From Coq Require Import ZifyBool ZifyNat ZifyN.
From Verif Require Import Cpp Lib_list Model_sbch Model_wht Spec_gf Spec_wht Spec_sbch Lib_gf2lin Lib_gf2poly Lib_gf Lib_wht Proof_wht Proof_sbch Proof_sbch2 Prop_sbch Prop_wht Proof_turn.
Local Open Scope Z_scope.

(** [soft2] is [soft] with the signs changed where [cw], a word of +1 and -1, is -1 *)
Definition signs_changed (cw soft soft2 : list Z) : Prop :=
  length cw = length soft /\ length soft2 = length soft /\ forall i, (i < length soft)%nat -> nth i soft2 0 = nth i cw 0 * nth i soft 0.
(** the answer [r] with [c] added *)
Definition with_codeword (r : Z) (c : N) : Z := if r =? -1 then -1 else Z.lxor r (Z.of_N c).

(** hard decisions: any received word, any generator, also beyond T errors *)
Theorem C79_short_bch_hard : forall n k g t par err x c,
  sb_params n k g -> (1 <= t <= 3)%nat -> sb_par n k (Z.of_N g) = Ok par -> sb_err n k (Z.of_N g) t = Ok err ->
  (x < 2 ^ N.of_nat n)%N -> codeword n g c ->
  exists r, sb_hard n k par err (Z.of_N x) = Ok r /\ sb_hard n k par err (Z.of_N (N.lxor x c)) = Ok (with_codeword r c).
Proof.
  intros n k g t par err x c HP Ht HE HR Hx HC. pose proof (the_par _ _ _ _ HP HE) as HPar. pose proof (the_err _ _ _ _ _ HP Ht HR) as HErr.
  destruct HP as (Hk & Hn & Hp & HG). destruct (hard_turn n k g Hk Hn Hp HG t par err _ x c HPar HErr Hx HC) as (r & E & _ & E'). exists r. split; assumption.
Qed.
Print Assumptions C79_short_bch_hard.

Lemma len_word n f : length (word n f) = n. Proof. unfold word. rewrite map_length, seq_length. reflexivity. Qed.
Lemma nth_wordf n f i : (i < n)%nat -> nth i (word n f) 0 = f i.
Proof. intros Hi. unfold word. rewrite (nth_indep _ 0 (f 0%nat)) by (rewrite map_length, seq_length; exact Hi). rewrite map_nth, seq_nth by exact Hi. reflexivity. Qed.

(** soft decisions, K <= 4 (all codewords are tried).  [soft] and [soft2] are int8, so no -128 is turned. *)
Theorem C79_short_bch_soft : forall n k g t par err soft soft2 c,
  sb_params n k g -> (1 <= t <= 3)%nat -> sb_par n k (Z.of_N g) = Ok par -> sb_err n k (Z.of_N g) t = Ok err ->
  (k <= 4)%nat -> length soft = n -> Forall int8 soft -> Forall int8 soft2 -> codeword n g c -> signs_changed (bpsk n c) soft soft2 ->
  exists r, sb_soft n k t par err soft = Ok r /\ sb_soft n k t par err soft2 = Ok (with_codeword r c).
Proof.
  intros n k g t par err soft soft2 c HP Ht HE HR Hk4 HL B1 B2 HC HT. pose proof HT as (T1 & T2 & T3). rewrite HL in *.
  destruct (C31_maximum_likelihood n k g t par err soft HP Ht HE HR Hk4 HL B1) as (r & E & A). destruct (C31_maximum_likelihood n k g t par err soft2 HP Ht HE HR Hk4 T2 B2) as (r2 & E2 & A2).
  exists r. split; [exact E|]. rewrite E2. f_equal.
  assert (SQ : forall a i, (i < n)%nat -> nth i (bpsk n a) 0 * nth i (bpsk n a) 0 = 1) by (intros a i Hi; unfold bpsk; rewrite nth_wordf by exact Hi; destruct (N.testbit _ _); reflexivity).
  assert (MU : forall a i, (i < n)%nat -> nth i (bpsk n (N.lxor a c)) 0 = nth i (bpsk n a) 0 * nth i (bpsk n c) 0).
  { intros a i Hi. unfold bpsk. rewrite !nth_wordf by exact Hi. rewrite N.lxor_spec. destruct (N.testbit a _), (N.testbit c _); reflexivity. }
  assert (BT : forall u v a, length u = n -> turned (bpsk n c) u v -> best_codeword n g u a -> best_codeword n g v (N.lxor a c)).
  { intros u v a Lu Tu (Ca & Ha). split; [apply codeword_lxor; assumption|]. intros c' Cc' Hne.
    assert (D : forall b, dot (bpsk n (N.lxor b c)) v = dot (bpsk n b) u). { intros b. apply (dot_turn _ _ (bpsk n c)); rewrite ?Lu; try (unfold bpsk; apply len_word); auto. }
    rewrite D. rewrite <- (lxor_cancel c' c), D. apply Ha; [apply codeword_lxor; assumption|]. intros X. apply Hne. rewrite <- X. symmetry. apply lxor_cancel. }
  assert (HT' : turned (bpsk n c) soft soft2) by (split; [lia|]; split; [lia|]; rewrite HL; exact T3).
  assert (HTb : turned (bpsk n c) soft2 soft) by (apply turned_back; [rewrite HL; apply SQ|exact HT']).
  assert (U : forall v a b, best_codeword n g v a -> best_codeword n g v b -> a = b).
  { intros v a b (Ca & Ha) (Cb & Hb). destruct (N.eq_dec a b) as [|H]; [assumption|]. specialize (Ha b Cb ltac:(congruence)). specialize (Hb a Ca H). lia. }
  unfold with_codeword. destruct A as [(a & -> & Ha)|(-> & Ha)].
  - destruct (Z.eqb_spec (Z.of_N a) (-1)); [lia|]. apply (BT soft soft2) in Ha; try assumption. destruct A2 as [(b & -> & Hb)|(-> & Hb)]; [|exfalso; exact (Hb _ Ha)].
    rewrite Z_lxor_N. f_equal. apply (U soft2); assumption.
  - cbn. destruct A2 as [(b & -> & Hb)|(-> & Hb)]; [|reflexivity]. exfalso. apply (Ha (N.lxor b c)). apply (BT soft2 soft); assumption.
Qed.
Print Assumptions C79_short_bch_soft.

Lemma walsh_lxor_l a b c : walsh (N.lxor a b) c = walsh a c * walsh b c.
Proof. rewrite walsh_sym, walsh_lxor, (walsh_sym c a), (walsh_sym c b). reflexivity. Qed.
Lemma mod_lxor a b s : (N.lxor a b mod 2 ^ s = N.lxor (a mod 2 ^ s) (b mod 2 ^ s))%N.
Proof.
  apply N.bits_inj. intros i. rewrite N.lxor_spec. destruct (N.lt_ge_cases i s).
  - rewrite !N.mod_pow2_bits_low, N.lxor_spec by assumption. reflexivity.
  - rewrite !N.mod_pow2_bits_high by assumption. reflexivity.
Qed.

Theorem C79_hadamard : forall K soft soft2 m,
  (2 <= K <= 24)%nat -> length soft = (2 ^ (K - 1))%nat -> Forall int8 soft -> Forall int8 soft2 ->
  (m < 2 ^ N.of_nat K)%N -> signs_changed (hadamard_word K m) soft soft2 ->
  exists r, had_decode K soft = Ok r /\ had_decode K soft2 = Ok (with_codeword r m).
Proof.
  intros K soft soft2 m HK HL B1 B2 Hm HT. pose proof HT as (_ & L2 & _).
  destruct (C27_decoder_is_maximum_likelihood K soft HK HL B1) as (r & E & A). destruct (C27_decoder_is_maximum_likelihood K soft2 HK ltac:(congruence) B2) as (r2 & E2 & A2).
  exists r. split; [exact E|]. rewrite E2. f_equal. apply (ml_unique (hadamard_word K) (2 ^ N.of_nat K) soft2); [exact A2|].
  apply (answer_turn (hadamard_word K) K (2 ^ (K - 1)) m soft soft2 r); try assumption.
  - intros a. apply len_word.
  - intros a i Hi. unfold hadamard_word. rewrite nth_wordf by exact Hi. pose proof (walsh_sq (a mod 2 ^ N.of_nat (K - 1)) (N.of_nat i)) as W. set (w := walsh _ _) in *. destruct (N.testbit _ _); [transitivity (w * w); [ring|exact W]|transitivity (w * w); [ring|exact W]].
  - intros a b i _ _ Hi. unfold hadamard_word. rewrite !nth_wordf by exact Hi. rewrite mod_lxor, walsh_lxor_l, N.lxor_spec. set (u := walsh _ _). set (v := walsh _ _). destruct (N.testbit a _), (N.testbit b _); cbn [xorb]; ring.
Qed.
Print Assumptions C79_hadamard.

Theorem C79_simplex : forall K soft soft2 m,
  (2 <= K <= 23)%nat -> length soft = (2 ^ K - 1)%nat -> Forall int8 soft -> Forall int8 soft2 ->
  (m < 2 ^ N.of_nat K)%N -> signs_changed (simplex_word K m) soft soft2 ->
  exists r, spx_decode K soft = Ok r /\ spx_decode K soft2 = Ok (with_codeword r m).
Proof.
  intros K soft soft2 m HK HL B1 B2 Hm HT. pose proof HT as (_ & L2 & _).
  destruct (C28_decoder_is_maximum_likelihood K soft HK HL B1) as (r & E & A). destruct (C28_decoder_is_maximum_likelihood K soft2 HK ltac:(congruence) B2) as (r2 & E2 & A2).
  exists r. split; [exact E|]. rewrite E2. f_equal. apply (ml_unique (simplex_word K) (2 ^ N.of_nat K) soft2); [exact A2|].
  apply (answer_turn (simplex_word K) K (2 ^ K - 1) m soft soft2 r); try assumption.
  - intros a. apply len_word.
  - intros a i Hi. unfold simplex_word. rewrite nth_wordf by exact Hi. apply walsh_sq.
  - intros a b i _ _ Hi. unfold simplex_word. rewrite !nth_wordf by exact Hi. apply walsh_lxor_l.
Qed.
Print Assumptions C79_simplex.

(** soft decisions, K > 4: provided that the word [c0] found by the hard decisions is at least as likely as the zero word and as [c], and no value is zero
    where [c] is one.  Without it the answer may depend on the codeword (C79_soft_search_depends_on_the_codeword): the metrics of the candidates are compared
    with -1 and -2. *)
Theorem C79_short_bch_soft_search : forall n k g t par err soft soft2 x c c0,
  sb_params n k g -> (1 <= t <= 3)%nat -> sb_par n k (Z.of_N g) = Ok par -> sb_err n k (Z.of_N g) t = Ok err ->
  (4 < k)%nat -> length soft = n -> Forall int8 soft -> Forall int8 soft2 -> codeword n g c -> signs_changed (bpsk n c) soft soft2 ->
  (forall i, (i < n)%nat -> N.testbit c (N.of_nat i) = true -> nth i soft 0 <> 0) ->
  hard_decision n soft x -> sb_hard n k par err (Z.of_N x) = Ok (Z.of_N c0) ->
  dot (bpsk n 0) soft <= dot (bpsk n c0) soft -> dot (bpsk n c) soft <= dot (bpsk n c0) soft ->
  exists r, sb_soft n k t par err soft = Ok r /\ sb_soft n k t par err soft2 = Ok (with_codeword r c).
Proof.
  intros n k g t par err soft soft2 x c c0 HP Ht HE HR Hk4 HL B1 B2 HC HT HZ HX E0 P1 P2. pose proof HT as (T1 & T2 & T3). rewrite HL in T1, T2, T3.
  rewrite (the_signs n soft x HL HX) in E0. pose proof (the_par _ _ _ _ HP HE) as HPar. pose proof (the_err _ _ _ _ _ HP Ht HR) as HErr. destruct HP as (Hk & Hn & Hp & HG).
  assert (HS : forall i, (i < n)%nat -> nth i soft2 0 = (if N.testbit c (N.of_nat i) then - nth i soft 0 else nth i soft 0)).
  { intros i Hi. rewrite (T3 i Hi). unfold bpsk. rewrite nth_wordf by exact Hi. destruct (N.testbit c _); lia. }
  assert (C0 : codeword n g 0%N) by (split; [apply pow2_nz|exists 0%N; reflexivity]).
  apply (soft_turn n k t g Hk Hn Hp HG Ht par err HPar HErr soft soft2 HL T2 B1 B2 c HC HS HZ c0 Hk4 E0).
  - rewrite !dot_bpsk in P1 by exact HL. assert (met n soft 0 = 0) by (apply met_0). lia.
  - rewrite (met_turn n k t Hk Hn Hp Ht soft soft2 HL T2 c HS HZ). assert (met n soft 0 = 0) by apply met_0. pose proof (met_turn n k t Hk Hn Hp Ht soft soft2 HL T2 c HS HZ c) as E. rewrite N.lxor_nilpotent in E. assert (met n soft2 0 = 0) by apply met_0.
    rewrite !dot_bpsk in P2 by exact HL. lia.
Qed.
Print Assumptions C79_short_bch_soft_search.

(** ** concrete cases: noise where the answer is wrong, and where it is -1 *)
Ltac changed := split; [reflexivity|]; split; [reflexivity|]; let i := fresh in let H := fresh in intros i H; cbn in H; do 20 (try destruct i as [|i]); try reflexivity; exfalso; lia.
Ltac in8 := repeat (constructor; try (unfold int8; lia)).
Example C79_short_bch_nonvacuous : exists par err, sb_params 15 5 1335 /\ sb_par 15 5 1335 = Ok par /\ sb_err 15 5 1335 3 = Ok err /\ codeword 15 1335 9174 /\
  (** four errors in the zero word: decoded to a wrong word, or refused *)
  sb_hard 15 5 par err 27 = Ok 17051 /\ sb_hard 15 5 par err (Z.lxor 27 9174) = Ok (Z.lxor 17051 9174) /\
  sb_hard 15 5 par err 15 = Ok (-1) /\ sb_hard 15 5 par err (Z.lxor 15 9174) = Ok (-1) /\
  (** the search finds a word other than that of the hard decisions *)
  let soft := [-7; 6; -8; -5; -7; 1; -8; 2; -8; -3; 2; -2; 5; 1; -4] in
  let soft2 := [-7; -6; 8; -5; 7; 1; 8; -2; 8; 3; 2; -2; 5; -1; -4] in
  Forall int8 soft /\ Forall int8 soft2 /\ signs_changed (bpsk 15 9174) soft soft2 /\ hard_decision 15 soft 19293 /\
  sb_hard 15 5 par err 19293 = Ok 3929 /\ dot (bpsk 15 0) soft <= dot (bpsk 15 3929) soft /\ dot (bpsk 15 9174) soft <= dot (bpsk 15 3929) soft /\
  sb_soft 15 5 3 par err soft = Ok 24909 /\ sb_soft 15 5 3 par err soft2 = Ok (with_codeword 24909 9174) /\ with_codeword 24909 9174 = 17051.
Proof.
  eexists. eexists. split; [exact (proj1 C29_nonvacuous)|]. split; [vm_compute; reflexivity|]. split; [vm_compute; reflexivity|]. split; [split; [reflexivity|exists 10%N; vm_compute; reflexivity]|].
  do 4 (split; [vm_compute; reflexivity|]). cbv zeta. split; [in8|]. split; [in8|]. split; [changed|].
  split. { split; [reflexivity|]. intros i H. do 15 (try destruct i as [|i]); try reflexivity; exfalso; lia. }
  split; [vm_compute; reflexivity|]. split; [vm_compute; discriminate|]. split; [vm_compute; discriminate|]. split; [vm_compute; reflexivity|]. split; vm_compute; reflexivity.
Qed.
(** the same noise and two codewords: one answer is -1, the other is not *)
Example C79_soft_search_depends_on_the_codeword : exists par err, sb_par 15 5 1335 = Ok par /\ sb_err 15 5 1335 3 = Ok err /\ codeword 15 1335 9174 /\
  let soft := [2; 5; -4; 5; 9; 2; 2; -5; 5; -3; 8; 6; 8; 1; -3] in
  let soft2 := [2; -5; 4; 5; -9; 2; -2; 5; -5; 3; 8; 6; 8; -1; -3] in
  signs_changed (bpsk 15 9174) soft soft2 /\ sb_soft 15 5 3 par err soft = Ok (-1) /\ sb_soft 15 5 3 par err soft2 = Ok 21360.
Proof.
  eexists. eexists. split; [vm_compute; reflexivity|]. split; [vm_compute; reflexivity|]. split; [split; [reflexivity|exists 10%N; vm_compute; reflexivity]|]. cbv zeta. split; [changed|]. split; vm_compute; reflexivity.
Qed.
Example C79_small_and_walsh_nonvacuous : exists par err, sb_par 7 4 11 = Ok par /\ sb_err 7 4 11 1 = Ok err /\ codeword 7 11 58 /\
  signs_changed (bpsk 7 58) [3; -4; 5; 9; -7; 1; -2] [3; 4; 5; -9; 7; -1; -2] /\
  sb_soft 7 4 1 par err [3; -4; 5; 9; -7; 1; -2] = Ok 83 /\ sb_soft 7 4 1 par err [3; 4; 5; -9; 7; -1; -2] = Ok (with_codeword 83 58) /\
  signs_changed (hadamard_word 4 11) [3; -4; 5; 8; -7; 1; -2; 9] [-3; -4; 5; -8; 7; 1; -2; -9] /\
  had_decode 4 [3; -4; 5; 8; -7; 1; -2; 9] = Ok 10 /\ had_decode 4 [-3; -4; 5; -8; 7; 1; -2; -9] = Ok (with_codeword 10 11) /\
  signs_changed (simplex_word 3 5) [3; -4; 5; 6; -7; 1; -2] [-3; -4; -5; -6; -7; -1; -2] /\
  spx_decode 3 [3; -4; 5; 6; -7; 1; -2] = Ok 3 /\ spx_decode 3 [-3; -4; -5; -6; -7; -1; -2] = Ok (with_codeword 3 5).
Proof.
  eexists. eexists. split; [vm_compute; reflexivity|]. split; [vm_compute; reflexivity|]. split; [split; [reflexivity|exists 6%N; vm_compute; reflexivity]|].
  split; [changed|]. split; [vm_compute; reflexivity|]. split; [vm_compute; reflexivity|]. split; [changed|]. split; [vm_compute; reflexivity|]. split; [vm_compute; reflexivity|]. split; [changed|]. split; vm_compute; reflexivity.
Qed.
