(** C68: the short BCH codes of the library's tests, and what the soft decision decoder guarantees beyond the hard one. *)
From Coq Require Import ZifyBool ZifyNat ZifyN.
From Verif Require Import Cpp Lib_list Model_sbch Spec_gf Spec_wht Spec_sbch Spec_chase Lib_gf2lin Lib_gf2poly Lib_gf Lib_wht Proof_sbch Proof_sbch2 Prop_sbch Proof_sbch3.
Ltac Zify.zify_post_hook ::= idtac.
Local Open Scope Z_scope.

(** The (N, K, G) of short_bch_code_regression_test.cc: two Golay codes, BCH(15, 5), BCH(31, 16); T = 3 for all. *)
Definition test_codes : list (nat * nat * N) :=
  [(23%nat, 12%nat, 0xAE3%N); (23%nat, 12%nat, 0xC75%N); (15%nat, 5%nat, 0x537%N); (31%nat, 16%nat, 0x8FAF%N)].

(** all sums of [acc] and multiples of [b] by a polynomial with [k] coefficients are 0 or have seven ones *)
Fixpoint heavy (k : nat) (b acc : N) : bool :=
  match k with
  | O => (acc =? 0)%N || (7 <=? ones acc)%nat
  | S k => heavy k (2 * b) acc && heavy k (2 * b) (N.lxor acc b)
  end.
Lemma heavy_ok k : forall b acc q, heavy k b acc = true -> (q < 2 ^ N.of_nat k)%N ->
  N.lxor acc (clmul q b) = 0%N \/ (7 <= ones (N.lxor acc (clmul q b)))%nat.
Proof.
  induction k as [|k IH]; intros b acc q H Hq; cbn [heavy] in H.
  - assert (q = 0%N) by (cbn in Hq; lia). subst q. rewrite clmul_0_l, N.lxor_0_r. apply orb_prop in H. lia.
  - apply andb_prop in H. destruct H as [H0 H1]. rewrite Nat2N.inj_succ, N.pow_succ_r' in Hq.
    rewrite (N.div2_odd q). set (q' := N.div2 q).
    assert (Hq' : (q' < 2 ^ N.of_nat k)%N). { pose proof (N.div2_odd q). unfold q'. destruct (N.odd q); cbn [N.b2n] in *; lia. }
    replace (2 * q' + N.b2n (N.odd q))%N with (N.lxor (2 * q') (N.b2n (N.odd q))).
    2: { destruct (N.odd q); cbn [N.b2n]; [|rewrite N.lxor_0_r, N.add_0_r; reflexivity]. destruct q'; reflexivity. }
    rewrite clmul_lxor_l, clmul_dbl_l, <- clmul_dbl_r. destruct (N.odd q); cbn [N.b2n].
    + rewrite clmul_1_l, (N.lxor_comm (clmul q' (2 * b))), <- N.lxor_assoc. apply IH; assumption.
    + rewrite clmul_0_l, N.lxor_0_r. apply IH; assumption.
Qed.
Lemma test_codes_heavy : forallb (fun '(n, k, g) => heavy k g 0) test_codes = true.
Proof. vm_compute. reflexivity. Qed.
Lemma test_codes_params n k g : In (n, k, g) test_codes -> sb_params n k g.
Proof.
  intros H. cbn [In test_codes] in H.
  destruct H as [H|[H|[H|[H|[]]]]]; injection H as <- <- <-; (split; [lia|]; split; [lia|]; split; [lia|]; split; vm_compute; congruence).
Qed.
Lemma quotient_lt n k g q : sb_params n k g -> (clmul q g < 2 ^ N.of_nat n)%N -> (q < 2 ^ N.of_nat k)%N.
Proof.
  intros (Hk & Hn & Hp & HG) L. destruct (N.eq_dec q 0) as [->|Q0]; [apply pow2_nz|].
  destruct HG as (G1 & G2).
  assert (G0 : g <> 0%N). { pose proof (pow2_nz (N.of_nat (n - k))). lia. }
  destruct (clmul_top q g Q0 G0) as (C0 & LC).
  assert (LG : N.log2 g = N.of_nat (n - k)). { apply N.log2_unique; lia. }
  assert (N.log2 (clmul q g) < N.of_nat n)%N. { apply N.log2_lt_pow2; lia. }
  apply N.log2_lt_pow2; lia.
Qed.

(** different codewords differ in at least seven bits *)
Theorem C68_test_codes_distance : forall n k g, In (n, k, g) test_codes -> sb_params n k g /\ min_distance n g 7.
Proof.
  intros n k g H. pose proof (test_codes_params n k g H) as HP. split; [exact HP|].
  intros a b Ha Hb Hne. unfold distance. pose proof (codeword_lxor n g a b Ha Hb) as (L & q & E).
  assert (Z0 : N.lxor a b <> 0%N) by (intros Q; apply Hne, N.lxor_eq; exact Q). rewrite E in *.
  pose proof (quotient_lt n k g q HP L) as Hq.
  pose proof (proj1 (forallb_forall _ _) test_codes_heavy (n, k, g) H) as W. cbv beta iota in W.
  destruct (heavy_ok k g 0 q W Hq) as [Q|Q]; rewrite N.lxor_0_l in Q; [contradiction|exact Q].
Qed.
Print Assumptions C68_test_codes_distance.

(** what short_bch_code_regression_test.cc samples: encode, flip up to three bits, decode *)
Theorem C68_test_codes_correct : forall n k g par err m e,
  In (n, k, g) test_codes -> sb_par n k (Z.of_N g) = Ok par -> sb_err n k (Z.of_N g) 3 = Ok err ->
  (m < 2 ^ N.of_nat k)%N -> (e < 2 ^ N.of_nat n)%N -> (ones e <= 3)%nat ->
  exists c, sb_encode n k par (Z.of_N m) = Ok (Z.of_N c) /\ N.shiftr c (N.of_nat (n - k)) = m /\
            sb_hard n k par err (Z.of_N (N.lxor c e)) = Ok (Z.of_N c).
Proof.
  intros n k g par err m e H HE HR Hm He Hones. destruct (C68_test_codes_distance n k g H) as (HP & HD).
  destruct (C29_encoder_systematic n k g par m HP HE Hm) as (c & Ec & Cc & Sc).
  exists c. split; [exact Ec|]. split; [exact Sc|].
  eapply (C30_corrects n k g 3); [exact HP|lia|exact HE|exact HR|exact HD|exact Cc| |].
  - apply lxor_lt; [apply Cc|exact He].
  - unfold distance. rewrite (N.lxor_comm c e), N.lxor_assoc, N.lxor_nilpotent, N.lxor_0_r. exact Hones.
Qed.
Print Assumptions C68_test_codes_correct.

(** The Golay codes are perfect: the decoder never gives up, whatever it is given. *)
Lemma golay_full : forallb (fun g => match sb_err 23 12 g 3 with
                                     | Ok (_ :: err) => forallb (fun x => 0 <? x) err
                                     | _ => false end) [0xAE3; 0xC75] = true.
Proof. vm_compute. reflexivity. Qed.
Theorem C68_golay_perfect : forall g par err x,
  g = 0xAE3%N \/ g = 0xC75%N -> sb_par 23 12 (Z.of_N g) = Ok par -> sb_err 23 12 (Z.of_N g) 3 = Ok err ->
  (x < 2 ^ 23)%N ->
  exists c, sb_hard 23 12 par err (Z.of_N x) = Ok (Z.of_N c) /\ codeword 23 g c /\ (distance x c <= 3)%nat /\
            forall c', codeword 23 g c' -> (distance x c' <= 3)%nat -> c' = c.
Proof.
  intros g par err x Hg HE HR Hx.
  assert (HI : In (23%nat, 12%nat, g) test_codes). { cbn [In test_codes]. destruct Hg as [-> | ->]; auto. }
  destruct (C68_test_codes_distance 23 12 g HI) as (HP & HD).
  destruct (C30_hard_decoder 23 12 g 3 par err x HP ltac:(lia) HE HR Hx) as (r & E & [(c & -> & HC & Hd)|(-> & _)]).
  - exists c. split; [exact E|]. split; [exact HC|]. split; [exact Hd|]. intros c' HC' Hd'.
    destruct (N.eq_dec c' c) as [Q|Q]; [exact Q|]. specialize (HD c' c HC' HC Q).
    pose proof (distance_triangle c' x c) as T. rewrite (distance_sym c' x) in T. lia.
  - exfalso. unfold sb_hard in E.
    destruct (rduZ' par _) as [p| | |]; try discriminate. cbn [bind] in E.
    set (syn := Z.land (Z.lxor p (Z.of_N x)) (2 ^ Z.of_nat (23 - 12) - 1)) in *.
    assert (Hsyn : 0 <= syn). { unfold syn. apply Z.land_nonneg. right. cbn. lia. }
    clearbody syn. unfold rdZ in E. destruct (Z.ltb_spec syn 0); [lia|].
    destruct (rd err (Z.to_nat syn)) as [pat| | |] eqn:Er; try discriminate. cbn [bind] in E.
    assert (F : match err with [] => False | _ :: l => forallb (fun x => 0 <? x) l = true end).
    { pose proof (proj1 (forallb_forall _ _) golay_full (Z.of_N g)) as F. cbv beta in F. rewrite HR in F.
      assert (I : In (Z.of_N g) [2787; 3189]) by (destruct Hg as [-> | ->]; cbn; auto). specialize (F I).
      destruct err; [discriminate|exact F]. }
    destruct err as [|e0 err]; [contradiction|].
    destruct (Z.eqb_spec syn 0) as [S0|S0].
    + rewrite orb_true_r in E. injection E as E.
      assert (P0 : pat = 0).
      { subst syn. cbn in Er. injection Er as <-.
        assert (Z0 : match sb_err 23 12 (Z.of_N g) 3 with Ok (x :: _) => x =? 0 | _ => false end = true) by (destruct Hg as [-> | ->]; vm_compute; reflexivity).
        rewrite HR in Z0. apply Z.eqb_eq. exact Z0. }
      subst pat. rewrite Z.lxor_0_r in E. lia.
    + assert (0 < pat).
      { replace (Z.to_nat syn) with (S (Z.to_nat (syn - 1))) in Er by lia. cbn in Er.
        rewrite forallb_forall in F. destruct (nth_error err (Z.to_nat (syn - 1))) as [y|] eqn:Ey; [|unfold rd in Er; cbn in Er; rewrite Ey in Er; discriminate].
        unfold rd in Er. cbn in Er. rewrite Ey in Er. injection Er as <-. apply nth_error_In in Ey. specialize (F y Ey). lia. }
      replace (pat =? 0) with false in E by lia. cbn [negb orb] in E. injection E as E.
      assert (0 <= Z.lxor (Z.of_N x) pat) by (apply Z.lxor_nonneg; lia). lia.
Qed.
Print Assumptions C68_golay_perfect.

(** Soft decisions, K > 4: the one most likely codeword is found whenever flipping some of the weak
    positions brings the hard decision within T bits of it.  Weak are the T positions with the smallest
    magnitudes, except those stronger than the first position. *)
Theorem C68_soft_decoder_flips : forall n k g t par err soft x c flips,
  sb_params n k g -> (1 <= t <= 3)%nat -> sb_par n k (Z.of_N g) = Ok par -> sb_err n k (Z.of_N g) t = Ok err ->
  (4 < k)%nat -> min_distance n g (2 * t + 1) ->
  length soft = n -> Forall int8 soft -> hard_decision n soft x -> best_codeword n g soft c ->
  (forall b, N.testbit flips b = true -> weak_position t soft (N.to_nat b)) ->
  (distance (N.lxor x flips) c <= t)%nat ->
  sb_soft n k t par err soft = Ok (Z.of_N c).
Proof.
  intros n k g t par err soft x c flips HP Ht HE HR Hk4 HD HL HB HX (HC & Hbest) HF Hd.
  pose proof (the_par _ _ _ _ HP HE) as HPar. pose proof (the_err _ _ _ _ _ HP Ht HR) as HErr.
  destruct HP as (Hk & Hn & Hp & HG). rewrite (the_signs n soft x HL HX) in Hd.
  eapply (soft_chase n k t g Hk Hn Hp HG Ht par err HPar HErr soft HL HB c flips); try assumption.
  intros c' HC' Hne. apply (dot_lt n soft c c' HL). apply Hbest; assumption.
Qed.
Print Assumptions C68_soft_decoder_flips.

(** A received word for the all zeros codeword with the hard decision wrong in six positions. *)
Definition ex_soft : list Z := [9; 50; 50; 50; 50; -1; -2; -3; 50; 50; -14; -15; -16; 50; 50; 50; 50; 50; 50; 50; 50; 50; 50].
(** The same with a first position that is weaker than all others: now five positions are wrong. *)
Definition ex_soft' : list Z := [1; 50; 50; 50; 50; -2; -3; 40; 50; 50; -14; -15; -16; 50; 50; 50; 50; 50; 50; 50; 50; 50; 50].

(** all multiples of [b] by a polynomial with [k] coefficients, plus [acc], satisfy [P] *)
Fixpoint sums (P : N -> bool) (k : nat) (b acc : N) : bool :=
  match k with O => P acc | S k => sums P k (2 * b) acc && sums P k (2 * b) (N.lxor acc b) end.
Lemma sums_ok P k : forall b acc q, sums P k b acc = true -> (q < 2 ^ N.of_nat k)%N -> P (N.lxor acc (clmul q b)) = true.
Proof.
  induction k as [|k IH]; intros b acc q H Hq; cbn [sums] in H.
  - assert (q = 0%N) by (cbn in Hq; lia). subst q. rewrite clmul_0_l, N.lxor_0_r. exact H.
  - apply andb_prop in H. destruct H as [H0 H1]. rewrite Nat2N.inj_succ, N.pow_succ_r' in Hq.
    rewrite (N.div2_odd q). set (q' := N.div2 q).
    assert (Hq' : (q' < 2 ^ N.of_nat k)%N). { pose proof (N.div2_odd q). unfold q'. destruct (N.odd q); cbn [N.b2n] in *; lia. }
    replace (2 * q' + N.b2n (N.odd q))%N with (N.lxor (2 * q') (N.b2n (N.odd q))).
    2: { destruct (N.odd q); cbn [N.b2n]; [|rewrite N.lxor_0_r, N.add_0_r; reflexivity]. destruct q'; reflexivity. }
    rewrite clmul_lxor_l, clmul_dbl_l, <- clmul_dbl_r. destruct (N.odd q); cbn [N.b2n].
    + rewrite clmul_1_l, (N.lxor_comm (clmul q' (2 * b))), <- N.lxor_assoc. apply IH; assumption.
    + rewrite clmul_0_l, N.lxor_0_r. apply IH; assumption.
Qed.
Lemma best_by_search n k g soft : sb_params n k g ->
  sums (fun c => (c =? 0)%N || (dot (bpsk n c) soft <? dot (bpsk n 0) soft)) k g 0 = true -> best_codeword n g soft 0.
Proof.
  intros HP H. split; [apply cwd_0|]. intros c' (L & q & E) Hne.
  rewrite E in L. pose proof (sums_ok _ k g 0 q H (quotient_lt n k g q HP L)) as Q. cbv beta in Q. rewrite N.lxor_0_l, <- E in Q.
  apply orb_prop in Q. lia.
Qed.
Lemma ex_weak p : In p [5; 6; 7]%nat -> weak_position 3 ex_soft p.
Proof.
  intros Hp. split; [cbn in *; lia|]. split; [cbn in Hp; destruct Hp as [<-|[<-|[<-|[]]]]; cbn; lia|].
  intros l ND Hl.
  assert (length l <= length (filter (fun q => (Z.abs (nth q ex_soft 0) <=? 2)%Z) (seq 0 23)))%nat.
  { apply NoDup_incl_length; [exact ND|]. intros q Hq. destruct (Hl q Hq) as (Q1 & Q2). apply filter_In. split; [apply in_seq; cbn in Q1; lia|].
    assert (W7 : Z.abs (nth p ex_soft 0) <= 3) by (cbn in Hp; destruct Hp as [<-|[<-|[<-|[]]]]; cbn; lia).
    unfold weaker in Q2. destruct Q2 as [Q2|(Q2 & Q3)]; [lia|].
    assert (forall a b : nat, (a < 23)%nat -> Z.abs (nth a ex_soft 0) = Z.abs (nth b ex_soft 0) -> In b [5; 6; 7]%nat -> a = b) as U.
    { clear. intros a b Ha E Hb.
      assert (C : forallb (fun a => forallb (fun b => negb (Z.abs (nth a ex_soft 0) =? Z.abs (nth b ex_soft 0)) || (a =? b)%nat) [5; 6; 7]%nat) (seq 0 23) = true) by (vm_compute; reflexivity).
      rewrite forallb_forall in C. specialize (C a ltac:(apply in_seq; lia)). rewrite forallb_forall in C. specialize (C b Hb). lia. }
    specialize (U q p ltac:(cbn in Q1; lia) Q2 Hp). lia. }
  revert H. vm_compute. lia.
Qed.
(** The hypotheses of the theorem are met with six wrong positions, three of them repaired by flipping. *)
Example C68_nonvacuous :
  sb_params 23 12 0xAE3 /\ min_distance 23 0xAE3 (2 * 3 + 1) /\ best_codeword 23 0xAE3 ex_soft 0 /\
  hard_decision 23 ex_soft 0x1CE0 /\ distance 0x1CE0 0 = 6%nat /\
  (forall b, N.testbit 0xE0 b = true -> weak_position 3 ex_soft (N.to_nat b)) /\
  (distance (N.lxor 0x1CE0 0xE0) 0 <= 3)%nat.
Proof.
  destruct (C68_test_codes_distance 23 12 0xAE3) as (HP & HD); [cbn; auto|].
  split; [exact HP|]. split; [exact HD|]. split; [apply (best_by_search 23 12); [exact HP|vm_compute; reflexivity]|].
  split; [|split; [vm_compute; reflexivity|split; [|vm_compute; lia]]].
  - split; [vm_compute; reflexivity|]. intros i Hi.
    assert (C : forallb (fun i => eqb (N.testbit 0x1CE0 (N.of_nat i)) (nth i ex_soft 0 <? 0)) (seq 0 23) = true) by (vm_compute; reflexivity).
    rewrite forallb_forall in C. apply eqb_prop. apply C. apply in_seq. lia.
  - intros b Hb. apply ex_weak. destruct b as [|b]; [discriminate|].
    assert (Npos b < 8)%N. { destruct (N.lt_ge_cases (Npos b) 8) as [Q|Q]; [exact Q|]. rewrite (tb_ge 0xE0 8) in Hb by (exact Q || reflexivity). discriminate. }
    assert (E : (Npos b = 1 \/ Npos b = 2 \/ Npos b = 3 \/ Npos b = 4 \/ Npos b = 5 \/ Npos b = 6 \/ Npos b = 7)%N) by lia.
    repeat (destruct E as [E|E]); rewrite E in Hb |- *; try discriminate Hb; cbn; auto.
Qed.

(** The condition on the first position is needed.  Here the three weakest positions are 0, 5 and 6, the all zeros
    codeword is the one most likely, flipping 5 and 6 brings the hard decision within three bits of it, and the
    decoder still returns something else: worst[] starts as zeros, and position 0 in it is never displaced by
    positions stronger than it. *)
Theorem C68_weak_first_position : exists par err r,
  sb_par 23 12 0xAE3 = Ok par /\ sb_err 23 12 0xAE3 3 = Ok err /\
  best_codeword 23 0xAE3 ex_soft' 0 /\
  (forall q, (q < 23)%nat -> ~ In q [0; 5; 6]%nat -> forall p, In p [0; 5; 6]%nat -> Z.abs (nth p ex_soft' 0) < Z.abs (nth q ex_soft' 0)) /\
  hard_decision 23 ex_soft' 0x1C60 /\ (distance (N.lxor 0x1C60 0x60) 0 <= 3)%nat /\
  sb_soft 23 12 3 par err ex_soft' = Ok r /\ r <> 0.
Proof.
  destruct (C68_test_codes_distance 23 12 0xAE3) as (HP & _); [cbn; auto|].
  destruct (C29_constructors 23 12 0xAE3 3 HP ltac:(lia)) as ((par & Ep) & (err & Ee)).
  assert (R : (par <- sb_par 23 12 0xAE3 ;; err <- sb_err 23 12 0xAE3 3 ;; sb_soft 23 12 3 par err ex_soft') = Ok 89184) by (vm_compute; reflexivity).
  change (Z.of_N 0xAE3) with 0xAE3 in *. rewrite Ep, Ee in R. cbn [bind] in R.
  exists par, err, 89184. split; [exact Ep|]. split; [exact Ee|].
  split; [apply (best_by_search 23 12); [exact HP|vm_compute; reflexivity]|].
  split; [|split; [|split; [vm_compute; lia|split; [exact R|discriminate]]]].
  - intros q Hq Hn p Hp.
    assert (C : forallb (fun q => existsb (Nat.eqb q) [0; 5; 6]%nat || forallb (fun p => Z.abs (nth p ex_soft' 0) <? Z.abs (nth q ex_soft' 0)) [0; 5; 6]%nat) (seq 0 23) = true) by (vm_compute; reflexivity).
    rewrite forallb_forall in C. specialize (C q ltac:(apply in_seq; lia)). apply orb_prop in C. destruct C as [C|C].
    + exfalso. apply Hn. apply existsb_exists in C. destruct C as (y & Iy & Ey). apply Nat.eqb_eq in Ey. subst y. exact Iy.
    + rewrite forallb_forall in C. specialize (C p Hp). lia.
  - split; [vm_compute; reflexivity|]. intros i Hi.
    assert (C : forallb (fun i => eqb (N.testbit 0x1C60 (N.of_nat i)) (nth i ex_soft' 0 <? 0)) (seq 0 23) = true) by (vm_compute; reflexivity).
    rewrite forallb_forall in C. apply eqb_prop. apply C. apply in_seq. lia.
Qed.
Print Assumptions C68_weak_first_position.
