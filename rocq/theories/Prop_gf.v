(** Properties C20-C22: galois_field.hh. *)
From Coq Require Import ZifyBool ZifyNat ZifyN.
From Verif Require Import Cpp Model_gf Spec_gf Lib_orbit Lib_gf2lin Lib_gf2poly Lib_gf Lib_field Proof_gf Proof_gfref.
Local Open Scope N_scope.

Lemma power_gpow M P i r : 1 <= M -> has_degree P M -> (is_power_of_x M P i r <-> r = gpow M P (N.of_nat i)).
Proof.
  intros HM HP. revert r. induction i as [|i IH]; intros r; cbn [is_power_of_x]; [reflexivity|].
  rewrite Nat2N.inj_succ, gpow_succ. pose proof (gpow_lt M P HM HP (N.of_nat i)) as L. split.
  - intros (r' & H1 & H2). apply IH in H1. subst r'. apply (product_mod_gmul M P HM HP 2 _ r L H2).
  - intros ->. exists (gpow M P (N.of_nat i)). split; [apply IH; reflexivity|].
    apply (gmul_product_mod M P HM HP 2 _ L).
Qed.

(** C20 *)
Theorem C20_polynomial_arithmetic : forall w M POLY G,
  1 <= M -> M <= w -> has_degree POLY M -> gf_create w M POLY = Ok G ->
  forall a b, a < 2 ^ M -> b < 2 ^ M ->
    v_add G a b = Ok (N.lxor a b) /\ v_sub G a b = Ok (N.lxor a b) /\ N.lxor a b < 2 ^ M /\
    exists c, v_mul G a b = Ok c /\ is_product_mod M POLY a b c.
Proof.
  intros w M POLY G HM Hw HP HC a b Ha Hb. destruct (create_ok w M POLY G HM Hw HP HC) as (OK & _ & EM & EP). subst M POLY.
  split; [apply v_add_ok; assumption|]. split; [apply v_add_ok; assumption|]. split; [apply lxor_lt; assumption|].
  eexists. split; [apply v_mul_ok; assumption|]. apply gmul_product_mod; assumption.
Qed.
Print Assumptions C20_polynomial_arithmetic.
(** unary minus gives the additive inverse, and adding it is subtracting; comparison is comparison of representations *)
Theorem C20_negation : forall w M POLY G,
  1 <= M -> M <= w -> has_degree POLY M -> gf_create w M POLY = Ok G ->
  forall a b, a < 2 ^ M -> b < 2 ^ M ->
    (exists n, v_neg G b = Ok n /\ n < 2 ^ M /\ v_add G b n = Ok 0 /\ v_add G a n = v_sub G a b) /\
    v_eq G a b = Ok (a =? b) /\ v_neq G a b = Ok (negb (a =? b)).
Proof.
  intros w M POLY G HM Hw HP HC a b Ha Hb. destruct (create_ok w M POLY G HM Hw HP HC) as (OK & _ & EM & EP). subst M POLY.
  split.
  - exists b. split; [reflexivity|]. split; [exact Hb|]. split; [rewrite v_add_ok by assumption; rewrite N.lxor_nilpotent; reflexivity|reflexivity].
  - unfold v_eq, v_neq. assert (okV G a = Ok tt /\ okV G b = Ok tt) as (-> & ->).
    { split; apply okV_ok; assumption. }
    split; reflexivity.
Qed.
Print Assumptions C20_negation.

Theorem C20_field : forall w M POLY G,
  1 <= M -> M <= w -> has_degree POLY M -> gf_create w M POLY = Ok G ->
  exists add mul, (forall a b, a < 2 ^ M -> b < 2 ^ M -> v_add G a b = Ok (add a b) /\ v_mul G a b = Ok (mul a b)) /\
    field_axioms (2 ^ M) add mul 0 1.
Proof.
  intros w M POLY G HM Hw HP HC. destruct (create_ok w M POLY G HM Hw HP HC) as (OK & _ & EM & EP). subst M POLY.
  exists N.lxor, (gmul (gf_M G) (gf_POLY G)). split; [intros; split; [apply v_add_ok|apply v_mul_ok]; assumption|].
  pose proof (one_lt _ HM). unfold field_axioms.
  split; [lia|]. split; [lia|]. split; [discriminate|].
  split; [intros; split; [apply lxor_lt; assumption|apply gmul_lt; assumption]|].
  split; [intros; split; [apply N.lxor_comm|apply gmul_comm; assumption]|].
  split; [intros; split; [apply N.lxor_assoc|split; [apply gmul_assoc; assumption|apply gmul_lxor_l; assumption]]|].
  split; [intros; split; [apply N.lxor_0_l|apply gmul_1_l]|].
  split; [intros a Ha; exists a; split; [exact Ha|apply N.lxor_nilpotent]|].
  intros a Ha Na. exists (ginv G a). split; [apply ginv_lt; exact OK|apply ginv_l; assumption].
Qed.
Print Assumptions C20_field.

(** every non-zero value is a power of x (the value 2), and the power tables know which *)
Theorem C20_two_generates : forall w M POLY G,
  1 <= M -> M <= w -> has_degree POLY M -> gf_create w M POLY = Ok G ->
  forall y, 0 < y < 2 ^ M -> exists i, (N.of_nat i < 2 ^ M - 1) /\ is_power_of_x M POLY i y /\
    gf_index G y = Ok (N.of_nat i) /\ gf_value G (N.of_nat i) = Ok y.
Proof.
  intros w M POLY G HM Hw HP HC y Hy. destruct (create_ok w M POLY G HM Hw HP HC) as (OK & _ & EM & EP). subst M POLY.
  destruct (gp_ex G OK y ltac:(lia) ltac:(lia)) as (i & Hi & E). exists (N.to_nat i). rewrite N2Nat.id.
  split; [exact Hi|]. split; [apply power_gpow; try assumption; rewrite N2Nat.id; congruence|].
  rewrite <- E. split; [apply index_ok; assumption|apply value_ok; assumption].
Qed.
Print Assumptions C20_two_generates.

(** the assertions of the constructor hold exactly for the polynomials modulo which x has full order *)
Theorem C20_accepts_exactly_primitive : forall w M POLY,
  1 <= M -> M <= w -> has_degree POLY M ->
  ((exists G, gf_create w M POLY = Ok G) <->
   is_power_of_x M POLY (N.to_nat (2 ^ M - 1)) 1 /\
   forall k, (0 < k < N.to_nat (2 ^ M - 1))%nat -> ~ is_power_of_x M POLY k 1).
Proof.
  intros w M P HM Hw HP. split.
  - intros (G & HC). destruct (create_ok w M P G HM Hw HP HC) as (OK & _ & EM & EP). pose proof (ok_prim G OK) as (H1 & H2).
    rewrite EM, EP in *. split; [apply power_gpow; try assumption; rewrite N2Nat.id; congruence|].
    intros k Hk H. apply power_gpow in H; try assumption. apply (H2 (N.of_nat k)); [lia|congruence].
  - intros (H1 & H2). apply power_gpow in H1; try assumption. rewrite N2Nat.id in H1.
    destruct (ctor_complete w M P HM Hw HP) as (log & exp & E).
    + split; [congruence|]. intros k Hk E. apply (H2 (N.to_nat k)); [lia|]. apply power_gpow; try assumption.
      rewrite N2Nat.id. congruence.
    + eexists. unfold gf_create. rewrite E. reflexivity.
Qed.
Print Assumptions C20_accepts_exactly_primitive.

(** C21: [i], [j] are indices denoting the values [vi], [vj]; [a], [b], [c] are values. *)
Theorem C21_index_operators : forall w M POLY G,
  1 <= M -> M <= w -> has_degree POLY M -> gf_create w M POLY = Ok G ->
  forall i j, i < 2 ^ M - 1 -> j < 2 ^ M - 1 ->
  exists vi vj, gf_value G i = Ok vi /\ gf_value G j = Ok vj /\ gf_index G vi = Ok i /\
    (exists k v, i_mul G i j = Ok k /\ i_mul_assign G i j = Ok k /\ gf_value G k = Ok v /\ is_product_mod M POLY vi vj v) /\
    (exists k v, i_div G i j = Ok k /\ i_div_assign G i j = Ok k /\ gf_value G k = Ok v /\ is_quotient_mod M POLY vi vj v) /\
    (exists k v, i_rcp G i = Ok k /\ gf_value G k = Ok v /\ is_quotient_mod M POLY 1 vi v).
Proof.
  intros w M POLY G HM Hw HP HC i j Hi Hj. destruct (create_ok w M POLY G HM Hw HP HC) as (OK & _ & EM & EP). subst M POLY.
  pose proof (Q1p G OK) as HQ.
  exists (gpow (gf_M G) (gf_POLY G) i), (gpow (gf_M G) (gf_POLY G) j).
  split; [apply value_ok; assumption|]. split; [apply value_ok; assumption|]. split; [apply index_ok; assumption|].
  assert (ML : forall x, x mod (2 ^ gf_M G - 1) < 2 ^ gf_M G - 1) by (intros x; apply N.mod_lt; lia).
  split; [|split].
  - eexists _, _. split; [apply i_mul_ok; assumption|]. split; [unfold i_mul_assign; rewrite !okI_ok by assumption; apply i_mul_ok; assumption|].
    split; [apply value_ok; [exact OK|apply ML]|].
    rewrite gp_mod, <- gp_add by exact OK. apply gmul_product_mod; try assumption. apply gp_lt; exact OK.
  - eexists _, _. split; [apply i_div_ok; assumption|]. split; [unfold i_div_assign; rewrite !okI_ok by assumption; apply i_div_ok; assumption|].
    split; [apply value_ok; [exact OK|apply ML]|]. split; [apply gp_lt; exact OK|].
    rewrite gp_mod by exact OK.
    pose proof (gmul_product_mod (gf_M G) (gf_POLY G) HM HP (gpow (gf_M G) (gf_POLY G) (i + (2 ^ gf_M G - 1 - j))) (gpow (gf_M G) (gf_POLY G) j) (gp_lt G OK j)) as X.
    rewrite gp_add in X by exact OK. replace (i + (2 ^ gf_M G - 1 - j) + j) with (i + 1 * (2 ^ gf_M G - 1)) in X by lia.
    rewrite <- (gp_mod G OK (i + 1 * _)), N.mod_add in X by lia. rewrite gp_mod in X by exact OK. exact X.
  - eexists _, _. split; [apply i_rcp_ok; assumption|]. split; [apply value_ok; [exact OK|apply ML]|]. split; [apply gp_lt; exact OK|].
    rewrite gp_mod by exact OK.
    pose proof (gmul_product_mod (gf_M G) (gf_POLY G) HM HP (gpow (gf_M G) (gf_POLY G) (2 ^ gf_M G - 1 - i)) (gpow (gf_M G) (gf_POLY G) i) (gp_lt G OK i)) as X.
    rewrite gp_add in X by exact OK. replace (2 ^ gf_M G - 1 - i + i) with (2 ^ gf_M G - 1) in X by lia.
    rewrite gp_Q1 in X by exact OK. exact X.
Qed.
Print Assumptions C21_index_operators.

Theorem C21_value_and_mixed_operators : forall w M POLY G,
  1 <= M -> M <= w -> has_degree POLY M -> gf_create w M POLY = Ok G ->
  forall i vi a b, i < 2 ^ M - 1 -> gf_value G i = Ok vi -> a < 2 ^ M -> b < 2 ^ M ->
    (exists v, iv_mul G i b = Ok v /\ is_product_mod M POLY vi b v) /\
    (exists v, vi_mul G a i = Ok v /\ v_mul_assign_i G a i = Ok v /\ is_product_mod M POLY a vi v) /\
    (exists v, v_mul G a b = Ok v /\ v_mul_assign_v G a b = Ok v /\ is_product_mod M POLY a b v) /\
    (exists v, vi_div G a i = Ok v /\ is_quotient_mod M POLY a vi v) /\
    (b <> 0 -> (exists v, v_div G a b = Ok v /\ is_quotient_mod M POLY a b v) /\
               (exists v, iv_div G i b = Ok v /\ is_quotient_mod M POLY vi b v) /\
               (exists v, v_rcp G b = Ok v /\ is_quotient_mod M POLY 1 b v)) /\
    v_div G a 0 = Abort /\ iv_div G i 0 = Abort /\ v_rcp G 0 = Abort /\ gf_index G 0 = Abort.
Proof.
  intros w M POLY G HM Hw HP HC i vi a b Hi Hvi Ha Hb. destruct (create_ok w M POLY G HM Hw HP HC) as (OK & _ & EM & EP). subst M POLY.
  rewrite value_ok in Hvi by assumption. injection Hvi as <-. pose proof (gp_lt G OK i) as Li.
  assert (QT : forall x y, x < 2 ^ gf_M G -> y <> 0 -> y < 2 ^ gf_M G -> is_quotient_mod (gf_M G) (gf_POLY G) x y (gmul (gf_M G) (gf_POLY G) x (ginv G y))).
  { intros x y Hx Ny Hy. pose proof (ginv_lt G OK y) as LI. split; [apply gmul_lt; assumption|].
    pose proof (gmul_product_mod (gf_M G) (gf_POLY G) HM HP (gmul (gf_M G) (gf_POLY G) x (ginv G y)) y Hy) as X.
    rewrite gmul_assoc, ginv_l, gmul_1_r in X by assumption. exact X. }
  split; [eexists; split; [apply iv_mul_ok; assumption|apply gmul_product_mod; assumption]|].
  split; [eexists; split; [apply vi_mul_ok; assumption|]; split; [unfold v_mul_assign_i; rewrite okI_ok by assumption; apply vi_mul_ok; assumption|apply gmul_product_mod; assumption]|].
  split; [eexists; split; [apply v_mul_ok; assumption|]; split; [unfold v_mul_assign_v; rewrite okV_ok by assumption; apply v_mul_ok; assumption|apply gmul_product_mod; assumption]|].
  split; [eexists; split; [apply vi_div_ok; assumption|apply QT; try assumption; apply gp_nz; exact OK]|].
  split.
  - intros Nb. split; [eexists; split; [apply v_div_ok; assumption|apply QT; assumption]|].
    split; [eexists; split; [apply iv_div_ok; assumption|apply QT; assumption]|].
    eexists. split; [apply v_rcp_ok; assumption|]. pose proof (one_lt _ HM) as L1. pose proof (QT 1 b L1 Nb Hb) as X. rewrite gmul_1_l in X. exact X.
  - assert (L0 : 0 < 2 ^ gf_M G) by lia. unfold v_div, iv_div, v_rcp, gf_index.
    rewrite !okV_ok, !okI_ok by assumption. cbn [bind]. rewrite ?okV_ok by assumption. repeat split.
Qed.
Print Assumptions C21_value_and_mixed_operators.

Theorem C21_fma : forall w M POLY G,
  1 <= M -> M <= w -> has_degree POLY M -> gf_create w M POLY = Ok G ->
  forall i vi j vj a b c, i < 2 ^ M - 1 -> j < 2 ^ M - 1 -> gf_value G i = Ok vi -> gf_value G j = Ok vj ->
    a < 2 ^ M -> b < 2 ^ M -> c < 2 ^ M ->
    (exists d, fma_iiv G i j c = Ok d /\ is_fma_mod M POLY vi vj c d) /\
    (exists d, fma_ivv G i b c = Ok d /\ is_fma_mod M POLY vi b c d) /\
    (exists d, fma_viv G a j c = Ok d /\ is_fma_mod M POLY a vj c d) /\
    (exists d, fma_vvv G a b c = Ok d /\ is_fma_mod M POLY a b c d).
Proof.
  intros w M POLY G HM Hw HP HC i vi j vj a b c Hi Hj Hvi Hvj Ha Hb Hc.
  destruct (create_ok w M POLY G HM Hw HP HC) as (OK & _ & EM & EP). subst M POLY.
  rewrite value_ok in Hvi, Hvj by assumption. injection Hvi as <-. injection Hvj as <-.
  pose proof (gp_lt G OK i) as Li. pose proof (gp_lt G OK j) as Lj.
  repeat split.
  - eexists; split; [apply fma_iiv_ok; assumption|]. eexists. split; [apply gmul_product_mod; assumption|reflexivity].
  - eexists; split; [apply fma_ivv_ok; assumption|]. eexists. split; [apply gmul_product_mod; assumption|reflexivity].
  - eexists; split; [apply fma_viv_ok; assumption|]. eexists. split; [apply gmul_product_mod; assumption|reflexivity].
  - eexists; split; [apply fma_vvv_ok; assumption|]. eexists. split; [apply gmul_product_mod; assumption|reflexivity].
Qed.
Print Assumptions C21_fma.

(** C22: for every irreducible polynomial, accepted by the tables or not; [fuel] bounds the rounds of the loop. *)
Theorem C22_reference_arithmetic : forall fuel w M POLY a b,
  1 <= M -> M <= w -> M <= 32 -> has_degree POLY M -> irreducible POLY -> (N.to_nat (2 * M) < fuel)%nat ->
  a < 2 ^ M -> b < 2 ^ M ->
  ref_add M a b = Ok (N.lxor a b) /\
  (exists c, ref_mul w M POLY a b = Ok c /\ is_product_mod M POLY a b c) /\
  (b <> 0 -> (exists c, ref_rcp fuel w M POLY b = Ok c /\ is_quotient_mod M POLY 1 b c) /\
             (exists c, ref_div fuel w M POLY a b = Ok c /\ is_quotient_mod M POLY a b c)).
Proof.
  intros fuel w M P a b HM Hw H32 HP HI Hf Ha Hb. split; [|split].
  - unfold ref_add, refmk, assert_. pose proof (lxor_lt a b M Ha Hb). destruct (N.leb_spec (N.lxor a b) (2 ^ M - 1)); [reflexivity|lia].
  - eexists. split; [apply ref_mul_ok; assumption|apply gmul_product_mod; assumption].
  - intros Nb. split.
    + destruct (ref_rcp_ok w M P HM Hw HP H32 HI fuel b Nb Hb Hf) as (c & E & Hc & G). exists c. split; [exact E|].
      split; [exact Hc|]. rewrite <- G. apply gmul_product_mod; assumption.
    + destruct (ref_div_ok w M P HM Hw HP H32 HI fuel a b Nb Ha Hb Hf) as (c & E & Hc & G). exists c. split; [exact E|].
      split; [exact Hc|]. rewrite <- G. apply gmul_product_mod; assumption.
Qed.
Print Assumptions C22_reference_arithmetic.

Theorem C22_reference_agrees_with_tables : forall fuel w w' M POLY G a b,
  1 <= M -> M <= w -> M <= w' -> M <= 32 -> has_degree POLY M -> gf_create w M POLY = Ok G -> (N.to_nat (2 * M) < fuel)%nat ->
  a < 2 ^ M -> b < 2 ^ M ->
  irreducible POLY /\
  ref_add M a b = v_add G a b /\ ref_mul w' M POLY a b = v_mul G a b /\
  (b <> 0 -> ref_rcp fuel w' M POLY b = v_rcp G b /\ ref_div fuel w' M POLY a b = v_div G a b).
Proof.
  intros fuel w w' M P G a b HM Hw Hw' H32 HP HC Hf Ha Hb.
  destruct (create_ok w M P G HM Hw HP HC) as (OK & _ & EM & EP). subst M P.
  pose proof (ok_prim G OK) as (H1 & H2).
  pose proof (primitive_irreducible (gf_M G) (gf_POLY G) HM HP H1 H2) as HI.
  split; [exact HI|]. split; [|split].
  - rewrite v_add_ok by assumption. unfold ref_add, refmk, assert_. pose proof (lxor_lt a b _ Ha Hb).
    destruct (N.leb_spec (N.lxor a b) (2 ^ gf_M G - 1)); [reflexivity|lia].
  - rewrite v_mul_ok, ref_mul_ok by assumption. reflexivity.
  - intros Nb. pose proof (ginv_lt G OK b) as LI.
    assert (CA : forall c d, c < 2 ^ gf_M G -> d < 2 ^ gf_M G -> gmul (gf_M G) (gf_POLY G) c b = gmul (gf_M G) (gf_POLY G) d b -> c = d).
    { intros c d Hc Hd E. apply (f_equal (fun x => gmul (gf_M G) (gf_POLY G) x (ginv G b))) in E.
      rewrite !gmul_assoc, (gmul_comm _ _ HM HP b), ginv_l, !gmul_1_r in E by assumption. exact E. }
    destruct (ref_rcp_ok w' _ _ HM Hw' HP H32 HI fuel b Nb Hb Hf) as (c & E & Hc & Gc).
    destruct (ref_div_ok w' _ _ HM Hw' HP H32 HI fuel a b Nb Ha Hb Hf) as (d & E' & Hd & Gd).
    rewrite E, E', v_rcp_ok, v_div_ok by assumption. split; f_equal.
    + apply CA; try assumption. rewrite Gc. symmetry. apply ginv_l; assumption.
    + apply CA; try assumption; [apply gmul_lt; assumption|]. rewrite Gd, gmul_assoc, ginv_l, gmul_1_r by assumption. reflexivity.
Qed.
Print Assumptions C22_reference_agrees_with_tables.

(** x^4+x+1 with an 8 bit TYPE is accepted; 7*11 = 4, 1/7 = 6 there; x^4+x^3+x^2+x+1 is refused. *)
Example C20_nonvacuous : has_degree 19 4 /\
  (exists G, gf_create 8 4 19 = Ok G /\ v_mul G 7 11 = Ok 4 /\ v_rcp G 7 = Ok 6 /\ fma_vvv G 7 11 3 = Ok 7 /\ gf_index G 7 = Ok 10) /\
  gf_create 8 4 31 = Abort.
Proof. split; [split; vm_compute; congruence|]. split; [eexists; split; [vm_compute; reflexivity|]; repeat split|reflexivity]. Qed.
(** full width: the field of 2^4 elements in a 4 bit type wraps as uint8_t does for 2^8 *)
Example C22_nonvacuous : ref_mul 8 4 31 7 11 = Ok 15 /\ ref_rcp 9 8 4 31 7 = Ok 9 /\ ref_rcp 9 4 4 19 7 = Ok 6.
Proof. vm_compute. auto. Qed.
