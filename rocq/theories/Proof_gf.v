From Coq Require Import ZifyBool ZifyNat ZifyN Field.
From Verif Require Import Cpp Model_gf Spec_gf Lib_orbit Lib_gf2lin Lib_gf2poly Lib_gf Lib_field.
Local Open Scope N_scope.

(** ** the step *)
Lemma land_pow2 r k : negb (N.land r (2 ^ k) =? 0) = N.testbit r k.
Proof.
  destruct (N.testbit r k) eqn:T.
  - destruct (N.eqb_spec (N.land r (2 ^ k)) 0) as [E|E]; [|reflexivity].
    apply (f_equal (fun z => N.testbit z k)) in E. rewrite N.land_spec, T, N.pow2_bits_true, N.bits_0 in E. discriminate.
  - replace (N.land r (2 ^ k)) with 0; [reflexivity|]. symmetry. apply N.bits_inj. intros i.
    rewrite N.land_spec, N.pow2_bits_eqb, N.bits_0. destruct (N.eqb_spec k i) as [<-|]; [rewrite T; reflexivity|apply andb_false_r].
Qed.
Lemma wrap_lxor w a b : wrap w (N.lxor a b) = N.lxor (wrap w a) (wrap w b).
Proof. apply linear_mod. Qed.
Lemma wrap_wrap w a : wrap w (wrap w a) = wrap w a.
Proof. apply wrap_small, wrap_lt. Qed.
Lemma pow2_le a b : a <= b -> 2 ^ a <= 2 ^ b.
Proof. intros. apply N.pow_le_mono_r; lia. Qed.

Section Step.
Variables w M P : N.
Hypothesis HM : 1 <= M.
Hypothesis Hw : M <= w.
Hypothesis HP : has_degree P M.

Lemma half : wrap w (N.shiftr (2 ^ M) 1) = 2 ^ (M - 1).
Proof.
  rewrite N.shiftr_div_pow2, <- N.pow_sub_r by lia. apply wrap_small. apply N.pow_lt_mono_r; lia.
Qed.
Lemma step_common a : a < 2 ^ M ->
  (if N.testbit a (M - 1) then wrap w (N.lxor (N.shiftl a 1) (wrap w P)) else wrap w (N.shiftl a 1)) = mulx M P a.
Proof.
  intros Ha. pose proof (nx_lt M P HM HP a Ha) as L. rewrite nx_alt in *.
  assert (T : N.testbit (dbl a) M = N.testbit a (M - 1)).
  { rewrite dbl_shiftl, N.shiftl_spec_high' by lia. reflexivity. }
  rewrite T in *. rewrite dbl_shiftl in *. pose proof (pow2_le M w Hw).
  destruct (N.testbit a (M - 1)).
  - rewrite wrap_lxor, wrap_wrap, <- wrap_lxor. apply wrap_small. lia.
  - rewrite N.lxor_0_r in *. apply wrap_small. lia.
Qed.
Lemma gf_next_ok a : a < 2 ^ M -> gf_next w M P a = mulx M P a.
Proof. intros Ha. unfold gf_next. rewrite half, land_pow2. apply step_common. exact Ha. Qed.

(** ** the constructor *)
Notation Q1 := (2 ^ M - 1).
Notation gp := (gpow M P).
Definition J (i : nat) '((a, log, exp) : N * table * table) : Prop :=
  a = gp (N.of_nat i) /\ length log = N.to_nat (2 ^ M) /\ length exp = N.to_nat (2 ^ M) /\
  (forall k, (k < i)%nat -> nth k exp None = Some (gp (N.of_nat k))) /\
  nth (N.to_nat Q1) exp None = Some 0 /\
  (forall y, y < 2 ^ M ->
     (exists k, (k < i)%nat /\ gp (N.of_nat k) = y /\ nth (N.to_nat y) log None = Some (N.of_nat k)) \/
     ((forall k, (k < i)%nat -> gp (N.of_nat k) <> y) /\ nth (N.to_nat y) log None = if y =? 0 then Some Q1 else None)).
Definition bodyc := (fun (i : nat) '((a, log, exp) : N * table * table) =>
     exp <- wru exp i a ;;
     log <- wru log (N.to_nat a) (N.of_nat i) ;;
     assert_ ((i =? 0)%nat || negb (a =? 1)) ;;;
     Ok (gf_next w M P a, log, exp)).
Lemma Q1_lt : 0 < Q1 /\ Q1 < 2 ^ M.
Proof. pose proof (one_lt M HM). lia. Qed.
Lemma step_J i s : (i < N.to_nat Q1)%nat -> J i s ->
  exists s', J (S i) s' /\ bodyc i s = if (i =? 0)%nat || negb (gp (N.of_nat i) =? 1) then Ok s' else Abort.
Proof.
  destruct s as ((a & log) & exp). intros Hi (-> & Ll & Le & He & HN & Hl). pose proof Q1_lt.
  pose proof (gpow_lt M P HM HP (N.of_nat i)) as HG. unfold bodyc, wru.
  rewrite !wr_Ok by lia. cbn [bind]. rewrite gf_next_ok by exact HG. rewrite <- gpow_succ, <- Nat2N.inj_succ.
  eexists. split; [|unfold assert_; destruct (_ || _); reflexivity].
  split; [reflexivity|]. rewrite !length_upd. split; [exact Ll|]. split; [exact Le|]. split; [|split].
  - intros k Hk. rewrite nth_upd. destruct (Nat.eqb_spec i k) as [->|Nk]; cbn [andb].
    + destruct (Nat.ltb_spec k (length exp)); [reflexivity|lia].
    + apply He. lia.
  - rewrite nth_upd_neq by lia. exact HN.
  - intros y Hy. rewrite nth_upd. destruct (Nat.eqb_spec (N.to_nat (gp (N.of_nat i))) (N.to_nat y)) as [E|E]; cbn [andb].
    + left. exists i. split; [lia|]. split; [lia|]. destruct (Nat.ltb_spec (N.to_nat (gp (N.of_nat i))) (length log)); [reflexivity|lia].
    + destruct (Hl y Hy) as [(k & Hk & E1 & E2)|(E1 & E2)].
      * left. exists k. split; [lia|]. auto.
      * right. split; [|exact E2]. intros k Hk. destruct (Nat.eq_dec k i) as [->|]; [intros <-; apply E; reflexivity|apply E1; lia].
Qed.
Lemma init_J exp log : wru (uninit N (N.to_nat (2 ^ M))) (N.to_nat Q1) 0 = Ok exp ->
  wru (uninit N (N.to_nat (2 ^ M))) 0 Q1 = Ok log -> J 0 (1, log, exp).
Proof.
  pose proof Q1_lt. unfold wru, uninit. intros E1 E2. apply wr_inv in E1. destruct E1 as (L1 & ->). apply wr_inv in E2. destruct E2 as (L2 & ->).
  split; [reflexivity|]. rewrite !length_upd, !repeat_length. rewrite repeat_length in L1. split; [reflexivity|]. split; [reflexivity|].
  split; [intros k Hk; lia|]. split.
  - rewrite nth_upd_eq by (rewrite repeat_length; lia). reflexivity.
  - intros y Hy. right. split; [intros k Hk; lia|].
    assert (NR : forall n i (d : option N), nth i (repeat d n) d = d).
    { induction n as [|n IH]; intros [|i] d; cbn; auto. }
    rewrite nth_upd. destruct (N.eqb_spec y 0) as [->|Ny].
    + cbn [N.to_nat Nat.eqb andb]. destruct (Nat.ltb_spec 0 (length (repeat (@None N) (N.to_nat (2 ^ M))))); [reflexivity|lia].
    + destruct (Nat.eqb_spec 0 (N.to_nat y)); [lia|]. cbn [andb]. apply NR.
Qed.

Definition primitive : Prop := gp Q1 = 1 /\ forall k, 0 < k < Q1 -> gp k <> 1.
Definition tables_ok (log exp : table) : Prop :=
  (forall i, i < Q1 -> nth (N.to_nat i) exp None = Some (gp i)) /\
  (forall i, i < Q1 -> nth (N.to_nat (gp i)) log None = Some i) /\
  nth (N.to_nat Q1) exp None = Some 0 /\ nth 0 log None = Some Q1.

Lemma J_tables log exp a : primitive -> J (N.to_nat Q1) (a, log, exp) -> tables_ok log exp.
Proof.
  intros (Hper & Hmin) (_ & _ & _ & He & HN & Hl). pose proof Q1_lt. split; [|split; [|split]].
  - intros i Hi. rewrite He by lia. rewrite N2Nat.id. reflexivity.
  - intros i Hi. destruct (Hl (gp i) (gpow_lt M P HM HP i)) as [(k & Hk & E1 & E2)|(E1 & _)].
    + rewrite E2. apply (gpow_inj M P Hper Hmin) in E1; [|lia|exact Hi]. rewrite E1. reflexivity.
    + destruct (E1 (N.to_nat i)); [lia|]. rewrite N2Nat.id. reflexivity.
  - exact HN.
  - destruct (Hl 0) as [(k & _ & E & _)|(_ & E)]; [lia| |exact E].
    destruct (gpow_nz M P HM HP Hper Hmin (N.of_nat k) E).
Qed.
Lemma ctor_sound log exp : tables_ctor w M P None = Ok (log, exp) -> primitive /\ tables_ok log exp.
Proof.
  intros H. unfold tables_ctor in H. cbn [assert_ bind] in H.
  apply bind_Ok_inv in H. destruct H as (e0 & E0 & H). apply bind_Ok_inv in H. destruct H as (l0 & L0 & H).
  apply bind_Ok_inv in H. destruct H as (((a & l1) & e1) & E & H). fold bodyc in E.
  pose proof (init_J e0 l0 E0 L0) as J0. pose proof Q1_lt.
  assert (JF : J (N.to_nat Q1) (a, l1, e1) /\ forall k, (0 < k < N.to_nat Q1)%nat -> gp (N.of_nat k) <> 1).
  { apply (for_up_ok_inv (fun i s => J i s /\ forall k, (0 < k < i)%nat -> gp (N.of_nat k) <> 1) bodyc 0 (N.to_nat Q1) (1, l0, e0)); [lia| | |exact E].
    - intros j s s' Hj (Js & HK) Hb. destruct (step_J j s) as (s2 & J2 & E2); [lia|exact Js|]. rewrite Hb in E2.
      destruct (Nat.eqb_spec j 0) as [->|Nj]; cbn [orb] in E2.
      + injection E2 as <-. split; [exact J2|]. intros k Hk. lia.
      + destruct (N.eqb_spec (gp (N.of_nat j)) 1) as [|N1]; [discriminate|]. injection E2 as <-. split; [exact J2|].
        intros k Hk. destruct (Nat.eq_dec k j) as [->|]; [exact N1|apply HK; lia].
    - split; [exact J0|]. intros k Hk. lia. }
  destruct JF as (JF & HK).
  unfold assert_ in H. destruct (N.eqb_spec 1 a) as [<-|]; [|discriminate]. cbn [bind] in H. injection H as <- <-.
  assert (PR : primitive).
  { split.
    - destruct JF as (Ea & _). rewrite N2Nat.id in Ea. symmetry. exact Ea.
    - intros k Hk. specialize (HK (N.to_nat k)). rewrite N2Nat.id in HK. apply HK. lia. }
  split; [exact PR|]. exact (J_tables _ _ _ PR JF).
Qed.
Lemma ctor_complete : primitive -> exists log exp, tables_ctor w M P None = Ok (log, exp).
Proof.
  intros PR. pose proof Q1_lt. unfold tables_ctor. cbn [assert_ bind].
  destruct (wru (uninit N (N.to_nat (2 ^ M))) (N.to_nat Q1) 0) as [e0| | |] eqn:E0;
    try (unfold wru, wr, uninit in E0; rewrite repeat_length in E0; destruct (Nat.ltb_spec (N.to_nat Q1) (N.to_nat (2 ^ M))); [discriminate|lia]).
  destruct (wru (uninit N (N.to_nat (2 ^ M))) 0 Q1) as [l0| | |] eqn:L0;
    try (unfold wru, wr, uninit in L0; rewrite repeat_length in L0; destruct (Nat.ltb_spec 0 (N.to_nat (2 ^ M))); [discriminate|lia]).
  cbn [bind]. match goal with |- context [@bind ?A ?B ?e ?k] => change (@bind A B e k) with (@bind (N * table * table) B (for_up 0 (N.to_nat Q1) bodyc (1, l0, e0)) k) end.
  edestruct (for_up_inv J bodyc 0 (N.to_nat Q1) (1, l0, e0)) as (((a & l1) & e1) & E & JF).
  4: { rewrite E. cbn [bind]. destruct JF as (-> & _). rewrite N2Nat.id, (proj1 PR). cbn [N.eqb Pos.eqb assert_ bind]. eexists _, _. reflexivity. }
  - lia.
  - intros j s Hj Js. destruct (step_J j s) as (s2 & J2 & E2); [lia|exact Js|]. exists s2. split; [|exact J2]. rewrite E2.
    destruct (Nat.eqb_spec j 0) as [->|Nj]; cbn [orb]; [reflexivity|].
    destruct (N.eqb_spec (gp (N.of_nat j)) 1) as [E1|]; [|reflexivity]. destruct PR as (_ & Hmin). destruct (Hmin (N.of_nat j)); [lia|exact E1].
  - exact (init_J e0 l0 E0 L0).
Qed.
End Step.

(** ** an accepted field *)
Record gf_ok (G : gf) : Prop := {
  ok_M : 1 <= gf_M G;
  ok_w : gf_M G <= gf_w G;
  ok_P : has_degree (gf_POLY G) (gf_M G);
  ok_prim : primitive (gf_M G) (gf_POLY G);
  ok_T : exists log exp, gf_T G = Some (log, exp) /\ tables_ok (gf_M G) (gf_POLY G) log exp
}.
Lemma create_ok w M P G : 1 <= M -> M <= w -> has_degree P M -> gf_create w M P = Ok G ->
  gf_ok G /\ gf_w G = w /\ gf_M G = M /\ gf_POLY G = P.
Proof.
  intros HM Hw HP H. unfold gf_create in H. apply bind_Ok_inv in H. destruct H as ((log & exp) & E & H). injection H as <-.
  apply ctor_sound in E; [|assumption..]. destruct E as (PR & T).
  repeat split; cbn; try assumption; try apply PR; try (destruct HP; assumption).
  exists log, exp. auto.
Qed.

Section Ops.
Variable G : gf.
Hypothesis OK : gf_ok G.
Notation M := (gf_M G).
Notation P := (gf_POLY G).
Notation Q := (2 ^ gf_M G).
Notation Q1 := (2 ^ gf_M G - 1).
Notation gp := (gpow (gf_M G) (gf_POLY G)).
Notation gm := (gmul (gf_M G) (gf_POLY G)).
Let HM := ok_M G OK.
Let Hw := ok_w G OK.
Let HP := ok_P G OK.
Let PR := ok_prim G OK.

Lemma Q1p : 0 < Q1 /\ Q1 < Q. Proof. pose proof (one_lt M HM). lia. Qed.
Lemma okV_ok a : a < Q -> okV G a = Ok tt.
Proof. intros H. unfold okV, assert_, gf_N, gf_Q. destruct (N.leb_spec a Q1); [reflexivity|lia]. Qed.
Lemma okI_ok a : a < Q1 -> okI G a = Ok tt.
Proof. intros H. unfold okI, assert_, gf_N, gf_Q. destruct (N.ltb_spec a Q1); [reflexivity|lia]. Qed.
Lemma mkV_ok a : a < Q -> mkValue G a = Ok a.
Proof. intros H. unfold mkValue. fold (okV G a). rewrite okV_ok by exact H. reflexivity. Qed.
Lemma mkI_ok a : a < Q1 -> mkIndex G a = Ok a.
Proof. intros H. unfold mkIndex. fold (okI G a). rewrite okI_ok by exact H. reflexivity. Qed.
Lemma nz_true a : a <> 0 -> nz a = true.
Proof. intros H. unfold nz. destruct (N.eqb_spec a 0); [contradiction|reflexivity]. Qed.
Lemma gp_lt i : gp i < Q. Proof. apply gpow_lt; assumption. Qed.
Lemma gp_nz i : gp i <> 0. Proof. destruct PR. apply gpow_nz; assumption. Qed.
Lemma gp_inj i j : i < Q1 -> j < Q1 -> gp i = gp j -> i = j. Proof. destruct PR. apply gpow_inj; assumption. Qed.
Lemma gp_ex a : a <> 0 -> a < Q -> exists i, i < Q1 /\ gp i = a.
Proof. intros H1 H2. destruct PR. apply gpow_covers; try assumption. lia. Qed.
Lemma gp_add i j : gm (gp i) (gp j) = gp (i + j). Proof. symmetry. apply gpow_add; assumption. Qed.
Lemma gp_mod i : gp (i mod Q1) = gp i. Proof. destruct PR. apply gpow_mod; assumption. Qed.
Lemma gp_Q1 : gp Q1 = 1. Proof. apply PR. Qed.
Lemma gm_lt a b : b < Q -> gm a b < Q. Proof. apply gmul_lt; assumption. Qed.

Lemma value_ok i : i < Q1 -> gf_value G i = Ok (gp i).
Proof.
  intros Hi. pose proof Q1p. unfold gf_value. rewrite okI_ok by exact Hi. cbn [bind]. unfold gf_exp.
  destruct (ok_T G OK) as (log & exp & E & T). rewrite E. fold (okV G i). rewrite okV_ok by lia. cbn [bind].
  rewrite (rdu_nth exp (N.to_nat i) (gp i)) by (apply T; exact Hi). cbn [bind]. apply mkV_ok. apply gp_lt.
Qed.
Lemma index_ok i : i < Q1 -> gf_index G (gp i) = Ok i.
Proof.
  intros Hi. pose proof Q1p. pose proof (gp_lt i). unfold gf_index. rewrite okV_ok by assumption. cbn [bind].
  rewrite nz_true by apply gp_nz. cbn [assert_ bind]. unfold gf_log.
  destruct (ok_T G OK) as (log & exp & E & T). rewrite E. fold (okV G (gp i)). rewrite okV_ok by assumption. cbn [bind].
  destruct T as (_ & T & _). rewrite (rdu_nth log (N.to_nat (gp i)) i) by (apply T; exact Hi). cbn [bind]. apply mkI_ok. exact Hi.
Qed.
Lemma w_big : Q1 < 2 ^ gf_w G.
Proof. pose proof (pow2_le M (gf_w G) Hw). pose proof Q1p. lia. Qed.
Lemma i_mul_ok i j : i < Q1 -> j < Q1 -> i_mul G i j = Ok ((i + j) mod Q1).
Proof.
  intros Hi Hj. pose proof Q1p. unfold i_mul. rewrite !okI_ok by assumption. cbn [bind]. unfold gf_N, gf_Q.
  pose proof (pow2_le M (gf_w G) Hw) as PW. set (W := 2 ^ gf_w G) in *.
  assert (E : (if Q1 - i <=? j then wrap (gf_w G) (wrap (gf_w G) (i + j) + (W - Q1)) else wrap (gf_w G) (i + j)) = (i + j) mod Q1).
  { destruct (N.leb_spec (Q1 - i) j) as [L|L].
    - unfold wrap. fold W. rewrite N.add_mod_idemp_l by lia. replace (i + j + (W - Q1)) with ((i + j - Q1) + 1 * W) by lia.
      rewrite N.mod_add by lia. rewrite N.mod_small by lia.
      replace (i + j) with ((i + j - Q1) + 1 * Q1) at 2 by lia. rewrite N.mod_add by lia. rewrite N.mod_small by lia. reflexivity.
    - unfold wrap. fold W. rewrite !N.mod_small by lia. reflexivity. }
  rewrite E. apply mkI_ok. apply N.mod_lt. lia.
Qed.
Lemma i_div_ok i j : i < Q1 -> j < Q1 -> i_div G i j = Ok ((i + (Q1 - j)) mod Q1).
Proof.
  intros Hi Hj. pose proof Q1p. unfold i_div. rewrite !okI_ok by assumption. cbn [bind]. unfold gf_N, gf_Q.
  pose proof (pow2_le M (gf_w G) Hw) as PW. set (W := 2 ^ gf_w G) in *.
  assert (E : (if i <? j then wrap (gf_w G) (wrap (gf_w G) (i + (W - j)) + Q1) else wrap (gf_w G) (i + (W - j))) = (i + (Q1 - j)) mod Q1).
  { destruct (N.ltb_spec i j) as [L|L].
    - unfold wrap. fold W. rewrite N.add_mod_idemp_l by lia. replace (i + (W - j) + Q1) with ((i + Q1 - j) + 1 * W) by lia.
      rewrite N.mod_add by lia. rewrite !N.mod_small by lia. lia.
    - unfold wrap. fold W. replace (i + (W - j)) with ((i - j) + 1 * W) by lia. rewrite N.mod_add by lia.
      replace (i + (Q1 - j)) with ((i - j) + 1 * Q1) by lia. rewrite N.mod_add by lia. rewrite !N.mod_small by lia. reflexivity. }
  rewrite E. apply mkI_ok. apply N.mod_lt. lia.
Qed.
Lemma i_rcp_ok i : i < Q1 -> i_rcp G i = Ok ((Q1 - i) mod Q1).
Proof.
  intros Hi. pose proof Q1p. unfold i_rcp. rewrite okI_ok by assumption. cbn [bind]. unfold gf_N, gf_Q.
  destruct (N.eqb_spec i 0) as [->|N0].
  - rewrite N.sub_0_r, N.mod_same by lia. apply mkI_ok. lia.
  - rewrite N.mod_small by lia. apply mkI_ok. lia.
Qed.
Lemma v_add_ok a b : a < Q -> b < Q -> v_add G a b = Ok (N.lxor a b).
Proof. intros Ha Hb. unfold v_add. rewrite !okV_ok by assumption. cbn [bind]. apply mkV_ok. apply lxor_lt; assumption. Qed.
Lemma v_eq_ok a b : a < Q -> b < Q -> v_eq G a b = Ok (a =? b).
Proof. intros Ha Hb. unfold v_eq. rewrite !okV_ok by assumption. reflexivity. Qed.
Lemma v_neq_ok a b : a < Q -> b < Q -> v_neq G a b = Ok (negb (a =? b)).
Proof. intros Ha Hb. unfold v_neq. rewrite !okV_ok by assumption. reflexivity. Qed.

(** multiplicative inverse *)
Definition ginv (a : N) : N :=
  match gf_index G a with Ok i => gp (Q1 - i) | _ => 0 end.
Lemma ginv_gp i : i < Q1 -> ginv (gp i) = gp (Q1 - i).
Proof. intros Hi. unfold ginv. rewrite index_ok by exact Hi. reflexivity. Qed.
Lemma ginv_0 : ginv 0 = 0.
Proof. unfold ginv, gf_index. rewrite okV_ok by (pose proof Q1p; lia). reflexivity. Qed.
Lemma ginv_lt a : ginv a < Q.
Proof. unfold ginv. destruct (gf_index G a); try (pose proof Q1p; lia). apply gp_lt. Qed.
Lemma ginv_l a : a <> 0 -> a < Q -> gm (ginv a) a = 1.
Proof.
  intros Ha Hq. destruct (gp_ex a Ha Hq) as (i & Hi & <-). rewrite ginv_gp by exact Hi. rewrite gp_add.
  replace (Q1 - i + i) with Q1 by lia. apply gp_Q1.
Qed.

(** product of an index and a value *)
Ltac red_ops := repeat (first [rewrite okV_ok by assumption | rewrite okI_ok by assumption]; cbn [bind]).
Lemma iv_mul_ok i b : i < Q1 -> b < Q -> iv_mul G i b = Ok (gm (gp i) b).
Proof.
  intros Hi Hb. unfold iv_mul. red_ops. destruct (N.eq_dec b 0) as [->|Nb].
  - cbn [nz N.eqb negb]. rewrite gmul_0_r by assumption. apply mkV_ok. exact Hb.
  - rewrite (nz_true b Nb). cbn [negb]. destruct (gp_ex b Nb Hb) as (j & Hj & <-).
    rewrite index_ok by exact Hj. cbn [bind]. rewrite i_mul_ok by assumption. cbn [bind].
    pose proof Q1p. rewrite value_ok by (apply N.mod_lt; lia). rewrite gp_mod, gp_add. reflexivity.
Qed.
Lemma vi_mul_ok a j : a < Q -> j < Q1 -> vi_mul G a j = Ok (gm a (gp j)).
Proof.
  intros Hb Hi. unfold vi_mul. red_ops. destruct (N.eq_dec a 0) as [->|Nb].
  - cbn [nz N.eqb negb]. apply mkV_ok. exact Hb.
  - rewrite (nz_true a Nb). cbn [negb]. destruct (gp_ex a Nb Hb) as (i & Hj & <-).
    rewrite index_ok by exact Hj. cbn [bind]. rewrite i_mul_ok by assumption. cbn [bind].
    pose proof Q1p. rewrite value_ok by (apply N.mod_lt; lia). rewrite gp_mod, gp_add. reflexivity.
Qed.
Lemma v_mul_ok a b : a < Q -> b < Q -> v_mul G a b = Ok (gm a b).
Proof.
  intros Ha Hb. unfold v_mul. red_ops. destruct (N.eq_dec a 0) as [->|Na].
  { cbn [nz N.eqb negb orb]. apply mkV_ok. exact Ha. }
  rewrite (nz_true a Na). cbn [negb orb]. destruct (N.eq_dec b 0) as [->|Nb].
  { cbn [nz N.eqb negb]. rewrite gmul_0_r by assumption. apply mkV_ok. exact Hb. }
  rewrite (nz_true b Nb). cbn [negb]. destruct (gp_ex a Na Ha) as (i & Hi & <-). destruct (gp_ex b Nb Hb) as (j & Hj & <-).
  rewrite !index_ok by assumption. cbn [bind]. rewrite i_mul_ok by assumption. cbn [bind].
  pose proof Q1p. rewrite value_ok by (apply N.mod_lt; lia). rewrite gp_mod, gp_add. reflexivity.
Qed.
Lemma v_rcp_ok a : a <> 0 -> a < Q -> v_rcp G a = Ok (ginv a).
Proof.
  intros Na Ha. unfold v_rcp. red_ops. rewrite (nz_true a Na). cbn [assert_ bind].
  destruct (gp_ex a Na Ha) as (i & Hi & <-). rewrite index_ok by exact Hi. cbn [bind]. rewrite i_rcp_ok by exact Hi. cbn [bind].
  pose proof Q1p. rewrite value_ok by (apply N.mod_lt; lia). rewrite gp_mod, ginv_gp by exact Hi. reflexivity.
Qed.
Lemma gp_div i j : j < Q1 -> gp ((i + (Q1 - j)) mod Q1) = gm (gp i) (ginv (gp j)).
Proof. intros Hj. rewrite gp_mod, ginv_gp, gp_add by exact Hj. reflexivity. Qed.
Lemma v_div_ok a b : b <> 0 -> a < Q -> b < Q -> v_div G a b = Ok (gm a (ginv b)).
Proof.
  intros Nb Ha Hb. unfold v_div. red_ops. rewrite (nz_true b Nb). cbn [assert_ bind]. destruct (N.eq_dec a 0) as [->|Na].
  { cbn [nz N.eqb negb orb]. apply mkV_ok. exact Ha. }
  rewrite (nz_true a Na). cbn [negb]. destruct (gp_ex a Na Ha) as (i & Hi & <-). destruct (gp_ex b Nb Hb) as (j & Hj & <-).
  rewrite !index_ok by assumption. cbn [bind]. rewrite i_div_ok by assumption. cbn [bind].
  pose proof Q1p. rewrite value_ok by (apply N.mod_lt; lia). rewrite gp_div by exact Hj. reflexivity.
Qed.
Lemma iv_div_ok i b : b <> 0 -> i < Q1 -> b < Q -> iv_div G i b = Ok (gm (gp i) (ginv b)).
Proof.
  intros Nb Hi Hb. unfold iv_div. red_ops. rewrite (nz_true b Nb). cbn [assert_ bind]. destruct (gp_ex b Nb Hb) as (j & Hj & <-).
  rewrite !index_ok by assumption. cbn [bind]. rewrite i_div_ok by assumption. cbn [bind].
  pose proof Q1p. rewrite value_ok by (apply N.mod_lt; lia). rewrite gp_div by exact Hj. reflexivity.
Qed.
Lemma vi_div_ok a j : a < Q -> j < Q1 -> vi_div G a j = Ok (gm a (ginv (gp j))).
Proof.
  intros Ha Hj. unfold vi_div. red_ops. destruct (N.eq_dec a 0) as [->|Na].
  { cbn [nz N.eqb negb orb]. apply mkV_ok. exact Ha. }
  rewrite (nz_true a Na). cbn [negb]. destruct (gp_ex a Na Ha) as (i & Hi & <-).
  rewrite !index_ok by assumption. cbn [bind]. rewrite i_div_ok by assumption. cbn [bind].
  pose proof Q1p. rewrite value_ok by (apply N.mod_lt; lia). rewrite gp_div by exact Hj. reflexivity.
Qed.
Lemma fma_iiv_ok i j c : i < Q1 -> j < Q1 -> c < Q -> fma_iiv G i j c = Ok (N.lxor (gm (gp i) (gp j)) c).
Proof.
  intros Hi Hj Hc. unfold fma_iiv. red_ops. rewrite i_mul_ok by assumption. cbn [bind].
  pose proof Q1p. rewrite value_ok by (apply N.mod_lt; lia). cbn [bind]. rewrite gp_mod, v_add_ok by (auto; apply gp_lt).
  rewrite gp_add. reflexivity.
Qed.
Lemma fma_ivv_ok i b c : i < Q1 -> b < Q -> c < Q -> fma_ivv G i b c = Ok (N.lxor (gm (gp i) b) c).
Proof.
  intros Hi Hb Hc. unfold fma_ivv. red_ops. destruct (N.eq_dec b 0) as [->|Nb].
  { cbn [nz N.eqb negb]. rewrite gmul_0_r by assumption. reflexivity. }
  rewrite (nz_true b Nb). cbn [negb]. destruct (gp_ex b Nb Hb) as (j & Hj & <-). rewrite index_ok by exact Hj. cbn [bind].
  rewrite i_mul_ok by assumption. cbn [bind].
  pose proof Q1p. rewrite value_ok by (apply N.mod_lt; lia). cbn [bind]. rewrite gp_mod, v_add_ok by (auto; apply gp_lt).
  rewrite gp_add. reflexivity.
Qed.
Lemma fma_viv_ok a j c : a < Q -> j < Q1 -> c < Q -> fma_viv G a j c = Ok (N.lxor (gm a (gp j)) c).
Proof.
  intros Ha Hj Hc. unfold fma_viv. red_ops. destruct (N.eq_dec a 0) as [->|Na]; [reflexivity|].
  rewrite (nz_true a Na). cbn [negb]. destruct (gp_ex a Na Ha) as (i & Hi & <-). rewrite index_ok by exact Hi. cbn [bind].
  rewrite i_mul_ok by assumption. cbn [bind].
  pose proof Q1p. rewrite value_ok by (apply N.mod_lt; lia). cbn [bind]. rewrite gp_mod, v_add_ok by (auto; apply gp_lt).
  rewrite gp_add. reflexivity.
Qed.
Lemma fma_vvv_ok a b c : a < Q -> b < Q -> c < Q -> fma_vvv G a b c = Ok (N.lxor (gm a b) c).
Proof.
  intros Ha Hb Hc. unfold fma_vvv. red_ops. destruct (N.eq_dec a 0) as [->|Na]; [reflexivity|].
  rewrite (nz_true a Na). cbn [negb orb]. destruct (N.eq_dec b 0) as [->|Nb].
  { cbn [nz N.eqb negb]. rewrite gmul_0_r by assumption. reflexivity. }
  rewrite (nz_true b Nb). cbn [negb]. destruct (gp_ex a Na Ha) as (i & Hi & <-). destruct (gp_ex b Nb Hb) as (j & Hj & <-).
  rewrite !index_ok by assumption. cbn [bind]. rewrite i_mul_ok by assumption. cbn [bind].
  pose proof Q1p. rewrite value_ok by (apply N.mod_lt; lia). cbn [bind]. rewrite gp_mod, v_add_ok by (auto; apply gp_lt).
  rewrite gp_add. reflexivity.
Qed.
End Ops.
