(** Proofs about Model_rs: what the outcome of the decoder means. *)
From Coq Require Import ZifyBool ZifyNat ZifyN Field.
From Verif Require Import Cpp Lib_list Proof_bits Model_gf Model_rs Spec_gf Spec_rs Lib_gf2lin Lib_gf2poly Lib_gf Lib_field Lib_poly Lib_rs Proof_gf Prop_gf Proof_gffield Proof_crs1 Proof_crs2 Proof_rs1 Proof_rs2 Proof_rs3 Proof_rs4 Proof_rs5.
Local Open Scope N_scope.

Section S.
Variable G : gf.
Hypothesis OK : gf_ok G.
Notation M := (gf_M G).
Notation POLY := (gf_POLY G).
Notation Q := (2 ^ gf_M G).
Notation Q1 := (2 ^ gf_M G - 1).
Notation F := (gf_fld G OK).
Notation I := (inn G OK : N -> car F).
Notation pl := (pl G OK).
Notation al := (al G OK).
Notation Xp := (Xp G OK).
Notation sq := (sq G OK).
Notation smallq := (Forall (fun x => x < Q)).
Notation Rp p := (fpow al (S p)).
Notation gp := (gpow (gf_M G) (gf_POLY G)).
Notation gm := (gmul (gf_M G) (gf_POLY G)).
Add Field FFr6 : (fth (gf_fld G OK)).
Let c2 : forall x : car F, fadd x x = f0 := C2 G OK.
Let HM := ok_M G OK.
Let HP := ok_P G OK.

(** ** the specification in terms of the field *)
Lemma prod_I x a p : x < Q -> a < Q -> (is_product_mod M POLY x a p <-> p < Q /\ I p = fmul (I x) (I a)).
Proof.
  intros Hx Ha. split.
  - intros H. pose proof (product_mod_gmul M POLY HM HP x a p Ha H) as ->. split; [apply (gm_lt G OK); exact Ha|]. apply I_mul; assumption.
  - intros (Hp & E). rewrite <- I_mul in E by assumption. apply (I_inj G OK) in E; [|exact Hp|apply (gm_lt G OK); exact Ha]. rewrite E.
    apply gmul_product_mod; assumption.
Qed.
Lemma value_hor x l : x < Q -> smallq l -> forall acc v, acc < Q -> (value_at M POLY x acc l v <-> v < Q /\ I v = hor (I x) (I acc) (pl l)).
Proof.
  intros Hx HL. induction HL as [|c l Hc HL IH]; intros acc v Ha.
  - cbn. split; [intros ->; auto|]. intros (Hv & E). apply (I_inj G OK); assumption.
  - cbn [value_at Proof_rs1.pl map hor]. split.
    + intros (p & Hp & HV). apply prod_I in Hp; [|assumption..]. destruct Hp as (Hp & Ep). apply IH in HV; [|apply lxor_lt; assumption].
      rewrite I_xor, Ep in HV by assumption. exact HV.
    + intros (Hv & E). exists (gm x acc). split; [apply prod_I; [assumption..|]; split; [apply (gm_lt G OK); exact Ha|apply I_mul; assumption]|].
      assert (gm x acc < Q) by (apply (gm_lt G OK); exact Ha). apply IH; [apply lxor_lt; assumption|]. split; [exact Hv|]. rewrite I_xor, I_mul by assumption. exact E.
Qed.
Lemma power_I i r : is_power_of_x M POLY i r <-> r < Q /\ I r = fpow al i.
Proof.
  rewrite power_gpow by assumption. split.
  - intros ->. split; [apply (gpow_lt M POLY); assumption|]. apply I_gp.
  - intros (Hr & E). rewrite <- I_gp in E. apply (I_inj G OK) in E; [exact E|exact Hr|apply (gpow_lt M POLY); assumption].
Qed.
Lemma power_ex i : exists r, is_power_of_x M POLY i r /\ r < Q /\ I r = fpow al i.
Proof. exists (gp (N.of_nat i)). assert (H : is_power_of_x M POLY i (gp (N.of_nat i))) by (apply power_gpow; auto). split; [exact H|]. apply power_I. exact H. Qed.

Variables NR FCR : nat.
Notation rho := (rho G OK FCR).
Notation syn := (syn G OK FCR).
Lemma codeword_syn w : rs_codeword M POLY NR FCR w <-> smallq w /\ forall i, (i < NR)%nat -> syn w i = f0.
Proof.
  unfold rs_codeword. split; intros (HS & H); (split; [exact HS|]); intros i Hi.
  - destruct (H i Hi) as (r & Hr & HV). apply power_I in Hr. destruct Hr as (Hr & Er). apply value_hor in HV; [|assumption|assumption|apply Qpos; exact OK].
    destruct HV as (_ & E). unfold Proof_rs5.syn, Proof_rs2.rho. rewrite <- Er. symmetry. exact E.
  - destruct (power_ex (FCR + i)) as (r & Hr & Hq & Er). exists r. split; [exact Hr|]. apply value_hor; [assumption|assumption|apply Qpos; exact OK|].
    split; [apply Qpos; exact OK|]. specialize (H i Hi). unfold Proof_rs5.syn, Proof_rs2.rho in H. rewrite Er. symmetry. exact H.
Qed.
Lemma unlucky_I n a b : unlucky_pair M POLY n a b <->
  fmul (fpow al (n - 1 - a)) (fpow al (n - 1 - b)) = fmul (I Q1) (fmul (fadd (fpow al (n - 1 - a)) (fpow al (n - 1 - b))) (fadd (fpow al (n - 1 - a)) (fpow al (n - 1 - b)))).
Proof.
  assert (HQ1 : Q1 < Q) by (pose proof (Qpos G OK); lia). split.
  - intros (xa & xb & p & s & q & H1 & H2 & H3 & -> & H4 & H5). apply power_I in H1, H2. destruct H1 as (A1 & A2), H2 as (B1 & B2).
    apply prod_I in H3, H4; try assumption; try (apply lxor_lt; assumption). destruct H3 as (_ & H3), H4 as (Hq & H4). apply prod_I in H5; try assumption.
    destruct H5 as (_ & H5). rewrite H3, H4, I_xor, A2, B2 in H5 by assumption. exact H5.
  - intros E. destruct (power_ex (n - 1 - a)) as (xa & H1 & A1 & A2). destruct (power_ex (n - 1 - b)) as (xb & H2 & B1 & B2). rewrite <- A2, <- B2 in E.
    assert (A3 : gm xa xb < Q) by (apply (gm_lt G OK); assumption). assert (A4 : N.lxor xa xb < Q) by (apply lxor_lt; assumption).
    assert (A5 : gm (N.lxor xa xb) (N.lxor xa xb) < Q) by (apply (gm_lt G OK); assumption).
    exists xa, xb, (gm xa xb), (N.lxor xa xb), (gm (N.lxor xa xb) (N.lxor xa xb)). split; [exact H1|]. split; [exact H2|].
    split; [apply gmul_product_mod; assumption|]. split; [reflexivity|]. split; [apply gmul_product_mod; assumption|].
    apply prod_I; [assumption..|]. split; [exact A3|]. rewrite !I_mul, I_xor by assumption. exact E.
Qed.
(** no unlucky pair unless the equation y(y+1) = N has a solution *)
Lemma unlucky_solvable n a b : (a < n)%nat -> (b < n)%nat -> (n <= N.to_nat Q1)%nat -> a <> b -> unlucky_pair M POLY n a b -> solvable M POLY.
Proof.
  intros Ha Hb Hn Hab H. apply unlucky_I in H. set (xa := fpow al (n - 1 - a)) in *. set (xb := fpow al (n - 1 - b)) in *.
  assert (Na : xa <> f0) by apply fpow_neq, al_neq. assert (Nb : xb <> f0) by apply fpow_neq, al_neq.
  assert (Nab : fadd xa xb <> f0). { intros E. apply (add_0_eq F c2) in E. apply (al_inj G OK) in E; lia. }
  assert (Ey : exists y, y < Q /\ I y = fdiv xa (fadd xa xb)).
  { assert (D : fdiv xa (fadd xa xb) <> f0). { rewrite (Fdiv_def (fth F)). intros E. apply fmul_0 in E. destruct E as [E|E]; [contradiction|]. revert E. apply finv_neq. exact Nab. }
    destruct (al_ex G OK _ D) as (i & Hi & E). exists (gp (N.of_nat i)). split; [apply (gpow_lt M POLY); assumption|]. rewrite E. apply I_gp. }
  destruct Ey as (y & Hy & Ey). exists y. split; [exact Hy|]. assert (HQ1 : Q1 < Q) by (pose proof (Qpos G OK); lia).
  apply prod_I; [exact Hy|apply lxor_lt; [exact Hy|apply (Q1' G OK)]|]. split; [exact HQ1|].
  rewrite I_xor by (try assumption; apply (Q1' G OK)). change (I 1) with (@f1 F). rewrite Ey.
  set (u := fadd xa xb) in *. assert (E1 : fadd (fdiv xa u) f1 = fdiv xb u).
  { assert (E0 : forall p q : car F, q <> f0 -> fadd (fdiv p q) f1 = fdiv (fadd p q) q) by (intros; field; assumption). rewrite (E0 xa u Nab). f_equal. unfold u. assert (E2 : forall x y : car F, fadd x (fadd x y) = fadd (fadd x x) y) by (intros; ring). rewrite E2, c2. assert (E3 : forall x : car F, fadd f0 x = x) by (intros; ring). apply E3. }
  rewrite E1. assert (E0 : forall x y k q : car F, q <> f0 -> fmul x y = fmul k (fmul q q) -> k = fmul (fdiv x q) (fdiv y q)).
  { intros x z k q Hq E. transitivity (fdiv (fmul x z) (fmul q q)); [rewrite E|]; field; exact Hq. }
  apply E0; assumption.
Qed.
End S.
