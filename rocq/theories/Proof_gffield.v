(** The accepted table driven field as a field record. *)
From Coq Require Import ZifyBool ZifyNat ZifyN Eqdep_dec Field.
From Verif Require Import Cpp Model_gf Spec_gf Lib_orbit Lib_gf2lin Lib_gf2poly Lib_gf Lib_field Proof_gf.
Local Open Scope N_scope.

Section F.
Variable G : gf.
Hypothesis OK : gf_ok G.
Notation M := (gf_M G).
Notation P := (gf_POLY G).
Notation Q := (2 ^ gf_M G).
Notation gm := (gmul (gf_M G) (gf_POLY G)).
Let HM := ok_M G OK.
Let HP := ok_P G OK.

Definition gfT : Type := {x : N | (x <? Q) = true}.
Definition out (x : gfT) : N := proj1_sig x.
Lemma out_lt (x : gfT) : out x < Q.
Proof. destruct x as (x & H). cbn. apply N.ltb_lt. exact H. Qed.
Lemma out_inj (x y : gfT) : out x = out y -> x = y.
Proof.
  destruct x as (x & Hx), y as (y & Hy). cbn. intros <-. f_equal. apply UIP_dec, bool_dec.
Qed.
Lemma inn_pf x : (x mod Q <? Q) = true.
Proof. apply N.ltb_lt. apply N.mod_lt. apply N.pow_nonzero. lia. Qed.
Definition inn (x : N) : gfT := exist _ (x mod Q) (inn_pf x).
Lemma out_inn x : x < Q -> out (inn x) = x.
Proof. intros H. apply N.mod_small. exact H. Qed.
Lemma inn_out x : inn (out x) = x.
Proof. apply out_inj. apply out_inn. apply out_lt. Qed.

Definition gz : gfT := inn 0.
Definition go : gfT := inn 1.
Definition ga (x y : gfT) : gfT := inn (N.lxor (out x) (out y)).
Definition gmu (x y : gfT) : gfT := inn (gm (out x) (out y)).
Definition gn (x : gfT) : gfT := x.
Definition gi (x : gfT) : gfT := inn (ginv G (out x)).
Definition gd (x y : gfT) : gfT := gmu x (gi y).

Lemma Qpos : 0 < Q. Proof. apply N.neq_0_lt_0, N.pow_nonzero. lia. Qed.
Lemma Q1' : 1 < Q. Proof. apply one_lt. exact HM. Qed.
Lemma out_gz : out gz = 0. Proof. apply out_inn, Qpos. Qed.
Lemma out_go : out go = 1. Proof. apply out_inn, Q1'. Qed.
Lemma out_ga x y : out (ga x y) = N.lxor (out x) (out y).
Proof. apply out_inn. apply lxor_lt; apply out_lt. Qed.
Lemma out_gmu x y : out (gmu x y) = gm (out x) (out y).
Proof. apply out_inn. apply gmul_lt; [exact HM|exact HP|apply out_lt]. Qed.
Lemma out_gi x : out (gi x) = ginv G (out x).
Proof. apply out_inn. apply ginv_lt. exact OK. Qed.

Lemma gf_field_theory : field_theory gz go ga gmu ga gn gd gi eq.
Proof.
  constructor.
  - constructor; intros; apply out_inj; rewrite ?out_ga, ?out_gmu, ?out_gz, ?out_go.
    + apply N.lxor_0_l.
    + rewrite ?out_ga. apply N.lxor_comm.
    + rewrite ?out_ga. symmetry. apply N.lxor_assoc.
    + apply gmul_1_l.
    + apply gmul_comm; try assumption; apply out_lt.
    + rewrite ?out_gmu. symmetry. apply gmul_assoc; try assumption; apply out_lt.
    + rewrite ?out_ga, ?out_gmu. apply gmul_lxor_l; assumption.
    + reflexivity.
    + unfold gn. apply N.lxor_nilpotent.
  - intros E. apply (f_equal out) in E. rewrite out_gz, out_go in E. discriminate.
  - reflexivity.
  - intros x Hx. apply out_inj. rewrite out_gmu, out_gi, out_go. apply ginv_l; [exact OK| |apply out_lt].
    intros E. apply Hx. apply out_inj. rewrite out_gz. exact E.
Qed.
Lemma gf_dec (x y : gfT) : {x = y} + {x <> y}.
Proof.
  destruct (N.eq_dec (out x) (out y)) as [E|E]; [left; apply out_inj; exact E|right; intros ->; apply E; reflexivity].
Defined.
Definition gf_fld : fld :=
  {| car := gfT; f0 := gz; f1 := go; fadd := ga; fmul := gmu; fsub := ga; fopp := gn; fdiv := gd; finv := gi;
     fth := gf_field_theory; fdec := gf_dec |}.
End F.
