(** The integers modulo a prime as a field record. *)
From Coq Require Import ZifyBool ZifyNat ZifyN Eqdep_dec Field Znumtheory.
From Verif Require Import Cpp Lib_fermat Lib_prime Lib_field.
Local Open Scope N_scope.

Section G.
Variable F : fld.
Add Field GF0 : (fth F).
Lemma fadd_sub (x y : F) : x = fsub (fadd x y) y. Proof. ring. Qed.
Lemma fadd_0_sub (x y : F) : fsub (fadd x f0) y = fsub x y. Proof. ring. Qed.
End G.
Section F.
Variable P : N.
Hypothesis HP : prime (Z.of_N P).
Lemma P_pos : 1 < P. Proof. apply prime_pos, HP. Qed.
Definition zpT : Type := {x : N | (x <? P) = true}.
Definition zout (x : zpT) : N := proj1_sig x.
Lemma zout_lt (x : zpT) : zout x < P.
Proof. destruct x as (x & H). cbn. apply N.ltb_lt. exact H. Qed.
Lemma zout_inj (x y : zpT) : zout x = zout y -> x = y.
Proof. destruct x as (x & Hx), y as (y & Hy). cbn. intros <-. f_equal. apply UIP_dec, bool_dec. Qed.
Lemma zin_pf x : (x mod P <? P) = true.
Proof. apply N.ltb_lt. apply N.mod_lt. pose proof P_pos. lia. Qed.
Definition zin (x : N) : zpT := exist _ (x mod P) (zin_pf x).
Lemma zout_zin x : zout (zin x) = x mod P. Proof. reflexivity. Qed.
Lemma zin_mod x : zin (x mod P) = zin x.
Proof. apply zout_inj. rewrite !zout_zin. apply N.mod_mod. pose proof P_pos. lia. Qed.
Definition zadd x y := zin (zout x + zout y).
Definition zmul x y := zin (zout x * zout y).
Definition zopp x := zin (P - zout x).
Definition zsub x y := zadd x (zopp y).
Definition zinv x := zin (zout x ^ (P - 2)).
Definition zdiv x y := zmul x (zinv y).

Lemma zp_field_theory : field_theory (zin 0) (zin 1) zadd zmul zsub zopp zdiv zinv eq.
Proof.
  pose proof P_pos as H1. assert (N0 : P <> 0) by lia. constructor.
  - constructor; intros; apply zout_inj; unfold zadd, zmul, zopp, zsub; rewrite ?zout_zin.
    + rewrite N.mod_0_l, N.add_0_l by assumption. apply N.mod_small, zout_lt.
    + f_equal. lia.
    + rewrite N.add_mod_idemp_r, N.add_mod_idemp_l by assumption. f_equal. lia.
    + rewrite N.mul_mod_idemp_l, N.mul_1_l by assumption. apply N.mod_small, zout_lt.
    + f_equal. lia.
    + rewrite N.mul_mod_idemp_r, N.mul_mod_idemp_l by assumption. f_equal. lia.
    + rewrite N.mul_mod_idemp_l, N.add_mod_idemp_r, N.add_mod_idemp_l by assumption. f_equal. lia.
    + reflexivity.
    + rewrite N.add_mod_idemp_r by assumption. pose proof (zout_lt x). replace (zout x + (P - zout x)) with P by lia. rewrite N.mod_same, N.mod_0_l by assumption. reflexivity.
  - intros E. apply (f_equal zout) in E. rewrite !zout_zin, N.mod_0_l, N.mod_1_l in E by lia. discriminate.
  - reflexivity.
  - intros x Hx. apply zout_inj. unfold zmul, zinv. rewrite !zout_zin. rewrite N.mul_mod_idemp_l by assumption.
    replace (zout x ^ (P - 2) * zout x) with (zout x ^ (P - 1)).
    + rewrite fermat_1; [symmetry; apply N.mod_small; exact H1|exact HP|]. rewrite N.mod_small by apply zout_lt.
      intros E. apply Hx. apply zout_inj. rewrite E, zout_zin, N.mod_0_l by assumption. reflexivity.
    + replace (P - 1) with (N.succ (P - 2)) by lia. rewrite N.pow_succ_r'. lia.
Qed.
Lemma zp_dec (x y : zpT) : {x = y} + {x <> y}.
Proof. destruct (N.eq_dec (zout x) (zout y)) as [E|E]; [left; apply zout_inj; exact E|right; intros ->; apply E; reflexivity]. Defined.
Definition zp_fld : fld :=
  {| car := zpT; f0 := zin 0; f1 := zin 1; fadd := zadd; fmul := zmul; fsub := zsub; fopp := zopp; fdiv := zdiv; finv := zinv;
     fth := zp_field_theory; fdec := zp_dec |}.

(** reduction is a homomorphism *)
Notation I := (zin : N -> car zp_fld).
Lemma Z_add a b : I (a + b) = fadd (I a) (I b).
Proof. pose proof P_pos. apply zout_inj. cbn [zp_fld fadd]. unfold zadd. rewrite !zout_zin. rewrite N.add_mod_idemp_r, N.add_mod_idemp_l by lia. reflexivity. Qed.
Lemma Z_mul a b : I (a * b) = fmul (I a) (I b).
Proof. pose proof P_pos. apply zout_inj. cbn [zp_fld fmul]. unfold zmul. rewrite !zout_zin. rewrite N.mul_mod_idemp_r, N.mul_mod_idemp_l by lia. reflexivity. Qed.
Lemma Z_inj a b : a < P -> b < P -> I a = I b -> a = b.
Proof. intros Ha Hb E. apply (f_equal zout) in E. rewrite !zout_zin, !N.mod_small in E by assumption. exact E. Qed.
Lemma Z_0 a : I a = f0 -> a mod P = 0.
Proof. intros E. apply (f_equal zout) in E. cbn [zp_fld f0] in E. rewrite !zout_zin in E. rewrite E. apply N.mod_0_l. pose proof P_pos; lia. Qed.
Lemma Z_P : I P = f0.
Proof. apply zout_inj. cbn [zp_fld f0]. rewrite !zout_zin, N.mod_same, N.mod_0_l by (pose proof P_pos; lia). reflexivity. Qed.
Lemma Z_sub a b : b <= a -> I (a - b) = fsub (I a) (I b).
Proof. intros H. replace a with (a - b + b) at 2 by lia. rewrite Z_add. apply (fadd_sub zp_fld). Qed.
Lemma Z_sub' a b : b <= a + P -> I (a + P - b) = fsub (I a) (I b).
Proof. intros H. rewrite Z_sub by exact H. rewrite Z_add, Z_P. apply (fadd_0_sub zp_fld). Qed.
End F.
