(** Fermat's little theorem.  General mathematics, no model of code. *)
From Coq Require Import List ZArith NArith Lia Znumtheory Permutation ZifyNat ZifyN.
Import ListNotations.
Local Open Scope N_scope.

Lemma prime_mul_mod p a b : prime (Z.of_N p) -> (a * b) mod p = 0 -> a mod p = 0 \/ b mod p = 0.
Proof.
  intros Hp H. assert (P : 1 < p) by (destruct Hp; lia).
  assert (D : (Z.of_N p | Z.of_N a * Z.of_N b)%Z).
  { apply N.mod_divide in H; [|lia]. destruct H as (c & Hc). exists (Z.of_N c). lia. }
  apply prime_mult in D; [|exact Hp].
  destruct D as [(c & Hc)|(c & Hc)]; [left|right]; apply N.mod_divide; try lia;
    exists (Z.to_N c); assert (0 <= c)%Z by nia; nia.
Qed.

Definition pprod (p : N) (l : list N) : N := fold_right (fun x y => (x * y) mod p) (1 mod p) l.

Lemma pprod_perm p l l' : p <> 0 -> Permutation l l' -> pprod p l = pprod p l'.
Proof.
  intros Hp H. induction H; cbn [pprod fold_right]; auto.
  - fold (pprod p l) (pprod p l'). rewrite IHPermutation. reflexivity.
  - fold (pprod p l). rewrite !N.mul_mod_idemp_r by exact Hp. f_equal. lia.
  - congruence.
Qed.

Lemma pprod_scale p a l : p <> 0 ->
  pprod p (map (fun x => (a * x) mod p) l) = (a ^ N.of_nat (length l) * pprod p l) mod p.
Proof.
  intros Hp. induction l as [|x l IH].
  - cbn [map pprod fold_right length]. rewrite N.pow_0_r, N.mul_1_l, N.mod_mod by exact Hp. reflexivity.
  - cbn [map pprod fold_right length]. fold (pprod p (map (fun x => (a * x) mod p) l)) (pprod p l). rewrite IH.
    rewrite N.mul_mod_idemp_l, !N.mul_mod_idemp_r by exact Hp. f_equal.
    replace (N.of_nat (S (length l))) with (N.succ (N.of_nat (length l))) by lia.
    rewrite N.pow_succ_r'. lia.
Qed.

Lemma pprod_nonzero p l : prime (Z.of_N p) -> (forall x, In x l -> x mod p <> 0) -> pprod p l mod p <> 0.
Proof.
  intros Hp. assert (P : 1 < p) by (destruct Hp; lia).
  induction l as [|x l IH]; intros H; cbn [pprod fold_right].
  - rewrite !N.mod_small by (rewrite ?N.mod_small; lia). lia.
  - fold (pprod p l). rewrite N.mod_mod by lia. intros E. apply prime_mul_mod in E; [|exact Hp].
    destruct E as [E|E]; [apply (H x); [left; reflexivity|exact E]|].
    revert E. apply IH. intros y Hy. apply H. right. exact Hy.
Qed.

Lemma mod_sub_0 p a b : p <> 0 -> a <= b -> a mod p = b mod p -> (b - a) mod p = 0.
Proof.
  intros Hp L E. pose proof (N.div_mod a p Hp). pose proof (N.div_mod b p Hp).
  replace (b - a) with ((b / p - a / p) * p) by nia. apply N.mod_mul. exact Hp.
Qed.

Lemma prime_cancel p a x y : prime (Z.of_N p) -> a mod p <> 0 -> (a * x) mod p = (a * y) mod p -> x mod p = y mod p.
Proof.
  intros Hp Ha. assert (P : 1 < p) by (destruct Hp; lia).
  assert (G : forall x y, x <= y -> (a * x) mod p = (a * y) mod p -> x mod p = y mod p).
  { clear x y. intros x y L E. apply mod_sub_0 in E; [|lia|nia].
    rewrite <- N.mul_sub_distr_l in E. apply prime_mul_mod in E; [|exact Hp].
    destruct E as [E|E]; [contradiction|].
    apply N.mod_divide in E; [|lia]. destruct E as (c & Hc).
    replace y with (x + c * p) by lia. rewrite N.mod_add by lia. reflexivity. }
  intros E. destruct (N.le_ge_cases x y); [apply G; assumption|symmetry; apply G; [assumption|congruence]].
Qed.

Lemma fermat_N (p a : N) : prime (Z.of_N p) -> a ^ p mod p = a mod p.
Proof.
  intros Hp. assert (P : 1 < p) by (destruct Hp; lia).
  destruct (N.eq_dec (a mod p) 0) as [Z|Z].
  - rewrite Z. apply N.mod_divide in Z; [|lia]. destruct Z as (c & ->).
    replace p with (N.succ (p - 1)) at 2 by lia. rewrite N.pow_succ_r'.
    replace (c * p * (c * p) ^ (p - 1)) with (c * (c * p) ^ (p - 1) * p) by lia. apply N.mod_mul. lia.
  - set (L := map N.of_nat (seq 1 (N.to_nat p - 1))).
    assert (IL : forall x, In x L <-> 0 < x < p).
    { intros x. unfold L. rewrite in_map_iff. split.
      - intros (k & <- & Hk). apply in_seq in Hk. lia.
      - intros Hx. exists (N.to_nat x). split; [lia|]. apply in_seq. lia. }
    assert (LL : length L = (N.to_nat p - 1)%nat) by (unfold L; rewrite map_length, seq_length; reflexivity).
    assert (ND : NoDup L).
    { unfold L. apply FinFun.Injective_map_NoDup; [intros x y; lia|apply seq_NoDup]. }
    assert (PM : Permutation (map (fun x => (a * x) mod p) L) L).
    { apply NoDup_Permutation_bis.
      - clear LL. assert (SUB : forall x, In x L -> x < p) by (intros x Hx; apply IL in Hx; lia). clear IL.
        induction L as [|x L' IH]; [constructor|]. inversion ND; subst. cbn [map]. constructor.
        + intros Hin. apply in_map_iff in Hin. destruct Hin as (y & E & Hy).
          apply prime_cancel in E; [|exact Hp|exact Z].
          rewrite !N.mod_small in E by (apply SUB; cbn; auto). subst y. contradiction.
        + apply IH; [assumption|]. intros y Hy. apply SUB. right. exact Hy.
      - rewrite map_length. reflexivity.
      - intros y Hy. apply in_map_iff in Hy. destruct Hy as (x & <- & Hx). apply IL in Hx. apply IL.
        assert ((a * x) mod p <> 0).
        { intros E. apply prime_mul_mod in E; [|exact Hp]. destruct E as [E|E]; [contradiction|].
          rewrite N.mod_small in E by lia. lia. }
        pose proof (N.mod_lt (a * x) p ltac:(lia)). lia. }
    pose proof (pprod_perm p _ _ ltac:(lia) PM) as E. rewrite pprod_scale in E by lia.
    rewrite LL in E. replace (N.of_nat (N.to_nat p - 1)) with (p - 1) in E by lia.
    assert (E1 : (pprod p L * a ^ (p - 1)) mod p = (pprod p L * 1) mod p).
    { rewrite N.mul_comm, E, N.mul_1_r. rewrite <- E, N.mod_mod by lia. reflexivity. }
    apply prime_cancel in E1; [|exact Hp|].
    + replace p with (N.succ (p - 1)) at 1 by lia. rewrite N.pow_succ_r', N.mul_mod, E1 by lia.
      rewrite <- N.mul_mod, N.mul_1_r by lia. reflexivity.
    + apply pprod_nonzero; [exact Hp|]. intros x Hx. apply IL in Hx. rewrite N.mod_small by lia. lia.
Qed.
