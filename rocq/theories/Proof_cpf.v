(** Proofs about Model_cpf. *)
From Coq Require Import ZifyBool ZifyNat ZifyN Field Znumtheory.
From Verif Require Import Cpp Lib_list Model_pf Model_crs Model_cpf Lib_prime Lib_field Lib_poly Proof_pf Proof_pffield.
Local Open Scope N_scope.

(** ** a value that does not occur *)
Lemma unused_exists (l : list N) m : (length l < m)%nat -> exists u, u < N.of_nat m /\ ~ In u l.
Proof.
  intros H. destruct (existsb (fun u => negb (existsb (N.eqb u) l)) (map N.of_nat (seq 0 m))) eqn:E.
  - apply existsb_exists in E. destruct E as (u & Hu & E). apply in_map_iff in Hu. destruct Hu as (k & <- & Hk). apply in_seq in Hk. exists (N.of_nat k). split; [lia|].
    intros Hi. apply negb_true_iff in E. assert (existsb (N.eqb (N.of_nat k)) l = true); [|congruence]. apply existsb_exists. exists (N.of_nat k). split; [exact Hi|apply N.eqb_refl].
  - exfalso. assert (HI : incl (map N.of_nat (seq 0 m)) l).
    { intros u Hu. destruct (existsb (N.eqb u) l) eqn:E'.
      - apply existsb_exists in E'. destruct E' as (x & Hx & Ex). apply N.eqb_eq in Ex. subst. exact Hx.
      - assert (T : existsb (fun u => negb (existsb (N.eqb u) l)) (map N.of_nat (seq 0 m)) = true); [|congruence].
        apply existsb_exists. exists u. rewrite E'. auto. }
    apply NoDup_incl_length in HI; [rewrite map_length, seq_length in HI; lia|].
    apply FinFun.Injective_map_NoDup; [|apply seq_NoDup]. intros x y Exy. lia.
Qed.

(** ** products of few bounded factors *)
Fixpoint pr (f : nat -> N) (a s : nat) : N := match s with O => 1 | S s => pr f a s * f (a + s)%nat end.
Lemma mul3_le a b c x y z : a <= x -> b <= y -> c <= z -> a * b * c <= x * y * z.
Proof. intros. repeat apply N.mul_le_mono; assumption. Qed.
Lemma distinct3 P a b c : a <= P - 1 -> b <= P - 1 -> c <= P - 1 -> a <> b -> a <> c -> b <> c -> a * b * c <= (P - 1) * (P - 2) * (P - 3).
Proof.
  intros Ha Hb Hc N1 N2 N3.
  assert (G : forall x y z, x < y -> y < z -> z <= P - 1 -> z * y * x <= (P - 1) * (P - 2) * (P - 3)) by (intros; apply mul3_le; lia).
  destruct (N.lt_total a b) as [H|[H|H]], (N.lt_total b c) as [H'|[H'|H']], (N.lt_total a c) as [H''|[H''|H'']]; try lia.
  - specialize (G a b c). lia.
  - specialize (G a c b). lia.
  - specialize (G c a b). lia.
  - specialize (G b a c). lia.
  - specialize (G b c a). lia.
  - specialize (G c b a). lia.
Qed.
Lemma distinct2 P a b : 4 <= P -> a <= P - 1 -> b <= P - 1 -> a <> b -> a * b <= (P - 1) * (P - 2) * (P - 3).
Proof.
  intros HP Ha Hb N1. assert (a * b <= (P - 1) * (P - 2)).
  { destruct (N.lt_total a b) as [H|[H|H]]; [|lia|]; [rewrite (N.mul_comm a b)|]; apply N.mul_le_mono; lia. }
  nia.
Qed.
Lemma single1 P a : 4 <= P -> a <= P - 1 -> a <= (P - 1) * (P - 2) * (P - 3).
Proof. intros. assert (1 <= (P - 2) * (P - 3)) by nia. nia. Qed.
Lemma small3 P a b c : 4 <= P -> a <= P - 3 -> b <= P - 3 -> c <= P - 3 -> a * b * c <= (P - 1) * (P - 2) * (P - 3).
Proof. intros. apply mul3_le; lia. Qed.

Section S.
Variables w P : N.
Hypothesis HP : prime (Z.of_N P).
Hypothesis P5 : 5 <= P.
Hypothesis HS : (P - 1) * (P - 1) * (P - 2) * (P - 3) < 2 ^ w.
Let F := zp_fld P HP.
Notation I := (zin P HP : N -> car F).
Add Field FZ : (fth F).

Lemma six : (P - 1) * (P - 1) * 6 < 2 ^ w.
Proof. assert (6 <= (P - 2) * (P - 3)) by nia. nia. Qed.
Lemma HMul : (P - 1) * (P - 1) < 2 ^ w. Proof. pose proof six. lia. Qed.
Lemma HPw : P < 2 ^ w. Proof. pose proof six. nia. Qed.
Lemma pfof x : x < P -> cpf_pf w x = x.
Proof. intros H. unfold cpf_pf, wrap. apply N.mod_small. pose proof HPw. lia. Qed.
Lemma I_red x : I (pf_reduce P x) = I x.
Proof. apply zin_mod. Qed.
Lemma I_one : I 1 = f1. Proof. reflexivity. Qed.

Definition rv (v : N) (f : car F) : Prop := v < P /\ I v = f.
Lemma rv_red x : rv (pf_reduce P x) (I x).
Proof. split; [apply N.mod_lt; lia|apply I_red]. Qed.
Lemma rv_nz v f : rv v f -> f <> f0 -> v <> 0.
Proof. intros (_ & E) H ->. apply H. symmetry. exact E. Qed.
Lemma rv_times a b x y : rv a x -> rv b y -> rv (pf_times w P a b) (fmul x y).
Proof.
  intros (Ha & Ea) (Hb & Eb). rewrite pf_times_ok by (first [assumption|apply HMul|apply HPw]). split; [apply N.mod_lt; lia|]. rewrite zin_mod.
  rewrite <- Ea, <- Eb. apply Z_mul.
Qed.
Lemma inv_unique (r b : car F) : fmul r b = f1 -> r = finv b.
Proof.
  intros E. assert (b <> f0). { intros ->. apply (f1_neq_0 F). rewrite <- E. ring. }
  apply (fmul_cancel_l F b); [assumption|]. transitivity (fmul r b); [ring|]. rewrite E. field. assumption.
Qed.
Lemma rv_rcp b y : rv b y -> y <> f0 -> exists r, pf_rcp w P b = Ok r /\ rv r (finv y).
Proof.
  intros Hb Ny. pose proof (rv_nz _ _ Hb Ny) as Nb. destruct Hb as (Hb & Eb).
  destruct (pf_rcp_ok w P HP HPw HMul b Nb Hb) as (r & E & Hr & Hm). exists r. split; [exact E|]. split; [exact Hr|].
  apply inv_unique. rewrite <- Eb. change (fmul (I r) (I b) = f1). rewrite <- (Z_mul P HP). rewrite <- (zin_mod P HP), Hm. reflexivity.
Qed.
Lemma rv_over a b x y : rv a x -> rv b y -> y <> f0 -> exists q, pf_over w P a b = Ok q /\ rv q (fdiv x y).
Proof.
  intros (Ha & Ea) Hb Ny. pose proof (rv_nz _ _ Hb Ny) as Nb. destruct Hb as (Hb & Eb).
  destruct (pf_over_ok w P HP HPw HMul a b Nb Ha Hb) as (q & E & Hq & Hm). exists q. split; [exact E|]. split; [exact Hq|].
  apply (fmul_cancel_l F y); [exact Ny|]. transitivity x; [|field; exact Ny]. rewrite <- Ea, <- Eb, <- Hm. rewrite zin_mod.
  change (fmul (I b) (I q) = I (q * b)). rewrite <- (Z_mul P HP). f_equal. lia.
Qed.

(** ** the delayed reductions *)
Section Delay.
Variable n : nat.
Definition PB (f : nat -> N) : Prop := forall a s, (s <= 3)%nat -> (a + s <= n)%nat -> pr f a s <= (P - 1) * (P - 2) * (P - 3).
Lemma PB_small f : (forall k, (k < n)%nat -> f k <= P - 3) -> PB f.
Proof.
  intros H a s Hs Ha. destruct s as [|[|[|[|]]]]; cbn [pr]; rewrite ?N.mul_1_l; [| | | |lia].
  - apply single1; lia.
  - apply single1; [lia|]. specialize (H (a + 0)%nat). lia.
  - pose proof (H (a + 0)%nat ltac:(lia)). pose proof (H (a + 1)%nat ltac:(lia)). rewrite <- (N.mul_1_r (f (a + 0)%nat * _)). apply small3; lia.
  - pose proof (H (a + 0)%nat ltac:(lia)). pose proof (H (a + 1)%nat ltac:(lia)). pose proof (H (a + 2)%nat ltac:(lia)). apply small3; lia.
Qed.
Lemma PB_distinct f c : (forall k, (k < n)%nat -> f k <= P - 1) -> f c = 1 ->
  (forall k l, (k < n)%nat -> (l < n)%nat -> k <> c -> l <> c -> k <> l -> f k <> f l) -> PB f.
Proof.
  intros H HC HD a s Hs Ha. assert (P4 : 4 <= P) by lia. destruct s as [|[|[|[|]]]]; cbn [pr]; rewrite ?N.mul_1_l; [| | | |lia].
  - apply single1; lia.
  - apply single1; [lia|]. apply H. lia.
  - pose proof (H (a + 0)%nat ltac:(lia)). pose proof (H (a + 1)%nat ltac:(lia)).
    destruct (Nat.eq_dec (a + 0) c) as [->|N0]; [rewrite HC, N.mul_1_l; apply single1; lia|].
    destruct (Nat.eq_dec (a + 1) c) as [->|N1]; [rewrite HC, N.mul_1_r; apply single1; lia|].
    apply distinct2; try assumption. apply HD; lia.
  - pose proof (H (a + 0)%nat ltac:(lia)). pose proof (H (a + 1)%nat ltac:(lia)). pose proof (H (a + 2)%nat ltac:(lia)).
    destruct (Nat.eq_dec (a + 0) c) as [E0|N0]; [rewrite E0, HC, N.mul_1_l; apply distinct2; try assumption; apply HD; lia|].
    destruct (Nat.eq_dec (a + 1) c) as [E1|N1]; [rewrite E1, HC, N.mul_1_r; apply distinct2; try assumption; apply HD; lia|].
    destruct (Nat.eq_dec (a + 2) c) as [E2|N2]; [rewrite E2, HC, N.mul_1_r; apply distinct2; try assumption; apply HD; lia|].
    apply distinct3; try assumption; apply HD; lia.
Qed.
(** the accumulator after [k] rounds started with the field element [c] *)
Definition dpv (c : car F) (f : nat -> N) (k : nat) (v : N) : Prop :=
  (exists d0, d0 < P /\ v = d0 * pr f (k - k mod 3) (k mod 3)) /\ I v = fmul c (fprod k (fun m => I (f m))).
Lemma dpv_0 c f v : rv v c -> dpv c f 0 v.
Proof. intros (H & E). split; [exists v; split; [exact H|]; cbn [Nat.modulo Nat.divmod fst snd Nat.sub pr]; cbn; lia|]. cbn [fprod]. rewrite E. ring. Qed.
Lemma mod3_S k : (k mod 3 = 2 /\ S k mod 3 = 0)%nat \/ (k mod 3 < 2 /\ S k mod 3 = S (k mod 3))%nat.
Proof.
  pose proof (Nat.mod_upper_bound k 3 ltac:(lia)) as U. pose proof (Nat.div_mod k 3 ltac:(lia)) as D.
  destruct (Nat.eq_dec (k mod 3) 2) as [E|E]; [left|right]; (split; [lia|]).
  - symmetry. apply (Nat.mod_unique (S k) 3 (S (k / 3))); lia.
  - symmetry. apply (Nat.mod_unique (S k) 3 (k / 3)); lia.
Qed.
Lemma dpv_mul c f k v : PB f -> (k < n)%nat -> dpv c f k v -> v * f k < 2 ^ w /\ v * f k = pf_mul w v (f k) /\
  I (v * f k) = fmul c (fprod (S k) (fun m => I (f m))) /\ (exists d0, d0 < P /\ v * f k = d0 * pr f (k - k mod 3) (S (k mod 3))).
Proof.
  intros HB Hk ((d0 & Hd & Ev) & EI). pose proof (Nat.mod_upper_bound k 3 ltac:(lia)) as U. pose proof (Nat.mod_le k 3 ltac:(lia)) as U'.
  assert (E : v * f k = d0 * pr f (k - k mod 3) (S (k mod 3))).
  { cbn [pr]. replace (k - k mod 3 + k mod 3)%nat with k by lia. rewrite Ev. lia. }
  assert (B : v * f k < 2 ^ w).
  { rewrite E. specialize (HB (k - k mod 3)%nat (S (k mod 3)) ltac:(lia) ltac:(lia)).
    eapply N.le_lt_trans; [apply (N.mul_le_mono d0 (P - 1) _ _ ltac:(lia) HB)|]. lia. }
  split; [exact B|]. split; [unfold pf_mul, wrap; rewrite N.mod_small by exact B; reflexivity|]. split; [|exists d0; auto].
  cbn [fprod]. change (I (v * f k) = fmul c (fmul (fprod k (fun m => I (f m))) (I (f k)))). rewrite (Z_mul P HP). fold F. change (@fmul F (I v) (I (f k)) = fmul c (fmul (fprod k (fun m => I (f m))) (I (f k)))). rewrite EI. ring.
Qed.
(** a skipped factor *)
Lemma dpv_skip c f k v : PB f -> (k < n)%nat -> dpv c f k v -> f k = 1 -> v = pf_mul w v (f k).
Proof. intros HB Hk HD E. destruct (dpv_mul c f k v HB Hk HD) as (_ & <- & _). rewrite E. lia. Qed.
Lemma delay_step c c' f g k num den : PB f -> PB g -> (k < n)%nat -> dpv c f k num -> dpv c' g k den ->
  exists num' den', cpf_delay P (2 - k mod 3) (pf_mul w num (f k)) (pf_mul w den (g k)) = (num', den', (2 - S k mod 3)%nat) /\ dpv c f (S k) num' /\ dpv c' g (S k) den'.
Proof.
  intros Hf Hg Hk Df Dg. destruct (dpv_mul c f k num Hf Hk Df) as (B1 & <- & E1 & d1 & Hd1 & F1).
  destruct (dpv_mul c' g k den Hg Hk Dg) as (B2 & <- & E2 & d2 & Hd2 & F2). unfold cpf_delay.
  destruct (mod3_S k) as [(M1 & M2)|(M1 & M2)]; rewrite M2.
  - rewrite M1. cbn [Nat.sub Nat.eqb]. eexists _, _. split; [reflexivity|].
    assert (R : forall v, pf_reduce P v < P) by (intros; apply N.mod_lt; lia).
    split; (split; [eexists; split; [apply R|]; rewrite M2; cbn [pr]; rewrite N.mul_1_r; reflexivity|]); rewrite I_red; assumption.
  - destruct (Nat.eqb_spec (2 - k mod 3) 0) as [Z|_]; [lia|]. eexists _, _. split; [f_equal; lia|].
    split; (split; [|assumption]); rewrite M2; replace (S k - S (k mod 3))%nat with (k - k mod 3)%nat by lia; eauto.
Qed.
End Delay.

(** ** the matrices *)
Variable ids : list N.
Variable n : nat.
Hypothesis LI : length ids = n.
Hypothesis ND : NoDup ids.
Hypothesis RI : forall id, In id ids -> N.of_nat n <= id /\ id < P / 2.
Definition xr (k : nat) : car F := I (nth k ids 0).
Definition yc (j : nat) : car F := I (N.of_nat j).
Lemma halfP : 2 * (P / 2) <= P. Proof. pose proof (N.div_mod P 2). lia. Qed.
Lemma id_in k : (k < n)%nat -> N.of_nat n <= nth k ids 0 /\ nth k ids 0 < P / 2.
Proof. intros H. apply RI. apply nth_In. lia. Qed.
Lemma id_lt k : (k < n)%nat -> nth k ids 0 < P. Proof. intros H. pose proof (id_in k H). pose proof halfP. lia. Qed.
Lemma col_lt j : (j < n)%nat -> N.of_nat j < P.
Proof. intros H. pose proof (id_in j H). pose proof halfP. lia. Qed.
Lemma ids_inj i j : (i < n)%nat -> (j < n)%nat -> i <> j -> nth i ids 0 <> nth j ids 0.
Proof. intros Hi Hj Hn E. apply Hn. apply (proj1 (NoDup_nth ids 0) ND); [lia|lia|exact E]. Qed.
Lemma xr_inj i j : (i < n)%nat -> (j < n)%nat -> i <> j -> xr i <> xr j.
Proof. intros Hi Hj Hn E. apply Z_inj in E; [|apply id_lt; assumption..]. apply (ids_inj i j); assumption. Qed.
Lemma yc_inj i j : (i < n)%nat -> (j < n)%nat -> i <> j -> yc i <> yc j.
Proof. intros Hi Hj Hn E. apply Z_inj in E; [|apply col_lt; assumption..]. lia. Qed.
Lemma sum_lt i j : (i < n)%nat -> (j < n)%nat -> 0 < nth i ids 0 + N.of_nat j /\ nth i ids 0 + N.of_nat j <= P - 3.
Proof. intros Hi Hj. pose proof (id_in i Hi). pose proof (id_in j Hj). pose proof halfP. lia. Qed.
Lemma xy_neq i j : (i < n)%nat -> (j < n)%nat -> fadd (xr i) (yc j) <> f0.
Proof.
  intros Hi Hj E. unfold xr, yc in E. change (@fadd F) with (@fadd (zp_fld P HP)) in E. rewrite <- (Z_add P HP) in E. apply Z_0 in E.
  destruct (sum_lt i j Hi Hj). rewrite N.mod_small in E by lia. lia.
Qed.
Lemma rd_id k : (k < n)%nat -> rd ids k = Ok (nth k ids 0). Proof. intros H. apply rd_nth. lia. Qed.
Lemma padd_ok a b : a + b <= P - 3 -> pf_add w a b = a + b.
Proof. intros H. unfold pf_add, wrap. apply N.mod_small. pose proof HPw. lia. Qed.

Lemma rv_sum i j : (i < n)%nat -> (j < n)%nat -> rv (nth i ids 0 + N.of_nat j) (fadd (xr i) (yc j)).
Proof. intros Hi Hj. destruct (sum_lt i j Hi Hj). split; [lia|apply (Z_add P HP)]. Qed.

Lemma cauchy_ok k j : (k < n)%nat -> (j < n)%nat -> exists q, cpf_cauchy w P (N.to_nat (nth k ids 0)) j = Ok q /\ rv q (cauchy xr yc k j).
Proof.
  intros Hk Hj. unfold cpf_cauchy. rewrite N2Nat.id, !pfof by (first [apply id_lt|apply col_lt]; assumption).
  unfold pf_plus. destruct (sum_lt k j Hk Hj). rewrite padd_ok by assumption. unfold pf_reduce. rewrite N.mod_small by lia.
  apply rv_rcp; [apply rv_sum; assumption|apply xy_neq; assumption].
Qed.

Definition row_ok (i : nat) (st : cpf) : Prop :=
  exists num den, cp_num st = Some num /\ cp_den st = Some den /\
    rv num (fprod n (fun m => fadd (xr m) (yc i))) /\ rv den (fprod_but n i (fun m => fsub (yc i) (yc m))).

Lemma I_sub a b : a < P -> b < P -> I (pf_sub w P a b) = fsub (I a) (I b).
Proof.
  intros Ha Hb. rewrite (pf_sub_ok w P HPw HMul a b Ha Hb). destruct (N.ltb_spec a b).
  - apply (Z_sub' P HP). lia.
  - apply (Z_sub P HP). assumption.
Qed.
Lemma sub_range a b : a < P -> b < P -> pf_sub w P a b <= P - 1.
Proof. intros Ha Hb. rewrite (pf_sub_ok w P HPw HMul a b Ha Hb). destruct (N.ltb_spec a b); lia. Qed.
Lemma sub_inj a b c : a < P -> b < P -> c < P -> b <> c -> pf_sub w P a b <> pf_sub w P a c.
Proof. intros Ha Hb Hc Hn. rewrite !(pf_sub_ok w P HPw HMul) by assumption. destruct (N.ltb_spec a b), (N.ltb_spec a c); lia. Qed.

(** the factors of the four products *)
Definition fnum1 (i m : nat) : N := nth m ids 0 + N.of_nat i.
Definition fden1 (i m : nat) : N := if (m =? i)%nat then 1 else pf_sub w P (N.of_nat i) (N.of_nat m).
Definition fnum2 (k m : nat) : N := nth k ids 0 + N.of_nat m.
Definition fden2 (k m : nat) : N := if (m =? k)%nat then 1 else pf_sub w P (nth k ids 0) (nth m ids 0).
Lemma PB1 i : (i < n)%nat -> PB n (fnum1 i).
Proof. intros Hi. apply PB_small. intros k Hk. apply sum_lt; assumption. Qed.
Lemma PB2 k : (k < n)%nat -> PB n (fnum2 k).
Proof. intros Hi. apply PB_small. intros m Hm. apply sum_lt; assumption. Qed.
Lemma PB3 i : (i < n)%nat -> PB n (fden1 i).
Proof.
  intros Hi. apply (PB_distinct n _ i); unfold fden1.
  - intros k Hk. destruct (k =? i)%nat; [lia|]. apply sub_range; apply col_lt; assumption.
  - rewrite Nat.eqb_refl. reflexivity.
  - intros k l Hk Hl N1 N2 N3. apply Nat.eqb_neq in N1, N2. rewrite N1, N2. apply sub_inj; try (apply col_lt; assumption). lia.
Qed.
Lemma PB4 i : (i < n)%nat -> PB n (fden2 i).
Proof.
  intros Hi. apply (PB_distinct n _ i); unfold fden2.
  - intros k Hk. destruct (k =? i)%nat; [lia|]. apply sub_range; apply id_lt; assumption.
  - rewrite Nat.eqb_refl. reflexivity.
  - intros k l Hk Hl N1 N2 N3. apply Nat.eqb_neq in N1, N2. rewrite N1, N2. apply sub_inj; try (apply id_lt; assumption). apply ids_inj; assumption.
Qed.

Lemma inverse_ok i k st : (i < n)%nat -> (k < n)%nat -> (k <> 0%nat -> row_ok i st) ->
  exists q st', cpf_inverse w P ids i k n st = Ok (q, st') /\ rv q (cauchy_inv n xr yc i k) /\ row_ok i st' /\ cp_temp st' = cp_temp st.
Proof.
  intros Hi Hk Hst. unfold cpf_inverse. rewrite rd_id by exact Hk. cbn [bind]. cbv zeta. rewrite !(pfof (nth k ids 0)), !(pfof (N.of_nat i)), !(pfof 1) by (first [apply id_lt|apply col_lt|lia]; assumption).
  match goal with |- context [bind ?e _] => assert (ES : exists st', e = Ok st' /\ row_ok i st' /\ cp_temp st' = cp_temp st) end.
  { destruct (Nat.eqb_spec k 0) as [->|Nk]; [|exists st; auto].
    edestruct (for_up_inv (fun m '((num, den, r) : N * N * nat) => dpv f1 (fnum1 i) m num /\ dpv f1 (fden1 i) m den /\ r = (2 - m mod 3)%nat)) as (((num & den) & r) & E & R1 & R2 & _).
    4: { rewrite E. cbn [bind]. eexists. split; [reflexivity|]. split; [|reflexivity]. eexists _, _. split; [reflexivity|]. split; [reflexivity|].
         split; (split; [apply N.mod_lt; lia|]); rewrite I_red.
         - destruct R1 as (_ & ->). transitivity (fprod n (fun m => I (fnum1 i m))); [ring|]. apply fprod_ext. intros m Hm. apply (Z_add P HP).
         - destruct R2 as (_ & ->). transitivity (fprod n (fun m => I (fden1 i m))); [ring|]. apply fprod_ext. intros m Hm. unfold fden1.
           destruct (m =? i)%nat; [reflexivity|]. apply I_sub; apply col_lt; assumption. }
    - lia.
    - intros m ((num & den) & r) Hm (R1 & R2 & ->). cbv beta iota. rewrite rd_id by lia. cbn [bind]. cbv zeta. rewrite (pfof (nth m ids 0)), (pfof (N.of_nat m)) by (first [apply id_lt|apply col_lt]; lia).
      destruct (sum_lt m i ltac:(lia) Hi) as (_ & U). rewrite padd_ok by exact U.
      destruct (delay_step n f1 f1 (fnum1 i) (fden1 i) m num den (PB1 i Hi) (PB3 i Hi) ltac:(lia) R1 R2) as (num' & den' & E & R1' & R2').
      exists (num', den', (2 - S m mod 3)%nat). split; [|auto]. rewrite <- E. unfold fnum1 at 1. f_equal. f_equal.
      destruct (Nat.eqb_spec m i) as [Em|Em].
      + apply (dpv_skip n f1 (fden1 i) m den (PB3 i Hi) ltac:(lia) R2). unfold fden1. rewrite (proj2 (Nat.eqb_eq m i) Em). reflexivity.
      + unfold fden1. rewrite (proj2 (Nat.eqb_neq m i) Em). reflexivity.
    - split; [|split; [|reflexivity]]; apply dpv_0; try assumption; (split; [lia|reflexivity]). }
  destruct ES as (st' & -> & RS & ET). cbn [bind]. pose proof RS as (num0 & den0 & E1 & E2 & R1 & R2). rewrite E1, E2. cbn [get bind].
  set (c1 := fprod n (fun m => fadd (xr m) (yc i))) in *. set (c2 := fprod_but n i (fun m => fsub (yc i) (yc m))) in *.
  edestruct (for_up_inv (fun m '((num, den, r) : N * N * nat) => dpv c1 (fnum2 k) m num /\ dpv c2 (fden2 k) m den /\ r = (2 - m mod 3)%nat)) as (((num & den) & r) & E & S1 & S2 & _).
  4: { rewrite E. cbn [bind].
       assert (T1 : I num = fmul c1 (fprod n (fun m => fadd (xr k) (yc m)))).
       { destruct S1 as (_ & ->). f_equal. apply fprod_ext. intros m Hm. apply (Z_add P HP). }
       assert (T2 : I den = fmul c2 (fprod_but n k (fun m => fsub (xr k) (xr m)))).
       { destruct S2 as (_ & ->). f_equal. apply fprod_ext. intros m Hm. unfold fden2. destruct (m =? k)%nat; [reflexivity|]. apply I_sub; apply id_lt; assumption. }
       assert (R3 : rv (pf_times w P (pf_add w (nth k ids 0) (N.of_nat i)) (pf_reduce P den)) (fmul (fadd (xr k) (yc i)) (fmul c2 (fprod_but n k (fun m => fsub (xr k) (xr m)))))).
       { apply rv_times; [|rewrite <- T2; apply rv_red]. rewrite padd_ok by (apply sum_lt; assumption). apply rv_sum; assumption. }
       destruct (rv_over (pf_reduce P num) _ _ _ (rv_red num) R3) as (q & Eq & Rq).
       - repeat apply fmul_neq.
         + apply xy_neq; assumption.
         + apply fprod_but_neq. intros m Hm Hn Z. apply fsub_0 in Z. apply (yc_inj i m); try assumption. lia.
         + apply fprod_but_neq. intros m Hm Hn Z. apply fsub_0 in Z. apply (xr_inj k m); try assumption. lia.
       - rewrite Eq. cbn [bind]. eexists _, _. split; [reflexivity|]. split; [|auto]. rewrite T1 in Rq. exact Rq. }
  - lia.
  - intros m ((num & den) & r) Hm (S1 & S2 & ->). cbv beta iota. rewrite rd_id by lia. cbn [bind]. cbv zeta. rewrite (pfof (nth m ids 0)), (pfof (N.of_nat m)) by (first [apply id_lt|apply col_lt]; lia).
    destruct (sum_lt k m Hk ltac:(lia)) as (_ & U). rewrite padd_ok by exact U.
    destruct (delay_step n c1 c2 (fnum2 k) (fden2 k) m num den (PB2 k Hk) (PB4 k Hk) ltac:(lia) S1 S2) as (num' & den' & E & S1' & S2').
    exists (num', den', (2 - S m mod 3)%nat). split; [|auto]. rewrite <- E. unfold fnum2 at 1. f_equal. f_equal.
    destruct (Nat.eqb_spec m k) as [Em|Em].
    + apply (dpv_skip n c2 (fden2 k) m den (PB4 k Hk) ltac:(lia) S2). unfold fden2. rewrite (proj2 (Nat.eqb_eq m k) Em). reflexivity.
    + unfold fden2. rewrite (proj2 (Nat.eqb_neq m k) Em). reflexivity.
  - split; [|split; [|reflexivity]]; apply dpv_0; assumption.
Qed.

(** ** multiply accumulate *)
Definition NM := (P - 1) * (P - 1).
Lemma acc_bound m : (m <= n)%nat -> (0 < n)%nat -> N.of_nat m * NM < 2 ^ w.
Proof.
  intros Hm Hn. pose proof (id_in 0 Hn). pose proof halfP. unfold NM. assert (N.of_nat m <= (P - 2) * (P - 3)) by nia. nia.
Qed.
(** what one element becomes in round [m] *)
Definition accv (m : nat) (last : bool) (v : N) (f : car F) : Prop := I v = f /\ (if last then v < P else v <= N.of_nat m * NM).
Lemma mac_value m b x t c s : (m < n)%nat -> rv b c -> x < P -> (m <> 0%nat -> accv m false t s) -> (m = 0%nat -> s = f0) ->
  let first := (m =? 0)%nat in let last := (m =? n - 1)%nat in
  accv (S m) last (if first && last then pf_times w P b x else if first then pf_mul w b x else if last then pf_reduce P (pf_add w t (pf_mul w b x)) else pf_add w t (pf_mul w b x))
    (fadd s (fmul c (I x))).
Proof.
  intros Hm (Hb & Eb) Hx Ht Hs first last.
  assert (BM : b * x <= NM) by (apply N.mul_le_mono; lia).
  assert (MW : pf_mul w b x = b * x). { unfold pf_mul, wrap. apply N.mod_small. pose proof HMul. unfold NM in BM. lia. }
  assert (IM : I (b * x) = fmul c (I x)) by (rewrite <- Eb; apply (Z_mul P HP)).
  assert (RL : forall v, pf_reduce P v < P) by (intros; apply N.mod_lt; lia).
  unfold accv, first, last. destruct (Nat.eqb_spec m 0) as [->|Nm]; cbn [andb].
  - rewrite (Hs eq_refl). destruct (Nat.eqb_spec 0 (n - 1)) as [L|L]; cbn [andb].
    + unfold pf_times. rewrite MW, I_red. split; [|apply RL]. rewrite IM. ring.
    + rewrite MW, IM. split; [ring|]. lia.
  - destruct (Ht Nm) as (It & Bt).
    assert (TW : pf_add w t (pf_mul w b x) = t + b * x).
    { rewrite MW. unfold pf_add, wrap. apply N.mod_small. pose proof (acc_bound (S m) ltac:(lia) ltac:(lia)). lia. }
    assert (IT : I (t + b * x) = fadd s (fmul c (I x))) by (rewrite <- It, <- IM; apply (Z_add P HP)).
    rewrite TW. destruct (Nat.eqb_spec m (n - 1)) as [L|L].
    + rewrite I_red. auto.
    + split; [exact IT|]. lia.
Qed.

Variable len ML : nat.
Hypothesis HLM : (len <= ML)%nat.

(** the scratch array after [m] rounds over the blocks of [g] *)
Definition acc (g : nat -> nat -> N) (coef : nat -> car F) (m : nat) (last : bool) (temp : list (option N)) : Prop :=
  length temp = ML /\
  (m <> 0%nat -> forall t, (t < len)%nat -> exists v, nth t temp None = Some v /\ accv m last v (fsum m (fun k => fmul (coef k) (I (g k t))))).

Lemma mac_ok a aoff b m (coef : nat -> car F) (g : nat -> nat -> N) temp : (m < n)%nat -> rv b (coef m) ->
  (forall t, (t < len)%nat -> rd a (aoff + t) = Ok (g m t) /\ g m t < P) -> acc g coef m false temp ->
  exists temp', cpf_mac w P temp a aoff b len (m =? 0)%nat (m =? n - 1)%nat = Ok temp' /\ acc g coef (S m) (m =? n - 1)%nat temp'.
Proof.
  intros Hm Hb Hg (LT & HT). unfold cpf_mac.
  edestruct (for_up_inv (fun i (tp : list (option N)) => length tp = ML /\
     (forall t, (t < i)%nat -> exists v, nth t tp None = Some v /\ accv (S m) (m =? n - 1)%nat v (fsum (S m) (fun k => fmul (coef k) (I (g k t))))) /\
     (forall t, (i <= t)%nat -> nth t tp None = nth t temp None))) as (tp & E & L & H1 & H2).
  4: { exists tp. split; [exact E|]. split; [exact L|]. intros _. exact H1. }
  - lia.
  - intros i tp Hi (L & H1 & H2). cbv beta. destruct (Hg i ltac:(lia)) as (Er & Hx). rewrite Er. cbn [bind]. cbv zeta. rewrite pfof by exact Hx.
    set (t0 := match nth i temp None with Some v => v | None => 0 end).
    assert (HT0 : m <> 0%nat -> rdu tp i = Ok t0 /\ accv m false t0 (fsum m (fun k => fmul (coef k) (I (g k i))))).
    { intros Nm. destruct (HT Nm i ltac:(lia)) as (v & Ev & Hv). unfold t0. rewrite Ev. split; [|exact Hv]. apply rdu_nth. rewrite H2 by lia. exact Ev. }
    pose proof (mac_value m b (g m i) t0 (coef m) (fsum m (fun k => fmul (coef k) (I (g k i)))) Hm Hb Hx (fun Nm => proj2 (HT0 Nm)) ltac:(intros ->; reflexivity)) as V. cbv zeta in V.
    match type of V with accv _ _ ?v _ => set (vv := v) in * end.
    match goal with |- context [bind ?e _] => assert (EV : e = Ok vv) end.
    { unfold vv. destruct (Nat.eqb_spec m 0) as [Z|Nm]; cbn [andb]; [destruct (m =? n - 1)%nat; reflexivity|]. destruct (HT0 Nm) as (-> & _). cbn [bind]. destruct (m =? n - 1)%nat; reflexivity. }
    rewrite EV. cbn [bind]. unfold wru. rewrite wr_Ok by lia. eexists. split; [reflexivity|]. split; [rewrite length_upd; exact L|]. split.
    + intros t Ht. rewrite nth_upd. destruct (Nat.eqb_spec i t) as [<-|Nt]; cbn [andb].
      * destruct (Nat.ltb_spec i (length tp)); [|lia]. eexists. split; [reflexivity|exact V].
      * apply H1. lia.
    + intros t Ht. rewrite nth_upd. destruct (Nat.eqb_spec i t) as [<-|Nt]; [lia|]. cbn [andb]. apply H2. lia.
  - split; [exact LT|]. split; [intros; lia|]. reflexivity.
Qed.

(** ** a substitute *)
Lemma find_unused_ok temp (tv : nat -> N) : (forall t, (t < len)%nat -> nth t temp None = Some (tv t) /\ tv t < P) -> N.of_nat ML < P - 1 ->
  exists s, cpf_find_unused P temp len = Ok s /\ s < P - 1 /\ forall t, (t < len)%nat -> tv t <> s.
Proof.
  intros HT HL. unfold cpf_find_unused. set (bytes := N.to_nat ((P + 7) / 8)).
  assert (HB : forall s, s < P -> (N.to_nat (s / 8) < bytes)%nat).
  { intros s Hs. unfold bytes. assert (s / 8 < (P + 7) / 8); [|lia]. pose proof (N.div_mod s 8). pose proof (N.div_mod (P + 7) 8). pose proof (N.mod_lt s 8). pose proof (N.mod_lt (P + 7) 8). lia. }
  edestruct (for_up_inv (fun i (used : list N) => length used = bytes /\
     forall s, s < P -> N.testbit (nth (N.to_nat (s / 8)) used 0) (s mod 8) = true <-> exists t, (t < i)%nat /\ tv t = s)) as (used & E & LU & HU).
  4: { rewrite E. cbn [bind].
    destruct (unused_exists (map tv (seq 0 len)) (N.to_nat (P - 1))) as (u & Hu & Nu); [rewrite map_length, seq_length; lia|].
    assert (NU : forall t, (t < len)%nat -> tv t <> u). { intros t Ht E'. apply Nu. apply in_map_iff. exists t. split; [exact E'|apply in_seq; lia]. }
    assert (CO : forall s, s < P -> exists c, (x <- rd used (N.to_nat (s / 8)) ;; Ok (negb (N.land x (N.shiftl 1 (s mod 8)) =? 0))) = Ok c /\ (c = true <-> exists t, (t < len)%nat /\ tv t = s)).
    { intros s Hs. rewrite (rd_nth used _ 0) by (rewrite LU; apply HB; exact Hs). cbn [bind]. eexists. split; [reflexivity|]. rewrite <- HU by exact Hs.
      rewrite negb_true_iff, N.eqb_neq, N.shiftl_1_l. set (x := nth (N.to_nat (s / 8)) used 0). split.
      - intros H. destruct (N.testbit x (s mod 8)) eqn:Eb; [reflexivity|]. exfalso. apply H. apply N.bits_inj. intros j. rewrite N.land_spec, N.bits_0.
        rewrite N.pow2_bits_eqb. destruct (N.eqb_spec (s mod 8) j) as [<-|]; [rewrite Eb; reflexivity|apply andb_false_r].
      - intros H Z. apply (f_equal (fun y => N.testbit y (s mod 8))) in Z. rewrite N.land_spec, N.bits_0, N.pow2_bits_true, H in Z. discriminate. }
    edestruct (while_inv (fun s => s <= u) (fun s => N.to_nat (u - s))) as (s & Es & Is & Cs).
    4: { exists s. split; [exact Es|]. split; [lia|]. intros t Ht Et. destruct (CO s ltac:(lia)) as (c & Ec & Hc). cbv beta in Cs; rewrite Ec in Cs. injection Cs as ->.
         assert (false = true); [|discriminate]. apply Hc. eauto. }
    - intros s Hs. destruct (CO s ltac:(lia)) as (c & Ec & Hc). exists c. split; [exact Ec|]. intros ->. eexists. split; [reflexivity|].
      assert (s <> u). { intros ->. destruct (proj1 Hc eq_refl) as (t & Ht & Et). apply (NU t Ht Et). } lia.
    - lia.
    - assert (u < 8 * N.of_nat bytes); [|lia]. pose proof (HB u ltac:(lia)). pose proof (N.div_mod u 8). pose proof (N.mod_lt u 8). lia. }
  - lia.
  - intros i used Hi (LU & HU). cbv beta. destruct (HT i ltac:(lia)) as (Et & Lt). rewrite (rdu_nth _ _ _ Et). cbn [bind]. pose proof (HB _ Lt) as HBt.
    rewrite (rd_nth used _ 0) by lia. cbn [bind]. rewrite wr_Ok by lia. eexists. split; [reflexivity|]. split; [rewrite length_upd; exact LU|].
    intros s Hs. rewrite nth_upd. pose proof (N.mod_lt s 8 ltac:(discriminate)). pose proof (N.mod_lt (tv i) 8 ltac:(discriminate)).
    assert (DM : forall a b : N, a / 8 = b / 8 -> a mod 8 = b mod 8 -> a = b). { intros a b E1 E2. rewrite (N.div_mod a 8), (N.div_mod b 8), E1, E2 by discriminate. reflexivity. }
    specialize (HU s Hs). destruct (Nat.eqb_spec (N.to_nat (tv i / 8)) (N.to_nat (s / 8))) as [Eq|Nq].
    + destruct (Nat.ltb_spec (N.to_nat (tv i / 8)) (length used)); [|lia]. cbn [andb]. rewrite wrap_testbit, N.lor_spec, N.shiftl_1_l, N.pow2_bits_eqb, Eq.
      destruct (N.ltb_spec (s mod 8) 8); [|lia]. rewrite andb_true_r, orb_true_iff, N.eqb_eq, HU. split.
      * intros [(t & Ht & E)|E]; [exists t; split; [lia|exact E]|]. exists i. split; [lia|]. apply DM; [lia|exact E].
      * intros (t & Ht & E). destruct (Nat.eq_dec t i) as [->|]; [right; rewrite E; reflexivity|left; exists t; split; [lia|exact E]].
    + cbn [andb]. rewrite HU. split; intros (t & Ht & E); exists t; (split; [|exact E]); [lia|].
      destruct (Nat.eq_dec t i) as [->|]; [|lia]. exfalso. apply Nq. rewrite E. reflexivity.
  - split; [apply repeat_length|]. intros s Hs. rewrite nth_repeat, N.bits_0. split; [discriminate|]. intros (t & Ht & _). lia.
Qed.

Variable wi : N.
Hypothesis HWI : P - 1 <= 2 ^ wi.
Hypothesis HML : N.of_nat ML < P - 1.

Lemma encode_ok k data block boff st : (k < n)%nat -> length (cp_temp st) = ML -> Forall (fun x => x < P) data -> (len * n <= length data)%nat -> (boff + len <= length block)%nat ->
  exists o sub st' (tv : nat -> N), cpf_encode w P wi ML data block boff (N.to_nat (nth k ids 0)) len n st = Ok (o, sub, st') /\
    length (cp_temp st') = ML /\ (forall t, (t < len)%nat -> nth t (cp_temp st') None = Some (tv t)) /\ cpf_find_unused P (cp_temp st') len = Ok sub /\ sub < P - 1 /\ length o = length block /\ (forall p, ~ (boff <= p < boff + len)%nat -> nth p o 0 = nth p block 0) /\
    forall t, (t < len)%nat -> nth (boff + t) o 0 = (if tv t =? P - 1 then sub else tv t) /\ tv t <> sub /\ tv t < P /\
      I (tv t) = fsum n (fun m => fmul (cauchy xr yc k m) (I (nth (len * m + t) data 0))).
Proof.
  intros Hk LT Hd Ld Lb. unfold cpf_encode. destruct (id_in k Hk) as (H1 & H2).
  assert (EA : ((n <=? N.to_nat (nth k ids 0%N))%nat && (N.of_nat (N.to_nat (nth k ids 0)) <? P / 2)) = true).
  { rewrite N2Nat.id. apply andb_true_intro. split; [apply Nat.leb_le; lia|apply N.ltb_lt; lia]. }
  rewrite EA. assert (EL : (len <=? ML)%nat = true) by (apply Nat.leb_le; exact HLM). rewrite EL. cbn [assert_ bind].
  set (g := fun m t => nth (len * m + t) data 0).
  edestruct (for_up_inv (fun m temp => acc g (cauchy xr yc k) m (m =? n)%nat temp)) as (temp & E & LT' & HT).
  4: { change (bind (A := list (option N))) with (@bind (list (option N)) (list N * N * cpf)). rewrite E. cbn [bind]. rewrite Nat.eqb_refl in HT.
    set (tv := fun t => match nth t temp None with Some v => v | None => 0 end).
    assert (TV : forall t, (t < len)%nat -> nth t temp None = Some (tv t) /\ tv t < P /\ I (tv t) = fsum n (fun m => fmul (cauchy xr yc k m) (I (g m t)))).
    { intros t Ht. destruct (HT ltac:(lia) t Ht) as (v & Ev & Iv & Bv). unfold tv. rewrite Ev. auto. }
    destruct (find_unused_ok temp tv) as (sub & Es & Hs & Nsub); [intros t Ht; destruct (TV t Ht) as (? & ? & _); auto|exact HML|].
    rewrite Es. cbn [bind].
    edestruct (for_up_inv (fun i (o : list N) => length o = length block /\ (forall t, (t < i)%nat -> nth (boff + t) o 0 = (if tv t =? P - 1 then sub else tv t)) /\
       (forall p, ~ (boff <= p < boff + i)%nat -> nth p o 0 = nth p block 0))) as (o & Eo & LO & HO & HO').
    4: { rewrite Eo. cbn [bind]. eexists _, _, _, tv. split; [reflexivity|]. split; [exact LT'|]. split; [intros t Ht; apply TV; exact Ht|]. split; [exact Es|]. split; [exact Hs|]. split; [exact LO|]. split; [exact HO'|].
         intros t Ht. destruct (TV t Ht) as (_ & B & IT). auto. }
    - lia.
    - intros i o Hi (LO & HO & HO'). cbv beta. destruct (TV i ltac:(lia)) as (Et & Bt & _). rewrite (rdu_nth _ _ _ Et). cbn [bind]. rewrite wr_Ok by lia.
      eexists. split; [reflexivity|]. split; [rewrite length_upd; exact LO|]. rewrite wrap_small by (destruct (N.eqb_spec (tv i) (P - 1)); lia). split.
      + intros t Ht. rewrite nth_upd. destruct (Nat.eqb_spec (boff + i) (boff + t)) as [Eq|Nq]; cbn [andb].
        * assert (t = i) by lia. subst t. destruct (Nat.ltb_spec (boff + i) (length o)); [reflexivity|lia].
        * apply HO. lia.
      + intros p Hp. rewrite nth_upd. destruct (Nat.eqb_spec (boff + i) p) as [Eq|Nq]; [lia|]. cbn [andb]. apply HO'. lia.
    - split; [reflexivity|]. split; [intros; lia|]. reflexivity. }
  - lia.
  - intros m temp Hm A. cbv beta. destruct (cauchy_ok k m Hk ltac:(lia)) as (q & Eq & Rq). rewrite Eq. cbn [bind].
    assert (Em : (m =? n)%nat = false) by (apply Nat.eqb_neq; lia). rewrite Em in A.
    destruct (mac_ok data (len * m) q m (cauchy xr yc k) g temp ltac:(lia) Rq) as (temp' & Et & At); [|exact A|].
    + intros t Ht. split; [apply rd_nth; nia|]. unfold g. apply (proj1 (Forall_nth (fun x => x < P) data) Hd). nia.
    + exists temp'. split; [exact Et|]. replace (S m =? n)%nat with (m =? n - 1)%nat; [exact At|]. destruct (Nat.eqb_spec m (n - 1)), (Nat.eqb_spec (S m) n); lia.
  - split; [exact LT|]. contradiction.
Qed.

Lemma mac_sub_ok c coff a aoff b s m (coef : nat -> car F) (g : nat -> nat -> N) temp : (m < n)%nat -> rv b (coef m) ->
  (forall t, (t < len)%nat -> exists x, rd a (aoff + t) = Ok x /\ g m t = (if x =? s then P - 1 else x) /\ g m t < P) -> acc g coef m false temp -> (coff + len <= length c)%nat ->
  exists temp' c', cpf_mac_sub w P wi temp c coff a aoff b s len (m =? 0)%nat (m =? n - 1)%nat = Ok (temp', c') /\ length temp' = ML /\
    if (m =? n - 1)%nat then length c' = length c /\ (forall p, ~ (coff <= p < coff + len)%nat -> nth p c' 0 = nth p c 0) /\
         (forall t, (t < len)%nat -> exists v, nth (coff + t) c' 0 = wrap wi v /\ accv (S m) true v (fsum (S m) (fun k => fmul (coef k) (I (g k t)))))
    else c' = c /\ acc g coef (S m) false temp'.
Proof.
  intros Hm Hb Hg (LT & HT) Lc. unfold cpf_mac_sub. cbv zeta.
  edestruct (for_up_inv (fun i '((tp, c') : list (option N) * list N) => length tp = ML /\
     (forall t, (i <= t)%nat -> nth t tp None = nth t temp None) /\
     if (m =? n - 1)%nat then length c' = length c /\ (forall p, ~ (coff <= p < coff + i)%nat -> nth p c' 0 = nth p c 0) /\
         (forall t, (t < i)%nat -> exists v, nth (coff + t) c' 0 = wrap wi v /\ accv (S m) true v (fsum (S m) (fun k => fmul (coef k) (I (g k t)))))
     else c' = c /\ (forall t, (t < i)%nat -> exists v, nth t tp None = Some v /\ accv (S m) false v (fsum (S m) (fun k => fmul (coef k) (I (g k t))))))) as ((tp & c') & E & L & _ & H1).
  4: { exists tp, c'. split; [exact E|]. split; [exact L|]. destruct (m =? n - 1)%nat; [exact H1|]. destruct H1 as (-> & H1). split; [reflexivity|]. split; [exact L|]. intros _. exact H1. }
  - lia.
  - intros i (tp & c') Hi (L & H2 & H1). cbv beta iota. destruct (Hg i ltac:(lia)) as (x & Er & Eg & Hx). rewrite Er. cbn [bind]. rewrite <- Eg. rewrite pfof by exact Hx.
    set (t0 := match nth i temp None with Some v => v | None => 0 end).
    assert (HT0 : m <> 0%nat -> rdu tp i = Ok t0 /\ accv m false t0 (fsum m (fun k => fmul (coef k) (I (g k i))))).
    { intros Nm. destruct (HT Nm i ltac:(lia)) as (v & Ev & Hv). unfold t0. rewrite Ev. split; [|exact Hv]. apply rdu_nth. rewrite H2 by lia. exact Ev. }
    pose proof (mac_value m b (g m i) t0 (coef m) (fsum m (fun k => fmul (coef k) (I (g k i)))) Hm Hb Hx (fun Nm => proj2 (HT0 Nm)) ltac:(intros ->; reflexivity)) as V. cbv zeta in V.
    match type of V with accv _ _ ?v _ => set (vv := v) in * end.
    assert (EV : (if (m =? 0)%nat && (m =? n - 1)%nat then c0 <- wr c' (coff + i) (wrap wi (pf_times w P b (g m i))) ;; Ok (tp, c0)
                  else if (m =? 0)%nat then tp0 <- wru tp i (pf_mul w b (g m i)) ;; Ok (tp0, c')
                  else if (m =? n - 1)%nat then t <- rdu tp i ;; c0 <- wr c' (coff + i) (wrap wi (pf_reduce P (pf_add w t (pf_mul w b (g m i))))) ;; Ok (tp, c0)
                  else t <- rdu tp i ;; tp0 <- wru tp i (pf_add w t (pf_mul w b (g m i))) ;; Ok (tp0, c')) =
             if (m =? n - 1)%nat then c0 <- wr c' (coff + i) (wrap wi vv) ;; Ok (tp, c0) else tp0 <- wru tp i vv ;; Ok (tp0, c')).
    { unfold vv. destruct (Nat.eqb_spec m 0) as [Z|Nm]; cbn [andb]; [destruct (m =? n - 1)%nat; reflexivity|]. destruct (HT0 Nm) as (-> & _). cbn [bind]. destruct (m =? n - 1)%nat; reflexivity. }
    rewrite EV. clear EV. destruct (m =? n - 1)%nat.
    + destruct H1 as (LC & HO & HV). rewrite wr_Ok by lia. cbn [bind]. eexists. split; [reflexivity|]. cbv iota. split; [exact L|]. split; [intros t Ht; apply H2; lia|].
      split; [rewrite length_upd; exact LC|]. split.
      * intros p Hp. rewrite nth_upd. destruct (Nat.eqb_spec (coff + i) p) as [Eq|Nq]; [lia|]. cbn [andb]. apply HO. lia.
      * intros t Ht. rewrite nth_upd. destruct (Nat.eqb_spec (coff + i) (coff + t)) as [Eq|Nq]; cbn [andb].
        -- assert (t = i) by lia. subst t. destruct (Nat.ltb_spec (coff + i) (length c')); [|lia]. eexists. split; [reflexivity|exact V].
        -- apply HV. lia.
    + destruct H1 as (-> & HV). unfold wru. rewrite wr_Ok by lia. cbn [bind]. eexists. split; [reflexivity|]. cbv iota. split; [rewrite length_upd; exact L|]. split.
      * intros t Ht. rewrite nth_upd. destruct (Nat.eqb_spec i t) as [<-|Nt]; [lia|]. cbn [andb]. apply H2. lia.
      * split; [reflexivity|]. intros t Ht. rewrite nth_upd. destruct (Nat.eqb_spec i t) as [<-|Nt]; cbn [andb].
        -- destruct (Nat.ltb_spec i (length tp)); [|lia]. eexists. split; [reflexivity|exact V].
        -- apply HV. lia.
  - split; [exact LT|]. split; [reflexivity|]. destruct (m =? n - 1)%nat; [|split; [reflexivity|intros; lia]]. split; [reflexivity|]. split; [reflexivity|]. intros; lia.
Qed.

(** the received symbol with its substitute undone *)
Definition unsub (blocks subs : list N) (k t : nat) : N := if nth (len * k + t) blocks 0 =? nth k subs 0 then P - 1 else nth (len * k + t) blocks 0.

Lemma decode_ok i data doff blocks subs st : (i < n)%nat -> length (cp_temp st) = ML -> (len * n <= length blocks)%nat -> length subs = n ->
  (forall k t, (k < n)%nat -> (t < len)%nat -> unsub blocks subs k t < P) -> (doff + len <= length data)%nat ->
  exists o st', cpf_decode w P wi ML data doff blocks subs ids i len n st = Ok (o, st') /\ length (cp_temp st') = ML /\ length o = length data /\
    (forall p, ~ (doff <= p < doff + len)%nat -> nth p o 0 = nth p data 0) /\
    forall t, (t < len)%nat -> exists v, nth (doff + t) o 0 = wrap wi v /\ v < P /\ I v = fsum n (fun k => fmul (cauchy_inv n xr yc i k) (I (unsub blocks subs k t))).
Proof.
  intros Hi LT Lb Ls HU Ld. unfold cpf_decode. assert (EL : (len <=? ML)%nat = true) by (apply Nat.leb_le; exact HLM). rewrite EL. cbn [assert_ bind].
  set (coef := cauchy_inv n xr yc i). set (g := unsub blocks subs).
  edestruct (for_up_inv (fun m '((o, st) : list N * cpf) => (m <> 0%nat -> row_ok i st) /\ length (cp_temp st) = ML /\
     if (m =? n)%nat then length o = length data /\ (forall p, ~ (doff <= p < doff + len)%nat -> nth p o 0 = nth p data 0) /\
         (forall t, (t < len)%nat -> exists v, nth (doff + t) o 0 = wrap wi v /\ accv n true v (fsum n (fun k => fmul (coef k) (I (g k t)))))
     else o = data /\ acc g coef m false (cp_temp st))) as ((o & st') & E & _ & LT' & H).
  4: { exists o, st'. split; [exact E|]. split; [exact LT'|]. rewrite Nat.eqb_refl in H. destruct H as (LO & HO & HV). split; [exact LO|]. split; [exact HO|].
       intros t Ht. destruct (HV t Ht) as (v & Ev & Iv & Bv). eauto. }
  - lia.
  - intros m (o & st0) Hm (RS & LT0 & H). cbv beta iota. assert (Em : (m =? n)%nat = false) by (apply Nat.eqb_neq; lia). rewrite Em in H. destruct H as (-> & A).
    destruct (inverse_ok i m st0 Hi ltac:(lia) RS) as (q & st1 & Eq & Rq & RS1 & ET). rewrite Eq. cbn [bind]. rewrite (rd_nth subs m 0) by lia. cbn [bind]. rewrite ET.
    destruct (mac_sub_ok data doff blocks (len * m) q (nth m subs 0) m coef g (cp_temp st0) ltac:(lia) Rq) as (temp' & c' & Ec & LTc & Hc); [|exact A|exact Ld|].
    + intros t Ht. eexists. split; [apply rd_nth; nia|]. split; [reflexivity|]. apply HU; [lia|exact Ht].
    + rewrite Ec. cbn [bind]. eexists. split; [reflexivity|]. cbv iota. split.
      * intros _. destruct RS1 as (num & den & E1 & E2 & R1 & R2). exists num, den. auto.
      * split; [exact LTc|]. replace (S m =? n)%nat with (m =? n - 1)%nat by (destruct (Nat.eqb_spec m (n - 1)), (Nat.eqb_spec (S m) n); lia).
        destruct (Nat.eqb_spec m (n - 1)) as [Em'|]; [|exact Hc]. replace (S m) with n in Hc by lia. exact Hc.
  - split; [contradiction|]. split; [exact LT|]. destruct (Nat.eqb_spec 0 n) as [Z|_]; [lia|]. split; [reflexivity|]. split; [exact LT|]. contradiction.
Qed.

(** what the encoder sent: block [k] with its substitute *)
Definition sent (data blocks subs : list N) (k : nat) : Prop :=
  nth k subs 0 < P - 1 /\
  forall t, (t < len)%nat -> nth (len * k + t) blocks 0 < P - 1 /\ unsub blocks subs k t < P /\
    I (unsub blocks subs k t) = fsum n (fun m => fmul (cauchy xr yc k m) (I (nth (len * m + t) data 0))).

Lemma encode_all_ok data blocks0 subs0 st : length (cp_temp st) = ML -> Forall (fun x => x < P) data -> (len * n <= length data)%nat -> length blocks0 = (len * n)%nat -> length subs0 = n ->
  exists blocks subs st', cpf_encode_all w P wi ML data blocks0 subs0 ids len n st = Ok (blocks, subs, st') /\ length (cp_temp st') = ML /\ length blocks = (len * n)%nat /\ length subs = n /\
    forall k, (k < n)%nat -> sent data blocks subs k.
Proof.
  intros LT Hd Ld Lb Ls. unfold cpf_encode_all.
  edestruct (for_up_inv (fun i '((bl, sb, st) : list N * list N * cpf) => length (cp_temp st) = ML /\ length bl = (len * n)%nat /\ length sb = n /\
    forall k, (k < i)%nat -> sent data bl sb k)) as (((bl & sb) & st') & E & R).
  4: { exists bl, sb, st'. split; [exact E|exact R]. }
  - lia.
  - intros i ((bl & sb) & st0) Hi (LT0 & LB & LS & R). cbv beta iota. rewrite rd_id by lia. cbn [bind].
    destruct (encode_ok i data bl (len * i) st0) as (o & sub & st1 & tv & E & LT1 & _ & _ & Hs & LO & HO & HV); try assumption; [lia|nia|].
    rewrite E. cbn [bind]. rewrite wr_Ok by lia. cbn [bind]. eexists. split; [reflexivity|]. cbv iota. split; [exact LT1|]. split; [congruence|]. split; [rewrite length_upd; exact LS|].
    rewrite wrap_small by lia. intros k Hk. destruct (Nat.eq_dec k i) as [->|Nk].
    + unfold sent, unsub. rewrite nth_upd, Nat.eqb_refl. destruct (Nat.ltb_spec i (length sb)); [|lia]. cbn [andb]. split; [exact Hs|]. intros t Ht.
      destruct (HV t Ht) as (Ev & Nv & Bv & Iv). rewrite Ev. destruct (N.eqb_spec (tv t) (P - 1)) as [Et|Et].
      * rewrite N.eqb_refl. split; [exact Hs|]. split; [lia|]. rewrite <- Et. exact Iv.
      * apply N.eqb_neq in Nv. rewrite Nv. split; [lia|]. auto.
    + destruct (R k ltac:(lia)) as (R1 & R2). unfold sent, unsub. rewrite nth_upd. destruct (Nat.eqb_spec i k) as [Z|_]; [lia|]. cbn [andb]. split; [exact R1|].
      intros t Ht. rewrite HO by nia. apply R2. exact Ht.
  - split; [exact LT|]. split; [exact Lb|]. split; [exact Ls|]. intros; lia.
Qed.

Lemma decode_symbol data blocks subs i t v : (i < n)%nat -> (t < len)%nat -> Forall (fun x => x < P) data -> (len * n <= length data)%nat ->
  (forall k, (k < n)%nat -> sent data blocks subs k) ->
  v < P -> I v = fsum n (fun k => fmul (cauchy_inv n xr yc i k) (I (unsub blocks subs k t))) -> v = nth (len * i + t) data 0.
Proof.
  intros Hi Ht Hd Ld HS' Hv E. apply (Z_inj P HP); [exact Hv|apply (proj1 (Forall_nth (fun x => x < P) data) Hd); nia|]. change (I v = I (nth (len * i + t) data 0)). rewrite E.
  rewrite (fsum_ext _ n _ (fun k => fsum n (fun m => fmul (fmul (cauchy_inv n xr yc i k) (cauchy xr yc k m)) (I (nth (len * m + t) data 0))))).
  - rewrite fsum_swap. rewrite (fsum_ext _ n _ (fun m => fmul (if (i =? m)%nat then f1 else f0) (I (nth (len * m + t) data 0)))).
    + rewrite (fsum_single _ n _ i) by (try lia; intros m _ Hm; apply Nat.neq_sym, Nat.eqb_neq in Hm; rewrite Hm; ring). rewrite Nat.eqb_refl. ring.
    + intros m Hm. rewrite fsum_scale_r. rewrite cauchy_inv_spec; try assumption; try lia.
      * reflexivity.
      * intros; apply xr_inj; lia.
      * intros; apply yc_inj; lia.
      * intros; apply xy_neq; lia.
  - intros k Hk'. destruct (HS' k Hk') as (_ & R). destruct (R t Ht) as (_ & _ & ->). rewrite <- fsum_scale. apply fsum_ext. intros m Hm. ring.
Qed.

Lemma decode_all_ok data0 data blocks subs st : length (cp_temp st) = ML -> Forall (fun x => x < P /\ x < 2 ^ wi) data -> length data = (len * n)%nat -> length data0 = (len * n)%nat -> length blocks = (len * n)%nat -> length subs = n ->
  (forall k, (k < n)%nat -> sent data blocks subs k) ->
  exists st', cpf_decode_all w P wi ML data0 blocks subs ids len n st = Ok (data, st').
Proof.
  intros LT Hd Ld Ld0 Lb Ls HS'. assert (HdP : Forall (fun x => x < P) data) by (eapply Forall_impl; [|exact Hd]; cbv beta; tauto).
  unfold cpf_decode_all.
  edestruct (for_up_inv (fun i '((o, st) : list N * cpf) => length (cp_temp st) = ML /\ length o = (len * n)%nat /\
    forall k t, (k < i)%nat -> (t < len)%nat -> nth (len * k + t) o 0 = nth (len * k + t) data 0)) as ((o & st') & E & LT' & L & R).
  4: { exists st'. rewrite E. f_equal. f_equal. apply (list_ext _ _ 0); [congruence|].
       intros p Hp. assert (Nl : len <> 0%nat) by lia. rewrite (Nat.div_mod p len Nl). apply R; [|apply Nat.mod_upper_bound; exact Nl].
       apply Nat.div_lt_upper_bound; [exact Nl|]. lia. }
  - lia.
  - intros i (o & st0) Hi (LT0 & L & R). cbv beta iota.
    destruct (decode_ok i o (len * i) blocks subs st0) as (o' & st1 & E & LT1 & LO & HO & HV); try assumption; try lia; [intros k t Hk Ht; apply (HS' k Hk); exact Ht|nia|].
    exists (o', st1). split; [exact E|]. split; [exact LT1|]. split; [congruence|]. intros k t Hk Ht. destruct (Nat.eq_dec k i) as [->|Nk].
    2: { rewrite HO by nia. apply R; [lia|exact Ht]. }
    destruct (HV t Ht) as (v & -> & Bv & Iv). rewrite (decode_symbol data blocks subs i t v) by (try assumption; lia). apply wrap_small.
    apply (proj1 (Forall_nth (fun x => x < P /\ x < 2 ^ wi) data) Hd). nia.
  - split; [exact LT|]. split; [exact Ld0|]. intros; lia.
Qed.
End S.
