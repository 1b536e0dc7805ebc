(** Property C66: distances of augmented Hadamard and simplex codes, and what their decoders are guaranteed to correct. *)
From Coq Require Import ZifyBool ZifyNat ZifyN.
From Verif Require Import Cpp Lib_list Model_wht Spec_wht Lib_wht Proof_wht Proof_wht2 Prop_wht.
Local Open Scope Z_scope.
Ltac Zify.zify_post_hook ::= idtac.

(** the number of positions where two words differ *)
Fixpoint distance (a b : list Z) : Z :=
  match a, b with x :: a, y :: b => (if x =? y then 0 else 1) + distance a b | _, _ => 0 end.
(** the number of positions where the received value has the wrong sign, and where it is zero *)
Fixpoint wrong (code soft : list Z) : Z :=
  match code, soft with x :: a, y :: b => (if x * y <? 0 then 1 else 0) + wrong a b | _, _ => 0 end.
Fixpoint erased (soft : list Z) : Z :=
  match soft with y :: b => (if y =? 0 then 1 else 0) + erased b | [] => 0 end.
(** how far the received values fall short of full amplitude [g] in the right direction, summed up *)
Fixpoint damage (g : Z) (code soft : list Z) : Z :=
  match code, soft with x :: a, y :: b => (g - x * y) + damage g a b | _, _ => 0 end.
Definition pm (x : Z) : Prop := x = 1 \/ x = -1.

Lemma dot_distance a : forall b, length a = length b -> Forall pm a -> Forall pm b -> dot a b = Z.of_nat (length a) - 2 * distance a b.
Proof.
  induction a as [|x a IH]; intros [|y b] L Fa Fb; cbn [length] in L; try discriminate; [reflexivity|]. inversion Fa as [|? ? Hx Fa']; subst. inversion Fb as [|? ? Hy Fb']; subst.
  cbn [dot distance length]. rewrite (IH b) by (assumption || lia). clear IH Fa Fb. destruct Hx as [-> | ->], Hy as [-> | ->]; cbn [Z.eqb Pos.eqb]; lia.
Qed.
Lemma dot_damage g a : forall b v, length a = length b -> length a = length v -> Forall pm a -> Forall pm b -> Forall (fun y => Z.abs y <= g) v ->
  2 * (g * distance a b - damage g a v) <= dot a v - dot b v.
Proof.
  induction a as [|x a IH]; intros [|y b] [|z v] L1 L2 Fa Fb Fv; cbn [length] in L1, L2; try discriminate; [cbn [dot distance damage wrong erased]; lia|].
  inversion Fa as [|? ? Hx Fa']; subst. inversion Fb as [|? ? Hy Fb']; subst. inversion Fv as [|? ? Hz Fv']; subst.
  cbn [dot distance damage]. specialize (IH b v ltac:(lia) ltac:(lia) Fa' Fb' Fv'). destruct Hx as [-> | ->], Hy as [-> | ->]; cbn [Z.eqb Pos.eqb]; lia.
Qed.
Lemma damage_hard g a : forall v, length a = length v -> Forall pm a -> Forall (fun y => y = g \/ y = - g \/ y = 0) v -> 0 < g -> damage g a v = g * (2 * wrong a v + erased v).
Proof.
  induction a as [|x a IH]; intros [|z v] L Fa Fv Hg; cbn [length] in L; try discriminate; [cbn [dot distance damage wrong erased]; lia|].
  inversion Fa as [|? ? Hx Fa']; subst. inversion Fv as [|? ? Hz Fv']; subst. cbn [damage wrong erased]. rewrite (IH v) by (assumption || lia).
  destruct (Z.ltb_spec (x * z) 0), (Z.eqb_spec z 0); destruct Hx as [-> | ->], Hz as [-> |[-> | ->]]; lia.
Qed.
Lemma pm_word n f : (forall i, pm (f i)) -> Forall pm (word n f).
Proof. intros H. unfold word. apply Forall_map, Forall_forall. intros. apply H. Qed.
Lemma pm_had K m : Forall pm (hadamard_word K m).
Proof. apply pm_word. intros i. unfold pm, walsh. destruct (N.testbit _ _), (odd_ones _); lia. Qed.
Lemma pm_spx K m : Forall pm (simplex_word K m).
Proof. apply pm_word. intros i. unfold pm, walsh. destruct (odd_ones _); lia. Qed.
Lemma len_word n f : length (word n f) = n.
Proof. unfold word. rewrite map_length, seq_length. reflexivity. Qed.
Lemma nth_word0 n f t : (t < n)%nat -> nth t (word n f) 0 = f t.
Proof. intros H. pose proof (nth_scaled_word 1 n f t H) as E. rewrite (map_ext (Z.mul 1) (fun x => x)) in E by (intros; lia). rewrite map_id in E. lia. Qed.
Lemma pow_half K : (2 <= K)%nat -> Z.of_nat (2 ^ (K - 1)) = 2 * Z.of_nat (2 ^ (K - 2)).
Proof. intros H. replace (K - 1)%nat with (S (K - 2)) by lia. cbn [Nat.pow]. lia. Qed.

(** C66: two different augmented Hadamard codewords differ in exactly half the positions, or in all of them when only the sign bit differs *)
Theorem C66_hadamard_distance : forall K m m', (2 <= K)%nat -> (m < 2 ^ N.of_nat K)%N -> (m' < 2 ^ N.of_nat K)%N -> m <> m' ->
  distance (hadamard_word K m) (hadamard_word K m') =
    if (m mod 2 ^ N.of_nat (K - 1) =? m' mod 2 ^ N.of_nat (K - 1))%N then 2 ^ Z.of_nat (K - 1) else 2 ^ Z.of_nat (K - 2).
Proof.
  intros K m m' HK Hm Hm' Hne. assert (L : length (hadamard_word K m') = (2 ^ (K - 1))%nat) by apply len_word.
  assert (L' : length (hadamard_word K m) = (2 ^ (K - 1))%nat) by apply len_word.
  pose proof (dot_distance (hadamard_word K m) (hadamard_word K m') ltac:(lia) (pm_had K m) (pm_had K m')) as D.
  rewrite had_dot in D by (assumption || lia).
  destruct (had_msg_inv K m ltac:(lia) Hm) as (E1 & Hlt). destruct (had_msg_inv K m' ltac:(lia) Hm') as (E2 & Hlt').
  set (b' := if N.testbit m' (N.of_nat (K - 1)) then -1 else 1) in *.
  assert (hv (K - 1) (hadamard_word K m') (N.to_nat (m mod 2 ^ N.of_nat (K - 1))) =
    b' * (if (N.to_nat (m mod 2 ^ N.of_nat (K - 1)) =? N.to_nat (m' mod 2 ^ N.of_nat (K - 1)))%nat then Z.of_nat (2 ^ (K - 1)) else 0)) as V.
  { rewrite <- (wn_dot (K - 1)) by assumption. rewrite <- zsum_scale. unfold hv. apply zsum_ext. intros t Ht. unfold hadamard_word. rewrite nth_word0 by exact Ht.
    fold b'. unfold wn at 3. rewrite N2Nat.id. lia. }
  rewrite V in D. clear V. rewrite L' in D. replace (2 ^ Z.of_nat (K - 1)) with (Z.of_nat (2 ^ (K - 1))) by (rewrite Nat2Z.inj_pow; reflexivity).
  replace (2 ^ Z.of_nat (K - 2)) with (Z.of_nat (2 ^ (K - 2))) by (rewrite Nat2Z.inj_pow; reflexivity). pose proof (pow_half K HK) as PH.
  destruct (N.eqb_spec (m mod 2 ^ N.of_nat (K - 1)) (m' mod 2 ^ N.of_nat (K - 1))) as [E|E].
  - rewrite E, Nat.eqb_refl in D. rewrite E in E1. subst b'. clear E Hlt Hlt' Hm Hm'. set (A := Z.of_nat (2 ^ (K - 1))) in *. set (B := Z.of_nat (2 ^ (K - 2))) in *. clearbody A B.
    destruct (N.testbit m _), (N.testbit m' _); try (exfalso; congruence); clear E1 E2; cbv iota in *; clear - D PH; lia.
  - set (x := (m mod 2 ^ N.of_nat (K - 1))%N) in *. set (y := (m' mod 2 ^ N.of_nat (K - 1))%N) in *. clearbody x y b'. set (A := Z.of_nat (2 ^ (K - 1))) in *. set (B := Z.of_nat (2 ^ (K - 2))) in *. clearbody A B.
    destruct (Nat.eqb_spec (N.to_nat x) (N.to_nat y)); [clear - E e; lia|]. clear - D PH. lia.
Qed.
Print Assumptions C66_hadamard_distance.
(** C66: any two different simplex codewords differ in exactly [2^(K-1)] positions *)
Theorem C66_simplex_distance : forall K m m', (1 <= K)%nat -> (m < 2 ^ N.of_nat K)%N -> (m' < 2 ^ N.of_nat K)%N -> m <> m' ->
  distance (simplex_word K m) (simplex_word K m') = 2 ^ Z.of_nat (K - 1).
Proof.
  intros K m m' HK Hm Hm' Hne. assert (L : length (simplex_word K m') = (2 ^ K - 1)%nat) by apply len_word.
  assert (L' : length (simplex_word K m) = (2 ^ K - 1)%nat) by apply len_word.
  pose proof (dot_distance (simplex_word K m) (simplex_word K m') ltac:(lia) (pm_spx K m) (pm_spx K m')) as D.
  rewrite spx_dot in D by assumption. pose proof (pow2_pos K) as HP. pose proof (pow2_of_nat K) as EP.
  assert (sv K (simplex_word K m') (N.to_nat m) = -1) as V.
  { pose proof (wn_dot K (N.to_nat m) (N.to_nat m') ltac:(lia) ltac:(lia)) as W. destruct (Nat.eqb_spec (N.to_nat m) (N.to_nat m')); [lia|].
    unfold sv. destruct (2 ^ K)%nat as [|k] eqn:En; [lia|]. rewrite zsum_shift in W |- *. cbn [sc].
    rewrite (zsum_ext _ _ (fun i => wn (N.to_nat m) (S i) * wn (N.to_nat m') (S i))).
    - unfold wn at 1 2 in W. change (N.of_nat 0) with 0%N in W. rewrite !walsh_0 in W. lia.
    - intros t Ht. unfold simplex_word. rewrite nth_word0 by lia. unfold wn at 3. rewrite N2Nat.id. replace (t + 1)%nat with (S t) by lia. reflexivity. }
  rewrite V, L' in D. replace (2 ^ Z.of_nat (K - 1)) with (Z.of_nat (2 ^ (K - 1))) by (rewrite Nat2Z.inj_pow; reflexivity).
  assert (2 ^ K = 2 * 2 ^ (K - 1))%nat by (replace K with (S (K - 1)) at 1 by lia; reflexivity). lia.
Qed.
Print Assumptions C66_simplex_distance.

Lemma abs_int8 g v : g <= 127 -> Forall (fun y => Z.abs y <= g) v -> Forall int8 v.
Proof. intros Hg H. eapply Forall_impl; [|exact H]. unfold int8. intros; lia. Qed.
Lemma msg_lt K msg : 0 <= msg < 2 ^ Z.of_nat K -> (Z.to_N msg < 2 ^ N.of_nat K)%N.
Proof. intros H. assert (E : Z.of_N (2 ^ N.of_nat K) = 2 ^ Z.of_nat K) by (rewrite N2Z.inj_pow; f_equal; lia). lia. Qed.
(** C66: the decoder answers the message that was encoded, for every received word with values of magnitude up to [g], as long as the damage
    stays below [g] times the minimum distance *)
Theorem C66_hadamard_corrects : forall K m msg code cw g soft,
  (2 <= K <= 24)%nat -> wht_mod K = Ok m -> 0 <= msg < 2 ^ Z.of_nat K -> length code = (2 ^ (K - 1))%nat ->
  had_encode K m code msg = Ok cw -> length soft = length cw -> g <= 127 -> Forall (fun y => Z.abs y <= g) soft ->
  damage g cw soft < g * 2 ^ Z.of_nat (K - 2) -> had_decode K soft = Ok msg.
Proof.
  intros K m msg code cw g soft HK Hm HM HL E Ls Hg Fs HD. rewrite (C27_encoder K m code msg) in E by (assumption || lia).
  rewrite skipn_all2, app_nil_r in E by lia. injection E as <-. pose proof (msg_lt K msg HM) as Hu. set (u := Z.to_N msg) in *.
  assert (Lw : forall x, length (hadamard_word K x) = (2 ^ (K - 1))%nat) by (intros; apply len_word). rewrite Lw in Ls.
  destruct (had_decode_ok K soft HK Ls (abs_int8 g soft Hg Fs)) as (r & Er & A). rewrite Er. f_equal.
  replace msg with (Z.of_N u) by (unfold u; lia). eapply ml_unique; [exact A|]. left. exists u. split; [reflexivity|]. split; [exact Hu|].
  intros m' Hm' Hne. pose proof (dot_damage g (hadamard_word K u) (hadamard_word K m') soft ltac:(rewrite !Lw; reflexivity) ltac:(rewrite Lw; lia) (pm_had K u) (pm_had K m') Fs) as D.
  rewrite C66_hadamard_distance in D by (assumption || lia || congruence).
  assert (0 <= g). { destruct soft as [|y soft]; [cbn in Ls; pose proof (pow2_pos (K - 1)); lia|]. inversion Fs; subst. lia. }
  assert (2 ^ Z.of_nat (K - 2) <= 2 ^ Z.of_nat (K - 1)) by (apply Z.pow_le_mono_r; lia).
  destruct (_ =? _)%N; [nia|lia].
Qed.
Print Assumptions C66_hadamard_corrects.
Theorem C66_simplex_corrects : forall K m msg code cw g soft,
  (2 <= K <= 23)%nat -> wht_mod K = Ok m -> 0 <= msg < 2 ^ Z.of_nat K -> length code = (2 ^ K - 1)%nat ->
  spx_encode K m code msg = Ok cw -> length soft = length cw -> g <= 127 -> Forall (fun y => Z.abs y <= g) soft ->
  damage g cw soft < g * 2 ^ Z.of_nat (K - 1) -> spx_decode K soft = Ok msg.
Proof.
  intros K m msg code cw g soft HK Hm HM HL E Ls Hg Fs HD. rewrite (C28_encoder K m code msg) in E by (assumption || lia).
  rewrite skipn_all2, app_nil_r in E by lia. injection E as <-. pose proof (msg_lt K msg HM) as Hu. set (u := Z.to_N msg) in *.
  assert (Lw : forall x, length (simplex_word K x) = (2 ^ K - 1)%nat) by (intros; apply len_word). rewrite Lw in Ls.
  destruct (spx_decode_ok K soft HK Ls (abs_int8 g soft Hg Fs)) as (r & Er & A). rewrite Er. f_equal.
  replace msg with (Z.of_N u) by (unfold u; lia). eapply ml_unique; [exact A|]. left. exists u. split; [reflexivity|]. split; [exact Hu|].
  intros m' Hm' Hne. pose proof (dot_damage g (simplex_word K u) (simplex_word K m') soft ltac:(rewrite !Lw; reflexivity) ltac:(rewrite Lw; lia) (pm_spx K u) (pm_spx K m') Fs) as D.
  rewrite C66_simplex_distance in D by (assumption || lia || congruence). lia.
Qed.
Print Assumptions C66_simplex_corrects.
(** C66: hard decisions: [2 * errors + erasures] below the minimum distance is always corrected *)
Theorem C66_hadamard_errors_and_erasures : forall K m msg code cw g soft,
  (2 <= K <= 24)%nat -> wht_mod K = Ok m -> 0 <= msg < 2 ^ Z.of_nat K -> length code = (2 ^ (K - 1))%nat ->
  had_encode K m code msg = Ok cw -> length soft = length cw -> 0 < g <= 127 -> Forall (fun y => y = g \/ y = - g \/ y = 0) soft ->
  2 * wrong cw soft + erased soft < 2 ^ Z.of_nat (K - 2) -> had_decode K soft = Ok msg.
Proof.
  intros K m msg code cw g soft HK Hm HM HL E Ls Hg Fs HD.
  assert (Forall pm cw). { pose proof E as E'. rewrite (C27_encoder K m code msg) in E' by (assumption || lia). rewrite skipn_all2, app_nil_r in E' by lia. injection E' as <-. apply pm_had. }
  apply (C66_hadamard_corrects K m msg code cw g soft); try assumption; [lia| |].
  - eapply Forall_impl; [|exact Fs]. cbv beta. intros; lia.
  - rewrite damage_hard by (assumption || lia). nia.
Qed.
Print Assumptions C66_hadamard_errors_and_erasures.
Theorem C66_simplex_errors_and_erasures : forall K m msg code cw g soft,
  (2 <= K <= 23)%nat -> wht_mod K = Ok m -> 0 <= msg < 2 ^ Z.of_nat K -> length code = (2 ^ K - 1)%nat ->
  spx_encode K m code msg = Ok cw -> length soft = length cw -> 0 < g <= 127 -> Forall (fun y => y = g \/ y = - g \/ y = 0) soft ->
  2 * wrong cw soft + erased soft < 2 ^ Z.of_nat (K - 1) -> spx_decode K soft = Ok msg.
Proof.
  intros K m msg code cw g soft HK Hm HM HL E Ls Hg Fs HD.
  assert (Forall pm cw). { pose proof E as E'. rewrite (C28_encoder K m code msg) in E' by (assumption || lia). rewrite skipn_all2, app_nil_r in E' by lia. injection E' as <-. apply pm_spx. }
  apply (C66_simplex_corrects K m msg code cw g soft); try assumption; [lia| |].
  - eapply Forall_impl; [|exact Fs]. cbv beta. intros; lia.
  - rewrite damage_hard by (assumption || lia). nia.
Qed.
Print Assumptions C66_simplex_errors_and_erasures.
(** K = 5, message 22, distance 8: three errors and one erasure; and one more error than guaranteed is answered with -1 *)
Example C66_nonvacuous :
  (m <- wht_mod 5 ;; had_encode 5 m (repeat 0 16) 22) = Ok [-1; -1; 1; 1; 1; 1; -1; -1; -1; -1; 1; 1; 1; 1; -1; -1] /\
  (let soft := [9; 9; -9; 9; 9; 9; 0; -9; -9; -9; 9; 9; 9; 9; -9; -9] in wrong [-1; -1; 1; 1; 1; 1; -1; -1; -1; -1; 1; 1; 1; 1; -1; -1] soft = 3 /\ erased soft = 1 /\ had_decode 5 soft = Ok 22) /\
  had_decode 5 [9; 9; -9; 9; -9; 9; -9; -9; -9; -9; 9; 9; 9; 9; -9; -9] = Ok (-1).
Proof. vm_compute. auto. Qed.
