(** Polar list decoders with floating point lanes: metrics grow; bounded soft values stay bounded. *)
From Coq Require Import ZifyBool ZifyNat ZifyN Floats.SpecFloat.
From Verif Require Import Cpp Model_simd Model_polar Model_polar_float Model_polar_listf Spec_polar Spec_polar_float Spec_ieee Spec_polar_list Spec_polar_listf
  Lib_float Lib_float2 Lib_float3 Proof_polar1 Proof_polar2 Proof_polarf2 Proof_plf1.
Ltac Zify.zify_post_hook ::= idtac.

Section Numbers.
Variables prec emax : Z.
Hypothesis Hp : (1 < prec)%Z.
Hypothesis He : (prec < emax)%Z.
Notation emin := (SpecFloat.emin prec emax).
Notation emb := (hard_value prec).
Notation valid := (fun x => valid_binary prec emax x = true).
Notation nonneg := (nonneg prec emax).
Notation million := (million prec emax).
Notation step := (step_metric prec emax).

(** a valid number that is neither infinite nor NaN, and at most [2^(emax-1-n)] *)
Definition calm (n : nat) (x : spec_float) : Prop := (Z.of_nat n <= emax - 1 - emin)%Z /\ valid x /\ at_most emin (emax - 1 - Z.of_nat n) x.
Lemma calm_notnan n x : calm n x -> notnan x.
Proof. intros (_ & _ & H) ->. exact H. Qed.
Lemma opp_at k x : at_most emin k (SFopp x) <-> at_most emin k x. Proof. destruct x; reflexivity. Qed.
Lemma abs_at k x : at_most emin k (SFabs x) <-> at_most emin k x. Proof. destruct x; reflexivity. Qed.
Lemma hard_at k h x : hardf prec h -> valid x -> at_most emin k x -> at_most emin k (SFmul prec emax h x).
Proof.
  intros [(s & ->)|[-> | ->]] V B.
  - destruct x; try contradiction; exact I.
  - rewrite mul_one by assumption. exact B.
  - rewrite mul_minus_one by assumption. apply opp_at. exact B.
Qed.
Lemma at_mono k l x : (emin <= k <= l)%Z -> at_most emin k x -> at_most emin l x.
Proof. intros Hk. destruct x; cbn [at_most]; auto. intros H. etransitivity; [exact H|]. apply Z.pow_le_mono_r; lia. Qed.
Lemma smaller_valid a b : valid a -> valid b -> valid (smaller a b).
Proof. unfold smaller. intros. destruct (SFltb b a); assumption. Qed.
Lemma smaller_at k a b : at_most emin k a -> at_most emin k b -> at_most emin k (smaller a b).
Proof. unfold smaller. intros. destruct (SFltb b a); assumption. Qed.
Lemma hard_hard a b : tern a -> tern b -> hardf prec (SFmul prec emax (emb a) (emb b)).
Proof. intros Ha Hb. destruct (mulf_ok prec emax Hp He (emb a) (emb b)) as (H & _); [apply (hardf_emb prec Hp); assumption..|]. exact H. Qed.
Lemma calm_left m a b : calm (S m) a -> calm (S m) b -> calm m (combine_left_f prec emax a b).
Proof.
  intros (N & Va & Ba) (_ & Vb & Bb). pose proof (hard_hard (fsgn a) (fsgn b) (fsgn_tern a) (fsgn_tern b)) as Hh. unfold combine_left_f.
  assert (valid (smaller (SFabs a) (SFabs b))) as V by (apply smaller_valid; rewrite valid_abs; assumption).
  split; [lia|]. split; [apply (hard_mul prec emax Hp _ _ Hh V)|]. apply hard_at; [exact Hh|exact V|].
  apply (at_mono (emax - 1 - Z.of_nat (S m))); [lia|]. apply smaller_at; apply abs_at; assumption.
Qed.
Lemma calm_right m h a b : pm1 h -> calm (S m) a -> calm (S m) b -> calm m (combine_right_f prec emax (emb h) a b).
Proof.
  intros Hh (N & Va & Ba) (_ & Vb & Bb). assert (hardf prec (emb h)) as H by (apply (hardf_emb prec Hp), pm1_tern, Hh). unfold combine_right_f.
  assert (valid (SFmul prec emax (emb h) a)) as V by apply (hard_mul prec emax Hp _ _ H Va).
  split; [lia|]. split; [apply add_valid; assumption|]. replace (emax - 1 - Z.of_nat m)%Z with (emax - 1 - Z.of_nat (S m) + 1)%Z by lia.
  apply add_le; try assumption; try lia. apply hard_at; assumption.
Qed.
Lemma nonneg_notnan x : nonneg x -> notnan x.
Proof. intros (_ & H) ->. exact H. Qed.
Lemma nonneg_million : nonneg million.
Proof.
  unfold Model_polar_listf.million, of_int, binary_normalize. destruct (round_ok prec emax Hp false 1000000 0) as (V & S); [pose proof (emin_neg prec emax Hp He); lia|].
  split; [exact V|]. destruct (binary_round _ _ _ _ _) as [[]|[]| |[] ? ?]; cbn [fsgn] in S; try exact I; lia.
Qed.
Lemma nonneg_zero : nonneg (S754_zero false).
Proof. split; [reflexivity|exact I]. Qed.
Lemma pos_million : SFltb (S754_zero false) million = true.
Proof.
  unfold Model_polar_listf.million, of_int, binary_normalize. destruct (round_ok prec emax Hp false 1000000 0) as (V & S); [pose proof (emin_neg prec emax Hp He); lia|].
  destruct (binary_round _ _ _ _ _) as [[]|[]| |[] ? ?]; cbn [fsgn] in S; try reflexivity; lia.
Qed.
(** the metric never gets less *)
Lemma step_ge u m x : nonneg m -> valid x -> notnan x -> nonneg (step u m x) /\ SFltb (step u m x) m = false.
Proof.
  intros Hm Vx Nx. assert (nonneg m /\ SFltb m m = false) as Same by (split; [exact Hm|apply ltb_irrefl]). unfold step_metric. destruct (SFltb x (S754_zero false)) eqn:C.
  - destruct (u =? 1)%Z; [|exact Same]. rewrite sub_add. apply add_ge; try assumption. split; [rewrite valid_opp; exact Vx|]. destruct x as [[]|[]| |[] ? ?]; cbn in C; try discriminate; exact I.
  - destruct (u =? 1)%Z; [exact Same|]. destruct x as [[]|[]| |[] mx ex]; cbn in C; try discriminate; try (apply add_ge; try assumption; split; [exact Vx|exact I]).
    + assert (SFadd prec emax m (S754_zero true) = m) as E by (destruct Hm as (_ & Hm); destruct m as [[]|[]| |[] ? ?]; try contradiction; reflexivity). rewrite E. exact Same.
    + congruence.
Qed.
Definition big (m : spec_float) : Prop := SFltb m million = false.
Lemma step_nonneg n u m x : pm1 u -> nonneg m -> calm n x -> nonneg (step u m x).
Proof. intros _ Hm Hx. apply step_ge; [exact Hm|apply Hx|exact (calm_notnan n x Hx)]. Qed.
Lemma big_million : big million.
Proof. apply ltb_irrefl. Qed.
Lemma step_big n u m x : pm1 u -> nonneg m -> calm n x -> big m -> big (step u m x).
Proof.
  intros _ Hm Hx B. destruct (step_ge u m x Hm) as (N & G); [apply Hx|exact (calm_notnan n x Hx)|]. unfold big in *.
  apply (ltb_negtrans _ m); try assumption; apply nonneg_notnan; (assumption || apply nonneg_million).
Qed.
(** signs *)
Lemma step_agrees u m x : fsgn x = u -> pm1 u -> step u m x = m.
Proof. intros E Hu. unfold step_metric, pm1 in *. destruct x as [[]|[]| |[] ? ?]; cbn [fsgn] in E; subst u; try lia; reflexivity. Qed.
Lemma step_contradicts u x : fsgn x = (- u)%Z -> pm1 u -> SFltb (S754_zero false) (step u (S754_zero false) x) = true.
Proof. intros E Hu. unfold step_metric, pm1 in *. destruct x as [[]|[]| |[] ? ?]; cbn [fsgn] in E; try lia; destruct Hu as [-> | ->]; try lia; reflexivity. Qed.
Lemma step_pos n u m x : pm1 u -> nonneg m -> calm n x -> SFltb (S754_zero false) m = true -> SFltb (S754_zero false) (step u m x) = true.
Proof.
  intros Hu Hm Hx P. destruct (step_ge u m x Hm) as (N & G); [apply Hx|exact (calm_notnan n x Hx)|].
  destruct (SFltb (S754_zero false) (step u m x)) eqn:C; [reflexivity|]. exfalso. assert (SFltb (S754_zero false) m = false); [|congruence].
  apply (ltb_negtrans _ (step u m x)); try assumption; try (apply nonneg_notnan; assumption). discriminate.
Qed.
Lemma sgn_left a b : valid a -> valid b -> fsgn (combine_left_f prec emax a b) = (fsgn a * fsgn b)%Z.
Proof. intros Va Vb. pose proof (prodf_ok prec emax Hp He a b Va Vb) as (_ & E). unfold prodf in E. rewrite !signumf_ok in E by assumption. exact E. Qed.
Lemma sgn_right_f a b : valid a -> valid b -> fsgn a <> 0%Z -> fsgn b <> 0%Z -> fsgn (combine_right_f prec emax (emb (fsgn a * fsgn b)) a b) = fsgn b.
Proof. apply (maddf_ok prec emax Hp). Qed.
End Numbers.
