(** SIMD polar helper: lane by lane the integer operations. *)
From Coq Require Import ZifyBool ZifyNat.
From Verif Require Import Cpp Model_simd Model_polar Spec_polar Lib_list Lib_wht Proof_bits Proof_simd Proof_polar1 Proof_polar2 Proof_polar3 Proof_polar4 Proof_polar5 Proof_polar6.
Local Open Scope nat_scope.
Ltac Zify.zify_post_hook ::= idtac.

Definition lane (k : nat) (v : list Z) : Z := nth k v 0%Z.
Definition lanes_are (W : nat) (Q : Z -> Prop) (v : list Z) : Prop := length v = W /\ Forall Q v.
(** what the SIMD helper computes in each lane: like [combine_right] with the second operand clipped at -127 *)
Definition vzops : polar_ops Z := mk_ops Z 1%Z Z.sgn Z.mul combine_left (fun h a b => combine_right h (Z.max (-127) a) b).

Lemma lanes_nth W Q v k : lanes_are W Q v -> k < W -> Q (lane k v).
Proof. intros (L & F) H. unfold lane. rewrite Forall_forall in F. apply F, nth_In. lia. Qed.
Lemma lanes_map1 W (Q R : Z -> Prop) f v : (forall x, Q x -> R (f x)) -> lanes_are W Q v -> lanes_are W R (map f v).
Proof. intros H (L & F). split; [rewrite map_length; exact L|]. apply Forall_map. eapply Forall_impl; [|exact F]. exact H. Qed.
Lemma lanes_map2' W (Q O R : Z -> Prop) f a b : (forall x y, Q x -> O y -> R (f x y)) -> lanes_are W Q a -> lanes_are W O b -> lanes_are W R (map2 f a b).
Proof.
  intros H (La & Fa) (Lb & Fb). split; [rewrite length_map2; lia|]. unfold map2. apply Forall_map. apply Forall_forall. intros [x y] Hxy. cbn [fst snd].
  rewrite Forall_forall in Fa, Fb. apply H; [apply Fa; eapply in_combine_l; exact Hxy|apply Fb; eapply in_combine_r; exact Hxy].
Qed.
Lemma lanes_dup W (Q : Z -> Prop) x : Q x -> lanes_are W Q (vdup W x).
Proof. intros H. split; [apply repeat_length|]. apply Forall_forall. intros y Hy. apply repeat_spec in Hy. subst. exact H. Qed.
Lemma lane_dup W x k : k < W -> lane k (vdup W x) = x.
Proof. intros H. unfold lane, vdup. rewrite (nth_indep _ 0%Z x) by (rewrite repeat_length; exact H). apply nth_repeat. Qed.
Lemma lane_map1 W Q f v k : lanes_are W Q v -> k < W -> lane k (map f v) = f (lane k v).
Proof. intros (L & _) H. unfold lane. apply nth_map1. lia. Qed.
Lemma lane_map2 W Q O f a b k : lanes_are W Q a -> lanes_are W O b -> k < W -> lane k (map2 f a b) = f (lane k a) (lane k b).
Proof. intros (La & _) (Lb & _) H. unfold lane. apply nth_map2; lia. Qed.

Definition l_mul (x y : Z) : Z := to_s 8 ((b2z (0 <? y)%Z - b2z (y <? 0)%Z) * x)%Z.
Definition l_qabs (x : Z) : Z := to_s 8 (Z.abs (Z.max x (- s_max 8)%Z)).
Definition l_qadd (x y : Z) : Z := to_s 8 (Z.min (Z.max (to_s (2 * 8)%Z (x + y)%Z) (s_min 8)) (s_max 8)).
Lemma l_mul_ok x y : (-127 <= x <= 127)%Z -> l_mul x y = (Z.sgn y * x)%Z /\ (-127 <= l_mul x y <= 127)%Z.
Proof.
  intros H. unfold l_mul. rewrite sgn_b2z. pose proof (mul_tern_le (Z.sgn y) x (sgn_tern y)). rewrite to_s8_id by (unfold i8; lia). lia.
Qed.
Lemma sgn_of_tern x : tern x -> Z.sgn x = x.
Proof. unfold tern. intros H. assert (x = -1 \/ x = 0 \/ x = 1)%Z as [-> | [-> | ->]] by lia; reflexivity. Qed.
Lemma tern_mul_tern x y : tern x -> tern y -> l_mul x y = (x * y)%Z /\ tern (l_mul x y).
Proof.
  intros Hx Hy. destruct (l_mul_ok x y) as (E & _); [unfold tern in Hx; lia|]. rewrite E, sgn_of_tern by exact Hy. split; [lia|]. apply tern_mul; assumption.
Qed.
Lemma l_qabs_ok x : int8 x -> l_qabs x = Z.min 127 (Z.abs x).
Proof. intros H. apply qabs_s. exact H. Qed.
Lemma l_qadd_ok x y : int8 x -> int8 y -> l_qadd x y = sat8 (x + y)%Z.
Proof. intros Hx Hy. unfold l_qadd. apply qadd_s; assumption. Qed.
Lemma abs127 x : (0 <= Z.min 127 (Z.abs x) <= 127)%Z.
Proof. lia. Qed.
Lemma l_prod_ok a b : int8 a -> int8 b ->
  let r := l_mul (Z.min (l_qabs a) (l_qabs b)) (l_mul (b2z (0 <? a)%Z - b2z (a <? 0)%Z) b) in r = combine_left a b /\ (-127 <= r <= 127)%Z.
Proof.
  intros Ha Hb. cbv zeta. rewrite !l_qabs_ok, sgn_b2z by assumption. pose proof (abs127 a). pose proof (abs127 b).
  destruct (l_mul_ok (Z.min (Z.min 127 (Z.abs a)) (Z.min 127 (Z.abs b))) (l_mul (Z.sgn a) b)) as (E & R); [lia|]. rewrite E in *.
  split; [|exact R]. destruct (l_mul_ok (Z.sgn a) b) as (E2 & _); [pose proof (sgn_tern a) as T; unfold tern in T; lia|]. rewrite E2, Z.sgn_mul, !Z.sgn_sgn. unfold combine_left. lia.
Qed.
Lemma l_madd_ok h a b : tern h -> int8 a -> int8 b ->
  let r := Z.max (l_qadd (l_mul (Z.max a (-127)) h) b) (-127) in r = combine_right h (Z.max (-127) a) b /\ (-127 <= r <= 127)%Z.
Proof.
  intros Hh Ha Hb. cbv zeta. destruct (l_mul_ok (Z.max a (-127)) h) as (E & R); [unfold int8 in *; lia|]. rewrite l_qadd_ok by (unfold int8 in *; lia). rewrite E, sgn_of_tern by exact Hh.
  unfold combine_right, clamp, sat8. rewrite (Z.max_comm a). lia.
Qed.
Lemma l_neon_mul x y : tern x -> (-127 <= y <= 127)%Z -> to_s 8 (x * y)%Z = (x * y)%Z /\ (-127 <= to_s 8 (x * y) <= 127)%Z.
Proof. intros Hx Hy. pose proof (mul_tern_le x y Hx). rewrite to_s8_id by (unfold i8; lia). lia. Qed.

Section Width.
Context (W : nat).
Notation Is := (lanes_are W int8).
Notation Ih := (lanes_are W tern).
Lemma r127_int8 x : (-127 <= x <= 127)%Z -> int8 x.
Proof. unfold int8. lia. Qed.
Lemma tern_int8 x : tern x -> int8 x.
Proof. unfold tern, int8. lia. Qed.
Lemma lanes_impl (Q R : Z -> Prop) v : (forall x, Q x -> R x) -> lanes_are W Q v -> lanes_are W R v.
Proof. intros H (L & F). split; [exact L|]. eapply Forall_impl; [exact H|exact F]. Qed.

(** one statement for both branches of the helper *)
Record vops_ok (P : polar_ops (list Z)) : Prop := mk_vok {
  vk_one : Ih (p_one P) /\ forall k, k < W -> lane k (p_one P) = 1%Z;
  vk_sig : forall x, Is x -> Ih (p_signum P x) /\ forall k, k < W -> lane k (p_signum P x) = Z.sgn (lane k x);
  vk_mul : forall a b, Ih a -> Ih b -> Ih (p_mul P a b) /\ forall k, k < W -> lane k (p_mul P a b) = (lane k a * lane k b)%Z;
  vk_prod : forall a b, Is a -> Is b -> Is (p_prod P a b) /\ forall k, k < W -> lane k (p_prod P a b) = combine_left (lane k a) (lane k b);
  vk_madd : forall h a b, Ih h -> Is a -> Is b -> Is (p_madd P h a b) /\ forall k, k < W -> lane k (p_madd P h a b) = combine_right (lane k h) (Z.max (-127) (lane k a)) (lane k b) }.
Lemma vsignum_ok x : Is x -> Ih (vsignum x) /\ forall k, k < W -> lane k (vsignum x) = Z.sgn (lane k x).
Proof.
  intros H. unfold vsignum. split.
  - eapply lanes_map1; [|exact H]. intros y _. cbv beta. rewrite sgn_b2z. apply sgn_tern.
  - intros k Hk. rewrite (lane_map1 W int8) by assumption. apply sgn_b2z.
Qed.
Lemma ops8v_ok : vops_ok (ops8v W).
Proof.
  constructor; cbn [p_one p_signum p_mul p_prod p_madd ops8v].
  - split; [apply lanes_dup; unfold tern; lia|intros k Hk; apply lane_dup; exact Hk].
  - apply vsignum_ok.
  - intros a b Ha Hb. unfold vsign. change (fun x y => to_s 8 ((b2z (0 <? y)%Z - b2z (y <? 0)%Z) * x)%Z) with l_mul. split.
    + eapply lanes_map2'; [|exact Ha|exact Hb]. intros; apply tern_mul_tern; assumption.
    + intros k Hk. rewrite (lane_map2 W tern tern) by assumption. apply tern_mul_tern; eapply lanes_nth; eassumption.
  - intros a b Ha Hb. unfold vsign, vmin, vqabs. change (fun x y => to_s 8 ((b2z (0 <? y)%Z - b2z (y <? 0)%Z) * x)%Z) with l_mul. change (fun x => to_s 8 (Z.abs (Z.max x (- s_max 8)%Z))) with l_qabs.
    set (R := fun x => (0 <= x <= 127)%Z).
    assert (lanes_are W R (map l_qabs a)) as A1 by (eapply lanes_map1; [|exact Ha]; intros x Hx; rewrite l_qabs_ok by exact Hx; unfold R; lia).
    assert (lanes_are W R (map l_qabs b)) as B1 by (eapply lanes_map1; [|exact Hb]; intros x Hx; rewrite l_qabs_ok by exact Hx; unfold R; lia).
    assert (lanes_are W R (map2 Z.min (map l_qabs a) (map l_qabs b))) as M1 by (eapply lanes_map2'; [|exact A1|exact B1]; unfold R; lia).
    destruct (vsignum_ok a Ha) as (Sa & SaE).
    assert (lanes_are W int8 (map2 l_mul (vsignum a) b)) as S1.
    { eapply lanes_map2'; [|exact Sa|exact Hb]. intros x y Hx Hy. apply r127_int8. apply l_mul_ok. unfold tern in Hx. lia. }
    split.
    + eapply lanes_map2'; [|exact M1|exact S1]. intros x y Hx Hy. apply r127_int8. apply l_mul_ok. unfold R in Hx. lia.
    + intros k Hk. rewrite (lane_map2 W R int8) by assumption. rewrite (lane_map2 W R R), (lane_map2 W tern int8), !(lane_map1 W int8) by assumption.
      rewrite SaE by exact Hk. destruct (l_prod_ok (lane k a) (lane k b)) as (E & _); [eapply lanes_nth; eassumption|eapply lanes_nth; eassumption|].
      rewrite sgn_b2z in E. exact E.
  - intros h a b Hh Ha Hb. unfold vsign, vmax, vqadd. change (fun x y => to_s 8 ((b2z (0 <? y)%Z - b2z (y <? 0)%Z) * x)%Z) with l_mul.
    change (fun x y => to_s 8 (Z.min (Z.max (to_s (2 * 8)%Z (x + y)%Z) (s_min 8)) (s_max 8))) with l_qadd.
    assert (lanes_are W int8 (vdup W (-127)%Z)) as D1 by (apply lanes_dup; unfold int8; lia).
    set (R := fun x => (-127 <= x <= 127)%Z).
    assert (lanes_are W R (map2 Z.max a (vdup W (-127)%Z))) as M1.
    { eapply (lanes_map2' W int8 (fun x => x = (-127)%Z)); [|exact Ha|apply lanes_dup; reflexivity]. unfold int8, R. intros. lia. }
    assert (lanes_are W int8 (map2 l_mul (map2 Z.max a (vdup W (-127)%Z)) h)) as M2.
    { eapply lanes_map2'; [|exact M1|exact Hh]. intros x y Hx Hy. apply r127_int8. apply l_mul_ok. exact Hx. }
    assert (lanes_are W int8 (map2 l_qadd (map2 l_mul (map2 Z.max a (vdup W (-127)%Z)) h) b)) as M3.
    { eapply lanes_map2'; [|exact M2|exact Hb]. intros x y Hx Hy. rewrite l_qadd_ok by assumption. apply sat8_i8. }
    split.
    + eapply lanes_map2'; [|exact M3|exact D1]. unfold int8. intros. lia.
    + intros k Hk. rewrite (lane_map2 W int8 int8), (lane_map2 W int8 int8), (lane_map2 W R tern), (lane_map2 W int8 int8), lane_dup by assumption.
      apply l_madd_ok; eapply lanes_nth; eassumption.
Qed.
Lemma ops8v_neon_ok : vops_ok (ops8v_neon W).
Proof.
  constructor; cbn [p_one p_signum p_mul p_prod p_madd ops8v_neon].
  - split; [apply lanes_dup; unfold tern; lia|intros k Hk; apply lane_dup; exact Hk].
  - apply vsignum_ok.
  - intros a b Ha Hb. unfold vmul. split.
    + eapply lanes_map2'; [|exact Ha|exact Hb]. intros x y Hx Hy. destruct (l_neon_mul x y Hx) as (-> & _); [unfold tern in Hy; lia|]. apply tern_mul; assumption.
    + intros k Hk. rewrite (lane_map2 W tern tern) by assumption. pose proof (lanes_nth W tern b k Hb Hk) as T. apply l_neon_mul; [eapply lanes_nth; eassumption|unfold tern in T; lia].
  - intros a b Ha Hb. unfold vmul, vmin, vqabs. change (fun x => to_s 8 (Z.abs (Z.max x (- s_max 8)%Z))) with l_qabs.
    set (R := fun x => (0 <= x <= 127)%Z).
    assert (lanes_are W R (map l_qabs a)) as A1 by (eapply lanes_map1; [|exact Ha]; intros x Hx; rewrite l_qabs_ok by exact Hx; unfold R; lia).
    assert (lanes_are W R (map l_qabs b)) as B1 by (eapply lanes_map1; [|exact Hb]; intros x Hx; rewrite l_qabs_ok by exact Hx; unfold R; lia).
    assert (lanes_are W R (map2 Z.min (map l_qabs a) (map l_qabs b))) as M1 by (eapply lanes_map2'; [|exact A1|exact B1]; unfold R; lia).
    destruct (vsignum_ok a Ha) as (Sa & SaE). destruct (vsignum_ok b Hb) as (Sb & SbE).
    assert (forall x y, tern x -> tern y -> to_s 8 (x * y)%Z = (x * y)%Z) as TT by (intros x y Hx Hy; apply l_neon_mul; [exact Hx|unfold tern in Hy; lia]).
    assert (Ih (map2 (fun x y => to_s 8 (x * y)%Z) (vsignum a) (vsignum b))) as S1.
    { eapply lanes_map2'; [|exact Sa|exact Sb]. intros x y Hx Hy. cbv beta. rewrite TT by assumption. apply tern_mul; assumption. }
    split.
    + eapply lanes_map2'; [|exact S1|exact M1]. intros x y Hx Hy. apply r127_int8. apply l_neon_mul; [exact Hx|unfold R in Hy; lia].
    + intros k Hk. rewrite (lane_map2 W tern R) by assumption. rewrite (lane_map2 W R R Z.min), (lane_map2 W tern tern), !(lane_map1 W int8) by assumption.
      rewrite SaE, SbE by exact Hk. rewrite (TT (Z.sgn (lane k a)) (Z.sgn (lane k b))) by apply sgn_tern.
      rewrite !l_qabs_ok by (eapply lanes_nth; eassumption). unfold combine_left. apply l_neon_mul; [apply tern_mul; apply sgn_tern|]. lia.
  - intros h a b Hh Ha Hb. unfold vmul, vmax, vqadd.
    change (fun x y => to_s 8 (Z.min (Z.max (to_s (2 * 8)%Z (x + y)%Z) (s_min 8)) (s_max 8))) with l_qadd.
    assert (lanes_are W int8 (vdup W (-127)%Z)) as D1 by (apply lanes_dup; unfold int8; lia).
    set (R := fun x => (-127 <= x <= 127)%Z).
    assert (lanes_are W R (map2 Z.max a (vdup W (-127)%Z))) as M1.
    { eapply (lanes_map2' W int8 (fun x => x = (-127)%Z)); [|exact Ha|apply lanes_dup; reflexivity]. unfold int8, R. intros. lia. }
    assert (lanes_are W int8 (map2 (fun x y => to_s 8 (x * y)%Z) h (map2 Z.max a (vdup W (-127)%Z)))) as M2.
    { eapply lanes_map2'; [|exact Hh|exact M1]. intros x y Hx Hy. apply r127_int8. apply l_neon_mul; assumption. }
    assert (lanes_are W int8 (map2 l_qadd (map2 (fun x y => to_s 8 (x * y)%Z) h (map2 Z.max a (vdup W (-127)%Z))) b)) as M3.
    { eapply lanes_map2'; [|exact M2|exact Hb]. intros x y Hx Hy. rewrite l_qadd_ok by assumption. apply sat8_i8. }
    split.
    + eapply lanes_map2'; [|exact M3|exact D1]. unfold int8. intros. lia.
    + intros k Hk. rewrite (lane_map2 W int8 int8), (lane_map2 W int8 int8), (lane_map2 W tern R), (lane_map2 W int8 int8), lane_dup by assumption.
      pose proof (lanes_nth W int8 a k Ha Hk) as Ka. pose proof (lanes_nth W int8 b k Hb Hk) as Kb. pose proof (lanes_nth W tern h k Hh Hk) as Kh.
      destruct (l_neon_mul (lane k h) (Z.max (lane k a) (-127))) as (E & R1); [exact Kh|unfold int8 in Ka; lia|].
      rewrite l_qadd_ok by (unfold int8 in *; lia). rewrite E in *. unfold combine_right, clamp, sat8. rewrite (Z.max_comm (lane k a)). lia.
Qed.

(** the SIMD decoder, lane by lane *)
Lemma vnode_lane P n fl sl k : vops_ok P -> k < W -> Forall Is sl -> Forall (fun v => (-127 <= lane k v)%Z) sl ->
  map (lane k) (fst (fnode P n fl sl)) = fst (fnode ops8 n fl (map (lane k) sl)) /\ map (lane k) (snd (fnode P n fl sl)) = snd (fnode ops8 n fl (map (lane k) sl)).
Proof.
  intros OK Hk F F2.
  destruct (fnode_hom P vzops (lane k) Is Ih) with (n := n) (fl := fl) (sl := sl) as (E & _); [| | | | |exact F|].
  - destruct (vk_one P OK) as (H & E). split; [exact H|]. apply E; exact Hk.
  - intros x Hx. destruct (vk_sig P OK x Hx) as (H & E). split; [exact H|]. symmetry. apply E; exact Hk.
  - intros a b Ha Hb. destruct (vk_mul P OK a b Ha Hb) as (H & E). split; [exact H|]. symmetry. apply E; exact Hk.
  - intros a b Ha Hb. destruct (vk_prod P OK a b Ha Hb) as (H & E). split; [exact H|]. symmetry. apply E; exact Hk.
  - intros h a b Hh Ha Hb. destruct (vk_madd P OK h a b Hh Ha Hb) as (H & E). split; [exact H|]. symmetry. apply E; exact Hk.
  - set (R := fun x => (-127 <= x <= 127)%Z).
    assert (Forall R (map (lane k) sl)) as FR.
    { apply Forall_map. apply Forall_forall. intros v Hv. rewrite Forall_forall in F, F2. specialize (F v Hv). specialize (F2 v Hv). cbv beta in F2.
      pose proof (lanes_nth W int8 v k F Hk) as I8. unfold R, int8 in *. lia. }
    rewrite node8 by (eapply Forall_impl; [|exact FR]; intros x; unfold R, int8; lia).
    destruct (fnode_hom vzops zops (fun x => x) R tern) with (n := n) (fl := fl) (sl := map (lane k) sl) as (E2 & _); [| | | | |exact FR|].
    + split; [unfold tern; cbn; lia|reflexivity].
    + intros x _. split; [apply sgn_tern|reflexivity].
    + intros a b Ha Hb. split; [apply tern_mul; assumption|reflexivity].
    + intros a b Ha Hb. split; [|reflexivity]. cbn [p_prod vzops]. unfold combine_left, R.
      pose proof (mul_tern_le (Z.sgn a * Z.sgn b) (Z.min (Z.min 127 (Z.abs a)) (Z.min 127 (Z.abs b))) (tern_mul _ _ (sgn_tern a) (sgn_tern b))). lia.
    + intros x a b Hx Ha Hb. cbn [p_madd vzops zops]. unfold combine_right, clamp. rewrite (Z.max_r (-127) a) by (unfold R in Ha; lia). split; [unfold R; lia|reflexivity].
    + rewrite !map_id in E2. rewrite E2. rewrite E. auto.
Qed.
End Width.
