(** Polar list decoders with floating point lanes and bounded soft values: decoding without noise. *)
From Coq Require Import ZifyBool ZifyNat ZifyN Permutation Floats.SpecFloat.
From Verif Require Import Cpp Model_simd Model_sort Model_polar Model_polar_list Model_polar_float Model_fsimd Model_polar_listf Spec_polar Spec_polar_float Spec_polar_list Spec_polar_listf
  Lib_list Lib_wht Lib_float3 Proof_bits Proof_simd Proof_polar1 Proof_polar2 Proof_polar3 Proof_polar4 Proof_polar5 Proof_polar6 Proof_polar7 Proof_plist1 Proof_plist2 Proof_plist4 Proof_plist5 Proof_plist6
  Proof_plf0 Proof_plf1 Proof_plf2 Proof_plf3 Proof_plf4 Proof_plf5 Proof_plf6 Proof_plf7.
Local Open Scope nat_scope.
Ltac Zify.zify_post_hook ::= idtac.

Section Decoder.
Variables (prec emax ub : Z) (W : nat).
Hypothesis Hp : (1 < prec)%Z.
Hypothesis He : (prec < emax)%Z.
Hypothesis HW : 1 <= W.
Notation P := (opsfv prec emax W).
Notation emb := (hard_value prec).
Notation million := (million prec emax).
Notation step := (step_metric prec emax).
Variable next : nat -> role * nat.
Hypothesis next_ok : forall c, fst (next c) <> Frozen.
Notation SI := (calm prec emax).
Notation MI := (nonneg prec emax).
Notation Is := (Isf W SI).
Notation Iv := (lanes_are W pm1).
Notation is_map := (is_map W).
Notation groles := (groles next).
Notation ones := (repeat 1%Z W).
Let SIl := calm_left prec emax Hp He.
Let SIr := calm_right prec emax Hp He.
Let MIs := step_nonneg prec emax Hp.
Let MIm := nonneg_million prec emax Hp He.
Notation posf x := (SFltb z0 x = true).

(** ** Without noise lane 0 follows the message *)
Definition leadsf (metric : list spec_float) : Prop := flane 0 metric = z0 /\ forall k, 0 < k -> k < W -> posf (flane k metric).
Definition gclean (n : nat) (fl : list bool) (F : gn) : Prop := forall a sl M,
  gwf W next MI a -> length sl = 2 ^ n -> Forall (Is n) sl ->
  let rs := groles fl (g_left a) in
  length M = payload rs -> Forall pm1 M -> leadsf (g_metric a) -> map fsgn (lane_off 0 sl) = ptr n (symbols rs (lane 0 (g_par a)) M) ->
  let '(mp, x, a') := F a sl in
  at_ mp 0 = 0 /\ leadsf (g_metric a') /\ bits (g_hist a') 0 = bits (g_hist a) 0 ++ M /\ lane_of 0 x = ptr n (symbols rs (lane 0 (g_par a)) M) /\
  lane 0 (g_par a') = pafter rs (lane 0 (g_par a)) M.
Lemma fork_lt mp bt k : is_map mp -> k < W -> fork_index mp bt k < 2 * W.
Proof. intros H Hk. unfold fork_index. pose proof (at_lt W mp k H Hk). destruct (_ =? _)%Z; lia. Qed.
Lemma select_cleanf fork b : length fork = 2 * W -> Forall notnan fork -> pm1 b -> nth (if (b =? 1)%Z then 0 else 1) fork z0 = z0 ->
  (forall j, j < 2 * W -> j <> (if (b =? 1)%Z then 0 else 1) -> posf (nth j fork z0)) ->
  at_ (self_map W fork) 0 = 0 /\ lane 0 (self_bit W fork) = b /\ leadsf (self_metric W fork).
Proof.
  intros L FN Hb H0 H1. destruct (selectf_spec ub W HW fork L) as (S1 & S2 & S3 & S4 & S5 & S6 & S7). specialize (S4 FN). specialize (S7 FN). set (j0 := if (b =? 1)%Z then 0 else 1) in *.
  assert (j0 < 2 * W) as Hj by (unfold j0; destruct (b =? 1)%Z; lia). pose proof (fork_lt (self_map W fork) (self_bit W fork) 0 S1 ltac:(lia)) as R0.
  assert (SFltb z0 (flane 0 (self_metric W fork)) = false) as Hle.
  { destruct (S7 j0 Hj) as [(k & Hk & Ek)|H].
    - assert (flane k (self_metric W fork) = z0) as E by (rewrite S5, Ek by exact Hk; exact H0). destruct k as [|k]; [rewrite E; reflexivity|]. specialize (S4 0 (S k) ltac:(lia) ltac:(lia)). unfold flane in *. rewrite E in S4. exact S4.
    - specialize (H 0 ltac:(lia)). rewrite H0 in H. exact H. }
  assert (fork_index (self_map W fork) (self_bit W fork) 0 = j0) as E0.
  { destruct (Nat.eq_dec (fork_index (self_map W fork) (self_bit W fork) 0) j0) as [E|E]; [exact E|]. specialize (H1 _ R0 E). rewrite S5 in Hle by lia. congruence. }
  assert (at_ (self_map W fork) 0 = 0 /\ lane 0 (self_bit W fork) = b) as (Ea & Eb).
  { unfold fork_index, j0 in E0. pose proof (lanes_get W _ _ 0 S2 ltac:(lia)) as Q. unfold pm1 in *. destruct (Z.eqb_spec (lane 0 (self_bit W fork)) 1), (Z.eqb_spec b 1); lia. }
  split; [exact Ea|]. split; [exact Eb|]. split.
  - rewrite S5 by lia. rewrite E0. exact H0.
  - intros k Hk Hk2. rewrite S5 by exact Hk2. apply H1; [apply fork_lt; assumption|]. rewrite <- E0. apply S6; lia.
Qed.
Lemma gleaf_clean : gclean 0 [false] (gleaf prec emax W next).
Proof.
  intros a sl M (Lm & Hm & Hpar & Hh & Hn) L F. destruct sl as [|v [|? ?]]; try discriminate. pose proof (Forall_inv F) as Hv. unfold gleaf. cbn [hd].
  pose proof (next_ok (g_left a)) as Hnx. cbn [Proof_plist2.groles]. destruct (next (g_left a)) as [r c] eqn:En. cbn [fst snd] in *. set (rs := [r]). intros LM FM (Z0 & Z1) E. cbn [map lane_off] in E. fold (flane 0 v) in E.
  pose proof (forkf_MI prec emax ub W HW next next_ok SI MI SIl SIr MIs _ _ Lm Hm Hv) as FMI. pose proof (length_fforkf prec emax W (g_metric a) v) as Lf.
  assert (forall j b, pm1 b -> fsgn (flane 0 v) = b -> j < 2 * W -> nth j (fforkf prec emax W (g_metric a) v) z0 = z0 /\ j = (if (b =? 1)%Z then 0 else 1) \/ posf (nth j (fforkf prec emax W (g_metric a) v) z0) /\ j <> (if (b =? 1)%Z then 0 else 1)) as Fk.
  { intros j b Hb Es Hj. destruct (even_odd_case j) as (k & Ek). assert (k < W) as Hk by lia. unfold fforkf.
    destruct (nth_fpairs (fun k => step 1 (flane k (g_metric a)) (flane k v)) (fun k => step (-1) (flane k (g_metric a)) (flane k v)) W k Hk) as (E0 & E1).
    destruct (Nat.eq_dec k 0) as [-> | Hne].
    - rewrite Z0 in E0, E1. pose proof (step_agrees prec emax b z0 _ Es Hb) as N1. pose proof (step_contradicts prec emax (- b)%Z (flane 0 v) ltac:(lia) ltac:(unfold pm1 in *; lia)) as N2.
      destruct Hb as [-> | ->]; cbn [Z.eqb Pos.eqb Z.opp] in *; destruct Ek as [-> | ->]; rewrite ?E0, ?E1; (left; split; [exact N1|lia]) || (right; split; [exact N2|lia]).
    - right. split; [|destruct (b =? 1)%Z; lia]. specialize (Z1 k ltac:(lia) Hk). pose proof (Isf_get prec emax ub W HW next next_ok SI MI SIl SIr MIs 0 v k Hv Hk) as Cv.
      assert (MI (flane k (g_metric a))) as Cm by (apply Forall_flane; [exact Hm|lia]).
      destruct Ek as [-> | ->]; rewrite ?E0, ?E1; apply (step_pos prec emax Hp 0); try assumption; unfold pm1; auto. }
  assert (r = Data \/ r = Parity) as [-> | ->] by (destruct r; [congruence|auto|auto]).
  - destruct M as [|b [|? ?]]; cbn [payload filter length rs] in LM; try discriminate. pose proof (Forall_inv FM) as Hb. cbn [symbols rs hd tl ptr] in E.
    assert (fsgn (flane 0 v) = b) as Es by (injection E; auto). cbn [g_metric g_hist g_par]. set (fork := fforkf prec emax W (g_metric a) v) in *.
    assert ((if (b =? 1)%Z then 0 else 1) < 2 * W) as Hj0 by (destruct (b =? 1)%Z; lia).
    destruct (select_cleanf fork b) as (Ea & Eb & Hl); [exact Lf|apply (MI_notnan prec emax); exact FMI|exact Hb| | |].
    + destruct (Fk _ b Hb Es Hj0) as [(Q & _)|(_ & Q)]; [exact Q|congruence].
    + intros j Hj Hne. destruct (Fk j b Hb Es Hj) as [(_ & Q)|(Q & _)]; [congruence|exact Q].
    + destruct (selectf_spec ub W HW fork Lf) as (S1 & S2 & _).
      split; [exact Ea|]. split; [exact Hl|]. split; [cbn [bits]; rewrite Ea, Eb; reflexivity|]. split; [cbn [ptr symbols rs hd lane_of map]; f_equal; exact Eb|].
      cbn [pafter rs hd tl]. pose proof (lanes_vshuf W _ _ _ Hpar S1) as Hs. rewrite (lane_zmulv ub W HW) by (apply Hs || apply S2 || lia). rewrite (lane_vshuf W _ _ _ pm1) by (assumption || lia). rewrite Ea, Eb. reflexivity.
  - destruct M; [|discriminate]. cbn [symbols rs ptr] in E. assert (fsgn (flane 0 v) = lane 0 (g_par a)) as Es by (injection E; auto).
    pose proof (lanes_get W _ _ 0 Hpar ltac:(lia)) as Hb. set (b := lane 0 (g_par a)) in *. cbn [g_metric g_hist g_par].
    specialize (Hn eq_refl). destruct (g_hist a) as [|[m p] h] eqn:Eh; [congruence|]. pose proof (Forall_inv Hh) as (H1 & H2). cbn [fst snd] in *.
    set (f0 := fforkf prec emax W (g_metric a) v) in *. set (fork := fkillf prec emax W (g_par a) f0). pose proof (length_fkillf prec emax W (g_par a) f0) as Lk. fold fork in Lk.
    assert ((if (b =? 1)%Z then 0 else 1) < 2 * W) as Hj0 by (destruct (b =? 1)%Z; lia).
    assert (forall j, j < 2 * W -> nth j fork z0 = nth j f0 z0 \/ nth j fork z0 = million /\ j <> (if (b =? 1)%Z then 0 else 1)) as Kv.
    { intros j Hj. destruct (even_odd_case j) as (k & Ek). assert (k < W) as Hk by lia. unfold fork, fkillf.
      destruct (nth_fpairs (fun k => if (lane k (g_par a) <? 0)%Z then million else nth (2 * k) f0 z0) (fun k => if (lane k (g_par a) <? 0)%Z then nth (2 * k + 1) f0 z0 else million) W k Hk) as (E0 & E1).
      destruct (Nat.eq_dec k 0) as [-> | Hne].
      - fold b in E0, E1. destruct Hb as [Hb | Hb]; rewrite Hb in *; cbn [Z.eqb Pos.eqb Z.ltb Z.compare] in *; destruct Ek as [-> | ->]; rewrite ?E0, ?E1; auto; right; (split; [reflexivity|lia]).
      - assert (j <> (if (b =? 1)%Z then 0 else 1)) by (destruct (b =? 1)%Z; lia). destruct Ek as [-> | ->]; rewrite ?E0, ?E1; destruct (lane k (g_par a) <? 0)%Z; auto. }
    destruct (select_cleanf fork b) as (Ea & Eb & Hl); [exact Lk|apply (MI_notnan prec emax), (killf_MI prec emax ub W HW next next_ok SI MI SIl SIr MIs MIm); assumption|exact Hb| | |].
    + destruct (Kv _ Hj0) as [-> | (_ & K)]; [|congruence]. destruct (Fk _ b Hb Es Hj0) as [(Q & _)|(_ & Q)]; [exact Q|congruence].
    + intros j Hj Hne. destruct (Kv _ Hj) as [-> | (-> & _)]; [|apply pos_million; assumption]. destruct (Fk j b Hb Es Hj) as [(_ & Q)|(Q & _)]; [congruence|exact Q].
    + destruct (selectf_spec ub W HW fork Lk) as (S1 & S2 & _).
      split; [exact Ea|]. split; [exact Hl|]. split; [|split].
      * cbn [bits]. rewrite app_nil_r, (at_vshuf W) by (assumption || lia). rewrite (lane_vshuf W _ _ _ pm1) by (assumption || lia). rewrite Ea. reflexivity.
      * cbn [ptr symbols rs hd lane_of map]. f_equal. exact Eb.
      * apply (lane_ones prec emax ub W HW next next_ok SI MI SIl SIr MIs). lia.
Qed.
Lemma block_zero l : forall n, map fsgn l = repeat 1%Z n -> block_metric prec emax l z0 = z0.
Proof.
  induction l as [|x l IH]; intros [|n] E; try discriminate; [reflexivity|]. cbn [map repeat] in E. assert (map fsgn l = repeat 1%Z n) as E2 by (injection E; auto).
  assert (fsgn x = 1%Z) as E1 by (injection E; auto). cbn [block_metric fold_left]. change (z0) with (S754_zero false). rewrite (step_agrees prec emax 1 _ x E1) by (left; reflexivity). apply (IH n E2).
Qed.
Lemma block_pos n l : forall m, Forall (SI n) l -> MI m -> posf m -> posf (block_metric prec emax l m).
Proof.
  induction l as [|x l IH]; intros m F Hm H; [exact H|]. pose proof (Forall_inv F) as Hx. apply Forall_inv_tail in F. cbn [block_metric fold_left]. assert (pm1 1) as P1 by (left; reflexivity).
  apply IH; [assumption|apply (MIs n); assumption|]. apply (step_pos prec emax Hp n); assumption.
Qed.
Lemma gr0_clean n fl : length fl = 2 ^ n -> forallb (fun b => b) fl = true -> gclean n fl (gr0 prec emax W n).
Proof.
  intros Lf Af a sl M (Lm & Hm & Hpar & Hh & Hn) L F rs LM FM (Z0 & Z1) E. unfold gr0. destruct (groles_all next fl (g_left a) Af) as (Er & Ea). unfold rs in *. rewrite Er, Lf in *.
  rewrite payload_frozen in LM. destruct M; [|discriminate]. destruct (symbols_frozen (2 ^ n) (lane 0 (g_par a)) []) as (Es & Ep). rewrite Es in *. rewrite Ep. rewrite ptr_ones in *.
  cbn [g_metric g_hist g_par]. split; [apply (atf_iota ub W HW); lia|]. split; [split|split; [rewrite app_nil_r; reflexivity|split; [apply (lane_of_onesf prec emax ub W HW next next_ok SI MI SIl SIr MIs); lia|reflexivity]]].
  - rewrite (flane_gcharged prec emax ub W HW next next_ok SI MI SIl SIr MIs) by lia. rewrite Z0. apply (block_zero _ _ E).
  - intros k Hk Hk2. rewrite (flane_gcharged prec emax ub W HW next next_ok SI MI SIl SIr MIs) by lia. apply (block_pos n); [apply (lane_off_SI prec emax ub W HW next next_ok SI MI SIl SIr MIs); assumption|apply Forall_flane; [exact Hm|lia]|].
    apply Z1; assumption.
Qed.
Lemma Forall_valid n l : Forall (SI n) l -> Forall (fun x => valid_binary prec emax x = true) l.
Proof. apply Forall_impl. intros x H. apply H. Qed.
Lemma sgn_sleft n m s : length s = 2 ^ S m -> Forall (SI n) s -> map fsgn (sleftf prec emax m s) = zip2 Z.mul (map fsgn (firstn (2 ^ m) s)) (map fsgn (skipn (2 ^ m) s)).
Proof.
  intros L F. apply Forall_valid in F. unfold sleftf. assert (Forall (fun x => valid_binary prec emax x = true) (firstn (2 ^ m) s)) as F1 by (apply Forall_firstn_; exact F).
  assert (Forall (fun x => valid_binary prec emax x = true) (skipn (2 ^ m) s)) as F2 by (apply Forall_skipn_; exact F). revert F2. generalize (skipn (2 ^ m) s). induction F1 as [|x a Hx F1 IH]; intros [|y b] F2; try reflexivity.
  pose proof (Forall_inv F2) as Hy. apply Forall_inv_tail in F2. cbn [zip2 map]. rewrite (sgn_left prec emax Hp He) by assumption. f_equal. apply IH. exact F2.
Qed.
Lemma sgn_srightf n m x1 s : Forall (SI n) s -> length s = 2 ^ S m ->
  x1 = zip2 Z.mul (map fsgn (firstn (2 ^ m) s)) (map fsgn (skipn (2 ^ m) s)) -> Forall pm1 (map fsgn s) -> map fsgn (srightf prec emax m x1 s) = map fsgn (skipn (2 ^ m) s).
Proof.
  intros F L -> H. apply Forall_valid in F. unfold srightf. cbn [Nat.pow] in L.
  assert (Forall (fun x => valid_binary prec emax x = true) (firstn (2 ^ m) s)) as F1 by (apply Forall_firstn_; exact F).
  assert (Forall (fun x => valid_binary prec emax x = true) (skipn (2 ^ m) s)) as F2 by (apply Forall_skipn_; exact F).
  assert (Forall pm1 (map fsgn (firstn (2 ^ m) s))) as G1 by (rewrite <- firstn_map; apply Forall_firstn_; exact H). assert (Forall pm1 (map fsgn (skipn (2 ^ m) s))) as G2 by (rewrite <- skipn_map; apply Forall_skipn_; exact H).
  assert (length (firstn (2 ^ m) s) = length (skipn (2 ^ m) s)) as EL by (rewrite firstn_length, skipn_length; lia).
  revert F1 F2 G1 G2 EL. generalize (skipn (2 ^ m) s). generalize (firstn (2 ^ m) s). clear - Hp. intros a. induction a as [|x a IH]; intros [|y b] F1 F2 G1 G2 EL; try discriminate; [reflexivity|].
  cbn [map] in G1, G2. pose proof (Forall_inv F1). pose proof (Forall_inv F2). pose proof (Forall_inv G1) as Q1. pose proof (Forall_inv G2) as Q2. apply Forall_inv_tail in F1, F2, G1, G2. cbn [length] in EL.
  cbn [map zip2 zip3]. rewrite (sgn_right_f prec emax Hp) by (assumption || (unfold pm1 in *; lia)). f_equal. apply IH; try assumption. lia.
Qed.
Lemma gjoin_clean m fl FL FR : length fl = 2 ^ S m -> ggood W next SI MI m (firstn (2 ^ m) fl) FL -> ggood W next SI MI m (skipn (2 ^ m) fl) FR ->
  gclean m (firstn (2 ^ m) fl) FL -> gclean m (skipn (2 ^ m) fl) FR -> gclean (S m) fl (gjoin prec emax W FL FR m).
Proof.
  intros Lfl GL GR SL SR a sl M Ha L F rs LM FM Hl E. unfold gjoin. destruct (gleft_wf prec emax ub W Hp He HW next next_ok SI MI SIl SIr MIs m sl L F) as (L1 & F1). pose proof (pow2_pos m) as Hpw.
  assert (rs = groles (firstn (2 ^ m) fl) (g_left a) ++ groles (skipn (2 ^ m) fl) (gafter next (firstn (2 ^ m) fl) (g_left a))) as Er.
  { unfold rs. rewrite <- (firstn_skipn (2 ^ m) fl) at 1. apply groles_app. }
  cbn [Nat.pow] in Lfl. assert (length (firstn (2 ^ m) fl) = 2 ^ m) as Lf1 by (rewrite firstn_length; lia). assert (length (skipn (2 ^ m) fl) = 2 ^ m) as Lf2 by (rewrite skipn_length; lia).
  set (r1 := groles (firstn (2 ^ m) fl) (g_left a)) in *. set (r2 := groles (skipn (2 ^ m) fl) (gafter next (firstn (2 ^ m) fl) (g_left a))) in *.
  assert (length r1 = 2 ^ m) as Lr1 by (unfold r1; rewrite length_groles; exact Lf1). assert (length r2 = 2 ^ m) as Lr2 by (unfold r2; rewrite length_groles; exact Lf2).
  rewrite Er, payload_app in LM.
  set (M1 := firstn (payload r1) M). set (M2 := skipn (payload r1) M). assert (M = M1 ++ M2) as EM by (symmetry; apply firstn_skipn).
  assert (length M1 = payload r1) as LM1 by (unfold M1; rewrite firstn_length; lia). assert (length M2 = payload r2) as LM2 by (unfold M2; rewrite skipn_length; lia).
  assert (Forall pm1 M1) as FM1 by (apply Forall_firstn_; exact FM). assert (Forall pm1 M2) as FM2 by (apply Forall_skipn_; exact FM).
  set (par := lane 0 (g_par a)) in *. assert (Ha' := Ha). destruct Ha' as (Am & AM & Ap & Ah). pose proof (lanes_get W _ _ 0 Ap ltac:(lia)) as Hpar. fold par in Hpar.
  destruct (symbols_app r1 r2 par M1 M2 LM1) as (Es & Epf). rewrite <- EM, <- Er in Es, Epf. rewrite Es, Epf in *.
  destruct (pm1_symbols r1 par M1 Hpar FM1) as (Q1 & Q1'). destruct (pm1_symbols r2 _ M2 Q1' FM2) as (Q2 & Q2').
  assert (length (symbols r1 par M1) = 2 ^ m) as Ls1 by (rewrite length_symbols; exact Lr1). assert (length (symbols r2 (pafter r1 par M1) M2) = 2 ^ m) as Ls2 by (rewrite length_symbols; exact Lr2).
  assert (Forall pm1 (map fsgn (lane_off 0 sl))) as Fpm by (rewrite E; apply (pm1_ptr (S m)), Forall_app; auto).
  cbn [ptr] in *. rewrite firstn_app_l, skipn_app_l in * by exact Ls1.
  pose proof (length_ptr m _ Ls1) as P1. pose proof (length_ptr m _ Ls2) as P2. pose proof (pm1_ptr m _ Q1) as R1. pose proof (pm1_ptr m _ Q2) as R2.
  set (x := ptr m (symbols r1 par M1)) in *. set (y := ptr m (symbols r2 (pafter r1 par M1) M2)) in *.
  assert (length (lane_off 0 sl) = 2 ^ S m) as L0 by (rewrite length_lane_off; exact L).
  assert (Forall (SI (S m)) (lane_off 0 sl)) as F0 by (apply (lane_off_SI prec emax ub W HW next next_ok SI MI SIl SIr MIs); (assumption || lia)).
  assert (map fsgn (firstn (2 ^ m) (lane_off 0 sl)) = zip2 Z.mul x y) as Ea by (rewrite <- firstn_map, E; apply firstn_app_l; rewrite length_zip2; lia).
  assert (map fsgn (skipn (2 ^ m) (lane_off 0 sl)) = y) as Eb by (rewrite <- skipn_map, E; apply skipn_app_l; rewrite length_zip2; lia).
  assert (zip2 Z.mul (zip2 Z.mul x y) y = x) as Exy by (apply zip2_sq; [lia|exact R2]).
  specialize (GL a _ Ha L1 F1). specialize (SL a _ M1 Ha L1 F1 LM1 FM1 Hl).
  rewrite (lane_gleft prec emax ub W Hp He HW SI (S m)) in SL by (assumption || lia). specialize (SL ltac:(rewrite (sgn_sleft (S m)) by assumption; rewrite Ea, Eb, Exy; reflexivity)).
  destruct (FL a (fleft P m sl)) as [[lm x1] a1]. destruct GL as (N1 & X1 & V1 & A1 & H1 & C1). destruct SL as (T1 & T2 & T3 & T4 & T5). fold r1 in T4, T5. fold par in T4, T5. fold x in T4.
  destruct (gright_wf prec emax ub W HW next next_ok SI MI SIl SIr MIs m lm x1 sl L F N1 X1 V1) as (L2 & F2). specialize (GR a1 _ A1 L2 F2).
  specialize (SR a1 _ M2 A1 L2 F2). cbv zeta in SR. rewrite C1, T5 in SR. fold r2 in SR. specialize (SR LM2 FM2 T2).
  rewrite (lane_gright prec emax ub W HW SI (S m)) in SR by (assumption || lia). rewrite T1, T4 in SR. specialize (SR ltac:(rewrite (sgn_srightf (S m)); [exact Eb|exact F0|exact L0|rewrite Ea, Eb; symmetry; exact Exy|exact Fpm])).
  destruct (FR a1 (gright prec emax W m lm x1 sl)) as [[rm x2] a2]. destruct GR as (N2 & X2 & V2 & A2 & H2 & C2). destruct SR as (U1 & U2 & U3 & U4 & U5).
  split; [rewrite (at_vshuf W) by (assumption || lia); rewrite U1; exact T1|]. split; [exact U2|]. split; [rewrite U3, T3, EM, app_assoc; reflexivity|]. split; [|exact U5].
  rewrite lane_of_app, (lane_gjoin ub W HW) by (assumption || lia). rewrite U1, T4, U4. reflexivity.
Qed.
Lemma gnode_clean n : forall fl, length fl = 2 ^ n -> (n = 0 -> fl = [false]) -> gclean n fl (gnode prec emax W next n fl).
Proof.
  induction n as [|m IH]; intros fl L H0; [rewrite H0 by reflexivity; exact gleaf_clean|]. cbn [gnode].
  assert (forall f, length f = 2 ^ m -> gclean m f (gchild prec emax W m f (gnode prec emax W next m f))) as Hc.
  { intros f Lf. unfold gchild. destruct ((m <=? 5) && forallb (fun b => b) f) eqn:C.
    - apply gr0_clean; [exact Lf|]. apply andb_true_iff in C. apply C.
    - apply IH; [exact Lf|]. intros ->. destruct f as [|[|] [|? ?]]; cbn in Lf, C; try discriminate; try lia. reflexivity. }
  pose proof L as L'. cbn [Nat.pow] in L.
  assert (length (firstn (2 ^ m) fl) = 2 ^ m) as Lf1 by (rewrite firstn_length; lia). assert (length (skipn (2 ^ m) fl) = 2 ^ m) as Lf2 by (rewrite skipn_length; lia).
  apply gjoin_clean; [exact L'|apply (gchild_good prec emax ub W Hp He HW next next_ok SI MI SIl SIr MIs MIm); assumption..|apply Hc; assumption|apply Hc; assumption].
Qed.
End Decoder.
