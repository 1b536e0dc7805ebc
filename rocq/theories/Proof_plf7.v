(** Polar list decoders with floating point lanes and bounded soft values: order of the lanes, number of real paths, decoding without noise. *)
From Coq Require Import ZifyBool ZifyNat ZifyN Permutation Floats.SpecFloat.
From Verif Require Import Cpp Model_simd Model_sort Model_polar Model_polar_list Model_polar_float Model_fsimd Model_polar_listf Spec_polar Spec_polar_float Spec_polar_list Spec_polar_listf
  Lib_list Lib_wht Lib_float3 Proof_bits Proof_simd Proof_polar1 Proof_polar2 Proof_polar3 Proof_polar4 Proof_polar5 Proof_polar6 Proof_polar7 Proof_plist1 Proof_plist2 Proof_plist4 Proof_plist5 Proof_plist6
  Proof_plf0 Proof_plf1 Proof_plf2 Proof_plf3 Proof_plf4 Proof_plf5 Proof_plf6.
Local Open Scope nat_scope.
Ltac Zify.zify_post_hook ::= idtac.

(** ** Sorted lists and counting *)
Section Count.
Variable top : spec_float.
Hypothesis Ht : notnan top.
Definition lowf (x : spec_float) : bool := SFltb x top.
Definition countf (l : list spec_float) : nat := length (filter lowf l).
Lemma countf_perm a b : Permutation a b -> countf a = countf b.
Proof. unfold countf. induction 1 as [|x a b H IH|x y a|a b c H1 IH1 H2 IH2]; [reflexivity| | |congruence]; cbn [filter]; [destruct (lowf x); cbn [length]; congruence|destruct (lowf x), (lowf y); reflexivity]. Qed.
Lemma nondecreasingf_tl x s : nondecreasingf (x :: s) -> nondecreasingf s /\ forall y, In y s -> SFltb y x = false.
Proof.
  intros H. split.
  - intros i j Hij Hj. apply (H (S i) (S j)); cbn [length]; lia.
  - intros y Hy. apply (In_nth _ _ z0) in Hy. destruct Hy as (i & Hi & <-). apply (H 0 (S i)); cbn [length]; lia.
Qed.
Lemma countf_above s : (forall y, In y s -> lowf y = false) -> countf s = 0.
Proof. unfold countf. induction s as [|x s IH]; intros H; [reflexivity|]. cbn [filter]. rewrite (H x (or_introl eq_refl)). apply IH. intros y Hy. apply H. right. exact Hy. Qed.
Lemma sorted_low s : Forall notnan s -> nondecreasingf s -> forall k, k < length s -> lowf (nth k s z0) = (k <? countf s).
Proof.
  induction s as [|x s IH]; intros F N k Hk; [cbn in Hk; lia|]. destruct (nondecreasingf_tl _ _ N) as (Nt & Nx). pose proof (Forall_inv F) as Fx. pose proof (Forall_inv_tail F) as Fs. unfold countf. cbn [filter].
  destruct (lowf x) eqn:E; cbn [length].
  - fold (countf s). destruct k as [|k]; cbn [nth]; [rewrite E; lia|]. cbn [length] in Hk. rewrite (IH Fs Nt k ltac:(lia)). lia.
  - assert (forall y, In y s -> lowf y = false) as A.
    { intros y Hy. unfold lowf in *. apply (ltb_negtrans _ x); try assumption; [|apply Nx; exact Hy]. rewrite Forall_forall in Fs. apply Fs. exact Hy. }
    fold (countf s). rewrite (countf_above s A). destruct k as [|k]; cbn [nth]; [rewrite E; lia|]. cbn [length] in Hk. rewrite A by (apply nth_In; lia). lia.
Qed.
Lemma countf_app a b : countf (a ++ b) = countf a + countf b.
Proof. unfold countf. rewrite filter_app, app_length. reflexivity. Qed.
Lemma countf_pairs f g W c q : (forall k, k < W -> countf [f k; g k] = if k <? c then q else 0) -> countf (fpairs f g W) = q * Nat.min c W.
Proof.
  intros H. induction W as [|w IH]; [rewrite Nat.min_0_r, Nat.mul_0_r; reflexivity|]. rewrite fpairs_S, countf_app, H, IH by lia || (intros; apply H; lia).
  destruct (Nat.ltb_spec w c); [replace (Nat.min c (S w)) with (S (Nat.min c w)) by lia; lia|replace (Nat.min c (S w)) with (Nat.min c w) by lia; lia].
Qed.
Lemma select_countf (ub : Z) W (HW : 1 <= W) fork c : length fork = 2 * W -> Forall notnan fork -> countf fork = c -> forall k, k < W -> lowf (flane k (self_metric W fork)) = (k <? c).
Proof.
  intros L F Hc k Hk. pose proof (sortingf_ok ub W HW fork L) as S. unfold self_metric. destruct (sortingf W fork) as [p s]. destruct S as (_ & PP & Lp & Ls & V & NS). cbn [snd].
  assert (Permutation s fork) as PS.
  { assert (s = map (fun i => nth i fork z0) p) as ->.
    { apply (list_ext _ _ z0); [rewrite map_length; lia|]. intros i Hi. rewrite (nth_map1 _ _ _ 0) by lia. apply V. lia. }
    eapply Permutation_trans; [apply Permutation_map; apply Permutation_sym; exact PP|]. pose proof (map_nth_map fork (fun x => x) (2 * W) z0 L) as E. cbv beta in E. rewrite map_id in E. rewrite E. apply Permutation_refl. }
  pose proof (countf_perm _ _ PS) as PC. rewrite Hc in PC. unfold flane. rewrite nth_firstn'. replace (k <? W) with true by lia.
  rewrite sorted_low; [rewrite PC; reflexivity| |apply NS; exact F|lia]. eapply Permutation_Forall; [apply Permutation_sym; exact PS|exact F].
Qed.
End Count.

Section Decoder.
Variables (prec emax ub : Z) (W : nat).
Hypothesis Hp : (1 < prec)%Z.
Hypothesis He : (prec < emax)%Z.
Hypothesis HW : 1 <= W.
Notation P := (opsfv prec emax W).
Notation emb := (hard_value prec).
Notation million := (million prec emax).
Notation step := (step_metric prec emax).
Variable next : nat -> role * nat.
Hypothesis next_ok : forall c, fst (next c) <> Frozen.
Notation SI := (calm prec emax).
Notation MI := (nonneg prec emax).
Notation BIG := (big prec emax).
Notation Is := (Isf W SI).
Notation Iv := (lanes_are W pm1).
Notation is_map := (is_map W).
Notation groles := (groles next).
Notation ones := (repeat 1%Z W).
Let SIl := calm_left prec emax Hp He.
Let SIr := calm_right prec emax Hp He.
Let MIs := step_nonneg prec emax Hp.
Let MIm := nonneg_million prec emax Hp He.
Let BIGm := big_million prec emax.
Let BIGs := step_big prec emax Hp He.
Lemma MI_notnan l : Forall MI l -> Forall notnan l.
Proof. apply Forall_impl. intros x. apply nonneg_notnan. Qed.

(** ** The metrics are sorted if the last position is not frozen *)
Definition gsorted (n : nat) (fl : list bool) (F : gn) : Prop := forall a sl,
  gwf W next MI a -> length sl = 2 ^ n -> Forall (Is n) sl -> last fl true = false -> nondecreasingf (g_metric (snd (F a sl))).
Lemma gleaf_sorted : gsorted 0 [false] (gleaf prec emax W next).
Proof.
  intros a sl (Lm & Hm & Hpar & Hh & Hn) L F _. destruct sl as [|v [|? ?]]; try discriminate. pose proof (Forall_inv F) as Hv. unfold gleaf. cbn [hd].
  pose proof (forkf_MI prec emax ub W HW next next_ok SI MI SIl SIr MIs _ _ Lm Hm Hv) as FM. pose proof (length_fforkf prec emax W (g_metric a) v) as Lf.
  destruct (next (g_left a)) as [[| |] c]; cbn [snd g_metric]; apply (selectf_spec ub W HW); try exact Lf; try (apply MI_notnan; exact FM); try apply length_fkillf.
  apply MI_notnan. apply (killf_MI prec emax ub W HW next next_ok SI MI SIl SIr MIs MIm); assumption.
Qed.
Lemma gnode_sorted n : forall fl, length fl = 2 ^ n -> (n = 0 -> fl = [false]) -> gsorted n fl (gnode prec emax W next n fl).
Proof.
  induction n as [|m IH]; intros fl L H0; [rewrite H0 by reflexivity; exact gleaf_sorted|]. cbn [gnode]. intros a sl Ha Ls F Hl. unfold gjoin.
  pose proof (pow2_pos m) as Hpw. cbn [Nat.pow] in L. rewrite <- (last_skipn fl (2 ^ m)) in Hl by lia. set (f := skipn (2 ^ m) fl) in *.
  assert (length (firstn (2 ^ m) fl) = 2 ^ m) as Lf1 by (rewrite firstn_length; lia). assert (length f = 2 ^ m) as Lf2 by (unfold f; rewrite skipn_length; lia).
  destruct (gleft_wf prec emax ub W Hp He HW next next_ok SI MI SIl SIr MIs m sl Ls F) as (L1 & F1).
  pose proof (gchild_good prec emax ub W Hp He HW next next_ok SI MI SIl SIr MIs MIm m _ Lf1 a _ Ha L1 F1) as G.
  destruct (gchild _ _ _ m (firstn _ _) _ _ _) as [[lm x1] a1]. destruct G as (M1 & X1 & V1 & A1 & _).
  destruct (gright_wf prec emax ub W HW next next_ok SI MI SIl SIr MIs m lm x1 sl Ls F M1 X1 V1) as (L2 & F2).
  unfold gchild. destruct ((m <=? 5) && forallb (fun b => b) f) eqn:C.
  - exfalso. apply andb_true_iff in C. destruct C as [_ C]. apply forallb_last in C. congruence.
  - assert (m = 0 -> f = [false]) as H0'. { intros ->. destruct f as [|[|] [|? ?]]; cbn in Lf2, C; try discriminate; try lia. reflexivity. }
    specialize (IH f Lf2 H0' a1 _ A1 L2 F2 Hl). destruct (gnode prec emax W next m f a1 _) as [[rm x2] a2]. exact IH.
Qed.

(** ** The number of real paths *)
Definition cost_keeps (m : nat) (c : list Z -> list spec_float -> spec_float -> spec_float) : Prop := forall u s q,
  length u = 2 ^ m -> Forall pm1 u -> length s = 2 ^ m -> Forall (SI m) s -> MI q -> MI (c u s q) /\ (BIG q -> BIG (c u s q)).
Lemma block_keeps m : cost_keeps m (fun _ s q => block_metric prec emax s q).
Proof.
  intros u s q _ _ _ F Hq. split; [apply (block_MI prec emax SI MI MIs m); assumption|].
  apply (block_BIG prec emax SI MI MIs BIG BIGs m); assumption.
Qed.
Lemma left_keeps m s : length s = 2 ^ S m -> Forall (SI (S m)) s -> length (sleftf prec emax m s) = 2 ^ m /\ Forall (SI m) (sleftf prec emax m s).
Proof.
  intros L F. unfold sleftf. cbn [Nat.pow] in L. split; [rewrite length_zip2, firstn_length, skipn_length; lia|].
  eapply (Forall_zip2 _ (SI (S m)) (SI (S m)) (SI m)); [apply SIl|apply Forall_firstn_; exact F|apply Forall_skipn_; exact F].
Qed.
Lemma right_keeps m x s : length x = 2 ^ m -> Forall pm1 x -> length s = 2 ^ S m -> Forall (SI (S m)) s -> length (srightf prec emax m x s) = 2 ^ m /\ Forall (SI m) (srightf prec emax m x s).
Proof.
  intros Lx Fx L F. unfold srightf. cbn [Nat.pow] in L. split; [rewrite length_zip3, map_length, firstn_length, skipn_length; lia|].
  eapply (Forall_zip3 _ (fun h => exists z, pm1 z /\ h = emb z) (SI (S m)) (SI (S m)) (SI m)); [|apply Forall_map; eapply Forall_impl; [|exact Fx]; intros z Hz; exists z; auto|apply Forall_firstn_; exact F|apply Forall_skipn_; exact F].
  intros h a b (z & Hz & ->). apply SIr. exact Hz.
Qed.
Lemma join_keeps m cl cr : cost_keeps m cl -> cost_keeps m cr ->
  cost_keeps (S m) (fun u s q => cr (skipn (2 ^ m) u) (srightf prec emax m (ptr m (firstn (2 ^ m) u)) s) (cl (firstn (2 ^ m) u) (sleftf prec emax m s) q)).
Proof.
  intros Kl Kr u s q Lu Fu Ls Fs Hq. pose proof Lu as Lu'. cbn [Nat.pow] in Lu'.
  assert (length (firstn (2 ^ m) u) = 2 ^ m) as L1 by (rewrite firstn_length; lia). assert (length (skipn (2 ^ m) u) = 2 ^ m) as L2 by (rewrite skipn_length; lia).
  assert (Forall pm1 (firstn (2 ^ m) u)) as F1 by (apply Forall_firstn_; exact Fu). assert (Forall pm1 (skipn (2 ^ m) u)) as F2 by (apply Forall_skipn_; exact Fu).
  destruct (left_keeps m s Ls Fs) as (A1 & A2). destruct (right_keeps m (ptr m (firstn (2 ^ m) u)) s (length_ptr m _ L1) (pm1_ptr m _ F1) Ls Fs) as (B1 & B2).
  destruct (Kl _ _ q L1 F1 A1 A2 Hq) as (C1 & C2). destruct (Kr _ _ _ L2 F2 B1 B2 C1) as (D1 & D2). auto.
Qed.
Lemma cost_ext m c c' : (forall u s q, length u = 2 ^ m -> c u s q = c' u s q) -> cost_keeps m c -> cost_keeps m c'.
Proof. intros E K u s q Lu. rewrite <- E by exact Lu. apply K. exact Lu. Qed.
Lemma path_join m fl u s q : length u = 2 ^ S m -> path_metric prec emax (S m) fl u s q =
  ccostf prec emax m (skipn (2 ^ m) fl) (skipn (2 ^ m) u) (srightf prec emax m (ptr m (firstn (2 ^ m) u)) s) (ccostf prec emax m (firstn (2 ^ m) fl) (firstn (2 ^ m) u) (sleftf prec emax m s) q).
Proof. intros Lu. rewrite path_metric_S. rewrite ptr_transform by (rewrite firstn_length; cbn [Nat.pow] in Lu; lia). reflexivity. Qed.
Lemma path_keeps n : forall fl, cost_keeps n (path_metric prec emax n fl).
Proof.
  induction n as [|m IH]; intros fl.
  - intros u s q Lu Fu Ls Fs Hq. destruct u as [|x [|? ?]], s as [|y [|? ?]]; try discriminate. cbn [path_metric hd]. pose proof (Forall_inv Fu) as Hx. pose proof (Forall_inv Fs) as Hy.
    split; [apply (MIs 0); assumption|apply (BIGs 0); assumption].
  - eapply cost_ext; [intros u s q Lu; symmetry; apply path_join; exact Lu|].
    assert (forall f, cost_keeps m (ccostf prec emax m f)) as Kc.
    { intros f. unfold ccostf. destruct (_ && _); [apply block_keeps|apply IH]. }
    apply (join_keeps m (ccostf prec emax m (firstn (2 ^ m) fl)) (ccostf prec emax m (skipn (2 ^ m) fl))); apply Kc.
Qed.
Lemma child_keeps m f : cost_keeps m (ccostf prec emax m f).
Proof. unfold ccostf. destruct (_ && _); [apply block_keeps|apply path_keeps]. Qed.

Definition counted (c : nat) (metric : list spec_float) : Prop := forall k, k < W -> SFltb (flane k metric) million = (k <? c).
Definition gcount (n : nat) (fl : list bool) (cost : list Z -> list spec_float -> spec_float -> spec_float) (F : gn) : Prop := forall a sl c,
  gwf W next MI a -> length sl = 2 ^ n -> Forall (Is n) sl -> counted c (g_metric a) ->
  let rs := groles fl (g_left a) in
  (forall o M, o < W -> o < c -> length M = payload rs -> Forall pm1 M -> SFltb (cost (symbols rs (lane o (g_par a)) M) (lane_off o sl) (flane o (g_metric a))) million = true) ->
  let '(mp, x, a') := F a sl in counted (c * 2 ^ payload rs) (g_metric a').
Lemma gleaf_count : gcount 0 [false] (path_metric prec emax 0 [false]) (gleaf prec emax W next).
Proof.
  intros a sl c (Lm & Hm & Hpar & Hh & Hn) L F Hc. destruct sl as [|v [|? ?]]; try discriminate. pose proof (Forall_inv F) as Hv. unfold gleaf. cbn [hd].
  pose proof (next_ok (g_left a)) as Hnx. cbn [Proof_plist2.groles]. destruct (next (g_left a)) as [r c'] eqn:En. cbn [fst snd] in *. set (rs := [r]). intros Hall.
  pose proof (forkf_MI prec emax ub W HW next next_ok SI MI SIl SIr MIs _ _ Lm Hm Hv) as FM. pose proof (length_fforkf prec emax W (g_metric a) v) as Lf.
  assert (notnan million) as Nm by (apply (nonneg_notnan prec emax), MIm).
  assert (forall k b, k < W -> pm1 b -> c <= k -> SFltb (step b (flane k (g_metric a)) (flane k v)) million = false) as Dead.
  { intros k b Hk Hb Hck. apply (BIGs 0); [exact Hb|apply Forall_flane; [exact Hm|lia]|apply (Isf_get prec emax ub W HW next next_ok SI MI SIl SIr MIs 0 v k Hv Hk)|]. unfold big. rewrite Hc by exact Hk. lia. }
  assert (pm1 1 /\ pm1 (-1)) as (P1 & P2) by (unfold pm1; auto).
  assert (r = Data \/ r = Parity) as [-> | ->] by (destruct r; [congruence|auto|auto]); cbn [g_metric].
  - intros k Hk. change (2 ^ payload rs) with 2. change (lowf million (flane k (self_metric W (fforkf prec emax W (g_metric a) v))) = (k <? c * 2)).
    rewrite (select_countf million Nm ub W HW _ (2 * Nat.min c W)); [lia|exact Lf|apply MI_notnan; exact FM| |exact Hk].
    unfold fforkf. apply countf_pairs. intros j Hj. unfold countf. cbn [filter]. unfold lowf. destruct (Nat.ltb_spec j c) as [C|C].
    + pose proof (Hall j [1%Z] Hj C eq_refl ltac:(constructor; [exact P1|constructor])) as A1. pose proof (Hall j [(-1)%Z] Hj C eq_refl ltac:(constructor; [exact P2|constructor])) as A2.
      cbn [symbols rs path_metric hd lane_off map] in A1, A2. change (nth j v (S754_zero false)) with (flane j v) in A1, A2. rewrite A1, A2. reflexivity.
    + rewrite !Dead by assumption. reflexivity.
  - intros k Hk. change (2 ^ payload rs) with 1.
    match goal with |- SFltb (flane k (self_metric W ?f)) million = _ => change (lowf million (flane k (self_metric W f)) = (k <? c * 1)) end.
    rewrite (select_countf million Nm ub W HW _ (1 * Nat.min c W)); [lia|apply length_fkillf|apply MI_notnan; apply (killf_MI prec emax ub W HW next next_ok SI MI SIl SIr MIs MIm); assumption| |exact Hk].
    unfold fkillf. apply countf_pairs. intros j Hj. pose proof (lanes_get W _ _ j Hpar Hj) as Hb.
    destruct (nth_fpairs (fun k => step 1 (flane k (g_metric a)) (flane k v)) (fun k => step (-1) (flane k (g_metric a)) (flane k v)) W j Hj) as (E0 & E1).
    fold (fforkf prec emax W (g_metric a) v) in E0, E1. rewrite E0, E1. unfold countf. cbn [filter]. unfold lowf.
    assert (SFltb million million = false) as Eb by apply ltb_irrefl.
    assert (SFltb (step (lane j (g_par a)) (flane j (g_metric a)) (flane j v)) million = (j <? c)) as A.
    { destruct (Nat.ltb_spec j c) as [C|C]; [|apply Dead; assumption]. exact (Hall j [] Hj C eq_refl ltac:(constructor)). }
    destruct Hb as [Hb|Hb]; rewrite Hb in *; cbn [Z.ltb Z.compare]; rewrite A, Eb; destruct (j <? c); reflexivity.
Qed.
Lemma gr0_count n fl : length fl = 2 ^ n -> forallb (fun b => b) fl = true -> gcount n fl (fun _ s q => block_metric prec emax s q) (gr0 prec emax W n).
Proof.
  intros Lf Af a sl c Ha L F Hc rs Hall. assert (Ha' := Ha). destruct Ha' as (Lm & Hm & _). unfold gr0. destruct (groles_all next fl (g_left a) Af) as (Er & Ea).
  unfold rs in *. rewrite Er, Lf in *. rewrite payload_frozen in *. cbn [g_metric Nat.pow]. rewrite Nat.mul_1_r. intros k Hk.
  rewrite (flane_gcharged prec emax ub W HW next next_ok SI MI SIl SIr MIs) by exact Hk. destruct (Nat.ltb_spec k c) as [C|C].
  - apply (Hall k [] Hk C eq_refl). constructor.
  - assert (Forall (SI n) (lane_off k sl)) as Fk by (apply (lane_off_SI prec emax ub W HW next next_ok SI MI SIl SIr MIs); assumption).
    apply (block_BIG prec emax SI MI MIs BIG BIGs n); [exact Fk|apply Forall_flane; [exact Hm|lia]|]. unfold big. rewrite Hc by exact Hk. lia.
Qed.
Lemma gchild_sem m f : length f = 2 ^ m -> gsem W next SI MI BIG m f (ccostf prec emax m f) (gchild prec emax W m f (gnode prec emax W next m f)).
Proof.
  intros Lf. unfold gchild, ccostf. destruct ((m <=? 5) && forallb (fun b => b) f) eqn:C.
  - apply (gsem_ext W next SI MI BIG _ _ (fun _ s q => block_metric prec emax s q)); [reflexivity|exact Lf|]. apply (gr0_sem prec emax ub W HW next next_ok SI MI SIl SIr MIs BIG BIGs); [exact Lf|]. apply andb_true_iff in C. apply C.
  - apply (gsem_ext W next SI MI BIG _ _ (path_metric prec emax m f)); [reflexivity|exact Lf|]. apply (gnode_sem prec emax ub W Hp He HW next next_ok SI MI SIl SIr MIs MIm BIG BIGm BIGs); [exact Lf|].
    intros ->. destruct f as [|[|] [|? ?]]; cbn in Lf, C; try discriminate; try lia. reflexivity.
Qed.
Lemma gcount_ext n fl c c' F : (forall u s q, length u = 2 ^ n -> c u s q = c' u s q) -> length fl = 2 ^ n -> gcount n fl c F -> gcount n fl c' F.
Proof.
  intros E Lf H a sl d Ha L Fs Hd rs Hall. apply (H a sl d Ha L Fs Hd). intros o M Ho Hod LM FM. rewrite E by (rewrite length_symbols, length_groles; exact Lf). apply Hall; assumption.
Qed.
Lemma gjoin_count m fl FL FR cl cr : length fl = 2 ^ S m ->
  ggood W next SI MI m (firstn (2 ^ m) fl) FL -> gsem W next SI MI BIG m (firstn (2 ^ m) fl) cl FL ->
  cost_keeps m cl -> cost_keeps m cr -> gcount m (firstn (2 ^ m) fl) cl FL -> gcount m (skipn (2 ^ m) fl) cr FR ->
  gcount (S m) fl (fun u s q => cr (skipn (2 ^ m) u) (srightf prec emax m (ptr m (firstn (2 ^ m) u)) s) (cl (firstn (2 ^ m) u) (sleftf prec emax m s) q)) (gjoin prec emax W FL FR m).
Proof.
  intros Lfl GL ML Kl Kr SL SR a sl c Ha L F Hc rs Hall. unfold gjoin. destruct (gleft_wf prec emax ub W Hp He HW next next_ok SI MI SIl SIr MIs m sl L F) as (L1 & F1).
  specialize (GL a _ Ha L1 F1). specialize (ML a _ Ha L1 F1). specialize (SL a _ c Ha L1 F1 Hc). cbv zeta in SL.
  assert (rs = groles (firstn (2 ^ m) fl) (g_left a) ++ groles (skipn (2 ^ m) fl) (gafter next (firstn (2 ^ m) fl) (g_left a))) as Er.
  { unfold rs. rewrite <- (firstn_skipn (2 ^ m) fl) at 1. apply groles_app. }
  assert (length (firstn (2 ^ m) fl) = 2 ^ m) as Lf1 by (rewrite firstn_length; cbn [Nat.pow] in Lfl; lia). assert (length (skipn (2 ^ m) fl) = 2 ^ m) as Lf2 by (rewrite skipn_length; cbn [Nat.pow] in Lfl; lia).
  set (r1 := groles (firstn (2 ^ m) fl) (g_left a)) in *. set (r2 := groles (skipn (2 ^ m) fl) (gafter next (firstn (2 ^ m) fl) (g_left a))) in *.
  assert (length r1 = 2 ^ m) as Lr1 by (unfold r1; rewrite length_groles; exact Lf1). assert (length r2 = 2 ^ m) as Lr2 by (unfold r2; rewrite length_groles; exact Lf2).
  assert (Ha' := Ha). destruct Ha' as (Am & AM & Ap & _).
  assert (forall o M1 M2, o < W -> o < c -> length M1 = payload r1 -> length M2 = payload r2 -> Forall pm1 M1 -> Forall pm1 M2 ->
    let u1 := symbols r1 (lane o (g_par a)) M1 in let u2 := symbols r2 (pafter r1 (lane o (g_par a)) M1) M2 in
    SFltb (cr u2 (srightf prec emax m (ptr m u1) (lane_off o sl)) (cl u1 (sleftf prec emax m (lane_off o sl)) (flane o (g_metric a)))) million = true) as Hall'.
  { intros o M1 M2 Ho Hoc LM1 LM2 FM1 FM2. specialize (Hall o (M1 ++ M2) Ho Hoc). rewrite Er, payload_app, app_length in Hall. specialize (Hall ltac:(lia) ltac:(apply Forall_app; auto)).
    destruct (symbols_app r1 r2 (lane o (g_par a)) M1 M2 LM1) as (Es & _). rewrite Es in Hall. rewrite firstn_app_l, skipn_app_l in Hall by (rewrite length_symbols; exact Lr1). exact Hall. }
  rewrite Er. assert (counted (c * 2 ^ payload r1) (g_metric (snd (FL a (fleft P m sl))))) as CL.
  { destruct (FL a (fleft P m sl)) as [[lm x1] a1] eqn:EL. apply SL. intros o M1 Ho Hoc LM1 FM1. rewrite (lane_gleft prec emax ub W Hp He HW SI (S m)) by assumption.
    assert (forall k n, Forall pm1 (repeat 1%Z n) /\ length (repeat 1%Z n) = n /\ (k = k :> nat)) as Ones by (intros k n; split; [apply Forall_forall; intros z Hz; apply repeat_spec in Hz; left; exact Hz|split; [apply repeat_length|reflexivity]]).
    destruct (Ones 0 (payload r2)) as (O1 & O2 & _). specialize (Hall' o M1 (repeat 1%Z (payload r2)) Ho Hoc LM1 O2 FM1 O1). cbv zeta in Hall'.
    pose proof (lanes_get W _ _ o Ap Ho) as Hpo. destruct (pm1_symbols r1 (lane o (g_par a)) M1 Hpo FM1) as (Q1 & Q1'). destruct (pm1_symbols r2 _ _ Q1' O1) as (Q2 & _).
    assert (length (symbols r1 (lane o (g_par a)) M1) = 2 ^ m) as Ls1 by (rewrite length_symbols; exact Lr1).
    assert (length (lane_off o sl) = 2 ^ S m) as Lo by (rewrite length_lane_off; exact L).
    assert (Forall (SI (S m)) (lane_off o sl)) as Fo by (apply (lane_off_SI prec emax ub W HW next next_ok SI MI SIl SIr MIs); assumption).
    destruct (left_keeps m _ Lo Fo) as (A1 & A2). destruct (right_keeps m (ptr m (symbols r1 (lane o (g_par a)) M1)) _ (length_ptr m _ Ls1) (pm1_ptr m _ Q1) Lo Fo) as (B1 & B2).
    destruct (Kl _ _ (flane o (g_metric a)) Ls1 Q1 A1 A2 ltac:(apply Forall_flane; [exact AM|lia])) as (C1 & C2).
    destruct (Kr _ _ _ ltac:(rewrite length_symbols; exact Lr2) Q2 B1 B2 C1) as (_ & D2).
    destruct (SFltb (cl _ _ _) million) eqn:E; [reflexivity|]. specialize (D2 E). unfold big in D2. congruence. }
  destruct (FL a (fleft P m sl)) as [[lm x1] a1]. cbn [snd] in CL. destruct GL as (M1 & X1 & V1 & A1 & H1 & C1). destruct ML as (ML & _).
  destruct (gright_wf prec emax ub W HW next next_ok SI MI SIl SIr MIs m lm x1 sl L F M1 X1 V1) as (L2 & F2).
  specialize (SR a1 _ (c * 2 ^ payload r1) A1 L2 F2 CL). cbv zeta in SR. rewrite C1 in SR. fold r2 in SR.
  destruct (FR a1 (gright prec emax W m lm x1 sl)) as [[rm x2] a2]. rewrite payload_app, Nat.pow_add_r, Nat.mul_assoc. apply SR.
  intros k N Hk Hkc LN FN. destruct (ML k Hk) as ((M & Q1 & Q2 & Q3 & Q4) & Qm). fold r1 in Q1, Q4. pose proof (at_lt W lm k M1 Hk) as Ho.
  pose proof (CL k Hk) as CLk. replace (k <? c * 2 ^ payload r1) with true in CLk by lia.
  assert (at_ lm k < c) as Hoc.
  { destruct (Nat.lt_ge_cases (at_ lm k) c) as [C|C]; [exact C|]. exfalso. pose proof (Hc _ Ho) as Hco. replace (at_ lm k <? c) with false in Hco by lia. specialize (Qm Hco). unfold big in Qm. congruence. }
  destruct Q4 as [(Q4 & Q5 & Q6) | (_ & Q5)]; [|unfold big in Q5; congruence].
  rewrite Q6, Q5. rewrite (lane_gright prec emax ub W HW SI (S m)) by assumption. rewrite (lane_gleft prec emax ub W Hp He HW SI (S m)) by assumption. rewrite Q4. apply Hall'; assumption.
Qed.
Lemma gnode_count n : forall fl, length fl = 2 ^ n -> (n = 0 -> fl = [false]) -> gcount n fl (path_metric prec emax n fl) (gnode prec emax W next n fl).
Proof.
  induction n as [|m IH]; intros fl L H0; [rewrite H0 by reflexivity; exact gleaf_count|]. cbn [gnode].
  assert (forall f, length f = 2 ^ m -> gcount m f (ccostf prec emax m f) (gchild prec emax W m f (gnode prec emax W next m f))) as Hc.
  { intros f Lf. unfold gchild, ccostf. destruct ((m <=? 5) && forallb (fun b => b) f) eqn:C.
    - apply (gcount_ext _ _ (fun _ s q => block_metric prec emax s q)); [reflexivity|exact Lf|]. apply gr0_count; [exact Lf|]. apply andb_true_iff in C. apply C.
    - apply (gcount_ext _ _ (path_metric prec emax m f)); [reflexivity|exact Lf|]. apply IH; [exact Lf|]. intros ->. destruct f as [|[|] [|? ?]]; cbn in Lf, C; try discriminate; try lia. reflexivity. }
  assert (length (firstn (2 ^ m) fl) = 2 ^ m) as Lf1 by (rewrite firstn_length; cbn [Nat.pow] in L; lia). assert (length (skipn (2 ^ m) fl) = 2 ^ m) as Lf2 by (rewrite skipn_length; cbn [Nat.pow] in L; lia).
  eapply gcount_ext; [intros u s q Lu; symmetry; apply path_join; exact Lu|exact L|].
  apply (gjoin_count m fl _ _ (ccostf prec emax m (firstn (2 ^ m) fl)) (ccostf prec emax m (skipn (2 ^ m) fl))); try assumption.
  - apply (gchild_good prec emax ub W Hp He HW next next_ok SI MI SIl SIr MIs MIm); exact Lf1.
  - apply gchild_sem; exact Lf1.
  - apply child_keeps.
  - apply child_keeps.
  - apply Hc; exact Lf1.
  - apply Hc; exact Lf2.
Qed.
End Decoder.
