(** Polar list decoders with floating point lanes: what the lanes of the recursive function mean.
    [BIG] is what is known of the metrics of the continuations that were dropped because of their parity. *)
From Coq Require Import ZifyBool ZifyNat ZifyN Floats.SpecFloat.
From Verif Require Import Cpp Model_simd Model_sort Model_polar Model_polar_list Model_polar_float Model_fsimd Model_polar_listf Spec_polar Spec_polar_float Spec_polar_list Spec_polar_listf
  Lib_list Lib_wht Proof_bits Proof_simd Proof_polar1 Proof_polar2 Proof_polar3 Proof_polar4 Proof_polar5 Proof_polar6 Proof_polar7 Proof_plist1 Proof_plist2 Proof_plist4 Proof_plist5 Proof_plf0 Proof_plf1 Proof_plf2 Proof_plf3 Proof_plf4.
Local Open Scope nat_scope.
Ltac Zify.zify_post_hook ::= idtac.

Lemma lane_off_firstn k n a : lane_off k (firstn n a) = firstn n (lane_off k a).
Proof. unfold lane_off. symmetry. apply firstn_map. Qed.
Lemma lane_off_skipn k n a : lane_off k (skipn n a) = skipn n (lane_off k a).
Proof. unfold lane_off. symmetry. apply skipn_map. Qed.

Section Decoder.
Variables (prec emax ub : Z) (W : nat).
Hypothesis Hp : (1 < prec)%Z.
Hypothesis He : (prec < emax)%Z.
Hypothesis HW : 1 <= W.
Notation P := (opsfv prec emax W).
Notation emb := (hard_value prec).
Notation million := (million prec emax).
Notation step := (step_metric prec emax).
Variable next : nat -> role * nat.
Hypothesis next_ok : forall c, fst (next c) <> Frozen.
Variable SI : nat -> spec_float -> Prop.
Variable MI : spec_float -> Prop.
Hypothesis SIl : forall m a b, SI (S m) a -> SI (S m) b -> SI m (combine_left_f prec emax a b).
Hypothesis SIr : forall m h a b, pm1 h -> SI (S m) a -> SI (S m) b -> SI m (combine_right_f prec emax (emb h) a b).
Hypothesis MIs : forall n u m x, pm1 u -> MI m -> SI n x -> MI (step u m x).
Hypothesis MIm : MI million.
Variable BIG : spec_float -> Prop.
Hypothesis BIGm : BIG million.
Hypothesis BIGs : forall n u m x, pm1 u -> MI m -> SI n x -> BIG m -> BIG (step u m x).
Notation Is := (Isf W SI).
Notation Iv := (lanes_are W pm1).
Notation is_map := (is_map W).
Notation groles := (groles next).
Notation ones := (repeat 1%Z W).

(** cost of a block that is a child *)
Definition ccostf (m : nat) (fl : list bool) (u : list Z) (soft : list spec_float) (metric : spec_float) : spec_float :=
  if (m <=? 5) && forallb (fun f => f) fl then block_metric prec emax soft metric else path_metric prec emax m fl u soft metric.
Definition srightf (m : nat) (x : list Z) (sl : list spec_float) : list spec_float :=
  zip3 (combine_right_f prec emax) (map emb x) (firstn (2 ^ m) sl) (skipn (2 ^ m) sl).
Definition sleftf (m : nat) (sl : list spec_float) : list spec_float := zip2 (combine_left_f prec emax) (firstn (2 ^ m) sl) (skipn (2 ^ m) sl).
Lemma path_metric_S m fl u soft metric : path_metric prec emax (S m) fl u soft metric =
  ccostf m (skipn (2 ^ m) fl) (skipn (2 ^ m) u) (srightf m (transform m (firstn (2 ^ m) u)) soft)
    (ccostf m (firstn (2 ^ m) fl) (firstn (2 ^ m) u) (sleftf m soft) metric).
Proof. reflexivity. Qed.

Lemma lane_gleft n k m sl : Forall (Is n) sl -> k < W -> lane_off k (fleft P m sl) = sleftf m (lane_off k sl).
Proof.
  intros F Hk. unfold fleft, sleftf. rewrite <- lane_off_firstn, <- lane_off_skipn.
  assert (Forall (Is n) (firstn (2 ^ m) sl)) as F1 by (apply Forall_firstn_; exact F). assert (Forall (Is n) (skipn (2 ^ m) sl)) as F2 by (apply Forall_skipn_; exact F).
  revert F1 F2. generalize (skipn (2 ^ m) sl). generalize (firstn (2 ^ m) sl). intros a. induction a as [|x a IH]; intros [|y b] Fa Fb; try reflexivity.
  inversion Fa as [|? ? Hx Fa']; inversion Fb as [|? ? Hy Fb']; subst. unfold lane_off in *. cbn [zip2 map]. rewrite IH by assumption. f_equal.
  apply (prod_v prec emax ub W Hp He HW x y); [apply Hx|apply Hy|exact Hk].
Qed.
Lemma lane_gright n k m lm x sl : Forall (Is n) sl -> Forall Iv x -> is_map lm -> k < W ->
  lane_off k (gright prec emax W m lm x sl) = srightf m (lane_of k x) (lane_off (at_ lm k) sl).
Proof.
  intros F Fx Hm Hk. unfold gright, srightf. rewrite <- lane_off_firstn, <- lane_off_skipn.
  assert (Forall (Is n) (firstn (2 ^ m) sl)) as F1 by (apply Forall_firstn_; exact F). assert (Forall (Is n) (skipn (2 ^ m) sl)) as F2 by (apply Forall_skipn_; exact F).
  revert F1 F2. generalize (skipn (2 ^ m) sl). generalize (firstn (2 ^ m) sl). clear F.
  induction Fx as [|h x Hh Fx IH]; intros [|y a] [|z b] Fa Fb; try reflexivity.
  inversion Fa as [|? ? Hy Fa']; inversion Fb as [|? ? Hz Fb']; subst. unfold lane_off, lane_of in *. cbn [zip3 map]. rewrite IH by assumption. f_equal.
  destruct (madd_v prec emax ub W HW (map emb h) (fv_shuf y lm) (fv_shuf z lm)) as (_ & H); [rewrite map_length; apply Hh|rewrite length_fvshuf; apply Hm..|].
  specialize (H k Hk). unfold flane in H. rewrite H. fold (flane k (map emb h)) (flane k (fv_shuf y lm)) (flane k (fv_shuf z lm)).
  rewrite flane_emb, !(flane_shuf ub W HW) by (assumption || apply Hy || apply Hz). reflexivity.
Qed.
Lemma lane_gjoin k x1 x2 rm : Forall Iv x1 -> Forall Iv x2 -> is_map rm -> k < W ->
  lane_of k (zip2 (fun x y => zmulv (vshuf x rm) y) x1 x2) = zip2 Z.mul (lane_of (at_ rm k) x1) (lane_of k x2).
Proof.
  intros F1 F2 Hm Hk. revert x2 F2. induction F1 as [|a x1 Ha F1 IH]; intros [|b x2] F2; try reflexivity. inversion F2; subst. unfold lane_of in *. cbn [zip2 map]. rewrite IH by assumption. f_equal.
  change (lane k (zmulv (vshuf a rm) b) = (lane (at_ rm k) a * lane k b)%Z). pose proof (lanes_vshuf W _ _ _ Ha Hm) as Hs. rewrite (lane_zmulv ub W HW) by (apply Hs || apply H1 || exact Hk).
  rewrite (lane_vshuf W _ _ _ pm1) by assumption. reflexivity.
Qed.

(** ** What a lane stands for *)
Definition glane_ok (n : nat) (fl : list bool) (cost : list Z -> list spec_float -> spec_float -> spec_float) (a : gst) (sl : list (list spec_float)) (mp : list Z) (x : list (list Z)) (a' : gst) (k : nat) : Prop :=
  let o := at_ mp k in let rs := groles fl (g_left a) in let par := lane o (g_par a) in
  exists M, length M = payload rs /\ Forall pm1 M /\ bits (g_hist a') k = bits (g_hist a) o ++ M /\
    ((lane_of k x = ptr n (symbols rs par M) /\ flane k (g_metric a') = cost (symbols rs par M) (lane_off o sl) (flane o (g_metric a)) /\
      lane k (g_par a') = pafter rs par M) \/
     (In Parity rs /\ BIG (flane k (g_metric a')))).
Definition gsem (n : nat) (fl : list bool) (cost : list Z -> list spec_float -> spec_float -> spec_float) (F : gn) : Prop := forall a sl,
  gwf W next MI a -> length sl = 2 ^ n -> Forall (Is n) sl ->
  let '(mp, x, a') := F a sl in
  (forall k, k < W -> glane_ok n fl cost a sl mp x a' k /\ (BIG (flane (at_ mp k) (g_metric a)) -> BIG (flane k (g_metric a')))) /\
  (forall k l, k < W -> l < W -> k <> l -> at_ mp k = at_ mp l ->
     ~ In Parity (groles fl (g_left a)) \/ (~ BIG (flane k (g_metric a')) /\ ~ BIG (flane l (g_metric a'))) ->
     bits (g_hist a') k <> bits (g_hist a') l).

Lemma forkf_value m s k b : k < W -> pm1 b -> nth (2 * k + (if (b =? 1)%Z then 0 else 1)) (fforkf prec emax W m s) z0 = step b (flane k m) (flane k s).
Proof.
  intros Hk Hb. unfold fforkf. destruct (nth_fpairs (fun k => step 1 (flane k m) (flane k s)) (fun k => step (-1) (flane k m) (flane k s)) W k Hk) as (E0 & E1).
  destruct Hb as [-> | ->]; cbn [Z.eqb Pos.eqb]; rewrite ?Nat.add_0_r, ?E0, ?E1; reflexivity.
Qed.
Lemma killf_value p f k b : k < W -> pm1 b -> pm1 (lane k p) -> length f = 2 * W ->
  nth (2 * k + (if (b =? 1)%Z then 0 else 1)) (fkillf prec emax W p f) z0 = if (b =? lane k p)%Z then nth (2 * k + (if (b =? 1)%Z then 0 else 1)) f z0 else million.
Proof.
  intros Hk Hb Hpm L. unfold fkillf.
  destruct (nth_fpairs (fun k => if (lane k p <? 0)%Z then million else nth (2 * k) f z0) (fun k => if (lane k p <? 0)%Z then nth (2 * k + 1) f z0 else million) W k Hk) as (E0 & E1).
  destruct Hb as [-> | ->]; cbn [Z.eqb Pos.eqb]; rewrite ?Nat.add_0_r, ?E0, ?E1; destruct Hpm as [-> | ->]; reflexivity.
Qed.

Lemma gleaf_sem : gsem 0 [false] (path_metric prec emax 0 [false]) (gleaf prec emax W next).
Proof.
  intros a sl (Lm & Hm & Hpar & Hh & Hn) L F. destruct sl as [|v [|? ?]]; try discriminate. pose proof (Forall_inv F) as Hv. unfold gleaf. cbn [hd].
  pose proof (next_ok (g_left a)) as Hnx. unfold glane_ok. cbn [Proof_plist2.groles]. destruct (next (g_left a)) as [r c] eqn:En. cbn [fst snd] in *.
  assert (forall k, k < W -> SI 0 (flane k v) /\ MI (flane k (g_metric a))) as Ck.
  { intros k Hk. split; [apply (Isf_get prec emax ub W HW next next_ok SI MI SIl SIr MIs 0 v k Hv Hk)|]. apply Forall_flane; [exact Hm|]. lia. }
  assert (r = Data \/ r = Parity) as [-> | ->] by (destruct r; [congruence|auto|auto]).
  - set (fork := fforkf prec emax W (g_metric a) v). pose proof (length_fforkf prec emax W (g_metric a) v) as Lf. fold fork in Lf. destruct (selectf_spec ub W HW fork Lf) as (S1 & S2 & _ & _ & S5 & S6 & _).
    cbn [g_metric g_hist g_par g_left].
    assert (forall k, k < W -> flane k (self_metric W fork) = step (lane k (self_bit W fork)) (flane (at_ (self_map W fork) k) (g_metric a)) (flane (at_ (self_map W fork) k) v)) as Vm.
    { intros k Hk. rewrite S5 by exact Hk. unfold fork_index. apply forkf_value; [apply at_lt; assumption|]. exact (lanes_get W _ _ k S2 Hk). }
    split.
    + intros k Hk. pose proof (at_lt W _ k S1 Hk) as Ho. split.
      * exists [lane k (self_bit W fork)]. split; [reflexivity|]. split; [constructor; [exact (lanes_get W _ _ k S2 Hk)|constructor]|]. split; [reflexivity|]. left.
        split; [reflexivity|]. split; [rewrite Vm by exact Hk; reflexivity|].
        cbn [pafter hd tl]. pose proof (lanes_vshuf W _ _ _ Hpar S1) as Hs. rewrite (lane_zmulv ub W HW) by (apply Hs || apply S2 || exact Hk). rewrite (lane_vshuf W _ _ _ pm1) by assumption. reflexivity.
      * rewrite Vm by exact Hk. destruct (Ck _ Ho). apply (BIGs 0); try assumption. exact (lanes_get W _ _ k S2 Hk).
    + intros k l Hk Hl Hne Eo _ E. cbn [bits] in E. rewrite Eo in E. apply app_inj_tail in E. destruct E as (_ & E).
      apply (S6 k l Hk Hl Hne). unfold fork_index. rewrite Eo, E. reflexivity.
  - set (fork := fkillf prec emax W (g_par a) _). pose proof (length_fkillf prec emax W (g_par a) (fforkf prec emax W (g_metric a) v)) as Lf. fold fork in Lf. destruct (selectf_spec ub W HW fork Lf) as (S1 & S2 & _ & _ & S5 & S6 & _).
    specialize (Hn eq_refl). destruct (g_hist a) as [|[m p] h] eqn:Eh; [congruence|]. pose proof (Forall_inv Hh) as (H1 & H2). cbn [fst snd] in *.
    cbn [g_metric g_hist g_par g_left].
    assert (forall k, k < W -> flane k (self_metric W fork) = if (lane k (self_bit W fork) =? lane (at_ (self_map W fork) k) (g_par a))%Z
      then step (lane k (self_bit W fork)) (flane (at_ (self_map W fork) k) (g_metric a)) (flane (at_ (self_map W fork) k) v) else million) as Vm.
    { intros k Hk. pose proof (at_lt W _ k S1 Hk) as Ho. rewrite S5 by exact Hk. unfold fork_index, fork. pose proof (lanes_get W _ _ k S2 Hk) as Hb.
      rewrite killf_value; [|exact Ho|exact Hb|exact (lanes_get W _ _ _ Hpar Ho)|apply length_fforkf]. rewrite forkf_value by (exact Ho || exact Hb). reflexivity. }
    split.
    + intros k Hk. pose proof (at_lt W _ k S1 Hk) as Ho. split.
      * exists []. split; [reflexivity|]. split; [constructor|]. split.
        { cbn [bits]. rewrite app_nil_r, (at_vshuf W) by assumption. rewrite (lane_vshuf W _ _ _ pm1) by assumption. reflexivity. }
        rewrite Vm by exact Hk. destruct (Z.eqb_spec (lane k (self_bit W fork)) (lane (at_ (self_map W fork) k) (g_par a))) as [E|E].
        -- left. cbn [symbols pafter]. split; [cbn [ptr lane_of map]; f_equal; exact E|]. split; [cbn [path_metric hd lane_off map]; rewrite E; reflexivity|].
           exact (lane_ones prec emax ub W HW next next_ok SI MI SIl SIr MIs k Hk).
        -- right. split; [left; reflexivity|]. exact BIGm.
      * rewrite Vm by exact Hk. destruct (Ck _ Ho). destruct (_ =? _)%Z; [|intros _; exact BIGm]. apply (BIGs 0); try assumption. exact (lanes_get W _ _ k S2 Hk).
    + intros k l Hk Hl Hne Eo [N | (D1 & D2)]; [destruct N; left; reflexivity|]. exfalso. rewrite Vm in D1, D2 by assumption.
      destruct (Z.eqb_spec (lane k (self_bit W fork)) (lane (at_ (self_map W fork) k) (g_par a))) as [E1|]; [|destruct (D1 BIGm)].
      destruct (Z.eqb_spec (lane l (self_bit W fork)) (lane (at_ (self_map W fork) l) (g_par a))) as [E2|]; [|destruct (D2 BIGm)].
      apply (S6 k l Hk Hl Hne). unfold fork_index. rewrite E1, E2, Eo. reflexivity.
Qed.
Lemma lane_of_onesf n k : k < W -> lane_of k (repeat ones n) = repeat 1%Z n.
Proof. intros Hk. unfold lane_of. induction n as [|n IH]; [reflexivity|]. cbn [repeat map]. rewrite IH. f_equal. apply (lane_ones prec emax ub W HW next next_ok SI MI SIl SIr MIs k Hk). Qed.
Lemma block_BIG n l : forall m, Forall (SI n) l -> MI m -> BIG m -> BIG (block_metric prec emax l m).
Proof.
  induction l as [|x l IH]; intros m F Hm H; [exact H|]. inversion F; subst. cbn [block_metric fold_left]. assert (pm1 1) as P1 by (left; reflexivity).
  apply IH; [assumption|apply (MIs n); assumption|]. apply (BIGs n); assumption.
Qed.
Lemma gr0_sem n fl : length fl = 2 ^ n -> forallb (fun b => b) fl = true -> gsem n fl (fun _ s m => block_metric prec emax s m) (gr0 prec emax W n).
Proof.
  intros Lf Af a sl (Lm & Hm & Hpar & Hh & Hn) L F. unfold gr0. destruct (groles_all next fl (g_left a) Af) as (Er & Ea). unfold glane_ok. rewrite Er, Lf. cbn [g_metric g_hist g_par g_left].
  split.
  - intros k Hk. rewrite (atf_iota ub W HW) by assumption. rewrite (flane_gcharged prec emax ub W HW next next_ok SI MI SIl SIr MIs) by exact Hk. split.
    2: { apply (block_BIG n); [|apply Forall_flane; [exact Hm|lia]]. unfold lane_off. apply Forall_map. eapply Forall_impl; [|exact F]. intros v Hv. exact (Isf_get prec emax ub W HW next next_ok SI MI SIl SIr MIs n v k Hv Hk). }
    exists []. rewrite payload_frozen. split; [reflexivity|]. split; [constructor|]. split; [rewrite app_nil_r; reflexivity|]. left.
    destruct (symbols_frozen (2 ^ n) (lane k (g_par a)) []) as (-> & ->). rewrite lane_of_onesf by exact Hk. rewrite ptr_ones. auto.
  - intros k l Hk Hl Hne E. rewrite !(atf_iota ub W HW) in E by assumption. congruence.
Qed.
Lemma gjoin_sem m fl FL FR cl cr : length fl = 2 ^ S m ->
  ggood W next SI MI m (firstn (2 ^ m) fl) FL -> ggood W next SI MI m (skipn (2 ^ m) fl) FR ->
  gsem m (firstn (2 ^ m) fl) cl FL -> gsem m (skipn (2 ^ m) fl) cr FR ->
  gsem (S m) fl (fun u s q => cr (skipn (2 ^ m) u) (srightf m (ptr m (firstn (2 ^ m) u)) s) (cl (firstn (2 ^ m) u) (sleftf m s) q)) (gjoin prec emax W FL FR m).
Proof.
  intros Lfl GL GR SL SR a sl Ha L F. unfold gjoin. destruct (gleft_wf prec emax ub W Hp He HW next next_ok SI MI SIl SIr MIs m sl L F) as (L1 & F1).
  specialize (GL a _ Ha L1 F1). specialize (SL a _ Ha L1 F1).
  destruct (FL a (fleft P m sl)) as [[lm x1] a1]. destruct GL as (M1 & X1 & V1 & A1 & H1 & C1). destruct SL as (SL1 & SL2).
  destruct (gright_wf prec emax ub W HW next next_ok SI MI SIl SIr MIs m lm x1 sl L F M1 X1 V1) as (L2 & F2). specialize (GR a1 _ A1 L2 F2).
  specialize (SR a1 _ A1 L2 F2).
  destruct (FR a1 (gright prec emax W m lm x1 sl)) as [[rm x2] a2]. destruct GR as (M2 & X2 & V2 & A2 & H2 & C2). destruct SR as (SR1 & SR2).
  assert (groles fl (g_left a) = groles (firstn (2 ^ m) fl) (g_left a) ++ groles (skipn (2 ^ m) fl) (g_left a1)) as Er.
  { rewrite <- (firstn_skipn (2 ^ m) fl) at 1. rewrite groles_app, C1. reflexivity. }
  assert (length (firstn (2 ^ m) fl) = 2 ^ m) as Lf1 by (rewrite firstn_length; cbn [Nat.pow] in Lfl; lia).
  set (r1 := groles (firstn (2 ^ m) fl) (g_left a)) in *. set (r2 := groles (skipn (2 ^ m) fl) (g_left a1)) in *.
  assert (length r1 = 2 ^ m) as Lr1 by (unfold r1; rewrite length_groles; exact Lf1).
  split.
  - intros k Hk. pose proof (at_lt W rm k M2 Hk) as Hk1. pose proof (at_lt W lm _ M1 Hk1) as Ho. destruct (SR1 k Hk) as ((N & N1 & N2 & N3 & N4) & Nm).
    destruct (SL1 (at_ rm k) Hk1) as ((M & Q1 & Q2 & Q3 & Q4) & Qm). fold r1 in Q1, Q4. fold r2 in N1, N4. cbv zeta in *. unfold glane_ok. rewrite (at_vshuf W) by assumption.
    split; [|auto]. rewrite Er. exists (M ++ N). split; [rewrite app_length, payload_app; lia|]. split; [apply Forall_app; auto|]. split; [rewrite N3, Q3, app_assoc; reflexivity|].
    set (o := at_ lm (at_ rm k)) in *. destruct (symbols_app r1 r2 (lane o (g_par a)) M N Q1) as (Es & Ep).
    destruct Q4 as [(Q4 & Q5 & Q6) | (Q4 & Q5)].
    2: { right. split; [apply in_parity_app; auto|]. auto. }
    destruct N4 as [(N4 & N5 & N6) | (N4 & N5)].
    2: { right. split; [apply in_parity_app; auto|]. exact N5. }
    rewrite Q6 in N4, N5, N6.
    left. rewrite Es, Ep. assert (length (symbols r1 (lane o (g_par a)) M) = 2 ^ m) as Ls by (rewrite length_symbols; exact Lr1).
    split; [|split; [|exact N6]].
    + rewrite lane_of_app, lane_gjoin by assumption. rewrite Q4, N4. cbn [ptr]. rewrite firstn_app_l, skipn_app_l by exact Ls. reflexivity.
    + rewrite firstn_app_l, skipn_app_l by exact Ls. rewrite N5, Q5. rewrite (lane_gright (S m)) by assumption. rewrite (lane_gleft (S m)) by assumption. rewrite Q4. reflexivity.
  - intros k l Hk Hl Hne Eo Hal. rewrite !(at_vshuf W) in Eo by assumption. rewrite Er in Hal. rewrite in_parity_app in Hal.
    destruct (SR1 k Hk) as ((N & N1 & _ & N3 & _) & Nm). destruct (SR1 l Hl) as ((N' & N1' & _ & N3' & _) & Nm').
    pose proof (at_lt W rm k M2 Hk) as Hk1. pose proof (at_lt W rm l M2 Hl) as Hl1.
    destruct (Nat.eq_dec (at_ rm k) (at_ rm l)) as [E|E].
    + apply SR2; try assumption. fold r2. tauto.
    + rewrite N3, N3'. intros C.
      assert (bits (g_hist a1) (at_ rm k) <> bits (g_hist a1) (at_ rm l)) as D.
      { apply SL2; try assumption. fold r1. tauto. }
      apply D. destruct (SL1 _ Hk1) as ((M & Q1 & _ & Q3 & _) & _). destruct (SL1 _ Hl1) as ((M' & Q1' & _ & Q3' & _) & _). rewrite Eo in Q3.
      eapply f_equal with (f := firstn (length (bits (g_hist a1) (at_ rm k)))) in C. rewrite firstn_app_l in C by reflexivity. rewrite C. apply firstn_app_l.
      rewrite Q3, Q3', !app_length. fold r1 in Q1, Q1'. lia.
Qed.
Lemma gsem_ext n fl c c' F : (forall u s q, length u = 2 ^ n -> c u s q = c' u s q) -> length fl = 2 ^ n -> gsem n fl c F -> gsem n fl c' F.
Proof.
  intros E Lf H a sl Ha L Fs. specialize (H a sl Ha L Fs). destruct (F a sl) as [[mp x] a']. destruct H as (H1 & H2). split; [|exact H2].
  intros k Hk. destruct (H1 k Hk) as ((M & Q1 & Q2 & Q3 & Q4) & Qm). split; [|exact Qm]. exists M. split; [exact Q1|]. split; [exact Q2|]. split; [exact Q3|].
  destruct Q4 as [(Q4 & Q5 & Q6)|Q4]; [left|right; exact Q4]. rewrite <- E by (rewrite length_symbols, length_groles; exact Lf). auto.
Qed.
Lemma gnode_sem n : forall fl, length fl = 2 ^ n -> (n = 0 -> fl = [false]) -> gsem n fl (path_metric prec emax n fl) (gnode prec emax W next n fl).
Proof.
  induction n as [|m IH]; intros fl L H0; [rewrite H0 by reflexivity; exact gleaf_sem|]. cbn [gnode].
  assert (forall f, length f = 2 ^ m -> gsem m f (ccostf m f) (gchild prec emax W m f (gnode prec emax W next m f))) as Hc.
  { intros f Lf. unfold gchild, ccostf. destruct ((m <=? 5) && forallb (fun b => b) f) eqn:C.
    - apply (gsem_ext _ _ (fun _ s q => block_metric prec emax s q)); [reflexivity|exact Lf|]. apply gr0_sem; [exact Lf|]. apply andb_true_iff in C. apply C.
    - apply (gsem_ext _ _ (path_metric prec emax m f)); [reflexivity|exact Lf|]. apply IH; [exact Lf|]. intros ->. destruct f as [|[|] [|? ?]]; cbn in Lf, C; try discriminate; try lia. reflexivity. }
  cbn [Nat.pow] in L.
  assert (length (firstn (2 ^ m) fl) = 2 ^ m) as Lf1 by (rewrite firstn_length; lia). assert (length (skipn (2 ^ m) fl) = 2 ^ m) as Lf2 by (rewrite skipn_length; lia).
  pose proof (gchild_good prec emax ub W Hp He HW next next_ok SI MI SIl SIr MIs MIm m _ Lf1) as G1. pose proof (gchild_good prec emax ub W Hp He HW next next_ok SI MI SIl SIr MIs MIm m _ Lf2) as G2.
  eapply gsem_ext; [| |apply (gjoin_sem m fl _ _ _ _ L G1 G2 (Hc _ Lf1) (Hc _ Lf2))]; [|exact L].
  intros u s q Lu. cbv beta. rewrite path_metric_S. rewrite ptr_transform by (rewrite firstn_length; cbn [Nat.pow] in Lu; lia). reflexivity.
Qed.
End Decoder.
