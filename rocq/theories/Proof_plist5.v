(** Polar list decoders: what the lanes of the recursive function mean. *)
From Coq Require Import ZifyBool ZifyNat ZifyN.
From Verif Require Import Cpp Model_simd Model_sort Model_polar Model_polar_list Spec_polar Spec_polar_list Lib_list Lib_wht
  Proof_bits Proof_simd Proof_polar1 Proof_polar2 Proof_polar3 Proof_polar4 Proof_polar5 Proof_polar6 Proof_polar7 Proof_plist1 Proof_plist2 Proof_plist3 Proof_plist4.
Local Open Scope nat_scope.
Ltac Zify.zify_post_hook ::= idtac.

(** the product of the symbols since the last parity symbol *)
Fixpoint pafter (rs : list role) (par : Z) (M : list Z) : Z :=
  match rs with
  | [] => par
  | Frozen :: rs => pafter rs par M
  | Data :: rs => pafter rs (par * hd 1%Z M)%Z (tl M)
  | Parity :: rs => pafter rs 1%Z M
  end.
Lemma payload_cons r rs : payload (r :: rs) = (match r with Data => 1 | _ => 0 end) + payload rs.
Proof. unfold payload. destruct r; reflexivity. Qed.
Lemma length_symbols rs : forall par M, length (symbols rs par M) = length rs.
Proof. induction rs as [|[| |] rs IH]; intros par M; cbn [symbols length]; [reflexivity|rewrite IH; reflexivity..]. Qed.
Lemma symbols_app a : forall b par M N, length M = payload a -> symbols (a ++ b) par (M ++ N) = symbols a par M ++ symbols b (pafter a par M) N /\
  pafter (a ++ b) par (M ++ N) = pafter b (pafter a par M) N.
Proof.
  induction a as [|r a IH]; intros b par M N L.
  - destruct M; [|discriminate]. auto.
  - rewrite payload_cons in L. destruct r; cbn [Datatypes.app symbols pafter].
    + destruct (IH b par M N L) as (-> & ->). auto.
    + destruct M as [|x M]; [discriminate|]. cbn [Datatypes.app hd tl length] in *. destruct (IH b (par * x)%Z M N ltac:(lia)) as (-> & ->). auto.
    + destruct (IH b 1%Z M N L) as (-> & ->). auto.
Qed.
Lemma pm1_mul x y : pm1 x -> pm1 y -> pm1 (x * y).
Proof. unfold pm1. lia. Qed.
Lemma pm1_symbols rs : forall par M, pm1 par -> Forall pm1 M -> Forall pm1 (symbols rs par M) /\ pm1 (pafter rs par M).
Proof.
  assert (pm1 1) as P1 by (left; reflexivity).
  induction rs as [|[| |] rs IH]; intros par M Hp F; cbn [symbols pafter].
  - auto.
  - destruct (IH par M Hp F). auto.
  - assert (pm1 (hd 1%Z M)) as Hh by (destruct F; assumption). assert (Forall pm1 (tl M)) as Ft by (destruct F; [constructor|assumption]).
    destruct (IH (par * hd 1%Z M)%Z (tl M)); auto. apply pm1_mul; assumption.
  - destruct (IH 1%Z M P1 F). auto.
Qed.
Lemma symbols_frozen n : forall par M, symbols (repeat Frozen n) par M = repeat 1%Z n /\ pafter (repeat Frozen n) par M = par.
Proof. induction n as [|n IH]; intros par M; [auto|]. cbn. destruct (IH par M) as (-> & ->). auto. Qed.
Lemma in_parity_app a b : In Parity (a ++ b) <-> In Parity a \/ In Parity b.
Proof. apply in_app_iff. Qed.
Lemma lane_of_app k a b : lane_of k (a ++ b) = lane_of k a ++ lane_of k b.
Proof. apply map_app. Qed.
Lemma lane_of_firstn k n a : lane_of k (firstn n a) = firstn n (lane_of k a).
Proof. unfold lane_of. symmetry. apply firstn_map. Qed.
Lemma lane_of_skipn k n a : lane_of k (skipn n a) = skipn n (lane_of k a).
Proof. unfold lane_of. symmetry. apply skipn_map. Qed.

Section Decoder.
Variable W : nat.
Hypothesis HW : 1 <= W <= 256.
Variable P : polar_ops (list Z).
Hypothesis HP : vops_ok W P.
Variable next : nat -> role * nat.
Hypothesis next_ok : forall c, fst (next c) <> Frozen.
Notation Is := (lanes_are W int8).
Notation Iv := (lanes_are W pm1).
Notation is_map := (is_map W).
Notation groles := (groles next).

(** cost of a block that is a child *)
Definition ccost (m : nat) (fl : list bool) (u soft : list Z) : Z :=
  if (m <=? 5) && forallb (fun f => f) fl then charge soft else path_cost m fl u soft.
Definition sright (m : nat) (x sl : list Z) : list Z :=
  zip3 (fun x a b => combine_right x (Z.max (-127) a) b) x (firstn (2 ^ m) sl) (skipn (2 ^ m) sl).
Definition sleft (m : nat) (sl : list Z) : list Z := zip2 combine_left (firstn (2 ^ m) sl) (skipn (2 ^ m) sl).
Lemma path_cost_S m fl u soft : path_cost (S m) fl u soft =
  (ccost m (firstn (2 ^ m) fl) (firstn (2 ^ m) u) (sleft m soft) +
   ccost m (skipn (2 ^ m) fl) (skipn (2 ^ m) u) (sright m (transform m (firstn (2 ^ m) u)) soft))%Z.
Proof. reflexivity. Qed.

Lemma lane_fleft k m sl : Forall Is sl -> k < W -> lane_of k (fleft P m sl) = sleft m (lane_of k sl).
Proof.
  intros F Hk. unfold fleft, sleft. rewrite <- lane_of_firstn, <- lane_of_skipn.
  assert (Forall Is (firstn (2 ^ m) sl)) as F1 by (apply Forall_firstn_; exact F). assert (Forall Is (skipn (2 ^ m) sl)) as F2 by (apply Forall_skipn_; exact F).
  revert F1 F2. generalize (skipn (2 ^ m) sl). generalize (firstn (2 ^ m) sl). intros a. induction a as [|x a IH]; intros [|y b] Fa Fb; cbn; try reflexivity.
  inversion Fa; inversion Fb; subst. unfold lane_of in IH. rewrite IH by assumption. f_equal. apply (vk_prod _ _ HP); assumption.
Qed.
Lemma lane_lright k m lm x sl : Forall Is sl -> Forall Iv x -> is_map lm -> k < W ->
  lane_of k (lright P m lm x sl) = sright m (lane_of k x) (lane_of (at_ lm k) sl).
Proof.
  intros F Fx Hm Hk. unfold lright, sright. rewrite <- lane_of_firstn, <- lane_of_skipn.
  assert (Forall Is (firstn (2 ^ m) sl)) as F1 by (apply Forall_firstn_; exact F). assert (Forall Is (skipn (2 ^ m) sl)) as F2 by (apply Forall_skipn_; exact F).
  revert F1 F2. generalize (skipn (2 ^ m) sl). generalize (firstn (2 ^ m) sl). clear F.
  induction Fx as [|h x Hh Fx IH]; intros [|y a] [|z b] Fa Fb; cbn; try reflexivity.
  inversion Fa; inversion Fb; subst. unfold lane_of in IH. rewrite IH by assumption. f_equal.
  destruct (vk_madd _ _ HP h (vshuf y lm) (vshuf z lm)) as (_ & H); [apply pm1_lanes; exact Hh|apply lanes_vshuf; assumption..|].
  change (lane k (p_madd P h (vshuf y lm) (vshuf z lm)) = combine_right (lane k h) (Z.max (-127) (lane (at_ lm k) y)) (lane (at_ lm k) z)).
  rewrite H by exact Hk. rewrite !(lane_vshuf W _ _ _ int8) by assumption. reflexivity.
Qed.
Lemma lane_join k x1 x2 rm : Forall Iv x1 -> Forall Iv x2 -> is_map rm -> k < W ->
  lane_of k (zip2 (fun x y => p_mul P (vshuf x rm) y) x1 x2) = zip2 Z.mul (lane_of (at_ rm k) x1) (lane_of k x2).
Proof.
  intros F1 F2 Hm Hk. revert x2 F2. induction F1 as [|a x1 Ha F1 IH]; intros [|b x2] F2; cbn; try reflexivity. inversion F2; subst. unfold lane_of in IH. rewrite IH by assumption. f_equal.
  change (lane k (p_mul P (vshuf a rm) b) = (lane (at_ rm k) a * lane k b)%Z). rewrite (lane_mul W P HP) by (try apply lanes_vshuf; assumption).
  rewrite (lane_vshuf W _ _ _ pm1) by assumption. reflexivity.
Qed.

(** ** What a lane stands for *)
Definition lane_ok (n : nat) (fl : list bool) (cost : list Z -> list Z -> Z) (a : ast) (sl : list (list Z)) (mp : list Z) (x : list (list Z)) (a' : ast) (k : nat) : Prop :=
  let o := at_ mp k in let rs := groles fl (a_left a) in let par := lane o (a_par a) in
  exists M, length M = payload rs /\ Forall pm1 M /\ bits (a_hist a') k = bits (a_hist a) o ++ M /\
    ((lane_of k x = ptr n (symbols rs par M) /\ lane k (a_metric a') = (lane o (a_metric a) + cost (symbols rs par M) (lane_of o sl))%Z /\
      lane k (a_par a') = pafter rs par M) \/
     (In Parity rs /\ (1000000 <= lane k (a_metric a'))%Z)).
Definition fsem (n : nat) (fl : list bool) (cost : list Z -> list Z -> Z) (F : fn) : Prop := forall B a sl,
  (1000000 <= B)%Z -> awf W next B a -> length sl = 2 ^ n -> Forall Is sl ->
  let '(mp, x, a') := F a sl in
  (forall k, k < W -> lane_ok n fl cost a sl mp x a' k /\ (Z.min 1000000 (lane (at_ mp k) (a_metric a)) <= lane k (a_metric a'))%Z) /\
  (forall k l, k < W -> l < W -> k <> l -> at_ mp k = at_ mp l ->
     ~ In Parity (groles fl (a_left a)) \/ (lane k (a_metric a') < 1000000 /\ lane l (a_metric a') < 1000000)%Z ->
     bits (a_hist a') k <> bits (a_hist a') l).

Lemma fork_value m s k b : k < W -> pm1 b -> nth (2 * k + (if (b =? 1)%Z then 0 else 1)) (ffork W m s) 0%Z = (lane k m + neg_part (b * lane k s))%Z.
Proof.
  intros Hk Hb. unfold ffork. destruct (nth_pairs (fun k => (lane k m + neg_part (lane k s))%Z) (fun k => (lane k m + neg_part (- lane k s))%Z) W k Hk) as (E0 & E1).
  destruct Hb as [-> | ->]; cbn [Z.eqb Pos.eqb]; rewrite ?Nat.add_0_r, ?E0, ?E1; do 2 f_equal; lia.
Qed.
Lemma kill_value p f k b : k < W -> pm1 b -> pm1 (lane k p) -> length f = 2 * W ->
  nth (2 * k + (if (b =? 1)%Z then 0 else 1)) (fkill W p f) 0%Z = if (b =? lane k p)%Z then nth (2 * k + (if (b =? 1)%Z then 0 else 1)) f 0%Z else 1000000%Z.
Proof.
  intros Hk Hb Hp L. unfold fkill.
  destruct (nth_pairs (fun k => if (lane k p <? 0)%Z then 1000000%Z else nth (2 * k) f 0%Z) (fun k => if (lane k p <? 0)%Z then nth (2 * k + 1) f 0%Z else 1000000%Z) W k Hk) as (E0 & E1).
  destruct Hb as [-> | ->]; cbn [Z.eqb Pos.eqb]; rewrite ?Nat.add_0_r, ?E0, ?E1; destruct Hp as [-> | ->]; reflexivity.
Qed.
Lemma nonneg_lane B m k : lanes_are W (fun x => (0 <= x <= B)%Z) m -> k < W -> (0 <= lane k m)%Z.
Proof. intros H Hk. pose proof (lanes_get W _ _ k H Hk) as R. cbv beta in R. lia. Qed.

Lemma leaf_sem : fsem 0 [false] (path_cost 0 [false]) (leaf W P next).
Proof.
  intros B a sl HB (Hm & Hp & Hh & Hn) L F. destruct sl as [|v [|? ?]]; try discriminate. inversion F as [|? ? Hv _]; subst. unfold leaf. cbn [hd].
  pose proof (next_ok (a_left a)) as Hnx. unfold lane_ok. cbn [Proof_plist2.groles]. destruct (next (a_left a)) as [r c] eqn:En. cbn [fst snd] in *.
  assert (r = Data \/ r = Parity) as [-> | ->] by (destruct r; [congruence|auto|auto]).
  - set (fork := ffork W (a_metric a) v). pose proof (length_ffork W (a_metric a) v) as Lf. fold fork in Lf. destruct (select_spec W HW fork Lf) as (S1 & S2 & _ & _ & S5 & S6 & _).
    cbn [a_metric a_hist a_par a_left].
    assert (forall k, k < W -> lane k (sel_metric W fork) = (lane (at_ (sel_map W fork) k) (a_metric a) + neg_part (lane k (sel_bit W fork) * lane (at_ (sel_map W fork) k) v))%Z) as Vm.
    { intros k Hk. rewrite S5 by exact Hk. unfold fork_index. apply fork_value; [apply at_lt; assumption|]. exact (lanes_get W _ _ k S2 Hk). }
    split.
    + intros k Hk. pose proof (at_lt W _ k S1 Hk) as Ho. split.
      * exists [lane k (sel_bit W fork)]. split; [reflexivity|]. split; [constructor; [exact (lanes_get W _ _ k S2 Hk)|constructor]|]. split; [reflexivity|]. left.
        split; [reflexivity|]. split; [rewrite Vm by exact Hk; reflexivity|].
        cbn [pafter hd tl]. rewrite (lane_mul W P HP) by (try apply lanes_vshuf; assumption). rewrite (lane_vshuf W _ _ _ pm1) by assumption. reflexivity.
      * rewrite Vm by exact Hk. unfold neg_part. lia.
    + intros k l Hk Hl Hne Eo _ E. cbn [bits] in E. rewrite Eo in E. apply app_inj_tail in E. destruct E as (_ & E).
      apply (S6 k l Hk Hl Hne). unfold fork_index. rewrite Eo, E. reflexivity.
  - set (fork := fkill W (a_par a) _). pose proof (length_fkill W (a_par a) (ffork W (a_metric a) v)) as Lf. fold fork in Lf. destruct (select_spec W HW fork Lf) as (S1 & S2 & _ & _ & S5 & S6 & _).
    specialize (Hn eq_refl). destruct (a_hist a) as [|[m p] h] eqn:Eh; [congruence|]. inversion Hh as [|? ? (H1 & H2) H3]; subst. cbn [fst snd] in *.
    cbn [a_metric a_hist a_par a_left].
    assert (forall k, k < W -> lane k (sel_metric W fork) = if (lane k (sel_bit W fork) =? lane (at_ (sel_map W fork) k) (a_par a))%Z
      then (lane (at_ (sel_map W fork) k) (a_metric a) + neg_part (lane k (sel_bit W fork) * lane (at_ (sel_map W fork) k) v))%Z else 1000000%Z) as Vm.
    { intros k Hk. pose proof (at_lt W _ k S1 Hk) as Ho. rewrite S5 by exact Hk. unfold fork_index, fork. pose proof (lanes_get W _ _ k S2 Hk) as Hb.
      rewrite kill_value; [|exact Ho|exact Hb|exact (lanes_get W _ _ _ Hp Ho)|apply length_ffork]. rewrite fork_value by (exact Ho || exact Hb). reflexivity. }
    split.
    + intros k Hk. pose proof (at_lt W _ k S1 Hk) as Ho. split.
      * exists []. split; [reflexivity|]. split; [constructor|]. split.
        { cbn [bits]. rewrite app_nil_r, (at_vshuf W) by assumption. rewrite (lane_vshuf W _ _ _ pm1) by assumption. reflexivity. }
        rewrite Vm by exact Hk. destruct (Z.eqb_spec (lane k (sel_bit W fork)) (lane (at_ (sel_map W fork) k) (a_par a))) as [E|E].
        -- left. cbn [symbols pafter]. split; [cbn [ptr lane_of map]; f_equal; exact E|]. split; [cbn [path_cost hd lane_of map]; rewrite E; reflexivity|].
           apply (vk_one _ _ HP). exact Hk.
        -- right. split; [left; reflexivity|]. lia.
      * rewrite Vm by exact Hk. unfold neg_part. destruct (_ =? _)%Z; lia.
    + intros k l Hk Hl Hne Eo [N | (D1 & D2)]; [destruct N; left; reflexivity|]. exfalso. rewrite Vm in D1, D2 by assumption.
      destruct (Z.eqb_spec (lane k (sel_bit W fork)) (lane (at_ (sel_map W fork) k) (a_par a))) as [E1|]; [|lia].
      destruct (Z.eqb_spec (lane l (sel_bit W fork)) (lane (at_ (sel_map W fork) l) (a_par a))) as [E2|]; [|lia].
      apply (S6 k l Hk Hl Hne). unfold fork_index. rewrite E1, E2, Eo. reflexivity.
Qed.
Lemma lane_of_ones n k : k < W -> lane_of k (repeat (p_one P) n) = repeat 1%Z n.
Proof. intros Hk. unfold lane_of. induction n as [|n IH]; [reflexivity|]. cbn. rewrite IH. f_equal. apply (vk_one _ _ HP). exact Hk. Qed.
Lemma lr0_sem n fl : length fl = 2 ^ n -> forallb (fun b => b) fl = true -> fsem n fl (fun _ s => charge s) (lr0 W P n).
Proof.
  intros Lf Af B a sl HB (Hm & Hp & Hh & Hn) L F. unfold lr0. destruct (groles_all next fl (a_left a) Af) as (Er & Ea). unfold lane_ok. rewrite Er, Lf. cbn [a_metric a_hist a_par a_left].
  split.
  - intros k Hk. rewrite at_iota by assumption. rewrite (lane_charged W HW next next_ok) by exact Hk. pose proof (charge_le _ (lane_word_int8 W k sl F Hk)) as C. split; [|lia].
    exists []. rewrite payload_frozen. split; [reflexivity|]. split; [constructor|]. split; [rewrite app_nil_r; reflexivity|]. left.
    destruct (symbols_frozen (2 ^ n) (lane k (a_par a)) []) as (-> & ->). rewrite lane_of_ones by exact Hk. rewrite ptr_ones. auto.
  - intros k l Hk Hl Hne E. rewrite !at_iota in E by assumption. congruence.
Qed.
Lemma ljoin_sem m fl FL FR cl cr : length fl = 2 ^ S m ->
  fgood W next m (firstn (2 ^ m) fl) FL -> fgood W next m (skipn (2 ^ m) fl) FR ->
  fsem m (firstn (2 ^ m) fl) cl FL -> fsem m (skipn (2 ^ m) fl) cr FR ->
  fsem (S m) fl (fun u s => (cl (firstn (2 ^ m) u) (sleft m s) + cr (skipn (2 ^ m) u) (sright m (ptr m (firstn (2 ^ m) u)) s))%Z) (ljoin P FL FR m).
Proof.
  intros Lfl GL GR SL SR B a sl HB Ha L F. unfold ljoin. destruct (fleft_wf W HW P HP next next_ok m sl L F) as (L1 & F1).
  specialize (GL B a _ HB Ha L1 F1). specialize (SL B a _ HB Ha L1 F1).
  destruct (FL a (fleft P m sl)) as [[lm x1] a1]. destruct GL as (M1 & X1 & V1 & A1 & H1 & C1). destruct SL as (SL1 & SL2).
  destruct (lright_wf W HW P HP next next_ok m lm x1 sl L F M1 X1 V1) as (L2 & F2). specialize (GR (B + 128 * Z.of_nat (2 ^ m))%Z a1 _ ltac:(lia) A1 L2 F2).
  specialize (SR (B + 128 * Z.of_nat (2 ^ m))%Z a1 _ ltac:(lia) A1 L2 F2).
  destruct (FR a1 (lright P m lm x1 sl)) as [[rm x2] a2]. destruct GR as (M2 & X2 & V2 & A2 & H2 & C2). destruct SR as (SR1 & SR2).
  assert (groles fl (a_left a) = groles (firstn (2 ^ m) fl) (a_left a) ++ groles (skipn (2 ^ m) fl) (a_left a1)) as Er.
  { rewrite <- (firstn_skipn (2 ^ m) fl) at 1. rewrite groles_app, C1. reflexivity. }
  assert (length (firstn (2 ^ m) fl) = 2 ^ m) as Lf1 by (rewrite firstn_length; cbn [Nat.pow] in Lfl; lia).
  set (r1 := groles (firstn (2 ^ m) fl) (a_left a)) in *. set (r2 := groles (skipn (2 ^ m) fl) (a_left a1)) in *.
  assert (length r1 = 2 ^ m) as Lr1 by (unfold r1; rewrite length_groles; exact Lf1).
  split.
  - intros k Hk. pose proof (at_lt W rm k M2 Hk) as Hk1. pose proof (at_lt W lm _ M1 Hk1) as Ho. destruct (SR1 k Hk) as ((N & N1 & N2 & N3 & N4) & Nm).
    destruct (SL1 (at_ rm k) Hk1) as ((M & Q1 & Q2 & Q3 & Q4) & Qm). fold r1 in Q1, Q4. fold r2 in N1, N4. cbv zeta in *. unfold lane_ok. rewrite (at_vshuf W) by assumption.
    split; [|lia]. rewrite Er. exists (M ++ N). split; [rewrite app_length, payload_app; lia|]. split; [apply Forall_app; auto|]. split; [rewrite N3, Q3, app_assoc; reflexivity|].
    set (o := at_ lm (at_ rm k)) in *. destruct (symbols_app r1 r2 (lane o (a_par a)) M N Q1) as (Es & Ep).
    destruct Q4 as [(Q4 & Q5 & Q6) | (Q4 & Q5)].
    2: { right. split; [apply in_parity_app; auto|]. lia. }
    destruct N4 as [(N4 & N5 & N6) | (N4 & N5)].
    2: { right. split; [apply in_parity_app; auto|]. exact N5. }
    rewrite Q6 in N4, N5, N6.
    left. rewrite Es, Ep. assert (length (symbols r1 (lane o (a_par a)) M) = 2 ^ m) as Ls by (rewrite length_symbols; exact Lr1).
    split; [|split; [|exact N6]].
    + rewrite lane_of_app, lane_join by assumption. rewrite Q4, N4. cbn [ptr]. rewrite firstn_app_l, skipn_app_l by exact Ls. reflexivity.
    + rewrite firstn_app_l, skipn_app_l by exact Ls. rewrite N5, Q5. rewrite lane_lright by assumption. rewrite lane_fleft by assumption. rewrite Q4. fold o. lia.
  - intros k l Hk Hl Hne Eo Hal. rewrite !(at_vshuf W) in Eo by assumption. rewrite Er in Hal. rewrite in_parity_app in Hal.
    destruct (SR1 k Hk) as ((N & N1 & _ & N3 & _) & Nm). destruct (SR1 l Hl) as ((N' & N1' & _ & N3' & _) & Nm').
    pose proof (at_lt W rm k M2 Hk) as Hk1. pose proof (at_lt W rm l M2 Hl) as Hl1.
    destruct (Nat.eq_dec (at_ rm k) (at_ rm l)) as [E|E].
    + apply SR2; try assumption. fold r2. tauto.
    + rewrite N3, N3'. intros C.
      assert (bits (a_hist a1) (at_ rm k) <> bits (a_hist a1) (at_ rm l)) as D.
      { apply SL2; try assumption. fold r1. destruct Hal as [Hal|Hal]; [tauto|]. right. cbv beta in *. lia. }
      apply D. destruct (SL1 _ Hk1) as ((M & Q1 & _ & Q3 & _) & _). destruct (SL1 _ Hl1) as ((M' & Q1' & _ & Q3' & _) & _). rewrite Eo in Q3.
      eapply f_equal with (f := firstn (length (bits (a_hist a1) (at_ rm k)))) in C. rewrite firstn_app_l in C by reflexivity. rewrite C. apply firstn_app_l.
      rewrite Q3, Q3', !app_length. fold r1 in Q1, Q1'. lia.
Qed.
Lemma fsem_ext n fl c c' F : (forall u s, length u = 2 ^ n -> c u s = c' u s) -> length fl = 2 ^ n -> fsem n fl c F -> fsem n fl c' F.
Proof.
  intros E Lf H B a sl HB Ha L Fs. specialize (H B a sl HB Ha L Fs). destruct (F a sl) as [[mp x] a']. destruct H as (H1 & H2). split; [|exact H2].
  intros k Hk. destruct (H1 k Hk) as ((M & Q1 & Q2 & Q3 & Q4) & Qm). split; [|exact Qm]. exists M. split; [exact Q1|]. split; [exact Q2|]. split; [exact Q3|].
  destruct Q4 as [(Q4 & Q5 & Q6)|Q4]; [left|right; exact Q4]. rewrite <- E by (rewrite length_symbols, length_groles; exact Lf). auto.
Qed.
Lemma lnode_sem n : forall fl, length fl = 2 ^ n -> (n = 0 -> fl = [false]) -> fsem n fl (path_cost n fl) (lnode W P next n fl).
Proof.
  induction n as [|m IH]; intros fl L H0; [rewrite H0 by reflexivity; exact leaf_sem|]. cbn [lnode].
  assert (forall f, length f = 2 ^ m -> fsem m f (ccost m f) (lchild W P m f (lnode W P next m f))) as Hc.
  { intros f Lf. unfold lchild, ccost. destruct ((m <=? 5) && forallb (fun b => b) f) eqn:C.
    - apply (fsem_ext _ _ (fun _ s => charge s)); [reflexivity|exact Lf|]. apply lr0_sem; [exact Lf|]. apply andb_true_iff in C. apply C.
    - apply (fsem_ext _ _ (path_cost m f)); [reflexivity|exact Lf|]. apply IH; [exact Lf|]. intros ->. destruct f as [|[|] [|? ?]]; cbn in Lf, C; try discriminate; try lia. reflexivity. }
  cbn [Nat.pow] in L.
  assert (length (firstn (2 ^ m) fl) = 2 ^ m) as Lf1 by (rewrite firstn_length; lia). assert (length (skipn (2 ^ m) fl) = 2 ^ m) as Lf2 by (rewrite skipn_length; lia).
  pose proof (lchild_fgood W HW P HP next next_ok m _ Lf1) as G1. pose proof (lchild_fgood W HW P HP next next_ok m _ Lf2) as G2.
  eapply fsem_ext; [| |apply (ljoin_sem m fl _ _ _ _ L G1 G2 (Hc _ Lf1) (Hc _ Lf2))]; [|exact L].
  intros u s Lu. cbv beta. rewrite path_cost_S. rewrite ptr_transform by (rewrite firstn_length; cbn [Nat.pow] in Lu; lia). reflexivity.
Qed.
End Decoder.
