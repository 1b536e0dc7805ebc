(** Polar list decoders with floating point lanes: the trees compute a recursive function on metrics, decisions and maps.
    [SI n] is what is known of the soft values of a block of size [2^n], [MI] of the metrics. *)
From Coq Require Import ZifyBool ZifyNat ZifyN Floats.SpecFloat.
From Verif Require Import Cpp Model_simd Model_sort Model_polar Model_polar_list Model_polar_float Model_fsimd Model_polar_listf Spec_polar Spec_polar_float Spec_polar_list Spec_polar_listf
  Lib_list Lib_wht Proof_bits Proof_simd Proof_polar1 Proof_polar2 Proof_polar3 Proof_polar4 Proof_polar5 Proof_polar7 Proof_plist1 Proof_plist2 Proof_plf0 Proof_plf1.
Local Open Scope nat_scope.
Ltac Zify.zify_post_hook ::= idtac.

(** the metrics, the decisions and maps (latest first), the parities, and the symbols left until the next parity symbol *)
Record gst := mk_gst { g_metric : list spec_float; g_hist : list (list Z * list Z); g_par : list Z; g_left : nat }.

Lemma Forall_nth' {X} (Q : X -> Prop) l k d : Forall Q l -> k < length l -> Q (nth k l d).
Proof. intros F H. rewrite Forall_forall in F. apply F. apply nth_In. exact H. Qed.
Lemma Forall_flane (Q : spec_float -> Prop) l k : Forall Q l -> k < length l -> Q (flane k l).
Proof. apply Forall_nth'. Qed.
Lemma Forall_lanes {X} (Q : X -> Prop) l W d : length l = W -> (forall k, k < W -> Q (nth k l d)) -> Forall Q l.
Proof. intros L H. apply Forall_forall. intros x Hx. apply (In_nth _ _ d) in Hx. destruct Hx as (k & Hk & <-). apply H. lia. Qed.

Section Decoder.
Variables (prec emax ub : Z) (W : nat).
Hypothesis Hp : (1 < prec)%Z.
Hypothesis He : (prec < emax)%Z.
Hypothesis HW : 1 <= W.
Hypothesis HU : (Z.of_nat W <= 2 ^ ub)%Z.
Notation P := (opsfv prec emax W).
Notation emb := (hard_value prec).
Notation million := (million prec emax).
Notation step := (step_metric prec emax).
Variable next : nat -> role * nat.
Hypothesis next_ok : forall c, fst (next c) <> Frozen.
Variable SI : nat -> spec_float -> Prop.
Variable MI : spec_float -> Prop.
Hypothesis SIl : forall m a b, SI (S m) a -> SI (S m) b -> SI m (combine_left_f prec emax a b).
Hypothesis SIr : forall m h a b, pm1 h -> SI (S m) a -> SI (S m) b -> SI m (combine_right_f prec emax (emb h) a b).
Hypothesis MIs : forall n u m x, pm1 u -> MI m -> SI n x -> MI (step u m x).
Hypothesis MIm : MI million.
Notation Iv := (lanes_are W pm1).
Notation is_map := (is_map W).
Notation groles := (groles next).
Notation gafter := (gafter next).
Notation ones := (repeat 1%Z W).
Definition Isf (n : nat) (v : list spec_float) : Prop := length v = W /\ Forall (SI n) v.
Lemma Isf_get n v k : Isf n v -> k < W -> SI n (flane k v).
Proof. intros (L & F) H. apply Forall_flane; [exact F|lia]. Qed.
Lemma Isf_intro n v : length v = W -> (forall k, k < W -> SI n (flane k v)) -> Isf n v.
Proof. intros L H. split; [exact L|]. apply (Forall_lanes _ _ W z0 L H). Qed.
Lemma ones_pm1 : Iv ones.
Proof. split; [apply repeat_length|]. apply Forall_forall. intros x Hx. apply repeat_spec in Hx. left. exact Hx. Qed.
Lemma lane_ones k : k < W -> lane k ones = 1%Z.
Proof. intros H. unfold lane. rewrite (nth_indep _ 0%Z 1%Z) by (rewrite repeat_length; lia). apply nth_repeat. Qed.
Lemma zmulv_pm1 a b : Iv a -> Iv b -> Iv (zmulv a b).
Proof.
  intros Ha Hb. apply lanes_intro; [unfold zmulv; rewrite length_zip2; destruct Ha, Hb; lia|]. intros k Hk. rewrite (lane_zmulv ub W HW) by (try apply Ha; try apply Hb; exact Hk).
  apply (lanes_get W _ _ k) in Ha; [|exact Hk]. apply (lanes_get W _ _ k) in Hb; [|exact Hk]. unfold pm1 in *. lia.
Qed.

(** ** The function *)
Definition gn := gst -> list (list spec_float) -> list Z * list (list Z) * gst.
Definition gleaf : gn := fun a sl =>
  let fork := fforkf prec emax W (g_metric a) (hd [] sl) in
  match next (g_left a) with
  | (Parity, c) =>
      let fork := fkillf prec emax W (g_par a) fork in
      let mp := self_map W fork in
      (mp, [self_bit W fork], mk_gst (self_metric W fork) (match g_hist a with (m, p) :: h => (vshuf m mp, vshuf p mp) :: h | [] => [] end) ones c)
  | (_, c) =>
      let mp := self_map W fork in
      let bit := self_bit W fork in
      (mp, [bit], mk_gst (self_metric W fork) ((bit, mp) :: g_hist a) (zmulv (vshuf (g_par a) mp) bit) c)
  end.
Definition gcharged (metric : list spec_float) (sl : list (list spec_float)) : list spec_float :=
  map (fun k => block_metric prec emax (lane_off k sl) (flane k metric)) (seq 0 W).
Definition gr0 (n : nat) : gn := fun a sl =>
  (iota W, repeat ones (2 ^ n), mk_gst (gcharged (g_metric a) sl) (g_hist a) (g_par a) (g_left a)).
Definition gright (m : nat) (lm : list Z) (x1 : list (list Z)) (sl : list (list spec_float)) : list (list spec_float) :=
  zip3 (fun h a b => p_madd P h (fv_shuf a lm) (fv_shuf b lm)) (map (map emb) x1) (firstn (2 ^ m) sl) (skipn (2 ^ m) sl).
Definition gjoin (FL FR : gn) (m : nat) : gn := fun a sl =>
  let '(lm, x1, a1) := FL a (fleft P m sl) in
  let '(rm, x2, a2) := FR a1 (gright m lm x1 sl) in
  (vshuf lm rm, zip2 (fun x y => zmulv (vshuf x rm) y) x1 x2 ++ x2, a2).
Definition gchild (n : nat) (fl : list bool) (rec : gn) : gn :=
  if (n <=? 5) && forallb (fun b => b) fl then gr0 n else rec.
Fixpoint gnode (n : nat) (fl : list bool) : gn :=
  match n with
  | O => gleaf
  | S m => gjoin (gchild m (firstn (2 ^ m) fl) (gnode m (firstn (2 ^ m) fl))) (gchild m (skipn (2 ^ m) fl) (gnode m (skipn (2 ^ m) fl))) m
  end.

(** ** Well formed results *)
Definition gwf (a : gst) : Prop :=
  length (g_metric a) = W /\ Forall MI (g_metric a) /\ Iv (g_par a) /\
  Forall (fun e => Iv (fst e) /\ is_map (snd e)) (g_hist a) /\ (fst (next (g_left a)) = Parity -> g_hist a <> []).
Definition ggood (n : nat) (fl : list bool) (F : gn) : Prop := forall a sl,
  gwf a -> length sl = 2 ^ n -> Forall (Isf n) sl ->
  let '(mp, x, a') := F a sl in
  is_map mp /\ length x = 2 ^ n /\ Forall Iv x /\ gwf a' /\
  length (g_hist a') = length (g_hist a) + payload (groles fl (g_left a)) /\ g_left a' = gafter fl (g_left a).

Lemma length_fforkf m s : length (fforkf prec emax W m s) = 2 * W.
Proof. apply length_fpairs. Qed.
Lemma length_fkillf m s : length (fkillf prec emax W m s) = 2 * W.
Proof. apply length_fpairs. Qed.
Lemma fpairs_all (Q : spec_float -> Prop) f g : (forall k, k < W -> Q (f k) /\ Q (g k)) -> Forall Q (fpairs f g W).
Proof.
  intros H. apply (Forall_lanes _ _ (2 * W) z0); [apply length_fpairs|]. intros j Hj. destruct (even_odd_case j) as (k & Ek). assert (k < W) as Hk by lia.
  destruct (nth_fpairs f g W k Hk) as (E0 & E1). destruct (H k Hk). destruct Ek as [-> | ->]; rewrite ?E0, ?E1; assumption.
Qed.
Lemma forkf_MI m s : length m = W -> Forall MI m -> Isf 0 s -> Forall MI (fforkf prec emax W m s).
Proof.
  intros Lm Fm Hs. apply fpairs_all. intros k Hk. pose proof (Isf_get 0 s k Hs Hk). assert (MI (flane k m)) by (apply Forall_flane; [exact Fm|lia]).
  split; apply (MIs 0); try assumption; unfold pm1; auto.
Qed.
Lemma killf_MI p f : length f = 2 * W -> Forall MI f -> Forall MI (fkillf prec emax W p f).
Proof.
  intros L F. apply fpairs_all. intros k Hk. assert (MI (nth (2 * k) f z0)) by (apply Forall_nth'; [exact F|lia]). assert (MI (nth (2 * k + 1) f z0)) by (apply Forall_nth'; [exact F|lia]).
  destruct (lane k p <? 0)%Z; auto.
Qed.
Lemma fork_index_lt' mp bt k : is_map mp -> k < W -> fork_index mp bt k < 2 * W.
Proof. intros H Hk. unfold fork_index. pose proof (at_lt W mp k H Hk). destruct (_ =? _)%Z; lia. Qed.
Lemma self_MI fork : length fork = 2 * W -> Forall MI fork -> length (self_metric W fork) = W /\ Forall MI (self_metric W fork).
Proof.
  intros L F. destruct (selectf_spec ub W HW fork L) as (Hm & _ & Lm & _ & V & _). split; [exact Lm|]. apply (Forall_lanes _ _ W z0 Lm). intros k Hk. fold (flane k (self_metric W fork)).
  rewrite V by exact Hk. apply Forall_nth'; [exact F|]. rewrite L. apply fork_index_lt'; assumption.
Qed.
Lemma gleaf_good : ggood 0 [false] gleaf.
Proof.
  intros a sl (Lm & Hm & Hpar & Hh & Hn) L F. destruct sl as [|v [|? ?]]; try discriminate. inversion F as [|? ? Hv _]; subst. unfold gleaf. cbn [hd].
  pose proof (next_ok (g_left a)) as Hnx. destruct (next (g_left a)) as [r c] eqn:En. cbn [fst] in *. pose proof (forkf_MI _ _ Lm Hm Hv) as FM.
  assert (r = Data \/ r = Parity) as [-> | ->] by (destruct r; [congruence|auto|auto]).
  - set (fork := fforkf prec emax W (g_metric a) v) in *. pose proof (length_fforkf (g_metric a) v) as Lf. fold fork in Lf. destruct (selectf_spec ub W HW fork Lf) as (S1 & S2 & _).
    destruct (self_MI fork Lf FM). split; [exact S1|]. split; [reflexivity|]. split; [constructor; [exact S2|constructor]|]. split; [|split].
    + split; [|split; [|split; [|split]]]; cbn [g_metric g_par g_hist g_left].
      * assumption.
      * assumption.
      * apply zmulv_pm1; [|exact S2]. apply lanes_vshuf; assumption.
      * constructor; [cbn [fst snd]; auto|exact Hh].
      * discriminate.
    + cbn [g_hist length Proof_plist2.groles]. rewrite En. cbn. lia.
    + cbn [Proof_plist2.gafter g_left]. rewrite En. reflexivity.
  - set (f0 := fforkf prec emax W (g_metric a) v) in *. set (fork := fkillf prec emax W (g_par a) f0). pose proof (length_fkillf (g_par a) f0) as Lf. fold fork in Lf. destruct (selectf_spec ub W HW fork Lf) as (S1 & S2 & _).
    destruct (self_MI fork Lf (killf_MI _ _ (length_fforkf _ _) FM)).
    specialize (Hn eq_refl). destruct (g_hist a) as [|[m p] h] eqn:Eh; [congruence|]. inversion Hh as [|? ? (H1 & H2) H3]; subst. cbn [fst snd] in *.
    split; [exact S1|]. split; [reflexivity|]. split; [constructor; [exact S2|constructor]|]. split; [|split].
    + split; [|split; [|split; [|split]]]; cbn [g_metric g_par g_hist g_left].
      * assumption.
      * assumption.
      * apply ones_pm1.
      * constructor; [cbn [fst snd]; split; apply lanes_vshuf; assumption|exact H3].
      * discriminate.
    + cbn [g_hist length Proof_plist2.groles]. rewrite En. cbn. lia.
    + cbn [Proof_plist2.gafter g_left]. rewrite En. reflexivity.
Qed.
Lemma lane_off_SI n k sl : Forall (Isf n) sl -> k < W -> Forall (SI n) (lane_off k sl).
Proof. intros F H. unfold lane_off. apply Forall_map. eapply Forall_impl; [|exact F]. intros v Hv. exact (Isf_get n v k Hv H). Qed.
Lemma length_lane_off k sl : length (lane_off k sl) = length sl.
Proof. apply map_length. Qed.
Lemma flane_gcharged metric sl k : k < W -> flane k (gcharged metric sl) = block_metric prec emax (lane_off k sl) (flane k metric).
Proof. intros Hk. unfold gcharged, flane at 1. rewrite nth_map_seq. replace (k <? W) with true by lia. reflexivity. Qed.
Lemma block_MI n l : forall m, Forall (SI n) l -> MI m -> MI (block_metric prec emax l m).
Proof. induction l as [|x l IH]; intros m F H; [exact H|]. inversion F; subst. cbn [block_metric fold_left]. apply IH; [assumption|]. apply (MIs n); [left; reflexivity|assumption..]. Qed.
Lemma length_gcharged metric sl : length (gcharged metric sl) = W.
Proof. unfold gcharged. rewrite map_length, seq_length. reflexivity. Qed.
Lemma gcharged_wf n metric sl : length metric = W -> Forall MI metric -> Forall (Isf n) sl -> length (gcharged metric sl) = W /\ Forall MI (gcharged metric sl).
Proof.
  intros Lm Fm F. pose proof (length_gcharged metric sl) as L. split; [exact L|]. apply (Forall_lanes _ _ W z0 L). intros k Hk. fold (flane k (gcharged metric sl)). rewrite flane_gcharged by exact Hk.
  apply (block_MI n); [apply lane_off_SI; assumption|]. apply Forall_flane; [exact Fm|lia].
Qed.
Lemma gr0_good n fl : length fl = 2 ^ n -> forallb (fun b => b) fl = true -> ggood n fl (gr0 n).
Proof.
  intros Lf Af a sl (Lm & Hm & Hpar & Hh & Hn) L F. unfold gr0. destruct (groles_all next fl (g_left a) Af) as (Er & Ea). destruct (gcharged_wf n _ _ Lm Hm F).
  split; [apply (iotaf_is_map ub W HW)|]. split; [apply repeat_length|]. split; [apply Forall_forall; intros v Hv; apply repeat_spec in Hv; subst; apply ones_pm1|].
  split; [|split].
  - split; [assumption|]. split; [assumption|]. auto.
  - rewrite Er, payload_frozen. cbn [g_hist]. lia.
  - rewrite Ea. reflexivity.
Qed.
Lemma gleft_wf m sl : length sl = 2 ^ S m -> Forall (Isf (S m)) sl -> length (fleft P m sl) = 2 ^ m /\ Forall (Isf m) (fleft P m sl).
Proof.
  intros L F. cbn [Nat.pow] in L. split; [unfold fleft; rewrite length_zip2, firstn_length, skipn_length; lia|].
  unfold fleft. eapply (Forall_zip2 _ (Isf (S m)) (Isf (S m)) (Isf m)); [|apply Forall_firstn_; exact F|apply Forall_skipn_; exact F]. intros a b Ha Hb.
  destruct (prod_v prec emax ub W Hp He HW a b (proj1 Ha) (proj1 Hb)) as (Lp & V). apply Isf_intro; [exact Lp|]. intros k Hk. rewrite V by exact Hk. apply SIl; apply Isf_get; assumption.
Qed.
Lemma gright_wf m lm x1 sl : length sl = 2 ^ S m -> Forall (Isf (S m)) sl -> is_map lm -> length x1 = 2 ^ m -> Forall Iv x1 ->
  length (gright m lm x1 sl) = 2 ^ m /\ Forall (Isf m) (gright m lm x1 sl).
Proof.
  intros L F Hl Lx Fx. cbn [Nat.pow] in L. split; [unfold gright; rewrite length_zip3, map_length, firstn_length, skipn_length; lia|].
  unfold gright. eapply (Forall_zip3 _ (fun v => exists h, v = map emb h /\ Iv h) (Isf (S m)) (Isf (S m)) (Isf m)); [| |apply Forall_firstn_; exact F|apply Forall_skipn_; exact F].
  2: { apply Forall_map. eapply Forall_impl; [|exact Fx]. intros h Hh. exists h. auto. }
  intros v a b (h & -> & Hh) Ha Hb.
  destruct (madd_v prec emax ub W HW (map emb h) (fv_shuf a lm) (fv_shuf b lm)) as (Lp & V); [rewrite map_length; apply Hh|rewrite length_fvshuf; apply Hl..|].
  apply Isf_intro; [exact Lp|]. intros k Hk. rewrite V by exact Hk. rewrite flane_emb, !(flane_shuf ub W HW) by (try apply Ha; try apply Hb; assumption). pose proof (at_lt W lm k Hl Hk).
  apply SIr; [exact (lanes_get W _ _ k Hh Hk)|apply Isf_get; assumption..].
Qed.
Lemma gjoin_good m fl FL FR : ggood m (firstn (2 ^ m) fl) FL -> ggood m (skipn (2 ^ m) fl) FR -> ggood (S m) fl (gjoin FL FR m).
Proof.
  intros GL GR a sl Ha L F. unfold gjoin. destruct (gleft_wf m sl L F) as (L1 & F1). specialize (GL a _ Ha L1 F1).
  destruct (FL a (fleft P m sl)) as [[lm x1] a1]. destruct GL as (M1 & X1 & V1 & A1 & H1 & C1).
  destruct (gright_wf m lm x1 sl L F M1 X1 V1) as (L2 & F2). specialize (GR a1 _ A1 L2 F2).
  destruct (FR a1 (gright m lm x1 sl)) as [[rm x2] a2]. destruct GR as (M2 & X2 & V2 & A2 & H2 & C2).
  split; [apply lanes_vshuf; assumption|]. split; [rewrite app_length, length_zip2; cbn [Nat.pow]; lia|]. split.
  - apply Forall_app. split; [|exact V2]. eapply (Forall_zip2 _ Iv Iv Iv); [|exact V1|exact V2]. intros u v Hu Hv. apply zmulv_pm1; [apply lanes_vshuf; assumption|exact Hv].
  - split; [|split].
    + exact A2.
    + rewrite <- (firstn_skipn (2 ^ m) fl) at 1. rewrite groles_app, payload_app. rewrite H2, H1, C1. lia.
    + rewrite <- (firstn_skipn (2 ^ m) fl) at 1. rewrite gafter_app, C2, C1. reflexivity.
Qed.
Lemma gchild_cases n fl : length fl = 2 ^ n -> (n = 0 -> fl = [false] -> ggood n fl (gnode n fl)) -> (1 <= n -> ggood n fl (gnode n fl)) -> ggood n fl (gchild n fl (gnode n fl)).
Proof.
  intros Lf H0 H1. unfold gchild. destruct ((n <=? 5) && forallb (fun b => b) fl) eqn:C.
  - apply gr0_good; [exact Lf|]. apply andb_true_iff in C. apply C.
  - destruct n as [|n]; [|apply H1; lia]. apply H0; [reflexivity|]. destruct fl as [|[|] [|? ?]]; cbn in Lf, C; try discriminate; try lia. reflexivity.
Qed.
Lemma gnode_good n : forall fl, length fl = 2 ^ n -> (n = 0 -> fl = [false]) -> ggood n fl (gnode n fl).
Proof.
  induction n as [|m IH]; intros fl L H0; [rewrite H0 by reflexivity; exact gleaf_good|]. cbn [gnode]. cbn [Nat.pow] in L.
  apply gjoin_good; (apply gchild_cases; [rewrite ?firstn_length, ?skipn_length; lia|intros -> E; rewrite E; exact gleaf_good|]; intros H; apply IH; [rewrite ?firstn_length, ?skipn_length; lia|lia]).
Qed.
Lemma gchild_good n fl : length fl = 2 ^ n -> ggood n fl (gchild n fl (gnode n fl)).
Proof.
  intros L. apply gchild_cases; [exact L| |].
  - intros -> ->. exact gleaf_good.
  - intros H. apply gnode_good; [exact L|lia].
Qed.
End Decoder.
