(** Polar list decoders with one lane. *)
From Coq Require Import ZifyBool ZifyNat ZifyN.
From Verif Require Import Cpp Model_simd Model_sort Model_polar Model_polar_list Spec_polar Spec_polar_list Spec_polar_one Lib_list Lib_wht
  Proof_bits Proof_simd Proof_polar1 Proof_polar2 Proof_polar3 Proof_polar4 Proof_polar5 Proof_polar6 Proof_polar7 Proof_plist1 Proof_plist2 Proof_plist3 Proof_plist4 Proof_plist5.
Local Open Scope nat_scope.
Ltac Zify.zify_post_hook ::= idtac.

Definition soft127 (x : Z) : Prop := (-127 <= x <= 127)%Z.
(** ** Selecting among two *)
Lemma sel_two x y : sel_metric 1 [x; y] = [Z.min x y] /\ sel_map 1 [x; y] = [0%Z] /\ sel_bit 1 [x; y] = [if (y <? x)%Z then (-1)%Z else 1%Z].
Proof.
  assert (sorting 1 [x; y] = if (y <? x)%Z then ([1; 0], [y; x]) else ([0; 1], [x; y])) as E by (unfold sorting; cbv - [Z.ltb]; destruct (y <? x)%Z; reflexivity).
  unfold sel_metric, sel_map, sel_bit. rewrite E. destruct (Z.ltb_spec y x) as [C|C]; cbn [fst snd firstn seq map nth]; (split; [f_equal; lia|split; reflexivity]).
Qed.
Lemma clamp_range z : soft127 (clamp z).
Proof. unfold soft127, clamp. lia. Qed.
Lemma left_range a b : soft127 (combine_left a b).
Proof.
  unfold soft127, combine_left. destruct (Z.lt_total a 0) as [A|[->|A]], (Z.lt_total b 0) as [B|[->|B]];
    rewrite ?(Z.sgn_neg a), ?(Z.sgn_pos a), ?(Z.sgn_neg b), ?(Z.sgn_pos b) by assumption; cbn [Z.sgn]; lia.
Qed.
Lemma sright_plain m x sl : Forall soft127 sl -> sright m x sl = zip3 combine_right x (firstn (2 ^ m) sl) (skipn (2 ^ m) sl).
Proof.
  intros F. unfold sright. pose proof (Forall_firstn_ soft127 (2 ^ m) sl F) as Fa. revert Fa. generalize (skipn (2 ^ m) sl). generalize (firstn (2 ^ m) sl).
  induction x as [|h x IH]; intros [|y a] [|z b] Fa; cbn [zip3]; try reflexivity. inversion Fa as [|? ? Hy Fa']; subst. rewrite IH by exact Fa'.
  f_equal. unfold combine_right, soft127 in *. do 3 f_equal. lia.
Qed.
(** ** Frozen blocks *)
Lemma zip2_repeat1 n : zip2 Z.mul (repeat 1%Z n) (repeat 1%Z n) = repeat 1%Z n.
Proof. induction n as [|n IH]; [reflexivity|]. cbn [repeat zip2]. rewrite IH. reflexivity. Qed.
Lemma one_path_frozen n : forall par sl, one_path n (repeat Frozen (2 ^ n)) par sl = ([], repeat 1%Z (2 ^ n), par).
Proof.
  induction n as [|m IH]; intros par sl; [reflexivity|]. assert (2 ^ S m = 2 ^ m + 2 ^ m) as -> by (cbn [Nat.pow]; lia). rewrite repeat_app. cbn [one_path].
  rewrite firstn_app_l, skipn_app_l by apply repeat_length. rewrite !IH. rewrite zip2_repeat1, <- repeat_app. reflexivity.
Qed.

Section Decoder.
Notation W := 1.
Let HW : 1 <= 1 <= 256. Proof. lia. Qed.
Variable P : polar_ops (list Z).
Hypothesis HP : vops_ok W P.
Variable next : nat -> role * nat.
Hypothesis next_ok : forall c, fst (next c) <> Frozen.
Notation Is := (lanes_are W int8).
Notation Iv := (lanes_are W pm1).
Notation is_map := (is_map W).
Notation groles := (groles next).
Notation gafter := (gafter next).

Lemma at_one mp : is_map mp -> at_ mp 0 = 0.
Proof. intros H. pose proof (at_lt W mp 0 H). lia. Qed.
Definition fone (n : nat) (fl : list bool) (F : fn) : Prop := forall B a sl b,
  (1000000 <= B)%Z -> awf W next B a -> length sl = 2 ^ n -> Forall Is sl -> Forall soft127 (lane_of 0 sl) ->
  (lane 0 (a_metric a) <= b)%Z -> ~ In Parity (groles fl (a_left a)) \/ (b + 128 * Z.of_nat (2 ^ n) < 1000000)%Z ->
  let '(mp, x, a') := F a sl in
  let '(M, w, par) := one_path n (groles fl (a_left a)) (lane 0 (a_par a)) (lane_of 0 sl) in
  lane_of 0 x = w /\ bits (a_hist a') 0 = bits (a_hist a) 0 ++ M /\ lane 0 (a_par a') = par /\
  (lane 0 (a_metric a') <= b + 128 * Z.of_nat (2 ^ n))%Z.

Lemma leaf_one : fone 0 [false] (leaf W P next).
Proof.
  intros B a sl b HB (Hm & Hp & Hh & Hn) L F F7 Hb Hpar. destruct sl as [|v [|? ?]]; try discriminate. inversion F as [|? ? Hv _]; subst.
  pose proof (lanes_get W _ _ 0 Hv ltac:(lia)) as Rv. pose proof (lanes_get W _ _ 0 Hm ltac:(lia)) as Rm. pose proof (lanes_get W _ _ 0 Hp ltac:(lia)) as Rp. cbv beta in Rm.
  unfold leaf. cbn [hd lane_of map one_path Proof_plist2.groles] in *. pose proof (next_ok (a_left a)) as Hnx. change (2 ^ 0) with 1 in *.
  assert (ffork W (a_metric a) v = [(lane 0 (a_metric a) + neg_part (lane 0 v))%Z; (lane 0 (a_metric a) + neg_part (- lane 0 v))%Z]) as Ef by reflexivity.
  destruct (next (a_left a)) as [r c] eqn:En. cbn [fst snd hd] in *. fold (lane 0 v) in *. unfold int8, pm1 in *.
  destruct r; [congruence| |].
  - rewrite Ef. destruct (sel_two (lane 0 (a_metric a) + neg_part (lane 0 v)) (lane 0 (a_metric a) + neg_part (- lane 0 v))) as (-> & -> & ->).
    replace (lane 0 (a_metric a) + neg_part (- lane 0 v) <? lane 0 (a_metric a) + neg_part (lane 0 v))%Z with (lane 0 v <? 0)%Z by (unfold neg_part; lia).
    set (x := if (lane 0 v <? 0)%Z then (-1)%Z else 1%Z). assert (x = 1 \/ x = -1)%Z as Hx by (unfold x; destruct (_ <? _)%Z; auto).
    cbn [a_hist a_par a_metric]. split; [reflexivity|]. split; [reflexivity|]. split.
    + assert (Iv [x]) as Hxv by (split; [reflexivity|constructor; [exact Hx|constructor]]).
      assert (is_map [0%Z]) as H0 by (split; [reflexivity|constructor; [lia|constructor]]).
      rewrite (lane_mul W P HP) by (first [apply lanes_vshuf; assumption|exact Hxv|lia]). rewrite (lane_vshuf W _ _ 0 pm1 Hp H0) by lia. reflexivity.
    + unfold lane at 1. cbn [nth]. unfold neg_part. lia.
  - assert (b + 128 < 1000000)%Z as Hlt by (destruct Hpar as [Hpar|Hpar]; [exfalso; apply Hpar; left; reflexivity|lia]).
    assert (fkill W (a_par a) (ffork W (a_metric a) v) = [if (lane 0 (a_par a) <? 0)%Z then 1000000%Z else (lane 0 (a_metric a) + neg_part (lane 0 v))%Z;
      if (lane 0 (a_par a) <? 0)%Z then (lane 0 (a_metric a) + neg_part (- lane 0 v))%Z else 1000000%Z]) as -> by reflexivity.
    match goal with |- context [sel_map W [?x; ?y]] => destruct (sel_two x y) as (-> & -> & ->) end.
    cbn [a_hist a_par a_metric]. split; [|split; [|split]].
    + unfold lane_of. cbn [map nth]. f_equal. destruct Rp as [Ep|Ep]; rewrite Ep; cbn [Z.ltb Z.compare]; unfold neg_part.
      * match goal with |- (if ?c then _ else _) = _ => replace c with false by lia end. reflexivity.
      * match goal with |- (if ?c then _ else _) = _ => replace c with true by lia end. reflexivity.
    + rewrite app_nil_r. specialize (Hn eq_refl). destruct (a_hist a) as [|[mm pp] h]; [congruence|]. inversion Hh as [|? ? (H1 & H2) H3]; subst. cbn [fst snd] in *.
      assert (is_map [0%Z]) as H0 by (split; [reflexivity|constructor; [lia|constructor]]).
      cbn [bits]. rewrite (lane_vshuf W _ _ 0 pm1 H1 H0) by lia. rewrite (at_vshuf W _ _ 0 H2 H0) by lia. reflexivity.
    + apply (vk_one _ _ HP). lia.
    + destruct Rp as [Ep|Ep]; rewrite Ep; cbn [Z.ltb Z.compare]; unfold neg_part; match goal with |- (lane 0 [?x] <= _)%Z => change (lane 0 [x]) with x end; lia.
Qed.
Lemma lr0_one n fl : length fl = 2 ^ n -> forallb (fun b => b) fl = true -> fone n fl (lr0 W P n).
Proof.
  intros Lf Af B a sl b HB (Hm & Hp & Hh & Hn) L F F7 Hb Hpar. unfold lr0. destruct (groles_all next fl (a_left a) Af) as (Er & Ea). rewrite Er, Lf, one_path_frozen.
  cbn [a_hist a_par a_metric]. split; [apply (lane_of_ones W P HP); lia|]. split; [rewrite app_nil_r; reflexivity|]. split; [reflexivity|].
  rewrite (lane_charged W HW next next_ok) by lia. pose proof (charge_le _ (lane_word_int8 W 0 sl F ltac:(lia))) as C. rewrite length_lane_of, L in C. lia.
Qed.
Lemma range_fleft sl m : Forall soft127 (sleft m sl).
Proof.
  unfold sleft. generalize (skipn (2 ^ m) sl). generalize (firstn (2 ^ m) sl). intros a. induction a as [|x a IH]; intros [|y b]; cbn [zip2]; constructor; [apply left_range|apply IH].
Qed.
Lemma range_right x a b : Forall soft127 (zip3 combine_right x a b).
Proof. revert a b. induction x as [|h x IH]; intros [|y a] [|z b]; cbn [zip3]; constructor; [apply clamp_range|apply IH]. Qed.
Lemma ljoin_one m fl FL FR : length fl = 2 ^ S m -> fgood W next m (firstn (2 ^ m) fl) FL -> fgood W next m (skipn (2 ^ m) fl) FR ->
  fone m (firstn (2 ^ m) fl) FL -> fone m (skipn (2 ^ m) fl) FR -> fone (S m) fl (ljoin P FL FR m).
Proof.
  intros Lfl GL GR OL OR B a sl b HB Ha L F F7 Hb Hpar. unfold ljoin. cbn [one_path].
  assert (length (firstn (2 ^ m) fl) = 2 ^ m) as Lf1 by (rewrite firstn_length; cbn [Nat.pow] in Lfl; lia).
  pose proof (groles_app next (firstn (2 ^ m) fl) (skipn (2 ^ m) fl) (a_left a)) as Eg. rewrite firstn_skipn in Eg.
  assert (length (groles (firstn (2 ^ m) fl) (a_left a)) = 2 ^ m) as Lg by (rewrite length_groles; exact Lf1).
  rewrite Eg. rewrite firstn_app_l, skipn_app_l by exact Lg. rewrite Eg in Hpar.
  destruct (fleft_wf W HW P HP next next_ok m sl L F) as (L1 & F1). specialize (GL B a _ HB Ha L1 F1). specialize (OL B a (fleft P m sl) b HB Ha L1 F1).
  rewrite (lane_fleft W P HP 0 m sl F ltac:(lia)) in OL. specialize (OL (range_fleft _ _) Hb).
  assert (128 * Z.of_nat (2 ^ S m) = 128 * Z.of_nat (2 ^ m) + 128 * Z.of_nat (2 ^ m))%Z as E2 by (cbn [Nat.pow]; lia).
  pose proof (pow2_pos m) as Hpos.
  destruct (FL a (fleft P m sl)) as [[lm x1] a1]. destruct GL as (M1 & X1 & V1 & A1 & H1 & C1).
  change (zip2 combine_left (firstn (2 ^ m) (lane_of 0 sl)) (skipn (2 ^ m) (lane_of 0 sl))) with (sleft m (lane_of 0 sl)).
  destruct (one_path m (groles (firstn (2 ^ m) fl) (a_left a)) (lane 0 (a_par a)) (sleft m (lane_of 0 sl))) as [[m1 w1] par1].
  destruct OL as (W1 & B1 & P1 & T1). { destruct Hpar as [Hpar|Hpar]; [left; intros C; apply Hpar, in_or_app; left; exact C|right; lia]. }
  destruct (lright_wf W HW P HP next next_ok m lm x1 sl L F M1 X1 V1) as (L2 & F2).
  specialize (GR (B + 128 * Z.of_nat (2 ^ m))%Z a1 _ ltac:(lia) A1 L2 F2). specialize (OR (B + 128 * Z.of_nat (2 ^ m))%Z a1 (lright P m lm x1 sl) (b + 128 * Z.of_nat (2 ^ m))%Z ltac:(lia) A1 L2 F2).
  rewrite (lane_lright W P HP 0 m lm x1 sl F V1 M1 ltac:(lia)) in OR. rewrite (at_one _ M1) in OR. rewrite sright_plain in OR by exact F7. rewrite W1 in OR. specialize (OR (range_right _ _ _) T1).
  destruct (FR a1 (lright P m lm x1 sl)) as [[rm x2] a2]. destruct GR as (M2 & X2 & V2 & A2 & H2 & C2).
  rewrite C1, P1 in OR.
  destruct (one_path m (groles (skipn (2 ^ m) fl) (gafter (firstn (2 ^ m) fl) (a_left a))) par1 _) as [[m2 w2] par2].
  destruct OR as (W2 & B2 & P2 & T2). { destruct Hpar as [Hpar|Hpar]; [left; intros C; apply Hpar, in_or_app; right; exact C|right; lia]. }
  split; [|split; [|split; [exact P2|lia]]].
  - rewrite lane_of_app, (lane_join W P HP) by (first [assumption|lia]). rewrite (at_one _ M2), W1, W2. reflexivity.
  - rewrite B2, B1, app_assoc. reflexivity.
Qed.
Lemma lnode_one n : forall fl, length fl = 2 ^ n -> (n = 0 -> fl = [false]) -> fone n fl (lnode W P next n fl).
Proof.
  induction n as [|m IH]; intros fl L H0; [rewrite H0 by reflexivity; exact leaf_one|]. cbn [lnode].
  assert (forall f, length f = 2 ^ m -> fone m f (lchild W P m f (lnode W P next m f))) as Hc.
  { intros f Lf. unfold lchild. destruct ((m <=? 5) && forallb (fun b => b) f) eqn:C.
    - apply lr0_one; [exact Lf|]. apply andb_true_iff in C. apply C.
    - apply IH; [exact Lf|]. intros ->. destruct f as [|[|] [|? ?]]; cbn in Lf, C; try discriminate; try lia. reflexivity. }
  assert (length (firstn (2 ^ m) fl) = 2 ^ m) as Lf1 by (rewrite firstn_length; cbn [Nat.pow] in L; lia). assert (length (skipn (2 ^ m) fl) = 2 ^ m) as Lf2 by (rewrite skipn_length; cbn [Nat.pow] in L; lia).
  apply ljoin_one; [exact L| | |apply Hc; assumption..]; apply (lchild_fgood W HW P HP next next_ok); assumption.
Qed.
End Decoder.

(** ** Without a tie it is plain successive cancellation *)
Definition no_tie (m : list Z) : Prop := Forall (fun x => x <> 0%Z) m.
Lemma length_sc n : forall fl sl, length (snd (successive_cancellation n fl sl)) = 2 ^ n.
Proof.
  induction n as [|m IH]; intros fl sl; cbn [successive_cancellation Nat.pow].
  - destruct (hd true fl); reflexivity.
  - pose proof (IH (firstn (2 ^ m) fl) (zip2 combine_left (firstn (2 ^ m) sl) (skipn (2 ^ m) sl))) as L1. destruct (successive_cancellation m _ _) as [m1 x1]. cbn [snd] in L1.
    pose proof (IH (skipn (2 ^ m) fl) (zip3 combine_right x1 (firstn (2 ^ m) sl) (skipn (2 ^ m) sl))) as L2. destruct (successive_cancellation m _ _) as [m2 x2]. cbn [snd] in *.
    rewrite app_length, length_zip2. lia.
Qed.
Lemma one_path_plain n : forall fl par sl, length fl = 2 ^ n -> length sl = 2 ^ n -> no_tie (fst (successive_cancellation n fl sl)) ->
  fst (one_path n (plain_roles fl) par sl) = successive_cancellation n fl sl.
Proof.
  induction n as [|m IH]; intros fl par sl Lf Ls H; cbn [Nat.pow] in *.
  - destruct fl as [|f [|? ?]], sl as [|x [|? ?]]; cbn [length] in *; try lia. cbn [one_path successive_cancellation plain_roles map hd fst] in *. destruct f; [reflexivity|].
    cbn [fst] in *. inversion H as [|? ? Hx _]; subst. assert (x <> 0%Z) as Hz by (intros ->; apply Hx; reflexivity). cbn [fst].
    replace (if (x <? 0)%Z then (-1)%Z else 1%Z) with (Z.sgn x); [reflexivity|]. destruct (Z.ltb_spec x 0); [apply Z.sgn_neg; lia|apply Z.sgn_pos; lia].
  - cbn [one_path successive_cancellation] in *. set (h := 2 ^ m) in *. unfold plain_roles in *. rewrite firstn_map, skipn_map.
    pose proof (IH (firstn h fl) par (zip2 combine_left (firstn h sl) (skipn h sl))) as I1.
    destruct (successive_cancellation m (firstn h fl) _) as [m1 x1] eqn:Esc. destruct (one_path m (map _ (firstn h fl)) _ _) as [[m1' x1'] p1]. cbn [fst] in *.
    assert (length x1 = h) as Lx1 by (change x1 with (snd (m1, x1)); rewrite <- Esc; apply length_sc).
    assert (no_tie m1 /\ (m1', x1') = (m1, x1)) as (N1 & E1).
    { assert (no_tie m1) as N1. { destruct (successive_cancellation m (skipn h fl) _) as [m2 x2]. apply Forall_app in H. apply H. }
      split; [exact N1|]. apply I1; [rewrite firstn_length; lia|rewrite length_zip2, firstn_length, skipn_length; lia|exact N1]. }
    injection E1 as -> ->. pose proof (IH (skipn h fl) p1 (zip3 combine_right x1 (firstn h sl) (skipn h sl))) as I2.
    destruct (successive_cancellation m (skipn h fl) _) as [m2 x2] eqn:E2. destruct (one_path m (map _ (skipn h fl)) _ _) as [[m2' x2'] p2]. cbn [fst] in *.
    apply Forall_app in H. assert ((m2', x2') = (m2, x2)) as E3.
    { apply I2; [rewrite skipn_length; lia| |apply H]. rewrite length_zip3, firstn_length, skipn_length. lia. }
    injection E3 as -> ->. reflexivity.
Qed.
