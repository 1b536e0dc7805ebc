(** Property C81: polar_encoder.hh, the distance of polar codes. *)
From Coq Require Import ZifyBool ZifyNat.
From Verif Require Import Cpp Model_simd Model_polar Model_polar_list Spec_polar Spec_polar_list Lib_list Lib_wht Proof_bits Proof_simd Proof_polar1 Proof_polar2 Proof_polar3 Proof_polar4 Proof_polar5 Proof_polar6 Proof_polar7 Prop_polar Prop_polar_list.
Local Open Scope nat_scope.
Ltac Zify.zify_post_hook ::= idtac.

(** the number of places where two words differ *)
Definition differ (a b : list Z) : nat := length (filter (fun p => negb (fst p =? snd p)%Z) (combine a b)).
(** the number of one bits among the lowest [n] bits of an index *)
Definition one_bits (n i : nat) : nat := length (filter (Nat.testbit i) (seq 0 n)).
(** the place of the [k]-th unfrozen position *)
Fixpoint position (fl : list bool) (k : nat) : nat :=
  match fl, k with
  | [], _ => 0
  | true :: fl, k => S (position fl k)
  | false :: _, O => 0
  | false :: fl, S k => S (position fl k)
  end.

Lemma differ_app a : forall b c d, length a = length b -> differ (a ++ c) (b ++ d) = differ a b + differ c d.
Proof.
  induction a as [|x a IH]; intros [|y b] c d L; cbn [length] in L; try discriminate; [reflexivity|].
  unfold differ in *. cbn [Datatypes.app combine filter fst snd]. destruct (negb (x =? y)%Z); cbn [length]; rewrite IH by lia; reflexivity.
Qed.
Lemma differ_cons x y a b : differ (x :: a) (y :: b) = (if (x =? y)%Z then 0 else 1) + differ a b.
Proof. unfold differ. cbn [combine filter fst snd]. destruct (x =? y)%Z; reflexivity. Qed.
Lemma differ_refl a : differ a a = 0.
Proof. induction a as [|x a IH]; [reflexivity|]. rewrite differ_cons, IH, Z.eqb_refl. reflexivity. Qed.
Lemma differ_sym a : forall b, differ a b = differ b a.
Proof. induction a as [|x a IH]; intros [|y b]; try reflexivity. rewrite !differ_cons, IH, Z.eqb_sym. reflexivity. Qed.
Lemma differ_triangle a : forall b c, length a = length b -> length b = length c -> differ a c <= differ a b + differ b c.
Proof.
  induction a as [|x a IH]; intros [|y b] [|z c] L1 L2; cbn [length] in *; try discriminate; [cbn; lia|].
  rewrite !differ_cons. specialize (IH b c ltac:(lia) ltac:(lia)).
  destruct (x =? z)%Z eqn:E1, (x =? y)%Z eqn:E2, (y =? z)%Z eqn:E3; lia.
Qed.
Lemma differ_mul_ge a : forall b c d, length a = length b -> length b = length c -> length c = length d -> Forall pm1 a -> Forall pm1 b -> Forall pm1 c -> Forall pm1 d ->
  differ a c <= differ (zip2 Z.mul a b) (zip2 Z.mul c d) + differ b d.
Proof.
  induction a as [|x a IH]; intros [|y b] [|z c] [|w d] L1 L2 L3 F1 F2 F3 F4; cbn [length] in *; try discriminate; [cbn; lia|].
  cbn [zip2]. rewrite !differ_cons. inversion F1 as [|? ? X1 G1]; inversion F2 as [|? ? X2 G2]; inversion F3 as [|? ? X3 G3]; inversion F4 as [|? ? X4 G4]. subst.
  specialize (IH b c d ltac:(lia) ltac:(lia) ltac:(lia) G1 G2 G3 G4).
  enough ((if (x =? z)%Z then 0 else 1) <= (if (x * y =? z * w)%Z then 0 else 1) + (if (y =? w)%Z then 0 else 1)) by lia.
  unfold pm1 in *. destruct X1, X2, X3, X4; subst; cbn; lia.
Qed.
Lemma differ_mul_same a : forall b d, length a = length b -> length b = length d -> Forall pm1 a -> differ (zip2 Z.mul a b) (zip2 Z.mul a d) = differ b d.
Proof.
  induction a as [|x a IH]; intros [|y b] [|w d] L1 L2 F1; cbn [length] in *; try discriminate; [reflexivity|].
  inversion F1 as [|? ? X1 G1]. subst. cbn [zip2]. rewrite !differ_cons, IH by (assumption || lia). f_equal.
  replace (x * y =? x * w)%Z with (y =? w)%Z; [reflexivity|]. unfold pm1 in X1. destruct X1; subst; lia.
Qed.
Lemma differ_same_mul b : forall a c, length a = length b -> length b = length c -> Forall pm1 b -> differ (zip2 Z.mul a b) (zip2 Z.mul c b) = differ a c.
Proof.
  induction b as [|x b IH]; intros [|y a] [|w c] L1 L2 F1; cbn [length] in *; try discriminate; [reflexivity|].
  inversion F1 as [|? ? X1 G1]. subst. cbn [zip2]. rewrite !differ_cons, IH by (assumption || lia). f_equal.
  replace (y * x =? w * x)%Z with (y =? w)%Z; [reflexivity|]. unfold pm1 in X1. destruct X1; subst; lia.
Qed.

Lemma one_bits_S m i : one_bits (S m) i = one_bits m i + (if Nat.testbit i m then 1 else 0).
Proof. unfold one_bits. rewrite seq_S, filter_app, app_length. cbn [filter Nat.add]. destruct (Nat.testbit i m); reflexivity. Qed.
Lemma one_bits_low m i : i < 2 ^ m -> one_bits (S m) i = one_bits m i.
Proof. intros H. rewrite one_bits_S. replace (Nat.testbit i m) with false; [lia|]. rewrite Nat.testbit_eqb, Nat.div_small by exact H. reflexivity. Qed.
Lemma one_bits_high m i : i < 2 ^ m -> one_bits (S m) (2 ^ m + i) = S (one_bits m i).
Proof.
  intros H. assert (P : 2 ^ m <> 0) by (apply Nat.pow_nonzero; lia). rewrite one_bits_S. replace (Nat.testbit (2 ^ m + i) m) with true.
  - rewrite Nat.add_1_r. f_equal. unfold one_bits. f_equal. apply filter_ext_in. intros j Hj. apply in_seq in Hj.
    rewrite !Nat.testbit_eqb. replace m with (j + S (m - S j)) at 1 by lia. rewrite Nat.pow_add_r.
    replace (2 ^ j * 2 ^ S (m - S j) + i) with (i + 2 * 2 ^ (m - S j) * 2 ^ j) by (cbn [Nat.pow]; lia).
    rewrite Nat.div_add by (apply Nat.pow_nonzero; lia). rewrite (Nat.mul_comm 2 (2 ^ (m - S j))), Nat.mod_add by lia. reflexivity.
  - rewrite Nat.testbit_eqb. replace (2 ^ m + i) with (i + 1 * 2 ^ m) by lia. rewrite Nat.div_add, Nat.div_small by assumption. reflexivity.
Qed.

(** two words whose first difference is at [i] *)
Lemma ptr_differ n : forall u v i, length u = 2 ^ n -> length v = 2 ^ n -> Forall pm1 u -> Forall pm1 v -> i < 2 ^ n ->
  firstn i u = firstn i v -> nth i u 0%Z <> nth i v 0%Z ->
  2 ^ one_bits n i <= differ (ptr n u) (ptr n v) /\ (skipn (S i) u = skipn (S i) v -> differ (ptr n u) (ptr n v) = 2 ^ one_bits n i).
Proof.
  induction n as [|m IH]; intros u v i Lu Lv Fu Fv Hi E N.
  - cbn [Nat.pow] in *. assert (i = 0) by lia. subst i. destruct u as [|x [|? ?]], v as [|y [|? ?]]; cbn [length] in *; try discriminate. cbn [nth] in N. cbn [ptr]. rewrite differ_cons.
    replace (x =? y)%Z with false by lia. cbn. lia.
  - cbn [ptr]. set (h := 2 ^ m) in *. assert (EH : 2 ^ S m = h + h) by (unfold h; cbn [Nat.pow]; lia). rewrite EH in *.
    assert (L1 : length (firstn h u) = h) by (rewrite firstn_length; lia). assert (L2 : length (skipn h u) = h) by (rewrite skipn_length; lia).
    assert (L3 : length (firstn h v) = h) by (rewrite firstn_length; lia). assert (L4 : length (skipn h v) = h) by (rewrite skipn_length; lia).
    assert (F1 := Forall_firstn_ _ h _ Fu). assert (F2 := Forall_skipn_ _ h _ Fu). assert (F3 := Forall_firstn_ _ h _ Fv). assert (F4 := Forall_skipn_ _ h _ Fv).
    assert (P1 := pm1_ptr m _ F1). assert (P2 := pm1_ptr m _ F2). assert (P3 := pm1_ptr m _ F3). assert (P4 := pm1_ptr m _ F4).
    assert (K1 := length_ptr m _ L1). assert (K2 := length_ptr m _ L2). assert (K3 := length_ptr m _ L3). assert (K4 := length_ptr m _ L4). fold h in K1, K2, K3, K4.
    rewrite differ_app by (rewrite !length_zip2; lia). destruct (Nat.lt_ge_cases i h) as [A|A].
    + destruct (IH (firstn h u) (firstn h v) i L1 L3 F1 F3 A) as (G1 & G2).
      { rewrite !firstn_firstn. replace (Nat.min i h) with i by lia. exact E. }
      { rewrite <- (firstn_skipn h u), <- (firstn_skipn h v) in N. rewrite !app_nth1 in N by lia. exact N. }
      rewrite one_bits_low by exact A. split.
      * eapply Nat.le_trans; [exact G1|]. apply differ_mul_ge; lia || assumption.
      * intros S1. assert (E2 : skipn h u = skipn h v).
        { replace h with ((h - S i) + S i) by lia. rewrite <- !skipn_skipn', S1. reflexivity. }
        rewrite E2, differ_refl, Nat.add_0_r. rewrite differ_same_mul by (lia || assumption). apply G2.
        rewrite !skipn_firstn_comm, S1. reflexivity.
    + assert (E1 : firstn h u = firstn h v).
      { replace h with (Nat.min h i) by lia. rewrite <- !firstn_firstn, E. reflexivity. }
      destruct (IH (skipn h u) (skipn h v) (i - h) L2 L4 F2 F4 ltac:(fold h; lia)) as (G1 & G2).
      { rewrite !firstn_skipn_comm. replace (h + (i - h)) with i by lia. rewrite E. reflexivity. }
      { rewrite !nth_skipn'. replace (h + (i - h)) with i by lia. exact N. }
      assert (EO : one_bits (S m) i = S (one_bits m (i - h))) by (rewrite <- (one_bits_high m (i - h)) by (fold h; lia); f_equal; fold h; lia).
      rewrite EO, E1. rewrite (differ_mul_same (ptr m (firstn h v)) (ptr m (skipn h u)) (ptr m (skipn h v))) by (lia || assumption). rewrite Nat.pow_succ_r by lia. split; [lia|].
      intros S1. rewrite G2; [lia|]. rewrite !skipn_skipn'. replace (S (i - h) + h) with (S i) by lia. exact S1.
Qed.

Lemma position_ok fl : forall k, k < unfrozen fl -> position fl k < length fl /\ nth (position fl k) fl true = false /\ before fl (position fl k) = k.
Proof.
  induction fl as [|[|] fl IH]; intros k Hk; [cbn in Hk; lia| |].
  - destruct (IH k Hk) as (A & B & C). cbn [position length nth]. split; [lia|]. split; [exact B|]. unfold before in *. cbn [firstn]. exact C.
  - destruct k as [|k]; cbn [position length nth]; [split; [lia|]; split; reflexivity|].
    destruct (IH k ltac:(unfold unfrozen in *; cbn [filter negb length] in Hk; lia)) as (A & B & C). split; [lia|]. split; [exact B|]. unfold before, unfrozen in *. cbn [firstn filter negb length]. lia.
Qed.
Lemma expand_same fl k m1 m2 : k < unfrozen fl -> (forall j, j < k -> nth j m1 1%Z = nth j m2 1%Z) ->
  firstn (position fl k) (expand fl m1) = firstn (position fl k) (expand fl m2).
Proof.
  intros Hk E. destruct (position_ok fl k Hk) as (A & B & C). apply list_ext with (d := 1%Z); [rewrite !firstn_length, !length_expand; reflexivity|].
  intros i Hi. rewrite firstn_length, length_expand in Hi. rewrite !nth_firstn'. replace (i <? position fl k) with true by lia. rewrite !nth_expand by lia.
  destruct (nth i fl true) eqn:Ef; [reflexivity|]. apply E. rewrite <- C. apply Nat.lt_le_trans with (before fl (S i)); [rewrite before_S, Ef by lia; lia|]. apply before_mono. lia.
Qed.
Lemma expand_after fl k m1 m2 : k < unfrozen fl -> (forall j, k < j -> nth j m1 1%Z = nth j m2 1%Z) ->
  skipn (S (position fl k)) (expand fl m1) = skipn (S (position fl k)) (expand fl m2).
Proof.
  intros Hk E. destruct (position_ok fl k Hk) as (A & B & C). apply list_ext with (d := 1%Z); [rewrite !skipn_length, !length_expand; reflexivity|].
  intros i Hi. rewrite skipn_length, length_expand in Hi. rewrite !nth_skipn'. rewrite !nth_expand by lia.
  destruct (nth (S (position fl k) + i) fl true) eqn:Ef; [reflexivity|]. apply E. apply Nat.lt_le_trans with (before fl (S (position fl k))); [rewrite before_S, B by lia; lia|]. apply before_mono. lia.
Qed.

Lemma coded codeword message frozen level c : encoder_buffers codeword message frozen level -> Forall pm1 message -> polar_encode ops8 codeword message frozen level = Ok c ->
  firstn (2 ^ level) c = ptr level (expand (flags frozen (2 ^ level)) message) /\ length (expand (flags frozen (2 ^ level)) message) = 2 ^ level.
Proof.
  intros (Hn & Hf & Hc & Hm) F E. rewrite encode_ok in E by assumption. injection E as <-. rewrite firstn_app_l by apply length_transform.
  assert (L : length (expand (flags frozen (2 ^ level)) message) = 2 ^ level) by (rewrite length_expand, length_flags; reflexivity). rewrite ptr_transform by exact L. auto.
Qed.
Lemma unfrozen_le fl : unfrozen fl <= length fl.
Proof. induction fl as [|[|] fl IH]; unfold unfrozen in *; cbn [filter negb length] in *; lia. Qed.

(** Two messages which differ first at symbol [k]: the codewords differ at least at 2^w places, w the number of ones of the place of that symbol; with no other difference at exactly so many *)
Theorem C81_first_difference : forall codeword codeword' m1 m2 frozen level c1 c2 k,
  encoder_buffers codeword m1 frozen level -> encoder_buffers codeword' m2 frozen level -> Forall pm1 m1 -> Forall pm1 m2 ->
  polar_encode ops8 codeword m1 frozen level = Ok c1 -> polar_encode ops8 codeword' m2 frozen level = Ok c2 ->
  let fl := flags frozen (2 ^ level) in
  k < unfrozen fl -> (forall j, j < k -> nth j m1 1%Z = nth j m2 1%Z) -> nth k m1 1%Z <> nth k m2 1%Z ->
  2 ^ one_bits level (position fl k) <= differ (firstn (2 ^ level) c1) (firstn (2 ^ level) c2) /\
  ((forall j, k < j -> nth j m1 1%Z = nth j m2 1%Z) -> differ (firstn (2 ^ level) c1) (firstn (2 ^ level) c2) = 2 ^ one_bits level (position fl k)).
Proof.
  intros cw cw' m1 m2 f n c1 c2 k B1 B2 F1 F2 E1 E2 fl Hk Hb Hn.
  destruct (coded _ _ _ _ _ B1 F1 E1) as (-> & L1). destruct (coded _ _ _ _ _ B2 F2 E2) as (-> & L2). fold fl in L1, L2 |- *.
  destruct (position_ok fl k Hk) as (P1 & P2 & P3). assert (Lf : length fl = 2 ^ n) by apply length_flags.
  destruct (ptr_differ n (expand fl m1) (expand fl m2) (position fl k) L1 L2 (pm1_expand _ _ F1) (pm1_expand _ _ F2) ltac:(lia) (expand_same fl k m1 m2 Hk Hb)) as (G1 & G2).
  - rewrite !(nth_indep (expand fl _) 0%Z 1%Z) by lia. rewrite !nth_expand, P2, P3 by exact P1. exact Hn.
  - split; [exact G1|]. intros Ha. apply G2. apply expand_after; assumption.
Qed.
Print Assumptions C81_first_difference.

Lemma first_difference : forall n (a b : list Z), (exists j, j < n /\ nth j a 1%Z <> nth j b 1%Z) -> exists k, k < n /\ (forall j, j < k -> nth j a 1%Z = nth j b 1%Z) /\ nth k a 1%Z <> nth k b 1%Z.
Proof.
  induction n as [|n IH]; intros a b (j & Hj & N); [lia|].
  destruct (Z.eq_dec (nth 0 a 1%Z) (nth 0 b 1%Z)) as [E|E]; [|exists 0; split; [lia|]; split; [intros; lia|exact E]].
  destruct j as [|j]; [contradiction|]. destruct (IH (tl a) (tl b)) as (k & Hk & B & D); [exists j; rewrite !nth_tl; split; [lia|exact N]|].
  rewrite !nth_tl in D. exists (S k). split; [lia|]. split; [|exact D]. intros [|i] Hi; [exact E|]. specialize (B i ltac:(lia)). rewrite !nth_tl in B. exact B.
Qed.

(** Messages which differ in a symbol the code carries: when every unfrozen place has at least [w] ones, the codewords differ at 2^w or more places *)
Theorem C81_minimum_distance : forall codeword codeword' m1 m2 frozen level c1 c2 w,
  encoder_buffers codeword m1 frozen level -> encoder_buffers codeword' m2 frozen level -> Forall pm1 m1 -> Forall pm1 m2 ->
  polar_encode ops8 codeword m1 frozen level = Ok c1 -> polar_encode ops8 codeword' m2 frozen level = Ok c2 ->
  let fl := flags frozen (2 ^ level) in
  (forall i, i < 2 ^ level -> nth i fl true = false -> w <= one_bits level i) ->
  firstn (unfrozen fl) m1 <> firstn (unfrozen fl) m2 ->
  2 ^ w <= differ (firstn (2 ^ level) c1) (firstn (2 ^ level) c2).
Proof.
  intros cw cw' m1 m2 f n c1 c2 w B1 B2 F1 F2 E1 E2 fl Hw N. assert (M1 := proj2 (proj2 (proj2 B1))). assert (M2 := proj2 (proj2 (proj2 B2))). fold fl in M1, M2.
  destruct (first_difference (unfrozen fl) m1 m2) as (k & Hk & Hb & Hn).
  { destruct (forallb (fun j => (nth j m1 1 =? nth j m2 1)%Z) (seq 0 (unfrozen fl))) eqn:A.
    - exfalso. apply N. apply list_ext with (d := 1%Z); [rewrite !firstn_length; lia|]. intros j Hj. rewrite firstn_length in Hj. rewrite !nth_firstn'.
      rewrite forallb_forall in A. specialize (A j). rewrite in_seq in A. destruct (j <? unfrozen fl); [|reflexivity]. apply Z.eqb_eq, A. lia.
    - assert (X : ~ (forall j, In j (seq 0 (unfrozen fl)) -> (nth j m1 1 =? nth j m2 1)%Z = true)) by (intros Q; apply forallb_forall in Q; congruence).
      clear - X. induction (unfrozen fl) as [|u IH]; [exfalso; apply X; cbn; tauto|].
      destruct (nth u m1 1 =? nth u m2 1)%Z eqn:E; [|exists u; lia]. destruct IH as (j & Hj & D); [|exists j; split; [lia|exact D]].
      intros Q. apply X. intros j Hj. rewrite in_seq in Hj. destruct (Nat.eq_dec j u) as [->|]; [exact E|]. apply Q. rewrite in_seq. lia. }
  destruct (C81_first_difference cw cw' m1 m2 f n c1 c2 k B1 B2 F1 F2 E1 E2 Hk Hb Hn) as (G & _). fold fl in G.
  destruct (position_ok fl k Hk) as (P1 & P2 & P3). assert (Lf : length fl = 2 ^ n) by apply length_flags.
  eapply Nat.le_trans; [|exact G]. apply Nat.pow_le_mono_r; [lia|]. apply Hw; [lia|exact P2].
Qed.
Print Assumptions C81_minimum_distance.

(** The bound is met: every message has another one, different in one symbol only, whose codeword is at distance 2^w, w the number of ones of any chosen unfrozen place *)
Theorem C81_distance_is_attained : forall codeword m1 frozen level c1 i,
  encoder_buffers codeword m1 frozen level -> Forall pm1 m1 -> polar_encode ops8 codeword m1 frozen level = Ok c1 ->
  i < 2 ^ level -> nth i (flags frozen (2 ^ level)) true = false ->
  exists m2 c2, Forall pm1 m2 /\ length m2 = length m1 /\ differ m1 m2 = 1 /\ polar_encode ops8 codeword m2 frozen level = Ok c2 /\
    differ (firstn (2 ^ level) c1) (firstn (2 ^ level) c2) = 2 ^ one_bits level i.
Proof.
  intros cw m1 f n c1 i B1 F1 E1 Hi Hu. set (fl := flags f (2 ^ n)) in *. assert (Lf : length fl = 2 ^ n) by apply length_flags.
  destruct B1 as (Hn & Hf & Hc & Hm). fold fl in Hm. set (k := before fl i). assert (Hk : k < unfrozen fl) by (apply before_lt; [lia|exact Hu]).
  set (m2 := firstn k m1 ++ (- nth k m1 1)%Z :: skipn (S k) m1).
  assert (EM : m1 = firstn k m1 ++ nth k m1 1%Z :: skipn (S k) m1).
  { rewrite <- (firstn_skipn k m1) at 1. f_equal. assert (X : k < length m1) by lia. revert X. generalize k. clear. intros k. revert m1. induction m1 as [|x m IH] in k |- *; cbn [length]; [lia|]. intros Hk.
    destruct k as [|k]; [reflexivity|]. cbn [skipn nth]. apply IH. lia. }
  assert (LF : length (firstn k m1) = k) by (rewrite firstn_length; lia).
  assert (L2 : length m2 = length m1) by (unfold m2; rewrite app_length; cbn [length]; rewrite LF, skipn_length; lia).
  assert (XK : pm1 (nth k m1 1%Z)) by (rewrite Forall_forall in F1; apply F1, nth_In; lia).
  assert (F2 : Forall pm1 m2). { unfold m2. apply Forall_app. split; [apply Forall_firstn_; exact F1|]. constructor; [unfold pm1 in *; destruct XK as [-> | ->]; cbn; auto|apply Forall_skipn_; exact F1]. }
  assert (NB : forall j, j < k -> nth j m1 1%Z = nth j m2 1%Z). { intros j Hj. unfold m2. rewrite app_nth1 by lia. rewrite nth_firstn'. replace (j <? k) with true by lia. reflexivity. }
  assert (NA : forall j, k < j -> nth j m1 1%Z = nth j m2 1%Z). { intros j Hj. unfold m2. rewrite app_nth2 by lia. rewrite LF. replace (j - k) with (S (j - S k)) by lia. cbn [nth]. rewrite nth_skipn'. f_equal. lia. }
  assert (NK : nth k m1 1%Z <> nth k m2 1%Z). { unfold m2. rewrite app_nth2 by lia. rewrite LF, Nat.sub_diag. cbn [nth]. unfold pm1 in XK. lia. }
  assert (B2 : encoder_buffers cw m2 f n) by (split; [exact Hn|]; split; [exact Hf|]; split; [exact Hc|]; fold fl; lia).
  destruct (C40_encoder_is_the_transform cw m2 f n B2 F2) as (c2 & E2 & _).
  exists m2, c2. split; [exact F2|]. split; [exact L2|]. split.
  { rewrite EM at 1. unfold m2. rewrite differ_app by reflexivity. rewrite differ_refl, differ_cons, differ_refl. unfold pm1 in XK. replace (nth k m1 1 =? - nth k m1 1)%Z with false by lia. reflexivity. }
  split; [exact E2|]. assert (B1 : encoder_buffers cw m1 f n) by (split; [exact Hn|]; split; [exact Hf|]; split; [exact Hc|]; fold fl; lia).
  destruct (C81_first_difference cw cw m1 m2 f n c1 c2 k B1 B2 F1 F2 E1 E2 Hk NB NK) as (_ & G). fold fl in G. rewrite (G NA).
  destruct (position_ok fl k Hk) as (P1 & P2 & P3). replace (position fl k) with i; [reflexivity|].
  destruct (Nat.lt_trichotomy i (position fl k)) as [Q|[Q|Q]]; [|exact Q|]; exfalso.
  - assert (before fl (S i) <= before fl (position fl k)) by (apply before_mono; lia). rewrite before_S, Hu in H by lia. fold k in H. lia.
  - assert (before fl (S (position fl k)) <= before fl i) by (apply before_mono; lia). rewrite before_S, P2 in H by lia. fold k in H. lia.
Qed.
Print Assumptions C81_distance_is_attained.

(** The systematic encoder *)
Theorem C81_systematic : forall codeword codeword' m1 m2 frozen level c1 c2 w,
  encoder_buffers codeword m1 frozen level -> encoder_buffers codeword' m2 frozen level -> Forall pm1 m1 -> Forall pm1 m2 ->
  domination_closed (flags frozen (2 ^ level)) ->
  polar_sysenc ops8 codeword m1 frozen level = Ok c1 -> polar_sysenc ops8 codeword' m2 frozen level = Ok c2 ->
  let fl := flags frozen (2 ^ level) in
  (forall i, i < 2 ^ level -> nth i fl true = false -> w <= one_bits level i) ->
  firstn (unfrozen fl) m1 <> firstn (unfrozen fl) m2 ->
  2 ^ w <= differ (firstn (2 ^ level) c1) (firstn (2 ^ level) c2).
Proof.
  intros cw cw' m1 m2 f n c1 c2 w B1 B2 F1 F2 D E1 E2 fl Hw N.
  destruct (C41_systematic cw m1 f n B1 F1 D) as (c1' & R1 & S1 & m1' & G1 & L1 & T1). rewrite E1 in R1. injection R1 as <-.
  destruct (C41_systematic cw' m2 f n B2 F2 D) as (c2' & R2 & S2 & m2' & G2 & L2 & T2). rewrite E2 in R2. injection R2 as <-.
  fold fl in S1, S2, L1, L2. destruct B1 as (X1 & X2 & X3 & X4), B2 as (Y1 & Y2 & Y3 & Y4).
  apply (C81_minimum_distance cw cw' m1' m2' f n c1 c2 w); try assumption.
  - split; [exact X1|]. split; [exact X2|]. split; [exact X3|]. fold fl. lia.
  - split; [exact Y1|]. split; [exact Y2|]. split; [exact Y3|]. fold fl. lia.
  - fold fl. rewrite <- L1 at 1. rewrite <- L2. rewrite !firstn_all. intros EM. apply N. rewrite <- S1, <- S2. f_equal.
    rewrite encode_ok in T1, T2 by (assumption || (fold fl; lia)). fold fl in T1, T2. injection T1 as <-. injection T2 as <-.
    rewrite !firstn_app_l by apply length_transform. rewrite EM. reflexivity.
Qed.
Print Assumptions C81_systematic.

Lemma symbols_first rs : forall p m1 m2, firstn (payload rs) m1 <> firstn (payload rs) m2 -> payload rs <= length m1 -> payload rs <= length m2 ->
  exists i, i < length rs /\ nth i rs Frozen = Data /\ firstn i (symbols rs p m1) = firstn i (symbols rs p m2) /\ nth i (symbols rs p m1) 0%Z <> nth i (symbols rs p m2) 0%Z.
Proof.
  induction rs as [|r rs IH]; intros p m1 m2 N L1 L2; [exfalso; apply N; reflexivity|].
  assert (G : forall q n1 n2, firstn (payload rs) n1 <> firstn (payload rs) n2 -> payload rs <= length n1 -> payload rs <= length n2 -> forall x, exists i, i < length (r :: rs) /\ nth i (r :: rs) Frozen = Data /\
    firstn i (x :: symbols rs q n1) = firstn i (x :: symbols rs q n2) /\ nth i (x :: symbols rs q n1) 0%Z <> nth i (x :: symbols rs q n2) 0%Z).
  { intros q n1 n2 A1 A2 A3 x. destruct (IH q n1 n2 A1 A2 A3) as (i & I1 & I2 & I3 & I4). exists (S i). cbn [length nth firstn]. split; [lia|]. split; [exact I2|]. split; [f_equal; exact I3|exact I4]. }
  destruct r; unfold payload in *; cbn [filter length symbols] in *; try (apply G; assumption).
  destruct m1 as [|x m1], m2 as [|y m2]; cbn [length] in *; try lia. cbn [hd tl]. cbn [firstn] in N.
  destruct (Z.eq_dec x y) as [->|E].
  - apply G; [|lia|lia]. intros X. apply N. f_equal. exact X.
  - exists 0. cbn [length nth firstn]. split; [lia|]. split; [reflexivity|]. split; [reflexivity|exact E].
Qed.
Lemma length_symbols' rs : forall p m, length (symbols rs p m) = length rs.
Proof. induction rs as [|[| |] rs IH]; intros; cbn [symbols length]; auto. Qed.
Lemma pm1_symbols' rs : forall p m, pm1 p -> Forall pm1 m -> Forall pm1 (symbols rs p m).
Proof.
  induction rs as [|[| |] rs IH]; intros p m Hp F; cbn [symbols]; constructor; try (left; reflexivity); try (apply IH; assumption || (left; reflexivity)); try assumption.
  - destruct F; [left; reflexivity|assumption].
  - destruct F as [|x m Hx F]; cbn [hd tl]; apply IH; try (constructor; assumption) || assumption.
    + rewrite Z.mul_1_r. exact Hp.
    + unfold pm1 in *. destruct Hp, Hx; subst; cbn; auto.
Qed.
(** The parity aided encoder: only the places of message symbols count *)
Theorem C81_parity_aided : forall codeword codeword' m1 m2 frozen level stride first c1 c2 w,
  let rs := parity_roles stride (flags frozen (2 ^ level)) first in
  1 <= level <= 30 -> 2 ^ level <= 32 * length frozen -> 2 ^ level <= length codeword -> 2 ^ level <= length codeword' ->
  payload rs <= length m1 -> payload rs <= length m2 -> Forall pm1 m1 -> Forall pm1 m2 ->
  parity_encode ops8 codeword m1 frozen level stride first = Ok c1 -> parity_encode ops8 codeword' m2 frozen level stride first = Ok c2 ->
  (forall i, i < 2 ^ level -> nth i rs Frozen = Data -> w <= one_bits level i) ->
  firstn (payload rs) m1 <> firstn (payload rs) m2 ->
  2 ^ w <= differ (firstn (2 ^ level) c1) (firstn (2 ^ level) c2).
Proof.
  intros cw cw' m1 m2 f n stride first c1 c2 w rs Hn Hf Hc Hc' K1 K2 F1 F2 E1 E2 Hw N.
  destruct (C46_encoder cw m1 f n stride first Hn Hf Hc K1 F1) as (d1 & R1 & D1 & _). rewrite E1 in R1. injection R1 as <-.
  destruct (C46_encoder cw' m2 f n stride first Hn Hf Hc' K2 F2) as (d2 & R2 & D2 & _). rewrite E2 in R2. injection R2 as <-. rewrite D1, D2. fold rs.
  assert (Lr : length rs = 2 ^ n).
  { unfold rs. transitivity (length (flags f (2 ^ n))); [|apply length_flags]. generalize (flags f (2 ^ n)). clear. intros fl. revert first. induction fl as [|[|] fl IH]; intros first; cbn [parity_roles length]; [reflexivity|rewrite IH; reflexivity|destruct first; cbn [length]; rewrite IH; reflexivity]. }
  destruct (symbols_first rs 1%Z m1 m2 N K1 K2) as (i & I1 & I2 & I3 & I4).
  rewrite <- !ptr_transform by (rewrite length_symbols'; exact Lr).
  eapply Nat.le_trans; [|apply (ptr_differ n (symbols rs 1 m1) (symbols rs 1 m2) i); try (rewrite length_symbols'; exact Lr); try (apply pm1_symbols'; [left; reflexivity|assumption]); try assumption; lia].
  apply Nat.pow_le_mono_r; [lia|]. apply Hw; [lia|exact I2].
Qed.
Print Assumptions C81_parity_aided.

(** Hard decisions: a word with fewer than half that many wrong signs is nearer to the codeword sent than to any other *)
Theorem C81_nearest_codeword : forall codeword codeword' m1 m2 frozen level c1 c2 w r,
  encoder_buffers codeword m1 frozen level -> encoder_buffers codeword' m2 frozen level -> Forall pm1 m1 -> Forall pm1 m2 ->
  polar_encode ops8 codeword m1 frozen level = Ok c1 -> polar_encode ops8 codeword' m2 frozen level = Ok c2 ->
  let fl := flags frozen (2 ^ level) in
  (forall i, i < 2 ^ level -> nth i fl true = false -> w <= one_bits level i) ->
  firstn (unfrozen fl) m1 <> firstn (unfrozen fl) m2 ->
  length r = 2 ^ level -> 2 * differ (firstn (2 ^ level) c1) r < 2 ^ w -> differ (firstn (2 ^ level) c1) r < differ (firstn (2 ^ level) c2) r.
Proof.
  intros cw cw' m1 m2 f n c1 c2 w r B1 B2 F1 F2 E1 E2 fl Hw N L H.
  assert (G := C81_minimum_distance cw cw' m1 m2 f n c1 c2 w B1 B2 F1 F2 E1 E2 Hw N).
  destruct (coded _ _ _ _ _ B1 F1 E1) as (Q1 & L1). destruct (coded _ _ _ _ _ B2 F2 E2) as (Q2 & L2).
  assert (length (firstn (2 ^ n) c1) = 2 ^ n) by (rewrite Q1; apply length_ptr; exact L1). assert (length (firstn (2 ^ n) c2) = 2 ^ n) by (rewrite Q2; apply length_ptr; exact L2).
  assert (T := differ_triangle (firstn (2 ^ n) c1) r (firstn (2 ^ n) c2) ltac:(lia) ltac:(lia)). rewrite (differ_sym r) in T. lia.
Qed.
Print Assumptions C81_nearest_codeword.

(** The code of the example of C42 (64 positions, 22 symbols, the places with at least four ones): distance 16 *)
Example C81_nonvacuous : exists c2,
  encoder_buffers (repeat 0%Z 64) Prop_polar.ex_message Prop_polar.ex_frozen 6 /\ (forall i, i < 64 -> nth i (flags Prop_polar.ex_frozen 64) true = false -> 4 <= one_bits 6 i) /\
  polar_encode ops8 (repeat 0%Z 64) (map Z.opp Prop_polar.ex_message) Prop_polar.ex_frozen 6 = Ok c2 /\ Forall pm1 (map Z.opp Prop_polar.ex_message) /\
  firstn (unfrozen (flags Prop_polar.ex_frozen 64)) Prop_polar.ex_message <> firstn (unfrozen (flags Prop_polar.ex_frozen 64)) (map Z.opp Prop_polar.ex_message) /\ 16 <= differ Prop_polar.ex_cw c2 /\
  one_bits 6 (position (flags Prop_polar.ex_frozen 64) 0) = 4 /\ position (flags Prop_polar.ex_frozen 64) 0 = 15.
Proof.
  eexists. split.
  { split; [lia|]. split; [apply Nat.leb_le; vm_compute; reflexivity|]. split; [apply Nat.leb_le; vm_compute; reflexivity|apply Nat.leb_le; vm_compute; reflexivity]. }
  split.
  { assert (forallb (fun i => nth i (flags Prop_polar.ex_frozen 64) true || (4 <=? one_bits 6 i)) (seq 0 64) = true) as A by (vm_compute; reflexivity). rewrite forallb_forall in A.
    intros i Hi Hf. specialize (A i ltac:(apply in_seq; lia)). rewrite Hf in A. cbn [orb] in A. apply Nat.leb_le. exact A. }
  split; [vm_compute; reflexivity|]. split.
  { assert (forallb (fun x => (x =? 1) || (x =? -1))%Z (map Z.opp Prop_polar.ex_message) = true) as A by (vm_compute; reflexivity). rewrite Forall_forall. rewrite forallb_forall in A.
    intros x Hx. specialize (A x Hx). unfold pm1. lia. }
  split; [vm_compute; discriminate|]. split; [apply Nat.leb_le; vm_compute; reflexivity|]. split; vm_compute; reflexivity.
Qed.
