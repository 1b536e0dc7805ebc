(** Polar list decoders: the trees compute a recursive function on metrics, decisions and maps. *)
From Coq Require Import ZifyBool ZifyNat ZifyN.
From Verif Require Import Cpp Model_simd Model_sort Model_polar Model_polar_list Spec_polar Spec_polar_list Lib_list Lib_wht
  Proof_bits Proof_simd Proof_polar1 Proof_polar2 Proof_polar3 Proof_polar4 Proof_polar5 Proof_polar7 Proof_plist1.
Local Open Scope nat_scope.
Ltac Zify.zify_post_hook ::= idtac.

(** the metrics, the decisions and maps (latest first), the parities, and the symbols left until the next parity symbol *)
Record ast := mk_ast { a_metric : list Z; a_hist : list (list Z * list Z); a_par : list Z; a_left : nat }.

Lemma neg_part_le x : int8 x -> (0 <= neg_part x <= 128)%Z.
Proof. unfold int8, neg_part. lia. Qed.
Lemma charge_snoc l x : charge (l ++ [x]) = (charge l + neg_part x)%Z.
Proof. unfold charge, sum. rewrite map_app, fold_right_app. cbn [map fold_right]. rewrite Z.add_0_r. fold (neg_part x). induction (map _ l) as [|y t IH]; cbn [fold_right]; lia. Qed.
Lemma charge_le l : Forall int8 l -> (0 <= charge l <= 128 * Z.of_nat (length l))%Z.
Proof. induction 1 as [|x l Hx F IH]; [cbn; lia|]. unfold charge, sum in *. cbn [map fold_right length]. fold (neg_part x). pose proof (neg_part_le x Hx). lia. Qed.

Section Decoder.
Variable W : nat.
Hypothesis HW : 1 <= W <= 256.
Variable P : polar_ops (list Z).
Hypothesis HP : vops_ok W P.
(** what an unfrozen position carries when so many symbols are left until the next parity symbol *)
Variable next : nat -> role * nat.
Hypothesis next_ok : forall c, fst (next c) <> Frozen.
Notation Is := (lanes_are W int8).
Notation Iv := (lanes_are W pm1).
Notation is_map := (is_map W).

Lemma pm1_lanes v : Iv v -> lanes_are W tern v.
Proof. intros (L & F). split; [exact L|]. eapply Forall_impl; [|exact F]. intros x. apply pm1_tern. Qed.
Lemma one_pm1 : Iv (p_one P).
Proof. destruct (vk_one _ _ HP) as ((L & _) & H). apply lanes_intro; [exact L|]. intros k Hk. rewrite H by exact Hk. left. reflexivity. Qed.
Lemma mul_pm1 a b : Iv a -> Iv b -> Iv (p_mul P a b).
Proof.
  intros Ha Hb. destruct (vk_mul _ _ HP a b (pm1_lanes a Ha) (pm1_lanes b Hb)) as ((L & _) & H). apply lanes_intro; [exact L|]. intros k Hk. rewrite H by exact Hk.
  apply (lanes_get W _ _ k) in Ha; [|exact Hk]. apply (lanes_get W _ _ k) in Hb; [|exact Hk]. unfold pm1 in *. lia.
Qed.
Lemma lane_mul a b k : Iv a -> Iv b -> k < W -> lane k (p_mul P a b) = (lane k a * lane k b)%Z.
Proof. intros Ha Hb. apply (vk_mul _ _ HP); apply pm1_lanes; assumption. Qed.

(** ** The function *)
Fixpoint groles (fl : list bool) (c : nat) : list role :=
  match fl with
  | [] => []
  | true :: fl => Frozen :: groles fl c
  | false :: fl => fst (next c) :: groles fl (snd (next c))
  end.
Fixpoint gafter (fl : list bool) (c : nat) : nat :=
  match fl with
  | [] => c
  | true :: fl => gafter fl c
  | false :: fl => gafter fl (snd (next c))
  end.
Lemma groles_app a : forall b c, groles (a ++ b) c = groles a c ++ groles b (gafter a c).
Proof. induction a as [|[|] a IH]; intros b c; [reflexivity|cbn; rewrite IH; reflexivity..]. Qed.
Lemma gafter_app a : forall b c, gafter (a ++ b) c = gafter b (gafter a c).
Proof. induction a as [|[|] a IH]; intros b c; [reflexivity|cbn; rewrite IH; reflexivity..]. Qed.
Lemma length_groles fl : forall c, length (groles fl c) = length fl.
Proof. induction fl as [|[|] fl IH]; intros c; [reflexivity|cbn; rewrite IH; reflexivity..]. Qed.
Lemma payload_app a b : payload (a ++ b) = payload a + payload b.
Proof. unfold payload. rewrite filter_app, app_length. reflexivity. Qed.
Lemma groles_all fl : forall c, forallb (fun b => b) fl = true -> groles fl c = repeat Frozen (length fl) /\ gafter fl c = c.
Proof. induction fl as [|[|] fl IH]; intros c H; [auto| |discriminate]. cbn in *. destruct (IH c H) as (-> & ->). auto. Qed.
Lemma payload_frozen n : payload (repeat Frozen n) = 0.
Proof. unfold payload. induction n; [reflexivity|]. exact IHn. Qed.

Definition fn := ast -> list (list Z) -> list Z * list (list Z) * ast.
Definition leaf : fn := fun a sl =>
  let fork := ffork W (a_metric a) (hd [] sl) in
  match next (a_left a) with
  | (Parity, c) =>
      let fork := fkill W (a_par a) fork in
      let mp := sel_map W fork in
      (mp, [sel_bit W fork], mk_ast (sel_metric W fork) (match a_hist a with (m, p) :: h => (vshuf m mp, vshuf p mp) :: h | [] => [] end) (p_one P) c)
  | (_, c) =>
      let mp := sel_map W fork in
      let bit := sel_bit W fork in
      (mp, [bit], mk_ast (sel_metric W fork) ((bit, mp) :: a_hist a) (p_mul P (vshuf (a_par a) mp) bit) c)
  end.
Definition charged (metric : list Z) (sl : list (list Z)) : list Z := map (fun k => (lane k metric + charge (lane_of k sl))%Z) (seq 0 W).
Definition lr0 (n : nat) : fn := fun a sl =>
  (iota W, repeat (p_one P) (2 ^ n), mk_ast (charged (a_metric a) sl) (a_hist a) (a_par a) (a_left a)).
Definition lright (m : nat) (lm : list Z) (x1 sl : list (list Z)) : list (list Z) :=
  zip3 (fun h a b => p_madd P h (vshuf a lm) (vshuf b lm)) x1 (firstn (2 ^ m) sl) (skipn (2 ^ m) sl).
Definition ljoin (FL FR : fn) (m : nat) : fn := fun a sl =>
  let '(lm, x1, a1) := FL a (fleft P m sl) in
  let '(rm, x2, a2) := FR a1 (lright m lm x1 sl) in
  (vshuf lm rm, zip2 (fun x y => p_mul P (vshuf x rm) y) x1 x2 ++ x2, a2).
Definition lchild (n : nat) (fl : list bool) (rec : fn) : fn :=
  if (n <=? 5) && forallb (fun b => b) fl then lr0 n else rec.
Fixpoint lnode (n : nat) (fl : list bool) : fn :=
  match n with
  | O => leaf
  | S m => ljoin (lchild m (firstn (2 ^ m) fl) (lnode m (firstn (2 ^ m) fl))) (lchild m (skipn (2 ^ m) fl) (lnode m (skipn (2 ^ m) fl))) m
  end.

(** ** Well formed results *)
Definition awf (B : Z) (a : ast) : Prop :=
  lanes_are W (fun x => (0 <= x <= B)%Z) (a_metric a) /\ Iv (a_par a) /\
  Forall (fun e => Iv (fst e) /\ is_map (snd e)) (a_hist a) /\ (fst (next (a_left a)) = Parity -> a_hist a <> []).
Definition fgood (n : nat) (fl : list bool) (F : fn) : Prop := forall B a sl,
  (1000000 <= B)%Z -> awf B a -> length sl = 2 ^ n -> Forall Is sl ->
  let '(mp, x, a') := F a sl in
  is_map mp /\ length x = 2 ^ n /\ Forall Iv x /\ awf (B + 128 * Z.of_nat (2 ^ n)) a' /\
  length (a_hist a') = length (a_hist a) + payload (groles fl (a_left a)) /\ a_left a' = gafter fl (a_left a).

Lemma length_ffork m s : length (ffork W m s) = 2 * W.
Proof. apply length_pairs. Qed.
Lemma length_fkill m s : length (fkill W m s) = 2 * W.
Proof. apply length_pairs. Qed.
Lemma fork_range B m s j : (0 <= B)%Z -> lanes_are W (fun x => (0 <= x <= B)%Z) m -> Is s -> j < 2 * W -> (0 <= nth j (ffork W m s) 0 <= B + 128)%Z.
Proof.
  intros HB Hm Hs Hj. destruct (even_odd_case j) as (k & Ek). assert (k < W) as Hk by lia.
  pose proof (lanes_get W _ _ k Hm Hk) as Rm. pose proof (lanes_get W _ _ k Hs Hk) as Rs. cbv beta in Rm. unfold ffork.
  destruct (nth_pairs (fun k => (lane k m + neg_part (lane k s))%Z) (fun k => (lane k m + neg_part (- lane k s))%Z) W k Hk) as (E0 & E1).
  destruct Ek as [-> | ->]; rewrite ?E0, ?E1; unfold neg_part, int8 in *; lia.
Qed.
Lemma kill_range B p f j : (1000000 <= B)%Z -> length f = 2 * W -> (forall j, j < 2 * W -> (0 <= nth j f 0 <= B)%Z) -> j < 2 * W -> (0 <= nth j (fkill W p f) 0 <= B)%Z.
Proof.
  intros HB L H Hj. destruct (even_odd_case j) as (k & Ek). assert (k < W) as Hk by lia. unfold fkill.
  destruct (nth_pairs (fun k => if (lane k p <? 0)%Z then 1000000%Z else nth (2 * k) f 0%Z) (fun k => if (lane k p <? 0)%Z then nth (2 * k + 1) f 0%Z else 1000000%Z) W k Hk) as (E0 & E1).
  pose proof (H (2 * k) ltac:(lia)). pose proof (H (2 * k + 1) ltac:(lia)).
  destruct Ek as [-> | ->]; rewrite ?E0, ?E1; destruct (lane k p <? 0)%Z; lia.
Qed.
Lemma fork_index_lt mp bt k : is_map mp -> k < W -> fork_index mp bt k < 2 * W.
Proof. intros H Hk. unfold fork_index. pose proof (at_lt W mp k H Hk). destruct (_ =? _)%Z; lia. Qed.
Lemma sel_wf B fork : length fork = 2 * W -> (forall j, j < 2 * W -> (0 <= nth j fork 0 <= B)%Z) ->
  lanes_are W (fun x => (0 <= x <= B)%Z) (sel_metric W fork).
Proof.
  intros L H. destruct (select_spec W HW fork L) as (Hm & _ & Lm & _ & V & _). apply lanes_intro; [exact Lm|]. intros k Hk. rewrite V by exact Hk. apply H. apply fork_index_lt; assumption.
Qed.

Lemma leaf_fgood : fgood 0 [false] leaf.
Proof.
  intros B a sl HB (Hm & Hp & Hh & Hn) L F. destruct sl as [|v [|? ?]]; try discriminate. inversion F as [|? ? Hv _]; subst. unfold leaf. cbn [hd].
  pose proof (next_ok (a_left a)) as Hnx. destruct (next (a_left a)) as [r c] eqn:En. cbn [fst] in *.
  assert (r = Data \/ r = Parity) as [-> | ->] by (destruct r; [congruence|auto|auto]).
  - set (fork := ffork W (a_metric a) v). pose proof (length_ffork (a_metric a) v) as Lf. fold fork in Lf. destruct (select_spec W HW fork Lf) as (S1 & S2 & _).
    split; [exact S1|]. split; [reflexivity|]. split; [constructor; [exact S2|constructor]|]. split; [|split].
    + split; [|split; [|split]]; cbn [a_metric a_par a_hist a_left].
      * apply sel_wf; [exact Lf|]. intros j Hj. cbn [Nat.pow]. apply fork_range; (assumption || lia).
      * apply mul_pm1; [|exact S2]. apply lanes_vshuf; assumption.
      * constructor; [cbn [fst snd]; auto|exact Hh].
      * discriminate.
    + cbn [a_hist length groles]. rewrite En. cbn. lia.
    + cbn [gafter a_left]. rewrite En. reflexivity.
  - set (fork := fkill W (a_par a) _). pose proof (length_fkill (a_par a) (ffork W (a_metric a) v)) as Lf. fold fork in Lf. destruct (select_spec W HW fork Lf) as (S1 & S2 & _).
    specialize (Hn eq_refl). destruct (a_hist a) as [|[m p] h] eqn:Eh; [congruence|]. inversion Hh as [|? ? (H1 & H2) H3]; subst. cbn [fst snd] in *.
    split; [exact S1|]. split; [reflexivity|]. split; [constructor; [exact S2|constructor]|]. split; [|split].
    + split; [|split; [|split]]; cbn [a_metric a_par a_hist a_left].
      * apply sel_wf; [exact Lf|]. intros j Hj. cbn [Nat.pow]. apply kill_range; [lia|apply length_ffork| |exact Hj]. intros i Hi. apply fork_range; (assumption || lia).
      * apply one_pm1.
      * constructor; [cbn [fst snd]; split; apply lanes_vshuf; assumption|exact H3].
      * discriminate.
    + cbn [a_hist length groles]. rewrite En. cbn. lia.
    + cbn [gafter a_left]. rewrite En. reflexivity.
Qed.
Lemma lane_word_int8 k sl : Forall Is sl -> k < W -> Forall int8 (lane_of k sl).
Proof. intros F H. unfold lane_of. apply Forall_map. eapply Forall_impl; [|exact F]. intros v Hv. exact (lanes_get W _ _ k Hv H). Qed.
Lemma length_lane_of k sl : length (lane_of k sl) = length sl.
Proof. apply map_length. Qed.
Lemma lane_charged metric sl k : k < W -> lane k (charged metric sl) = (lane k metric + charge (lane_of k sl))%Z.
Proof. intros Hk. unfold charged, lane at 1. rewrite nth_map_seq. replace (k <? W) with true by lia. reflexivity. Qed.
Lemma charged_wf B metric sl : lanes_are W (fun x => (0 <= x <= B)%Z) metric -> Forall Is sl -> lanes_are W (fun x => (0 <= x <= B + 128 * Z.of_nat (length sl))%Z) (charged metric sl).
Proof.
  intros Hm F. apply lanes_intro; [unfold charged; rewrite map_length, seq_length; reflexivity|]. intros k Hk. rewrite lane_charged by exact Hk.
  pose proof (lanes_get W _ _ k Hm Hk) as R. cbv beta in R. pose proof (charge_le _ (lane_word_int8 k sl F Hk)) as C. rewrite length_lane_of in C. lia.
Qed.
Lemma lr0_fgood n fl : length fl = 2 ^ n -> forallb (fun b => b) fl = true -> fgood n fl (lr0 n).
Proof.
  intros Lf Af B a sl HB (Hm & Hp & Hh & Hn) L F. unfold lr0. destruct (groles_all fl (a_left a) Af) as (Er & Ea).
  split; [apply iota_is_map; exact HW|]. split; [apply repeat_length|]. split; [apply Forall_forall; intros v Hv; apply repeat_spec in Hv; subst; apply one_pm1|].
  split; [|split].
  - split; [|auto]. cbn [a_metric]. rewrite <- L. apply charged_wf; assumption.
  - rewrite Er, payload_frozen. cbn [a_hist]. lia.
  - rewrite Ea. reflexivity.
Qed.
Lemma Forall_zip2 {X} (f : X -> X -> X) (Q R S : X -> Prop) a : forall b, (forall x y, Q x -> R y -> S (f x y)) -> Forall Q a -> Forall R b -> Forall S (zip2 f a b).
Proof. induction a as [|x a IH]; intros [|y b] H Fa Fb; cbn [zip2]; try constructor; inversion Fa; inversion Fb; subst; auto. Qed.
Lemma Forall_zip3 {X} (f : X -> X -> X -> X) (Q R S T : X -> Prop) a : forall b c, (forall x y z, Q x -> R y -> S z -> T (f x y z)) -> Forall Q a -> Forall R b -> Forall S c -> Forall T (zip3 f a b c).
Proof. induction a as [|x a IH]; intros [|y b] [|z c] H Fa Fb Fc; cbn [zip3]; try constructor; inversion Fa; inversion Fb; inversion Fc; subst; auto. Qed.
Lemma fleft_wf m sl : length sl = 2 ^ S m -> Forall Is sl -> length (fleft P m sl) = 2 ^ m /\ Forall Is (fleft P m sl).
Proof.
  intros L F. cbn [Nat.pow] in L. split; [unfold fleft; rewrite length_zip2, firstn_length, skipn_length; lia|].
  unfold fleft. eapply (Forall_zip2 _ Is Is Is); [|apply Forall_firstn_; exact F|apply Forall_skipn_; exact F]. intros a b Ha Hb. apply (vk_prod _ _ HP); assumption.
Qed.
Lemma lright_wf m lm x1 sl : length sl = 2 ^ S m -> Forall Is sl -> is_map lm -> length x1 = 2 ^ m -> Forall Iv x1 ->
  length (lright m lm x1 sl) = 2 ^ m /\ Forall Is (lright m lm x1 sl).
Proof.
  intros L F Hl Lx Fx. cbn [Nat.pow] in L. split; [unfold lright; rewrite length_zip3, firstn_length, skipn_length; lia|].
  unfold lright. eapply (Forall_zip3 _ Iv Is Is Is); [|exact Fx|apply Forall_firstn_; exact F|apply Forall_skipn_; exact F].
  intros h a b Hh Ha Hb. apply (vk_madd _ _ HP); [apply pm1_lanes; exact Hh|apply lanes_vshuf; assumption..].
Qed.
Lemma ljoin_fgood m fl FL FR : fgood m (firstn (2 ^ m) fl) FL -> fgood m (skipn (2 ^ m) fl) FR -> fgood (S m) fl (ljoin FL FR m).
Proof.
  intros GL GR B a sl HB Ha L F. unfold ljoin. destruct (fleft_wf m sl L F) as (L1 & F1). specialize (GL B a _ HB Ha L1 F1).
  destruct (FL a (fleft P m sl)) as [[lm x1] a1]. destruct GL as (M1 & X1 & V1 & A1 & H1 & C1).
  destruct (lright_wf m lm x1 sl L F M1 X1 V1) as (L2 & F2). specialize (GR (B + 128 * Z.of_nat (2 ^ m))%Z a1 _ ltac:(lia) A1 L2 F2).
  destruct (FR a1 (lright m lm x1 sl)) as [[rm x2] a2]. destruct GR as (M2 & X2 & V2 & A2 & H2 & C2).
  split; [apply lanes_vshuf; assumption|]. split; [rewrite app_length, length_zip2; cbn [Nat.pow]; lia|]. split.
  - apply Forall_app. split; [|exact V2]. eapply (Forall_zip2 _ Iv Iv Iv); [|exact V1|exact V2]. intros u v Hu Hv. apply mul_pm1; [apply lanes_vshuf; assumption|exact Hv].
  - split; [|split].
    + replace (B + 128 * Z.of_nat (2 ^ S m))%Z with (B + 128 * Z.of_nat (2 ^ m) + 128 * Z.of_nat (2 ^ m))%Z by (cbn [Nat.pow]; lia). exact A2.
    + rewrite <- (firstn_skipn (2 ^ m) fl) at 1. rewrite groles_app, payload_app. rewrite H2, H1, C1. lia.
    + rewrite <- (firstn_skipn (2 ^ m) fl) at 1. rewrite gafter_app, C2, C1. reflexivity.
Qed.
Lemma lnode_fgood n : forall fl, length fl = 2 ^ n -> (n = 0 -> fl = [false]) -> fgood n fl (lnode n fl).
Proof.
  induction n as [|m IH]; intros fl L H0; [rewrite H0 by reflexivity; exact leaf_fgood|]. cbn [lnode].
  assert (forall f, length f = 2 ^ m -> fgood m f (lchild m f (lnode m f))) as Hc.
  { intros f Lf. unfold lchild. destruct ((m <=? 5) && forallb (fun b => b) f) eqn:C.
    - apply lr0_fgood; [exact Lf|]. apply andb_true_iff in C. apply C.
    - apply IH; [exact Lf|]. intros ->. destruct f as [|[|] [|? ?]]; cbn in Lf, C; try discriminate; try lia. reflexivity. }
  cbn [Nat.pow] in L. apply ljoin_fgood; apply Hc; rewrite ?firstn_length, ?skipn_length; lia.
Qed.
Lemma lchild_fgood m f : length f = 2 ^ m -> fgood m f (lchild m f (lnode m f)).
Proof.
  intros Lf. unfold lchild. destruct ((m <=? 5) && forallb (fun b => b) f) eqn:C.
  - apply lr0_fgood; [exact Lf|]. apply andb_true_iff in C. apply C.
  - apply lnode_fgood; [exact Lf|]. intros ->. destruct f as [|[|] [|? ?]]; cbn in Lf, C; try discriminate; try lia. reflexivity.
Qed.
End Decoder.
