(** Polar decoder on 8 bit values: noiseless decoding, comparison with plain successive cancellation. *)
From Coq Require Import ZifyBool ZifyNat.
From Verif Require Import Cpp Model_simd Model_polar Spec_polar Lib_list Lib_wht Proof_bits Proof_simd Proof_polar1 Proof_polar2 Proof_polar3 Proof_polar4 Proof_polar5.
Local Open Scope nat_scope.
Ltac Zify.zify_post_hook ::= idtac.

(** the operations on integers *)
Definition zops : polar_ops Z := mk_ops Z 1%Z Z.sgn Z.mul combine_left combine_right.
Lemma signum8_sgn x : signum8 x = Z.sgn x.
Proof. unfold signum8. destruct (Z.ltb_spec 0 x), (Z.ltb_spec x 0); cbn [b2z]; destruct x; cbn; lia. Qed.
Lemma qabs8_ok x : int8 x -> qabs8 x = Z.min 127 (Z.abs x).
Proof. unfold int8, qabs8. intros H. rewrite to_s8_id by (unfold i8; lia). lia. Qed.
Lemma sgn_tern x : tern (Z.sgn x).
Proof. unfold tern. destruct x; cbn; lia. Qed.
Lemma mul_tern_le s x : tern s -> (- Z.abs x <= s * x <= Z.abs x)%Z.
Proof. unfold tern. intros H. assert (s = -1 \/ s = 0 \/ s = 1)%Z as [-> | [-> | ->]] by lia; lia. Qed.
Lemma prod8_ok a b : int8 a -> int8 b -> int8 (prod8 a b) /\ combine_left a b = prod8 a b.
Proof.
  intros Ha Hb. unfold prod8, combine_left. rewrite !signum8_sgn, !qabs8_ok by assumption.
  pose proof (mul_tern_le (Z.sgn a * Z.sgn b) (Z.min (Z.min 127 (Z.abs a)) (Z.min 127 (Z.abs b))) (tern_mul _ _ (sgn_tern a) (sgn_tern b))) as H.
  unfold int8 in *. rewrite to_s8_id by (unfold i8; lia). split; [lia|reflexivity].
Qed.
Lemma to_s16_id x : (-32768 <= x <= 32767)%Z -> to_s 16 x = x.
Proof.
  unfold to_s. change (2 ^ (16 - 1))%Z with 32768%Z. change (2 ^ 16)%Z with 65536%Z. intros H. rewrite Z.mod_small by lia. lia.
Qed.
Lemma madd8_ok h a b : tern h -> int8 a -> int8 b -> int8 (madd8 h a b) /\ combine_right h a b = madd8 h a b.
Proof.
  intros Hh Ha Hb. unfold madd8, combine_right, clamp. pose proof (mul_tern_le h a Hh). unfold int8 in *.
  rewrite to_s16_id by lia. rewrite to_s8_id by (unfold i8; lia). lia.
Qed.
Lemma node8 n fl sl : Forall int8 sl -> fnode ops8 n fl sl = fnode zops n fl sl.
Proof.
  intros F. destruct (fnode_hom ops8 zops (fun x => x) int8 tern) with (n := n) (fl := fl) (sl := sl) as (E & _); [| | | | |exact F|].
  - split; [unfold tern; cbn; lia|reflexivity].
  - intros x _. cbn [p_signum ops8 zops]. rewrite signum8_sgn. split; [apply sgn_tern|reflexivity].
  - intros a b Ha Hb. cbn [p_mul ops8 zops]. rewrite qmul8_tern by assumption. split; [apply tern_mul; assumption|reflexivity].
  - intros a b Ha Hb. apply prod8_ok; assumption.
  - intros x a b Hx Ha Hb. apply madd8_ok; assumption.
  - rewrite !map_id in E. rewrite E. destruct (fnode ops8 n fl sl). reflexivity.
Qed.

(** ** Noiseless decoding *)
Definition same_sign (sl x : list Z) : Prop := map Z.sgn sl = x /\ Forall pm1 x.
Lemma gtr_ptr n : forall u, gtr zops n u = ptr n u.
Proof. induction n as [|n IH]; intros u; cbn [gtr ptr]; [reflexivity|]. rewrite !IH. reflexivity. Qed.
Lemma expand_app f1 : forall f2 m, expand (f1 ++ f2) m = expand f1 (firstn (unfrozen f1) m) ++ expand f2 (skipn (unfrozen f1) m).
Proof.
  induction f1 as [|[|] f1 IH]; intros f2 m.
  - reflexivity.
  - cbn [Datatypes.app expand]. rewrite IH. reflexivity.
  - cbn [Datatypes.app expand]. rewrite IH. unfold unfrozen. cbn [filter negb length firstn skipn].
    destruct m as [|x m]; cbn [firstn skipn hd tl]; rewrite ?firstn_nil, ?skipn_nil; reflexivity.
Qed.
Lemma expand_all fl m : forallb (fun b => b) fl = true -> expand fl m = repeat 1%Z (length fl).
Proof. induction fl as [|b fl IH]; intros H; [reflexivity|]. cbn [forallb] in H. apply andb_true_iff in H. destruct H as [-> H]. cbn [expand length repeat]. rewrite IH by exact H. reflexivity. Qed.
Lemma expand_none fl : forall m, forallb negb fl = true -> length m = length fl -> expand fl m = m.
Proof.
  induction fl as [|b fl IH]; intros m H L; [destruct m; [reflexivity|discriminate]|]. cbn [forallb] in H. apply andb_true_iff in H. destruct H as [Hb H].
  destruct b; [discriminate|]. destruct m as [|x m]; [discriminate|]. cbn [expand hd tl]. rewrite IH; [reflexivity|exact H|cbn in L; lia].
Qed.
Lemma ptr_ones n : ptr n (repeat 1%Z (2 ^ n)) = repeat 1%Z (2 ^ n).
Proof.
  induction n as [|n IH]; [reflexivity|]. cbn [ptr Nat.pow]. replace (2 * 2 ^ n) with (2 ^ n + 2 ^ n) by lia. rewrite repeat_app.
  rewrite firstn_app, skipn_app, repeat_length, Nat.sub_diag. rewrite (firstn_all2 (repeat 1%Z (2 ^ n))), (skipn_all2 (repeat 1%Z (2 ^ n))) by (rewrite repeat_length; lia).
  cbn [firstn skipn Datatypes.app]. rewrite app_nil_r, IH. f_equal. generalize (2 ^ n). intros k. induction k as [|k IHk]; cbn [repeat zip2]; [reflexivity|]. rewrite IHk. reflexivity.
Qed.
Lemma unfrozen_all fl : forallb (fun b => b) fl = true -> unfrozen fl = 0.
Proof. unfold unfrozen. induction fl as [|b fl IH]; intros H; [reflexivity|]. cbn [forallb] in H. apply andb_true_iff in H. destruct H as [-> H]. cbn [filter negb]. auto. Qed.
Lemma unfrozen_none fl : forallb negb fl = true -> unfrozen fl = length fl.
Proof.
  unfold unfrozen. induction fl as [|b fl IH]; intros H; [reflexivity|]. cbn [forallb] in H. apply andb_true_iff in H. destruct H as [Hb H].
  cbn [filter]. rewrite Hb. cbn [length]. auto.
Qed.
Lemma sgn_left a b : (Z.sgn (combine_left a b) = Z.sgn a * Z.sgn b)%Z.
Proof.
  unfold combine_left. rewrite !Z.sgn_mul, !Z.sgn_sgn. destruct (Z.eq_dec a 0) as [->|Ha]; [reflexivity|]. destruct (Z.eq_dec b 0) as [->|Hb]; [rewrite !Z.mul_0_r; reflexivity|].
  rewrite (Z.sgn_pos (Z.min _ _)) by lia. lia.
Qed.
Lemma sgn_clamp x : Z.sgn (clamp x) = Z.sgn x.
Proof. unfold clamp. destruct (Z.lt_total x 0) as [H|[->|H]]; [rewrite !Z.sgn_neg by lia|reflexivity|rewrite !Z.sgn_pos by lia]; reflexivity. Qed.
Lemma sgn_right h a b : h = 0%Z \/ h = (Z.sgn a * Z.sgn b)%Z -> Z.sgn (combine_right h a b) = Z.sgn b.
Proof.
  intros H. unfold combine_right. rewrite sgn_clamp. destruct H as [-> | ->]; [reflexivity|].
  destruct (Z.lt_total a 0) as [A|[->|A]], (Z.lt_total b 0) as [B|[->|B]]; cbn [Z.sgn Z.mul Z.add]; try reflexivity;
    rewrite ?(Z.sgn_neg a), ?(Z.sgn_pos a), ?(Z.sgn_neg b), ?(Z.sgn_pos b) by assumption; try reflexivity;
    rewrite ?Z.mul_0_r; try reflexivity; (apply Z.sgn_pos || apply Z.sgn_neg); lia.
Qed.
Lemma map_sgn_left m sl : length sl = 2 ^ S m ->
  map Z.sgn (fleft zops m sl) = zip2 Z.mul (map Z.sgn (firstn (2 ^ m) sl)) (map Z.sgn (skipn (2 ^ m) sl)).
Proof.
  intros _. unfold fleft. cbn [p_prod zops]. symmetry. apply (map_zip2 Z.sgn (fun _ => True)).
  - intros. symmetry. apply sgn_left.
  - apply Forall_forall; auto.
  - apply Forall_forall; auto.
Qed.
Lemma map_sgn_right m x1 sl : length sl = 2 ^ S m -> length x1 = 2 ^ m ->
  (forall i, i < 2 ^ m -> nth i x1 0%Z = 0%Z \/ nth i x1 0%Z = (Z.sgn (nth i (firstn (2 ^ m) sl) 0) * Z.sgn (nth i (skipn (2 ^ m) sl) 0))%Z) ->
  map Z.sgn (fright zops m x1 sl) = map Z.sgn (skipn (2 ^ m) sl).
Proof.
  intros L Lx H. cbn [Nat.pow] in L. apply (list_ext _ _ 0%Z).
  - unfold fright. rewrite !map_length, length_zip3, firstn_length, skipn_length. lia.
  - intros i Hi. unfold fright in *. rewrite map_length, length_zip3, firstn_length, skipn_length in Hi. rewrite !(nth_map1 _ _ _ 0%Z) by (rewrite ?length_zip3, ?firstn_length, ?skipn_length; lia).
    rewrite (nth_zip3 _ _ _ _ _ 0%Z 0%Z 0%Z) by (rewrite ?firstn_length, ?skipn_length; lia). apply sgn_right. apply H. lia.
Qed.
Lemma firstn_app_l {X} (a b : list X) n : length a = n -> firstn n (a ++ b) = a.
Proof. intros <-. rewrite firstn_app, Nat.sub_diag, firstn_all. apply app_nil_r. Qed.
Lemma skipn_app_l {X} (a b : list X) n : length a = n -> skipn n (a ++ b) = b.
Proof. intros <-. rewrite skipn_app, Nat.sub_diag, skipn_all. reflexivity. Qed.

Definition inverts (n : nat) (fl : list bool) (F : list Z -> list Z * list Z) : Prop := forall msg sl,
  length msg = unfrozen fl -> Forall pm1 msg -> length sl = 2 ^ n -> map Z.sgn sl = ptr n (expand fl msg) -> F sl = (msg, ptr n (expand fl msg)).
Lemma child_inverts n fl F : length fl = 2 ^ n -> inverts n fl F -> inverts n fl (fchild zops n fl F).
Proof.
  intros Lf HF msg sl Lm Fm Ls E. unfold fchild. destruct ((n <=? 5) && forallb (fun b => b) fl) eqn:E1.
  - apply andb_true_iff in E1. destruct E1 as [_ E1]. rewrite expand_all in * by exact E1. rewrite Lf in *. rewrite ptr_ones. rewrite unfrozen_all in Lm by exact E1.
    destruct msg; [reflexivity|discriminate].
  - destruct ((n <=? 5) && forallb negb fl) eqn:E2; [|apply HF; assumption]. apply andb_true_iff in E2. destruct E2 as [_ E2].
    rewrite unfrozen_none in Lm by exact E2. rewrite expand_none in * by assumption. unfold r1. cbn [p_signum zops]. rewrite E, gtr_ptr, ptr_invol by (assumption || lia).
    reflexivity.
Qed.
Lemma join_inverts m fl F G : length fl = 2 ^ S m -> inverts m (firstn (2 ^ m) fl) F -> inverts m (skipn (2 ^ m) fl) G -> inverts (S m) fl (fjoin zops F G m).
Proof.
  intros Lf HF HG msg sl Lm Fm Ls E. set (f1 := firstn (2 ^ m) fl) in *. set (f2 := skipn (2 ^ m) fl) in *. cbn [Nat.pow] in Lf. pose proof Ls as Ls'. cbn [Nat.pow] in Ls.
  assert (length f1 = 2 ^ m) as L1 by (unfold f1; rewrite firstn_length; lia). assert (length f2 = 2 ^ m) as L2 by (unfold f2; rewrite skipn_length; lia).
  assert (expand fl msg = expand f1 (firstn (unfrozen f1) msg) ++ expand f2 (skipn (unfrozen f1) msg)) as EX by (rewrite <- expand_app; unfold f1, f2; rewrite firstn_skipn; reflexivity).
  rewrite EX in *. rewrite (unfrozen_split (2 ^ m)) in Lm. fold f1 f2 in Lm.
  set (m1 := firstn (unfrozen f1) msg) in *. set (m2 := skipn (unfrozen f1) msg) in *.
  assert (length m1 = unfrozen f1) as Lm1 by (unfold m1; rewrite firstn_length; lia). assert (length m2 = unfrozen f2) as Lm2 by (unfold m2; rewrite skipn_length; lia).
  assert (Forall pm1 m1) as Fm1 by (apply Forall_firstn_; exact Fm). assert (Forall pm1 m2) as Fm2 by (apply Forall_skipn_; exact Fm).
  cbn [ptr] in *. rewrite firstn_app_l, skipn_app_l in * by (rewrite length_expand; assumption).
  pose proof (length_ptr m (expand f1 m1) ltac:(rewrite length_expand; exact L1)) as P1. pose proof (length_ptr m (expand f2 m2) ltac:(rewrite length_expand; exact L2)) as P2.
  pose proof (pm1_ptr m _ (pm1_expand f1 m1 Fm1)) as Q1. pose proof (pm1_ptr m _ (pm1_expand f2 m2 Fm2)) as Q2.
  set (x1 := ptr m (expand f1 m1)) in *. set (x2 := ptr m (expand f2 m2)) in *.
  assert (map Z.sgn (firstn (2 ^ m) sl) = zip2 Z.mul x1 x2) as Ea.
  { rewrite <- firstn_map, E. apply firstn_app_l. rewrite length_zip2. lia. }
  assert (map Z.sgn (skipn (2 ^ m) sl) = x2) as Eb.
  { rewrite <- skipn_map, E. apply skipn_app_l. rewrite length_zip2. lia. }
  unfold fjoin. rewrite (HF m1); try assumption.
  - fold x1. rewrite (HG m2); try assumption; fold x2.
    + f_equal. apply firstn_skipn.
    + unfold fright. rewrite length_zip3, firstn_length, skipn_length. lia.
    + rewrite map_sgn_right; [exact Eb|assumption|assumption|]. intros i Hi. right.
      assert (Z.sgn (nth i (firstn (2 ^ m) sl) 0%Z) = (nth i x1 0 * nth i x2 0)%Z) as ->.
      { rewrite <- (nth_zip2 Z.mul x1 x2 i 0%Z 0%Z 0%Z) by lia. rewrite <- Ea. symmetry. apply nth_map1. rewrite firstn_length. lia. }
      assert (Z.sgn (nth i (skipn (2 ^ m) sl) 0%Z) = nth i x2 0%Z) as ->.
      { rewrite <- Eb. symmetry. apply nth_map1. rewrite skipn_length. lia. }
      assert (pm1 (nth i x2 0%Z)) as [-> | ->]; [|lia|lia]. rewrite Forall_forall in Q2. apply Q2, nth_In. lia.
  - unfold fleft. rewrite length_zip2, firstn_length, skipn_length. lia.
  - rewrite map_sgn_left, Ea, Eb by assumption. fold x1. apply zip2_sq; [lia|exact Q2].
Qed.
Lemma node_inverts n : forall fl, 1 <= n -> length fl = 2 ^ n -> inverts n fl (fnode zops n fl).
Proof.
  induction n as [|n IH]; intros fl Hn Lf; [lia|].
  assert (forall f, length f = 2 ^ n -> inverts n f (fchild zops n f (fnode zops n f))) as C.
  { intros f L. destruct n as [|n].
    - destruct f as [|b [|c f]]; cbn in L; try discriminate. intros msg sl Lm Fm Ls E. destruct sl as [|x [|y sl]]; cbn in Ls; try discriminate.
      cbn [map ptr] in E. destruct b.
      + destruct msg; [|discriminate]. cbn [expand] in E. reflexivity.
      + destruct msg as [|y [|z msg]]; cbn in Lm; try discriminate. cbn [expand hd tl] in *. injection E as E. unfold fchild, r1. cbn [forallb negb andb Nat.leb map p_signum zops gtr ptr].
        rewrite E. reflexivity.
    - apply child_inverts; [exact L|]. apply IH; [lia|exact L]. }
  cbn [Nat.pow] in Lf. apply (join_inverts n fl); [cbn [Nat.pow]; lia| |]; apply C; rewrite ?firstn_length, ?skipn_length; lia.
Qed.

(** ** Plain successive cancellation *)
Notation SC := successive_cancellation.
Lemma sc_len n : forall fl sl, length fl = 2 ^ n -> length sl = 2 ^ n -> length (fst (SC n fl sl)) = unfrozen fl /\ length (snd (SC n fl sl)) = 2 ^ n.
Proof.
  induction n as [|n IH]; intros fl sl Lf Ls.
  - destruct fl as [|b [|c fl]]; cbn in Lf; try discriminate. destruct b; cbn; auto.
  - cbn [successive_cancellation]. cbn [Nat.pow] in *.
    assert (length (firstn (2 ^ n) fl) = 2 ^ n) as Lfa by (rewrite firstn_length; lia). assert (length (skipn (2 ^ n) fl) = 2 ^ n) as Lfb by (rewrite skipn_length; lia).
    assert (length (zip2 combine_left (firstn (2 ^ n) sl) (skipn (2 ^ n) sl)) = 2 ^ n) as Ll by (rewrite length_zip2, firstn_length, skipn_length; lia).
    destruct (IH _ _ Lfa Ll) as (M1 & X1). destruct (SC n (firstn (2 ^ n) fl) _) as [m1 x1]. cbn [fst snd] in *.
    assert (length (zip3 combine_right x1 (firstn (2 ^ n) sl) (skipn (2 ^ n) sl)) = 2 ^ n) as Lr by (rewrite length_zip3, firstn_length, skipn_length; lia).
    destruct (IH _ _ Lfb Lr) as (M2 & X2). destruct (SC n (skipn (2 ^ n) fl) _) as [m2 x2]. cbn [fst snd] in *.
    rewrite !app_length, length_zip2, (unfrozen_split (2 ^ n) fl). lia.
Qed.
Definition nonzero (l : list Z) : Prop := Forall (fun x => x <> 0%Z) l.
Lemma zip2_nonzero a : forall b, nonzero a -> nonzero b -> nonzero (zip2 Z.mul a b).
Proof. induction a as [|x a IH]; intros [|y b] Ha Hb; cbn [zip2]; constructor; inversion Ha; inversion Hb; subst; [nia|apply IH; assumption]. Qed.
Lemma sc_nonzero n : forall fl sl, nonzero (fst (SC n fl sl)) -> nonzero (snd (SC n fl sl)).
Proof.
  induction n as [|n IH]; intros fl sl H; cbn [successive_cancellation] in *.
  - destruct (hd true fl); cbn [fst snd] in *; [constructor; [lia|constructor]|exact H].
  - pose proof (IH (firstn (2 ^ n) fl) (zip2 combine_left (firstn (2 ^ n) sl) (skipn (2 ^ n) sl))) as I1. destruct (SC n (firstn (2 ^ n) fl) _) as [m1 x1].
    pose proof (IH (skipn (2 ^ n) fl) (zip3 combine_right x1 (firstn (2 ^ n) sl) (skipn (2 ^ n) sl))) as I2. destruct (SC n (skipn (2 ^ n) fl) _) as [m2 x2].
    cbn [fst snd] in *. apply Forall_app in H. destruct H as [Ha Hb]. apply Forall_app. split; [apply zip2_nonzero; [apply I1; exact Ha|apply I2; exact Hb]|apply I2; exact Hb].
Qed.
Lemma forallb_firstn {X} (p : X -> bool) n l : forallb p l = true -> forallb p (firstn n l) = true.
Proof. intros H. rewrite <- (firstn_skipn n l), forallb_app in H. apply andb_true_iff in H. tauto. Qed.
Lemma forallb_skipn {X} (p : X -> bool) n l : forallb p l = true -> forallb p (skipn n l) = true.
Proof. intros H. rewrite <- (firstn_skipn n l), forallb_app in H. apply andb_true_iff in H. tauto. Qed.
Lemma sc_frozen n : forall fl sl, length fl = 2 ^ n -> length sl = 2 ^ n -> forallb (fun b => b) fl = true -> SC n fl sl = ([], repeat 1%Z (2 ^ n)).
Proof.
  induction n as [|n IH]; intros fl sl Lf Ls H; cbn [successive_cancellation].
  - destruct fl as [|b [|c fl]]; cbn in Lf; try discriminate. cbn [forallb] in H. destruct b; [reflexivity|discriminate].
  - cbn [Nat.pow] in *. rewrite IH; try (rewrite ?length_zip2, ?firstn_length, ?skipn_length; lia); [|apply forallb_firstn; exact H].
    rewrite IH; try (rewrite ?length_zip3, ?repeat_length, ?firstn_length, ?skipn_length; lia); [|apply forallb_skipn; exact H].
    replace (2 * 2 ^ n) with (2 ^ n + 2 ^ n) by lia. rewrite repeat_app. f_equal. f_equal. generalize (2 ^ n). intros k. induction k as [|k IHk]; cbn [repeat zip2]; [reflexivity|]. rewrite IHk. reflexivity.
Qed.
Lemma sc_free n : forall fl sl, length fl = 2 ^ n -> length sl = 2 ^ n -> forallb negb fl = true ->
  fst (SC n fl sl) = ptr n (map Z.sgn sl) /\ forall i, i < 2 ^ n -> nth i (snd (SC n fl sl)) 0%Z = 0%Z \/ nth i (snd (SC n fl sl)) 0%Z = Z.sgn (nth i sl 0%Z).
Proof.
  induction n as [|n IH]; intros fl sl Lf Ls H.
  - destruct fl as [|b [|c fl]]; cbn in Lf; try discriminate. destruct sl as [|x [|y sl]]; cbn in Ls; try discriminate. cbn [forallb] in H. destruct b; [discriminate|].
    cbn [successive_cancellation hd fst snd map ptr]. split; [reflexivity|]. intros i Hi. assert (i = 0) by (cbn in Hi; lia). subst. right. reflexivity.
  - cbn [successive_cancellation]. pose proof Ls as Ls'. cbn [Nat.pow] in Lf, Ls.
    assert (length (firstn (2 ^ n) fl) = 2 ^ n) as Lfa by (rewrite firstn_length; lia). assert (length (skipn (2 ^ n) fl) = 2 ^ n) as Lfb by (rewrite skipn_length; lia).
    change combine_left with (p_prod zops). change combine_right with (p_madd zops). fold (fleft zops n sl).
    assert (length (fleft zops n sl) = 2 ^ n) as Ll by (unfold fleft; rewrite length_zip2, firstn_length, skipn_length; lia).
    destruct (IH _ _ Lfa Ll (forallb_firstn _ _ _ H)) as (M1 & X1). pose proof (sc_len n _ _ Lfa Ll) as (_ & N1). destruct (SC n (firstn (2 ^ n) fl) _) as [m1 x1]. cbn [fst snd] in *.
    fold (fright zops n x1 sl).
    assert (length (fright zops n x1 sl) = 2 ^ n) as Lr by (unfold fright; rewrite length_zip3, firstn_length, skipn_length; lia).
    assert (map Z.sgn (fright zops n x1 sl) = map Z.sgn (skipn (2 ^ n) sl)) as ER.
    { apply map_sgn_right; [assumption|assumption|]. intros i Hi. destruct (X1 i Hi) as [Q|Q]; [left; exact Q|right]. rewrite Q. unfold fleft.
      rewrite (nth_zip2 _ _ _ _ 0%Z 0%Z) by (rewrite ?firstn_length, ?skipn_length; lia). apply sgn_left. }
    destruct (IH _ _ Lfb Lr (forallb_skipn _ _ _ H)) as (M2 & X2). pose proof (sc_len n _ _ Lfb Lr) as (_ & N2). destruct (SC n (skipn (2 ^ n) fl) _) as [m2 x2]. cbn [fst snd] in *.
    assert (forall i, i < 2 ^ n -> nth i x2 0%Z = 0%Z \/ nth i x2 0%Z = Z.sgn (nth i (skipn (2 ^ n) sl) 0%Z)) as X2'.
    { intros i Hi. destruct (X2 i Hi) as [Q|Q]; [left; exact Q|right]. rewrite Q.
      rewrite <- (nth_map1 Z.sgn (fright zops n x1 sl) i 0%Z 0%Z) by lia. rewrite ER. apply nth_map1. rewrite skipn_length. lia. }
    split.
    + cbn [ptr]. rewrite M1, M2, ER, map_sgn_left by assumption. rewrite firstn_map, skipn_map.
      rewrite ptr_mul by (rewrite map_length, ?firstn_length, ?skipn_length; lia). reflexivity.
    + intros i Hi. cbn [Nat.pow] in Hi. destruct (Nat.lt_ge_cases i (2 ^ n)) as [C|C].
      * rewrite app_nth1 by (rewrite length_zip2; lia). rewrite (nth_zip2 _ _ _ _ 0%Z 0%Z) by lia.
        assert (nth i sl 0%Z = nth i (firstn (2 ^ n) sl) 0%Z) as -> by (rewrite nth_firstn'; replace (i <? 2 ^ n) with true by lia; reflexivity).
        destruct (X1 i C) as [Q|Q]; rewrite Q; [left; lia|]. destruct (X2' i C) as [R|R]; rewrite R; [left; lia|].
        unfold fleft. rewrite (nth_zip2 _ _ _ _ 0%Z 0%Z) by (rewrite ?firstn_length, ?skipn_length; lia). cbn [p_prod zops]. rewrite sgn_left.
        set (b := nth i (skipn (2 ^ n) sl) 0%Z). destruct (Z.lt_total b 0) as [B|[-> |B]]; [rewrite (Z.sgn_neg b) by exact B|left; cbn [Z.sgn]; lia|rewrite (Z.sgn_pos b) by exact B]; right; lia.
      * rewrite app_nth2 by (rewrite length_zip2; lia). rewrite length_zip2. replace (i - Nat.min (length x1) (length x2)) with (i - 2 ^ n) by lia.
        assert (nth i sl 0%Z = nth (i - 2 ^ n) (skipn (2 ^ n) sl) 0%Z) as -> by (rewrite nth_skipn; f_equal; lia). apply X2'. lia.
Qed.

Lemma sut_app a : forall b a' b', same_until_tie a a' -> (nonzero a -> same_until_tie b b') -> length b = length b' -> same_until_tie (a ++ b) (a' ++ b').
Proof.
  induction a as [|x a IH]; intros b [|y a'] b' H H2 L; cbn [same_until_tie Datatypes.app] in *; try contradiction; [apply H2; constructor|].
  destruct H as (-> & H). split; [reflexivity|]. destruct (Z.eq_dec y 0) as [E|E]; [left; exact E|right]. destruct H as [H|H]; [lia|]. apply IH; [exact H| |exact L].
  intros N. apply H2. constructor; assumption.
Qed.
Lemma sut_refl a : same_until_tie a a.
Proof. induction a as [|x a IH]; cbn [same_until_tie]; auto. Qed.
Lemma sut_nonzero a : forall b, same_until_tie a b -> nonzero a \/ nonzero b -> a = b.
Proof.
  induction a as [|x a IH]; intros [|y b] H N; cbn [same_until_tie] in H; try contradiction; [reflexivity|]. destruct H as (-> & H). f_equal.
  assert (y <> 0%Z) as Ny by (destruct N as [N|N]; inversion N; subst; assumption).
  destruct H as [H|H]; [contradiction|]. apply IH; [exact H|]. destruct N as [N|N]; inversion N; subst; auto.
Qed.
Lemma sut_sym a : forall b, same_until_tie a b -> same_until_tie b a.
Proof. induction a as [|x a IH]; intros [|y b] H; cbn [same_until_tie] in *; try contradiction; [exact I|]. destruct H as (-> & [H|H]); auto. Qed.

Lemma child_len_all {A} (P : polar_ops A) n f s : length f = 2 ^ n -> length s = 2 ^ n ->
  length (fst (fchild P n f (fnode P n f) s)) = unfrozen f /\ length (snd (fchild P n f (fnode P n f) s)) = 2 ^ n.
Proof.
  intros Lf' Ls'. destruct n as [|n].
  - destruct f as [|b [|c f]]; cbn in Lf'; try discriminate. destruct s as [|x [|y s]]; cbn in Ls'; try discriminate. destruct b; cbn; auto.
  - apply fchild_len; auto. apply fnode_len; auto. lia.
Qed.
(** the same messages up to the first tie, and without a tie the same words *)
Definition agrees (a b : list Z * list Z) : Prop := same_until_tie (fst a) (fst b) /\ (nonzero (fst a) -> a = b).
Lemma agrees_r1 n fl sl : length fl = 2 ^ n -> length sl = 2 ^ n -> forallb negb fl = true -> agrees (r1 zops n sl) (SC n fl sl).
Proof.
  intros Lf Ls H. destruct (sc_free n fl sl Lf Ls H) as (M & X). pose proof (sc_nonzero n fl sl) as NZ. pose proof (sc_len n fl sl Lf Ls) as (_ & LX).
  unfold agrees, r1. destruct (SC n fl sl) as [m x]. cbn [fst snd] in *. rewrite gtr_ptr. change (p_signum zops) with Z.sgn. rewrite <- M. split; [apply sut_refl|].
  intros N. f_equal. apply (list_ext _ _ 0%Z); [rewrite map_length; lia|]. intros i Hi. rewrite map_length in Hi. rewrite (nth_map1 _ _ _ 0%Z) by exact Hi.
  destruct (X i ltac:(lia)) as [Q|Q]; [|symmetry; exact Q]. exfalso. specialize (NZ N). unfold nonzero in NZ. rewrite Forall_forall in NZ. apply (NZ (nth i x 0%Z)); [apply nth_In; lia|exact Q].
Qed.
Lemma agrees_child n fl sl : length fl = 2 ^ n -> length sl = 2 ^ n -> (1 <= n -> agrees (fnode zops n fl sl) (SC n fl sl)) ->
  agrees (fchild zops n fl (fnode zops n fl) sl) (SC n fl sl).
Proof.
  intros Lf Ls H. unfold fchild. destruct ((n <=? 5) && forallb (fun b => b) fl) eqn:E1.
  - apply andb_true_iff in E1. destruct E1 as [_ E1]. rewrite (sc_frozen n fl sl) by assumption. split; [exact I|reflexivity].
  - destruct ((n <=? 5) && forallb negb fl) eqn:E2.
    + apply andb_true_iff in E2. apply agrees_r1; tauto.
    + apply H. destruct n; [|lia]. destruct fl as [|b [|c fl]]; cbn in Lf; try discriminate. destruct b; discriminate.
Qed.
Lemma agrees_node n : forall fl sl, 1 <= n -> length fl = 2 ^ n -> length sl = 2 ^ n -> agrees (fnode zops n fl sl) (SC n fl sl).
Proof.
  induction n as [|n IH]; intros fl sl Hn Lf Ls; [lia|].
  cbn [fnode successive_cancellation]. cbn [Nat.pow] in Lf, Ls. unfold fjoin.
  change combine_left with (p_prod zops). change combine_right with (p_madd zops). fold (fleft zops n sl).
  assert (length (firstn (2 ^ n) fl) = 2 ^ n) as Lfa by (rewrite firstn_length; lia). assert (length (skipn (2 ^ n) fl) = 2 ^ n) as Lfb by (rewrite skipn_length; lia).
  assert (length (fleft zops n sl) = 2 ^ n) as Ll by (unfold fleft; rewrite length_zip2, firstn_length, skipn_length; lia).
  destruct (agrees_child n (firstn (2 ^ n) fl) (fleft zops n sl) Lfa Ll) as (S1 & N1); [intros; apply IH; auto|].
  pose proof (sc_len n _ _ Lfa Ll) as (LM1 & LX1).
  destruct (SC n (firstn (2 ^ n) fl) (fleft zops n sl)) as [m1 x1]. destruct (fchild zops n (firstn (2 ^ n) fl) _ (fleft zops n sl)) as [m1' x1'] eqn:EF1. cbn [fst snd] in *.
  fold (fright zops n x1 sl).
  assert (length (fright zops n x1 sl) = 2 ^ n) as Lr by (unfold fright; rewrite length_zip3, firstn_length, skipn_length; lia).
  destruct (agrees_child n (skipn (2 ^ n) fl) (fright zops n x1 sl) Lfb Lr) as (S2 & N2); [intros; apply IH; auto|].
  pose proof (sc_len n _ _ Lfb Lr) as (LM2 & LX2).
  assert (length (fst (fchild zops n (skipn (2 ^ n) fl) (fnode zops n (skipn (2 ^ n) fl)) (fright zops n x1' sl))) = unfrozen (skipn (2 ^ n) fl)) as LM2'.
  { pose proof (child_len_all zops n (firstn (2 ^ n) fl) (fleft zops n sl) Lfa Ll) as (_ & LX1'). rewrite EF1 in LX1'. cbn [snd] in LX1'.
    assert (length (fright zops n x1' sl) = 2 ^ n) as Lr' by (unfold fright; rewrite length_zip3, firstn_length, skipn_length; lia).
    apply child_len_all; assumption. }
  destruct (SC n (skipn (2 ^ n) fl) (fright zops n x1 sl)) as [m2 x2]. destruct (fchild zops n (skipn (2 ^ n) fl) _ (fright zops n x1' sl)) as [m2' x2'] eqn:EF2. cbn [fst snd] in *.
  split.
  - cbn [fst]. apply sut_app; [exact S1| |lia]. intros N. injection (N1 N) as -> ->. rewrite EF2 in S2. exact S2.
  - cbn [fst]. intros N. apply Forall_app in N. destruct N as [Na Nb]. injection (N1 Na) as -> ->. rewrite EF2 in N2. injection (N2 Nb) as -> ->. reflexivity.
Qed.
