(** Polar decoder on 8 bit values: noiseless decoding, comparison with plain successive cancellation. *)
From Coq Require Import ZifyBool ZifyNat.
From Verif Require Import Cpp Model_simd Model_polar Spec_polar Lib_list Lib_wht Proof_bits Proof_simd Proof_polar1 Proof_polar2 Proof_polar3 Proof_polar4.
Local Open Scope nat_scope.
Ltac Zify.zify_post_hook ::= idtac.

(** ** Homomorphisms *)
Lemma Forall_zip2 {X} (Q R : X -> Prop) (f : X -> X -> X) : (forall a b, Q a -> Q b -> R (f a b)) -> forall a b, Forall Q a -> Forall Q b -> Forall R (zip2 f a b).
Proof. intros H. induction a as [|x a IH]; intros [|y b] Fa Fb; cbn [zip2]; constructor; inversion Fa; inversion Fb; subst; auto. Qed.
Lemma Forall_zip3 {X} (O Q R : X -> Prop) (f : X -> X -> X -> X) : (forall x a b, O x -> Q a -> Q b -> R (f x a b)) ->
  forall x a b, Forall O x -> Forall Q a -> Forall Q b -> Forall R (zip3 f x a b).
Proof. intros H. induction x as [|w x IH]; intros [|y a] [|z b] Fx Fa Fb; cbn [zip3]; constructor; inversion Fx; inversion Fa; inversion Fb; subst; auto. Qed.
Lemma map_zip2 {X Y} (h : X -> Y) (Q : X -> Prop) (f : X -> X -> X) g : (forall a b, Q a -> Q b -> g (h a) (h b) = h (f a b)) ->
  forall a b, Forall Q a -> Forall Q b -> zip2 g (map h a) (map h b) = map h (zip2 f a b).
Proof. intros H. induction a as [|x a IH]; intros [|y b] Fa Fb; cbn [zip2 map]; auto. inversion Fa; inversion Fb; subst. rewrite H, IH by assumption. reflexivity. Qed.
Lemma map_zip3 {X Y} (h : X -> Y) (O Q : X -> Prop) (f : X -> X -> X -> X) g : (forall x a b, O x -> Q a -> Q b -> g (h x) (h a) (h b) = h (f x a b)) ->
  forall x a b, Forall O x -> Forall Q a -> Forall Q b -> zip3 g (map h x) (map h a) (map h b) = map h (zip3 f x a b).
Proof. intros H. induction x as [|w x IH]; intros [|y a] [|z b] Fx Fa Fb; cbn [zip3 map]; auto. inversion Fx; inversion Fa; inversion Fb; subst. rewrite H, IH by assumption. reflexivity. Qed.

Section Hom.
Context {A B : Type} (PA : polar_ops A) (PB : polar_ops B) (h : A -> B) (Is Ih : A -> Prop).
Hypothesis H1 : Ih (p_one PA) /\ h (p_one PA) = p_one PB.
Hypothesis Hs : forall x, Is x -> Ih (p_signum PA x) /\ p_signum PB (h x) = h (p_signum PA x).
Hypothesis Hm : forall a b, Ih a -> Ih b -> Ih (p_mul PA a b) /\ p_mul PB (h a) (h b) = h (p_mul PA a b).
Hypothesis Hp : forall a b, Is a -> Is b -> Is (p_prod PA a b) /\ p_prod PB (h a) (h b) = h (p_prod PA a b).
Hypothesis Ha : forall x a b, Ih x -> Is a -> Is b -> Is (p_madd PA x a b) /\ p_madd PB (h x) (h a) (h b) = h (p_madd PA x a b).
Lemma gtr_hom n : forall u, Forall Ih u -> gtr PB n (map h u) = map h (gtr PA n u) /\ Forall Ih (gtr PA n u).
Proof.
  induction n as [|n IH]; intros u F; cbn [gtr]; [auto|]. rewrite firstn_map, skipn_map.
  destruct (IH _ (Forall_firstn_ Ih (2 ^ n) u F)) as (E1 & F1). destruct (IH _ (Forall_skipn_ Ih (2 ^ n) u F)) as (E2 & F2).
  rewrite E1, E2, map_app. rewrite (map_zip2 h Ih (p_mul PA) (p_mul PB)) by (try assumption; intros; apply Hm; assumption).
  split; [reflexivity|]. apply Forall_app. split; [|exact F2]. apply (Forall_zip2 Ih); try assumption. intros; apply Hm; assumption.
Qed.
Definition hom (F : list A -> list A * list A) (G : list B -> list B * list B) : Prop := forall sl, Forall Is sl ->
  G (map h sl) = (map h (fst (F sl)), map h (snd (F sl))) /\ Forall Ih (fst (F sl)) /\ Forall Ih (snd (F sl)).
Lemma map_signum sl : Forall Is sl -> map (p_signum PB) (map h sl) = map h (map (p_signum PA) sl) /\ Forall Ih (map (p_signum PA) sl).
Proof.
  intros F. rewrite !map_map. split.
  - apply map_ext_in. intros x Hx. rewrite Forall_forall in F. apply Hs. apply F; exact Hx.
  - apply Forall_map. eapply Forall_impl; [|exact F]. intros x Hx. apply Hs; exact Hx.
Qed.
Lemma r0_hom n : hom (r0 PA n) (r0 PB n).
Proof.
  intros sl F. unfold r0. cbn [fst snd map]. destruct H1 as [I1 E1]. split; [|split; [constructor|]].
  - f_equal. rewrite <- E1. generalize (2 ^ n). intros k. induction k as [|k IH]; cbn [repeat map]; congruence.
  - apply Forall_forall. intros x Hx. apply repeat_spec in Hx. subst. exact I1.
Qed.
Lemma r1_hom n : hom (r1 PA n) (r1 PB n).
Proof.
  intros sl F. unfold r1. cbn [fst snd]. destruct (map_signum sl F) as (E & Fs). rewrite E. destruct (gtr_hom n _ Fs) as (E2 & F2). rewrite E2. auto.
Qed.
Lemma fjoin_hom F1 G1 F2 G2 m : hom F1 G1 -> hom F2 G2 -> hom (fjoin PA F1 F2 m) (fjoin PB G1 G2 m).
Proof.
  intros A1 A2 sl F. unfold fjoin, fleft, fright. rewrite !firstn_map, !skipn_map.
  pose proof (Forall_firstn_ Is (2 ^ m) sl F) as Fa. pose proof (Forall_skipn_ Is (2 ^ m) sl F) as Fb.
  rewrite (map_zip2 h Is (p_prod PA) (p_prod PB)) by (try assumption; intros; apply Hp; assumption).
  destruct (A1 (zip2 (p_prod PA) (firstn (2 ^ m) sl) (skipn (2 ^ m) sl))) as (E1 & M1 & X1).
  { apply (Forall_zip2 Is); try assumption. intros; apply Hp; assumption. }
  rewrite E1. destruct (F1 _) as [m1 x1]. cbn [fst snd] in *.
  rewrite (map_zip3 h Ih Is (p_madd PA) (p_madd PB)) by (try assumption; intros; apply Ha; assumption).
  destruct (A2 (zip3 (p_madd PA) x1 (firstn (2 ^ m) sl) (skipn (2 ^ m) sl))) as (E2 & M2 & X2).
  { apply (Forall_zip3 Ih Is); try assumption. intros; apply Ha; assumption. }
  rewrite E2. destruct (F2 _) as [m2 x2]. cbn [fst snd] in *.
  rewrite (map_zip2 h Ih (p_mul PA) (p_mul PB)) by (try assumption; intros; apply Hm; assumption).
  rewrite !map_app. split; [reflexivity|]. split; apply Forall_app; split; try assumption.
  apply (Forall_zip2 Ih); try assumption. intros; apply Hm; assumption.
Qed.
Lemma fchild_hom n fl F G : hom F G -> hom (fchild PA n fl F) (fchild PB n fl G).
Proof. intros H. unfold fchild. destruct (_ && _); [apply r0_hom|]. destruct (_ && _); [apply r1_hom|exact H]. Qed.
Lemma fnode_hom n : forall fl, hom (fnode PA n fl) (fnode PB n fl).
Proof.
  induction n as [|n IH]; intros fl.
  - intros sl F. cbn [fnode fst snd map]. auto.
  - apply fjoin_hom; apply fchild_hom; apply IH.
Qed.
End Hom.

(** ** Top level of the decoder *)
Lemma fchild_len {A} (P : polar_ops A) n fl sl F : length fl = 2 ^ n -> length sl = 2 ^ n -> (length (fst (F sl)) = unfrozen fl /\ length (snd (F sl)) = 2 ^ n) ->
  length (fst (fchild P n fl F sl)) = unfrozen fl /\ length (snd (fchild P n fl F sl)) = 2 ^ n.
Proof.
  intros Lf Ls HF. unfold fchild. destruct ((n <=? 5) && forallb (fun b => b) fl) eqn:E1.
  - apply andb_true_iff in E1. destruct E1 as [_ E1]. cbn [r0 fst snd length]. rewrite repeat_length. split; [|reflexivity].
    clear - E1. unfold unfrozen. induction fl as [|b fl IH]; [reflexivity|]. cbn [forallb filter] in *. apply andb_true_iff in E1. destruct E1 as [-> E1]. auto.
  - destruct ((n <=? 5) && forallb negb fl) eqn:E2; [|exact HF]. apply andb_true_iff in E2. destruct E2 as [_ E2]. cbn [r1 fst snd].
    rewrite length_gtr, map_length by (rewrite map_length; exact Ls). split; [|exact Ls]. rewrite <- Lf.
    clear - E2. unfold unfrozen. induction fl as [|b fl IH]; [reflexivity|]. cbn [forallb filter] in *. apply andb_true_iff in E2. destruct E2 as [-> E2]. cbn [length]. auto.
Qed.
Lemma unfrozen_split n fl : unfrozen fl = unfrozen (firstn n fl) + unfrozen (skipn n fl).
Proof. rewrite <- unfrozen_app, firstn_skipn. reflexivity. Qed.
Lemma fnode_len {A} (P : polar_ops A) n : forall fl sl, 1 <= n -> length fl = 2 ^ n -> length sl = 2 ^ n ->
  length (fst (fnode P n fl sl)) = unfrozen fl /\ length (snd (fnode P n fl sl)) = 2 ^ n.
Proof.
  induction n as [|n IH]; intros fl sl Hn Lf Ls; [lia|]. cbn [fnode]. cbn [Nat.pow] in Lf, Ls. pose proof (pow2_pos n).
  assert (forall fl sl, length fl = 2 ^ n -> length sl = 2 ^ n -> length (fst (fchild P n fl (fnode P n fl) sl)) = unfrozen fl /\
    length (snd (fchild P n fl (fnode P n fl) sl)) = 2 ^ n) as C.
  { intros f s Lf' Ls'. destruct n as [|n].
    - destruct f as [|b [|c f]]; cbn in Lf'; try discriminate. destruct s as [|x [|y s]]; cbn in Ls'; try discriminate. destruct b; cbn; auto.
    - apply fchild_len; auto. apply IH; auto. lia. }
  unfold fjoin.
  assert (length (fleft P n sl) = 2 ^ n) as Ll by (unfold fleft; rewrite length_zip2, firstn_length, skipn_length; lia).
  assert (length (firstn (2 ^ n) fl) = 2 ^ n) as Lfa by (rewrite firstn_length; lia).
  assert (length (skipn (2 ^ n) fl) = 2 ^ n) as Lfb by (rewrite skipn_length; lia).
  destruct (C _ _ Lfa Ll) as (M1 & X1). destruct (fchild P n (firstn (2 ^ n) fl) _ _) as [m1 x1]. cbn [fst snd] in *.
  assert (length (fright P n x1 sl) = 2 ^ n) as Lr by (unfold fright; rewrite length_zip3, firstn_length, skipn_length; lia).
  destruct (C _ _ Lfb Lr) as (M2 & X2). destruct (fchild P n (skipn (2 ^ n) fl) _ _) as [m2 x2]. cbn [fst snd] in *.
  rewrite !app_length, length_zip2, (unfrozen_split (2 ^ n)). cbn [Nat.pow]. lia.
Qed.
Lemma lflags_flags frozen n : lflags frozen 0 n = flags frozen (2 ^ n).
Proof. reflexivity. Qed.
Lemma put0 {X} (l out : list X) : put 0 l out = l ++ skipn (length l) out.
Proof. reflexivity. Qed.
Lemma decode_gen {A} (P : polar_ops A) (d : A) MAX_M soft hard message codeword frozen level :
  5 <= level <= 20 -> level <= MAX_M -> 2 * 2 ^ level <= length soft -> 2 ^ level <= length hard -> 2 ^ level <= length codeword ->
  2 ^ level <= 32 * length frozen -> uint32 frozen -> unfrozen (flags frozen (2 ^ level)) <= length message ->
  let '(m, x) := fnode P level (flags frozen (2 ^ level)) (firstn (2 ^ level) codeword) in
  exists soft', length soft' = length soft /\
    polar_decode P MAX_M soft hard message codeword frozen level = Ok (soft', x ++ skipn (2 ^ level) hard, m ++ skipn (length m) message).
Proof.
  intros HL HM Hs Hh Hc Hf Hu Hm. pose proof (pow2_pos level) as Hp.
  pose proof (fnode_len P level (flags frozen (2 ^ level)) (firstn (2 ^ level) codeword) ltac:(lia) (length_flags _ _) ltac:(rewrite firstn_length; lia)) as (LM & LX).
  destruct (fnode P level (flags frozen (2 ^ level)) (firstn (2 ^ level) codeword)) as [m x] eqn:EF. cbn [fst snd] in *.
  unfold polar_decode. replace (level <=? MAX_M) with true by lia. replace (level <=? 30) with true by lia. cbn [assert_ require bind].
  rewrite (fill_ok (2 ^ level) (2 ^ level) (fun i => nth i codeword d)).
  2: lia.
  2: { intros i cur Hi _. rewrite (rd_nth _ _ d) by lia. reflexivity. }
  cbn [bind].
  assert (map (fun i => nth i codeword d) (seq 0 (2 ^ level)) = firstn (2 ^ level) codeword) as ->.
  { rewrite <- (map_nth_seq (firstn (2 ^ level) codeword) (2 ^ level) d) by (rewrite firstn_length; lia). apply map_ext_in. intros i Hi. apply in_seq in Hi.
    rewrite nth_firstn'. replace (i <? 2 ^ level) with true by lia. reflexivity. }
  set (cw := firstn (2 ^ level) codeword) in *. assert (length cw = 2 ^ level) as Lcw by (unfold cw; rewrite firstn_length; lia).
  set (soft1 := put (2 ^ level) cw soft). assert (length soft1 = length soft) as Ls1 by (unfold soft1; rewrite length_put; lia).
  assert (seg (2 ^ level) (2 ^ level) soft1 = cw) as Esg by (unfold soft1; rewrite <- Lcw at 2; apply seg_put; lia).
  assert (forall t, good level 0 t (fnode P level (flags frozen (2 ^ level))) ->
    exists soft', length soft' = length soft /\ (s <- t (mk_ps message 0 hard soft1) ;; Ok (ps_soft s, ps_hard s, ps_msg s)) =
      Ok (soft', x ++ skipn (2 ^ level) hard, m ++ skipn (length m) message)) as Fin.
  { intros t (_ & G). specialize (G (mk_ps message 0 hard soft1)). cbn [ps_soft ps_hard ps_msg ps_pos] in G. rewrite Esg, EF in G. cbn [fst snd] in G.
    destruct G as (soft' & E & L' & _); [lia|lia|lia|]. rewrite E. cbn [bind fst snd ps_soft ps_hard ps_msg ps_pos] in *. exists soft'.
    split; [lia|]. rewrite !put0, LX. reflexivity. }
  destruct (Nat.eqb_spec level 5) as [->|Hne].
  - rewrite (rd_nth _ _ 0%N) by (change (2 ^ 5) with 32 in Hf; lia). cbn [bind]. apply (Fin (polar_tree_small P 5 0 (nth 0 frozen 0%N))).
    rewrite <- lflags_flags, lflags_word. apply small_good; [exact d|lia|apply uint32_nth; exact Hu].
  - replace ((6 <=? level) && (level <=? 20)) with true by lia. apply (Fin (polar_tree P (level - 6) 0 frozen 0)).
    rewrite <- lflags_flags. replace level with ((level - 6) + 6) at 1 3 4 by lia. apply tree_good; [exact d|exact Hu|].
    assert (2 ^ level = 32 * (2 * 2 ^ (level - 6))) as E by (replace level with ((level - 6) + 6) at 1 by lia; rewrite Nat.pow_add_r; change (2 ^ 6) with 64; lia).
    lia.
Qed.
