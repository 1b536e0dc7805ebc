(** Polar decoder: the trees compute a recursive function with the shortcuts at subtrees of at most 32 positions. *)
From Coq Require Import ZifyBool ZifyNat ZifyN.
From Verif Require Import Cpp Model_simd Model_polar Spec_polar Lib_list Lib_wht Proof_bits Proof_simd Proof_polar1 Proof_polar2 Proof_polar3.
Local Open Scope nat_scope.
Ltac Zify.zify_post_hook ::= idtac.

Lemma half_pow m : 2 ^ S m / 2 = 2 ^ m.
Proof. cbn [Nat.pow]. rewrite Nat.mul_comm. apply Nat.div_mul. lia. Qed.
Lemma length_nil_inv {X} (l : list X) : length l = 0 -> l = [].
Proof. destruct l; [reflexivity|discriminate]. Qed.
Lemma skipn_put {X} off (l out : list X) n : off + length l <= n -> off + length l <= length out -> skipn n (put off l out) = skipn n out.
Proof.
  intros H H2. destruct out as [|x0 out'].
  { cbn [length] in *. rewrite (length_nil_inv l) by lia. rewrite put_nil. reflexivity. }
  set (out := x0 :: out') in *. apply (list_ext _ _ x0); [rewrite !skipn_length, length_put; lia|]. intros i Hi.
  rewrite !nth_skipn, nth_put by lia. replace ((off <=? n + i) && (n + i <? off + length l)) with false by lia. reflexivity.
Qed.
Lemma skipn_seg {X} o n (a b : list X) : skipn o a = skipn o b -> seg o n a = seg o n b.
Proof. unfold seg. intros ->. reflexivity. Qed.
Lemma skipn_skipn {X} (l : list X) : forall a b, skipn a (skipn b l) = skipn (a + b) l.
Proof.
  induction l as [|x l IH]; intros a b; [rewrite !skipn_nil; reflexivity|]. destruct b as [|b]; [rewrite Nat.add_0_r; reflexivity|].
  cbn [skipn]. rewrite IH. replace (a + S b) with (S (a + b)) by lia. reflexivity.
Qed.
Lemma skipn_le {X} o o' (a b : list X) : o <= o' -> skipn o a = skipn o b -> skipn o' a = skipn o' b.
Proof.
  intros H E. replace o' with ((o' - o) + o) by lia. rewrite <- !skipn_skipn. rewrite E. reflexivity.
Qed.

Lemma map_nth_map {X Y} (l : list X) (f : X -> Y) n d : length l = n -> map (fun i => f (nth i l d)) (seq 0 n) = map f l.
Proof. intros L. transitivity (map f (map (fun i => nth i l d) (seq 0 n))); [rewrite map_map; reflexivity|]. rewrite map_nth_seq by exact L. reflexivity. Qed.

Lemma map_const_seq {Y} (y : Y) n : forall z, map (fun _ : nat => y) (seq z n) = repeat y n.
Proof. induction n as [|k IH]; intros z; cbn [seq map repeat]; [reflexivity|]. rewrite IH. reflexivity. Qed.

Section Decoder.
Context {A : Type} (P : polar_ops A) (d : A).
Notation mul := (p_mul P).
Notation st := (polar_state A).

(** from [s] to the result: the message [m] appended, the word [x] put at [hoff], [soft] kept from [2^n] on *)
Definition yields (n hoff : nat) (r : res st) (s : st) (mx : list A * list A) : Prop :=
  exists soft', r = Ok (mk_ps (put (ps_pos s) (fst mx) (ps_msg s)) (ps_pos s + length (fst mx)) (put hoff (snd mx) (ps_hard s)) soft') /\
    length soft' = length (ps_soft s) /\ skipn (2 ^ n) soft' = skipn (2 ^ n) (ps_soft s).
Definition good (n hoff : nat) (f : st -> res st) (F : list A -> list A * list A) : Prop :=
  (forall sl, length sl = 2 ^ n -> length (snd (F sl)) = 2 ^ n) /\
  forall s, 2 * 2 ^ n <= length (ps_soft s) -> hoff + 2 ^ n <= length (ps_hard s) ->
    ps_pos s + length (fst (F (seg (2 ^ n) (2 ^ n) (ps_soft s)))) <= length (ps_msg s) ->
    yields n hoff (f s) s (F (seg (2 ^ n) (2 ^ n) (ps_soft s))).
Lemma good_ext n hoff f g F : good n hoff f F -> (forall s, f s = g s) -> good n hoff g F.
Proof. intros (L & H) E. split; [exact L|]. intros s H1 H2 H3. rewrite <- E. apply H; assumption. Qed.

Definition fleft (m : nat) (sl : list A) : list A := zip2 (p_prod P) (firstn (2 ^ m) sl) (skipn (2 ^ m) sl).
Definition fright (m : nat) (x1 sl : list A) : list A := zip3 (p_madd P) x1 (firstn (2 ^ m) sl) (skipn (2 ^ m) sl).
Definition fjoin (FL FR : list A -> list A * list A) (m : nat) (sl : list A) : list A * list A :=
  let '(m1, x1) := FL (fleft m sl) in
  let '(m2, x2) := FR (fright m x1 sl) in
  (m1 ++ m2, zip2 mul x1 x2 ++ x2).

Lemma left_ok m s : 2 * 2 ^ S m <= length (ps_soft s) ->
  polar_left P (2 ^ S m) s = Ok (mk_ps (ps_msg s) (ps_pos s) (ps_hard s) (put (2 ^ m) (fleft m (seg (2 ^ S m) (2 ^ S m) (ps_soft s))) (ps_soft s))).
Proof.
  intros H. unfold polar_left. rewrite half_pow. cbn [Nat.pow] in *. set (h := 2 ^ m) in *. pose proof (pow2_pos m) as Hp. fold h in Hp.
  set (sl := seg (2 * h) (2 * h) (ps_soft s)). assert (length sl = 2 * h) as Ls by (apply length_seg; lia).
  rewrite (fill_ok h h (fun i => p_prod P (nth i sl d) (nth (h + i) sl d))).
  - cbn [bind]. do 3 f_equal. unfold fleft. fold h. symmetry. apply (list_ext _ _ d).
    + rewrite length_zip2, firstn_length, skipn_length, map_length, seq_length. lia.
    + intros i Hi. rewrite length_zip2, firstn_length, skipn_length in Hi. rewrite (nth_zip2 _ _ _ _ d d) by (rewrite ?firstn_length, ?skipn_length; lia).
      rewrite nth_firstn', nth_skipn, nth_map_seq. replace (i <? h) with true by lia. reflexivity.
  - lia.
  - intros i cur Hi ->. set (cur := put _ _ _). assert (length cur = length (ps_soft s)) as Lc by (unfold cur; rewrite length_put; rewrite ?map_length, ?seq_length; lia).
    assert (forall j, 2 * h <= j -> nth j cur d = nth j (ps_soft s) d) as Q.
    { intros j Hj. unfold cur. rewrite nth_put by (rewrite map_length, seq_length; lia). rewrite map_length, seq_length.
      replace ((h <=? j) && (j <? h + i)) with false by lia. reflexivity. }
    rewrite (rd_nth _ _ d) by lia. cbn [bind]. rewrite (rd_nth _ _ d) by lia. cbn [bind]. rewrite !Q by lia.
    unfold sl. rewrite !nth_seg by lia. rewrite (Nat.add_comm i h). do 2 f_equal; f_equal; lia.
Qed.
Lemma right_ok m hoff s : 2 * 2 ^ S m <= length (ps_soft s) -> hoff + 2 ^ m <= length (ps_hard s) ->
  polar_right P (2 ^ S m) hoff s = Ok (mk_ps (ps_msg s) (ps_pos s) (ps_hard s)
    (put (2 ^ m) (fright m (seg hoff (2 ^ m) (ps_hard s)) (seg (2 ^ S m) (2 ^ S m) (ps_soft s))) (ps_soft s))).
Proof.
  intros H Hh. unfold polar_right. rewrite half_pow. cbn [Nat.pow] in *. set (h := 2 ^ m) in *. pose proof (pow2_pos m) as Hp. fold h in Hp.
  set (sl := seg (2 * h) (2 * h) (ps_soft s)). assert (length sl = 2 * h) as Ls by (apply length_seg; lia).
  set (x := seg hoff h (ps_hard s)). assert (length x = h) as Lx by (apply length_seg; lia).
  rewrite (fill_ok h h (fun i => p_madd P (nth i x d) (nth i sl d) (nth (h + i) sl d))).
  - cbn [bind]. do 3 f_equal. unfold fright. fold h. symmetry. apply (list_ext _ _ d).
    + rewrite length_zip3, firstn_length, skipn_length, map_length, seq_length. lia.
    + intros i Hi. rewrite length_zip3, firstn_length, skipn_length in Hi. rewrite (nth_zip3 _ _ _ _ _ d d d) by (rewrite ?firstn_length, ?skipn_length; lia).
      rewrite nth_firstn', nth_skipn, nth_map_seq. replace (i <? h) with true by lia. reflexivity.
  - lia.
  - intros i cur Hi ->. set (cur := put _ _ _). assert (length cur = length (ps_soft s)) as Lc by (unfold cur; rewrite length_put; rewrite ?map_length, ?seq_length; lia).
    assert (forall j, 2 * h <= j -> nth j cur d = nth j (ps_soft s) d) as Q.
    { intros j Hj. unfold cur. rewrite nth_put by (rewrite map_length, seq_length; lia). rewrite map_length, seq_length.
      replace ((h <=? j) && (j <? h + i)) with false by lia. reflexivity. }
    rewrite (rd_nth (ps_hard s) _ d) by lia. cbn [bind].
    rewrite (rd_nth _ _ d) by lia. cbn [bind]. rewrite (rd_nth _ _ d) by lia. cbn [bind]. rewrite !Q by lia.
    unfold sl, x. rewrite !nth_seg by lia. rewrite (Nat.add_comm i h). do 2 f_equal; f_equal; lia.
Qed.
Lemma join_ok m hoff s : hoff + 2 ^ S m <= length (ps_hard s) ->
  polar_join P (2 ^ S m) hoff s = Ok (mk_ps (ps_msg s) (ps_pos s)
    (put hoff (zip2 mul (seg hoff (2 ^ m) (ps_hard s)) (seg (hoff + 2 ^ m) (2 ^ m) (ps_hard s))) (ps_hard s)) (ps_soft s)).
Proof.
  intros Hh. unfold polar_join. rewrite half_pow. cbn [Nat.pow] in *. set (h := 2 ^ m) in *. pose proof (pow2_pos m) as Hp. fold h in Hp.
  rewrite (fill_ok h hoff (fun i => mul (nth (hoff + i) (ps_hard s) d) (nth (hoff + (i + h)) (ps_hard s) d))).
  - cbn [bind]. do 3 f_equal. symmetry. apply (list_ext _ _ d).
    + rewrite length_zip2, !length_seg, map_length, seq_length by lia. lia.
    + intros i Hi. rewrite length_zip2, !length_seg in Hi by lia. rewrite (nth_zip2 _ _ _ _ d d) by (rewrite length_seg; lia).
      rewrite !nth_seg, nth_map_seq by lia. replace (i <? h) with true by lia. do 2 f_equal. lia.
  - lia.
  - intros i cur Hi ->. set (cur := put _ _ _). assert (length cur = length (ps_hard s)) as Lc by (unfold cur; rewrite length_put; rewrite ?map_length, ?seq_length; lia).
    assert (forall j, hoff + i <= j -> nth j cur d = nth j (ps_hard s) d) as Q.
    { intros j Hj. unfold cur. rewrite nth_put by (rewrite map_length, seq_length; lia). rewrite map_length, seq_length.
      replace ((hoff <=? j) && (j <? hoff + i)) with false by lia. reflexivity. }
    rewrite (rd_nth _ _ d) by lia. cbn [bind]. rewrite (rd_nth _ _ d) by lia. cbn [bind]. rewrite !Q by lia. reflexivity.
Qed.

Lemma node_good m hoff f g F G : good m hoff f F -> good m (hoff + 2 ^ m) g G ->
  good (S m) hoff (fun s => s <- polar_left P (2 ^ S m) s ;; s <- f s ;; s <- polar_right P (2 ^ S m) hoff s ;; s <- g s ;; polar_join P (2 ^ S m) hoff s)
    (fjoin F G m).
Proof.
  intros (LF & HF) (LG & HG). pose proof (pow2_pos m) as Hp.
  assert (forall sl, length sl = 2 ^ S m -> length (fleft m sl) = 2 ^ m) as L1.
  { intros sl L. cbn [Nat.pow] in L. unfold fleft. rewrite length_zip2, firstn_length, skipn_length. lia. }
  assert (forall x1 sl, length x1 = 2 ^ m -> length sl = 2 ^ S m -> length (fright m x1 sl) = 2 ^ m) as L2.
  { intros x1 sl Lx L. cbn [Nat.pow] in L. unfold fright. rewrite length_zip3, firstn_length, skipn_length. lia. }
  split.
  - intros sl L. unfold fjoin. specialize (LF _ (L1 _ L)). destruct (F (fleft m sl)) as [m1 x1]. cbn [snd] in LF.
    specialize (LG _ (L2 _ _ LF L)). destruct (G (fright m x1 sl)) as [m2 x2]. cbn [snd] in *.
    rewrite app_length, length_zip2. cbn [Nat.pow]. lia.
  - intros s Hs Hh Hm. set (sl := seg (2 ^ S m) (2 ^ S m) (ps_soft s)) in *. assert (length sl = 2 ^ S m) as Ls by (apply length_seg; lia).
    rewrite left_ok by exact Hs. cbn [bind]. fold sl. pose proof (L1 _ Ls) as Ll. set (s1 := mk_ps _ _ _ _).
    assert (length (ps_soft s1) = length (ps_soft s)) as Ls1 by (cbn [ps_soft s1]; rewrite length_put; cbn [Nat.pow] in *; lia).
    assert (seg (2 ^ m) (2 ^ m) (ps_soft s1) = fleft m sl) as E1 by (cbn [ps_soft s1]; rewrite <- Ll at 2; apply seg_put; cbn [Nat.pow] in *; lia).
    unfold fjoin in *. specialize (LF _ Ll). specialize (HF s1). rewrite E1 in HF.
    destruct (F (fleft m sl)) as [m1 x1]. cbn [fst snd] in *. pose proof (L2 x1 sl LF Ls) as Lr. specialize (LG _ Lr).
    destruct HF as (soft2 & E2 & Ls2 & K2); [cbn [Nat.pow] in *; lia|cbn [ps_hard s1 Nat.pow] in *; lia| |].
    { cbn [ps_pos ps_msg s1]. destruct (G (fright m x1 sl)) as [m2 x2]. cbn [fst] in Hm. rewrite app_length in Hm. lia. }
    rewrite E2. cbn [bind ps_msg ps_pos ps_hard s1 fst snd] in *. set (s2 := mk_ps _ _ _ _).
    assert (length (ps_hard s2) = length (ps_hard s)) as Lh2 by (cbn [ps_hard s2]; apply length_put; cbn [Nat.pow] in *; lia).
    rewrite right_ok by (rewrite ?Lh2; cbn [ps_soft s2 Nat.pow] in *; lia). cbn [bind].
    assert (seg hoff (2 ^ m) (ps_hard s2) = x1) as E3 by (cbn [ps_hard s2]; rewrite <- LF at 1; apply seg_put; cbn [Nat.pow] in *; lia).
    assert (forall o, 2 ^ S m <= o -> skipn o soft2 = skipn o (ps_soft s)) as K2'.
    { intros o Ho. transitivity (skipn o (ps_soft s1)); [apply (skipn_le (2 ^ m)); [cbn [Nat.pow] in Ho; lia|exact K2]|].
      cbn [ps_soft s1]. apply skipn_put; cbn [Nat.pow] in *; lia. }
    assert (seg (2 ^ S m) (2 ^ S m) (ps_soft s2) = sl) as E4 by (cbn [ps_soft s2]; apply skipn_seg, K2'; lia).
    rewrite E3, E4. set (s3 := mk_ps _ _ _ _).
    assert (length (ps_soft s3) = length (ps_soft s)) as Ls3 by (cbn [ps_soft s3 s2]; rewrite length_put; cbn [Nat.pow] in *; lia).
    assert (seg (2 ^ m) (2 ^ m) (ps_soft s3) = fright m x1 sl) as E5 by (cbn [ps_soft s3]; rewrite <- Lr at 2; apply seg_put; cbn [ps_soft s2 Nat.pow] in *; lia).
    specialize (HG s3). rewrite E5 in HG. destruct (G (fright m x1 sl)) as [m2 x2]. cbn [fst snd] in *. rewrite app_length in Hm.
    destruct HG as (soft4 & E6 & Ls4 & K4); [cbn [Nat.pow] in *; lia|cbn [ps_hard s3] in *; rewrite Lh2; cbn [Nat.pow] in *; lia| |].
    { cbn [ps_pos ps_msg s3 s2]. rewrite length_put by lia. lia. }
    rewrite E6. cbn [bind ps_msg ps_pos ps_hard s3 s2 fst snd] in *. rewrite join_ok.
    2: { cbn [ps_hard]. rewrite length_put; rewrite length_put; cbn [Nat.pow] in *; lia. }
    cbn [ps_msg ps_pos ps_hard ps_soft]. exists soft4. split; [|split].
    + cbn [fst snd]. do 2 f_equal.
      * rewrite put_app by lia. reflexivity.
      * rewrite app_length. lia.
      * assert (put (hoff + 2 ^ m) x2 (put hoff x1 (ps_hard s)) = put hoff (x1 ++ x2) (ps_hard s)) as -> by (rewrite <- LF; apply put_app; cbn [Nat.pow] in *; lia). set (Hd := put hoff (x1 ++ x2) (ps_hard s)).
        assert (length (x1 ++ x2) = 2 * 2 ^ m) as Lx by (rewrite app_length; lia).
        assert (seg hoff (2 * 2 ^ m) Hd = x1 ++ x2) as Sg by (unfold Hd; rewrite <- Lx; apply seg_put; cbn [Nat.pow] in *; lia).
        assert (seg hoff (2 ^ m) Hd = x1) as ->.
        { transitivity (firstn (2 ^ m) (seg hoff (2 * 2 ^ m) Hd)).
          - unfold seg. rewrite firstn_firstn. f_equal. lia.
          - rewrite Sg, firstn_app, <- LF, firstn_all, Nat.sub_diag. cbn [firstn]. apply app_nil_r. }
        assert (seg (hoff + 2 ^ m) (2 ^ m) Hd = x2) as ->.
        { transitivity (skipn (2 ^ m) (seg hoff (2 * 2 ^ m) Hd)).
          - unfold seg. rewrite skipn_firstn_comm, skipn_skipn. f_equal; [lia|f_equal; lia].
          - rewrite Sg, skipn_app, skipn_all2, LF, Nat.sub_diag by lia. reflexivity. }
        assert (length (zip2 mul x1 x2) = 2 ^ m) as Lz by (rewrite length_zip2; lia).
        unfold Hd. rewrite <- put_app by (cbn [Nat.pow] in *; lia).
        apply (list_ext _ _ d).
        { assert (length (put hoff x1 (ps_hard s)) = length (ps_hard s)) as Q1 by (apply length_put; cbn [Nat.pow] in *; lia).
          assert (length (put (hoff + length x1) x2 (put hoff x1 (ps_hard s))) = length (ps_hard s)) as Q2 by (rewrite length_put; cbn [Nat.pow] in *; lia).
          rewrite length_put by (cbn [Nat.pow] in *; lia). rewrite Q2. rewrite length_put by (rewrite app_length; cbn [Nat.pow] in *; lia). reflexivity. }
        intros i Hi. assert (length (put hoff x1 (ps_hard s)) = length (ps_hard s)) as Q1 by (apply length_put; cbn [Nat.pow] in *; lia).
        assert (length (put (hoff + length x1) x2 (put hoff x1 (ps_hard s))) = length (ps_hard s)) as Q2 by (rewrite length_put; cbn [Nat.pow] in *; lia).
        rewrite !nth_put by (rewrite ?app_length; cbn [Nat.pow] in *; lia). rewrite app_length, Lz, LF, LG.
        destruct (Nat.ltb_spec i (hoff + 2 ^ m)) as [C|C].
        -- replace (hoff + 2 ^ m <=? i) with false by lia. replace (i <? hoff + (2 ^ m + 2 ^ m)) with true by lia. cbn [andb]. rewrite !andb_true_r.
           destruct (Nat.leb_spec hoff i); [|reflexivity]. rewrite app_nth1 by lia. reflexivity.
        -- replace (hoff + 2 ^ m <=? i) with true by lia. cbn [andb]. rewrite andb_false_r.
           replace (i <? hoff + (2 ^ m + 2 ^ m)) with (i <? hoff + 2 ^ m + 2 ^ m) by lia. replace (hoff <=? i) with true by lia. cbn [andb].
           destruct (i <? hoff + 2 ^ m + 2 ^ m); [|reflexivity]. rewrite app_nth2 by lia. f_equal. lia.
    + cbn [ps_soft s3] in Ls4. rewrite Ls4. exact Ls3.
    + transitivity (skipn (2 ^ S m) (ps_soft s3)); [apply (skipn_le (2 ^ m)); [cbn [Nat.pow]; lia|exact K4]|].
      cbn [ps_soft s3]. rewrite skipn_put by (cbn [ps_soft s2 Nat.pow] in *; lia). apply K2'. lia.
Qed.

Definition r0 (n : nat) (_ : list A) : list A * list A := ([], repeat (p_one P) (2 ^ n)).
Definition r1 (n : nat) (sl : list A) : list A * list A := (gtr P n (map (p_signum P) sl), map (p_signum P) sl).
Lemma rate0_good n hoff : good n hoff (polar_rate0 P n hoff) (r0 n).
Proof.
  split; [intros; apply repeat_length|]. intros s Hs Hh Hm. unfold polar_rate0.
  rewrite (fill_ok (2 ^ n) hoff (fun _ => p_one P)) by (assumption || reflexivity). cbn [bind]. exists (ps_soft s).
  split; [|auto]. unfold r0. cbn [fst snd length]. rewrite put_nil, Nat.add_0_r. do 3 f_equal.
  apply map_const_seq.
Qed.
Lemma rate1_good n hoff : good n hoff (polar_rate1 P n hoff) (r1 n).
Proof.
  split; [intros sl L; cbn [r1 snd]; rewrite map_length; exact L|]. intros s Hs Hh Hm. unfold r1 in *. cbn [fst] in Hm.
  set (sl := seg (2 ^ n) (2 ^ n) (ps_soft s)) in *. assert (length sl = 2 ^ n) as Ls by (apply length_seg; lia).
  assert (length (map (p_signum P) sl) = 2 ^ n) as Lm by (rewrite map_length; exact Ls).
  rewrite length_gtr in Hm by exact Lm. exists (ps_soft s). split; [|auto]. cbn [fst snd]. rewrite length_gtr by exact Lm.
  destruct n as [|n].
  - cbn [polar_rate1 Nat.pow] in *. rewrite (rd_nth _ _ d) by lia. cbn [bind]. rewrite wr_Ok by lia. cbn [bind].
    assert (sl = [nth 1 (ps_soft s) d]) as Es.
    { destruct sl as [|x [|y sl']] eqn:E; cbn [length] in Ls; try discriminate. f_equal.
      change x with (nth 0 [x] d). rewrite <- E. unfold sl. rewrite nth_seg by lia. reflexivity. }
    rewrite Es. cbn [map gtr]. rewrite (rd_nth _ _ d) by (rewrite length_upd; lia). rewrite nth_upd, Nat.eqb_refl.
    replace (hoff <? length (ps_hard s)) with true by lia. cbn [andb bind]. rewrite wr_Ok by lia. cbn [bind].
    assert (forall (l : list A) i x, i < length l -> upd l i x = put i [x] l) as U.
    { intros l i x Hi. apply (list_ext _ _ d); [rewrite length_upd, length_put; cbn [length]; lia|]. intros j Hj.
      rewrite nth_upd, nth_put by (cbn [length]; lia). cbn [length]. destruct (Nat.eqb_spec i j) as [->|Hne].
      - replace (j <? length l) with true by lia. replace ((j <=? j) && (j <? j + 1)) with true by lia. rewrite Nat.sub_diag. reflexivity.
      - replace ((i <=? j) && (j <? i + 1)) with false by lia. reflexivity. }
    rewrite !U by lia. reflexivity.
  - unfold polar_rate1. rewrite (fill_ok (2 ^ S n) hoff (fun i => p_signum P (nth i sl d))); [|exact Hh|].
    2: { intros i cur Hi _. rewrite (rd_nth _ _ d) by lia. cbn [bind]. unfold sl. rewrite nth_seg by exact Hi. f_equal. f_equal. f_equal. lia. }
    cbn [bind]. rewrite (map_nth_map sl _ _ _ Ls). set (x := map (p_signum P) sl) in *.
    rewrite (trans_ok P d) by (rewrite ?length_put; lia). cbn [bind].
    do 2 f_equal. f_equal. rewrite <- Lm. rewrite seg_put by lia. reflexivity.
Qed.

(** ** The function computed *)
Definition fchild (n : nat) (fl : list bool) (rec : list A -> list A * list A) : list A -> list A * list A :=
  if (n <=? 5) && forallb (fun b => b) fl then r0 n
  else if (n <=? 5) && forallb negb fl then r1 n
  else rec.
Fixpoint fnode (n : nat) (fl : list bool) (sl : list A) : list A * list A :=
  match n with
  | O => ([], [])
  | S m => fjoin (fchild m (firstn (2 ^ m) fl) (fnode m (firstn (2 ^ m) fl))) (fchild m (skipn (2 ^ m) fl) (fnode m (skipn (2 ^ m) fl))) m sl
  end.
(** the flags in a number *)
Definition nbits (n : nat) (f : N) : list bool := map (fun i => N.testbit f (N.of_nat i)) (seq 0 (2 ^ n)).
Lemma length_nbits n f : length (nbits n f) = 2 ^ n.
Proof. unfold nbits. rewrite map_length, seq_length. reflexivity. Qed.
Lemma nth_nbits n f i : i < 2 ^ n -> nth i (nbits n f) false = N.testbit f (N.of_nat i).
Proof. intros H. unfold nbits. rewrite nth_map_seq. replace (i <? 2 ^ n) with true by lia. reflexivity. Qed.
Lemma mask_ones n : (N.shiftl 1 (N.of_nat (2 ^ n)) - 1)%N = N.ones (N.of_nat (2 ^ n)).
Proof. rewrite N.ones_equiv, N.shiftl_1_l, N.sub_1_r. reflexivity. Qed.
Lemma nbits_low n f : firstn (2 ^ n) (nbits (S n) f) = nbits n (N.land f (N.shiftl 1 (N.of_nat (2 ^ n)) - 1)).
Proof.
  apply (list_ext _ _ false); [rewrite firstn_length, !length_nbits; cbn [Nat.pow]; lia|]. intros i Hi. rewrite firstn_length, length_nbits in Hi.
  rewrite nth_firstn'. replace (i <? 2 ^ n) with true by lia. rewrite !nth_nbits by (cbn [Nat.pow] in *; lia).
  rewrite mask_ones, N.land_spec, N.ones_spec_low by lia. rewrite andb_true_r. reflexivity.
Qed.
Lemma nbits_high n f : skipn (2 ^ n) (nbits (S n) f) = nbits n (N.shiftr f (N.of_nat (2 ^ n))).
Proof.
  apply (list_ext _ _ false); [rewrite skipn_length, !length_nbits; cbn [Nat.pow]; lia|]. intros i Hi. rewrite skipn_length, length_nbits in Hi.
  rewrite nth_skipn. rewrite !nth_nbits by (cbn [Nat.pow] in *; lia). rewrite N.shiftr_spec by lia. f_equal. lia.
Qed.
Lemma high_bits (f : N) k i : (f < 2 ^ k)%N -> (k <= i)%N -> N.testbit f i = false.
Proof.
  intros H Hi. destruct (N.eq_dec f 0) as [->|Hf]; [apply N.bits_0|]. apply N.bits_above_log2. apply N.log2_lt_pow2; [lia|].
  eapply N.lt_le_trans; [exact H|]. apply N.pow_le_mono_r; lia.
Qed.
Lemma nbits_all n f : (f < 2 ^ N.of_nat (2 ^ n))%N -> forallb (fun b => b) (nbits n f) = (f =? N.shiftl 1 (N.of_nat (2 ^ n)) - 1)%N.
Proof.
  intros H. rewrite mask_ones. destruct (N.eqb_spec f (N.ones (N.of_nat (2 ^ n)))) as [->|Hne].
  - apply forallb_forall. intros b Hb. apply in_map_iff in Hb. destruct Hb as (i & <- & Hi). apply in_seq in Hi. apply N.ones_spec_low. lia.
  - apply not_true_is_false. intros C. apply Hne. apply N.bits_inj. intros i. rewrite forallb_forall in C.
    destruct (N.lt_ge_cases i (N.of_nat (2 ^ n))) as [Hi|Hi].
    + rewrite N.ones_spec_low by exact Hi. apply C. apply in_map_iff. exists (N.to_nat i). split; [f_equal; lia|]. apply in_seq. lia.
    + rewrite N.ones_spec_high by exact Hi. apply (high_bits f (N.of_nat (2 ^ n))); assumption.
Qed.
Lemma nbits_none n f : (f < 2 ^ N.of_nat (2 ^ n))%N -> forallb negb (nbits n f) = (f =? 0)%N.
Proof.
  intros H. destruct (N.eqb_spec f 0) as [->|Hne].
  - apply forallb_forall. intros b Hb. apply in_map_iff in Hb. destruct Hb as (i & <- & Hi). rewrite N.bits_0. reflexivity.
  - apply not_true_is_false. intros C. apply Hne. apply N.bits_inj. intros i. rewrite N.bits_0. rewrite forallb_forall in C.
    destruct (N.lt_ge_cases i (N.of_nat (2 ^ n))) as [Hi|Hi].
    + apply negb_true_iff. apply C. apply in_map_iff. exists (N.to_nat i). split; [f_equal; lia|]. apply in_seq. lia.
    + apply (high_bits f (N.of_nat (2 ^ n))); assumption.
Qed.
Lemma low_lt f n : (N.land f (N.shiftl 1 (N.of_nat (2 ^ n)) - 1) < 2 ^ N.of_nat (2 ^ n))%N.
Proof. rewrite mask_ones, N.land_ones. apply N.mod_lt. apply N.pow_nonzero. lia. Qed.
Lemma high_lt f n : (f < 2 ^ N.of_nat (2 ^ S n))%N -> (N.shiftr f (N.of_nat (2 ^ n)) < 2 ^ N.of_nat (2 ^ n))%N.
Proof.
  intros H. rewrite N.shiftr_div_pow2. apply N.div_lt_upper_bound; [apply N.pow_nonzero; lia|]. rewrite <- N.pow_add_r.
  replace (N.of_nat (2 ^ n) + N.of_nat (2 ^ n))%N with (N.of_nat (2 ^ S n)) by (cbn [Nat.pow]; lia). exact H.
Qed.
(** a child chosen by comparing a number with the mask and zero *)
Lemma child_good m hoff f t : m <= 5 -> (f < 2 ^ N.of_nat (2 ^ m))%N -> good m hoff t (fnode m (nbits m f)) ->
  good m hoff (fun s => if (f =? N.shiftl 1 (N.of_nat (2 ^ m)) - 1)%N then polar_rate0 P m hoff s else if (f =? 0)%N then polar_rate1 P m hoff s else t s)
    (fchild m (nbits m f) (fnode m (nbits m f))).
Proof.
  intros Hm Hf Ht. unfold fchild. replace (m <=? 5) with true by lia. cbn [andb]. rewrite nbits_all, nbits_none by exact Hf.
  destruct (f =? N.shiftl 1 (N.of_nat (2 ^ m)) - 1)%N; [apply rate0_good|].
  destruct (f =? 0)%N; [apply rate1_good|exact Ht].
Qed.
Lemma leaf_good hoff f t : (f < 2)%N -> good 0 hoff (fun s => if (f =? 0)%N then polar_rate1 P 0 hoff s else polar_rate0 P 0 hoff s) (fchild 0 (nbits 0 f) t).
Proof.
  intros Hf. assert (f = 0 \/ f = 1)%N as [-> | ->] by lia; [apply rate1_good|apply rate0_good].
Qed.
Lemma small_good M : forall hoff f, 1 <= M <= 5 -> (f < 2 ^ N.of_nat (2 ^ M))%N -> good M hoff (polar_tree_small P M hoff f) (fnode M (nbits M f)).
Proof.
  induction M as [|m IH]; intros hoff f HM Hf; [lia|]. destruct m as [|m].
  - cbn [polar_tree_small]. eapply good_ext; [|reflexivity].
    assert (fnode 1 (nbits 1 f) = fjoin (fchild 0 (firstn (2 ^ 0) (nbits 1 f)) (fnode 0 (firstn (2 ^ 0) (nbits 1 f))))
      (fchild 0 (skipn (2 ^ 0) (nbits 1 f)) (fnode 0 (skipn (2 ^ 0) (nbits 1 f)))) 0) as -> by reflexivity.
    rewrite nbits_low, nbits_high. change (N.shiftl 1 (N.of_nat (2 ^ 0)) - 1)%N with 1%N. change (N.of_nat (2 ^ 0)) with 1%N.
    apply (node_good 0 hoff).
    + apply leaf_good. apply (low_lt f 0).
    + apply leaf_good. apply (high_lt f 0). exact Hf.
  - cbn [polar_tree_small]. set (n := S m) in *.
    assert (fnode (S n) (nbits (S n) f) = fjoin (fchild n (firstn (2 ^ n) (nbits (S n) f)) (fnode n (firstn (2 ^ n) (nbits (S n) f))))
      (fchild n (skipn (2 ^ n) (nbits (S n) f)) (fnode n (skipn (2 ^ n) (nbits (S n) f)))) n) as -> by reflexivity.
    rewrite nbits_low, nbits_high. set (g := 2 ^ n). rewrite half_pow. apply (node_good n hoff).
    + apply child_good; [lia|apply low_lt|]. apply IH; [lia|apply low_lt].
    + apply child_good; [lia|apply high_lt; exact Hf|]. apply IH; [lia|apply high_lt; exact Hf].
Qed.
(** the flags from word [fo] on *)
Definition lflags (frozen : list N) (fo n : nat) : list bool := map (fun i => is_frozen frozen (32 * fo + i)) (seq 0 (2 ^ n)).
Lemma length_lflags frozen fo n : length (lflags frozen fo n) = 2 ^ n.
Proof. unfold lflags. rewrite map_length, seq_length. reflexivity. Qed.
Lemma nth_lflags frozen fo n i : i < 2 ^ n -> nth i (lflags frozen fo n) false = is_frozen frozen (32 * fo + i).
Proof. intros H. unfold lflags. rewrite nth_map_seq. replace (i <? 2 ^ n) with true by lia. reflexivity. Qed.
Lemma lflags_word frozen fo : lflags frozen fo 5 = nbits 5 (nth fo frozen 0%N).
Proof.
  unfold lflags, nbits. apply map_ext_in. intros i Hi. apply in_seq in Hi. change (2 ^ 5) with 32 in Hi. unfold is_frozen.
  replace ((32 * fo + i) / 32) with fo by (apply (Nat.div_unique _ _ _ i); lia).
  replace ((32 * fo + i) mod 32) with i by (apply (Nat.mod_unique _ _ fo); lia). reflexivity.
Qed.
Lemma lflags_low frozen fo n : firstn (2 ^ n) (lflags frozen fo (S n)) = lflags frozen fo n.
Proof.
  apply (list_ext _ _ false); [rewrite firstn_length, !length_lflags; cbn [Nat.pow]; lia|]. intros i Hi. rewrite firstn_length, length_lflags in Hi.
  rewrite nth_firstn'. replace (i <? 2 ^ n) with true by lia. rewrite !nth_lflags by (cbn [Nat.pow] in *; lia). reflexivity.
Qed.
Lemma lflags_high frozen fo n k : 2 ^ n = 32 * k -> skipn (2 ^ n) (lflags frozen fo (S n)) = lflags frozen (fo + k) n.
Proof.
  intros E. apply (list_ext _ _ false); [rewrite skipn_length, !length_lflags; cbn [Nat.pow]; lia|]. intros i Hi. rewrite skipn_length, length_lflags in Hi.
  rewrite nth_skipn. rewrite !nth_lflags by (cbn [Nat.pow] in *; lia). f_equal. lia.
Qed.
Definition uint32 (frozen : list N) : Prop := Forall (fun w => (w < 2 ^ 32)%N) frozen.
Lemma uint32_nth frozen i : uint32 frozen -> (nth i frozen 0 < 2 ^ N.of_nat (2 ^ 5))%N.
Proof.
  intros H. change (2 ^ N.of_nat (2 ^ 5))%N with (2 ^ 32)%N. destruct (Nat.lt_ge_cases i (length frozen)).
  - unfold uint32 in H. rewrite Forall_forall in H. apply H. apply nth_In. assumption.
  - rewrite nth_overflow by assumption. reflexivity.
Qed.
Lemma tree6_good hoff frozen fo : uint32 frozen -> fo + 2 <= length frozen -> good 6 hoff (polar_tree6 P hoff frozen fo) (fnode 6 (lflags frozen fo 6)).
Proof.
  intros Hu Hf.
  assert (fnode 6 (lflags frozen fo 6) = fjoin (fchild 5 (firstn (2 ^ 5) (lflags frozen fo 6)) (fnode 5 (firstn (2 ^ 5) (lflags frozen fo 6))))
      (fchild 5 (skipn (2 ^ 5) (lflags frozen fo 6)) (fnode 5 (skipn (2 ^ 5) (lflags frozen fo 6)))) 5) as -> by reflexivity.
  rewrite lflags_low, (lflags_high _ _ _ 1) by reflexivity. rewrite !lflags_word.
  eapply good_ext; [apply (node_good 5 hoff)|].
  - apply child_good; [lia|apply uint32_nth; exact Hu|]. apply small_good; [lia|apply uint32_nth; exact Hu].
  - apply child_good; [lia|apply uint32_nth; exact Hu|]. apply small_good; [lia|apply uint32_nth; exact Hu].
  - intros s. unfold polar_tree6. rewrite (rd_nth frozen (fo + 0) 0%N), (rd_nth frozen (fo + 1) 0%N) by lia. rewrite Nat.add_0_r. reflexivity.
Qed.
Lemma tree_good dd : forall hoff frozen fo, uint32 frozen -> fo + 2 * 2 ^ dd <= length frozen ->
  good (dd + 6) hoff (polar_tree P dd hoff frozen fo) (fnode (dd + 6) (lflags frozen fo (dd + 6))).
Proof.
  induction dd as [|dd IH]; intros hoff frozen fo Hu Hf; [apply tree6_good; [exact Hu|cbn in Hf; lia]|].
  assert (2 ^ (dd + 6) = 32 * (2 * 2 ^ dd)) as E by (rewrite Nat.pow_add_r; change (2 ^ 6) with 64; lia).
  cbn [polar_tree]. change (S dd + 6) with (S (dd + 6)). set (n := dd + 6) in *.
  assert (fnode (S n) (lflags frozen fo (S n)) = fjoin (fchild n (firstn (2 ^ n) (lflags frozen fo (S n))) (fnode n (firstn (2 ^ n) (lflags frozen fo (S n)))))
      (fchild n (skipn (2 ^ n) (lflags frozen fo (S n))) (fnode n (skipn (2 ^ n) (lflags frozen fo (S n))))) n) as -> by reflexivity.
  rewrite lflags_low, (lflags_high _ _ _ (2 * 2 ^ dd)) by exact E. rewrite half_pow.
  assert (2 ^ n / 32 = 2 * 2 ^ dd) as -> by (rewrite E, Nat.mul_comm; apply Nat.div_mul; lia).
  unfold fchild. replace (n <=? 5) with false by (unfold n; lia). cbn [andb]. cbn [Nat.pow] in Hf.
  apply (node_good n hoff); apply IH; (exact Hu || lia).
Qed.
End Decoder.
