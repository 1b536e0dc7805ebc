(** Polar encoders. *)
From Coq Require Import ZifyBool.
From Verif Require Import Cpp Model_simd Model_polar Spec_polar Lib_list Lib_wht Proof_bits Proof_simd Proof_polar1.
Local Open Scope nat_scope.
Ltac Zify.zify_post_hook ::= idtac.

Definition tern (x : Z) : Prop := (-1 <= x <= 1)%Z.
Lemma pm1_tern x : pm1 x -> tern x.
Proof. unfold pm1, tern. lia. Qed.
Lemma qmul8_tern a b : tern a -> tern b -> qmul8 a b = (a * b)%Z.
Proof. unfold tern, qmul8. intros. apply to_s8_id. unfold i8. nia. Qed.
Lemma tern_mul a b : tern a -> tern b -> tern (a * b).
Proof. unfold tern. nia. Qed.
Lemma blk_zblk s u : (forall i, tern (u i)) -> forall j, blk ops8 s u j = zblk s u j /\ tern (zblk s u j).
Proof.
  intros H. induction s as [|s IH]; intros j; cbn [blk zblk]; [split; auto|].
  destruct (IH j) as [E1 T1]. destruct (IH (j + 2 ^ s)) as [E2 T2].
  destruct (Nat.even (j / 2 ^ s)); [|split; assumption]. rewrite E1, E2. cbn [p_mul ops8].
  split; [apply qmul8_tern; assumption|apply tern_mul; assumption].
Qed.

Lemma nth_flags frozen len i d : i < len -> nth i (flags frozen len) d = is_frozen frozen i.
Proof.
  intros H. unfold flags. rewrite (nth_indep _ d (is_frozen frozen 0)) by (rewrite map_length, seq_length; exact H).
  rewrite map_nth, seq_nth by exact H. reflexivity.
Qed.
Lemma length_flags frozen len : length (flags frozen len) = len.
Proof. unfold flags. rewrite map_length, seq_length. reflexivity. Qed.
Lemma get_ok frozen i : i < 32 * length frozen -> polar_get frozen i = Ok (is_frozen frozen i).
Proof.
  intros H. unfold polar_get, is_frozen. rewrite (rd_nth _ _ 0%N) by (apply Nat.div_lt_upper_bound; lia). reflexivity.
Qed.

(** how many unfrozen positions precede position [i] *)
Definition before (fl : list bool) (i : nat) : nat := unfrozen (firstn i fl).
Lemma unfrozen_app a b : unfrozen (a ++ b) = unfrozen a + unfrozen b.
Proof. unfold unfrozen. rewrite filter_app, app_length. reflexivity. Qed.
Lemma before_S fl i : i < length fl -> before fl (S i) = before fl i + (if nth i fl true then 0 else 1).
Proof.
  intros H. unfold before. rewrite (firstn_snoc fl i true) by exact H. rewrite unfrozen_app. f_equal.
  unfold unfrozen. cbn [filter]. destruct (nth i fl true); reflexivity.
Qed.
Lemma before_all fl : before fl (length fl) = unfrozen fl.
Proof. unfold before. rewrite firstn_all. reflexivity. Qed.
Lemma before_mono fl i j : i <= j -> before fl i <= before fl j.
Proof.
  intros H. unfold before. replace (firstn i fl) with (firstn i (firstn j fl)) by (rewrite firstn_firstn; f_equal; lia).
  rewrite <- (firstn_skipn i (firstn j fl)) at 2. rewrite unfrozen_app. lia.
Qed.
Lemma before_lt fl i : i < length fl -> nth i fl true = false -> before fl i < unfrozen fl.
Proof.
  intros H E. pose proof (before_S fl i H) as B. rewrite E in B. pose proof (before_mono fl (S i) (length fl) ltac:(lia)) as M.
  rewrite before_all in M. lia.
Qed.
Lemma length_expand fl : forall m, length (expand fl m) = length fl.
Proof. induction fl as [|[|] fl IH]; intros m; cbn [expand length]; auto. Qed.
Lemma nth_tl {X} (l : list X) i d : nth i (tl l) d = nth (S i) l d.
Proof. destruct l; [destruct i; reflexivity|reflexivity]. Qed.
Lemma nth_hd {X} (l : list X) d : hd d l = nth 0 l d.
Proof. destruct l; reflexivity. Qed.
Lemma nth_expand fl : forall m i, i < length fl -> nth i (expand fl m) 1%Z = if nth i fl true then 1%Z else nth (before fl i) m 1%Z.
Proof.
  induction fl as [|f fl IH]; intros m i Hi; cbn [length] in Hi; [lia|].
  destruct i as [|i].
  - cbn [nth]. unfold before. cbn [firstn]. destruct f; cbn [expand nth]; [reflexivity|apply nth_hd].
  - cbn [nth]. unfold before, unfrozen. cbn [firstn filter]. destruct f; cbn [expand nth negb length]; rewrite IH by lia; [reflexivity|].
    destruct (nth i fl true); [reflexivity|]. apply nth_tl.
Qed.

(** the value taken from the message at position [i] *)
Lemma expand_ok message frozen n codeword : 1 <= n -> 2 ^ n <= 32 * length frozen -> 2 ^ n <= length codeword ->
  unfrozen (flags frozen (2 ^ n)) <= length message ->
  exists cw, polar_expand ops8 message frozen (2 ^ n) codeword = Ok cw /\
    shows 0%Z 0 (2 ^ n) (blk ops8 1 (fun i => nth i (expand (flags frozen (2 ^ n)) message) 1%Z)) codeword cw.
Proof.
  intros Hn Hf Hc Hm. set (fl := flags frozen (2 ^ n)) in *. assert (length fl = 2 ^ n) as Lf by apply length_flags.
  set (u := fun i => nth i (expand fl message) 1%Z). unfold polar_expand.
  assert (2 ^ n = 2 ^ (n - 1) * 2) as EN by (replace n with (S (n - 1)) at 1 by lia; cbn [Nat.pow]; lia).
  set (body := fun (i : nat) (s : nat * list Z) => _).
  cut (exists cw, for_step 0 (2 ^ (n - 1) * 2) 2 body (0, codeword) = Ok (before fl (2 ^ n), cw) /\
    shows 0%Z 0 (2 ^ n) (blk ops8 1 u) codeword cw).
  { intros (cw & E & I). rewrite <- EN in E. rewrite E. cbn [bind]. exists cw. auto. }
  edestruct (for_step_inv (fun k (s : nat * list Z) => fst s = before fl (k * 2) /\
      shows 0%Z 0 (2 ^ n) (fun j => if j <? k * 2 then blk ops8 1 u j else nth j codeword 0%Z) codeword (snd s))) as ((pos & cw) & E & Hp & I).
  4: { cbn [fst snd] in *. exists cw. split; [rewrite E, Hp; do 3 f_equal; lia|]. eapply shows_ext; [exact I|]. intros j Hj. cbv beta.
       replace (j <? 2 ^ (n - 1) * 2) with true by lia. reflexivity. }
  - lia.
  - intros k (pos & cw) Hk (Hp & I). cbn [fst snd] in *. unfold body. cbv beta iota.
    assert (forall i p, i < 2 ^ n -> p = before fl i ->
      (if is_frozen frozen i then Ok (p_one ops8, p) else (x <- rd message p ;; Ok (x, p + 1))) = Ok (u i, before fl (S i))) as Step.
    { intros i p Hi ->. rewrite before_S by lia. assert (nth i fl true = is_frozen frozen i) as Ef by (apply nth_flags; exact Hi).
      rewrite Ef. unfold u. rewrite nth_expand by lia. rewrite Ef. destruct (is_frozen frozen i) eqn:Fz.
      - rewrite Nat.add_0_r. reflexivity.
      - rewrite (rd_nth _ _ 1%Z) by (pose proof (before_lt fl i ltac:(lia) Ef); lia). reflexivity. }
    rewrite get_ok by lia. cbn [bind]. rewrite (Step (k * 2) pos) by (auto; lia). cbn [bind].
    rewrite get_ok by lia. cbn [bind]. rewrite (Step (k * 2 + 1) _) by (try lia; f_equal; lia). cbn [bind].
    destruct (shows_wr 0%Z 0 _ _ _ _ (k * 2) (p_mul ops8 (u (k * 2)) (u (k * 2 + 1))) I ltac:(lia) ltac:(lia)) as (cw1 & E1 & I1).
    rewrite Nat.add_0_l in E1. rewrite E1. cbn [bind].
    destruct (shows_wr 0%Z 0 _ _ _ _ (k * 2 + 1) (u (k * 2 + 1)) I1 ltac:(lia) ltac:(lia)) as (cw2 & E2 & I2).
    rewrite Nat.add_0_l in E2. rewrite E2. cbn [bind]. eexists. split; [reflexivity|]. cbn [fst snd]. split; [f_equal; lia|].
    eapply shows_ext; [exact I2|]. intros j Hj. cbv beta. cbn [blk Nat.pow]. rewrite Nat.div_1_r.
    destruct (Nat.eqb_spec j (k * 2 + 1)) as [->|N1].
    + replace (k * 2 + 1 <? S k * 2) with true by lia. replace (Nat.even (k * 2 + 1)) with false; [reflexivity|].
      replace (k * 2 + 1) with (S (2 * k)) by lia. rewrite Nat.even_succ, <- Nat.negb_even, Nat.even_mul. reflexivity.
    + destruct (Nat.eqb_spec j (k * 2)) as [->|N2].
      * replace (k * 2 <? S k * 2) with true by lia. rewrite Nat.even_mul. rewrite orb_true_r. reflexivity.
      * replace (j <? S k * 2) with (j <? k * 2) by lia. reflexivity.
  - cbn [fst snd]. split; [reflexivity|]. split; [reflexivity|]. intros x. cbn [Nat.mul Nat.ltb Nat.leb]. rewrite Nat.sub_0_r. destruct (_ && _); reflexivity.
Qed.
(** a shorter message is read past its end *)
Lemma expand_short message frozen n codeword : 1 <= n -> 2 ^ n <= 32 * length frozen -> 2 ^ n <= length codeword ->
  length message < unfrozen (flags frozen (2 ^ n)) -> polar_expand ops8 message frozen (2 ^ n) codeword = Undef.
Proof.
  intros Hn Hf Hc Hm. set (fl := flags frozen (2 ^ n)) in *. assert (length fl = 2 ^ n) as Lf by apply length_flags.
  unfold polar_expand.
  assert (2 ^ n = 2 ^ (n - 1) * 2) as EN by (replace n with (S (n - 1)) at 1 by lia; cbn [Nat.pow]; lia).
  set (body := fun (i : nat) (s : nat * list Z) => _).
  assert (for_step 0 (2 ^ n) 2 body (0, codeword) = loop (2 ^ (n - 1)) 0 (fun k => body (0 + k * 2)) (0, codeword)) as ->.
  { unfold for_step. f_equal. rewrite EN, Nat.sub_0_r, Nat.add_comm, Nat.div_add by lia. reflexivity. }
  assert (forall m k cw, k + m = 2 ^ (n - 1) -> length cw = length codeword -> before fl (k * 2) <= length message ->
    loop m k (fun k => body (0 + k * 2)) (before fl (k * 2), cw) = Undef) as H.
  { induction m as [|m IH]; intros k cw Hk Lc Hb.
    - replace (k * 2) with (length fl) in Hb by lia. rewrite before_all in Hb. lia.
    - cbn [loop]. rewrite Nat.add_0_l. unfold body at 1.
      assert (forall i, i < 2 ^ n -> before fl i <= length message ->
        (if is_frozen frozen i then Ok (p_one ops8, before fl i) else (x <- rd message (before fl i) ;; Ok (x, before fl i + 1))) = Undef \/
        exists x, (if is_frozen frozen i then Ok (p_one ops8, before fl i) else (x <- rd message (before fl i) ;; Ok (x, before fl i + 1))) = Ok (x, before fl (S i)) /\
          before fl (S i) <= length message) as Step.
      { intros i Hi Hb2. rewrite before_S by lia. assert (nth i fl true = is_frozen frozen i) as Ef by (apply nth_flags; exact Hi).
        rewrite Ef. destruct (is_frozen frozen i).
        - right. rewrite Nat.add_0_r. eexists; split; [reflexivity|exact Hb2].
        - destruct (Nat.lt_ge_cases (before fl i) (length message)).
          + right. rewrite (rd_nth _ _ 1%Z) by lia. eexists; split; [reflexivity|lia].
          + left. unfold rd. rewrite (proj2 (nth_error_None message (before fl i))) by lia. reflexivity. }
      rewrite get_ok by lia. cbn [bind]. destruct (Step (k * 2) ltac:(lia) Hb) as [-> |(x & -> & Hx)]; [reflexivity|]. cbn [bind].
      rewrite get_ok by lia. cbn [bind]. replace (S (k * 2)) with (k * 2 + 1) in * by lia.
      destruct (Step (k * 2 + 1) ltac:(lia) Hx) as [-> |(y & -> & Hy)]; [reflexivity|]. cbn [bind].
      rewrite wr_Ok by lia. cbn [bind]. rewrite wr_Ok by (rewrite length_upd; lia). cbn [bind].
      replace (S (k * 2 + 1)) with (S k * 2) in * by lia. apply IH; [lia|rewrite !length_upd; exact Lc|exact Hy]. }
  pose proof (H (2 ^ (n - 1)) 0 codeword ltac:(lia) eq_refl ltac:(cbn; lia)) as H0. change (before fl (0 * 2)) with 0 in H0. rewrite H0. reflexivity.
Qed.

Lemma shows_list n v out0 out : shows 0%Z 0 n v out0 out -> n <= length out0 -> out = map v (seq 0 n) ++ skipn n out0.
Proof.
  intros (L & H) Hn. apply (list_ext _ _ 0%Z).
  - rewrite app_length, map_length, seq_length, skipn_length. lia.
  - intros x Hx. rewrite H. cbn [Nat.leb]. rewrite Nat.sub_0_r, Nat.add_0_l. cbn [andb]. destruct (Nat.ltb_spec x n).
    + rewrite app_nth1 by (rewrite map_length, seq_length; lia). rewrite nth_map_seq. replace (x <? n) with true by lia. reflexivity.
    + rewrite app_nth2 by (rewrite map_length, seq_length; lia). rewrite map_length, seq_length, nth_skipn'. f_equal. lia.
Qed.
Lemma pm1_expand fl : forall m, Forall pm1 m -> Forall pm1 (expand fl m).
Proof.
  induction fl as [|[|] fl IH]; intros m F; cbn [expand]; constructor; auto.
  - left; reflexivity.
  - destruct m; cbn [hd]; [left; reflexivity|]. inversion F; auto.
  - apply IH. destruct m; [constructor|inversion F; auto].
Qed.
Lemma pm1_nth l i d : Forall pm1 l -> pm1 d -> pm1 (nth i l d).
Proof.
  intros F Hd. destruct (Nat.lt_ge_cases i (length l)); [|rewrite nth_overflow by lia; exact Hd].
  rewrite Forall_forall in F. apply F, nth_In. lia.
Qed.
Lemma zblk_transform n u : length u = 2 ^ n -> map (zblk n (fun i => nth i u 1%Z)) (seq 0 (2 ^ n)) = transform n u.
Proof.
  intros L. unfold transform. apply map_ext_in. intros j Hj. apply in_seq in Hj. apply zblk_prodover. lia.
Qed.
Lemma stages_pm1 n u out0 out : 1 <= n -> 2 ^ n <= length out0 -> length u = 2 ^ n -> Forall pm1 u ->
  shows 0%Z 0 (2 ^ n) (blk ops8 1 (fun i => nth i u 1%Z)) out0 out ->
  polar_stages ops8 0 (2 ^ n) out = Ok (transform n u ++ skipn (2 ^ n) out0).
Proof.
  intros Hn Hl Lu Fu H. destruct (stages_ok ops8 0%Z 0 n _ out0 out Hn Hl H) as (o & E & I). rewrite E. f_equal.
  rewrite <- (zblk_transform n u Lu).
  eapply shows_list; [|exact Hl]. eapply shows_ext; [exact I|]. intros j Hj. apply blk_zblk. intros i. apply pm1_tern, pm1_nth; [exact Fu|left; reflexivity].
Qed.
Lemma encode_ok codeword message frozen level : 1 <= level <= 30 -> 2 ^ level <= 32 * length frozen -> 2 ^ level <= length codeword ->
  unfrozen (flags frozen (2 ^ level)) <= length message -> Forall pm1 message ->
  polar_encode ops8 codeword message frozen level =
    Ok (transform level (expand (flags frozen (2 ^ level)) message) ++ skipn (2 ^ level) codeword).
Proof.
  intros Hn Hf Hc Hm Fm. unfold polar_encode. replace (level <=? 30) with true by lia. cbn [require bind].
  destruct (expand_ok message frozen level codeword ltac:(lia) Hf Hc Hm) as (cw & E & I). rewrite E. cbn [bind].
  apply stages_pm1; try lia; [rewrite length_expand, length_flags; reflexivity|apply pm1_expand; exact Fm|exact I].
Qed.

(** the systematic encoder's second expansion *)
Definition keep (fl : list bool) (x : list Z) : list Z := map (fun p : bool * Z => if fst p then 1%Z else snd p) (combine fl x).
Lemma length_keep fl x : length fl = length x -> length (keep fl x) = length x.
Proof. intros H. unfold keep. rewrite map_length, combine_length. lia. Qed.
Lemma nth_keep fl x i : length fl = length x -> i < length x -> nth i (keep fl x) 1%Z = if nth i fl true then 1%Z else nth i x 1%Z.
Proof.
  intros L H. unfold keep. rewrite (nth_map1 _ _ _ (true, 1%Z)) by (rewrite combine_length; lia).
  rewrite combine_nth by exact L. reflexivity.
Qed.
Lemma mask_ok frozen n x codeword tail : 1 <= n -> 2 ^ n <= 32 * length frozen -> length x = 2 ^ n -> codeword = x ++ tail ->
  exists cw, polar_mask ops8 frozen (2 ^ n) codeword = Ok cw /\
    shows 0%Z 0 (2 ^ n) (blk ops8 1 (fun i => nth i (keep (flags frozen (2 ^ n)) x) 1%Z)) codeword cw.
Proof.
  intros Hn Hf Lx Ecw. set (fl := flags frozen (2 ^ n)) in *. assert (length fl = 2 ^ n) as Lf by apply length_flags.
  set (u := fun i => nth i (keep fl x) 1%Z). unfold polar_mask.
  assert (2 ^ n <= length codeword) as Hc by (subst; rewrite app_length; lia).
  assert (2 ^ n = 2 ^ (n - 1) * 2) as EN by (replace n with (S (n - 1)) at 1 by lia; cbn [Nat.pow]; lia).
  set (body := fun (i : nat) (s : list Z) => _).
  cut (exists cw, for_step 0 (2 ^ (n - 1) * 2) 2 body codeword = Ok cw /\ shows 0%Z 0 (2 ^ n) (blk ops8 1 u) codeword cw).
  { rewrite <- EN. auto. }
  edestruct (for_step_inv (fun k (s : list Z) =>
      shows 0%Z 0 (2 ^ n) (fun j => if j <? k * 2 then blk ops8 1 u j else nth j x 1%Z) codeword s)) as (cw & E & I).
  4: { exists cw. split; [exact E|]. eapply shows_ext; [exact I|]. intros j Hj. cbv beta.
       replace (j <? 2 ^ (n - 1) * 2) with true by lia. reflexivity. }
  - lia.
  - intros k cw Hk I. unfold body. cbv beta iota.
    assert (forall i, k * 2 <= i < 2 ^ n -> (if is_frozen frozen i then Ok (p_one ops8) else rd cw i) = Ok (u i)) as Step.
    { intros i Hi. assert (nth i fl true = is_frozen frozen i) as Ef by (apply nth_flags; lia).
      unfold u. rewrite nth_keep by lia. rewrite Ef. destruct (is_frozen frozen i); [reflexivity|].
      pose proof (shows_rd 0%Z 0 _ _ _ _ i I ltac:(lia) ltac:(lia)) as R. rewrite Nat.add_0_l in R. rewrite R.
      replace (i <? k * 2) with false by lia. reflexivity. }
    rewrite get_ok by lia. cbn [bind]. rewrite (Step (k * 2)) by lia. cbn [bind].
    rewrite get_ok by lia. cbn [bind]. rewrite (Step (k * 2 + 1)) by lia. cbn [bind].
    destruct (shows_wr 0%Z 0 _ _ _ _ (k * 2) (p_mul ops8 (u (k * 2)) (u (k * 2 + 1))) I ltac:(lia) ltac:(lia)) as (cw1 & E1 & I1).
    rewrite Nat.add_0_l in E1. rewrite E1. cbn [bind].
    destruct (shows_wr 0%Z 0 _ _ _ _ (k * 2 + 1) (u (k * 2 + 1)) I1 ltac:(lia) ltac:(lia)) as (cw2 & E2 & I2).
    rewrite Nat.add_0_l in E2. exists cw2. split; [exact E2|].
    eapply shows_ext; [exact I2|]. intros j Hj. cbv beta. cbn [blk Nat.pow]. rewrite Nat.div_1_r.
    destruct (Nat.eqb_spec j (k * 2 + 1)) as [->|N1].
    + replace (k * 2 + 1 <? S k * 2) with true by lia. replace (Nat.even (k * 2 + 1)) with false; [reflexivity|].
      replace (k * 2 + 1) with (S (2 * k)) by lia. rewrite Nat.even_succ, <- Nat.negb_even, Nat.even_mul. reflexivity.
    + destruct (Nat.eqb_spec j (k * 2)) as [->|N2].
      * replace (k * 2 <? S k * 2) with true by lia. rewrite Nat.even_mul. rewrite orb_true_r. reflexivity.
      * replace (j <? S k * 2) with (j <? k * 2) by lia. reflexivity.
  - split; [reflexivity|]. intros y. rewrite Nat.sub_0_r. destruct (Nat.ltb_spec y (0 + 2 ^ n)); [|rewrite andb_false_r; reflexivity].
    replace (0 <=? y) with true by lia. replace (y <? 0 * 2) with false by lia. cbn [andb].
    subst codeword. rewrite app_nth1 by lia. apply nth_indep. lia.
Qed.
Lemma pm1_keep fl x : Forall pm1 x -> Forall pm1 (keep fl x).
Proof.
  intros F. unfold keep. apply Forall_map. apply Forall_forall. intros [f v] H. cbn [fst snd]. destruct f; [left; reflexivity|].
  rewrite Forall_forall in F. apply F. eapply in_combine_r; exact H.
Qed.
Lemma pm1_transform n u : length u = 2 ^ n -> Forall pm1 u -> Forall pm1 (transform n u).
Proof. intros L F. rewrite <- ptr_transform by exact L. apply pm1_ptr; exact F. Qed.
Lemma sysenc_ok codeword message frozen level : 1 <= level <= 30 -> 2 ^ level <= 32 * length frozen -> 2 ^ level <= length codeword ->
  unfrozen (flags frozen (2 ^ level)) <= length message -> Forall pm1 message ->
  polar_sysenc ops8 codeword message frozen level =
    Ok (transform level (keep (flags frozen (2 ^ level)) (transform level (expand (flags frozen (2 ^ level)) message))) ++ skipn (2 ^ level) codeword).
Proof.
  intros Hn Hf Hc Hm Fm. unfold polar_sysenc. replace (level <=? 30) with true by lia. cbn [require bind].
  destruct (expand_ok message frozen level codeword ltac:(lia) Hf Hc Hm) as (cw & E & I). rewrite E. cbn [bind].
  set (u := expand (flags frozen (2 ^ level)) message) in *.
  assert (length u = 2 ^ level) as Lu by (unfold u; rewrite length_expand, length_flags; reflexivity).
  assert (Forall pm1 u) as Fu by (apply pm1_expand; exact Fm).
  rewrite (stages_pm1 level u codeword cw) by (assumption || lia). cbn [bind].
  destruct (mask_ok frozen level (transform level u) _ (skipn (2 ^ level) codeword) ltac:(lia) Hf (length_transform _ _) eq_refl) as (cw2 & E2 & I2).
  rewrite E2. cbn [bind].
  assert (length (keep (flags frozen (2 ^ level)) (transform level u)) = 2 ^ level) as Lk.
  { rewrite length_keep; rewrite ?length_flags, ?length_transform; reflexivity. }
  rewrite (stages_pm1 level (keep (flags frozen (2 ^ level)) (transform level u)) (transform level u ++ skipn (2 ^ level) codeword) cw2); try lia.
  - rewrite skipn_app, length_transform, Nat.sub_diag, (skipn_all2 (transform level u)) by (rewrite length_transform; lia). reflexivity.
  - rewrite app_length, length_transform. lia.
  - apply pm1_keep, pm1_transform; assumption.
  - exact I2.
Qed.
Lemma transform_keep n fl u j : length fl = 2 ^ n -> length u = 2 ^ n -> Forall pm1 u -> domination_closed fl -> j < 2 ^ n -> nth j fl true = false ->
  nth j (transform n (keep fl (transform n u))) 0%Z = nth j u 1%Z.
Proof.
  intros Lf Lu Fu Hd Hj Ej.
  assert (transform n (transform n u) = u) as Inv by (rewrite <- (ptr_transform n u) by exact Lu; rewrite <- ptr_transform by (apply length_ptr; exact Lu); apply ptr_invol; assumption).
  rewrite nth_transform by exact Hj. transitivity (nth j (transform n (transform n u)) 0%Z); [|rewrite Inv; apply nth_indep; lia].
  rewrite nth_transform by exact Hj. unfold prodover. f_equal. apply map_ext_in. intros i Hi. apply filter_In in Hi. destruct Hi as [Hi Hl].
  apply in_seq in Hi. apply Nat.eqb_eq in Hl. rewrite nth_keep by (rewrite length_transform; lia).
  rewrite (Hd j i); auto; try lia. rewrite Nat.land_comm. exact Hl.
Qed.
