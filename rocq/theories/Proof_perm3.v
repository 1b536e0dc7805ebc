(** Proofs about rotate.hh. *)
From Coq Require Import ZifyBool ZifyNat ZifyN.
From Verif Require Import Cpp Lib_list Model_perm Spec_perm.

(** where lane n goes *)
Lemma target (W n : nat) (s : Z) : 0 < W -> n < W -> (- Z.of_nat W <= s < Z.of_nat W)%Z ->
  let s' := Z.to_nat (rot_shift W s) in
  (0 <= rot_shift W s < Z.of_nat W)%Z /\
  Z.to_nat ((Z.of_nat n + s) mod Z.of_nat W) = if n <? W - s' then n + s' else n + s' - W.
Proof.
  intros HW Hn Hs s'. unfold s', rot_shift. destruct (Z.ltb_spec s 0).
  - split; [lia|]. destruct (Nat.ltb_spec n (W - Z.to_nat (s + Z.of_nat W))).
    + rewrite <- (Z.mod_add _ 1) by lia. rewrite Z.mod_small by lia. lia.
    + rewrite Z.mod_small by lia. lia.
  - split; [lia|]. destruct (Nat.ltb_spec n (W - Z.to_nat s)).
    + rewrite Z.mod_small by lia. lia.
    + replace (Z.of_nat n + s)%Z with ((Z.of_nat n + s - Z.of_nat W) + 1 * Z.of_nat W)%Z by lia.
      rewrite Z.mod_add by lia. rewrite Z.mod_small by lia. lia.
Qed.

Lemma rotate_generic_ok {A} (SIZE W : nat) (a : list A) (s : Z) :
  0 < W -> W <= SIZE -> length a = SIZE -> (- Z.of_nat W <= s < Z.of_nat W)%Z ->
  exists ret, rotate_generic SIZE W a s = Ok ret /\ length ret = SIZE /\
    rotated W s a (fun l => nth l ret None).
Proof.
  intros HW HS Ha Hs. destruct a as [|d a'] eqn:Ea; [cbn in Ha; lia|]. rewrite <- Ea in *. clear Ea.
  unfold rotate_generic. cbv zeta.
  pose proof (target W 0 s HW HW Hs) as (Hr & _). set (r := rot_shift W s) in *.
  destruct (Z.leb_spec 0 r); [|lia]. destruct (Z.leb_spec r (Z.of_nat W)); [|lia]. cbn [require bind].
  set (s' := Z.to_nat r).
  edestruct (for_up_inv (fun i (ret : list (option A)) => length ret = SIZE /\
      forall x, x < i -> nth x ret None = nth_error a (x + (W - s')))) as (r1 & E1 & (L1 & H1)).
  4: rewrite E1; cbn [bind].
  { lia. }
  { intros j ret Hj (L & H1). rewrite (rd_nth a _ d) by lia. cbn [bind]. unfold wru. rewrite wr_Ok by lia.
    eexists. split; [reflexivity|]. rewrite length_upd. split; [exact L|].
    intros x Hx. rewrite nth_upd. destruct (Nat.eqb_spec j x) as [->|].
    - destruct (Nat.ltb_spec x (length ret)); [|lia]. cbn [andb]. symmetry. apply nth_error_nth'. lia.
    - cbn [andb]. apply H1. lia. }
  { split; [unfold uninit; apply repeat_length|intros; lia]. }
  edestruct (for_up_inv (fun i (ret : list (option A)) => length ret = SIZE /\
      (forall x, x < s' -> nth x ret None = nth_error a (x + (W - s'))) /\
      forall x, x < i -> nth (x + s') ret None = nth_error a x)) as (r2 & E2 & (L2 & H2 & H3)).
  4: rewrite E2.
  { lia. }
  { intros j ret Hj (L & H2 & H3). rewrite (rd_nth a _ d) by lia. cbn [bind]. unfold wru. rewrite wr_Ok by lia.
    eexists. split; [reflexivity|]. rewrite length_upd. split; [exact L|]. split.
    - intros x Hx. rewrite nth_upd. destruct (Nat.eqb_spec (j + s') x); [lia|]. apply H2. exact Hx.
    - intros x Hx. rewrite nth_upd. destruct (Nat.eqb_spec (j + s') (x + s')).
      + destruct (Nat.ltb_spec (j + s') (length ret)); [|lia]. cbn [andb]. replace x with j by lia.
        symmetry. apply nth_error_nth'. lia.
      + cbn [andb]. apply H3. lia. }
  { split; [exact L1|]. split; [exact H1|intros; lia]. }
  exists r2. split; [reflexivity|]. split; [exact L2|].
  intros n Hn. destruct (target W n s HW Hn Hs) as (_ & T). rewrite T. fold r. fold s'.
  destruct (Nat.ltb_spec n (W - s')).
  - apply H3. lia.
  - rewrite H2 by lia. f_equal. lia.
Qed.

(** ** Table versions *)
Lemma rot16_ok W : W <= 16 -> exists rot, rot16_ctor W = Ok rot /\
  forall i, i < W -> exists v, nth i rot None = Some v /\ length v = 16 /\
    forall j, nth j v 128%N = if j <? W then N.of_nat ((j + W - i) mod W) else 128%N.
Proof.
  intros HW. unfold rot16_ctor.
  edestruct (for_up_inv (fun k (rot : list (option (list N))) => length rot = W /\
     forall i, i < k -> exists v, nth i rot None = Some v /\ length v = 16 /\
       forall j, nth j v 128%N = if j <? W then N.of_nat ((j + W - i) mod W) else 128%N)) as (rot & E & (_ & H)).
  4: { exists rot. split; [exact E|]. intros i Hi. apply H. exact Hi. }
  - lia.
  - intros i rot Hi (L & H).
    edestruct (for_up_inv (fun k (v : list N) => length v = 16 /\
       forall j, nth j v 128%N = if j <? k then N.of_nat ((j + W - i) mod W) else 128%N)) as (v & E1 & (L1 & H1)).
    4: { rewrite E1. cbn [bind]. unfold wru. rewrite wr_Ok by lia. eexists. split; [reflexivity|].
         rewrite length_upd. split; [exact L|]. intros i' Hi'. rewrite nth_upd.
         destruct (Nat.eqb_spec i i') as [->|].
         - destruct (Nat.ltb_spec i' (length rot)); [|lia]. cbn [andb]. exists v. auto.
         - cbn [andb]. apply H. lia. }
    + lia.
    + intros j v Hj (L1 & H1). rewrite wr_Ok by lia. eexists. split; [reflexivity|]. rewrite length_upd. split; [exact L1|].
      intros x. rewrite nth_upd. destruct (Nat.eqb_spec j x) as [->|].
      * destruct (Nat.ltb_spec x (length v)); [|lia]. destruct (Nat.ltb_spec x (S x)); [reflexivity|lia].
      * cbn [andb]. rewrite H1. destruct (Nat.ltb_spec x j), (Nat.ltb_spec x (S j)); try lia; reflexivity.
    + split; [apply repeat_length|]. intros j. destruct (Nat.ltb_spec j 0); [lia|].
      destruct (Nat.lt_ge_cases j 16); [apply nth_repeat|apply nth_overflow; rewrite repeat_length; lia].
  - split; [unfold uninit; apply repeat_length|intros; lia].
Qed.

Lemma rot_table_ok {A} (tab : list (option A)) s v : (0 <= s)%Z -> nth (Z.to_nat s) tab None = Some v -> rot_table tab s = Ok v.
Proof. intros Hs H. unfold rot_table. destruct (Z.ltb_spec s 0); [lia|]. apply rdu_nth. exact H. Qed.

Lemma nth_error_map' {A B} (f : A -> B) l i : nth_error (map f l) i = option_map f (nth_error l i).
Proof. revert l; induction i; intros [|x l]; cbn; auto. Qed.

(** the entry that ends in the target lane selects the source lane *)
Lemma target_src W n r : 0 < W -> n < W -> r < W ->
  let t := if n <? W - r then n + r else n + r - W in t < W /\ (t + W - r) mod W = n.
Proof.
  intros HW Hn Hr t. unfold t. destruct (Nat.ltb_spec n (W - r)).
  - split; [lia|]. replace (n + r + W - r) with (n + 1 * W) by lia. rewrite Nat.mod_add by lia. apply Nat.mod_small. lia.
  - split; [lia|]. replace (n + r - W + W - r) with n by lia. apply Nat.mod_small. lia.
Qed.

Lemma table16 (sel : list N -> N -> N) (a : list N) W s :
  (forall k, (k < 16)%N -> sel a k = nth (N.to_nat k) a 0%N) -> sel a 128%N = 0%N ->
  length a = 16 -> 0 < W -> W <= 16 -> (- Z.of_nat W <= s < Z.of_nat W)%Z ->
  exists b, (rot <- rot16_ctor W ;; idx <- rot_table rot (rot_shift W s) ;; Ok (map (sel a) idx)) = Ok b /\
    table_rotation 16 W s a b.
Proof.
  intros S1 S2 Ha HW HW16 Hs. destruct (rot16_ok W HW16) as (rot & E & H). rewrite E. cbn [bind].
  pose proof (target W 0 s HW HW Hs) as (Hr & _).
  destruct (H (Z.to_nat (rot_shift W s)) ltac:(lia)) as (v & Ev & Lv & Hv).
  rewrite (rot_table_ok rot _ v) by (exact Ev || lia). cbn [bind]. eexists. split; [reflexivity|].
  assert (NV : forall j, j < 16 -> nth_error v j = Some (nth j v 128%N)) by (intros j Hj; apply nth_error_nth'; lia).
  split; [rewrite map_length; exact Lv|]. split.
  - intros n Hn. destruct (target W n s HW Hn Hs) as (_ & T). rewrite T.
    set (r := Z.to_nat (rot_shift W s)) in *.
    destruct (target_src W n r HW Hn ltac:(lia)) as (T1 & T2).
    set (t := if n <? W - r then n + r else n + r - W) in *.
    rewrite nth_error_map', NV by lia. cbn [option_map]. rewrite Hv.
    destruct (Nat.ltb_spec t W); [|lia]. rewrite T2, S1 by lia. rewrite Nat2N.id. symmetry. apply nth_error_nth'. lia.
  - intros l Hl. rewrite nth_error_map', NV by lia. cbn [option_map]. rewrite Hv.
    destruct (Nat.ltb_spec l W); [lia|]. rewrite S2. reflexivity.
Qed.

Lemma rotate_neon_ok W a s : length a = 16 -> 0 < W -> W <= 16 -> (- Z.of_nat W <= s < Z.of_nat W)%Z ->
  exists b, rotate_neon W a s = Ok b /\ table_rotation 16 W s a b.
Proof.
  intros. apply (table16 (fun a k => if (k <? 16)%N then nth (N.to_nat k) a 0%N else 0%N)); auto.
  intros k Hk. destruct (N.ltb_spec k 16); [reflexivity|lia].
Qed.
Lemma rotate_sse_ok W a s : length a = 16 -> 0 < W -> W <= 16 -> (- Z.of_nat W <= s < Z.of_nat W)%Z ->
  exists b, rotate_sse W a s = Ok b /\ table_rotation 16 W s a b.
Proof.
  intros. apply (table16 (fun a k => if N.testbit k 7 then 0%N else nth (N.to_nat (k mod 16)) a 0%N)); auto.
  intros k Hk. rewrite (testbit_high 4) by (exact Hk || lia). rewrite N.mod_small by exact Hk. reflexivity.
Qed.

(** AVX2: entries of the two tables *)
Definition e0 (W i j : nat) : N :=
  let pos := (j + W - i) mod W in
  if j <? W then
    if j <? 16 then (if pos <? 16 then N.of_nat pos else 128%N)
    else (if pos <? 16 then 128%N else N.of_nat (pos - 16))
  else 128%N.
Definition e1 (W i j : nat) : N :=   (* entry of rot1 that is moved to lane j by the half swap *)
  let pos := (j + W - i) mod W in
  if j <? W then
    if j <? 16 then (if pos <? 16 then 128%N else N.of_nat (pos - 16))
    else (if pos <? 16 then N.of_nat pos else 128%N)
  else 128%N.
Definition xhalf (j : nat) : nat := if j <? 16 then j + 16 else j - 16.

Lemma rot32_ok W : W <= 32 -> exists r0 r1, rot32_ctor W = Ok (r0, r1) /\
  forall i, i < W -> exists v0 v1, nth i r0 None = Some v0 /\ nth i r1 None = Some v1 /\
    length v0 = 32 /\ length v1 = 32 /\
    forall j, j < 32 -> nth j v0 128%N = e0 W i j /\ nth (xhalf j) v1 128%N = e1 W i j.
Proof.
  intros HW. unfold rot32_ctor.
  edestruct (for_up_inv (fun k '(r0, r1) => length r0 = W /\ length r1 = W /\
    forall i, i < k -> exists v0 v1, nth i r0 None = Some v0 /\ nth i r1 None = Some v1 /\
      length v0 = 32 /\ length v1 = 32 /\
      forall j, j < 32 -> nth j v0 128%N = e0 W i j /\ nth (xhalf j) v1 128%N = e1 W i j)) as ((r0 & r1) & E & (_ & _ & H)).
  4: { exists r0, r1. split; [exact E|exact H]. }
  - lia.
  - intros i (r0 & r1) Hi (L0 & L1 & H).
    edestruct (for_up_inv (fun k '(v0, v1) => length v0 = 32 /\ length v1 = 32 /\
      forall j, j < 32 -> nth j v0 128%N = (if j <? k then e0 W i j else 128%N) /\
                          nth (xhalf j) v1 128%N = (if j <? k then e1 W i j else 128%N))) as ((v0 & v1) & E1 & (M0 & M1 & H1)).
    4: { rewrite E1. cbn [bind]. unfold wru. rewrite wr_Ok by lia. cbn [bind]. rewrite wr_Ok by lia. cbn [bind].
         eexists. split; [reflexivity|]. cbv beta iota. rewrite !length_upd. split; [exact L0|]. split; [exact L1|].
         intros i' Hi'. rewrite !nth_upd. destruct (Nat.eqb_spec i i') as [->|].
         - destruct (Nat.ltb_spec i' (length r0)); [|lia]. destruct (Nat.ltb_spec i' (length r1)); [|lia]. cbn [andb].
           exists v0, v1. repeat split; auto.
           + destruct (H1 j) as (A & _); [assumption|]. rewrite A. destruct (Nat.ltb_spec j W); [reflexivity|].
             unfold e0. destruct (Nat.ltb_spec j W); [lia|reflexivity].
           + destruct (H1 j) as (_ & A); [assumption|]. rewrite A. destruct (Nat.ltb_spec j W); [reflexivity|].
             unfold e1. destruct (Nat.ltb_spec j W); [lia|reflexivity].
         - cbn [andb]. apply H. lia. }
    + lia.
    + intros j (v0 & v1) Hj (M0 & M1 & H1). cbv zeta.
      assert (KEEP : forall x, x < 32 -> x <> j ->
        nth x v0 128%N = (if x <? S j then e0 W i x else 128%N) /\ nth (xhalf x) v1 128%N = (if x <? S j then e1 W i x else 128%N)).
      { intros x Hx Nx. destruct (H1 x Hx) as (A & B). rewrite A, B.
        destruct (Nat.ltb_spec x j), (Nat.ltb_spec x (S j)); try lia; auto. }
      assert (OLD : nth j v0 128%N = 128%N /\ nth (xhalf j) v1 128%N = 128%N).
      { destruct (H1 j ltac:(lia)) as (A & B). rewrite A, B. destruct (Nat.ltb_spec j j); [lia|auto]. }
      assert (E0 : e0 W i j = let pos := (j + W - i) mod W in
          if j <? 16 then (if pos <? 16 then N.of_nat pos else 128%N) else (if pos <? 16 then 128%N else N.of_nat (pos - 16))).
      { unfold e0. destruct (Nat.ltb_spec j W); [reflexivity|lia]. }
      assert (E1 : e1 W i j = let pos := (j + W - i) mod W in
          if j <? 16 then (if pos <? 16 then 128%N else N.of_nat (pos - 16)) else (if pos <? 16 then N.of_nat pos else 128%N)).
      { unfold e1. destruct (Nat.ltb_spec j W); [reflexivity|lia]. }
      cbv zeta in E0, E1. set (pos := (j + W - i) mod W) in *.
      assert (XH : forall x, x < 32 -> xhalf x < 32 /\ (xhalf x = xhalf j -> x = j)).
      { intros x Hx. unfold xhalf. destruct (Nat.ltb_spec x 16), (Nat.ltb_spec j 16); lia. }
      assert (FIN0 : forall u, (forall x, nth x (upd v0 j u) 128%N = if j =? x then u else nth x v0 128%N)).
      { intros u x. rewrite nth_upd. destruct (Nat.ltb_spec j (length v0)); [|lia]. rewrite andb_true_r. reflexivity. }
      assert (FIN1 : forall u, (forall x, nth x (upd v1 (xhalf j) u) 128%N = if xhalf j =? x then u else nth x v1 128%N)).
      { intros u x. rewrite nth_upd. destruct (XH j ltac:(lia)). destruct (Nat.ltb_spec (xhalf j) (length v1)); [|lia]. rewrite andb_true_r. reflexivity. }
      assert (C0 : forall u, u = e0 W i j -> e1 W i j = 128%N ->
         length (upd v0 j u) = 32 /\ length v1 = 32 /\
         forall x, x < 32 -> nth x (upd v0 j u) 128%N = (if x <? S j then e0 W i x else 128%N) /\
                             nth (xhalf x) v1 128%N = (if x <? S j then e1 W i x else 128%N)).
      { intros u Hu He. rewrite length_upd. split; [exact M0|]. split; [exact M1|]. intros x Hx. rewrite FIN0.
        destruct (Nat.eqb_spec j x) as [<-|]; [|apply KEEP; lia].
        destruct (Nat.ltb_spec j (S j)); [|lia]. rewrite He. destruct OLD. auto. }
      assert (C1 : forall u, u = e1 W i j -> e0 W i j = 128%N ->
         length v0 = 32 /\ length (upd v1 (xhalf j) u) = 32 /\
         forall x, x < 32 -> nth x v0 128%N = (if x <? S j then e0 W i x else 128%N) /\
                             nth (xhalf x) (upd v1 (xhalf j) u) 128%N = (if x <? S j then e1 W i x else 128%N)).
      { intros u Hu He. rewrite length_upd. split; [exact M0|]. split; [exact M1|]. intros x Hx. rewrite FIN1.
        destruct (Nat.eq_dec x j) as [->|Nx].
        - rewrite Nat.eqb_refl. destruct (Nat.ltb_spec j (S j)); [|lia]. rewrite He. destruct OLD. auto.
        - destruct (Nat.eqb_spec (xhalf j) (xhalf x)) as [X|]; [exfalso; apply Nx, (proj2 (XH x Hx)); auto|].
          apply KEEP; assumption. }
      assert (XJ : xhalf j = if j <? 16 then j + 16 else j - 16) by reflexivity.
      destruct (j <? 16) eqn:J, (pos <? 16) eqn:P.
      * rewrite wr_Ok by lia. cbn [bind]. eexists. split; [reflexivity|]. apply C0; congruence.
      * rewrite <- XJ, wr_Ok by (rewrite M1; apply XH; lia). cbn [bind]. eexists. split; [reflexivity|]. apply C1; congruence.
      * rewrite <- XJ, wr_Ok by (rewrite M1; apply XH; lia). cbn [bind]. eexists. split; [reflexivity|]. apply C1; congruence.
      * rewrite wr_Ok by lia. cbn [bind]. eexists. split; [reflexivity|]. apply C0; congruence.
    + split; [apply repeat_length|]. split; [apply repeat_length|]. intros j Hj.
      rewrite !nth_repeat. auto.
  - split; [unfold uninit; apply repeat_length|]. split; [unfold uninit; apply repeat_length|intros; lia].
Qed.

Definition sel8 (a : list N) (k : N) : N := if N.testbit k 7 then 0%N else nth (N.to_nat (k mod 16)) a 0%N.
Lemma sel8_128 a : sel8 a 128 = 0%N. Proof. reflexivity. Qed.
Lemma sel8_lt a p : p < 16 -> sel8 a (N.of_nat p) = nth p a 0%N.
Proof.
  intros H. unfold sel8. rewrite (testbit_high 4) by lia. rewrite N.mod_small by lia. rewrite Nat2N.id. reflexivity.
Qed.

Lemma nth_error_shuffle256 a idx j : length a = 32 -> length idx = 32 -> j < 32 ->
  nth_error (shuffle256_epi8 a idx) j =
  Some (sel8 (if j <? 16 then firstn 16 a else skipn 16 a) (nth j idx 128%N)).
Proof.
  intros Ha Hi Hj. unfold shuffle256_epi8, shuffle_epi8.
  assert (L : length (map (fun k => if N.testbit k 7 then 0%N else nth (N.to_nat (k mod 16)) (firstn 16 a) 0%N) (firstn 16 idx)) = 16).
  { rewrite map_length, firstn_length. lia. }
  destruct (Nat.ltb_spec j 16).
  - rewrite nth_error_app1 by lia. rewrite nth_error_map', nth_error_firstn'.
    destruct (Nat.ltb_spec j 16); [|lia]. rewrite (nth_error_nth' idx 128%N) by lia. reflexivity.
  - rewrite nth_error_app2 by lia. rewrite L, nth_error_map', nth_error_skipn'.
    replace (16 + (j - 16)) with j by lia. rewrite (nth_error_nth' idx 128%N) by lia. reflexivity.
Qed.
Lemma length_shuffle256 a idx : length idx = 32 -> length (shuffle256_epi8 a idx) = 32.
Proof. intros H. unfold shuffle256_epi8, shuffle_epi8. rewrite app_length, !map_length, firstn_length, skipn_length. lia. Qed.
Lemma nth_error_swap_halves c j : length c = 32 -> j < 32 -> nth_error (swap_halves c) j = nth_error c (xhalf j).
Proof.
  intros Hc Hj. unfold swap_halves, xhalf. assert (L : length (skipn 16 c) = 16) by (rewrite skipn_length; lia).
  destruct (Nat.ltb_spec j 16).
  - rewrite nth_error_app1 by lia. rewrite nth_error_skipn'. f_equal. lia.
  - rewrite nth_error_app2 by lia. rewrite L, nth_error_firstn'. destruct (Nat.ltb_spec (j - 16) 16); [reflexivity|lia].
Qed.
Lemma nth_error_or_lanes a b j x y : nth_error a j = Some x -> nth_error b j = Some y -> nth_error (or_lanes a b) j = Some (N.lor x y).
Proof.
  unfold or_lanes. revert b j. induction a as [|u a IH]; intros [|v b] [|j]; cbn; try discriminate.
  - intros H1 H2. injection H1 as ->. injection H2 as ->. reflexivity.
  - apply IH.
Qed.

Lemma rotate_avx2_ok W a s : length a = 32 -> 0 < W -> W <= 32 -> (- Z.of_nat W <= s < Z.of_nat W)%Z ->
  exists b, rotate_avx2 W a s = Ok b /\ table_rotation 32 W s a b.
Proof.
  intros Ha HW HW32 Hs. unfold rotate_avx2. destruct (rot32_ok W HW32) as (r0 & r1 & E & H). rewrite E. cbn [bind].
  pose proof (target W 0 s HW HW Hs) as (Hr & _).
  destruct (H (Z.to_nat (rot_shift W s)) ltac:(lia)) as (v0 & v1 & E0 & E1 & L0 & L1 & Hv).
  rewrite (rot_table_ok r0 _ v0) by (exact E0 || lia). cbn [bind].
  rewrite (rot_table_ok r1 _ v1) by (exact E1 || lia). cbn [bind]. cbv zeta.
  eexists. split; [reflexivity|].
  set (r := Z.to_nat (rot_shift W s)) in *.
  assert (LANE : forall j, j < 32 -> nth_error (or_lanes (shuffle256_epi8 a v0) (swap_halves (shuffle256_epi8 a v1))) j =
     Some (N.lor (sel8 (if j <? 16 then firstn 16 a else skipn 16 a) (e0 W r j))
                 (sel8 (if j <? 16 then skipn 16 a else firstn 16 a) (e1 W r j)))).
  { intros j Hj. destruct (Hv j Hj) as (A0 & A1).
    apply nth_error_or_lanes.
    - rewrite nth_error_shuffle256 by assumption. rewrite A0. reflexivity.
    - rewrite nth_error_swap_halves by (try apply length_shuffle256; assumption).
      assert (xhalf j < 32) by (unfold xhalf; destruct (Nat.ltb_spec j 16); lia).
      rewrite nth_error_shuffle256 by assumption. rewrite A1.
      unfold xhalf. destruct (Nat.ltb_spec j 16).
      + destruct (Nat.ltb_spec (j + 16) 16); [lia|reflexivity].
      + destruct (Nat.ltb_spec (j - 16) 16); [reflexivity|lia]. }
  split; [|split].
  - unfold or_lanes. rewrite map_length, combine_length, length_shuffle256 by assumption.
    unfold swap_halves. rewrite app_length, firstn_length, skipn_length, length_shuffle256 by assumption. reflexivity.
  - intros n Hn. destruct (target W n s HW Hn Hs) as (_ & T). rewrite T. fold r.
    destruct (target_src W n r HW Hn ltac:(lia)) as (T1 & T2).
    set (t := if n <? W - r then n + r else n + r - W) in *.
    rewrite LANE by lia. unfold e0, e1. rewrite T2. destruct (Nat.ltb_spec t W); [|lia].
    rewrite (nth_error_nth' a 0%N) by lia. f_equal.
    assert (F : n < 16 -> nth n (firstn 16 a) 0%N = nth n a 0%N).
    { intros Hn16. rewrite <- (firstn_skipn 16 a) at 2. rewrite app_nth1 by (rewrite firstn_length; lia). reflexivity. }
    assert (G : 16 <= n -> nth (n - 16) (skipn 16 a) 0%N = nth n a 0%N).
    { intros Hn16. rewrite <- (firstn_skipn 16 a) at 2.
      rewrite app_nth2 by (rewrite firstn_length; lia). rewrite firstn_length. f_equal. lia. }
    destruct (Nat.ltb_spec t 16), (Nat.ltb_spec n 16); rewrite sel8_128, sel8_lt, ?N.lor_0_l, ?N.lor_0_r by lia; auto.
  - intros l Hl. rewrite LANE by lia. unfold e0, e1. destruct (Nat.ltb_spec l W); [lia|]. rewrite !sel8_128. reflexivity.
Qed.

(** negating the shift undoes the rotation *)
Lemma rotated_undo {A} W s (a : list A) (b : list A) lane : 0 < W -> W <= length a -> length b = length a ->
  rotated W s a (fun l => nth_error b l) -> rotated W (- s) b lane ->
  forall n, n < W -> lane n = nth_error a n.
Proof.
  intros HW Hl Hb R1 R2 n Hn.
  set (m := Z.to_nat ((Z.of_nat n + s) mod Z.of_nat W)).
  assert (Hm : m < W) by (unfold m; pose proof (Z.mod_pos_bound (Z.of_nat n + s) (Z.of_nat W) ltac:(lia)); lia).
  pose proof (R1 n Hn) as A1. cbv beta in A1. fold m in A1. pose proof (R2 m Hm) as A2. rewrite <- A1, <- A2. f_equal.
  unfold m. rewrite Z2Nat.id by (apply Z.mod_pos_bound; lia).
  rewrite Zplus_mod_idemp_l. replace (Z.of_nat n + s + - s)%Z with (Z.of_nat n) by lia.
  rewrite Z.mod_small by lia. lia.
Qed.
