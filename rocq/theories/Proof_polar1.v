(** Polar transform: the in-place stages, their recursive and closed forms. *)
From Coq Require Import ZifyBool.
From Verif Require Import Cpp Model_simd Model_polar Spec_polar Lib_list Lib_wht Proof_bits.
Local Open Scope nat_scope.
Ltac Zify.zify_post_hook ::= idtac.

Section Stages.
Context {A : Type} (P : polar_ops A) (d : A).
Notation mul := (p_mul P).

(** [s] stages applied to [u] *)
Fixpoint blk (s : nat) (u : nat -> A) : nat -> A :=
  match s with
  | O => u
  | S s => fun j => if Nat.even (j / 2 ^ s) then mul (blk s u j) (blk s u (j + 2 ^ s)) else blk s u j
  end.
Lemma blk_ext s : forall u v n k j, (forall i, i < n * 2 ^ s -> u i = v i) -> s <= k -> k <= s -> j < n * 2 ^ s -> blk s u j = blk s v j.
Proof.
  induction s as [|s IH]; intros u v n k j H H1 H2 Hj; cbn [blk]; [apply H; exact Hj|].
  cbn [Nat.pow] in H, Hj. pose proof (pow2_pos s) as Hp.
  assert (forall i, i < (n * 2) * 2 ^ s -> u i = v i) as H' by (intros i Hi; apply H; lia).
  destruct (Nat.even (j / 2 ^ s)) eqn:E.
  - rewrite (IH u v (n * 2) s j H') by lia. f_equal. apply (IH u v (n * 2) s _ H'); try lia.
    apply Nat.even_spec in E. destruct E as [q E].
    pose proof (Nat.div_mod j (2 ^ s) ltac:(lia)) as D. pose proof (Nat.mod_upper_bound j (2 ^ s) ltac:(lia)) as U.
    rewrite E in D. assert (2 * q < n * 2) by nia. nia.
  - apply (IH u v (n * 2) s j H'); lia.
Qed.

(** elements [off .. off + n) of [out] are [v], the others those of [out0] *)
Definition shows (off n : nat) (v : nat -> A) (out0 out : list A) : Prop :=
  length out = length out0 /\
  forall x, nth x out d = if (off <=? x) && (x <? off + n) then v (x - off) else nth x out0 d.
Lemma shows_ext off n v w out0 out : shows off n v out0 out -> (forall j, j < n -> v j = w j) -> shows off n w out0 out.
Proof.
  intros (L & H) E. split; [exact L|]. intros x. rewrite H. destruct ((off <=? x) && (x <? off + n)) eqn:C; [|reflexivity]. apply E. lia.
Qed.
Lemma shows_rd off n v out0 out j : shows off n v out0 out -> off + n <= length out0 -> j < n -> rd out (off + j) = Ok (v j).
Proof.
  intros (L & H) Hn Hj. rewrite (rd_nth _ _ d) by lia. rewrite H. replace ((off <=? off + j) && (off + j <? off + n)) with true by lia.
  do 2 f_equal. lia.
Qed.
Lemma shows_wr off n v out0 out j x : shows off n v out0 out -> off + n <= length out0 -> j < n ->
  exists out', wr out (off + j) x = Ok out' /\ shows off n (fun i => if i =? j then x else v i) out0 out'.
Proof.
  intros (L & H) Hn Hj. rewrite wr_Ok by lia. eexists. split; [reflexivity|]. split; [rewrite length_upd; exact L|].
  intros y. rewrite nth_upd, H. destruct (Nat.eqb_spec (off + j) y) as [<-|Hne].
  - replace (off + j <? length out) with true by lia. cbn [andb]. replace ((off <=? off + j) && (off + j <? off + n)) with true by lia.
    replace (off + j - off =? j) with true by lia. reflexivity.
  - cbn [andb]. destruct ((off <=? y) && (y <? off + n)) eqn:C; [|reflexivity]. replace (y - off =? j) with false by lia. reflexivity.
Qed.

Lemma even_block k r h : r < h -> Nat.even ((k * (2 * h) + r) / h) = true.
Proof.
  intros H. replace (k * (2 * h) + r) with (r + (2 * k) * h) by lia. rewrite Nat.div_add by lia. rewrite Nat.div_small by lia.
  apply Nat.even_spec. exists k. lia.
Qed.
Lemma odd_block k r h : h <= r < 2 * h -> Nat.even ((k * (2 * h) + r) / h) = false.
Proof.
  intros H. replace (k * (2 * h) + r) with ((r - h) + (2 * k + 1) * h) by lia. rewrite Nat.div_add by lia. rewrite Nat.div_small by lia.
  replace (0 + (2 * k + 1)) with (S (2 * k)) by lia. rewrite Nat.even_succ. rewrite <- Nat.negb_even. rewrite Nat.even_mul. reflexivity.
Qed.

Lemma stage_step off n s u out0 out : s < n -> off + 2 ^ n <= length out0 -> shows off (2 ^ n) (blk s u) out0 out ->
  exists out', for_step 0 (2 ^ n) (2 * 2 ^ s) (fun i out => for_up i (i + 2 ^ s) (fun j out =>
           a <- rd out (off + j) ;;
           b <- rd out (off + (j + 2 ^ s)) ;;
           wr out (off + j) (mul a b)) out) out = Ok out' /\ shows off (2 ^ n) (blk (S s) u) out0 out'.
Proof.
  intros Hs Hl H. set (h := 2 ^ s) in *. pose proof (pow2_pos s) as Hp. fold h in Hp.
  assert (2 ^ n = 2 ^ (n - S s) * (2 * h)) as EN.
  { unfold h. change (2 * 2 ^ s) with (2 ^ S s). rewrite <- Nat.pow_add_r. f_equal. lia. }
  match goal with |- exists out', for_step 0 _ ?st ?f out = Ok out' /\ ?Q out' =>
    cut (exists out', for_step 0 (2 ^ (n - S s) * (2 * h)) st f out = Ok out' /\ shows off (2 ^ n) (blk (S s) u) out0 out'); [rewrite <- EN; auto|] end.
  edestruct (for_step_inv (fun k o => shows off (2 ^ n) (fun j => if j <? k * (2 * h) then blk (S s) u j else blk s u j) out0 o)) as (o & E & I).
  4: { exists o. split; [exact E|]. eapply shows_ext; [exact I|]. intros j Hj. cbv beta. rewrite <- EN. replace (j <? 2 ^ n) with true by lia. reflexivity. }
  - lia.
  - intros k o Hk I. cbv beta. set (i := k * (2 * h)) in *. assert (i + 2 * h <= 2 ^ n) as Hi by (rewrite EN; unfold i; nia).
    edestruct (for_up_inv (fun j' o => shows off (2 ^ n) (fun j => if j <? j' then blk (S s) u j else blk s u j) out0 o)) as (o' & E' & I').
    4: { exists o'. split; [exact E'|]. eapply shows_ext; [exact I'|]. intros j Hj. cbv beta.
         destruct (Nat.ltb_spec j (i + h)) as [J|J].
         - replace (j <? S k * (2 * h)) with true by (unfold i in *; lia). reflexivity.
         - destruct (Nat.ltb_spec j (S k * (2 * h))) as [J2|J2]; [|reflexivity]. cbn [blk]. fold h.
           replace j with (k * (2 * h) + (j - i)) by (unfold i in *; lia). rewrite odd_block by (unfold i in *; lia). reflexivity. }
    + lia.
    + intros j o1 Hj I1. cbv beta. rewrite (shows_rd _ _ _ _ _ j I1) by lia. cbn [bind]. rewrite (shows_rd _ _ _ _ _ (j + h) I1) by lia. cbn [bind].
      replace (j <? j) with false by lia. replace (j + h <? j) with false by lia.
      destruct (shows_wr _ _ _ _ _ j (mul (blk s u j) (blk s u (j + h))) I1 Hl ltac:(lia)) as (o2 & E2 & I2). rewrite E2.
      exists o2. split; [reflexivity|]. eapply shows_ext; [exact I2|]. intros x Hx. cbv beta.
      destruct (Nat.eqb_spec x j) as [->|Hne].
      * replace (j <? S j) with true by lia. cbn [blk]. fold h. replace j with (k * (2 * h) + (j - i)) by (unfold i in *; lia).
        rewrite even_block by (unfold i in *; lia). reflexivity.
      * replace (x <? S j) with (x <? j) by lia. reflexivity.
    + exact I.
  - eapply shows_ext; [exact H|]. intros j Hj. replace (j <? 0 * (2 * h)) with false by lia. reflexivity.
Qed.

Lemma stages_ok off n u out0 out : 1 <= n -> off + 2 ^ n <= length out0 -> shows off (2 ^ n) (blk 1 u) out0 out ->
  exists out', polar_stages P off (2 ^ n) out = Ok out' /\ shows off (2 ^ n) (blk n u) out0 out'.
Proof.
  intros Hn Hl H. unfold polar_stages.
  edestruct (while_inv (fun '((h, o) : nat * list A) => exists s, 1 <= s <= n /\ h = 2 ^ s /\ shows off (2 ^ n) (blk s u) out0 o)
    (fun '(h, o) => 2 ^ n - h)) as ([h o] & E & (s & Hs & Eh & I) & C).
  4: { rewrite E. cbn [bind]. exists o. split; [reflexivity|]. cbv beta iota in C. injection C as C. apply Nat.ltb_ge in C.
       assert (s = n). { destruct (Nat.eq_dec s n); [assumption|]. assert (2 ^ s < 2 ^ n) by (apply Nat.pow_lt_mono_r; lia). lia. } subst s. exact I. }
  - intros [h o] (s & Hs & -> & I). eexists. split; [reflexivity|]. intros C. apply Nat.ltb_lt in C.
    assert (s < n). { destruct (Nat.eq_dec s n); [subst; lia|lia]. }
    destruct (stage_step off n s u out0 o ltac:(lia) Hl I) as (o' & E & I'). rewrite E. cbn [bind]. eexists. split; [reflexivity|].
    split.
    + exists (S s). split; [lia|]. split; [cbn [Nat.pow]; lia|exact I'].
    + pose proof (pow2_pos s). lia.
  - exists 1. split; [lia|]. split; [reflexivity|exact H].
  - cbv beta iota. lia.
Qed.
End Stages.

(** ** the transform over the integers *)
Local Open Scope Z_scope.
Fixpoint zblk (s : nat) (u : nat -> Z) : nat -> Z :=
  match s with
  | O => u
  | S s => fun j => if Nat.even (j / 2 ^ s) then zblk s u j * zblk s u (j + 2 ^ s)%nat else zblk s u j
  end.
(** recursive form on lists *)
Fixpoint ptr (n : nat) (u : list Z) : list Z :=
  match n with
  | O => u
  | S m => let h := (2 ^ m)%nat in let a := ptr m (firstn h u) in let b := ptr m (skipn h u) in zip2 Z.mul a b ++ b
  end.
Lemma length_zip2 {X} (f : X -> X -> X) a : forall b, length (zip2 f a b) = Nat.min (length a) (length b).
Proof. induction a as [|x a IH]; intros [|y b]; cbn [zip2 length]; auto. rewrite IH. reflexivity. Qed.
Lemma nth_zip2 {X} (f : X -> X -> X) a : forall b i da db dd, (i < length a)%nat -> (i < length b)%nat -> nth i (zip2 f a b) dd = f (nth i a da) (nth i b db).
Proof.
  induction a as [|x a IH]; intros [|y b] i da db dd Ha Hb; cbn [length] in *; try lia.
  destruct i as [|i]; cbn [zip2 nth]; [reflexivity|]. apply IH; lia.
Qed.
Lemma length_zip3 {X} (f : X -> X -> X -> X) a : forall b c, length (zip3 f a b c) = Nat.min (length a) (Nat.min (length b) (length c)).
Proof. induction a as [|x a IH]; intros [|y b] [|z c]; cbn [zip3 length]; auto. rewrite IH. reflexivity. Qed.
Lemma nth_zip3 {X} (f : X -> X -> X -> X) a : forall b c i da db dc dd, (i < length a)%nat -> (i < length b)%nat -> (i < length c)%nat ->
  nth i (zip3 f a b c) dd = f (nth i a da) (nth i b db) (nth i c dc).
Proof.
  induction a as [|x a IH]; intros [|y b] [|z c] i da db dc dd Ha Hb Hc; cbn [length] in *; try lia.
  destruct i as [|i]; cbn [zip3 nth]; [reflexivity|]. apply IH; lia.
Qed.
Lemma length_ptr n : forall u, length u = (2 ^ n)%nat -> length (ptr n u) = (2 ^ n)%nat.
Proof.
  induction n as [|n IH]; intros u L; cbn [ptr]; [exact L|]. cbn [Nat.pow] in *.
  rewrite app_length, length_zip2, !IH by (rewrite ?firstn_length, ?skipn_length; lia). lia.
Qed.

Lemma zblk_shift s : forall u k j, zblk s u (k * 2 ^ s + j) = zblk s (fun i => u (k * 2 ^ s + i)%nat) j.
Proof.
  induction s as [|s IH]; intros u k j; cbn [zblk Nat.pow]; [reflexivity|]. pose proof (pow2_pos s).
  assert (((k * (2 * 2 ^ s) + j) / 2 ^ s = 2 * k + j / 2 ^ s)%nat) as ->.
  { replace (k * (2 * 2 ^ s) + j)%nat with (j + (2 * k) * 2 ^ s)%nat by lia. rewrite Nat.div_add by lia. lia. }
  rewrite Nat.even_add, Nat.even_mul. change (Nat.even 2) with true. cbn [orb].
  assert (forall j, zblk s u (k * (2 * 2 ^ s) + j) = zblk s (fun i => u (k * (2 * 2 ^ s) + i)%nat) j) as IH'.
  { intros j'. replace (k * (2 * 2 ^ s))%nat with ((k * 2) * 2 ^ s)%nat by lia. apply IH. }
  rewrite <- Nat.add_assoc, !IH'. destruct (Nat.even (j / 2 ^ s)); reflexivity.
Qed.
Lemma zblk_ext s : forall u v n j, (forall i, (i < n * 2 ^ s)%nat -> u i = v i) -> (j < n * 2 ^ s)%nat -> zblk s u j = zblk s v j.
Proof.
  induction s as [|s IH]; intros u v n j H Hj; cbn [zblk]; [apply H; exact Hj|].
  cbn [Nat.pow] in H, Hj. pose proof (pow2_pos s) as Hp.
  assert (forall i, (i < (n * 2) * 2 ^ s)%nat -> u i = v i) as H' by (intros i Hi; apply H; lia).
  destruct (Nat.even (j / 2 ^ s)) eqn:E.
  - rewrite (IH u v (n * 2)%nat j H') by lia. f_equal. apply (IH u v (n * 2)%nat _ H').
    apply Nat.even_spec in E. destruct E as [q E].
    pose proof (Nat.div_mod j (2 ^ s) ltac:(lia)) as D. pose proof (Nat.mod_upper_bound j (2 ^ s) ltac:(lia)) as U.
    rewrite E in D. assert (2 * q < n * 2)%nat by nia. nia.
  - apply (IH u v (n * 2)%nat j H'); lia.
Qed.
Lemma ptr_zblk n : forall u j, length u = (2 ^ n)%nat -> (j < 2 ^ n)%nat -> nth j (ptr n u) 0 = zblk n (fun i => nth i u 0) j.
Proof.
  induction n as [|n IH]; intros u j L Hj; cbn [ptr zblk]; [reflexivity|]. cbn [Nat.pow] in L, Hj. pose proof (pow2_pos n) as Hp.
  assert (length (firstn (2 ^ n) u) = (2 ^ n)%nat) as L1 by (rewrite firstn_length; lia).
  assert (length (skipn (2 ^ n) u) = (2 ^ n)%nat) as L2 by (rewrite skipn_length; lia).
  pose proof (length_ptr n _ L1) as P1. pose proof (length_ptr n _ L2) as P2.
  assert (forall j, (j < 2 ^ n)%nat -> nth j (ptr n (firstn (2 ^ n) u)) 0 = zblk n (fun i => nth i u 0) j) as Q1.
  { intros x Hx. rewrite (IH _ _ L1 Hx). apply (zblk_ext n _ _ 1); [|lia]. intros i Hi. rewrite nth_firstn'. replace (i <? 2 ^ n)%nat with true by lia. reflexivity. }
  assert (forall j, (j < 2 ^ n)%nat -> nth j (ptr n (skipn (2 ^ n) u)) 0 = zblk n (fun i => nth i u 0) (j + 2 ^ n)) as Q2.
  { intros x Hx. rewrite (IH _ _ L2 Hx). replace (x + 2 ^ n)%nat with (1 * 2 ^ n + x)%nat by lia. rewrite zblk_shift.
    apply (zblk_ext n _ _ 1); [|lia]. intros i Hi. rewrite nth_skipn'. f_equal. lia. }
  destruct (Nat.lt_ge_cases j (2 ^ n)) as [J|J].
  - rewrite app_nth1 by (rewrite length_zip2; lia). rewrite (nth_zip2 _ _ _ _ 0 0) by lia. rewrite Q1, Q2 by exact J.
    rewrite Nat.div_small by exact J. reflexivity.
  - rewrite app_nth2 by (rewrite length_zip2; lia). rewrite length_zip2, P1, P2, Nat.min_id.
    rewrite Q2 by lia. replace (j - 2 ^ n + 2 ^ n)%nat with j by lia.
    replace (j / 2 ^ n)%nat with 1%nat; [reflexivity|]. apply (Nat.div_unique _ _ 1 (j - 2 ^ n)); lia.
Qed.

(** the closed form *)
Lemma land_low n i j : (i < 2 ^ n)%nat -> (j < 2 ^ n)%nat -> Nat.land (2 ^ n + i) j = Nat.land i j.
Proof.
  intros Hi Hj. apply Nat.bits_inj. intros k. rewrite !Nat.land_spec.
  destruct (Nat.lt_ge_cases k n) as [H|H].
  - f_equal. rewrite <- (Nat.mod_pow2_bits_low (2 ^ n + i) n) by lia. rewrite <- (Nat.mod_pow2_bits_low i n) by lia.
    replace (2 ^ n + i)%nat with (i + 1 * 2 ^ n)%nat by lia. rewrite Nat.mod_add by (pose proof (pow2_pos n); lia). reflexivity.
  - assert (Nat.testbit j k = false) as ->; [|rewrite !andb_false_r; reflexivity].
    rewrite <- (Nat.mod_small j (2 ^ n)) by lia. apply Nat.mod_pow2_bits_high. lia.
Qed.
Lemma land_high n i j : (i < 2 ^ n)%nat -> (j < 2 ^ n)%nat -> Nat.land (2 ^ n + i) (2 ^ n + j) = (2 ^ n + Nat.land i j)%nat.
Proof.
  intros Hi Hj. pose proof (pow2_pos n).
  assert (forall x k, (x < 2 ^ n)%nat -> Nat.testbit (2 ^ n + x) k = if (k <? n)%nat then Nat.testbit x k else (k =? n)%nat) as T.
  { intros x k Hx. destruct (Nat.ltb_spec k n).
    - rewrite <- (Nat.mod_pow2_bits_low (2 ^ n + x) n) by lia. rewrite <- (Nat.mod_pow2_bits_low x n) by lia.
      replace (2 ^ n + x)%nat with (x + 1 * 2 ^ n)%nat by lia. rewrite Nat.mod_add by lia. reflexivity.
    - replace k with ((k - n) + n)%nat by lia. rewrite <- Nat.div_pow2_bits.
      replace ((2 ^ n + x) / 2 ^ n)%nat with 1%nat by (apply (Nat.div_unique _ _ _ x); lia).
      destruct (Nat.eqb_spec (k - n + n) n) as [E|E].
      + replace (k - n)%nat with O by lia. reflexivity.
      + apply Nat.bits_above_log2. change (Nat.log2 1) with O. lia. }
  assert (Nat.land i j < 2 ^ n)%nat as HL.
  { destruct (Nat.eq_dec (Nat.land i j) 0) as [->|Hne]; [lia|]. apply Nat.log2_lt_pow2; [lia|].
    pose proof (Nat.log2_land i j) as L. destruct (Nat.eq_dec i 0) as [->|]; [cbn in Hne; lia|].
    assert (Nat.log2 i < n)%nat by (apply Nat.log2_lt_pow2; lia). lia. }
  apply Nat.bits_inj. intros k. rewrite Nat.land_spec, !T by assumption. destruct (k <? n)%nat; [symmetry; apply Nat.land_spec|].
  destruct (k =? n)%nat; reflexivity.
Qed.
Lemma land_less n i j : (i < 2 ^ n)%nat -> Nat.land i (2 ^ n + j) <> (2 ^ n + j)%nat.
Proof.
  intros Hi H. assert (Nat.land i (2 ^ n + j) <= i)%nat; [|lia]. clear. 
  assert (forall a b, Nat.land a b <= a)%nat as L; [|apply L].
  intros a b. apply Nat.ldiff_le. apply Nat.bits_inj. intros k. rewrite Nat.ldiff_spec, Nat.land_spec, Nat.bits_0.
  destruct (Nat.testbit a k), (Nat.testbit b k); reflexivity.
Qed.
Lemma product_app a b : product (a ++ b) = product a * product b.
Proof. unfold product. induction a as [|x a IH]; cbn [Datatypes.app fold_right]; [lia|]. rewrite IH. lia. Qed.
Definition prodover (n j : nat) (u : nat -> Z) : Z :=
  product (map u (filter (fun i => Nat.land i j =? j)%nat (seq 0 (2 ^ n)))).
Lemma seq_double n : seq 0 (2 * n) = seq 0 n ++ map (fun i => n + i)%nat (seq 0 n).
Proof.
  replace (2 * n)%nat with (n + n)%nat by lia. rewrite seq_app. f_equal. cbn [Nat.add].
  generalize n at 1 3. intros m. rewrite <- (Nat.add_0_r m) at 1. generalize 0%nat. induction n as [|n IH]; intros k; cbn [seq map]; [reflexivity|].
  f_equal. rewrite <- IH. f_equal. lia.
Qed.
Lemma filter_map {X Y} (f : X -> Y) p l : filter p (map f l) = map f (filter (fun x => p (f x)) l).
Proof. induction l as [|x l IH]; cbn [map filter]; [reflexivity|]. destruct (p (f x)); cbn [map]; rewrite IH; reflexivity. Qed.
Lemma zblk_prodover n : forall u j, (j < 2 ^ n)%nat -> zblk n u j = prodover n j u.
Proof.
  induction n as [|n IH]; intros u j Hj.
  - assert (j = 0)%nat by (cbn in Hj; lia). subst. unfold prodover, product. cbn. lia.
  - cbn [zblk]. unfold prodover. change (2 ^ S n)%nat with (2 * 2 ^ n)%nat in *. pose proof (pow2_pos n).
    rewrite seq_double, filter_app, map_app, product_app, filter_map, map_map.
    destruct (Nat.lt_ge_cases j (2 ^ n)) as [J|J].
    + rewrite Nat.div_small by exact J. cbn [Nat.even].
      rewrite IH by exact J. replace (j + 2 ^ n)%nat with (1 * 2 ^ n + j)%nat by lia. rewrite zblk_shift, IH by exact J.
      unfold prodover. rewrite Nat.mul_1_l. do 3 f_equal. apply filter_ext_in. intros i Hi. apply in_seq in Hi.
      rewrite land_low by lia. reflexivity.
    + replace (j / 2 ^ n)%nat with 1%nat by (apply (Nat.div_unique _ _ 1 (j - 2 ^ n)); lia). cbn [Nat.even].
      set (k := (j - 2 ^ n)%nat). replace j with (1 * 2 ^ n + k)%nat by lia. rewrite zblk_shift, IH by lia. rewrite Nat.mul_1_l.
      rewrite (filter_ext_in _ (fun _ => false) (seq 0 (2 ^ n))).
      * assert (forall l : list nat, filter (fun _ => false) l = []) as -> by (induction l; auto).
        unfold product at 1. cbn [map fold_right]. rewrite Z.mul_1_l. unfold prodover. do 2 f_equal. apply filter_ext_in. intros i Hi. apply in_seq in Hi.
        rewrite land_high by lia. apply Bool.eq_iff_eq_true. rewrite !Nat.eqb_eq. lia.
      * intros i Hi. apply in_seq in Hi. apply Nat.eqb_neq. apply land_less. lia.
Qed.
Lemma nth_transform n u j : (j < 2 ^ n)%nat -> nth j (transform n u) 0 = prodover n j (fun i => nth i u 1).
Proof. intros H. unfold transform. rewrite nth_map_seq. replace (j <? 2 ^ n)%nat with true by lia. reflexivity. Qed.
Lemma length_transform n u : length (transform n u) = (2 ^ n)%nat.
Proof. unfold transform. rewrite map_length, seq_length. reflexivity. Qed.
Lemma prodover_ext n j u v : (forall i, (i < 2 ^ n)%nat -> u i = v i) -> prodover n j u = prodover n j v.
Proof. intros H. unfold prodover. f_equal. apply map_ext_in. intros i Hi. apply filter_In in Hi. destruct Hi as [Hi _]. apply in_seq in Hi. apply H. lia. Qed.
Lemma ptr_transform n u : length u = (2 ^ n)%nat -> ptr n u = transform n u.
Proof.
  intros L. apply (list_ext _ _ 0); [rewrite length_transform, length_ptr; auto|]. intros j Hj. rewrite length_ptr in Hj by exact L.
  rewrite ptr_zblk, nth_transform, zblk_prodover by assumption. apply prodover_ext. intros i Hi. apply nth_indep. lia.
Qed.

(** involution *)
Lemma zip2_nth_eq f a b c : length a = length c -> length b = length c ->
  (forall i, (i < length c)%nat -> nth i c 0 = f (nth i a 0) (nth i b 0)) -> zip2 f a b = c.
Proof.
  intros La Lb H. apply (list_ext _ _ 0); [rewrite length_zip2; lia|]. intros i Hi. rewrite length_zip2 in Hi.
  rewrite (nth_zip2 _ _ _ _ 0 0), H by lia. reflexivity.
Qed.
Lemma firstn_zip2 {X} (f : X -> X -> X) n a : forall b, firstn n (zip2 f a b) = zip2 f (firstn n a) (firstn n b).
Proof. revert n. induction a as [|x a IH]; intros [|n] [|y b]; cbn [zip2 firstn]; auto. rewrite IH. reflexivity. Qed.
Lemma skipn_zip2 {X} (f : X -> X -> X) n a : forall b, length a = length b -> skipn n (zip2 f a b) = zip2 f (skipn n a) (skipn n b).
Proof.
  revert n. induction a as [|x a IH]; intros [|n] [|y b] L; cbn [zip2 skipn length] in *; auto; try discriminate.
Qed.
Lemma zip2_app {X} (f : X -> X -> X) a b c e : length a = length c -> zip2 f (a ++ b) (c ++ e) = zip2 f a c ++ zip2 f b e.
Proof. revert c. induction a as [|x a IH]; intros [|y c] L; cbn [length] in L; try discriminate; [reflexivity|]. cbn [Datatypes.app zip2]. rewrite IH by lia. reflexivity. Qed.
Lemma zip2_mul_assoc a b c : zip2 Z.mul (zip2 Z.mul a b) c = zip2 Z.mul a (zip2 Z.mul b c).
Proof. revert b c. induction a as [|x a IH]; intros [|y b] [|z c]; cbn [zip2]; auto. rewrite IH. f_equal. lia. Qed.
Lemma zip2_mul_swap a b c e : zip2 Z.mul (zip2 Z.mul a b) (zip2 Z.mul c e) = zip2 Z.mul (zip2 Z.mul a c) (zip2 Z.mul b e).
Proof. revert b c e. induction a as [|x a IH]; intros [|y b] [|z c] [|w e]; cbn [zip2]; auto. rewrite IH. f_equal. lia. Qed.
Lemma ptr_mul n : forall a b, length a = (2 ^ n)%nat -> length b = (2 ^ n)%nat -> ptr n (zip2 Z.mul a b) = zip2 Z.mul (ptr n a) (ptr n b).
Proof.
  induction n as [|n IH]; intros a b La Lb; cbn [ptr]; [reflexivity|]. cbn [Nat.pow] in *.
  rewrite firstn_zip2, skipn_zip2 by lia.
  assert (length (firstn (2 ^ n) a) = (2 ^ n)%nat) by (rewrite firstn_length; lia).
  assert (length (skipn (2 ^ n) a) = (2 ^ n)%nat) by (rewrite skipn_length; lia).
  assert (length (firstn (2 ^ n) b) = (2 ^ n)%nat) by (rewrite firstn_length; lia).
  assert (length (skipn (2 ^ n) b) = (2 ^ n)%nat) by (rewrite skipn_length; lia).
  rewrite !IH by assumption. rewrite zip2_app by (rewrite !length_zip2, !length_ptr; auto). f_equal. apply zip2_mul_swap.
Qed.
Lemma zip2_sq a b : length a = length b -> Forall pm1 b -> zip2 Z.mul (zip2 Z.mul a b) b = a.
Proof.
  revert b. induction a as [|x a IH]; intros [|y b] L F; cbn [length] in L; try discriminate; [reflexivity|]. cbn [zip2].
  inversion F as [|? ? Hy F']; subst. rewrite IH by (auto; lia). f_equal. destruct Hy as [-> | ->]; lia.
Qed.
Lemma pm1_zip2 a : forall b, Forall pm1 a -> Forall pm1 b -> Forall pm1 (zip2 Z.mul a b).
Proof.
  induction a as [|x a IH]; intros [|y b] Fa Fb; cbn [zip2]; try constructor; inversion Fa; inversion Fb; subst; auto.
  unfold pm1 in *. lia.
Qed.
Lemma Forall_firstn_ {X} (Q : X -> Prop) n l : Forall Q l -> Forall Q (firstn n l).
Proof. intros H. rewrite <- (firstn_skipn n l) in H. apply Forall_app in H. tauto. Qed.
Lemma Forall_skipn_ {X} (Q : X -> Prop) n l : Forall Q l -> Forall Q (skipn n l).
Proof. intros H. rewrite <- (firstn_skipn n l) in H. apply Forall_app in H. tauto. Qed.
Lemma pm1_ptr n : forall u, Forall pm1 u -> Forall pm1 (ptr n u).
Proof.
  induction n as [|n IH]; intros u F; cbn [ptr]; [exact F|].
  apply Forall_app. split; [|apply IH, Forall_skipn_, F]. apply pm1_zip2; apply IH; [apply Forall_firstn_|apply Forall_skipn_]; exact F.
Qed.
Lemma ptr_invol n : forall u, length u = (2 ^ n)%nat -> Forall pm1 u -> ptr n (ptr n u) = u.
Proof.
  induction n as [|n IH]; intros u L F; [reflexivity|]. cbn [ptr]. cbn [Nat.pow] in L.
  assert (length (firstn (2 ^ n) u) = (2 ^ n)%nat) as L1 by (rewrite firstn_length; lia).
  assert (length (skipn (2 ^ n) u) = (2 ^ n)%nat) as L2 by (rewrite skipn_length; lia).
  pose proof (length_ptr n _ L1) as P1. pose proof (length_ptr n _ L2) as P2.
  rewrite firstn_app, skipn_app, length_zip2, P1, P2, Nat.min_id, Nat.sub_diag.
  rewrite firstn_all2 by (rewrite length_zip2; lia). rewrite (skipn_all2 (zip2 _ _ _)) by (rewrite length_zip2; lia). cbn [firstn skipn]. rewrite app_nil_r. cbn [Datatypes.app].
  rewrite ptr_mul by assumption. rewrite !IH by (assumption || apply Forall_firstn_, F || apply Forall_skipn_, F).
  rewrite zip2_sq by (try lia; apply Forall_skipn_, F). apply firstn_skipn.
Qed.
