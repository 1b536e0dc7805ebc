(** Polar decoder: the model computes a recursive function on lists (any element type). *)
From Coq Require Import ZifyBool.
From Verif Require Import Cpp Model_simd Model_polar Spec_polar Lib_list Lib_wht Proof_bits Proof_simd Proof_polar1 Proof_polar2.
Local Open Scope nat_scope.
Ltac Zify.zify_post_hook ::= idtac.

(** ** A part of a list replaced *)
Definition put {X} (off : nat) (l out : list X) : list X := firstn off out ++ l ++ skipn (off + length l) out.
Definition seg {X} (off n : nat) (l : list X) : list X := firstn n (skipn off l).
Lemma length_put {X} off (l out : list X) : off + length l <= length out -> length (put off l out) = length out.
Proof. intros H. unfold put. rewrite !app_length, firstn_length, skipn_length. lia. Qed.
Lemma nth_put {X} off (l out : list X) x d : off + length l <= length out ->
  nth x (put off l out) d = if (off <=? x) && (x <? off + length l) then nth (x - off) l d else nth x out d.
Proof.
  intros H. unfold put. destruct (Nat.leb_spec off x) as [H1|H1]; cbn [andb].
  - rewrite app_nth2 by (rewrite firstn_length; lia). rewrite firstn_length. replace (Nat.min off (length out)) with off by lia.
    destruct (Nat.ltb_spec x (off + length l)).
    + apply app_nth1. lia.
    + rewrite app_nth2 by lia. rewrite nth_skipn. f_equal. lia.
  - rewrite app_nth1 by (rewrite firstn_length; lia). rewrite nth_firstn'. replace (x <? off) with true by lia. reflexivity.
Qed.
Lemma length_seg {X} off n (l : list X) : off + n <= length l -> length (seg off n l) = n.
Proof. intros H. unfold seg. rewrite firstn_length, skipn_length. lia. Qed.
Lemma nth_seg {X} off n (l : list X) i d : i < n -> nth i (seg off n l) d = nth (off + i) l d.
Proof. intros H. unfold seg. rewrite nth_firstn'. replace (i <? n) with true by lia. apply nth_skipn. Qed.
Lemma put_ext {X} off n (v : nat -> X) (out out' : list X) d : off + n <= length out -> length out' = length out ->
  (forall x, nth x out' d = if (off <=? x) && (x <? off + n) then v (x - off) else nth x out d) -> out' = put off (map v (seq 0 n)) out.
Proof.
  intros H L E. assert (length (map v (seq 0 n)) = n) as Lm by (rewrite map_length, seq_length; reflexivity).
  apply (list_ext _ _ d); [rewrite length_put; lia|]. intros x Hx. rewrite E, nth_put by lia. rewrite Lm.
  destruct ((off <=? x) && (x <? off + n)) eqn:C; [|reflexivity]. rewrite nth_map_seq. replace (x - off <? n) with true by lia.
  reflexivity.
Qed.
Lemma put_app {X} off (a b out : list X) : off + length a + length b <= length out -> put (off + length a) b (put off a out) = put off (a ++ b) out.
Proof.
  intros H. destruct out as [|d out'].
  { cbn [length] in H. destruct a, b; cbn [length] in H; try lia. assert (off = 0) by lia. subst. reflexivity. }
  set (out := d :: out') in *. assert (length (a ++ b) = length a + length b) as Lab by apply app_length.
  apply (list_ext _ _ d); [rewrite !length_put; rewrite ?length_put; lia|]. intros x Hx.
  rewrite nth_put by (rewrite length_put; lia). rewrite !nth_put by lia. rewrite Lab.
  destruct (Nat.ltb_spec x (off + length a)) as [H1|H1].
  - replace (off + length a <=? x) with false by lia. cbn [andb]. replace (x <? off + (length a + length b)) with true by lia.
    rewrite !andb_true_r. destruct (Nat.leb_spec off x); [|reflexivity]. rewrite app_nth1 by lia. reflexivity.
  - replace (off + length a <=? x) with true by lia. cbn [andb]. replace (off + (length a + length b)) with (off + length a + length b) by lia.
    replace (off <=? x) with true by lia. cbn [andb].
    destruct (Nat.ltb_spec x (off + length a + length b)); [|reflexivity]. rewrite app_nth2 by lia. f_equal. lia.
Qed.
Lemma put_over {X} off (a b out : list X) : off + length a <= length out -> length a = length b -> put off b (put off a out) = put off b out.
Proof.
  intros H L. unfold put. rewrite firstn_app, firstn_firstn, firstn_length. rewrite Nat.min_id.
  replace (off - Nat.min off (length out)) with 0 by lia. cbn [firstn]. rewrite app_nil_r. f_equal. f_equal.
  rewrite app_assoc, skipn_app, app_length, firstn_length. rewrite skipn_all2 by (rewrite app_length, firstn_length; lia).
  cbn [Datatypes.app]. replace (off + length b - (Nat.min off (length out) + length a)) with 0 by lia. cbn [skipn]. f_equal. lia.
Qed.
Lemma seg_put {X} off (l out : list X) : off + length l <= length out -> seg off (length l) (put off l out) = l.
Proof.
  intros H. unfold seg, put. rewrite skipn_app, skipn_all2 by (rewrite firstn_length; lia). rewrite firstn_length.
  replace (off - Nat.min off (length out)) with 0 by lia. cbn [skipn Datatypes.app]. rewrite firstn_app, Nat.sub_diag, firstn_all. cbn [firstn].
  apply app_nil_r.
Qed.
Lemma put_nil {X} off (out : list X) : put off [] out = out.
Proof. unfold put. cbn [length Datatypes.app]. rewrite Nat.add_0_r. apply firstn_skipn. Qed.
Lemma map_nth_seq {X} (l : list X) n d : length l = n -> map (fun i => nth i l d) (seq 0 n) = l.
Proof.
  intros L. apply (list_ext _ _ d); [rewrite map_length, seq_length; auto|]. intros i Hi. rewrite map_length, seq_length in Hi.
  rewrite nth_map_seq. replace (i <? n) with true by lia. reflexivity.
Qed.
Lemma seg_put_out {X} o n off (l out : list X) : off + length l <= length out -> o + n <= length out -> o + n <= off \/ off + length l <= o ->
  seg o n (put off l out) = seg o n out.
Proof.
  intros H Hn D. destruct out as [|d out'].
  { cbn [length] in *. destruct l; cbn [length] in *; [|lia]. rewrite put_nil. reflexivity. }
  set (out := d :: out') in *. apply (list_ext _ _ d); [rewrite !length_seg; rewrite ?length_put; lia|].
  intros i Hi. rewrite length_seg in Hi by (rewrite length_put; lia). rewrite !nth_seg, nth_put by lia.
  replace ((off <=? o + i) && (o + i <? off + length l)) with false by lia. reflexivity.
Qed.

(** a loop that fills a part of an array *)
Lemma fill_ok {X} n off (v : nat -> X) (body : nat -> list X -> res (list X)) out : off + n <= length out ->
  (forall i cur, i < n -> cur = put off (map v (seq 0 i)) out -> body i cur = wr cur (off + i) (v i)) ->
  for_up 0 n body out = Ok (put off (map v (seq 0 n)) out).
Proof.
  intros H Hb.
  edestruct (for_up_inv (fun i (c : list X) => c = put off (map v (seq 0 i)) out) body 0 n out) as (c & E & I).
  4: { rewrite E, I. reflexivity. }
  - lia.
  - intros i c Hi Ic. assert (length (map v (seq 0 i)) = i) as Lm by (rewrite map_length, seq_length; reflexivity).
    assert (length c = length out) as Lc by (rewrite Ic, length_put; lia).
    rewrite (Hb i c ltac:(lia) Ic), wr_Ok by lia. eexists. split; [reflexivity|].
    apply (put_ext off (S i) v out _ (v 0)); [lia|rewrite length_upd; exact Lc|]. intros x. rewrite nth_upd, Lc.
    destruct (Nat.eqb_spec (off + i) x) as [<-|Hne].
    + replace (off + i <? length out) with true by lia. replace ((off <=? off + i) && (off + i <? off + S i)) with true by lia. cbn [andb]. f_equal. lia.
    + cbn [andb]. rewrite Ic, nth_put by lia. rewrite Lm. replace ((off <=? x) && (x <? off + S i)) with ((off <=? x) && (x <? off + i)) by lia.
      destruct ((off <=? x) && (x <? off + i)) eqn:C; [|reflexivity]. rewrite nth_map_seq. replace (x - off <? i) with true by lia. reflexivity.
  - cbn [seq map]. symmetry. apply put_nil.
Qed.

Section Decoder.
Context {A : Type} (P : polar_ops A) (d : A).
Notation mul := (p_mul P).

(** the transform, recursively *)
Fixpoint gtr (n : nat) (u : list A) : list A :=
  match n with
  | O => u
  | S m => let h := 2 ^ m in let a := gtr m (firstn h u) in let b := gtr m (skipn h u) in zip2 mul a b ++ b
  end.
Lemma length_gtr n : forall u, length u = 2 ^ n -> length (gtr n u) = 2 ^ n.
Proof.
  induction n as [|n IH]; intros u L; cbn [gtr]; [exact L|]. cbn [Nat.pow] in *.
  rewrite app_length, length_zip2, !IH by (rewrite ?firstn_length, ?skipn_length; lia). lia.
Qed.
Lemma blk_shift s : forall u k j, blk P s u (k * 2 ^ s + j) = blk P s (fun i => u (k * 2 ^ s + i)) j.
Proof.
  induction s as [|s IH]; intros u k j; cbn [blk Nat.pow]; [reflexivity|]. pose proof (pow2_pos s).
  assert ((k * (2 * 2 ^ s) + j) / 2 ^ s = 2 * k + j / 2 ^ s) as ->.
  { replace (k * (2 * 2 ^ s) + j) with (j + (2 * k) * 2 ^ s) by lia. rewrite Nat.div_add by lia. lia. }
  rewrite Nat.even_add, Nat.even_mul. change (Nat.even 2) with true. cbn [orb].
  assert (forall j, blk P s u (k * (2 * 2 ^ s) + j) = blk P s (fun i => u (k * (2 * 2 ^ s) + i)) j) as IH'.
  { intros j'. replace (k * (2 * 2 ^ s)) with (2 * k * 2 ^ s) by lia. rewrite IH. reflexivity. }
  destruct (Nat.even (j / 2 ^ s)); cbn [Bool.eqb]; rewrite <- ?Nat.add_assoc, !IH'; reflexivity.
Qed.
Lemma gtr_blk n : forall u j, length u = 2 ^ n -> j < 2 ^ n -> nth j (gtr n u) d = blk P n (fun i => nth i u d) j.
Proof.
  induction n as [|n IH]; intros u j L Hj; cbn [gtr blk]; [reflexivity|]. cbn [Nat.pow] in L, Hj. pose proof (pow2_pos n) as Hp.
  assert (length (firstn (2 ^ n) u) = 2 ^ n) as L1 by (rewrite firstn_length; lia).
  assert (length (skipn (2 ^ n) u) = 2 ^ n) as L2 by (rewrite skipn_length; lia).
  pose proof (length_gtr n _ L1) as P1. pose proof (length_gtr n _ L2) as P2.
  assert (forall j, j < 2 ^ n -> nth j (gtr n (firstn (2 ^ n) u)) d = blk P n (fun i => nth i u d) j) as Q1.
  { intros i Hi. rewrite IH by assumption. apply (blk_ext P n _ _ 1 n); try lia. intros k Hk. rewrite nth_firstn'. replace (k <? 2 ^ n) with true by lia. reflexivity. }
  assert (forall j, j < 2 ^ n -> nth j (gtr n (skipn (2 ^ n) u)) d = blk P n (fun i => nth i u d) (j + 2 ^ n)) as Q2.
  { intros i Hi. rewrite IH by assumption. replace (i + 2 ^ n) with (1 * 2 ^ n + i) by lia. rewrite blk_shift.
    apply (blk_ext P n _ _ 1 n); try lia. intros k Hk. rewrite nth_skipn. f_equal. lia. }
  destruct (Nat.lt_ge_cases j (2 ^ n)) as [H|H].
  - rewrite Nat.div_small by lia. cbn [Nat.even]. rewrite app_nth1 by (rewrite length_zip2; lia).
    rewrite (nth_zip2 _ _ _ _ d d) by lia. rewrite Q1, Q2 by lia. reflexivity.
  - assert (j / 2 ^ n = 1) as ->.
    { symmetry. apply (Nat.div_unique j (2 ^ n) 1 (j - 2 ^ n)); lia. }
    cbn [Nat.even]. rewrite app_nth2 by (rewrite length_zip2; lia). rewrite length_zip2, P1, P2, Nat.min_id. rewrite Q2 by lia. f_equal. lia.
Qed.

Lemma trans_ok n out opos inp ipos : 1 <= n -> opos + 2 ^ n <= length out -> ipos + 2 ^ n <= length inp ->
  polar_trans P (2 ^ n) out opos inp ipos = Ok (put opos (gtr n (seg ipos (2 ^ n) inp)) out).
Proof.
  intros Hn Ho Hi. unfold polar_trans. set (u := fun i => nth i (seg ipos (2 ^ n) inp) d).
  assert (2 ^ n = 2 ^ (n - 1) * 2) as EN by (replace n with (S (n - 1)) at 1 by lia; cbn [Nat.pow]; lia).
  set (body := fun (i : nat) (s : list A) => _).
  assert (exists cw, for_step 0 (2 ^ n) 2 body out = Ok cw /\ shows d opos (2 ^ n) (blk P 1 u) out cw) as (cw & E & I).
  { cut (exists cw, for_step 0 (2 ^ (n - 1) * 2) 2 body out = Ok cw /\ shows d opos (2 ^ n) (blk P 1 u) out cw); [rewrite <- EN; auto|].
    edestruct (for_step_inv (fun k (s : list A) =>
        shows d opos (2 ^ n) (fun j => if j <? k * 2 then blk P 1 u j else nth (opos + j) out d) out s)) as (cw & E & I).
    4: { exists cw. split; [exact E|]. eapply shows_ext; [exact I|]. intros j Hj. cbv beta.
         replace (j <? 2 ^ (n - 1) * 2) with true by lia. reflexivity. }
    - lia.
    - intros k cw Hk I. unfold body. cbv beta iota.
      rewrite (rd_nth _ _ d) by lia. cbn [bind]. rewrite (rd_nth _ _ d) by lia. cbn [bind].
      rewrite <- (nth_seg ipos (2 ^ n) inp (k * 2)), <- (nth_seg ipos (2 ^ n) inp (k * 2 + 1)) by lia.
      fold (u (k * 2)). fold (u (k * 2 + 1)).
      destruct (shows_wr d opos _ _ _ _ (k * 2) (mul (u (k * 2)) (u (k * 2 + 1))) I ltac:(lia) ltac:(lia)) as (cw1 & E1 & I1).
      rewrite E1. cbn [bind].
      destruct (shows_wr d opos _ _ _ _ (k * 2 + 1) (u (k * 2 + 1)) I1 ltac:(lia) ltac:(lia)) as (cw2 & E2 & I2).
      rewrite E2. eexists. split; [reflexivity|].
      eapply shows_ext; [exact I2|]. intros j Hj. cbv beta. cbn [blk Nat.pow]. rewrite Nat.div_1_r.
      destruct (Nat.eqb_spec j (k * 2 + 1)) as [->|N1].
      + replace (k * 2 + 1 <? S k * 2) with true by lia. replace (Nat.even (k * 2 + 1)) with false; [reflexivity|].
        replace (k * 2 + 1) with (S (2 * k)) by lia. rewrite Nat.even_succ, <- Nat.negb_even, Nat.even_mul. reflexivity.
      + destruct (Nat.eqb_spec j (k * 2)) as [->|N2].
        * replace (k * 2 <? S k * 2) with true by lia. rewrite Nat.even_mul. rewrite orb_true_r. reflexivity.
        * replace (j <? S k * 2) with (j <? k * 2) by lia. reflexivity.
    - split; [reflexivity|]. intros x. replace (x - opos <? 0 * 2) with false by lia. destruct (Nat.leb_spec opos x); cbn [andb]; [|reflexivity].
      destruct (x <? opos + 2 ^ n); [|reflexivity]. f_equal. lia. }
  rewrite E. cbn [bind]. destruct (stages_ok P d opos n u out cw Hn Ho I) as (o & E2 & L2 & I2). rewrite E2. f_equal.
  rewrite (put_ext opos (2 ^ n) (blk P n u) out o d Ho L2 I2). f_equal. pose proof (length_seg ipos (2 ^ n) inp Hi) as Ls.
  rewrite <- (map_nth_seq (gtr n (seg ipos (2 ^ n) inp)) (2 ^ n) d) by (apply length_gtr; exact Ls).
  apply map_ext_in. intros j Hj. apply in_seq in Hj. symmetry. apply gtr_blk; [exact Ls|lia].
Qed.
End Decoder.
