(** General lemmas on lists.  No model of code. *)
From Coq Require Import List Arith Lia.
Import ListNotations.

Lemma skipn_skipn' {A} (n m : nat) (l : list A) : skipn n (skipn m l) = skipn (n + m) l.
Proof.
  revert l; induction m as [|m IH]; intros l; [rewrite Nat.add_0_r; reflexivity|].
  rewrite Nat.add_succ_r. destruct l as [|x l]; [rewrite !skipn_nil; reflexivity|]. apply IH.
Qed.

Lemma nth_error_ext' {A} (a b : list A) : length a = length b ->
  (forall x, x < length a -> nth_error a x = nth_error b x) -> a = b.
Proof.
  revert b; induction a as [|x a IH]; intros [|y b] Hl H; try discriminate; [reflexivity|].
  pose proof (H 0 ltac:(cbn; lia)) as H0. cbn in H0. injection H0 as ->. f_equal.
  apply IH; [cbn in Hl; lia|]. intros z Hz. apply (H (S z)). cbn. lia.
Qed.

Lemma nth_error_skipn' {A} (n i : nat) (l : list A) : nth_error (skipn n l) i = nth_error l (n + i).
Proof. revert l; induction n as [|n IH]; intros [|x l]; cbn; auto. destruct i; reflexivity. Qed.

Lemma nth_error_firstn' {A} (n i : nat) (l : list A) :
  nth_error (firstn n l) i = if i <? n then nth_error l i else None.
Proof.
  revert i l; induction n as [|n IH]; intros [|i] [|x l]; cbn; auto.
  - destruct (S i <? S n) eqn:E; cbn in E; rewrite ?E; reflexivity.
  - rewrite IH. reflexivity.
Qed.

Lemma nth_skipn' {A} (l : list A) n i d : nth i (skipn n l) d = nth (n + i) l d.
Proof.
  revert l i; induction n as [|n IH]; intros [|x l] i; cbn [skipn Nat.add]; try reflexivity.
  - destruct i; reflexivity.
  - apply IH.
Qed.
Lemma nth_firstn' {A} (l : list A) n i d : nth i (firstn n l) d = if (i <? n) then nth i l d else d.
Proof.
  revert l i; induction n as [|n IH]; intros [|x l] i; cbn [firstn].
  - destruct i; reflexivity.
  - destruct i; reflexivity.
  - destruct i; destruct (_ <? _); reflexivity.
  - destruct i; [reflexivity|]. cbn [nth]. rewrite IH. reflexivity.
Qed.
Lemma nth_slice {A} (a : list A) off n i d : nth i (firstn n (skipn off a)) d = if (i <? n) then nth (off + i) a d else d.
Proof. rewrite nth_firstn', nth_skipn'. reflexivity. Qed.
