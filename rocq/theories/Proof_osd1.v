(** Proofs about Model_osd: linear algebra over GF(2) on matrices given as functions. *)
From Coq Require Import ZifyBool ZifyNat.
From Verif Require Import Cpp Spec_osd.
Ltac Zify.zify_post_hook ::= idtac.
Local Open Scope nat_scope.

Lemma parity_ext n f g : (forall i, i < n -> f i = g i) -> parity n f = parity n g.
Proof. induction n as [|n IH]; intros H; [reflexivity|]. cbn [parity]. rewrite IH, H by (auto; intros; apply H; lia). reflexivity. Qed.
Lemma parity_false n : parity n (fun _ => false) = false.
Proof. induction n as [|n IH]; [reflexivity|]. cbn [parity]. rewrite IH. reflexivity. Qed.
Lemma parity_xor n f g : parity n (fun i => xorb (f i) (g i)) = xorb (parity n f) (parity n g).
Proof. induction n as [|n IH]; [reflexivity|]. cbn [parity]. rewrite IH. destruct (parity n f), (parity n g), (f n), (g n); reflexivity. Qed.
Lemma parity_single n k b : parity n (fun i => if i =? k then b else false) = (k <? n) && b.
Proof.
  induction n as [|n IH]; [reflexivity|]. cbn [parity]. rewrite IH. destruct (Nat.eqb_spec n k) as [->|H].
  - replace (k <? k) with false by lia. replace (k <? S k) with true by lia. destruct b; reflexivity.
  - replace (k <? S n) with (k <? n) by lia. rewrite xorb_false_r. reflexivity.
Qed.
Lemma parity_zero n f : (forall i, i < n -> f i = false) -> parity n f = false.
Proof. intros H. rewrite (parity_ext n f (fun _ => false)) by exact H. apply parity_false. Qed.
Lemma parity_one n f k : k < n -> (forall i, i < n -> i <> k -> f i = false) -> parity n f = f k.
Proof.
  intros Hk H. rewrite (parity_ext n f (fun i => if i =? k then f k else false)).
  - rewrite parity_single. replace (k <? n) with true by lia. reflexivity.
  - intros i Hi. destruct (Nat.eqb_spec i k) as [->|Hne]; [reflexivity|auto].
Qed.

Section A.
Variables N K : nat.
Implicit Types M : nat -> nat -> bool.

Lemma product_ext M M' m m' i : (forall j, j < K -> m j = m' j) -> (forall j, j < K -> M j i = M' j i) -> product K M m i = product K M' m' i.
Proof. intros H H'. apply parity_ext. intros j Hj. rewrite H, H' by exact Hj. reflexivity. Qed.
Lemma product_zero M m i : (forall j, j < K -> m j = false) -> product K M m i = false.
Proof. intros H. apply parity_zero. intros j Hj. rewrite H by exact Hj. reflexivity. Qed.
Lemma product_xor M m m' i : product K M (fun j => xorb (m j) (m' j)) i = xorb (product K M m i) (product K M m' i).
Proof. unfold product. rewrite <- parity_xor. apply parity_ext. intros j _. destruct (m j), (m' j), (M j i); reflexivity. Qed.
(** changing one message bit *)
Definition madd (m : nat -> bool) (k : nat) (b : bool) : nat -> bool := fun j => if j =? k then xorb (m j) b else m j.
Lemma product_madd M m k b i : k < K -> product K M (madd m k b) i = xorb (product K M m i) (b && M k i).
Proof.
  intros Hk. rewrite (product_ext M M _ (fun j => xorb (m j) (if j =? k then b else false)) i); [|intros j _; unfold madd; destruct (j =? k); [reflexivity|rewrite xorb_false_r; reflexivity]|reflexivity].
  rewrite product_xor. f_equal. unfold product. rewrite (parity_one K _ k Hk); [rewrite Nat.eqb_refl; reflexivity|]. intros j _ Hne. replace (j =? k) with false by lia. reflexivity.
Qed.
Lemma product_row M k i : k < K -> product K M (fun j => j =? k) i = M k i.
Proof.
  intros Hk. unfold product. rewrite (parity_one K _ k Hk); [rewrite Nat.eqb_refl; reflexivity|]. intros j _ Hne. replace (j =? k) with false by lia. reflexivity.
Qed.

(** row operations *)
Definition addrow M k j : nat -> nat -> bool := fun r i => if r =? j then xorb (M j i) (M k i) else M r i.
Definition swaprow M j k : nat -> nat -> bool := fun r i => if r =? j then M k i else if r =? k then M j i else M r i.
Definition swapcol M j k : nat -> nat -> bool := fun r i => if i =? j then M r k else if i =? k then M r j else M r i.
(** two matrices with the same row space *)
Definition requiv M M' : Prop :=
  (forall m, exists m', (forall i, i < N -> product K M' m i = product K M m' i) /\ ((forall j, j < K -> m' j = false) -> forall j, j < K -> m j = false)) /\
  (forall m, exists m', forall i, i < N -> product K M m i = product K M' m' i).
Lemma requiv_refl M M' : (forall j i, j < K -> i < N -> M j i = M' j i) -> requiv M M'.
Proof.
  intros H. split; intros m; exists m; [split; [|auto]|]; intros i Hi; apply product_ext; try reflexivity; intros j Hj; [symmetry|]; apply H; assumption.
Qed.
Lemma requiv_trans M1 M2 M3 : requiv M1 M2 -> requiv M2 M3 -> requiv M1 M3.
Proof.
  intros (A1 & B1) (A2 & B2). split; intros m.
  - destruct (A2 m) as (m2 & E2 & Z2). destruct (A1 m2) as (m1 & E1 & Z1). exists m1. split; [|auto]. intros i Hi. rewrite E2, E1 by exact Hi. reflexivity.
  - destruct (B1 m) as (m2 & E2). destruct (B2 m2) as (m3 & E3). exists m3. intros i Hi. rewrite E2, E3 by exact Hi. reflexivity.
Qed.
Lemma product_addrow M k j m i : k < K -> j < K -> k <> j -> product K (addrow M k j) m i = product K M (madd m k (m j)) i.
Proof.
  intros Hk Hj Hne. rewrite product_madd by exact Hk. unfold product.
  rewrite (parity_ext K _ (fun r => xorb (m r && M r i) (if r =? j then m j && M k i else false))).
  - rewrite parity_xor, parity_single. replace (j <? K) with true by lia. reflexivity.
  - intros r _. unfold addrow. destruct (Nat.eqb_spec r j) as [->|]; [|rewrite xorb_false_r; reflexivity]. destruct (m j), (M j i), (M k i); reflexivity.
Qed.
Lemma requiv_addrow M k j : k < K -> j < K -> k <> j -> requiv M (addrow M k j).
Proof.
  intros Hk Hj Hne. split; intros m; exists (madd m k (m j)).
  - split; [intros i _; apply product_addrow; assumption|]. intros H r Hr. pose proof (H j Hj) as H1. unfold madd in H1. replace (j =? k) with false in H1 by lia.
    specialize (H r Hr). unfold madd in H. rewrite H1, xorb_false_r in H. destruct (r =? k); exact H.
  - intros i _. rewrite product_addrow, !product_madd by assumption. unfold madd at 1. replace (j =? k) with false by lia. destruct (product K M m i), (m j), (M k i); reflexivity.
Qed.
Lemma requiv_swaprow M j k : j < K -> k < K -> j <> k -> requiv M (swaprow M j k).
Proof.
  intros Hj Hk Hne. apply (requiv_trans M (addrow M k j)); [apply requiv_addrow; auto|]. apply (requiv_trans _ (addrow (addrow M k j) j k)); [apply requiv_addrow; auto|].
  apply (requiv_trans _ (addrow (addrow (addrow M k j) j k) k j)); [apply requiv_addrow; auto|]. apply requiv_refl. intros r i _ _. unfold addrow, swaprow. rewrite !Nat.eqb_refl.
  replace (k =? j) with false by lia. replace (j =? k) with false by lia. destruct (Nat.eqb_spec r j) as [->|]; [destruct (M j i), (M k i); reflexivity|].
  destruct (Nat.eqb_spec r k) as [->|]; [destruct (M j i), (M k i); reflexivity|reflexivity].
Qed.
Lemma requiv_rank M M' : requiv M M' -> full_rank N K M -> full_rank N K M'.
Proof. intros (A & _) H m Hm. destruct (A m) as (m' & E & HZ). apply HZ. apply H. intros i Hi. rewrite <- E by exact Hi. auto. Qed.
Lemma requiv_code M M' c : requiv M M' -> (in_code N K M c <-> in_code N K M' c).
Proof.
  intros (A & B). split; intros (m & Hm).
  - destruct (B m) as (m' & E). exists m'. intros i Hi. rewrite Hm, E by exact Hi. reflexivity.
  - destruct (A m) as (m' & E & _). exists m'. intros i Hi. rewrite Hm, E by exact Hi. reflexivity.
Qed.
End A.
