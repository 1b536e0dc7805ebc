(** Proofs about Model_osd: the matrix in memory and the row and column operations. *)
From Coq Require Import ZifyBool ZifyNat.
From Verif Require Import Cpp Model_osd Spec_osd Proof_osd1.
Ltac Zify.zify_post_hook ::= idtac.
Local Open Scope nat_scope.

Lemma tob_b2z b : tob (Z.b2z b) = b.
Proof. destruct b; reflexivity. Qed.
Lemma lxor_b2z a b : Z.lxor (Z.b2z a) (Z.b2z b) = Z.b2z (xorb a b).
Proof. destruct a, b; reflexivity. Qed.
Lemma land_b2z a b : Z.land (Z.b2z a) (Z.b2z b) = Z.b2z (a && b).
Proof. destruct a, b; reflexivity. Qed.

Lemma swap_ok {A} (a : list A) i j d : i < length a -> j < length a ->
  osd_swap a i j = Ok (upd (upd a i (nth j a d)) j (nth i a d)).
Proof. intros Hi Hj. unfold osd_swap. rewrite !(rd_nth a _ d) by assumption. cbn [bind]. rewrite wr_Ok by exact Hi. cbn [bind]. apply wr_Ok. rewrite length_upd. exact Hj. Qed.

Section R.
Variables W N K : nat.
Hypothesis HW : N <= W.

Definition rep (G : list Z) (M : nat -> nat -> bool) : Prop :=
  length G = W * K /\ forall j i, j < K -> i < N -> nth (W * j + i) G 0%Z = Z.b2z (M j i).
Lemma index_lt j i : j < K -> i < W -> W * j + i < W * K.
Proof. intros Hj Hi. assert (W * S j <= W * K) by (apply Nat.mul_le_mono_l; lia). lia. Qed.
Lemma index_inj j i j' i' : i < W -> i' < W -> W * j + i = W * j' + i' -> j = j' /\ i = i'.
Proof.
  intros Hi Hi' E. assert (j = j'); [|subst; lia]. destruct (Nat.lt_trichotomy j j') as [H|[H|H]]; [|exact H|].
  - assert (W * S j <= W * j') by (apply Nat.mul_le_mono_l; lia). lia.
  - assert (W * S j' <= W * j) by (apply Nat.mul_le_mono_l; lia). lia.
Qed.
Lemma rep_ext G M M' : rep G M -> (forall j i, j < K -> i < N -> M j i = M' j i) -> rep G M'.
Proof. intros (L & H) E. split; [exact L|]. intros j i Hj Hi. rewrite H, E by assumption. reflexivity. Qed.
Lemma rep_rd G M j i : rep G M -> j < K -> i < N -> rd G (W * j + i) = Ok (Z.b2z (M j i)).
Proof. intros (L & H) Hj Hi. rewrite (rd_nth G _ 0%Z), H by (try assumption; rewrite L; apply index_lt; lia). reflexivity. Qed.
Definition mset (M : nat -> nat -> bool) (j i : nat) (b : bool) : nat -> nat -> bool := fun r c => if (r =? j) && (c =? i) then b else M r c.
Lemma rep_wr G M j i b : rep G M -> j < K -> i < N -> exists G', wr G (W * j + i) (Z.b2z b) = Ok G' /\ rep G' (mset M j i b).
Proof.
  intros (L & H) Hj Hi. pose proof (index_lt j i Hj ltac:(lia)) as HL. rewrite wr_Ok by lia. eexists. split; [reflexivity|].
  split; [rewrite length_upd; exact L|]. intros r c Hr Hc. rewrite nth_upd. unfold mset. replace (W * j + i <? length G) with true by lia. rewrite andb_true_r.
  destruct (Nat.eqb_spec (W * j + i) (W * r + c)) as [E|E].
  - apply index_inj in E; [|lia|lia]. destruct E as (-> & ->). rewrite !Nat.eqb_refl. reflexivity.
  - destruct (Nat.eqb_spec r j) as [->|]; [|apply H; assumption]. destruct (Nat.eqb_spec c i) as [->|]; [lia|]. apply H; assumption.
Qed.

(** G[W*j+i] ^= G[W*k+i] for i >= k *)
Lemma addrow_ok G M k j : rep G M -> k < K -> j < K -> j <> k -> k < N -> (forall i, i < k -> M k i = false) ->
  exists G', osd_addrow W N k j G = Ok G' /\ rep G' (addrow M k j).
Proof.
  intros HG Hk Hj Hne HkN HZ. unfold osd_addrow.
  edestruct (for_up_inv (fun i G => rep G (fun r c => if (r =? j) && (k <=? c) && (c <? i) then xorb (M j c) (M k c) else M r c))) as (G' & E & HI).
  4: { exists G'. split; [exact E|]. apply (rep_ext _ _ _ HI). intros r c Hr Hc. unfold addrow. replace (c <? N) with true by lia. rewrite andb_true_r.
       destruct (Nat.eqb_spec r j) as [->|]; [|reflexivity]. cbn [andb]. destruct (Nat.leb_spec k c); [reflexivity|]. rewrite HZ, xorb_false_r by assumption. reflexivity. }
  - lia.
  - intros i g Hi HI. cbv beta. rewrite (rep_rd _ _ j i HI), (rep_rd _ _ k i HI) by lia. cbn [bind]. replace (k =? j) with false by lia. rewrite Nat.eqb_refl.
    replace (i <? i) with false by lia. rewrite andb_false_r. cbn [andb]. rewrite lxor_b2z.
    destruct (rep_wr _ _ j i (xorb (M j i) (M k i)) HI Hj ltac:(lia)) as (g' & E & HG'). exists g'. split; [exact E|]. apply (rep_ext _ _ _ HG').
    intros r c Hr Hc. unfold mset. destruct (Nat.eqb_spec r j) as [->|]; [|reflexivity]. cbn [andb]. destruct (Nat.eqb_spec c i) as [->|]; cbn [andb].
    + replace (k <=? i) with true by lia. replace (i <? S i) with true by lia. reflexivity.
    + replace (c <? S i) with (c <? i) by lia. reflexivity.
  - apply (rep_ext _ _ _ HG). intros r c _ _. destruct ((r =? j) && (k <=? c) && (c <? k)) eqn:E; [lia|reflexivity].
Qed.

Lemma rep_swap G M j i j' i' : rep G M -> j < K -> i < N -> j' < K -> i' < N -> (j <> j' \/ i <> i') ->
  exists G', osd_swap G (W * j + i) (W * j' + i') = Ok G' /\ rep G' (mset (mset M j i (M j' i')) j' i' (M j i)).
Proof.
  intros HG Hj Hi Hj' Hi' Hne. unfold osd_swap. rewrite (rep_rd _ _ j i HG), (rep_rd _ _ j' i' HG) by assumption. cbn [bind].
  destruct (rep_wr _ _ j i (M j' i') HG Hj Hi) as (g1 & E1 & H1). rewrite E1. cbn [bind]. apply (rep_wr _ _ j' i' (M j i) H1 Hj' Hi').
Qed.
Lemma swaprow_ok G M j k : rep G M -> k < K -> j < K -> j <> k -> k < N -> (forall i, i < k -> M k i = false /\ M j i = false) ->
  exists G', for_up k N (fun i G => osd_swap G (W * j + i) (W * k + i)) G = Ok G' /\ rep G' (swaprow M j k).
Proof.
  intros HG Hk Hj Hne HkN HZ.
  edestruct (for_up_inv (fun i G => rep G (fun r c => if (k <=? c) && (c <? i) then swaprow M j k r c else M r c))) as (G' & E & HI).
  4: { exists G'. split; [exact E|]. apply (rep_ext _ _ _ HI). intros r c Hr Hc. replace (c <? N) with true by lia. rewrite andb_true_r.
       destruct (Nat.leb_spec k c); [reflexivity|]. unfold swaprow. destruct (HZ c ltac:(lia)) as (Z1 & Z2).
       destruct (Nat.eqb_spec r j) as [->|]; [congruence|]. destruct (Nat.eqb_spec r k) as [->|]; [congruence|reflexivity]. }
  - lia.
  - intros i g Hi HI. cbv beta. destruct (rep_swap _ _ j i k i HI) as (g' & E & HG'); try lia. exists g'. split; [exact E|]. apply (rep_ext _ _ _ HG').
    intros r c Hr Hc. unfold mset, swaprow. replace (i <? i) with false by lia. rewrite andb_false_r.
    destruct (Nat.eqb_spec c i) as [->|].
    + replace (k <=? i) with true by lia. replace (i <? S i) with true by lia. replace (i <? i) with false by lia. rewrite !andb_true_r. cbn [andb].
      destruct (Nat.eqb_spec r k) as [->|]; [replace (k =? j) with false by lia; reflexivity|]. destruct (Nat.eqb_spec r j) as [->|]; reflexivity.
    + rewrite !andb_false_r. replace (c <? S i) with (c <? i) by lia. reflexivity.
  - apply (rep_ext _ _ _ HG). intros r c _ _. destruct ((k <=? c) && (c <? k)) eqn:E; [lia|reflexivity].
Qed.
Lemma swapcol_ok G M j k : rep G M -> k < N -> j < N -> j <> k ->
  exists G', for_up 0 K (fun i G => osd_swap G (W * i + k) (W * i + j)) G = Ok G' /\ rep G' (swapcol M k j).
Proof.
  intros HG Hk Hj Hne.
  edestruct (for_up_inv (fun i G => rep G (fun r c => if r <? i then swapcol M k j r c else M r c))) as (G' & E & HI).
  4: { exists G'. split; [exact E|]. apply (rep_ext _ _ _ HI). intros r c Hr Hc. replace (r <? K) with true by lia. reflexivity. }
  - lia.
  - intros i g Hi HI. cbv beta. destruct (rep_swap _ _ i k i j HI) as (g' & E & HG'); try lia. exists g'. split; [exact E|]. apply (rep_ext _ _ _ HG').
    intros r c Hr Hc. unfold mset, swapcol. replace (i <? i) with false by lia.
    destruct (Nat.eqb_spec r i) as [->|].
    + replace (i <? i) with false by lia. replace (i <? S i) with true by lia. cbn [andb].
      destruct (Nat.eqb_spec c j) as [->|]; [replace (j =? k) with false by lia; reflexivity|]. reflexivity.
    + cbn [andb]. replace (r <? S i) with (r <? i) by lia. reflexivity.
  - apply (rep_ext _ _ _ HG). intros r c _ _. reflexivity.
Qed.
End R.
