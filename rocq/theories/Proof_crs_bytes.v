(** Bytes and objects; the loops over bytes follow the loops over values. *)
From Coq Require Import ZifyBool ZifyNat ZifyN.
From Verif Require Import Cpp Lib_list Model_gf Model_perm Model_crs Model_crs_bytes Lib_gf2lin Lib_gf2poly Lib_gf Lib_field Lib_poly Proof_gf Proof_gffield Proof_crs1 Proof_crs2.
Ltac Zify.zify_post_hook ::= idtac.
Local Open Scope N_scope.

Definition bytes (l : list N) : Prop := Forall (fun b => b < 256) l.

Lemma le_bytes_length n v : length (le_bytes n v) = n.
Proof. revert v. induction n as [|n IH]; intros v; [reflexivity|]. cbn [le_bytes length]. rewrite IH. reflexivity. Qed.
Lemma le_bytes_bytes n v : bytes (le_bytes n v).
Proof. revert v. induction n as [|n IH]; intros v; cbn [le_bytes]; constructor; [apply N.mod_lt; discriminate|apply IH]. Qed.
Lemma pow256_S n : 256 ^ N.of_nat (S n) = 256 * 256 ^ N.of_nat n.
Proof. rewrite Nat2N.inj_succ, N.pow_succ_r'. reflexivity. Qed.
Lemma le_value_bytes n v : v < 256 ^ N.of_nat n -> le_value (le_bytes n v) = v.
Proof.
  revert v. induction n as [|n IH]; intros v H; [cbn in *; lia|]. rewrite pow256_S in H. cbn [le_bytes le_value]. rewrite IH.
  - pose proof (N.div_mod v 256 ltac:(discriminate)). lia.
  - apply N.div_lt_upper_bound; [discriminate|exact H].
Qed.
Lemma le_bytes_value l : bytes l -> le_bytes (length l) (le_value l) = l.
Proof.
  induction 1 as [|b l Hb Hl IH]; [reflexivity|]. cbn [length le_bytes le_value].
  replace ((b + 256 * le_value l) mod 256) with b.
  2: { rewrite (N.mul_comm 256), N.mod_add by discriminate. symmetry. apply N.mod_small. exact Hb. }
  replace ((b + 256 * le_value l) / 256) with (le_value l); [rewrite IH; reflexivity|].
  rewrite (N.mul_comm 256), N.div_add by discriminate. rewrite N.div_small by exact Hb. reflexivity.
Qed.
Lemma le_value_lt l : bytes l -> le_value l < 256 ^ N.of_nat (length l).
Proof. induction 1 as [|b l Hb Hl IH]; [cbn; lia|]. cbn [length le_value]. rewrite pow256_S. lia. Qed.

Section E.
Variable e : order.
Lemma obj_bytes_length n v : length (obj_bytes e n v) = n.
Proof. unfold obj_bytes. destruct e; [|rewrite rev_length]; apply le_bytes_length. Qed.
Lemma obj_bytes_bytes n v : bytes (obj_bytes e n v).
Proof. unfold obj_bytes. destruct e; [|apply Forall_rev]; apply le_bytes_bytes. Qed.
Lemma obj_value_bytes n v : v < 256 ^ N.of_nat n -> obj_value e (obj_bytes e n v) = v.
Proof. intros H. unfold obj_value, obj_bytes. destruct e; [|rewrite rev_involutive]; apply le_value_bytes; exact H. Qed.
Lemma obj_bytes_value l : bytes l -> obj_bytes e (length l) (obj_value e l) = l.
Proof.
  intros H. unfold obj_value, obj_bytes. destruct e; [apply le_bytes_value, H|].
  rewrite <- (rev_length l), le_bytes_value by (apply Forall_rev, H). apply rev_involutive.
Qed.
Lemma obj_value_lt l : bytes l -> obj_value e l < 256 ^ N.of_nat (length l).
Proof.
  intros H. unfold obj_value. destruct e; [apply le_value_lt, H|]. rewrite <- (rev_length l). apply le_value_lt, Forall_rev, H.
Qed.

Variable S : nat.
Hypothesis Spos : (0 < S)%nat.

Lemma objects_length mem : length (objects e S mem) = (length mem / S)%nat.
Proof. unfold objects. rewrite map_length, seq_length. reflexivity. Qed.
Lemma concat_length vals : length (concat (map (obj_bytes e S) vals)) = (S * length vals)%nat.
Proof. induction vals as [|v l IH]; cbn [map concat length]; [lia|]. rewrite app_length, obj_bytes_length, IH. lia. Qed.
Lemma memory_length vals mem : (S * length vals <= length mem)%nat -> length (memory e S vals mem) = length mem.
Proof. intros H. unfold memory. rewrite app_length, concat_length, skipn_length. lia. Qed.
Lemma concat_slice vals : forall i r, (i < length vals)%nat -> firstn S (skipn (S * i) (concat (map (obj_bytes e S) vals) ++ r)) = obj_bytes e S (nth i vals 0).
Proof.
  induction vals as [|v l IH]; intros i r Hi; cbn [length] in Hi; [lia|]. cbn [map concat nth]. destruct i as [|i].
  - rewrite Nat.mul_0_r. cbn [skipn]. rewrite <- app_assoc, firstn_app, obj_bytes_length, Nat.sub_diag. cbn [firstn]. rewrite app_nil_r.
    apply firstn_all2. rewrite obj_bytes_length. lia.
  - rewrite <- app_assoc, skipn_app, obj_bytes_length. rewrite skipn_all2 by (rewrite obj_bytes_length; nia). cbn [app].
    replace (S * Datatypes.S i - S)%nat with (S * i)%nat by lia. apply IH. lia.
Qed.
Lemma objects_memory vals mem : length vals = (length mem / S)%nat -> Forall (fun v => v < 256 ^ N.of_nat S) vals -> objects e S (memory e S vals mem) = vals.
Proof.
  intros HL HV. assert (LE : (S * length vals <= length mem)%nat) by (rewrite HL; apply Nat.mul_div_le; lia).
  apply (list_ext _ _ 0).
  - rewrite objects_length, memory_length by exact LE. congruence.
  - rewrite objects_length, memory_length by exact LE. intros i Hi. unfold objects. rewrite memory_length by exact LE.
    rewrite (nth_indep _ 0 (obj_value e (firstn S (skipn (S * 0) (memory e S vals mem))))) by (rewrite map_length, seq_length; exact Hi).
    rewrite (map_nth (fun i => obj_value e (firstn S (skipn (S * i) (memory e S vals mem))))), seq_nth by exact Hi. cbn [Nat.add].
    unfold memory. rewrite concat_slice by lia. apply obj_value_bytes. rewrite Forall_forall in HV. apply HV, nth_In. lia.
Qed.
Lemma objects_cons b mem : length b = S -> objects e S (b ++ mem) = obj_value e b :: objects e S mem.
Proof.
  intros HB. unfold objects. rewrite app_length, HB. replace (S + length mem)%nat with (length mem + 1 * S)%nat by lia.
  rewrite Nat.div_add by lia. rewrite Nat.add_1_r. cbn [seq map]. f_equal.
  - f_equal. rewrite Nat.mul_0_r. cbn [skipn]. rewrite firstn_app, HB, Nat.sub_diag. cbn [firstn]. rewrite app_nil_r. apply firstn_all2. lia.
  - rewrite <- seq_shift, map_map. apply map_ext. intros i. f_equal. f_equal. rewrite skipn_app, HB, (skipn_all2 b) by (rewrite HB; rewrite Nat.mul_succ_r; lia). cbn [app]. rewrite Nat.mul_succ_r. replace (S * i + S - S)%nat with (S * i)%nat by lia. reflexivity.
Qed.
Lemma objects_short mem : (length mem < S)%nat -> objects e S mem = [].
Proof. intros H. unfold objects. rewrite Nat.div_small by exact H. reflexivity. Qed.
Lemma memory_objects mem : bytes mem -> memory e S (objects e S mem) mem = mem.
Proof.
  assert (forall n mem, (length mem <= n)%nat -> bytes mem -> memory e S (objects e S mem) mem = mem) as H; [|intros HB; apply (H _ _ (Nat.le_refl _) HB)].
  induction n as [|n IH]; intros m Hn HB.
  - destruct m; [|cbn in Hn; lia]. rewrite objects_short by (cbn; lia). unfold memory. cbn [map concat length app]. rewrite Nat.mul_0_r. reflexivity.
  - destruct (Nat.lt_ge_cases (length m) S) as [H1|H1].
    + rewrite objects_short by exact H1. unfold memory. cbn [map concat length app]. rewrite Nat.mul_0_r. reflexivity.
    + rewrite <- (firstn_skipn S m) in HB |- *. apply Forall_app in HB. destruct HB as (B1 & B2).
      assert (L1 : length (firstn S m) = S) by (rewrite firstn_length; lia).
      rewrite objects_cons by exact L1. unfold memory. cbn [map concat length]. rewrite <- app_assoc. f_equal.
      * rewrite <- L1 at 1. apply obj_bytes_value, B1.
      * rewrite skipn_app, (skipn_all2 (firstn S m)) by (rewrite L1, Nat.mul_succ_r; lia). rewrite L1. cbn [app]. replace (S * Datatypes.S (length (objects e S (skipn S m))) - S)%nat with (S * length (objects e S (skipn S m)))%nat by lia.
        apply IH; [rewrite skipn_length; lia|exact B2].
Qed.
Lemma memory_memory vals v0 mem : length vals = length v0 -> (S * length v0 <= length mem)%nat -> memory e S vals (memory e S v0 mem) = memory e S vals mem.
Proof.
  intros HL HM. unfold memory. f_equal. rewrite skipn_app, concat_length, HL. rewrite skipn_all2 by (rewrite concat_length; lia).
  rewrite Nat.sub_diag. reflexivity.
Qed.
Lemma objects_lt mem : bytes mem -> Forall (fun v => v < 256 ^ N.of_nat S) (objects e S mem).
Proof.
  intros HB. unfold objects. apply Forall_forall. intros v Hv. apply in_map_iff in Hv. destruct Hv as (i & <- & Hi). apply in_seq in Hi.
  assert (L : length (firstn S (skipn (S * i) mem)) = S).
  { rewrite firstn_length, skipn_length. pose proof (Nat.mul_div_le (length mem) S ltac:(lia)). nia. }
  replace (256 ^ N.of_nat S) with (256 ^ N.of_nat (length (firstn S (skipn (S * i) mem)))) by (rewrite L; reflexivity). apply obj_value_lt. apply Forall_forall. intros x Hx. unfold bytes in HB. rewrite Forall_forall in HB. apply HB.
  rewrite <- (firstn_skipn (S * i) mem), <- (firstn_skipn S (skipn (S * i) mem)). apply in_or_app. right. apply in_or_app. left. exact Hx.
Qed.
Lemma memory_bytes vals mem : bytes mem -> bytes (memory e S vals mem).
Proof.
  intros HB. unfold memory. apply Forall_app. split.
  - induction vals as [|v l IH]; cbn [map concat]; [constructor|]. apply Forall_app. split; [apply obj_bytes_bytes|exact IH].
  - apply Forall_forall. intros x Hx. unfold bytes in HB. rewrite Forall_forall in HB. apply HB. rewrite <- (firstn_skipn (S * length vals) mem). apply in_or_app. right. exact Hx.
Qed.
Notation C := (fun vals => concat (map (obj_bytes e S) vals)).
Lemma concat_firstn vals k : (k <= length vals)%nat -> C (firstn k vals) = firstn (S * k) (C vals).
Proof.
  intros H. cbv beta. rewrite <- (firstn_skipn k vals) at 2. rewrite map_app, concat_app, firstn_app, concat_length, firstn_length, Nat.min_l by lia.
  rewrite Nat.sub_diag. cbn [firstn]. rewrite app_nil_r, (firstn_all2 (concat _)); [reflexivity|]. rewrite concat_length, firstn_length. nia.
Qed.
Lemma concat_skipn vals k : (k <= length vals)%nat -> C (skipn k vals) = skipn (S * k) (C vals).
Proof.
  intros H. cbv beta. rewrite <- (firstn_skipn k vals) at 2. rewrite map_app, concat_app, skipn_app, concat_length, firstn_length, Nat.min_l by lia.
  rewrite Nat.sub_diag. cbn [skipn]. rewrite (skipn_all2 (concat _)); [reflexivity|]. rewrite concat_length, firstn_length. nia.
Qed.
Lemma concat_objects mem : bytes mem -> C (objects e S mem) = firstn (S * (length mem / S)) mem.
Proof.
  intros H. pose proof (memory_objects mem H) as E. unfold memory in E. cbv beta. rewrite <- E at 3. rewrite firstn_app, concat_length, objects_length, Nat.sub_diag.
  cbn [firstn]. rewrite app_nil_r. symmetry. apply firstn_all2. rewrite concat_length, objects_length. lia.
Qed.
(** one block of the objects replaced *)
Lemma memory_block buf data d len i : bytes buf -> bytes data -> (d + len <= length (objects e S buf))%nat -> (S * len * i + S * len <= length data)%nat ->
  memory e S (firstn d (objects e S buf) ++ firstn len (skipn (len * i) (objects e S data)) ++ skipn (d + len) (objects e S buf)) buf =
  firstn (S * d) buf ++ firstn (S * len) (skipn (S * len * i) data) ++ skipn (S * d + S * len) buf.
Proof.
  intros Hb Hd HL HD.
  assert (LD : (len * i + len <= length (objects e S data))%nat) by (rewrite objects_length; apply Nat.div_le_lower_bound; nia).
  assert (LB : (S * (length buf / S) <= length buf)%nat) by (apply Nat.mul_div_le; lia).
  assert (LD' : (S * (length data / S) <= length data)%nat) by (apply Nat.mul_div_le; lia).
  pose proof (memory_objects buf Hb) as EB. unfold memory in EB.
  unfold memory. rewrite !map_app, !concat_app, concat_firstn, (concat_firstn (skipn _ _)), !concat_skipn by (rewrite ?skipn_length; lia).
  assert (LR : length (firstn d (objects e S buf) ++ firstn len (skipn (len * i) (objects e S data)) ++ skipn (d + len) (objects e S buf)) = length (objects e S buf)).
  { rewrite !app_length, !firstn_length, !skipn_length. lia. }
  rewrite LR, !concat_objects, !objects_length by assumption. rewrite objects_length in *.
  rewrite <- !app_assoc. f_equal.
  - rewrite firstn_firstn. f_equal. apply Nat.min_l. apply Nat.mul_le_mono_l. lia.
  - f_equal.
    + rewrite skipn_firstn_comm, firstn_firstn. replace (S * (len * i))%nat with (S * len * i)%nat by lia. f_equal. apply Nat.min_l. nia.
    + rewrite skipn_firstn_comm. replace (S * (d + len))%nat with (S * d + S * len)%nat by lia.
      rewrite <- (firstn_skipn (S * (length buf / S) - (S * d + S * len)) (skipn (S * d + S * len) buf)) at 2. f_equal.
      rewrite skipn_skipn'. f_equal. nia.
Qed.
End E.

(** a loop that follows another one *)
Lemma for_up_follow {S T} (R : T -> S -> Prop) (f : nat -> S -> res S) (g : nat -> T -> res T) lo hi : forall s t s',
  (forall i s t s', (lo <= i < hi)%nat -> R t s -> f i s = Ok s' -> exists t', g i t = Ok t' /\ R t' s') ->
  R t s -> for_up lo hi f s = Ok s' -> exists t', for_up lo hi g t = Ok t' /\ R t' s'.
Proof.
  remember (hi - lo)%nat as n eqn:En. revert lo En. induction n as [|n IH]; intros lo En s t s' HS HR HF.
  - rewrite for_up_nil in HF by lia. injection HF as <-. exists t. rewrite for_up_nil by lia. auto.
  - rewrite for_up_head in HF by lia. destruct (f lo s) as [s1| | |] eqn:E1; try discriminate HF. cbn [bind] in HF.
    destruct (HS lo s t s1 ltac:(lia) HR E1) as (t1 & G1 & R1). rewrite for_up_head by lia. rewrite G1. cbn [bind].
    apply (IH (Datatypes.S lo) ltac:(lia) s1 t1 s'); [|exact R1|exact HF]. intros i s2 t2 s3 Hi. apply HS. lia.
Qed.
