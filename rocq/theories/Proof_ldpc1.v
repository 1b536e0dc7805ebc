(** LDPC: check classes of a table against the specification's links, and the constructor's table walk. *)
From Coq Require Import ZifyBool ZifyNat ZifyN.
From Verif Require Import Cpp Model_ldpc Spec_ldpc Lib_list.
Open Scope nat_scope.
Ltac Zify.zify_post_hook ::= idtac.

(** the positions collected for check class [n] *)
Definition slot (M q r x : nat) : nat := M * r + (M - x / q) mod M.
Fixpoint cls (M q n r : nat) (rows : list (list nat)) : list nat :=
  match rows with
  | [] => []
  | row :: rest => map (slot M q r) (filter (fun x => x mod q =? n) row) ++ cls M q n (S r) rest
  end.
(** position [v] moved by [j] inside its block *)
Definition moved (M j v : nat) : nat := (v - v mod M) + (v mod M + j) mod M.

Lemma filter_one (f : nat -> bool) M t0 :
  t0 < M -> (forall t, t < M -> f t = (t =? t0)) -> filter f (seq 0 M) = [t0].
Proof.
  intros H Hf. replace M with (t0 + S (M - S t0)) by lia. rewrite seq_app, filter_app. cbn [seq filter].
  replace (f (0 + t0)) with true by (rewrite Hf by lia; rewrite Nat.add_0_l, Nat.eqb_refl; reflexivity).
  assert (forall a n, (forall t, a <= t < a + n -> f t = false) -> filter f (seq a n) = []) as Hn.
  { clear. intros a n. revert a. induction n as [|n IH]; intros a H; cbn; [reflexivity|].
    rewrite H by lia. apply IH. intros; apply H; lia. }
  rewrite !Hn; [reflexivity| |].
  - intros t Ht. rewrite Hf by lia. apply Nat.eqb_neq. lia.
  - intros t Ht. rewrite Hf by lia. apply Nat.eqb_neq. lia.
Qed.
Lemma filter_none (f : nat -> bool) a n :
  (forall t, a <= t < a + n -> f t = false) -> filter f (seq a n) = [].
Proof.
  revert a. induction n as [|n IH]; intros a H; cbn; [reflexivity|].
  rewrite H by lia. apply IH. intros; apply H; lia.
Qed.

Lemma qdm q m e : e < q -> (q * m + e) / q = m /\ (q * m + e) mod q = e.
Proof.
  intros H. split.
  - rewrite Nat.mul_comm, Nat.div_add_l by lia. rewrite Nat.div_small by lia. lia.
  - rewrite Nat.add_comm, Nat.mul_comm, Nat.mod_add by lia. apply Nat.mod_small; lia.
Qed.
Lemma qM_mod q M a e : e < q -> 0 < M -> (q * a + e) mod (M * q) = q * (a mod M) + e.
Proof.
  intros He HM. symmetry. apply (Nat.mod_unique _ _ (a / M)).
  - assert (a mod M < M) by (apply Nat.mod_upper_bound; lia). nia.
  - pose proof (Nat.div_mod a M ltac:(lia)). nia.
Qed.
Lemma mod_shift M m j t : m < M -> j < M -> t < M ->
  ((m + t) mod M =? j) = (t =? ((M - m) mod M + j) mod M).
Proof.
  intros Hm Hj Ht.
  assert ((M - m) mod M = if m =? 0 then 0 else M - m) as ->.
  { destruct (Nat.eqb_spec m 0); [subst; rewrite Nat.sub_0_r; apply Nat.mod_same; lia|apply Nat.mod_small; lia]. }
  assert (forall a, a < 2 * M -> a mod M = if a <? M then a else a - M) as Hmod.
  { intros a Ha. destruct (Nat.ltb_spec a M); [apply Nat.mod_small; lia|].
    symmetry. apply (Nat.mod_unique _ _ 1); lia. }
  rewrite (Hmod (m + t)) by lia. rewrite Hmod by (destruct (m =? 0); lia).
  destruct (Nat.eqb_spec m 0), (Nat.ltb_spec (m + t) M);
  match goal with |- context [?a <? M] => destruct (Nat.ltb_spec a M) end;
  match goal with |- (?a =? ?b) = (?c =? ?d) => destruct (Nat.eqb_spec a b), (Nat.eqb_spec c d) end; lia.
Qed.

Lemma slot_parts M q r x : 0 < M -> slot M q r x mod M = (M - x / q) mod M /\ slot M q r x - slot M q r x mod M = M * r.
Proof.
  intros HM. assert ((M - x / q) mod M < M) by (apply Nat.mod_upper_bound; lia).
  assert (slot M q r x mod M = (M - x / q) mod M) as E by (unfold slot; apply (qdm M r); lia).
  rewrite E. split; [reflexivity|]. unfold slot. lia.
Qed.

Lemma row_links_cls M q p j n r row :
  0 < M -> j < M -> n < q -> p = q * j + n -> (forall x, In x row -> x < M * q) ->
  row_links M q (M * q) p r row = map (moved M j) (map (slot M q r) (filter (fun x => x mod q =? n) row)).
Proof.
  intros HM Hj Hn -> Hx. unfold row_links. induction row as [|x row IH]; [reflexivity|].
  cbn [flat_map filter]. rewrite IH by (intros; apply Hx; right; auto).
  assert (x < M * q) as Hxx by (apply Hx; left; reflexivity).
  pose proof (Nat.div_mod x q ltac:(lia)) as Hdm. pose proof (Nat.mod_upper_bound x q ltac:(lia)) as Hmb.
  set (m := x / q) in *. set (e := x mod q) in *.
  assert (m < M) as Hm by nia.
  assert (forall t, (x + t * q) mod (M * q) = q * ((m + t) mod M) + e) as Hv.
  { intros t. replace (x + t * q) with (q * (m + t) + e) by nia. apply qM_mod; lia. }
  destruct (Nat.eqb_spec e n) as [->|Hen].
  - rewrite (filter_one _ M (((M - m) mod M + j) mod M)).
    + cbn [map]. rewrite <- app_comm_cons. f_equal. unfold moved.
      destruct (slot_parts M q r x HM) as [-> ->]. reflexivity.
    + apply Nat.mod_upper_bound; lia.
    + intros t Ht. rewrite Hv. rewrite <- (mod_shift M m j t) by lia.
      destruct (Nat.eqb_spec (q * ((m + t) mod M) + n) (q * j + n)), (Nat.eqb_spec ((m + t) mod M) j); nia.
  - rewrite filter_none; [reflexivity|]. intros t Ht. rewrite Hv. apply Nat.eqb_neq. intros H.
    destruct (qdm q ((m + t) mod M) e Hmb) as [_ H1]. destruct (qdm q j n Hn) as [_ H2]. congruence.
Qed.

Theorem links_cls M q j n rows :
  0 < M -> j < M -> n < q -> (forall row x, In row rows -> In x row -> x < M * q) ->
  links M q (M * q) rows (q * j + n) = map (moved M j) (cls M q n 0 rows).
Proof.
  intros HM Hj Hn. unfold links. generalize 0 as r. induction rows as [|row rows IH]; intros r Hx; [reflexivity|].
  cbn [links_from cls]. rewrite map_app. f_equal.
  - apply row_links_cls; auto. intros x. apply Hx. left; reflexivity.
  - apply IH. intros row' x Hr. apply Hx. right; exact Hr.
Qed.

Lemma length_cls M q n r rows : length (cls M q n r rows) = length (filter (fun x => x mod q =? n) (concat rows)).
Proof.
  revert r. induction rows as [|row rows IH]; intros r; [reflexivity|].
  cbn [cls concat]. rewrite app_length, map_length, filter_app, app_length, IH. reflexivity.
Qed.
Lemma cls_app M q n r a b : cls M q n r (a ++ b) = cls M q n r a ++ cls M q n (r + length a) b.
Proof.
  revert r. induction a as [|row a IH]; intros r; cbn [cls length Datatypes.app]; [rewrite Nat.add_0_r; reflexivity|].
  rewrite IH, app_assoc. replace (S r + length a) with (r + S (length a)) by lia. reflexivity.
Qed.
Lemma cls_bound M q n r rows v : 0 < M -> In v (cls M q n r rows) -> M * r <= v < M * (r + length rows).
Proof.
  intros HM. revert r. induction rows as [|row rows IH]; intros r; cbn [cls length]; [intros []|].
  rewrite in_app_iff, in_map_iff. intros [(x & <- & _)|H].
  - unfold slot. pose proof (Nat.mod_upper_bound (M - x / q) M ltac:(lia)). nia.
  - specialize (IH _ H). nia.
Qed.
Lemma moved_bound M j r v : 0 < M -> v < M * r -> moved M j v < M * r.
Proof.
  intros HM Hv. unfold moved. pose proof (Nat.div_mod v M ltac:(lia)).
  pose proof (Nat.mod_upper_bound v M ltac:(lia)). pose proof (Nat.mod_upper_bound (v mod M + j) M ltac:(lia)).
  assert (v / M < r) by (apply Nat.div_lt_upper_bound; [intros ->; inversion HM|exact Hv]).
  assert (M * (v / M) + M <= M * r) by (replace (M * (v / M) + M) with (M * S (v / M)) by lia; apply Nat.mul_le_mono_l; lia).
  generalize dependent ((v mod M + j) mod M). generalize dependent (v mod M). generalize dependent (v / M). intros; lia.
Qed.

Lemma u16_small x : (N.of_nat x < 65536)%N -> u16 x = x.
Proof. intros H. unfold u16. rewrite wrap_small; [lia|]. exact H. Qed.
Lemma u8_small x : x < 256 -> u8 x = x.
Proof. intros H. unfold u8. rewrite wrap_small; [lia|]. change (2 ^ 8)%N with 256%N. lia. Qed.
