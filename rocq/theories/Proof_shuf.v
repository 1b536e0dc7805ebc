(** The byte shuffles of the back ends, lane by lane. *)
From Coq Require Import ZifyBool ZifyNat.
From Verif Require Import Cpp Model_simd Model_intrin Model_backend Spec_simd Proof_simd Proof_simd2 Proof_intrin Proof_backend.
Open Scope Z_scope.
Ltac Zify.zify_post_hook ::= idtac.

(** ** splitting registers *)
Lemma lanes_app w n m r : 0 <= w -> lanes w (n + m) r = lanes w n r ++ lanes w m (r / 2 ^ (w * Z.of_nat n)).
Proof.
  intros W. revert r. induction n as [|n IH]; intros r.
  - cbn [Nat.add lanes app Z.of_nat]. rewrite Z.mul_0_r. cbn. rewrite Z.div_1_r. reflexivity.
  - cbn [Nat.add lanes app]. rewrite IH. f_equal. f_equal. f_equal.
    replace (w * Z.of_nat (S n)) with (w + w * Z.of_nat n) by lia. rewrite Z.pow_add_r by lia.
    rewrite Z.div_div; [reflexivity|pose proof (pow_pos w W); lia|apply pow_pos; lia].
Qed.
Lemma lanes_mod w n k r : 0 <= w -> w * Z.of_nat n <= k -> lanes w n (r mod 2 ^ k) = lanes w n r.
Proof.
  intros W. revert k r. induction n as [|n IH]; intros k r K; [reflexivity|]. cbn [lanes].
  assert (w <= k) by nia. assert (P : 0 < 2 ^ w) by (apply pow_pos; lia).
  assert (E : 2 ^ k = 2 ^ w * 2 ^ (k - w)) by (rewrite <- Z.pow_add_r by lia; f_equal; lia).
  assert (P' : 0 < 2 ^ (k - w)) by (apply pow_pos; lia).
  rewrite E, Z.rem_mul_r by lia. f_equal.
  - rewrite Z.mul_comm, Z.mod_add, Z.mod_mod by lia. reflexivity.
  - rewrite (Z.mul_comm (2 ^ w)), Z.div_add by lia. rewrite (Z.div_small (r mod 2 ^ w)) by (apply Z.mod_pos_bound; lia).
    rewrite Z.add_0_l. apply IH. lia.
Qed.
(** the two halves of a register *)
Definition lo (k r : Z) : Z := r mod 2 ^ k.
Definition hi (k r : Z) : Z := (r / 2 ^ k) mod 2 ^ k.
Lemma lanes_halves w n k r : 0 <= w -> w * Z.of_nat n = k ->
  lanes w (n + n) r = lanes w n (lo k r) ++ lanes w n (hi k r).
Proof.
  intros W K. rewrite lanes_app by exact W. rewrite K. unfold lo, hi. rewrite !lanes_mod by lia. reflexivity.
Qed.
Lemma lanes_2 k r : lanes k 2 r = [lo k r; hi k r].
Proof. reflexivity. Qed.
Lemma lo_pack k x y : 0 <= k -> lo k (pack k [x; y]) = x mod 2 ^ k.
Proof.
  intros K. pose proof (lanes_pack_n k 2 [x; y] K eq_refl) as E. rewrite lanes_2 in E. cbn [map] in E. injection E as E1 E2. exact E1.
Qed.
Lemma hi_pack k x y : 0 <= k -> hi k (pack k [x; y]) = y mod 2 ^ k.
Proof.
  intros K. pose proof (lanes_pack_n k 2 [x; y] K eq_refl) as E. rewrite lanes_2 in E. cbn [map] in E. injection E as E1 E2. exact E2.
Qed.

(** ** one table of 16 bytes *)
Definition sel (A : list Z) (i : Z) : Z := if Z.testbit i 7 then 0 else nth (Z.to_nat (i mod 16)) A 0.
Lemma nth_range w A n : 0 <= w -> Forall (uint_range w) A -> uint_range w (nth n A 0).
Proof.
  intros W F. destruct (Nat.lt_ge_cases n (length A)) as [L|L].
  - rewrite Forall_forall in F. apply F, nth_In, L.
  - rewrite nth_overflow by lia. pose proof (pow_pos w W). unfold uint_range. lia.
Qed.
Lemma sel_range A i : Forall (uint_range 8) A -> uint_range 8 (sel A i).
Proof.
  intros F. unfold sel. destruct (Z.testbit i 7); [unfold uint_range; change (2 ^ 8) with 256; lia|].
  apply nth_range; [lia|exact F].
Qed.
Lemma map_u8 (f : Z -> Z) l : (forall x, uint_range 8 (f x)) -> map (to_u 8) (map f l) = map f l.
Proof. intros H. rewrite map_map. apply map_ext. intros x. apply to_u_id, H. Qed.
Lemma lanes_pshufb a b : lanes 8 16 (mm_shuffle_epi8 a b) = map (sel (lanes 8 16 a)) (lanes 8 16 b).
Proof.
  unfold mm_shuffle_epi8. rewrite lanes_pack_n by (rewrite ?map_length, ?length_lanes; lia).
  apply (map_u8 (sel (lanes 8 16 a))). intros x. apply sel_range, lanes_range. lia.
Qed.
Lemma lanes_pshufb256 a b : lanes 8 32 (mm256_shuffle_epi8 a b) =
  map (sel (lanes 8 16 (lo 128 a))) (lanes 8 16 (lo 128 b)) ++ map (sel (lanes 8 16 (hi 128 a))) (lanes 8 16 (hi 128 b)).
Proof.
  unfold mm256_shuffle_epi8. rewrite !lanes_2. unfold map2. cbn [combine map fst snd].
  rewrite (lanes_halves 8 16 128) by lia. rewrite lo_pack, hi_pack by lia.
  rewrite !lanes_mod by lia. rewrite !lanes_pshufb. reflexivity.
Qed.
Lemma permute_lo a : mm256_permute2x128 a a 0 = pack 128 [lo 128 a; lo 128 a].
Proof. reflexivity. Qed.
Lemma permute_hi a : mm256_permute2x128 a a 17 = pack 128 [hi 128 a; hi 128 a].
Proof. reflexivity. Qed.
Lemma pshufb_lo a b : lanes 8 32 (mm256_shuffle_epi8 (mm256_permute2x128 a a 0) b) = map (sel (lanes 8 16 (lo 128 a))) (lanes 8 32 b).
Proof.
  rewrite permute_lo, lanes_pshufb256, lo_pack, hi_pack by lia. rewrite !lanes_mod by lia.
  rewrite <- map_app. f_equal. symmetry. apply (lanes_halves 8 16 128); lia.
Qed.
Lemma pshufb_hi a b : lanes 8 32 (mm256_shuffle_epi8 (mm256_permute2x128 a a 17) b) = map (sel (lanes 8 16 (hi 128 a))) (lanes 8 32 b).
Proof.
  rewrite permute_hi, lanes_pshufb256, lo_pack, hi_pack by lia. rewrite !lanes_mod by lia.
  rewrite <- map_app. f_equal. symmetry. apply (lanes_halves 8 16 128); lia.
Qed.

(** ** the index arithmetic *)
Section Index.
Variable n : nat.
Variable N : Z.
Hypothesis Cn : count N 8 = n.
(** [mm_sub(b, set1(c))], [mm_cmpgt(b, set1(c))] *)
Lemma lanes_subc b c : lanes 8 n (mm_sub N 8 b (mm_set1 N 8 c)) = map (fun i => to_u 8 (i - to_u 8 c)) (lanes 8 n b).
Proof. subst n. apply (lanes_lw2_c N 8 (fun x y => x - y)); [lia|apply lanes_set1; lia]. Qed.
Lemma lanes_cmpc b c : lanes 8 n (mm_cmpgt N 8 b (mm_set1 N 8 c)) =
  map (fun i => ones 8 (to_s 8 (to_u 8 c) <? to_s 8 i)) (lanes 8 n b).
Proof.
  subst n. unfold mm_cmpgt. rewrite (lanes_lw2_c N 8 _ _ _ (to_u 8 c)) by (try apply lanes_set1; lia).
  apply map_ext. intros i. apply to_u_id, ones_range. lia.
Qed.
End Index.
Lemma map2_same {A B C D} (f : B -> C -> D) (g : A -> B) (h : A -> C) l : map2 f (map g l) (map h l) = map (fun x => f (g x) (h x)) l.
Proof. unfold map2. induction l as [|x l IH]; [reflexivity|]. cbn. rewrite IH. reflexivity. Qed.

(** index [i] of table number [r]: below table [r + 1] the saturated comparison hides it, below it the subtraction does *)
Definition idx (r : Z) (last : bool) (i : Z) : Z :=
  let s := if r =? 0 then i else to_u 8 (i - 16 * r) in
  if last then s else Z.lor s (ones 8 (to_s 8 (16 * r + 15) <? to_s 8 i)).
Definition good (K i : Z) : Prop := 0 <= i < 16 * K \/ 112 + 16 * K <= i < 256.
Definition goodb (K i : Z) : bool := (i <? 16 * K) || (112 + 16 * K <=? i).
Lemma range256 (P : Z -> bool) : forallb P (map Z.of_nat (seq 0 256)) = true -> forall i, 0 <= i < 256 -> P i = true.
Proof.
  intros H i Hi. rewrite forallb_forall in H. apply H. apply in_map_iff. exists (Z.to_nat i). split; [lia|]. apply in_seq. lia.
Qed.
Definition sel_ok (K r i : Z) : bool :=
  negb (goodb K i) ||
  let g := idx r (r =? K - 1) i in
  if (16 * r <=? i) && (i <? 16 * r + 16) then negb (Z.testbit g 7) && (g mod 16 =? i - 16 * r) else Z.testbit g 7.
Lemma sel_idx K r A i : 1 <= K <= 4 -> 0 <= r < K -> good K i ->
  sel A (idx r (r =? K - 1) i) = if (16 * r <=? i) && (i <? 16 * r + 16) then nth (Z.to_nat (i - 16 * r)) A 0 else 0.
Proof.
  intros HK Hr G.
  assert (C : sel_ok K r i = true).
  { assert (Hi : 0 <= i < 256) by (unfold good in G; lia). revert i Hi G.
    assert (Q : forallb (sel_ok K r) (map Z.of_nat (seq 0 256)) = true).
    { assert (K = 1 \/ K = 2 \/ K = 3 \/ K = 4) as [-> |[-> |[-> | ->]]] by lia;
      assert (r = 0 \/ r = 1 \/ r = 2 \/ r = 3) as [-> |[-> |[-> | ->]]] by lia; try lia; vm_compute; reflexivity. }
    intros i Hi _. apply (range256 _ Q i Hi). }
  unfold sel_ok in C. assert (goodb K i = true) as GB by (unfold good, goodb in *; lia). rewrite GB in C. cbn [negb orb] in C.
  cbv zeta in C. unfold sel. destruct ((16 * r <=? i) && (i <? 16 * r + 16)).
  - apply andb_true_iff in C. destruct C as [C1 C2]. apply negb_true_iff in C1. rewrite C1. apply Z.eqb_eq in C2. rewrite C2. reflexivity.
  - rewrite C. reflexivity.
Qed.

(** combining the tables *)
Definition pick (r : Z) (A : list Z) (i : Z) : Z :=
  if (16 * r <=? i) && (i <? 16 * r + 16) then nth (Z.to_nat (i - 16 * r)) A 0 else 0.
Fixpoint picks (r : Z) (As : list (list Z)) (i : Z) : Z :=
  match As with
  | [] => 0
  | A :: As => Z.lor (pick r A i) (picks (r + 1) As i)
  end.
Lemma picks_out r As i : i < 16 * r -> picks r As i = 0.
Proof.
  revert r. induction As as [|A As IH]; intros r H; [reflexivity|]. cbn [picks]. rewrite IH by lia. unfold pick.
  destruct (Z.leb_spec (16 * r) i); [lia|reflexivity].
Qed.
Lemma picks_nth r As i : Forall (fun A => length A = 16%nat) As -> 0 <= r -> 16 * r <= i ->
  picks r As i = nth (Z.to_nat (i - 16 * r)) (concat As) 0.
Proof.
  intros F. revert r. induction F as [|A As LA F IH]; intros r Hr H; cbn [picks concat].
  - destruct (Z.to_nat (i - 16 * r)); reflexivity.
  - unfold pick. destruct (Z.leb_spec (16 * r) i); [|lia]. cbn [andb]. destruct (Z.ltb_spec i (16 * r + 16)).
    + rewrite picks_out by lia. rewrite Z.lor_0_r, app_nth1 by lia. reflexivity.
    + rewrite Z.lor_0_l, IH by lia. rewrite app_nth2 by lia. f_equal. lia.
Qed.
Lemma picks_port As i : Forall (fun A => length A = 16%nat) As -> 0 <= i ->
  picks 0 As i = if i <? Z.of_nat (length (concat As)) then nth (Z.to_nat i) (concat As) 0 else 0.
Proof.
  intros F H. rewrite picks_nth by (try assumption; lia). replace (i - 16 * 0) with i by lia.
  destruct (Z.ltb_spec i (Z.of_nat (length (concat As)))); [reflexivity|]. apply nth_overflow. lia.
Qed.
