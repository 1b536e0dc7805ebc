(** C63: a sequence that MLS::bad accepts is pseudo-noise: its periodic autocorrelation is -1 at every shift, and every
    non-zero pattern of n bits appears exactly once per period as n consecutive outputs. *)
From Coq Require Import ZifyBool ZifyNat ZifyN.
From Verif Require Import Cpp Model_mls Spec_gf Lib_list Lib_orbit Lib_gf2lin Lib_gf2poly Lib_gf Proof_mls.
Local Open Scope N_scope.
Ltac Zify.zify_post_hook ::= idtac.

(** the correlation of [L] outputs with the outputs [k] calls later, a bit counting as +1 or -1 *)
Definition correlation (L k : nat) (outs : list bool) : Z :=
  fold_right Z.add 0%Z (map (fun i => if Bool.eqb (nth i outs false) (nth (i + k) outs false) then 1%Z else (-1)%Z) (seq 0 L)).
(** [n] consecutive outputs from number [i] on *)
Definition window (n i : nat) (outs : list bool) : list bool := firstn n (skipn i outs).

Section S.
Variables n poly : N.
Hypothesis Hn : 1 <= n <= 30.
Hypothesis Hp : has_degree poly n.
Notation nx := (mulx n poly).
Notation Q1 := (2 ^ n - 1).
Variable r : N.
Hypothesis Hr : 0 < r < 2 ^ n.
Hypothesis Hper : N.iter Q1 nx r = r.
Hypothesis Hmin : forall k, 0 < k < Q1 -> N.iter k nx r <> r.
Let lin : linear nx. Proof. apply linear_nx. Qed.
Let out (s : N) : bool := N.testbit s (n - 1).
Lemma Q1_pos : 0 < Q1.
Proof. apply (Q1p n Hn). Qed.

Lemma iter_lin k a b : N.iter k nx (N.lxor a b) = N.lxor (N.iter k nx a) (N.iter k nx b).
Proof. induction k using N.peano_ind; [reflexivity|]. rewrite !N.iter_succ, IHk. apply lin. Qed.
(** every state on the orbit has the full period *)
Lemma full_again s : 0 < s < 2 ^ n -> N.iter Q1 nx s = s /\ forall k, 0 < k < Q1 -> N.iter k nx s <> s.
Proof.
  intros Hs. destruct (proj1 (full_iff n poly Hn Hp r Hr) (conj Hper Hmin)) as (_ & C). destruct (C s Hs) as (j & Hj & E).
  assert (P : forall m, N.iter m nx s = N.iter (N.of_nat j) nx (N.iter m nx r)).
  { intros m. rewrite <- E, <- !iter_plus. f_equal. lia. }
  split.
  - rewrite P, Hper. exact E.
  - intros k Hk X. apply (Hmin k Hk). rewrite P in X. rewrite <- E in X.
    apply (f_equal (N.iter (Q1 - N.of_nat j) nx)) in X. rewrite <- !iter_plus in X.
    replace (Q1 - N.of_nat j + N.of_nat j) with Q1 in X by lia.
    replace (Q1 + k) with (k + Q1) in X by lia. rewrite iter_plus, Hper in X. exact X.
Qed.
Definition o (i : nat) : bool := out (N.iter (N.of_nat i) nx r).
Lemma diff_count k : (0 < k < N.to_nat Q1)%nat ->
  length (filter (fun i => xorb (o i) (o (i + k))) (seq 0 (N.to_nat Q1))) = N.to_nat (2 ^ (n - 1)).
Proof.
  intros Hk. set (s := N.lxor r (N.iter (N.of_nat k) nx r)).
  pose proof (iter_lt n poly Hn Hp (N.of_nat k) r ltac:(lia)) as B.
  assert (Hs : 0 < s < 2 ^ n).
  { split.
    - destruct (N.eq_dec s 0) as [E|E]; [|lia]. exfalso. unfold s in E. apply N.lxor_eq in E. apply (Hmin (N.of_nat k)); [lia|]. symmetry. exact E.
    - destruct (N.eq_dec s 0) as [E|E]; [rewrite E; lia|]. apply N.log2_lt_pow2; [lia|]. unfold s.
      pose proof (N.log2_lxor r (N.iter (N.of_nat k) nx r)) as LL.
      assert (N.log2 r < n) by (apply N.log2_lt_pow2; lia).
      assert (N.log2 (N.iter (N.of_nat k) nx r) < n).
      { destruct (N.eq_dec (N.iter (N.of_nat k) nx r) 0) as [E0|E0]; [rewrite E0; cbn; lia|]. apply N.log2_lt_pow2; lia. }
      lia. }
  destruct (full_again s Hs) as (P & Mn). rewrite <- (balanced n poly Hn Hp s Hs P Mn).
  unfold orbit. assert (F : forall l, length (filter (fun s0 => N.testbit s0 (n - 1)) (map (fun i => N.iter (N.of_nat i) nx s) l)) =
     length (filter (fun i => xorb (o i) (o (i + k))) l)); [|symmetry; apply F].
  induction l as [|i l IH]; [reflexivity|]. cbn [map filter].
  replace (xorb (o i) (o (i + k))) with (N.testbit (N.iter (N.of_nat i) nx s) (n - 1)).
  - destruct (N.testbit _ _); cbn [length]; rewrite IH; reflexivity.
  - unfold s. rewrite iter_lin, N.lxor_spec. unfold o, out. rewrite <- iter_plus. do 3 f_equal. lia.
Qed.

(** a state is determined by the n outputs that follow *)
Lemma zero_outputs s : s < 2 ^ n -> (forall j, (j < N.to_nat n)%nat -> out (N.iter (N.of_nat j) nx s) = false) -> s = 0.
Proof.
  intros Hs H.
  assert (K : forall j, (j <= N.to_nat n)%nat -> N.iter (N.of_nat j) nx s = s * 2 ^ N.of_nat j).
  { induction j as [|j IH]; intros Hj; [cbn; lia|].
    specialize (H j ltac:(lia)). unfold out in H. rewrite IH in H by lia. rewrite Nat2N.inj_succ, N.iter_succ, IH by lia.
    unfold mulx. cbv zeta.
    replace (N.testbit (N.double (s * 2 ^ N.of_nat j)) n) with false.
    - rewrite N.double_spec, N.pow_succ_r'. lia.
    - rewrite <- H. rewrite N.double_spec. replace (N.testbit (2 * (s * 2 ^ N.of_nat j)) n) with (N.testbit (2 * (s * 2 ^ N.of_nat j)) (N.succ (n - 1))) by (f_equal; lia).
      rewrite N.double_bits_succ. reflexivity. }
  apply N.bits_inj_0. intros i. destruct (N.lt_ge_cases i n) as [L|L].
  - specialize (H (N.to_nat (n - 1 - i)) ltac:(lia)). unfold out in H. rewrite K in H by lia.
    rewrite N2Nat.id in H. rewrite N.mul_pow2_bits_high in H by lia. rewrite <- H. f_equal. lia.
  - destruct (N.eq_dec s 0) as [->|E]; [apply N.bits_0|]. apply N.bits_above_log2. assert (N.log2 s < n) by (apply N.log2_lt_pow2; lia). lia.
Qed.

Definition W (s : N) : list bool := map (fun j => out (N.iter (N.of_nat j) nx s)) (seq 0 (N.to_nat n)).
Lemma length_W s : length (W s) = N.to_nat n.
Proof. unfold W. rewrite map_length, seq_length. reflexivity. Qed.
Lemma lxor_lt a b : a < 2 ^ n -> b < 2 ^ n -> N.lxor a b < 2 ^ n.
Proof.
  intros Ha Hb. destruct (N.eq_dec (N.lxor a b) 0) as [E|E]; [rewrite E; lia|]. apply N.log2_lt_pow2; [lia|].
  pose proof (N.log2_lxor a b) as LL.
  assert (forall x, x < 2 ^ n -> N.log2 x < n).
  { intros x Hx. destruct (N.eq_dec x 0) as [->|E0]; [cbn; lia|]. apply N.log2_lt_pow2; lia. }
  pose proof (H a Ha). pose proof (H b Hb). lia.
Qed.
Lemma W_inj a b : a < 2 ^ n -> b < 2 ^ n -> W a = W b -> a = b.
Proof.
  intros Ha Hb E. apply N.lxor_eq. apply zero_outputs; [apply lxor_lt; assumption|]. intros j Hj. rewrite iter_lin. unfold out.
  rewrite N.lxor_spec. apply (f_equal (fun l => nth j l false)) in E. unfold W in E. rewrite !nth_map_seq0 in E by exact Hj.
  unfold out in E. rewrite E. apply xorb_nilpotent.
Qed.
Lemma NoDup_map_inj {A B} (f : A -> B) l : (forall x y, In x l -> In y l -> f x = f y -> x = y) -> NoDup l -> NoDup (map f l).
Proof.
  intros F H. induction H as [|x l Hx H IH]; [constructor|]. cbn [map]. constructor.
  - intros I. apply in_map_iff in I. destruct I as (y & E & Iy). apply Hx. rewrite <- (F y x); [exact Iy|right; exact Iy|left; reflexivity|exact E].
  - apply IH. intros a b Ia Ib. apply F; right; assumption.
Qed.
Fixpoint val (l : list bool) : N := match l with [] => 0 | b :: l => N.b2n b + 2 * val l end.
Lemma val_inj l l' : length l = length l' -> val l = val l' -> l = l'.
Proof.
  revert l'. induction l as [|b l IH]; intros [|b' l'] L E; try discriminate; [reflexivity|]. cbn [val] in E. cbn in L.
  assert (N.b2n b < 2 /\ N.b2n b' < 2) as [B B'] by (split; destruct b, b' || destruct b; cbn; lia).
  assert (E1 : val l = val l') by lia. assert (E2 : N.b2n b = N.b2n b') by lia. rewrite (IH l') by (try assumption; lia). f_equal.
  destruct b, b'; try reflexivity; discriminate.
Qed.
Lemma val_lt l : val l < 2 ^ N.of_nat (length l).
Proof.
  induction l as [|b l IH]; [cbn; lia|]. cbn [val length]. rewrite Nat2N.inj_succ, N.pow_succ_r'.
  assert (N.b2n b < 2) by (destruct b; cbn; lia). lia.
Qed.
Lemma val_pos l : 0 < val l <-> In true l.
Proof.
  induction l as [|b l IH]; cbn [val In]; [split; [lia|tauto]|]. destruct b; cbn [N.b2n]; [split; [auto|lia]|].
  split; [intros H; right; apply IH; lia|intros [H|H]; [discriminate|apply IH in H; lia]].
Qed.
Lemma W_pos s : 0 < s < 2 ^ n -> In true (W s).
Proof.
  intros Hs. destruct (in_dec bool_dec true (W s)) as [H|H]; [exact H|]. exfalso.
  assert (s = 0); [|lia]. apply zero_outputs; [lia|]. intros j Hj. destruct (out (N.iter (N.of_nat j) nx s)) eqn:E; [|reflexivity].
  exfalso. apply H. rewrite <- E. unfold W. apply in_map_iff. exists j. split; [reflexivity|apply in_seq; lia].
Qed.
Lemma W_surj p : length p = N.to_nat n -> In true p -> exists s, 0 < s < 2 ^ n /\ W s = p.
Proof.
  intros L T. set (R := range 1 (N.to_nat Q1)).
  assert (I : incl R (map (fun s => val (W s)) R)).
  { apply NoDup_length_incl.
    - apply NoDup_map_inj; [|apply (NoDup_range n Hn)]. intros a b Ia Ib E. apply (in_range n Hn) in Ia, Ib. pose proof Q1_pos.
      apply W_inj; [lia|lia|]. apply val_inj; [rewrite !length_W; reflexivity|exact E].
    - rewrite map_length. lia.
    - intros x Hx. apply in_map_iff in Hx. destruct Hx as (s & <- & Is). apply (in_range n Hn) in Is. apply (in_range n Hn). pose proof Q1_pos.
      pose proof (val_lt (W s)) as V. rewrite length_W, N2Nat.id in V. assert (0 < val (W s)) by (apply val_pos, W_pos; lia). lia. }
  assert (V : 0 < val p < 2 ^ n) by (split; [apply val_pos; exact T|pose proof (val_lt p) as V; rewrite L, N2Nat.id in V; exact V]).
  specialize (I (val p)). destruct (proj1 (in_map_iff _ _ _) (I ltac:(apply (in_range n Hn); lia))) as (s & E & Is).
  apply (in_range n Hn) in Is. exists s. split; [lia|]. apply val_inj; [rewrite length_W; lia|exact E].
Qed.
End S.

(** the outputs, as a list *)
Lemma accepted n poly r0 r g : 1 <= n <= 30 -> has_degree poly n -> 0 < r < 2 ^ n -> mls_bad (mls_ctor poly r0) r = Ok (false, g) ->
  N.iter (2 ^ n - 1) (mulx n poly) r = r /\ forall k, 0 < k < 2 ^ n - 1 -> N.iter k (mulx n poly) r <> r.
Proof.
  intros Hn Hp Hr HB. rewrite (ctor_st n poly Hn Hp) in HB.
  destruct (bad_st n poly Hn Hp r0 r ltac:(lia)) as (b & g2 & E & H). rewrite E in HB. injection HB as -> ->. apply H. reflexivity.
Qed.

(** [r] is the register for which [bad] accepted the polynomial; the sequence may be started from any non-zero register [s] *)
Theorem C63_autocorrelation : forall (n poly r0 r s : N) (g : mls) (k : nat),
  1 <= n <= 30 -> has_degree poly n -> 0 < r < 2 ^ n -> mls_bad (mls_ctor poly r0) r = Ok (false, g) ->
  0 < s < 2 ^ n -> let L := N.to_nat (2 ^ n - 1) in (0 < k < L)%nat ->
  exists outs g', mls_calls (L + k) (mls_ctor poly s) = Ok (outs, g') /\ correlation L k outs = (-1)%Z.
Proof.
  intros n poly r0 r s g k Hn Hp Hr HB Hs L Hk. destruct (accepted n poly r0 r g Hn Hp Hr HB) as (P & Mn).
  destruct (full_again n poly Hn Hp r Hr P Mn s Hs) as (Ps & Ms).
  rewrite (ctor_st n poly Hn Hp), (calls_st n poly Hn Hp) by lia. eexists _, _. split; [reflexivity|].
  pose proof (diff_count n poly Hn Hp s Hs Ps Ms k Hk) as C. fold L in C. unfold correlation.
  assert (F : forall m l, Forall (fun i => (i < L)%nat) l ->
    length (filter (fun i => xorb (o n poly s i) (o n poly s (i + k))) l) = m ->
    fold_right Z.add 0%Z (map (fun i =>
      if Bool.eqb (nth i (map (fun i => N.testbit (N.iter (N.of_nat i) (mulx n poly) s) (n - 1)) (seq 0 (L + k))) false)
                  (nth (i + k) (map (fun i => N.testbit (N.iter (N.of_nat i) (mulx n poly) s) (n - 1)) (seq 0 (L + k))) false)
      then 1%Z else (-1)%Z) l) = (Z.of_nat (length l) - 2 * Z.of_nat m)%Z).
  { intros m l. revert m. induction l as [|i l IH]; intros m FL E; cbn [filter map fold_right length] in *; [subst m; reflexivity|].
    inversion FL as [|? ? Hi FL']. rewrite !nth_map_seq0 by lia. fold (o n poly s i). fold (o n poly s (i + k)).
    destruct (xorb (o n poly s i) (o n poly s (i + k))) eqn:X.
    - cbn [length] in E. destruct m as [|m]; [discriminate|]. rewrite (IH m FL') by lia.
      destruct (o n poly s i), (o n poly s (i + k)); try discriminate X; cbn [Bool.eqb]; lia.
    - rewrite (IH m FL' E). destruct (o n poly s i), (o n poly s (i + k)); try discriminate X; cbn [Bool.eqb]; lia. }
  rewrite (F _ (seq 0 L) ltac:(apply Forall_forall; intros i Hi; apply in_seq in Hi; lia) C). rewrite seq_length.
  assert (2 ^ n = 2 * 2 ^ (n - 1)) by (rewrite <- N.pow_succ_r'; f_equal; lia). unfold L. lia.
Qed.
Print Assumptions C63_autocorrelation.

Theorem C63_windows : forall (n poly r0 r s : N) (g : mls),
  1 <= n <= 30 -> has_degree poly n -> 0 < r < 2 ^ n -> mls_bad (mls_ctor poly r0) r = Ok (false, g) ->
  0 < s < 2 ^ n -> let L := N.to_nat (2 ^ n - 1) in let m := N.to_nat n in
  exists outs g', mls_calls (L + m) (mls_ctor poly s) = Ok (outs, g') /\
    (forall i j, (i < L)%nat -> (j < L)%nat -> window m i outs = window m j outs -> i = j) /\
    (forall i, (i < L)%nat -> In true (window m i outs)) /\
    (forall p, length p = m -> In true p -> exists i, (i < L)%nat /\ window m i outs = p).
Proof.
  intros n poly r0 r s g Hn Hp Hr HB Hs L m. destruct (accepted n poly r0 r g Hn Hp Hr HB) as (P & Mn).
  destruct (full_again n poly Hn Hp r Hr P Mn s Hs) as (Ps & Ms).
  rewrite (ctor_st n poly Hn Hp), (calls_st n poly Hn Hp) by lia. eexists _, _. split; [reflexivity|].
  set (outs := map _ _).
  assert (EW : forall i, (i < L)%nat -> window m i outs = W n poly (N.iter (N.of_nat i) (mulx n poly) s)).
  { intros i Hi. unfold window, outs, W. apply (list_ext _ _ false).
    - rewrite firstn_length, skipn_length, !map_length, !seq_length. fold m. lia.
    - intros j Hj. rewrite firstn_length, skipn_length, map_length, seq_length in Hj.
      rewrite nth_firstn'. replace (j <? m)%nat with true by lia. rewrite nth_skipn', !nth_map_seq0 by lia.
      rewrite <- iter_plus. do 3 f_equal. lia. }
  assert (B : forall i, 0 < N.iter i (mulx n poly) s < 2 ^ n).
  { intros i. pose proof (nz_orbit n poly Hn Hp s Hs Ps i). pose proof (Q1_pos n Hn). lia. }
  split; [|split].
  - intros i j Hi Hj E. rewrite !EW in E by assumption. apply (W_inj n poly Hn r Hr P Mn) in E; [|apply B..].
    apply Nat2N.inj. apply (iter_distinct (mulx n poly) s (2 ^ n - 1)); try assumption; lia.
  - intros i Hi. rewrite EW by exact Hi. apply (W_pos n poly Hn r Hr P Mn), B.
  - intros p Lp T. destruct (W_surj n poly Hn r Hr P Mn p Lp T) as (x & Hx & E).
    destruct (proj1 (full_iff n poly Hn Hp s Hs) (conj Ps Ms)) as (_ & C). destruct (C x Hx) as (i & Hi & E').
    exists i. split; [exact Hi|]. rewrite EW by exact Hi. rewrite E'. exact E.
Qed.
Print Assumptions C63_windows.

(** the sequence of x^5 + x^2 + 1 from register 7 *)
Example C63_nonvacuous : (exists g, mls_bad (mls_ctor 37 1) 1 = Ok (false, g)) /\ has_degree 37 5 /\
  match mls_calls (31 + 3) (mls_ctor 37 7) with Ok (outs, _) => correlation 31 3 outs = (-1)%Z /\ window 5 4 outs = [true; true; true; false; false] | _ => False end.
Proof. unfold has_degree. split; [eexists; vm_compute; reflexivity|]. split; [vm_compute; split; congruence|]. vm_compute. split; reflexivity. Qed.
