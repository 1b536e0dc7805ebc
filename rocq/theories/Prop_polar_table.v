(** Property C87: the reliability table of the tests (tests/sequence.h). *)
From Coq Require Import ZifyBool ZifyNat ZifyN Permutation.
From Verif Require Import Cpp Model_polar_table Model_polar Spec_polar Lib_list Proof_bits Proof_polar1 Proof_polar2 Proof_pconst1 Proof_ptable Prop_polar Prop_polar_distance.
Local Open Scope nat_scope.
Ltac Zify.zify_post_hook ::= idtac.

Lemma sequence_is_entries : sequence = map Z.of_nat (map entry (seq 0 1024)).
Proof.
  apply list_ext with (d := 0%Z); [rewrite length_sequence, !map_length, seq_length; reflexivity|]. intros k Hk. rewrite length_sequence in Hk.
  rewrite map_map, nth_map_seq by exact Hk. destruct (entry_lt k Hk) as (_ & P). unfold entry. rewrite Z2Nat.id by exact P. replace (k <? 1024) with true by lia. reflexivity.
Qed.
Lemma entries_permuted : Permutation (map entry (seq 0 1024)) (seq 0 1024).
Proof.
  apply NoDup_Permutation; [|apply seq_NoDup|].
  - assert (X : forall l, NoDup l -> (forall i, In i l -> i < 1024) -> NoDup (map entry l)).
    { induction l as [|a l IH]; intros D B; cbn [map]; [constructor|]. inversion D; subst. constructor; [|apply IH; [assumption|intros i Hi; apply B; right; exact Hi]].
      intros H. apply in_map_iff in H. destruct H as (b & E & Hb). assert (b = a); [|congruence]. rewrite <- (place_entry a), <- (place_entry b), E; [reflexivity| |]; apply B; [right|left]; auto. }
    apply X; [apply seq_NoDup|]. intros i Hi. apply in_seq in Hi. lia.
  - intros j. rewrite in_map_iff, in_seq. split.
    + intros (i & <- & Hi). apply in_seq in Hi. split; [lia|]. apply entry_lt. lia.
    + intros Hj. exists (place j). destruct (entry_place j ltac:(lia)) as (P1 & P2). split; [exact P1|]. apply in_seq. lia.
Qed.
Lemma firstn_seq a n m : n <= m -> firstn n (seq a m) = seq a n.
Proof. revert a m. induction n as [|n IH]; intros a m H; [reflexivity|]. destruct m as [|m]; [lia|]. cbn [seq firstn]. f_equal. apply IH. lia. Qed.
Lemma in_first j n : j < 1024 -> n <= 1024 -> (place j < n <-> In (Z.of_nat j) (firstn n sequence)).
Proof.
  intros Hj Hn. rewrite sequence_is_entries, !firstn_map, firstn_seq by exact Hn. rewrite map_map, in_map_iff. split.
  - intros H. exists (place j). destruct (entry_place j Hj) as (P1 & _). split; [rewrite P1; reflexivity|]. apply in_seq. lia.
  - intros (i & E & Hi). apply in_seq in Hi. assert (entry i = j) as <- by lia. rewrite place_entry by lia. lia.
Qed.
Lemma count_permuted {T} (f : T -> bool) l l' : Permutation l l' -> length (filter f l) = length (filter f l').
Proof. induction 1; cbn [filter]; try congruence; try (destruct (f x); cbn [length]; congruence); destruct (f x), (f y); reflexivity. Qed.
Lemma count_from n : forall m a, a <= n -> n <= a + m -> length (filter (fun i => negb (i <? n)) (seq a m)) = a + m - n.
Proof.
  induction m as [|m IH]; intros a H1 H2; cbn [seq filter length]; [lia|]. destruct (Nat.ltb_spec a n) as [H|H]; cbn [negb].
  - rewrite IH by lia. lia.
  - assert (a = n) as -> by lia. cbn [length]. clear - n. assert (X : forall k b, n <= b -> length (filter (fun i => negb (i <? n)) (seq b k)) = k).
    { induction k as [|k IH]; intros b Hb; cbn [seq filter length]; [reflexivity|]. replace (b <? n) with false by lia. cbn [negb length]. rewrite IH by lia. reflexivity. }
    rewrite X by lia. lia.
Qed.
Lemma flags_places f n : (forall j, j < 1024 -> is_frozen f j = (place j <? n)) -> flags f 1024 = map (fun j => place j <? n) (seq 0 1024).
Proof. intros F. unfold flags. apply map_ext_in. intros j Hj. apply in_seq in Hj. apply F. lia. Qed.
Lemma unfrozen_places n : n <= 1024 -> unfrozen (map (fun j => place j <? n) (seq 0 1024)) = 1024 - n.
Proof.
  intros Hn. unfold unfrozen.
  assert (X : forall l, length (filter negb (map (fun j => place j <? n) l)) = length (filter (fun j => negb (place j <? n)) l)).
  { induction l as [|a l IH]; cbn [map filter]; [reflexivity|]. destruct (place a <? n); cbn [negb length]; lia. }
  rewrite X. rewrite <- (count_permuted _ _ _ entries_permuted).
  assert (Y : forall l, (forall i, In i l -> i < 1024) -> length (filter (fun j => negb (place j <? n)) (map entry l)) = length (filter (fun i => negb (i <? n)) l)).
  { induction l as [|a l IH]; intros B; cbn [map filter]; [reflexivity|]. rewrite place_entry by (apply B; left; reflexivity). destruct (a <? n); cbn [negb length]; rewrite IH by (intros i Hi; apply B; right; exact Hi); reflexivity. }
  rewrite Y by (intros i Hi; apply in_seq in Hi; lia). rewrite count_from by lia. lia.
Qed.

(** C87: the table lists each of the 1024 positions once *)
Theorem C87_permutation : Permutation sequence (map Z.of_nat (seq 0 1024)).
Proof. rewrite sequence_is_entries. apply Permutation_map, entries_permuted. Qed.
Print Assumptions C87_permutation.

(** C87: freezing the first n entries freezes exactly them, 1024 - n positions stay unfrozen, whatever was in the words; words beyond the 32 are left alone *)
Theorem C87_freezes_the_first : forall frozen n, 32 <= length frozen -> n <= 1024 ->
  exists f, freeze_sequence frozen n = Ok f /\ length f = length frozen /\ skipn 32 f = skipn 32 frozen /\
    (Forall (fun w => w < 2 ^ 32)%N frozen -> Forall (fun w => w < 2 ^ 32)%N f) /\
    (forall i, i < 1024 -> is_frozen f i = true <-> In (Z.of_nat i) (firstn n sequence)) /\
    unfrozen (flags f 1024) = 1024 - n /\ (n < 1024 -> last (flags f 1024) true = false).
Proof.
  intros frozen n HL Hn. destruct (freeze_ok frozen n HL Hn) as (f & E & L & S & W & F). exists f. split; [exact E|]. split; [exact L|]. split; [exact S|]. split; [exact W|].
  split; [intros i Hi; rewrite F by exact Hi; rewrite <- in_first by assumption; apply Nat.ltb_lt|]. rewrite (flags_places f n F). split; [apply unfrozen_places, Hn|].
  intros Hl. replace (seq 0 1024) with (seq 0 1023 ++ [1023]) by (symmetry; apply (seq_app 1023 1 0)). rewrite map_app. change (map (fun j => place j <? n) [1023]) with [place 1023 <? n]. rewrite last_last. rewrite last_place. lia.
Qed.
Print Assumptions C87_freezes_the_first.

(** C87: the codes are nested *)
Theorem C87_nested : forall frozen1 frozen2 n1 n2 f1 f2, 32 <= length frozen1 -> 32 <= length frozen2 -> n1 <= n2 -> n2 <= 1024 ->
  freeze_sequence frozen1 n1 = Ok f1 -> freeze_sequence frozen2 n2 = Ok f2 ->
  forall i, i < 1024 -> is_frozen f2 i = false -> is_frozen f1 i = false.
Proof.
  intros z1 z2 n1 n2 f1 f2 L1 L2 H1 H2 E1 E2 i Hi. destruct (freeze_ok z1 n1 L1 ltac:(lia)) as (g1 & D1 & _ & _ & _ & F1). destruct (freeze_ok z2 n2 L2 H2) as (g2 & D2 & _ & _ & _ & F2).
  rewrite E1 in D1. rewrite E2 in D2. injection D1 as <-. injection D2 as <-. rewrite F1, F2 by exact Hi. lia.
Qed.
Print Assumptions C87_nested.

(** ** Systematic encoding *)
Lemma bits_above i b : i < 1024 -> 10 <= b -> Nat.testbit i b = false.
Proof. intros H Hb. destruct (Nat.eq_dec i 0) as [->|Hi]; [apply Nat.bits_0|]. apply Nat.bits_above_log2. assert (Nat.log2 i < 10); [|lia]. apply Nat.log2_lt_pow2; [lia|]. change (2 ^ 10) with 1024. lia. Qed.
Lemma clear_bit j b : Nat.testbit j b = true -> Nat.ldiff j (2 ^ b) = j - 2 ^ b /\ 2 ^ b <= j.
Proof.
  intros T. assert (E : Nat.ldiff (2 ^ b) j = 0).
  { apply Nat.bits_inj_0. intros k. rewrite Nat.ldiff_spec, Nat.pow2_bits_eqb. destruct (Nat.eqb_spec b k) as [<-|]; [rewrite T|]; reflexivity. }
  pose proof (Nat.sub_nocarry_ldiff j (2 ^ b) E) as X. split; [symmetry; exact X|]. apply Nat.ldiff_le. exact E.
Qed.
(** positions below others come earlier or among the first 26 *)
Lemma below : forall w i j, i < 1024 -> j < 1024 -> Nat.land i j = i -> length (filter (fun b => Nat.testbit j b && negb (Nat.testbit i b)) (seq 0 10)) <= w -> place i <= place j \/ place i < 26.
Proof.
  induction w as [|w IH]; intros i j Hi Hj D C.
  - left. assert (i = j) as ->; [|lia]. apply Nat.bits_inj. intros b. destruct (Nat.lt_ge_cases b 10) as [Hb|Hb]; [|rewrite !bits_above by assumption; reflexivity].
    assert (T := f_equal (fun x => Nat.testbit x b) D). cbv beta in T. rewrite Nat.land_spec in T. destruct (Nat.testbit j b) eqn:J, (Nat.testbit i b) eqn:I; try reflexivity; cbn in T; try discriminate. exfalso.
    assert (In b (filter (fun b => Nat.testbit j b && negb (Nat.testbit i b)) (seq 0 10))) as X by (apply filter_In; split; [apply in_seq; lia|]; rewrite J, I; reflexivity).
    destruct (filter _ _); [destruct X|cbn [length] in C; lia].
  - destruct (existsb (fun b => Nat.testbit j b && negb (Nat.testbit i b)) (seq 0 10)) eqn:EX.
    + apply existsb_exists in EX. destruct EX as (b & Hb & T). apply in_seq in Hb. apply andb_true_iff in T. destruct T as (J & I). apply negb_true_iff in I.
      destruct (clear_bit j b J) as (CL & LE). set (j' := j - 2 ^ b) in *.
      assert (T' : forall k, Nat.testbit j' k = Nat.testbit j k && negb (b =? k)) by (intros k; rewrite <- CL, Nat.ldiff_spec, Nat.pow2_bits_eqb; reflexivity).
      assert (P : 1 <= 2 ^ b) by (change 1 with (2 ^ 0); apply Nat.pow_le_mono_r; lia).
      destruct (IH i j') as [Q|Q]; [exact Hi|unfold j'; lia| | | |right; exact Q].
      * apply Nat.bits_inj. intros k. rewrite Nat.land_spec, T'. assert (T := f_equal (fun x => Nat.testbit x k) D). cbv beta in T. rewrite Nat.land_spec in T.
        destruct (Nat.eqb_spec b k) as [<-|]; cbn [negb]; [rewrite I, andb_false_r; rewrite andb_false_r; reflexivity || reflexivity|rewrite andb_true_r; exact T].
      * assert (X : forall l, NoDup l -> In b l -> S (length (filter (fun b => Nat.testbit j' b && negb (Nat.testbit i b)) l)) <= length (filter (fun b => Nat.testbit j b && negb (Nat.testbit i b)) l)).
        { assert (Y : forall l, ~ In b l -> filter (fun b => Nat.testbit j' b && negb (Nat.testbit i b)) l = filter (fun b => Nat.testbit j b && negb (Nat.testbit i b)) l).
          { intros l N. apply filter_ext_in. intros k Hk. rewrite T'. destruct (Nat.eqb_spec b k) as [<-|]; [contradiction|]. cbn [negb]. rewrite andb_true_r. reflexivity. }
          induction l as [|a l IHl]; intros ND HIn; [destruct HIn|]. inversion ND as [|x y NA ND']. subst. cbn [filter]. destruct (Nat.eq_dec a b) as [->|Hab].
          - rewrite T', Nat.eqb_refl. cbn [negb]. rewrite andb_false_r. cbn [andb]. rewrite J, I. cbn [negb andb length]. rewrite Y by exact NA. lia.
          - destruct HIn as [?|HIn]; [congruence|]. specialize (IHl ND' HIn). rewrite T'. replace (b =? a) with false by lia. cbn [negb]. rewrite andb_true_r. destruct (Nat.testbit j a && negb (Nat.testbit i a)); cbn [length]; lia. }
        specialize (X (seq 0 10) (seq_NoDup _ _)). rewrite in_seq in X. specialize (X ltac:(lia)). lia.
      * destruct (edge j b Hj ltac:(lia) J) as [W|W]; fold j' in W; lia.
    + apply (IH i j); try assumption. apply not_true_iff_false in EX.
      assert (filter (fun b => Nat.testbit j b && negb (Nat.testbit i b)) (seq 0 10) = []) as ->; [|cbn; lia].
      destruct (filter _ _) as [|b l] eqn:EF; [reflexivity|]. exfalso. apply EX. apply existsb_exists. exists b. apply (proj1 (filter_In (fun b => Nat.testbit j b && negb (Nat.testbit i b)) b (seq 0 10))). rewrite EF. left. reflexivity.
Qed.
(** C87: from 26 frozen positions on the unfrozen ones are closed upwards in the domination order, as C41 wants for systematic encoding ... *)
Theorem C87_closed : forall frozen n f, 32 <= length frozen -> n = 0 \/ 26 <= n -> n <= 1024 -> freeze_sequence frozen n = Ok f -> domination_closed (flags f 1024).
Proof.
  intros z n f L Hn Hn' E. destruct (freeze_ok z n L Hn') as (g & D & _ & _ & _ & F). rewrite E in D. injection D as <-. intros i j Hi Hj A. rewrite length_flags in Hi, Hj.
  rewrite !(nth_indep _ true false) by (rewrite length_flags; assumption). rewrite !nth_flags by assumption. rewrite !F by assumption. destruct (below _ i j Hi Hj A (le_n _)); lia.
Qed.
Print Assumptions C87_closed.
(** ... and PolarSysEnc leaves the message at the unfrozen positions *)
Theorem C87_systematic : forall frozen n f codeword message, 32 <= length frozen -> n = 0 \/ 26 <= n -> n <= 1024 -> freeze_sequence frozen n = Ok f ->
  1024 <= length codeword -> 1024 - n <= length message -> Forall pm1 message ->
  exists cw, polar_sysenc ops8 codeword message f 10 = Ok cw /\ collect (flags f 1024) (firstn 1024 cw) = firstn (1024 - n) message.
Proof.
  intros z n f codeword message L Hn Hn' E LC LM FM. destruct (C87_freezes_the_first z n L Hn') as (g & D & Lf & _ & _ & _ & U & _). rewrite E in D. injection D as <-.
  destruct (C41_systematic codeword message f 10) as (cw & E' & C & _).
  - unfold encoder_buffers. change (2 ^ 10) with 1024. rewrite U. split; [lia|]. split; [lia|]. split; [lia|]. exact LM.
  - exact FM.
  - exact (C87_closed z n f L Hn Hn' E).
  - exists cw. split; [exact E'|]. change (2 ^ 10) with 1024 in C. rewrite U in C. exact C.
Qed.
Print Assumptions C87_systematic.

(** C87: between 1 and 25 frozen positions they are not, and there is a message PolarSysEnc does not leave at the unfrozen positions: the test's [systematic] switch needs N - K >= 26 *)
Definition all_but (k m : nat) : list Z := map (fun i => if i =? k then (-1)%Z else 1%Z) (seq 0 m).
Lemma pm1_all_but k m : Forall pm1 (all_but k m).
Proof. apply Forall_forall. intros x Hx. apply in_map_iff in Hx. destruct Hx as (i & <- & _). unfold pm1. destruct (i =? k); auto. Qed.
Lemma nth_all_but k m i d : i < m -> nth i (all_but k m) d = if i =? k then (-1)%Z else 1%Z.
Proof. intros H. unfold all_but. rewrite nth_map_seq. replace (i <? m) with true by lia. reflexivity. Qed.
(** a product of ones with one -1 *)
Lemma product_one k : forall l, NoDup l -> product (map (fun i => if i =? k then (-1)%Z else 1%Z) l) = if existsb (fun i => i =? k) l then (-1)%Z else 1%Z.
Proof.
  induction l as [|a l IH]; intros D; [reflexivity|]. inversion D as [|? ? NA D']; subst. cbn [map existsb]. unfold product in *. cbn [fold_right]. rewrite IH by exact D'.
  destruct (Nat.eqb_spec a k) as [->|Hne]; cbn [orb]; [|lia]. destruct (existsb (fun i => i =? k) l) eqn:X; [|reflexivity]. exfalso.
  apply existsb_exists in X. destruct X as (b & Hb & E). apply Nat.eqb_eq in E. subst b. contradiction.
Qed.
Lemma product_ones (f : nat -> Z) l : (forall i, In i l -> f i = 1%Z) -> product (map f l) = 1%Z.
Proof.
  induction l as [|a l IH]; intros H; [reflexivity|]. unfold product in *. cbn [map fold_right]. rewrite IH, (H a) by (auto with datatypes). reflexivity.
Qed.
Lemma land_le_seven i : 8 <= i -> Nat.land 7 i <> i.
Proof. intros H E. pose proof (Nat.land_ones i 3) as X. change (Nat.ones 3) with 7 in X. rewrite Nat.land_comm, E in X. pose proof (Nat.mod_upper_bound i (2 ^ 3) ltac:(discriminate)) as Y. rewrite <- X in Y. change (2 ^ 3) with 8 in Y. lia. Qed.
Lemma transform_one i : i < 1024 -> nth i (transform 10 (all_but 7 1024)) 1%Z = if Nat.land 7 i =? i then (-1)%Z else 1%Z.
Proof.
  intros Hi. unfold transform. change (2 ^ 10) with 1024. rewrite nth_map_seq. replace (i <? 1024) with true by lia.
  rewrite (map_ext_in _ (fun i => if i =? 7 then (-1)%Z else 1%Z)).
  2: { intros k Hk. apply filter_In in Hk. destruct Hk as (Hk & _). apply in_seq in Hk. apply nth_all_but. lia. }
  rewrite product_one by (apply NoDup_filter, seq_NoDup). cbn [Nat.add].
  destruct (Nat.eqb_spec (Nat.land 7 i) i) as [E|E].
  - replace (existsb _ _) with true; [reflexivity|]. symmetry. apply existsb_exists. exists 7. split; [|reflexivity]. apply filter_In. split; [apply in_seq; lia|]. apply Nat.eqb_eq. exact E.
  - destruct (existsb _ _) eqn:X; [|reflexivity]. exfalso. apply existsb_exists in X. destruct X as (k & Hk & E'). apply Nat.eqb_eq in E'. subst k. apply filter_In in Hk. destruct Hk as (_ & L). apply Nat.eqb_eq in L. contradiction.
Qed.
Lemma first_places : forallb (fun n => negb (place 1 <? n) && (place 3 <? n) && negb (place 5 <? n) && negb (place 7 <? n)) (seq 1 25) = true.
Proof. vm_compute. reflexivity. Qed.
Lemma collect_at fl : forall v w j, length v = length fl -> length w = length fl -> collect fl v = collect fl w -> j < length fl -> nth j fl true = false -> nth j v 0%Z = nth j w 0%Z.
Proof.
  induction fl as [|f fl IH]; intros [|x v] [|y w] j Lv Lw E Hj Ef; cbn [length] in *; try lia. destruct j as [|j]; cbn [nth] in *.
  - subst f. cbn [collect] in E. congruence.
  - apply IH; try lia; [|exact Ef]. destruct f; cbn [collect] in E; [exact E|congruence].
Qed.
Theorem C87_not_systematic_below_26 : forall n, 1 <= n <= 25 -> exists f message cw,
  freeze_sequence (repeat 0%N 32) n = Ok f /\ Forall pm1 message /\ length message = 1024 - n /\
  polar_sysenc ops8 (repeat 0%Z 1024) message f 10 = Ok cw /\ collect (flags f 1024) (firstn 1024 cw) <> message.
Proof.
  intros n Hn. destruct (freeze_ok (repeat 0%N 32) n) as (f & E & L & _ & _ & F); [rewrite repeat_length; apply le_n|lia|]. rewrite repeat_length in L.
  pose proof (flags_places f n F) as EF. set (fl := flags f 1024) in *. assert (length fl = 1024) as Lf by apply length_flags.
  assert (unfrozen fl = 1024 - n) as U by (rewrite EF; apply unfrozen_places; lia).
  assert (forall i, i < 1024 -> nth i fl true = (place i <? n)) as NF by (intros i Hi; rewrite EF, nth_map_seq; replace (i <? 1024) with true by lia; reflexivity).
  pose proof first_places as FP. rewrite forallb_forall in FP. specialize (FP n ltac:(apply in_seq; lia)).
  apply andb_true_iff in FP. destruct FP as (FP & P7). apply andb_true_iff in FP. destruct FP as (FP & P5). apply andb_true_iff in FP. destruct FP as (P1 & P3).
  apply negb_true_iff in P1, P5, P7.
  set (u := all_but 7 1024). assert (length u = 1024) as Lu by (unfold u, all_but; rewrite map_length, seq_length; reflexivity).
  destruct (collect_keep fl u ltac:(lia)) as (K1 & K2).
  assert (keep fl u = u) as K3.
  { apply (list_ext _ _ 1%Z); [apply length_keep; lia|]. intros i Hi. rewrite length_keep in Hi by lia. rewrite nth_keep by lia. rewrite NF by lia.
    destruct (place i <? n) eqn:Pi; [|reflexivity]. unfold u. rewrite nth_all_but by lia. destruct (Nat.eqb_spec i 7) as [->|]; [congruence|reflexivity]. }
  rewrite K3 in K1. exists f, (collect fl u). eexists. split; [exact E|]. split; [apply collect_pm1, pm1_all_but|]. split; [lia|].
  pose proof (sysenc_ok (repeat 0%Z 1024) (collect fl u) f 10) as S. change (2 ^ 10) with 1024 in S. fold fl in S. rewrite <- K1 in S.
  split; [apply S; [lia|lia|rewrite repeat_length; lia|lia|apply collect_pm1, pm1_all_but]|].
  set (y := transform 10 (keep fl (transform 10 u))). assert (length y = 1024) as Ly by (unfold y; apply length_transform).
  rewrite firstn_app, Ly, Nat.sub_diag, firstn_O, app_nil_r, firstn_all2 by lia. intros X. apply (collect_at fl _ _ 1) in X; [|lia|lia|lia|rewrite NF by lia; exact P1].
  assert (nth 1 u 0%Z = 1%Z) as U1 by (unfold u; rewrite nth_all_but; [reflexivity|lia]).
  assert (nth 1 y 0%Z = 1%Z) as X1 by (etransitivity; [exact X|exact U1]). clear X. rename X1 into X.
  assert (nth 1 y 0%Z = (-1)%Z) as Y; [|rewrite Y in X; discriminate]. unfold y, transform at 1. change (2 ^ 10) with 1024. rewrite (nth_indep _ 0%Z 1%Z) by (rewrite map_length, seq_length; lia).
  rewrite nth_map_seq. change (1 <? 1024) with true. cbv iota. cbn [Nat.add].
  assert (length (transform 10 u) = 1024) as Lx by apply length_transform.
  assert (forall i, i < 1024 -> nth i (keep fl (transform 10 u)) 1%Z = if place i <? n then 1%Z else if Nat.land 7 i =? i then (-1)%Z else 1%Z) as G.
  { intros i Hi. rewrite nth_keep by lia. rewrite NF by exact Hi. destruct (place i <? n); [reflexivity|]. apply transform_one. exact Hi. }
  replace (seq 0 1024) with (seq 0 8 ++ seq 8 1016) by (symmetry; apply (seq_app 8 1016 0)). rewrite filter_app, map_app, product_app.
  rewrite (product_ones _ (filter (fun i => Nat.land i 1 =? 1) (seq 8 1016))).
  2: { intros i Hi. apply filter_In in Hi. destruct Hi as (Hi & _). apply in_seq in Hi. rewrite G by lia. destruct (place i <? n); [reflexivity|].
       destruct (Nat.eqb_spec (Nat.land 7 i) i) as [B|B]; [|reflexivity]. exfalso. apply (land_le_seven i); [lia|exact B]. }
  change (filter (fun i => Nat.land i 1 =? 1) (seq 0 8)) with [1; 3; 5; 7]. cbn [map]. rewrite !G by lia. rewrite P1, P3, P5, P7. reflexivity.
Qed.
Print Assumptions C87_not_systematic_below_26.

(** ** Distance *)
(** the fewest ones among the positions left *)
Definition strength (n : nat) : nat :=
  if n <? 5 then 0 else if n <? 36 then 1 else if n <? 254 then 2 else if n <? 434 then 3 else if n <? 590 then 4 else if n <? 748 then 5 else if n <? 882 then 6 else if n <? 973 then 7 else if n <? 1013 then 8 else if n <? 1023 then 9 else 10.
Lemma strong j n : j < 1024 -> n <= 1024 -> n <= place j -> strength n <= one_bits 10 j.
Proof.
  assert (H : forallb (fun j => strength (place j) <=? one_bits 10 j) (seq 0 1024) = true) by (vm_compute; reflexivity).
  intros Hj Hn HP. assert (X := all_lt _ _ H j Hj). cbv beta in X. apply Nat.leb_le in X. etransitivity; [|exact X].
  assert (M : forallb (fun n => strength n <=? strength (S n)) (seq 0 1024) = true) by (vm_compute; reflexivity).
  destruct (entry_place j Hj) as (_ & B). clear - HP B M. induction HP as [|m HP IH]; [apply le_n|]. etransitivity; [apply IH; lia|]. assert (Y := all_lt _ _ M m ltac:(lia)). cbv beta in Y. apply Nat.leb_le in Y. exact Y.
Qed.
Definition weakest (n : nat) : nat :=
  if n <? 5 then 4 else if n <? 36 then 35 else if n <? 254 then 253 else if n <? 434 then 433 else if n <? 590 then 589 else if n <? 748 then 747 else if n <? 882 then 881 else if n <? 973 then 972 else if n <? 1013 then 1012 else if n <? 1023 then 1022 else 1023.
Lemma weak_one n : n < 1024 -> exists j, j < 1024 /\ n <= place j /\ one_bits 10 j = strength n.
Proof.
  assert (H : forallb (fun n => (one_bits 10 (entry (weakest n)) =? strength n) && (n <=? weakest n) && (weakest n <? 1024)) (seq 0 1024) = true) by (vm_compute; reflexivity).
  intros Hn. assert (X := all_lt _ _ H n Hn). cbv beta in X. apply andb_true_iff in X. destruct X as (X & B). apply andb_true_iff in X. destruct X as (E & P). apply Nat.ltb_lt in B. apply Nat.leb_le in P.
  exists (entry (weakest n)). split; [apply entry_lt; exact B|]. rewrite place_entry by exact B. split; [exact P|]. apply Nat.eqb_eq. exact E.
Qed.
(** C87: the minimum distance of the codes: with n positions frozen codewords of different messages differ in at least 2^(strength n) places, and some only in so many *)
Theorem C87_distance : forall frozen n f codeword codeword' m1 m2 c1 c2, 32 <= length frozen -> n < 1024 -> freeze_sequence frozen n = Ok f ->
  1024 <= length codeword -> 1024 <= length codeword' -> length m1 = 1024 - n -> length m2 = 1024 - n -> Forall pm1 m1 -> Forall pm1 m2 ->
  polar_encode ops8 codeword m1 f 10 = Ok c1 -> polar_encode ops8 codeword' m2 f 10 = Ok c2 -> m1 <> m2 ->
  2 ^ strength n <= differ (firstn 1024 c1) (firstn 1024 c2).
Proof.
  intros z n f w w' m1 m2 c1 c2 L Hn E LW LW' L1 L2 P1 P2 E1 E2 N. destruct (C87_freezes_the_first z n L ltac:(lia)) as (g & D & Lf & _ & _ & _ & U & _). rewrite E in D. injection D as <-.
  destruct (freeze_ok z n L ltac:(lia)) as (g & D & _ & _ & _ & F). rewrite E in D. injection D as <-.
  assert (X := C81_minimum_distance w w' m1 m2 f 10 c1 c2 (strength n)). change (2 ^ 10) with 1024 in X. unfold encoder_buffers in X. change (2 ^ 10) with 1024 in X. rewrite U in X. apply X; try assumption.
  - split; [lia|]. split; [lia|]. split; [exact LW|]. rewrite L1. apply le_n.
  - split; [lia|]. split; [lia|]. split; [exact LW'|]. rewrite L2. apply le_n.
  - intros i Hi. rewrite (nth_indep _ true false) by (rewrite length_flags; exact Hi). rewrite nth_flags, F by exact Hi. intros G. apply strong; [exact Hi|lia|lia].
  - rewrite !firstn_all2; [exact N|rewrite L2; apply le_n|rewrite L1; apply le_n].
Qed.
Print Assumptions C87_distance.
Theorem C87_distance_is_attained : forall frozen n f codeword m1 c1, 32 <= length frozen -> n < 1024 -> freeze_sequence frozen n = Ok f ->
  1024 <= length codeword -> length m1 = 1024 - n -> Forall pm1 m1 -> polar_encode ops8 codeword m1 f 10 = Ok c1 ->
  exists m2 c2, Forall pm1 m2 /\ length m2 = length m1 /\ polar_encode ops8 codeword m2 f 10 = Ok c2 /\ differ m1 m2 = 1 /\ differ (firstn 1024 c1) (firstn 1024 c2) = 2 ^ strength n.
Proof.
  intros z n f w m1 c1 L Hn E LW L1 P1 E1. destruct (C87_freezes_the_first z n L ltac:(lia)) as (g & D & Lf & _ & _ & _ & U & _). rewrite E in D. injection D as <-.
  destruct (freeze_ok z n L ltac:(lia)) as (g & D & _ & _ & _ & F). rewrite E in D. injection D as <-. destruct (weak_one n Hn) as (j & Hj & HP & W).
  assert (X := C81_distance_is_attained w m1 f 10 c1 j). change (2 ^ 10) with 1024 in X. unfold encoder_buffers in X. change (2 ^ 10) with 1024 in X. rewrite U, W in X.
  destruct X as (m2 & c2 & A1 & A2 & A3 & A4 & A5); [split; [lia|]; split; [lia|]; split; [exact LW|]; rewrite L1; apply le_n|exact P1|exact E1|exact Hj| |].
  - rewrite (nth_indep _ true false) by (rewrite length_flags; exact Hj). rewrite nth_flags, F by exact Hj. lia.
  - exists m2, c2. auto.
Qed.
Print Assumptions C87_distance_is_attained.

(** the code of the regression test: N = 1024, K = 716 *)
Example C87_nonvacuous : 32 <= length (repeat 77%N 33) /\ 26 <= 308 /\ strength 308 = 3 /\
  (f <- freeze_sequence (repeat 77%N 33) 308 ;; Ok (nth 0 f 0%N, nth 31 f 0%N, nth 32 f 0%N, unfrozen (flags f 1024))) = Ok (4294967295%N, 0%N, 77%N, 716) /\
  (f <- freeze_sequence (repeat 77%N 33) 308 ;; c1 <- polar_encode ops8 (repeat 0%Z 1024) (all_but 0 716) f 10 ;; c2 <- polar_encode ops8 (repeat 0%Z 1024) (all_but 1000 716) f 10 ;; Ok (differ c1 c2)) = Ok 64.
Proof. split; [cbn; lia|]. split; [lia|]. split; [reflexivity|]. split; vm_compute; reflexivity. Qed.
