(** Proofs about interleave.hh and exclusive_reduce.hh. *)
From Coq Require Import ZifyBool ZifyNat ZifyN Permutation.
From Verif Require Import Cpp Lib_list Model_perm Spec_perm.

(** ** Writing all elements of a two-dimensional index space *)
Lemma scatter {A} (L O : nat) (f : nat -> nat -> nat) (g : nat -> nat -> res A) (v : nat -> nat -> A) (out : list A) :
  (forall i j, i < L -> j < O -> g i j = Ok (v i j) /\ f i j < length out) ->
  (forall i j i' j', i < L -> j < O -> i' < L -> j' < O -> f i j = f i' j' -> i = i' /\ j = j') ->
  exists out',
    for_up 0 L (fun i out => for_up 0 O (fun j out => x <- g i j ;; wr out (f i j) x) out) out = Ok out' /\
    length out' = length out /\
    (forall i j, i < L -> j < O -> nth_error out' (f i j) = Some (v i j)) /\
    (forall x, (forall i j, i < L -> j < O -> f i j <> x) -> nth_error out' x = nth_error out x).
Proof.
  intros Hg Hinj.
  set (done := fun i j i' j' => i' < i \/ (i' = i /\ j' < j)).
  set (I := fun i j o => length o = length out /\
    (forall i' j', i' < L -> j' < O -> done i j i' j' -> nth_error o (f i' j') = Some (v i' j')) /\
    (forall x, (forall i' j', i' < L -> j' < O -> done i j i' j' -> f i' j' <> x) -> nth_error o x = nth_error out x)).
  edestruct (for_up_inv (fun i o => I i 0 o)) as (o & E & IL).
  4: { exists o. split; [exact E|]. destruct IL as (H1 & H2 & H3). split; [exact H1|]. split.
       - intros i j Hi Hj. apply H2; auto. unfold done. lia.
       - intros x Hx. apply H3. intros. apply Hx; assumption. }
  - lia.
  - intros i o Hi Ho. cbv beta.
    edestruct (for_up_inv (fun j o => I i j o)) as (o2 & E2 & I2).
    4: { exists o2. split; [exact E2|]. destruct I2 as (H1 & H2 & H3). split; [exact H1|]. split.
         - intros i' j' Hi' Hj' [D|D]; [|lia]. apply H2; auto. unfold done. lia.
         - intros x Hx. apply H3. intros i' j' Hi' Hj' [D|D]; apply Hx; auto; unfold done; lia. }
    + lia.
    + intros j o1 Hj (H1 & H2 & H3). destruct (Hg i j ltac:(lia) ltac:(lia)) as (Eg & Hf).
      rewrite Eg. cbn [bind]. rewrite wr_Ok by lia. eexists. split; [reflexivity|].
      split; [rewrite length_upd; exact H1|]. split.
      * intros i' j' Hi' Hj' D. rewrite nth_error_upd.
        destruct (Nat.eqb_spec (f i j) (f i' j')) as [Ef|Nf].
        -- destruct (Hinj i j i' j') as (-> & ->); try lia.
           destruct (Nat.ltb_spec (f i' j') (length o1)); [reflexivity|lia].
        -- cbn [andb]. apply H2; auto. destruct D as [D|(-> & D)]; [left; exact D|].
           right. split; [reflexivity|]. assert (j' <> j) by (intros ->; auto). lia.
      * intros x Hx. rewrite nth_error_upd. destruct (Nat.eqb_spec (f i j) x) as [Ef|Nf].
        -- exfalso. apply (Hx i j); try lia. right. lia. 
        -- cbn [andb]. apply H3. intros i' j' Hi' Hj' D. apply Hx; auto. destruct D; [left|right]; lia.
    + exact Ho.
  - split; [reflexivity|]. split.
    + intros i' j' _ _ [D|D]; lia.
    + reflexivity.
Qed.

Section Interleave.
Context {A : Type} (SIZE ORDER : nat).
Hypothesis HO : 0 < ORDER.
Hypothesis HD : SIZE mod ORDER = 0.
Let LENGTH := SIZE / ORDER.
Lemma SIZE_eq : SIZE = ORDER * LENGTH.
Proof. unfold LENGTH. pose proof (Nat.div_mod SIZE ORDER). lia. Qed.

Lemma idx_split x : x < SIZE -> exists i j, i < LENGTH /\ j < ORDER /\ x = i + j * LENGTH.
Proof.
  intros Hx. pose proof SIZE_eq as E. assert (LENGTH <> 0) by nia.
  exists (x mod LENGTH), (x / LENGTH). pose proof (Nat.div_mod x LENGTH ltac:(lia)).
  pose proof (Nat.mod_upper_bound x LENGTH ltac:(lia)).
  assert (x / LENGTH < ORDER) by (apply Nat.div_lt_upper_bound; nia). nia.
Qed.
Lemma idx_split' x : x < SIZE -> exists i j, i < LENGTH /\ j < ORDER /\ x = ORDER * i + j.
Proof.
  intros Hx. pose proof SIZE_eq as E.
  exists (x / ORDER), (x mod ORDER). pose proof (Nat.div_mod x ORDER ltac:(lia)).
  pose proof (Nat.mod_upper_bound x ORDER ltac:(lia)).
  assert (x / ORDER < LENGTH) by (apply Nat.div_lt_upper_bound; nia). nia.
Qed.

Lemma interleave_ok (out inp : list A) : length inp = SIZE -> length out = SIZE ->
  exists out', interleave SIZE ORDER out inp = Ok out' /\ length out' = SIZE /\
    forall i j, i < LENGTH -> j < ORDER -> nth_error out' (ORDER * i + j) = nth_error inp (i + j * LENGTH).
Proof.
  intros Hi Ho. pose proof SIZE_eq as E. unfold interleave. fold LENGTH.
  destruct inp as [|d inp0] eqn:Einp.
  { cbn in Hi. subst SIZE. assert (LENGTH = 0) by nia. rewrite for_up_nil by lia.
    eexists. split; [reflexivity|]. split; [lia|]. intros; lia. }
  rewrite <- Einp in *.
  destruct (scatter LENGTH ORDER (fun i j => ORDER * i + j) (fun i j => rd inp (i + j * LENGTH))
              (fun i j => nth (i + j * LENGTH) inp d) out) as (o & E1 & E2 & E3 & _).
  - intros i j Hi' Hj. split; [apply rd_nth; nia|nia].
  - intros i j i' j' ? ? ? ? EE. assert (i = i') by nia. subst. lia.
  - exists o. split; [exact E1|]. split; [lia|]. intros i j Hi' Hj. rewrite E3 by assumption.
    symmetry. apply nth_error_nth'. nia.
Qed.

Lemma deinterleave_ok (out inp : list A) : length inp = SIZE -> length out = SIZE ->
  exists out', deinterleave SIZE ORDER out inp = Ok out' /\ length out' = SIZE /\
    forall i j, i < LENGTH -> j < ORDER -> nth_error out' (i + j * LENGTH) = nth_error inp (ORDER * i + j).
Proof.
  intros Hi Ho. pose proof SIZE_eq as E. unfold deinterleave. fold LENGTH.
  destruct inp as [|d inp0] eqn:Einp.
  { cbn in Hi. subst SIZE. assert (LENGTH = 0) by nia. rewrite for_up_nil by lia.
    eexists. split; [reflexivity|]. split; [lia|]. intros; lia. }
  rewrite <- Einp in *.
  destruct (scatter LENGTH ORDER (fun i j => i + j * LENGTH) (fun i j => rd inp (ORDER * i + j))
              (fun i j => nth (ORDER * i + j) inp d) out) as (o & E1 & E2 & E3 & _).
  - intros i j Hi' Hj. split; [apply rd_nth; nia|nia].
  - intros i j i' j' ? ? ? ? EE. assert (j = j') by nia. subst. lia.
  - exists o. split; [exact E1|]. split; [lia|]. intros i j Hi' Hj. rewrite E3 by assumption.
    symmetry. apply nth_error_nth'. nia.
Qed.

Lemma nth_error_ext_len (a b : list A) : length a = length b ->
  (forall x, x < length a -> nth_error a x = nth_error b x) -> a = b.
Proof.
  revert b; induction a as [|x a IH]; intros [|y b] Hl H; try discriminate; [reflexivity|].
  pose proof (H 0 ltac:(cbn; lia)) as H0. cbn in H0. injection H0 as ->. f_equal.
  apply IH; [cbn in Hl; lia|]. intros z Hz. apply (H (S z)). cbn. lia.
Qed.

Lemma deinterleave_interleave (inp out1 out2 : list A) :
  length inp = SIZE -> length out1 = SIZE -> length out2 = SIZE ->
  exists mid, interleave SIZE ORDER out1 inp = Ok mid /\ deinterleave SIZE ORDER out2 mid = Ok inp.
Proof.
  intros H0 H1 H2. destruct (interleave_ok out1 inp H0 H1) as (mid & E1 & L1 & M1).
  destruct (deinterleave_ok out2 mid L1 H2) as (fin & E2 & L2 & M2).
  exists mid. split; [exact E1|]. rewrite E2. f_equal. apply nth_error_ext_len; [lia|].
  intros x Hx. destruct (idx_split x ltac:(lia)) as (i & j & Hi & Hj & ->).
  rewrite M2, M1 by assumption. reflexivity.
Qed.
Lemma interleave_deinterleave (inp out1 out2 : list A) :
  length inp = SIZE -> length out1 = SIZE -> length out2 = SIZE ->
  exists mid, deinterleave SIZE ORDER out1 inp = Ok mid /\ interleave SIZE ORDER out2 mid = Ok inp.
Proof.
  intros H0 H1 H2. destruct (deinterleave_ok out1 inp H0 H1) as (mid & E1 & L1 & M1).
  destruct (interleave_ok out2 mid L1 H2) as (fin & E2 & L2 & M2).
  exists mid. split; [exact E1|]. rewrite E2. f_equal. apply nth_error_ext_len; [lia|].
  intros x Hx. destruct (idx_split' x ltac:(lia)) as (i & j & Hi & Hj & ->).
  rewrite M2, M1 by assumption. reflexivity.
Qed.
Lemma interleave_perm (inp out out' : list A) :
  length inp = SIZE -> length out = SIZE -> interleave SIZE ORDER out inp = Ok out' -> Permutation inp out'.
Proof.
  intros H0 H1 E. destruct (interleave_ok out inp H0 H1) as (o & E1 & L1 & M1).
  rewrite E in E1. injection E1 as <-.
  pose proof SIZE_eq as ES.
  apply Permutation_nth_error. split; [lia|].
  assert (NZ : forall x, x < SIZE -> LENGTH <> 0) by nia.
  exists (fun x => if x <? SIZE then x / ORDER + (x mod ORDER) * LENGTH else x). split.
  - intros x y.
    destruct (Nat.ltb_spec x SIZE), (Nat.ltb_spec y SIZE); intros Exy.
    + pose proof (Nat.div_mod x ORDER ltac:(lia)). pose proof (Nat.div_mod y ORDER ltac:(lia)).
      pose proof (Nat.mod_upper_bound x ORDER ltac:(lia)). pose proof (Nat.mod_upper_bound y ORDER ltac:(lia)).
      assert (x / ORDER < LENGTH) by (apply Nat.div_lt_upper_bound; nia).
      assert (y / ORDER < LENGTH) by (apply Nat.div_lt_upper_bound; nia).
      assert (x mod ORDER = y mod ORDER) by nia. nia.
    + pose proof (Nat.mod_upper_bound x ORDER ltac:(lia)).
      assert (x / ORDER < LENGTH) by (apply Nat.div_lt_upper_bound; nia). nia.
    + pose proof (Nat.mod_upper_bound y ORDER ltac:(lia)).
      assert (y / ORDER < LENGTH) by (apply Nat.div_lt_upper_bound; nia). nia.
    + exact Exy.
  - intros x. destruct (Nat.ltb_spec x SIZE) as [Hx|Hx].
    + pose proof (Nat.div_mod x ORDER ltac:(lia)). pose proof (Nat.mod_upper_bound x ORDER ltac:(lia)).
      assert (x / ORDER < LENGTH) by (apply Nat.div_lt_upper_bound; nia).
      rewrite <- M1 by lia. f_equal. lia.
    + transitivity (@None A); [|symmetry]; apply nth_error_None; lia.
Qed.
End Interleave.

(** ** exclusive_reduce *)
Section Reduce.
Context {A : Type} (op : A -> A -> A).
Hypothesis op_assoc : forall a b c, op (op a b) c = op a (op b c).
Hypothesis op_comm : forall a b, op a b = op b a.

Lemma fold_op (l : list A) : forall a b, fold_left op l (op a b) = op a (fold_left op l b).
Proof. induction l as [|x l IH]; intros a b; cbn [fold_left]; [reflexivity|]. rewrite op_assoc. apply IH. Qed.

(** Reduction of inp[i..N-1] accumulated from the right *)
Lemma exclusive_reduce_ok (inp out : list A) (N : nat) : 2 <= N -> length inp = N -> N <= length out ->
  exists out', exclusive_reduce inp out N op = Ok out' /\ length out' = length out /\
    (forall i, i < N -> nth_error out' i = reduction op (without i inp)) /\
    (forall i, N <= i -> nth_error out' i = nth_error out i).
Proof.
  intros HN Hi Ho. destruct inp as [|d inp'] eqn:Einp; [cbn in Hi; lia|]. rewrite <- Einp in *.
  set (pf := fun i => fold_left op (firstn (i - 1) (skipn 1 inp)) (nth 0 inp d)).
  assert (PF : forall i, 1 <= i < N -> op (pf i) (nth i inp d) = pf (S i)).
  { intros i H. unfold pf. replace (S i - 1) with (S (i - 1)) by lia.
    assert (X : firstn (S (i - 1)) (skipn 1 inp) = firstn (i - 1) (skipn 1 inp) ++ [nth i inp d]).
    { subst inp. cbn [skipn]. replace i with (S (i - 1)) at 3 by lia. cbn [nth].
      revert H Hi. clear. intros H Hi. cbn [length] in Hi.
      assert (i - 1 < length inp') by lia. clear H Hi. revert H0. generalize (i - 1). clear.
      induction inp' as [|x l IH]; intros k Hk; [cbn in Hk; lia|]. destruct k; [reflexivity|].
      cbn [firstn nth app]. f_equal. apply IH. cbn in Hk. lia. }
    rewrite X, fold_left_app. reflexivity. }
  (* sf i: reduction of inp[i+1 .. N-1] from the right *)
  set (sf := fun i => fold_left op (rev (firstn (N - 1 - S i) (skipn (S i) inp))) (nth (N - 1) inp d)).
  assert (SF : forall i, i + 2 <= N - 1 + 1 -> S i < N - 1 + 1 -> i + 1 < N - 1 -> op (sf (S i)) (nth (S i) inp d) = sf i).
  { intros i _ _ H. unfold sf.
    assert (X : firstn (N - 1 - S i) (skipn (S i) inp) = nth (S i) inp d :: firstn (N - 1 - S (S i)) (skipn (S (S i)) inp)).
    { assert (L : S i < length inp) by lia. replace (N - 1 - S i) with (S (N - 1 - S (S i))) by lia.
      generalize (N - 1 - S (S i)). intros k. clear - L. revert L. generalize (S i). clear i.
      induction inp as [|x l IH]; intros n L; [cbn in L; lia|]. destruct n; [reflexivity|].
      cbn [skipn nth]. apply IH. cbn in L. lia. }
    rewrite X. cbn [rev]. rewrite fold_left_app. reflexivity. }
  unfold exclusive_reduce. rewrite (rd_nth inp 0 d) by lia. cbn [bind].
  edestruct (for_up_inv (fun i '(pre, o) => pre = pf i /\ length o = length out /\
      (forall x, 1 <= x < i -> nth_error o x = Some (pf x)) /\
      (forall x, x = 0 \/ i <= x -> nth_error o x = nth_error out x))) as ((pre & o1) & E1 & (P1 & L1 & D1 & U1)).
  4: rewrite E1; cbn [bind].
  { lia. }
  { intros j (pre & o) Hj (P & L & D & U). rewrite wr_Ok by lia. cbn [bind]. rewrite (rd_nth inp j d) by lia. cbn [bind].
    eexists. split; [reflexivity|]. cbv beta iota. subst pre. rewrite PF by lia. split; [reflexivity|].
    rewrite length_upd. split; [exact L|]. split.
    - intros x Hx. rewrite nth_error_upd. destruct (Nat.eqb_spec j x) as [->|]; cbn [andb].
      + destruct (Nat.ltb_spec x (length o)); [reflexivity|lia].
      + apply D. lia.
    - intros x Hx. rewrite nth_error_upd. destruct (Nat.eqb_spec j x) as [->|]; cbn [andb]; [lia|]. apply U. lia. }
  { cbv beta iota. split; [reflexivity|]. split; [reflexivity|]. split; [intros; lia|reflexivity]. }
  rewrite wr_Ok by lia. cbn [bind]. rewrite (rd_nth inp (N - 1) d) by lia. cbn [bind].
  edestruct (for_down_inv (fun i '(suf, o) => suf = sf (i - 1) /\ length o = length out /\
      (forall x, 1 <= x < i -> nth_error o x = Some (pf x)) /\
      (forall x, i <= x < N - 1 -> nth_error o x = Some (op (pf x) (sf x))) /\
      nth_error o (N - 1) = Some (pf (N - 1)) /\
      (forall x, N <= x -> nth_error o x = nth_error out x))
      ) as ((suf & o2) & E2 & (P2 & L2 & D2 & F2 & T2 & U2)).
  4: rewrite E2; cbn [bind].
  { lia. }
  { intros j (suf & o) Hj (P & L & D & F & T & U).
    rewrite (rd_nth o j d) by lia. cbn [bind]. rewrite wr_Ok by lia. cbn [bind]. rewrite (rd_nth inp j d) by lia. cbn [bind].
    assert (Oj : nth j o d = pf j) by (apply nth_error_nth; apply D; lia).
    eexists. split; [reflexivity|]. cbv beta iota. rewrite Oj, length_upd.
    replace (S j - 1) with j in P by lia. subst suf.
    split.
    { specialize (SF (j - 1)). replace (S (j - 1)) with j in SF by lia. apply SF; lia. }
    split; [exact L|]. split; [|split; [|split]].
    - intros x Hx. rewrite nth_error_upd. destruct (Nat.eqb_spec j x); [lia|]. apply D. lia.
    - intros x Hx. rewrite nth_error_upd. destruct (Nat.eqb_spec j x) as [->|]; cbn [andb].
      + destruct (Nat.ltb_spec x (length o)); [reflexivity|lia].
      + apply F. lia.
    - rewrite nth_error_upd. destruct (Nat.eqb_spec j (N - 1)); [lia|]. exact T.
    - intros x Hx. rewrite nth_error_upd. destruct (Nat.eqb_spec j x); [lia|]. apply U. exact Hx. }
  { cbv beta iota. split.
    - unfold sf. replace (N - 1 - S (N - 1 - 1)) with 0 by lia. reflexivity.
    - rewrite length_upd. split; [exact L1|]. split; [|split; [|split]].
      + intros x Hx. rewrite nth_error_upd. destruct (Nat.eqb_spec (N - 1) x); [lia|]. apply D1. lia.
      + intros; lia.
      + rewrite nth_error_upd, Nat.eqb_refl. destruct (Nat.ltb_spec (N - 1) (length o1)); [|lia]. subst pre. reflexivity.
      + intros x Hx. rewrite nth_error_upd. destruct (Nat.eqb_spec (N - 1) x); [lia|]. apply U1. lia. }
  rewrite wr_Ok by lia. eexists. split; [reflexivity|]. split; [rewrite length_upd; exact L2|].
  (* the right-to-left reduction equals the left-to-right one *)
  assert (REVF : forall (l : list A) x, fold_left op (rev l) x = fold_left op l x).
  { induction l as [|y l IH]; intros x; cbn [rev fold_left]; [reflexivity|].
    rewrite fold_left_app. cbn [fold_left]. rewrite IH.
    rewrite (op_comm x y), fold_op. apply op_comm. }
  assert (SFE : forall i, i < N - 1 -> Some (sf i) = reduction op (skipn (S i) inp)).
  { intros i H. unfold sf. rewrite REVF.
    assert (X : skipn (S i) inp = firstn (N - 1 - S i) (skipn (S i) inp) ++ [nth (N - 1) inp d]).
    { rewrite <- (firstn_skipn (N - 1 - S i) (skipn (S i) inp)) at 1. f_equal.
      rewrite skipn_skipn'. replace (N - 1 - S i + S i) with (N - 1) by lia.
      clear - Hi H HN. assert (L : length inp = S (N - 1)) by lia. revert L. generalize (N - 1). clear.
      induction inp as [|x l IH]; intros n L; [cbn in L; lia|]. destruct n.
      - cbn in L. destruct l; [reflexivity|cbn in L; lia].
      - cbn [skipn nth]. apply IH. cbn in L. lia. }
    set (l := firstn (N - 1 - S i) (skipn (S i) inp)) in *. clearbody l. rewrite X. destruct l as [|y l]; [reflexivity|].
    cbn [app reduction]. f_equal. rewrite fold_left_app. cbn [fold_left].
    rewrite fold_op. apply op_comm. }
  assert (HD0 : skipn 0 inp = nth 0 inp d :: skipn 1 inp) by (subst inp; reflexivity).
  split.
  - intros i H. rewrite nth_error_upd. destruct (Nat.eqb_spec 0 i) as [<-|N0]; cbn [andb].
    + destruct (Nat.ltb_spec 0 (length o2)); [|lia]. subst suf. cbn [Nat.sub]. unfold without. cbn [firstn app].
      apply SFE. lia.
    + assert (PFE : without i inp = (nth 0 inp d :: firstn (i - 1) (skipn 1 inp)) ++ skipn (S i) inp).
      { unfold without. f_equal. subst inp. destruct i; [lia|]. cbn [firstn nth skipn]. do 2 f_equal. lia. }
      rewrite PFE. cbn [app reduction]. rewrite fold_left_app. fold (pf i).
      destruct (Nat.eq_dec i (N - 1)) as [->|N1].
      * rewrite T2. rewrite skipn_all2 by lia. reflexivity.
      * rewrite F2 by lia. f_equal. pose proof (SFE i ltac:(lia)) as S1.
        destruct (skipn (S i) inp) as [|y l]; [discriminate|]. cbn [reduction] in S1. injection S1 as ->.
        cbn [fold_left]. symmetry. apply fold_op.
  - intros i H. rewrite nth_error_upd. destruct (Nat.eqb_spec 0 i); [lia|]. apply U2. exact H.
Qed.
End Reduce.
