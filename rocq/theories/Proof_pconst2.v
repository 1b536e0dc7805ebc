(** Double precision numbers: the order of the values the constructions compute. *)
From Coq Require Import ZifyBool ZifyNat ZifyN Permutation Floats.SpecFloat Sorted.
From Verif Require Import Cpp Model_polar_const Spec_sort Spec_polar Spec_polar_const Lib_list Proof_pconst1.
Ltac Zify.zify_post_hook ::= idtac.
Local Open Scope nat_scope.

Definition is_number (x : spec_float) : Prop := x <> S754_nan.
Lemma shr1_pos r : (0 <= shr_m r)%Z -> (0 <= shr_m (shr_1 r))%Z.
Proof. destruct r as [m r s]. cbn. destruct m as [|[p|p|]|p]; cbn; lia. Qed.
Lemma iter_pos_inv {T} (I : T -> Prop) f : (forall x, I x -> I (f x)) -> forall p x, I x -> I (@SpecFloat.iter_pos T f p x).
Proof. intros Hf p. induction p as [p IH|p IH|]; intros x H; cbn; auto. Qed.
Lemma shr_fexp_pos prec emax m e l : (0 <= m)%Z -> (0 <= shr_m (fst (shr_fexp prec emax m e l)))%Z.
Proof.
  intros H. unfold shr_fexp, shr. assert (0 <= shr_m (shr_record_of_loc m l))%Z as H0 by (destruct l as [|[| |]]; exact H).
  destruct (_ - e)%Z; cbn [fst]; auto. apply iter_pos_inv; auto using shr1_pos.
Qed.
Lemma round_aux_number prec emax s m e l : (0 <= m)%Z -> is_number (binary_round_aux prec emax s m e l).
Proof.
  intros H. unfold binary_round_aux. pose proof (shr_fexp_pos prec emax m e l H) as H1. destruct (shr_fexp prec emax m e l) as [r1 e1]. cbn [fst] in H1.
  assert (0 <= round_nearest_even (shr_m r1) (loc_of_shr_record r1))%Z as H2 by (unfold round_nearest_even; destruct (loc_of_shr_record r1) as [|[| |]]; try destruct (Z.even _); lia).
  pose proof (shr_fexp_pos prec emax _ e1 loc_Exact H2) as H3. destruct (shr_fexp prec emax _ e1 loc_Exact) as [r2 e2]. cbn [fst] in H3.
  destruct (shr_m r2); [discriminate| |lia]. destruct (_ <=? _)%Z; discriminate.
Qed.
Lemma mul_number x y : is_number x -> is_number y -> (forall s, x = S754_infinity s -> exists t, y = S754_infinity t) -> (forall s t, x <> S754_zero s \/ y <> S754_infinity t) -> is_number (mul binary64 x y).
Proof.
  intros Hx Hy H1 H2. cbn [mul binary64]. unfold SFmul. destruct x as [s|s| |s m e]; [| |contradiction (Hx eq_refl)|].
  - destruct y as [t|t| |t m' e']; try discriminate; [|contradiction (Hy eq_refl)]. destruct (H2 s t) as [C|C]; congruence.
  - destruct (H1 s eq_refl) as (t & ->). discriminate.
  - destruct y as [t|t| |t m' e']; try discriminate; [contradiction (Hy eq_refl)|]. apply round_aux_number. lia.
Qed.
Lemma two_minus_number x : is_number x -> is_number (two_minus binary64 x).
Proof.
  intros Hx. cbn [two_minus binary64]. unfold SFsub. destruct x as [s|s| |s m e]; try discriminate; [contradiction (Hx eq_refl)|].
  cbv zeta. unfold binary_normalize. destruct (_ - _)%Z; [discriminate| |]; unfold binary_round; destruct (shl_align _ _ _); apply round_aux_number; lia.
Qed.
Lemma worse_number x : is_number x -> is_number (mul binary64 x (two_minus binary64 x)).
Proof.
  intros Hx. apply mul_number; [exact Hx|apply two_minus_number; exact Hx| |].
  - intros s ->. eexists. reflexivity.
  - intros s t. destruct x as [s'|s'| |s' m e]; try (left; discriminate). right. discriminate.
Qed.
Lemma better_number x : is_number x -> is_number (mul binary64 x x).
Proof.
  intros Hx. apply mul_number; [exact Hx|exact Hx| |].
  - intros s ->. eexists. reflexivity.
  - intros s t. destruct x as [s'|s'| |s' m e]; try (left; discriminate). right. discriminate.
Qed.
Definition chan64 := channel (fun p => mul binary64 p (two_minus binary64 p)) (fun p => mul binary64 p p).
Lemma channel_number n : forall pe i, is_number pe -> is_number (chan64 n pe i).
Proof.
  induction n as [|n IH]; intros pe i H; [exact H|]. unfold chan64. cbn [channel]. apply IH. destruct (Nat.testbit i n); [apply better_number|apply worse_number]; exact H.
Qed.
Lemma channel_nan n : forall i, chan64 n S754_nan i = S754_nan.
Proof. induction n as [|n IH]; intros i; [reflexivity|]. unfold chan64. cbn [channel]. destruct (Nat.testbit i n); apply IH. Qed.

(** the order of numbers: by a key *)
Definition key (x : spec_float) : Z * Z * Z :=
  match x with
  | S754_infinity true => (-2, 0, 0)%Z
  | S754_finite true m e => (-1, -e, Z.neg m)%Z
  | S754_zero _ | S754_nan => (0, 0, 0)%Z
  | S754_finite false m e => (1, e, Z.pos m)%Z
  | S754_infinity false => (2, 0, 0)%Z
  end.
Definition klt (a b : Z * Z * Z) : Prop :=
  let '(a1, a2, a3) := a in let '(b1, b2, b3) := b in (a1 < b1 \/ (a1 = b1 /\ (a2 < b2 \/ (a2 = b2 /\ a3 < b3))))%Z.
Lemma less_key x y : is_number x -> is_number y -> (less binary64 x y = true <-> klt (key x) (key y)).
Proof.
  intros Hx Hy. cbn [less binary64]. unfold SFltb, SFcompare.
  destruct x as [[|]|[|]| |[|] m e]; destruct y as [[|]|[|]| |[|] m' e']; try (contradiction (Hx eq_refl)); try (contradiction (Hy eq_refl)); cbn [key klt]; try (split; [intros C; discriminate|lia]); try (split; [lia|reflexivity]).
  - change (Pos.compare_cont Eq m m') with (Pos.compare m m'). destruct (Z.compare_spec e e'); [|split; [intros C; discriminate|lia]|split; [lia|reflexivity]].
    destruct (Pos.compare_spec m m'); cbn [CompOpp]; split; try (intros C; discriminate); try lia; reflexivity.
  - change (Pos.compare_cont Eq m m') with (Pos.compare m m'). destruct (Z.compare_spec e e'); [|split; [lia|reflexivity]|split; [intros C; discriminate|lia]].
    destruct (Pos.compare_spec m m'); split; try (intros C; discriminate); try lia; reflexivity.
Qed.
Lemma equiv_iff {T} (comp : T -> T -> bool) x y : equiv comp x y = true <-> comp x y = false /\ comp y x = false.
Proof. unfold equiv. destruct (comp x y), (comp y x); cbn; intuition discriminate. Qed.
Lemma orders_key {T K} (lt : K -> K -> Prop) (f : T -> K) (comp : T -> T -> bool) l :
  (forall a, ~ lt a a) -> (forall a b c, lt a b -> lt b c -> lt a c) -> (forall a b, lt a b \/ a = b \/ lt b a) ->
  (forall x y, In x l -> In y l -> (comp x y = true <-> lt (f x) (f y))) -> orders comp l.
Proof.
  intros Irr Tr To H. assert (forall x y, In x l -> In y l -> (comp x y = false <-> ~ lt (f x) (f y))) as Hn.
  { intros x y Hx Hy. rewrite <- (H x y Hx Hy). destruct (comp x y); intuition congruence. }
  assert (forall x y, In x l -> In y l -> (equiv comp x y = true <-> f x = f y)) as He.
  { intros x y Hx Hy. rewrite equiv_iff, !Hn by assumption. split.
    - intros (A & B). destruct (To (f x) (f y)) as [C|[C|C]]; tauto.
    - intros ->. split; apply Irr. }
  split; [|split].
  - intros x Hx. apply Hn; auto.
  - intros x y z Hx Hy Hz. rewrite !H by assumption. apply Tr.
  - intros x y z Hx Hy Hz. rewrite !He by assumption. congruence.
Qed.
Lemma binary64_orders level pe l : orders (fun i j => less binary64 (chan64 level pe i) (chan64 level pe j)) l.
Proof.
  assert (is_number pe \/ pe = S754_nan) as [H| ->] by (destruct pe; (right; reflexivity) || (left; discriminate)).
  - apply (orders_key klt (fun i => key (chan64 level pe i))).
    + intros [[a b] c]. cbn. lia.
    + intros [[a b] c] [[a' b'] c'] [[a2 b2] c2]. cbn. lia.
    + intros [[a b] c] [[a' b'] c']. cbn. destruct (Z.lt_total a a') as [?|[->|?]]; [lia| |lia]. destruct (Z.lt_total b b') as [?|[->|?]]; [lia| |lia].
      destruct (Z.lt_total c c') as [?|[->|?]]; [lia| |lia]. right. left. reflexivity.
    + intros x y _ _. apply less_key; apply channel_number; exact H.
  - split; [|split]; intros; rewrite ?channel_nan in *; cbn in *; try discriminate; try reflexivity.
    unfold equiv in *. rewrite !channel_nan. reflexivity.
Qed.

(** one function that sorts *)
Fixpoint insert {T} (comp : T -> T -> bool) (x : T) (l : list T) : list T :=
  match l with [] => [x] | y :: t => if comp y x then y :: insert comp x t else x :: l end.
Definition isort {T} (comp : T -> T -> bool) (l : list T) : list T := fold_right (insert comp) [] l.
Lemma insert_perm {T} (comp : T -> T -> bool) x l : Permutation (x :: l) (insert comp x l).
Proof. induction l as [|y l IH]; [reflexivity|]. cbn. destruct (comp y x); [|reflexivity]. rewrite perm_swap. constructor. exact IH. Qed.
Lemma isort_perm {T} (comp : T -> T -> bool) l : Permutation l (isort comp l).
Proof. induction l as [|x l IH]; [reflexivity|]. cbn. rewrite <- insert_perm. constructor. exact IH. Qed.
Lemma orders_neg {T} (comp : T -> T -> bool) l : orders comp l -> forall x y z, In x l -> In y l -> In z l -> comp y x = false -> comp z y = false -> comp z x = false.
Proof.
  intros (A & B & C) x y z Hx Hy Hz H1 H2. destruct (comp z x) eqn:E; [|reflexivity]. exfalso.
  destruct (comp x y) eqn:E1; [rewrite (B z x y) in H2 by assumption; discriminate|].
  destruct (comp y z) eqn:E2; [rewrite (B y z x) in H1 by assumption; discriminate|].
  assert (equiv comp x z = true) as Q by (apply (C x y z); try assumption; apply equiv_iff; auto). apply equiv_iff in Q. destruct Q. congruence.
Qed.
Lemma orders_sub {T} (comp : T -> T -> bool) l l' : orders comp l -> incl l' l -> orders comp l'.
Proof. intros (A & B & C) H. split; [|split]; intros; eauto. Qed.
Lemma isort_sorted {T} (comp : T -> T -> bool) l : orders comp l -> StronglySorted (fun a b => comp b a = false) (isort comp l).
Proof.
  induction l as [|x l IH]; intros O; [constructor|]. cbn [isort fold_right]. fold (isort comp l).
  specialize (IH (orders_sub comp _ _ O ltac:(intros y Hy; right; exact Hy))).
  assert (incl (isort comp l) (x :: l)) as HI by (intros y Hy; right; apply (Permutation_in _ (Permutation_sym (isort_perm comp l))); exact Hy).
  revert IH HI. generalize (isort comp l). intros s S HI. induction S as [|y s S IHs Hy]; [constructor; constructor|]. cbn [insert]. destruct (comp y x) eqn:E.
  - constructor; [apply IHs; intros z Hz; apply HI; right; exact Hz|]. apply (Permutation_Forall (insert_perm comp x s)). constructor; [|exact Hy].
    destruct (comp x y) eqn:E2; [|reflexivity]. destruct O as (A & B & _). rewrite <- (A y ltac:(apply HI; left; reflexivity)). symmetry. apply (B y x y); [apply HI| |apply HI| |]; try (left; reflexivity); assumption.
  - constructor; [constructor; assumption|]. constructor; [exact E|]. rewrite Forall_forall in *. intros z Hz. apply (orders_neg comp _ O x y z); [left; reflexivity|apply HI; left; reflexivity|apply HI; right; exact Hz|exact E|apply Hy; exact Hz].
Qed.
Lemma sorted_nth {T} (R : T -> T -> Prop) l d : StronglySorted R l -> forall i j, i < j -> j < length l -> R (nth i l d) (nth j l d).
Proof.
  induction 1 as [|x l S IH F]; intros i j Hi Hj; cbn [length] in Hj; [lia|]. destruct j as [|j]; [lia|]. destruct i as [|i]; cbn [nth].
  - rewrite Forall_forall in F. apply F. apply nth_In. lia.
  - apply IH; lia.
Qed.
Lemma isort_sorts : sorts isort.
Proof.
  intros comp l O. split; [apply isort_perm|]. intros i j Hi Hj. apply (sorted_nth _ _ 0 (isort_sorted comp l O)); [exact Hi|].
  rewrite <- (Permutation_length (isort_perm comp l)). exact Hj.
Qed.
Lemma isort_partitions : partitions (fun comp _ l => isort comp l).
Proof.
  intros comp n l O Hn. split; [apply isort_perm|]. intros a b Ha Hb. apply (In_nth _ _ 0) in Ha, Hb. destruct Ha as (i & Hi & <-), Hb as (j & Hj & <-).
  rewrite firstn_length in Hi. rewrite skipn_length in Hj. rewrite nth_firstn', nth_skipn'. replace (i <? n) with true by lia. pose proof (Permutation_length (isort_perm comp l)).
  apply (proj2 (isort_sorts comp l O)); lia.
Qed.
