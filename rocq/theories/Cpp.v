(** Execution model for the C++ fragments of /repo used by all Model_*.v files.
    This file models no particular header; it fixes how C++ execution is
    represented:

    - [Ok a]   normal result [a];
    - [Abort]  a failed [assert(...)];
    - [Undef]  undefined behaviour made visible: out-of-bounds access, read of an
               uninitialised element, signed overflow, invalid shift count, ...;
    - [Fuel]   a [while] loop did not finish within the supplied fuel.

    Arrays are lists; writing through a pointer returns the new list. *)
From Coq Require Export List Arith ZArith NArith Lia Bool.
Export ListNotations.

Inductive res (A : Type) : Type :=
| Ok (a : A)
| Abort
| Undef
| Fuel.
Arguments Ok {A} a.
Arguments Abort {A}.
Arguments Undef {A}.
Arguments Fuel {A}.

Definition bind {A B : Type} (e : res A) (k : A -> res B) : res B :=
  match e with
  | Ok a => k a
  | Abort => Abort
  | Undef => Undef
  | Fuel => Fuel
  end.

Declare Scope cpp_scope.
Delimit Scope cpp_scope with cpp.
Notation "x <- e ;; k" := (bind e (fun x => k))
  (at level 61, e at next level, right associativity) : cpp_scope.
Notation "' p <- e ;; k" := (bind e (fun p => k))
  (at level 61, p pattern, e at next level, right associativity) : cpp_scope.
Notation "e ;;; k" := (bind e (fun _ => k))
  (at level 61, right associativity) : cpp_scope.
Open Scope cpp_scope.

(** [assert(b)] *)
Definition assert_ (b : bool) : res unit := if b then Ok tt else Abort.
(** a precondition whose violation is undefined behaviour *)
Definition require (b : bool) : res unit := if b then Ok tt else Undef.

(** array element read [a[i]] *)
Definition rd {A} (a : list A) (i : nat) : res A :=
  match nth_error a i with Some x => Ok x | None => Undef end.

Fixpoint upd {A} (a : list A) (i : nat) (v : A) : list A :=
  match a, i with
  | [], _ => []
  | _ :: t, O => v :: t
  | x :: t, S i' => x :: upd t i' v
  end.

(** array element write [a[i] = v] *)
Definition wr {A} (a : list A) (i : nat) (v : A) : res (list A) :=
  if i <? length a then Ok (upd a i v) else Undef.

(** uninitialised arrays: [None] is an indeterminate element *)
Definition uninit (A : Type) (n : nat) : list (option A) := repeat None n.
Definition rdu {A} (a : list (option A)) (i : nat) : res A :=
  match nth_error a i with Some (Some x) => Ok x | _ => Undef end.
Definition wru {A} (a : list (option A)) (i : nat) (v : A) : res (list (option A)) :=
  wr a i (Some v).

(** signed index variants: a negative index is out of bounds *)
Definition rdZ {A} (a : list A) (i : Z) : res A :=
  if (i <? 0)%Z then Undef else rd a (Z.to_nat i).
Definition wrZ {A} (a : list A) (i : Z) (v : A) : res (list A) :=
  if (i <? 0)%Z then Undef else wr a (Z.to_nat i) v.

(** [n] iterations of [body] with the loop variable running [i, i+1, ...] *)
Fixpoint loop {S : Type} (n i : nat) (body : nat -> S -> res S) (s : S) : res S :=
  match n with
  | O => Ok s
  | Datatypes.S n' => s' <- body i s ;; loop n' (Datatypes.S i) body s'
  end.

(** [for (i = lo; i < hi; ++i) body] *)
Definition for_up {S} (lo hi : nat) (body : nat -> S -> res S) (s : S) : res S :=
  loop (hi - lo) lo body s.

(** [for (i = lo; i < hi; i += step) body], [step > 0] *)
Definition for_step {S} (lo hi step : nat) (body : nat -> S -> res S) (s : S) : res S :=
  loop ((hi - lo + (step - 1)) / step) 0 (fun k => body (lo + k * step)) s.

(** [for (i = hi - 1; i >= lo; --i) body] *)
Definition for_down {S} (hi lo : nat) (body : nat -> S -> res S) (s : S) : res S :=
  loop (hi - lo) 0 (fun k => body (hi - 1 - k)) s.

(** [while (cond) body] with fuel *)
Fixpoint while_ {S} (fuel : nat) (cond : S -> res bool) (body : S -> res S) (s : S) : res S :=
  match fuel with
  | O => Fuel
  | Datatypes.S f =>
      b <- cond s ;;
      if b then (s' <- body s ;; while_ f cond body s') else Ok s
  end.

(** unsigned wrap-around: the value stored in a [w] bit unsigned variable *)
Definition wrap (w : N) (x : N) : N := (x mod 2 ^ w)%N.

(** range checks for signed 32 bit [int] arithmetic: overflow is undefined *)
Definition int_ok (z : Z) : bool := ((- 2147483648 <=? z) && (z <=? 2147483647))%Z.
Definition chk (z : Z) : res Z := if int_ok z then Ok z else Undef.

(* ------------------------------------------------------------------ *)
(** Generic lemmas (about this file's combinators only). *)

Lemma bind_Ok {A B} (a : A) (k : A -> res B) : bind (Ok a) k = k a.
Proof. reflexivity. Qed.

Lemma bind_assoc {A B C} (e : res A) (f : A -> res B) (g : B -> res C) :
  bind (bind e f) g = bind e (fun a => bind (f a) g).
Proof. destruct e; reflexivity. Qed.

Lemma bind_Ok_inv {A B} (e : res A) (k : A -> res B) b :
  bind e k = Ok b -> exists a, e = Ok a /\ k a = Ok b.
Proof. destruct e; simpl; intros H; try discriminate; eauto. Qed.

Lemma length_upd {A} (a : list A) i v : length (upd a i v) = length a.
Proof. revert i; induction a as [|x a IH]; intros [|i]; simpl; auto. Qed.

Lemma nth_error_upd {A} (a : list A) i v j :
  nth_error (upd a i v) j =
  if (i =? j) && (i <? length a) then Some v else nth_error a j.
Proof.
  revert i j; induction a as [|x a IH]; intros [|i] [|j]; simpl; try reflexivity.
  - rewrite andb_false_r. reflexivity.
  - rewrite IH. reflexivity.
Qed.

Lemma nth_upd {A} (a : list A) i v j d :
  nth j (upd a i v) d = if (i =? j) && (i <? length a) then v else nth j a d.
Proof.
  revert i j; induction a as [|x a IH]; intros [|i] [|j]; simpl; try reflexivity.
  - rewrite andb_false_r. reflexivity.
  - rewrite IH. reflexivity.
Qed.

Lemma nth_upd_eq {A} (a : list A) i v d : i < length a -> nth i (upd a i v) d = v.
Proof.
  intros H. rewrite nth_upd, Nat.eqb_refl. apply Nat.ltb_lt in H. rewrite H. reflexivity.
Qed.

Lemma nth_upd_neq {A} (a : list A) i v j d : i <> j -> nth j (upd a i v) d = nth j a d.
Proof.
  intros H. rewrite nth_upd. apply Nat.eqb_neq in H. rewrite H. reflexivity.
Qed.

Lemma upd_same {A} (a : list A) i d : i < length a -> upd a i (nth i a d) = a.
Proof.
  revert i; induction a as [|x a IH]; intros [|i]; simpl; intros H; try lia; auto.
  f_equal. apply IH. lia.
Qed.

Lemma list_ext {A} (a b : list A) d :
  length a = length b -> (forall i, i < length a -> nth i a d = nth i b d) -> a = b.
Proof. intros H H'. apply (nth_ext a b d d); auto. Qed.

Lemma rd_nth {A} (a : list A) i d : i < length a -> rd a i = Ok (nth i a d).
Proof. intros H. unfold rd. rewrite (nth_error_nth' _ d H). reflexivity. Qed.

Lemma rd_Ok {A} (a : list A) i x d : rd a i = Ok x -> i < length a /\ nth i a d = x.
Proof.
  unfold rd. destruct (nth_error a i) eqn:E; intros H; inversion H; subst.
  split; [apply nth_error_Some; congruence | apply nth_error_nth; assumption].
Qed.

Lemma wr_Ok {A} (a : list A) i v : i < length a -> wr a i v = Ok (upd a i v).
Proof. intros H. unfold wr. apply Nat.ltb_lt in H. rewrite H. reflexivity. Qed.

Lemma wr_inv {A} (a : list A) i v a' : wr a i v = Ok a' -> i < length a /\ a' = upd a i v.
Proof.
  unfold wr. destruct (Nat.ltb_spec i (length a)); intros H'; inversion H'; auto.
Qed.

Lemma rdu_nth {A} (a : list (option A)) i x : nth i a None = Some x -> rdu a i = Ok x.
Proof.
  intros H. unfold rdu. destruct (nth_error a i) eqn:E.
  - apply nth_error_nth with (d := None) in E. rewrite H in E. subst. reflexivity.
  - rewrite nth_overflow in H by (apply nth_error_None; exact E). discriminate.
Qed.

Lemma rdZ_nth {A} (a : list A) i d :
  (0 <= i < Z.of_nat (length a))%Z -> rdZ a i = Ok (nth (Z.to_nat i) a d).
Proof.
  intros H. unfold rdZ. destruct (Z.ltb_spec i 0); [lia|]. apply rd_nth. lia.
Qed.

Lemma wrZ_Ok {A} (a : list A) i v :
  (0 <= i < Z.of_nat (length a))%Z -> wrZ a i v = Ok (upd a (Z.to_nat i) v).
Proof.
  intros H. unfold wrZ. destruct (Z.ltb_spec i 0); [lia|]. apply wr_Ok. lia.
Qed.

Lemma loop_inv {S} (I : nat -> S -> Prop) (body : nat -> S -> res S) :
  forall n i s,
  (forall j s, i <= j < i + n -> I j s -> exists s', body j s = Ok s' /\ I (Datatypes.S j) s') ->
  I i s -> exists s', loop n i body s = Ok s' /\ I (i + n) s'.
Proof.
  induction n as [|n IH]; intros i s Hb Hi; simpl.
  - exists s. rewrite Nat.add_0_r. auto.
  - destruct (Hb i s ltac:(lia) Hi) as (s1 & E1 & I1). rewrite E1. simpl.
    destruct (IH (Datatypes.S i) s1) as (s2 & E2 & I2); [| exact I1 |].
    + intros j t Hj. apply Hb. lia.
    + exists s2. split; [exact E2|]. replace (i + Datatypes.S n) with (Datatypes.S i + n) by lia. exact I2.
Qed.

Lemma for_up_inv {S} (I : nat -> S -> Prop) (body : nat -> S -> res S) lo hi s :
  lo <= hi ->
  (forall j s, lo <= j < hi -> I j s -> exists s', body j s = Ok s' /\ I (Datatypes.S j) s') ->
  I lo s -> exists s', for_up lo hi body s = Ok s' /\ I hi s'.
Proof.
  intros Hl Hb Hi. unfold for_up.
  destruct (@loop_inv S I body (hi - lo) lo s) as (s' & E & I'); auto.
  - intros j t Hj. apply Hb. lia.
  - exists s'. replace (lo + (hi - lo)) with hi in I' by lia. auto.
Qed.

Lemma for_down_inv {S} (I : nat -> S -> Prop) (body : nat -> S -> res S) hi lo s :
  lo <= hi ->
  (forall j s, lo <= j < hi -> I (Datatypes.S j) s -> exists s', body j s = Ok s' /\ I j s') ->
  I hi s -> exists s', for_down hi lo body s = Ok s' /\ I lo s'.
Proof.
  intros Hl Hb Hi. unfold for_down.
  destruct (@loop_inv S (fun k s => I (hi - k) s) (fun k => body (hi - 1 - k)) (hi - lo) 0 s)
    as (s' & E & I').
  - intros j t Hj Ht.
    destruct (Hb (hi - 1 - j) t ltac:(lia)) as (t' & Et & It).
    + replace (Datatypes.S (hi - 1 - j)) with (hi - j) by lia. exact Ht.
    + exists t'. split; [exact Et|]. replace (hi - Datatypes.S j) with (hi - 1 - j) by lia. exact It.
  - rewrite Nat.sub_0_r. exact Hi.
  - exists s'. split; [exact E|]. replace (hi - (0 + (hi - lo))) with lo in I' by lia. exact I'.
Qed.

Lemma loop_ext {S} (f g : nat -> S -> res S) n i s :
  (forall j s, i <= j < i + n -> f j s = g j s) -> loop n i f s = loop n i g s.
Proof.
  revert i s; induction n as [|n IH]; intros i s H; simpl; [reflexivity|].
  rewrite H by lia. destruct (g i s); simpl; auto. apply IH. intros; apply H; lia.
Qed.

Lemma for_up_ext {S} (f g : nat -> S -> res S) lo hi s :
  (forall j s, lo <= j < hi -> f j s = g j s) -> for_up lo hi f s = for_up lo hi g s.
Proof. intros H. apply loop_ext. intros. apply H. lia. Qed.

Lemma loop_app {S} (f : nat -> S -> res S) n m i s :
  loop (n + m) i f s = (s' <- loop n i f s ;; loop m (i + n) f s').
Proof.
  revert i s; induction n as [|n IH]; intros i s; simpl.
  - rewrite Nat.add_0_r. reflexivity.
  - destruct (f i s); simpl; auto. rewrite IH.
    replace (i + Datatypes.S n) with (Datatypes.S i + n) by lia. reflexivity.
Qed.

Lemma loop_snoc {S} (f : nat -> S -> res S) n i s :
  loop (Datatypes.S n) i f s = (s' <- loop n i f s ;; f (i + n) s').
Proof.
  replace (Datatypes.S n) with (n + 1) by lia. rewrite loop_app.
  destruct (loop n i f s); simpl; auto. destruct (f (i + n) a); reflexivity.
Qed.

Lemma for_up_nil {S} (f : nat -> S -> res S) lo hi s : hi <= lo -> for_up lo hi f s = Ok s.
Proof. intros H. unfold for_up. replace (hi - lo) with 0 by lia. reflexivity. Qed.

Lemma for_up_head {S} (f : nat -> S -> res S) lo hi s :
  lo < hi -> for_up lo hi f s = (s' <- f lo s ;; for_up (Datatypes.S lo) hi f s').
Proof.
  intros H. unfold for_up. replace (hi - lo) with (Datatypes.S (hi - Datatypes.S lo)) by lia.
  reflexivity.
Qed.

Lemma for_up_last {S} (f : nat -> S -> res S) lo hi s :
  lo <= hi -> for_up lo (Datatypes.S hi) f s = (s' <- for_up lo hi f s ;; f hi s').
Proof.
  intros H. unfold for_up. replace (Datatypes.S hi - lo) with (Datatypes.S (hi - lo)) by lia.
  rewrite loop_snoc. replace (lo + (hi - lo)) with hi by lia. reflexivity.
Qed.

Lemma for_up_split {S} (f : nat -> S -> res S) lo mid hi s :
  lo <= mid <= hi -> for_up lo hi f s = (s' <- for_up lo mid f s ;; for_up mid hi f s').
Proof.
  intros H. unfold for_up. replace (hi - lo) with ((mid - lo) + (hi - mid)) by lia.
  rewrite loop_app. replace (lo + (mid - lo)) with mid by lia. reflexivity.
Qed.

Lemma for_step_inv {S} (I : nat -> S -> Prop) (body : nat -> S -> res S) cnt step s :
  0 < step ->
  (forall k s, k < cnt -> I k s -> exists s', body (k * step) s = Ok s' /\ I (Datatypes.S k) s') ->
  I 0 s -> exists s', for_step 0 (cnt * step) step body s = Ok s' /\ I cnt s'.
Proof.
  intros Hs Hb Hi. unfold for_step.
  replace ((cnt * step - 0 + (step - 1)) / step) with cnt.
  - destruct (@loop_inv S I (fun k => body (0 + k * step)) cnt 0 s) as (s' & E & I'); eauto.
    intros j t Hj. apply Hb. lia.
  - rewrite Nat.sub_0_r, Nat.add_comm, Nat.div_add by lia. rewrite Nat.div_small by lia. lia.
Qed.

Lemma wrap_lt w x : (wrap w x < 2 ^ w)%N.
Proof. unfold wrap. apply N.mod_lt. apply N.pow_nonzero. discriminate. Qed.

Lemma wrap_small w x : (x < 2 ^ w)%N -> wrap w x = x.
Proof. intros H. apply N.mod_small. exact H. Qed.

Lemma wrap_testbit w x i : N.testbit (wrap w x) i = (N.testbit x i && (i <? w)%N)%bool.
Proof.
  unfold wrap. destruct (N.ltb_spec i w).
  - rewrite N.mod_pow2_bits_low by assumption. rewrite andb_true_r. reflexivity.
  - rewrite N.mod_pow2_bits_high by assumption. rewrite andb_false_r. reflexivity.
Qed.

Lemma testbit_high w x i : (x < 2 ^ w)%N -> (w <= i)%N -> N.testbit x i = false.
Proof.
  intros H Hi. rewrite <- (wrap_small w x H), wrap_testbit.
  destruct (N.ltb_spec i w); [lia|]. apply andb_false_r.
Qed.

Lemma lt_pow2_testbit w x : (forall i, (w <= i)%N -> N.testbit x i = false) -> (x < 2 ^ w)%N.
Proof.
  intros H. replace x with (wrap w x); [apply wrap_lt|].
  apply N.bits_inj. intros i. rewrite wrap_testbit.
  destruct (N.ltb_spec i w); [apply andb_true_r|]. rewrite andb_false_r. symmetry. auto.
Qed.

Lemma chk_ok z : (-2147483648 <= z <= 2147483647)%Z -> chk z = Ok z.
Proof.
  intros H. unfold chk, int_ok.
  destruct (Z.leb_spec (-2147483648) z), (Z.leb_spec z 2147483647); simpl; try reflexivity; lia.
Qed.

Lemma while_inv {S} (I : S -> Prop) (m : S -> nat) (cond : S -> res bool) (body : S -> res S) :
  (forall s, I s -> exists b, cond s = Ok b /\
     (b = true -> exists s', body s = Ok s' /\ I s' /\ m s' < m s)) ->
  forall fuel s, I s -> m s < fuel ->
  exists s', while_ fuel cond body s = Ok s' /\ I s' /\ cond s' = Ok false.
Proof.
  intros Hstep. induction fuel as [|fuel IH]; intros s Hi Hm; [lia|]. cbn [while_].
  destruct (Hstep s Hi) as (b & Ec & Hb). rewrite Ec. cbn [bind]. destruct b.
  - destruct (Hb eq_refl) as (s1 & E1 & I1 & M1). rewrite E1. cbn [bind]. apply IH; [exact I1|lia].
  - exists s. auto.
Qed.

(** loops whose body may execute [return]: [inl] is the state after the iteration, [inr] the returned value *)
Fixpoint loop_ret {S R : Type} (n i : nat) (body : nat -> S -> res (S + R)) (s : S) : res (S + R) :=
  match n with
  | O => Ok (inl s)
  | Datatypes.S n' =>
      x <- body i s ;;
      match x with
      | inl s' => loop_ret n' (Datatypes.S i) body s'
      | inr r => Ok (inr r)
      end
  end.
(** [for (i = lo; i < hi; ++i) body] with [return] inside *)
Definition for_ret {S R} (lo hi : nat) (body : nat -> S -> res (S + R)) (s : S) : res (S + R) :=
  loop_ret (hi - lo) lo body s.

Lemma loop_ret_inv {S R} (I : nat -> S -> Prop) (Post : R -> Prop) (body : nat -> S -> res (S + R)) :
  forall n i s,
  (forall j s, i <= j < i + n -> I j s -> exists x, body j s = Ok x /\
     match x with inl s' => I (Datatypes.S j) s' | inr r => Post r end) ->
  I i s -> exists x, loop_ret n i body s = Ok x /\ match x with inl s' => I (i + n) s' | inr r => Post r end.
Proof.
  induction n as [|n IH]; intros i s Hb Hi; cbn [loop_ret].
  - exists (inl s). rewrite Nat.add_0_r. auto.
  - destruct (Hb i s ltac:(lia) Hi) as ([s'|r] & E & H); rewrite E; cbn [bind].
    + destruct (IH (Datatypes.S i) s') as (x & Ex & Hx); [|exact H|].
      * intros j t Hj. apply Hb. lia.
      * exists x. split; [exact Ex|]. destruct x; [|exact Hx].
        replace (i + Datatypes.S n) with (Datatypes.S i + n) by lia. exact Hx.
    + exists (inr r). auto.
Qed.
Lemma for_ret_inv {S R} (I : nat -> S -> Prop) (Post : R -> Prop) (body : nat -> S -> res (S + R)) lo hi s :
  lo <= hi ->
  (forall j s, lo <= j < hi -> I j s -> exists x, body j s = Ok x /\
     match x with inl s' => I (Datatypes.S j) s' | inr r => Post r end) ->
  I lo s -> exists x, for_ret lo hi body s = Ok x /\ match x with inl s' => I hi s' | inr r => Post r end.
Proof.
  intros Hl Hb Hi. unfold for_ret.
  destruct (loop_ret_inv I Post body (hi - lo) lo s) as (x & E & H); auto.
  - intros j t Hj. apply Hb. lia.
  - exists x. split; [exact E|]. replace (lo + (hi - lo)) with hi in H by lia. exact H.
Qed.

(** what a finished loop guarantees when its iterations may also fail *)
Lemma loop_ok_inv {S} (I : nat -> S -> Prop) (body : nat -> S -> res S) :
  forall n i s s', (forall j s s', i <= j < i + n -> I j s -> body j s = Ok s' -> I (Datatypes.S j) s') ->
  I i s -> loop n i body s = Ok s' -> I (i + n) s'.
Proof.
  induction n as [|n IH]; intros i s s' Hb Hi H; cbn [loop] in H.
  - injection H as <-. rewrite Nat.add_0_r. exact Hi.
  - apply bind_Ok_inv in H. destruct H as (s1 & E1 & H).
    replace (i + Datatypes.S n) with (Datatypes.S i + n) by lia. apply (IH (Datatypes.S i) s1); [|apply (Hb i s); auto; lia|exact H].
    intros j t t' Hj. apply Hb. lia.
Qed.
Lemma for_up_ok_inv {S} (I : nat -> S -> Prop) (body : nat -> S -> res S) lo hi s s' :
  lo <= hi -> (forall j s s', lo <= j < hi -> I j s -> body j s = Ok s' -> I (Datatypes.S j) s') ->
  I lo s -> for_up lo hi body s = Ok s' -> I hi s'.
Proof.
  intros Hl Hb Hi H. replace hi with (lo + (hi - lo)) by lia. apply (loop_ok_inv I body (hi - lo) lo s); auto.
  intros j t t' Hj. apply Hb. lia.
Qed.
