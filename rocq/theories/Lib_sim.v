(** Running the same code on two types: a relation kept by the operations is kept by the loops. *)
From Verif Require Import Cpp.
Local Open Scope nat_scope.

Definition rel {A B} (R : A -> B -> Prop) (x : res A) (y : res B) : Prop :=
  match x, y with
  | Ok a, Ok b => R a b
  | Abort, Abort | Undef, Undef | Fuel, Fuel => True
  | _, _ => False
  end.
Lemma rel_bind {A B C D} (R : A -> B -> Prop) (Q : C -> D -> Prop) x y f g :
  rel R x y -> (forall a b, R a b -> rel Q (f a) (g b)) -> rel Q (bind x f) (bind y g).
Proof. destruct x, y; cbn; auto; tauto. Qed.
Lemma rel_loop {A B} (R : A -> B -> Prop) n : forall i f g a b, R a b -> (forall k a b, R a b -> rel R (f k a) (g k b)) -> rel R (loop n i f a) (loop n i g b).
Proof.
  induction n as [|n IH]; intros i f g a b H F; cbn [loop]; [exact H|]. apply (rel_bind R); [apply F; exact H|]. intros. apply IH; assumption.
Qed.
Lemma rel_while {A B} (R : A -> B -> Prop) n c d f g : (forall a b, R a b -> c a = d b) -> (forall a b, R a b -> rel R (f a) (g b)) ->
  forall a b, R a b -> rel R (while_ n c f a) (while_ n d g b).
Proof.
  intros C F. induction n as [|n IH]; intros a b H; cbn [while_]; [exact I|]. rewrite (C a b H). destruct (d b) as [[|]| | |]; cbn [bind]; try exact I; [|exact H].
  apply (rel_bind R); [apply F; exact H|]. intros. apply IH; assumption.
Qed.
Lemma rel_eq {A} (x : res A) : rel eq x x.
Proof. destruct x; cbn; auto. Qed.
Lemma rel_rd {A B} (R : A -> B -> Prop) l m i : Forall2 R l m -> rel R (rd l i) (rd m i).
Proof.
  intros H. revert i. induction H as [|a b l m H1 H IH]; intros [|i]; cbn; auto. exact (IH i).
Qed.
Lemma Forall2_upd {A B} (R : A -> B -> Prop) l m a b : Forall2 R l m -> R a b -> forall i, Forall2 R (upd l i a) (upd m i b).
Proof. intros H Hab. induction H as [|x y l m H1 H IH]; intros [|i]; cbn [upd]; constructor; auto. Qed.
Lemma Forall2_len {A B} (R : A -> B -> Prop) l m : Forall2 R l m -> length l = length m.
Proof. induction 1; cbn; congruence. Qed.
Lemma rel_wr {A B} (R : A -> B -> Prop) l m i a b : Forall2 R l m -> R a b -> rel (Forall2 R) (wr l i a) (wr m i b).
Proof.
  intros H Hab. unfold wr. replace (length l) with (length m) by (symmetry; eapply Forall2_len; exact H). destruct (i <? length m); cbn [rel]; auto.
  apply Forall2_upd; assumption.
Qed.

(** one way only: if the first run succeeds, so does the second, with related results *)
Definition leads {A B} (R : A -> B -> Prop) (x : res A) (y : res B) : Prop := forall a, x = Ok a -> exists b, y = Ok b /\ R a b.
Lemma leads_bind {A B C D} (R : A -> B -> Prop) (Q : C -> D -> Prop) x y f g :
  leads R x y -> (forall a b, R a b -> leads Q (f a) (g b)) -> leads Q (bind x f) (bind y g).
Proof. intros H F c E. destruct x as [a| | |]; cbn [bind] in E; try discriminate. destruct (H a eq_refl) as (b & -> & Rab). cbn [bind]. exact (F a b Rab c E). Qed.
Lemma leads_loop {A B} (R : A -> B -> Prop) n : forall i f g a b, R a b -> (forall k a b, R a b -> leads R (f k a) (g k b)) -> leads R (loop n i f a) (loop n i g b).
Proof.
  induction n as [|n IH]; intros i f g a b H F; cbn [loop]; [intros c E; injection E as <-; eauto|]. apply (leads_bind R); [apply F; exact H|]. intros. apply IH; assumption.
Qed.
Lemma leads_while {A B} (R : A -> B -> Prop) n c d f g : (forall a b, R a b -> c a = d b) -> (forall a b, R a b -> leads R (f a) (g b)) ->
  forall a b, R a b -> leads R (while_ n c f a) (while_ n d g b).
Proof.
  intros C F. induction n as [|n IH]; intros a b H; cbn [while_]; [intros x E; discriminate|]. rewrite (C a b H). destruct (d b) as [[|]| | |]; cbn [bind]; try (intros x E; discriminate).
  - apply (leads_bind R); [apply F; exact H|]. intros. apply IH; assumption.
  - intros x E. injection E as <-. eauto.
Qed.
Lemma leads_eq {A} (x : res A) : leads eq x x.
Proof. intros a E. eauto. Qed.
Lemma leads_ok {A B} (R : A -> B -> Prop) a b : R a b -> leads R (Ok a) (Ok b).
Proof. intros H c E. injection E as <-. eauto. Qed.
(** a longer buffer changes nothing *)
Definition longer {A} (t : list A) (a b : list A) : Prop := b = a ++ t.
Lemma longer_rd {A} (t a b : list A) i : longer t a b -> leads eq (rd a i) (rd b i).
Proof.
  intros -> x E. unfold rd in *. destruct (nth_error a i) as [y|] eqn:N; [|discriminate]. injection E as <-.
  rewrite nth_error_app1 by (apply nth_error_Some; congruence). rewrite N. eauto.
Qed.
Lemma upd_app_l {A} (a t : list A) v : forall i, i < length a -> upd (a ++ t) i v = upd a i v ++ t.
Proof. induction a as [|x a IH]; intros i H; cbn [length] in H; [lia|]. destruct i as [|i]; cbn [upd Datatypes.app]; [reflexivity|]. rewrite IH by lia. reflexivity. Qed.
Lemma longer_wr {A} (t a b : list A) i v : longer t a b -> leads (longer t) (wr a i v) (wr b i v).
Proof.
  intros -> x E. unfold wr in *. rewrite app_length. destruct (Nat.ltb_spec i (length a)) as [C|C]; [|discriminate]. injection E as <-.
  destruct (Nat.ltb_spec i (length a + length t)) as [_|K]; [|lia]. eexists. split; [reflexivity|]. apply upd_app_l. exact C.
Qed.
