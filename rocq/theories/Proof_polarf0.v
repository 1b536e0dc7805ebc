(** The polar encoders leave the buffer behind the codeword alone, whatever the type of the symbols. *)
From Verif Require Import Cpp Lib_sim Model_simd Model_polar.
Local Open Scope nat_scope.

Section Frame.
Context {A : Type} (P : polar_ops A) (t : list A).
Notation R := (longer t).
Lemma frame_stages off len l m : R l m -> leads R (polar_stages P off len l) (polar_stages P off len m).
Proof.
  intros H. unfold polar_stages. apply (leads_bind (fun a b => fst a = fst b /\ R (snd a) (snd b))).
  - apply leads_while; [| |cbn; auto].
    + intros [h a] [h' b] (E & _). cbn [fst] in E. subst. reflexivity.
    + intros [h a] [h' b] (E & F). cbn [fst snd] in *. subst h'. apply (leads_bind R).
      * apply leads_loop; [exact F|]. intros k a1 b1 F1. apply leads_loop; [exact F1|]. intros j a2 b2 F2.
        apply (leads_bind eq); [apply (longer_rd t); exact F2|]. intros x y <-. apply (leads_bind eq); [apply (longer_rd t); exact F2|]. intros x' y' <-.
        apply longer_wr. exact F2.
      * intros a1 b1 F1. apply leads_ok. auto.
  - intros [h a] [h' b] (_ & F). apply leads_ok. exact F.
Qed.
Lemma frame_expand msg frozen len l m : R l m -> leads R (polar_expand P msg frozen len l) (polar_expand P msg frozen len m).
Proof.
  intros H. unfold polar_expand. apply (leads_bind (fun a b => fst a = fst b /\ R (snd a) (snd b))).
  - apply leads_loop; [cbn; auto|]. intros k [p a] [p' b] (E & F). cbn [fst snd] in *. subst p'.
    apply (leads_bind eq); [apply leads_eq|]. intros f f' <-. apply (leads_bind eq); [apply leads_eq|]. intros [x q] ? <-.
    apply (leads_bind eq); [apply leads_eq|]. intros g g' <-. apply (leads_bind eq); [apply leads_eq|]. intros [x' q1] ? <-.
    apply (leads_bind R); [apply longer_wr; exact F|]. intros a1 b1 F1.
    apply (leads_bind R); [apply longer_wr; exact F1|]. intros a2 b2 F2. apply leads_ok. auto.
  - intros [h a] [h' b] (_ & F). apply leads_ok. exact F.
Qed.
Lemma frame_mask frozen len l m : R l m -> leads R (polar_mask P frozen len l) (polar_mask P frozen len m).
Proof.
  intros H. unfold polar_mask. apply leads_loop; [exact H|]. intros k a b F.
  assert (SY : forall (f : bool) i, leads eq (if f then Ok (p_one P) else rd a i) (if f then Ok (p_one P) else rd b i)).
  { intros f i. destruct f; [apply leads_eq|]. apply (longer_rd t). exact F. }
  apply (leads_bind eq); [apply leads_eq|]. intros f f' <-. apply (leads_bind _ _ _ _ _ _ (SY f _)). intros x y <-.
  apply (leads_bind eq); [apply leads_eq|]. intros g g' <-. apply (leads_bind _ _ _ _ _ _ (SY g _)). intros x' y' <-.
  apply (leads_bind R); [apply longer_wr; exact F|]. intros a1 b1 F1. apply longer_wr; exact F1.
Qed.
Lemma frame_encode msg frozen level l m : R l m -> leads R (polar_encode P l msg frozen level) (polar_encode P m msg frozen level).
Proof.
  intros H. unfold polar_encode. apply (leads_bind eq); [apply leads_eq|]. intros _ _ _. apply (leads_bind R); [apply frame_expand; exact H|]. intros; apply frame_stages; assumption.
Qed.
Lemma frame_sysenc msg frozen level l m : R l m -> leads R (polar_sysenc P l msg frozen level) (polar_sysenc P m msg frozen level).
Proof.
  intros H. unfold polar_sysenc. apply (leads_bind eq); [apply leads_eq|]. intros _ _ _. apply (leads_bind R); [apply frame_expand; exact H|]. intros a b F.
  apply (leads_bind R); [apply frame_stages; exact F|]. intros a1 b1 F1. apply (leads_bind R); [apply frame_mask; exact F1|]. intros; apply frame_stages; assumption.
Qed.
End Frame.

(** two types of symbols, related by [R] *)
Section Two.
Context {A B : Type} (PA : polar_ops A) (PB : polar_ops B) (R : A -> B -> Prop).
Hypothesis R1 : R (p_one PA) (p_one PB).
Hypothesis Rm : forall a x b y, R a x -> R b y -> R (p_mul PA a b) (p_mul PB x y).
Lemma two_stages off len l m : Forall2 R l m -> rel (Forall2 R) (polar_stages PA off len l) (polar_stages PB off len m).
Proof.
  intros H. unfold polar_stages. apply (rel_bind (fun a b => fst a = fst b /\ Forall2 R (snd a) (snd b))).
  - apply rel_while; [| |cbn; auto].
    + intros [h a] [h' b] (E & _). cbn [fst] in E. subst. reflexivity.
    + intros [h a] [h' b] (E & F). cbn [fst snd] in *. subst h'. apply (rel_bind (Forall2 R)).
      * apply rel_loop; [exact F|]. intros k a1 b1 F1. apply rel_loop; [exact F1|]. intros j a2 b2 F2.
        apply (rel_bind R); [apply rel_rd; exact F2|]. intros x y Hx. apply (rel_bind R); [apply rel_rd; exact F2|]. intros x' y' Hx'.
        apply rel_wr; [exact F2|]. apply Rm; assumption.
      * intros a1 b1 F1. cbn. auto.
  - intros [h a] [h' b] (_ & F). exact F.
Qed.
Lemma two_expand msg msg' frozen len l m : Forall2 R msg msg' -> Forall2 R l m -> rel (Forall2 R) (polar_expand PA msg frozen len l) (polar_expand PB msg' frozen len m).
Proof.
  intros HM H. unfold polar_expand. apply (rel_bind (fun a b => fst a = fst b /\ Forall2 R (snd a) (snd b))).
  - apply rel_loop; [cbn; auto|]. intros k [p a] [p' b] (E & F). cbn [fst snd] in *. subst p'.
    assert (SY : forall (f : bool) q, rel (fun x y => R (fst x) (fst y) /\ snd x = snd y)
      (if f then Ok (p_one PA, q) else (x <- rd msg q ;; Ok (x, q + 1))) (if f then Ok (p_one PB, q) else (x <- rd msg' q ;; Ok (x, q + 1)))).
    { intros f q. destruct f; [cbn; split; [apply R1|reflexivity]|]. apply (rel_bind R); [apply rel_rd; exact HM|]. intros; cbn; auto. }
    apply (rel_bind eq); [apply rel_eq|]. intros f f' <-. apply (rel_bind _ _ _ _ _ _ (SY f p)). intros [x q] [y q'] (Hx & E). cbn [fst snd] in *. subst q'.
    apply (rel_bind eq); [apply rel_eq|]. intros g g' <-. apply (rel_bind _ _ _ _ _ _ (SY g q)). intros [x' q1] [y' q1'] (Hx' & E). cbn [fst snd] in *. subst q1'.
    apply (rel_bind (Forall2 R)); [apply rel_wr; [exact F|apply Rm; assumption]|]. intros a1 b1 F1.
    apply (rel_bind (Forall2 R)); [apply rel_wr; assumption|]. intros a2 b2 F2. cbn. auto.
  - intros [h a] [h' b] (_ & F). exact F.
Qed.
Lemma two_mask frozen len l m : Forall2 R l m -> rel (Forall2 R) (polar_mask PA frozen len l) (polar_mask PB frozen len m).
Proof.
  intros H. unfold polar_mask. apply rel_loop; [exact H|]. intros k a b F.
  assert (SY : forall (f : bool) i, rel R (if f then Ok (p_one PA) else rd a i) (if f then Ok (p_one PB) else rd b i)).
  { intros f i. destruct f; [cbn; apply R1|]. apply rel_rd; exact F. }
  apply (rel_bind eq); [apply rel_eq|]. intros f f' <-. apply (rel_bind _ _ _ _ _ _ (SY f _)). intros x y Hx.
  apply (rel_bind eq); [apply rel_eq|]. intros g g' <-. apply (rel_bind _ _ _ _ _ _ (SY g _)). intros x' y' Hx'.
  apply (rel_bind (Forall2 R)); [apply rel_wr; [exact F|apply Rm; assumption]|]. intros a1 b1 F1. apply rel_wr; assumption.
Qed.
Lemma two_encode msg msg' frozen level l m : Forall2 R msg msg' -> Forall2 R l m -> rel (Forall2 R) (polar_encode PA l msg frozen level) (polar_encode PB m msg' frozen level).
Proof.
  intros HM H. unfold polar_encode. apply (rel_bind eq); [apply rel_eq|]. intros _ _ _. apply (rel_bind (Forall2 R)); [apply two_expand; assumption|]. intros; apply two_stages; assumption.
Qed.
Lemma two_sysenc msg msg' frozen level l m : Forall2 R msg msg' -> Forall2 R l m -> rel (Forall2 R) (polar_sysenc PA l msg frozen level) (polar_sysenc PB m msg' frozen level).
Proof.
  intros HM H. unfold polar_sysenc. apply (rel_bind eq); [apply rel_eq|]. intros _ _ _. apply (rel_bind (Forall2 R)); [apply two_expand; assumption|]. intros a b F.
  apply (rel_bind (Forall2 R)); [apply two_stages; assumption|]. intros a1 b1 F1. apply (rel_bind (Forall2 R)); [apply two_mask; assumption|]. intros; apply two_stages; assumption.
Qed.
End Two.
