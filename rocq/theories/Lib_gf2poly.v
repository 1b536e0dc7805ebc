(** Exact periods of linear maps over GF(2) through an annihilating polynomial, cheap enough to be
    re-evaluated by coqchk.  General mathematics, no model of code. *)
From Coq Require Import List ZArith NArith Lia Bool Znumtheory ZifyBool ZifyNat ZifyN.
From Verif Require Import Lib_orbit Lib_gf2lin.
Import ListNotations.
Local Open Scope N_scope.

(** p(f)(w) for the polynomial with coefficient bits p *)
Fixpoint evp (f : N -> N) (p : positive) (w : N) : N :=
  match p with
  | xH => w
  | xO p' => f (evp f p' w)
  | xI p' => N.lxor w (f (evp f p' w))
  end.
Definition ev (f : N -> N) (p w : N) : N := match p with 0 => 0 | Npos q => evp f q w end.

Definition mulx (n m c : N) : N :=
  let d := N.double c in if N.testbit d n then N.lxor d m else d.
(** columns x^0, x^2, x^4, ... mod m *)
Fixpoint mktab (n m : N) (cnt : nat) (c : N) : list N :=
  match cnt with
  | O => []
  | S k => c :: mktab n m k (mulx n m (mulx n m c))
  end.
Fixpoint powx (n m : N) (tab : list N) (p : positive) : option N :=
  match p with
  | xH => Some 2
  | xO p' => match powx n m tab p' with
             | Some q => if N.size q <=? N.of_nat (length tab) then Some (app tab q) else None
             | None => None
             end
  | xI p' => match powx n m tab p' with
             | Some q => if N.size q <=? N.of_nat (length tab) then Some (mulx n m (app tab q)) else None
             | None => None
             end
  end.

Section Ev.
Variable f : N -> N.
Hypothesis Hf : linear f.

Lemma ev_unfold g p w : linear g -> ev g p w = N.lxor (if N.odd p then w else 0) (g (ev g (N.div2 p) w)).
Proof.
  intros Hg. destruct p as [|[p|p|]]; cbn [ev evp N.odd N.div2]; rewrite ?N.lxor_0_l; try reflexivity.
  - symmetry. apply linear_0, Hg.
  - rewrite linear_0 by exact Hg. rewrite N.lxor_0_r. reflexivity.
Qed.

Lemma size_div2 a n : N.size a <= N.succ n -> N.size (N.div2 a) <= n.
Proof. destruct a as [|[a|a|]]; cbn [N.size N.div2 Pos.size]; lia. Qed.

Lemma ev_lxor a b w : ev f (N.lxor a b) w = N.lxor (ev f a w) (ev f b w).
Proof.
  remember (N.max (N.size a) (N.size b)) as n eqn:En.
  assert (H : N.size a <= n /\ N.size b <= n) by lia. clear En. revert a b H.
  induction n as [|n IH] using N.peano_ind; intros a b (Ha & Hb).
  - destruct a as [|[a|a|]], b as [|[b|b|]]; cbn in Ha, Hb; try lia. reflexivity.
  - rewrite (ev_unfold f _ w Hf), (ev_unfold f a w Hf), (ev_unfold f b w Hf).
    rewrite div2_lxor, IH by (split; apply size_div2; assumption).
    rewrite Hf, odd_lxor. rewrite (lxor_swap _ (f (ev f (N.div2 a) w))). f_equal.
    destruct (N.odd a), (N.odd b); cbn [xorb]; rewrite ?N.lxor_nilpotent, ?N.lxor_0_r, ?N.lxor_0_l; reflexivity.
Qed.

Lemma ev_linear p : linear (ev f p).
Proof.
  intros a b. destruct p as [|p]; [reflexivity|]. cbn [ev]. revert a b.
  induction p as [p IH|p IH|]; intros a b; cbn [evp].
  - rewrite IH, Hf. apply lxor_swap.
  - rewrite IH, Hf. reflexivity.
  - reflexivity.
Qed.

Lemma ev_f p w : ev f p (f w) = f (ev f p w).
Proof.
  destruct p as [|p]; [symmetry; apply linear_0, Hf|]. cbn [ev].
  induction p as [p IH|p IH|]; cbn [evp].
  - rewrite IH, Hf. reflexivity.
  - rewrite IH. reflexivity.
  - reflexivity.
Qed.

Lemma ev_comm p q w : ev f p (ev f q w) = ev f q (ev f p w).
Proof.
  destruct p as [|p]; [symmetry; apply linear_0, ev_linear|]. cbn [ev]. revert w.
  induction p as [p IH|p IH|]; intros w; cbn [evp].
  - rewrite (ev_linear q), ev_f, <- IH. reflexivity.
  - rewrite ev_f, <- IH. reflexivity.
  - reflexivity.
Qed.

Lemma lin2 : linear (fun x => f (f x)).
Proof. intros a b. rewrite !Hf. reflexivity. Qed.

Lemma ev_sq p w : ev f p (ev f p w) = ev (fun x => f (f x)) p w.
Proof.
  destruct p as [|p]; [reflexivity|]. cbn [ev]. revert w.
  induction p as [p IH|p IH|]; intros w; cbn [evp]; [| |reflexivity].
  - assert (L : linear (evp f p)) by exact (ev_linear (Npos p)).
    assert (C : forall w, evp f p (f w) = f (evp f p w)) by exact (ev_f (Npos p)).
    rewrite L, C, IH, Hf. set (X := f (evp f p w)). set (Y := f (f _)).
    rewrite !N.lxor_assoc. f_equal. rewrite <- N.lxor_assoc, N.lxor_nilpotent. apply N.lxor_0_l.
  - assert (C : forall w, evp f p (f w) = f (evp f p w)) by exact (ev_f (Npos p)).
    rewrite C, IH. reflexivity.
Qed.

Variables n m : N.
Definition ann (w : N) : Prop := ev f m w = 0.
Lemma ann_f w : ann w -> ann (f w).
Proof. unfold ann. intros H. rewrite ev_f, H. apply linear_0, Hf. Qed.

Lemma ev_mulx c w : ann w -> ev f (mulx n m c) w = f (ev f c w).
Proof.
  intros Hw. unfold mulx. cbv zeta.
  assert (D : ev f (N.double c) w = f (ev f c w)).
  { rewrite (ev_unfold f _ w Hf).
    replace (N.odd (N.double c)) with false by (destruct c; reflexivity).
    replace (N.div2 (N.double c)) with c by (destruct c; reflexivity). apply N.lxor_0_l. }
  destruct (N.testbit _ n); [|exact D]. rewrite ev_lxor, D, Hw. apply N.lxor_0_r.
Qed.

Lemma ev_tab cnt : forall c p w, ann w -> N.size p <= N.of_nat cnt ->
  ev f (app (mktab n m cnt c) p) w = ev f c (ev (fun x => f (f x)) p w).
Proof.
  induction cnt as [|cnt IH]; intros c p w Hw Hp; cbn [mktab app].
  - destruct p as [|[p|p|]]; cbn in Hp; try lia. cbn [ev]. symmetry. apply linear_0, ev_linear.
  - rewrite ev_lxor, IH; [|exact Hw|apply size_div2; lia].
    rewrite (ev_unfold _ p w lin2), (ev_linear c). f_equal.
    + destruct (N.odd p); [reflexivity|]. symmetry. apply linear_0, ev_linear.
    + set (z := ev (fun x => f (f x)) (N.div2 p) w).
      assert (Hz : ann z).
      { unfold z. rewrite <- ev_sq. unfold ann. rewrite 2!(ev_comm m), Hw.
        rewrite (linear_0 (ev f (N.div2 p))) by apply ev_linear. apply linear_0, ev_linear. }
      rewrite !ev_mulx, !ev_f by exact Hz. reflexivity.
Qed.

Lemma powx_ok cnt p q : powx n m (mktab n m cnt 1) p = Some q ->
  forall w, ann w -> ev f q w = N.iter (Npos p) f w.
Proof.
  assert (Len : forall k c, length (mktab n m k c) = k).
  { induction k; intros c; cbn [mktab length]; [reflexivity|]. rewrite IHk. reflexivity. }
  assert (S : forall q p', (forall w, ann w -> ev f q w = N.iter (Npos p') f w) ->
     N.size q <= N.of_nat (length (mktab n m cnt 1)) ->
     forall w, ann w -> ev f (app (mktab n m cnt 1) q) w = N.iter (Npos p'~0) f w).
  { intros q0 p' H Hs w Hw. rewrite Len in Hs. rewrite ev_tab by assumption.
    change (ev f 1 ?x) with x. rewrite <- ev_sq.
    assert (A : ann (ev f q0 w)) by (unfold ann; rewrite ev_comm, Hw; apply linear_0, ev_linear).
    rewrite (H _ A), (H _ Hw), <- iter_plus. f_equal. lia. }
  revert q. induction p as [p IH|p IH|]; intros q; cbn [powx].
  - destruct (powx n m _ p) as [q0|]; [|discriminate].
    destruct (N.leb_spec (N.size q0) (N.of_nat (length (mktab n m cnt 1)))) as [L|]; [|discriminate].
    intros H w Hw. injection H as <-. rewrite ev_mulx by exact Hw.
    rewrite (S q0 p (IH _ eq_refl) L w Hw). rewrite <- N.iter_succ. f_equal.
  - destruct (powx n m _ p) as [q0|]; [|discriminate].
    destruct (N.leb_spec (N.size q0) (N.of_nat (length (mktab n m cnt 1)))) as [L|]; [|discriminate].
    intros H w Hw. injection H as <-. apply (S q0 p (IH _ eq_refl) L w Hw).
  - intros H w Hw. injection H as <-. reflexivity.
Qed.
End Ev.

(** x, f x, f (f x), ... computed once *)
Fixpoint orb (f : N -> N) (cnt : nat) (x : N) : list N :=
  match cnt with O => [] | S k => x :: orb f k (f x) end.
Definition evo (o : list N) (q : N) : option N :=
  if N.size q <=? N.of_nat (length o) then Some (app o q) else None.

Lemma evo_ok f cnt x q y : linear f -> evo (orb f cnt x) q = Some y -> ev f q x = y.
Proof.
  intros Hf. unfold evo.
  assert (Len : forall k x, length (orb f k x) = k).
  { induction k; intros z; cbn [orb length]; [reflexivity|]. rewrite IHk. reflexivity. }
  rewrite Len. destruct (N.leb_spec (N.size q) (N.of_nat cnt)) as [L|]; [|discriminate].
  intros H. injection H as <-. revert x q L. induction cnt as [|cnt IH]; intros x q L; cbn [orb app].
  - destruct q as [|[q|q|]]; cbn in L; try lia. reflexivity.
  - rewrite <- IH by (apply size_div2; lia). rewrite (ev_f f Hf). apply ev_unfold. exact Hf.
Qed.

(** The check: [m] annihilates [x], x^P = 1, x^(P/q) applied to the vector differs from it. *)
Definition poly_check (f : N -> N) (n : nat) (m : N) (l : list N) (x : N) : bool :=
  let tab := mktab (N.of_nat n) m n 1 in
  let o := orb f (S n) x in
  (match evo o m with Some 0 => true | _ => false end) &&
  match prod l with
  | 0 => false
  | Npos p =>
      (match powx (N.of_nat n) m tab p with
       | Some q => match evo o q with Some y => y =? x | None => false end | None => false end) &&
      forallb (fun q => match (prod l / q) with
                        | 0 => false
                        | Npos k => match powx (N.of_nat n) m tab k with
                                    | Some q => match evo o q with Some y => negb (y =? x) | None => false end
                                    | None => false end
                        end) l
  end.

Theorem poly_period f n m l x :
  linear f -> Forall (fun q => prime (Z.of_N q)) l ->
  poly_check f n m l x = true ->
  N.iter (prod l) f x = x /\ forall k, 0 < k < prod l -> N.iter k f x <> x.
Proof.
  intros Hf Hl H. unfold poly_check in H. cbv zeta in H.
  apply andb_prop in H. destruct H as [H0' H].
  assert (H0 : ev f m x = 0).
  { destruct (evo _ m) as [[|?]|] eqn:E in H0'; try discriminate. apply evo_ok in E; assumption. }
  pose proof (exact_period f x l Hl) as EP.
  destruct (prod l) as [|p]; [discriminate|].
  apply andb_prop in H. destruct H as [H1 H2].
  assert (E : N.iter (Npos p) f x = x).
  { destruct (powx _ m _ p) as [y|] eqn:Y in H1; [|discriminate].
    destruct (evo _ y) as [z|] eqn:Z in H1; [|discriminate]. apply evo_ok in Z; [|exact Hf]. apply N.eqb_eq in H1.
    rewrite (powx_ok f Hf (N.of_nat n) m n p y Y x H0) in Z. congruence. }
  split; [exact E|]. apply EP; [exact E|].
  intros q Hq. rewrite forallb_forall in H2. specialize (H2 q Hq).
  destruct (Npos p / q) as [|k]; [discriminate|].
  destruct (powx _ m _ k) as [y|] eqn:Y in H2; [|discriminate].
  destruct (evo _ y) as [z|] eqn:Z in H2; [|discriminate]. apply evo_ok in Z; [|exact Hf].
  destruct (N.eqb_spec z x) as [|Hne]; [discriminate|].
  rewrite (powx_ok f Hf (N.of_nat n) m n k y Y x H0) in Z. congruence.
Qed.
