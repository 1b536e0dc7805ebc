(** The parity aided encoder on other types of symbols: the buffer behind the codeword is left alone, and a relation kept by the operations is kept. *)
From Coq Require Import ZifyBool ZifyNat Floats.SpecFloat.
From Verif Require Import Cpp Lib_sim Model_simd Model_polar Model_polar_list Model_polar_float Spec_polar Spec_polar_float Spec_polar_list Lib_list Lib_wht Proof_bits Proof_simd Proof_polar1 Proof_polar2
  Proof_polarf0 Proof_polarf1 Proof_polarf2 Proof_plist2 Proof_plist5 Proof_plist7.
Local Open Scope nat_scope.
Ltac Zify.zify_post_hook ::= idtac.

Section Frame.
Context {A : Type} (P : polar_ops A) (t : list A).
Notation R := (longer t).
Lemma frame_parity msg frozen level stride first l m : R l m -> leads R (parity_encode P l msg frozen level stride first) (parity_encode P m msg frozen level stride first).
Proof.
  intros H. unfold parity_encode. apply (leads_bind eq); [apply leads_eq|]. intros _ _ _. apply (leads_bind R); [|intros; apply frame_stages; assumption].
  unfold parity_expand. apply (leads_bind (fun a b => fst a = fst b /\ R (snd a) (snd b))).
  - apply leads_loop; [cbn; auto|]. intros k [p a] [p' b] (E & F). cbn [fst snd] in *. subst p'.
    apply (leads_bind eq); [apply leads_eq|]. intros f f' <-. apply (leads_bind eq); [apply leads_eq|]. intros [x q] ? <-.
    apply (leads_bind eq); [apply leads_eq|]. intros g g' <-. apply (leads_bind eq); [apply leads_eq|]. intros [x' q1] ? <-.
    apply (leads_bind R); [apply longer_wr; exact F|]. intros a1 b1 F1.
    apply (leads_bind R); [apply longer_wr; exact F1|]. intros a2 b2 F2. apply leads_ok. auto.
  - intros [h a] [h' b] (_ & F). apply leads_ok. exact F.
Qed.
End Frame.
Section Two.
Context {A B : Type} (PA : polar_ops A) (PB : polar_ops B) (R : A -> B -> Prop).
Hypothesis R1 : R (p_one PA) (p_one PB).
Hypothesis Rm : forall a x b y, R a x -> R b y -> R (p_mul PA a b) (p_mul PB x y).
Definition two_st (a : nat * A * nat) (b : nat * B * nat) : Prop := fst (fst a) = fst (fst b) /\ R (snd (fst a)) (snd (fst b)) /\ snd a = snd b.
Lemma two_symbol msg msg' f stride a b : Forall2 R msg msg' -> two_st a b ->
  rel (fun x y => R (fst x) (fst y) /\ two_st (snd x) (snd y)) (parity_symbol PA msg f stride a) (parity_symbol PB msg' f stride b).
Proof.
  destruct a as [[p x] c], b as [[p' x'] c']. intros HM (E1 & H & E2). cbn [fst snd] in *. subst p' c'. unfold parity_symbol.
  destruct f; [cbn; unfold two_st; cbn; auto|]. destruct (negb (c =? 0)).
  - apply (rel_bind R); [apply rel_rd; exact HM|]. intros u v Hu. cbn. unfold two_st. cbn. auto.
  - cbn. unfold two_st. cbn. auto.
Qed.
Lemma two_parity msg msg' frozen level stride first l m : Forall2 R msg msg' -> Forall2 R l m ->
  rel (Forall2 R) (parity_encode PA l msg frozen level stride first) (parity_encode PB m msg' frozen level stride first).
Proof.
  intros HM H. unfold parity_encode. apply (rel_bind eq); [apply rel_eq|]. intros _ _ _. apply (rel_bind (Forall2 R)); [|intros; apply (two_stages PA PB R); assumption].
  unfold parity_expand. apply (rel_bind (fun a b => two_st (fst a) (fst b) /\ Forall2 R (snd a) (snd b))).
  - apply rel_loop; [cbn; unfold two_st; cbn; auto|]. intros k [p a] [p' b] (E & F). cbn [fst snd] in *.
    apply (rel_bind eq); [apply rel_eq|]. intros f f' <-. apply (rel_bind _ _ _ _ _ _ (two_symbol msg msg' f stride p p' HM E)). intros [x q] [y q'] (Hx & E'). cbn [fst snd] in *.
    apply (rel_bind eq); [apply rel_eq|]. intros g g' <-. apply (rel_bind _ _ _ _ _ _ (two_symbol msg msg' g stride q q' HM E')). intros [x' q1] [y' q1'] (Hx' & E''). cbn [fst snd] in *.
    apply (rel_bind (Forall2 R)); [apply rel_wr; [exact F|apply Rm; assumption]|]. intros a1 b1 F1.
    apply (rel_bind (Forall2 R)); [apply rel_wr; assumption|]. intros a2 b2 F2. cbn. auto.
  - intros [h a] [h' b] (_ & F). exact F.
Qed.
End Two.

Section Float.
Variables prec emax : Z.
Hypothesis Hp : (1 < prec)%Z.
Hypothesis He : (prec < emax)%Z.
Notation emb := (hard_value prec).
Notation simf := (sim (A := spec_float) emb).
Lemma simf_mul a x b y : simf a x -> simf b y -> simf (qmul8 a b) (SFmul prec emax x y).
Proof.
  intros (Ta & Ha) (Tb & Hb). rewrite qmul8_tern by assumption. split; [apply tern_mul; assumption|]. intros H.
  assert (pm1 a /\ pm1 b) as [Pa Pb] by (unfold pm1, tern in *; nia). rewrite (Ha Pa), (Hb Pb). clear - Hp He Pa Pb.
  destruct (mulf_ok prec emax Hp He (emb a) (emb b)) as (H1 & H2); [apply (hardf_emb prec Hp), pm1_tern; assumption..|]. rewrite !fsgn_emb in H2 by (apply pm1_tern; assumption).
  pose proof (hardf_sgn prec Hp _ H1 ltac:(rewrite H2; unfold pm1 in *; nia)) as H3. rewrite H2 in H3. exact H3.
Qed.
Lemma simf_junk (m : list spec_float) : Forall2 simf (repeat 0%Z (length m)) m.
Proof. induction m as [|x m IH]; cbn [repeat length]; constructor; [|exact IH]. split; [unfold tern; lia|]. unfold pm1. intros H. lia. Qed.
Lemma simf_whole w : forall m, Forall pm1 w -> Forall2 simf w m -> m = map emb w.
Proof.
  induction w as [|x w IH]; intros m F H; inversion H as [|? ? ? ? S1 S2]; subst; [reflexivity|]. cbn [map]. f_equal; [apply S1; exact (Forall_inv F)|]. apply IH; [exact (Forall_inv_tail F)|exact S2].
Qed.
Lemma paritycf msg frozen level stride first codeword w : Forall pm1 msg -> 2 ^ level <= length codeword ->
  parity_encode ops8 (repeat 0%Z (2 ^ level)) msg frozen level stride first = Ok w -> Forall pm1 w ->
  parity_encode (opsf prec emax) codeword (map emb msg) frozen level stride first = Ok (map emb w ++ skipn (2 ^ level) codeword).
Proof.
  intros Fm Hc E Fw.
  assert (simf 1 (p_one (opsf prec emax))) as S1 by (split; [unfold tern; lia|intros _; apply onef; assumption]).
  pose proof (two_parity ops8 (opsf prec emax) simf S1 simf_mul msg (map emb msg) frozen level stride first (repeat 0%Z (2 ^ level)) (firstn (2 ^ level) codeword) (sim_msg emb msg Fm)) as S2.
  assert (length (firstn (2 ^ level) codeword) = 2 ^ level) as LF by (rewrite firstn_length; lia).
  specialize (S2 ltac:(rewrite <- LF at 1; apply simf_junk)). rewrite E in S2. cbn [rel] in S2.
  destruct (parity_encode (opsf prec emax) (firstn (2 ^ level) codeword) (map emb msg) frozen level stride first) as [m'| | |] eqn:EP; try contradiction. apply simf_whole in S2; [|exact Fw]. subst m'.
  destruct (frame_parity (opsf prec emax) (skipn (2 ^ level) codeword) (map emb msg) frozen level stride first (firstn (2 ^ level) codeword) codeword) with (a := map emb w) as (b & Eb & Rb);
    [symmetry; apply firstn_skipn|exact EP|]. rewrite Eb, Rb. reflexivity.
Qed.
End Float.
