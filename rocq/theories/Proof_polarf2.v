(** The floating point operations act on the signs as expected. *)
From Coq Require Import ZifyBool Floats.SpecFloat.
From Verif Require Import Cpp Model_simd Model_polar Model_polar_float Spec_polar Spec_polar_float Lib_float Proof_polar1 Proof_polar2 Proof_polar4 Proof_polar6 Proof_polarf1.
Local Open Scope Z_scope.
Ltac Zify.zify_post_hook ::= idtac.

Lemma tern3 z : tern z -> z = -1 \/ z = 0 \/ z = 1.
Proof. unfold tern. lia. Qed.
Section Format.
Variables prec emax : Z.
Hypothesis Hp : 1 < prec.
Hypothesis He : prec < emax.
Notation valid x := (valid_binary prec emax x = true).
Notation emb := (hard_value prec).
Notation one := (one_ prec).

Lemma one_emb' : one = emb 1.
Proof. unfold one_, hard_value. cbn [Z.eqb Z.ltb Z.compare]. f_equal. apply Pos2Z.inj. rewrite one_m by assumption. rewrite Z2Pos.id by (apply Z.pow_pos_nonneg; lia). reflexivity. Qed.
Lemma mone_emb : SFopp one = emb (-1).
Proof. rewrite one_emb'. reflexivity. Qed.
Lemma of_int_emb z : tern z -> of_int prec emax z = emb z.
Proof.
  intros T; destruct (tern3 z T) as [-> |[-> | ->]]; unfold of_int.
  - rewrite of_minus_one by assumption. apply mone_emb.
  - reflexivity.
  - rewrite of_one by assumption. apply one_emb'.
Qed.
Lemma fsgn_tern x : tern (fsgn x).
Proof. unfold tern. destruct x as [[]|[]| |[] m e]; cbn; lia. Qed.
Lemma signumf_ok x : signumf prec emax x = emb (fsgn x).
Proof.
  unfold signumf. rewrite <- of_int_emb by apply fsgn_tern. f_equal. unfold fzero, of_int, binary_normalize. destruct x as [[]|[]| |[] m e]; reflexivity.
Qed.
Definition hardf (x : spec_float) : Prop := (exists s, x = S754_zero s) \/ x = one \/ x = SFopp one.
Lemma hardf_valid x : hardf x -> valid x.
Proof. intros [(s & ->)|[-> | ->]]; [reflexivity|apply one_valid; assumption|rewrite valid_opp; apply one_valid; assumption]. Qed.
Lemma hardf_opp x : hardf x -> hardf (SFopp x).
Proof.
  intros [(s & ->)|[-> | ->]]; [left; eexists; reflexivity|right; right; reflexivity|right; left].
  unfold one_. cbn [SFopp negb]. reflexivity.
Qed.
Lemma fsgn_emb z : tern z -> fsgn (emb z) = z.
Proof. intros T; destruct (tern3 z T) as [-> |[-> | ->]]; reflexivity. Qed.
Lemma fsgn_one : fsgn one = 1. Proof. reflexivity. Qed.
Lemma hardf_emb z : tern z -> hardf (emb z).
Proof. intros T; destruct (tern3 z T) as [-> |[-> | ->]]; [right; right; symmetry; apply mone_emb|left; eexists; reflexivity|right; left; symmetry; apply one_emb']. Qed.
Lemma hardf_sgn x : hardf x -> fsgn x <> 0 -> x = emb (fsgn x).
Proof. intros [(s & ->)|[-> | ->]] N; [cbn in N; lia|apply one_emb'|apply mone_emb]. Qed.
Lemma zero_mul s x : valid x -> valid (SFmul prec emax (S754_zero s) x) /\ fsgn (SFmul prec emax (S754_zero s) x) = 0.
Proof. intros V. destruct x; cbn; auto. Qed.
Lemma zero_mul_hard s x : hardf x -> exists s', SFmul prec emax (S754_zero s) x = S754_zero s'.
Proof. intros [(t & ->)|[-> | ->]]; cbn; eexists; reflexivity. Qed.
Lemma hard_mul a b : hardf a -> valid b -> valid (SFmul prec emax a b) /\ fsgn (SFmul prec emax a b) = fsgn a * fsgn b.
Proof.
  intros Ha Vb. destruct Ha as [(s & ->)|[-> | ->]].
  - destruct (zero_mul s b Vb) as (V & E). split; [exact V|]. rewrite E. reflexivity.
  - rewrite mul_one by assumption. split; [exact Vb|]. rewrite fsgn_one. lia.
  - rewrite mul_minus_one by assumption. rewrite valid_opp, !fsgn_opp, fsgn_one. split; [exact Vb|lia].
Qed.
Lemma mulf_ok a b : hardf a -> hardf b -> hardf (SFmul prec emax a b) /\ fsgn (SFmul prec emax a b) = fsgn a * fsgn b.
Proof.
  intros Ha Hb. split; [|apply hard_mul; [exact Ha|apply hardf_valid; exact Hb]]. destruct Ha as [(s & ->)|[-> | ->]].
  - left. apply zero_mul_hard. exact Hb.
  - rewrite mul_one by (try assumption; apply hardf_valid; exact Hb). exact Hb.
  - rewrite mul_minus_one by (try assumption; apply hardf_valid; exact Hb). apply hardf_opp. exact Hb.
Qed.
Lemma minf_valid a b : valid a -> valid b -> valid (minf a b).
Proof. unfold minf. destruct (SFltb b a); auto. Qed.
Lemma minf_sgn a b : fsgn a <> 0 -> fsgn b <> 0 -> fsgn (minf (SFabs a) (SFabs b)) = 1.
Proof. unfold minf. intros Na Nb. assert (forall x, fsgn x <> 0 -> fsgn (SFabs x) = 1) as G by (intros [[]|[]| |[] m e]; cbn; lia). destruct (SFltb _ _); apply G; assumption. Qed.
Lemma prodf_ok a b : valid a -> valid b -> valid (prodf prec emax a b) /\ fsgn (prodf prec emax a b) = fsgn a * fsgn b.
Proof.
  intros Va Vb. unfold prodf. rewrite !signumf_ok.
  destruct (mulf_ok (emb (fsgn a)) (emb (fsgn b))) as (H & E); [apply hardf_emb, fsgn_tern..|]. rewrite !fsgn_emb in E by apply fsgn_tern.
  destruct (hard_mul (SFmul prec emax (emb (fsgn a)) (emb (fsgn b))) (minf (SFabs a) (SFabs b)) H) as (V & E2); [apply minf_valid; rewrite valid_abs; assumption|].
  split; [exact V|]. rewrite E2, E. destruct (Z.eq_dec (fsgn a) 0) as [Ea|Ea]; [rewrite Ea; lia|]. destruct (Z.eq_dec (fsgn b) 0) as [Eb|Eb]; [rewrite Eb; lia|].
  rewrite minf_sgn by assumption. lia.
Qed.
Lemma maddf_valid h a b : hardf h -> valid a -> valid b -> valid (maddf prec emax h a b).
Proof. intros Hh Va Vb. unfold maddf. apply add_valid; try assumption. apply hard_mul; assumption. Qed.
Lemma maddf_ok a b : valid a -> valid b -> fsgn a <> 0 -> fsgn b <> 0 -> fsgn (maddf prec emax (emb (fsgn a * fsgn b)) a b) = fsgn b.
Proof.
  intros Va Vb Na Nb. pose proof (fsgn_tern a) as Ta. pose proof (fsgn_tern b) as Tb. assert (tern (fsgn a * fsgn b)) as T by (apply tern_mul; assumption).
  destruct (hard_mul (emb (fsgn a * fsgn b)) a (hardf_emb _ T) Va) as (V & E). rewrite fsgn_emb in E by exact T. unfold maddf.
  assert (fsgn a * fsgn b * fsgn a = fsgn b) as K by (unfold tern in *; nia). rewrite K in E. apply add_sign; try assumption; lia.
Qed.
Lemma onef : p_one (opsf prec emax) = emb 1.
Proof. apply of_int_emb. unfold tern. lia. Qed.
Ltac inst L := eapply L with (sg := fsgn) (emb := hard_value prec) (Is := fun x => valid x) (Ih := hardf);
  first [exact S754_nan | exact fsgn_tern | exact fsgn_emb | exact hardf_emb | exact onef | exact signumf_ok | exact hardf_sgn | exact mulf_ok | exact prodf_ok | exact maddf_valid | exact maddf_ok | assumption].
Lemma nodef_inverts n fl : (1 <= n)%nat -> length fl = (2 ^ n)%nat -> ginverts fsgn emb (fun x => valid x) n fl (fnode (opsf prec emax) n fl).
Proof. intros Hn Hl. inst @node_ginverts. Qed.
Lemma nodef_agrees n fl sl : (1 <= n)%nat -> length fl = (2 ^ n)%nat -> length sl = (2 ^ n)%nat -> Forall (fun x => valid x) sl ->
  gagrees fsgn (fnode (opsf prec emax) n fl sl) (gsc (opsf prec emax) S754_nan n fl sl).
Proof. intros Hn Hl Hs Hv. inst @gagrees_node. Qed.
Lemma encodef msg frozen level codeword w : Forall pm1 msg -> (2 ^ level <= length codeword)%nat ->
  polar_encode ops8 (repeat 0%Z (2 ^ level)) msg frozen level = Ok w -> Forall pm1 w ->
  polar_encode (opsf prec emax) codeword (map emb msg) frozen level = Ok (map emb w ++ skipn (2 ^ level) codeword).
Proof. intros Hn Hl Hs Hv. inst @genc. Qed.
Lemma sysencf msg frozen level codeword w : Forall pm1 msg -> (2 ^ level <= length codeword)%nat ->
  polar_sysenc ops8 (repeat 0%Z (2 ^ level)) msg frozen level = Ok w -> Forall pm1 w ->
  polar_sysenc (opsf prec emax) codeword (map emb msg) frozen level = Ok (map emb w ++ skipn (2 ^ level) codeword).
Proof. intros Hn Hl Hs Hv. inst @gsysenc. Qed.
Lemma zip2_ext {T} (f g : T -> T -> T) a : forall b, (forall x y, f x y = g x y) -> zip2 f a b = zip2 g a b.
Proof. induction a as [|x a IH]; intros [|y b] H; cbn [zip2]; try reflexivity. rewrite H, IH by exact H. reflexivity. Qed.
Lemma scf_gsc n : forall fl sl, gsc (opsf prec emax) S754_nan n fl sl = successive_cancellation_f prec emax n fl sl.
Proof.
  induction n as [|n IH]; intros fl sl; cbn [gsc successive_cancellation_f].
  - rewrite onef. cbn [p_signum opsf]. rewrite signumf_ok. reflexivity.
  - rewrite IH. assert (zip2 (p_prod (opsf prec emax)) (firstn (2 ^ n) sl) (skipn (2 ^ n) sl) = zip2 (combine_left_f prec emax) (firstn (2 ^ n) sl) (skipn (2 ^ n) sl)) as ->.
    { apply zip2_ext. intros x y. cbn [p_prod opsf]. unfold prodf, combine_left_f, smaller, minf. rewrite !signumf_ok. reflexivity. }
    destruct (successive_cancellation_f prec emax n (firstn (2 ^ n) fl) _) as [m1 x1]. rewrite IH. reflexivity.
Qed.
End Format.
