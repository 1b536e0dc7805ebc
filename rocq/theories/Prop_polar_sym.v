(** Property C76: the decoding errors of a polar decoder depend on the noise only, not on the message. *)
From Coq Require Import ZifyBool ZifyNat Floats.SpecFloat.
From Verif Require Import Cpp Model_simd Model_polar Model_polar_float Spec_polar Spec_polar_float Lib_list Lib_wht Lib_float Proof_bits Proof_simd
  Proof_polar1 Proof_polar2 Proof_polar3 Proof_polar4 Proof_polar5 Proof_polar6 Proof_polarf1 Proof_polarf2 Proof_polar_sym Prop_polar Prop_polar_float.
Local Open Scope nat_scope.
Ltac Zify.zify_post_hook ::= idtac.

(** ** 8 bit values *)
Definition soft_turn (s a b : Z) : Prop := (-127 <= a <= 127)%Z /\ b = (s * a)%Z.
Definition hard_turn (s a b : Z) : Prop := tern a /\ b = (s * a)%Z.
Lemma pm1_mul s t : pm1 s -> pm1 t -> pm1 (s * t).
Proof. intros [-> | ->] [-> | ->]; unfold pm1; lia. Qed.
Lemma turn_tern s a : pm1 s -> tern a -> tern (s * a).
Proof. unfold tern. intros [-> | ->]; lia. Qed.
Lemma node8_turns n fl : 1 <= n -> length fl = 2 ^ n -> turns soft_turn hard_turn n fl (fnode ops8 n fl).
Proof.
  apply node_turns.
  - split; [unfold tern; cbn; lia|reflexivity].
  - intros s a b Hs (Ha & ->). cbn [p_signum ops8]. rewrite !signum8_sgn. split; [apply sgn_tern|]. rewrite Z.sgn_mul. f_equal. destruct Hs as [-> | ->]; reflexivity.
  - intros s t a b c d Hs Ht (Ha & ->) (Hc & ->). cbn [p_mul ops8]. rewrite !qmul8_tern by (try assumption; apply turn_tern; assumption).
    split; [apply tern_mul; assumption|ring].
  - intros s t a b c d Hs Ht (Ha & ->) (Hc & ->). cbn [p_prod ops8].
    assert (int8 (s * a) /\ int8 (t * c)) as [I1 I2] by (unfold int8; destruct Hs as [-> | ->], Ht as [-> | ->]; lia).
    assert (int8 a /\ int8 c) as [I3 I4] by (unfold int8; lia).
    rewrite <- (proj2 (prod8_ok a c I3 I4)), <- (proj2 (prod8_ok (s * a) (t * c) I1 I2)). unfold combine_left. split.
    + pose proof (mul_tern_le (Z.sgn a * Z.sgn c) (Z.min (Z.min 127 (Z.abs a)) (Z.min 127 (Z.abs c))) (tern_mul _ _ (sgn_tern a) (sgn_tern c))). lia.
    + rewrite !Z.sgn_mul. assert (Z.abs (s * a) = Z.abs a /\ Z.abs (t * c) = Z.abs c) as [-> ->] by (destruct Hs as [-> | ->], Ht as [-> | ->]; lia).
      assert (Z.sgn s = s /\ Z.sgn t = t) as [-> ->] by (destruct Hs as [-> | ->], Ht as [-> | ->]; split; reflexivity). ring.
  - intros s t h h' a b c d Hs Ht (Hh & ->) (Ha & ->) (Hc & ->). cbn [p_madd ops8].
    assert (int8 (s * t * a) /\ int8 (t * c)) as [I1 I2] by (unfold int8; destruct Hs as [-> | ->], Ht as [-> | ->]; lia).
    assert (int8 a /\ int8 c) as [I3 I4] by (unfold int8; lia).
    rewrite <- (proj2 (madd8_ok h a c Hh I3 I4)), <- (proj2 (madd8_ok (s * h) (s * t * a) (t * c) (turn_tern s h Hs Hh) I1 I2)).
    unfold combine_right, clamp. split; [lia|].
    replace (s * h * (s * t * a) + t * c)%Z with (s * s * (t * (h * a + c) + (1 - s * s) * 0) + (1 - s * s) * t * c)%Z by ring.
    destruct Hs as [-> | ->], Ht as [-> | ->]; lia.
Qed.

(** C76: multiplying the received values by the symbols of a codeword multiplies the decoded message by the symbols of its message.
    In particular the wrongly decoded symbols, and the undecided ones (zeros), are at the same places for all codewords. *)
Theorem C76_errors_do_not_depend_on_the_codeword : forall MAX_M soft hard soft2 hard2 out received frozen level message codeword cw,
  decoder_buffers MAX_M soft hard out received frozen level -> length soft2 = length soft -> length hard2 = length hard ->
  Forall pm1 message -> length message = unfrozen (flags frozen (2 ^ level)) -> 2 ^ level <= length codeword ->
  polar_encode ops8 codeword message frozen level = Ok cw ->
  Forall (fun x => (-127 <= x <= 127)%Z) received ->
  exists soft' hard' soft2' hard2' decoded, length decoded = length message /\
    polar_decode ops8 MAX_M soft hard out received frozen level = Ok (soft', hard', decoded ++ skipn (length message) out) /\
    polar_decode ops8 MAX_M soft2 hard2 out (zip2 Z.mul cw received) frozen level
      = Ok (soft2', hard2', zip2 Z.mul message decoded ++ skipn (length message) out).
Proof.
  intros MAX_M soft hard soft2 hard2 out r f n msg cw0 cw HB Ls2 Lh2 F Lm Hc E I7.
  pose proof (decode_gen' ops8 0%Z MAX_M soft hard out r f n HB) as D.
  assert (length cw = length cw0 /\ firstn (2 ^ n) cw = ptr n (expand (flags f (2 ^ n)) msg)) as [Lcw Ecw].
  { destruct HB as (H1 & H2 & H3 & H4 & H5 & H6 & H7 & H8). rewrite encode_ok in E by (assumption || lia). injection E as <-.
    rewrite app_length, length_transform, skipn_length, firstn_app_l by apply length_transform. split; [lia|].
    symmetry. apply ptr_transform. rewrite length_expand. apply length_flags. }
  assert (decoder_buffers MAX_M soft2 hard2 out (zip2 Z.mul cw r) f n) as HB2.
  { destruct HB as (H1 & H2 & H3 & H4 & H5 & H6 & H7 & H8). unfold decoder_buffers. rewrite length_zip2. repeat (split; [lia|]). split; [exact H7|exact H8]. }
  pose proof (decode_gen' ops8 0%Z MAX_M soft2 hard2 out (zip2 Z.mul cw r) f n HB2) as D2.
  destruct HB as (H1 & _ & _ & _ & H5 & _).
  destruct (node8_turns n (flags f (2 ^ n)) ltac:(lia) (length_flags _ _) msg (firstn (2 ^ n) r) (firstn (2 ^ n) (zip2 Z.mul cw r))) as (TM & _).
  - exact Lm.
  - exact F.
  - rewrite <- Ecw. apply (all3_nth _ _ _ _ 0%Z 0%Z 0%Z); rewrite ?firstn_length, ?length_zip2; try lia. intros i Hi.
    rewrite !nth_firstn'. replace (i <? 2 ^ n) with true by lia. rewrite (nth_zip2 Z.mul cw r i 0%Z 0%Z 0%Z) by lia. split; [|reflexivity].
    rewrite Forall_forall in I7. apply I7. apply nth_In. lia.
  - destruct (fnode ops8 n _ (firstn (2 ^ n) r)) as [m x]. destruct (fnode ops8 n _ (firstn (2 ^ n) (zip2 Z.mul cw r))) as [m2 x2]. cbn [fst] in TM.
    destruct D as (Lm1 & _ & s' & _ & D). destruct D2 as (Lm2 & _ & s2' & _ & D2). exists s', (x ++ skipn (2 ^ n) hard), s2', (x2 ++ skipn (2 ^ n) hard2), m.
    split; [congruence|]. rewrite D, D2. rewrite Lm1, Lm2, Lm. split; [reflexivity|]. do 3 f_equal.
    clear - TM. induction TM as [|s a b ss l m' (_ & ->) TM IH]; [reflexivity|]. cbn [zip2]. rewrite IH. reflexivity.
Qed.
Print Assumptions C76_errors_do_not_depend_on_the_codeword.

(** C76: the same in every lane of the SIMD decoder (both variants of the helper), each lane with its own message *)
Theorem C76_lanes : forall W P MAX_M soft hard soft2 hard2 out received received2 frozen level k message codeword cw,
  P = ops8v W \/ P = ops8v_neon W -> k < W ->
  decoder_buffers MAX_M soft hard out received frozen level -> decoder_buffers MAX_M soft2 hard2 out received2 frozen level ->
  Forall (fun v => length v = W /\ Forall (fun x => (-127 <= x <= 127)%Z) v) received ->
  Forall (fun v => length v = W /\ Forall (fun x => (-127 <= x <= 127)%Z) v) received2 ->
  Forall pm1 message -> length message = unfrozen (flags frozen (2 ^ level)) -> 2 ^ level <= length codeword ->
  polar_encode ops8 codeword message frozen level = Ok cw ->
  (forall i, i < 2 ^ level -> nth k (nth i received2 []) 0%Z = (nth i cw 0 * nth k (nth i received []) 0)%Z) ->
  exists soft' hard' message' soft2' hard2' message2',
    polar_decode P MAX_M soft hard out received frozen level = Ok (soft', hard', message') /\
    polar_decode P MAX_M soft2 hard2 out received2 frozen level = Ok (soft2', hard2', message2') /\
    forall i, i < length message -> nth k (nth i message2' []) 0%Z = (nth i message 0 * nth k (nth i message' []) 0)%Z.
Proof.
  intros W P MAX_M soft hard soft2 hard2 out r r2 f n k msg cw0 cw HP Hk HB HB2 F1 F2 Fm Lm Hc E H.
  destruct (C59_lanes_decode_independently W P MAX_M soft hard out r f n HP HB F1) as (s' & h' & m' & D & HL).
  destruct (C59_lanes_decode_independently W P MAX_M soft2 hard2 out r2 f n HP HB2 F2) as (s2' & h2' & m2' & D2 & HL2).
  exists s', h', m', s2', h2', m2'. split; [exact D|]. split; [exact D2|].
  set (z := repeat 0%Z (2 * 2 ^ MAX_M)). set (zh := repeat 0%Z (2 ^ MAX_M)).
  destruct (HL k Hk z zh (repeat_length _ _) (repeat_length _ _)) as (a & b & E1 & _).
  destruct (HL2 k Hk z zh (repeat_length _ _) (repeat_length _ _)) as (a2 & b2 & E2 & _).
  set (col := fun l => map (fun v : list Z => nth k v 0%Z) l) in *.
  assert (decoder_buffers MAX_M z zh (col out) (col r) f n) as HBc.
  { destruct HB as (A1 & A2 & A3 & A4 & A5 & A6 & A7 & A8). unfold decoder_buffers, col, z, zh. rewrite !map_length, !repeat_length. auto 10. }
  destruct (C76_errors_do_not_depend_on_the_codeword MAX_M z zh z zh (col out) (col r) f n msg cw0 cw HBc eq_refl eq_refl Fm Lm Hc E)
    as (q1 & q2 & q3 & q4 & dec & Ld & G1 & G2).
  { apply Forall_map. eapply Forall_impl; [|exact F1]. intros v (Lv & Fv). rewrite Forall_forall in Fv. apply Fv. apply nth_In. lia. }
  assert (polar_decode ops8 MAX_M z zh (col out) (col r2) f n = polar_decode ops8 MAX_M z zh (col out) (zip2 Z.mul cw (col r)) f n) as Esame.
  { assert (length cw = length cw0) as Lcw.
    { destruct HB as (A1 & A2 & A3 & A4 & A5 & A6 & A7 & A8). rewrite encode_ok in E by (assumption || lia). injection E as <-. rewrite app_length, length_transform, skipn_length. lia. }
    destruct HB as (A1 & A2 & A3 & A4 & A5 & A6 & A7 & A8). destruct HB2 as (B1 & B2 & B3 & B4 & B5 & B6 & B7 & B8).
    assert (decoder_buffers MAX_M z zh (col out) (col r2) f n) as HBa.
    { unfold decoder_buffers, col, z, zh. rewrite !map_length, !repeat_length. auto 10. }
    assert (decoder_buffers MAX_M z zh (col out) (zip2 Z.mul cw (col r)) f n) as HBb.
    { unfold decoder_buffers. split; [lia|]. split; [lia|]. split; [unfold z; apply repeat_length|]. split; [unfold zh; apply repeat_length|].
      unfold col. rewrite length_zip2, !map_length. split; [lia|]. split; [lia|]. split; assumption. }
    assert (firstn (2 ^ n) (col r2) = firstn (2 ^ n) (zip2 Z.mul cw (col r))) as Ef.
    { unfold col. apply (list_ext _ _ 0%Z); rewrite ?firstn_length, ?length_zip2, ?map_length; [lia|]. intros i Hi. rewrite !nth_firstn'. replace (i <? 2 ^ n) with true by lia.
      rewrite (nth_zip2 Z.mul _ _ i 0%Z 0%Z 0%Z) by (rewrite ?map_length; lia). rewrite !(nth_map1 _ _ _ []) by lia. apply H. lia. }
    unfold polar_decode. rewrite (fill_ok (2 ^ n) (2 ^ n) (fun i => nth i (col r2) 0%Z)) .
    - rewrite (fill_ok (2 ^ n) (2 ^ n) (fun i => nth i (zip2 Z.mul cw (col r)) 0%Z)).
      + do 2 (f_equal; try reflexivity). all: try (f_equal; fail). 
        all: assert (map (fun i => nth i (col r2) 0%Z) (seq 0 (2 ^ n)) = map (fun i => nth i (zip2 Z.mul cw (col r)) 0%Z) (seq 0 (2 ^ n))) as ->;
          [apply map_ext_in; intros i Hi; apply in_seq in Hi; pose proof (f_equal (fun l => nth i l 0%Z) Ef) as G; cbv beta in G; rewrite !nth_firstn' in G; replace (i <? 2 ^ n) with true in G by lia; exact G|reflexivity].
      + pose proof (Nat.pow_le_mono_r 2 n MAX_M ltac:(lia) A2). unfold z. rewrite repeat_length. lia.
      + intros i cur Hi _. rewrite (rd_nth _ _ 0%Z) by (rewrite length_zip2; unfold col; rewrite map_length; lia). reflexivity.
    - pose proof (Nat.pow_le_mono_r 2 n MAX_M ltac:(lia) A2). unfold z. rewrite repeat_length. lia.
    - intros i cur Hi _. rewrite (rd_nth _ _ 0%Z) by (unfold col; rewrite map_length; lia). reflexivity. }
  cbv zeta in E1, E2. rewrite G1 in E1. rewrite Esame, G2 in E2.
  assert (col m' = dec ++ skipn (length msg) (col out)) as C1 by congruence.
  assert (col m2' = zip2 Z.mul msg dec ++ skipn (length msg) (col out)) as C2 by congruence.
  intros i Hi.
  assert (forall l, nth k (nth i l []) 0%Z = nth i (col l) 0%Z) as Hcol.
  { intros l. unfold col. destruct (Nat.lt_ge_cases i (length l)) as [Hl|Hl]; [rewrite (nth_map1 _ _ _ []) by exact Hl; reflexivity|].
    rewrite (nth_overflow l) by exact Hl. rewrite (nth_overflow (map _ l)) by (rewrite map_length; exact Hl). destruct k; reflexivity. }
  rewrite !Hcol, C1, C2. rewrite !app_nth1 by (rewrite ?length_zip2; lia). rewrite (nth_zip2 Z.mul _ _ i 0%Z 0%Z 0%Z) by lia. reflexivity.
Qed.
Print Assumptions C76_lanes.

(** ** Floating point values, without regard for the signs of zeros *)
Definition nz (x : spec_float) : spec_float := match x with S754_zero _ => S754_zero false | _ => x end.
Definition turnf (s : Z) (x : spec_float) : spec_float := if (s <? 0)%Z then SFopp x else x.
Definition float_turn (s : Z) (a b : spec_float) : Prop := nz b = nz (turnf s a).
Lemma nz_opp x : nz (SFopp x) = nz (SFopp (nz x)).
Proof. destruct x; reflexivity. Qed.
Lemma fsgn_nz x : fsgn (nz x) = fsgn x.
Proof. destruct x; reflexivity. Qed.
Lemma fsgn_turnf s x : pm1 s -> fsgn (turnf s x) = (s * fsgn x)%Z.
Proof. intros [-> | ->]; unfold turnf; cbn [Z.ltb Z.compare]; [lia|]. rewrite fsgn_opp. lia. Qed.
Lemma opp_opp x : SFopp (SFopp x) = x.
Proof. destruct x as [[]|[]| |[] m e]; reflexivity. Qed.
Lemma nz_turnf s x : nz (turnf s x) = nz (turnf s (nz x)).
Proof. unfold turnf. destruct (s <? 0)%Z; destruct x; reflexivity. Qed.
Lemma turnf_turnf s t x : pm1 s -> pm1 t -> turnf s (turnf t x) = turnf (s * t) x.
Proof. intros [-> | ->] [-> | ->]; unfold turnf; cbn; rewrite ?opp_opp; reflexivity. Qed.
Section FloatTurn.
Variables prec emax : Z.
Lemma round_aux_negb s m e l : binary_round_aux prec emax (negb s) m e l = SFopp (binary_round_aux prec emax s m e l).
Proof.
  unfold binary_round_aux. destruct (shr_fexp prec emax m e l) as [r e']. destruct (shr_fexp prec emax _ e' loc_Exact) as [r2 e2]. destruct (shr_m r2); try reflexivity.
  destruct (Zle_bool e2 (emax - prec)); reflexivity.
Qed.
Lemma round_negb s m e : binary_round prec emax (negb s) m e = SFopp (binary_round prec emax s m e).
Proof. unfold binary_round. destruct (shl_align m e _) as [mz ez]. apply round_aux_negb. Qed.
Lemma normalize_opp m e : nz (binary_normalize prec emax (- m) e false) = nz (SFopp (binary_normalize prec emax m e false)).
Proof. destruct m as [|p|p]; cbn [binary_normalize Z.opp]; [reflexivity| |]; [change true with (negb false)|change false with (negb true)]; rewrite round_negb; reflexivity. Qed.
Lemma add_opp x y : nz (SFadd prec emax (SFopp x) (SFopp y)) = nz (SFopp (SFadd prec emax x y)).
Proof.
  destruct x as [[]|[]| |s m e], y as [[]|[]| |s2 m2 e2]; cbn [SFopp SFadd]; try reflexivity.
  rewrite <- normalize_opp. f_equal. f_equal. destruct s, s2; cbn [cond_Zopp negb]; lia.
Qed.
Lemma add_nz x y : nz (SFadd prec emax x y) = nz (SFadd prec emax (nz x) (nz y)).
Proof. destruct x as [[]|[]| |s m e], y as [[]|[]| |s2 m2 e2]; reflexivity. Qed.
Lemma mul_nz x y : nz (SFmul prec emax x y) = nz (SFmul prec emax (nz x) (nz y)).
Proof. destruct x as [[]|[]| |s m e], y as [[]|[]| |s2 m2 e2]; reflexivity. Qed.
Lemma mul_opp_l x y : SFmul prec emax (SFopp x) y = SFopp (SFmul prec emax x y).
Proof. destruct x as [s|s| |s m e], y as [s2|s2| |s2 m2 e2]; cbn [SFopp SFmul]; try reflexivity; rewrite <- ?negb_xorb_l; try reflexivity. apply round_aux_negb. Qed.
Lemma mul_opp_r x y : SFmul prec emax x (SFopp y) = SFopp (SFmul prec emax x y).
Proof. destruct x as [s|s| |s m e], y as [s2|s2| |s2 m2 e2]; cbn [SFopp SFmul]; try reflexivity; rewrite <- ?negb_xorb_r; try reflexivity. apply round_aux_negb. Qed.
Lemma mul_turn s t x y : pm1 s -> pm1 t -> SFmul prec emax (turnf s x) (turnf t y) = turnf (s * t) (SFmul prec emax x y).
Proof. intros [-> | ->] [-> | ->]; unfold turnf; cbn [Z.ltb Z.compare Z.mul Pos.mul]; rewrite ?mul_opp_l, ?mul_opp_r, ?opp_opp; reflexivity. Qed.
Lemma float_mul_turn s t a b c d : pm1 s -> pm1 t -> float_turn s a b -> float_turn t c d -> float_turn (s * t) (SFmul prec emax a c) (SFmul prec emax b d).
Proof. intros Hs Ht H1 H2. unfold float_turn in *. rewrite mul_nz, H1, H2, <- mul_nz, mul_turn by assumption. reflexivity. Qed.
Lemma hard_value_turn s z : pm1 s -> tern z -> float_turn s (hard_value prec z) (hard_value prec (s * z)).
Proof. unfold tern, float_turn, turnf. intros [-> | ->] T; assert (z = -1 \/ z = 0 \/ z = 1)%Z as [-> |[-> | ->]] by lia; reflexivity. Qed.
Lemma abs_turn s a b : float_turn s a b -> SFabs b = SFabs a.
Proof.
  unfold float_turn. intros H. assert (forall x, SFabs x = SFabs (nz x)) as G by (intros [| | |]; reflexivity). rewrite (G b), H, <- G. unfold turnf. destruct (s <? 0)%Z; [|reflexivity].
  destruct a; reflexivity.
Qed.
Lemma fsgn_turn s a b : pm1 s -> float_turn s a b -> fsgn b = (s * fsgn a)%Z.
Proof. intros Hs H. rewrite <- fsgn_nz, H, fsgn_nz. apply fsgn_turnf. exact Hs. Qed.
Lemma nodef_turns (Hp : (1 < prec)%Z) (He : (prec < emax)%Z) n fl : 1 <= n -> length fl = 2 ^ n -> turns float_turn float_turn n fl (fnode (opsf prec emax) n fl).
Proof.
  assert (forall s a b, pm1 s -> float_turn s a b -> float_turn s (signumf prec emax a) (signumf prec emax b)) as HS.
  { intros s a b Hs H. rewrite !signumf_ok by assumption. rewrite (fsgn_turn s a b Hs H). apply hard_value_turn; [exact Hs|apply fsgn_tern]. }
  apply node_turns.
  - reflexivity.
  - exact HS.
  - intros. apply float_mul_turn; assumption.
  - intros s t a b c d Hs Ht H1 H2. cbn [p_prod opsf]. unfold prodf. rewrite (abs_turn s a b H1), (abs_turn t c d H2).
    replace (s * t)%Z with (s * t * 1)%Z by ring. apply float_mul_turn; [apply pm1_mul; assumption|left; reflexivity| |reflexivity].
    apply float_mul_turn; try assumption; apply HS; assumption.
  - intros s t h h' a b c d Hs Ht H1 H2 H3. cbn [p_madd opsf]. unfold maddf.
    pose proof (float_mul_turn s (s * t) h h' a b Hs (pm1_mul s t Hs Ht) H1 H2) as H. replace (s * (s * t))%Z with t in H by (destruct Hs as [-> | ->]; lia).
    unfold float_turn in *. rewrite add_nz, H, H3, <- add_nz. destruct Ht as [-> | ->]; unfold turnf; cbn [Z.ltb Z.compare]; [reflexivity|]. apply add_opp.
Qed.
End FloatTurn.
(** C76: the same in floating point, NaNs and infinities included; zeros of the message have no significant sign *)
Theorem C76_float : forall prec emax MAX_M soft hard soft2 hard2 out received frozen level message codeword cw,
  format prec emax -> decoder_buffers MAX_M soft hard out received frozen level -> length soft2 = length soft -> length hard2 = length hard ->
  Forall pm1 message -> length message = unfrozen (flags frozen (2 ^ level)) -> 2 ^ level <= length codeword ->
  polar_encode (opsf prec emax) codeword (map (hard_value prec) message) frozen level = Ok cw ->
  Forall (fun x => valid_binary prec emax x = true) received ->
  exists soft' hard' soft2' hard2' decoded decoded2, length decoded = length message /\ length decoded2 = length message /\
    polar_decode (opsf prec emax) MAX_M soft hard out received frozen level = Ok (soft', hard', decoded ++ skipn (length message) out) /\
    polar_decode (opsf prec emax) MAX_M soft2 hard2 out (zip2 (SFmul prec emax) cw received) frozen level
      = Ok (soft2', hard2', decoded2 ++ skipn (length message) out) /\
    map fsgn decoded2 = zip2 Z.mul message (map fsgn decoded).
Proof.
  intros prec emax MAX_M soft hard soft2 hard2 out r f n msg cw0 cw (Hp & He) HB Ls2 Lh2 F Lm Hc E V.
  pose proof (decode_gen' (opsf prec emax) S754_nan MAX_M soft hard out r f n HB) as D.
  assert (length cw = length cw0 /\ exists w, length w = 2 ^ n /\ Forall pm1 w /\ firstn (2 ^ n) cw = map (hard_value prec) w /\ w = ptr n (expand (flags f (2 ^ n)) msg))
    as (Lcw & w & Lw & Fw & Ecw & Ew).
  { destruct HB as (H1 & H2 & H3 & H4 & H5 & H6 & H7 & H8). destruct (enc8 msg f n ltac:(lia) H6 ltac:(lia) F) as (E8 & Fw).
    rewrite (encodef prec emax Hp He msg f n cw0 _ F Hc E8 Fw) in E. injection E as <-.
    rewrite app_length, map_length, length_transform, skipn_length. split; [lia|]. exists (transform n (expand (flags f (2 ^ n)) msg)).
    split; [apply length_transform|]. split; [exact Fw|]. split; [apply firstn_app_l; rewrite map_length; apply length_transform|].
    symmetry. apply ptr_transform. rewrite length_expand. apply length_flags. }
  assert (decoder_buffers MAX_M soft2 hard2 out (zip2 (SFmul prec emax) cw r) f n) as HB2.
  { destruct HB as (H1 & H2 & H3 & H4 & H5 & H6 & H7 & H8). unfold decoder_buffers. rewrite length_zip2. repeat (split; [lia|]). split; [exact H7|exact H8]. }
  pose proof (decode_gen' (opsf prec emax) S754_nan MAX_M soft2 hard2 out (zip2 (SFmul prec emax) cw r) f n HB2) as D2.
  destruct HB as (H1 & _ & _ & _ & H5 & _).
  destruct (nodef_turns prec emax Hp He n (flags f (2 ^ n)) ltac:(lia) (length_flags _ _) msg (firstn (2 ^ n) r) (firstn (2 ^ n) (zip2 (SFmul prec emax) cw r))) as (TM & _).
  - exact Lm.
  - exact F.
  - rewrite <- Ew. apply (all3_nth _ _ _ _ 0%Z S754_nan S754_nan); rewrite ?firstn_length, ?length_zip2; try lia. intros i Hi.
    rewrite !nth_firstn'. replace (i <? 2 ^ n) with true by lia. rewrite (nth_zip2 (SFmul prec emax) cw r i S754_nan S754_nan S754_nan) by lia.
    assert (nth i cw S754_nan = hard_value prec (nth i w 0%Z)) as ->.
    { pose proof (f_equal (fun l => nth i l S754_nan) Ecw) as G. cbv beta in G. rewrite nth_firstn' in G. replace (i <? 2 ^ n) with true in G by lia.
      rewrite (nth_map1 _ _ _ 0%Z) in G by lia. exact G. }
    assert (valid_binary prec emax (nth i r S754_nan) = true) as Vi by (rewrite Forall_forall in V; apply V; apply nth_In; lia).
    assert (pm1 (nth i w 0%Z)) as P1 by (rewrite Forall_forall in Fw; apply Fw; apply nth_In; lia).
    unfold float_turn. destruct P1 as [-> | ->]; [rewrite <- one_emb', mul_one by assumption|rewrite <- mone_emb, mul_minus_one by assumption]; reflexivity.
  - destruct (fnode (opsf prec emax) n _ (firstn (2 ^ n) r)) as [m x]. destruct (fnode (opsf prec emax) n _ (firstn (2 ^ n) (zip2 (SFmul prec emax) cw r))) as [m2 x2]. cbn [fst] in TM.
    destruct D as (Lm1 & _ & s' & _ & D). destruct D2 as (Lm2 & _ & s2' & _ & D2). exists s', (x ++ skipn (2 ^ n) hard), s2', (x2 ++ skipn (2 ^ n) hard2), m, m2.
    split; [congruence|]. split; [congruence|]. rewrite D, D2. rewrite Lm1, Lm2, Lm. split; [reflexivity|]. split; [reflexivity|].
    clear - TM F. revert F. induction TM as [|s a b ss l m' T TM IH]; intros F; [reflexivity|]. inversion F as [|? ? F1 F2]. cbn [zip2 map]. rewrite IH by assumption. f_equal. apply fsgn_turn; assumption.
Qed.
Print Assumptions C76_float.
(** C76: so the message is decoded without an error exactly if the all ones message is, sent through the same noise *)
Theorem C76_success : forall MAX_M soft hard soft2 hard2 out received frozen level message codeword cw,
  decoder_buffers MAX_M soft hard out received frozen level -> length soft2 = length soft -> length hard2 = length hard ->
  Forall pm1 message -> length message = unfrozen (flags frozen (2 ^ level)) -> 2 ^ level <= length codeword ->
  polar_encode ops8 codeword message frozen level = Ok cw ->
  Forall (fun x => (-127 <= x <= 127)%Z) received ->
  (exists soft' hard', polar_decode ops8 MAX_M soft2 hard2 out (zip2 Z.mul cw received) frozen level = Ok (soft', hard', message ++ skipn (length message) out)) <->
  (exists soft' hard', polar_decode ops8 MAX_M soft hard out received frozen level = Ok (soft', hard', repeat 1%Z (length message) ++ skipn (length message) out)).
Proof.
  intros MAX_M soft hard soft2 hard2 out r f n msg cw0 cw HB Ls2 Lh2 F Lm Hc E I7.
  destruct (C76_errors_do_not_depend_on_the_codeword MAX_M soft hard soft2 hard2 out r f n msg cw0 cw HB Ls2 Lh2 F Lm Hc E I7) as (s' & h' & s2' & h2' & dec & Ld & D & D2).
  rewrite D, D2. assert (length (zip2 Z.mul msg dec) = length msg) as Lz by (rewrite length_zip2; lia). split; intros (a & b & G).
  - assert (zip2 Z.mul msg dec ++ skipn (length msg) out = msg ++ skipn (length msg) out) as G' by congruence.
    apply app_inv_tail in G'. exists s', h'. do 3 f_equal. clear - G' F Ld. revert dec G' Ld. induction F as [|x l P F IH]; intros [|y dec] G' Ld; try discriminate; [reflexivity|].
    cbn [zip2] in G'. cbn [length repeat] in *. assert (x * y = x /\ zip2 Z.mul l dec = l)%Z as [G1 G2] by (split; congruence). f_equal; [destruct P as [-> | ->]; lia|]. apply IH; [exact G2|congruence].
  - assert (dec ++ skipn (length msg) out = repeat 1%Z (length msg) ++ skipn (length msg) out) as G' by congruence.
    apply app_inv_tail in G'. exists s2', h2'. do 3 f_equal. rewrite G'. clear. induction msg as [|x l IH]; [reflexivity|]. cbn [length repeat zip2]. rewrite IH, Z.mul_1_r. reflexivity.
Qed.
Print Assumptions C76_success.

(** ** The hypotheses are met: level 6, 22 unfrozen positions, noise that turns many symbols and makes the decoder err *)
Definition ex_noise : list Z := map (fun i => if (i mod 3 =? 0)%nat then (- Z.of_nat i - 1)%Z else if (i mod 17 =? 5)%nat then 0%Z else if (i mod 7 =? 4)%nat then 127%Z else Z.of_nat i) (seq 0 64).
Definition ex_decoded (received : list Z) : res (list Z) :=
  x <- polar_decode ops8 6 (repeat 0%Z 128) (repeat 0%Z 64) (repeat 0%Z 22) received ex_frozen 6 ;; Ok (snd x).
Definition ex_wrong : list Z := Eval vm_compute in match ex_decoded ex_noise with Ok d => d | _ => [] end.
Example C76_nonvacuous :
  decoder_buffers 6 (repeat 0%Z 128) (repeat 0%Z 64) (repeat 0%Z 22) ex_noise ex_frozen 6 /\ Forall (fun x => (-127 <= x <= 127)%Z) ex_noise /\
  Forall pm1 ex_message /\ length ex_message = unfrozen (flags ex_frozen (2 ^ 6)) /\ polar_encode ops8 (repeat 0%Z 64) ex_message ex_frozen 6 = Ok ex_cw /\
  ex_decoded ex_noise = Ok ex_wrong /\ ex_decoded (zip2 Z.mul ex_cw ex_noise) = Ok (zip2 Z.mul ex_message ex_wrong) /\ ex_wrong <> repeat 1%Z 22.
Proof.
  destruct C40_C43_nonvacuous as (_ & F & L & _ & (D1 & D2 & D3 & D4 & D5 & D6 & D7 & D8) & E & _).
  split; [split; [exact D1|]; split; [exact D2|]; split; [exact D3|]; split; [exact D4|]; split; [exact D5|]; split; [exact D6|]; split; [exact D7|]|].
  - rewrite repeat_length, <- L. apply Nat.leb_le. vm_compute. reflexivity.
  - split; [|split; [exact F|split; [exact L|split; [exact E|split; [vm_compute; reflexivity|split; [vm_compute; reflexivity|]]]]]].
    + assert (forallb (fun x => (-127 <=? x) && (x <=? 127))%Z ex_noise = true) as C by (vm_compute; reflexivity). rewrite forallb_forall in C. apply Forall_forall. intros x Hx. specialize (C x Hx). lia.
    + intros H. apply (f_equal (fun l => nth 0 l 0%Z)) in H. vm_compute in H. discriminate H.
Qed.
