(** Property C64: polar_encoder.hh, polar_decoder.hh and polar_helper.hh with floating point symbols. *)
From Coq Require Import ZifyBool ZifyNat Floats.SpecFloat.
From Verif Require Import Cpp Lib_sim Model_simd Model_polar Model_polar_float Spec_polar Spec_polar_float Lib_list Lib_wht Lib_float Proof_bits Proof_simd Proof_polar1 Proof_polar2 Proof_polar3 Proof_polar4 Proof_polar5 Proof_polar6 Prop_polar Proof_polarf0 Proof_polarf1 Proof_polarf2.
Local Open Scope nat_scope.
Ltac Zify.zify_post_hook ::= idtac.

(** the formats: [float] is (24, 128), [double] is (53, 1024) *)
Definition format (prec emax : Z) : Prop := (1 < prec < emax)%Z.
(** the buffers of the encoders, see [encoder_buffers] *)
Definition encoder_buffers_f {A} (codeword : list A) (message : list Z) (frozen : list N) (level : nat) : Prop :=
  1 <= level <= 30 /\ 2 ^ level <= 32 * length frozen /\ 2 ^ level <= length codeword /\ unfrozen (flags frozen (2 ^ level)) <= length message.

Lemma enc8 message frozen level : 1 <= level <= 30 -> 2 ^ level <= 32 * length frozen -> unfrozen (flags frozen (2 ^ level)) <= length message -> Forall pm1 message ->
  polar_encode ops8 (repeat 0%Z (2 ^ level)) message frozen level = Ok (transform level (expand (flags frozen (2 ^ level)) message)) /\
  Forall pm1 (transform level (expand (flags frozen (2 ^ level)) message)).
Proof.
  intros H1 H2 H3 F. rewrite encode_ok by (rewrite ?repeat_length; assumption || lia).
  rewrite skipn_all2 by (rewrite repeat_length; lia). rewrite app_nil_r. split; [reflexivity|].
  apply pm1_transform; [rewrite length_expand, length_flags; reflexivity|apply pm1_expand; exact F].
Qed.
(** C64: on messages of +1.0 and -1.0 the encoder computes the transform, in every format; the rest of the buffer is untouched *)
Theorem C64_float_encoder : forall prec emax codeword message frozen level,
  format prec emax -> encoder_buffers_f codeword message frozen level -> Forall pm1 message ->
  exists cw, polar_encode (opsf prec emax) codeword (map (hard_value prec) message) frozen level = Ok cw /\
    firstn (2 ^ level) cw = map (hard_value prec) (transform level (expand (flags frozen (2 ^ level)) message)) /\
    skipn (2 ^ level) cw = skipn (2 ^ level) codeword.
Proof.
  intros prec emax cw0 m f n (Hp & He) (H1 & H2 & H3 & H4) F. destruct (enc8 m f n H1 H2 H4 F) as (E & Fw).
  rewrite (encodef prec emax Hp He m f n cw0 _ F H3 E Fw). eexists. split; [reflexivity|].
  rewrite firstn_app_l, skipn_app_l by (rewrite map_length; apply length_transform). auto.
Qed.
Print Assumptions C64_float_encoder.
(** C64: the systematic encoder shows the message at the unfrozen positions, and its codeword is one of the encoder's *)
Theorem C64_float_systematic : forall prec emax codeword message frozen level,
  format prec emax -> encoder_buffers_f codeword message frozen level -> Forall pm1 message -> domination_closed (flags frozen (2 ^ level)) ->
  exists cw word, polar_sysenc (opsf prec emax) codeword (map (hard_value prec) message) frozen level = Ok cw /\
    firstn (2 ^ level) cw = map (hard_value prec) word /\
    collect (flags frozen (2 ^ level)) word = firstn (unfrozen (flags frozen (2 ^ level))) message /\
    exists message', Forall pm1 message' /\ length message' = unfrozen (flags frozen (2 ^ level)) /\
      polar_encode (opsf prec emax) codeword (map (hard_value prec) message') frozen level = Ok cw.
Proof.
  intros prec emax cw0 m f n (Hp & He) (H1 & H2 & H3 & H4) F D.
  destruct (C41_systematic (repeat 0%Z (2 ^ n)) m f n) as (w & E & EC & m' & Fm' & Lm' & E'); [unfold encoder_buffers; rewrite repeat_length; auto|exact F|exact D|].
  destruct (enc8 m' f n H1 H2 ltac:(lia) Fm') as (E2 & Fw). rewrite E' in E2. injection E2 as E2. rewrite <- E2 in Fw.
  assert (length w = 2 ^ n) as Lw by (rewrite E2; apply length_transform).
  exists (map (hard_value prec) w ++ skipn (2 ^ n) cw0), w. split; [apply sysencf; try assumption|]. split; [apply firstn_app_l; rewrite map_length; exact Lw|].
  rewrite firstn_all2 in EC by lia. split; [exact EC|]. exists m'. split; [exact Fm'|]. split; [exact Lm'|]. apply encodef; assumption.
Qed.
Print Assumptions C64_float_systematic.
(** C64: from values (infinities included) with the signs of a codeword the decoder recovers the message, exactly +1.0 and -1.0; no
    rounding, overflow to infinity or underflow changes this *)
Theorem C64_float_noiseless : forall prec emax MAX_M soft hard out received frozen level message codeword cw,
  format prec emax -> decoder_buffers MAX_M soft hard out received frozen level ->
  Forall pm1 message -> length message = unfrozen (flags frozen (2 ^ level)) -> 2 ^ level <= length codeword ->
  polar_encode (opsf prec emax) codeword (map (hard_value prec) message) frozen level = Ok cw ->
  Forall (fun x => valid_binary prec emax x = true) received ->
  (forall i, i < 2 ^ level -> fsgn (nth i received S754_nan) = fsgn (nth i cw S754_nan)) ->
  exists soft' hard', polar_decode (opsf prec emax) MAX_M soft hard out received frozen level = Ok (soft', hard', map (hard_value prec) message ++ skipn (length message) out) /\
    firstn (2 ^ level) hard' = firstn (2 ^ level) cw.
Proof.
  intros prec emax MAX_M soft hard out r f n msg cw0 cw (Hp & He) HB F Lm Hc E V HS. pose proof (decode_gen' (opsf prec emax) S754_nan MAX_M soft hard out r f n HB) as D.
  destruct HB as (H1 & H2 & H3 & H4 & H5 & H6 & H7 & H8).
  destruct (enc8 msg f n ltac:(lia) H6 ltac:(lia) F) as (E8 & Fw). rewrite (encodef prec emax Hp He msg f n cw0 _ F Hc E8 Fw) in E. injection E as <-.
  set (fl := flags f (2 ^ n)) in *. assert (length fl = 2 ^ n) as Lf by apply length_flags.
  assert (length (expand fl msg) = 2 ^ n) as Le by (rewrite length_expand; exact Lf). assert (length (transform n (expand fl msg)) = 2 ^ n) as Lt by apply length_transform.
  rewrite (nodef_inverts prec emax Hp He n fl ltac:(lia) Lf msg) in D; try assumption.
  - destruct D as (_ & Lx & soft' & _ & D). rewrite D. do 2 eexists. split; [rewrite map_length; reflexivity|]. rewrite ptr_transform by exact Le.
    rewrite !firstn_app_l by (rewrite map_length; exact Lt). reflexivity.
  - rewrite firstn_length. lia.
  - apply Forall_firstn_. exact V.
  - rewrite ptr_transform by exact Le. apply (list_ext _ _ 0%Z); [rewrite map_length, firstn_length; lia|].
    intros i Hi. rewrite map_length, firstn_length in Hi. rewrite (nth_map1 _ _ _ S754_nan) by (rewrite firstn_length; lia).
    rewrite nth_firstn'. replace (i <? 2 ^ n) with true by lia. rewrite HS by lia. rewrite app_nth1 by (rewrite map_length; lia).
    rewrite (nth_map1 _ _ _ 0%Z) by lia. apply fsgn_emb. rewrite Forall_forall in Fw. apply pm1_tern. apply Fw. apply nth_In. lia.
Qed.
Print Assumptions C64_float_noiseless.
(** C64: for all received values, NaNs and infinities included, the shortcuts for frozen and unfrozen subtrees do not change the message of
    plain successive cancellation up to and including the first tie; without a tie message and word are bit for bit the same *)
Theorem C64_float_shortcuts : forall prec emax MAX_M soft hard out received frozen level,
  format prec emax -> decoder_buffers MAX_M soft hard out received frozen level -> Forall (fun x => valid_binary prec emax x = true) received ->
  let plain := successive_cancellation_f prec emax level (flags frozen (2 ^ level)) (firstn (2 ^ level) received) in
  exists soft' hard' message, polar_decode (opsf prec emax) MAX_M soft hard out received frozen level = Ok (soft', hard', message ++ skipn (length message) out) /\
    same_until_tie (map fsgn message) (map fsgn (fst plain)) /\
    (Forall (fun x => fsgn x <> 0%Z) (fst plain) -> message = fst plain /\ firstn (2 ^ level) hard' = snd plain).
Proof.
  intros prec emax MAX_M soft hard out r f n (Hp & He) HB V plain. pose proof (decode_gen' (opsf prec emax) S754_nan MAX_M soft hard out r f n HB) as D.
  destruct HB as (H1 & H2 & H3 & H4 & H5 & H6 & H7 & H8).
  assert (length (flags f (2 ^ n)) = 2 ^ n) as Lf by apply length_flags.
  assert (length (firstn (2 ^ n) r) = 2 ^ n) as Lr by (rewrite firstn_length; lia).
  destruct (nodef_agrees prec emax Hp He n (flags f (2 ^ n)) (firstn (2 ^ n) r) ltac:(lia) Lf Lr (Forall_firstn_ _ _ _ V)) as (S1 & S2).
  rewrite scf_gsc in S1, S2 by assumption. fold plain in S1, S2.
  destruct (fnode (opsf prec emax) n _ _) as [m x]. cbn [fst] in *. destruct D as (_ & Lx & soft' & _ & D). rewrite D. do 3 eexists. split; [reflexivity|].
  split; [exact S1|]. intros N. rewrite firstn_app_l by exact Lx. rewrite <- S2; [auto|].
  assert (nonzero (map fsgn (fst plain))) as N' by (apply Forall_map; exact N). unfold nonzero. rewrite (sut_nonzero _ _ S1 (or_intror N')). exact N'.
Qed.
Print Assumptions C64_float_shortcuts.

(** lanes *)
Section Lanes.
Variables (prec emax : Z) (W k : nat).
Hypothesis Hk : k < W.
Notation ln := (fun v : list spec_float => nth k v S754_nan).
Notation IW := (fun v : list spec_float => length v = W).
Lemma lanes2_len f a b : IW a -> IW b -> IW (lanes2 f a b).
Proof. unfold lanes2. cbv beta. intros La Lb. rewrite map_length, combine_length. lia. Qed.
Lemma lanes2_nth f a b : IW a -> IW b -> ln (lanes2 f a b) = f (ln a) (ln b).
Proof.
  cbv beta. intros La Lb. unfold lanes2. rewrite (nth_map1 _ _ _ (S754_nan, S754_nan)) by (rewrite combine_length; lia). rewrite combine_nth by lia. reflexivity.
Qed.
Lemma map_ln (g : spec_float -> spec_float) a : IW a -> ln (map g a) = g (ln a).
Proof. cbv beta. intros La. apply nth_map1. lia. Qed.
Lemma map_len (g : spec_float -> spec_float) a : IW a -> IW (map g a).
Proof. cbv beta. intros La. rewrite map_length. exact La. Qed.
Lemma lanesf_node n fl : hom ln IW IW (fnode (opsfv prec emax W) n fl) (fnode (opsf prec emax) n fl).
Proof.
  apply fnode_hom; cbn [p_one p_signum p_mul p_prod p_madd opsfv opsf].
  - split; [apply repeat_length|]. rewrite (nth_indep _ _ (of_int prec emax 1)) by (rewrite repeat_length; lia). apply nth_repeat.
  - intros x Lx. split; [apply map_len; exact Lx|]. symmetry. apply map_ln. exact Lx.
  - intros a b La Lb. split; [apply lanes2_len; assumption|]. symmetry. apply lanes2_nth; assumption.
  - intros a b La Lb. assert (A1 := map_len (signumf prec emax) a La). assert (B1 := map_len (signumf prec emax) b Lb).
    assert (A2 := map_len SFabs a La). assert (B2 := map_len SFabs b Lb). assert (M1 := lanes2_len (SFmul prec emax) _ _ A1 B1). assert (M2 := lanes2_len minf _ _ A2 B2).
    split; [apply lanes2_len; assumption|]. rewrite !lanes2_nth, !map_ln by assumption. reflexivity.
  - intros x a b Lx La Lb. assert (M1 := lanes2_len (SFmul prec emax) _ _ Lx La). split; [apply lanes2_len; assumption|]. rewrite !lanes2_nth by assumption. reflexivity.
Qed.
Definition in_lane (v : list spec_float) (x : spec_float) : Prop := IW v /\ ln v = x.
Lemma in_lane_one : in_lane (p_one (opsfv prec emax W)) (p_one (opsf prec emax)).
Proof. cbn [p_one opsfv opsf]. split; [apply repeat_length|]. rewrite (nth_indep _ _ (of_int prec emax 1)) by (rewrite repeat_length; lia). apply nth_repeat. Qed.
Lemma in_lane_mul a x b y : in_lane a x -> in_lane b y -> in_lane (p_mul (opsfv prec emax W) a b) (p_mul (opsf prec emax) x y).
Proof. intros (La & <-) (Lb & <-). cbn [p_mul opsfv opsf]. split; [apply lanes2_len; assumption|apply lanes2_nth; assumption]. Qed.
Lemma in_lane_list l : Forall IW l -> Forall2 in_lane l (map ln l).
Proof. intros H. induction H as [|v l Hv H IH]; cbn [map]; constructor; [split; [exact Hv|reflexivity]|exact IH]. Qed.
Lemma in_lane_map l m : Forall2 in_lane l m -> m = map ln l.
Proof. intros H. induction H as [|v x l m (_ & <-) H IH]; cbn [map]; [reflexivity|]. rewrite IH. reflexivity. Qed.
End Lanes.
(** C64: every lane of the SIMD encoders encodes like the scalar ones, for any contents *)
Theorem C64_float_lanes_encode : forall prec emax W codeword message frozen level,
  Forall (fun v => length v = W) codeword -> Forall (fun v => length v = W) message ->
  forall k, k < W ->
  let column l := map (fun v => nth k v S754_nan) l in
  let in_lane x y := match x with Ok l => y = Ok (column l) | Abort => y = Abort | Undef => y = Undef | Fuel => y = Fuel end in
  in_lane (polar_encode (opsfv prec emax W) codeword message frozen level) (polar_encode (opsf prec emax) (column codeword) (column message) frozen level) /\
  in_lane (polar_sysenc (opsfv prec emax W) codeword message frozen level) (polar_sysenc (opsf prec emax) (column codeword) (column message) frozen level).
Proof.
  intros prec emax W cw m f n Fc Fm k Hk column inl.
  assert (C1 := in_lane_list W k cw Fc). assert (M1 := in_lane_list W k m Fm). fold column in C1, M1.
  pose proof (two_encode (opsfv prec emax W) (opsf prec emax) (in_lane W k) (in_lane_one prec emax W k Hk) (in_lane_mul prec emax W k Hk) m (column m) f n cw (column cw) M1 C1) as R1.
  pose proof (two_sysenc (opsfv prec emax W) (opsf prec emax) (in_lane W k) (in_lane_one prec emax W k Hk) (in_lane_mul prec emax W k Hk) m (column m) f n cw (column cw) M1 C1) as R2.
  assert (forall x y, rel (Forall2 (in_lane W k)) x y -> inl x y) as G.
  { intros [l| | |] [l'| | |] R; cbn [rel] in R; try contradiction; try reflexivity. apply in_lane_map in R. rewrite R. reflexivity. }
  split; apply G; assumption.
Qed.
Print Assumptions C64_float_lanes_encode.
(** C64: every lane of the SIMD decoder decodes like the scalar one, bit for bit, for any received values *)
Theorem C64_float_lanes_decode : forall prec emax W MAX_M soft hard out received frozen level,
  decoder_buffers MAX_M soft hard out received frozen level -> Forall (fun v => length v = W) received ->
  exists soft' hard' message', polar_decode (opsfv prec emax W) MAX_M soft hard out received frozen level = Ok (soft', hard', message') /\
  forall k, k < W -> forall soft1 hard1, length soft1 = 2 * 2 ^ MAX_M -> length hard1 = 2 ^ MAX_M ->
  let column l := map (fun v => nth k v S754_nan) l in
  exists soft1' hard1', polar_decode (opsf prec emax) MAX_M soft1 hard1 (column out) (column received) frozen level = Ok (soft1', hard1', column message') /\
    firstn (2 ^ level) hard1' = column (firstn (2 ^ level) hard').
Proof.
  intros prec emax W MAX_M soft hard out r f n HB HF.
  pose proof (decode_gen' (opsfv prec emax W) [] MAX_M soft hard out r f n HB) as D.
  set (sl := firstn (2 ^ n) r) in *. assert (Forall (fun v => length v = W) sl) as Fs by (apply Forall_firstn_; exact HF).
  pose proof (fun k Hk => lanesf_node prec emax W k Hk n (flags f (2 ^ n)) sl Fs) as V.
  destruct (fnode (opsfv prec emax W) n (flags f (2 ^ n)) sl) as [m x]. cbn [fst snd] in V. destruct D as (Lm & Lx & soft' & _ & D). rewrite D. do 3 eexists. split; [reflexivity|].
  intros k Hk s1 h1 Hs1 Hh1 column. destruct (V k Hk) as (Vk & _). clear V. fold column in Vk.
  assert (decoder_buffers MAX_M s1 h1 (column out) (column r) f n) as HB1.
  { destruct HB as (H1 & H2 & H3 & H4 & H5 & H6 & H7 & H8). unfold decoder_buffers, column. rewrite !map_length. auto 10. }
  pose proof (decode_gen' (opsf prec emax) S754_nan MAX_M s1 h1 (column out) (column r) f n HB1) as D1.
  assert (firstn (2 ^ n) (column r) = column sl) as Es by (unfold column, sl; rewrite firstn_map; reflexivity).
  rewrite Es in D1. change (column sl) with (map (fun v : list spec_float => nth k v S754_nan) sl) in D1. rewrite Vk in D1. destruct D1 as (Lm1 & Lx1 & soft1' & _ & D1). rewrite D1. do 2 eexists. split.
  - do 2 f_equal. unfold column. rewrite map_app, skipn_map, map_length. reflexivity.
  - rewrite !firstn_app_l by assumption. reflexivity.
Qed.
Print Assumptions C64_float_lanes_decode.

(** ** The hypotheses are met: float and double, level 6, 22 unfrozen positions, values of very different magnitudes *)
Definition exf_received (prec emax : Z) : list spec_float :=
  map (fun p => let s := (snd p <? 0)%Z in match fst p mod 4 with
     | 0 => S754_infinity s
     | 1 => S754_finite s 1 (3 - emax - prec)
     | 2 => S754_finite s (Z.to_pos (2 ^ prec - 1)) (emax - prec)
     | _ => S754_finite s (Z.to_pos (2 ^ (prec - 1))) (1 - prec) end) (combine (seq 0 64) ex_cw).
Example C64_nonvacuous :
  format 24 128 /\ format 53 1024 /\ encoder_buffers_f (repeat S754_nan 64) ex_message ex_frozen 6 /\
  decoder_buffers 6 (repeat S754_nan 128) (repeat S754_nan 64) (repeat S754_nan 30) (exf_received 24 128) ex_frozen 6 /\
  forallb (valid_binary 24 128) (exf_received 24 128) = true /\ forallb (valid_binary 53 1024) (exf_received 53 1024) = true /\
  map fsgn (exf_received 24 128) = ex_cw /\ map fsgn (exf_received 53 1024) = ex_cw /\
  polar_encode (opsf 24 128) (repeat S754_nan 64) (map (hard_value 24) ex_message) ex_frozen 6 = Ok (map (hard_value 24) ex_cw) /\
  (x <- polar_decode (opsf 24 128) 6 (repeat S754_nan 128) (repeat S754_nan 64) (repeat S754_nan 22) (exf_received 24 128) ex_frozen 6 ;; Ok (snd x)) = Ok (map (hard_value 24) ex_message) /\
  (x <- polar_decode (opsf 53 1024) 6 (repeat S754_nan 128) (repeat S754_nan 64) (repeat S754_nan 22) (exf_received 53 1024) ex_frozen 6 ;; Ok (snd x)) = Ok (map (hard_value 53) ex_message).
Proof.
  destruct C40_C43_nonvacuous as ((B1 & B2 & B3 & B4) & _ & _ & _ & (D1 & D2 & D3 & D4 & D5 & D6 & D7 & D8) & _).
  split; [unfold format; lia|]. split; [unfold format; lia|]. split; [exact (conj B1 (conj B2 (conj B3 B4)))|].
  split; [exact (conj D1 (conj D2 (conj D3 (conj D4 (conj D5 (conj D6 (conj D7 D8)))))))|]. repeat split; vm_compute; reflexivity.
Qed.
(** after a tie the messages may differ, as in [C43_ties_differ] *)
Example C64_ties_differ :
  let received := map (fun z => binary_normalize 24 128 z 0 false) tie_received in
  (x <- polar_decode (opsf 24 128) 5 (repeat S754_nan 64) (repeat S754_nan 32) (repeat S754_nan 3) received tie_frozen 5 ;; Ok (map fsgn (snd x))) = Ok [0; 0; -1]%Z /\
  map fsgn (fst (successive_cancellation_f 24 128 5 (flags tie_frozen 32) received)) = [0; 0; 1]%Z.
Proof. split; vm_compute; reflexivity. Qed.
