(** Properties C27 and C28: augmented Hadamard codes and simplex codes. *)
From Coq Require Import ZifyBool ZifyNat ZifyN.
From Verif Require Import Cpp Lib_list Model_wht Spec_wht Lib_wht Proof_wht Proof_wht2.
Local Open Scope Z_scope.

(** an answer of a maximum likelihood decoder is unique *)
Lemma ml_unique enc size soft r r' : ml_answer enc size soft r -> ml_answer enc size soft r' -> r = r'.
Proof.
  intros [(m & -> & Hm & Um)|(-> & No)] [(m' & -> & Hm' & Um')|(-> & No')].
  - destruct (N.eq_dec m m') as [->|Hne]; [reflexivity|]. specialize (Um m' Hm' ltac:(congruence)). specialize (Um' m Hm Hne). lia.
  - exfalso. apply (No' m). split; assumption.
  - exfalso. apply (No m'). split; assumption.
  - reflexivity.
Qed.

(** C27: the encoder writes the codeword of the low K bits of the message *)
Theorem C27_encoder : forall K m code msg,
  (1 <= K <= 31)%nat -> wht_mod K = Ok m -> (2 ^ (K - 1) <= length code)%nat -> 0 <= msg < 2 ^ Z.of_nat K ->
  had_encode K m code msg = Ok (hadamard_word K (Z.to_N msg) ++ skipn (2 ^ (K - 1)) code).
Proof. intros K m code msg HK Hm HL HM. rewrite (had_encode_ok K) by assumption. rewrite low_small by exact HM. reflexivity. Qed.
Print Assumptions C27_encoder.

(** C27: the decoder (general or unrolled) is the exact maximum likelihood decoder and no [int] overflows, for all inputs *)
Theorem C27_decoder_is_maximum_likelihood : forall K soft,
  (2 <= K <= 24)%nat -> length soft = (2 ^ (K - 1))%nat -> Forall int8 soft ->
  exists r, had_decode K soft = Ok r /\ ml_answer (hadamard_word K) (2 ^ N.of_nat K) soft r.
Proof. exact had_decode_ok. Qed.
Print Assumptions C27_decoder_is_maximum_likelihood.

(** C27: the hand-unrolled classes compute what the general one would *)
Theorem C27_unrolled_equal_general : forall K soft,
  (2 <= K <= 24)%nat -> length soft = (2 ^ (K - 1))%nat -> Forall int8 soft -> had_decode K soft = had_decode_gen K soft.
Proof.
  intros K soft HK HL HB. destruct (had_decode_ok K soft HK HL HB) as (r & E & A). destruct (had_decode_gen_ok K soft HK HL HB) as (r' & E' & A').
  rewrite E, E'. f_equal. eapply ml_unique; eassumption.
Qed.
Print Assumptions C27_unrolled_equal_general.

Lemma wn_dot n a b : (a < 2 ^ n)%nat -> (b < 2 ^ n)%nat -> zsum (2 ^ n) (fun t => wn a t * wn b t) = if (a =? b)%nat then Z.of_nat (2 ^ n) else 0.
Proof.
  intros Ha Hb. destruct (Nat.eqb_spec a b) as [->|Hne].
  - rewrite (zsum_ext _ _ (fun _ => 1)) by (intros; apply walsh_sq). clear. induction (2 ^ n)%nat; cbn [zsum]; lia.
  - pose proof (pow2_of_nat n) as EP. set (x := N.lxor (N.of_nat a) (N.of_nat b)).
    assert (Hx : (x < 2 ^ N.of_nat n)%N).
    { apply lt_pow2_testbit. intros i Hi. unfold x. rewrite N.lxor_spec, !(testbit_high (N.of_nat n)) by lia. reflexivity. }
    assert (Hx0 : x <> 0%N) by (intros Z; unfold x in Z; apply N.lxor_eq in Z; lia).
    rewrite (zsum_ext _ _ (fun t => wn t (N.to_nat x))).
    + apply wn_sum. lia.
    + intros i Hi. unfold wn. rewrite N2Nat.id. rewrite (walsh_sym (N.of_nat a)), (walsh_sym (N.of_nat b)). unfold x. rewrite walsh_lxor. reflexivity.
Qed.
Lemma nth_scaled_word g n f t : (t < n)%nat -> nth t (map (Z.mul g) (word n f)) 0 = g * f t.
Proof.
  intros H. unfold word. rewrite map_map. rewrite (nth_indep _ 0 (g * f O)) by (rewrite map_length, seq_length; exact H).
  rewrite (map_nth (fun x => g * f x)), seq_nth by exact H. reflexivity.
Qed.
Lemma scaled_length g n f : length (map (Z.mul g) (word n f)) = n.
Proof. unfold word. rewrite !map_length, seq_length. reflexivity. Qed.

(** C27: decoding what was encoded (with any positive amplitude) returns the message *)
Theorem C27_roundtrip : forall K m msg g code,
  (2 <= K <= 24)%nat -> wht_mod K = Ok m -> 0 <= msg < 2 ^ Z.of_nat K -> 1 <= g <= 127 -> length code = (2 ^ (K - 1))%nat ->
  exists cw, had_encode K m code msg = Ok cw /\ had_decode K (map (Z.mul g) cw) = Ok msg.
Proof.
  intros K m msg g code HK Hm HM Hg HL. rewrite (C27_encoder K m code msg) by (assumption || lia). rewrite skipn_all2, app_nil_r by lia.
  eexists. split; [reflexivity|]. set (u := Z.to_N msg).
  assert (Hu : (u < 2 ^ N.of_nat K)%N).
  { assert (E : Z.of_N (2 ^ N.of_nat K) = 2 ^ Z.of_nat K) by (rewrite N2Z.inj_pow; f_equal; lia). unfold u. lia. }
  set (cw := map (Z.mul g) (hadamard_word K u)).
  assert (LC : length cw = (2 ^ (K - 1))%nat) by (unfold cw, hadamard_word; apply scaled_length).
  assert (IC : Forall int8 cw).
  { unfold cw, hadamard_word, word. rewrite map_map. apply Forall_forall. intros x Hx. apply in_map_iff in Hx. destruct Hx as (i & <- & _).
    unfold int8, walsh. destruct (N.testbit u (N.of_nat (K - 1))), (odd_ones _); lia. }
  destruct (had_decode_ok K cw HK LC IC) as (r & E & A). rewrite E. f_equal.
  replace msg with (Z.of_N u) by (unfold u; lia). eapply ml_unique; [exact A|]. left. exists u. split; [reflexivity|]. split; [exact Hu|].
  assert (V : forall j, (j < 2 ^ (K - 1))%nat -> hv (K - 1) cw j =
     (if N.testbit u (N.of_nat (K - 1)) then -1 else 1) * (g * if (j =? N.to_nat (u mod 2 ^ N.of_nat (K - 1)))%nat then Z.of_nat (2 ^ (K - 1)) else 0)).
  { intros j Hj. destruct (had_msg_inv K u ltac:(lia) Hu) as (_ & Hlt). rewrite <- (wn_dot (K - 1)) by assumption. rewrite <- !zsum_scale. unfold hv. apply zsum_ext.
    intros t Ht. unfold cw, hadamard_word. rewrite nth_scaled_word by exact Ht. unfold wn at 3. rewrite N2Nat.id. lia. }
  intros m' Hm' Hne. rewrite !had_dot by (assumption || lia).
  destruct (had_msg_inv K u ltac:(lia) Hu) as (Eu & Hlt). destruct (had_msg_inv K m' ltac:(lia) Hm') as (Em & Hlt').
  rewrite !V by assumption. rewrite Nat.eqb_refl. pose proof (pow2_pos (K - 1)).
  set (j := N.to_nat (u mod _)) in *. set (j' := N.to_nat (m' mod _)) in *. set (b := N.testbit u _) in *. set (b' := N.testbit m' _) in *. clearbody j j' b b'.
  assert (0 < g * Z.of_nat (2 ^ (K - 1))) by nia.
  destruct (Nat.eqb_spec j' j) as [->|].
  - assert (b <> b') by (intros ->; congruence). destruct b, b'; try congruence; lia.
  - destruct b, b'; lia.
Qed.
Print Assumptions C27_roundtrip.

(** outside the property's range: for K = 1 the general template reads an uninitialised sum *)
Theorem C27_one_bit_undefined : forall soft, had_decode 1 soft = Undef.
Proof. intros soft. reflexivity. Qed.
Print Assumptions C27_one_bit_undefined.

(** the hypotheses are met: K = 5 (general), a noisy word; and the answer -1 occurs *)
Example C27_nonvacuous : had_decode 5 [9;-3;-128;7;5;-5;-6;4;100;-8;-7;2;1;-4;-3;6] = Ok 3 /\ had_decode 3 [5;5;5;-5] = Ok (-1) /\
  had_decode 4 [-1;-2;3;4;5;6;-7;8] = had_decode_gen 4 [-1;-2;3;4;5;6;-7;8].
Proof. vm_compute. repeat split; reflexivity. Qed.

(** C28: the same for simplex codes *)
Theorem C28_encoder : forall K m code msg,
  (K <= 31)%nat -> wht_mod K = Ok m -> (2 ^ K - 1 <= length code)%nat -> 0 <= msg < 2 ^ Z.of_nat K ->
  spx_encode K m code msg = Ok (simplex_word K (Z.to_N msg) ++ skipn (2 ^ K - 1) code).
Proof. intros K m code msg HK Hm HL HM. rewrite (spx_encode_ok K) by assumption. rewrite low_small by exact HM. reflexivity. Qed.
Print Assumptions C28_encoder.

Theorem C28_decoder_is_maximum_likelihood : forall K soft,
  (2 <= K <= 23)%nat -> length soft = (2 ^ K - 1)%nat -> Forall int8 soft ->
  exists r, spx_decode K soft = Ok r /\ ml_answer (simplex_word K) (2 ^ N.of_nat K) soft r.
Proof. exact spx_decode_ok. Qed.
Print Assumptions C28_decoder_is_maximum_likelihood.

Theorem C28_unrolled_equal_general : forall K soft,
  (2 <= K <= 23)%nat -> length soft = (2 ^ K - 1)%nat -> Forall int8 soft -> spx_decode K soft = spx_decode_gen K soft.
Proof.
  intros K soft HK HL HB. destruct (spx_decode_ok K soft HK HL HB) as (r & E & A). destruct (spx_decode_gen_ok K soft HK HL HB) as (r' & E' & A').
  rewrite E, E'. f_equal. eapply ml_unique; eassumption.
Qed.
Print Assumptions C28_unrolled_equal_general.

Theorem C28_roundtrip : forall K m msg g code,
  (2 <= K <= 23)%nat -> wht_mod K = Ok m -> 0 <= msg < 2 ^ Z.of_nat K -> 1 <= g <= 127 -> length code = (2 ^ K - 1)%nat ->
  exists cw, spx_encode K m code msg = Ok cw /\ spx_decode K (map (Z.mul g) cw) = Ok msg.
Proof.
  intros K m msg g code HK Hm HM Hg HL. rewrite (C28_encoder K m code msg) by (assumption || lia). rewrite skipn_all2, app_nil_r by lia.
  eexists. split; [reflexivity|]. set (u := Z.to_N msg).
  assert (Hu : (u < 2 ^ N.of_nat K)%N).
  { assert (E : Z.of_N (2 ^ N.of_nat K) = 2 ^ Z.of_nat K) by (rewrite N2Z.inj_pow; f_equal; lia). unfold u. lia. }
  set (cw := map (Z.mul g) (simplex_word K u)).
  assert (LC : length cw = (2 ^ K - 1)%nat) by (unfold cw, simplex_word; apply scaled_length).
  assert (IC : Forall int8 cw).
  { unfold cw, simplex_word, word. rewrite map_map. apply Forall_forall. intros x Hx. apply in_map_iff in Hx. destruct Hx as (i & <- & _).
    unfold int8, walsh. destruct (odd_ones _); lia. }
  destruct (spx_decode_ok K cw HK LC IC) as (r & E & A). rewrite E. f_equal.
  replace msg with (Z.of_N u) by (unfold u; lia). eapply ml_unique; [exact A|]. left. exists u. split; [reflexivity|]. split; [exact Hu|].
  pose proof (pow2_pos K) as HP. pose proof (pow2_of_nat K) as EP.
  assert (V : forall j, (j < 2 ^ K)%nat -> sv K cw j = g * ((if (j =? N.to_nat u)%nat then Z.of_nat (2 ^ K) else 0) - 1)).
  { intros j Hj. rewrite <- (wn_dot K) by lia. unfold sv. destruct (2 ^ K)%nat as [|n] eqn:En; [lia|].
    rewrite !zsum_shift. cbn [sc]. unfold wn at 3 4. change (N.of_nat 0) with 0%N. rewrite !walsh_0.
    replace (g * (1 * 1 + zsum n (fun i => wn j (S i) * wn (N.to_nat u) (S i)) - 1)) with (g * zsum n (fun i => wn j (S i) * wn (N.to_nat u) (S i))) by ring.
    rewrite Z.mul_0_r, Z.add_0_l, <- zsum_scale. apply zsum_ext. intros t Ht. unfold cw, simplex_word.
    rewrite nth_scaled_word by lia. unfold wn at 3. rewrite N2Nat.id. replace (t + 1)%nat with (S t) by lia. lia. }
  intros m' Hm' Hne. rewrite !spx_dot by assumption. rewrite !V by lia. rewrite Nat.eqb_refl.
  destruct (Nat.eqb_spec (N.to_nat m') (N.to_nat u)); [lia|]. nia.
Qed.
Print Assumptions C28_roundtrip.

Example C28_nonvacuous : spx_decode 4 [9;-3;-128;7;5;-5;-6;4;100;-8;-7;2;1;-4;-3] = Ok 2 /\ spx_decode 2 [0;0;0] = Ok (-1) /\
  spx_decode 5 (repeat (-128) 31) = Ok (-1).
Proof. vm_compute. repeat split; reflexivity. Qed.
