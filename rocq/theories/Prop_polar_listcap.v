(** Property C85: polar_list_decoder.hh and polar_parity_aided.hh, the errors and erasures a complete list corrects. *)
From Coq Require Import ZifyBool ZifyNat.
From Verif Require Import Cpp Model_simd Model_polar Model_polar_list Spec_polar Spec_polar_list Lib_list Lib_wht Proof_bits Proof_simd Proof_polar1 Proof_polar2 Proof_polar3 Proof_polar4 Proof_polar5
  Proof_polar6 Proof_polar7 Proof_plist1 Proof_plist2 Proof_plist3 Proof_plist4 Proof_plist5 Proof_plist6 Proof_plist7 Prop_polar Prop_polar_list Prop_polar_distance.
Local Open Scope nat_scope.
Ltac Zify.zify_post_hook ::= idtac.

(** the number of received values that are smaller in magnitude than [lo] *)
Definition weak (lo : Z) (received : list Z) : nat := length (filter (fun x => (Z.abs x <? lo)%Z) received).
(** the number of received values whose sign contradicts the codeword, and the number of those that say nothing *)
Definition wrong (codeword received : list Z) : nat := length (filter (fun p => (fst p * snd p <? 0)%Z) (combine codeword received)).
Definition erased (received : list Z) : nat := length (filter (fun x => (x =? 0)%Z) received).

(** two codewords cannot both fit: where they differ one of them contradicts the value *)
Lemma contradict lo a : forall b r, (0 <= lo)%Z -> length a = length b -> length b = length r -> Forall pm1 a -> Forall pm1 b ->
  (lo * (Z.of_nat (differ a b) - Z.of_nat (weak lo r)) <= discrepancy a r + discrepancy b r)%Z.
Proof.
  induction a as [|x a IH]; intros [|y b] [|z r] Hlo L1 L2 F1 F2; cbn [length] in *; try discriminate; [cbn; lia|].
  inversion F1 as [|? ? X1 G1]; inversion F2 as [|? ? X2 G2]. subst. specialize (IH b r Hlo ltac:(lia) ltac:(lia) G1 G2).
  rewrite differ_cons. unfold discrepancy in *. cbn [zip2]. rewrite !charge_cons.
  assert (W : weak lo (z :: r) = (if (Z.abs z <? lo)%Z then 1 else 0) + weak lo r) by (unfold weak; cbn [filter]; destruct (Z.abs z <? lo)%Z; reflexivity).
  rewrite W, !Nat2Z.inj_add. set (D := Z.of_nat (differ a b)) in *. set (V := Z.of_nat (weak lo r)) in *.
  enough (lo * (Z.of_nat (if (x =? y)%Z then 0 else 1) - Z.of_nat (if (Z.abs z <? lo)%Z then 1 else 0)) <= Z.max 0 (- (x * z)) + Z.max 0 (- (y * z)))%Z by nia.
  clear - X1 X2 Hlo. destruct X1, X2; subst; destruct (Z.abs z <? lo)%Z eqn:E; cbn [Z.of_nat Pos.of_succ_nat Z.eqb Pos.eqb]; lia.
Qed.
Lemma nearer lo a b r : (0 <= lo)%Z -> length a = length b -> length b = length r -> Forall pm1 a -> Forall pm1 b ->
  forall d, d <= differ a b -> (2 * discrepancy a r < lo * (Z.of_nat d - Z.of_nat (weak lo r)))%Z -> (discrepancy a r < discrepancy b r)%Z.
Proof. intros Hlo L1 L2 F1 F2 d Hd H. pose proof (contradict lo a b r Hlo L1 L2 F1 F2). nia. Qed.
(** received values of one magnitude *)
Lemma flat_discrepancy q c : forall r, (0 < q)%Z -> length c = length r -> Forall pm1 c -> Forall (fun x => x = 0 \/ Z.abs x = q)%Z r ->
  (discrepancy c r = q * Z.of_nat (wrong c r))%Z /\ weak q r = erased r.
Proof.
  induction c as [|x c IH]; intros [|z r] Hq L F R; cbn [length] in *; try discriminate; [split; [cbn; lia|reflexivity]|].
  inversion F as [|? ? X G]; inversion R as [|? ? Y RR]. subst. destruct (IH r Hq ltac:(lia) G RR) as (I1 & I2). split.
  - unfold discrepancy in *. cbn [zip2]. rewrite charge_cons, I1. unfold wrong. cbn [combine filter fst snd]. fold (wrong c r).
    destruct (x * z <? 0)%Z eqn:E; cbn [length]; fold (wrong c r); set (N := wrong c r) in *; clearbody N; destruct Y as [Y | Y]; destruct X as [X | X]; rewrite ?X, ?Y in *; nia.
  - unfold weak, erased in *. cbn [filter]. destruct Y as [-> | Y].
    + replace (Z.abs 0 <? q)%Z with true by lia. rewrite Z.eqb_refl. cbn [length]. lia.
    + replace (Z.abs z <? q)%Z with false by lia. replace (z =? 0)%Z with false by lia. exact I2.
Qed.
Lemma expand_firstn fl : forall m, expand fl (firstn (unfrozen fl) m) = expand fl m.
Proof.
  induction fl as [|[|] fl IH]; intros m; [reflexivity| |].
  - change (unfrozen (true :: fl)) with (unfrozen fl). cbn [expand]. rewrite IH. reflexivity.
  - change (unfrozen (false :: fl)) with (S (unfrozen fl)). destruct m as [|x m]; [reflexivity|]. cbn [firstn expand hd tl]. rewrite IH. reflexivity.
Qed.

(** C85: a list for all messages corrects: if the codeword contradicts the received values by less than half of what [2^w] of the
    values that are not weak weigh, lane 0 is the message sent, and the hard values of lane 0 are its codeword.  [w] is the weight of C81. *)
Theorem C85_complete_list_corrects : forall W P MAX_M soft hard maps rank out received frozen level codeword message cw w lo,
  let fl := flags frozen (2 ^ level) in let K := unfrozen fl in let r := firstn (2 ^ level) received in
  back_end W P -> list_buffers W MAX_M soft hard maps rank out received frozen level K -> 1 <= K ->
  level <= 12 -> 2 ^ K <= W -> last fl true = false -> (sum (map Z.abs r) <= 127)%Z ->
  encoder_buffers codeword message frozen level -> Forall pm1 message -> polar_encode ops8 codeword message frozen level = Ok cw ->
  (forall i, i < 2 ^ level -> nth i fl true = false -> w <= one_bits level i) ->
  (0 <= lo)%Z -> (2 * discrepancy (firstn (2 ^ level) cw) r < lo * (2 ^ Z.of_nat w - Z.of_nat (weak lo r)))%Z ->
  exists soft' hard' maps' rank' decoded,
    list_decode W P MAX_M soft hard maps rank out received frozen level = Ok (soft', hard', maps', rank', decoded ++ skipn K out) /\
    length decoded = K /\ lane_of 0 decoded = firstn K message /\ lane_of 0 (firstn (2 ^ level) hard') = firstn (2 ^ level) cw.
Proof.
  intros W P MAX_M soft hard maps rank out received frozen level codeword message cw w lo fl K r BE HB HK H12 HW2 Hl Hs EB Fm E Hw Hlo H. pose proof (pow2_pos K) as Hp.
  destruct (C44_most_likely W P MAX_M soft hard maps rank out received frozen level BE HB HK H12 HW2 Hl Hs) as (soft' & hard' & maps' & rank' & dec & R & L & C).
  fold fl in C, R, L. fold K in C, R, L. fold r in C.
  destruct (C44_every_lane_is_a_path W P MAX_M soft hard maps rank out received frozen level BE HB HK) as (s2 & h2 & m2 & dec2 & metric & real & S1 & S2 & _ & S4 & _).
  fold fl in S1, S2, S4. fold K in S1, S2, S4. rewrite R in S1. injection S1 as _ Eh _ _ Eo. subst h2. assert (dec = dec2) as ->.
  { apply (f_equal (firstn K)) in Eo. rewrite !firstn_app_l in Eo by assumption. exact Eo. }
  destruct (S4 0 ltac:(lia)) as (L0 & F0 & H0 & _).
  assert (EB' := EB). destruct EB' as (B1 & B2 & B3 & B4). fold fl in B4. fold K in B4.
  assert (lane_of 0 dec2 = firstn K message) as D0.
  { destruct (list_eq_dec Z.eq_dec (lane_of 0 dec2) (firstn K message)) as [Q | Q]; [exact Q|]. exfalso.
    set (m1 := lane_of 0 dec2) in *.
    assert (EB1 : encoder_buffers codeword m1 frozen level) by (split; [exact B1|]; split; [exact B2|]; split; [exact B3|]; fold fl; fold K; lia).
    destruct (C40_encoder_is_the_transform codeword m1 frozen level EB1 F0) as (cw1 & E1 & T1 & P1 & _). fold fl in T1.
    destruct (C40_encoder_is_the_transform codeword message frozen level EB Fm) as (cw' & E' & T & P0 & _). fold fl in T. rewrite E in E'. injection E' as <-.
    pose proof (C81_minimum_distance codeword codeword message m1 frozen level cw cw1 w EB EB1 Fm F0 E E1 Hw) as D. fold fl in D. fold K in D.
    specialize (D ltac:(rewrite (firstn_all2 m1) by lia; congruence)).
    assert (Lr : length r = 2 ^ level) by (unfold r; rewrite firstn_length; destruct HB as (_ & _ & _ & _ & _ & _ & _ & _ & HR & _); lia).
    assert (Lc : length (firstn (2 ^ level) cw) = 2 ^ level) by (rewrite T; apply length_transform).
    assert (L1 : length (firstn (2 ^ level) cw1) = 2 ^ level) by (rewrite T1; apply length_transform).
    pose proof (nearer lo (firstn (2 ^ level) cw) (firstn (2 ^ level) cw1) r Hlo ltac:(lia) ltac:(lia) P0 P1 (2 ^ w) D) as N.
    rewrite Nat2Z.inj_pow in N. specialize (N H).
    specialize (C (firstn K message) ltac:(rewrite firstn_length; lia) ltac:(apply Forall_firstn_; exact Fm)).
    unfold K in C at 1. rewrite expand_firstn, <- T1, <- T in C. lia. }
  do 5 eexists. split; [exact R|]. split; [exact L|]. split; [exact D0|]. rewrite H0, D0. unfold K. rewrite expand_firstn.
  destruct (C40_encoder_is_the_transform codeword message frozen level EB Fm) as (cw' & E' & T & _). fold fl in T. rewrite E in E'. injection E' as <-. symmetry. exact T.
Qed.
Print Assumptions C85_complete_list_corrects.
(** C85: values of one magnitude: [e] wrong signs and [f] erasures are corrected whenever [2e+f < 2^w] *)
Theorem C85_errors_and_erasures : forall W P MAX_M soft hard maps rank out received frozen level codeword message cw w q,
  let fl := flags frozen (2 ^ level) in let K := unfrozen fl in let r := firstn (2 ^ level) received in
  back_end W P -> list_buffers W MAX_M soft hard maps rank out received frozen level K -> 1 <= K ->
  level <= 12 -> 2 ^ K <= W -> last fl true = false ->
  encoder_buffers codeword message frozen level -> Forall pm1 message -> polar_encode ops8 codeword message frozen level = Ok cw ->
  (forall i, i < 2 ^ level -> nth i fl true = false -> w <= one_bits level i) ->
  (0 < q)%Z -> Forall (fun x => x = 0 \/ Z.abs x = q)%Z r -> (sum (map Z.abs r) <= 127)%Z ->
  2 * wrong (firstn (2 ^ level) cw) r + erased r < 2 ^ w ->
  exists soft' hard' maps' rank' decoded,
    list_decode W P MAX_M soft hard maps rank out received frozen level = Ok (soft', hard', maps', rank', decoded ++ skipn K out) /\
    length decoded = K /\ lane_of 0 decoded = firstn K message /\ lane_of 0 (firstn (2 ^ level) hard') = firstn (2 ^ level) cw.
Proof.
  intros W P MAX_M soft hard maps rank out received frozen level codeword message cw w q fl K r BE HB HK H12 HW2 Hl EB Fm E Hw Hq Fr Hs H.
  destruct (C40_encoder_is_the_transform codeword message frozen level EB Fm) as (cw' & E' & T & P0 & _). rewrite E in E'. injection E' as <-.
  destruct (flat_discrepancy q (firstn (2 ^ level) cw) r Hq) as (X1 & X2); try assumption.
  { rewrite T, length_transform. unfold r. rewrite firstn_length. destruct HB as (_ & _ & _ & _ & _ & _ & _ & _ & HR & _). lia. }
  apply (C85_complete_list_corrects W P MAX_M soft hard maps rank out received frozen level codeword message cw w q); try assumption; [lia|].
  fold r. rewrite X1, X2. change 2%Z with (Z.of_nat 2) at 2. rewrite <- Nat2Z.inj_pow. nia.
Qed.
Print Assumptions C85_errors_and_erasures.
(** C85: the same behind the systematic encoder, whose message stands at the unfrozen positions of the hard values of lane 0 *)
Theorem C85_systematic : forall W P MAX_M soft hard maps rank out received frozen level codeword message cw w lo,
  let fl := flags frozen (2 ^ level) in let K := unfrozen fl in let r := firstn (2 ^ level) received in
  back_end W P -> list_buffers W MAX_M soft hard maps rank out received frozen level K -> 1 <= K ->
  level <= 12 -> 2 ^ K <= W -> last fl true = false -> (sum (map Z.abs r) <= 127)%Z ->
  encoder_buffers codeword message frozen level -> Forall pm1 message -> domination_closed fl -> polar_sysenc ops8 codeword message frozen level = Ok cw ->
  (forall i, i < 2 ^ level -> nth i fl true = false -> w <= one_bits level i) ->
  (0 <= lo)%Z -> (2 * discrepancy (firstn (2 ^ level) cw) r < lo * (2 ^ Z.of_nat w - Z.of_nat (weak lo r)))%Z ->
  exists soft' hard' maps' rank' out',
    list_decode W P MAX_M soft hard maps rank out received frozen level = Ok (soft', hard', maps', rank', out') /\
    lane_of 0 (firstn (2 ^ level) hard') = firstn (2 ^ level) cw /\ collect fl (lane_of 0 (firstn (2 ^ level) hard')) = firstn K message.
Proof.
  intros W P MAX_M soft hard maps rank out received frozen level codeword message cw w lo fl K r BE HB HK H12 HW2 Hl Hs EB Fm D E Hw Hlo H.
  destruct (C41_systematic codeword message frozen level EB Fm D) as (cw' & E' & S & m' & F' & L' & G). rewrite E in E'. injection E' as <-. fold fl in S, L'. fold K in S, L'.
  assert (EB1 : encoder_buffers codeword m' frozen level) by (destruct EB as (B1 & B2 & B3 & _); split; [exact B1|]; split; [exact B2|]; split; [exact B3|]; fold fl; fold K; lia).
  destruct (C85_complete_list_corrects W P MAX_M soft hard maps rank out received frozen level codeword m' cw w lo BE HB HK H12 HW2 Hl Hs EB1 F' G Hw Hlo H) as (soft' & hard' & maps' & rank' & dec & R & _ & _ & Q).
  do 5 eexists. split; [exact R|]. split; [exact Q|]. rewrite Q. exact S.
Qed.
Print Assumptions C85_systematic.

(** C85: the parity aided decoder: here [w] bounds the number of one bits in the positions of message symbols only *)
Theorem C85_parity_aided : forall W P MAX_M soft hard maps rank out received frozen level stride first codeword message cw w lo,
  let fl := flags frozen (2 ^ level) in let rs := parity_roles stride fl first in let K := payload rs in let r := firstn (2 ^ level) received in
  back_end W P -> list_buffers W MAX_M soft hard maps rank out received frozen level K -> 1 <= K -> 1 <= first ->
  level <= 12 -> 2 ^ K <= W -> last fl true = false -> (sum (map Z.abs r) <= 127)%Z ->
  2 ^ level <= length codeword -> K <= length message -> Forall pm1 message -> parity_encode ops8 codeword message frozen level stride first = Ok cw ->
  (forall i, i < 2 ^ level -> nth i rs Frozen = Data -> w <= one_bits level i) ->
  (0 <= lo)%Z -> (2 * discrepancy (firstn (2 ^ level) cw) r < lo * (2 ^ Z.of_nat w - Z.of_nat (weak lo r)))%Z ->
  exists soft' hard' maps' rank' decoded,
    parity_decode W P MAX_M soft hard maps rank out received frozen level stride first = Ok (soft', hard', maps', rank', decoded ++ skipn K out) /\
    length decoded = K /\ lane_of 0 decoded = firstn K message /\ lane_of 0 (firstn (2 ^ level) hard') = firstn (2 ^ level) cw.
Proof.
  intros W P MAX_M soft hard maps rank out received frozen level stride first codeword message cw w lo fl rs K r BE HB HK Hf1 H12 HW2 Hl Hs Hc Hm Fm E Hw Hlo H. pose proof (pow2_pos K) as Hp.
  destruct (C46_most_likely W P MAX_M soft hard maps rank out received frozen level stride first BE HB HK Hf1 H12 HW2 Hl Hs) as (soft' & hard' & maps' & rank' & dec & R & L & F0 & H0 & C).
  fold fl in C, R, L, H0. fold rs in C, R, L, H0. fold K in C, R, L. fold r in C.
  assert (HB' := HB). destruct HB' as (_ & HL & HM & _ & _ & _ & _ & _ & HR & _ & Hfz & _).
  assert (Lr : length rs = 2 ^ level) by (unfold rs; rewrite <- groles_parity, length_groles; apply length_flags).
  assert (L0 : length (lane_of 0 dec) = K) by (rewrite length_lane_of; exact L).
  destruct (C46_encoder codeword message frozen level stride first ltac:(lia) Hfz Hc Hm Fm) as (cw' & E' & T & _). rewrite E in E'. injection E' as <-. fold fl in T. fold rs in T.
  assert (SF : symbols rs 1 (firstn K message) = symbols rs 1 message).
  { destruct (symbols_app rs [] 1%Z (firstn K message) (skipn K message)) as (Q & _); [rewrite firstn_length; unfold K in *; lia|]. rewrite app_nil_r, firstn_skipn in Q. cbn [symbols] in Q. rewrite app_nil_r in Q. symmetry. exact Q. }
  assert (PS : forall m, Forall pm1 m -> Forall pm1 (transform level (symbols rs 1 m))).
  { intros m F. rewrite <- ptr_transform by (rewrite length_symbols; exact Lr). apply pm1_ptr. apply (proj1 (pm1_symbols rs 1%Z m ltac:(left; reflexivity) F)). }
  assert (lane_of 0 dec = firstn K message) as D0.
  { destruct (list_eq_dec Z.eq_dec (lane_of 0 dec) (firstn K message)) as [Q | Q]; [exact Q|]. exfalso.
    destruct (C46_encoder codeword (lane_of 0 dec) frozen level stride first ltac:(lia) Hfz Hc) as (cw1 & E1 & T1 & _); [fold fl; fold rs; fold K; lia|exact F0|]. fold fl in T1. fold rs in T1.
    pose proof (C81_parity_aided codeword codeword message (lane_of 0 dec) frozen level stride first cw cw1 w ltac:(lia) Hfz Hc Hc Hm) as D. cbv zeta in D. fold fl in D. fold rs in D. fold K in D.
    specialize (D ltac:(lia) Fm F0 E E1 Hw ltac:(rewrite (firstn_all2 (lane_of 0 dec)) by lia; congruence)).
    assert (Lrr : length r = 2 ^ level) by (unfold r; rewrite firstn_length; lia).
    rewrite T, T1 in D. rewrite T in H.
    pose proof (nearer lo (transform level (symbols rs 1 message)) (transform level (symbols rs 1 (lane_of 0 dec))) r Hlo ltac:(rewrite !length_transform; reflexivity) ltac:(rewrite length_transform; lia) (PS _ Fm) (PS _ F0) (2 ^ w) D) as N.
    rewrite Nat2Z.inj_pow in N. specialize (N H).
    specialize (C (firstn K message) ltac:(rewrite firstn_length; lia) ltac:(apply Forall_firstn_; exact Fm)). rewrite SF in C. lia. }
  do 5 eexists. split; [exact R|]. split; [exact L|]. split; [exact D0|]. rewrite H0, D0, SF. symmetry. exact T.
Qed.
Print Assumptions C85_parity_aided.

(** Three message symbols, 32 positions, distance 16, a list of 8: 5 wrong signs and 5 erasures of strength 3 ... *)
Definition cap_word : list Z := match polar_encode ops8 (repeat 0%Z 32) [-1; 1; -1]%Z Prop_polar_list.ex_frozen 5 with Ok cw => cw | _ => [] end.
Definition hit (wrong erased : list nat) (q : Z) (cw : list Z) : list Z :=
  map (fun i => if existsb (Nat.eqb i) erased then 0%Z else if existsb (Nat.eqb i) wrong then (- (q * nth i cw 0))%Z else (q * nth i cw 0)%Z) (seq 0 32).
Example C85_nonvacuous : let fl := flags Prop_polar_list.ex_frozen (2 ^ 5) in let r := hit [1; 7; 12; 20; 31] [0; 4; 9; 22; 30] 3 cap_word in
  unfrozen fl = 3 /\ 2 ^ 3 <= 8 /\ last fl true = false /\ encoder_buffers (repeat 0%Z 32) [-1; 1; -1]%Z Prop_polar_list.ex_frozen 5 /\
  polar_encode ops8 (repeat 0%Z 32) [-1; 1; -1]%Z Prop_polar_list.ex_frozen 5 = Ok cap_word /\
  (forall i, i < 2 ^ 5 -> nth i fl true = false -> 4 <= one_bits 5 i) /\
  list_buffers 8 5 (repeat [] 64) (repeat [] 32) (repeat [] 32) None (repeat [] 3) r Prop_polar_list.ex_frozen 5 3 /\
  Forall (fun x => x = 0 \/ Z.abs x = 3)%Z (firstn (2 ^ 5) r) /\ sum (map Z.abs (firstn (2 ^ 5) r)) = 81%Z /\ wrong (firstn (2 ^ 5) cap_word) (firstn (2 ^ 5) r) = 5 /\ erased (firstn (2 ^ 5) r) = 5 /\
  ('(_, _, _, _, out) <- list_decode 8 (ops8v 8) 5 (repeat [] 64) (repeat [] 32) (repeat [] 32) None (repeat [] 3) r Prop_polar_list.ex_frozen 5 ;; Ok (lane_of 0 out)) = Ok [-1; 1; -1]%Z.
Proof.
  cbv zeta. split; [vm_compute; reflexivity|]. split; [apply Nat.leb_le; reflexivity|]. split; [vm_compute; reflexivity|]. split.
  { split; [lia|]. split; [apply Nat.leb_le; vm_compute; reflexivity|]. split; [apply Nat.leb_le; vm_compute; reflexivity|apply Nat.leb_le; vm_compute; reflexivity]. }
  split; [vm_compute; reflexivity|]. split.
  { assert (forallb (fun i => nth i (flags Prop_polar_list.ex_frozen (2 ^ 5)) true || (4 <=? one_bits 5 i)) (seq 0 (2 ^ 5)) = true) as A by (vm_compute; reflexivity). rewrite forallb_forall in A.
    intros i Hi Hf. specialize (A i ltac:(apply in_seq; lia)). rewrite Hf in A. cbn [orb] in A. apply Nat.leb_le. exact A. }
  set (r := hit _ _ _ _). assert (forallb (fun x => (x =? 0) || (Z.abs x =? 3))%Z r = true) as A by (vm_compute; reflexivity). rewrite forallb_forall in A.
  split.
  { small_buffers.
    - cbn. lia.
    - intros q E. discriminate.
    - apply Forall_forall. intros x Hx. specialize (A x Hx). unfold int8. lia.
    - constructor; [reflexivity|constructor]. }
  split; [apply Forall_forall; intros x Hx; assert (In x r) as Hr by (rewrite <- (firstn_skipn (2 ^ 5) r); apply in_or_app; left; exact Hx); specialize (A x Hr); lia|].
  split; [vm_compute; reflexivity|]. split; [vm_compute; reflexivity|]. split; vm_compute; reflexivity.
Qed.
(** ... are corrected, but 7 wrong signs and 2 erasures where two codewords differ leave a tie that lane 0 loses: [2e+f] must be below the distance *)
Example C85_bound_is_sharp : let r := hit [0; 1; 2; 3; 4; 5; 6] [14; 15] 3 cap_word in
  wrong cap_word r = 7 /\ erased r = 2 /\
  ('(_, _, _, _, out) <- list_decode 8 (ops8v 8) 5 (repeat [] 64) (repeat [] 32) (repeat [] 32) None (repeat [] 3) r Prop_polar_list.ex_frozen 5 ;; Ok (lane_of 0 out)) = Ok [1; 1; -1]%Z.
Proof. cbv zeta. split; [vm_compute; reflexivity|]. split; vm_compute; reflexivity. Qed.
