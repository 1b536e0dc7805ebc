(** Property C88: CRC aided list decoding of polar codes. *)
From Coq Require Import ZifyBool ZifyNat ZifyN.
From Verif Require Import Cpp Model_crc Spec_bits Spec_crc Proof_crc Model_polar Model_polar_list Model_polar_crc Model_polar_table Spec_polar Spec_polar_list Lib_list Proof_bits Proof_polar1 Proof_polar2 Prop_polar Prop_polar_list.
Local Open Scope nat_scope.
Ltac Zify.zify_post_hook ::= idtac.

(** a CRC object for [w] bits and [poly], with anything in its register *)
Definition crc_object (w poly : N) (o : crc_obj) : Prop := exists o0 v, crc_new w poly 0 = Ok o0 /\ (v < 2 ^ w)%N /\ o = crc_reset o0 v.
(** bits as soft values: -1 for 1 *)
Definition sign (b : bool) : Z := if b then (-1)%Z else 1%Z.
Definition negative (x : Z) : bool := (x <? 0)%Z.
(** a word passes the check *)
Definition passes (w poly : N) (m : list Z) : Prop := crc_of w poly 0 (map InBit (map negative m)) = Ok 0%N.

(** ** The object *)
Lemma object_good w poly o : (8 <= w)%N -> (poly < 2 ^ w)%N -> crc_object w poly o -> good w poly o.
Proof.
  intros Hw Hp (o0 & v & E & Hv & ->). destruct (crc_new_ok w poly Hw Hp 0) as (lut & E' & H). rewrite E in E'. injection E' as ->. unfold crc_reset.
  apply good_set; [|exact Hv]. repeat split; cbn; auto. lia.
Qed.
Lemma object_set w poly o v : crc_object w poly o -> (v < 2 ^ w)%N -> crc_object w poly (crc_set o v).
Proof. intros (o0 & u & E & Hu & ->) Hv. exists o0, v. auto. Qed.
Lemma object_w w poly o : (8 <= w)%N -> (poly < 2 ^ w)%N -> crc_object w poly o -> crc_w o = w /\ (crc_reg o < 2 ^ w)%N.
Proof. intros Hw Hp H. destruct (object_good w poly o Hw Hp H) as (A & _ & C & _). auto. Qed.
Lemma object_bit w poly o b : (8 <= w)%N -> (poly < 2 ^ w)%N -> crc_object w poly o -> crc_object w poly (crc_bit o b) /\ crc_reg (crc_bit o b) = st poly (crc_reg o) b.
Proof.
  intros Hw Hp H. assert (G := object_good w poly o Hw Hp H). destruct (crc_bit_good w poly Hw Hp o b G) as (E & (_ & _ & C & _)). split; [|rewrite E; reflexivity].
  unfold crc_bit. apply object_set; [exact H|]. exact C.
Qed.

(** ** Attaching the check *)
Lemma upd_at {A} (l : list A) n x rest y : length l = n -> upd (l ++ y :: rest) n x = l ++ x :: rest.
Proof. intros <-. induction l as [|a l IH]; cbn; [reflexivity|]. rewrite IH. reflexivity. Qed.
Lemma skipn_cons {A} (l : list A) n d : n < length l -> skipn n l = nth n l d :: skipn (S n) l.
Proof. revert n. induction l as [|a l IH]; intros n H; cbn [length] in H; [lia|]. destruct n as [|n]; [reflexivity|]. cbn [skipn nth]. rewrite (IH n) by lia. reflexivity. Qed.
Lemma fill (f : nat -> Z) n message a (pre : list Z) : length pre = a -> a + n <= length message ->
  for_up 0 n (fun i message => wr message (a + i) (f i)) (pre ++ skipn a message) = Ok (pre ++ map f (seq 0 n) ++ skipn (a + n) message).
Proof.
  intros La Hn. induction n as [|n IH]; [cbn [seq map]; rewrite Nat.add_0_r; reflexivity|]. rewrite for_up_last by lia. rewrite IH by lia. cbn [bind].
  rewrite wr_Ok by (rewrite !app_length, map_length, seq_length, skipn_length; lia). f_equal. rewrite (skipn_cons message (a + n) 0%Z) by lia. rewrite app_assoc.
  rewrite upd_at by (rewrite app_length, map_length, seq_length; lia).
  rewrite seq_S, map_app, <- !app_assoc. cbn [app map]. rewrite Nat.add_0_l. replace (S (a + n)) with (a + S n) by lia. reflexivity.
Qed.
Lemma sign_b2z b : (1 - 2 * Z.b2z b)%Z = sign b. Proof. destruct b; reflexivity. Qed.
Lemma attach_ok w poly o message data : (8 <= w)%N -> (poly < 2 ^ w)%N -> crc_object w poly o -> length data + N.to_nat w <= length message ->
  exists o', crc_attach o (N.to_nat w) message data = Ok (o', map sign (data ++ low_bits (sts poly 0 data) (N.to_nat w)) ++ skipn (length data + N.to_nat w) message) /\ crc_object w poly o'.
Proof.
  intros Hw Hp HO HL. unfold crc_attach. set (o0 := crc_reset o 0). assert (H0 : crc_object w poly o0) by (apply object_set; [exact HO|]; apply N.neq_0_lt_0, N.pow_nonzero; lia).
  assert (R0 : crc_reg o0 = 0%N) by reflexivity. clearbody o0. cbv zeta.
  assert (X : forall n, n <= length data -> exists o', for_up 0 n (fun i '(o, message) => let bit := nth i data false in let o := crc_bit o bit in message <- wr message i (1 - 2 * Z.b2z bit)%Z ;; Ok (o, message)) (o0, message) =
    Ok (o', map sign (firstn n data) ++ skipn n message) /\ crc_object w poly o' /\ crc_reg o' = sts poly 0 (firstn n data)).
  { induction n as [|n IH]; intros Hn; [exists o0; split; [reflexivity|]; split; [exact H0|]; rewrite R0; reflexivity|]. destruct IH as (o' & E & HO' & R); [lia|]. rewrite for_up_last by lia. rewrite E. cbn [bind]. cbv zeta.
    rewrite wr_Ok by (rewrite app_length, map_length, firstn_length, skipn_length; lia). cbn [bind]. destruct (object_bit w poly o' (nth n data false) Hw Hp HO') as (HB & RB). eexists. split; [|split; [exact HB|]].
    - f_equal. f_equal. rewrite (skipn_cons message n 0%Z) by lia. rewrite upd_at by (rewrite map_length, firstn_length; lia).
      assert (EF : firstn (S n) data = firstn n data ++ [nth n data false]).
      { clear - Hn. revert n Hn. induction data as [|a l IH]; intros n Hn; cbn [length] in Hn; [lia|]. destruct n as [|n]; [reflexivity|]. cbn [firstn nth app]. rewrite <- IH by lia. reflexivity. }
      rewrite EF, map_app, <- app_assoc. cbn [map app]. rewrite sign_b2z. reflexivity.
    - rewrite RB, R. assert (EF : firstn (S n) data = firstn n data ++ [nth n data false]).
      { clear - Hn. revert n Hn. induction data as [|a l IH]; intros n Hn; cbn [length] in Hn; [lia|]. destruct n as [|n]; [reflexivity|]. cbn [firstn nth app]. rewrite <- IH by lia. reflexivity. }
      rewrite EF, sts_app. reflexivity. }
  destruct (X (length data) (le_n _)) as (o' & E & HO' & R). cbv zeta in E. rewrite E. cbn [bind]. rewrite firstn_all in R |- *. destruct (object_w w poly o' Hw Hp HO') as (W & _).
  rewrite (for_up_ext _ (fun i message => wr message (length data + i) (sign (N.testbit (sts poly 0 data) (N.of_nat i))))).
  - rewrite (fill (fun i => sign (N.testbit (sts poly 0 data) (N.of_nat i))) (N.to_nat w) message (length data) (map sign data)) by (rewrite ?map_length; lia). cbn [bind]. exists o'. split; [|exact HO'].
    f_equal. f_equal. rewrite map_app, <- app_assoc. f_equal. f_equal. unfold low_bits. rewrite map_map. reflexivity.
  - intros i m Hi. rewrite W. replace (N.of_nat i <? N.max 32 w)%N with true by lia. cbn [require bind]. rewrite sign_b2z. unfold crc_get. rewrite R. f_equal. f_equal.
    rewrite land1, (N.testbit_odd _ (N.of_nat i)). destruct (N.odd _); reflexivity.
Qed.

(** ** Choosing a lane *)
Definition lane_passes (w poly : N) (K k : nat) (decoded : list (list Z)) : Prop := passes w poly (lane_of k (firstn K decoded)).
Lemma check_lane w poly o K k decoded : (8 <= w)%N -> (poly < 2 ^ w)%N -> crc_object w poly o -> K <= length decoded -> (forall i, i < K -> k < length (nth i decoded [])) ->
  exists o', for_up 0 K (fun i o => v <- rd decoded i ;; x <- rd v k ;; Ok (crc_bit o (x <? 0)%Z)) o = Ok o' /\ crc_object w poly o' /\ crc_reg o' = sts poly (crc_reg o) (map negative (lane_of k (firstn K decoded))).
Proof.
  intros Hw Hp HO HK HL. induction K as [|K IH]; [exists o; split; [reflexivity|]; split; [exact HO|reflexivity]|]. destruct IH as (o' & E & HO' & R); [lia|intros i Hi; apply HL; lia|].
  rewrite for_up_last by lia. rewrite E. cbn [bind]. rewrite (rd_nth _ _ []) by lia. cbn [bind]. rewrite (rd_nth _ _ 0%Z) by (apply HL; lia). cbn [bind].
  destruct (object_bit w poly o' (nth k (nth K decoded []) 0 <? 0)%Z Hw Hp HO') as (HB & RB). eexists. split; [reflexivity|]. split; [exact HB|]. rewrite RB, R.
  assert (EF : firstn (S K) decoded = firstn K decoded ++ [nth K decoded []]).
  { clear - HK. revert K HK. induction decoded as [|a l IH]; intros n Hn; cbn [length] in Hn; [lia|]. destruct n as [|n]; [reflexivity|]. cbn [firstn nth app]. rewrite <- IH by lia. reflexivity. }
  rewrite EF. unfold lane_of. rewrite !map_app, sts_app. reflexivity.
Qed.
Lemma passes_iff w poly m : (8 <= w)%N -> (poly < 2 ^ w)%N -> passes w poly m <-> sts poly 0 (map negative m) = 0%N.
Proof.
  intros Hw Hp. unfold passes. rewrite crc_of_bits by (try assumption; apply N.neq_0_lt_0, N.pow_nonzero; lia). split; congruence.
Qed.

(** C88: the selection, for any lanes: [best] is the first lane whose bits pass the check; [error] tells that none does *)
Theorem C88_selects_the_first : forall w poly o W K decoded, (8 <= w)%N -> (poly < 2 ^ w)%N -> crc_object w poly o -> K <= length decoded -> (forall i, i < K -> W <= length (nth i decoded [])) ->
  exists o' best error, crc_select o W K decoded = Ok (o', best, error) /\ crc_object w poly o' /\
    (error = false -> best < W /\ passes w poly (lane_of best (firstn K decoded)) /\ forall k, k < best -> ~ passes w poly (lane_of k (firstn K decoded))) /\
    (error = true -> best = 0 /\ forall k, k < W -> ~ passes w poly (lane_of k (firstn K decoded))).
Proof.
  intros w poly o W K decoded Hw Hp HO HK HL. unfold crc_select.
  match goal with |- context [for_ret 0 W ?f o] => destruct (for_ret_inv (fun i o => crc_object w poly o /\ forall k, k < i -> ~ passes w poly (lane_of k (firstn K decoded)))
    (fun '(o, best) => crc_object w poly o /\ best < W /\ passes w poly (lane_of best (firstn K decoded)) /\ forall k, k < best -> ~ passes w poly (lane_of k (firstn K decoded))) f 0 W o) as (r & E & H) end.
  - lia.
  - intros k o1 Hk (H1 & N1). cbv zeta. assert (H2 : crc_object w poly (crc_reset o1 0)) by (apply object_set; [exact H1|apply N.neq_0_lt_0, N.pow_nonzero; lia]).
    destruct (check_lane w poly (crc_reset o1 0) K k decoded Hw Hp H2 HK (fun i Hi => Nat.lt_le_trans _ _ _ (proj2 Hk) (HL i Hi))) as (o2 & E2 & HO2 & R2). rewrite E2. cbn [bind]. change (crc_reg (crc_reset o1 0)) with 0%N in R2. unfold crc_get. rewrite R2.
    destruct (N.eqb_spec (sts poly 0 (map negative (lane_of k (firstn K decoded)))) 0) as [Z|Z].
    + eexists. split; [reflexivity|]. cbv iota beta. split; [exact HO2|]. split; [lia|]. split; [apply passes_iff; assumption|]. intros j Hj. apply N1. exact Hj.
    + eexists. split; [reflexivity|]. cbv iota beta. split; [exact HO2|]. intros j Hj. destruct (Nat.eq_dec j k) as [->|]; [rewrite passes_iff by assumption; exact Z|apply N1; lia].
  - split; [exact HO|]. intros k Hk. lia.
  - rewrite E. cbn [bind]. destruct r as [o'|(o' & best)]; cbv iota beta in H.
    + destruct H as (H1 & N1). exists o', 0, true. split; [reflexivity|]. split; [exact H1|]. split; [discriminate|]. intros _. split; [reflexivity|exact N1].
    + destruct H as (H1 & HB & P & N1). exists o', best, false. split; [reflexivity|]. split; [exact H1|]. split; [auto|discriminate].
Qed.
Print Assumptions C88_selects_the_first.

Lemma negative_signs l : map negative (map sign l) = l.
Proof. rewrite map_map. rewrite <- map_id. apply map_ext. intros []; reflexivity. Qed.
Lemma signs_negative m : Forall pm1 m -> map sign (map negative m) = m.
Proof. induction 1 as [|x m [-> | ->] F IH]; cbn [map]; [reflexivity| |]; rewrite IH; reflexivity. Qed.
(** C88: the message the test sends is the data, then the bits of its CRC, lowest first, as +1 and -1; it passes the check, whatever the object and the array held *)
Theorem C88_attach : forall w poly o message data, (8 <= w)%N -> (poly < 2 ^ w)%N -> crc_object w poly o -> length data + N.to_nat w <= length message ->
  exists o' v, crc_of w poly 0 (map InBit data) = Ok v /\
    crc_attach o (N.to_nat w) message data = Ok (o', map sign (data ++ low_bits v (N.to_nat w)) ++ skipn (length data + N.to_nat w) message) /\
    crc_object w poly o' /\ passes w poly (map sign (data ++ low_bits v (N.to_nat w))).
Proof.
  intros w poly o message data Hw Hp HO HL. destruct (attach_ok w poly o message data Hw Hp HO HL) as (o' & E & HO'). exists o', (sts poly 0 data).
  assert (Z : (0 < 2 ^ w)%N) by (apply N.neq_0_lt_0, N.pow_nonzero; lia).
  split; [apply crc_of_bits; assumption|]. split; [exact E|]. split; [exact HO'|]. apply passes_iff; [assumption..|]. rewrite negative_signs, sts_app. apply sts_residue; [assumption..|]. apply sts_lt; assumption.
Qed.
Print Assumptions C88_attach.
(** C88: a word of +1 and -1 that passes the check is some data followed by the CRC of that data: no error flag means that *)
Theorem C88_passing_words : forall w poly m, (8 <= w)%N -> (poly < 2 ^ w)%N -> N.testbit poly (w - 1) = true -> Forall pm1 m -> N.to_nat w <= length m -> passes w poly m ->
  exists data v, length data = length m - N.to_nat w /\ crc_of w poly 0 (map InBit data) = Ok v /\ m = map sign (data ++ low_bits v (N.to_nat w)).
Proof.
  intros w poly m Hw Hp HT F HL P. assert (Z : (0 < 2 ^ w)%N) by (apply N.neq_0_lt_0, N.pow_nonzero; lia). set (n := length m - N.to_nat w).
  set (data := firstn n (map negative m)). set (tail := skipn n (map negative m)). assert (Lt : length tail = N.to_nat w) by (unfold tail; rewrite skipn_length, map_length; lia).
  exists data, (sts poly 0 data). split; [unfold data; rewrite firstn_length, map_length; lia|]. split; [apply crc_of_bits; assumption|].
  rewrite <- (signs_negative m F). f_equal. rewrite <- (firstn_skipn n (map negative m)). fold data tail. f_equal.
  destruct (list_eq_dec Bool.bool_dec tail (low_bits (sts poly 0 data) (N.to_nat w))) as [E|N]; [exact E|]. exfalso.
  apply (crc_burst w poly 0 data tail (low_bits (sts poly 0 data) (N.to_nat w)) []); try assumption.
  - unfold low_bits. rewrite map_length, seq_length. exact Lt.
  - lia.
  - rewrite !app_nil_r, !crc_of_bits by assumption. f_equal. rewrite sts_app with (l1 := data) (l2 := low_bits _ _). rewrite sts_residue by (try assumption; apply sts_lt; assumption).
    apply (proj1 (passes_iff w poly m Hw Hp)) in P. rewrite <- (firstn_skipn n (map negative m)) in P. fold data tail in P. exact P.
Qed.
Print Assumptions C88_passing_words.
(** C88: a lane that differs from the sent message only inside a window of at most w symbols does not pass: it is not chosen *)
Theorem C88_near_lanes_are_refused : forall w poly m pre x1 x2 suf, (8 <= w)%N -> (poly < 2 ^ w)%N -> N.testbit poly (w - 1) = true ->
  m = pre ++ x1 ++ suf -> Forall pm1 m -> Forall pm1 x2 -> length x2 = length x1 -> (N.of_nat (length x1) <= w)%N -> x1 <> x2 ->
  passes w poly m -> ~ passes w poly (pre ++ x2 ++ suf).
Proof.
  intros w poly m pre x1 x2 suf Hw Hp HT -> F F2 L LW N P1 P2. assert (Z : (0 < 2 ^ w)%N) by (apply N.neq_0_lt_0, N.pow_nonzero; lia). unfold passes in *. rewrite !map_app in P1, P2. apply Forall_app in F. destruct F as (_ & F). apply Forall_app in F. destruct F as (F1 & _).
  apply (crc_burst w poly 0 (map negative pre) (map negative x1) (map negative x2) (map negative suf)); try assumption.
  - rewrite !map_length. lia.
  - rewrite map_length. exact LW.
  - intros E. apply N. rewrite <- (signs_negative x1 F1), <- (signs_negative x2 F2), E. reflexivity.
  - rewrite !map_app, P1, P2. reflexivity.
Qed.
Print Assumptions C88_near_lanes_are_refused.

(** ** Through the decoders *)
Lemma nth_pm1 k decoded i : Forall pm1 (lane_of k decoded) -> i < length decoded -> k < length (nth i decoded []).
Proof.
  intros F Hi. destruct (Nat.lt_ge_cases k (length (nth i decoded []))) as [H|H]; [exact H|exfalso]. unfold lane_of in F. rewrite Forall_forall in F.
  assert (P : pm1 (nth k (nth i decoded []) 0%Z)) by (apply F, in_map_iff; exists (nth i decoded []); split; [reflexivity|apply nth_In; exact Hi]). rewrite nth_overflow in P by exact H. destruct P; discriminate.
Qed.
Lemma first_lane w poly o W K decoded rest : (8 <= w)%N -> (poly < 2 ^ w)%N -> crc_object w poly o -> 1 <= W -> length decoded = K -> Forall pm1 (lane_of 0 decoded) -> passes w poly (lane_of 0 decoded) ->
  exists o', crc_select o W K (decoded ++ rest) = Ok (o', 0, false) /\ crc_object w poly o'.
Proof.
  intros Hw Hp HO HW HK F P. destruct W as [|W]; [lia|]. unfold crc_select, for_ret. replace (S W - 0) with (S W) by lia. cbn [loop_ret]. cbv zeta.
  assert (FA : firstn K (decoded ++ rest) = decoded) by (rewrite firstn_app, HK, Nat.sub_diag, firstn_O, app_nil_r; apply firstn_all2; lia).
  assert (H2 : crc_object w poly (crc_reset o 0)) by (apply object_set; [exact HO|apply N.neq_0_lt_0, N.pow_nonzero; lia]).
  destruct (check_lane w poly (crc_reset o 0) K 0 (decoded ++ rest) Hw Hp H2) as (o2 & E2 & HO2 & R2); [rewrite app_length; lia|intros i Hi; rewrite app_nth1 by lia; apply nth_pm1; [exact F|lia]|].
  rewrite E2. cbn [bind]. change (crc_reg (crc_reset o 0)) with 0%N in R2. rewrite FA in R2. unfold crc_get. rewrite R2. apply (passes_iff w poly _ Hw Hp) in P. rewrite P. exists o2. split; [reflexivity|exact HO2].
Qed.
Lemma data_back data v w m decoded K rest : m = map sign (data ++ low_bits v (N.to_nat w)) -> length data + N.to_nat w = K -> length decoded = K -> lane_of 0 decoded = m ->
  map negative (firstn (length data) (lane_of 0 (decoded ++ rest))) = data.
Proof.
  intros -> LD LDd L0. unfold lane_of. rewrite map_app, firstn_app, map_length, LDd. replace (length data - K) with 0 by lia. cbn [firstn]. rewrite app_nil_r. fold (lane_of 0 decoded). rewrite L0.
  rewrite <- firstn_map, negative_signs, firstn_app, Nat.sub_diag. cbn [firstn]. rewrite app_nil_r. apply firstn_all.
Qed.
(** C88: the test's chain without noise, parity aided: data, CRC, PolarParityEncoder, received values of the right signs, PolarParityDecoder, selection: lane 0 is chosen,
    there is no error, and its first symbols are the data, whatever the object and the arrays held *)
Theorem C88_noiseless_parity : forall w poly o buffer data W P MAX_M soft hard maps rank out codeword frozen level stride first,
  let rs := parity_roles stride (flags frozen (2 ^ level)) first in let K := payload rs in
  (8 <= w)%N -> (poly < 2 ^ w)%N -> crc_object w poly o -> length data + N.to_nat w = K -> length buffer = K -> 5 <= level <= 16 -> 2 ^ level <= 32 * length frozen -> 2 ^ level <= length codeword -> 1 <= first -> back_end W P ->
  exists o1 message cw, crc_attach o (N.to_nat w) buffer data = Ok (o1, message) /\ parity_encode ops8 codeword message frozen level stride first = Ok cw /\
    forall received, list_buffers W MAX_M soft hard maps rank out received frozen level K -> (forall i, i < 2 ^ level -> Z.sgn (nth i received 0%Z) = nth i cw 0%Z) ->
    exists soft' hard' maps' rank' decoded o2, parity_decode W P MAX_M soft hard maps rank out received frozen level stride first = Ok (soft', hard', maps', rank', decoded) /\
      crc_select o1 W K decoded = Ok (o2, 0, false) /\ crc_object w poly o2 /\ map negative (firstn (length data) (lane_of 0 decoded)) = data.
Proof.
  intros w poly o buffer data W P MAX_M soft hard maps rank out codeword frozen level stride first rs K Hw Hp HO LD LB HL HFz LC HF BE.
  destruct (C88_attach w poly o buffer data Hw Hp HO ltac:(lia)) as (o1 & v & _ & E1 & HO1 & PS). rewrite skipn_all2, app_nil_r in E1 by lia. set (m := map sign (data ++ low_bits v (N.to_nat w))) in *.
  assert (Fm : Forall pm1 m) by (apply Forall_forall; intros x Hx; apply in_map_iff in Hx; destruct Hx as ([] & <- & _); unfold pm1; auto).
  assert (Lm : length m = K) by (unfold m, low_bits; rewrite map_length, app_length, map_length, seq_length; exact LD).
  exists o1, m.
  assert (HK : 1 <= K) by lia.
  destruct (C46_encoder codeword m frozen level stride first ltac:(lia) HFz LC ltac:(fold rs K; lia) Fm) as (cw & EE & _ & _).
  exists cw. split; [exact E1|]. split; [exact EE|]. intros received HB HS.
  destruct (C46_noiseless W P MAX_M soft hard maps rank out received frozen level stride first m codeword cw BE HB HK HF Fm Lm LC EE HS) as (s' & h' & ms' & order & decoded & ED & LDd & L0 & _).
  fold rs K in ED. fold rs K in LDd. assert (P0 : passes w poly (lane_of 0 decoded)) by (rewrite L0; exact PS). assert (F0 : Forall pm1 (lane_of 0 decoded)) by (rewrite L0; exact Fm).
  destruct (first_lane w poly o1 W K decoded (skipn K out) Hw Hp HO1 (proj1 (proj1 HB)) LDd F0 P0) as (o2 & ES & HO2). eexists _, _, _, _, _, o2. split; [exact ED|]. split; [exact ES|]. split; [exact HO2|].
  exact (data_back data v w m decoded K (skipn K out) eq_refl LD LDd L0).
Qed.
Print Assumptions C88_noiseless_parity.
(** C88: the same with PolarEncoder and PolarListDecoder *)
Theorem C88_noiseless : forall w poly o buffer data W P MAX_M soft hard maps rank out codeword frozen level,
  let K := unfrozen (flags frozen (2 ^ level)) in
  (8 <= w)%N -> (poly < 2 ^ w)%N -> crc_object w poly o -> length data + N.to_nat w = K -> length buffer = K -> 5 <= level <= 16 -> 2 ^ level <= 32 * length frozen -> 2 ^ level <= length codeword -> back_end W P ->
  exists o1 message cw, crc_attach o (N.to_nat w) buffer data = Ok (o1, message) /\ polar_encode ops8 codeword message frozen level = Ok cw /\
    forall received, list_buffers W MAX_M soft hard maps rank out received frozen level K -> (forall i, i < 2 ^ level -> Z.sgn (nth i received 0%Z) = nth i cw 0%Z) ->
    exists soft' hard' maps' rank' decoded o2, list_decode W P MAX_M soft hard maps rank out received frozen level = Ok (soft', hard', maps', rank', decoded) /\
      crc_select o1 W K decoded = Ok (o2, 0, false) /\ crc_object w poly o2 /\ map negative (firstn (length data) (lane_of 0 decoded)) = data.
Proof.
  intros w poly o buffer data W P MAX_M soft hard maps rank out codeword frozen level K Hw Hp HO LD LB HL HFz LC BE.
  destruct (C88_attach w poly o buffer data Hw Hp HO ltac:(lia)) as (o1 & v & _ & E1 & HO1 & PS). rewrite skipn_all2, app_nil_r in E1 by lia. set (m := map sign (data ++ low_bits v (N.to_nat w))) in *.
  assert (Fm : Forall pm1 m) by (apply Forall_forall; intros x Hx; apply in_map_iff in Hx; destruct Hx as ([] & <- & _); unfold pm1; auto).
  assert (Lm : length m = K) by (unfold m, low_bits; rewrite map_length, app_length, map_length, seq_length; exact LD).
  exists o1, m. assert (HK : 1 <= K) by lia.
  destruct (C40_encoder_is_the_transform codeword m frozen level) as (cw & EE & _ & _); [unfold encoder_buffers; fold K; rewrite Lm; split; [lia|]; split; [exact HFz|]; split; [exact LC|]; apply le_n|exact Fm|].
  exists cw. split; [exact E1|]. split; [exact EE|]. intros received HB HS.
  destruct (C45_noiseless W P MAX_M soft hard maps rank out received frozen level m codeword cw BE HB HK Fm Lm LC EE HS) as (s' & h' & ms' & order & decoded & ED & LDd & L0 & _).
  fold K in ED. fold K in LDd. assert (P0 : passes w poly (lane_of 0 decoded)) by (rewrite L0; exact PS). assert (F0 : Forall pm1 (lane_of 0 decoded)) by (rewrite L0; exact Fm).
  destruct (first_lane w poly o1 W K decoded (skipn K out) Hw Hp HO1 (proj1 (proj1 HB)) LDd F0 P0) as (o2 & ES & HO2). eexists _, _, _, _, _, o2. split; [exact ED|]. split; [exact ES|]. split; [exact HO2|].
  exact (data_back data v w m decoded K (skipn K out) eq_refl LD LDd L0).
Qed.
Print Assumptions C88_noiseless.

(** C88: any received values: without the error flag the chosen lane carries data followed by the CRC of that data, and it is a path of the list (its word is the codeword of that message
    unless its metric reached the penalty); with the flag no lane passes the check.  A sent message that is one of the lanes, when no earlier lane passes, is the one chosen. *)
Theorem C88_any_received : forall w poly o W P MAX_M soft hard maps rank out received frozen level stride first,
  let rs := parity_roles stride (flags frozen (2 ^ level)) first in let K := payload rs in
  (8 <= w)%N -> (poly < 2 ^ w)%N -> N.testbit poly (w - 1) = true -> crc_object w poly o -> back_end W P -> list_buffers W MAX_M soft hard maps rank out received frozen level K -> N.to_nat w <= K -> 1 <= first ->
  exists soft' hard' maps' rank' decoded o' best error, parity_decode W P MAX_M soft hard maps rank out received frozen level stride first = Ok (soft', hard', maps', rank', decoded) /\
    crc_select o W K decoded = Ok (o', best, error) /\ crc_object w poly o' /\
    (error = false -> best < W /\ exists data v, length data = K - N.to_nat w /\ crc_of w poly 0 (map InBit data) = Ok v /\ lane_of best (firstn K decoded) = map sign (data ++ low_bits v (N.to_nat w))) /\
    (error = true -> best = 0 /\ forall k, k < W -> ~ passes w poly (lane_of k (firstn K decoded))) /\
    (forall k message, k < W -> lane_of k (firstn K decoded) = message -> passes w poly message -> error = false /\ best <= k /\ ((forall j, j < k -> ~ passes w poly (lane_of j (firstn K decoded))) -> best = k)).
Proof.
  intros w poly o W P MAX_M soft hard maps rank out received frozen level stride first rs K Hw Hp HT HO BE HB HK HF.
  destruct (C46_lanes_obey_parity W P MAX_M soft hard maps rank out received frozen level stride first BE HB ltac:(fold rs K; lia) HF) as (s' & h' & ms' & dec & metric & ED & LD & LM & LN & _).
  fold rs K in ED. fold rs K in LD. assert (FA : firstn K (dec ++ skipn K out) = dec) by (rewrite firstn_app, LD, Nat.sub_diag, firstn_O, app_nil_r; apply firstn_all2; lia).
  destruct (C88_selects_the_first w poly o W K (dec ++ skipn K out) Hw Hp HO) as (o' & best & error & ES & HO' & S1 & S2).
  - rewrite app_length. lia.
  - intros i Hi. rewrite app_nth1 by lia. destruct W as [|W']; [lia|]. destruct (LN W' ltac:(lia)) as (_ & F & _). assert (X := nth_pm1 W' dec i F ltac:(lia)). lia.
  - eexists _, _, _, _, _, o', best, error. split; [exact ED|]. split; [exact ES|]. split; [exact HO'|]. rewrite FA in *. split; [|split; [exact S2|]].
    + intros EF. destruct (S1 EF) as (B & PB & _). split; [exact B|]. destruct (LN best B) as (LB & F & _). destruct (C88_passing_words w poly (lane_of best dec) Hw Hp HT F) as (data & v & A1 & A2 & A3); [unfold lane_of; rewrite map_length; lia|exact PB|].
      exists data, v. fold rs K in LB. rewrite LB in A1. auto.
    + intros k message Hk EL PM. subst message. destruct error.
      * exfalso. destruct (S2 eq_refl) as (_ & N). exact (N k Hk PM).
      * destruct (S1 eq_refl) as (B & PB & N). split; [reflexivity|]. split; [destruct (Nat.lt_ge_cases k best) as [L|L]; [destruct (N k L PM)|exact L]|].
        intros NJ. destruct (Nat.lt_ge_cases k best) as [L|L]; [destruct (N k L PM)|]. destruct (Nat.eq_dec best k) as [?|NE]; [assumption|]. destruct (NJ best ltac:(lia) PB).
Qed.
Print Assumptions C88_any_received.
(** C88: the same with PolarListDecoder *)
Theorem C88_any_received_plain : forall w poly o W P MAX_M soft hard maps rank out received frozen level,
  let K := unfrozen (flags frozen (2 ^ level)) in
  (8 <= w)%N -> (poly < 2 ^ w)%N -> N.testbit poly (w - 1) = true -> crc_object w poly o -> back_end W P -> list_buffers W MAX_M soft hard maps rank out received frozen level K -> N.to_nat w <= K ->
  exists soft' hard' maps' rank' decoded o' best error, list_decode W P MAX_M soft hard maps rank out received frozen level = Ok (soft', hard', maps', rank', decoded) /\
    crc_select o W K decoded = Ok (o', best, error) /\ crc_object w poly o' /\
    (error = false -> best < W /\ exists data v, length data = K - N.to_nat w /\ crc_of w poly 0 (map InBit data) = Ok v /\ lane_of best (firstn K decoded) = map sign (data ++ low_bits v (N.to_nat w))) /\
    (error = true -> best = 0 /\ forall k, k < W -> ~ passes w poly (lane_of k (firstn K decoded))) /\
    (forall k message, k < W -> lane_of k (firstn K decoded) = message -> passes w poly message -> error = false /\ best <= k /\ ((forall j, j < k -> ~ passes w poly (lane_of j (firstn K decoded))) -> best = k)).
Proof.
  intros w poly o W P MAX_M soft hard maps rank out received frozen level K Hw Hp HT HO BE HB HK.
  destruct (C44_every_lane_is_a_path W P MAX_M soft hard maps rank out received frozen level BE HB ltac:(fold K; lia)) as (s' & h' & ms' & dec & metric & real & ED & LD & LM & LN & _).
  fold K in ED. fold K in LD. assert (FA : firstn K (dec ++ skipn K out) = dec) by (rewrite firstn_app, LD, Nat.sub_diag, firstn_O, app_nil_r; apply firstn_all2; lia).
  destruct (C88_selects_the_first w poly o W K (dec ++ skipn K out) Hw Hp HO) as (o' & best & error & ES & HO' & S1 & S2).
  - rewrite app_length. lia.
  - intros i Hi. rewrite app_nth1 by lia. destruct W as [|W']; [lia|]. destruct (LN W' ltac:(lia)) as (_ & F & _). assert (X := nth_pm1 W' dec i F ltac:(lia)). lia.
  - eexists _, _, _, _, _, o', best, error. split; [exact ED|]. split; [exact ES|]. split; [exact HO'|]. rewrite FA in *. split; [|split; [exact S2|]].
    + intros EF. destruct (S1 EF) as (B & PB & _). split; [exact B|]. destruct (LN best B) as (LB & F & _). destruct (C88_passing_words w poly (lane_of best dec) Hw Hp HT F) as (data & v & A1 & A2 & A3); [unfold lane_of; rewrite map_length; lia|exact PB|].
      exists data, v. fold K in LB. rewrite LB in A1. auto.
    + intros k message Hk EL PM. subst message. destruct error.
      * exfalso. destruct (S2 eq_refl) as (_ & N). exact (N k Hk PM).
      * destruct (S1 eq_refl) as (B & PB & N). split; [reflexivity|]. split; [destruct (Nat.lt_ge_cases k best) as [L|L]; [destruct (N k L PM)|exact L]|].
        intros NJ. destruct (Nat.lt_ge_cases k best) as [L|L]; [destruct (N k L PM)|]. destruct (Nat.eq_dec best k) as [?|NE]; [assumption|]. destruct (NJ best ltac:(lia) PB).
Qed.
Print Assumptions C88_any_received_plain.

(** the regression test's CRC, table and parity symbols: 1024 positions, 716 unfrozen, 21 parity symbols, 663 bits of data *)
Example C88_nonvacuous_test : (0xD419CC15 < 2 ^ 32)%N /\ N.testbit 0xD419CC15 (32 - 1) = true /\
  (f <- freeze_sequence (repeat 0%N 32) 308 ;; Ok (payload (parity_roles 32 (flags f 1024) 23))) = Ok (663 + N.to_nat 32).
Proof. vm_compute. auto. Qed.
Definition ex_frozen : list N := [18290559%N].
Definition ex_data : list bool := [true; false; true; true; false; false; true; false].
(** three strong errors, and none *)
Definition ex_noise (cw : list Z) : list Z := map (fun p => (snd p * (Z.of_nat (1 + fst p * 7 mod 11)%nat - (if existsb (Nat.eqb (fst p)) [0; 5; 9]%nat then 12 else 0)))%Z) (combine (seq 0 32) cw).
Definition ex_quiet (cw : list Z) : list Z := map (fun p => (snd p * Z.of_nat (1 + fst p * 7 mod 11)%nat)%Z) (combine (seq 0 32) cw).
Definition ex_chain (channel : list Z -> list Z) : res (nat * bool * list bool) :=
  o <- crc_new 8 184 77 ;; '(o, m) <- crc_attach o 8 (repeat 0%Z 16) ex_data ;; cw <- polar_encode ops8 (repeat 0%Z 32) m ex_frozen 5 ;;
  '(_, _, _, _, out) <- list_decode 8 (ops8v 8) 5 (repeat [] 64) (repeat [] 32) (repeat [] 32) (Some (repeat 9%Z 8)) (repeat [] 16) (channel cw) ex_frozen 5 ;;
  '(_, best, error) <- crc_select o 8 16 out ;; Ok (best, error, map negative (firstn 8 (lane_of best out))).
Definition ex_parity_chain (channel : list Z -> list Z) : res (nat * bool * list bool) :=
  o <- crc_new 8 184 77 ;; '(o, m) <- crc_attach o 8 (repeat 0%Z 13) (firstn 5 ex_data) ;; cw <- parity_encode ops8 (repeat 0%Z 32) m ex_frozen 5 4 4 ;;
  '(_, _, _, _, out) <- parity_decode 8 (ops8v 8) 5 (repeat [] 64) (repeat [] 32) (repeat [] 32) None (repeat [] 13) (channel cw) ex_frozen 5 4 4 ;;
  '(_, best, error) <- crc_select o 8 13 out ;; Ok (best, error, map negative (firstn 5 (lane_of best out))).
Example C88_nonvacuous : crc_object 8 184 (crc_reset (match crc_new 8 184 0 with Ok o => o | _ => {| crc_w := 0; crc_lut := []; crc_poly := 0; crc_reg := 0 |} end) 200) /\
  N.testbit 184 (8 - 1) = true /\ unfrozen (flags ex_frozen 32) = 8 + 8 /\ payload (parity_roles 4 (flags ex_frozen 32) 4) = 5 + 8 /\
  list_buffers 8 5 (repeat [] 64) (repeat [] 32) (repeat [] 32) (Some (repeat 9%Z 8)) (repeat [] 16) (ex_quiet (repeat 1%Z 32)) ex_frozen 5 16 /\
  ex_chain ex_quiet = Ok (0, false, ex_data) /\
  (* with the errors the sent message is lane 1, and the CRC finds it *)
  ex_chain ex_noise = Ok (1, false, ex_data) /\
  ex_chain (fun _ => map (fun i => (Z.of_nat (i * i mod 13) - 6)%Z) (seq 0 32)) = Ok (0, true, [false; false; false; true; false; true; true; true]) /\
  ex_parity_chain ex_quiet = Ok (0, false, firstn 5 ex_data).
Proof.
  split; [eexists _, 200%N; split; [vm_compute; reflexivity|split; [reflexivity|vm_compute; reflexivity]]|]. split; [reflexivity|]. split; [vm_compute; reflexivity|]. split; [vm_compute; reflexivity|].
  split; [|split; [vm_compute; reflexivity|split; [vm_compute; reflexivity|split; vm_compute; reflexivity]]].
  small_buffers.
  - cbn. lia.
  - intros r E. injection E as <-. cbn. lia.
  - apply Forall_forall. intros x Hx. vm_compute in Hx. unfold int8. repeat (destruct Hx as [<-|Hx]; [lia|]). destruct Hx.
  - constructor; [reflexivity|constructor].
Qed.
