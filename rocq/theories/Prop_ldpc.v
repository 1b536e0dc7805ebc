(** Properties C38, C39, C56 and C57: ldpc_encoder.hh and ldpc_decoder.hh. *)
From Coq Require Import ZifyBool Permutation Sorted.
From Verif Require Import Cpp Model_simd Model_ldpc Spec_ldpc Lib_list Proof_bits Proof_simd Proof_ldpc1 Proof_ldpc2 Proof_ldpc3 Proof_ldpc4 Proof_ldpc5 Proof_ldpc6 Proof_ldpc7 Proof_ldpc8 Proof_ldpc9 Proof_ldpc10 Proof_ldpc11.
Local Open Scope nat_scope.
Ltac Zify.zify_post_hook ::= idtac.

(** C38: for every table the constructor succeeds and the parity computed from any +1/-1 data satisfies every check *)
Theorem C38_encoder_satisfies_every_check : forall T, table_ok T ->
  exists enc, ldpc_encoder T = Ok enc /\
  forall data parity, length data = t_K T -> length parity = t_R T -> Forall (fun x => x = 1%Z \/ x = (-1)%Z) data ->
  exists parity', ldpc_encode T enc data parity = Ok parity' /\ length parity' = t_R T /\
    Forall (fun x => x = 1%Z \/ x = (-1)%Z) parity' /\ satisfies T data parity'.
Proof.
  intros T OK. destruct (encoder_ok T OK) as (pos & cnc & E & HC & HG). exists (pos, cnc). split; [exact E|].
  intros data parity Ld Lp F. destruct (encode_ok T OK pos cnc data parity HC HG Ld Lp F) as (par & E2 & L2 & _).
  exists par. split; [exact E2|]. apply (encoder_checks T OK pos cnc data parity par HC HG Ld Lp F E2).
Qed.
Print Assumptions C38_encoder_satisfies_every_check.

(** C38: the parity is determined by the data: two words of +1/-1 parities that satisfy every check for the same data
    are equal *)
Lemma sgn_pm x : x = 1%Z \/ x = (-1)%Z -> Z.sgn x = x.
Proof. intros [-> | ->]; reflexivity. Qed.
Lemma check_step T d p1 p2 p : check_holds (t_M T) (t_q T) (t_R T) (rows_of T) d p1 p ->
  check_holds (t_M T) (t_q T) (t_R T) (rows_of T) d p2 p ->
  (if Nat.eqb p 0 then 1%Z else Z.sgn (nth (p - 1) p1 0%Z)) = (if Nat.eqb p 0 then 1%Z else Z.sgn (nth (p - 1) p2 0%Z)) ->
  Z.sgn (nth p p1 0%Z) = Z.sgn (nth p p2 0%Z).
Proof.
  unfold check_holds. intros H1 H2 E. rewrite E in H1.
  set (a := sign_product _ _) in *. set (b := if Nat.eqb p 0 then 1%Z else Z.sgn (nth (p - 1) p2 0%Z)) in *. clearbody a b.
  set (x := Z.sgn (nth p p1 0%Z)) in *. set (y := Z.sgn (nth p p2 0%Z)) in *. clearbody x y.
  assert (a * b * x = 1)%Z as A by (rewrite <- H1; ring). assert (a * b * y = 1)%Z as B by (rewrite <- H2; ring).
  transitivity (x * (a * b * y))%Z; [rewrite B; ring|]. transitivity (y * (a * b * x))%Z; [ring|]. rewrite A. ring.
Qed.
Theorem C38_parity_is_determined : forall T data parity parity',
  length parity = t_R T -> length parity' = t_R T ->
  Forall (fun x => x = 1%Z \/ x = (-1)%Z) parity -> Forall (fun x => x = 1%Z \/ x = (-1)%Z) parity' ->
  satisfies T data parity -> satisfies T data parity' -> parity = parity'.
Proof.
  intros T data p1 p2 L1 L2 F1 F2 S1 S2.
  assert (forall p, p < t_R T -> nth p p1 0%Z = nth p p2 0%Z) as H.
  { induction p as [|p IH]; intros Hp;
      (rewrite <- (sgn_pm (nth _ p1 0%Z)), <- (sgn_pm (nth _ p2 0%Z));
        [|rewrite Forall_nth in F2; apply F2; lia|rewrite Forall_nth in F1; apply F1; lia]).
    - apply (check_step T data p1 p2 0 (S1 _ Hp) (S2 _ Hp)). reflexivity.
    - apply (check_step T data p1 p2 (S p) (S1 _ Hp) (S2 _ Hp)). cbn [Nat.eqb]. rewrite Nat.sub_succ, Nat.sub_0_r.
      rewrite IH by lia. reflexivity. }
  apply nth_ext with (d := 0%Z) (d' := 0%Z); [lia|]. intros n Hn. apply H. lia.
Qed.
Print Assumptions C38_parity_is_determined.

(** C38: the encoder is linear: the parity of the elementwise product of two data words (the sum of the bits) is the
    elementwise product of their parities *)
Definition times (a b : list Z) : list Z := map2 Z.mul a b.
Lemma nth_times a b i : length a = length b -> nth i (times a b) 0%Z = (nth i a 0 * nth i b 0)%Z.
Proof.
  revert b i. induction a as [|x a IH]; intros [|y b] [|i] H; try discriminate; try reflexivity.
  cbn. apply IH. injection H as H. exact H.
Qed.
Lemma length_times a b : length a = length b -> length (times a b) = length a.
Proof. revert b. induction a as [|x a IH]; intros [|y b] H; try discriminate; [reflexivity|]. cbn. f_equal. apply IH. injection H as H. exact H. Qed.
Lemma sign_product_times a b l : length a = length b -> sign_product (times a b) l = (sign_product a l * sign_product b l)%Z.
Proof.
  intros H. induction l as [|u l IH]; [reflexivity|]. cbn [sign_product fold_right]. fold (sign_product (times a b) l).
  fold (sign_product a l). fold (sign_product b l). rewrite IH, nth_times by exact H. rewrite Z.sgn_mul. ring.
Qed.
Lemma times_pm a b : Forall (fun x => x = 1%Z \/ x = (-1)%Z) a -> Forall (fun x => x = 1%Z \/ x = (-1)%Z) b ->
  Forall (fun x => x = 1%Z \/ x = (-1)%Z) (times a b).
Proof.
  intros Fa. revert b. induction Fa as [|x a Hx Fa IH]; intros b Fb; [constructor|].
  destruct Fb as [|y b Hy Fb]; [constructor|]. cbn. constructor; [|apply IH; exact Fb].
  destruct Hx as [-> | ->], Hy as [-> | ->]; auto.
Qed.
Theorem C38_encoder_is_linear : forall T, table_ok T -> exists enc, ldpc_encoder T = Ok enc /\
  forall data1 data2 junk1 junk2 junk parity1 parity2,
    length data1 = t_K T -> length data2 = t_K T -> length junk1 = t_R T -> length junk2 = t_R T -> length junk = t_R T ->
    Forall (fun x => x = 1%Z \/ x = (-1)%Z) data1 -> Forall (fun x => x = 1%Z \/ x = (-1)%Z) data2 ->
    ldpc_encode T enc data1 junk1 = Ok parity1 -> ldpc_encode T enc data2 junk2 = Ok parity2 ->
    ldpc_encode T enc (times data1 data2) junk = Ok (times parity1 parity2).
Proof.
  intros T OK. destruct (C38_encoder_satisfies_every_check T OK) as (enc & E & H). exists enc. split; [exact E|].
  intros d1 d2 j1 j2 j p1 p2 Ld1 Ld2 Lj1 Lj2 Lj F1 F2 E1 E2.
  destruct (H d1 j1 Ld1 Lj1 F1) as (q1 & E1' & L1 & P1 & S1). rewrite E1 in E1'. injection E1' as <-.
  destruct (H d2 j2 Ld2 Lj2 F2) as (q2 & E2' & L2 & P2 & S2). rewrite E2 in E2'. injection E2' as <-.
  destruct (H (times d1 d2) j) as (q & Eq & Lq & Pq & Sq); [rewrite length_times; lia|exact Lj|apply times_pm; assumption|].
  rewrite Eq. f_equal.
  apply (C38_parity_is_determined T (times d1 d2)); [exact Lq|rewrite length_times; lia|exact Pq|apply times_pm; assumption|exact Sq|].
  intros p Hp. specialize (S1 p Hp). specialize (S2 p Hp). unfold check_holds in *.
  rewrite sign_product_times by lia. rewrite !nth_times by lia. rewrite !Z.sgn_mul.
  pose proof (f_equal2 Z.mul S1 S2) as SS. change (1 * 1)%Z with 1%Z in SS. etransitivity; [|exact SS]. destruct (Nat.eqb p 0); ring.
Qed.
Print Assumptions C38_encoder_is_linear.

Lemma vecs_lanes D L a : vecs D L a <-> lanes D L a.
Proof.
  unfold vecs, lanes, vec. split; intros (Hl & H); (split; [exact Hl|]).
  - apply Forall_nth. intros i d Hi. rewrite nth_indep with (d' := []) by exact Hi. apply H. lia.
  - intros x Hx. rewrite Forall_nth in H. apply H. lia.
Qed.
Lemma shaped_object T D s : shaped T D s <-> object_ok T D s.
Proof.
  unfold shaped. rewrite !vecs_lanes. split.
  - intros (A & B & C & E). constructor; assumption.
  - intros [A B C E]. auto.
Qed.

(** C39: for every well-formed table and word size, every object (whatever earlier calls left in it), all soft inputs
    and every trial count, the decoder terminates, returns the number of remaining trials (or -1), and the result is
    non-negative exactly when the signs of its output satisfy all checks; words that satisfy them are returned
    unchanged with the trial count untouched *)
Theorem C39_result_tells_whether_all_checks_hold : forall T D BETA srt, decoder_ok T D -> (0 <= BETA <= 255)%Z ->
  (forall l, Permutation (srt l) l) ->
  exists C wd, ldpc_decoder T D srt = Ok (C, wd) /\ length wd = d_PTY T D /\
  forall s message parity trials, object_ok T D s ->
    length message = t_K T -> length parity = t_R T -> Forall int8 message -> Forall int8 parity ->
    (- 2147483648 < trials <= 2147483647)%Z ->
  exists s' message' parity' result,
    ldpc_decode T D BETA C s message parity trials = Ok (s', message', parity', result) /\ object_ok T D s' /\
    length message' = t_K T /\ length parity' = t_R T /\ Forall int8 message' /\ Forall int8 parity' /\
    (satisfies T message parity -> message' = message /\ parity' = parity /\ result = trials) /\
    ((0 <= trials)%Z ->
       (0 <= result <= trials)%Z /\ satisfies T message' parity' \/ result = (-1)%Z /\ ~ satisfies T message' parity') /\
    ((trials < 0)%Z -> message' = message /\ parity' = parity /\ (result < 0)%Z).
Proof.
  intros T D BETA srt DOK HB Hsrt. destruct (decoder_ctor T D DOK srt Hsrt) as (C & wd & E & HC & HS & Lw & _).
  exists C, wd. split; [exact E|]. split; [exact Lw|]. intros s message parity trials Hs Lm Lp Fm Fp Ht.
  apply shaped_object in Hs.
  destruct (decode_ok T D DOK BETA HB C HC HS s message parity trials Hs Lm Lp Fm Fp Ht)
    as (s' & m' & p' & t & E2 & Hs' & _ & L1 & L2 & F1 & F2 & H1 & H2 & H3).
  exists s', m', p', t. apply shaped_object in Hs'. split; [exact E2|]. split; [exact Hs'|]. split; [exact L1|]. split; [exact L2|].
  split; [exact F1|]. split; [exact F2|]. split; [exact H1|]. split; [exact H2|].
  intros Hneg. destruct (H3 Hneg) as (A & B & Ct). split; [exact A|]. split; [exact B|]. lia.
Qed.
Print Assumptions C39_result_tells_whether_all_checks_hold.

Lemma sign_product_same T p a b : (forall u, In u (links (t_M T) (t_q T) (t_R T) (rows_of T) p) -> Z.sgn (nth u a 0%Z) = Z.sgn (nth u b 0%Z)) ->
  sign_product a (links (t_M T) (t_q T) (t_R T) (rows_of T) p) = sign_product b (links (t_M T) (t_q T) (t_R T) (rows_of T) p).
Proof.
  generalize (links (t_M T) (t_q T) (t_R T) (rows_of T) p). induction l as [|u l IH]; intros H; [reflexivity|].
  cbn [sign_product fold_right]. rewrite (H u) by (left; reflexivity). f_equal. apply IH. intros v Hv. apply H. right; exact Hv.
Qed.

(** C39: in particular every noiseless version of an encoded word passes *)
Theorem C39_encoded_words_pass : forall T D BETA srt, decoder_ok T D -> (0 <= BETA <= 255)%Z ->
  (forall l, Permutation (srt l) l) ->
  exists enc C wd, ldpc_encoder T = Ok enc /\ ldpc_decoder T D srt = Ok (C, wd) /\
  forall s data parity message soft trials, object_ok T D s ->
    length data = t_K T -> length parity = t_R T -> Forall (fun x => x = 1%Z \/ x = (-1)%Z) data ->
    length message = t_K T -> length soft = t_R T -> Forall int8 message -> Forall int8 soft ->
    (- 2147483648 < trials <= 2147483647)%Z ->
    map Z.sgn message = data -> ldpc_encode T enc data parity = Ok (map Z.sgn soft) ->
  exists s', ldpc_decode T D BETA C s message soft trials = Ok (s', message, soft, trials).
Proof.
  intros T D BETA srt DOK HB Hsrt.
  destruct (C38_encoder_satisfies_every_check T (ok_table T D DOK)) as (enc & Ee & He).
  destruct (C39_result_tells_whether_all_checks_hold T D BETA srt DOK HB Hsrt) as (C & wd & Ec & Lw & Hd).
  exists enc, C, wd. split; [exact Ee|]. split; [exact Ec|].
  intros s data parity message soft trials Hs Ld Lp Fd Lm Lsf Fm Fs Ht Em Es.
  destruct (He data parity Ld Lp Fd) as (par & E1 & L1 & _ & Hsat). rewrite Es in E1. injection E1 as E1.
  destruct (Hd s message soft trials Hs Lm Lsf Fm Fs Ht) as (s' & m' & p' & r & E2 & _ & _ & _ & _ & _ & H & _).
  destruct H as (-> & -> & ->); [|exists s'; exact E2].
  intros p Hp. specialize (Hsat p Hp). unfold check_holds in *. refine (eq_trans _ Hsat). rewrite <- E1, <- Em.
  assert (forall l k, Z.sgn (nth k (map Z.sgn l) 0%Z) = Z.sgn (nth k l 0%Z)) as Hss.
  { intros l k. change 0%Z with (Z.sgn 0) at 1. rewrite map_nth. destruct (nth k l 0%Z); reflexivity. }
  rewrite !Hss. do 2 f_equal. apply sign_product_same. intros u _. symmetry. apply Hss.
Qed.
Print Assumptions C39_encoded_words_pass.

(** ** C56 *)
Lemma moved_cell T D (DOK : decoder_ok T D) j n v : j < d_W T D -> n < D ->
  fst (locof T D (moved (t_M T) j v)) = word_of T D (moved (t_M T) (d_W T D * n + j) v) /\
  (n + snd (locof T D (moved (t_M T) j v))) mod D = lane_of T D (moved (t_M T) (d_W T D * n + j) v).
Proof.
  intros Hj Hn. set (M := t_M T). set (W := d_W T D) in *.
  pose proof (ok_M T (ok_table T D DOK)) as HM. fold M in HM. pose proof (W_pos T D DOK) as HW. fold W in HW. pose proof (D_pos T D DOK) as HD.
  pose proof (M_WD T D DOK) as EM. fold W M in EM. pose proof (Wn_lt T D DOK n j Hn Hj) as Hlt. fold W M in Hlt.
  unfold locof, word_of, lane_of. fold W M. cbn [fst snd].
  destruct (moved_parts T D DOK j v) as [E1 E2]. fold M in E1, E2. rewrite E2, E1. rewrite sub_mod_eq by lia.
  destruct (moved_parts T D DOK (W * n + j) v) as [P1 P2]. fold M in P1, P2. rewrite P1.
  assert (moved M (W * n + j) v / M = v / M) as ->.
  { unfold moved. rewrite sub_mod_eq by lia. apply (qdm M). apply Nat.mod_upper_bound; lia. }
  set (s := (v mod M + j) mod M).
  assert ((v mod M + (W * n + j)) mod M = W * ((n + s / W) mod D) + s mod W) as ->.
  { replace (v mod M + (W * n + j)) with ((v mod M + j) + W * n) by lia.
    rewrite <- Nat.add_mod_idemp_l by lia. fold s. rewrite EM.
    rewrite (Nat.div_mod s W) at 1 by lia.
    replace (W * (s / W) + s mod W + W * n) with (W * (n + s / W) + s mod W) by lia.
    rewrite (Nat.mul_comm W D). apply qM_mod; [apply Nat.mod_upper_bound; lia|exact HD]. }
  assert (s mod W < W) as HsW by (apply Nat.mod_upper_bound; lia).
  destruct (qdm W ((n + s / W) mod D) (s mod W) HsW) as [-> ->]. split; [|reflexivity]. f_equal.
  rewrite EM at 1. replace (W * D * (v / M)) with (W * (v / M) * D) by lia. apply Nat.div_mul. lia.
Qed.
Lemma data_links_cl T (OK : table_ok T) i : i < t_q T -> data_links T i = length (cls (t_M T) (t_q T) i 0 (rows_of T)).
Proof.
  intros Hi. pose proof (links_at T OK i 0 Hi (ok_M T OK)) as H. rewrite Nat.mul_0_r in H. cbn [Nat.add] in H.
  unfold data_links. rewrite H. apply map_length.
Qed.
Lemma link_start_base T D (OK : table_ok T) i j : i < t_q T -> link_start T D i j = base T D i j.
Proof.
  intros Hi. unfold link_start, base, csum. rewrite (data_links_cl T OK i Hi). do 2 f_equal.
  assert (forall k, k <= i -> fold_right (fun i' s => data_links T i' + s) 0 (seq 0 k) =
    nsum (fun n => length (cls (t_M T) (t_q T) n 0 (rows_of T))) k) as H; [|apply H; lia].
  induction k as [|k IH]; intros Hk; [reflexivity|]. rewrite seq_S. cbn [nsum Nat.add]. rewrite <- IH by lia.
  rewrite <- (data_links_cl T OK k) by lia. rewrite fold_right_app. cbn [fold_right].
  generalize (seq 0 k). induction l as [|x l IHl]; cbn [fold_right]; [lia|]. rewrite IHl. lia.
Qed.

(** C56: one layer of an iteration is offset min-sum with self-correction, simultaneously for the D checks of the
    layer.  For check [p] there is an order of its data links such that, with [old] the stored messages and [xs] the
    values on all the links of the check (data, own parity, preceding parity) minus the old messages: every link that
    may write gets the self-corrected min-sum message, disabled ones keep the old; the parities become value plus
    message; so does the data bit of the last link that may write to its word; everything else is unchanged. *)
Theorem C56_layer_is_offset_min_sum : forall T D BETA srt, decoder_ok T D -> (0 <= BETA <= 255)%Z ->
  (forall l, Permutation (srt l) l) -> 1 < d_W T D * t_q T ->
  exists C wd0, ldpc_decoder T D srt = Ok (C, wd0) /\
  forall i j s, object_ok T D s -> i < t_q T -> j < d_W T D ->
  let W := d_W T D in
  let cnt := data_links T i in
  let start := message_start T D i j in
  let may_write := fun k => k < cnt -> N.testbit (nth (W * i + j) (ls_wd s) 0%N) (N.of_nat k) = false in
  let data := msg_view T D (ls_msg s) in
  let parity := pty_view T D (ls_pty s) in
  exists s', ldpc_layer T D BETA C cnt i j (start, link_start T D i j, s) =
      Ok (message_start T D i (S j), link_start T D i (S j), s') /\ object_ok T D s' /\
    let data' := msg_view T D (ls_msg s') in
    let parity' := pty_view T D (ls_pty s') in
    (forall y n, y < start \/ start + (cnt + 2) <= y -> lane (ls_bnl s') y n = lane (ls_bnl s) y n) /\
    (forall u, u < t_K T ->
       (forall n u', n < D ->
          In u' (links (t_M T) (t_q T) (t_R T) (rows_of T) (t_q T * (W * n + j) + i)) -> word_of T D u' <> word_of T D u) ->
       nth u data' 0%Z = nth u data 0%Z) /\
    (forall p, p < t_R T ->
       (forall n, n < D -> p <> t_q T * (W * n + j) + i /\ S p <> t_q T * (W * n + j) + i) ->
       nth p parity' 0%Z = nth p parity 0%Z) /\
    forall n, n < D ->
    let p := t_q T * (W * n + j) + i in
    exists order, Permutation order (links (t_M T) (t_q T) (t_R T) (rows_of T) p) /\ length order = cnt /\
      let old := fun k => lane (ls_bnl s) (start + k) n in
      let value := fun k => if k <? cnt then nth (nth k order 0) data 0%Z
                            else if k =? cnt then nth p parity 0%Z
                            else if p =? 0 then 127%Z else nth (p - 1) parity 0%Z in
      let xs := map (fun k => saturate (value k - old k)) (seq 0 (cnt + 2)) in
      let new := fun k => self_corrected (old k) (node_message BETA xs k) in
      let updated := fun k => saturate (nth k xs 0%Z + new k) in
      (forall k, k < cnt + 2 -> may_write k -> lane (ls_bnl s') (start + k) n = new k) /\
      (forall k, k < cnt + 2 -> ~ may_write k -> lane (ls_bnl s') (start + k) n = old k) /\
      nth p parity' 0%Z = updated cnt /\
      (p <> 0 -> nth (p - 1) parity' 0%Z = updated (cnt + 1)) /\
      (forall k, k < cnt -> may_write k ->
         (forall k', k < k' < cnt -> may_write k' -> word_of T D (nth k' order 0) <> word_of T D (nth k order 0)) ->
         nth (nth k order 0) data' 0%Z = updated k).
Proof.
  intros T D BETA srt DOK HB Hsrt HWq. pose proof (ok_table T D DOK) as OK.
  destruct (decoder_ctor T D DOK srt Hsrt) as (C & wd & E & HC & HS & Lw & _).
  exists C, wd. split; [exact E|]. intros i j s Hs Hi Hj. cbv zeta. apply shaped_object in Hs.
  assert (data_links T i = length (cls (t_M T) (t_q T) i 0 (rows_of T))) as EC by (apply data_links_cl; assumption).
  assert (link_start T D i j = base T D i j) as EL by (apply link_start_base; assumption).
  assert (link_start T D i (S j) = base T D i (S j)) as EL' by (apply link_start_base; assumption).
  assert (message_start T D i j = bbase T D i j) as EB by (unfold message_start, bbase; rewrite EL; reflexivity).
  assert (message_start T D i (S j) = bbase T D i (S j)) as EB' by (unfold message_start, bbase; rewrite EL'; reflexivity).
  rewrite EC, EL, EL', EB, EB'.
  destruct (layer_ok T D DOK BETA HB C HS i j s Hs Hi Hj) as (s' & E1 & Hs' & _ & Hb & Hm & Hp).
  set (cnt := length (cls (t_M T) (t_q T) i 0 (rows_of T))) in *.
  set (w := nth (d_W T D * i + j) (ls_wd s) 0%N) in *.
  exists s'. split; [exact E1|]. split; [apply shaped_object; exact Hs'|].
  assert (forall k, (k < cnt -> N.testbit w (N.of_nat k) = false) <-> enabled T w i k = true) as Hen.
  { intros k. unfold enabled. fold cnt. split.
    - intros H. destruct (Nat.leb_spec cnt k); [reflexivity|]. rewrite H by lia. reflexivity.
    - intros H Hk. destruct (Nat.leb_spec cnt k); [lia|]. destruct (N.testbit w (N.of_nat k)); [discriminate|reflexivity]. }
  assert (exists l', seg T D (lc_loc C) i j = map (fun v => locof T D (moved (t_M T) j v)) l' /\
    Permutation (cls (t_M T) (t_q T) i 0 (rows_of T)) l') as (l' & El' & Pl').
  { destruct (Permutation_map_inv _ _ (proj2 HS i j Hi Hj I)) as (l' & E2 & P2). exists l'. auto. }
  assert (length l' = cnt) as Ll' by (rewrite <- (Permutation_length Pl'); reflexivity).
  assert (forall k, k < cnt -> link_at T D C i j k = locof T D (moved (t_M T) j (nth k l' 0))) as Hlink.
  { intros k Hk. rewrite <- (nth_map1 (fun v => locof T D (moved (t_M T) j v)) l' k 0 (0, 0)) by lia. rewrite <- El'.
    unfold seg, link_at. fold cnt. rewrite nth_firstn'. replace (k <? cnt) with true by lia. rewrite nth_skipn'. reflexivity. }
  assert (forall n, n < D -> links (t_M T) (t_q T) (t_R T) (rows_of T) (t_q T * (d_W T D * n + j) + i) =
    map (moved (t_M T) (d_W T D * n + j)) (cls (t_M T) (t_q T) i 0 (rows_of T))) as Hlinks.
  { intros n Hn. apply (links_at T OK); [exact Hi|]. apply (Wn_lt T D DOK); assumption. }
  assert (forall k n, k < cnt -> n < D -> moved (t_M T) (d_W T D * n + j) (nth k l' 0) < t_K T) as HmK.
  { intros k n Hk Hn. rewrite (ok_K T OK). apply moved_bound; [apply (ok_M T OK)|]. rewrite <- (ok_K T OK).
    apply (cl_bound T OK i). apply (Permutation_in _ (Permutation_sym Pl')). apply nth_In. lia. }
  split; [|split; [|split]].
  - intros y n Hy. apply (proj2 Hb). intros k' Hk'. lia.
  - intros u Hu Hno. rewrite !nth_msg_view by exact Hu. apply (proj2 (Hm (word_of T D u))).
    intros k Hk Hkc Hek Ew. assert (0 < D) as HD0 by (apply (D_pos T D DOK)).
    apply (Hno 0 (moved (t_M T) (d_W T D * 0 + j) (nth k l' 0)) HD0).
    + rewrite (Hlinks 0 HD0). apply in_map. apply (Permutation_in _ (Permutation_sym Pl')). apply nth_In. lia.
    + rewrite <- Ew, Hlink by exact Hkc. symmetry. apply (moved_cell T D DOK); [exact Hj|exact HD0].
  - intros p Hpp Hall. apply (proj2 (proj2 (proj2 Hp)) p Hpp). exact Hall.
  - intros n Hn. exists (map (moved (t_M T) (d_W T D * n + j)) l').
    set (order := map (moved (t_M T) (d_W T D * n + j)) l').
    assert (forall k, k < cnt -> nth k order 0 = moved (t_M T) (d_W T D * n + j) (nth k l' 0)) as Hord.
    { intros k Hk. unfold order. apply nth_map1. lia. }
    split; [rewrite (Hlinks n Hn); unfold order; apply Permutation_map; apply Permutation_sym; exact Pl'|].
    split; [unfold order; rewrite map_length; exact Ll'|].
    change (t_q T * (d_W T D * n + j) + i) with (d_pty_at T D i j n).
    set (data := msg_view T D (ls_msg s)) in *. set (parity := pty_view T D (ls_pty s)) in *.
    set (value := fun k => if k <? cnt then nth (nth k order 0) data 0%Z
                   else if k =? cnt then nth (d_pty_at T D i j n) parity 0%Z
                   else if d_pty_at T D i j n =? 0 then 127%Z else nth (d_pty_at T D i j n - 1) parity 0%Z).
    assert (forall k, k < cnt -> lane_of T D (nth k order 0) = (n + snd (link_at T D C i j k)) mod D /\
              word_of T D (nth k order 0) = fst (link_at T D C i j k)) as Hcell.
    { intros k Hk. rewrite (Hord k Hk), (Hlink k Hk). destruct (moved_cell T D DOK j n (nth k l' 0) Hj Hn) as (A & B). split; congruence. }
    assert (forall k, k < cnt + 2 -> fetched T D C (ls_msg s) (ls_pty s) i j k n = value k) as Hf.
    { intros k Hk. unfold fetched, value. fold cnt. destruct (Nat.ltb_spec k cnt) as [Hlt|]; [|reflexivity].
      fold (link_at T D C i j k). unfold data. rewrite nth_msg_view by (rewrite (Hord k Hlt); apply HmK; assumption).
      destruct (Hcell k Hlt) as (A & B). unfold word_of, lane_of in A, B. rewrite A, B. reflexivity. }
    assert (arrivals T D C (ls_bnl s) (ls_msg s) (ls_pty s) i j n =
      map (fun k => saturate (value k - lane (ls_bnl s) (bbase T D i j + k) n)) (seq 0 (cnt + 2))) as Harr.
    { unfold arrivals. fold cnt. apply map_ext_in. intros k Hk. apply in_seq in Hk. unfold arriving. rewrite Hf by lia. reflexivity. }
    unfold value in Harr. cbv beta. rewrite <- Harr.
    assert (forall k, k < cnt + 2 -> result T D C BETA (ls_bnl s) (ls_msg s) (ls_pty s) i j n k =
      saturate (nth k (arrivals T D C (ls_bnl s) (ls_msg s) (ls_pty s) i j n) 0%Z +
        self_corrected (lane (ls_bnl s) (bbase T D i j + k) n)
          (node_message BETA (arrivals T D C (ls_bnl s) (ls_msg s) (ls_pty s) i j n) k))) as Hres.
    { intros k Hk. unfold result, sent. rewrite arrivals_nth by exact Hk. reflexivity. }
    fold cnt in Hb, Hp. split; [|split; [|split; [|split]]].
    + intros k Hk Hw. apply Hen in Hw. rewrite (proj1 Hb) by assumption. rewrite Hw. replace (k <? cnt + 2) with true by lia. reflexivity.
    + intros k Hk Hw. rewrite (proj1 Hb) by assumption.
      destruct (enabled T w i k) eqn:Ee; [exfalso; apply Hw; apply Hen; exact Ee|]. rewrite andb_false_r. reflexivity.
    + rewrite <- Hres by lia. apply Hp; [lia|left; exact HWq|exact Hn].
    + intros Hp0. rewrite <- Hres by lia. apply Hp; [lia|exact Hn|exact Hp0].
    + intros k Hk Hw Hlast. rewrite <- Hres by lia. apply Hen in Hw.
      rewrite nth_msg_view by (rewrite (Hord k Hk); apply HmK; assumption).
      destruct (Hcell k Hk) as (A & B). unfold word_of, lane_of in A, B. rewrite A, B.
      apply (proj1 (Hm (fst (link_at T D C i j k)))); fold cnt; try assumption; try lia; try reflexivity.
      intros k2 G1 G2 G3 G4 G5. apply (Hlast k2 ltac:(lia)).
      * apply Hen. exact G4.
      * destruct (Hcell k Hk) as (_ & ->). destruct (Hcell k2 G3) as (_ & ->). exact G5.
Qed.
Print Assumptions C56_layer_is_offset_min_sum.

(** ** C57: which links may write *)
(** link [k] of layer [(i, j)] may write, and the word it writes to *)
Definition may_write (T : table) (D : nat) (wd : list N) (i j k : nat) : Prop :=
  k < data_links T i /\ N.testbit (nth (d_W T D * i + j) wd 0%N) (N.of_nat k) = false.
Definition link_word (T : table) (D : nat) (C : ldpc_const) (i j k : nat) : nat :=
  fst (nth (link_start T D i j + k) (lc_loc C) (0, 0)).

(** C57: in a new object exactly one link of each word of a layer may write, for every way of sorting by word *)
Theorem C57_one_writer_per_word_initially : forall T D srt, decoder_ok T D ->
  (forall l, Permutation (srt l) l) -> (forall l, StronglySorted (fun a b => fst a <= fst b) (srt l)) ->
  exists C wd, ldpc_decoder T D srt = Ok (C, wd) /\
  forall i j k, i < t_q T -> j < d_W T D -> k < data_links T i ->
  exists k', may_write T D wd i j k' /\ link_word T D C i j k' = link_word T D C i j k /\
    forall k2, may_write T D wd i j k2 -> link_word T D C i j k2 = link_word T D C i j k -> k2 = k'.
Proof.
  intros T D srt DOK Hsrt Hsort. pose proof (ok_table T D DOK) as OK.
  destruct (decoder_ctor T D DOK srt Hsrt) as (C & wd & E & HC & HS & Lw & Hmk & Hord).
  exists C, wd. split; [exact E|]. intros i j k Hi Hj Hk.
  unfold may_write, link_word. rewrite (link_start_base T D OK i j Hi). rewrite (data_links_cl T OK i Hi) in *.
  set (cnt := length (cls (t_M T) (t_q T) i 0 (rows_of T))) in *.
  destruct (Hord i j Hi Hj I) as (l0 & El0). specialize (Hsort l0). rewrite <- El0 in Hsort.
  pose proof (base_LOC T D DOK i j Hi Hj) as HbL. fold cnt in HbL.
  set (sg := seg T D (lc_loc C) i j) in *.
  assert (length sg = cnt) as Lsg by (unfold sg, seg; fold cnt; rewrite firstn_length, skipn_length, (proj1 HS); lia).
  assert (forall c, c < cnt -> nth (base T D i j + c) (lc_loc C) (0, 0) = nth c sg (0, 0)) as Hnth.
  { intros c Hc. unfold sg, seg. fold cnt. rewrite nth_firstn'. replace (c <? cnt) with true by lia. rewrite nth_skipn'. reflexivity. }
  assert (forall c, c < cnt -> N.testbit (nth (d_W T D * i + j) wd 0%N) (N.of_nat c) =
     (S c <? cnt) && (fst (nth c sg (0, 0)) =? fst (nth (S c) sg (0, 0)))) as Hbit.
  { intros c Hc. rewrite (Hmk i j c Hi Hj I). reflexivity. }
  assert (forall a b, a <= b -> b < cnt -> fst (nth a sg (0, 0)) <= fst (nth b sg (0, 0))) as Hle.
  { rewrite <- Lsg. clear - Hsort. induction Hsort as [|x l Hs IH F]; intros a b Hab Hb; cbn [length] in Hb; [lia|].
    destruct a as [|a], b as [|b]; cbn [nth]; try lia.
    - rewrite Forall_forall in F. apply F. apply nth_In. lia.
    - apply IH; lia. }
  clearbody sg.
  (* the last link with the word of [k] *)
  assert (exists k', k <= k' < cnt /\ fst (nth k' sg (0, 0)) = fst (nth k sg (0, 0)) /\
     forall c, k' < c -> c < cnt -> fst (nth c sg (0, 0)) <> fst (nth k sg (0, 0))) as (k' & B1 & B2 & B3).
  { assert (forall m, m <= cnt - k -> (exists k', k <= k' < cnt /\ fst (nth k' sg (0, 0)) = fst (nth k sg (0, 0)) /\
       (forall c, k' < c -> c < cnt -> fst (nth c sg (0, 0)) <> fst (nth k sg (0, 0)))) \/
       (forall c, cnt - m <= c -> c < cnt -> fst (nth c sg (0, 0)) <> fst (nth k sg (0, 0)))) as H.
    { induction m as [|m IHm]; intros Hm; [right; intros; lia|]. destruct (IHm ltac:(lia)) as [H|H]; [left; exact H|].
      destruct (Nat.eq_dec (fst (nth (cnt - S m) sg (0, 0))) (fst (nth k sg (0, 0)))) as [Eq|Hne].
      - left. exists (cnt - S m). split; [lia|]. split; [exact Eq|]. intros c Hc1 Hc2. apply H; lia.
      - right. intros c Hc1 Hc2. destruct (Nat.eq_dec c (cnt - S m)) as [->|]; [exact Hne|apply H; lia]. }
    destruct (H (cnt - k) ltac:(lia)) as [H1|H1]; [exact H1|]. exfalso. apply (H1 k ltac:(lia) Hk). reflexivity. }
  exists k'. split; [|split].
  - split; [lia|]. rewrite Hbit by lia. destruct (Nat.ltb_spec (S k') cnt) as [Hlt|]; [|reflexivity]. cbn [andb].
    destruct (Nat.eqb_spec (fst (nth k' sg (0, 0))) (fst (nth (S k') sg (0, 0)))) as [Eq|]; [|reflexivity].
    exfalso. apply (B3 (S k') ltac:(lia) Hlt). congruence.
  - rewrite !Hnth by lia. exact B2.
  - intros k2 (Hk2 & Hw2) Ew. rewrite !Hnth in Ew by lia. rewrite Hbit in Hw2 by exact Hk2.
    destruct (Nat.lt_trichotomy k2 k') as [Hlt|[->|Hgt]]; [|reflexivity|].
    + exfalso. replace (S k2 <? cnt) with true in Hw2 by lia. cbn [andb] in Hw2. apply Nat.eqb_neq in Hw2.
      pose proof (Hle k2 (S k2) ltac:(lia) ltac:(lia)). pose proof (Hle (S k2) k' ltac:(lia) ltac:(lia)). lia.
    + exfalso. apply (B3 k2 Hgt Hk2). exact Ew.
Qed.
Print Assumptions C57_one_writer_per_word_initially.

(** C57: links that share no word write in every iteration of every call *)
Theorem C57_single_links_always_write : forall T D BETA srt, decoder_ok T D -> (0 <= BETA <= 255)%Z ->
  (forall l, Permutation (srt l) l) ->
  exists C wd, ldpc_decoder T D srt = Ok (C, wd) /\
  forall i j, i < t_q T -> j < d_W T D ->
  (forall k k', k < k' < data_links T i -> link_word T D C i j k <> link_word T D C i j k') ->
  nth (d_W T D * i + j) wd 0%N = 0%N /\
  forall s message parity trials, object_ok T D s -> length message = t_K T -> length parity = t_R T ->
    Forall int8 message -> Forall int8 parity -> (- 2147483648 < trials <= 2147483647)%Z ->
    nth (d_W T D * i + j) (ls_wd s) 0%N = 0%N ->
    exists s' m' p' r, ldpc_decode T D BETA C s message parity trials = Ok (s', m', p', r) /\
      nth (d_W T D * i + j) (ls_wd s') 0%N = 0%N.
Proof.
  intros T D BETA srt DOK HB Hsrt. pose proof (ok_table T D DOK) as OK.
  destruct (decoder_ctor T D DOK srt Hsrt) as (C & wd & E & HC & HS & Lw & Hmk & Hord).
  exists C, wd. split; [exact E|]. intros i j Hi Hj Hdist. split.
  - apply N.bits_inj. intros x. rewrite N.bits_0. rewrite <- (N2Nat.id x). rewrite (Hmk i j (N.to_nat x) Hi Hj I).
    unfold disabled. set (c := N.to_nat x). set (cnt := length (cls (t_M T) (t_q T) i 0 (rows_of T))).
    destruct (Nat.ltb_spec (S c) cnt) as [Hlt|]; [|reflexivity]. cbn [andb]. apply Nat.eqb_neq.
    unfold link_word in Hdist. rewrite (link_start_base T D OK i j Hi) in Hdist. rewrite (data_links_cl T OK i Hi) in Hdist. fold cnt in Hdist.
    unfold seg. fold cnt. rewrite !nth_firstn'. replace (c <? cnt) with true by lia. replace (S c <? cnt) with true by lia.
    rewrite !nth_skipn'. apply Hdist. lia.
  - intros s message parity trials Hs Lm Lp Fm Fp Ht Hz. apply shaped_object in Hs.
    destruct (decode_ok T D DOK BETA HB C HC HS s message parity trials Hs Lm Lp Fm Fp Ht)
      as (s' & m' & p' & t & E2 & _ & Hy & _).
    exists s', m', p', t. split; [exact E2|]. apply Hy. exact Hz.
Qed.
Print Assumptions C57_single_links_always_write.

(** C57: how the permission to write moves on: in a call that makes [n] iterations the mask of every layer is turned
    [n] times; [n] is the difference of the trial counts *)
Theorem C57_masks_turn_once_per_iteration : forall T D BETA srt, decoder_ok T D -> (0 <= BETA <= 255)%Z ->
  (forall l, Permutation (srt l) l) ->
  exists C wd, ldpc_decoder T D srt = Ok (C, wd) /\
  forall s message parity trials, object_ok T D s -> length message = t_K T -> length parity = t_R T ->
    Forall int8 message -> Forall int8 parity -> (- 2147483648 < trials <= 2147483647)%Z ->
  exists s' m' p' r, ldpc_decode T D BETA C s message parity trials = Ok (s', m', p', r) /\
    forall i j, i < t_q T -> j < d_W T D ->
    turned_times (Z.to_nat trials - Z.to_nat r) (map (link_word T D C i j) (seq 0 (data_links T i)))
      (nth (d_W T D * i + j) (ls_wd s) 0%N) (nth (d_W T D * i + j) (ls_wd s') 0%N).
Proof.
  intros T D BETA srt DOK HB Hsrt. pose proof (ok_table T D DOK) as OK.
  destruct (decoder_ctor T D DOK srt Hsrt) as (C & wd & E & HC & HS & _).
  exists C, wd. split; [exact E|]. intros s message parity trials Hs Lm Lp Fm Fp Ht. apply shaped_object in Hs.
  destruct (decode_ok T D DOK BETA HB C HC HS s message parity trials Hs Lm Lp Fm Fp Ht) as (s' & m' & p' & t & E2 & _).
  exists s', m', p', t. split; [exact E2|]. intros i j Hi Hj.
  assert (map (link_word T D C i j) (seq 0 (data_links T i)) = words_of T D C (d_W T D * i + j)) as ->.
  { rewrite (words_of_at T D C i j Hj). unfold words_at, link_word. rewrite (data_links_cl T OK i Hi), (link_start_base T D OK i j Hi). reflexivity. }
  apply (decode_wd T D DOK C HS BETA HB HC s message parity trials s' m' p' t Hs Lm Lp Fm Fp Ht E2).
  rewrite (PTY_eq T D DOK). nia.
Qed.
Print Assumptions C57_masks_turn_once_per_iteration.

(** exactly one link of each word of layer [(i, j)] may write *)
Definition one_writer (T : table) (D : nat) (C : ldpc_const) (wd : list N) (i j : nat) : Prop :=
  forall k, k < data_links T i ->
  exists k', may_write T D wd i j k' /\ link_word T D C i j k' = link_word T D C i j k /\
    forall k2, may_write T D wd i j k2 -> link_word T D C i j k2 = link_word T D C i j k -> k2 = k'.
(** C57: in a layer whose last two links have the same word this remains so, through all calls *)
Theorem C57_one_writer_stays : forall T D BETA srt, decoder_ok T D -> (0 <= BETA <= 255)%Z ->
  (forall l, Permutation (srt l) l) -> (forall l, StronglySorted (fun a b => fst a <= fst b) (srt l)) ->
  exists C wd, ldpc_decoder T D srt = Ok (C, wd) /\
  forall i j, i < t_q T -> j < d_W T D ->
  (2 <= data_links T i -> link_word T D C i j (data_links T i - 2) = link_word T D C i j (data_links T i - 1)) ->
  one_writer T D C wd i j /\
  forall s message parity trials, object_ok T D s -> one_writer T D C (ls_wd s) i j ->
    length message = t_K T -> length parity = t_R T ->
    Forall int8 message -> Forall int8 parity -> (- 2147483648 < trials <= 2147483647)%Z ->
  exists s' m' p' r, ldpc_decode T D BETA C s message parity trials = Ok (s', m', p', r) /\
    object_ok T D s' /\ one_writer T D C (ls_wd s') i j.
Proof.
  intros T D BETA srt DOK HB Hsrt Hsort. pose proof (ok_table T D DOK) as OK.
  destruct (C57_one_writer_per_word_initially T D srt DOK Hsrt Hsort) as (C & wd & E & H57).
  destruct (C57_masks_turn_once_per_iteration T D BETA srt DOK HB Hsrt) as (C1 & wd1 & E1 & Hturn).
  destruct (C39_result_tells_whether_all_checks_hold T D BETA srt DOK HB Hsrt) as (C2 & wd2 & E2 & _ & H39).
  destruct (decoder_ctor T D DOK srt Hsrt) as (C' & wd' & E' & _ & HS & _ & _ & Hord).
  rewrite E in E1, E2, E'. injection E1 as <- <-. injection E2 as <- <-. injection E' as <- <-.
  exists C, wd. split; [exact E|]. intros i j Hi Hj Hlast. split; [intros k Hk; apply H57; assumption|].
  intros s message parity trials Hs Hone Lm Lp Fm Fp Ht.
  destruct (Hturn s message parity trials Hs Lm Lp Fm Fp Ht) as (s' & m' & p' & r & E1 & Ht').
  destruct (H39 s message parity trials Hs Lm Lp Fm Fp Ht) as (s2 & m2 & p2 & r2 & E2 & Hs' & _).
  rewrite E1 in E2. injection E2 as <- <- <- <-.
  exists s', m', p', r. split; [exact E1|]. split; [exact Hs'|]. specialize (Ht' i j Hi Hj).
  set (ws := map (link_word T D C i j) (seq 0 (data_links T i))) in *.
  assert (length ws = data_links T i) as Lws by (unfold ws; rewrite map_length, seq_length; reflexivity).
  assert (forall k, k < data_links T i -> nth k ws 0 = link_word T D C i j k) as Nws.
  { intros k Hk. unfold ws. rewrite (nth_map1 (link_word T D C i j) (seq 0 (data_links T i)) k 0 0) by (rewrite seq_length; exact Hk).
    rewrite seq_nth by exact Hk. reflexivity. }
  assert (forall a b, a <= b -> b < data_links T i -> nth a ws 0 <= nth b ws 0) as Hle.
  { destruct (Hord i j Hi Hj I) as (l0 & El0). specialize (Hsort l0). rewrite <- El0 in Hsort.
    intros a b Hab Hb. rewrite !Nws by lia. unfold link_word. rewrite (link_start_base T D OK i j Hi). rewrite (data_links_cl T OK i Hi) in *.
    set (sg := seg T D (lc_loc C) i j) in *. set (cnt := length (cls (t_M T) (t_q T) i 0 (rows_of T))) in *.
    pose proof (base_LOC T D DOK i j Hi Hj) as HbL. fold cnt in HbL.
    assert (length sg = cnt) as Lsg by (unfold sg, seg; fold cnt; rewrite firstn_length, skipn_length, (proj1 HS); lia).
    assert (forall c, c < cnt -> nth (base T D i j + c) (lc_loc C) (0, 0) = nth c sg (0, 0)) as Hnth.
    { intros c Hc. unfold sg, seg. fold cnt. rewrite nth_firstn'. replace (c <? cnt) with true by lia. rewrite nth_skipn'. reflexivity. }
    rewrite !Hnth by lia. rewrite <- Lsg in Hb. clear - Hsort Hab Hb. revert a b Hab Hb.
    induction Hsort as [|x l Hs IH F]; intros a b Hab Hb; cbn [length] in Hb; [lia|].
    destruct a as [|a], b as [|b]; cbn [nth]; try lia.
    - rewrite Forall_forall in F. apply F. apply nth_In. lia.
    - apply IH; lia. }
  assert (forall k, S k < length ws -> take_turns ws k -> nth k ws 0 = nth (S k) ws 0) as Hturns.
  { intros k Hk [H|H]; [|exact H]. rewrite !Nws by lia. replace k with (data_links T i - 2) by lia.
    replace (S (data_links T i - 2)) with (data_links T i - 1) by lia. apply Hlast. lia. }
  (* one writer, in terms of the mask *)
  set (one := fun m : N => forall k, k < length ws -> exists k', (k' < length ws /\ N.testbit m (N.of_nat k') = false) /\ nth k' ws 0 = nth k ws 0 /\
    forall k2, k2 < length ws /\ N.testbit m (N.of_nat k2) = false -> nth k2 ws 0 = nth k ws 0 -> k2 = k').
  assert (forall st, one_writer T D C (ls_wd st) i j <-> one (nth (d_W T D * i + j) (ls_wd st) 0%N)) as Hone_iff.
  { intros st. unfold one_writer, one, may_write. rewrite Lws. split; intros H k Hk; destruct (H k Hk) as (k' & (G1 & G2) & G3 & G4);
    exists k'; (split; [split; assumption|]).
    - split; [rewrite !Nws by lia; exact G3|]. intros k2 (F1 & F2) F3. apply G4; [auto|]. rewrite !Nws in F3 by lia. exact F3.
    - split; [rewrite <- !Nws by lia; exact G3|]. intros k2 (F1 & F2) F3. apply G4; [auto|]. rewrite !Nws by lia. exact F3. }
  apply Hone_iff. apply Hone_iff in Hone.
  assert (forall m m', turned ws m m' -> one m -> one m') as Hstep.
  { clear m' p' E1. intros m m' (Hg & _) Ho k Hk. destruct (Ho k Hk) as (k' & (K1 & K2) & K3 & K4).
    destruct (group_exists ws k' K1) as (a & b & G & Hab).
    assert (forall x, a <= x <= b -> nth x ws 0 = nth k' ws 0) as Hsame.
    { assert (forall x, a <= x <= b -> nth x ws 0 = nth a ws 0) as Ha.
      { intros x. induction x as [|x IH]; intros Hx; [f_equal; lia|]. destruct (Nat.eq_dec (S x) a) as [->|]; [reflexivity|].
        rewrite <- (Hturns x); [apply IH; lia|destruct G as (? & _); lia|]. apply G. lia. }
      intros x Hx. rewrite (Ha x Hx), (Ha k' ltac:(lia)). reflexivity. }
    assert (forall x, x < length ws -> nth x ws 0 = nth k' ws 0 -> a <= x <= b) as Hin.
    { intros x Hx Ex. destruct G as ((G0 & Gb) & _ & GL & GR). split.
      - destruct (Nat.le_gt_cases a x) as [|Hlt]; [assumption|exfalso]. destruct GL as [->|GL]; [lia|]. apply GL. right.
        replace (S (a - 1)) with a by lia. pose proof (Hle x (a - 1) ltac:(lia) ltac:(lia)). pose proof (Hle (a - 1) a ltac:(lia) ltac:(lia)).
        rewrite (Hsame a) in * by lia. lia.
      - destruct (Nat.le_gt_cases x b) as [|Hlt]; [assumption|exfalso]. destruct GR as [GR|GR]; [lia|]. apply GR. right.
        pose proof (Hle (S b) x ltac:(lia) ltac:(lia)). pose proof (Hle b (S b) ltac:(lia) ltac:(lia)).
        rewrite (Hsame b) in * by lia. lia. }
    destruct (Hg a b G) as (G1 & G2).
    assert (b < length ws) as Hb by (apply G).
    exists (if k' =? a then b else k' - 1). destruct (Nat.eqb_spec k' a) as [->|Hne].
    - split; [split; [exact Hb|rewrite G2; exact K2]|]. split; [rewrite <- K3; apply Hsame; lia|].
      intros k2 (F1 & F2) F3. pose proof (Hin k2 F1 ltac:(congruence)) as Hk2. destruct (Nat.eq_dec k2 b) as [|Hn2]; [assumption|exfalso].
      rewrite G1 in F2 by lia. assert (S k2 = a) by (apply K4; [split; [lia|exact F2]|]; rewrite <- K3; apply Hsame; lia). lia.
    - split; [split; [lia|]|].
      { rewrite G1 by lia. replace (S (k' - 1)) with k' by lia. exact K2. }
      split; [rewrite <- K3; apply Hsame; lia|].
      intros k2 (F1 & F2) F3. pose proof (Hin k2 F1 ltac:(congruence)) as Hk2. destruct (Nat.eq_dec k2 b) as [->|Hn2].
      + exfalso. rewrite G2 in F2. assert (a = k') by (apply K4; [split; [lia|exact F2]|]; rewrite <- K3; apply Hsame; lia). lia.
      + rewrite G1 in F2 by lia. assert (S k2 = k') by (apply K4; [split; [lia|exact F2]|]; rewrite <- K3; apply Hsame; lia). lia. }
  revert Ht' Hone. generalize (nth (d_W T D * i + j) (ls_wd s) 0%N). generalize (Z.to_nat trials - Z.to_nat r).
  induction n as [|n IHn]; intros m Hm Ho; cbn [turned_times] in Hm; [rewrite Hm; exact Ho|].
  destruct Hm as (m1 & Hm1 & Hm2). apply (IHn m1 Hm2). apply (Hstep m m1 Hm1 Ho).
Qed.
Print Assumptions C57_one_writer_stays.

(** ** A small table: M = 4, R = 8, K = 8, two rows of two and one entries per block; D = 2 lanes *)
Definition table1 : table := mk_table 4 16 8 5 31 [2] [2; 0] [0; 3; 5; 6].
Definition insert_sorted (x : nat * nat) := fix ins (l : list (nat * nat)) : list (nat * nat) :=
  match l with [] => [x] | y :: t => if fst x <=? fst y then x :: l else y :: ins t end.
Definition sort_words (l : list (nat * nat)) : list (nat * nat) := fold_right insert_sorted [] l.
Lemma insert_perm x l : Permutation (insert_sorted x l) (x :: l).
Proof.
  induction l as [|y l IH]; cbn [insert_sorted]; [reflexivity|]. destruct (fst x <=? fst y); [reflexivity|].
  rewrite IH. apply perm_swap.
Qed.
Lemma sort_words_perm l : Permutation (sort_words l) l.
Proof. induction l as [|x l IH]; [reflexivity|]. cbn [sort_words fold_right]. rewrite insert_perm. constructor. exact IH. Qed.
Lemma sort_words_sorted l : StronglySorted (fun a b => fst a <= fst b) (sort_words l).
Proof.
  induction l as [|x l IH]; [constructor|]. cbn [sort_words fold_right]. fold (sort_words l). revert IH.
  generalize (sort_words l) as m. induction m as [|y m IHm]; intros Hs; cbn [insert_sorted].
  - repeat constructor.
  - inversion Hs as [|a b Hs' F]; subst. destruct (Nat.leb_spec (fst x) (fst y)) as [Hle|Hgt].
    + constructor; [exact Hs|]. constructor; [exact Hle|]. revert F. apply Forall_impl. intros z. lia.
    + constructor; [apply IHm; exact Hs'|]. apply (Permutation_Forall (Permutation_sym (insert_perm x m))).
      constructor; [lia|exact F].
Qed.
Ltac small_table := split; [lia|lia| | | | | | | ]; try (vm_compute; reflexivity || lia).
Lemma table1_ok : decoder_ok table1 2.
Proof.
  constructor; try (vm_compute; reflexivity); try (vm_compute; lia).
  constructor; try (vm_compute; reflexivity); try (vm_compute; lia); try (vm_compute; discriminate).
  - intros row x Hr Hx. vm_compute in Hr. decompose [or] Hr; subst; try contradiction; vm_compute in Hx;
    decompose [or] Hx; subst; try contradiction; vm_compute; lia.
  - intros n Hn. change (t_q table1) with 2 in *. destruct n as [|[|n]]; [| |lia]; vm_compute; lia.
Qed.
Definition blank1 : ldpc_state := mk_ls (repeat [0; 0]%Z 16) (repeat [0; 0]%Z 4) (repeat [0; 0]%Z 4) [0; 0; 0; 0]%N.
Lemma blank1_ok : object_ok table1 2 blank1.
Proof.
  constructor; [split; [reflexivity|]|split; [reflexivity|]|split; [reflexivity|]|reflexivity];
  apply Forall_forall; intros v Hv; apply repeat_spec in Hv; subst; (split; [reflexivity|]); repeat constructor; unfold int8; lia.
Qed.
(** C38, C39: an encoded word with one sign flipped is decoded, with the flip corrected; a noiseless one is returned
    unchanged *)
Example C38_C39_nonvacuous :
  exists enc C wd s' s2, ldpc_encoder table1 = Ok enc /\
    ldpc_encode table1 enc [1; -1; 1; 1; -1; -1; 1; -1]%Z (repeat 0%Z 8) = Ok [-1; -1; 1; -1; 1; 1; -1; 1]%Z /\
    ldpc_decoder table1 2 sort_words = Ok (C, wd) /\
    ldpc_decode table1 2 1 C blank1 [20; -3; 5; 7; -9; -9; -2; -30]%Z [-10; -10; 10; -10; 10; 10; -10; 10]%Z 5
      = Ok (s', [36; -15; 23; 15; -16; -27; 8; -42]%Z, [-18; -9; 22; -22; 15; 17; -25; 23]%Z, 4%Z) /\
    ldpc_decode table1 2 1 C blank1 [20; -3; 5; 7; -9; -9; 2; -30]%Z [-10; -10; 10; -10; 10; 10; -10; 10]%Z 5
      = Ok (s2, [20; -3; 5; 7; -9; -9; 2; -30]%Z, [-10; -10; 10; -10; 10; 10; -10; 10]%Z, 5%Z).
Proof.
  eexists _, _, _, _, _. split; [vm_compute; reflexivity|]. split; [vm_compute; reflexivity|]. split; [vm_compute; reflexivity|].
  split; vm_compute; reflexivity.
Qed.
(** C56: the hypotheses hold for it *)
Example C56_nonvacuous : decoder_ok table1 2 /\ 1 < d_W table1 2 * t_q table1 /\ object_ok table1 2 blank1.
Proof. split; [exact table1_ok|]. split; [vm_compute; lia|exact blank1_ok]. Qed.
(** C57: a layer of [table1] without shared words *)
Example C57_nonvacuous : exists C wd, ldpc_decoder table1 2 sort_words = Ok (C, wd) /\
  forall k k', k < k' < data_links table1 0 -> link_word table1 2 C 0 0 k <> link_word table1 2 C 0 0 k'.
Proof.
  eexists _, _. split; [vm_compute; reflexivity|]. intros k k' H. change (data_links table1 0) with 2 in H.
  assert (k = 0 /\ k' = 1) as [-> ->] by lia. vm_compute. discriminate.
Qed.

(** C57 is false after an iteration: a table in which two links of one check share a word and a third does not.  After
    one call that makes one iteration both of the two may write, and the third, which shares its word with no other
    link, may not *)
Definition table2 : table := mk_table 4 16 8 5 27 [2; 1] [1; 1; 0] [0; 4; 0].
Lemma table2_ok : decoder_ok table2 2.
Proof.
  constructor; try (vm_compute; reflexivity); try (vm_compute; lia).
  constructor; try (vm_compute; reflexivity); try (vm_compute; lia); try (vm_compute; discriminate).
  - intros row x Hr Hx. vm_compute in Hr. decompose [or] Hr; subst; try contradiction; vm_compute in Hx;
    decompose [or] Hx; subst; try contradiction; vm_compute; lia.
  - intros n Hn. change (t_q table2) with 2 in *. destruct n as [|[|n]]; [| |lia]; vm_compute; lia.
Qed.
Definition blank2 (wd : list N) : ldpc_state := mk_ls (repeat [0; 0]%Z 14) (repeat [0; 0]%Z 4) (repeat [0; 0]%Z 4) wd.
Lemma blank2_ok wd : length wd = 4 -> object_ok table2 2 (blank2 wd).
Proof.
  intros L. constructor; [split; [reflexivity|]|split; [reflexivity|]|split; [reflexivity|]|exact L];
  apply Forall_forall; intros v Hv; apply repeat_spec in Hv; subst; (split; [reflexivity|]); repeat constructor; unfold int8; lia.
Qed.
Theorem C57_two_writers_after_one_iteration :
  exists C wd s, ldpc_decoder table2 2 sort_words = Ok (C, wd) /\
    (exists m p r, ldpc_decode table2 2 1 C (blank2 wd) [20; -3; 5; 7; -9; -9; -2; -30]%Z [3; -10; 4; 5; 6; 7; 8; 9]%Z 1
       = Ok (s, m, p, r)) /\
    may_write table2 2 (ls_wd s) 0 0 0 /\ may_write table2 2 (ls_wd s) 0 0 1 /\
    link_word table2 2 C 0 0 0 = link_word table2 2 C 0 0 1 /\
    ~ may_write table2 2 (ls_wd s) 0 0 2 /\
    (forall k, k < data_links table2 0 -> k <> 2 -> link_word table2 2 C 0 0 k <> link_word table2 2 C 0 0 2).
Proof.
  eexists _, _, _. split; [vm_compute; reflexivity|]. split; [eexists _, _, _; vm_compute; reflexivity|].
  unfold may_write. change (data_links table2 0) with 3.
  split; [split; [lia|vm_compute; reflexivity]|]. split; [split; [lia|vm_compute; reflexivity]|].
  split; [vm_compute; reflexivity|]. split; [intros (_ & H); vm_compute in H; discriminate|].
  intros k Hk Hne. destruct k as [|[|k]]; [vm_compute; discriminate|vm_compute; discriminate|lia].
Qed.
Print Assumptions C57_two_writers_after_one_iteration.

(** a table with a layer of three links in which the last two have the same word *)
Definition table3 : table := mk_table 4 16 8 5 27 [1; 2] [1; 1; 0] [0; 0; 4].
Example C57_one_writer_stays_nonvacuous : decoder_ok table3 2 /\
  exists C wd, ldpc_decoder table3 2 sort_words = Ok (C, wd) /\ data_links table3 0 = 3 /\
  link_word table3 2 C 0 0 0 <> link_word table3 2 C 0 0 1 /\ link_word table3 2 C 0 0 1 = link_word table3 2 C 0 0 2.
Proof.
  split.
  - constructor; try (vm_compute; reflexivity); try (vm_compute; lia).
    constructor; try (vm_compute; reflexivity); try (vm_compute; lia); try (vm_compute; discriminate).
    + intros row x Hr Hx. vm_compute in Hr. decompose [or] Hr; subst; try contradiction; vm_compute in Hx;
      decompose [or] Hx; subst; try contradiction; vm_compute; lia.
    + intros n Hn. change (t_q table3) with 2 in *. destruct n as [|[|n]]; [| |lia]; vm_compute; lia.
  - eexists _, _. split; [vm_compute; reflexivity|]. split; [reflexivity|]. split; [vm_compute; discriminate|reflexivity].
Qed.

(** ** C58: reusing an object *)
(** what earlier calls left in the object matters only through the write disable masks *)
Theorem C58_only_the_masks_carry_over : forall T D BETA C s1 s2 message parity trials, decoder_ok T D ->
  object_ok T D s1 -> object_ok T D s2 -> ls_wd s1 = ls_wd s2 ->
  length message = t_K T -> length parity = t_R T -> Forall int8 message -> Forall int8 parity ->
  ldpc_decode T D BETA C s1 message parity trials = ldpc_decode T D BETA C s2 message parity trials.
Proof.
  intros T D BETA C s1 s2 message parity trials DOK H1 H2 Ew Lm Lp Fm Fp. apply shaped_object in H1, H2.
  apply (decode_same T D DOK); assumption.
Qed.
Print Assumptions C58_only_the_masks_carry_over.
(** hence, when no check has two links to one word, every call gives what a new object would give *)
Theorem C58_reuse_without_shared_words : forall T D BETA srt, decoder_ok T D -> (0 <= BETA <= 255)%Z ->
  (forall l, Permutation (srt l) l) ->
  exists C wd, ldpc_decoder T D srt = Ok (C, wd) /\
  ((forall i j k k', i < t_q T -> j < d_W T D -> k < k' < data_links T i -> link_word T D C i j k <> link_word T D C i j k') ->
   forall s fresh m1 p1 t1 message parity trials,
    object_ok T D s -> ls_wd s = wd -> object_ok T D fresh -> ls_wd fresh = wd ->
    length m1 = t_K T -> length p1 = t_R T -> Forall int8 m1 -> Forall int8 p1 -> (- 2147483648 < t1 <= 2147483647)%Z ->
    length message = t_K T -> length parity = t_R T -> Forall int8 message -> Forall int8 parity ->
   exists s' a b r, ldpc_decode T D BETA C s m1 p1 t1 = Ok (s', a, b, r) /\ object_ok T D s' /\ ls_wd s' = wd /\
    ldpc_decode T D BETA C s' message parity trials = ldpc_decode T D BETA C fresh message parity trials).
Proof.
  intros T D BETA srt DOK HB Hsrt. pose proof (W_pos T D DOK) as HW.
  destruct (C57_single_links_always_write T D BETA srt DOK HB Hsrt) as (C & wd & E & H57).
  destruct (decoder_ctor T D DOK srt Hsrt) as (C' & wd' & E' & HC & HS & Lw & _).
  rewrite E in E'. injection E' as <- <-.
  exists C, wd. split; [exact E|]. intros Hdist s fresh m1 p1 t1 message parity trials Hs Ew Hf Ef L1 L2 F1 F2 Ht Lm Lp Fm Fp.
  pose proof (proj2 (shaped_object T D s) Hs) as Hsh.
  destruct (decode_ok T D DOK BETA HB C HC HS s m1 p1 t1 Hsh L1 L2 F1 F2 Ht) as (s' & a & b & r & E1 & Hs' & Hz & _).
  exists s', a, b, r. split; [exact E1|]. split; [apply shaped_object; exact Hs'|].
  assert (forall x, x < d_PTY T D -> nth x wd 0%N = 0%N) as Hzero.
  { intros x Hx. rewrite (PTY_eq T D DOK) in Hx. rewrite (Nat.div_mod x (d_W T D)) by lia.
    apply H57; [apply Nat.div_lt_upper_bound; lia|apply Nat.mod_upper_bound; lia|].
    intros k k' Hk. apply Hdist; [apply Nat.div_lt_upper_bound; lia|apply Nat.mod_upper_bound; lia|exact Hk]. }
  assert (ls_wd s' = wd) as Ews.
  { destruct Hs' as (_ & _ & _ & Lw'). apply (list_ext _ _ 0%N); [lia|]. intros x Hx. rewrite Hzero by lia. apply Hz. rewrite Ew. apply Hzero. lia. }
  split; [exact Ews|]. apply C58_only_the_masks_carry_over; auto; [apply shaped_object; exact Hs'|congruence].
Qed.
Print Assumptions C58_reuse_without_shared_words.
(** and otherwise it can matter: the same input, decoded twice with the same object, gives different outputs *)
Theorem C58_second_call_differs :
  let message := [20; -3; 5; 7; -9; -9; -2; -30]%Z in let parity := [3; -10; 4; 5; 6; 7; 8; 9]%Z in
  ('(C, wd) <- ldpc_decoder table2 2 sort_words ;;
   '(s1, m1, p1, r1) <- ldpc_decode table2 2 1 C (blank2 wd) message parity 1 ;;
   '(_, m2, p2, r2) <- ldpc_decode table2 2 1 C s1 message parity 1 ;;
   Ok (m1, p1, r1, (m2, p2, r2)))
  = Ok ([19; -9; 3; 5; -7; -7; 2; -32]%Z, [-8; -8; 5; 5; 13; 13; 18; 18]%Z, (-1)%Z,
       ([19; -9; 3; 5; -9; -9; -2; -30]%Z, [-8; -8; 5; 5; 13; 13; 18; 18]%Z, (-1)%Z)).
Proof. vm_compute. reflexivity. Qed.
Print Assumptions C58_second_call_differs.
