(** Property C75: the LDPC tables of the repository. *)
From Coq Require Import ZifyBool ZifyNat ZifyN Permutation.
From Verif Require Import Cpp Model_simd Model_ldpc Spec_ldpc Lib_list Proof_ldpc1 Proof_ldpc5 Proof_ldpc6 Prop_ldpc Model_dvb Proof_dvb.
Local Open Scope nat_scope.
Ltac Zify.zify_post_hook ::= idtac.

Definition dvb_tables : list table := [dvb_t2_a1; dvb_t2_a3; dvb_t2_a6; dvb_t2_b7].

(** C75: the four tables are well formed, for the encoder and for both word sizes of the decoder *)
Lemma fifteen : 15 = N.to_nat 15. Proof. reflexivity. Qed.
Lemma thirty : 30 = N.to_nat 30. Proof. reflexivity. Qed.
Theorem C75_tables_are_well_formed : forall T, In T dvb_tables -> table_ok T /\ decoder_ok T 15 /\ decoder_ok T 30.
Proof.
  intros T HT. enough (decoder_ok T (N.to_nat 15) /\ decoder_ok T (N.to_nat 30)) as [A B].
  { split; [exact (ok_table _ _ A)|]. split; [rewrite fifteen; exact A|rewrite thirty; exact B]. }
  repeat (destruct HT as [<- | HT]; [split; apply chk_table_ok; vm_compute; reflexivity|]). destruct HT.
Qed.
Print Assumptions C75_tables_are_well_formed.

(** C75: so with each of them, encoding any data gives parity that satisfies every check, and the decoder terminates
    for every soft input and reports whether its output satisfies every check *)
Theorem C75_encode_and_decode : forall T D BETA srt, In T dvb_tables -> D = 15 \/ D = 30 -> (0 <= BETA <= 255)%Z ->
  (forall l, Permutation (srt l) l) ->
  exists enc C wd, ldpc_encoder T = Ok enc /\ ldpc_decoder T D srt = Ok (C, wd) /\
  (forall data parity, length data = t_K T -> length parity = t_R T -> Forall (fun x => x = 1%Z \/ x = (-1)%Z) data ->
   exists parity', ldpc_encode T enc data parity = Ok parity' /\ length parity' = t_R T /\
     Forall (fun x => x = 1%Z \/ x = (-1)%Z) parity' /\ satisfies T data parity') /\
  (forall s message parity trials, object_ok T D s ->
    length message = t_K T -> length parity = t_R T -> Forall int8 message -> Forall int8 parity ->
    (0 <= trials <= 2147483647)%Z ->
   exists s' message' parity' result,
    ldpc_decode T D BETA C s message parity trials = Ok (s', message', parity', result) /\ object_ok T D s' /\
    length message' = t_K T /\ length parity' = t_R T /\
    (satisfies T message parity -> message' = message /\ parity' = parity /\ result = trials) /\
    ((0 <= result <= trials)%Z /\ satisfies T message' parity' \/ result = (-1)%Z /\ ~ satisfies T message' parity')).
Proof.
  intros T D BETA srt HT HD HB Hs. destruct (C75_tables_are_well_formed T HT) as (OK & D15 & D30).
  assert (decoder_ok T D) as DOK by (destruct HD as [-> | ->]; assumption). clear D15 D30 HD.
  destruct (C38_encoder_satisfies_every_check T OK) as (enc & Ee & He).
  destruct (C39_result_tells_whether_all_checks_hold T D BETA srt DOK HB Hs) as (C & wd & Ed & _ & Hd).
  exists enc, C, wd. split; [exact Ee|]. split; [exact Ed|]. split; [exact He|].
  intros s message parity trials Hob Lm Lp Fm Fp Ht.
  destruct (Hd s message parity trials Hob Lm Lp Fm Fp) as (s' & m' & p' & r & E & Hob' & L1 & L2 & _ & _ & A & B & _); [lia|].
  exists s', m', p', r. split; [exact E|]. split; [exact Hob'|]. split; [exact L1|]. split; [exact L2|]. split; [exact A|]. apply B. lia.
Qed.
Print Assumptions C75_encode_and_decode.

(** ** Reused decoders *)
(** the objects that any sequence of calls makes of a new object *)
Inductive used (T : table) (D : nat) (BETA : Z) (C : ldpc_const) (wd : list N) : ldpc_state -> Prop :=
| used_new s : object_ok T D s -> ls_wd s = wd -> used T D BETA C wd s
| used_call s message parity trials s' message' parity' result : used T D BETA C wd s ->
    length message = t_K T -> length parity = t_R T -> Forall int8 message -> Forall int8 parity ->
    (- 2147483648 < trials <= 2147483647)%Z ->
    ldpc_decode T D BETA C s message parity trials = Ok (s', message', parity', result) -> used T D BETA C wd s'.

Definition shift_word (W j w : nat) : nat := W * (w / W) + (w mod W + j) mod W.
Lemma shift_word_inj W j : 0 < W -> FinFun.Injective (shift_word W j).
Proof.
  intros HW x y E. unfold shift_word in E.
  pose proof (Nat.mod_upper_bound (x mod W + j) W ltac:(lia)) as A. pose proof (Nat.mod_upper_bound (y mod W + j) W ltac:(lia)) as B.
  assert (x / W = y / W) as E1 by nia. assert ((x mod W + j) mod W = (y mod W + j) mod W) as E2 by nia.
  pose proof (Nat.mod_upper_bound x W ltac:(lia)) as Hx. pose proof (Nat.mod_upper_bound y W ltac:(lia)) as Hy.
  rewrite (Nat.div_mod x W), (Nat.div_mod y W) by lia. rewrite E1. f_equal.
  rewrite (Nat.add_mod (x mod W)), (Nat.add_mod (y mod W)) in E2 by lia. rewrite !Nat.mod_mod in E2 by lia.
  pose proof (Nat.mod_upper_bound j W ltac:(lia)) as Hj. set (a := x mod W) in *. set (b := y mod W) in *. set (c := j mod W) in *. clearbody a b c.
  destruct (Nat.lt_ge_cases (a + c) W), (Nat.lt_ge_cases (b + c) W).
  - rewrite !Nat.mod_small in E2 by lia. lia.
  - rewrite (Nat.mod_small (a + c)) in E2 by lia. replace (b + c) with (b + c - W + 1 * W) in E2 by lia. rewrite Nat.mod_add, Nat.mod_small in E2 by lia. lia.
  - rewrite (Nat.mod_small (b + c)) in E2 by lia. replace (a + c) with (a + c - W + 1 * W) in E2 by lia. rewrite Nat.mod_add, Nat.mod_small in E2 by lia. lia.
  - replace (a + c) with (a + c - W + 1 * W) in E2 by lia. replace (b + c) with (b + c - W + 1 * W) in E2 by lia.
    rewrite !Nat.mod_add, !Nat.mod_small in E2 by lia. lia.
Qed.
Lemma locof_shift T D (DOK : decoder_ok T D) j v : fst (locof T D (moved (t_M T) j v)) = shift_word (d_W T D) j (word_of T D v).
Proof.
  pose proof (ok_M T (ok_table T D DOK)) as HM. pose proof (W_pos T D DOK) as HW. pose proof (M_WD T D DOK) as EM. pose proof (D_pos T D DOK) as HD.
  unfold locof, word_of, shift_word. cbn [fst]. set (M := t_M T) in *. set (W := d_W T D) in *.
  destruct (moved_parts T D DOK j v) as [E1 E2]. fold M in E1, E2. rewrite E2, E1. clear E1 E2.
  pose proof (Nat.mod_upper_bound (v mod M) W ltac:(lia)) as Hw.
  rewrite (Nat.mul_comm W (v / M)). rewrite Nat.div_add_l, (Nat.div_small ((v mod M) mod W)), Nat.add_0_r by lia.
  rewrite (Nat.add_comm (v / M * W)), Nat.mod_add, Nat.mod_mod by lia.
  assert (((v mod M + j) mod M) mod W = ((v mod M) mod W + j) mod W) as ->.
  { assert (forall a, (a mod M) mod W = a mod W) as Hmm.
    { intros a. rewrite EM. rewrite Nat.mod_mul_r by lia. rewrite (Nat.mul_comm W), Nat.mod_add, Nat.mod_mod by lia. reflexivity. }
    rewrite Hmm. rewrite Nat.add_mod_idemp_l by lia. reflexivity. }
  assert ((v - v mod M) / D = W * (v / M)) as ->.
  { pose proof (Nat.div_mod v M ltac:(lia)) as Ev. assert (forall z, M * z = W * z * D) as Ez by (intros z; rewrite EM; ring).
    rewrite Ez in Ev. set (z := W * (v / M) * D) in *. assert (v - v mod M = z) as -> by (clearbody z; clear - Ev; lia). unfold z. apply Nat.div_mul. lia. }
  lia.
Qed.
Lemma distinct_words T D (DOK : decoder_ok T D) C i j : segs T D (fun _ _ => True) (lc_loc C) -> i < t_q T -> j < d_W T D ->
  NoDup (words_in T D i) -> forall k k', k < k' < data_links T i -> link_word T D C i j k <> link_word T D C i j k'.
Proof.
  intros [_ HS] Hi Hj Hnd k k' Hk. pose proof (ok_table T D DOK) as OK. pose proof (W_pos T D DOK) as HW.
  assert (words_in T D i = map (word_of T D) (cls (t_M T) (t_q T) i 0 (rows_of T))) as Ew.
  { unfold words_in. rewrite (ok_R _ OK). replace i with (t_q T * 0 + i) at 1 by lia.
    rewrite links_cls; [|apply (ok_M _ OK)|apply (ok_M _ OK)|exact Hi|intros row x Hr Hx; rewrite <- (ok_R _ OK); exact (ok_entries _ OK row x Hr Hx)].
    rewrite map_map. apply map_ext. intros v. f_equal. unfold moved. rewrite Nat.add_0_r.
    pose proof (ok_M _ OK). rewrite Nat.mod_mod by lia. pose proof (Nat.mod_le v (t_M T) ltac:(lia)). lia. }
  specialize (HS i j Hi Hj I). unfold link_word. rewrite (link_start_base T D OK i j Hi). rewrite (data_links_cl T OK i Hi) in Hk.
  unfold seg in HS. set (cl := cls (t_M T) (t_q T) i 0 (rows_of T)) in *.
  assert (NoDup (map fst (firstn (length cl) (skipn (base T D i j) (lc_loc C))))) as Hn.
  { apply (Permutation_NoDup (l := map fst (map (fun v => locof T D (moved (t_M T) j v)) cl))).
    - apply Permutation_map. apply Permutation_sym. exact HS.
    - rewrite map_map. erewrite map_ext; [|intros v; apply (locof_shift T D DOK)]. rewrite <- map_map. rewrite <- Ew.
      apply FinFun.Injective_map_NoDup; [apply shift_word_inj; exact HW|exact Hnd]. }
  pose proof (Permutation_length HS) as HL. rewrite map_length in HL.
  set (sg := firstn (length cl) (skipn (base T D i j) (lc_loc C))) in *.
  assert (forall x, x < length cl -> nth (base T D i j + x) (lc_loc C) (0, 0) = nth x sg (0, 0)) as Hnth.
  { intros x Hx. unfold sg. rewrite nth_firstn'. replace (x <? length cl) with true by lia. rewrite nth_skipn'. reflexivity. }
  rewrite !Hnth by lia. rewrite <- !(map_nth fst). intros E.
  apply (proj1 (NoDup_nth (map fst sg) (fst (0, 0))) Hn) in E; rewrite ?map_length; lia.
Qed.

(** C75: when no check of a table has two data links in one word, a decoder that has already been used behaves like a
    new one: for any history of calls, any new object and any input the results are the same *)
Theorem C75_reuse_without_shared_words : forall T D BETA srt, decoder_ok T D -> (0 <= BETA <= 255)%Z ->
  (forall l, Permutation (srt l) l) -> (forall i, i < t_q T -> NoDup (words_in T D i)) ->
  exists C wd, ldpc_decoder T D srt = Ok (C, wd) /\
  forall s fresh message parity trials, used T D BETA C wd s -> object_ok T D fresh -> ls_wd fresh = wd ->
    length message = t_K T -> length parity = t_R T -> Forall int8 message -> Forall int8 parity ->
    ldpc_decode T D BETA C s message parity trials = ldpc_decode T D BETA C fresh message parity trials.
Proof.
  intros T D BETA srt DOK HB Hs Hnd.
  destruct (decoder_ctor T D DOK srt Hs) as (C & wd & E & HC & HS & _).
  destruct (C58_reuse_without_shared_words T D BETA srt DOK HB Hs) as (C2 & wd2 & E2 & H58). rewrite E in E2. injection E2 as <- <-.
  exists C, wd. split; [exact E|].
  specialize (H58 (fun i j k k' Hi Hj Hk => distinct_words T D DOK C i j HS Hi Hj (Hnd i Hi) k k' Hk)).
  assert (forall s, used T D BETA C wd s -> object_ok T D s /\ ls_wd s = wd) as Hinv.
  { intros s Hu. induction Hu as [s A B|s m p t s' m' p' r Hu [IH1 IH2] Lm Lp Fm Fp Ht Ed]; [split; assumption|].
    destruct (H58 s s m p t m p t IH1 IH2 IH1 IH2 Lm Lp Fm Fp Ht Lm Lp Fm Fp) as (s2 & a & b & r2 & E3 & A & B & _).
    rewrite Ed in E3. injection E3 as <- <- <- <-. split; assumption. }
  intros s fresh message parity trials Hu Hf Ef Lm Lp Fm Fp. destruct (Hinv s Hu) as [A B].
  apply C58_only_the_masks_carry_over; try assumption. congruence.
Qed.
Print Assumptions C75_reuse_without_shared_words.

(** C75: this is the case for three of the tables with the word size of all targets except AVX2 *)
Theorem C75_distinct_words : forall T, In T [dvb_t2_a1; dvb_t2_a3; dvb_t2_a6] -> forall i, i < t_q T -> NoDup (words_in T 15 i).
Proof.
  intros T HT. assert (In T dvb_tables) as HT' by (unfold dvb_tables; cbn in HT |- *; tauto).
  destruct (C75_tables_are_well_formed T HT') as (_ & DOK & _). rewrite fifteen in *.
  repeat (destruct HT as [<- | HT]; [apply chk_words_ok; [exact DOK|vm_compute; reflexivity]|]). destruct HT.
Qed.
Print Assumptions C75_distinct_words.
(** and with AVX2 it is the case for none of the four, nor for the fourth one elsewhere *)
Theorem C75_shared_words : forall T D, In T dvb_tables -> D = 30 \/ (D = 15 /\ T = dvb_t2_b7) ->
  exists i, i < t_q T /\ ~ NoDup (words_in T D i).
Proof.
  intros T D HT HD. destruct (C75_tables_are_well_formed T HT) as (_ & D15 & D30). rewrite fifteen in D15. rewrite thirty in D30.
  destruct HD as [-> | [-> ->]].
  - rewrite thirty. destruct HT as [<- | [<- | [<- | [<- | []]]]].
    + apply (chk_words_not _ _ _ _ _ _ _ _ _ 86 D30); vm_compute; reflexivity.
    + apply (chk_words_not _ _ _ _ _ _ _ _ _ 22 D30); vm_compute; reflexivity.
    + apply (chk_words_not _ _ _ _ _ _ _ _ _ 20 D30); vm_compute; reflexivity.
    + apply (chk_words_not _ _ _ _ _ _ _ _ _ 0 D30); vm_compute; reflexivity.
  - rewrite fifteen. apply (chk_words_not _ _ _ _ _ _ _ _ _ 0 D15); vm_compute; reflexivity.
Qed.
Print Assumptions C75_shared_words.
(** C75: so these three can be reused freely *)
Theorem C75_reuse : forall T BETA srt, In T [dvb_t2_a1; dvb_t2_a3; dvb_t2_a6] -> (0 <= BETA <= 255)%Z ->
  (forall l, Permutation (srt l) l) ->
  exists C wd, ldpc_decoder T 15 srt = Ok (C, wd) /\
  forall s fresh message parity trials, used T 15 BETA C wd s -> object_ok T 15 fresh -> ls_wd fresh = wd ->
    length message = t_K T -> length parity = t_R T -> Forall int8 message -> Forall int8 parity ->
    ldpc_decode T 15 BETA C s message parity trials = ldpc_decode T 15 BETA C fresh message parity trials.
Proof.
  intros T BETA srt HT HB Hs. assert (In T dvb_tables) as HT' by (unfold dvb_tables; cbn in HT |- *; tauto).
  destruct (C75_tables_are_well_formed T HT') as (_ & DOK & _).
  apply C75_reuse_without_shared_words; [exact DOK|exact HB|exact Hs|]. intros i Hi. apply C75_distinct_words; assumption.
Qed.
Print Assumptions C75_reuse.

(** the hypotheses are met: a sorting function, a new object of table A3, and it is indeed a large code *)
Definition blank (T : table) (D : nat) (wd : list N) : ldpc_state :=
  mk_ls (repeat (repeat 0%Z D) (d_BNL T D)) (repeat (repeat 0%Z D) (d_MSG T D)) (repeat (repeat 0%Z D) (d_PTY T D)) wd.
Lemma blank_ok T D wd : length wd = d_PTY T D -> object_ok T D (blank T D wd).
Proof.
  intros H. constructor; [split; [apply repeat_length|]|split; [apply repeat_length|]|split; [apply repeat_length|]|exact H];
  apply Forall_forall; intros v Hv; apply repeat_spec in Hv; subst; (split; [apply repeat_length|]);
  apply Forall_forall; intros x Hx; apply repeat_spec in Hx; subst; unfold int8; lia.
Qed.
Lemma sort_words_perm l : Permutation (sort_words l) l.
Proof.
  induction l as [|x l IH]; [reflexivity|]. cbn [sort_words fold_right]. fold (sort_words l). rewrite insert_perm.
  apply perm_skip. exact IH.
Qed.
Example C75_nonvacuous : In dvb_t2_a3 [dvb_t2_a1; dvb_t2_a3; dvb_t2_a6] /\ (forall l, Permutation (sort_words l) l) /\
  N.of_nat (t_K dvb_t2_a3) = 43200%N /\ N.of_nat (t_R dvb_t2_a3) = 21600%N /\ data_links dvb_t2_a3 0 = 8 /\
  exists C wd, ldpc_decoder dvb_t2_a3 15 sort_words = Ok (C, wd) /\ used dvb_t2_a3 15 1 C wd (blank dvb_t2_a3 15 wd).
Proof.
  split; [cbn; tauto|]. split; [exact sort_words_perm|]. split; [reflexivity|]. split; [vm_compute; reflexivity|].
  assert (In dvb_t2_a3 dvb_tables) as HT by (unfold dvb_tables; cbn; tauto).
  destruct (C75_tables_are_well_formed _ HT) as (_ & DOK & _). split.
  { assert (data_links dvb_t2_a3 0 = length (words_in dvb_t2_a3 (N.to_nat 15) 0)) as -> by (unfold words_in, data_links; rewrite map_length; reflexivity).
    unfold dvb_t2_a3. rewrite words_in_gen; [vm_compute; reflexivity|exact DOK|].
    pose proof (ok_q _ (ok_table _ _ DOK)) as H. exact H. }
  destruct (decoder_ctor dvb_t2_a3 15 DOK sort_words sort_words_perm) as (C & wd & E & _ & _ & Lw & _).
  exists C, wd. split; [exact E|]. apply used_new; [apply blank_ok; exact Lw|reflexivity].
Qed.
