(** Property C83: polar codes on the erasure channel. *)
From Coq Require Import ZifyBool ZifyNat QArith Lqa.
From Verif Require Import Cpp Model_simd Model_polar Model_polar_const Spec_polar Spec_polar_const Spec_polar_erasure Lib_list Lib_wht Proof_simd Proof_polar1 Proof_polar2 Proof_polar4 Proof_polar5 Proof_polar6
  Proof_polar_erasure Proof_polar_erasure2 Prop_polar Prop_polar_const.
Local Open Scope nat_scope.
Ltac Zify.zify_post_hook ::= idtac.

(** [received] is the word [cw], of whatever magnitudes, with the places marked in [e] erased (zero) *)
Definition with_erasures (e : list bool) (cw received : list Z) : Prop :=
  forall j, j < length e -> Z.sgn (nth j received 0%Z) = if nth j e true then 0%Z else nth j cw 0%Z.
(** some unfrozen position is ambiguous *)
Definition some_ambiguous (level : nat) (frozen : list N) (e : list bool) : Prop :=
  exists i, i < 2 ^ level /\ is_frozen frozen i = false /\ ambiguous level e i.

Lemma lost_ambiguous level frozen e : length e = 2 ^ level -> lost level (flags frozen (2 ^ level)) e = true <-> some_ambiguous level frozen e.
Proof.
  intros L. unfold lost, some_ambiguous. rewrite existsb_exists. split.
  - intros (i & Hi & H). apply in_seq in Hi. apply andb_true_iff in H. destruct H as (F & U). exists i. split; [lia|]. split.
    + rewrite (nth_indep _ true false) in F by (rewrite length_flags; lia). rewrite nth_flags in F by lia. destruct (is_frozen frozen i); [discriminate|reflexivity].
    + apply unknown_ambiguous; [exact L|lia|exact U].
  - intros (i & Hi & F & A). exists i. split; [apply in_seq; lia|]. rewrite (nth_indep _ true false) by (rewrite length_flags; lia). rewrite nth_flags, F by lia. cbn [negb andb].
    apply unknown_ambiguous; assumption.
Qed.
(** C83: from a codeword with erasures the decoder writes, for each symbol, the right one or a zero; it recovers the whole message exactly
    when no unfrozen position is ambiguous, and otherwise at least one symbol it writes is zero *)
Theorem C83_decoding_erasures : forall MAX_M soft hard out received frozen level message codeword cw e,
  decoder_buffers MAX_M soft hard out received frozen level ->
  Forall pm1 message -> length message = unfrozen (flags frozen (2 ^ level)) -> 2 ^ level <= length codeword ->
  polar_encode ops8 codeword message frozen level = Ok cw ->
  Forall int8 received -> length e = 2 ^ level -> with_erasures e cw received ->
  exists soft' word symbols, polar_decode ops8 MAX_M soft hard out received frozen level = Ok (soft', word ++ skipn (2 ^ level) hard, symbols ++ skipn (length message) out) /\
    length word = 2 ^ level /\ length symbols = length message /\
    (forall k, k < length message -> nth k symbols 0%Z = 0%Z \/ nth k symbols 0%Z = nth k message 0%Z) /\
    (forall j, j < 2 ^ level -> nth j word 0%Z = 0%Z \/ nth j word 0%Z = nth j cw 0%Z) /\
    (~ some_ambiguous level frozen e -> symbols = message /\ word = firstn (2 ^ level) cw) /\
    (some_ambiguous level frozen e -> In 0%Z symbols).
Proof.
  intros MAX_M soft hard out r f n msg cw0 cw e HB F Lm Hc E I8 Le HS. pose proof (decode_gen' ops8 0%Z MAX_M soft hard out r f n HB) as D.
  destruct HB as (H1 & H2 & H3 & H4 & H5 & H6 & H7 & H8). rewrite encode_ok in E by (assumption || lia). injection E as <-.
  assert (LA := lost_ambiguous n f e Le). set (fl := flags f (2 ^ n)) in *. assert (length fl = 2 ^ n) as Lf by apply length_flags.
  assert (length (expand fl msg) = 2 ^ n) as Lx by (rewrite length_expand; exact Lf).
  rewrite node8 in D by (apply Forall_firstn_; exact I8).
  assert (PP : forall j, j < 2 ^ n -> nth j (transform n (expand fl msg) ++ skipn (2 ^ n) cw0) 0%Z = nth j (ptr n (expand fl msg)) 0%Z).
  { intros j Hj. rewrite app_nth1 by (rewrite length_transform; lia). rewrite ptr_transform by exact Lx. reflexivity. }
  assert (LP := length_ptr n _ Lx). assert (QP := pm1_ptr n _ (pm1_expand fl msg F)).
  assert (FT : Forall2 fits (ptr n (expand fl msg)) (firstn (2 ^ n) r) /\ holes (firstn (2 ^ n) r) = e).
  { assert (K : forall j, j < 2 ^ n -> Z.sgn (nth j (firstn (2 ^ n) r) 0%Z) = if nth j e true then 0%Z else nth j (ptr n (expand fl msg)) 0%Z).
    { intros j Hj. rewrite nth_firstn'. replace (j <? 2 ^ n) with true by lia. rewrite HS by lia. rewrite PP by lia. reflexivity. }
    assert (LR : length (firstn (2 ^ n) r) = 2 ^ n) by (rewrite firstn_length; lia). set (x := ptr n (expand fl msg)) in *. set (s := firstn (2 ^ n) r) in *. clearbody x s.
    clear - K LR LP Le QP. revert LR LP Le K QP. generalize (2 ^ n). clear n. intros n. revert x s e. induction n as [|n IH]; intros [|a x] [|b s] [|c e]; cbn [length]; intros LR LP Le K QP; try lia; [split; [constructor|reflexivity]|].
    inversion QP as [|? ? Ha QP']; subst. destruct (IH x s e) as (A & B); try lia; [intros j Hj; apply (K (S j)); lia|assumption|].
    assert (K0 := K 0 ltac:(lia)). cbn [nth] in K0. split.
    - constructor; [|exact A]. unfold fits, part. rewrite K0. destruct c; auto.
    - unfold holes in *. cbn [map]. rewrite B. f_equal. rewrite zero_sgn, K0. destruct c; [reflexivity|]. destruct Ha as [-> | ->]; reflexivity. }
  destruct FT as (FT & HE). destruct (node_survives n fl ltac:(lia) Lf msg (firstn (2 ^ n) r) Lm F ltac:(rewrite firstn_length; lia) FT) as (A & B & C & G). rewrite HE in C, G.
  destruct (fnode zops n fl (firstn (2 ^ n) r)) as [m x]. cbn [fst snd] in *. destruct D as (LM & LX & soft' & _ & D). rewrite <- Lm in LM. rewrite LM in D. exists soft', x, m.
  split; [exact D|]. split; [exact LX|]. split; [exact LM|].
  assert (N2 : forall a b, Forall2 part a b -> forall k, k < length a -> nth k b 0%Z = 0%Z \/ nth k b 0%Z = nth k a 0%Z).
  { intros a b FF. induction FF as [|u v a b H _ IH]; intros [|k] Hk; cbn [length nth] in *; try lia; [exact H|]. apply IH. lia. }
  split; [apply (N2 _ _ A)|]. split; [intros j Hj; rewrite PP by exact Hj; apply (N2 _ _ B); lia|]. split.
  - intros NA. rewrite <- LA in NA. apply not_true_is_false in NA. specialize (C NA). injection C as -> ->. split; [reflexivity|]. rewrite ptr_transform by exact Lx. symmetry. apply firstn_app_l. apply length_transform.
  - intros NA. apply G, LA, NA.
Qed.
Print Assumptions C83_decoding_erasures.

(** C83: when each place is erased with chance [pe], independently, a position is ambiguous with exactly the probability the code construction
    computes for it (in exact arithmetic) *)
Theorem C83_chance_of_a_position : forall level pe i A, i < 2 ^ level ->
  (forall e, length e = 2 ^ level -> A e = true <-> ambiguous level e i) ->
  (chance pe (2 ^ level) A == erasure exact level pe i)%Q.
Proof.
  intros n p i A Hi H. change (erasure exact n p i) with (channel (fun p : Q => p * (2 - p))%Q (fun p => p * p)%Q n p i). rewrite <- unknown_chance by exact Hi.
  apply chance_ext. intros e L. apply Bool.eq_iff_eq_true. rewrite (H e L). symmetry. apply unknown_ambiguous; assumption.
Qed.
Print Assumptions C83_chance_of_a_position.

(** C83: the chance that the decoder does not recover the message is at most the sum of the probabilities of the unfrozen positions and at least each of
    them.  [received e] is what the receiver holds when [e] says what is erased. *)
Theorem C83_chance_of_failure : forall MAX_M soft hard out frozen level message codeword cw received fails pe,
  (forall e, length e = 2 ^ level -> decoder_buffers MAX_M soft hard out (received e) frozen level /\ Forall int8 (received e) /\ with_erasures e cw (received e)) ->
  Forall pm1 message -> length message = unfrozen (flags frozen (2 ^ level)) -> 2 ^ level <= length codeword ->
  polar_encode ops8 codeword message frozen level = Ok cw ->
  (forall e, length e = 2 ^ level -> fails e = false <->
     exists soft' hard', polar_decode ops8 MAX_M soft hard out (received e) frozen level = Ok (soft', hard', message ++ skipn (length message) out)) ->
  (0 <= pe)%Q -> (pe <= 1)%Q ->
  (chance pe (2 ^ level) fails <= sum_unfrozen (flags frozen (2 ^ level)) (erasure exact level pe))%Q /\
  (forall i, i < 2 ^ level -> is_frozen frozen i = false -> (erasure exact level pe i <= chance pe (2 ^ level) fails)%Q).
Proof.
  intros MAX_M soft hard out f n msg cw0 cw rc fails pe HR F Lm Hc E HF P0 P1.
  assert (X : (chance pe (2 ^ n) fails == chance pe (2 ^ n) (lost n (flags f (2 ^ n))))%Q).
  { apply chance_ext. intros e Le. destruct (HR e Le) as (HB & I8 & HS). apply Bool.eq_iff_eq_true. rewrite (lost_ambiguous n f e Le).
    destruct (C83_decoding_erasures MAX_M soft hard out (rc e) f n msg cw0 cw e HB F Lm Hc E I8 Le HS) as (s' & w & m & D & _ & LM & _ & _ & C & G). split.
    - intros T. destruct (lost n (flags f (2 ^ n)) e) eqn:LS; [apply (lost_ambiguous n f e Le); exact LS|]. exfalso.
      destruct C as (-> & _); [intros H; apply (lost_ambiguous n f e Le) in H; congruence|]. assert (fails e = false) by (apply (HF e Le); eauto). congruence.
    - intros H. destruct (fails e) eqn:Ef; [reflexivity|]. exfalso. apply (HF e Le) in Ef. destruct Ef as (s2 & h2 & D2). rewrite D in D2. injection D2 as _ _ D2.
      apply app_inv_tail in D2. subst m. specialize (G H). rewrite Forall_forall in F. destruct (F _ G); lia. }
  destruct (lost_chance n (flags f (2 ^ n)) pe (length_flags _ _) P0 P1) as (A & B). split; [rewrite X; exact A|]. intros i Hi Fi. rewrite X. apply B; [exact Hi|].
  rewrite (nth_indep _ true false) by (rewrite length_flags; lia). rewrite nth_flags by exact Hi. exact Fi.
Qed.
Print Assumptions C83_chance_of_failure.

(** C83: so for the positions PolarFreezer leaves unfrozen, the sum is at most their number times the threshold *)
Theorem C83_freezer : forall frozen level pe th K frozen', level <= 30 -> 2 ^ level <= 32 * length frozen ->
  polar_freezer exact frozen level pe th = Ok (K, frozen') ->
  (sum_unfrozen (flags frozen' (2 ^ level)) (erasure exact level pe) <= inject_Z K * th)%Q.
Proof.
  intros f n pe th K f' Hl Hf E. destruct (C47_freezer exact f n pe th Hl Hf) as (K2 & f2 & E2 & _ & _ & HK & HL & _). rewrite E2 in E. injection E as <- <-. rewrite HK.
  apply sum_le_count. intros i Hi Fi. rewrite length_flags in Hi. rewrite (nth_indep _ true false) in Fi by (rewrite length_flags; lia). rewrite nth_flags in Fi by exact Hi.
  rewrite HL in Fi by exact Hi. apply exact_nless in Fi. exact Fi.
Qed.
Print Assumptions C83_freezer.
(** C83: and PolarCodeConst0's choice makes the sum least among all choices of as many positions *)
Theorem C83_const0_least : forall nth_element MAX_M prob index frozen level K pe prob' index' frozen' other,
  partitions nth_element -> level <= MAX_M <= 30 -> length prob = 2 ^ MAX_M -> length index = 2 ^ MAX_M -> 2 ^ level <= 32 * length frozen -> K <= 2 ^ level ->
  polar_code_const0 exact nth_element MAX_M prob index frozen level K pe = Ok (prob', index', frozen') ->
  unfrozen (flags other (2 ^ level)) = K ->
  (sum_unfrozen (flags frozen' (2 ^ level)) (erasure exact level pe) <= sum_unfrozen (flags other (2 ^ level)) (erasure exact level pe))%Q.
Proof.
  intros ne MAX_M prob index f n K pe p' i' f' other HP HM Lp Li Hf HK E HO.
  destruct (C47_const0 exact ne MAX_M prob index f n K pe HP (exact_orders n pe _) HM Lp Li Hf HK) as (p2 & i2 & f2 & E2 & _ & _ & _ & _ & U & R & _).
  rewrite E2 in E. injection E as <- <- <-. apply least_sum; [rewrite !length_flags; reflexivity|congruence|]. intros i j Hi Hj Fi Fj. rewrite length_flags in Hi, Hj.
  rewrite (nth_indep _ true false) in Fi by (rewrite length_flags; lia). rewrite (nth_indep _ true false) in Fj by (rewrite length_flags; lia). rewrite nth_flags in Fi, Fj by assumption. specialize (R i j Hi Hj Fi Fj). apply exact_nless in R. exact R.
Qed.
Print Assumptions C83_const0_least.

(** the hypotheses are met: the code of C42, with a received word for every pattern and the test of failure *)
Definition erase (e : list bool) (cw : list Z) : list Z := map (fun p => if fst p : bool then 0%Z else (7 * snd p)%Z) (combine e cw).
Lemma erase_ok e cw : length e = length cw -> Forall pm1 cw -> length (erase e cw) = length cw /\ Forall int8 (erase e cw) /\ with_erasures e cw (erase e cw).
Proof.
  intros L F. unfold erase. split; [rewrite map_length, combine_length; lia|]. split.
  - apply Forall_forall. intros x Hx. apply in_map_iff in Hx. destruct Hx as ((b & z) & <- & Hz). apply in_combine_r in Hz. rewrite Forall_forall in F. specialize (F z Hz). cbn [fst snd].
    unfold int8. destruct b, F; subst; lia.
  - intros j Hj. rewrite (nth_map1 _ _ _ (true, 0%Z)) by (rewrite combine_length; lia). rewrite combine_nth by exact L. cbn [fst snd]. destruct (nth j e true); [reflexivity|].
    rewrite Forall_forall in F. assert (P : pm1 (nth j cw 0%Z)) by (apply F, nth_In; lia). destruct P as [-> | ->]; reflexivity.
Qed.
Definition some_lost (k : nat) : list bool := map (fun i => (i * 5) mod 64 <? k) (seq 0 64).
Example C83_nonvacuous :
  let received e := erase e Prop_polar.ex_cw in let fails := lost 6 (flags Prop_polar.ex_frozen 64) in
  (forall e, length e = 2 ^ 6 -> decoder_buffers 6 (repeat 0%Z 128) (repeat 0%Z 64) (repeat 0%Z 30) (received e) Prop_polar.ex_frozen 6 /\ Forall int8 (received e) /\ with_erasures e Prop_polar.ex_cw (received e)) /\
  (forall e, length e = 2 ^ 6 -> fails e = false <-> exists soft' hard',
     polar_decode ops8 6 (repeat 0%Z 128) (repeat 0%Z 64) (repeat 0%Z 30) (received e) Prop_polar.ex_frozen 6 = Ok (soft', hard', Prop_polar.ex_message ++ skipn (length Prop_polar.ex_message) (repeat 0%Z 30))) /\
  (x <- polar_decode ops8 6 (repeat 0%Z 128) (repeat 0%Z 64) (repeat 0%Z 30) (received (some_lost 12)) Prop_polar.ex_frozen 6 ;; Ok (firstn 22 (snd x))) = Ok Prop_polar.ex_message /\
  fails (some_lost 12) = false /\ fails (some_lost 16) = true /\
  (forall e, length e = 2 ^ 5 -> unknown 5 e 3 = true <-> ambiguous 5 e 3) /\
  (x <- polar_freezer exact [0%N] 5 (1 # 4)%Q (1 # 10)%Q ;; Ok (fst x)) = Ok 18%Z.
Proof.
  destruct Prop_polar.C40_C43_nonvacuous as (_ & F & Lm & _ & HB & E & _).
  assert (FC : Forall pm1 Prop_polar.ex_cw) by (apply Forall_forall; intros x Hx; unfold Prop_polar.ex_cw in Hx; cbn in Hx; unfold pm1; intuition lia).
  assert (A : forall e, length e = 2 ^ 6 -> decoder_buffers 6 (repeat 0%Z 128) (repeat 0%Z 64) (repeat 0%Z 30) (erase e Prop_polar.ex_cw) Prop_polar.ex_frozen 6 /\ Forall int8 (erase e Prop_polar.ex_cw) /\ with_erasures e Prop_polar.ex_cw (erase e Prop_polar.ex_cw)).
  { intros e Le. destruct (erase_ok e Prop_polar.ex_cw Le FC) as (L & I8 & W). split; [|split; assumption]. destruct HB as (H1 & H2 & H3 & H4 & H5 & H6 & H7 & H8).
    unfold decoder_buffers. rewrite L. split; [exact H1|]. split; [exact H2|]. split; [exact H3|]. split; [exact H4|]. split; [apply Nat.leb_le; vm_compute; reflexivity|]. split; [exact H6|]. split; [exact H7|exact H8]. }
  cbn zeta. split; [exact A|]. split.
  - intros e Le. destruct (A e Le) as (HB' & I8 & W). assert (LA := lost_ambiguous 6 Prop_polar.ex_frozen e Le). change (2 ^ 6) with 64 in LA.
    assert (L64 : 2 ^ 6 <= length (repeat 0%Z 64)) by (rewrite repeat_length; apply Nat.leb_le; reflexivity).
    destruct (C83_decoding_erasures _ _ _ _ _ _ _ _ _ _ e HB' F Lm L64 E I8 Le W) as (s' & w & m & D & _ & LM & _ & _ & C & G).
    split.
    + intros T. destruct C as (-> & _); [intros H; apply LA in H; congruence|]. eauto.
    + intros (s2 & h2 & D2). rewrite D in D2. assert (D3 : m ++ skipn (length Prop_polar.ex_message) (repeat 0%Z 30) = Prop_polar.ex_message ++ skipn (length Prop_polar.ex_message) (repeat 0%Z 30)) by congruence.
      apply app_inv_tail in D3. subst m. apply not_true_is_false. intros T. apply LA in T. specialize (G T).
      rewrite Forall_forall in F. destruct (F _ G); lia.
  - split; [vm_compute; reflexivity|]. split; [vm_compute; reflexivity|]. split; [vm_compute; reflexivity|]. split; [|vm_compute; reflexivity].
    intros e Le. apply unknown_ambiguous; [exact Le|]. apply Nat.ltb_lt. reflexivity.
Qed.
