(** Properties C40 - C43 and C59: polar_encoder.hh, polar_decoder.hh and polar_helper.hh. *)
From Coq Require Import ZifyBool ZifyNat.
From Verif Require Import Cpp Model_simd Model_polar Spec_polar Lib_list Lib_wht Proof_bits Proof_simd Proof_polar1 Proof_polar2 Proof_polar3 Proof_polar4 Proof_polar5 Proof_polar6 Proof_polar7.
Local Open Scope nat_scope.
Ltac Zify.zify_post_hook ::= idtac.

(** ** C40 *)
(** the frozen words cover the code, the codeword buffer and the message are long enough *)
Definition encoder_buffers (codeword message : list Z) (frozen : list N) (level : nat) : Prop :=
  1 <= level <= 30 /\ 2 ^ level <= 32 * length frozen /\ 2 ^ level <= length codeword /\ unfrozen (flags frozen (2 ^ level)) <= length message.
(** C40: the codeword is the transform of the expanded message, the rest of the buffer is untouched *)
Theorem C40_encoder_is_the_transform : forall codeword message frozen level,
  encoder_buffers codeword message frozen level -> Forall pm1 message ->
  exists cw, polar_encode ops8 codeword message frozen level = Ok cw /\
    firstn (2 ^ level) cw = transform level (expand (flags frozen (2 ^ level)) message) /\
    Forall pm1 (firstn (2 ^ level) cw) /\
    skipn (2 ^ level) cw = skipn (2 ^ level) codeword.
Proof.
  intros cw0 m f n (Hn & Hf & Hc & Hm) F. rewrite encode_ok by assumption. eexists. split; [reflexivity|].
  rewrite firstn_app_l, skipn_app_l by apply length_transform. split; [reflexivity|]. split; [|reflexivity].
  apply pm1_transform; [rewrite length_expand, length_flags; reflexivity|apply pm1_expand; exact F].
Qed.
Print Assumptions C40_encoder_is_the_transform.
(** C40: the transform is its own inverse on +1/-1 words *)
Theorem C40_transform_involution : forall n u, length u = 2 ^ n -> Forall pm1 u -> transform n (transform n u) = u.
Proof.
  intros n u L F. rewrite <- (ptr_transform n u) by exact L. rewrite <- ptr_transform by (apply length_ptr; exact L). apply ptr_invol; assumption.
Qed.
Print Assumptions C40_transform_involution.
(** C40: exactly as many message symbols as unfrozen positions are read: with one less the read is out of bounds,
    and symbols beyond them do not matter *)
Theorem C40_reads_exactly_the_unfrozen : forall codeword message frozen level,
  1 <= level <= 30 -> 2 ^ level <= 32 * length frozen -> 2 ^ level <= length codeword ->
  (length message < unfrozen (flags frozen (2 ^ level)) -> polar_encode ops8 codeword message frozen level = Undef) /\
  (unfrozen (flags frozen (2 ^ level)) <= length message -> Forall pm1 message -> forall more, Forall pm1 more ->
   polar_encode ops8 codeword (firstn (unfrozen (flags frozen (2 ^ level))) message ++ more) frozen level = polar_encode ops8 codeword message frozen level).
Proof.
  intros cw m f n Hn Hf Hc. split.
  - intros H. unfold polar_encode. replace (n <=? 30) with true by lia. cbn [require bind]. rewrite expand_short by (assumption || lia). reflexivity.
  - intros Hm F more Fm. rewrite !encode_ok; try assumption.
    + do 3 f_equal. assert (forall fl a b, unfrozen fl <= length a -> expand fl (firstn (unfrozen fl) a ++ b) = expand fl a) as G.
      { induction fl as [|[|] fl IH]; intros a b L; [reflexivity|cbn [expand]; f_equal; apply IH; exact L|].
        unfold unfrozen in *. cbn [filter negb length] in *. destruct a as [|x a]; cbn [length] in L; [lia|]. cbn [firstn Datatypes.app expand hd tl]. f_equal. apply IH. lia. }
      apply G. exact Hm.
    + rewrite app_length, firstn_length. lia.
    + apply Forall_app. split; [apply Forall_firstn_; exact F|exact Fm].
Qed.
Print Assumptions C40_reads_exactly_the_unfrozen.

(** ** C41 *)
Lemma collect_keep fl : forall x, length fl = length x -> keep fl x = expand fl (collect fl x) /\ length (collect fl x) = unfrozen fl.
Proof.
  induction fl as [|[|] fl IH]; intros [|y x] L; cbn [length] in L; try discriminate; [auto|destruct (IH x ltac:(lia)) as [E1 E2]..];
    unfold keep, unfrozen in *; cbn [combine map fst snd collect expand hd tl filter negb length]; rewrite ?E1, ?E2; auto.
Qed.
Lemma collect_pm1 fl : forall x, Forall pm1 x -> Forall pm1 (collect fl x).
Proof. induction fl as [|[|] fl IH]; intros [|y x] F; cbn [collect]; try constructor; inversion F; subst; auto. Qed.
Lemma collect_expand fl : forall w m, length w = length fl -> (forall i, i < length fl -> nth i fl true = false -> nth i w 0%Z = nth i (expand fl m) 1%Z) ->
  unfrozen fl <= length m -> collect fl w = firstn (unfrozen fl) m.
Proof.
  induction fl as [|f fl IH]; intros [|y w] m L H Hm; cbn [length] in L; try discriminate; [reflexivity|].
  assert (forall m', (forall i, i < length fl -> nth i fl true = false -> nth i w 0%Z = nth i (expand fl m') 1%Z) -> unfrozen fl <= length m' -> collect fl w = firstn (unfrozen fl) m') as IH' by (intros; apply IH; auto; lia).
  unfold unfrozen in *. destruct f; cbn [filter negb length collect firstn] in *.
  - apply IH'; [|exact Hm]. intros i Hi Ei. apply (H (S i)); [cbn [length]; lia|exact Ei].
  - destruct m as [|z m]; cbn [length] in Hm; [lia|]. cbn [firstn]. f_equal.
    + exact (H 0 ltac:(cbn [length]; lia) eq_refl).
    + apply IH'; [|lia]. intros i Hi Ei. apply (H (S i)); [cbn [length]; lia|exact Ei].
Qed.
(** C41: the systematic encoder's codeword is the encoder's codeword for some message, and at the unfrozen positions
    it shows the given message *)
Theorem C41_systematic : forall codeword message frozen level,
  encoder_buffers codeword message frozen level -> Forall pm1 message -> domination_closed (flags frozen (2 ^ level)) ->
  exists cw, polar_sysenc ops8 codeword message frozen level = Ok cw /\
    collect (flags frozen (2 ^ level)) (firstn (2 ^ level) cw) = firstn (unfrozen (flags frozen (2 ^ level))) message /\
    exists message', Forall pm1 message' /\ length message' = unfrozen (flags frozen (2 ^ level)) /\
      polar_encode ops8 codeword message' frozen level = Ok cw.
Proof.
  intros cw0 m f n (Hn & Hf & Hc & Hm) F D. rewrite sysenc_ok by assumption. set (fl := flags f (2 ^ n)) in *.
  assert (length fl = 2 ^ n) as Lf by apply length_flags. set (x := transform n (expand fl m)) in *.
  assert (length x = 2 ^ n) as Lx by apply length_transform.
  assert (length (expand fl m) = 2 ^ n) as Le by (rewrite length_expand; exact Lf).
  assert (Forall pm1 x) as Fx by (apply pm1_transform; [exact Le|apply pm1_expand; exact F]).
  destruct (collect_keep fl x ltac:(lia)) as (EK & LK). eexists. split; [reflexivity|]. split.
  - rewrite firstn_app_l by apply length_transform. apply collect_expand.
    + rewrite length_transform. lia.
    + intros i Hi Ei. rewrite Lf in Hi. apply transform_keep; try assumption. apply pm1_expand; exact F.
    + exact Hm.
  - exists (collect fl x). split; [apply collect_pm1; exact Fx|]. split; [exact LK|].
    rewrite encode_ok; try assumption; [|fold fl; lia|apply collect_pm1; exact Fx]. fold fl. rewrite EK. reflexivity.
Qed.
Print Assumptions C41_systematic.
(** without closure it need not be systematic: positions 0, 1 and 3 unfrozen, the message comes back changed *)
Example C41_needs_closure : exists cw, polar_sysenc ops8 (repeat 0%Z 4) [1; 1; -1]%Z [4%N] 2 = Ok cw /\
  collect (flags [4%N] 4) cw = [-1; 1; -1]%Z.
Proof. eexists. split; [vm_compute; reflexivity|]. vm_compute. reflexivity. Qed.

(** ** C42, C43, C59 *)
(** sizes of the object's arrays and the caller's buffers *)
Definition decoder_buffers {A} (MAX_M : nat) (soft hard message received : list A) (frozen : list N) (level : nat) : Prop :=
  5 <= level <= 20 /\ level <= MAX_M /\ length soft = 2 * 2 ^ MAX_M /\ length hard = 2 ^ MAX_M /\ 2 ^ level <= length received /\
  2 ^ level <= 32 * length frozen /\ Forall (fun w => (w < 2 ^ 32)%N) frozen /\ unfrozen (flags frozen (2 ^ level)) <= length message.
Lemma decode_gen' {A} (P : polar_ops A) (d : A) MAX_M soft hard message received frozen level : decoder_buffers MAX_M soft hard message received frozen level ->
  let '(m, x) := fnode P level (flags frozen (2 ^ level)) (firstn (2 ^ level) received) in
  length m = unfrozen (flags frozen (2 ^ level)) /\ length x = 2 ^ level /\
  exists soft', length soft' = length soft /\
    polar_decode P MAX_M soft hard message received frozen level = Ok (soft', x ++ skipn (2 ^ level) hard, m ++ skipn (length m) message).
Proof.
  intros (H1 & H2 & H3 & H4 & H5 & H6 & H7 & H8). pose proof (Nat.pow_le_mono_r 2 level MAX_M ltac:(lia) H2).
  pose proof (decode_gen P d MAX_M soft hard message received frozen level H1 H2 ltac:(lia) ltac:(lia) H5 H6 H7 H8) as D.
  pose proof (fnode_len P level (flags frozen (2 ^ level)) (firstn (2 ^ level) received) ltac:(lia) (length_flags _ _) ltac:(rewrite firstn_length; lia)) as (LM & LX).
  destruct (fnode P level _ _) as [m x]. cbn [fst snd] in *. auto.
Qed.
(** C42: whatever the object contains, from values with the signs of a codeword (and any non-zero magnitudes) the
    decoder recovers the message; the symbols beyond it are not written *)
Theorem C42_noiseless : forall MAX_M soft hard out received frozen level message codeword cw,
  decoder_buffers MAX_M soft hard out received frozen level ->
  Forall pm1 message -> length message = unfrozen (flags frozen (2 ^ level)) -> 2 ^ level <= length codeword ->
  polar_encode ops8 codeword message frozen level = Ok cw ->
  Forall int8 received -> (forall i, i < 2 ^ level -> Z.sgn (nth i received 0%Z) = nth i cw 0%Z) ->
  exists soft' hard', polar_decode ops8 MAX_M soft hard out received frozen level = Ok (soft', hard', message ++ skipn (length message) out) /\
    firstn (2 ^ level) hard' = firstn (2 ^ level) cw.
Proof.
  intros MAX_M soft hard out r f n msg cw0 cw HB F Lm Hc E I8 HS. pose proof (decode_gen' ops8 0%Z MAX_M soft hard out r f n HB) as D.
  destruct HB as (H1 & H2 & H3 & H4 & H5 & H6 & H7 & H8). rewrite encode_ok in E by (assumption || lia). injection E as <-.
  set (fl := flags f (2 ^ n)) in *. assert (length fl = 2 ^ n) as Lf by apply length_flags.
  assert (length (expand fl msg) = 2 ^ n) as Le by (rewrite length_expand; exact Lf).
  rewrite node8 in D by (apply Forall_firstn_; exact I8).
  rewrite (node_inverts n fl ltac:(lia) Lf msg) in D; try assumption.
  - destruct D as (_ & Lx & soft' & _ & D). rewrite D. do 2 eexists. split; [reflexivity|]. rewrite ptr_transform by exact Le.
    rewrite !firstn_app_l by apply length_transform. reflexivity.
  - rewrite firstn_length. lia.
  - rewrite ptr_transform by exact Le. apply (list_ext _ _ 0%Z); [rewrite map_length, firstn_length, length_transform; lia|].
    intros i Hi. rewrite map_length, firstn_length in Hi. rewrite (nth_map1 _ _ _ 0%Z) by (rewrite firstn_length; lia).
    rewrite nth_firstn'. replace (i <? 2 ^ n) with true by lia. rewrite HS by lia. rewrite app_nth1 by (rewrite length_transform; lia). reflexivity.
Qed.
Print Assumptions C42_noiseless.
(** C42: the other levels are refused by an assertion *)
Theorem C42_other_levels_refused : forall MAX_M soft hard out received frozen level,
  length soft = 2 * 2 ^ MAX_M -> MAX_M <= 20 -> 2 ^ level <= length received -> level < 5 \/ MAX_M < level ->
  polar_decode ops8 MAX_M soft hard out received frozen level = Abort.
Proof.
  intros MAX_M soft hard out r f n Ls HM Hr H. unfold polar_decode. destruct (Nat.leb_spec n MAX_M) as [C|C]; [|reflexivity]. cbn [assert_ bind].
  destruct H as [H|H]; [|lia]. replace (n <=? 30) with true by lia. cbn [require bind]. pose proof (Nat.pow_le_mono_r 2 n MAX_M ltac:(lia) C).
  rewrite (fill_ok (2 ^ n) (2 ^ n) (fun i => nth i r 0%Z)); [|lia|].
  - cbn [bind]. replace (n =? 5) with false by lia. replace ((6 <=? n) && (n <=? 20)) with false by lia. reflexivity.
  - intros i cur Hi _. rewrite (rd_nth _ _ 0%Z) by lia. reflexivity.
Qed.
Print Assumptions C42_other_levels_refused.

(** C43: for all soft values the decoded message is that of plain successive cancellation up to and including the
    first tie (a zero); without a tie message and word are the same *)
Theorem C43_shortcuts_change_nothing : forall MAX_M soft hard out received frozen level,
  decoder_buffers MAX_M soft hard out received frozen level -> Forall int8 received ->
  let plain := successive_cancellation level (flags frozen (2 ^ level)) (firstn (2 ^ level) received) in
  exists soft' hard' message, polar_decode ops8 MAX_M soft hard out received frozen level = Ok (soft', hard', message ++ skipn (length message) out) /\
    same_until_tie message (fst plain) /\
    (Forall (fun x => x <> 0%Z) (fst plain) -> message = fst plain /\ firstn (2 ^ level) hard' = snd plain).
Proof.
  intros MAX_M soft hard out r f n HB I8 plain. pose proof (decode_gen' ops8 0%Z MAX_M soft hard out r f n HB) as D.
  destruct HB as (H1 & H2 & H3 & H4 & H5 & H6 & H7 & H8). rewrite node8 in D by (apply Forall_firstn_; exact I8).
  assert (length (flags f (2 ^ n)) = 2 ^ n) as Lf by apply length_flags.
  assert (length (firstn (2 ^ n) r) = 2 ^ n) as Lr by (rewrite firstn_length; lia).
  destruct (agrees_node n (flags f (2 ^ n)) (firstn (2 ^ n) r) ltac:(lia) Lf Lr) as (S1 & S2).
  destruct (fnode zops n _ _) as [m x]. cbn [fst] in *. destruct D as (_ & Lx & soft' & _ & D). rewrite D. do 3 eexists. split; [reflexivity|].
  fold plain in S1, S2. split; [exact S1|]. intros N. rewrite firstn_app_l by exact Lx. rewrite <- S2; [auto|].
  rewrite (sut_nonzero m (fst plain) S1 (or_intror N)). exact N.
Qed.
Print Assumptions C43_shortcuts_change_nothing.
(** with a tie the later symbols may differ: positions 28, 29 and 31 unfrozen *)
Definition tie_frozen : list N := [1342177279%N].
Definition tie_received : list Z := repeat 0%Z 28 ++ [5; 0; -3; 7]%Z.
Example C43_ties_differ :
  (x <- polar_decode ops8 5 (repeat 0%Z 64) (repeat 0%Z 32) (repeat 0%Z 3) tie_received tie_frozen 5 ;; Ok (snd x)) = Ok [0; 0; -1]%Z /\
  fst (successive_cancellation 5 (flags tie_frozen 32) tie_received) = [0; 0; 1]%Z.
Proof. split; vm_compute; reflexivity. Qed.

(** C59: every lane of the SIMD decoder (both variants of the helper) decodes like the scalar one, for values above -128 *)
Theorem C59_lanes_decode_independently : forall W P MAX_M soft hard out received frozen level,
  P = ops8v W \/ P = ops8v_neon W ->
  decoder_buffers MAX_M soft hard out received frozen level ->
  Forall (fun v => length v = W /\ Forall (fun x => (-127 <= x <= 127)%Z) v) received ->
  exists soft' hard' message', polar_decode P MAX_M soft hard out received frozen level = Ok (soft', hard', message') /\
  forall k, k < W -> forall soft1 hard1, length soft1 = 2 * 2 ^ MAX_M -> length hard1 = 2 ^ MAX_M ->
  let column l := map (fun v => nth k v 0%Z) l in
  exists soft1' hard1', polar_decode ops8 MAX_M soft1 hard1 (column out) (column received) frozen level = Ok (soft1', hard1', column message') /\
    firstn (2 ^ level) hard1' = column (firstn (2 ^ level) hard').
Proof.
  intros W P MAX_M soft hard out r f n HP HB HF.
  assert (vops_ok W P) as OK by (destruct HP as [-> | ->]; [apply ops8v_ok|apply ops8v_neon_ok]).
  pose proof (decode_gen' P [] MAX_M soft hard out r f n HB) as D.
  set (sl := firstn (2 ^ n) r) in *.
  pose proof (fun k Hk H1 H2 => vnode_lane W P n (flags f (2 ^ n)) sl k OK Hk H1 H2) as V.
  destruct (fnode P n (flags f (2 ^ n)) sl) as [m x] eqn:EF. cbn [fst snd] in V. destruct D as (Lm & Lx & soft' & _ & D). rewrite D. do 3 eexists. split; [reflexivity|].
  intros k Hk s1 h1 Hs1 Hh1 column.
  assert (decoder_buffers MAX_M s1 h1 (column out) (column r) f n) as HB1.
  { destruct HB as (H1 & H2 & H3 & H4 & H5 & H6 & H7 & H8). unfold decoder_buffers, column. rewrite !map_length. auto 10. }
  pose proof (decode_gen' ops8 0%Z MAX_M s1 h1 (column out) (column r) f n HB1) as D1.
  assert (firstn (2 ^ n) (column r) = map (lane k) sl) as Es by (unfold column, sl; rewrite firstn_map; reflexivity).
  rewrite Es in D1. destruct (V k Hk) as (Vm & Vx).
  - unfold sl. apply Forall_firstn_. eapply Forall_impl; [|exact HF]. intros v (L & F). split; [exact L|]. eapply Forall_impl; [|exact F]. unfold int8. intros; lia.
  - unfold sl. apply Forall_firstn_. eapply Forall_impl; [|exact HF]. intros v (L & F). unfold lane. rewrite Forall_forall in F. apply F. apply nth_In. lia.
  - destruct (fnode ops8 n (flags f (2 ^ n)) (map (lane k) sl)) as [m1 x1]. cbn [fst snd] in Vm, Vx. subst m1 x1. destruct D1 as (Lm1 & Lx1 & soft1' & _ & D1).
    rewrite D1. do 2 eexists. split.
    + do 2 f_equal. unfold column. rewrite map_app, skipn_map, map_length. reflexivity.
    + rewrite !firstn_app_l by assumption. reflexivity.
Qed.
Print Assumptions C59_lanes_decode_independently.

(** ** The hypotheses are met by a non-trivial case: level 6, 22 unfrozen positions, closed upwards *)
Definition ex_flags : list bool := map (fun i => negb (4 <=? length (filter (Nat.testbit i) (seq 0 6)))) (seq 0 64) .
Definition ex_word (k : nat) : N := fold_right (fun i acc => N.lor acc (if nth (32 * k + i) ex_flags true then 2 ^ N.of_nat i else 0)%N) 0%N (seq 0 32).
Definition ex_frozen : list N := Eval vm_compute in [ex_word 0; ex_word 1].
Definition ex_message : list Z := map (fun i => if (i * i) mod 3 =? 1 then (-1)%Z else 1%Z) (seq 0 22).
Definition ex_cw : list Z := Eval vm_compute in match polar_encode ops8 (repeat 0%Z 64) ex_message ex_frozen 6 with Ok c => c | _ => [] end.
Definition ex_received : list Z := map (fun p => (snd p * (if (fst p mod 7 =? 0)%nat then 127 else Z.of_nat (1 + fst p)))%Z) (combine (seq 0 64) ex_cw).
Example C40_C43_nonvacuous :
  encoder_buffers (repeat 0%Z 64) ex_message ex_frozen 6 /\ Forall pm1 ex_message /\ length ex_message = unfrozen (flags ex_frozen (2 ^ 6)) /\
  domination_closed (flags ex_frozen (2 ^ 6)) /\ decoder_buffers 6 (repeat 0%Z 128) (repeat 0%Z 64) (repeat 0%Z 30) ex_received ex_frozen 6 /\
  polar_encode ops8 (repeat 0%Z 64) ex_message ex_frozen 6 = Ok ex_cw /\ Forall int8 ex_received /\
  (forall i, i < 2 ^ 6 -> Z.sgn (nth i ex_received 0%Z) = nth i ex_cw 0%Z).
Proof.
  assert (length (flags ex_frozen 64) = 64) as Lf by apply length_flags.
  assert (Forall pm1 ex_message) as F.
  { apply Forall_forall. intros x Hx. apply in_map_iff in Hx. destruct Hx as (i & <- & _). unfold pm1. destruct (_ =? _); auto. }
  assert (unfrozen (flags ex_frozen 64) = 22) as U by (vm_compute; reflexivity).
  split; [|split; [exact F|split; [symmetry; exact U|split; [|split; [|split; [vm_compute; reflexivity|split]]]]]].
  - unfold encoder_buffers. change (2 ^ 6) with 64. rewrite U. split; [lia|]. split; [cbn; lia|]. split; [cbn; lia|cbn; lia].
  - change (2 ^ 6) with 64. intros i j Hi Hj L E. rewrite Lf in Hi, Hj.
    assert (forallb (fun i => forallb (fun j => negb ((Nat.land i j =? i) && negb (nth i (flags ex_frozen 64) true)) || negb (nth j (flags ex_frozen 64) true)) (seq 0 64)) (seq 0 64) = true) as C by (vm_compute; reflexivity).
    rewrite forallb_forall in C. specialize (C i ltac:(apply in_seq; lia)). rewrite forallb_forall in C. specialize (C j ltac:(apply in_seq; lia)).
    rewrite E in C. replace (Nat.land i j =? i) with true in C by (symmetry; apply Nat.eqb_eq; exact L). cbn [negb andb orb] in C. apply negb_true_iff in C. exact C.
  - unfold decoder_buffers. change (2 ^ 6) with 64. rewrite U. split; [lia|]. split; [lia|]. split; [reflexivity|]. split; [reflexivity|]. split; [vm_compute; lia|]. split; [cbn; lia|].
    split; [repeat constructor|cbn; lia].
  - apply Forall_forall. intros x Hx. assert (forallb (fun x => (-128 <=? x) && (x <=? 127))%Z ex_received = true) as C by (vm_compute; reflexivity).
    rewrite forallb_forall in C. specialize (C x Hx). unfold int8. lia.
  - change (2 ^ 6) with 64. intros i Hi. assert (forallb (fun i => Z.eqb (Z.sgn (nth i ex_received 0%Z)) (nth i ex_cw 0%Z)) (seq 0 64) = true) as C by (vm_compute; reflexivity).
    rewrite forallb_forall in C. specialize (C i ltac:(apply in_seq; lia)). lia.
Qed.
