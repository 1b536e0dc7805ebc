(** Property C90: systematic polar coding from sender to receiver. *)
From Coq Require Import ZifyBool ZifyNat.
From Verif Require Import Cpp Model_simd Model_polar Model_polar_chain Spec_polar Lib_list Lib_wht Proof_bits Proof_simd
  Proof_polar1 Proof_polar2 Proof_polar3 Proof_polar4 Proof_polar5 Proof_polar6 Proof_polar7 Prop_polar Prop_polar_sym.
Local Open Scope nat_scope.
Ltac Zify.zify_post_hook ::= idtac.

(** ** Encoding a message with ties *)
Lemma tern_expand fl : forall m, Forall tern m -> Forall tern (expand fl m).
Proof.
  induction fl as [|[|] fl IH]; intros m F; cbn [expand]; constructor; auto.
  - unfold tern. lia.
  - destruct m; cbn [hd]; [unfold tern; lia|]. inversion F; auto.
  - apply IH. destruct m; [constructor|inversion F; auto].
Qed.
Lemma encode_tern codeword message frozen level : 1 <= level <= 30 -> 2 ^ level <= 32 * length frozen -> 2 ^ level <= length codeword ->
  unfrozen (flags frozen (2 ^ level)) <= length message -> Forall tern (firstn (unfrozen (flags frozen (2 ^ level))) message) ->
  polar_encode ops8 codeword message frozen level = Ok (transform level (expand (flags frozen (2 ^ level)) message) ++ skipn (2 ^ level) codeword).
Proof.
  intros Hn Hf Hc Hm Fm. unfold polar_encode. replace (level <=? 30) with true by lia. cbn [require bind].
  destruct (expand_ok message frozen level codeword ltac:(lia) Hf Hc Hm) as (cw & E & I). rewrite E. cbn [bind].
  set (fl := flags frozen (2 ^ level)) in *. assert (length fl = 2 ^ level) as Lf by apply length_flags.
  assert (length (expand fl message) = 2 ^ level) as Lu by (rewrite length_expand; exact Lf).
  destruct (stages_ok ops8 0%Z 0 level _ codeword cw ltac:(lia) Hc I) as (o & E1 & I1). rewrite E1. f_equal.
  rewrite <- (zblk_transform level (expand fl message) Lu).
  eapply shows_list; [|exact Hc]. eapply shows_ext; [exact I1|]. intros j Hj. apply blk_zblk. intros i.
  destruct (Nat.lt_ge_cases i (2 ^ level)) as [C|C].
  2: { rewrite nth_overflow by lia. unfold tern. lia. }
  rewrite nth_expand by lia. destruct (nth i fl true) eqn:Ef; [unfold tern; lia|]. pose proof (before_lt fl i ltac:(lia) Ef) as Hb.
  rewrite Forall_forall in Fm. apply Fm. rewrite <- (nth_firstn' message (unfrozen fl) (before fl i) 1%Z) || idtac.
  assert (nth (before fl i) message 1%Z = nth (before fl i) (firstn (unfrozen fl) message) 1%Z) as -> by (rewrite nth_firstn'; replace (before fl i <? unfrozen fl) with true by lia; reflexivity).
  apply nth_In. rewrite firstn_length. lia.
Qed.
(** ** The loop at the end *)
Lemma collect_snoc fl : forall w f x, length w = length fl -> collect (fl ++ [f]) (w ++ [x]) = collect fl w ++ if (f : bool) then [] else [x].
Proof.
  induction fl as [|[|] fl IH]; intros [|y w] f x L; cbn [length] in L; try discriminate; cbn [Datatypes.app collect].
  - destruct f; reflexivity.
  - apply IH. lia.
  - rewrite IH by lia. reflexivity.
Qed.
Lemma length_collect fl : forall w, length w = length fl -> length (collect fl w) = unfrozen fl.
Proof. intros w L. apply collect_keep. lia. Qed.
Lemma upd_here {X} (l t : list X) y v : forall n, length l = n -> upd (l ++ y :: t) n v = l ++ v :: t.
Proof. induction l as [|z l IH]; intros n L; subst n; [reflexivity|]. cbn [length Datatypes.app upd]. f_equal. apply IH. reflexivity. Qed.
Lemma extract_ok N temp frozen decoded : N <= 32 * length frozen -> N <= length temp -> unfrozen (flags frozen N) <= length decoded ->
  chain_extract N temp frozen decoded = Ok (collect (flags frozen N) (firstn N temp) ++ skipn (unfrozen (flags frozen N)) decoded).
Proof.
  intros Hf Ht Hd. set (fl := flags frozen N) in *. assert (length fl = N) as Lf by apply length_flags. unfold chain_extract.
  edestruct (for_up_inv (fun i (s : nat * list Z) => fst s = before fl i /\ snd s = collect (firstn i fl) (firstn i temp) ++ skipn (before fl i) decoded)
    (fun i '(j, decoded) => b <- polar_get frozen i ;;
      if (b : bool) then Ok (j, decoded) else (x <- rd temp i ;; decoded <- wr decoded j x ;; Ok (j + 1, decoded))) 0 N (0, decoded)) as ((j & d) & E & E1 & E2).
  4: { rewrite E. cbn [bind fst snd] in *. rewrite E2. rewrite firstn_all2 by lia. replace (before fl N) with (unfrozen fl); [reflexivity|]. rewrite <- Lf. symmetry. apply before_all. }
  - lia.
  - intros i (j & d) Hi (E1 & E2). cbn [fst snd] in *. cbv beta iota. rewrite get_ok by lia. cbn [bind].
    assert (nth i fl true = is_frozen frozen i) as Ef by (apply nth_flags; lia).
    assert (length (firstn i fl) = i) as L1 by (rewrite firstn_length; lia). assert (length (firstn i temp) = i) as L2 by (rewrite firstn_length; lia).
    assert (firstn (S i) fl = firstn i fl ++ [nth i fl true]) as S1 by (apply firstn_snoc; lia).
    assert (firstn (S i) temp = firstn i temp ++ [nth i temp 0%Z]) as S2 by (apply firstn_snoc; lia).
    assert (length (collect (firstn i fl) (firstn i temp)) = before fl i) as Lc by (apply length_collect; lia).
    pose proof (before_S fl i ltac:(lia)) as B. rewrite Ef in *. destruct (is_frozen frozen i) eqn:Fz.
    + eexists. split; [reflexivity|]. cbn [fst snd]. split; [lia|]. rewrite S1, S2, collect_snoc, app_nil_r by lia. rewrite E2, B. do 2 f_equal. lia.
    + pose proof (before_lt fl i ltac:(lia) Ef) as Hb. rewrite (rd_nth temp i 0%Z) by lia. cbn [bind]. rewrite E2, E1.
      assert (exists y, skipn (before fl i) decoded = y :: skipn (S (before fl i)) decoded) as (y & Ey).
      { clear - Hb Hd. assert (before fl i < length decoded) as H by lia. revert H. generalize (before fl i). clear. intros n. revert decoded.
        induction n as [|n IH]; intros [|z l] H; cbn [length] in H; try lia; [eexists; reflexivity|]. destruct (IH l ltac:(lia)) as (y & E). exists y. exact E. }
      rewrite wr_Ok; [|rewrite app_length, Lc, Ey; cbn [length]; fold fl;
 lia]. cbn [bind]. eexists. split; [reflexivity|]. cbn [fst snd]. split; [lia|].
      rewrite S1, S2, collect_snoc by lia. rewrite B. replace (before fl i + 1) with (S (before fl i)) by lia. rewrite Ey, <- app_assoc. cbn [Datatypes.app].
      apply upd_here. exact Lc.
  - split; reflexivity.
Qed.

(** ** Words and messages *)
Lemma sc_word n : forall fl sl, length fl = 2 ^ n -> length sl = 2 ^ n -> snd (successive_cancellation n fl sl) = transform n (expand fl (fst (successive_cancellation n fl sl))).
Proof.
  intros fl sl Lf Ls. rewrite <- ptr_transform by (rewrite length_expand; exact Lf). revert fl sl Lf Ls. induction n as [|m IH]; intros fl sl Lf Ls; cbn [Nat.pow] in *.
  - destruct fl as [|[|] [|? ?]], sl as [|x [|? ?]]; cbn [length] in *; try lia; reflexivity.
  - cbn [successive_cancellation]. set (h := 2 ^ m) in *.
    pose proof (sc_len m (firstn h fl) (zip2 combine_left (firstn h sl) (skipn h sl)) ltac:(rewrite firstn_length; lia) ltac:(rewrite length_zip2, firstn_length, skipn_length; lia)) as (LM1 & LX1).
    pose proof (IH (firstn h fl) (zip2 combine_left (firstn h sl) (skipn h sl)) ltac:(rewrite firstn_length; lia) ltac:(rewrite length_zip2, firstn_length, skipn_length; lia)) as E1.
    destruct (successive_cancellation m (firstn h fl) _) as [m1 x1]. cbn [fst snd] in *.
    pose proof (IH (skipn h fl) (zip3 combine_right x1 (firstn h sl) (skipn h sl)) ltac:(rewrite skipn_length; lia) ltac:(rewrite length_zip3, firstn_length, skipn_length; lia)) as E2.
    destruct (successive_cancellation m (skipn h fl) _) as [m2 x2]. cbn [fst snd] in *.
    pose proof (expand_app (firstn h fl) (skipn h fl) (m1 ++ m2)) as Ex. rewrite firstn_skipn in Ex. rewrite Ex. rewrite (firstn_app_l m1), (skipn_app_l m1) by exact LM1.
    assert (length (expand (firstn h fl) m1) = h) as Le by (rewrite length_expand, firstn_length; lia).
    cbn [ptr]. fold h. rewrite firstn_app_l, skipn_app_l by exact Le. rewrite E1, E2. reflexivity.
Qed.
Lemma Forall_tern_zip2 a b : Forall tern a -> Forall tern b -> Forall tern (zip2 Z.mul a b).
Proof. intros Fa Fb. apply (Forall_zip2 tern tern); [exact tern_mul|exact Fa|exact Fb]. Qed.
Lemma tern_ptr n : forall u, Forall tern u -> Forall tern (ptr n u).
Proof.
  induction n as [|n IH]; intros u F; cbn [ptr]; [exact F|].
  pose proof (IH _ (Forall_firstn_ tern (2 ^ n) u F)). pose proof (IH _ (Forall_skipn_ tern (2 ^ n) u F)).
  apply Forall_app. split; [apply Forall_tern_zip2; assumption|assumption].
Qed.
Lemma node_tern n : forall fl sl, Forall tern (fst (fnode zops n fl sl)).
Proof.
  induction n as [|m IH]; intros fl sl; cbn [fnode]; [constructor|].
  assert (forall f s, Forall tern (fst (fchild zops m f (fnode zops m f) s))) as C.
  { intros f s. unfold fchild. destruct ((m <=? 5) && forallb (fun b => b) f); [constructor|]. destruct ((m <=? 5) && forallb negb f); [|apply IH].
    unfold r1. cbn [fst]. rewrite gtr_ptr. apply tern_ptr. apply Forall_map. apply Forall_forall. intros x _. apply sgn_tern. }
  unfold fjoin. pose proof (C (firstn (2 ^ m) fl) (fleft zops m sl)) as C1. destruct (fchild zops m (firstn (2 ^ m) fl) _ _) as [m1 x1].
  pose proof (C (skipn (2 ^ m) fl) (fright zops m x1 sl)) as C2. destruct (fchild zops m (skipn (2 ^ m) fl) _ _) as [m2 x2]. cbn [fst] in *.
  apply Forall_app. split; assumption.
Qed.
Lemma expand_mul fl : forall a b, length a = length b -> expand fl (zip2 Z.mul a b) = zip2 Z.mul (expand fl a) (expand fl b).
Proof.
  induction fl as [|[|] fl IH]; intros a b L; cbn [expand zip2]; [reflexivity| |].
  - rewrite IH by exact L. reflexivity.
  - destruct a as [|x a], b as [|y b]; cbn [length] in L; try discriminate; cbn [zip2 hd tl].
    + rewrite <- (IH [] []) by reflexivity. reflexivity.
    + rewrite IH by lia. reflexivity.
Qed.
Lemma collect_mul fl : forall a b, length a = length b -> collect fl (zip2 Z.mul a b) = zip2 Z.mul (collect fl a) (collect fl b).
Proof.
  induction fl as [|[|] fl IH]; intros [|x a] [|y b] L; cbn [length] in L; try discriminate; cbn [collect zip2]; try reflexivity.
  - apply IH. lia.
  - rewrite IH by lia. reflexivity.
Qed.
Lemma transform_mul n a b : length a = 2 ^ n -> length b = 2 ^ n -> transform n (zip2 Z.mul a b) = zip2 Z.mul (transform n a) (transform n b).
Proof. intros La Lb. rewrite <- !ptr_transform by (rewrite ?length_zip2; lia). apply ptr_mul; assumption. Qed.
(** appending to the message beyond the unfrozen positions changes nothing *)
Lemma expand_prefix fl : forall m t, unfrozen fl <= length m -> expand fl (m ++ t) = expand fl m.
Proof.
  induction fl as [|[|] fl IH]; intros m t L; [reflexivity| |]; unfold unfrozen in *; cbn [filter negb length] in *; cbn [expand].
  - f_equal. apply IH. exact L.
  - destruct m as [|x m]; cbn [length] in L; [lia|]. cbn [Datatypes.app hd tl]. f_equal. apply IH. lia.
Qed.
(** the chain from the decoder's message *)
Lemma chain_ok MAX_M soft hard out received temp frozen level soft' hard' d :
  decoder_buffers MAX_M soft hard out received frozen level -> 2 ^ level <= length temp ->
  length d = unfrozen (flags frozen (2 ^ level)) -> Forall tern d ->
  polar_decode ops8 MAX_M soft hard out received frozen level = Ok (soft', hard', d ++ skipn (length d) out) ->
  chain_receive ops8 MAX_M soft hard out received temp frozen level
    = Ok (soft', hard', transform level (expand (flags frozen (2 ^ level)) d) ++ skipn (2 ^ level) temp,
        collect (flags frozen (2 ^ level)) (transform level (expand (flags frozen (2 ^ level)) d)) ++ skipn (length d) out).
Proof.
  intros (H1 & H2 & H3 & H4 & H5 & H6 & H7 & H8) Ht Ld Fd E. unfold chain_receive. rewrite E. cbn [bind].
  set (fl := flags frozen (2 ^ level)) in *. assert (length (d ++ skipn (length d) out) = length out) as L by (rewrite app_length, skipn_length; lia).
  rewrite encode_tern; [|lia|lia|lia|fold fl; lia|fold fl; rewrite firstn_app_l by exact Ld; exact Fd]. cbn [bind]. fold fl.
  rewrite expand_prefix by lia. rewrite extract_ok; [|lia|rewrite app_length, length_transform; lia|fold fl; lia]. cbn [bind]. fold fl.
  rewrite firstn_app_l by apply length_transform. rewrite <- Ld, skipn_app_l by reflexivity. reflexivity.
Qed.
Lemma decode_message MAX_M soft hard out received frozen level : decoder_buffers MAX_M soft hard out received frozen level -> Forall int8 received ->
  exists soft' hard' d, length d = unfrozen (flags frozen (2 ^ level)) /\ Forall tern d /\
    polar_decode ops8 MAX_M soft hard out received frozen level = Ok (soft', hard', d ++ skipn (length d) out) /\
    same_until_tie d (fst (successive_cancellation level (flags frozen (2 ^ level)) (firstn (2 ^ level) received))) /\
    (Forall (fun x => x <> 0%Z) d -> d = fst (successive_cancellation level (flags frozen (2 ^ level)) (firstn (2 ^ level) received)) /\
      firstn (2 ^ level) hard' = snd (successive_cancellation level (flags frozen (2 ^ level)) (firstn (2 ^ level) received))).
Proof.
  intros HB I8. pose proof (decode_gen' ops8 0%Z MAX_M soft hard out received frozen level HB) as D.
  destruct HB as (H1 & H2 & H3 & H4 & H5 & H6 & H7 & H8). rewrite node8 in D by (apply Forall_firstn_; exact I8).
  set (fl := flags frozen (2 ^ level)) in *. assert (length fl = 2 ^ level) as Lf by apply length_flags.
  assert (length (firstn (2 ^ level) received) = 2 ^ level) as Lr by (rewrite firstn_length; lia).
  destruct (agrees_node level fl (firstn (2 ^ level) received) ltac:(lia) Lf Lr) as (S1 & S2).
  pose proof (node_tern level fl (firstn (2 ^ level) received)) as T.
  destruct (fnode zops level _ _) as [m x]. cbn [fst] in *. destruct D as (Lm & Lx & soft' & _ & D). rewrite D.
  exists soft', (x ++ skipn (2 ^ level) hard), m. split; [exact Lm|]. split; [exact T|]. split; [reflexivity|]. split; [exact S1|].
  intros N. rewrite firstn_app_l by exact Lx. rewrite <- S2 by exact N. split; reflexivity.
Qed.

(** ** The theorems *)
(** C90: from values with the signs of the systematic codeword (and any non-zero magnitudes) the chain gives the data *)
Theorem C90_noiseless : forall MAX_M soft hard out received temp frozen level data codeword cw,
  decoder_buffers MAX_M soft hard out received frozen level -> 2 ^ level <= length temp ->
  Forall pm1 data -> length data = unfrozen (flags frozen (2 ^ level)) -> 2 ^ level <= length codeword ->
  domination_closed (flags frozen (2 ^ level)) -> polar_sysenc ops8 codeword data frozen level = Ok cw ->
  Forall int8 received -> (forall i, i < 2 ^ level -> Z.sgn (nth i received 0%Z) = nth i cw 0%Z) ->
  exists soft' hard', chain_receive ops8 MAX_M soft hard out received temp frozen level
    = Ok (soft', hard', firstn (2 ^ level) cw ++ skipn (2 ^ level) temp, data ++ skipn (length data) out).
Proof.
  intros MAX_M soft hard out r temp f n data cw0 cw HB Ht Fd Ld Hc DC E I8 HS.
  assert (encoder_buffers cw0 data f n) as EB by (destruct HB as (H1 & H2 & H3 & H4 & H5 & H6 & H7 & H8); unfold encoder_buffers; repeat split; lia).
  destruct (C41_systematic cw0 data f n EB Fd DC) as (cw' & E' & Co & m & Fm & Lm & Em). rewrite E in E'. assert (cw' = cw) as -> by congruence.
  destruct (C42_noiseless MAX_M soft hard out r f n m cw0 cw HB Fm Lm Hc Em I8 HS) as (s' & h' & D & Hh).
  exists s', h'. rewrite (chain_ok MAX_M soft hard out r temp f n s' h' m HB Ht Lm) by (first [exact D | eapply Forall_impl; [|exact Fm]; intros x; apply pm1_tern]).
  assert (firstn (2 ^ n) cw = transform n (expand (flags f (2 ^ n)) m)) as Ec.
  { destruct HB as (H1 & H2 & H3 & H4 & H5 & H6 & H7 & H8). rewrite encode_ok in Em by (assumption || lia). assert (cw = transform n (expand (flags f (2 ^ n)) m) ++ skipn (2 ^ n) cw0) as -> by congruence.
    apply firstn_app_l. apply length_transform. }
  rewrite <- Ec, Co. rewrite <- Ld, firstn_all. do 3 f_equal. congruence.
Qed.
Print Assumptions C90_noiseless.
(** C90: from any received values the chain gives the data part of the codeword of the message the decoder puts out; when none of the decoder's
    symbols is undecided, that codeword is the word the decoder already holds, the one of plain successive cancellation *)
Theorem C90_what_comes_out : forall MAX_M soft hard out received temp frozen level,
  decoder_buffers MAX_M soft hard out received frozen level -> 2 ^ level <= length temp -> Forall int8 received ->
  let fl := flags frozen (2 ^ level) in
  let plain := successive_cancellation level fl (firstn (2 ^ level) received) in
  exists soft' hard' decoded result,
    polar_decode ops8 MAX_M soft hard out received frozen level = Ok (soft', hard', decoded ++ skipn (unfrozen fl) out) /\
    chain_receive ops8 MAX_M soft hard out received temp frozen level
      = Ok (soft', hard', transform level (expand fl decoded) ++ skipn (2 ^ level) temp, result ++ skipn (unfrozen fl) out) /\
    length decoded = unfrozen fl /\ result = collect fl (transform level (expand fl decoded)) /\
    (Forall (fun x => x <> 0%Z) decoded ->
      transform level (expand fl decoded) = firstn (2 ^ level) hard' /\ result = collect fl (snd plain)).
Proof.
  intros MAX_M soft hard out r temp f n HB Ht I8 fl plain.
  destruct (decode_message MAX_M soft hard out r f n HB I8) as (s' & h' & d & Ld & Td & D & _ & N). fold fl plain in Ld, N.
  exists s', h', d, (collect fl (transform n (expand fl d))). pose proof (chain_ok MAX_M soft hard out r temp f n s' h' d HB Ht Ld Td D) as C.
  fold fl in C. rewrite Ld in C, D. split; [exact D|]. split; [exact C|]. split; [exact Ld|]. split; [reflexivity|].
  intros Nz. destruct (N Nz) as (E1 & E2). assert (snd plain = transform n (expand fl d)) as Ew.
  { rewrite E1. apply sc_word; [apply length_flags|]. destruct HB as (_ & _ & _ & _ & H5 & _). rewrite firstn_length. lia. }
  rewrite E2, Ew. split; reflexivity.
Qed.
Print Assumptions C90_what_comes_out.
(** C90: multiplying the received values by the systematic codeword of some data multiplies what comes out by the data:
    wrong and undecided symbols are at the same places for all data *)
Theorem C90_errors_do_not_depend_on_the_data : forall MAX_M soft hard soft2 hard2 out received temp temp2 frozen level data codeword cw,
  decoder_buffers MAX_M soft hard out received frozen level -> length soft2 = length soft -> length hard2 = length hard ->
  2 ^ level <= length temp -> 2 ^ level <= length temp2 ->
  Forall pm1 data -> length data = unfrozen (flags frozen (2 ^ level)) -> 2 ^ level <= length codeword ->
  domination_closed (flags frozen (2 ^ level)) -> polar_sysenc ops8 codeword data frozen level = Ok cw ->
  Forall (fun x => (-127 <= x <= 127)%Z) received ->
  exists soft' hard' temp' soft2' hard2' temp2' result, length result = length data /\
    chain_receive ops8 MAX_M soft hard out received temp frozen level = Ok (soft', hard', temp', result ++ skipn (length data) out) /\
    chain_receive ops8 MAX_M soft2 hard2 out (zip2 Z.mul cw received) temp2 frozen level
      = Ok (soft2', hard2', temp2', zip2 Z.mul data result ++ skipn (length data) out).
Proof.
  intros MAX_M soft hard soft2 hard2 out r temp temp2 f n data cw0 cw HB Ls2 Lh2 Ht Ht2 Fd Ld Hc DC E I7.
  assert (encoder_buffers cw0 data f n) as EB by (destruct HB as (H1 & H2 & H3 & H4 & H5 & H6 & H7 & H8); unfold encoder_buffers; repeat split; lia).
  destruct (C41_systematic cw0 data f n EB Fd DC) as (cw' & E' & Co & m & Fm & Lm & Em). rewrite E in E'. assert (cw' = cw) as -> by congruence.
  assert (firstn (2 ^ n) cw = transform n (expand (flags f (2 ^ n)) m) /\ length cw = length cw0) as [Ec Lcw].
  { destruct HB as (H1 & H2 & H3 & H4 & H5 & H6 & H7 & H8). rewrite encode_ok in Em by (assumption || lia). assert (cw = transform n (expand (flags f (2 ^ n)) m) ++ skipn (2 ^ n) cw0) as -> by congruence.
    split; [apply firstn_app_l; apply length_transform|]. rewrite app_length, length_transform, skipn_length. lia. }
  destruct (C76_errors_do_not_depend_on_the_codeword MAX_M soft hard soft2 hard2 out r f n m cw0 cw HB Ls2 Lh2 Fm Lm Hc Em I7)
    as (s' & h' & s2' & h2' & d & Lmd & D & D2).
  assert (decoder_buffers MAX_M soft2 hard2 out (zip2 Z.mul cw r) f n) as HB2.
  { destruct HB as (H1 & H2 & H3 & H4 & H5 & H6 & H7 & H8). unfold decoder_buffers. rewrite length_zip2. repeat (split; [lia|]). split; [exact H7|exact H8]. }
  assert (Forall int8 r) as I8 by (eapply Forall_impl; [|exact I7]; unfold int8; intros; lia).
  destruct (decode_message MAX_M soft hard out r f n HB I8) as (s3 & h3 & d3 & Ld3 & Td & D3 & _).
  assert (d3 = d) as ->.
  { rewrite D3 in D. assert (d3 ++ skipn (length d3) out = d ++ skipn (length m) out) as E2 by congruence.
    apply (f_equal (firstn (length d))) in E2. rewrite firstn_app_l in E2 by lia. rewrite firstn_app_l in E2 by reflexivity. exact E2. }
  set (fl := flags f (2 ^ n)) in *. assert (length fl = 2 ^ n) as Lf by apply length_flags.
  pose proof (chain_ok MAX_M soft hard out r temp f n s' h' d HB Ht Ld3 Td) as C1. fold fl in C1. rewrite Ld3, <- Lm in C1. specialize (C1 D).
  assert (length (zip2 Z.mul m d) = unfrozen fl) as Lz by (rewrite length_zip2; lia).
  pose proof (chain_ok MAX_M soft2 hard2 out (zip2 Z.mul cw r) temp2 f n s2' h2' (zip2 Z.mul m d) HB2 Ht2 Lz) as C2. fold fl in C2. rewrite Lz, <- Lm in C2.
  specialize (C2 ltac:(apply Forall_tern_zip2; [eapply Forall_impl; [|exact Fm]; intros x; apply pm1_tern|exact Td]) D2).
  rewrite C1, C2. replace (length data) with (length m) by lia. do 7 eexists. split; [|split; [reflexivity|]].
  - rewrite length_collect by (rewrite length_transform, Lf; reflexivity). lia.
  - do 3 f_equal. rewrite expand_mul by lia. rewrite transform_mul by (rewrite length_expand; exact Lf). rewrite collect_mul by (rewrite !length_transform; reflexivity).
    f_equal. rewrite <- Ec, Co. rewrite <- Ld. apply firstn_all.
Qed.
Print Assumptions C90_errors_do_not_depend_on_the_data.
(** C90: so the data are recovered from noisy values exactly when the chain gives all ones on the noise alone *)
Corollary C90_success : forall MAX_M soft hard soft2 hard2 out received temp temp2 frozen level data codeword cw,
  decoder_buffers MAX_M soft hard out received frozen level -> length soft2 = length soft -> length hard2 = length hard ->
  2 ^ level <= length temp -> 2 ^ level <= length temp2 ->
  Forall pm1 data -> length data = unfrozen (flags frozen (2 ^ level)) -> 2 ^ level <= length codeword ->
  domination_closed (flags frozen (2 ^ level)) -> polar_sysenc ops8 codeword data frozen level = Ok cw ->
  Forall (fun x => (-127 <= x <= 127)%Z) received ->
  (exists soft' hard' temp', chain_receive ops8 MAX_M soft2 hard2 out (zip2 Z.mul cw received) temp2 frozen level
     = Ok (soft', hard', temp', data ++ skipn (length data) out)) <->
  (exists soft' hard' temp', chain_receive ops8 MAX_M soft hard out received temp frozen level
     = Ok (soft', hard', temp', repeat 1%Z (length data) ++ skipn (length data) out)).
Proof.
  intros MAX_M soft hard soft2 hard2 out r temp temp2 f n data cw0 cw HB Ls2 Lh2 Ht Ht2 Fd Ld Hc DC E I7.
  destruct (C90_errors_do_not_depend_on_the_data MAX_M soft hard soft2 hard2 out r temp temp2 f n data cw0 cw HB Ls2 Lh2 Ht Ht2 Fd Ld Hc DC E I7)
    as (s' & h' & t' & s2' & h2' & t2' & res & Lr & C1 & C2).
  assert (forall a b : list Z, length a = length b -> forall t, a ++ t = b ++ t -> a = b) as AP by (intros a b _ t H; exact (app_inv_tail _ _ _ H)).
  rewrite C1, C2. split; intros (a & b & c & G).
  - assert (zip2 Z.mul data res ++ skipn (length data) out = data ++ skipn (length data) out) as E1 by congruence.
    apply AP in E1; [|rewrite length_zip2; lia]. exists s', h', t'. do 3 f_equal.
    clear - Fd Lr E1. revert res Lr E1. induction Fd as [|x l Hx Fl IH]; intros [|y res] Lr E1; cbn [length] in Lr; try discriminate; [reflexivity|].
    cbn [zip2] in E1. assert (x * y = x)%Z as Ex by congruence. assert (zip2 Z.mul l res = l) as El by congruence. cbn [length repeat]. rewrite (IH res) by (assumption || lia).
    f_equal. destruct Hx as [-> | ->]; lia.
  - assert (res ++ skipn (length data) out = repeat 1%Z (length data) ++ skipn (length data) out) as E1 by congruence.
    apply AP in E1; [|rewrite repeat_length; lia]. exists s2', h2', t2'. do 3 f_equal. rewrite E1.
    clear. induction data as [|x l IH]; [reflexivity|]. cbn [length repeat zip2]. rewrite IH, Z.mul_1_r. reflexivity.
Qed.
Print Assumptions C90_success.
Lemma product_zero l : product l = 0%Z <-> In 0%Z l.
Proof.
  induction l as [|x l IH]; cbn [product fold_right In]; [split; [discriminate|tauto]|]. fold (product l). rewrite Z.mul_eq_0, IH. tauto.
Qed.
Lemma nth_collect fl : forall w j, length w = length fl -> j < length fl -> nth j fl true = false -> nth (before fl j) (collect fl w) 0%Z = nth j w 0%Z.
Proof.
  induction fl as [|f fl IH]; intros [|x w] j L Hj Ef; cbn [length] in *; try lia. destruct j as [|j].
  - cbn [nth] in Ef. subst f. reflexivity.
  - cbn [nth] in Ef. unfold before in *. cbn [firstn]. destruct f; unfold unfrozen in *; cbn [filter negb length collect nth]; apply IH; assumption || lia.
Qed.
(** C90: which symbols of the data stay undecided (zero): those with an undecided symbol of the decoder's message at a position dominating theirs *)
Theorem C90_undecided : forall MAX_M soft hard out received temp frozen level j,
  decoder_buffers MAX_M soft hard out received frozen level -> 2 ^ level <= length temp -> Forall int8 received ->
  let fl := flags frozen (2 ^ level) in
  j < 2 ^ level -> nth j fl true = false ->
  exists soft' hard' decoded soft2' hard2' temp' result,
    polar_decode ops8 MAX_M soft hard out received frozen level = Ok (soft', hard', decoded) /\
    chain_receive ops8 MAX_M soft hard out received temp frozen level = Ok (soft2', hard2', temp', result) /\
    (nth (unfrozen (firstn j fl)) result 0%Z = 0%Z <->
     exists i, i < 2 ^ level /\ Nat.land i j = j /\ nth i fl true = false /\ nth (unfrozen (firstn i fl)) decoded 0%Z = 0%Z).
Proof.
  intros MAX_M soft hard out r temp f n j HB Ht I8 fl Hj Ef.
  destruct (C90_what_comes_out MAX_M soft hard out r temp f n HB Ht I8) as (s' & h' & d & res & D & C & Ld & Er & _). fold fl in D, C, Ld, Er.
  assert (length fl = 2 ^ n) as Lf by apply length_flags.
  pose proof (before_lt fl j ltac:(lia) Ef) as Bj. change (unfrozen (firstn j fl)) with (before fl j).
  do 7 eexists. split; [exact D|]. split; [exact C|].
  assert (length res = unfrozen fl) as Lr by (rewrite Er; apply length_collect; rewrite length_transform; lia).
  rewrite app_nth1 by lia. rewrite Er. rewrite nth_collect by (rewrite ?length_transform; assumption || lia).
  unfold transform. rewrite (nth_indep _ 0%Z (product [])) by (rewrite map_length, seq_length; exact Hj).
  rewrite nth_map_seq. replace (j <? 2 ^ n) with true by lia. cbn [Nat.add]. rewrite product_zero, in_map_iff. split.
  - intros (i & Ei & Hi). apply filter_In in Hi. destruct Hi as (Hi & Li). apply in_seq in Hi. apply Nat.eqb_eq in Li.
    exists i. split; [lia|]. split; [exact Li|]. rewrite nth_expand in Ei by lia. destruct (nth i fl true) eqn:Efi; [discriminate|]. split; [reflexivity|].
    pose proof (before_lt fl i ltac:(lia) Efi) as Bi. change (unfrozen (firstn i fl)) with (before fl i). rewrite app_nth1 by lia.
    rewrite (nth_indep _ 0%Z 1%Z) by lia. exact Ei.
  - intros (i & Hi & Li & Efi & Ei). exists i. change (unfrozen (firstn i fl)) with (before fl i) in Ei. pose proof (before_lt fl i ltac:(lia) Efi) as Bi.
    rewrite app_nth1 in Ei by lia. split.
    + rewrite nth_expand by lia. rewrite Efi. rewrite (nth_indep _ 1%Z 0%Z) by lia. exact Ei.
    + apply filter_In. split; [apply in_seq; lia|]. apply Nat.eqb_eq. exact Li.
Qed.
Print Assumptions C90_undecided.

(** ** The hypotheses are met: the code of C40's example, systematically *)
Definition chain_data : list Z := map (fun i => if (i * i) mod 5 =? 1 then (-1)%Z else 1%Z) (seq 0 22).
Definition chain_cw : list Z := Eval vm_compute in match polar_sysenc ops8 (repeat 0%Z 64) chain_data ex_frozen 6 with Ok c => c | _ => [] end.
(** noise: some values small, one zero, one with the wrong sign *)
Definition chain_noise : list Z := map (fun i => if i =? 17 then (-9)%Z else if i =? 40 then 0%Z else Z.of_nat (1 + (i * 37) mod 100)) (seq 0 64).
Example C90_nonvacuous :
  polar_sysenc ops8 (repeat 0%Z 64) chain_data ex_frozen 6 = Ok chain_cw /\ Forall pm1 chain_data /\
  length chain_data = unfrozen (flags ex_frozen (2 ^ 6)) /\ Forall (fun x => (-127 <= x <= 127)%Z) chain_noise /\
  firstn 22 chain_cw <> chain_data /\
  (x <- chain_receive ops8 6 (repeat 0%Z 128) (repeat 0%Z 64) (repeat 0%Z 30) (zip2 Z.mul chain_cw chain_noise) (repeat 0%Z 64) ex_frozen 6 ;; Ok (snd x))
    = Ok (chain_data ++ repeat 0%Z 8) /\
  (x <- polar_decode ops8 6 (repeat 0%Z 128) (repeat 0%Z 64) (repeat 0%Z 30) (zip2 Z.mul chain_cw chain_noise) ex_frozen 6 ;; Ok (firstn 22 (snd x)))
    <> Ok chain_data.
Proof.
  split; [vm_compute; reflexivity|]. split.
  { apply Forall_forall. intros x Hx. apply in_map_iff in Hx. destruct Hx as (i & <- & _). unfold pm1. destruct (_ =? _); auto. }
  split; [vm_compute; reflexivity|]. split.
  { apply Forall_forall. intros x Hx. assert (forallb (fun x => (-127 <=? x) && (x <=? 127))%Z chain_noise = true) as C by (vm_compute; reflexivity).
    rewrite forallb_forall in C. specialize (C x Hx). lia. }
  split; [vm_compute; discriminate|]. split; [vm_compute; reflexivity|vm_compute; discriminate].
Qed.
