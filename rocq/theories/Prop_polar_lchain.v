(** Property C91: systematic polar coding with a list decoder, from sender to receiver. *)
From Coq Require Import ZifyBool ZifyNat ZifyN.
From Verif Require Import Cpp Model_simd Model_crc Spec_bits Spec_crc Model_polar Model_polar_list Model_polar_crc Model_polar_chain Model_polar_lchain Spec_polar Spec_polar_list
  Lib_list Lib_wht Proof_bits Proof_simd Proof_polar1 Proof_polar2 Proof_polar3 Proof_polar4 Proof_polar5 Proof_polar6 Proof_polar7 Prop_polar Prop_polar_list Prop_polar_crc Prop_polar_chain.
Local Open Scope nat_scope.
Ltac Zify.zify_post_hook ::= idtac.

(** ** The loop at the end, for any elements *)
Fixpoint pick {X} (fl : list bool) (w : list X) : list X :=
  match fl, w with
  | true :: fl, _ :: w => pick fl w
  | false :: fl, x :: w => x :: pick fl w
  | _, _ => []
  end.
Lemma pick_map {X} (g : X -> Z) fl : forall w, map g (pick fl w) = collect fl (map g w).
Proof. induction fl as [|[|] fl IH]; intros [|x w]; cbn [pick collect map]; rewrite ?IH; reflexivity. Qed.
Lemma pick_snoc {X} fl : forall (w : list X) f x, length w = length fl -> pick (fl ++ [f]) (w ++ [x]) = pick fl w ++ if (f : bool) then [] else [x].
Proof.
  induction fl as [|[|] fl IH]; intros [|y w] f x L; cbn [length] in L; try discriminate; cbn [Datatypes.app pick].
  - destruct f; reflexivity.
  - apply IH. lia.
  - rewrite IH by lia. reflexivity.
Qed.
Lemma length_pick {X} fl : forall w : list X, length w = length fl -> length (pick fl w) = unfrozen fl.
Proof.
  induction fl as [|[|] fl IH]; intros [|y w] L; cbn [length] in L; try discriminate; unfold unfrozen in *; cbn [pick filter negb length]; [reflexivity|apply IH; lia|rewrite IH by lia; reflexivity].
Qed.
Lemma extract_gen {X} (d : X) N (temp : list X) frozen decoded : N <= 32 * length frozen -> N <= length temp -> unfrozen (flags frozen N) <= length decoded ->
  chain_extract N temp frozen decoded = Ok (pick (flags frozen N) (firstn N temp) ++ skipn (unfrozen (flags frozen N)) decoded).
Proof.
  intros Hf Ht Hd. set (fl := flags frozen N) in *. assert (length fl = N) as Lf by apply length_flags. unfold chain_extract.
  edestruct (for_up_inv (fun i (s : nat * list X) => fst s = before fl i /\ snd s = pick (firstn i fl) (firstn i temp) ++ skipn (before fl i) decoded)
    (fun i '(j, decoded) => b <- polar_get frozen i ;;
      if (b : bool) then Ok (j, decoded) else (x <- rd temp i ;; decoded <- wr decoded j x ;; Ok (j + 1, decoded))) 0 N (0, decoded)) as ((j & r) & E & E1 & E2).
  4: { rewrite E. cbn [bind fst snd] in *. rewrite E2. rewrite firstn_all2 by lia. replace (before fl N) with (unfrozen fl); [reflexivity|]. rewrite <- Lf. symmetry. apply before_all. }
  - lia.
  - intros i (j & r) Hi (E1 & E2). cbn [fst snd] in *. cbv beta iota. rewrite get_ok by lia. cbn [bind].
    assert (nth i fl true = is_frozen frozen i) as Ef by (apply nth_flags; lia).
    assert (length (firstn i fl) = i) as L1 by (rewrite firstn_length; lia). assert (length (firstn i temp) = i) as L2 by (rewrite firstn_length; lia).
    assert (firstn (S i) fl = firstn i fl ++ [nth i fl true]) as S1 by (apply firstn_snoc; lia).
    assert (firstn (S i) temp = firstn i temp ++ [nth i temp d]) as S2 by (apply firstn_snoc; lia).
    assert (length (pick (firstn i fl) (firstn i temp)) = before fl i) as Lc by (apply length_pick; lia).
    pose proof (before_S fl i ltac:(lia)) as B. rewrite Ef in *. destruct (is_frozen frozen i) eqn:Fz.
    + eexists. split; [reflexivity|]. cbn [fst snd]. split; [lia|]. rewrite S1, S2, pick_snoc, app_nil_r by lia. rewrite E2, B. do 2 f_equal. lia.
    + pose proof (before_lt fl i ltac:(lia) Ef) as Hb. rewrite (rd_nth temp i d) by lia. cbn [bind]. rewrite E2, E1.
      pose proof (skipn_cons decoded (before fl i) d ltac:(lia)) as Ey.
      rewrite wr_Ok; [|rewrite app_length, Lc, Ey; cbn [length]; lia]. cbn [bind]. eexists. split; [reflexivity|]. cbn [fst snd]. split; [lia|].
      rewrite S1, S2, pick_snoc by lia. rewrite B. replace (before fl i + 1) with (S (before fl i)) by lia. rewrite Ey, <- app_assoc. cbn [Datatypes.app].
      apply upd_at. exact Lc.
  - split; reflexivity.
Qed.
(** ** Encoding all lanes *)
(** at least [W] lanes, the first [W] of them -1, 0 or 1 *)
Definition wide (W : nat) (v : list Z) : Prop := W <= length v /\ forall k, k < W -> tern (lane k v).
Lemma nth_map2 {B C D} (f : B -> C -> D) a b k x y z : k < length a -> k < length b -> nth k (map2 f a b) z = f (nth k a x) (nth k b y).
Proof.
  intros Ha Hb. unfold map2. rewrite (nth_map1 _ _ _ (x, y)) by (rewrite combine_length; lia).
  revert b k Ha Hb. induction a as [|p a IH]; intros [|q b] k Ha Hb; cbn [length] in *; try lia. destruct k as [|k]; [reflexivity|]. cbn [combine nth]. apply IH; lia.
Qed.
Lemma length_map2 {B C D} (f : B -> C -> D) a b : length (map2 f a b) = Nat.min (length a) (length b).
Proof. unfold map2. rewrite map_length, combine_length. reflexivity. Qed.
Lemma wide_mul W P a b : back_end W P -> wide W a -> wide W b -> wide W (p_mul P a b) /\ forall k, k < W -> lane k (p_mul P a b) = (lane k a * lane k b)%Z.
Proof.
  intros BE (La & Ta) (Lb & Tb).
  assert (W <= length (p_mul P a b) /\ forall k, k < W -> lane k (p_mul P a b) = (lane k a * lane k b)%Z) as (L & E).
  { destruct BE as [-> | ->]; cbn [p_mul ops8v ops8v_neon].
    - unfold vsign. change (fun x y => to_s 8 ((b2z (0 <? y)%Z - b2z (y <? 0)%Z) * x)%Z) with l_mul. split; [rewrite length_map2; lia|].
      intros k Hk. unfold lane at 1. rewrite (nth_map2 l_mul a b k 0%Z 0%Z 0%Z) by lia. apply tern_mul_tern; [apply Ta|apply Tb]; exact Hk.
    - unfold vmul. split; [rewrite length_map2; lia|]. intros k Hk. unfold lane at 1. rewrite (nth_map2 _ a b k 0%Z 0%Z 0%Z) by lia.
      cbv beta. pose proof (Tb k Hk) as T. change (lane k b) with (nth k b 0%Z) in T. apply (proj1 (l_neon_mul (lane k a) (nth k b 0%Z) (Ta k Hk) ltac:(unfold tern in T; lia))). }
  split; [|exact E]. split; [exact L|]. intros k Hk. rewrite E by exact Hk. apply tern_mul; auto.
Qed.
Lemma wide_one W P : back_end W P -> wide W (p_one P) /\ forall k, k < W -> lane k (p_one P) = 1%Z.
Proof.
  intros BE. destruct (vk_one W P (back_end_ok W P BE)) as ((L & _) & E). split; [|exact E]. split; [lia|]. intros k Hk. rewrite E by exact Hk. unfold tern. lia.
Qed.
Lemma blk_lanes W P u : back_end W P -> (forall i, wide W (u i)) -> forall s j, wide W (blk P s u j) /\ forall k, k < W -> lane k (blk P s u j) = zblk s (fun i => lane k (u i)) j.
Proof.
  intros BE H. induction s as [|s IH]; intros j; cbn [blk zblk]; [split; auto|]. destruct (IH j) as (W1 & E1). destruct (IH (j + 2 ^ s)) as (W2 & E2).
  destruct (Nat.even (j / 2 ^ s)); [|split; assumption]. destruct (wide_mul W P _ _ BE W1 W2) as (W3 & E3). split; [exact W3|]. intros k Hk. rewrite E3, E1, E2 by exact Hk. reflexivity.
Qed.
(** the expansion, for any elements *)
Lemma expand_gen {A} (P : polar_ops A) (d : A) message frozen n codeword : 1 <= n -> 2 ^ n <= 32 * length frozen -> 2 ^ n <= length codeword ->
  unfrozen (flags frozen (2 ^ n)) <= length message ->
  let fl := flags frozen (2 ^ n) in
  exists cw, polar_expand P message frozen (2 ^ n) codeword = Ok cw /\
    shows d 0 (2 ^ n) (blk P 1 (fun i => if nth i fl true then p_one P else nth (before fl i) message d)) codeword cw.
Proof.
  intros Hn Hf Hc Hm fl. fold fl in Hm. assert (length fl = 2 ^ n) as Lf by apply length_flags.
  set (u := fun i => if nth i fl true then p_one P else nth (before fl i) message d). unfold polar_expand.
  assert (2 ^ n = 2 ^ (n - 1) * 2) as EN by (replace n with (S (n - 1)) at 1 by lia; cbn [Nat.pow]; lia).
  set (body := fun (i : nat) (s : nat * list A) => _).
  cut (exists cw, for_step 0 (2 ^ (n - 1) * 2) 2 body (0, codeword) = Ok (before fl (2 ^ n), cw) /\
    shows d 0 (2 ^ n) (blk P 1 u) codeword cw).
  { intros (cw & E & I). rewrite <- EN in E. rewrite E. cbn [bind]. exists cw. auto. }
  edestruct (for_step_inv (fun k (s : nat * list A) => fst s = before fl (k * 2) /\
      shows d 0 (2 ^ n) (fun j => if j <? k * 2 then blk P 1 u j else nth j codeword d) codeword (snd s))) as ((pos & cw) & E & Hp & I).
  4: { cbn [fst snd] in *. exists cw. split; [rewrite E, Hp; do 3 f_equal; lia|]. eapply shows_ext; [exact I|]. intros j Hj. cbv beta.
       replace (j <? 2 ^ (n - 1) * 2) with true by lia. reflexivity. }
  - lia.
  - intros k (pos & cw) Hk (Hp & I). cbn [fst snd] in *. unfold body. cbv beta iota.
    assert (forall i p, i < 2 ^ n -> p = before fl i ->
      (if is_frozen frozen i then Ok (p_one P, p) else (x <- rd message p ;; Ok (x, p + 1))) = Ok (u i, before fl (S i))) as Step.
    { intros i p Hi ->. rewrite before_S by lia. assert (nth i fl true = is_frozen frozen i) as Ef by (apply nth_flags; exact Hi).
      unfold u. rewrite Ef. destruct (is_frozen frozen i) eqn:Fz.
      - rewrite Nat.add_0_r. reflexivity.
      - rewrite (rd_nth _ _ d) by (pose proof (before_lt fl i ltac:(lia) Ef); lia). reflexivity. }
    rewrite get_ok by lia. cbn [bind]. rewrite (Step (k * 2) pos) by (auto; lia). cbn [bind].
    rewrite get_ok by lia. cbn [bind]. rewrite (Step (k * 2 + 1) _) by (try lia; f_equal; lia). cbn [bind].
    destruct (shows_wr d 0 _ _ _ _ (k * 2) (p_mul P (u (k * 2)) (u (k * 2 + 1))) I ltac:(lia) ltac:(lia)) as (cw1 & E1 & I1).
    rewrite Nat.add_0_l in E1. rewrite E1. cbn [bind].
    destruct (shows_wr d 0 _ _ _ _ (k * 2 + 1) (u (k * 2 + 1)) I1 ltac:(lia) ltac:(lia)) as (cw2 & E2 & I2).
    rewrite Nat.add_0_l in E2. rewrite E2. cbn [bind]. eexists. split; [reflexivity|]. cbn [fst snd]. split; [f_equal; lia|].
    eapply shows_ext; [exact I2|]. intros j Hj. cbv beta. cbn [blk Nat.pow]. rewrite Nat.div_1_r.
    destruct (Nat.eqb_spec j (k * 2 + 1)) as [->|N1].
    + replace (k * 2 + 1 <? S k * 2) with true by lia. replace (Nat.even (k * 2 + 1)) with false; [reflexivity|].
      replace (k * 2 + 1) with (S (2 * k)) by lia. rewrite Nat.even_succ, <- Nat.negb_even, Nat.even_mul. reflexivity.
    + destruct (Nat.eqb_spec j (k * 2)) as [->|N2].
      * replace (k * 2 <? S k * 2) with true by lia. rewrite Nat.even_mul. rewrite orb_true_r. reflexivity.
      * replace (j <? S k * 2) with (j <? k * 2) by lia. reflexivity.
  - cbn [fst snd]. split; [reflexivity|]. split; [reflexivity|]. intros x. cbn [Nat.mul Nat.ltb Nat.leb]. rewrite Nat.sub_0_r. destruct (_ && _); reflexivity.
Qed.
Lemma encode_lanes W P temp message frozen level : back_end W P -> 1 <= level <= 30 -> 2 ^ level <= 32 * length frozen -> 2 ^ level <= length temp ->
  let fl := flags frozen (2 ^ level) in let K := unfrozen fl in
  K <= length message -> (forall i, i < K -> wide W (nth i message [])) ->
  exists temp', polar_encode P temp message frozen level = Ok temp' /\ length temp' = length temp /\ skipn (2 ^ level) temp' = skipn (2 ^ level) temp /\
    forall k, k < W -> lane_of k (firstn (2 ^ level) temp') = transform level (expand fl (lane_of k (firstn K message))).
Proof.
  intros BE Hn Hf Ht fl K Hm HW. unfold polar_encode. replace (level <=? 30) with true by lia. cbn [require bind].
  destruct (expand_gen P [] message frozen level temp ltac:(lia) Hf Ht Hm) as (cw & E & I). rewrite E. cbn [bind]. fold fl in I.
  set (u := fun i => if nth i fl true then p_one P else nth (before fl i) message []) in *. assert (length fl = 2 ^ level) as Lf by apply length_flags.
  destruct (stages_ok P [] 0 level u temp cw ltac:(lia) Ht I) as (o & E1 & I1). exists o. split; [exact E1|]. destruct I1 as (Lo & Ho). split; [exact Lo|].
  destruct (wide_one W P BE) as (WO & EO).
  assert (forall i, wide W (u i)) as WU.
  { intros i. unfold u. destruct (nth i fl true) eqn:Ef; [exact WO|]. destruct (Nat.lt_ge_cases i (2 ^ level)) as [C|C].
    - apply HW. apply before_lt; [lia|exact Ef].
    - rewrite nth_overflow in Ef by lia. discriminate. }
  split.
  - apply (list_ext _ _ []); [rewrite !skipn_length; lia|]. intros i Hi. rewrite !nth_skipn', Ho. cbn [Nat.leb]. replace (2 ^ level + i <? 0 + 2 ^ level) with false by lia. reflexivity.
  - intros k Hk. assert (length (expand fl (lane_of k (firstn K message))) = 2 ^ level) as Le by (rewrite length_expand; exact Lf).
    rewrite <- (zblk_transform level _ Le). unfold lane_of at 1. apply (list_ext _ _ 0%Z); [rewrite !map_length, firstn_length, seq_length; lia|].
    intros i Hi. rewrite map_length, firstn_length in Hi. rewrite (nth_map1 _ _ _ []) by (rewrite firstn_length; lia). rewrite nth_firstn'. replace (i <? 2 ^ level) with true by lia.
    rewrite Ho. cbn [Nat.leb]. replace (i <? 0 + 2 ^ level) with true by lia. cbn [andb]. rewrite Nat.sub_0_r.
    destruct (blk_lanes W P u BE WU level i) as (_ & EB). change (nth k (blk P level u i) 0%Z) with (lane k (blk P level u i)). rewrite EB by exact Hk.
    rewrite nth_map_seq. replace (i <? 2 ^ level) with true by lia. cbn [Nat.add].
    rewrite !zblk_prodover by lia. apply prodover_ext. intros j Hj. rewrite nth_expand by lia. unfold u. destruct (nth j fl true) eqn:Ef; [apply EO; exact Hk|].
    pose proof (before_lt fl j ltac:(lia) Ef) as Hb. unfold lane_of. rewrite (nth_map1 _ _ _ []) by (rewrite firstn_length; fold K in Hb; lia). rewrite nth_firstn'.
    fold K in Hb. replace (before fl j <? K) with true by lia. reflexivity.
Qed.
(** ** Data and messages of a systematic code *)
Lemma data_message n fl m : length fl = 2 ^ n -> domination_closed fl -> Forall pm1 m -> length m = unfrozen fl ->
  let data := collect fl (transform n (expand fl m)) in
  collect fl (transform n (expand fl data)) = m /\ keep fl (transform n (expand fl m)) = expand fl data /\ Forall pm1 data /\ length data = unfrozen fl.
Proof.
  intros Lf D Fm Lm data. set (x := transform n (expand fl m)) in *. assert (length x = 2 ^ n) as Lx by apply length_transform.
  assert (length (expand fl m) = 2 ^ n) as Le by (rewrite length_expand; exact Lf).
  assert (Forall pm1 x) as Fx by (apply pm1_transform; [exact Le|apply pm1_expand; exact Fm]).
  destruct (collect_keep fl x ltac:(lia)) as (EK & LK). fold data in EK, LK. split; [|split; [exact EK|split; [apply collect_pm1; exact Fx|exact LK]]].
  rewrite <- EK. rewrite (collect_expand fl _ m).
  - rewrite <- Lm. apply firstn_all.
  - rewrite length_transform. lia.
  - intros i Hi Ei. rewrite Lf in Hi. apply transform_keep; try assumption. apply pm1_expand; exact Fm.
  - lia.
Qed.
Lemma lane_app k (a b : list (list Z)) : lane_of k (a ++ b) = lane_of k a ++ lane_of k b.
Proof. unfold lane_of. apply map_app. Qed.
Lemma lanes_wide W decoded : 1 <= W -> (forall k, k < W -> Forall pm1 (lane_of k decoded)) -> forall i, i < length decoded -> wide W (nth i decoded []).
Proof.
  intros HW H i Hi. assert (forall k, k < W -> k < length (nth i decoded [])) as L by (intros k Hk; apply nth_pm1; auto). split; [specialize (L (W - 1) ltac:(lia)); lia|].
  intros k Hk. specialize (H k Hk). rewrite Forall_forall in H. apply pm1_tern, H. unfold lane_of. apply in_map_iff. exists (nth i decoded []). split; [reflexivity|]. apply nth_In. exact Hi.
Qed.
(** the chain from the decoder's lanes *)
Lemma lchain_ok W P MAX_M soft hard maps rank out received temp frozen level soft' hard' maps' rank' decoded :
  let fl := flags frozen (2 ^ level) in let K := unfrozen fl in
  back_end W P -> list_buffers W MAX_M soft hard maps rank out received frozen level K -> 2 ^ level <= length temp ->
  length decoded = K -> (forall k, k < W -> Forall pm1 (lane_of k decoded)) ->
  list_decode W P MAX_M soft hard maps rank out received frozen level = Ok (soft', hard', maps', rank', decoded ++ skipn K out) ->
  exists temp' result, lchain_receive W P MAX_M soft hard maps rank out received temp frozen level = Ok (soft', hard', maps', rank', temp', result ++ skipn K out) /\
    skipn (2 ^ level) temp' = skipn (2 ^ level) temp /\ length result = K /\
    forall k, k < W -> lane_of k (firstn (2 ^ level) temp') = transform level (expand fl (lane_of k decoded)) /\
      lane_of k result = collect fl (transform level (expand fl (lane_of k decoded))).
Proof.
  intros fl K BE (HW & HL & HM & _ & _ & _ & Hm & _ & _ & _ & Hf & _) Ht Ld Fd E. unfold lchain_receive. rewrite E. cbn [bind].
  assert (length (decoded ++ skipn K out) = length out) as Lo by (rewrite app_length, skipn_length; lia).
  destruct (encode_lanes W P temp (decoded ++ skipn K out) frozen level BE ltac:(lia) Hf Ht) as (temp' & E1 & L1 & S1 & T1).
  - fold fl. fold K. lia.
  - intros i Hi. fold fl in Hi. fold K in Hi. rewrite app_nth1 by lia. apply lanes_wide; [lia|exact Fd|lia].
  - fold fl in T1. fold K in T1. rewrite firstn_app_l in T1 by exact Ld. rewrite E1. cbn [bind].
    rewrite (extract_gen []); [|exact Hf|lia|fold fl; fold K; lia]. cbn [bind]. fold fl. fold K.
    replace (skipn K (decoded ++ skipn K out)) with (skipn K out) by (symmetry; apply skipn_app_l; exact Ld).
    do 2 eexists. split; [reflexivity|]. split; [exact S1|]. split; [apply length_pick; rewrite firstn_length; unfold fl; rewrite length_flags; lia|].
    intros k Hk. split; [apply T1; exact Hk|]. rewrite <- T1 by exact Hk. unfold lane_of. apply pick_map.
Qed.

(** ** The theorems *)
(** C91: from any received values: each lane of [temp] becomes the codeword the decoder already holds in that lane, each lane of the result is its data part.
    With an upwards closed frozen set PolarSysEnc makes that codeword from that result, and lanes with different messages give different results. *)
Theorem C91_what_comes_out : forall W P MAX_M soft hard maps rank out received temp frozen level,
  let fl := flags frozen (2 ^ level) in let K := unfrozen fl in
  back_end W P -> list_buffers W MAX_M soft hard maps rank out received frozen level K -> 1 <= K -> 2 ^ level <= length temp ->
  exists soft' hard' maps' rank' decoded temp' result,
    list_decode W P MAX_M soft hard maps rank out received frozen level = Ok (soft', hard', maps', rank', decoded ++ skipn K out) /\
    lchain_receive W P MAX_M soft hard maps rank out received temp frozen level = Ok (soft', hard', maps', rank', temp', result ++ skipn K out) /\
    length decoded = K /\ length result = K /\ skipn (2 ^ level) temp' = skipn (2 ^ level) temp /\
    (forall k, k < W -> Forall pm1 (lane_of k result) /\ lane_of k (firstn (2 ^ level) temp') = lane_of k (firstn (2 ^ level) hard') /\
       lane_of k result = collect fl (lane_of k (firstn (2 ^ level) hard'))) /\
    (domination_closed fl -> forall k, k < W ->
       (forall codeword, 2 ^ level <= length codeword ->
          polar_sysenc ops8 codeword (lane_of k result) frozen level = Ok (lane_of k (firstn (2 ^ level) hard') ++ skipn (2 ^ level) codeword)) /\
       (forall l, l < W -> lane_of k result = lane_of l result -> lane_of k decoded = lane_of l decoded)).
Proof.
  intros W P MAX_M soft hard maps rank out received temp frozen level fl K BE HB HK Ht.
  destruct (C44_every_lane_is_a_path W P MAX_M soft hard maps rank out received frozen level BE HB HK) as (s' & h' & ms' & dec & metric & real & ED & LD & _ & LN & _).
  fold fl in ED, LD, LN. fold K in ED, LD, LN.
  destruct (lchain_ok W P MAX_M soft hard maps rank out received temp frozen level s' h' ms' _ dec BE HB Ht LD (fun k Hk => proj1 (proj2 (LN k Hk))) ED) as (t' & res & EC & ST & LR & H).
  fold fl in EC, H, LR. fold K in EC, LR. do 7 eexists. split; [exact ED|]. split; [exact EC|]. split; [exact LD|]. split; [exact LR|]. split; [exact ST|].
  assert (length fl = 2 ^ level) as Lf by apply length_flags. split.
  - intros k Hk. destruct (LN k Hk) as (Q1 & Q2 & Q3 & _). destruct (H k Hk) as (H1 & H2). split; [|split].
    + rewrite H2. apply collect_pm1. apply pm1_transform; [rewrite length_expand; exact Lf|apply pm1_expand; exact Q2].
    + rewrite H1. symmetry. exact Q3.
    + rewrite H2, Q3. reflexivity.
  - intros DC k Hk. destruct (LN k Hk) as (Q1 & Q2 & Q3 & _). destruct (H k Hk) as (_ & H2).
    destruct (data_message level fl (lane_of k dec) Lf DC Q2 Q1) as (G1 & G2 & G3 & G4). rewrite <- H2 in G1, G2, G3, G4. split.
    + intros codeword Hc. destruct HB as (HW & HL & HM & _ & _ & _ & _ & _ & _ & _ & Hf & _).
      rewrite sysenc_ok; [|lia|exact Hf|exact Hc|fold fl; lia|exact G3]. fold fl. do 2 f_equal. rewrite Q3. f_equal.
      destruct (data_message level fl (lane_of k res) Lf DC G3 G4) as (_ & G6 & _). rewrite G6, G1. reflexivity.
    + intros l Hl E. destruct (LN l Hl) as (R1 & R2 & _). destruct (H l Hl) as (_ & H4).
      destruct (data_message level fl (lane_of l dec) Lf DC R2 R1) as (G5 & _). rewrite <- H4 in G5. rewrite <- G1, <- G5, E. reflexivity.
Qed.
Print Assumptions C91_what_comes_out.
(** C91: from values with the signs of the systematic codeword (and any non-zero magnitudes) lane 0 gives the data, and only lane 0 has rank 0 *)
Theorem C91_noiseless : forall W P MAX_M soft hard maps rank out received temp frozen level data codeword cw,
  let fl := flags frozen (2 ^ level) in let K := unfrozen fl in
  back_end W P -> list_buffers W MAX_M soft hard maps rank out received frozen level K -> 1 <= K -> 2 ^ level <= length temp ->
  Forall pm1 data -> length data = K -> 2 ^ level <= length codeword -> domination_closed fl ->
  polar_sysenc ops8 codeword data frozen level = Ok cw ->
  (forall i, i < 2 ^ level -> Z.sgn (nth i received 0%Z) = nth i cw 0%Z) ->
  exists soft' hard' maps' order temp' result,
    lchain_receive W P MAX_M soft hard maps rank out received temp frozen level =
      Ok (soft', hard', maps', option_map (fun r => order ++ skipn W r) rank, temp', result ++ skipn K out) /\
    length result = K /\ lane_of 0 result = data /\ lane_of 0 (firstn (2 ^ level) temp') = firstn (2 ^ level) cw /\
    (forall k, k < W -> Forall pm1 (lane_of k result)) /\
    length order = W /\ nth 0 order 0%Z = 0%Z /\ forall k, 0 < k -> k < W -> (0 < nth k order 0)%Z.
Proof.
  intros W P MAX_M soft hard maps rank out received temp frozen level data codeword cw fl K BE HB HK Ht Fd Ld Hc DC E HS.
  assert (HB' := HB). destruct HB' as (HW & HL & HM & _ & _ & _ & _ & _ & Hrec & F8 & Hf & _).
  assert (encoder_buffers codeword data frozen level) as EB by (unfold encoder_buffers; fold fl; fold K; split; [lia|split; [exact Hf|split; [exact Hc|lia]]]).
  destruct (C41_systematic codeword data frozen level EB Fd DC) as (cw' & E' & Co & m & Fm & Lm & Em). rewrite E in E'. assert (cw' = cw) as -> by congruence. fold fl in Co, Lm. fold K in Co, Lm.
  assert (firstn (2 ^ level) cw = transform level (expand fl m)) as Ec.
  { assert (Em' := Em). rewrite encode_ok in Em'; try assumption; [|lia|fold fl; fold K; lia]. fold fl in Em'.
    assert (cw = transform level (expand fl m) ++ skipn (2 ^ level) codeword) as -> by congruence. apply firstn_app_l. apply length_transform. }
  destruct (C45_noiseless W P MAX_M soft hard maps rank out received frozen level m codeword cw BE HB HK Fm Lm Hc Em HS) as (s' & h' & ms' & order & dec & ED & LDd & L0 & L1 & O1 & O2 & O3).
  fold fl in ED, LDd. fold K in ED, LDd.
  destruct (C44_every_lane_is_a_path W P MAX_M soft hard maps rank out received frozen level BE HB HK) as (s2 & h2 & ms2 & dec2 & metric & real & ED2 & LD2 & _ & LN & _).
  fold fl in ED2, LD2, LN. fold K in ED2, LD2, LN.
  assert (dec2 = dec) as ->.
  { rewrite ED in ED2. assert (dec ++ skipn K out = dec2 ++ skipn K out) as X by congruence. symmetry. exact (app_inv_tail _ _ _ X). }
  destruct (lchain_ok W P MAX_M soft hard maps rank out received temp frozen level s' h' ms' _ dec BE HB Ht LDd (fun k Hk => proj1 (proj2 (LN k Hk))) ED) as (t' & res & EC & ST & LR & H).
  fold fl in EC, H, LR. fold K in EC, LR. do 6 eexists. split; [exact EC|]. split; [exact LR|]. destruct (H 0 ltac:(lia)) as (H1 & H2). rewrite L0 in H1, H2. rewrite <- Ec in H1, H2.
  split; [|split; [exact H1|split; [|split; [exact O1|split; [exact O2|exact O3]]]]].
  - rewrite H2, Co. rewrite <- Ld. apply firstn_all.
  - intros k Hk. destruct (H k Hk) as (_ & H4). rewrite H4. destruct (LN k Hk) as (_ & Q2 & _). apply collect_pm1. apply pm1_transform; [rewrite length_expand; apply length_flags|apply pm1_expand; exact Q2].
Qed.
Print Assumptions C91_noiseless.
(** C91: with the CRC (crc_attach, PolarSysEnc, right signs, the list decoder and its re-encoding, crc_select): lane 0 is chosen, no error, and its first symbols are the data *)
Theorem C91_noiseless_crc : forall w poly o buffer data W P MAX_M soft hard maps rank out temp codeword frozen level,
  let fl := flags frozen (2 ^ level) in let K := unfrozen fl in
  (8 <= w)%N -> (poly < 2 ^ w)%N -> crc_object w poly o -> length data + N.to_nat w = K -> length buffer = K ->
  5 <= level <= 16 -> 2 ^ level <= 32 * length frozen -> 2 ^ level <= length codeword -> 2 ^ level <= length temp -> domination_closed fl -> back_end W P ->
  exists o1 message cw, crc_attach o (N.to_nat w) buffer data = Ok (o1, message) /\ polar_sysenc ops8 codeword message frozen level = Ok cw /\
    collect fl (firstn (2 ^ level) cw) = message /\
    forall received, list_buffers W MAX_M soft hard maps rank out received frozen level K -> (forall i, i < 2 ^ level -> Z.sgn (nth i received 0%Z) = nth i cw 0%Z) ->
    exists soft' hard' maps' rank' temp' result o2, lchain_receive W P MAX_M soft hard maps rank out received temp frozen level = Ok (soft', hard', maps', rank', temp', result) /\
      crc_select o1 W K result = Ok (o2, 0, false) /\ crc_object w poly o2 /\ map negative (firstn (length data) (lane_of 0 result)) = data.
Proof.
  intros w poly o buffer data W P MAX_M soft hard maps rank out temp codeword frozen level fl K Hw Hp HO LD LB HL HFz LC LT DC BE.
  destruct (C88_attach w poly o buffer data Hw Hp HO ltac:(lia)) as (o1 & v & _ & E1 & HO1 & PS). rewrite skipn_all2, app_nil_r in E1 by lia. set (m := map sign (data ++ low_bits v (N.to_nat w))) in *.
  assert (Fm : Forall pm1 m) by (apply Forall_forall; intros x Hx; apply in_map_iff in Hx; destruct Hx as ([] & <- & _); unfold pm1; auto).
  assert (Lm : length m = K) by (unfold m, low_bits; rewrite map_length, app_length, map_length, seq_length; exact LD).
  exists o1, m. assert (HK : 1 <= K) by lia.
  assert (encoder_buffers codeword m frozen level) as EB by (unfold encoder_buffers; fold fl; fold K; split; [lia|split; [exact HFz|split; [exact LC|lia]]]).
  destruct (C41_systematic codeword m frozen level EB Fm DC) as (cw & EE & Co & _). fold fl in Co. fold K in Co.
  exists cw. split; [exact E1|]. split; [exact EE|]. split; [rewrite Co, <- Lm; apply firstn_all|]. intros received HB HS.
  destruct (C91_noiseless W P MAX_M soft hard maps rank out received temp frozen level m codeword cw BE HB HK LT Fm Lm LC DC EE HS) as (s' & h' & ms' & order & t' & res & ER & LR & L0 & _).
  fold fl in ER, LR. fold K in ER, LR. assert (P0 : passes w poly (lane_of 0 res)) by (rewrite L0; exact PS). assert (F0 : Forall pm1 (lane_of 0 res)) by (rewrite L0; exact Fm).
  destruct (first_lane w poly o1 W K res (skipn K out) Hw Hp HO1 (proj1 (proj1 HB)) LR F0 P0) as (o2 & ES & HO2). do 7 eexists. split; [exact ER|]. split; [exact ES|]. split; [exact HO2|].
  exact (data_back data v w m res K (skipn K out) eq_refl LD LR L0).
Qed.
Print Assumptions C91_noiseless_crc.
(** C91: the same from any received values: without the error flag the chosen lane is data followed by the CRC of that data and, with a closed frozen set, PolarSysEnc makes of it
    the word the decoder holds in that lane; with the flag no lane passes; a lane with the sent symbols is never passed over for a later one *)
Theorem C91_any_received_crc : forall w poly o W P MAX_M soft hard maps rank out received temp frozen level,
  let fl := flags frozen (2 ^ level) in let K := unfrozen fl in
  (8 <= w)%N -> (poly < 2 ^ w)%N -> N.testbit poly (w - 1) = true -> crc_object w poly o -> back_end W P ->
  list_buffers W MAX_M soft hard maps rank out received frozen level K -> N.to_nat w <= K -> 2 ^ level <= length temp ->
  exists soft' hard' maps' rank' temp' result o' best error, lchain_receive W P MAX_M soft hard maps rank out received temp frozen level = Ok (soft', hard', maps', rank', temp', result) /\
    crc_select o W K result = Ok (o', best, error) /\ crc_object w poly o' /\
    (error = false -> best < W /\ (exists data v, length data = K - N.to_nat w /\ crc_of w poly 0 (map InBit data) = Ok v /\
        lane_of best (firstn K result) = map sign (data ++ low_bits v (N.to_nat w))) /\
      (domination_closed fl -> forall codeword, 2 ^ level <= length codeword ->
        polar_sysenc ops8 codeword (lane_of best (firstn K result)) frozen level = Ok (lane_of best (firstn (2 ^ level) hard') ++ skipn (2 ^ level) codeword))) /\
    (error = true -> best = 0 /\ forall k, k < W -> ~ passes w poly (lane_of k (firstn K result))) /\
    (forall k, k < W -> passes w poly (lane_of k (firstn K result)) -> error = false /\ best <= k /\ ((forall j, j < k -> ~ passes w poly (lane_of j (firstn K result))) -> best = k)).
Proof.
  intros w poly o W P MAX_M soft hard maps rank out received temp frozen level fl K Hw Hp HT HO BE HB HK Ht.
  destruct (C91_what_comes_out W P MAX_M soft hard maps rank out received temp frozen level BE HB ltac:(fold fl K; lia) Ht) as (s' & h' & ms' & r' & dec & t' & res & _ & ER & _ & LR & _ & LN & DCl).
  fold fl in ER, LR, LN, DCl. fold K in ER, LR. assert (FA : firstn K (res ++ skipn K out) = res) by (apply firstn_app_l; exact LR).
  destruct (C88_selects_the_first w poly o W K (res ++ skipn K out) Hw Hp HO) as (o' & best & error & ES & HO' & S1 & S2).
  - rewrite app_length. lia.
  - intros i Hi. rewrite app_nth1 by lia. destruct W as [|W']; [lia|]. destruct (LN W' ltac:(lia)) as (F & _). assert (X := nth_pm1 W' res i F ltac:(lia)). lia.
  - do 6 eexists. exists o', best, error. split; [exact ER|]. split; [exact ES|]. split; [exact HO'|]. rewrite FA in *. split; [|split; [exact S2|]].
    + intros EF. destruct (S1 EF) as (B & PB & _). split; [exact B|]. destruct (LN best B) as (F & _). split.
      * destruct (C88_passing_words w poly (lane_of best res) Hw Hp HT F) as (data & v & A1 & A2 & A3); [unfold lane_of; rewrite map_length; lia|exact PB|].
        exists data, v. assert (length (lane_of best res) = K) as LB by (unfold lane_of; rewrite map_length; exact LR). rewrite LB in A1. auto.
      * intros DC codeword Hc. apply (proj1 (DCl DC best B)). exact Hc.
    + intros k Hk PM. destruct error.
      * exfalso. destruct (S2 eq_refl) as (_ & N). exact (N k Hk PM).
      * destruct (S1 eq_refl) as (B & PB & N). split; [reflexivity|]. split; [destruct (Nat.lt_ge_cases k best) as [L|L]; [destruct (N k L PM)|exact L]|].
        intros NJ. destruct (Nat.lt_ge_cases k best) as [L|L]; [destruct (N k L PM)|]. destruct (Nat.eq_dec best k) as [?|NE]; [assumption|]. destruct (NJ best ltac:(lia) PB).
Qed.
Print Assumptions C91_any_received_crc.

(** ** The hypotheses are met *)
Definition lex_frozen : list N := [18290559%N].
Definition lex_chain (channel : list Z -> list Z) : res (nat * bool * list bool) :=
  o <- crc_new 8 184 77 ;; '(o, m) <- crc_attach o 8 (repeat 0%Z 16) ex_data ;; cw <- polar_sysenc ops8 (repeat 0%Z 32) m lex_frozen 5 ;;
  '(_, _, _, _, _, out) <- lchain_receive 8 (ops8v 8) 5 (repeat [] 64) (repeat [] 32) (repeat [] 32) (Some (repeat 9%Z 8)) (repeat [] 16) (channel cw) (repeat [] 40) lex_frozen 5 ;;
  '(_, best, error) <- crc_select o 8 16 out ;; Ok (best, error, map negative (firstn 8 (lane_of best out))).
Example C91_nonvacuous : domination_closed (flags lex_frozen (2 ^ 5)) /\ unfrozen (flags lex_frozen 32) = 8 + 8 /\
  list_buffers 8 5 (repeat [] 64) (repeat [] 32) (repeat [] 32) (Some (repeat 9%Z 8)) (repeat [] 16) (ex_quiet (repeat 1%Z 32)) lex_frozen 5 16 /\
  lex_chain ex_quiet = Ok (0, false, ex_data) /\
  (* with three strong errors the sent data are in lane 1, and the CRC finds them *)
  lex_chain ex_noise = Ok (1, false, ex_data).
Proof.
  split; [|split; [vm_compute; reflexivity|split; [|split; vm_compute; reflexivity]]].
  - change (2 ^ 5) with 32. intros i j Hi Hj L E. rewrite length_flags in Hi, Hj.
    assert (forallb (fun i => forallb (fun j => negb ((Nat.land i j =? i) && negb (nth i (flags lex_frozen 32) true)) || negb (nth j (flags lex_frozen 32) true)) (seq 0 32)) (seq 0 32) = true) as C by (vm_compute; reflexivity).
    rewrite forallb_forall in C. specialize (C i ltac:(apply in_seq; lia)). rewrite forallb_forall in C. specialize (C j ltac:(apply in_seq; lia)).
    rewrite E in C. replace (Nat.land i j =? i) with true in C by (symmetry; apply Nat.eqb_eq; exact L). cbn [negb andb orb] in C. apply negb_true_iff in C. exact C.
  - small_buffers.
    + cbn. lia.
    + intros r E. injection E as <-. cbn. lia.
    + apply Forall_forall. intros x Hx. vm_compute in Hx. unfold int8. repeat (destruct Hx as [<-|Hx]; [lia|]). destruct Hx.
    + constructor; [reflexivity|constructor].
Qed.
