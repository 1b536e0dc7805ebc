(** Proofs about Model_osd: everything before the search, the metric and the output. *)
From Coq Require Import ZifyBool ZifyNat Permutation Sorted.
From Verif Require Import Cpp Model_bits Spec_bits Proof_bits Model_sort Spec_sort Prop_sort Model_osd Spec_osd Proof_osd1 Proof_osd2 Proof_osd3.
Ltac Zify.zify_post_hook ::= idtac.
Local Open Scope nat_scope.

Lemma osd_W_ge N : N <= osd_W N.
Proof.
  unfold osd_W. replace (8 - 1)%Z with (Z.ones 3) by reflexivity. rewrite <- Z.ldiff_land, Z.ldiff_ones_r by lia.
  rewrite Z.shiftr_div_pow2, Z.shiftl_mul_pow2 by lia. change (2 ^ 3)%Z with 8%Z. pose proof (Z.div_mod (Z.of_nat N + 8 - 1) 8 ltac:(lia)).
  pose proof (Z.mod_pos_bound (Z.of_nat N + 8 - 1) 8 ltac:(lia)). lia.
Qed.

(** writing an array from the left *)
Lemma fill_from {A} (f : nat -> A) (body : nat -> list A -> res (list A)) lo hi a (d : A) : lo <= hi -> hi <= length a ->
  (forall i b, lo <= i < hi -> length b = length a -> (forall x, x < lo \/ i <= x -> nth x b d = nth x a d) -> body i b = wr b i (f i)) ->
  exists b, for_up lo hi body a = Ok b /\ length b = length a /\ forall x, nth x b d = if (lo <=? x) && (x <? hi) then f x else nth x a d.
Proof.
  intros Hl Hh HB.
  edestruct (for_up_inv (fun i b => length b = length a /\ forall x, nth x b d = if (lo <=? x) && (x <? i) then f x else nth x a d)) as (b & E & L & HX).
  4: { exists b. split; [exact E|]. auto. }
  - exact Hl.
  - intros i b Hi (L & HX). rewrite (HB i b Hi L). 2:{ intros x Hx. rewrite HX. destruct ((lo <=? x) && (x <? i)) eqn:E; [lia|reflexivity]. }
    rewrite wr_Ok by lia. eexists. split; [reflexivity|]. split; [rewrite length_upd; exact L|]. intros x. rewrite nth_upd.
    replace (i <? length b) with true by lia. rewrite andb_true_r. destruct (Nat.eqb_spec i x) as [->|].
    + replace (lo <=? x) with true by lia. replace (x <? S x) with true by lia. reflexivity.
    + rewrite HX. replace (x <? S i) with (x <? i) by lia. reflexivity.
  - split; [reflexivity|]. intros x. destruct ((lo <=? x) && (x <? lo)) eqn:E; [lia|reflexivity].
Qed.

(** ** the sorted order *)
Lemma filter_seq_sorted p b n : StronglySorted lt (filter p (seq b n)).
Proof.
  revert b; induction n as [|n IH]; intros b; cbn [seq filter]; [constructor|]. destruct (p b); [|apply IH]. constructor; [apply IH|].
  apply Forall_forall. intros x Hx. apply filter_In in Hx. destruct Hx as (Hx & _). apply in_seq in Hx. lia.
Qed.
Lemma StronglySorted_app_r {A} (R : A -> A -> Prop) l1 l2 : StronglySorted R (l1 ++ l2) -> StronglySorted R l2.
Proof. induction l1 as [|x l1 IH]; [auto|]. intros H. apply IH. inversion H; assumption. Qed.
Lemma filter_order (p : nat -> bool) l i j x y : StronglySorted lt (filter p l) -> i < j -> nth_error l i = Some x -> nth_error l j = Some y -> p x = true -> p y = true -> x < y.
Proof.
  intros HS Hij Ex Ey Px Py. apply nth_error_split in Ex. destruct Ex as (l1 & l2 & -> & L1).
  assert (In y l2). { apply nth_error_In with (j - S i). rewrite nth_error_app2 in Ey by lia. replace (j - length l1) with (S (j - S i)) in Ey by lia. exact Ey. }
  rewrite filter_app in HS. apply StronglySorted_app_r in HS. cbn [filter] in HS. rewrite Px in HS. inversion HS as [|? ? _ HF]; subst.
  rewrite Forall_forall in HF. apply HF. apply filter_In. auto.
Qed.

Definition by_soft (keys : list Z) (a b : nat) : bool := (nth b keys 0 <? nth a keys 0)%Z.
Lemma by_soft_swo keys : strict_weak_order (by_soft keys).
Proof. unfold by_soft, strict_weak_order, equiv. split; [|split]; intros; lia. Qed.
Lemma sorted_reliable soft keys N s : (forall i, i < N -> nth i keys 0%Z = Z.abs (soft_at soft i)) ->
  stably_sorted (by_soft keys) (seq 0 N) s -> forall i j, i < j < N -> more_reliable soft (nth i s 0) (nth j s 0).
Proof.
  intros HK (P & O & F) i j Hij. assert (L : length s = N) by (apply Permutation_length in P; rewrite seq_length in P; lia).
  assert (HS : forall i, i < N -> nth i s 0 < N). { intros x Hx. assert (H : In (nth x s 0) (seq 0 N)) by (apply (Permutation_in _ (Permutation_sym P)), nth_In; lia). apply in_seq in H. lia. }
  assert (Ei : nth_error s i = Some (nth i s 0)) by (apply nth_error_nth'; lia). assert (Ej : nth_error s j = Some (nth j s 0)) by (apply nth_error_nth'; lia).
  pose proof (O i j _ _ ltac:(lia) Ei Ej) as HO. unfold by_soft in HO. rewrite !HK in HO by (apply HS; lia). unfold more_reliable.
  destruct (Z.eq_dec (Z.abs (soft_at soft (nth j s 0))) (Z.abs (soft_at soft (nth i s 0)))) as [E|E]; [right; split; [exact E|]|left; lia].
  apply (filter_order (equiv (by_soft keys) (nth i s 0)) s i j); try assumption; try lia.
  - rewrite F. apply filter_seq_sorted.
  - unfold equiv, by_soft. rewrite Z.ltb_irrefl. reflexivity.
  - unfold equiv, by_soft. rewrite !HK by (apply HS; lia). lia.
Qed.

Section P.
Variables N K : nat.
Notation W := (osd_W N).
Variables soft genmat : list Z.
Hypothesis HK : 1 <= K <= N.
Hypothesis HN : (Z.of_nat N <= 32768)%Z.
Hypothesis Hsoft : N <= length soft.
Hypothesis Hint8 : Forall int8 soft.
Hypothesis Hgen : N * K <= length genmat.
Hypothesis Hbin : binary genmat.
Hypothesis Hrank : full_rank N K (entry N genmat).

Lemma entry_val j i : j < K -> i < N -> nth (N * j + i) genmat 0%Z = Z.b2z (entry N genmat j i).
Proof.
  intros Hj Hi. unfold entry. assert (HL : N * j + i < length genmat). { assert (N * S j <= N * K) by (apply Nat.mul_le_mono_l; lia). lia. }
  unfold binary in Hbin. rewrite Forall_forall in Hbin. destruct (Hbin (nth (N * j + i) genmat 0%Z) ltac:(apply nth_In; exact HL)) as [E|E]; rewrite E; reflexivity.
Qed.
Lemma int8_nth i : int8 (nth i soft 0%Z).
Proof.
  destruct (Nat.lt_ge_cases i (length soft)) as [H|H]; [|rewrite nth_overflow by exact H; unfold int8; lia]. rewrite Forall_forall in Hint8. apply Hint8, nth_In. exact H.
Qed.
Lemma soft_range i : (-127 <= soft_at soft i <= 127)%Z.
Proof. unfold soft_at. pose proof (int8_nth i). unfold int8 in *. lia. Qed.

(** what the search works with *)
Record prepared (G : list Z) (perm : list nat) (softperm codeword : list Z) (M : nat -> nat -> bool) (pi : nat -> nat) : Prop := {
  p_rep : rep W N K G M;
  p_sys : forall j i, j < K -> i < K -> M j i = (j =? i);
  p_perm : length perm = W /\ forall i, i < N -> nth i perm 0 = pi i;
  p_bij : Permutation (map pi (seq 0 N)) (seq 0 N);
  p_code : requiv N K (fun j i => entry N genmat j (pi i)) M;
  p_soft : length softperm = W /\ (forall i, i < N -> nth i softperm 0%Z = soft_at soft (pi i)) /\ forall i, N <= i < W -> nth i softperm 0%Z = 0%Z;
  p_word : length codeword = W /\ forall i, i < N -> nth i codeword 0%Z = Z.b2z (product K M (fun j => decided soft (pi j)) i);
  p_basis : most_reliable_basis N K (entry N genmat) soft (map pi (seq 0 K)) }.

Lemma encode_ok G M h cw : rep W N K G M -> (forall j i, j < K -> i < K -> M j i = (j =? i)) -> length cw = W -> (forall i, i < K -> nth i cw 0%Z = Z.b2z (h i)) ->
  exists cw', osd_encode W N K G cw = Ok cw' /\ length cw' = W /\ forall i, i < N -> nth i cw' 0%Z = Z.b2z (product K M h i).
Proof.
  intros HG HS L HC. pose proof (osd_W_ge N) as HW. unfold osd_encode.
  destruct (fill_from (fun i => Z.b2z (h 0 && M 0 i)) (fun i codeword => c <- rd codeword 0 ;; g <- rd G i ;; wr codeword i (Z.land c g)) K N cw 0%Z) as (c1 & E1 & L1 & H1).
  - lia.
  - lia.
  - intros i b Hi Lb Hb. rewrite (rd_nth b 0 0%Z) by lia. cbn [bind]. rewrite Hb, HC by lia. replace i with (W * 0 + i) at 1 by lia. rewrite (rep_rd W N K HW G M 0 i HG) by lia. cbn [bind].
    rewrite land_b2z. reflexivity.
  - rewrite E1. cbn [bind].
    edestruct (for_up_inv (fun j c => length c = W /\ (forall i, i < K -> nth i c 0%Z = Z.b2z (h i)) /\ forall i, K <= i < N -> nth i c 0%Z = Z.b2z (parity j (fun r => h r && M r i)))) as (c2 & E2 & L2 & H2 & H3).
    4: { exists c2. split; [exact E2|]. split; [exact L2|]. intros i Hi. destruct (Nat.lt_ge_cases i K) as [Hlt|Hge].
         - rewrite H2 by exact Hlt. f_equal. unfold product. rewrite (parity_one K _ i Hlt); [rewrite HS, Nat.eqb_refl, andb_true_r by lia; reflexivity|].
           intros r Hr Hne. rewrite HS by lia. replace (r =? i) with false by lia. apply andb_false_r.
         - apply H3. lia. }
    + lia.
    + intros j c Hj (Lc & HA & HB).
      destruct (fill_from (fun i => Z.b2z (parity (S j) (fun r => h r && M r i))) (fun i codeword => x <- rd codeword i ;; c <- rd codeword j ;; g <- rd G (W * j + i) ;; wr codeword i (Z.lxor x (Z.land c g))) K N c 0%Z) as (c' & E' & L' & H').
      * lia.
      * lia.
      * intros i b Hi Lb Hb. rewrite !(rd_nth b _ 0%Z) by lia. cbn [bind]. rewrite (Hb i), (Hb j), HB, HA by lia. rewrite (rep_rd W N K HW G M j i HG) by lia. cbn [bind].
        rewrite land_b2z, lxor_b2z. reflexivity.
      * exists c'. split; [exact E'|]. split; [lia|]. split.
        -- intros i Hi. rewrite H'. replace (K <=? i) with false by lia. cbn [andb]. apply HA. exact Hi.
        -- intros i Hi. rewrite H'. replace (K <=? i) with true by lia. replace (i <? N) with true by lia. reflexivity.
    + split; [lia|]. split.
      * intros i Hi. rewrite H1. replace (K <=? i) with false by lia. apply HC. exact Hi.
      * intros i Hi. rewrite H1. replace (K <=? i) with true by lia. replace (i <? N) with true by lia. cbn [andb parity]. rewrite xorb_false_l. reflexivity.
Qed.

Definition osd_sizes (o : osd_members) : Prop :=
  length (om_G o) = W * K /\ length (om_codeword o) = W /\ length (om_softperm o) = W /\ length (om_perm o) = W /\ N <= length (om_tmp o).

Lemma loadG_ok G perm sg : length G = W * K -> prep W N sg perm (fun i => i) -> (forall i, i < N -> sg i < N) ->
  exists G', for_up 0 K (fun j G => for_up 0 N (fun i G => p <- rd perm i ;; g <- rd genmat (N * j + p) ;; wr G (W * j + i) g) G) G = Ok G' /\
    rep W N K G' (fun j i => entry N genmat j (sg i)).
Proof.
  intros LG (LP & HP) HS. pose proof (osd_W_ge N) as HW.
  edestruct (for_up_inv (fun j G => length G = W * K /\ forall r i, r < j -> i < N -> nth (W * r + i) G 0%Z = Z.b2z (entry N genmat r (sg i)))) as (G' & E & L & HI).
  4: { exists G'. split; [exact E|]. split; [exact L|]. exact HI. }
  - lia.
  - intros j g Hj (L & HI). cbv beta.
    edestruct (for_up_inv (fun i' G => length G = W * K /\ forall r i, (r < j /\ i < N) \/ (r = j /\ i < i') -> nth (W * r + i) G 0%Z = Z.b2z (entry N genmat r (sg i)))) as (g' & E & L' & HI').
    4: { exists g'. split; [exact E|]. split; [exact L'|]. intros r i Hr Hi. apply HI'. lia. }
    + lia.
    + intros i g1 Hi (L1 & HI1). cbv beta. rewrite (rd_nth perm i 0) by lia. cbn [bind]. rewrite HP by exact (proj2 Hi). pose proof (HS i ltac:(lia)) as HSi.
      assert (HL : N * j + sg i < length genmat). { assert (N * S j <= N * K) by (apply Nat.mul_le_mono_l; lia). lia. }
      rewrite (rd_nth genmat _ 0%Z) by exact HL. cbn [bind]. rewrite entry_val by lia. pose proof (index_lt W N K HW j i ltac:(lia) ltac:(lia)) as HIX.
      rewrite wr_Ok by lia. eexists. split; [reflexivity|]. split; [rewrite length_upd; exact L1|]. intros r c Hr. rewrite nth_upd. replace (W * j + i <? length g1) with true by lia. rewrite andb_true_r.
      destruct (Nat.eqb_spec (W * j + i) (W * r + c)) as [E|E].
      * apply (index_inj W N HW) in E; [|lia|lia]. destruct E as (-> & ->). reflexivity.
      * apply HI1. destruct Hr as [Hr|(-> & Hr)]; [lia|]. destruct (Nat.eq_dec c i) as [->|]; lia.
    + split; [exact L|]. intros r i Hr. apply HI; lia.
  - split; [exact LG|]. intros r i Hr. lia.
Qed.

Lemma map_nth_perm (f : nat -> nat) n : (forall i, i < n -> f i < n) -> (forall i j, i < n -> j < n -> f i = f j -> i = j) -> Permutation (map f (seq 0 n)) (seq 0 n).
Proof.
  intros H1 H2. apply NoDup_Permutation_bis.
  - assert (HD : forall l, NoDup l -> (forall x, In x l -> x < n) -> NoDup (map f l)).
    { induction l as [|x l IH]; intros ND HL; [constructor|]. inversion ND; subst. cbn [map]. constructor; [|apply IH; [assumption|intros; apply HL; right; assumption]].
      intros HX. apply in_map_iff in HX. destruct HX as (y & E & Hy). apply H2 in E; [subst; contradiction|apply HL; right; exact Hy|apply HL; left; reflexivity]. }
    apply HD; [apply seq_NoDup|]. intros x Hx. apply in_seq in Hx. lia.
  - rewrite map_length. lia.
  - intros x Hx. apply in_map_iff in Hx. destruct Hx as (y & <- & Hy). apply in_seq in Hy. apply in_seq. pose proof (H1 y ltac:(lia)). lia.
Qed.
Lemma product_cols (M : nat -> nat -> bool) (f : nat -> nat) m i : product K (fun j i => M j (f i)) m i = product K M m (f i).
Proof. reflexivity. Qed.

Lemma prepare_ok o : osd_sizes o -> exists G perm softperm codeword M pi,
  osd_prepare N K o soft genmat = Ok (G, perm, softperm, codeword) /\ prepared G perm softperm codeword M pi.
Proof.
  intros (LG & LC & LS & LP & LT). pose proof (osd_W_ge N) as HW. unfold osd_prepare. cbv zeta.
  (* perm *)
  destruct (fill_from (fun i => i) (fun i perm => require (Z.of_nat i <=? 32767)%Z ;;; wr perm i i) 0 N (om_perm o) 0) as (pm & E1 & L1 & H1); [lia|lia| |].
  { intros i b Hi _ _. replace (Z.of_nat i <=? 32767)%Z with true by lia. reflexivity. }
  rewrite E1. cbn [bind].
  (* softperm *)
  destruct (fill_from (fun i => Z.abs (soft_at soft i)) (fun i softperm => s <- rd soft i ;; wr softperm i (Z.abs (osd_clip s))) 0 N (om_softperm o) 0%Z) as (sp & E2 & L2 & H2); [lia|lia| |].
  { intros i b Hi _ _. rewrite (rd_nth soft i 0%Z) by lia. reflexivity. }
  rewrite E2. cbn [bind].
  (* sort *)
  change (fun a b : nat => (nth b sp 0 <? nth a sp 0)%Z) with (by_soft sp).
  assert (EP : pm = seq 0 N ++ skipn N pm).
  { rewrite <- (firstn_skipn N pm) at 1. f_equal. apply (list_ext _ _ 0); [rewrite firstn_length, seq_length; lia|]. intros i Hi. rewrite firstn_length in Hi.
    rewrite nth_firstn, seq_nth, H1 by lia. replace (i <? N) with true by lia. reflexivity. }
  destruct (C19_merge_sort nat (by_soft sp) 32 (seq 0 N) (skipn N pm) (om_tmp o) (by_soft_swo sp)) as (s & E3 & ST); try (rewrite seq_length; lia); [lia|].
  rewrite seq_length, <- EP in E3. rewrite E3. cbn [bind].
  pose proof ST as (SP & _ & _). assert (LSs : length s = N) by (apply Permutation_length in SP; rewrite seq_length in SP; lia).
  set (sg := fun i => nth i s 0).
  assert (SGL : forall i, i < N -> sg i < N). { intros x Hx. assert (H : In (sg x) (seq 0 N)) by (apply (Permutation_in _ (Permutation_sym SP)), nth_In; lia). apply in_seq in H. lia. }
  assert (SGI : forall i j, i < N -> j < N -> sg i = sg j -> i = j).
  { intros i j Hi Hj E. assert (ND : NoDup s) by (apply (Permutation_NoDup SP), seq_NoDup). apply (proj1 (NoDup_nth s 0) ND); try lia. exact E. }
  assert (SGS : forall p, p < N -> exists i, i < N /\ sg i = p).
  { intros p Hp. assert (H : In p s) by (apply (Permutation_in _ SP), in_seq; lia). apply (In_nth _ _ 0) in H. destruct H as (i & Hi & E). exists i. split; [lia|exact E]. }
  assert (SR : forall i j, i < j < N -> more_reliable soft (sg i) (sg j)).
  { apply (sorted_reliable soft sp N s); [|exact ST]. intros i Hi. rewrite H2. replace (i <? N) with true by lia. reflexivity. }
  assert (HPR : prep W N sg (s ++ skipn N pm) (fun i => i)).
  { split; [rewrite app_length, skipn_length; lia|]. intros i Hi. rewrite app_nth1 by lia. reflexivity. }
  (* G *)
  destruct (loadG_ok (om_G o) _ sg LG HPR SGL) as (G0 & E4 & HG0). rewrite E4. cbn [bind]. set (M0 := fun j i => entry N genmat j (sg i)) in *.
  assert (FR0 : full_rank N K M0).
  { intros m Hm. apply Hrank. intros p Hp. destruct (SGS p Hp) as (i & Hi & <-). apply (Hm i Hi). }
  destruct (row_echelon_ok W N K HW ltac:(lia) M0 sg G0 _ HG0 HPR FR0) as (G1 & pm1 & M1 & q & T & E5 & HG1 & HP1 & HI1). rewrite E5. cbn [bind].
  destruct (systematic_ok W N K HW ltac:(lia) M0 sg G1 M1 HG1 (i_ech _ _ _ _ _ _ _ HI1)) as (G2 & M & E6 & HG2 & RE2 & HB2 & HSys). rewrite E6. cbn [bind].
  set (pi := fun i => sg (q i)).
  assert (PIL : forall i, i < N -> pi i < N) by (intros i Hi; apply SGL, (i_lt _ _ _ _ _ _ _ HI1); exact Hi).
  assert (PII : forall i j, i < N -> j < N -> pi i = pi j -> i = j).
  { intros i j Hi Hj E. apply SGI in E; [|apply (i_lt _ _ _ _ _ _ _ HI1); assumption|apply (i_lt _ _ _ _ _ _ _ HI1); assumption]. apply (i_inj _ _ _ _ _ _ _ HI1) in E; assumption. }
  assert (PIP : Permutation (map pi (seq 0 N)) (seq 0 N)) by (apply map_nth_perm; assumption).
  assert (PIS : forall p, p < N -> exists i, i < N /\ pi i = p).
  { intros p Hp. assert (H : In p (map pi (seq 0 N))) by (apply (Permutation_in _ (Permutation_sym PIP)), in_seq; lia). apply in_map_iff in H. destruct H as (i & E & Hi). apply in_seq in Hi. exists i. split; [lia|exact E]. }
  destruct HP1 as (LP1 & HP1).
  (* softperm again *)
  destruct (fill_from (fun i => soft_at soft (pi i)) (fun i softperm => p <- rd pm1 i ;; s <- rd soft p ;; wr softperm i (osd_clip s)) 0 N sp 0%Z) as (sp1 & E7 & L7 & H7); [lia|lia| |].
  { intros i b Hi _ _. rewrite (rd_nth pm1 i 0) by lia. cbn [bind]. rewrite HP1 by lia. change (sg (q i)) with (pi i). pose proof (PIL i ltac:(lia)). rewrite (rd_nth soft _ 0%Z) by lia. reflexivity. }
  rewrite E7. cbn [bind].
  destruct (fill_from (fun i => 0%Z) (fun i softperm => wr softperm i 0%Z) N W sp1 0%Z) as (sp2 & E8 & L8 & H8); [lia|lia|reflexivity|]. rewrite E8. cbn [bind].
  assert (HS2 : forall i, i < N -> nth i sp2 0%Z = soft_at soft (pi i)).
  { intros i Hi. rewrite H8. replace (N <=? i) with false by lia. cbn [andb]. rewrite H7. replace (i <? N) with true by lia. reflexivity. }
  destruct (fill_from (fun i => Z.b2z (decided soft (pi i))) (fun i codeword => s <- rd sp2 i ;; wr codeword i (Z.b2z (s <? 0)%Z)) 0 K (om_codeword o) 0%Z) as (c1 & E9 & L9 & H9); [lia|lia| |].
  { intros i b Hi _ _. rewrite (rd_nth sp2 i 0%Z) by lia. cbn [bind]. rewrite HS2 by lia. do 2 f_equal. unfold decided, soft_at. lia. }
  rewrite E9. cbn [bind].
  destruct (encode_ok G2 M (fun j => decided soft (pi j)) c1 HG2 HSys ltac:(lia)) as (cw & E10 & LCW & HCW).
  { intros i Hi. rewrite H9. replace (i <? K) with true by lia. reflexivity. }
  rewrite E10. cbn [bind]. exists G2, pm1, sp2, cw, M, pi. split; [reflexivity|].
  assert (CODE : requiv N K (fun j i => entry N genmat j (pi i)) M).
  { apply (requiv_trans _ _ _ M1); [|exact RE2]. exact (i_eq _ _ _ _ _ _ _ HI1). }
  constructor; auto.
  - split; [lia|]. split; [exact HS2|]. intros i Hi. rewrite H8. replace (N <=? i) with true by lia. replace (i <? W) with true by lia. reflexivity.
  - split; [|split; [|split; [|split; [|split]]]].
    + apply (Permutation_NoDup (l := map pi (seq 0 K))); [reflexivity|]. assert (ND : NoDup (map pi (seq 0 N))) by (apply (Permutation_NoDup (Permutation_sym PIP)), seq_NoDup).
      replace N with (K + (N - K)) in ND by lia. rewrite seq_app, map_app in ND. revert ND. generalize (map pi (seq 0 K)). intros l. induction l as [|x l IH]; intros ND; [constructor|].
      inversion ND as [|? ? HNI ND']. constructor; [|apply IH; exact ND']. intros HX. apply HNI. apply in_or_app. left. exact HX.
    + rewrite map_length, seq_length. reflexivity.
    + intros b Hb. apply in_map_iff in Hb. destruct Hb as (i & <- & Hi). apply in_seq in Hi. apply PIL. lia.
    + intros c (m & Hm) HZ p Hp. destruct (PIS p Hp) as (i & Hi & <-). destruct CODE as (_ & CB). destruct (CB m) as (m' & E).
      assert (EC : forall i, i < N -> c (pi i) = product K M m' i). { intros x Hx. rewrite Hm by (apply PIL; exact Hx). rewrite <- E by exact Hx. reflexivity. }
      assert (Z' : forall j, j < K -> m' j = false).
      { intros j Hj. assert (HC : c (pi j) = false) by (apply HZ, in_map_iff; exists j; split; [reflexivity|apply in_seq; lia]). rewrite EC in HC by lia. rewrite <- HC. symmetry.
        unfold product. rewrite (parity_one K _ j Hj); [rewrite HSys, Nat.eqb_refl, andb_true_r by lia; reflexivity|]. intros r Hr Hne. rewrite HSys by lia. replace (r =? j) with false by lia. apply andb_false_r. }
      rewrite EC by exact Hi. apply product_zero. exact Z'.
    + intros b Hb. apply in_map_iff in Hb. destruct Hb as (j0 & <- & Hj0). apply in_seq in Hj0. destruct CODE as (CA & _). destruct (CA (fun j => j =? j0)) as (m' & E & _).
      exists (product K (entry N genmat) m'). split; [exists m'; reflexivity|].
      assert (EV : forall j, j < K -> product K (entry N genmat) m' (pi j) = (j0 =? j)).
      { intros j Hj. rewrite <- (product_cols (entry N genmat) pi m' j), <- E by lia. rewrite product_row by lia. apply HSys; lia. }
      split; [rewrite EV by lia; apply Nat.eqb_refl|]. intros b' Hb' Hne. apply in_map_iff in Hb'. destruct Hb' as (j & <- & Hj). apply in_seq in Hj. rewrite EV by lia.
      destruct (Nat.eqb_spec j0 j) as [->|]; [congruence|reflexivity].
    + intros p Hp HN' c (m & Hm) HZ. destruct (PIS p Hp) as (i & Hi & <-). destruct CODE as (_ & CB). destruct (CB m) as (m' & E).
      assert (EC : forall i, i < N -> c (pi i) = product K M m' i). { intros x Hx. rewrite Hm by (apply PIL; exact Hx). rewrite <- E by exact Hx. reflexivity. }
      assert (KI : K <= i). { destruct (Nat.lt_ge_cases i K) as [H|H]; [|exact H]. exfalso. apply HN', in_map_iff. exists i. split; [reflexivity|apply in_seq; lia]. }
      assert (Z' : forall j, j < K -> q j < q i -> m' j = false).
      { intros j Hj Hq. assert (HC : c (pi j) = false).
        { apply HZ; [apply in_map_iff; exists j; split; [reflexivity|apply in_seq; lia]|]. apply SR. split; [exact Hq|]. apply (i_lt _ _ _ _ _ _ _ HI1). exact Hi. }
        rewrite EC in HC by lia. rewrite <- HC. symmetry.
        unfold product. rewrite (parity_one K _ j Hj); [rewrite HSys, Nat.eqb_refl, andb_true_r by lia; reflexivity|]. intros r Hr Hne. rewrite HSys by lia. replace (r =? j) with false by lia. apply andb_false_r. }
      rewrite EC by exact Hi. unfold product. apply parity_zero. intros j Hj. destruct (Nat.le_gt_cases T i) as [HT|HT].
      * rewrite Z'; [reflexivity|exact Hj|]. rewrite (i_new _ _ _ _ _ _ _ HI1 i) by lia. pose proof (i_old _ _ _ _ _ _ _ HI1 j Hj). lia.
      * destruct (i_skip _ _ _ _ _ _ _ HI1 i ltac:(lia)) as (s0 & Hs0 & B & Q). destruct (Nat.lt_ge_cases j s0) as [H|H]; [rewrite Z'; [reflexivity|exact Hj|apply Q; exact H]|].
        rewrite (HB2 i s0 B j) by lia. apply andb_false_r.
Qed.

(** ** the metric *)
Definition zsum (l : list Z) : Z := fold_right Z.add 0%Z l.
Lemma zsum_app a b : zsum (a ++ b) = (zsum a + zsum b)%Z.
Proof. induction a as [|x a IH]; [reflexivity|]. cbn [app zsum fold_right] in *. unfold zsum in *. cbn [app fold_right]. lia. Qed.
Lemma zsum_perm a b : Permutation a b -> zsum a = zsum b.
Proof. intros H. induction H; unfold zsum in *; cbn [fold_right]; lia. Qed.
Lemma zsum_bound l k : Forall (fun x => -127 <= x <= 127)%Z l -> k = length l -> (-127 * Z.of_nat k <= zsum l <= 127 * Z.of_nat k)%Z.
Proof. intros H ->. induction H as [|x l Hx HF IH]; [cbn; lia|]. cbn [length]. unfold zsum in *. cbn [fold_right]. lia. Qed.

Lemma corr_perm (pi : nat -> nat) (c : nat -> bool) : Permutation (map pi (seq 0 N)) (seq 0 N) ->
  zsum (map (fun i => if c (pi i) then (- soft_at soft (pi i))%Z else soft_at soft (pi i)) (seq 0 N)) = correlation N soft c.
Proof.
  intros P. unfold correlation. apply zsum_perm. rewrite <- (map_map pi (fun p => if c p then (- soft_at soft p)%Z else soft_at soft p)). apply Permutation_map. exact P.
Qed.
Lemma metric_ok softperm cw (pi : nat -> nat) (c : nat -> bool) : Permutation (map pi (seq 0 N)) (seq 0 N) ->
  length softperm = W -> (forall i, i < N -> nth i softperm 0%Z = soft_at soft (pi i)) -> (forall i, N <= i < W -> nth i softperm 0%Z = 0%Z) ->
  length cw = W -> (forall i, i < N -> nth i cw 0%Z = Z.b2z (c (pi i))) -> osd_metric W cw softperm = Ok (correlation N soft c).
Proof.
  intros P LS HS HZ LC HC. pose proof (osd_W_ge N) as HW. unfold osd_metric. rewrite <- (corr_perm pi c P). set (t := fun i => if c (pi i) then (- soft_at soft (pi i))%Z else soft_at soft (pi i)).
  edestruct (for_up_inv (fun i (sum : Z) => sum = zsum (map t (seq 0 (min i N))))) as (s & E & HI).
  4: { rewrite E, HI, Nat.min_r by exact HW. reflexivity. }
  - lia.
  - intros i sum Hi ->. cbv beta. rewrite (rd_nth cw i 0%Z), (rd_nth softperm i 0%Z) by lia. cbn [bind].
    assert (ES : (zsum (map t (seq 0 (min i N))) + (1 - 2 * nth i cw 0) * nth i softperm 0 = zsum (map t (seq 0 (min (S i) N))))%Z).
    { destruct (Nat.lt_ge_cases i N) as [H|H].
      - rewrite HC, HS by exact H. replace (min i N) with i by lia. replace (min (S i) N) with (S i) by lia. rewrite seq_S, map_app, zsum_app. f_equal. cbn [map zsum fold_right Nat.add].
        unfold t. destruct (c (pi i)); cbn [Z.b2z]; lia.
      - rewrite HZ by lia. replace (min i N) with N by lia. replace (min (S i) N) with N by lia. lia. }
    rewrite ES. eexists. split; [|reflexivity]. apply chk_ok.
    pose proof (zsum_bound (map t (seq 0 (min (S i) N))) (min (S i) N)) as HB. assert (Z.of_nat (min (S i) N) <= 32768)%Z by lia.
    destruct HB as (B1 & B2); [|rewrite map_length, seq_length; reflexivity|lia].
    apply Forall_forall. intros x Hx. apply in_map_iff in Hx. destruct Hx as (y & <- & _). unfold t. pose proof (soft_range (pi y)). destruct (c (pi y)); lia.
  - reflexivity.
Qed.

(** ** the output *)
Lemma output_ok hard off perm (pi : nat -> nat) (cand : nat -> res Z) (c : nat -> bool) : Permutation (map pi (seq 0 N)) (seq 0 N) -> (N <= length perm) -> (forall i, i < N -> nth i perm 0 = pi i) ->
  (forall i, i < N -> exists x, cand i = Ok x /\ tob x = c (pi i)) -> bytes hard -> off + N <= 8 * length hard ->
  exists hard', for_up 0 N (fun i hard => p <- rd perm i ;; x <- cand i ;; set_be_bit hard (Z.of_nat off + Z.of_nat p)%Z (tob x)) hard = Ok hard' /\
    bytes hard' /\ length hard' = length hard /\ forall p, be_bit_of hard' p = if (off <=? p) && (p <? off + N) then c (p - off) else be_bit_of hard p.
Proof.
  intros P LP HP HC HB HL.
  assert (PIL : forall i, i < N -> pi i < N). { intros i Hi. assert (H : In (pi i) (seq 0 N)) by (apply (Permutation_in _ P), in_map, in_seq; lia). apply in_seq in H. lia. }
  edestruct (for_up_inv (fun k h => bytes h /\ length h = length hard /\ forall p, be_bit_of h p = if (off <=? p) && existsb (fun i => pi i =? p - off) (seq 0 k) then c (p - off) else be_bit_of hard p)) as (h & E & B & L & HI).
  4: { exists h. split; [exact E|]. split; [exact B|]. split; [exact L|]. intros p. rewrite HI. destruct (Nat.leb_spec off p) as [Hp|Hp]; [|reflexivity]. cbn [andb].
       assert (EX : existsb (fun i => pi i =? p - off) (seq 0 N) = (p <? off + N)); [|rewrite EX; reflexivity].
       destruct (Nat.ltb_spec p (off + N)) as [H|H].
       - assert (HX : In (p - off) (map pi (seq 0 N))) by (apply (Permutation_in _ (Permutation_sym P)), in_seq; lia). apply in_map_iff in HX. destruct HX as (i & Ei & Hi).
         apply existsb_exists. exists i. split; [exact Hi|]. lia.
       - destruct (existsb (fun i => pi i =? p - off) (seq 0 N)) eqn:EX; [|reflexivity]. apply existsb_exists in EX. destruct EX as (i & Hi & Ei). apply in_seq in Hi. pose proof (PIL i ltac:(lia)). lia. }
  - lia.
  - intros i h Hi (B & L & HI). cbv beta. rewrite (rd_nth perm i 0) by lia. cbn [bind]. rewrite HP by lia. destruct (HC i ltac:(lia)) as (x & Ex & Hx). rewrite Ex. cbn [bind]. rewrite Hx. pose proof (PIL i ltac:(lia)).
    replace (Z.of_nat off + Z.of_nat (pi i))%Z with (Z.of_nat (off + pi i)) by lia. destruct (set_be_bit_ok h (off + pi i) B ltac:(lia) (c (pi i))) as (h' & E & L' & B' & HT & _).
    exists h'. split; [exact E|]. split; [exact B'|]. split; [lia|]. intros p. rewrite HT, HI, seq_S, existsb_app. cbn [Nat.add existsb]. rewrite orb_false_r.
    destruct (Nat.eqb_spec p (off + pi i)) as [->|Hne].
    + replace (off <=? off + pi i) with true by lia. replace (off + pi i - off) with (pi i) by lia. rewrite Nat.eqb_refl, orb_true_r. reflexivity.
    + destruct (Nat.leb_spec off p); [|reflexivity]. replace (pi i =? p - off) with false by lia. rewrite orb_false_r. reflexivity.
  - split; [exact HB|]. split; [reflexivity|]. intros p. cbn [seq existsb]. rewrite andb_false_r. reflexivity.
Qed.
End P.
