(** Proofs about Model_osd: a generator matrix without full rank makes the assertion of row_echelon fail. *)
From Coq Require Import ZifyBool ZifyNat Permutation.
From Verif Require Import Cpp Lib_list Model_bits Model_sort Spec_sort Prop_sort Model_osd Spec_osd Proof_bits Proof_osd1 Proof_osd2 Proof_osd3 Proof_osd4 Proof_osd8.
Ltac Zify.zify_post_hook ::= idtac.
Local Open Scope nat_scope.

Lemma for_up_abort {S} (P : nat -> S -> Prop) (f : nat -> S -> res S) hi : forall n lo s, lo + n = hi ->
  (forall k s, lo <= k < hi -> P k s -> f k s = Abort \/ exists s', f k s = Ok s' /\ P (Datatypes.S k) s') ->
  (forall s, P hi s -> False) -> P lo s -> for_up lo hi f s = Abort.
Proof.
  induction n as [|n IH]; intros lo s Hn HS HF HP.
  - replace lo with hi in HP by lia. destruct (HF s HP).
  - rewrite for_up_head by lia. destruct (HS lo s ltac:(lia) HP) as [->|(s' & -> & HP')]; [reflexivity|]. cbn [bind].
    apply IH; [lia| |exact HF|exact HP']. intros k t Hk. apply HS. lia.
Qed.

Section A.
Variables W N K : nat.
Hypothesis HW : N <= W.
Hypothesis HK : K <= N.
Notation rep := (rep W N K).

Lemma rank_ext M M' : (forall j i, j < K -> i < N -> M j i = M' j i) -> full_rank N K M -> full_rank N K M'.
Proof. intros H. apply requiv_rank, requiv_refl. exact H. Qed.
Lemma rank_addrow M k j : k < K -> j < K -> k <> j -> full_rank N K (addrow M k j) -> full_rank N K M.
Proof.
  intros Hk Hj Hne H. apply (requiv_rank N K _ _ (requiv_addrow N K _ k j Hk Hj Hne)) in H. revert H. apply rank_ext. intros r i _ _. unfold addrow.
  rewrite Nat.eqb_refl. replace (k =? j) with false by lia. destruct (Nat.eqb_spec r j) as [->|]; [|reflexivity]. destruct (M j i), (M k i); reflexivity.
Qed.
Lemma rank_swaprow M h k : h < K -> k < K -> h <> k -> full_rank N K (swaprow M h k) -> full_rank N K M.
Proof.
  intros Hh Hk Hne H. apply (requiv_rank N K _ _ (requiv_swaprow N K _ h k Hh Hk Hne)) in H. revert H. apply rank_ext. intros r i _ _. unfold swaprow.
  rewrite !Nat.eqb_refl. replace (k =? h) with false by lia. destruct (Nat.eqb_spec r h) as [->|]; [reflexivity|]. destruct (Nat.eqb_spec r k) as [->|]; reflexivity.
Qed.
Lemma rank_swapcol M k j : k < N -> j < N -> full_rank N K (swapcol M k j) -> full_rank N K M.
Proof.
  intros Hk Hj H m Hm. apply H. intros i Hi. rewrite <- (Hm (tr k j i)) by (apply tr_lt; assumption). unfold product. apply parity_ext. intros r _. rewrite swapcol_tr. reflexivity.
Qed.

Lemma ech_full_rank (X : nat -> nat -> bool) : ech K K X -> full_rank N K X.
Proof.
  intros HE m Hm j. induction j as [j IH] using lt_wf_ind. intros Hj. pose proof (Hm j ltac:(lia)) as H. unfold product in H. rewrite (parity_one K _ j Hj) in H.
  - destruct (HE j Hj) as (H1 & _). rewrite H1, andb_true_r in H. exact H.
  - intros i Hi Hne. destruct (Nat.lt_ge_cases i j) as [Hl|Hl]; [rewrite IH by lia; reflexivity|]. destruct (HE j Hj) as (_ & H2). rewrite H2 by lia. apply andb_false_r.
Qed.

Variable M0 : nat -> nat -> bool.
Definition wk (k : nat) (s : list Z * list nat) : Prop := exists M, rep (fst s) M /\ length (snd s) = W /\ ech K k M /\ (full_rank N K M -> full_rank N K M0).

Lemma ech_swaprow k M h : ech K k M -> k < h < K -> ech K k (swaprow M h k).
Proof.
  intros HE Hh c Hc. destruct (HE c Hc) as (D & Z). unfold swaprow. split; [replace (c =? h) with false by lia; replace (c =? k) with false by lia; exact D|].
  intros r Hr. destruct (r =? h); [apply Z; lia|]. destruct (r =? k); apply Z; lia.
Qed.
Lemma ech_swapcol k M j : ech K k M -> k < j -> ech K k (swapcol M k j).
Proof.
  intros HE Hj c Hc. destruct (HE c Hc) as (D & Z). rewrite swapcol_tr, tr_other by lia. split; [exact D|]. intros r Hr. rewrite swapcol_tr, tr_other by lia. apply Z. exact Hr.
Qed.

Lemma pivot_weak k G perm : wk k (G, perm) -> k < K -> exists G', osd_pivot W N K k G = Ok G' /\ wk k (G', perm).
Proof.
  intros (M & HG & LP & HE & HR) Hk. cbn [fst snd] in *. unfold osd_pivot.
  edestruct (for_ret_inv (fun j G' => G' = G) (fun G' => wk k (G', perm))) as (x & E & HX).
  4: { rewrite E. cbn [bind]. exists (broken x). split; [reflexivity|]. destruct x as [s|s]; cbn [broken]; [|exact HX]. subst s. exists M. auto. }
  - lia.
  - intros j g Hj ->. cbv beta. rewrite (rep_rd W N K HW G M j k HG) by lia. cbn [bind]. rewrite tob_b2z. destruct (M j k) eqn:B.
    + destruct (Nat.eqb_spec j k) as [->|Hne]; cbn [negb].
      * cbn [bind]. eexists. split; [reflexivity|]. cbv beta iota. exists M. auto.
      * destruct (swaprow_ok W N K HW G M j k HG Hk ltac:(lia) Hne ltac:(lia)) as (g' & E & HG').
        { intros i Hi. split; apply (ech_left K k); try exact HE; lia. }
        rewrite E. cbn [bind]. eexists. split; [reflexivity|]. cbv beta iota. exists (swaprow M j k). cbn [fst snd]. split; [exact HG'|]. split; [exact LP|].
        split; [apply ech_swaprow; [exact HE|lia]|]. intros H. apply HR, (rank_swaprow M j k); try lia. exact H.
    + eexists. split; reflexivity.
  - reflexivity.
Qed.

Lemma column_weak k s : wk k s -> k < K -> exists s', osd_column W N K k s = Ok s' /\ wk k s'.
Proof.
  intros HS Hk. unfold osd_column.
  edestruct (for_ret_inv (fun j s => wk k s) (wk k)) as (x & E & HX).
  4: { rewrite E. cbn [bind]. exists (broken x). split; [reflexivity|]. destruct x as [t|t]; exact HX. }
  - lia.
  - clear s HS. intros j (G & perm) Hj HS. pose proof HS as (M & HG & LP & HE & HR). cbn [fst snd] in *. cbv beta iota.
    rewrite (rep_rd W N K HW G M k k HG) by lia. cbn [bind]. rewrite tob_b2z. destruct (M k k); [eexists; split; [reflexivity|]; exact HS|].
    edestruct (for_ret_inv (fun h s => s = (G, perm)) (wk k)) as (y & Ey & HY).
    4: { rewrite Ey. cbn [bind]. eexists. split; [reflexivity|]. cbv beta iota. destruct y as [t|t]; cbn [broken]; [subst t; exact HS|exact HY]. }
    + lia.
    + intros h s Hh ->. cbv beta iota. rewrite (rep_rd W N K HW G M h j HG) by lia. cbn [bind]. rewrite tob_b2z. destruct (M h j); [|eexists; split; reflexivity].
      rewrite (swap_ok perm k j 0) by lia. cbn [bind].
      destruct (swapcol_ok W N K HW G M j k HG ltac:(lia) ltac:(lia) ltac:(lia)) as (g1 & E2 & HG1). rewrite E2. cbn [bind].
      destruct (Nat.eqb_spec h k) as [->|Hne]; cbn [negb].
      * cbn [bind]. eexists. split; [reflexivity|]. cbv beta iota. exists (swapcol M k j). cbn [fst snd]. rewrite !length_upd. split; [exact HG1|]. split; [exact LP|].
        split; [apply ech_swapcol; [exact HE|lia]|]. intros H. apply HR, (rank_swapcol M k j); try lia. exact H.
      * destruct (swaprow_ok W N K HW g1 (swapcol M k j) h k HG1 Hk ltac:(lia) Hne ltac:(lia)) as (g2 & E3 & HG2).
        { intros i Hi. rewrite !swapcol_tr, tr_other by lia. split; apply (ech_left K k); try exact HE; lia. }
        rewrite E3. cbn [bind]. eexists. split; [reflexivity|]. cbv beta iota. exists (swaprow (swapcol M k j) h k). cbn [fst snd]. rewrite !length_upd. split; [exact HG2|]. split; [exact LP|].
        split; [apply ech_swaprow; [apply ech_swapcol; [exact HE|lia]|lia]|]. intros H. apply HR, (rank_swapcol M k j); try lia. apply (rank_swaprow _ h k); try lia. exact H.
    + reflexivity.
  - exact HS.
Qed.

Lemma clear_weak k G M : rep G M -> k < K -> ech K k M -> M k k = true ->
  exists G' M', for_up (k + 1) K (fun j G => x <- rd G (W * j + k) ;; if tob x then osd_addrow W N k j G else Ok G) G = Ok G' /\ rep G' M' /\
    ech K (S k) M' /\ (full_rank N K M' -> full_rank N K M).
Proof.
  intros HG Hk HE P.
  edestruct (for_up_inv (fun j G => exists M', rep G M' /\ ech K k M' /\ M' k k = true /\ (full_rank N K M' -> full_rank N K M) /\ (forall r, k < r < j -> M' r k = false))) as (G' & E & M' & H1 & H2 & H3 & H4 & H5).
  4: { exists G', M'. split; [exact E|]. split; [exact H1|]. split; [|exact H4]. intros c Hc. destruct (Nat.eq_dec c k) as [->|]; [split; [exact H3|exact H5]|apply H2; lia]. }
  - lia.
  - intros j g Hj (M1 & HG1 & HE1 & P1 & HR1 & HZ). cbv beta. rewrite (rep_rd W N K HW g M1 j k HG1) by lia. cbn [bind]. rewrite tob_b2z. destruct (M1 j k) eqn:B.
    + destruct (addrow_ok W N K HW g M1 k j HG1) as (g' & E & HG'); try lia.
      { intros i Hi. apply (ech_left K k); auto; lia. }
      exists g'. split; [exact E|]. exists (addrow M1 k j). split; [exact HG'|]. split; [|split; [|split]].
      * intros c Hc. destruct (HE1 c Hc) as (D & Z). unfold addrow. split; [replace (c =? j) with false by lia; exact D|]. intros r Hr.
        destruct (Nat.eqb_spec r j) as [->|]; [rewrite !Z by lia; reflexivity|apply Z; exact Hr].
      * unfold addrow. replace (k =? j) with false by lia. exact P1.
      * intros H. apply HR1, (rank_addrow M1 k j); try lia. exact H.
      * intros r Hr. unfold addrow. destruct (Nat.eqb_spec r j) as [->|]; [rewrite B, P1; reflexivity|]. apply HZ. lia.
    + exists g. split; [reflexivity|]. exists M1. repeat (split; [assumption|]). intros r Hr. destruct (Nat.eq_dec r j) as [->|]; [exact B|apply HZ; lia].
  - exists M. split; [exact HG|]. split; [exact HE|]. split; [exact P|]. split; [auto|]. intros r Hr. lia.
Qed.

Lemma row_echelon_abort G perm : 1 <= K -> rep G M0 -> length perm = W -> ~ full_rank N K M0 -> osd_row_echelon W N K (G, perm) = Abort.
Proof.
  intros K1 HG LP NR. unfold osd_row_echelon. apply (for_up_abort wk _ K K); [lia| | |].
  - intros k (g & pm) Hk HS. cbv beta iota. destruct (pivot_weak k g pm HS ltac:(lia)) as (g1 & E1 & HS1). rewrite E1. cbn [bind].
    destruct (column_weak k _ HS1 ltac:(lia)) as ((g2 & pm2) & E2 & HS2). rewrite E2. cbn [bind]. destruct HS2 as (M & HG2 & LP2 & HE2 & HR2). cbn [fst snd] in *.
    rewrite (rep_rd W N K HW g2 M k k HG2) by lia. cbn [bind]. rewrite tob_b2z. destruct (M k k) eqn:P; [|left; reflexivity]. right. cbn [assert_ bind].
    destruct (clear_weak k g2 M HG2 ltac:(lia) HE2 P) as (g3 & M3 & E3 & HG3 & HE3 & HR3). rewrite E3. cbn [bind]. eexists. split; [reflexivity|].
    exists M3. cbn [fst snd]. split; [exact HG3|]. split; [exact LP2|]. split; [exact HE3|]. auto.
  - intros (g & pm) (M & _ & _ & HE & HR). apply NR, HR. exact (ech_full_rank M HE).
  - exists M0. cbn [fst snd]. split; [exact HG|]. split; [exact LP|]. split; [intros c Hc; lia|auto].
Qed.
End A.

Lemma prepare_abort N K o soft genmat : 1 <= K <= N -> (Z.of_nat N <= 32768)%Z -> N <= length soft -> N * K <= length genmat -> binary genmat ->
  ~ full_rank N K (entry N genmat) -> osd_sizes N K o -> osd_prepare N K o soft genmat = Abort.
Proof.
  intros HK HN Hsoft Hgen Hbin NR (LG & LC & LS & LP & LT). pose proof (osd_W_ge N) as HW. unfold osd_prepare. cbv zeta.
  destruct (fill_from (fun i => i) (fun i perm => require (Z.of_nat i <=? 32767)%Z ;;; wr perm i i) 0 N (om_perm o) 0) as (pm & E1 & L1 & H1); [lia|lia| |].
  { intros i b Hi _ _. replace (Z.of_nat i <=? 32767)%Z with true by lia. reflexivity. }
  rewrite E1. cbn [bind].
  destruct (fill_from (fun i => Z.abs (soft_at soft i)) (fun i softperm => s <- rd soft i ;; wr softperm i (Z.abs (osd_clip s))) 0 N (om_softperm o) 0%Z) as (sp & E2 & L2 & H2); [lia|lia| |].
  { intros i b Hi _ _. rewrite (rd_nth soft i 0%Z) by lia. reflexivity. }
  rewrite E2. cbn [bind].
  change (fun a b : nat => (nth b sp 0 <? nth a sp 0)%Z) with (by_soft sp).
  assert (EP : pm = seq 0 N ++ skipn N pm).
  { rewrite <- (firstn_skipn N pm) at 1. f_equal. apply (list_ext _ _ 0); [rewrite firstn_length, seq_length; lia|]. intros i Hi. rewrite firstn_length in Hi.
    rewrite nth_firstn, seq_nth, H1 by lia. replace (i <? N) with true by lia. reflexivity. }
  destruct (C19_merge_sort nat (by_soft sp) 32 (seq 0 N) (skipn N pm) (om_tmp o) (by_soft_swo sp)) as (s & E3 & ST); try (rewrite seq_length; lia); [lia|].
  rewrite seq_length, <- EP in E3. rewrite E3. cbn [bind].
  pose proof ST as (SP & _ & _). assert (LSs : length s = N) by (apply Permutation_length in SP; rewrite seq_length in SP; lia).
  set (sg := fun i => nth i s 0).
  assert (SGL : forall i, i < N -> sg i < N). { intros x Hx. assert (H : In (sg x) (seq 0 N)) by (apply (Permutation_in _ (Permutation_sym SP)), nth_In; lia). apply in_seq in H. lia. }
  assert (HPR : prep (osd_W N) N sg (s ++ skipn N pm) (fun i => i)).
  { split; [rewrite app_length, skipn_length; lia|]. intros i Hi. rewrite app_nth1 by lia. reflexivity. }
  destruct (loadG_ok N K soft genmat HK Hsoft Hgen Hbin (om_G o) _ sg LG HPR SGL) as (G0 & E4 & HG0). rewrite E4. cbn [bind].
  rewrite (row_echelon_abort (osd_W N) N K HW ltac:(lia) _ G0 _ ltac:(lia) HG0 (proj1 HPR)); [reflexivity|].
  intros FR. apply NR. intros m Hm. apply FR. intros i Hi. apply (Hm (sg i)). apply SGL. exact Hi.
Qed.
