(** Proofs about Model_osd: row_echelon and systematic. *)
From Coq Require Import ZifyBool ZifyNat.
From Verif Require Import Cpp Model_osd Spec_osd Proof_osd1 Proof_osd2.
Ltac Zify.zify_post_hook ::= idtac.
Local Open Scope nat_scope.

Definition tr (k j i : nat) : nat := if i =? k then j else if i =? j then k else i.
Lemma tr_lt k j i n : k < n -> j < n -> i < n -> tr k j i < n.
Proof. unfold tr. destruct (i =? k), (i =? j); auto. Qed.
Lemma tr_invol k j i : tr k j (tr k j i) = i.
Proof. unfold tr. destruct (Nat.eqb_spec i k) as [->|]; [|destruct (Nat.eqb_spec i j) as [->|]]; repeat match goal with |- context [?a =? ?b] => destruct (Nat.eqb_spec a b) end; lia. Qed.
Lemma tr_other k j i : i <> k -> i <> j -> tr k j i = i.
Proof. intros H1 H2. unfold tr. replace (i =? k) with false by lia. replace (i =? j) with false by lia. reflexivity. Qed.
Lemma tr_l k j : tr k j k = j.
Proof. unfold tr. rewrite Nat.eqb_refl. reflexivity. Qed.
Lemma tr_r k j : tr k j j = k.
Proof. unfold tr. destruct (Nat.eqb_spec j k) as [->|]; [reflexivity|rewrite Nat.eqb_refl; reflexivity]. Qed.
Lemma swapcol_tr M k j r c : swapcol M k j r c = M r (tr k j c).
Proof. unfold swapcol, tr. destruct (c =? k), (c =? j); reflexivity. Qed.

Section E.
Variables W N K : nat.
Hypothesis HW : N <= W.
Hypothesis HK : K <= N.
Notation rep := (rep W N K).

(** columns before k are zero below the diagonal and one on it *)
Definition ech (k : nat) (M : nat -> nat -> bool) : Prop := forall c, c < k -> M c c = true /\ forall j, c < j < K -> M j c = false.
(** rows from k on are zero in column c *)
Definition below (k : nat) (M : nat -> nat -> bool) (c : nat) : Prop := forall h, k <= h < K -> M h c = false.
(** the column came to its place before k columns were chosen, all of them more reliable *)
Definition skipped (k : nat) (M : nat -> nat -> bool) (q : nat -> nat) (c : nat) : Prop :=
  exists s, s <= k /\ below s M c /\ forall b, b < s -> q b < q c.

Variable M0 : nat -> nat -> bool.
Variable sg : nat -> nat.

Definition prep (perm : list nat) (q : nat -> nat) : Prop := length perm = W /\ forall i, i < N -> nth i perm 0 = sg (q i).

Record inv (k T : nat) (M : nat -> nat -> bool) (q : nat -> nat) : Prop := {
  i_lt : forall i, i < N -> q i < N;
  i_inj : forall i j, i < N -> j < N -> q i = q j -> i = j;
  i_eq : requiv N K (fun j i => M0 j (q i)) M;
  i_rank : full_rank N K M;
  i_ech : ech k M;
  i_T : T <= N;
  i_new : forall i, T <= i < N -> q i = i;
  i_old : forall i, i < k -> q i < T;
  i_skip : forall i, k <= i < T -> skipped k M q i }.

Lemma ech_left k M r c : ech k M -> c < k -> c < r < K -> M r c = false.
Proof. intros H Hc Hr. apply (H c Hc). exact Hr. Qed.
Lemma full_rank_row M k : full_rank N K M -> k < K -> exists i, i < N /\ M k i = true.
Proof.
  intros H Hk. destruct (existsb (M k) (seq 0 N)) eqn:E.
  - apply existsb_exists in E. destruct E as (i & Hi & E). apply in_seq in Hi. exists i. split; [lia|exact E].
  - exfalso. assert (HZ : forall i, i < N -> M k i = false).
    { intros i Hi. destruct (M k i) eqn:E'; [|reflexivity]. rewrite <- E. symmetry. apply existsb_exists. exists i. split; [apply in_seq; lia|exact E']. }
    specialize (H (fun j => j =? k)). assert (A : (k =? k) = false); [|rewrite Nat.eqb_refl in A; discriminate].
    apply H; [|exact Hk]. intros i Hi. rewrite product_row by exact Hk. apply HZ. exact Hi.
Qed.

(** a row operation among the rows from k on *)
Lemma inv_row k T M M' q : inv k T M q -> requiv N K M M' -> (forall r i, r < k -> M' r i = M r i) ->
  (forall i s, s <= k -> below s M i -> below s M' i) -> inv k T M' q.
Proof.
  intros H RE HR HB. destruct H. constructor; try assumption.
  - apply (requiv_trans _ _ _ M); assumption.
  - apply (requiv_rank N K M); assumption.
  - intros c Hc. destruct (i_ech0 c Hc) as (D & Z). split; [rewrite HR by exact Hc; exact D|]. intros j Hj.
    assert (B : below (S c) M c) by (intros h Hh; apply Z; lia). apply (HB c (S c)) in B; [|lia]. apply B. lia.
  - intros i Hi. destruct (i_skip0 i Hi) as (s & Hs & B & Q). exists s. split; [exact Hs|]. split; [apply HB; assumption|exact Q].
Qed.
Lemma inv_swaprow k T M q h : inv k T M q -> k < h < K -> inv k T (swaprow M h k) q.
Proof.
  intros H Hh. apply (inv_row k T M); [exact H|apply requiv_swaprow; lia| |].
  - intros r i Hr. unfold swaprow. replace (r =? h) with false by lia. replace (r =? k) with false by lia. reflexivity.
  - intros i s Hs B r Hr. unfold swaprow. destruct (Nat.eqb_spec r h) as [->|]; [apply B; lia|]. destruct (Nat.eqb_spec r k) as [->|]; apply B; lia.
Qed.

(** the pivot search in column k *)
Lemma pivot_ok k T G M q : rep G M -> inv k T M q -> k < K ->
  exists G' M', osd_pivot W N K k G = Ok G' /\ rep G' M' /\ inv k T M' q /\ (M' k k = true \/ below k M' k).
Proof.
  intros HG HI Hk. unfold osd_pivot.
  edestruct (for_ret_inv (fun j G' => G' = G /\ forall h, k <= h < j -> M h k = false)
     (fun G' => exists M', rep G' M' /\ inv k T M' q /\ (M' k k = true \/ below k M' k))) as (x & E & HX).
  4: { rewrite E. cbn [bind]. destruct x as [s|s]; cbn [broken].
       - destruct HX as (-> & HZ). exists G, M. auto.
       - destruct HX as (M' & HM). exists s, M'. auto. }
  - lia.
  - intros j g Hj (-> & HZ). cbv beta. rewrite (rep_rd W N K HW G M j k HG) by lia. cbn [bind]. rewrite tob_b2z. destruct (M j k) eqn:B.
    + destruct (Nat.eqb_spec j k) as [->|Hne]; cbn [negb].
      * cbn [bind]. eexists. split; [reflexivity|]. cbv beta iota. exists M. auto.
      * destruct (swaprow_ok W N K HW G M j k HG Hk ltac:(lia) Hne ltac:(lia)) as (g' & E & HG').
        { intros i Hi. split; apply (ech_left k); try (apply (i_ech _ _ _ _ HI)); lia. }
        rewrite E. cbn [bind]. eexists. split; [reflexivity|]. cbv beta iota. exists (swaprow M j k). split; [exact HG'|]. split; [apply inv_swaprow; [exact HI|lia]|].
        left. unfold swaprow. replace (k =? j) with false by lia. rewrite Nat.eqb_refl. exact B.
    + eexists. split; [reflexivity|]. cbv beta iota. split; [reflexivity|]. intros h Hh. destruct (Nat.eq_dec h j) as [->|]; [exact B|apply HZ; lia].
  - split; [reflexivity|]. intros h Hh. lia.
Qed.

(** a pivot is in place, the next T is known *)
Record mid (k T : nat) (M : nat -> nat -> bool) (q : nat -> nat) : Prop := {
  m_lt : forall i, i < N -> q i < N;
  m_inj : forall i j, i < N -> j < N -> q i = q j -> i = j;
  m_eq : requiv N K (fun j i => M0 j (q i)) M;
  m_rank : full_rank N K M;
  m_ech : ech k M;
  m_piv : M k k = true;
  m_T : T <= N;
  m_new : forall i, T <= i < N -> q i = i;
  m_old : forall i, i <= k -> q i < T;
  m_skip : forall i, k < i < T -> skipped k M q i }.

Lemma mid_direct k T M q : inv k T M q -> k < K -> M k k = true -> mid k (S k) M q.
Proof.
  intros HI Hk P. assert (HT : T <= k).
  { destruct (Nat.le_gt_cases T k) as [H|H]; [exact H|]. destruct (i_skip _ _ _ _ HI k ltac:(lia)) as (s & Hs & B & _). rewrite (B k) in P by lia. discriminate. }
  destruct HI. constructor; try assumption.
  - lia.
  - intros i Hi. apply i_new0. lia.
  - intros i Hi. destruct (Nat.eq_dec i k) as [->|]; [rewrite i_new0; lia|]. specialize (i_old0 i). lia.
  - intros i Hi. lia.
Qed.
Lemma mid_swaprow k T M q h : mid k T (fun r i => M r i) q -> k < h < K -> M h k = true -> mid k T (swaprow M h k) q.
Proof.
  intros H Hh P. destruct H. constructor; try assumption.
  - apply (requiv_trans _ _ _ M); [assumption|]. apply requiv_swaprow; lia.
  - apply (requiv_rank N K M); [|assumption]. apply requiv_swaprow; lia.
  - intros c Hc. destruct (m_ech0 c Hc) as (D & Z). unfold swaprow. split; [replace (c =? h) with false by lia; replace (c =? k) with false by lia; exact D|].
    intros j Hj. destruct (j =? h); [apply Z; lia|]. destruct (j =? k); apply Z; lia.
  - unfold swaprow. replace (k =? h) with false by lia. rewrite Nat.eqb_refl. exact P.
  - intros i Hi. destruct (m_skip0 i Hi) as (s & Hs & B & Q). exists s. split; [exact Hs|]. split; [|exact Q].
    intros r Hr. unfold swaprow. destruct (r =? h); [apply B; lia|]. destruct (r =? k); apply B; lia.
Qed.

(** the column search; [mid] with the pivot possibly still in row h *)
Lemma column_swap k T M q j h : inv k T M q -> k < K -> k < j < N -> k <= h < K -> (forall c, k <= c < j -> below k M c) -> M h j = true ->
  let M1 := swapcol M k j in let q1 := fun i => q (tr k j i) in
  mid k (S j) (if h =? k then M1 else swaprow M1 h k) q1.
Proof.
  intros HI Hk Hj Hh HB P M1 q1. assert (HT : T <= j).
  { destruct (Nat.le_gt_cases T j) as [H|H]; [exact H|]. destruct (i_skip _ _ _ _ HI j ltac:(lia)) as (s & Hs & B & _). rewrite (B h) in P by lia. discriminate. }
  assert (EM1 : forall r c, M1 r c = M r (tr k j c)) by (intros; apply swapcol_tr).
  assert (RE1 : requiv N K (fun r i => M0 r (q1 i)) M1).
  { pose proof (i_eq _ _ _ _ HI) as (A & B). split; intros m.
    - destruct (A m) as (m' & E & Z). exists m'. split; [|exact Z]. intros i Hi. specialize (E (tr k j i) ltac:(apply tr_lt; lia)).
      unfold product in *. rewrite (parity_ext K _ (fun r => m r && M r (tr k j i))) by (intros r _; rewrite EM1; reflexivity). exact E.
    - destruct (B m) as (m' & E). exists m'. intros i Hi. specialize (E (tr k j i) ltac:(apply tr_lt; lia)).
      unfold product in *. rewrite (parity_ext K (fun r => m' r && M1 r i) (fun r => m' r && M r (tr k j i))) by (intros r _; rewrite EM1; reflexivity). exact E. }
  assert (FR1 : full_rank N K M1).
  { intros m Hm. apply (i_rank _ _ _ _ HI). intros i Hi. specialize (Hm (tr k j i) ltac:(apply tr_lt; lia)). unfold product in *.
    rewrite (parity_ext K _ (fun r => m r && M r i)) in Hm by (intros r _; rewrite EM1, tr_invol; reflexivity). exact Hm. }
  assert (EC1 : ech k M1).
  { intros c Hc. destruct (i_ech _ _ _ _ HI c Hc) as (D & Z). rewrite EM1, tr_other by lia. split; [exact D|]. intros r Hr. rewrite EM1, tr_other by lia. apply Z. exact Hr. }
  assert (L1 : forall i, i < N -> q1 i < N) by (intros i Hi; apply (i_lt _ _ _ _ HI), tr_lt; lia).
  assert (J1 : forall i i', i < N -> i' < N -> q1 i = q1 i' -> i = i').
  { intros i i' Hi Hi' E. apply (i_inj _ _ _ _ HI) in E; [|apply tr_lt; lia|apply tr_lt; lia]. rewrite <- (tr_invol k j i), <- (tr_invol k j i'), E. reflexivity. }
  assert (N1 : forall i, S j <= i < N -> q1 i = i) by (intros i Hi; unfold q1; rewrite tr_other by lia; apply (i_new _ _ _ _ HI); lia).
  assert (O1 : forall i, i <= k -> q1 i < S j).
  { intros i Hi. unfold q1. destruct (Nat.eq_dec i k) as [->|]; [rewrite tr_l, (i_new _ _ _ _ HI) by lia; lia|]. rewrite tr_other by lia. pose proof (i_old _ _ _ _ HI i ltac:(lia)). lia. }
  assert (SK : forall c, k <= c < j -> skipped k M q c).
  { intros c Hc. destruct (Nat.le_gt_cases T c) as [H|H]; [|apply (i_skip _ _ _ _ HI); lia].
    exists k. split; [lia|]. split; [apply HB; exact Hc|]. intros b Hb. rewrite (i_new _ _ _ _ HI c) by lia. pose proof (i_old _ _ _ _ HI b Hb). lia. }
  assert (S1 : forall i, k < i < S j -> skipped k M1 q1 i).
  { intros i Hi. assert (HS : skipped k M q (tr k j i)).
    { destruct (Nat.eq_dec i j) as [->|]; [rewrite tr_r; apply SK; lia|]. rewrite tr_other by lia. apply SK. lia. }
    destruct HS as (s & Hs & B & Q). exists s. split; [exact Hs|]. split.
    - intros r Hr. rewrite EM1. apply B. exact Hr.
    - intros b Hb. unfold q1 at 1. rewrite (tr_other k j b) by lia. apply Q. exact Hb. }
  destruct (Nat.eqb_spec h k) as [->|Hne].
  - constructor; try assumption; [rewrite EM1, tr_l; exact P|lia].
  - assert (P' : M1 h k = true) by (rewrite EM1, tr_l; exact P). constructor; try assumption.
    + apply (requiv_trans _ _ _ M1); [assumption|]. apply requiv_swaprow; lia.
    + apply (requiv_rank N K M1); [|assumption]. apply requiv_swaprow; lia.
    + intros c Hc. destruct (EC1 c Hc) as (D & Z). unfold swaprow. split; [replace (c =? h) with false by lia; replace (c =? k) with false by lia; exact D|].
      intros r Hr. destruct (r =? h); [apply Z; lia|]. destruct (r =? k); apply Z; lia.
    + unfold swaprow. replace (k =? h) with false by lia. rewrite Nat.eqb_refl. exact P'.
    + lia.
    + intros i Hi. destruct (S1 i Hi) as (s & Hs & B & Q). exists s. split; [exact Hs|]. split; [|exact Q].
      intros r Hr. unfold swaprow. destruct (r =? h); [apply B; lia|]. destruct (r =? k); apply B; lia.
Qed.

Lemma prep_swap perm q k j : prep perm q -> k < N -> j < N -> exists perm', osd_swap perm k j = Ok perm' /\ prep perm' (fun i => q (tr k j i)).
Proof.
  intros (L & HP) Hk Hj. rewrite (swap_ok perm k j 0) by lia. eexists. split; [reflexivity|]. split; [rewrite !length_upd; exact L|].
  intros i Hi. rewrite !nth_upd, length_upd. unfold tr. replace (j <? length perm) with true by lia. replace (k <? length perm) with true by lia. rewrite !andb_true_r.
  rewrite (Nat.eqb_sym i k), (Nat.eqb_sym i j). destruct (Nat.eqb_spec j i) as [->|]; [destruct (Nat.eqb_spec k i) as [->|]; apply HP; assumption|].
  destruct (Nat.eqb_spec k i) as [->|]; apply HP; assumption.
Qed.

Definition midstate (k : nat) (s : list Z * list nat) : Prop := exists M q T, rep (fst s) M /\ prep (snd s) q /\ mid k T M q.

Lemma column_ok k T G M perm q : rep G M -> prep perm q -> inv k T M q -> k < K -> (M k k = true \/ below k M k) ->
  exists s, osd_column W N K k (G, perm) = Ok s /\ midstate k s.
Proof.
  intros HG HP HI Hk HC. unfold osd_column.
  assert (NOT : (forall c, k <= c < N -> below k M c) -> False).
  { intros HB. destruct (full_rank_row M k (i_rank _ _ _ _ HI) Hk) as (i & Hi & E). destruct (Nat.le_gt_cases k i) as [H|H].
    - rewrite (HB i ltac:(lia) k) in E by lia. discriminate.
    - rewrite (ech_left k M k i (i_ech _ _ _ _ HI)) in E by lia. discriminate. }
  edestruct (for_ret_inv (fun j (s : list Z * list nat) => (s = (G, perm) /\ forall c, k <= c < j -> below k M c) \/ midstate k s) (midstate k)) as (x & E & HX).
  4: { rewrite E. cbn [bind]. exists (broken x). split; [reflexivity|]. destruct x as [s|s]; cbn [broken]; [|exact HX].
       destruct HX as [(_ & HB)|HX]; [|exact HX]. destruct (NOT HB). }
  - lia.
  - intros j (g & pm) Hj HI1. cbv beta iota.
    destruct HI1 as [(EQ & HB)|HM].
    + injection EQ as -> ->. rewrite (rep_rd W N K HW G M k k HG) by lia. cbn [bind]. rewrite tob_b2z.
      rewrite (HB k ltac:(lia) k) by lia.
      edestruct (for_ret_inv (fun h (s : list Z * list nat) => s = (G, perm) /\ forall r, k <= r < h -> M r j = false) (midstate k)) as (y & Ey & HY).
      4: { rewrite Ey. cbn [bind]. eexists. split; [reflexivity|]. cbv beta iota. destruct y as [s|s]; cbn [broken]; [|right; exact HY].
           destruct HY as (-> & HZ). left. split; [reflexivity|]. intros c Hc. destruct (Nat.eq_dec c j) as [->|]; [exact HZ|apply HB; lia]. }
      * lia.
      * intros h (g & pm) Hh (EQ & HZ). injection EQ as -> ->. cbv beta iota. rewrite (rep_rd W N K HW G M h j HG) by lia. cbn [bind]. rewrite tob_b2z. destruct (M h j) eqn:P.
        -- destruct (prep_swap perm q k j HP ltac:(lia) ltac:(lia)) as (pm1 & E1 & HP1). rewrite E1. cbn [bind].
           destruct (swapcol_ok W N K HW G M j k HG ltac:(lia) ltac:(lia) ltac:(lia)) as (g1 & E2 & HG1). rewrite E2. cbn [bind].
           pose proof (column_swap k T M q j h HI Hk ltac:(lia) Hh HB P) as HM. cbv zeta in HM.
           destruct (Nat.eqb_spec h k) as [->|Hne]; cbn [negb].
           ++ cbn [bind]. eexists. split; [reflexivity|]. cbv beta iota. exists (swapcol M k j), (fun i => q (tr k j i)), (S j). auto.
           ++ destruct (swaprow_ok W N K HW g1 (swapcol M k j) h k HG1 Hk ltac:(lia) Hne ltac:(lia)) as (g2 & E3 & HG2).
              { intros i Hi. rewrite !swapcol_tr, tr_other by lia. split; apply (ech_left k); try (apply (i_ech _ _ _ _ HI)); lia. }
              rewrite E3. cbn [bind]. eexists. split; [reflexivity|]. cbv beta iota. exists (swaprow (swapcol M k j) h k), (fun i => q (tr k j i)), (S j). auto.
        -- eexists. split; [reflexivity|]. cbv beta iota. split; [reflexivity|]. intros r Hr. destruct (Nat.eq_dec r h) as [->|]; [exact P|apply HZ; lia].
      * split; [reflexivity|]. intros r Hr. lia.
    + pose proof HM as (M1 & q1 & T1 & HG1 & HP1 & HM1). cbn [fst snd] in *. rewrite (rep_rd W N K HW g M1 k k HG1) by lia. cbn [bind]. rewrite tob_b2z, (m_piv _ _ _ _ HM1).
      eexists. split; [reflexivity|]. cbv beta iota. exact HM.
  - destruct HC as [P|B].
    + right. exists M, q, (S k). split; [exact HG|]. split; [exact HP|]. apply (mid_direct k T); assumption.
    + left. split; [reflexivity|]. intros c Hc. replace c with k by lia. exact B.
Qed.

(** clearing the column below the pivot *)
Lemma clear_ok k G M : rep G M -> k < K -> ech k M -> M k k = true ->
  exists G' M', for_up (k + 1) K (fun j G => x <- rd G (W * j + k) ;; if tob x then osd_addrow W N k j G else Ok G) G = Ok G' /\ rep G' M' /\
    requiv N K M M' /\ (forall r i, r <= k -> M' r i = M r i) /\ (forall i s, s <= k -> below s M i -> below s M' i) /\ (forall j, k < j < K -> M' j k = false).
Proof.
  intros HG Hk HE P.
  edestruct (for_up_inv (fun j G => exists M', rep G M' /\ requiv N K M M' /\ (forall r i, r <= k -> M' r i = M r i) /\ (forall i s, s <= k -> below s M i -> below s M' i) /\ (forall r, k < r < j -> M' r k = false))) as (G' & E & M' & HI).
  4: { exists G', M'. split; [exact E|]. exact HI. }
  - lia.
  - intros j g Hj (M1 & HG1 & RE & HR & HB & HZ). cbv beta. rewrite (rep_rd W N K HW g M1 j k HG1) by lia. cbn [bind]. rewrite tob_b2z. destruct (M1 j k) eqn:B.
    + destruct (addrow_ok W N K HW g M1 k j HG1) as (g' & E & HG'); try lia.
      { intros i Hi. rewrite HR by lia. apply (ech_left k); auto; lia. }
      exists g'. split; [exact E|]. exists (addrow M1 k j). split; [exact HG'|]. split; [apply (requiv_trans _ _ _ M1); [exact RE|apply requiv_addrow; lia]|].
      split; [intros r i Hr; unfold addrow; replace (r =? j) with false by lia; apply HR; exact Hr|]. split.
      * intros i s Hs BS r Hr. unfold addrow. pose proof (HB i s Hs BS) as BS1. destruct (Nat.eqb_spec r j) as [->|]; [|apply BS1; exact Hr]. rewrite !(BS1 _) by lia. reflexivity.
      * intros r Hr. unfold addrow. destruct (Nat.eqb_spec r j) as [->|]; [rewrite B, HR, P by lia; reflexivity|]. apply HZ. lia.
    + exists g. split; [reflexivity|]. exists M1. repeat (split; [assumption|]). intros r Hr. destruct (Nat.eq_dec r j) as [->|]; [exact B|apply HZ; lia].
  - exists M. split; [exact HG|]. split; [apply requiv_refl; reflexivity|]. repeat (split; [auto|]). intros r Hr. lia.
Qed.

Lemma row_echelon_ok G perm : rep G M0 -> prep perm (fun i => i) -> full_rank N K M0 ->
  exists G' perm' M' q T, osd_row_echelon W N K (G, perm) = Ok (G', perm') /\ rep G' M' /\ prep perm' q /\ inv K T M' q.
Proof.
  intros HG HP FR. unfold osd_row_echelon.
  edestruct (for_up_inv (fun k (s : list Z * list nat) => exists M q T, rep (fst s) M /\ prep (snd s) q /\ inv k T M q)) as (s & E & HI).
  4: { destruct s as (G' & perm'). destruct HI as (M' & q & T & H1 & H2 & H3). exists G', perm', M', q, T. split; [exact E|]. cbn [fst snd] in *. auto. }
  - lia.
  - intros k (g & pm) Hk (M & q & T & HG1 & HP1 & HI). cbn [fst snd] in *. cbv beta iota.
    destruct (pivot_ok k T g M q HG1 HI ltac:(lia)) as (g1 & M1 & E1 & HG2 & HI2 & HC). rewrite E1. cbn [bind].
    destruct (column_ok k T g1 M1 pm q HG2 HP1 HI2 ltac:(lia) HC) as ((g2 & pm2) & E2 & M2 & q2 & T2 & HG3 & HP3 & HM). rewrite E2. cbn [bind fst snd] in *.
    rewrite (rep_rd W N K HW g2 M2 k k HG3) by lia. cbn [bind]. rewrite tob_b2z, (m_piv _ _ _ _ HM). cbn [assert_ bind].
    destruct (clear_ok k g2 M2 HG3 ltac:(lia) (m_ech _ _ _ _ HM) (m_piv _ _ _ _ HM)) as (g3 & M3 & E3 & HG4 & RE & HR & HB & HZ). rewrite E3. cbn [bind].
    eexists. split; [reflexivity|]. exists M3, q2, T2. cbn [fst snd]. split; [exact HG4|]. split; [exact HP3|]. destruct HM. constructor; try assumption.
    + apply (requiv_trans _ _ _ M2); assumption.
    + apply (requiv_rank N K M2); assumption.
    + intros c Hc. rewrite HR by lia. destruct (Nat.eq_dec c k) as [->|]; [split; [exact m_piv0|exact HZ]|]. destruct (m_ech0 c ltac:(lia)) as (D & Z). split; [exact D|].
      intros j Hj. apply (HB c (S c)); [lia| |lia]. intros h Hh. apply Z. lia.
    + intros i Hi. apply m_old0. lia.
    + intros i Hi. destruct (m_skip0 i ltac:(lia)) as (s & Hs & B & Q). exists s. split; [lia|]. split; [apply HB; [lia|exact B]|exact Q].
  - exists M0, (fun i => i), 0. cbn [fst snd]. split; [exact HG|]. split; [exact HP|]. constructor; auto; try lia.
    + apply requiv_refl. reflexivity.
    + intros c Hc. lia.
Qed.

(** systematic: upper triangle cleared *)
Lemma systematic_ok G M : rep G M -> ech K M ->
  exists G' M', osd_systematic W N K G = Ok G' /\ rep G' M' /\ requiv N K M M' /\ (forall i s, below s M i -> below s M' i) /\ (forall j i, j < K -> i < K -> M' j i = (j =? i)).
Proof.
  intros HG HE. unfold osd_systematic. destruct (Nat.eq_dec K 0) as [K0|K0].
  { exists G, M. rewrite K0. split; [reflexivity|]. rewrite K0 in HG. split; [exact HG|]. split; [apply requiv_refl; reflexivity|]. split; [auto|]. lia. }
  edestruct (for_down_inv (fun k G => exists M', rep G M' /\ requiv N K M M' /\ ech K M' /\ (forall i s, below s M i -> below s M' i) /\ (forall j i, j < K -> k <= i < K -> j <> i -> M' j i = false))) as (G' & E & M' & HI).
  4: { exists G', M'. split; [exact E|]. destruct HI as (H1 & H2 & H3 & H4 & H5). split; [exact H1|]. split; [exact H2|]. split; [exact H4|].
       intros j i Hj Hi. destruct (Nat.eqb_spec j i) as [->|Hne]; [apply (H3 i Hi)|]. destruct (Nat.eq_dec i 0) as [->|]; [apply (ech_left K); auto; lia|]. apply H5; auto; lia. }
  - lia.
  - intros k g Hk (M1 & HG1 & RE1 & HE1 & HB1 & HZ1). cbv beta.
    edestruct (for_up_inv (fun j G => exists M', rep G M' /\ requiv N K M M' /\ ech K M' /\ (forall i s, below s M i -> below s M' i) /\ (forall r i, r < K -> k < i < K -> r <> i -> M' r i = false) /\ (forall r, r < j -> M' r k = false))) as (g' & E & M' & HI).
    4: { exists g'. split; [exact E|]. destruct HI as (H1 & H2 & H3 & H4 & H5 & H6). exists M'. repeat (split; [assumption|]).
         intros r i Hr Hi Hne. destruct (Nat.eq_dec i k) as [->|]; [|apply H5; auto; lia]. destruct (Nat.lt_ge_cases r k) as [H|H]; [apply H6; exact H|]. apply (ech_left K); auto; lia. }
    + lia.
    + intros j g2 Hj (M2 & HG2 & RE2 & HE2 & HB2 & HZ2 & HC2). cbv beta. rewrite (rep_rd W N K HW g2 M2 j k HG2) by lia. cbn [bind]. rewrite tob_b2z. destruct (M2 j k) eqn:B.
      * destruct (addrow_ok W N K HW g2 M2 k j HG2) as (g3 & E & HG3); try lia.
        { intros i Hi. apply (ech_left K); auto; lia. }
        exists g3. split; [exact E|]. exists (addrow M2 k j). split; [exact HG3|]. split; [apply (requiv_trans _ _ _ M2); [exact RE2|apply requiv_addrow; lia]|]. split; [|split; [|split]].
        -- intros c Hc. unfold addrow. destruct (HE2 c Hc) as (D & Z). split.
           ++ destruct (Nat.eqb_spec c j) as [->|]; [|exact D]. rewrite D. rewrite (ech_left K M2 k j) by (auto; lia). reflexivity.
           ++ intros r Hr. destruct (Nat.eqb_spec r j) as [->|]; [|apply Z; exact Hr]. rewrite !(ech_left K M2) by (auto; lia). reflexivity.
        -- intros i s BS r Hr. unfold addrow. pose proof (HB2 i s BS) as BS1. destruct (Nat.eqb_spec r j) as [->|]; [|apply BS1; exact Hr]. rewrite !(BS1 _) by lia. reflexivity.
        -- intros r i Hr Hi Hne. unfold addrow. destruct (Nat.eqb_spec r j) as [->|]; [|apply HZ2; auto]. rewrite !HZ2 by lia. reflexivity.
        -- intros r Hr. unfold addrow. destruct (Nat.eqb_spec r j) as [->|]; [|apply HC2; lia]. rewrite B. destruct (HE2 k ltac:(lia)) as (D & _). rewrite D. reflexivity.
      * exists g2. split; [reflexivity|]. exists M2. repeat (split; [assumption|]). intros r Hr. destruct (Nat.eq_dec r j) as [->|]; [exact B|apply HC2; lia].
    + exists M1. repeat (split; [assumption|]). intros r Hr. lia.
  - exists M. split; [exact HG|]. split; [apply requiv_refl; reflexivity|]. split; [exact HE|]. split; [auto|]. intros j i Hj Hi. lia.
Qed.
End E.
