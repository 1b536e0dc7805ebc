(** LDPC decoder: how the write disable masks change. *)
From Coq Require Import ZifyBool ZifyN ZifyNat Permutation.
From Verif Require Import Cpp Model_simd Model_ldpc Spec_ldpc Lib_list Proof_bits Proof_simd Proof_ldpc1 Proof_ldpc2 Proof_ldpc3 Proof_ldpc4 Proof_ldpc5 Proof_ldpc6 Proof_ldpc7 Proof_ldpc8 Proof_ldpc9 Proof_ldpc10.
Open Scope nat_scope.
Ltac Zify.zify_post_hook ::= idtac.

Lemma ones_bit n k : N.testbit (N.shiftl 1 n - 1) k = (k <? n)%N.
Proof.
  rewrite N.shiftl_1_l. replace (2 ^ n - 1)%N with (N.ones n) by (rewrite N.ones_equiv; lia).
  destruct (N.ltb_spec k n); [apply N.ones_spec_low|apply N.ones_spec_high]; assumption.
Qed.
(** the rotation of bits [first .. last] *)
Lemma ror_bits first last cur x : first <= last -> last < 30 -> ldpc_ror first last cur = Ok x ->
  forall k, N.testbit x (N.of_nat k) =
    if (first <=? k) && (k <=? last) then N.testbit cur (N.of_nat (if k =? last then first else S k))
    else N.testbit cur (N.of_nat k).
Proof.
  intros H1 H2 E k. unfold ldpc_ror in E. destruct (_ <? 31); [|discriminate]. cbn [require bind] in E.
  destruct (_ <? 2 ^ 31)%N; [|discriminate]. cbn [require bind] in E. cbv zeta in E.
  match type of E with Ok ?t = _ => assert (x = t) as -> by congruence end. clear E.
  set (mask := N.shiftl (N.shiftl 1 (N.of_nat (last - first + 1)) - 1) (N.of_nat first)).
  assert (forall p, N.testbit mask p = (N.of_nat first <=? p)%N && (p <=? N.of_nat last)%N) as Hm.
  { intros p. unfold mask. destruct (N.leb_spec (N.of_nat first) p).
    - rewrite N.shiftl_spec_high' by assumption. rewrite ones_bit. lia.
    - rewrite N.shiftl_spec_low by assumption. reflexivity. }
  rewrite N.lor_spec, N.ldiff_spec, N.land_spec, N.lor_spec, Hm.
  replace ((N.of_nat first <=? N.of_nat k)%N && (N.of_nat k <=? N.of_nat last)%N) with ((first <=? k) && (k <=? last)) by lia.
  destruct ((first <=? k) && (k <=? last)) eqn:Ein; [|rewrite andb_true_r, andb_false_r, orb_false_r; reflexivity].
  rewrite andb_false_r, andb_true_r, orb_false_l.
  rewrite N.shiftr_spec', N.land_spec, Hm. unfold wrap.
  rewrite N.mod_pow2_bits_low by lia.
  destruct (Nat.eqb_spec k last) as [->|Hne].
  - replace ((N.of_nat first <=? N.of_nat last + 1)%N && (N.of_nat last + 1 <=? N.of_nat last)%N) with false by lia.
    rewrite andb_false_r, orb_false_l. rewrite N.shiftl_spec_high' by lia.
    replace (N.of_nat last - N.of_nat (last - first + 1 - 1))%N with (N.of_nat first) by lia.
    rewrite N.land_spec, Hm. replace ((N.of_nat first <=? N.of_nat first)%N && (N.of_nat first <=? N.of_nat last)%N) with true by lia.
    apply andb_true_r.
  - replace ((N.of_nat first <=? N.of_nat k + 1)%N && (N.of_nat k + 1 <=? N.of_nat last)%N) with true by lia.
    rewrite andb_true_r. replace (N.of_nat k + 1)%N with (N.of_nat (S k)) by lia.
    destruct (N.le_gt_cases (N.of_nat (last - first + 1 - 1)) (N.of_nat k)).
    + rewrite N.shiftl_spec_high' by assumption. rewrite N.land_spec, Hm.
      replace ((N.of_nat first <=? N.of_nat k - N.of_nat (last - first + 1 - 1))%N && (N.of_nat k - N.of_nat (last - first + 1 - 1) <=? N.of_nat last)%N) with false by lia.
      rewrite andb_false_r, orb_false_r. reflexivity.
    + rewrite N.shiftl_spec_low by assumption. apply orb_false_r.
Qed.

(** two groups that meet are the same *)
Lemma group_same ws a b a' b' k : group ws a b -> group ws a' b' -> a <= k <= b -> a' <= k <= b' -> a = a' /\ b = b'.
Proof.
  intros (B & J & L & R) (B' & J' & L' & R') Hk Hk'. split.
  - destruct (Nat.lt_trichotomy a a') as [Hl|[->|Hl]]; [|reflexivity|].
    + destruct L' as [->|L']; [lia|]. exfalso. apply L', J. lia.
    + destruct L as [->|L]; [lia|]. exfalso. apply L, J'. lia.
  - destruct (Nat.lt_trichotomy b b') as [Hl|[->|Hl]]; [|reflexivity|].
    + destruct R as [R|R]; [lia|]. exfalso. apply R, J'. lia.
    + destruct R' as [R'|R']; [lia|]. exfalso. apply R', J. lia.
Qed.
(** every link is in a group *)
Lemma take_turns_dec ws k : {take_turns ws k} + {~ take_turns ws k}.
Proof.
  unfold take_turns. destruct (Nat.eq_dec (S (S k)) (length ws)) as [|H1]; [left; auto|].
  destruct (Nat.eq_dec (nth k ws 0) (nth (S k) ws 0)) as [|H2]; [left; auto|]. right. intros [|]; auto.
Qed.
Lemma group_exists ws k : k < length ws -> exists a b, group ws a b /\ a <= k <= b.
Proof.
  intros Hk.
  assert (exists a, a <= k /\ (forall x, a <= x < k -> take_turns ws x) /\ (a = 0 \/ ~ take_turns ws (a - 1))) as (a & A1 & A2 & A3).
  { clear Hk. induction k as [|k IH]; [exists 0; split; [lia|]; split; [intros; lia|auto]|].
    destruct (take_turns_dec ws k) as [Ht|Hn].
    - destruct IH as (a & A1 & A2 & A3). exists a. split; [lia|]. split; [|exact A3]. intros x Hx.
      destruct (Nat.eq_dec x k) as [->|]; [exact Ht|apply A2; lia].
    - exists (S k). split; [lia|]. split; [intros; lia|]. right. replace (S k - 1) with k by lia. exact Hn. }
  assert (exists b, k <= b < length ws /\ (forall x, k <= x < b -> take_turns ws x) /\ (S b = length ws \/ ~ take_turns ws b)) as (b & B1 & B2 & B3).
  { clear A1 A2 A3. remember (length ws - S k) as n eqn:En. revert k Hk En. induction n as [|n IH]; intros k Hk En.
    - exists k. split; [lia|]. split; [intros; lia|left; lia].
    - destruct (take_turns_dec ws k) as [Ht|Hn]; [|exists k; split; [lia|]; split; [intros; lia|right; exact Hn]].
      destruct (IH (S k) ltac:(lia) ltac:(lia)) as (b & B1 & B2 & B3). exists b. split; [lia|]. split; [|exact B3].
      intros x Hx. destruct (Nat.eq_dec x k) as [->|]; [exact Ht|apply B2; lia]. }
  exists a, b. split; [|lia]. split; [lia|]. split; [|auto]. intros x Hx. destruct (Nat.lt_ge_cases x k); [apply A2|apply B2]; lia.
Qed.
Lemma turned_zero ws m : turned ws 0 m -> (forall k, k < length ws -> exists a b, group ws a b /\ a <= k <= b) -> m = 0%N.
Proof.
  intros (H1 & H2) Hc. apply N.bits_inj. intros x. rewrite N.bits_0. rewrite <- (N2Nat.id x).
  destruct (Nat.lt_ge_cases (N.to_nat x) (length ws)) as [Hl|Hl].
  - destruct (Hc _ Hl) as (a & b & G & Hk). destruct (H1 a b G) as (G1 & G2).
    destruct (Nat.eq_dec (N.to_nat x) b) as [->|]; [rewrite G2|rewrite G1 by lia]; apply N.bits_0.
  - rewrite H2 by exact Hl. apply N.bits_0.
Qed.

Section Masks.
Variable T : table.
Variable D : nat.
Hypothesis DOK : decoder_ok T D.
Notation OK := (ok_table T D DOK).
Notation M := (t_M T).
Notation q := (t_q T).
Notation rows := (rows_of T).
Notation cl i := (cls M q i 0 rows).
Notation W := (d_W T D).
Variable C : ldpc_const.
Hypothesis HS : segs T D (fun _ _ => True) (lc_loc C).

(** the words of layer [(i, j)] *)
Definition words_at (i j : nat) : list nat := map (fun k => fst (nth (base T D i j + k) (lc_loc C) (0, 0))) (seq 0 (length (cl i))).
Lemma words_len i j : length (words_at i j) = length (cl i).
Proof. unfold words_at. rewrite map_length, seq_length. reflexivity. Qed.
Lemma words_nth i j k : k < length (cl i) -> nth k (words_at i j) 0 = fst (nth (base T D i j + k) (lc_loc C) (0, 0)).
Proof.
  intros H. unfold words_at.
  rewrite (nth_indep _ 0 ((fun k => fst (nth (base T D i j + k) (lc_loc C) (0, 0))) 0)) by (rewrite map_length, seq_length; exact H).
  rewrite (map_nth (fun k => fst (nth (base T D i j + k) (lc_loc C) (0, 0)))). rewrite seq_nth by exact H. reflexivity.
Qed.

Lemma rotate_wd_bits wd i j wd' : length wd = d_PTY T D -> i < q -> j < W ->
  ldpc_rotate_wd T D C (length (cl i)) (base T D i j) i j wd = Ok wd' ->
  length wd' = d_PTY T D /\ turned (words_at i j) (nth (W * i + j) wd 0%N) (nth (W * i + j) wd' 0%N) /\
  forall y, y <> W * i + j -> nth y wd' 0%N = nth y wd 0%N.
Proof.
  intros L Hi Hj E0. pose proof (cnt_le T D DOK i Hi) as Hcnt. pose proof (PTY_eq T D DOK) as EP.
  assert (W * i + j < d_PTY T D) as Hc by (rewrite EP; nia). unfold ldpc_rotate_wd in E0.
  rewrite (rd_nth _ _ 0%N) in E0 by lia. cbn [bind] in E0.
  destruct (N.eqb_spec (nth (W * i + j) wd 0%N) 0) as [Hz|Hnz].
  { injection E0 as <-. split; [exact L|]. split; [|auto]. rewrite Hz. split; [intros; split; intros; rewrite !N.bits_0; reflexivity|reflexivity]. }
  set (ws := words_at i j). assert (length ws = length (cl i)) as Lws by apply words_len.
  destruct (Nat.le_gt_cases (length (cl i)) 1) as [Hs|Hs].
  { unfold for_up in E0. replace (length (cl i) - 1) with 0 in E0 by lia. cbn [loop bind] in E0. injection E0 as <-. split; [exact L|].
    split; [|auto]. split; [|auto]. intros a b (G & _). rewrite Lws in G. assert (a = 0 /\ b = 0) as (-> & ->) by lia.
    split; [intros; lia|reflexivity]. }
  set (w := nth (W * i + j) wd 0%N) in *.
  assert (forall k, k < length (cl i) -> fst (nth (base T D i j + k) (lc_loc C) (0, 0)) = nth k ws 0) as Hw
    by (intros k Hk; symmetry; apply words_nth; exact Hk).
  clearbody ws.
  edestruct (for_up_inv (fun c (s : nat * list N) => let '(first, wd1) := s in
     length wd1 = d_PTY T D /\ (forall y, y <> W * i + j -> nth y wd1 0%N = nth y wd 0%N) /\
     (forall k, length ws <= k -> N.testbit (nth (W * i + j) wd1 0%N) (N.of_nat k) = N.testbit w (N.of_nat k)) /\
     first < c /\
     (forall a b, group ws a b -> b < (if c =? length ws then c else first) ->
        (forall k, a <= k < b -> N.testbit (nth (W * i + j) wd1 0%N) (N.of_nat k) = N.testbit w (N.of_nat (S k))) /\
        N.testbit (nth (W * i + j) wd1 0%N) (N.of_nat b) = N.testbit w (N.of_nat a)) /\
     (c < length ws -> (forall k, first <= k -> N.testbit (nth (W * i + j) wd1 0%N) (N.of_nat k) = N.testbit w (N.of_nat k)) /\
        (first = 0 \/ ~ take_turns ws (first - 1)) /\ (forall k, first <= k < c -> nth k ws 0 = nth first ws 0))))
    as ([first wd2] & E & L2 & Hy & Hhi & _ & Hg & _).
  4: { rewrite E in E0. cbn [bind] in E0. injection E0 as <-. split; [exact L2|]. split; [|exact Hy]. split; [|exact Hhi].
       intros a b G. apply Hg; [exact G|]. rewrite <- Lws, Nat.eqb_refl. apply G. }
  - lia.
  - cbv beta. intros c [first wd1] Hcc (L1 & Hy & Hhi & Hf & Hg & Hrun).
    destruct (loc_bound T D DOK _ i j first HS Hi Hj ltac:(lia)) as (B0 & _).
    destruct (loc_bound T D DOK _ i j c HS Hi Hj ltac:(lia)) as (B1 & _).
    rewrite !(rd_nth _ _ (0, 0)) by assumption. cbn [bind]. rewrite !Hw by lia.
    destruct (Hrun ltac:(lia)) as (Hr1 & Hr2 & Hr3). replace (c =? length ws) with false in Hg by lia.
    destruct (negb (nth first ws 0 =? nth c ws 0) || (c =? length (cl i) - 1)) eqn:Ec.
    + set (last := if c =? length (cl i) - 1 then c else c - 1).
      assert (first <= last /\ last < 30) as (Hl1 & Hl2) by (unfold last; destruct (Nat.eqb_spec c (length (cl i) - 1)); lia).
      assert (group ws first last) as G.
      { split; [rewrite Lws; unfold last; destruct (Nat.eqb_spec c (length (cl i) - 1)); lia|]. split; [|split; [exact Hr2|]].
        - intros k Hk. destruct (Nat.eq_dec (S (S k)) (length ws)) as [Eq|Hne]; [left; exact Eq|]. right.
          assert (S k < c) by (revert Hk; unfold last; destruct (Nat.eqb_spec c (length (cl i) - 1)); lia).
          rewrite (Hr3 k), (Hr3 (S k)) by lia. reflexivity.
        - unfold last. destruct (Nat.eqb_spec c (length (cl i) - 1)) as [->|Hne]; [left; lia|]. right. intros [Eq|Eq]; [lia|].
          rewrite orb_false_r in Ec. replace (S (c - 1)) with c in Eq by lia. rewrite Hr3 in Eq by lia. lia. }
      assert (exists wd2, (if negb (last =? first) then cur <- rd wd1 (W * i + j);; x <- ldpc_ror first last cur;; wr wd1 (W * i + j) x else Ok wd1) = Ok wd2 /\
        length wd2 = d_PTY T D /\ (forall y, y <> W * i + j -> nth y wd2 0%N = nth y wd 0%N) /\
        forall k, N.testbit (nth (W * i + j) wd2 0%N) (N.of_nat k) =
          if (first <=? k) && (k <=? last) then N.testbit w (N.of_nat (if k =? last then first else S k))
          else N.testbit (nth (W * i + j) wd1 0%N) (N.of_nat k)) as (wd2 & -> & L2 & Hy2 & Hb2).
      { destruct (Nat.eqb_spec last first) as [Eq|Hne]; cbn [negb].
        - exists wd1. split; [reflexivity|]. split; [exact L1|]. split; [exact Hy|]. intros k.
          destruct ((first <=? k) && (k <=? last)) eqn:Ek; [|reflexivity]. assert (k = first) as -> by lia.
          rewrite Eq, Nat.eqb_refl. apply Hr1. lia.
        - rewrite (rd_nth _ _ 0%N) by lia. cbn [bind]. destruct (ror_ok first last (nth (W * i + j) wd1 0%N) Hl1 Hl2) as (x & Ex).
          rewrite Ex. cbn [bind]. rewrite wr_Ok by lia. eexists. split; [reflexivity|]. rewrite length_upd. split; [lia|]. split.
          + intros y Hne'. rewrite nth_upd_neq by lia. apply Hy. exact Hne'.
          + intros k. rewrite nth_upd_eq by lia. rewrite (ror_bits _ _ _ _ Hl1 Hl2 Ex).
            destruct ((first <=? k) && (k <=? last)) eqn:Ek; [|reflexivity]. apply Hr1. destruct (k =? last); lia. }
      cbn [bind]. eexists. split; [reflexivity|]. cbv beta iota. split; [exact L2|]. split; [exact Hy2|].
      assert (last < length ws) as Hll by (apply G).
      split; [intros k Hk; rewrite Hb2; replace ((first <=? k) && (k <=? last)) with false by lia; apply Hhi; exact Hk|].
      split; [lia|]. split.
      * intros a b G' Hb. assert (b < first \/ (a = first /\ b = last)) as [Hlt|(-> & ->)].
        { destruct (Nat.lt_ge_cases b first) as [|Hge]; [left; assumption|right].
          assert (b <= last). { revert Hb. unfold last. destruct (Nat.eqb_spec (S c) (length ws)), (Nat.eqb_spec c (length (cl i) - 1)); lia. }
          destruct (group_same ws a b first last b G' G ltac:(destruct G' as (? & _); lia) ltac:(lia)) as (-> & ->). auto. }
        -- destruct (Hg a b G' Hlt) as (G1 & G2). pose proof (proj1 G') as Hab. split.
           ++ intros k Hk. rewrite Hb2. replace ((first <=? k) && (k <=? last)) with false by lia. apply G1. exact Hk.
           ++ rewrite Hb2. replace ((first <=? b) && (b <=? last)) with false by lia. exact G2.
        -- split.
           ++ intros k Hk. rewrite Hb2. replace ((first <=? k) && (k <=? last)) with true by lia. replace (k =? last) with false by lia. reflexivity.
           ++ rewrite Hb2. replace ((first <=? last) && (last <=? last)) with true by lia. rewrite Nat.eqb_refl. reflexivity.
      * intros Hlt. assert (last = c - 1) as El by (unfold last; replace (c =? length (cl i) - 1) with false by lia; reflexivity).
        split; [|split].
        -- intros k Hk. rewrite Hb2. replace ((first <=? k) && (k <=? last)) with false by lia. apply Hr1. lia.
        -- right. destruct G as (_ & _ & _ & [G|G]); [lia|]. rewrite <- El. exact G.
        -- intros k Hk. assert (k = c) as -> by lia. reflexivity.
    + eexists. split; [reflexivity|]. cbv beta iota. split; [exact L1|]. split; [exact Hy|]. split; [exact Hhi|]. split; [lia|].
      replace (S c =? length ws) with false by lia. split; [exact Hg|]. intros _. split; [exact Hr1|]. split; [exact Hr2|].
      intros k Hk. destruct (Nat.eq_dec k c) as [->|]; [lia|apply Hr3; lia].
  - cbv beta iota. split; [exact L|]. split; [reflexivity|]. split; [reflexivity|]. split; [lia|].
    replace (1 =? length ws) with false by lia. split; [intros; lia|]. intros _. split; [reflexivity|]. split; [left; reflexivity|].
    intros k Hk. assert (k = 0) as -> by lia. reflexivity.
Qed.

Variable BETA : Z.
Hypothesis HB : (0 <= BETA <= 255)%Z.
Hypothesis HC : counts T (lc_cnc C).

(** [words] of the layer with mask [y] *)
Definition words_of (y : nat) : list nat := words_at (y / W) (y mod W).
Lemma words_of_at i j : j < W -> words_of (W * i + j) = words_at i j.
Proof.
  intros H. unfold words_of. rewrite Nat.mul_comm, Nat.div_add_l by lia. rewrite Nat.div_small by exact H. rewrite Nat.add_0_r.
  rewrite Nat.add_comm, Nat.mod_add by lia. rewrite Nat.mod_small by exact H. reflexivity.
Qed.
Lemma layer_wd i j bl lo s bl' lo' s' : shaped T D s -> i < q -> j < W -> lo = base T D i j ->
  ldpc_layer T D BETA C (length (cl i)) i j (bl, lo, s) = Ok (bl', lo', s') ->
  turned (words_at i j) (nth (W * i + j) (ls_wd s) 0%N) (nth (W * i + j) (ls_wd s') 0%N) /\
  forall y, y <> W * i + j -> nth y (ls_wd s') 0%N = nth y (ls_wd s) 0%N.
Proof.
  intros (_ & _ & _ & Lw) Hi Hj -> E. unfold ldpc_layer in E.
  destruct (ldpc_pass1 _ _ _ _ _ _ _ _ _ _ _) as [[[[[m0 m1] sg] ip] mg]| | |]; try discriminate. cbn [bind] in E.
  destruct (ldpc_pass2 _ _ _ _ _ _ _ _ _ _ _ _ _ _) as [[[b m] p]| | |]; try discriminate. cbn [bind] in E.
  destruct (ldpc_rotate_wd _ _ _ _ _ _ _ _) as [wd'| | |] eqn:Er; try discriminate. cbn [bind] in E. injection E as _ _ <-. cbn [ls_wd].
  apply (rotate_wd_bits _ i j wd' Lw Hi Hj) in Er. destruct Er as (_ & A & B). auto.
Qed.

Theorem update_wd s s' : shaped T D s -> ldpc_update T D BETA C s = Ok s' ->
  forall y, y < d_PTY T D -> turned (words_of y) (nth y (ls_wd s) 0%N) (nth y (ls_wd s') 0%N).
Proof.
  intros Hs E0. destruct HC as (Lc & Hc). unfold ldpc_update in E0. pose proof (W_pos T D DOK) as HW.
  set (Q := fun b y (s1 : ldpc_state) =>
     (y < b -> turned (words_of y) (nth y (ls_wd s) 0%N) (nth y (ls_wd s1) 0%N)) /\
     (b <= y -> nth y (ls_wd s1) 0%N = nth y (ls_wd s) 0%N)).
  edestruct (for_up_inv (fun i (x : nat * nat * ldpc_state) => let '(bl, lo, s1) := x in
     bl = bbase T D i 0 /\ lo = base T D i 0 /\ shaped T D s1 /\ forall y, Q (W * i) y s1))
    as ([[bl lo] s2] & E & _ & _ & Hs' & Hz').
  4: { rewrite E in E0. cbn [bind] in E0. injection E0 as <-. intros y Hy. apply (Hz' y). rewrite (PTY_eq T D DOK) in Hy. lia. }
  - lia.
  - cbv beta. intros i [[bl lo] s1] Hi (-> & -> & Hs1 & Hz1). rewrite (rd_nth _ _ 0) by lia. cbn [bind]. rewrite Hc by lia.
    edestruct (for_up_inv (fun j (x : nat * nat * ldpc_state) => let '(bl, lo, s2) := x in
      bl = bbase T D i j /\ lo = base T D i j /\ shaped T D s2 /\ forall y, Q (W * i + j) y s2))
      as ([[bl lo] s2] & E & -> & -> & Hs2 & Hz2).
    4: { rewrite E. eexists. split; [reflexivity|]. cbv beta iota. rewrite bbase_wrap, base_wrap. split; [reflexivity|]. split; [reflexivity|].
         split; [exact Hs2|]. replace (W * S i) with (W * i + W) by lia. exact Hz2. }
    + lia.
    + cbv beta. intros j [[bl lo] s2] Hj (-> & -> & Hs2 & Hz2).
      destruct (layer_ok T D DOK BETA HB C HS i j s2 Hs2 ltac:(lia) ltac:(lia)) as (s3 & E & Hs3 & _). rewrite E. eexists. split; [reflexivity|].
      cbv beta iota. split; [reflexivity|]. split; [reflexivity|]. split; [exact Hs3|].
      apply layer_wd in E; [|exact Hs2|lia|lia|reflexivity]. destruct E as (E1 & E2). intros y. destruct (Hz2 y) as (Z1 & Z2).
      destruct (Nat.eq_dec y (W * i + j)) as [->|Hne].
      * split; [|intros; lia]. intros _. rewrite <- Z2 by lia. rewrite words_of_at by lia. exact E1.
      * split; intros; rewrite E2 by exact Hne; [apply Z1; lia|apply Z2; lia].
    + cbv beta iota. replace (W * i + 0) with (W * i) by lia. auto.
  - cbv beta iota. unfold bbase, base, csum. cbn [nsum]. split; [lia|]. split; [lia|]. split; [exact Hs|].
    intros y. split; [intros; lia|reflexivity].
Qed.

Theorem iterate_wd fuel : forall s trials s' t, shaped T D s -> (- 2147483648 < trials <= 2147483647)%Z ->
  ldpc_iterate T D BETA fuel C s trials = Ok (s', t) ->
  forall y, y < d_PTY T D -> turned_times (Z.to_nat trials - Z.to_nat t) (words_of y) (nth y (ls_wd s) 0%N) (nth y (ls_wd s') 0%N).
Proof.
  induction fuel as [|f IH]; intros s trials s' t Hs Ht E y Hy; [discriminate|]. cbn [ldpc_iterate] in E.
  destruct (ldpc_bad T D C (ls_msg s) (ls_pty s)) as [b| | |]; try discriminate. cbn [bind] in E. destruct b.
  - unfold chk in E. assert (int_ok (trials - 1) = true) as Ei by (unfold int_ok; lia). rewrite Ei in E. cbn [bind] in E.
    destruct (Z.leb_spec 0 (trials - 1)).
    + destruct (update_ok T D DOK BETA HB C HC HS s Hs) as (s1 & E1 & Hs1 & _). rewrite E1 in E. cbn [bind] in E.
      pose proof (IH s1 (trials - 1)%Z s' t Hs1 ltac:(lia) E y Hy) as I.
      assert (t <= trials - 1)%Z as Hle.
      { clear - E Ht H. assert (forall f s trials s' t, ldpc_iterate T D BETA f C s trials = Ok (s', t) -> (t <= trials)%Z) as G.
        { induction f0 as [|f0 IHf]; intros s0 tr s1' t' E'; [discriminate|]. cbn [ldpc_iterate] in E'.
          destruct (ldpc_bad T D C (ls_msg s0) (ls_pty s0)) as [b| | |]; try discriminate. cbn [bind] in E'. destruct b.
          - destruct (chk (tr - 1)) as [u| | |] eqn:Eu; try discriminate. unfold chk in Eu. destruct (int_ok _); [|discriminate]. injection Eu as <-. cbn [bind] in E'.
            destruct (0 <=? tr - 1)%Z.
            + destruct (ldpc_update T D BETA C s0) as [s2| | |]; try discriminate. cbn [bind] in E'. apply IHf in E'. lia.
            + injection E' as _ <-. lia.
          - injection E' as _ <-. lia. }
        apply G in E. exact E. }
      replace (Z.to_nat trials - Z.to_nat t) with (S (Z.to_nat (trials - 1) - Z.to_nat t)) by lia.
      cbn [turned_times]. eexists. split; [apply (update_wd s s1 Hs E1 y Hy)|exact I].
    + injection E as <- <-. replace (Z.to_nat trials - Z.to_nat (trials - 1)) with 0 by lia. reflexivity.
  - injection E as <- <-. rewrite Nat.sub_diag. reflexivity.
Qed.

Theorem decode_wd s message parity trials s' m' p' t :
  shaped T D s -> length message = t_K T -> length parity = t_R T -> Forall i8 message -> Forall i8 parity ->
  (- 2147483648 < trials <= 2147483647)%Z ->
  ldpc_decode T D BETA C s message parity trials = Ok (s', m', p', t) ->
  forall y, y < d_PTY T D -> turned_times (Z.to_nat trials - Z.to_nat t) (words_of y) (nth y (ls_wd s) 0%N) (nth y (ls_wd s') 0%N).
Proof.
  intros (Vb & Vm & Vp & Lw) Lm Lp Fm Fp Ht E. unfold ldpc_decode in E.
  edestruct (for_up_inv (fun (_ : nat) bnl => vecs D (d_BNL T D) bnl)) as (bnl & E1 & Vb').
  4: { rewrite E1 in E. cbn [bind] in E. rewrite (blocks_eq T D DOK) in E.
    destruct (load_ok T D (length rows) (d_msg_at T D) message (ls_msg s)) as (msg & E2 & Vm' & Hm).
    { rewrite <- (MSG_eq T D DOK). exact Vm. }
    { exact Fm. }
    { intros i j n Hi Hj Hn. rewrite Lm. apply (msg_view_at T D DOK [] i j n Hi Hj Hn). }
    rewrite E2 in E. cbn [bind] in E.
    destruct (load_ok T D q (d_pty_at T D) parity (ls_pty s)) as (pty & E3 & Vp' & Hp).
    { rewrite <- (PTY_eq T D DOK). exact Vp. }
    { exact Fp. }
    { intros i j n Hi Hj Hn. rewrite Lp. apply (pty_view_at T D DOK [] i j n Hi Hj Hn). }
    rewrite E3 in E. cbn [bind] in E.
    rewrite <- (MSG_eq T D DOK) in Vm'. rewrite <- (PTY_eq T D DOK) in Vp'.
    destruct (ldpc_iterate _ _ _ _ _ _ _) as [[s1 t1]| | |] eqn:E4; try discriminate. cbn [bind] in E.
    destruct (ldpc_store _ _ _ _ (ls_msg s1) _) as [m1| | |]; try discriminate. cbn [bind] in E.
    destruct (ldpc_store _ _ _ _ (ls_pty s1) _) as [p1| | |]; try discriminate. cbn [bind] in E. injection E as <- _ _ <-.
    intros y Hy. refine (iterate_wd _ _ _ _ _ _ Ht E4 y Hy).
    split; [exact Vb'|split; [exact Vm'|split; [exact Vp'|exact Lw]]]. }
  - lia.
  - cbv beta. intros i bnl Hi Vbi. pose proof (proj1 Vbi) as L. rewrite wr_Ok by lia. eexists. split; [reflexivity|].
    apply vecs_upd; [exact Vbi|]. apply vec_dup. unfold i8. lia.
  - exact Vb.
Qed.
End Masks.
