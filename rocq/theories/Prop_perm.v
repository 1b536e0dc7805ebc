(** Properties C12-C16: exclusive_reduce.hh, interleave.hh, permute.hh, rotate.hh. *)
From Coq Require Import Permutation.
From Verif Require Import Cpp Model_perm Spec_perm Proof_perm1 Proof_perm2 Proof_perm3.

(** C12: every element type, operator, N >= 2 and input; [out] may have any previous content. *)
Theorem C12_exclusive_reduce : forall (A : Type) (op : A -> A -> A) (inp out : list A) (N : nat),
  (forall a b c, op (op a b) c = op a (op b c)) -> (forall a b, op a b = op b a) ->
  2 <= N -> length inp = N -> N <= length out ->
  exists out', exclusive_reduce inp out N op = Ok out' /\ length out' = length out /\
    (forall i, i < N -> nth_error out' i = reduction op (without i inp)) /\
    (forall i, N <= i -> nth_error out' i = nth_error out i).
Proof. intros. apply exclusive_reduce_ok; assumption. Qed.
Print Assumptions C12_exclusive_reduce.

Example C12_nonvacuous : exclusive_reduce [5; 7; 11; 13]%Z [0; 0; 0; 0; 99]%Z 4 Z.add = Ok [31; 29; 25; 23; 99]%Z /\
  reduction Z.add (without 1 [5; 7; 11; 13]%Z) = Some 29%Z.
Proof. vm_compute. auto. Qed.

(** C13 *)
Theorem C13_interleave_positions : forall (A : Type) (SIZE ORDER : nat) (out inp : list A),
  0 < ORDER -> SIZE mod ORDER = 0 -> length inp = SIZE -> length out = SIZE ->
  exists out', interleave SIZE ORDER out inp = Ok out' /\ length out' = SIZE /\ Permutation inp out' /\
    forall i j, i < SIZE / ORDER -> j < ORDER ->
      nth_error out' (ORDER * i + j) = nth_error inp (i + j * (SIZE / ORDER)).
Proof.
  intros A SIZE ORDER out inp HO HD Hi Ho. destruct (interleave_ok SIZE ORDER HO HD out inp Hi Ho) as (o & E & L & H).
  exists o. split; [exact E|]. split; [exact L|]. split; [|exact H]. exact (interleave_perm SIZE ORDER HO HD inp out o Hi Ho E).
Qed.
Print Assumptions C13_interleave_positions.
Theorem C13_deinterleave_undoes_interleave : forall (A : Type) (SIZE ORDER : nat) (inp out1 out2 : list A),
  0 < ORDER -> SIZE mod ORDER = 0 -> length inp = SIZE -> length out1 = SIZE -> length out2 = SIZE ->
  exists mid, interleave SIZE ORDER out1 inp = Ok mid /\ deinterleave SIZE ORDER out2 mid = Ok inp.
Proof. intros. apply deinterleave_interleave; assumption. Qed.
Print Assumptions C13_deinterleave_undoes_interleave.
Theorem C13_interleave_undoes_deinterleave : forall (A : Type) (SIZE ORDER : nat) (inp out1 out2 : list A),
  0 < ORDER -> SIZE mod ORDER = 0 -> length inp = SIZE -> length out1 = SIZE -> length out2 = SIZE ->
  exists mid, deinterleave SIZE ORDER out1 inp = Ok mid /\ interleave SIZE ORDER out2 mid = Ok inp.
Proof. intros. apply interleave_deinterleave; assumption. Qed.
Print Assumptions C13_interleave_undoes_deinterleave.

Example C13_nonvacuous : interleave 6 2 [0; 0; 0; 0; 0; 0] [1; 2; 3; 4; 5; 6] = Ok [1; 4; 2; 5; 3; 6].
Proof. reflexivity. Qed.

(** C14: the array may be longer than SIZE; the rest is not touched. *)
Theorem C14_shuffle_roundtrip : forall (A : Type) (SIZE : nat) (a : list A),
  2 <= SIZE -> SIZE <= length a ->
  exists b, fisher_yates SIZE a = Ok b /\ Permutation a b /\ reverse_fisher_yates SIZE b = Ok a /\
    forall x, SIZE <= x -> nth_error b x = nth_error a x.
Proof.
  intros A SIZE a _ Hl. destruct (fy_roundtrip SIZE a Hl) as (b & E & P & R). exists b.
  repeat split; auto. intros x. apply (fy_tail SIZE a b); assumption.
Qed.
Print Assumptions C14_shuffle_roundtrip.
Theorem C14_unshuffle_roundtrip : forall (A : Type) (SIZE : nat) (a : list A),
  2 <= SIZE -> SIZE <= length a ->
  exists b, reverse_fisher_yates SIZE a = Ok b /\ Permutation a b /\ fisher_yates SIZE b = Ok a /\
    forall x, SIZE <= x -> nth_error b x = nth_error a x.
Proof.
  intros A SIZE a _ Hl. destruct (fy_roundtrip' SIZE a Hl) as (b & E & P & R). exists b.
  repeat split; auto. intros x. apply (rfy_tail SIZE a b); assumption.
Qed.
Print Assumptions C14_unshuffle_roundtrip.

Example C14_nonvacuous : exists b, fisher_yates 5 [1; 2; 3; 4; 5] = Ok b /\ b <> [1; 2; 3; 4; 5].
Proof. eexists. split; [vm_compute; reflexivity|discriminate]. Qed.

(** C15 *)
Theorem C15_bit_reversal : forall (A : Type) (m : nat) (a : list A), length a = 2 ^ m ->
  exists b, bit_reversal_permute (2 ^ m) a = Ok b /\ length b = length a /\
    (forall i r, i < 2 ^ m -> reversed_index m i r -> nth_error b r = nth_error a i) /\
    bit_reversal_permute (2 ^ m) b = Ok a.
Proof.
  intros A m a Hl. destruct (bit_reversal_ok m a Hl) as (b & E & L & H). exists b. split; [exact E|]. split; [exact L|].
  assert (H1 : forall i r, i < 2 ^ m -> reversed_index m i r -> nth_error b r = nth_error a i).
  { intros i r Hi Hr. rewrite (reversed_index_unique m i r _ Hr (brev_reversed m i Hi)). apply H. exact Hi. }
  split; [exact H1|].
  destruct (bit_reversal_ok m b ltac:(congruence)) as (c & E2 & L2 & H2). rewrite E2. f_equal.
  apply Lib_list.nth_error_ext'; [congruence|]. intros x Hx.
  assert (Hx2 : x < 2 ^ m) by congruence.
  pose proof (brev_reversed m x Hx2) as R. set (r := N.to_nat (brev m (N.of_nat x))) in *.
  rewrite <- (H1 x r Hx2 R). destruct R as (Rr & R).
  rewrite (reversed_index_unique m r x _ (reversed_index_sym m x r Hx2 (conj Rr R)) (brev_reversed m r Rr)).
  apply H2. exact Rr.
Qed.
Print Assumptions C15_bit_reversal.

(** every index has a reversed index, so the statement above covers the whole array *)
Theorem C15_reversed_index_exists : forall m i, i < 2 ^ m -> exists r, reversed_index m i r.
Proof. intros m i Hi. eexists. apply brev_reversed. exact Hi. Qed.

Example C15_nonvacuous : bit_reversal_permute 8 [0; 1; 2; 3; 4; 5; 6; 7] = Ok [0; 4; 2; 6; 1; 5; 3; 7].
Proof. reflexivity. Qed.

(** C16: lane contents are arbitrary; in the portable version lanes from WIDTH on are indeterminate *)
Theorem C16_rotate_portable : forall (A : Type) (SIZE WIDTH : nat) (a : list A) (s : Z),
  0 < WIDTH -> WIDTH <= SIZE -> length a = SIZE -> (- Z.of_nat WIDTH <= s < Z.of_nat WIDTH)%Z ->
  exists ret, rotate_generic SIZE WIDTH a s = Ok ret /\ length ret = SIZE /\
    rotated WIDTH s a (fun l => nth l ret None).
Proof. intros A. exact (@rotate_generic_ok A). Qed.
Print Assumptions C16_rotate_portable.
Theorem C16_rotate_neon : forall WIDTH a s,
  length a = 16 -> 0 < WIDTH -> WIDTH <= 16 -> (- Z.of_nat WIDTH <= s < Z.of_nat WIDTH)%Z ->
  exists b, rotate_neon WIDTH a s = Ok b /\ table_rotation 16 WIDTH s a b.
Proof. exact rotate_neon_ok. Qed.
Print Assumptions C16_rotate_neon.
Theorem C16_rotate_sse : forall WIDTH a s,
  length a = 16 -> 0 < WIDTH -> WIDTH <= 16 -> (- Z.of_nat WIDTH <= s < Z.of_nat WIDTH)%Z ->
  exists b, rotate_sse WIDTH a s = Ok b /\ table_rotation 16 WIDTH s a b.
Proof. exact rotate_sse_ok. Qed.
Print Assumptions C16_rotate_sse.
Theorem C16_rotate_avx2 : forall WIDTH a s,
  length a = 32 -> 0 < WIDTH -> WIDTH <= 32 -> (- Z.of_nat WIDTH <= s < Z.of_nat WIDTH)%Z ->
  exists b, rotate_avx2 WIDTH a s = Ok b /\ table_rotation 32 WIDTH s a b.
Proof. exact rotate_avx2_ok. Qed.
Print Assumptions C16_rotate_avx2.

(** negating the shift undoes it, in every version (here [b] is the first result with all its
    lanes below WIDTH as computed; lanes above are irrelevant) *)
Theorem C16_rotate_undo : forall (A : Type) (SIZE WIDTH : nat) (a b : list A) (s : Z) ret ret',
  0 < WIDTH -> WIDTH <= SIZE -> length a = SIZE -> length b = SIZE -> (- Z.of_nat WIDTH < s < Z.of_nat WIDTH)%Z ->
  rotate_generic SIZE WIDTH a s = Ok ret -> (forall l, l < WIDTH -> nth l ret None = nth_error b l) ->
  rotate_generic SIZE WIDTH b (- s) = Ok ret' ->
  forall n, n < WIDTH -> nth n ret' None = nth_error a n.
Proof.
  intros A SIZE WIDTH a b s ret ret' HW HS Ha Hb Hs E Hret E'.
  destruct (rotate_generic_ok SIZE WIDTH a s HW HS Ha ltac:(lia)) as (r1 & E1 & _ & R1). rewrite E in E1. injection E1 as <-.
  destruct (rotate_generic_ok SIZE WIDTH b (- s) HW HS Hb ltac:(lia)) as (r2 & E2 & _ & R2). rewrite E' in E2. injection E2 as <-.
  apply (rotated_undo WIDTH s a b); auto; try lia.
  intros n Hn. rewrite <- (R1 n Hn). symmetry. apply Hret.
  pose proof (Z.mod_pos_bound (Z.of_nat n + s) (Z.of_nat WIDTH) ltac:(lia)). lia.
Qed.
Print Assumptions C16_rotate_undo.

Theorem C16_rotate_undo_tables : forall WIDTH a b c s,
  0 < WIDTH -> (- Z.of_nat WIDTH < s < Z.of_nat WIDTH)%Z ->
  (length a = 16 /\ WIDTH <= 16 /\ rotate_neon WIDTH a s = Ok b /\ rotate_neon WIDTH b (- s) = Ok c) \/
  (length a = 16 /\ WIDTH <= 16 /\ rotate_sse WIDTH a s = Ok b /\ rotate_sse WIDTH b (- s) = Ok c) \/
  (length a = 32 /\ WIDTH <= 32 /\ rotate_avx2 WIDTH a s = Ok b /\ rotate_avx2 WIDTH b (- s) = Ok c) ->
  forall n, n < WIDTH -> nth_error c n = nth_error a n.
Proof.
  intros W a b c s HW Hs H.
  assert (G : forall SIZE, length a = SIZE -> W <= SIZE -> table_rotation SIZE W s a b -> table_rotation SIZE W (- s) b c ->
     forall n, n < W -> nth_error c n = nth_error a n).
  { intros SIZE La Lw (L1 & R1 & _) (L2 & R2 & _). apply (rotated_undo W s a b); auto; congruence. }
  destruct H as [(La & Lw & E1 & E2)|[(La & Lw & E1 & E2)|(La & Lw & E1 & E2)]].
  - destruct (rotate_neon_ok W a s La HW Lw ltac:(lia)) as (b' & Eb & Tb). rewrite E1 in Eb. injection Eb as <-.
    destruct (rotate_neon_ok W b (- s) (proj1 Tb) HW Lw ltac:(lia)) as (c' & Ec & Tc). rewrite E2 in Ec. injection Ec as <-.
    exact (G 16 La Lw Tb Tc).
  - destruct (rotate_sse_ok W a s La HW Lw ltac:(lia)) as (b' & Eb & Tb). rewrite E1 in Eb. injection Eb as <-.
    destruct (rotate_sse_ok W b (- s) (proj1 Tb) HW Lw ltac:(lia)) as (c' & Ec & Tc). rewrite E2 in Ec. injection Ec as <-.
    exact (G 16 La Lw Tb Tc).
  - destruct (rotate_avx2_ok W a s La HW Lw ltac:(lia)) as (b' & Eb & Tb). rewrite E1 in Eb. injection Eb as <-.
    destruct (rotate_avx2_ok W b (- s) (proj1 Tb) HW Lw ltac:(lia)) as (c' & Ec & Tc). rewrite E2 in Ec. injection Ec as <-.
    exact (G 32 La Lw Tb Tc).
Qed.
Print Assumptions C16_rotate_undo_tables.

Example C16_nonvacuous :
  rotate_avx2 20 (map N.of_nat (seq 100 32)) (-3) =
    Ok (map N.of_nat (seq 103 17 ++ [100; 101; 102] ++ repeat 0 12)) /\
  rotate_generic 8 5 [10; 11; 12; 13; 14; 15; 16; 17] 2 =
    Ok [Some 13; Some 14; Some 10; Some 11; Some 12; None; None; None].
Proof. split; vm_compute; reflexivity. Qed.
