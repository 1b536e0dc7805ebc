(** C54, byte shuffles: the SSE4.1, AVX2 and NEON implementations of [vshuf] give what the portable loop gives,
    [b[i] < WIDTH ? a[b[i]] : 0], for every table and every index vector whose indices are in the range the back end
    supports.  NEON supports every index.  On x86 an index out of range gives 0 only from 112 + WIDTH on
    (128 for one SSE register); between WIDTH and that it selects a lane instead ([C54_x86_shuffle_out_of_range]). *)
From Coq Require Import ZifyBool ZifyNat.
From Verif Require Import Cpp Model_simd Model_intrin Model_backend Spec_simd Proof_simd Proof_simd2 Proof_intrin Proof_backend
  Proof_shuf.
Open Scope Z_scope.
Ltac Zify.zify_post_hook ::= idtac.

(** an index the x86 shuffles support, for tables of [W] bytes: a lane number, or large enough *)
Definition supported_index (W i : Z) : Prop := i < W \/ 112 + W <= i.

Lemma shuf_final N (As : list (list Z)) (b : list Z) (h : Z -> Z) K : Z.of_nat (length As) = K ->
  Forall (fun A => length A = 16%nat) As -> Forall (supported_index (16 * K)) (lanes_u N 8 b) ->
  (forall i, good K i -> h i = picks 0 As i) ->
  map h (lanes_u N 8 b) = vshuf (concat As) (lanes_u N 8 b).
Proof.
  intros L F G H. unfold vshuf. apply map_ext_in. intros i Hi.
  pose proof (lanes_u_range N 8 b ltac:(lia)) as R. rewrite Forall_forall in R, G. specialize (R i Hi). specialize (G i Hi).
  unfold uint_range in R. change (2 ^ 8) with 256 in R. unfold supported_index in G.
  rewrite H by (unfold good; lia). apply picks_port; [exact F|lia].
Qed.
(** the lanes of several 128 bit registers *)
Lemma len16 l : Forall (fun A => length A = 16%nat) (map (lanes 8 16) l).
Proof. apply Forall_forall. intros A HA. apply in_map_iff in HA. destruct HA as (x & <- & _). apply length_lanes. Qed.

Lemma sse1_lanes a0 b : lanes 8 16 (sse_vshuf1 a0 b) = map (fun i => sel (lanes 8 16 a0) (idx 0 true i)) (lanes 8 16 b).
Proof. unfold sse_vshuf1. rewrite lanes_pshufb. reflexivity. Qed.
Ltac lane_ops :=
  unfold mm_or; repeat rewrite lanes_lor by lia; repeat rewrite lanes_pshufb; repeat rewrite lanes_lor by lia;
  repeat rewrite (lanes_cmpc 16 128 eq_refl); repeat rewrite (lanes_subc 16 128 eq_refl).
Lemma sse2_lanes a0 a1 b : lanes 8 16 (sse_vshuf2 a0 a1 b) =
  map (fun i => Z.lor (sel (lanes 8 16 a0) (idx 0 false i)) (sel (lanes 8 16 a1) (idx 1 true i))) (lanes 8 16 b).
Proof.
  unfold sse_vshuf2. lane_ops. rewrite <- (map_id (lanes 8 16 b)) at 1.
  repeat (rewrite ?map2_same, ?map_map). reflexivity.
Qed.
Lemma sse3_lanes a0 a1 a2 b : lanes 8 16 (sse_vshuf3 a0 a1 a2 b) =
  map (fun i => Z.lor (Z.lor (sel (lanes 8 16 a0) (idx 0 false i)) (sel (lanes 8 16 a1) (idx 1 false i)))
    (sel (lanes 8 16 a2) (idx 2 true i))) (lanes 8 16 b).
Proof.
  unfold sse_vshuf3. lane_ops. rewrite <- (map_id (lanes 8 16 b)) at 1.
  repeat (rewrite ?map2_same, ?map_map). reflexivity.
Qed.
Lemma sse4_lanes a0 a1 a2 a3 b : lanes 8 16 (sse_vshuf4 a0 a1 a2 a3 b) =
  map (fun i => Z.lor (Z.lor (Z.lor (sel (lanes 8 16 a0) (idx 0 false i)) (sel (lanes 8 16 a1) (idx 1 false i)))
    (sel (lanes 8 16 a2) (idx 2 false i))) (sel (lanes 8 16 a3) (idx 3 true i))) (lanes 8 16 b).
Proof.
  unfold sse_vshuf4. lane_ops. rewrite <- (map_id (lanes 8 16 b)) at 1.
  repeat (rewrite ?map2_same, ?map_map). reflexivity.
Qed.

(** SSE4.1 with one to four registers *)
Theorem C54_sse_shuffle (a b : list Z) : (1 <= length a <= 4)%nat ->
  Forall (supported_index (16 * Z.of_nat (length a))) (lanes_u 128 8 b) ->
  lanes_u 128 8 (sse_vshuf a b) = vshuf (lanes_u 128 8 a) (lanes_u 128 8 b).
Proof.
  intros L G.
  destruct a as [|a0 [|a1 [|a2 [|a3 [|]]]]]; try (cbn in L; lia); cbn [sse_vshuf]; cbn [length] in G.
  - rewrite (lanes_u_1 128 8 _ _ b (sse1_lanes a0)).
    apply (shuf_final 128 (map (lanes 8 16) [a0]) b _ 1 eq_refl (len16 _) G). intros i Gi.
    rewrite (sel_idx 1 0 _ i ltac:(lia) ltac:(lia) Gi). cbn [map picks]. rewrite Z.lor_0_r. reflexivity.
  - rewrite (lanes_u_1 128 8 _ _ b (sse2_lanes a0 a1)).
    apply (shuf_final 128 (map (lanes 8 16) [a0; a1]) b _ 2 eq_refl (len16 _) G). intros i Gi.
    rewrite (sel_idx 2 0 _ i ltac:(lia) ltac:(lia) Gi), (sel_idx 2 1 _ i ltac:(lia) ltac:(lia) Gi).
    cbn [map picks]. rewrite Z.lor_0_r. reflexivity.
  - rewrite (lanes_u_1 128 8 _ _ b (sse3_lanes a0 a1 a2)).
    apply (shuf_final 128 (map (lanes 8 16) [a0; a1; a2]) b _ 3 eq_refl (len16 _) G). intros i Gi.
    rewrite (sel_idx 3 0 _ i ltac:(lia) ltac:(lia) Gi), (sel_idx 3 1 _ i ltac:(lia) ltac:(lia) Gi),
      (sel_idx 3 2 _ i ltac:(lia) ltac:(lia) Gi).
    cbn [map picks]. rewrite Z.lor_0_r, Z.lor_assoc. reflexivity.
  - rewrite (lanes_u_1 128 8 _ _ b (sse4_lanes a0 a1 a2 a3)).
    apply (shuf_final 128 (map (lanes 8 16) [a0; a1; a2; a3]) b _ 4 eq_refl (len16 _) G). intros i Gi.
    rewrite (sel_idx 4 0 _ i ltac:(lia) ltac:(lia) Gi), (sel_idx 4 1 _ i ltac:(lia) ltac:(lia) Gi),
      (sel_idx 4 2 _ i ltac:(lia) ltac:(lia) Gi), (sel_idx 4 3 _ i ltac:(lia) ltac:(lia) Gi).
    cbn [map picks]. rewrite Z.lor_0_r, !Z.lor_assoc. reflexivity.
Qed.

(** AVX2 with one or two registers *)
Ltac lane_ops256 :=
  unfold mm_or; repeat rewrite lanes_lor by lia; repeat rewrite pshufb_lo; repeat rewrite pshufb_hi;
  repeat rewrite lanes_lor by lia; repeat rewrite (lanes_cmpc 32 256 eq_refl); repeat rewrite (lanes_subc 32 256 eq_refl).
Lemma avx1_lanes a b : lanes 8 32 (avx_vshuf1 a b) =
  map (fun i => Z.lor (sel (lanes 8 16 (lo 128 a)) (idx 0 false i)) (sel (lanes 8 16 (hi 128 a)) (idx 1 true i))) (lanes 8 32 b).
Proof.
  unfold avx_vshuf1. cbv zeta. lane_ops256. rewrite <- (map_id (lanes 8 32 b)) at 1.
  repeat (rewrite ?map2_same, ?map_map). reflexivity.
Qed.
Lemma avx2_lanes a0 a1 b : lanes 8 32 (avx_vshuf2 a0 a1 b) =
  map (fun i => Z.lor (Z.lor (sel (lanes 8 16 (lo 128 a0)) (idx 0 false i)) (sel (lanes 8 16 (hi 128 a0)) (idx 1 false i)))
    (Z.lor (sel (lanes 8 16 (lo 128 a1)) (idx 2 false i)) (sel (lanes 8 16 (hi 128 a1)) (idx 3 true i)))) (lanes 8 32 b).
Proof.
  unfold avx_vshuf2. cbv zeta. lane_ops256. rewrite <- (map_id (lanes 8 32 b)) at 1.
  repeat (rewrite ?map2_same, ?map_map). reflexivity.
Qed.
Lemma lanes_u_256 a : lanes_u 256 8 a = concat (map (lanes 8 16) (concat (map (fun r => [lo 128 r; hi 128 r]) a))).
Proof.
  unfold lanes_u. change (count 256 8) with (16 + 16)%nat. induction a as [|r a IH]; [reflexivity|].
  cbn [map concat List.app]. rewrite IH, (lanes_halves 8 16 128 r) by lia. rewrite <- app_assoc. reflexivity.
Qed.
Theorem C54_avx2_shuffle (a b : list Z) : (1 <= length a <= 2)%nat ->
  Forall (supported_index (32 * Z.of_nat (length a))) (lanes_u 256 8 b) ->
  lanes_u 256 8 (avx_vshuf a b) = vshuf (lanes_u 256 8 a) (lanes_u 256 8 b).
Proof.
  intros L G.
  destruct a as [|a0 [|a1 [|]]]; try (cbn in L; lia); cbn [avx_vshuf]; cbn [length] in G; rewrite (lanes_u_256 (a0 :: _));
    cbn [map concat List.app].
  - rewrite (lanes_u_1 256 8 _ _ b (avx1_lanes a0)).
    apply (shuf_final 256 (map (lanes 8 16) [lo 128 a0; hi 128 a0]) b _ 2 eq_refl (len16 _) G). intros i Gi.
    rewrite (sel_idx 2 0 _ i ltac:(lia) ltac:(lia) Gi), (sel_idx 2 1 _ i ltac:(lia) ltac:(lia) Gi).
    cbn [map picks]. rewrite Z.lor_0_r. reflexivity.
  - rewrite (lanes_u_1 256 8 _ _ b (avx2_lanes a0 a1)).
    apply (shuf_final 256 (map (lanes 8 16) [lo 128 a0; hi 128 a0; lo 128 a1; hi 128 a1]) b _ 4 eq_refl (len16 _) G). intros i Gi.
    rewrite (sel_idx 4 0 _ i ltac:(lia) ltac:(lia) Gi), (sel_idx 4 1 _ i ltac:(lia) ltac:(lia) Gi),
      (sel_idx 4 2 _ i ltac:(lia) ltac:(lia) Gi), (sel_idx 4 3 _ i ltac:(lia) ltac:(lia) Gi).
    cbn [map picks]. rewrite Z.lor_0_r, !Z.lor_assoc. reflexivity.
Qed.

(** AVX2, 32 bit lanes: every index must be a lane number *)
Lemma lanes_permute a b : lanes 32 8 (mm256_permutevar8x32 a b) = map (fun i => nth (Z.to_nat (i mod 8)) (lanes 32 8 a) 0) (lanes 32 8 b).
Proof.
  unfold mm256_permutevar8x32. rewrite lanes_pack_n by (rewrite ?map_length, ?length_lanes; lia).
  rewrite map_map. apply map_ext. intros i. apply to_u_id, nth_range; [lia|]. apply lanes_range. lia.
Qed.
Theorem C54_avx2_shuffle32 (a b : list Z) : (1 <= length a <= 2)%nat ->
  Forall (fun i => i < 8 * Z.of_nat (length a)) (lanes_u 256 32 b) ->
  lanes_u 256 32 (avx_vshuf32 a b) = vshuf (lanes_u 256 32 a) (lanes_u 256 32 b).
Proof.
  intros L G. pose proof (lanes_u_range 256 32 b ltac:(lia)) as R. rewrite Forall_forall in R, G. unfold uint_range in R.
  destruct a as [|a0 [|a1 [|]]]; try (cbn in L; lia); cbn [avx_vshuf32]; cbn [length] in G.
  - change (avx_vshuf32_1 a0) with (mm256_permutevar8x32 a0). rewrite (lanes_u_1 256 32 _ _ b (lanes_permute a0)). unfold vshuf. apply map_ext_in. intros i Hi.
    specialize (G i Hi). specialize (R i Hi). rewrite length_lanes_u. change (Z.of_nat (length [a0] * count 256 32)) with 8.
    destruct (Z.ltb_spec i 8); [|lia]. rewrite Z.mod_small by lia. unfold lanes_u. cbn [map concat]. rewrite app_nil_r. reflexivity.
  - rewrite (lanes_u_1 256 32 _ (fun i =>
      Z.lor (Z.land (nth (Z.to_nat (i mod 8)) (lanes 32 8 a0) 0) (ones 32 (to_s 32 i <? 8)))
            (Z.land (nth (Z.to_nat (to_u 32 (i - 8) mod 8)) (lanes 32 8 a1) 0) (ones 32 (7 <? to_s 32 i)))) b).
    + unfold vshuf. apply map_ext_in. intros i Hi. specialize (G i Hi). specialize (R i Hi).
      rewrite length_lanes_u. change (Z.of_nat (length [a0; a1] * count 256 32)) with 16.
      destruct (Z.ltb_spec i 16); [|lia]. change (2 ^ 32) with 4294967296 in R.
      rewrite (to_s_id 32 i) by (unfold int_range; change (2 ^ (32 - 1)) with 2147483648; lia).
      assert (M : forall A n, Forall (uint_range 32) A -> Z.land (nth n A 0) (ones 32 true) = nth n A 0).
      { intros A n F. pose proof (nth_range 32 A n ltac:(lia) F) as H'. cbn [ones].
        replace (2 ^ 32 - 1) with (Z.ones 32) by reflexivity. rewrite Z.land_ones by lia. apply Z.mod_small, H'. }
      unfold lanes_u. cbn [map concat]. rewrite app_nil_r. change (count 256 32) with 8%nat.
      destruct (Z.ltb_spec i 8), (Z.ltb_spec 7 i); try lia; rewrite M by (apply lanes_range; lia); cbn [ones]; rewrite Z.land_0_r.
      * rewrite Z.lor_0_r, Z.mod_small by lia. rewrite app_nth1 by (rewrite length_lanes; lia). reflexivity.
      * rewrite Z.lor_0_l, to_u_id by (unfold uint_range; change (2 ^ 32) with 4294967296; lia).
        rewrite (Z.mod_small (i - 8)) by lia. rewrite app_nth2 by (rewrite length_lanes; lia). rewrite length_lanes. f_equal. lia.
    + intros x. unfold avx_vshuf32_2, mm_or, mm_and. rewrite lanes_lor, !lanes_land by lia. change (count 256 32) with 8%nat.
      rewrite !lanes_permute.
      pose proof (lanes_lw2_c 256 32 (fun x y => x - y) x (mm_set1 256 32 8) 8 ltac:(lia) (lanes_set1 256 32 8 ltac:(lia))) as E1.
      pose proof (lanes_lw2_c 256 32 (fun x y => ones 32 (to_s 32 y <? to_s 32 x)) x (mm_set1 256 32 7) 7 ltac:(lia) (lanes_set1 256 32 7 ltac:(lia))) as E2.
      pose proof (lanes_lw2_cl 256 32 (fun x y => ones 32 (to_s 32 y <? to_s 32 x)) x (mm_set1 256 32 8) 8 ltac:(lia) (lanes_set1 256 32 8 ltac:(lia))) as E3.
      change (count 256 32) with 8%nat in E1, E2, E3. unfold mm_sub, mm_cmpgt. rewrite E1, E2, E3.
      repeat (rewrite ?map2_same, ?map_map). apply map_ext. intros i. rewrite !(to_u_id 32 (ones 32 _)) by (apply ones_range; lia). change (to_s 32 8) with 8. change (to_s 32 7) with 7. reflexivity.
Qed.

(** NEON, 64 bit ARM, one to four registers: every index is supported *)
Definition qsel (A : list Z) (i : Z) : Z := if i <? 16 then nth (Z.to_nat i) A 0 else 0.
Lemma qsel_range A i : Forall (uint_range 8) A -> uint_range 8 (qsel A i).
Proof.
  intros F. unfold qsel. destruct (i <? 16); [apply nth_range; [lia|exact F]|]. unfold uint_range. change (2 ^ 8) with 256. lia.
Qed.
Lemma lanes_qtbl a b : lanes 8 16 (vqtbl1q a b) = map (qsel (lanes 8 16 a)) (lanes 8 16 b).
Proof.
  unfold vqtbl1q. rewrite lanes_pack_n by (rewrite ?map_length, ?length_lanes; lia).
  apply (map_u8 (qsel (lanes 8 16 a))). intros x. apply qsel_range, lanes_range. lia.
Qed.
Lemma lanes_qtbl_sub a b c : lanes 8 16 (vqtbl1q a (vsubq 8 b (vdupq_n 8 c))) =
  map (fun i => qsel (lanes 8 16 a) (to_u 8 (i - to_u 8 c))) (lanes 8 16 b).
Proof.
  rewrite lanes_qtbl. change (lanes 8 16 (vsubq 8 b (vdupq_n 8 c))) with (lanes 8 16 (mm_sub 128 8 b (mm_set1 128 8 c))).
  rewrite (lanes_subc 16 128 eq_refl), map_map. reflexivity.
Qed.
Lemma qsel_pick r A i : 0 <= r < 8 -> uint_range 8 i -> qsel A (to_u 8 (i - to_u 8 (16 * r))) = pick r A i.
Proof.
  intros Hr R. unfold uint_range in R. change (2 ^ 8) with 256 in R. unfold qsel, pick.
  rewrite (to_u_id 8 (16 * r)) by (unfold uint_range; change (2 ^ 8) with 256; lia).
  unfold to_u. change (2 ^ 8) with 256. destruct (Z.leb_spec (16 * r) i); cbn [andb].
  - rewrite Z.mod_small by lia. destruct (Z.ltb_spec (i - 16 * r) 16), (Z.ltb_spec i (16 * r + 16)); try lia; reflexivity.
  - rewrite <- (Z.mod_add (i - 16 * r) 1) by lia. rewrite Z.mod_small by lia.
    destruct (Z.ltb_spec (i - 16 * r + 1 * 256) 16); [lia|reflexivity].
Qed.
Lemma neon_final (As : list (list Z)) (b : list Z) (h : Z -> Z) :
  Forall (fun A => length A = 16%nat) As -> (forall i, uint_range 8 i -> h i = picks 0 As i) ->
  map h (lanes_u 128 8 b) = vshuf (concat As) (lanes_u 128 8 b).
Proof.
  intros F H. unfold vshuf. apply map_ext_in. intros i Hi.
  pose proof (lanes_u_range 128 8 b ltac:(lia)) as R. rewrite Forall_forall in R. specialize (R i Hi).
  rewrite H by exact R. apply picks_port; [exact F|apply R].
Qed.
Theorem C54_neon_shuffle (a b : list Z) : (1 <= length a <= 4)%nat ->
  lanes_u 128 8 (neon_vshuf a b) = vshuf (lanes_u 128 8 a) (lanes_u 128 8 b).
Proof.
  intros L.
  assert (P0 : forall A i, uint_range 8 i -> qsel A i = pick 0 A i).
  { intros A i R. rewrite <- (qsel_pick 0) by (try exact R; lia). f_equal. change (to_u 8 (16 * 0)) with 0.
    rewrite Z.sub_0_r, to_u_id by exact R. reflexivity. }
  destruct a as [|a0 [|a1 [|a2 [|a3 [|]]]]]; try (cbn in L; lia); cbn [neon_vshuf].
  - change (fun b => vqtbl1q a0 b) with (vqtbl1q a0). rewrite (lanes_u_1 128 8 _ _ b (lanes_qtbl a0)).
    apply (neon_final (map (lanes 8 16) [a0]) b _ (len16 _)). intros i R. rewrite P0 by exact R.
    cbn [map picks]. rewrite Z.lor_0_r. reflexivity.
  - rewrite (lanes_u_1 128 8 _ (fun i => Z.lor (qsel (lanes 8 16 a0) i) (qsel (lanes 8 16 a1) (to_u 8 (i - to_u 8 (16 * 1)))))).
    + apply (neon_final (map (lanes 8 16) [a0; a1]) b _ (len16 _)). intros i R. rewrite P0, !qsel_pick by (try exact R; lia).
      cbn [map picks]. rewrite Z.lor_0_r. reflexivity.
    + intros x. unfold vorrq. rewrite !lanes_lor by lia. change (count 128 8) with 16%nat.
      rewrite lanes_qtbl, !lanes_qtbl_sub, !map2_same. reflexivity.
  - rewrite (lanes_u_1 128 8 _ (fun i => Z.lor (Z.lor (qsel (lanes 8 16 a0) i)
       (qsel (lanes 8 16 a1) (to_u 8 (i - to_u 8 (16 * 1))))) (qsel (lanes 8 16 a2) (to_u 8 (i - to_u 8 (16 * 2)))))).
    + apply (neon_final (map (lanes 8 16) [a0; a1; a2]) b _ (len16 _)). intros i R. rewrite P0, !qsel_pick by (try exact R; lia).
      cbn [map picks]. rewrite Z.lor_0_r, !Z.lor_assoc. reflexivity.
    + intros x. unfold vorrq. rewrite !lanes_lor by lia. change (count 128 8) with 16%nat.
      rewrite lanes_qtbl, !lanes_qtbl_sub, !map2_same. reflexivity.
  - rewrite (lanes_u_1 128 8 _ (fun i => Z.lor (Z.lor (Z.lor (qsel (lanes 8 16 a0) i)
       (qsel (lanes 8 16 a1) (to_u 8 (i - to_u 8 (16 * 1))))) (qsel (lanes 8 16 a2) (to_u 8 (i - to_u 8 (16 * 2))))) 
       (qsel (lanes 8 16 a3) (to_u 8 (i - to_u 8 (16 * 3)))))).
    + apply (neon_final (map (lanes 8 16) [a0; a1; a2; a3]) b _ (len16 _)). intros i R. rewrite P0, !qsel_pick by (try exact R; lia).
      cbn [map picks]. rewrite Z.lor_0_r, !Z.lor_assoc. reflexivity.
    + intros x. unfold vorrq. rewrite !lanes_lor by lia. change (count 128 8) with 16%nat.
      rewrite lanes_qtbl, !lanes_qtbl_sub, !map2_same. reflexivity.
Qed.
(** NEON, 32 bit ARM, one register *)
Theorem C54_neon32_shuffle a b : 
  lanes_u 128 8 [neon32_vshuf a b] = vshuf (lanes_u 128 8 [a]) (lanes_u 128 8 [b]).
Proof.
  rewrite <- (C54_neon_shuffle [a] [b]) by (cbn; lia). unfold lanes_u, neon_vshuf. cbn [map concat]. rewrite !app_nil_r.
  change (count 128 8) with 16%nat. rewrite lanes_qtbl. unfold neon32_vshuf. cbv zeta.
  change (lanes 8 16 b) with (lanes 8 (8 + 8) b). rewrite (lanes_halves 8 8 64 b) by lia.
  change 16%nat with (8 + 8)%nat at 1. rewrite (lanes_halves 8 8 64) by lia. unfold vcombine.
  rewrite lo_pack, hi_pack by lia. rewrite !lanes_mod by lia. rewrite map_app.
  assert (T : forall x, lanes 8 8 (vtbl2 (vget_low a) (vget_high a) x) = map (qsel (lanes 8 16 a)) (lanes 8 8 x)).
  { intros x. unfold vtbl2. rewrite lanes_pack_n by (rewrite ?map_length, ?length_lanes; lia).
    assert (E : lanes 8 8 (vget_low a) ++ lanes 8 8 (vget_high a) = lanes 8 16 a).
    { symmetry. apply (lanes_halves 8 8 64); lia. }
    rewrite E. apply (map_u8 (qsel (lanes 8 16 a))). intros y. apply qsel_range, lanes_range. lia. }
  rewrite !T. reflexivity.
Qed.

(** signed lanes are moved the same way *)
Lemma vshuf_signed w a b : 0 < w -> map (to_s w) (vshuf a b) = vshuf (map (to_s w) a) b.
Proof.
  intros W. unfold vshuf. rewrite map_map. apply map_ext. intros i. rewrite map_length.
  destruct (i <? Z.of_nat (length a)); [|apply to_s_0, W]. rewrite <- (to_s_0 w W) at 2. symmetry. apply map_nth.
Qed.
Theorem C54_shuffle_signed (a b : list Z) :
  ((1 <= length a <= 4)%nat -> Forall (supported_index (16 * Z.of_nat (length a))) (lanes_u 128 8 b) ->
     lanes_s 128 8 (sse_vshuf a b) = vshuf (lanes_s 128 8 a) (lanes_u 128 8 b)) /\
  ((1 <= length a <= 2)%nat -> Forall (supported_index (32 * Z.of_nat (length a))) (lanes_u 256 8 b) ->
     lanes_s 256 8 (avx_vshuf a b) = vshuf (lanes_s 256 8 a) (lanes_u 256 8 b)) /\
  ((1 <= length a <= 4)%nat -> lanes_s 128 8 (neon_vshuf a b) = vshuf (lanes_s 128 8 a) (lanes_u 128 8 b)).
Proof.
  split; [|split]; intros; unfold lanes_s.
  - rewrite C54_sse_shuffle by assumption. apply vshuf_signed. lia.
  - rewrite C54_avx2_shuffle by assumption. apply vshuf_signed. lia.
  - rewrite C54_neon_shuffle by assumption. apply vshuf_signed. lia.
Qed.

(** The bounds are sharp: on x86 the first and the last unsupported index select a lane where the portable code gives
    0, for every number of registers; and a 32 bit index is reduced modulo the number of lanes *)
Definition table (N : Z) (k : nat) : list Z := x86_vdup N 8 k 1.
Theorem C54_x86_shuffle_out_of_range :
  (forall k, (1 <= k <= 4)%nat -> let W := 16 * Z.of_nat k in
     Forall (fun i => lanes_u 128 8 (sse_vshuf (table 128 k) (x86_vdup 128 8 k i)) <>
       vshuf (lanes_u 128 8 (table 128 k)) (lanes_u 128 8 (x86_vdup 128 8 k i))) [W; 111 + W]) /\
  (forall k, (1 <= k <= 2)%nat -> let W := 32 * Z.of_nat k in
     Forall (fun i => lanes_u 256 8 (avx_vshuf (table 256 k) (x86_vdup 256 8 k i)) <>
       vshuf (lanes_u 256 8 (table 256 k)) (lanes_u 256 8 (x86_vdup 256 8 k i))) [W; 111 + W]) /\
  lanes_u 256 32 (avx_vshuf32 (x86_vdup 256 32 1 1) (x86_vdup 256 32 1 8)) <>
    vshuf (lanes_u 256 32 (x86_vdup 256 32 1 1)) (lanes_u 256 32 (x86_vdup 256 32 1 8)).
Proof.
  split; [|split].
  - intros k Hk. assert (k = 1 \/ k = 2 \/ k = 3 \/ k = 4)%nat as [-> |[-> |[-> | ->]]] by lia;
      (repeat constructor); vm_compute; discriminate.
  - intros k Hk. assert (k = 1 \/ k = 2)%nat as [-> | ->] by lia; (repeat constructor); vm_compute; discriminate.
  - vm_compute. discriminate.
Qed.

(** a concrete rotation: the hypotheses hold and the shuffle moves lanes *)
Example C54_shuffle_case :
  let a := [pack 8 (map Z.of_nat (seq 100 16)); pack 8 (map Z.of_nat (seq 116 16))] in
  let b := [pack 8 (map Z.of_nat (seq 5 16)); pack 8 (map Z.of_nat (seq 21 11 ++ [0; 200; 1; 255; 2]%nat))] in
  Forall (supported_index 32) (lanes_u 128 8 b) /\
  lanes_u 128 8 (sse_vshuf a b) = map Z.of_nat (seq 105 27 ++ [100; 0; 101; 0; 102]%nat).
Proof.
  cbv zeta. split; [|vm_compute; reflexivity].
  match goal with |- Forall _ ?l => let l' := eval vm_compute in l in change l with l' end.
  unfold supported_index. repeat constructor; lia.
Qed.
