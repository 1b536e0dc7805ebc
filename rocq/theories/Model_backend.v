(** Model of the SIMD back ends sse4_1.hh, avx2.hh and neon.hh and of their multi-register versions
    (sse4_1_double/triple/quadruple.hh, avx2_double.hh, neon_double/triple/quadruple.hh) for the integer lane types.
    Definitions only.

    A value is the list of its registers [m[0]], [m[1]], ...: one in sse4_1.hh, avx2.hh and neon.hh, two, three or four
    in the other files, which are the same text with [for (int i = 0; i < K; ++i) tmp.m[i] = ...] around the
    expression (checked with diff; only [vshuf] differs).  The loop is [map] / [map2] / [map3] here.  [N] is 128 for SSE
    and 256 for AVX2, [w] the number of bits of a lane.  Line numbers are those of the 8 bit version; the other lane
    types follow it.  Floating point lanes are in Model_fsimd. *)
From Verif Require Import Cpp Model_simd Model_intrin.
Open Scope Z_scope.

(** the lanes [u[0]], [u[1]], ... and [v[0]], [v[1]], ... of the union *)
Definition lanes_u (N w : Z) (m : list Z) : list Z := concat (map (lanes w (count N w)) m).
Definition lanes_s (N w : Z) (m : list Z) : list Z := map (to_s w) (lanes_u N w m).

(** ** SSE4.1 ([N] = 128) and AVX2 ([N] = 256) *)
(** sse4_1.hh 233-263, avx2.hh 233-263; [K] registers *)
Definition x86_vdup (N w : Z) (K : nat) (a : Z) : list Z := repeat (mm_set1 N w a) K.
(** sse4_1.hh 281-311, avx2.hh 281-311 *)
Definition x86_vzero (K : nat) : list Z := repeat mm_setzero K.
(** sse4_1.hh 153-215, avx2.hh 153-215: the register is kept *)
Definition x86_vreinterpret (a : list Z) : list Z := a.
(** sse4_1.hh 329-359, avx2.hh 329-359 *)
Definition x86_vadd (N w : Z) (a b : list Z) : list Z := map2 (mm_add N w) a b.
(** sse4_1.hh 361-375, avx2.hh 361-375 *)
Definition x86_vqadd (N w : Z) (a b : list Z) : list Z := map2 (mm_adds N w) a b.
(** sse4_1.hh 393-423, avx2.hh 393-423 *)
Definition x86_vsub (N w : Z) (a b : list Z) : list Z := map2 (mm_sub N w) a b.
(** sse4_1.hh 425-439, avx2.hh 425-439 *)
Definition x86_vqsub (N w : Z) (a b : list Z) : list Z := map2 (mm_subs N w) a b.
(** sse4_1.hh 441-455, avx2.hh 441-455 *)
Definition x86_vqsub_u (N w : Z) (a b : list Z) : list Z := map2 (mm_subs_epu N w) a b.
(** sse4_1.hh 489-511, avx2.hh 489-511: [_mm_abs_epi8(_mm_max_epi8(a.m, _mm_set1_epi8(-INT8_MAX)))] *)
Definition x86_vqabs (N w : Z) (a : list Z) : list Z :=
  map (fun a => mm_abs N w (mm_max N w a (mm_set1 N w (- s_max w)))) a.
(** sse4_1.hh 533-555, avx2.hh 533-555: [_mm_sign_epi8(_mm_set1_epi8(1), a.m)] *)
Definition x86_vsignum (N w : Z) (a : list Z) : list Z := map (fun a => mm_sign N w (mm_set1 N w 1) a) a.
(** sse4_1.hh 577-599, avx2.hh 577-599 *)
Definition x86_vsign (N w : Z) (a b : list Z) : list Z := map2 (mm_sign N w) a b.
(** sse4_1.hh 621-651, 653-683, 685-715, 717-747 (operands swapped), 749-779; the same lines in avx2.hh *)
Definition x86_vorr (a b : list Z) : list Z := map2 mm_or a b.
Definition x86_vand (a b : list Z) : list Z := map2 mm_and a b.
Definition x86_veor (a b : list Z) : list Z := map2 mm_xor a b.
Definition x86_vbic (a b : list Z) : list Z := map2 (fun a b => mm_andnot b a) a b.
Definition x86_vbsl (a b c : list Z) : list Z := map3 (fun a b c => mm_or (mm_and a b) (mm_andnot a c)) a b c.
(** sse4_1.hh 797-827, 846-876, 894-924, 942-972, 990-1028; avx2.hh 797-827, 845-875, 893-923, 941-971, 989-1027.
    ([_mm_cmpgt_epi64] is an SSE4.2 intrinsic) *)
Definition x86_vceqz (N w : Z) (a : list Z) : list Z := map (fun a => mm_cmpeq N w a mm_setzero) a.
Definition x86_vceq (N w : Z) (a b : list Z) : list Z := map2 (mm_cmpeq N w) a b.
Definition x86_vcgtz (N w : Z) (a : list Z) : list Z := map (fun a => mm_cmpgt N w a mm_setzero) a.
Definition x86_vcltz (N w : Z) (a : list Z) : list Z := map (fun a => mm_cmpgt N w mm_setzero a) a.
Definition x86_vclez (N w : Z) (a : list Z) : list Z :=
  map (fun a => mm_or (mm_cmpeq N w a mm_setzero) (mm_cmpgt N w mm_setzero a)) a.
(** sse4_1.hh 1046-1068, 1086-1108, 1126-1148; avx2.hh 1045-1067, 1085-1107, 1125-1155 (64 bit [vclamp]: AVX-512) *)
Definition x86_vmin (N w : Z) (a b : list Z) : list Z := map2 (mm_min N w) a b.
Definition x86_vmax (N w : Z) (a b : list Z) : list Z := map2 (mm_max N w) a b.
Definition x86_vclamp (N w : Z) (x : list Z) (a b : Z) : list Z :=
  map (fun x => mm_min N w (mm_max N w x (mm_set1 N w a)) (mm_set1 N w b)) x.

(** sse4_1.hh 1150-1164 *)
Definition sse_vshuf1 (a b : Z) : Z := mm_shuffle_epi8 a b.
(** sse4_1_double.hh 1276-1295: the expression for one output register [b = b.m[i]] *)
Definition sse_vshuf2 (a0 a1 b : Z) : Z :=
  mm_or
    (mm_shuffle_epi8 a0 (mm_or b (mm_cmpgt 128 8 b (mm_set1 128 8 15))))
    (mm_shuffle_epi8 a1 (mm_sub 128 8 b (mm_set1 128 8 16))).
(** sse4_1_triple.hh 1276-1298 *)
Definition sse_vshuf3 (a0 a1 a2 b : Z) : Z :=
  mm_or (mm_or
    (mm_shuffle_epi8 a0 (mm_or b (mm_cmpgt 128 8 b (mm_set1 128 8 15))))
    (mm_shuffle_epi8 a1 (mm_or (mm_sub 128 8 b (mm_set1 128 8 16)) (mm_cmpgt 128 8 b (mm_set1 128 8 31)))))
    (mm_shuffle_epi8 a2 (mm_sub 128 8 b (mm_set1 128 8 32))).
(** sse4_1_quadruple.hh 1276-1300 *)
Definition sse_vshuf4 (a0 a1 a2 a3 b : Z) : Z :=
  mm_or (mm_or (mm_or
    (mm_shuffle_epi8 a0 (mm_or b (mm_cmpgt 128 8 b (mm_set1 128 8 15))))
    (mm_shuffle_epi8 a1 (mm_or (mm_sub 128 8 b (mm_set1 128 8 16)) (mm_cmpgt 128 8 b (mm_set1 128 8 31)))))
    (mm_shuffle_epi8 a2 (mm_or (mm_sub 128 8 b (mm_set1 128 8 32)) (mm_cmpgt 128 8 b (mm_set1 128 8 47)))))
    (mm_shuffle_epi8 a3 (mm_sub 128 8 b (mm_set1 128 8 48))).
(** the loop over the output registers *)
Definition sse_vshuf (a b : list Z) : list Z :=
  match a with
  | [a0] => map (sse_vshuf1 a0) b
  | [a0; a1] => map (sse_vshuf2 a0 a1) b
  | [a0; a1; a2] => map (sse_vshuf3 a0 a1 a2) b
  | [a0; a1; a2; a3] => map (sse_vshuf4 a0 a1 a2 a3) b
  | _ => []
  end.
(** avx2.hh 1157-1179 *)
Definition avx_vshuf1 (a b : Z) : Z :=
  let c := mm_sub 256 8 b (mm_set1 256 8 16) in
  let d := mm_or b (mm_cmpgt 256 8 b (mm_set1 256 8 15)) in
  let e := mm256_shuffle_epi8 (mm256_permute2x128 a a 0) d in
  let f := mm256_shuffle_epi8 (mm256_permute2x128 a a 17) c in
  mm_or e f.
(** avx2_double.hh 1284-1322 *)
Definition avx_vshuf2 (a0 a1 b : Z) : Z :=
  let c := mm_or b (mm_cmpgt 256 8 b (mm_set1 256 8 15)) in
  let d := mm_or (mm_sub 256 8 b (mm_set1 256 8 16)) (mm_cmpgt 256 8 b (mm_set1 256 8 31)) in
  let e := mm_or (mm_sub 256 8 b (mm_set1 256 8 32)) (mm_cmpgt 256 8 b (mm_set1 256 8 47)) in
  let f := mm_sub 256 8 b (mm_set1 256 8 48) in
  let g := mm_or
    (mm256_shuffle_epi8 (mm256_permute2x128 a0 a0 0) c)
    (mm256_shuffle_epi8 (mm256_permute2x128 a0 a0 17) d) in
  let h := mm_or
    (mm256_shuffle_epi8 (mm256_permute2x128 a1 a1 0) e)
    (mm256_shuffle_epi8 (mm256_permute2x128 a1 a1 17) f) in
  mm_or g h.
Definition avx_vshuf (a b : list Z) : list Z :=
  match a with
  | [a0] => map (avx_vshuf1 a0) b
  | [a0; a1] => map (avx_vshuf2 a0 a1) b
  | _ => []
  end.
(** avx2.hh 1181-1187 (uint32_t lanes; the float version 1189-1195 moves the same bits) *)
Definition avx_vshuf32_1 (a b : Z) : Z := mm256_permutevar8x32 a b.
(** avx2_double.hh 1324-1333 *)
Definition avx_vshuf32_2 (a0 a1 b : Z) : Z :=
  mm_or
    (mm_and (mm256_permutevar8x32 a0 b) (mm_cmpgt 256 32 (mm_set1 256 32 8) b))
    (mm_and (mm256_permutevar8x32 a1 (mm_sub 256 32 b (mm_set1 256 32 8))) (mm_cmpgt 256 32 b (mm_set1 256 32 7))).
Definition avx_vshuf32 (a b : list Z) : list Z :=
  match a with
  | [a0] => map (avx_vshuf32_1 a0) b
  | [a0; a1] => map (avx_vshuf32_2 a0 a1) b
  | _ => []
  end.

(** ** NEON *)
(** neon.hh 182-244 *)
Definition neon_vdup (w : Z) (K : nat) (a : Z) : list Z := repeat (vdupq_n w a) K.
(** neon.hh 246-316: [veorq_s8(tmp.m, tmp.m)] with [tmp] not initialised: [m] is whatever is there *)
Definition neon_vzero (m : list Z) : list Z := map (fun r => veorq r r) m.
(** neon.hh 326-332, 358-364, 382-388, 414-420, 430-436, 454-460 *)
Definition neon_vadd (w : Z) (a b : list Z) : list Z := map2 (vaddq w) a b.
Definition neon_vqadd (w : Z) (a b : list Z) : list Z := map2 (vqaddq_s w) a b.
Definition neon_vsub (w : Z) (a b : list Z) : list Z := map2 (vsubq w) a b.
Definition neon_vqsub (w : Z) (a b : list Z) : list Z := map2 (vqsubq_s w) a b.
Definition neon_vqsub_u (w : Z) (a b : list Z) : list Z := map2 (vqsubq_u w) a b.
Definition neon_vmul (w : Z) (a b : list Z) : list Z := map2 (vmulq w) a b.
(** neon.hh 470-476 *)
Definition neon_vqabs (w : Z) (a : list Z) : list Z := map (vqabsq_s w) a.
(** neon.hh 496-503: [vorrq_u8(vcgtq_s8(vdupq_n_s8(0), a.m), vandq_u8(vcgtq_s8(a.m, vdupq_n_s8(0)), vdupq_n_s8(1)))], 8 bit
    lanes only *)
Definition neon_vsignum (w : Z) (a : list Z) : list Z :=
  map (fun a => vorrq (vcgtq_s w (vdupq_n w 0) a) (vandq (vcgtq_s w a (vdupq_n w 0)) (vdupq_n w 1))) a.
(** neon.hh 515-523: [vorrq_u8(vandq_u8(vcgtq_s8(0, b.m), vnegq_s8(a.m)), vandq_u8(vcgtq_s8(b.m, 0), a.m))], 8 bit lanes only *)
Definition neon_vsign (w : Z) (a b : list Z) : list Z :=
  map2 (fun a b => vorrq (vandq (vcgtq_s w (vdupq_n w 0) b) (vnegq w a)) (vandq (vcgtq_s w b (vdupq_n w 0)) a)) a b.
(** neon.hh 535-541, 567-573, 599-605, 631-637, 663-669 *)
Definition neon_vorr (a b : list Z) : list Z := map2 vorrq a b.
Definition neon_vand (a b : list Z) : list Z := map2 vandq a b.
Definition neon_veor (a b : list Z) : list Z := map2 veorq a b.
Definition neon_vbic (a b : list Z) : list Z := map2 vbicq a b.
Definition neon_vbsl (a b c : list Z) : list Z := map3 vbslq a b c.
(** neon.hh 703-709, 735-741, 767-773, 799-805, 831-837 *)
Definition neon_vceqz (w : Z) (a : list Z) : list Z := map (fun a => vceqq_s w a (vdupq_n w 0)) a.
Definition neon_vceq (w : Z) (a b : list Z) : list Z := map2 (vceqq_s w) a b.
Definition neon_vcgtz (w : Z) (a : list Z) : list Z := map (fun a => vcgtq_s w a (vdupq_n w 0)) a.
Definition neon_vcltz (w : Z) (a : list Z) : list Z := map (fun a => vcltq_s w a (vdupq_n w 0)) a.
Definition neon_vclez (w : Z) (a : list Z) : list Z := map (fun a => vcleq_s w a (vdupq_n w 0)) a.
(** neon.hh 863-869, 895-901, 927-933 *)
Definition neon_vmin (w : Z) (a b : list Z) : list Z := map2 (vminq_s w) a b.
Definition neon_vmax (w : Z) (a b : list Z) : list Z := map2 (vmaxq_s w) a b.
Definition neon_vclamp (w : Z) (x : list Z) (a b : Z) : list Z :=
  map (fun x => vminq_s w (vmaxq_s w x (vdupq_n w a)) (vdupq_n w b)) x.
(** aarch64: neon.hh 951-979, neon_double.hh 1056-1073, neon_triple.hh 1056-1077, neon_quadruple.hh 1056-1079 *)
Definition neon_vshuf (a b : list Z) : list Z :=
  match a with
  | [a0] => map (fun b => vqtbl1q a0 b) b
  | [a0; a1] => map (fun b => vorrq (vqtbl1q a0 b) (vqtbl1q a1 (vsubq 8 b (vdupq_n 8 16)))) b
  | [a0; a1; a2] =>
      map (fun b => vorrq (vorrq (vqtbl1q a0 b)
        (vqtbl1q a1 (vsubq 8 b (vdupq_n 8 16))))
        (vqtbl1q a2 (vsubq 8 b (vdupq_n 8 32)))) b
  | [a0; a1; a2; a3] =>
      map (fun b => vorrq (vorrq (vorrq (vqtbl1q a0 b)
        (vqtbl1q a1 (vsubq 8 b (vdupq_n 8 16))))
        (vqtbl1q a2 (vsubq 8 b (vdupq_n 8 32))))
        (vqtbl1q a3 (vsubq 8 b (vdupq_n 8 48)))) b
  | _ => []
  end.
(** 32 bit ARM, one register only: neon.hh 957-960, 972-975 *)
Definition neon32_vshuf (a b : Z) : Z :=
  let d := vtbl2 (vget_low a) (vget_high a) (vget_low b) in
  let e := vtbl2 (vget_low a) (vget_high a) (vget_high b) in
  vcombine d e.
