(** Model of the vector registers of x86 (SSE4.1, AVX2) and ARM (NEON) and of the intrinsics the back ends use.
    Definitions only.

    A register of [N] bits is an integer [0 <= r < 2 ^ N]; lane [i] of [w] bits is the bits [w * i ..< w * (i + 1)], as
    on every little endian target (lane 0 is the least significant one, and it is [v[0]] of the union).  Each intrinsic
    is written after its documentation (Intel Intrinsics Guide; Arm Neon Intrinsics Reference), not after simd.hh.
    The same x86 intrinsic exists for 128 ([_mm_]) and 256 bits ([_mm256_]): [N] is a parameter. *)
From Verif Require Import Cpp Model_simd.
Open Scope Z_scope.

(** the [n] lanes of [w] bits of a register, as unsigned integers *)
Fixpoint lanes (w : Z) (n : nat) (r : Z) : list Z :=
  match n with
  | O => []
  | S n => r mod 2 ^ w :: lanes w n (r / 2 ^ w)
  end.
(** the register with these lanes *)
Fixpoint pack (w : Z) (l : list Z) : Z :=
  match l with
  | [] => 0
  | x :: l => x mod 2 ^ w + 2 ^ w * pack w l
  end.
(** number of lanes *)
Definition count (N w : Z) : nat := Z.to_nat (N / w).
Definition lanewise_1 (N w : Z) (f : Z -> Z) (a : Z) : Z := pack w (map f (lanes w (count N w) a)).
Definition lanewise_2 (N w : Z) (f : Z -> Z -> Z) (a b : Z) : Z :=
  pack w (map2 f (lanes w (count N w) a) (lanes w (count N w) b)).
Definition ones (w : Z) (b : bool) : Z := if b then 2 ^ w - 1 else 0.
(** signed saturation as the instruction sets define it *)
Definition SignedSat (w z : Z) : Z := if z <? s_min w then s_min w else if s_max w <? z then s_max w else z.
Definition UnsignedSat (w z : Z) : Z := if z <? 0 then 0 else if 2 ^ w - 1 <? z then 2 ^ w - 1 else z.

(** ** x86 *)
(** _mm_set1_epi8/16/32/64x, _mm256_set1_... *)
Definition mm_set1 (N w a : Z) : Z := pack w (repeat a (count N w)).
(** _mm_setzero_si128, _mm256_setzero_si256 *)
Definition mm_setzero : Z := 0.
(** _mm_add_epi8/16/32/64 *)
Definition mm_add (N w a b : Z) : Z := lanewise_2 N w (fun x y => x + y) a b.
(** _mm_sub_epi8/16/32/64 *)
Definition mm_sub (N w a b : Z) : Z := lanewise_2 N w (fun x y => x - y) a b.
(** _mm_adds_epi8/16 *)
Definition mm_adds (N w a b : Z) : Z := lanewise_2 N w (fun x y => SignedSat w (to_s w x + to_s w y)) a b.
(** _mm_subs_epi8/16 *)
Definition mm_subs (N w a b : Z) : Z := lanewise_2 N w (fun x y => SignedSat w (to_s w x - to_s w y)) a b.
(** _mm_subs_epu8/16 *)
Definition mm_subs_epu (N w a b : Z) : Z := lanewise_2 N w (fun x y => UnsignedSat w (x - y)) a b.
(** _mm_abs_epi8/16/32 *)
Definition mm_abs (N w a : Z) : Z := lanewise_1 N w (fun x => Z.abs (to_s w x)) a.
(** _mm_max_epi8/16/32, _mm_min_epi8/16/32 (and the AVX-512 _mm256_max_epi64, _mm256_min_epi64) *)
Definition mm_max (N w a b : Z) : Z := lanewise_2 N w (fun x y => if to_s w y <? to_s w x then x else y) a b.
Definition mm_min (N w a b : Z) : Z := lanewise_2 N w (fun x y => if to_s w x <? to_s w y then x else y) a b.
(** _mm_sign_epi8/16/32: negate, clear or keep [x] by the sign of [y] *)
Definition mm_sign (N w a b : Z) : Z :=
  lanewise_2 N w (fun x y => if to_s w y <? 0 then - x else if y =? 0 then 0 else x) a b.
(** _mm_cmpeq_epi8/16/32/64 *)
Definition mm_cmpeq (N w a b : Z) : Z := lanewise_2 N w (fun x y => ones w (x =? y)) a b.
(** _mm_cmpgt_epi8/16/32/64 *)
Definition mm_cmpgt (N w a b : Z) : Z := lanewise_2 N w (fun x y => ones w (to_s w y <? to_s w x)) a b.
(** _mm_and_si128, _mm_or_si128, _mm_xor_si128; _mm_andnot_si128 complements its first operand *)
Definition mm_and (a b : Z) : Z := Z.land a b.
Definition mm_or (a b : Z) : Z := Z.lor a b.
Definition mm_xor (a b : Z) : Z := Z.lxor a b.
Definition mm_andnot (a b : Z) : Z := Z.ldiff b a.
(** _mm_shuffle_epi8: bit 7 of the index clears the byte, otherwise its low four bits select *)
Definition mm_shuffle_epi8 (a b : Z) : Z :=
  pack 8 (map (fun i => if Z.testbit i 7 then 0 else nth (Z.to_nat (i mod 16)) (lanes 8 16 a) 0) (lanes 8 16 b)).
(** _mm256_shuffle_epi8: the same within each 128 bit half *)
Definition mm256_shuffle_epi8 (a b : Z) : Z := pack 128 (map2 mm_shuffle_epi8 (lanes 128 2 a) (lanes 128 2 b)).
(** _mm256_permute2x128_si256 *)
Definition select4 (a b c : Z) : Z :=
  if Z.testbit c 3 then 0 else nth (Z.to_nat (c mod 4)) (lanes 128 2 a ++ lanes 128 2 b) 0.
Definition mm256_permute2x128 (a b imm : Z) : Z := pack 128 [select4 a b (imm mod 16); select4 a b (imm / 16)].
(** _mm256_permutevar8x32_epi32 *)
Definition mm256_permutevar8x32 (a idx : Z) : Z :=
  pack 32 (map (fun i => nth (Z.to_nat (i mod 8)) (lanes 32 8 a) 0) (lanes 32 8 idx)).

(** ** NEON (128 bits) *)
(** vdupq_n_s8 ... vdupq_n_u64 *)
Definition vdupq_n (w a : Z) : Z := pack w (repeat a (count 128 w)).
(** vaddq_s8/16/32/64, vsubq_..., vnegq_s8, vmulq_s8 *)
Definition vaddq (w a b : Z) : Z := lanewise_2 128 w (fun x y => x + y) a b.
Definition vsubq (w a b : Z) : Z := lanewise_2 128 w (fun x y => x - y) a b.
Definition vnegq (w a : Z) : Z := lanewise_1 128 w (fun x => - x) a.
Definition vmulq (w a b : Z) : Z := lanewise_2 128 w (fun x y => x * y) a b.
(** vqaddq_s8/16, vqsubq_s8/16, vqsubq_u8/16, vqabsq_s8/16 *)
Definition vqaddq_s (w a b : Z) : Z := lanewise_2 128 w (fun x y => SignedSat w (to_s w x + to_s w y)) a b.
Definition vqsubq_s (w a b : Z) : Z := lanewise_2 128 w (fun x y => SignedSat w (to_s w x - to_s w y)) a b.
Definition vqsubq_u (w a b : Z) : Z := lanewise_2 128 w (fun x y => UnsignedSat w (x - y)) a b.
Definition vqabsq_s (w a : Z) : Z := lanewise_1 128 w (fun x => SignedSat w (Z.abs (to_s w x))) a.
(** vminq_s8/16/32, vmaxq_s8/16/32 *)
Definition vminq_s (w a b : Z) : Z := lanewise_2 128 w (fun x y => Z.min (to_s w x) (to_s w y)) a b.
Definition vmaxq_s (w a b : Z) : Z := lanewise_2 128 w (fun x y => Z.max (to_s w x) (to_s w y)) a b.
(** vceqq, vcgtq, vcltq, vcleq _s8/16/32 *)
Definition vceqq_s (w a b : Z) : Z := lanewise_2 128 w (fun x y => ones w (to_s w x =? to_s w y)) a b.
Definition vcgtq_s (w a b : Z) : Z := lanewise_2 128 w (fun x y => ones w (to_s w y <? to_s w x)) a b.
Definition vcltq_s (w a b : Z) : Z := lanewise_2 128 w (fun x y => ones w (to_s w x <? to_s w y)) a b.
Definition vcleq_s (w a b : Z) : Z := lanewise_2 128 w (fun x y => ones w (to_s w x <=? to_s w y)) a b.
(** vandq, vorrq, veorq, vbicq (complements its second operand), vbslq *)
Definition vandq (a b : Z) : Z := Z.land a b.
Definition vorrq (a b : Z) : Z := Z.lor a b.
Definition veorq (a b : Z) : Z := Z.lxor a b.
Definition vbicq (a b : Z) : Z := Z.ldiff a b.
Definition vbslq (a b c : Z) : Z := Z.lor (Z.land a b) (Z.ldiff c a).
(** vqtbl1q_u8 / _s8: an index of 16 or more gives 0 *)
Definition vqtbl1q (a b : Z) : Z :=
  pack 8 (map (fun i => if i <? 16 then nth (Z.to_nat i) (lanes 8 16 a) 0 else 0) (lanes 8 16 b)).
(** vget_low, vget_high, vcombine: 64 bit halves *)
Definition vget_low (a : Z) : Z := nth 0 (lanes 64 2 a) 0.
Definition vget_high (a : Z) : Z := nth 1 (lanes 64 2 a) 0.
Definition vcombine (a b : Z) : Z := pack 64 [a; b].
(** vtbl2_u8 / _s8: a table of two 64 bit registers; an index of 16 or more gives 0 *)
Definition vtbl2 (t0 t1 b : Z) : Z :=
  pack 8 (map (fun i => if i <? 16 then nth (Z.to_nat i) (lanes 8 8 t0 ++ lanes 8 8 t1) 0 else 0) (lanes 8 8 b)).
