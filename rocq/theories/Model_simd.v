(** Model of the portable lane-wise primitives of simd.hh for the integer value types.  Definitions only.

    A [SIMD<TYPE, WIDTH>] is the list of its [WIDTH] lanes; lanes are integers, [w] is the number of bits of the
    lane type (8 or 16).  Each primitive of simd.hh is [for (i = 0; i < WIDTH; ++i) tmp.v[i] = f(a.v[i], ...)]: the
    loop is written [map] / [map2] here.  Operands of type int8_t, int16_t, uint8_t and uint16_t are promoted to int
    (32 bits) before arithmetic, which cannot overflow for w <= 16; the 32 and 64 bit versions, where overflow is
    undefined, and the floating point versions are not modelled. *)
From Verif Require Import Cpp.
Open Scope Z_scope.

(** conversion to the signed type of [w] bits (two's complement) *)
Definition to_s (w z : Z) : Z := (z + 2 ^ (w - 1)) mod 2 ^ w - 2 ^ (w - 1).
(** conversion to the unsigned type of [w] bits *)
Definition to_u (w z : Z) : Z := z mod 2 ^ w.
(** INT8_MAX / INT16_MAX, INT8_MIN / INT16_MIN *)
Definition s_max (w : Z) : Z := 2 ^ (w - 1) - 1.
Definition s_min (w : Z) : Z := - 2 ^ (w - 1).
(** a comparison used as an int *)
Definition b2z (b : bool) : Z := if b then 1 else 0.

Definition map2 {A B C} (f : A -> B -> C) (a : list A) (b : list B) : list C :=
  map (fun p => f (fst p) (snd p)) (combine a b).
Definition map3 {A B C D} (f : A -> B -> C -> D) (a : list A) (b : list B) (c : list C) : list D :=
  map (fun p => f (fst (fst p)) (snd (fst p)) (snd p)) (combine (combine a b) c).

(** simd.hh 117-123 *)
Definition vdup (n : nat) (a : Z) : list Z := repeat a n.
(** simd.hh 126-132: [tmp.u[i] ^= tmp.u[i]] on an indeterminate lane; modelled as 0, which is what every SIMD back
    end (and every compiler) gives; strictly the read is of an indeterminate value *)
Definition vzero (n : nat) : list Z := repeat 0 n.
(** simd.hh 134-143 with 157-167 ([vmask]), 181-191 ([vunsigned]): the lane's bits read as unsigned *)
Definition vmask (w : Z) (a : list Z) : list Z := map (to_u w) a.
Definition vunsigned (w : Z) (a : list Z) : list Z := map (to_u w) a.
(** simd.hh 134-143 ([vreinterpret] to a signed type), 205-215 ([vsigned]): the lane's bits read as signed *)
Definition vreinterpret_s (w : Z) (a : list Z) : list Z := map (to_s w) a.
Definition vsigned (w : Z) (a : list Z) : list Z := map (to_s w) a.

(** simd.hh 248-263 *)
Definition vneg (w : Z) (a : list Z) : list Z := map (fun x => to_s w (- x)) a.
(** simd.hh 284-290 *)
Definition vabs (w : Z) (a : list Z) : list Z := map (fun x => to_s w (Z.abs x)) a.
(** simd.hh 293-308 *)
Definition vqabs (w : Z) (a : list Z) : list Z := map (fun x => to_s w (Z.abs (Z.max x (- s_max w)))) a.
(** simd.hh 329-344 *)
Definition vnot (w : Z) (a : list Z) : list Z := map (fun x => to_u w (Z.lnot x)) a.
(** simd.hh 365-380 *)
Definition vorr (w : Z) (a b : list Z) : list Z := map2 (fun x y => to_u w (Z.lor x y)) a b.
(** simd.hh 401-416 *)
Definition vand (w : Z) (a b : list Z) : list Z := map2 (fun x y => to_u w (Z.land x y)) a b.
(** simd.hh 437-452 *)
Definition veor (w : Z) (a b : list Z) : list Z := map2 (fun x y => to_u w (Z.lxor x y)) a b.
(** simd.hh 473-488 *)
Definition vbic (w : Z) (a b : list Z) : list Z := map2 (fun x y => to_u w (Z.land x (Z.lnot y))) a b.
(** simd.hh 509-524 *)
Definition vbsl (w : Z) (a b c : list Z) : list Z :=
  map3 (fun x y z => to_u w (Z.lor (Z.land x y) (Z.land (Z.lnot x) z))) a b c.
(** simd.hh 563-578 *)
Definition vcgtz (w : Z) (a : list Z) : list Z := map (fun x => to_u w (- b2z (0 <? x))) a.
(** simd.hh 617-632 *)
Definition vceqz (w : Z) (a : list Z) : list Z := map (fun x => to_u w (- b2z (x =? 0))) a.
(** simd.hh 671-686 *)
Definition vcltz (w : Z) (a : list Z) : list Z := map (fun x => to_u w (- b2z (x <? 0))) a.
(** simd.hh 725-740 *)
Definition vclez (w : Z) (a : list Z) : list Z := map (fun x => to_u w (- b2z (x <=? 0))) a.
(** simd.hh 779-794 (signed), 815-830 (unsigned) *)
Definition vcgt (w : Z) (a b : list Z) : list Z := map2 (fun x y => to_u w (- b2z (y <? x))) a b.
(** simd.hh 869-884 *)
Definition vceq (w : Z) (a b : list Z) : list Z := map2 (fun x y => to_u w (- b2z (x =? y))) a b.
(** simd.hh 923-938 *)
Definition vmin (a b : list Z) : list Z := map2 Z.min a b.
(** simd.hh 977-992 *)
Definition vmax (a b : list Z) : list Z := map2 Z.max a b.
(** simd.hh 1031-1046; [a], [b] are the bounds *)
Definition vclamp (x : list Z) (a b : Z) : list Z := map (fun x => Z.min (Z.max x a) b) x.
(** simd.hh 1085-1100 *)
Definition vadd (w : Z) (a b : list Z) : list Z := map2 (fun x y => to_s w (x + y)) a b.
(** simd.hh 1121-1136: the sum is taken in the type of twice the width *)
Definition vqadd (w : Z) (a b : list Z) : list Z :=
  map2 (fun x y => to_s w (Z.min (Z.max (to_s (2 * w) (x + y)) (s_min w)) (s_max w))) a b.
(** simd.hh 1157-1172 *)
Definition vsub (w : Z) (a b : list Z) : list Z := map2 (fun x y => to_s w (x - y)) a b.
(** simd.hh 1193-1208 *)
Definition vqsub (w : Z) (a b : list Z) : list Z :=
  map2 (fun x y => to_s w (Z.min (Z.max (to_s (2 * w) (x - y)) (s_min w)) (s_max w))) a b.
(** simd.hh 1211-1226 (unsigned lanes) *)
Definition vqsub_u (w : Z) (a b : list Z) : list Z := map2 (fun x y => to_u w (Z.max (to_s (2 * w) (x - y)) 0)) a b.
(** simd.hh 1247-1262 *)
Definition vmul (w : Z) (a b : list Z) : list Z := map2 (fun x y => to_s w (x * y)) a b.
(** simd.hh 1301-1316 *)
Definition vsignum (a : list Z) : list Z := map (fun x => b2z (0 <? x) - b2z (x <? 0)) a.
(** simd.hh 1355-1370 *)
Definition vsign (w : Z) (a b : list Z) : list Z := map2 (fun x y => to_s w ((b2z (0 <? y) - b2z (y <? 0)) * x)) a b.
(** simd.hh 1409-1424, 1445-1460: [b.v[i] < WIDTH ? a.v[b.v[i]] : 0]; the index lanes [b] are unsigned *)
Definition vshuf (a b : list Z) : list Z :=
  map (fun y => if y <? Z.of_nat (length a) then nth (Z.to_nat y) a 0 else 0) b.
