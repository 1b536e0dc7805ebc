(** Model of the arithmetic of the portable primitives of simd.hh for all four signed lane types, with C++'s
    undefined behaviour on overflow.  Definitions only.

    [int8_t] and [int16_t] operands are promoted to [int] (32 bits); [int32_t] and [int64_t] operands are computed in
    their own type.  So the operation is done in [max 32 w] bits: overflow there is undefined, and the result is then
    converted to the lane type (two's complement).  The definitions of Model_simd are these for the widths 8 and 16
    where nothing can overflow (C53_narrow_defined proves it). *)
From Verif Require Import Cpp Model_simd.
Open Scope Z_scope.

(** does [z] fit a signed integer of [w] bits *)
Definition fits (w z : Z) : bool := (s_min w <=? z) && (z <=? s_max w).
(** an int (or int64_t) expression with value [z], stored in a lane of [w] bits *)
Definition arith (w z : Z) : res Z := if fits (Z.max 32 w) z then Ok (to_s w z) else Undef.

(** the loops [for (int i = 0; i < WIDTH; ++i) tmp.v[i] = f(a.v[i])] when [f] can be undefined *)
Fixpoint map_res (f : Z -> res Z) (a : list Z) : res (list Z) :=
  match a with
  | [] => Ok []
  | x :: a => y <- f x ;; r <- map_res f a ;; Ok (y :: r)
  end.
Definition map2_res (f : Z -> Z -> res Z) (a b : list Z) : res (list Z) :=
  (fix go (a b : list Z) : res (list Z) :=
     match a, b with
     | x :: a, y :: b => z <- f x y ;; r <- go a b ;; Ok (z :: r)
     | _, _ => Ok []
     end) a b.

(** simd.hh 248-281 *)
Definition vneg_c (w : Z) (a : list Z) : res (list Z) := map_res (fun x => arith w (- x)) a.
(** simd.hh 284-290 *)
Definition vabs_c (w : Z) (a : list Z) : res (list Z) := map_res (fun x => arith w (Z.abs x)) a.
(** simd.hh 293-326 *)
Definition vqabs_c (w : Z) (a : list Z) : res (list Z) :=
  map_res (fun x => arith w (Z.abs (Z.max x (- s_max w)))) a.
(** simd.hh 1085-1118 *)
Definition vadd_c (w : Z) (a b : list Z) : res (list Z) := map2_res (fun x y => arith w (x + y)) a b.
(** simd.hh 1157-1190 *)
Definition vsub_c (w : Z) (a b : list Z) : res (list Z) := map2_res (fun x y => arith w (x - y)) a b.
(** simd.hh 1247-1280 *)
Definition vmul_c (w : Z) (a b : list Z) : res (list Z) := map2_res (fun x y => arith w (x * y)) a b.
(** simd.hh 1301-1334 *)
Definition vsignum_c (w : Z) (a : list Z) : res (list Z) := map_res (fun x => arith w (b2z (0 <? x) - b2z (x <? 0))) a.
(** simd.hh 1355-1388 *)
Definition vsign_c (w : Z) (a b : list Z) : res (list Z) :=
  map2_res (fun x y => arith w ((b2z (0 <? y) - b2z (y <? 0)) * x)) a b.
