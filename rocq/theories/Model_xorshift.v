(** Model of xorshift.hh.  Definitions only. Every [uint32_t]/[uint64_t] store is wrapped. *)
From Verif Require Import Cpp.
Local Open Scope N_scope.

Definition shl (w x k : N) : N := wrap w (N.shiftl x k).
Definition shr (x k : N) : N := N.shiftr x k.

(** xorshift.hh:13 and 26: default seed of Xorshift32 *)
Definition xs32_Y : N := 2463534242.
(** xorshift.hh:31-37 Xorshift32::operator(): new state, which is also the result. *)
Definition xs32 (y : N) : N :=
  let y := N.lxor y (shl 32 y 13) in
  let y := N.lxor y (shr y 17) in
  let y := N.lxor y (shl 32 y 5) in
  y.

(** xorshift.hh:42 *)
Definition xs64_X : N := 88172645463325252.
(** xorshift.hh:59-65 Xorshift64::operator() *)
Definition xs64 (x : N) : N :=
  let x := N.lxor x (shl 64 x 13) in
  let x := N.lxor x (shr x 7) in
  let x := N.lxor x (shl 64 x 17) in
  x.

(** xorshift.hh:76 the members of Xorwow *)
Record xorwow := { ww_x : N; ww_y : N; ww_z : N; ww_w : N; ww_v : N; ww_d : N }.
(** xorshift.hh:70-75, 87-90 default seed *)
Definition xorwow_seed : xorwow :=
  {| ww_x := 123456789; ww_y := 362436069; ww_z := 521288629; ww_w := 88675123;
     ww_v := 5783321; ww_d := 6615241 |}.
(** xorshift.hh:103-110 Xorwow::operator(): new state and result *)
Definition xorwow_next (s : xorwow) : xorwow * N :=
  let t := N.lxor (ww_x s) (shr (ww_x s) 2) in
  let v := N.lxor (N.lxor (ww_v s) (shl 32 (ww_v s) 4)) (N.lxor t (shl 32 t 1)) in
  let d := wrap 32 (ww_d s + 362437) in
  ({| ww_x := ww_y s; ww_y := ww_z s; ww_z := ww_w s; ww_w := ww_v s; ww_v := v; ww_d := d |},
   wrap 32 (d + v)).

(** xorshift.hh:119 the members of Xorshift128 *)
Record xs128 := { x1_x : N; x1_y : N; x1_z : N; x1_w : N }.
(** xorshift.hh:115-118 default seed *)
Definition xs128_seed : xs128 :=
  {| x1_x := 123456789; x1_y := 362436069; x1_z := 521288629; x1_w := 88675123 |}.
(** xorshift.hh:141-147 Xorshift128::operator(): new state and result *)
Definition xs128_next (s : xs128) : xs128 * N :=
  let t := N.lxor (x1_x s) (shl 32 (x1_x s) 11) in
  let w := N.lxor (N.lxor (x1_w s) (shr (x1_w s) 19)) (N.lxor t (shr t 8)) in
  ({| x1_x := x1_y s; x1_y := x1_z s; x1_z := x1_w s; x1_w := w |}, w).

(** xorshift.hh:17-24, 46-53, 79-86, 122-129: min() and max(); [w] is the width of result_type *)
Definition xs_min : N := 0.
Definition xs_max (w : N) : N := 2 ^ w - 1.
(** xorshift.hh:25-29, 54-58: constructor and reset of Xorshift32 and Xorshift64; without an argument the default seed *)
Definition xs32_new (seed : option N) : N := match seed with Some y => wrap 32 y | None => xs32_Y end.
Definition xs32_reset (y_ : N) (seed : option N) : N := xs32_new seed.
Definition xs64_new (seed : option N) : N := match seed with Some x => wrap 64 x | None => xs64_X end.
Definition xs64_reset (x_ : N) (seed : option N) : N := xs64_new seed.
(** one call of operator(): new state and result *)
Definition xs32_next (y : N) : N * N := (xs32 y, xs32 y).
Definition xs64_next (x : N) : N * N := (xs64 x, xs64 x).
(** xorshift.hh:87-101, 130-140: constructors and reset of Xorwow and Xorshift128.  Arguments can be left out from the
    right, and then have their default values; [args] are the given ones *)
Definition arg (args : list N) (i : nat) (default : N) : N := wrap 32 (nth i args default).
Definition xorwow_new (args : list N) : xorwow :=
  {| ww_x := arg args 0 (ww_x xorwow_seed); ww_y := arg args 1 (ww_y xorwow_seed); ww_z := arg args 2 (ww_z xorwow_seed);
     ww_w := arg args 3 (ww_w xorwow_seed); ww_v := arg args 4 (ww_v xorwow_seed); ww_d := arg args 5 (ww_d xorwow_seed) |}.
Definition xorwow_reset (s : xorwow) (args : list N) : xorwow := xorwow_new args.
Definition xs128_new (args : list N) : xs128 :=
  {| x1_x := arg args 0 (x1_x xs128_seed); x1_y := arg args 1 (x1_y xs128_seed); x1_z := arg args 2 (x1_z xs128_seed);
     x1_w := arg args 3 (x1_w xs128_seed) |}.
Definition xs128_reset (s : xs128) (args : list N) : xs128 := xs128_new args.
