(** Model of interleave.hh, exclusive_reduce.hh, permute.hh and rotate.hh.  Definitions only.
    Template parameters are ordinary arguments; pointers are lists, input and output buffers do not
    overlap (the callers in /repo never alias them).  [int] indices are [nat]. *)
From Verif Require Import Cpp Model_xorshift.

(** interleave.hh:11-19 Interleave.  [out] is the destination's previous content. *)
Definition interleave {A} (SIZE ORDER : nat) (out inp : list A) : res (list A) :=
  let LENGTH := SIZE / ORDER in
  for_up 0 LENGTH (fun i out =>
    for_up 0 ORDER (fun j out =>
      x <- rd inp (i + j * LENGTH) ;; wr out (ORDER * i + j) x) out) out.

(** interleave.hh:21-29 Deinterleave *)
Definition deinterleave {A} (SIZE ORDER : nat) (out inp : list A) : res (list A) :=
  let LENGTH := SIZE / ORDER in
  for_up 0 LENGTH (fun i out =>
    for_up 0 ORDER (fun j out =>
      x <- rd inp (ORDER * i + j) ;; wr out (i + j * LENGTH) x) out) out.

(** exclusive_reduce.hh:11-27 exclusive_reduce *)
Definition exclusive_reduce {A} (inp out : list A) (N : nat) (op : A -> A -> A) : res (list A) :=
  pre <- rd inp 0 ;;
  '(pre, out) <- for_up 1 (N - 1) (fun i '(pre, out) =>
      out <- wr out i pre ;;
      x <- rd inp i ;;
      Ok (op pre x, out)) (pre, out) ;;
  out <- wr out (N - 1) pre ;;
  suf <- rd inp (N - 1) ;;
  '(suf, out) <- for_down (N - 1) 1 (fun i '(suf, out) =>
      o <- rd out i ;;
      out <- wr out i (op o suf) ;;
      x <- rd inp i ;;
      Ok (op suf x, out)) (suf, out) ;;
  wr out 0 suf.

(** std::swap(array[i], array[j]) *)
Definition swap {A} (a : list A) (i j : nat) : res (list A) :=
  x <- rd a i ;;
  y <- rd a j ;;
  a <- wr a i y ;;
  wr a j x.

(** permute.hh:21 and 34: i + prng() % (SIZE - i), and the generator's next state *)
Definition fy_pick (SIZE i : nat) (y : N) : N * nat :=
  let y := xs32 y in
  (y, i + N.to_nat (y mod N.of_nat (SIZE - i)))%nat.

(** permute.hh:16-22 FisherYatesShuffle::operator() *)
Definition fisher_yates {A} (SIZE : nat) (array : list A) : res (list A) :=
  '(_, array) <- for_up 0 (SIZE - 1) (fun i '(y, array) =>
      let '(y, k) := fy_pick SIZE i y in
      array <- swap array i k ;;
      Ok (y, array)) (xs32_Y, array) ;;
  Ok array.

(** permute.hh:28, 30-35 ReverseFisherYatesShuffle: the member [seq] filled by the constructor *)
Definition rfy_ctor (SIZE : nat) : res (list (option nat)) :=
  '(_, sq) <- for_up 0 (SIZE - 1) (fun i '(y, sq) =>
      let '(y, k) := fy_pick SIZE i y in
      sq <- wru sq i k ;;
      Ok (y, sq)) (xs32_Y, uninit nat (SIZE - 1)) ;;
  Ok sq.

(** permute.hh:36-41 ReverseFisherYatesShuffle::operator() *)
Definition rfy_apply {A} (SIZE : nat) (sq : list (option nat)) (array : list A) : res (list A) :=
  for_down (SIZE - 1) 0 (fun i array =>
    k <- rdu sq i ;;
    swap array i k) array.

Definition reverse_fisher_yates {A} (SIZE : nat) (array : list A) : res (list A) :=
  sq <- rfy_ctor SIZE ;;
  rfy_apply SIZE sq array.

(** permute.hh:51-56 the update of the bit-reversed counter [j] in one round of BitReversalPermute.
    The [while] gets one round of fuel per bit of SIZE, plus one. *)
Definition brp_next (SIZE j : N) : res N :=
  '(j, k) <- while_ (S (N.size_nat SIZE))
    (fun '(j, k) => Ok (negb (N.land j k =? 0)%N))
    (fun '(j, k) => Ok (N.lxor j k, N.shiftr k 1))
    (j, N.shiftr SIZE 1) ;;
  Ok (N.lxor j k).

(** permute.hh:44-58 BitReversalPermute *)
Definition bit_reversal_permute {A} (SIZE : nat) (array : list A) : res (list A) :=
  '(_, array) <- for_up 0 (SIZE - 1) (fun i '(j, array) =>
      array <- (if (N.of_nat i <? j)%N then swap array i (N.to_nat j) else Ok array) ;;
      j <- brp_next (N.of_nat SIZE) j ;;
      Ok (j, array)) (0%N, array) ;;
  Ok array.

(** ** rotate.hh *)

(** rotate.hh:21-22, 52-53, 102-103, 132-133: if (s < 0) s += WIDTH; the value is then used as index *)
Definition rot_shift (WIDTH : nat) (s : Z) : Z := if (s <? 0)%Z then (s + Z.of_nat WIDTH)%Z else s.

(** rotate.hh:19-30 Rotate::operator(), portable version; SIZE = TYPE::SIZE lanes,
    lanes of [ret] that are not assigned stay indeterminate *)
Definition rotate_generic {A} (SIZE WIDTH : nat) (a : list A) (s : Z) : res (list (option A)) :=
  let s := rot_shift WIDTH s in
  require (0 <=? s)%Z ;;;
  require (s <=? Z.of_nat WIDTH)%Z ;;;
  let s := Z.to_nat s in
  let t := (WIDTH - s)%nat in
  ret <- for_up 0 s (fun n ret => x <- rd a (n + t) ;; wru ret n x) (uninit A SIZE) ;;
  for_up 0 t (fun n ret => x <- rd a n ;; wru ret (n + s) x) ret.

(** rotate.hh:42-49 and 122-129: the constructor of the 16 lane table versions (NEON, SSE).
    Table entries are the unsigned bytes of the int8_t lanes (0x80 is the lane value -128). *)
Definition rot16_ctor (WIDTH : nat) : res (list (option (list N))) :=
  for_up 0 WIDTH (fun i rot =>
    v <- for_up 0 WIDTH (fun j v => wr v j (N.of_nat ((j + WIDTH - i) mod WIDTH))) (repeat 128%N 16) ;;
    wru rot i v) (uninit (list N) WIDTH).

(** vqtbl1q_s8 / vtbl2_s8 on all 16 lanes (ARM: an index beyond the table gives 0) *)
Definition tbl_neon (a : list N) (idx : list N) : list N :=
  map (fun k => if (k <? 16)%N then nth (N.to_nat k) a 0%N else 0%N) idx.
(** _mm_shuffle_epi8 (Intel: index bit 7 gives 0, otherwise the low 4 bits select) *)
Definition shuffle_epi8 (a : list N) (idx : list N) : list N :=
  map (fun k => if N.testbit k 7 then 0%N else nth (N.to_nat (k mod 16)) a 0%N) idx.

Definition rot_table {A} (tab : list (option A)) (s : Z) : res A :=
  if (s <? 0)%Z then Undef else rdu tab (Z.to_nat s).

(** rotate.hh:50-64 Rotate<SIMD<int8_t,16>,WIDTH>::operator(), NEON *)
Definition rotate_neon (WIDTH : nat) (a : list N) (s : Z) : res (list N) :=
  rot <- rot16_ctor WIDTH ;;
  idx <- rot_table rot (rot_shift WIDTH s) ;;
  Ok (tbl_neon a idx).

(** rotate.hh:130-137 the same with SSE4.1 *)
Definition rotate_sse (WIDTH : nat) (a : list N) (s : Z) : res (list N) :=
  rot <- rot16_ctor WIDTH ;;
  idx <- rot_table rot (rot_shift WIDTH s) ;;
  Ok (shuffle_epi8 a idx).

(** rotate.hh:77-99 the constructor of the 32 lane AVX2 version *)
Definition rot32_ctor (WIDTH : nat) : res (list (option (list N)) * list (option (list N))) :=
  for_up 0 WIDTH (fun i '(rot0, rot1) =>
    '(v0, v1) <- for_up 0 WIDTH (fun j '(v0, v1) =>
        let pos := ((j + WIDTH - i) mod WIDTH)%nat in
        if (j <? 16)%nat then
          if (pos <? 16)%nat then v0 <- wr v0 j (N.of_nat pos) ;; Ok (v0, v1)
          else v1 <- wr v1 (j + 16) (N.of_nat (pos - 16)) ;; Ok (v0, v1)
        else
          if (pos <? 16)%nat then v1 <- wr v1 (j - 16) (N.of_nat pos) ;; Ok (v0, v1)
          else v0 <- wr v0 j (N.of_nat (pos - 16)) ;; Ok (v0, v1))
      (repeat 128%N 32, repeat 128%N 32) ;;
    rot0 <- wru rot0 i v0 ;;
    rot1 <- wru rot1 i v1 ;;
    Ok (rot0, rot1)) (uninit (list N) WIDTH, uninit (list N) WIDTH).

(** _mm256_shuffle_epi8: shuffle_epi8 on each 128 bit half *)
Definition shuffle256_epi8 (a idx : list N) : list N :=
  shuffle_epi8 (firstn 16 a) (firstn 16 idx) ++ shuffle_epi8 (skipn 16 a) (skipn 16 idx).
(** _mm256_permute2x128_si256(c, c, 1): swap the halves *)
Definition swap_halves (c : list N) : list N := skipn 16 c ++ firstn 16 c.
(** _mm256_or_si256 *)
Definition or_lanes (a b : list N) : list N := map (fun '(x, y) => N.lor x y) (combine a b).

(** rotate.hh:100-110 Rotate<SIMD<int8_t,32>,WIDTH>::operator(), AVX2 *)
Definition rotate_avx2 (WIDTH : nat) (a : list N) (s : Z) : res (list N) :=
  '(rot0, rot1) <- rot32_ctor WIDTH ;;
  i0 <- rot_table rot0 (rot_shift WIDTH s) ;;
  i1 <- rot_table rot1 (rot_shift WIDTH s) ;;
  let b := shuffle256_epi8 a i0 in
  let c := shuffle256_epi8 a i1 in
  let d := swap_halves c in
  Ok (or_lanes b d).
