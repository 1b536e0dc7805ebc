(** Model of polar_list_decoder.hh and polar_parity_aided.hh with floating point lanes on the SIMD back ends: TYPE is SIMD<float, W> or
    SIMD<double, W> of sse4_1.hh, avx2.hh, neon.hh and their multi-register versions.  Definitions only.
    The text is that of Model_polar_listf.v (generic simd.hh), with the vector type and its functions as parameters: a vector is a value of
    the type [V], the union's member [.v[k]] is [lo_lanes], and a local vector filled lane by lane is [lo_make] of its lanes.  A MAP
    is the list of its lanes.  metric and fork are arrays of PATH, scalar floating point numbers.  The simplifications are those of
    Model_polar_listf.v, whose functions that use no vector (fork, sort, parity, rank) are reused. *)
From Coq Require Import Floats.SpecFloat.
From Verif Require Import Cpp Model_simd Model_sort Model_intrin Model_backend Model_polar Model_polar_list Model_polar_float Model_fsimd Model_polar_listf Spec_ieee.
Local Open Scope nat_scope.

(** what the decoders call: polar_helper.hh on vectors, vdup<TYPE>, the lanes [.v[k]], a vector with these lanes, vshuf on TYPE and on MAP *)
Record list_ops (V : Type) := mk_lops {
  lo_polar : polar_ops V; lo_dup : spec_float -> V; lo_lanes : V -> list spec_float; lo_make : list spec_float -> V;
  lo_shuf : V -> list Z -> V; lo_mshuf : list Z -> list Z -> list Z }.
Arguments lo_polar {V}. Arguments lo_dup {V}. Arguments lo_lanes {V}. Arguments lo_make {V}. Arguments lo_shuf {V}. Arguments lo_mshuf {V}.

(** [list_statef] of Model_polar_listf.v *)
Record list_stateg (V : Type) := mk_lsg {
  lg_metric : list spec_float; lg_msg : list V; lg_maps : list (list Z); lg_count : nat;
  lg_hard : list V; lg_soft : list V; lg_parity : V; lg_left : nat }.
Arguments mk_lsg {V}. Arguments lg_metric {V}. Arguments lg_msg {V}. Arguments lg_maps {V}. Arguments lg_count {V}. Arguments lg_hard {V}. Arguments lg_soft {V}. Arguments lg_parity {V}. Arguments lg_left {V}.

Section Width.
Variables (prec emax ub : Z) (W : nat).
Context {V : Type} (Q : list_ops V).
Notation P := (lo_polar Q).
Notation fzero := (fzero prec emax).

(** polar_list_decoder.hh:21-33, 42-52 = polar_parity_aided.hh:69-81, 90-100: rate0(metric, hard + hoff, soft) *)
Definition list_rate0g (M hoff : nat) (s : list_stateg V) : res (list Z * list_stateg V) :=
  let N := 2 ^ M in
  hard <- for_up 0 N (fun i hard => wr hard (hoff + i) (p_one P)) (lg_hard s) ;;
  metric <- for_up 0 N (fun i metric =>
    for_up 0 W (fun k metric =>
      v <- rd (lg_soft s) (i + N) ;;
      x <- rd (lo_lanes Q v) k ;;
      if SFltb x fzero then (m <- rd metric k ;; wr metric k (SFsub prec emax m x)) else Ok metric) metric) (lg_metric s) ;;
  map <- iota_mapf ub W ;;
  Ok (map, mk_lsg metric (lg_msg s) (lg_maps s) (lg_count s) hard (lg_soft s) (lg_parity s) (lg_left s)).

(** polar_list_decoder.hh:64-73 = polar_parity_aided.hh:121-130: sort, keep the best half; gives metric, map and hrd *)
Definition list_selectg (metric fork : list spec_float) : res (list spec_float * list Z * V) :=
  '(perm, fork) <- insertion_sort_index SFltb (2 * W) (uninit nat (2 * W)) fork ;;
  metric <- for_up 0 W (fun k metric => x <- rd fork k ;; wr metric k x) metric ;;
  map <- fill_lanesf W (fun k => p <- rdu perm k ;; Ok (to_u ub (Z.shiftr (Z.of_nat p) 1))) ;;
  hrd <- fill_lanesf W (fun k => p <- rdu perm k ;; Ok (of_int prec emax (1 - 2 * Z.land (Z.of_nat p) 1)%Z)) ;;
  Ok (metric, map, lo_make Q hrd).
(** polar_list_decoder.hh:53-79 PolarListNode<TYPE, 0>::rate1(metric, message, maps, count, hard + hoff, soft) *)
Definition list_rate1g (hoff : nat) (s : list_stateg V) : res (list Z * list_stateg V) :=
  sft <- rd (lg_soft s) 1 ;;
  fork <- list_forkf prec emax W (lg_metric s) (lo_lanes Q sft) ;;
  '(metric, map, hrd) <- list_selectg (lg_metric s) fork ;;
  msg <- wr (lg_msg s) (lg_count s) hrd ;;
  maps <- wr (lg_maps s) (lg_count s) map ;;
  hard <- wr (lg_hard s) hoff hrd ;;
  Ok (map, mk_lsg metric msg maps (lg_count s + 1) hard (lg_soft s) (lg_parity s) (lg_left s)).
(** polar_parity_aided.hh:101-144 PolarParityNode<TYPE, 0>::rate1 *)
Definition parity_rate1g (stride hoff : nat) (s : list_stateg V) : res (list Z * list_stateg V) :=
  sft <- rd (lg_soft s) 1 ;;
  fork <- list_forkf prec emax W (lg_metric s) (lo_lanes Q sft) ;;
  '(parity, fork) <- (if lg_left s =? 0 then (fork <- parity_killf prec emax W (lo_lanes Q (lg_parity s)) fork ;; Ok (p_one P, fork)) else Ok (lg_parity s, fork)) ;;
  '(metric, map, hrd) <- list_selectg (lg_metric s) fork ;;
  if negb (lg_left s =? 0) then
    msg <- wr (lg_msg s) (lg_count s) hrd ;;
    maps <- wr (lg_maps s) (lg_count s) map ;;
    hard <- wr (lg_hard s) hoff hrd ;;
    Ok (map, mk_lsg metric msg maps (lg_count s + 1) hard (lg_soft s) (p_mul P (lo_shuf Q parity map) hrd) (lg_left s - 1))
  else
    let last := (Z.of_nat (lg_count s) - 1)%Z in
    m <- rdZ (lg_msg s) last ;;
    msg <- wrZ (lg_msg s) last (lo_shuf Q m map) ;;
    p <- rdZ (lg_maps s) last ;;
    maps <- wrZ (lg_maps s) last (lo_mshuf Q p map) ;;
    hard <- wr (lg_hard s) hoff hrd ;;
    Ok (map, mk_lsg metric msg maps (lg_count s) hard (lg_soft s) parity stride).

(** polar_list_decoder.hh:91-92 = 113-114 = ... = 256 (and polar_parity_aided.hh): left half *)
Definition list_leftg (N : nat) (s : list_stateg V) : res (list_stateg V) :=
  soft <- for_up 0 (N / 2) (fun i soft =>
    a <- rd soft (i + N) ;;
    b <- rd soft (i + N / 2 + N) ;;
    wr soft (i + N / 2) (p_prod P a b)) (lg_soft s) ;;
  Ok (mk_lsg (lg_metric s) (lg_msg s) (lg_maps s) (lg_count s) (lg_hard s) soft (lg_parity s) (lg_left s)).
(** polar_list_decoder.hh:94-95 = 120-121 = ... = 262: right half, the soft values following the paths *)
Definition list_rightg (N hoff : nat) (lmap : list Z) (s : list_stateg V) : res (list_stateg V) :=
  soft <- for_up 0 (N / 2) (fun i soft =>
    h <- rd (lg_hard s) (hoff + i) ;;
    a <- rd soft (i + N) ;;
    b <- rd soft (i + N / 2 + N) ;;
    wr soft (i + N / 2) (p_madd P h (lo_shuf Q a lmap) (lo_shuf Q b lmap))) (lg_soft s) ;;
  Ok (mk_lsg (lg_metric s) (lg_msg s) (lg_maps s) (lg_count s) (lg_hard s) soft (lg_parity s) (lg_left s)).
(** polar_list_decoder.hh:97-99 = 126-128 = ... = 267-268: combine the halves *)
Definition list_joing (N hoff : nat) (lmap rmap : list Z) (s : list_stateg V) : res (list Z * list_stateg V) :=
  hard <- for_up 0 (N / 2) (fun i hard =>
    a <- rd hard (hoff + i) ;;
    b <- rd hard (hoff + (i + N / 2)) ;;
    wr hard (hoff + i) (p_mul P (lo_shuf Q a rmap) b)) (lg_hard s) ;;
  Ok (lo_mshuf Q lmap rmap, mk_lsg (lg_metric s) (lg_msg s) (lg_maps s) (lg_count s) hard (lg_soft s) (lg_parity s) (lg_left s)).

Section Tree.
(** rate1 of a single position *)
Variable rate1 : nat -> list_stateg V -> res (list Z * list_stateg V).

(** polar_list_decoder.hh:132-270 PolarListTree<TYPE, M>::decode for M = 5, 4, 3, 2 (the same text four times) and 1 =
    polar_parity_aided.hh:197-335; here [frozen] is a value.  [mask] is ((1<<(1<<(M-1)))-1). *)
Fixpoint list_tree_smallg (M hoff : nat) (frozen : N) (s : list_stateg V) {struct M} : res (list Z * list_stateg V) :=
  match M with
  | O => Undef
  | S m =>
      let N := 2 ^ M in
      match m with
      | O =>
          s <- list_leftg 2 s ;;
          '(lmap, s) <- (if (N.land frozen 1 =? 0)%N then rate1 hoff s else list_rate0g 0 hoff s) ;;
          s <- list_rightg 2 hoff lmap s ;;
          '(rmap, s) <- (if (N.shiftr frozen 1 =? 0)%N then rate1 (hoff + 1) s else list_rate0g 0 (hoff + 1) s) ;;
          list_joing 2 hoff lmap rmap s
      | S _ =>
          let mask := (N.shiftl 1 (N.of_nat (2 ^ m)) - 1)%N in
          s <- list_leftg N s ;;
          let lo := N.land frozen mask in
          '(lmap, s) <- (if (lo =? mask)%N then list_rate0g m hoff s else list_tree_smallg m hoff lo s) ;;
          s <- list_rightg N hoff lmap s ;;
          let hi := N.shiftr frozen (N.of_nat (N / 2)) in
          '(rmap, s) <- (if (hi =? mask)%N then list_rate0g m (hoff + N / 2) s else list_tree_smallg m (hoff + N / 2) hi s) ;;
          list_joing N hoff lmap rmap s
      end
  end.
(** polar_list_decoder.hh:103-130 PolarListTree<TYPE, 6>::decode = polar_parity_aided.hh:168-195; [frozen + fo] is the pointer *)
Definition list_tree6g (hoff : nat) (frozen : list N) (fo : nat) (s : list_stateg V) : res (list Z * list_stateg V) :=
  let N := 64 in
  s <- list_leftg N s ;;
  f0 <- rd frozen (fo + 0) ;;
  '(lmap, s) <- (if (f0 =? 4294967295)%N then list_rate0g 5 hoff s else list_tree_smallg 5 hoff f0 s) ;;
  s <- list_rightg N hoff lmap s ;;
  f1 <- rd frozen (fo + 1) ;;
  '(rmap, s) <- (if (f1 =? 4294967295)%N then list_rate0g 5 (hoff + N / 2) s else list_tree_smallg 5 (hoff + N / 2) f1 s) ;;
  list_joing N hoff lmap rmap s.
(** polar_list_decoder.hh:82-101 PolarListTree<TYPE, M>::decode for M = d + 6 > 6 = polar_parity_aided.hh:147-166 *)
Fixpoint list_treeg (d hoff : nat) (frozen : list N) (fo : nat) (s : list_stateg V) {struct d} : res (list Z * list_stateg V) :=
  match d with
  | O => list_tree6g hoff frozen fo s
  | S d' =>
      let N := 2 ^ (d + 6) in
      s <- list_leftg N s ;;
      '(lmap, s) <- list_treeg d' hoff frozen fo s ;;
      s <- list_rightg N hoff lmap s ;;
      '(rmap, s) <- list_treeg d' (hoff + N / 2) frozen (fo + N / 2 / 32) s ;;
      list_joing N hoff lmap rmap s
  end.

(** polar_list_decoder.hh:318-322 = polar_parity_aided.hh:385-389: the decisions put into the final order of the lanes *)
Definition list_unrollg (message : list V) (maps : list (list Z)) (count : nat) : res (list V) :=
  acc <- rdZ maps (Z.of_nat count - 1) ;;
  '(_, message) <- for_down (count - 1) 0 (fun i '(acc, message) =>
    m <- rd message i ;;
    message <- wr message i (lo_shuf Q m acc) ;;
    p <- rd maps i ;;
    Ok (lo_mshuf Q p acc, message)) (acc, message) ;;
  Ok message.
(** polar_list_decoder.hh:285-323 PolarListDecoder<TYPE, MAX_M>::operator() = polar_parity_aided.hh:350-390; gives the members
    soft, hard and maps, and the caller's rank and message arrays *)
Definition list_decode_withg (MAX_M first : nat) (soft hard : list V) (maps : list (list Z)) (rank : option (list Z))
    (message : list V) (codeword : list spec_float) (frozen : list N) (level : nat)
  : res (list V * list V * list (list Z) * option (list Z) * list V) :=
  assert_ (level <=? MAX_M) ;;;
  metric <- wr (repeat fzero W) 0 fzero ;;
  metric <- for_up 1 W (fun k metric => wr metric k (million prec emax)) metric ;;
  require (level <=? 30) ;;;
  let length := 2 ^ level in
  soft <- for_up 0 length (fun i soft => x <- rd codeword i ;; wr soft (length + i) (lo_dup Q x)) soft ;;
  let s := mk_lsg metric message maps 0 hard soft (p_one P) first in
  '(_, s) <- (if level =? 5 then (f <- rd frozen 0 ;; list_tree_smallg 5 0 f s)
              else if (6 <=? level) && (level <=? 16) then list_treeg (level - 6) 0 frozen 0 s
              else Abort) ;;
  rank <- list_rankf W (lg_metric s) rank ;;
  message <- list_unrollg (lg_msg s) (lg_maps s) (lg_count s) ;;
  Ok (lg_soft s, lg_hard s, lg_maps s, rank, message).
End Tree.
(** PolarListDecoder<SIMD<float or double, W>, MAX_M> *)
Definition list_decodeg (MAX_M : nat) := list_decode_withg list_rate1g MAX_M 0.
(** PolarParityDecoder<SIMD<float or double, W>, MAX_M> *)
Definition parity_decodeg (MAX_M : nat) (soft hard : list V) (maps : list (list Z)) (rank : option (list Z))
    (message : list V) (codeword : list spec_float) (frozen : list N) (level stride first : nat) :=
  list_decode_withg (parity_rate1g stride) MAX_M first soft hard maps rank message codeword frozen level.
End Width.

(** ** The back ends *)
Section Registers.
Variables (mw ew N : Z) (K : nat).
Notation w := (ieee_width mw ew).
Notation num := (float_of_bits mw ew).
(** a vector of [K] registers of [N] bits whose lanes have these bits *)
Fixpoint registers (K : nat) (l : list Z) : list Z :=
  match K with O => [] | S K => pack w (firstn (count N w) l) :: registers K (skipn (count N w) l) end.
(** the lanes written one by one: [nanv] are the bits of a NaN *)
Definition make_lanes (nanv : Z) (l : list spec_float) : list Z := registers K (map (bits_of_float mw ew nanv) l).
(** simd.hh:1481-1497, the template used where a back end has no vshuf of its own for these lanes *)
Definition generic_shuf (a : list Z) (b : list Z) : list Z :=
  registers K (map (fun i => if i <? Z.of_nat (length (lanes_u N w a)) then nth (Z.to_nat i) (lanes_u N w a) 0 else 0)%Z b).
End Registers.
(** the lanes of a MAP in registers of AVX2 (32 bit lanes) *)
Fixpoint map_registers (K : nat) (l : list Z) : list Z :=
  match K with O => [] | S K => pack 32 (firstn 8 l) :: map_registers K (skipn 8 l) end.

(** sse4_1.hh, avx2.hh (double; float has shuffles of its own): no vshuf for floating point lanes *)
Definition lops_x86 (mw ew N : Z) (nan : Z -> Z -> Z) (nanv : Z) (K : nat) : list_ops (list Z) :=
  mk_lops (list Z) (opsf_x86 mw ew N nan K) (fun x => x86_fdup mw ew N K (bits_of_float mw ew nanv x)) (fun v => map (float_of_bits mw ew) (lanes_u N (ieee_width mw ew) v))
    (make_lanes mw ew N K nanv) (generic_shuf mw ew N K) vshuf.
(** avx2.hh:1181-1195, avx2_double.hh:1324-1345: SIMD<float, 8> and SIMD<float, 16> *)
Definition lops_avx2_float (nan : Z -> Z -> Z) (nanv : Z) (K : nat) : list_ops (list Z) :=
  mk_lops (list Z) (opsf_x86 23 8 256 nan K) (fun x => x86_fdup 23 8 256 K (bits_of_float 23 8 nanv x)) (fun v => map (float_of_bits 23 8) (lanes_u 256 32 v))
    (make_lanes 23 8 256 K nanv) (fun a m => avx_vshuf32 a (map_registers K m)) (fun a b => lanes_u 256 32 (avx_vshuf32 (map_registers K a) (map_registers K b))).
(** neon.hh: no vshuf for floating point lanes *)
Definition lops_neon (mw ew : Z) (nan : Z -> Z -> Z) (nanv : Z) (K : nat) : list_ops (list Z) :=
  mk_lops (list Z) (opsf_neon mw ew nan K) (fun x => neon_fdup mw ew K (bits_of_float mw ew nanv x)) (fun v => map (float_of_bits mw ew) (lanes_u 128 (ieee_width mw ew) v))
    (make_lanes mw ew 128 K nanv) (generic_shuf mw ew 128 K) vshuf.
