(** Model of polar_list_decoder.hh and polar_parity_aided.hh with floating point lanes: TYPE is SIMD<float, W> ([prec] = 24, [emax] = 128,
    [ub] = 32) or SIMD<double, W> ([prec] = 53, [emax] = 1024, [ub] = 64), with the generic functions of simd.hh.  Definitions only.
    A vector is the list of its [W] lanes; PATH is the lane type, MAP is SIMD<uint_type, W> with lanes of [ub] bits
    (polar_helper.hh:63-65).  The decoders for 8 bit lanes are in Model_polar_list.v; the text is the same, here with IEEE
    arithmetic and comparisons.  Arrays are lists, a pointer into an array is an offset; distinct arguments do not overlap.
    A local vector filled lane by lane is [fill_lanesf]; a local array all of whose elements are written before any is
    read starts as zeros.  The two files contain the same tree: it is modelled once, with rate1 as parameter. *)
From Coq Require Import Floats.SpecFloat.
From Verif Require Import Cpp Model_simd Model_sort Model_polar Model_polar_list Model_polar_float Model_fsimd.
Local Open Scope nat_scope.

(** What the decoders work on: metric[W], message, maps, *count (polar_list_decoder.hh:288-289; *index in
    polar_parity_aided.hh:353-354), the members hard and soft (polar_list_decoder.hh:281-283), and for
    PolarParityDecoder *parity and *count (polar_parity_aided.hh:361-362; PolarListDecoder has no such variables) *)
Record list_statef := mk_lsf {
  lf_metric : list spec_float; lf_msg : list (list spec_float); lf_maps : list (list Z); lf_count : nat;
  lf_hard : list (list spec_float); lf_soft : list (list spec_float);
  lf_parity : list spec_float; lf_left : nat }.

Section Width.
Variables (prec emax ub : Z) (W : nat).
Notation P := (opsfv prec emax W).
Notation fzero := (fzero prec emax).
(** the int constant 1000000 converted to PATH *)
Definition million : spec_float := of_int prec emax 1000000.

Definition fill_lanesf {A} (f : nat -> res A) : res (list A) :=
  for_up 0 W (fun k v => x <- f k ;; Ok (v ++ [x])) [].
(** polar_list_decoder.hh:29-31 = 48-50 = polar_parity_aided.hh:77-79 = 96-98; conversion to uint_type *)
Definition iota_mapf : res (list Z) := fill_lanesf (fun k => Ok (to_u ub (Z.of_nat k))).

(** polar_list_decoder.hh:21-33, 42-52 = polar_parity_aided.hh:69-81, 90-100: rate0(metric, hard + hoff, soft) *)
Definition list_rate0f (M hoff : nat) (s : list_statef) : res (list Z * list_statef) :=
  let N := 2 ^ M in
  hard <- for_up 0 N (fun i hard => wr hard (hoff + i) (p_one P)) (lf_hard s) ;;
  metric <- for_up 0 N (fun i metric =>
    for_up 0 W (fun k metric =>
      v <- rd (lf_soft s) (i + N) ;;
      x <- rd v k ;;
      if SFltb x fzero then (m <- rd metric k ;; wr metric k (SFsub prec emax m x)) else Ok metric) metric) (lf_metric s) ;;
  map <- iota_mapf ;;
  Ok (map, mk_lsf metric (lf_msg s) (lf_maps s) (lf_count s) hard (lf_soft s) (lf_parity s) (lf_left s)).

(** polar_list_decoder.hh:55-63 = polar_parity_aided.hh:103-111: every path continued with +1 and with -1 *)
Definition list_forkf (metric sft : list spec_float) : res (list spec_float) :=
  fork <- for_up 0 W (fun k fork =>
    m <- rd metric k ;;
    fork <- wr fork (2 * k + 1) m ;;
    wr fork (2 * k) m) (repeat fzero (2 * W)) ;;
  for_up 0 W (fun k fork =>
    x <- rd sft k ;;
    if SFltb x fzero then (m <- rd fork (2 * k) ;; wr fork (2 * k) (SFsub prec emax m x))
    else (m <- rd fork (2 * k + 1) ;; wr fork (2 * k + 1) (SFadd prec emax m x))) fork.
(** polar_list_decoder.hh:64-73 = polar_parity_aided.hh:121-130: sort, keep the best half; gives metric, map and hrd *)
Definition list_selectf (metric fork : list spec_float) : res (list spec_float * list Z * list spec_float) :=
  '(perm, fork) <- insertion_sort_index SFltb (2 * W) (uninit nat (2 * W)) fork ;;
  metric <- for_up 0 W (fun k metric => x <- rd fork k ;; wr metric k x) metric ;;
  map <- fill_lanesf (fun k => p <- rdu perm k ;; Ok (to_u ub (Z.shiftr (Z.of_nat p) 1))) ;;
  hrd <- fill_lanesf (fun k => p <- rdu perm k ;; Ok (of_int prec emax (1 - 2 * Z.land (Z.of_nat p) 1)%Z)) ;;
  Ok (metric, map, hrd).
(** polar_list_decoder.hh:53-79 PolarListNode<TYPE, 0>::rate1(metric, message, maps, count, hard + hoff, soft) *)
Definition list_rate1f (hoff : nat) (s : list_statef) : res (list Z * list_statef) :=
  sft <- rd (lf_soft s) 1 ;;
  fork <- list_forkf (lf_metric s) sft ;;
  '(metric, map, hrd) <- list_selectf (lf_metric s) fork ;;
  msg <- wr (lf_msg s) (lf_count s) hrd ;;
  maps <- wr (lf_maps s) (lf_count s) map ;;
  hard <- wr (lf_hard s) hoff hrd ;;
  Ok (map, mk_lsf metric msg maps (lf_count s + 1) hard (lf_soft s) (lf_parity s) (lf_left s)).
(** polar_parity_aided.hh:115-119: the continuations with the wrong parity *)
Definition parity_killf (chk fork : list spec_float) : res (list spec_float) :=
  for_up 0 W (fun k fork =>
    c <- rd chk k ;;
    if SFltb c fzero then wr fork (2 * k) million else wr fork (2 * k + 1) million) fork.
(** polar_parity_aided.hh:101-144 PolarParityNode<TYPE, 0>::rate1 *)
Definition parity_rate1f (stride hoff : nat) (s : list_statef) : res (list Z * list_statef) :=
  sft <- rd (lf_soft s) 1 ;;
  fork <- list_forkf (lf_metric s) sft ;;
  '(parity, fork) <- (if lf_left s =? 0 then (fork <- parity_killf (lf_parity s) fork ;; Ok (p_one P, fork)) else Ok (lf_parity s, fork)) ;;
  '(metric, map, hrd) <- list_selectf (lf_metric s) fork ;;
  if negb (lf_left s =? 0) then
    msg <- wr (lf_msg s) (lf_count s) hrd ;;
    maps <- wr (lf_maps s) (lf_count s) map ;;
    hard <- wr (lf_hard s) hoff hrd ;;
    Ok (map, mk_lsf metric msg maps (lf_count s + 1) hard (lf_soft s) (p_mul P (fv_shuf parity map) hrd) (lf_left s - 1))
  else
    let last := (Z.of_nat (lf_count s) - 1)%Z in
    m <- rdZ (lf_msg s) last ;;
    msg <- wrZ (lf_msg s) last (fv_shuf m map) ;;
    p <- rdZ (lf_maps s) last ;;
    maps <- wrZ (lf_maps s) last (vshuf p map) ;;
    hard <- wr (lf_hard s) hoff hrd ;;
    Ok (map, mk_lsf metric msg maps (lf_count s) hard (lf_soft s) parity stride).

(** polar_list_decoder.hh:91-92 = 113-114 = ... = 256 (and polar_parity_aided.hh): left half *)
Definition list_leftf (N : nat) (s : list_statef) : res list_statef :=
  soft <- for_up 0 (N / 2) (fun i soft =>
    a <- rd soft (i + N) ;;
    b <- rd soft (i + N / 2 + N) ;;
    wr soft (i + N / 2) (p_prod P a b)) (lf_soft s) ;;
  Ok (mk_lsf (lf_metric s) (lf_msg s) (lf_maps s) (lf_count s) (lf_hard s) soft (lf_parity s) (lf_left s)).
(** polar_list_decoder.hh:94-95 = 120-121 = ... = 262: right half, the soft values following the paths *)
Definition list_rightf (N hoff : nat) (lmap : list Z) (s : list_statef) : res list_statef :=
  soft <- for_up 0 (N / 2) (fun i soft =>
    h <- rd (lf_hard s) (hoff + i) ;;
    a <- rd soft (i + N) ;;
    b <- rd soft (i + N / 2 + N) ;;
    wr soft (i + N / 2) (p_madd P h (fv_shuf a lmap) (fv_shuf b lmap))) (lf_soft s) ;;
  Ok (mk_lsf (lf_metric s) (lf_msg s) (lf_maps s) (lf_count s) (lf_hard s) soft (lf_parity s) (lf_left s)).
(** polar_list_decoder.hh:97-99 = 126-128 = ... = 267-268: combine the halves *)
Definition list_joinf (N hoff : nat) (lmap rmap : list Z) (s : list_statef) : res (list Z * list_statef) :=
  hard <- for_up 0 (N / 2) (fun i hard =>
    a <- rd hard (hoff + i) ;;
    b <- rd hard (hoff + (i + N / 2)) ;;
    wr hard (hoff + i) (p_mul P (fv_shuf a rmap) b)) (lf_hard s) ;;
  Ok (vshuf lmap rmap, mk_lsf (lf_metric s) (lf_msg s) (lf_maps s) (lf_count s) hard (lf_soft s) (lf_parity s) (lf_left s)).

Section Tree.
(** rate1 of a single position *)
Variable rate1 : nat -> list_statef -> res (list Z * list_statef).

(** polar_list_decoder.hh:132-270 PolarListTree<TYPE, M>::decode for M = 5, 4, 3, 2 (the same text four times) and 1 =
    polar_parity_aided.hh:197-335; here [frozen] is a value.  [mask] is ((1<<(1<<(M-1)))-1). *)
Fixpoint list_tree_smallf (M hoff : nat) (frozen : N) (s : list_statef) {struct M} : res (list Z * list_statef) :=
  match M with
  | O => Undef
  | S m =>
      let N := 2 ^ M in
      match m with
      | O =>
          s <- list_leftf 2 s ;;
          '(lmap, s) <- (if (N.land frozen 1 =? 0)%N then rate1 hoff s else list_rate0f 0 hoff s) ;;
          s <- list_rightf 2 hoff lmap s ;;
          '(rmap, s) <- (if (N.shiftr frozen 1 =? 0)%N then rate1 (hoff + 1) s else list_rate0f 0 (hoff + 1) s) ;;
          list_joinf 2 hoff lmap rmap s
      | S _ =>
          let mask := (N.shiftl 1 (N.of_nat (2 ^ m)) - 1)%N in
          s <- list_leftf N s ;;
          let lo := N.land frozen mask in
          '(lmap, s) <- (if (lo =? mask)%N then list_rate0f m hoff s else list_tree_smallf m hoff lo s) ;;
          s <- list_rightf N hoff lmap s ;;
          let hi := N.shiftr frozen (N.of_nat (N / 2)) in
          '(rmap, s) <- (if (hi =? mask)%N then list_rate0f m (hoff + N / 2) s else list_tree_smallf m (hoff + N / 2) hi s) ;;
          list_joinf N hoff lmap rmap s
      end
  end.
(** polar_list_decoder.hh:103-130 PolarListTree<TYPE, 6>::decode = polar_parity_aided.hh:168-195; [frozen + fo] is the pointer *)
Definition list_tree6f (hoff : nat) (frozen : list N) (fo : nat) (s : list_statef) : res (list Z * list_statef) :=
  let N := 64 in
  s <- list_leftf N s ;;
  f0 <- rd frozen (fo + 0) ;;
  '(lmap, s) <- (if (f0 =? 4294967295)%N then list_rate0f 5 hoff s else list_tree_smallf 5 hoff f0 s) ;;
  s <- list_rightf N hoff lmap s ;;
  f1 <- rd frozen (fo + 1) ;;
  '(rmap, s) <- (if (f1 =? 4294967295)%N then list_rate0f 5 (hoff + N / 2) s else list_tree_smallf 5 (hoff + N / 2) f1 s) ;;
  list_joinf N hoff lmap rmap s.
(** polar_list_decoder.hh:82-101 PolarListTree<TYPE, M>::decode for M = d + 6 > 6 = polar_parity_aided.hh:147-166 *)
Fixpoint list_treef (d hoff : nat) (frozen : list N) (fo : nat) (s : list_statef) {struct d} : res (list Z * list_statef) :=
  match d with
  | O => list_tree6f hoff frozen fo s
  | S d' =>
      let N := 2 ^ (d + 6) in
      s <- list_leftf N s ;;
      '(lmap, s) <- list_treef d' hoff frozen fo s ;;
      s <- list_rightf N hoff lmap s ;;
      '(rmap, s) <- list_treef d' (hoff + N / 2) frozen (fo + N / 2 / 32) s ;;
      list_joinf N hoff lmap rmap s
  end.

(** polar_list_decoder.hh:313-317 = polar_parity_aided.hh:380-384; [None] is nullptr; state: r and the array *)
Definition list_rankf (metric : list spec_float) (rank : option (list Z)) : res (option (list Z)) :=
  match rank with
  | None => Ok None
  | Some rank =>
      '(_, rank) <- for_up 0 W (fun i '(r, rank) =>
        r <- (if 0 <? i then (a <- rd metric (i - 1) ;; b <- rd metric i ;; Ok (if SFeqb a b then r else (r + 1)%Z)) else Ok r) ;;
        rank <- wr rank i r ;;
        Ok (r, rank)) (0%Z, rank) ;;
      Ok (Some rank)
  end.
(** polar_list_decoder.hh:318-322 = polar_parity_aided.hh:385-389: the decisions put into the final order of the lanes *)
Definition list_unrollf (message : list (list spec_float)) (maps : list (list Z)) (count : nat) : res (list (list spec_float)) :=
  acc <- rdZ maps (Z.of_nat count - 1) ;;
  '(_, message) <- for_down (count - 1) 0 (fun i '(acc, message) =>
    m <- rd message i ;;
    message <- wr message i (fv_shuf m acc) ;;
    p <- rd maps i ;;
    Ok (vshuf p acc, message)) (acc, message) ;;
  Ok message.
(** polar_list_decoder.hh:285-323 PolarListDecoder<TYPE, MAX_M>::operator() = polar_parity_aided.hh:350-390; gives the members
    soft, hard and maps, and the caller's rank and message arrays *)
Definition list_decode_withf (MAX_M first : nat) (soft hard : list (list spec_float)) (maps : list (list Z)) (rank : option (list Z))
    (message : list (list spec_float)) (codeword : list spec_float) (frozen : list N) (level : nat)
  : res (list (list spec_float) * list (list spec_float) * list (list Z) * option (list Z) * list (list spec_float)) :=
  assert_ (level <=? MAX_M) ;;;
  metric <- wr (repeat fzero W) 0 fzero ;;
  metric <- for_up 1 W (fun k metric => wr metric k million) metric ;;
  require (level <=? 30) ;;;
  let length := 2 ^ level in
  soft <- for_up 0 length (fun i soft => x <- rd codeword i ;; wr soft (length + i) (repeat x W)) soft ;;
  let s := mk_lsf metric message maps 0 hard soft (p_one P) first in
  '(_, s) <- (if level =? 5 then (f <- rd frozen 0 ;; list_tree_smallf 5 0 f s)
              else if (6 <=? level) && (level <=? 16) then list_treef (level - 6) 0 frozen 0 s
              else Abort) ;;
  rank <- list_rankf (lf_metric s) rank ;;
  message <- list_unrollf (lf_msg s) (lf_maps s) (lf_count s) ;;
  Ok (lf_soft s, lf_hard s, lf_maps s, rank, message).
End Tree.
(** PolarListDecoder<SIMD<float or double, W>, MAX_M> *)
Definition list_decodef (MAX_M : nat) := list_decode_withf list_rate1f MAX_M 0.
(** PolarParityDecoder<SIMD<float or double, W>, MAX_M> *)
Definition parity_decodef (MAX_M : nat) (soft hard : list (list spec_float)) (maps : list (list Z)) (rank : option (list Z))
    (message : list (list spec_float)) (codeword : list spec_float) (frozen : list N) (level stride first : nat) :=
  list_decode_withf (parity_rate1f stride) MAX_M first soft hard maps rank message codeword frozen level.
End Width.
