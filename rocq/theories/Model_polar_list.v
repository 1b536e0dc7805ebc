(** Model of polar_list_decoder.hh and polar_parity_aided.hh.  Definitions only.
    TYPE is SIMD<int8_t, W>: a vector is the list of its [W] lanes; PATH is int, MAP is SIMD<uint8_t, W>.  The floating point
    instances are in Model_polar_listf.v.  Arrays are lists, a pointer into an array is an offset; distinct arguments do not overlap.
    A local vector filled lane by lane is [fill_lanes]; a local array all of whose elements are written before any is
    read starts as zeros.  The two files contain the same tree: it is modelled once, with rate1 as parameter. *)
From Verif Require Import Cpp Model_simd Model_sort Model_polar.
Local Open Scope nat_scope.

(** polar_parity_aided.hh:23-59 PolarParityEncoder::operator() up to the first stage: what one position gets;
    state: position in the message, parity, count *)
Definition parity_symbol {A} (P : polar_ops A) (message : list A) (f : bool) (stride : nat) (st : nat * A * nat)
  : res (A * (nat * A * nat)) :=
  let '(pos, parity, count) := st in
  if f then Ok (p_one P, (pos, parity, count))
  else if negb (count =? 0) then (x <- rd message pos ;; Ok (x, (pos + 1, p_mul P parity x, count - 1)))
  else Ok (parity, (pos, p_one P, stride)).
(** polar_parity_aided.hh:28-54 *)
Definition parity_expand {A} (P : polar_ops A) (message : list A) (frozen : list N) (length stride first : nat) (codeword : list A)
  : res (list A) :=
  '(_, codeword) <- for_step 0 length 2 (fun i '(st, codeword) =>
    f0 <- polar_get frozen i ;;
    '(msg0, st) <- parity_symbol P message f0 stride st ;;
    f1 <- polar_get frozen (i + 1) ;;
    '(msg1, st) <- parity_symbol P message f1 stride st ;;
    codeword <- wr codeword i (p_mul P msg0 msg1) ;;
    codeword <- wr codeword (i + 1) msg1 ;;
    Ok (st, codeword)) ((0, p_one P, first), codeword) ;;
  Ok codeword.
(** polar_parity_aided.hh:23-59 PolarParityEncoder::operator(); [stride] and [first] are not negative *)
Definition parity_encode {A} (P : polar_ops A) (codeword message : list A) (frozen : list N) (level stride first : nat) : res (list A) :=
  require (level <=? 30) ;;;
  let length := 2 ^ level in
  codeword <- parity_expand P message frozen length stride first codeword ;;
  polar_stages P 0 length codeword.

(** What the decoders work on: metric[W], message, maps, *count (polar_list_decoder.hh:288-289; *index in
    polar_parity_aided.hh:353-354), the members hard and soft (polar_list_decoder.hh:281-283), and for
    PolarParityDecoder *parity and *count (polar_parity_aided.hh:361-362; PolarListDecoder has no such variables) *)
Record list_state := mk_ls {
  ls_metric : list Z; ls_msg : list (list Z); ls_maps : list (list Z); ls_count : nat;
  ls_hard : list (list Z); ls_soft : list (list Z);
  ls_parity : list Z; ls_left : nat }.

Section Width.
Variable W : nat.
Variable P : polar_ops (list Z).

Definition fill_lanes (f : nat -> res Z) : res (list Z) :=
  for_up 0 W (fun k v => x <- f k ;; Ok (v ++ [x])) [].
(** polar_list_decoder.hh:29-31 = 48-50 = polar_parity_aided.hh:77-79 = 96-98; conversion to uint8_t *)
Definition iota_map : res (list Z) := fill_lanes (fun k => Ok (to_u 8 (Z.of_nat k))).

(** polar_list_decoder.hh:21-33, 42-52 = polar_parity_aided.hh:69-81, 90-100: rate0(metric, hard + hoff, soft) *)
Definition list_rate0 (M hoff : nat) (s : list_state) : res (list Z * list_state) :=
  let N := 2 ^ M in
  hard <- for_up 0 N (fun i hard => wr hard (hoff + i) (p_one P)) (ls_hard s) ;;
  metric <- for_up 0 N (fun i metric =>
    for_up 0 W (fun k metric =>
      v <- rd (ls_soft s) (i + N) ;;
      x <- rd v k ;;
      if (x <? 0)%Z then (m <- rd metric k ;; m <- chk (m - x) ;; wr metric k m) else Ok metric) metric) (ls_metric s) ;;
  map <- iota_map ;;
  Ok (map, mk_ls metric (ls_msg s) (ls_maps s) (ls_count s) hard (ls_soft s) (ls_parity s) (ls_left s)).

(** polar_list_decoder.hh:55-63 = polar_parity_aided.hh:103-111: every path continued with +1 and with -1 *)
Definition list_fork (metric : list Z) (sft : list Z) : res (list Z) :=
  fork <- for_up 0 W (fun k fork =>
    m <- rd metric k ;;
    fork <- wr fork (2 * k + 1) m ;;
    wr fork (2 * k) m) (repeat 0%Z (2 * W)) ;;
  for_up 0 W (fun k fork =>
    x <- rd sft k ;;
    if (x <? 0)%Z then (m <- rd fork (2 * k) ;; m <- chk (m - x) ;; wr fork (2 * k) m)
    else (m <- rd fork (2 * k + 1) ;; m <- chk (m + x) ;; wr fork (2 * k + 1) m)) fork.
(** polar_list_decoder.hh:64-73 = polar_parity_aided.hh:121-130: sort, keep the best half; gives metric, map and hrd *)
Definition list_select (metric : list Z) (fork : list Z) : res (list Z * list Z * list Z) :=
  '(perm, fork) <- insertion_sort_index Z.ltb (2 * W) (uninit nat (2 * W)) fork ;;
  metric <- for_up 0 W (fun k metric => x <- rd fork k ;; wr metric k x) metric ;;
  map <- fill_lanes (fun k => p <- rdu perm k ;; Ok (to_u 8 (Z.shiftr (Z.of_nat p) 1))) ;;
  hrd <- fill_lanes (fun k => p <- rdu perm k ;; Ok (to_s 8 (1 - 2 * Z.land (Z.of_nat p) 1)%Z)) ;;
  Ok (metric, map, hrd).
(** polar_list_decoder.hh:53-79 PolarListNode<TYPE, 0>::rate1(metric, message, maps, count, hard + hoff, soft) *)
Definition list_rate1 (hoff : nat) (s : list_state) : res (list Z * list_state) :=
  sft <- rd (ls_soft s) 1 ;;
  fork <- list_fork (ls_metric s) sft ;;
  '(metric, map, hrd) <- list_select (ls_metric s) fork ;;
  msg <- wr (ls_msg s) (ls_count s) hrd ;;
  maps <- wr (ls_maps s) (ls_count s) map ;;
  hard <- wr (ls_hard s) hoff hrd ;;
  Ok (map, mk_ls metric msg maps (ls_count s + 1) hard (ls_soft s) (ls_parity s) (ls_left s)).
(** polar_parity_aided.hh:115-119: the continuations with the wrong parity *)
Definition parity_kill (chk : list Z) (fork : list Z) : res (list Z) :=
  for_up 0 W (fun k fork =>
    c <- rd chk k ;;
    if (c <? 0)%Z then wr fork (2 * k) 1000000%Z else wr fork (2 * k + 1) 1000000%Z) fork.
(** polar_parity_aided.hh:101-144 PolarParityNode<TYPE, 0>::rate1 *)
Definition parity_rate1 (stride hoff : nat) (s : list_state) : res (list Z * list_state) :=
  sft <- rd (ls_soft s) 1 ;;
  fork <- list_fork (ls_metric s) sft ;;
  '(parity, fork) <- (if ls_left s =? 0 then (fork <- parity_kill (ls_parity s) fork ;; Ok (p_one P, fork)) else Ok (ls_parity s, fork)) ;;
  '(metric, map, hrd) <- list_select (ls_metric s) fork ;;
  if negb (ls_left s =? 0) then
    msg <- wr (ls_msg s) (ls_count s) hrd ;;
    maps <- wr (ls_maps s) (ls_count s) map ;;
    hard <- wr (ls_hard s) hoff hrd ;;
    Ok (map, mk_ls metric msg maps (ls_count s + 1) hard (ls_soft s) (p_mul P (vshuf parity map) hrd) (ls_left s - 1))
  else
    let last := (Z.of_nat (ls_count s) - 1)%Z in
    m <- rdZ (ls_msg s) last ;;
    msg <- wrZ (ls_msg s) last (vshuf m map) ;;
    p <- rdZ (ls_maps s) last ;;
    maps <- wrZ (ls_maps s) last (vshuf p map) ;;
    hard <- wr (ls_hard s) hoff hrd ;;
    Ok (map, mk_ls metric msg maps (ls_count s) hard (ls_soft s) parity stride).

(** polar_list_decoder.hh:91-92 = 113-114 = ... = 256 (and polar_parity_aided.hh): left half *)
Definition list_left (N : nat) (s : list_state) : res list_state :=
  soft <- for_up 0 (N / 2) (fun i soft =>
    a <- rd soft (i + N) ;;
    b <- rd soft (i + N / 2 + N) ;;
    wr soft (i + N / 2) (p_prod P a b)) (ls_soft s) ;;
  Ok (mk_ls (ls_metric s) (ls_msg s) (ls_maps s) (ls_count s) (ls_hard s) soft (ls_parity s) (ls_left s)).
(** polar_list_decoder.hh:94-95 = 120-121 = ... = 262: right half, the soft values following the paths *)
Definition list_right (N hoff : nat) (lmap : list Z) (s : list_state) : res list_state :=
  soft <- for_up 0 (N / 2) (fun i soft =>
    h <- rd (ls_hard s) (hoff + i) ;;
    a <- rd soft (i + N) ;;
    b <- rd soft (i + N / 2 + N) ;;
    wr soft (i + N / 2) (p_madd P h (vshuf a lmap) (vshuf b lmap))) (ls_soft s) ;;
  Ok (mk_ls (ls_metric s) (ls_msg s) (ls_maps s) (ls_count s) (ls_hard s) soft (ls_parity s) (ls_left s)).
(** polar_list_decoder.hh:97-99 = 126-128 = ... = 267-268: combine the halves *)
Definition list_join (N hoff : nat) (lmap rmap : list Z) (s : list_state) : res (list Z * list_state) :=
  hard <- for_up 0 (N / 2) (fun i hard =>
    a <- rd hard (hoff + i) ;;
    b <- rd hard (hoff + (i + N / 2)) ;;
    wr hard (hoff + i) (p_mul P (vshuf a rmap) b)) (ls_hard s) ;;
  Ok (vshuf lmap rmap, mk_ls (ls_metric s) (ls_msg s) (ls_maps s) (ls_count s) hard (ls_soft s) (ls_parity s) (ls_left s)).

Section Tree.
(** rate1 of a single position *)
Variable rate1 : nat -> list_state -> res (list Z * list_state).

(** polar_list_decoder.hh:132-270 PolarListTree<TYPE, M>::decode for M = 5, 4, 3, 2 (the same text four times) and 1 =
    polar_parity_aided.hh:197-335; here [frozen] is a value.  [mask] is ((1<<(1<<(M-1)))-1). *)
Fixpoint list_tree_small (M hoff : nat) (frozen : N) (s : list_state) {struct M} : res (list Z * list_state) :=
  match M with
  | O => Undef
  | S m =>
      let N := 2 ^ M in
      match m with
      | O =>
          s <- list_left 2 s ;;
          '(lmap, s) <- (if (N.land frozen 1 =? 0)%N then rate1 hoff s else list_rate0 0 hoff s) ;;
          s <- list_right 2 hoff lmap s ;;
          '(rmap, s) <- (if (N.shiftr frozen 1 =? 0)%N then rate1 (hoff + 1) s else list_rate0 0 (hoff + 1) s) ;;
          list_join 2 hoff lmap rmap s
      | S _ =>
          let mask := (N.shiftl 1 (N.of_nat (2 ^ m)) - 1)%N in
          s <- list_left N s ;;
          let lo := N.land frozen mask in
          '(lmap, s) <- (if (lo =? mask)%N then list_rate0 m hoff s else list_tree_small m hoff lo s) ;;
          s <- list_right N hoff lmap s ;;
          let hi := N.shiftr frozen (N.of_nat (N / 2)) in
          '(rmap, s) <- (if (hi =? mask)%N then list_rate0 m (hoff + N / 2) s else list_tree_small m (hoff + N / 2) hi s) ;;
          list_join N hoff lmap rmap s
      end
  end.
(** polar_list_decoder.hh:103-130 PolarListTree<TYPE, 6>::decode = polar_parity_aided.hh:168-195; [frozen + fo] is the pointer *)
Definition list_tree6 (hoff : nat) (frozen : list N) (fo : nat) (s : list_state) : res (list Z * list_state) :=
  let N := 64 in
  s <- list_left N s ;;
  f0 <- rd frozen (fo + 0) ;;
  '(lmap, s) <- (if (f0 =? 4294967295)%N then list_rate0 5 hoff s else list_tree_small 5 hoff f0 s) ;;
  s <- list_right N hoff lmap s ;;
  f1 <- rd frozen (fo + 1) ;;
  '(rmap, s) <- (if (f1 =? 4294967295)%N then list_rate0 5 (hoff + N / 2) s else list_tree_small 5 (hoff + N / 2) f1 s) ;;
  list_join N hoff lmap rmap s.
(** polar_list_decoder.hh:82-101 PolarListTree<TYPE, M>::decode for M = d + 6 > 6 = polar_parity_aided.hh:147-166 *)
Fixpoint list_tree (d hoff : nat) (frozen : list N) (fo : nat) (s : list_state) {struct d} : res (list Z * list_state) :=
  match d with
  | O => list_tree6 hoff frozen fo s
  | S d' =>
      let N := 2 ^ (d + 6) in
      s <- list_left N s ;;
      '(lmap, s) <- list_tree d' hoff frozen fo s ;;
      s <- list_right N hoff lmap s ;;
      '(rmap, s) <- list_tree d' (hoff + N / 2) frozen (fo + N / 2 / 32) s ;;
      list_join N hoff lmap rmap s
  end.

(** polar_list_decoder.hh:313-317 = polar_parity_aided.hh:380-384; [None] is nullptr; state: r and the array *)
Definition list_rank (metric : list Z) (rank : option (list Z)) : res (option (list Z)) :=
  match rank with
  | None => Ok None
  | Some rank =>
      '(_, rank) <- for_up 0 W (fun i '(r, rank) =>
        r <- (if 0 <? i then (a <- rd metric (i - 1) ;; b <- rd metric i ;; Ok (if (a =? b)%Z then r else (r + 1)%Z)) else Ok r) ;;
        rank <- wr rank i r ;;
        Ok (r, rank)) (0%Z, rank) ;;
      Ok (Some rank)
  end.
(** polar_list_decoder.hh:318-322 = polar_parity_aided.hh:385-389: the decisions put into the final order of the lanes *)
Definition list_unroll (message maps : list (list Z)) (count : nat) : res (list (list Z)) :=
  acc <- rdZ maps (Z.of_nat count - 1) ;;
  '(_, message) <- for_down (count - 1) 0 (fun i '(acc, message) =>
    m <- rd message i ;;
    message <- wr message i (vshuf m acc) ;;
    p <- rd maps i ;;
    Ok (vshuf p acc, message)) (acc, message) ;;
  Ok message.
(** polar_list_decoder.hh:285-323 PolarListDecoder<TYPE, MAX_M>::operator() = polar_parity_aided.hh:350-390; gives the members
    soft, hard and maps, and the caller's rank and message arrays *)
Definition list_decode_with (MAX_M first : nat) (soft hard maps : list (list Z)) (rank : option (list Z)) (message : list (list Z))
    (codeword : list Z) (frozen : list N) (level : nat)
  : res (list (list Z) * list (list Z) * list (list Z) * option (list Z) * list (list Z)) :=
  assert_ (level <=? MAX_M) ;;;
  metric <- wr (repeat 0%Z W) 0 0%Z ;;
  metric <- for_up 1 W (fun k metric => wr metric k 1000000%Z) metric ;;
  require (level <=? 30) ;;;
  let length := 2 ^ level in
  soft <- for_up 0 length (fun i soft => x <- rd codeword i ;; wr soft (length + i) (vdup W x)) soft ;;
  let s := mk_ls metric message maps 0 hard soft (p_one P) first in
  '(_, s) <- (if level =? 5 then (f <- rd frozen 0 ;; list_tree_small 5 0 f s)
              else if (6 <=? level) && (level <=? 16) then list_tree (level - 6) 0 frozen 0 s
              else Abort) ;;
  rank <- list_rank (ls_metric s) rank ;;
  message <- list_unroll (ls_msg s) (ls_maps s) (ls_count s) ;;
  Ok (ls_soft s, ls_hard s, ls_maps s, rank, message).
End Tree.
(** PolarListDecoder<SIMD<int8_t, W>, MAX_M> *)
Definition list_decode (MAX_M : nat) := list_decode_with list_rate1 MAX_M 0.
(** PolarParityDecoder<SIMD<int8_t, W>, MAX_M> *)
Definition parity_decode (MAX_M : nat) (soft hard maps : list (list Z)) (rank : option (list Z)) (message : list (list Z))
    (codeword : list Z) (frozen : list N) (level stride first : nat) :=
  list_decode_with (parity_rate1 stride) MAX_M first soft hard maps rank message codeword frozen level.
End Width.
