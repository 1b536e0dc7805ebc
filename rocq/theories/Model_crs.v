(** Model of cauchy_reed_solomon_erasure_coding.hh over the table driven fields of galois_field.hh.
    Definitions only.  A pointer argument [p + off] is the list [p] with the offset [off]; the buffers
    passed to one call do not overlap.  Block lengths and counts are [nat]. *)
From Verif Require Import Cpp Model_gf Model_perm.
Local Open Scope N_scope.

(** ValueType(int): conversion to TYPE, then the assertion of the constructor *)
Definition crs_value (G : gf) (i : nat) : res N := mkValue G (wrap (gf_w G) (N.of_nat i)).

(** cauchy_reed_solomon_erasure_coding.hh:31-35 cauchy_matrix *)
Definition crs_cauchy (G : gf) (i j : nat) : res N :=
  row <- crs_value G i ;;
  col <- crs_value G j ;;
  s <- v_add G row col ;;
  k <- gf_index G s ;;
  i_rcp G k.

(** cauchy_reed_solomon_erasure_coding.hh:28 the members row_num, row_den, possibly indeterminate *)
Definition crs_state : Type := option N * option N.
Definition get {A} (x : option A) : res A := match x with Some a => Ok a | None => Undef end.

(** cauchy_reed_solomon_erasure_coding.hh:38-74 inverse_cauchy_matrix (the #else branch) *)
Definition crs_inverse (G : gf) (rows : list N) (i j n : nat) (st : crs_state) : res (N * crs_state) :=
  col_i <- crs_value G i ;;
  st <- (if (j =? 0)%nat then
           num <- mkIndex G 0 ;;
           den <- mkIndex G 0 ;;
           '(num, den) <- for_up 0 n (fun k '(num, den) =>
              col_k <- crs_value G k ;;
              row_k <- rd rows k ;;
              s <- v_add G row_k col_i ;;
              x <- gf_index G s ;;
              num <- i_mul_assign G num x ;;
              if (k =? i)%nat then Ok (num, den) else
                d <- v_sub G col_i col_k ;;
                y <- gf_index G d ;;
                den <- i_mul_assign G den y ;;
                Ok (num, den)) (num, den) ;;
           Ok (Some num, Some den)
         else Ok st) ;;
  num <- get (fst st) ;;
  den <- get (snd st) ;;
  '(num, den) <- for_up 0 n (fun k '(num, den) =>
     col_k <- crs_value G k ;;
     row_j <- rd rows j ;;
     s <- v_add G row_j col_k ;;
     x <- gf_index G s ;;
     num <- i_mul_assign G num x ;;
     if (k =? j)%nat then Ok (num, den) else
       row_k <- rd rows k ;;
       d <- v_sub G row_j row_k ;;
       y <- gf_index G d ;;
       den <- i_mul_assign G den y ;;
       Ok (num, den)) (num, den) ;;
  row_j <- rd rows j ;;
  s <- v_add G row_j col_i ;;
  x <- gf_index G s ;;
  p <- i_mul G x den ;;
  q <- i_div G num p ;;
  Ok (q, st).

(** ** multiply_accumulate *)
(** cauchy_reed_solomon_erasure_coding.hh:292-298 the scalar loops *)
Definition mac_scalar (G : gf) (c : list N) (coff : nat) (a : list N) (aoff : nat) (b : N) (len : nat) (init : bool) : res (list N) :=
  for_up 0 len (fun i c =>
    x <- rd a (aoff + i) ;;
    v <- (if init then iv_mul G b x else (y <- rd c (coff + i) ;; fma_ivv G b x y)) ;;
    wr c (coff + i) v) c.

(** vector loads and stores of [n] elements *)
Definition vload (a : list N) (off n : nat) : res (list N) :=
  require (off + n <=? length a)%nat ;;; Ok (firstn n (skipn off a)).
Definition vstore (c : list N) (off : nat) (v : list N) : res (list N) :=
  require (off + length v <=? length c)%nat ;;; Ok (firstn off c ++ v ++ skipn (off + length v) c).

(** lane-wise vector operations *)
Definition map2 (f : N -> N -> N) (a b : list N) : list N := map (fun '(x, y) => f x y) (combine a b).
Definition vxor := map2 N.lxor.
Definition vor := map2 N.lor.
Definition vand (a : list N) (k : N) : list N := map (fun x => N.land x k) a.
(** shifts of 8 or 16 bit lanes *)
Definition vshr (a : list N) (s : N) : list N := map (fun x => N.shiftr x s) a.
Definition vshl (w : N) (a : list N) (s : N) : list N := map (fun x => wrap w (N.shiftl x s)) a.
(** reinterpretation between 16 bit lanes and bytes, lower byte first *)
Fixpoint bytes_of (a : list N) : list N :=
  match a with [] => [] | x :: a' => wrap 8 x :: wrap 8 (N.shiftr x 8) :: bytes_of a' end.
Fixpoint words_of (a : list N) : list N :=
  match a with lo :: hi :: a' => N.lor lo (N.shiftl hi 8) :: words_of a' | _ => [] end.

Inductive backend := NEON | NEON32 | SSE | AVX2.
(** vtbl2_u8: a table of two 8 byte registers, an index beyond them gives 0 *)
Definition vtbl2 (t0 t1 idx : list N) : list N :=
  map (fun k => if k <? 16 then nth (N.to_nat k) (t0 ++ t1) 0 else 0) idx.
(** cauchy_reed_solomon_erasure_coding.hh:75-83 vqtbl1q_u8 built from 8 byte lookups, 32 bit ARM;
    vget_low_u8, vget_high_u8: the two halves of a register, vcombine_u8: their concatenation *)
Definition crs_vqtbl1q (lut idx : list N) : list N :=
  let lo := vtbl2 (firstn 8 lut) (skipn 8 lut) (firstn 8 idx) in
  let hi := vtbl2 (firstn 8 lut) (skipn 8 lut) (skipn 8 idx) in
  lo ++ hi.
(** cauchy_reed_solomon_erasure_coding.hh:283-287 the constant SIMD, also the number of bytes in a vector *)
Definition vwidth (B : backend) : nat := match B with AVX2 => 32 | _ => 16 end.
(** vqtbl1q_u8, _mm_shuffle_epi8, _mm256_shuffle_epi8 after _mm256_broadcastsi128_si256 *)
Definition vlookup (B : backend) (lut idx : list N) : list N :=
  match B with
  | NEON => tbl_neon lut idx
  | NEON32 => crs_vqtbl1q lut idx
  | SSE => shuffle_epi8 lut idx
  | AVX2 => shuffle256_epi8 (lut ++ lut) idx
  end.
(** the high nibbles of byte lanes: vshrq_n_u8(a,4) / and(srli_epi16(a,4), set1_epi8(15)) *)
Definition vhigh (B : backend) (a : list N) : list N :=
  match B with
  | NEON | NEON32 => vshr a 4
  | _ => vand (bytes_of (vshr (words_of a) 4)) 15
  end.
Definition vlow (a : list N) : list N := vand a 15.

(** cauchy_reed_solomon_erasure_coding.hh:89-92, 145-154 the tables; (b * ValueType(i << s)).v stored to a TYPE *)
Definition mac_table (G : gf) (b : N) (s : N) : res (list N) :=
  t <- for_up 0 16 (fun i t =>
     x <- mkValue G (wrap (gf_w G) (N.shiftl (N.of_nat i) s)) ;;
     v <- iv_mul G b x ;;
     wru t i v) (uninit N 16) ;;
  for_up 0 16 (fun i l => v <- rdu t i ;; Ok (l ++ [v])) [].

(** cauchy_reed_solomon_erasure_coding.hh:86-140 mac_simd for uint8_t *)
Definition mac_simd8 (G : gf) (B : backend) (c : list N) (coff : nat) (a : list N) (aoff : nat) (b : N) (size : nat) (init : bool) : res (list N) :=
  bln <- mac_table G b 0 ;;
  bhn <- mac_table G b 4 ;;
  let W := vwidth B in
  for_step 0 size W (fun i c =>
    a16 <- vload a (aoff + i) W ;;
    let cln := vlookup B bln (vlow a16) in
    let chn := vlookup B bhn (vhigh B a16) in
    let c16 := vxor cln chn in
    c16 <- (if init then Ok c16 else (o <- vload c (coff + i) W ;; Ok (vxor c16 o))) ;;
    vstore c (coff + i) c16) c.

(** cauchy_reed_solomon_erasure_coding.hh:142-277 mac_simd for uint16_t; W bytes per vector, W elements per iteration in two vectors *)
Definition mac_simd16 (G : gf) (B : backend) (c : list N) (coff : nat) (a : list N) (aoff : nat) (b : N) (size : nat) (init : bool) : res (list N) :=
  bll <- mac_table G b 0 ;;
  blh <- mac_table G b 4 ;;
  bhl <- mac_table G b 8 ;;
  bhh <- mac_table G b 12 ;;
  let lowb := map (wrap 8) in
  let highb := fun t => map (wrap 8) (vshr t 8) in
  let W := vwidth B in
  let H := (W / 2)%nat in
  for_step 0 size W (fun i c =>
    al8 <- vload a (aoff + i) H ;;
    ah8 <- vload a (aoff + i + H) H ;;
    let al16 := bytes_of (vor (vshl 16 ah8 8) (vand al8 255)) in
    let ah16 := bytes_of (vor (vand ah8 65280) (vshr al8 8)) in
    let alln := vlow al16 in
    let alhn := vhigh B al16 in
    let ahln := vlow ah16 in
    let ahhn := vhigh B ah16 in
    let clll := vlookup B (lowb bll) alln in let chll := vlookup B (highb bll) alln in
    let cllh := vlookup B (lowb blh) alhn in let chlh := vlookup B (highb blh) alhn in
    let clhl := vlookup B (lowb bhl) ahln in let chhl := vlookup B (highb bhl) ahln in
    let clhh := vlookup B (lowb bhh) ahhn in let chhh := vlookup B (highb bhh) ahhn in
    let cl16 := words_of (vxor (vxor clll cllh) (vxor clhl clhh)) in
    let ch16 := words_of (vxor (vxor chll chlh) (vxor chhl chhh)) in
    let cl8 := vor (vshl 16 ch16 8) (vand cl16 255) in
    let ch8 := vor (vand ch16 65280) (vshr cl16 8) in
    '(cl8, ch8) <- (if init then Ok (cl8, ch8) else
        (ol <- vload c (coff + i) H ;; oh <- vload c (coff + i + H) H ;; Ok (vxor cl8 ol, vxor ch8 oh))) ;;
    c <- vstore c (coff + i) cl8 ;;
    vstore c (coff + i + H) ch8) c.

(** cauchy_reed_solomon_erasure_coding.hh:280-299 multiply_accumulate.  [B] is the instruction set the library was compiled for (None: portable);
    [aligned] says whether both pointers are multiples of SIMD. *)
Definition mac (G : gf) (B : option backend) (aligned : bool) (c : list N) (coff : nat) (a : list N) (aoff : nat) (b : N) (len : nat) (init : bool) : res (list N) :=
  match B with
  | Some B =>
      if aligned && (len mod vwidth B =? 0)%nat && (gf_M G =? 8) && (gf_w G =? 8) then mac_simd8 G B c coff a aoff b len init
      else if aligned && (len mod vwidth B =? 0)%nat && (gf_M G =? 16) && (gf_w G =? 16) then mac_simd16 G B c coff a aoff b len init
      else mac_scalar G c coff a aoff b len init
  | None => mac_scalar G c coff a aoff b len init
  end.

(** cauchy_reed_solomon_erasure_coding.hh:300-307 encode; [al k] is the alignment of the pointers of the k-th call of multiply_accumulate *)
Definition crs_encode (G : gf) (B : option backend) (al : nat -> bool) (data block : list N) (boff : nat) (id len cnt : nat) : res (list N) :=
  assert_ ((cnt <=? id)%nat && (N.of_nat id <=? gf_N G)) ;;;
  for_up 0 cnt (fun k block =>
    a_ik <- crs_cauchy G id k ;;
    mac G B (al k) block boff data (len * k) a_ik len (k =? 0)%nat) block.

(** cauchy_reed_solomon_erasure_coding.hh:308-314 decode *)
Definition crs_decode (G : gf) (B : option backend) (al : nat -> bool) (data : list N) (doff : nat) (blocks ids : list N) (idx len cnt : nat) (st : crs_state)
    : res (list N * crs_state) :=
  for_up 0 cnt (fun k '(data, st) =>
    '(b_ik, st) <- crs_inverse G ids idx k cnt st ;;
    data <- mac G B (al k) data doff blocks (len * k) b_ik len (k =? 0)%nat ;;
    Ok (data, st)) (data, st).

(** the loops of a caller (tests/crs_regression_test.cc): encode under every identifier of the list, one block
    behind the other; decode every data block.  [al i k]: alignments in the i-th call. *)
Definition crs_encode_all (G : gf) (B : option backend) (al : nat -> nat -> bool) (data blocks : list N) (ids : list N) (len cnt : nat) : res (list N) :=
  for_up 0 cnt (fun i blocks =>
    id <- rd ids i ;;
    crs_encode G B (al i) data blocks (len * i) (N.to_nat id) len cnt) blocks.
Definition crs_decode_all (G : gf) (B : option backend) (al : nat -> nat -> bool) (data blocks ids : list N) (len cnt : nat) (st : crs_state) : res (list N) :=
  '(data, _) <- for_up 0 cnt (fun i '(data, st) =>
     crs_decode G B (al i) data (len * i) blocks ids i len cnt st) (data, st) ;;
  Ok data.
