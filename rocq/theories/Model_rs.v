(** Model of reed_solomon_encoder.hh, reed_solomon_error_correction.hh and reed_solomon_decoder.hh.  Definitions only.
    [G] is the field with its tables, [NR] = ROOTS, [FCR] the template parameters; N = 2^M - 1, K = N - NR, NP = NR.
    Index and Value arrays are lists; arrays the code does not initialise are lists of options.
    The overloads taking plain value_type pointers only cast them and are the same functions.
    The debugging output under if (0) is not modelled. *)
From Verif Require Import Cpp Model_gf.
Local Open Scope N_scope.

(** reed_solomon_encoder.hh:19, reed_solomon_decoder.hh:20 *)
Definition rs_K (G : gf) (NR : nat) : nat := N.to_nat (gf_N G) - NR.
(** IndexType(int), ValueType(int): conversion to TYPE, then the constructor *)
Definition mkIndexI (G : gf) (i : nat) : res N := mkIndex G (wrap (gf_w G) (N.of_nat i)).
Definition mkValueI (G : gf) (i : nat) : res N := mkValue G (wrap (gf_w G) (N.of_nat i)).

(** not in the source: from here on the array of [n] elements is used as a completely initialised one *)
Definition settled (n : nat) (u : list (option N)) : res (list N) :=
  for_up 0 n (fun i l => x <- rdu u i ;; Ok (l ++ [x])) [].

(** reed_solomon_encoder.hh:23-51 ReedSolomonEncoder(): the array generator *)
Definition rs_generator (G : gf) (NR FCR : nat) : res (list (option N)) :=
  root <- mkIndexI G FCR ;;
  pe <- mkIndexI G 1 ;;
  '(tmp, root) <- for_up 0 NR (fun i '(tmp, root) =>
     one <- mkValueI G 1 ;;
     tmp <- wru tmp i one ;;
     tmp <- for_down (S i) 1 (fun j tmp =>
        x <- rdu tmp j ;; y <- rdu tmp (j - 1) ;;
        z <- fma_ivv G root x y ;;
        wru tmp j z) tmp ;;
     x <- rdu tmp 0 ;; z <- v_mul_assign_i G x root ;;
     tmp <- wru tmp 0 z ;;
     root <- i_mul_assign G root pe ;;
     Ok (tmp, root)) (uninit N (S NR), root) ;;
  one <- mkValueI G 1 ;;
  tmp <- wru tmp NR one ;;
  for_up 0 (S NR) (fun i gen =>
     x <- rdu tmp i ;; k <- gf_index G x ;; wru gen i k) (uninit N (S NR)).

(** reed_solomon_encoder.hh:52-72 operator()(data, parity, data_len): the new content of parity *)
Definition rs_encode (G : gf) (NR : nat) (gen : list (option N)) (data parity : list N) (data_len : nat) : res (list N) :=
  assert_ ((0 <? data_len) && (data_len <=? rs_K G NR))%nat ;;;
  parity <- for_up 0 NR (fun i parity => z <- mkValueI G 0 ;; wr parity i z) parity ;;
  for_up 0 data_len (fun i parity =>
    d <- rd data i ;; p <- rd parity 0 ;;
    feedback <- v_add G d p ;;
    if nz feedback then
      fb <- gf_index G feedback ;;
      parity <- for_up 1 NR (fun j parity =>
         g <- rdu gen (NR - j) ;; p <- rd parity j ;;
         x <- fma_iiv G fb g p ;;
         wr parity (j - 1) x) parity ;;
      g <- rdu gen 0 ;; k <- i_mul G g fb ;; v <- gf_value G k ;;
      wr parity (NR - 1) v
    else
      parity <- for_up 1 NR (fun j parity => p <- rd parity j ;; wr parity (j - 1) p) parity ;;
      z <- mkValueI G 0 ;;
      wr parity (NR - 1) z) parity.

(** reed_solomon_error_correction.hh:17-32 Chien::search; state (tmp, count, locations) *)
Definition rs_chien (G : gf) (locator : list N) (deg : nat) (locations : list (option N)) : res (nat * list (option N)) :=
  tmp <- for_up 0 (S deg) (fun i tmp => x <- rd locator i ;; wru tmp i x) (uninit N (S deg)) ;;
  '(_, count, locations) <- for_up 0 (N.to_nat (gf_N G)) (fun i '(tmp, count, locations) =>
     sum <- rdu tmp 0 ;;
     '(tmp, sum) <- for_up 1 (S deg) (fun j '(tmp, sum) =>
        k <- mkIndexI G j ;;
        x <- rdu tmp j ;;
        x <- v_mul_assign_i G x k ;;
        tmp <- wru tmp j x ;;
        sum <- v_add_assign G sum x ;;
        Ok (tmp, sum)) (tmp, sum) ;;
     if negb (nz sum) then
       k <- mkIndexI G i ;;
       locations <- wru locations count k ;;
       Ok (tmp, S count, locations)
     else Ok (tmp, count, locations)) (tmp, 0%nat, locations) ;;
  Ok (count, locations).

(** reed_solomon_error_correction.hh:41-54 ArtinSchreier(): the array imap *)
Definition rs_imap (G : gf) : res (list N) :=
  let Q := N.to_nat (gf_Q G) in
  let NN := N.to_nat (gf_N G) in
  imap <- for_up 0 Q (fun i imap => z <- mkValueI G 0 ;; wru imap i z) (uninit N Q) ;;
  imap <- for_step 2 NN 2 (fun i imap =>
     x <- mkValueI G i ;;
     xx <- v_mul G x x ;;
     xxx <- v_add G xx x ;;
     nn <- mkValueI G NN ;;
     b <- v_eq G xxx nn ;;
     if b then Ok imap else
     assert_ (nz xxx) ;;;
     old <- rdu imap (N.to_nat xxx) ;;
     assert_ (negb (nz old)) ;;;
     wru imap (N.to_nat xxx) x) imap ;;
  settled Q imap.
(** reed_solomon_error_correction.hh:55-59 ArtinSchreier::operator() *)
Definition rs_as (G : gf) (imap : list N) (a : N) : res N :=
  assert_ (a <=? gf_N G) ;;; assert_ (nz a) ;;; rd imap (N.to_nat a).

(** reed_solomon_error_correction.hh:68-88 LocationFinder::operator() *)
Definition rs_search (G : gf) (imap : list N) (locator : list N) (deg : nat) (locations : list (option N)) : res (nat * list (option N)) :=
  if (deg =? 1)%nat then
    l0 <- rd locator 0 ;; l1 <- rd locator 1 ;;
    i0 <- gf_index G l0 ;; i1 <- gf_index G l1 ;;
    q <- i_div G i0 i1 ;; one <- mkIndexI G 1 ;; k <- i_div G q one ;;
    locations <- wru locations 0 k ;;
    Ok (1%nat, locations)
  else if (deg =? 2)%nat then
    l1 <- rd locator 1 ;; l0 <- rd locator 0 ;;
    if negb (nz l1) || negb (nz l0) then Ok (0%nat, locations) else
    a <- rd locator 2 ;; b <- rd locator 1 ;; c <- rd locator 0 ;;
    ba <- v_div G b a ;;
    ac <- v_mul G a c ;; bb <- v_mul G b b ;; y <- v_div G ac bb ;;
    R <- rs_as G imap y ;;
    if negb (nz R) then Ok (0%nat, locations) else
    x <- v_mul G ba R ;;
    ix <- gf_index G x ;; one <- mkIndexI G 1 ;; k0 <- i_div G ix one ;;
    locations <- wru locations 0 k0 ;;
    y <- v_add G x ba ;;
    iy <- gf_index G y ;; k1 <- i_div G iy one ;;
    locations <- wru locations 1 k1 ;;
    Ok (2%nat, locations)
  else rs_chien G locator deg locations.

(** reed_solomon_error_correction.hh:96-109 Forney::compute_evaluator: evaluator and its degree *)
Definition rs_evaluator (G : gf) (NR : nat) (syn locator : list N) (deg : nat) : res (list (option N) * Z) :=
  let tmp := Nat.min deg (NR - 1) in
  for_up 0 (S tmp) (fun i '(ev, degree) =>
    s <- rd syn i ;; l <- rd locator 0 ;;
    x <- v_mul G s l ;;
    ev <- wru ev i x ;;
    ev <- for_up 1 (S i) (fun j ev =>
       s <- rd syn (i - j) ;; l <- rd locator j ;;
       p <- v_mul G s l ;;
       x <- rdu ev i ;;
       x <- v_add_assign G x p ;;
       wru ev i x) ev ;;
    x <- rdu ev i ;;
    Ok (ev, if nz x then Z.of_nat i else degree)) (uninit N NR, (-1)%Z).

(** reed_solomon_error_correction.hh:110-139 Forney::compute_magnitudes *)
Definition rs_magnitudes (G : gf) (FCR : nat) (locator : list N) (locations : list (option N)) (count : nat)
    (ev : list (option N)) (degree : Z) (magnitudes : list (option N)) : res (list (option N)) :=
  for_up 0 count (fun i magnitudes =>
    l <- rdu locations i ;;
    one <- mkIndexI G 1 ;;
    root <- i_mul G l one ;;
    e0 <- rdu ev 0 ;;
    '(eval, tmp) <- for_up 1 (Z.to_nat (degree + 1)) (fun j '(eval, tmp) =>
       e <- rdu ev j ;;
       p <- vi_mul G e tmp ;;
       eval <- v_add_assign G eval p ;;
       tmp <- i_mul_assign G tmp root ;;
       Ok (eval, tmp)) (e0, root) ;;
    if negb (nz eval) then
      z <- mkValueI G 0 ;; wru magnitudes i z
    else
      l1 <- rd locator 1 ;;
      root2 <- i_mul G root root ;;
      '(deriv, tmp2) <- for_step 3 (S count) 2 (fun j '(deriv, tmp2) =>
         l <- rd locator j ;;
         p <- vi_mul G l tmp2 ;;
         deriv <- v_add_assign G deriv p ;;
         tmp2 <- i_mul_assign G tmp2 root2 ;;
         Ok (deriv, tmp2)) (l1, root2) ;;
      ie <- gf_index G eval ;; id <- gf_index G deriv ;;
      mag <- i_div G ie id ;;
      mag <- (if (FCR =? 0)%nat then i_div_assign G mag root else Ok mag) ;;
      mag <- (if (1 <? FCR)%nat then for_up 1 FCR (fun _ mag => i_mul_assign G mag root) mag else Ok mag) ;;
      v <- gf_value G mag ;;
      wru magnitudes i v) magnitudes.

(** reed_solomon_error_correction.hh:140-145 Forney::algorithm *)
Definition rs_forney (G : gf) (NR FCR : nat) (syn locator : list N) (locations : list (option N)) (count : nat)
    (magnitudes : list (option N)) : res (list (option N)) :=
  '(ev, degree) <- rs_evaluator G NR syn locator count ;;
  rs_magnitudes G FCR locator locations count ev degree magnitudes.

(** reed_solomon_error_correction.hh:153-190 BerlekampMassey::algorithm; the new C and L.
    State (C, B, L, m); T is a new array in every iteration. *)
Definition rs_bm_step (G : gf) (NR count : nat) (s : list N) (n : nat) (st : list N * list N * nat * nat)
    : res (list N * list N * nat * nat) :=
  let '(C, B, L, m) := st in
  d <- rd s n ;;
  d <- for_up 1 (S L) (fun i d =>
     c <- rd C i ;; x <- (if (i <=? n)%nat then rd s (n - i) else Undef) ;;
     p <- v_mul G c x ;;
     v_add_assign G d p) d ;;
  if negb (nz d) then Ok (C, B, L, S m) else
  T <- for_up 0 m (fun i T => c <- rd C i ;; wru T i c) (uninit N (S NR)) ;;
  T <- for_up m (S NR) (fun i T => b <- rd B (i - m) ;; c <- rd C i ;; x <- fma_vvv G d b c ;; wru T i x) T ;;
  '(B, L, m) <- (if (2 * L <=? n + count)%nat then
     B <- for_up 0 (S NR) (fun i B => c <- rd C i ;; x <- v_div G c d ;; wr B i x) B ;;
     Ok (B, (n + count + 1 - L)%nat, 1%nat)
   else Ok (B, L, S m)) ;;
  C <- for_up 0 (S NR) (fun i C => x <- rdu T i ;; wr C i x) C ;;
  Ok (C, B, L, m).
Definition rs_bm (G : gf) (NR : nat) (s C : list N) (count : nat) : res (list N * nat) :=
  B <- for_up 0 (S NR) (fun i B => c <- rd C i ;; wru B i c) (uninit N (S NR)) ;;
  B <- settled (S NR) B ;;
  '(C, _, L, _) <- for_up count NR (rs_bm_step G NR count s) (C, B, count, 1%nat) ;;
  Ok (C, L).

(** reed_solomon_error_correction.hh:202-215 the erasure locator *)
Definition rs_erasure_locator (G : gf) (NR : nat) (erasures : list N) (count : nat) : res (list N) :=
  one <- mkValueI G 1 ;; zero <- mkValueI G 0 ;;
  let locator := one :: repeat zero NR in
  last <- mkIndexI G (N.to_nat (gf_N G) - 1) ;;
  locator <- (if (0 <? count)%nat then
     e <- rd erasures 0 ;; k <- i_div G last e ;; v <- gf_value G k ;; wr locator 1 v
   else Ok locator) ;;
  for_up 1 count (fun i locator =>
    e <- rd erasures i ;;
    tmp <- i_div G last e ;;
    for_down (S i) 0 (fun j locator =>
      x <- rd locator j ;;
      p <- iv_mul G tmp x ;;
      y <- rd locator (j + 1) ;;
      y <- v_add_assign G y p ;;
      wr locator (j + 1) y) locator) locator.

(** reed_solomon_error_correction.hh:221-223: while (!locator[locator_degree]) if (--locator_degree < 0) return -1; *)
Fixpoint rs_degree (locator : list N) (deg : nat) : res (option nat) :=
  x <- rd locator deg ;;
  if negb (nz x) then match deg with O => Ok None | S d => rs_degree locator d end else Ok (Some deg).

(** reed_solomon_error_correction.hh:200-228, 271 ReedSolomonErrorCorrection::operator(): count, locations, magnitudes *)
Definition rs_correction (G : gf) (NR FCR : nat) (imap : list N) (syn : list N) (locations magnitudes : list (option N))
    (erasures : list N) (erasures_count : nat) : res (Z * list (option N) * list (option N)) :=
  assert_ (erasures_count <=? NR)%nat ;;;
  locator <- rs_erasure_locator G NR erasures erasures_count ;;
  '(locator, deg) <- rs_bm G NR syn locator erasures_count ;;
  assert_ (negb (deg =? 0))%nat ;;;
  assert_ (deg <=? NR)%nat ;;;
  l0 <- rd locator 0 ;; one <- mkValueI G 1 ;; b <- v_eq G l0 one ;; assert_ b ;;;
  od <- rs_degree locator deg ;;
  match od with
  | None => Ok ((-1)%Z, locations, magnitudes)
  | Some deg =>
    '(count, locations) <- rs_search G imap locator deg locations ;;
    if (count <? deg)%nat then Ok ((-1)%Z, locations, magnitudes) else
    magnitudes <- rs_forney G NR FCR syn locator locations count magnitudes ;;
    Ok (Z.of_nat count, locations, magnitudes)
  end.

(** reed_solomon_decoder.hh:23-33 update_syndromes *)
Definition rs_update (G : gf) (NR FCR : nat) (poly : list N) (b e : nat) (syn : list (option N)) : res (list (option N)) :=
  for_up b e (fun j syn =>
    coeff <- rd poly j ;;
    root <- mkIndexI G FCR ;; pe <- mkIndexI G 1 ;;
    '(syn, _) <- for_up 0 NR (fun i '(syn, root) =>
       s <- rdu syn i ;;
       x <- fma_ivv G root s coeff ;;
       syn <- wru syn i x ;;
       root <- i_mul_assign G root pe ;;
       Ok (syn, root)) (syn, root) ;;
    Ok syn) syn.
(** reed_solomon_decoder.hh:35-49 compute_syndromes; [syn] is the caller's array, the new content and the result *)
Definition rs_syndromes (G : gf) (NR FCR : nat) (data parity : list N) (syn : list (option N)) (data_len : nat) : res (list (option N) * nat) :=
  assert_ ((0 <? data_len) && (data_len <=? rs_K G NR))%nat ;;;
  coeff <- rd data 0 ;;
  syn <- for_up 0 NR (fun i syn => wru syn i coeff) syn ;;
  syn <- rs_update G NR FCR data 1 data_len syn ;;
  syn <- rs_update G NR FCR parity 0 NR syn ;;
  nonzero <- for_up 0 NR (fun i c => s <- rdu syn i ;; Ok (if nz s then S c else c)) 0%nat ;;
  Ok (syn, nonzero).

(** reed_solomon_decoder.hh:50-92 operator(): the new data, parity and erasures, and the result *)
Definition rs_decode (G : gf) (NR FCR : nat) (imap : list N) (data parity erasures : list N) (erasures_count data_len : nat)
    : res (list N * list N * list N * Z) :=
  let K := rs_K G NR in
  assert_ (erasures_count <=? NR)%nat ;;;
  assert_ ((0 <? data_len) && (data_len <=? K))%nat ;;;
  erasures <- (if negb (erasures_count =? 0)%nat && (data_len <? K)%nat then
     for_up 0 erasures_count (fun i erasures =>
       e <- rd erasures i ;;
       k <- mkIndexI G (N.to_nat e + K - data_len) ;;
       wr erasures i k) erasures
   else Ok erasures) ;;
  '(syn, nonzero) <- rs_syndromes G NR FCR data parity (uninit N NR) data_len ;;
  if (nonzero =? 0)%nat then Ok (data, parity, erasures, 0%Z) else
  syn <- settled NR syn ;;
  '(count, locations, magnitudes) <- rs_correction G NR FCR imap syn (uninit N NR) (uninit N NR) erasures erasures_count ;;
  if (count <=? 0)%Z then Ok (data, parity, erasures, count) else
  let count := Z.to_nat count in
  bad <- for_up 0 count (fun i bad => l <- rdu locations i ;; Ok (bad || (N.to_nat l <? K - data_len)%nat)) false ;;
  if bad then Ok (data, parity, erasures, (-1)%Z) else
  '(data, parity) <- for_up 0 count (fun i '(data, parity) =>
     l <- rdu locations i ;;
     m <- rdu magnitudes i ;;
     let idx := (Z.of_N l + Z.of_nat data_len - Z.of_nat K)%Z in
     if (idx <? Z.of_nat data_len)%Z then
       x <- rdZ data idx ;; x <- v_add_assign G x m ;; data <- wrZ data idx x ;; Ok (data, parity)
     else
       let j := (idx - Z.of_nat data_len)%Z in
       x <- rdZ parity j ;; x <- v_add_assign G x m ;; parity <- wrZ parity j x ;; Ok (data, parity)) (data, parity) ;;
  corrections <- for_up 0 count (fun i c => m <- rdu magnitudes i ;; Ok (if nz m then S c else c)) 0%nat ;;
  Ok (data, parity, erasures, Z.of_nat corrections).
